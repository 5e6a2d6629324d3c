(** Terms in which the properties of the loops of the integration tests are stated. *)
From Coq Require Import ZArith List Bool.
From Verif Require Import Base SearchModel WallsModel WallsSpec Num ControlModel TrajModel DetectModel SimModel RouteModel LoopModel SearchSpec.
Import ListNotations.
Open Scope Z_scope.

(** the map contradicts the maze nowhere. *)
Definition map_true (W : Z) (wall : coord -> bool) (w : walls) : Prop :=
  forall c, valid W c -> walls_state W w c = Ret Unchecked \/ walls_state W w c = Ret (Checked (wall c)).

(** the mouse is planned to cross an opening that can be reached from the start. *)
Definition robot_free (W : Z) (wall : coord -> bool) (s : search_state) : Prop :=
  valid W (ss_coord s) /\ crosses (ss_coord s) (ss_posture s) /\ wall (ss_coord s) = false /\
  reaches (step W (fun c => negb (wall c))) (ss_coord s) (Co 0 1).

(** no trajectory is left to take a target from. *)
Definition starved {K : ops} (l : search_vars) : Prop := take_target (l_trajectory l) (l_next l) = Panic.

(** the map has lost the opening of the start square, before which the mouse stands. *)
Definition start_lost {K : ops} (W : Z) (l : search_vars) : Prop :=
  ss_coord (l_robot l) = Co 0 1 /\ walls_state W (l_walls l) (Co 0 1) = Ret Unchecked.

(** the path compared at the end (tests/search.rs 336-345), for the map [w]. *)
Definition path_on (W : Z) (se : searcher) (w : walls) : res (option (list coord)) :=
  shortest_path W se (fun c => let* t := walls_state W w c in Ret (negb (is_checked_false t))).
