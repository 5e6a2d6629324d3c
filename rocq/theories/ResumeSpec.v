(** How the loop of the search test may begin (C114, C115). *)
From Coq Require Import ZArith List Bool.
From Verif Require Import Base SearchModel WallsModel WallsSpec Num NumLemmas ControlModel TrajModel DetectModel SimModel RouteModel LoopModel SearchSpec LoopSpec.
Import ListNotations.
Open Scope Z_scope.

(** as in the test: with an empty map and a new detector, in front of the start square. *)
Definition begins {K : ops} (W : Z) (l : search_vars) : Prop :=
  walls_new W = Ret (l_walls l) /\ l_detector l = detector_new /\ l_commander l = None /\ l_robot l = SS (Co 0 1) North.

(** with a map saved earlier that does not contradict the maze, a detector made from this map by
    [with_walls], and a mouse planned to cross any opening known to the map. *)
Definition resumes {K : ops} (W : Z) (wall : coord -> bool) (l : search_vars) : Prop :=
  walls_ok (l_walls l) /\ map_true W wall (l_walls l) /\ with_walls W (l_walls l) = Ret (l_detector l) /\
  l_commander l = None /\ robot_free W wall (l_robot l) /\ walls_state W (l_walls l) (ss_coord (l_robot l)) = Ret (Checked false).
