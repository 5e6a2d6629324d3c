(** Vocabulary for the distance between the planned targets and the walls. *)
From Coq Require Import ZArith Reals List Bool.
From Verif Require Import Base WallsModel SearchModel SearchSpec ExploreModel Num ControlModel TrajModel TrajSpec.
Import ListNotations.
Open Scope R_scope.

(** A wall position that is not known to be free: every wall position which is off the board (the outer
    border on the left and at the bottom has no coordinates) or not open. *)
Definition solid (W : Z) (open : coord -> bool) (c : coord) : Prop :=
  Z.odd (cx c + cy c) = true /\ (on_board W c -> open c = false).

(** The point [(x, y)], in half squares from the corner of the maze, lies on the line between the two
    pillars at the ends of wall [c].  A wall with an odd [x] is the right wall of its cell. *)
Definition on_wall (c : coord) (x y : R) : Prop :=
  if Z.odd (cx c) then x = IZR (cx c) + 1 /\ IZR (cy c) <= y <= IZR (cy c) + 2
  else y = IZR (cy c) + 1 /\ IZR (cx c) <= x <= IZR (cx c) + 2.

(** The position of a target is at least [m] away from every wall, in a maze with squares of width [w]. *)
Definition clear (W : Z) (open : coord -> bool) (w m : R) (t : @target Rops) : Prop :=
  forall c x y, solid W open c -> on_wall c x y ->
    m <= dist_euc (tx (t_x t)) (tx (t_y t)) (x * (w / 2)) (y * (w / 2)).

(** The rounds of an exploration that moved: each state with the move that leaves it, and the last map and state. *)
Inductive explored (W : Z) (se : searcher) (truth : coord -> bool)
  : (nat -> list coord) -> walls -> search_state -> list (search_state * traj_kind) -> walls -> search_state -> Prop :=
  | explored_nil extra ws s : explored W se truth extra ws s [] ws s
  | explored_cons extra ws s n k ws' s' l we e :
      round W se truth (extra O) ws s = Ret (inl (ws', s')) ->
      valid W n -> ss_update s n = Ret (s', Some k) ->
      explored W se truth (fun i => extra (S i)) ws' s' l we e ->
      explored W se truth extra ws s ((s, k) :: l) we e.

(** Numbers with which a search can be driven (those of C89): squares of 90 mm, the turning points at most 5 mm
    before and 30 mm behind the walls, steps of at most a hundredth of a square, and room for stopping and starting in half a cell. *)
Definition drivable (w off stop : R) (g : @straight_generator Rops) (sg : @generator Rops) : Prop :=
  let v := g_v_max (sg_gen g) in let p := sg_period g in
  w = 9 / 100 /\ - (5 / 1000) <= off <= 30 / 1000 /\ 0 < p /\ v * p <= w / 100 /\ 0 < stop /\
  limits (sg_gen g) /\ limits sg /\ big_enough sg PI /\
  room (sg_gen g) (w / 2 - off) v 0 /\ room (sg_gen g) (w / 2 + off) 0 v /\
  ramp_distance (g_a_max (sg_gen g)) (g_j_max (sg_gen g)) 0 v < w / 2 + off.
