(** Vocabulary for the joined trajectories of a route. *)
From Coq Require Import ZArith Reals List Bool.
From Verif Require Import Base SearchModel SearchSpec RunModel Num ControlModel TrajModel TrajSpec RouteModel.
Import ListNotations.
Open Scope R_scope.

(** the distance between the positions, and between the velocities, of two targets. *)
Definition gap (s t : @target Rops) : R := dist_euc (tx (t_x s)) (tx (t_y s)) (tx (t_x t)) (tx (t_y t)).
Definition speed_gap (s t : @target Rops) : R := dist_euc (tv (t_x s)) (tv (t_y s)) (tv (t_x t)) (tv (t_y t)).
(** the headings differ by at most [h], up to full turns. *)
Definition turn_gap (h : R) (s t : @target Rops) : Prop :=
  exists k : Z, Rabs (tx (t_theta t) - tx (t_theta s) + 2 * PI * IZR k) <= h.
Definition close (d h c : R) (s t : @target Rops) : Prop := gap s t <= d /\ turn_gap h s t /\ speed_gap s t <= c.
(** each target is close to the one before. *)
Definition smooth (d h c : R) (l : list (@target Rops)) : Prop :=
  forall l1 s t l2, l = l1 ++ s :: t :: l2 -> close d h c s t.

(** being at a pose with a speed in the direction of the heading. *)
Definition passing (q : @pose Rops) (v : R) (t : @target Rops) : Prop :=
  tx (t_x t) = p_x q /\ tx (t_y t) = p_y q /\ tx (t_theta t) = p_theta q /\
  tv (t_x t) = v * cos (p_theta q) /\ tv (t_y t) = v * sin (p_theta q).

(** the queue of trajectories hands out exactly the targets [l] and then ends, without panic. *)
Inductive serves {K : ops} : list boxed -> list target -> Prop :=
  | serves_end r r' : route_next r = Ret (None, r') -> serves r []
  | serves_next r t r' l : route_next r = Ret (Some t, r') -> serves r' l -> serves r (t :: l).

(** the moves of a search robot: each state with the move that leaves it, and the last state. *)
Inductive walks (W : Z) : search_state -> list (search_state * traj_kind) -> search_state -> Prop :=
  | walks_nil s : walks W s [] s
  | walks_cons s n k s' l e : valid W n -> ss_update s n = Ret (s', Some k) -> walks W s' l e -> walks W s ((s, k) :: l) e.

(** There is room for a move of a run which starts with speed [v]: all its straight parts have room
    and its curve is not driven with speed 0. *)
Definition leg_room (w off : R) (g : @straight_generator Rops) (t : rtraj) (v m e : R) : Prop :=
  let G := sg_gen g in
  0 <= m <= g_v_max G /\ 0 <= e <= g_v_max G /\
  match t with
  | RStraight x => room G (IZR x * w) v e
  | RStraightDiagonal x => room G (IZR x * w / sqrt 2) v e
  | RSlalom k d =>
      let q := @parameters Rops w off (Some k) d in
      let u := snd (@straight_generate_tv Rops g (l_start q) v m) in
      room G (l_start q) v m /\ 0 < u /\ room G (l_end q) u e
  end.
(** ... and for all moves of a path, each of which is planned to start with the speed with which the
    one before ends, up to [e]. *)
Fixpoint route_room (w off : R) (g : @straight_generator Rops) (run_v e : R) (n : nat) (path : list node) (i : nat) (v : R) : Prop :=
  match path with
  | a :: ((b :: _) as path') =>
      forall t, trajectory_kind a b = Ret (Some t) ->
      let '(v0, v1, v2) := @run_speeds Rops run_v i n v in
      Rabs (v - v0) <= e /\ 0 <= v0 <= g_v_max (sg_gen g) /\ leg_room w off g t v0 v1 v2 /\
      route_room w off g run_v e n path' (S i) (snd (@run_leg Rops w off g t v0 v1 v2))
  | _ => True
  end.
