(** Vocabulary for the trajectory properties, independent of the model functions. *)
From Coq Require Import ZArith Reals List Bool.
From Flocq Require Import Core.
From Verif Require Import Base Num SearchModel RunModel ControlModel TrajModel.
Import ListNotations.
Open Scope R_scope.

(** A motion along a line at all times: [v] is the derivative of [x], [a] the derivative of [v],
    [j] the derivative of [a] except at the times [ex], and [a] changes by at most [J] per unit
    of time (so that it is continuous also at the times [ex]). *)
Record motion (x v a j : R -> R) (ex : list R) (J : R) : Prop := Motion {
  mo_x : forall t, derivable_pt_lim x t (v t);
  mo_v : forall t, derivable_pt_lim v t (a t);
  mo_a : forall t, ~ In t ex -> derivable_pt_lim a t (j t);
  mo_lip : forall s t, Rabs (a s - a t) <= J * Rabs (s - t) }.

(** [f] follows a motion during [0, T]: the values at these times are the position, velocity,
    acceleration and jerk of one motion. *)
Definition follows (f : R -> @axis4 Rops) (T J : R) : Prop :=
  exists x v a j ex, motion x v a j ex J /\
    forall t, 0 <= t <= T ->
      tx (f t) = x t /\ tv (f t) = v t /\ ta (f t) = a t /\ (~ In t ex -> tj (f t) = j t).

(** The time of a speed change of size [dv >= 0] under limits [a] on acceleration and [j] on
    jerk, starting and ending without acceleration: full jerk up, full acceleration if there is
    time for it, full jerk down. *)
Definition ramp_time (a j dv : R) : R :=
  if Rle_dec (a * a / j) dv then dv / a + a / j else 2 * sqrt (dv / j).

(** ... and the distance covered while doing so (the mean speed times the time). *)
Definition ramp_distance (a j v0 v1 : R) : R :=
  (v0 + v1) / 2 * ramp_time a j (Rabs (v1 - v0)).

(** the state of an iterator after [n] calls of [next], and what the next call returns. *)
Definition after {K : ops} {S} (next : iterator S) (n : nat) (s : S) : S :=
  Nat.iter n (fun s => snd (next s)) s.
Definition output {K : ops} {S} (next : iterator S) (n : nat) (s : S) : option target :=
  fst (next (after next n s)).

(** the iterator yields exactly [n] targets, and then [None] for ever. *)
Definition yields {K : ops} {S} (next : iterator S) (s : S) (n : nat) : Prop :=
  forall k, (k < n)%nat <-> output next k s <> None.

(** the pose [q], given in the frame of [p]. *)
Definition compose (p q : @pose Rops) : @pose Rops :=
  @Pose Rops (p_x p + (p_x q * cos (p_theta p) - p_y q * sin (p_theta p)))%R
       (p_y p + (p_x q * sin (p_theta p) + p_y q * cos (p_theta p)))%R
       (p_theta p + p_theta q)%R.

(** two poses whose coordinates differ by at most [eps] and whose headings are equal up to full
    turns. *)
Definition near (eps : R) (p q : @pose Rops) : Prop :=
  Rabs (p_x p - p_x q) <= eps /\ Rabs (p_y p - p_y q) <= eps /\
  exists k : Z, p_theta p = (p_theta q + 2 * PI * IZR k)%R.

(** There is room for a straight of length [d] from speed [vs] towards speed [ve]: either it
    speeds up, or braking to every intermediate speed takes less than [d]; and, starting at rest,
    [d] is not so short that the smallest peak speed which the planner can represent
    (v_max / 2^25) cannot be used. *)
Definition room (g : @generator Rops) (d vs ve : R) : Prop :=
  (vs < ve \/ forall w, ve <= w <= vs -> ramp_distance (g_a_max g) (g_j_max g) vs w < d) /\
  (0 < vs \/ 2 * ramp_distance (g_a_max g) (g_j_max g) 0 (g_v_max g / 2 ^ 25) <= d).

(** positive limits. *)
Definition limits (g : @generator Rops) : Prop :=
  0 < g_v_max g /\ 0 < g_a_max g /\ 0 < g_j_max g.

(** standing still at a pose. *)
Definition rest_at (q : @pose Rops) : @target Rops :=
  @Target Rops (@Axis4 Rops (p_x q) 0%R 0%R 0%R) (@Axis4 Rops (p_y q) 0%R 0%R 0%R)
    (@Axis4 Rops (p_theta q) 0%R 0%R 0%R).

(** the mirror image at the x axis. *)
Definition neg4 (a : @axis4 Rops) : @axis4 Rops :=
  @Axis4 Rops (- tx a)%R (- tv a)%R (- ta a)%R (- tj a)%R.
Definition mirror (t : @target Rops) : @target Rops :=
  @Target Rops (t_x t) (neg4 (t_y t)) (neg4 (t_theta t)).

(** Where the run moves end in the frame of the mouse (tests/run.rs 189-206: straights of x
    squares, diagonals of x half diagonals; slaloms end [l_end] after the end of the curve). *)
Definition slalom_end (q : @slalom_params Rops) : @pose Rops :=
  compose (@Pose Rops (x_curve_end q) (y_curve_end q) (sl_theta q)) (@Pose Rops (l_end q) 0%R 0%R).
Definition run_end (w off : R) (t : rtraj) : @pose Rops :=
  match t with
  | RStraight x => @Pose Rops (IZR x * w)%R 0%R 0%R
  | RStraightDiagonal x => @Pose Rops (IZR x * w / sqrt 2)%R 0%R 0%R
  | RSlalom k d => slalom_end (@parameters Rops w off (Some k) d)
  end.

(** Where the search moves end in the frame of the mouse (tests/search.rs 181-233). *)
Definition search_end (w off : R) (k : traj_kind) : @pose Rops :=
  match k with
  | Front => @Pose Rops w 0%R 0%R
  | Right => slalom_end (@parameters Rops w off None SRight)
  | Left => slalom_end (@parameters Rops w off None SLeft)
  | Back => compose (@Pose Rops (w / 2 - off)%R 0%R 0%R)
              (compose (@Pose Rops 0%R 0%R PI) (@Pose Rops (w / 2 + off)%R 0%R 0%R))
  end.

(** driving along the x axis with speed [v], now at [x]. *)
Definition along (v x : R) : @target Rops :=
  let z := @Axis4 Rops 0%R 0%R 0%R 0%R in @Target Rops (@Axis4 Rops x v 0%R 0%R) z z.

(** the number of samples with period [p] in a time [T]. *)
Definition samples (T p : R) : nat := Z.to_nat (Zfloor (T / p) + 1).

(** the sign of the direction of travel. *)
Definition sgn (d : R) : R := if Rlt_dec d 0 then -1 else 1.

(** the distance from rest to rest is not so short that the smallest peak speed which the planner
    can represent (v_max / 2^25) cannot be used. *)
Definition big_enough (g : @generator Rops) (d : R) : Prop :=
  2 * ramp_distance (g_a_max g) (g_j_max g) 0 (g_v_max g / 2 ^ 25) <= Rabs d.

(** a turn by [d] starting at the heading [th0], from rest to rest in time [T]: a smooth motion
    within the limits of [g], never turning back. *)
Definition turns (f : R -> @axis4 Rops) (g : @generator Rops) (T th0 d : R) : Prop :=
  0 <= T /\ follows f T (g_j_max g) /\
  (forall t, 0 <= t <= T ->
     Rabs (tv (f t)) <= g_v_max g /\ Rabs (ta (f t)) <= g_a_max g /\ Rabs (tj (f t)) <= g_j_max g) /\
  (tx (f 0) = th0 /\ tv (f 0) = 0 /\ ta (f 0) = 0) /\
  (tx (f T) = th0 + d /\ tv (f T) = 0 /\ ta (f T) = 0) /\
  (forall s t, 0 <= s <= t -> t <= T ->
     if Rlt_dec d 0 then tx (f t) <= tx (f s) else tx (f s) <= tx (f t)).

(** the turning limits of a curve driven with speed [v]: those for [v_ref] on another time scale. *)
Definition curve_gen (v v_ref dth ddth dddth : R) : @generator Rops :=
  let k := v / v_ref in
  @Generator Rops (k * dth)%R (k * k * ddth)%R (k * k * k * dddth)%R.

(** the parameters of the mirrored slalom. *)
Definition flip_params (q : @slalom_params Rops) : @slalom_params Rops :=
  @SlalomParams Rops (l_start q) (l_end q) (x_curve_end q) (- y_curve_end q)%R (- sl_theta q)%R
    (v_ref q) (dtheta q) (ddtheta q) (dddtheta q).

(** ... of a slalom. *)
Definition slalom_gen (q : @slalom_params Rops) (v : R) : @generator Rops :=
  curve_gen v (v_ref q) (dtheta q) (ddtheta q) (dddtheta q).

(** the relative error of the positions of a curve sampled with period [p], for turning rate,
    acceleration and jerk below [W], [A] and [J]: third order in [p] up to the rounding of the
    two quadrature nodes. *)
Definition quad_error (W A J p : R) : R :=
  2 / 100000000 * (W * p) + 1 / 100000000 * ((W * W + A) * (p * p))
  + (J + 3 * W * A + W * W * W) * (p * p * p) / 100.

(** the centre of a cell, and the unit vector scale of the eight directions. *)
Definition centre (w : R) (cell : Z * Z) : R * R := ((IZR (fst cell) + 1 / 2) * w, (IZR (snd cell) + 1 / 2) * w).
Definition dvec (p : dir8) : Z * Z :=
  match p with
  | PN => (0, 1) | PNE => (1, 1) | PE => (1, 0) | PSE => (1, -1)
  | PS => (0, -1) | PSW => (-1, -1) | PW => (-1, 0) | PNW => (-1, 1)
  end%Z.
(** [th] is the direction of the vector [v]. *)
Definition heads (th : R) (v : Z * Z) : Prop :=
  let n := sqrt (IZR (fst v * fst v + snd v * snd v)) in
  n * cos th = IZR (fst v) /\ n * sin th = IZR (snd v).

(** the way of a mouse that drives with speed [v] and heading [th], from [(x0, y0)] at time 0. *)
Definition drives (v : R) (th : R -> R) (T x0 y0 : R) (X Y : R -> R) : Prop :=
  X 0 = x0 /\ Y 0 = y0 /\
  forall u, 0 <= u <= T -> derivable_pt_lim X u (v * cos (th u)) /\ derivable_pt_lim Y u (v * sin (th u)).
