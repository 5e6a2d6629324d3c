(** Vocabulary for targets of the speed controller that change in any way. *)
From Coq Require Import Reals.
From Verif Require Import Num ControlModel TrajModel SimModel SimSpec.
Open Scope R_scope.

(** How far the next target speed [v'] is from what the feed-forward for speed [v] and acceleration [a] brings about on a
    first order lag (time constant [t1]) in a step of length [p]: the target speeds may not fit the target
    acceleration, and the step is taken at once instead of little by little. *)
Definition astray (t1 p v a v' : R) : R := Rabs (v' - (v + p * a)) + p * p / (t1 + p) * Rabs a.
(** How far the speeds are from the first target, and the error sums from zero. *)
Definition gap (m : @simulator Rops) (c : @controller Rops) (r : @control_target Rops) (v : R) : R :=
  Rabs (v - c_v r) + Rabs (sv (s_theta (m_current m)) - c_omega r) + Rabs (trans_sum c) + Rabs (rot_sum c).
(** The voltage of the feed-forward. *)
Definition feed (k t1 v a : R) : R := (v + a * t1) / k.
