(** Vocabulary for the tracker and the controller in binary32. *)
From Coq Require Import Reals List.
From Flocq Require Import Core BinarySingleNaN.
From Verif Require Import Num ControlModel FloatMoveSpec.
Import ListNotations.
Open Scope R_scope.

(** a target: at most 1024 m, m/s and m/s^2 along x and y, a jerk of at most 2^20, a heading of at
    most 2^24 rad, an angular velocity of at most 1024 rad/s, an angular acceleration of at most 2^20. *)
Definition usual_target {lm : libm} (t : @target (Fops lm)) : Prop :=
  Forall (fun a : @axis4 (Fops lm) => within (-1024) 1024 (tx a) /\ within (-1024) 1024 (tv a) /\ within (-1024) 1024 (ta a) /\
    within (-1048576) 1048576 (tj a)) [t_x t; t_y t] /\
  within (-16777216) 16777216 (tx (t_theta t)) /\ within (-1024) 1024 (tv (t_theta t)) /\
  within (-1048576) 1048576 (ta (t_theta t)).

(** an estimated state with the same limits. *)
Definition usual_state {lm : libm} (s : @state (Fops lm)) : Prop :=
  Forall (fun a : @axis3 (Fops lm) => within (-1024) 1024 (sx a) /\ within (-1024) 1024 (sv a) /\ within (-1024) 1024 (sa a))
    [s_x s; s_y s] /\
  within (-16777216) 16777216 (sx (s_theta s)) /\ within (-1024) 1024 (sv (s_theta s)) /\
  within (-1048576) 1048576 (sa (s_theta s)).

(** gains of at most 1024 and a model gain of at least 1/1024. *)
Definition usual_gains {lm : libm} (p : @control_parameters (Fops lm)) : Prop :=
  within (-1024) 1024 (kp p) /\ within (-1024) 1024 (ki p) /\ within (-1024) 1024 (kd p) /\
  within (-1024) 1024 (model_t1 p) /\ is_finite (model_k p : f32) = true /\ 1 / 1024 <= Rabs (B2R (model_k p : f32)).

(** the calls of one control period, without the supervisor: navigate, track, control. *)
Definition drive_step {K : ops} (n : navigation) (kc : tracker * controller) (st : state * target)
  : motor_output * (tracker * controller) :=
  let '(r, y, k) := track (fst kc) (fst st) (snd st) (navigate n (fst st) (snd st)) in
  let '(m, c) := control (snd kc) r y in (m, (k, c)).

(** the voltages of a sequence of periods. *)
Fixpoint drive {K : ops} (n : navigation) (kc : tracker * controller) (l : list (state * target)) : list motor_output :=
  match l with
  | [] => []
  | st :: l => let '(m, kc) := drive_step n kc st in m :: drive n kc l
  end.
