(** Vocabulary for the statements about moves planned in binary32. *)
From Coq Require Import Reals.
From Flocq Require Import Core BinarySingleNaN.
From Verif Require Import Num ControlModel TrajModel.
Open Scope R_scope.

(** a finite number from [a] to [b]. *)
Definition within (a b : R) (x : f32) : Prop := is_finite x = true /\ a <= B2R x <= b.

(** limits of a generator: speed from 1/128 to 32, acceleration from 1 to 1024, jerk from 16 to
    65536 (metres or radians, and seconds). *)
Definition usual_limits {lm : libm} (g : @generator (Fops lm)) : Prop :=
  within (1 / 128) 32 (g_v_max g) /\ within 1 1024 (g_a_max g) /\ within 16 65536 (g_j_max g).

(** a distance from 1/1024 to 8, in either direction. *)
Definition usual_distance (d : f32) : Prop := is_finite d = true /\ 1 / 1024 <= Rabs (B2R d) <= 8.

Definition finite_axis {lm : libm} (a : @axis4 (Fops lm)) : Prop :=
  is_finite (tx a : f32) = true /\ is_finite (tv a : f32) = true /\
  is_finite (ta a : f32) = true /\ is_finite (tj a : f32) = true.

(** every number of a target is finite. *)
Definition finite_target {lm : libm} (t : @target (Fops lm)) : Prop :=
  finite_axis (t_x t) /\ finite_axis (t_y t) /\ finite_axis (t_theta t).

(** all that is asked of the sine and the cosine: for a finite angle they are finite and at most 2
    in size. *)
Definition calm_trig (lm : libm) : Prop :=
  forall x : f32, is_finite x = true -> within (-2) 2 (l_sin lm x) /\ within (-2) 2 (l_cos lm x).

(** parameters of a curve: the end within 8 metres, an ordinary angle, the reference speed from 1/16
    to 4 and the turning limits near the default ones (3 pi, 36 pi and 1200 pi). *)
Definition usual_curve {lm : libm} (q : @slalom_params (Fops lm)) : Prop :=
  within (-8) 8 (x_curve_end q) /\ within (-8) 8 (y_curve_end q) /\ usual_distance (sl_theta q) /\
  within (1 / 16) 4 (v_ref q) /\ within 8 10 (dtheta q) /\ within 64 128 (ddtheta q) /\
  within 3000 4096 (dddtheta q).

(** a speed from a quarter of the reference speed to two and a half times that speed. *)
Definition curve_speed {lm : libm} (q : @slalom_params (Fops lm)) (v : f32) : Prop :=
  within (B2R (v_ref q : f32) / 4) (5 / 2 * B2R (v_ref q : f32)) v.
