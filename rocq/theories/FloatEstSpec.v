(** Vocabulary for the estimator in binary32. *)
From Coq Require Import Reals.
From Flocq Require Import Core BinarySingleNaN.
From Verif Require Import Num ControlModel FloatMoveSpec.
Open Scope R_scope.

(** a reading of the sensors: each wheel moves at most 1/16 metre in a period, the acceleration is at
    most 256 m/s^2 and the angular velocity at most 64 rad/s in size. *)
Definition usual_reading {lm : libm} (v : @sensor_value (Fops lm)) : Prop :=
  within (- (1 / 16)) (1 / 16) (left_distance v) /\ within (- (1 / 16)) (1 / 16) (right_distance v) /\
  within (-256) 256 (translational_acceleration v) /\ within (-64) 64 (angular_velocity v).

(** a state to start from: within 64 metres, a heading from -4 to 4 and an ordinary angular velocity. *)
Definition usual_start {lm : libm} (s : @state (Fops lm)) : Prop :=
  within (-64) 64 (sx (s_x s)) /\ within (-64) 64 (sx (s_y s)) /\ within (-4) 4 (sx (s_theta s)) /\
  within (-64) 64 (sv (s_theta s)).

(** the cosine of a finite angle is not nearer to 0 than 2^-40. *)
Definition cos_apart (lm : libm) : Prop :=
  forall x : f32, is_finite x = true -> bpow radix2 (-40) <= Rabs (B2R (l_cos lm x)).

Definition finite_axis3 {lm : libm} (a : @axis3 (Fops lm)) : Prop :=
  is_finite (sx a : f32) = true /\ is_finite (sv a : f32) = true /\ is_finite (sa a : f32) = true.

(** every number of a state is finite. *)
Definition finite_state {lm : libm} (s : @state (Fops lm)) : Prop :=
  finite_axis3 (s_x s) /\ finite_axis3 (s_y s) /\ finite_axis3 (s_theta s).
