(** Vocabulary for the simulator in binary32. *)
From Coq Require Import Reals List.
From Flocq Require Import Core BinarySingleNaN.
From Verif Require Import Num ControlModel SimModel SimSpec FloatMoveSpec FloatEstSpec.
Import ListNotations.
Open Scope R_scope.

(** sine and cosine of a finite angle are finite and hardly outside the unit circle. *)
Definition near_circle (lm : libm) : Prop :=
  forall x : f32, is_finite x = true -> is_finite (l_sin lm x) = true /\ is_finite (l_cos lm x) = true /\
    B2R (l_sin lm x) * B2R (l_sin lm x) + B2R (l_cos lm x) * B2R (l_cos lm x) <= 4097 / 4096.

(** positions, headings and speeds within 64, accelerations within 1024. *)
Definition usual_body {lm : libm} (s : @state (Fops lm)) : Prop :=
  Forall (fun a : @axis3 (Fops lm) => within (-64) 64 (sx a) /\ within (-64) 64 (sv a) /\ within (-1024) 1024 (sa a))
    [s_x s; s_y s; s_theta s].

(** the voltages of the commands are numbers or infinities. *)
Definition no_nan {lm : libm} (c : @command (Fops lm)) : Prop :=
  match c with Apply o => is_nan (m_left o : f32) = false /\ is_nan (m_right o : f32) = false | Step => True end.

(** everything that can be read from a simulator is finite. *)
Definition finite_sim {lm : libm} (m : @simulator (Fops lm)) : Prop :=
  finite_state (m_current m) /\ finite_state (m_last m) /\
  is_finite (e_left (distance m) : f32) = true /\ is_finite (e_right (distance m) : f32) = true /\
  is_finite (sim_angular_velocity m : f32) = true /\ is_finite (sim_translational_acceleration m : f32) = true.
