(** Terms for a robot that is left alone: states at rest in binary32 arithmetic and the loop of
    controller, simulator and estimator. *)
From Coq Require Import ZArith Reals List Bool.
From Flocq Require Import Core BinarySingleNaN.
From Verif Require Import Base WallsModel Num ControlModel SimModel SimSpec.
Open Scope R_scope.

(** a number that is neither infinite nor NaN, and one that is 0 or -0. *)
Definition finite (x : f32) : Prop := is_finite x = true.
Definition zero (x : f32) : Prop := finite x /\ B2R x = 0.

(** a state at a place, without speed and acceleration. *)
Definition at_rest {lm} (s : @state (Fops lm)) : Prop :=
  let still (a : @axis3 (Fops lm)) := finite (sx a) /\ zero (sv a) /\ zero (sa a) in
  still (s_x s) /\ still (s_y s) /\ still (s_theta s).
(** two states with the same coordinates and the same heading. *)
Definition same_place {lm} (a b : @state (Fops lm)) : Prop :=
  B2R (sx (s_x a)) = B2R (sx (s_x b)) /\ B2R (sx (s_y a)) = B2R (sx (s_y b)) /\
  B2R (sx (s_theta a)) = B2R (sx (s_theta b)).

(** a libm with finite sines and cosines of finite numbers, and no 0 for the cosine of 0. *)
Definition sound_libm (lm : libm) : Prop :=
  (forall x, finite x -> finite (l_sin lm x) /\ finite (l_cos lm x)) /\
  (forall x, zero x -> B2R (l_cos lm x) <> 0).

(** numbers between 2^-100 and 2^100; gains that are finite, with a motor gain other than 0. *)
Definition usual (x : f32) : Prop := finite x /\ / 2 ^ 100 <= B2R x <= 2 ^ 100.
Definition usable {lm} (p : @control_parameters (Fops lm)) : Prop :=
  finite (kp p) /\ finite (ki p) /\ finite (kd p) /\ finite (model_t1 p) /\
  finite (model_k p) /\ B2R (model_k p) <> 0.

(** [n] rounds: the controller is asked for no speed and no acceleration, the voltages are applied,
    the simulator makes a step and the estimator reads the sensors. *)
Fixpoint idle {K : ops} (n : nat) (m : simulator) (c : controller) (e : estimator) (s : state) :
  simulator * controller * estimator * state :=
  match n with
  | O => (m, c, e, s)
  | S n' =>
      let '(m1, c1, e1, s1) := idle n' m c e s in
      let (o, c2) := control c1 (ControlTarget n0 n0 n0 n0) (measured m1) in
      let m2 := step (apply m1 o) in
      let (s2, e2) := estimate e1 s1 (sensed m2) in (m2, c2, e2, s2)
  end.
