(** Terms in which the properties of the simulator are stated. *)
From Coq Require Import ZArith Reals List Bool.
From Verif Require Import Base SearchModel SearchSpec WallsModel WallsSpec Num ControlModel TrajModel
  DetectModel DetectSpec SimModel.
Import ListNotations.
Open Scope R_scope.

(** a history of calls to a simulator. *)
Inductive command {K : ops} := Apply (o : motor_output) | Step.
Fixpoint runs {K : ops} (m : simulator) (l : list command) : simulator :=
  match l with
  | [] => m
  | Apply o :: l' => runs (apply m o) l'
  | Step :: l' => runs (step m) l'
  end.

(** the body moves with speed [v] along its heading. *)
Definition moves (s : @state Rops) (v : R) : Prop :=
  sv (s_x s) = v * cos (sx (s_theta s)) /\ sv (s_y s) = v * sin (sx (s_theta s)).

(** meaningful parameters. *)
Definition sim_ok (m : @simulator Rops) : Prop :=
  0 < m_period m /\ 0 <= m_trans_t1 m /\ 0 <= m_rot_t1 m /\ 0 <= m_max_voltage m /\
  Rabs (m_right_voltage m) <= m_max_voltage m /\ Rabs (m_left_voltage m) <= m_max_voltage m.

(** [b] follows [a] after the time [p]: positions by the trapezoidal rule, the heading by the new
    turn rate, accelerations as difference quotients. *)
Definition follows (p : R) (a b : @state Rops) : Prop :=
  sx (s_x b) - sx (s_x a) = p * ((sv (s_x a) + sv (s_x b)) / 2) /\
  sx (s_y b) - sx (s_y a) = p * ((sv (s_y a) + sv (s_y b)) / 2) /\
  sx (s_theta b) - sx (s_theta a) = p * sv (s_theta b) /\
  p * sa (s_x b) = sv (s_x b) - sv (s_x a) /\
  p * sa (s_y b) = sv (s_y b) - sv (s_y a) /\
  p * sa (s_theta b) = sv (s_theta b) - sv (s_theta a).

(** ** A simulated mouse with an estimator: voltages, a step, an estimate from the sensors. *)
Definition sensed {K : ops} (m : simulator) : sensor_value :=
  SensorValue (e_left (distance m)) (e_right (distance m))
    (sim_translational_acceleration m) (sim_angular_velocity m).
Fixpoint rounds {K : ops} (m : simulator) (e : estimator) (s : state) (l : list motor_output) :
  simulator * state :=
  match l with
  | [] => (m, s)
  | o :: l' => let m' := step (apply m o) in
               let (s', e') := estimate e s (sensed m') in rounds m' e' s' l'
  end.

(** ** A simulated mouse with a wall detector: readings from a list of sensor poses. *)
Fixpoint looks {K : ops} (W : Z) (m : simulator) (d : detector) (ps : list pose) :
  res (detector * list answer) :=
  match ps with
  | [] => Ret (d, [])
  | p :: ps' =>
      let* n := distance_from_wall W m p in
      let* (d1, a) := match n with
                      | Some n => detect_and_update W d (n_mean n) (n_stddev n) p
                      | None => Ret (d, None)
                      end in
      let* (d2, l) := looks W m d1 ps' in
      Ret (d2, a :: l)
  end.

Definition is_wall (s : wall_state) : bool := match s with Checked true => true | _ => false end.

(** the detector does not lean to the wrong side: an even chance or better for the truth. *)
Definition leans_to (W : Z) (st : coord -> wall_state) (d : @detector Rops) : Prop :=
  forall c, valid W c ->
    if is_wall (st c) then 1 / 2 <= belief W d c else belief W d c <= 1 / 2.

(** ** A simulated mouse with the speed controller: measure, control, apply the voltages, step. *)
Definition measured {K : ops} (m : simulator) : control_target :=
  ControlTarget (trans_vel (m_current m)) (sim_translational_acceleration m)
    (sim_angular_velocity m) (sa (s_theta (m_current m))).
Fixpoint servo {K : ops} (r : nat -> control_target) (n : nat) (m : simulator) (c : controller) :
  simulator * controller :=
  match n with
  | O => (m, c)
  | S n' => let (m1, c1) := servo r n' m c in
            let (o, c2) := control c1 (r n') (measured m1) in (step (apply m1 o), c2)
  end.

(** targets with constant accelerations, [p] apart. *)
Definition ramp (p : R) (r : @control_target Rops) (n : nat) : @control_target Rops :=
  @ControlTarget Rops (c_v r + INR n * p * c_a r)%R (c_a r) (c_omega r + INR n * p * c_alpha r)%R (c_alpha r).

(** the voltage that takes a first order lag (gain [k], time constant [t1]) from the speed [v] to
    [v + p * a] in a step of length [p]. *)
Definition needed (k t1 p v a : R) : R := (v + a * (t1 + p)) / k.
(** the error sum for which the integral part adds what the feed-forward part lacks. *)
Definition settled (k t1 p : R) (c : @control_parameters Rops) (v a : R) : R :=
  (needed k t1 p v a - (v + a * model_t1 c) / model_k c) / ki c.

(** the closed loop is stable (both roots of its characteristic polynomial inside the unit circle). *)
Definition stable_gains (k t1 p : R) (c : @control_parameters Rops) : Prop :=
  0 < k /\ 0 <= t1 /\ 0 < p /\ 0 < ki c /\ kd c = 0 /\
  p * k * ki c < 1 + k * kp c /\ p * (2 * (1 + k * kp c) - p * k * ki c) < 4 * (t1 + p).

(** how far speeds and error sums are from the target and the settled sums. *)
Definition offset (m : @simulator Rops) (c : @controller Rops) (r : @control_target Rops) (v : R) : R :=
  Rabs (v - c_v r) + Rabs (sv (s_theta (m_current m)) - c_omega r) +
  Rabs (trans_sum c - settled (m_trans_k m) (m_trans_t1 m) (m_period m) (trans_params c) (c_v r) (c_a r)) +
  Rabs (rot_sum c - settled (m_rot_k m) (m_rot_t1 m) (m_period m) (rot_params c) (c_omega r) (c_alpha r)).

(** like [rounds], with the final estimator. *)
Fixpoint tracks {K : ops} (m : simulator) (e : estimator) (s : state) (l : list motor_output) :
  simulator * estimator * state :=
  match l with
  | [] => (m, e, s)
  | o :: l' => let m' := step (apply m o) in
               let (s', e') := estimate e s (sensed m') in tracks m' e' s' l'
  end.
