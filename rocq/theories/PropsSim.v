(** The properties of the simulator (C53-C55, C82-C84, C86, C88). *)
From Coq Require Import ZArith Reals List Bool Lia Lra.
From Flocq Require Import Core BinarySingleNaN.
From Verif Require Import Base SearchModel SearchSpec SearchCoord WallsModel WallsSpec WallsLemmas Num NumLemmas
  ControlModel TrajModel DetectModel DetectSpec DetectProofs4 DetectProofs5 DetectProofs6 SimModel SimSpec SimProofs SimServo SimEstimate.
Import ListNotations.
Open Scope R_scope.

(** ** C53: in exact arithmetic, whatever is applied, the voltages stay within the maximum and
    the speeds within the larger of their first value and gain times maximum. *)
Theorem C53_bounded (m : @simulator Rops) v0 l : sim_ok m -> moves (m_current m) v0 ->
  let m' := runs m l in
  Rabs (m_right_voltage m') <= m_max_voltage m /\ Rabs (m_left_voltage m') <= m_max_voltage m /\
  (exists v, moves (m_current m') v /\
     Rabs v <= Rmax (Rabs v0) (Rabs (m_trans_k m) * m_max_voltage m)) /\
  Rabs (sv (s_theta (m_current m'))) <=
    Rmax (Rabs (sv (s_theta (m_current m)))) (Rabs (m_rot_k m) * m_max_voltage m).
Proof.
  intros Hok Hmv. cbv zeta.
  destruct (bounded l m v0 (Rmax (Rabs v0) (Rabs (m_trans_k m) * m_max_voltage m))
    (Rmax (Rabs (sv (s_theta (m_current m)))) (Rabs (m_rot_k m) * m_max_voltage m)) Hok Hmv)
    as ((_ & _ & Em & _) & (_ & _ & _ & _ & H1 & H2) & I1 & I2); try apply Rmax_l; try apply Rmax_r.
  rewrite Em in H1, H2. auto.
Qed.
Print Assumptions C53_bounded.

(** Voltages inside the range are applied as they are, those outside at the nearer end. *)
Theorem C53_apply (m : @simulator Rops) (o : @motor_output Rops) : 0 <= m_max_voltage m ->
  let mx := m_max_voltage m in
  let nearest v u := (Rabs v <= mx -> u = v) /\ (mx < v -> u = mx) /\ (v < - mx -> u = - mx) in
  nearest (m_left o) (m_left_voltage (apply m o)) /\ nearest (m_right o) (m_right_voltage (apply m o)) /\
  m_current (apply m o) = m_current m.
Proof.
  intros Hm. cbv zeta.
  assert (N : forall v, (Rabs v <= m_max_voltage m -> @limit Rops (m_max_voltage m) v = v) /\
    (m_max_voltage m < v -> @limit Rops (m_max_voltage m) v = m_max_voltage m) /\
    (v < - m_max_voltage m -> @limit Rops (m_max_voltage m) v = - m_max_voltage m)).
  { intros v. split; [apply limit_id|]. unfold limit. rops. split; intros H.
    - destruct (Rltb_spec (m_max_voltage m) v); [reflexivity|lra].
    - destruct (Rltb_spec (m_max_voltage m) v); [lra|]. destruct (Rltb_spec v (- m_max_voltage m)); [reflexivity|lra]. }
  split; [apply N|]. split; [apply N|reflexivity].
Qed.
Print Assumptions C53_apply.

(** A mouse at rest in the first cell, with 3 V at most. *)
Definition rest : @state Rops := @State Rops (@Axis3 Rops (45 / 1000)%R 0%R 0%R)
  (@Axis3 Rops (45 / 1000)%R 0%R 0%R) (@Axis3 Rops (PI / 2)%R 0%R 0%R).
Definition mouse (w : walls) : @simulator Rops :=
  @simulator_new Rops w rest rest 3%R (1 / 1000)%R 1%R (3 / 10)%R 10%R (1 / 10)%R (30 / 1000)%R.

Lemma mouse_ok w : sim_ok (mouse w) /\ moves (m_current (mouse w)) 0.
Proof.
  unfold sim_ok, moves, mouse, simulator_new, rest. cbn. rops.
  replace (0 / 1) with 0 by lra. rewrite Rabs_R0. repeat split; lra.
Qed.

Example C53_example w : sim_ok (mouse w) /\ moves (m_current (mouse w)) 0 /\
  let m' := runs (mouse w) [@Apply Rops (@MotorOutput Rops 5%R (-7)%R); @Step Rops] in
  m_left_voltage m' = 3%R /\ m_right_voltage m' = (-3)%R.
Proof.
  split; [apply mouse_ok|]. split; [apply mouse_ok|].
  destruct (C53_apply (mouse w) (@MotorOutput Rops 5%R (-7)%R)) as ((_ & L & _) & (_ & _ & Rr) & _); [cbn; lra|].
  split; [apply L; cbn; lra|]. apply Rr. cbn. lra.
Qed.

(** ** C54: one step after any history. *)
Theorem C54_motion (m : @simulator Rops) v0 l : sim_ok m -> moves (m_current m) v0 ->
  let a := m_current (runs m l) in
  let m' := runs m (l ++ [Step]) in
  m_last m' = a /\ follows (m_period m) a (m_current m') /\
  exists u v, moves a u /\ moves (m_current m') v /\
    (e_left (distance m') + e_right (distance m')) / 2 = (u + v) / 2 * m_period m /\
    e_right (distance m') - e_left (distance m') =
      (sv (s_theta a) + sv (s_theta (m_current m'))) / 2 * m_wheel_interval m * m_period m /\
    sim_angular_velocity m' = sv (s_theta (m_current m')) /\
    sim_translational_acceleration m' =
      sa (s_x (m_current m')) * cos (sx (s_theta (m_current m'))) +
      sa (s_y (m_current m')) * sin (sx (s_theta (m_current m'))).
Proof.
  intros Hok Hmv. cbv zeta. rewrite runs_app. cbn [runs].
  destruct (bounded l m v0 (Rmax (Rabs v0) (Rabs (m_trans_k m) * m_max_voltage m))
    (Rmax (Rabs (sv (s_theta (m_current m)))) (Rabs (m_rot_k m) * m_max_voltage m)) Hok Hmv)
    as (P & (Hp & _) & (u & Mu & _) & _); try apply Rmax_l; try apply Rmax_r.
  destruct P as (_ & Ep & _ & _ & _ & _ & _ & Ew).
  destruct (step_follows (runs m l) u Hp Mu) as [L F]. rewrite Ep in F.
  split; [exact L|]. split; [exact F|]. exists u, (next_trans_vel (runs m l)).
  split; [exact Mu|]. split; [apply step_moves|].
  destruct (encoders (step (runs m l)) (next_trans_vel (runs m l)) u (step_moves _) Mu) as [E1 E2].
  cbn [step m_period m_wheel_interval m_last] in E1, E2. fold (step (runs m l)) in E1, E2.
  rewrite Ep in E1, E2. rewrite Ew in E2.
  split; [rewrite (Rplus_comm u); exact E1|].
  split; [rewrite (Rplus_comm (sv (s_theta (m_current (runs m l))))); exact E2|]. split; reflexivity.
Qed.
Print Assumptions C54_motion.

(** Full voltage from rest: the first step reaches 3/301 m/s and covers half a period of it. *)
Example C54_example w : let m' := runs (mouse w) ([@Apply Rops (@MotorOutput Rops 3%R 3%R)] ++ [@Step Rops]) in
  moves (m_current m') (3 / 301) /\ e_left (distance m') = 3 / 301 / 2 * (1 / 1000).
Proof.
  cbv zeta. cbn [app runs].
  assert (E : @next_trans_vel Rops (apply (mouse w) (@MotorOutput Rops 3%R 3%R)) = 3 / 301).
  { unfold next_trans_vel. rewrite (trans_vel_moves _ 0).
    - cbn. rewrite (limit_id 3 3) by (rewrite Rabs_pos_eq; lra). rops. field.
    - apply (mouse_ok w). }
  assert (E2 : @next_rot_vel Rops (apply (mouse w) (@MotorOutput Rops 3%R 3%R)) = 0).
  { unfold next_rot_vel. cbn. rewrite (limit_id 3 3) by (rewrite Rabs_pos_eq; lra). rops. field. }
  pose proof (step_moves (apply (mouse w) (@MotorOutput Rops 3%R 3%R))) as M.
  rewrite E in M. split; [exact M|].
  destruct (encoders _ _ 0 M (proj2 (mouse_ok w))) as [D1 D2].
  set (m1 := step (apply (mouse w) (@MotorOutput Rops 3%R 3%R))) in *.
  assert (P : m_period m1 = 1 / 1000) by reflexivity.
  assert (T : sv (s_theta (m_current m1)) = 0) by exact E2.
  assert (T0 : sv (s_theta (m_last m1)) = 0) by reflexivity.
  rewrite P in D1, D2. rewrite T, T0 in D2. clearbody m1. change (@num Rops) with R in *. lra.
Qed.

(** ** C55: false in f32: a NaN passes both comparisons. *)
Theorem C55_voltage_refuted lm : exists (m : @simulator (Fops lm)) (o : @motor_output (Fops lm)),
  is_finite (m_max_voltage m : f32) = true /\ Bltb (f32_of_Z 0) (m_max_voltage m : f32) = true /\
  is_nan (m_left_voltage (apply m o) : f32) = true /\ is_nan (m_right_voltage (apply m o) : f32) = true.
Proof.
  set (z := @Axis3 (Fops lm) (f32_of_Z 0) (f32_of_Z 0) (f32_of_Z 0)). set (s := @State (Fops lm) z z z).
  exists (@simulator_new (Fops lm) (anew 0 0%Z) s s (f32_of_Z 3) (f32_of_Z 1) (f32_of_Z 1) (f32_of_Z 1)
    (f32_of_Z 1) (f32_of_Z 1) (f32_of_Z 1)).
  exists (@MotorOutput (Fops lm) B754_nan B754_nan). cbn -[f32_of_Z]. repeat split; vm_compute; reflexivity.
Qed.
Print Assumptions C55_voltage_refuted.

(** What holds: every other value, infinities included, is stored within the maximum. *)
Theorem C55_voltage_partial lm (m : @simulator (Fops lm)) (o : @motor_output (Fops lm)) :
  is_finite (m_max_voltage m : f32) = true -> 0 <= B2R (m_max_voltage m : f32) ->
  is_nan (m_left o : f32) = false -> is_nan (m_right o : f32) = false ->
  let ok (v : f32) := is_finite v = true /\ Rabs (B2R v) <= B2R (m_max_voltage m : f32) in
  ok (m_left_voltage (apply m o)) /\ ok (m_right_voltage (apply m o)).
Proof.
  intros Fm Hm Nl Nr. cbv zeta. cbn [apply m_left_voltage m_right_voltage].
  set (mx := m_max_voltage m : f32) in *.
  assert (L : forall v : f32, is_nan v = false ->
    is_finite (@limit (Fops lm) mx v : f32) = true /\ Rabs (B2R (@limit (Fops lm) mx v : f32)) <= B2R mx).
  { intros v Nv. unfold limit. cbn [ltb opp Fops].
    assert (Ho : is_finite (Bopp mx) = true) by (rewrite is_finite_Bopp; exact Fm).
    assert (Eo : B2R (Bopp mx) = - B2R mx) by apply B2R_Bopp.
    assert (A1 : Rabs (B2R mx) <= B2R mx) by (rewrite Rabs_pos_eq; lra).
    assert (A2 : Rabs (B2R (Bopp mx)) <= B2R mx) by (rewrite Eo, Rabs_Ropp; exact A1).
    destruct (is_finite v) eqn:Fv.
    - rewrite (Bltb_correct 24 128 mx v Fm Fv). destruct (Rlt_bool_spec (B2R mx) (B2R v)); [auto|].
      rewrite (Bltb_correct 24 128 v (Bopp mx) Fv Ho), Eo. destruct (Rlt_bool_spec (B2R v) (- B2R mx)); [auto|].
      split; [exact Fv|]. apply Rabs_le. lra.
    - destruct v as [| [|] | |]; try discriminate.
      + assert (C1 : Bltb mx (B754_infinity true) = false) by (clear -Fm; destruct mx as [|? | |]; try discriminate; try destruct s; reflexivity).
        assert (C2 : Bltb (B754_infinity true) (Bopp mx) = true) by (clear -Ho; destruct (Bopp mx) as [|? | |]; try discriminate; try destruct s; reflexivity).
        rewrite C1, C2. auto.
      + assert (C1 : Bltb mx (B754_infinity false) = true) by (clear -Fm; destruct mx as [|? | |]; try discriminate; try destruct s; reflexivity).
        rewrite C1. auto. }
  split; apply L; assumption.
Qed.
Print Assumptions C55_voltage_partial.

Example C55_example lm :
  @limit (Fops lm) (f32_of_Z 3) (B754_infinity true) = Bopp (f32_of_Z 3) /\
  is_finite (f32_of_Z 3) = true /\ 0 <= B2R (f32_of_Z 3).
Proof.
  destruct (f32_of_Z_exact 3 ltac:(lia)) as [V F]. rewrite V. split; [|split; [exact F|lra]].
  unfold limit. cbn [ltb Fops opp]. clear V. set (mx := f32_of_Z 3) in *. clearbody mx.
  assert (C1 : Bltb mx (B754_infinity true) = false) by (clear -F; destruct mx as [|? | |]; try discriminate; try destruct s; reflexivity).
  assert (C2 : Bltb (B754_infinity true) (Bopp mx) = true) by (clear -F; destruct mx as [|? | |[]]; try discriminate; try destruct s; reflexivity).
  rewrite C1, C2. reflexivity.
Qed.

(** ** C82: the estimated heading is the simulated one, in every arithmetic. *)
Theorem C82_heading (K : ops) (m : simulator) (e : estimator) (s : state) l :
  e_period e = m_period m -> s_theta s = s_theta (m_current m) ->
  let (m', s') := rounds m e s l in s_theta s' = s_theta (m_current m').
Proof.
  intros Hp Hs. pose proof (heading l m e s Hp Hs) as H. destruct (rounds m e s l) as [m' s']. exact H.
Qed.
Print Assumptions C82_heading.

(** Turning on the spot: after one round the heading has changed. *)
Example C82_example w : let (m', s') := rounds (mouse w)
    (@estimator_new Rops (1 / 1000)%R (3 / 4)%R 100%R (1 / 10)%R) rest [@MotorOutput Rops (-1)%R 1%R] in
  s_theta s' = s_theta (m_current m') /\ sx (s_theta s') = PI / 2 + 10 / 101 * (1 / 1000).
Proof.
  pose proof (C82_heading Rops (mouse w) (@estimator_new Rops (1 / 1000)%R (3 / 4)%R 100%R (1 / 10)%R) rest
    [@MotorOutput Rops (-1)%R 1%R] eq_refl eq_refl) as H.
  destruct (rounds _ _ _ _) as [m' s'] eqn:E. split; [exact H|]. rewrite H.
  assert (Em : m' = step (apply (mouse w) (@MotorOutput Rops (-1)%R 1%R))).
  { cbn [rounds] in E. destruct (estimate _ _ _) in E. injection E as <- _. reflexivity. }
  rewrite Em. cbn [step m_current s_theta sx]. unfold next_rot_vel. cbn -[PI].
  rewrite (limit_id 3 1), (limit_id 3 (-1)) by (unfold Rabs; destruct Rcase_abs; lra). rops. field.
Qed.

(** ** C83: under constant voltages the speeds approach gain times voltage geometrically. *)
Theorem C83_lag (m : @simulator Rops) v n : sim_ok m -> moves (m_current m) v ->
  let m' := runs m (repeat Step n) in
  let vinf := m_trans_k m * ((m_right_voltage m + m_left_voltage m) / 2) in
  let winf := m_rot_k m * ((m_right_voltage m - m_left_voltage m) / 2) in
  (exists v', moves (m_current m') v' /\
     v' - vinf = (v - vinf) * (m_trans_t1 m / (m_trans_t1 m + m_period m)) ^ n) /\
  sv (s_theta (m_current m')) - winf =
    (sv (s_theta (m_current m)) - winf) * (m_rot_t1 m / (m_rot_t1 m + m_period m)) ^ n /\
  0 <= m_trans_t1 m / (m_trans_t1 m + m_period m) < 1 /\ 0 <= m_rot_t1 m / (m_rot_t1 m + m_period m) < 1.
Proof.
  intros Hok Hmv. destruct (geometric n m v Hok Hmv) as [G1 G2]. cbv zeta in *. split; [exact G1|]. split; [exact G2|].
  destruct Hok as (Hp & Ht & Hr & _).
  assert (Q : forall t p : R, 0 <= t -> 0 < p -> 0 <= t / (t + p) < 1).
  { intros t p H0 H1. split.
    - unfold Rdiv. apply Rmult_le_pos; [lra|]. left. apply Rinv_0_lt_compat. lra.
    - apply Rmult_lt_reg_r with (t + p); [lra|]. unfold Rdiv. rewrite Rmult_assoc, Rinv_l by lra. lra. }
  split; apply Q; assumption.
Qed.
Print Assumptions C83_lag.

Example C83_example w : let m := apply (mouse w) (@MotorOutput Rops 2%R 2%R) in
  sim_ok m /\ moves (m_current m) 0 /\ m_trans_k m * ((m_right_voltage m + m_left_voltage m) / 2) = 2.
Proof.
  cbv zeta. split; [|split].
  - unfold sim_ok. cbn. rewrite (limit_id 3 2) by (rewrite Rabs_pos_eq; lra). rewrite (Rabs_pos_eq 2) by lra. lra.
  - apply (mouse_ok w).
  - cbn. rewrite (limit_id 3 2) by (rewrite Rabs_pos_eq; lra). lra.
Qed.

(** ** C84: a wall detector fed by the simulator reports only the truth. *)
Theorem C84_truth W (m : @simulator Rops) st (d : @detector Rops) ps : supported W ->
  holds W (m_walls m) st -> detector_ok W d -> leans_to W st d ->
  exists d' l, looks W m d ps = Ret (d', l) /\ detector_ok W d' /\ leans_to W st d' /\
    forall c b, In (Some (c, Checked b)) l -> valid W c /\ b = is_wall (st c).
Proof. intros HW Hh. exact (looks_right W HW st m ps Hh d). Qed.
Print Assumptions C84_truth.

(** A fresh detector qualifies. *)
Theorem C84_start W st : supported W -> detector_ok W (@detector_new Rops) /\ leans_to W st (@detector_new Rops).
Proof.
  intros HW. destruct (new_ok W) as [H1 H2]. split; [exact H1|]. intros c _. rewrite H2. destruct (is_wall (st c)); lra.
Qed.
Print Assumptions C84_start.

(** A single reading decides a wall when the two distances differ by at least 5 mm. *)
Theorem C84_decides W (m : @simulator Rops) st (d : @detector Rops) p c d1 d2 : supported W ->
  holds W (m_walls m) st -> detector_ok W d -> leans_to W st d ->
  convert W converter_default p = Ret (Some (@WallInfo Rops c (Some d1) (Some d2))) ->
  d1 + 5 / 1000 <= d2 -> / 8388608 <= belief W d c <= 1 - / 8388608 ->
  exists d', looks W m d [p] = Ret (d', [Some (c, Checked (is_wall (st c)))]).
Proof. intros HW. exact (look_decides W HW st m d p c d1 d2). Qed.
Print Assumptions C84_decides.

Example C84_example : exists w, walls_new 4 = Ret w /\ holds 4 w (fresh 4) /\
  exists d', looks 4 (mouse w) (@detector_new Rops) [middle 0] = Ret (d', [Some (Co 1 0, Checked true)]).
Proof.
  assert (HW : supported 4) by (unfold supported; tauto).
  destruct (walls_new_ok 4 HW) as (w & E & Hh). exists w. split; [exact E|]. split; [exact Hh|].
  destruct (C84_start 4 (fresh 4) HW) as [H1 H2].
  apply (C84_decides 4 (mouse w) (fresh 4) (@detector_new Rops) (middle 0) (Co 1 0) (42 / 1000)%R (132 / 1000)%R HW Hh H1 H2).
  - rewrite middle_convert by lia. reflexivity.
  - lra.
  - rewrite (proj2 (new_ok 4)). lra.
Qed.

(** ** C86: the speed controller on the simulated motors.  With stable gains the speeds converge
    geometrically to targets of constant acceleration, as long as the voltage needed for the
    target leaves a reserve in proportion to the first deviation; for a non-zero acceleration the
    gain of the motors must be known exactly.  [C] and [rho] depend on motors, gains and period only. *)
Theorem C86_servo kt tt kr tr p (tp rp : @control_parameters Rops) :
  stable_gains kt tt p tp -> stable_gains kr tr p rp -> model_k tp <> 0 -> model_k rp <> 0 ->
  exists C rho, 0 <= C /\ 0 < rho < 1 /\
  forall (m : @simulator Rops) (c : @controller Rops) (r : @control_target Rops) (v : R),
  m_trans_k m = kt -> m_trans_t1 m = tt -> m_rot_k m = kr -> m_rot_t1 m = tr -> m_period m = p ->
  trans_params c = tp -> rot_params c = rp -> c_period c = p ->
  (c_a r = 0 \/ model_k tp = kt) -> (c_alpha r = 0 \/ model_k rp = kr) -> moves (m_current m) v ->
  forall n, (forall i, (i < n)%nat ->
    Rabs (needed kt tt p (c_v (ramp p r i)) (c_a r)) + Rabs (needed kr tr p (c_omega (ramp p r i)) (c_alpha r))
    + C * offset m c r v <= m_max_voltage m) ->
  let (m', c') := servo (ramp p r) n m c in
  exists v', moves (m_current m') v' /\
  Rabs (v' - c_v (ramp p r n)) <= C * rho ^ n * offset m c r v /\
  Rabs (sv (s_theta (m_current m')) - c_omega (ramp p r n)) <= C * rho ^ n * offset m c r v /\
  Rabs (trans_sum c' - settled kt tt p tp (c_v r) (c_a r)) <= C * rho ^ n * offset m c r v /\
  Rabs (rot_sum c' - settled kr tr p rp (c_omega r) (c_alpha r)) <= C * rho ^ n * offset m c r v.
Proof. exact (servo_converges kt tt kr tr p tp rp). Qed.
Print Assumptions C86_servo.

(** the motors and gains of mousecore2/tests/run.rs 58-112 and 123-137 (3.7 V); a target of 1 m/s,
    the robot a little slower, a fresh controller. *)
Definition run_trans : @control_parameters Rops :=
  @ControlParameters Rops (48497 / 10000)%R (295783 / 10000)%R 0%R (1865 / 1000)%R (4443 / 10000)%R.
Definition run_rot : @control_parameters Rops :=
  @ControlParameters Rops (21134 / 100000)%R (29317 / 10000)%R 0%R (8239 / 100)%R (2855 / 10000)%R.
Definition run_mouse (w : walls) (v : R) : @simulator Rops :=
  let s := @State Rops (@Axis3 Rops (45 / 1000)%R v 0%R) (@Axis3 Rops (45 / 1000)%R 0%R 0%R) (@Axis3 Rops 0%R 0%R 0%R) in
  @simulator_new Rops w s s (37 / 10)%R (1 / 1000)%R (1865 / 1000)%R (4443 / 10000)%R (8239 / 100)%R (2855 / 10000)%R
    (335 / 10000)%R.
Example C86_case w : stable_gains (1865 / 1000) (4443 / 10000) (1 / 1000) run_trans /\
  stable_gains (8239 / 100) (2855 / 10000) (1 / 1000) run_rot /\
  forall C, 0 <= C -> let v := 1 - 1 / (C + 1) in
  let m := run_mouse w v in let c := controller_new run_trans run_rot (1 / 1000)%R in
  let r := @ControlTarget Rops 1%R 0%R 0%R 0%R in
  moves (m_current m) v /\ offset m c r v = 1 / (C + 1) /\
  forall i, Rabs (needed (1865 / 1000) (4443 / 10000) (1 / 1000) (c_v (ramp (1 / 1000) r i)) (c_a r))
    + Rabs (needed (8239 / 100) (2855 / 10000) (1 / 1000) (c_omega (ramp (1 / 1000) r i)) (c_alpha r))
    + C * offset m c r v <= m_max_voltage m.
Proof.
  assert (S1 : stable_gains (1865 / 1000) (4443 / 10000) (1 / 1000) run_trans)
    by (unfold stable_gains, run_trans; cbn [ki kp kd]; rops; repeat split; lra).
  assert (S2 : stable_gains (8239 / 100) (2855 / 10000) (1 / 1000) run_rot)
    by (unfold stable_gains, run_rot; cbn [ki kp kd]; rops; repeat split; lra).
  split; [exact S1|]. split; [exact S2|]. intros C HC v m c r.
  assert (P : 0 < 1 / (C + 1)) by (apply Rdiv_lt_0_compat; lra).
  assert (O : offset m c r v = 1 / (C + 1)).
  { unfold offset, settled, needed, m, c, r, run_mouse, simulator_new, controller_new.
    cbn [m_current s_theta sv trans_sum rot_sum m_trans_k m_trans_t1 m_rot_k m_rot_t1 m_period trans_params rot_params c_v c_a c_omega c_alpha].
    unfold run_trans, run_rot. cbn [ki model_k model_t1]. rops. unfold v.
    replace (1 - 1 / (C + 1) - 1) with (- (1 / (C + 1))) by ring. rewrite Rabs_Ropp, (Rabs_pos_eq (1 / (C + 1))) by lra.
    match goal with |- _ + Rabs ?a + Rabs ?b + Rabs ?d = _ => replace a with 0 by field; replace b with 0 by field; replace d with 0 by field end.
    rewrite Rabs_R0. ring. }
  split; [|split; [exact O|]].
  - unfold moves, m, run_mouse, simulator_new. cbn [m_current s_x s_y s_theta sx sv]. rewrite cos_0, sin_0. split; rops; ring.
  - intros i. rewrite O. unfold needed, ramp, r. cbn [c_v c_a c_omega c_alpha].
    replace ((1 + INR i * (1 / 1000) * 0 + 0 * (4443 / 10000 + 1 / 1000)) / (1865 / 1000)) with (1000 / 1865) by field.
    replace ((0 + INR i * (1 / 1000) * 0 + 0 * (2855 / 10000 + 1 / 1000)) / (8239 / 100)) with 0 by field.
    rewrite Rabs_R0, Rabs_pos_eq by lra. cbn.
    assert (C * (1 / (C + 1)) <= 1).
    { apply Rmult_le_reg_r with (C + 1); [lra|]. replace (C * (1 / (C + 1)) * (C + 1)) with C by (field; lra). lra. }
    lra.
Qed.

(** ** C88: the estimator fed by the simulator, in exact arithmetic.  Whatever is applied, the
    estimated speed forgets its first error and stays within a bound set by the motors; on straight
    drives the error of the estimated position is the filter's delay times the change of the speed's
    error, however long the drive is. *)
Theorem C88_speed (m : @simulator Rops) (e : @estimator Rops) (s : @state Rops) v V W l :
  sim_ok m -> e_period e = m_period m -> 0 <= e_alpha e < 1 -> moves (m_current m) v ->
  Rabs v <= V -> Rabs (m_trans_k m) * m_max_voltage m <= V ->
  Rabs (sv (s_theta (m_current m))) <= W -> Rabs (m_rot_k m) * m_max_voltage m <= W ->
  let '(m', e', s') := tracks m e s l in
  exists v', moves (m_current m') v' /\
  Rabs (e_trans_vel e' - v') <= e_alpha e ^ length l * Rabs (e_trans_vel e - v) +
    (1 - e_alpha e ^ length l) * (V * (m_period m / (m_trans_t1 m + m_period m))
      + e_alpha e / (1 - e_alpha e) * (V * (W * m_period m * (W * m_period m) / 2))).
Proof. exact (speed_error l m e s v V W). Qed.
Print Assumptions C88_speed.

Theorem C88_straight (m : @simulator Rops) (e : @estimator Rops) (s : @state Rops) v l :
  0 < m_period m -> e_period e = m_period m -> e_alpha e <> 1 -> 0 < e_approx_th e -> e_slip_angle e = 0 ->
  moves (m_current m) v -> sv (s_theta (m_current m)) = 0 -> sx (s_theta s) = sx (s_theta (m_current m)) ->
  (forall o, In o l -> m_left o = m_right o) ->
  let '(m', e', s') := tracks m e s l in
  let th := sx (s_theta (m_current m)) in
  sx (s_theta (m_current m')) = th /\ sx (s_theta s') = th /\ e_slip_angle e' = 0 /\
  exists v', moves (m_current m') v' /\
  let D := m_period m * (e_alpha e / (1 - e_alpha e)) * ((e_trans_vel e - v) - (e_trans_vel e' - v')) in
  sx (s_x s') - sx (s_x (m_current m')) = sx (s_x s) - sx (s_x (m_current m)) + D * cos th /\
  sx (s_y s') - sx (s_y (m_current m')) = sx (s_y s) - sx (s_y (m_current m)) + D * sin th.
Proof. exact (straight_drift l m e s v). Qed.
Print Assumptions C88_straight.

(** the mouse of mousecore2/tests/run.rs at rest, driven straight in any way: it is never
    estimated more than a millimetre off. *)
Example C88_case w l : (forall o, In o l -> m_left o = m_right o) ->
  let m := run_mouse w 0 in
  let '(m', e', s') := tracks m (@estimator_new Rops (1 / 1000)%R (3 / 5)%R 100%R (1 / 1000)%R) (m_current m) l in
  Rabs (sx (s_x s') - sx (s_x (m_current m'))) <= 1 / 1000 /\ sx (s_y s') = sx (s_y (m_current m')).
Proof.
  intros Ho m. set (e := @estimator_new Rops (1 / 1000)%R (3 / 5)%R 100%R (1 / 1000)%R).
  assert (M : moves (m_current m) 0).
  { unfold moves, m, run_mouse, simulator_new. cbn [m_current s_x s_y s_theta sx sv]. rewrite cos_0, sin_0. split; rops; ring. }
  assert (Ok : sim_ok m).
  { unfold sim_ok, m, run_mouse, simulator_new. cbn. rops. replace (0 / 1) with 0 by field. rewrite Rabs_R0. repeat split; lra. }
  assert (A := C88_straight m e (m_current m) 0 l).
  assert (B := C88_speed m e (m_current m) 0 (70 / 10) (305) l Ok).
  assert (Z0 : sv (s_theta (m_current m)) = 0) by reflexivity. assert (T0 : sx (s_theta (m_current m)) = 0) by reflexivity.
  destruct (tracks m e (m_current m) l) as [[m' e'] s'].
  destruct A as (_ & _ & _ & v' & M' & X & Y); try assumption; try reflexivity; try (cbn; lra).
  destruct B as (v'' & M'' & B); try assumption; try reflexivity; try (cbn; lra).
  { rewrite Rabs_R0. lra. } { cbn. rewrite Rabs_pos_eq by lra. lra. } { rewrite Z0, Rabs_R0. lra. } { cbn. rewrite Rabs_pos_eq by lra. lra. }
  assert (v'' = v') as -> by (rewrite <- (trans_vel_moves _ _ M'), <- (trans_vel_moves _ _ M''); reflexivity).
  rewrite T0, cos_0 in X. rewrite T0, sin_0 in Y. change (@num Rops) with R in *.
  assert (E : e_alpha e = 3 / 5 /\ e_trans_vel e = 0 /\ m_period m = 1 / 1000 /\ m_trans_t1 m = 4443 / 10000)
    by (cbn; rops; repeat split; lra). destruct E as (E1 & E2 & E3 & E4). rewrite E1, E2, E3, ?E4 in *.
  split; [|lra].
  rewrite X, Rminus_0_r, Rabs_R0 in *.
  assert (P : 0 <= (3 / 5) ^ length l <= 1) by (split; [apply pow_le; lra | rewrite <- (pow1 (length l)); apply pow_incr; lra]).
  set (q := (3 / 5) ^ length l) in *. assert (B2 : Rabs (e_trans_vel e' - v') <= 6 / 10) by nra.
  replace (sx (s_x (m_current m)) - sx (s_x (m_current m)) + 1 / 1000 * (3 / 5 / (1 - 3 / 5)) * (0 - (e_trans_vel e' - v')) * 1)
    with (- (3 / 2000 * (e_trans_vel e' - v'))) by field.
  rewrite Rabs_Ropp, Rabs_mult, Rabs_pos_eq by lra. lra.
Qed.
