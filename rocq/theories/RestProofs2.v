(** A robot at rest that is asked for no motion stays where it is. *)
From Coq Require Import ZArith Reals List Bool Lra Lia.
From Flocq Require Import Core BinarySingleNaN.
From Verif Require Import Base WallsModel Num NumLemmas ControlModel SimModel SimSpec RestSpec RestProofs.
Open Scope R_scope.

Ltac fops := unfold n0, n1, n2 in *;
  cbn [lit add sub mul div opp nabs ltb leb nsin ncos Fops] in *;
  change (f32_div (f32_of_Z 1) (f32_of_Z 1)) with f1 in *.

Ltac zfin := solve [assumption | apply two_ok | match goal with H : zero ?x |- finite ?x => apply H end].
Ltac zz := first
  [ assumption | apply nought_ok
  | apply zero_add; zz | apply zero_sub; zz
  | apply zero_mul_l; [zz|zfin] | apply zero_mul_r; [zfin|zz]
  | apply zero_div_f; [zz|zfin|solve [assumption | apply two_ok]] ].

Section Rest.
Context (lm : libm).
Hypothesis (HL : sound_libm lm).
Notation F := (Fops lm).

(** parameters of a simulator. *)
Record sim_params (m : @simulator F) : Prop := {
  sp_p : usual (m_period m);
  sp_mx : finite (m_max_voltage m); sp_mx0 : 0 <= B2R (m_max_voltage m);
  sp_tk : finite (m_trans_k m); sp_rk : finite (m_rot_k m); sp_w : finite (m_wheel_interval m);
  sp_tt : finite (m_trans_t1 m); sp_tt0 : 0 <= B2R (m_trans_t1 m) <= 2 ^ 100;
  sp_rt : finite (m_rot_t1 m); sp_rt0 : 0 <= B2R (m_rot_t1 m) <= 2 ^ 100 }.

Lemma usual_nz p : usual p -> B2R p <> 0.
Proof. intros [_ [A _]]. assert (0 < / 2 ^ 100) by (apply Rinv_0_lt_compat, pow_lt; lra). lra. Qed.

Lemma step_rest (m : @simulator F) : sim_params m -> at_rest (m_current m) ->
  zero (m_right_voltage m) -> zero (m_left_voltage m) ->
  at_rest (m_current (step m)) /\ same_place (m_current (step m)) (m_current m).
Proof.
  intros P ((Fx & Vx & Ax) & (Fy & Vy & Ay) & (Ft & Vt & At)) VR VL.
  destruct P. assert (Fp : finite (m_period m)) by apply sp_p0. pose proof (usual_nz _ sp_p0) as Np.
  destruct HL as [HT HC]. destruct (HT _ Ft) as [Fs Fc].
  destruct (lag_finite _ _ sp_tt1 sp_tt2 sp_p0) as [La La'].
  destruct (lag_finite _ _ sp_rt1 sp_rt2 sp_p0) as [Lb Lb'].
  unfold step. set (tv := trans_vel (m_current m)). set (nv := next_trans_vel m). set (nr := next_rot_vel m).
  assert (Ztv : zero tv) by (unfold tv, trans_vel; fops; zz).
  assert (Znv : zero nv) by (unfold nv, next_trans_vel; fops; zz).
  assert (Znr : zero nr) by (unfold nr, next_rot_vel; fops; zz).
  clearbody tv nv nr.
  assert (Zt : zero (Bmult mode_NE nr (m_period m))) by zz.
  destruct (keep_add _ _ Ft Zt) as [Ft' Et']. destruct (HT _ Ft') as [Fs' Fc'].
  unfold at_rest, same_place. cbn [m_current s_x s_y s_theta sx sv sa]. fops.
  set (th := Bplus mode_NE (sx (s_theta (m_current m))) (Bmult mode_NE nr (m_period m))) in *.
  match goal with |- context [Bplus mode_NE (sx (s_x (m_current m))) ?d] =>
    assert (Zx : zero d) by zz; destruct (keep_add _ _ Fx Zx) as [Fx' Ex'] end.
  match goal with |- context [Bplus mode_NE (sx (s_y (m_current m))) ?d] =>
    assert (Zy : zero d) by zz; destruct (keep_add _ _ Fy Zy) as [Fy' Ey'] end.
  split; [split; [split; [exact Fx'|split; zz]|split; [split; [exact Fy'|split; zz]|split; [exact Ft'|split; zz]]]|].
  split; [exact Ex'|]. split; [exact Ey'|exact Et'].
Qed.

Lemma same_sym (a b : @state F) : same_place a b -> same_place b a.
Proof. unfold same_place. intuition. Qed.
Lemma same_trans (a b c : @state F) : same_place a b -> same_place b c -> same_place a c.
Proof. unfold same_place. intros (A & B & C) (D & E & G). rewrite A, B, C. auto. Qed.

(** the sensors of a simulator at rest. *)
Lemma sensed_rest (m : @simulator F) : sim_params m -> at_rest (m_current m) -> at_rest (m_last m) ->
  zero (left_distance (sensed m)) /\ zero (right_distance (sensed m)) /\
  zero (translational_acceleration (sensed m)) /\ zero (angular_velocity (sensed m)).
Proof.
  intros P ((Fx & Vx & Ax) & (Fy & Vy & Ay) & (Ft & Vt & At)) ((Fx1 & Vx1 & Ax1) & (Fy1 & Vy1 & Ay1) & (Ft1 & Vt1 & At1)).
  destruct P. assert (Fp : finite (m_period m)) by apply sp_p0. pose proof (usual_nz _ sp_p0) as Np.
  destruct HL as [HT HC]. destruct (HT _ Ft) as [Fs Fc]. destruct (HT _ Ft1) as [Fs1 Fc1].
  unfold sensed, distance, average, sim_translational_acceleration, sim_angular_velocity.
  cbn [left_distance right_distance translational_acceleration angular_velocity e_left e_right]. fops.
  split; [zz|]. split; [zz|]. split; zz.
Qed.

Record est_params (e : @estimator F) : Prop := {
  ep_p : usual (e_period e);
  ep_a : finite (e_alpha e); ep_a0 : 0 <= B2R (e_alpha e) <= 1;
  ep_k : finite (e_slip_const e); ep_k0 : 0 < B2R (e_slip_const e);
  ep_th : finite (e_approx_th e); ep_th0 : 0 < B2R (e_approx_th e);
  ep_s : zero (e_slip_angle e); ep_v : zero (e_trans_vel e) }.

Lemma estimate_rest (e : @estimator F) (s : @state F) (v : @sensor_value F) : est_params e -> at_rest s ->
  zero (left_distance v) -> zero (right_distance v) ->
  zero (translational_acceleration v) -> zero (angular_velocity v) ->
  at_rest (fst (estimate e s v)) /\ same_place (fst (estimate e s v)) s /\ est_params (snd (estimate e s v)).
Proof.
  intros P ((Fx & Vx & Ax) & (Fy & Vy & Ay) & (Ft & Vt & At)) Zl Zr Za Zw.
  destruct P. assert (Fp : finite (e_period e)) by apply ep_p0. pose proof (usual_nz _ ep_p0) as Np.
  pose proof (inv_finite _ ep_p0) as Fi. pose proof (rest_finite _ ep_a1 ep_a2) as Fa'.
  destruct HL as [HT HC].
  unfold estimate. set (tv := (e_alpha e * (e_trans_vel e + translational_acceleration v * e_period e) +
    (n1 - e_alpha e) * ((left_distance v / e_period e + right_distance v / e_period e) / n2))%num).
  assert (Ztv : zero tv) by (unfold tv; fops; zz). clearbody tv.
  cbv zeta.
  set (slip := ((e_slip_angle e * (n1 / e_period e) + angular_velocity v)
    / (n1 / e_period e + e_slip_const e / nabs tv))%num).
  assert (Zs : zero slip) by (unfold slip; fops; apply slip_zero; [zz|assumption..]). clearbody slip.
  assert (Fcs : finite (l_cos lm slip)) by (apply HT, Zs). pose proof (HC _ Zs) as Ncs.
  fops.
  assert (B : Bltb (Babs (angular_velocity v)) (e_approx_th e) = true).
  { assert (Fw : is_finite (Babs (angular_velocity v : f32)) = true) by (rewrite is_finite_Babs; apply Zw).
    rewrite (Bltb_correct 24 128 _ _ Fw ep_th1). rewrite B2R_Babs. destruct Zw as [_ ->].
    rewrite Rabs_R0. apply Rlt_bool_true, ep_th2. }
  rewrite B.
  assert (Zd : zero (Bmult mode_NE (angular_velocity v) (e_period e))) by zz.
  assert (Zd2 : zero (f32_div (Bmult mode_NE (angular_velocity v) (e_period e)) (f32_div (f32_of_Z 2) (f32_of_Z 1)))) by zz.
  destruct (keep_sub _ _ Ft Zs) as [Fm1 _]. destruct (keep_add _ _ Fm1 Zd2) as [Fm _].
  destruct (HT _ Fm) as [Fs Fc].
  destruct (keep_add _ _ Ft Zd) as [Ft' Et'].
  match goal with |- context [Bplus mode_NE (sx (s_x s)) ?d] =>
    assert (Zx : zero d) by zz; destruct (keep_add _ _ Fx Zx) as [Fx' Ex'] end.
  match goal with |- context [Bplus mode_NE (sx (s_y s)) ?d] =>
    assert (Zy : zero d) by zz; destruct (keep_add _ _ Fy Zy) as [Fy' Ey'] end.
  cbn [fst snd]. unfold at_rest, same_place. cbn [s_x s_y s_theta sx sv sa].
  split; [split; [split; [exact Fx'|split; zz]|split; [split; [exact Fy'|split; zz]|split; [exact Ft'|split; zz]]]|].
  split; [split; [exact Ex'|split; [exact Ey'|exact Et']]|].
  constructor; cbn [e_period e_alpha e_slip_const e_approx_th e_slip_angle e_trans_vel]; assumption.
Qed.

Record ctl_params (c : @controller F) : Prop := {
  cp_t : usable (trans_params c); cp_r : usable (rot_params c); cp_p : usual (c_period c);
  cp_ts : zero (trans_sum c); cp_rs : zero (rot_sum c) }.

Lemma control_rest (c : @controller F) (y : @control_target F) : ctl_params c ->
  zero (c_v y) -> zero (c_a y) -> zero (c_omega y) -> zero (c_alpha y) ->
  let '(o, c') := control c (ControlTarget n0 n0 n0 n0) y in
  zero (m_left o) /\ zero (m_right o) /\ ctl_params c'.
Proof.
  intros P Z1 Z2 Z3 Z4. destruct P. assert (Fp : finite (c_period c)) by apply cp_p0.
  destruct cp_t0 as (T1 & T2 & T3 & T4 & T5 & T6). destruct cp_r0 as (R1 & R2 & R3 & R4 & R5 & R6).
  unfold control, control_each. cbn [c_v c_a c_omega c_alpha m_left m_right]. fops.
  split; [zz|]. split; [zz|].
  constructor; cbn [trans_params rot_params c_period trans_sum rot_sum]; [repeat split; assumption..|assumption|zz|zz].
Qed.

Theorem idle_rest n (m : @simulator F) c e s : sim_params m -> at_rest (m_current m) ->
  ctl_params c -> est_params e -> at_rest s ->
  let '(m', c', e', s') := idle n m c e s in
  sim_params m' /\ at_rest (m_current m') /\ same_place (m_current m') (m_current m) /\
  ctl_params c' /\ est_params e' /\ at_rest s' /\ same_place s' s.
Proof.
  intros Pm Rm Pc Pe Rs. induction n as [|n IH].
  - cbn [idle]. repeat (split; [first [assumption | (unfold same_place; auto)]|]). unfold same_place. auto.
  - cbn [idle]. destruct (idle n m c e s) as [[[m1 c1] e1] s1].
    destruct IH as (Pm1 & Rm1 & Sm1 & Pc1 & Pe1 & Rs1 & Ss1).
    assert (Zm : zero (c_v (measured m1)) /\ zero (c_a (measured m1)) /\ zero (c_omega (measured m1)) /\ zero (c_alpha (measured m1))).
    { destruct Rm1 as ((Fx & Vx & Ax) & (Fy & Vy & Ay) & (Ft & Vt & At)). destruct HL as [HT HC]. destruct (HT _ Ft) as [Fs Fc].
      unfold measured, trans_vel, sim_translational_acceleration, sim_angular_velocity. cbn [c_v c_a c_omega c_alpha]. fops.
      split; [zz|]. split; [zz|]. split; zz. }
    destruct Zm as (Z1 & Z2 & Z3 & Z4). pose proof (control_rest c1 (measured m1) Pc1 Z1 Z2 Z3 Z4) as C.
    destruct (control c1 _ (measured m1)) as [o c2]. destruct C as (Zl & Zr & Pc2).
    assert (Pa : sim_params (apply m1 o)) by (destruct Pm1; constructor; assumption).
    pose proof (zero_limit lm _ _ (sp_mx _ Pm1) (sp_mx0 _ Pm1) Zr) as VR.
    pose proof (zero_limit lm _ _ (sp_mx _ Pm1) (sp_mx0 _ Pm1) Zl) as VL.
    destruct (step_rest (apply m1 o) Pa Rm1 VR VL) as [R2 S2].
    assert (P2 : sim_params (step (apply m1 o))) by (destruct Pa; constructor; assumption).
    assert (RL : at_rest (m_last (step (apply m1 o)))) by exact Rm1.
    destruct (sensed_rest _ P2 R2 RL) as (D1 & D2 & D3 & D4).
    destruct (estimate_rest e1 s1 (sensed (step (apply m1 o))) Pe1 Rs1 D1 D2 D3 D4) as (E1 & E2 & E3).
    destruct (estimate e1 s1 _) as [s2 e2]. cbn [fst snd] in *.
    split; [exact P2|]. split; [exact R2|]. split; [exact (same_trans _ _ _ S2 Sm1)|].
    split; [exact Pc2|]. split; [exact E3|]. split; [exact E1|exact (same_trans _ _ _ E2 Ss1)].
Qed.

Lemma still_steps n (m : @simulator F) : sim_params m -> at_rest (m_current m) ->
  zero (m_right_voltage m) -> zero (m_left_voltage m) ->
  at_rest (m_current (runs m (repeat Step n))) /\
  same_place (m_current (runs m (repeat Step n))) (m_current m).
Proof.
  revert m. induction n as [|n IH]; intros m P Rm VR VL.
  - split; [exact Rm|]. unfold same_place. cbn [repeat runs]. auto.
  - destruct (step_rest m P Rm VR VL) as [R1 S1]. cbn [repeat runs].
    destruct (IH (step m)) as [R2 S2]; [destruct P; constructor; assumption|exact R1|exact VR|exact VL|].
    split; [exact R2|exact (same_trans _ _ _ S2 S1)].
Qed.
End Rest.

Lemma noslip lm (s : @state (Fops lm)) (v : @sensor_value (Fops lm)) (p al sc th : f32) :
  usual p -> finite al -> 0 <= B2R al <= 1 -> zero sc ->
  zero (left_distance v) -> zero (right_distance v) ->
  zero (translational_acceleration v) -> zero (angular_velocity v) ->
  e_slip_angle (snd (estimate (@estimator_new (Fops lm) p al sc th) s v)) = B754_nan.
Proof.
  intros Up Fa Ha Zc Zl Zr Za Zw. assert (Fp : finite p) by apply Up. pose proof (usual_nz _ Up) as Np.
  pose proof (inv_finite _ Up) as Fi. pose proof (rest_finite _ Fa Ha) as Fa'.
  unfold estimate, estimator_new. cbn [snd e_slip_angle e_period e_alpha e_slip_const e_trans_vel]. fops.
  match goal with |- context [Babs ?t] => assert (Zt : zero t) by zz; set (tv := t) in * end.
  clearbody tv. apply zero_cases in Zt, Zc. destruct Zt as [a ->], Zc as [b ->].
  assert (E : f32_div (B754_zero b) (Babs (B754_zero a)) = B754_nan) by reflexivity. rewrite E.
  set (r := f32_div f1 p) in *. clearbody r.
  assert (E2 : Bplus mode_NE r B754_nan = B754_nan) by (destruct r; reflexivity). rewrite E2.
  match goal with |- f32_div ?x _ = _ => destruct x; reflexivity end.
Qed.
