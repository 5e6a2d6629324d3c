(** The estimator fed by the simulator: proofs. *)
From Coq Require Import ZArith Reals List Bool Lia Lra.
From Verif Require Import Base SearchModel WallsModel Num NumLemmas ControlModel TrajModel DetectModel SimModel SimSpec SimProofs TrajQuad.
Import ListNotations.
Open Scope R_scope.

Lemma cos_quad x : 0 <= 1 - cos x <= x * x / 2.
Proof.
  pose proof (COS_bound x) as B. split; [lra|].
  replace x with (2 * (x / 2)) at 1 by field. rewrite cos_2a_sin.
  assert (S := lip_sin (x / 2) 0). rewrite sin_0, !Rminus_0_r in S.
  assert (Q : sin (x / 2) * sin (x / 2) <= x / 2 * (x / 2)) by (apply Rsqr_le_abs_1 in S; exact S). lra.
Qed.

(** what the sensors say after a step *)
Lemma sensed_step (m : @simulator Rops) (o : @motor_output Rops) v : 0 < m_period m -> moves (m_current m) v ->
  let m' := step (apply m o) in let v' := next_trans_vel (apply m o) in
  let d := sv (s_theta (m_current m')) * m_period m in
  moves (m_current m') v' /\
  (left_distance (sensed m') / m_period m + right_distance (sensed m') / m_period m) / 2 = (v' + v) / 2 /\
  translational_acceleration (sensed m') * m_period m = v' - v * cos d /\
  angular_velocity (sensed m') = sv (s_theta (m_current m')).
Proof.
  intros Hp Hm m' v' d. assert (M' : moves (m_current m') v') by apply step_moves.
  split; [exact M'|]. split; [|split; [|reflexivity]].
  - destruct (encoders m' v' v M' Hm) as [E _]. unfold sensed. cbn [left_distance right_distance].
    assert (Pm : m_period m' = m_period m) by reflexivity. rewrite Pm in E.
    replace ((e_left (distance m') / m_period m + e_right (distance m') / m_period m) / 2)
      with ((e_left (distance m') + e_right (distance m')) / 2 / m_period m) by (field; lra).
    rewrite E. field. lra.
  - unfold sensed, sim_translational_acceleration. cbn [translational_acceleration].
    set (th := sx (s_theta (m_current m))).
    assert (T : sx (s_theta (m_current m')) = th + d) by reflexivity.
    destruct Hm as [Hx Hy]. fold th in Hx, Hy.
    assert (Ax : sa (s_x (m_current m')) = (v' * cos (th + d) - v * cos th) / m_period m)
      by (rewrite <- Hx; reflexivity).
    assert (Ay : sa (s_y (m_current m')) = (v' * sin (th + d) - v * sin th) / m_period m)
      by (rewrite <- Hy; reflexivity).
    rops. change (@num Rops) with R in *. rewrite T, Ax, Ay.
    transitivity (v' * (cos (th + d) * cos (th + d) + sin (th + d) * sin (th + d)) - v * (cos th * cos (th + d) + sin th * sin (th + d))); [field; lra|].
    rewrite sq1. replace (cos th * cos (th + d) + sin th * sin (th + d)) with (cos d); [ring|].
    replace d with (th + d - th) at 1 by ring. rewrite cos_minus. ring.
Qed.

(** the filtered speed *)
Lemma filter_error (m : @simulator Rops) (o : @motor_output Rops) (e : @estimator Rops) (s : @state Rops) v :
  0 < m_period m -> e_period e = m_period m -> moves (m_current m) v ->
  let m' := step (apply m o) in let v' := next_trans_vel (apply m o) in
  let r := estimate e s (sensed m') in
  let d := sv (s_theta (m_current m')) * m_period m in
  e_trans_vel (snd r) - v' = e_alpha e * (e_trans_vel e - v) + e_alpha e * (v * (1 - cos d)) - (1 - e_alpha e) * ((v' - v) / 2).
Proof.
  intros Hp Ep Hm m' v' r d. destruct (sensed_step m o v Hp Hm) as (_ & E1 & E2 & _).
  fold m' v' in E1, E2. fold d in E2. unfold r, estimate. cbn [snd e_trans_vel]. rops. change (@num Rops) with R in *. rewrite Ep, E2.
  replace (2 / 1) with 2 by field. rewrite E1. replace (1 / 1) with 1 by field. field.
Qed.

Lemma speed_error l : forall (m : @simulator Rops) (e : @estimator Rops) (s : @state Rops) v V W,
  sim_ok m -> e_period e = m_period m -> 0 <= e_alpha e < 1 -> moves (m_current m) v ->
  Rabs v <= V -> Rabs (m_trans_k m) * m_max_voltage m <= V ->
  Rabs (sv (s_theta (m_current m))) <= W -> Rabs (m_rot_k m) * m_max_voltage m <= W ->
  let '(m', e', s') := tracks m e s l in
  exists v', moves (m_current m') v' /\
  Rabs (e_trans_vel e' - v') <= e_alpha e ^ length l * Rabs (e_trans_vel e - v) +
    (1 - e_alpha e ^ length l) * (V * (m_period m / (m_trans_t1 m + m_period m))
      + e_alpha e / (1 - e_alpha e) * (V * (W * m_period m * (W * m_period m) / 2))).
Proof.
  induction l as [|o l IH]; intros m e s v V W Hok Ep Ha Hm HV HkV HW HkW; cbn [tracks].
  - exists v. split; [exact Hm|]. cbn [length pow].
    lra.
  - destruct (bounded [Apply o; Step] m v V W Hok Hm HV HkV HW HkW) as (Pa & Hok' & (v1 & M1 & B1) & B2).
    cbn [runs] in *. set (m1 := step (apply m o)) in *.
    assert (Hp : 0 < m_period m) by apply Hok.
    destruct (sensed_step m o v Hp Hm) as (M1' & _). fold m1 in M1'.
    assert (v1 = next_trans_vel (apply m o)) as -> by (rewrite <- (trans_vel_moves _ _ M1), <- (trans_vel_moves _ _ M1'); reflexivity).
    set (v1 := next_trans_vel (apply m o)) in *.
    assert (F := filter_error m o e s v Hp Ep Hm). cbv zeta in F. fold m1 v1 in F.
    assert (Pe : e_period (snd (estimate e s (sensed m1))) = e_period e /\ e_alpha (snd (estimate e s (sensed m1))) = e_alpha e) by (split; reflexivity).
    destruct (estimate e s (sensed m1)) as [s1 e1]. cbn [snd] in F, Pe. destruct Pe as [Pe1 Pe2].
    destruct Pa as (_ & Pp & Pv & Pk & Pt & Pr & _).
    specialize (IH m1 e1 s1 v1 V W Hok').
    destruct (tracks m1 e1 s1 l) as [[m' e'] s'].
    destruct IH as (v' & M' & B'); try assumption; try congruence.
    exists v'. split; [exact M'|]. eapply Rle_trans; [exact B'|]. rewrite Pe2, Pp, Pt.
    set (p := m_period m) in *. set (al := e_alpha e) in *. set (q := p / (m_trans_t1 m + p)) in *.
    assert (V0 : 0 <= V) by (pose proof (Rabs_pos v); lra). assert (W0 : 0 <= W) by (pose proof (Rabs_pos (sv (s_theta (m_current m)))); lra).
    assert (Dv : Rabs ((v1 - v) / 2) <= V * q).
    { assert (E : v1 - v = q * (m_trans_k m * ((limit (m_max_voltage m) (m_right o) + limit (m_max_voltage m) (m_left o)) / 2) - v)).
      { unfold v1, next_trans_vel, apply. cbn [m_current m_trans_t1 m_period m_trans_k m_right_voltage m_left_voltage].
        rewrite (trans_vel_moves _ _ Hm). rops. unfold q, p. destruct Hok as (_ & Ht & _). change (@num Rops) with R in *. unfold p in Hp. field. lra. }
      assert (Q0 : 0 <= q) by (unfold q, Rdiv; destruct Hok as (_ & Ht & _); apply Rmult_le_pos; [lra | left; apply Rinv_0_lt_compat; lra]).
      destruct Hok as (_ & _ & _ & Hmx & _).
      destruct (half_sum _ _ _ (limit_bound _ (m_right o) Hmx) (limit_bound _ (m_left o) Hmx)) as [Hs _].
      rewrite E. unfold Rdiv at 1. rewrite !Rabs_mult, (Rabs_pos_eq q), (Rabs_pos_eq (/ 2)) by lra.
      assert (T := Rabs_triang (m_trans_k m * ((limit (m_max_voltage m) (m_right o) + limit (m_max_voltage m) (m_left o)) / 2)) (- v)).
      rewrite Rabs_Ropp, Rabs_mult in T.
      assert (Rabs (m_trans_k m) * Rabs ((limit (m_max_voltage m) (m_right o) + limit (m_max_voltage m) (m_left o)) / 2) <= Rabs (m_trans_k m) * m_max_voltage m)
        by (apply Rmult_le_compat_l; [apply Rabs_pos | exact Hs]).
      unfold Rminus. nra. }
    set (d := sv (s_theta (m_current m1)) * p) in *.
    assert (Dc : Rabs (v * (1 - cos d)) <= V * (W * p * (W * p) / 2)).
    { destruct (cos_quad d) as [C0 C1]. rewrite Rabs_mult, (Rabs_pos_eq (1 - cos d)) by exact C0.
      apply Rmult_le_compat; [apply Rabs_pos | exact C0 | exact HV|]. eapply Rle_trans; [exact C1|].
      assert (Rabs d <= W * p) by (unfold d; rewrite Rabs_mult, (Rabs_pos_eq p) by lra; apply Rmult_le_compat_r; lra).
      assert (d * d <= W * p * (W * p)).
      { apply Rsqr_le_abs_1. rewrite (Rabs_pos_eq (W * p)) by (apply Rmult_le_pos; lra). assumption. }
      lra. }
    set (X := V * (W * p * (W * p) / 2)) in *. set (Y := V * q) in *.
    assert (E1 : Rabs (e_trans_vel e1 - v1) <= al * Rabs (e_trans_vel e - v) + al * X + (1 - al) * Y).
    { rewrite F. eapply Rle_trans; [apply Rabs_triang|]. rewrite Rabs_Ropp.
      assert (T := Rabs_triang (al * (e_trans_vel e - v)) (al * (v * (1 - cos d)))).
      rewrite !(Rabs_mult al), (Rabs_mult (1 - al)), (Rabs_pos_eq al), (Rabs_pos_eq (1 - al)) in * by lra.
      assert (al * Rabs (v * (1 - cos d)) <= al * X) by (apply Rmult_le_compat_l; lra).
      assert ((1 - al) * Rabs ((v1 - v) / 2) <= (1 - al) * Y) by (apply Rmult_le_compat_l; lra). lra. }
    cbn [length pow]. set (A := al ^ length l) in *.
    assert (A01 : 0 <= A <= 1).
    { unfold A. split; [apply pow_le; lra|]. rewrite <- (pow1 (length l)). apply pow_incr. lra. }
    replace (al * A * Rabs (e_trans_vel e - v) + (1 - al * A) * (Y + al / (1 - al) * X))
      with (A * (al * Rabs (e_trans_vel e - v) + al * X + (1 - al) * Y) + (1 - A) * (Y + al / (1 - al) * X)) by (field; lra).
    apply Rplus_le_compat_r. apply Rmult_le_compat_l; [apply A01 | exact E1].
Qed.

(** ** Straight drives *)
Lemma straight_drift l : forall (m : @simulator Rops) (e : @estimator Rops) (s : @state Rops) v,
  0 < m_period m -> e_period e = m_period m -> e_alpha e <> 1 -> 0 < e_approx_th e -> e_slip_angle e = 0 ->
  moves (m_current m) v -> sv (s_theta (m_current m)) = 0 -> sx (s_theta s) = sx (s_theta (m_current m)) ->
  (forall o, In o l -> m_left o = m_right o) ->
  let '(m', e', s') := tracks m e s l in
  let th := sx (s_theta (m_current m)) in
  sx (s_theta (m_current m')) = th /\ sx (s_theta s') = th /\ e_slip_angle e' = 0 /\
  exists v', moves (m_current m') v' /\
  let D := m_period m * (e_alpha e / (1 - e_alpha e)) * ((e_trans_vel e - v) - (e_trans_vel e' - v')) in
  sx (s_x s') - sx (s_x (m_current m')) = sx (s_x s) - sx (s_x (m_current m)) + D * cos th /\
  sx (s_y s') - sx (s_y (m_current m')) = sx (s_y s) - sx (s_y (m_current m)) + D * sin th.
Proof.
  induction l as [|o l IH]; intros m e s v Hp Ep Ha Ht Hs Hm Hw Hth Ho; cbn [tracks].
  - repeat split; try assumption. exists v. split; [exact Hm|]. cbv zeta. rops. change (@num Rops) with R in *. split; ring.
  - set (m1 := step (apply m o)).
    assert (F := filter_error m o e s v Hp Ep Hm). cbv zeta in F. fold m1 in F.
    set (v1 := next_trans_vel (apply m o)) in *.
    assert (W1 : sv (s_theta (m_current m1)) = 0).
    { assert (E : m_left o = m_right o) by (apply Ho; left; reflexivity).
      unfold m1, step, next_rot_vel, apply. cbn [m_current s_theta sv m_rot_t1 m_period m_rot_k m_right_voltage m_left_voltage].
      rewrite Hw, E. rops. change (@num Rops) with R in *. unfold Rdiv. ring. }
    assert (T1 : sx (s_theta (m_current m1)) = sx (s_theta (m_current m))).
    { change (sx (s_theta (m_current m1))) with (sx (s_theta (m_current m)) + sv (s_theta (m_current m1)) * m_period m).
      rewrite W1. rops. change (@num Rops) with R in *. ring. }
    rewrite W1, Rmult_0_l, cos_0 in F.
    set (th := sx (s_theta (m_current m))) in *.
    assert (Sl : e_slip_angle (snd (estimate e s (sensed m1))) = 0).
    { unfold estimate. cbn [snd e_slip_angle]. unfold sensed at 1. cbn [angular_velocity]. unfold sim_angular_velocity.
      rewrite Hs, W1. rops. change (@num Rops) with R in *. unfold Rdiv. ring. }
    assert (Th1 : sx (s_theta (fst (estimate e s (sensed m1)))) = th).
    { unfold estimate. cbn [fst s_theta sx]. unfold sensed. cbn [angular_velocity]. unfold sim_angular_velocity.
      rewrite W1, Hth. rops. change (@num Rops) with R in *. ring. }
    assert (Pos : sx (s_x (fst (estimate e s (sensed m1)))) = sx (s_x s) + e_trans_vel (snd (estimate e s (sensed m1))) * m_period m * cos th /\
                  sx (s_y (fst (estimate e s (sensed m1)))) = sx (s_y s) + e_trans_vel (snd (estimate e s (sensed m1))) * m_period m * sin th).
    { set (r := estimate e s (sensed m1)) in *. set (av := angular_velocity (sensed m1)).
      assert (A0 : av = 0) by exact W1.
      set (td := ((if (nabs av <? e_approx_th e)%num then (e_trans_vel (snd r) * e_period e)%num
        else (n2 * e_trans_vel (snd r) * nsin (av * e_period e / n2) / av)%num) / ncos (e_slip_angle (snd r)))%num).
      set (tm := (sx (s_theta s) - e_slip_angle (snd r) + av * e_period e / n2)%num).
      assert (Ex : sx (s_x (fst r)) = (sx (s_x s) + td * ncos tm)%num) by reflexivity.
      assert (Ey : sx (s_y (fst r)) = (sx (s_y s) + td * nsin tm)%num) by reflexivity.
      rewrite Ex, Ey. clear Ex Ey. unfold td, tm. rewrite Sl, A0, Hth, Ep.
      rops. change (@num Rops) with R in *. rewrite cos_0, Rabs_R0. unfold Rltb.
      destruct (Rlt_dec 0 (e_approx_th e)) as [_|N]; [|lra].
      replace (th - 0 + 0 * m_period m / (2 / 1)) with th by field. split; field. }
    assert (Sim : sx (s_x (m_current m1)) = sx (s_x (m_current m)) + (v + v1) * m_period m / 2 * cos th /\
                  sx (s_y (m_current m1)) = sx (s_y (m_current m)) + (v + v1) * m_period m / 2 * sin th).
    { assert (Ex : sx (s_x (m_current m1)) = sx (s_x (m_current m)) + (trans_vel (m_current m) * cos th + v1 * cos (sx (s_theta (m_current m1)))) * m_period m / (2 / 1)) by reflexivity.
      assert (Ey : sx (s_y (m_current m1)) = sx (s_y (m_current m)) + (trans_vel (m_current m) * sin th + v1 * sin (sx (s_theta (m_current m1)))) * m_period m / (2 / 1)) by reflexivity.
      rewrite Ex, Ey, T1, (trans_vel_moves _ _ Hm). rops. change (@num Rops) with R in *. split; field. }
    assert (Pe : e_period (snd (estimate e s (sensed m1))) = e_period e /\ e_alpha (snd (estimate e s (sensed m1))) = e_alpha e /\
      e_approx_th (snd (estimate e s (sensed m1))) = e_approx_th e) by (repeat split; reflexivity).
    destruct (estimate e s (sensed m1)) as [s1 e1]. cbn [snd fst] in *. destruct Pe as (P1 & P2 & P3).
    assert (M1 : moves (m_current m1) v1) by apply step_moves.
    specialize (IH m1 e1 s1 v1 Hp). destruct (tracks m1 e1 s1 l) as [[m' e'] s'].
    destruct IH as (I1 & I2 & I3 & v' & M' & IX & IY).
    { rewrite P1. exact Ep. } { rewrite P2. exact Ha. } { rewrite P3. exact Ht. } { exact Sl. } { exact M1. } { exact W1. }
    { rewrite Th1, T1. reflexivity. } { intros o' H. apply Ho. right. exact H. }
    cbv zeta. rewrite T1 in *. split; [exact I1|]. split; [exact I2|]. split; [exact I3|]. exists v'. split; [exact M'|].
    assert (Ppp : m_period m1 = m_period m) by reflexivity. rewrite Ppp, P2 in IX, IY.
    destruct Pos as [PX PY]. destruct Sim as [SX SY]. change (@num Rops) with R in *.
    rewrite IX, IY, PX, PY, SX, SY.
    assert (Key : m_period m * (e_alpha e / (1 - e_alpha e)) * (e_trans_vel e1 - v1 - (e_trans_vel e' - v')) +
      (e_trans_vel e1 * m_period m - (v + v1) * m_period m / 2)
      = m_period m * (e_alpha e / (1 - e_alpha e)) * (e_trans_vel e - v - (e_trans_vel e' - v'))).
    { replace (e_trans_vel e1) with (v1 + (e_alpha e * (e_trans_vel e - v) + e_alpha e * (v * (1 - 1)) - (1 - e_alpha e) * ((v1 - v) / 2))) by (rewrite <- F; ring).
      field. intros H. apply Ha. lra. }
    rewrite <- Key. split; ring.
Qed.
