(** Lemmas about the simulator. *)
From Coq Require Import ZArith Reals List Bool Lia Lra.
From Verif Require Import Base SearchModel SearchSpec SearchCoord WallsModel WallsSpec WallsLemmas Num NumLemmas ControlModel TrajModel
  DetectModel DetectSpec DetectProofs4 DetectProofs5 DetectProofs6 SimModel SimSpec.
Import ListNotations.
Open Scope R_scope.

Lemma limit_bound (max v : R) : 0 <= max -> Rabs (@limit Rops max v) <= max.
Proof.
  intros H. unfold limit. rops. destruct (Rltb_spec max v); [rewrite Rabs_pos_eq; lra|].
  destruct (Rltb_spec v (- max)); [rewrite Rabs_left1; lra|]. apply Rabs_le. lra.
Qed.

Lemma limit_id (max v : R) : Rabs v <= max -> @limit Rops max v = v.
Proof.
  intros H. unfold limit. rops.
  assert (-max <= v <= max) by (revert H; unfold Rabs; destruct (Rcase_abs v); lra).
  destruct (Rltb_spec max v); [lra|]. destruct (Rltb_spec v (- max)); lra.
Qed.

Lemma sq1 t : cos t * cos t + sin t * sin t = 1.
Proof. pose proof (sin2_cos2 t) as H. unfold Rsqr in H. lra. Qed.

Lemma trans_vel_moves (s : @state Rops) v : moves s v -> @trans_vel Rops s = v.
Proof.
  intros [Hx Hy]. unfold trans_vel. rops. change (@num Rops) with R in *. rewrite Hx, Hy.
  pose proof (sq1 (sx (s_theta s))) as H. rops.
  replace (v * cos (sx (s_theta s)) * cos (sx (s_theta s)) + v * sin (sx (s_theta s)) * sin (sx (s_theta s)))
    with (v * (cos (sx (s_theta s)) * cos (sx (s_theta s)) + sin (sx (s_theta s)) * sin (sx (s_theta s)))) by ring.
  rewrite H. ring.
Qed.

(** a first order lag *)
Lemma lag_bound (t1 p v k u mx B : R) : 0 <= t1 -> 0 < p -> 0 <= mx -> Rabs u <= mx ->
  Rabs v <= B -> Rabs k * mx <= B ->
  Rabs (v * (t1 / (t1 + p)) + (1 - t1 / (t1 + p)) * (k * u)) <= B.
Proof.
  intros Ht Hp Hm Hu Hv Hk. set (a := t1 / (t1 + p)).
  assert (Ha : 0 <= a <= 1).
  { unfold a. split; [unfold Rdiv; apply Rmult_le_pos; [lra|]; left; apply Rinv_0_lt_compat; lra|]. apply Rmult_le_reg_r with (t1 + p); [lra|]. field_simplify; lra. }
  assert (Hku : Rabs (k * u) <= B).
  { rewrite Rabs_mult. apply Rle_trans with (Rabs k * mx); [|exact Hk]. apply Rmult_le_compat_l; [apply Rabs_pos|exact Hu]. }
  apply Rle_trans with (Rabs (v * a) + Rabs ((1 - a) * (k * u))); [apply Rabs_triang|].
  rewrite Rabs_mult, (Rabs_mult (1 - a)), (Rabs_pos_eq a), (Rabs_pos_eq (1 - a)) by lra.
  assert (Rabs v * a <= B * a) by (apply Rmult_le_compat_r; lra).
  assert ((1 - a) * Rabs (k * u) <= (1 - a) * B) by (apply Rmult_le_compat_l; lra). lra.
Qed.

Lemma half_sum (a b m : R) : Rabs a <= m -> Rabs b <= m -> Rabs ((a + b) / 2) <= m /\ Rabs ((a - b) / 2) <= m.
Proof. unfold Rabs. repeat destruct Rcase_abs; lra. Qed.

(** what every command keeps *)
Definition params (m m' : @simulator Rops) : Prop :=
  m_walls m' = m_walls m /\ m_period m' = m_period m /\ m_max_voltage m' = m_max_voltage m /\
  m_trans_k m' = m_trans_k m /\ m_trans_t1 m' = m_trans_t1 m /\
  m_rot_k m' = m_rot_k m /\ m_rot_t1 m' = m_rot_t1 m /\ m_wheel_interval m' = m_wheel_interval m.

Lemma params_refl m : params m m. Proof. unfold params. tauto. Qed.
Lemma params_trans a b c : params a b -> params b c -> params a c.
Proof. unfold params. intuition congruence. Qed.

Lemma step_moves (m : @simulator Rops) : moves (m_current (step m)) (next_trans_vel m).
Proof. split; reflexivity. Qed.

Lemma bounded l : forall (m : @simulator Rops) v B C, sim_ok m -> moves (m_current m) v ->
  Rabs v <= B -> Rabs (m_trans_k m) * m_max_voltage m <= B ->
  Rabs (sv (s_theta (m_current m))) <= C -> Rabs (m_rot_k m) * m_max_voltage m <= C ->
  let m' := runs m l in params m m' /\ sim_ok m' /\
  (exists v', moves (m_current m') v' /\ Rabs v' <= B) /\ Rabs (sv (s_theta (m_current m'))) <= C.
Proof.
  induction l as [|c l IH]; intros m v B C Hok Hmv Hv HB Hw HC; cbn [runs].
  - cbv zeta. split; [apply params_refl|]. split; [exact Hok|]. split; [eauto|exact Hw].
  - destruct Hok as (Hp & Ht & Hr & Hm & H1 & H2). destruct c as [o|].
    + destruct (IH (apply m o) v B C) as (I1 & I2); try assumption.
      * unfold sim_ok. cbn. repeat split; try assumption; now apply limit_bound.
      * split; [|exact I2]. apply params_trans with (apply m o); [|exact I1]. unfold params. cbn. tauto.
    + destruct (half_sum _ _ _ H1 H2) as [Hs Hd].
      destruct (IH (step m) (next_trans_vel m) B C) as (I1 & I2); try assumption.
      * unfold sim_ok. cbn. tauto.
      * apply step_moves.
      * unfold next_trans_vel. rewrite (trans_vel_moves _ _ Hmv). rops. replace (1 / 1) with 1 by lra. replace (2 / 1) with 2 by lra.
        apply (lag_bound _ _ _ _ _ (m_max_voltage m)); try assumption; rops; assumption.
      * cbn. unfold next_rot_vel. rops. replace (1 / 1) with 1 by lra. replace (2 / 1) with 2 by lra.
        apply (lag_bound _ _ _ _ _ (m_max_voltage m)); try assumption; rops; assumption.
      * split; [|exact I2]. apply params_trans with (step m); [|exact I1]. unfold params. cbn. tauto.
Qed.

Lemma runs_app {K : ops} (m : simulator) a b : runs m (a ++ b) = runs (runs m a) b.
Proof. revert m. induction a as [|[o|] a IH]; intros m; cbn; auto. Qed.

(** ** One step *)
Lemma step_follows (m : @simulator Rops) v : 0 < m_period m -> moves (m_current m) v ->
  m_last (step m) = m_current m /\ follows (m_period m) (m_current m) (m_current (step m)).
Proof.
  intros Hp Hmv. split; [reflexivity|]. pose proof (trans_vel_moves _ _ Hmv) as T. destruct Hmv as [Hx Hy].
  unfold follows, step. cbn [m_current s_x s_y s_theta sx sv sa]. rewrite T. rops. change (@num Rops) with R in *.
  rewrite Hx, Hy. repeat split; field; lra.
Qed.

Lemma encoders (m : @simulator Rops) v v0 : moves (m_current m) v -> moves (m_last m) v0 ->
  (e_left (distance m) + e_right (distance m)) / 2 = (v + v0) / 2 * m_period m /\
  e_right (distance m) - e_left (distance m) =
    (sv (s_theta (m_current m)) + sv (s_theta (m_last m))) / 2 * m_wheel_interval m * m_period m.
Proof.
  intros H1 H2. unfold distance, average. cbn [e_left e_right].
  fold (@trans_vel Rops (m_current m)). fold (@trans_vel Rops (m_last m)).
  rewrite (trans_vel_moves _ _ H1), (trans_vel_moves _ _ H2). rops. split; field.
Qed.

(** ** Constant voltages *)
Lemma geometric n : forall (m : @simulator Rops) v, sim_ok m -> moves (m_current m) v ->
  let m' := runs m (repeat Step n) in
  let vinf := m_trans_k m * ((m_right_voltage m + m_left_voltage m) / 2) in
  let winf := m_rot_k m * ((m_right_voltage m - m_left_voltage m) / 2) in
  (exists v', moves (m_current m') v' /\
     v' - vinf = (v - vinf) * (m_trans_t1 m / (m_trans_t1 m + m_period m)) ^ n) /\
  sv (s_theta (m_current m')) - winf =
    (sv (s_theta (m_current m)) - winf) * (m_rot_t1 m / (m_rot_t1 m + m_period m)) ^ n.
Proof.
  induction n as [|n IH]; intros m v Hok Hmv; cbn [repeat runs]; cbv zeta.
  - split; [exists v; split; [exact Hmv|]|]; rops; change (@num Rops) with R in *; cbn [pow]; ring.
  - assert (Hok' : sim_ok (step m)) by exact Hok.
    destruct (IH (step m) (next_trans_vel m) Hok' (step_moves m)) as ((v' & M & E) & E2).
    cbn [step m_trans_k m_right_voltage m_left_voltage m_rot_k m_trans_t1 m_period m_rot_t1 m_current s_theta sv] in E, E2.
    split.
    + exists v'. split; [exact M|]. rops. change (@num Rops) with R in *. rewrite E. unfold next_trans_vel.
      rewrite (trans_vel_moves _ _ Hmv). rops. replace (1 / 1) with 1 by lra. replace (2 / 1) with 2 by lra. cbn [pow]. ring.
    + rops. change (@num Rops) with R in *. rewrite E2. unfold next_rot_vel. rops. replace (1 / 1) with 1 by lra. replace (2 / 1) with 2 by lra. cbn [pow]. ring.
Qed.

(** ** Simulator and estimator *)
Lemma heading {K : ops} l : forall (m : simulator) (e : estimator) (s : state),
  e_period e = m_period m -> s_theta s = s_theta (m_current m) ->
  let r := rounds m e s l in s_theta (snd r) = s_theta (m_current (fst r)).
Proof.
  induction l as [|o l IH]; intros m e s Hp Hs; [exact Hs|]. cbn [rounds].
  destruct (estimate e s (sensed (step (apply m o)))) as [s' e'] eqn:E.
  apply IH.
  - assert (He : e_period e' = e_period e) by (injection E as _ <-; reflexivity). rewrite He. exact Hp.
  - assert (Hs' : s_theta s' = s_theta (fst (s', e'))) by reflexivity. rewrite Hs', <- E.
    unfold estimate. cbn [fst s_theta]. rewrite Hs, Hp. reflexivity.
Qed.

(** ** Simulator and wall detector *)

Lemma latched_thr (p : R) : 0 <= p <= 1 -> @latched Rops p = true -> p < / 8388608 \/ 1 - / 8388608 < p.
Proof.
  intros Hp. unfold latched, is_zero, is_one, EPSILON. rops. rewrite (Rabs_pos_eq p), (Rabs_left1 (p - 1 / 1)) by lra.
  destruct (Rltb_spec p (1 / 8388608)), (Rltb_spec (- (p - 1 / 1)) (1 / 8388608)); cbn [orb]; intros; try lra; discriminate.
Qed.

Section Looks.
Variable W : Z.
Hypothesis HW : supported W.

Lemma gaussian_le1 r x : 0 < gaussian r x <= 1.
Proof.
  unfold gaussian. split; [apply exp_pos|]. rewrite <- exp_0. set (y := (x - r_mean r) / r_stddev r).
  assert (0 <= y * y) by nra. destruct (Rle_lt_or_eq_dec _ _ H) as [H1|H1].
  - left. apply exp_increasing. lra.
  - rewrite <- H1. right. f_equal. lra.
Qed.

Lemma gaussian_self r : gaussian r (r_mean r) = 1.
Proof.
  unfold gaussian. rewrite <- exp_0. f_equal.
  replace (r_mean r - r_mean r) with 0 by (change (@num Rops) with R; ring). unfold Rdiv. ring.
Qed.

(** the reading taken by the simulator *)
Lemma dfw (m : @simulator Rops) st (p : @pose Rops) : holds W (m_walls m) st ->
  distance_from_wall W m p = Ret None /\ convert W converter_default p = Ret None \/
  exists c d1 d2, convert W converter_default p = Ret (Some (@WallInfo Rops c (Some d1) (Some d2))) /\
    valid W c /\
    distance_from_wall W m p =
      Ret (Some (@Normal Rops (if is_wall (st c) then d1 else d2) (2 / 1000)%R)).
Proof.
  intros Hh. unfold distance_from_wall. destruct (convert_shape W p) as [[E|(i & E)] Hs]; rewrite E; cbn [bind].
  - left. auto.
  - right. pose proof (convert_valid W HW _ _ _ E) as Hv.
    destruct i as [c o1 o2]. destruct (Hs _ E) as (? & ? & ? & d1 & d2 & _ & _ & _ & _ & E1 & E2 & _). cbn in E1, E2, Hv. subst o1 o2.
    exists c, d1, d2. split; [reflexivity|]. split; [exact Hv|].
    cbn [w_coord]. rewrite (proj2 Hh c Hv). cbn [bind w_existing w_not_existing]. cbn [isnan Rops].
    unfold is_wall. destruct (st c) as [|[|]]; reflexivity.
Qed.

Definition sim_reading (st : coord -> wall_state) c (d1 d2 : R) (p : @pose Rops) : @reading Rops :=
  @Reading Rops (if is_wall (st c) then d1 else d2) (2 / 1000)%R p.

Lemma ratio_side st c d1 d2 p : convert W converter_default p = Ret (Some (@WallInfo Rops c (Some d1) (Some d2))) ->
  let r := likelihood_ratio W (sim_reading st c d1 d2 p) in
  if is_wall (st c) then 1 <= r else 0 < r <= 1.
Proof.
  intros E. cbv zeta. unfold likelihood_ratio. cbn [sim_reading r_pose]. rewrite E.
  destruct (is_wall (st c)) eqn:Ew.
  - assert (M : gaussian (sim_reading st c d1 d2 p) d1 = 1).
    { rewrite <- (gaussian_self (sim_reading st c d1 d2 p)). unfold sim_reading at 3. rewrite Ew. reflexivity. }
    rewrite M. pose proof (gaussian_le1 (sim_reading st c d1 d2 p) d2) as G.
    apply Rmult_le_reg_r with (gaussian (sim_reading st c d1 d2 p) d2); [lra|]. unfold Rdiv. rewrite Rmult_assoc, Rinv_l by lra. lra.
  - assert (M : gaussian (sim_reading st c d1 d2 p) d2 = 1).
    { rewrite <- (gaussian_self (sim_reading st c d1 d2 p)). unfold sim_reading at 3. rewrite Ew. reflexivity. }
    rewrite M. pose proof (gaussian_le1 (sim_reading st c d1 d2 p) d1) as G. unfold Rdiv. rewrite Rinv_1. lra.
Qed.

Lemma odds_side b b' r : 0 < b < 1 -> 0 < b' < 1 -> odds b' = odds b * r ->
  (1 <= r -> b <= b') /\ (0 < r <= 1 -> b' <= b).
Proof.
  intros H H' E. unfold odds in E.
  assert (E2 : b' * (1 - b) = b * r * (1 - b')).
  { apply (f_equal (fun z => z * (1 - b') * (1 - b))) in E.
    replace (b' / (1 - b') * (1 - b') * (1 - b)) with (b' * (1 - b)) in E by (field; lra).
    replace (b / (1 - b) * r * (1 - b') * (1 - b)) with (b * r * (1 - b')) in E by (field; lra). exact E. }
  assert (P : 0 < b * (1 - b')) by (apply Rmult_lt_0_compat; lra).
  replace (b * r * (1 - b')) with (b * (1 - b') * r) in E2 by ring.
  split; intros Hr; apply Rnot_lt_le; intros L.
  - assert (b * (1 - b') * 1 <= b * (1 - b') * r) by (apply Rmult_le_compat_l; lra). lra.
  - assert (b * (1 - b') * r <= b * (1 - b') * 1) by (apply Rmult_le_compat_l; lra). lra.
Qed.

(** one reading *)
Lemma look_step st (m : @simulator Rops) (d : @detector Rops) p : holds W (m_walls m) st ->
  detector_ok W d -> leans_to W st d ->
  exists n d' a, distance_from_wall W m p = Ret n /\
    match n with
    | Some n => detect_and_update W d (n_mean n) (n_stddev n) p
    | None => Ret (d, None)
    end = Ret (d', a) /\ detector_ok W d' /\ leans_to W st d' /\
    (forall c s, a = Some (c, s) -> valid W c /\ reported (belief W d' c) s).
Proof.
  intros Hh Hd Hl. destruct (dfw m st p Hh) as [[E _]|(c & d1 & d2 & Ec & Hv & E)].
  - exists None, d, None. split; [exact E|]. split; [reflexivity|]. split; [exact Hd|]. split; [exact Hl|]. discriminate.
  - exists (Some (@Normal Rops (if is_wall (st c) then d1 else d2) (2 / 1000)%R)).
    destruct (detect_step W HW d (sim_reading st c d1 d2 p) Hd) as (d' & a & E1 & O & S1 & S2 & S3 & S4).
    exists d', a. split; [exact E|]. split; [exact E1|]. split; [exact O|]. split; [|exact S4].
    intros c2 Hv2. specialize (Hl c2 Hv2). destruct (about c2 a) eqn:Ea; [|rewrite (S2 c2 Hv2 Ea); exact Hl].
    assert (c2 = c).
    { specialize (S1 c2 Ea). unfold sees in S1. cbn [sim_reading r_pose] in S1. rewrite Ec in S1.
      cbn [w_coord] in S1. destruct (coord_eqb_spec c c2); [now symmetry|discriminate]. }
    subst c2. destruct Hd as (Hcv & Hlen & Hpr).
    assert (Hb : 0 < belief W d c < 1).
    { destruct (latched (belief W d c)) eqn:El.
      - exfalso. pose proof (detect_latched W HW d (r_mean (sim_reading st c d1 d2 p)) (r_stddev (sim_reading st c d1 d2 p))
          p (@WallInfo Rops c (Some d1) (Some d2)) Hlen) as L. rewrite Hcv in L. specialize (L Ec El).
        cbn [sim_reading r_pose] in E1, L. rewrite L in E1. injection E1 as <- <-. discriminate.
      - exact (latched_R _ (Hpr c Hv) El). }
    destruct (S3 c Hv Hb) as [Hb' Eo]. rewrite Ea in Eo.
    pose proof (ratio_side st c d1 d2 p Ec) as Hr. cbv zeta in Hr.
    destruct (odds_side _ _ _ Hb Hb' Eo) as [O1 O2].
    destruct (is_wall (st c)); [specialize (O1 Hr)|specialize (O2 Hr)]; lra.
Qed.

Lemma looks_right st (m : @simulator Rops) ps : holds W (m_walls m) st ->
  forall (d : @detector Rops), detector_ok W d -> leans_to W st d ->
  exists d' l, looks W m d ps = Ret (d', l) /\ detector_ok W d' /\ leans_to W st d' /\
    forall c b, In (Some (c, Checked b)) l -> valid W c /\ b = is_wall (st c).
Proof.
  intros Hh. induction ps as [|p ps IH]; intros d Hd Hl; cbn [looks].
  - exists d, []. split; [reflexivity|]. split; [exact Hd|]. split; [exact Hl|]. intros c b [].
  - destruct (look_step st m d p Hh Hd Hl) as (n & d1 & a & E & E1 & O & L & S). rewrite E. cbn [bind]. rewrite E1. cbn [bind].
    destruct (IH d1 O L) as (d2 & l & E2 & O2 & L2 & S2). rewrite E2. cbn [bind].
    exists d2, (a :: l). split; [reflexivity|]. split; [exact O2|]. split; [exact L2|].
    intros c b [->|Hin]; [|now apply S2]. destruct (S c (Checked b) eq_refl) as [Hv Rp]. split; [exact Hv|].
    specialize (L c Hv). cbn [reported] in Rp. destruct b, (is_wall (st c)); try reflexivity; lra.
Qed.

Lemma exp_large : 9 < exp (25 / 8).
Proof.
  assert (E : exp (25 / 8) = (exp (5 / 16)) ^ 10).
  { cbn [pow]. rewrite <- ?exp_plus, Rmult_1_r, <- ?exp_plus. f_equal. lra. }
  rewrite E. pose proof (exp_ineq1 (5 / 16) ltac:(lra)) as H.
  apply Rlt_le_trans with ((21 / 16) ^ 10); [cbn [pow]; lra|]. apply pow_incr. lra.
Qed.

(** one reading is enough when the two distances differ by 5 mm *)
Lemma look_decides st (m : @simulator Rops) (d : @detector Rops) p c d1 d2 : holds W (m_walls m) st ->
  detector_ok W d -> leans_to W st d ->
  convert W converter_default p = Ret (Some (@WallInfo Rops c (Some d1) (Some d2))) ->
  d1 + 5 / 1000 <= d2 -> / 8388608 <= belief W d c <= 1 - / 8388608 ->
  exists d', looks W m d [p] = Ret (d', [Some (c, Checked (is_wall (st c)))]).
Proof.
  intros Hh Hd Hl Ec Hgap Hb.
  destruct (dfw m st p Hh) as [[_ E]|(c0 & e1 & e2 & Ec0 & Hv & E)]; [congruence|].
  rewrite Ec in Ec0. injection Ec0 as <- <- <-.
  destruct (detect_step W HW d (sim_reading st c d1 d2 p) Hd) as (d' & a & E1 & O & S1 & S2 & S3 & S4).
  exists d'. cbn [looks]. rewrite E. cbn [bind]. cbn [n_mean n_stddev].
  cbn [sim_reading r_mean r_stddev r_pose] in E1. rewrite E1. cbn [bind].
  assert (Ha : exists s, a = Some (c, s)).
  { destruct Hd as (Hcv & Hlen & Hpr). revert E1. unfold detect_and_update. rewrite Hcv, Ec. cbn [bind w_coord].
    unfold wall_existence. rewrite aget_ok by (rewrite Hlen; apply (as_index_que W _ HW (proj1 Hv))). cbn [bind].
    fold (belief W d c). fold (latched (belief W d c)).
    destruct (latched (belief W d c)) eqn:El.
    - exfalso. apply latched_thr in El; [lra|]. apply Hpr. exact Hv.
    - cbn [isnan Rops orb]. destruct (posterior _ _ _); cbn [bind]; try discriminate.
      destruct (set_existence _ _ _ _); cbn [bind]; try discriminate. intros X. injection X as <- <-. eauto. }
  destruct Ha as (s & ->). do 3 f_equal. destruct (S4 c s eq_refl) as [_ Rp].
  assert (Hb1 : 0 < belief W d c < 1) by lra.
  destruct (S3 c Hv Hb1) as [Hb' Eo]. cbn [about] in Eo. destruct (coord_eqb_spec c c); [|contradiction].
  specialize (Hl c Hv).
  assert (Hfar : forall x y, x = y + (d2 - d1) \/ y = x + (d2 - d1) -> r_stddev (sim_reading st c d1 d2 p) = 2 / 1000 ->
     r_mean (sim_reading st c d1 d2 p) = y -> 9 * gaussian (sim_reading st c d1 d2 p) x < 1).
  { intros x y Hxy Hsd Hm. unfold gaussian. change (@num Rops) with R in *. rewrite Hsd, Hm.
    set (q := (x - y) / (2 / 1000)). assert (Hq : 25 / 8 <= q * q / 2).
    { assert (Q : q = (x - y) * 500) by (unfold q; field). rewrite Q. assert ((5 / 1000) * (5 / 1000) <= (x - y) * (x - y)) by (destruct Hxy; subst; nra). nra. }
    assert (L : 9 < exp (q * q / 2)).
    { apply Rlt_le_trans with (exp (25 / 8)); [apply exp_large|]. destruct Hq as [Hq|Hq]; [left; now apply exp_increasing|right; now rewrite Hq]. }
    replace (- (q * q) / 2) with (- (q * q / 2)) by lra. rewrite exp_Ropp.
    apply Rmult_lt_reg_r with (exp (q * q / 2)); [lra|]. rewrite Rmult_assoc, Rinv_l by lra. lra. }
  unfold likelihood_ratio in Eo. cbn [sim_reading r_pose] in Eo. rewrite Ec in Eo.
  change (@Reading Rops (if is_wall (st c) then d1 else d2) (2 / 1000)%R p) with (sim_reading st c d1 d2 p) in Eo.
  destruct (is_wall (st c)) eqn:Ew.
  - pose proof (Hfar d2 d1 ltac:(left; lra) eq_refl ltac:(cbn; now rewrite Ew)) as F.
    assert (M : gaussian (sim_reading st c d1 d2 p) d1 = 1).
    { rewrite <- (gaussian_self (sim_reading st c d1 d2 p)). unfold sim_reading at 3. rewrite Ew. reflexivity. }
    rewrite M in Eo. pose proof (gaussian_le1 (sim_reading st c d1 d2 p) d2) as G.
    assert (9 < 1 / gaussian (sim_reading st c d1 d2 p) d2).
    { apply Rmult_lt_reg_r with (gaussian (sim_reading st c d1 d2 p) d2); [lra|]. unfold Rdiv. rewrite Rmult_assoc, Rinv_l by lra. lra. }
    assert (1 <= odds (belief W d c)).
    { unfold odds. apply Rmult_le_reg_r with (1 - belief W d c); [lra|]. unfold Rdiv. rewrite Rmult_assoc, Rinv_l by lra. lra. }
    assert (9 < odds (belief W d' c)) by (rewrite Eo; nra).
    assert (9 / 10 < belief W d' c).
    { unfold odds in H1. apply (Rmult_lt_compat_r (1 - belief W d' c)) in H1; [|lra]. unfold Rdiv in H1 at 1. rewrite Rmult_assoc, Rinv_l in H1 by lra. lra. }
    destruct s as [|[|]]; cbn [reported] in Rp; try reflexivity; lra.
  - pose proof (Hfar d1 d2 ltac:(right; lra) eq_refl ltac:(cbn; now rewrite Ew)) as F.
    assert (M : gaussian (sim_reading st c d1 d2 p) d2 = 1).
    { rewrite <- (gaussian_self (sim_reading st c d1 d2 p)). unfold sim_reading at 3. rewrite Ew. reflexivity. }
    rewrite M in Eo. pose proof (gaussian_le1 (sim_reading st c d1 d2 p) d1) as G.
    unfold Rdiv in Eo. rewrite Rinv_1, Rmult_1_r in Eo.
    assert (0 < odds (belief W d c) <= 1).
    { unfold odds. split; [unfold Rdiv; apply Rmult_lt_0_compat; [lra|apply Rinv_0_lt_compat; lra]|].
      apply Rmult_le_reg_r with (1 - belief W d c); [lra|]. unfold Rdiv. rewrite Rmult_assoc, Rinv_l by lra. lra. }
    assert (9 * odds (belief W d' c) < 1) by (rewrite Eo; nra).
    assert (belief W d' c < 1 / 10).
    { unfold odds in H0. apply (Rmult_lt_compat_r (1 - belief W d' c)) in H0; [|lra].
      replace (9 * (belief W d' c / (1 - belief W d' c)) * (1 - belief W d' c)) with (9 * belief W d' c) in H0 by (field; lra). lra. }
    destruct s as [|[|]]; cbn [reported] in Rp; try reflexivity; lra.
Qed.

End Looks.
