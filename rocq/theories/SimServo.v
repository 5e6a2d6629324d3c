(** The speed controller on the simulated motors: proofs. *)
From Coq Require Import ZArith Reals List Bool Lia Lra.
From Verif Require Import Base SearchModel WallsModel Num NumLemmas ControlModel TrajModel DetectModel SimModel SimSpec SimProofs.
Import ListNotations.
Open Scope R_scope.

(** ** Recursions of order two *)

Section Second.
Variables a1 a2 : R.
Hypothesis A2 : Rabs a2 < 1.
Hypothesis A1 : Rabs a1 < 1 + a2.

Let V (x y : R) := (1 + a2) * (x * x + y * y) + 2 * a1 * (x * y).
Let nx (x y : R) := - a1 * x - a2 * y.

Lemma bounds12 : -1 < a2 < 1 /\ - (1 + a2) < a1 < 1 + a2.
Proof.
  pose proof (Rle_abs a1). pose proof (Rle_abs (- a1)). pose proof (Rle_abs a2). pose proof (Rle_abs (- a2)).
  rewrite Rabs_Ropp in *. lra.
Qed.

Lemma V_step x y : V (nx x y) x = V x y - (1 - a2) * ((nx x y - y) * (nx x y - y)).
Proof. unfold V, nx. ring. Qed.

Let lo := 1 + a2 - Rabs a1.
Let hi := 1 + a2 + Rabs a1.

Lemma V_lo x y : lo * (x * x + y * y) <= V x y.
Proof.
  unfold V, lo. assert (Rabs (2 * a1 * (x * y)) <= Rabs a1 * (x * x + y * y)).
  { rewrite !Rabs_mult, (Rabs_pos_eq 2) by lra.
    assert (2 * (Rabs x * Rabs y) <= x * x + y * y).
    { rewrite <- (Rabs_pos_eq (x * x)), <- (Rabs_pos_eq (y * y)), !Rabs_mult by apply Rle_0_sqr.
      pose proof (Rle_0_sqr (Rabs x - Rabs y)) as Q. unfold Rsqr in Q. lra. }
    pose proof (Rabs_pos a1). nra. }
  pose proof (Rle_abs (- (2 * a1 * (x * y)))). rewrite Rabs_Ropp in *. lra.
Qed.

Lemma V_hi x y : V x y <= hi * (x * x + y * y).
Proof.
  unfold V, hi. assert (Rabs (2 * a1 * (x * y)) <= Rabs a1 * (x * x + y * y)).
  { rewrite !Rabs_mult, (Rabs_pos_eq 2) by lra.
    assert (2 * (Rabs x * Rabs y) <= x * x + y * y).
    { rewrite <- (Rabs_pos_eq (x * x)), <- (Rabs_pos_eq (y * y)), !Rabs_mult by apply Rle_0_sqr.
      pose proof (Rle_0_sqr (Rabs x - Rabs y)) as Q. unfold Rsqr in Q. lra. }
    pose proof (Rabs_pos a1). nra. }
  pose proof (Rle_abs (2 * a1 * (x * y))). lra.
Qed.

Let D := (1 + a2) * (1 + a2) - a1 * a1.
Let N := a1 * a2 * (a1 * a2) + (1 + a2) * (1 + a2) + (a1 * a1 - 1 - a2) * (a1 * a1 - 1 - a2) + a1 * a1.

Lemma D_pos : 0 < D.
Proof. unfold D. destruct bounds12. nra. Qed.
Lemma N_pos : 0 < N.
Proof.
  unfold N. destruct bounds12 as [B _].
  pose proof (Rle_0_sqr (a1 * a2)). pose proof (Rle_0_sqr (a1 * a1 - 1 - a2)). pose proof (Rle_0_sqr a1).
  unfold Rsqr in *. assert (0 < (1 + a2) * (1 + a2)) by nra. lra.
Qed.

Lemma cauchy p q d e : (p * d + q * e) * (p * d + q * e) <= (p * p + q * q) * (d * d + e * e).
Proof. pose proof (Rle_0_sqr (p * e - q * d)) as Q. unfold Rsqr in Q. lra. Qed.

Lemma drop x y : let d := nx x y - y in let e := nx (nx x y) x - x in
  D * D * (x * x + y * y) <= N * (d * d + e * e).
Proof.
  intros d e.
  assert (E1 : D * x = - (a1 * a2) * d + - (1 + a2) * e) by (unfold D, d, e, nx; ring).
  assert (E2 : D * y = (a1 * a1 - 1 - a2) * d + a1 * e) by (unfold D, d, e, nx; ring).
  assert (H1 := cauchy (- (a1 * a2)) (- (1 + a2)) d e). assert (H2 := cauchy (a1 * a1 - 1 - a2) a1 d e).
  rewrite <- E1 in H1. rewrite <- E2 in H2. unfold N. lra.
Qed.

Let q := Rmax (1 / 4) (1 - (1 - a2) * (D * D) / (N * hi)).

Lemma hi_pos : 0 < hi.
Proof. unfold hi. destruct bounds12. pose proof (Rabs_pos a1). lra. Qed.
Lemma lo_pos : 0 < lo.
Proof. unfold lo. lra. Qed.

Lemma q_range : 1 / 4 <= q < 1.
Proof.
  unfold q. split; [apply Rmax_l|]. apply Rmax_lub_lt; [lra|].
  destruct bounds12. pose proof D_pos. pose proof N_pos. pose proof hi_pos.
  assert (0 < (1 - a2) * (D * D) / (N * hi)).
  { apply Rdiv_lt_0_compat; apply Rmult_lt_0_compat; try lra. apply Rmult_lt_0_compat; lra. }
  lra.
Qed.

Lemma two_steps x y : V (nx (nx x y) x) (nx x y) <= q * V x y.
Proof.
  destruct bounds12 as [B _]. pose proof D_pos as DP. pose proof N_pos as NP. pose proof hi_pos as HP. pose proof lo_pos as LP.
  assert (S2 := V_step (nx x y) x). rewrite S2, V_step.
  set (d := nx x y - y) in *. set (e := nx (nx x y) x - x) in *.
  assert (H := drop x y). fold d e in H. cbv zeta in H. fold d e in H.
  assert (U := V_hi x y). assert (L := V_lo x y).
  assert (0 <= x * x + y * y) by (pose proof (Rle_0_sqr x); pose proof (Rle_0_sqr y); unfold Rsqr in *; lra).
  assert (V0 : 0 <= V x y) by nra.
  apply Rle_trans with ((1 - (1 - a2) * (D * D) / (N * hi)) * V x y).
  2:{ apply Rmult_le_compat_r; [exact V0 | unfold q; apply Rmax_r]. }
  assert (K : (D * D) / (N * hi) * V x y <= d * d + e * e).
  { apply Rmult_le_reg_r with (N * hi); [apply Rmult_lt_0_compat; assumption|].
    replace (D * D / (N * hi) * V x y * (N * hi)) with (D * D * V x y) by (field; lra).
    apply Rle_trans with (D * D * (hi * (x * x + y * y))); [apply Rmult_le_compat_l; [nra | exact U]|].
    replace (D * D * (hi * (x * x + y * y))) with (hi * (D * D * (x * x + y * y))) by ring.
    replace ((d * d + e * e) * (N * hi)) with (hi * (N * (d * d + e * e))) by ring.
    apply Rmult_le_compat_l; lra. }
  replace ((1 - (1 - a2) * (D * D) / (N * hi)) * V x y) with (V x y - (1 - a2) * (D * D / (N * hi) * V x y)) by (unfold Rdiv; ring).
  assert ((1 - a2) * (D * D / (N * hi) * V x y) <= (1 - a2) * (d * d + e * e)) by (apply Rmult_le_compat_l; lra).
  lra.
Qed.

Lemma V_nonneg x y : 0 <= V x y.
Proof.
  assert (L := V_lo x y). pose proof lo_pos.
  assert (0 <= x * x + y * y) by (pose proof (Rle_0_sqr x); pose proof (Rle_0_sqr y); unfold Rsqr in *; lra). nra.
Qed.

Lemma V_noninc x y : V (nx x y) x <= V x y.
Proof. rewrite V_step. destruct bounds12. pose proof (Rle_0_sqr (nx x y - y)) as Q. unfold Rsqr in Q. nra. Qed.

(** [exists] before the sequence: the rate depends on the coefficients only. *)
Lemma second_order : exists C rho, 0 <= C /\ 0 < rho < 1 /\
  forall E : nat -> R, (forall n, E (S (S n)) = - a1 * E (S n) - a2 * E n) ->
  forall n, Rabs (E n) <= C * rho ^ n * (Rabs (E 0%nat) + Rabs (E 1%nat)).
Proof.
  destruct q_range as [Q1 Q2]. pose proof lo_pos as LP. pose proof hi_pos as HP.
  set (r2 := sqrt q). set (rho := sqrt r2).
  assert (R2 : r2 * r2 = q) by (apply sqrt_sqrt; lra).
  assert (R2p : 0 < r2) by (apply sqrt_lt_R0; lra).
  assert (R2l : r2 < 1) by nra.
  assert (RR : rho * rho = r2) by (apply sqrt_sqrt; lra).
  assert (Rp : 0 < rho) by (apply sqrt_lt_R0; lra).
  assert (Rl : rho < 1) by nra.
  exists (sqrt (3 * hi / lo)), rho. split; [apply sqrt_pos|]. split; [lra|].
  intros E HE. set (v := fun n => V (E (S n)) (E n)).
  assert (V1 : forall n, v (S n) <= v n).
  { intros n. unfold v. rewrite HE. apply V_noninc. }
  assert (V2 : forall n, v (S (S n)) <= q * v n).
  { intros n. unfold v. rewrite (HE (S n)), HE. apply two_steps. }
  assert (V0 : forall n, 0 <= v n) by (intros n; apply V_nonneg).
  assert (L : forall n, v n + / r2 * v (S n) <= r2 ^ n * (v 0%nat + / r2 * v 1%nat)).
  { induction n as [|n IH]; [cbn [pow]; lra|]. cbn [pow].
    assert (v (S n) + / r2 * v (S (S n)) <= r2 * (v n + / r2 * v (S n))).
    { replace (r2 * (v n + / r2 * v (S n))) with (r2 * v n + v (S n)) by (field; lra).
      assert (/ r2 * v (S (S n)) <= / r2 * (q * v n)) by (apply Rmult_le_compat_l; [left; apply Rinv_0_lt_compat, R2p | apply V2]).
      replace (/ r2 * (q * v n)) with (r2 * v n) in H by (rewrite <- R2; field; lra). lra. }
    assert (r2 * (v n + / r2 * v (S n)) <= r2 * (r2 ^ n * (v 0%nat + / r2 * v 1%nat))) by (apply Rmult_le_compat_l; lra).
    lra. }
  intros n.
  assert (R2i : / r2 <= 2).
  { rewrite <- (Rinv_inv 2). apply Rinv_le_contravar; [lra|]. nra. }
  assert (B1 : v n <= r2 ^ n * (3 * v 0%nat)).
  { apply Rle_trans with (v n + / r2 * v (S n)).
    - assert (0 <= / r2 * v (S n)) by (apply Rmult_le_pos; [left; apply Rinv_0_lt_compat, R2p | apply V0]). lra.
    - eapply Rle_trans; [apply L|]. apply Rmult_le_compat_l; [apply pow_le; lra|].
      assert (/ r2 * v 1%nat <= 2 * v 0%nat).
      { apply Rmult_le_compat; [left; apply Rinv_0_lt_compat, R2p | apply V0 | exact R2i | apply V1]. }
      lra. }
  set (s := Rabs (E 0%nat) + Rabs (E 1%nat)).
  assert (S0 : 0 <= s) by (unfold s; pose proof (Rabs_pos (E 0%nat)); pose proof (Rabs_pos (E 1%nat)); lra).
  assert (B0 : v 0%nat <= hi * (s * s)).
  { unfold v. eapply Rle_trans; [apply V_hi|]. apply Rmult_le_compat_l; [lra|]. unfold s.
    rewrite <- (Rabs_pos_eq (E 1%nat * E 1%nat)), <- (Rabs_pos_eq (E 0%nat * E 0%nat)), !Rabs_mult by apply Rle_0_sqr.
    pose proof (Rabs_pos (E 0%nat)). pose proof (Rabs_pos (E 1%nat)). nra. }
  assert (B2 : lo * (E n * E n) <= v n).
  { unfold v. eapply Rle_trans; [|apply V_lo]. apply Rmult_le_compat_l; [lra|]. pose proof (Rle_0_sqr (E (S n))) as Q. unfold Rsqr in Q. lra. }
  assert (RN : r2 ^ n = rho ^ n * rho ^ n) by (rewrite <- RR, Rpow_mult_distr; reflexivity).
  assert (PN : 0 <= rho ^ n) by (apply pow_le; lra).
  apply Rsqr_incr_0_var.
  2:{ repeat apply Rmult_le_pos; try assumption. apply sqrt_pos. }
  rewrite <- Rsqr_abs. unfold Rsqr.
  replace (sqrt (3 * hi / lo) * rho ^ n * s * (sqrt (3 * hi / lo) * rho ^ n * s))
    with (sqrt (3 * hi / lo) * sqrt (3 * hi / lo) * (rho ^ n * rho ^ n) * (s * s)) by ring.
  rewrite sqrt_sqrt, <- RN by (left; apply Rdiv_lt_0_compat; lra).
  apply Rmult_le_reg_l with lo; [exact LP|].
  replace (lo * (3 * hi / lo * r2 ^ n * (s * s))) with (r2 ^ n * (3 * (hi * (s * s)))) by (field; lra).
  eapply Rle_trans; [exact B2|]. eapply Rle_trans; [exact B1|]. apply Rmult_le_compat_l; [apply pow_le; lra | lra].
Qed.
End Second.

(** ** One channel *)

Fixpoint lin (al A B p : R) (n : nat) (z : R * R) : R * R :=
  match n with
  | O => z
  | S n' => let (e, s) := lin al A B p n' z in (e - al * (A * e + B * s), s + p * e)
  end.

Lemma channel (al A B p : R) : 0 < al -> 0 < p -> 0 < B -> p * B < A -> 2 * al * A < 4 + al * B * p ->
  exists C rho, 0 <= C /\ 0 < rho < 1 /\ forall e s n,
  Rabs (fst (lin al A B p n (e, s))) <= C * rho ^ n * (Rabs e + Rabs s) /\
  Rabs (snd (lin al A B p n (e, s))) <= C * rho ^ n * (Rabs e + Rabs s).
Proof.
  intros Hal Hp HB HA HJ.
  assert (P1 : 0 < al * B) by (apply Rmult_lt_0_compat; assumption).
  assert (P2 : 0 < al * B * p) by (apply Rmult_lt_0_compat; assumption).
  assert (P3 : al * (p * B) < al * A) by (apply Rmult_lt_compat_l; assumption).
  assert (P4 : 0 < A) by (pose proof (Rmult_lt_0_compat p B Hp HB); lra).
  destruct (second_order (al * A - 2) (1 - al * A + al * B * p)) as (C & rho & HC & Hr & H).
  { apply Rabs_def1; lra. }
  { apply Rabs_def1; lra. }
  set (F := 1 + 1 + al * A + al * B).
  set (G := (2 + al * A) / (al * B)).
  assert (F1 : 1 <= F) by (unfold F; nra).
  assert (CF : 0 <= C * F) by (apply Rmult_le_pos; lra).
  assert (G0 : 0 < G) by (unfold G; apply Rdiv_lt_0_compat; nra).
  exists (C * F * (1 + G)), rho. split; [apply Rmult_le_pos; lra|]. split; [exact Hr|]. intros e s.
  set (E := fun n => fst (lin al A B p n (e, s))). set (Z := fun n => snd (lin al A B p n (e, s))).
  assert (EE : forall n, E (S n) = E n - al * (A * E n + B * Z n)).
  { intros n. unfold E, Z. cbn [lin]. destruct (lin al A B p n (e, s)). reflexivity. }
  assert (EZ : forall n, Z (S n) = Z n + p * E n).
  { intros n. unfold E, Z. cbn [lin]. destruct (lin al A B p n (e, s)). reflexivity. }
  assert (HE : forall n, Rabs (E n) <= C * rho ^ n * (F * (Rabs e + Rabs s))).
  { intros n. eapply Rle_trans; [apply H|].
    - intros k. rewrite (EE (S k)), EZ, EE. ring.
    - apply Rmult_le_compat_l; [apply Rmult_le_pos; [exact HC | apply pow_le; lra]|].
      rewrite EE. change (E 0%nat) with e. change (Z 0%nat) with s.
      replace (e - al * (A * e + B * s)) with ((1 + - (al * A)) * e + - (al * B) * s) by ring.
      assert (T := Rabs_triang ((1 + - (al * A)) * e) (- (al * B) * s)). rewrite !Rabs_mult in T.
      assert (T2 := Rabs_triang 1 (- (al * A))). rewrite !Rabs_Ropp, Rabs_R1 in *.
      rewrite (Rabs_pos_eq (al * A)) in T2 by nra. rewrite (Rabs_pos_eq (al * B)) in T by lra.
      assert (Rabs (1 + - (al * A)) * Rabs e <= (1 + al * A) * Rabs e) by (apply Rmult_le_compat_r; [apply Rabs_pos | lra]).
      unfold F. pose proof (Rabs_pos e). pose proof (Rabs_pos s). nra. }
  intros n. fold (E n) (Z n).
  assert (Q : 0 <= C * rho ^ n * (F * (Rabs e + Rabs s))).
  { pose proof (Rabs_pos e). pose proof (Rabs_pos s). repeat apply Rmult_le_pos; try lra. apply pow_le; lra. }
  replace (C * F * (1 + G) * rho ^ n * (Rabs e + Rabs s)) with ((1 + G) * (C * rho ^ n * (F * (Rabs e + Rabs s)))) by ring.
  split.
  - eapply Rle_trans; [apply HE|]. nra.
  - apply Rle_trans with (G * (C * rho ^ n * (F * (Rabs e + Rabs s)))); [|nra].
    assert (S1 : Z n = ((1 + - (al * A)) * E n + - E (S n)) / (al * B)) by (rewrite EE; field; lra).
    rewrite S1. unfold Rdiv. rewrite Rabs_mult, (Rabs_pos_eq (/ _)) by (left; apply Rinv_0_lt_compat; lra).
    unfold G, Rdiv. replace ((2 + al * A) * / (al * B) * (C * rho ^ n * (F * (Rabs e + Rabs s))))
      with ((2 + al * A) * (C * rho ^ n * (F * (Rabs e + Rabs s))) * / (al * B)) by ring.
    apply Rmult_le_compat_r; [left; apply Rinv_0_lt_compat; lra|].
    assert (T := Rabs_triang ((1 + - (al * A)) * E n) (- E (S n))). rewrite Rabs_Ropp, Rabs_mult in T.
    assert (T2 := Rabs_triang 1 (- (al * A))). rewrite Rabs_Ropp, Rabs_R1, (Rabs_pos_eq (al * A)) in T2 by nra.
    assert (H1 := HE n). assert (H2 := HE (S n)). cbn [pow] in H2.
    assert (H3 : C * (rho * rho ^ n) * (F * (Rabs e + Rabs s)) <= C * rho ^ n * (F * (Rabs e + Rabs s))).
    { replace (C * (rho * rho ^ n) * (F * (Rabs e + Rabs s))) with (rho * (C * rho ^ n * (F * (Rabs e + Rabs s)))) by ring. nra. }
    assert (H4 : Rabs (1 + - (al * A)) * Rabs (E n) <= (1 + al * A) * (C * rho ^ n * (F * (Rabs e + Rabs s)))).
    { apply Rmult_le_compat; try apply Rabs_pos; lra. }
    lra.
Qed.

(** ** The loop *)

Lemma stable_channel k t1 p (c : @control_parameters Rops) : stable_gains k t1 p c ->
  exists C rho, 0 <= C /\ 0 < rho < 1 /\ forall e s n,
  let z := lin (p / (t1 + p)) (1 + k * kp c) (k * ki c) p n (e, s) in
  Rabs (fst z) <= C * rho ^ n * (Rabs e + Rabs s) /\ Rabs (snd z) <= C * rho ^ n * (Rabs e + Rabs s).
Proof.
  intros (Hk & Ht & Hp & Hi & _ & H1 & H2). apply channel.
  - apply Rdiv_lt_0_compat; lra.
  - exact Hp.
  - apply Rmult_lt_0_compat; assumption.
  - lra.
  - apply Rmult_lt_reg_r with (t1 + p); [lra|].
    replace (2 * (p / (t1 + p)) * (1 + k * kp c) * (t1 + p)) with (p * (2 * (1 + k * kp c))) by (field; lra).
    replace ((4 + p / (t1 + p) * (k * ki c) * p) * (t1 + p)) with (4 * (t1 + p) + p * (p * k * ki c)) by (field; lra). lra.
Qed.

(** the voltage of one channel in terms of the error and the offset of the sum. *)
Lemma each_voltage k t1 p (c : @control_parameters Rops) v a n y dy s : 0 < k -> ki c <> 0 -> kd c = 0 -> model_k c <> 0 ->
  (a = 0 \/ model_k c = k) ->
  let r := v + INR n * p * a in
  fst (@control_each Rops r a y dy c p s) = needed k t1 p r a + (kp c * (r - y) + ki c * (s - settled k t1 p c v a)) /\
  snd (@control_each Rops r a y dy c p s) = s + p * (r - y).
Proof.
  intros Hk Hi Hd Hm Ha r. unfold control_each, settled, needed. cbn [fst snd]. rops. change (@num Rops) with R in *.
  rewrite Hd. split; [|ring]. unfold r. destruct Ha as [-> | E].
  - field. repeat split; try assumption; lra.
  - rewrite E. field. repeat split; try assumption; lra.
Qed.

(** the first order lag under such a voltage. *)
Lemma lag_error k t1 p kpc kic v a n y s : 0 < k -> 0 <= t1 -> 0 < p ->
  let r := v + INR n * p * a in
  v + INR (S n) * p * a - (y * (t1 / (t1 + p)) + (1 - t1 / (t1 + p)) * (k * (needed k t1 p r a + (kpc * (r - y) + kic * s))))
  = (r - y) - p / (t1 + p) * ((1 + k * kpc) * (r - y) + k * kic * s).
Proof. intros Hk Ht Hp r. unfold r, needed. rewrite S_INR. field. lra. Qed.

Definition same (m m' : @simulator Rops) (c c' : @controller Rops) : Prop :=
  params m m' /\ trans_params c' = trans_params c /\ rot_params c' = rot_params c /\ c_period c' = c_period c.

Section Loop.
Variables (m : @simulator Rops) (c : @controller Rops) (r : @control_target Rops) (v : R).
Let p := m_period m.
Let kt := m_trans_k m. Let tt := m_trans_t1 m. Let kr := m_rot_k m. Let tr := m_rot_t1 m.
Let tp := trans_params c. Let rp := rot_params c.
Hypothesis Gt : stable_gains kt tt p tp.
Hypothesis Gr : stable_gains kr tr p rp.
Hypothesis Pe : c_period c = p.
Hypothesis Mt : model_k tp <> 0. Hypothesis Mr : model_k rp <> 0.
Hypothesis At : c_a r = 0 \/ model_k tp = kt.
Hypothesis Ar : c_alpha r = 0 \/ model_k rp = kr.
Hypothesis Mv : moves (m_current m) v.

Let st := settled kt tt p tp (c_v r) (c_a r). Let sr := settled kr tr p rp (c_omega r) (c_alpha r).
Let zt n := lin (p / (tt + p)) (1 + kt * kp tp) (kt * ki tp) p n (c_v r - v, trans_sum c - st).
Let zr n := lin (p / (tr + p)) (1 + kr * kp rp) (kr * ki rp) p n
  (c_omega r - sv (s_theta (m_current m)), rot_sum c - sr).
Let dt n := kp tp * fst (zt n) + ki tp * snd (zt n).
Let dr n := kp rp * fst (zr n) + ki rp * snd (zr n).

Lemma servo_lin n :
  (forall i, (i < n)%nat ->
    Rabs (needed kt tt p (c_v (ramp p r i)) (c_a r)) + Rabs (needed kr tr p (c_omega (ramp p r i)) (c_alpha r))
    + (Rabs (dt i) + Rabs (dr i)) <= m_max_voltage m) ->
  let (m', c') := servo (ramp p r) n m c in
  same m m' c c' /\ (exists v', moves (m_current m') v' /\ c_v (ramp p r n) - v' = fst (zt n)) /\
  c_omega (ramp p r n) - sv (s_theta (m_current m')) = fst (zr n) /\
  trans_sum c' - st = snd (zt n) /\ rot_sum c' - sr = snd (zr n).
Proof.
  induction n as [|n IH]; intros Hv.
  - cbn [servo]. split; [split; [apply params_refl | auto]|]. unfold zt, zr. cbn [lin fst snd]. cbn [ramp c_v c_omega INR].
    split; [exists v; split; [exact Mv|]; rops; change (@num Rops) with R in *; ring|].
    split; [rops; change (@num Rops) with R in *; ring | auto].
  - cbn [servo]. assert (Hv' := fun i H => Hv i (Nat.lt_lt_succ_r i n H)). specialize (IH Hv'). clear Hv'.
    destruct (servo (ramp p r) n m c) as [m1 c1].
    destruct IH as (Sm & (v1 & M1 & E1) & E2 & S1 & S2).
    destruct Sm as (Pm & Pt & Pr & Pp). assert (Pm' := Pm). destruct Pm' as (_ & Qp & Qx & Qkt & Qtt & Qkr & Qtr & _).
    destruct Gt as (Gk & Gtt & Gp & Gi & Gd & _). destruct Gr as (Gk' & Gtt' & _ & Gi' & Gd' & _).
    unfold control, measured. rewrite (trans_vel_moves _ _ M1), Pt, Pr, Pp, Pe. cbn [c_v c_a c_omega c_alpha].
    fold tp rp. unfold sim_angular_velocity.
    assert (Vt := each_voltage kt tt p tp (c_v r) (c_a r) n v1 (sim_translational_acceleration m1) (trans_sum c1) Gk (Rgt_not_eq _ _ Gi) Gd Mt At).
    assert (Vr := each_voltage kr tr p rp (c_omega r) (c_alpha r) n (sv (s_theta (m_current m1))) (sa (s_theta (m_current m1))) (rot_sum c1) Gk' (Rgt_not_eq _ _ Gi') Gd' Mr Ar).
    fold st in Vt. fold sr in Vr.
    change (c_v (ramp p r n)) with (c_v r + INR n * p * c_a r) in *.
    change (c_omega (ramp p r n)) with (c_omega r + INR n * p * c_alpha r) in *.
    change (c_a (ramp p r n)) with (c_a r). change (c_alpha (ramp p r n)) with (c_alpha r).
    cbv zeta in Vt, Vr.
    destruct (@control_each Rops (c_v r + INR n * p * c_a r)%R (c_a r) v1 _ tp p (trans_sum c1)) as [ut ts].
    destruct (@control_each Rops (c_omega r + INR n * p * c_alpha r)%R (c_alpha r) _ _ rp p (rot_sum c1)) as [ur rs].
    cbn [fst snd] in Vt, Vr. destruct Vt as [Vt Wt]. destruct Vr as [Vr Wr].
    rewrite E1, S1 in Vt. rewrite E2, S2 in Vr. rewrite E1 in Wt. rewrite E2 in Wr.
    fold (dt n) in Vt. fold (dr n) in Vr.
    assert (Hn := Hv n (Nat.lt_succ_diag_r n)). cbn [ramp c_v c_omega] in Hn.
    set (nt := needed kt tt p (c_v r + INR n * p * c_a r) (c_a r)) in *.
    set (nr := needed kr tr p (c_omega r + INR n * p * c_alpha r) (c_alpha r)) in *.
    assert (L : Rabs (ut + ur) <= m_max_voltage m /\ Rabs (ut - ur) <= m_max_voltage m).
    { rewrite Vt, Vr. revert Hn. clear. unfold Rabs. repeat destruct Rcase_abs; lra. }
    destruct L as [L1 L2].
    unfold apply. cbn [m_left m_right]. rewrite Qx.
    assert (LR : @limit Rops (m_max_voltage m) (@add Rops ut ur) = ut + ur) by (apply limit_id; exact L1).
    assert (LL : @limit Rops (m_max_voltage m) (@sub Rops ut ur) = ut - ur) by (apply limit_id; exact L2).
    rewrite LR, LL.
    assert (Xt := lag_error kt tt p (kp tp) (ki tp) (c_v r) (c_a r) n v1 (snd (zt n)) Gk Gtt Gp). cbv zeta in Xt. fold nt in Xt.
    assert (Xr := lag_error kr tr p (kp rp) (ki rp) (c_omega r) (c_alpha r) n (sv (s_theta (m_current m1))) (snd (zr n)) Gk' Gtt' Gp). cbv zeta in Xr. fold nr in Xr.
    rewrite E1 in Xt. rewrite E2 in Xr. fold (dt n) in Xt. fold (dr n) in Xr.
    assert (Zt : zt (S n) = (fst (zt n) - p / (tt + p) * ((1 + kt * kp tp) * fst (zt n) + kt * ki tp * snd (zt n)), snd (zt n) + p * fst (zt n))).
    { unfold zt. cbn [lin]. destruct (lin _ _ _ _ n _). reflexivity. }
    assert (Zr : zr (S n) = (fst (zr n) - p / (tr + p) * ((1 + kr * kp rp) * fst (zr n) + kr * ki rp * snd (zr n)), snd (zr n) + p * fst (zr n))).
    { unfold zr. cbn [lin]. destruct (lin _ _ _ _ n _). reflexivity. }
    split; [|split; [|split; [|split]]].
    + split; [|cbn; auto]. apply params_trans with m1; [exact Pm|]. unfold params. cbn. rewrite Qx. tauto.
    + eexists. split; [apply step_moves|]. rewrite Zt. cbn [fst]. rewrite <- Xt. unfold next_trans_vel.
      cbn [m_current m_trans_t1 m_period m_trans_k m_right_voltage m_left_voltage].
      rewrite (trans_vel_moves _ _ M1), Qtt, Qp, Qkt. fold tt p kt. rops. rewrite <- Vt.
      change (c_v (ramp p r (S n))) with (c_v r + INR (S n) * p * c_a r).
      replace ((ut + ur + (ut - ur)) / (2 / 1)) with ut by field. replace (1 / 1) with 1 by field. reflexivity.
    + rewrite Zr. cbn [fst]. rewrite <- Xr. cbn [step m_current s_theta sv]. unfold next_rot_vel.
      cbn [m_current m_rot_t1 m_period m_rot_k m_right_voltage m_left_voltage].
      rewrite Qtr, Qp, Qkr. fold tr p kr. rops. rewrite <- Vr.
      change (c_omega (ramp p r (S n))) with (c_omega r + INR (S n) * p * c_alpha r).
      replace ((ut + ur - (ut - ur)) / (2 / 1)) with ur by field. replace (1 / 1) with 1 by field. reflexivity.
    + rewrite Zt. cbn [snd trans_sum]. rewrite Wt, <- S1. ring.
    + rewrite Zr. cbn [snd rot_sum]. rewrite Wr, <- S2. ring.
Qed.
End Loop.

Lemma servo_converges kt tt kr tr p (tp rp : @control_parameters Rops) :
  stable_gains kt tt p tp -> stable_gains kr tr p rp -> model_k tp <> 0 -> model_k rp <> 0 ->
  exists C rho, 0 <= C /\ 0 < rho < 1 /\
  forall (m : @simulator Rops) (c : @controller Rops) (r : @control_target Rops) (v : R),
  m_trans_k m = kt -> m_trans_t1 m = tt -> m_rot_k m = kr -> m_rot_t1 m = tr -> m_period m = p ->
  trans_params c = tp -> rot_params c = rp -> c_period c = p ->
  (c_a r = 0 \/ model_k tp = kt) -> (c_alpha r = 0 \/ model_k rp = kr) -> moves (m_current m) v ->
  forall n, (forall i, (i < n)%nat ->
    Rabs (needed kt tt p (c_v (ramp p r i)) (c_a r)) + Rabs (needed kr tr p (c_omega (ramp p r i)) (c_alpha r))
    + C * offset m c r v <= m_max_voltage m) ->
  let (m', c') := servo (ramp p r) n m c in
  exists v', moves (m_current m') v' /\
  Rabs (v' - c_v (ramp p r n)) <= C * rho ^ n * offset m c r v /\
  Rabs (sv (s_theta (m_current m')) - c_omega (ramp p r n)) <= C * rho ^ n * offset m c r v /\
  Rabs (trans_sum c' - settled kt tt p tp (c_v r) (c_a r)) <= C * rho ^ n * offset m c r v /\
  Rabs (rot_sum c' - settled kr tr p rp (c_omega r) (c_alpha r)) <= C * rho ^ n * offset m c r v.
Proof.
  intros Gt Gr Mt Mr. destruct (stable_channel _ _ _ _ Gt) as (Ct & rt & Ct0 & Rt & Ht).
  destruct (stable_channel _ _ _ _ Gr) as (Cr & rr & Cr0 & Rr & Hr).
  set (ft := Rabs (kp tp) + Rabs (ki tp)). set (fr := Rabs (kp rp) + Rabs (ki rp)).
  assert (F1 : 0 <= ft) by (unfold ft; pose proof (Rabs_pos (kp tp)); pose proof (Rabs_pos (ki tp)); lra).
  assert (F2 : 0 <= fr) by (unfold fr; pose proof (Rabs_pos (kp rp)); pose proof (Rabs_pos (ki rp)); lra).
  set (C := Ct * (1 + ft) + Cr * (1 + fr)).
  assert (C1 : Ct <= C /\ Cr <= C /\ ft * Ct + fr * Cr <= C) by (unfold C; repeat split; nra). destruct C1 as (C1 & C2 & C3).
  exists C, (Rmax rt rr). split; [lra|]. split; [split; [apply Rlt_le_trans with rt; [lra | apply Rmax_l] | apply Rmax_lub_lt; lra]|].
  intros m c r v <- <- <- <- <- <- <- Pe At Ar Mv n Hn.
  assert (L := servo_lin m c r v Gt Gr Pe Mt Mr At Ar Mv n). cbv zeta in L.
  set (st := settled (m_trans_k m) (m_trans_t1 m) (m_period m) (trans_params c) (c_v r) (c_a r)) in *.
  set (sr := settled (m_rot_k m) (m_rot_t1 m) (m_period m) (rot_params c) (c_omega r) (c_alpha r)) in *.
  specialize (Ht (c_v r - v) (trans_sum c - st)). specialize (Hr (c_omega r - sv (s_theta (m_current m))) (rot_sum c - sr)).
  assert (O : offset m c r v = Rabs (c_v r - v) + Rabs (trans_sum c - st) + (Rabs (c_omega r - sv (s_theta (m_current m))) + Rabs (rot_sum c - sr))).
  { unfold offset. fold st sr. rewrite (Rabs_minus_sym v), (Rabs_minus_sym (sv (s_theta (m_current m)))). ring. }
  set (ot := Rabs (c_v r - v) + Rabs (trans_sum c - st)) in *.
  set (orr := Rabs (c_omega r - sv (s_theta (m_current m))) + Rabs (rot_sum c - sr)) in *.
  assert (O1 : 0 <= ot) by (unfold ot; pose proof (Rabs_pos (c_v r - v)); pose proof (Rabs_pos (trans_sum c - st)); lra).
  assert (O2 : 0 <= orr) by (unfold orr; pose proof (Rabs_pos (c_omega r - sv (s_theta (m_current m)))); pose proof (Rabs_pos (rot_sum c - sr)); lra).
  rewrite O in *. cbv zeta in Ht, Hr.
  assert (W : forall (k i K e s o q : R), 0 <= K -> 0 <= o -> 0 <= q <= 1 -> Rabs e <= K * q * o -> Rabs s <= K * q * o ->
    Rabs (k * e + i * s) <= (Rabs k + Rabs i) * K * o).
  { intros k i K0 e s o q HK Ho Hq He Hs. eapply Rle_trans; [apply Rabs_triang|]. rewrite !Rabs_mult.
    assert (K0 * q * o <= K0 * o) by (assert (0 <= K0 * o) by (apply Rmult_le_pos; assumption); nra).
    pose proof (Rabs_pos k). pose proof (Rabs_pos i).
    assert (Rabs k * Rabs e <= Rabs k * (K0 * o)) by (apply Rmult_le_compat_l; lra).
    assert (Rabs i * Rabs s <= Rabs i * (K0 * o)) by (apply Rmult_le_compat_l; lra). lra. }
  assert (PW : forall x i, 0 < x < 1 -> 0 <= x ^ i <= 1).
  { intros x i Hx. split; [apply pow_le; lra|]. rewrite <- (pow1 i). apply pow_incr. lra. }
  destruct (servo (ramp (m_period m) r) n m c) as [m' c'].
  destruct L as (_ & (v' & M' & E1) & E2 & E3 & E4).
  { intros i Hi. eapply Rle_trans; [|exact (Hn i Hi)]. apply Rplus_le_compat_l.
    destruct (Ht i) as [T1 T2]. destruct (Hr i) as [T3 T4].
    assert (B1 := W (kp (trans_params c)) (ki (trans_params c)) _ _ _ _ _ Ct0 O1 (PW _ i Rt) T1 T2).
    assert (B2 := W (kp (rot_params c)) (ki (rot_params c)) _ _ _ _ _ Cr0 O2 (PW _ i Rr) T3 T4).
    fold ft in B1. fold fr in B2.
    assert (ft * Ct * ot + fr * Cr * orr <= C * (ot + orr)).
    { assert (0 <= ft * Ct) by (apply Rmult_le_pos; assumption). assert (0 <= fr * Cr) by (apply Rmult_le_pos; assumption). nra. }
    lra. }
  exists v'. split; [exact M'|].
  assert (BB : forall K x o e, 0 <= K <= C -> 0 < x <= Rmax rt rr -> 0 <= o <= ot + orr -> Rabs e <= K * x ^ n * o -> Rabs e <= C * Rmax rt rr ^ n * (ot + orr)).
  { intros K x o e HK Hx Ho He. eapply Rle_trans; [exact He|].
    assert (X : 0 <= x ^ n <= Rmax rt rr ^ n) by (split; [apply pow_le | apply pow_incr]; lra).
    apply Rmult_le_compat; try lra. { apply Rmult_le_pos; lra. } apply Rmult_le_compat; lra. }
  assert (X1 : 0 < rt <= Rmax rt rr) by (split; [lra | apply Rmax_l]).
  assert (X2 : 0 < rr <= Rmax rt rr) by (split; [lra | apply Rmax_r]).
  destruct (Ht n) as [T1 T2]. destruct (Hr n) as [T3 T4].
  rewrite (Rabs_minus_sym v'), (Rabs_minus_sym (sv (s_theta (m_current m')))). rewrite E1, E2, E3, E4.
  split; [|split; [|split]].
  - apply (BB Ct rt ot); try assumption; lra.
  - apply (BB Cr rr orr); try assumption; lra.
  - apply (BB Ct rt ot); try assumption; lra.
  - apply (BB Cr rr orr); try assumption; lra.
Qed.
