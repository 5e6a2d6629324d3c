(** Certified values of the integrals of cos and sin along the turns of TrajCurve. *)
From Coq Require Import ZArith Reals List Bool Lia Lra QArith Qreals.
From Verif Require Import Base Num SearchModel RunModel ControlModel TrajModel TrajSpec TrajProofs TrajProofs2 TrajCurve.
Import ListNotations.
Open Scope R_scope.

(** ** pi *)

Lemma PI_tight : 52707178 / 16777216 <= PI <= 52707179 / 16777216.
Proof.
  pose proof (PI_2_3_7_ineq 4) as [L U]. change (S (2 * 4)) with 9%nat in L. change (2 * 4)%nat with 8%nat in U.
  unfold tg_alt, PI_2_3_7_tg, Ratan_seq in L, U.
  cbn [sum_f_R0 INR Nat.mul Nat.add pow] in L, U. lra.
Qed.

(** ** cos, by its Taylor polynomial of degree 10 *)

Definition poly10 (y : R) : R :=
  1 - y / 2 + y * y / 24 - y * y * y / 720 + y * y * y * y / 40320 - y * y * y * y * y / 3628800.

Lemma INR_fact n : INR (fact (S n)) = IZR (Z.of_nat (S n)) * INR (fact n).
Proof. rewrite <- INR_IZR_INZ, <- mult_INR. reflexivity. Qed.

Lemma approx5 x : cos_approx x 5 = poly10 (x * x).
Proof.
  unfold cos_approx, poly10. cbn [sum_f_R0]. unfold cos_term. cbn [Nat.mul Nat.add].
  rewrite !INR_fact. change (INR (fact 0)) with 1. cbn [Z.of_nat Pos.of_succ_nat Pos.succ pow]. field.
Qed.

Lemma approx6 x : cos_approx x 6 = poly10 (x * x) + x ^ 12 / 479001600.
Proof.
  rewrite <- approx5. unfold cos_approx. change (sum_f_R0 (cos_term x) 6) with (sum_f_R0 (cos_term x) 5 + cos_term x 6).
  f_equal. unfold cos_term. cbn [Nat.mul Nat.add].
  rewrite !INR_fact. change (INR (fact 0)) with 1. cbn [Z.of_nat Pos.of_succ_nat Pos.succ pow]. field.
Qed.

Lemma poly_cos x : 0 <= x <= PI / 2 -> Rabs (cos x - poly10 (x * x)) <= 48 / 100000000.
Proof.
  intros [L U]. pose proof PI_tight as [_ HP]. pose proof PI_RGT_0.
  destruct (cos_bound x 2 ltac:(lra) U) as [B1 B2].
  change (2 * 2 + 1)%nat with 5%nat in B1. change (2 * (2 + 1))%nat with 6%nat in B2.
  rewrite approx5 in B1. rewrite approx6 in B2.
  assert (Y : 0 <= x * x <= 24675 / 10000) by (split; nra).
  assert (E : x ^ 12 = (x * x) ^ 6) by ring.
  assert (P : 0 <= (x * x) ^ 6 <= (24675 / 10000) ^ 6) by (split; [apply pow_le; lra | apply pow_incr; exact Y]).
  rewrite E in B2. apply Rabs_le. split; lra.
Qed.

(** ... in integers: [czn x / czd] is the polynomial at [x / 2 ^ 24]. *)
Definition Sz : Z := 281474976710656.
Definition czd : Z := 3628800 * (Sz * Sz * Sz * Sz * Sz).
Definition czn (x : Z) : Z :=
  let y := (x * x)%Z in
  let s2 := (Sz * Sz)%Z in let s3 := (s2 * Sz)%Z in let s4 := (s3 * Sz)%Z in let s5 := (s4 * Sz)%Z in
  (((((- y + 90 * Sz) * y - 5040 * s2) * y + 151200 * s3) * y - 1814400 * s4) * y + 3628800 * s5)%Z.

Lemma czd_pos : 0 < IZR czd.
Proof. apply IZR_lt. reflexivity. Qed.

Lemma czn_poly x : IZR (czn x) / IZR czd = poly10 (IZR x / 16777216 * (IZR x / 16777216)).
Proof.
  assert (ES : IZR Sz = 16777216 * 16777216) by (rewrite <- mult_IZR; reflexivity).
  unfold czn, czd, poly10. cbv zeta. repeat rewrite ?plus_IZR, ?minus_IZR, ?mult_IZR, ?opp_IZR.
  rewrite ES. field.
Qed.

(** cos (pi * m / 2 ^ 24), multiplied by [czd], for |m| <= 2 ^ 23. *)
Definition cosq (m : Z) : Z := czn (52707178 * Z.abs m / 16777216).
(** cos (pi * n / 2 ^ 24) and sin (pi * n / 2 ^ 24), multiplied by [czd]. *)
Definition cosZ (n : Z) : Z :=
  if (n <=? 8388608)%Z then cosq n else (- cosq (16777216 - n))%Z.
Definition sinZ (n : Z) : Z := cosq (8388608 - n).

Lemma cos_lip x y : Rabs (cos x - cos y) <= Rabs (x - y).
Proof.
  destruct (Req_dec x y) as [-> | N]; [rewrite !Rminus_diag_eq, Rabs_R0 by reflexivity; lra|].
  destruct (MVT_abs cos (fun z => - sin z) y x) as (c & Hc & _).
  { intros c _. apply derivable_pt_lim_cos. }
  rewrite Hc. rewrite <- (Rmult_1_l (Rabs (x - y))) at 2. apply Rmult_le_compat_r; [apply Rabs_pos|].
  rewrite Rabs_Ropp. apply Rabs_le. pose proof (SIN_bound c). lra.
Qed.

(** an angle [pi * q] for which [pi * m / 2 ^ 24] is a good approximation. *)
Lemma cosq_pos (q : R) (m : Z) : (0 <= m <= 8388608)%Z -> Rabs (q - IZR m / 16777216) <= 2 / 16777216 ->
  Rabs (cos (PI * q) - IZR (cosq m) / IZR czd) <= 1 / 1000000.
Proof.
  intros [M1 M2] Hq. pose proof PI_tight as [P1 P2]. unfold cosq. rewrite Z.abs_eq by exact M1.
  pose proof (Z.mul_div_le (52707178 * m) 16777216 eq_refl) as L.
  pose proof (Z.mul_succ_div_gt (52707178 * m) 16777216 eq_refl) as U.
  set (z := (52707178 * m / 16777216)%Z) in *. unfold Z.succ in U.
  apply IZR_le in M1, M2, L. apply IZR_lt in U. rewrite !mult_IZR in L, U. rewrite plus_IZR in U.
  assert (Z0 : 0 <= IZR z).
  { apply (IZR_le 0). unfold z. apply Z.div_pos; [apply le_IZR in M1; lia | lia]. }
  rewrite czn_poly. set (x := IZR z / 16777216) in *.
  assert (Hx : 0 <= x <= PI / 2) by (unfold x; lra).
  pose proof (poly_cos x Hx) as B.
  assert (D : Rabs (PI * q - x) <= 47 / 100000000).
  { replace (PI * q - x) with (PI * (q - IZR m / 16777216) + (IZR m / 16777216 * PI - x)) by ring.
    eapply Rle_trans; [apply Rabs_triang|]. rewrite Rabs_mult.
    rewrite (Rabs_pos_eq PI) by lra.
    assert (Rabs (IZR m / 16777216 * PI - x) <= 15 / 10 / 16777216).
    { assert (IZR m / 16777216 * (52707178 / 16777216) <= IZR m / 16777216 * PI <= IZR m / 16777216 * (52707179 / 16777216)) by (split; nra).
      apply Rabs_le. unfold x. lra. }
    pose proof (Rabs_pos (q - IZR m / 16777216)). nra. }
  pose proof (cos_lip (PI * q) x) as Lp.
  replace (cos (PI * q) - poly10 (x * x)) with ((cos (PI * q) - cos x) + (cos x - poly10 (x * x))) by ring.
  eapply Rle_trans; [apply Rabs_triang|]. lra.
Qed.

Lemma cosq_cos (q : R) (m : Z) : (- 8388608 <= m <= 8388608)%Z -> Rabs (q - IZR m / 16777216) <= 2 / 16777216 ->
  Rabs (cos (PI * q) - IZR (cosq m) / IZR czd) <= 1 / 1000000.
Proof.
  intros M Hq. destruct (Z_le_dec 0 m); [apply cosq_pos; [lia | exact Hq]|].
  assert (E : cosq m = cosq (- m)) by (unfold cosq; rewrite Z.abs_opp; reflexivity).
  rewrite E, <- cos_neg. replace (- (PI * q)) with (PI * - q) by ring. apply cosq_pos; [lia|].
  rewrite opp_IZR, <- Rabs_Ropp. replace (- (- q - - IZR m / 16777216)) with (q - IZR m / 16777216) by field. exact Hq.
Qed.

Lemma cosZ_ok (q : R) (n : Z) : (0 <= n <= 16777216)%Z -> Rabs (q - IZR n / 16777216) <= 2 / 16777216 ->
  Rabs (cos (PI * q) - IZR (cosZ n) / IZR czd) <= 1 / 1000000 /\
  Rabs (sin (PI * q) - IZR (sinZ n) / IZR czd) <= 1 / 1000000.
Proof.
  intros Hn Hq. split.
  - unfold cosZ. destruct (Z.leb_spec n 8388608); [apply cosq_cos; [lia | exact Hq]|].
    assert (E : Rabs (cos (PI * (1 - q)) - IZR (cosq (16777216 - n)) / IZR czd) <= 1 / 1000000).
    { apply cosq_cos; [lia|]. rewrite minus_IZR. rewrite <- Rabs_Ropp.
      replace (- (1 - q - (16777216 - IZR n) / 16777216)) with (q - IZR n / 16777216) by field. exact Hq. }
    replace (PI * (1 - q)) with (- (PI * q - PI)) in E by ring. rewrite cos_neg in E.
    replace (cos (PI * q - PI)) with (- cos (PI * q)) in E
      by (rewrite cos_minus, cos_PI, sin_PI; ring).
    rewrite opp_IZR. rewrite <- Rabs_Ropp.
    replace (- (cos (PI * q) - - IZR (cosq (16777216 - n)) / IZR czd))
      with (- cos (PI * q) - IZR (cosq (16777216 - n)) / IZR czd) by (unfold Rdiv; ring). exact E.
  - unfold sinZ. replace (sin (PI * q)) with (cos (PI * (1 / 2 - q))).
    + apply cosq_cos; [lia|]. rewrite minus_IZR. rewrite <- Rabs_Ropp.
      replace (- (1 / 2 - q - (8388608 - IZR n) / 16777216)) with (q - IZR n / 16777216) by field. exact Hq.
    + replace (PI * (1 / 2 - q)) with (PI / 2 - PI * q) by field. apply cos_shift.
Qed.
