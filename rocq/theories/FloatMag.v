(** Magnitudes in binary32: numbers bounded by powers of two. *)
From Coq Require Import ZArith Reals Bool Lra Lia.
From Flocq Require Import Core BinarySingleNaN.
From Verif Require Import Num NumLemmas.
Open Scope R_scope.

Definition below (k : Z) (x : f32) : Prop := is_finite x = true /\ Rabs (B2R x) <= bpow radix2 k.

Lemma bpow_fmt k : (-149 <= k)%Z -> format32 (bpow radix2 k).
Proof. intros K. apply generic_format_bpow. unfold FLT_exp. lia. Qed.

Lemma rnd_below x k : (-149 <= k)%Z -> Rabs x <= bpow radix2 k -> Rabs (rnd32 x) <= bpow radix2 k.
Proof.
  intros K H. pose proof (bpow_fmt k K) as G. apply Rabs_le_inv in H.
  assert (A : rnd32 x <= bpow radix2 k) by (rewrite <- (rnd_exact _ G); apply rnd_le; lra).
  assert (B : - bpow radix2 k <= rnd32 x).
  { rewrite <- (rnd_exact (- bpow radix2 k)) by (apply generic_format_opp, G). apply rnd_le. lra. }
  apply Rabs_le. lra.
Qed.

Lemma rnd_above x k : (-149 <= k)%Z -> bpow radix2 k <= x -> bpow radix2 k <= rnd32 x.
Proof. intros K H. rewrite <- (rnd_exact _ (bpow_fmt k K)). apply rnd_le, H. Qed.

Lemma rnd_above_abs x k : (-149 <= k)%Z -> bpow radix2 k <= Rabs x -> bpow radix2 k <= Rabs (rnd32 x).
Proof.
  intros K H. destruct (Rle_or_lt 0 x) as [P|N].
  - rewrite Rabs_pos_eq in H by exact P. apply Rle_trans with (2 := Rle_abs _). apply rnd_above; assumption.
  - rewrite Rabs_left in H by exact N. rewrite <- Rabs_Ropp. apply Rle_trans with (2 := Rle_abs _).
    assert (E : - rnd32 x = rnd32 (- x)) by (rewrite round_NE_opp; reflexivity). rewrite E. apply rnd_above; assumption.
Qed.

Lemma rnd_top x k : (-149 <= k < 128)%Z -> Rabs x <= bpow radix2 k -> Rabs (rnd32 x) < bpow radix2 128.
Proof.
  intros K H. apply Rle_lt_trans with (bpow radix2 k); [apply rnd_below; [lia|exact H]|apply bpow_lt; lia].
Qed.

Lemma below_le j k x : (j <= k)%Z -> below j x -> below k x.
Proof. intros L [F B]. split; [exact F|]. apply Rle_trans with (1 := B). apply bpow_le, L. Qed.

Lemma below_opp k x : below k x -> below k (Bopp x).
Proof. intros [F B]. split; [rewrite is_finite_Bopp; exact F|]. rewrite B2R_Bopp, Rabs_Ropp. exact B. Qed.

Lemma below_mul i j x y : below i x -> below j y -> (-149 <= i + j < 128)%Z -> below (i + j) (Bmult mode_NE x y).
Proof.
  intros [Fx Bx] [Fy By] K.
  assert (H : Rabs (B2R x * B2R y) <= bpow radix2 (i + j)).
  { rewrite Rabs_mult, bpow_plus. apply Rmult_le_compat; try apply Rabs_pos; assumption. }
  destruct (mult_ok x y Fx Fy (rnd_top _ _ K H)) as [E F]. split; [exact F|]. rewrite E. apply rnd_below; [lia|exact H].
Qed.

Lemma below_add k x y : below k x -> below k y -> (-149 <= k + 1 < 128)%Z -> below (k + 1) (Bplus mode_NE x y).
Proof.
  intros [Fx Bx] [Fy By] K.
  assert (H : Rabs (B2R x + B2R y) <= bpow radix2 (k + 1)).
  { rewrite bpow_plus. change (bpow radix2 1) with 2. pose proof (Rabs_triang (B2R x) (B2R y)). lra. }
  destruct (plus_ok x y Fx Fy (rnd_top _ _ K H)) as [E F]. split; [exact F|]. rewrite E. apply rnd_below; [lia|exact H].
Qed.

Lemma below_sub k x y : below k x -> below k y -> (-149 <= k + 1 < 128)%Z -> below (k + 1) (Bminus mode_NE x y).
Proof.
  intros [Fx Bx] [Fy By] K.
  assert (H : Rabs (B2R x - B2R y) <= bpow radix2 (k + 1)).
  { rewrite bpow_plus. change (bpow radix2 1) with 2. pose proof (Rabs_triang (B2R x) (- B2R y)) as T.
    rewrite Rabs_Ropp in T. unfold Rminus. lra. }
  destruct (minus_ok x y Fx Fy (rnd_top _ _ K H)) as [E F]. split; [exact F|]. rewrite E. apply rnd_below; [lia|exact H].
Qed.

Lemma below_div i j x y : below i x -> bpow radix2 j <= Rabs (B2R y) -> (-149 <= i - j < 128)%Z ->
  below (i - j) (f32_div x y).
Proof.
  intros [Fx Bx] Hy K. pose proof (bpow_gt_0 radix2 j) as P.
  assert (N : B2R y <> 0) by (intros E; rewrite E, Rabs_R0 in Hy; lra).
  assert (H : Rabs (B2R x / B2R y) <= bpow radix2 (i - j)).
  { unfold Rdiv. rewrite Rabs_mult, (Rabs_inv (B2R y)).
    unfold Zminus. rewrite bpow_plus, bpow_opp. apply Rmult_le_compat; try apply Rabs_pos; try assumption.
    - apply Rlt_le, Rinv_0_lt_compat. lra.
    - apply Rinv_le_contravar; assumption. }
  destruct (div_ok x y Fx N (rnd_top _ _ K H)) as [E F]. split; [exact F|]. rewrite E. apply rnd_below; [lia|exact H].
Qed.

Lemma below_sqrt k x : below (2 * k) x -> 0 <= B2R x -> (-149 <= k)%Z -> below k (Bsqrt mode_NE x).
Proof.
  intros [Fx Bx] P K. destruct (Bsqrt_correct 24 128 prec32 emax32 mode_NE x) as (E & F & _).
  change (round radix2 (SpecFloat.fexp 24 128) (round_mode mode_NE)) with rnd32 in E.
  split.
  - rewrite F. destruct x as [s|s| |s m e b]; try reflexivity; try discriminate. destruct s; [|reflexivity].
    exfalso. cbn [B2R] in P. assert (F2R (Float radix2 (SpecFloat.cond_Zopp true (Z.pos m)) e) < 0) by (apply F2R_lt_0; cbn; lia). lra.
  - rewrite E. apply rnd_below; [exact K|]. rewrite Rabs_pos_eq by apply sqrt_pos.
    rewrite Rabs_pos_eq in Bx by exact P. replace (2 * k)%Z with (k + k)%Z in Bx by lia. rewrite bpow_plus in Bx.
    rewrite <- (sqrt_square (bpow radix2 k)) by apply bpow_ge_0. apply sqrt_le_1_alt, Bx.
Qed.

(** lower bounds. *)
Lemma above_mul_self k x : is_finite x = true -> Rabs (B2R x) < bpow radix2 63 ->
  bpow radix2 k <= Rabs (B2R x) -> (-74 <= k)%Z -> bpow radix2 (2 * k) <= B2R (Bmult mode_NE x x).
Proof.
  intros F U L K.
  assert (Q : bpow radix2 (2 * k) <= B2R x * B2R x).
  { replace (2 * k)%Z with (k + k)%Z by lia. rewrite bpow_plus. rewrite <- (Rabs_pos_eq (B2R x * B2R x)) by apply Rle_0_sqr.
    rewrite Rabs_mult. apply Rmult_le_compat; try apply bpow_ge_0; assumption. }
  assert (H : Rabs (B2R x * B2R x) <= bpow radix2 126).
  { change 126%Z with (63 + 63)%Z. rewrite bpow_plus, Rabs_mult. apply Rmult_le_compat; try apply Rabs_pos; lra. }
  destruct (mult_ok x x F F (rnd_top _ 126 ltac:(lia) H)) as [E _]. rewrite E. apply rnd_above; [lia|exact Q].
Qed.

Lemma square_nonneg x : is_finite x = true -> Rabs (B2R x) <= bpow radix2 63 -> 0 <= B2R (Bmult mode_NE x x).
Proof.
  intros F U.
  assert (H : Rabs (B2R x * B2R x) <= bpow radix2 126).
  { change 126%Z with (63 + 63)%Z. rewrite bpow_plus, Rabs_mult. apply Rmult_le_compat; try apply Rabs_pos; lra. }
  destruct (mult_ok x x F F (rnd_top _ 126 ltac:(lia) H)) as [E _]. rewrite E.
  rewrite <- (round_0 radix2 fexp32 ZnearestE). apply rnd_le. apply Rle_0_sqr.
Qed.

(** a sum of two non-negative numbers is not below either of them. *)
Lemma plus_ge x y : is_finite x = true -> is_finite y = true -> 0 <= B2R x -> 0 <= B2R y ->
  B2R x + B2R y <= bpow radix2 127 ->
  B2R x <= B2R (Bplus mode_NE x y) /\ B2R y <= B2R (Bplus mode_NE x y).
Proof.
  intros Fx Fy Px Py U.
  destruct (plus_ok x y Fx Fy) as [E _].
  { apply (rnd_top _ 127); [lia|]. rewrite Rabs_pos_eq by lra. exact U. }
  rewrite E. split.
  - rewrite <- (rnd_exact (B2R x)) at 1 by apply (generic_format_B2R 24 128). apply rnd_le. lra.
  - rewrite <- (rnd_exact (B2R y)) at 1 by apply (generic_format_B2R 24 128). apply rnd_le. lra.
Qed.

Lemma above_sqrt k x : bpow radix2 (2 * k) <= B2R x -> (-149 <= k)%Z -> bpow radix2 k <= B2R (Bsqrt mode_NE x).
Proof.
  intros L K. destruct (Bsqrt_correct 24 128 prec32 emax32 mode_NE x) as (E & _).
  change (round radix2 (SpecFloat.fexp 24 128) (round_mode mode_NE)) with rnd32 in E. rewrite E.
  apply rnd_above; [exact K|]. rewrite <- (sqrt_square (bpow radix2 k)) by apply bpow_ge_0.
  apply sqrt_le_1_alt. rewrite <- bpow_plus. replace (k + k)%Z with (2 * k)%Z by lia. exact L.
Qed.
