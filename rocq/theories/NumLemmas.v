(** Facts about binary32 used by the proofs. *)
From Coq Require Import ZArith Bool Lia Reals Lra.
From Flocq Require Import Core BinarySingleNaN.
From Verif Require Import Num.
Open Scope R_scope.

Notation fexp32 := (FLT_exp (-149) 24).
Notation rnd32 := (round radix2 fexp32 ZnearestE).
Notation format32 := (generic_format radix2 fexp32).

#[global] Instance vexp32 : Valid_exp fexp32 := FLT_exp_valid (-149) 24.

Lemma rnd_exact x : format32 x -> rnd32 x = x.
Proof. intros H. apply round_generic; [apply valid_rnd_N|exact H]. Qed.

Lemma rnd_le x y : x <= y -> rnd32 x <= rnd32 y.
Proof. apply round_le; [apply vexp32|apply valid_rnd_N]. Qed.

Lemma int_format z : (Z.abs z <= 2 ^ 24)%Z -> format32 (IZR z).
Proof.
  intros H. destruct (Z.eq_dec (Z.abs z) (2 ^ 24)) as [E|N].
  - assert (G : format32 (IZR (2 ^ 24))).
    { rewrite (IZR_Zpower radix2) by lia. apply generic_format_bpow. cbv. discriminate. }
    destruct (Z.abs_spec z) as [[_ A]|[_ A]]; rewrite A in E.
    + rewrite E. exact G.
    + replace z with (- (2 ^ 24))%Z by lia. rewrite opp_IZR. apply generic_format_opp, G.
  - apply generic_format_FLT. exists (Float radix2 z 0).
    + unfold F2R; simpl. lra.
    + simpl Fnum. change (radix2 ^ 24)%Z with (2 ^ 24)%Z. lia.
    + simpl. lia.
Qed.

Lemma f32_of_Z_exact z : (Z.abs z <= 2 ^ 24)%Z ->
  B2R (f32_of_Z z) = IZR z /\ is_finite (f32_of_Z z) = true.
Proof.
  intros H. unfold f32_of_Z.
  pose proof (binary_normalize_correct 24 128 prec32 emax32 mode_NE z 0 false) as C.
  cbv zeta in C. replace (F2R (Float radix2 z 0)) with (IZR z) in C
    by (unfold F2R; simpl; lra).
  change (round radix2 (SpecFloat.fexp 24 128) (round_mode mode_NE) (IZR z)) with (rnd32 (IZR z)) in C.
  rewrite rnd_exact in C by (apply int_format, H).
  rewrite Rlt_bool_true in C.
  - split; apply C.
  - rewrite <- abs_IZR. change (bpow radix2 128) with (IZR (2 ^ 128)). apply IZR_lt. lia.
Qed.

Lemma mult_ok (x y : f32) : is_finite x = true -> is_finite y = true ->
  Rabs (rnd32 (B2R x * B2R y)) < bpow radix2 128 ->
  B2R (Bmult mode_NE x y) = rnd32 (B2R x * B2R y) /\ is_finite (Bmult mode_NE x y) = true.
Proof.
  intros Hx Hy Hb. pose proof (Bmult_correct 24 128 prec32 emax32 mode_NE x y) as C.
  change (round radix2 (SpecFloat.fexp 24 128) (round_mode mode_NE)) with rnd32 in C.
  rewrite Rlt_bool_true in C by exact Hb. destruct C as (C1 & C2 & _). rewrite Hx, Hy in C2. auto.
Qed.

Lemma plus_ok (x y : f32) : is_finite x = true -> is_finite y = true ->
  Rabs (rnd32 (B2R x + B2R y)) < bpow radix2 128 ->
  B2R (Bplus mode_NE x y) = rnd32 (B2R x + B2R y) /\ is_finite (Bplus mode_NE x y) = true.
Proof.
  intros Hx Hy Hb. pose proof (Bplus_correct 24 128 prec32 emax32 mode_NE x y Hx Hy) as C.
  change (round radix2 (SpecFloat.fexp 24 128) (round_mode mode_NE)) with rnd32 in C.
  rewrite Rlt_bool_true in C by exact Hb. destruct C as (C1 & C2 & _). auto.
Qed.

Lemma minus_ok (x y : f32) : is_finite x = true -> is_finite y = true ->
  Rabs (rnd32 (B2R x - B2R y)) < bpow radix2 128 ->
  B2R (Bminus mode_NE x y) = rnd32 (B2R x - B2R y) /\ is_finite (Bminus mode_NE x y) = true.
Proof.
  intros Hx Hy Hb. pose proof (Bminus_correct 24 128 prec32 emax32 mode_NE x y Hx Hy) as C.
  change (round radix2 (SpecFloat.fexp 24 128) (round_mode mode_NE)) with rnd32 in C.
  rewrite Rlt_bool_true in C by exact Hb. destruct C as (C1 & C2 & _). auto.
Qed.

Lemma div_ok (x y : f32) : is_finite x = true -> B2R y <> 0 ->
  Rabs (rnd32 (B2R x / B2R y)) < bpow radix2 128 ->
  B2R (f32_div x y) = rnd32 (B2R x / B2R y) /\ is_finite (f32_div x y) = true.
Proof.
  intros Hx Hy Hb. pose proof (Bdiv_correct 24 128 prec32 emax32 mode_NE x y Hy) as C.
  change (round radix2 (SpecFloat.fexp 24 128) (round_mode mode_NE)) with rnd32 in C.
  rewrite Rlt_bool_true in C by exact Hb. destruct C as (C1 & C2 & _). rewrite Hx in C2. auto.
Qed.

(** truncation of a finite float. *)
Lemma trunc_ok (x : f32) : Btrunc x = Ztrunc (B2R x).
Proof.
  apply eq_IZR. rewrite (Btrunc_correct 24 128 emax32).
  unfold round, scaled_mantissa, cexp, FIX_exp, F2R; simpl. rewrite !Rmult_1_r. reflexivity.
Qed.

Lemma to_int_finite lo hi (x : f32) : is_finite x = true ->
  f32_to_int lo hi x = clampZ lo hi (Ztrunc (B2R x)).
Proof. destruct x; try discriminate; intros _; unfold f32_to_int; rewrite trunc_ok; reflexivity. Qed.

Definition f1 : f32 := f32_div (f32_of_Z 1) (f32_of_Z 1).
Lemma f1_val : B2R f1 = 1 /\ is_finite f1 = true.
Proof.
  destruct (f32_of_Z_exact 1 ltac:(lia)) as [E F]. unfold f1.
  assert (R1 : rnd32 (1 / 1) = 1) by (replace (1 / 1) with (IZR 1) by lra; apply rnd_exact, int_format; lia).
  destruct (div_ok (f32_of_Z 1) (f32_of_Z 1) F) as [A B].
  - rewrite E. lra.
  - rewrite E, R1, Rabs_R1. change (bpow radix2 128) with (IZR (2 ^ 128)). apply (IZR_lt 1). lia.
  - rewrite E, R1 in A. auto.
Qed.
