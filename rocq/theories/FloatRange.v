(** Ranges of binary32 results: an operation whose exact result lies between two representable
    numbers stays between them. *)
From Coq Require Import ZArith Reals Bool Lra Lia.
From Flocq Require Import Core BinarySingleNaN.
From Verif Require Import Num NumLemmas FloatMag.
Open Scope R_scope.

Definition btw (a b : R) (x : f32) : Prop := is_finite x = true /\ a <= B2R x <= b.

Definition fit (a : R) : Prop := format32 a /\ Rabs a <= bpow radix2 100.

Lemma fit_dyadic z k : (Z.abs z <= 2 ^ 24)%Z -> (0 <= k <= 100)%Z -> fit (IZR z / IZR (2 ^ k)).
Proof.
  intros Hz Hk.
  assert (E : IZR z / IZR (2 ^ k) = IZR z * bpow radix2 (- k)).
  { rewrite bpow_opp, <- (IZR_Zpower radix2) by lia. reflexivity. }
  rewrite E. split.
  - destruct (Z.eq_dec (Z.abs z) (2 ^ 24)) as [Q|N].
    + assert (G : format32 (IZR (2 ^ 24) * bpow radix2 (- k))).
      { rewrite (IZR_Zpower radix2) by lia. rewrite <- bpow_plus. apply bpow_fmt. lia. }
      destruct (Z.abs_spec z) as [[_ A]|[_ A]]; rewrite A in Q.
      * rewrite Q. exact G.
      * replace z with (- (2 ^ 24))%Z by lia. rewrite opp_IZR, Ropp_mult_distr_l_reverse. apply generic_format_opp, G.
    + apply generic_format_FLT. exists (Float radix2 z (- k)).
      * unfold F2R. reflexivity.
      * cbn [Fnum]. change (radix2 ^ 24)%Z with (2 ^ 24)%Z. lia.
      * cbn [Fexp]. lia.
  - rewrite Rabs_mult, (Rabs_pos_eq (bpow _ _)) by apply bpow_ge_0. rewrite <- abs_IZR.
    apply Rle_trans with (bpow radix2 24 * 1).
    + apply Rmult_le_compat; [apply IZR_le; lia|apply bpow_ge_0| |].
      * rewrite <- (IZR_Zpower radix2) by lia. apply IZR_le. exact Hz.
      * change 1 with (bpow radix2 0). apply bpow_le. lia.
    + rewrite Rmult_1_r. apply bpow_le. lia.
Qed.

Lemma fit_int z : (Z.abs z <= 2 ^ 24)%Z -> fit (IZR z).
Proof.
  intros Hz. replace (IZR z) with (IZR z / IZR (2 ^ 0)); [apply fit_dyadic; [exact Hz|lia]|].
  change (IZR (2 ^ 0)) with 1. field.
Qed.

Lemma rnd_btw a b x : fit a -> fit b -> a <= x <= b -> a <= rnd32 x <= b /\ Rabs (rnd32 x) < bpow radix2 128.
Proof.
  intros [Fa Ba] [Fb Bb] H.
  assert (R : a <= rnd32 x <= b).
  { split; [rewrite <- (rnd_exact _ Fa)|rewrite <- (rnd_exact _ Fb)]; apply rnd_le; apply H. }
  split; [exact R|]. apply Rle_lt_trans with (bpow radix2 100); [|apply bpow_lt; lia].
  apply Rabs_le. apply Rabs_le_inv in Ba. apply Rabs_le_inv in Bb. lra.
Qed.

Lemma add_btw a b x y : is_finite x = true -> is_finite y = true -> fit a -> fit b ->
  a <= B2R x + B2R y <= b -> btw a b (Bplus mode_NE x y).
Proof.
  intros Fx Fy A B H. destruct (rnd_btw a b _ A B H) as [R M].
  destruct (plus_ok x y Fx Fy M) as [E F]. split; [exact F|]. rewrite E. exact R.
Qed.

Lemma sub_btw a b x y : is_finite x = true -> is_finite y = true -> fit a -> fit b ->
  a <= B2R x - B2R y <= b -> btw a b (Bminus mode_NE x y).
Proof.
  intros Fx Fy A B H. destruct (rnd_btw a b _ A B H) as [R M].
  destruct (minus_ok x y Fx Fy M) as [E F]. split; [exact F|]. rewrite E. exact R.
Qed.

Lemma mul_btw a b x y : is_finite x = true -> is_finite y = true -> fit a -> fit b ->
  a <= B2R x * B2R y <= b -> btw a b (Bmult mode_NE x y).
Proof.
  intros Fx Fy A B H. destruct (rnd_btw a b _ A B H) as [R M].
  destruct (mult_ok x y Fx Fy M) as [E F]. split; [exact F|]. rewrite E. exact R.
Qed.

Lemma div_btw a b x y : is_finite x = true -> B2R y <> 0 -> fit a -> fit b ->
  a <= B2R x / B2R y <= b -> btw a b (f32_div x y).
Proof.
  intros Fx Ny A B H. destruct (rnd_btw a b _ A B H) as [R M].
  destruct (div_ok x y Fx Ny M) as [E F]. split; [exact F|]. rewrite E. exact R.
Qed.

Lemma sqrt_btw b x : is_finite x = true -> 0 <= B2R x -> fit b -> 0 <= b -> B2R x <= b * b ->
  btw 0 b (Bsqrt mode_NE x).
Proof.
  intros Fx Px B Pb H. destruct (Bsqrt_correct 24 128 prec32 emax32 mode_NE x) as (E & F & _).
  change (round radix2 (SpecFloat.fexp 24 128) (round_mode mode_NE)) with rnd32 in E.
  assert (Fi : is_finite (Bsqrt mode_NE x) = true).
  { destruct x as [s|[]| |[] m e h]; try reflexivity; try discriminate; try exact F.
    exfalso. apply (Rle_not_lt _ _ Px). apply F2R_lt_0. reflexivity. }
  split; [exact Fi|]. rewrite E. apply rnd_btw; [apply (fit_int 0); lia|exact B|].
  split; [apply sqrt_pos|]. rewrite <- (sqrt_square b Pb). apply sqrt_le_1; nra.
Qed.

Lemma abs_btw b x : is_finite x = true -> - b <= B2R x <= b -> btw 0 b (Babs x).
Proof.
  intros F H. split; [rewrite is_finite_Babs; exact F|]. rewrite B2R_Babs. split; [apply Rabs_pos|]. apply Rabs_le, H.
Qed.

Lemma btw_weak a b c d x : btw a b x -> c <= a -> b <= d -> btw c d x.
Proof. intros [F H] A B. split; [exact F|]. lra. Qed.

Lemma btw_below a b k x : btw a b x -> - bpow radix2 k <= a -> b <= bpow radix2 k -> below k x.
Proof. intros [F H] A B. split; [exact F|]. apply Rabs_le. lra. Qed.

(** comparisons of finite numbers. *)
Lemma leb_cases (x y : f32) : is_finite x = true -> is_finite y = true ->
  (Bleb x y = true /\ B2R x <= B2R y) \/ (Bleb x y = false /\ B2R y < B2R x).
Proof. intros Fx Fy. rewrite (Bleb_correct 24 128 x y Fx Fy). destruct (Rle_bool_spec (B2R x) (B2R y)); auto. Qed.

Lemma ltb_cases (x y : f32) : is_finite x = true -> is_finite y = true ->
  (Bltb x y = true /\ B2R x < B2R y) \/ (Bltb x y = false /\ B2R y <= B2R x).
Proof. intros Fx Fy. rewrite (Bltb_correct 24 128 x y Fx Fy). destruct (Rlt_bool_spec (B2R x) (B2R y)); auto. Qed.

Lemma quot_btw a b x y : 0 < y -> a * y <= x <= b * y -> a <= x / y <= b.
Proof.
  intros P H. split.
  - apply Rmult_le_reg_r with y; [exact P|]. unfold Rdiv. rewrite Rmult_assoc, Rinv_l by lra. lra.
  - apply Rmult_le_reg_r with y; [exact P|]. unfold Rdiv. rewrite Rmult_assoc, Rinv_l by lra. lra.
Qed.
