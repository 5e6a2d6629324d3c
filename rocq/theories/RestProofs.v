(** Zero speeds stay zero in binary32. *)
From Coq Require Import ZArith Reals List Bool Lra Lia.
From Flocq Require Import Core BinarySingleNaN.
From Verif Require Import Base WallsModel Num NumLemmas ControlModel SimModel SimSpec RestSpec.
Open Scope R_scope.

Lemma zero_cases x : zero x -> exists s, x = B754_zero s.
Proof.
  intros [F E]. destruct x as [s| | |s m e b]; try discriminate; [exists s; reflexivity|].
  exfalso. revert E. cbn [B2R]. intros E. apply eq_0_F2R in E. destruct s; discriminate.
Qed.

Lemma zero_z s : zero (B754_zero s).
Proof. split; reflexivity. Qed.

Lemma zero_add x y : zero x -> zero y -> zero (Bplus mode_NE x y).
Proof.
  intros A B. apply zero_cases in A, B. destruct A as [s ->], B as [t ->]. destruct s, t; apply zero_z.
Qed.
Lemma zero_sub x y : zero x -> zero y -> zero (Bminus mode_NE x y).
Proof.
  intros A B. apply zero_cases in A, B. destruct A as [s ->], B as [t ->]. destruct s, t; apply zero_z.
Qed.
Lemma zero_mul_l x y : zero x -> finite y -> zero (Bmult mode_NE x y).
Proof. intros A B. apply zero_cases in A. destruct A as [s ->]. destruct y; try discriminate; apply zero_z. Qed.
Lemma zero_mul_r x y : finite x -> zero y -> zero (Bmult mode_NE x y).
Proof. intros B A. apply zero_cases in A. destruct A as [s ->]. destruct x; try discriminate; apply zero_z. Qed.
Lemma zero_div x y : zero x -> is_nan y = false -> ~ zero y -> zero (f32_div x y).
Proof.
  intros A B C. apply zero_cases in A. destruct A as [s ->].
  destruct y; try discriminate; [destruct C; apply zero_z| |]; apply zero_z.
Qed.
Lemma zero_div_f x y : zero x -> finite y -> B2R y <> 0 -> zero (f32_div x y).
Proof. intros A B C. apply zero_div; [exact A|destruct y; try discriminate; reflexivity|]. intros [_ D]. exact (C D). Qed.

Lemma keep_add x y : finite x -> zero y -> finite (Bplus mode_NE x y) /\ B2R (Bplus mode_NE x y) = B2R x.
Proof.
  intros F A. apply zero_cases in A. destruct A as [s ->]. destruct x as [t| | |]; try discriminate.
  - destruct t, s; split; reflexivity.
  - split; reflexivity.
Qed.
Lemma keep_sub x y : finite x -> zero y -> finite (Bminus mode_NE x y) /\ B2R (Bminus mode_NE x y) = B2R x.
Proof.
  intros F A. apply zero_cases in A. destruct A as [s ->]. destruct x as [t| | |]; try discriminate.
  - destruct t, s; split; reflexivity.
  - split; reflexivity.
Qed.

Lemma zero_limit lm (mx v : f32) : finite mx -> 0 <= B2R mx -> zero v -> zero (@limit (Fops lm) mx v).
Proof.
  intros Fm P Z. unfold limit. cbn [ltb opp Fops].
  assert (Fv : is_finite v = true) by apply Z. assert (Ev : B2R v = 0) by apply Z.
  rewrite (Bltb_correct 24 128 mx v Fm Fv), Ev, Rlt_bool_false by exact P.
  rewrite (Bltb_correct 24 128 v (Bopp mx) Fv) by (rewrite is_finite_Bopp; exact Fm).
  rewrite B2R_Bopp, Ev, Rlt_bool_false by lra. exact Z.
Qed.

Lemma rnd_small x k : Rabs x <= bpow radix2 k -> (-149 <= k < 128)%Z -> Rabs (rnd32 x) <= bpow radix2 k.
Proof.
  intros H K. assert (G : format32 (bpow radix2 k)).
  { apply generic_format_bpow. unfold FLT_exp. lia. }
  apply Rabs_le_inv in H.
  assert (A : rnd32 x <= bpow radix2 k) by (rewrite <- (rnd_exact _ G); apply rnd_le; lra).
  assert (B : - bpow radix2 k <= rnd32 x).
  { rewrite <- (rnd_exact (- bpow radix2 k)) by (apply generic_format_opp, G). apply rnd_le. lra. }
  apply Rabs_le. lra.
Qed.

Lemma rnd_fin x : Rabs x <= 2 ^ 120 -> Rabs (rnd32 x) < bpow radix2 128.
Proof.
  intros H. apply Rle_lt_trans with (bpow radix2 120); [|apply bpow_lt; lia].
  apply rnd_small; [|lia]. change (bpow radix2 120) with (IZR (2 ^ 120)).
  rewrite (pow_IZR 2 120) in H. exact H.
Qed.

(** 1 / p, t / (t + p) and 1 - that are finite. *)
Lemma inv_finite p : usual p -> finite (f32_div f1 p).
Proof.
  intros [F [A B]]. destruct f1_val as [V Fo].
  assert (P : 0 < / 2 ^ 100) by (apply Rinv_0_lt_compat, pow_lt; lra).
  apply div_ok; [exact Fo|lra|]. rewrite V. apply rnd_fin.
  unfold Rdiv. rewrite Rmult_1_l, Rabs_pos_eq by (apply Rlt_le, Rinv_0_lt_compat; lra).
  apply Rle_trans with (2 ^ 100).
  - rewrite <- (Rinv_inv (2 ^ 100)). apply Rinv_le_contravar; lra.
  - apply Rle_pow; [lra|lia].
Qed.

Lemma lag_finite t p : finite t -> 0 <= B2R t <= 2 ^ 100 -> usual p ->
  let a := f32_div t (Bplus mode_NE t p) in finite a /\ finite (Bminus mode_NE f1 a).
Proof.
  intros Ft Ht [F [A B]]. destruct f1_val as [V Fo].
  assert (P : 0 < / 2 ^ 100) by (apply Rinv_0_lt_compat, pow_lt; lra).
  assert (L : 2 ^ 100 + 2 ^ 100 <= 2 ^ 120).
  { replace (2 ^ 100 + 2 ^ 100) with (2 ^ 101) by (rewrite <- (tech_pow_Rmult 2 100); ring).
    apply Rle_pow; [lra|lia]. }
  destruct (plus_ok t p Ft F) as [E Fs].
  { apply rnd_fin. rewrite Rabs_pos_eq; lra. }
  assert (Lo : B2R t <= B2R (Bplus mode_NE t p)).
  { rewrite E. rewrite <- (rnd_exact (B2R t)) at 1 by apply (generic_format_B2R 24 128). apply rnd_le. lra. }
  assert (Lp : B2R p <= B2R (Bplus mode_NE t p)).
  { rewrite E. rewrite <- (rnd_exact (B2R p)) at 1 by apply (generic_format_B2R 24 128). apply rnd_le. lra. }
  set (d := Bplus mode_NE t p) in *. cbv zeta.
  assert (Q : Rabs (B2R t / B2R d) <= bpow radix2 0).
  { change (bpow radix2 0) with 1. rewrite Rabs_pos_eq.
    - apply (Rmult_le_reg_r (B2R d)); [lra|]. unfold Rdiv. rewrite Rmult_assoc, Rinv_l by lra. lra.
    - apply Rmult_le_pos; [lra|]. apply Rlt_le, Rinv_0_lt_compat. lra. }
  pose proof (rnd_small _ 0 Q ltac:(lia)) as Q'.
  destruct (div_ok t d Ft) as [Ea Fa]; [lra| |].
  { apply Rle_lt_trans with (1 := Q'). apply bpow_lt. lia. }
  split; [exact Fa|]. apply minus_ok; [exact Fo|exact Fa|]. rewrite V, Ea. apply rnd_fin.
  change (bpow radix2 0) with 1 in Q'. apply Rabs_le_inv in Q'.
  assert (4 <= 2 ^ 120) by (apply Rle_trans with (2 ^ 2); [lra|apply Rle_pow; [lra|lia]]).
  apply Rabs_le. lra.
Qed.

Lemma rest_finite a : finite a -> 0 <= B2R a <= 1 -> finite (Bminus mode_NE f1 a).
Proof.
  intros F H. destruct f1_val as [V Fo]. apply minus_ok; [exact Fo|exact F|]. rewrite V. apply rnd_fin.
  assert (4 <= 2 ^ 120) by (apply Rle_trans with (2 ^ 2); [lra|apply Rle_pow; [lra|lia]]).
  apply Rabs_le. lra.
Qed.

Lemma lit_ok z : (Z.abs z <= 2 ^ 24)%Z ->
  finite (f32_div (f32_of_Z z) (f32_of_Z 1)) /\ B2R (f32_div (f32_of_Z z) (f32_of_Z 1)) = IZR z.
Proof.
  intros H. destruct (f32_of_Z_exact z H) as [E F]. destruct (f32_of_Z_exact 1 ltac:(lia)) as [E1 F1].
  assert (R1 : rnd32 (B2R (f32_of_Z z) / B2R (f32_of_Z 1)) = IZR z).
  { rewrite E, E1. unfold Rdiv. rewrite Rinv_1, Rmult_1_r. apply rnd_exact, int_format, H. }
  destruct (div_ok (f32_of_Z z) (f32_of_Z 1) F) as [A B].
  - rewrite E1. lra.
  - rewrite R1, <- abs_IZR. change (bpow radix2 128) with (IZR (2 ^ 128)). apply IZR_lt. lia.
  - split; [exact B|]. rewrite A. exact R1.
Qed.
Lemma two_ok : finite (f32_div (f32_of_Z 2) (f32_of_Z 1)) /\ B2R (f32_div (f32_of_Z 2) (f32_of_Z 1)) <> 0.
Proof. destruct (lit_ok 2 ltac:(lia)) as [A B]. split; [exact A|rewrite B; lra]. Qed.
Lemma nought_ok : zero (f32_div (f32_of_Z 0) (f32_of_Z 1)).
Proof. exact (lit_ok 0 ltac:(lia)). Qed.

(** the denominator of the slip angle at zero speed. *)
Lemma slip_zero x r k v : zero x -> finite r -> finite k -> 0 < B2R k -> zero v ->
  zero (f32_div x (Bplus mode_NE r (f32_div k (Babs v)))).
Proof.
  intros X Fr Fk K Z. apply zero_cases in Z. destruct Z as [s ->]. cbn [Babs].
  destruct k as [ | | |[|] m e b]; try discriminate; cbn [B2R] in K; [lra| |].
  - exfalso. revert K. apply Rle_not_lt. apply F2R_le_0. cbn. lia.
  - apply zero_div; [exact X| |]; destruct r; try discriminate; try reflexivity; intros [A _]; discriminate.
Qed.
