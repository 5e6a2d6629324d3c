(** The estimator in binary32. *)
From Coq Require Import ZArith Reals List Bool Lia Lra.
From Flocq Require Import Core Relative BinarySingleNaN.
From Verif Require Import Base Num NumLemmas ControlModel ControlSpec FloatMag FloatRange FloatMoveSpec JerkProofs FloatMove FloatMove2 FloatMove3.
Open Scope R_scope.

(** ** Sums of many bounded terms *)
Definition near (k : Z) (n : nat) (x : f32) : Prop := is_finite x = true /\ Rabs (B2R x) <= bpow radix2 k * (INR n + 1).

Lemma fit_near k n : (0 <= k <= 70)%Z -> INR n <= 8388608 -> fit (bpow radix2 k * (INR n + 1)) /\ fit (- (bpow radix2 k * (INR n + 1))).
Proof.
  intros Hk H. assert (E : bpow radix2 k * (INR n + 1) = IZR (Z.of_nat n + 1) * bpow radix2 k).
  { rewrite plus_IZR, <- INR_IZR_INZ. ring. }
  assert (B : Rabs (bpow radix2 k * (INR n + 1)) <= bpow radix2 100).
  { pose proof (pos_INR n). pose proof (bpow_gt_0 radix2 k). rewrite Rabs_pos_eq by (apply Rmult_le_pos; lra).
    apply Rle_trans with (bpow radix2 (70 + 24)); [|apply bpow_le; lia]. rewrite bpow_plus.
    apply Rmult_le_compat; [lra|lra|apply bpow_le; lia|]. change (bpow radix2 24) with 16777216. lra. }
  rewrite INR_IZR_INZ in H. apply le_IZR in H.
  assert (G : format32 (bpow radix2 k * (INR n + 1))).
  { rewrite E. apply generic_format_FLT. exists (Float radix2 (Z.of_nat n + 1) k); [reflexivity| |]; cbn [Fnum Fexp]; change (radix2 ^ 24)%Z with 16777216%Z; lia. }
  split; (split; [|try rewrite Rabs_Ropp; exact B]); [exact G|]. apply generic_format_opp, G.
Qed.

Lemma near_add k n (x d : f32) : (0 <= k <= 70)%Z -> INR (S n) <= 8388608 -> near k n x -> below k d -> near k (S n) (Bplus mode_NE x d).
Proof.
  intros Hk Hn [Fx Hx] [Fd Hd]. destruct (fit_near k (S n) Hk Hn) as [A B].
  apply Rabs_le_inv in Hx, Hd. rewrite S_INR in *.
  destruct (add_btw _ _ x d Fx Fd B A) as [F H]; [lra|]. split; [exact F|]. rewrite S_INR. apply Rabs_le, H.
Qed.

Lemma near_below k n x : INR n <= 8388608 -> near k n x -> below (k + 24) x.
Proof.
  intros Hn [F H]. split; [exact F|]. rewrite bpow_plus. apply Rle_trans with (1 := H).
  pose proof (bpow_gt_0 radix2 k). apply Rmult_le_compat_l; [lra|]. change (bpow radix2 24) with 16777216. lra.
Qed.

(** ** One rounding *)
Definition ee : R := / 16777216.
Definition eta : R := bpow radix2 (-149).
Lemma eta_small : 0 < eta <= ee * ee.
Proof.
  unfold eta, ee. split; [apply bpow_gt_0|]. replace (/ 16777216) with (bpow radix2 (-24)).
  - rewrite <- bpow_plus. apply bpow_le. lia.
  - change (-24)%Z with (- (24))%Z. rewrite bpow_opp. reflexivity.
Qed.
Lemma rnd_err x : Rabs (rnd32 x) <= Rabs x * (1 + ee) + eta.
Proof.
  destruct (error_N_FLT radix2 (-149) 24 ltac:(lia) (fun z => negb (Z.even z)) x) as (e & h & He & Hh & _ & E).
  assert (E' : rnd32 x = x * (1 + e) + h) by exact E. rewrite E'.
  assert (Q : / 2 * bpow radix2 (- (24) + 1) = ee).
  { change (- (24) + 1)%Z with (- (23))%Z. rewrite bpow_opp. change (bpow radix2 23) with 8388608. unfold ee. field. }
  rewrite Q in He. apply Rle_trans with (1 := Rabs_triang _ _). apply Rplus_le_compat.
  - rewrite Rabs_mult. apply Rmult_le_compat_l; [apply Rabs_pos|]. apply Rle_trans with (1 := Rabs_triang _ _). rewrite Rabs_R1. lra.
  - apply Rle_trans with (1 := Hh). fold eta. pose proof eta_small. lra.
Qed.

(** ** The slip angle *)
Lemma pos_sign (c : f32) : is_finite c = true -> 0 < B2R c -> exists m e B, c = B754_finite false m e B.
Proof.
  intros F P. destruct c as [s|s| |s m e B]; try discriminate; cbn [B2R] in P; [lra|].
  destruct s; [|eauto]. exfalso. cbn [cond_Zopp] in P.
  pose proof (F2R_lt_0 radix2 (Float radix2 (- Z.pos m) e) ltac:(cbn [Fnum]; lia)). lra.
Qed.

Lemma quot_cases (c t : f32) : is_finite c = true -> 0 < B2R c -> is_finite t = true ->
  f32_div c (Babs t) = B754_infinity false \/ (is_finite (f32_div c (Babs t)) = true /\ 0 <= B2R (f32_div c (Babs t))).
Proof.
  intros Fc Pc Ft. destruct (Req_dec (B2R t) 0) as [Z|N].
  - left. destruct (pos_sign c Fc Pc) as (m & e & B & ->).
    destruct t as [s|s| |s m' e' B']; try discriminate; [reflexivity|].
    exfalso. cbn [B2R] in Z. apply eq_0_F2R in Z. destruct s; discriminate.
  - assert (A : B2R (Babs t) <> 0) by (rewrite B2R_Babs; apply Rabs_no_R0, N).
    pose proof (Bdiv_correct 24 128 prec32 emax32 mode_NE c (Babs t) A) as C.
    assert (Q : 0 <= B2R c / B2R (Babs t)).
    { rewrite B2R_Babs. apply Rle_mult_inv_pos; [lra|]. apply Rabs_pos_lt, N. }
    destruct (Rlt_bool _ _) in C.
    + right. destruct C as (C1 & C2 & _). fold (f32_div c (Babs t)) in C1, C2. split; [rewrite C2; exact Fc|].
      rewrite C1. rewrite <- (rnd_exact 0) by apply generic_format_0. apply rnd_le, Q.
    + left. fold (f32_div c (Babs t)) in C.
      assert (Sc : Bsign c = false) by (destruct (pos_sign c Fc Pc) as (m & e & B & ->); reflexivity).
      assert (St : Bsign (Babs t) = false) by (destruct t; try discriminate; reflexivity).
      rewrite Sc, St in C. destruct (f32_div c (Babs t)); cbn in C; try discriminate. injection C as ->. reflexivity.
Qed.

Lemma denom_cases (r q : f32) : is_finite r = true -> 0 < B2R r ->
  q = B754_infinity false \/ (is_finite q = true /\ 0 <= B2R q) ->
  Bplus mode_NE r q = B754_infinity false \/ (is_finite (Bplus mode_NE r q) = true /\ B2R r <= B2R (Bplus mode_NE r q)).
Proof.
  intros Fr Pr [->|[Fq Hq]].
  - left. destruct r; try discriminate; reflexivity.
  - pose proof (Bplus_correct 24 128 prec32 emax32 mode_NE r q Fr Fq) as C.
    destruct (Rlt_bool _ _) in C.
    + right. destruct C as (C1 & C2 & _). split; [exact C2|]. rewrite C1. rewrite <- (rnd_exact (B2R r)) at 1 by apply generic_format_B2R.
      apply rnd_le. lra.
    + left. destruct C as [C _].
      assert (Sr : Bsign r = false) by (destruct (pos_sign r Fr Pr) as (m & e & B & ->); reflexivity).
      rewrite Sr in C. destruct (Bplus mode_NE r q); cbn in C; try discriminate. injection C as ->. reflexivity.
Qed.

Lemma over_infinity (x : f32) : is_finite x = true -> is_finite (f32_div x (B754_infinity false)) = true /\ B2R (f32_div x (B754_infinity false)) = 0.
Proof. destruct x; try discriminate; intros _; split; reflexivity. Qed.

(** one step of the slip angle: it grows by at most 4. *)
Lemma slip_step (s r w d : f32) (M : R) : is_finite s = true -> Rabs (B2R s) <= M -> 0 <= M <= 4194304 ->
  btw 64 1024 r -> btw (-64) 64 w ->
  d = B754_infinity false \/ (is_finite d = true /\ B2R r <= B2R d) ->
  is_finite (f32_div (Bplus mode_NE (Bmult mode_NE s r) w) d) = true /\
  Rabs (B2R (f32_div (Bplus mode_NE (Bmult mode_NE s r) w) d)) <= M + 4.
Proof.
  intros Fs Hs HM [Fr Hr] [Fw Hw] Hd. pose proof eta_small as Eta. assert (E24 : ee = / 16777216) by reflexivity.
  assert (P33 : forall x, Rabs x <= bpow radix2 40 -> Rabs (rnd32 x) < bpow radix2 128) by (intros x; apply (rnd_top x 40); lia).
  assert (B40 : bpow radix2 40 = 1099511627776) by reflexivity.
  assert (M1 : Rabs (B2R s * B2R r) <= M * B2R r).
  { rewrite Rabs_mult, (Rabs_pos_eq (B2R r)) by lra. apply Rmult_le_compat_r; lra. }
  assert (M1' : M * B2R r <= 4294967296) by nra.
  destruct (mult_ok s r Fs Fr) as [E1 F1]; [apply P33; lra|].
  pose proof (rnd_err (B2R s * B2R r)) as R1. rewrite <- E1 in R1. set (u := Bmult mode_NE s r) in *. clearbody u.
  assert (U : Rabs (B2R u) <= M * B2R r * (1 + ee) + eta).
  { apply Rle_trans with (1 := R1). apply Rplus_le_compat_r, Rmult_le_compat_r; [rewrite E24; lra|exact M1]. }
  assert (M2 : Rabs (B2R u + B2R w) <= M * B2R r * (1 + ee) + eta + 64).
  { apply Rle_trans with (1 := Rabs_triang _ _). assert (Rabs (B2R w) <= 64) by (apply Rabs_le; lra). lra. }
  destruct (plus_ok u w F1 Fw) as [E2 F2]; [apply P33; rewrite E24 in *; lra|].
  pose proof (rnd_err (B2R u + B2R w)) as R2. rewrite <- E2 in R2. set (y := Bplus mode_NE u w) in *. clearbody y.
  assert (Y : Rabs (B2R y) <= (M * B2R r * (1 + ee) + eta + 64) * (1 + ee) + eta).
  { apply Rle_trans with (1 := R2). apply Rplus_le_compat_r, Rmult_le_compat_r; [rewrite E24; lra|exact M2]. }
  assert (Y' : Rabs (B2R y) <= (M + 2) * B2R r).
  { apply Rle_trans with (1 := Y).
    assert (Q1 : M * B2R r * ee <= B2R r / 4) by (rewrite E24; nra).
    assert (Q2 : 0 <= M * B2R r) by nra. set (mr := M * B2R r) in *. rewrite E24 in *.
    replace ((M + 2) * B2R r) with (mr + 2 * B2R r) by (unfold mr; ring). lra. }
  destruct Hd as [->|[Fd Hd]].
  - destruct (over_infinity y F2) as [A B]. split; [exact A|]. rewrite B, Rabs_R0. lra.
  - assert (Q : Rabs (B2R y / B2R d) <= M + 2).
    { unfold Rdiv. rewrite Rabs_mult, (Rabs_pos_eq (/ B2R d)) by (left; apply Rinv_0_lt_compat; lra).
      apply Rmult_le_reg_r with (B2R d); [lra|]. rewrite Rmult_assoc, Rinv_l by lra. nra. }
    destruct (div_ok y d F2 ltac:(lra)) as [E3 F3]; [apply P33; lra|].
    split; [exact F3|]. rewrite E3. apply Rle_trans with (1 := rnd_err _). rewrite E24 in *. lra.
Qed.
