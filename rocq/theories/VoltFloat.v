(** The voltmeter in binary32. *)
From Coq Require Import ZArith Reals List Bool Lia Lra.
From Flocq Require Import Core Relative Sterbenz BinarySingleNaN.
From Verif Require Import Base Num NumLemmas SensorsModel SensorsProofs2 FloatMag FloatRange FloatMoveSpec FloatEstSpec
  JerkProofs FloatMove FloatMove2 FloatMove3 EstFloat EstFloat2 CtlFloat CtlFloat2 SimFloat.
Import ListNotations.
Open Scope R_scope.

(** [a * 2^k] is representable with [a]. *)
Lemma scale_fmt a k : format32 a -> (0 <= k)%Z -> format32 (a * bpow radix2 k).
Proof.
  intros H Hk. apply FLT_format_generic in H; [|reflexivity]. destruct H as [f E H1 H2].
  apply generic_format_FLT. exists (Float radix2 (Fnum f) (Fexp f + k)).
  - rewrite E. unfold F2R. cbn [Fnum Fexp]. rewrite bpow_plus. ring.
  - exact H1.
  - cbn [Fexp]. lia.
Qed.

Lemma fit_scale a k : format32 a -> Rabs a <= 128 -> (0 <= k <= 70)%Z -> fit (a * bpow radix2 k).
Proof.
  intros H Ha Hk. split; [apply scale_fmt; [exact H|lia]|].
  rewrite Rabs_mult, (Rabs_pos_eq (bpow radix2 k)) by apply bpow_ge_0.
  apply Rle_trans with (bpow radix2 7 * bpow radix2 k).
  - apply Rmult_le_compat_r; [apply bpow_ge_0|exact Ha].
  - rewrite <- bpow_plus. apply bpow_le. lia.
Qed.

(** the two weights of a step add up to less than the middle between 1 and its successor. *)
Lemma weights_sum (al : f32) : btw 0 1 al ->
  btw 0 1 (Bminus mode_NE f1 al) /\ B2R al + B2R (Bminus mode_NE f1 al) < 1 + bpow radix2 (-24).
Proof.
  intros [Fa Ha]. destruct f1_val as [V1 F1].
  destruct (sub_btw 0 1 f1 al F1 Fa) as [G B]; [fitz|fitz|rewrite V1; lra|]. split; [split; assumption|].
  destruct (minus_ok f1 al F1 Fa) as [E _].
  { apply (rnd_top _ 0); [lia|]. change (bpow radix2 0) with 1. rewrite V1. rewrite Rabs_pos_eq; lra. }
  rewrite E, V1. pose proof (bpow_gt_0 radix2 (-24)) as P.
  destruct (Rle_or_lt (1 / 2) (B2R al)) as [L|L].
  - (* exact *)
    rewrite round_generic; [lra|apply valid_rnd_N|].
    apply sterbenz; [apply FLT_exp_valid; reflexivity|apply FLT_exp_monotone|rewrite <- V1; apply generic_format_B2R|apply generic_format_B2R|lra].
  - destruct (Req_dec (B2R al) 0) as [Z|Z].
    { rewrite Z. replace (1 - 0) with 1 by ring. rewrite round_generic; [lra|apply valid_rnd_N|]. exact (bpow_fmt 0 ltac:(lia)). }
    pose proof (relative_error_N_FLT radix2 (-149) 24 ltac:(lia) (fun z => negb (Z.even z)) (1 - B2R al)) as Q.
    rewrite (Rabs_pos_eq (1 - B2R al)) in Q by lra.
    assert (Q1 : bpow radix2 (-149 + 24 - 1) <= 1 - B2R al).
    { apply Rle_trans with (bpow radix2 (-1)); [apply bpow_le; lia|]. change (bpow radix2 (-1)) with (/ 2). lra. }
    specialize (Q Q1). change (- (24) + 1)%Z with (-23)%Z in Q.
    replace (bpow radix2 (-23)) with (2 * bpow radix2 (-24)) in Q by (change (-23)%Z with (1 + -24)%Z; rewrite bpow_plus; reflexivity).
    apply Rabs_le_inv in Q. change (round radix2 (FLT_exp (-149) 24) (Znearest (fun z => negb (Z.even z)))) with rnd32 in Q.
    assert (0 < B2R al) by lra. change (round radix2 (SpecFloat.fexp 24 128) (round_mode mode_NE)) with rnd32.
    nra.
Qed.

(** a value below the middle between a power of two and its successor is rounded to the power at most. *)
Lemma back_to_pow k w : (0 <= k <= 70)%Z -> w < (1 + bpow radix2 (-24)) * bpow radix2 k -> rnd32 w <= bpow radix2 k.
Proof.
  intros Hk H. apply (round_N_le_midp radix2 (FLT_exp (-149) 24)); [exact (bpow_fmt k ltac:(lia))|].
  assert (S : succ radix2 (FLT_exp (-149) 24) (bpow radix2 k) = bpow radix2 k + bpow radix2 (k - 23)).
  { rewrite succ_eq_pos by apply bpow_ge_0. f_equal. rewrite ulp_bpow. f_equal. unfold FLT_exp. lia. }
  rewrite S. replace (bpow radix2 (k - 23)) with (2 * bpow radix2 (-24) * bpow radix2 k).
  - lra.
  - replace (k - 23)%Z with (1 + -24 + k)%Z by lia. rewrite !bpow_plus. reflexivity.
Qed.

(** one update. *)
Lemma update_btw k (al v x : f32) : (0 <= k <= 70)%Z -> btw 0 1 al -> btw 0 (bpow radix2 k) v -> btw 0 (bpow radix2 k) x ->
  btw 0 (bpow radix2 k) (Bplus mode_NE (Bmult mode_NE al v) (Bmult mode_NE (Bminus mode_NE f1 al) x)).
Proof.
  intros Hk Ha [Fv Hv] [Fx Hx]. destruct (weights_sum al Ha) as [[Fo Ho] W]. destruct Ha as [Fa Ha].
  set (o := Bminus mode_NE f1 al) in *. clearbody o. pose proof (bpow_gt_0 radix2 k) as P.
  destruct (mul_btw 0 (B2R al * bpow radix2 k) al v Fa Fv) as [G1 B1]; [fitz|apply fit_scale; [apply generic_format_B2R|rewrite Rabs_pos_eq; lra|lia]|nra|].
  destruct (mul_btw 0 (B2R o * bpow radix2 k) o x Fo Fx) as [G2 B2]; [fitz|apply fit_scale; [apply generic_format_B2R|rewrite Rabs_pos_eq; lra|lia]|nra|].
  set (p := Bmult mode_NE al v) in *. set (q := Bmult mode_NE o x) in *. clearbody p q.
  assert (S : B2R p + B2R q < (1 + bpow radix2 (-24)) * bpow radix2 k) by nra.
  destruct (plus_ok p q G1 G2) as [E F].
  { apply (rnd_top _ (k + 1)); [lia|]. rewrite Rabs_pos_eq by lra. rewrite bpow_plus. change (bpow radix2 1) with 2. nra. }
  split; [exact F|]. rewrite E. split; [|apply back_to_pow; assumption].
  rewrite <- (round_0 radix2 (FLT_exp (-149) 24) ZnearestE). apply round_le; [apply FLT_exp_valid; reflexivity|apply valid_rnd_N|lra].
Qed.

(** the weight of the old value. *)
Lemma alpha_vm lm (p f : f32) : within 0 1024 p -> within 0 1048576 f -> btw 0 1 (@vm_alpha (Fops lm) p f : f32).
Proof.
  intros [Fp Hp] [Ff Hf]. unfold vm_alpha, n1, n2. cbn [lit mul npi add div Fops].
  change (f32_div (f32_of_Z 2) (f32_of_Z 1)) with f2. change (f32_div (f32_of_Z 1) (f32_of_Z 1)) with f1. destruct f1_val as [V1 F1].
  destruct f2_val as [V2 F2]. destruct (f32_of_Z_exact 13176795 ltac:(lia)) as [E1 G1]. destruct (f32_of_Z_exact 4194304 ltac:(lia)) as [E2 G2].
  destruct (div_btw 3 4 (f32_of_Z 13176795) (f32_of_Z 4194304) G1) as [Fd Hd]; [rewrite E2; lra|apply fit_int; lia|apply fit_int; lia|rewrite E1, E2; lra|].
  set (pf := f32_div (f32_of_Z 13176795) (f32_of_Z 4194304)) in *. clearbody pf.
  destruct (mul_btw 6 8 f2 _ F2 Fd) as [Ft Ht]; [apply fit_int; lia|apply fit_int; lia|rewrite V2; lra|]. set (t := Bmult mode_NE f2 pf) in *. clearbody t.
  pose proof (fit_scale 1 30 ltac:(exact (bpow_fmt 0 ltac:(lia))) ltac:(rewrite Rabs_R1; lra) ltac:(lia)) as L1. rewrite Rmult_1_l in L1.
  pose proof (fit_scale 1 33 ltac:(exact (bpow_fmt 0 ltac:(lia))) ltac:(rewrite Rabs_R1; lra) ltac:(lia)) as L2. rewrite Rmult_1_l in L2.
  pose proof (fit_scale 1 34 ltac:(exact (bpow_fmt 0 ltac:(lia))) ltac:(rewrite Rabs_R1; lra) ltac:(lia)) as L3. rewrite Rmult_1_l in L3.
  change (bpow radix2 30) with 1073741824 in L1. change (bpow radix2 33) with 8589934592 in L2. change (bpow radix2 34) with 17179869184 in L3.
  destruct (mul_btw 0 1073741824 p f Fp Ff) as [G3 B3]; [fitz|exact L1|nra|].
  set (pq := Bmult mode_NE p f) in *. clearbody pq.
  destruct (mul_btw 0 8589934592 t pq Ft G3) as [G4 B4]; [fitz|exact L2|nra|]. set (u := Bmult mode_NE t pq) in *. clearbody u.
  destruct (add_btw 1 17179869184 u f1 G4 F1) as [G5 B5]; [fitz|exact L3|rewrite V1; lra|]. set (d := Bplus mode_NE u f1) in *. clearbody d.
  apply div_btw; [exact F1|lra|fitz|fitz|rewrite V1]. apply quot_btw; lra.
Qed.

Lemma ret_pair {A C} (a a' : A) (c c' : C) : Ret (a, c) = Ret (a', c') -> a = a' /\ c = c'.
Proof. intros H. injection H as H1 H2. auto. Qed.

(** the peripheral determines its readings. *)
Lemma reads_prefix {B} (adc : B -> adc_ans * B) b vs b1 : adc_reads adc b vs b1 ->
  forall vs' b1', adc_reads adc b vs' b1' -> length vs = length vs' -> vs = vs'.
Proof.
  induction 1 as [b|b v b1 vs b' E _ IH|b b1 vs b' E _ IH]; intros vs' c H L.
  - destruct vs'; [reflexivity|discriminate].
  - revert L. induction H as [b|b w b2 ws c' E' H' _|b b2 ws c' E' H' IH']; intros L; [discriminate| |].
    + rewrite E in E'. injection E' as <- <-. f_equal. apply (IH _ _ H'). cbn in L. lia.
    + rewrite E in E'. discriminate.
  - destruct H as [b|b w b2 ws c' E' H'|b b2 ws c' E' H'].
    + destruct vs; [reflexivity|discriminate].
    + rewrite E in E'. discriminate.
    + rewrite E in E'. injection E' as <-. exact (IH _ _ H' L).
Qed.

Section Reads.
Variable lm : libm.
#[local] Hint Extern 0 ops => exact (Fops lm) : typeclass_instances.
Context {B : Type}.
Variable adc : B -> adc_ans * B.

Lemma current_f fuel ratio b x b' : @current_voltage (Fops lm) B adc fuel ratio b = Ret (x, b') ->
  exists v, adc_reads adc b [v] b' /\ x = @adc_convert (Fops lm) ratio v.
Proof.
  unfold current_voltage. destruct (adc_block adc fuel b) as [[v b1]| |] eqn:E; try discriminate.
  cbn [bind fst snd]. intros H. apply ret_pair in H. destruct H as [<- <-]. exists v. split; [exact (adc_block_ok _ _ _ _ _ E)|reflexivity].
Qed.

Definition low k ratio (v : Z) : Prop := btw 0 (bpow radix2 k) (@adc_convert (Fops lm) ratio v : f32).

Lemma sum_f k ratio fuel : (0 <= k <= 70)%Z -> forall n m sum b s b', (n + m <= 100)%nat ->
  @vm_sum (Fops lm) B adc n fuel ratio sum b = Ret (s, b') ->
  exists vs, adc_reads adc b vs b' /\ length vs = n /\
    (btw 0 (INR m * bpow radix2 k) sum -> Forall (low k ratio) vs -> btw 0 (INR (n + m) * bpow radix2 k) s).
Proof.
  intros Hk. induction n as [|n IH]; intros m sum b s b' L H.
  - injection H as <- <-. exists []. split; [constructor|]. split; [reflexivity|]. intros H _. exact H.
  - cbn [vm_sum] in H. destruct (current_voltage adc fuel ratio b) as [[x b1]| |] eqn:E; try discriminate.
    cbn [bind fst snd] in H. apply current_f in E. destruct E as (v & R & ->).
    apply (IH (S m)) in H; [|lia]. destruct H as (vs & R' & Len & H). exists (v :: vs). split; [exact (reads_app _ _ _ _ R _ _ R')|].
    split; [cbn; lia|]. intros Hs HF. pose proof (Forall_inv HF) as Hv. pose proof (Forall_inv_tail HF) as HF'. replace (S n + m)%nat with (n + S m)%nat by lia. apply H; [|exact HF'].
    destruct Hs as [Fs Hs]. destruct Hv as [Fv Hv]. pose proof (bpow_gt_0 radix2 k) as P.
    cbn [add Fops]. apply add_btw; [exact Fs|exact Fv|fitz| |rewrite S_INR; lra].
    apply fit_scale; [rewrite INR_IZR_INZ; apply (proj1 (fit_int (Z.of_nat (S m)) ltac:(lia)))| |lia].
    rewrite Rabs_pos_eq by apply pos_INR. rewrite INR_IZR_INZ. apply IZR_le. lia.
Qed.

Lemma updates_f k fuel : (0 <= k <= 70)%Z -> forall n v b v' b',
  @vm_updates (Fops lm) B adc n fuel v b = Ret (v', b') ->
  exists vs, adc_reads adc b vs b' /\ length vs = n /\
    (btw 0 1 (v_alpha v : f32) -> btw 0 (bpow radix2 k) (v_voltage v : f32) -> Forall (low k (v_ratio v)) vs ->
     btw 0 (bpow radix2 k) (v_voltage v' : f32)).
Proof.
  intros Hk. induction n as [|n IH]; intros v b v' b' H.
  - injection H as <- <-. exists []. split; [constructor|]. split; [reflexivity|]. intros _ H _. exact H.
  - cbn [vm_updates] in H. unfold vm_update in H. destruct (current_voltage adc fuel (v_ratio v) b) as [[x b1]| |] eqn:E; try discriminate.
    cbn [bind fst snd] in H. apply current_f in E. destruct E as (w & R & ->).
    apply IH in H. destruct H as (vs & R' & Len & H). exists (w :: vs). split; [exact (reads_app _ _ _ _ R _ _ R')|].
    split; [cbn; lia|]. cbn [v_alpha v_voltage v_ratio] in H. intros Ha Hv HF. pose proof (Forall_inv HF) as Hw. pose proof (Forall_inv_tail HF) as HF'. apply H; [exact Ha| |exact HF'].
    exact (update_btw k _ _ _ Hk Ha Hv Hw).
Qed.

Lemma vm_f k fuel period freq ratio b v0 b0 n v b1 : (0 <= k <= 70)%Z -> within 0 1024 period -> within 0 1048576 freq ->
  @vm_new (Fops lm) B adc fuel period freq ratio b = Ret (v0, b0) ->
  vm_updates adc n fuel v0 b0 = Ret (v, b1) ->
  exists vs, adc_reads adc b vs b1 /\ length vs = (100 + n)%nat /\
    (Forall (low k ratio) vs -> btw 0 (bpow radix2 k) (v_voltage v : f32)).
Proof.
  intros Hk Hp Hf. unfold vm_new. intros E0 E1.
  destruct (vm_sum adc 100 fuel ratio n0 b) as [[s b2]| |] eqn:Es; try discriminate.
  cbn [bind fst snd] in E0. apply ret_pair in E0. destruct E0 as [<- <-].
  apply (sum_f k ratio fuel Hk 100 0) in Es; [|lia]. destruct Es as (vs & R & Len & S).
  apply (updates_f k) in E1; [|exact Hk]. destruct E1 as (us & R' & Len' & U). cbn [v_alpha v_voltage v_ratio] in U.
  exists (vs ++ us). split; [exact (reads_app _ _ _ _ R _ _ R')|]. split; [rewrite app_length; lia|].
  intros HF. apply Forall_app in HF. destruct HF as [HF1 HF2]. apply U; [exact (alpha_vm lm _ _ Hp Hf)| |exact HF2].
  assert (Z0 : btw 0 (INR 0 * bpow radix2 k) (n0 : f32)).
  { unfold n0. cbn [lit Fops]. change (f32_div (f32_of_Z 0) (f32_of_Z 1)) with (B754_zero false : f32). split; [reflexivity|]. cbn [B2R INR]. lra. }
  specialize (S Z0 HF1). destruct S as [Fs Hs]. destruct (f32_of_Z_exact 100 ltac:(lia)) as [Eh Gh].
  cbn [div of_int Fops]. apply div_btw; [exact Fs|rewrite Eh; lra|fitz| |].
  - rewrite <- (Rmult_1_l (bpow radix2 k)). apply fit_scale; [exact (bpow_fmt 0 ltac:(lia))|rewrite Rabs_R1; lra|exact Hk].
  - rewrite Eh. apply quot_btw; [lra|]. replace (INR (100 + 0)) with 100 in Hs by (rewrite INR_IZR_INZ; reflexivity). lra.
Qed.
End Reads.

(** conversion of a 12-bit reading. *)
Lemma convert_low lm j (ratio : f32) v : (0 <= j <= 60)%Z -> within 0 (bpow radix2 j) ratio -> (0 <= v <= 4096)%Z ->
  btw 0 (bpow radix2 (j + 2)) (@adc_convert (Fops lm) ratio v : f32).
Proof.
  intros Hj [Fr Hr] Hv. unfold adc_convert. cbn [of_int lit mul div Fops].
  destruct (f32_of_Z_exact v ltac:(lia)) as [Ev Gv]. destruct (f32_of_Z_exact 33 ltac:(lia)) as [E3 G3]. destruct (f32_of_Z_exact 10 ltac:(lia)) as [E1 G1].
  destruct (f32_of_Z_exact 4096 ltac:(lia)) as [E4 G4].
  assert (Hv' : 0 <= IZR v <= 4096) by (split; apply IZR_le; lia).
  destruct (div_btw 3 4 (f32_of_Z 33) (f32_of_Z 10) G3) as [Fd Hd]; [rewrite E1; lra|fitz|fitz|rewrite E1, E3; lra|].
  set (c := f32_div (f32_of_Z 33) (f32_of_Z 10)) in *. clearbody c.
  assert (H4 : btw 4096 4096 (f32_div (f32_of_Z 4096) (f32_of_Z 1))).
  { destruct (f32_of_Z_exact 1 ltac:(lia)) as [E G]. apply div_btw; [exact G4|rewrite E; lra|fitz|fitz|rewrite E4, E; lra]. }
  set (d := f32_div (f32_of_Z 4096) (f32_of_Z 1)) in *. clearbody d. destruct H4 as [F4 H4].
  destruct (mul_btw 0 16384 (f32_of_Z v) c Gv Fd) as [F5 H5]; [fitz|fitz|rewrite Ev; nra|]. set (x := Bmult mode_NE (f32_of_Z v) c) in *. clearbody x.
  pose proof (bpow_gt_0 radix2 j) as P. assert (Q : bpow radix2 (j + 2) = 4 * bpow radix2 j) by (rewrite bpow_plus; change (bpow radix2 2) with 4; ring).
  assert (Ft : forall i, (0 <= i <= 100)%Z -> fit (bpow radix2 i)).
  { intros i Hi. split; [apply bpow_fmt; lia|]. rewrite Rabs_pos_eq by apply bpow_ge_0. apply bpow_le. lia. }
  assert (Q' : bpow radix2 (j + 14) = 16384 * bpow radix2 j) by (rewrite bpow_plus; change (bpow radix2 14) with 16384; ring).
  destruct (mul_btw 0 (bpow radix2 (j + 14)) x ratio F5 Fr) as [F6 H6]; [fitz|apply Ft; lia|rewrite Q'; nra|].
  apply div_btw; [exact F6|lra|fitz|apply Ft; lia|]. apply quot_btw; [lra|]. rewrite Q. rewrite Q' in H6. nra.
Qed.
