(** Proofs about the sensor drivers: encoder, motor, voltmeter. *)
From Coq Require Import ZArith List Bool Lia ZifyBool Reals Lra.
From Flocq Require Import Core BinarySingleNaN.
From Verif Require Import Base Num NumLemmas SensorsModel.
Import ListNotations.
Open Scope Z_scope.
Ltac Zify.zify_post_hook ::= Z.div_mod_to_equations.

(** ** Encoder *)

Lemma lower_bits v : get_lower_bits v = v mod 65536.
Proof.
  unfold get_lower_bits. change 65535 with (Z.ones 16). rewrite Z.land_ones by lia.
  change (2 ^ 16) with 65536. apply Z.mod_mod. lia.
Qed.

Lemma enc_step_ok before count t0 t1 :
  before = t0 mod 65536 -> count mod 65536 = t1 mod 65536 -> Z.abs (t1 - t0) < 32768 ->
  enc_step before count = Ret (t1 - t0, t1 mod 65536).
Proof.
  intros E0 E1 Hd. unfold enc_step. rewrite lower_bits, E1.
  set (a := t1 mod 65536). assert (Ha : 0 <= a < 65536) by (apply Z.mod_pos_bound; lia).
  assert (Hb : 0 <= before < 65536) by (subst; apply Z.mod_pos_bound; lia).
  assert (Hk : exists k, t1 - t0 = a - before + 65536 * k).
  { exists (t1 / 65536 - t0 / 65536). subst a before. lia. }
  destruct Hk as (k & Hk). clearbody a. clear E0 E1.
  unfold chk_u16, chk_i16, u16_as_i16.
  destruct (Z.ltb_spec before a).
  - replace ((0 <=? a - before) && (a - before <=? 65535)) with true by lia. cbn [bind].
    f_equal. f_equal. destruct (Z.ltb_spec (a - before) 32768); lia.
  - replace ((0 <=? before - a) && (before - a <=? 65535)) with true by lia. cbn [bind].
    destruct (Z.ltb_spec (before - a) 32768).
    + replace ((-32768 <=? - (before - a)) && (- (before - a) <=? 32767)) with true by lia.
      cbn [bind]. f_equal. f_equal. lia.
    + replace ((-32768 <=? - (before - a - 65536)) && (- (before - a - 65536) <=? 32767)) with true by lia.
      cbn [bind]. f_equal. f_equal. lia.
Qed.

(** differences of successive positions. *)
Fixpoint diffs (t0 : Z) (ts : list Z) : list Z :=
  match ts with [] => [] | t :: ts' => t - t0 :: diffs t ts' end.
Fixpoint small_steps (t0 : Z) (ts : list Z) : Prop :=
  match ts with [] => True | t :: ts' => Z.abs (t - t0) < 32768 /\ small_steps t ts' end.

Lemma enc_run_ok ts : forall t0 counts,
  Forall2 (fun t c => c mod 65536 = t mod 65536) ts counts -> small_steps t0 ts ->
  enc_run (t0 mod 65536) counts = Ret (diffs t0 ts).
Proof.
  induction ts as [|t ts IH]; intros t0 counts HF Hs; inversion HF as [|? c ? cs Hc HF']; subst.
  - reflexivity.
  - destruct Hs as [Hs1 Hs2]. cbn [enc_run]. rewrite (enc_step_ok _ c t0 t) by auto. cbn [bind snd fst].
    rewrite (IH t cs HF' Hs2). reflexivity.
Qed.

Definition Rsum (l : list R) : R := fold_right Rplus 0%R l.

Lemma diffs_sum ts : forall t0,
  Rsum (map (@enc_angle Rops) (diffs t0 ts)) = (IZR (last ts t0 - t0) / 1024)%R.
Proof.
  unfold enc_angle. cbn [div of_int lit Rops].
  induction ts as [|t ts IH]; intros t0.
  - cbn. rewrite Z.sub_diag. lra.
  - cbn [diffs map Rsum fold_right]. fold (Rsum (map (fun rel => (IZR rel / (1024 / 1))%R) (diffs t ts))).
    rewrite IH, last_cons. rewrite !minus_IZR. lra.
Qed.

Lemma enc_no_panic before count : 0 <= before < 65536 -> 0 <= count < 2 ^ 32 ->
  (exists r, enc_step before count = Ret r) <-> before - count mod 65536 <> 32768.
Proof.
  intros Hb Hc. unfold enc_step. rewrite lower_bits.
  assert (Ha : 0 <= count mod 65536 < 65536) by (apply Z.mod_pos_bound; lia).
  set (a := count mod 65536) in *. clearbody a. unfold chk_u16, chk_i16, u16_as_i16.
  destruct (Z.ltb_spec before a).
  - replace ((0 <=? a - before) && (a - before <=? 65535)) with true by lia. cbn [bind]. split; [lia|eauto].
  - replace ((0 <=? before - a) && (before - a <=? 65535)) with true by lia. cbn [bind].
    destruct (Z.ltb_spec (before - a) 32768).
    + replace ((-32768 <=? - (before - a)) && (- (before - a) <=? 32767)) with true by lia.
      cbn [bind]. split; [lia|eauto].
    + destruct ((-32768 <=? - (before - a - 65536)) && (- (before - a - 65536) <=? 32767)) eqn:E; cbn [bind].
      * split; [lia|eauto].
      * split; [intros (r & Er); discriminate|lia].
Qed.

(** ** Motor *)

Definition is_floor (n : Z) (x : R) : Prop := (IZR n <= x < IZR n + 1)%R.

Lemma to_int_floor m x : 0 <= m <= 65535 -> (0 <= x <= IZR m)%R ->
  is_floor (Rto_int 0 65535 x) x /\ 0 <= Rto_int 0 65535 x <= m.
Proof.
  intros Hm Hx. unfold Rto_int, clampZ. rewrite Ztrunc_floor by lra.
  assert (H0 : 0 <= Zfloor x) by (apply Zfloor_lub; cbn; lra).
  assert (H1 : Zfloor x <= m).
  { apply le_IZR. apply Rle_trans with x; [apply Zfloor_lb|lra]. }
  replace (Z.max 0 (Z.min 65535 (Zfloor x))) with (Zfloor x) by lia.
  split; [|lia]. split; [apply Zfloor_lb|apply Zfloor_ub].
Qed.

Lemma motor_ok v b m1 m2 : (0 < b)%R -> 0 <= m1 <= 65535 -> 0 <= m2 <= 65535 ->
  let drive := Rmin 1 (Rabs v / b) in
  let (d1, d2) := @motor_apply Rops v b m1 m2 in
  0 <= d1 <= m1 /\ 0 <= d2 <= m2 /\
  ((0 < v)%R -> d2 = m2 /\ is_floor d1 ((1 - drive) * IZR m1)) /\
  (~ (0 < v)%R -> d1 = m1 /\ is_floor d2 ((1 - drive) * IZR m2)).
Proof.
  intros Hb Hm1 Hm2 drive.
  assert (Hd : (0 <= drive <= 1)%R).
  { unfold drive. split; [|apply Rmin_l]. apply Rmin_glb; [lra|].
    apply Rmult_le_pos; [apply Rabs_pos|]. left. apply Rinv_0_lt_compat, Hb. }
  assert (Hx : forall m, 0 <= m <= 65535 -> (0 <= (1 - drive) * IZR m <= IZR m)%R).
  { intros m Hm. assert (0 <= IZR m)%R by (apply (IZR_le 0); lia).
    assert (0 <= drive * IZR m)%R by (apply Rmult_le_pos; lra).
    assert (0 <= (1 - drive) * IZR m)%R by (apply Rmult_le_pos; lra). lra. }
  unfold motor_apply. rops.
  destruct (Rltb_spec (0 / 1) v) as [Hv|Hv].
  - assert (Hr : (if Rltb (1 / 1) (v / b) then 1 / 1 else v / b)%R = drive).
    { unfold drive. rewrite Rabs_right by lra. destruct (Rltb_spec (1 / 1) (v / b)).
      - rewrite Rmin_left by lra. lra.
      - rewrite Rmin_right by lra. lra. }
    rewrite Hr. replace (1 / 1 - drive)%R with (1 - drive)%R by lra.
    destruct (to_int_floor m1 _ Hm1 (Hx m1 Hm1)) as [F1 F2].
    split; [exact F2|]. split; [lia|]. split; [auto|]. intros Hn. exfalso. lra.
  - assert (Hr : (if Rltb (1 / 1) (- (v / b)) then 1 / 1 else - (v / b))%R = drive).
    { unfold drive. rewrite Rabs_left1 by lra. replace (- v / b)%R with (- (v / b))%R by (unfold Rdiv; ring).
      destruct (Rltb_spec (1 / 1) (- (v / b))).
      - rewrite Rmin_left by lra. lra.
      - rewrite Rmin_right by lra. lra. }
    rewrite Hr. replace (1 / 1 - drive)%R with (1 - drive)%R by lra.
    destruct (to_int_floor m2 _ Hm2 (Hx m2 Hm2)) as [F1 F2].
    split; [lia|]. split; [exact F2|]. split; [intros; exfalso; lra|auto].
Qed.


(** in binary32 *)

Lemma max_exact m : 0 <= m <= 65535 -> B2R (f32_of_Z m) = IZR m /\ is_finite (f32_of_Z m) = true.
Proof. intros H. apply f32_of_Z_exact. lia. Qed.

Lemma bound_128 x : (Rabs x <= IZR (2 ^ 24))%R -> (Rabs x < bpow radix2 128)%R.
Proof.
  intros H. apply Rle_lt_trans with (1 := H). change (bpow radix2 128) with (IZR (2 ^ 128)). apply IZR_lt. lia.
Qed.

(** [(1 - r) * max as u16] for a finite ratio in [0, 1]. *)
Lemma duty_range r m : 0 <= m <= 65535 -> is_finite r = true -> (0 <= B2R r <= 1)%R ->
  0 <= f32_to_int 0 65535 (Bmult mode_NE (Bminus mode_NE f1 r) (f32_of_Z m)) <= m.
Proof.
  intros Hm Hf Hr. destruct f1_val as [E1 F1]. destruct (max_exact m Hm) as [Em Fm].
  assert (R0 : rnd32 0 = 0%R) by apply round_0, valid_rnd_N.
  assert (R1 : rnd32 1 = 1%R) by (apply rnd_exact, (int_format 1); lia).
  assert (Rm : rnd32 (IZR m) = IZR m) by (apply rnd_exact, int_format; lia).
  assert (Hm0 : (0 <= IZR m)%R) by (apply (IZR_le 0); lia).
  assert (Hm1 : (IZR m <= IZR (2 ^ 24))%R) by (apply IZR_le; lia).
  assert (Hd : (0 <= rnd32 (1 - B2R r) <= 1)%R).
  { split; [rewrite <- R0|rewrite <- R1 at 2]; apply rnd_le; lra. }
  destruct (minus_ok f1 r F1 Hf) as [A B].
  { rewrite E1. apply bound_128. rewrite Rabs_right by lra. apply Rle_trans with 1%R; [lra|apply (IZR_le 1); lia]. }
  rewrite E1 in A.
  assert (Hp : (0 <= B2R (Bminus mode_NE f1 r) * IZR m <= IZR m)%R).
  { rewrite A. split; [apply Rmult_le_pos; lra|]. rewrite <- (Rmult_1_l (IZR m)) at 2.
    apply Rmult_le_compat_r; lra. }
  assert (Hq : (0 <= rnd32 (B2R (Bminus mode_NE f1 r) * IZR m) <= IZR m)%R).
  { split; [rewrite <- R0|rewrite <- Rm at 2]; apply rnd_le; lra. }
  destruct (mult_ok (Bminus mode_NE f1 r) (f32_of_Z m) B Fm) as [C D].
  { rewrite Em. apply bound_128. rewrite Rabs_right by lra. lra. }
  rewrite Em in C. rewrite to_int_finite by exact D. rewrite C.
  apply (to_int_floor m); [exact Hm|exact Hq].
Qed.

(** a ratio that is not negative: NaN, +infinity or a finite value >= 0. *)
Definition ratio_like (r : f32) : Prop :=
  r = B754_nan \/ r = B754_infinity false \/ (is_finite r = true /\ (0 <= B2R r)%R).

Lemma duty_all r m : 0 <= m <= 65535 -> ratio_like r ->
  0 <= f32_to_int 0 65535 (Bmult mode_NE (Bminus mode_NE f1 (if Bltb f1 r then f1 else r)) (f32_of_Z m)) <= m.
Proof.
  intros Hm Hr. destruct f1_val as [E1 F1].
  destruct Hr as [->|[->|[Hf Hr]]].
  - replace (Bltb f1 B754_nan) with false by (vm_compute; reflexivity).
    replace (Bmult mode_NE (Bminus mode_NE f1 B754_nan) (f32_of_Z m)) with (@B754_nan 24 128)
      by (replace (Bminus mode_NE f1 B754_nan) with (@B754_nan 24 128) by (vm_compute; reflexivity); reflexivity).
    cbn. lia.
  - replace (Bltb f1 (B754_infinity false)) with true by (vm_compute; reflexivity).
    apply duty_range; [exact Hm|exact F1|rewrite E1; lra].
  - rewrite (Bltb_correct _ _ _ _ F1 Hf). rewrite E1.
    destruct (Rlt_bool_spec 1 (B2R r)).
    + apply duty_range; [exact Hm|exact F1|rewrite E1; lra].
    + apply duty_range; [exact Hm|exact Hf|lra].
Qed.

(** a quotient of a non-negative and a positive float. *)
Definition nonneg_f (x : f32) : Prop :=
  match x with B754_zero _ => True | B754_infinity s => s = false | B754_nan => True
  | B754_finite s _ _ _ => s = false end.
Definition pos_f (x : f32) : Prop :=
  match x with B754_infinity s => s = false | B754_finite s _ _ _ => s = false | _ => False end.

Lemma nonneg_B2R x : nonneg_f x -> (0 <= B2R x)%R.
Proof.
  destruct x as [| | |s m e H]; cbn; intros Hs; try lra. subst s. cbn.
  apply F2R_ge_0. cbn. lia.
Qed.

Lemma overflow_NE s : binary_overflow 24 128 mode_NE s = SpecFloat.S754_infinity s.
Proof. reflexivity. Qed.

Lemma div_ratio v b : nonneg_f v -> pos_f b -> ratio_like (f32_div v b).
Proof.
  intros Hv Hb. destruct b as [|sb| |sb mb eb Hbb]; cbn in Hb; try contradiction; subst sb.
  - destruct v as [s|s| |s m e H]; cbn in Hv |- *; unfold f32_div, ratio_like; cbn.
    + right; right. split; [reflexivity|lra].
    + left; reflexivity.
    + left; reflexivity.
    + right; right. split; [reflexivity|lra].
  - destruct v as [s|s| |s m e H] eqn:Ev; cbn in Hv.
    + right; right. split; [reflexivity|cbn; lra].
    + subst s. right; left. reflexivity.
    + left; reflexivity.
    + set (b := B754_finite false mb eb Hbb).
      assert (Hbp : (0 < B2R b)%R) by (apply F2R_gt_0; cbn; lia).
      pose proof (Bdiv_correct 24 128 prec32 emax32 mode_NE v b ltac:(lra)) as C.
      change (round radix2 (SpecFloat.fexp 24 128) (round_mode mode_NE)) with rnd32 in C.
      unfold f32_div. rewrite <- Ev. subst s.
      assert (Hq : (0 <= B2R v / B2R b)%R).
      { apply Rmult_le_pos; [rewrite Ev; apply nonneg_B2R; reflexivity|left; apply Rinv_0_lt_compat, Hbp]. }
      assert (R0 : rnd32 0 = 0%R) by apply round_0, valid_rnd_N.
      destruct (Rlt_bool_spec (Rabs (rnd32 (B2R v / B2R b))) (bpow radix2 128)).
      * destruct C as (C1 & C2 & _). right; right. rewrite C1, C2, Ev. split; [reflexivity|].
        rewrite <- Ev, <- R0. apply rnd_le, Hq.
      * rewrite overflow_NE in C. rewrite Ev in C at 2. cbn [Bsign b xorb] in C. right; left.
        destruct (Bdiv mode_NE v b); cbn in C; try discriminate. injection C as ->. reflexivity.
Qed.

Lemma opp_div_ratio v b : nonneg_f (Bopp v) -> pos_f b -> ratio_like (Bopp (f32_div v b)).
Proof.
  intros Hv Hb. destruct b as [|sb| |sb mb eb Hbb]; cbn in Hb; try contradiction; subst sb.
  - destruct v as [s|s| |s m e H]; cbn in Hv |- *; unfold f32_div, ratio_like; cbn.
    + right; right. split; [reflexivity|lra].
    + left; reflexivity.
    + left; reflexivity.
    + right; right. split; [reflexivity|lra].
  - destruct v as [s|s| |s m e H] eqn:Ev; cbn in Hv.
    + right; right. split; [reflexivity|cbn; lra].
    + destruct s; [|discriminate]. right; left. reflexivity.
    + left; reflexivity.
    + destruct s; [|discriminate].
      set (b := B754_finite false mb eb Hbb).
      assert (Hbp : (0 < B2R b)%R) by (apply F2R_gt_0; cbn; lia).
      pose proof (Bdiv_correct 24 128 prec32 emax32 mode_NE v b ltac:(lra)) as C.
      change (round radix2 (SpecFloat.fexp 24 128) (round_mode mode_NE)) with rnd32 in C.
      unfold f32_div. rewrite <- Ev.
      assert (Hv0 : (B2R v <= 0)%R) by (rewrite Ev; apply F2R_le_0; cbn; lia).
      assert (Hq : (B2R v / B2R b <= 0)%R).
      { assert (0 < / B2R b)%R by apply Rinv_0_lt_compat, Hbp. unfold Rdiv.
        replace 0%R with (0 * / B2R b)%R by ring. apply Rmult_le_compat_r; lra. }
      assert (R0 : rnd32 0 = 0%R) by apply round_0, valid_rnd_N.
      destruct (Rlt_bool_spec (Rabs (rnd32 (B2R v / B2R b))) (bpow radix2 128)).
      * destruct C as (C1 & C2 & _). right; right. rewrite is_finite_Bopp, B2R_Bopp, C1, C2, Ev.
        split; [reflexivity|]. rewrite <- Ev.
        assert (rnd32 (B2R v / B2R b) <= 0)%R by (rewrite <- R0; apply rnd_le, Hq). lra.
      * rewrite overflow_NE in C. rewrite Ev in C at 2. cbn [Bsign b xorb] in C. right; left.
        destruct (Bdiv mode_NE v b); cbn in C; try discriminate. injection C as ->. reflexivity.
Qed.

Lemma motor_f32_range l v b m1 m2 : pos_f b -> 0 <= m1 <= 65535 -> 0 <= m2 <= 65535 ->
  let (d1, d2) := @motor_apply (Fops l) v b m1 m2 in 0 <= d1 <= m1 /\ 0 <= d2 <= m2.
Proof.
  intros Hb H1 H2. unfold motor_apply, n1, n0.
  cbn [ltb lit div opp sub mul of_int to_int Fops]. fold f1.
  change (@num (Fops l)) with f32 in *.
  set (z := f32_div (f32_of_Z 0) (f32_of_Z 1)).
  assert (Ez : z = B754_zero false) by (vm_compute; reflexivity).
  destruct (Bltb z v) eqn:Ev.
  - split; [|lia]. apply duty_all; [exact H1|]. apply div_ratio; [|exact Hb].
    rewrite Ez in Ev. destruct v as [s|s| |s m e H]; cbn in *; auto.
    + unfold Bltb, SpecFloat.SFltb in Ev; cbn in Ev. destruct s; [discriminate|reflexivity].
    + unfold Bltb, SpecFloat.SFltb in Ev; cbn in Ev. destruct s; [discriminate|reflexivity].
  - split; [lia|]. apply duty_all; [exact H2|]. apply opp_div_ratio; [|exact Hb].
    rewrite Ez in Ev. destruct v as [s|s| |s m e H]; cbn in *; auto.
    + unfold Bltb, SpecFloat.SFltb in Ev; cbn in Ev. destruct s; [reflexivity|discriminate].
    + unfold Bltb, SpecFloat.SFltb in Ev; cbn in Ev. destruct s; [reflexivity|discriminate].
Qed.

Definition nonzero_f (x : f32) : Prop :=
  match x with B754_infinity _ => True | B754_finite _ _ _ _ => True | _ => False end.

Lemma motor_zero l s b m1 m2 : nonzero_f b -> 0 <= m1 <= 65535 -> 0 <= m2 <= 65535 ->
  @motor_apply (Fops l) (B754_zero s) b m1 m2 = (m1, m2).
Proof.
  intros Hb H1 H2. unfold motor_apply, n1, n0.
  cbn [ltb lit div opp sub mul of_int to_int Fops]. fold f1.
  change (@num (Fops l)) with f32 in *.
  set (z := f32_div (f32_of_Z 0) (f32_of_Z 1)).
  assert (Ez : z = B754_zero false) by (vm_compute; reflexivity). rewrite Ez.
  replace (Bltb (B754_zero false) (B754_zero s)) with false by reflexivity.
  assert (Hq : exists s', f32_div (B754_zero s) b = B754_zero s').
  { destruct b as [|sb| |sb mb eb Hbb]; cbn in Hb; try contradiction; eexists; reflexivity. }
  destruct Hq as (s' & ->). cbn [Bopp]. f_equal.
  destruct f1_val as [E1 F1]. rewrite (Bltb_correct _ _ f1 (B754_zero (negb s')) F1 eq_refl). rewrite E1. cbn [B2R].
  rewrite Rlt_bool_false by lra.
  destruct (max_exact m2 H2) as [E2 F2].
  assert (R1 : rnd32 1 = 1%R) by (apply rnd_exact, (int_format 1); lia).
  assert (Rm : rnd32 (IZR m2) = IZR m2) by (apply rnd_exact, int_format; lia).
  destruct (minus_ok f1 (B754_zero (negb s')) F1 eq_refl) as [A B].
  { rewrite E1. cbn [B2R]. rewrite Rminus_0_r, R1. apply bound_128. rewrite Rabs_right by lra.
    apply (IZR_le 1). lia. }
  rewrite E1 in A. cbn [B2R] in A. rewrite Rminus_0_r, R1 in A.
  destruct (mult_ok (Bminus mode_NE f1 (B754_zero (negb s'))) (f32_of_Z m2) B F2) as [C D].
  { rewrite A, E2, Rmult_1_l, Rm. apply bound_128. rewrite Rabs_right by (apply Rle_ge, (IZR_le 0); lia).
    apply IZR_le. lia. }
  rewrite to_int_finite by exact D. rewrite C, A, E2, Rmult_1_l, Rm, Ztrunc_IZR. unfold clampZ. lia.
Qed.
