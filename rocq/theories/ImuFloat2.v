(** Calibration of the inertial sensor in binary32. *)
From Coq Require Import ZArith Reals List Bool Lia Lra.
From Flocq Require Import Core Relative BinarySingleNaN.
From Verif Require Import Base Num NumLemmas SensorsModel SensorsProofs SensorsProofs2 SensorsProofs3 FloatMag FloatRange FloatMoveSpec
  JerkProofs FloatMove FloatMove2 EstFloat EstFloat2 SimFloat ImuFloat.
Import ListNotations.
Open Scope R_scope.

Lemma Rsum_close {A} (f g : A -> R) e l : Forall (fun a => Rabs (f a - g a) <= e) l -> Rabs (Rsum (map f l) - Rsum (map g l)) <= INR (length l) * e.
Proof.
  induction 1 as [|a l H _ IH]; [cbn; rewrite Rminus_0_r, Rabs_R0; lra|]. unfold Rsum in *. cbn [map fold_right length]. rewrite S_INR.
  apply Rabs_le_inv in H. apply Rabs_le_inv in IH. apply Rabs_le. lra.
Qed.

Lemma Rsum_bound {A} (f : A -> R) c e l : Forall (fun a => Rabs (f a - c) <= e) l -> Rabs (Rsum (map f l) - INR (length l) * c) <= INR (length l) * e.
Proof.
  induction 1 as [|a l H _ IH]; [cbn; rewrite Rmult_0_l, Rminus_0_r, Rabs_R0; lra|]. unfold Rsum in *. cbn [map fold_right length]. rewrite S_INR.
  apply Rabs_le_inv in H. apply Rabs_le_inv in IH. apply Rabs_le. lra.
Qed.

Lemma mean_err lm {A} (x : A -> f32) (q : A -> R) (o : f32) (D : R) (rs : list A) :
  length rs = Z.to_nat 1000 -> btw (-48) 48 o -> 0 <= D <= 127 ->
  Forall (fun a => is_finite (x a) = true /\ Rabs (B2R (x a) - q a) <= 1 / 65536 /\ Rabs (q a) <= 35 /\ Rabs (q a - B2R o) <= D) rs ->
  let y := Bplus mode_NE o (f32_div (@diffs (Fops lm) o (map x rs) (f32_div (f32_of_Z 0) (f32_of_Z 1))) (f32_of_Z 1000)) in
  is_finite y = true /\ Rabs (B2R y - Rsum (map q rs) / 1000) <= D / 16384 + 1 / 32768.
Proof.
  intros L [Fo Ho] HD HF. cbv zeta. pose proof eta_small as He.
  assert (LR : INR (length rs) = 1000) by (rewrite L, INR_IZR_INZ, Z2Nat.id by lia; reflexivity).
  set (D' := D + 1 / 65536). assert (HD' : 0 <= D' <= 128) by (unfold D'; lra).
  change (f32_div (f32_of_Z 0) (f32_of_Z 1)) with (B754_zero false : f32).
  destruct (diffs_err lm o D' HD' Fo (map x rs) 0 (B754_zero false) 0) as [Ft Bt].
  { rewrite map_length, L. lia. }
  { apply Forall_map. eapply Forall_impl; [|exact HF]. intros a (F & H1 & _ & H3). split; [exact F|].
    apply Rabs_le_inv in H1. apply Rabs_le_inv in H3. apply Rabs_le. unfold D'. lra. }
  { reflexivity. }
  { cbn [B2R INR]. rewrite Rminus_0_r, Rabs_R0. lra. }
  { rewrite Rabs_R0. cbn [INR]. lra. }
  set (t := @diffs (Fops lm) o (map x rs) (B754_zero false) : f32) in *. clearbody t.
  rewrite Rplus_0_l, rdiffs_sum, !map_length, map_map, Nat.add_0_r, LR in Bt.
  set (X := Rsum (map (fun a => B2R (x a)) rs)) in *. set (Q := Rsum (map q rs)).
  assert (XQ : Rabs (X - Q) <= 1000 * (1 / 65536)).
  { unfold X, Q. rewrite <- LR. apply Rsum_close. eapply Forall_impl; [|exact HF]. intros a (_ & H & _). exact H. }
  assert (Q35 : Rabs (Q - 1000 * 0) <= 1000 * 35).
  { unfold Q. rewrite <- LR. apply Rsum_bound. eapply Forall_impl; [|exact HF]. intros a (_ & _ & H & _). rewrite Rminus_0_r. exact H. }
  assert (QD : Rabs (Q - 1000 * B2R o) <= 1000 * D).
  { unfold Q. rewrite <- LR. apply Rsum_bound. eapply Forall_impl; [|exact HF]. intros a (_ & _ & _ & H). exact H. }
  clearbody X Q. apply Rabs_le_inv in XQ. apply Rabs_le_inv in Q35. apply Rabs_le_inv in QD. apply Rabs_le_inv in Bt.
  pose proof (kap_small D' HD') as K. pose proof K as K'. unfold kap in K, Bt. 
  destruct (f32_of_Z_exact 1000 ltac:(lia)) as [E1 F1].
  assert (T : Rabs (B2R t / 1000) <= 129) by (apply Rabs_le; unfold D' in *; lra).
  assert (T' : Rabs (B2R t / 1000) <= D' * (10001 / 10000) + 3 * eta) by (apply Rabs_le; unfold D' in *; lra).
  destruct (rnd_div t (f32_of_Z 1000) Ft F1) as [Fm Bm]; [rewrite E1; lra|rewrite E1; apply big100; lra|]. rewrite E1 in Bm.
  set (m := f32_div t (f32_of_Z 1000)) in *. clearbody m.
  assert (Bm' : Rabs (B2R m - B2R t / 1000) <= (D' * (10001 / 10000) + 3 * eta) * ee + eta) by (apply Rle_trans with (1 := Bm); unfold ee; lra).
  apply Rabs_le_inv in Bm'. unfold ee in *.
  assert (S : Rabs (B2R o + B2R m) <= 36) by (apply Rabs_le; unfold D' in *; lra).
  destruct (rnd_add o m Fo Fm) as [Fy By]; [apply big100; lra|]. unfold ee in By. split; [exact Fy|].
  set (y := Bplus mode_NE o m) in *. clearbody y.
  assert (By' : Rabs (B2R y - (B2R o + B2R m)) <= 36 * / 16777216 + eta) by lra. apply Rabs_le_inv in By'.
  apply Rabs_le. unfold D' in *. lra.
Qed.

Section Imu.
Variable lm : libm.
#[local] Hint Extern 0 ops => exact (Fops lm) : typeclass_instances.
Context {B : Type} (env : spi_env B) (Henv : bytes_env env).

Lemma acc_ok r : byte_answer r -> is_finite (@acc_num (Fops lm) r : f32) = true /\
  Rabs (B2R (@acc_num (Fops lm) r : f32) - acc_of r) <= 1 / 65536 /\ Rabs (acc_of r) <= 35.
Proof.
  destruct r as [[x h] l]. intros [Hh Hl]. pose proof (be16_range h l Hh Hl) as Hr.
  assert (Hv : Rabs (IZR (be16 h l)) <= 32768) by (apply Rabs_le; lra). destruct (accel_conv lm _ Hv) as [F H].
  unfold acc_num, acc_of. cbn [opp Fops]. set (p := @raw_to_accel (Fops lm) (be16 h l) : f32) in *. clearbody p.
  rewrite is_finite_Bopp, B2R_Bopp. split; [exact F|]. apply Rabs_le_inv in H. split; apply Rabs_le; lra.
Qed.

Lemma gyr_ok r : byte_answer r -> is_finite (@gyro_num (Fops lm) r : f32) = true /\
  Rabs (B2R (@gyro_num (Fops lm) r : f32) - gyro_of r) <= 1 / 65536 /\ Rabs (gyro_of r) <= 35.
Proof.
  destruct r as [[x h] l]. intros [Hh Hl]. pose proof (be16_range h l Hh Hl) as Hr.
  assert (Hv : Rabs (IZR (be16 h l)) <= 32768) by (apply Rabs_le; lra). destruct (gyro_conv lm _ Hv) as [F H].
  unfold gyro_num, gyro_of. split; [exact F|]. split; [exact H|]. apply Rabs_le; lra.
Qed.

(** the new offsets are close to the means of the readings. *)
Lemma calib_f fuel (s s' : imu B) : btw (-48) 48 (i_accel s : f32) -> btw (-48) 48 (i_gyro s : f32) ->
  calibrate env fuel s = (Val (Some tt), s') ->
  exists rs, length rs = Z.to_nat 1000 /\ Forall (fun r => byte_answer (fst r) /\ byte_answer (snd r)) rs /\
    i_log s' = rev (entries rs) ++ i_log s /\
    is_finite (i_accel s' : f32) = true /\ is_finite (i_gyro s' : f32) = true /\
    forall D, 0 <= D <= 127 ->
    (Forall (fun r => Rabs (acc_of (fst r) - B2R (i_accel s : f32)) <= D) rs ->
      Rabs (B2R (i_accel s' : f32) - Rsum (map (fun r => acc_of (fst r)) rs) / 1000) <= D / 16384 + 1 / 32768) /\
    (Forall (fun r => Rabs (gyro_of (snd r) - B2R (i_gyro s : f32)) <= D) rs ->
      Rabs (B2R (i_gyro s' : f32) - Rsum (map (fun r => gyro_of (snd r)) rs) / 1000) <= D / 16384 + 1 / 32768).
Proof.
  intros Ha Hg E. apply (g_calibrate env Henv) in E. destruct E as (rs & L & HB & Lg & Ea & Eg). exists rs. split; [exact L|]. split; [exact HB|]. split; [exact Lg|].
  assert (MA : forall D, 0 <= D <= 127 -> Forall (fun r => Rabs (acc_of (fst r) - B2R (i_accel s : f32)) <= D) rs ->
    is_finite (i_accel s' : f32) = true /\ Rabs (B2R (i_accel s' : f32) - Rsum (map (fun r => acc_of (fst r)) rs) / 1000) <= D / 16384 + 1 / 32768).
  { intros D HD HF. rewrite Ea. apply (mean_err lm (fun r : answer * answer => @acc_num (Fops lm) (fst r) : f32) (fun r => acc_of (fst r)) _ D rs L Ha HD).
    apply Forall_forall. intros r Hr. rewrite Forall_forall in HF, HB. destruct (acc_ok _ (proj1 (HB r Hr))) as (H1 & H2 & H3).
    split; [exact H1|]. split; [exact H2|]. split; [exact H3|exact (HF r Hr)]. }
  assert (MG : forall D, 0 <= D <= 127 -> Forall (fun r => Rabs (gyro_of (snd r) - B2R (i_gyro s : f32)) <= D) rs ->
    is_finite (i_gyro s' : f32) = true /\ Rabs (B2R (i_gyro s' : f32) - Rsum (map (fun r => gyro_of (snd r)) rs) / 1000) <= D / 16384 + 1 / 32768).
  { intros D HD HF. rewrite Eg. apply (mean_err lm (fun r : answer * answer => @gyro_num (Fops lm) (snd r) : f32) (fun r => gyro_of (snd r)) _ D rs L Hg HD).
    apply Forall_forall. intros r Hr. rewrite Forall_forall in HF, HB. destruct (gyr_ok _ (proj2 (HB r Hr))) as (H1 & H2 & H3).
    split; [exact H1|]. split; [exact H2|]. split; [exact H3|exact (HF r Hr)]. }
  split; [|split].
  - apply (MA 127); [lra|]. eapply Forall_impl; [|exact HB]. intros r [H _]. destruct (acc_ok _ H) as (_ & _ & H3). apply Rabs_le_inv in H3. destruct Ha as [_ Ha]. apply Rabs_le; lra.
  - apply (MG 127); [lra|]. eapply Forall_impl; [|exact HB]. intros r [_ H]. destruct (gyr_ok _ H) as (_ & _ & H3). apply Rabs_le_inv in H3. destruct Hg as [_ Hg]. apply Rabs_le; lra.
  - intros D HD. split; intros HF; [exact (proj2 (MA D HD HF))|exact (proj2 (MG D HD HF))].
Qed.

(** offsets are moderate. *)
Definition mild (s : imu B) : Prop := btw (-48) 48 (i_accel s : f32) /\ btw (-48) 48 (i_gyro s : f32).

Lemma calib_mild fuel (s s' : imu B) : mild s -> calibrate env fuel s = (Val (Some tt), s') -> mild s'.
Proof.
  intros [Ha Hg] E. destruct (calib_f fuel s s' Ha Hg E) as (rs & L & HB & _ & Fa & Fg & M). specialize (M 127 ltac:(lra)). destruct M as [MA MG].
  assert (LR : INR (length rs) = 1000) by (rewrite L, INR_IZR_INZ, Z2Nat.id by lia; reflexivity).
  split.
  - split; [exact Fa|]. destruct Ha as [_ Ha].
    assert (H1 : Forall (fun r => Rabs (acc_of (fst r) - B2R (i_accel s : f32)) <= 127) rs).
    { eapply Forall_impl; [|exact HB]. intros r [H _]. destruct (acc_ok _ H) as (_ & _ & H3). apply Rabs_le_inv in H3. apply Rabs_le; lra. }
    specialize (MA H1). apply Rabs_le_inv in MA.
    assert (H2 : Rabs (Rsum (map (fun r => acc_of (fst r)) rs) - INR (length rs) * 0) <= INR (length rs) * 35).
    { apply Rsum_bound. eapply Forall_impl; [|exact HB]. intros r [H _]. destruct (acc_ok _ H) as (_ & _ & H3). rewrite Rminus_0_r. exact H3. }
    rewrite LR in H2. apply Rabs_le_inv in H2. lra.
  - split; [exact Fg|]. destruct Hg as [_ Hg].
    assert (H1 : Forall (fun r => Rabs (gyro_of (snd r) - B2R (i_gyro s : f32)) <= 127) rs).
    { eapply Forall_impl; [|exact HB]. intros r [_ H]. destruct (gyr_ok _ H) as (_ & _ & H3). apply Rabs_le_inv in H3. apply Rabs_le; lra. }
    specialize (MG H1). apply Rabs_le_inv in MG.
    assert (H2 : Rabs (Rsum (map (fun r => gyro_of (snd r)) rs) - INR (length rs) * 0) <= INR (length rs) * 35).
    { apply Rsum_bound. eapply Forall_impl; [|exact HB]. intros r [_ H]. destruct (gyr_ok _ H) as (_ & _ & H3). rewrite Rminus_0_r. exact H3. }
    rewrite LR in H2. apply Rabs_le_inv in H2. lra.
Qed.

Lemma same_mild (s s' : imu B) : i_accel s' = i_accel s -> i_gyro s' = i_gyro s -> mild s -> mild s'.
Proof. unfold mild. intros -> ->. exact (fun H => H). Qed.

Lemma pin_mild h : pres mild (pin_set env h).
Proof.
  intros s H. pose proof (pin_state env h s) as P. destruct (pin_set env h s) as [r s']. destruct P as (_ & A & G & _). exact (same_mild s s' A G H).
Qed.

Lemma transfer_mild buf : pres mild (transfer env buf).
Proof. intros s H. unfold transfer. destruct (e_transfer env (i_bus s) buf). exact H. Qed.

Lemma timer_mild : pres mild (timer_wait env).
Proof. intros s H. unfold timer_wait. destruct (e_timer env (i_bus s)). exact H. Qed.

Lemma write_mild a d : pres mild (write_to_register env a d).
Proof.
  apply pres_bind; [apply pin_mild|]. intros [[]|]; [|apply pres_ret]. apply pres_bind; [apply transfer_mild|intros r].
  apply pres_bind; [apply pin_mild|]. intros [[]|]; apply pres_ret.
Qed.

Lemma read_mild a n : pres mild (read_from_registers env a n).
Proof.
  apply pres_bind; [apply pin_mild|]. intros [[]|]; [|apply pres_ret]. apply pres_bind; [apply transfer_mild|intros r].
  apply pres_bind; [apply pin_mild|]. intros [[]|]; apply pres_ret.
Qed.

Lemma calibrate_mild fuel : pres mild (calibrate env fuel).
Proof.
  intros s H. destruct (calibrate env fuel s) as [r s'] eqn:E. cbn [snd].
  assert (C : r = Val (Some tt) \/ r <> Val (Some tt)).
  { destruct r as [[[]|]| |]; [left; reflexivity|right; discriminate|right; discriminate|right; discriminate]. }
  destruct C as [->|C]; [exact (calib_mild fuel s s' H E)|].
  pose proof (calibrate_fail env fuel s) as Q. rewrite E in Q. cbn [fst snd] in Q. destruct (Q C) as [A G]. exact (same_mild s s' A G H).
Qed.

Lemma zero_mild : pres mild (@set_offsets (Fops lm) B n0 n0).
Proof.
  intros s _. unfold set_offsets, mild. cbn [snd i_accel i_gyro].
  assert (Z : btw (-48) 48 (f32_div (f32_of_Z 0) (f32_of_Z 1))).
  { change (f32_div (f32_of_Z 0) (f32_of_Z 1)) with (B754_zero false : f32). split; [reflexivity|]. cbn [B2R]. lra. }
  split; exact Z.
Qed.

Lemma calls_mild fuel cs : pres mild (imu_calls env fuel cs).
Proof.
  induction cs as [|c cs IH]; cbn [imu_calls]; [apply pres_ret|]. apply pres_bind; [|intros _; exact IH].
  destruct c; cbn [imu_do].
  - unfold imu_init. repeat (apply pres_bind; [first [apply pres_wait, write_mild|apply zero_mild|apply pres_wait, calibrate_mild|idtac]|intros _]).
    + apply pres_wait, pres_block. apply pres_bind; [apply read_mild|].
      intros [l|]; [|apply pres_ret]. apply pres_bind; [apply pres_at|intros v]. apply pres_ret.
    + apply pres_wait, calibrate_mild.
  - apply pres_bind; [apply calibrate_mild|intros _; apply pres_ret].
  - apply pres_bind; [apply (pres_gyro env mild read_mild)|intros _; apply pres_ret].
  - apply pres_bind; [apply (pres_accel env mild read_mild)|intros _; apply pres_ret].
Qed.
End Imu.
