(** The inertial sensor in binary32. *)
From Coq Require Import ZArith Reals List Bool Lia Lra.
From Flocq Require Import Core BinarySingleNaN.
From Verif Require Import Base Num NumLemmas SensorsModel SensorsProofs SensorsProofs2 SensorsProofs3 FloatMag FloatRange FloatMoveSpec
  EstFloat SimFloat ImuFloat ImuFloat2 PropsSensors.
Import ListNotations.
Open Scope R_scope.

(** both offsets are numbers from -48 to 48. *)
Definition mild_offsets {lm : libm} {B} (s : @imu (Fops lm) B) : Prop :=
  within (-48) 48 (i_accel s : f32) /\ within (-48) 48 (i_gyro s : f32).

(** ** C111: the new offset is the mean of the 1000 readings, up to D/16384 + 2^-15, where D is the largest
    distance of a reading from the old offset. *)
Theorem C111_calibrate lm {B} (env : spi_env B) fuel (s s' : @imu (Fops lm) B) :
  (forall b buf f b', e_transfer env b buf = (Some f, b') -> forall i, (0 <= f i < 256)%Z) ->
  mild_offsets s -> calibrate env fuel s = (Val (Some tt), s') ->
  exists rs, length rs = Z.to_nat 1000 /\ i_log s' = rev (entries rs) ++ i_log s /\
    is_finite (i_accel s' : f32) = true /\ is_finite (i_gyro s' : f32) = true /\
    forall D, 0 <= D <= 127 ->
    (Forall (fun r => Rabs (acc_of (fst r) - B2R (i_accel s : f32)) <= D) rs ->
      Rabs (B2R (i_accel s' : f32) - Rsum (map (fun r => acc_of (fst r)) rs) / 1000) <= D / 16384 + 1 / 32768) /\
    (Forall (fun r => Rabs (gyro_of (snd r) - B2R (i_gyro s : f32)) <= D) rs ->
      Rabs (B2R (i_gyro s' : f32) - Rsum (map (fun r => gyro_of (snd r)) rs) / 1000) <= D / 16384 + 1 / 32768).
Proof.
  intros He [Ha Hg] E. destruct (calib_f lm env He fuel s s' Ha Hg E) as (rs & L & _ & Lg & Fa & Fg & M). exists rs. auto 8.
Qed.
Print Assumptions C111_calibrate.

(** After any calls, finished or not, the offsets are numbers from -48 to 48, and every angular velocity and
    acceleration is within 2^-15 of the value converted from the transferred bytes minus the offset. *)
Theorem C111_bounded lm {B} (env : spi_env B) fuel cs (s : @imu (Fops lm) B) :
  (forall b buf f b', e_transfer env b buf = (Some f, b') -> forall i, (0 <= f i < 256)%Z) ->
  mild_offsets s ->
  let s1 := snd (imu_calls env fuel cs s) in
  mild_offsets s1 /\
  (forall w s2, angular_velocity env s1 = (Val (NOk w), s2) ->
    exists r, i_log s2 = read_entry 55 r :: i_log s1 /\
      within (-84) 84 w /\ Rabs (B2R (w : f32) - (gyro_of r - B2R (i_gyro s1 : f32))) <= 1 / 32768) /\
  (forall w s2, translational_acceleration env s1 = (Val (NOk w), s2) ->
    exists r, i_log s2 = read_entry 47 r :: i_log s1 /\
      within (-84) 84 w /\ Rabs (B2R (w : f32) - (acc_of r - B2R (i_accel s1 : f32))) <= 1 / 32768).
Proof.
  intros He Hs. cbv zeta. pose proof (calls_mild lm env He fuel cs s Hs) as H1. set (s1 := snd (imu_calls env fuel cs s)) in *. clearbody s1.
  split; [exact H1|]. pose proof eta_small as Q. unfold ee in Q. destruct H1 as [[Fa Ha] [Fg Hg]].
  assert (S : forall (x o : f32) q, is_finite x = true -> Rabs (B2R x - q) <= 1 / 65536 -> Rabs q <= 35 -> is_finite o = true -> -48 <= B2R o <= 48 ->
    within (-84) 84 (Bminus mode_NE x o) /\ Rabs (B2R (Bminus mode_NE x o) - (q - B2R o)) <= 1 / 32768).
  { intros x o q Fx Hx Hq Fo Ho. apply Rabs_le_inv in Hx. apply Rabs_le_inv in Hq.
    assert (X : Rabs (B2R x - B2R o) <= 84) by (apply Rabs_le; lra).
    destruct (rnd_sub x o Fx Fo) as [F H]; [apply big100; lra|].
    assert (H' : Rabs (B2R (Bminus mode_NE x o) - (B2R x - B2R o)) <= 84 * / 16777216 + eta) by (apply Rle_trans with (1 := H); unfold ee; lra).
    apply Rabs_le_inv in H'. split; [split; [exact F|lra]|apply Rabs_le; lra]. }
  split; intros w s2 E.
  - apply (g_gyro1 env He) in E. destruct E as (r & Hb & L & _ & _ & ->). exists r. split; [exact L|].
    destruct (gyr_ok lm r Hb) as (F & H1 & H2). exact (S _ _ _ F H1 H2 Fg Hg).
  - apply (g_accel1 env He) in E. destruct E as (r & Hb & L & _ & _ & ->). exists r. split; [exact L|].
    destruct (acc_ok lm r Hb) as (F & H1 & H2). exact (S _ _ _ F H1 H2 Fa Ha).
Qed.
Print Assumptions C111_bounded.

(** Calibrating twice, as [init] does, removes the rounding error of the first long sum: if the readings of
    both calibrations are within w of some value, the second offset is the mean of the second readings up to
    w/8192 + 1/32000, whatever the offset was before. *)
Theorem C111_twice lm {B} (env : spi_env B) fuel (s s1 s2 : @imu (Fops lm) B) :
  (forall b buf f b', e_transfer env b buf = (Some f, b') -> forall i, (0 <= f i < 256)%Z) ->
  mild_offsets s -> calibrate env fuel s = (Val (Some tt), s1) -> calibrate env fuel s1 = (Val (Some tt), s2) ->
  exists rs1 rs2, length rs1 = Z.to_nat 1000 /\ length rs2 = Z.to_nat 1000 /\
    i_log s2 = rev (entries (rs1 ++ rs2)) ++ i_log s /\
    forall c w, 0 <= w <= 60 ->
    (Forall (fun r => Rabs (acc_of (fst r) - c) <= w) (rs1 ++ rs2) ->
      Rabs (B2R (i_accel s2 : f32) - Rsum (map (fun r => acc_of (fst r)) rs2) / 1000) <= w / 8192 + 1 / 32000) /\
    (Forall (fun r => Rabs (gyro_of (snd r) - c) <= w) (rs1 ++ rs2) ->
      Rabs (B2R (i_gyro s2 : f32) - Rsum (map (fun r => gyro_of (snd r)) rs2) / 1000) <= w / 8192 + 1 / 32000).
Proof.
  intros He Hs E1 E2. pose proof (calib_mild lm env He fuel s s1 Hs E1) as Hs1. destruct Hs as [Ha Hg]. destruct Hs1 as [Ha1 Hg1].
  destruct (calib_f lm env He fuel s s1 Ha Hg E1) as (rs1 & L1 & B1 & Lg1 & _ & _ & M1).
  destruct (calib_f lm env He fuel s1 s2 Ha1 Hg1 E2) as (rs2 & L2 & B2 & Lg2 & _ & _ & M2).
  exists rs1, rs2. split; [exact L1|]. split; [exact L2|].
  split. { rewrite Lg2, Lg1. unfold entries. rewrite flat_map_app, rev_app_distr, app_assoc. reflexivity. }
  assert (LR : INR (length rs1) = 1000) by (rewrite L1, INR_IZR_INZ, Z2Nat.id by lia; reflexivity).
  specialize (M1 127 ltac:(lra)). destruct M1 as [MA MG]. destruct Ha as [_ Ha]. destruct Hg as [_ Hg].
  intros c w Hw. specialize (M2 (2 * w + 1 / 127) ltac:(lra)). destruct M2 as [NA NG].
  split; intros HF; apply Forall_app in HF; destruct HF as [HF1 HF2].
  - assert (Q : Rabs (B2R (i_accel s1 : f32) - Rsum (map (fun r => acc_of (fst r)) rs1) / 1000) <= 127 / 16384 + 1 / 32768).
    { apply MA. eapply Forall_impl; [|exact B1]. intros r [H _]. destruct (acc_ok lm _ H) as (_ & _ & H3). apply Rabs_le_inv in H3. apply Rabs_le; lra. }
    pose proof (Rsum_bound _ c w rs1 HF1) as R. rewrite LR in R. apply Rabs_le_inv in R. apply Rabs_le_inv in Q.
    assert (N : Rabs (B2R (i_accel s2 : f32) - Rsum (map (fun r => acc_of (fst r)) rs2) / 1000) <= (2 * w + 1 / 127) / 16384 + 1 / 32768).
    { apply NA. eapply Forall_impl; [|exact HF2]. intros r H. apply Rabs_le_inv in H. apply Rabs_le; lra. }
    lra.
  - assert (Q : Rabs (B2R (i_gyro s1 : f32) - Rsum (map (fun r => gyro_of (snd r)) rs1) / 1000) <= 127 / 16384 + 1 / 32768).
    { apply MG. eapply Forall_impl; [|exact B1]. intros r [_ H]. destruct (gyr_ok lm _ H) as (_ & _ & H3). apply Rabs_le_inv in H3. apply Rabs_le; lra. }
    pose proof (Rsum_bound _ c w rs1 HF1) as R. rewrite LR in R. apply Rabs_le_inv in R. apply Rabs_le_inv in Q.
    assert (N : Rabs (B2R (i_gyro s2 : f32) - Rsum (map (fun r => gyro_of (snd r)) rs2) / 1000) <= (2 * w + 1 / 127) / 16384 + 1 / 32768).
    { apply NG. eapply Forall_impl; [|exact HF2]. intros r H. apply Rabs_le_inv in H. apply Rabs_le; lra. }
    lra.
Qed.
Print Assumptions C111_twice.

(** a bus with changing answers: a calibration from offsets 0 succeeds, and a second one after it. *)
Example C111_case :
  (forall b buf f b', e_transfer ex_env_ok b buf = (Some f, b') -> forall i, (0 <= f i < 256)%Z) /\
  let s := @Imu (Fops libm0) Z 0%Z true [] (B754_zero false : f32) (B754_zero false : f32) in
  mild_offsets s /\ exists s1 s2, calibrate ex_env_ok 3 s = (Val (Some tt), s1) /\ calibrate ex_env_ok 3 s1 = (Val (Some tt), s2).
Proof.
  split; [exact (proj1 C63_ex)|]. cbv zeta. split.
  { split; (split; [reflexivity|cbn [i_accel i_gyro B2R]; lra]). }
  set (s := @Imu (Fops libm0) Z 0%Z true [] (B754_zero false : f32) (B754_zero false : f32)).
  destruct (calibrate ex_env_ok 3 s) as [r1 s1] eqn:E1.
  assert (R1 : r1 = Val (Some tt)) by (apply (f_equal fst) in E1; cbn [fst] in E1; rewrite <- E1; vm_compute; reflexivity). subst r1.
  exists s1. destruct (calibrate ex_env_ok 3 s1) as [r2 s2] eqn:E2. exists s2. split; [reflexivity|].
  assert (R2 : fst (calibrate ex_env_ok 3 s1) = Val (Some tt)).
  { assert (E3 : s1 = snd (calibrate ex_env_ok 3 s)) by (rewrite E1; reflexivity). rewrite E3. vm_compute. reflexivity. }
  rewrite E2 in R2. cbn [fst] in R2. rewrite R2. exact E2 || reflexivity.
Qed.
