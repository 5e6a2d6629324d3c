(** The inertial sensor in binary32. *)
From Coq Require Import ZArith Reals List Bool Lia Lra.
From Flocq Require Import Core Relative BinarySingleNaN.
From Verif Require Import Base Num NumLemmas SensorsModel SensorsProofs SensorsProofs2 SensorsProofs3 FloatMag FloatRange FloatMoveSpec
  JerkProofs FloatMove FloatMove2 EstFloat EstFloat2 SimFloat.
Import ListNotations.
Open Scope Z_scope.

(** ** The driver over any numbers *)
Section Gen.
  Context {K : ops} {B : Type} (env : spi_env B) (Henv : bytes_env env).

  Definition acc_num (r : answer) : num := let '(_, h, l) := r in opp (raw_to_accel (be16 h l)).
  Definition gyro_num (r : answer) : num := let '(_, h, l) := r in raw_to_gyro (be16 h l).
  (** the two data bytes of an answer are bytes. *)
  Definition byte_answer (r : answer) : Prop := let '(_, h, l) := r in is_byte h /\ is_byte l.

  Lemma g_read3 reg (s : imu B) l s' : 0 <= reg < 128 ->
    read_from_registers env reg 3 s = (Val (Some l), s') ->
    exists x h lo, l = [h; lo] /\ is_byte h /\ is_byte lo /\ i_log s' = read_entry reg (x, h, lo) :: i_log s /\
      i_accel s' = i_accel s /\ i_gyro s' = i_gyro s.
  Proof.
    intros Hreg. unfold read_from_registers, assert_cs, deassert_cs, mbind.
    pose proof (pin_state env false s) as P0. destruct (pin_set env false s) as [r0 s0].
    destruct P0 as (L0 & A0 & G0 & o & -> & Hh). destruct o as [[]|]; [|discriminate]. specialize (Hh eq_refl).
    unfold transfer. set (buf := Z.lor reg 128 :: repeat 0 (3 - 1)).
    destruct (e_transfer env (i_bus s0) buf) as [tr b] eqn:Et.
    set (s1 := Imu _ _ _ _ _). pose proof (pin_state env true s1) as P1.
    destruct (pin_set env true s1) as [r1 s2]. destruct P1 as (L1 & A1 & G1 & o & -> & _).
    destruct o as [[]|]; [|discriminate]. destruct tr as [f|]; [|discriminate].
    cbn [mret]. intros E. injection E as <- <-.
    exists (f 0%nat), (f 1%nat), (f 2%nat). split; [reflexivity|].
    specialize (Henv _ _ _ _ Et). split; [apply Henv|]. split; [apply Henv|].
    split; [|split; [rewrite A1; exact A0|rewrite G1; exact G0]].
    rewrite L1. unfold s1. cbn [i_log]. rewrite L0, Hh. unfold read_entry, buf.
    replace (Z.lor reg 128) with (reg + 128); [reflexivity|].
    assert (E : Z.land reg 128 = 0).
    { apply Z.bits_inj'; intros n Hn; rewrite Z.land_spec, Z.bits_0.
      change 128 with (2 ^ 7); rewrite Z.pow2_bits_eqb by lia.
      destruct (Z.eqb_spec 7 n); [|apply andb_false_r]; subst.
      rewrite andb_true_r; destruct (Z.eq_dec reg 0) as [->|]; [reflexivity|].
      apply Z.bits_above_log2; [lia|apply Z.log2_lt_pow2; lia]. }
    rewrite <- (Z.lxor_lor _ _ E), <- (Z.add_nocarry_lxor _ _ E). reflexivity.
  Qed.

  Lemma g_accel1 (s : imu B) a s' : translational_acceleration env s = (Val (NOk a), s') ->
    exists r, byte_answer r /\ i_log s' = read_entry 47 r :: i_log s /\ i_accel s' = i_accel s /\ i_gyro s' = i_gyro s /\
      a = sub (acc_num r) (i_accel s).
  Proof.
    unfold translational_acceleration. unfold mbind at 1. destruct (read_from_registers env 47 3 s) as [[[l|]| |] s1] eqn:E; try discriminate.
    apply g_read3 in E; [|lia]. destruct E as (x & h & lo & -> & Hh & Hl & E1 & E2 & E3).
    cbn [at_index nth_error mbind mret get_accel]. intros E. injection E as <- <-. exists (x, h, lo). split; [split; assumption|]. split; [exact E1|].
    split; [exact E2|]. split; [exact E3|]. unfold acc_num. rewrite (connect_be16 h lo Hh Hl), E2. reflexivity.
  Qed.

  Lemma g_gyro1 (s : imu B) a s' : angular_velocity env s = (Val (NOk a), s') ->
    exists r, byte_answer r /\ i_log s' = read_entry 55 r :: i_log s /\ i_accel s' = i_accel s /\ i_gyro s' = i_gyro s /\
      a = sub (gyro_num r) (i_gyro s).
  Proof.
    unfold angular_velocity. unfold mbind at 1. destruct (read_from_registers env 55 3 s) as [[[l|]| |] s1] eqn:E; try discriminate.
    apply g_read3 in E; [|lia]. destruct E as (x & h & lo & -> & Hh & Hl & E1 & E2 & E3).
    cbn [at_index nth_error mbind mret get_gyro]. intros E. injection E as <- <-. exists (x, h, lo). split; [split; assumption|]. split; [exact E1|].
    split; [exact E2|]. split; [exact E3|]. unfold gyro_num. rewrite (connect_be16 h lo Hh Hl), E3. reflexivity.
  Qed.

  Lemma g_accel fuel (s : imu B) a s' : block fuel (translational_acceleration env) s = (Val (Some a), s') ->
    exists r, byte_answer r /\ i_log s' = read_entry 47 r :: i_log s /\ i_accel s' = i_accel s /\ i_gyro s' = i_gyro s /\
      a = sub (acc_num r) (i_accel s).
  Proof.
    destruct fuel as [|n]; [discriminate|]. cbn [block]. unfold mbind at 1.
    destruct (translational_acceleration env s) as [[[x| |]| |] s1] eqn:E; try discriminate.
    - cbn [mret]. intros H. injection H as <- <-. exact (g_accel1 _ _ _ E).
    - exfalso. unfold translational_acceleration in E. unfold mbind at 1 in E.
      destruct (read_from_registers env 47 3 s) as [[[l|]| |] s2] eqn:E2; try discriminate.
      apply g_read3 in E2; [|lia]. destruct E2 as (x & h & lo & -> & _). cbn in E. discriminate.
  Qed.

  Lemma g_gyro fuel (s : imu B) a s' : block fuel (angular_velocity env) s = (Val (Some a), s') ->
    exists r, byte_answer r /\ i_log s' = read_entry 55 r :: i_log s /\ i_accel s' = i_accel s /\ i_gyro s' = i_gyro s /\
      a = sub (gyro_num r) (i_gyro s).
  Proof.
    destruct fuel as [|n]; [discriminate|]. cbn [block]. unfold mbind at 1.
    destruct (angular_velocity env s) as [[[x| |]| |] s1] eqn:E; try discriminate.
    - cbn [mret]. intros H. injection H as <- <-. exact (g_gyro1 _ _ _ E).
    - exfalso. unfold angular_velocity in E. unfold mbind at 1 in E.
      destruct (read_from_registers env 55 3 s) as [[[l|]| |] s2] eqn:E2; try discriminate.
      apply g_read3 in E2; [|lia]. destruct E2 as (x & h & lo & -> & _). cbn in E. discriminate.
  Qed.

  Lemma g_timer fuel (s : imu B) o s' : block fuel (timer_wait env) s = (o, s') ->
    i_log s' = i_log s /\ i_accel s' = i_accel s /\ i_gyro s' = i_gyro s.
  Proof.
    revert s. induction fuel as [|n IH]; intros s E; cbn [block] in E.
    - injection E as <- <-. auto.
    - unfold mbind at 1 in E. unfold timer_wait at 1 in E. destruct (e_timer env (i_bus s)) as [[] b].
      + cbn in E. injection E as <- <-. cbn. auto.
      + apply IH in E. exact E.
  Qed.

  (** the sum of the differences to [o], in the order of the code. *)
  Fixpoint diffs (o : num) (xs : list num) (sum : num) : num :=
    match xs with [] => sum | x :: xs' => diffs o xs' (add sum (sub x o)) end.

  Lemma g_loop fuel n : forall sa sg (s : imu B) a g s',
    calib_loop env n fuel sa sg s = (Val (Some (a, g)), s') ->
    exists rs, length rs = n /\ Forall (fun r => byte_answer (fst r) /\ byte_answer (snd r)) rs /\
      i_log s' = rev (entries rs) ++ i_log s /\ i_accel s' = i_accel s /\ i_gyro s' = i_gyro s /\
      a = diffs (i_accel s) (map (fun r => acc_num (fst r)) rs) sa /\
      g = diffs (i_gyro s) (map (fun r => gyro_num (snd r)) rs) sg.
  Proof.
    induction n as [|n IH]; intros sa sg s a g s' E; cbn [calib_loop] in E.
    - injection E as <- <- <-. exists []. cbn. repeat split; auto.
    - unfold mbind at 1 in E.
      destruct (block fuel (translational_acceleration env) s) as [[[a1|]| |] s1] eqn:E1; try discriminate.
      apply g_accel in E1. destruct E1 as (ra & B1 & L1 & A1 & G1 & ->).
      unfold mbind at 1 in E.
      destruct (block fuel (angular_velocity env) s1) as [[[g1|]| |] s2] eqn:E2; try discriminate.
      apply g_gyro in E2. destruct E2 as (rg & B2 & L2 & A2 & G2 & ->).
      unfold mbind at 1 in E.
      destruct (block fuel (timer_wait env) s2) as [[o| |] s3] eqn:E3; try discriminate.
      apply g_timer in E3. destruct E3 as (L3 & A3 & G3).
      apply IH in E. destruct E as (rs & Hl & Hb & L & A & G & Ea & Eg).
      exists ((ra, rg) :: rs). split; [cbn; lia|]. split; [constructor; [split; assumption|exact Hb]|].
      split.
      { unfold entries in *. cbn [flat_map]. rewrite rev_app_distr, L, L3, L2, L1, <- app_assoc. reflexivity. }
      split; [congruence|]. split; [congruence|].
      rewrite A3, A2, A1 in Ea. rewrite G3, G2, G1 in Eg. cbn [map diffs fst snd]. split; assumption.
  Qed.

  Lemma g_calibrate fuel (s s' : imu B) : calibrate env fuel s = (Val (Some tt), s') ->
    exists rs, length rs = Z.to_nat CALIBRATION_NUM /\ Forall (fun r => byte_answer (fst r) /\ byte_answer (snd r)) rs /\
      i_log s' = rev (entries rs) ++ i_log s /\
      i_accel s' = add (i_accel s) (div (diffs (i_accel s) (map (fun r => acc_num (fst r)) rs) n0) (of_int CALIBRATION_NUM)) /\
      i_gyro s' = add (i_gyro s) (div (diffs (i_gyro s) (map (fun r => gyro_num (snd r)) rs) n0) (of_int CALIBRATION_NUM)).
  Proof.
    unfold calibrate, mbind at 1.
    destruct (calib_loop env (Z.to_nat CALIBRATION_NUM) fuel n0 n0 s) as [[[[a g]|]| |] s1] eqn:E; try discriminate.
    apply g_loop in E. destruct E as (rs & Hl & Hb & L & A & G & -> & ->).
    unfold mbind, get_accel, get_gyro, set_offsets. intros E. injection E as <-. cbn [i_log i_accel i_gyro].
    exists rs. split; [exact Hl|]. split; [exact Hb|]. split; [exact L|]. rewrite A, G. split; reflexivity.
  Qed.
End Gen.

(** ** Binary32 *)
Open Scope R_scope.

(** a rounded value [y] of [x]. *)
Lemma rnd_mul (x y : f32) : is_finite x = true -> is_finite y = true -> Rabs (B2R x * B2R y) <= bpow radix2 100 ->
  is_finite (Bmult mode_NE x y) = true /\ Rabs (B2R (Bmult mode_NE x y) - B2R x * B2R y) <= Rabs (B2R x * B2R y) * ee + eta.
Proof.
  intros Fx Fy H. destruct (mult_ok x y Fx Fy) as [E F]; [apply (rnd_top _ 100); [lia|exact H]|]. split; [exact F|]. rewrite E. apply rnd_off.
Qed.
Lemma rnd_add (x y : f32) : is_finite x = true -> is_finite y = true -> Rabs (B2R x + B2R y) <= bpow radix2 100 ->
  is_finite (Bplus mode_NE x y) = true /\ Rabs (B2R (Bplus mode_NE x y) - (B2R x + B2R y)) <= Rabs (B2R x + B2R y) * ee + eta.
Proof.
  intros Fx Fy H. destruct (plus_ok x y Fx Fy) as [E F]; [apply (rnd_top _ 100); [lia|exact H]|]. split; [exact F|]. rewrite E. apply rnd_off.
Qed.
Lemma rnd_sub (x y : f32) : is_finite x = true -> is_finite y = true -> Rabs (B2R x - B2R y) <= bpow radix2 100 ->
  is_finite (Bminus mode_NE x y) = true /\ Rabs (B2R (Bminus mode_NE x y) - (B2R x - B2R y)) <= Rabs (B2R x - B2R y) * ee + eta.
Proof.
  intros Fx Fy H. destruct (minus_ok x y Fx Fy) as [E F]; [apply (rnd_top _ 100); [lia|exact H]|]. split; [exact F|]. rewrite E. apply rnd_off.
Qed.
Lemma rnd_div (x y : f32) : is_finite x = true -> is_finite y = true -> B2R y <> 0 -> Rabs (B2R x / B2R y) <= bpow radix2 100 ->
  is_finite (f32_div x y) = true /\ Rabs (B2R (f32_div x y) - B2R x / B2R y) <= Rabs (B2R x / B2R y) * ee + eta.
Proof.
  intros Fx Fy Ny H. destruct (div_ok x y Fx Ny) as [E F]; [apply (rnd_top _ 100); [lia|exact H]|]. split; [exact F|]. rewrite E. apply rnd_off.
Qed.

Lemma big100 x : Rabs x <= 1073741824 -> Rabs x <= bpow radix2 100.
Proof. intros H. apply Rle_trans with (1 := H). change 1073741824 with (bpow radix2 30). apply bpow_le. lia. Qed.

Lemma ten10 : B2R (f32_of_Z 10000000000) = 10000000000 /\ is_finite (f32_of_Z 10000000000) = true.
Proof.
  unfold f32_of_Z. pose proof (binary_normalize_correct 24 128 prec32 emax32 mode_NE 10000000000 0 false) as C. cbv zeta in C.
  assert (V : F2R (Float radix2 10000000000 0) = 10000000000) by (unfold F2R; cbn [Fnum Fexp]; change (bpow radix2 0) with 1; lra).
  rewrite V in C. rewrite round_generic in C; [|apply valid_rnd_N|].
  2:{ apply generic_format_FLT. exists (Float radix2 9765625 10); [|reflexivity|vm_compute; discriminate]. unfold F2R. cbn [Fnum Fexp]. change (bpow radix2 10) with 1024. lra. }
  rewrite Rlt_bool_true in C.
  - destruct C as (C1 & C2 & _). split; [exact C1|exact C2].
  - rewrite Rabs_pos_eq by lra. apply Rlt_le_trans with (bpow radix2 40); [change (bpow radix2 40) with 1099511627776; lra|apply bpow_le; lia].
Qed.

Lemma be16_range h l : is_byte h -> is_byte l -> -32768 <= IZR (be16 h l) <= 32768.
Proof.
  unfold is_byte, be16. cbv zeta. intros Hh Hl. destruct (Z.ltb_spec (256 * h + l) 32768); split; apply IZR_le; lia.
Qed.

Ltac absb H := apply Rabs_le_inv in H.

Lemma abs_mul a b x y : Rabs x <= a -> Rabs y <= b -> Rabs (x * y) <= a * b.
Proof. intros Hx Hy. rewrite Rabs_mult. apply Rmult_le_compat; try apply Rabs_pos; assumption. Qed.

Lemma sym_abs a x : Rabs x <= a -> - a <= x <= a.
Proof. apply Rabs_le_inv. Qed.

Lemma int_conv v : Rabs (IZR v) <= 32768 -> B2R (f32_of_Z v) = IZR v /\ is_finite (f32_of_Z v) = true.
Proof. intros H. apply f32_of_Z_exact. rewrite <- abs_IZR in H. apply le_IZR in H. lia. Qed.

Section Conv.
Variable lm : libm.
#[local] Hint Extern 0 ops => exact (Fops lm) : typeclass_instances.

Lemma accel_conv (v : Z) : Rabs (IZR v) <= 32768 ->
  is_finite (@raw_to_accel (Fops lm) v : f32) = true /\ Rabs (B2R (@raw_to_accel (Fops lm) v : f32) - 5985504 / 10000000000 * IZR v) <= 1 / 131072.
Proof.
  intros Hv. unfold raw_to_accel. cbn [lit mul of_int Fops]. destruct (int_conv v Hv) as [Ev Fv]. destruct ten10 as [Et Ft].
  destruct (f32_of_Z_exact 5985504 ltac:(lia)) as [En Fn]. pose proof eta_small as He.
  destruct (rnd_div (f32_of_Z 5985504) (f32_of_Z 10000000000) Fn Ft) as [FL BL].
  { rewrite Et. lra. } { rewrite En, Et. apply big100. rewrite Rabs_pos_eq; lra. }
  set (L := f32_div (f32_of_Z 5985504) (f32_of_Z 10000000000)) in *. clearbody L. rewrite En, Et in BL. rewrite (Rabs_pos_eq (5985504 / 10000000000)) in BL by lra.
  assert (B1 : Rabs (B2R L - 5985504 / 10000000000) <= 1 / 20000000000) by (apply Rle_trans with (1 := BL); unfold ee in *; lra).
  pose proof (abs_mul _ _ _ _ B1 Hv) as B2. pose proof (sym_abs _ _ B1) as B1'. 
  assert (B3 : Rabs (B2R L * IZR v) <= 20).
  { apply Rle_trans with (6 / 10000 * 32768); [|lra]. apply abs_mul; [apply Rabs_le; lra|exact Hv]. }
  destruct (rnd_mul L (f32_of_Z v) FL Fv) as [F4 B4]; [rewrite Ev; apply big100; lra|]. rewrite Ev in B4.
  set (p := Bmult mode_NE L (f32_of_Z v)) in *. clearbody p. split; [exact F4|].
  replace (B2R p - 5985504 / 10000000000 * IZR v) with ((B2R p - B2R L * IZR v) + (B2R L - 5985504 / 10000000000) * IZR v) by ring.
  apply Rle_trans with (1 := Rabs_triang _ _). unfold ee in *. lra.
Qed.

Lemma gyro_conv (v : Z) : Rabs (IZR v) <= 32768 ->
  is_finite (@raw_to_gyro (Fops lm) v : f32) = true /\ Rabs (B2R (@raw_to_gyro (Fops lm) v : f32) - 10642251 / 10000000000 * IZR v * (99 / 100)) <= 1 / 65536.
Proof.
  intros Hv. unfold raw_to_gyro. cbn [lit mul of_int Fops]. destruct (int_conv v Hv) as [Ev Fv]. destruct ten10 as [Et Ft].
  destruct (f32_of_Z_exact 10642251 ltac:(lia)) as [En Fn]. destruct (f32_of_Z_exact 99 ltac:(lia)) as [E9 F9]. destruct (f32_of_Z_exact 100 ltac:(lia)) as [Eh Fh].
  pose proof eta_small as He.
  destruct (rnd_div (f32_of_Z 10642251) (f32_of_Z 10000000000) Fn Ft) as [FL BL].
  { rewrite Et. lra. } { rewrite En, Et. apply big100. rewrite Rabs_pos_eq; lra. }
  set (L := f32_div (f32_of_Z 10642251) (f32_of_Z 10000000000)) in *. clearbody L. rewrite En, Et in BL. rewrite (Rabs_pos_eq (10642251 / 10000000000)) in BL by lra.
  assert (B1 : Rabs (B2R L - 10642251 / 10000000000) <= 1 / 15000000000) by (apply Rle_trans with (1 := BL); unfold ee in *; lra).
  destruct (rnd_div (f32_of_Z 99) (f32_of_Z 100) F9 Fh) as [FC BC].
  { rewrite Eh. lra. } { rewrite E9, Eh. apply big100. rewrite Rabs_pos_eq; lra. }
  set (C := f32_div (f32_of_Z 99) (f32_of_Z 100)) in *. clearbody C. rewrite E9, Eh in BC. rewrite (Rabs_pos_eq (99 / 100)) in BC by lra.
  assert (C1 : Rabs (B2R C - 99 / 100) <= 1 / 16777216) by (apply Rle_trans with (1 := BC); unfold ee in *; lra).
  pose proof (abs_mul _ _ _ _ B1 Hv) as B2. pose proof (sym_abs _ _ B1) as B1'. pose proof (sym_abs _ _ C1) as C1'.
  assert (B3 : Rabs (B2R L * IZR v) <= 34882 / 1000).
  { apply Rle_trans with (10645 / 10000000 * 32768); [|lra]. apply abs_mul; [apply Rabs_le; lra|exact Hv]. }
  destruct (rnd_mul L (f32_of_Z v) FL Fv) as [F4 B4]; [rewrite Ev; apply big100; lra|]. rewrite Ev in B4.
  set (p := Bmult mode_NE L (f32_of_Z v)) in *. clearbody p.
  assert (D : Rabs (B2R p - 10642251 / 10000000000 * IZR v) <= 43 / 10000000).
  { replace (B2R p - 10642251 / 10000000000 * IZR v) with ((B2R p - B2R L * IZR v) + (B2R L - 10642251 / 10000000000) * IZR v) by ring.
    apply Rle_trans with (1 := Rabs_triang _ _). unfold ee in *. lra. }
  assert (Q : Rabs (10642251 / 10000000000 * IZR v) <= 34873 / 1000).
  { apply Rle_trans with (10642251 / 10000000000 * 32768); [|lra]. apply abs_mul; [rewrite Rabs_pos_eq; lra|exact Hv]. }
  assert (P : Rabs (B2R p) <= 34874 / 1000) by (pose proof (sym_abs _ _ D); pose proof (sym_abs _ _ Q); apply Rabs_le; lra).
  assert (PC : Rabs (B2R p * B2R C) <= 3453 / 100).
  { apply Rle_trans with (34874 / 1000 * (9901 / 10000)); [|lra]. apply abs_mul; [exact P|apply Rabs_le; lra]. }
  destruct (rnd_mul p C F4 FC) as [F5 B5]; [apply big100; lra|].
  set (x := Bmult mode_NE p C) in *. clearbody x. split; [exact F5|].
  pose proof (abs_mul _ _ _ _ P C1) as B6.
  assert (B7 : Rabs ((B2R p - 10642251 / 10000000000 * IZR v) * (99 / 100)) <= 43 / 10000000) .
  { apply Rle_trans with (43 / 10000000 * 1); [|lra]. apply abs_mul; [exact D|rewrite Rabs_pos_eq; lra]. }
  replace (B2R x - 10642251 / 10000000000 * IZR v * (99 / 100)) with ((B2R x - B2R p * B2R C) + (B2R p * (B2R C - 99 / 100) + (B2R p - 10642251 / 10000000000 * IZR v) * (99 / 100))) by ring.
  apply Rle_trans with (1 := Rabs_triang _ _). apply Rle_trans with (1 := Rplus_le_compat_l _ _ _ (Rabs_triang _ _)). unfold ee in *. lra.
Qed.
End Conv.

(** ** The mean *)

(** sum of the exact differences. *)
Definition rdiffs (o : R) (xs : list R) : R := fold_right (fun x s => x - o + s) 0 xs.

Lemma rdiffs_sum o xs : rdiffs o xs = Rsum xs - INR (length xs) * o.
Proof.
  induction xs as [|x xs IH]; [cbn; lra|]. cbn [rdiffs fold_right length]. fold (rdiffs o xs). rewrite IH, S_INR.
  unfold Rsum. cbn [fold_right]. lra.
Qed.

Section Mean.
Variable lm : libm.
Variables (o : f32) (D : R).
Hypothesis HD : 0 <= D <= 128.
Hypothesis Fo : is_finite o = true.

(** error of one addition and its difference. *)
Definition kap : R := D * (598 / 10000000) + 3 * eta.

Lemma kap_small : 0 <= kap <= 1 / 100.
Proof. pose proof eta_small. unfold kap, ee in *. split; nra. Qed.

Lemma diffs_err xs : forall m sum S0, (length xs + m <= 1000)%nat ->
  Forall (fun x : f32 => is_finite x = true /\ Rabs (B2R x - B2R o) <= D) xs ->
  is_finite sum = true -> Rabs (B2R sum - S0) <= INR m * kap -> Rabs S0 <= INR m * D ->
  let t := @diffs (Fops lm) o xs sum : f32 in
  is_finite t = true /\ Rabs (B2R t - (S0 + rdiffs (B2R o) (map (B2R (prec := 24) (emax := 128)) xs))) <= INR (length xs + m) * kap.
Proof.
  pose proof eta_small as He. pose proof kap_small as Hk.
  induction xs as [|x xs IH]; intros m sum S0 L HF Fs Hs HS; cbv zeta.
  - cbn [diffs map rdiffs fold_right length plus]. split; [exact Fs|]. replace (B2R sum - (S0 + 0)) with (B2R sum - S0) by ring. exact Hs.
  - pose proof (Forall_inv HF) as [Fx Hx]. pose proof (Forall_inv_tail HF) as HF'. cbn [length] in L.
    assert (M : 0 <= INR m <= 999). { split; [apply pos_INR|]. rewrite INR_IZR_INZ. apply IZR_le. lia. }
    cbn [diffs map rdiffs fold_right length add sub Fops].
    destruct (rnd_sub x o Fx Fo) as [Fd Bd]; [apply big100; lra|]. set (d := Bminus mode_NE x o) in *. clearbody d.
    assert (Bd' : Rabs (B2R d - (B2R x - B2R o)) <= D * ee + eta) by (apply Rle_trans with (1 := Bd); unfold ee; lra).
    pose proof (sym_abs _ _ Hs) as Hs'. pose proof (sym_abs _ _ HS) as HS'. pose proof (sym_abs _ _ Hx) as Hx'. pose proof (sym_abs _ _ Bd') as Bd''.
    assert (MK : 0 <= INR m * kap <= 999 * kap) by nra. assert (MD : 0 <= INR m * D <= 999 * D) by nra.
    assert (T : Rabs (B2R sum + B2R d) <= 1000 * (D + kap)).
    { apply Rabs_le. unfold kap, ee in *. lra. }
    destruct (rnd_add sum d Fs Fd) as [F1 B1]; [apply big100; lra|]. set (t1 := Bplus mode_NE sum d) in *. clearbody t1.
    assert (B1' : Rabs (B2R t1 - (B2R sum + B2R d)) <= 1000 * (D + kap) * ee + eta) by (apply Rle_trans with (1 := B1); unfold ee; lra).
    pose proof (sym_abs _ _ B1') as B1''.
    specialize (IH (S m) t1 (S0 + (B2R x - B2R o)) ltac:(lia) HF' F1). cbv zeta in IH.
    replace (S (length xs) + m)%nat with (length xs + S m)%nat by lia.
    fold (rdiffs (B2R o) (map (B2R (prec := 24) (emax := 128)) xs)).
    replace (S0 + (B2R x - B2R o + rdiffs (B2R o) (map (B2R (prec := 24) (emax := 128)) xs))) with (S0 + (B2R x - B2R o) + rdiffs (B2R o) (map (B2R (prec := 24) (emax := 128)) xs)) by ring.
    apply IH; rewrite S_INR.
    + apply Rabs_le. assert (Q : 1000 * (D + kap) * ee + eta + (D * ee + eta) <= kap) by (unfold kap, ee in *; lra). lra.
    + apply Rabs_le. lra.
Qed.
End Mean.
