(** Proofs about the sensor drivers: IMU data and calibration, range sensor protocol. *)
From Coq Require Import ZArith List Bool Lia ZifyBool Reals Lra.
From Verif Require Import Base Num SensorsModel SensorsProofs SensorsProofs2.
Import ListNotations.
Open Scope Z_scope.
Ltac Zify.zify_post_hook ::= Z.div_mod_to_equations.

(** ** IMU *)

Definition is_byte (v : Z) : Prop := 0 <= v < 256.

Lemma connect_ok h l : is_byte h -> is_byte l ->
  -32768 <= connect_raw_data h l < 32768 /\ (connect_raw_data h l - (256 * h + l)) mod 65536 = 0.
Proof.
  unfold is_byte, connect_raw_data, u16_as_i16. intros Hh Hl.
  replace (Z.lor (Z.shiftl h 8) l) with (256 * h + l).
  - destruct (Z.ltb_spec (256 * h + l) 32768); lia.
  - rewrite Z.shiftl_mul_pow2 by lia. change (2 ^ 8) with 256.
    assert (E : Z.land (h * 256) l = 0).
    { apply Z.bits_inj'. intros n Hn. rewrite Z.land_spec, Z.bits_0.
      destruct (Z.lt_ge_cases n 8).
      - replace (h * 256) with (Z.shiftl h 8) by (rewrite Z.shiftl_mul_pow2; lia).
        rewrite Z.shiftl_spec_low by lia. reflexivity.
      - replace (Z.testbit l n) with false; [apply andb_false_r|].
        symmetry. apply Z.bits_above_log2; [lia|].
        destruct (Z.eq_dec l 0) as [->|]; [cbn; lia|].
        assert (Z.log2 l < 8) by (apply Z.log2_lt_pow2; lia). lia. }
    rewrite <- (Z.lxor_lor _ _ E), <- (Z.add_nocarry_lxor _ _ E). lia.
Qed.

(** answers of the bus are bytes. *)
Definition bytes_env {B} (env : spi_env B) : Prop :=
  forall b buf f b', e_transfer env b buf = (Some f, b') -> forall i, is_byte (f i).

(** big-endian two's complement. *)
Definition be16 (h l : Z) : Z := let u := 256 * h + l in if u <? 32768 then u else u - 65536.

Lemma connect_be16 h l : is_byte h -> is_byte l -> connect_raw_data h l = be16 h l.
Proof.
  intros Hh Hl. destruct (connect_ok h l Hh Hl) as [H1 H2]. unfold is_byte, be16 in *.
  destruct (Z.ltb_spec (256 * h + l) 32768); lia.
Qed.

(** one answer: a leading byte and the two data bytes. *)
Definition answer : Type := Z * Z * Z.
Definition acc_of (r : answer) : R := let '(_, h, l) := r in (- (5985504 / 10000000000 * IZR (be16 h l)))%R.
Definition gyro_of (r : answer) : R :=
  let '(_, h, l) := r in (10642251 / 10000000000 * IZR (be16 h l) * (99 / 100))%R.
(** the transfer of a three byte read at register [reg] and its answer. *)
Definition read_entry (reg : Z) (r : answer) : bool * list Z * option (list Z) :=
  let '(x, h, l) := r in (false, [reg + 128; 0; 0], Some [x; h; l]).

Section Calib.
  Context {B : Type} (env : spi_env B) (Henv : bytes_env env).
  Notation imuR := (@imu Rops B).

  Lemma read3 reg (s : imuR) l s' : 0 <= reg < 128 ->
    read_from_registers env reg 3 s = (Val (Some l), s') ->
    exists x h lo, l = [h; lo] /\ is_byte h /\ is_byte lo /\ i_log s' = read_entry reg (x, h, lo) :: i_log s /\
      i_accel s' = i_accel s /\ i_gyro s' = i_gyro s.
  Proof.
    intros Hreg. unfold read_from_registers, assert_cs, deassert_cs, mbind.
    pose proof (pin_state env false s) as P0. destruct (pin_set env false s) as [r0 s0].
    destruct P0 as (L0 & A0 & G0 & o & -> & Hh). destruct o as [[]|]; [|discriminate]. specialize (Hh eq_refl).
    unfold transfer. set (buf := Z.lor reg 128 :: repeat 0 (3 - 1)).
    destruct (e_transfer env (i_bus s0) buf) as [tr b] eqn:Et.
    set (s1 := Imu _ _ _ _ _). pose proof (pin_state env true s1) as P1.
    destruct (pin_set env true s1) as [r1 s2]. destruct P1 as (L1 & A1 & G1 & o & -> & _).
    destruct o as [[]|]; [|discriminate]. destruct tr as [f|]; [|discriminate].
    cbn [mret]. intros E. injection E as <- <-.
    exists (f 0%nat), (f 1%nat), (f 2%nat). split; [reflexivity|].
    specialize (Henv _ _ _ _ Et). split; [apply Henv|]. split; [apply Henv|].
    split; [|split; [rewrite A1; exact A0|rewrite G1; exact G0]].
    rewrite L1. unfold s1. cbn [i_log]. rewrite L0, Hh. unfold read_entry, buf.
    replace (Z.lor reg 128) with (reg + 128); [reflexivity|].
    assert (E : Z.land reg 128 = 0).
    { apply Z.bits_inj'; intros n Hn; rewrite Z.land_spec, Z.bits_0.
      change 128 with (2 ^ 7); rewrite Z.pow2_bits_eqb by lia.
      destruct (Z.eqb_spec 7 n); [|apply andb_false_r]; subst.
      rewrite andb_true_r; destruct (Z.eq_dec reg 0) as [->|]; [reflexivity|].
      apply Z.bits_above_log2; [lia|apply Z.log2_lt_pow2; lia]. }
    rewrite <- (Z.lxor_lor _ _ E), <- (Z.add_nocarry_lxor _ _ E). reflexivity.
  Qed.

  Lemma accel_ok fuel (s : imuR) a s' : block fuel (translational_acceleration env) s = (Val (Some a), s') ->
    exists r, i_log s' = read_entry 47 r :: i_log s /\ i_accel s' = i_accel s /\ i_gyro s' = i_gyro s /\
      a = (acc_of r - i_accel s)%R.
  Proof.
    destruct fuel as [|n]; [discriminate|]. cbn [block]. unfold translational_acceleration at 1, mbind at 1.
    unfold mbind at 1. destruct (read_from_registers env 47 3 s) as [[[l|]| |] s1] eqn:E; try discriminate.
    apply read3 in E; [|lia]. destruct E as (x & h & lo & -> & Hh & Hl & E1 & E2 & E3).
    cbn. intros E. injection E as <- <-. exists (x, h, lo). repeat split; auto.
    unfold acc_of. rewrite (connect_be16 h lo Hh Hl). unfold raw_to_accel. rewrite E2. rops. lra.
  Qed.

  Lemma gyro_ok fuel (s : imuR) a s' : block fuel (angular_velocity env) s = (Val (Some a), s') ->
    exists r, i_log s' = read_entry 55 r :: i_log s /\ i_accel s' = i_accel s /\ i_gyro s' = i_gyro s /\
      a = (gyro_of r - i_gyro s)%R.
  Proof.
    destruct fuel as [|n]; [discriminate|]. cbn [block]. unfold angular_velocity at 1, mbind at 1.
    unfold mbind at 1. destruct (read_from_registers env 55 3 s) as [[[l|]| |] s1] eqn:E; try discriminate.
    apply read3 in E; [|lia]. destruct E as (x & h & lo & -> & Hh & Hl & E1 & E2 & E3).
    cbn. intros E. injection E as <- <-. exists (x, h, lo). repeat split; auto.
    unfold gyro_of. rewrite (connect_be16 h lo Hh Hl). unfold raw_to_gyro. rewrite E3. rops. lra.
  Qed.

  Lemma timer_ok fuel (s : imuR) o s' : block fuel (timer_wait env) s = (o, s') ->
    i_log s' = i_log s /\ i_accel s' = i_accel s /\ i_gyro s' = i_gyro s.
  Proof.
    revert s. induction fuel as [|n IH]; intros s E; cbn [block] in E.
    - injection E as <- <-. auto.
    - unfold mbind at 1 in E. unfold timer_wait at 1 in E. destruct (e_timer env (i_bus s)) as [[] b].
      + cbn in E. injection E as <- <-. cbn. auto.
      + apply IH in E. exact E.
  Qed.

  (** the transfers of successive measurements, oldest first. *)
  Definition entries (rs : list (answer * answer)) : list (bool * list Z * option (list Z)) :=
    flat_map (fun r => [read_entry 47 (fst r); read_entry 55 (snd r)]) rs.

  Lemma loop_ok fuel n : forall sa sg (s : imuR) a g s',
    calib_loop env n fuel sa sg s = (Val (Some (a, g)), s') ->
    exists rs, length rs = n /\ i_log s' = rev (entries rs) ++ i_log s /\
      i_accel s' = i_accel s /\ i_gyro s' = i_gyro s /\
      a = (sa + Rsum (map (fun r => acc_of (fst r) - i_accel s) rs))%R /\
      g = (sg + Rsum (map (fun r => gyro_of (snd r) - i_gyro s) rs))%R.
  Proof.
    induction n as [|n IH]; intros sa sg s a g s' E; cbn [calib_loop] in E.
    - injection E as <- <- <-. exists []. cbn. rops. repeat split; auto; lra.
    - unfold mbind at 1 in E.
      destruct (block fuel (translational_acceleration env) s) as [[[a1|]| |] s1] eqn:E1; try discriminate.
      apply accel_ok in E1. destruct E1 as (ra & L1 & A1 & G1 & ->).
      unfold mbind at 1 in E.
      destruct (block fuel (angular_velocity env) s1) as [[[g1|]| |] s2] eqn:E2; try discriminate.
      apply gyro_ok in E2. destruct E2 as (rg & L2 & A2 & G2 & ->).
      unfold mbind at 1 in E.
      destruct (block fuel (timer_wait env) s2) as [[o| |] s3] eqn:E3; try discriminate.
      apply timer_ok in E3. destruct E3 as (L3 & A3 & G3).
      apply IH in E. destruct E as (rs & Hl & L & A & G & Ea & Eg).
      exists ((ra, rg) :: rs). split; [cbn; lia|].
      split.
      { unfold entries in *. cbn [flat_map]. rewrite rev_app_distr, L, L3, L2, L1, <- app_assoc. reflexivity. }
      split; [congruence|]. split; [congruence|].
      rewrite A3, A2, A1 in Ea. rewrite G3, G2, G1 in Eg.
      unfold Rsum in *. cbn [map fold_right fst snd]. split; [rewrite Ea|rewrite Eg]; rops; lra.
  Qed.

  Lemma Rsum_shift {A} (f : A -> R) c l : Rsum (map (fun x => f x - c)%R l) = (Rsum (map f l) - INR (length l) * c)%R.
  Proof.
    unfold Rsum. induction l as [|x l IH]; [cbn; lra|]. cbn [map fold_right length]. rewrite IH, S_INR. lra.
  Qed.

  Lemma calibrate_ok fuel (s s' : imuR) : calibrate env fuel s = (Val (Some tt), s') ->
    exists rs, length rs = 1000%nat /\ i_log s' = rev (entries rs) ++ i_log s /\
      i_accel s' = (Rsum (map (fun r => acc_of (fst r)) rs) / 1000)%R /\
      i_gyro s' = (Rsum (map (fun r => gyro_of (snd r)) rs) / 1000)%R.
  Proof.
    unfold calibrate, mbind at 1.
    destruct (calib_loop env (Z.to_nat CALIBRATION_NUM) fuel n0 n0 s) as [[[[a g]|]| |] s1] eqn:E; try discriminate.
    apply loop_ok in E. destruct E as (rs & Hl & L & A & G & -> & ->).
    change (Z.to_nat CALIBRATION_NUM) with 1000%nat in Hl.
    unfold mbind, get_accel, get_gyro, set_offsets. intros E. injection E as <-. cbn [i_log i_accel i_gyro].
    exists rs. split; [exact Hl|]. split; [exact L|]. rewrite A, G, !Rsum_shift, Hl.
    replace (INR 1000) with 1000%R by (rewrite INR_IZR_INZ; reflexivity).
    unfold n0, CALIBRATION_NUM. rops. split; field.
  Qed.
End Calib.

Lemma calibrate_fail {K : ops} {B} (env : spi_env B) fuel s :
  fst (calibrate env fuel s) <> Val (Some tt) ->
  i_accel (snd (calibrate env fuel s)) = i_accel s /\ i_gyro (snd (calibrate env fuel s)) = i_gyro s.
Proof.
  unfold calibrate, mbind.
  set (P := fun x : imu B => i_accel x = i_accel s /\ i_gyro x = i_gyro s).
  assert (HP : P (snd (calib_loop env (Z.to_nat CALIBRATION_NUM) fuel n0 n0 s))).
  { apply (pres_loop env P); [| |split; reflexivity].
    - intros x Hx. unfold timer_wait. destruct (e_timer env (i_bus x)). exact Hx.
    - intros a n x Hx. unfold read_from_registers, assert_cs, deassert_cs, mbind.
      pose proof (pin_state env false x) as P0. destruct (pin_set env false x) as [r0 s0].
      destruct P0 as (_ & A0 & G0 & o & -> & _). destruct o as [[]|]; cbn [mret snd];
        [|unfold P in *; rewrite A0, G0; exact Hx].
      unfold transfer. destruct (e_transfer env (i_bus s0) (Z.lor a 128 :: repeat 0 (n - 1))) as [tr b].
      set (s1 := Imu _ _ _ _ _). pose proof (pin_state env true s1) as P1.
      destruct (pin_set env true s1) as [r1 s2]. destruct P1 as (_ & A1 & G1 & o & -> & _).
      unfold P in *. destruct o; cbn [mret snd]; rewrite A1, G1; cbn; rewrite A0, G0; exact Hx. }
  destruct (calib_loop env (Z.to_nat CALIBRATION_NUM) fuel n0 n0 s) as [[[[a g]|]| |] s1]; cbn in HP |- *; intros H;
    [exfalso; apply H; reflexivity|exact HP..].
Qed.

(** no call panics. *)
Definition nostop {S A} (m : M S A) : Prop := forall s, fst (m s) <> Stop.

Lemma ns_ret {S A} (a : A) : @nostop S A (mret a).
Proof. intros s H. discriminate. Qed.
Lemma ns_bind {S A C} (m : M S A) (k : A -> M S C) : nostop m -> (forall a, nostop (k a)) -> nostop (mbind m k).
Proof.
  intros Hm Hk s. unfold mbind. specialize (Hm s). destruct (m s) as [[a| |] s']; cbn in *;
    [apply Hk|congruence|discriminate].
Qed.
Lemma ns_wait {S A} (m : M S (option A)) fuel : nostop m -> nostop (wait_ok fuel m).
Proof.
  intros H. induction fuel as [|n IH]; cbn [wait_ok]; [intros s Hs; discriminate|].
  apply ns_bind; [exact H|]. intros [a|]; [apply ns_ret|exact IH].
Qed.
Lemma ns_block {S A} (m : M S (nbr A)) fuel : nostop m -> nostop (block fuel m).
Proof.
  intros H. induction fuel as [|n IH]; cbn [block]; [intros s Hs; discriminate|].
  apply ns_bind; [exact H|]. intros [a| |]; [apply ns_ret|apply ns_ret|exact IH].
Qed.

Section NoPanic.
  Context {K : ops} {B : Type} (env : spi_env B).

  Lemma ns_pin h : nostop (@pin_set K B env h).
  Proof. intros s. unfold pin_set. destruct (e_pin env (i_bus s) h) as [[ok l] b]. discriminate. Qed.
  Lemma ns_transfer buf : nostop (@transfer K B env buf).
  Proof. intros s. unfold transfer. destruct (e_transfer env (i_bus s) buf). discriminate. Qed.

  Lemma ns_write a d : nostop (@write_to_register K B env a d).
  Proof.
    apply ns_bind; [apply ns_pin|]. intros [|]; [|apply ns_ret].
    apply ns_bind; [apply ns_transfer|intros r]. apply ns_bind; [apply ns_pin|]. intros [|]; apply ns_ret.
  Qed.

  (** a read answers with the requested number of bytes and what follows does not panic on those. *)
  Lemma ns_read {C} a n (k : option (list Z) -> M (imu B) C) :
    nostop (k None) -> (forall l, length l = (n - 1)%nat -> nostop (k (Some l))) ->
    nostop (mbind (@read_from_registers K B env a n) k).
  Proof.
    intros HN HS s. unfold read_from_registers, assert_cs, deassert_cs, mbind.
    pose proof (pin_state env false s) as P0. destruct (pin_set env false s) as [r0 s0].
    destruct P0 as (_ & _ & _ & o & -> & _). destruct o as [[]|]; cbn [mret fst]; [|apply HN].
    unfold transfer. destruct (e_transfer env (i_bus s0) (Z.lor a 128 :: repeat 0 (n - 1))) as [tr b].
    set (s1 := Imu _ _ _ _ _). pose proof (pin_state env true s1) as P1.
    destruct (pin_set env true s1) as [r1 s2]. destruct P1 as (_ & _ & _ & o & -> & _).
    destruct o as [[]|]; cbn [mret fst]; [|apply HN].
    destruct tr as [f|]; [|apply HN]. apply HS. cbn [length seq map tl].
    rewrite map_length, seq_length, repeat_length. reflexivity.
  Qed.

  Lemma ns_at (l : list Z) i : (i < length l)%nat -> nostop (@at_index K B l i).
  Proof.
    intros H. unfold at_index. destruct (nth_error l i) eqn:E; [apply ns_ret|].
    apply nth_error_None in E. lia.
  Qed.

  Lemma ns_gyro : nostop (@angular_velocity K B env).
  Proof.
    apply ns_read; [apply ns_ret|]. intros l Hl.
    apply ns_bind; [apply ns_at; lia|intros h]. apply ns_bind; [apply ns_at; lia|intros lo].
    apply ns_bind; [intros s H; discriminate|intros o]. apply ns_ret.
  Qed.
  Lemma ns_accel : nostop (@translational_acceleration K B env).
  Proof.
    apply ns_read; [apply ns_ret|]. intros l Hl.
    apply ns_bind; [apply ns_at; lia|intros h]. apply ns_bind; [apply ns_at; lia|intros lo].
    apply ns_bind; [intros s H; discriminate|intros o]. apply ns_ret.
  Qed.

  Lemma ns_calibrate fuel : nostop (@calibrate K B env fuel).
  Proof.
    apply ns_bind.
    - generalize n0 at 1. generalize n0. induction (Z.to_nat CALIBRATION_NUM) as [|n IH]; intros sg sa; cbn [calib_loop]; [apply ns_ret|].
      apply ns_bind; [apply ns_block, ns_accel|]. intros [a|]; [|apply ns_ret].
      apply ns_bind; [apply ns_block, ns_gyro|]. intros [g|]; [|apply ns_ret].
      apply ns_bind; [apply ns_block|intros _; apply IH].
      intros s. unfold timer_wait. destruct (e_timer env (i_bus s)). discriminate.
    - intros [[sa sg]|]; [|apply ns_ret].
      intros s H. discriminate.
  Qed.

  Lemma ns_call fuel c : nostop (@imu_do K B env fuel c).
  Proof.
    destruct c; cbn [imu_do].
    - unfold imu_init.
      repeat (apply ns_bind; [first [apply ns_wait, ns_write|apply ns_wait, ns_calibrate|idtac]|intros _]).
      + apply ns_wait, ns_block. apply ns_read; [apply ns_ret|]. intros l Hl.
        apply ns_bind; [apply ns_at; lia|intros v]. apply ns_ret.
      + intros s H. discriminate.
      + apply ns_wait, ns_calibrate.
    - apply ns_bind; [apply ns_calibrate|intros _; apply ns_ret].
    - apply ns_bind; [apply ns_gyro|intros _; apply ns_ret].
    - apply ns_bind; [apply ns_accel|intros _; apply ns_ret].
  Qed.

  Lemma ns_calls fuel cs : nostop (@imu_calls K B env fuel cs).
  Proof.
    induction cs as [|c cs IH]; cbn [imu_calls]; [apply ns_ret|].
    apply ns_bind; [apply ns_call|intros _; exact IH].
  Qed.
End NoPanic.
