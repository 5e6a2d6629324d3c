(** The sensor properties: encoder, motor, voltmeter, IMU, range sensor.
    Statements about measured quantities are in exact real arithmetic ([Rops]) unless they name
    binary32 ([Fops l], for every behaviour [l] of the mathematical library). *)
From Coq Require Import ZArith List Bool Lia ZifyBool Reals Lra.
From Flocq Require Import Core BinarySingleNaN.
From Verif Require Import Base Num NumLemmas SensorsModel SensorsProofs SensorsProofs2 SensorsProofs3 SensorsProofs4.
Import ListNotations.
Open Scope Z_scope.

(** ** C56: [ts] are true positions, [counts] what the counter shows. *)
Theorem C56_encoder_history ts counts :
  Forall2 (fun t c => c mod 65536 = t mod 65536) ts counts -> small_steps 0 ts ->
  exists rels, enc_run enc_new counts = Ret rels /\ length rels = length counts /\
    Rsum (map (@enc_angle Rops) rels) = (IZR (last ts 0%Z) / 1024)%R.
Proof.
  intros H1 H2. exists (diffs 0 ts). split; [apply (enc_run_ok ts 0); assumption|]. split.
  - clear H2. generalize 0. induction H1 as [|t c ts counts _ _ IH]; intros t0; cbn; auto.
  - rewrite diffs_sum, Z.sub_0_r. reflexivity.
Qed.
Print Assumptions C56_encoder_history.

Example C56_ex :
  let ts := [30000; 60000; 90000; 70000; -5] in
  let counts := [30000; 60000; 90000 - 65536; 70000; 65531] in
  Forall2 (fun t c => c mod 65536 = t mod 65536) ts counts /\ ~ small_steps 0 ts /\
  small_steps 0 [30000; 60000; 90000; 70000] /\
  enc_run enc_new [30000; 60000; 24464; 70000] = Ret [30000; 30000; 30000; -20000].
Proof.
  cbn zeta. split; [repeat constructor|]. split; [cbn; lia|]. split; [cbn; lia|]. vm_compute. reflexivity.
Qed.

(** ** C57 *)
Theorem C57_encoder_total_refuted :
  ~ (forall before count, 0 <= before < 65536 -> 0 <= count < 2 ^ 32 -> enc_step before count <> Panic).
Proof. intros H. apply (H 32768 0); [lia..|reflexivity]. Qed.
Print Assumptions C57_encoder_total_refuted.

(** a reading panics exactly when the counter went down by 32768. *)
Theorem C57_encoder_total_partial before count : 0 <= before < 65536 -> 0 <= count < 2 ^ 32 ->
  (exists rel, enc_step before count = Ret (rel, count mod 65536)) <-> before - count mod 65536 <> 32768.
Proof.
  intros Hb Hc. rewrite <- (enc_no_panic before count Hb Hc).
  split; intros (r & E); [eauto|]. destruct r as [rel a]. exists rel. rewrite E. do 2 f_equal.
  unfold enc_step in E. rewrite lower_bits in E.
  destruct (if before <? count mod 65536 then _ else _) as [x| |]; try discriminate. cbn in E. congruence.
Qed.
Print Assumptions C57_encoder_total_partial.

Example C57_ex : enc_step 65535 65536 = Ret (1, 0) /\ enc_step 0 32768 = Ret (-32768, 32768).
Proof. split; vm_compute; reflexivity. Qed.

(** ** C58 *)
Theorem C58_motor v b m1 m2 : (0 < b)%R -> 0 <= m1 <= 65535 -> 0 <= m2 <= 65535 ->
  let drive := Rmin 1 (Rabs v / b) in
  let (d1, d2) := @motor_apply Rops v b m1 m2 in
  0 <= d1 <= m1 /\ 0 <= d2 <= m2 /\
  ((0 < v)%R -> d2 = m2 /\ is_floor d1 ((1 - drive) * IZR m1)) /\
  (~ (0 < v)%R -> d1 = m1 /\ is_floor d2 ((1 - drive) * IZR m2)).
Proof. exact (motor_ok v b m1 m2). Qed.
Print Assumptions C58_motor.

Example C58_ex : exists d1 d2, @motor_apply Rops 1%R 4%R 1000 1000 = (d1, d2) /\ d1 = 750 /\ d2 = 1000.
Proof.
  pose proof (C58_motor 1 4 1000 1000 ltac:(lra) ltac:(lia) ltac:(lia)) as H. cbn zeta in H.
  destruct (motor_apply _ _ _ _) as [d1 d2] eqn:E. destruct H as (_ & _ & H & _).
  exists d1, d2. split; [reflexivity|]. destruct (H ltac:(lra)) as [-> [Ha Hb]]. split; [|reflexivity].
  rewrite Rabs_right in Ha, Hb by lra. rewrite Rmin_right in Ha, Hb by lra.
  apply Z.le_antisymm; [apply le_IZR|apply Z.lt_succ_r, lt_IZR; rewrite succ_IZR]; lra.
Qed.

(** ** C59, binary32: a zero command with a dead battery reading drives pin 2 fully. *)
Theorem C59_zero_voltage_refuted :
  ~ (forall l b m1 m2, 0 <= m1 <= 65535 -> 0 <= m2 <= 65535 ->
       @motor_apply (Fops l) (B754_zero false) b m1 m2 = (m1, m2)).
Proof.
  intros H. specialize (H libm0 (B754_zero false) 1000 1000 ltac:(lia) ltac:(lia)).
  vm_compute in H. discriminate.
Qed.
Print Assumptions C59_zero_voltage_refuted.

Theorem C59_zero_voltage_partial l sign b m1 m2 :
  nonzero_f b -> 0 <= m1 <= 65535 -> 0 <= m2 <= 65535 ->
  @motor_apply (Fops l) (B754_zero sign) b m1 m2 = (m1, m2).
Proof. exact (motor_zero l sign b m1 m2). Qed.
Print Assumptions C59_zero_voltage_partial.

Example C59_ex : nonzero_f (f32_of_Z 4) /\ @motor_apply (Fops libm0) (f32_of_Z 1) (f32_of_Z 4) 1000 900 = (750, 900).
Proof. split; [exact I|vm_compute; reflexivity]. Qed.

(** ** C66, binary32: duties in range for every command (also infinite or NaN). *)
Theorem C66_motor_f32 l v b m1 m2 : pos_f b -> 0 <= m1 <= 65535 -> 0 <= m2 <= 65535 ->
  let (d1, d2) := @motor_apply (Fops l) v b m1 m2 in 0 <= d1 <= m1 /\ 0 <= d2 <= m2.
Proof. exact (motor_f32_range l v b m1 m2). Qed.
Print Assumptions C66_motor_f32.

Example C66_ex : pos_f (f32_of_Z 4) /\
  @motor_apply (Fops libm0) (B754_infinity true) (f32_of_Z 4) 1000 900 = (1000, 0) /\
  @motor_apply (Fops libm0) B754_nan (f32_of_Z 4) 1000 900 = (1000, 0).
Proof. split; [exact eq_refl|]. split; vm_compute; reflexivity. Qed.

(** ** C60: [weights a n]: the first 100 readings have weight a^n/100, reading k of the following
    n has weight (1-a) a^(n-1-k). *)
Theorem C60_voltmeter {B} (adc : B -> adc_ans * B) fuel period freq ratio b v0 b0 n v b1 :
  (0 < period)%R -> (0 < freq)%R ->
  @vm_new Rops B adc fuel period freq ratio b = Ret (v0, b0) ->
  vm_updates adc n fuel v0 b0 = Ret (v, b1) ->
  exists ws vs, adc_reads adc b vs b1 /\ length vs = (100 + n)%nat /\ length ws = (100 + n)%nat /\
    Forall (fun w => (0 <= w)%R) ws /\ Rsum ws = 1%R /\
    ws = weights (1 / (2 * PI * (period * freq) + 1)) n /\
    v_voltage v = dot ws (map (volts ratio) vs) /\
    forall lo hi, Forall (fun x => (lo <= volts ratio x <= hi)%R) vs -> (lo <= v_voltage v <= hi)%R.
Proof.
  intros Hp Hf E0 E1. destruct (vm_ok adc fuel period freq ratio b v0 b0 n v b1 E0 E1) as (vs & H1 & H2 & H3).
  destruct (weights_ok _ n (alpha_range period freq Hp Hf)) as (W1 & W2 & W3).
  eexists _, vs. split; [exact H1|]. split; [exact H2|]. split; [exact W3|]. split; [exact W1|].
  split; [exact W2|]. split; [reflexivity|]. split; [exact H3|].
  intros lo hi H. rewrite H3.
  pose proof (dot_hull lo hi (weights (1 / (2 * PI * (period * freq) + 1)) n) (map (volts ratio) vs)) as D.
  rewrite W2 in D. rewrite !Rmult_1_r in D. apply D.
  - rewrite map_length. congruence.
  - exact W1.
  - apply Forall_map. exact H.
Qed.
Print Assumptions C60_voltmeter.

(** an ADC that needs a retry on every second poll. *)
Example C60_ex :
  let adc := fun b : Z => if b mod 2 =? 0 then (AWouldBlock, b + 1) else (AOk b, b + 1) in
  exists v0 b0 v b1, @vm_new Rops Z adc 5 1%R 1%R 2%R 0 = Ret (v0, b0) /\
    vm_updates adc 3 5 v0 b0 = Ret (v, b1) /\ b1 = 206.
Proof.
  cbn zeta. eexists _, _, _, _. split; [vm_compute; reflexivity|]. split; vm_compute; reflexivity.
Qed.

(** ** C61: in every execution (finished or not) every transfer in the log was made with chip-select low. *)
Theorem C61_selected {K : ops} {B} (env : spi_env B) fuel cs (s : imu B) :
  i_log s = [] ->
  let s' := snd (imu_calls env fuel cs s) in
  (forall high buf r, In (high, buf, r) (i_log s') -> high = false) /\
  ((forall b h, fst (fst (e_pin env b h)) = true) -> i_high s = true -> i_high s' = true).
Proof.
  intros Hl. cbn zeta. split.
  - intros high buf r Hin. assert (HA : all_low s) by (unfold all_low; rewrite Hl; constructor).
    pose proof (calls_low env fuel cs s HA) as HF. unfold all_low in HF. rewrite Forall_forall in HF.
    exact (HF _ Hin).
  - intros Hp. apply (calls_high env fuel cs Hp).
Qed.
Print Assumptions C61_selected.

(** a single reading leaves chip-select high whatever its level was. *)
Theorem C61_deselects {K : ops} {B} (env : spi_env B) fuel c (s : imu B) :
  (forall b h, fst (fst (e_pin env b h)) = true) -> (c = CGyro \/ c = CAccel) ->
  i_high (snd (imu_do env fuel c s)) = true.
Proof. exact (one_call_high env fuel c s). Qed.
Print Assumptions C61_deselects.

(** a bus on which every third transfer fails. *)
Definition ex_env : spi_env Z := SpiEnv Z
  (fun b buf => (if b mod 3 =? 0 then None else Some (fun i => b mod 256), b + 1))
  (fun b h => ((true, h), b)) (fun b => (true, b)).

Example C61_ex : let s := @Imu Rops Z 1 true [] 0%R 0%R in
  length (i_log (snd (imu_calls ex_env 2 [CAccel; CGyro; CAccel; CGyro] s))) = 4%nat /\
  map snd (i_log (snd (imu_calls ex_env 2 [CAccel; CGyro; CAccel] s))) = [None; Some [2; 2; 2]; Some [1; 1; 1]].
Proof. split; vm_compute; reflexivity. Qed.

(** ** C67: IMU calls never panic, whatever the bus does. *)
Theorem C67_imu_no_panic {K : ops} {B} (env : spi_env B) fuel cs (s : imu B) :
  fst (imu_calls env fuel cs s) <> Stop.
Proof. exact (ns_calls env fuel cs s). Qed.
Print Assumptions C67_imu_no_panic.

Example C67_ex : fst (imu_calls ex_env 2 [CAccel; CGyro; CAccel] (@Imu Rops Z 1 true [] 0%R 0%R)) = Val tt.
Proof. vm_compute. reflexivity. Qed.

(** ** C62 *)
Theorem C62_decode h l : 0 <= h < 256 -> 0 <= l < 256 ->
  let v := connect_raw_data h l in
  -32768 <= v < 32768 /\ (v - (256 * h + l)) mod 65536 = 0.
Proof. exact (connect_ok h l). Qed.
Print Assumptions C62_decode.

Example C62_ex : connect_raw_data 255 254 = -2 /\ connect_raw_data 1 2 = 258 /\ connect_raw_data 128 0 = -32768.
Proof. repeat split; vm_compute; reflexivity. Qed.

(** ** C63: [rs] are the answers to the 1000 accelerometer and gyroscope reads found in the log. *)
Theorem C63_calibrate {B} (env : spi_env B) fuel (s s' : @imu Rops B) :
  (forall b buf f b', e_transfer env b buf = (Some f, b') -> forall i, 0 <= f i < 256) ->
  calibrate env fuel s = (Val (Some tt), s') ->
  exists rs, length rs = 1000%nat /\ i_log s' = rev (entries rs) ++ i_log s /\
    i_accel s' = (Rsum (map (fun r => acc_of (fst r)) rs) / 1000)%R /\
    i_gyro s' = (Rsum (map (fun r => gyro_of (snd r)) rs) / 1000)%R.
Proof. intros H. exact (calibrate_ok env H fuel s s'). Qed.
Print Assumptions C63_calibrate.

Theorem C63_all_or_nothing {K : ops} {B} (env : spi_env B) fuel (s : imu B) :
  fst (calibrate env fuel s) <> Val (Some tt) ->
  i_accel (snd (calibrate env fuel s)) = i_accel s /\ i_gyro (snd (calibrate env fuel s)) = i_gyro s.
Proof. exact (calibrate_fail env fuel s). Qed.
Print Assumptions C63_all_or_nothing.

Definition ex_env_ok : spi_env Z := SpiEnv Z
  (fun b buf => (Some (fun i => (b + Z.of_nat i) mod 256), b + 1))
  (fun b h => ((true, h), b)) (fun b => (b mod 2 =? 0, b + 1)).

Example C63_ex :
  (forall b buf f b', e_transfer ex_env_ok b buf = (Some f, b') -> forall i, 0 <= f i < 256) /\
  fst (calibrate ex_env_ok 3 (@Imu Rops Z 0 true [] 5%R 7%R)) = Val (Some tt) /\
  fst (calibrate ex_env 3 (@Imu Rops Z 1 true [] 5%R 7%R)) = Val None.
Proof.
  split; [|split; vm_compute; reflexivity].
  intros b buf f b' E i. injection E as <- <-. apply Z.mod_pos_bound. lia.
Qed.

(** ** C64: [outstanding]: a successful request not yet consumed by a delivered measurement. *)
Theorem C64_protocol {B} (env : i2c_env B) cs (s : tof B) : is_polling_requested s = false ->
  exists es s', tof_events env cs s = (Some es, s') /\ length es = length cs /\
    is_polling_requested s' = outstanding false es /\ well_paired false es.
Proof.
  intros H. destruct (events_ok env cs s) as (es & s' & H1 & H2 & H3 & H4). rewrite H in *. eauto 8.
Qed.
Print Assumptions C64_protocol.

(** consequence: never more measurements than successful requests, in any prefix. *)
Definition n_results (es : list tof_event) : nat :=
  length (filter (fun e => match e with EDistance (Some _) => true | _ => false end) es).
Definition n_requests (es : list tof_event) : nat :=
  length (filter (fun e => match e with ERequest true => true | _ => false end) es).

Theorem C64_at_most_one {B} (env : i2c_env B) cs (s : tof B) es : is_polling_requested s = false ->
  fst (tof_events env cs s) = Some es -> forall k, (n_results (firstn k es) <= n_requests (firstn k es))%nat.
Proof.
  intros H E k. destruct (C64_protocol env cs s H) as (es' & s' & E' & _ & _ & HW). rewrite E' in E.
  injection E as <-.
  assert (G : forall es o k, well_paired o es ->
    (n_results (firstn k es) <= n_requests (firstn k es) + (if o then 1 else 0))%nat).
  { clear. induction es as [|e es IH]; intros o [|k] HW; [cbn; lia..|cbn; lia|].
    destruct HW as [H1 H2]. specialize (IH _ k H2). unfold n_results, n_requests in *.
    destruct e as [[]|[d|]]; cbn [firstn filter length outstanding1] in *; [destruct o; lia|lia| |lia].
    rewrite (H1 d eq_refl). lia. }
  specialize (G es' false k HW). rewrite Nat.add_0_r in G. exact G.
Qed.
Print Assumptions C64_at_most_one.

Definition ex_i2c : i2c_env Z := I2cEnv Z
  (fun b _ _ => (negb (b mod 5 =? 0), b + 1)) (fun b _ _ => (if b mod 7 =? 0 then None else Some (b mod 256), b + 1))
  (fun b _ => (true, b)).

Example C64_ex : exists es,
  fst (tof_events ex_i2c [TDistance; TRequest; TDistance; TDistance; TDistance] (Tof 3 42 Idle)) = Some es /\
  es = [EDistance None; ERequest true; EDistance (Some 5); EDistance None; EDistance None].
Proof. eexists. split; vm_compute; reflexivity. Qed.

(** ** C65, for the device of the data sheet ([vl6180x]): after initialising to an address other than
    the default one, a second [init] never finishes, with any number of polls. *)
Theorem C65_reinit_refuted :
  exists s1 : tof device, (forall d, tof_init vl6180x 1 42 (tof_fresh d) = (Val tt, s1)) /\
    forall fuel new, fst (tof_init vl6180x fuel new s1) = More.
Proof.
  eexists. split; [intros d; exact (init_ok 0 d Idle 42)|]. intros fuel new. apply reinit_stuck. lia.
Qed.
Print Assumptions C65_reinit_refuted.

Theorem C65_reinit_partial fuel d st new :
  tof_init vl6180x (S fuel) new (Tof d 41 st) = (Val tt, Tof (Device new true) new st).
Proof. exact (init_ok fuel d st new). Qed.
Print Assumptions C65_reinit_partial.

(** [init] again works when the address was left at the default. *)
Example C65_ex : let (r, s) := tof_init vl6180x 1 41 (tof_fresh (Device 99 true)) in
  r = Val tt /\ fst (tof_init vl6180x 1 50 s) = Val tt.
Proof. vm_compute. split; reflexivity. Qed.
