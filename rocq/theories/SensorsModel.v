(** Models of /repo/sensors2/src/{encoder,motor,voltmeter,imu,tof}.rs.
    Peripherals (embedded-hal traits) are arbitrary state machines with a state type [B]. *)
From Coq Require Import ZArith List Bool Lia.
From Verif Require Import Base Num.
Import ListNotations.
Open Scope Z_scope.

(** ** Encoder, encoder.rs *)

(** [v as i16] for [v : u16], encoder.rs:39, 41. *)
Definition u16_as_i16 (v : Z) : Z := if v <? 32768 then v else v - 65536.
(** Result of an i16 operation with debug overflow check (the negation of encoder.rs:41). *)
Definition chk_i16 (v : Z) : res Z := if (-32768 <=? v) && (v <=? 32767) then Ret v else Panic.
(** Result of a u16 operation with debug overflow check (the subtractions of encoder.rs:39, 41). *)
Definition chk_u16 (v : Z) : res Z := if (0 <=? v) && (v <=? 65535) then Ret v else Panic.

(** encoder.rs:25-28. *)
Definition get_lower_bits (v : Z) : Z := (Z.land v 65535) mod 65536.

(** encoder.rs:36-47 with [before] the field [before_count] and [count] the u32 returned by
    [qei.count()]: the relative count and the new [before_count]. *)
Definition enc_step (before count : Z) : res (Z * Z) :=
  let after := get_lower_bits count in
  let* rel := (if before <? after then let* d := chk_u16 (after - before) in Ret (u16_as_i16 d)
               else let* d := chk_u16 (before - after) in chk_i16 (- u16_as_i16 d)) in
  Ret (rel, after).

(** encoder.rs:18-23. *)
Definition enc_new : Z := 0.

(** encoder.rs:44-46: the returned angle, in revolutions. *)
Definition enc_angle {K : ops} (rel : Z) : num := (of_int rel / lit 1024 1)%num.

(** successive calls of [angle] (encoder.rs:36) with the counter values [counts]. *)
Fixpoint enc_run (before : Z) (counts : list Z) : res (list Z) :=
  match counts with
  | [] => Ret []
  | c :: cs =>
    let* r := enc_step before c in
    let* rs := enc_run (snd r) cs in
    Ret (fst r :: rs)
  end.

(** ** Motor, motor.rs *)

(** motor.rs:28-46; [max1, max2] are the pins' [get_max_duty], the result is the pair of duties
    set.  [u16] casts saturate and map NaN to 0. *)
Definition motor_apply {K : ops} (voltage battery : num) (max1 max2 : Z) : Z * Z :=
  if (voltage >? n0)%num then
    let r := (voltage / battery)%num in
    let r := if (r >? n1)%num then n1 else r in
    (to_int 0 65535 ((n1 - r) * of_int max1)%num, max2)
  else
    let r := (- (voltage / battery))%num in
    let r := if (r >? n1)%num then n1 else r in
    (max1, to_int 0 65535 ((n1 - r) * of_int max2)%num).

(** ** Voltmeter, voltmeter.rs *)

(** answer of [OneShot::read] ([nb::Result<u16, E>]), voltmeter.rs:70. *)
Inductive adc_ans := AOk (v : Z) | AWouldBlock | AErr.

(** voltmeter.rs:11-22 (fields that carry state). *)
Record voltmeter {K : ops} := Vm { v_voltage : num; v_alpha : num; v_ratio : num }.

Section Voltmeter.
  Context {K : ops} {B : Type}.
  (** the ADC peripheral. *)
  Variable adc : B -> adc_ans * B.

  (** voltmeter.rs:69-72.  [block!] polls until the answer is not [WouldBlock] (at most [fuel]
      polls in the model), [unwrap] panics on an error.  Returns the raw value. *)
  Fixpoint adc_block (fuel : nat) (b : B) : res (Z * B) :=
    match fuel with
    | O => Fuel
    | S n => let (a, b') := adc b in
             match a with AOk v => Ret (v, b') | AWouldBlock => adc_block n b' | AErr => Panic end
    end.

  (** voltmeter.rs:30-35, 71: conversion of a raw value. *)
  Definition adc_convert (ratio : num) (v : Z) : num :=
    (of_int v * lit 33 10 * ratio / lit 4096 1)%num.

  (** voltmeter.rs:69-72. *)
  Definition current_voltage (fuel : nat) (ratio : num) (b : B) : res (num * B) :=
    let* r := adc_block fuel b in Ret (adc_convert ratio (fst r), snd r).

  (** voltmeter.rs:56-59. *)
  Fixpoint vm_sum (n : nat) (fuel : nat) (ratio : num) (sum : num) (b : B) : res (num * B) :=
    match n with
    | O => Ret (sum, b)
    | S n' => let* r := current_voltage fuel ratio b in vm_sum n' fuel ratio (sum + fst r)%num (snd r)
    end.

  (** voltmeter.rs:45-46. *)
  Definition vm_alpha (period freq : num) : num :=
    (n1 / (n2 * npi * (period * freq) + n1))%num.

  (** voltmeter.rs:38-62 ([SUM_NUM = 100], line 36). *)
  Definition vm_new (fuel : nat) (period freq ratio : num) (b : B) : res (voltmeter * B) :=
    let* r := vm_sum 100 fuel ratio n0 b in
    Ret (Vm K (fst r / of_int 100)%num (vm_alpha period freq) ratio, snd r).

  (** voltmeter.rs:65-67. *)
  Definition vm_update (fuel : nat) (v : voltmeter) (b : B) : res (voltmeter * B) :=
    let* r := current_voltage fuel (v_ratio v) b in
    Ret (Vm K (v_alpha v * v_voltage v + (n1 - v_alpha v) * fst r)%num (v_alpha v) (v_ratio v), snd r).

  (** [n] successive calls of [update_voltage] (voltmeter.rs:65). *)
  Fixpoint vm_updates (n fuel : nat) (v : voltmeter) (b : B) : res (voltmeter * B) :=
    match n with
    | O => Ret (v, b)
    | S n' => let* r := vm_update fuel v b in vm_updates n' fuel (fst r) (snd r)
    end.
End Voltmeter.

(** ** Driver monad: a value, a panic or "still running after the given number of polls",
    always together with the state reached (imu.rs, tof.rs; polls: lib.rs:9-14). *)
Inductive out (A : Type) := Val (a : A) | Stop | More.
Arguments Val {A} a.
Arguments Stop {A}.
Arguments More {A}.

(** [Result<A, E>] with a unit error ([ICM20648Error], imu.rs:13; [VL6180XError], tof.rs:17)
    is [option A]; [nb::Result<A, E>] (crate nb): *)
Inductive nbr (A : Type) := NOk (a : A) | NErr | NWouldBlock.
Arguments NOk {A} a.
Arguments NErr {A}.
Arguments NWouldBlock {A}.

(** computations over a state: sequencing of the statements of imu.rs:61-234 and tof.rs:47-221. *)
Definition M (S A : Type) := S -> out A * S.
(** see [M] (imu.rs:61-234, tof.rs:47-221). *)
Definition mret {S A} (a : A) : M S A := fun s => (Val a, s).
(** a panic: an index out of bounds (imu.rs:138, 218, 230). *)
Definition mstop {S A} : M S A := fun s => (Stop, s).
(** see [M] (imu.rs:61-234, tof.rs:47-221). *)
Definition mbind {S A C} (m : M S A) (k : A -> M S C) : M S C := fun s =>
  match m s with (Val a, s') => k a s' | (Stop, s') => (Stop, s') | (More, s') => (More, s') end.
Notation "'do' x '<-' m ';' k" := (mbind m (fun x => k))
  (at level 200, x pattern, m at level 100, k at level 200, right associativity).

(** [wait_ok!], lib.rs:9-14: repeat until [Ok]; at most [fuel] tries in the model. *)
Fixpoint wait_ok {S A} (fuel : nat) (m : M S (option A)) : M S unit :=
  match fuel with
  | O => fun s => (More, s)
  | S n => do r <- m; match r with Some _ => mret tt | None => wait_ok n m end
  end.

(** [nb::block!] (imu.rs:88, 124-128; tof.rs:76): repeat while [WouldBlock]. *)
Fixpoint block {S A} (fuel : nat) (m : M S (nbr A)) : M S (option A) :=
  match fuel with
  | O => fun s => (More, s)
  | S n => do r <- m; match r with
                      | NOk a => mret (Some a) | NErr => mret None | NWouldBlock => block n m end
  end.

(** ** IMU, imu.rs *)

(** The bus, pin and timer of imu.rs:61-66 as a state machine. A pin operation that fails may leave any level. *)
Record spi_env (B : Type) := SpiEnv {
  e_transfer : B -> list Z -> option (nat -> Z) * B;   (* byte [i] of the answer *)
  e_pin : B -> bool -> (bool * bool) * B;              (* wanted level -> (ok, level if failed) *)
  e_timer : B -> bool * B                              (* timer expired? *)
}.
Arguments e_transfer {B}.
Arguments e_pin {B}.
Arguments e_timer {B}.

(** driver (imu.rs:21-25) and observation state: chip-select level ([true] = high) and the log of
    transfers, newest first, each with the level at that time and the answer. *)
Record imu {K : ops} (B : Type) := Imu {
  i_bus : B; i_high : bool; i_log : list (bool * list Z * option (list Z));
  i_accel : num; i_gyro : num }.
Arguments Imu {K B}.
Arguments i_bus {K B}.
Arguments i_high {K B}.
Arguments i_log {K B}.
Arguments i_accel {K B}.
Arguments i_gyro {K B}.

Section ImuModel.
  Context {K : ops} {B : Type} (env : spi_env B).
  Notation MI := (M (imu B)).

  (** [OutputPin::set_low/set_high], imu.rs:146, 150. *)
  Definition pin_set (high : bool) : MI (option unit) := fun s =>
    let '((ok, lvl), b) := e_pin env (i_bus s) high in
    (Val (if ok then Some tt else None),
     Imu b (if ok then high else lvl) (i_log s) (i_accel s) (i_gyro s)).

  (** imu.rs:145-147. *)
  Definition assert_cs : MI (option unit) := pin_set false.
  (** imu.rs:149-151. *)
  Definition deassert_cs : MI (option unit) := pin_set true.

  (** [Transfer::transfer] (imu.rs:170, 194): the answer has the length of the buffer. *)
  Definition transfer (buf : list Z) : MI (option (list Z)) := fun s =>
    let '(r, b) := e_transfer env (i_bus s) buf in
    let r := match r with Some f => Some (map f (seq 0 (length buf))) | None => None end in
    (Val r, Imu b (i_high s) ((i_high s, buf, r) :: i_log s) (i_accel s) (i_gyro s)).

  (** imu.rs:153-163 with 165-173. *)
  Definition write_to_register (address data : Z) : MI (option unit) :=
    do a <- assert_cs;
    match a with
    | None => mret None
    | Some _ =>
      do r <- transfer [address; data];
      do d <- deassert_cs;
      match d with
      | None => mret None
      | Some _ => mret (match r with Some _ => Some tt | None => None end)
      end
    end.

  (** imu.rs:175-186 with 188-196; [len] is the size of the buffer, data length + 1. *)
  Definition read_from_registers (address : Z) (len : nat) : MI (option (list Z)) :=
    do a <- assert_cs;
    match a with
    | None => mret None
    | Some _ =>
      do r <- transfer (Z.lor address 128 :: repeat 0 (len - 1));
      do d <- deassert_cs;
      match d with
      | None => mret None
      | Some _ => mret (match r with Some l => Some (tl l) | None => None end)
      end
    end.

  (** indexing of a slice: panics when out of bounds (imu.rs:138, 218, 230). *)
  Definition at_index (l : list Z) (i : nat) : MI Z :=
    match nth_error l i with Some v => mret v | None => mstop end.

  (** imu.rs:135-143 ([RA_WHO_AM_I = 0], [ICM20648_DEVICE_ID = 0xE0]). *)
  Definition check_who_am_i : MI (nbr unit) :=
    do r <- read_from_registers 0 2;
    match r with
    | None => mret NErr
    | Some l => do v <- at_index l 0; mret (if v =? 224 then NOk tt else NWouldBlock)
    end.

  (** imu.rs:198-201. *)
  Definition connect_raw_data (higher lower : Z) : Z :=
    u16_as_i16 (Z.lor (Z.shiftl higher 8) lower).

  (** imu.rs:203-205, scale factor lines 48-52. *)
  Definition raw_to_gyro (v : Z) : num := (lit 10642251 10000000000 * of_int v * lit 99 100)%num.
  (** imu.rs:207-209, scale factor lines 53-57. *)
  Definition raw_to_accel (v : Z) : num := (lit 5985504 10000000000 * of_int v)%num.

  (** the current driver fields (imu.rs:23-24, read at 219, 231). *)
  Definition get_accel : MI num := fun s => (Val (i_accel s), s).
  (** imu.rs:219. *)
  Definition get_gyro : MI num := fun s => (Val (i_gyro s), s).
  (** assignments to [accel_offset] and [gyro_offset] (imu.rs:110-111, 130-131). *)
  Definition set_offsets (a g : num) : MI unit := fun s =>
    (Val tt, Imu (i_bus s) (i_high s) (i_log s) a g).

  (** imu.rs:211-221 ([RA_GYRO_Z_OUT_H = 0x37]). *)
  Definition angular_velocity : MI (nbr num) :=
    do r <- read_from_registers 55 3;
    match r with
    | None => mret NErr
    | Some l =>
      do h <- at_index l 0; do lo <- at_index l 1; do off <- get_gyro;
      mret (NOk (raw_to_gyro (connect_raw_data h lo) - off)%num)
    end.

  (** imu.rs:223-233 ([RA_ACCEL_Y_OUT_H = 0x2F]). *)
  Definition translational_acceleration : MI (nbr num) :=
    do r <- read_from_registers 47 3;
    match r with
    | None => mret NErr
    | Some l =>
      do h <- at_index l 0; do lo <- at_index l 1; do off <- get_accel;
      mret (NOk (- raw_to_accel (connect_raw_data h lo) - off)%num)
    end.

  (** [block!(timer.wait()).ok()], imu.rs:128: its error is ignored, so only waiting matters. *)
  Definition timer_wait : MI (nbr unit) := fun s =>
    let '(r, b) := e_timer env (i_bus s) in
    (Val (if r then NOk tt else NWouldBlock), Imu b (i_high s) (i_log s) (i_accel s) (i_gyro s)).

  (** the loop of imu.rs:123-129. *)
  Fixpoint calib_loop (n fuel : nat) (sa sg : num) : MI (option (num * num)) :=
    match n with
    | O => mret (Some (sa, sg))
    | S n' =>
      do a <- block fuel translational_acceleration;
      match a with
      | None => mret None
      | Some a =>
        do g <- block fuel angular_velocity;
        match g with
        | None => mret None
        | Some g =>
          do _ <- block fuel timer_wait;
          calib_loop n' fuel (sa + a)%num (sg + g)%num
        end
      end
    end.

  (** [CALIBRATION_NUM], imu.rs:59. *)
  Definition CALIBRATION_NUM : Z := 1000.

  (** imu.rs:116-133. *)
  Definition calibrate (fuel : nat) : MI (option unit) :=
    do r <- calib_loop (Z.to_nat CALIBRATION_NUM) fuel n0 n0;
    match r with
    | None => mret None
    | Some (sa, sg) =>
      do a0 <- get_accel; do g0 <- get_gyro;
      do _ <- set_offsets (a0 + sa / of_int CALIBRATION_NUM)%num (g0 + sg / of_int CALIBRATION_NUM)%num;
      mret (Some tt)
    end.

  (** imu.rs:78-114; [delay_ms] has no effect on the modelled state.  Registers: PWR_MGMT_1 = 6,
      LP_CONFIG = 5, REG_BANK_SEL = 0x7F, GYRO_CONFIG_1 = 1, ACCEL_CONFIG = 0x14. *)
  Definition imu_init (fuel : nat) : MI unit :=
    let write r v := wait_ok fuel (write_to_register r v) in
    do _ <- write 6 128;
    do _ <- wait_ok fuel (block fuel check_who_am_i);
    do _ <- write 6 1;
    do _ <- write 5 0;
    do _ <- write 127 32;
    do _ <- write 1 6;
    do _ <- write 20 0;
    do _ <- write 127 0;
    do _ <- set_offsets n0 n0;
    do _ <- wait_ok fuel (calibrate fuel);
    wait_ok fuel (calibrate fuel).

  (** public calls, imu.rs:61, 78, 116, 211, 223. *)
  Inductive imu_call := CInit | CCalibrate | CGyro | CAccel.
  (** one of the calls (imu.rs:78, 116, 211, 223). *)
  Definition imu_do (fuel : nat) (c : imu_call) : MI unit :=
    match c with
    | CInit => imu_init fuel
    | CCalibrate => do _ <- calibrate fuel; mret tt
    | CGyro => do _ <- angular_velocity; mret tt
    | CAccel => do _ <- translational_acceleration; mret tt
    end.

  (** a sequence of calls (imu.rs:78, 116, 211, 223); stops when one panics or is still running. *)
  Fixpoint imu_calls (fuel : nat) (cs : list imu_call) : MI unit :=
    match cs with
    | [] => mret tt
    | c :: cs' => do _ <- imu_do fuel c; imu_calls fuel cs'
    end.
End ImuModel.

(** ** Range sensor, tof.rs *)

(** I2C bus and enable pin of tof.rs:47-53 as a state machine. *)
Record i2c_env (B : Type) := I2cEnv {
  t_write : B -> Z -> list Z -> bool * B;                (* device, bytes -> ok *)
  t_write_read : B -> Z -> list Z -> option Z * B;       (* one byte answer *)
  t_pin : B -> bool -> bool * B                          (* level -> ok *)
}.
Arguments t_write {B}.
Arguments t_write_read {B}.
Arguments t_pin {B}.

(** tof.rs:10-14. *)
Inductive tof_state := Idle | Waiting.
(** tof.rs:19-26, with the bus. *)
Record tof (B : Type) := Tof { f_bus : B; f_addr : Z; f_state : tof_state }.
Arguments Tof {B}.
Arguments f_bus {B}.
Arguments f_addr {B}.
Arguments f_state {B}.

Section TofModel.
  Context {B : Type} (env : i2c_env B).
  Notation MT := (M (tof B)).

  (** tof.rs:181-184. *)
  Definition split_register_address (a : Z) : Z * Z := (Z.shiftr a 8 mod 256, a mod 256).

  (** tof.rs:157-167. *)
  Definition tof_write (address data : Z) : MT (option unit) := fun s =>
    let (h, l) := split_register_address address in
    let '(ok, b) := t_write env (f_bus s) (f_addr s) [h; l; data] in
    (Val (if ok then Some tt else None), Tof b (f_addr s) (f_state s)).

  (** tof.rs:169-179. *)
  Definition tof_read (address : Z) : MT (option Z) := fun s =>
    let (h, l) := split_register_address address in
    let '(r, b) := t_write_read env (f_bus s) (f_addr s) [h; l] in
    (Val r, Tof b (f_addr s) (f_state s)).

  (** [enable_pin.set_low/set_high], tof.rs:70, 72. *)
  Definition tof_pin (high : bool) : MT (option unit) := fun s =>
    let '(ok, b) := t_pin env (f_bus s) high in
    (Val (if ok then Some tt else None), Tof b (f_addr s) (f_state s)).

  (** assignments to [state] (tof.rs:191, 217). *)
  Definition set_state (st : tof_state) : MT unit := fun s => (Val tt, Tof (f_bus s) (f_addr s) st).
  (** assignment to [device_address] (tof.rs:91). *)
  Definition set_addr (a : Z) : MT unit := fun s => (Val tt, Tof (f_bus s) a (f_state s)).

  (** tof.rs:95-102 ([SYSTEM_FRESH_OUT_OF_RESET = 0x16], [IDLE_VALUE = 1]). *)
  Definition check_if_working : MT (nbr unit) :=
    do r <- tof_read 22;
    match r with
    | None => mret NErr
    | Some v => mret (if v =? 1 then NOk tt else NWouldBlock)
    end.

  (** the register/value pairs of tof.rs:110-155. *)
  Definition tuning : list (Z * Z) :=
    [(519, 1); (520, 1); (307, 1); (150, 0); (151, 253); (227, 0); (228, 4); (229, 2); (230, 1);
     (231, 3); (245, 2); (217, 5); (219, 206); (220, 3); (221, 248); (159, 0); (163, 60); (183, 0);
     (187, 60); (178, 9); (202, 9); (408, 1); (432, 23); (429, 0); (255, 5); (256, 5); (409, 5);
     (265, 7); (266, 48); (63, 70); (422, 27); (428, 62); (423, 31); (259, 1); (48, 0); (27, 10);
     (62, 10); (305, 4); (17, 16); (20, 36); (49, 255); (210, 1); (242, 1)].

  (** a sequence of [write_to_register(..)?] (tof.rs:106-107, 111-154). *)
  Fixpoint tof_writes (l : list (Z * Z)) : MT (option unit) :=
    match l with
    | [] => mret (Some tt)
    | (r, v) :: l' =>
      do x <- tof_write r v; match x with None => mret None | Some _ => tof_writes l' end
    end.

  (** tof.rs:104-108 ([SYSTEM_INTERRUPT_CONFIG_GPIO = 0x14]). *)
  Definition configure_range_mode : MT (option unit) := tof_writes [(20, 4)].

  (** tof.rs:85-93 ([I2C_SLAVE_DEVICE_ADDRESS = 0x212]). *)
  Definition update_device_address (a : Z) : MT (option unit) :=
    do r <- tof_write 530 a;
    match r with None => mret None | Some _ => do _ <- set_addr a; mret (Some tt) end.

  (** tof.rs:64-83. *)
  Definition tof_init (fuel : nat) (new_address : Z) : MT unit :=
    do _ <- wait_ok fuel (tof_pin false);
    do _ <- wait_ok fuel (tof_pin true);
    do _ <- wait_ok fuel (block fuel check_if_working);
    do _ <- wait_ok fuel (tof_writes tuning);
    do _ <- wait_ok fuel configure_range_mode;
    wait_ok fuel (update_device_address new_address).

  (** tof.rs:47-62 ([DEFAULT_ADDRESS = 0x29]): the driver before [init]. *)
  Definition tof_fresh (b : B) : tof B := Tof b 41 Idle.

  (** tof.rs:186-193 ([SYSRANGE_START = 0x18]). *)
  Definition request_polling : MT (nbr unit) :=
    do r <- tof_write 24 1;
    match r with None => mret NErr | Some _ => do _ <- set_state Waiting; mret (NOk tt) end.

  (** tof.rs:195-197. *)
  Definition is_polling_requested (s : tof B) : bool :=
    match f_state s with Waiting => true | Idle => false end.

  (** tof.rs:199-220; the distance is returned in millimetres.
      [RESULT_INTERRUPT_STATUS_GPIO = 0x4F], [RESULT_RANGE_VAL = 0x62],
      [SYSTEM_INTERRUPT_CLEAR = 0x15]. *)
  Definition tof_distance : MT (nbr Z) := fun s =>
    match f_state s with
    | Idle => (Val NWouldBlock, s)
    | Waiting =>
      (do r <- tof_read 79;
       match r with
       | None => mret NErr
       | Some data =>
         if negb (Z.land data 4 =? 4) then mret NWouldBlock else
         do d <- tof_read 98;
         match d with
         | None => mret NErr
         | Some d =>
           do c <- tof_write 21 7;
           match c with None => mret NErr | Some _ => do _ <- set_state Idle; mret (NOk d) end
         end
       end) s
    end.
End TofModel.
