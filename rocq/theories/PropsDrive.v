(** Navigation, tracking and control in binary32 (C106). *)
From Coq Require Import ZArith Reals List Bool Lia Lra.
From Flocq Require Import Core BinarySingleNaN.
From Verif Require Import Base Num NumLemmas ControlModel ControlSpec FloatMag FloatRange FloatMoveSpec FloatMove FloatCtlSpec FloatMove2
  EstFloat CtlFloat CtlFloat2 CtlFloat3 FloatCurve3 PropsSlalom.
Import ListNotations.
Open Scope R_scope.

(** ** C106: with ordinary states, targets and gains the voltages of both motors are finite in each of
    the first 2^23 periods after the start (more than two hours at 1 ms). *)
Theorem C106_finite lm (n : @navigation (Fops lm)) (tp rp : @control_parameters (Fops lm)) (T p th z b : f32)
    (l : list (@state (Fops lm) * @target (Fops lm))) :
  calm_trig lm -> within (-1024) 1024 (gain n) -> within (-1024) 1024 (dgain n) ->
  usual_gains tp -> usual_gains rp -> within (-1) 1 T -> within (-1) 1 p ->
  is_finite th = true -> 1 / 1024 <= B2R th -> within (-1024) 1024 z -> within 0 1024 b ->
  Forall (fun st => usual_state (fst st) /\ usual_target (snd st)) l -> INR (length l) <= 8388608 ->
  Forall (fun m : @motor_output (Fops lm) => is_finite (m_left m : f32) = true /\ is_finite (m_right m : f32) = true)
    (drive n (@Tracker (Fops lm) (@n0 (Fops lm)) p th z b, @controller_new (Fops lm) tp rp T) l) /\
  length (drive n (@Tracker (Fops lm) (@n0 (Fops lm)) p th z b, @controller_new (Fops lm) tp rp T) l) = length l.
Proof.
  intros Ht G1 G2 Htp Hrp HT Hp Fth Hth Hz [Fb Hb] Hl Hn. split.
  - assert (Z : forall k, near k 0 (@n0 (Fops lm))).
    { intros k. change (@n0 (Fops lm)) with (f32_div (f32_of_Z 0) (f32_of_Z 1)). split; [exact (proj1 f0_below)|].
      replace (B2R (f32_div (f32_of_Z 0) (f32_of_Z 1))) with 0 by (vm_compute; reflexivity).
      rewrite Rabs_R0. cbn [INR]. pose proof (bpow_gt_0 radix2 k). lra. }
    apply (drive_finite lm (calm_below lm Ht) n tp rp T p th z b) with (n := 0%nat); try assumption;
      try (apply (sym_below 10 1024); [reflexivity|assumption]); try (apply (sym_below 0 1); [reflexivity|assumption]).
    + apply Rle_trans with (2 := Hth). change (-10)%Z with (- (10))%Z. rewrite bpow_opp. change (bpow radix2 10) with 1024. lra.
    + apply (sym_below 10 1024); [reflexivity|]. split; [exact Fb|lra].
    + apply Hb.
    + repeat split; try reflexivity; apply Z.
    + repeat split; try reflexivity; apply Z.
  - generalize (@Tracker (Fops lm) (@n0 (Fops lm)) p th z b, @controller_new (Fops lm) tp rp T). clear.
    induction l as [|st l IH]; intros kc; [reflexivity|]. cbn [drive]. destruct (drive_step n kc st) as [m kc']. cbn [length]. rewrite IH. reflexivity.
Qed.
Print Assumptions C106_finite.

(** A reference speed or a measured speed that is not a number is remembered: until the next reset no
    voltage is a number again. *)
Theorem C106_nan lm (c : @controller (Fops lm)) (r y : @control_target (Fops lm)) (h : list (@call (Fops lm))) (r' y' : @control_target (Fops lm)) :
  is_nan (c_v r : f32) = true \/ is_nan (c_v y : f32) = true -> ~ In Reset h ->
  let m := fst (control (run_calls c (Control r y :: h)) r' y') in
  is_nan (m_left m : f32) = true /\ is_nan (m_right m : f32) = true.
Proof.
  intros H N. cbv zeta. unfold run_calls. cbn [fold_left step_call].
  assert (A : is_nan (trans_sum (snd (control c r y)) : f32) = true).
  { pose proof (nan_sum lm c r y) as B. destruct (control c r y) as [m c']. apply B. tauto. }
  revert A. generalize (snd (control c r y)). clear c H. induction h as [|x h IH]; intros c A; cbn [fold_left].
  - pose proof (nan_sum lm c r' y') as B. destruct (control c r' y') as [m c']. destruct B as (B1 & B2 & _); [tauto|]. split; assumption.
  - apply IH; [intros I; apply N; right; exact I|]. destruct x as [r1 y1|]; [|exfalso; apply N; left; reflexivity].
    cbn [step_call]. pose proof (nan_sum lm c r1 y1) as B. destruct (control c r1 y1) as [m c']. apply B. tauto.
Qed.
Print Assumptions C106_nan.

(** Two periods: a robot at rest that shall start, and a moving one. *)
Example C106_case : let lm := flat_libm in
  let d z := dyad z 0 in
  let still := @Axis3 (Fops lm) (d 0%Z) (d 0%Z) (d 0%Z) in let moving := @Axis3 (Fops lm) (d 1%Z) (d 2%Z) (d 3%Z) in
  let start := @Axis4 (Fops lm) (d 0%Z) (d 0%Z) (d 1%Z) (d 50%Z) in let on := @Axis4 (Fops lm) (d 1%Z) (d 3%Z) (d 2%Z) (d 0%Z) in
  calm_trig lm /\ usual_gains (@ControlParameters (Fops lm) (d 1%Z) (d 10%Z) (d 0%Z) (d 1%Z) (d 1%Z)) /\
  within (-1) 1 (dyad 1 10) /\ 1 / 1024 <= B2R (dyad 1 5) /\ within 0 1024 (d 1%Z) /\
  Forall (fun st => usual_state (fst st) /\ usual_target (snd st))
    [(@State (Fops lm) still still still, @Target (Fops lm) start start start);
     (@State (Fops lm) moving still moving, @Target (Fops lm) on start on)] /\
  is_nan (@c_v (Fops lm) (@ControlTarget (Fops lm) (B754_nan : f32) (d 0%Z) (d 0%Z) (d 0%Z)) : f32) = true.
Proof.
  cbv zeta.
  assert (D : forall z k, (Z.abs z <= 2 ^ 24)%Z -> (0 <= k <= 24)%Z -> is_finite (dyad z k) = true /\ B2R (dyad z k) = IZR z / IZR (2 ^ k)) by exact dyad_val.
  assert (C : forall z, IZR z / IZR (2 ^ 0) = IZR z) by (intros z; change (2 ^ 0)%Z with 1%Z; field).
  assert (P : forall a b z, (Z.abs z <= 2 ^ 24)%Z -> a <= IZR z <= b -> within a b (dyad z 0)).
  { intros a b z Hz H. destruct (D z 0%Z Hz ltac:(lia)) as [F E]. split; [exact F|]. rewrite E, C. exact H. }
  split; [|split; [|split; [|split; [|split; [|split]]]]].
  - intros x _. cbn [flat_libm l_sin l_cos]. destruct (f32_of_Z_exact 1 ltac:(lia)) as [V F].
    split; [split; [reflexivity|cbn [B2R]; lra]|split; [exact F|rewrite V; lra]].
  - unfold usual_gains. cbn [kp ki kd model_k model_t1]. destruct (D 1 0 ltac:(lia) ltac:(lia))%Z as [F E].
    split; [apply P; [lia|lra]|]. split; [apply P; [lia|lra]|]. split; [apply P; [lia|lra]|]. split; [apply P; [lia|lra]|].
    split; [exact F|]. rewrite E, C, Rabs_R1. lra.
  - destruct (D 1 10 ltac:(lia) ltac:(lia))%Z as [F E]. split; [exact F|]. rewrite E. change (2 ^ 10)%Z with 1024%Z. lra.
  - destruct (D 1 5 ltac:(lia) ltac:(lia))%Z as [F E]. rewrite E. change (2 ^ 5)%Z with 32%Z. lra.
  - apply P; [lia|lra].
  - unfold usual_state, usual_target.
    repeat match goal with
      | |- Forall _ (_ :: _) => constructor | |- Forall _ [] => constructor
      | |- _ /\ _ => split | |- within _ _ _ => cbn [fst snd s_x s_y s_theta t_x t_y t_theta sx sv sa tx tv ta tj]; apply P; [lia|lra] end.
  - reflexivity.
Qed.
