(** The simulator in binary32 (C108). *)
From Coq Require Import ZArith Reals List Bool Lia Lra.
From Flocq Require Import Core BinarySingleNaN.
From Verif Require Import Base Num NumLemmas WallsModel ControlModel ControlSpec SimModel SimSpec FloatMag FloatRange FloatMoveSpec FloatMove
  FloatEstSpec FloatSimSpec EstFloat CtlFloat3 SimFloat SimFloat2 FloatCurve3 PropsSlalom.
Import ListNotations.
Open Scope R_scope.

(** ** C108: with ordinary parameters everything that can be read from the simulator stays finite for
    the first 2^23 calls, for all voltages that are not NaN, also infinite ones. *)
Theorem C108_finite lm (w : walls) (cur last : @state (Fops lm)) (mx p kt tt kr tr wi : f32) (l : list (@command (Fops lm))) :
  near_circle lm -> usual_body cur -> usual_body last ->
  within 0 32 mx -> within (1 / 1024) (1 / 64) p -> within (-64) 64 kt -> within 0 (1 / 2) tt ->
  within (-64) 64 kr -> within 0 (1 / 2) tr -> within (-1) 1 wi ->
  Forall no_nan l -> INR (length l) <= 8388608 ->
  let m := runs (@simulator_new (Fops lm) w cur last mx p kt tt kr tr wi) l in
  finite_sim m /\ within (-4194304) 4194304 (trans_vel (m_current m)) /\ within (-4194304) 4194304 (sv (s_theta (m_current m))).
Proof.
  intros Hc H1 H2 Hm Hp Hkt Htt Hkr Htr Hw Hl Hn m.
  pose proof (runs_kept lm Hc mx p kt tt kr tr wi Hm Hp Hkt Htt Hkr Htr l 0%nat _ Hl Hn (new_kept lm Hc mx p kt tt kr tr wi w cur last H1 H2)) as K.
  fold m in K. split; [exact (kept_finite lm Hc mx p kt tt kr tr wi Hp Hw _ m K)|].
  destruct K as (_ & _ & _ & _ & _ & _ & _ & _ & _ & (_ & _ & _ & _ & _ & A & _ & _ & _ & B) & _). split; [exact B|exact A].
Qed.
Print Assumptions C108_finite.

(** A voltage that is not a number makes the position NaN at the next step, and it stays so whatever
    is applied later. *)
Theorem C108_nan lm (m : @simulator (Fops lm)) (o : @motor_output (Fops lm)) (l : list (@command (Fops lm))) :
  is_nan (m_left o : f32) = true \/ is_nan (m_right o : f32) = true ->
  let m' := runs m (Apply o :: Step :: l) in
  is_nan (sx (s_x (m_current m')) : f32) = true /\ is_nan (sx (s_y (m_current m')) : f32) = true /\
  is_nan (sv (s_x (m_current m')) : f32) = true /\ is_nan (sv (s_y (m_current m')) : f32) = true.
Proof.
  intros H. cbv zeta. cbn [runs].
  set (bad := fun m : @simulator (Fops lm) => is_nan (sx (s_x (m_current m)) : f32) = true /\ is_nan (sx (s_y (m_current m)) : f32) = true /\
    is_nan (sv (s_x (m_current m)) : f32) = true /\ is_nan (sv (s_y (m_current m)) : f32) = true).
  assert (S : forall n : @simulator (Fops lm), is_nan (next_trans_vel n : f32) = true -> bad (step n)).
  { intros n N. unfold bad, step. cbv zeta. cbn [m_current s_x s_y sx sv]. set (v := next_trans_vel n : f32) in *. clearbody v.
    unfold n2. cbn [add sub mul div nsin ncos lit Fops].
    assert (D : forall x y : f32, is_nan x = true -> is_nan (f32_div x y) = true) by (intros [] y E; try discriminate; destruct y; reflexivity).
    split; [|split; [|split]]; try (apply nan_mul; left; exact N); apply nan_add; right; apply D; apply nan_mul; left; apply nan_add; right; apply nan_mul; left; exact N. }
  assert (B : bad (step (apply m o))).
  { apply S. unfold next_trans_vel. cbv zeta. unfold apply. cbn [m_right_voltage m_left_voltage m_trans_k m_trans_t1 m_period m_current]. unfold n2. cbn [add sub mul div lit Fops].
    assert (L : forall v : f32, is_nan v = true -> is_nan (@limit (Fops lm) (m_max_voltage m) v : f32) = true).
    { intros [] E; try discriminate. unfold limit. cbn [ltb opp Fops]. generalize (m_max_voltage m : f32). intros [| | |]; reflexivity. }
    assert (D : forall x y : f32, is_nan x = true -> is_nan (f32_div x y) = true) by (intros [] y E; try discriminate; destruct y; reflexivity).
    apply nan_add; right; apply nan_mul; right; apply nan_mul; right; apply D; apply nan_add. destruct H as [H|H]; [right|left]; apply L, H. }
  change (bad (runs (step (apply m o)) l)). revert B. generalize (step (apply m o)). induction l as [|c l IH]; intros n B; [exact B|].
  destruct c as [o'|]; cbn [runs]; apply IH; [exact B|]. apply S. unfold next_trans_vel, trans_vel. cbv zeta. cbn [add sub mul div nsin ncos lit Fops].
  destruct B as (_ & _ & B & _). apply nan_add; left; apply nan_mul; left; apply nan_add; left; apply nan_mul; left; exact B.
Qed.
Print Assumptions C108_nan.

(** a robot at rest, full voltage, a step, an infinite voltage, a step. *)
Example C108_case : let lm := flat_libm in let z := @Axis3 (Fops lm) (dyad 0 0) (dyad 0 0) (dyad 0 0) in
  near_circle lm /\ usual_body (@State (Fops lm) z z z) /\ within 0 32 (dyad 5 0) /\ within (1 / 1024) (1 / 64) (dyad 1 10) /\
  within (-64) 64 (dyad 1 0) /\ within 0 (1 / 2) (dyad 1 2) /\ within (-1) 1 (dyad 1 5) /\
  Forall no_nan [Apply (@MotorOutput (Fops lm) (dyad 5 0) (dyad 5 0)); Step; Apply (@MotorOutput (Fops lm) (B754_infinity false) (dyad 5 0)); Step] /\
  is_nan (@m_left (Fops lm) (@MotorOutput (Fops lm) (B754_nan : f32) (dyad 5 0)) : f32) = true.
Proof.
  cbv zeta.
  assert (D : forall z k, (Z.abs z <= 2 ^ 24)%Z -> (0 <= k <= 24)%Z -> is_finite (dyad z k) = true /\ B2R (dyad z k) = IZR z / IZR (2 ^ k)) by exact dyad_val.
  assert (P : forall a b z k, (Z.abs z <= 2 ^ 24)%Z -> (0 <= k <= 24)%Z -> a <= IZR z / IZR (2 ^ k) <= b -> within a b (dyad z k)).
  { intros a b z k Hz Hk H. destruct (D z k Hz Hk) as [F E]. split; [exact F|]. rewrite E. exact H. }
  assert (C : forall z, IZR z / IZR (2 ^ 0) = IZR z) by (intros z; change (2 ^ 0)%Z with 1%Z; field).
  assert (N : is_nan (dyad 5 0) = false) by (destruct (D 5 0 ltac:(lia) ltac:(lia))%Z as [F _]; destruct (dyad 5 0); try discriminate; reflexivity).
  split; [|split; [|split; [|split; [|split; [|split; [|split; [|split]]]]]]].
  - intros x _. cbn [flat_libm l_sin l_cos]. destruct (f32_of_Z_exact 1 ltac:(lia)) as [V F]. split; [reflexivity|]. split; [exact F|]. rewrite V. cbn [B2R]. lra.
  - unfold usual_body. cbn [s_x s_y s_theta].
    assert (Q : forall a, 0 <= a -> within (- a) a (dyad 0 0)) by (intros a Ha; apply P; try lia; rewrite C; lra).
    repeat (constructor; [cbn [sx sv sa]; repeat match goal with |- _ /\ _ => split | |- within _ _ _ => apply Q; lra end|]). constructor.
  - apply P; try lia; rewrite C; lra.
  - apply P; try lia. change (2 ^ 10)%Z with 1024%Z. lra.
  - apply P; try lia; rewrite C; lra.
  - apply P; try lia. change (2 ^ 2)%Z with 4%Z. lra.
  - apply P; try lia. change (2 ^ 5)%Z with 32%Z. lra.
  - repeat (constructor; [cbn [no_nan m_left m_right]; first [exact I|split; first [exact N|reflexivity]]|]). constructor.
  - reflexivity.
Qed.
