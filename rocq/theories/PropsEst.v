(** The estimator in binary32 (C105). *)
From Coq Require Import ZArith Reals List Bool Lia Lra.
From Flocq Require Import Core BinarySingleNaN.
From Verif Require Import Base Num NumLemmas ControlModel ControlSpec FloatMag FloatRange FloatMoveSpec FloatMove FloatEstSpec
  EstFloat EstFloat2 FloatCurve3 PropsSlalom.
Import ListNotations.
Open Scope R_scope.

(** ** C105: with ordinary readings the estimate stays finite for the first 2^20 calls (17 minutes at
    1 ms), whatever the readings are and in whatever order they come. *)
Theorem C105_finite lm (p al sc th : f32) (s : @state (Fops lm)) (l : list (@sensor_value (Fops lm))) :
  calm_trig lm -> cos_apart lm ->
  within (1 / 1024) (1 / 64) p -> within 0 (1023 / 1024) al -> is_finite sc = true -> 0 < B2R sc ->
  is_finite th = true -> 1 / 1024 <= B2R th ->
  usual_start s -> Forall usual_reading l -> l <> [] -> INR (length l) <= 1048576 ->
  let '(e', s') := est_run (@estimator_new (Fops lm) p al sc th, s) l in
  finite_state s' /\ is_finite (e_slip_angle e' : f32) = true /\
  within (-131072) 131072 (e_trans_vel e') /\ within (-64) 64 (sv (s_theta s')) /\
  is_finite (sx (s_theta s') : f32) = true /\ Rabs (B2R (sx (s_theta s') : f32)) <= 4 * (INR (length l) + 1).
Proof.
  intros Ht Hc Hp Ha Fs Ps Ft Pt Hs Hl Ne Hn.
  destruct (run_kept lm (calm_below lm Ht) Hc p al sc th Hp Ha Fs Ps Ft Pt l 0%nat (@estimator_new (Fops lm) p al sc th, s) Hl Hn (start_kept lm p al sc th s Hs)) as [K F].
  specialize (F Ne). destruct (est_run _ l) as [e' s']. cbn [snd Nat.add] in *.
  destruct K as (_ & _ & _ & _ & K1 & _ & K2 & _ & _ & [K3 K4] & K5).
  split; [exact F|]. split; [exact K1|]. split; [exact K2|]. split; [exact K5|]. split; [exact K3|exact K4].
Qed.
Print Assumptions C105_finite.

(** A reading whose acceleration is not a number is never forgotten: the speed is not a number from
    then on. *)
Theorem C105_nan lm (e : @estimator (Fops lm)) (s : @state (Fops lm)) (v : @sensor_value (Fops lm)) (l : list (@sensor_value (Fops lm))) :
  is_nan (translational_acceleration v : f32) = true ->
  is_nan (e_trans_vel (fst (est_run (e, s) (v :: l))) : f32) = true.
Proof. exact (nan_stays lm e s v l). Qed.
Print Assumptions C105_nan.

(** Two readings: a straight step and a turn on the spot. *)
Example C105_case : let lm := flat_libm in
  let straight := @SensorValue (Fops lm) (dyad 1 10) (dyad 1 10) (dyad 1 0) (dyad 0 0) in
  let turn := @SensorValue (Fops lm) (dyad (-1) 10) (dyad 1 10) (dyad 0 0) (dyad 10 0) in
  let rest := @Axis3 (Fops lm) (dyad 0 0) (dyad 0 0) (dyad 0 0) in
  calm_trig lm /\ cos_apart lm /\ within (1 / 1024) (1 / 64) (dyad 1 10) /\ within 0 (1023 / 1024) (dyad 1 1) /\
  0 < B2R (dyad 100 0) /\ 1 / 1024 <= B2R (dyad 1 5) /\
  usual_start (@State (Fops lm) rest rest rest) /\ Forall usual_reading [straight; turn].
Proof.
  cbv zeta.
  assert (D : forall z k, (Z.abs z <= 2 ^ 24)%Z -> (0 <= k <= 24)%Z -> is_finite (dyad z k) = true /\ B2R (dyad z k) = IZR z / IZR (2 ^ k)) by exact dyad_val.
  assert (P : forall a b z k, (Z.abs z <= 2 ^ 24)%Z -> (0 <= k <= 24)%Z -> a <= IZR z / IZR (2 ^ k) <= b -> within a b (dyad z k)).
  { intros a b z k Hz Hk H. destruct (D z k Hz Hk) as [F E]. split; [exact F|]. rewrite E. exact H. }
  assert (C : forall z, IZR z / IZR (2 ^ 0) = IZR z) by (intros z; change (2 ^ 0)%Z with 1%Z; field).
  destruct (D 100 0)%Z as [_ E1]; [lia|lia|]. destruct (D 1 5)%Z as [_ E2]; [lia|lia|].
  split; [|split; [|split; [|split; [|split; [|split; [|split]]]]]].
  - intros x _. cbn [flat_libm l_sin l_cos]. destruct (f32_of_Z_exact 1 ltac:(lia)) as [V F].
    split; [split; [reflexivity|cbn [B2R]; lra]|split; [exact F|rewrite V; lra]].
  - intros x _. cbn [flat_libm l_cos]. destruct (f32_of_Z_exact 1 ltac:(lia)) as [V F]. rewrite V, Rabs_R1.
    change 1 with (bpow radix2 0). apply bpow_le. lia.
  - apply P; try lia. change (2 ^ 10)%Z with 1024%Z. lra.
  - apply P; try lia. change (2 ^ 1)%Z with 2%Z. lra.
  - rewrite E1, C. lra.
  - rewrite E2. change (2 ^ 5)%Z with 32%Z. lra.
  - unfold usual_start. cbn [s_x s_y s_theta sx sv]. repeat match goal with |- _ /\ _ => split | |- within _ _ _ => apply P; try lia; rewrite C; lra end.
  - repeat constructor; cbn [left_distance right_distance translational_acceleration angular_velocity];
      try (apply (fun a b => proj1 (D _ _ a b)); lia).
    all: rewrite ?(proj2 (D 1 10 ltac:(lia) ltac:(lia))%Z), ?(proj2 (D (-1) 10 ltac:(lia) ltac:(lia))%Z), ?(proj2 (D 1 0 ltac:(lia) ltac:(lia))%Z),
      ?(proj2 (D 0 0 ltac:(lia) ltac:(lia))%Z), ?(proj2 (D 10 0 ltac:(lia) ltac:(lia))%Z), ?C; change (2 ^ 10)%Z with 1024%Z; lra.
Qed.
