(** The voltmeter in binary32: the reported voltage never leaves the range of the readings. *)
From Coq Require Import ZArith Reals List Bool Lia Lra.
From Flocq Require Import Core BinarySingleNaN.
From Verif Require Import Base Num NumLemmas SensorsModel SensorsProofs2 FloatMag FloatRange FloatMoveSpec FloatCurve3 CtlFloat2 SimFloat VoltFloat.
Import ListNotations.
Open Scope R_scope.

(** ** C110: if every converted reading is a number from 0 to 2^k, the voltage reported after any number
    of updates is a number from 0 to 2^k: the rounding errors of the filter do not pile up. *)
Theorem C110_bound lm {B} (adc : B -> adc_ans * B) fuel (period freq ratio : f32) b v0 b0 n v b1 :
  within 0 1024 period -> within 0 1048576 freq ->
  @vm_new (Fops lm) B adc fuel period freq ratio b = Ret (v0, b0) ->
  vm_updates adc n fuel v0 b0 = Ret (v, b1) ->
  exists vs, adc_reads adc b vs b1 /\ length vs = (100 + n)%nat /\
    forall k, (0 <= k <= 70)%Z ->
      Forall (fun x => within 0 (bpow radix2 k) (@adc_convert (Fops lm) ratio x : f32)) vs ->
      within 0 (bpow radix2 k) (v_voltage v : f32).
Proof.
  intros Hp Hf E0 E1. destruct (vm_f lm adc 0 fuel period freq ratio b v0 b0 n v b1 ltac:(lia) Hp Hf E0 E1) as (vs & R & L & _).
  exists vs. split; [exact R|]. split; [exact L|]. intros k Hk H.
  destruct (vm_f lm adc k fuel period freq ratio b v0 b0 n v b1 Hk Hp Hf E0 E1) as (vs' & R' & L' & U).
  apply U. rewrite <- (reads_prefix adc b vs b1 R vs' b1 R' ltac:(congruence)). exact H.
Qed.
Print Assumptions C110_bound.

(** With 12-bit readings and a divider ratio of at most 2^j the voltage stays a number from 0 to 2^(j+2),
    for ever. *)
Theorem C110_range lm {B} (adc : B -> adc_ans * B) fuel (period freq ratio : f32) b v0 b0 n v b1 j :
  within 0 1024 period -> within 0 1048576 freq -> (0 <= j <= 60)%Z -> within 0 (bpow radix2 j) ratio ->
  (forall c x c', adc c = (AOk x, c') -> (0 <= x < 4096)%Z) ->
  @vm_new (Fops lm) B adc fuel period freq ratio b = Ret (v0, b0) ->
  vm_updates adc n fuel v0 b0 = Ret (v, b1) ->
  within 0 (bpow radix2 (j + 2)) (v_voltage v : f32).
Proof.
  intros Hp Hf Hj Hr Ha E0 E1. destruct (C110_bound lm adc fuel period freq ratio b v0 b0 n v b1 Hp Hf E0 E1) as (vs & R & _ & U).
  apply U; [lia|]. clear U E0 E1. induction R as [c|c x c1 vs c' E _ IH|c c1 vs c' E _ IH]; [constructor| |exact IH].
  constructor; [|exact IH]. apply convert_low; [exact Hj|exact Hr|]. pose proof (Ha _ _ _ E). lia.
Qed.
Print Assumptions C110_range.

(** a divider that halves the voltage, readings that alternate between 2000 and 2001, three updates. *)
Example C110_case :
  let adc := fun b : Z => (AOk (2000 + b mod 2), (b + 1)%Z) in
  within 0 1024 (dyad 1 10) /\ within 0 1048576 (dyad 50 0) /\ within 0 (bpow radix2 1) (dyad 2 0) /\
  (forall c x c', adc c = (AOk x, c') -> (0 <= x < 4096)%Z) /\
  exists v0 b0 v b1, @vm_new (Fops libm0) Z adc 5 (dyad 1 10) (dyad 50 0) (dyad 2 0) 0%Z = Ret (v0, b0) /\
    vm_updates adc 3 5 v0 b0 = Ret (v, b1) /\ b1 = 103%Z.
Proof.
  cbv zeta. set (adc := fun b : Z => (AOk (2000 + b mod 2), (b + 1)%Z)).
  assert (P : forall a b z k, (Z.abs z <= 2 ^ 24)%Z -> (0 <= k <= 24)%Z -> a <= IZR z / IZR (2 ^ k) <= b -> within a b (dyad z k)).
  { intros a b z k Hz Hk H. destruct (dyad_val z k Hz Hk) as [F E]. split; [exact F|]. rewrite E. exact H. }
  assert (C : forall z, IZR z / IZR (2 ^ 0) = IZR z) by (intros z; change (2 ^ 0)%Z with 1%Z; field).
  split; [apply P; try lia; change (2 ^ 10)%Z with 1024%Z; lra|]. split; [apply P; try lia; rewrite C; lra|].
  split; [apply P; try lia; rewrite C; change (bpow radix2 1) with 2; lra|].
  split. { intros c x c' H. unfold adc in H. injection H as <- _. pose proof (Z.mod_pos_bound c 2). lia. }
  assert (S : forall (K : ops) n ratio sum b, exists s, @vm_sum K Z adc n 5 ratio sum b = Ret (s, (b + Z.of_nat n)%Z)).
  { intros K. induction n as [|n IH]; intros ratio sum b; [exists sum; cbn; do 2 f_equal; lia|].
    cbn [vm_sum]. unfold current_voltage. cbn [adc_block adc bind fst snd].
    destruct (IH ratio (add sum (adc_convert ratio (2000 + b mod 2))) (b + 1)%Z) as [s E]. exists s. rewrite E. do 2 f_equal. lia. }
  assert (U : forall (K : ops) n v b, exists v', @vm_updates K Z adc n 5 v b = Ret (v', (b + Z.of_nat n)%Z)).
  { intros K. induction n as [|n IH]; intros v b; [exists v; cbn; do 2 f_equal; lia|].
    cbn [vm_updates]. unfold vm_update, current_voltage. cbn [adc_block adc bind fst snd].
    match goal with |- exists v', vm_updates _ _ _ ?w _ = _ => destruct (IH w (b + 1)%Z) as [s E] end. exists s. rewrite E. do 2 f_equal. lia. }
  unfold vm_new. destruct (S (Fops libm0) 100%nat (dyad 2 0) n0 0%Z) as [s E]. rewrite E. cbn [bind fst snd].
  match goal with |- exists v0 b0 v b1, Ret (?w, ?c) = _ /\ _ => destruct (U (Fops libm0) 3%nat w c) as [v' E']; exists w, c, v' end.
  eexists. split; [reflexivity|]. split; [exact E'|reflexivity].
Qed.
