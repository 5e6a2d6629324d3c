(** The plan of a move in binary32: all of its numbers are finite, and so are its targets. *)
From Coq Require Import ZArith Reals Bool Lra Lia.
From Flocq Require Import Core BinarySingleNaN.
From Verif Require Import Base Num NumLemmas FloatMag FloatRange ControlModel TrajModel JerkProofs FloatMove.
Open Scope R_scope.

Lemma below_add2 i j x y : below i x -> below j y -> (-149 <= Z.max i j + 1 < 128)%Z ->
  below (Z.max i j + 1) (Bplus mode_NE x y).
Proof. intros X Y H. apply below_add; [apply (below_le i); [lia|exact X]|apply (below_le j); [lia|exact Y]|exact H]. Qed.
Lemma below_sub2 i j x y : below i x -> below j y -> (-149 <= Z.max i j + 1 < 128)%Z ->
  below (Z.max i j + 1) (Bminus mode_NE x y).
Proof. intros X Y H. apply below_sub; [apply (below_le i); [lia|exact X]|apply (below_le j); [lia|exact Y]|exact H]. Qed.

Definition f6 : f32 := f32_div (f32_of_Z 6) (f32_of_Z 1).
Lemma f6_val : bpow radix2 2 <= Rabs (B2R f6).
Proof.
  destruct (f32_of_Z_exact 6 ltac:(lia)) as [E F]. destruct (f32_of_Z_exact 1 ltac:(lia)) as [E1 F1].
  destruct (div_btw 4 8 (f32_of_Z 6) (f32_of_Z 1) F) as [_ H].
  - rewrite E1. lra.
  - apply fit_int; lia.
  - apply fit_int; lia.
  - rewrite E, E1. lra.
  - fold f6 in H. rewrite Rabs_pos_eq by lra. change (bpow radix2 2) with 4. lra.
Qed.
Lemma f2_low : bpow radix2 1 <= Rabs (B2R f2).
Proof. destruct f2_val as [-> _]. rewrite Rabs_pos_eq by lra. change (bpow radix2 1) with 2. lra. Qed.
Lemma f0_below : below 0 (f32_div (f32_of_Z 0) (f32_of_Z 1)).
Proof. split; [vm_compute; reflexivity|]. replace (f32_div (f32_of_Z 0) (f32_of_Z 1)) with (B754_zero false : f32) by (vm_compute; reflexivity).
  cbn [B2R]. rewrite Rabs_R0. apply bpow_ge_0. Qed.

Ltac bl := match goal with
  | |- below _ (Bplus _ _ _) => eapply below_add2; [bl|bl|lia]
  | |- below _ (Bminus _ _ _) => eapply below_sub2; [bl|bl|lia]
  | |- below _ (Bmult _ _ _) => eapply below_mul; [bl|bl|lia]
  | |- below _ (f32_div (f32_of_Z 0) (f32_of_Z 1)) => apply f0_below
  | |- below _ (f32_div _ f2) => eapply below_div; [bl|exact f2_low|lia]
  | |- below _ (f32_div _ f6) => eapply below_div; [bl|exact f6_val|lia]
  | |- below _ (Bopp _) => eapply below_opp; bl
  | |- below _ f2 => exact f2_below
  | |- below _ f1 => exact f1_below
  | |- below _ _ => eassumption
  end.

Section Plan.
Variable lm : libm.
#[local] Hint Extern 0 ops => exact (Fops lm) : typeclass_instances.

Definition fin4 (a : axis4) : Prop :=
  is_finite (tx a : f32) = true /\ is_finite (tv a : f32) = true /\ is_finite (ta a : f32) = true /\ is_finite (tj a : f32) = true.

Definition tame_accel (c : accel_calc) : Prop :=
  below 16 (ac_x_start c : f32) /\ below 5 (ac_v_start c : f32) /\ below 16 (ac_x_end c : f32) /\ below 5 (ac_v_end c : f32) /\
  below 10 (ac_a_m c : f32) /\ below 16 (ac_j_m c : f32) /\ below 12 (ac_t1 c : f32) /\ below 12 (ac_t2 c : f32) /\ below 12 (ac_t3 c : f32).
Definition tame_const (c : const_calc) : Prop :=
  below 12 (cc_t_end c : f32) /\ below 16 (cc_x_start c : f32) /\ below 5 (cc_v c : f32).
Definition tame (c : overall) : Prop :=
  below 16 (oc_x_start c : f32) /\ below 5 (oc_v_start c : f32) /\ below 12 (oc_t1 c : f32) /\ below 12 (oc_t2 c : f32) /\
  below 12 (oc_t3 c : f32) /\ below 16 (oc_distance c : f32) /\ below 5 (oc_v_end c : f32) /\
  tame_accel (oc_accel c) /\ tame_const (oc_const c) /\ tame_accel (oc_decel c) /\ below 0 (oc_sign c : f32).

Lemma small_intro (mx mv ma mj : Z) (x v a j : f32) kx kv ka kj : below kx x -> below kv v -> below ka a -> below kj j ->
  (kx <= mx)%Z -> (kv <= mv)%Z -> (ka <= ma)%Z -> (kj <= mj)%Z ->
  below mx x /\ below mv v /\ below ma a /\ below mj j.
Proof.
  intros. split; [apply (below_le kx)|split; [apply (below_le kv)|split; [apply (below_le ka)|apply (below_le kj)]]]; assumption.
Qed.
Definition sm (a : axis4) : Prop :=
  below 62 (tx a : f32) /\ below 46 (tv a : f32) /\ below 32 (ta a : f32) /\ below 17 (tj a : f32).

Lemma accel_small (c : accel_calc) (t : f32) : tame_accel c -> below 14 t -> sm (accel_calculate c t).
Proof.
  intros (H1 & H2 & H3 & H4 & H5 & H6 & H7 & H8 & H9) Ht. destruct c as [a b c d e f h i j]; cbn [ac_x_start ac_v_start ac_x_end ac_v_end ac_a_m ac_j_m ac_t1 ac_t2 ac_t3] in *.
  unfold accel_calculate, sm. cbv zeta. unfold n0, n2.
  cbn [ac_x_start ac_v_start ac_x_end ac_v_end ac_a_m ac_j_m ac_t1 ac_t2 ac_t3 Fops lit add sub mul div opp ltb leb].
  change (f32_div (f32_of_Z 2) (f32_of_Z 1)) with f2. change (f32_div (f32_of_Z 6) (f32_of_Z 1)) with f6.
  repeat match goal with |- context [if ?c then _ else _] => destruct c end;
    cbn [tx tv ta tj]; (eapply small_intro; [bl|bl|bl|bl|lia|lia|lia|lia]).
Qed.

Lemma const_small (c : const_calc) (t : f32) : tame_const c -> below 14 t -> sm (const_calculate c t).
Proof.
  intros (H1 & H2 & H3) Ht. destruct c as [a b c]; cbn [cc_t_end cc_x_start cc_v] in *.
  unfold const_calculate, sm. unfold n0. cbn [cc_t_end cc_x_start cc_v Fops lit add mul ltb].
  match goal with |- context [if ?c then _ else _] => destruct c end;
    cbn [tx tv ta tj]; (eapply small_intro; [bl|bl|bl|bl|lia|lia|lia|lia]).
Qed.

Lemma calculate_small (c : overall) (t : f32) : tame c -> below 13 t ->
  below 64 (tx (calculate c t) : f32) /\ below 46 (tv (calculate c t) : f32) /\
  below 32 (ta (calculate c t) : f32) /\ below 17 (tj (calculate c t) : f32).
Proof.
  intros (H1 & H2 & H3 & H4 & H5 & H6 & H7 & H8 & H9 & H10 & H11) Ht. unfold calculate. cbv zeta.
  match goal with |- context [Axis4 ((tx ?x - _) * _ + _) _ _ _] => assert (S : sm x); [|set (y := x) in *; clearbody y] end.
  { repeat match goal with |- context [if ?c then _ else _] => destruct c end.
    - unfold sm. cbn [tx tv ta tj]. unfold n0. cbn [lit Fops]. eapply small_intro; [bl|bl|bl|bl|lia|lia|lia|lia].
    - apply accel_small; [exact H8|]. apply (below_le 13); [lia|exact Ht].
    - apply const_small; [exact H9|]. cbn [Fops sub]. apply (below_le (Z.max 13 12 + 1)); [lia|bl].
    - apply accel_small; [exact H10|]. cbn [Fops sub]. apply (below_le (Z.max 13 12 + 1)); [lia|bl].
    - unfold sm. cbn [tx tv ta tj]. unfold n0. cbn [lit Fops add]. eapply small_intro; [bl|bl|bl|bl|lia|lia|lia|lia]. }
  destruct S as (S1 & S2 & S3 & S4). cbn [tx tv ta tj Fops add sub mul].
  eapply small_intro; [bl|bl|bl|bl|lia|lia|lia|lia].
Qed.

Lemma calculate_finite (c : overall) (t : f32) : tame c -> below 13 t -> fin4 (calculate c t).
Proof.
  intros H Ht. destruct (calculate_small c t H Ht) as (A & B & C & D).
  split; [apply A|]. split; [apply B|]. split; [apply C|apply D].
Qed.
End Plan.
