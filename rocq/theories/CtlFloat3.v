(** Tracker and controller in binary32: many periods. *)
From Coq Require Import ZArith Reals List Bool Lia Lra.
From Flocq Require Import Core BinarySingleNaN.
From Verif Require Import Base Num NumLemmas ControlModel ControlSpec FloatMag FloatRange FloatMoveSpec FloatCtlSpec JerkProofs FloatMove FloatMove2 EstFloat CtlFloat CtlFloat2.
Import ListNotations.
Open Scope R_scope.

Section Loop.
Variable lm : libm.
#[local] Hint Extern 0 ops => exact (Fops lm) : typeclass_instances.

Lemma each_step (p : @control_parameters (Fops lm)) (n : nat) (r dr y dy T sum : f32) : usual_gains p ->
  below 63 r -> below 73 dr -> below 12 y -> below 20 dy -> below 0 T -> near 64 n sum -> INR (S n) <= 8388608 ->
  below 101 (fst (@control_each (Fops lm) r dr y dy p T sum) : f32) /\ near 64 (S n) (snd (@control_each (Fops lm) r dr y dy p T sum)).
Proof.
  intros (P1 & P2 & P3 & P4 & P5 & P6) Hr Hdr Hy Hdy HT Hs Hn.
  apply (sym_below 10) in P1, P2, P3, P4; try reflexivity.
  assert (P : bpow radix2 (-10) <= Rabs (B2R (model_k p : f32))).
  { apply Rle_trans with (2 := P6). change (-10)%Z with (- (10))%Z. rewrite bpow_opp. change (bpow radix2 10) with 1024. lra. }
  assert (Bs : below 88 sum).
  { apply (near_below 64 n); [|exact Hs]. rewrite S_INR in Hn. lra. }
  unfold control_each. cbv zeta. cbn [fst snd add sub mul div Fops]. split.
  - eapply below_le; [|bq]. lia.
  - apply near_add; [lia|exact Hn|exact Hs|]. eapply below_le; [|bq]. lia.
Qed.

Definition ctl_kept (tp rp : @control_parameters (Fops lm)) (T : f32) (n : nat) (c : @controller (Fops lm)) : Prop :=
  trans_params c = tp /\ rot_params c = rp /\ c_period c = T /\ near 64 n (trans_sum c) /\ near 64 n (rot_sum c).

Lemma ctl_step tp rp T n (c : @controller (Fops lm)) r y : usual_gains tp -> usual_gains rp -> below 0 T -> INR (S n) <= 8388608 ->
  refs lm r y -> ctl_kept tp rp T n c ->
  let '(m, c') := control c r y in
  is_finite (m_left m : f32) = true /\ is_finite (m_right m : f32) = true /\ ctl_kept tp rp T (S n) c'.
Proof.
  intros Ht Hr HT Hn (R1 & R2 & R3 & R4 & Y1 & Y2 & Y3 & Y4) (K1 & K2 & K3 & K4 & K5).
  unfold control. rewrite K1, K2, K3.
  destruct (each_step tp n (c_v r) (c_a r) (c_v y) (c_a y) T (trans_sum c)) as [A1 A2]; try assumption;
    try (eapply below_le; [|eassumption]; lia).
  destruct (each_step rp n (c_omega r) (c_alpha r) (c_omega y) (c_alpha y) T (rot_sum c)) as [B1 B2]; try assumption;
    try (eapply below_le; [|eassumption]; lia).
  destruct (control_each (c_v r) _ _ _ _ _ _) as [vt ts]. destruct (control_each (c_omega r) _ _ _ _ _ _) as [vo ro].
  cbn [fst snd m_left m_right add sub Fops] in *.
  split; [apply (below_sub 101); [exact A1|exact B1|lia]|]. split; [apply (below_add 101); [exact A1|exact B1|lia]|].
  repeat split; try reflexivity; assumption || apply A2 || apply B2.
Qed.

Hypothesis trig : forall x : f32, is_finite x = true -> below 1 (l_sin lm x) /\ below 1 (l_cos lm x).

Lemma drive_finite (nv : @navigation (Fops lm)) (tp rp : @control_parameters (Fops lm)) (T p th z b : f32) :
  below 10 (gain nv) -> below 10 (dgain nv) -> usual_gains tp -> usual_gains rp -> below 0 T ->
  below 0 p -> is_finite th = true -> bpow radix2 (-10) <= B2R th -> below 10 z -> below 10 b -> 0 <= B2R b ->
  forall l n k c, Forall (fun st : @state (Fops lm) * @target (Fops lm) => usual_state (fst st) /\ usual_target (snd st)) l ->
  INR (n + length l) <= 8388608 -> tracker_kept lm p th z b n k -> ctl_kept tp rp T n c ->
  Forall (fun m : @motor_output (Fops lm) => is_finite (m_left m : f32) = true /\ is_finite (m_right m : f32) = true) (drive nv (k, c) l).
Proof.
  intros G1 G2 Ht Hr HT Hp Fth Hth Hz Hb Pb. induction l as [|[s t] l IH]; intros n k c Hl Hn Hk Hc; [constructor|].
  apply Forall_cons_iff in Hl as [[Hs Htg] Hl]. cbn [fst snd] in *. cbn [length] in Hn.
  assert (Hn' : INR (S n) <= 8388608). { apply Rle_trans with (2 := Hn). apply le_INR. lia. }
  destruct (navigate_below lm nv s t G1 G2 Hs Htg) as (N1 & N2 & N3 & N4).
  pose proof (track_step lm trig p th z b n k s t (navigate nv s t) Hp Fth Hth Hz Hb Pb Hs Htg N1 N2 N3 N4 Hn' Hk) as A.
  cbn [drive]. unfold drive_step. cbn [fst snd].
  destruct (track k s t (navigate nv s t)) as [[r y] k'] eqn:E. destruct A as [A1 A2].
  pose proof (ctl_step tp rp T n c r y Ht Hr HT Hn' A1 Hc) as B. destruct (control c r y) as [m c'] eqn:E'. destruct B as (B1 & B2 & B3).
  constructor; [split; assumption|]. apply (IH (S n)); try assumption. rewrite Nat.add_succ_comm. exact Hn.
Qed.

(** ** Not a number *)
Lemma nan_add (x y : f32) : is_nan x = true \/ is_nan y = true -> is_nan (Bplus mode_NE x y) = true.
Proof. intros [H|H]; [destruct x; try discriminate; destruct y; reflexivity|destruct y; try discriminate; destruct x; reflexivity]. Qed.
Lemma nan_sub (x y : f32) : is_nan x = true \/ is_nan y = true -> is_nan (Bminus mode_NE x y) = true.
Proof. intros [H|H]; [destruct x; try discriminate; destruct y; reflexivity|destruct y; try discriminate; destruct x; reflexivity]. Qed.
Lemma nan_mul (x y : f32) : is_nan x = true \/ is_nan y = true -> is_nan (Bmult mode_NE x y) = true.
Proof. intros [H|H]; [destruct x; try discriminate; destruct y; reflexivity|destruct y; try discriminate; destruct x; reflexivity]. Qed.

Lemma nan_sum (c : @controller (Fops lm)) r y : is_nan (trans_sum c : f32) = true \/ is_nan (c_v y : f32) = true \/ is_nan (c_v r : f32) = true ->
  let '(m, c') := control c r y in
  is_nan (m_left m : f32) = true /\ is_nan (m_right m : f32) = true /\ is_nan (trans_sum c' : f32) = true.
Proof.
  intros H. unfold control, control_each. cbv zeta. cbn [m_left m_right trans_sum add sub mul div Fops].
  match goal with |- is_nan (Bminus _ ?v _) = true /\ _ => assert (V : is_nan v = true) end.
  { destruct H as [H|[H|H]].
    - apply nan_add; left; apply nan_add; right; apply nan_mul; right; exact H.
    - apply nan_add; left; apply nan_add; left; apply nan_add; right; apply nan_mul; right; apply nan_sub; right; exact H.
    - apply nan_add; left; apply nan_add; left; apply nan_add; right; apply nan_mul; right; apply nan_sub; left; exact H. }
  split; [apply nan_sub; left; exact V|]. split; [apply nan_add; left; exact V|].
  destruct H as [H|[H|H]]; apply nan_add; [left; exact H|right..]; apply nan_mul; left; apply nan_sub; [right|left]; exact H.
Qed.
End Loop.
