(** Moves planned in binary32 (C103). *)
From Coq Require Import ZArith Reals List Bool Lia Lra.
From Flocq Require Import Core BinarySingleNaN.
From Verif Require Import Base Num NumLemmas ControlModel TrajModel TrajSpec ClockSpec TrajClock FloatMag FloatRange
  FloatMoveSpec FloatMove FloatMove2 FloatMove3 FloatCurve.
Open Scope R_scope.

Lemma default_finite lm : finite_axis (@axis4_default (Fops lm)).
Proof. repeat split. Qed.

(** ** C103: a straight move with ordinary parameters ends, at an ordinary speed, and every number of
    every target is finite. *)
Theorem C103_straight lm (g : @generator (Fops lm)) (p d vs ve : f32) :
  usual_limits g -> within (1 / 1024) 1 p -> usual_distance d ->
  within 0 (B2R (g_v_max g : f32)) vs -> within 0 (B2R (g_v_max g : f32)) ve ->
  let move := straight_generate_tv (@StraightGenerator (Fops lm) g p) d vs ve in
  within 0 (B2R (g_v_max g : f32)) (snd move) /\
  exists N, (0 < N)%nat /\ INR N <= 8388608 /\ yields straight_next (fst move) N /\
    forall i t, output straight_next i (fst move) = Some t -> finite_target t.
Proof.
  intros Hg Hp [Fd Hd] Hs He. cbv zeta. unfold straight_generate_tv. cbn [sg_gen sg_period].
  destruct (plan lm g Hg (@n0 (Fops lm)) d vs ve) as (c & T & v & E & Tc & HT & Hv);
    [apply (below_le 0); [lia|apply f0_below]|exact Fd|exact Hd|exact Hs|exact He|].
  rewrite E. cbn [fst snd]. split; [exact Hv|].
  assert (P100 : 1 <= bpow radix2 100) by (change 1 with (bpow radix2 0); apply bpow_le; lia).
  destruct (straight_clocked lm p T) as (N & HN & A & B & Y).
  { apply Hp. } { destruct Hp. lra. } { apply HT. } { destruct HT, Hp. lra. }
  destruct (Y (SAccel c)) as [Y1 Y2]. exists N.
  split; [apply (first_sample p T); [apply Hp|apply HT|exact B]|]. split; [exact HN|]. split; [exact Y1|].
  intros i t Ht. assert (Hi : (i < N)%nat) by (apply Y1; rewrite Ht; discriminate).
  rewrite (Y2 i Hi) in Ht. injection Ht as <-. split; [|split; apply default_finite]. cbn [t_x straight_calculate].
  apply (calculate_finite lm c); [exact Tc|]. apply (below_le 12); [lia|]. exact (clock_below p N T Hp HT HN A i Hi).
Qed.
Print Assumptions C103_straight.

(** and so does a spin. *)
Theorem C103_spin lm (g : @generator (Fops lm)) (p theta : f32) :
  usual_limits g -> within (1 / 1024) 1 p -> usual_distance theta ->
  exists N, (0 < N)%nat /\ INR N <= 8388608 /\ yields spin_next (spin_generate g p theta) N /\
    forall i t, output spin_next i (spin_generate g p theta) = Some t -> finite_target t.
Proof.
  intros Hg Hp [Fd Hd]. unfold spin_generate, generate.
  assert (Z : within 0 (B2R (g_v_max g : f32)) (@n0 (Fops lm) : f32)).
  { apply zero_btw. destruct Hg as ([_ H] & _). lra. }
  destruct (plan lm g Hg (@n0 (Fops lm)) theta (@n0 (Fops lm)) (@n0 (Fops lm))) as (c & T & v & E & Tc & HT & Hv);
    [apply (below_le 0); [lia|apply f0_below]|exact Fd|exact Hd|exact Z|exact Z|].
  rewrite E.
  assert (P100 : 1 <= bpow radix2 100) by (change 1 with (bpow radix2 0); apply bpow_le; lia).
  destruct (spin_clocked lm p T) as (N & HN & A & B & Y).
  { apply Hp. } { destruct Hp. lra. } { apply HT. } { destruct HT, Hp. lra. }
  destruct (Y c) as [Y1 Y2]. exists N.
  split; [apply (first_sample p T); [apply Hp|apply HT|exact B]|]. split; [exact HN|]. split; [exact Y1|].
  intros i t Ht. assert (Hi : (i < N)%nat) by (apply Y1; rewrite Ht; discriminate).
  rewrite (Y2 i Hi) in Ht. injection Ht as <-. split; [|split]; try apply default_finite. cbn [t_theta].
  apply (calculate_finite lm c); [exact Tc|]. apply (below_le 12); [lia|]. exact (clock_below p N T Hp HT HN A i Hi).
Qed.
Print Assumptions C103_spin.

(** and so does a move at constant speed. *)
Theorem C103_constant lm (p d v : f32) :
  within (1 / 1024) 1 p -> within 0 8 d -> within (1 / 256) 32 v ->
  exists N, (0 < N)%nat /\ INR N <= 8388608 /\ yields straight_next (@straight_generate_constant (Fops lm) d v p) N /\
    forall i t, output straight_next i (@straight_generate_constant (Fops lm) d v p) = Some t -> finite_target t.
Proof.
  intros Hp Hd Hv. unfold straight_generate_constant.
  pose (g := @Generator (Fops lm) (f32_of_Z 32) (f32_of_Z 16) (f32_of_Z 16)).
  assert (I : forall z, (Z.abs z <= 2 ^ 24)%Z -> within (IZR z) (IZR z) (f32_of_Z z)).
  { intros z Hz. destruct (f32_of_Z_exact z Hz) as [E F]. split; [exact F|]. rewrite E. lra. }
  assert (Hg : fine lm g).
  { split; [|split]; cbn [g g_v_max g_a_max g_j_max].
    - destruct (I 32%Z ltac:(lia)) as [F H]. split; [exact F|lra].
    - destruct (I 16%Z ltac:(lia)) as [F H]. split; [exact F|lra].
    - destruct (I 16%Z ltac:(lia)) as [F H]. split; [exact F|lra]. }
  destruct (const_plan lm g Hg (@n0 (Fops lm)) d v) as [Tc HT].
  { apply (below_le 0); [lia|apply f0_below]. }
  { destruct Hd as [F H]. split; [exact F|lra]. }
  { destruct Hv as [F H]. split; [exact F|]. cbn [g g_v_max]. destruct (I 32%Z ltac:(lia)) as [_ H32]. lra. }
  destruct (@generate_constant (Fops lm) n0 d v) as [c T]. cbn [fst snd] in Tc, HT.
  assert (HT' : within 0 2368 T) by (destruct HT as [F H]; split; [exact F|lra]).
  assert (P100 : 1 <= bpow radix2 100) by (change 1 with (bpow radix2 0); apply bpow_le; lia).
  destruct (straight_clocked lm p T) as (N & HN & A & B & Y).
  { apply Hp. } { destruct Hp. lra. } { apply HT. } { destruct HT, Hp. lra. }
  destruct (Y (SConst c)) as [Y1 Y2]. exists N.
  split; [apply (first_sample p T); [apply Hp|apply HT|exact B]|]. split; [exact HN|]. split; [exact Y1|].
  intros i t Ht. assert (Hi : (i < N)%nat) by (apply Y1; rewrite Ht; discriminate).
  rewrite (Y2 i Hi) in Ht. injection Ht as <-. split; [|split; apply default_finite]. cbn [t_x straight_calculate].
  destruct (const_small lm c (clock p i) Tc) as ((F1 & _) & (F2 & _) & (F3 & _) & (F4 & _));
    [apply (below_le 12); [lia|exact (clock_below p N T Hp HT' HN A i Hi)]|]. repeat split; assumption.
Qed.
Print Assumptions C103_constant.

Lemma lit_within l n d a b : (Z.abs n <= 2 ^ 24)%Z -> (Zpos d <= 2 ^ 24)%Z -> fit a -> fit b ->
  a * IZR (Zpos d) <= IZR n <= b * IZR (Zpos d) -> within a b (@lit (Fops l) n d).
Proof.
  intros Hn Hd Fa Fb H. cbn [lit Fops]. destruct (f32_of_Z_exact n Hn) as [E F].
  destruct (f32_of_Z_exact (Zpos d) ltac:(lia)) as [E1 F1]. assert (P : 0 < IZR (Zpos d)) by (apply IZR_lt; lia).
  apply div_btw; [exact F|rewrite E1; lra|exact Fa|exact Fb|]. rewrite E, E1. apply quot_btw; lra.
Qed.

(** the moves of the search test: straight at up to 0.3 m/s, 10 m/s^2, 100 m/s^3 over 90 mm, sampled
    each millisecond. *)
Example C103_case : let g := @Generator (Fops libm0) (lit 3 10) (lit 10 1) (lit 100 1) in
  usual_limits g /\ within (1 / 1024) 1 (@lit (Fops libm0) 1 1000) /\ usual_distance (@lit (Fops libm0) 9 100) /\
  within 0 (B2R (g_v_max g : f32)) (@n0 (Fops libm0)) /\ within 0 (B2R (g_v_max g : f32)) (g_v_max g).
Proof.
  cbv zeta.
  assert (V : within (1 / IZR (2 ^ 7)) 32 (@lit (Fops libm0) 3 10)).
  { apply lit_within; try lia; [apply fit_dyadic; lia|apply fit_int; lia|]. change (2 ^ 7)%Z with 128%Z. lra. }
  change (2 ^ 7)%Z with 128%Z in V. cbn [g_v_max].
  split; [split; [exact V|split; apply lit_within; try lia; try (apply fit_int; lia); lra]|].
  split.
  { change (1 / 1024) with (1 / IZR (2 ^ 10)). apply lit_within; try lia; [apply fit_dyadic; lia|apply fit_int; lia|].
    change (2 ^ 10)%Z with 1024%Z. lra. }
  split.
  { assert (D : within (1 / IZR (2 ^ 10)) 8 (@lit (Fops libm0) 9 100)).
    { apply lit_within; try lia; [apply fit_dyadic; lia|apply fit_int; lia|]. change (2 ^ 10)%Z with 1024%Z. lra. }
    change (2 ^ 10)%Z with 1024%Z in D. destruct D as [F D]. split; [exact F|]. rewrite Rabs_pos_eq by lra. exact D. }
  destruct V as [F V]. cbn [g_v_max]. split; [apply zero_btw; lra|]. split; [exact F|lra].
Qed.
