(** The simulator in binary32: a history of calls. *)
From Coq Require Import ZArith Reals List Bool Lia Lra.
From Flocq Require Import Core BinarySingleNaN.
From Verif Require Import Base Num NumLemmas WallsModel ControlModel ControlSpec SimModel SimSpec FloatMag FloatRange FloatMoveSpec FloatEstSpec FloatSimSpec
  JerkProofs FloatMove FloatMove2 FloatMove3 EstFloat EstFloat2 CtlFloat2 PropsSim SimFloat.
Import ListNotations.
Open Scope R_scope.

Section Run.
Variable lm : libm.
#[local] Hint Extern 0 ops => exact (Fops lm) : typeclass_instances.
Hypothesis circle : near_circle lm.
Variables mx p kt tt kr tr wi : f32.
Hypothesis Hmx : within 0 32 mx.
Hypothesis Hp : within (1 / 1024) (1 / 64) p.
Hypothesis Hkt : within (-64) 64 kt.
Hypothesis Htt : within 0 (1 / 2) tt.
Hypothesis Hkr : within (-64) 64 kr.
Hypothesis Htr : within 0 (1 / 2) tr.
Hypothesis Hwi : within (-1) 1 wi.

Lemma trig_below (x : f32) : is_finite x = true -> below 1 (l_sin lm x) /\ below 1 (l_cos lm x).
Proof.
  intros F. destruct (circle x F) as (F1 & F2 & H).
  pose proof (Rle_0_sqr (B2R (l_sin lm x))) as P1. pose proof (Rle_0_sqr (B2R (l_cos lm x))) as P2. unfold Rsqr in *.
  split; (split; [assumption|]); change (bpow radix2 1) with 2; apply Rabs_le; split; nra.
Qed.

(** a body of the simulator after [n] calls. *)
Definition body (n : nat) (s : @state (Fops lm)) : Prop :=
  near 20 n (sx (s_x s) : f32) /\ near 20 n (sx (s_y s) : f32) /\ near 20 n (sx (s_theta s) : f32) /\
  below 23 (sv (s_x s) : f32) /\ below 23 (sv (s_y s) : f32) /\ btw (-4194304) 4194304 (sv (s_theta s) : f32) /\
  below 34 (sa (s_x s) : f32) /\ below 34 (sa (s_y s) : f32) /\ below 34 (sa (s_theta s) : f32) /\
  btw (-4194304) 4194304 (trans_vel s : f32).

Definition sim_kept (n : nat) (m : @simulator (Fops lm)) : Prop :=
  m_max_voltage m = mx /\ m_period m = p /\ m_trans_k m = kt /\ m_trans_t1 m = tt /\ m_rot_k m = kr /\ m_rot_t1 m = tr /\
  m_wheel_interval m = wi /\ btw (-32) 32 (m_left_voltage m) /\ btw (-32) 32 (m_right_voltage m) /\
  body n (m_current m) /\ body n (m_last m).

Lemma body_mono n s : body n s -> body (S n) s.
Proof. intros (A & B & C & R). split; [apply near_mono, A|]. split; [apply near_mono, B|]. split; [apply near_mono, C|exact R]. Qed.

Lemma period_facts : below (-6) p /\ bpow radix2 (-10) <= Rabs (B2R p).
Proof.
  destruct Hp as [F H]. assert (E6 : bpow radix2 (-6) = 1 / 64) by (change (-6)%Z with (- (6))%Z; rewrite bpow_opp; change (bpow radix2 6) with 64; lra).
  assert (E10 : bpow radix2 (-10) = 1 / 1024) by (change (-10)%Z with (- (10))%Z; rewrite bpow_opp; change (bpow radix2 10) with 1024; lra).
  rewrite E10. split; [split; [exact F|rewrite E6; apply Rabs_le; lra]|]. rewrite Rabs_pos_eq; lra.
Qed.

Lemma step_kept n m : INR (S n) <= 8388608 -> sim_kept n m -> sim_kept (S n) (step m).
Proof.
  intros Hn (E1 & E2 & E3 & E4 & E5 & E6 & E7 & Vl & Vr & B & Bl).
  unfold sim_kept, step. cbv zeta. cbn [m_max_voltage m_period m_trans_k m_trans_t1 m_rot_k m_rot_t1 m_wheel_interval m_left_voltage m_right_voltage m_current m_last].
  do 7 (split; [assumption|]). split; [exact Vl|]. split; [exact Vr|]. split; [|apply body_mono, B]. clear Bl.
  destruct B as (Bx & By & Bt & Xv & Yv & Wv & _ & _ & _ & Tv).
  destruct (half_btw _ _ Vr Vl) as [Hs Hd].
  destruct period_facts as [Pb Pl].
  assert (Fth : is_finite (sx (s_theta (m_current m)) : f32) = true) by apply Bt.
  destruct (trig_below _ Fth) as [Cs Cc].
  unfold body. cbn [s_x s_y s_theta sx sv sa].
  assert (NT : btw (-4192256) 4192256 (next_trans_vel m : f32)).
  { unfold next_trans_vel. cbv zeta. rewrite E2, E3, E4. unfold n1, n2. cbn [add sub mul div lit Fops].
    apply filter_btw; [exact Tv|apply alpha_btw; assumption|exact Hkt|exact Hs]. }
  assert (NR : btw (-4192256) 4192256 (next_rot_vel m : f32)).
  { unfold next_rot_vel. cbv zeta. rewrite E2, E5, E6. unfold n1, n2. cbn [add sub mul div lit Fops].
    apply filter_btw; [exact Wv|apply alpha_btw; assumption|exact Hkr|exact Hd]. }
  rewrite !E2. set (nt := next_trans_vel m : f32) in *. set (nr := next_rot_vel m : f32) in *.
  set (tv0 := trans_vel (m_current m) : f32) in *. clearbody nt nr tv0.
  unfold trans_vel, n2. cbn [s_x s_y s_theta sx sv sa nsin ncos add sub mul div lit Fops] in *.
  set (x := sx (s_x (m_current m)) : f32) in *. set (y := sx (s_y (m_current m)) : f32) in *. set (t := sx (s_theta (m_current m)) : f32) in *.
  set (xv := sv (s_x (m_current m)) : f32) in *. set (yv := sv (s_y (m_current m)) : f32) in *. set (w := sv (s_theta (m_current m)) : f32) in *.
  clearbody x y t xv yv w. change (f32_div (f32_of_Z 2) (f32_of_Z 1)) with f2.
  pose proof (btw_below _ _ 22 nt NT ltac:(change (bpow radix2 22) with 4194304; lra) ltac:(change (bpow radix2 22) with 4194304; lra)) as Bnt.
  pose proof (btw_below _ _ 22 nr NR ltac:(change (bpow radix2 22) with 4194304; lra) ltac:(change (bpow radix2 22) with 4194304; lra)) as Bnr.
  pose proof (btw_below _ _ 22 tv0 Tv ltac:(change (bpow radix2 22) with 4194304; lra) ltac:(change (bpow radix2 22) with 4194304; lra)) as Btv.
  pose proof (btw_below _ _ 22 w Wv ltac:(change (bpow radix2 22) with 4194304; lra) ltac:(change (bpow radix2 22) with 4194304; lra)) as Bw.
  assert (NTh : near 20 (S n) (Bplus mode_NE t (Bmult mode_NE nr p))).
  { apply near_add; [lia|exact Hn|exact Bt|]. eapply below_le; [|bq]; lia. }
  set (t' := Bplus mode_NE t (Bmult mode_NE nr p)) in *. clearbody t'.
  destruct (circle t' (proj1 NTh)) as (F1 & F2 & Ci). destruct (trig_below t' (proj1 NTh)) as [Ns Nc].
  destruct (back_btw nt (l_cos lm t') (l_sin lm t') NT F2 F1 Ci) as (Gx & Gy & Gv).
  set (c' := l_cos lm t') in *. set (s' := l_sin lm t') in *. set (c := l_cos lm t) in *. set (s := l_sin lm t) in *. clearbody c' s' c s.
  pose proof f2_low as L2.
  set (xv' := Bmult mode_NE nt c') in *. set (yv' := Bmult mode_NE nt s') in *.
  split. { apply near_add; [lia|exact Hn|exact Bx|]. unfold xv'. eapply below_le; [|bq]; lia. }
  split. { apply near_add; [lia|exact Hn|exact By|]. unfold yv'. eapply below_le; [|bq]; lia. }
  split; [exact NTh|]. split; [exact Gx|]. split; [exact Gy|]. split; [destruct NR; split; [assumption|lra]|].
  clearbody xv' yv'.
  split; [eapply below_le; [|bq]; lia|]. split; [eapply below_le; [|bq]; lia|]. split; [eapply below_le; [|bq]; lia|exact Gv].
Qed.

Lemma apply_kept n m o : is_nan (m_left o : f32) = false -> is_nan (m_right o : f32) = false -> sim_kept n m -> sim_kept (S n) (apply m o).
Proof.
  intros Nl Nr (E1 & E2 & E3 & E4 & E5 & E6 & E7 & Vl & Vr & B & Bl).
  destruct Hmx as [Fm Hm].
  destruct (C55_voltage_partial lm m o) as [[A1 A2] [B1 B2]]; try assumption; [rewrite E1; exact Fm|rewrite E1; apply Hm|].
  rewrite E1 in A2, B2. apply Rabs_le_inv in A2, B2.
  unfold sim_kept. split; [exact E1|]. split; [exact E2|]. split; [exact E3|]. split; [exact E4|]. split; [exact E5|]. split; [exact E6|]. split; [exact E7|].
  split; [split; [exact A1|lra]|]. split; [split; [exact B1|lra]|]. split; apply body_mono; assumption.
Qed.

Lemma runs_kept l : forall n m, Forall no_nan l -> INR (n + length l) <= 8388608 -> sim_kept n m -> sim_kept (n + length l) (runs m l).
Proof.
  induction l as [|c l IH]; intros n m Hl Hn Hm; cbn [runs length]; [rewrite Nat.add_0_r; exact Hm|].
  apply Forall_cons_iff in Hl as [Hc Hl]. cbn [length] in Hn. rewrite <- Nat.add_succ_comm in *.
  destruct c as [o|]; apply IH; try assumption.
  - destruct Hc as [A B]. apply apply_kept; assumption.
  - apply step_kept; [|exact Hm]. apply Rle_trans with (2 := Hn). apply le_INR. lia.
Qed.

Lemma kept_finite n m : sim_kept n m -> finite_sim m.
Proof.
  intros (E1 & E2 & E3 & E4 & E5 & E6 & E7 & Vl & Vr & B & Bl).
  destruct period_facts as [Pb Pl]. pose proof f2_low as L2.
  assert (FS : forall s, body n s -> finite_state s).
  { intros s (H1 & H2 & H3 & H4 & H5 & H6 & H7 & H8 & H9 & _). repeat split; first [apply H1|apply H2|apply H3|apply H4|apply H5|apply H6|apply H7|apply H8|apply H9]. }
  assert (W0 : below 0 wi) by (apply (sym_below 0 1); [reflexivity|exact Hwi]).
  assert (K : forall z, btw (-4194304) 4194304 z -> below 22 z) by (intros z Hz; apply (btw_below _ _ 22 z Hz); change (bpow radix2 22) with 4194304; lra).
  pose proof (FS _ B) as FB. destruct B as (Bx & By & Bt & Xv & Yv & Wv & Xa & Ya & Wa & Tv).
  pose proof (FS _ Bl) as FL. destruct Bl as (Lx & Ly & Lt & LXv & LYv & LWv & LXa & LYa & LWa & LTv).
  split; [exact FB|]. split; [exact FL|]. apply K in Wv, Tv, LWv, LTv.
  destruct (trig_below _ (proj1 Bt)) as [Cs Cc].
  assert (D : forall a b : f32, below 23 a -> below 23 b ->
     below 31 (Bmult mode_NE (Bminus mode_NE a (f32_div (Bmult mode_NE b wi) f2)) p) /\ below 31 (Bmult mode_NE (Bplus mode_NE a (f32_div (Bmult mode_NE b wi) f2)) p)).
  { intros a b Ha Hb. split; (eapply below_le; [|bq]; lia). }
  unfold distance, average. cbv zeta. cbn [e_left e_right]. rewrite E2, E7. unfold trans_vel, n2 in *. cbn [add sub mul div lit nsin ncos Fops] in *.
  change (f32_div (f32_of_Z 2) (f32_of_Z 1)) with f2.
  match goal with |- is_finite (Bmult _ (Bminus _ ?a (f32_div (Bmult _ ?b _) _)) _) = true /\ _ => destruct (D a b) as [D1 D2] end.
  { eapply below_le; [|eapply below_div; [eapply below_add2; [exact Tv|exact LTv|lia]|exact L2|lia]]; lia. }
  { eapply below_le; [|eapply below_div; [eapply below_add2; [exact Wv|exact LWv|lia]|exact L2|lia]]; lia. }
  split; [apply D1|]. split; [apply D2|]. split; [apply Wv|].
  unfold sim_translational_acceleration. cbn [add mul nsin ncos Fops].
  assert (Z : below 36 (Bplus mode_NE (Bmult mode_NE (sa (s_x (m_current m))) (l_cos lm (sx (s_theta (m_current m)))))
     (Bmult mode_NE (sa (s_y (m_current m))) (l_sin lm (sx (s_theta (m_current m)))))))
    by (eapply below_le; [|bq]; lia). apply Z.
Qed.

Lemma new_kept w (cur last : @state (Fops lm)) : usual_body cur -> usual_body last ->
  sim_kept 0 (@simulator_new (Fops lm) w cur last mx p kt tt kr tr wi).
Proof.
  intros Hc Hl. unfold sim_kept, simulator_new. cbn [m_max_voltage m_period m_trans_k m_trans_t1 m_rot_k m_rot_t1 m_wheel_interval m_left_voltage m_right_voltage m_current m_last].
  do 7 (split; [reflexivity|]).
  assert (Z : btw (-32) 32 (@n0 (Fops lm))).
  { change (@n0 (Fops lm)) with (f32_div (f32_of_Z 0) (f32_of_Z 1)). split; [exact (proj1 f0_below)|].
    replace (B2R (f32_div (f32_of_Z 0) (f32_of_Z 1))) with 0 by (vm_compute; reflexivity). lra. }
  split; [exact Z|]. split; [exact Z|].
  assert (H : forall s, usual_body s -> body 0 s); [|split; apply H; assumption].
  clear Hc Hl Z. intros s H. unfold usual_body in H.
  pose proof (Forall_inv H) as (x1 & x2 & x3). apply Forall_inv_tail in H.
  pose proof (Forall_inv H) as (y1 & y2 & y3). apply Forall_inv_tail in H.
  pose proof (Forall_inv H) as (t1 & t2 & t3). clear H.
  assert (N : forall z, within (-64) 64 z -> near 20 0 z).
  { intros z [F G]. split; [exact F|]. cbn [INR]. change (bpow radix2 20) with 1048576. apply Rabs_le. lra. }
  destruct (trig_below _ (proj1 t1)) as [Cs Cc].
  assert (S6 : forall z, within (-64) 64 z -> below 6 z) by (intros z G; apply (sym_below 6 64); [reflexivity|exact G]).
  assert (S10 : forall z, within (-1024) 1024 z -> below 10 z) by (intros z G; apply (sym_below 10 1024); [reflexivity|exact G]).
  pose proof (S6 _ x2) as x2'. pose proof (S6 _ y2) as y2'.
  split; [apply N, x1|]. split; [apply N, y1|]. split; [apply N, t1|].
  split; [apply (below_le 6); [lia|apply S6, x2]|]. split; [apply (below_le 6); [lia|apply S6, y2]|].
  split; [destruct t2; split; [assumption|lra]|].
  split; [apply (below_le 10); [lia|apply S10, x3]|]. split; [apply (below_le 10); [lia|apply S10, y3]|]. split; [apply (below_le 10); [lia|apply S10, t3]|].
  unfold trans_vel. cbn [add mul nsin ncos Fops].
  match goal with |- btw _ _ ?z => assert (G : below 8 z) by (eapply below_le; [|bq]; lia) end.
  destruct G as [G1 G2]. change (bpow radix2 8) with 256 in G2. apply Rabs_le_inv in G2. split; [exact G1|lra].
Qed.
End Run.
