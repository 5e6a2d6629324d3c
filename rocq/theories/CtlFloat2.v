(** Tracker and controller in binary32: one period. *)
From Coq Require Import ZArith Reals List Bool Lia Lra.
From Flocq Require Import Core BinarySingleNaN.
From Verif Require Import Base Num NumLemmas ControlModel ControlSpec FloatMag FloatRange FloatMoveSpec FloatCtlSpec JerkProofs FloatMove FloatMove2 EstFloat CtlFloat.
Import ListNotations.
Open Scope R_scope.

Lemma sym_below k b (x : f32) : b = bpow radix2 k -> within (- b) b x -> below k x.
Proof. intros -> [F H]. split; [exact F|]. apply Rabs_le, H. Qed.

Lemma mul_pos_sign i j x y : below i x -> below j y -> (-149 <= i + j < 128)%Z -> 0 <= B2R x * B2R y -> 0 <= B2R (Bmult mode_NE x y).
Proof.
  intros Bx By K H. destruct (Bx) as [Fx Hx]. destruct (By) as [Fy Hy].
  assert (U : Rabs (B2R x * B2R y) <= bpow radix2 (i + j)).
  { rewrite Rabs_mult, bpow_plus. apply Rmult_le_compat; try apply Rabs_pos; assumption. }
  destruct (mult_ok x y Fx Fy (rnd_top _ _ K U)) as [E _]. rewrite E.
  rewrite <- (rnd_exact 0) by apply generic_format_0. apply rnd_le, H.
Qed.
Lemma mul_neg_sign i j x y : below i x -> below j y -> (-149 <= i + j < 128)%Z -> B2R x * B2R y <= 0 -> B2R (Bmult mode_NE x y) <= 0.
Proof.
  intros Bx By K H. destruct (Bx) as [Fx Hx]. destruct (By) as [Fy Hy].
  assert (U : Rabs (B2R x * B2R y) <= bpow radix2 (i + j)).
  { rewrite Rabs_mult, bpow_plus. apply Rmult_le_compat; try apply Rabs_pos; assumption. }
  destruct (mult_ok x y Fx Fy (rnd_top _ _ K U)) as [E _]. rewrite E.
  rewrite <- (rnd_exact 0) by apply generic_format_0. apply rnd_le, H.
Qed.

Lemma lit_low z k : (0 < z <= 2 ^ 24)%Z -> (0 <= k)%Z -> (2 ^ k <= z)%Z -> bpow radix2 k <= Rabs (B2R (f32_div (f32_of_Z z) (f32_of_Z 1))).
Proof.
  intros Hz Hk H. destruct (f32_of_Z_exact z ltac:(lia)) as [E1 G1]. destruct (f32_of_Z_exact 1 ltac:(lia)) as [E2 G2].
  destruct (div_btw (IZR z) (IZR z) (f32_of_Z z) (f32_of_Z 1) G1) as [F Q]; [rewrite E2; lra|apply fit_int; lia|apply fit_int; lia|rewrite E1, E2; lra|].
  assert (E : B2R (f32_div (f32_of_Z z) (f32_of_Z 1)) = IZR z) by (apply Rle_antisym; apply Q).
  rewrite E, Rabs_pos_eq by (apply IZR_le; lia). rewrite <- (IZR_Zpower radix2) by lia. apply IZR_le. exact H.
Qed.

Ltac bq := match goal with
  | |- below _ (Bplus _ _ _) => eapply below_add2; [bq|bq|lia]
  | |- below _ (Bminus _ _ _) => eapply below_sub2; [bq|bq|lia]
  | |- below _ (Bmult _ _ _) => eapply below_mul; [bq|bq|lia]
  | |- below _ (Bopp _) => eapply below_opp; bq
  | |- below _ (f32_div _ _) => eapply below_div; [bq|eassumption|lia]
  | |- below _ _ => eassumption
  end.

Section Step.
Variable lm : libm.
#[local] Hint Extern 0 ops => exact (Fops lm) : typeclass_instances.
Hypothesis trig : forall x : f32, is_finite x = true -> below 1 (l_sin lm x) /\ below 1 (l_cos lm x).

Lemma sinc_below (x : f32) : below 5 x -> below 26 (@sinc (Fops lm) x : f32).
Proof.
  intros H. unfold sinc. cbv zeta. unfold n1. cbn [lit mul add sub div Fops].
  change (f32_div (f32_of_Z 1) (f32_of_Z 1)) with f1.
  pose proof (lit_low 362880 18 ltac:(lia) ltac:(lia) ltac:(lia)) as L1.
  pose proof (lit_low 5040 12 ltac:(lia) ltac:(lia) ltac:(lia)) as L2.
  pose proof (lit_low 120 6 ltac:(lia) ltac:(lia) ltac:(lia)) as L3.
  pose proof (lit_low 6 2 ltac:(lia) ltac:(lia) ltac:(lia)) as L4.
  set (c1 := f32_div (f32_of_Z 362880) _) in *. set (c2 := f32_div (f32_of_Z 5040) _) in *.
  set (c3 := f32_div (f32_of_Z 120) _) in *. set (c4 := f32_div (f32_of_Z 6) _) in *. clearbody c1 c2 c3 c4.
  pose proof f1_below as B1. eapply below_le; [|bq]. lia.
Qed.

Lemma navigate_below (n : @navigation (Fops lm)) (s : @state (Fops lm)) (t : @target (Fops lm)) :
  below 10 (gain n) -> below 10 (dgain n) -> usual_state s -> usual_target t ->
  below 23 (u_x (navigate n s t)) /\ below 23 (u_y (navigate n s t)) /\ below 23 (du_x (navigate n s t)) /\ below 23 (du_y (navigate n s t)).
Proof.
  intros Hg Hd (S & _) (T & _).
  apply Forall_inv in S as S1. apply Forall_inv_tail, Forall_inv in S as S2.
  apply Forall_inv in T as T1. apply Forall_inv_tail, Forall_inv in T as T2.
  destruct S1 as (a1 & a2 & a3), S2 as (b1 & b2 & b3), T1 as (c1 & c2 & c3 & c4), T2 as (d1 & d2 & d3 & d4).
  apply (sym_below 10) in a1, a2, a3, b1, b2, b3, c1, c2, c3, d1, d2, d3; try reflexivity.
  apply (sym_below 20) in c4, d4; try reflexivity.
  unfold navigate. cbv zeta. cbn [u_x u_y du_x du_y add sub mul Fops].
  repeat match goal with |- _ /\ _ => split end; (eapply below_le; [|bq]; lia).
Qed.

(** the outputs of [track]. *)
Definition refs (r y : @control_target (Fops lm)) : Prop :=
  below 49 (c_v r) /\ below 25 (c_a r) /\ below 63 (c_omega r) /\ below 73 (c_alpha r) /\
  below 12 (c_v y) /\ below 12 (c_a y) /\ below 10 (c_omega y) /\ below 20 (c_alpha y).

Definition tracker_kept (p th z b : f32) (n : nat) (k : @tracker (Fops lm)) : Prop :=
  k_period k = p /\ k_xi_threshold k = th /\ k_zeta k = z /\ k_b k = b /\ near 25 n (k_xi k).

Lemma track_step (p th z b : f32) (n : nat) (k : @tracker (Fops lm)) (s : @state (Fops lm)) (t : @target (Fops lm)) (i : @tracking_input (Fops lm)) :
  below 0 p -> is_finite th = true -> bpow radix2 (-10) <= B2R th -> below 10 z -> below 10 b -> 0 <= B2R b ->
  usual_state s -> usual_target t -> below 23 (u_x i) -> below 23 (u_y i) -> below 23 (du_x i) -> below 23 (du_y i) ->
  INR (S n) <= 8388608 -> tracker_kept p th z b n k ->
  let '(r, y, k') := track k s t i in refs r y /\ tracker_kept p th z b (S n) k'.
Proof.
  intros Hp Fth Hth Hz Hb Pb (S & s1 & s2 & s3) (T & t1 & t2 & t3) I1 I2 I3 I4 Hn (K1 & K2 & K3 & K4 & K5).
  apply Forall_inv in S as S1. apply Forall_inv_tail, Forall_inv in S as S2.
  apply Forall_inv in T as T1. apply Forall_inv_tail, Forall_inv in T as T2.
  destruct S1 as (a1 & a2 & a3), S2 as (b1 & b2 & b3), T1 as (c1 & c2 & c3 & c4), T2 as (d1 & d2 & d3 & d4).
  apply (sym_below 10) in a1, a2, a3, b1, b2, b3, c1, c2, c3, d1, d2, d3, s2, t2; try reflexivity.
  apply (sym_below 20) in c4, d4, s3, t3; try reflexivity.
  apply (sym_below 24) in s1, t1; try reflexivity.
  unfold track. cbv zeta. rewrite K1, K2, K3, K4.
  destruct (trig (sx (s_theta s)) (proj1 s1)) as [G1 G2]. destruct (trig (tx (t_theta t)) (proj1 t1)) as [G3 G4].
  cbn [nsin ncos add mul sub div opp nabs nsqrt ltb leb Fops] in *.
  set (si := l_sin lm (sx (s_theta s))) in *. set (co := l_cos lm (sx (s_theta s))) in *.
  set (sir := l_sin lm (tx (t_theta t))) in *. set (cor := l_cos lm (tx (t_theta t))) in *. clearbody si co sir cor.
  set (dxi := Bplus mode_NE (Bmult mode_NE (u_x i) co) (Bmult mode_NE (u_y i) si)).
  assert (Hdxi : below 25 dxi) by (unfold dxi; eapply below_le; [|bq]; lia). clearbody dxi.
  assert (Hxi : near 25 (Datatypes.S n) (Bplus mode_NE (k_xi k) (Bmult mode_NE p dxi))).
  { apply near_add; [lia|exact Hn|exact K5|]. eapply below_le; [|bq]. lia. }
  set (xi := Bplus mode_NE (k_xi k) (Bmult mode_NE p dxi)) in *. clearbody xi.
  pose proof (near_below 25 _ xi Hn Hxi) as Lxi. change (25 + 24)%Z with 49%Z in Lxi.
  set (vr := Bplus mode_NE (Bmult mode_NE (tv (t_x t)) cor) (Bmult mode_NE (tv (t_y t)) sir)).
  assert (Hvr : below 12 vr) by (unfold vr; eapply below_le; [|bq]; lia). clearbody vr.
  assert (Y : forall uv uw duv duw : f32, below 49 uv -> below 63 uw -> below 25 duv -> below 73 duw ->
    refs (@ControlTarget (Fops lm) uv duv uw duw)
      (@ControlTarget (Fops lm) (Bplus mode_NE (Bmult mode_NE (sv (s_x s)) co) (Bmult mode_NE (sv (s_y s)) si))
        (Bplus mode_NE (Bmult mode_NE (sa (s_x s)) co) (Bmult mode_NE (sa (s_y s)) si)) (sv (s_theta s)) (sa (s_theta s)))).
  { intros. unfold refs. cbn [c_v c_a c_omega c_alpha]. repeat match goal with |- _ /\ _ => split end; try assumption; (eapply below_le; [|bq]; lia). }
  assert (Q : forall uv uw duv duw : f32, below 49 uv -> below 63 uw -> below 25 duv -> below 73 duw ->
    let '(r, y, k') := (@ControlTarget (Fops lm) uv duv uw duw,
      @ControlTarget (Fops lm) (Bplus mode_NE (Bmult mode_NE (sv (s_x s)) co) (Bmult mode_NE (sv (s_y s)) si))
        (Bplus mode_NE (Bmult mode_NE (sa (s_x s)) co) (Bmult mode_NE (sa (s_y s)) si)) (sv (s_theta s)) (sa (s_theta s)),
      @Tracker (Fops lm) xi p th z b) in refs r y /\ tracker_kept p th z b (Datatypes.S n) k').
  { intros uv uw duv duw h1 h2 h3 h4. split; [apply Y; assumption|]. repeat split; try reflexivity; apply Hxi. }
  destruct (Bltb th (Babs vr) && Bltb th (Babs xi)) eqn:C.
  - apply andb_prop in C as [_ C].
    assert (Fa : is_finite (Babs xi) = true) by (rewrite is_finite_Babs; apply Lxi).
    destruct (ltb_cases th (Babs xi) Fth Fa) as [[_ D]|[D _]]; [|congruence]. rewrite B2R_Babs in D.
    assert (Z : bpow radix2 (-10) <= Rabs (B2R xi)) by lra. unfold n2. cbn [lit Fops].
    change (f32_div (f32_of_Z 2) (f32_of_Z 1)) with f2. pose proof f2_below as B2.
    match goal with |- context [ControlTarget _ _ ?u _] => set (uw := u) end.
    assert (Huw : below 35 uw) by (unfold uw; eapply below_le; [|bq]; lia). clearbody uw.
    apply Q; [exact Lxi|apply (below_le 35); [lia|exact Huw]|exact Hdxi|eapply below_le; [|bq]; lia].
  - unfold n2. cbn [lit Fops]. change (f32_div (f32_of_Z 2) (f32_of_Z 1)) with f2. pose proof f2_below as B2.
    assert (Fd : is_finite (Bminus mode_NE (tx (t_theta t)) (sx (s_theta s))) = true).
    { apply (below_sub 24); [exact t1|exact s1|lia]. }
    pose proof (angle_below lm _ Fd) as A. set (thd := normalize_angle _) in *. clearbody thd.
    destruct (trig thd (proj1 A)) as [_ G5]. set (cd := l_cos lm thd) in *. clearbody cd.
    pose proof (sinc_below thd A) as G6. set (sn := sinc thd) in *. clearbody sn.
    set (wr := tv (t_theta t)) in *. clearbody wr.
    assert (Sq : below 35 (Bplus mode_NE (Bmult mode_NE wr wr) (Bmult mode_NE (Bmult mode_NE b vr) vr)))
      by (eapply below_le; [|bq]; lia).
    assert (B22 : below 22 (Bmult mode_NE b vr)) by (eapply below_le; [|bq]; lia).
    assert (B34 : below 34 (Bmult mode_NE (Bmult mode_NE b vr) vr)) by (eapply below_le; [|bq]; lia).
    assert (B20 : below 20 (Bmult mode_NE wr wr)) by (eapply below_le; [|bq]; lia).
    assert (P1 : 0 <= B2R (Bmult mode_NE wr wr)) by (apply (mul_pos_sign 10 10); try assumption; [lia|apply Rle_0_sqr]).
    assert (P2 : 0 <= B2R (Bmult mode_NE (Bmult mode_NE b vr) vr)).
    { apply (mul_pos_sign 22 12); try assumption; [lia|]. destruct (Rle_or_lt 0 (B2R vr)) as [U|U].
      - apply Rmult_le_pos; [|exact U]. apply (mul_pos_sign 10 12); try assumption; [lia|apply Rmult_le_pos; assumption].
      - assert (V : B2R (Bmult mode_NE b vr) <= 0) by (apply (mul_neg_sign 10 12); try assumption; [lia|]; nra). nra. }
    assert (Rt : below 18 (Bsqrt mode_NE (Bplus mode_NE (Bmult mode_NE wr wr) (Bmult mode_NE (Bmult mode_NE b vr) vr)))).
    { apply below_sqrt; [apply (below_le 35); [lia|exact Sq]| |lia].
      apply Rle_trans with (1 := P1). refine (proj1 (plus_ge _ _ (proj1 B20) (proj1 B34) P1 P2 _)).
      destruct B20 as [_ B20], B34 as [_ B34]. apply Rabs_le_inv in B20, B34. assert (bpow radix2 20 <= bpow radix2 126) by (apply bpow_le; lia).
      assert (bpow radix2 34 <= bpow radix2 126) by (apply bpow_le; lia). change 127%Z with (126 + 1)%Z. rewrite bpow_plus. change (bpow radix2 1) with 2. lra. }
    set (rt := Bsqrt _ _) in *. clearbody rt.
    match goal with |- context [Bmult mode_NE (Bmult mode_NE f2 z) rt] => set (k1 := Bmult mode_NE (Bmult mode_NE f2 z) rt) end.
    assert (Hk1 : below 29 k1) by (unfold k1; eapply below_le; [|bq]; lia). clearbody k1.
    apply Q; (eapply below_le; [|bq]; lia).
Qed.
End Step.
