(** Slaloms in binary32: the parts and their chain. *)
From Coq Require Import ZArith Reals List Bool Lia Lra.
From Flocq Require Import Core BinarySingleNaN.
From Verif Require Import Base Num NumLemmas ControlModel TrajModel TrajSpec ClockSpec TrajClock TrajProofs4 FloatMag FloatRange
  FloatMoveSpec JerkProofs FloatMove FloatMove2 FloatMove3 FloatCurve.
Open Scope R_scope.

Section Slalom.
Variable lm : libm.
#[local] Hint Extern 0 ops => exact (Fops lm) : typeclass_instances.

Definition small_axis (a : axis4) : Prop :=
  below 64 (tx a : f32) /\ below 46 (tv a : f32) /\ below 32 (ta a : f32) /\ below 17 (tj a : f32).
Definition small_target (t : target) : Prop := small_axis (t_x t) /\ small_axis (t_y t) /\ small_axis (t_theta t).

Lemma zero_below k : (0 <= k)%Z -> below k (@n0 (Fops lm) : f32).
Proof. intros H. apply (below_le 0); [exact H|apply f0_below]. Qed.
Lemma default_small : small_axis axis4_default.
Proof. split; [|split; [|split]]; cbn [axis4_default tx tv ta tj]; apply zero_below; lia. Qed.
Lemma small_finite t : small_target t -> finite_target t.
Proof.
  intros (A & B & C). assert (G : forall a, small_axis a -> finite_axis a).
  { intros a (H1 & H2 & H3 & H4). repeat split; [apply H1|apply H2|apply H3|apply H4]. }
  repeat split; apply G; assumption.
Qed.

(** a straight part. *)
Lemma straight_run (p T : f32) (c : straight_calc) : within (1 / 1024) 1 p -> within 0 2368 T ->
  match c with SAccel c => tame lm c | SConst c => tame_const lm c end ->
  exists N, (0 < N)%nat /\ INR N <= 8388608 /\ yields straight_next (straight_new c T p) N /\
    forall i t, output straight_next i (straight_new c T p) = Some t -> small_target t.
Proof.
  intros Hp HT Hc.
  assert (P100 : 1 <= bpow radix2 100) by (change 1 with (bpow radix2 0); apply bpow_le; lia).
  destruct (straight_clocked lm p T) as (N & HN & A & B & Y).
  { apply Hp. } { destruct Hp. lra. } { apply HT. } { destruct HT, Hp. lra. }
  destruct (Y c) as [Y1 Y2]. exists N.
  split; [apply (first_sample p T); [apply Hp|apply HT|exact B]|]. split; [exact HN|]. split; [exact Y1|].
  intros i t Ht. assert (Hi : (i < N)%nat) by (apply Y1; rewrite Ht; discriminate).
  rewrite (Y2 i Hi) in Ht. injection Ht as <-. split; [|split; apply default_small]. cbn [t_x].
  pose proof (clock_below p N T Hp HT HN A i Hi) as Bt.
  destruct c as [c|c]; cbn [straight_calculate].
  - apply calculate_small; [exact Hc|]. apply (below_le 12); [lia|exact Bt].
  - destruct (const_small lm c (clock p i) Hc) as (H1 & H2 & H3 & H4); [apply (below_le 12); [lia|exact Bt]|].
    split; [apply (below_le 62); [lia|exact H1]|]. auto.
Qed.

Lemma tv_run (g : generator) (p d vs ve : f32) : usual_limits g -> within (1 / 1024) 1 p -> usual_distance d ->
  within 0 (B2R (g_v_max g : f32)) vs -> within 0 (B2R (g_v_max g : f32)) ve ->
  let move := straight_generate_tv (StraightGenerator g p) d vs ve in
  within 0 (B2R (g_v_max g : f32)) (snd move) /\
  exists N, (0 < N)%nat /\ INR N <= 8388608 /\ yields straight_next (fst move) N /\
    forall i t, output straight_next i (fst move) = Some t -> small_target t.
Proof.
  intros Hg Hp [Fd Hd] Hs He. cbv zeta. unfold straight_generate_tv. cbn [sg_gen sg_period].
  destruct (plan lm g Hg (@n0 (Fops lm)) d vs ve) as (c & T & v & E & Tc & HT & Hv);
    [apply zero_below; lia|exact Fd|exact Hd|exact Hs|exact He|].
  rewrite E. cbn [fst snd]. split; [exact Hv|]. apply straight_run; assumption.
Qed.

Lemma constant_run (p d v : f32) : within (1 / 1024) 1 p -> within 0 8 d -> within (1 / 256) 32 v ->
  exists N, (0 < N)%nat /\ INR N <= 8388608 /\ yields straight_next (straight_generate_constant d v p) N /\
    forall i t, output straight_next i (straight_generate_constant d v p) = Some t -> small_target t.
Proof.
  intros Hp Hd Hv. unfold straight_generate_constant.
  pose (g := @Generator (Fops lm) (f32_of_Z 32) (f32_of_Z 16) (f32_of_Z 16)).
  assert (I : forall z, (Z.abs z <= 2 ^ 24)%Z -> within (IZR z) (IZR z) (f32_of_Z z)).
  { intros z Hz. destruct (f32_of_Z_exact z Hz) as [E F]. split; [exact F|]. rewrite E. lra. }
  assert (Hg : fine lm g).
  { split; [|split]; cbn [g g_v_max g_a_max g_j_max].
    - destruct (I 32%Z ltac:(lia)) as [F H]. split; [exact F|lra].
    - destruct (I 16%Z ltac:(lia)) as [F H]. split; [exact F|lra].
    - destruct (I 16%Z ltac:(lia)) as [F H]. split; [exact F|lra]. }
  destruct (const_plan lm g Hg (@n0 (Fops lm)) d v) as [Tc HT].
  { apply zero_below; lia. }
  { destruct Hd as [F H]. split; [exact F|lra]. }
  { destruct Hv as [F H]. split; [exact F|]. cbn [g g_v_max]. destruct (I 32%Z ltac:(lia)) as [_ H32]. lra. }
  destruct (@generate_constant (Fops lm) n0 d v) as [c T]. cbn [fst snd] in Tc, HT.
  assert (HT' : within 0 2368 T) by (destruct HT as [F H]; split; [exact F|lra]).
  apply straight_run; assumption.
Qed.

(** the curve. *)
Ltac fitz := match goal with
  | |- fit (IZR _) => apply fit_int; lia
  | |- fit (IZR _ / IZR (2 ^ _)) => apply fit_dyadic; lia
  end.

Lemma scaled (v r a b j : f32) : within (1 / 16) 4 r -> is_finite v = true -> B2R r / 4 <= B2R v <= 5 / 2 * B2R r ->
  within 8 10 a -> within 64 128 b -> within 3000 4096 j ->
  fine lm (let k := @div (Fops lm) v r in @Generator (Fops lm) (@mul (Fops lm) k a)
    (@mul (Fops lm) (@mul (Fops lm) k k) b) (@mul (Fops lm) (@mul (Fops lm) (@mul (Fops lm) k k) k) j)).
Proof.
  intros [Fr Hr] Fv Hv [Fa Ha] [Fb Hb] [Fj Hj]. cbv zeta. cbn [div mul Fops].
  destruct (div_btw (1 / IZR (2 ^ 2)) (5 / IZR (2 ^ 1)) v r) as [Fk Hk]; [exact Fv|lra|fitz|fitz| |].
  { change (2 ^ 2)%Z with 4%Z. change (2 ^ 1)%Z with 2%Z. apply quot_btw; lra. }
  set (k := f32_div v r) in *. clearbody k. change (2 ^ 2)%Z with 4%Z in Hk. change (2 ^ 1)%Z with 2%Z in Hk.
  destruct (mul_btw 2 25 k a Fk Fa) as [F1 H1]; [fitz|fitz|nra|].
  destruct (mul_btw (1 / IZR (2 ^ 4)) (25 / IZR (2 ^ 2)) k k Fk Fk) as [F2 H2]; [fitz|fitz|change (2 ^ 4)%Z with 16%Z; change (2 ^ 2)%Z with 4%Z; nra|].
  change (2 ^ 4)%Z with 16%Z in H2. change (2 ^ 2)%Z with 4%Z in H2.
  destruct (mul_btw 4 896 _ b F2 Fb) as [F3 H3]; [fitz|fitz|nra|].
  destruct (mul_btw (1 / IZR (2 ^ 6)) 16 _ k F2 Fk) as [F4 H4]; [fitz|fitz|change (2 ^ 6)%Z with 64%Z; nra|].
  change (2 ^ 6)%Z with 64%Z in H4.
  destruct (mul_btw 46 65536 _ j F4 Fj) as [F5 H5]; [fitz|fitz|nra|].
  split; [|split]; cbn [g_v_max g_a_max g_j_max]; (split; [assumption|lra]).
Qed.

Hypothesis trig : forall x : f32, is_finite x = true -> below 1 (l_sin lm x) /\ below 1 (l_cos lm x).

Lemma generated_curve_run (p x th v r a b j : f32) : within (1 / 1024) 1 p -> below 8 x -> usual_distance th ->
  within (1 / 16) 4 r -> is_finite v = true -> B2R r / 4 <= B2R v <= 5 / 2 * B2R r ->
  within 8 10 a -> within 64 128 b -> within 3000 4096 j ->
  exists N, (0 < N)%nat /\ INR N <= 8388608 /\
    yields curve_next (generate_curve p x (@n0 (Fops lm)) (@n0 (Fops lm)) th v r a b j) N /\
    forall i t, output curve_next i (generate_curve p x (@n0 (Fops lm)) (@n0 (Fops lm)) th v r a b j) = Some t -> finite_target t.
Proof.
  intros Hp Hx [Fd Hd] Hr Fv Hv Ha Hb Hj. pose proof (scaled v r a b j Hr Fv Hv Ha Hb Hj) as Hg.
  unfold generate_curve, generate. cbv zeta in Hg |- *.
  match type of Hg with fine _ ?g => set (gg := g) in * end.
  assert (Z : btw 0 (B2R (g_v_max gg : f32)) (@n0 (Fops lm) : f32)).
  { apply zero_btw. destruct Hg as ([_ H] & _). lra. }
  destruct (plan lm gg Hg (@n0 (Fops lm)) th (@n0 (Fops lm)) (@n0 (Fops lm))) as (c & T & u & E & Tc & HT & _);
    [apply zero_below; lia|exact Fd|exact Hd|exact Z|exact Z|].
  rewrite E. destruct (curve_run lm trig p T Hp HT) as (N & N1 & N2 & Y). exists N. split; [exact N1|]. split; [exact N2|].
  apply Y; [exact Tc|exact Hx|apply zero_below; lia|].
  apply (btw_below 0 10); [split; [exact Fv|destruct Hr; lra]| |]; change (bpow radix2 5) with 32; lra.
Qed.

(** the last part, seen from the end of the curve. *)
Lemma shift_small (q : pose) (t : target) : below 8 (p_x q : f32) -> below 8 (p_y q : f32) -> below 8 (p_theta q : f32) ->
  small_target t -> finite_target (shift q t).
Proof.
  intros Hx Hy Ht ((A1 & A2 & A3 & A4) & (B1 & B2 & B3 & B4) & (C1 & C2 & C3 & C4)).
  destruct (trig (p_theta q) (proj1 Ht)) as [Hs Hc].
  unfold shift, finite_target, finite_axis. cbv zeta. cbn [t_x t_y t_theta tx tv ta tj add sub mul nsin ncos Fops].
  assert (G : forall k u, below k u -> is_finite u = true) by (intros k u U; apply U).
  split; [|split]; (split; [|split; [|split]]); try (eapply G; eassumption); eapply G; bl.
Qed.

(** the chain of the three parts. *)
Lemma chain_finite (q : slalom_params) (s1 s3 : straight_traj) (cu : curve_traj) n1 n2 n3 :
  below 8 (x_curve_end q : f32) -> below 8 (y_curve_end q : f32) -> below 8 (sl_theta q : f32) ->
  yields straight_next s1 n1 -> (forall i t, output straight_next i s1 = Some t -> finite_target t) ->
  yields curve_next cu n2 -> (forall i t, output curve_next i cu = Some t -> finite_target t) ->
  yields straight_next s3 n3 -> (forall i t, output straight_next i s3 = Some t -> small_target t) ->
  yields (slalom_next q) (Some (Some s1, cu), s3) (n1 + n2 + n3) /\
  forall i t, output (slalom_next q) i (Some (Some s1, cu), s3) = Some t -> finite_target t.
Proof.
  intros Hx Hy Ht Y1 O1 Y2 O2 Y3 O3. pose proof (chain_yields straight_next curve_next s1 cu n1 n2 Y1 Y2) as Y12.
  split.
  - apply chain_yields; [exact Y12|]. apply shift_yields, Y3.
  - intros i t H.
    pose proof (eq_trans (eq_sym (chain_output _ (shift_next (curve_end q) straight_next) (n1 + n2) _ s3 i Y12)) H) as H'. clear H. rename H' into H.
    destruct (i <? n1 + n2)%nat.
    + rewrite (chain_output _ _ n1 _ _ _ Y1) in H. destruct (i <? n1)%nat; [exact (O1 _ _ H)|exact (O2 _ _ H)].
    + rewrite shift_output in H. destruct (output straight_next (i - (n1 + n2)) s3) as [u|] eqn:E; [|discriminate].
      cbn [option_map] in H. injection H as <-. apply shift_small; try assumption. exact (O3 _ _ E).
Qed.
End Slalom.

(** ** The speed a move ends with lies between the speeds asked for *)
Section Middle.
Variable lm : libm.
#[local] Hint Extern 0 ops => exact (Fops lm) : typeclass_instances.
Variable g : generator.
Hypothesis Hg : fine lm g.
Let top : R := B2R (g_v_max g : f32).

Lemma limited_between (vs ve d : f32) : btw 0 top vs -> btw 0 top ve ->
  Rmin (B2R vs) (B2R ve) <= B2R (limited_v_end g vs ve d : f32) <= Rmax (B2R vs) (B2R ve).
Proof.
  intros Hs He. pose proof (limited_btw lm g Hg vs ve d Hs He) as HL. revert HL. unfold limited_v_end. cbv zeta.
  unfold reachable_velocity. cbn [ltb Fops]. pose proof (Rmin_l (B2R vs) (B2R ve)). pose proof (Rmin_r (B2R vs) (B2R ve)).
  pose proof (Rmax_l (B2R vs) (B2R ve)). pose proof (Rmax_r (B2R vs) (B2R ve)).
  destruct (ltb_cases vs ve (proj1 Hs) (proj1 He)) as [[-> L]|[-> L]].
  - match goal with |- context [bisect ?n ?u ?l ?h] => destruct (bisect_btw lm u n l h) as [F H4]; [| | |set (b := bisect n u l h) in *; clearbody b] end.
    + apply (speed_range lm g Hg), Hs.
    + apply (speed_range lm g Hg), (top_btw lm g Hg).
    + apply Hs.
    + intros _. destruct (ltb_cases b ve F (proj1 He)) as [[-> M]|[-> M]]; lra.
  - match goal with |- context [bisect ?n ?u ?l ?h] => destruct (bisect_btw lm u n l h) as [F H4]; [| | |set (b := bisect n u l h) in *; clearbody b] end.
    + apply zero_btw. lra.
    + apply (speed_range lm g Hg), Hs.
    + destruct (zero_btw 0 (Rle_refl 0)) as [_ Z]. destruct Hs as [_ Hs]. unfold n0. cbn [lit Fops]. lra.
    + intros _. destruct (ltb_cases ve b (proj1 He) F) as [[-> M]|[-> M]]; lra.
Qed.

Lemma middle_between (p d vs ve : f32) : usual_distance d -> btw 0 top vs -> btw 0 top ve ->
  Rmin (B2R vs) (B2R ve) <= B2R (snd (straight_generate_tv (StraightGenerator g p) d vs ve) : f32) <= Rmax (B2R vs) (B2R ve).
Proof.
  intros [Fd Hd] Hs He. unfold straight_generate_tv. cbn [sg_gen sg_period]. unfold generate_tv.
  destruct (@split_sign (Fops lm) d) as [d' s']. cbv zeta.
  pose proof (limited_between vs ve d' Hs He) as HB. pose proof (limited_btw lm g Hg vs ve d' Hs He) as Hl.
  set (vl := limited_v_end g vs ve d') in *. clearbody vl.
  assert (Hp : is_finite (peak_velocity g vs vl d' : f32) = true /\ B2R (vl : f32) <= B2R (peak_velocity g vs vl d' : f32)).
  { unfold peak_velocity.
    match goal with |- context [bisect _ _ ?l _] => set (low := l) end.
    assert (Hlow : btw 0 top (low : f32) /\ B2R (vl : f32) <= B2R (low : f32)).
    { unfold low. cbn [ltb Fops]. destruct (ltb_cases vs vl (proj1 Hs) (proj1 Hl)) as [[-> L]|[-> L]]; (split; [assumption|lra]). }
    destruct Hlow as [H1 H2]. clearbody low.
    match goal with |- context [bisect ?n ?u ?l ?h] => destruct (bisect_btw lm u n l h) as [F H4]; [| | |set (b := bisect n u l h) in *; clearbody b] end.
    - apply (speed_range lm g Hg), H1.
    - apply (speed_range lm g Hg), (top_btw lm g Hg).
    - apply H1.
    - split; [exact F|lra]. }
  destruct Hp as [Fp Hp]. set (vp := peak_velocity g vs vl d') in *. clearbody vp.
  match goal with |- context [acceleration_distance g vp ?y] => set (v' := y) end.
  assert (V : B2R (v' : f32) = B2R (vl : f32)).
  { unfold v'. cbn [ltb Fops]. destruct (ltb_cases vl vp (proj1 Hl) Fp) as [[-> L]|[-> L]]; [reflexivity|lra]. }
  clearbody v'.
  repeat match goal with |- context [@generate_acceleration ?k ?a ?b ?c ?d] => destruct (@generate_acceleration k a b c d) end.
  match goal with |- context [@generate_constant ?k ?a ?b ?c] => destruct (@generate_constant k a b c) end. cbn [snd].
  rewrite V. exact HB.
Qed.
End Middle.

