(** The plan of a move in binary32 with ordinary parameters. *)
From Coq Require Import ZArith Reals Bool Lra Lia.
From Flocq Require Import Core BinarySingleNaN.
From Verif Require Import Base Num NumLemmas FloatMag FloatRange ControlModel TrajModel JerkProofs FloatMove FloatMove2.
Open Scope R_scope.

Section Plan.
Variable lm : libm.
#[local] Hint Extern 0 ops => exact (Fops lm) : typeclass_instances.

Ltac fitz := match goal with
  | |- fit (IZR _) => apply fit_int; lia
  | |- fit (- IZR ?z) => rewrite <- opp_IZR; apply fit_int; lia
  | |- fit (IZR _ / IZR (2 ^ _)) => apply fit_dyadic; lia
  end.

Variable g : generator.
Hypothesis Hg : fine lm g.
Let top : R := B2R (g_v_max g : f32).

Lemma speed_range (v : f32) : btw 0 top v -> btw 0 32 v.
Proof. intros [F H]. destruct Hg as ([_ Hv] & _). split; [exact F|]. unfold top in *. lra. Qed.

Lemma top_btw : btw 0 top (g_v_max g : f32).
Proof. destruct Hg as ([F Hv] & _). split; [exact F|]. unfold top. lra. Qed.

Lemma zero_btw b : 0 <= b -> btw 0 b (f32_div (f32_of_Z 0) (f32_of_Z 1)).
Proof.
  intros H. replace (f32_div (f32_of_Z 0) (f32_of_Z 1)) with (B754_zero false : f32) by (vm_compute; reflexivity).
  split; [reflexivity|]. cbn [B2R]. lra.
Qed.

Lemma limited_btw (vs ve d : f32) : btw 0 top vs -> btw 0 top ve -> btw 0 top (limited_v_end g vs ve d : f32).
Proof.
  intros Hs He. unfold limited_v_end. cbv zeta.
  assert (P : B2R vs <= B2R ve \/ ~ B2R vs <= B2R ve) by (destruct (Rle_or_lt (B2R vs) (B2R ve)); [left|right]; lra).
  unfold reachable_velocity. destruct (@ltb (Fops lm) vs ve).
  - match goal with |- context [bisect ?n ?u ?l ?h] => destruct (bisect_btw lm u n l h) as [F H] end.
    + apply speed_range, Hs.
    + apply speed_range, top_btw.
    + apply Hs.
    + match goal with |- context [if ?c then _ else _] => destruct c end; [split; [exact F|]|exact He]. destruct Hs as [_ Hs]. unfold top. lra.
  - match goal with |- context [bisect ?n ?u ?l ?h] => destruct (bisect_btw lm u n l h) as [F H] end.
    + apply zero_btw. lra.
    + apply speed_range, Hs.
    + destruct (zero_btw 0 (Rle_refl 0)) as [_ Z]. destruct Hs as [_ Hs]. unfold n0. cbn [lit Fops]. lra.
    + match goal with |- context [if ?c then _ else _] => destruct c end; [split; [exact F|]|exact He]. destruct Hs as [_ Hs].
      destruct (zero_btw 0 (Rle_refl 0)) as [_ Z]. unfold n0 in *. cbn [lit Fops] in *. lra.
Qed.

Lemma peak_btw (vs ve d : f32) : btw 0 top vs -> btw 0 top ve -> btw (1 / 1024) 8 d ->
  btw (1 / 256) top (peak_velocity g vs ve d : f32).
Proof.
  intros Hs He Hd. unfold peak_velocity.
  match goal with |- context [bisect _ _ ?l _] => set (low := l) end.
  assert (Hl : btw 0 top (low : f32) /\ B2R vs <= B2R (low : f32) /\ B2R ve <= B2R (low : f32)).
  { unfold low. cbn [ltb Fops]. destruct (ltb_cases vs ve (proj1 Hs) (proj1 He)) as [[-> L]|[-> L]]; repeat split; try apply He; try apply Hs; lra. }
  destruct Hl as (Hl & Ls & Le). clearbody low.
  match goal with |- btw _ _ (bisect ?n ?u ?l ?h) => set (up := u); set (b := bisect n up l h);
    destruct (bisect_btw lm up n l h) as [F H] end.
  { apply speed_range, Hl. } { apply speed_range, top_btw. } { apply Hl. }
  fold b in F, H. split; [exact F|]. split; [|apply H].
  destruct (Rle_or_lt (1 / 256) (B2R (low : f32))) as [Y|N]; [lra|].
  apply (bisect_above lm up LOOP_COUNT 0 low (g_v_max g)); try (unfold LOOP_COUNT; lia).
  - intros v Hv. unfold up. cbn [add leb Fops].
    assert (Sm : forall x : f32, btw 0 top x -> B2R x <= B2R (low : f32) -> btw 0 (1 / IZR (2 ^ 7)) x).
    { intros x [Fx Hx] L. split; [exact Fx|]. change (2 ^ 7)%Z with 128%Z. lra. }
    assert (Hv' : btw 0 (1 / IZR (2 ^ 7)) v) by (change (2 ^ 7)%Z with 128%Z; exact Hv).
    destruct (distance_small lm g Hg vs v (Sm vs Hs Ls) Hv') as [F1 H1].
    destruct (distance_small lm g Hg v ve Hv' (Sm ve He Le)) as [F2 H2].
    destruct (add_btw 0 (1 / IZR (2 ^ 10)) _ _ F1 F2) as [F3 H3]; [fitz|fitz| |].
    + change (2 ^ 11)%Z with 2048%Z in *. change (2 ^ 10)%Z with 1024%Z. lra.
    + destruct Hd as [Fd Hd]. destruct (leb_cases _ d F3 Fd) as [[Q _]|[_ Q]]; [exact Q|exfalso].
      change (2 ^ 10)%Z with 1024%Z in *. lra.
  - apply speed_range, Hl.
  - apply speed_range, top_btw.
  - apply Hl.
  - destruct Hg as ([_ Hv] & _). lra.
  - destruct Hg as ([_ Hv] & _). change (IZR (2 ^ 0)) with 1. lra.
Qed.

(** ** The parts of the plan *)
Lemma accel_plan (x vs ve : f32) : below 15 x -> btw 0 top vs -> btw 0 top ve ->
  tame_accel lm (fst (generate_acceleration g x vs ve)) /\
  btw 0 160 (snd (generate_acceleration g x vs ve) : f32).
Proof.
  intros Hx Hs He. pose proof (tc_btw lm g Hg) as Ht. pose proof (vd_btw lm g Hg) as Hv.
  pose proof (speed_range vs Hs) as Hs'. pose proof (speed_range ve He) as He'.
  assert (G : btw 0 32 (Babs (Bminus mode_NE ve vs))).
  { replace 32 with (IZR 32 / IZR (2 ^ 0)) in * by (change (IZR (2 ^ 0)) with 1; field). apply gap_btw; try assumption; lia. }
  destruct Hg as (_ & [Fa Ha] & [Fj Hj]).
  assert (Bs : below 5 vs) by (apply (btw_below 0 32); [exact Hs'| |]; change (bpow radix2 5) with 32; lra).
  assert (Be : below 5 ve) by (apply (btw_below 0 32); [exact He'| |]; change (bpow radix2 5) with 32; lra).
  assert (Ba : below 10 (g_a_max g : f32)) by (apply (btw_below 1 1024); [split; assumption| |]; change (bpow radix2 10) with 1024; lra).
  assert (Bj : below 16 (g_j_max g : f32)) by (apply (btw_below 16 65536); [split; assumption| |]; change (bpow radix2 16) with 65536; lra).
  unfold generate_acceleration. cbv zeta. unfold n2. cbn [lit Fops add sub mul div opp nabs nsqrt leb ltb].
  change (f32_div (f32_of_Z 2) (f32_of_Z 1)) with f2.
  set (tc := f32_div (g_a_max g) (g_j_max g)) in *. set (vd := Bmult mode_NE (g_a_max g) tc) in *.
  set (dv := Babs (Bminus mode_NE ve vs)) in *. clearbody dv. clearbody vd. clearbody tc.
  destruct f2_val as [V2 F2]. destruct G as [Fd Hd]. destruct Ht as [Ft Ht].
  match goal with |- context [if Bleb vd dv then ?a else ?b] => set (trip := if Bleb vd dv then a else b) end.
  assert (T : exists t1 t2 t3 : f32, trip = (t1, t2, t3) /\
      btw 0 64 t1 /\ btw 0 96 t2 /\ btw 0 160 t3).
  { unfold trip. destruct (Bleb vd dv); do 3 eexists; (split; [reflexivity|]).
    - destruct (div_btw 0 32 dv (g_a_max g)) as [F H]; [exact Fd|lra|fitz|fitz|apply quot_btw; [lra|nra]|].
      pose proof (generic_format_B2R 24 128 tc) as Gt.
      assert (B64 : Rabs (B2R tc) <= bpow radix2 100).
      { rewrite Rabs_pos_eq by lra. apply Rle_trans with (bpow radix2 6); [change (bpow radix2 6) with 64; lra|apply bpow_le; lia]. }
      destruct (sub_btw (- B2R tc) 32 _ tc F Ft) as [F' H'];
        [split; [apply generic_format_opp, Gt|rewrite Rabs_Ropp; exact B64]|fitz|lra|].
      destruct (mul_btw (B2R tc) 128 f2 tc F2 Ft) as [F3 H3]; [split; assumption|fitz|rewrite V2; lra|].
      split; [split; assumption|]. split; apply add_btw; try assumption; try fitz; lra.
    - destruct (div_btw 0 4 dv (g_j_max g)) as [F H]; [exact Fd|lra|fitz|fitz|apply quot_btw; [lra|nra]|].
      destruct (sqrt_btw 2 _ F) as [F' H']; [lra|fitz|lra|lra|].
      split; [split; [exact F'|lra]|]. split; [split; [exact F'|lra]|].
      apply mul_btw; [exact F2|exact F'|fitz|fitz|]. rewrite V2. lra. }
  destruct T as (t1 & t2 & t3 & -> & T1 & T2 & T3).
  assert (B1 : below 8 t1) by (apply (btw_below 0 64); [exact T1| |]; change (bpow radix2 8) with 256; lra).
  assert (B2 : below 8 t2) by (apply (btw_below 0 96); [exact T2| |]; change (bpow radix2 8) with 256; lra).
  assert (B3 : below 8 t3) by (apply (btw_below 0 160); [exact T3| |]; change (bpow radix2 8) with 256; lra).
  assert (W : forall k j x, below k x -> (k <= j)%Z -> below j x) by (intros k j y By Q; apply (below_le k); assumption).
  destruct (Bleb vs ve); cbn [fst snd]; (split; [|exact T3]); unfold tame_accel;
    cbn [ac_x_start ac_v_start ac_x_end ac_v_end ac_a_m ac_j_m ac_t1 ac_t2 ac_t3];
    repeat match goal with |- _ /\ _ => split end; (eapply W; [bl|lia]).
Qed.

Lemma const_plan (x d v : f32) : below 15 x -> btw (-6144) 8 d -> btw (1 / 256) top v ->
  tame_const lm (fst (generate_constant x d v)) /\ btw 0 2048 (snd (generate_constant x d v) : f32).
Proof.
  intros Hx [Fd Hd] Hv. assert (Hv' : btw 0 32 v).
  { apply speed_range. destruct Hv. split; [assumption|lra]. }
  destruct Hv as [Fv Hv]. destruct Hv' as [_ Hv'].
  unfold generate_constant. cbv zeta. unfold n0. cbn [lit Fops div ltb fst snd].
  destruct (div_btw (-1572864) 2048 d v) as [F H]; [exact Fd|lra|fitz|fitz|apply quot_btw; [lra|nra]|].
  set (q := f32_div d v) in *. clearbody q.
  destruct (zero_btw 2048 ltac:(lra)) as [Fz Hz]. set (z := f32_div (f32_of_Z 0) (f32_of_Z 1)) in *.
  assert (Z0 : B2R z = 0).
  { unfold z. replace (f32_div (f32_of_Z 0) (f32_of_Z 1)) with (B754_zero false : f32) by (vm_compute; reflexivity). reflexivity. }
  assert (T : btw 0 2048 (if Bltb q z then z else q)).
  { destruct (ltb_cases q z F Fz) as [[-> L]|[-> L]]; [split; [exact Fz|lra]|split; [exact F|lra]]. }
  match goal with |- tame_const _ _ /\ btw _ _ ?e => set (t := e); change (btw 0 2048 t) in T end. clearbody t. split; [|exact T].
  unfold tame_const. cbn [cc_t_end cc_x_start cc_v]. split; [|split].
  - apply (btw_below 0 2048); [exact T| |]; change (bpow radix2 12) with 4096; lra.
  - apply (below_le 15); [lia|exact Hx].
  - apply (btw_below 0 32); [split; [exact Fv|lra]| |]; change (bpow radix2 5) with 32; lra.
Qed.

(** ** The whole plan *)
Lemma plan (x d vs ve : f32) : below 10 x -> is_finite d = true -> 1 / 1024 <= Rabs (B2R d) <= 8 ->
  btw 0 top vs -> btw 0 top ve ->
  exists c T v, generate_tv g x d vs ve = (c, T, v) /\ tame lm c /\ btw 0 2368 T /\ btw 0 top v.
Proof.
  intros Hx Fd Hd Hs He. unfold generate_tv.
  assert (S : exists d' s' : f32, split_sign d = (d', s') /\ btw (1 / 1024) 8 d' /\ below 0 s').
  { unfold split_sign. unfold n0, n1. cbn [lit Fops ltb opp]. change (f32_div (f32_of_Z 1) (f32_of_Z 1)) with f1.
    destruct (zero_btw 0 (Rle_refl 0)) as [Fz Hz]. set (z := f32_div (f32_of_Z 0) (f32_of_Z 1)) in *.
    destruct (ltb_cases d z Fd Fz) as [[-> L]|[-> L]]; do 2 eexists; (split; [reflexivity|]).
    - split; [|apply below_opp, f1_below]. split; [rewrite is_finite_Bopp; exact Fd|]. rewrite B2R_Bopp.
      rewrite Rabs_left in Hd by lra. exact Hd.
    - split; [|apply f1_below]. split; [exact Fd|]. rewrite Rabs_pos_eq in Hd by lra. exact Hd. }
  destruct S as (d' & s' & -> & Hd' & Bs). cbv zeta.
  pose proof (limited_btw vs ve d' Hs He) as Hl. set (vl := limited_v_end g vs ve d') in *. clearbody vl.
  pose proof (peak_btw vs vl d' Hs Hl Hd') as Hp. set (vp := peak_velocity g vs vl d') in *. clearbody vp.
  assert (Hp0 : btw 0 top (vp : f32)) by (destruct Hp; split; [assumption|lra]).
  match goal with |- context [acceleration_distance g vp ?y] => set (v' := y) end.
  assert (Hv' : btw 0 top (v' : f32)) by (unfold v'; destruct (@ltb (Fops lm) vl vp); assumption). clearbody v'.
  pose proof (distance_btw lm g Hg vs vp (speed_range _ Hs) (speed_range _ Hp0)) as D1.
  pose proof (distance_btw lm g Hg vp v' (speed_range _ Hp0) (speed_range _ Hv')) as D3.
  set (d1 := acceleration_distance g vs vp) in *. set (d3 := acceleration_distance g vp v') in *. clearbody d1. clearbody d3.
  assert (Bd : below 3 d') by (apply (btw_below (1 / 1024) 8); [exact Hd'| |]; change (bpow radix2 3) with 8; lra).
  assert (B1 : below 12 (d1 : f32)) by (apply (btw_below 0 3072); [exact D1| |]; change (bpow radix2 12) with 4096; lra).
  assert (B3 : below 12 (d3 : f32)) by (apply (btw_below 0 3072); [exact D3| |]; change (bpow radix2 12) with 4096; lra).
  destruct Hd' as [Fd' Hd']. destruct D1 as [F1 D1]. destruct D3 as [F3 D3].
  destruct (sub_btw (-3072) 8 d' d1 Fd' F1) as [F4 D4]; [fitz|fitz|lra|].
  pose proof (sub_btw (-6144) 8 _ d3 F4 F3 ltac:(fitz) ltac:(fitz) ltac:(lra)) as D5.
  assert (W : forall k j y, below k y -> (k <= j)%Z -> below j y) by (intros k j y By Q; apply (below_le k); assumption).
  destruct (accel_plan x vs vp (W 10%Z 15%Z x Hx ltac:(lia)) Hs Hp0) as [A1 A2].
  destruct (generate_acceleration g x vs vp) as [acc dt1]. cbn [fst snd] in A1, A2.
  assert (X1 : below 15 (Bplus mode_NE x d1)) by (eapply W; [bl|lia]).
  destruct (const_plan _ _ vp X1 D5 Hp) as [C1 C2].
  change (@add (Fops lm) x d1) with (Bplus mode_NE x d1). change (@sub (Fops lm) (@sub (Fops lm) d' d1) d3) with (Bminus mode_NE (Bminus mode_NE d' d1) d3).
  destruct (@generate_constant (Fops lm) (Bplus mode_NE x d1) (Bminus mode_NE (Bminus mode_NE d' d1) d3) vp) as [con dt2]. cbn [fst snd] in C1, C2.
  assert (X3 : below 15 (Bminus mode_NE (Bplus mode_NE x d') d3)) by (eapply W; [bl|lia]).
  destruct (accel_plan _ vp v' X3 Hp0 Hv') as [E1 E2].
  change (@sub (Fops lm) (@add (Fops lm) x d') d3) with (Bminus mode_NE (Bplus mode_NE x d') d3).
  destruct (@generate_acceleration (Fops lm) g (Bminus mode_NE (Bplus mode_NE x d') d3) vp v') as [dec dt3]. cbn [fst snd] in E1, E2.
  do 3 eexists. split; [reflexivity|].
  destruct A2 as [Fa A2]. destruct C2 as [Fc C2]. destruct E2 as [Fe E2].
  destruct (add_btw 0 2208 dt1 dt2 Fa Fc) as [F6 D6]; [fitz|fitz|lra|].
  destruct (add_btw 0 2368 _ dt3 F6 Fe) as [F7 D7]; [fitz|fitz|lra|].
  split; [|split; [split; assumption|exact Hv']].
  assert (R : forall a b (y : f32), btw a b y -> - 4096 <= a -> b <= 4096 -> below 12 y).
  { intros a b y By P Q. apply (btw_below a b); [exact By| |]; change (bpow radix2 12) with 4096; lra. }
  assert (Top : forall y : f32, btw 0 top y -> below 5 y).
  { intros y By. apply (btw_below 0 32); [apply speed_range, By| |]; change (bpow radix2 5) with 32; lra. }
  unfold tame. cbn [oc_x_start oc_v_start oc_t1 oc_t2 oc_t3 oc_distance oc_v_end oc_accel oc_const oc_decel oc_sign].
  split; [eapply W; [exact Hx|lia]|]. split; [apply Top, Hs|].
  split; [apply (R 0 160); [split; assumption|lra|lra]|].
  split; [apply (R 0 2208); [split; assumption|lra|lra]|].
  split; [apply (R 0 2368); [split; assumption|lra|lra]|].
  split; [eapply W; [exact Bd|lia]|]. split; [apply Top, Hv'|].
  split; [exact A1|]. split; [exact C1|]. split; [exact E1|]. exact Bs.
Qed.
End Plan.
