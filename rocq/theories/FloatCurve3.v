(** Slaloms in binary32: the whole move and the table of parameters. *)
From Coq Require Import ZArith Reals List Bool Lia Lra.
From Flocq Require Import Core BinarySingleNaN.
From Verif Require Import Base Num NumLemmas RunModel ControlModel TrajModel TrajSpec ClockSpec TrajClock FloatMag FloatRange
  FloatMoveSpec JerkProofs FloatMove FloatMove2 FloatMove3 FloatCurve FloatCurve2.
Open Scope R_scope.

Section Slalom.
Variable lm : libm.
#[local] Hint Extern 0 ops => exact (Fops lm) : typeclass_instances.

Lemma calm_below : calm_trig lm -> forall x : f32, is_finite x = true -> below 1 (l_sin lm x) /\ below 1 (l_cos lm x).
Proof.
  intros H x F. destruct (H x F) as [A B].
  split; apply (btw_below (-2) 2); try assumption; change (bpow radix2 1) with 2; lra.
Qed.

Lemma within_below (x : f32) : within (-8) 8 x -> below 8 x.
Proof. intros H. apply (btw_below (-8) 8); [exact H| |]; change (bpow radix2 8) with 256; lra. Qed.
Lemma distance_within (x : f32) : usual_distance x -> within (-8) 8 x.
Proof. intros [F [_ H]]. split; [exact F|]. apply Rabs_le_inv, H. Qed.

Lemma three n1 n2 n3 : INR n1 <= 8388608 -> INR n2 <= 8388608 -> INR n3 <= 8388608 -> INR (n1 + n2 + n3) <= 3 * 8388608.
Proof. rewrite !plus_INR. lra. Qed.

Lemma constant_slalom (p : f32) (q : slalom_params) (v : f32) :
  calm_trig lm -> within (1 / 1024) 1 p -> usual_curve q -> within 0 8 (l_start q) -> within 0 8 (l_end q) ->
  curve_speed q v ->
  exists N, (0 < N)%nat /\ INR N <= 3 * 8388608 /\ yields (slalom_next q) (generate_constant_slalom p q v) N /\
    forall i t, output (slalom_next q) i (generate_constant_slalom p q v) = Some t -> finite_target t.
Proof.
  intros Ht Hp (Hx & Hy & Hth & Hr & Ha & Hb & Hj) H1 H3 [Fv Hv]. pose proof (calm_below Ht) as trig.
  assert (Hv' : within (1 / 256) 32 v) by (destruct Hr; split; [exact Fv|lra]).
  assert (W : forall x, within 0 8 x -> below 8 x) by (intros x [F H]; apply within_below; split; [exact F|lra]).
  destruct (constant_run lm p (l_start q) v Hp H1 Hv') as (n1 & P1 & B1 & Y1 & O1).
  destruct (generated_curve_run lm trig p (l_start q) (sl_theta q) v (v_ref q) (dtheta q) (ddtheta q) (dddtheta q))
    as (n2 & P2 & B2 & Y2 & O2); try assumption; [apply W, H1|].
  destruct (constant_run lm p (l_end q) v Hp H3 Hv') as (n3 & P3 & B3 & Y3 & O3).
  exists (n1 + n2 + n3)%nat. split; [lia|]. split; [apply three; assumption|].
  unfold generate_constant_slalom. cbv zeta. apply chain_finite; try assumption.
  - apply within_below, Hx.
  - apply within_below, Hy.
  - apply within_below, distance_within, Hth.
  - intros i t E. exact (small_finite lm t (O1 i t E)).
Qed.

Lemma tv_slalom (g : generator) (p : f32) (q : slalom_params) (vs vm ve : f32) :
  calm_trig lm -> usual_limits g -> within (1 / 1024) 1 p -> usual_curve q -> usual_distance (l_start q) -> usual_distance (l_end q) ->
  within 0 (B2R (g_v_max g : f32)) vs -> within 0 (B2R (g_v_max g : f32)) vm -> within 0 (B2R (g_v_max g : f32)) ve ->
  curve_speed q (snd (straight_generate_tv (StraightGenerator g p) (l_start q) vs vm)) ->
  let slalom := generate_slalom_tv (StraightGenerator g p) q vs vm ve in
  within 0 (B2R (g_v_max g : f32)) (snd slalom) /\
  exists N, (0 < N)%nat /\ INR N <= 3 * 8388608 /\ yields (slalom_next q) (fst slalom) N /\
    forall i t, output (slalom_next q) i (fst slalom) = Some t -> finite_target t.
Proof.
  intros Ht Hg Hp (Hx & Hy & Hth & Hr & Ha & Hb & Hj) H1 H3 Hs Hm He. cbv zeta. unfold generate_slalom_tv. cbn [sg_period].
  pose proof (calm_below Ht) as trig.
  pose proof (tv_run lm g p (l_start q) vs vm Hg Hp H1 Hs Hm) as R1. cbv zeta in R1. revert R1.
  destruct (straight_generate_tv (StraightGenerator g p) (l_start q) vs vm) as [s1 mid]. cbn [fst snd].
  intros (Hmid & n1 & P1 & B1 & Y1 & O1) [Fv Hv].
  pose proof (tv_run lm g p (l_end q) mid ve Hg Hp H3 Hmid He) as R3. cbv zeta in R3. revert R3.
  destruct (straight_generate_tv (StraightGenerator g p) (l_end q) mid ve) as [s3 fin]. cbn [fst snd].
  intros (Hfin & n3 & P3 & B3 & Y3 & O3). split; [exact Hfin|].
  destruct (generated_curve_run lm trig p (l_start q) (sl_theta q) mid (v_ref q) (dtheta q) (ddtheta q) (dddtheta q))
    as (n2 & P2 & B2 & Y2 & O2); try assumption; [apply within_below, distance_within, H1|].
  exists (n1 + n2 + n3)%nat. split; [lia|]. split; [apply three; assumption|].
  apply chain_finite; try assumption.
  - apply within_below, Hx.
  - apply within_below, Hy.
  - apply within_below, distance_within, Hth.
  - intros i t E. exact (small_finite lm t (O1 i t E)).
Qed.

(** ** The table *)
Definition dyad (z k : Z) : f32 := f32_div (f32_of_Z z) (f32_of_Z (2 ^ k)).
Lemma dyad_val z k : (Z.abs z <= 2 ^ 24)%Z -> (0 <= k <= 24)%Z -> is_finite (dyad z k) = true /\ B2R (dyad z k) = IZR z / IZR (2 ^ k).
Proof.
  intros Hz Hk. assert (P : (0 < 2 ^ k)%Z) by (apply Z.pow_pos_nonneg; lia).
  assert (L : (2 ^ k <= 2 ^ 24)%Z) by (apply Z.pow_le_mono_r; lia).
  destruct (f32_of_Z_exact z Hz) as [E F]. destruct (f32_of_Z_exact (2 ^ k) ltac:(lia)) as [E1 F1].
  pose proof (IZR_lt _ _ P) as P'.
  destruct (div_btw (IZR z / IZR (2 ^ k)) (IZR z / IZR (2 ^ k)) (f32_of_Z z) (f32_of_Z (2 ^ k)) F) as [A B].
  - rewrite E1. lra.
  - apply fit_dyadic; lia.
  - apply fit_dyadic; lia.
  - rewrite E, E1. lra.
  - split; [exact A|]. unfold dyad. lra.
Qed.
Lemma const_btw a b k (x : f32) : is_finite x = true -> (Z.abs a <= 2 ^ 24)%Z -> (Z.abs b <= 2 ^ 24)%Z -> (0 <= k <= 24)%Z ->
  Bleb (dyad a k) x = true -> Bleb x (dyad b k) = true -> btw (IZR a / IZR (2 ^ k)) (IZR b / IZR (2 ^ k)) x.
Proof.
  intros F Ha Hb Hk L1 L2. destruct (dyad_val a k Ha Hk) as [Fa Ea]. destruct (dyad_val b k Hb Hk) as [Fb Eb].
  split; [exact F|]. destruct (leb_cases _ _ Fa F) as [[_ H]|[H _]]; [|congruence].
  destruct (leb_cases _ _ F Fb) as [[_ H']|[H' _]]; [|congruence]. lra.
Qed.

Definition in_range (a b : Z) (x : f32) : bool := is_finite x && Bleb (dyad a 10) x && Bleb x (dyad b 10).

(** the curve of an entry of the table. *)
Lemma unit_mul (w c : f32) : within (1 / 16) (1 / 2) w -> btw 0 1 c -> btw 0 1 (Bmult mode_NE w c).
Proof.
  intros [Fw Hw] [Fc Hc]. apply mul_btw; try assumption; [apply (fit_int 0)|apply (fit_int 1)|nra]; lia.
Qed.

Lemma created_usual (w ls le x y r th : f32) (d : sdir) : within (1 / 16) (1 / 2) w ->
  btw 0 1 ls -> btw 0 1 le -> btw 0 1 x -> btw 0 1 y -> btw 1 5 r -> btw (1 / 2) 5 (@degree (Fops lm) th : f32) ->
  let q := @create_params (Fops lm) ls le x y r th w d in
  usual_curve q /\ l_start q = Bmult mode_NE w ls /\ l_end q = Bmult mode_NE w le.
Proof.
  intros Hw H1 H2 H3 H4 H5 H6. cbv zeta. unfold create_params. set (dg := @degree (Fops lm) th) in *. clearbody dg.
  pose proof (unit_mul w x Hw H3) as M3. pose proof (unit_mul w y Hw H4) as M4.
  assert (M5 : btw (1 / 16) 4 (Bmult mode_NE w r)).
  { destruct Hw as [Fw Hw], H5 as [Fr Hr]. change (1 / 16) with (1 / IZR (2 ^ 4)).
    apply mul_btw; try assumption; [apply fit_dyadic; lia|apply fit_int; lia|change (2 ^ 4)%Z with 16%Z; nra]. }
  assert (T1 : btw 8 10 (Bmult mode_NE (@lit (Fops lm) 3 1) (@npi (Fops lm)))).
  { destruct (const_btw 8192 10240 10 (Bmult mode_NE (@lit (Fops lm) 3 1) (@npi (Fops lm)))) as [F H]; try lia; try (vm_compute; reflexivity).
    change (2 ^ 10)%Z with 1024%Z in H. split; [exact F|lra]. }
  assert (T2 : btw 64 128 (Bmult mode_NE (@lit (Fops lm) 36 1) (@npi (Fops lm)))).
  { destruct (const_btw 65536 131072 10 (Bmult mode_NE (@lit (Fops lm) 36 1) (@npi (Fops lm)))) as [F H]; try lia; try (vm_compute; reflexivity).
    change (2 ^ 10)%Z with 1024%Z in H. split; [exact F|lra]. }
  assert (T3 : btw 3000 4096 (Bmult mode_NE (@lit (Fops lm) 1200 1) (@npi (Fops lm)))).
  { destruct (const_btw 3072000 4194304 10 (Bmult mode_NE (@lit (Fops lm) 1200 1) (@npi (Fops lm)))) as [F H]; try lia; try (vm_compute; reflexivity).
    change (2 ^ 10)%Z with 1024%Z in H. split; [exact F|lra]. }
  cbn [mul opp Fops]. change (@mul (Fops lm)) with (@Bmult 24 128 prec32 emax32 mode_NE).
  set (t1 := Bmult mode_NE (@lit (Fops lm) 3 1) (@npi (Fops lm))) in *. set (t2 := Bmult mode_NE (@lit (Fops lm) 36 1) (@npi (Fops lm))) in *.
  set (t3 := Bmult mode_NE (@lit (Fops lm) 1200 1) (@npi (Fops lm))) in *.
  set (m3 := Bmult mode_NE w x) in *. set (m4 := Bmult mode_NE w y) in *. set (m5 := Bmult mode_NE w r) in *.
  clearbody t1 t2 t3 m3 m4 m5.
  destruct M3 as [F3 M3], M4 as [F4 M4], H6 as [F6 H6].
  assert (U : usual_distance dg) by (split; [exact F6|rewrite Rabs_pos_eq; lra]).
  assert (U' : usual_distance (Bopp dg)) by (split; [rewrite is_finite_Bopp; exact F6|rewrite B2R_Bopp, Rabs_Ropp, Rabs_pos_eq; lra]).
  destruct d; unfold usual_curve; cbn [l_start l_end x_curve_end y_curve_end sl_theta v_ref dtheta ddtheta dddtheta];
    (split; [split; [|split; [|split; [|split; [|split; [|split]]]]]|split; reflexivity]); try assumption;
    (split; [try rewrite is_finite_Bopp; assumption|try rewrite B2R_Bopp; lra]).
Qed.

Lemma in_range_btw a b x : (Z.abs a <= 2 ^ 24)%Z -> (Z.abs b <= 2 ^ 24)%Z -> in_range a b x = true -> btw (IZR a / 1024) (IZR b / 1024) x.
Proof.
  intros Ha Hb H. unfold in_range in H. apply andb_prop in H. destruct H as [H L2]. apply andb_prop in H. destruct H as [F L1].
  change 1024 with (IZR (2 ^ 10)). apply const_btw; try assumption; lia.
Qed.

Lemma table_usual (w off : f32) (k : skind) (d : sdir) : within (1 / 16) (1 / 2) w ->
  let q := @parameters (Fops lm) w off (Some k) d in
  usual_curve q /\ usual_distance (l_start q) /\ usual_distance (l_end q) /\ 0 < B2R (l_start q : f32) /\ 0 < B2R (l_end q : f32).
Proof.
  intros Hw. cbv zeta.
  assert (E : exists ls le x y r th, @parameters (Fops lm) w off (Some k) d = @create_params (Fops lm) ls le x y r th w d /\
    in_range 128 1024 ls = true /\ in_range 128 1024 le = true /\ in_range 128 1024 x = true /\ in_range 128 1024 y = true /\
    in_range 2048 5120 r = true /\ in_range 512 5120 (@degree (Fops lm) th) = true).
  { destruct k; cbn [parameters]; do 6 eexists; (split; [reflexivity|]); repeat split; vm_compute; reflexivity. }
  destruct E as (ls & le & x & y & r & th & -> & E1 & E2 & E3 & E4 & E5 & E6).
  apply in_range_btw in E1, E2, E3, E4, E5, E6; try lia.
  destruct (created_usual w ls le x y r th d Hw) as (U & L1 & L2); try (eapply btw_weak; [eassumption|lra|lra]).
  split; [exact U|]. rewrite L1, L2.
  assert (M : forall c, btw (128 / 1024) (1024 / 1024) c -> usual_distance (Bmult mode_NE w c) /\ 0 < B2R (Bmult mode_NE w c)).
  { intros c [Fc Hc]. destruct Hw as [Fw Hw].
    destruct (mul_btw (1 / IZR (2 ^ 7)) 1 w c Fw Fc) as [F H]; [apply fit_dyadic; lia|apply fit_int; lia|change (2 ^ 7)%Z with 128%Z; nra|].
    change (2 ^ 7)%Z with 128%Z in H. split; [split; [exact F|rewrite Rabs_pos_eq; lra]|lra]. }
  destruct (M ls E1), (M le E2). auto.
Qed.

(** the entry for searching. *)
Lemma search90_usual (w off : f32) (d : sdir) : within (1 / 16) (1 / 2) w -> within 0 (1 / 64) off ->
  let q := @parameters (Fops lm) w off None d in usual_curve q /\ within 0 8 (l_start q) /\ within 0 8 (l_end q).
Proof.
  intros Hw [Fo Ho]. cbv zeta. cbn [parameters]. unfold search90_params. cbn [div sub add mul Fops leb].
  assert (R : forall (a b : Z) (x : f32), in_range a b x = true -> (Z.abs a <= 2 ^ 24)%Z -> (Z.abs b <= 2 ^ 24)%Z -> btw (IZR a / 1024) (IZR b / 1024) x)
    by (intros; apply in_range_btw; assumption).
  destruct (R 92 93 (@lit (Fops lm) 9 100) ltac:(vm_compute; reflexivity) ltac:(lia) ltac:(lia))%Z as [_ C9].
  destruct (R 56 57 (@lit (Fops lm) 55555556 1000000000) ltac:(vm_compute; reflexivity) ltac:(lia) ltac:(lia))%Z as [FA CA].
  destruct (R 56 57 (@lit (Fops lm) 55555567 1000000000) ltac:(vm_compute; reflexivity) ltac:(lia) ltac:(lia))%Z as [FB CB].
  assert (AB : B2R (@lit (Fops lm) 55555556 1000000000 : f32) <= B2R (@lit (Fops lm) 55555567 1000000000 : f32)).
  { destruct (leb_cases _ _ FA FB) as [[_ H]|[H _]]; [exact H|]. exfalso. revert H. vm_compute. discriminate. }
  destruct (R 512 512 (@lit (Fops lm) 5 10) ltac:(vm_compute; reflexivity) ltac:(lia) ltac:(lia))%Z as [F5 C5].
  pose proof (R 128 1024 (@lit (Fops lm) 44444445 100000000) ltac:(vm_compute; reflexivity) ltac:(lia) ltac:(lia))%Z as C4.
  pose proof (R 2048 5120 (@lit (Fops lm) 80529999 30000000) ltac:(vm_compute; reflexivity) ltac:(lia) ltac:(lia))%Z as CV.
  pose proof (R 512 5120 (@degree (Fops lm) (@lit (Fops lm) 90 1)) ltac:(vm_compute; reflexivity) ltac:(lia) ltac:(lia))%Z as CT.
  destruct (R 6144 6200 (@lit (Fops lm) 603975 100000) ltac:(vm_compute; reflexivity) ltac:(lia) ltac:(lia))%Z as [F6 C6].
  set (c9 := @lit (Fops lm) 9 100) in *. set (ca := @lit (Fops lm) 55555556 1000000000) in *. set (cb := @lit (Fops lm) 55555567 1000000000) in *.
  set (c5 := @lit (Fops lm) 5 10) in *. set (c4 := @lit (Fops lm) 44444445 100000000) in *. set (cv := @lit (Fops lm) 80529999 30000000) in *.
  set (c6 := @lit (Fops lm) 603975 100000) in *. set (ct := @lit (Fops lm) 90 1) in *. clearbody c9 ca cb c5 c4 cv c6 ct.
  destruct (div_btw 0 (180 / IZR (2 ^ 10)) off c9 Fo) as [FO HO]; [lra|apply (fit_int 0); lia|apply fit_dyadic; lia| |].
  { change (2 ^ 10)%Z with 1024%Z. apply quot_btw; [lra|nra]. }
  change (2 ^ 10)%Z with 1024%Z in HO. set (o := f32_div off c9) in *. clearbody o.
  destruct (sub_btw (332 / IZR (2 ^ 10)) (512 / IZR (2 ^ 10)) c5 o F5 FO) as [FX HX]; [apply fit_dyadic; lia|apply fit_dyadic; lia|change (2 ^ 10)%Z with 1024%Z; lra|].
  change (2 ^ 10)%Z with 1024%Z in HX. set (x := Bminus mode_NE c5 o) in *.
  assert (I0 : fit 0) by (apply (fit_int 0); lia). assert (I1 : fit 1) by (apply (fit_int 1); lia).
  destruct (leb_cases o ca FO FA) as [[-> L]|[-> L]].
  - pose proof (sub_btw 0 1 cb o FB FO I0 I1 ltac:(lra)) as S1. pose proof (add_btw 0 1 ca o FA FO I0 I1 ltac:(lra)) as S2.
    destruct (created_usual w _ _ x c4 cv ct d Hw S1 S2) as (U & L1 & L2);
      [split; [exact FX|lra]|eapply btw_weak; [exact C4|lra|lra]|eapply btw_weak; [exact CV|lra|lra]|eapply btw_weak; [exact CT|lra|lra]|].
    pose proof (unit_mul w _ Hw S1) as V1. pose proof (unit_mul w _ Hw S2) as V2. rewrite <- L1 in V1. rewrite <- L2 in V2.
    split; [exact U|]. split; [apply (btw_weak 0 1 0 8 _ V1); lra|apply (btw_weak 0 1 0 8 _ V2); lra].
  - assert (Z0 : btw 0 1 (@n0 (Fops lm) : f32)) by (apply zero_btw; lra).
    pose proof (add_btw 0 1 o o FO FO I0 I1 ltac:(lra)) as S2.
    destruct (mul_btw 1 5 x c6 FX F6) as [FV HV]; [exact I1|apply (fit_int 5); lia|nra|].
    destruct (created_usual w (@n0 (Fops lm)) _ x x (Bmult mode_NE x c6) ct d Hw Z0 S2) as (U & L1 & L2);
      [split; [exact FX|lra]|split; [exact FX|lra]|split; assumption|eapply btw_weak; [exact CT|lra|lra]|].
    pose proof (unit_mul w _ Hw Z0) as V1. pose proof (unit_mul w _ Hw S2) as V2. rewrite <- L1 in V1. rewrite <- L2 in V2.
    split; [exact U|]. split; [apply (btw_weak 0 1 0 8 _ V1); lra|apply (btw_weak 0 1 0 8 _ V2); lra].
Qed.
End Slalom.
