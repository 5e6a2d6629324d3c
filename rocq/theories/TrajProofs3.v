(** Single ramps, their optimality, terminal velocities, iterators. *)
From Coq Require Import ZArith Reals List Bool Lra Lia Psatz.
From Flocq Require Import Core BinarySingleNaN.
From Verif Require Import Base Num NumLemmas SearchModel RunModel ControlModel TrajModel TrajSpec
  TrajProofs TrajProofs2.
Import ListNotations.
Open Scope R_scope.

Lemma accel_ok (g : @generator Rops) (x0 v0 v1 : R) : limits g ->
  let T := ramp_time (g_a_max g) (g_j_max g) (Rabs (v1 - v0)) in
  exists c, generate_acceleration g x0 v0 v1 = (c, T) /\ 0 <= T /\
    follows (accel_calculate c) T (g_j_max g) /\
    (forall t, 0 <= t <= T ->
       Rmin v0 v1 <= tv (accel_calculate c t) <= Rmax v0 v1 /\
       Rabs (ta (accel_calculate c t)) <= g_a_max g) /\
    (forall t, Rabs (tj (accel_calculate c t)) <= g_j_max g) /\
    (tx (accel_calculate c 0) = x0 /\ tv (accel_calculate c 0) = v0 /\ ta (accel_calculate c 0) = 0) /\
    (tx (accel_calculate c T) = x0 + (v0 + v1) / 2 * T /\ tv (accel_calculate c T) = v1 /\
     ta (accel_calculate c T) = 0) /\
    (forall t, t < 0 -> accel_calculate c t = @Axis4 Rops x0 v0 0%R 0%R) /\
    (forall t, T < t -> accel_calculate c t = @Axis4 Rops (x0 + (v0 + v1) / 2 * T)%R v1 0%R 0%R).
Proof.
  intros (Hv & Ha & Hj). cbv zeta.
  destruct (gen_accel g x0 v0 v1 Ha Hj) as (am & jm & T1 & T2 & E & A1 & A2 & A3 & A4 & A5 & A6 & A7).
  cbv zeta in *. set (T := ramp_time _ _ _) in *.
  exists (@AccelCalc Rops x0 v0 (x0 + (v0 + v1) * T / 2)%R v1 am jm T1 T2 T).
  set (c := AccelCalc _ _ _ _ _ _ _ _ _).
  assert (Hb : Rabs jm = g_j_max g).
  { destruct A7 as [[_ ->]|[_ ->]]; [|rewrite Rabs_Ropp]; apply Rabs_pos_eq; lra. }
  set (x1 := x0 + (v0 + v1) * T / 2) in *.
  assert (M := ramp_motion x0 v0 x1 v1 jm T1 T2 T A1 A2 A3 A4 eq_refl). rewrite Hb in M.
  assert (C := fun t => ramp_calc x0 v0 x1 v1 jm T1 T2 T A1 A2 am t A5). cbv zeta in C. fold c in C.
  split; [exact E|]. split; [rops; lra|]. split.
  { do 5 eexists. split; [exact M | exact C]. }
  split.
  { intros t Ht. destruct (C t Ht) as (_ & -> & -> & _).
    destruct (ramp_v v0 v1 jm T1 T2 T A1 A2 A3 A4 t Ht) as (k & K & ->).
    destruct (ramp_a jm T1 T2 T A1 A3 t Ht) as (k' & K' & ->).
    assert (m1 := Rmin_l v0 v1). assert (m2 := Rmin_r v0 v1).
    assert (m3 := Rmax_l v0 v1). assert (m4 := Rmax_r v0 v1). rops.
    split; [destruct A7 as [[H ->]|[H ->]]; nra|].
    rewrite Rabs_mult, Hb, (Rabs_pos_eq k') by lra. nra. }
  split.
  { intros t. rewrite <- Hb. apply accel_j. }
  split.
  { destruct (C 0) as (-> & -> & -> & _); [rops; lra|].
    destruct (ramp_before x0 v0 x1 v1 jm T1 T2 T A1 A2 A3 0) as (-> & -> & ->); [lra|].
    change (@num Rops) with R. repeat split; ring. }
  split.
  { destruct (C T) as (-> & -> & -> & _); [rops; lra|].
    destruct (ramp_after x0 v0 x1 v1 jm T1 T2 T A1 A3 A4 eq_refl T) as (-> & -> & ->); [lra|].
    change (@num Rops) with R. repeat split; unfold x1; field. }
  split; intros t Ht; unfold accel_calculate, c;
    cbn [ac_x_start ac_v_start ac_x_end ac_v_end ac_a_m ac_j_m ac_t1 ac_t2 ac_t3]; rops.
  - destruct (Rltb_spec t (0 / 1)) as [_|N]; [|lra]. f_equal; field.
  - destruct (Rltb_spec t (0 / 1)) as [N|_]; [lra|].
    destruct (Rleb_spec t T1) as [N|_]; [lra|]. destruct (Rleb_spec t T2) as [N|_]; [lra|].
    destruct (Rleb_spec t T) as [N|_]; [lra|]. f_equal; unfold x1; field.
Qed.

(** ** No admissible speed change is faster *)

Lemma incr_le (f f' : R -> R) a b M : a <= b ->
  (forall t, a <= t <= b -> derivable_pt_lim f t (f' t)) -> (forall t, a <= t <= b -> f' t <= M) ->
  f b - f a <= M * (b - a).
Proof.
  intros L D B. destruct (Req_dec a b) as [->|N]; [lra|].
  destruct (MVT_cor2 f f' a b) as (c & E & Hc); [lra | exact D |].
  rewrite E. apply Rmult_le_compat_r; [lra|]. apply B. lra.
Qed.

Lemma nonpos_le (f f' : R -> R) a b : a <= b ->
  (forall t, a <= t <= b -> derivable_pt_lim f t (f' t)) -> (forall t, a <= t <= b -> f' t <= 0) ->
  f b <= f a.
Proof. intros L D B. assert (H := incr_le f f' a b 0 L D B). lra. Qed.

Section Optimal.
Variables (am j T : R) (v a : R -> R).
Hypothesis Ham : 0 < am.
Hypothesis Hj : 0 < j.
Hypothesis HT : 0 <= T.
Hypothesis Dv : forall t, 0 <= t <= T -> derivable_pt_lim v t (a t).
Hypothesis Lip : forall s t, 0 <= s <= T -> 0 <= t <= T -> Rabs (a s - a t) <= j * Rabs (s - t).
Hypothesis Hm : forall t, 0 <= t <= T -> a t <= am.
Hypothesis H0 : a 0 = 0.
Hypothesis H1 : a T = 0.

Lemma opt_rise p : 0 <= p <= T -> v p - v 0 <= j * p * p / 2.
Proof.
  intros Hp.
  assert (K := nonpos_le (fun t => v t - j * t * t / 2) (fun t => a t - j * t) 0 p).
  assert (K2 : v p - j * p * p / 2 <= v 0 - j * 0 * 0 / 2); [|lra].
  apply K; [lra | |].
  - intros t Ht. unfold Rdiv. assert (D := Dv t ltac:(lra)). dlimh D.
  - intros t Ht. assert (L := Lip t 0 ltac:(lra) ltac:(lra)). rewrite H0 in L.
    rewrite !Rminus_0_r, (Rabs_pos_eq t) in L by lra. assert (Q := Rle_abs (a t)). lra.
Qed.

Lemma opt_fall p : 0 <= p <= T -> v T - v p <= j * (T - p) * (T - p) / 2.
Proof.
  intros Hp.
  assert (K := nonpos_le (fun t => v t + j * (T - t) * (T - t) / 2) (fun t => a t - j * (T - t)) p T).
  assert (K2 : v T + j * (T - T) * (T - T) / 2 <= v p + j * (T - p) * (T - p) / 2); [|lra].
  apply K; [lra | |].
  - intros t Ht. unfold Rdiv. assert (D := Dv t ltac:(lra)). dlimh D.
  - intros t Ht. assert (L := Lip t T ltac:(lra) ltac:(lra)). rewrite H1 in L.
    rewrite Rminus_0_r, (Rabs_left1 (t - T)) in L by lra. assert (Q := Rle_abs (a t)). lra.
Qed.

Lemma ramp_optimal : 0 <= v T - v 0 -> ramp_time am j (v T - v 0) <= T.
Proof.
  set (dv := v T - v 0). intros P.
  assert (Tri : dv <= j * T * T / 4).
  { assert (A := opt_rise (T / 2) ltac:(lra)). assert (B := opt_fall (T / 2) ltac:(lra)). unfold dv. nra. }
  unfold ramp_time. destruct (Rle_dec (am * am / j) dv) as [L|L].
  - assert (Q : 2 * (am / j) <= T).
    { assert (am * am / j * j = am * am) by (field; lra).
      assert (2 * am <= j * T).
      { apply Rsqr_incr_0_var; [unfold Rsqr; nra | nra]. }
      apply Rmult_le_reg_r with j; [exact Hj|]. replace (2 * (am / j) * j) with (2 * am) by (field; lra). lra. }
    set (tc := am / j) in *. assert (Htc : 0 < tc) by (apply Rdiv_lt_0_compat; assumption).
    assert (Ej : j * tc = am) by (unfold tc; field; lra).
    assert (A := opt_rise tc ltac:(lra)). assert (B := opt_fall (T - tc) ltac:(lra)).
    assert (C : v (T - tc) - v tc <= am * (T - tc - tc)).
    { apply (incr_le v a); [lra | |]; intros t Ht; [apply Dv | apply Hm]; lra. }
    replace (T - (T - tc)) with tc in B by ring.
    assert (dv <= am * (T - tc)) by (unfold dv; nra).
    apply Rmult_le_reg_r with am; [exact Ham|].
    replace ((dv / am + tc) * am) with (dv + am * tc) by (field; lra). lra.
  - assert (S : sqrt (dv / j) <= T / 2); [|lra].
    rewrite <- (sqrt_Rsqr (T / 2)) by lra. apply sqrt_le_1_alt. unfold Rsqr.
    apply Rmult_le_reg_r with j; [exact Hj|]. replace (dv / j * j) with dv by (field; lra). lra.
Qed.
End Optimal.

(** ** Terminal velocities *)

Lemma generate_tv_snd (g : @generator Rops) (x0 dist vs ve : R) : 0 <= vs <= g_v_max g ->
  0 <= ve <= g_v_max g -> snd (generate_tv g x0 dist vs ve) = limited_v_end g vs ve (Rabs dist).
Proof.
  intros Hs He. assert (L := limited_range g (Rabs dist) vs ve Hs He). cbv zeta in L.
  rewrite generate_tv_eq; [reflexivity|]. cbv zeta.
  set (ve1 := limited_v_end _ _ _ _) in *. unfold peak_velocity. rops.
  set (up := fun mid => _).
  destruct (bisect_spec LOOP_COUNT up (if Rltb vs ve1 then ve1 else vs) (g_v_max g)) as (A & _);
    destruct (Rltb_spec vs ve1); rops; lra.
Qed.

Lemma straight_tv_snd (g : @straight_generator Rops) dist vs ve :
  snd (straight_generate_tv g dist vs ve) = snd (generate_tv (sg_gen g) n0 dist vs ve).
Proof. unfold straight_generate_tv. destruct (generate_tv _ _ _ _ _) as [[c T] v]. reflexivity. Qed.

Lemma bisect_up_first n (up : R -> bool) (lo hi : R) : lo <= hi -> up ((lo + hi) / 2) = true ->
  (lo + hi) / 2 <= @bisect Rops (S n) up lo hi.
Proof.
  intros L U. cbn [bisect]. rops. replace ((lo + hi) / (2 / 1)) with ((lo + hi) / 2) by field.
  rewrite U. destruct (bisect_spec n up ((lo + hi) / 2) hi) as (A & _); [lra|]. exact (proj1 A).
Qed.

(** the witness: 4 m/s, jerk 1, braking to rest takes 8 m but braking to 2 m/s takes 8.48 m. *)
Definition g_jump : @generator Rops := @Generator Rops 4%R 100%R 1%R.

Lemma ramp_small a v0 v1 : 0 < a -> Rabs (v1 - v0) < a * a ->
  ramp_distance a 1 v0 v1 = (v0 + v1) * sqrt (Rabs (v1 - v0)).
Proof.
  intros Ha L. unfold ramp_distance, ramp_time. replace (a * a / 1) with (a * a) by field.
  destruct (Rle_dec (a * a) (Rabs (v1 - v0))); [lra|].
  replace (Rabs (v1 - v0) / 1) with (Rabs (v1 - v0)) by field. field.
Qed.

Lemma jump_r : let r := limited_v_end g_jump 4%R 0%R (82 / 10)%R in
  2 <= r < 4 /\ 82 / 10 <= ramp_distance 100 1 4 r /\ exists m : Z, r * 2 ^ 25 = IZR m.
Proof.
  cbv zeta. unfold limited_v_end, reachable_velocity. rops.
  destruct (Rltb_spec 4 0) as [N|_]; [lra|]. replace (0 / 1) with 0 by field.
  set (up := fun mid => negb _).
  assert (UP : forall w, up w = true -> 82 / 10 <= ramp_distance 100 1 4 w).
  { intros w. unfold up. rewrite accel_distance by (cbn; lra). cbn [g_a_max g_j_max g_jump].
    destruct (Rltb_spec (ramp_distance 100 1 4 w) (82 / 10)); [discriminate | intros _; lra]. }
  assert (U2 : up ((0 + 4) / 2) = true).
  { unfold up. rewrite accel_distance by (cbn; lra). cbn [g_a_max g_j_max g_jump].
    rewrite ramp_small; [|lra|rewrite Rabs_left; lra].
    replace (Rabs ((0 + 4) / 2 - 4)) with 2 by (rewrite Rabs_left; lra).
    destruct (Rltb_spec ((4 + (0 + 4) / 2) * sqrt 2) (82 / 10)) as [L|_]; [|reflexivity]. exfalso.
    assert (14 / 10 <= sqrt 2); [|lra]. rewrite <- (sqrt_Rsqr (14 / 10)) by lra. apply sqrt_le_1_alt.
    unfold Rsqr. lra. }
  destruct (bisect_spec LOOP_COUNT up 0 4) as (A & B & _); [lra|].
  assert (C := bisect_up_first 24 up 0 4 ltac:(lra) U2). change (S 24) with LOOP_COUNT in C.
  destruct (bisect_dyadic LOOP_COUNT up 0 4) as [m Em].
  set (r := bisect _ _ _ _) in *. rops.
  destruct (Rltb_spec 0 r) as [_|N]; [|lra].
  assert (Ur : 82 / 10 <= ramp_distance 100 1 4 r) by (destruct B as [B|B]; [lra | apply UP, B]).
  split; [split; [lra|]|].
  - destruct (Req_dec r 4) as [E|E]; [|lra]. exfalso. rewrite E, ramp_distance_same in Ur by lra. lra.
  - split; [exact Ur|]. exists (4 * m)%Z. rewrite mult_IZR. rewrite Em. unfold LOOP_COUNT. field.
Qed.

Lemma jump_strict : let r := limited_v_end g_jump 4%R 0%R (82 / 10)%R in
  82 / 10 < ramp_distance 100 1 4 r.
Proof.
  destruct jump_r as (A & B & m & Em). cbv zeta. set (r := limited_v_end _ _ _ _) in *. rops.
  destruct (Rle_lt_or_eq_dec _ _ B) as [L|E]; [exact L|]. exfalso.
  rewrite ramp_small in E; [|lra|rewrite Rabs_left; lra].
  rewrite Rabs_left in E by lra. replace (- (r - 4)) with (4 - r) in E by ring.
  assert (S := sqrt_sqrt (4 - r) ltac:(lra)).
  assert (Q : 1681 = 25 * ((4 + r) * (4 + r) * (4 - r))).
  { assert (Q0 : (4 + r) * sqrt (4 - r) * ((4 + r) * sqrt (4 - r)) = (4 + r) * (4 + r) * (4 - r)).
    { transitivity ((4 + r) * (4 + r) * (sqrt (4 - r) * sqrt (4 - r))); [ring | rewrite S; reflexivity]. }
    rewrite <- Q0, <- E. field. }
  assert (HZ : (1681 * 2 ^ 75 = 25 * ((4 * 2 ^ 25 + m) * (4 * 2 ^ 25 + m) * (4 * 2 ^ 25 - m)))%Z).
  { assert (P25 : IZR (2 ^ 25) = (2 ^ 25)%R) by exact (eq_sym (pow_IZR 2 25)).
    assert (P75 : IZR (2 ^ 75) = (2 ^ 75)%R) by exact (eq_sym (pow_IZR 2 75)).
    apply eq_IZR. rewrite !mult_IZR, minus_IZR, plus_IZR, !mult_IZR, P25, P75, <- Em, Q.
    change (2 ^ 75)%R with (2 ^ (25 + (25 + 25)))%R. rewrite !pow_add. ring. }
  assert (Y : ((1681 * 2 ^ 75) mod 25 = 0)%Z) by (rewrite HZ, Z.mul_comm; apply Z.mod_mul; lia).
  vm_compute in Y. discriminate.
Qed.

Lemma zero_right (f : R -> R) l b : 0 < b -> derivable_pt_lim f 0 l ->
  (forall t, 0 < t <= b -> f t = 0) -> f 0 = 0.
Proof.
  intros Hb D Z. assert (C : continuity_pt f 0).
  { apply derivable_continuous_pt. exists l. exact D. }
  destruct (Req_dec (f 0) 0) as [E|E]; [exact E|]. exfalso.
  destruct (C (Rabs (f 0))) as (al & Pa & H); [apply Rabs_pos_lt, E|].
  set (t := Rmin b (al / 2)).
  assert (Ht : 0 < t) by (apply Rmin_glb_lt; lra).
  assert (t1 : t <= b) by apply Rmin_l. assert (t2 : t <= al / 2) by apply Rmin_r.
  specialize (H t). cbn in H. unfold R_dist in H.
  rewrite Z, Rminus_0_l, Rabs_Ropp in H by lra. apply (Rlt_irrefl (Rabs (f 0))). apply H. split.
  - split; [exact I | lra].
  - rewrite Rminus_0_r, Rabs_pos_eq; lra.
Qed.

Lemma jump_not_follows : exists c T vt,
  generate_tv g_jump 0%R (82 / 10)%R 4%R 0%R = (c, T, vt) /\ 0 < T /\ forall J, ~ follows (calculate c) T J.
Proof.
  destruct jump_r as (A & _ & _). assert (B := jump_strict). cbv zeta in *.
  assert (EP : peak_velocity g_jump 4%R (limited_v_end g_jump 4%R 0%R (82 / 10)%R) (82 / 10)%R = 4).
  { set (r := limited_v_end _ _ _ _) in *. unfold peak_velocity. rops.
    destruct (Rltb_spec 4 r) as [N|_]; [lra|]. set (up := fun mid => Rleb _ _).
    destruct (bisect_spec LOOP_COUNT up 4 4) as (C & _); [lra|]. cbn [g_jump g_v_max]. rops. lra. }
  assert (E := generate_tv_eq g_jump 0 (82 / 10) 4 0). cbv zeta in E.
  rewrite (Rabs_pos_eq (82 / 10)) in E by lra. rewrite EP in E.
  set (r := limited_v_end _ _ _ _) in *. rops. specialize (E ltac:(lra)).
  assert (Lg : limits g_jump) by (unfold limits, g_jump; cbn [g_v_max g_a_max g_j_max]; lra).
  destruct Lg as (_ & Ha & Hj).
  destruct (gen_accel g_jump 0 4 4 Ha Hj) as (am1 & jm1 & T11 & T12 & E1 & A1 & A2 & A3 & A4 & A5 & A6 & A7).
  set (D3 := ramp_distance 100 1 4 r) in *.
  destruct (gen_accel g_jump (0 + 82 / 10 - D3) 4 r Ha Hj) as (am3 & jm3 & T31 & T32 & E3 & B1 & B2 & B3 & B4 & B5 & B6 & B7).
  cbv zeta in *.
  replace (Rabs (4 - 4)) with 0 in * by (rewrite <- Rabs_R0; f_equal; ring).
  rewrite ramp_time_0 in * by assumption.
  set (Tb := ramp_time _ _ (Rabs (r - 4))) in *.
  assert (Es : sgn (82 / 10) = 1) by (unfold sgn; destruct (Rlt_dec (82 / 10) 0); lra).
  assert (Pl : plan g_jump 0%R (82 / 10)%R 1%R 4%R 4%R r =
    (@Overall Rops 0%R 4%R 0%R (0 + 0)%R (0 + 0 + Tb)%R (82 / 10)%R r
      (@AccelCalc Rops 0%R 4%R (0 + (4 + 4) * 0 / 2)%R 4%R am1 jm1 T11 T12 0%R)
      (@ConstCalc Rops 0%R (0 + 0)%R 4%R)
      (@AccelCalc Rops (0 + 82 / 10 - D3)%R 4%R (0 + 82 / 10 - D3 + (4 + r) * Tb / 2)%R r am3 jm3 T31 T32 Tb) 1%R,
     (0 + 0 + Tb)%R)).
  { unfold plan. rewrite !accel_distance by exact Hj.
    change (g_a_max g_jump) with 100. change (g_j_max g_jump) with 1. fold D3.
    rewrite ramp_distance_same by lra. rewrite E1. rops. rewrite E3.
    unfold generate_constant. rops.
    destruct (Rltb_spec ((82 / 10 - 0 - D3) / 4) (0 / 1)) as [_|N]; [|lra].
    replace (0 / 1) with 0 by field. reflexivity. }
  rewrite Es, Pl in E. cbn [fst snd] in E.
  do 3 eexists. split; [exact E|].
  assert (HTb : 0 < Tb).
  { assert (0 < T31); [|lra]. destruct (Req_dec T31 0) as [Z|Z]; [|lra]. exfalso. rewrite Z in B4. lra. }
  split; [lra|]. intros J (x & v & a & j & ex & M & F).
  set (c := Overall _ _ _ _ _ _ _ _ _ _ _) in *.
  assert (M3 := ramp_motion _ _ _ _ jm3 T31 T32 Tb B1 B2 B3 B4 (eq_refl (0 + 82 / 10 - D3 + (4 + r) * Tb / 2))).
  assert (BC := fun t => ramp_calc (0 + 82 / 10 - D3) 4 (0 + 82 / 10 - D3 + (4 + r) * Tb / 2) r jm3 T31 T32 Tb B1 B2 am3 t B5).
  set (y := rx _ _ _ _ _ _ _ _) in *.
  assert (F0 : x 0 = 0).
  { destruct (F 0) as (<- & _); [lra|]. unfold calculate, c.
    cbn [oc_x_start oc_v_start oc_t1 oc_t2 oc_t3 oc_distance oc_v_end oc_accel oc_const oc_decel oc_sign].
    rops. destruct (Rltb_spec 0 (0 / 1)) as [N|_]; [lra|]. destruct (Rleb_spec 0 0) as [_|N]; [|lra].
    destruct (ramp_calc 0 4 (0 + (4 + 4) * 0 / 2) 4 jm1 T11 T12 0 A1 A2 am1 0 A5) as (Q & _); [lra|].
    cbn [tx]. rops. rewrite Q.
    destruct (ramp_before 0 4 (0 + (4 + 4) * 0 / 2) 4 jm1 T11 T12 0 A1 A2 A3 0) as (-> & _); [lra|]. ring. }
  assert (Y0 : y 0 = 82 / 10 - D3).
  { unfold y. destruct (ramp_before (0 + 82 / 10 - D3) 4 (0 + 82 / 10 - D3 + (4 + r) * Tb / 2) r jm3 T31 T32 Tb B1 B2 B3 0) as (-> & _); [lra|]. ring. }
  assert (Z : x 0 - y 0 = 0); [|lra].
  apply (zero_right (fun t => x t - y t) (v 0 - rv 4 r jm3 T31 T32 Tb 0) Tb HTb).
  - apply (derivable_pt_lim_minus x y); [apply (mo_x _ _ _ _ _ _ M) | apply (mo_x _ _ _ _ _ _ M3)].
  - intros t Ht. destruct (F t) as (<- & _); [lra|]. unfold calculate, c.
    cbn [oc_x_start oc_v_start oc_t1 oc_t2 oc_t3 oc_distance oc_v_end oc_accel oc_const oc_decel oc_sign].
    rops. destruct (Rltb_spec t (0 / 1)) as [N|_]; [lra|]. destruct (Rleb_spec t 0) as [N|_]; [lra|].
    destruct (Rleb_spec t (0 + 0)) as [N|_]; [lra|]. destruct (Rleb_spec t (0 + 0 + Tb)) as [_|N]; [|lra].
    replace (t - (0 + 0)) with t by ring.
    destruct (BC t) as (Q & _); [lra|]. cbn [tx]. rops. rewrite Q. unfold y. ring.
Qed.
