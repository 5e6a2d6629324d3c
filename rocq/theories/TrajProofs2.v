(** The plans of straight.rs: bisection, reachable velocities, whole straights. *)
From Coq Require Import ZArith Reals List Bool Lra Lia Psatz.
From Verif Require Import Base Num NumLemmas SearchModel RunModel ControlModel TrajModel TrajSpec
  TrajProofs.
Import ListNotations.
Open Scope R_scope.

(** ** Ramps *)

Lemma ramp_time_0 a j : 0 < a -> 0 < j -> ramp_time a j 0 = 0.
Proof.
  intros Ha Hj. unfold ramp_time. destruct (Rle_dec (a * a / j) 0) as [L|_].
  - assert (0 < a * a / j) by (apply Rdiv_lt_0_compat; nra). lra.
  - replace (0 / j) with 0 by (field; lra). rewrite sqrt_0. ring.
Qed.

Lemma ramp_time_mono a j p q : 0 < a -> 0 < j -> 0 <= p <= q -> ramp_time a j p <= ramp_time a j q.
Proof.
  intros Ha Hj [Hp Hq]. unfold ramp_time.
  assert (I : 0 < / j) by (apply Rinv_0_lt_compat; lra).
  assert (I2 : 0 < / a) by (apply Rinv_0_lt_compat; lra).
  destruct (Rle_dec (a * a / j) p) as [A|A], (Rle_dec (a * a / j) q) as [B|B]; try lra.
  - unfold Rdiv. nra.
  - assert (S : sqrt (p / j) <= a / j).
    { rewrite <- (sqrt_Rsqr (a / j)) by (left; apply Rdiv_lt_0_compat; lra).
      apply sqrt_le_1_alt. unfold Rsqr. replace (a / j * (a / j)) with (a * a / j / j) by (field; lra).
      unfold Rdiv at 1 2. apply Rmult_le_compat_r; lra. }
    assert (a / j <= q / a); [|lra].
    replace (a / j) with (a * a / j / a) by (field; lra). unfold Rdiv at 1 3.
    apply Rmult_le_compat_r; lra.
  - assert (sqrt (p / j) <= sqrt (q / j)); [|lra]. apply sqrt_le_1_alt.
    unfold Rdiv. apply Rmult_le_compat_r; lra.
Qed.

Lemma ramp_time_nonneg a j p : 0 < a -> 0 < j -> 0 <= p -> 0 <= ramp_time a j p.
Proof.
  intros Ha Hj Hp. rewrite <- (ramp_time_0 a j Ha Hj). apply ramp_time_mono; lra.
Qed.

Lemma ramp_distance_same a j v : 0 < a -> 0 < j -> ramp_distance a j v v = 0.
Proof.
  intros Ha Hj. unfold ramp_distance. replace (v - v) with 0 by ring.
  rewrite Rabs_R0, ramp_time_0 by assumption. ring.
Qed.

Lemma ramp_distance_sym a j v w : ramp_distance a j v w = ramp_distance a j w v.
Proof. unfold ramp_distance. rewrite Rabs_minus_sym, (Rplus_comm v w). reflexivity. Qed.

Lemma ramp_distance_nonneg a j v w : 0 < a -> 0 < j -> 0 <= v -> 0 <= w ->
  0 <= ramp_distance a j v w.
Proof.
  intros. unfold ramp_distance. apply Rmult_le_pos; [lra|].
  apply ramp_time_nonneg; try assumption. apply Rabs_pos.
Qed.

Lemma ramp_distance_mono a j v p q : 0 < a -> 0 < j -> 0 <= v -> v <= p <= q ->
  ramp_distance a j v p <= ramp_distance a j v q.
Proof.
  intros Ha Hj Hv [Hp Hq]. unfold ramp_distance. rewrite !Rabs_pos_eq by lra.
  apply Rmult_le_compat; [lra | apply ramp_time_nonneg; lra | lra | apply ramp_time_mono; lra].
Qed.

(** ** Bisection *)

Lemma bisect_spec n (up : R -> bool) (lo hi : R) : lo <= hi ->
  let r := @bisect Rops n up lo hi in
  lo <= r <= hi /\ (r = lo \/ up r = true) /\
  (exists h, h = r + (hi - lo) / 2 ^ n /\ h <= hi /\ (h = hi \/ up h = false)).
Proof.
  revert lo hi. induction n as [|n IH]; intros lo hi L; cbv zeta; cbn [bisect].
  - split; [lra|]. split; [left; reflexivity|]. exists hi. split; [cbn [pow]; field | split; [lra | left; reflexivity]].
  - rops.
    replace ((lo + hi) / (2 / 1)) with ((lo + hi) / 2) by field.
    set (mid := (lo + hi) / 2). assert (E : (hi - lo) / 2 ^ S n = (hi - lo) / 2 / 2 ^ n).
    { cbn [pow]. field. apply pow_nonzero. lra. }
    destruct (up mid) eqn:U.
    + destruct (IH mid hi) as (A & B & h & Eh & C & D); [unfold mid; lra|].
      split; [unfold mid in *; lra|]. split.
      * right. destruct B as [B|B]; [rewrite B; exact U | exact B].
      * exists h. split; [|split; [exact C | exact D]]. rewrite E, Eh. f_equal. f_equal. unfold mid. field.
    + destruct (IH lo mid) as (A & B & h & Eh & C & D); [unfold mid; lra|].
      split; [unfold mid in *; lra|]. split; [exact B|].
      exists h. split; [|split; [unfold mid in *; lra|]].
      * rewrite E, Eh. f_equal. f_equal. unfold mid. field.
      * right. destruct D as [->|D]; [exact U | exact D].
Qed.

Lemma bisect_dyadic n (up : R -> bool) (lo hi : R) :
  exists m : Z, @bisect Rops n up lo hi = lo + (hi - lo) * IZR m / 2 ^ n.
Proof.
  revert lo hi. induction n as [|n IH]; intros lo hi; cbn [bisect].
  - exists 0%Z. rops. cbn [pow]. field.
  - rops.
    replace ((lo + hi) / (2 / 1)) with ((lo + hi) / 2) by field.
    assert (P : 2 ^ n <> 0) by (apply pow_nonzero; lra).
    destruct (up ((lo + hi) / 2)).
    + destruct (IH ((lo + hi) / 2) hi) as [m ->]. exists (2 ^ Z.of_nat n + m)%Z.
      rewrite plus_IZR, <- pow_IZR. cbn [pow]. field. exact P.
    + destruct (IH lo ((lo + hi) / 2)) as [m ->]. exists m. cbn [pow]. field. exact P.
Qed.

(** ** Whole plans *)

(** The second half of generate_with_terminal_velocity (straight.rs 92-126), for any peak. *)
Definition plan (g : @generator Rops) (x0 d s vs vp ve : @num Rops) : @overall Rops * @num Rops :=
  (let dist1 := acceleration_distance g vs vp in
   let dist3 := acceleration_distance g vp ve in
   let dist2 := d - dist1 - dist3 in
   let '(accel, dt1) := generate_acceleration g x0 vs vp in
   let '(const, dt2) := generate_constant (x0 + dist1) dist2 vp in
   let '(decel, dt3) := generate_acceleration g (x0 + d - dist3) vp ve in
   (Overall x0 vs dt1 (dt1 + dt2) (dt1 + dt2 + dt3) d ve accel const decel s, dt1 + dt2 + dt3))%num.

Lemma Rabs_le_2 x y : - y <= x <= y -> Rabs x <= y.
Proof. intros H. apply Rabs_le. exact H. Qed.

Lemma accel_j (c : @accel_calc Rops) t : Rabs (tj (accel_calculate c t)) <= Rabs (ac_j_m c).
Proof.
  unfold accel_calculate. assert (P := Rabs_pos (ac_j_m c)).
  repeat match goal with |- context [if ?b then _ else _] => destruct b end; cbn [tj]; rops;
    rewrite ?Rabs_Ropp; try lra; replace (0 / 1) with 0 by field; rewrite Rabs_R0; exact P.
Qed.

Lemma rj_after jm T1 T2 T3 t : T1 <= T2 -> T2 <= T3 -> 0 <= T3 -> T3 < t ->
  rj jm T1 T2 T3 t = 0.
Proof.
  intros. unfold rj, glue4, glue. destruct (Rle_dec t T3); [lra | reflexivity].
Qed.

Section Plan.
Variables (g : @generator Rops) (x0 d s vs vp ve : R).
Hypothesis Ha : 0 < g_a_max g.
Hypothesis Hj : 0 < g_j_max g.
Hypothesis Hs : s = 1 \/ s = -1.
Hypothesis Hvs : 0 <= vs <= vp.
Hypothesis Hve : 0 <= ve <= vp.
Hypothesis Hvp : 0 < vp.
Let D1 := ramp_distance (g_a_max g) (g_j_max g) vs vp.
Let D3 := ramp_distance (g_a_max g) (g_j_max g) vp ve.
Hypothesis Hd : D1 + D3 <= d.

Definition plan_time : R :=
  ramp_time (g_a_max g) (g_j_max g) (vp - vs) + (d - D1 - D3) / vp
  + ramp_time (g_a_max g) (g_j_max g) (vp - ve).

Lemma plan_ok : exists c,
  plan g x0 d s vs vp ve = (c, plan_time) /\ 0 <= plan_time /\
  follows (calculate c) plan_time (g_j_max g) /\
  (forall t, 0 <= t <= plan_time ->
     Rmin vs ve <= s * tv (calculate c t) <= vp /\
     Rabs (ta (calculate c t)) <= g_a_max g) /\
  (forall t, Rabs (tj (calculate c t)) <= g_j_max g) /\
  (tx (calculate c 0) = x0 /\ tv (calculate c 0) = s * vs /\ ta (calculate c 0) = 0) /\
  (tx (calculate c plan_time) = x0 + s * d /\ tv (calculate c plan_time) = s * ve /\
   ta (calculate c plan_time) = 0) /\
  (forall t, t < 0 -> calculate c t = @Axis4 Rops x0 (s * vs)%R 0%R 0%R) /\
  (forall t, plan_time < t -> calculate c t = @Axis4 Rops (x0 + s * d)%R (s * ve)%R 0%R 0%R).
Proof.
  destruct (gen_accel g x0 vs vp Ha Hj) as (am1 & jm1 & T11 & T12 & E1 & A1 & A2 & A3 & A4 & A5 & A6 & A7).
  destruct (gen_accel g (x0 + d - D3) vp ve Ha Hj) as (am3 & jm3 & T31 & T32 & E3 & B1 & B2 & B3 & B4 & B5 & B6 & B7).
  cbv zeta in *. set (Ta := ramp_time _ _ (Rabs (vp - vs))) in *. set (Tb := ramp_time _ _ (Rabs (ve - vp))) in *.
  assert (PT : plan_time = Ta + (d - D1 - D3) / vp + Tb).
  { unfold plan_time, Ta, Tb. rewrite (Rabs_minus_sym ve vp), !Rabs_pos_eq by lra. reflexivity. }
  set (dt2 := (d - D1 - D3) / vp) in *.
  assert (P2 : 0 <= dt2) by (apply Rmult_le_pos; [lra | left; apply Rinv_0_lt_compat, Hvp]).
  assert (Dx1 : (vs + vp) * Ta / 2 = D1) by (unfold D1, ramp_distance, Ta; field).
  assert (Dx3 : (vp + ve) * Tb / 2 = D3) by (unfold D3, ramp_distance, Tb; field).
  exists (@Overall Rops x0 vs Ta (Ta + dt2)%R (Ta + dt2 + Tb)%R d ve
    (@AccelCalc Rops x0 vs (x0 + (vs + vp) * Ta / 2)%R vp am1 jm1 T11 T12 Ta)
    (@ConstCalc Rops dt2 (x0 + D1)%R vp)
    (@AccelCalc Rops (x0 + d - D3)%R vp (x0 + d - D3 + (vp + ve) * Tb / 2)%R ve am3 jm3 T31 T32 Tb) s).
  set (c := Overall _ _ _ _ _ _ _ _ _ _ _).
  split.
  { unfold plan. rewrite !accel_distance by exact Hj. fold D1 D3. rewrite E1. rops. rewrite E3.
    unfold generate_constant. rops. change (d - D1 - D3)%R with (d - D1 - D3). fold dt2.
    destruct (Rltb_spec dt2 (0 / 1)) as [N|_]; [lra|]. rewrite PT. reflexivity. }
  assert (Hb1 : Rabs jm1 = g_j_max g).
  { destruct A7 as [[_ ->]|[_ ->]]; [|rewrite Rabs_Ropp]; apply Rabs_pos_eq; lra. }
  assert (Hb3 : Rabs jm3 = g_j_max g).
  { destruct B7 as [[_ ->]|[_ ->]]; [|rewrite Rabs_Ropp]; apply Rabs_pos_eq; lra. }
  set (x1 := x0 + (vs + vp) * Ta / 2) in *. set (y0 := x0 + d - D3) in *.
  set (y1 := y0 + (vp + ve) * Tb / 2) in *.
  assert (M1 := ramp_motion x0 vs x1 vp jm1 T11 T12 Ta A1 A2 A3 A4 eq_refl).
  assert (M3 := ramp_motion y0 vp y1 ve jm3 T31 T32 Tb B1 B2 B3 B4 eq_refl).
  assert (AF := ramp_after x0 vs x1 vp jm1 T11 T12 Ta A1 A3 A4 eq_refl).
  assert (BF := ramp_before y0 vp y1 ve jm3 T31 T32 Tb B1 B2 B3).
  assert (AC := fun t => ramp_calc x0 vs x1 vp jm1 T11 T12 Ta A1 A2 am1 t A5).
  assert (BC := fun t => ramp_calc y0 vp y1 ve jm3 T31 T32 Tb B1 B2 am3 t B5).
  rewrite Hb1 in M1. rewrite Hb3 in M3.
  set (t2 := Ta + dt2) in *.
  assert (HTa : 0 <= Ta) by lra. assert (HTb : 0 <= Tb) by lra.
  assert (M := glue_motion t2 _ _ _ _ _ _ _ _ _ _ _ M1 (motion_shift t2 _ _ _ _ _ _ M3)).
  destruct (AF t2) as (F1 & F2 & F3); [unfold t2; lra|].
  destruct (BF (t2 - t2)) as (G1 & G2 & G3); [lra|].
  specialize (M ltac:(rewrite F1, G1; unfold t2, x1, y0, dt2; rewrite Dx1; field; lra)
                ltac:(rewrite F2, G2; reflexivity) ltac:(rewrite F3, G3; reflexivity)).
  set (X := glue t2 (rx _ _ _ _ _ _ _ _) _) in M. set (V := glue t2 (rv _ _ _ _ _ _) _) in M.
  set (A := glue t2 (ra _ _ _ _) _) in M. set (J := glue t2 (rj _ _ _ _) _) in M.
  set (ex := t2 :: _) in M.
  assert (EV : forall t, 0 <= t <= t2 + Tb ->
    tx (calculate c t) = (X t - x0) * s + x0 /\ tv (calculate c t) = V t * s /\
    ta (calculate c t) = A t * s /\ (~ In t ex -> tj (calculate c t) = J t * s)).
  { intros t Ht. unfold calculate, c. cbn [oc_x_start oc_v_start oc_t1 oc_t2 oc_t3 oc_distance oc_v_end
      oc_accel oc_const oc_decel oc_sign]. rops. fold t2.
    destruct (Rltb_spec t (0 / 1)) as [N|_]; [lra|].
    destruct (Rleb_spec t Ta) as [L|L]; [|destruct (Rleb_spec t t2) as [L2|L2];
      [|destruct (Rleb_spec t (t2 + Tb)) as [L3|L3]; [|lra]]]; cbn [tx tv ta tj].
    - destruct (AC t) as (Q1 & Q2 & Q3 & Q4); [lra|]. fold x1. rewrite Q1, Q2, Q3.
      unfold X, V, A, J, glue. destruct (Rle_dec t t2) as [_|N]; [|unfold t2 in N; lra].
      split; [reflexivity|]. split; [reflexivity|]. split; [reflexivity|].
      intros NI. rewrite Q4; [reflexivity|]. intros I. apply NI. right. apply in_or_app. left. exact I.
    - unfold const_calculate. cbn [cc_t_end cc_x_start cc_v]. rops.
      destruct (Rltb_spec dt2 (t - Ta)) as [N|_]; [unfold t2 in L2; lra|].
      destruct (Rltb_spec (t - Ta) (0 / 1)) as [N|_]; [lra|]. cbn [orb tx tv ta tj].
      destruct (AF t) as (Q1 & Q2 & Q3); [lra|].
      unfold X, V, A, J, glue. destruct (Rle_dec t t2) as [_|N]; [|lra].
      rewrite Q1, Q2, Q3. unfold x1. rewrite Dx1.
      split; [ring|]. split; [reflexivity|]. split; [field|]. intros _. rewrite rj_after by lra. field.
    - destruct (BC (t - t2)) as (Q1 & Q2 & Q3 & Q4); [lra|]. fold y1. rewrite Q1, Q2, Q3.
      unfold X, V, A, J, glue. destruct (Rle_dec t t2) as [N|_]; [lra|].
      split; [reflexivity|]. split; [reflexivity|]. split; [reflexivity|].
      intros NI. rewrite Q4; [reflexivity|]. intros I. apply NI. right. apply in_or_app. right.
      apply in_map_iff. exists (t - t2). split; [ring | exact I]. }
  rewrite PT. fold t2.
  assert (SS : s * s = 1) by (destruct Hs as [-> | ->]; ring).
  assert (SA : forall r, Rabs (r * s) = Rabs r).
  { intros r. rewrite Rabs_mult. destruct Hs as [-> | ->]; [rewrite Rabs_R1 | rewrite (Rabs_left (-1))]; lra. }
  split; [unfold t2; lra|]. split.
  { exists (fun t => (X t - x0) * s + x0), (fun t => V t * s), (fun t => A t * s), (fun t => J t * s), ex.
    split; [apply motion_sign; assumption | exact EV]. }
  split.
  { intros t Ht. destruct (EV t Ht) as (_ & -> & -> & _). rewrite SA.
    assert (R1 : Rmin vs ve <= V t <= vp /\ Rabs (A t) <= g_a_max g).
    { assert (m1 := Rmin_l vs ve). assert (m2 := Rmin_r vs ve).
      unfold V, A, glue. destruct (Rle_dec t t2) as [L|L].
      - destruct (Rle_dec t Ta) as [L'|L'].
        + destruct (ramp_v vs vp jm1 T11 T12 Ta A1 A2 A3 A4 t) as (k & K1 & ->); [lra|].
          destruct (ramp_a jm1 T11 T12 Ta A1 A3 t) as (k' & K1' & ->); [lra|].
          split; [destruct A7 as [[H ->]|[H ->]]; [nra | lra]|].
          rewrite Rabs_mult, Hb1, (Rabs_pos_eq k') by lra. nra.
        + destruct (AF t) as (_ & -> & ->); [lra|]. rewrite Rabs_R0. lra.
      - destruct (ramp_v vp ve jm3 T31 T32 Tb B1 B2 B3 B4 (t - t2)) as (k & K1 & ->); [lra|].
        destruct (ramp_a jm3 T31 T32 Tb B1 B3 (t - t2)) as (k' & K1' & ->); [lra|].
        split; [destruct B7 as [[H ->]|[H ->]]; nra|].
        rewrite Rabs_mult, Hb3, (Rabs_pos_eq k') by lra. nra. }
    destruct R1 as [R1 R2]. split; [|exact R2].
    replace (s * (V t * s)) with (V t * (s * s)) by ring. rewrite SS, Rmult_1_r. exact R1. }
  split.
  { intros t. unfold calculate. cbn [tj]. rops. rewrite SA.
    unfold c. cbn [oc_x_start oc_v_start oc_t1 oc_t2 oc_t3 oc_distance oc_v_end
      oc_accel oc_const oc_decel oc_sign].
    assert (Z0 : Rabs (0 / 1) <= g_j_max g) by (replace (0 / 1) with 0 by field; rewrite Rabs_R0; lra).
    repeat match goal with |- context [if ?b then _ else _] => destruct b end; cbn [tj]; try exact Z0.
    - eapply Rle_trans; [apply accel_j|]. cbn [ac_j_m]. lra.
    - unfold const_calculate. destruct (_ || _); exact Z0.
    - eapply Rle_trans; [apply accel_j|]. cbn [ac_j_m]. lra. }
  split.
  { destruct (EV 0) as (-> & -> & -> & _); [unfold t2; lra|].
    unfold X, V, A, glue. destruct (Rle_dec 0 t2) as [_|N]; [|unfold t2 in N; lra].
    destruct (ramp_before x0 vs x1 vp jm1 T11 T12 Ta A1 A2 A3 0) as (-> & -> & ->); [lra|].
    change (@num Rops) with R. repeat split; ring. }
  split.
  { destruct (EV (t2 + Tb)) as (-> & -> & -> & _); [unfold t2; lra|].
    assert (BA := ramp_after y0 vp y1 ve jm3 T31 T32 Tb B1 B3 B4 eq_refl).
    unfold X, V, A, glue. destruct (Rle_dec (t2 + Tb) t2) as [L|L].
    - assert (Z : Tb = 0) by lra. replace (t2 + Tb) with t2 by lra. rewrite F1, F2, F3.
      destruct (BA 0) as (H1 & H2 & H3); [lra|]. destruct (BF 0) as (H4 & H5 & H6); [lra|].
      assert (vp = ve) by lra. assert (D3 = 0) by (rewrite <- Dx3, Z; field).
      change (@num Rops) with R. repeat split; [|rewrite H; ring|ring].
      unfold t2, x1, dt2. rewrite Dx1, H0. field. lra.
    - replace (t2 + Tb - t2) with Tb by ring. destruct (BA Tb) as (-> & -> & ->); [lra|].
      change (@num Rops) with R. repeat split; [|ring|ring]. unfold y1, y0. rewrite Dx3. ring. }
  split.
  { intros t Ht. unfold calculate, c. cbn [oc_x_start oc_v_start oc_t1 oc_t2 oc_t3 oc_distance oc_v_end
      oc_accel oc_const oc_decel oc_sign]. rops.
    destruct (Rltb_spec t (0 / 1)) as [_|N]; [|lra]. cbn [tx tv ta tj]. change (@num Rops) with R. f_equal; field. }
  { intros t Ht. unfold calculate, c. cbn [oc_x_start oc_v_start oc_t1 oc_t2 oc_t3 oc_distance oc_v_end
      oc_accel oc_const oc_decel oc_sign]. rops. fold t2.
    destruct (Rltb_spec t (0 / 1)) as [N|_]; [unfold t2 in *; lra|].
    destruct (Rleb_spec t Ta) as [N|_]; [unfold t2 in *; lra|].
    destruct (Rleb_spec t t2) as [N|_]; [lra|].
    destruct (Rleb_spec t (t2 + Tb)) as [N|_]; [lra|]. cbn [tx tv ta tj]. change (@num Rops) with R. f_equal; field. }
Qed.
End Plan.

(** ** generate_with_terminal_velocity *)

Lemma limited_up (g : @generator Rops) (d vs ve : R) : limits g -> 0 <= d -> 0 <= vs < ve ->
  ve <= g_v_max g ->
  let r := limited_v_end g vs ve d in
  let D := ramp_distance (g_a_max g) (g_j_max g) vs in
  vs <= r <= ve /\ D r <= d /\
  (forall w, w <= ve -> D w < d -> w <= r + (g_v_max g - vs) / 2 ^ 25) /\
  (D (vs + (g_v_max g - vs) / 2 ^ 25) < d -> vs < r).
Proof.
  intros (Hv & Ha & Hj) Hd [H0 L] Lv. cbv zeta.
  unfold limited_v_end, reachable_velocity. rops.
  destruct (Rltb_spec vs ve) as [_|N]; [|lra].
  set (up := fun mid => Rltb _ _).
  destruct (bisect_spec LOOP_COUNT up vs (g_v_max g)) as (A & B & h & Eh & C & D); [lra|].
  set (v := bisect _ _ _ _) in *. unfold LOOP_COUNT in Eh.
  assert (UP : forall w, up w = true <-> ramp_distance (g_a_max g) (g_j_max g) vs w < d).
  { intros w. unfold up. rewrite accel_distance by exact Hj. destruct (Rltb_spec (ramp_distance (g_a_max g) (g_j_max g) vs w) d);
      split; intros; try lra; try reflexivity; discriminate. }
  assert (Dv : ramp_distance (g_a_max g) (g_j_max g) vs v <= d).
  { destruct B as [->|B]; [rewrite ramp_distance_same by assumption; lra|].
    apply UP in B. lra. }
  assert (DR : d <= ramp_distance (g_a_max g) (g_j_max g) vs h \/ h = g_v_max g).
  { destruct D as [->|D]; [right; reflexivity|]. left. apply Rnot_lt_le. intros N. apply UP in N. congruence. }
  assert (St : 0 < (g_v_max g - vs) / 2 ^ 25) by (apply Rdiv_lt_0_compat; [lra | apply pow_lt; lra]).
  assert (Hlow : ramp_distance (g_a_max g) (g_j_max g) vs (vs + (g_v_max g - vs) / 2 ^ 25) < d -> vs < v).
  { intros N. destruct (Req_dec v vs) as [E|E]; [|lra]. rewrite E in Eh. destruct DR as [DR|DR].
    - rewrite Eh in DR. lra.
    - exfalso. rewrite DR in Eh. assert (K : (g_v_max g - vs) / 2 ^ 25 < g_v_max g - vs); [|lra].
      apply Rmult_lt_reg_r with (2 ^ 25); [apply pow_lt; lra|].
      unfold Rdiv. rewrite Rmult_assoc, Rinv_l, Rmult_1_r by (apply pow_nonzero; lra).
      assert (1 < 2 ^ 25) by (apply Rlt_pow_R1; [lra | lia]). nra. }
  destruct (Rltb_spec v ve) as [X|X].
  - split; [lra|]. split; [exact Dv|]. split; [|exact Hlow].
    intros w Hw Dw. rops. rewrite <- Eh. destruct DR as [DR|DR]; [|lra].
    apply Rnot_lt_le. intros N. apply (Rlt_irrefl d). eapply Rle_lt_trans; [exact DR|].
    eapply Rle_lt_trans; [|exact Dw]. apply ramp_distance_mono; try assumption.
    rops. lra.
  - split; [lra|]. split; [|split; [intros; lra | intros _; lra]].
    eapply Rle_trans; [|exact Dv]. apply ramp_distance_mono; try assumption. lra.
Qed.

Lemma limited_down (g : @generator Rops) (d vs ve : R) : limits g -> 0 <= ve <= vs ->
  (forall w, ve <= w <= vs -> ramp_distance (g_a_max g) (g_j_max g) vs w < d) ->
  limited_v_end g vs ve d = ve.
Proof.
  intros (Hv & Ha & Hj) [H0 L] HD. unfold limited_v_end, reachable_velocity. rops.
  destruct (Rltb_spec vs ve) as [N|_]; [lra|].
  set (up := fun mid => negb _). replace (0 / 1) with 0 by field.
  destruct (bisect_spec LOOP_COUNT up 0 vs) as (A & B & _); [lra|].
  set (v := bisect _ _ _ _) in *.
  destruct (Rltb_spec ve v) as [X|_]; [|reflexivity]. exfalso.
  destruct B as [B|B]; [lra|]. unfold up in B. rewrite accel_distance in B by exact Hj.
  destruct (Rltb_spec (ramp_distance (g_a_max g) (g_j_max g) vs v) d) as [Y|Y]; [discriminate|].
  apply Y, HD. lra.
Qed.

Lemma limited_range (g : @generator Rops) (d vs ve : R) : 0 <= vs <= g_v_max g ->
  0 <= ve <= g_v_max g ->
  let r := limited_v_end g vs ve d in
  0 <= r <= g_v_max g /\ (vs < ve -> vs <= r <= ve) /\ (ve <= vs -> ve <= r <= vs).
Proof.
  intros Hs He. cbv zeta. unfold limited_v_end, reachable_velocity. rops.
  destruct (Rltb_spec vs ve) as [L|L].
  - set (up := fun mid => Rltb _ _).
    destruct (bisect_spec LOOP_COUNT up vs (g_v_max g)) as (A & _); [lra|].
    set (v := bisect _ _ _ _) in *. destruct (Rltb_spec v ve); rops; lra.
  - set (up := fun mid => negb _). replace (0 / 1) with 0 by field.
    destruct (bisect_spec LOOP_COUNT up 0 vs) as (A & _); [lra|].
    set (v := bisect _ _ _ _) in *. destruct (Rltb_spec ve v); rops; lra.
Qed.

Lemma peak_spec (g : @generator Rops) (d vs ve : R) : limits g -> 0 <= vs <= g_v_max g ->
  0 <= ve <= g_v_max g -> ramp_distance (g_a_max g) (g_j_max g) vs ve <= d ->
  let r := peak_velocity g vs ve d in
  let D (p : R) := ramp_distance (g_a_max g) (g_j_max g) vs p + ramp_distance (g_a_max g) (g_j_max g) p ve in
  vs <= r /\ ve <= r /\ r <= g_v_max g /\ D r <= d /\
  (r = 0 -> d < 2 * ramp_distance (g_a_max g) (g_j_max g) 0 (g_v_max g / 2 ^ 25)) /\
  (forall p, Rmax vs ve <= p -> p <= g_v_max g -> D p <= d -> p <= r + (g_v_max g - Rmax vs ve) / 2 ^ 25).
Proof.
  intros (Hv & Ha & Hj) Hs He HD. cbv zeta. unfold peak_velocity. rops.
  set (up := fun mid => Rleb _ _).
  assert (E : (if Rltb vs ve then ve else vs) = Rmax vs ve).
  { destruct (Rltb_spec vs ve); [rewrite Rmax_right | rewrite Rmax_left]; lra. }
  rewrite E. assert (m1 := Rmax_l vs ve). assert (m2 := Rmax_r vs ve).
  assert (m3 : Rmax vs ve <= g_v_max g) by (apply Rmax_lub; rops; lra).
  set (D := fun p : R => ramp_distance (g_a_max g) (g_j_max g) vs p + ramp_distance (g_a_max g) (g_j_max g) p ve).
  assert (UP : forall w, up w = true <-> D w <= d).
  { intros w. unfold up, D. rewrite !accel_distance by exact Hj.
    destruct (Rleb_spec (ramp_distance (g_a_max g) (g_j_max g) vs w + ramp_distance (g_a_max g) (g_j_max g) w ve) d);
      split; intros; try lra; try reflexivity; discriminate. }
  destruct (bisect_spec LOOP_COUNT up (Rmax vs ve) (g_v_max g)) as (A & B & h & Eh & C & F); [exact m3|].
  set (v := bisect _ _ _ _) in *. unfold LOOP_COUNT in Eh.
  assert (DR : h = g_v_max g \/ d < D h).
  { destruct F as [F|F]; [left; exact F|]. right. apply Rnot_le_lt. intros N. apply UP in N. congruence. }
  assert (Dv : D v <= d).
  { destruct B as [B|B]; [|apply UP; exact B]. unfold D. rewrite B.
    destruct (Rle_dec vs ve) as [Q|Q]; [rewrite Rmax_right by lra | rewrite Rmax_left by lra];
      rewrite ramp_distance_same by assumption; rops; lra. }
  split; [rops; lra|]. split; [rops; lra|]. split; [rops; lra|]. split; [exact Dv|]. split.
  - intros Z. assert (V0 : vs = 0) by (rops; lra). assert (V1 : ve = 0) by (rops; lra).
    assert (M0 : Rmax vs ve = 0) by (rewrite V0, V1; apply Rmax_left; lra).
    rewrite Z, M0 in Eh. rops. rewrite Rplus_0_l, Rminus_0_r in Eh.
    destruct DR as [DR|DR].
    + exfalso. rewrite DR in Eh.
      assert (K : g_v_max g / 2 ^ 25 < g_v_max g); [|lra].
      apply Rmult_lt_reg_r with (2 ^ 25); [apply pow_lt; lra|].
      unfold Rdiv. rewrite Rmult_assoc, Rinv_l, Rmult_1_r by (apply pow_nonzero; lra).
      assert (1 < 2 ^ 25) by (apply Rlt_pow_R1; [lra | lia]). nra.
    + unfold D in DR. rewrite V0, V1, Eh, (ramp_distance_sym _ _ _ 0) in DR. lra.
  - intros p P1 P2 P3. rops. rewrite <- Eh. destruct DR as [DR|DR]; [lra|].
    apply Rnot_lt_le. intros N. apply (Rlt_irrefl d). eapply Rlt_le_trans; [exact DR|].
    eapply Rle_trans; [|exact P3]. unfold D. rewrite !(ramp_distance_sym _ _ _ ve).
    apply Rplus_le_compat; apply ramp_distance_mono; try assumption; rops; lra.
Qed.

Lemma sgn_cases d : sgn d = 1 \/ sgn d = -1.
Proof. unfold sgn. destruct (Rlt_dec d 0); auto. Qed.

Lemma sgn_abs d : sgn d * Rabs d = d.
Proof. unfold sgn. destruct (Rlt_dec d 0); [rewrite Rabs_left | rewrite Rabs_pos_eq]; lra. Qed.

Lemma generate_tv_eq (g : @generator Rops) (x0 dist vs ve : R) :
  let d := Rabs dist in
  let ve1 := limited_v_end g vs ve d in
  let vp := peak_velocity g vs ve1 d in
  ve1 <= vp ->
  generate_tv g x0 dist vs ve
  = (fst (plan g x0 d (sgn dist) vs vp ve1), snd (plan g x0 d (sgn dist) vs vp ve1), ve1).
Proof.
  cbv zeta. intros L. unfold generate_tv.
  assert (E : @split_sign Rops dist = (Rabs dist, sgn dist)).
  { unfold split_sign, sgn. rops. destruct (Rltb_spec dist (0 / 1)), (Rlt_dec dist 0); try lra.
    - rewrite Rabs_left by lra. f_equal. field.
    - rewrite Rabs_pos_eq by lra. f_equal. field. }
  rewrite E. set (ve1 := limited_v_end _ _ _ _) in *. set (vp := peak_velocity _ _ _ _) in *.
  assert (E2 : (if (ve1 <? vp)%num then ve1 else vp) = ve1).
  { rops. destruct (Rltb_spec ve1 vp); [reflexivity | lra]. }
  rewrite E2. unfold plan.
  destruct (generate_acceleration g x0 vs vp), (generate_constant _ _ _),
    (generate_acceleration g _ vp ve1). reflexivity.
Qed.

Lemma two_D_pos (g : @generator Rops) h : limits g -> 0 < h ->
  0 < ramp_distance (g_a_max g) (g_j_max g) 0 h.
Proof.
  intros (Hv & Ha & Hj) Hh. unfold ramp_distance, ramp_time. rewrite Rminus_0_r, Rabs_pos_eq by lra.
  apply Rmult_lt_0_compat; [lra|].
  destruct (Rle_dec _ _).
  - apply Rplus_lt_0_compat; apply Rdiv_lt_0_compat; assumption.
  - apply Rmult_lt_0_compat; [lra|]. apply sqrt_lt_R0. apply Rdiv_lt_0_compat; assumption.
Qed.

Lemma tv_choice (g : @generator Rops) (d vs ve : R) : limits g -> 0 <= d ->
  0 <= vs <= g_v_max g -> 0 <= ve <= g_v_max g -> room g d vs ve ->
  let ve1 := limited_v_end g vs ve d in
  let vp := peak_velocity g vs ve1 d in
  0 <= ve1 /\ 0 < vp /\ vs <= vp /\ ve1 <= vp /\ vp <= g_v_max g /\
  ramp_distance (g_a_max g) (g_j_max g) vs vp + ramp_distance (g_a_max g) (g_j_max g) vp ve1 <= d /\
  (ve <= vs -> ve1 = ve) /\ (vs < ve -> vs <= ve1 <= ve).
Proof.
  intros Lg Hd Hs He [R1 R2]. cbv zeta.
  assert (LG := Lg). destruct LG as (Hv & Ha & Hj).
  assert (Hh : 0 < g_v_max g / 2 ^ 25) by (apply Rdiv_lt_0_compat; [exact Hv | apply pow_lt; lra]).
  assert (Dpos := two_D_pos g _ Lg Hh).
  assert (K : 0 <= limited_v_end g vs ve d <= g_v_max g /\
    ramp_distance (g_a_max g) (g_j_max g) vs (limited_v_end g vs ve d) <= d /\
    (ve <= vs -> limited_v_end g vs ve d = ve) /\
    (vs < ve -> vs <= limited_v_end g vs ve d <= ve) /\
    (vs < ve -> 0 < vs \/ vs < limited_v_end g vs ve d)).
  { destruct (Rlt_dec vs ve) as [L|L].
    - destruct (limited_up g d vs ve) as (A & B & _ & C); try assumption; [split; lra | rops; lra|].
      split; [rops; lra|]. split; [exact B|]. split; [lra|]. split; [intros _; exact A|].
      intros _. destruct R2 as [R2|R2]; [left; exact R2|]. destruct (Rlt_dec 0 vs); [left; assumption|].
      right. apply C. replace vs with 0 by lra. rewrite Rplus_0_l, Rminus_0_r. lra.
    - destruct R1 as [R1|R1]; [lra|].
      rewrite (limited_down g d vs ve) by (try assumption; lra).
      split; [lra|]. split; [left; apply R1; lra|]. split; [reflexivity|]. split; intros; lra. }
  destruct K as (K1 & K2 & K3 & K4 & K5).
  destruct (peak_spec g d vs (limited_v_end g vs ve d)) as (P1 & P2 & P3 & P4 & P5 & _); try assumption.
  set (ve1 := limited_v_end _ _ _ _) in *. set (vp := peak_velocity _ _ _ _) in *. rops.
  split; [lra|]. split.
  { destruct (Req_dec vp 0) as [Z|Z]; [|lra]. exfalso. specialize (P5 Z).
    destruct R2 as [R2|R2]; lra. }
  split; [exact P1|]. split; [exact P2|]. split; [exact P3|]. split; [exact P4|].
  split; [exact K3 | exact K4].
Qed.

Lemma generate_tv_ok (g : @generator Rops) (x0 dist vs ve : R) : limits g ->
  0 <= vs <= g_v_max g -> 0 <= ve <= g_v_max g -> room g (Rabs dist) vs ve ->
  exists c T vt, generate_tv g x0 dist vs ve = (c, T, vt) /\ 0 <= T /\
    follows (calculate c) T (g_j_max g) /\
    (forall t, 0 <= t <= T ->
       Rmin vs vt <= sgn dist * tv (calculate c t) <= g_v_max g /\
       Rabs (ta (calculate c t)) <= g_a_max g) /\
    (forall t, Rabs (tj (calculate c t)) <= g_j_max g) /\
    (tx (calculate c 0) = x0 /\ tv (calculate c 0) = sgn dist * vs /\ ta (calculate c 0) = 0) /\
    (tx (calculate c T) = x0 + dist /\ tv (calculate c T) = sgn dist * vt /\ ta (calculate c T) = 0) /\
    (forall t, t < 0 -> calculate c t = @Axis4 Rops x0 (sgn dist * vs)%R 0%R 0%R) /\
    (forall t, T < t -> calculate c t = @Axis4 Rops (x0 + dist)%R (sgn dist * vt)%R 0%R 0%R) /\
    0 <= vt /\ (ve <= vs -> vt = ve) /\ (vs < ve -> vs <= vt <= ve).
Proof.
  intros Lg Hs He HR.
  destruct (tv_choice g (Rabs dist) vs ve Lg (Rabs_pos _) Hs He HR) as (A1 & A2 & A3 & A4 & A5 & A6 & A7 & A8).
  assert (E := generate_tv_eq g x0 dist vs ve A4). cbv zeta in *.
  set (ve1 := limited_v_end _ _ _ _) in *. set (vp := peak_velocity _ _ _ _) in *.
  destruct Lg as (Hv & Ha & Hj). rops.
  destruct (plan_ok g x0 (Rabs dist) (sgn dist) vs vp ve1 Ha Hj (sgn_cases dist)) as
    (c & Ep & B1 & B2 & B3 & B4 & B5 & B6 & B7 & B8); try lra.
  rewrite Ep in E. cbn [fst snd] in E. rewrite sgn_abs in *.
  exists c, (plan_time g (Rabs dist) vs vp ve1), ve1.
  split; [exact E|]. split; [exact B1|]. split; [exact B2|]. split.
  { intros t Ht. destruct (B3 t Ht) as [C1 C2]. split; [rops; lra | exact C2]. }
  split; [exact B4|]. split; [exact B5|]. split; [exact B6|]. split; [exact B7|].
  split; [exact B8|]. split; [exact A1|]. split; [exact A7 | exact A8].
Qed.

Lemma generate_tv_mirror (g : @generator Rops) (dist vs ve : R) : dist <> 0 ->
  forall c T vt, generate_tv g 0%R dist vs ve = (c, T, vt) ->
  exists c', generate_tv g 0%R (- dist)%R vs ve = (c', T, vt) /\
    forall t, let r := calculate c t in
      calculate c' t = @Axis4 Rops (- tx r)%R (- tv r)%R (- ta r)%R (- tj r)%R.
Proof.
  intros N c T vt. unfold generate_tv.
  assert (E : exists s, (s = 1 \/ s = -1) /\ @split_sign Rops dist = (Rabs dist, s) /\
    @split_sign Rops (- dist)%R = (Rabs dist, (- s)%R)).
  { unfold split_sign. rops.
    destruct (Rltb_spec dist (0 / 1)), (Rltb_spec (- dist) (0 / 1)); try lra.
    - exists (-1). rewrite Rabs_left by lra. split; [auto|]. split; f_equal; field.
    - exists 1. rewrite Rabs_pos_eq by lra. split; [auto|]. split; f_equal; field. }
  destruct E as (s & Hs & -> & ->).
  destruct (generate_acceleration g _ vs _), (generate_constant _ _ _),
    (generate_acceleration g _ _ _).
  intros [= <- <- <-]. eexists. split; [reflexivity|].
  intros t. unfold calculate.
  cbn [oc_x_start oc_v_start oc_t1 oc_t2 oc_t3 oc_distance oc_v_end oc_accel oc_const oc_decel oc_sign tx tv ta tj].
  rops. f_equal; ring.
Qed.
