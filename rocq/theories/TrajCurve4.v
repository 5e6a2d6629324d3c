(** Where the curves of the tabulated slaloms end. *)
From Coq Require Import ZArith Reals List Bool Lia Lra QArith Qreals.
From Verif Require Import Base Num SearchModel RunModel ControlModel TrajModel TrajSpec TrajProofs TrajProofs2 TrajProofs4
  TrajProofs5 TrajQuad TrajCurve TrajCurve2 TrajCurve3.
Import ListNotations.
Open Scope R_scope.

Lemma q2r n d : Q2R (n # d) = IZR n / IZR (Z.pos d).
Proof. reflexivity. Qed.

Lemma quad_sums (f : R -> @axis4 Rops) (g : @generator Rops) T th0 d v x0 y0 X Y N : turns f g T th0 d -> limits g ->
  0 <= v -> 0 < T -> (0 < N)%nat -> drives v (fun u => tx (f u)) T x0 y0 X Y ->
  let p := T / INR N in
  let e := quad_error (g_v_max g) (g_a_max g) (g_j_max g) p in
  forall n, INR n * p <= T ->
  Rabs (X (INR n * p) - (x0 + v * p * sumf (fun i => 1 / 2 * cos (tx (f (gauss1 p (INR i * p)))) + 1 / 2 * cos (tx (f (gauss2 p (INR i * p))))) n)) <= v * (INR n * p) * e /\
  Rabs (Y (INR n * p) - (y0 + v * p * sumf (fun i => 1 / 2 * sin (tx (f (gauss1 p (INR i * p)))) + 1 / 2 * sin (tx (f (gauss2 p (INR i * p))))) n)) <= v * (INR n * p) * e.
Proof.
  intros (T0 & F & BD & _) (Pv & Pa & Pj) Hv HT HN (X0 & Y0 & D). cbv zeta.
  assert (N0 : 0 < INR N) by (apply lt_0_INR, HN).
  set (p := T / INR N). assert (Hp : 0 < p) by (apply Rdiv_lt_0_compat; assumption).
  destruct F as (fx & fv & fa & fj & ex & M & FE).
  assert (BB : forall u, 0 <= u <= T -> Rabs (fv u) <= g_v_max g /\ Rabs (fa u) <= g_a_max g).
  { intros u Hu. destruct (FE u Hu) as (_ & E2 & E3 & _). destruct (BD u Hu) as (B1 & B2 & _).
    rewrite E2 in B1. rewrite E3 in B2. auto. }
  assert (DXY : forall u, 0 <= u <= T -> derivable_pt_lim X u (v * cos (fx u)) /\ derivable_pt_lim Y u (v * sin (fx u))).
  { intros u Hu. destruct (D u Hu) as [D1 D2]. destruct (FE u Hu) as (E & _). rewrite E in D1, D2. auto. }
  set (e := quad_error (g_v_max g) (g_a_max g) (g_j_max g) p).
  set (hc := fun i : nat => 1 / 2 * cos (tx (f (gauss1 p (INR i * p)))) + 1 / 2 * cos (tx (f (gauss2 p (INR i * p))))).
  set (hs := fun i : nat => 1 / 2 * sin (tx (f (gauss1 p (INR i * p)))) + 1 / 2 * sin (tx (f (gauss2 p (INR i * p))))).
  induction n as [|n IH]; intros Hn.
    - cbn [sumf INR]. rewrite !Rmult_0_l, X0, Y0, !Rmult_0_r, !Rmult_0_l.
      rewrite !Rplus_0_r. rewrite !Rminus_diag_eq, Rabs_R0 by reflexivity. lra.
    - assert (Hn' : INR n * p + p <= T) by (rewrite S_INR in Hn; lra).
      assert (P0 : 0 <= INR n * p) by (apply Rmult_le_pos; [apply pos_INR | lra]).
      destruct (IH ltac:(lra)) as [IX IY]. cbn [sumf].
      set (t := INR n * p) in *.
      destruct (curve_quad_step fx fv fa (g_v_max g) (g_a_max g) (g_j_max g) 0 T
        (mo_x _ _ _ _ _ _ M) (mo_v _ _ _ _ _ _ M) (mo_lip _ _ _ _ _ _ M)
        (fun u Hu => proj1 (BB u Hu)) (fun u Hu => proj2 (BB u Hu)) X Y v t p Hp Hv P0 Hn'
        ltac:(lra) ltac:(lra) ltac:(lra) DXY) as [SX SY].
      replace (INR (S n) * p) with (t + p) by (unfold t; rewrite S_INR; ring).
      assert (H1 : tx (f (gauss1 p t)) = fx (gauss1 p t)) by (apply FE; unfold gauss1; split; nra).
      assert (H2 : tx (f (gauss2 p t)) = fx (gauss2 p t)) by (apply FE; unfold gauss2; split; nra).
      unfold hc at 2, hs at 2. fold t. rewrite H1, H2. cbv zeta in SX, SY. change (2 / 100000000 * (g_v_max g * p) + 1 / 100000000 * ((g_v_max g * g_v_max g + g_a_max g) * (p * p))
           + (g_j_max g + 3 * g_v_max g * g_a_max g + g_v_max g * g_v_max g * g_v_max g) * (p * p * p) / 100) with e in SX, SY.
      set (sx := 1 / 2 * cos _ + 1 / 2 * cos _) in *.
      set (sy := 1 / 2 * sin _ + 1 / 2 * sin _) in *.
      rewrite <- Rabs_Ropp in SX, SY.
      replace (v * (t + p) * e) with (v * t * e + v * p * e) by ring.
      split.
      + replace (X (t + p) - (x0 + v * p * (sumf hc n + sx)))
          with ((X t - (x0 + v * p * sumf hc n)) + - (v * p * sx - (X (t + p) - X t))) by ring.
        eapply Rle_trans; [apply Rabs_triang|]. apply Rplus_le_compat; assumption.
      + replace (Y (t + p) - (y0 + v * p * (sumf hs n + sy)))
          with ((Y t - (y0 + v * p * sumf hs n)) + - (v * p * sy - (Y (t + p) - Y t))) by ring.
        eapply Rle_trans; [apply Rabs_triang|]. apply Rplus_le_compat; assumption.
Qed.

Lemma sumf_ext (a b : nat -> R) n : (forall i, (i < n)%nat -> a i = b i) -> sumf a n = sumf b n.
Proof.
  induction n as [|n IH]; intros H; [reflexivity|]. cbn [sumf]. rewrite (H n) by lia. f_equal. apply IH. intros i Hi. apply H. lia.
Qed.

Lemma sumf_scale s (a : nat -> R) n : sumf (fun i => s * a i) n = s * sumf a n.
Proof. induction n as [|n IH]; cbn [sumf]; [ring | rewrite IH; ring]. Qed.

Lemma drives_exists (f : R -> @axis4 Rops) (g : @generator Rops) T th0 d v x0 y0 : turns f g T th0 d ->
  exists X Y, drives v (fun u => tx (f u)) T x0 y0 X Y.
Proof.
  intros (T0 & F & _). destruct F as (fx & fv & fa & fj & ex & M & FE).
  assert (DD := fun u => head_derivs fx fv fa v u (mo_x _ _ _ _ _ _ M u) (mo_v _ _ _ _ _ _ M u)).
  assert (CX : forall u, continuity_pt (fun u => v * cos (fx u)) u).
  { intros u. apply derivable_continuous_pt. eexists. apply (DD u). }
  assert (CY : forall u, continuity_pt (fun u => v * sin (fx u)) u).
  { intros u. apply derivable_continuous_pt. eexists. apply (DD u). }
  destruct (antiderivative_on _ T T0 CX) as (X0 & X00 & DX).
  destruct (antiderivative_on _ T T0 CY) as (Y0 & Y00 & DY).
  exists (fun u => x0 + X0 u), (fun u => y0 + Y0 u). split; [rewrite X00; ring|]. split; [rewrite Y00; ring|].
  intros u Hu. destruct (FE u Hu) as (-> & _).
  split; (eapply dlim_eq; [apply (derivable_pt_lim_plus (fun _ => _)); [apply derivable_pt_lim_const | auto] | apply Rplus_0_l]).
Qed.

Lemma curve_grid (v vr s x0 : R) (d rq m cq h0 ic is_ : Q) (c : @overall Rops) T :
  0 < v -> 0 < vr -> s = 1 \/ s = -1 -> certified d rq m cq h0 ic is_ = true ->
  generate (@Generator Rops (v / vr * (3 * PI))%R (v / vr * (v / vr) * (36 * PI))%R (v / vr * (v / vr) * (v / vr) * (1200 * PI))%R)
    0%R (s * (PI * Q2R d))%R 0%R 0%R = (c, T) ->
  0 < T /\ v * T = vr * (120 * Q2R h0) /\
  (exists X Y, drives v (fun u => tx (@calculate Rops c u)) T x0 0 X Y) /\
  forall X Y, drives v (fun u => tx (@calculate Rops c u)) T x0 0 X Y ->
  forall n, (n <= steps)%nat -> let '(x, y, _) := sums rq d m cq h0 n in
  Rabs (X (INR n * (T / 120)) - (x0 + vr * Q2R (valQ h0 x))) <= vr * 24 / 10000000 /\
  Rabs (Y (INR n * (T / 120)) - s * (vr * Q2R (valQ h0 y))) <= vr * 24 / 10000000.
Proof.
  intros Hv Hr Hs C G. destruct (certified_at _ _ _ _ _ _ _ C) as (D5 & R0 & RD & TH & EH & AT).
  set (r := Q2R (peakQ d)) in *. set (dd := Q2R d) in *. set (k := v / vr) in *.
  assert (Hk : 0 < k) by (apply Rdiv_lt_0_compat; assumption).
  assert (Kv : v = k * vr) by (unfold k; field; lra). clearbody k.
  pose proof PI_RGT_0 as HP. pose proof PI_tight as [_ HP4].
  set (g := @Generator Rops _ _ _) in G.
  destruct (closed_turns k d s Hk D5 R0 Hs) as (Lg & c' & T' & E' & Tu). fold g dd in Lg, E', Tu.
  assert (RT := rt_pos r ltac:(lra)). assert (CT := ct_pos r dd ltac:(lra) RD).
  assert (G' := generate_closed k d s Hk D5 Hs). cbv zeta in G'. fold g dd r in G'. rewrite G in G'.
  assert (PC := plan_closed k r dd s Hk ltac:(lra) RD). fold g in PC.
  assert (ETT : T = turn_t r dd / k).
  { rewrite PC in G'. injection G' as _ E. exact E. }
  assert (HEAD : forall t, 0 <= t <= turn_t r dd -> tx (@calculate Rops c (t / k)%R) = s * (PI * turn r dd t)).
  { intros t Ht. rewrite <- (heading_closed k r dd s Hk ltac:(lra) RD t Ht). fold g. rewrite <- G'. reflexivity. }
  assert (TT : 0 < turn_t r dd) by (unfold turn_t; lra).
  assert (T0 : 0 < T) by (rewrite ETT; apply Rdiv_lt_0_compat; assumption).
  assert (EQ : (c', T') = (c, T)) by congruence. injection EQ as -> ->.
  split; [exact T0|]. split; [rewrite ETT, EH, Kv; field; lra|].
  split; [exact (drives_exists _ _ _ _ _ _ _ _ Tu)|]. intros X Y DR n Hn. specialize (AT n Hn).
  assert (N0 : 0 <= INR n <= 120).
  { split; [apply pos_INR|]. replace 120 with (INR steps) by (unfold steps; rewrite INR_IZR_INZ; reflexivity). apply le_INR, Hn. }
  assert (QS := quad_sums _ g T 0 _ v x0 0 X Y steps Tu Lg ltac:(lra) T0 ltac:(unfold steps; lia) DR).
  cbv zeta in QS. replace (INR steps) with 120 in QS by (unfold steps; rewrite INR_IZR_INZ; reflexivity).
  assert (NT : INR n * (T / 120) <= T).
  { apply Rle_trans with (120 * (T / 120)); [apply Rmult_le_compat_r; lra | lra]. }
  destruct (QS n NT) as [QX QY]. clear QS.
  set (p := T / 120) in *. set (h := turn_t r dd / 120).
  assert (EP : p = h / k) by (unfold p, h; rewrite ETT; field; lra).
  assert (VP : v * p = vr * h) by (rewrite EP, Kv; field; lra).
  assert (VT : v * T = vr * turn_t r dd) by (rewrite ETT, Kv; field; lra).
  rewrite VP in QX, QY.
  assert (NODE : forall i c0, (i < steps)%nat -> 0 <= c0 <= 1 -> tx (@calculate Rops c (INR i * p + c0 * p)%R) = s * (PI * turn r dd ((INR i + c0) * h))).
  { intros i c0 Hi Hc. rewrite <- HEAD.
    - f_equal. f_equal. rewrite EP. field. lra.
    - assert (I0 := pos_INR i). assert (I1 : INR i + 1 <= 120).
      { replace 120 with (INR steps) by (unfold steps; rewrite INR_IZR_INZ; reflexivity). rewrite <- S_INR. apply le_INR. lia. }
      unfold h. split; [apply Rmult_le_pos; lra|].
      apply Rle_trans with (120 * (turn_t r dd / 120)); [apply Rmult_le_compat_r; lra | lra]. }
  assert (SC : forall a, cos (s * a) = cos a).
  { intros a. destruct Hs as [-> | ->]; [f_equal; ring|]. replace (-1 * a) with (- a) by ring. apply cos_neg. }
  assert (SS : forall a, sin (s * a) = s * sin a).
  { intros a. destruct Hs as [-> | ->]; [rewrite !Rmult_1_l; reflexivity|].
    replace (-1 * a) with (- a) by ring. rewrite sin_neg. ring. }
  assert (EC : h * sumf (fun i => 1 / 2 * cos (tx (@calculate Rops c (gauss1 p (INR i * p)))) + 1 / 2 * cos (tx (@calculate Rops c (gauss2 p (INR i * p))))) n
    = gsum_to cos r dd n).
  { unfold gsum_to. fold h. f_equal. apply sumf_ext. intros i Hi. unfold gauss1, gauss2.
    rewrite !(NODE i) by (try lra; lia). rewrite !SC. reflexivity. }
  assert (ES : h * sumf (fun i => 1 / 2 * sin (tx (@calculate Rops c (gauss1 p (INR i * p)))) + 1 / 2 * sin (tx (@calculate Rops c (gauss2 p (INR i * p))))) n
    = s * gsum_to sin r dd n).
  { unfold gsum_to. fold h. rewrite <- Rmult_assoc, (Rmult_comm s h), Rmult_assoc. f_equal. rewrite <- sumf_scale.
    apply sumf_ext. intros i Hi. unfold gauss1, gauss2.
    rewrite !(NODE i) by (try lra; lia). rewrite !SS. ring. }
  rewrite (Rmult_assoc vr h), EC in QX. rewrite (Rmult_assoc vr h), ES in QY.
  assert (QE : 0 <= quad_error (g_v_max g) (g_a_max g) (g_j_max g) p <= 42 / 10000000).
  { unfold quad_error. cbn [g_v_max g_a_max g_j_max g].
    assert (H0 : 0 < h <= 375 / 100000) by (unfold h; lra).
    assert (W1 : k * (3 * PI) * p = 3 * (PI * h)) by (rewrite EP; field; lra).
    assert (W2 : (k * (3 * PI) * (k * (3 * PI)) + k * k * (36 * PI)) * (p * p) = 9 * (PI * h * (PI * h)) + 36 * (PI * h * h)) by (rewrite EP; field; lra).
    assert (W3 : (k * k * k * (1200 * PI) + 3 * (k * (3 * PI)) * (k * k * (36 * PI)) + k * (3 * PI) * (k * (3 * PI)) * (k * (3 * PI))) * (p * p * p)
      = 1200 * (PI * h * (h * h)) + 324 * (PI * h * (PI * h) * h) + 27 * (PI * h * (PI * h) * (PI * h))) by (rewrite EP; field; lra).
    rewrite W1, W2, W3.
    assert (A1 : 0 <= PI * h <= 11784 / 1000000) by (split; [apply Rmult_le_pos; lra | nra]).
    set (a := PI * h) in *.
    assert (A2 : 0 <= a * a <= 11784 / 1000000 * (11784 / 1000000)) by (split; nra).
    assert (A3 : 0 <= a * h <= 11784 / 1000000 * (375 / 100000)) by (split; nra).
    assert (A4 : 0 <= a * a * a <= 11784 / 1000000 * (11784 / 1000000) * (11784 / 1000000)) by (split; nra).
    assert (A5 : 0 <= a * a * h <= 11784 / 1000000 * (11784 / 1000000) * (375 / 100000)) by (split; nra).
    assert (A6 : 0 <= a * (h * h) <= 11784 / 1000000 * (375 / 100000) * (375 / 100000)) by (split; nra).
    lra. }
  assert (ERR : v * (INR n * p) * quad_error (g_v_max g) (g_a_max g) (g_j_max g) p <= vr * (19 / 10000000)).
  { apply Rle_trans with (v * T * quad_error (g_v_max g) (g_a_max g) (g_j_max g) p).
    - apply Rmult_le_compat_r; [lra|]. apply Rmult_le_compat_l; [lra | exact NT].
    - rewrite VT, Rmult_assoc. apply Rmult_le_compat_l; [lra|]. nra. }
  assert (AS : Rabs s = 1) by (destruct Hs as [-> | ->]; [apply Rabs_pos_eq; lra | rewrite Rabs_left; lra]).
  destruct (sums rq d m cq h0 n) as [[x y] b]. destruct AT as [GC GS].
  split.
  - replace (X (INR n * p) - (x0 + vr * Q2R (valQ h0 x))) with ((X (INR n * p) - (x0 + vr * gsum_to cos r dd n)) + vr * (gsum_to cos r dd n - Q2R (valQ h0 x))) by ring.
    eapply Rle_trans; [apply Rabs_triang|]. rewrite (Rabs_mult vr), (Rabs_pos_eq vr) by lra. nra.
  - replace (Y (INR n * p) - s * (vr * Q2R (valQ h0 y))) with ((Y (INR n * p) - (0 + vr * (s * gsum_to sin r dd n))) + s * (vr * (gsum_to sin r dd n - Q2R (valQ h0 y)))) by ring.
    eapply Rle_trans; [apply Rabs_triang|]. rewrite (Rabs_mult s), AS, Rmult_1_l, (Rabs_mult vr), (Rabs_pos_eq vr) by lra. nra.
Qed.

Lemma curve_end_value (v vr s x0 : R) (d rq m cq h0 ic is_ : Q) (c : @overall Rops) T :
  0 < v -> 0 < vr -> s = 1 \/ s = -1 -> certified d rq m cq h0 ic is_ = true ->
  generate (@Generator Rops (v / vr * (3 * PI))%R (v / vr * (v / vr) * (36 * PI))%R (v / vr * (v / vr) * (v / vr) * (1200 * PI))%R)
    0%R (s * (PI * Q2R d))%R 0%R 0%R = (c, T) ->
  (exists X Y, drives v (fun u => tx (@calculate Rops c u)) T x0 0 X Y) /\
  forall X Y, drives v (fun u => tx (@calculate Rops c u)) T x0 0 X Y ->
  Rabs (X T - (x0 + vr * Q2R ic)) <= vr * 25 / 10000000 /\ Rabs (Y T - s * (vr * Q2R is_)) <= vr * 25 / 10000000.
Proof.
  intros Hv Hr Hs C G. destruct (curve_grid v vr s x0 d rq m cq h0 ic is_ c T Hv Hr Hs C G) as (_ & _ & EX & AT).
  split; [exact EX|]. intros X Y DR. specialize (AT X Y DR steps (le_n _)).
  assert (I120 : INR steps = 120) by (unfold steps; rewrite INR_IZR_INZ; reflexivity).
  assert (ET : INR steps * (T / 120) = T) by (rewrite I120; change (@num Rops) with R in *; field).
  rewrite ET in AT.
  unfold certified in C. apply andb_prop in C as [_ C].
  destruct (sums rq d m cq h0 steps) as [[x y] b]. apply andb_prop in C as [C HY]. apply andb_prop in C as [_ HX].
  assert (NEAR : forall a b, nearQ a b = true -> Rabs (Q2R a - Q2R b) <= 1 / 10000000).
  { intros a1 b1 N. unfold nearQ in N. apply andb_prop in N as [N1 N2].
    apply Qle_bool_iff, Qle_Rle in N1, N2. rewrite Q2R_minus, q2r in N1, N2. apply Rabs_le. lra. }
  apply NEAR in HX, HY. destruct AT as [AX AY].
  assert (AS : Rabs s = 1) by (destruct Hs as [-> | ->]; [apply Rabs_pos_eq; lra | rewrite Rabs_left; lra]).
  split.
  - replace (X T - (x0 + vr * Q2R ic)) with ((X T - (x0 + vr * Q2R (valQ h0 x))) + vr * (Q2R (valQ h0 x) - Q2R ic)) by ring.
    eapply Rle_trans; [apply Rabs_triang|]. rewrite (Rabs_mult vr), (Rabs_pos_eq vr) by lra. nra.
  - replace (Y T - s * (vr * Q2R is_)) with ((Y T - s * (vr * Q2R (valQ h0 y))) + s * (vr * (Q2R (valQ h0 y) - Q2R is_))) by ring.
    eapply Rle_trans; [apply Rabs_triang|]. rewrite (Rabs_mult s), AS, Rmult_1_l, (Rabs_mult vr), (Rabs_pos_eq vr) by lra. nra.
Qed.

Lemma create_curve_end (ls le x y vr th w v p : R) (d : sdir) (dq rq m c0 h0 ic is_ : Q) :
  0 < w -> 0 < v -> 0 < vr -> certified dq rq m c0 h0 ic is_ = true -> th / 180 = Q2R dq ->
  let q := @create_params Rops ls le x y vr th w d in
  let s := @generate_curve Rops p (l_start q) 0%R 0%R (sl_theta q) v (v_ref q) (dtheta q) (ddtheta q) (dddtheta q) in
  let sg := match d with SLeft => 1 | SRight => -1 end in
  (exists X Y, drives v (fun u => tx (@calculate Rops (cu_calc s) u)) (cu_t_end s) (l_start q) 0 X Y) /\
  forall X Y, drives v (fun u => tx (@calculate Rops (cu_calc s) u)) (cu_t_end s) (l_start q) 0 X Y ->
  Rabs (X (cu_t_end s) - w * (ls + vr * Q2R ic)) <= w * (vr * 25 / 10000000) /\
  Rabs (Y (cu_t_end s) - w * (sg * (vr * Q2R is_))) <= w * (vr * 25 / 10000000).
Proof.
  intros Hw Hv Hr C Hth q s sg.
  assert (WR : 0 < w * vr) by (apply Rmult_lt_0_compat; assumption).
  assert (SG : sg = 1 \/ sg = -1) by (unfold sg; destruct d; auto).
  assert (EQ : sl_theta q = sg * (PI * Q2R dq) /\ l_start q = w * ls /\ v_ref q = w * vr /\
    dtheta q = 3 * PI /\ ddtheta q = 36 * PI /\ dddtheta q = 1200 * PI).
  { unfold q, sg, create_params, degree. rewrite <- Hth. destruct d; cbn [sl_theta l_start v_ref dtheta ddtheta dddtheta]; rops;
      repeat split; field. }
  destruct EQ as (E1 & E2 & E3 & E4 & E5 & E6).
  destruct (generate (@Generator Rops (v / (w * vr) * (3 * PI))%R (v / (w * vr) * (v / (w * vr)) * (36 * PI))%R
      (v / (w * vr) * (v / (w * vr)) * (v / (w * vr)) * (1200 * PI))%R) 0%R (sg * (PI * Q2R dq))%R 0%R 0%R) as [c T] eqn:G.
  assert (ES : s = @CurveTraj Rops c 0%R T p (l_start q) 0%R v).
  { unfold s, generate_curve. rewrite E1, E3, E4, E5, E6. rewrite n0_R. rops. rewrite G. reflexivity. }
  rewrite ES. cbn [cu_calc cu_t_end].
  destruct (curve_end_value v (w * vr) sg (l_start q) dq rq m c0 h0 ic is_ c T Hv WR SG C G) as [EX AL].
  split; [exact EX|]. intros X Y D. destruct (AL X Y D) as [A B]. rewrite E2 in A.
  replace (w * ls + w * vr * Q2R ic) with (w * (ls + vr * Q2R ic)) in A by ring.
  replace (sg * (w * vr * Q2R is_)) with (w * (sg * (vr * Q2R is_))) in B by ring.
  replace (w * vr * 25 / 10000000) with (w * (vr * 25 / 10000000)) in A, B by field. split; assumption.
Qed.

(** [x] is within [e] of [w * a], and [a] within [f] of [b]. *)
Lemma scaled_close w x a b e f : 0 < w -> Rabs (x - w * a) <= w * e -> - f <= a - b <= f -> Rabs (x - w * b) <= w * (e + f).
Proof.
  intros W A B. replace (x - w * b) with ((x - w * a) + w * (a - b)) by ring.
  eapply Rle_trans; [apply Rabs_triang|]. rewrite Rabs_mult, (Rabs_pos_eq w) by lra.
  assert (Rabs (a - b) <= f) by (apply Rabs_le; lra). nra.
Qed.

Lemma create_ends (ls le x y vr th w v p : R) (d : sdir) (dq rq m c0 h0 ic is_ : Q) :
  0 < w -> 0 < v -> 0 < vr -> certified dq rq m c0 h0 ic is_ = true -> th / 180 = Q2R dq ->
  - (5 / 1000000) <= ls + vr * Q2R ic - x <= 5 / 1000000 -> - (5 / 1000000) <= vr * Q2R is_ - y <= 5 / 1000000 ->
  vr <= 5 ->
  let q := @create_params Rops ls le x y vr th w d in
  let s := @generate_curve Rops p (l_start q) 0%R 0%R (sl_theta q) v (v_ref q) (dtheta q) (ddtheta q) (dddtheta q) in
  (exists X Y, drives v (fun u => tx (@calculate Rops (cu_calc s) u)) (cu_t_end s) (l_start q) 0 X Y) /\
  forall X Y, drives v (fun u => tx (@calculate Rops (cu_calc s) u)) (cu_t_end s) (l_start q) 0 X Y ->
  Rabs (X (cu_t_end s) - x_curve_end q) <= w / 50000 /\ Rabs (Y (cu_t_end s) - y_curve_end q) <= w / 50000.
Proof.
  intros Hw Hv Hr C Hth HX HY V5 q s.
  destruct (create_curve_end ls le x y vr th w v p d dq rq m c0 h0 ic is_ Hw Hv Hr C Hth) as [EX AL]. fold q s in EX, AL.
  split; [exact EX|]. intros X Y D. destruct (AL X Y D) as [A B].
  assert (EP : x_curve_end q = w * x /\ y_curve_end q = w * (match d with SLeft => 1 | SRight => -1 end * y)).
  { unfold q, create_params. destruct d; cbn [x_curve_end y_curve_end]; rops; split; ring. }
  destruct EP as [-> ->]. split.
  - eapply Rle_trans; [exact (scaled_close _ _ _ _ _ _ Hw A HX) | nra].
  - eapply Rle_trans; [refine (scaled_close _ _ _ _ _ (5 / 1000000) Hw B _) | nra]. destruct d; lra.
Qed.


Lemma curve_ends (w off v p : R) k d : 0 < w -> 0 < v -> (k = None -> off < 45 / 1000) -> k <> Some FastRun45 ->
  let q := @parameters Rops w off k d in
  let s := @generate_curve Rops p (l_start q) 0%R 0%R (sl_theta q) v (v_ref q) (dtheta q) (ddtheta q) (dddtheta q) in
  (exists X Y, drives v (fun u => tx (@calculate Rops (cu_calc s) u)) (cu_t_end s) (l_start q) 0 X Y) /\
  forall X Y, drives v (fun u => tx (@calculate Rops (cu_calc s) u)) (cu_t_end s) (l_start q) 0 X Y ->
  Rabs (X (cu_t_end s) - x_curve_end q) <= w / 50000 /\ Rabs (Y (cu_t_end s) - y_curve_end q) <= w / 50000.
Proof.
  intros Hw Hv Ho Hk. destruct k as [k|].
  - destruct k; try congruence; unfold parameters;
    [ eapply create_ends with (1 := Hw) (2 := Hv) (4 := cert45)
    | eapply create_ends with (1 := Hw) (2 := Hv) (4 := cert90)
    | eapply create_ends with (1 := Hw) (2 := Hv) (4 := cert135)
    | eapply create_ends with (1 := Hw) (2 := Hv) (4 := cert135)
    | eapply create_ends with (1 := Hw) (2 := Hv) (4 := cert180)
    | eapply create_ends with (1 := Hw) (2 := Hv) (4 := cert90)]; rops; rewrite ?q2r; lra.
  - specialize (Ho eq_refl). unfold parameters, search90_params. rops.
    destruct (Rleb_spec (off / (9 / 100)) (55555556 / 1000000000)) as [L|L].
    + eapply create_ends with (1 := Hw) (2 := Hv) (4 := cert90); rops; rewrite ?q2r; lra.
    + eapply create_ends with (1 := Hw) (2 := Hv) (4 := cert90); rops; rewrite ?q2r; lra.
Qed.

(** the entry FastRun45 is wrong by 0.3 percent of the width of a square. *)
Lemma curve45_off (w off v p : R) d : 0 < w -> 0 < v ->
  let q := @parameters Rops w off (Some FastRun45) d in
  let s := @generate_curve Rops p (l_start q) 0%R 0%R (sl_theta q) v (v_ref q) (dtheta q) (ddtheta q) (dddtheta q) in
  (exists X Y, drives v (fun u => tx (@calculate Rops (cu_calc s) u)) (cu_t_end s) (l_start q) 0 X Y) /\
  forall X Y, drives v (fun u => tx (@calculate Rops (cu_calc s) u)) (cu_t_end s) (l_start q) 0 X Y ->
  3 / 1000 * w <= X (cu_t_end s) - x_curve_end q <= 33 / 10000 * w.
Proof.
  intros Hw Hv q s.
  destruct (create_curve_end (1564414 / 10000000) (3680321 / 10000000) (739762 / 1000000) (239762 / 1000000)
    (33333333 / 10000000) (45 / 1) w v p d _ _ _ _ _ _ _ Hw Hv ltac:(lra) cert45 ltac:(rewrite q2r; lra)) as [EX AL].
  split; [exact EX|]. intros X Y D. destruct (AL X Y D) as [A _].
  assert (EP : x_curve_end q = w * (739762 / 1000000)).
  { unfold q, parameters, create_params. destruct d; cbn [x_curve_end]; rops; ring. }
  rewrite EP. rewrite q2r in A. change (@cu_t_end Rops _) with (cu_t_end s) in A. set (x := X (cu_t_end s)) in *.
  match type of A with Rabs ?e <= _ => assert (L := Rle_abs e); assert (U := Rle_abs (- e)) end.
  rewrite Rabs_Ropp in U. lra.
Qed.
