(** Properties C100 and C101: the speed controller on the simulated motors when the target changes. *)
From Coq Require Import ZArith Reals List Bool Lia Lra.
From Flocq Require Import Core.
From Verif Require Import Base SearchModel WallsModel Num NumLemmas ControlModel TrajModel TrajSpec DetectModel SimModel SimSpec SimProofs
  SimServo SimServo2 FollowSpec PropsTraj PropsSim.
Import ListNotations.
Open Scope R_scope.

(** ** C100 *)

(** With stable gains and exact motor constants the speeds follow every target, however it changes: what remains of the first
    deviation dies out, and the rest is at most [C] times the largest amount by which a target is out of reach of the
    feed-forward from the one before.  [C] and [rho] depend on motors, gains and period only. *)
Theorem C100_follow kt tt kr tr p (tp rp : @control_parameters Rops) :
  stable_gains kt tt p tp -> stable_gains kr tr p rp -> model_k tp = kt -> model_t1 tp = tt -> model_k rp = kr -> model_t1 rp = tr ->
  exists C rho, 0 <= C /\ 0 < rho < 1 /\
  forall (m : @simulator Rops) (c : @controller Rops) (r : nat -> @control_target Rops) (v M : R),
  m_trans_k m = kt -> m_trans_t1 m = tt -> m_rot_k m = kr -> m_rot_t1 m = tr -> m_period m = p ->
  trans_params c = tp -> rot_params c = rp -> c_period c = p -> moves (m_current m) v ->
  forall n, (forall i, (i < n)%nat ->
    astray tt p (c_v (r i)) (c_a (r i)) (c_v (r (S i))) <= M /\ astray tr p (c_omega (r i)) (c_alpha (r i)) (c_omega (r (S i))) <= M /\
    Rabs (feed kt tt (c_v (r i)) (c_a (r i))) + Rabs (feed kr tr (c_omega (r i)) (c_alpha (r i))) + C * (gap m c (r O) v + M) <= m_max_voltage m) ->
  0 <= M ->
  let (m', c') := servo r n m c in
  exists v', moves (m_current m') v' /\
  Rabs (v' - c_v (r n)) <= C * (rho ^ n * gap m c (r O) v + M) /\
  Rabs (sv (s_theta (m_current m')) - c_omega (r n)) <= C * (rho ^ n * gap m c (r O) v + M).
Proof. exact (servo_follows kt tt kr tr p tp rp). Qed.
Print Assumptions C100_follow.

(** the motors and gains of C86, from rest, and a target speed that grows like the square of the time during one second *)
Example C100_case w : stable_gains (1865 / 1000) (4443 / 10000) (1 / 1000) run_trans /\
  stable_gains (8239 / 100) (2855 / 10000) (1 / 1000) run_rot /\
  forall C, 0 <= C -> let q := 1 / (100 * (C + 1)) in
  let r (i : nat) := @ControlTarget Rops (q * (INR i * (1 / 1000)) ^ 2)%R (2 * q * (INR i * (1 / 1000)))%R 0%R 0%R in
  let m := run_mouse w 0 in let c := controller_new run_trans run_rot (1 / 1000)%R in
  moves (m_current m) 0 /\ gap m c (r O) 0 = 0 /\ 0 <= q /\
  forall i, (i < 1000)%nat ->
    astray (4443 / 10000) (1 / 1000) (c_v (r i)) (c_a (r i)) (c_v (r (S i))) <= q /\
    astray (2855 / 10000) (1 / 1000) (c_omega (r i)) (c_alpha (r i)) (c_omega (r (S i))) <= q /\
    Rabs (feed (1865 / 1000) (4443 / 10000) (c_v (r i)) (c_a (r i))) + Rabs (feed (8239 / 100) (2855 / 10000) (c_omega (r i)) (c_alpha (r i)))
      + C * (gap m c (r O) 0 + q) <= m_max_voltage m.
Proof.
  destruct (C86_case w) as (S1 & S2 & _). split; [exact S1|]. split; [exact S2|]. intros C HC q r m c.
  assert (Q : 0 < q) by (unfold q; apply Rdiv_lt_0_compat; lra).
  assert (QC : C * q <= 1 / 100).
  { unfold q. apply Rmult_le_reg_r with (100 * (C + 1)); [lra|]. replace (C * (1 / (100 * (C + 1))) * (100 * (C + 1))) with C by (field; lra). lra. }
  assert (Q1 : q <= 1 / 100).
  { unfold q. apply Rmult_le_reg_r with (100 * (C + 1)); [lra|]. replace (1 / (100 * (C + 1)) * (100 * (C + 1))) with 1 by (field; lra). lra. }
  assert (G : gap m c (r O) 0 = 0).
  { unfold gap, m, c, r, run_mouse, simulator_new, controller_new. cbn [m_current s_theta sv trans_sum rot_sum c_v c_omega INR]. rops.
    match goal with |- Rabs ?a + Rabs ?b + Rabs ?d + Rabs ?e = _ => replace a with 0 by (cbn; ring); replace b with 0 by ring; replace d with 0 by (cbn; lra); replace e with 0 by (cbn; lra) end.
    rewrite Rabs_R0. ring. }
  split; [unfold moves, m, run_mouse, simulator_new; cbn [m_current s_x s_y s_theta sx sv]; split; rops; ring|].
  split; [exact G|]. split; [lra|]. intros i Hi. rewrite G. cbn [r c_v c_a c_omega c_alpha].
  assert (I0 := pos_INR i). assert (I1 : INR i < 1000) by (change 1000 with (IZR (Z.of_nat 1000)); rewrite <- INR_IZR_INZ; apply lt_INR, Hi).
  assert (U : 0 <= INR i * (1 / 1000) <= 1) by lra. rewrite S_INR. set (u := INR i * (1 / 1000)) in *.
  replace ((INR i + 1) * (1 / 1000)) with (u + 1 / 1000) by (unfold u; ring).
  unfold astray, feed. split; [|split].
  - replace (q * (u + 1 / 1000) ^ 2 - (q * u ^ 2 + 1 / 1000 * (2 * q * u))) with (q * (1 / 1000000)) by field.
    rewrite !Rabs_pos_eq by nra. nra.
  - replace (0 - (0 + 1 / 1000 * 0)) with 0 by ring. rewrite Rabs_R0. lra.
  - replace ((0 + 0 * (2855 / 10000)) / (8239 / 100)) with 0 by field. rewrite Rabs_R0, Rabs_pos_eq.
    2:{ apply Rmult_le_pos; [nra | lra]. }
    assert (q * u ^ 2 <= 1 / 100) by nra. assert (2 * q * u <= 2 / 100) by nra. unfold Rdiv at 1.
    cbn [m_max_voltage m run_mouse simulator_new]. nra.
Qed.

(** ** C101 *)

Lemma sampled f E J p n : TrajSpec.follows f E J -> 0 < p -> INR (S n) * p <= E ->
  Rabs (tv (f (INR (S n) * p)%R) - (tv (f (INR n * p)%R) + p * ta (f (INR n * p)%R))) <= J * p * p.
Proof.
  intros (x & v & a & j & ex & Mo & F) Hp HT. rewrite S_INR in *. assert (N := pos_INR n). assert (N2 : 0 <= INR n * p) by (apply Rmult_le_pos; lra).
  set (u := INR n * p) in *. replace ((INR n + 1) * p) with (u + p) in * by (unfold u; ring).
  destruct (F u) as (_ & V0 & A0 & _); [lra|]. destruct (F (u + p)) as (_ & V1 & _); [lra|].
  change (@num Rops) with R in *. rewrite V0, V1, A0.
  destruct (MVT_cor2 v a u (u + p)) as (z & Hz & B); [lra | intros y _; apply (mo_v _ _ _ _ _ _ Mo)|].
  replace (v (u + p) - (v u + p * a u)) with (p * (a z - a u)) by (replace (v (u + p)) with (v u + a z * (u + p - u)) by lra; ring).
  rewrite Rabs_mult, (Rabs_pos_eq p) by lra. assert (L := mo_lip _ _ _ _ _ _ Mo z u).
  assert (0 <= J). { assert (L1 := mo_lip _ _ _ _ _ _ Mo 1 0). rewrite Rminus_0_r, Rabs_R1 in L1. pose proof (Rabs_pos (a 1 - a 0)). lra. }
  rewrite (Rabs_pos_eq (z - u)) in L by lra. assert (J * (z - u) <= J * p) by (apply Rmult_le_compat_l; lra).
  replace (J * p * p) with (p * (J * p)) by ring. apply Rmult_le_compat_l; lra.
Qed.

Lemma in_samples k T p : 0 < p -> (k < samples T p)%nat -> INR k * p <= T.
Proof.
  intros Hp Hk. unfold samples in Hk. assert (Z.of_nat k <= Zfloor (T / p))%Z by lia.
  assert (INR k <= T / p). { rewrite INR_IZR_INZ. eapply Rle_trans; [apply IZR_le; eassumption | apply Zfloor_lb]. }
  apply Rmult_le_reg_r with (/ p); [apply Rinv_0_lt_compat, Hp|]. rewrite Rmult_assoc, Rinv_r, Rmult_1_r by lra. exact H0.
Qed.

(** The speed on straight moves: driven along any straight move with room, the simulated mouse is never further from the target
    speed than a fixed multiple of what the first deviation has died down to and of the period squared. *)
Theorem C101_straight kt tt kr tr p (tp rp : @control_parameters Rops) :
  stable_gains kt tt p tp -> stable_gains kr tr p rp -> model_k tp = kt -> model_t1 tp = tt -> model_k rp = kr -> model_t1 rp = tr ->
  exists C rho, 0 <= C /\ 0 < rho < 1 /\
  forall (m : @simulator Rops) (c : @controller Rops) (g : @generator Rops) (dist vs ve v : R) (r : nat -> @control_target Rops) n,
  m_trans_k m = kt -> m_trans_t1 m = tt -> m_rot_k m = kr -> m_rot_t1 m = tr -> m_period m = p ->
  trans_params c = tp -> rot_params c = rp -> c_period c = p -> moves (m_current m) v ->
  limits g -> 0 <= vs <= g_v_max g -> 0 <= ve <= g_v_max g -> room g (Rabs dist) vs ve ->
  let it := fst (straight_generate_tv (@StraightGenerator Rops g p) dist vs ve) in
  (forall i, (i <= n)%nat -> exists t, output straight_next i it = Some t /\
     c_v (r i) = tv (t_x t) /\ c_a (r i) = ta (t_x t) /\ c_omega (r i) = 0 /\ c_alpha (r i) = 0) ->
  let M := p * p * (g_j_max g + g_a_max g / (tt + p)) in
  (g_v_max g + g_a_max g * tt) / kt + C * (gap m c (r O) v + M) <= m_max_voltage m ->
  let (m', c') := servo r n m c in
  exists v', moves (m_current m') v' /\
  Rabs (v' - c_v (r n)) <= C * (rho ^ n * gap m c (r O) v + M) /\
  Rabs (sv (s_theta (m_current m'))) <= C * (rho ^ n * gap m c (r O) v + M).
Proof.
  intros Gt Gr Mt Tt Mr Tr. destruct (C100_follow kt tt kr tr p tp rp Gt Gr Mt Tt Mr Tr) as (C & rho & C0 & R0 & H).
  exists C, rho. split; [exact C0|]. split; [exact R0|].
  intros m c g dist vs ve v r n E1 E2 E3 E4 E5 E6 E7 E8 Mv Lg Hvs Hve Rm it Hr M HV.
  destruct Gt as (Gk & Gtt & Gp & _).
  destruct (C33_straight_partial g p dist vs ve Lg Gp Hvs Hve Rm) as (f & T & vt & _ & T0 & Fo & Li & _ & _ & Hvt & _ & _ & Y & Ou).
  fold it in Y, Ou. destruct Lg as (L1 & L2 & L3).
  set (vm := g_v_max g) in *. set (am := g_a_max g) in *. set (jm := g_j_max g) in *. change (@num Rops) with R in vm, am, jm.
  assert (AT : forall i, (i <= n)%nat -> INR i * p <= T /\ c_v (r i) = tv (f (INR i * p)%R) /\ c_a (r i) = ta (f (INR i * p)%R) /\ c_omega (r i) = 0 /\ c_alpha (r i) = 0).
  { intros i Hi. destruct (Hr i Hi) as (t & Ot & B1 & B2 & B3 & B4).
    assert (IT : INR i * p <= T).
    { apply (in_samples i T p Gp). apply Y. rewrite Ot. discriminate. }
    rewrite (Ou i IT) in Ot. injection Ot as <-. cbn [t_x] in B1, B2. auto. }
  assert (P2 : 0 <= am / (tt + p)) by (apply Rmult_le_pos; [lra | left; apply Rinv_0_lt_compat; lra]).
  assert (M0 : 0 <= M) by (unfold M; apply Rmult_le_pos; [nra | lra]).
  assert (VA : forall i, (i <= n)%nat -> Rabs (c_v (r i)) <= vm /\ Rabs (c_a (r i)) <= am).
  { intros i Hi. destruct (AT i Hi) as (IT & B1 & B2 & _). assert (0 <= INR i * p) by (apply Rmult_le_pos; [apply pos_INR | lra]).
    destruct (Li (INR i * p)) as (V & A & _); [lra|]. rewrite B1, B2. split; [|exact A].
    assert (0 <= Rmin vs vt) by (apply Rmin_glb; lra). unfold sgn in V. change (@num Rops) with R in *.
    destruct (Rlt_dec dist 0); [rewrite Rabs_left1 | rewrite Rabs_pos_eq]; lra. }
  specialize (H m c r v M E1 E2 E3 E4 E5 E6 E7 E8 Mv n).
  assert (W : forall i, (i < n)%nat ->
    astray tt p (c_v (r i)) (c_a (r i)) (c_v (r (S i))) <= M /\ astray tr p (c_omega (r i)) (c_alpha (r i)) (c_omega (r (S i))) <= M /\
    Rabs (feed kt tt (c_v (r i)) (c_a (r i))) + Rabs (feed kr tr (c_omega (r i)) (c_alpha (r i))) + C * (gap m c (r O) v + M) <= m_max_voltage m).
  { intros i Hi. destruct (AT i ltac:(lia)) as (I1 & B1 & B2 & B3 & B4). destruct (AT (S i) ltac:(lia)) as (I2 & D1 & D2 & D3 & D4).
    destruct (VA i ltac:(lia)) as [V A]. rewrite B3, B4, D3. split; [|split].
    - unfold astray. rewrite D1, B1, B2. assert (Sm := sampled f T jm p i Fo Gp I2).
      rewrite B2 in A. assert (p * p / (tt + p) * Rabs (ta (f (INR i * p)%R)) <= p * p / (tt + p) * am).
      { apply Rmult_le_compat_l; [|exact A]. apply Rmult_le_pos; [nra | left; apply Rinv_0_lt_compat; lra]. }
      unfold M. replace (p * p * (jm + am / (tt + p))) with (jm * p * p + p * p / (tt + p) * am) by (unfold Rdiv; ring). lra.
    - unfold astray. replace (0 - (0 + p * 0)) with 0 by ring. rewrite Rabs_R0. lra.
    - unfold feed. replace ((0 + 0 * tr) / kr) with 0 by (unfold Rdiv; ring). rewrite Rabs_R0, Rplus_0_r.
      eapply Rle_trans; [|exact HV]. apply Rplus_le_compat_r. unfold Rdiv. rewrite Rabs_mult, (Rabs_pos_eq (/ kt)) by (left; apply Rinv_0_lt_compat; lra).
      apply Rmult_le_compat_r; [left; apply Rinv_0_lt_compat; lra|]. eapply Rle_trans; [apply Rabs_triang|].
      rewrite Rabs_mult, (Rabs_pos_eq tt) by lra. assert (Rabs (c_a (r i)) * tt <= am * tt) by (apply Rmult_le_compat_r; assumption). lra. }
  specialize (H W M0). destruct (servo r n m c) as [m' c']. destruct H as (v' & M' & H1 & H2).
  exists v'. split; [exact M'|]. split; [exact H1|]. destruct (AT n (le_n n)) as (_ & _ & _ & B3 & _). rewrite B3, Rminus_0_r in H2. exact H2.
Qed.
Print Assumptions C101_straight.

(** the motors and gains of C86: a move of 1 m that starts and ends at half the allowed speed; the mouse drives at that speed.
    Here are the targets of the first second. *)
Definition speeds_of (t : option (@target Rops)) : @control_target Rops :=
  match t with Some t => @ControlTarget Rops (tv (t_x t)) (ta (t_x t)) 0%R 0%R | None => @ControlTarget Rops 0%R 0%R 0%R 0%R end.
Example C101_case w : stable_gains (1865 / 1000) (4443 / 10000) (1 / 1000) run_trans /\
  stable_gains (8239 / 100) (2855 / 10000) (1 / 1000) run_rot /\
  forall C, 0 <= C -> let q := 1 / (100 * (C + 1)) in
  let g := @Generator Rops q q q in
  let it := fst (straight_generate_tv (@StraightGenerator Rops g (1 / 1000)%R) 1%R (q / 2)%R (q / 2)%R) in
  let r i := speeds_of (output straight_next i it) in
  let m := run_mouse w (q / 2) in let c := controller_new run_trans run_rot (1 / 1000)%R in
  moves (m_current m) (q / 2) /\ limits g /\ room g (Rabs 1) (q / 2) (q / 2) /\
  (forall i, (i <= 1000)%nat -> exists t, output straight_next i it = Some t /\
     c_v (r i) = tv (t_x t) /\ c_a (r i) = ta (t_x t) /\ c_omega (r i) = 0 /\ c_alpha (r i) = 0) /\
  (g_v_max g + g_a_max g * (4443 / 10000)) / (1865 / 1000)
    + C * (gap m c (r O) (q / 2) + 1 / 1000 * (1 / 1000) * (g_j_max g + g_a_max g / (4443 / 10000 + 1 / 1000))) <= m_max_voltage m.
Proof.
  destruct (C86_case w) as (S1 & S2 & _). split; [exact S1|]. split; [exact S2|]. intros C HC q g it r m c.
  assert (Q : 0 < q) by (unfold q; apply Rdiv_lt_0_compat; lra).
  assert (QC : C * q <= 1 / 100).
  { unfold q. apply Rmult_le_reg_r with (100 * (C + 1)); [lra|]. replace (C * (1 / (100 * (C + 1))) * (100 * (C + 1))) with C by (field; lra). lra. }
  assert (Q1 : q <= 1 / 100).
  { unfold q. apply Rmult_le_reg_r with (100 * (C + 1)); [lra|]. replace (1 / (100 * (C + 1)) * (100 * (C + 1))) with 1 by (field; lra). lra. }
  assert (Lg : limits g) by (unfold limits, g; cbn [g_v_max g_a_max g_j_max]; lra).
  assert (Rm : room g (Rabs 1) (q / 2) (q / 2)).
  { split; [right | left; lra]. intros u Hu. replace u with (q / 2) by lra. unfold ramp_distance, ramp_time.
    replace (q / 2 - q / 2) with 0 by ring. rewrite Rabs_R0. cbn [g_a_max g_j_max g].
    destruct (Rle_dec (q * q / q) 0) as [N|N]; [exfalso; replace (q * q / q) with q in N by (field; lra); lra|].
    replace (0 / q) with 0 by (field; lra). rewrite sqrt_0, Rabs_R1. lra. }
  split; [unfold moves, m, run_mouse, simulator_new; cbn [m_current s_x s_y s_theta sx sv]; rewrite cos_0, sin_0; split; rops; ring|].
  split; [exact Lg|]. split; [exact Rm|].
  destruct (C33_straight_partial g (1 / 1000) 1 (q / 2) (q / 2) Lg ltac:(lra) ltac:(cbn; lra) ltac:(cbn; lra) Rm)
    as (f & T & vt & _ & T0 & Fo & Li & (F1 & F2 & F3) & (F4 & _ & _) & Hvt & _ & _ & Y & Ou).
  fold it in Y, Ou. assert (Sg : sgn 1 = 1) by (unfold sgn; destruct (Rlt_dec 1 0); lra). rewrite Sg in *.
  assert (TT : 1 <= q * T).
  { destruct Fo as (x & v & a & j & ex & Mo & F). destruct (F 0) as (X0 & _); [lra|]. destruct (F T) as (X1 & _); [lra|].
    change (@num Rops) with R in *. rewrite F1 in X0. rewrite F4 in X1. destruct (Rle_lt_or_eq_dec 0 T T0) as [TP|TP]; [|rewrite <- TP in X1; lra].
    destruct (MVT_cor2 x v 0 T TP) as (z & Hz & B); [intros y _; apply (mo_x _ _ _ _ _ _ Mo)|].
    destruct (Li z) as ((_ & V) & _); [lra|]. destruct (F z) as (_ & Vz & _); [lra|]. change (@num Rops) with R in *. rewrite Vz in V. cbn [g_v_max g] in V.
    rewrite <- X0, <- X1 in Hz. replace (1 - 0) with 1 in Hz by ring. replace (T - 0) with T in Hz by ring. rewrite Hz. apply Rmult_le_compat_r; lra. }
  assert (IT : forall i, (i <= 1000)%nat -> INR i * (1 / 1000) <= T).
  { intros i Hi. assert (INR i <= 1000) by (change 1000 with (IZR (Z.of_nat 1000)); rewrite <- INR_IZR_INZ; apply le_INR, Hi). nra. }
  split.
  - intros i Hi. unfold r. rewrite (Ou i (IT i Hi)). eexists. split; [reflexivity|]. cbn [speeds_of c_v c_a c_omega c_alpha t_x]. auto.
  - assert (G : gap m c (r O) (q / 2) = 0).
    { unfold gap, m, c, r. rewrite (Ou O (IT O ltac:(lia))). cbn [speeds_of c_v c_omega t_x]. replace (INR 0 * (1 / 1000)) with 0 by (cbn; ring).
      unfold run_mouse, simulator_new, controller_new. cbn [m_current s_theta sv trans_sum rot_sum]. rops. rewrite F2.
      match goal with |- Rabs ?a + Rabs ?b + Rabs ?d + Rabs ?e = _ => replace a with 0 by (cbn; lra); replace b with 0 by (cbn; lra); replace d with 0 by (cbn; lra); replace e with 0 by (cbn; lra) end.
      rewrite Rabs_R0. ring. }
    rewrite G. cbn [g_v_max g_a_max g_j_max g m_max_voltage m run_mouse simulator_new]. clear -QC Q1 Q HC.
    replace (C * (0 + 1 / 1000 * (1 / 1000) * (q + q / (4443 / 10000 + 1 / 1000)))) with (C * q * (1 / 1000000 * (1 + 10000 / 4453))) by field.
    replace ((q + q * (4443 / 10000)) / (1865 / 1000)) with (q * (14443 / 18650)) by field. nra.
Qed.
