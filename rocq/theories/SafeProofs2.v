(** Where the points of the trajectories lie. *)
From Coq Require Import ZArith QArith Qreals Reals Lra Lia List Bool Psatz.
From Verif Require Import Base SearchModel SearchSpec RunModel RunSpec Num NumLemmas ControlModel TrajModel TrajSpec TrajProofs TrajProofs2 TrajProofs3 TrajProofs4 TrajProofs5
  TrajProofs6 TrajProofs7 TrajProofs8 TrajQuad TrajCurve TrajCurve2 TrajCurve3 TrajCurve4 RouteModel RouteSpec RouteProofs RouteProofs2 RouteProofs3 RouteProofs4 SafeSpec SafeProofs.
Import ListNotations.
Open Scope R_scope.

Definition at_ (P : R -> R -> Prop) (t : @target Rops) : Prop := P (tx (t_x t)) (tx (t_y t)).

Lemma plays_forall {S} (next : @iterator Rops S) s l (P : @target Rops -> Prop) : plays next s l ->
  (forall k t, output next k s = Some t -> P t) -> Forall P l.
Proof.
  intros PL H. apply Forall_forall. intros t I. apply In_nth_error in I. destruct I as [k E]. rewrite <- PL in E. exact (H k t E).
Qed.

Lemma yields_bound {S} (next : @iterator Rops S) s N k t : yields next s N -> output next k s = Some t -> (k < N)%nat.
Proof. intros Y E. apply Y. congruence. Qed.

(** straights *)
Lemma straight_points (g : @generator Rops) (p dist vs ve : R) l : limits g -> 0 < p -> 0 <= dist ->
  0 <= vs <= g_v_max g -> 0 <= ve <= g_v_max g -> room g dist vs ve ->
  plays straight_next (fst (straight_generate_tv (@StraightGenerator Rops g p) dist vs ve)) l ->
  Forall (at_ (fun x y => 0 <= x <= dist /\ y = 0)) l.
Proof.
  intros Lg Hp Hd Hs He Hr PL.
  assert (Rm : room g (Rabs dist) vs ve) by (rewrite Rabs_pos_eq; assumption).
  destruct (straight_ok g p dist vs ve Lg Hp Hs He Rm) as (f & T & vt & E & T0 & Fo & Bd & (X0 & V0 & _) & (XT & VT & _) & P0 & P1 & P2 & Y & O).
  assert (SG : sgn dist = 1) by (unfold sgn; destruct (Rlt_dec dist 0); lra). rewrite SG, !Rmult_1_l in *.
  apply (plays_forall _ _ _ _ PL). intros k t E'. assert (K := yields_bound _ _ _ _ _ Y E').
  assert (KT := proj2 (floor_count T p k Hp) K). rewrite O in E' by exact KT. injection E' as <-.
  destruct Fo as (x & v & a & j & ex & M & FE).
  unfold at_, line. cbn [t_x t_y tx].
  assert (K0 : 0 <= INR k * p) by (apply Rmult_le_pos; [apply pos_INR | lra]).
  set (u := INR k * p) in *.
  assert (NN : forall s, 0 <= s <= T -> 0 <= v s).
  { intros s Hs'. destruct (FE s Hs') as (_ & EV & _). destruct (Bd s Hs') as ([B1 _] & _). rewrite Rmult_1_l in B1. rewrite EV in B1.
    assert (0 <= Rmin vs vt) by (apply Rmin_glb; lra). lra. }
  destruct (FE u ltac:(lra)) as (Eu & _). destruct (FE 0 ltac:(lra)) as (E0 & _). destruct (FE T ltac:(lra)) as (ET & _).
  assert (M1 := incr_le (fun s => - x s) (fun s => - v s) 0 u 0 K0). cbv beta in M1.
  assert (M2 := incr_le (fun s => - x s) (fun s => - v s) u T 0 KT). cbv beta in M2.
  assert (DX : forall s, derivable_pt_lim (fun s => - x s) s (- v s)) by (intros s; apply derivable_pt_lim_opp, (mo_x _ _ _ _ _ _ M)).
  specialize (M1 (fun s _ => DX s)). specialize (M2 (fun s _ => DX s)).
  assert (Q1 := M1 ltac:(intros s Hs'; assert (NS := NN s ltac:(lra)); lra)).
  assert (Q2 := M2 ltac:(intros s Hs'; assert (NS := NN s ltac:(lra)); lra)).
  rewrite Eu. rewrite <- E0, <- ET, X0, XT in *. split; [lra | reflexivity].
Qed.

Lemma constant_points (dist v p : R) l : 0 <= dist -> 0 < v -> 0 < p ->
  plays straight_next (@straight_generate_constant Rops dist v p) l -> Forall (at_ (fun x y => 0 <= x <= dist /\ y = 0)) l.
Proof.
  intros Hd Hv Hp PL. destruct (constant_ok dist v p Hd Hv Hp) as [Y O].
  apply (plays_forall _ _ _ _ PL). intros k t E. assert (K := yields_bound _ _ _ _ _ Y E).
  rewrite O in E by exact K. injection E as <-. unfold at_, along. cbn [t_x t_y tx].
  assert (KT := proj2 (floor_count (dist / v) p k Hp) K).
  assert (K0 : 0 <= INR k * p) by (apply Rmult_le_pos; [apply pos_INR | lra]).
  split; [|reflexivity]. split; [apply Rmult_le_pos; lra|].
  apply (Rmult_le_compat_l v) in KT; [|lra]. replace (v * (dist / v)) with dist in KT by (field; lra). exact KT.
Qed.

Lemma spin_points (g : @generator Rops) (p d : R) l : limits g -> big_enough g d -> 0 < p ->
  plays spin_next (spin_generate g p d) l -> Forall (at_ (fun x y => x = 0 /\ y = 0)) l.
Proof.
  intros Lg B Hp PL. destruct (spin_ok g p d Lg B Hp) as (f & T & Tu & Y & O).
  apply (plays_forall _ _ _ _ PL). intros k t E. assert (K := yields_bound _ _ _ _ _ Y E).
  rewrite O in E by (apply (floor_count T p k Hp); exact K). injection E as <-. split; reflexivity.
Qed.

Lemma stop_points (q : @pose Rops) (p T : R) l : 0 < p ->
  plays stop_next (@stop_new Rops q p T) l -> Forall (at_ (fun x y => x = p_x q /\ y = p_y q)) l.
Proof.
  intros Hp PL. destruct (stop_sampled T p Hp q) as [Y O].
  apply (plays_forall _ _ _ _ PL). intros k t E. assert (K := yields_bound _ _ _ _ _ Y E).
  rewrite O in E by (apply (ceil_count T p k Hp); exact K). injection E as <-. split; reflexivity.
Qed.

(** curves *)
Lemma quad_error_pos (g : @generator Rops) p : limits g -> 0 < p -> 0 <= quad_error (g_v_max g) (g_a_max g) (g_j_max g) p.
Proof.
  intros (L1 & L2 & L3) Hp. unfold quad_error.
  assert (0 < p * p) by nra. assert (0 < p * p * p) by nra. assert (0 < g_v_max g * p) by nra.
  assert (0 < g_v_max g * g_v_max g) by nra. assert (0 < g_v_max g * g_a_max g) by nra.
  assert (0 < g_v_max g * g_v_max g * g_v_max g) by nra.
  assert (0 < (g_v_max g * g_v_max g + g_a_max g) * (p * p)) by (apply Rmult_lt_0_compat; lra).
  assert (0 < (g_j_max g + 3 * g_v_max g * g_a_max g + g_v_max g * g_v_max g * g_v_max g) * (p * p * p)) by (apply Rmult_lt_0_compat; lra). lra.
Qed.

Lemma create_points (r xm ls le x y vr th w v p : R) (d : sdir) (dq rq m c0 h0 ic is_ : Q) l :
  0 <= r -> 0 <= xm <= 1 / 100 -> 45 / 100 * r * (22 / 100000000 + 7806 / 100 * (xm * xm)) <= 36 / 1000000 ->
  0 < w -> 0 < v -> 0 < p -> 1 <= vr -> v * p <= r * w -> r <= xm * vr -> certified dq rq m c0 h0 ic is_ = true -> th / 180 = Q2R dq ->
  let q := @create_params Rops ls le x y vr th w d in
  let s := @generate_curve Rops p (l_start q) 0%R 0%R (sl_theta q) v (v_ref q) (dtheta q) (ddtheta q) (dddtheta q) in
  let f := @calculate Rops (cu_calc s) in let T := cu_t_end s in
  let sg := match d with SLeft => 1 | SRight => -1 end in
  plays curve_next s l ->
  (exists g, limits g /\ turns f g T 0 (sg * (PI * Q2R dq))) /\
  exists X Y, drives v (fun u => tx (f u)) T (l_start q) 0 X Y /\
    Forall (at_ (fun x y => exists u, 0 <= u <= T /\ Rabs (x - X u) <= 36 / 1000000 * w /\ Rabs (y - Y u) <= 36 / 1000000 * w)) l.
Proof.
  intros HR0 HM0 HRM Hw Hv Hp Hr Hs Hsm C Hth q s f T' sg PL.
  assert (WR : 0 < w * vr) by (apply Rmult_lt_0_compat; lra).
  assert (SG : sg = 1 \/ sg = -1) by (unfold sg; destruct d; auto).
  assert (EQ : sl_theta q = sg * (PI * Q2R dq) /\ v_ref q = w * vr /\ dtheta q = 3 * PI /\ ddtheta q = 36 * PI /\ dddtheta q = 1200 * PI).
  { unfold q, sg, create_params, degree. rewrite <- Hth. destruct d; cbn [sl_theta l_start v_ref dtheta ddtheta dddtheta]; rops;
      repeat split; field. }
  destruct EQ as (E1 & E3 & E4 & E5 & E6).
  destruct (certified_ok _ _ _ _ _ _ _ C) as (D5 & R0 & RD & TH & _).
  set (k := v / (w * vr)). assert (Hk : 0 < k) by (apply Rdiv_lt_0_compat; assumption).
  destruct (closed_turns k dq sg Hk D5 R0 SG) as (Lg & c & T & G & Tu).
  assert (G' := generate_closed k dq sg Hk D5 SG). cbv zeta in G'. rewrite G in G'.
  assert (PC := plan_closed k (Q2R (peakQ dq)) (Q2R dq) sg Hk ltac:(lra) RD). rewrite PC in G'.
  assert (ETT : T = turn_t (Q2R (peakQ dq)) (Q2R dq) / k) by (injection G' as _ E; exact E).
  clear G' PC. set (g := @Generator Rops _ _ _) in *.
  assert (ES : s = @CurveTraj Rops c 0%R T p (l_start q) 0%R v).
  { unfold s, generate_curve. rewrite E1, E3, E4, E5, E6. rewrite n0_R. rops. fold k. change (generate _ _ _ _ _) with (generate g 0%R (sg * (PI * Q2R dq))%R 0%R 0%R). rewrite G. reflexivity. }
  unfold f, T'. rewrite ES in *. cbn [cu_calc cu_t_end].
  assert (T0 : 0 <= T) by (destruct Tu; assumption).
  assert (VT : v * T <= 45 / 100 * (w * vr)).
  { rewrite ETT. replace (v * (turn_t (Q2R (peakQ dq)) (Q2R dq) / k)) with (turn_t (Q2R (peakQ dq)) (Q2R dq) * (w * vr)) by (unfold k; field; lra).
    apply Rmult_le_compat_r; lra. }
  assert (WV : v * p <= xm * (w * vr)) by (apply Rle_trans with (r * w); [exact Hs | nra]).
  assert (QB := curve_quad_bound w (w * vr) v p T r xm Hw Hv Hp WR Hs WV HR0 HM0 HRM T0 VT). cbv zeta in QB. fold k in QB.
  change (k * (3 * PI)) with (g_v_max g) in QB. change (k * k * (36 * PI)) with (g_a_max g) in QB. change (k * k * k * (1200 * PI)) with (g_j_max g) in QB.
  split; [exists g; split; assumption|].
  destruct (curve_positions_at p (l_start q) 0 0 (sg * (PI * Q2R dq)) v g c T Lg Tu Hp ltac:(lra)) as (X & Y & XX0 & YY0 & D & YI & PO).
  exists X, Y. split; [split; [exact XX0 | split; [exact YY0 | exact D]]|].
  apply (plays_forall _ _ _ _ PL). intros i t E. assert (K := yields_bound _ _ _ _ _ YI E).
  assert (KT := proj2 (floor_count T p i Hp) K).
  assert (K0 : 0 <= INR i * p) by (apply Rmult_le_pos; [apply pos_INR | lra]).
  destruct (PO i t E) as (_ & PX & PY).
  assert (QE := quad_error_pos g p Lg Hp).
  assert (LE : v * (INR i * p) * quad_error (g_v_max g) (g_a_max g) (g_j_max g) p <= 36 / 1000000 * w).
  { eapply Rle_trans; [|exact QB]. apply Rmult_le_compat_r; [exact QE|]. apply Rmult_le_compat_l; lra. }
  exists (INR i * p). split; [lra|]. cbv zeta in PX, PY. split; eapply Rle_trans; eassumption.
Qed.

(** a turn by a quarter to the left *)
Lemma quarter_region (v T x0 : R) (th X Y : R -> R) : 0 <= v -> 0 <= T -> drives v th T x0 0 X Y ->
  (forall u, 0 <= u <= T -> 0 <= th u <= PI / 2) -> (forall s t, 0 <= s <= t -> t <= T -> th s <= th t) ->
  forall u, 0 <= u <= T -> 0 <= Y u /\ x0 <= X u <= X T /\ Y u <= Y T /\ Y u - (X u - x0) <= Rmax 0 (Y T - (X T - x0)).
Proof.
  intros Hv HT (X0 & Y0 & D) HB HM u Hu. pose proof PI_RGT_0 as HP.
  assert (SP : forall s, 0 <= s <= T -> 0 <= v * sin (th s)).
  { intros s Hs. apply Rmult_le_pos; [exact Hv|]. destruct (HB s Hs). apply sin_ge_0; lra. }
  assert (CP : forall s, 0 <= s <= T -> 0 <= v * cos (th s)).
  { intros s Hs. apply Rmult_le_pos; [exact Hv|]. destruct (HB s Hs). apply cos_ge_0; lra. }
  assert (MON : forall F F' a b, 0 <= a <= b -> b <= T -> (forall s, 0 <= s <= T -> derivable_pt_lim F s (F' s)) ->
    (forall s, a <= s <= b -> 0 <= F' s) -> F a <= F b).
  { intros F F' a b Ha Hb DF PF.
    assert (Q := incr_le (fun s => - F s) (fun s => - F' s) a b 0 ltac:(lra)). cbv beta in Q.
    specialize (Q ltac:(intros s Hs; apply derivable_pt_lim_opp, DF; lra) ltac:(intros s Hs; specialize (PF s Hs); lra)). lra. }
  assert (DX : forall s, 0 <= s <= T -> derivable_pt_lim X s (v * cos (th s))) by (intros s Hs; apply D, Hs).
  assert (DY : forall s, 0 <= s <= T -> derivable_pt_lim Y s (v * sin (th s))) by (intros s Hs; apply D, Hs).
  split; [rewrite <- Y0; apply (MON Y _ 0 u ltac:(lra) ltac:(lra) DY); intros s Hs; apply SP; lra|].
  split; [split|].
  - rewrite <- X0. apply (MON X _ 0 u ltac:(lra) ltac:(lra) DX). intros s Hs; apply CP; lra.
  - apply (MON X _ u T ltac:(lra) ltac:(lra) DX). intros s Hs; apply CP; lra.
  - split; [apply (MON Y _ u T ltac:(lra) ltac:(lra) DY); intros s Hs; apply SP; lra|].
    destruct (Rle_lt_dec (th u) (PI / 4)) as [L|L].
    + eapply Rle_trans; [|apply Rmax_l].
      assert (Q : X 0 - Y 0 <= X u - Y u); [|lra].
      apply (MON (fun s => X s - Y s) (fun s => v * cos (th s) - v * sin (th s)) 0 u ltac:(lra) ltac:(lra)).
      * intros s Hs. apply derivable_pt_lim_minus; [apply DX, Hs | apply DY, Hs].
      * intros s Hs. assert (TS := HM s u ltac:(lra) ltac:(lra)). destruct (HB s ltac:(lra)) as [B _].
        assert (SC : sin (th s) <= cos (th s)); [|assert (v * sin (th s) <= v * cos (th s)) by (apply Rmult_le_compat_l; assumption); lra].
        apply Rle_trans with (sin (PI / 4)); [apply sin_incr_1; lra|].
        apply Rle_trans with (cos (PI / 4)); [rewrite sin_cos_PI4; lra | apply cos_decr_1; lra].
    + eapply Rle_trans; [|apply Rmax_r].
      assert (Q : Y u - X u <= Y T - X T); [|lra].
      apply (MON (fun s => Y s - X s) (fun s => v * sin (th s) - v * cos (th s)) u T ltac:(lra) ltac:(lra)).
      * intros s Hs. apply derivable_pt_lim_minus; [apply DY, Hs | apply DX, Hs].
      * intros s Hs. assert (TS := HM u s ltac:(lra) ltac:(lra)). destruct (HB s ltac:(lra)) as [_ B].
        assert (SC : cos (th s) <= sin (th s)); [|assert (v * cos (th s) <= v * sin (th s)) by (apply Rmult_le_compat_l; assumption); lra].
        apply Rle_trans with (cos (PI / 4)); [apply cos_decr_1; lra|].
        apply Rle_trans with (sin (PI / 4)); [rewrite sin_cos_PI4; lra | apply sin_incr_1; lra].
Qed.
