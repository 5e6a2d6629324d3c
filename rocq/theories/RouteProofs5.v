(** Joined trajectories: the run. *)
From Coq Require Import ZArith Reals List Bool Lia Lra Psatz.
From Verif Require Import Base SearchModel SearchSpec RunModel RunSpec RunTraj RunDijk RunThm Num NumLemmas ControlModel TrajModel TrajSpec RouteModel RouteSpec
  TrajProofs TrajProofs2 TrajProofs3 TrajProofs4 TrajProofs5 TrajProofs6 TrajProofs7 TrajProofs8 TrajQuad
  RouteProofs RouteProofs2 RouteProofs3 RouteProofs4.
Import ListNotations.
Open Scope R_scope.

(** paths from their start *)
Inductive rchain (W : Z) (open : coord -> bool) : list node -> node -> Prop :=
  | rc_one a : rchain W open [a] a
  | rc_cons a b l e k t : rmove W open a b k t -> rchain W open (b :: l) e -> rchain W open (a :: b :: l) e.

Lemma rchain_snoc W open l b m k t : rchain W open l b -> rmove W open b m k t -> rchain W open (l ++ [m]) m.
Proof.
  intros H M. induction H as [a|a b' l e k' t' M' H IH]; cbn [app] in *.
  - econstructor; [exact M | constructor].
  - econstructor; [exact M' | exact (IH M)].
Qed.
Lemma rpath_chain W open cost cmax a l b c : rpath W open cost cmax a l b c -> (exists l', l = a :: l') /\ rchain W open l b.
Proof.
  induction 1 as [|l b c m k t H [[l' ->] IH] M]; [split; [eexists; reflexivity | constructor]|].
  split; [eexists; reflexivity | exact (rchain_snoc _ _ _ _ _ _ _ IH M)].
Qed.

Lemma ride_shift_ne P l A B va vb d h c : ride l A B va vb d h c -> map (shift P) l <> [].
Proof. intros ((t & l' & -> & _) & _). discriminate. Qed.

Definition is45 (t : rtraj) : bool := match t with RSlalom FastRun45 _ => true | _ => false end.

Section Run.
Variables (w off p run_v e sl : R) (g : @generator Rops).
Let G := @StraightGenerator Rops g p.
Let V := g_v_max g.
Hypothesis Hw : 0 < w.
Hypothesis Hp : 0 < p.
Hypothesis Lg : limits g.
Hypothesis Hvp : V * p <= w / 50.
Hypothesis He : 0 <= e.
Hypothesis Hsl : 1 / 25000 <= sl.
Let h := 3 * (V * p / w).
Let c := Rmax (g_a_max g * p) (V * h).
Let d := V * p + 72 / 1000000 * w + sl * w.

Lemma run_pos : 0 < V /\ 0 < V * p /\ 0 <= h /\ 0 < g_a_max g * p /\ 0 <= c.
Proof.
  destruct Lg as (V0 & A & _). fold V in V0. assert (VP : 0 < V * p) by nra.
  assert (Q : 0 < V * p / w) by (apply Rdiv_lt_0_compat; lra). unfold h.
  assert (AP : 0 < g_a_max g * p) by (apply Rmult_lt_0_compat; assumption).
  repeat split; try lra. apply Rle_trans with (g_a_max g * p); [lra | apply Rmax_l].
Qed.

Lemma straight_leg dist v0 v2 : 0 <= dist -> 0 <= v0 <= V -> 0 <= v2 <= V -> room g dist v0 v2 ->
  let r := straight_generate_tv G dist v0 v2 in
  0 <= snd r <= V /\ exists l, plays straight_next (fst r) l /\ ride l origin (ahead dist) v0 (snd r) (V * p) 0 (g_a_max g * p).
Proof.
  intros Hd H0 H2 Rm. destruct (straight_ride g p dist v0 v2 Lg Hp Hd H0 H2 Rm) as [(B & _) EX]. split; [exact B | exact EX].
Qed.

Lemma leg_ride t v0 v1 v2 : match t with RStraight x | RStraightDiagonal x => (1 <= x)%Z | _ => True end ->
  (is45 t = true -> 65 / 10000 <= sl) -> 0 <= v0 <= V -> leg_room w off G t v0 v1 v2 ->
  let r := @run_leg Rops w off G t v0 v1 v2 in
  0 <= snd r <= V /\ exists l, plays inner_next (fst r) l /\ ride l origin (run_end w off t) v0 (snd r) d h c.
Proof.
  intros Hx H45 H0 (H1 & H2 & LR). destruct run_pos as (V0 & VP & HH & AP & C0). cbn [sg_gen G] in H1, H2, LR. fold V in H1, H2.
  assert (Dd : V * p <= d) by (unfold d; nra). assert (Cc : g_a_max g * p <= c) by apply Rmax_l.
  destruct t as [x|x|k dir].
  - assert (X1 : 0 <= IZR x * w) by (apply IZR_le in Hx; nra).
    destruct (straight_leg _ _ _ X1 H0 H2 LR) as (B & l & P & R). cbv zeta. unfold run_leg.
    change (@of_int Rops x * w)%num with (IZR x * w)%R. destruct (straight_generate_tv G (IZR x * w)%R v0 v2) as [s vt].
    cbn [fst snd] in *. split; [exact B|]. exists l. split; [apply plays_straight, P|].
    eapply ride_weaken; [exact R | exact Dd | exact HH | exact Cc].
  - assert (S2 : 0 < sqrt 2) by (apply sqrt_lt_R0; lra).
    assert (X1 : 0 <= IZR x * w / sqrt 2) by (apply IZR_le in Hx; apply Rle_mult_inv_pos; [nra | exact S2]).
    destruct (straight_leg _ _ _ X1 H0 H2 LR) as (B & l & P & R). cbv zeta. unfold run_leg.
    replace (@of_int Rops x * w / @nsqrt Rops n2)%num with (IZR x * w / sqrt 2)%R by (rops; replace (2 / 1) with 2 by field; reflexivity).
    destruct (straight_generate_tv G (IZR x * w / sqrt 2)%R v0 v2) as [s vt].
    cbn [fst snd] in *. split; [exact B|]. exists l. split; [apply plays_straight, P|].
    eapply ride_weaken; [exact R | exact Dd | exact HH | exact Cc].
  - cbv zeta. unfold run_leg. cbv zeta in LR. set (q := @parameters Rops w off (Some k) dir) in *.
    assert (LQ : 0 <= l_start q /\ 0 <= l_end q).
    { unfold q, parameters, create_params. destruct k, dir; cbn [l_start l_end]; rops; split; apply Rmult_le_pos; lra. }
    destruct LQ as [L1 L2]. destruct LR as (Rm1 & U0 & Rm2).
    destruct (straight_leg _ _ _ L1 H0 H1 Rm1) as (B1 & l1 & P1 & R1).
    unfold generate_slalom_tv. fold G in U0, Rm2.
    destruct (straight_generate_tv G (l_start q) v0 v1) as [s1 u] eqn:E1. cbn [fst snd] in *.
    destruct (straight_leg _ _ _ L2 B1 H2 Rm2) as (B3 & l3 & P3 & R3).
    destruct (straight_generate_tv G (l_end q) u v2) as [s3 vt] eqn:E3. cbn [fst snd] in *.
    split; [exact B3|].
    assert (UP : u * p <= V * p) by (apply Rmult_le_compat_r; lra).
    destruct (table_ride w off u p (Some k) dir Hw U0 Hp ltac:(cbn [reach]; lra) ltac:(discriminate)) as (l2 & P2 & R2). fold q in P2, R2.
    assert (SL : slack (Some k) <= sl) by (destruct k; cbn; try exact Hsl; apply H45; reflexivity).
    assert (SW : slack (Some k) * w <= sl * w) by (apply Rmult_le_compat_r; lra).
    assert (HU : 943 / 100 * (u * p / w / v_low (Some k)) <= h).
    { unfold h, v_low. assert (u * p / w <= V * p / w) by (apply Rmult_le_compat_r; [left; apply Rinv_0_lt_compat; lra | exact UP]).
      assert (0 < u * p / w) by (apply Rdiv_lt_0_compat; nra). lra. }
    assert (R2' : ride l2 (ahead (l_start q)) (curve_end q) u u d h c).
    { eapply ride_weaken; [exact R2 | unfold d; lra | exact HU|].
      eapply Rle_trans; [|apply Rmax_r]. apply Rmult_le_compat; try lra; try exact HU.
      unfold v_low. assert (0 < u * p / w) by (apply Rdiv_lt_0_compat; nra). lra. }
    rewrite n0_R. cbn [sg_period G].
    destruct (slalom_ride q s1 _ s3 l1 l2 l3 v0 u vt (V * p) (g_a_max g * p) d h c P1 P2 P3 R1 R2' R3 Dd HH Cc) as (l & P & R).
    exists l. split; [apply plays_slalom; exact P | exact R].
Qed.

Let D := V * p + 75 / 1000000 * w + sl * w.
Let C := c + e.

Lemma run_ride W open n : supported W -> forall l a b goal, rchain W open (a :: b :: l) goal -> valid_node W a ->
  (forall x y t, (exists l1 l2, a :: b :: l = l1 ++ x :: y :: l2) -> trajectory_kind x y = Ret (Some t) -> is45 t = true -> 65 / 10000 <= sl) ->
  forall i v, route_room w off G run_v e n (a :: b :: l) i v ->
  exists bx rs l1 ls vend, @run_route_from Rops w off G run_v n (a :: b :: l) i v = Ret (bx :: rs, vend) /\ 0 <= vend <= V /\
    plays boxed_next bx l1 /\ l1 <> [] /\ Forall2 (plays boxed_next) rs ls /\ Forall (fun l => l <> []) ls /\
    ride (l1 ++ concat ls) (compose (@pose_of_node Rops a w) origin) (@pose_of_node Rops goal w) (fst (fst (@run_speeds Rops run_v i n v))) vend D h C.
Proof.
  intros HW. destruct run_pos as (V0 & VP & HH & AP & C0).
  induction l as [|b2 l IH]; intros a b goal CH Va H45 i v RR.
  - inversion CH as [|? ? ? ? k t M CH']; subst. inversion CH'; subst.
    assert (TK := traj_ok W open a goal k t HW Va M). assert (Vb := rmove_valid W open a goal k t Va M).
    cbn [route_room] in RR. specialize (RR t TK).
    cbn [run_route_from]. rewrite TK. cbn [bind].
    destruct (@run_speeds Rops run_v i n v) as [[v0 v1] v2]. destruct RR as (_ & B0 & LR & _).
    destruct (leg_ride t v0 v1 v2) as (BV & l1 & P1 & R1); try assumption.
    { destruct M; try exact I; assumption. }
    { intros E. apply (H45 a goal t); [exists [], []; reflexivity | exact TK | exact E]. }
    destruct (@run_leg Rops w off G t v0 v1 v2) as [j v']. cbn [fst snd] in *.
    exists (@Boxed Rops (@pose_of_node Rops a w) j), [], (map (shift (@pose_of_node Rops a w)) l1), [], v'.
    split; [reflexivity|]. split; [exact BV|]. split; [apply plays_boxed, P1|]. split; [exact (ride_shift_ne _ _ _ _ _ _ _ _ _ R1)|]. split; [constructor|]. split; [constructor|].
    cbn [concat]. rewrite app_nil_r.
    assert (N := run_moves_end W a goal t w off HW Va Vb ltac:(lra) TK).
    apply (ride_shift (@pose_of_node Rops a w)) in R1. apply (ride_end _ _ _ _ _ _ v') with (2 := N) in R1.
    rewrite (Rminus_diag_eq v' v' eq_refl), Rabs_R0 in R1. eapply ride_weaken; [exact R1 | unfold d, D; lra | lra | unfold C; lra].
  - inversion CH as [|? ? ? ? k t M CH']; subst.
    assert (TK := traj_ok W open a b k t HW Va M). assert (Vb := rmove_valid W open a b k t Va M).
    cbn [route_room] in RR. specialize (RR t TK).
    cbn [run_route_from]. rewrite TK. cbn [bind].
    destruct (@run_speeds Rops run_v i n v) as [[v0 v1] v2]. destruct RR as (_ & B0 & LR & RR).
    destruct (leg_ride t v0 v1 v2) as (BV & l1 & P1 & R1); try assumption.
    { destruct M; try exact I; assumption. }
    { intros E. apply (H45 a b t); [exists [], (b2 :: l); reflexivity | exact TK | exact E]. }
    destruct (@run_leg Rops w off G t v0 v1 v2) as [j v']. cbn [fst snd] in *.
    assert (H45' : forall x y t, (exists l1 l2, b :: b2 :: l = l1 ++ x :: y :: l2) -> trajectory_kind x y = Ret (Some t) -> is45 t = true -> 65 / 10000 <= sl).
    { intros x y t' (m1 & m2 & EQ). apply H45. exists (a :: m1), m2. rewrite EQ. reflexivity. }
    destruct (IH b b2 goal CH' Vb H45' (S i) v' RR) as (bx & rs & l2 & ls & vend & E & BE & PX & N2 & F & NE & R).
    cbn [run_route_from] in E. rewrite E. cbn [bind fst snd].
    exists (@Boxed Rops (@pose_of_node Rops a w) j), (bx :: rs), (map (shift (@pose_of_node Rops a w)) l1), (l2 :: ls), vend.
    split; [reflexivity|]. split; [exact BE|]. split; [apply plays_boxed, P1|]. split; [exact (ride_shift_ne _ _ _ _ _ _ _ _ _ R1)|]. split; [constructor; assumption|].
    assert (VN : Rabs (v' - fst (fst (@run_speeds Rops run_v (S i) n v'))) <= e).
    { cbn [route_room] in RR. inversion CH' as [|? ? ? ? k2 t2 M2 CH2]; subst. specialize (RR t2 (traj_ok W open b b2 k2 t2 HW Vb M2)).
      destruct (@run_speeds Rops run_v (S i) n v') as [[w0 w1] w2]. destruct RR as (RR & _). exact RR. }
    split.
    { constructor; [exact N2 | exact NE]. }
    cbn [concat].
    assert (N := run_moves_end W a b t w off HW Va Vb ltac:(lra) TK).
    apply (ride_shift (@pose_of_node Rops a w)) in R1.
    apply (ride_app _ _ _ _ _ _ _ _ _ _ _ _ _ _ _ (1 / 1000000 * w) R1 R).
    + eapply near_weaken; [|exact (near_trans _ _ _ _ _ N (compose_origin _))]. lra.
    + lra.
    + unfold d, D. lra.
    + unfold C. lra.
Qed.
End Run.

Lemma smooth_weaken d h c d' h' c' l : smooth d h c l -> d <= d' -> h <= h' -> c <= c' -> smooth d' h' c' l.
Proof. intros S D H C l1 s t l2 E. apply (close_weaken d h c); [exact (S l1 s t l2 E) | assumption | assumption | assumption]. Qed.

Lemma run_joined W open is_wall is_goal cost cmax tie start path c (w off run_v e : R) (g : @generator Rops) (p : R) :
  let v := g_v_max g in let G := @StraightGenerator Rops g p in
  supported W -> (forall x, valid W x -> is_wall x = Ret (negb (open x))) -> (forall k, (0 <= cost k)%Z) -> (0 < cmax)%Z ->
  valid_node W start -> is_goal start = false ->
  run_path W is_goal is_wall cost cmax tie start = Ret (Some (path, c)) ->
  0 < w -> 0 < p -> v * p <= w / 50 -> 0 <= e -> limits g ->
  route_room w off G run_v e (length path) path 0 0 ->
  let turn := 3 * (v * p / w) in
  exists goal boxes v_end L, is_goal goal = true /\ last path start = goal /\
    @run_route Rops w off G run_v path = Ret (boxes, v_end) /\ serves boxes L /\
    (exists t L', L = t :: L' /\ passing (@pose_of_node Rops start w) 0 t) /\
    forall t, passing (@pose_of_node Rops goal w) v_end t ->
      let c := Rmax (g_a_max g * p) (v * turn) + e in
      smooth (v * p + w / 150) turn c (L ++ [t]) /\
      ((forall l1 a b l2 d, path = l1 ++ a :: b :: l2 -> trajectory_kind a b <> Ret (Some (RSlalom FastRun45 d))) ->
       smooth (v * p + w / 8000) turn c (L ++ [t])).
Proof.
  cbv zeta. intros HW Hok Hc Hm Hs NG RP Hw Hp Hvp He Lg RR.
  destruct (run_sound W open is_wall is_goal cost cmax tie start HW Hok Hc Hm Hs path c RP) as (goal & PA & GG).
  destruct (rpath_chain _ _ _ _ _ _ _ _ PA) as [(l' & ->) CH].
  assert (LA : last (start :: l') start = goal).
  { clear -PA. revert PA. generalize (start :: l'). intros l. induction 1; [reflexivity | apply last_last]. }
  destruct l' as [|b l]; [cbn in LA; congruence|].
  set (v := g_v_max g) in *. set (G := @StraightGenerator Rops g p) in *. set (n := length (start :: b :: l)) in *.
  assert (S0 : fst (fst (@run_speeds Rops run_v 0 n 0%R)) = 0) by reflexivity.
  assert (PO : forall t, passing (compose (@pose_of_node Rops start w) origin) 0 t -> passing (@pose_of_node Rops start w) 0 t).
  { intros t. destruct (@pose_of_node Rops start w) as [x y th]. unfold passing, compose, origin. cbn [p_x p_y p_theta]. change (@num Rops) with R.
    rewrite !Rmult_0_l, Rminus_0_r, !Rplus_0_r. tauto. }
  destruct (run_ride w off p run_v e (65 / 10000) g Hw Hp Lg Hvp He ltac:(lra) W open n HW l start b goal CH Hs ltac:(intros; lra) 0%nat 0 RR)
    as (bx & rs & l1 & ls & ve & E & BV & P1 & N1 & F & NE & RI).
  exists goal, (bx :: rs), ve, (l1 ++ concat ls). split; [exact GG|]. split; [exact LA|]. split.
  { unfold run_route. rewrite n0_R. exact E. }
  split; [apply serves_all; assumption|]. rewrite S0 in RI. split.
  { destruct RI as [(t & L' & EQ & P) _]. exists t, L'. split; [exact EQ | exact (PO t P)]. }
  intros t PT. split.
  - eapply smooth_weaken; [exact (ride_passing _ _ _ _ _ _ _ _ _ RI PT) | fold v; lra | apply Rle_refl | apply Rle_refl].
  - intros N45.
    assert (H45 : forall x y t, (exists m1 m2, start :: b :: l = m1 ++ x :: y :: m2) -> trajectory_kind x y = Ret (Some t) -> is45 t = true -> 65 / 10000 <= 1 / 25000).
    { intros x y t0 (m1 & m2 & EQ) TK I45. exfalso. destruct t0 as [| |[] d]; try discriminate. exact (N45 m1 x y m2 d EQ TK). }
    destruct (run_ride w off p run_v e (1 / 25000) g Hw Hp Lg Hvp He ltac:(lra) W open n HW l start b goal CH Hs H45 0%nat 0 RR)
      as (bx' & rs' & l1' & ls' & ve' & E' & _ & P1' & _ & F' & _ & RI').
    rewrite E in E'. injection E' as <- <- <-.
    assert (EL : l1' ++ concat ls' = l1 ++ concat ls).
    { f_equal; [exact (plays_unique _ _ _ _ P1' P1)|]. f_equal. clear -F F'. revert ls' F'. induction F as [|x y rs ls P F IH]; intros ls' F'; inversion F'; subst; [reflexivity|].
      f_equal; [eapply plays_unique; eassumption | apply IH; assumption]. }
    rewrite EL, S0 in RI'.
    eapply smooth_weaken; [exact (ride_passing _ _ _ _ _ _ _ _ _ RI' PT) | fold v; lra | apply Rle_refl | apply Rle_refl].
Qed.
