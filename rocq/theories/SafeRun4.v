(** The targets of a run keep clear of the walls: the moves and the whole run. *)
From Coq Require Import ZArith QArith Qreals Reals Lra Lia List Bool Psatz.
From Verif Require Import Base SearchModel SearchSpec RunModel RunSpec RunTraj RunDijk RunThm Num NumLemmas ControlModel TrajModel TrajSpec TrajProofs TrajProofs2 TrajProofs3 TrajProofs4 TrajProofs5
  TrajProofs6 TrajProofs7 TrajProofs8 TrajQuad RouteModel RouteSpec RouteProofs RouteProofs2 RouteProofs3 RouteProofs4 RouteProofs5
  SafeSpec SafeProofs SafeProofs2 SafeProofs3 SafeGrid SafeRun SafeRun2 SafeRun3.
Import ListNotations.
Open Scope R_scope.

Section Run.
Variables (w off p run_v e sl : R) (g : @generator Rops).
Let G := @StraightGenerator Rops g p.
Let V := g_v_max g.
Hypothesis Hw : 0 < w.
Hypothesis Hp : 0 < p.
Hypothesis Lg : limits g.
Hypothesis Hvp : V * p <= w / 50.
Variables (W : Z) (open : coord -> bool).

Definition own_free n : Prop := is_diag (np n) = true -> free W open n 0 0.

Lemma line_clear n (K : R -> Prop) l : 
  (forall x, K x -> safeF (cell_at n) (free W open n) (latR (is_diag (np n)) (x / w) 0) (latA (is_diag (np n)) (x / w) 0)) ->
  Forall (at_ (fun x y => K x /\ y = 0)) l -> Forall (clear W open w (34 / 100 * w)) (map (shift (@pose_of_node Rops n w)) l).
Proof.
  intros HK F. apply Forall_map. revert F. apply Forall_impl. intros t [KT Y].
  eapply safe_clear; [exact Hw | exact (HK _ KT)|].
  assert (FR := node_frame n w t Hw). cbv zeta in FR. rewrite Y in FR.
  replace (- 0 / w) with 0 in FR by (field; lra). exact FR.
Qed.

Lemma leg_clear n m K t v0 v1 v2 l : valid_node W n -> own_free n -> rmove W open n m K t ->
  0 <= v0 <= V -> leg_room w off G t v0 v1 v2 -> plays inner_next (fst (@run_leg Rops w off G t v0 v1 v2)) l ->
  Forall (clear W open w (34 / 100 * w)) (map (shift (@pose_of_node Rops n w)) l).
Proof.
  intros Vn On M H0 (H1 & H2 & LR) PL. cbn [sg_gen G] in H1, H2, LR. fold V in H1, H2.
  destruct Lg as (V0 & _). fold V in V0.
  destruct sqrt2_bounds as [_ SS]. assert (S2 : 0 < sqrt 2) by (apply sqrt_lt_R0; lra).
  destruct t as [x|x|k dir].
  - unfold run_leg in PL. change (@of_int Rops x * w)%num with (IZR x * w)%R in PL.
    assert (X : (1 <= x)%Z /\ is_diag (np n) = false /\ forall j, (1 <= j <= x)%Z -> free W open n 0 (2 * j - 1)) by (inversion M; subst; auto).
    destruct X as (Hx & D & F). assert (X1 : 0 <= IZR x * w) by (apply IZR_le in Hx; nra).
    destruct (straight_leg p g Hp Lg _ _ _ X1 H0 H2 LR) as (_ & l' & P & _). fold G in P.
    assert (SP := straight_points g p (IZR x * w) v0 v2 l' Lg Hp X1 H0 H2 LR P).
    destruct (straight_generate_tv G (IZR x * w)%R v0 v2) as [s vt]. cbn [fst] in *.
    rewrite (plays_unique _ _ _ _ PL (plays_straight _ _ P)). revert SP. apply line_clear. intros y Hy. rewrite D. unfold latR, latA.
    replace (2 * 0) with 0 by ring. apply (straight_safe W open n Vn x); try assumption.
    assert (EY : y = w * (y / w)) by (field; lra). set (q := y / w) in *. rewrite EY in Hy. split; nra.
  - unfold run_leg in PL.
    replace (@of_int Rops x * w / @nsqrt Rops n2)%num with (IZR x * w / sqrt 2)%R in PL by (rops; replace (2 / 1) with 2 by field; reflexivity).
    assert (X : (1 <= x)%Z /\ is_diag (np n) = true /\ forall j, (1 <= j <= x)%Z -> free W open n j j) by (inversion M; subst; auto).
    destruct X as (Hx & D & F).
    assert (X1 : 0 <= IZR x * w / sqrt 2) by (apply IZR_le in Hx; apply Rle_mult_inv_pos; [nra | exact S2]).
    destruct (straight_leg p g Hp Lg _ _ _ X1 H0 H2 LR) as (_ & l' & P & _). fold G in P.
    assert (SP := straight_points g p (IZR x * w / sqrt 2) v0 v2 l' Lg Hp X1 H0 H2 LR P).
    destruct (straight_generate_tv G (IZR x * w / sqrt 2)%R v0 v2) as [s vt]. cbn [fst] in *.
    rewrite (plays_unique _ _ _ _ PL (plays_straight _ _ P)). revert SP. apply line_clear. intros y Hy. rewrite D. unfold latR, latA.
    rewrite Rplus_0_r, Rminus_0_r. apply (diagonal_safe W open n Vn On x); try assumption.
    assert (EY : y = w * (y / w)) by (field; lra). set (q := y / w) in *.
    assert (EI : IZR x * w / sqrt 2 = w * (IZR x / sqrt 2)) by (field; lra). rewrite EY, EI in Hy.
    assert (Q : 0 <= q <= IZR x / sqrt 2) by (split; nra).
    assert (EX : IZR x = sqrt 2 * (IZR x / sqrt 2)) by (field; lra). rewrite EX. split; nra.
  - unfold run_leg in PL. cbv zeta in LR. set (q := @parameters Rops w off (Some k) dir) in *.
    destruct (bend_facts W open n Vn On m K k dir M) as (DG & HF & HC).
    assert (BC := fun t => bend_clear W open n (bend_of k) dir w t Hw DG HF HC).
    apply Forall_map. eapply Forall_impl; [exact BC|].
    assert (LQ : 0 <= l_start q /\ 0 <= l_end q).
    { unfold q, parameters, create_params. destruct k, dir; cbn [l_start l_end]; rops; split; apply Rmult_le_pos; lra. }
    destruct LQ as [L1 L2]. destruct LR as (Rm1 & U0 & Rm2).
    destruct (straight_leg p g Hp Lg _ _ _ L1 H0 H1 Rm1) as (B1 & l1 & P1 & _). fold G in P1, B1.
    assert (SP1 := straight_points g p (l_start q) v0 v1 l1 Lg Hp L1 H0 H1 Rm1 P1).
    unfold generate_slalom_tv in PL. fold G in U0, Rm2.
    destruct (straight_generate_tv G (l_start q) v0 v1) as [s1 u] eqn:E1. cbn [fst snd] in *.
    destruct (straight_leg p g Hp Lg _ _ _ L2 B1 H2 Rm2) as (_ & l3 & P3 & _). fold G in P3.
    assert (SP3 := straight_points g p (l_end q) u v2 l3 Lg Hp L2 B1 H2 Rm2 P3).
    destruct (straight_generate_tv G (l_end q) u v2) as [s3 vt] eqn:E3. cbn [fst snd] in *.
    assert (UP : u * p <= V * p) by (apply Rmult_le_compat_r; fold V in B1; lra).
    destruct (table_ride w off u p (Some k) dir Hw U0 Hp ltac:(cbn [reach]; lra) ltac:(discriminate)) as (l2 & P2 & _). fold q in P2.
    assert (SP2 := run_curve_safe w off u p k dir l2 Hw U0 Hp ltac:(lra) P2).
    assert (EL : l = (l1 ++ l2) ++ map (shift (curve_end q)) l3).
    { apply (plays_unique _ _ _ _ PL). apply plays_slalom. rewrite n0_R. cbn [sg_period G].
      apply plays_app; [apply plays_app; assumption | apply plays_shift, P3]. }
    rewrite EL. clear EL. apply Forall_app. split; [apply Forall_app; split|].
    + revert SP1. apply Forall_impl. intros t [X Y]. exact (start_safe w off _ _ k dir Hw X Y).
    + exact SP2.
    + apply Forall_map. revert SP3. apply Forall_impl. intros t [X Y].
      assert (ES := end_safe w off (tx (t_x t)) k dir Hw X). fold q in ES. rewrite (Rplus_comm (x_curve_end q)), (Rplus_comm (y_curve_end q)) in ES. unfold at_, shift. cbn [t_x t_y tx].
      unfold curve_end. cbn [p_x p_y p_theta]. change (@num Rops) with R in *. rewrite Y. rops. rewrite !Rmult_0_l, Rminus_0_r, Rplus_0_r. exact ES.
Qed.

Lemma own_free_next n m K t : own_free n -> rmove W open n m K t -> own_free m.
Proof.
  intros On M Dm.
  assert (P0 : forall i j s, lands W n i j s m -> free W open n i j -> free W open m 0 0).
  { intros i j s (_ & E & _) F. unfold free in *. replace (place m 0 0) with (Co (nx m) (ny m)); [rewrite E; exact F|].
    unfold place. f_equal; ring. }
  assert (TU : forall i j s, lands W n i j s m -> Z.odd s = xorb (is_diag (np n)) (is_diag (np m))).
  { intros i j s (_ & _ & E). unfold turned in E. apply Z.mod_divide in E; [|lia]. destruct E as [q E].
    assert (ES : s = (dir_num (np m) - dir_num (np n) - 8 * q)%Z) by lia. rewrite ES, !Z.odd_sub, Z.odd_mul.
    destruct (np n), (np m); reflexivity. }
  inversion M as [k D Hk F L|s D Hs F1 F2 L|s D Hs F1 F2 L|s D Hs F1 F2 F3 L|s D Hs F1 F2 F3 L|k D Hk F L|D B F1 L|D B F1 F2 L|D B F1 F2 L|D B F1 L|D B F1 F2 L|D B F1 F2 L]; subst; clear M;
    assert (TL := TU _ _ _ L); rewrite D, Dm in TL; try discriminate TL; try (destruct Hs as [-> | ->]; discriminate TL);
    apply (P0 _ _ _ L); try assumption. apply F. lia.
Qed.

Lemma run_clear n : supported W -> forall l a b goal, rchain W open (a :: b :: l) goal -> valid_node W a -> own_free a ->
  forall i v, route_room w off G run_v e n (a :: b :: l) i v ->
  forall rs ls vend, @run_route_from Rops w off G run_v n (a :: b :: l) i v = Ret (rs, vend) -> Forall2 (plays boxed_next) rs ls ->
  Forall (clear W open w (34 / 100 * w)) (concat ls).
Proof.
  intros HW. induction l as [|b2 l IH]; intros a b goal CH Va Oa i v RR rs ls vend E F.
  - inversion CH as [|? ? ? ? k t M CH']; subst. inversion CH'; subst.
    assert (TK := traj_ok W open a goal k t HW Va M).
    cbn [route_room] in RR. specialize (RR t TK).
    cbn [run_route_from] in E. rewrite TK in E. cbn [bind] in E.
    destruct (@run_speeds Rops run_v i n v) as [[v0 v1] v2]. destruct RR as (_ & B0 & LR & _).
    assert (LC := fun l => leg_clear a goal k t v0 v1 v2 l Va Oa M B0 LR).
    destruct (leg_ride w off p (65 / 10000) g Hw Hp Lg Hvp ltac:(lra) t v0 v1 v2) as (_ & l1 & P1 & _); try assumption.
    { destruct M; try exact I; assumption. }
    { intros _. lra. }
    fold G in P1. specialize (LC l1 P1). destruct (@run_leg Rops w off G t v0 v1 v2) as [j v']. cbn [fst snd] in *.
    injection E as <- <-. inversion F as [|? ? ? ? Q F']; subst. inversion F'; subst.
    rewrite (plays_unique _ _ _ _ Q (plays_boxed _ _ _ P1)). cbn [concat]. rewrite app_nil_r. exact LC.
  - inversion CH as [|? ? ? ? k t M CH']; subst.
    assert (TK := traj_ok W open a b k t HW Va M). assert (Vb := rmove_valid W open a b k t Va M). assert (Ob := own_free_next a b k t Oa M).
    cbn [route_room] in RR. specialize (RR t TK).
    cbn [run_route_from] in E. rewrite TK in E. cbn [bind] in E.
    destruct (@run_speeds Rops run_v i n v) as [[v0 v1] v2]. destruct RR as (_ & B0 & LR & RR).
    assert (LC := fun l => leg_clear a b k t v0 v1 v2 l Va Oa M B0 LR).
    destruct (leg_ride w off p (65 / 10000) g Hw Hp Lg Hvp ltac:(lra) t v0 v1 v2) as (_ & l1 & P1 & _); try assumption.
    { destruct M; try exact I; assumption. }
    { intros _. lra. }
    fold G in P1. specialize (LC l1 P1). destruct (@run_leg Rops w off G t v0 v1 v2) as [j v']. cbn [fst snd] in *.
    change (match trajectory_kind b b2 with Ret _ => _ | Panic => _ | Fuel => _ end) with (@run_route_from Rops w off G run_v n (b :: b2 :: l) (S i) v') in E.
    specialize (IH b b2 goal CH' Vb Ob (S i) v' RR).
    destruct (@run_route_from Rops w off G run_v n (b :: b2 :: l) (S i) v') as [[rs' ve]| |] eqn:E'.
    all: cbn [run_route_from] in E'; rewrite E' in E; cbn [bind fst snd] in E; try discriminate E.
    injection E as <- <-. inversion F as [|? ? ? ? Q F']; subst.
    rewrite (plays_unique _ _ _ _ Q (plays_boxed _ _ _ P1)). cbn [concat]. apply Forall_app. split; [exact LC|].
    exact (IH _ _ _ eq_refl F').
Qed.
End Run.

Lemma clear_mono W open truth w m t : (forall c, valid W c -> open c = true -> truth c = true) ->
  clear W open w m t -> clear W truth w m t.
Proof.
  intros H C c x y [O S] OW. apply (C c x y); [|exact OW]. split; [exact O|]. intros B. specialize (S B).
  destruct (open c) eqn:E; [|reflexivity]. rewrite (H c (conj B O) E) in S. discriminate.
Qed.

Lemma run_route_clear W open is_wall is_goal cost cmax tie start path c (w off run_v e : R) (g : @generator Rops) (p : R) L boxes v_end :
  let v := g_v_max g in let G := @StraightGenerator Rops g p in
  supported W -> (forall x, valid W x -> is_wall x = Ret (negb (open x))) -> (forall k, (0 <= cost k)%Z) -> (0 < cmax)%Z ->
  valid_node W start -> (is_diag (np start) = true -> open (Co (nx start) (ny start)) = true) -> is_goal start = false ->
  run_path W is_goal is_wall cost cmax tie start = Ret (Some (path, c)) ->
  0 < w -> 0 < p -> v * p <= w / 50 -> 0 <= e -> limits g ->
  route_room w off G run_v e (length path) path 0 0 ->
  @run_route Rops w off G run_v path = Ret (boxes, v_end) -> serves boxes L ->
  Forall (clear W open w (34 / 100 * w)) L.
Proof.
  cbv zeta. intros HW Hok Hc Hm Hs Os NG RP Hw Hp Hvp He Lg RR EB SE.
  destruct (run_sound W open is_wall is_goal cost cmax tie start HW Hok Hc Hm Hs path c RP) as (goal & PA & GG).
  destruct (rpath_chain _ _ _ _ _ _ _ _ PA) as [(l' & ->) CH].
  assert (LA : last (start :: l') start = goal).
  { clear -PA. revert PA. generalize (start :: l'). intros l. induction 1; [reflexivity | apply last_last]. }
  destruct l' as [|b l]; [cbn in LA; congruence|].
  set (n := length (start :: b :: l)) in *.
  destruct (run_ride w off p run_v e (65 / 10000) g Hw Hp Lg Hvp He ltac:(lra) W open n HW l start b goal CH Hs ltac:(intros; lra) 0%nat 0 RR)
    as (bx & rs & l1 & ls & ve & E & BV & P1 & N1 & F & NE & RI).
  unfold run_route in EB. fold n in EB. rewrite n0_R in EB. rewrite E in EB. injection EB as <- <-.
  rewrite (serves_unique _ _ _ SE (serves_all _ _ F NE _ _ P1)).
  change (l1 ++ concat ls) with (concat (l1 :: ls)).
  apply (run_clear w off p run_v e g Hw Hp Lg Hvp W open n HW l start b goal CH Hs) with (3 := E) (i := 0%nat) (v := 0); [|exact RR|constructor; assumption].
  intros D. unfold free, place. rewrite !Z.mul_0_l, !Z.add_0_r. destruct Hs as (B1 & B2 & _). split; [split; assumption | exact (Os D)].
Qed.
