(** The targets of a search keep clear of the walls. *)
From Coq Require Import ZArith QArith Qreals Reals Lra Lia List Bool Psatz.
From Flocq Require Import Core.
From Verif Require Import Base SearchModel SearchSpec SearchState RunModel RunSpec Num NumLemmas ControlModel TrajModel TrajSpec TrajProofs TrajProofs2 TrajProofs3 TrajProofs4 TrajProofs5
  TrajProofs6 TrajProofs7 TrajProofs8 TrajQuad TrajCurve TrajCurve2 TrajCurve3 TrajCurve4 RouteModel RouteSpec RouteProofs RouteProofs2 RouteProofs3 RouteProofs4
  SafeSpec SafeProofs SafeProofs2.
Import ListNotations.
Open Scope R_scope.

(** [L] is the only list a queue hands out *)
Lemma serves_unique {K : ops} r L M : serves r L -> serves r M -> L = M.
Proof.
  intros S. revert M. induction S as [r r' E|r t r' l E S IH]; intros M S'; inversion S' as [a b E'|a b c d E' S'']; subst; try congruence.
  rewrite E in E'. injection E' as <- <-. f_equal. apply IH, S''.
Qed.

Definition framed (n : node) (w r a : R) (t : @target Rops) : Prop := tx (t_x t) = w / 2 * fx n r a /\ tx (t_y t) = w / 2 * fy n r a.

Lemma good_target W open n mu cr ca r a w t : 0 < w -> 0 <= mu <= 2 -> cell_at n cr ca -> good W open n mu cr ca r a -> framed n w r a t ->
  clear W open w (mu * (w / 2)) t.
Proof.
  intros Hw Hm HC G [EX EY] c x y S O. assert (Q := good_clear W open n mu cr ca r a Hm HC G c x y S O).
  rewrite EX, EY. unfold dist_euc. rewrite <- (sqrt_Rsqr (mu * (w / 2))) by (apply Rmult_le_pos; lra).
  apply sqrt_le_1_alt. unfold Rsqr, gap2, sq in *.
  replace (mu * (w / 2) * (mu * (w / 2))) with (w / 2 * (w / 2) * (mu * mu)) by ring.
  match goal with |- _ <= ?b => replace b with (w / 2 * (w / 2) * ((fx n r a - x) * (fx n r a - x) + (fy n r a - y) * (fy n r a - y))) by ring end.
  apply Rmult_le_compat_l; [apply Rmult_le_pos; lra | exact Q].
Qed.
Lemma clear_weaken W open w m m' t : m' <= m -> clear W open w m t -> clear W open w m' t.
Proof. intros L C c x y S O. specialize (C c x y S O). lra. Qed.

(** the frame of a search state: its wall, looking ahead *)
Definition wall_node (s : search_state) : node := Nde (cx (ss_coord s)) (cy (ss_coord s)) (post8 (ss_posture s)).

Lemma wall_cells s : Z.odd (cx (ss_coord s) + cy (ss_coord s)) = true -> crosses (ss_coord s) (ss_posture s) ->
  cell_at (wall_node s) 0 1 /\ cell_at (wall_node s) 0 (-1).
Proof.
  destruct s as [[x y] p]. unfold wall_node, cell_at, place, crosses. cbn [ss_coord ss_posture cx cy nx ny np].
  rewrite Z.odd_add. intros P C.
  assert (EX : forall z, Z.even z = negb (Z.odd z)) by (intros; rewrite Z.negb_odd; reflexivity).
  destruct p; cbn [post8 to_right RunSpec.ahead fst snd] in *; rewrite !EX, !Z.odd_add, ?Z.odd_mul; cbn;
  rewrite ?Bool.xorb_false_r; destruct (Z.odd x), (Z.odd y); try discriminate; repeat split.
Qed.

Lemma search_frame (s : search_state) (w off : R) (t : @target Rops) : 0 < w ->
  framed (wall_node s) w (- tx (t_y t) * 2 / w) ((off + tx (t_x t)) * 2 / w) (shift (@pose_of_search Rops s w off) t).
Proof.
  intros Hw. rewrite search_pose. unfold framed, shift. cbn [t_x t_y tx p_x p_y p_theta]. rops. change (@num Rops) with R in *.
  destruct s as [[x y] p]. cbn [ss_coord ss_posture cx cy]. destruct (cs8 (post8 p)) as [-> ->].
  unfold fx, fy, wall_node. cbn [ss_coord ss_posture cx cy nx ny np].
  destruct p; cbn [post8 to_right RunSpec.ahead fst snd C8 S8]; split; field; lra.
Qed.

(** on the line through the middle of an open wall *)
Lemma middle_good W open n e r a : cell_at n 0 1 -> cell_at n 0 (-1) -> free W open n 0 0 -> 0 <= e <= 1 -> - e <= r <= e -> -1 <= a <= 1 ->
  exists ca, cell_at n 0 ca /\ good W open n (1 - e) 0 ca r a.
Proof.
  intros C1 C2 F He Hr Ha. destruct (Rle_lt_dec 0 a) as [L|L].
  - exists 1%Z. split; [exact C1|]. unfold good, gap2. repeat split; try lra; try (right; lra); try (left; exact F).
    intros i j Hi Hj. assert (Q := sq_pos (a - (1 + j))).
    assert (sq (1 - e) <= sq (r - (0 + i))) by (destruct Hi as [->| ->]; sqle). lra.
  - exists (-1)%Z. split; [exact C2|]. unfold good, gap2. repeat split; try lra; try (right; lra); try (left; exact F).
    intros i j Hi Hj. assert (Q := sq_pos (a - (-1 + j))).
    assert (sq (1 - e) <= sq (r - (0 + i))) by (destruct Hi as [->| ->]; sqle). lra.
Qed.

(** in a curve to the side [sg] (1 left, -1 right) *)
Lemma curve_good W open n sg L a : cell_at n 0 1 -> sg = 1%Z \/ sg = (-1)%Z -> free W open n 0 0 -> free W open n (- sg) 1 ->
  - (1 / 1000) <= L <= 1 -> 0 <= a <= 1 + 1 / 1000 -> L <= a - 1111 / 10000 + 1 / 1000 ->
  good W open n (78 / 100) 0 1 (- IZR sg * L) a.
Proof.
  intros C1 Hs F1 F2 HL Ha HC. unfold good, gap2.
  assert (K : sq (78 / 100) <= sq (1 - L) + sq a).
  { assert (S : 11101 / 10000 <= a + (1 - L)) by lra. assert (Q := sq_pos (a - (1 - L))).
    assert (P : sq (11101 / 10000) <= sq (a + (1 - L))) by sqle. unfold sq in *. lra. }
  destruct Hs as [-> | ->]; repeat split; try lra; try (right; lra); try (left; exact F1); try (left; exact F2).
  - intros i j Hi Hj. destruct Hi as [->| ->].
    + assert (Q := sq_pos (a - (1 + j))). assert (sq (78 / 100) <= sq (Ropp 1 * L - (0 + 1))) by sqle. lra.
    + destruct Hj as [->| ->].
      * assert (Q := sq_pos (Ropp 1 * L - (0 + -1))). assert (sq (78 / 100) <= sq (a - (1 + 1))) by sqle. lra.
      * replace (Ropp 1 * L - (0 + -1)) with (1 - L) by ring. replace (a - (1 + -1)) with a by ring. exact K.
  - intros i j Hi Hj. destruct Hi as [->| ->].
    + destruct Hj as [->| ->].
      * assert (Q := sq_pos (- -1 * L - (0 + 1))). assert (sq (78 / 100) <= sq (a - (1 + 1))) by sqle. lra.
      * replace (- -1 * L - (0 + 1)) with (- (1 - L)) by ring. replace (a - (1 + -1)) with a by ring. unfold sq in *. lra.
    + assert (Q := sq_pos (a - (1 + j))). assert (sq (78 / 100) <= sq (- -1 * L - (0 + -1))) by sqle. lra.
Qed.

(** ** The curve of a search *)
Definition sdR (d : sdir) : R := match d with SLeft => 1 | SRight => -1 end.

Lemma turned_quarter (f : R -> @axis4 Rops) g T d v x0 X Y : turns f g T 0 (sdR d * (PI * (1 / 2))) -> 0 <= v ->
  drives v (fun u => tx (f u)) T x0 0 X Y ->
  forall u, 0 <= u <= T -> let L := fun u => sdR d * Y u in
  0 <= L u /\ x0 <= X u <= X T /\ L u <= L T /\ L u - (X u - x0) <= Rmax 0 (L T - (X T - x0)).
Proof.
  intros (T0 & _ & _ & (F0 & _) & (FT & _) & MO) Hv (X0 & Y0 & D). pose proof PI_RGT_0 as HP. rewrite Rplus_0_l in FT.
  assert (HM : forall s t, 0 <= s <= t -> t <= T -> sdR d * tx (f s) <= sdR d * tx (f t)).
  { intros s t Hs Ht. specialize (MO s t Hs Ht). change (@num Rops) with R in *. destruct d; cbn [sdR] in *; destruct (Rlt_dec _ 0); lra. }
  cbv zeta. apply (quarter_region v T x0 (fun u => sdR d * tx (f u)) X (fun u => sdR d * Y u) Hv T0).
  - split; [exact X0|]. split; [rewrite Y0; ring|]. intros u Hu. destruct (D u Hu) as [D1 D2]. destruct d; unfold sdR.
    + replace (-1 * tx (f u)) with (- tx (f u)) by (change (@num Rops) with R; ring). rewrite cos_neg, sin_neg. split; [exact D1|].
      replace (v * - sin (tx (f u))) with (-1 * (v * sin (tx (f u)))) by (change (@num Rops) with R; ring). apply derivable_pt_lim_scal, D2.
    + split; [replace (cos (1 * tx (f u))) with (cos (tx (f u))) by (f_equal; symmetry; apply Rmult_1_l); exact D1|].
      replace (v * sin (1 * tx (f u))) with (1 * (v * sin (tx (f u)))) by (rewrite Rmult_1_l; f_equal; f_equal; symmetry; apply Rmult_1_l). apply derivable_pt_lim_scal, D2.
  - intros u Hu. assert (A := HM 0 u ltac:(lra) ltac:(lra)). assert (B := HM u T ltac:(lra) ltac:(lra)). rewrite F0 in A. rewrite FT in B.
    change (@num Rops) with R in *. destruct d; cbn [sdR] in *; lra.
  - intros s t Hs Ht. exact (HM s t Hs Ht).
Qed.

Lemma search_curve_points (w off v p : R) d l : w = 9 / 100 -> 0 < v -> 0 < p -> v * p <= w / 100 -> off <= 30 / 1000 ->
  let q := @parameters Rops w off None d in
  let s := @generate_curve Rops p (l_start q) 0%R 0%R (sl_theta q) v (v_ref q) (dtheta q) (ddtheta q) (dddtheta q) in
  plays curve_next s l ->
  Forall (at_ (fun x y => let L := sdR d * y in let e := w / 5000 in
    - e <= L <= sdR d * y_curve_end q + e /\ l_start q - e <= x <= x_curve_end q + e /\ L <= x - l_start q + e)) l.
Proof.
  intros Hw Hv Hp Hvp Ho q s PL.
  assert (CP : (exists g, limits g /\ turns (@calculate Rops (cu_calc s)) g (cu_t_end s) 0 (sdR d * (PI * (1 / 2)))) /\
    exists X Y, drives v (fun u => tx (@calculate Rops (cu_calc s) u)) (cu_t_end s) (l_start q) 0 X Y /\
    Forall (at_ (fun x y => exists u, 0 <= u <= cu_t_end s /\ Rabs (x - X u) <= 36 / 1000000 * w /\ Rabs (y - Y u) <= 36 / 1000000 * w)) l).
  { revert PL. unfold s, q, parameters, search90_params. rops.
    assert (Q2 : Q2R (1 # 2) = 1 / 2) by (rewrite q2r; lra). rewrite <- Q2.
    destruct (Rleb_spec (off / (9 / 100)) (55555556 / 1000000000)) as [L|L]; intros PL.
    - eapply create_points with (r := 1 / 100) (xm := 1 / 100) (10 := cert90); try exact PL; try assumption; rops; rewrite ?q2r; lra.
    - eapply create_points with (r := 1 / 100) (xm := 1 / 100) (10 := cert90); try exact PL; try assumption; rops; rewrite ?q2r; lra. }
  destruct CP as ((g & Lg & Tu) & X & Y & DR & F).
  destruct (proj2 (curve_ends w off v p None d ltac:(lra) Hv ltac:(intros _; lra) ltac:(discriminate)) X Y DR) as [EX EY].
  fold q in EX, EY. fold s in EX, EY.
  assert (EQ : sdR d * y_curve_end q - (x_curve_end q - l_start q) <= w / 1000000).
  { unfold q, parameters, search90_params. rops. destruct (Rleb_spec (off / (9 / 100)) (55555556 / 1000000000)) as [L|L];
    unfold create_params, sdR; destruct d; cbn [x_curve_end y_curve_end l_start]; rops; change (@num Rops) with R; rewrite Hw; lra. }
  apply Forall_forall. intros t I. rewrite Forall_forall in F. destruct (F t I) as (u & Hu & PX & PY).
  unfold at_ in *. destruct (turned_quarter _ g _ d v _ X Y Tu ltac:(lra) DR u Hu) as (B1 & B2 & B3 & B4). cbv zeta in *.
  assert (W0 : 0 < w) by lra.
  apply Rabs_le_inv in PX, PY, EX, EY.
  assert (B5 : sdR d * Y u - (X u - l_start q) <= w / 20000).
  { eapply Rle_trans; [exact B4|]. change (@num Rops) with R in *. apply Rmax_lub; [lra|]. destruct d; cbn [sdR] in *; lra. }
  change (@num Rops) with R in *. destruct d; cbn [sdR] in *; lra.
Qed.

(** the frame after a move *)
Ltac rring := match goal with |- @eq _ ?a ?b => change (@eq R a b) end; ring.
Definition exit_of (k : traj_kind) : Z * Z := match k with Front => (0, 2) | Right => (1, 1) | Left => (-1, 1) | Back => (0, 0) end%Z.
Lemma next_frame s n k s' w r a t : moves (ss_coord s) (ss_posture s) n k (ss_coord s') (ss_posture s') ->
  ss_coord s' = place (wall_node s) (fst (exit_of k)) (snd (exit_of k)) /\
  (framed (wall_node s) w r a t ->
   match k with
   | Front => framed (wall_node s') w r (a - 2) t
   | Left => framed (wall_node s') w (a - 1) (-1 - r) t
   | Right => framed (wall_node s') w (1 - a) (r - 1) t
   | Back => True
   end).
Proof.
  destruct s as [[x y] p], s' as [c' p']. cbn [ss_coord ss_posture]. intros M. destruct M as [E|E|E|q I E]; [subst n; split..|].
  - unfold plus, place, wall_node. destruct p; cbn; f_equal; ring.
  - intros [EX EY]. unfold framed, fx, fy, wall_node in *. rewrite EX, EY. unfold plus.
    destruct p; cbn [ss_coord ss_posture post8 to_right RunSpec.ahead fst snd pvec turn_left turn_right reverse cx cy nx ny np]; rewrite !plus_IZR; split; rring.
  - unfold plus, place, wall_node. destruct p; cbn; f_equal; ring.
  - intros [EX EY]. unfold framed, fx, fy, wall_node in *. rewrite EX, EY. unfold plus.
    destruct p; cbn [ss_coord ss_posture post8 to_right RunSpec.ahead fst snd pvec turn_left turn_right reverse cx cy nx ny np]; rewrite !plus_IZR; split; rring.
  - unfold plus, place, wall_node. destruct p; cbn; f_equal; ring.
  - intros [EX EY]. unfold framed, fx, fy, wall_node in *. rewrite EX, EY. unfold plus.
    destruct p; cbn [ss_coord ss_posture post8 to_right RunSpec.ahead fst snd pvec turn_left turn_right reverse cx cy nx ny np]; rewrite !plus_IZR; split; rring.
  - split; [|trivial]. unfold place, wall_node. destruct p; cbn; f_equal; ring.
Qed.

Lemma middle_clear W open s w r a t : 0 < w -> valid W (ss_coord s) -> crosses (ss_coord s) (ss_posture s) -> open (ss_coord s) = true ->
  framed (wall_node s) w r a t -> - (1 / 1000) <= r <= 1 / 1000 -> -1 <= a <= 1 -> clear W open w (39 / 100 * w) t.
Proof.
  intros Hw [VB VO] Cs Os F Hr Ha. destruct (wall_cells s VO Cs) as [C1 C2].
  assert (P0 : place (wall_node s) 0 0 = ss_coord s) by (unfold place, wall_node; destruct s as [[x y] p]; cbn; f_equal; ring).
  assert (FR : free W open (wall_node s) 0 0) by (split; rewrite P0; assumption).
  destruct (middle_good W open (wall_node s) (1 / 1000) r a C1 C2 FR ltac:(lra) Hr Ha) as (ca & CC & G).
  apply (clear_weaken _ _ _ ((1 - 1 / 1000) * (w / 2))); [lra|].
  exact (good_target W open _ (1 - 1 / 1000) 0 ca r a w t Hw ltac:(lra) CC G F).
Qed.

Lemma room_same g v : limits g -> 0 < v -> forall d, 0 < d -> room g d v v.
Proof.
  intros Lg V d D. split; [|left; exact V]. right. intros u Hu. replace u with v by lra.
  assert (Z : ramp_distance (g_a_max g) (g_j_max g) v v = 0); [|lra].
  unfold ramp_distance. rewrite (Rminus_diag_eq v v eq_refl), Rabs_R0.
  destruct Lg as (_ & La & Lj). assert (0 < g_a_max g * g_a_max g / g_j_max g) by (apply Rdiv_lt_0_compat; nra).
  unfold ramp_time. destruct (Rle_dec _ _); [lra|]. replace (0 / g_j_max g) with 0 by (field; lra). rewrite sqrt_0. ring.
Qed.

Section Search.
Variables (W : Z) (open : coord -> bool).
Variables (w off p stop : R) (g : @generator Rops) (sg : @generator Rops).
Let G := @StraightGenerator Rops g p.
Let v := g_v_max g.
Hypothesis Hw : w = 9 / 100.
Hypothesis Ho : - (5 / 1000) <= off <= 30 / 1000.
Hypothesis Hp : 0 < p.
Hypothesis Lg : limits g.
Hypothesis Ls : limits sg.
Hypothesis Bs : big_enough sg PI.
Hypothesis Hvp : v * p <= w / 100.
Hypothesis Hst : 0 < stop.
Hypothesis Rs : room g (w / 2 - off) v 0.
Hypothesis Re : room g (w / 2 + off) 0 v.

Let ok (s : search_state) : Prop := valid W (ss_coord s) /\ crosses (ss_coord s) (ss_posture s) /\ open (ss_coord s) = true.
Let C := clear W open w (39 / 100 * w).

Lemma posW : 0 < w. Proof. rewrite Hw. lra. Qed.
Lemma posV : 0 < v. Proof. destruct Lg. assumption. Qed.

(** a point ahead of the pose of a state, not farther than the middle of the next cell *)
Lemma axis_clear s t : ok s -> at_ (fun x y => y = 0 /\ - (w / 2) <= off + x <= w / 2) t -> C (shift (@pose_of_search Rops s w off) t).
Proof.
  intros (V1 & V2 & V3) [Ey Ex]. assert (W0 := posW). assert (F := search_frame s w off t W0). rewrite Ey in F.
  eapply middle_clear; try eassumption.
  - replace (-0 * 2 / w) with 0 by (field; lra). lra.
  - change (@num Rops) with R in *. split; apply Rmult_le_reg_r with (w / 2); try lra;
    replace ((off + tx (t_x t)) * 2 / w * (w / 2)) with (off + tx (t_x t)) by (change (@num Rops) with R in *; field; lra); lra.
Qed.

Lemma front_clear s n s' l : ok s -> ok s' -> moves (ss_coord s) (ss_posture s) n Front (ss_coord s') (ss_posture s') ->
  plays inner_next (@search_move Rops w off G sg stop Front) l -> Forall C (map (shift (@pose_of_search Rops s w off)) l).
Proof.
  intros S1 S2 M PL. assert (W0 := posW). assert (V := posV).
  destruct (straight_ride g p w v v Lg Hp ltac:(lra) ltac:(fold v; lra) ltac:(fold v; lra)) as [_ (l' & P & _)].
  { apply room_same; [exact Lg | exact V | lra]. }
  assert (E := plays_unique _ _ _ _ PL (plays_straight _ _ P)). subst l'.
  apply straight_points in P; try assumption; try (fold v; lra); [|apply room_same; [exact Lg | exact V | lra]].
  apply Forall_map. revert P. apply Forall_impl. intros t [Ex Ey].
  destruct (Rle_lt_dec (off + tx (t_x t)) (w / 2)) as [L|L].
  - apply axis_clear; [exact S1|]. split; [exact Ey|]. change (@num Rops) with R in *. lra.
  - assert (F := search_frame s w off t W0). rewrite Ey in F.
    destruct (next_frame s n Front s' w (Ropp 0 * 2 / w) ((off + tx (t_x t)) * 2 / w) (shift (@pose_of_search Rops s w off) t) M) as [_ NF]. specialize (NF F). cbv beta iota in NF.
    destruct S2 as (V1 & V2 & V3). eapply middle_clear; try eassumption.
    + replace (-0 * 2 / w) with 0 by (field; lra). lra.
    + change (@num Rops) with R in *. split; apply Rmult_le_reg_r with (w / 2); try lra;
      replace (((off + tx (t_x t)) * 2 / w - 2) * (w / 2)) with (off + tx (t_x t) - w) by (change (@num Rops) with R in *; field; lra); lra.
Qed.
Definition kd (d : sdir) : traj_kind := match d with SLeft => Left | SRight => Right end.

Lemma search_params d : let q := @parameters Rops w off None d in let a := (off + l_start q) / w in
  0 <= l_start q /\ 0 <= l_end q /\ 555555 / 10000000 <= a /\ off + l_start q <= w / 2 /\
  x_curve_end q = w / 2 - off /\ sdR d * y_curve_end q <= w / 2 - w / 20 /\
  w / 10 <= sdR d * y_curve_end q /\ sdR d * y_curve_end q + l_end q <= w / 2 + off + w / 1000000 /\
  sl_theta q = sdR d * (PI / 2).
Proof.
  cbv zeta. unfold parameters, search90_params. rops. destruct (Rleb_spec (off / (9 / 100)) (55555556 / 1000000000)) as [L|L];
    unfold create_params, degree, sdR; destruct d; cbn [l_start l_end x_curve_end y_curve_end sl_theta]; rops; change (@num Rops) with R; rewrite Hw;
    repeat split; try lra; try field.
Qed.

Lemma slalom_clear d s n s' l : ok s -> ok s' -> moves (ss_coord s) (ss_posture s) n (kd d) (ss_coord s') (ss_posture s') ->
  plays inner_next (@search_move Rops w off G sg stop (kd d)) l -> Forall C (map (shift (@pose_of_search Rops s w off)) l).
Proof.
  intros S1 S2 M PL. assert (W0 := posW). assert (V := posV).
  set (q := @parameters Rops w off None d).
  destruct (search_params d) as (L1 & L2 & A0 & A1 & XE & YE1 & YE2 & YE3 & TH). fold q in L1, L2, A0, A1, XE, YE1, YE2, YE3, TH.
  destruct (constant_ride (l_start q) v p L1 V Hp) as (l1 & P1 & _).
  destruct (constant_ride (l_end q) v p L2 V Hp) as (l3 & P3 & _).
  destruct (table_ride w off v p None d ltac:(lra) V Hp ltac:(cbn [reach]; lra) ltac:(intros _; lra)) as (l2 & P2 & _). fold q in P2.
  assert (E : l = (l1 ++ l2) ++ map (shift (curve_end q)) l3).
  { apply (plays_unique _ _ _ _ PL). replace (@search_move Rops w off G sg stop (kd d)) with (ISlalom q (@generate_constant_slalom Rops p q v)) by (destruct d; reflexivity).
    apply plays_slalom. unfold generate_constant_slalom. rewrite !n0_R. apply plays_app; [apply plays_app; assumption | apply plays_shift, P3]. }
  subst l. rewrite !map_app. apply constant_points in P1; try assumption. apply constant_points in P3; try assumption.
  apply search_curve_points in P2; try assumption; try lra.
  destruct (next_frame s n (kd d) s' w 0 0 (shift (@pose_of_search Rops s w off) (line (@Axis4 Rops 0%R 0%R 0%R 0%R))) M) as [EC _].
  apply Forall_app. split; [apply Forall_app; split|]; apply Forall_map.
  - revert P1. apply Forall_impl. intros t [Ex Ey]. apply axis_clear; [exact S1|]. split; [exact Ey|]. change (@num Rops) with R in *. lra.
  - revert P2. apply Forall_impl. intros t. unfold at_. cbv zeta. fold q. intros ([B1 B2] & [B3 B4] & B5).
    assert (F := search_frame s w off t W0). set (y := tx (t_y t)) in *. set (x := tx (t_x t)) in *.
    destruct S1 as (V1 & V2 & V3). destruct (wall_cells s (proj2 V1) V2) as [C1 _].
    assert (P0 : place (wall_node s) 0 0 = ss_coord s) by (unfold place, wall_node; destruct s as [[? ?] ?]; cbn; f_equal; ring).
    assert (FR : free W open (wall_node s) 0 0) by (split; rewrite P0; [apply V1 | assumption]).
    set (z := match d with SLeft => 1 | SRight => -1 end%Z).
    assert (FE : free W open (wall_node s) (- z) 1).
    { destruct S2 as ((W1 & _) & _ & W2). rewrite EC in W1, W2. unfold z. split; destruct d; assumption. }
    assert (GD := curve_good W open (wall_node s) z (sdR d * y * 2 / w) ((off + x) * 2 / w) C1 ltac:(unfold z; destruct d; auto) FR FE).
    assert (H : forall a, a / w * w = a) by (intros; field; lra).
    assert (SC : forall a b, a <= b -> a * (2 / w) <= b * (2 / w)).
    { intros a b Q. apply Rmult_le_compat_r; [|exact Q]. apply Rlt_le, Rdiv_lt_0_compat; lra. }
    change (@num Rops) with R in *.
    assert (K1 := SC _ _ B1). assert (K2 := SC _ _ B2). assert (K3 := SC _ _ B3). assert (K4 := SC _ _ B4). assert (K5 := SC _ _ B5).
    assert (WW : forall c, c * w * (2 / w) = 2 * c) by (intros; field; lra).
    assert (U1 : w / 5000 * (2 / w) = 4 / 10000) by (field; lra).
    rewrite XE in *.
    assert (G1 : - (1 / 1000) <= sdR d * y * 2 / w <= 1).
    { replace (sdR d * y * 2 / w) with (sdR d * y * (2 / w)) by (field; lra). split.
      - replace (- (w / 5000) * (2 / w)) with (- (4 / 10000)) in K1 by (field; lra). lra.
      - assert (K6 := SC _ _ YE1). replace ((w / 2 - w / 20) * (2 / w)) with (9 / 10) in K6 by (field; lra).
        rewrite Rmult_plus_distr_r, U1 in K2. lra. }
    assert (G2 : 0 <= (off + x) * 2 / w <= 1 + 1 / 1000).
    { replace ((off + x) * 2 / w) with ((off + x) * (2 / w)) by (field; lra). split.
      - assert (K6 : 555555 / 10000000 * w <= off + l_start q) by (apply (Rmult_le_compat_r w) in A0; [rewrite H in A0; exact A0 | lra]).
        apply Rmult_le_pos; [lra|]. apply Rlt_le, Rdiv_lt_0_compat; lra.
      - assert (K6 : off + x <= w / 2 + w / 5000) by lra. apply SC in K6.
        replace ((w / 2 + w / 5000) * (2 / w)) with (1 + 4 / 10000) in K6 by (field; lra). lra. }
    assert (G3 : sdR d * y * 2 / w <= (off + x) * 2 / w - 1111 / 10000 + 1 / 1000).
    { replace (sdR d * y * 2 / w) with (sdR d * y * (2 / w)) by (field; lra). eapply Rle_trans; [exact K5|].
      replace ((x - l_start q + w / 5000) * (2 / w)) with ((off + x) * 2 / w - (off + l_start q) / w * 2 + 4 / 10000) by (field; lra). lra. }
    specialize (GD G1 G2 G3).
    assert (EM : 39 / 100 * w = 78 / 100 * (w / 2)) by field. unfold C. rewrite EM.
    apply (good_target W open (wall_node s) (78 / 100) 0 1 _ _ w _ W0 ltac:(lra) C1 GD).
    replace (- IZR z * (sdR d * y * 2 / w)) with (- y * 2 / w); [exact F|]. unfold z. destruct d; cbn [sdR]; field; lra.
  - apply Forall_map. revert P3. apply Forall_impl. intros t [Ex Ey].
    assert (F := search_frame s w off (shift (curve_end q) t) W0).
    assert (NF := proj2 (next_frame s n (kd d) s' w _ _ _ M) F). clear F.
    assert (EQ : (tx (t_x (shift (curve_end q) t)) : R) = w / 2 - off /\ (tx (t_y (shift (curve_end q) t)) : R) = y_curve_end q + sdR d * tx (t_x t)).
    { unfold shift, curve_end. cbn [t_x t_y tx p_x p_y p_theta]. rewrite Ey, XE, TH. rops. change (@num Rops) with R.
      destruct d; cbn [sdR].
      - replace (-1 * (PI / 2)) with (- (PI / 2)) by field. rewrite cos_neg, sin_neg, cos_PI2, sin_PI2. split; ring.
      - rewrite Rmult_1_l, cos_PI2, sin_PI2. split; ring. }
    destruct EQ as [E1 E2]. rewrite E1, E2 in NF.
    assert (SC : forall a b, a <= b -> a * (2 / w) <= b * (2 / w)).
    { intros a b Q. apply Rmult_le_compat_r; [|exact Q]. apply Rlt_le, Rdiv_lt_0_compat; lra. }
    change (@num Rops) with R in *.
    assert (K1 : w / 10 <= sdR d * y_curve_end q + tx (t_x t)) by lra. assert (K2 : sdR d * y_curve_end q + tx (t_x t) <= w / 2 + 4 / 10 * w) by lra.
    apply SC in K1, K2. replace (w / 10 * (2 / w)) with (2 / 10) in K1 by (field; lra).
    replace ((w / 2 + 4 / 10 * w) * (2 / w)) with (18 / 10) in K2 by (field; lra).
    destruct S2 as (V1 & V2 & V3).
    destruct d; cbn [kd sdR] in *; (eapply middle_clear; [exact W0 | exact V1 | exact V2 | exact V3 | exact NF | |]).
    + replace (1 - (off + (w / 2 - off)) * 2 / w) with 0 by (field; lra). lra.
    + replace (- (y_curve_end q + -1 * tx (t_x t)) * 2 / w) with ((-1 * y_curve_end q + tx (t_x t)) * (2 / w)) by (field; lra). lra.
    + replace ((off + (w / 2 - off)) * 2 / w - 1) with 0 by (field; lra). lra.
    + replace (- (y_curve_end q + 1 * tx (t_x t)) * 2 / w) with (- ((1 * y_curve_end q + tx (t_x t)) * (2 / w))) by (field; lra). lra.
Qed.

Lemma back_clear s l : ok s ->
  plays inner_next (@search_move Rops w off G sg stop Back) l -> Forall C (map (shift (@pose_of_search Rops s w off)) l).
Proof.
  intros S1 PL. assert (W0 := posW). assert (V := posV).
  revert PL. unfold search_move. cbn [sg_gen sg_period G]. fold G v.
  assert (D180 : @degree Rops (lit 180 1) = PI) by (unfold degree; rops; field).
  rewrite D180.
  rops. replace (2 / 1) with 2 by field. replace (0 / 1) with 0 by field. change (@num Rops) with R in *.
  set (P := @Pose Rops (w / 2 - off)%R 0%R 0%R). set (Q := @Pose Rops (w / 2 - off)%R 0%R PI). intros PL.
  destruct (straight_ride g p (w / 2 - off) v 0 Lg Hp ltac:(lra) ltac:(fold v; lra) ltac:(fold v; lra) Rs) as [_ (l1 & P1 & _)].
  destruct (straight_ride g p (w / 2 + off) 0 v Lg Hp ltac:(lra) ltac:(fold v; lra) ltac:(fold v; lra) Re) as [_ (l5 & P5 & _)].
  destruct (stop_ride P p stop Hp Hst) as (l2 & P2 & _).
  destruct (spin_ride sg p PI Ls Bs Hp) as (l3 & P3 & _).
  destruct (stop_ride Q p stop Hp Hst) as (l4 & P4 & _).
  assert (E : l = ((((l1 ++ l2) ++ map (shift P) l3) ++ l4) ++ map (shift Q) l5)).
  { apply (plays_unique _ _ _ _ PL). apply plays_back. unfold back_next. apply plays_app; [|apply plays_shift; exact P5].
    apply plays_app; [|exact P4]. apply plays_app; [|apply plays_shift; exact P3]. apply plays_app; [exact P1 | exact P2]. }
  subst l. clear PL.
  apply straight_points in P1; try assumption; try (fold v; lra). apply straight_points in P5; try assumption; try (fold v; lra).
  apply stop_points in P2; [|exact Hp]. apply stop_points in P4; [|exact Hp]. apply spin_points in P3; try assumption.
  apply Forall_map. apply Forall_impl with (P := at_ (fun x y => y = 0 /\ - (w / 2) <= off + x <= w / 2)); [intros t T; apply axis_clear; assumption|].
  repeat (apply Forall_app; split).
  - revert P1. apply Forall_impl. intros t [Ex Ey]. split; [exact Ey|]. change (@num Rops) with R in *. lra.
  - revert P2. apply Forall_impl. intros t [Ex Ey]. split; [exact Ey|]. rewrite Ex. unfold P. cbn [p_x]. lra.
  - apply Forall_map. revert P3. apply Forall_impl. intros t [Ex Ey]. unfold at_, shift, P. cbn [t_x t_y tx p_x p_y p_theta]. rewrite Ex, Ey. rops. change (@num Rops) with R.
    rewrite cos_0, sin_0. split; [ring | lra].
  - revert P4. apply Forall_impl. intros t [Ex Ey]. split; [exact Ey|]. rewrite Ex. unfold Q. cbn [p_x]. lra.
  - apply Forall_map. revert P5. apply Forall_impl. intros t [Ex Ey]. unfold at_, shift, Q. cbn [t_x t_y tx p_x p_y p_theta]. rewrite Ey. rops. change (@num Rops) with R in *.
    rewrite cos_PI, sin_PI. split; [ring | lra].
Qed.

Lemma move_clear s n k s' l : ok s -> ok s' -> moves (ss_coord s) (ss_posture s) n k (ss_coord s') (ss_posture s') ->
  plays inner_next (@search_move Rops w off G sg stop k) l -> Forall C (map (shift (@pose_of_search Rops s w off)) l).
Proof.
  intros S1 S2 M PL. destruct k.
  - exact (front_clear s n s' l S1 S2 M PL).
  - exact (slalom_clear SRight s n s' l S1 S2 M PL).
  - exact (slalom_clear SLeft s n s' l S1 S2 M PL).
  - exact (back_clear s l S1 PL).
Qed.

Hypothesis Rf : ramp_distance (g_a_max g) (g_j_max g) 0 v < w / 2 + off.
Let box (sk : search_state * traj_kind) : @boxed Rops :=
  @Boxed Rops (@pose_of_search Rops (fst sk) w off) (@search_move Rops w off G sg stop (snd sk)).

Lemma moves_clear : supported W -> forall s l e, walks W s l e -> valid W (ss_coord s) -> crosses (ss_coord s) (ss_posture s) ->
  Forall (fun sk => open (ss_coord (fst sk)) = true) l -> open (ss_coord e) = true ->
  exists ls, Forall2 (plays boxed_next) (map box l) ls /\ Forall (fun l => l <> []) ls /\ Forall C (concat ls).
Proof.
  intros HW s l e WK. induction WK as [s|s n k s' l e Vn U WK IH]; intros Vs Cs OL OE.
  - exists []. repeat split; constructor.
  - inversion_clear OL as [|? ? Os OL']. cbn [fst] in Os.
    destruct (one_move w off p stop g sg Hw Ho Hp Lg Ls Bs Hvp Hst Rs Re Rf k) as (l2 & v2 & _ & P2 & R2). fold G in P2.
    destruct (search_state_ok W HW) as (_ & US & _).
    destruct (US s n Vs Vn Cs) as [(_ & k1 & c1 & p1 & E1 & M & Vc & Cc)|(_ & E1)]; [|congruence].
    rewrite U in E1. injection E1 as -> ->. cbn [ss_coord ss_posture] in IH.
    destruct (IH Vc Cc OL' OE) as (ls & F & NE & R).
    assert (O' : open c1 = true).
    { inversion WK as [a E2 E3 E4|a n2 k2 a' l' e' V2 U2 WK2 E2 E3 E4]; subst; [exact OE|]. inversion OL' as [|? ? Q _]. exact Q. }
    exists (map (shift (@pose_of_search Rops s w off)) l2 :: ls). split; [|split].
    + constructor; [|exact F]. apply plays_boxed. exact P2.
    + constructor; [|exact NE]. destruct R2 as ((t & l' & -> & _) & _). discriminate.
    + cbn [concat]. apply Forall_app. split; [|exact R].
      exact (move_clear s n k1 (SS c1 p1) l2 (conj Vs (conj Cs Os)) (conj Vc (conj Cc O')) M P2).
Qed.

Lemma route_clear l e L : supported W -> valid W (Co 0 1) -> walks W (SS (Co 0 1) North) l e ->
  Forall (fun sk => open (ss_coord (fst sk)) = true) l -> open (ss_coord e) = true -> open (Co 0 1) = true ->
  serves (@search_route Rops w off G sg stop l) L -> Forall C L.
Proof.
  intros HW VS WK OL OE OS SE. assert (W0 := posW). assert (V := posV).
  destruct (straight_ride g p (w / 2 + off) 0 v Lg Hp ltac:(lra) ltac:(fold v; lra) ltac:(fold v; lra) Re) as [_ (l1 & P1 & _)]. fold G in P1.
  set (P := @Pose Rops (w / 2)%R (w / 2)%R (PI / 2)%R).
  destruct (moves_clear HW _ _ _ WK VS eq_refl OL OE) as (ls & F & NE & RR).
  assert (EL : L = map (shift P) l1 ++ concat ls).
  { apply (serves_unique _ _ _ SE).
    assert (E : @search_route Rops w off G sg stop l = @Boxed Rops P (IStraight (fst (straight_generate_tv G (w / 2 + off)%R 0%R v))) :: map box l).
    { unfold search_route, search_init, straight_generate.
      assert (D90 : @degree Rops (lit 90 1) = PI / 2) by (unfold degree; rops; field). rewrite D90.
      rops. cbn [sg_gen G]. fold G v. replace (2 / 1) with 2 by field. replace (0 / 1) with 0 by field. unfold P. exact (eq_refl _). }
    rewrite E. apply serves_all; [exact F | exact NE | apply plays_boxed, plays_straight, P1]. }
  subst L. apply Forall_app. split; [|exact RR].
  apply straight_points in P1; try assumption; try (fold v; lra).
  apply Forall_map. revert P1. apply Forall_impl. intros t [Ex Ey].
  apply (middle_clear W open (SS (Co 0 1) North) w 0 ((tx (t_x t) - w / 2) * 2 / w) _ W0 VS eq_refl OS); [|lra|].
  - unfold framed, shift, P, fx, fy, wall_node. cbn [t_x t_y tx p_x p_y p_theta ss_coord ss_posture post8 cx cy nx ny np to_right RunSpec.ahead fst snd]. rewrite Ey.
    rops. change (@num Rops) with R. rewrite cos_PI2, sin_PI2. split; field; lra.
  - change (@num Rops) with R in *. split; apply Rmult_le_reg_r with (w / 2); try lra;
    replace ((tx (t_x t) - w / 2) * 2 / w * (w / 2)) with (tx (t_x t) - w / 2) by (change (@num Rops) with R in *; field; lra); lra.
Qed.
End Search.
