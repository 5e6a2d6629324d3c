(** The moves of a run keep clear of the walls. *)
From Coq Require Import ZArith QArith Qreals Reals Lra Lia List Bool Psatz.
From Verif Require Import Base SearchModel SearchSpec RunModel RunSpec Num NumLemmas ControlModel TrajModel TrajSpec TrajProofs TrajProofs2 TrajProofs3 TrajProofs4 TrajProofs5
  TrajProofs6 TrajProofs7 TrajProofs8 TrajQuad TrajCurve TrajCurve2 TrajCurve3 TrajCurve4 RouteModel RouteSpec RouteProofs RouteProofs2 RouteProofs3
  SafeSpec SafeProofs SafeProofs2 SafeProofs3 SafeGrid SafeRun.
Import ListNotations.
Open Scope R_scope.

Lemma both_at k1 k2 r d m c h : snd (scan (both k1 k2) r d m c h steps) = true ->
  (forall n, (n <= steps)%nat -> let '(x, y, _) := sums r d m c h n in bendb (bend_of k1) x y = true) /\
  (forall n, (n <= steps)%nat -> let '(x, y, _) := sums r d m c h n in bendb (bend_of k2) x y = true).
Proof.
  intros S. destruct (scan_ok _ _ _ _ _ _ _ S) as [_ AT].
  split; intros n Hn; specialize (AT n Hn); destruct (sums r d m c h n) as [[x y] b]; apply andb_prop in AT; tauto.
Qed.

Lemma run_curve_safe (w off v p : R) k d l : 0 < w -> 0 < v -> 0 < p -> v * p <= w / 50 ->
  let q := @parameters Rops w off (Some k) d in
  plays curve_next (@generate_curve Rops p (l_start q) 0%R 0%R (sl_theta q) v (v_ref q) (dtheta q) (ddtheta q) (dddtheta q)) l ->
  Forall (at_ (safe_at (bend_of k) d w)) l.
Proof.
  intros Hw Hv Hp Hvp q PL. assert (O := oks). rewrite !andb_true_iff in O. destruct O as ((((((O1 & O2) & O3) & O4) & O5) & O6) & O7).
  destruct (both_at _ _ _ _ _ _ _ scan45) as [S1 S2]. destruct (both_at _ _ _ _ _ _ _ scan90) as [S3 S4]. destruct (both_at _ _ _ _ _ _ _ scan135) as [S5 S6].
  destruct (scan_ok _ _ _ _ _ _ _ scan180) as [_ S7].
  assert (KEY : forall (C : skind) dq rq m c0 h0 ic is_ le x y th ls vr, C = k ->
    certified dq rq m c0 h0 ic is_ = true -> bendok (bend_of C) h0 = true ->
    (forall n, (n <= steps)%nat -> let '(x, y, _) := sums rq dq m c0 h0 n in bendb (bend_of C) x y = true) ->
    ls = Q2R (b_ls (bend_of C)) -> vr = Q2R (b_vr (bend_of C)) -> 32 / 10 <= vr -> th / 180 = Q2R dq ->
    q = @create_params Rops ls le x y vr th w d -> Forall (at_ (safe_at (bend_of k) d w)) l).
  { intros C dq rq m c0 h0 ic is_ le x y th ls vr EC CC OK SC E1 E2 HV HT EQ. subst C ls vr.
    rewrite EQ in PL. apply (create_near (bend_of k) (1 / 50) (1 / 150) le x y th w v p d dq rq m c0 h0 ic is_ l); try assumption; try lra. }
  destruct k; unfold q, parameters in KEY; rops.
  - eapply (KEY FastRun45) with (2 := cert45) (3 := O1) (4 := S1) (9 := eq_refl); cbn [bend_of b_ls b_vr]; rewrite ?q2r; try reflexivity; lra.
  - eapply (KEY FastRun45Rev) with (2 := cert45) (3 := O2) (4 := S2) (9 := eq_refl); cbn [bend_of b_ls b_vr]; rewrite ?q2r; try reflexivity; lra.
  - eapply (KEY FastRun90) with (2 := cert90) (3 := O3) (4 := S3) (9 := eq_refl); cbn [bend_of b_ls b_vr]; rewrite ?q2r; try reflexivity; lra.
  - eapply (KEY FastRun135) with (2 := cert135) (3 := O5) (4 := S5) (9 := eq_refl); cbn [bend_of b_ls b_vr]; rewrite ?q2r; try reflexivity; lra.
  - eapply (KEY FastRun135Rev) with (2 := cert135) (3 := O6) (4 := S6) (9 := eq_refl); cbn [bend_of b_ls b_vr]; rewrite ?q2r; try reflexivity; lra.
  - eapply (KEY FastRun180) with (2 := cert180) (3 := O7) (4 := S7) (9 := eq_refl); cbn [bend_of b_ls b_vr]; rewrite ?q2r; try reflexivity; lra.
  - eapply (KEY FastRunDiagonal90) with (2 := cert90) (3 := O4) (4 := S4) (9 := eq_refl); cbn [bend_of b_ls b_vr]; rewrite ?q2r; try reflexivity; lra.
Qed.

(** ** The straight parts *)
Definition seg_mu : Z := 700000.
Definition end_of (k : skind) : Z * Z * Z * Z :=
  match k with
  | FastRun45 => (1, 2, -1, -1)
  | FastRun90 => (2, 2, -1, 0)
  | FastRun135 => (2, 1, -1, 1)
  | FastRun180 => (2, 0, 0, 1)
  | FastRun45Rev => (2, 1, -1, 0)
  | FastRunDiagonal90 => (2, 0, -1, 1)
  | FastRun135Rev => (2, -1, 0, 1)
  end%Z.
Definition seg_check (k : skind) : bool :=
  let b := bend_of k in let '(er, ea, dr, da) := end_of k in
  (segb (b_free b) (b_cells b) seg_mu 0 0 (if b_dg b then 1 else 0) 1 5000 110
   && segb (b_free b) (b_cells b) seg_mu (er * unit_) (ea * unit_) dr da 5000 110)%bool%Z.

Lemma seg_checks k : seg_check k = true.
Proof. destruct k; vm_compute; reflexivity. Qed.

Lemma near_safe C F e r a : 0 <= e <= 15 / 1000 -> nearF C F (mil seg_mu) e r a -> safeF C F r a.
Proof. intros He N. exists (mil seg_mu), e. split; [lra|]. split; [unfold mil, seg_mu; lra | exact N]. Qed.

Lemma sqrt2_bounds : 141421356 / 100000000 <= sqrt 2 <= 141421357 / 100000000 /\ sqrt 2 * sqrt 2 = 2.
Proof.
  assert (S : sqrt 2 * sqrt 2 = 2) by (apply sqrt_sqrt; lra). assert (P := sqrt_pos 2). split; [split; nra | exact S].
Qed.

Lemma start_safe (w off x y : R) k d : 0 < w -> let q := @parameters Rops w off (Some k) d in
  0 <= x <= l_start q -> y = 0 -> safe_at (bend_of k) d w x y.
Proof.
  intros Hw q Hx ->. destruct sqrt2_bounds as [[B1 B2] _].
  assert (XW : 0 <= x / w <= 37 / 100 /\ (b_dg (bend_of k) = false -> x / w <= 27 / 100)).
  { assert (E : x = w * (x / w)) by (field; lra). assert (0 <= x / w) by (apply Rmult_le_pos; [lra | apply Rlt_le, Rinv_0_lt_compat, Hw]).
    split; [split; [assumption|]|].
    - apply Rmult_le_reg_l with w; [exact Hw|]. rewrite <- E. revert Hx. unfold q, parameters, create_params. destruct k, d; cbn [l_start]; rops; lra.
    - intros D. apply Rmult_le_reg_l with w; [exact Hw|]. rewrite <- E. revert Hx. unfold q, parameters, create_params. destruct k, d; try discriminate D; cbn [l_start]; rops; lra. }
  destruct XW as [X1 X2]. unfold safe_at, latR, latA. replace (sdR d * 0 / w) with 0 by (field; lra).
  assert (C := seg_checks k). unfold seg_check in C. destruct (end_of k) as [[[er ea] dr] da]. apply andb_prop in C as [C _].
  set (u := x / w) in *. destruct (b_dg (bend_of k)).
  - assert (N := segb_ok _ _ _ _ _ _ _ _ _ (sqrt 2 * u) C ltac:(lia) ltac:(lia) ltac:(lia)).
    apply (near_safe _ _ (mil 5000)); [unfold mil; lra|].
    replace (sqrt 2 * (u + 0)) with (mil 0 + sqrt 2 * u * 1) by (unfold mil; field). replace (sqrt 2 * (u - 0)) with (mil 0 + sqrt 2 * u * 1) by (unfold mil; field).
    apply N. split; [apply Rmult_le_pos; lra|]. rewrite INR_IZR_INZ. unfold mil. cbn [Z.of_nat]. change (IZR (Z.of_nat 110)) with 110. nra.
  - specialize (X2 eq_refl). assert (N := segb_ok _ _ _ _ _ _ _ _ _ (2 * u) C ltac:(lia) ltac:(lia) ltac:(lia)).
    apply (near_safe _ _ (mil 5000)); [unfold mil; lra|].
    replace (2 * 0) with (mil 0 + 2 * u * 0) by (unfold mil; field). replace (2 * u) with (mil 0 + 2 * u * 1) at 2 by (unfold mil; field).
    apply N. split; [lra|]. rewrite INR_IZR_INZ. unfold mil. change (IZR (Z.of_nat 110)) with 110. lra.
Qed.

(** the direction after a curve *)
Definition turn_of (k : skind) : R * R :=
  match k with
  | FastRun45 | FastRun45Rev => (sqrt 2 / 2, sqrt 2 / 2)
  | FastRun90 | FastRunDiagonal90 => (0, 1)
  | FastRun135 | FastRun135Rev => (- (sqrt 2 / 2), sqrt 2 / 2)
  | FastRun180 => (-1, 0)
  end.

Lemma turn_of_ok (w off : R) k d : let q := @parameters Rops w off (Some k) d in
  cos (sl_theta q) = fst (turn_of k) /\ sdR d * sin (sl_theta q) = snd (turn_of k).
Proof.
  assert (S0 : 0 < sqrt 2) by (apply sqrt_lt_R0; lra). destruct sqrt2_bounds as [_ S2].
  assert (HH : / sqrt 2 = sqrt 2 / 2) by (apply Rmult_eq_reg_l with (sqrt 2); [rewrite Rinv_r by lra; lra | lra]).
  assert (K : forall th c s, cos th = c -> sin th = s -> cos (match d with SLeft => th | SRight => - th end) = c /\ sdR d * sin (match d with SLeft => th | SRight => - th end) = s).
  { intros th c s <- <-. destruct d; cbn [sdR]; [rewrite cos_neg, sin_neg; split; ring | split; ring]. }
  assert (E : forall th, sl_theta (@parameters Rops w off (Some k) d) = match d with SLeft => th | SRight => - th end ->
    cos th = fst (turn_of k) -> sin th = snd (turn_of k) ->
    cos (sl_theta (@parameters Rops w off (Some k) d)) = fst (turn_of k) /\ sdR d * sin (sl_theta (@parameters Rops w off (Some k) d)) = snd (turn_of k)).
  { intros th -> C S. apply K; assumption. }
  cbv zeta. destruct k; cbn [turn_of fst snd] in *.
  - apply (E (PI / 4)); [unfold parameters, create_params, degree; destruct d; cbn [sl_theta]; rops; field | rewrite cos_PI4; lra | rewrite sin_PI4; lra].
  - apply (E (PI / 4)); [unfold parameters, create_params, degree; destruct d; cbn [sl_theta]; rops; field | rewrite cos_PI4; lra | rewrite sin_PI4; lra].
  - apply (E (PI / 2)); [unfold parameters, create_params, degree; destruct d; cbn [sl_theta]; rops; field | apply cos_PI2 | apply sin_PI2].
  - apply (E (3 * (PI / 4))); [unfold parameters, create_params, degree; destruct d; cbn [sl_theta]; rops; field | rewrite cos_3PI4; lra | rewrite sin_3PI4; lra].
  - apply (E (3 * (PI / 4))); [unfold parameters, create_params, degree; destruct d; cbn [sl_theta]; rops; field | rewrite cos_3PI4; lra | rewrite sin_3PI4; lra].
  - apply (E PI); [unfold parameters, create_params, degree; destruct d; cbn [sl_theta]; rops; field | apply cos_PI | apply sin_PI].
  - apply (E (PI / 2)); [unfold parameters, create_params, degree; destruct d; cbn [sl_theta]; rops; field | apply cos_PI2 | apply sin_PI2].
Qed.

(** the end of the curve and the length of the last straight, in squares *)
Definition table_of (k : skind) : R * R * R :=
  match k with
  | FastRun45 => (739762 / 1000000, 239762 / 1000000, 3680321 / 10000000)
  | FastRun45Rev => (9500395 / 10000000, 2429328 / 10000000, 1564412 / 10000000)
  | FastRun90 => (1, 7777778 / 10000000, 22222222 / 100000000)
  | FastRun135 => (6111111 / 10000000, 8888889 / 10000000, 15713444 / 100000000)
  | FastRun135Rev => (52532303 / 100000000, 88889056 / 100000000, 24291888 / 100000000)
  | FastRun180 => (26666668 / 100000000, 1, 26666668 / 100000000)
  | FastRunDiagonal90 => (70710665 / 100000000, 53333336 / 100000000, 17377333 / 100000000)
  end.
Lemma table_of_ok (w off : R) k d : let q := @parameters Rops w off (Some k) d in let '(xe, ye, le) := table_of k in
  x_curve_end q = w * xe /\ sdR d * y_curve_end q = w * ye /\ l_end q = w * le.
Proof.
  unfold parameters, create_params, sdR, table_of. destruct k, d; cbn [x_curve_end y_curve_end l_end]; rops; change (@num Rops) with R; repeat split; field.
Qed.

Lemma end_points (w off s : R) k d : 0 < w -> let q := @parameters Rops w off (Some k) d in
  0 <= s <= l_end q ->
  let x := x_curve_end q + s * cos (sl_theta q) in let y := y_curve_end q + s * sin (sl_theta q) in
  let b := bend_of k in let '(er, ea, dr, da) := end_of k in
  exists u, 0 <= u <= 55 / 100 /\
    Rabs (latR (b_dg b) (x / w) (sdR d * y / w) - (IZR er + u * IZR dr)) <= 1 / 100000 /\
    Rabs (latA (b_dg b) (x / w) (sdR d * y / w) - (IZR ea + u * IZR da)) <= 1 / 100000.
Proof.
  intros Hw q Hs x y b. destruct sqrt2_bounds as [[B1 B2] S2]. destruct (turn_of_ok w off k d) as [TC TS]. fold q in TC, TS.
  assert (TB := table_of_ok w off k d). cbv zeta in TB. fold q in TB.
  set (v := s / w). assert (EV : s = w * v) by (unfold v; field; lra).
  assert (EX : x / w = x_curve_end q / w + v * fst (turn_of k)) by (unfold x, v; rewrite TC; field; lra).
  assert (EY : sdR d * y / w = sdR d * y_curve_end q / w + v * snd (turn_of k)) by (unfold y, v; rewrite <- TS; field; lra).
  rewrite EX, EY. clear EX EY x y TC TS. destruct (table_of k) as [[xe ye] le] eqn:ET. destruct TB as (T1 & T2 & T3).
  rewrite T1, T2. rewrite T3, EV in Hs. clear T1 T2 T3.
  replace (w * xe / w) with xe by (field; lra). replace (w * ye / w) with ye by (field; lra).
  assert (V0 : 0 <= v <= le) by (split; apply Rmult_le_reg_l with w; lra). clear Hs EV. clearbody v.
  set (z := sqrt 2) in *. assert (ZV : 0 <= z * (le - v) <= 142 / 100 * le) by (split; [apply Rmult_le_pos; lra | nra]).
  assert (KV : z * z * v = 2 * v) by (rewrite S2; reflexivity).
  destruct k; unfold table_of in ET; injection ET as <- <- <-; unfold b, end_of, latR, latA, turn_of; cbn [bend_of b_dg fst snd]; fold z.
  - exists (z * (3680321 / 10000000 - v)). split; [lra|]. split; apply Rabs_le; lra.
  - exists (2 * (1564412 / 10000000 - v)). split; [lra|]. split; apply Rabs_le; lra.
  - exists (2 * (22222222 / 100000000 - v)). split; [lra|]. split; apply Rabs_le; lra.
  - exists (z * (15713444 / 100000000 - v)). split; [lra|]. split; apply Rabs_le; lra.
  - exists (2 * (24291888 / 100000000 - v)). split; [lra|]. split; apply Rabs_le; lra.
  - exists (2 * (26666668 / 100000000 - v)). split; [lra|]. split; apply Rabs_le; lra.
  - exists (z * (17377333 / 100000000 - v)). split; [lra|]. split; apply Rabs_le; lra.
Qed.

Lemma end_safe (w off s : R) k d : 0 < w -> let q := @parameters Rops w off (Some k) d in
  0 <= s <= l_end q -> safe_at (bend_of k) d w (x_curve_end q + s * cos (sl_theta q)) (y_curve_end q + s * sin (sl_theta q)).
Proof.
  intros Hw q Hs. assert (EP := end_points w off s k d Hw Hs). cbv zeta in EP. fold q in EP.
  assert (C := seg_checks k). unfold seg_check in C. unfold safe_at.
  destruct (end_of k) as [[[er ea] dr] da] eqn:EE. apply andb_prop in C as [_ C]. destruct EP as (u & Hu & P1 & P2).
  assert (DR : (-1 <= dr <= 1)%Z /\ (-1 <= da <= 1)%Z) by (destruct k; injection EE as <- <- <- <-; lia).
  assert (N := segb_ok _ _ _ _ _ _ _ _ _ u C ltac:(lia) (proj1 DR) (proj2 DR)).
  assert (M : forall z, mil (z * unit_) = IZR z) by (intros; unfold mil, unit_; rewrite mult_IZR; field). rewrite !M in N.
  assert (HN : 0 <= u <= INR 110 * mil 5000) by (rewrite INR_IZR_INZ; unfold mil; change (IZR (Z.of_nat 110)) with 110; lra).
  specialize (N HN).
  apply (near_safe _ _ (2 / 100000 + mil 5000)); [unfold mil; lra|].
  eapply nearF_move; [unfold mil; lra | lra | | exact N].
  eapply Rle_trans; [apply gap2_box; eassumption|]. apply sq_le_p. lra.
Qed.

(** ** The frame of a node *)
Lemma frame_gap n r a r' a' : gap2 (fx n r a) (fy n r a) (fx n r' a') (fy n r' a') = gap2 r a r' a'.
Proof. unfold gap2, sq, fx, fy. destruct n as [x y p]. destruct p; cbn [nx ny np to_right RunSpec.ahead fst snd]; ring. Qed.

Lemma safe_clear W open n w r a t : 0 < w -> safeF (cell_at n) (free W open n) r a -> framed n w r a t ->
  clear W open w (34 / 100 * w) t.
Proof.
  intros Hw (mu & e & He & Hm & cr & ca & r' & a' & CC & G & E) [EX EY] c x y S O.
  assert (Q := good_clear W open n mu cr ca r' a' ltac:(lra) CC G c x y S O).
  rewrite <- (frame_gap n) in E. rewrite EX, EY. clear EX EY G.
  set (X := fx n r a) in *. set (Y := fy n r a) in *. set (X' := fx n r' a') in *. set (Y' := fy n r' a') in *.
  assert (T := triangle X' Y' x y X Y). unfold dist_euc, Rsqr in T |- *.
  fold (sq (X' - x)) (sq (Y' - y)) (sq (X' - X)) (sq (Y' - Y)) (sq (X - x)) (sq (Y - y)) in T.
  fold (gap2 X' Y' x y) (gap2 X' Y' X Y) (gap2 X Y x y) in T.
  assert (A : mu <= sqrt (gap2 X' Y' x y)).
  { rewrite <- (sqrt_Rsqr mu) by lra. apply sqrt_le_1_alt. exact Q. }
  assert (B : sqrt (gap2 X' Y' X Y) <= e).
  { apply sq_root; [exact He | | apply gap2_pos]. replace (gap2 X' Y' X Y) with (gap2 X Y X' Y') by (unfold gap2, sq; ring). exact E. }
  match goal with |- _ <= sqrt ?z => replace z with ((w / 2 * (w / 2)) * gap2 X Y x y) by (unfold gap2, sq; ring) end.
  rewrite sqrt_mult, sqrt_square by (try apply gap2_pos; nra).
  replace (34 / 100 * w) with (w / 2 * (68 / 100)) by field. apply Rmult_le_compat_l; lra.
Qed.

Lemma node_frame (n : node) (w : R) (t : @target Rops) : 0 < w -> let dg := is_diag (np n) in
  framed n w (latR dg (tx (t_x t) / w) (- tx (t_y t) / w)) (latA dg (tx (t_x t) / w) (- tx (t_y t) / w)) (shift (@pose_of_node Rops n w) t).
Proof.
  intros Hw. rewrite node_pose. unfold framed, shift. cbn [t_x t_y tx p_x p_y p_theta]. rops. change (@num Rops) with R in *.
  destruct (cs8 (np n)) as [-> ->]. destruct n as [x y p]. cbn [nx ny np].
  destruct sqrt2_bounds as [_ S2]. assert (S0 : 0 < sqrt 2) by (apply sqrt_lt_R0; lra).
  assert (HH : h = sqrt 2 / 2) by (unfold h; apply Rmult_eq_reg_l with (sqrt 2); [rewrite Rinv_r by lra; lra | lra]).
  unfold fx, fy, latR, latA. destruct p; cbn [is_diag nx ny np to_right RunSpec.ahead fst snd C8 S8]; rewrite ?HH; split; field; lra.
Qed.

Definition mirror (dg : bool) (d : sdir) (x y : Z) : Z * Z :=
  match d with SRight => (x, y) | SLeft => if dg then (y, x) else (- x, y)%Z end.

Lemma bend_clear W open n (b : bend) d (w : R) t : 0 < w -> b_dg b = is_diag (np n) ->
  (forall x y, In (x, y) (b_free b) -> let '(x, y) := mirror (b_dg b) d x y in free W open n x y) ->
  (forall x y, In (x, y) (b_cells b) -> let '(x, y) := mirror (b_dg b) d x y in cell_at n x y) ->
  at_ (safe_at b d w) t -> clear W open w (34 / 100 * w) (shift (@pose_of_node Rops n w) t).
Proof.
  intros Hw DG HF HC (mu & e & He & Hm & N). assert (FR := node_frame n w t Hw). cbv zeta in FR. rewrite <- DG in FR.
  eapply safe_clear; [exact Hw | | exact FR]. exists mu, e. split; [exact He|]. split; [exact Hm|]. clear FR.
  change (@num Rops) with R in *. set (f := tx (t_x t) / w) in *. set (y := tx (t_y t)) in *.
  destruct d; cbn [sdR mirror] in *.
  - replace (- y / w) with (-1 * y / w) by (field; lra). revert N. apply nearF_mono; assumption.
  - replace (1 * y / w) with (- (- y / w)) in N by (field; lra). set (l := - y / w) in *.
    destruct (b_dg b); unfold latR, latA in *.
    + replace (sqrt 2 * (f + - l)) with (sqrt 2 * (f - l)) in N by ring. replace (sqrt 2 * (f - - l)) with (sqrt 2 * (f + l)) in N by ring.
      revert N. apply nearF_swap; assumption.
    + replace (2 * l) with (- (2 * - l)) by ring. revert N. apply nearF_flip; assumption.
Qed.

(** ** Cells of the frame *)
Lemma even_cells n i j : is_diag (np n) = false -> Z.even (nx n) = true -> Z.even (ny n) = true -> Z.even i = true -> Z.even j = true -> cell_at n i j.
Proof.
  destruct n as [x y p]. unfold cell_at, place. cbn [nx ny np cx cy]. intros D EX EY EI EJ.
  destruct p; try discriminate D; cbn [to_right RunSpec.ahead fst snd]; rewrite !Z.even_add, !Z.even_mul, EX, EY, EI, EJ; split; reflexivity.
Qed.

Lemma wall_node_cells n i j : is_diag (np n) = true -> Z.odd (nx n + ny n) = true -> Z.odd i = bends_left n -> Z.odd j = negb (bends_left n) -> cell_at n i j.
Proof.
  destruct n as [x y p]. unfold cell_at, place, bends_left. cbn [nx ny np cx cy]. rewrite Z.odd_add. intros D P OI OJ.
  rewrite <- !Z.negb_odd, !Z.odd_add, !Z.odd_mul.
  destruct p; try discriminate D; cbn [to_right RunSpec.ahead fst snd] in *; rewrite OI, OJ; destruct (Z.odd x), (Z.odd y); try discriminate P; split; reflexivity.
Qed.
