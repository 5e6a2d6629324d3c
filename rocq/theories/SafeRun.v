(** The curves of a run on the grid. *)
From Coq Require Import ZArith QArith Qreals Reals Lra Lia List Bool Psatz.
From Flocq Require Import Core.
From Verif Require Import Base SearchModel SearchSpec RunModel RunSpec Num NumLemmas ControlModel TrajModel TrajSpec TrajProofs TrajProofs2 TrajProofs3 TrajProofs4 TrajProofs5
  TrajProofs6 TrajProofs7 TrajProofs8 TrajQuad TrajCurve TrajCurve2 TrajCurve3 TrajCurve4 RouteModel RouteSpec RouteProofs RouteProofs2 RouteProofs3
  SafeSpec SafeProofs SafeProofs2 SafeProofs3 SafeGrid.
Import ListNotations.
Open Scope R_scope.

Lemma create_grid (ls le x y vr th w v p : R) (d : sdir) (dq rq m c0 h0 ic is_ : Q) :
  0 < w -> 0 < v -> 0 < vr -> certified dq rq m c0 h0 ic is_ = true -> th / 180 = Q2R dq ->
  let q := @create_params Rops ls le x y vr th w d in
  let s := @generate_curve Rops p (l_start q) 0%R 0%R (sl_theta q) v (v_ref q) (dtheta q) (ddtheta q) (dddtheta q) in
  forall X Y T, T = cu_t_end s -> drives v (fun u => tx (@calculate Rops (cu_calc s) u)) T (l_start q) 0 X Y ->
  0 < T /\ v * T = w * (vr * (120 * Q2R h0)) /\
  forall n, (n <= steps)%nat -> let '(x, y, _) := sums rq dq m c0 h0 n in
  Rabs (X (INR n * (T / 120)) - w * (ls + vr * Q2R (valQ h0 x))) <= w * (vr * 24 / 10000000) /\
  Rabs (Y (INR n * (T / 120)) - w * (sdR d * (vr * Q2R (valQ h0 y)))) <= w * (vr * 24 / 10000000).
Proof.
  intros Hw Hv Hr C Hth q s X Y T' ET DR.
  assert (WR : 0 < w * vr) by (apply Rmult_lt_0_compat; assumption).
  assert (SG : sdR d = 1 \/ sdR d = -1) by (destruct d; cbn; auto).
  assert (EQ : sl_theta q = sdR d * (PI * Q2R dq) /\ l_start q = w * ls /\ v_ref q = w * vr /\
    dtheta q = 3 * PI /\ ddtheta q = 36 * PI /\ dddtheta q = 1200 * PI).
  { unfold q, sdR, create_params, degree. rewrite <- Hth. destruct d; cbn [sl_theta l_start v_ref dtheta ddtheta dddtheta]; rops;
      repeat split; field. }
  destruct EQ as (E1 & E2 & E3 & E4 & E5 & E6).
  destruct (generate (@Generator Rops (v / (w * vr) * (3 * PI))%R (v / (w * vr) * (v / (w * vr)) * (36 * PI))%R
      (v / (w * vr) * (v / (w * vr)) * (v / (w * vr)) * (1200 * PI))%R) 0%R (sdR d * (PI * Q2R dq))%R 0%R 0%R) as [c T] eqn:G.
  assert (ES : s = @CurveTraj Rops c 0%R T p (l_start q) 0%R v).
  { unfold s, generate_curve. rewrite E1, E3, E4, E5, E6. rewrite n0_R. rops. rewrite G. reflexivity. }
  rewrite ES in DR, ET. cbn [cu_calc cu_t_end] in DR, ET. subst T'.
  destruct (curve_grid v (w * vr) (sdR d) (l_start q) dq rq m c0 h0 ic is_ c T Hv WR SG C G) as (T0 & VT & _ & AT).
  split; [exact T0|]. split; [change (@num Rops) with R in *; lra|]. intros n Hn. specialize (AT X Y DR n Hn). rewrite E2 in AT.
  destruct (sums rq dq m c0 h0 n) as [[a b] b']. destruct AT as [A B].
  replace (w * ls + w * vr * Q2R (valQ h0 a)) with (w * (ls + vr * Q2R (valQ h0 a))) in A by ring.
  replace (sdR d * (w * vr * Q2R (valQ h0 b))) with (w * (sdR d * (vr * Q2R (valQ h0 b)))) in B by ring.
  replace (w * vr * 24 / 10000000) with (w * (vr * 24 / 10000000)) in A, B by field. split; assumption.
Qed.

(** a point with distance 68/100 (half squares), by a good point near by. *)
Definition safeF (C F : Z -> Z -> Prop) (r a : R) : Prop := exists mu e, 0 <= e /\ 68 / 100 + e <= mu <= 2 /\ nearF C F mu e r a.

(** in the frame of a right turn. *)
Definition safe_at (b : bend) (d : sdir) (w x y : R) : Prop :=
  safeF (isin (b_cells b)) (isin (b_free b)) (latR (b_dg b) (x / w) (sdR d * y / w)) (latA (b_dg b) (x / w) (sdR d * y / w)).

Lemma create_near (b : bend) (r xm le x y th w v p : R) (d : sdir) (dq rq m c0 h0 ic is_ : Q) l :
  let ls := Q2R (b_ls b) in let vr := Q2R (b_vr b) in
  0 <= r -> 0 <= xm <= 1 / 100 -> 45 / 100 * r * (22 / 100000000 + 7806 / 100 * (xm * xm)) <= 36 / 1000000 ->
  0 < w -> 0 < v -> 0 < p -> v * p <= r * w -> r <= xm * vr -> certified dq rq m c0 h0 ic is_ = true -> th / 180 = Q2R dq ->
  bendok b h0 = true ->
  (forall n, (n <= steps)%nat -> let '(x, y, _) := sums rq dq m c0 h0 n in bendb b x y = true) ->
  let q := @create_params Rops ls le x y vr th w d in
  let s := @generate_curve Rops p (l_start q) 0%R 0%R (sl_theta q) v (v_ref q) (dtheta q) (ddtheta q) (dddtheta q) in
  plays curve_next s l -> Forall (at_ (safe_at b d w)) l.
Proof.
  intros ls vr Hr Hx Hq Hw Hv Hp Hvp Hrv C Hth BO BA q s PL.
  destruct (bendok_facts b h0 BO) as (B1 & B2 & H0 & B4 & _). fold ls in B1. fold vr in B2, B4.
  destruct (create_points r xm ls le x y vr th w v p d dq rq m c0 h0 ic is_ l Hr Hx Hq Hw Hv Hp ltac:(lra) Hvp Hrv C Hth PL) as (_ & X & Y & DR & F).
  fold q in DR, F. fold s in DR, F. cbv zeta in *.
  assert (TE : exists T : R, T = cu_t_end s) by (eexists; reflexivity). destruct TE as (T & ET). rewrite <- ET in DR, F.
  destruct (create_grid ls le x y vr th w v p d dq rq m c0 h0 ic is_ Hw Hv ltac:(lra) C Hth X Y T ET DR) as (T0 & VT & GR).
  assert (I120 : INR steps = 120) by (unfold steps; rewrite INR_IZR_INZ; reflexivity).
  revert F. apply Forall_impl. intros t (u & Hu & PX & PY). unfold at_, safe_at.
  destruct (grid_pick (T / 120) steps u ltac:(apply Rdiv_lt_0_compat; lra)) as (n & Hn & NU).
  { rewrite I120. replace (120 * (T / 120)) with T by field. exact Hu. }
  specialize (GR n Hn). specialize (BA n Hn). destruct (sums rq dq m c0 h0 n) as [[a c] b']. destruct GR as [GX GY].
  assert (PB := bendb_near b h0 a c BO BA). cbv zeta in PB. fold ls vr in PB.
  set (fq := ls + vr * Q2R (valQ h0 a)) in *. set (lq := vr * Q2R (valQ h0 c)) in *.
  assert (S1 : sdR d * sdR d = 1) by (destruct d; cbn; ring).
  assert (SA : Rabs (sdR d) = 1) by (destruct d; cbn [sdR]; [rewrite Rabs_left; lra | apply Rabs_pos_eq; lra]).
  change (@num Rops) with R in *. set (tx_ := tx (t_x t)) in *. set (ty_ := tx (t_y t)) in *.
  (* the target and the grid point, in squares *)
  assert (Q1 : gap2 (tx_ / w) (sdR d * ty_ / w) (X u / w) (sdR d * Y u / w) <= sq (14143 / 10000 * (36 / 1000000))).
  { apply gap2_box.
    - replace (tx_ / w - X u / w) with ((tx_ - X u) / w) by (field; lra). unfold Rdiv. rewrite Rabs_mult, (Rabs_pos_eq (/ w)) by (apply Rlt_le, Rinv_0_lt_compat, Hw).
      apply Rmult_le_reg_r with w; [exact Hw|]. rewrite Rmult_assoc, Rinv_l, Rmult_1_r by lra. exact PX.
    - replace (sdR d * ty_ / w - sdR d * Y u / w) with (sdR d * (ty_ - Y u) / w) by (field; lra). unfold Rdiv. rewrite !Rabs_mult, SA, Rmult_1_l, (Rabs_pos_eq (/ w)) by (apply Rlt_le, Rinv_0_lt_compat, Hw).
      apply Rmult_le_reg_r with w; [exact Hw|]. rewrite Rmult_assoc, Rinv_l, Rmult_1_r by lra. exact PY. }
  set (un := INR n * (T / 120)) in *.
  assert (UN : 0 <= un <= T).
  { unfold un. split; [apply Rmult_le_pos; [apply pos_INR | apply Rlt_le, Rdiv_lt_0_compat; lra]|].
    apply Rle_trans with (120 * (T / 120)); [|lra]. apply Rmult_le_compat_r; [apply Rlt_le, Rdiv_lt_0_compat; lra|]. rewrite <- I120. apply le_INR, Hn. }
  assert (Q2 : gap2 (X u / w) (sdR d * Y u / w) (X un / w) (sdR d * Y un / w) <= sq (vr * Q2R h0 / 2)).
  { assert (L := drives_lip _ _ _ _ _ X Y u un DR ltac:(lra) Hu UN).
    replace (gap2 (X u / w) (sdR d * Y u / w) (X un / w) (sdR d * Y un / w)) with (sq (/ w) * gap2 (X u) (Y u) (X un) (Y un)).
    2:{ unfold gap2, sq. transitivity (/ w * / w * ((X u - X un) * (X u - X un) + (sdR d * sdR d) * ((Y u - Y un) * (Y u - Y un)))); [rewrite S1; ring | field; lra]. }
    apply Rle_trans with (sq (/ w) * sq (v * (un - u))); [apply Rmult_le_compat_l; [apply sq_pos | exact L]|].
    replace (sq (/ w) * sq (v * (un - u))) with (sq (v * (un - u) / w)) by (unfold sq; field; lra).
    apply sq_le_p. apply Rabs_le_inv in NU.
    assert (VH : v * (T / 120 / 2) / w = vr * Q2R h0 / 2).
    { replace (v * (T / 120 / 2) / w) with (v * T / (240 * w)) by (field; lra). rewrite VT. field. lra. }
    rewrite <- VH. assert (W0 : 0 <= / w) by (apply Rlt_le, Rinv_0_lt_compat, Hw). set (k := T / 120 / 2) in *.
    replace (- (v * k / w)) with (v * - k * / w) by (field; lra).
    change (v * - k * / w <= v * (un - u) * / w <= v * k * / w).
    split; apply Rmult_le_compat_r; try exact W0; apply Rmult_le_compat_l; lra. }
  assert (Q3 : gap2 (X un / w) (sdR d * Y un / w) (fq) (lq) <= sq (14143 / 10000 * (12 / 1000000))).
  { assert (V5 : w * (vr * 24 / 10000000) <= 12 / 1000000 * w) by nra.
    apply gap2_box.
    - replace (X un / w - fq) with ((X un - w * fq) / w) by (field; lra). unfold Rdiv. rewrite Rabs_mult, (Rabs_pos_eq (/ w)) by (apply Rlt_le, Rinv_0_lt_compat, Hw).
      apply Rmult_le_reg_r with w; [exact Hw|]. rewrite Rmult_assoc, Rinv_l, Rmult_1_r by lra. eapply Rle_trans; [exact GX | exact V5].
    - replace (sdR d * Y un / w - lq) with (sdR d * (Y un - w * (sdR d * lq)) / w).
      2:{ transitivity ((sdR d * Y un - w * (sdR d * sdR d) * lq) / w); [field; lra|]. rewrite S1. field. lra. }
      unfold Rdiv. rewrite !Rabs_mult, SA, Rmult_1_l, (Rabs_pos_eq (/ w)) by (apply Rlt_le, Rinv_0_lt_compat, Hw).
      apply Rmult_le_reg_r with w; [exact Hw|]. rewrite Rmult_assoc, Rinv_l, Rmult_1_r by lra. eapply Rle_trans; [exact GY | exact V5]. }
  assert (VH0 : 0 <= vr * Q2R h0) by (apply Rmult_le_pos; lra).
  assert (Q23 := gap2_trans _ _ _ _ _ _ (vr * Q2R h0 / 2) (14143 / 10000 * (12 / 1000000)) ltac:(lra) ltac:(lra) Q2 Q3).
  assert (Q4 := gap2_trans _ _ _ _ _ _ (14143 / 10000 * (36 / 1000000)) (vr * Q2R h0 / 2 + 14143 / 10000 * (12 / 1000000)) ltac:(lra) ltac:(lra) Q1 Q23).
  set (e1 := 14143 / 10000 * (36 / 1000000) + (vr * Q2R h0 / 2 + 14143 / 10000 * (12 / 1000000))) in *.
  assert (Q6 : gap2 (latR (b_dg b) (tx_ / w) (sdR d * ty_ / w)) (latA (b_dg b) (tx_ / w) (sdR d * ty_ / w))
    (latR (b_dg b) (fq) (lq)) (latA (b_dg b) (fq) (lq)) <= sq (2 * e1)).
  { rewrite lat_gap. replace (sq (2 * e1)) with (4 * sq e1) by (unfold sq; ring). apply Rmult_le_compat_l; [lra | exact Q4]. }
  assert (E0 : 0 <= e1) by (unfold e1; lra).
  exists (mil (b_mu b)), (2 * e1 + 9 / 1000000). split; [lra|]. split; [unfold e1; lra|].
  exact (nearF_move _ _ _ (9 / 1000000) _ _ _ _ (2 * e1) ltac:(lra) ltac:(lra) Q6 PB).
Qed.

(** ** The seven curves of a run *)
Definition fl45 : list (Z * Z) := [(0, 1); (1, 2)]%Z.
Definition fl135 : list (Z * Z) := [(0, 1); (1, 2); (2, 1)]%Z.
Definition flr45 : list (Z * Z) := [(0, 0); (1, 1)]%Z.
Definition flr90 : list (Z * Z) := [(0, 0); (1, 1); (2, 0)]%Z.
Definition cell_cells : list (Z * Z) := [(0, 0); (0, 2); (2, 2); (2, 0)]%Z.
Definition wall_cells_ : list (Z * Z) := [(0, 1); (2, 1); (2, -1)]%Z.

Definition bend_of (k : skind) : bend :=
  match k with
  | FastRun45 => Bend false fl45 cell_cells (1564414 # 10000000) (33333333 # 10000000) 690000 312883 6553902
  | FastRun90 => Bend false fl45 cell_cells (22222222 # 100000000) (4697589 # 1000000) 695000 444444 12973244
  | FastRun135 => Bend false fl135 cell_cells (24291888 # 100000000) (3928989 # 1000000) 694000 485838 14079966
  | FastRun180 => Bend false fl135 cell_cells (26666668 # 100000000) (45803113 # 10000000) 700000 533333 20178743
  | FastRun45Rev => Bend true flr45 wall_cells_ (3635475 # 10000000) (33333333 # 10000000) 690000 514134 4634308
  | FastRunDiagonal90 => Bend true flr90 wall_cells_ (17377333 # 100000000) (32212 # 10000) 688000 245753 6290371
  | FastRun135Rev => Bend true flr90 wall_cells_ (15713444 # 100000000) (3928989 # 1000000) 694000 222222 9956039
  end.

Definition both (k1 k2 : skind) (x y : Z) : bool := (bendb (bend_of k1) x y && bendb (bend_of k2) x y)%bool.

Definition h45 : Q := 14073748433989729 # 8471988683145216000.
Definition h90 : Q := 10508398910563217 # 4503599493152768000.
Definition h135 : Q := 122723087866134553 # 40532395438374912000.
Definition h180 : Q := 150870585537200153 # 40532395438374912000.

Lemma oks : (bendok (bend_of FastRun45) h45 && bendok (bend_of FastRun45Rev) h45 && bendok (bend_of FastRun90) h90
  && bendok (bend_of FastRunDiagonal90) h90 && bendok (bend_of FastRun135) h135 && bendok (bend_of FastRun135Rev) h135
  && bendok (bend_of FastRun180) h180)%bool = true.
Proof. vm_compute. reflexivity. Qed.

Lemma scan45 : snd (scan (both FastRun45 FastRun45Rev) (42080823 # 16777216) (1 # 4) (167222823 # 1677721600) (401543071 # 70599905692876800) h45 steps) = true.
Proof. vm_compute. reflexivity. Qed.
Lemma scan90 : snd (scan (both FastRun90 FastRunDiagonal90) (100663293 # 33554432) (1 # 2) (1140850663 # 10066329600) (18014400489193447 # 337769961986457600) h90 steps) = true.
Proof. vm_compute. reflexivity. Qed.
Lemma scan135 : snd (scan (both FastRun135 FastRun135Rev) (100663293 # 33554432) (3 # 4) (1140850663 # 10066329600) (46161898160259047 # 337769961986457600) h135 steps) = true.
Proof. vm_compute. reflexivity. Qed.
Lemma scan180 : snd (scan (bendb (bend_of FastRun180)) (100663293 # 33554432) (1 # 1) (1140850663 # 10066329600) (24769798610441549 # 112589987328819200) h180 steps) = true.
Proof. vm_compute. reflexivity. Qed.
