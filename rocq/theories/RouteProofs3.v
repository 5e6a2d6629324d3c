(** Joined trajectories: the curves of the table, and the moves of the search. *)
From Coq Require Import ZArith Reals List Bool Lia Lra QArith Qreals Psatz.
From Flocq Require Import Core.
From Verif Require Import Base SearchModel SearchSpec RunModel Num NumLemmas ControlModel TrajModel TrajSpec RouteModel RouteSpec
  TrajProofs TrajProofs2 TrajProofs4 TrajProofs5 TrajProofs7 TrajProofs8 TrajQuad TrajCurve TrajCurve2 TrajCurve3 TrajCurve4
  RouteProofs RouteProofs2.
Import ListNotations.
Open Scope R_scope.

Lemma PI_4dp : 3 < PI <= 31416 / 10000.
Proof. pose proof PI_tight. lra. Qed.

Lemma curve_quad_bound (w vr v p T r m : R) : 0 < w -> 0 < v -> 0 < p -> 0 < vr -> v * p <= r * w -> v * p <= m * vr -> 0 <= r -> 0 <= m <= 1 / 100 ->
  45 / 100 * r * (22 / 100000000 + 7806 / 100 * (m * m)) <= 36 / 1000000 -> 0 <= T -> v * T <= 45 / 100 * vr ->
  let k := v / vr in
  v * T * quad_error (k * (3 * PI)) (k * k * (36 * PI)) (k * k * k * (1200 * PI)) p <= 36 / 1000000 * w.
Proof.
  intros Hw Hv Hp Vr Hs Hm R0 M0 HR T0 HT k. pose proof PI_4dp as [P3 P4].
  set (x := v * p / vr).
  assert (X0 : 0 < x) by (apply Rdiv_lt_0_compat; nra).
  assert (VX : vr * x <= r * w) by (unfold x; replace (vr * (v * p / vr)) with (v * p) by (field; lra); exact Hs).
  assert (XM : x <= m) by (apply Rmult_le_reg_l with vr; [exact Vr|]; unfold x; replace (vr * (v * p / vr)) with (v * p) by (field; lra); lra).
  assert (X1 : x <= 1 / 100) by lra.
  unfold quad_error.
  replace (k * (3 * PI) * p) with (3 * PI * x) by (unfold k, x; field; lra).
  replace ((k * (3 * PI) * (k * (3 * PI)) + k * k * (36 * PI)) * (p * p)) with ((9 * (PI * PI) + 36 * PI) * (x * x)) by (unfold k, x; field; lra).
  replace ((k * k * k * (1200 * PI) + 3 * (k * (3 * PI)) * (k * k * (36 * PI)) + k * (3 * PI) * (k * (3 * PI)) * (k * (3 * PI))) * (p * p * p))
    with ((1200 * PI + 324 * (PI * PI) + 27 * (PI * PI * PI)) * (x * x * x)) by (unfold k, x; field; lra).
  assert (P2 : 0 <= PI * PI <= 987 / 100) by (split; nra). assert (P33 : 0 <= PI * PI * PI <= 3101 / 100) by (split; nra).
  assert (XX : 0 <= x * x <= x / 100) by (split; nra). assert (X2 : x * x <= m * m) by nra. assert (XXX : 0 <= x * x * x <= x * (m * m)) by (split; nra).
  assert (QB : 2 / 100000000 * (3 * PI * x) + 1 / 100000000 * ((9 * (PI * PI) + 36 * PI) * (x * x))
    + (1200 * PI + 324 * (PI * PI) + 27 * (PI * PI * PI)) * (x * x * x) / 100 <= (22 / 100000000 + 7806 / 100 * (m * m)) * x).
  { assert (PI * x <= 31416 / 10000 * x) by nra.
    assert (A : (9 * (PI * PI) + 36 * PI) * (x * x) <= 210 * (x / 100)) by (apply Rmult_le_compat; lra).
    assert (B : (1200 * PI + 324 * (PI * PI) + 27 * (PI * PI * PI)) * (x * x * x) <= 7806 * (x * (m * m))) by (apply Rmult_le_compat; lra). lra. }
  set (Q := 2 / 100000000 * (3 * PI * x) + _ + _) in *.
  assert (Q0 : 0 <= Q).
  { unfold Q. assert (0 <= PI * x) by nra. assert (0 <= (9 * (PI * PI) + 36 * PI) * (x * x)) by (apply Rmult_le_pos; lra).
    assert (0 <= (1200 * PI + 324 * (PI * PI) + 27 * (PI * PI * PI)) * (x * x * x)) by (apply Rmult_le_pos; lra). lra. }
  set (q := 22 / 100000000 + 7806 / 100 * (m * m)) in *. assert (0 <= q) by (unfold q; nra).
  apply Rle_trans with (45 / 100 * vr * (q * x));
    [|apply Rle_trans with (45 / 100 * q * (r * w)); [replace (45 / 100 * vr * (q * x)) with (45 / 100 * q * (vr * x)) by ring; apply Rmult_le_compat_l; lra|];
      replace (45 / 100 * q * (r * w)) with (45 / 100 * r * q * w) by ring; apply Rmult_le_compat_r; lra].
  apply Rmult_le_compat; try assumption. apply Rmult_le_pos; lra.
Qed.

Lemma create_ride (r xm ls le x y vr th w v p ex ey : R) (d : sdir) (dq rq m c0 h0 ic is_ : Q) :
  0 <= r -> 0 <= xm <= 1 / 100 -> 45 / 100 * r * (22 / 100000000 + 7806 / 100 * (xm * xm)) <= 36 / 1000000 ->
  0 < w -> 0 < v -> 0 < p -> 1 <= vr -> v * p <= r * w -> r <= xm * vr -> certified dq rq m c0 h0 ic is_ = true -> th / 180 = Q2R dq ->
  let q := @create_params Rops ls le x y vr th w d in
  let s := @generate_curve Rops p (l_start q) 0%R 0%R (sl_theta q) v (v_ref q) (dtheta q) (ddtheta q) (dddtheta q) in
  (forall X Y, drives v (fun u => tx (@calculate Rops (cu_calc s) u)) (cu_t_end s) (l_start q) 0 X Y ->
     Rabs (X (cu_t_end s) - x_curve_end q) <= ex /\ Rabs (Y (cu_t_end s) - y_curve_end q) <= ey) ->
  0 <= ex -> 0 <= ey ->
  let h := 943 / 100 * (v * p / (w * vr)) in
  exists l, plays curve_next s l /\
    ride l (ahead (l_start q)) (curve_end q) v v (v * p + 72 / 1000000 * w + (ex + ey)) h (v * h).
Proof.
  intros HR0 HM0 HRM Hw Hv Hp Hr Hs Hsm C Hth q s HE Ex Ey h.
  set (sg := match d with SLeft => 1 | SRight => -1 end).
  assert (WR : 0 < w * vr) by (apply Rmult_lt_0_compat; lra).
  assert (SG : sg = 1 \/ sg = -1) by (unfold sg; destruct d; auto).
  assert (EQ : sl_theta q = sg * (PI * Q2R dq) /\ v_ref q = w * vr /\ dtheta q = 3 * PI /\ ddtheta q = 36 * PI /\ dddtheta q = 1200 * PI).
  { unfold q, sg, create_params, degree. rewrite <- Hth. destruct d; cbn [sl_theta l_start v_ref dtheta ddtheta dddtheta]; rops;
      repeat split; field. }
  destruct EQ as (E1 & E3 & E4 & E5 & E6).
  destruct (certified_ok _ _ _ _ _ _ _ C) as (D5 & R0 & RD & TH & _).
  set (k := v / (w * vr)). assert (Hk : 0 < k) by (apply Rdiv_lt_0_compat; assumption).
  destruct (closed_turns k dq sg Hk D5 R0 SG) as (Lg & c & T & G & Tu).
  assert (G' := generate_closed k dq sg Hk D5 SG). cbv zeta in G'. rewrite G in G'.
  assert (PC := plan_closed k (Q2R (peakQ dq)) (Q2R dq) sg Hk ltac:(lra) RD). rewrite PC in G'.
  assert (ETT : T = turn_t (Q2R (peakQ dq)) (Q2R dq) / k) by (injection G' as _ E; exact E).
  clear G' PC. set (g := @Generator Rops _ _ _) in *.
  assert (ES : s = @CurveTraj Rops c 0%R T p (l_start q) 0%R v).
  { unfold s, generate_curve. rewrite E1, E3, E4, E5, E6. rewrite n0_R. rops. fold k. change (generate _ _ _ _ _) with (generate g 0%R (sg * (PI * Q2R dq))%R 0%R 0%R). rewrite G. reflexivity. }
  rewrite ES in *. cbn [cu_calc cu_t_end] in HE.
  assert (T0 : 0 <= T) by (destruct Tu; assumption).
  assert (VT : v * T <= 45 / 100 * (w * vr)).
  { rewrite ETT. replace (v * (turn_t (Q2R (peakQ dq)) (Q2R dq) / k)) with (turn_t (Q2R (peakQ dq)) (Q2R dq) * (w * vr)) by (unfold k; field; lra).
    apply Rmult_le_compat_r; lra. }
  assert (WV : v * p <= xm * (w * vr)) by (apply Rle_trans with (r * w); [exact Hs | nra]).
  assert (QB := curve_quad_bound w (w * vr) v p T r xm Hw Hv Hp WR Hs WV HR0 HM0 HRM T0 VT). cbv zeta in QB. fold k in QB.
  assert (AP : ahead (l_start q) = @Pose Rops (l_start q) 0%R 0%R) by reflexivity.
  destruct (curve_ride p (l_start q) 0 0 (sg * (PI * Q2R dq)) v (x_curve_end q) (y_curve_end q) ex ey (36 / 1000000 * w) g c T
    Lg Tu Hp ltac:(lra) HE Ex Ey QB) as (l & PL & RI).
  exists l. split; [exact PL|]. unfold curve_end. rewrite E1. rewrite Rplus_0_l in RI.
  assert (HH : g_v_max g * p <= h).
  { unfold g. cbn [g_v_max]. unfold h. replace (v * p / (w * vr)) with (k * p) by (unfold k; field; lra).
    pose proof PI_4dp. assert (0 < k * p) by nra. nra. }
  eapply ride_weaken; [exact RI | lra | exact HH|]. apply Rmult_le_compat_l; [lra | exact HH].
Qed.

(** the error at the end of a curve of the table, and its reference speed, in squares *)
Definition slack (k : option skind) : R := match k with Some FastRun45 => 65 / 10000 | _ => 1 / 25000 end.
Definition v_low (k : option skind) : R := match k with None => 1 | _ => 32212 / 10000 end.

(** how far the mouse may go in one period, in squares *)
Definition reach (k : option skind) : R := match k with None => 1 / 100 | _ => 1 / 50 end.

Lemma table_ride (w off v p : R) k d : 0 < w -> 0 < v -> 0 < p -> v * p <= reach k * w -> (k = None -> off <= 30 / 1000) ->
  let q := @parameters Rops w off k d in
  let s := @generate_curve Rops p (l_start q) 0%R 0%R (sl_theta q) v (v_ref q) (dtheta q) (ddtheta q) (dddtheta q) in
  let h := 943 / 100 * (v * p / w / v_low k) in
  exists l, plays curve_next s l /\
    ride l (ahead (l_start q)) (curve_end q) v v (v * p + 72 / 1000000 * w + slack k * w) h (v * h).
Proof.
  intros Hw Hv Hp Hs Ho q s h.
  assert (VP : 0 < v * p) by nra.
  assert (HB : forall vr, v_low k <= vr -> 943 / 100 * (v * p / (w * vr)) <= h).
  { intros vr L. unfold h. apply Rmult_le_compat_l; [lra|]. assert (0 < v_low k) by (unfold v_low; destruct k; lra).
    replace (v * p / w / v_low k) with (v * p / (w * v_low k)) by (field; lra).
    apply Rmult_le_compat_l; [lra|]. apply Rinv_le_contravar; [nra|]. apply Rmult_le_compat_l; lra. }
  assert (FIN : forall vr ex ey, v_low k <= vr -> ex + ey <= slack k * w ->
    (exists l, plays curve_next s l /\ let h := 943 / 100 * (v * p / (w * vr)) in
      ride l (ahead (l_start q)) (curve_end q) v v (v * p + 72 / 1000000 * w + (ex + ey)) h (v * h)) ->
    exists l, plays curve_next s l /\ ride l (ahead (l_start q)) (curve_end q) v v (v * p + 72 / 1000000 * w + slack k * w) h (v * h)).
  { intros vr ex ey L E (l & PL & RI). exists l. split; [exact PL|]. specialize (HB vr L).
    eapply ride_weaken; [exact RI | lra | exact HB|]. apply Rmult_le_compat_l; [lra | exact HB]. }
  assert (W0 : 0 <= w / 50000) by lra. unfold reach in Hs.
  destruct k as [k|].
  - destruct (match k with FastRun45 => true | _ => false end) eqn:K45.
    + destruct k; try discriminate. clear K45.
      apply (FIN (33333333 / 10000000) (33 / 10000 * w) (32 / 10000 * w)); [cbn; lra | cbn; lra|].
      eapply create_ride with (r := 1 / 50) (xm := 1 / 50 / (32212 / 10000)) (10 := cert45); try assumption; rops; rewrite ?q2r; try lra.
      change (@create_params Rops _ _ _ _ _ _ _ _) with q.
      intros X Y D.
      destruct (create_curve_end (1564414 / 10000000) (3680321 / 10000000) (739762 / 1000000) (239762 / 1000000)
        (33333333 / 10000000) (45 / 1) w v p d _ _ _ _ _ _ _ Hw Hv ltac:(lra) cert45 ltac:(rewrite q2r; lra)) as [_ AL].
      destruct (AL X Y D) as [A B]. rewrite q2r in A, B.
      assert (EP : x_curve_end q = w * (739762 / 1000000) /\ y_curve_end q = w * (match d with SLeft => 1 | SRight => -1 end * (239762 / 1000000))).
      { unfold q, parameters, create_params. destruct d; cbn [x_curve_end y_curve_end]; rops; split; ring. }
      destruct EP as [-> ->]. split.
      * eapply Rle_trans; [refine (scaled_close _ _ _ _ _ (32 / 10000) Hw A _); lra | lra].
      * eapply Rle_trans; [refine (scaled_close _ _ _ _ _ (3171 / 1000000) Hw B _); destruct d; lra | lra].
    + assert (N45 : Some k <> Some FastRun45) by (destruct k; congruence).
      assert (SL : slack (Some k) = 1 / 25000) by (destruct k; try reflexivity; discriminate).
      assert (AL : forall X Y, drives v (fun u => tx (@calculate Rops (cu_calc s) u)) (cu_t_end s) (l_start q) 0 X Y ->
         Rabs (X (cu_t_end s) - x_curve_end q) <= w / 50000 /\ Rabs (Y (cu_t_end s) - y_curve_end q) <= w / 50000)
        by exact (proj2 (curve_ends w off v p (Some k) d Hw Hv ltac:(congruence) N45)).
      destruct k; try discriminate;
      [ apply (FIN (33333333 / 10000000) (w / 50000) (w / 50000)); [cbn; lra | rewrite SL; lra|]; eapply create_ride with (r := 1 / 50) (xm := 1 / 50 / (32212 / 10000)) (10 := cert45)
      | apply (FIN (4697589 / 1000000) (w / 50000) (w / 50000)); [cbn; lra | rewrite SL; lra|]; eapply create_ride with (r := 1 / 50) (xm := 1 / 50 / (32212 / 10000)) (10 := cert90)
      | apply (FIN (3928989 / 1000000) (w / 50000) (w / 50000)); [cbn; lra | rewrite SL; lra|]; eapply create_ride with (r := 1 / 50) (xm := 1 / 50 / (32212 / 10000)) (10 := cert135)
      | apply (FIN (3928989 / 1000000) (w / 50000) (w / 50000)); [cbn; lra | rewrite SL; lra|]; eapply create_ride with (r := 1 / 50) (xm := 1 / 50 / (32212 / 10000)) (10 := cert135)
      | apply (FIN (45803113 / 10000000) (w / 50000) (w / 50000)); [cbn; lra | rewrite SL; lra|]; eapply create_ride with (r := 1 / 50) (xm := 1 / 50 / (32212 / 10000)) (10 := cert180)
      | apply (FIN (32212 / 10000) (w / 50000) (w / 50000)); [cbn; lra | rewrite SL; lra|]; eapply create_ride with (r := 1 / 50) (xm := 1 / 50 / (32212 / 10000)) (10 := cert90)];
      try assumption; rops; rewrite ?q2r; try lra; exact AL.
  - specialize (Ho eq_refl).
    assert (AL : forall X Y, drives v (fun u => tx (@calculate Rops (cu_calc s) u)) (cu_t_end s) (l_start q) 0 X Y ->
         Rabs (X (cu_t_end s) - x_curve_end q) <= w / 50000 /\ Rabs (Y (cu_t_end s) - y_curve_end q) <= w / 50000)
        by exact (proj2 (curve_ends w off v p None d Hw Hv ltac:(intros _; lra) ltac:(discriminate))).
    revert AL FIN. unfold s, q. unfold parameters, search90_params. rops.
    destruct (Rleb_spec (off / (9 / 100)) (55555556 / 1000000000)) as [L|L]; intros AL FIN.
    + apply (FIN (80529999 / 30000000) (w / 50000) (w / 50000)); [cbn; lra | cbn; lra|].
      eapply create_ride with (r := 1 / 100) (xm := 1 / 100) (10 := cert90); try assumption; rops; rewrite ?q2r; lra.
    + apply (FIN ((5 / 10 - off / (9 / 100)) * (603975 / 100000)) (w / 50000) (w / 50000)); [cbn; lra | cbn; lra|].
      eapply create_ride with (r := 1 / 100) (xm := 1 / 100) (10 := cert90); try assumption; rops; rewrite ?q2r; lra.
Qed.
