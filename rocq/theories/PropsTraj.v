(** Trajectories (mousecore2/src/trajectory.rs, trajectory/{straight,spin,slalom}.rs) and poses
    (wall.rs).  In exact real arithmetic ([Rops]) unless a statement is for every [ops] or names
    binary32 ([Fops l]). *)
From Coq Require Import ZArith Reals List Bool Lra Lia.
From Flocq Require Import Core BinarySingleNaN.
From Verif Require Import Base Num NumLemmas SearchModel SearchSpec RunModel RunSpec RunNode ControlModel TrajModel TrajSpec
  TrajProofs TrajProofs2 TrajProofs3 TrajProofs4 TrajProofs5 TrajProofs6 TrajProofs7 TrajProofs8 TrajQuad.
Import ListNotations.
Open Scope R_scope.

(** ** C25 *)

(** exact for Front and Back; for the slaloms the error also contains the mismatch between the
    front offset, which SlalomConfig::new divides by 0.09, and the square width. *)
Theorem C25_search_moves_partial W s n k s' (w off : R) : supported W -> valid W (ss_coord s) -> valid W n ->
  crosses (ss_coord s) (ss_posture s) -> 0 <= w -> ss_update s n = Ret (s', Some k) ->
  near (match k with Front | Back => 0 | _ => 1 / 1000000 * w + 2 * Rabs (off * (w / (9 / 100) - 1)) end)
    (compose (@pose_of_search Rops s w off) (search_end w off k)) (@pose_of_search Rops s' w off).
Proof. exact (search_steps W s n k s' w off). Qed.
Print Assumptions C25_search_moves_partial.

(** for squares of 90 mm the mismatch is zero. *)
Theorem C25_standard_maze_partial W s n k s' (off : R) : supported W -> valid W (ss_coord s) -> valid W n ->
  crosses (ss_coord s) (ss_posture s) -> ss_update s n = Ret (s', Some k) ->
  let w := 9 / 100 in
  near (1 / 1000000 * w) (compose (@pose_of_search Rops s w off) (search_end w off k)) (@pose_of_search Rops s' w off).
Proof.
  intros HW Hs Hn Hc E. cbv zeta.
  eapply near_weaken; [|exact (search_steps W s n k s' (9 / 100) off HW Hs Hn Hc ltac:(lra) E)].
  replace (off * (9 / 100 / (9 / 100) - 1)) with 0 by field. rewrite Rabs_R0. destruct k; lra.
Qed.
Print Assumptions C25_standard_maze_partial.

Example C25_case : exists s', ss_update (SS (Co 0 1) North) (Co 1 2) = Ret (s', Some Right) /\
  valid 16 (Co 0 1) /\ valid 16 (Co 1 2) /\ crosses (Co 0 1) North.
Proof. eexists. repeat split; try reflexivity; vm_compute; try reflexivity; try discriminate. Qed.

(** for squares of 180 mm a right turn with an offset of 10 mm misses by more than 9 mm. *)
Theorem C25_refuted : exists s n k s' (w off : R), valid 16 (ss_coord s) /\ valid 16 n /\
  crosses (ss_coord s) (ss_posture s) /\ 0 < w /\ ss_update s n = Ret (s', Some k) /\
  ~ near (1 / 20 * w) (compose (@pose_of_search Rops s w off) (search_end w off k)) (@pose_of_search Rops s' w off).
Proof.
  exists (SS (Co 0 1) North), (Co 1 2), Right, (SS (Co 1 2) East), (18 / 100), (1 / 100).
  split; [vm_compute; repeat split; try reflexivity; discriminate|].
  split; [vm_compute; repeat split; try reflexivity; discriminate|].
  split; [reflexivity|]. split; [lra|]. split; [reflexivity|]. exact search_scaled.
Qed.
Print Assumptions C25_refuted.

(** ** C31 *)
Theorem C31_run_moves W a b t (w off : R) : supported W -> valid_node W a -> valid_node W b -> 0 <= w ->
  trajectory_kind a b = Ret (Some t) ->
  near (1 / 1000000 * w) (compose (@pose_of_node Rops a w) (run_end w off t)) (@pose_of_node Rops b w).
Proof. exact (run_moves_end W a b t w off). Qed.
Print Assumptions C31_run_moves.

Example C31_case : valid_node 16 (Nde 2 4 PN) /\ valid_node 16 (Nde 3 6 PNE) /\ valid_node 16 (Nde 7 10 PNE) /\
  trajectory_kind (Nde 2 4 PN) (Nde 3 6 PNE) = Ret (Some (RSlalom FastRun45 SRight)) /\
  trajectory_kind (Nde 3 6 PNE) (Nde 7 10 PNE) = Ret (Some (RStraightDiagonal 4)).
Proof. unfold valid_node. vm_compute. repeat split; discriminate. Qed.

(** ** C32 *)
Theorem C32_speed_change (g : @generator Rops) (x0 v0 v1 : R) : limits g ->
  let T := ramp_time (g_a_max g) (g_j_max g) (Rabs (v1 - v0)) in
  exists c, generate_acceleration g x0 v0 v1 = (c, T) /\ 0 <= T /\
    follows (accel_calculate c) T (g_j_max g) /\
    (forall t : R, 0 <= t <= T ->
       Rmin v0 v1 <= tv (accel_calculate c t) <= Rmax v0 v1 /\
       Rabs (ta (accel_calculate c t)) <= g_a_max g) /\
    (forall t, Rabs (tj (accel_calculate c t)) <= g_j_max g) /\
    (tx (accel_calculate c 0%R) = x0 /\ tv (accel_calculate c 0%R) = v0 /\ ta (accel_calculate c 0%R) = 0) /\
    (tx (accel_calculate c T) = x0 + (v0 + v1) / 2 * T /\ tv (accel_calculate c T) = v1 /\
     ta (accel_calculate c T) = 0) /\
    (forall t : R, t < 0 -> accel_calculate c t = @Axis4 Rops x0 v0 0%R 0%R) /\
    (forall t : R, T < t -> accel_calculate c t = @Axis4 Rops (x0 + (v0 + v1) / 2 * T)%R v1 0%R 0%R).
Proof. exact (accel_ok g x0 v0 v1). Qed.
Print Assumptions C32_speed_change.

Example C32_case : limits (@Generator Rops 2%R 10%R 100%R) /\ ramp_time 10 100 2 = 2 / 10 + 10 / 100.
Proof.
  split; [unfold limits; cbn; lra|]. unfold ramp_time. destruct (Rle_dec (10 * 10 / 100) 2); lra.
Qed.

(** ** C33 *)
Theorem C33_straight_partial (g : @generator Rops) (p dist vs ve : R) : limits g -> 0 < p ->
  0 <= vs <= g_v_max g -> 0 <= ve <= g_v_max g -> room g (Rabs dist) vs ve ->
  let r := straight_generate_tv (@StraightGenerator Rops g p) dist vs ve in
  exists (f : R -> @axis4 Rops) (T vt : R), snd r = vt /\ 0 <= T /\ follows f T (g_j_max g) /\
    (forall t, 0 <= t <= T -> Rmin vs vt <= sgn dist * tv (f t) <= g_v_max g /\
       Rabs (ta (f t)) <= g_a_max g /\ Rabs (tj (f t)) <= g_j_max g) /\
    (tx (f 0) = 0 /\ tv (f 0) = sgn dist * vs /\ ta (f 0) = 0) /\
    (tx (f T) = dist /\ tv (f T) = sgn dist * vt /\ ta (f T) = 0) /\
    0 <= vt /\ (ve <= vs -> vt = ve) /\ (vs < ve -> vs <= vt <= ve) /\
    yields straight_next (fst r) (samples T p) /\
    forall n, INR n * p <= T -> output straight_next n (fst r) =
      Some (let z := @Axis4 Rops 0%R 0%R 0%R 0%R in @Target Rops (f (INR n * p)) z z).
Proof. exact (straight_ok g p dist vs ve). Qed.
Print Assumptions C33_straight_partial.

Theorem C33_mirror (g : @generator Rops) (p dist vs ve : R) : 0 < p -> dist <> 0 ->
  let r := straight_generate_tv (@StraightGenerator Rops g p) dist vs ve in
  let r' := straight_generate_tv (@StraightGenerator Rops g p) (- dist)%R vs ve in
  snd r' = snd r /\ forall n, output straight_next n (fst r') =
    option_map (fun t => @Target Rops (neg4 (t_x t)) (t_y t) (t_theta t)) (output straight_next n (fst r)).
Proof. exact (straight_mirror g p dist vs ve). Qed.
Print Assumptions C33_mirror.

(** braking from 1 m/s to 0.5 m/s within 10 m, and a move of 90 mm from rest to rest. *)
Example C33_case : let g := @Generator Rops 2%R 1%R 1%R in
  limits g /\ room g (Rabs (-10)) 1 (1 / 2) /\ room g (Rabs (9 / 100)) 0 0.
Proof.
  cbv zeta. assert (L : limits (@Generator Rops 2%R 1%R 1%R)) by (unfold limits; cbn; lra).
  split; [exact L|]. split.
  - split; [right | left; lra]. intros w Hw. cbn [g_a_max g_j_max].
    eapply Rle_lt_trans; [apply ramp_distance_bound; try lra; rewrite Rabs_left1; lra|]. rewrite Rabs_left; lra.
  - apply big_room; [exact L|]. apply big_enough_when; [exact L| |]; cbn [g_v_max g_a_max g_j_max];
      change (@num Rops) with R; [lra | rewrite Rabs_pos_eq; lra].
Qed.

(** with v_max = 4, a_max = 100, j_max = 1, braking from 4 to rest takes 8; asked to do so within
    8.2, the planned position is not even a continuous motion. *)
Theorem C33_refuted : exists (g : @generator Rops) (d vs ve : R), limits g /\
  0 <= ve <= vs /\ vs <= g_v_max g /\ ramp_distance (g_a_max g) (g_j_max g) vs ve < d /\
  exists c T vt, generate_tv g 0%R d vs ve = (c, T, vt) /\ 0 < T /\ forall J, ~ follows (calculate c) T J.
Proof.
  exists g_jump, (82 / 10), 4, 0. split; [unfold limits; cbn; lra|]. split; [lra|]. split; [cbn; lra|].
  split; [|exact jump_not_follows]. cbn [g_jump g_a_max g_j_max]. rewrite ramp_small; [|lra|rewrite Rabs_left; lra].
  replace (Rabs (0 - 4)) with (2 * 2) by (rewrite Rabs_left; lra). rewrite sqrt_square; lra.
Qed.
Print Assumptions C33_refuted.

(** ** C34 *)
Theorem C34_refuted : exists (g : @generator Rops) (d vs ve : R), limits g /\
  0 <= ve <= vs /\ vs <= g_v_max g /\ ramp_distance (g_a_max g) (g_j_max g) vs ve < d /\
  forall p, 2 <= snd (straight_generate_tv (@StraightGenerator Rops g p) d vs ve) - ve.
Proof.
  exists g_jump, (82 / 10), 4, 0. split; [unfold limits; cbn; lra|]. split; [lra|]. split; [cbn; lra|].
  split.
  - cbn [g_jump g_a_max g_j_max]. rewrite ramp_small; [|lra|rewrite Rabs_left; lra].
    replace (Rabs (0 - 4)) with (2 * 2) by (rewrite Rabs_left; lra). rewrite sqrt_square; lra.
  - intros p. rewrite straight_tv_snd. cbn [sg_gen]. rewrite generate_tv_snd by (cbn; lra).
    rewrite Rabs_pos_eq by lra. destruct jump_r as ((A & _) & _). cbv zeta in A. lra.
Qed.
Print Assumptions C34_refuted.

(** true when braking to every speed between v_end and v_start fits. *)
Theorem C34_feasible_partial (g : @straight_generator Rops) (d vs ve : R) : limits (sg_gen g) ->
  0 <= ve <= vs -> vs <= g_v_max (sg_gen g) ->
  (forall w, ve <= w <= vs -> ramp_distance (g_a_max (sg_gen g)) (g_j_max (sg_gen g)) vs w < Rabs d) ->
  snd (straight_generate_tv g d vs ve) = ve.
Proof.
  intros Hg He Hs HD. rewrite straight_tv_snd. replace (@n0 Rops) with 0 by (symmetry; apply n0_R).
  rewrite generate_tv_snd by lra. apply limited_down; assumption.
Qed.
Print Assumptions C34_feasible_partial.

(** ** C35 *)
Theorem C35_terminal_velocity (g : @straight_generator Rops) (d vs ve : R) : limits (sg_gen g) ->
  0 <= vs < ve -> ve <= g_v_max (sg_gen g) ->
  let vt := snd (straight_generate_tv g d vs ve) in
  let D := ramp_distance (g_a_max (sg_gen g)) (g_j_max (sg_gen g)) vs in
  vs <= vt <= ve /\ D vt <= Rabs d /\
  forall w, w <= ve -> D w < Rabs d -> w <= vt + (g_v_max (sg_gen g) - vs) / 2 ^ 25.
Proof.
  intros Hg Hs He. cbv zeta. rewrite straight_tv_snd. replace (@n0 Rops) with 0 by (symmetry; apply n0_R).
  rewrite generate_tv_snd by lra.
  destruct (limited_up (sg_gen g) (Rabs d) vs ve Hg (Rabs_pos d) Hs He) as (A & B & C & _). auto.
Qed.
Print Assumptions C35_terminal_velocity.

Example C35_case : let g := @StraightGenerator Rops (@Generator Rops 2%R 1%R 1%R) (1 / 1000)%R in
  limits (sg_gen g) /\ 0 <= 1 < 2 /\ 2 <= g_v_max (sg_gen g).
Proof. unfold limits. cbn. lra. Qed.

(** ** C36 *)
Theorem C36_straight (T p : R) (c : @straight_calc Rops) : 0 < p ->
  yields straight_next (straight_new c T p) (samples T p) /\
  forall n, INR n * p <= T -> exists t, output straight_next n (straight_new c T p) = Some t /\
    t_x t = straight_calculate c (INR n * p)%R.
Proof.
  intros Hp. destruct (straight_sampled T p Hp c) as [Y O]. split; [exact Y|].
  intros n Hn. eexists. split; [exact (O n Hn) | reflexivity].
Qed.
Print Assumptions C36_straight.

Theorem C36_spin (T p : R) (c : @overall Rops) : 0 < p ->
  yields spin_next (@SpinTraj Rops c 0%R T p) (samples T p) /\
  forall n, INR n * p <= T -> exists t, output spin_next n (@SpinTraj Rops c 0%R T p) = Some t /\
    t_theta t = calculate c (INR n * p)%R.
Proof.
  intros Hp. destruct (spin_sampled T p Hp c) as [Y O]. split; [exact Y|].
  intros n Hn. eexists. split; [exact (O n Hn) | reflexivity].
Qed.
Print Assumptions C36_spin.

Theorem C36_curve (T p x y v : R) (c : @overall Rops) : 0 < p ->
  yields curve_next (@CurveTraj Rops c 0%R T p x y v) (samples T p) /\
  forall n, INR n * p <= T -> exists t, output curve_next n (@CurveTraj Rops c 0%R T p x y v) = Some t /\
    t_theta t = calculate c (INR n * p)%R.
Proof.
  intros Hp. destruct (curve_sampled T p Hp c x y v) as [Y O]. split; [exact Y|].
  intros n Hn. eexists. split; [exact (O n Hn) | reflexivity].
Qed.
Print Assumptions C36_curve.

Theorem C36_stop (T p : R) (q : @pose Rops) : 0 < p ->
  yields stop_next (@stop_new Rops q p T) (Z.to_nat (Zceil (T / p))) /\
  forall n, INR n * p < T -> output stop_next n (@stop_new Rops q p T) = Some (rest_at q).
Proof. intros Hp. exact (stop_sampled T p Hp q). Qed.
Print Assumptions C36_stop.

(** 1 s at 3 samples per second: four targets of a straight, three of a stop. *)
Example C36_case : samples 1 (1 / 3) = 4%nat /\ Z.to_nat (Zceil (1 / (1 / 3))) = 3%nat.
Proof.
  unfold samples. replace (1 / (1 / 3)) with (IZR 3) by field. rewrite Zfloor_IZR, Zceil_IZR. split; reflexivity.
Qed.

(** ** C37: in binary32, with every math library *)
Theorem C37_refuted (l : libm) : exists g : @straight_generator (Fops l),
  (@ltb (Fops l) n0 (g_v_max (sg_gen g)) = true /\ @ltb (Fops l) n0 (g_a_max (sg_gen g)) = true /\
   @ltb (Fops l) n0 (g_j_max (sg_gen g)) = true /\ @ltb (Fops l) n0 (sg_period g) = true) /\
  forall n, output straight_next n (straight_generate g n0 n0 n0) <> None.
Proof.
  exists (@StraightGenerator (Fops l) (unit_gen l) n1). split; [repeat split; vm_compute; reflexivity|].
  exact (straight_endless l _ (zero_move_endless l)).
Qed.
Print Assumptions C37_refuted.

(** in exact arithmetic moves that are not too short end. *)
Theorem C37_finite_partial (g : @generator Rops) (p d : R) : limits g -> 0 < p -> big_enough g d ->
  exists n, yields straight_next (straight_generate (@StraightGenerator Rops g p) d 0%R 0%R) n /\ (0 < n)%nat.
Proof.
  intros Hg Hp Hd. destruct (big_room g d Hg Hd) as [_ Hr].
  destruct (straight_ok g p d 0 0 Hg Hp) as (f & T & vt & _ & HT & _ & _ & _ & _ & _ & _ & _ & Y & _);
    [destruct Hg; lra | destruct Hg; lra | exact Hr|].
  exists (samples T p). split; [exact Y|]. unfold samples.
  assert (0 <= Zfloor (T / p))%Z; [|lia]. apply Zfloor_lub. apply Rmult_le_pos; [exact HT|].
  apply Rlt_le, Rinv_0_lt_compat, Hp.
Qed.
Print Assumptions C37_finite_partial.

(** ** C38 *)
Theorem C38_pose (p : @pose Rops) (t : @target Rops) : let t' := shift p t in
  @Pose Rops (tx (t_x t')) (tx (t_y t')) (tx (t_theta t')) =
  compose p (@Pose Rops (tx (t_x t)) (tx (t_y t)) (tx (t_theta t))).
Proof. exact (shift_pose p t). Qed.
Print Assumptions C38_pose.

Theorem C38_norms (p : @pose Rops) (s t : @target Rops) : let s' := shift p s in let t' := shift p t in
  (forall q : @axis4 Rops -> R, q = @tv Rops \/ q = @ta Rops \/ q = @tj Rops ->
     q (t_x t') * q (t_x t') + q (t_y t') * q (t_y t') = q (t_x t) * q (t_x t) + q (t_y t) * q (t_y t)) /\
  (tx (t_x s') - tx (t_x t')) * (tx (t_x s') - tx (t_x t')) + (tx (t_y s') - tx (t_y t')) * (tx (t_y s') - tx (t_y t')) =
  (tx (t_x s) - tx (t_x t)) * (tx (t_x s) - tx (t_x t)) + (tx (t_y s) - tx (t_y t)) * (tx (t_y s) - tx (t_y t)).
Proof. exact (shift_norms p s t). Qed.
Print Assumptions C38_norms.

Theorem C38_heading (p : @pose Rops) (t : @target Rops) : let t' := shift p t in
  tx (t_theta t') = tx (t_theta t) + p_theta p /\
  forall q : @axis4 Rops -> R, q = @tv Rops \/ q = @ta Rops \/ q = @tj Rops ->
    q (t_theta t') = q (t_theta t) /\
    q (t_x t') * cos (tx (t_theta t')) + q (t_y t') * sin (tx (t_theta t')) =
    q (t_x t) * cos (tx (t_theta t)) + q (t_y t) * sin (tx (t_theta t)) /\
    - q (t_x t') * sin (tx (t_theta t')) + q (t_y t') * cos (tx (t_theta t')) =
    - q (t_x t) * sin (tx (t_theta t)) + q (t_y t) * cos (tx (t_theta t)).
Proof. exact (shift_heading p t). Qed.
Print Assumptions C38_heading.

Theorem C38_compose (p q : @pose Rops) (t : @target Rops) : shift p (shift q t) = shift (compose p q) t.
Proof. exact (shift_compose p q t). Qed.
Print Assumptions C38_compose.

(** in every arithmetic and for every inner iterator. *)
Theorem C38_iterator {K : ops} {S : Type} (p : pose) (next : iterator S) (s : S) :
  (forall n, output (shift_next p next) n s = option_map (shift p) (output next n s)) /\
  (forall n, yields (shift_next p next) s n <-> yields next s n).
Proof. split; intros n; [exact (shift_output p next n s) | exact (shift_yields p next n s)]. Qed.
Print Assumptions C38_iterator.

(** ** C39 *)
Theorem C39_curve (p x y th0 d v v_ref dth ddth dddth : R) :
  let g := curve_gen v v_ref dth ddth dddth in
  let s := @generate_curve Rops p x y th0 d v v_ref dth ddth dddth in
  limits g -> big_enough g d -> 0 < p ->
  exists f T, turns f g T th0 d /\
    yields curve_next s (samples T p) /\
    (exists t, output curve_next 0 s = Some t /\ tx (t_x t) = x /\ tx (t_y t) = y) /\
    (forall n t t', output curve_next n s = Some t -> output curve_next (S n) s = Some t' ->
       (tx (t_x t') - tx (t_x t)) * (tx (t_x t') - tx (t_x t))
       + (tx (t_y t') - tx (t_y t)) * (tx (t_y t') - tx (t_y t)) <= (v * p) * (v * p)) /\
    exists th vx vy ax ay : R -> R,
      (forall u, vx u = v * cos (th u) /\ vy u = v * sin (th u) /\
         derivable_pt_lim vx u (ax u) /\ derivable_pt_lim vy u (ay u)) /\
      forall n t, output curve_next n s = Some t ->
        let u := INR n * p in
        t_theta t = f u /\ tx (t_theta t) = th u /\ derivable_pt_lim th u (tv (t_theta t)) /\
        tv (t_x t) = vx u /\ tv (t_y t) = vy u /\ ta (t_x t) = ax u /\ ta (t_y t) = ay u /\
        derivable_pt_lim ax u (tj (t_x t)) /\ derivable_pt_lim ay u (tj (t_y t)).
Proof. exact (curve_ok p x y th0 d v v_ref dth ddth dddth). Qed.
Print Assumptions C39_curve.

(** the curves of all run slaloms, for all square widths and speeds. *)
Theorem C39_table (w off v : R) k d : 0 < w -> 0 < v ->
  let q := @parameters Rops w off (Some k) d in
  limits (curve_gen v (v_ref q) (dtheta q) (ddtheta q) (dddtheta q)) /\
  big_enough (curve_gen v (v_ref q) (dtheta q) (ddtheta q) (dddtheta q)) (sl_theta q).
Proof. intros Hw Hv. exact (proj2 (proj2 (table_limits w off v k d Hw Hv))). Qed.
Print Assumptions C39_table.

(** ** C40 *)
Theorem C40_parameters (w off : R) k :
  @parameters Rops w off k SRight = flip_params (@parameters Rops w off k SLeft) /\
  0 < sl_theta (@parameters Rops w off k SLeft).
Proof. exact (parameters_mirror w off k). Qed.
Print Assumptions C40_parameters.

Theorem C40_constant (p w off v : R) k n :
  let l := @parameters Rops w off k SLeft in let r := @parameters Rops w off k SRight in
  output (slalom_next r) n (@generate_constant_slalom Rops p r v) =
  option_map mirror (output (slalom_next l) n (@generate_constant_slalom Rops p l v)).
Proof.
  cbv zeta. destruct (parameters_mirror w off k) as [-> Hl]. apply constant_slalom_mirror. lra.
Qed.
Print Assumptions C40_constant.

Theorem C40_terminal_velocity (g : @straight_generator Rops) (w off v0 v1 v2 : R) k n :
  let l := @parameters Rops w off k SLeft in let r := @parameters Rops w off k SRight in
  let sl := @generate_slalom_tv Rops g l v0 v1 v2 in let sr := @generate_slalom_tv Rops g r v0 v1 v2 in
  snd sr = snd sl /\
  output (slalom_next r) n (fst sr) = option_map mirror (output (slalom_next l) n (fst sl)).
Proof.
  cbv zeta. destruct (parameters_mirror w off k) as [-> Hl]. apply tv_slalom_mirror. lra.
Qed.
Print Assumptions C40_terminal_velocity.

(** ** C41 *)
Theorem C41_spin_partial (g : @generator Rops) (p d : R) : limits g -> big_enough g d -> 0 < p ->
  exists (f : R -> @axis4 Rops) T, turns f g T 0 d /\
    yields spin_next (@spin_generate Rops g p d) (samples T p) /\
    forall n, INR n * p <= T -> output spin_next n (@spin_generate Rops g p d) =
      Some (let z := @Axis4 Rops 0%R 0%R 0%R 0%R in @Target Rops z z (f (INR n * p))).
Proof. exact (spin_ok g p d). Qed.
Print Assumptions C41_spin_partial.

(** a quarter turn with the limits 3 pi, 36 pi, 1200 pi. *)
Example C41_case : let g := @Generator Rops (3 * PI)%R (36 * PI)%R (1200 * PI)%R in
  limits g /\ big_enough g (PI / 2).
Proof.
  cbv zeta. pose proof PI_RGT_0 as HP. pose proof PI_4 as H4. pose proof PI2_3_2 as H3.
  assert (L : limits (@Generator Rops (3 * PI)%R (36 * PI)%R (1200 * PI)%R)) by (unfold limits; cbn [g_v_max g_a_max g_j_max]; lra).
  split; [exact L|]. apply big_enough_when; [exact L| |]; cbn [g_v_max g_a_max g_j_max]; change (@num Rops) with R.
  - replace (36 * PI * (36 * PI) / (1200 * PI)) with (PI * (108 / 100)) by (field; lra). lra.
  - replace (36 * PI / (1200 * PI)) with (3 / 100) by (field; lra). rewrite Rabs_pos_eq; lra.
Qed.

(** in binary32 a spin by 2^-60 rad never ends, with every math library. *)
Theorem C41_refuted (l : libm) : exists (g : @generator (Fops l)) (p d : f32),
  (@ltb (Fops l) n0 (g_v_max g) = true /\ @ltb (Fops l) n0 (g_a_max g) = true /\
   @ltb (Fops l) n0 (g_j_max g) = true /\ @ltb (Fops l) n0 p = true /\ @ltb (Fops l) n0 d = true) /\
  forall n, output spin_next n (@spin_generate (Fops l) g p d) <> None.
Proof.
  exists (unit_gen l), (@n1 (Fops l)), tiny. split; [repeat split; vm_compute; reflexivity|].
  exact (spin_endless l _ (tiny_spin_endless l)).
Qed.
Print Assumptions C41_refuted.

(** ** C72: the speed changes of C32 take the least possible time *)
Theorem C72_optimal (am j T : R) (v a : R -> R) : 0 < am -> 0 < j -> 0 <= T ->
  (forall t, 0 <= t <= T -> derivable_pt_lim v t (a t)) ->
  (forall s t, 0 <= s <= T -> 0 <= t <= T -> Rabs (a s - a t) <= j * Rabs (s - t)) ->
  (forall t, 0 <= t <= T -> a t <= am) -> a 0 = 0 -> a T = 0 -> 0 <= v T - v 0 ->
  ramp_time am j (v T - v 0) <= T.
Proof. exact (ramp_optimal am j T v a). Qed.
Print Assumptions C72_optimal.

(** ** C74 *)
Theorem C74_slalom (q : @slalom_params Rops) (p v : R) :
  0 <= l_start q -> 0 <= l_end q -> 0 < v -> 0 < p ->
  limits (slalom_gen q v) -> big_enough (slalom_gen q v) (sl_theta q) ->
  let s := @generate_constant_slalom Rops p q v in
  let c := @generate_curve Rops p (l_start q) 0%R 0%R (sl_theta q) v (v_ref q) (dtheta q) (ddtheta q) (dddtheta q) in
  let a := samples (l_start q / v) p in
  let b := samples (l_end q / v) p in
  exists T, 0 <= T /\
    yields (slalom_next q) s (a + samples T p + b) /\
    (forall k, (k < a)%nat -> output (slalom_next q) k s = Some (along v (v * (INR k * p)))) /\
    (forall k, (k < samples T p)%nat -> output (slalom_next q) (a + k) s = output curve_next k c) /\
    (forall k, (k < b)%nat -> output (slalom_next q) (a + samples T p + k) s =
       Some (shift (@Pose Rops (x_curve_end q) (y_curve_end q) (sl_theta q)) (along v (v * (INR k * p))))) /\
    (forall k t, output (slalom_next q) k s = Some t ->
       tv (t_x t) = v * cos (tx (t_theta t)) /\ tv (t_y t) = v * sin (tx (t_theta t))).
Proof. exact (slalom_ok q p v). Qed.
Print Assumptions C74_slalom.

(** the hypotheses hold for all run slaloms, for all square widths and speeds. *)
Theorem C74_table (w off v : R) k d : 0 < w -> 0 < v ->
  let q := @parameters Rops w off (Some k) d in
  0 <= l_start q /\ 0 <= l_end q /\ limits (slalom_gen q v) /\ big_enough (slalom_gen q v) (sl_theta q).
Proof. exact (table_limits w off v k d). Qed.
Print Assumptions C74_table.

(** ** C75 *)
Theorem C75_quadrature (p x y th0 d v v_ref dth ddth dddth : R) :
  let g := curve_gen v v_ref dth ddth dddth in
  let s := @generate_curve Rops p x y th0 d v v_ref dth ddth dddth in
  limits g -> big_enough g d -> 0 < p -> 0 <= v ->
  exists (f : R -> @axis4 Rops) T X Y, turns f g T th0 d /\ X 0 = x /\ Y 0 = y /\
    (forall u, 0 <= u <= T -> derivable_pt_lim X u (v * cos (tx (f u))) /\ derivable_pt_lim Y u (v * sin (tx (f u)))) /\
    yields curve_next s (samples T p) /\
    forall n t, output curve_next n s = Some t ->
      let u := INR n * p in let e := v * u * quad_error (g_v_max g) (g_a_max g) (g_j_max g) p in
      t_theta t = f u /\ Rabs (tx (t_x t) - X u) <= e /\ Rabs (tx (t_y t) - Y u) <= e.
Proof. exact (curve_positions p x y th0 d v v_ref dth ddth dddth). Qed.
Print Assumptions C75_quadrature.

(** C39_table gives the hypotheses for all run slaloms; with their limits and a period of 1 ms the
    error is below one part in ten million of the way driven. *)
Example C75_case : quad_error (3 * PI) (36 * PI) (1200 * PI) (1 / 1000) <= 1 / 10000000.
Proof.
  pose proof PI_RGT_0 as HP. assert (H4 : PI <= 33 / 10).
  { pose proof (PI_ineq 3) as [_ U]. eapply Rle_trans with (4 * sum_f_R0 (tg_alt PI_tg) 6); [change (2 * 3)%nat with 6%nat in U; lra|].
    unfold tg_alt, PI_tg. cbn [sum_f_R0 INR Nat.mul Nat.add pow]. lra. }
  unfold quad_error.
  assert (PI * PI <= 33 / 10 * (33 / 10)) by nra.
  assert (PI * PI * PI <= 33 / 10 * (33 / 10) * (33 / 10)) by nra. lra.
Qed.

(** ** C77: in every arithmetic *)
Theorem C77_slalom_tv {K : ops} (g : straight_generator) (q : slalom_params) (v0 v1 v2 : num) a m b :
  let r1 := straight_generate_tv g (l_start q) v0 v1 in
  let c := generate_curve (sg_period g) (l_start q) n0 n0 (sl_theta q) (snd r1) (v_ref q) (dtheta q) (ddtheta q) (dddtheta q) in
  let r3 := straight_generate_tv g (l_end q) (snd r1) v2 in
  let r := generate_slalom_tv g q v0 v1 v2 in
  yields straight_next (fst r1) a -> yields curve_next c m -> yields straight_next (fst r3) b ->
  snd r = snd r3 /\ yields (slalom_next q) (fst r) (a + m + b) /\
  forall k, output (slalom_next q) k (fst r) =
    if (k <? a)%nat then output straight_next k (fst r1)
    else if (k <? a + m)%nat then output curve_next (k - a) c
    else option_map (shift (Pose (x_curve_end q) (y_curve_end q) (sl_theta q))) (output straight_next (k - (a + m)) (fst r3)).
Proof. exact (slalom_parts g q v0 v1 v2 a m b). Qed.
Print Assumptions C77_slalom_tv.

Example C77_case : let g := @StraightGenerator Rops (@Generator Rops 2%R 1%R 1%R) (1 / 1000)%R in
  let q := @parameters Rops (9 / 100)%R 0%R (Some FastRun90) SLeft in
  let r1 := straight_generate_tv g (l_start q) (1 / 2)%R (1 / 2)%R in
  snd r1 = 1 / 2 /\ (exists a, yields straight_next (fst r1) a) /\
  exists m, yields curve_next (@generate_curve Rops (1 / 1000)%R (l_start q) n0 n0 (sl_theta q) (1 / 2)%R (v_ref q) (dtheta q) (ddtheta q) (dddtheta q)) m.
Proof.
  cbv zeta. set (q := parameters _ _ _ _).
  assert (LG : limits (@Generator Rops 2%R 1%R 1%R)) by (unfold limits; cbn; lra).
  assert (Lq : 0 < l_start q) by (unfold q, parameters, create_params; cbn [l_start]; rops; lra).
  assert (Rm : forall w, 1 / 2 <= w <= 1 / 2 -> ramp_distance 1 1 (1 / 2) w < Rabs (l_start q)).
  { intros w Hw. replace w with (1 / 2) by lra. rewrite ramp_distance_same by lra. rewrite Rabs_pos_eq; lra. }
  destruct (straight_ok (@Generator Rops 2%R 1%R 1%R) (1 / 1000) (l_start q) (1 / 2) (1 / 2) LG ltac:(lra))
    as (f & T & vt & E & _ & _ & _ & _ & _ & _ & Hd & _ & Y & _); [cbn; lra | cbn; lra | |].
  { split; [right; exact Rm | left; lra]. }
  cbv zeta in E, Y. split; [rewrite E; apply Hd; lra|]. split; [eexists; exact Y|].
  destruct (table_limits (9 / 100) 0 (1 / 2) FastRun90 SLeft ltac:(lra) ltac:(lra)) as (_ & _ & L & B). fold q in L, B.
  destruct (curve_ok (1 / 1000) (l_start q) 0 0 (sl_theta q) (1 / 2) (v_ref q) (dtheta q) (ddtheta q) (dddtheta q) L B ltac:(lra))
    as (f' & T' & _ & Y' & _). rewrite n0_R. eexists. exact Y'.
Qed.

(** ** C78 *)
Theorem C78_search_pose W s (w off : R) : valid W (ss_coord s) ->
  let q := @pose_of_search Rops s w off in let d := pvec (ss_posture s) in
  exists a b, a <> b /\ touches (ss_coord s) a /\ touches (ss_coord s) b /\
    p_x q = (fst (centre w a) + fst (centre w b)) / 2 + off * IZR (fst d) /\
    p_y q = (snd (centre w a) + snd (centre w b)) / 2 + off * IZR (snd d) /\ heads (p_theta q) d.
Proof. exact (wall_pose W s w off). Qed.
Print Assumptions C78_search_pose.

Theorem C78_node_pose W n (w : R) : valid_node W n -> let q := @pose_of_node Rops n w in
  heads (p_theta q) (dvec (np n)) /\
  if is_diag (np n) then exists a b, a <> b /\ touches (Co (nx n) (ny n)) a /\ touches (Co (nx n) (ny n)) b /\
    p_x q = (fst (centre w a) + fst (centre w b)) / 2 /\ p_y q = (snd (centre w a) + snd (centre w b)) / 2
  else (p_x q, p_y q) = centre w (nx n / 2, ny n / 2)%Z.
Proof. exact (node_pose_ok W n w). Qed.
Print Assumptions C78_node_pose.

Example C78_case : valid_node 16 (Nde 3 6 PNE) /\ valid_node 16 (Nde 6 8 PW) /\ valid 16 (Co 0 1) /\
  touches (Co 3 6) (1, 3)%Z /\ touches (Co 3 6) (2, 3)%Z /\ centre (9 / 100) (3, 4)%Z = (315 / 1000, 405 / 1000).
Proof.
  split; [vm_compute; repeat split; discriminate|]. split; [vm_compute; repeat split; discriminate|].
  split; [vm_compute; repeat split; discriminate|]. split; [left; reflexivity|]. split; [right; reflexivity|].
  unfold centre. cbn [fst snd]. f_equal; field.
Qed.
