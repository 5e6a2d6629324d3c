(** Controllers and estimator (mousecore2/src/control.rs, estimate.rs).  In exact real
    arithmetic ([Rops]) unless a statement is for every [ops] or names binary32 ([Fops l]). *)
From Coq Require Import ZArith Reals List Bool Lra Lia Psatz.
From Flocq Require Import Core BinarySingleNaN.
From Verif Require Import Base Num ControlModel ControlSpec ControlProofs ControlProofs2
  ControlProofs3 ControlProofs4 ControlProofs5.
Import ListNotations.
Open Scope R_scope.

(** ** C42: in every arithmetic, binary32 included. *)
Theorem C42_history {K : ops} tp rp T (h : list call) (r y : control_target) :
  let l := since_reset [] h in
  let vt := ff_pid tp (c_v r) (c_a r) (c_v y) (c_a y) (integral T c_v l) in
  let vr := ff_pid rp (c_omega r) (c_alpha r) (c_omega y) (c_alpha y) (integral T c_omega l) in
  fst (control (run_calls (controller_new tp rp T) h) r y) =
  MotorOutput (vt - vr)%num (vt + vr)%num.
Proof. exact (control_history tp rp T h r y). Qed.
Print Assumptions C42_history.

(** in exact arithmetic the integral is the sum of the errors times the period. *)
Theorem C42_integral (T : R) (f : @control_target Rops -> R) l :
  @integral Rops T f l = Rsum (map (fun p => f (fst p) - f (snd p)) l) * T.
Proof. exact (integral_sum T f l). Qed.
Print Assumptions C42_integral.

Theorem C42_reset {K : ops} tp rp T (h : list call) :
  reset (run_calls (controller_new tp rp T) h) = controller_new tp rp T.
Proof. exact (reset_new tp rp T h). Qed.
Print Assumptions C42_reset.

Example C42_ex :
  let c (v w : R) := @ControlTarget Rops v 0 w 0 in
  since_reset [] [Control (c 9 9) (c 0 0); Reset; Control (c 3 0) (c 1 0); Control (c 4 5) (c 3 5)]
  = [(c 3 0, c 1 0); (c 4 5, c 3 5)] /\
  @integral Rops (1 / 2)%R c_v [(c 3 0, c 1 0); (c 4 5, c 3 5)] = 3 / 2.
Proof.
  cbn zeta. split; [reflexivity|]. rewrite C42_integral. cbn [map fst snd c_v Rsum]. lra.
Qed.

(** ** C43 *)
Theorem C43_normalize (a : R) :
  - PI < @normalize_angle Rops a <= PI /\
  exists k : Z, @normalize_angle Rops a = a + 2 * PI * IZR k.
Proof. exact (normalize_ok a). Qed.
Print Assumptions C43_normalize.

Example C43_ex : @normalize_angle Rops (7 * PI / 2)%R = - (PI / 2) /\ @normalize_angle Rops PI = PI.
Proof.
  pose proof PI_RGT_0.
  split; [apply (normalize_unique _ _ (-2)); lra|apply (normalize_unique _ _ 0); lra].
Qed.

(** ** C44 *)
Theorem C44_sinc x : x <> 0 -> Rabs x <= PI ->
  Rabs (@sinc Rops x - sin x / x) <= x ^ 10 / INR (fact 11) /\
  Rabs (@sinc Rops x - sin x / x) < 24 / 10000.
Proof.
  intros H0 H. split; [|apply sinc_small; assumption].
  rewrite fact_11. apply sinc_bound; [exact H0|]. pose proof PI_upper. lra.
Qed.
Print Assumptions C44_sinc.

Example C44_ex : @sinc Rops 0 = 1 /\ 0 < Rabs (@sinc Rops PI - sin PI / PI).
Proof.
  split; [rewrite sinc_eq; lra|].
  rewrite sin_PI. unfold Rdiv at 1. rewrite Rmult_0_l, Rminus_0_r. apply Rabs_pos_lt.
  rewrite sinc_eq. pose proof PI_upper. assert (3 < PI) by (pose proof PI_RGT_0; pose proof PI2_3_2; lra).
  intros E.
  set (q := PI ^ 2). assert (Q : 9 < q < 987 / 100) by (unfold q; split; nra).
  assert (E' : 1 - q / 6 + q * q / 120 - q * q * q / 5040 + q * q * q * q / 362880 = 0).
  { rewrite <- E. unfold q. field. }
  assert (q * q = 9 * q + (q - 9) * q) by ring. nra.
Qed.

(** ** C45 *)
Theorem C45_navigate (n : @navigation Rops) (s : @state Rops) (t : @target Rops) :
  sx (s_x s) = tx (t_x t) -> sx (s_y s) = tx (t_y t) ->
  sv (s_x s) = tv (t_x t) -> sv (s_y s) = tv (t_y t) ->
  let i := navigate n s t in
  u_x i = ta (t_x t) /\ u_y i = ta (t_y t) /\
  (sa (s_x s) = ta (t_x t) -> du_x i = tj (t_x t)) /\
  (sa (s_y s) = ta (t_y t) -> du_y i = tj (t_y t)).
Proof. exact (navigate_on_target n s t). Qed.
Print Assumptions C45_navigate.

Theorem C45_errors_only (n : @navigation Rops) (s s' : @state Rops) (t t' : @target Rops) :
  (forall (p : @target Rops -> axis4) (q : @state Rops -> axis3),
     (p = t_x /\ q = s_x) \/ (p = t_y /\ q = s_y) ->
     tx (p t) - sx (q s) = tx (p t') - sx (q s') /\
     tv (p t) - sv (q s) = tv (p t') - sv (q s') /\
     ta (p t) - sa (q s) = ta (p t') - sa (q s') /\
     ta (p t) = ta (p t') /\ tj (p t) = tj (p t')) ->
  navigate n s t = navigate n s' t'.
Proof. exact (navigate_errors n s s' t t'). Qed.
Print Assumptions C45_errors_only.

(** low speed law; the target moves along its heading. *)
Theorem C45_track_slow (k : @tracker Rops) (s : @state Rops) (t : @target Rops)
    (i : @tracking_input Rops) (v v' v'' : R) :
  unicycle t v v' v'' -> ~ fast k s t i ->
  sx (s_x s) = tx (t_x t) -> sx (s_y s) = tx (t_y t) -> sx (s_theta s) = tx (t_theta t) ->
  let '(r, _, _) := track k s t i in
  c_v r = v /\ c_a r = v' /\ c_omega r = tv (t_theta t) /\ c_alpha r = ta (t_theta t).
Proof. exact (track_slow k s t i v v' v''). Qed.
Print Assumptions C45_track_slow.

(** dynamic feedback law, fed with the target's acceleration and jerk while the internal
    speed agrees with the target's. *)
Theorem C45_track_fast (k : @tracker Rops) (s : @state Rops) (t : @target Rops)
    (i : @tracking_input Rops) (v v' v'' : R) :
  unicycle t v v' v'' -> fast k s t i -> 0 <= k_xi_threshold k ->
  sx (s_theta s) = tx (t_theta t) ->
  u_x i = ta (t_x t) -> u_y i = ta (t_y t) -> du_x i = tj (t_x t) -> du_y i = tj (t_y t) ->
  k_xi k + k_period k * v' = v ->
  let '(r, _, k') := track k s t i in
  c_v r = v /\ c_a r = v' /\ c_omega r = tv (t_theta t) /\ c_alpha r = ta (t_theta t) /\
  k_xi k' = v.
Proof. exact (track_fast k s t i v v' v''). Qed.
Print Assumptions C45_track_fast.

(** the measured values are the components along the heading. *)
Theorem C45_measured (k : @tracker Rops) (s : @state Rops) (t : @target Rops)
    (i : @tracking_input Rops) (v v' w : R) :
  sv (s_x s) = v * cos (sx (s_theta s)) -> sv (s_y s) = v * sin (sx (s_theta s)) ->
  sa (s_x s) = v' * cos (sx (s_theta s)) - w * sin (sx (s_theta s)) ->
  sa (s_y s) = v' * sin (sx (s_theta s)) + w * cos (sx (s_theta s)) ->
  let '(_, y, _) := track k s t i in
  c_v y = v /\ c_a y = v' /\ c_omega y = sv (s_theta s) /\ c_alpha y = sa (s_theta s).
Proof. exact (track_measured k s t i v v' w). Qed.
Print Assumptions C45_measured.

(** a target driving a left turn at speed 2, accelerating by 1, turn rate 3. *)
Definition turn_target : @target Rops :=
  @Target Rops (@Axis4 Rops 5 2 1 (-18)%R) (@Axis4 Rops 6 0 6 6) (@Axis4 Rops 0 3 0 0).
Example C45_ex :
  unicycle turn_target 2 1 0 /\
  fast (@Tracker Rops 1 1 (1 / 10)%R 1 1)
    (@State Rops (@Axis3 Rops 5 2 1) (@Axis3 Rops 6 0 6) (@Axis3 Rops 0 3 0)) turn_target
    (@TrackingInput Rops 1 6 (-18)%R 6).
Proof.
  split.
  - unfold unicycle, turn_target. cbn [t_x t_y t_theta tx tv ta tj]. rewrite cos_0, sin_0.
    change (@num Rops) with R; repeat split; lra.
  - unfold fast, new_xi, turn_target. cbn [k_xi_threshold k_xi k_period t_x t_y t_theta tx tv s_theta sx u_x u_y].
    rewrite cos_0, sin_0. split; rewrite Rabs_pos_eq; lra.
Qed.

(** ** C46 *)
Theorem C46_satisfied (i : @tracking_input Rops) (a1 a2 b : R) :
  0 <= a1 * u_x i + a2 * u_y i + b -> @apply_constraints Rops i a1 a2 b = Ret i.
Proof. exact (apply_satisfied i a1 a2 b). Qed.
Print Assumptions C46_satisfied.

Theorem C46_projection (i : @tracking_input Rops) (a1 a2 b : R) :
  a1 <> 0 \/ a2 <> 0 -> a1 * u_x i + a2 * u_y i + b < 0 ->
  exists o : @tracking_input Rops, @apply_constraints Rops i a1 a2 b = Ret o /\
    a1 * u_x o + a2 * u_y o + b = 0 /\
    (forall x y : R, 0 <= a1 * x + a2 * y + b ->
       sqdist (u_x o) (u_y o) (u_x i) (u_y i) <= sqdist x y (u_x i) (u_y i)) /\
    (u_x i <> 0 \/ u_y i <> 0 ->
     same_turn (u_x i) (u_y i) (u_x o) (u_y o) (du_x i) (du_y i) (du_x o) (du_y o)).
Proof. exact (apply_violated i a1 a2 b). Qed.
Print Assumptions C46_projection.

Theorem C46_infeasible (i : @tracking_input Rops) (b : R) :
  b < 0 -> @apply_constraints Rops i 0 0 b = Panic.
Proof. exact (apply_infeasible i b). Qed.
Print Assumptions C46_infeasible.

Example C46_ex : exists (i : @tracking_input Rops) (a1 a2 b : R),
  (a1 <> 0 \/ a2 <> 0) /\ a1 * u_x i + a2 * u_y i + b < 0 /\ (u_x i <> 0 \/ u_y i <> 0).
Proof.
  exists (@TrackingInput Rops 1 0 3 4), (-1)%R, 0, 0. cbn [u_x u_y].
  split; [left; lra|]. split; [lra|left; lra].
Qed.

(** ** C47 *)
Definition sup : @supervisory Rops := @Supervisory Rops 1 (5 / 100)%R (90 / 1000)%R.
Definition still (x y : R) : @state Rops :=
  @State Rops (@Axis3 Rops x 0 0) (@Axis3 Rops y 0 0) (@Axis3 Rops 0 0 0).
Definition no_input : @tracking_input Rops := @TrackingInput Rops 0 0 0 0.

(** in cell (1, 1), 14 mm from its lower left pillar: that pillar is not considered and the
    input is passed on although the pillar's own condition is violated. *)
Theorem C47_corners_refuted : exists (c : @supervisory Rops) (s : @state Rops) i ps,
  in_cell (square_width c) 1 1 (sx (s_x s)) (sx (s_y s)) /\
  nearest_pillars c s = Ret ps /\ ~ In (1 * square_width c, 1 * square_width c) ps /\
  supervise c i s = Ret i /\
  barrier (margin c) (avoidance_distance c) (1 * square_width c) (1 * square_width c) s
    (u_x i) (u_y i) < 0.
Proof.
  exists sup, (still (1 / 10) (1 / 10)), no_input.
  assert (C : in_cell (IZR 90 / 1000) 1 1 (1 / 10) (1 / 10)) by (unfold in_cell; lra).
  destruct (pillars_ok sup (still (1 / 10) (1 / 10)) 90 1 1) as (more & M & E);
    [reflexivity|lia|lia|lia|exact C|].
  exists (six 1 1 more (IZR 90 / 1000)). split; [exact C|]. split; [exact E|].
  split; [apply (six_lower 1 1 more); [lra|exact M]|].
  assert (F : forall p, In p (six 1 1 more (IZR 90 / 1000)) ->
    (1 / 10 <> fst p) /\ 0 <= slackR no_input (constraint_of sup (still (1 / 10) (1 / 10)) p)).
  { intros p Hp. unfold six in Hp. cbn [In] in M.
    destruct M as [<-|[<-|[<-|[<-|[]]]]]; cbn [map app fst snd In] in Hp;
      repeat (destruct Hp as [<-|Hp]; [split; [cbn [fst]; rewrite ?plus_IZR; intros ?; lra|
        rewrite slack_is_barrier, ?plus_IZR; unfold barrier, clearance, sqdist, sup, still, no_input;
        cbn [s_x s_y sx sv u_x u_y margin avoidance_distance]; lra]|]); destruct Hp. }
  destruct (supervise_ok sup no_input _ _ E) as (o & S & A & _); [discriminate| |].
  { intros p Hp. left. apply F, Hp. }
  split.
  - rewrite <- (A (fun p Hp => proj2 (F p Hp))) at 2. exact S.
  - unfold barrier, clearance, sqdist, sup, still, no_input.
    cbn [s_x s_y sx sv u_x u_y margin avoidance_distance square_width]. lra.
Qed.
Print Assumptions C47_corners_refuted.

(** everywhere in the first 125 x 125 cells, for squares of a whole number of millimetres: the
    upper right corner is always considered, the lower left one never. *)
Theorem C47_corners_partial (c : @supervisory Rops) (s : @state Rops) (m i j : Z) :
  square_width c = IZR m / 1000 -> (1 <= m <= 10000000)%Z ->
  (0 <= i <= 124)%Z -> (0 <= j <= 124)%Z ->
  in_cell (IZR m / 1000) i j (sx (s_x s)) (sx (s_y s)) ->
  exists ps, nearest_pillars c s = Ret ps /\ length ps = 6%nat /\
    In ((IZR i + 1) * (IZR m / 1000), (IZR j + 1) * (IZR m / 1000)) ps /\
    ~ In (IZR i * (IZR m / 1000), IZR j * (IZR m / 1000)) ps.
Proof.
  intros W M I J C. destruct (pillars_ok c s m i j W M I J C) as (more & H & E).
  exists (six i j more (IZR m / 1000)). split; [exact E|].
  split; [cbn [In] in H; destruct H as [<-|[<-|[<-|[<-|[]]]]]; reflexivity|].
  split; [apply six_upper|].
  apply (six_lower i j more); [|exact H].
  assert (1 <= IZR m) by (apply IZR_le; lia). lra.
Qed.
Print Assumptions C47_corners_partial.

(** ** C68: what supervise guarantees for the pillars it considers. *)
Theorem C68_supervise (c : @supervisory Rops) (i : @tracking_input Rops) (s : @state Rops)
    (m cx cy : Z) :
  square_width c = IZR m / 1000 -> (1 <= m <= 10000000)%Z ->
  (0 <= cx <= 124)%Z -> (0 <= cy <= 124)%Z ->
  in_cell (IZR m / 1000) cx cy (sx (s_x s)) (sx (s_y s)) ->
  let bar (p : R * R) (u : @tracking_input Rops) := barrier (margin c) (avoidance_distance c) (fst p) (snd p) s (u_x u) (u_y u) in
  exists ps o, nearest_pillars c s = Ret ps /\ supervise c i s = Ret o /\
   ((forall p, In p ps -> 0 <= bar p i) -> o = i) /\
   (~ (forall p, In p ps -> 0 <= bar p i) ->
    exists p, In p ps /\ bar p i < 0 /\ (forall q, In q ps -> bar p i <= bar q i) /\ bar p o = 0).
Proof.
  intros W M I J C. destruct (pillars_ok c s m cx cy W M I J C) as (more & H & E).
  destruct (supervise_ok c i s _ E) as (o & S & A & B).
  { discriminate. }
  { apply (six_off cx cy more); [assert (1 <= IZR m) by (apply IZR_le; lia); lra|exact C|exact H]. }
  exists (six cx cy more (IZR m / 1000)), o. cbv zeta.
  assert (BE : forall p (u : @tracking_input Rops),
     slackR u (constraint_of c s p) =
     barrier (margin c) (avoidance_distance c) (fst p) (snd p) s (u_x u) (u_y u)).
  { intros [px py] u. apply slack_is_barrier. }
  split; [exact E|]. split; [exact S|]. split.
  - intros F. apply A. intros p Hp. rewrite BE. apply F, Hp.
  - intros F. destruct B as (p & Ip & V & L & Z).
    + intros G. apply F. intros p Hp. rewrite <- BE. apply G, Hp.
    + exists p. rewrite <- !BE. split; [exact Ip|]. split; [exact V|]. split; [|exact Z].
      intros q Hq. rewrite <- BE. apply L, Hq.
Qed.
Print Assumptions C68_supervise.

Example C68_ex :
  in_cell (IZR 90 / 1000) 1 1 (16 / 100) (16 / 100) /\
  barrier 1 (5 / 100) (18 / 100) (18 / 100) (still (16 / 100) (16 / 100)) 0 0 < 0.
Proof.
  split; [unfold in_cell; lra|].
  unfold barrier, clearance, sqdist, still. cbn [s_x s_y sx sv]. lra.
Qed.

(** ** C69: the condition is h'' + 2 m h' + m^2 h >= 0 along the motion, and a motion that
    satisfies it keeps out of the avoidance circle. *)
Theorem C69_barrier (c : @supervisory Rops) (px py : R) (x y vx vy ux uy : R -> R) (th : R -> axis3)
    (t0 t1 : R) :
  (forall t, derivable_pt_lim x t (vx t)) -> (forall t, derivable_pt_lim y t (vy t)) ->
  (forall t, derivable_pt_lim vx t (ux t)) -> (forall t, derivable_pt_lim vy t (uy t)) ->
  let st t := @State Rops (@Axis3 Rops (x t) (vx t) (ux t)) (@Axis3 Rops (y t) (vy t) (uy t)) (th t) in
  let h t := clearance (avoidance_distance c) px py (x t) (y t) in
  exists h' h'' : R -> R,
    (forall t, derivable_pt_lim h t (h' t)) /\ (forall t, derivable_pt_lim h' t (h'' t)) /\
    (forall t, @slack Rops (@TrackingInput Rops (ux t) (uy t) 0 0) (constraint_of c (st t) (px, py))
       = h'' t + 2 * margin c * h' t + margin c * margin c * h t) /\
    ((forall t, t0 <= t <= t1 ->
        0 <= @slack Rops (@TrackingInput Rops (ux t) (uy t) 0 0) (constraint_of c (st t) (px, py))) ->
     0 <= h t0 -> 0 <= h' t0 + margin c * h t0 -> t0 <= t1 -> 0 <= h t1).
Proof.
  intros Dx Dy Dvx Dvy st h.
  exists (hd px py x y vx vy), (hdd px py x y vx vy ux uy).
  assert (S : forall t, @slack Rops (@TrackingInput Rops (ux t) (uy t) 0 0)
      (constraint_of c (st t) (px, py)) = hdd px py x y vx vy ux uy t
      + 2 * margin c * hd px py x y vx vy t + margin c * margin c * h t).
  { intros t. etransitivity; [exact (slack_is_barrier c (@TrackingInput Rops (ux t) (uy t) 0 0) (st t) px py)|].
    unfold barrier, st, hdd, hd, h. cbn [s_x s_y sx sv u_x u_y]. rops; ring. }
  split; [exact (D_hh c px py x y vx vy Dx Dy)|].
  split; [exact (D_hd px py x y vx vy ux uy Dx Dy Dvx Dvy)|].
  split; [exact S|]. intros H. apply (barrier_safe c px py x y vx vy ux uy Dx Dy Dvx Dvy t0 t1).
  intros t Ht. specialize (H t Ht). rewrite S in H. exact H.
Qed.
Print Assumptions C69_barrier.

(** standing still 10 cm from a pillar satisfies the hypotheses for all time. *)
Example C69_ex :
  (forall t, derivable_pt_lim (fun _ => 1 / 10) t 0) /\ (forall t, derivable_pt_lim (fun _ => 0) t 0) /\
  0 <= @slack Rops (@TrackingInput Rops 0 0 0 0) (constraint_of sup (still (1 / 10) 0) (0, 0)) /\
  0 <= clearance (avoidance_distance sup) 0 0 (1 / 10) 0.
Proof.
  split; [intros t; apply derivable_pt_lim_const|]. split; [intros t; apply derivable_pt_lim_const|].
  split.
  - pose proof (slack_is_barrier sup (@TrackingInput Rops 0 0 0 0) (still (1 / 10) 0) 0 0) as E.
    unfold slackR in E. rewrite E. unfold barrier, clearance, sqdist, sup, still.
    cbn [s_x s_y sx sv u_x u_y margin avoidance_distance]. lra.
  - unfold clearance, sqdist, sup. cbn [avoidance_distance]. lra.
Qed.

(** ** C70: binary32, for every mathematical library: the jerk becomes NaN when the
    acceleration input is zero and the constraint is violated. *)
Theorem C70_jerk_finite_refuted : forall l : libm, exists (i : @tracking_input (Fops l)) (a1 a2 b : f32) o,
  is_finite (u_x i) = true /\ is_finite (u_y i) = true /\
  is_finite (du_x i) = true /\ is_finite (du_y i) = true /\
  is_finite a1 = true /\ is_finite a2 = true /\ is_finite b = true /\
  @apply_constraints (Fops l) i a1 a2 b = Ret o /\
  is_finite (u_x o) = true /\ is_nan (du_x o) = true /\ is_nan (du_y o) = true.
Proof.
  intros l.
  set (i := @TrackingInput (Fops l) (f32_of_Z 0) (f32_of_Z 0) (f32_of_Z 0) (f32_of_Z 0)).
  exists i, (f32_of_Z 1), (f32_of_Z 1), (f32_of_Z (-1)).
  assert (P : match @project (Fops l) i (f32_of_Z 1) (f32_of_Z 1) (f32_of_Z (-1)) with
    | Ret (a, b) => is_finite a && is_finite b &&
        is_nan (@div (Fops l) (@mul (Fops l) (fst (@to_polar (Fops l) (du_x i) (du_y i)))
           (fst (@to_polar (Fops l) a b))) (fst (@to_polar (Fops l) (u_x i) (u_y i))))
    | _ => false end = true) by (vm_compute; reflexivity).
  destruct (@project (Fops l) i (f32_of_Z 1) (f32_of_Z 1) (f32_of_Z (-1))) as [[a b]| |] eqn:E;
    [|discriminate|discriminate].
  apply andb_true_iff in P. destruct P as [P N]. apply andb_true_iff in P. destruct P as [Fa Fb].
  eexists. do 7 (split; [vm_compute; reflexivity|]). split.
  - unfold apply_constraints. rewrite E.
    replace (@leb (Fops l) n0 _) with false by (vm_compute; reflexivity).
    replace (@isnan (Fops l) (f32_of_Z 1)) with false by (vm_compute; reflexivity).
    replace (@isnan (Fops l) (f32_of_Z (-1))) with false by (vm_compute; reflexivity).
    cbn [orb bind].
    replace (@isnan (Fops l) a) with false by (destruct a; [reflexivity..|discriminate|reflexivity]).
    replace (@isnan (Fops l) b) with false by (destruct b; [reflexivity..|discriminate|reflexivity]).
    cbn [orb]. unfold to_polar. reflexivity.
  - cbn [u_x du_x du_y]. split; [exact Fa|].
    unfold to_polar in N. cbn [fst] in N.
    match type of N with is_nan ?d = true => assert (D : d = B754_nan) by (destruct d; [discriminate..|reflexivity|discriminate]) end.
    change (@mul (Fops l)) with (@Bmult 24 128 prec32 emax32 mode_NE) in *.
    rewrite D. split; reflexivity.
Qed.
Print Assumptions C70_jerk_finite_refuted.

(** ** C48 *)
Theorem C48_heading (l : list (@sensor_value Rops)) (e : @estimator Rops) (s : @state Rops) :
  sx (s_theta (snd (est_run (e, s) l))) =
  sx (s_theta s) + Rsum (map angular_velocity l) * e_period e :> R.
Proof. exact (est_heading l e s). Qed.
Print Assumptions C48_heading.

Theorem C48_speed (l : list (@sensor_value Rops)) (e : @estimator Rops) (s : @state Rops) v :
  e_period e <> 0 ->
  let '(e', s') := est_run (e, s) (l ++ [v]) in
  let u := filtered (e_alpha e) (e_period e) (e_trans_vel e) (l ++ [v]) in
  sqrt (sv (s_x s') * sv (s_x s') + sv (s_y s') * sv (s_y s')) = Rabs u /\
  (exists phi : R,
    sv (s_x s') = u * cos phi /\ sv (s_y s') = u * sin phi /\
    sa (s_x s') = translational_acceleration v * cos phi /\
    sa (s_y s') = translational_acceleration v * sin phi /\
    phi = sx (s_theta s') - e_slip_angle e' - angular_velocity v * e_period e / 2) /\
  sv (s_theta s') = angular_velocity v.
Proof.
  intros H. pose proof (est_last l v e s) as L. pose proof (est_speed (l ++ [v]) e s H) as S.
  destruct (est_run (e, s) (l ++ [v])) as [e' s']. cbn [fst] in S. rewrite S in L.
  destruct L as (phi & V1 & V2 & A1 & A2 & P & W). cbv zeta.
  split; [|split; [exists phi; auto|exact W]].
  rewrite V1, V2. rewrite <- sqrt_Rsqr_abs. f_equal. unfold Rsqr.
  pose proof (sincos phi) as SC.
  set (u := filtered _ _ _ _). transitivity (u * u * (sin phi * sin phi + cos phi * cos phi)); [ring|].
  rewrite SC. ring.
Qed.
Print Assumptions C48_speed.

(** the angular acceleration is the change of the turn rate per period. *)
Theorem C48_acceleration (l : list (@sensor_value Rops)) (e : @estimator Rops) (s : @state Rops) v w :
  let '(_, s') := est_run (e, s) (l ++ [w; v]) in
  sa (s_theta s') = (angular_velocity v - angular_velocity w) / e_period e :> R.
Proof. exact (est_acceleration l v w e s). Qed.
Print Assumptions C48_acceleration.

Theorem C48_decay (alpha T u v : R) (l : list (@sensor_value Rops)) :
  T <> 0 ->
  (forall s, In s l -> translational_acceleration s = 0 /\
     (left_distance s + right_distance s) / 2 = u * T) ->
  filtered alpha T v l - u = alpha ^ length l * (v - u).
Proof. exact (filtered_const alpha T u l v). Qed.
Print Assumptions C48_decay.

Example C48_ex :
  let v := @SensorValue Rops 2 4 0 1 in
  (forall s, In s [v; v] -> translational_acceleration s = 0 /\
     (left_distance s + right_distance s) / 2 = 3 * 1) /\
  filtered (1 / 2) 1 7 [v; v] = 4.
Proof.
  cbn zeta. split.
  - intros s [<-|[<-|[]]]; cbn [translational_acceleration left_distance right_distance]; lra.
  - cbn [filtered]. unfold filter_step. cbn [translational_acceleration left_distance right_distance]. lra.
Qed.

(** ** C71: dead reckoning.  The two cases of the turn rate; the slip angle is the one of the
    new estimator state.  (For v = 0 the code's slip angle is 0 in binary32; over the reals the
    division by |v| = 0 is given the value 0, which these statements allow.) *)
Theorem C71_arc (e : @estimator Rops) (s : @state Rops) (v : @sensor_value Rops) :
  e_approx_th e <= Rabs (angular_velocity v) -> 0 < e_approx_th e ->
  let '(s', e') := estimate e s v in
  cos (e_slip_angle e') <> 0 ->
  let th := sx (s_theta s) in let th' := sx (s_theta s') in
  let w := angular_velocity v in let u := e_trans_vel e' in
  let X := u / w * (sin th' - sin th) in let Y := - (u / w * (cos th' - cos th)) in
  th' = th + w * e_period e /\
  sx (s_x s') = sx (s_x s) + X + tan (e_slip_angle e') * Y /\
  sx (s_y s') = sx (s_y s) + Y - tan (e_slip_angle e') * X.
Proof. exact (est_arc e s v). Qed.
Print Assumptions C71_arc.

Theorem C71_straight (e : @estimator Rops) (s : @state Rops) (v : @sensor_value Rops) :
  Rabs (angular_velocity v) < e_approx_th e ->
  let '(s', e') := estimate e s v in
  cos (e_slip_angle e') <> 0 ->
  let mid := (sx (s_theta s) + sx (s_theta s')) / 2 in
  let X := e_trans_vel e' * e_period e * cos mid in
  let Y := e_trans_vel e' * e_period e * sin mid in
  sx (s_x s') = sx (s_x s) + X + tan (e_slip_angle e') * Y /\
  sx (s_y s') = sx (s_y s) + Y - tan (e_slip_angle e') * X.
Proof. exact (est_straight e s v). Qed.
Print Assumptions C71_straight.

Theorem C71_slip (e : @estimator Rops) (s : @state Rops) (v : @sensor_value Rops) :
  0 < e_period e -> 0 <= e_slip_const e ->
  let '(_, e') := estimate e s v in
  Rabs (e_slip_angle e') <= Rabs (e_slip_angle e + angular_velocity v * e_period e).
Proof. exact (est_slip e s v). Qed.
Print Assumptions C71_slip.

(** from rest, encoder distance 1 in time 1, gyro 1/2: the slip angle is 1/4 < pi/2. *)
Example C71_ex :
  let e := @estimator_new Rops 1 0 1 (1 / 10)%R in
  let v := @SensorValue Rops 1 1 0 (1 / 2)%R in
  e_approx_th e <= Rabs (angular_velocity v) /\ 0 < e_approx_th e /\
  (e_slip_angle (snd (estimate e (still 0 0) v)) = 1 / 4 :> R) /\ cos (1 / 4) <> 0.
Proof.
  cbv zeta. unfold estimate, estimator_new. cbn [e_slip_angle e_approx_th angular_velocity snd e_period
    e_alpha e_slip_const e_trans_vel left_distance right_distance translational_acceleration]. rops.
  split; [rewrite Rabs_pos_eq; lra|]. split; [lra|]. split.
  - replace (0 * (0 / 1 + 0 * 1) + (1 / 1 - 0) * ((1 / 1 + 1 / 1) / (2 / 1))) with 1 by field.
    rewrite Rabs_R1. field.
  - apply Rgt_not_eq, cos_gt_0; pose proof PI2_3_2; lra.
Qed.

(** ** C73: the energy b/2 |position error|^2 + (heading error)^2 / 2 of the low speed law, with
    robot and target moving as unicycles, robot with the commanded speed and turn rate. *)
Theorem C73_energy (k : @tracker Rops) (s : @state Rops) (t : @target Rops)
    (i : @tracking_input Rops) (v v' v'' : R) (x y X Y E : R -> R) (u : R) :
  unicycle t v v' v'' -> ~ fast k s t i -> 0 <= k_b k ->
  let '(r, _, _) := track k s t i in
  let th := sx (s_theta s) in
  let thr := tx (t_theta t) in
  x u = sx (s_x s) -> y u = sx (s_y s) -> X u = tx (t_x t) -> Y u = tx (t_y t) ->
  E u = @normalize_angle Rops (thr - th)%R ->
  derivable_pt_lim x u (c_v r * cos th) -> derivable_pt_lim y u (c_v r * sin th) ->
  derivable_pt_lim X u (v * cos thr) -> derivable_pt_lim Y u (v * sin thr) ->
  derivable_pt_lim E u (tv (t_theta t) - c_omega r) ->
  let along := (X u - x u) * cos th + (Y u - y u) * sin th in
  let across := - (X u - x u) * sin th + (Y u - y u) * cos th in
  let k1 := 2 * k_zeta k * sqrt (tv (t_theta t) * tv (t_theta t) + k_b k * v * v) in
  exists D,
    derivable_pt_lim (fun w => k_b k / 2 * sqdist (X w) (Y w) (x w) (y w) + E w * E w / 2) u D /\
    D <= - k1 * (k_b k * (along * along) + E u * E u)
         + k_b k * Rabs v * Rabs across * (Rabs (E u) ^ 11 / 39916800).
Proof. exact (track_energy k s t i v v' v'' x y X Y E u). Qed.
Print Assumptions C73_energy.

(** target driving along the x axis with speed 1, robot 1 behind and 1 to the side, heading 1/2. *)
Example C73_ex :
  let t := @Target Rops (@Axis4 Rops 1 1 0 0) (@Axis4 Rops 1 0 0 0) (@Axis4 Rops 0 0 0 0) in
  let s := @State Rops (@Axis3 Rops 0 1 0) (@Axis3 Rops 0 0 0) (@Axis3 Rops (1 / 2)%R 0 0) in
  let k := @Tracker Rops 0 1 2 1 3 in
  unicycle t 1 0 0 /\ ~ fast k s t (@TrackingInput Rops 0 0 0 0) /\ 0 < k_b k.
Proof.
  cbv zeta. split; [|split].
  - unfold unicycle. cbn [t_x t_y t_theta tx tv ta tj]. rewrite cos_0, sin_0.
    change (@num Rops) with R; repeat split; lra.
  - unfold fast. cbn [k_xi_threshold t_x t_y t_theta tx tv]. rewrite cos_0, sin_0. intros [H _].
    rewrite Rabs_pos_eq in H; lra.
  - cbn. lra.
Qed.

(** ** C85: above the threshold speed the tracker, fed by the navigation controller, makes the
    error between target and robot die out: [K], [S] and [T] are tracker, robot and target over time,
    the robot moves along its heading with speed [v] and carries out the commands. *)
Theorem C85_decay (n : @navigation Rops) (K : R -> @tracker Rops) (S : R -> @state Rops)
    (T : R -> @target Rops) (v : R -> R) (a b : R) :
  0 < gain n -> 0 < dgain n -> rolls v S -> a <= b ->
  (forall u, a <= u <= b -> fast (K u) (S u) (T u) (navigate n (S u) (T u)) /\ 0 <= k_xi_threshold (K u) /\
     obeys v S (fun w => fst (fst (track (K w) (S w) (T w) (navigate n (S w) (T w))))) u /\ smooth T u) ->
  let M := 3 / 2 + dgain n * dgain n / gain n in
  error_energy (gain n) (S b) (T b)
  <= 2 * M * error_energy (gain n) (S a) (T a) * exp (- (dgain n / M) * (b - a)).
Proof. exact (fast_loop n K S T v a b). Qed.
Print Assumptions C85_decay.

(** each coordinate of the error satisfies e'' = - dgain e' - gain e. *)
Theorem C85_linear (n : @navigation Rops) (K : R -> @tracker Rops) (S : R -> @state Rops)
    (T : R -> @target Rops) (v : R -> R) (u : R) (r : @target Rops -> @axis4 Rops) (q : @state Rops -> @axis3 Rops) :
  rolls v S -> fast (K u) (S u) (T u) (navigate n (S u) (T u)) -> 0 <= k_xi_threshold (K u) ->
  obeys v S (fun w => fst (fst (track (K w) (S w) (T w) (navigate n (S w) (T w))))) u -> smooth T u ->
  (r = t_x /\ q = s_x) \/ (r = t_y /\ q = s_y) ->
  let e w := tx (r (T w)) - sx (q (S w)) in
  let e' w := tv (r (T w)) - sv (q (S w)) in
  derivable_pt_lim e u (e' u) /\ derivable_pt_lim e' u (- dgain n * e' u - gain n * e u).
Proof. intros Hr F Kt O Sm Hq. exact (loop_error n K S T v Hr u F Kt O r q Hq Sm). Qed.
Print Assumptions C85_linear.

(** the commanded angular acceleration is the derivative of the commanded turn rate, when the
    state knows the acceleration. *)
Theorem C85_alpha (n : @navigation Rops) (K : R -> @tracker Rops) (S : R -> @state Rops)
    (T : R -> @target Rops) (v : R -> R) (u : R) :
  let cmd w := fst (fst (track (K w) (S w) (T w) (navigate n (S w) (T w)))) in
  rolls v S ->
  (forall w, fast (K w) (S w) (T w) (navigate n (S w) (T w)) /\ 0 <= k_xi_threshold (K w) /\ obeys v S cmd w) ->
  smooth T u ->
  (forall r : @target Rops -> @axis4 Rops, r = t_x \/ r = t_y -> derivable_pt_lim (fun w => ta (r (T w))) u (tj (r (T u)))) ->
  (forall q : @state Rops -> @axis3 Rops, q = s_x \/ q = s_y -> derivable_pt_lim (fun w => sv (q (S w))) u (sa (q (S u)))) ->
  derivable_pt_lim (fun w => c_omega (cmd w)) u (c_alpha (cmd u)).
Proof. intros cmd Hr. exact (loop_alpha n K S T v Hr u). Qed.
Print Assumptions C85_alpha.

(** a target driving along the x axis with speed 2, a robot behind it by exp (- t), gains 2 and 3. *)
Definition behind (u : R) : @state Rops :=
  @State Rops (@Axis3 Rops (2 * u - exp (- u))%R (2 + exp (- u))%R (- exp (- u))%R) (@Axis3 Rops 0 0 0) (@Axis3 Rops 0 0 0).
Definition ahead (u : R) : @target Rops :=
  @Target Rops (@Axis4 Rops (2 * u)%R 2 0 0) (@Axis4 Rops 0 0 0 0) (@Axis4 Rops 0 0 0 0).
Example C85_case (u : R) :
  let n := @Navigation Rops 2 3 in
  let K w := @Tracker Rops (2 + exp (- w) + exp (- w) / 1000)%R (1 / 1000)%R 1 1 1 in
  rolls (fun w => 2 + exp (- w)) behind /\
  fast (K u) (behind u) (ahead u) (navigate n (behind u) (ahead u)) /\ 0 <= k_xi_threshold (K u) /\
  obeys (fun w => 2 + exp (- w)) behind
    (fun w => fst (fst (track (K w) (behind w) (ahead w) (navigate n (behind w) (ahead w))))) u /\
  smooth ahead u /\ error_energy 2 (behind u) (ahead u) = 3 * exp (- u) * exp (- u).
Proof.
  intros n K. pose proof (exp_pos (- u)) as EP.
  assert (F : fast (K u) (behind u) (ahead u) (navigate n (behind u) (ahead u))).
  { unfold fast, new_xi, navigate, behind, ahead, n, K.
    cbn [k_xi k_period k_xi_threshold s_x s_y s_theta t_x t_y t_theta tx tv ta tj sx sv sa u_x u_y gain dgain]. rops.
    rewrite cos_0, sin_0. split; (rewrite Rabs_pos_eq; lra). }
  assert (D1 : forall x, derivable_pt_lim (fun w => exp (- w)) x (- exp (- x))).
  { intros x. eapply dlim_to; [exact (derivable_pt_lim_comp _ exp x _ _ (derivable_pt_lim_opp id x 1 (derivable_pt_lim_id x)) (derivable_pt_lim_exp _))|].
    unfold opp_fct, id. ring. }
  assert (D2 : forall x, derivable_pt_lim (fun w => 2 * w) x 2).
  { intros x. eapply dlim_to; [apply (derivable_pt_lim_scal id), derivable_pt_lim_id | ring]. }
  split; [intros w; unfold behind; cbn [s_x s_y s_theta sx sv]; rewrite cos_0, sin_0; split; rops; ring|].
  split; [exact F|]. split; [unfold K; cbn; lra|]. split.
  - unfold obeys. rewrite (fast_command _ _ _ _ F). cbn [c_v c_a c_omega]. unfold new_xi, navigate, behind, ahead, n, K.
    cbn [k_xi k_period s_x s_y s_theta t_x t_y t_theta tx tv ta tj sx sv sa u_x u_y gain dgain]. rops.
    rewrite cos_0, sin_0. split; [field|]. split; [|split; [|split]].
    + eapply dlim_to; [apply (derivable_pt_lim_plus (fun _ => 2)); [apply derivable_pt_lim_const | apply D1] | ring].
    + eapply dlim_to; [apply derivable_pt_lim_const | field]. lra.
    + eapply dlim_to; [apply derivable_pt_lim_minus; [apply D2 | apply D1] | ring].
    + apply derivable_pt_lim_const.
  - split.
    + intros r [-> | ->]; unfold ahead; cbn [t_x t_y tx tv ta]; (split; [|apply derivable_pt_lim_const]);
        [apply D2 | apply derivable_pt_lim_const].
    + unfold error_energy, sqdist, behind, ahead. cbn [s_x s_y t_x t_y tx tv sx sv]. rops. ring.
Qed.
