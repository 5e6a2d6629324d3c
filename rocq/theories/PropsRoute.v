(** Properties C89 and C90: the joined trajectories of a whole route. *)
From Coq Require Import ZArith Reals List Bool Lia Lra.
From Verif Require Import Base SearchModel SearchSpec RunModel RunSpec Num NumLemmas ControlModel TrajModel TrajSpec RouteModel RouteSpec
  RunTraj RunDijk RunThm TrajProofs2 TrajProofs3 TrajProofs4 RouteProofs RouteProofs4 RouteProofs5.
Import ListNotations.
Open Scope R_scope.

(** ** C89 *)

(** The trajectories of a search, joined as in tests/search.rs, hand out targets without panic; each
    target is one step from the one before, also across the joints. *)
Theorem C89_search W (w off stop : R) (g : @straight_generator Rops) (sg : @generator Rops) l e :
  let v := g_v_max (sg_gen g) in let p := sg_period g in
  supported W -> valid W (Co 0 1) -> walks W (SS (Co 0 1) North) l e ->
  w = 9 / 100 -> - (5 / 1000) <= off <= 30 / 1000 -> 0 < p -> v * p <= w / 100 -> 0 < stop ->
  limits (sg_gen g) -> limits sg -> big_enough sg PI ->
  room (sg_gen g) (w / 2 - off) v 0 -> room (sg_gen g) (w / 2 + off) 0 v ->
  ramp_distance (g_a_max (sg_gen g)) (g_j_max (sg_gen g)) 0 v < w / 2 + off ->
  let turn := 943 / 100 * (v * p / w) in
  exists L, serves (@search_route Rops w off g sg stop l) L /\
    (exists t L', L = t :: L' /\ passing (@Pose Rops (w / 2)%R (w / 2)%R (PI / 2)%R) 0 t) /\
    forall t, passing (@pose_of_search Rops e w off) v t ->
      smooth (v * p + w / 8000) (Rmax turn (g_v_max sg * p)) (Rmax (g_a_max (sg_gen g) * p) (v * turn) + v / 2 ^ 25) (L ++ [t]).
Proof.
  cbv zeta. destruct g as [g p]. cbn [sg_gen sg_period].
  intros HW VS WK Hw Ho Hp Hvp Hst Lg Ls Bs Rs Re Rf.
  destruct (route_ride w off p stop g sg Hw Ho Hp Lg Ls Bs Hvp Hst Rs Re Rf W l e HW VS WK) as (L & SE & RI).
  exists L. split; [exact SE|]. split; [exact (proj1 RI)|]. intros t P. exact (ride_passing _ _ _ _ _ _ _ _ _ RI P).
Qed.
Print Assumptions C89_search.

(** the numbers of tests/search.rs (169-176, offset 10 mm), and a search with all four moves. *)
Lemma ramp_short (a j v0 v1 m : R) : 0 < a -> 0 < j -> 0 <= v0 <= m -> 0 <= v1 <= m -> m < a * a / j ->
  ramp_distance a j v0 v1 <= 2 * m * sqrt (m / j).
Proof.
  intros Ha Hj H0 H1 M. unfold ramp_distance, ramp_time.
  assert (B : 0 <= Rabs (v1 - v0) <= m) by (split; [apply Rabs_pos | apply Rabs_le; lra]).
  destruct (Rle_dec _ _); [lra|].
  assert (S : 0 <= sqrt (Rabs (v1 - v0) / j) <= sqrt (m / j)).
  { split; [apply sqrt_pos|]. apply sqrt_le_1_alt. apply Rmult_le_compat_r; [left; apply Rinv_0_lt_compat; exact Hj | lra]. }
  apply Rle_trans with (m * (2 * sqrt (m / j))); [apply Rmult_le_compat; lra | lra].
Qed.

Example C89_case :
  let g := @StraightGenerator Rops (@Generator Rops (3 / 10)%R 10%R 100%R) (1 / 1000)%R in
  let sg := @Generator Rops (8 * PI)%R (80 * PI)%R (160 * PI)%R in
  let w := 9 / 100 in let off := 1 / 100 in
  exists l e, length l = 5%nat /\ walks 16 (SS (Co 0 1) North) l e /\ valid 16 (Co 0 1) /\
    - (5 / 1000) <= off <= 30 / 1000 /\ g_v_max (sg_gen g) * sg_period g <= w / 100 /\
    limits (sg_gen g) /\ limits sg /\ big_enough sg PI /\
    room (sg_gen g) (w / 2 - off) (3 / 10) 0 /\ room (sg_gen g) (w / 2 + off) 0 (3 / 10) /\
    ramp_distance 10 100 0 (3 / 10) < w / 2 + off /\
    exists L, serves (@search_route Rops w off g sg (1 / 10)%R l) L.
Proof.
  cbv zeta. pose proof PI_RGT_0 as P0. assert (P4 := PI_4).
  set (l := [(SS (Co 0 1) North, Front); (SS (Co 0 3) North, Right); (SS (Co 1 4) East, Left); (SS (Co 2 5) North, Back); (SS (Co 2 5) South, Front)]).
  exists l, (SS (Co 2 3) South).
  assert (V01 : valid 16 (Co 0 1)) by (vm_compute; repeat split; try reflexivity; discriminate).
  assert (WK : walks 16 (SS (Co 0 1) North) l (SS (Co 2 3) South)).
  { unfold l.
    apply walks_cons with (n := Co 0 3) (s' := SS (Co 0 3) North); [vm_compute; repeat split; try reflexivity; discriminate | reflexivity|].
    apply walks_cons with (n := Co 1 4) (s' := SS (Co 1 4) East); [vm_compute; repeat split; try reflexivity; discriminate | reflexivity|].
    apply walks_cons with (n := Co 2 5) (s' := SS (Co 2 5) North); [vm_compute; repeat split; try reflexivity; discriminate | reflexivity|].
    apply walks_cons with (n := Co 2 3) (s' := SS (Co 2 5) South); [vm_compute; repeat split; try reflexivity; discriminate | reflexivity|].
    apply walks_cons with (n := Co 2 3) (s' := SS (Co 2 3) South); [vm_compute; repeat split; try reflexivity; discriminate | reflexivity|].
    constructor. }
  assert (S3 : sqrt (3 / 10 / 100) <= 55 / 1000) by (rewrite <- (sqrt_square (55 / 1000)) by lra; apply sqrt_le_1_alt; lra).
  assert (RS : forall v0 v1, 0 <= v0 <= 3 / 10 -> 0 <= v1 <= 3 / 10 -> ramp_distance 10 100 v0 v1 <= 33 / 1000).
  { intros v0 v1 H0 H1. eapply Rle_trans; [apply (ramp_short 10 100 v0 v1 (3 / 10)); lra | lra]. }
  assert (LG : limits (@Generator Rops (3 / 10)%R 10%R 100%R)) by (unfold limits; cbn; lra).
  assert (LS : limits (@Generator Rops (8 * PI)%R (80 * PI)%R (160 * PI)%R)) by (unfold limits; cbn; lra).
  assert (SM : forall a j m, 0 < a -> 0 < j -> 0 <= m -> m <= j -> m < a * a / j -> 2 * ramp_distance a j 0 m <= 4 * m).
  { intros a j m Ha Hj M0 MJ MA. assert (B := ramp_short a j 0 m m Ha Hj ltac:(lra) ltac:(lra) MA).
    assert (S1 : sqrt (m / j) <= 1).
    { rewrite <- sqrt_1. apply sqrt_le_1_alt. apply Rmult_le_reg_r with j; [exact Hj|]. unfold Rdiv. rewrite Rmult_assoc, Rinv_l; lra. }
    assert (0 <= sqrt (m / j)) by apply sqrt_pos. nra. }
  assert (BE : big_enough (@Generator Rops (8 * PI)%R (80 * PI)%R (160 * PI)%R) PI).
  { unfold big_enough. cbn [g_v_max g_a_max g_j_max]. rewrite (Rabs_pos_eq PI) by lra.
    eapply Rle_trans; [apply SM; try lra|lra]. replace (80 * PI * (80 * PI) / (160 * PI)) with (40 * PI) by (field; lra). lra. }
  assert (RM : room (@Generator Rops (3 / 10)%R 10%R 100%R) (9 / 100 / 2 - 1 / 100) (3 / 10) 0).
  { split; [right; cbn [g_a_max g_j_max]; intros u Hu; eapply Rle_lt_trans; [apply RS; lra | lra] | left; lra]. }
  assert (RN : room (@Generator Rops (3 / 10)%R 10%R 100%R) (9 / 100 / 2 + 1 / 100) 0 (3 / 10)).
  { split; [left; lra | right]. cbn [g_v_max g_a_max g_j_max]. eapply Rle_trans; [apply SM; lra | lra]. }
  assert (RF : ramp_distance 10 100 0 (3 / 10) < 9 / 100 / 2 + 1 / 100) by (eapply Rle_lt_trans; [apply RS; lra | lra]).
  split; [reflexivity|]. split; [exact WK|]. split; [exact V01|]. split; [lra|]. split; [cbn [g_v_max sg_gen sg_period]; lra|].
  split; [exact LG|]. split; [exact LS|]. split; [exact BE|]. split; [exact RM|]. split; [exact RN|]. split; [exact RF|].
  destruct (C89_search 16 (9 / 100) (1 / 100) (1 / 10) (@StraightGenerator Rops (@Generator Rops (3 / 10)%R 10%R 100%R) (1 / 1000)%R)
    (@Generator Rops (8 * PI)%R (80 * PI)%R (160 * PI)%R) l (SS (Co 2 3) South) ltac:(unfold supported; auto 8) V01 WK eq_refl ltac:(lra)
    ltac:(cbn; lra) ltac:(cbn [g_v_max sg_gen sg_period]; lra) ltac:(lra) LG LS BE RM RN RF) as (L & SE & _).
  exists L. exact SE.
Qed.

(** ** C90 *)

(** The trajectories of a shortest path, joined as in tests/run.rs. A curve FastRun45 ends 0.3 per cent
    of the width of a square beside the tabulated point (C76); without such a curve the joints are
    as tight as those of the search. *)
Theorem C90_run W open is_wall is_goal cost cmax tie start path c (w off run_v e : R) (g : @straight_generator Rops) :
  let v := g_v_max (sg_gen g) in let p := sg_period g in
  supported W -> (forall x, valid W x -> is_wall x = Ret (negb (open x))) -> (forall k, (0 <= cost k)%Z) -> (0 < cmax)%Z ->
  valid_node W start -> is_goal start = false ->
  run_path W is_goal is_wall cost cmax tie start = Ret (Some (path, c)) ->
  0 < w -> 0 < p -> v * p <= w / 50 -> 0 <= e -> limits (sg_gen g) ->
  route_room w off g run_v e (length path) path 0 0 ->
  let turn := 3 * (v * p / w) in
  exists goal boxes v_end L, is_goal goal = true /\ last path start = goal /\
    @run_route Rops w off g run_v path = Ret (boxes, v_end) /\ serves boxes L /\
    (exists t L', L = t :: L' /\ passing (@pose_of_node Rops start w) 0 t) /\
    forall t, passing (@pose_of_node Rops goal w) v_end t ->
      let c := Rmax (g_a_max (sg_gen g) * p) (v * turn) + e in
      smooth (v * p + w / 150) turn c (L ++ [t]) /\
      ((forall l1 a b l2 d, path = l1 ++ a :: b :: l2 -> trajectory_kind a b <> Ret (Some (RSlalom FastRun45 d))) ->
       smooth (v * p + w / 8000) turn c (L ++ [t])).
Proof.
  cbv zeta. destruct g as [g p]. cbn [sg_gen sg_period].
  intros HW Hok Hc Hm Hs NG RP Hw Hp Hvp He Lg RR.
  exact (run_joined W open is_wall is_goal cost cmax tie start path c w off run_v e g p HW Hok Hc Hm Hs NG RP Hw Hp Hvp He Lg RR).
Qed.
Print Assumptions C90_run.

(** a straight and a curve with the generator of tests/run.rs. *)
Lemma up_room (g : @generator Rops) (d v r : R) : limits g -> 0 < v <= r -> 0 < d -> room g d v r.
Proof.
  intros (_ & La & Lj) H D. split; [|left; lra]. destruct (Rlt_dec v r) as [L|L]; [left; exact L | right].
  intros u Hu. replace u with v by lra. replace (ramp_distance (g_a_max g) (g_j_max g) v v) with 0; [exact D|].
  unfold ramp_distance, ramp_time. rewrite (Rminus_diag_eq v v eq_refl), Rabs_R0.
  assert (0 < g_a_max g * g_a_max g / g_j_max g) by (apply Rdiv_lt_0_compat; nra).
  destruct (Rle_dec _ _); [lra|]. replace (0 / g_j_max g) with 0 by (field; lra). rewrite sqrt_0. ring.
Qed.
Lemma up_speed (g : @straight_generator Rops) (d v r : R) : limits (sg_gen g) -> 0 <= v <= r -> r <= g_v_max (sg_gen g) -> 0 <= d ->
  let u := snd (@straight_generate_tv Rops g d v r) in v <= u <= r /\
  (v < r -> ramp_distance (g_a_max (sg_gen g)) (g_j_max (sg_gen g)) v (v + (g_v_max (sg_gen g) - v) / 2 ^ 25) < d -> v < u).
Proof.
  intros L H HR D. cbv zeta. rewrite straight_tv_snd. rewrite n0_R.
  rewrite generate_tv_snd by lra. rewrite (Rabs_pos_eq d D).
  destruct (Rlt_dec v r) as [LT|NL].
  - destruct (limited_up (sg_gen g) d v r L D ltac:(lra) HR) as (A & _ & _ & B). split; [exact A | intros _; exact B].
  - assert (E : r = v) by lra. subst r. split; [|lra]. destruct (limited_range (sg_gen g) d v v ltac:(lra) ltac:(lra)) as (_ & _ & A). lra.
Qed.

Lemma two_moves (a b c : node) (x : Z) : (1 <= x)%Z ->
  trajectory_kind a b = Ret (Some (RStraight x)) -> trajectory_kind b c = Ret (Some (RSlalom FastRun90 SRight)) ->
  route_room (9 / 100) 0 (@StraightGenerator Rops (@Generator Rops 1%R 10%R 100%R) (1 / 1000)%R) (1 / 2) 0 3 [a; b; c] 0 0.
Proof.
  intros Hx T1 T2. apply IZR_le in Hx.
  set (g0 := @Generator Rops 1%R 10%R 100%R). set (g := @StraightGenerator Rops g0 (1 / 1000)%R).
  assert (LG : limits g0) by (unfold limits; cbn; lra).
  assert (SM : 2 * ramp_distance 10 100 0 (1 / 2 ^ 25) <= 4 * (1 / 2 ^ 25)).
  { assert (B := ramp_short 10 100 0 (1 / 2 ^ 25) (1 / 2 ^ 25) ltac:(lra) ltac:(lra) ltac:(lra) ltac:(lra) ltac:(lra)).
    assert (S1 := sqrt_le_1_alt (1 / 2 ^ 25 / 100) 1 ltac:(lra)). rewrite sqrt_1 in S1.
    assert (0 <= sqrt (1 / 2 ^ 25 / 100)) by apply sqrt_pos. lra. }
  cbn [route_room length]. intros t E. rewrite T1 in E. injection E as <-.
  cbn [run_speeds Nat.leb]. rewrite (Rminus_diag_eq 0 0 eq_refl), Rabs_R0.
  split; [lra|]. split; [cbn; lra|]. split.
  { unfold leg_room. cbn [sg_gen g]. split; [cbn; lra|]. split; [cbn; lra|].
    split; [left; lra | right]. cbn [g_v_max g_a_max g_j_max g0]. lra. }
  cbn [run_leg]. set (r := @straight_generate_tv Rops g _ _ _). set (v := snd (let '(s, v) := r in _)).
  assert (EV : v = snd r) by (unfold v; clearbody r; destruct r; reflexivity).
  change r with (@straight_generate_tv Rops g (IZR x * (9 / 100))%R 0%R (1 / 2)%R) in EV.
  destruct (up_speed g (IZR x * (9 / 100)) 0 (1 / 2) LG ltac:(lra) ltac:(cbn; lra) ltac:(lra)) as [A1 A2]. rewrite <- EV in A1, A2. clearbody v. clear EV r.
  specialize (A2 ltac:(lra)). cbn [sg_gen g g0 g_v_max g_a_max g_j_max] in A2. rewrite Rplus_0_l, Rminus_0_r in A2. specialize (A2 ltac:(lra)).
  intros t E. rewrite T2 in E. injection E as <-. rewrite (Rminus_diag_eq v v eq_refl), Rabs_R0.
  split; [lra|]. split; [cbn; lra|]. split; [|exact I].
  unfold leg_room. cbv zeta. cbn [sg_gen g]. fold g. set (q := @parameters Rops _ _ _ _).
  assert (LQ : 0 < l_start q /\ 0 < l_end q) by (unfold q, parameters, create_params; cbn [l_start l_end]; rops; lra). destruct LQ as [L1 L2].
  destruct (up_speed g (l_start q) v (1 / 2) LG ltac:(lra) ltac:(cbn; lra) ltac:(lra)) as [B1 _].
  split; [cbn; lra|]. split; [cbn; lra|]. split; [apply up_room; [exact LG | lra | exact L1]|].
  split; [lra|]. apply up_room; [exact LG | lra | exact L2].
Qed.

Example C90_case :
  let g := @StraightGenerator Rops (@Generator Rops 1%R 10%R 100%R) (1 / 1000)%R in
  let path := [Nde 0 0 PN; Nde 0 2 PN; Nde 2 4 PE] in
  let w := 9 / 100 in
  run_path 4 (fun n => node_eqb n (Nde 2 4 PE)) (fun c => Ret (negb ((cx c <? 7)%Z && (cy c <? 7)%Z))) (fun _ => 10%Z) 65535 (fun _ => O) (Nde 0 0 PN)
    = Ret (Some (path, 20%Z)) /\
  trajectory_kind (Nde 0 0 PN) (Nde 0 2 PN) = Ret (Some (RStraight 1)) /\
  trajectory_kind (Nde 0 2 PN) (Nde 2 4 PE) = Ret (Some (RSlalom FastRun90 SRight)) /\
  g_v_max (sg_gen g) * sg_period g <= w / 50 /\ limits (sg_gen g) /\
  route_room w 0 g (1 / 2) 0 (length path) path 0 0.
Proof.
  cbv zeta. split; [vm_compute; reflexivity|].
  assert (T1 : trajectory_kind (Nde 0 0 PN) (Nde 0 2 PN) = Ret (Some (RStraight 1))) by (vm_compute; reflexivity).
  assert (T2 : trajectory_kind (Nde 0 2 PN) (Nde 2 4 PE) = Ret (Some (RSlalom FastRun90 SRight))) by (vm_compute; reflexivity).
  split; [exact T1|]. split; [exact T2|]. split; [cbn [g_v_max sg_gen sg_period]; lra|].
  split; [unfold limits; cbn; lra|]. exact (two_moves _ _ _ 1 ltac:(lia) T1 T2).
Qed.
