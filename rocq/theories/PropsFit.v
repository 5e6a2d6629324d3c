(** Properties C98 and C99: runs whose numbers leave room, and the whole way of the mouse. *)
From Coq Require Import ZArith Reals List Bool Lia Lra Psatz.
From Verif Require Import Base SearchModel SearchSpec SearchCoord RunModel RunSpec RunThm WallsModel WallsSpec ExploreModel ExploreProofs
  Num NumLemmas ControlModel TrajModel TrajSpec RouteModel RouteSpec RouteProofs4 RouteProofs5 SafeSpec SafeProofs3 SafeProofs4 SafeRun4 ReachSpec ReachProofs3 ReachProofs4
  FitSpec FitProofs PropsExplore PropsRoute PropsSafe PropsSafeRun PropsReach.
Import ListNotations.
Open Scope R_scope.

(** ** C98 *)

(** With numbers that leave room for every change of speed, every planned run can be driven: the targets are
    smooth and clear of the walls; at the end the mouse stands, unless the path has only one or two moves. *)
Theorem C98_brisk W open truth is_wall is_goal cost cmax tie start path c (w off run_v : R) (g : @straight_generator Rops) :
  let v := g_v_max (sg_gen g) in let p := sg_period g in
  supported W -> (forall x, valid W x -> is_wall x = Ret (negb (open x))) -> (forall k, (0 <= cost k)%Z) -> (0 < cmax)%Z ->
  (forall x, valid W x -> open x = true -> truth x = true) ->
  valid_node W start -> (is_diag (np start) = true -> open (Co (nx start) (ny start)) = true) -> is_goal start = false ->
  run_path W is_goal is_wall cost cmax tie start = Ret (Some (path, c)) ->
  0 < w -> 0 < p -> v * p <= w / 50 -> brisk w run_v g ->
  let turn := 3 * (v * p / w) in
  exists goal boxes v_end L, is_goal goal = true /\ last path start = goal /\
    @run_route Rops w off g run_v path = Ret (boxes, v_end) /\ serves boxes L /\
    (exists t L', L = t :: L' /\ passing (@pose_of_node Rops start w) 0 t) /\
    Forall (clear W truth w (34 / 100 * w)) L /\
    (v_end = 0 <-> (4 <= length path)%nat) /\
    forall t, passing (@pose_of_node Rops goal w) v_end t ->
      smooth (v * p + w / 150) turn (Rmax (g_a_max (sg_gen g) * p) (v * turn) + v / 2 ^ 25) (L ++ [t]).
Proof.
  cbv zeta. intros HW Hok Hc Hm HT Hs Os NG RP Hw Hp Hvp B.
  set (e := g_v_max (sg_gen g) / 2 ^ 25).
  destruct (eps_pos w run_v g B) as [E0 E1]. fold e in E0, E1. assert (Lg : limits (sg_gen g)) by apply B.
  destruct (run_sound W open is_wall is_goal cost cmax tie start HW Hok Hc Hm Hs path c RP) as (goal & PA & GG).
  destruct (rpath_chain _ _ _ _ _ _ _ _ PA) as [(l' & ->) CH].
  destruct l' as [|b l]; [inversion CH; subst; congruence|].
  destruct (fits w off run_v g Hw B W open (length (start :: b :: l)) HW l start b goal CH Hs 0%nat 0) as [RR FE]; [reflexivity| |].
  { split; [destruct B as (_ & V & _); lra|]. split; [reflexivity|]. split; congruence. }
  fold e in RR, FE.
  destruct (C90_run W open is_wall is_goal cost cmax tie start (start :: b :: l) c w off run_v e g HW Hok Hc Hm Hs NG RP Hw Hp Hvp ltac:(lra) Lg RR)
    as (goal' & boxes & ve & L & G1 & G2 & EB & SE & FS & SM).
  exists goal', boxes, ve, L. split; [exact G1|]. split; [exact G2|]. split; [exact EB|]. split; [exact SE|]. split; [exact FS|]. split.
  { destruct (C93_run W open truth is_wall is_goal cost cmax tie start (start :: b :: l) c w off run_v e g HW Hok Hc Hm HT Hs Os NG RP Hw Hp Hvp ltac:(lra) Lg RR)
      as (boxes' & ve' & L' & EB' & SE' & _ & C).
    rewrite EB in EB'. injection EB' as <- <-. rewrite (serves_unique _ _ _ SE SE'). exact C. }
  split.
  { unfold run_route in EB. rewrite TrajProofs4.n0_R in EB. destruct (FE _ _ EB) as [F1 F2]. split; [|exact F1].
    intros Z. destruct (le_lt_dec 4 (length (start :: b :: l))) as [H|H]; [exact H|]. specialize (F2 ltac:(lia)). lra. }
  intros t PT. exact (proj1 (SM t PT)).
Qed.
Print Assumptions C98_brisk.

(** the squares and the limits of tests/run.rs with half the speed in curves *)
Definition brisk_g : @straight_generator Rops := @StraightGenerator Rops (@Generator Rops 1%R 10%R 100%R) (1 / 1000)%R.
Lemma brisk_case : brisk (9 / 100) (1 / 4) brisk_g.
Proof.
  assert (C : forall u v, 0 <= u <= v -> v <= 1 / 4 -> (u + v) * sqrt ((v - u) / 100) < 14 / 1000).
  { intros u v Hu Hv. set (s := sqrt ((v - u) / 100)). assert (S0 : 0 <= s) by apply sqrt_pos.
    assert (S2 : s * s = (v - u) / 100) by (apply sqrt_sqrt; lra).
    assert (Q : (u + v) * (u + v) * (v - u) <= 32 / 27 * (v * v * v)).
    { assert (0 <= (u - v / 3) * (u - v / 3) * (u + 5 / 3 * v)) by (apply Rmult_le_pos; [apply Rle_0_sqr | lra]). nra. }
    assert (V3 : v * v * v <= 1 / 64) by (assert (v * v <= 1 / 16) by nra; nra).
    apply Rnot_le_lt. intros N. assert (14 / 1000 * (14 / 1000) <= ((u + v) * s) * ((u + v) * s)) by (apply Rmult_le_compat; lra).
    replace (((u + v) * s) * ((u + v) * s)) with ((u + v) * (u + v) * (s * s)) in H by ring. rewrite S2 in H. nra. }
  assert (T : forall x, 0 <= x <= 1 / 4 -> ramp_time 10 100 x = 2 * sqrt (x / 100)).
  { intros x Hx. unfold ramp_time. destruct (Rle_dec (10 * 10 / 100) x); [lra | reflexivity]. }
  unfold brisk, brisk_g. cbv zeta. cbn [sg_gen g_v_max g_a_max g_j_max].
  split; [repeat split; cbn; lra|]. split; [lra|]. split; [lra|]. split.
  - intros u v Hu Hv. unfold ramp_distance.
    assert (HA : 0 <= Rabs (v - u) <= 1 / 4) by (split; [apply Rabs_pos | apply Rabs_le; lra]). rewrite (T _ HA).
    destruct (Rle_dec u v) as [L|L].
    + rewrite Rabs_pos_eq by lra. specialize (C u v ltac:(lra) ltac:(lra)). lra.
    + rewrite Rabs_left by lra. replace (- (v - u)) with (u - v) by ring. specialize (C v u ltac:(lra) ltac:(lra)). lra.
  - unfold big_enough. cbn [g_v_max g_a_max g_j_max]. unfold ramp_distance. rewrite Rminus_0_r, Rplus_0_l.
    assert (M : 0 < 1 / 2 ^ 25 < 1 / 1000) by lra. generalize dependent (1 / 2 ^ 25). intros m M.
    rewrite !Rabs_pos_eq by lra. rewrite (T m) by lra.
    assert (0 <= sqrt (m / 100) <= 1) by (split; [apply sqrt_pos | rewrite <- sqrt_1; apply sqrt_le_1_alt; lra]). nra.
Qed.
Example C98_case :
  let path := [Nde 0 0 PN; Nde 0 2 PN; Nde 2 4 PE] in let open c := existsb (coord_eqb c) [Co 0 1; Co 0 3; Co 1 4] in
  brisk (9 / 100) (1 / 4) brisk_g /\ 0 < sg_period brisk_g /\ g_v_max (sg_gen brisk_g) * sg_period brisk_g <= 9 / 100 / 50 /\
  run_path 4 (fun n => node_eqb n (Nde 2 4 PE)) (fun c => Ret (negb (open c))) (fun _ => 10%Z) 65535 (fun _ => O) (Nde 0 0 PN)
    = Ret (Some (path, 20%Z)).
Proof.
  split; [exact brisk_case|]. split; [cbn; lra|]. split; [cbn; lra|]. vm_compute. reflexivity.
Qed.

(** ** C99 *)

(** The mouse solves every maze that can be solved: the exploration ends, all its targets keep clear of the walls of
    the maze, and if one can go from square to square to a goal, it finds a run to a goal whose targets start at rest
    in the first square, are smooth and keep clear of the walls of the maze. *)
Theorem C99_mouse W wall is_goal cost cmax tie B goals squares se w0 extra
    (w off stop run_v : R) (gs gr : @straight_generator Rops) (sg : @generator Rops) :
  let v := g_v_max (sg_gen gr) in let p := sg_period gr in
  supported W -> within_memory W (fun c => negb (wall c)) (Nde 0 0 PN) B cost -> (forall c b, valid W c -> fresh W c = Checked b -> wall c = b) ->
  payable W B cost cmax -> ends_in W is_goal squares -> aims_at W (fun c => negb (wall c)) goals squares ->
  Forall (in_maze W) squares -> ~ In (0, 0)%Z squares -> ~ In (0, 1)%Z squares ->
  searcher_new W (Co 0 1) goals = Ret se -> walls_new W = Ret w0 -> (forall i, Forall (valid W) (extra i)) ->
  drivable w off stop gs sg -> 0 < p -> v * p <= w / 50 -> brisk w run_v gr ->
  let truth c := negb (wall c) in let turn := 3 * (v * p / w) in
  exists n o we s l L, explore n W se wall extra w0 (SS (Co 0 1) North) = Ret (o, we, s) /\
    explored W se wall extra w0 (SS (Co 0 1) North) l we s /\
    serves (@search_route Rops w off gs sg stop l) L /\ Forall (clear W truth w (39 / 100 * w)) L /\
    ((forall e, In e squares -> ~ linked W truth (0, 0)%Z e) -> o = Failed) /\
    ((exists e, In e squares /\ linked W truth (0, 0)%Z e) ->
      o = Found /\ exists path c goal boxes v_end M,
      run_path W is_goal (fun c => let* t := walls_state W we c in Ret (negb (is_checked_false t))) cost cmax tie (Nde 0 0 PN) = Ret (Some (path, c)) /\
      is_goal goal = true /\ In (nx goal / 2, ny goal / 2)%Z squares /\
      @run_route Rops w off gr run_v path = Ret (boxes, v_end) /\ serves boxes M /\
      (exists t M', M = t :: M' /\ passing (@pose_of_node Rops (Nde 0 0 PN) w) 0 t) /\
      Forall (clear W truth w (34 / 100 * w)) M /\
      (v_end = 0 <-> (4 <= length path)%nat) /\
      forall t, passing (@pose_of_node Rops goal w) v_end t ->
        smooth (v * p + w / 150) turn (Rmax (g_a_max (sg_gen gr) * p) (v * turn) + v / 2 ^ 25) (M ++ [t])).
Proof.
  cbv zeta. intros HW H8 Hf Hpay He Ha Hq N0 N1 Hse Hw0 Fe D Hp Hvp Bk.
  assert (HW' := supported_bounds W HW). assert (Vs := first_valid W HW).
  assert (Hg : Forall (valid W) goals) by (destruct Ha as [Ha _]; revert Ha; apply Forall_impl; intros g G; apply G).
  destruct (C97_solved W wall is_goal cost cmax tie B goals squares se w0 extra HW H8 Hf Hpay He Ha Hq N0 N1 Hse Hw0 Fe)
    as (n & o & we & s & E & Y & N & F).
  assert (I0 := first_inv W wall w0 HW Hf Hw0).
  destruct (explore_explored W HW (Co 0 1) Vs goals Hg se Hse wall n extra w0 (SS (Co 0 1) North) o we s E Fe (ex_intro _ _ I0)) as (l & X).
  destruct (C92_exploration W goals wall se w0 extra w off stop gs sg D HW Hg Hf Hse Hw0 Fe) as [C92 _].
  destruct (C92 l we s X) as (L & SL & CL).
  exists n, o, we, s, l, L. split; [exact E|]. split; [exact X|]. split; [exact SL|]. split; [exact CL|]. split; [exact N|].
  intros Lk. specialize (Y Lk). split; [exact Y|]. destruct (F Y) as (path & c & g & RP & G & J & _).
  assert (Hw : 0 < w) by (destruct D as (-> & _); lra).
  destruct (explored_keep W HW (Co 0 1) Vs goals Hg se Hse wall extra w0 _ l we s _ X Fe I0) as (kn & I & K).
  set (isw := fun c => let* t := walls_state W we c in Ret (negb (is_checked_false t))) in *.
  set (op := fun c => kn c && negb (wall c)).
  assert (Hok : forall c, valid W c -> isw c = Ret (negb (op c))).
  { intros x V. unfold isw. rewrite (read W HW wall kn we x (i_map _ _ _ _ _ _ I)) by apply V. rewrite (ws_valid W) by exact V.
    unfold st, op. cbn [bind]. destruct (kn x), (wall x); reflexivity. }
  assert (Mo : forall c, valid W c -> op c = true -> negb (wall c) = true) by (intros x _ Hx; apply andb_prop in Hx; apply Hx).
  assert (Hs : valid_node W (Nde 0 0 PN)) by (repeat split; cbn; lia).
  assert (NG : is_goal (Nde 0 0 PN) = false).
  { destruct (is_goal (Nde 0 0 PN)) eqn:Q; [|reflexivity]. destruct (proj1 (He _ Hs) Q) as [_ Z]. destruct (N0 Z). }
  assert (Hc : forall k, (0 <= cost k)%Z) by apply Hpay.
  assert (Hm : (0 < cmax)%Z) by (assert (0 <= B)%Z by (destruct Hpay as (P1 & P2 & _); specialize (P1 KSlalom45); specialize (P2 KSlalom45 ltac:(cbn; tauto)); lia); destruct Hpay as (_ & _ & P3); nia).
  destruct (C98_brisk W op (fun c => negb (wall c)) isw is_goal cost cmax tie (Nde 0 0 PN) path c w off run_v gr HW Hok Hc Hm Mo Hs ltac:(discriminate) NG RP Hw Hp Hvp Bk)
    as (goal & boxes & ve & M & G1 & G2 & Rest).
  assert (S0 : in_maze W (0, 0)%Z) by (unfold in_maze; cbn; lia).
  destruct (some_linked W op isw is_goal cost cmax B tie (0, 0)%Z North squares HW Hok Hpay S0 He path c RP) as (g2 & _ & PA2 & J2 & _).
  assert (LA : last path (Nde 0 0 PN) = g2) by (clear -PA2; revert PA2; induction 1; [reflexivity | apply last_last]).
  rewrite LA in G2. subst goal.
  exists path, c, g2, boxes, ve, M. split; [exact RP|]. split; [exact G1|]. split; [exact J2|]. exact Rest.
Qed.
Print Assumptions C99_mouse.

(** the maze of C23 and the numbers above; the run found has more than four nodes (C97) *)
Example C99_case : supported 4 /\ (forall c b, valid 4 c -> fresh 4 c = Checked b -> x4_wall c = b) /\
  payable 4 25 move_cost 65535 /\ ends_in 4 x4_goal [(1, 0)%Z] /\ aims_at 4 (fun c => negb (x4_wall c)) x4_goals [(1, 0)%Z] /\
  linked 4 (fun c => negb (x4_wall c)) (0, 0)%Z (1, 0)%Z /\
  (exists se w0, searcher_new 4 (Co 0 1) x4_goals = Ret se /\ walls_new 4 = Ret w0) /\
  drivable (9 / 100) (1 / 100) (1 / 10) test_g test_sg /\ brisk (9 / 100) (1 / 4) brisk_g /\
  0 < sg_period brisk_g /\ g_v_max (sg_gen brisk_g) * sg_period brisk_g <= 9 / 100 / 50.
Proof.
  destruct C23_case as (S4 & _ & Hf & _ & se & w0 & E1 & E2 & _). destruct C97_case as (P & Ed & Ai & _ & Li & _).
  split; [exact S4|]. split; [exact Hf|]. split; [exact P|]. split; [exact Ed|]. split; [exact Ai|]. split; [exact Li|].
  split; [exists se, w0; split; assumption|]. split; [exact test_drivable|]. split; [exact brisk_case|]. split; cbn; lra.
Qed.
