(** The loops of the integration tests (C112). *)
From Coq Require Import ZArith Reals List Bool Lia Lra.
From Verif Require Import Base SearchModel SearchSpec SearchCoord WallsModel WallsSpec WallsLemmas Num NumLemmas ControlModel TrajModel DetectModel DetectSpec
  SimModel SimSpec RouteModel LoopModel ExploreModel ExploreProofs SearchSpec LoopSpec LoopProofs PropsExplore PropsSim.
Import ListNotations.
Open Scope Z_scope.

(** ** C112: the loop of the search test, with any controllers, estimators, trajectories and sensors:
    the map never contradicts the simulated maze, the mouse is always planned to cross an opening
    that can be reached from the start, and in a maze with a way to a goal the loop stops otherwise than by its break only when
    no trajectory is left or when the map has lost the opening of the start square. *)
Theorem C112_rounds W goals se tr (v : @search_setup Rops) (l : @search_vars Rops) w0 n :
  let wall c := is_wall (tr c) in
  supported W -> Forall (valid W) goals -> searcher_new W (Co 0 1) goals = Ret se -> v_searcher v = se ->
  holds W (m_walls (l_simulator l)) tr -> (forall c b, valid W c -> fresh W c = Checked b -> wall c = b) ->
  walls_new W = Ret w0 -> l_walls l = w0 -> l_detector l = @detector_new Rops -> l_commander l = None -> l_robot l = SS (Co 0 1) North ->
  (exists g p, In g goals /\ g <> Co 0 1 /\ route W (fun c => negb (wall c)) (Co 0 1) g p) ->
  match search_rounds n W v l with
  | Ret (inl l') | Ret (inr l') => map_true W wall (l_walls l') /\ robot_free W wall (l_robot l')
  | Panic => exists k l', (k < n)%nat /\ search_rounds k W v l = Ret (inl l') /\ (starved l' \/ start_lost W l')
  | Fuel => False
  end.
Proof.
  intros wall HW Hg Hse Ev Ht Hf Hw0 E1 E2 E3 E4 Hs.
  pose proof (start_ok W HW tr Hf l w0 Ht Hw0 E1 E2 E3 E4) as R.
  pose proof (rounds_ok W HW tr goals Hg se Hse Hf v n Ev l R) as H.
  destruct (search_rounds n W v l) as [[l'|l']| |]; [|destruct H as [H _]| |exact H].
  1, 2: split; [exact (map_ok W tr l' H)|exact (proj1 (proj2 (proj2 H)))].
  destruct H as (k & l' & A & B & _ & C). exists k, l'. split; [exact A|]. split; [exact B|].
  destruct C as [C|[C|C]]; [now left| |now right]. now destruct C.
Qed.
Print Assumptions C112_rounds.

(** Every change of the planned state is a legal move towards an opening of the maze. *)
Theorem C112_moves W goals se tr (v : @search_setup Rops) (l : @search_vars Rops) w0 n l1 l2 :
  let wall c := is_wall (tr c) in
  supported W -> Forall (valid W) goals -> searcher_new W (Co 0 1) goals = Ret se -> v_searcher v = se ->
  holds W (m_walls (l_simulator l)) tr -> (forall c b, valid W c -> fresh W c = Checked b -> wall c = b) ->
  walls_new W = Ret w0 -> l_walls l = w0 -> l_detector l = @detector_new Rops -> l_commander l = None -> l_robot l = SS (Co 0 1) North ->
  search_rounds n W v l = Ret (inl l1) -> search_period W v l1 = Ret (inl l2) ->
  l_robot l2 = l_robot l1 \/
  exists c k, SearchSpec.moves (ss_coord (l_robot l1)) (ss_posture (l_robot l1)) c k (ss_coord (l_robot l2)) (ss_posture (l_robot l2)) /\
    valid W c /\ wall c = false.
Proof.
  intros wall HW Hg Hse Ev Ht Hf Hw0 E1 E2 E3 E4 En Ep.
  pose proof (start_ok W HW tr Hf l w0 Ht Hw0 E1 E2 E3 E4) as R.
  pose proof (rounds_ok W HW tr goals Hg se Hse Hf v n Ev l R) as H. rewrite En in H.
  destruct (period_ok W HW tr goals Hg se Hse Hf v l1 Ev H) as [(x & E & P)|[E _]]; rewrite E in Ep; [|discriminate].
  injection Ep as ->. exact (proj2 P).
Qed.
Print Assumptions C112_moves.

(** When the loop is left by its break, the paths compared at the end of the test both exist, are
    best routes of the simulated maze and have the same length. *)
Theorem C112_end W goals se tr (v : @search_setup Rops) (l : @search_vars Rops) w0 n l' :
  let wall c := is_wall (tr c) in
  supported W -> Forall (valid W) goals -> searcher_new W (Co 0 1) goals = Ret se -> v_searcher v = se ->
  holds W (m_walls (l_simulator l)) tr -> (forall c b, valid W c -> fresh W c = Checked b -> wall c = b) ->
  (forall c, valid W c -> tr c <> Unchecked) ->
  walls_new W = Ret w0 -> l_walls l = w0 -> l_detector l = @detector_new Rops -> l_commander l = None -> l_robot l = SS (Co 0 1) North ->
  search_rounds n W v l = Ret (inr l') ->
  exists p q, path_on W se (l_walls l') = Ret (Some (Co 0 1 :: p)) /\ path_on W se (m_walls (l_simulator l')) = Ret (Some (Co 0 1 :: q)) /\
    best_route W (fun c => negb (wall c)) (Co 0 1) goals p /\ best_route W (fun c => negb (wall c)) (Co 0 1) goals q /\ length p = length q.
Proof.
  intros wall HW Hg Hse Ev Ht Hf Hk Hw0 E1 E2 E3 E4 En.
  pose proof (start_ok W HW tr Hf l w0 Ht Hw0 E1 E2 E3 E4) as R.
  pose proof (rounds_ok W HW tr goals Hg se Hse Hf v n Ev l R) as H. rewrite En in H. destruct H as [H1 H2].
  exact (end_ok W HW tr goals Hg se Hse Hf l' H1 Hk H2).
Qed.
Print Assumptions C112_end.

(** A maze of 4 by 4 squares with a way to the goals: everything that is asked for, and a first round in which the search is begun. *)
Definition loop_start (w w0 : walls) : @search_vars Rops :=
  @SearchVars Rops (@estimator_new Rops (1 / 1000)%R (1 / 2)%R 100%R (1 / 100)%R) rest
    (@Boxed Rops (@Pose Rops 0%R 0%R 0%R) (@IStraight Rops (@straight_new Rops (@SConst Rops (@ConstCalc Rops 1%R 0%R 0%R)) 1%R (1 / 1000)%R))) None
    (@Tracker Rops 0%R (1 / 1000)%R (1 / 5)%R 1%R 1%R) (@controller_new Rops (@ControlParameters Rops 1%R 1%R 0%R 1%R 1%R) (@ControlParameters Rops 1%R 1%R 0%R 1%R 1%R) (1 / 1000)%R)
    None (SS (Co 0 1) North) w0 (@detector_new Rops) (mouse w).
Definition loop_setup (se : searcher) : @search_setup Rops :=
  @SearchSetup Rops se (@Navigation Rops 40%R 4%R) [] (90 / 1000)%R 0%R (fun _ => b_inner (l_trajectory (loop_start (anew 0 0) (anew 0 0)))).

Example C112_case : exists se w w0 tr, searcher_new 4 (Co 0 1) x4_goals = Ret se /\ walls_new 4 = Ret w0 /\
  supported 4 /\ Forall (valid 4) x4_goals /\
  holds 4 w tr /\ (forall c, valid 4 c -> tr c = Checked (x4_wall c)) /\
  (forall c b, valid 4 c -> fresh 4 c = Checked b -> is_wall (tr c) = b) /\
  (exists g p, In g x4_goals /\ g <> Co 0 1 /\ route 4 (fun c => negb (is_wall (tr c))) (Co 0 1) g p) /\
  exists l' cs, search_rounds 1 4 (loop_setup se) (loop_start w w0) = Ret (inl l') /\ l_commander l' = Some cs /\ In (Co 0 3) cs.
Proof.
  destruct C23_case as (HW & Hg & Hf & _ & se & w0 & Hse & Hw0 & _).
  assert (I0 := first_inv 4 x4_wall w0 HW Hf Hw0).
  destruct (reveal_ok 4 HW x4_wall (all_walls 4)) with (kn := kn0 4) (w := w0) as (w & _ & Hw);
    [apply Forall_forall; intros c; apply all_walls_In|apply I0|].
  set (tr := fun c => Checked (x4_wall c)).
  assert (Ht : holds 4 w tr).
  { apply (holds_ext 4 w _ _) with (2 := Hw). intros c V. unfold ExploreProofs.st, tr. now rewrite learn_In by now apply all_walls_In. }
  assert (Et : forall c, is_wall (tr c) = x4_wall c) by (intros c; unfold tr, is_wall; now destruct (x4_wall c)).
  exists se, w, w0, tr. split; [exact Hse|]. split; [exact Hw0|]. split; [exact HW|]. split; [exact Hg|]. split; [exact Ht|].
  split; [reflexivity|]. split; [intros c b; rewrite Et; apply Hf|]. split.
  - assert (E : exists p, shortest_path 4 se (fun c => Ret (negb (negb (is_wall (tr c))))) = Ret (Some p)).
    { assert (X : match searcher_new 4 (Co 0 1) x4_goals with
                  | Ret se => match shortest_path 4 se (fun c => Ret (negb (negb (is_wall (Checked (x4_wall c)))))) with Ret (Some _) => true | _ => false end
                  | _ => false end = true) by (vm_compute; reflexivity).
      rewrite Hse in X. cbv beta iota in X. change (fun c => Ret (negb (negb (is_wall (tr c))))) with (fun c => Ret (negb (negb (is_wall (Checked (x4_wall c)))))).
      remember (shortest_path 4 se (fun c => Ret (negb (negb (is_wall (Checked (x4_wall c))))))) as y eqn:Ey. clear Ey.
      destruct y as [[p|]| |]; [exists p; reflexivity|discriminate X..]. }
    destruct E as (p & E).
    destruct (SearchThm2.path_legal 4 (Co 0 1) x4_goals se (fun c => Ret (negb (negb (is_wall (tr c))))) (fun c => negb (is_wall (tr c))) HW
      (first_valid 4 HW) Hg Hse (fun c _ => eq_refl) p E) as (g & q & _ & _ & H). exists g, q. exact H.
  - assert (S : exists cs, search 4 se (Co 0 1) (walls_state 4 w0) = Ret (SSome cs) /\ In (Co 0 3) cs).
    { assert (X : match searcher_new 4 (Co 0 1) x4_goals, walls_new 4 with
                  | Ret se, Ret w0 => match search 4 se (Co 0 1) (walls_state 4 w0) with Ret (SSome cs) => existsb (coord_eqb (Co 0 3)) cs | _ => false end
                  | _, _ => false end = true) by (vm_compute; reflexivity).
      rewrite Hse, Hw0 in X. cbv beta iota in X. remember (search 4 se (Co 0 1) (walls_state 4 w0)) as y eqn:Ey. clear Ey. destruct y as [[| |cs]| |]; try discriminate X.
      exists cs. split; [reflexivity|]. apply existsb_exists in X. destruct X as (c & I & X). destruct (coord_eqb_spec (Co 0 3) c) as [->|]; [exact I|discriminate X]. }
    destruct S as (cs & Es & Eh). cbn [search_rounds]. unfold search_period.
    cbn [loop_start l_estimator l_state l_simulator l_trajectory l_next l_tracker l_controller l_commander l_robot l_walls l_detector].
    destruct (estimate _ _ _) as [s e].
    unfold take_target, boxed_next. cbn [b_pose b_inner]. unfold shift_next, inner_next, straight_next. cbn [straight_new st_t st_t_end st_period st_calc].
    assert (B : @ltb Rops 1%R (@n0 Rops) = false) by (unfold n0; rops; destruct (Rltb_spec 1 (0 / 1)); [lra|reflexivity]).
    rewrite B. cbn [option_map bind]. destruct (track _ _ _ _) as [[r y] k]. destruct (control _ r y) as [o c]. cbn [decide loop_setup v_searcher ss_coord].
    rewrite Es. cbn [bind loop_setup v_sensors detect_walls]. eexists. exists cs. split; [reflexivity|]. split; [reflexivity|exact Eh].
Qed.
