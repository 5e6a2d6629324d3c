(** What the mouse is made to follow in the loop of the search test (C116). *)
From Coq Require Import ZArith Reals List Bool Lia Lra.
From Verif Require Import Base SearchModel SearchSpec SearchCoord WallsModel WallsSpec WallsLemmas Num NumLemmas ControlModel TrajModel TrajSpec DetectModel DetectSpec DetectProofs6
  SimModel SimSpec RouteModel RouteSpec SafeSpec LoopModel ExploreModel ExploreProofs LoopSpec LoopProofs ResumeSpec ResumeProofs DrivenSpec LoopRoute
  PropsExplore PropsSim PropsRoute PropsSafe PropsLoop SearchSpec.
Import ListNotations.
Open Scope R_scope.

(** ** C116: the targets followed in any number of rounds, with any controllers and trajectories, are the
    first ones that the first trajectory and those of the moves made hand out when joined one after the
    other: no move is skipped, cut short, repeated or driven from another place. *)
Theorem C116_followed W goals se tr (v : @search_setup Rops) (l : @search_vars Rops) n l' :
  let wall c := is_wall (tr c) in
  supported W -> Forall (valid W) goals -> searcher_new W (Co 0 1) goals = Ret se -> v_searcher v = se ->
  holds W (m_walls (l_simulator l)) tr -> (forall c b, valid W c -> fresh W c = Checked b -> wall c = b) ->
  begins W l \/ resumes W wall l -> l_next l = None -> search_rounds n W v l = Ret (inl l') ->
  exists ts ml, followed W v l ts l' /\ length ts = n /\ walks W (l_robot l) ml (l_robot l') /\
    Forall (fun sk => wall (ss_coord (fst sk)) = false) ml /\
    forall L, serves (l_trajectory l :: map (fun sk => Boxed (pose_of_search (fst sk) (v_square v) (v_offset v)) (v_move v (snd sk))) ml) L ->
      exists L', L = ts ++ L' /\ serves (l_trajectory l' :: match l_next l' with Some b => [b] | None => [] end) L'.
Proof.
  intros wall HW Hg Hse Ev Ht Hf Hb En E. pose proof (ready W HW tr Hf l Ht Hb) as R.
  assert (J : waits (l_commander l) (l_next l)) by (right; exact En).
  destruct (rounds_route W HW tr goals Hg se Hse Hf v Ev n l l' R J E) as (ts & ml & F & Ln & Wk & Op & St & _).
  exists ts, ml. repeat (split; [assumption|]). intros L S. rewrite En in St. exact (steps_serves _ _ _ St L S).
Qed.
Print Assumptions C116_followed.

(** The same in every arithmetic, binary32 included, from all variables with which no search is under way
    while a trajectory waits; only that the moves are possible in the maze is not said here. *)
Theorem C116_any {K : ops} W (v : search_setup) (l : search_vars) n l' :
  l_commander l = None \/ l_next l = None -> search_rounds n W v l = Ret (inl l') ->
  exists ts ml, followed W v l ts l' /\ length ts = n /\ hops (l_robot l) ml (l_robot l') /\
    forall L, serves (l_trajectory l :: match l_next l with Some b => [b] | None => [] end ++
                       map (fun sk => Boxed (pose_of_search (fst sk) (v_square v) (v_offset v)) (v_move v (snd sk))) ml) L ->
      exists L', L = ts ++ L' /\ serves (l_trajectory l' :: match l_next l' with Some b => [b] | None => [] end) L'.
Proof.
  intros J E. destruct (any_rounds W v n l l' J E) as (ts & ml & F & Ln & Wk & St).
  exists ts, ml. repeat (split; [assumption|]). exact (steps_serves _ _ _ St).
Qed.
Print Assumptions C116_any.

Lemma smooth_prefix d h c l m : smooth d h c (l ++ m) -> smooth d h c l.
Proof. intros H l1 s t l2 ->. apply (H l1 s t (l2 ++ m)). rewrite <- app_assoc. reflexivity. Qed.

(** With the trajectories of the test and numbers with which they can be driven, the targets followed
    run on without jumps and keep 39/100 of a square away from every wall of the simulated maze. *)
Theorem C116_drive W goals se tr (v : @search_setup Rops) (l : @search_vars Rops) n l' (w off stop : R) (g : @straight_generator Rops) (sg : @generator Rops) :
  let wall c := is_wall (tr c) in
  let vm := g_v_max (sg_gen g) in let p := sg_period g in let turn := 943 / 100 * (vm * p / w) in
  supported W -> Forall (valid W) goals -> searcher_new W (Co 0 1) goals = Ret se -> v_searcher v = se ->
  holds W (m_walls (l_simulator l)) tr -> (forall c b, valid W c -> fresh W c = Checked b -> wall c = b) ->
  begins W l \/ resumes W wall l -> l_next l = None -> l_robot l = SS (Co 0 1) North ->
  drivable w off stop g sg -> v_square v = w -> v_offset v = off -> (forall k, v_move v k = @search_move Rops w off g sg stop k) ->
  @search_route Rops w off g sg stop [] = [l_trajectory l] ->
  search_rounds n W v l = Ret (inl l') ->
  exists ts, followed W v l ts l' /\ length ts = n /\
    smooth (vm * p + w / 8000) (Rmax turn (g_v_max sg * p)) (Rmax (g_a_max (sg_gen g) * p) (vm * turn) + vm / 2 ^ 25) ts /\
    Forall (clear W (fun c => negb (wall c)) w (39 / 100 * w)) ts /\
    (forall t ts', ts = t :: ts' -> passing (@Pose Rops (w / 2)%R (w / 2)%R (PI / 2)%R) 0 t).
Proof.
  intros wall vm p turn HW Hg Hse Ev Ht Hf Hb En Er Hd Hw Ho Hmv Htr E. pose proof (ready W HW tr Hf l Ht Hb) as R.
  assert (J : waits (l_commander l) (l_next l)) by (right; exact En).
  destruct (rounds_route W HW tr goals Hg se Hse Hf v Ev n l l' R J E) as (ts & ml & F & Ln & Wk & Op & St & R').
  pose proof Hd as (H1 & H2 & H3 & H4 & H5 & H6 & H7 & H8 & H9 & H10 & H11).
  rewrite Er in Wk. rewrite En in St. cbn [optl app] in St.
  assert (Eq : l_trajectory l :: map (leg v) ml = @search_route Rops w off g sg stop ml).
  { unfold search_route in *. cbn [map] in Htr. injection Htr as <-. f_equal. apply map_ext. intros [s k]. unfold leg. cbn [fst snd]. rewrite Hw, Ho, Hmv. reflexivity. }
  rewrite Eq in St.
  destruct (C89_search W w off stop g sg ml (l_robot l') HW (first_valid W HW) Wk H1 H2 H3 H4 H5 H6 H7 H8 H9 H10 H11) as (L & SE & (t0 & L0 & EL & P0) & SM).
  destruct (steps_serves _ _ _ St L SE) as (L' & EL' & _).
  exists ts. split; [exact F|]. split; [exact Ln|]. split; [|split].
  - set (e := @pose_of_search Rops (l_robot l') w off) in *.
    set (t := @Target Rops (@Axis4 Rops (p_x e) (vm * cos (p_theta e))%R 0%R 0%R) (@Axis4 Rops (p_y e) (vm * sin (p_theta e))%R 0%R 0%R) (@Axis4 Rops (p_theta e) 0%R 0%R 0%R)).
    specialize (SM t ltac:(repeat split; reflexivity)). rewrite EL', <- app_assoc in SM. exact (smooth_prefix _ _ _ _ _ SM).
  - assert (Cl : Forall (clear W (fun c => negb (wall c)) w (39 / 100 * w)) L).
    { apply (C91_clear W _ w off stop g sg ml (l_robot l') L Hd HW Wk).
      - pose proof (proj1 (proj2 (proj2 R))) as (_ & _ & O & _). rewrite Er in O. cbn [ss_coord] in O. apply negb_true_iff. exact O.
      - apply (Forall_impl _ (P := fun sk => wall (ss_coord (fst sk)) = false)); [|exact Op]. intros sk ->. reflexivity.
      - pose proof (proj1 (proj2 (proj2 R'))) as (_ & _ & O & _). apply negb_true_iff. exact O.
      - exact SE. }
    rewrite EL' in Cl. exact (proj1 (proj1 (Forall_app _ _ _) Cl)).
  - intros t ts' ->. rewrite EL' in EL. injection EL as -> _. exact P0.
Qed.
Print Assumptions C116_drive.

(** The maze of 4 by 4 squares with a map on which the first opening is known, the trajectories and numbers
    of the test: all that is asked for, and after two rounds the next move has been planned. *)
Definition test_route : list boxed := @search_route Rops (9 / 100)%R (1 / 100)%R test_g test_sg (1 / 10)%R [].
Definition drive_setup (se : searcher) : @search_setup Rops :=
  @SearchSetup Rops se (@Navigation Rops 40%R 4%R) [] (9 / 100)%R (1 / 100)%R (@search_move Rops (9 / 100)%R (1 / 100)%R test_g test_sg (1 / 10)%R).
Definition drive_start (w w1 : walls) (d : @detector Rops) (b : @boxed Rops) : @search_vars Rops :=
  let l := loop_start w w1 in
  @SearchVars Rops (l_estimator l) (l_state l) b None (l_tracker l) (l_controller l) None (SS (Co 0 1) North) w1 d (l_simulator l).

(** the first trajectory hands out two targets at least. *)
Lemma two_targets : exists b t1 b1 t2 b2, test_route = [b] /\ boxed_next b = (Some t1, b1) /\ boxed_next b1 = (Some t2, b2).
Proof.
  assert (HW : supported 4) by (unfold supported; auto 8).
  assert (TD := test_drivable). destruct TD as (H1 & H2 & H3 & H4 & H5 & H6 & H7 & H8 & H9 & H10 & H11).
  destruct (C89_search 4 (9 / 100) (1 / 100) (1 / 10) test_g test_sg [] (SS (Co 0 1) North) HW (first_valid 4 HW) (walks_nil 4 _) H1 H2 H3 H4 H5 H6 H7 H8 H9 H10 H11) as (L & SE & (t1 & L1 & -> & P1) & SM).
  assert (Eb : exists b, test_route = [b]) by (eexists; reflexivity). destruct Eb as (b & Eb). rewrite Eb. fold test_route in SE. rewrite Eb in SE.
  clear HW H1 H2 H3 H4 H5 H6 H7 H8 H9 H10 H11.
  inversion SE as [|r t r' l0 E1 S1]; subst. unfold route_next in E1. destruct (boxed_next b) as [[x|] b1] eqn:N1; [|discriminate E1].
  injection E1 as -> <-.
  destruct L1 as [|t2 L1].
  - exfalso. set (e := @pose_of_search Rops (SS (Co 0 1) North) (9 / 100)%R (1 / 100)%R) in *.
    set (v := g_v_max (sg_gen test_g)) in *.
    set (t := @Target Rops (@Axis4 Rops (p_x e) (v * cos (p_theta e))%R 0%R 0%R) (@Axis4 Rops (p_y e) (v * sin (p_theta e))%R 0%R 0%R) (@Axis4 Rops (p_theta e) 0%R 0%R 0%R)).
    specialize (SM t ltac:(repeat split; reflexivity) [] t1 t [] eq_refl). destruct SM as (G & _).
    destruct P1 as (X1 & Y1 & _). unfold gap in G. rewrite X1, Y1 in G. cbn [p_x p_y] in G.
    assert (Dy : Rabs (tx (t_y t) - 9 / 100 / 2) <= dist_euc (9 / 100 / 2) (9 / 100 / 2) (tx (t_x t)) (tx (t_y t))).
    { unfold dist_euc. rewrite <- sqrt_Rsqr_abs. apply sqrt_le_1_alt. unfold Rsqr. pose proof (Rle_0_sqr (9 / 100 / 2 - tx (t_x t))) as Q. unfold Rsqr in Q. lra. }
    pose proof (Rle_trans _ _ _ Dy G) as D2. clear Dy G. change (tx (t_y t)) with (p_y e) in D2.
    assert (Ey : p_y e = 9 / 100 + 1 / 100) by (unfold e, pose_of_search; cbn [ss_coord ss_posture cx cy p_y]; unfold n1, n2; rops; lra).
    unfold v in D2. cbn [test_g sg_gen g_v_max sg_period] in D2. rewrite Ey in D2. revert D2. unfold Rabs. destruct (Rcase_abs _); lra.
  - inversion S1 as [|r t r' l0 E2 S2]; subst. unfold route_next in E2. destruct (boxed_next b1) as [[x|] b2] eqn:N2; [|discriminate E2].
    injection E2 as -> <-. exists b, t1, b1, t2, b2. split; [reflexivity|]. split; [exact N1|exact N2].
Qed.

Example C116_case : exists se w w1 d b tr, searcher_new 4 (Co 0 1) x4_goals = Ret se /\ supported 4 /\ Forall (valid 4) x4_goals /\
  holds 4 w tr /\ (forall c, valid 4 c -> tr c = Checked (x4_wall c)) /\
  (forall c b, valid 4 c -> fresh 4 c = Checked b -> is_wall (tr c) = b) /\
  resumes 4 (fun c => is_wall (tr c)) (drive_start w w1 d b) /\ walls_state 4 w1 (Co 2 3) = Ret Unchecked /\
  drivable (9 / 100) (1 / 100) (1 / 10) test_g test_sg /\ test_route = [b] /\
  exists l', search_rounds 2 4 (drive_setup se) (drive_start w w1 d b) = Ret (inl l') /\ l_robot l' = SS (Co 0 3) North.
Proof.
  destruct C23_case as (HW & Hg & Hf & _ & se & w0 & Hse & Hw0 & _).
  assert (I0 := first_inv 4 x4_wall w0 HW Hf Hw0).
  destruct (reveal_ok 4 HW x4_wall (all_walls 4)) with (kn := kn0 4) (w := w0) as (w & _ & Hw);
    [apply Forall_forall; intros c; apply all_walls_In|apply I0|].
  destruct (reveal_ok 4 HW x4_wall [Co 1 2; Co 0 3]) with (kn := kn0 4) (w := w0) as (w1 & Rw & Hw1);
    [repeat constructor; simpl; lia|apply I0|].
  set (tr := fun c => Checked (x4_wall c)).
  assert (Ht : holds 4 w tr).
  { apply (holds_ext 4 w _ _) with (2 := Hw). intros c V. unfold ExploreProofs.st, tr. now rewrite learn_In by now apply all_walls_In. }
  assert (Et : forall c, is_wall (tr c) = x4_wall c) by (intros c; unfold tr, is_wall; now destruct (x4_wall c)).
  destruct (with_walls_R 4 HW w1 _ Hw1) as (d & Ed & _).
  destruct two_targets as (b & t1 & b1 & t2 & b2 & Eb & N1 & N2).
  pose proof (first_valid 4 HW) as V1.
  assert (S : exists cs, search 4 se (Co 0 1) (walls_state 4 w1) = Ret (SSome cs) /\ next_coordinate cs (walls_state 4 w1) = Ret (NSome (Co 0 3)) /\
    walls_state 4 w1 (Co 2 3) = Ret Unchecked /\ walls_state 4 w1 (Co 0 1) = Ret (Checked false)).
  { assert (X : match searcher_new 4 (Co 0 1) x4_goals, walls_new 4 with
                | Ret se, Ret w0 => match reveal 4 x4_wall w0 [Co 1 2; Co 0 3] with
                  | Ret w => match search 4 se (Co 0 1) (walls_state 4 w) with
                             | Ret (SSome cs) => match next_coordinate cs (walls_state 4 w), walls_state 4 w (Co 2 3), walls_state 4 w (Co 0 1) with
                                                 | Ret (NSome c), Ret Unchecked, Ret (Checked false) => coord_eqb c (Co 0 3) | _, _, _ => false end
                             | _ => false end
                  | _ => false end
                | _, _ => false end = true) by (vm_compute; reflexivity).
    rewrite Hse, Hw0 in X. cbv beta iota in X. rewrite Rw in X. cbv beta iota in X.
    remember (search 4 se (Co 0 1) (walls_state 4 w1)) as y eqn:Ey. clear Ey. destruct y as [[| |cs]| |]; try discriminate X.
    exists cs. split; [reflexivity|].
    remember (next_coordinate cs (walls_state 4 w1)) as z eqn:Ez. clear Ez. destruct z as [[| |c]| |]; try discriminate X.
    destruct (walls_state 4 w1 (Co 2 3)) as [[|]| |]; try discriminate X. destruct (walls_state 4 w1 (Co 0 1)) as [[|[]]| |]; try discriminate X.
    destruct (coord_eqb_spec c (Co 0 3)) as [Q|]; [|discriminate X]. rewrite Q. repeat split; reflexivity. }
  destruct S as (cs & Es & Ec & U & S1).
  exists se, w, w1, d, b, tr. split; [exact Hse|]. split; [exact HW|]. split; [exact Hg|]. split; [exact Ht|].
  split; [reflexivity|]. split; [intros c b0; rewrite Et; apply Hf|]. split; [|split; [exact U|split; [exact test_drivable|split; [exact Eb|]]]].
  - split; [exact (proj1 Hw1)|]. split.
    + intros c V. rewrite Et. pose proof (proj2 Hw1 c V) as H. unfold ExploreProofs.st in H. destruct (learn _ _ c); [right|left]; exact H.
    + split; [exact Ed|]. split; [reflexivity|]. split; [|exact S1].
      split; [exact V1|]. split; [destruct I0 as [_ _ Ic _ _ _ _]; exact Ic|]. split; [reflexivity|]. exists []. split; [exact I|reflexivity].
  - cbn [search_rounds]. unfold search_period at 1, drive_start.
    cbn [loop_start l_estimator l_state l_simulator l_trajectory l_next l_tracker l_controller l_commander l_robot l_walls l_detector].
    destruct (estimate _ _ _) as [s e]. unfold take_target at 1. rewrite N1. cbn [bind].
    destruct (track _ _ _ _) as [[r y] k]. destruct (control _ r y) as [o c]. cbn [decide drive_setup v_searcher ss_coord].
    rewrite Es. cbn [bind drive_setup v_sensors detect_walls]. unfold search_period.
    cbn [l_estimator l_state l_simulator l_trajectory l_next l_tracker l_controller l_commander l_robot l_walls l_detector].
    destruct (estimate _ _ _) as [s' e']. unfold take_target. rewrite N2. cbn [bind].
    destruct (track _ _ _ _) as [[r' y'] k']. destruct (control _ r' y') as [o' c']. cbn [decide]. rewrite Ec. cbn [bind].
    assert (Eu : ss_update (SS (Co 0 1) North) (Co 0 3) = Ret (SS (Co 0 3) North, Some Front)) by (vm_compute; reflexivity).
    rewrite Eu. cbn [bind drive_setup v_sensors detect_walls]. eexists. split; [reflexivity|reflexivity].
Qed.

(** the hypotheses of [C116_any] hold there too: two rounds are run and a move is made. *)
Example C116_any_case : exists (v : @search_setup Rops) l l', (l_commander l = None \/ l_next l = None) /\ search_rounds 2 4 v l = Ret (inl l') /\
  l_robot l <> l_robot l'.
Proof.
  destruct C116_case as (se & w & w1 & d & b & tr & _ & _ & _ & _ & _ & _ & _ & _ & _ & _ & l' & E & R).
  exists (drive_setup se), (drive_start w w1 d b), l'. split; [left; reflexivity|]. split; [exact E|]. rewrite R. intros Q.
  apply (f_equal (fun s => match s with SS (Co _ y) _ => y end)) in Q. cbn in Q. discriminate Q.
Qed.
