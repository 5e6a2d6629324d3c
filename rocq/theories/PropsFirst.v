(** Which shortest path is returned, and the assertion at the end of the search test (C114, C115). *)
From Coq Require Import ZArith Reals List Bool Lia Lra.
From Verif Require Import Base SearchModel SearchSpec SearchCoord SearchMain SearchThm SearchThm2 WallsModel WallsSpec WallsLemmas Num NumLemmas ControlModel TrajModel DetectModel DetectSpec
  SimModel SimSpec RouteModel LoopModel ExploreModel ExploreProofs SearchSpec LoopSpec LoopProofs PropsExplore PropsSim PropsSearch PropsLoop SearchMain FirstSpec SearchFirst SearchFirst2 SearchFirst3
  DetectProofs6 ResumeSpec ResumeProofs SearchSpec.
Import ListNotations.
Open Scope Z_scope.

(** ** C114: the path returned is the first of the shortest routes *)
Theorem C114_first W start goals se isw open l : supported W -> valid W start -> Forall (valid W) goals ->
  searcher_new W start goals = Ret se -> (forall c, valid W c -> isw c = Ret (negb (open c))) ->
  shortest_path W se isw = Ret (Some (start :: l)) -> first_route W open start goals l.
Proof. intros HW Hs Hg Hse. exact (path_first W HW start Hs goals Hg se Hse isw open l). Qed.
Print Assumptions C114_first.

(** There is only one such route, so this says exactly which path is returned. *)
Theorem C114_only W start goals open l l' : supported W -> valid W start ->
  first_route W open start goals l -> first_route W open start goals l' -> l = l'.
Proof. intros HW Hs. exact (first_unique W HW start Hs goals open l l'). Qed.
Print Assumptions C114_only.

(** When [search] has nothing left to look for, the path is the same whether unknown walls count as
    walls or as openings, and in every maze in which the known walls are as known. *)
Theorem C114_settled W start goals se wsr ws current : supported W -> valid W start -> Forall (valid W) goals ->
  searcher_new W start goals = Ret se -> (forall c, on_board W c -> wsr c = Ret (ws c)) -> valid W current ->
  search W se current wsr = Ret SNone ->
  exists l, shortest_path W se (fun c => let* s := wsr c in Ret (negb (is_checked_false s))) = Ret (Some (start :: l)) /\
    shortest_path W se (fun c => let* s := wsr c in Ret (is_checked_true s)) = Ret (Some (start :: l)) /\
    forall open isw, consistent W ws open -> (forall c, valid W c -> isw c = Ret (negb (open c))) ->
      shortest_path W se isw = Ret (Some (start :: l)).
Proof. intros HW Hs Hg Hse Hws Hc. exact (done_same W HW start Hs goals Hg se Hse wsr ws Hws current Hc). Qed.
Print Assumptions C114_settled.

(** The assertion at the end of the search test holds, whether the search begins with an empty map
    or with a saved one: the path on the map is the path in the simulated maze. *)
Theorem C114_assertion W goals se tr (v : @search_setup Rops) (l : @search_vars Rops) n l' :
  let wall c := is_wall (tr c) in
  supported W -> Forall (valid W) goals -> searcher_new W (Co 0 1) goals = Ret se -> v_searcher v = se ->
  holds W (m_walls (l_simulator l)) tr -> (forall c b, valid W c -> fresh W c = Checked b -> wall c = b) ->
  (forall c, valid W c -> tr c <> Unchecked) -> begins W l \/ resumes W wall l ->
  search_rounds n W v l = Ret (inr l') ->
  exists p, path_on W se (l_walls l') = Ret (Some (Co 0 1 :: p)) /\ path_on W se (m_walls (l_simulator l')) = Ret (Some (Co 0 1 :: p)) /\
    first_route W (fun c => negb (wall c)) (Co 0 1) goals p.
Proof.
  intros wall HW Hg Hse Ev Ht Hf Hk Hb. exact (same_path W HW tr goals Hg se Hse Hf v l n l' Ev Ht Hk Hb).
Qed.
Print Assumptions C114_assertion.

(** In the empty maze of 4 by 4 squares three routes of two runs lead from the start to the goal (3, 2):
    the one returned begins with the shorter run to the north-east; a longer run in the same
    direction and a run straight ahead come later. *)
Definition x4_empty (c : coord) : bool := (cx c =? 7) || (cy c =? 7).

Example C114_case : exists se, searcher_new 4 (Co 0 1) [Co 3 2] = Ret se /\ supported 4 /\ Forall (valid 4) [Co 0 1; Co 3 2] /\
  shortest_path 4 se (fun c => Ret (negb (negb (x4_empty c)))) = Ret (Some (Co 0 1 :: [Co 1 2; Co 3 2])) /\
  route 4 (fun c => negb (x4_empty c)) (Co 0 1) (Co 3 2) [Co 2 3; Co 3 2] /\ earlier (Co 0 1) [Co 1 2; Co 3 2] [Co 2 3; Co 3 2] /\
  route 4 (fun c => negb (x4_empty c)) (Co 0 1) (Co 3 2) [Co 0 5; Co 3 2] /\ earlier (Co 0 1) [Co 1 2; Co 3 2] [Co 0 5; Co 3 2].
Proof.
  eexists. split; [vm_compute; reflexivity|]. split; [unfold supported; lia|].
  split; [repeat constructor; simpl; lia|]. split; [vm_compute; reflexivity|].
  split; [|split; [|split]].
  - split; [|reflexivity]. split; [|split; [|exact I]].
    + exists (1, 1). split; [simpl; tauto|]. exists 2. split; [lia|]. split; [reflexivity|].
      intros k Hk. assert (k = 1 \/ k = 2) as [->| ->] by lia; (split; [split; simpl; lia|reflexivity]).
    + exists (1, -1). split; [simpl; tauto|]. exists 1. split; [lia|]. split; [reflexivity|].
      intros k Hk. assert (k = 1) as -> by lia. split; [split; simpl; lia|reflexivity].
  - left. exists 0%nat, 0%nat, (1, 1), (1, 1), 1, 2. repeat split; lia.
  - split; [|reflexivity]. split; [|split; [|exact I]].
    + exists (0, 2). split; [simpl; tauto|]. exists 2. split; [lia|]. split; [reflexivity|].
      intros k Hk. assert (k = 1 \/ k = 2) as [->| ->] by lia; (split; [split; simpl; lia|reflexivity]).
    + exists (1, -1). split; [simpl; tauto|]. exists 3. split; [lia|]. split; [reflexivity|].
      intros k Hk. assert (k = 1 \/ k = 2 \/ k = 3) as [->|[->| ->]] by lia; (split; [split; simpl; lia|reflexivity]).
  - left. exists 0%nat, 4%nat, (1, 1), (0, 2), 1, 2. repeat split; lia.
Qed.

(** A map with unknown walls on which the search is over (the case of C16): the path is the same on it read either way. *)
Example C114_settled_case : exists se l, searcher_new 4 (Co 0 1) m4_goals = Ret se /\
  search 4 se (Co 2 3) (fun c => Ret (m4_ws_done c)) = Ret SNone /\ m4_ws_done (Co 3 0) = Unchecked /\ consistent 4 m4_ws_done m4_open /\
  shortest_path 4 se (fun c => let* s := Ret (m4_ws_done c) in Ret (negb (is_checked_false s))) = Ret (Some (Co 0 1 :: l)) /\
  shortest_path 4 se (fun c => let* s := Ret (m4_ws_done c) in Ret (is_checked_true s)) = Ret (Some (Co 0 1 :: l)) /\ (2 < length l)%nat.
Proof.
  destruct C16_case as (se & Hse & Hs & Hu & Hc). exists se.
  assert (X : match searcher_new 4 (Co 0 1) m4_goals with
    | Ret se => match shortest_path 4 se (fun c => let* s := Ret (m4_ws_done c) in Ret (negb (is_checked_false s))) with
                | Ret (Some (_ :: l)) => (2 <? length l)%nat | _ => false end
    | _ => false end = true) by (vm_compute; reflexivity).
  destruct C11_case as (_ & _ & Hv & HW & _). inversion Hv as [|a b Vs Hg]; subst.
  destruct (C114_settled 4 (Co 0 1) m4_goals se (fun c => Ret (m4_ws_done c)) m4_ws_done (Co 2 3) HW Vs Hg Hse (fun _ _ => eq_refl)) as (l & P1 & P2 & _);
    [split; [split; simpl; lia|reflexivity]|exact Hs|].
  exists l. rewrite Hse in X. cbv beta iota in X. rewrite P1 in X. apply Nat.ltb_lt in X.
  repeat (split; [assumption|]). exact X.
Qed.

(** ** C115: a search resumed with a saved map and a mouse before any opening known to it: the map
    never contradicts the maze, nothing known is forgotten, the mouse is always planned to
    cross an opening that can be reached, and in a maze with a way to a goal
    the loop stops otherwise than by its break only when no trajectory is left. *)
Theorem C115_rounds W goals se tr (v : @search_setup Rops) (l : @search_vars Rops) n :
  let wall c := is_wall (tr c) in
  supported W -> Forall (valid W) goals -> searcher_new W (Co 0 1) goals = Ret se -> v_searcher v = se ->
  holds W (m_walls (l_simulator l)) tr -> (forall c b, valid W c -> fresh W c = Checked b -> wall c = b) ->
  resumes W wall l -> walls_state W (l_walls l) (Co 0 1) = Ret (Checked false) ->
  (exists g p, In g goals /\ g <> Co 0 1 /\ route W (fun c => negb (wall c)) (Co 0 1) g p) ->
  match search_rounds n W v l with
  | Ret (inl l') => map_true W wall (l_walls l') /\ robot_free W wall (l_robot l') /\
      forall c, valid W c -> walls_state W (l_walls l) c <> Ret Unchecked -> walls_state W (l_walls l') c <> Ret Unchecked
  | Ret (inr l') => map_true W wall (l_walls l') /\ robot_free W wall (l_robot l')
  | Panic => exists k l', (k < n)%nat /\ search_rounds k W v l = Ret (inl l') /\ starved l'
  | Fuel => False
  end.
Proof.
  intros wall HW Hg Hse Ev Ht Hf Hr H01 Hs. exact (resumed_rounds W HW tr goals Hg se Hse Hf v l n Ev Ht Hr H01 Hs).
Qed.
Print Assumptions C115_rounds.

(** The maze of 4 by 4 squares resumed with the complete map: all that is asked for, and the loop is left in its first round. *)
Definition loop_resumed (w : walls) (d : @detector Rops) : @search_vars Rops :=
  let l := loop_start w w in
  @SearchVars Rops (l_estimator l) (l_state l) (l_trajectory l) (l_next l) (l_tracker l) (l_controller l) (l_commander l) (l_robot l) w d (l_simulator l).

Example C115_case : exists se w d tr, searcher_new 4 (Co 0 1) x4_goals = Ret se /\ supported 4 /\ Forall (valid 4) x4_goals /\
  holds 4 (m_walls (l_simulator (loop_resumed w d))) tr /\ (forall c, valid 4 c -> tr c = Checked (x4_wall c)) /\
  (forall c b, valid 4 c -> fresh 4 c = Checked b -> is_wall (tr c) = b) /\
  (exists g p, In g x4_goals /\ g <> Co 0 1 /\ route 4 (fun c => negb (is_wall (tr c))) (Co 0 1) g p) /\
  resumes 4 (fun c => is_wall (tr c)) (loop_resumed w d) /\ walls_state 4 w (Co 0 1) = Ret (Checked false) /\
  exists l', search_rounds 1 4 (loop_setup se) (loop_resumed w d) = Ret (inr l').
Proof.
  destruct C23_case as (HW & Hg & Hf & _ & se & w0 & Hse & Hw0 & _).
  assert (I0 := first_inv 4 x4_wall w0 HW Hf Hw0).
  destruct (reveal_ok 4 HW x4_wall (all_walls 4)) with (kn := kn0 4) (w := w0) as (w & Rw & Hw);
    [apply Forall_forall; intros c; apply all_walls_In|apply I0|].
  set (tr := fun c => Checked (x4_wall c)).
  assert (Ht : holds 4 w tr).
  { apply (holds_ext 4 w _ _) with (2 := Hw). intros c V. unfold ExploreProofs.st, tr. now rewrite learn_In by now apply all_walls_In. }
  assert (Et : forall c, is_wall (tr c) = x4_wall c) by (intros c; unfold tr, is_wall; now destruct (x4_wall c)).
  destruct (with_walls_R 4 HW w tr Ht) as (d & Ed & _).
  pose proof (first_valid 4 HW) as V1.
  assert (S1 : walls_state 4 w (Co 0 1) = Ret (Checked false)) by (rewrite (proj2 Ht _ V1); reflexivity).
  assert (S : search 4 se (Co 0 1) (walls_state 4 w) = Ret SNone).
  { assert (X : match searcher_new 4 (Co 0 1) x4_goals, walls_new 4 with
                | Ret se, Ret w0 => match reveal 4 x4_wall w0 (all_walls 4) with
                                    | Ret w => match search 4 se (Co 0 1) (walls_state 4 w) with Ret SNone => true | _ => false end
                                    | _ => false end
                | _, _ => false end = true) by (vm_compute; reflexivity).
    rewrite Hse, Hw0 in X. cbv beta iota in X. rewrite Rw in X. cbv beta iota in X.
    remember (search 4 se (Co 0 1) (walls_state 4 w)) as y eqn:Ey. clear Ey. destruct y as [[| |cs]| |]; try discriminate X. reflexivity. }
  exists se, w, d, tr. split; [exact Hse|]. split; [exact HW|]. split; [exact Hg|]. split; [exact Ht|].
  split; [reflexivity|]. split; [intros c b; rewrite Et; apply Hf|]. split; [|split; [|split; [exact S1|]]].
  - destruct C112_case as (_ & _ & _ & tr' & _ & _ & _ & _ & _ & Ht' & _ & (g & p & G1 & G2 & G3) & _).
    exists g, p. split; [exact G1|]. split; [exact G2|]. apply (route_mono 4 (fun c => negb (is_wall (tr' c)))); [exact V1| |exact G3].
    intros x Vx. rewrite Ht' by exact Vx. exact (fun H => H).
  - split; [exact (proj1 Ht)|]. split; [intros c V; right; rewrite Et; exact (proj2 Ht c V)|].
    split; [exact Ed|]. split; [reflexivity|]. split; [|exact S1].
    split; [exact V1|]. split; [destruct I0 as [_ _ Ic _ _ _ _]; exact Ic|]. split; [reflexivity|]. exists []. split; [exact I|reflexivity].
  - cbn [search_rounds]. unfold search_period, loop_resumed.
    cbn [loop_start l_estimator l_state l_simulator l_trajectory l_next l_tracker l_controller l_commander l_robot l_walls l_detector].
    destruct (estimate _ _ _) as [s e].
    unfold take_target, boxed_next. cbn [b_pose b_inner]. unfold shift_next, inner_next, straight_next. cbn [straight_new st_t st_t_end st_period st_calc].
    assert (B : @ltb Rops 1%R (@n0 Rops) = false) by (unfold n0; rops; destruct (Rltb_spec 1 (0 / 1)); [lra|reflexivity]).
    rewrite B. cbn [option_map bind]. destruct (track _ _ _ _) as [[r y] k]. destruct (control _ r y) as [o c]. cbn [decide loop_setup v_searcher ss_coord].
    rewrite S. cbn [bind]. eexists. reflexivity.
Qed.
