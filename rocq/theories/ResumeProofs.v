(** A search resumed with a saved map (C114, C115). *)
From Coq Require Import ZArith Reals List Bool Lia Lra.
From Verif Require Import Base SearchModel SearchSpec SearchCoord SearchMain SearchThm SearchThm2 WallsModel WallsSpec WallsLemmas Num NumLemmas ControlModel TrajModel DetectModel DetectSpec
  DetectProofs6 SimModel SimSpec RouteModel LoopModel ExploreModel ExploreProofs SearchSpec LoopSpec LoopProofs ResumeSpec FirstSpec SearchFirst SearchFirst2 SearchFirst3.
Import ListNotations.
Open Scope R_scope.

Section Resume.
Variable W : Z.
Hypothesis HW : supported W.
Variable tr : coord -> wall_state.
Let wall (c : coord) : bool := is_wall (tr c).
Variable goals : list coord.
Hypothesis Hgoals : Forall (valid W) goals.
Variable se : searcher.
Hypothesis Hse : searcher_new W (Co 0 1) goals = Ret se.
Hypothesis Hfresh : forall c b, valid W c -> fresh W c = Checked b -> wall c = b.

Lemma resume_ok (l : @search_vars Rops) : holds W (m_walls (l_simulator l)) tr -> resumes W wall l ->
  running W tr l /\ forall c, valid W c -> walls_state W (l_walls l) c <> Ret Unchecked -> decided W tr (l_detector l) c.
Proof.
  intros Ht (Hok & Hm & Hd & Hc & Hr & Hk).
  set (kn := fun c => match walls_state W (l_walls l) c with Ret (Checked _) => true | _ => false end).
  assert (Hw : holds W (l_walls l) (ExploreProofs.st wall kn)).
  { split; [exact Hok|]. intros c V. unfold ExploreProofs.st, kn. destruct (Hm c V) as [E|E]; rewrite E; reflexivity. }
  destruct (with_walls_R W HW _ _ Hw) as (d & Ed & Od & Bd). rewrite Hd in Ed. injection Ed as <-.
  assert (De : forall c, valid W c -> kn c = true -> decided W tr (l_detector l) c).
  { intros c V K. unfold decided. rewrite (Bd c V). unfold ExploreProofs.st. rewrite K. fold (wall c). destruct (wall c); lra. }
  assert (Kn : forall c, valid W c -> walls_state W (l_walls l) c <> Ret Unchecked -> kn c = true).
  { intros c V N. unfold kn. destruct (Hm c V) as [E|E]; rewrite E in *; [now destruct N|reflexivity]. }
  split; [|intros c V N; apply De; [exact V|exact (Kn c V N)]].
  split; [exact Ht|]. split.
  - exists kn. split; [exact Od|]. split; [|split; [exact Hw|split]].
    + intros c V. rewrite (Bd c V). unfold ExploreProofs.st. fold (wall c). destruct (kn c), (wall c); lra.
    + intros c V. unfold decided. rewrite (Bd c V). unfold ExploreProofs.st. fold (wall c). destruct (kn c); [reflexivity|]. destruct (wall c); lra.
    + intros c V K. left. exact (De c V K).
  - split; [exact Hr|]. split; [right; apply De; [apply Hr|unfold kn; rewrite Hk; reflexivity]|]. rewrite Hc. exact I.
Qed.

(** what the detector has decided stays decided. *)
Lemma period_decided (v : @search_setup Rops) l l' c : running W tr l -> search_period W v l = Ret (inl l') -> valid W c ->
  decided W tr (l_detector l) c -> decided W tr (l_detector l') c.
Proof.
  intros (Hm & (kn & Hs) & _) E V D. unfold search_period in E.
  destruct (estimate _ _ _) as [s e]. destruct (take_target (l_trajectory l) (l_next l)) as [[[t b] nx]| |]; cbn [bind] in E; try discriminate E.
  destruct (track _ _ _ _) as [[r y] k]. destruct (control _ r y) as [o c0].
  destruct (decide W v (l_commander l) nx (l_robot l) (l_walls l)) as [[[[cmd nx'] rb]|]| |]; cbn [bind] in E; try discriminate E.
  destruct (detect_walls_ok W HW tr (apply (l_simulator l) o) s (v_sensors v) Hm (l_detector l) (l_walls l) kn Hs) as (d' & w' & kn' & E2 & _ & D2).
  rewrite E2 in E. cbn [bind] in E. injection E as <-. cbn [l_detector]. exact (D2 c V D).
Qed.

Lemma rounds_decided (v : @search_setup Rops) c : v_searcher v = se -> valid W c -> forall n l l', running W tr l -> search_rounds n W v l = Ret (inl l') ->
  decided W tr (l_detector l) c -> decided W tr (l_detector l') c.
Proof.
  intros Ev V. induction n as [|n IH]; intros l l' R E D; cbn [search_rounds] in E; [injection E as <-; exact D|].
  destruct (period_ok W HW tr goals Hgoals se Hse Hfresh v l Ev R) as [(x & Ex & P)|[Ex _]]; rewrite Ex in E; [|discriminate E].
  destruct x as [l1|l1]; cbn [bind] in E; [|discriminate E].
  apply (IH l1 l' (proj1 P) E). exact (period_decided v l l1 c R Ex V D).
Qed.

Lemma decided_known (l : @search_vars Rops) c : running W tr l -> valid W c -> decided W tr (l_detector l) c -> walls_state W (l_walls l) c <> Ret Unchecked.
Proof.
  intros (_ & (kn & _ & _ & Hm & Hd & _) & _) V D. rewrite (proj2 Hm c V). unfold ExploreProofs.st. rewrite (Hd c V D). discriminate.
Qed.

Lemma ready (l : @search_vars Rops) : holds W (m_walls (l_simulator l)) tr -> begins W l \/ resumes W wall l -> running W tr l.
Proof.
  intros Ht [(B1 & B2 & B3 & B4)|R]; [exact (start_ok W HW tr Hfresh l _ Ht B1 eq_refl B2 B3 B4)|exact (proj1 (resume_ok l Ht R))].
Qed.

Lemma same_path (v : @search_setup Rops) l n l' : v_searcher v = se -> holds W (m_walls (l_simulator l)) tr ->
  (forall c, valid W c -> tr c <> Unchecked) -> begins W l \/ resumes W wall l -> search_rounds n W v l = Ret (inr l') ->
  exists p, path_on W se (l_walls l') = Ret (Some (Co 0 1 :: p)) /\ path_on W se (m_walls (l_simulator l')) = Ret (Some (Co 0 1 :: p)) /\
    first_route W (fun c => negb (wall c)) (Co 0 1) goals p.
Proof.
  intros Ev Ht0 Hk Hb En. pose proof (rounds_ok W HW tr goals Hgoals se Hse Hfresh v n Ev l (ready l Ht0 Hb)) as H.
  rewrite En in H. destruct H as [(Ht & (kn & _ & _ & Hm & _) & Hp) E].
  pose proof (first_valid W HW) as Vs. pose proof (fun x => read W HW wall kn _ x Hm) as Rd.
  destruct (done_same W HW (Co 0 1) Vs goals Hgoals se Hse _ (ws wall kn) Rd _ (proj1 (proj1 Hp)) E) as (p & Ep & _ & Q).
  assert (It : forall c, valid W c -> (let* t := walls_state W (m_walls (l_simulator l')) c in Ret (negb (is_checked_false t))) = Ret (negb (negb (wall c)))).
  { intros c V. rewrite (proj2 Ht c V). cbn [bind]. specialize (Hk c V). unfold wall, is_wall. destruct (tr c) as [|[]]; [now destruct Hk|reflexivity|reflexivity]. }
  exists p. split; [exact Ep|]. pose proof (Q _ _ (ws_consistent W wall kn) It) as Eq. split; [exact Eq|].
  exact (path_first W HW (Co 0 1) Vs goals Hgoals se Hse _ _ p It Eq).
Qed.

Lemma resumed_rounds (v : @search_setup Rops) l n : v_searcher v = se -> holds W (m_walls (l_simulator l)) tr -> resumes W wall l ->
  walls_state W (l_walls l) (Co 0 1) = Ret (Checked false) ->
  (exists g p, In g goals /\ g <> Co 0 1 /\ route W (fun c => negb (wall c)) (Co 0 1) g p) ->
  match search_rounds n W v l with
  | Ret (inl l') => map_true W wall (l_walls l') /\ robot_free W wall (l_robot l') /\
      forall c, valid W c -> walls_state W (l_walls l) c <> Ret Unchecked -> walls_state W (l_walls l') c <> Ret Unchecked
  | Ret (inr l') => map_true W wall (l_walls l') /\ robot_free W wall (l_robot l')
  | Panic => exists k l', (k < n)%nat /\ search_rounds k W v l = Ret (inl l') /\ starved l'
  | Fuel => False
  end.
Proof.
  intros Ev Ht Hr H01 Hs. destruct (resume_ok l Ht Hr) as [R D].
  pose proof (rounds_ok W HW tr goals Hgoals se Hse Hfresh v n Ev l R) as H.
  destruct (search_rounds n W v l) as [[l'|l']| |] eqn:En; [| | |exact H].
  - split; [exact (map_ok W tr l' H)|]. split; [exact (proj1 (proj2 (proj2 H)))|].
    intros c V N. apply (decided_known l' c H V). exact (rounds_decided v c Ev V n l l' R En (D c V N)).
  - destruct H as [H _]. split; [exact (map_ok W tr l' H)|exact (proj1 (proj2 (proj2 H)))].
  - destruct H as (k & l' & A & B & R' & C). exists k, l'. split; [exact A|]. split; [exact B|].
    destruct C as [C|[C|[_ C]]]; [exact C|now destruct C|exfalso].
    pose proof (first_valid W HW) as V. apply (decided_known l' _ R' V); [|exact C].
    apply (rounds_decided v _ Ev V k l l' R B). apply D; [exact V|]. rewrite H01. discriminate.
Qed.
End Resume.
