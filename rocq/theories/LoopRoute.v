(** The targets followed in the loop of the search test are those of a joined route (C116). *)
From Coq Require Import ZArith Reals List Bool Lia Lra.
From Verif Require Import Base SearchModel SearchSpec SearchCoord SearchState SearchMain SearchThm SearchThm2 WallsModel WallsSpec WallsLemmas Num NumLemmas ControlModel TrajModel TrajSpec DetectModel DetectSpec
  DetectProofs6 SimModel SimSpec RouteModel RouteSpec SafeSpec LoopModel ExploreModel ExploreProofs LoopSpec LoopProofs ResumeSpec ResumeProofs DrivenSpec SearchSpec.
Import ListNotations.
Open Scope R_scope.

Section Steps.
Context {K : ops}.
(** some calls of [route_next]. *)
Inductive steps : list boxed -> list target -> list boxed -> Prop :=
  | steps_nil q : steps q [] q
  | steps_cons q t q1 ts q2 : route_next q = Ret (Some t, q1) -> steps q1 ts q2 -> steps q (t :: ts) q2.

Lemma steps_serves q ts q' : steps q ts q' -> forall L, serves q L -> exists L', L = ts ++ L' /\ serves q' L'.
Proof.
  induction 1 as [q|q t q1 ts q2 E _ IH]; intros L S; [exists L; split; [reflexivity|exact S]|].
  inversion S as [r r' E'|r t' r' l E' S']; subst; rewrite E in E'; [discriminate E'|]. injection E' as <- <-.
  destruct (IH l S') as (L' & -> & S2). exists L'. split; [reflexivity|exact S2].
Qed.

Definition optl (o : option boxed) : list boxed := match o with Some b => [b] | None => [] end.

Lemma take_route b nx t b' nx' X : take_target b nx = Ret (t, b', nx') -> route_next (b :: optl nx ++ X) = Ret (Some t, b' :: optl nx' ++ X).
Proof.
  unfold take_target, route_next. destruct (boxed_next b) as [[t1|] b1].
  - intros E. injection E as <- <- <-. reflexivity.
  - destruct nx as [b2|]; [|discriminate]. cbn [optl app]. destruct (boxed_next b2) as [[t2|] b3]; [|discriminate].
    intros E. injection E as <- <- <-. reflexivity.
Qed.
End Steps.

Section Any.
Context {K : ops}.
Variable W : Z.
Variable v : search_setup.

Definition part (sk : search_state * traj_kind) : boxed :=
  Boxed (pose_of_search (fst sk) (v_square v) (v_offset v)) (v_move v (snd sk)).

Lemma decide_part cmd nx s w cmd' nx' s' : cmd = None \/ nx = None -> decide W v cmd nx s w = Ret (Some (cmd', nx', s')) ->
  (cmd' = None \/ nx' = None) /\ ((s' = s /\ nx' = nx) \/ (nx = None /\ exists n k, ss_update s n = Ret (s', Some k) /\ nx' = Some (part (s, k)))).
Proof.
  intros J. unfold decide. destruct cmd as [cs|].
  - destruct J as [J|J]; [discriminate J|]. subst nx.
    destruct (next_coordinate cs (walls_state W w)) as [[| |n]| |]; cbn [bind]; intros X; try discriminate X.
    + injection X as <- <- <-. split; [right; reflexivity|left; split; reflexivity].
    + destruct (ss_update s n) as [[s1 [k|]]| |] eqn:Eu; cbn [bind] in X; try discriminate X. injection X as <- <- <-.
      split; [left; reflexivity|]. right. split; [reflexivity|]. exists n, k. split; [exact Eu|reflexivity].
  - destruct nx as [b|].
    + intros X. injection X as <- <- <-. split; [left; reflexivity|left; split; reflexivity].
    + destruct (search W (v_searcher v) (ss_coord s) (walls_state W w)) as [[| |cs]| |]; cbn [bind]; intros X; try discriminate X.
      injection X as <- <- <-. split; [right; reflexivity|left; split; reflexivity].
Qed.

Lemma any_rounds n : forall l l', l_commander l = None \/ l_next l = None -> search_rounds n W v l = Ret (inl l') ->
  exists ts ml, followed W v l ts l' /\ length ts = n /\ hops (l_robot l) ml (l_robot l') /\
    steps (l_trajectory l :: optl (l_next l) ++ map part ml) ts (l_trajectory l' :: optl (l_next l')).
Proof.
  induction n as [|n IH]; intros l l' J E; cbn [search_rounds] in E.
  - injection E as <-. exists [], []. split; [constructor|]. split; [reflexivity|]. split; [constructor|].
    cbn [map]. rewrite app_nil_r. constructor.
  - destruct (search_period W v l) as [[l1|l1]| |] eqn:Ex; cbn [bind] in E; try discriminate E.
    pose proof Ex as Ep. unfold search_period in Ep.
    destruct (estimate (l_estimator l) (l_state l) (readings (l_simulator l))) as [s e] eqn:Ee. destruct (take_target (l_trajectory l) (l_next l)) as [[[t b] nx]| |] eqn:Et; cbn [bind] in Ep; try discriminate Ep.
    destruct (track (l_tracker l) s t (navigate (v_navigation v) s t)) as [[r y] k] eqn:Ek. destruct (control (l_controller l) r y) as [o c0] eqn:Ec.
    assert (J' : l_commander l = None \/ nx = None).
    { destruct J as [J|J]; [left; exact J|right]. unfold take_target in Et. rewrite J in Et. destruct (boxed_next _) as [[t1|] b1]; [|discriminate Et]. now injection Et as _ _ <-. }
    destruct (decide W v (l_commander l) nx (l_robot l) (l_walls l)) as [[[[cmd nx'] rb]|]| |] eqn:Ed; cbn [bind] in Ep; try discriminate Ep.
    destruct (decide_part _ _ _ _ _ _ _ J' Ed) as [J1 D].
    destruct (detect_walls _ _ _ _ _ _) as [[d' w']| |]; cbn [bind] in Ep; try discriminate Ep.
    assert (Ep' : l_trajectory l1 = b /\ l_next l1 = nx' /\ l_commander l1 = cmd /\ l_robot l1 = rb /\ l_simulator l1 = SimModel.step (apply (l_simulator l) o)) by (injection Ep as <-; repeat split; reflexivity).
    clear Ep. destruct Ep' as (T1 & N1 & C1 & R1' & S1).
    destruct (IH l1 l' ltac:(rewrite C1, N1; exact J1) E) as (ts & ml & F & Ln & Wk & St). rewrite T1, N1 in St. rewrite R1' in Wk.
    assert (F' : followed W v l (t :: ts) l').
    { refine (followed_cons W v l t l1 ts l' Ex _ F). rewrite S1. unfold voltages. rewrite Ee. cbn [fst]. rewrite Ek, Ec. reflexivity. }
    destruct D as [[-> ->]|(-> & n1 & k0 & Eu & ->)].
    + exists (t :: ts), ml. split; [exact F'|]. split; [cbn [length]; lia|]. split; [exact Wk|].
      econstructor; [exact (take_route _ _ _ _ _ _ Et)|exact St].
    + exists (t :: ts), ((l_robot l, k0) :: ml). split; [exact F'|]. split; [cbn [length]; lia|].
      split; [exact (hops_cons _ _ _ _ _ _ Eu Wk)|].
      econstructor; [exact (take_route _ _ _ _ _ _ Et)|]. exact St.
Qed.
End Any.

Section Loop.
Variable W : Z.
Hypothesis HW : supported W.
Variable tr : coord -> wall_state.
Let wall (c : coord) : bool := is_wall (tr c).
Variable goals : list coord.
Hypothesis Hgoals : Forall (valid W) goals.
Variable se : searcher.
Hypothesis Hse : searcher_new W (Co 0 1) goals = Ret se.
Hypothesis Hfresh : forall c b, valid W c -> fresh W c = Checked b -> wall c = b.
Variable v : @search_setup Rops.
Hypothesis Hv : v_searcher v = se.

Definition leg (sk : search_state * traj_kind) : @boxed Rops :=
  Boxed (pose_of_search (fst sk) (v_square v) (v_offset v)) (v_move v (snd sk)).

(** a search is only under way while no trajectory waits. *)
Definition waits (cmd : option (list coord)) (nx : option (@boxed Rops)) : Prop := cmd = None \/ nx = None.

Lemma decide_leg cmd nx s (d : @detector Rops) w kn cmd' nx' s' : seen W tr d w kn -> plan W tr d cmd s -> waits cmd nx ->
  decide W v cmd nx s w = Ret (Some (cmd', nx', s')) ->
  waits cmd' nx' /\ ((s' = s /\ nx' = nx) \/ (nx = None /\ exists n k, valid W n /\ ss_update s n = Ret (s', Some k) /\ nx' = Some (leg (s, k)))).
Proof.
  intros (Hd & Hl & Hm & Dk & Kd) (Rf & Dc & Hc) J. pose proof Rf as (Vc & Cr & Oc & Rc).
  pose proof (fun x => read W HW wall kn w x Hm) as Rd. unfold decide. destruct cmd as [cs|].
  - destruct J as [J|J]; [discriminate J|]. subst nx. destruct Hc as [C1 C2].
    pose proof (next_spec_on (walls_state W w) (ExploreProofs.ws wall kn) cs (fun x I => Rd x (proj1 (proj2 (C1 x I))))) as N.
    destruct (next_coordinate cs (walls_state W w)) as [[| |n]| |]; try contradiction; cbn [bind].
    + intros X; discriminate X.
    + intros X. injection X as <- <- <-. split; [right; reflexivity|left; split; reflexivity].
    + destruct N as (pre & post & -> & On & _).
      destruct (C1 n ltac:(apply in_or_app; right; now left)) as [An Vn].
      destruct (ss_update s n) as [[s1 [k|]]| |] eqn:Eu; cbn [bind]; intros X; try discriminate X. injection X as <- <- <-.
      split; [left; reflexivity|]. right. split; [reflexivity|]. exists n, k. split; [exact Vn|]. split; [exact Eu|reflexivity].
  - destruct nx as [b|].
    + intros X. injection X as <- <- <-. split; [left; reflexivity|left; split; reflexivity].
    + destruct (search W (v_searcher v) (ss_coord s) (walls_state W w)) as [[| |cs]| |]; cbn [bind]; intros X; try discriminate X.
      injection X as <- <- <-. split; [right; reflexivity|left; split; reflexivity].
Qed.

Lemma rounds_route n : forall l l', running W tr l -> waits (l_commander l) (l_next l) -> search_rounds n W v l = Ret (inl l') ->
  exists ts ml, followed W v l ts l' /\ length ts = n /\ walks W (l_robot l) ml (l_robot l') /\
    Forall (fun sk => wall (ss_coord (fst sk)) = false) ml /\
    steps (l_trajectory l :: optl (l_next l) ++ map leg ml) ts (l_trajectory l' :: optl (l_next l')) /\ running W tr l'.
Proof.
  induction n as [|n IH]; intros l l' R J E; cbn [search_rounds] in E.
  - injection E as <-. exists [], []. split; [constructor|]. split; [reflexivity|]. split; [constructor|]. split; [constructor|].
    cbn [map]. rewrite app_nil_r. split; [constructor|exact R].
  - destruct (period_ok W HW tr goals Hgoals se Hse Hfresh v l Hv R) as [(x & Ex & P)|[Ex _]]; rewrite Ex in E; [|discriminate E].
    destruct x as [l1|l1]; cbn [bind] in E; [|discriminate E]. destruct P as [R1 _].
    pose proof R as (Hm & (kn & Hs) & Hp). pose proof Ex as Ep. unfold search_period in Ep.
    destruct (estimate (l_estimator l) (l_state l) (readings (l_simulator l))) as [s e] eqn:Ee. destruct (take_target (l_trajectory l) (l_next l)) as [[[t b] nx]| |] eqn:Et; cbn [bind] in Ep; try discriminate Ep.
    destruct (track (l_tracker l) s t (navigate (v_navigation v) s t)) as [[r y] k] eqn:Ek. destruct (control (l_controller l) r y) as [o c0] eqn:Ec.
    assert (J' : waits (l_commander l) nx).
    { destruct J as [J|J]; [left; exact J|right]. unfold take_target in Et. rewrite J in Et. destruct (boxed_next _) as [[t1|] b1]; [|discriminate Et]. now injection Et as _ _ <-. }
    destruct (decide W v (l_commander l) nx (l_robot l) (l_walls l)) as [[[[cmd nx'] rb]|]| |] eqn:Ed; cbn [bind] in Ep; try discriminate Ep.
    destruct (decide_leg _ _ _ _ _ _ _ _ _ Hs Hp J' Ed) as [J1 D].
    destruct (detect_walls _ _ _ _ _ _) as [[d' w']| |]; cbn [bind] in Ep; try discriminate Ep.
    assert (Ep' : l_trajectory l1 = b /\ l_next l1 = nx' /\ l_commander l1 = cmd /\ l_robot l1 = rb /\ l_simulator l1 = SimModel.step (apply (l_simulator l) o)) by (injection Ep as <-; repeat split; reflexivity).
    clear Ep. destruct Ep' as (T1 & N1 & C1 & R1' & S1).
    destruct (IH l1 l' R1 ltac:(rewrite C1, N1; exact J1) E) as (ts & ml & F & Ln & Wk & Op & St & R'). rewrite T1, N1 in St. rewrite R1' in Wk.
    assert (F' : followed W v l (t :: ts) l').
    { refine (followed_cons W v l t l1 ts l' Ex _ F). rewrite S1. unfold voltages. rewrite Ee. cbn [fst]. rewrite Ek, Ec. reflexivity. }
    destruct D as [[-> ->]|(-> & n0 & k0 & Vn & Eu & ->)].
    + exists (t :: ts), ml. split; [exact F'|]. split; [cbn [length]; lia|]. split; [exact Wk|]. split; [exact Op|]. split; [|exact R'].
      econstructor; [exact (take_route _ _ _ _ _ _ Et)|exact St].
    + exists (t :: ts), ((l_robot l, k0) :: ml). split; [exact F'|]. split; [cbn [length]; lia|].
      split; [exact (walks_cons W _ _ _ _ _ _ Vn Eu Wk)|]. split; [constructor; [exact (proj1 (proj2 (proj2 (proj1 Hp))))|exact Op]|]. split; [|exact R'].
      econstructor; [exact (take_route _ _ _ _ _ _ Et)|]. exact St.
Qed.
End Loop.
