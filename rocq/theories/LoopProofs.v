(** The loop of the search test: map, detector and planned moves. *)
From Coq Require Import ZArith Reals List Bool Lia Lra.
From Verif Require Import Base SearchModel SearchSpec SearchCoord SearchMain SearchThm SearchThm2 SearchState SearchExt WallsModel WallsSpec WallsLemmas Num NumLemmas
  ControlModel TrajModel DetectModel DetectSpec DetectProofs4 DetectProofs5 DetectProofs6 SimModel SimSpec SimProofs RouteModel LoopModel
  ExploreModel ExploreProofs SearchSpec LoopSpec.
Import ListNotations.
Open Scope R_scope.

Section Search.
Variable W : Z.
Hypothesis HW : supported W.
Variable tr : coord -> wall_state.
Let wall (c : coord) : bool := is_wall (tr c).

(** the detector is sure of the truth. *)
Definition decided (d : @detector Rops) (c : coord) : Prop :=
  if wall c then 9 / 10 < belief W d c else belief W d c < 1 / 10.

Lemma look_more (m : @simulator Rops) (d : @detector Rops) p : holds W (m_walls m) tr ->
  detector_ok W d -> leans_to W tr d ->
  exists n d' a, distance_from_wall W m p = Ret n /\
    match n with
    | Some n => detect_and_update W d (n_mean n) (n_stddev n) p
    | None => Ret (d, None)
    end = Ret (d', a) /\ detector_ok W d' /\ leans_to W tr d' /\
    (forall c s, a = Some (c, s) -> valid W c /\ reported (belief W d' c) s) /\
    (forall c, valid W c -> if wall c then belief W d c <= belief W d' c else belief W d' c <= belief W d c) /\
    (forall c, valid W c -> about c a = false -> belief W d' c = belief W d c).
Proof.
  intros Hh Hd Hl. destruct (dfw W HW m tr p Hh) as [[E _]|(c & d1 & d2 & Ec & Hv & E)].
  - exists None, d, None. split; [exact E|]. split; [reflexivity|]. split; [exact Hd|]. split; [exact Hl|]. split; [discriminate|].
    split; [intros c _; destruct (wall c); lra|reflexivity].
  - exists (Some (@Normal Rops (if is_wall (tr c) then d1 else d2) (2 / 1000)%R)).
    destruct (detect_step W HW d (sim_reading tr c d1 d2 p) Hd) as (d' & a & E1 & O & S1 & S2 & S3 & S4).
    assert (M : forall c2, valid W c2 -> if wall c2 then belief W d c2 <= belief W d' c2 else belief W d' c2 <= belief W d c2).
    { intros c2 Hv2. destruct (about c2 a) eqn:Ea; [|rewrite (S2 c2 Hv2 Ea); destruct (wall c2); lra].
      assert (c2 = c).
      { specialize (S1 c2 Ea). unfold sees in S1. cbn [sim_reading r_pose] in S1. rewrite Ec in S1.
        cbn [w_coord] in S1. destruct (coord_eqb_spec c c2); [now symmetry|discriminate]. }
      subst c2. destruct Hd as (Hcv & Hlen & Hpr).
      assert (Hb : 0 < belief W d c < 1).
      { destruct (latched (belief W d c)) eqn:El.
        - exfalso. pose proof (detect_latched W HW d (r_mean (sim_reading tr c d1 d2 p)) (r_stddev (sim_reading tr c d1 d2 p))
            p (@WallInfo Rops c (Some d1) (Some d2)) Hlen) as L. rewrite Hcv in L. specialize (L Ec El).
          cbn [sim_reading r_pose] in E1, L. rewrite L in E1. injection E1 as <- <-. discriminate.
        - exact (latched_R _ (Hpr c Hv) El). }
      destruct (S3 c Hv Hb) as [Hb' Eo]. rewrite Ea in Eo.
      pose proof (ratio_side W tr c d1 d2 p Ec) as Hr. cbv zeta in Hr.
      destruct (odds_side _ _ _ Hb Hb' Eo) as [O1 O2]. unfold wall.
      destruct (is_wall (tr c)); [exact (O1 Hr)|exact (O2 Hr)]. }
    exists d', a. split; [exact E|]. split; [exact E1|]. split; [exact O|]. split; [|split; [exact S4|split; [exact M|exact S2]]].
    intros c2 Hv2. specialize (Hl c2 Hv2). specialize (M c2 Hv2). unfold wall in M. destruct (is_wall (tr c2)); lra.
Qed.

(** what the map and the detector have to do with each other and with the maze. *)
Definition seen (d : @detector Rops) (w : walls) (kn : coord -> bool) : Prop :=
  detector_ok W d /\ leans_to W tr d /\ holds W w (ExploreProofs.st wall kn) /\
  (forall c, valid W c -> decided d c -> kn c = true) /\
  (forall c, valid W c -> kn c = true -> decided d c \/ fresh W c <> Unchecked).

Lemma decided_more (d d' : @detector Rops) c : (if wall c then belief W d c <= belief W d' c else belief W d' c <= belief W d c) ->
  decided d c -> decided d' c.
Proof. unfold decided. destruct (wall c); lra. Qed.

Lemma update_seen (d d' : @detector Rops) w kn c t : seen d w kn -> detector_ok W d' -> leans_to W tr d' ->
  valid W c -> reported (belief W d' c) t ->
  (forall x, valid W x -> if wall x then belief W d x <= belief W d' x else belief W d' x <= belief W d x) ->
  (forall x, valid W x -> about x (Some (c, t)) = false -> belief W d' x = belief W d x) ->
  exists w' kn', walls_update W w c t = Ret w' /\ seen d' w' kn'.
Proof.
  intros (_ & _ & Hh & Hd & Hk) O L Vc R M Q.
  destruct (holds_update W w _ c t HW Vc Hh) as (w' & E & H').
  exists w', (fun x => if coord_eqb x c then match t with Unchecked => false | _ => true end else kn x). split; [exact E|].
  assert (Sure : forall b, t = Checked b -> b = wall c /\ decided d' c).
  { intros b ->. specialize (L c Vc). unfold decided, wall. cbn [reported] in R.
    destruct b, (is_wall (tr c)); try (split; [reflexivity|lra]); exfalso; lra. }
  assert (Not : t = Unchecked -> ~ decided d' c).
  { intros ->. cbn [reported] in R. unfold decided. destruct (wall c); lra. }
  split; [exact O|]. split; [exact L|]. split.
  { apply (holds_ext W w' _ _) with (2 := H'). intros x Vx. unfold setst, ExploreProofs.st.
    destruct (coord_eqb_spec x c) as [->|N]; [|reflexivity]. destruct t as [|b]; [reflexivity|]. now rewrite (proj1 (Sure b eq_refl)). }
  assert (Same : forall x, x <> c -> valid W x -> belief W d' x = belief W d x).
  { intros x N Vx. apply Q; [exact Vx|]. unfold about. destruct (coord_eqb_spec c x) as [->|]; [now destruct N|reflexivity]. }
  split.
  - intros x Vx Dx. destruct (coord_eqb_spec x c) as [->|N]; [destruct t; [now destruct (Not eq_refl)|reflexivity]|].
    apply Hd; [exact Vx|]. unfold decided in *. now rewrite <- (Same x N Vx).
  - intros x Vx Kx. destruct (coord_eqb_spec x c) as [->|N]; [destruct t as [|b]; [discriminate|]; left; exact (proj2 (Sure b eq_refl))|].
    destruct (Hk x Vx Kx) as [A|A]; [left|now right]. unfold decided in *. now rewrite (Same x N Vx).
Qed.

Lemma detect_walls_ok (m : @simulator Rops) s ps : holds W (m_walls m) tr -> forall (d : @detector Rops) w kn, seen d w kn ->
  exists d' w' kn', detect_walls W m s d w ps = Ret (d', w') /\ seen d' w' kn' /\
    forall c, valid W c -> decided d c -> decided d' c.
Proof.
  intros Hm. induction ps as [|p ps IH]; intros d w kn S; cbn [detect_walls].
  { exists d, w, kn. auto. }
  destruct S as (Hd & Hl & S). destruct (look_more m d (sensor_pose s p) Hm Hd Hl) as (n & d1 & a & E & E1 & O & L & R & M & Q).
  rewrite E. cbn [bind]. assert (Dm : forall c, valid W c -> decided d c -> decided d1 c) by (intros c V; apply decided_more, M, V).
  assert (F : forall w1 kn1, seen d1 w1 kn1 -> exists d' w' kn', detect_walls W m s d1 w1 ps = Ret (d', w') /\ seen d' w' kn' /\
    forall c, valid W c -> decided d c -> decided d' c).
  { intros w1 kn1 S1. destruct (IH d1 w1 kn1 S1) as (d' & w' & kn' & X & Y & Z). exists d', w', kn'. auto. }
  destruct n as [n|]; [rewrite E1; cbn [bind]|injection E1 as <- <-; apply (F w kn); now split].
  destruct a as [[c t]|].
  - destruct (R c t eq_refl) as [Vc Rc].
    destruct (update_seen d d1 w kn c t (conj Hd (conj Hl S)) O L Vc Rc M Q) as (w1 & kn1 & E2 & S1). rewrite E2. cbn [bind]. now apply (F w1 kn1).
  - apply (F w kn). destruct S as (Sh & Sd & Sk). split; [exact O|]. split; [exact L|]. split; [exact Sh|].
    assert (Same : forall x, valid W x -> belief W d1 x = belief W d x) by (intros x V; now apply Q).
    split; intros x V; unfold decided; rewrite (Same x V); [exact (Sd x V)|exact (Sk x V)].
Qed.

(** ** The plan *)
Variable goals : list coord.
Hypothesis Hgoals : Forall (valid W) goals.
Variable se : searcher.
Hypothesis Hse : searcher_new W (Co 0 1) goals = Ret se.
Hypothesis Hfresh : forall c b, valid W c -> fresh W c = Checked b -> wall c = b.
Let open (c : coord) : bool := negb (wall c).

(** the mouse and what it may do next. *)
Definition plan (d : @detector Rops) (cmd : option (list coord)) (s : search_state) : Prop :=
  robot_free W wall s /\ (ss_coord s = Co 0 1 \/ decided d (ss_coord s)) /\
  match cmd with
  | None => True
  | Some cs => (forall x, In x cs -> adjacent (ss_coord s) x /\ valid W x) /\
               (forall x, SearchSpec.step W open (ss_coord s) x -> In x cs)
  end.

Lemma plan_more (d d' : @detector Rops) cmd s : (forall c, valid W c -> decided d c -> decided d' c) -> plan d cmd s -> plan d' cmd s.
Proof. intros H (A & B & C). split; [exact A|]. split; [|exact C]. destruct B as [B|B]; [now left|right]. apply H; [apply A|exact B]. Qed.

Definition solvable : Prop := exists g l, In g goals /\ g <> Co 0 1 /\ route W open (Co 0 1) g l.

Lemma fresh_open c : valid W c -> wall c = false -> fresh W c <> Unchecked -> c = Co 0 1.
Proof.
  intros V E F. destruct (fresh W c) as [|b] eqn:Ef; [now destruct F|]. pose proof (Hfresh c b V Ef) as B. rewrite E in B. subst b.
  unfold fresh in Ef. destruct (coord_eqb_spec c (Co 0 1)); [assumption|]. destruct (coord_eqb c (Co 1 0)); [discriminate|].
  destruct (_ || _)%bool; discriminate.
Qed.

Lemma reaches_valid (f g : coord -> bool) a b : (forall c, valid W c -> f c = true -> g c = true) -> valid W a ->
  reaches (SearchSpec.step W f) a b -> reaches (SearchSpec.step W g) a b.
Proof.
  intros H Va (l & C & L). exists l. split; [|exact L]. clear L. revert a Va C.
  induction l as [|d l IH]; intros a Va C; [exact I|]. destruct C as [(A & B & O) C].
  assert (Vd : valid W d) by (now apply (adjacent_valid W a)). split; [|now apply IH].
  split; [exact A|]. split; [exact B|]. now apply H.
Qed.

(** the decision of one round. *)
Lemma decide_ok (v : @search_setup Rops) cmd nx s (d : @detector Rops) w kn : v_searcher v = se -> seen d w kn -> plan d cmd s ->
  (exists x, decide W v cmd nx s w = Ret x /\
    match x with
    | None => search W se (ss_coord s) (walls_state W w) = Ret SNone
    | Some (cmd', nx', s') => plan d cmd' s' /\
        (s' = s \/ exists n k, moves (ss_coord s) (ss_posture s) n k (ss_coord s') (ss_posture s') /\ valid W n /\ wall n = false)
    end) \/
  (decide W v cmd nx s w = Panic /\
    (~ solvable \/ (ss_coord s = Co 0 1 /\ walls_state W w (Co 0 1) = Ret Unchecked))).
Proof.
  intros Ev (Hd & Hl & Hm & Dk & Kd) (Rf & Dc & Hc). pose proof Rf as (Vc & Cr & Oc & Rc). pose proof (first_valid W HW) as Vs.
  pose proof (fun x => read W HW wall kn w x Hm) as Rd. unfold decide. destruct cmd as [cs|].
  - destruct Hc as [C1 C2].
    pose proof (next_spec_on (walls_state W w) (ExploreProofs.ws wall kn) cs (fun x I => Rd x (proj1 (proj2 (C1 x I))))) as N.
    destruct (next_coordinate cs (walls_state W w)) as [[| |n]| |]; try contradiction; cbn [bind].
    + right. split; [reflexivity|]. left. intros (g & l & G1 & G2 & G3 & G4). rewrite Forall_forall in N.
      assert (Cl : forall x, SearchSpec.step W open (ss_coord s) x -> False).
      { intros x Sx. pose proof (C2 x Sx) as I. specialize (N x I). destruct (C1 x I) as [_ Vx].
        rewrite (ws_valid W) in N by exact Vx. unfold ExploreProofs.st in N. destruct (kn x); [|discriminate]. injection N as N.
        destruct Sx as (_ & _ & O). unfold open in O. rewrite N in O. discriminate. }
      destruct Rc as ([|x l0] & C & L).
      * cbn in L. rewrite L in Cl. exact (no_way W (Co 0 1) goals wall Cl g l G1 G2 (conj G3 G4)).
      * destruct C as [C _]. exact (Cl x C).
    + left. eexists. split; [reflexivity|]. split; [|now left]. split; [exact Rf|]. split; [exact Dc|]. now split.
    + destruct N as (pre & post & -> & On & _).
      destruct (C1 n ltac:(apply in_or_app; right; now left)) as [An Vn].
      rewrite (ws_valid W) in On by exact Vn. unfold ExploreProofs.st in On. destruct (kn n) eqn:Kn; [|discriminate]. injection On as On.
      destruct (ss_update_ok W s n HW Vc Vn Cr) as [(_ & k & c' & p' & Eu & M & V' & C')|[NA _]]; [|contradiction].
      rewrite Eu. cbn [bind]. left. eexists. split; [reflexivity|].
      split; [|right; exists n, k; auto]. cbn [plan].
      assert (Hc' : c' = ss_coord s \/ c' = n) by (destruct (move_coord _ _ _ _ _ _ M) as [(_ & -> & _)|(_ & ->)]; auto).
      split; [|split; [|exact I]].
      * split; [exact V'|]. split; [exact C'|]. cbn [ss_coord]. destruct Hc' as [->| ->]; [now split|]. split; [exact On|].
        eapply reaches_trans; [|exact Rc]. apply reaches_one.
        split; [apply adj_sym; [now apply (odd_of W)|exact An]|]. split; [apply Vc|]. now rewrite Oc.
      * cbn [ss_coord]. destruct Hc' as [->| ->]; [exact Dc|]. destruct (Kd n Vn Kn) as [A|A]; [now right|left]. now apply fresh_open.
  - destruct nx as [b|].
    { left. eexists. split; [reflexivity|]. split; [|now left]. split; [exact Rf|]. split; [exact Dc|exact I]. }
    rewrite Ev. destruct (search_total W HW (Co 0 1) Vs goals Hgoals se Hse (walls_state W w) (ws wall kn) Rd (ss_coord s) Vc) as (r & E & _).
    rewrite E. cbn [bind]. destruct r as [| |cs].
    + right. split; [reflexivity|]. destruct (kn (ss_coord s)) eqn:Kc.
      * left. intros Sv. revert E.
        apply (search_not_err W HW (Co 0 1) Vs goals Hgoals se Hse (walls_state W w) (ws wall kn) Rd (ss_coord s) Vc open); auto.
        -- apply (ws_slotwise W).
        -- apply (ws_consistent W).
        -- rewrite (ws_valid W) by assumption. unfold ExploreProofs.st. rewrite Kc. discriminate.
        -- apply (reaches_valid open _) with (2 := Vc) (3 := Rc). intros x Vx O. exact (consistent_mo W _ open x (ws_consistent W wall kn) Vx O).
      * right. destruct Dc as [Ec|A]; [|rewrite (Dk _ Vc A) in Kc; discriminate]. split; [exact Ec|].
        rewrite Rd by apply Vs. rewrite (ws_valid W) by exact Vs. unfold ExploreProofs.st. rewrite Ec in Kc. now rewrite Kc.
    + left. eexists. split; [reflexivity|]. reflexivity.
    + left. eexists. split; [reflexivity|]. split; [|now left].
      destruct (search_candidates W HW (Co 0 1) Vs goals Hgoals se Hse (walls_state W w) (ws wall kn) Rd (ss_coord s) Vc cs E) as (Nd & Hin & _).
      split; [exact Rf|]. split; [exact Dc|]. split.
      * intros x Hx. apply Hin in Hx. destruct Hx as (A & B & _). split; [exact A|]. now apply (adjacent_valid W (ss_coord s)).
      * intros x (A & B & O). apply Hin. split; [exact A|]. split; [exact B|].
        assert (Vx : valid W x) by (now apply (adjacent_valid W (ss_coord s))).
        apply (consistent_mo W _ open x (ws_consistent W wall kn) Vx O).
Qed.

(** ** The rounds *)
Definition running (l : @search_vars Rops) : Prop :=
  holds W (m_walls (l_simulator l)) tr /\ (exists kn, seen (l_detector l) (l_walls l) kn) /\
  plan (l_detector l) (l_commander l) (l_robot l).

Lemma period_ok (v : @search_setup Rops) l : v_searcher v = se -> running l ->
  (exists x, search_period W v l = Ret x /\
    match x with
    | inl l' => running l' /\ (l_robot l' = l_robot l \/
        exists n k, moves (ss_coord (l_robot l)) (ss_posture (l_robot l)) n k (ss_coord (l_robot l')) (ss_posture (l_robot l')) /\ valid W n /\ wall n = false)
    | inr l' => running l' /\ l_robot l' = l_robot l /\ search W se (ss_coord (l_robot l')) (walls_state W (l_walls l')) = Ret SNone
    end) \/
  (search_period W v l = Panic /\ (starved l \/ ~ solvable \/ start_lost W l)).
Proof.
  intros Ev (Hm & (kn & Hs) & Hp). unfold search_period, starved, start_lost.
  destruct (estimate _ _ _) as [s e]. destruct (take_target (l_trajectory l) (l_next l)) as [[[t b] nx]| |] eqn:Et; cbn [bind].
  - destruct (track _ _ _ _) as [[r y] k]. destruct (control _ r y) as [o c].
    destruct (decide_ok v (l_commander l) nx (l_robot l) (l_detector l) (l_walls l) kn Ev Hs Hp) as [(x & E & H)|[E H]]; rewrite E; cbn [bind].
    + destruct x as [[[cmd nx'] rb]|].
      * destruct (detect_walls_ok (apply (l_simulator l) o) s (v_sensors v) Hm (l_detector l) (l_walls l) kn Hs) as (d' & w' & kn' & E2 & S2 & D2).
        rewrite E2. cbn [bind]. left. eexists. split; [reflexivity|]. destruct H as [H1 H2].
        split; [|exact H2]. split; [exact Hm|]. split; [exists kn'; exact S2|]. exact (plan_more _ _ _ _ D2 H1).
      * left. eexists. split; [reflexivity|]. split; [|split; [reflexivity|exact H]].
        split; [exact Hm|]. split; [exists kn; exact Hs|]. destruct Hp as (A & B & _). split; [exact A|]. split; [exact B|exact I].
    + right. split; [reflexivity|]. tauto.
  - right. split; [reflexivity|]. now left.
  - exfalso. revert Et. unfold take_target. destruct (boxed_next _) as [[t|] b]; [discriminate|].
    destruct (l_next l) as [b2|]; [|discriminate]. destruct (boxed_next b2) as [[t|] b3]; discriminate.
Qed.

Lemma rounds_ok (v : @search_setup Rops) n : v_searcher v = se -> forall l, running l ->
  match search_rounds n W v l with
  | Ret (inl l') => running l'
  | Ret (inr l') => running l' /\ search W se (ss_coord (l_robot l')) (walls_state W (l_walls l')) = Ret SNone
  | Panic => exists k l', (k < n)%nat /\ search_rounds k W v l = Ret (inl l') /\ running l' /\ (starved l' \/ ~ solvable \/ start_lost W l')
  | Fuel => False
  end.
Proof.
  intros Ev. induction n as [|n IH]; intros l H; cbn [search_rounds]; [exact H|].
  destruct (period_ok v l Ev H) as [(x & E & P)|[E P]].
  - rewrite E. cbn [bind]. destruct x as [l'|l'].
    + destruct P as [P _]. specialize (IH l' P). destruct (search_rounds n W v l') as [[l2|l2]| |] eqn:En; try exact IH.
      destruct IH as (k & l2 & Hk & Ek & R). exists (S k), l2. split; [lia|]. cbn [search_rounds]. rewrite E. cbn [bind]. now split.
    + destruct P as (P1 & _ & P2). now split.
  - rewrite E. cbn [bind]. exists 0%nat, l. split; [lia|]. split; [reflexivity|]. now split.
Qed.

Lemma map_ok (l : @search_vars Rops) : running l -> map_true W wall (l_walls l).
Proof.
  intros (_ & (kn & _ & _ & Hm & _) & _) c V. rewrite (proj2 Hm c V). unfold ExploreProofs.st. destruct (kn c); auto.
Qed.

(** at the end *)
Lemma end_ok (l : @search_vars Rops) : running l -> (forall c, valid W c -> tr c <> Unchecked) ->
  search W se (ss_coord (l_robot l)) (walls_state W (l_walls l)) = Ret SNone ->
  exists p q, path_on W se (l_walls l) = Ret (Some (Co 0 1 :: p)) /\ path_on W se (m_walls (l_simulator l)) = Ret (Some (Co 0 1 :: q)) /\
    best_route W open (Co 0 1) goals p /\ best_route W open (Co 0 1) goals q /\ length p = length q.
Proof.
  intros (Ht & (kn & _ & _ & Hm & _) & Hp) Hk E. pose proof (first_valid W HW) as Vs.
  pose proof (fun x => read W HW wall kn _ x Hm) as Rd.
  destruct (search_done W HW (Co 0 1) Vs goals Hgoals se Hse _ (ws wall kn) Rd _ (proj1 (proj1 Hp)) E) as (p0 & _ & (p & Ep & Bp & Len) & Bt).
  specialize (Bt _ (ws_consistent W wall kn)).
  assert (Bp' : best_route W open (Co 0 1) goals p).
  { destruct Bt as [_ Bt]. destruct Bp as [(g & G1 & G2 & G3 & G4) _]. split.
    - exists g. split; [exact G1|]. split; [exact G2|].
      apply (route_mono W (known_open (ws wall kn))); [exact Vs| |now split].
      intros x Vx. apply (consistent_ko W _ _ x (ws_consistent W wall kn) Vx).
    - intros g' l2 H1 H2 H3. rewrite Len. exact (Bt g' l2 H1 H2 H3). }
  assert (It : forall c, valid W c -> (let* t := walls_state W (m_walls (l_simulator l)) c in Ret (negb (is_checked_false t))) = Ret (negb (open c))).
  { intros c V. rewrite (proj2 Ht c V). cbn [bind]. specialize (Hk c V). unfold open, wall, is_wall. destruct (tr c) as [|[]]; [now destruct Hk|reflexivity|reflexivity]. }
  destruct (path_ok W HW (Co 0 1) Vs goals Hgoals se Hse _ open It) as [[_ U]|(q & Eq & Bq & _)].
  { exfalso. destruct Bp' as [(g & G1 & G2 & G3) _]. exact (U g p G1 G2 G3). }
  exists p, q. split; [exact Ep|]. split; [exact Eq|]. split; [exact Bp'|]. split; [exact Bq|].
  destruct Bp' as [(g & G1 & G2 & G3) Mp], Bq as [(g' & H1 & H2 & H3) Mq].
  specialize (Mp g' q H1 H2 H3). specialize (Mq g p G1 G2 G3). lia.
Qed.

(** at the beginning *)
Lemma start_ok (l : @search_vars Rops) w0 : holds W (m_walls (l_simulator l)) tr -> walls_new W = Ret w0 ->
  l_walls l = w0 -> l_detector l = @detector_new Rops -> l_commander l = None -> l_robot l = SS (Co 0 1) North -> running l.
Proof.
  intros Ht Hw Ew Ed Ec Er. unfold running. rewrite Ew, Ed, Ec, Er. split; [exact Ht|].
  pose proof (first_valid W HW) as Vs. destruct (new_ok W) as [O B]. destruct (first_inv W wall w0 HW Hfresh Hw) as [Im Iv Ic Ik Io Ih _].
  split.
  - exists (kn0 W). split; [exact O|]. split; [intros c _; rewrite B; destruct (is_wall (tr c)); lra|]. split; [exact Im|].
    split; [intros c _; unfold decided; rewrite B; destruct (wall c); lra|].
    intros c _ Kc. right. unfold kn0 in Kc. destruct (fresh W c); discriminate.
  - split; [|split; [now left|exact I]]. split; [exact Vs|]. split; [exact Ic|]. split; [exact Io|]. exists []. split; [exact I|reflexivity].
Qed.
End Search.
