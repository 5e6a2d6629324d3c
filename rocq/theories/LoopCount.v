(** The loop of the search test makes finitely many moves (C118). *)
From Coq Require Import ZArith Reals List Bool Lia Lra Arith Classical.
From Verif Require Import Base SearchModel SearchSpec SearchCoord SearchBfsInv SearchMain SearchThm SearchThm2 SearchState SearchExt WallsModel WallsSpec WallsLemmas Num NumLemmas
  ControlModel TrajModel DetectModel DetectSpec DetectProofs6 SimModel SimSpec RouteModel LoopModel ExploreModel ExploreProofs SearchSpec LoopSpec LoopProofs ResumeSpec ResumeProofs CountSpec.
Import ListNotations.

Definition coord_dec (a b : coord) : {a = b} + {a <> b}.
Proof. destruct (coord_eqb_spec a b); [left|right]; assumption. Defined.

(** ** Simple chains *)
Lemma last_cons (m : list coord) : forall d c, last (d :: m) c = last m d.
Proof. induction m as [|e m IH]; intros d c; [reflexivity|]. change (last (e :: m) c = last (e :: m) d). now rewrite !IH. Qed.

Lemma chain_tail (R : coord -> coord -> Prop) x : forall m c, chain R c m -> In x m -> exists m', chain R x m' /\ last m' x = last m c /\ (forall y, In y m' -> In y m) /\ (NoDup m -> NoDup m' /\ ~ In x m').
Proof.
  induction m as [|d m IH]; intros c C I; [destruct I|]. destruct C as [_ C].
  pose proof (last_cons m d c) as La.
  destruct (coord_dec d x) as [->|N].
  - exists m. split; [exact C|]. split; [now rewrite La|]. split; [intros y; now right|]. intros ND. now inversion ND.
  - destruct I as [I|I]; [contradiction|]. destruct (IH d C I) as (m' & A & B & D & E). exists m'. split; [exact A|]. split; [now rewrite La|].
    split; [intros y Y; right; now apply D|]. intros ND. apply E. now inversion ND.
Qed.

Lemma chain_simple (R : coord -> coord -> Prop) : forall m c, chain R c m -> exists m', chain R c m' /\ last m' c = last m c /\ NoDup m' /\ forall y, In y m' -> In y m.
Proof.
  induction m as [|d m IH]; intros c C; [exists []; repeat split; [constructor|intros y []]|]. destruct C as [Rd C].
  destruct (IH d C) as (m' & A & B & ND & I). destruct (in_dec coord_dec d m') as [J|J].
  - destruct (chain_tail R d m' d A J) as (m2 & A2 & B2 & I2 & N2). destruct (N2 ND) as [N3 N4].
    exists (d :: m2). split; [now split|]. split; [rewrite !last_cons; congruence|]. split; [now constructor|].
    intros y [<-|Y]; [now left|right; apply I, I2, Y].
  - exists (d :: m'). split; [now split|]. split; [rewrite !last_cons; exact B|]. split; [now constructor|]. intros y [<-|Y]; [now left|right; now apply I].
Qed.

(** ** Sums *)
Definition total (f : coord -> nat) (l : list coord) : nat := fold_right (fun c n => f c + n)%nat O l.
Lemma total_le f g l : (forall c, In c l -> (g c <= f c)%nat) -> (total g l <= total f l)%nat /\ (total g l = total f l -> forall c, In c l -> g c = f c).
Proof.
  induction l as [|a l IH]; intros H; cbn [total fold_right]; [split; [lia|intros _ c []]|]. fold (total f l) (total g l).
  destruct IH as [I1 I2]; [intros c I; apply H; now right|]. pose proof (H a (or_introl eq_refl)).
  split; [lia|]. intros E c [<-|I]; [lia|apply I2; [lia|exact I]].
Qed.
Lemma total_max f m l : (forall c, (f c <= m)%nat) -> (total f l <= m * length l)%nat.
Proof. intros H. induction l as [|a l IH]; cbn [total fold_right length]; [lia|]. fold (total f l). specialize (H a). lia. Qed.

Section Count.
Variable W : Z.
Hypothesis HW : supported W.
Variable tr : coord -> wall_state.
Let wall (c : coord) : bool := is_wall (tr c).

Definition walls_list : list coord := nodup coord_dec (all_walls W).
Definition amount : nat := length walls_list.
Lemma walls_list_In c : In c walls_list <-> valid W c.
Proof. unfold walls_list. rewrite nodup_In. apply all_walls_In. Qed.
Lemma amount_le : (Z.of_nat amount <= 2 * W * W)%Z.
Proof.
  apply (valid_nodup_bound W walls_list HW); [apply NoDup_nodup|]. apply Forall_forall. intros c. apply walls_list_In.
Qed.
Lemma short (R : coord -> coord -> Prop) c m : chain R c m -> Forall (valid W) m -> exists m', chain R c m' /\ last m' c = last m c /\ (length m' <= amount)%nat.
Proof.
  intros C F. destruct (chain_simple R m c C) as (m' & A & B & N & I). exists m'. split; [exact A|]. split; [exact B|].
  apply NoDup_incl_length; [exact N|]. intros y Y. apply walls_list_In. rewrite Forall_forall in F. now apply F, I.
Qed.

(** ** What is not decided yet *)
Definition decidedb (d : @detector Rops) (c : coord) : bool :=
  if wall c then if Rlt_dec (9 / 10) (belief W d c) then true else false else if Rlt_dec (belief W d c) (1 / 10) then true else false.
Lemma decidedb_spec d c : decidedb d c = true <-> decided W tr d c.
Proof.
  unfold decidedb, decided. fold (wall c). destruct (wall c); [destruct (Rlt_dec (9 / 10) (belief W d c))|destruct (Rlt_dec (belief W d c) (1 / 10))]; split; auto; discriminate.
Qed.
Definition pot d (kn : coord -> bool) c : nat := if decidedb d c then 0 else if kn c then 2 else 1.
Definition level d kn : nat := total (pot d kn) walls_list.

Definition grows (d d' : @detector Rops) (kn kn' : coord -> bool) : Prop :=
  (forall c, valid W c -> decided W tr d c -> decided W tr d' c) /\ (forall c, valid W c -> kn' c = true -> kn c = true \/ decided W tr d' c).

Lemma level_grows d d' w w' kn kn' : seen W tr d w kn -> seen W tr d' w' kn' -> grows d d' kn kn' ->
  (level d' kn' <= level d kn)%nat /\ (level d' kn' = level d kn -> forall c, valid W c -> kn' c = kn c).
Proof.
  intros (_ & _ & _ & Dk & _) (_ & _ & _ & Dk' & _) [G1 G2].
  assert (P : forall c, In c walls_list -> (pot d' kn' c <= pot d kn c)%nat).
  { intros c I. apply walls_list_In in I. unfold pot. destruct (decidedb d c) eqn:E.
    - apply decidedb_spec in E. apply (G1 c I), decidedb_spec in E. now rewrite E.
    - destruct (decidedb d' c) eqn:E'; [lia|]. destruct (kn' c) eqn:K'; [|destruct (kn c); lia].
      destruct (G2 c I K') as [->|A]; [lia|]. apply decidedb_spec in A. congruence. }
  destruct (total_le _ _ _ P) as [T1 T2]. split; [exact T1|]. intros E c V. specialize (T2 E c (proj2 (walls_list_In c) V)). revert T2.
  unfold pot. destruct (decidedb d c) eqn:A.
  - intros _. apply decidedb_spec in A. rewrite (Dk c V A). apply (Dk' c V), (G1 c V A).
  - destruct (decidedb d' c), (kn c), (kn' c); auto; discriminate.
Qed.

Lemma grows_refl d kn : grows d d kn kn. Proof. split; auto. Qed.

Lemma update_grows (d d' : @detector Rops) w kn c t : seen W tr d w kn -> detector_ok W d' -> leans_to W tr d' ->
  valid W c -> reported (belief W d' c) t ->
  (forall x, valid W x -> if wall x then belief W d x <= belief W d' x else belief W d' x <= belief W d x)%R ->
  (forall x, valid W x -> about x (Some (c, t)) = false -> belief W d' x = belief W d x) ->
  exists w' kn', walls_update W w c t = Ret w' /\ seen W tr d' w' kn' /\ grows d d' kn kn'.
Proof.
  intros S O L Vc R M Q. destruct (update_seen W HW tr d d' w kn c t S O L Vc R M Q) as (w' & kn' & E & S').
  exists w', kn'. split; [exact E|]. split; [exact S'|]. split; [intros x V; apply decided_more, M, V|].
  intros x V K. destruct S as (_ & _ & Hh & _). destruct S' as (_ & L' & H' & _).
  destruct (holds_update W w _ c t HW Vc Hh) as (w2 & E2 & H2). rewrite E in E2. injection E2 as <-.
  pose proof (proj2 H' x V) as A. rewrite (proj2 H2 x V) in A. unfold setst, ExploreProofs.st in A. rewrite K in A.
  destruct (coord_eqb_spec x c) as [->|N].
  - right. injection A as A. subst t. specialize (L' c Vc). unfold decided. fold (wall c) in *. cbn [reported] in R. fold (wall c) in R. destruct (wall c); cbn [reported] in R; lra.
  - left. destruct (kn x); [reflexivity|discriminate A].
Qed.

Lemma detect_grows (m : @simulator Rops) s ps : holds W (m_walls m) tr -> forall (d : @detector Rops) w kn, seen W tr d w kn ->
  exists d' w' kn', detect_walls W m s d w ps = Ret (d', w') /\ seen W tr d' w' kn' /\ grows d d' kn kn'.
Proof.
  intros Hm. induction ps as [|p ps IH]; intros d w kn S; cbn [detect_walls].
  { exists d, w, kn. split; [reflexivity|]. split; [exact S|apply grows_refl]. }
  destruct S as (Hd & Hl & S). destruct (look_more W HW tr m d (sensor_pose s p) Hm Hd Hl) as (n & d1 & a & E & E1 & O & L & R & M & Q).
  rewrite E. cbn [bind].
  assert (F : forall w1 kn1, seen W tr d1 w1 kn1 -> grows d d1 kn kn1 -> exists d' w' kn', detect_walls W m s d1 w1 ps = Ret (d', w') /\ seen W tr d' w' kn' /\ grows d d' kn kn').
  { intros w1 kn1 S1 [G1 G2]. destruct (IH d1 w1 kn1 S1) as (d' & w' & kn' & X & Y & Z1 & Z2). exists d', w', kn'. split; [exact X|]. split; [exact Y|].
    split; [intros c V D; now apply Z1, G1|]. intros c V K. destruct (Z2 c V K) as [A|A]; [|now right]. destruct (G2 c V A) as [B|B]; [now left|right; now apply Z1]. }
  destruct n as [n|]; [rewrite E1; cbn [bind]|injection E1 as <- <-; apply (F w kn); [now split|apply grows_refl]].
  destruct a as [[c t]|].
  - destruct (R c t eq_refl) as [Vc Rc].
    destruct (update_grows d d1 w kn c t (conj Hd (conj Hl S)) O L Vc Rc M Q) as (w1 & kn1 & E2 & S1 & G). rewrite E2. cbn [bind]. now apply (F w1 kn1).
  - assert (Same : forall x, valid W x -> belief W d1 x = belief W d x) by (intros x V; now apply Q).
    apply (F w kn).
    + destruct S as (Sh & Sd & Sk). split; [exact O|]. split; [exact L|]. split; [exact Sh|].
      split; intros x V; unfold decided; rewrite (Same x V); [exact (Sd x V)|exact (Sk x V)].
    + split; [|intros x V K; now left]. intros x V. unfold decided. now rewrite (Same x V).
Qed.

Lemma seen_ext d w kn kn' : (forall c, valid W c -> kn' c = kn c) -> seen W tr d w kn' -> seen W tr d w kn.
Proof.
  intros H (A & B & C & D & E). split; [exact A|]. split; [exact B|]. split; [|split].
  - apply (holds_ext W w _ _) with (2 := C). intros c V. unfold ExploreProofs.st. now rewrite (H c V).
  - intros c V X. rewrite <- (H c V). now apply D.
  - intros c V X. apply E; [exact V|]. now rewrite (H c V).
Qed.
Lemma level_ext d kn kn' : (forall c, valid W c -> kn' c = kn c) -> level d kn' = level d kn.
Proof.
  intros H. destruct (total_le (pot d kn) (pot d kn') walls_list) as [A _]; [|destruct (total_le (pot d kn') (pot d kn) walls_list) as [B _]; [|unfold level; lia]].
  all: intros c I; apply walls_list_In in I; unfold pot; rewrite (H c I); lia.
Qed.

(** ** The way to the next unknown wall *)
Variable goals : list coord.
Hypothesis Hgoals : Forall (valid W) goals.
Variable se : searcher.
Hypothesis Hse : searcher_new W (Co 0 1) goals = Ret se.
Hypothesis Hfresh : forall c b, valid W c -> fresh W c = Checked b -> wall c = b.

Definition found kn c cs : Prop := search W se c (cut W (ws wall kn)) = Ret (SSome cs).
Lemma found_search kn w c cs : holds W w (ExploreProofs.st wall kn) -> valid W c -> search W se c (walls_state W w) = Ret (SSome cs) <-> found kn c cs.
Proof.
  intros Hm V. pose proof (fun x => read W HW wall kn w x Hm) as Rd. unfold found.
  now rewrite (search_cut W HW (Co 0 1) (first_valid W HW) goals Hgoals se Hse _ (ws wall kn) c V Rd).
Qed.

Notation close := (near W (Co 0 1) se wall).

Lemma cut_read kn c : on_board W c -> cut W (ws wall kn) c = Ret (ws wall kn c).
Proof. intros B. unfold cut. apply on_boardb_spec in B. now rewrite B. Qed.

Lemma found_near kn c cs : valid W c -> found kn c cs -> exists f rest, cs = f :: rest /\ SearchSpec.step W (maybe_open (ws wall kn)) c f /\ close amount kn c.
Proof.
  intros V E. pose proof (first_valid W HW) as Vs.
  destruct (search_nearest W HW (Co 0 1) Vs goals Hgoals se Hse _ (ws wall kn) (cut_read kn) c V cs E)
    as (l & f & rest & m & d & O & _ & -> & Sf & C & L & Wd & Nd & Min).
  exists f, rest. split; [reflexivity|]. split; [exact Sf|]. exists l, d, (f :: m). split; [exact O|]. split; [exact Wd|]. split; [exact Nd|].
  split; [exact C|]. split; [exact L|].
  assert (F : forall m c, valid W c -> chain (SearchSpec.step W (maybe_open (ws wall kn))) c m -> Forall (valid W) m).
  { clear - HW. induction m as [|x m IH]; intros c V C; [constructor|]. destruct C as [(A & B & _) C].
    assert (Vx : valid W x) by (now apply (adjacent_valid W c)). constructor; [exact Vx|now apply (IH x)]. }
  destruct (short _ c (f :: m) C (F _ c V C)) as (m' & C' & L' & Le).
  specialize (Min d m' Wd Nd C' ltac:(congruence)). lia.
Qed.

Lemma near_next kn c f rest k : valid W c -> found kn c (f :: rest) -> kn f = true -> close k kn c -> exists k', k = S k' /\ close k' kn f.
Proof.
  intros V E Kf N. pose proof (first_valid W HW) as Vs.
  destruct k as [|k]. { exfalso. destruct N as (l & d & [|] & _ & _ & Hd & _ & L & Len); cbn [length] in Len; [|lia]. cbn in L. congruence. }
  exists k. split; [reflexivity|].
  destruct (search_nearest W HW (Co 0 1) Vs goals Hgoals se Hse _ (ws wall kn) (cut_read kn) c V _ E)
    as (l' & f' & rest' & m' & d' & O' & _ & Ecs & _ & C' & L' & Wd' & Nd' & Min).
  injection Ecs as <- <-. destruct N as (l & d & m & Pl & Wd & Nd & C & L & Len).
  unfold optimistic in O'. unfold path_of in Pl. rewrite Pl in O'.
  injection O' as <-. specialize (Min d m Wd Nd C L). cbn [length] in Min.
  destruct C' as [_ C']. exists l, d', m'. split; [exact Pl|]. split; [exact Wd'|].
  split.
  { intros Q. rewrite Q in Wd'. destruct Wd' as (Vf & e & _ & Ue & Se). unfold ws in Ue. rewrite (slot_wall_eq wall _ _ Se), (slot_wall_valid W f Vf) in Ue.
    unfold ExploreProofs.st in Ue. rewrite Kf in Ue. discriminate Ue. }
  split; [exact C'|]. split; [|lia]. rewrite last_cons in L'. exact L'.
Qed.

Definition span_of : nat := 2 * amount + 1.
Definition tracked kn (s : search_state) (i : nat) : Prop :=
  (exists k, close k kn (ss_coord s) /\ (2 * k <= i)%nat) \/
  (exists k f rest, close k kn f /\ found kn (ss_coord s) (f :: rest) /\ (forall c p, ~ moves (ss_coord s) (ss_posture s) f Back c p) /\ (2 * k + 1 <= i)%nat).
Definition inside kn (cmd : option (list coord)) (s : search_state) (i : nat) : Prop :=
  match cmd with
  | None => (span_of - 1 <= i)%nat \/ tracked kn s i
  | Some cs => (span_of <= i)%nat \/ (found kn (ss_coord s) cs /\ tracked kn s i)
  end.

Lemma decide_count (v : @search_setup Rops) cmd nx s (d : @detector Rops) w kn cmd' nx' s' i : v_searcher v = se ->
  seen W tr d w kn -> plan W tr d cmd s -> inside kn cmd s i -> decide W v cmd nx s w = Ret (Some (cmd', nx', s')) ->
  (s' = s /\ inside kn cmd' s' i) \/ (exists j, i = S j /\ inside kn cmd' s' j).
Proof.
  intros Ev (Hd & Hl & Hm & Dk & Kd) (Rf & Dc & Hc) In0. pose proof Rf as (Vc & Cr & Oc & Rc).
  pose proof (fun x => read W HW wall kn w x Hm) as Rd. unfold decide. destruct cmd as [cs|].
  - destruct Hc as [C1 C2].
    pose proof (next_spec_on (walls_state W w) (ExploreProofs.ws wall kn) cs (fun x I => Rd x (proj1 (proj2 (C1 x I))))) as N.
    destruct (next_coordinate cs (walls_state W w)) as [[| |n]| |]; try contradiction; cbn [bind]; [intros X; discriminate X| |].
    + intros X. injection X as <- <- <-. left. split; [reflexivity|exact In0].
    + destruct N as (pre & post & -> & On & Pre).
      destruct (C1 n ltac:(apply in_or_app; right; now left)) as [An Vn].
      pose proof On as On'. rewrite (ws_valid W) in On by exact Vn. unfold ExploreProofs.st in On. destruct (kn n) eqn:Kn; [|discriminate On].
      destruct (ss_update_ok W s n HW Vc Vn Cr) as [(_ & k & c' & p' & Eu & M & V' & C')|[NA _]]; [|contradiction].
      rewrite Eu. cbn [bind]. intros X. injection X as <- <- <-. right. cbn [inside] in *. cbn [ss_coord ss_posture].
      destruct In0 as [Big|[F T]].
      { destruct i as [|j]; [unfold span_of in Big; lia|]. exists j. split; [reflexivity|]. left. lia. }
      destruct (found_near kn _ _ Vc F) as (f & rest & Ecs & (_ & _ & Of) & _).
      assert (Pn : pre = []).
      { destruct pre as [|a pre]; [reflexivity|]. injection Ecs as -> _. apply Forall_inv in Pre. unfold maybe_open in Of. rewrite Pre in Of. discriminate Of. }
      subst pre. cbn [app] in *. injection Ecs as <- <-.
      destruct T as [(k0 & N0 & L0)|(k0 & f0 & rest0 & N0 & F0 & B0 & L0)].
      * destruct (near_next kn _ n post k0 Vc F Kn N0) as (k1 & -> & N1). destruct i as [|j]; [lia|]. exists j. split; [reflexivity|]. right.
        destruct (move_coord _ _ _ _ _ _ M) as [(-> & -> & ->)|(_ & ->)].
        -- right. exists k1, n, post. split; [exact N1|]. split; [exact F|]. split; [|lia]. cbn [ss_coord ss_posture].
           intros c2 p2 M2. exact (no_two_backs _ _ _ _ _ _ _ M M2).
        -- left. exists k1. split; [exact N1|lia].
      * unfold found in F, F0. rewrite F in F0. injection F0 as <- <-. destruct i as [|j]; [lia|]. exists j. split; [reflexivity|]. right.
        destruct (move_coord _ _ _ _ _ _ M) as [(-> & _ & _)|(_ & ->)]; [now destruct (B0 c' p')|].
        left. exists k0. split; [exact N0|lia].
  - destruct nx as [b|].
    { intros X. injection X as <- <- <-. left. split; [reflexivity|exact In0]. }
    rewrite Ev. destruct (search W se (ss_coord s) (walls_state W w)) as [[| |cs]| |] eqn:E; cbn [bind]; intros X; try discriminate X.
    injection X as <- <- <-. left. split; [reflexivity|]. pose proof (proj1 (found_search kn w (ss_coord s) cs Hm Vc) E) as E'. clear E. cbn [inside] in *. right. split; [exact E'|].
    destruct In0 as [Big|T]; [|exact T]. left. exists amount. destruct (found_near kn _ _ Vc E') as (f & rest & _ & _ & N). split; [exact N|]. unfold span_of in Big. lia.
Qed.

Definition counted (l : @search_vars Rops) (b : nat) : Prop :=
  exists kn i, seen W tr (l_detector l) (l_walls l) kn /\ (level (l_detector l) kn * span_of + i <= b)%nat /\ inside kn (l_commander l) (l_robot l) i.

Lemma period_count (v : @search_setup Rops) l l' b : v_searcher v = se -> running W tr l -> counted l b -> search_period W v l = Ret (inl l') ->
  running W tr l' /\ ((l_robot l' = l_robot l /\ counted l' b) \/ exists b', b = S b' /\ counted l' b').
Proof.
  intros Ev R Co E. split.
  { destruct (period_ok W HW tr goals Hgoals se Hse Hfresh v l Ev R) as [(x & Ex & P)|[Ex _]]; rewrite Ex in E; [|discriminate E]. injection E as ->. exact (proj1 P). }
  destruct R as (Hm & _ & Hp). destruct Co as (kn & i & S & Le & In0). unfold search_period in E.
  destruct (estimate _ _ _) as [s e]. destruct (take_target (l_trajectory l) (l_next l)) as [[[t tb] nx]| |]; cbn [bind] in E; try discriminate E.
  destruct (track _ _ _ _) as [[r y] k]. destruct (control _ r y) as [o c0].
  destruct (decide W v (l_commander l) nx (l_robot l) (l_walls l)) as [[[[cmd nx'] rb]|]| |] eqn:Ed; cbn [bind] in E; try discriminate E.
  pose proof (decide_count v _ _ _ _ _ kn _ _ _ i Ev S Hp In0 Ed) as D.
  destruct (detect_grows (apply (l_simulator l) o) s (v_sensors v) Hm (l_detector l) (l_walls l) kn S) as (d' & w' & kn' & E2 & S2 & G).
  rewrite E2 in E. cbn [bind] in E. injection E as <-. unfold counted. cbn [l_detector l_walls l_commander l_robot].
  destruct (level_grows _ _ _ _ _ _ S S2 G) as [L1 L2].
  assert (Q : forall i', inside kn cmd rb i' -> exists kn1 i1, seen W tr d' w' kn1 /\ (level d' kn1 * span_of + i1 <= level (l_detector l) kn * span_of + i')%nat /\ inside kn1 cmd rb i1).
  { intros i' I'. destruct (Nat.eq_dec (level d' kn') (level (l_detector l) kn)) as [Eq|Ne].
    - exists kn, i'. split; [exact (seen_ext d' w' kn kn' (L2 Eq) S2)|]. split; [|exact I']. rewrite <- (level_ext d' kn kn' (L2 Eq)). lia.
    - exists kn', (span_of + i')%nat. split; [exact S2|]. split; [nia|]. unfold inside. destruct cmd; left; lia. }
  destruct D as [[Er D]|(j & -> & D)].
  - left. split; [exact Er|]. destruct (Q i D) as (kn1 & i1 & A & B & C). exists kn1, i1. split; [exact A|]. split; [exact (Nat.le_trans _ _ _ B Le)|exact C].
  - right. rewrite Nat.add_succ_r in Le. destruct b as [|b]; [exfalso; exact (Nat.nle_succ_0 _ Le)|]. exists b. split; [reflexivity|]. destruct (Q j D) as (kn1 & i1 & A & B & C). exists kn1, i1.
    split; [exact A|]. split; [exact (Nat.le_trans _ _ _ B (le_S_n _ _ Le))|exact C].
Qed.

Lemma counted_bound (v : @search_setup Rops) l k l' : v_searcher v = se -> makes W v l k l' -> forall b, running W tr l -> counted l b -> (k <= b)%nat.
Proof.
  intros Ev M. induction M as [l|l l1 k l' E Eq M IH|l l1 k l' E Ne M IH]; intros b R Co; [lia| |].
  - destruct (period_count v l l1 b Ev R Co E) as [R1 [[_ C1]|(b' & -> & C1)]]; [exact (IH b R1 C1)|]. specialize (IH b' R1 C1). lia.
  - destruct (period_count v l l1 b Ev R Co E) as [R1 [[X _]|(b' & -> & C1)]]; [contradiction|]. specialize (IH b' R1 C1). lia.
Qed.

Lemma counted_start (l : @search_vars Rops) : running W tr l -> l_commander l = None -> counted l (2 * amount * span_of + (span_of - 1)).
Proof.
  intros (_ & (kn & S) & _) E. exists kn, (span_of - 1)%nat. split; [exact S|]. split; [|rewrite E; left; lia].
  assert (level (l_detector l) kn <= 2 * amount)%nat; [|nia]. apply total_max. intros c. unfold pot. destruct (decidedb _ c), (kn c); lia.
Qed.

Lemma moves_bound (v : @search_setup Rops) l k l' : v_searcher v = se -> holds W (m_walls (l_simulator l)) tr -> begins W l \/ resumes W wall l ->
  makes W v l k l' -> (Z.of_nat k <= 8 * (W * W) * (2 * (W * W) + 1))%Z.
Proof.
  intros Ev Ht Hb M. pose proof (ready W HW tr Hfresh l Ht Hb) as R.
  assert (Ec : l_commander l = None) by (destruct Hb as [(_ & _ & A & _)|(_ & _ & _ & A & _)]; exact A).
  pose proof (counted_bound v l k l' Ev M _ R (counted_start l R Ec)) as B. pose proof amount_le as A. unfold span_of in B.
  assert (Bz : (Z.of_nat k <= 4 * Z.of_nat amount * (Z.of_nat amount + 1))%Z) by (zify; nia). nia.
Qed.
End Count.

Lemma rounds_make {K : ops} W (v : search_setup) n : forall l l', search_rounds n W v l = Ret (inl l') -> exists k, makes W v l k l'.
Proof.
  induction n as [|n IH]; intros l l' E; cbn [search_rounds] in E; [injection E as <-; exists O; constructor|].
  destruct (search_period W v l) as [[l1|l1]| |] eqn:Ex; cbn [bind] in E; try discriminate E. destruct (IH l1 l' E) as (k & M).
  assert (D : {l_robot l1 = l_robot l} + {l_robot l1 <> l_robot l}) by (repeat decide equality).
  destruct D as [D|D]; [exists k; exact (makes_stay W v l l1 k l' Ex D M)|exists (S k); exact (makes_move W v l l1 k l' Ex D M)].
Qed.

Lemma makes_app {K : ops} W (v : search_setup) l k l1 : makes W v l k l1 -> forall k2 l2, makes W v l1 k2 l2 -> makes W v l (k + k2) l2.
Proof.
  intros M. induction M as [l|l l1 k l' E Eq M IH|l l1 k l' E Ne M IH]; intros k2 l2 M2; [exact M2| |].
  - exact (makes_stay W v l l1 _ l2 E Eq (IH k2 l2 M2)).
  - exact (makes_move W v l l1 _ l2 E Ne (IH k2 l2 M2)).
Qed.
Lemma makes_none {K : ops} W (v : search_setup) l k l' : makes W v l k l' -> k = O -> l_robot l' = l_robot l.
Proof.
  intros M. induction M as [l|l l1 k l' E Eq M IH|l l1 k l' E Ne M IH]; intros Z0; [reflexivity|rewrite (IH Z0); exact Eq|discriminate Z0].
Qed.
Lemma rounds_app {K : ops} W (v : search_setup) n m : forall l l1, search_rounds n W v l = Ret (inl l1) -> search_rounds (n + m) W v l = search_rounds m W v l1.
Proof.
  induction n as [|n IH]; intros l l1 E; cbn [search_rounds Nat.add] in *; [injection E as <-; reflexivity|].
  destruct (search_period W v l) as [[l2|l2]| |]; cbn [bind] in *; try discriminate E. exact (IH l2 l1 E).
Qed.
Lemma bounded_rests {K : ops} W (v : search_setup) b : forall l, (forall k l', makes W v l k l' -> (k <= b)%nat) ->
  exists N l1, search_rounds N W v l = Ret (inl l1) /\ forall n l2, search_rounds n W v l1 = Ret (inl l2) -> l_robot l2 = l_robot l1.
Proof.
  induction b as [|b IH]; intros l B.
  - exists O, l. split; [reflexivity|]. intros n l2 E. destruct (rounds_make W v n l l2 E) as (k & M). apply (makes_none W v l k l2 M). specialize (B k l2 M). lia.
  - destruct (classic (exists n l2, search_rounds n W v l = Ret (inl l2) /\ l_robot l2 <> l_robot l)) as [(n & l2 & E & Ne)|No].
    + destruct (rounds_make W v n l l2 E) as ([|k] & M); [now destruct (Ne (makes_none W v l O l2 M eq_refl))|].
      destruct (IH l2) as (N & l1 & E1 & H).
      { intros k2 l3 M2. specialize (B _ _ (makes_app W v l (S k) l2 M k2 l3 M2)). lia. }
      exists (n + N)%nat, l1. split; [rewrite (rounds_app W v n N l l2 E); exact E1|exact H].
    + exists O, l. split; [reflexivity|]. intros n l2 E. apply NNPP. intros Ne. apply No. now exists n, l2.
Qed.
