(** Geometry, counting and the invariant of the exploration loop. *)
From Coq Require Import ZArith List Bool Lia Arith ZifyBool.
From Verif Require Import Base SearchModel SearchSpec SearchCoord SearchMain SearchThm SearchThm2 SearchState
  SearchExt WallsModel WallsSpec WallsLemmas ExploreModel.
Import ListNotations.
Open Scope Z_scope.

(** ** Cells and moves *)

Definition rear_cell (s : search_state) : Z * Z := front_cell (SS (ss_coord s) (reverse (ss_posture s))).

Lemma is_coord_spec W c : is_coord W c = true <-> valid W c.
Proof. unfold is_coord, valid, on_board. destruct (Z.odd (cx c + cy c)); rewrite ?andb_true_r, ?andb_false_r; [lia|]. split; [discriminate|intros [_ H]; discriminate H]. Qed.

Ltac cases p := destruct p; cbn [reverse turn_right turn_left pvec crosses front_cell ss_coord ss_posture fst snd] in *.

Lemma touch_cases c p q : Z.odd (cx c + cy c) = true -> crosses c p -> touches c q ->
  q = front_cell (SS c p) \/ q = rear_cell (SS c p).
Proof.
  intros _ Cr T. unfold rear_cell, touches in *. cases p; rewrite Cr in T; tauto.
Qed.

Lemma front_touch c p : crosses c p -> touches c (front_cell (SS c p)) /\ touches c (rear_cell (SS c p)).
Proof. intros Cr. unfold rear_cell, touches. cases p; rewrite Cr; tauto. Qed.

Lemma adj_cell c p n : Z.odd (cx c + cy c) = true -> crosses c p -> adjacent c n ->
  touches n (front_cell (SS c p)) \/ touches n (rear_cell (SS c p)).
Proof.
  intros Oc Cr (v & Hv & ->). destruct (ahead_touches c v Oc Hv) as (T1 & T2 & _).
  destruct (touch_cases c p _ Oc Cr T1) as [E|E]; rewrite E in T2; auto.
Qed.

Lemma touch_walls W c q : valid W c -> touches c q -> In c (cell_walls W q).
Proof.
  intros V T. unfold cell_walls. destruct q as [i j]. apply filter_In. split; [|now apply is_coord_spec].
  destruct V as [_ O]. destruct c as [x y]. unfold touches in T. cbn [cx cy] in *. rewrite odd_mod in O.
  pose proof (Zmod_odd y) as My.
  destruct (Z.odd y); destruct T as [E|E]; injection E as -> ->; cbn [In].
  - right; left. f_equal; lia.
  - right; right; right; left. f_equal; lia.
  - left. f_equal; lia.
  - right; right; left. f_equal; lia.
Qed.

Lemma cell_walls_valid W q : Forall (valid W) (cell_walls W q).
Proof. apply Forall_forall. intros c H. unfold cell_walls in H. destruct q. apply filter_In in H. now apply is_coord_spec. Qed.

Lemma adj_sym c d : Z.odd (cx c + cy c) = true -> adjacent c d -> adjacent d c.
Proof.
  intros Oc (v & Hv & ->). rewrite odd_mod in Oc. destruct c as [x y]. unfold adjacent, dirs, straight_dirs, shift in *.
  cbn [cx cy] in *. pose proof (Zmod_odd y) as My.
  exists (- fst v, - snd v). cbn [fst snd].
  assert (E : Co x y = Co (x + 1 * fst v + 1 * - fst v) (y + 1 * snd v + 1 * - snd v)) by (f_equal; lia).
  split; [|exact E]. clear E.
  destruct Hv as [<-|[<-|[<-|[<-|Hv]]]]; cbn [fst snd]; try (cbn [In app]; tauto).
  apply in_or_app. right. destruct (Z.odd y) eqn:Oy.
  - destruct Hv as [<-|[<-|[]]]; cbn [fst snd].
    + replace (y + 1 * 2) with (y + 2 * 1) by lia. rewrite Z.odd_add_mul_2, Oy. cbn. tauto.
    + replace (y + 1 * -2) with (y + 2 * -1) by lia. rewrite Z.odd_add_mul_2, Oy. cbn. tauto.
  - destruct Hv as [<-|[<-|[]]]; cbn [fst snd]; replace (y + 1 * 0) with y by lia; rewrite Oy; cbn; tauto.
Qed.

(** after any move the cell that was ahead is behind *)
Lemma move_rear c p n k c' p' : Z.odd (cx c + cy c) = true -> crosses c p -> moves c p n k c' p' ->
  rear_cell (SS c' p') = front_cell (SS c p).
Proof.
  intros Oc Cr M. rewrite odd_mod in Oc. destruct c as [x y]. cbn [cx cy] in *.
  assert (Hy := Zmod_odd y). unfold rear_cell.
  destruct M as [E|E|E|q Hq E]; subst; unfold plus; cases p; cbn [cx cy] in *; rewrite Cr in Hy; try reflexivity; f_equal; lia.
Qed.

Lemma move_coord c p n k c' p' : moves c p n k c' p' -> (k = Back /\ c' = c /\ p' = reverse p) \/ (k <> Back /\ c' = n).
Proof. intros M. destruct M; [right|right|right|left]; repeat split; discriminate. Qed.

Lemma no_two_backs c p n c1 p1 c2 p2 : moves c p n Back c1 p1 -> ~ moves c (reverse p) n Back c2 p2.
Proof.
  intros M1 M2. inversion M1 as [| | |q Hq E]; subst. inversion M2 as [| | |q' Hq' E']; subst.
  match goal with c : coord |- _ => destruct c as [x y] end. unfold plus in *. injection E' as A B. cbn [In] in *.
  cases p; destruct Hq as [<-|[<-|[<-|[]]]], Hq' as [<-|[<-|[<-|[]]]]; cbn [pvec fst snd] in *; lia.
Qed.

(** ** Counting the unknown walls *)

Definition span (n : Z) : list Z := map Z.of_nat (seq 0 (Z.to_nat n)).
Lemma span_In n x : In x (span n) <-> 0 <= x < n.
Proof.
  unfold span. rewrite in_map_iff. split.
  - intros (k & <- & H). apply in_seq in H. lia.
  - intros H. exists (Z.to_nat x). split; [lia|]. apply in_seq. lia.
Qed.

Definition all_walls (W : Z) : list coord :=
  List.filter (is_coord W) (flat_map (fun x => map (Co x) (span (2 * W))) (span (2 * W))).
Lemma all_walls_In W c : In c (all_walls W) <-> valid W c.
Proof.
  unfold all_walls. rewrite filter_In, is_coord_spec. split; [tauto|]. intros V. split; [|exact V].
  apply in_flat_map. destruct V as [[Hx Hy] _]. exists (cx c). split; [now apply span_In|].
  apply in_map_iff. exists (cy c). split; [now destruct c|now apply span_In].
Qed.

Definition unknown (W : Z) (kn : coord -> bool) : nat :=
  length (List.filter (fun c => negb (kn c)) (all_walls W)).

Lemma unknown_le W (kn kn' : coord -> bool) : (forall c, kn c = true -> kn' c = true) ->
  (unknown W kn' <= unknown W kn)%nat /\
  (unknown W kn' = unknown W kn -> forall c, valid W c -> kn' c = kn c).
Proof.
  intros H. unfold unknown.
  assert (G : forall l, (length (List.filter (fun c => negb (kn' c)) l) <= length (List.filter (fun c => negb (kn c)) l))%nat /\
    (length (List.filter (fun c => negb (kn' c)) l) = length (List.filter (fun c => negb (kn c)) l) ->
     forall c, In c l -> kn' c = kn c)).
  { induction l as [|a l [I1 I2]]; cbn [List.filter]; [split; [lia|intros _ c []]|].
    specialize (H a). destruct (kn a) eqn:Ka, (kn' a) eqn:Ka'; cbn [negb length]; try (specialize (H eq_refl); discriminate).
    - split; [lia|]. intros E c [<-|Hc]; [congruence|now apply I2].
    - split; [lia|]. intros E. lia.
    - split; [lia|]. intros E c [<-|Hc]; [congruence|apply I2; [lia|exact Hc]]. }
  destruct (G (all_walls W)) as [G1 G2]. split; [exact G1|]. intros E c V. apply G2; [exact E|now apply all_walls_In].
Qed.

(** ** The map *)

Section Explore.
Variable W : Z.
Hypothesis HW : supported W.
Variable start : coord.
Hypothesis Hstart : valid W start.
Variable goals : list coord.
Hypothesis Hgoals : Forall (valid W) goals.
Variable se : searcher.
Hypothesis Hse : searcher_new W start goals = Ret se.
Variable wall : coord -> bool.

Definition open (c : coord) : bool := negb (wall c).
Definition st (kn : coord -> bool) (c : coord) : wall_state := if kn c then Checked (wall c) else Unchecked.
Definition ws (kn : coord -> bool) (c : coord) : wall_state := st kn (slot_wall c).
Definition learn (kn : coord -> bool) (l : list coord) (c : coord) : bool := kn c || existsb (coord_eqb c) l.

Lemma ws_valid kn c : valid W c -> ws kn c = st kn c.
Proof. intros V. unfold ws. now rewrite (slot_wall_valid W). Qed.

Lemma read kn w c : holds W w (st kn) -> on_board W c -> walls_state W w c = Ret (ws kn c).
Proof.
  intros [_ H] B. destruct (slot_wall_ok W c B) as [V E]. unfold ws. rewrite <- (H _ V).
  unfold walls_state. rewrite (proj2 (slot_index W c (slot_wall c) HW B (proj1 V))) by (now symmetry). reflexivity.
Qed.

Lemma ws_slotwise kn : slotwise W (ws kn).
Proof.
  intros a b Ba Bb E. unfold ws. f_equal. destruct (slot_wall_ok W a Ba) as [Va Ea], (slot_wall_ok W b Bb) as [Vb Eb].
  apply (slot_inj W); auto. congruence.
Qed.

Lemma ws_consistent kn : consistent W (ws kn) open.
Proof.
  intros d b V E. rewrite ws_valid in E by assumption. unfold st in E. destruct (kn d); [|discriminate].
  injection E as <-. reflexivity.
Qed.

Lemma reveal_ok l : Forall (valid W) l -> forall kn w, holds W w (st kn) ->
  exists w', reveal W wall w l = Ret w' /\ holds W w' (st (learn kn l)).
Proof.
  unfold reveal. induction l as [|c l IH]; intros F kn w H; cbn [map walls_updates].
  - exists w. split; [reflexivity|]. apply (holds_ext W w (st kn)); [|exact H].
    intros c _. unfold st, learn. cbn. now rewrite orb_false_r.
  - inversion_clear F as [|? ? Vc F']. destruct (holds_update W w (st kn) c (Checked (wall c)) HW Vc H) as (w1 & -> & H1). cbn [bind].
    assert (H2 : holds W w1 (st (learn kn [c]))).
    { apply (holds_ext W w1 _ _) with (2 := H1). intros d Vd. unfold setst, st, learn. cbn [existsb]. rewrite orb_false_r.
      destruct (coord_eqb_spec d c) as [->|]; [now rewrite orb_true_r|now rewrite orb_false_r]. }
    destruct (IH F' _ _ H2) as (w' & -> & H3). exists w'. split; [reflexivity|].
    apply (holds_ext W w' _ _) with (2 := H3). intros d _. unfold st, learn. cbn [existsb]. now rewrite orb_false_r, orb_assoc.
Qed.

Lemma learn_mono kn l c : kn c = true -> learn kn l c = true.
Proof. unfold learn. now intros ->. Qed.
Lemma learn_In kn l c : In c l -> learn kn l c = true.
Proof.
  intros H. unfold learn. apply orb_true_iff. right. apply existsb_exists. exists c. split; [exact H|].
  now destruct (coord_eqb_spec c c).
Qed.

Lemma reaches_mono (f g : coord -> bool) a b : (forall c, on_board W c -> f c = true -> g c = true) ->
  reaches (step W f) a b -> reaches (step W g) a b.
Proof.
  intros H (l & C & L). exists l. split; [|exact L]. clear L. revert a C.
  induction l as [|d l IH]; intros a C; [exact I|]. destruct C as [(A & B & O) C]. split; [|now apply IH].
  split; [exact A|]. split; [exact B|]. now apply H.
Qed.

(** ** The invariant *)

Record Inv (kn : coord -> bool) (w : walls) (s : search_state) : Prop := {
  i_map : holds W w (st kn);
  i_valid : valid W (ss_coord s);
  i_cross : crosses (ss_coord s) (ss_posture s);
  i_known : kn (ss_coord s) = true;
  i_open : wall (ss_coord s) = false;
  i_home : reaches (step W (known_open (ws kn))) (ss_coord s) start;
  i_rear : forall c, valid W c -> touches c (rear_cell s) -> kn c = true }.

Lemma odd_of c : valid W c -> Z.odd (cx c + cy c) = true. Proof. now intros [_ O]. Qed.

Lemma adjacent_valid c d : valid W c -> adjacent c d -> on_board W d -> valid W d.
Proof. intros V (v & Hv & ->) B. now apply dirs_shift_valid. Qed.

Lemma ko_known kn c : valid W c -> kn c = true -> wall c = false -> known_open (ws kn) c = true.
Proof. intros V K E. unfold known_open. rewrite ws_valid by assumption. unfold st. now rewrite K, E. Qed.

(** next_coordinate needs the states of the candidates only *)
Lemma next_spec_on wsr (f : coord -> wall_state) cs : (forall c, In c cs -> wsr c = Ret (f c)) ->
  match next_coordinate cs wsr with
  | Ret (NSome c) => exists pre post, cs = pre ++ c :: post /\ f c = Checked false /\
                       Forall (fun p => f p = Checked true) pre
  | Ret NNone => exists c, In c cs /\ f c = Unchecked
  | Ret NErr => Forall (fun p => f p = Checked true) cs
  | _ => False
  end.
Proof.
  induction cs as [|c cs IH]; intros H; cbn [next_coordinate]; [constructor|].
  rewrite (H c (or_introl eq_refl)). cbn [bind]. specialize (IH (fun d Hd => H d (or_intror Hd))).
  destruct (f c) as [|[|]] eqn:Ec.
  - exists c. split; [now left|exact Ec].
  - destruct (next_coordinate cs wsr) as [[| |n]| |]; try contradiction.
    + now constructor.
    + destruct IH as (d & Hd & E). exists d. split; [now right|exact E].
    + destruct IH as (pre & post & -> & E & F). exists (c :: pre), post. repeat split; auto.
  - exists [], cs. repeat split; auto.
Qed.

Lemma no_way : (forall d, step W open start d -> False) -> unreachable W open start goals.
Proof.
  intros H g l _ Hg [C L]. destruct l as [|d l]; [now apply Hg|]. destruct C as [(v & Hv & n & Hn & _ & O) _].
  destruct (O 1 ltac:(lia)) as [B T]. apply (H (shift start v 1)). split; [now exists v|]. auto.
Qed.

Lemma round_ok kn w s extra : Inv kn w s -> Forall (valid W) extra ->
  let kn' := learn kn (cell_walls W (front_cell s) ++ extra) in
  exists r, round W se wall extra w s = Ret r /\
  match r with
  | inr Found => search W se (ss_coord s) (walls_state W w) = Ret SNone
  | inr Failed => unreachable W open start goals
  | inr Stuck => False
  | inl (w', s') => Inv kn' w' s' /\
      exists f rest, search W se (ss_coord s) (walls_state W w) = Ret (SSome (f :: rest)) /\
        (unknown W kn' = unknown W kn -> kn f = true /\
           exists k, moves (ss_coord s) (ss_posture s) f k (ss_coord s') (ss_posture s'))
  end.
Proof.
  intros [Hm Vc Cr Kc Oc Hh Hr] Fe. cbv zeta. set (c := ss_coord s) in *.
  assert (Fl : Forall (valid W) (cell_walls W (front_cell s) ++ extra)) by (apply Forall_app; split; [apply cell_walls_valid|exact Fe]).
  assert (Rd := fun d => read kn w d Hm).
  unfold round. fold c.
  destruct (search_total W HW start Hstart goals Hgoals se Hse (walls_state W w) (ws kn) Rd c Vc) as (r & E & _).
  rewrite E. cbn [bind]. destruct r as [| |cs].
  - eexists. split; [reflexivity|]. intros g l G1 G2 G3.
    apply (search_not_err W HW start Hstart goals Hgoals se Hse (walls_state W w) (ws kn) Rd c Vc open) in E; auto.
    + apply ws_slotwise.
    + apply ws_consistent.
    + eauto.
    + rewrite ws_valid by assumption. unfold st. rewrite Kc. discriminate.
    + apply reaches_mono with (2 := Hh). intros d _. unfold known_open, maybe_open. destruct (ws kn d) as [|[|]]; congruence.
  - eexists. split; [reflexivity|]. reflexivity.
  - destruct (reveal_ok _ Fl kn w Hm) as (w' & -> & Hm'). cbn [bind].
    set (kn' := learn kn (cell_walls W (front_cell s) ++ extra)) in *.
    assert (Mo : forall d, kn d = true -> kn' d = true) by (intros d; apply learn_mono).
    destruct (search_candidates W HW start Hstart goals Hgoals se Hse (walls_state W w) (ws kn) Rd c Vc cs E) as (Nd & Hin & _).
    assert (Sv : forall d, In d cs -> valid W d).
    { intros d Hd. apply Hin in Hd. destruct Hd as (A & B & _). now apply (adjacent_valid c). }
    assert (Sk : forall d, valid W d -> adjacent c d -> kn' d = true).
    { intros d Vd A. destruct (adj_cell c (ss_posture s) d (odd_of c Vc) Cr A) as [T|T].
      - apply learn_In, in_or_app. left. apply touch_walls; [exact Vd|]. replace s with (SS c (ss_posture s)) by (unfold c; now destruct s). exact T.
      - apply Mo, Hr; [exact Vd|]. replace s with (SS c (ss_posture s)) by (unfold c; now destruct s). exact T. }
    assert (Rd' : forall d, In d cs -> walls_state W w' d = Ret (Checked (wall d))).
    { intros d Hd. rewrite (proj2 Hm' d (Sv d Hd)). unfold st. rewrite Sk; [reflexivity|now apply Sv|]. now apply Hin. }
    pose proof (next_spec_on (walls_state W w') (fun d => Checked (wall d)) cs Rd') as N.
    destruct (next_coordinate cs (walls_state W w')) as [[| |n]| |]; try contradiction; cbn [bind].
    + (* every candidate turned out to be a wall *)
      eexists. split; [reflexivity|]. rewrite Forall_forall in N.
      assert (Cl : forall d, step W open c d -> False).
      { intros d (A & B & O). assert (Vd : valid W d) by (now apply (adjacent_valid c)).
        assert (In d cs).
        { apply Hin. split; [exact A|]. split; [exact B|]. unfold maybe_open. rewrite ws_valid by assumption. unfold st.
          unfold open in O. destruct (kn d); [|reflexivity]. destruct (wall d); [discriminate|reflexivity]. }
        specialize (N d H). injection N as N. unfold open in O. rewrite N in O. discriminate. }
      destruct Hh as ([|d l] & C & L).
      * cbn in L. apply no_way. rewrite <- L. exact Cl.
      * exfalso. destruct C as [(A & B & O) _]. apply (Cl d). split; [exact A|]. split; [exact B|].
        apply (consistent_ko W (ws kn) open d (ws_consistent kn)); [now apply (adjacent_valid c)|exact O].
    + destruct N as (d & _ & N). discriminate.
    + destruct N as (pre & post & Ecs & On & Fp). injection On as On.
      assert (Hn : In n cs) by (rewrite Ecs; apply in_or_app; right; now left).
      assert (Vn := Sv n Hn). assert (An : adjacent c n) by (now apply Hin).
      destruct (ss_update_ok W s n HW Vc Vn Cr) as [(_ & k & c' & p' & Eu & M & V' & C')|[NA _]]; [|contradiction].
      rewrite Eu. cbn [bind]. eexists. split; [reflexivity|]. split.
      * assert (Hc' : c' = c \/ c' = n) by (destruct (move_coord _ _ _ _ _ _ M) as [(_ & -> & _)|(_ & ->)]; auto).
        assert (Hh' : reaches (step W (known_open (ws kn'))) c start).
        { apply reaches_mono with (2 := Hh). intros d B. unfold known_open, ws, st.
          destruct (kn (slot_wall d)) eqn:Kd; [now rewrite (Mo _ Kd)|discriminate]. }
        split; cbn [ss_coord ss_posture]; auto.
        -- destruct Hc' as [->| ->]; [now apply Mo|now apply Sk].
        -- destruct Hc' as [->| ->]; [exact Oc|exact On].
        -- destruct Hc' as [->| ->]; [exact Hh'|]. eapply reaches_trans; [|exact Hh']. apply reaches_one.
           split; [apply adj_sym; [now apply odd_of|exact An]|]. split; [apply Vc|]. apply ko_known; auto.
        -- intros d Vd T. rewrite (move_rear c (ss_posture s) n k c' p' (odd_of c Vc) Cr M) in T.
           apply learn_In, in_or_app. left. apply touch_walls; [exact Vd|].
           replace s with (SS c (ss_posture s)) by (unfold c; now destruct s). exact T.
      * destruct cs as [|f rest]; [destruct Hn|]. exists f, rest. split; [reflexivity|]. intros Eq.
        assert (Kf : kn f = true).
        { rewrite <- (proj2 (unknown_le W kn kn' Mo) Eq f (Sv f (or_introl eq_refl))).
          apply Sk; [apply Sv; now left|]. apply Hin. now left. }
        split; [exact Kf|].
        assert (Ef : n = f).
        { destruct pre as [|g pre]; [now injection Ecs|]. exfalso. injection Ecs as <- _.
          inversion_clear Fp as [|? ? Wf _]. injection Wf as Wf.
          assert (Hf : step W (maybe_open (ws kn)) c f) by (apply Hin; now left). destruct Hf as (_ & _ & Of).
          unfold maybe_open in Of. rewrite ws_valid in Of by (apply Sv; now left). unfold st in Of. rewrite Kf, Wf in Of. discriminate. }
        subst n. exists k. exact M.
Qed.

(** ** Termination *)

Lemma slot_wall_eq a b : slot a = slot b -> slot_wall a = slot_wall b.
Proof.
  unfold slot, slot_wall. intros E. injection E as E1 E2 E3. rewrite E1, E3.
  pose proof (Zmod_odd (cy a)) as Ma. pose proof (Zmod_odd (cy b)) as Mb. rewrite E3 in Ma.
  replace (cy a) with (cy b); [reflexivity|].
  rewrite (Z.div_mod (cy a) 2), (Z.div_mod (cy b) 2) by lia. rewrite E2, Ma, Mb. reflexivity.
Qed.

Lemma ws_ext kn kn' c : (forall d, valid W d -> kn' d = kn d) -> on_board W c -> ws kn' c = ws kn c.
Proof. intros H B. unfold ws, st. now rewrite (H _ (proj1 (slot_wall_ok W c B))). Qed.

Lemma Inv_ext kn kn' w s : (forall d, valid W d -> kn' d = kn d) -> Inv kn' w s -> Inv kn w s.
Proof.
  intros H [A1 A2 A3 A4 A5 A6 A7]. split; auto.
  - apply (holds_ext W w (st kn')); [|exact A1]. intros c V. unfold st. now rewrite (H c V).
  - now rewrite <- (H _ A2).
  - apply reaches_mono with (2 := A6). intros c B. unfold known_open. now rewrite (ws_ext kn kn' c H B).
  - intros c V T. rewrite <- (H c V). now apply A7.
Qed.

Definition path_of kn l : Prop :=
  shortest_path W se (fun c => let* s := cut W (ws kn) c in Ret (is_checked_true s)) = Ret (Some (start :: l)).

Definition near (k : nat) kn (c : coord) : Prop :=
  exists l d m, path_of kn l /\ wanted W (ws kn) start l d /\ d <> c /\
    chain (step W (maybe_open (ws kn))) c m /\ last m c = d /\ (length m <= k)%nat.

Definition ends w s : Prop :=
  forall extra, (forall i, Forall (valid W) (extra i)) ->
  exists n o w' s' kn', explore n W se wall extra w s = Ret (o, w', s') /\ Inv kn' w' s' /\
    match o with
    | Found => search W se (ss_coord s') (walls_state W w') = Ret SNone
    | Failed => unreachable W open start goals
    | Stuck => False
    end.

Lemma ends_step kn w s : Inv kn w s ->
  (forall kn' w' s', (forall c, kn c = true -> kn' c = true) -> Inv kn' w' s' ->
     (exists f rest, search W se (ss_coord s) (walls_state W w) = Ret (SSome (f :: rest)) /\
        (unknown W kn' = unknown W kn -> kn f = true /\
           exists k, moves (ss_coord s) (ss_posture s) f k (ss_coord s') (ss_posture s'))) ->
     ends w' s') ->
  ends w s.
Proof.
  intros I H extra Fe. destruct (round_ok kn w s (extra O) I (Fe O)) as (r & E & P).
  destruct r as [[w' s']|o].
  - destruct P as [I' P].
    assert (Mo : forall c, kn c = true -> learn kn (cell_walls W (front_cell s) ++ extra O) c = true) by (intros c; apply learn_mono).
    destruct (H _ w' s' Mo I' P (fun i => extra (S i)) (fun i => Fe (S i)))
      as (n & o & w2 & s2 & kn2 & X & I2 & P2).
    exists (S n), o, w2, s2, kn2. cbn [explore]. rewrite E. cbn [bind]. auto.
  - exists 1%nat, o, w, s, kn. cbn [explore]. rewrite E. cbn [bind]. split; [reflexivity|]. split; [exact I|exact P].
Qed.

Lemma ends_near u : (forall kn w s, (unknown W kn < u)%nat -> Inv kn w s -> ends w s) ->
  forall k kn w s, unknown W kn = u -> Inv kn w s -> near k kn (ss_coord s) -> ends w s.
Proof.
  intros IHu. induction k as [|k IHk]; intros kn w s U I N.
  { exfalso. destruct N as (l & d & [|] & _ & _ & Hd & _ & L & Len); cbn [length] in Len; [|lia]. cbn in L. congruence. }
  pose proof (fun d => read kn w d (i_map _ _ _ I)) as Rd.
  apply (ends_step kn); [exact I|]. intros kn' w' s' Mo I' (f & rest & E & P).
  destruct (unknown_le W kn kn' Mo) as [Le Eq].
  destruct (Nat.eq_dec (unknown W kn') (unknown W kn)) as [U'|U']; [|apply (IHu kn'); [lia|exact I']].
  specialize (Eq U'). destruct (P U') as (Kf & mk & M). clear P.
  apply (Inv_ext _ _ _ _ Eq) in I'.
  (* the chain goes on from f *)
  assert (Nf : near k kn f).
  { destruct (search_nearest W HW start Hstart goals Hgoals se Hse (walls_state W w) (ws kn) Rd (ss_coord s) (i_valid _ _ _ I) _ E)
      as (l' & f' & rest' & m' & d' & O' & _ & Ecs & _ & C' & L' & Wd' & Nd' & Min).
    injection Ecs as <- <-. destruct N as (l & d & m & Pl & Wd & Nd & C & L & Len).
    unfold optimistic in O'. rewrite (path_cut W HW start Hstart goals Hgoals se Hse _ (ws kn) is_checked_true Rd), Pl in O'.
    injection O' as <-. specialize (Min d m Wd Nd C L). cbn [length] in Min.
    destruct C' as [_ C']. exists l, d', m'. split; [exact Pl|]. split; [exact Wd'|].
    assert (Df : d' <> f).
    { intros ->. destruct Wd' as (Vf & e & _ & Ue & Se). unfold ws in Ue. rewrite (slot_wall_eq _ _ Se), (slot_wall_valid W f Vf) in Ue.
      unfold st in Ue. rewrite Kf in Ue. discriminate. }
    split; [exact Df|]. split; [exact C'|]. split; [|lia].
    destruct m' as [|a m']; [cbn in L'; congruence|]. rewrite <- L'. clear. revert a. induction m' as [|b m' IH]; intros a; [reflexivity|].
    change (last (b :: m') f = last (f :: b :: m') (ss_coord s)). rewrite IH. reflexivity. }
  destruct (move_coord _ _ _ _ _ _ M) as [(-> & Ec & Ep)|(_ & Ec)].
  2:{ apply (IHk kn); auto. now rewrite Ec. }
  (* turned back: the next round enters f or learns something *)
  pose proof (fun d => read kn w' d (i_map _ _ _ I')) as Rd'.
  apply (ends_step kn); [exact I'|]. intros kn2 w2 s2 Mo2 I2 (f2 & rest2 & E2 & P2).
  destruct (unknown_le W kn kn2 Mo2) as [Le2 Eq2].
  destruct (Nat.eq_dec (unknown W kn2) (unknown W kn)) as [U2|U2]; [|apply (IHu kn2); [lia|exact I2]].
  specialize (Eq2 U2). destruct (P2 U2) as (_ & mk2 & M2). apply (Inv_ext _ _ _ _ Eq2) in I2.
  assert (f2 = f) as ->.
  { rewrite Ec, (search_cut W HW start Hstart goals Hgoals se Hse _ (ws kn) (ss_coord s) (i_valid _ _ _ I) Rd'),
      <- (search_cut W HW start Hstart goals Hgoals se Hse _ (ws kn) (ss_coord s) (i_valid _ _ _ I) Rd) in E2.
    rewrite E in E2. now injection E2. }
  rewrite Ec, Ep in M2. destruct (move_coord _ _ _ _ _ _ M2) as [(-> & _)|(_ & Ec2)].
  - exfalso. exact (no_two_backs _ _ _ _ _ _ _ M M2).
  - apply (IHk kn); auto. now rewrite Ec2.
Qed.

Lemma ends_all u : forall kn w s, (unknown W kn < u)%nat -> Inv kn w s -> ends w s.
Proof.
  induction u as [|u IH]; intros kn w s U I; [lia|].
  pose proof (fun d => read kn w d (i_map _ _ _ I)) as Rd.
  destruct (search_total W HW start Hstart goals Hgoals se Hse (walls_state W w) (ws kn) Rd (ss_coord s) (i_valid _ _ _ I)) as (r & E & _).
  destruct r as [| |cs].
  1,2: apply (ends_step kn); [exact I|]; intros kn' w' s' _ _ (f & rest & E' & _); congruence.
  destruct (search_nearest W HW start Hstart goals Hgoals se Hse (walls_state W w) (ws kn) Rd (ss_coord s) (i_valid _ _ _ I) _ E)
    as (l & f & rest & m & d & O & _ & _ & _ & C & L & Wd & Nd & _).
  apply (ends_near (unknown W kn)) with (k := length (f :: m)) (kn := kn); auto.
  - intros kn' w' s' U'. apply IH. lia.
  - exists l, d, (f :: m). unfold optimistic in O.
    rewrite (path_cut W HW start Hstart goals Hgoals se Hse _ (ws kn) is_checked_true Rd) in O.
    split; [exact O|]. auto 6.
Qed.

End Explore.

(** ** From a fresh map *)

Definition first_state : search_state := SS (Co 0 1) North.
Definition kn0 (W : Z) (c : coord) : bool := match fresh W c with Checked _ => true | Unchecked => false end.

Lemma first_valid W : supported W -> valid W (Co 0 1).
Proof. intros HW. pose proof (supported_bounds W HW) as HB. split; [split; cbn [cx cy]; lia|reflexivity]. Qed.

Lemma first_inv W wall w0 : supported W -> (forall c b, valid W c -> fresh W c = Checked b -> wall c = b) -> walls_new W = Ret w0 ->
  Inv W (Co 0 1) wall (kn0 W) w0 first_state.
Proof.
  intros HW Hf Hw0. pose proof (supported_bounds W HW) as HB. pose proof (first_valid W HW) as Hs.
  split; try exact Hs; try reflexivity.
    - destruct (walls_new_ok W HW) as (w & E & H). rewrite Hw0 in E. injection E as <-.
      apply (holds_ext W w0 (fresh W)); [|exact H]. intros c V. unfold st, kn0. destruct (fresh W c) as [|b] eqn:Ef; [reflexivity|].
      now rewrite (Hf c b V Ef).
    - cbn [ss_coord first_state]. apply Hf; [exact Hs|reflexivity].
    - exists []. split; [exact I|reflexivity].
    - intros [x y] [B O] T. rewrite odd_mod in O. unfold rear_cell, first_state, touches in T. cbn in T.
      unfold on_board in B. cbn [cx cy] in *. pose proof (Zmod_odd y) as My.
      assert ((x = 0 /\ y = 1) \/ (x = 1 /\ y = 0)) as [[-> ->]|[-> ->]]; [|reflexivity|unfold kn0, fresh; now cbn].
      destruct (Z.odd y); destruct T as [E|E]; injection E as E1 E2; lia.
Qed.

Lemma explore_ok W goals wall se w0 extra :
  supported W -> Forall (valid W) goals ->
  (forall c b, valid W c -> fresh W c = Checked b -> wall c = b) ->
  searcher_new W (Co 0 1) goals = Ret se -> walls_new W = Ret w0 ->
  (forall i, Forall (valid W) (extra i)) ->
  exists n o w s, explore n W se wall extra w0 first_state = Ret (o, w, s) /\
    (forall c, valid W c -> walls_state W w c = Ret Unchecked \/ walls_state W w c = Ret (Checked (wall c))) /\
    ((o = Found /\ exists l,
        shortest_path W se (fun c => let* t := walls_state W w c in Ret (negb (is_checked_false t)))
          = Ret (Some (Co 0 1 :: l)) /\
        best_route W (fun c => negb (wall c)) (Co 0 1) goals l)
     \/ (o = Failed /\ unreachable W (fun c => negb (wall c)) (Co 0 1) goals)).
Proof.
  intros HW Hg Hf Hse Hw0 Fe. pose proof (first_valid W HW) as Hs.
  assert (I0 := first_inv W wall w0 HW Hf Hw0).
  destruct (ends_all W HW (Co 0 1) Hs goals Hg se Hse wall _ _ _ _ (Nat.lt_succ_diag_r _) I0 extra Fe)
    as (n & o & w & s & kn & E & I & P).
  exists n, o, w, s. split; [exact E|].
  pose proof (fun d => read W HW wall kn w d (i_map _ _ _ _ _ _ I)) as Rd.
  split.
  { intros c V. rewrite Rd by apply V. rewrite (ws_valid W) by assumption. unfold st. destruct (kn c); auto. }
  destruct o; [left|right|contradiction].
  - split; [reflexivity|].
    destruct (search_done W HW (Co 0 1) Hs goals Hg se Hse (walls_state W w) (ws wall kn) Rd (ss_coord s) (i_valid _ _ _ _ _ _ I) P)
      as (l & _ & (l' & E' & B' & Len) & Bt).
    exists l'. split; [exact E'|]. specialize (Bt _ (ws_consistent W wall kn)). destruct Bt as [_ Bt].
    destruct B' as [(g & G1 & G2 & G3 & G4) _]. split.
    + exists g. split; [exact G1|]. split; [exact G2|].
      apply (route_mono W (known_open (ws wall kn))); [exact Hs| |now split].
      intros x Vx. apply (consistent_ko W _ _ x (ws_consistent W wall kn) Vx).
    + intros g' l2 H1 H2 H3. rewrite Len. exact (Bt g' l2 H1 H2 H3).
  - auto.
Qed.
