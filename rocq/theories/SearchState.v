(** [SearchState] and [Commander] lemmas (C22, C24). *)
From Coq Require Import ZArith List Bool Lia Arith ZifyBool.
From Verif Require Import Base SearchModel SearchSpec SearchCoord SearchBfs.
Import ListNotations.
Open Scope Z_scope.
Ltac Zify.zify_post_hook ::= Z.div_mod_to_equations.

Lemma pat_true a b x y : pat a b x y = true <-> x = a /\ y = b.
Proof. unfold pat. lia. Qed.

Lemma next_spec ws wsr : (forall c, wsr c = Ret (ws c)) -> forall cs,
  match next_coordinate cs wsr with
  | Ret (NSome c) => exists pre post, cs = pre ++ c :: post /\ ws c = Checked false /\
                       Forall (fun p => ws p = Checked true) pre
  | Ret NNone => exists pre c post, cs = pre ++ c :: post /\ ws c = Unchecked /\
                       Forall (fun p => ws p = Checked true) pre
  | Ret NErr => Forall (fun p => ws p = Checked true) cs
  | _ => False
  end.
Proof.
  intros Hw. induction cs as [|c cs IH]; cbn [next_coordinate]; [constructor|].
  rewrite Hw. cbn [bind]. destruct (ws c) as [|[]] eqn:E.
  - exists [], c, cs. auto.
  - destruct (next_coordinate cs wsr) as [[| |c']| |]; auto.
    + destruct IH as (pre & d & post & -> & ? & ?). exists (c :: pre), d, post. auto.
    + destruct IH as (pre & post & -> & ? & ?). exists (c :: pre), post. auto.
  - exists [], cs. auto.
Qed.

Lemma force_spec ws wsr : (forall c, wsr c = Ret (ws c)) -> forall cs,
  match force_next_coordinate cs wsr with
  | Ret (Some c) => exists pre post, cs = pre ++ c :: post /\ ws c = Checked false /\
                       Forall (fun p => ws p <> Checked false) pre
  | Ret None => Forall (fun p => ws p <> Checked false) cs
  | _ => False
  end.
Proof.
  intros Hw. induction cs as [|c cs IH]; cbn [force_next_coordinate]; [constructor|].
  rewrite Hw. cbn [bind]. destruct (ws c) as [|[]] eqn:E; cbn [is_checked_false].
  1,2: destruct (force_next_coordinate cs wsr) as [[c'|]| |]; auto;
       [destruct IH as (pre & post & -> & ? & ?); exists (c :: pre), post; split; [reflexivity|];
        split; [assumption|constructor; [congruence|assumption]]
       |constructor; [congruence|assumption]].
  exists [], cs. auto.
Qed.

Lemma ss_new_spec c p : ss_new c p = Some (SS c p) /\ crosses c p \/ ss_new c p = None /\ ~ crosses c p.
Proof.
  unfold ss_new, crosses. rewrite is_top_odd. destruct (Z.odd (cy c)), p; auto; right; split; auto; discriminate.
Qed.

Ltac dp := repeat match goal with
  | |- context [pat ?a ?b ?x ?y] => let E := fresh "P" in destruct (pat a b x y) eqn:E
  end.

Lemma ss_update_ok W s n : supported W -> valid W (ss_coord s) -> valid W n ->
  crosses (ss_coord s) (ss_posture s) ->
  (adjacent (ss_coord s) n /\ exists k c' p', ss_update s n = Ret (SS c' p', Some k) /\
      moves (ss_coord s) (ss_posture s) n k c' p' /\ valid W c' /\ crosses c' p') \/
  (~ adjacent (ss_coord s) n /\ ss_update s n = Ret (s, None)).
Proof.
  intros HW Vc Vn Cr. destruct s as [c p]; cbn [ss_coord ss_posture] in *.
  assert (R : -128 <= cx n - cx c <= 127 /\ -128 <= cy n - cy c <= 127 /\
     as_i8 (cx n) = cx n /\ as_i8 (cx c) = cx c /\ as_i8 (cy n) = cy n /\ as_i8 (cy c) = cy c).
  { destruct Vc as [Bc _], Vn as [Bn _]. unfold on_board in *.
    repeat split; try (apply as_i8_small); destruct_supported HW; lia. }
  destruct R as (R1 & R2 & E1 & E2 & E3 & E4).
  unfold ss_update. cbn [ss_coord ss_posture]. rewrite E1, E2, E3, E4, !chk_i8_ok by lia. cbn [bind].
  rewrite is_top_odd. remember (cx n - cx c) as dx. remember (cy n - cy c) as dy.
  assert (En : n = Co (cx c + dx) (cy c + dy)) by (destruct n; simpl in *; f_equal; lia).
  assert (Adj : adjacent c n <-> exists v, In v (dirs c) /\ v = (dx, dy)).
  { unfold adjacent. split; intros (v & Hv & E).
    - exists v. split; [exact Hv|]. rewrite E in En. unfold shift in En. destruct v as [a b]; simpl in En.
      injection En as F1 F2. f_equal; lia.
    - exists v. split; [exact Hv|]. subst v. rewrite En. unfold shift; simpl. f_equal; lia. }
  unfold crosses in Cr. unfold dirs, straight_dirs in Adj.
  assert (Cn : forall q, (match q with North | South => Z.odd (cy c + dy) = true | _ => Z.odd (cy c + dy) = false end) -> crosses n q).
  { intros q Hq. unfold crosses. rewrite En. exact Hq. }
  clear E1 E2 E3 E4 R1 R2 Heqdx Heqdy.
  assert (Dec : (exists v, In v (dirs c) /\ v = (dx, dy)) \/ ~ (exists v, In v (dirs c) /\ v = (dx, dy))).
  { destruct (in_dec (fun a b : Z * Z => ltac:(decide equality; apply Z.eq_dec)) (dx, dy) (dirs c)) as [H|H].
    - left. eauto.
    - right. intros (v & Hv & ->). auto. }
  unfold dirs, straight_dirs in Dec.
  destruct Dec as [Dec|Dec].
  - left. split; [now apply Adj|]. clear Adj. destruct Dec as (v & Hv & Ev).
    destruct p; rewrite Cr in *; cbn [app] in Hv;
    destruct Hv as [Hv|[Hv|[Hv|[Hv|[Hv|[Hv|[]]]]]]]; rewrite <- Hv in Ev; injection Ev as <- <-;
    eexists _, _, _; (split; [reflexivity|]);
    (split; [|split; [assumption|]]);
    first [exact Cr
          |apply Cn; rewrite ?odd_mod, ?odd_mod_false in *; lia
          |apply mv_front; rewrite En; unfold plus; simpl; f_equal; lia
          |apply mv_right; rewrite En; unfold plus; simpl; f_equal; lia
          |apply mv_left; rewrite En; unfold plus; simpl; f_equal; lia
          |apply (mv_back c North n South); [simpl; tauto|rewrite En; unfold plus; simpl; f_equal; lia]
          |apply (mv_back c North n East); [simpl; tauto|rewrite En; unfold plus; simpl; f_equal; lia]
          |apply (mv_back c North n West); [simpl; tauto|rewrite En; unfold plus; simpl; f_equal; lia]
          |apply (mv_back c South n North); [simpl; tauto|rewrite En; unfold plus; simpl; f_equal; lia]
          |apply (mv_back c South n East); [simpl; tauto|rewrite En; unfold plus; simpl; f_equal; lia]
          |apply (mv_back c South n West); [simpl; tauto|rewrite En; unfold plus; simpl; f_equal; lia]
          |apply (mv_back c East n South); [simpl; tauto|rewrite En; unfold plus; simpl; f_equal; lia]
          |apply (mv_back c East n North); [simpl; tauto|rewrite En; unfold plus; simpl; f_equal; lia]
          |apply (mv_back c East n West); [simpl; tauto|rewrite En; unfold plus; simpl; f_equal; lia]
          |apply (mv_back c West n North); [simpl; tauto|rewrite En; unfold plus; simpl; f_equal; lia]
          |apply (mv_back c West n East); [simpl; tauto|rewrite En; unfold plus; simpl; f_equal; lia]
          |apply (mv_back c West n South); [simpl; tauto|rewrite En; unfold plus; simpl; f_equal; lia]].
  - right. split; [now rewrite Adj|]. clear Adj.
    assert (Pf : forall a b, In (a, b) (dirs c) -> pat a b dx dy = false).
    { intros a b H. destruct (pat a b dx dy) eqn:E; [|reflexivity]. apply pat_true in E as [-> ->].
      exfalso. apply Dec. exists (a, b). auto. }
    unfold dirs, straight_dirs in Pf.
    destruct p; rewrite Cr in *; cbn [app] in Pf;
    rewrite !Pf by (simpl; tauto); reflexivity.
Qed.

(** Any sequence of updates. *)
Fixpoint ss_updates (s : search_state) (ns : list coord) : res search_state :=
  match ns with
  | [] => Ret s
  | n :: ns' => let* r := ss_update s n in ss_updates (fst r) ns'
  end.

Lemma ss_updates_ok W : supported W -> forall ns s, Forall (valid W) ns ->
  valid W (ss_coord s) -> crosses (ss_coord s) (ss_posture s) ->
  exists s', ss_updates s ns = Ret s' /\ valid W (ss_coord s') /\ crosses (ss_coord s') (ss_posture s').
Proof.
  intros HW. induction ns as [|n ns IH]; intros s F V C; cbn [ss_updates]; [eauto|].
  inversion_clear F as [|? ? Vn F'].
  destruct (ss_update_ok W s n HW V Vn C) as [(_ & k & c' & p' & E & _ & V' & C')|[_ E]];
    rewrite E; cbn [bind fst]; apply IH; auto.
Qed.

Lemma search_state_ok W : supported W ->
  (forall c p, valid W c ->
     (ss_new c p = Some (SS c p) /\ crosses c p) \/ (ss_new c p = None /\ ~ crosses c p)) /\
  (forall s n, valid W (ss_coord s) -> valid W n -> crosses (ss_coord s) (ss_posture s) ->
     (adjacent (ss_coord s) n /\ exists k c' p', ss_update s n = Ret (SS c' p', Some k) /\
        moves (ss_coord s) (ss_posture s) n k c' p' /\ valid W c' /\ crosses c' p') \/
     (~ adjacent (ss_coord s) n /\ ss_update s n = Ret (s, None))) /\
  (forall c p s ns, valid W c -> ss_new c p = Some s -> Forall (valid W) ns ->
     exists s', ss_updates s ns = Ret s' /\ valid W (ss_coord s') /\ crosses (ss_coord s') (ss_posture s')).
Proof.
  intros HW. split; [|split].
  - intros c p _. apply ss_new_spec.
  - intros s n. now apply ss_update_ok.
  - intros c p s ns Vc Es F. destruct (ss_new_spec c p) as [[E C]|[E _]]; rewrite E in Es; [|discriminate].
    injection Es as <-. now apply (ss_updates_ok W).
Qed.
