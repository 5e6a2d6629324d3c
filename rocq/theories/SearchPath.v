(** [bfs_tree] and [shortest_path]: legality, optimality, completeness, no panic. *)
From Coq Require Import ZArith List Bool Lia Arith.
From Verif Require Import Base SearchModel SearchSpec SearchCoord SearchBfs SearchBfsInv.
Import ListNotations.
Open Scope Z_scope.

Lemma chain_snoc R c l d : chain R c l -> R (last l c) d -> chain R c (l ++ [d]).
Proof.
  revert c. induction l as [|e l IH]; intros c Hl Hd; simpl in *; [auto|].
  destruct Hl as [He Hl]. split; [exact He|]. apply IH; [exact Hl|].
  destruct l; [exact Hd|]. rewrite last_cons in Hd. rewrite last_cons. exact Hd.
Qed.

Lemma last_snoc {A} (l : list A) d c : last (l ++ [d]) c = d.
Proof.
  revert c. induction l as [|e l IH]; intros c; [reflexivity|].
  change ((e :: l) ++ [d]) with (e :: (l ++ [d])). rewrite last_cons. apply IH.
Qed.

Section Path.
Variable W : Z.
Hypothesis HW : supported W.
Variable op : coord -> bool.
Variable start : coord.
Hypothesis Hstart : valid W start.
Variable goalf : filter.
Hypothesis Hgoalf : filter_ok goalf.
Variable is_wall : coord -> res bool.
Hypothesis Hwall : forall c, valid W c -> is_wall c = Ret (negb (op c)).

Notation isgoal := (isgoal W goalf).
Notation pv := (pv W).
Notation tree := (tree W op start).

Lemma que_bound : 2 * W * W <= QUE_MAX.
Proof. clear - HW. unfold QUE_MAX, WIDTH; pose proof (supported_bounds W HW); nia. Qed.

Definition bfs_found (prev : arr (option coord)) (g : coord) (D : coord -> nat) (disc : list coord) : Prop :=
  tree prev D disc /\ In g disc /\ isgoal g = true /\ g <> start /\
  (forall c, In c disc -> Z.of_nat (D c) < 2 * W * W) /\
  (forall g' l, isgoal g' = true -> g' <> start -> chain (run W op) start l ->
     last l start = g' -> (D g <= length l)%nat).

Lemma bfs_tree_ok :
  (bfs_tree W (Searcher start goalf) is_wall = Ret None /\
   forall g l, valid W g -> isgoal g = true -> g <> start ->
     ~ (chain (run W op) start l /\ last l start = g)) \/
  exists prev g D disc, bfs_tree W (Searcher start goalf) is_wall = Ret (Some (prev, g)) /\
    bfs_found prev g D disc.
Proof.
  unfold bfs_tree. cbn [s_start s_goals].
  rewrite vpush_ok by (unfold llen, QUE_MAX, WIDTH; simpl; lia). cbn [bind app].
  pose proof (as_index_que W start HW (proj1 Hstart)) as IBs.
  rewrite aset_ok by exact IBs. cbn [bind].
  pose proof (inv_init W HW op start Hstart goalf) as I0.
  destruct (bfs_while_ok W HW op start Hstart goalf Hgoalf is_wall Hwall BFS_FUEL _ _ _ I0)
    as [(exp & D & s & E & I & Q)|(exp & h & D & s & g & E & I & Pg & Vg & Gg & Rg)].
  { rewrite BFS_FUEL_val. unfold llen; simpl. pose proof que_bound. lia. }
  - left. split; [exact E|]. intros g l Vg Gg Ng [Hl El].
    assert (Hs : In start exp).
    { pose proof (i_start _ _ _ _ _ _ _ _ I) as Hs. now rewrite Q, !app_nil_r in Hs. }
    pose proof (inv_closed _ _ _ _ _ _ _ I Q l start Hs Hl) as Hg. rewrite El in Hg.
    rewrite (i_goal _ _ _ _ _ _ _ _ I g) in Gg; [discriminate| |exact Ng].
    apply in_or_app; now left.
  - right. exists (aupd (b_prev s) (as_index W g) (Some h)), g, (upd D g (S (D h))),
      (g :: exp ++ [h] ++ b_que s).
    split; [exact E|].
    assert (Ng : ~ In g (exp ++ [h] ++ b_que s)).
    { intros Hin. apply (i_disc _ _ _ _ _ _ _ _ I) in Hin; auto. }
    assert (Hh : In h (exp ++ [h] ++ b_que s)) by (rewrite !in_app_iff; simpl; auto).
    assert (Ds : forall c, In c (exp ++ [h] ++ b_que s) -> upd D g (S (D h)) c = D c).
    { intros c Hc. apply upd_other. intros ->; auto. }
    destruct (inv_tree _ _ _ _ _ _ _ _ I) as (T1 & T2 & T3 & T4 & T5).
    assert (Ngs : g <> start) by (intros ->; auto).
    assert (IB : forall c, on_board W c -> 0 <= as_index W c < QUE_MAX)
      by (intros; now apply as_index_que).
    assert (PV : forall c, valid W c -> pv (aupd (b_prev s) (as_index W g) (Some h)) c =
                 if coord_eqb c g then Some h else pv (b_prev s) c).
    { intros c Vc. unfold SearchBfsInv.pv. rewrite araw_upd by (apply IB; [apply Vg || apply Vc]).
      destruct (coord_eqb_spec c g) as [->|Hne]; [now rewrite Z.eqb_refl|].
      destruct (Z.eqb_spec (as_index W g) (as_index W c)) as [E'|E']; [|reflexivity].
      exfalso. apply Hne. symmetry. now apply (as_index_inj W). }
    assert (NDg : NoDup (g :: exp ++ [h] ++ b_que s)).
    { constructor; [exact Ng|apply (i_nd _ _ _ _ _ _ _ _ I)]. }
    assert (Vall : forall c, In c (g :: exp ++ [h] ++ b_que s) -> valid W c).
    { intros c [<-|Hc]; [exact Vg|now apply T3]. }
    assert (Len : llen (exp ++ [h]) < 2 * W * W).
    { pose proof (valid_nodup_bound W _ HW NDg) as B. rewrite Forall_forall in B.
      specialize (B Vall). unfold llen in *. simpl length in B.
      rewrite !app_length in B. rewrite app_length. simpl in *. lia. }
    repeat split.
    + exact T1.
    + right; exact T2.
    + apply (Vall c H).
    + apply (Vall c H).
    + apply (Vall c H).
    + apply (Vall c H).
    + apply (Vall c H).
    + rewrite Ds by exact T2. exact T4.
    + intros c [<-|Hc].
      * exists h. rewrite PV by exact Vg. rewrite coord_eqb_refl. split; [reflexivity|].
        intros _. split; [now right|]. split; [exact Rg|]. now rewrite upd_same, (Ds h Hh).
      * destruct (T5 c Hc) as (p & Ep & Hp). exists p. rewrite PV by now apply T3.
        destruct (coord_eqb_spec c g) as [->|_]; [contradiction|].
        split; [exact Ep|]. intros Hs. destruct (Hp Hs) as (A & B & C).
        split; [now right|]. split; [exact B|]. rewrite (Ds c Hc), (Ds p A). exact C.
    + now left.
    + exact Gg.
    + exact Ngs.
    + intros c [<-|Hc].
      * rewrite upd_same. pose proof (i_bcur _ _ _ _ _ _ _ _ I h (or_introl eq_refl)) as B.
        unfold llen in Len. rewrite app_length in Len. simpl in Len. lia.
      * rewrite (Ds c Hc). pose proof (i_bound _ _ _ _ _ _ _ _ I c Hc) as B.
        unfold llen in Len. lia.
    + intros g' l Gg' Ng' Hl El. rewrite upd_same.
      apply (inv_lower _ _ _ _ _ _ _ _ I g' l); auto.
Qed.

(** The route recorded by the [prev] array. *)
Inductive tpath (prev : arr (option coord)) : coord -> list coord -> Prop :=
| tp_start : tpath prev start []
| tp_step c p l : c <> start -> pv prev c = Some p -> tpath prev p l -> tpath prev c (l ++ [c]).

Lemma sp_while_ok prev D disc : tree prev D disc ->
  forall m cur path n, In cur disc -> D cur = m -> Z.of_nat m < Z.of_nat n ->
  llen path + Z.of_nat m < QUE_MAX ->
  exists q l, sp_while n W start prev cur path = Ret (path ++ q) /\ rev q = start :: l /\
    chain (run W op) start l /\ last l start = cur /\ length l = m /\ tpath prev cur l.
Proof.
  intros (T1 & T2 & T3 & T4 & T5). induction m as [|m IH]; intros cur path n Hc Dm Hn Hp.
  - destruct n as [|n]; [lia|]. cbn [sp_while].
    destruct (T5 cur Hc) as (p & Ep & Hpp).
    pose proof (as_index_que W cur HW (proj1 (T3 _ Hc))) as IBc.
    rewrite aget_ok by (rewrite T1; exact IBc). cbn [bind].
    change (araw prev (as_index W cur)) with (pv prev cur). rewrite Ep.
    rewrite vpush_ok by lia. cbn [bind].
    destruct (coord_eqb_spec cur start) as [->|Hne].
    + exists [start], []. repeat split; auto. constructor.
    + destruct (Hpp Hne) as (_ & _ & C). lia.
  - destruct n as [|n]; [lia|]. cbn [sp_while].
    destruct (T5 cur Hc) as (p & Ep & Hpp).
    pose proof (as_index_que W cur HW (proj1 (T3 _ Hc))) as IBc.
    rewrite aget_ok by (rewrite T1; exact IBc). cbn [bind].
    change (araw prev (as_index W cur)) with (pv prev cur). rewrite Ep.
    rewrite vpush_ok by lia. cbn [bind].
    destruct (coord_eqb_spec cur start) as [->|Hne]; [lia|].
    destruct (Hpp Hne) as (A & B & C).
    destruct (IH p (path ++ [cur]) n A ltac:(lia) ltac:(lia)) as (q & l & E & R & Hl & El & Ln & Tp).
    { rewrite llen_app. unfold llen at 2. simpl. lia. }
    exists (cur :: q), (l ++ [cur]). split; [rewrite E; now rewrite <- app_assoc|].
    split; [simpl; rewrite R; reflexivity|].
    split; [apply chain_snoc; [exact Hl|now rewrite El]|].
    split; [apply last_snoc|]. split; [rewrite app_length; simpl; lia|]. now apply (tp_step prev cur p).
Qed.

Lemma shortest_path_ok :
  (shortest_path W (Searcher start goalf) is_wall = Ret None /\
   forall g l, valid W g -> isgoal g = true -> g <> start -> ~ route W op start g l) \/
  exists g l, shortest_path W (Searcher start goalf) is_wall = Ret (Some (start :: l)) /\
    valid W g /\ isgoal g = true /\ g <> start /\ route W op start g l /\
    forall g' l', isgoal g' = true -> g' <> start -> route W op start g' l' ->
      (length l <= length l')%nat.
Proof.
  unfold shortest_path.
  destruct bfs_tree_ok as [[-> H]|(prev & g & D & disc & -> & T & Hg & Gg & Ng & B & Min)]; cbn [bind].
  - left. split; [reflexivity|]. exact H.
  - right. cbn [s_start].
    destruct (sp_while_ok prev D disc T (D g) g [] BFS_FUEL Hg eq_refl) as (q & l & E & R & Hl & El & Ln & _).
    { rewrite BFS_FUEL_val. specialize (B g Hg). pose proof que_bound. lia. }
    { specialize (B g Hg). pose proof que_bound. unfold llen; simpl. lia. }
    rewrite E. cbn [bind app]. rewrite R. exists g, l. split; [reflexivity|].
    split; [apply T, Hg|]. split; [exact Gg|]. split; [exact Ng|].
    split; [split; assumption|]. intros g' l' Gg' Ng' [Hl' El']. rewrite Ln. eapply Min; eauto.
Qed.

End Path.
