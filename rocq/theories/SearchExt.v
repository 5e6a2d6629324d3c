(** [search] and [shortest_path] depend on the wall states they are given only through the
    values on the board.  Proved through monotonicity: replacing panics of the callback by
    answers keeps every result. *)
From Coq Require Import ZArith List Bool Lia.
From Verif Require Import Base SearchModel SearchSpec SearchCoord SearchMain SearchThm SearchThm2.
Import ListNotations.
Open Scope Z_scope.

Definition le {A} (x y : res A) : Prop := x = Panic \/ x = y.

Lemma le_refl {A} (x : res A) : le x x. Proof. now right. Qed.

Lemma le_bind {A B} (x y : res A) (k k' : A -> res B) : le x y -> (forall a, le (k a) (k' a)) ->
  le (bind x k) (bind y k').
Proof.
  intros [-> | ->] H; [now left|]. destruct y as [a| |]; cbn [bind]; [apply H|now left|now right].
Qed.

Ltac mono := repeat first
  [ apply le_refl | assumption
  | apply le_bind; [|intros ?]
  | match goal with |- le (if ?b then _ else _) (if ?b then _ else _) => destruct b end
  | match goal with |- le (match ?x with _ => _ end) (match ?x with _ => _ end) => destruct x end
  | solve [auto] ].

Section Mono.
Variables (W : Z) (se : searcher).

Lemma ext_seq_mono (o o' : coord -> res bool) : (forall c, le (o c) (o' c)) ->
  forall n ex c ax ay k i acc, le (ext_seq n W o ex c ax ay k i acc) (ext_seq n W o' ex c ax ay k i acc).
Proof. intros H. induction n; intros; cbn [ext_seq]; mono. Qed.

Lemma ext_mono (o o' : coord -> res bool) ex c : (forall c, le (o c) (o' c)) ->
  le (extended_neighbors W o ex c) (extended_neighbors W o' ex c).
Proof. intros H. unfold extended_neighbors. repeat (apply le_bind; [now apply ext_seq_mono|intros ?]). destruct (is_top c); (apply le_bind; [now apply ext_seq_mono|intros ?]); now apply ext_seq_mono. Qed.

Lemma bfs_while_mono g (f f' : coord -> res bool) : (forall c, le (f c) (f' c)) ->
  forall n s, le (bfs_while n W g f s) (bfs_while n W g f' s).
Proof.
  intros H. induction n; intros s; cbn [bfs_while]; [apply le_refl|]. destruct (b_que s); [apply le_refl|].
  apply le_bind; [apply le_refl|intros ex]. apply le_bind; [|intros ns; mono].
  apply ext_mono. intros d. apply le_bind; [apply H|intros; apply le_refl].
Qed.

Lemma bfs_tree_mono (f f' : coord -> res bool) : (forall c, le (f c) (f' c)) -> le (bfs_tree W se f) (bfs_tree W se f').
Proof. intros H. unfold bfs_tree. apply le_bind; [apply le_refl|intros]. apply le_bind; [apply le_refl|intros]. now apply bfs_while_mono. Qed.

Lemma shortest_path_mono (f f' : coord -> res bool) : (forall c, le (f c) (f' c)) ->
  le (shortest_path W se f) (shortest_path W se f').
Proof. intros H. unfold shortest_path. apply le_bind; [now apply bfs_tree_mono|intros]. apply le_refl. Qed.

Variables f f' : coord -> res wall_state.
Hypothesis H : forall c, le (f c) (f' c).

Lemma uw_mark_mono cs : forall fl, le (uw_mark W f cs fl) (uw_mark W f' cs fl).
Proof. induction cs; intros; cbn [uw_mark]; [apply le_refl|]. apply le_bind; [apply H|intros s]. destruct (is_unchecked s); mono. Qed.

Lemma uw_while_mono st prev : forall n cur fl, le (uw_while n W st f prev cur fl) (uw_while n W st f' prev cur fl).
Proof.
  induction n; intros; cbn [uw_while]; [apply le_refl|]. apply le_bind; [apply le_refl|intros [next|]]; [|apply le_refl].
  apply le_bind; [apply le_refl|intros cs]. apply le_bind; [apply uw_mark_mono|intros fl']. mono.
Qed.

Lemma nb_adds_mono c ds : forall acc, le (nb_adds W f c acc ds) (nb_adds W f' c acc ds).
Proof.
  induction ds; intros; cbn [nb_adds]; [apply le_refl|]. apply le_bind; [|intros; apply IHds].
  unfold nb_add. apply le_bind; [apply le_refl|intros [n|]]; [|apply le_refl]. apply le_bind; [apply H|intros; apply le_refl].
Qed.

Lemma cand_while_mono uw : forall n s, le (cand_while n W f uw s) (cand_while n W f' uw s).
Proof.
  induction n; intros; cbn [cand_while]; [apply le_refl|]. destruct (c_que s) as [|[node i] q]; [apply le_refl|].
  apply le_bind; [apply nb_adds_mono|intros ns]. mono.
Qed.

Lemma candidates_mono cur uw : le (candidates W cur f uw) (candidates W cur f' uw).
Proof.
  unfold candidates. apply le_bind; [apply le_refl|intros vis]. apply le_bind; [apply nb_adds_mono|intros ns].
  apply le_bind; [apply le_refl|intros [s|n]]; [|apply le_refl]. apply le_bind; [apply cand_while_mono|intros; apply le_refl].
Qed.

Lemma search_mono cur : le (search W se cur f) (search W se cur f').
Proof.
  unfold search. apply le_bind.
  - apply bfs_tree_mono. intros c. apply le_bind; [apply H|intros; apply le_refl].
  - intros [[prev goal]|]; [|apply le_refl]. apply le_bind.
    + unfold unchecked_walls. apply le_bind; [apply uw_while_mono|intros; apply le_refl].
    + intros [fl|]; [|apply le_refl]. apply le_bind; [apply candidates_mono|intros; apply le_refl].
Qed.

Lemma next_mono cs : le (next_coordinate cs f) (next_coordinate cs f').
Proof.
  induction cs; cbn [next_coordinate]; [apply le_refl|]. apply le_bind; [apply H|intros s].
  destruct s as [|[|]]; mono.
Qed.

End Mono.

(** ** Extensionality *)
Section Ext.
Variable W : Z.
Hypothesis HW : supported W.
Variable start : coord.
Hypothesis Hstart : valid W start.
Variable goals : list coord.
Hypothesis Hgoals : Forall (valid W) goals.
Variable se : searcher.
Hypothesis Hse : searcher_new W start goals = Ret se.

Definition on_boardb (c : coord) : bool := (0 <=? cx c) && (cx c <? 2 * W) && (0 <=? cy c) && (cy c <? 2 * W).
Lemma on_boardb_spec c : on_boardb c = true <-> on_board W c.
Proof. unfold on_boardb, on_board. lia. Qed.

Definition cut (ws : coord -> wall_state) (c : coord) : res wall_state :=
  if on_boardb c then Ret (ws c) else Panic.

Lemma cut_le (wsr : coord -> res wall_state) ws : (forall c, on_board W c -> wsr c = Ret (ws c)) -> forall c, le (cut ws c) (wsr c).
Proof.
  intros H c. unfold cut. destruct (on_boardb c) eqn:E; [right|now left]. symmetry. apply H. now apply on_boardb_spec.
Qed.

Lemma search_cut wsr ws cur : valid W cur -> (forall c, on_board W c -> wsr c = Ret (ws c)) ->
  search W se cur wsr = search W se cur (cut ws).
Proof.
  intros Hc Hw. destruct (search_mono W se _ _ (cut_le wsr ws Hw) cur) as [E|E]; [|now symmetry].
  exfalso. assert (Hcut : forall c, on_board W c -> cut ws c = Ret (ws c)).
  { intros c B. unfold cut. apply on_boardb_spec in B. now rewrite B. }
  destruct (search_total W HW start Hstart goals Hgoals se Hse (cut ws) ws Hcut cur Hc) as (r & E' & _).
  rewrite E in E'. discriminate.
Qed.

Lemma path_cut wsr ws (h : wall_state -> bool) : (forall c, on_board W c -> wsr c = Ret (ws c)) ->
  shortest_path W se (fun c => let* s := wsr c in Ret (h s)) =
  shortest_path W se (fun c => let* s := cut ws c in Ret (h s)).
Proof.
  intros Hw.
  destruct (shortest_path_mono W se (fun c => let* s := cut ws c in Ret (h s)) (fun c => let* s := wsr c in Ret (h s))) as [E|E].
  - intros c. apply le_bind; [now apply cut_le|intros; apply le_refl].
  - exfalso. destruct (path_ok W HW start Hstart goals Hgoals se Hse (fun c => let* s := cut ws c in Ret (h s)) (fun c => negb (h (ws c)))) as [[E' _]|(l & E' & _)];
      [|rewrite E in E'; discriminate|rewrite E in E'; discriminate].
    intros c V. unfold cut. rewrite (proj2 (on_boardb_spec c) (proj1 V)). cbn [bind]. now rewrite negb_involutive.
  - now symmetry.
Qed.

End Ext.
