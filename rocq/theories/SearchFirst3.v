(** [shortest_path] returns the first of the shortest routes, and what follows for maps that agree on it. *)
From Coq Require Import ZArith List Bool Lia Sorting.Sorted Arith.
From Verif Require Import Base SearchModel SearchSpec SearchCoord SearchBfs SearchBfsInv SearchPath SearchMain SearchThm SearchThm2 FirstSpec SearchFirst SearchFirst2.
Import ListNotations.
Open Scope Z_scope.

Section Found.
Variable W : Z.
Hypothesis HW : supported W.
Variable op : coord -> bool.
Variable start : coord.
Hypothesis Hstart : valid W start.
Variable goalf : filter.
Hypothesis Hgoalf : filter_ok goalf.
Variable is_wall : coord -> res bool.
Hypothesis Hwall : forall c, valid W c -> is_wall c = Ret (negb (op c)).

Lemma path_rlex l : shortest_path W (Searcher start goalf) is_wall = Ret (Some (start :: l)) ->
  forall g' l', isgoal W goalf g' = true -> g' <> start -> route W op start g' l' -> length l' = length l ->
  l = l' \/ rlex start l l'.
Proof.
  unfold shortest_path. intros E.
  destruct (bfs_tree_ok W HW op start Hstart goalf Hgoalf is_wall Hwall) as [[E1 _]|(prev & g & D & disc & E1 & T & Hg & Gg & Ng & B & Min)];
    rewrite E1 in E; cbn [bind s_start] in E; [discriminate|].
  pose proof (que_bound W HW) as QB.
  destruct (sp_while_ok W HW op start is_wall Hwall prev D disc T (D g) g [] BFS_FUEL Hg eq_refl) as (q & l0 & E2 & R & Hl & El & Ln & Tp).
  { rewrite BFS_FUEL_val. specialize (B g Hg). lia. }
  { specialize (B g Hg). unfold llen; simpl. lia. }
  rewrite E2 in E. cbn [bind app] in E. rewrite R in E. injection E as <-.
  unfold bfs_tree in E1. cbn [s_start s_goals] in E1.
  rewrite vpush_ok in E1 by (unfold llen, QUE_MAX, WIDTH; simpl; lia). cbn [bind app] in E1.
  pose proof (as_index_que W start HW (proj1 Hstart)) as IBs.
  rewrite aset_ok in E1 by exact IBs. cbn [bind] in E1.
  destruct (while_first W HW op start goalf Hgoalf is_wall Hwall BFS_FUEL _ _ _ _ (inv_init W HW op start Hstart goalf)
    (ext_init W op start _) prev g E1) as (exp & h & D' & P & s & -> & F & Hv).
  pose proof F as (I & X & Pg & Vg & _ & Rg).
  assert (Hh : In h (exp ++ [h] ++ b_que s)) by (rewrite !in_app_iff; simpl; auto).
  assert (Path : forall c m, tpath W start (aupd (b_prev s) (as_index W g) (Some h)) c m -> In c (exp ++ [h] ++ b_que s) -> m = P c).
  { intros c m Hm. induction Hm as [|c p m Ns Ep Hm IH]; intros Hc; [symmetry; apply (e_start _ _ _ _ _ _ _ _ X)|].
    assert (Vc : valid W c) by exact (i_val _ _ _ _ _ _ _ _ I c Hc).
    rewrite (pv_upd W HW) in Ep by assumption. destruct (coord_eqb_spec c g) as [->|_].
    { apply (i_disc _ _ _ _ _ _ _ _ I) in Hc; [congruence|exact Vc]. }
    destruct (i_prev _ _ _ _ _ _ _ _ I c p Vc Ns Ep) as (Hp & _).
    rewrite (e_path _ _ _ _ _ _ _ _ X c p Hc Ns Ep). f_equal. apply IH. rewrite !in_app_iff in *. tauto. }
  assert (EP : l0 = P h ++ [g]).
  { inversion Tp as [H1 H2|c p m Ns Ep Hm H1 H2]; [congruence|]. subst c.
    rewrite (pv_upd W HW), coord_eqb_refl in Ep by assumption. injection Ep as ->. f_equal. now apply Path. }
  assert (Lh : length (P h) = D' h).
  { pose proof (fun c Hc Ns => parent W op start goalf exp [h] D' s c I Hc Ns) as Pa.
    assert (G : forall n c, D' c = n -> In c (exp ++ [h] ++ b_que s) -> length (P c) = n).
    { induction n as [|n IH]; intros c Dc Hc.
      - destruct (coord_eqb_spec c start) as [->|Ns]; [now rewrite (e_start _ _ _ _ _ _ _ _ X)|].
        destruct (Pa c Hc Ns) as (p & _ & _ & _ & Dp). lia.
      - destruct (coord_eqb_spec c start) as [->|Ns]; [rewrite (i_D0 _ _ _ _ _ _ _ _ I) in Dc; discriminate|].
        destruct (Pa c Hc Ns) as (p & Ep & Hp & _ & Dp). rewrite (e_path _ _ _ _ _ _ _ _ X c p Hc Ns Ep), app_length. cbn [length].
        rewrite (IH p); [lia|lia|rewrite !in_app_iff in *; tauto]. }
    now apply G. }
  intros g' l' G' N' [Cl' Ll'] Len'. subst l0. rewrite app_length in Len'. cbn [length] in Len'.
  apply (found_first W op start goalf is_wall Hwall exp h D' P s g F Hv g' l' G' N' Cl' Ll'). lia.
Qed.
End Found.

(** ** From the number to the order of directions *)
Lemma dirs_kd c v : In v (dirs c) -> exists k, In v (kdirs c k).
Proof. intros H. now apply dirs_kdirs. Qed.

Lemma vidx_nth c i v : nth_error (dirs c) i = Some v -> vidx v = Z.of_nat i.
Proof.
  unfold dirs, straight_dirs. destruct (Z.odd (cy c)); cbn [app];
    destruct i as [|[|[|[|[|[|[|i]]]]]]]; cbn [nth_error]; intros E; try discriminate; injection E as <-; reflexivity.
Qed.

Lemma size_nth c i v : nth_error (dirs c) i = Some v -> Z.abs (fst v) + Z.abs (snd v) = 2.
Proof.
  unfold dirs, straight_dirs. destruct (Z.odd (cy c)); cbn [app];
    destruct i as [|[|[|[|[|[|[|i]]]]]]]; cbn [nth_error]; intros E; try discriminate; injection E as <-; reflexivity.
Qed.

Lemma rank_nth c i v n : nth_error (dirs c) i = Some v -> 1 <= n -> rank c (shift c v n) = 1000 * Z.of_nat i + 2 * n.
Proof.
  intros H Hn. destruct (dirs_kd c v (nth_error_In _ _ H)) as [k Hk].
  rewrite (rank_shift c v k n Hk Hn), (vidx_nth c i v H), (size_nth c i v H). reflexivity.
Qed.

Lemma steps_bound W c i v n : supported W -> valid W c -> nth_error (dirs c) i = Some v -> 1 <= n -> on_board W (shift c v n) -> n <= 64.
Proof.
  intros HW [[C1 C2] _] H Hn [B1 B2]. pose proof (supported_bounds W HW). unfold shift in *. cbn [cx cy] in *.
  destruct (dirs_kd c v (nth_error_In _ _ H)) as [k Hk]. apply kdirs_vals in Hk.
  destruct Hk as [->|[->|[->|[->|[->|[->|[->| ->]]]]]]]; cbn [fst snd] in *; lia.
Qed.

Lemma run_nth W op c d : run W op c d -> exists i v n, nth_error (dirs c) i = Some v /\ 1 <= n /\ d = shift c v n /\ on_board W d.
Proof.
  intros (v & Hv & n & Hn & -> & O). apply In_nth_error in Hv as [i Hi]. exists i, v, n.
  split; [exact Hi|]. split; [exact Hn|]. split; [reflexivity|]. apply O. lia.
Qed.

Lemma rank_before W op op' c a b : supported W -> valid W c -> run W op c a -> run W op' c b -> rank c a < rank c b -> before c a b.
Proof.
  intros HW Vc Ra Rb. apply run_nth in Ra as (i & v & m & Ei & Hm & -> & Ba). apply run_nth in Rb as (j & w & n & Ej & Hn & -> & Bb).
  pose proof (steps_bound W c i v m HW Vc Ei Hm Ba). pose proof (steps_bound W c j w n HW Vc Ej Hn Bb).
  rewrite (rank_nth c i v m Ei Hm), (rank_nth c j w n Ej Hn). intros L.
  exists i, j, v, w, m, n. repeat (split; [assumption || reflexivity|]). lia.
Qed.

Lemma before_rank W op op' c a b : supported W -> valid W c -> run W op c a -> run W op' c b -> before c a b -> rank c a < rank c b.
Proof.
  intros HW Vc Ra Rb (i & j & v & w & m & n & Ei & Ej & Hm & Hn & -> & -> & L).
  assert (Ba : on_board W (shift c v m)) by (apply run_nth in Ra as (? & ? & ? & _ & _ & _ & B); exact B).
  assert (Bb : on_board W (shift c w n)) by (apply run_nth in Rb as (? & ? & ? & _ & _ & _ & B); exact B).
  pose proof (steps_bound W c i v m HW Vc Ei Hm Ba). pose proof (steps_bound W c j w n HW Vc Ej Hn Bb).
  rewrite (rank_nth c i v m Ei Hm), (rank_nth c j w n Ej Hn). lia.
Qed.

Lemma rlex_earlier W op op' : supported W -> forall l m c, valid W c -> chain (run W op) c l -> chain (run W op') c m ->
  rlex c l m <-> earlier c l m.
Proof.
  intros HW. induction l as [|a l IH]; intros [|b m] c Vc Cl Cm; cbn [rlex earlier]; try tauto.
  destruct Cl as [Ra Cl], Cm as [Rb Cm]. pose proof (proj1 (run_valid W op c a Vc Ra)) as Va. split.
  - intros [L|[<- L]]; [left; exact (rank_before W op op' c a b HW Vc Ra Rb L)|right]. split; [reflexivity|]. now apply IH.
  - intros [L|[<- L]]; [left; exact (before_rank W op op' c a b HW Vc Ra Rb L)|right]. split; [reflexivity|]. now apply (IH m a).
Qed.

Section S.
Variable W : Z.
Hypothesis HW : supported W.
Variable start : coord.
Hypothesis Hstart : valid W start.
Variable goals : list coord.
Hypothesis Hgoals : Forall (valid W) goals.
Variable se : searcher.
Hypothesis Hse : searcher_new W start goals = Ret se.

Lemma path_first isw op l : (forall c, valid W c -> isw c = Ret (negb (op c))) ->
  shortest_path W se isw = Ret (Some (start :: l)) -> first_route W op start goals l.
Proof.
  intros Hw E. destruct (path_ok W HW start Hstart goals Hgoals se Hse isw op Hw) as [[E' _]|(l0 & E' & B & _)]; rewrite E in E'; [discriminate|].
  injection E' as <-. split; [exact B|]. intros g' l' G N R Len.
  destruct (searcher_new_ok W HW start goals Hgoals) as (gf & Es & Hgf & Hg). rewrite Es in Hse. injection Hse as <-.
  destruct (path_rlex W HW op start Hstart gf Hgf isw Hw l E g' l') as [->|L]; auto.
  - rewrite Forall_forall in Hgoals. apply Hg; auto.
  - right. destruct B as [(g & _ & _ & [Cl _]) _]. now apply (rlex_earlier W op op HW l l' start Hstart Cl (proj1 R)).
Qed.

Lemma first_unique op l l' : first_route W op start goals l -> first_route W op start goals l' -> l = l'.
Proof.
  intros [[(g & G1 & G2 & G3) M] F] [[(g' & H1 & H2 & H3) M'] F'].
  assert (Len : length l = length l') by (apply Nat.le_antisymm; [exact (M g' l' H1 H2 H3)|exact (M' g l G1 G2 G3)]).
  destruct (F g' l' H1 H2 H3 (eq_sym Len)) as [->|L]; [reflexivity|].
  destruct (F' g l G1 G2 G3 Len) as [->|L']; [reflexivity|exfalso].
  apply (rlex_earlier W op op HW l l' start Hstart (proj1 G3) (proj1 H3)) in L.
  apply (rlex_earlier W op op HW l' l start Hstart (proj1 H3) (proj1 G3)) in L'.
  exact (rlex_irrefl l start (rlex_trans _ _ _ _ L L')).
Qed.

(** The first route stays first when walls are added that it does not need. *)
Lemma first_restrict op op' l g : (forall x, valid W x -> op' x = true -> op x = true) ->
  first_route W op start goals l -> In g goals -> g <> start -> route W op' start g l -> first_route W op' start goals l.
Proof.
  intros H [[_ M] F] G N R. split.
  - split; [exists g; auto|]. intros g' l' H1 H2 H3. apply (M g' l' H1 H2). now apply (route_mono W op').
  - intros g' l' H1 H2 H3. apply (F g' l' H1 H2). now apply (route_mono W op').
Qed.

Variable wsr : coord -> res wall_state.
Variable ws : coord -> wall_state.
Hypothesis Hws : forall c, on_board W c -> wsr c = Ret (ws c).
Variable current : coord.
Hypothesis Hcur : valid W current.

(** When the search is over, the path is the same in every maze in which the known walls are as known. *)
Lemma done_same : search W se current wsr = Ret SNone ->
  exists l, shortest_path W se (fun c => let* s := wsr c in Ret (negb (is_checked_false s))) = Ret (Some (start :: l)) /\
    shortest_path W se (fun c => let* s := wsr c in Ret (is_checked_true s)) = Ret (Some (start :: l)) /\
    forall open isw, consistent W ws open -> (forall c, valid W c -> isw c = Ret (negb (open c))) ->
      shortest_path W se isw = Ret (Some (start :: l)).
Proof.
  intros H0. pose proof (search_inv W HW start Hstart goals Hgoals se Hse wsr ws Hws current Hcur _ H0) as H.
  assert (Key : exists l, first_route W (maybe_open ws) start goals l /\ (exists g, In g goals /\ g <> start /\ route W (maybe_open ws) start g l) /\
    (forall e, passes start l e -> ws e <> Unchecked) /\ shortest_path W se (fun c => let* s := wsr c in Ret (is_checked_true s)) = Ret (Some (start :: l))).
  { destruct H as [H _|l B Op0 [[_ Hl]|[_ [[H _]|(? & ? & ? & ? & H & _)]]]]; try discriminate.
    pose proof (Op0 se Hse) as Op. exists l. split; [|split; [exact (proj1 B)|split; [exact Hl|exact Op]]].
    apply (path_first (fun c => let* s := wsr c in Ret (is_checked_true s))); [|exact Op].
    intros c Vc. rewrite Hws by apply Vc. cbn [bind]. unfold maybe_open. now destruct (ws c) as [|[]]. }
  destruct Key as (l & F & (g & G1 & G2 & [G3 G4]) & Hl & Op).
  assert (HB : forall op isw, (forall x, valid W x -> known_open ws x = true -> op x = true) ->
     (forall x, valid W x -> op x = true -> maybe_open ws x = true) -> (forall c, valid W c -> isw c = Ret (negb (op c))) ->
     shortest_path W se isw = Ret (Some (start :: l))).
  { intros op isw H1 H2 Hw.
    assert (R : route W op start g l).
    { split; [|exact G4]. apply (chain_restrict W (maybe_open ws)); auto. intros e Ve Pe Me. apply H1; [exact Ve|].
      specialize (Hl e Pe). unfold maybe_open, known_open in *. destruct (ws e) as [|[]]; congruence. }
    pose proof (first_restrict (maybe_open ws) op l g H2 F G1 G2 R) as F1.
    destruct (path_ok W HW start Hstart goals Hgoals se Hse isw op Hw) as [[_ U]|(l' & E & _)]; [exfalso; exact (U g l G1 G2 R)|].
    rewrite E. now rewrite (first_unique op l' l (path_first isw op l' Hw E) F1). }
  exists l. split; [|split; [exact Op|]].
  - apply (HB (known_open ws)); auto.
    + intros x _. unfold maybe_open, known_open. destruct (ws x) as [|[]]; congruence.
    + intros c Vc. rewrite Hws by apply Vc. cbn [bind]. unfold known_open. now destruct (ws c) as [|[]].
  - intros open isw C Hw. apply (HB open isw); auto.
    + intros x Vx. now apply (consistent_ko W).
    + intros x Vx. now apply (consistent_mo W).
Qed.
End S.
