(** [neighbors] and [candidates]: the breadth-first search for the nearest wanted wall. *)
From Coq Require Import ZArith List Bool Lia Arith Sorting.Sorted Permutation ZifyBool.
From Verif Require Import Base SearchModel SearchSpec SearchCoord SearchBfs SearchBfsInv SearchPath.
Import ListNotations.
Open Scope Z_scope.
Ltac Zify.zify_post_hook ::= Z.div_mod_to_equations.

Definition ndirs (c : coord) : list (Z * Z) :=
  [(1, -1); (-1, -1); (-1, 1); (1, 1)] ++
  (if Z.odd (cy c) then [(0, -2); (0, 2)] else [(-2, 0); (2, 0)]).

Lemma ndirs_dirs c v : In v (ndirs c) <-> In v (dirs c).
Proof.
  unfold ndirs, dirs, straight_dirs. destruct (Z.odd (cy c)); simpl; tauto.
Qed.

Lemma in_dirs_vals c v : In v (dirs c) -> Z.abs (fst v) <= 2 /\ Z.abs (snd v) <= 2.
Proof.
  intros H. apply dirs_kdirs in H as [k H]. apply kdirs_vals in H.
  destruct H as [->|[->|[->|[->|[->|[->|[->| ->]]]]]]]; simpl; lia.
Qed.

Section Nb.
Variable W : Z.
Hypothesis HW : supported W.
Variable wsr : coord -> res wall_state.
Variable ws : coord -> wall_state.
Hypothesis Hws : forall c, valid W c -> wsr c = Ret (ws c).

Definition okf (d : coord) : bool := negb (is_checked_true (ws d)).
Definition pick (d : coord) : bool := board_b W d && okf d.
Definition nbrs (c : coord) : list coord := List.filter pick (map (fun v => shift c v 1) (ndirs c)).

Lemma filter_length_le {A} (f : A -> bool) l : (length (List.filter f l) <= length l)%nat.
Proof. induction l as [|a l IH]; simpl; [lia|]. destruct (f a); simpl; lia. Qed.

Lemma nb_adds_ok c ds : valid W c -> (forall v, In v ds -> In v (dirs c)) ->
  forall acc, llen acc + llen ds <= 6 ->
  nb_adds W wsr c acc ds = Ret (acc ++ List.filter pick (map (fun v => shift c v 1) ds)).
Proof.
  intros Vc. induction ds as [|v ds IH]; intros Hds acc Hl; cbn [nb_adds map List.filter].
  - now rewrite app_nil_r.
  - assert (Hv : In v (dirs c)) by (apply Hds; now left).
    assert (Hds' : forall v, In v ds -> In v (dirs c)) by (intros; apply Hds; now right).
    assert (Hl' : llen (v :: ds) = 1 + llen ds) by (unfold llen; simpl length; lia).
    unfold nb_add. destruct (in_dirs_vals c v Hv) as [A B].
    rewrite new_relative_ok by (assumption || lia || apply Vc). cbn [bind].
    replace (Co (cx c + fst v) (cy c + snd v)) with (shift c v 1) by (apply coord_ext; simpl; ring).
    unfold pick at 1. destruct (board_b_spec W (shift c v 1)) as [Bd|Bd]; cbn [andb].
    + apply dirs_kdirs in Hv as [k Hk].
      rewrite Hws by (now apply (shift_valid W c k)). cbn [bind]. fold (okf (shift c v 1)).
      destruct (okf (shift c v 1)).
      * pose proof (llen_nonneg ds). rewrite vpush_ok by lia. cbn [bind].
        rewrite IH; [now rewrite <- app_assoc|exact Hds'|].
        rewrite llen_app. unfold llen at 2. simpl length. lia.
      * cbn [bind]. apply IH; [exact Hds'|lia].
    + cbn [bind]. apply IH; [exact Hds'|lia].
Qed.

Lemma neighbors_ok c : valid W c -> neighbors W wsr c = Ret (nbrs c).
Proof.
  intros Vc. unfold neighbors. rewrite is_top_odd.
  change ([(1, -1); (-1, -1); (-1, 1); (1, 1)] ++
     (if Z.odd (cy c) then [(0, -2); (0, 2)] else [(-2, 0); (2, 0)])) with (ndirs c).
  rewrite nb_adds_ok; [reflexivity|exact Vc|intros v; apply ndirs_dirs|].
  unfold llen, ndirs. destruct (Z.odd (cy c)); simpl length; lia.
Qed.

Lemma nbrs_step c d : In d (nbrs c) <-> step W okf c d.
Proof.
  unfold nbrs, step, adjacent. rewrite filter_In, in_map_iff. unfold pick. rewrite andb_true_iff. split.
  - intros ((v & <- & Hv) & Hb & Ho). apply ndirs_dirs in Hv.
    destruct (board_b_spec W (shift c v 1)); [|discriminate]. eauto.
  - intros ((v & Hv & ->) & Hb & Ho). split.
    + exists v. split; [reflexivity|]. now apply ndirs_dirs.
    + destruct (board_b_spec W (shift c v 1)); auto.
Qed.

Lemma step_valid c d : valid W c -> step W okf c d -> valid W d.
Proof.
  intros Vc ((v & Hv & ->) & Hb & _). apply dirs_kdirs in Hv as [k Hk].
  now apply (shift_valid W c k).
Qed.

Lemma step_irrefl c : ~ step W okf c c.
Proof.
  clear Hws wsr.
  intros ((v & Hv & E) & _). apply dirs_kdirs in Hv as [k Hk]. apply kdirs_vals in Hk.
  apply (f_equal (fun z => (cx z, cy z))) in E. unfold shift in E. simpl in E.
  injection E as E1 E2.
  destruct Hk as [->|[->|[->|[->|[->|[->|[->| ->]]]]]]]; simpl in *; lia.
Qed.

Lemma nbrs_nodup c : NoDup (nbrs c).
Proof.
  clear Hws wsr.
  apply NoDup_filter. unfold ndirs.
  assert (E : forall v w, shift c v 1 = shift c w 1 -> v = w).
  { intros [a b] [a' b'] E. unfold shift in E. simpl in E. injection E as E1 E2. f_equal; lia. }
  destruct (Z.odd (cy c)); cbn [app map];
  repeat (constructor; [simpl; intros H;
    repeat (destruct H as [H|H]; [apply E in H; discriminate|]); exact H|]); constructor.
Qed.

Lemma nbrs_len c : (length (nbrs c) <= 6)%nat.
Proof.
  clear Hws wsr.
  unfold nbrs. eapply Nat.le_trans; [apply filter_length_le|]. rewrite map_length.
  unfold ndirs. destruct (Z.odd (cy c)); simpl; lia.
Qed.

(** ** The labelled search *)

Variable current : coord.
Hypothesis Hcur : valid W current.
Variable uwr : coord -> res bool.
Variable uw : coord -> bool.
Hypothesis Huw : forall c, valid W c -> uwr c = Ret (uw c).

Notation ns := (nbrs current).
Notation stp := (step W okf).
Definition ks (l : list (coord * Z)) : list coord := map fst l.
Definition vs (vis : arr bool) (c : coord) : bool := araw vis (as_index W c).

Lemma in_ks c l : In c (ks l) <-> exists i, In (c, i) l.
Proof.
  unfold ks. rewrite in_map_iff. split.
  - intros ([c' i] & <- & H). exists i. exact H.
  - intros (i & H). exists (c, i). auto.
Qed.

Record Cinv (exp cur : list (coord * Z)) (D : coord -> nat) (s : cand_st) : Prop := {
  j_lv : alen (c_vis s) = QUE_MAX;
  j_nd : NoDup (current :: ks (exp ++ cur ++ c_que s));
  j_val : forall c, In c (ks (exp ++ cur ++ c_que s)) -> valid W c;
  j_vis : forall c, valid W c -> (vs (c_vis s) c = true <-> In c (current :: ks (exp ++ cur ++ c_que s)));
  j_D0 : D current = O;
  j_chain : forall c i, In (c, i) (exp ++ cur ++ c_que s) ->
     exists f l, 0 <= i /\ nth_error ns (Z.to_nat i) = Some f /\ chain stp current (f :: l) /\
       last (f :: l) current = c /\ length (f :: l) = D c;
  j_wanted : forall c, In c (ks (exp ++ cur ++ c_que s)) -> uw c = false;
  j_exp : forall u v, In u (current :: ks exp) -> stp u v ->
     In v (current :: ks (exp ++ cur ++ c_que s)) /\ (D v <= S (D u))%nat;
  j_le : forall u q, In u (ks (exp ++ cur)) -> In q (ks (c_que s)) -> (D u <= D q)%nat;
  j_lecur : forall u q, In u (ks exp) -> In q (ks cur) -> (D u <= D q)%nat;
  j_sorted : StronglySorted (fun a b => (D (fst a) <= D (fst b))%nat) (c_que s);
  j_gap : forall a b, In a (ks (cur ++ c_que s)) -> In b (ks (c_que s)) -> (D b <= S (D a))%nat
}.

Lemma ks_app l m : ks (l ++ m) = ks l ++ ks m.
Proof. apply map_app. Qed.

Lemma sorted_app2 {A} (R : A -> A -> Prop) l x :
  StronglySorted R l -> (forall a, In a l -> R a x) -> StronglySorted R (l ++ [x]).
Proof.
  intros S H. induction S as [|a l S IH F]; simpl; constructor.
  - constructor.
  - constructor.
  - apply IH. intros; apply H; now right.
  - apply Forall_app. split; [exact F|]. constructor; [apply H; now left|constructor].
Qed.

Lemma sorted_ext2 {A} (R R' : A -> A -> Prop) l :
  (forall a b, In a l -> In b l -> R a b -> R' a b) -> StronglySorted R l -> StronglySorted R' l.
Proof.
  intros H S. induction S as [|a l S IH F]; constructor.
  - apply IH. intros; apply H; simpl; auto.
  - rewrite Forall_forall in *. intros b Hb. apply H; simpl; auto.
Qed.

Lemma chain_app R c l m : chain R c (l ++ m) <-> chain R c l /\ chain R (last l c) m.
Proof.
  revert c. induction l as [|d l IH]; intros c.
  - simpl. tauto.
  - cbn [app chain]. rewrite IH, last_cons. tauto.
Qed.

Lemma cinv_discover exp h i D s next :
  Cinv exp [(h, i)] D s -> stp h next -> vs (c_vis s) next = false -> uw next = false ->
  Cinv exp [(h, i)] (upd D next (S (D h)))
    (Cst (c_que s ++ [(next, i)]) (aupd (c_vis s) (as_index W next) true)).
Proof.
  intros I St Vn Un.
  set (V := current :: ks (exp ++ [(h, i)] ++ c_que s)).
  assert (Hh : In h (ks (exp ++ [(h, i)] ++ c_que s))) by (rewrite !ks_app, !in_app_iff; simpl; auto).
  assert (Vh : valid W h) by (apply (j_val _ _ _ _ I); exact Hh).
  assert (Va : valid W next) by (now apply (step_valid h)).
  assert (Nn : ~ In next V).
  { intros Hin. apply (j_vis _ _ _ _ I) in Hin; [congruence|exact Va]. }
  assert (Dn : forall c, In c V -> upd D next (S (D h)) c = D c)
    by (intros c Hc; apply upd_other; intros ->; auto).
  assert (In_ : forall c, In c (current :: ks (exp ++ [(h, i)] ++ c_que s ++ [(next, i)])) <-> In c V \/ c = next).
  { intros c. unfold V. cbn [In]. rewrite !ks_app, !in_app_iff. simpl. intuition. }
  assert (In2 : forall c, In c (ks (exp ++ [(h, i)] ++ c_que s ++ [(next, i)])) <->
                In c (ks (exp ++ [(h, i)] ++ c_que s)) \/ c = next).
  { intros c. rewrite !ks_app, !in_app_iff. simpl. intuition. }
  assert (KV : forall c, In c (ks (exp ++ [(h, i)] ++ c_que s)) -> In c V) by (intros; now right).
  assert (KE : forall c, In c (ks exp) -> In c V).
  { intros c Hc. right. rewrite ks_app, in_app_iff. now left. }
  assert (KQ : forall c, In c (ks (c_que s)) -> In c V).
  { intros c Hc. right. rewrite !ks_app, !in_app_iff. auto. }
  assert (KC : forall c, In c (ks (exp ++ [(h, i)])) -> In c V).
  { intros c Hc. right. rewrite !ks_app, !in_app_iff in *. tauto. }
  assert (HhV : In h V) by auto.
  assert (Dh : upd D next (S (D h)) h = D h) by auto.
  assert (IB : forall c, on_board W c -> 0 <= as_index W c < QUE_MAX)
    by (intros; now apply as_index_que).
  assert (VS : forall c, valid W c -> vs (aupd (c_vis s) (as_index W next) true) c =
               coord_eqb c next || vs (c_vis s) c).
  { intros c Vc. unfold vs. rewrite araw_upd by (apply IB; [apply Va || apply Vc]).
    destruct (coord_eqb_spec c next) as [->|Hne]; [now rewrite Z.eqb_refl|].
    destruct (Z.eqb_spec (as_index W next) (as_index W c)) as [E|E]; [|reflexivity].
    exfalso. apply Hne. symmetry. now apply (as_index_inj W). }
  constructor; cbn [c_que c_vis].
  - apply (j_lv _ _ _ _ I).
  - replace (current :: ks (exp ++ [(h, i)] ++ c_que s ++ [(next, i)])) with (V ++ [next]).
    + apply (NoDup_Add (a := next) (l := V)).
      * rewrite <- (app_nil_r V) at 1. apply Add_app.
      * split; [apply (j_nd _ _ _ _ I)|exact Nn].
    + unfold V. rewrite !ks_app. cbn [app]. rewrite <- !app_assoc. reflexivity.
  - intros c Hc. apply In2 in Hc as [Hc| ->]; [now apply (j_val _ _ _ _ I)|exact Va].
  - intros c Vc. rewrite VS by exact Vc. rewrite In_, orb_true_iff.
    destruct (coord_eqb_spec c next) as [->|Hne]; [tauto|].
    rewrite (j_vis _ _ _ _ I c Vc). fold V. intuition congruence.
  - rewrite Dn by now left. apply (j_D0 _ _ _ _ I).
  - intros c k Hc.
    assert (Hc' : In (c, k) (exp ++ [(h, i)] ++ c_que s) \/ (c, k) = (next, i)).
    { rewrite !in_app_iff in *. simpl in *. rewrite ?in_app_iff in *. simpl in *. intuition. }
    destruct Hc' as [Hc'|E].
    + destruct (j_chain _ _ _ _ I c k Hc') as (f & l & A1 & A2 & A3 & A4 & A5).
      exists f, l. rewrite Dn; auto. apply KV, in_ks. eauto.
    + injection E as -> ->.
      destruct (j_chain _ _ _ _ I h i) as (f & l & A1 & A2 & A3 & A4 & A5).
      { rewrite !in_app_iff. simpl. auto. }
      exists f, (l ++ [next]). split; [exact A1|]. split; [exact A2|].
      split.
      { change (f :: l ++ [next]) with ((f :: l) ++ [next]). apply chain_snoc; [exact A3|]. now rewrite A4. }
      split.
      { change (f :: l ++ [next]) with ((f :: l) ++ [next]). apply last_snoc. }
      rewrite upd_same, <- A5. simpl. rewrite app_length. simpl. lia.
  - intros c Hc. apply In2 in Hc as [Hc| ->]; [now apply (j_wanted _ _ _ _ I)|exact Un].
  - intros u v Hu R. destruct (j_exp _ _ _ _ I u v Hu R) as [Hv L].
    split; [apply In_; now left|]. rewrite !Dn; auto. destruct Hu as [<-|Hu]; [now left|auto].
  - intros u q Hu Hq. rewrite ks_app, in_app_iff in Hq. rewrite (Dn u) by auto.
    destruct Hq as [Hq|[<-|[]]].
    + rewrite Dn by auto. now apply (j_le _ _ _ _ I).
    + cbn [fst]. rewrite upd_same. rewrite ks_app, in_app_iff in Hu. destruct Hu as [Hu|[<-|[]]]; [|simpl; lia].
      pose proof (j_lecur _ _ _ _ I u h Hu (or_introl eq_refl)). lia.
  - intros u q Hu [<-|[]]. cbn [fst]. rewrite Dh, (Dn u) by auto.
    apply (j_lecur _ _ _ _ I); [exact Hu|now left].
  - apply sorted_app2.
    + apply (sorted_ext2 (fun a b => (D (fst a) <= D (fst b))%nat)); [|apply (j_sorted _ _ _ _ I)].
      intros [a a'] [b b'] Ha Hb L. cbn [fst] in *. rewrite !Dn; auto; apply KQ, in_ks; eauto.
    + intros [a a'] Ha. cbn [fst]. rewrite upd_same.
      assert (Ha' : In a (ks (c_que s))) by (apply in_ks; eauto).
      rewrite Dn by auto. apply (j_gap _ _ _ _ I); [now left|exact Ha'].
  - intros a b Ha Hb. rewrite ks_app, in_app_iff in Hb.
    assert (Ha' : In a (ks ([(h, i)] ++ c_que s)) \/ a = next).
    { rewrite !ks_app, !in_app_iff in *. simpl in Ha |- *. intuition. }
    assert (KHQ : forall x, In x (ks ([(h, i)] ++ c_que s)) -> In x V).
    { intros x Hx. right. rewrite ks_app, in_app_iff. now right. }
    destruct Hb as [Hb|[<-|[]]]; cbn [fst].
    + rewrite (Dn b) by auto. destruct Ha' as [Ha'| ->].
      * rewrite Dn by auto. apply (j_gap _ _ _ _ I); auto.
      * rewrite upd_same. pose proof (j_gap _ _ _ _ I h b ltac:(now left) Hb). lia.
    + rewrite upd_same. destruct Ha' as [Ha'| ->]; [|rewrite upd_same; lia].
      rewrite Dn by auto.
      rewrite ks_app, in_app_iff in Ha'. destruct Ha' as [[<-|[]]|Ha']; cbn [fst]; [lia|].
      pose proof (j_le _ _ _ _ I h a ltac:(rewrite ks_app, in_app_iff; right; now left) Ha'). lia.
Qed.

Lemma cinv_pop exp D h i q v :
  Cinv exp [] D (Cst ((h, i) :: q) v) -> Cinv exp [(h, i)] D (Cst q v).
Proof.
  intros I. destruct I; cbn [c_que c_vis] in *; constructor; cbn [c_que c_vis]; auto.
  - intros u q' Hu Hq. rewrite ks_app, in_app_iff in Hu. destruct Hu as [Hu|[<-|[]]].
    + apply j_le0; [now rewrite app_nil_r|now right].
    + inversion_clear j_sorted0 as [|? ? S F]. rewrite Forall_forall in F.
      apply in_ks in Hq as [j Hq]. apply (F _ Hq).
  - intros u q' Hu [<-|[]]. apply j_le0; [now rewrite app_nil_r|now left].
  - now inversion_clear j_sorted0.
  - intros a b Ha Hb. apply j_gap0; [exact Ha|now right].
Qed.

Lemma cinv_done exp h i D s :
  Cinv exp [(h, i)] D s ->
  (forall v, stp h v -> In v (current :: ks (exp ++ [(h, i)] ++ c_que s)) /\ (D v <= S (D h))%nat) ->
  Cinv (exp ++ [(h, i)]) [] D s.
Proof.
  intros I Hr. destruct I.
  assert (E : (exp ++ [(h, i)]) ++ [] ++ c_que s = exp ++ [(h, i)] ++ c_que s)
    by (rewrite <- app_assoc; reflexivity).
  constructor; rewrite ?E; auto.
  - intros u v Hu R. destruct Hu as [Hu|Hu]; [apply j_exp0; [now left|exact R]|].
    rewrite ks_app, in_app_iff in Hu. destruct Hu as [Hu|[<-|[]]]; auto.
    apply j_exp0; [now right|exact R].
  - rewrite app_nil_r. exact j_le0.
  - intros u q Hu [].
  - intros a b Ha Hb. apply j_gap0; [|exact Hb]. rewrite ks_app, in_app_iff. now right.
Qed.

(** Lower bound on the distance of every wanted wall. *)
Lemma cinv_lower exp h i D s : Cinv exp [(h, i)] D s ->
  forall g l, uw g = true -> g <> current -> chain stp current l -> last l current = g ->
  (S (D h) <= length l)%nat.
Proof.
  intros I g l Hg Hgs Hl El.
  destruct (le_lt_dec (S (D h)) (length l)) as [L|L]; [exact L|exfalso].
  assert (P : forall l c, chain stp c l -> In c (current :: ks (exp ++ [(h, i)] ++ c_que s)) ->
     (D c + length l < S (D h))%nat ->
     In (last l c) (current :: ks (exp ++ [(h, i)] ++ c_que s))).
  { clear l Hl El L. induction l as [|d l IH]; intros c Hc Hin Hlen; [exact Hin|].
    destruct Hc as [R Hc]. simpl in Hlen.
    assert (Hexp : In c (current :: ks exp)).
    { destruct Hin as [Hin|Hin]; [now left|].
      rewrite !ks_app, !in_app_iff in Hin. destruct Hin as [Hin|[[<-|[]]|Hin]]; [now right| |]; exfalso.
      - cbn [fst] in *. lia.
      - pose proof (j_le _ _ _ _ I h c ltac:(rewrite ks_app, in_app_iff; right; now left) Hin). lia. }
    destruct (j_exp _ _ _ _ I c d Hexp R) as [Hd Ld].
    rewrite last_cons. apply IH; auto. lia. }
  specialize (P l current Hl (or_introl eq_refl)). rewrite (j_D0 _ _ _ _ I), El in P.
  destruct (P L) as [E|Hin]; [congruence|].
  rewrite (j_wanted _ _ _ _ I g Hin) in Hg. discriminate.
Qed.

Lemma cinv_closed exp D s : Cinv exp [] D s -> c_que s = [] ->
  forall l c, In c (current :: ks exp) -> chain stp c l -> In (last l c) (current :: ks exp).
Proof.
  intros I Q l. induction l as [|d l IH]; intros c Hc Hl; [exact Hc|].
  destruct Hl as [R Hl]. destruct (j_exp _ _ _ _ I c d Hc R) as [Hd _].
  rewrite Q, !app_nil_r in Hd. rewrite last_cons. now apply IH.
Qed.

Lemma cinv_que_bound exp cur D s : Cinv exp cur D s -> llen (c_que s) < QUE_MAX.
Proof.
  intros I. pose proof (valid_nodup_bound W _ HW (j_nd _ _ _ _ I)) as B.
  rewrite Forall_forall in B.
  assert (B' : llen (current :: ks (exp ++ cur ++ c_que s)) <= 2 * W * W).
  { apply B. intros c [<-|Hc]; [exact Hcur|now apply (j_val _ _ _ _ I)]. }
  unfold llen in *. simpl length in B'. unfold ks in B'. rewrite map_length, !app_length in B'.
  assert (2 * W * W <= QUE_MAX) by (unfold QUE_MAX, WIDTH; pose proof (supported_bounds W HW); nia).
  lia.
Qed.

Lemma cand_for_ok exp h i : forall l D s, Cinv exp [(h, i)] D s ->
  (forall n, In n l -> stp h n) ->
  exists D' s', Cinv exp [(h, i)] D' s' /\ D' h = D h /\
   (forall c, In c (current :: ks (exp ++ [(h, i)] ++ c_que s)) ->
      In c (current :: ks (exp ++ [(h, i)] ++ c_que s')) /\ D' c = D c) /\
   ((cand_for W uwr i l s = Ret (Cont s') /\
     forall n, In n l -> In n (current :: ks (exp ++ [(h, i)] ++ c_que s')) /\ (D' n <= S (D' h))%nat)
    \/ exists g, cand_for W uwr i l s = Ret (Done i) /\ stp h g /\ uw g = true /\ g <> current).
Proof.
  induction l as [|next l IH]; intros D s I Hl.
  - exists D, s. split; [exact I|]. split; [reflexivity|]. split; [auto|].
    left. split; [reflexivity|]. intros n [].
  - assert (St : stp h next) by (apply Hl; now left).
    assert (Hl' : forall n, In n l -> stp h n) by (intros; apply Hl; now right).
    assert (Hh : In h (ks (exp ++ [(h, i)] ++ c_que s))) by (rewrite !ks_app, !in_app_iff; simpl; auto).
    assert (Vh : valid W h) by (apply (j_val _ _ _ _ I); exact Hh).
    assert (Vn : valid W next) by (now apply (step_valid h)).
    pose proof (as_index_que W next HW (proj1 Vn)) as IBn.
    cbn [cand_for].
    rewrite aget_ok by (rewrite (j_lv _ _ _ _ I); exact IBn). cbn [bind].
    change (araw (c_vis s) (as_index W next)) with (vs (c_vis s) next).
    destruct (vs (c_vis s) next) eqn:Ev.
    + destruct (IH D s I Hl') as (D' & s' & I2 & Dh & Mono & Res).
      exists D', s'. split; [exact I2|]. split; [exact Dh|]. split; [exact Mono|].
      destruct Res as [[E H]|Res]; [left|right; exact Res].
      split; [exact E|]. intros n [<-|Hin]; [|now apply H].
      apply (j_vis _ _ _ _ I) in Ev; [|exact Vn].
      destruct (Mono next Ev) as [Hd' Ed]. split; [exact Hd'|].
      rewrite Ed, Dh. destruct Ev as [<-|Ev]; [rewrite (j_D0 _ _ _ _ I); lia|].
      rewrite !ks_app, !in_app_iff in Ev. destruct Ev as [Ev|[[<-|[]]|Ev]].
      * pose proof (j_lecur _ _ _ _ I next h Ev (or_introl eq_refl)). lia.
      * cbn [fst]. lia.
      * apply (j_gap _ _ _ _ I); [now left|exact Ev].
    + rewrite Huw by exact Vn. cbn [bind].
      destruct (uw next) eqn:Eu.
      * exists D, s. split; [exact I|]. split; [reflexivity|]. split; [auto|].
        right. exists next. split; [reflexivity|]. split; [exact St|]. split; [exact Eu|].
        intros ->. assert (vs (c_vis s) current = true); [|congruence].
        apply (j_vis _ _ _ _ I); [exact Hcur|now left].
      * pose proof (cinv_discover exp h i D s next I St Ev Eu) as I'.
        rewrite aset_ok by (rewrite (j_lv _ _ _ _ I); exact IBn). cbn [bind].
        rewrite vpush_ok by (now apply (cinv_que_bound exp [(h, i)] D)). cbn [bind].
        destruct (IH _ _ I' Hl') as (D' & s' & I2 & Dh & Mono & Res).
        cbn [c_que] in Mono.
        assert (Nn : ~ In next (current :: ks (exp ++ [(h, i)] ++ c_que s))).
        { intros Hin. apply (j_vis _ _ _ _ I) in Hin; [congruence|exact Vn]. }
        assert (Dh' : upd D next (S (D h)) h = D h).
        { apply upd_other. intros ->. apply Nn. now right. }
        exists D', s'. split; [exact I2|]. split; [congruence|]. split.
        { intros c Hc. destruct (Mono c) as [A B].
          - destruct Hc as [<-|Hc]; [now left|right]. rewrite !ks_app, !in_app_iff in *. tauto.
          - split; [exact A|]. rewrite B. apply upd_other. intros ->; auto. }
        destruct Res as [[E H]|Res]; [left|right; exact Res].
        split; [exact E|]. intros n [<-|Hin]; [|now apply H].
        destruct (Mono next) as [A B].
        { right. rewrite !ks_app, !in_app_iff. simpl. auto. }
        split; [exact A|]. rewrite B, upd_same, Dh, Dh'. lia.
Qed.

(** What a successful search returns: label [i] whose neighbour starts a shortest chain. *)
Definition nearest_ok (f : coord) : Prop :=
  exists l g, chain stp current (f :: l) /\ last (f :: l) current = g /\ uw g = true /\ g <> current /\
   forall g' l', uw g' = true -> g' <> current -> chain stp current l' -> last l' current = g' ->
     (length (f :: l) <= length l')%nat.

Definition no_wanted : Prop :=
  forall g l, uw g = true -> g <> current -> ~ (chain stp current l /\ last l current = g).

Lemma cand_while_ok : forall n exp D s, Cinv exp [] D s -> 2 * W * W - llen exp < Z.of_nat n + 1 ->
  (cand_while n W wsr uwr s = Ret None /\ no_wanted) \/
  (exists i f, cand_while n W wsr uwr s = Ret (Some i) /\ 0 <= i /\
     nth_error ns (Z.to_nat i) = Some f /\ nearest_ok f).
Proof.
  induction n as [|n IH]; intros exp D s I Hn.
  - exfalso. pose proof (valid_nodup_bound W _ HW (j_nd _ _ _ _ I)) as B.
    rewrite Forall_forall in B.
    assert (B' : llen (current :: ks (exp ++ [] ++ c_que s)) <= 2 * W * W).
    { apply B. intros c [<-|Hc]; [exact Hcur|now apply (j_val _ _ _ _ I)]. }
    unfold llen in *. simpl length in B'. unfold ks in B'. rewrite map_length, !app_length in B'. lia.
  - cbn [cand_while]. destruct s as [que vis]. cbn [c_que c_vis].
    destruct que as [|[h i] q].
    + left. split; [reflexivity|]. intros g l Hg Ng [Hl El].
      pose proof (cinv_closed exp D _ I eq_refl l current (or_introl eq_refl) Hl) as Hin.
      rewrite El in Hin. destruct Hin as [E|Hin]; [congruence|].
      rewrite (j_wanted _ _ _ _ I g) in Hg; [discriminate|].
      rewrite ks_app, in_app_iff. now left.
    + assert (Hh : In h (ks (exp ++ [] ++ (h, i) :: q))) by (rewrite !ks_app, !in_app_iff; simpl; auto).
      assert (Vh : valid W h) by (apply (j_val _ _ _ _ I); exact Hh).
      rewrite neighbors_ok by exact Vh. cbn [bind].
      pose proof (cinv_pop _ _ _ _ _ _ I) as Ip.
      destruct (cand_for_ok exp h i (nbrs h) D _ Ip) as (D' & s' & I2 & Dh & Mono & Res).
      { intros m Hm. now apply nbrs_step. }
      destruct Res as [[E H]|(g & E & Sg & Ug & Ng)]; rewrite E; cbn [bind].
      * apply (IH (exp ++ [(h, i)]) D' s').
        -- apply cinv_done; [exact I2|]. intros v Sv. apply H. now apply nbrs_step.
        -- rewrite llen_app. unfold llen at 2. simpl length. lia.
      * right. destruct (j_chain _ _ _ _ I2 h i) as (f & l & A1 & A2 & A3 & A4 & A5).
        { rewrite !in_app_iff. simpl. auto. }
        exists i, f. split; [reflexivity|]. split; [exact A1|]. split; [exact A2|].
        exists (l ++ [g]), g. split.
        { change (f :: l ++ [g]) with ((f :: l) ++ [g]). apply chain_snoc; [exact A3|]. now rewrite A4. }
        split.
        { change (f :: l ++ [g]) with ((f :: l) ++ [g]). apply last_snoc. }
        split; [exact Ug|]. split; [exact Ng|].
        intros g' l' Ug' Ng' Hl' El'.
        pose proof (cinv_lower _ _ _ _ _ I2 g' l' Ug' Ng' Hl' El') as L.
        change (f :: l ++ [g]) with ((f :: l) ++ [g]). rewrite app_length. simpl in *. lia.
Qed.

(** The initial loop over the neighbours of [current]. *)
Fixpoint label (i : Z) (l : list coord) : list (coord * Z) :=
  match l with [] => [] | c :: l' => (c, i) :: label (i + 1) l' end.

Lemma cand_init_ok : forall l pre vis, ns = pre ++ l ->
  alen vis = QUE_MAX -> (forall c, valid W c -> (vs vis c = true <-> c = current \/ In c pre)) ->
  (forall c, In c pre -> uw c = false) ->
  (exists vis', cand_init W uwr (llen pre) l (Cst (label 0 pre) vis) = Ret (Cont (Cst (label 0 ns) vis')) /\
     alen vis' = QUE_MAX /\ (forall c, valid W c -> (vs vis' c = true <-> c = current \/ In c ns)) /\
     forall c, In c ns -> uw c = false) \/
  (exists g, cand_init W uwr (llen pre) l (Cst (label 0 pre) vis) = Ret (Done g) /\ In g ns /\ uw g = true).
Proof.
  induction l as [|next l IH]; intros pre vis Ens La Hv Hu.
  - left. exists vis. rewrite app_nil_r in Ens. rewrite Ens. cbn [cand_init]. auto.
  - cbn [cand_init].
    assert (Hn : In next ns) by (rewrite Ens, in_app_iff; right; now left).
    assert (Vn : valid W next) by (apply (step_valid current); [exact Hcur|now apply nbrs_step]).
    rewrite Huw by exact Vn. cbn [bind].
    destruct (uw next) eqn:Eu.
    + right. exists next. auto.
    + pose proof (nbrs_len current) as L6. rewrite Ens, app_length in L6. simpl length in L6.
      assert (Lab : forall l i, length (label i l) = length l).
      { clear. induction l as [|a l IH]; intros i; simpl; [reflexivity|]. now rewrite IH. }
      cbn [c_que c_vis].
      rewrite vpush_ok by (unfold llen; rewrite Lab; unfold QUE_MAX, WIDTH; lia). cbn [bind].
      pose proof (as_index_que W next HW (proj1 Vn)) as IBn.
      rewrite aset_ok by (rewrite La; exact IBn). cbn [bind].
      assert (EL : label 0 pre ++ [(next, llen pre)] = label 0 (pre ++ [next])).
      { clear. replace (llen pre) with (0 + llen pre) by ring. generalize 0.
        induction pre as [|a pre IH]; intros z; cbn [label app].
        - unfold llen. simpl length. now rewrite Z.add_0_r.
        - replace (z + llen (a :: pre)) with (z + 1 + llen pre) by (unfold llen; simpl length; lia).
          now rewrite IH. }
      rewrite EL.
      replace (llen pre + 1) with (llen (pre ++ [next]))
        by (rewrite llen_app; unfold llen at 2; simpl length; lia).
      apply (IH (pre ++ [next])).
      * rewrite <- app_assoc. exact Ens.
      * exact La.
      * intros c Vc. unfold vs. rewrite araw_upd by (try apply IBn; apply (as_index_que W c HW), Vc).
        rewrite in_app_iff. cbn [In].
        destruct (Z.eqb_spec (as_index W next) (as_index W c)) as [E|E].
        -- assert (c = next) as -> by (symmetry; now apply (as_index_inj W)). tauto.
        -- fold (vs vis c). rewrite (Hv c Vc). intuition congruence.
      * intros c Hc. apply in_app_iff in Hc as [Hc|[<-|[]]]; auto.
Qed.

Lemma label_ks l : forall i, ks (label i l) = l.
Proof. induction l as [|a l IH]; intros i; simpl; [reflexivity|]. now rewrite IH. Qed.

Lemma label_in l : forall i c j, In (c, j) (label i l) -> i <= j /\ nth_error l (Z.to_nat (j - i)) = Some c.
Proof.
  induction l as [|a l IH]; intros i c j; simpl; [intros []|].
  intros [E|H].
  - injection E as -> ->. split; [lia|]. now rewrite Z.sub_diag.
  - destruct (IH _ _ _ H) as [A B]. split; [lia|].
    replace (Z.to_nat (j - i)) with (S (Z.to_nat (j - (i + 1)))) by lia. exact B.
Qed.

Lemma cinv_init vis : alen vis = QUE_MAX ->
  (forall c, valid W c -> (vs vis c = true <-> c = current \/ In c ns)) ->
  (forall c, In c ns -> uw c = false) ->
  Cinv [] [] (fun c => if coord_eqb c current then O else 1%nat) (Cst (label 0 ns) vis).
Proof.

  intros La Hv Hu.
  assert (Nc : ~ In current ns) by (intros H; apply nbrs_step in H; now apply step_irrefl in H).
  assert (Dn : forall c, In c ns -> (if coord_eqb c current then O else 1%nat) = 1%nat).
  { intros c Hc. destruct (coord_eqb_spec c current) as [->|]; [contradiction|reflexivity]. }
  constructor; cbn [c_que c_vis app]; rewrite ?label_ks; auto.
  - constructor; [exact Nc|apply nbrs_nodup].
  - intros c Hc. apply (step_valid current); [exact Hcur|now apply nbrs_step].
  - intros c Vc. rewrite (Hv c Vc). simpl. intuition.
  - now rewrite coord_eqb_refl.
  - intros c i Hi. destruct (label_in ns 0 c i Hi) as [A B]. rewrite Z.sub_0_r in B.
    assert (Hc : In c ns) by (eapply nth_error_In; eauto).
    exists c, []. split; [exact A|]. split; [exact B|]. split.
    + split; [now apply nbrs_step|exact Logic.I].
    + split; [reflexivity|]. now rewrite Dn.
  - intros u v [<-|[]] St. rewrite coord_eqb_refl.
    assert (Hv' : In v ns) by now apply nbrs_step.
    split; [now right|]. rewrite Dn by exact Hv'. lia.
  - intros u q [].
  - intros u q [].
  - assert (H : forall l i, (forall c, In c l -> In c ns) ->
       StronglySorted (fun a b : coord * Z => ((if coord_eqb (fst a) current then 0 else 1) <=
         (if coord_eqb (fst b) current then 0 else 1))%nat) (label i l)).
    { induction l as [|a l IH]; intros i H; simpl; constructor.
      - apply IH. intros; apply H; now right.
      - apply Forall_forall. intros [b j] Hb. cbn [fst].
        rewrite !Dn; [lia| |apply H; now left].
        apply label_in in Hb as [_ Hb]. apply nth_error_In in Hb. apply H; now right. }
    apply H; auto.
  - intros a b Ha Hb. rewrite (Dn b) by exact Hb. lia.
Qed.

(** ** The candidate list *)

Definition nearb (a b : coord) : bool :=
  (is_top a && (pat 0 (-2) (cx b - cx a) (cy b - cy a) || pat 0 2 (cx b - cx a) (cy b - cy a)))
  || (negb (is_top a) && (pat (-2) 0 (cx b - cx a) (cy b - cy a) || pat 2 0 (cx b - cx a) (cy b - cy a)))
  || (pat 1 (-1) (cx b - cx a) (cy b - cy a) || pat (-1) (-1) (cx b - cx a) (cy b - cy a)
      || pat (-1) 1 (cx b - cx a) (cy b - cy a) || pat 1 1 (cx b - cx a) (cy b - cy a)).

Lemma is_neighbor_ok a b : on_board W a -> on_board W b -> is_neighbor a b = Ret (nearb a b).
Proof.
  clear - HW. intros [A1 A2] [B1 B2]. pose proof (supported_bounds W HW).
  unfold is_neighbor. rewrite !as_i8_small by lia. rewrite !chk_i8_ok by lia. reflexivity.
Qed.

Lemma pat_spec a b x y : pat a b x y = true <-> x = a /\ y = b.
Proof. unfold pat. rewrite andb_true_iff, !Z.eqb_eq. tauto. Qed.

Lemma nearb_spec a b : nearb a b = true <-> adjacent a b.
Proof.
  unfold nearb, adjacent, dirs, straight_dirs. rewrite is_top_odd.
  rewrite !orb_true_iff, !andb_true_iff, !orb_true_iff, !pat_spec.
  split.
  - intros H.
    exists (cx b - cx a, cy b - cy a). split.
    + destruct (Z.odd (cy a)); simpl in *;
      repeat (destruct H as [H|H] || destruct H as [? H]); subst; try discriminate;
      repeat match goal with H : _ = _ |- _ => first [rewrite H | fail] end; auto 10.
    + apply coord_ext; simpl; ring.
  - intros (v & Hv & ->). unfold shift; simpl.
    replace (cx a + 1 * fst v - cx a) with (fst v) by ring.
    replace (cy a + 1 * snd v - cy a) with (snd v) by ring.
    destruct (Z.odd (cy a)); simpl in Hv;
    repeat (destruct Hv as [<-|Hv]; [simpl; auto 20|]); destruct Hv.
Qed.

End Nb.
