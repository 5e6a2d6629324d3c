(** [candidates] and [search] characterised. *)
From Coq Require Import ZArith List Bool Lia Arith Permutation ZifyBool.
From Verif Require Import Base SearchModel SearchSpec SearchCoord SearchBfs SearchBfsInv SearchPath SearchUnk SearchCand.
Import ListNotations.
Open Scope Z_scope.
Ltac Zify.zify_post_hook ::= Z.div_mod_to_equations.

Lemma filter_perm {A} (P : A -> bool) l :
  Permutation l (List.filter P l ++ List.filter (fun x => negb (P x)) l).
Proof.
  induction l as [|a l IH]; simpl; [constructor|].
  destruct (P a); simpl; [now constructor|]. now apply Permutation_cons_app.
Qed.

Section CandList.
Variable W : Z.
Hypothesis HW : supported W.

Definition keep (nearest current : coord) (want : bool) (n : coord) : bool :=
  Bool.eqb (nearb nearest n) want && negb (coord_eqb nearest n || coord_eqb current n).

Lemma cand_push_ok nearest current want ns : on_board W nearest -> Forall (on_board W) ns ->
  forall acc, llen acc + llen (List.filter (keep nearest current want) ns) <= 6 ->
  cand_push nearest current want ns acc = Ret (acc ++ List.filter (keep nearest current want) ns).
Proof.
  intros Bn. induction ns as [|n ns IH]; intros Fn acc Hl; cbn [cand_push List.filter].
  - now rewrite app_nil_r.
  - inversion_clear Fn as [|? ? Hn Fn']. rewrite (is_neighbor_ok W HW) by assumption. cbn [bind].
    cbn [List.filter] in Hl. fold (keep nearest current want n).
    destruct (keep nearest current want n).
    + unfold llen in Hl. simpl length in Hl. rewrite vpush_ok by (unfold llen; lia). cbn [bind].
      rewrite IH; [now rewrite <- app_assoc|exact Fn'|].
      rewrite llen_app. unfold llen. simpl length. lia.
    + apply IH; assumption.
Qed.

Lemma cand_list_ok current ns nearest : on_board W nearest -> Forall (on_board W) ns ->
  NoDup ns -> In nearest ns -> ~ In current ns -> (length ns <= 6)%nat ->
  exists A B, cand_list current ns nearest = Ret (nearest :: A ++ B) /\
    Permutation ns (nearest :: A ++ B) /\
    (forall a, In a A -> adjacent nearest a) /\ (forall b, In b B -> ~ adjacent nearest b).
Proof.
  intros Bn Fn ND Hn Hc L6.
  set (A := List.filter (keep nearest current true) ns).
  set (B := List.filter (keep nearest current false) ns).
  assert (HA : forall a, In a A <-> In a ns /\ nearb nearest a = true /\ nearest <> a).
  { intros a. unfold A, keep. rewrite filter_In, andb_true_iff, negb_true_iff, orb_false_iff, eqb_true_iff.
    destruct (coord_eqb_spec nearest a) as [->|], (coord_eqb_spec current a) as [->|];
      intuition congruence. }
  assert (HB : forall a, In a B <-> In a ns /\ nearb nearest a = false /\ nearest <> a).
  { intros a. unfold B, keep. rewrite filter_In, andb_true_iff, negb_true_iff, orb_false_iff, eqb_true_iff.
    destruct (coord_eqb_spec nearest a) as [->|], (coord_eqb_spec current a) as [->|];
      intuition congruence. }
  assert (P : Permutation ns (nearest :: A ++ B)).
  { apply NoDup_Permutation; [exact ND| |].
    - constructor.
      + rewrite in_app_iff, HA, HB. tauto.
      + assert (NA : NoDup A) by now apply NoDup_filter.
        assert (NB : NoDup B) by now apply NoDup_filter.
        assert (Dj : forall a, In a A -> ~ In a B).
        { intros a Ha Hb. apply HA in Ha. apply HB in Hb. destruct Ha as (_ & E1 & _), Hb as (_ & E2 & _). congruence. }
        clear - NA NB Dj. induction NA as [|a A Ha NA IH]; simpl; [exact NB|].
        constructor.
        * rewrite in_app_iff. intros [H|H]; [auto|]. apply (Dj a); [now left|exact H].
        * apply IH. intros x Hx. apply Dj. now right.
    - intros x. simpl. rewrite in_app_iff, HA, HB.
      destruct (coord_eq_dec nearest x) as [<-|Hne]; [tauto|].
      destruct (nearb nearest x); intuition congruence. }
  assert (LP : (length ns = 1 + length A + length B)%nat).
  { rewrite (Permutation_length P). simpl. rewrite app_length. lia. }
  exists A, B. split.
  - unfold cand_list. rewrite vpush_ok by (unfold llen; simpl length; lia). cbn [bind app].
    rewrite cand_push_ok; [|exact Bn|exact Fn|]; cycle 1.
    { fold A. unfold llen. simpl length. lia. }
    cbn [bind]. fold A.
    rewrite cand_push_ok; [|exact Bn|exact Fn|]; cycle 1.
    { fold B. unfold llen. simpl length. lia. }
    fold B. reflexivity.
  - split; [exact P|]. split.
    + intros a Ha. apply HA in Ha as (_ & E & _). now apply nearb_spec.
    + intros b Hb. apply HB in Hb as (_ & E & _). rewrite <- nearb_spec. congruence.
Qed.

Variable wsr : coord -> res wall_state.
Variable ws : coord -> wall_state.
Hypothesis Hws : forall c, valid W c -> wsr c = Ret (ws c).
Variable current : coord.
Hypothesis Hcur : valid W current.
Variable uwr : coord -> res bool.
Variable uw : coord -> bool.
Hypothesis Huw : forall c, valid W c -> uwr c = Ret (uw c).

Definition cand_result (l : list coord) : Prop :=
  exists f A B, l = f :: A ++ B /\ nearest_ok W ws current uw f /\
    Permutation (nbrs W ws current) l /\
    (forall a, In a A -> adjacent f a) /\ (forall b, In b B -> ~ adjacent f b).

Lemma candidates_ok :
  (candidates W current wsr uwr = Ret None /\ no_wanted W ws current uw) \/
  (exists l, candidates W current wsr uwr = Ret (Some l) /\ cand_result l).
Proof.
  unfold candidates.
  pose proof (as_index_que W current HW (proj1 Hcur)) as IBc.
  rewrite aset_ok by exact IBc. cbn [bind].
  rewrite (neighbors_ok W HW wsr ws Hws) by exact Hcur. cbn [bind].
  set (ns := nbrs W ws current).
  assert (CL : forall f, In f ns -> exists A B, cand_list current ns f = Ret (f :: A ++ B) /\
    Permutation ns (f :: A ++ B) /\
    (forall a, In a A -> adjacent f a) /\ (forall b, In b B -> ~ adjacent f b)).
  { assert (Fb : Forall (on_board W) ns).
    { apply Forall_forall. intros n Hn. apply nbrs_step in Hn as (_ & Hn & _). exact Hn. }
    intros f Hf. apply cand_list_ok; auto.
    - rewrite Forall_forall in Fb; auto.
    - subst ns; apply nbrs_nodup.
    - intros H. apply nbrs_step in H. now apply step_irrefl in H.
    - apply nbrs_len. }
  destruct (cand_init_ok W HW wsr ws Hws current Hcur uwr uw Huw ns [] (aupd (anew QUE_MAX false) (as_index W current) true))
    as [(vis & E & La & Hv & Hu)|(g & E & Hg & Ug)].
  - reflexivity.
  - reflexivity.
  - intros c Vc. unfold vs. rewrite araw_upd, araw_new by (try apply IBc; apply (as_index_que W c HW), Vc).
    destruct (Z.eqb_spec (as_index W current) (as_index W c)) as [E|E].
    + split; [left; symmetry; now apply (as_index_inj W)|reflexivity].
    + split; [congruence|]. intros [->|[]]. congruence.
  - intros c [].
  - cbn [label] in E. unfold llen in E. simpl length in E. change (Z.of_nat 0) with 0 in E. rewrite E. cbn [bind].
    pose proof (cinv_init W wsr ws Hws current Hcur uwr uw Huw vis La Hv Hu) as I.
    destruct (cand_while_ok W HW wsr ws Hws current Hcur uwr uw Huw BFS_FUEL _ _ _ I)
      as [[E' Nw]|(i & f & E' & Hi & Hf & Nf)].
    { rewrite BFS_FUEL_val. pose proof (que_bound W HW). unfold llen; simpl length. lia. }
    + left. rewrite E'. cbn [bind]. auto.
    + right. rewrite E'. fold ns in Hf. cbn [bind].
      unfold vget. destruct (Z.leb_spec 0 i); [|lia]. rewrite Hf. cbn [bind].
      destruct (CL f (nth_error_In _ _ Hf)) as (A & B & -> & P & HA & HB). cbn [bind].
      eexists; split; [reflexivity|]. exists f, A, B. auto.
  - cbn [label] in E. unfold llen in E. simpl length in E. change (Z.of_nat 0) with 0 in E. rewrite E. cbn [bind].
    destruct (CL g Hg) as (A & B & -> & P & HA & HB). cbn [bind].
    right. eexists; split; [reflexivity|]. exists g, A, B. split; [reflexivity|].
    split; [|auto]. exists [], g. split; [split; [now apply nbrs_step|exact I]|].
    split; [reflexivity|]. split; [exact Ug|]. split.
    + intros ->. apply nbrs_step in Hg. now apply step_irrefl in Hg.
    + intros g' l' Ug' Ng' Hl' El'. destruct l' as [|]; simpl in *; [congruence|lia].
Qed.

End CandList.

(** ** search *)

Lemma okf_maybe ws d : okf ws d = maybe_open ws d.
Proof. unfold okf, maybe_open. destruct (ws d) as [|[]]; reflexivity. Qed.

Lemma run_ext W f g c d : (forall x, f x = g x) -> run W f c d -> run W g c d.
Proof.
  intros E (v & Hv & n & Hn & Ed & O). exists v. split; [exact Hv|]. exists n.
  split; [exact Hn|]. split; [exact Ed|]. intros k Hk. rewrite <- E. now apply O.
Qed.

Lemma slot_index W a b : supported W -> on_board W a -> on_board W b ->
  (as_index W a = as_index W b <-> slot a = slot b).
Proof.
  intros HW Ha Hb. rewrite !as_index_eq by assumption. unfold slot.
  destruct a as [x y], b as [u v]; unfold on_board in *; simpl in *.
  pose proof (Zmod_odd y) as My. pose proof (Zmod_odd v) as Mv.
  split.
  - intros E. assert (x / 2 = u / 2 /\ y / 2 = v / 2 /\ y mod 2 = v mod 2) as (-> & -> & Em)
      by (destruct_supported HW; lia).
    f_equal. destruct (Z.odd y), (Z.odd v); congruence || lia.
  - intros E. injection E as E1 E2 E3. rewrite E1, E2, My, Mv, E3. reflexivity.
Qed.

Section Search.
Variable W : Z.
Hypothesis HW : supported W.
Variable start : coord.
Hypothesis Hstart : valid W start.
Variable goals : list coord.
Hypothesis Hgoals : Forall (valid W) goals.
Variable wsr : coord -> res wall_state.
Variable ws : coord -> wall_state.
Hypothesis Hws : forall c, on_board W c -> wsr c = Ret (ws c).
Variable current : coord.
Hypothesis Hcur : valid W current.

Lemma searcher_new_ok : exists gf, searcher_new W start goals = Ret (Searcher start gf) /\
  filter_ok gf /\ forall d, valid W d -> (isgoal W gf d = true <-> In d goals).
Proof.
  destruct (filter_with_coord_ok W goals HW Hgoals) as (gf & E & Hf & H).
  exists gf. unfold searcher_new. rewrite E. auto.
Qed.

Lemma chain_valid op c l : valid W c -> chain (run W op) c l -> Forall (valid W) l.
Proof.
  revert c. induction l as [|d l IH]; intros c Vc H; constructor.
  - destruct H as [R _]. now apply run_valid in R.
  - destruct H as [R H]. apply (IH d); [|exact H]. now apply run_valid in R.
Qed.

Lemma last_valid op c l : valid W c -> chain (run W op) c l -> valid W (last l c).
Proof.
  revert c. induction l as [|d l IH]; intros c Vc H; [exact Vc|].
  destruct H as [R H]. rewrite last_cons. apply IH; [|exact H]. now apply run_valid in R.
Qed.

Lemma passes_board op p l e : valid W p -> chain (run W op) p l -> passes p l e -> on_board W e.
Proof.
  revert p. induction l as [|d l IH]; intros p Vp H; [intros []|].
  destruct H as [R H]. intros [S|S].
  - now apply (run_seg_board W wsr ws Hws op p d).
  - apply (IH d); auto. now apply run_valid in R.
Qed.

Notation mo := (maybe_open ws).
Notation opn := (fun c => Ret (negb (mo c))).

Inductive search_spec (r : search_out) : Prop :=
| sp_unreach : r = SErr -> unreachable W mo start goals -> search_spec r
| sp_found l : best_route W mo start goals l ->
    (forall se, searcher_new W start goals = Ret se ->
       shortest_path W se (fun c => let* s := wsr c in Ret (is_checked_true s)) = Ret (Some (start :: l))) ->
    (r = SNone /\ (forall e, passes start l e -> ws e <> Unchecked) \/
     (exists e, passes start l e /\ ws e = Unchecked) /\
     (r = SErr /\ (forall d m, wanted W ws start l d -> d <> current ->
                     ~ (chain (step W mo) current m /\ last m current = d)) \/
      exists cs f A B, r = SSome cs /\ cs = f :: A ++ B /\
        (exists m d, chain (step W mo) current (f :: m) /\ last (f :: m) current = d /\
           wanted W ws start l d /\ d <> current /\
           forall d' m', wanted W ws start l d' -> d' <> current ->
              chain (step W mo) current m' -> last m' current = d' -> (length (f :: m) <= length m')%nat) /\
        NoDup cs /\ (forall d, In d cs <-> step W mo current d) /\
        (forall a, In a A -> adjacent f a) /\ (forall b, In b B -> ~ adjacent f b))) ->
    search_spec r.

Lemma step_ext c d : step W (okf ws) c d <-> step W mo c d.
Proof. unfold step. now rewrite okf_maybe. Qed.

Lemma chain_ext R R' c l : (forall a b, R a b <-> R' a b) -> (chain R c l <-> chain R' c l).
Proof.
  intros H. revert c. induction l as [|d l IH]; intros c; simpl; [tauto|]. now rewrite H, IH.
Qed.

Lemma search_ok : exists se r, searcher_new W start goals = Ret se /\
  search W se current wsr = Ret r /\ search_spec r.
Proof.
  destruct searcher_new_ok as (gf & Es & Hgf & Hg). exists (Searcher start gf).
  assert (Hwall : forall c, valid W c ->
    (let* s := wsr c in Ret (is_checked_true s)) = Ret (negb (mo c))).
  { intros c Vc. rewrite Hws by apply Vc. cbn [bind]. unfold maybe_open.
    destruct (ws c) as [|[]]; reflexivity. }
  assert (HwsV : forall c, valid W c -> wsr c = Ret (ws c)) by (intros c Vc; apply Hws, Vc).
  unfold search.
  destruct (bfs_tree_ok W HW mo start Hstart gf Hgf _ Hwall)
    as [[E H]|(prev & g & D & disc & E & T & Hgd & Gg & Ng & Bd & Min)].
  - rewrite E. cbn [bind]. eexists; split; [exact Es|]. split; [reflexivity|].
    apply sp_unreach; [reflexivity|]. intros g l Hgin Hne Hr.
    rewrite Forall_forall in Hgoals. pose proof (Hgoals g Hgin) as Vg.
    apply (H g l Vg); auto. now apply Hg.
  - rewrite E. cbn [bind].
    pose proof (sp_while_ok W HW mo start) as SP.
    destruct (tpath_exists W mo start prev D disc T (D g) g Hgd eq_refl) as (l & Tp & Cl & Ll & Len).
    assert (Best : best_route W mo start goals l).
    { split.
      - exists g. split; [apply Hg; [apply T, Hgd|exact Gg]|]. split; [exact Ng|]. split; assumption.
      - intros g' l' Hg' Ng' [Cl' Ll']. rewrite Len. apply (Min g' l'); auto.
        apply Hg; [|exact Hg']. rewrite Forall_forall in Hgoals. auto. }
    assert (SPl : forall se, searcher_new W start goals = Ret se ->
       shortest_path W se (fun c => let* s := wsr c in Ret (is_checked_true s)) = Ret (Some (start :: l))).
    { intros se Ese. rewrite Es in Ese. injection Ese as <-. unfold shortest_path. rewrite E. cbn [bind s_start].
      destruct (SP _ Hwall prev D disc T (D g) g [] BFS_FUEL Hgd eq_refl)
        as (q & l' & E1 & R1 & _ & _ & _ & Tp').
      { rewrite BFS_FUEL_val. specialize (Bd g Hgd). pose proof (que_bound W HW). lia. }
      { specialize (Bd g Hgd). pose proof (que_bound W HW). unfold llen; simpl length. lia. }
      rewrite E1. cbn [bind app]. rewrite R1. now rewrite (tpath_fun W start prev g l l' Tp Tp'). }
    clear SP.
    unfold unchecked_walls. cbn [s_start].
    destruct (uw_while_ok W HW wsr ws Hws mo start prev D disc T BFS_FUEL g filter_new false l Hgd Ng)
      as (f & b & Ef & Hf & Hfb & Hb).
    { specialize (Bd g Hgd). pose proof (que_bound W HW). pose proof BFS_FUEL_val. lia. }
    { apply filter_new_ok. }
    { exact Tp. }
    rewrite Ef. cbn [bind fst snd].
    destruct b.
    + destruct (proj1 Hb eq_refl) as [Hbad|Hex]; [discriminate|].
      assert (Hwant : forall d, valid W d -> (fbit W f d = true <-> wanted W ws start l d)).
      { intros d Vd. rewrite (Hfb d (proj1 Vd)), fbit_new. unfold wanted. split.
        - intros [H|(e & H1 & H2 & H3)]; [discriminate|]. split; [exact Vd|]. exists e.
          split; [exact H1|]. split; [exact H2|].
          apply (slot_index W); auto; [|apply Vd].
          apply (passes_board mo start l); auto.
        - intros (_ & e & H1 & H2 & H3). right. exists e. split; [exact H1|]. split; [exact H2|].
          apply (slot_index W); auto; [|apply Vd].
          apply (passes_board mo start l); auto. }
      destruct (candidates_ok W HW wsr ws HwsV current Hcur
                  (fun c => filter_contains W f c) (fbit W f)) as [[Ec Nw]|(cs & Ec & fc & A & B & -> & Nr & P & HA & HB)].
      { intros c Vc. apply filter_contains_ok; auto. apply Vc. }
      * rewrite Ec. cbn [bind]. eexists; split; [exact Es|]. split; [reflexivity|].
        apply (sp_found _ l); auto. right. split; [exact Hex|]. left. split; [reflexivity|].
        intros d m Hd Nd [Cm Lm]. apply (Nw d m); auto.
        -- apply Hwant; [apply Hd|exact Hd].
        -- split; [|exact Lm]. revert Cm. apply chain_ext. intros a c. apply step_ext.
      * rewrite Ec. cbn [bind]. eexists; split; [exact Es|]. split; [reflexivity|].
        apply (sp_found _ l); auto. right. split; [exact Hex|]. right.
        exists (fc :: A ++ B), fc, A, B. split; [reflexivity|]. split; [reflexivity|].
        destruct Nr as (m & d & C1 & C2 & C3 & C4 & C5).
        assert (CE : forall m, chain (step W (okf ws)) current m <-> chain (step W mo) current m)
          by (intros; apply chain_ext; intros; apply step_ext).
        split.
        { exists m, d. split; [now apply CE|]. split; [exact C2|].
          assert (Vd : valid W d).
          { rewrite <- C2. clear - Hcur C1. revert C1. generalize (fc :: m). clear fc m.
            intros m C1. revert current Hcur C1. induction m as [|x m IH]; intros c Hc C; [exact Hc|].
            destruct C as [S C]. rewrite last_cons. apply IH; [|exact C].
            now apply (step_valid W ws c). }
          split; [apply Hwant; auto|]. split; [exact C4|].
          intros d' m' Hd' Nd' Cm' Lm'. apply (C5 d'); auto.
          - apply Hwant; [apply Hd'|exact Hd'].
          - now apply CE. }
        split; [apply (Permutation_NoDup P), nbrs_nodup|].
        split.
        { intros x. rewrite <- step_ext, <- nbrs_step. split; intros Hx.
          - now apply (Permutation_in _ (Permutation_sym P)).
          - now apply (Permutation_in _ P). }
        auto.
    + eexists; split; [exact Es|]. split; [reflexivity|].
      apply (sp_found _ l); auto. left. split; [reflexivity|].
      intros e He Hu. assert (false = true); [|discriminate]. apply Hb. right. eauto.
Qed.

End Search.
