(** Loop invariant of [bfs_tree]. *)
From Coq Require Import ZArith List Bool Lia Sorting.Sorted Arith.
From Verif Require Import Base SearchModel SearchSpec SearchCoord SearchBfs.
Import ListNotations.
Open Scope Z_scope.

Lemma kget_kadd_same s k : kget (kadd s k) k = true.
Proof. destruct k; reflexivity. Qed.

Lemma kget_kadd s k k' : kget (kadd s k) k' = true -> k' = k \/ kget s k' = true.
Proof. destruct k, k'; simpl; auto. Qed.

(** A duplicate-free list of valid coordinates has at most [2 W^2] elements. *)
Lemma valid_nodup_bound W l : supported W -> NoDup l -> Forall (valid W) l -> llen l <= 2 * W * W.
Proof.
  intros HW ND FV.
  set (g := fun c => Z.to_nat (as_index W c)).
  assert (ND' : NoDup (map g l)).
  { clear - HW ND FV. induction ND as [|c l Hn ND IH]; simpl; constructor.
    - rewrite in_map_iff. intros (d & E & Hd). apply Hn.
      inversion_clear FV as [|? ? Vc Vl]. rewrite Forall_forall in Vl. specialize (Vl d Hd).
      replace c with d; [exact Hd|]. apply (as_index_inj W); auto.
      unfold g in E. pose proof (as_index_bound W c HW (proj1 Vc)).
      pose proof (as_index_bound W d HW (proj1 Vl)). apply Z2Nat.inj in E; lia.
    - apply IH. now inversion_clear FV. }
  assert (I : incl (map g l) (seq 0 (Z.to_nat (2 * W * W)))).
  { intros n Hn. apply in_map_iff in Hn as (c & <- & Hc). apply in_seq.
    rewrite Forall_forall in FV. pose proof (as_index_bound W c HW (proj1 (FV c Hc))).
    unfold g. lia. }
  pose proof (NoDup_incl_length ND' I) as L. rewrite map_length, seq_length in L.
  unfold llen. pose proof (supported_bounds W HW). lia.
Qed.

Definition upd {A} (D : coord -> A) (c : coord) (n : A) : coord -> A :=
  fun x => if coord_eqb x c then n else D x.

Lemma upd_same {A} (D : coord -> A) c n : upd D c n c = n.
Proof. unfold upd. now rewrite coord_eqb_refl. Qed.

Lemma upd_other {A} (D : coord -> A) c n x : x <> c -> upd D c n x = D x.
Proof. intros H. unfold upd. destruct (coord_eqb_spec x c); congruence. Qed.

Section Inv.
Variable W : Z.
Hypothesis HW : supported W.
Variable op : coord -> bool.
Variable start : coord.
Hypothesis Hstart : valid W start.
Variable goalf : filter.
Hypothesis Hgoalf : filter_ok goalf.

Definition isgoal (c : coord) : bool := fbit W goalf c.
Definition pv (prev : arr (option coord)) (c : coord) : option coord := araw prev (as_index W c).
Definition kd (kinds : arr kset) (c : coord) : kset := araw kinds (as_index W c).

(** [exp]: expanded nodes; [cur]: the node being expanded (or nothing). *)
Record Inv (exp cur : list coord) (D : coord -> nat) (s : bfs_st) : Prop := {
  i_lp : alen (b_prev s) = QUE_MAX;
  i_lk : alen (b_kinds s) = QUE_MAX;
  i_nd : NoDup (exp ++ cur ++ b_que s);
  i_val : forall c, In c (exp ++ cur ++ b_que s) -> valid W c;
  i_disc : forall c, valid W c -> (pv (b_prev s) c <> None <-> In c (exp ++ cur ++ b_que s));
  i_start : In start (exp ++ cur ++ b_que s);
  i_D0 : D start = O;
  i_prev : forall c p, valid W c -> c <> start -> pv (b_prev s) c = Some p ->
      In p (exp ++ cur) /\ run W op p c /\ D c = S (D p);
  i_goal : forall c, In c (exp ++ cur ++ b_que s) -> c <> start -> isgoal c = false;
  i_exp : forall u v, In u exp -> run W op u v -> In v (exp ++ cur ++ b_que s) /\ (D v <= S (D u))%nat;
  i_kinds : forall c k, valid W c -> kget (kd (b_kinds s) c) k = true ->
      exists w, In w (exp ++ cur) /\ krun W op k w c;
  i_le : forall u q, In u (exp ++ cur) -> In q (b_que s) -> (D u <= D q)%nat;
  i_lecur : forall u h, In u exp -> In h cur -> (D u <= D h)%nat;
  i_sorted : StronglySorted (fun a b => (D a <= D b)%nat) (b_que s);
  i_gap : forall a b, In a (cur ++ b_que s) -> In b (b_que s) -> (D b <= S (D a))%nat;
  i_bound : forall c, In c (exp ++ cur ++ b_que s) -> (D c <= length (exp ++ cur))%nat;
  i_bcur : forall h, In h cur -> (D h <= length exp)%nat
}.

Lemma sorted_app (R : coord -> coord -> Prop) l x :
  StronglySorted R l -> (forall a, In a l -> R a x) -> StronglySorted R (l ++ [x]).
Proof.
  intros S H. induction S as [|a l S IH F]; simpl; constructor.
  - constructor.
  - constructor.
  - apply IH. intros; apply H; now right.
  - apply Forall_app. split; [exact F|]. constructor; [apply H; now left|constructor].
Qed.

Lemma sorted_ext (R R' : coord -> coord -> Prop) l :
  (forall a b, In a l -> In b l -> R a b -> R' a b) -> StronglySorted R l -> StronglySorted R' l.
Proof.
  intros H S. induction S as [|a l S IH F]; constructor.
  - apply IH. intros; apply H; simpl; auto.
  - rewrite Forall_forall in *. intros b Hb. apply H; simpl; auto.
Qed.

(** Discovering a new node while expanding [h]. *)
Lemma inv_discover exp h D s next k :
  Inv exp [h] D s -> valid W next -> krun W op k h next ->
  pv (b_prev s) next = None -> isgoal next = false ->
  Inv exp [h] (upd D next (S (D h)))
    (Bfs (b_que s ++ [next]) (aupd (b_prev s) (as_index W next) (Some h))
         (aupd (b_kinds s) (as_index W next) (kadd (kd (b_kinds s) next) k))).
Proof.
  intros I Vn Kr Pn Gn.
  assert (Hh : In h (exp ++ [h] ++ b_que s)) by (rewrite !in_app_iff; simpl; auto).
  assert (Vh : valid W h) by (apply (i_val _ _ _ _ I); exact Hh).
  assert (Nn : ~ In next (exp ++ [h] ++ b_que s)).
  { intros Hin. apply (i_disc _ _ _ _ I) in Hin; auto. }
  assert (Ne : forall c, In c (exp ++ [h] ++ b_que s) -> c <> next) by (intros c Hc ->; auto).
  assert (Dn : forall c, In c (exp ++ [h] ++ b_que s) -> upd D next (S (D h)) c = D c)
    by (intros c Hc; apply upd_other; auto).
  assert (In_ : forall c, In c (exp ++ [h] ++ b_que s ++ [next]) <->
                In c (exp ++ [h] ++ b_que s) \/ c = next).
  { intros c. rewrite !in_app_iff. simpl. intuition. }
  assert (Dh : upd D next (S (D h)) h = D h) by auto.
  assert (IB : forall c, on_board W c -> 0 <= as_index W c < QUE_MAX)
    by (intros; now apply as_index_que).
  assert (PV : forall c, valid W c -> pv (aupd (b_prev s) (as_index W next) (Some h)) c =
               if coord_eqb c next then Some h else pv (b_prev s) c).
  { intros c Vc. unfold pv. rewrite araw_upd by (apply IB; [apply Vn || apply Vc]).
    destruct (coord_eqb_spec c next) as [->|Hne]; [now rewrite Z.eqb_refl|].
    destruct (Z.eqb_spec (as_index W next) (as_index W c)) as [E|E]; [|reflexivity].
    exfalso. apply Hne. symmetry. now apply (as_index_inj W). }
  assert (KD : forall c, valid W c -> kd (aupd (b_kinds s) (as_index W next) (kadd (kd (b_kinds s) next) k)) c =
               if coord_eqb c next then kadd (kd (b_kinds s) next) k else kd (b_kinds s) c).
  { intros c Vc. unfold kd at 1. rewrite araw_upd by (apply IB; [apply Vn || apply Vc]).
    destruct (coord_eqb_spec c next) as [->|Hne]; [now rewrite Z.eqb_refl|].
    destruct (Z.eqb_spec (as_index W next) (as_index W c)) as [E|E]; [|reflexivity].
    exfalso. apply Hne. symmetry. now apply (as_index_inj W). }
  assert (Sub : forall c, In c (exp ++ [h]) -> In c (exp ++ [h] ++ b_que s)).
  { intros c. rewrite !in_app_iff. tauto. }
  assert (SubQ : forall c, In c (b_que s) -> In c (exp ++ [h] ++ b_que s)).
  { intros c. rewrite !in_app_iff. tauto. }
  assert (SubE : forall c, In c exp -> In c (exp ++ [h] ++ b_que s)).
  { intros c. rewrite !in_app_iff. tauto. }
  constructor; cbn [b_que b_prev b_kinds].
  - apply (i_lp _ _ _ _ I).
  - apply (i_lk _ _ _ _ I).
  - pose proof (i_nd _ _ _ _ I) as ND.
    replace (exp ++ [h] ++ b_que s ++ [next]) with ((exp ++ [h] ++ b_que s) ++ [next])
      by now rewrite <- !app_assoc.
    apply (NoDup_Add (a := next) (l := exp ++ [h] ++ b_que s)).
    + rewrite <- (app_nil_r (exp ++ [h] ++ b_que s)) at 1. apply Add_app.
    + auto.
  - intros c Hc. apply In_ in Hc as [Hc| ->]; [now apply (i_val _ _ _ _ I)|exact Vn].
  - intros c Vc. rewrite PV by exact Vc. rewrite In_.
    destruct (coord_eqb_spec c next) as [->|Hne]; [split; [auto|congruence]|].
    rewrite (i_disc _ _ _ _ I c Vc). tauto.
  - apply In_. left. apply (i_start _ _ _ _ I).
  - rewrite Dn by apply (i_start _ _ _ _ I). apply (i_D0 _ _ _ _ I).
  - intros c p Vc Hs. rewrite PV by exact Vc.
    destruct (coord_eqb_spec c next) as [->|Hne].
    + intros E; injection E as <-. split; [rewrite in_app_iff; simpl; auto|].
      split; [apply run_krun; eauto|]. now rewrite upd_same, Dh.
    + intros E. destruct (i_prev _ _ _ _ I c p Vc Hs E) as (Hp & R & ED).
      split; [exact Hp|]. split; [exact R|].
      rewrite upd_other by exact Hne. rewrite Dn by auto. exact ED.
  - intros c Hc Hs. apply In_ in Hc as [Hc| ->]; [now apply (i_goal _ _ _ _ I)|exact Gn].
  - intros u v Hu R. destruct (i_exp _ _ _ _ I u v Hu R) as [Hv L].
    split; [apply In_; now left|]. rewrite !Dn by auto. exact L.
  - intros c k' Vc. rewrite KD by exact Vc.
    destruct (coord_eqb_spec c next) as [->|Hne]; [|now apply (i_kinds _ _ _ _ I)].
    intros E. apply kget_kadd in E as [->|E].
    + exists h. split; [rewrite in_app_iff; simpl; auto|exact Kr].
    + now apply (i_kinds _ _ _ _ I).
  - intros u q Hu Hq. rewrite in_app_iff in Hq. rewrite (Dn u) by auto.
    destruct Hq as [Hq|[<-|[]]].
    + rewrite Dn by auto. now apply (i_le _ _ _ _ I).
    + rewrite upd_same. rewrite in_app_iff in Hu. destruct Hu as [Hu|[<-|[]]]; [|lia].
      pose proof (i_lecur _ _ _ _ I u h Hu (or_introl eq_refl)). lia.
  - intros u h' Hu [<-|[]]. rewrite Dh, (Dn u) by auto. apply (i_lecur _ _ _ _ I); simpl; auto.
  - apply sorted_app.
    + apply (sorted_ext (fun a b => (D a <= D b)%nat)); [|apply (i_sorted _ _ _ _ I)].
      intros a b Ha Hb L. rewrite !Dn by auto. exact L.
    + intros a Ha. rewrite upd_same, Dn by auto. apply (i_gap _ _ _ _ I); simpl; auto.
  - intros a b Ha Hb. rewrite in_app_iff in Hb.
    assert (Ha' : In a ([h] ++ b_que s) \/ a = next).
    { simpl in Ha. rewrite in_app_iff in Ha. simpl in Ha. simpl. intuition. }
    destruct Hb as [Hb|[<-|[]]].
    + rewrite (Dn b) by auto. destruct Ha' as [Ha'| ->].
      * rewrite Dn by (apply in_or_app; now right). apply (i_gap _ _ _ _ I); auto.
      * rewrite upd_same. pose proof (i_gap _ _ _ _ I h b ltac:(simpl; auto) Hb). lia.
    + rewrite upd_same. destruct Ha' as [Ha'| ->]; [|rewrite upd_same; lia].
      rewrite Dn by (apply in_or_app; now right).
      destruct Ha' as [<-|Ha']; [lia|].
      pose proof (i_le _ _ _ _ I h a ltac:(rewrite in_app_iff; simpl; auto) Ha'). lia.
  - intros c Hc. apply In_ in Hc as [Hc| ->].
    + rewrite Dn by auto. now apply (i_bound _ _ _ _ I).
    + rewrite upd_same. rewrite app_length. simpl.
      pose proof (i_bcur _ _ _ _ I h (or_introl eq_refl)). lia.
  - intros h' [<-|[]]. rewrite Dh. apply (i_bcur _ _ _ _ I); simpl; auto.
Qed.

(** Meeting an already discovered node while expanding [h]. *)
Lemma inv_seen exp h D s next k :
  Inv exp [h] D s -> valid W next -> krun W op k h next ->
  Inv exp [h] D (Bfs (b_que s) (b_prev s)
    (aupd (b_kinds s) (as_index W next) (kadd (kd (b_kinds s) next) k))).
Proof.
  intros I Vn Kr.
  assert (IB : forall c, on_board W c -> 0 <= as_index W c < QUE_MAX)
    by (intros; now apply as_index_que).
  destruct I. constructor; cbn [b_que b_prev b_kinds]; auto.
  intros c k' Vc. unfold kd at 1. rewrite araw_upd by (apply IB; [apply Vn || apply Vc]).
  destruct (Z.eqb_spec (as_index W next) (as_index W c)) as [E|E]; [|now apply i_kinds0].
  assert (c = next) as -> by (symmetry; now apply (as_index_inj W)).
  intros E'. apply kget_kadd in E' as [->|E']; [|now apply i_kinds0].
  exists h. split; [rewrite in_app_iff; simpl; auto|exact Kr].
Qed.

Lemma inv_pop exp D h q p k :
  Inv exp [] D (Bfs (h :: q) p k) -> Inv exp [h] D (Bfs q p k).
Proof.
  intros I. destruct I; cbn [b_que b_prev b_kinds] in *; constructor; cbn [b_que b_prev b_kinds]; auto.
  - intros c p' Vc Hs E. destruct (i_prev0 c p' Vc Hs E) as (A & B & C). split; [|auto].
    rewrite app_nil_r in A. apply in_or_app; now left.
  - intros c k' Vc E. destruct (i_kinds0 c k' Vc E) as (w & A & B). exists w. split; [|exact B].
    rewrite app_nil_r in A. apply in_or_app; now left.
  - intros u q' Hu Hq. apply in_app_iff in Hu as [Hu|[<-|[]]].
    + apply i_le0; [now rewrite app_nil_r|now right].
    + inversion_clear i_sorted0 as [|? ? S F]. rewrite Forall_forall in F. now apply F.
  - intros u h' Hu [<-|[]]. apply i_le0; [now rewrite app_nil_r|now left].
  - now inversion_clear i_sorted0.
  - intros a b Ha Hb. apply i_gap0; [exact Ha|now right].
  - intros c Hc. specialize (i_bound0 c Hc). rewrite app_length in *. simpl in *. lia.
  - intros h' [<-|[]]. specialize (i_bound0 h ltac:(rewrite in_app_iff; simpl; auto)).
    rewrite app_nil_r in i_bound0. exact i_bound0.
Qed.

Lemma inv_done exp h D s :
  Inv exp [h] D s ->
  (forall v, run W op h v -> In v (exp ++ [h] ++ b_que s) /\ (D v <= S (D h))%nat) ->
  Inv (exp ++ [h]) [] D s.
Proof.
  intros I Hr. destruct I.
  assert (E : (exp ++ [h]) ++ [] ++ b_que s = exp ++ [h] ++ b_que s)
    by (rewrite <- app_assoc; reflexivity).
  constructor; rewrite ?E; rewrite ?app_nil_r; auto.
  - intros u v Hu R. apply in_app_iff in Hu as [Hu|[<-|[]]]; auto.
  - intros u h' _ [].
  - intros a b Ha Hb. apply i_gap0; [now apply in_or_app; right|exact Hb].
  - intros h' [].
Qed.

Lemma inv_init : Inv [] [] (fun _ => O)
  (Bfs [start] (aupd (anew QUE_MAX None) (as_index W start) (Some start))
       (anew QUE_MAX (KS false false false))).
Proof.
  assert (IB : forall c, on_board W c -> 0 <= as_index W c < QUE_MAX)
    by (intros; now apply as_index_que).
  assert (PV : forall c, valid W c -> pv (aupd (anew QUE_MAX None) (as_index W start) (Some start)) c =
               if coord_eqb c start then Some start else None).
  { intros c Vc. unfold pv. rewrite araw_upd, araw_new by (apply IB; [apply Hstart || apply Vc]).
    destruct (coord_eqb_spec c start) as [->|Hne]; [now rewrite Z.eqb_refl|].
    destruct (Z.eqb_spec (as_index W start) (as_index W c)) as [E|E]; [|reflexivity].
    exfalso. apply Hne. symmetry. now apply (as_index_inj W). }
  constructor; cbn [b_que b_prev b_kinds app]; auto.
  - constructor; [intros []|constructor].
  - intros c [<-|[]]; exact Hstart.
  - intros c Vc. rewrite PV by exact Vc. simpl.
    destruct (coord_eqb_spec c start) as [->|Hne]; [split; [auto|congruence]|].
    split; [congruence|intros [H|[]]; congruence].
  - now left.
  - intros c p Vc Hs. rewrite PV by exact Vc.
    destruct (coord_eqb_spec c start); congruence.
  - intros c [<-|[]]; congruence.
  - intros u v [].
  - intros c k Vc. unfold kd. rewrite araw_new. destruct k; discriminate.
  - repeat constructor.
Qed.

(** Facts that survive in the final [prev] array. *)
Definition tree (prev : arr (option coord)) (D : coord -> nat) (disc : list coord) : Prop :=
  alen prev = QUE_MAX /\ In start disc /\ (forall c, In c disc -> valid W c) /\
  D start = O /\
  forall c, In c disc -> exists p, pv prev c = Some p /\
    (c <> start -> In p disc /\ run W op p c /\ D c = S (D p)).

Lemma inv_tree exp cur D s : Inv exp cur D s -> tree (b_prev s) D (exp ++ cur ++ b_que s).
Proof.
  intros I. split; [apply (i_lp _ _ _ _ I)|]. split; [apply (i_start _ _ _ _ I)|].
  split; [apply (i_val _ _ _ _ I)|]. split; [apply (i_D0 _ _ _ _ I)|].
  intros c Hc. pose proof (i_val _ _ _ _ I c Hc) as Vc.
  destruct (pv (b_prev s) c) as [p|] eqn:E.
  - exists p. split; [reflexivity|]. intros Hs.
    destruct (i_prev _ _ _ _ I c p Vc Hs E) as (A & B & C). split; [|auto].
    rewrite app_assoc. apply in_or_app; now left.
  - apply (i_disc _ _ _ _ I) in Hc; [congruence|exact Vc].
Qed.

(** All goals are at least one run further than the node being expanded. *)
Lemma inv_lower exp h D s : Inv exp [h] D s ->
  forall g l, isgoal g = true -> g <> start -> chain (run W op) start l -> last l start = g ->
  (S (D h) <= length l)%nat.
Proof.
  intros I g l Hg Hgs Hl El.
  destruct (le_lt_dec (S (D h)) (length l)) as [L|L]; [exact L|exfalso].
  assert (P : forall l c, chain (run W op) c l -> In c (exp ++ [h] ++ b_que s) ->
     (D c + length l < S (D h))%nat ->
     In (last l c) (exp ++ [h] ++ b_que s)).
  { clear l Hl El L. induction l as [|d l IH]; intros c Hc Hin Hlen; [exact Hin|].
    destruct Hc as [R Hc]. simpl in Hlen.
    assert (Hexp : In c exp).
    { rewrite !in_app_iff in Hin. destruct Hin as [Hin|[[<-|[]]|Hin]]; [exact Hin| |]; exfalso.
      - lia.
      - pose proof (i_le _ _ _ _ I h c ltac:(rewrite in_app_iff; simpl; auto) Hin). lia. }
    destruct (i_exp _ _ _ _ I c d Hexp R) as [Hd Ld].
    rewrite last_cons. apply IH; auto. lia. }
  specialize (P l start Hl (i_start _ _ _ _ I)). rewrite (i_D0 _ _ _ _ I), El in P.
  rewrite (i_goal _ _ _ _ I g (P L) Hgs) in Hg. discriminate.
Qed.

(** With an empty queue nothing undiscovered is reachable. *)
Lemma inv_closed exp D s : Inv exp [] D s -> b_que s = [] ->
  forall l c, In c exp -> chain (run W op) c l -> In (last l c) exp.
Proof.
  intros I Q l. induction l as [|d l IH]; intros c Hc Hl; [exact Hc|].
  destruct Hl as [R Hl]. destruct (i_exp _ _ _ _ I c d Hc R) as [Hd _].
  rewrite Q, !app_nil_r in Hd.
    rewrite last_cons. now apply IH.
Qed.

Lemma bfs_for_ok exp h : forall ns D s, Inv exp [h] D s ->
  (forall n k, In (n, k) ns -> krun W op k h n) ->
  exists D' s', Inv exp [h] D' s' /\ D' h = D h /\
   (forall c, In c (exp ++ [h] ++ b_que s) -> In c (exp ++ [h] ++ b_que s') /\ D' c = D c) /\
   ((bfs_for W goalf h ns s = Ret (Cont s') /\
     forall n k, In (n, k) ns -> In n (exp ++ [h] ++ b_que s') /\ (D' n <= S (D' h))%nat)
    \/ exists g, bfs_for W goalf h ns s = Ret (Done (aupd (b_prev s') (as_index W g) (Some h), g)) /\
        pv (b_prev s') g = None /\ valid W g /\ isgoal g = true /\ run W op h g).
Proof.
  induction ns as [|[next k] ns IH]; intros D s I Hns.
  - exists D, s. split; [exact I|]. split; [reflexivity|]. split; [auto|].
    left. split; [reflexivity|]. intros n k [].
  - assert (Kr : krun W op k h next) by (apply Hns; now left).
    assert (Hns' : forall n k, In (n, k) ns -> krun W op k h n) by (intros; apply Hns; now right).
    assert (Hh : In h (exp ++ [h] ++ b_que s)) by (rewrite !in_app_iff; simpl; auto).
    assert (Vh : valid W h) by (apply (i_val _ _ _ _ I); exact Hh).
    assert (Rn : run W op h next) by (apply run_krun; eauto).
    destruct (run_valid W op h next Vh Rn) as [Vn _].
    pose proof (as_index_que W next HW (proj1 Vn)) as IBn.
    cbn [bfs_for].
    rewrite aget_ok by (rewrite (i_lk _ _ _ _ I); exact IBn). cbn [bind].
    rewrite aset_ok by (rewrite (i_lk _ _ _ _ I); exact IBn). cbn [bind].
    rewrite aget_ok by (rewrite (i_lp _ _ _ _ I); exact IBn). cbn [bind].
    change (araw (b_kinds s) (as_index W next)) with (kd (b_kinds s) next).
    change (araw (b_prev s) (as_index W next)) with (pv (b_prev s) next).
    destruct (pv (b_prev s) next) as [p|] eqn:Ep.
    + pose proof (inv_seen exp h D s next k I Vn Kr) as I'.
      destruct (IH D _ I' Hns') as (D' & s' & I2 & Dh & Mono & Res).
      cbn [b_que] in Mono.
      exists D', s'. split; [exact I2|]. split; [exact Dh|]. split; [exact Mono|].
      destruct Res as [[E H]|Res]; [left|right; exact Res].
      split; [exact E|]. intros n k' [Eq|Hin]; [|now apply (H n k')].
      injection Eq as <- <-.
      assert (Hd : In next (exp ++ [h] ++ b_que s)) by (apply (i_disc _ _ _ _ I); [exact Vn|congruence]).
      destruct (Mono next Hd) as [Hd' Ed]. split; [exact Hd'|].
      rewrite Ed, Dh.
      rewrite !in_app_iff in Hd. destruct Hd as [Hd|[[<-|[]]|Hd]].
      * pose proof (i_lecur _ _ _ _ I next h Hd (or_introl eq_refl)). lia.
      * lia.
      * apply (i_gap _ _ _ _ I); simpl; auto.
    + rewrite aset_ok by (rewrite (i_lp _ _ _ _ I); exact IBn). cbn [bind].
      rewrite filter_contains_ok by (assumption || apply Vn). cbn [bind].
      change (fbit W goalf next) with (isgoal next).
      destruct (isgoal next) eqn:Eg.
      * exists D, s. split; [exact I|]. split; [reflexivity|]. split; [auto|].
        right. exists next. auto.
      * pose proof (inv_discover exp h D s next k I Vn Kr Ep Eg) as I'.
        rewrite vpush_ok; cycle 1.
        { pose proof (valid_nodup_bound W _ HW (i_nd _ _ _ _ I')) as B.
          rewrite Forall_forall in B. specialize (B (i_val _ _ _ _ I')).
          cbn [b_que] in B. rewrite !llen_app in B. unfold llen at 2 4 in B. simpl in B.
          pose proof (llen_nonneg exp).
          assert (2 * W * W <= QUE_MAX)
            by (unfold QUE_MAX, WIDTH; pose proof (supported_bounds W HW); nia).
          lia. }
        cbn [bind].
        destruct (IH _ _ I' Hns') as (D' & s' & I2 & Dh & Mono & Res).
        cbn [b_que] in Mono.
        assert (Ne : h <> next).
        { intros ->. apply (i_disc _ _ _ _ I) in Hh; [congruence|exact Vn]. }
        assert (Dh' : upd D next (S (D h)) h = D h) by now apply upd_other.
        exists D', s'. split; [exact I2|]. split; [congruence|]. split.
        { intros c Hc. destruct (Mono c) as [A B].
          - rewrite !in_app_iff in *. tauto.
          - split; [exact A|]. rewrite B. apply upd_other. intros ->.
            apply (i_disc _ _ _ _ I) in Hc; [congruence|exact Vn]. }
        destruct Res as [[E H]|Res]; [left|right; exact Res].
        split; [exact E|]. intros n k' [Eq|Hin]; [|now apply (H n k')].
        injection Eq as <- <-.
        destruct (Mono next) as [A B]; [rewrite !in_app_iff; simpl; auto|].
        split; [exact A|]. rewrite B, upd_same, Dh, Dh'. lia.
Qed.

Variable is_wall : coord -> res bool.
Hypothesis Hwall : forall c, valid W c -> is_wall c = Ret (negb (op c)).

Lemma bfs_while_ok : forall n exp D s, Inv exp [] D s -> 2 * W * W - llen exp < Z.of_nat n ->
  (exists exp' D' s', bfs_while n W goalf is_wall s = Ret None /\
      Inv exp' [] D' s' /\ b_que s' = []) \/
  (exists exp' h D' s' g,
      bfs_while n W goalf is_wall s = Ret (Some (aupd (b_prev s') (as_index W g) (Some h), g)) /\
      Inv exp' [h] D' s' /\ pv (b_prev s') g = None /\ valid W g /\ isgoal g = true /\ run W op h g).
Proof.
  induction n as [|n IH]; intros exp D s I Hn.
  - exfalso. pose proof (valid_nodup_bound W _ HW (i_nd _ _ _ _ I)) as B.
    rewrite Forall_forall in B. specialize (B (i_val _ _ _ _ I)). rewrite !llen_app in B.
    pose proof (llen_nonneg (@nil coord)). pose proof (llen_nonneg (b_que s)). lia.
  - cbn [bfs_while]. destruct s as [que prev kinds]. cbn [b_que b_prev b_kinds].
    destruct que as [|h q].
    + left. exists exp, D, (Bfs [] prev kinds). auto.
    + assert (Hh : In h (exp ++ [] ++ h :: q)) by (rewrite !in_app_iff; simpl; auto).
      assert (Vh : valid W h) by (apply (i_val _ _ _ _ I); exact Hh).
      pose proof (as_index_que W h HW (proj1 Vh)) as IBh.
      pose proof (i_lk _ _ _ _ I) as LK; cbn [b_kinds] in LK.
      rewrite aget_ok by (rewrite LK; exact IBh). cbn [bind].
      destruct (extended_neighbors_ok W HW (fun c => let* b := is_wall c in Ret (negb b)) op)
        with (ex := araw kinds (as_index W h)) (c := h) as (ns & Ens & Hns).
      { intros c Vc. rewrite Hwall by exact Vc. cbn [bind]. now rewrite negb_involutive. }
      { exact Vh. }
      rewrite Ens. cbn [bind].
      pose proof (inv_pop _ _ _ _ _ _ I) as Ip.
      destruct (bfs_for_ok exp h ns D _ Ip) as (D' & s' & I2 & Dh & Mono & Res).
      { intros m k Hin. now apply Hns in Hin as [_ Hin]. }
      cbn [b_que] in Mono.
      destruct Res as [[E H]|(g & E & Pg & Vg & Gg & Rg)].
      * rewrite E. cbn [bind].
        assert (I3 : Inv (exp ++ [h]) [] D' s').
        { apply inv_done; [exact I2|]. intros v Rv. apply run_krun in Rv as [k Kv].
          destruct (kget (kd kinds h) k) eqn:Ek.
          - destruct (i_kinds _ _ _ _ I h k Vh Ek) as (w & Hw & Kw).
            rewrite app_nil_r in Hw.
            pose proof (i_lecur _ _ _ _ I2 w h Hw (or_introl eq_refl)) as Lw.
            destruct (krun_line W op k w h v Kw Kv) as [->|Kwv].
            + split; [rewrite in_app_iff; auto|]. lia.
            + destruct (i_exp _ _ _ _ I2 w v Hw ltac:(apply run_krun; eauto)) as [A B].
              split; [exact A|]. lia.
          - apply (H v k). apply Hns. auto. }
        apply (IH _ _ _ I3). rewrite llen_app. unfold llen at 2. simpl. lia.
      * right. exists exp, h, D', s', g. rewrite E. cbn [bind]. auto 10.
Qed.

End Inv.
