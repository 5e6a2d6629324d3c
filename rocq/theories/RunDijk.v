(** Invariants of the shortest path search of solve/run.rs. *)
From Coq Require Import ZArith List Bool Lia Permutation Zify ZifyBool.
From Verif Require Import Base SearchModel SearchSpec SearchCoord RunModel RunSpec RunNode RunMoves RunTraj.
Import ListNotations.
Open Scope Z_scope.

(** ** The heap *)
Lemma heap_min_none l : heap_min l = None <-> l = [].
Proof. destruct l as [|[c i] l]; cbn; [tauto|]. destruct (heap_min l); split; discriminate. Qed.

Lemma heap_min_le l m : heap_min l = Some m -> forall c i, In (c, i) l -> m <= c.
Proof.
  revert m. induction l as [|[c0 i0] l IH]; intros m H c i Hin; [destruct Hin|].
  cbn in H. destruct (heap_min l) as [m'|] eqn:E.
  - injection H as <-. destruct Hin as [Hin|Hin]; [injection Hin as <- <-; lia|].
    specialize (IH m' eq_refl c i Hin). lia.
  - injection H as <-. apply heap_min_none in E. subst l. destruct Hin as [Hin|[]]. injection Hin as <- <-. lia.
Qed.

Lemma heap_min_in l m : heap_min l = Some m -> exists i, In (m, i) l.
Proof.
  revert m. induction l as [|[c0 i0] l IH]; intros m H; [discriminate|].
  cbn in H. destruct (heap_min l) as [m'|] eqn:E.
  - injection H as <-. destruct (IH m' eq_refl) as [i Hi].
    destruct (Z.min_spec c0 m') as [[_ ->]|[_ ->]]; [exists i0; left; reflexivity|exists i; right; exact Hi].
  - injection H as <-. exists i0. left. reflexivity.
Qed.

Lemma heap_take_perm m j l id r : heap_take m j l = Some (id, r) -> Permutation l ((m, id) :: r).
Proof.
  revert j id r. induction l as [|[c i] l IH]; intros j id r H; [discriminate|].
  cbn in H. destruct (Z.eqb_spec c m) as [->|Hne].
  - destruct j as [|j]; [injection H as <- <-; apply Permutation_refl|].
    destruct (heap_take m j l) as [[id' r']|] eqn:E.
    + injection H as <- <-. apply (IH j) in E. rewrite E. apply perm_swap.
    + injection H as <- <-. apply Permutation_refl.
  - destruct (heap_take m j l) as [[id' r']|] eqn:E; [|discriminate].
    injection H as <- <-. apply (IH j) in E. rewrite E. apply perm_swap.
Qed.

Lemma heap_take_some m j l i : In (m, i) l -> exists x, heap_take m j l = Some x.
Proof.
  revert j. induction l as [|[c i0] l IH]; intros j H; [destruct H|].
  cbn. destruct (Z.eqb_spec c m) as [->|Hne].
  - destruct j as [|j]; [eauto|]. destruct (heap_take m j l) as [[]|]; eauto.
  - destruct H as [H|H]; [congruence|]. destruct (IH j H) as [[] ->]. eauto.
Qed.

Lemma heap_pop_none j h : heap_pop j h = None -> snd h = [].
Proof.
  unfold heap_pop. destruct (heap_min (snd h)) as [m|] eqn:E; [|intros _; now apply heap_min_none].
  destruct (heap_min_in _ _ E) as [i Hi]. destruct (heap_take_some m j _ i Hi) as [[] ->]. discriminate.
Qed.

Lemma heap_pop_some j h c id h' : heap_pop j h = Some (c, id, h') ->
  Permutation (snd h) ((c, id) :: snd h') /\ (forall c' i', In (c', i') (snd h) -> c <= c') /\ fst h' = fst h - 1.
Proof.
  unfold heap_pop. destruct (heap_min (snd h)) as [m|] eqn:E; [|discriminate].
  destruct (heap_take m j (snd h)) as [[id0 r]|] eqn:Et; [|discriminate].
  intros H. injection H as <- <- <-. cbn [fst snd]. split; [now apply heap_take_perm in Et|].
  split; [now apply heap_min_le|reflexivity].
Qed.

Section Dijk.
  Variables (W : Z) (open : coord -> bool) (is_wall : coord -> res bool).
  Variable is_goal : node -> bool.
  Variable into_cost : ekind -> Z.
  Variable cmax : Z.
  Variable tie : nat -> nat.
  Variable start : node.
  Hypothesis HW : supported W.
  Hypothesis Hok : wall_ok W open is_wall.
  Hypothesis Hcost : forall k, 0 <= into_cost k.
  Hypothesis Hcmax : 0 < cmax.
  Hypothesis Hstart : valid_node W start.

  (** a finite set of nodes closed under moves. *)
  Variable U : list node.
  Hypothesis HU : Forall (valid_node W) U.
  Hypothesis HUs : In start U.
  Hypothesis HUc : forall n m k t, In n U -> rmove W open n m k t -> In m U.
  (** bounds for the number of successors of each node, and for their sum. *)
  Variable wt : node -> Z.
  Variable T : Z.
  Hypothesis HS : forall n l, In n U -> successors W is_wall n = Ret l -> llen l <= wt n.
  Definition wsum (X : list node) : Z := fold_right (fun n a => wt n + a) 0 X.
  Hypothesis HT : forall X, NoDup X -> incl X U -> wsum X <= T.

  Notation sat := (sat_add cmax).
  Definition ds (s : rst) (n : node) : Z := araw (r_dist s) (nidx W n).
  Definition pr (s : rst) (n : node) : option Z := araw (r_prev s) (nidx W n).

  Lemma U_valid n : In n U -> valid_node W n.
  Proof. rewrite Forall_forall in HU. apply HU. Qed.

  Inductive traced (s : rst) : node -> list node -> Prop :=
  | tr_start : traced s start [start]
  | tr_step p n L k t : traced s p L -> rmove W open p n k t -> ~ In n L ->
      pr s n = Some (nid W p) -> ds s n = sat (ds s p) (into_cost k) -> traced s n (n :: L).

  Lemma traced_head s n L : traced s n L -> exists L', L = n :: L'.
  Proof. intros H. inversion H; eauto. Qed.
  Lemma traced_in_start s n L : traced s n L -> In start L.
  Proof. induction 1; cbn; auto. Qed.
  Lemma traced_nodup s n L : traced s n L -> NoDup L.
  Proof. induction 1; constructor; auto; constructor. Qed.
  Lemma traced_U s n L : traced s n L -> incl L U.
  Proof.
    induction 1 as [|p n L k t H IH Hm Hn Hp Hd].
    - intros x [<-|[]]; assumption.
    - destruct (traced_head _ _ _ H) as [L' ->].
      intros x [<-|Hx]; [|auto]. apply (HUc p n k t); auto. apply IH. left. reflexivity.
  Qed.
  Lemma traced_stable s s' n L : traced s n L ->
    (forall m, In m L -> ds s' m = ds s m /\ pr s' m = pr s m) -> traced s' n L.
  Proof.
    induction 1 as [|p n L k t H IH Hm Hn Hp Hd]; intros E; [constructor|].
    destruct (E n (or_introl eq_refl)) as [E1 E2].
    assert (Ep : ds s' p = ds s p).
    { destruct (traced_head _ _ _ H) as [L' ->]. apply E. right. left. reflexivity. }
    apply (tr_step s' p n L k t); auto.
    - apply IH. intros m Hm'. apply E. right. exact Hm'.
    - congruence.
    - congruence.
  Qed.
  Lemma traced_path s n L : ds s start = 0 -> traced s n L ->
    rpath W open into_cost cmax start (rev L) n (ds s n).
  Proof.
    intros E0. induction 1 as [|p n L k t H IH Hm Hn Hp Hd].
    - rewrite E0. cbn. constructor.
    - cbn [rev]. rewrite Hd. apply (rp_snoc _ _ _ _ _ _ p _ n k t); assumption.
  Qed.

  Record Inv (X : list node) (t : Z) (R : node -> node -> ekind -> Prop) (s : rst) : Prop := {
    i_ld : alen (r_dist s) = RUN_MAX;
    i_lp : alen (r_prev s) = RUN_MAX;
    i_t : 0 <= t <= cmax;
    i_nd : NoDup X;
    i_X : forall n, In n X -> In n U /\ ds s n <= t /\ ds s n < cmax /\ is_goal n = false;
    i_s0 : ds s start = 0;
    i_sp : pr s start = Some (nid W start);
    i_heap : forall c id, In (c, id) (snd (r_heap s)) ->
      exists n, In n U /\ id = nid W n /\ ds s n <= c /\ t <= c /\ c < cmax;
    i_hnd : NoDup (snd (r_heap s));
    i_done : forall n, In n X -> ~ In (ds s n, nid W n) (snd (r_heap s));
    i_len : fst (r_heap s) = llen (snd (r_heap s));
    i_cap : fst (r_heap s) <= RUN_MAX;
    i_dist : forall n, valid_node W n -> 0 <= ds s n <= cmax;
    i_un : forall n, valid_node W n -> ds s n = cmax -> pr s n = None;
    i_tr : forall n, valid_node W n -> ds s n < cmax -> exists L, traced s n L /\ incl (tl L) X;
    i_R : forall p m k, In p X -> valid_node W m -> R p m k -> ds s m <= sat (ds s p) (into_cost k)
  }.

  Definition full (X : list node) (s : rst) : Prop :=
    forall n, valid_node W n -> ds s n < cmax -> In n X \/ In (ds s n, nid W n) (snd (r_heap s)).

  Lemma idx_lt n : valid_node W n -> 0 <= nidx W n < RUN_MAX.
  Proof. intros. now apply nidx_bound. Qed.

  Lemma node_dec (a b : node) : {a = b} + {a <> b}.
  Proof. decide equality; try apply Z.eq_dec. decide equality. Qed.

  Definition upd (s : rst) (m : node) (c : Z) (u : Z) : rst :=
    Rst (aupd (r_dist s) (nidx W m) c) (aupd (r_prev s) (nidx W m) (Some u)) (heap_push (r_heap s) c (nid W m)).

  Lemma ds_upd_same s m c u : valid_node W m -> ds (upd s m c u) m = c.
  Proof. intros H. apply araw_upd_same. apply idx_lt. exact H. Qed.
  Lemma pr_upd_same s m c u : valid_node W m -> pr (upd s m c u) m = Some u.
  Proof. intros H. apply araw_upd_same. apply idx_lt. exact H. Qed.
  Lemma ds_upd_other s m c u n : valid_node W m -> valid_node W n -> n <> m -> ds (upd s m c u) n = ds s n.
  Proof.
    intros H H' Hn. apply araw_upd_other; try apply idx_lt; auto.
    intros E. apply Hn. symmetry. now apply (nidx_inj W).
  Qed.
  Lemma pr_upd_other s m c u n : valid_node W m -> valid_node W n -> n <> m -> pr (upd s m c u) n = pr s n.
  Proof.
    intros H H' Hn. apply araw_upd_other; try apply idx_lt; auto.
    intros E. apply Hn. symmetry. now apply (nidx_inj W).
  Qed.

  Lemma sat_bounds a b : 0 <= a <= cmax -> 0 <= b -> a <= sat a b <= cmax.
  Proof. unfold sat_add. lia. Qed.
  Lemma sat_mono a a' b : a <= a' -> sat a b <= sat a' b.
  Proof. unfold sat_add. lia. Qed.

  Lemma upd_inv X t R s u m k tr :
    Inv X t R s -> In u X -> ds s u = t -> rmove W open u m k tr -> In u U -> In m U ->
    sat t (into_cost k) < ds s m ->
    Inv X t (fun p q e => R p q e \/ (p = u /\ q = m /\ e = k)) (upd s m (sat t (into_cost k)) (nid W u)).
  Proof.
    intros I Hu Et Hm HuU HmU Hlt. set (c := sat t (into_cost k)) in *.
    pose proof (U_valid m HmU) as Vm.
    pose proof (sat_bounds t (into_cost k) (i_t _ _ _ _ I) (Hcost k)) as Hc. fold c in Hc.
    pose proof (i_dist _ _ _ _ I m Vm) as Dm.
    assert (HmX : ~ In m X).
    { intros H. destruct (i_X _ _ _ _ I m H) as (_ & H1 & _). lia. }
    assert (Hms : m <> start).
    { intros ->. rewrite (i_s0 _ _ _ _ I) in Hlt. pose proof (i_t _ _ _ _ I). lia. }
    assert (VX : forall n, In n X -> valid_node W n /\ n <> m).
    { intros n Hn. split; [apply U_valid, (i_X _ _ _ _ I n Hn)|congruence]. }
    assert (Vs : valid_node W start) by exact Hstart.
    assert (HpushIn : forall e, In e (snd (heap_push (r_heap s) c (nid W m))) ->
              e = (c, nid W m) \/ In e (snd (r_heap s))).
    { intros e. unfold heap_push. destruct (fst (r_heap s) <? RUN_MAX); cbn [snd In]; intuition. }
    assert (Hle : forall n, valid_node W n -> ds (upd s m c (nid W u)) n <= ds s n).
    { intros n Vn. destruct (node_dec n m) as [->|Hn]; [rewrite ds_upd_same by assumption; lia|].
      rewrite ds_upd_other by assumption. lia. }
    constructor.
    - exact (i_ld _ _ _ _ I).
    - exact (i_lp _ _ _ _ I).
    - exact (i_t _ _ _ _ I).
    - exact (i_nd _ _ _ _ I).
    - intros n Hn. destruct (VX n Hn). rewrite ds_upd_other by assumption. now apply (i_X _ _ _ _ I).
    - rewrite ds_upd_other by auto. apply (i_s0 _ _ _ _ I).
    - rewrite pr_upd_other by auto. apply (i_sp _ _ _ _ I).
    - intros c' id Hin. destruct (HpushIn _ Hin) as [E|Hin'].
      + injection E as -> ->. exists m. rewrite ds_upd_same by assumption. repeat split; auto; lia.
      + destruct (i_heap _ _ _ _ I c' id Hin') as (n & Hn & -> & H1 & H2).
        exists n. repeat split; auto; try lia. pose proof (Hle n (U_valid n Hn)). lia.
    - cbn [upd r_heap]. unfold heap_push. destruct (fst (r_heap s) <? RUN_MAX); [|apply (i_hnd _ _ _ _ I)].
      cbn [snd]. constructor; [|apply (i_hnd _ _ _ _ I)].
      intros Hin. destruct (i_heap _ _ _ _ I _ _ Hin) as (n & Hn & E & H1 & _).
      apply nid_inj in E; auto using U_valid. subst n. lia.
    - intros n Hn Hin. destruct (VX n Hn) as [Vn Hnm]. rewrite ds_upd_other in Hin by assumption.
      destruct (HpushIn _ Hin) as [E|Hin']; [|now apply (i_done _ _ _ _ I n Hn)].
      injection E as _ E. apply nid_inj in E; auto.
    - cbn [upd r_heap]. unfold heap_push. pose proof (i_len _ _ _ _ I) as L. destruct (fst (r_heap s) <? RUN_MAX); [|exact L].
      cbn [fst snd]. unfold llen in *. cbn [length]. lia.
    - cbn [upd r_heap]. unfold heap_push. pose proof (i_cap _ _ _ _ I) as L.
      destruct (Z.ltb_spec (fst (r_heap s)) RUN_MAX); [cbn [fst]; lia|exact L].
    - intros n Vn. destruct (node_dec n m) as [->|Hn]; [rewrite ds_upd_same by assumption; pose proof (i_t _ _ _ _ I); lia|].
      rewrite ds_upd_other by assumption. now apply (i_dist _ _ _ _ I).
    - intros n Vn. destruct (node_dec n m) as [->|Hn]; [rewrite ds_upd_same by assumption; lia|].
      rewrite ds_upd_other, pr_upd_other by assumption. now apply (i_un _ _ _ _ I).
    - intros n Vn.
      assert (St : forall L a, traced s a L -> (forall x, In x L -> x <> m) -> traced (upd s m c (nid W u)) a L).
      { intros L a H Hx. apply (traced_stable s); [exact H|]. intros x Hx'.
        assert (valid_node W x) by (apply U_valid, (traced_U s a L H x Hx')).
        rewrite ds_upd_other, pr_upd_other by auto. auto. }
      destruct (node_dec n m) as [->|Hn].
      + intros _.
        destruct (i_tr _ _ _ _ I u (U_valid u HuU)) as (L & HL & Hi); [apply (i_X _ _ _ _ I u Hu)|].
        destruct (traced_head _ _ _ HL) as [L' ->]. cbn [tl] in Hi.
        assert (Hin : forall x, In x (u :: L') -> x <> m).
        { intros x [<-|Hx] ->; [contradiction|apply HmX, Hi, Hx]. }
        exists (m :: u :: L'). split.
        * apply (tr_step _ u m (u :: L') k tr); auto.
          -- intros Hx. apply (Hin m Hx eq_refl).
          -- apply pr_upd_same; assumption.
          -- rewrite ds_upd_same by assumption. rewrite ds_upd_other by (auto using U_valid || (apply Hin; left; reflexivity)).
             rewrite Et. reflexivity.
        * cbn [tl]. intros x [<-|Hx]; auto.
      + rewrite ds_upd_other by assumption. intros Hd.
        destruct (i_tr _ _ _ _ I n Vn Hd) as (L & HL & Hi).
        exists L. split; [|exact Hi]. apply St; [exact HL|].
        destruct (traced_head _ _ _ HL) as [L' ->]. cbn [tl] in Hi.
        intros x [<-|Hx]; [exact Hn|]. intros ->. apply HmX, Hi, Hx.
    - intros p q e Hp Vq HR. destruct (VX p Hp) as [Vp Hpm]. rewrite (ds_upd_other _ _ _ _ p) by assumption.
      destruct HR as [HR|(-> & -> & ->)].
      + pose proof (i_R _ _ _ _ I p q e Hp Vq HR) as H. pose proof (Hle q Vq). lia.
      + rewrite ds_upd_same by assumption. rewrite Et. unfold c. lia.
  Qed.

  Lemma inv_weaken X t R (R' : node -> node -> ekind -> Prop) s : Inv X t R s ->
    (forall p m k, In p X -> valid_node W m -> R' p m k -> R p m k \/ ds s m <= sat (ds s p) (into_cost k)) -> Inv X t R' s.
  Proof.
    intros I H. destruct I. constructor; auto.
    intros p m k Hp Vm HR. destruct (H p m k Hp Vm HR); auto.
  Qed.

  Lemma relax_ok X t u : forall l R s,
    Inv X t R s -> In u X -> ds s u = t ->
    (forall m k, In (m, k) l -> exists tr, rmove W open u m k tr) ->
    exists s', relax W into_cost cmax t (nid W u) l s = Ret s' /\
      Inv X t (fun p q e => R p q e \/ (p = u /\ In (q, e) l)) s' /\
      fst (r_heap s') <= fst (r_heap s) + llen l /\
      (fst (r_heap s) + llen l <= RUN_MAX -> full X s -> full X s').
  Proof.
    induction l as [|[m k] l IH]; intros R s I Hu Et Hl.
    - exists s. cbn [relax]. split; [reflexivity|]. split.
      + apply (inv_weaken X t R); [exact I|]. intros p q e _ _ [H|[_ []]]; auto.
      + unfold llen. cbn [length]. split; [lia|auto].
    - destruct (Hl m k (or_introl eq_refl)) as [tr Hm].
      assert (HuU : In u U) by apply (i_X _ _ _ _ I u Hu).
      assert (HmU : In m U) by (apply (HUc u m k tr); assumption).
      pose proof (U_valid m HmU) as Vm. pose proof (idx_lt m Vm) as Im.
      cbn [relax]. rewrite node_id_ok by assumption. cbn [bind]. rewrite !id_index_nid.
      rewrite aget_ok by (rewrite (i_ld _ _ _ _ I); exact Im). cbn [bind].
      change (araw (r_dist s) (nidx W m)) with (ds s m).
      assert (Ll : llen ((m, k) :: l) = llen l + 1) by (unfold llen; cbn [length]; lia).
      destruct (Z.leb_spec (ds s m) (sat t (into_cost k))) as [Hle|Hlt].
      + destruct (IH R s I Hu Et) as (s' & E & I' & H1 & H2); [intros; apply Hl; right; assumption|].
        exists s'. split; [exact E|]. split.
        2:{ split; [lia|]. intros. apply H2; [lia|assumption]. }
        clear H1 H2.
        assert (I2 : Inv X t (fun p q e => R p q e \/ (p = u /\ q = m /\ e = k)) s).
        { apply (inv_weaken X t R); [exact I|]. intros p q e _ _ [H|(-> & -> & ->)]; [auto|]. right. rewrite Et. exact Hle. }
        destruct (IH _ s I2 Hu Et) as (s2 & E2 & I2' & _ & _); [intros; apply Hl; right; assumption|].
        rewrite E in E2. injection E2 as <-.
        apply (inv_weaken X t _ _ s' I2'). intros p q e _ _ HR. left. cbn [In] in HR.
        destruct HR as [HR|(-> & [Heq|HR])]; [auto|injection Heq as <- <-; auto|auto].
      + rewrite !aset_ok by (rewrite ?(i_ld _ _ _ _ I), ?(i_lp _ _ _ _ I); exact Im). cbn [bind].
        pose proof (upd_inv X t R s u m k tr I Hu Et Hm HuU HmU Hlt) as I2.
        change (Rst (aupd (r_dist s) (nidx W m) (sat t (into_cost k))) (aupd (r_prev s) (nidx W m) (Some (nid W u)))
                    (heap_push (r_heap s) (sat t (into_cost k)) (nid W m)))
          with (upd s m (sat t (into_cost k)) (nid W u)).
        assert (Hum : u <> m).
        { intros ->. pose proof (sat_bounds t (into_cost k) (i_t _ _ _ _ I) (Hcost k)). lia. }
        destruct (IH _ _ I2 Hu) as (s' & E & I' & H1 & H2);
          [rewrite ds_upd_other by auto using U_valid; exact Et|intros; apply Hl; right; assumption|].
        exists s'. split; [exact E|].
        assert (Hp : fst (r_heap (upd s m (sat t (into_cost k)) (nid W u))) <= fst (r_heap s) + 1).
        { cbn [upd r_heap]. unfold heap_push. destruct (fst (r_heap s) <? RUN_MAX); cbn [fst]; lia. }
        split; [|split; [lia|]].
        * apply (inv_weaken X t _ _ s' I'). intros p q e _ _ HR. left. cbn [In] in HR.
          destruct HR as [HR|(-> & [Heq|HR])]; [auto|injection Heq as <- <-; auto|auto].
        * intros Hcap Hf. apply H2; [lia|]. pose proof (llen_nonneg l).
          intros n Vn Hd. cbn [upd r_heap]. unfold heap_push.
          destruct (Z.ltb_spec (fst (r_heap s)) RUN_MAX); [|lia]. cbn [snd In].
          destruct (node_dec n m) as [->|Hn].
          -- right. left. rewrite ds_upd_same by assumption. reflexivity.
          -- rewrite ds_upd_other in * by assumption. destruct (Hf n Vn Hd); auto.
  Qed.

  Definition RX (X : list node) : node -> node -> ekind -> Prop :=
    fun p m k => In p X /\ exists tr, rmove W open p m k tr.

  (** Outcome of the loop. *)
  Definition loop_post (cap : bool) (r : option Z) (s : rst) : Prop :=
    exists X t, Inv X t (RX X) s /\
    match r with
    | None => cap = true -> forall n, valid_node W n -> ds s n < cmax -> In n X
    | Some id => exists g, In g U /\ id = nid W g /\ is_goal g = true /\ ds s g = t /\ t < cmax /\
        (cap = true -> forall n, valid_node W n -> ds s n < cmax -> In n X \/ t <= ds s n)
    end.

  Definition measure (X : list node) (s : rst) : Z := fst (r_heap s) + (T - wsum X).

  Lemma pop_inv X t R s c id h j : Inv X t R s -> heap_pop j (r_heap s) = Some (c, id, h) ->
    Inv X c R (Rst (r_dist s) (r_prev s) h) /\ t <= c < cmax /\
    exists n, In n U /\ id = nid W n /\ ds s n <= c /\ In (c, id) (snd (r_heap s)) /\ ~ In (c, id) (snd h).
  Proof.
    intros I Hp. destruct (heap_pop_some _ _ _ _ _ Hp) as (Pm & Hmin & Hlen).
    assert (Hin : In (c, id) (snd (r_heap s))).
    { apply (Permutation_in _ (Permutation_sym Pm)). left. reflexivity. }
    assert (Hsub : forall e, In e (snd h) -> In e (snd (r_heap s))).
    { intros e He. apply (Permutation_in _ (Permutation_sym Pm)). right. exact He. }
    pose proof (Permutation_NoDup Pm (i_hnd _ _ _ _ I)) as Nd. inversion Nd as [|? ? Nd1 Nd2]; subst.
    destruct (i_heap _ _ _ _ I c id Hin) as (n & Hn & E & H1 & H2 & H3).
    assert (D : forall x, ds (Rst (r_dist s) (r_prev s) h) x = ds s x) by reflexivity.
    split; [|split; [lia|exists n; auto 10]].
    pose proof (i_t _ _ _ _ I) as It.
    constructor; try exact (i_ld _ _ _ _ I); try exact (i_lp _ _ _ _ I); try exact (i_nd _ _ _ _ I);
      try exact (i_s0 _ _ _ _ I); try exact (i_sp _ _ _ _ I); try exact (i_dist _ _ _ _ I);
      try exact (i_un _ _ _ _ I); try exact (i_R _ _ _ _ I).
    - lia.
    - intros x Hx. destruct (i_X _ _ _ _ I x Hx) as (A1 & A2 & A3 & A4). rewrite D. repeat split; auto; lia.
    - intros c' i' H. cbn [r_heap] in H. destruct (i_heap _ _ _ _ I c' i' (Hsub _ H)) as (n' & B1 & B2 & B3 & B4 & B5).
      exists n'. rewrite D. repeat split; auto. apply (Hmin c' i'). auto.
    - exact Nd2.
    - intros x Hx H. apply (i_done _ _ _ _ I x Hx). apply Hsub. exact H.
    - cbn [r_heap]. rewrite Hlen, (i_len _ _ _ _ I). unfold llen. apply Permutation_length in Pm. rewrite Pm. cbn [length]. lia.
    - cbn [r_heap]. pose proof (i_cap _ _ _ _ I). lia.
    - intros x Vx Hx. destruct (i_tr _ _ _ _ I x Vx Hx) as (L & HL & Hi). exists L. split; [|exact Hi].
      apply (traced_stable s); [exact HL|]. intros; split; reflexivity.
  Qed.

  Lemma X_len X t R s : Inv X t R s -> wsum X <= T.
  Proof.
    intros I. apply HT; [apply (i_nd _ _ _ _ I)|]. intros n Hn. apply (i_X _ _ _ _ I n Hn).
  Qed.

  Lemma expand_inv X t s u : Inv X t (RX X) s -> In u U -> ds s u = t -> t < cmax -> is_goal u = false ->
    ~ In u X -> ~ In (t, nid W u) (snd (r_heap s)) ->
    Inv (u :: X) t (RX X) s.
  Proof.
    intros I HuU Et Ht Hg Hu Hh. destruct I. constructor; auto.
    - constructor; assumption.
    - intros n [<-|Hn]; [|auto]. repeat split; auto; lia.
    - intros n [<-|Hn]; [|auto]. rewrite Et. exact Hh.
    - intros n Vn Hd. destruct (i_tr0 n Vn Hd) as (L & HL & Hi). exists L. split; [exact HL|].
      intros x Hx. right. auto.
    - intros p m k Hp Vm [Hp' Hr]. apply i_R0; auto. split; assumption.
  Qed.

  Lemma loop_ok : forall fuel X t s cap,
    Inv X t (RX X) s -> measure X s < Z.of_nat fuel ->
    (cap = true -> measure X s <= RUN_MAX /\ full X s) ->
    exists r s', run_loop W is_goal is_wall into_cost cmax tie fuel s = Ret (r, s') /\ loop_post cap r s'.
  Proof.
    induction fuel as [|fuel IH]; intros X t s cap I Hf Hcap.
    { exfalso. pose proof (X_len _ _ _ _ I). unfold measure in Hf. rewrite (i_len _ _ _ _ I) in Hf.
      pose proof (llen_nonneg (snd (r_heap s))). lia. }
    cbn [run_loop]. destruct (heap_pop (tie fuel) (r_heap s)) as [[[c id] h]|] eqn:Ep.
    2:{ exists None, s. split; [reflexivity|]. exists X, t. split; [exact I|].
        intros Hc n Vn Hd. destruct (Hcap Hc) as [_ F]. destruct (F n Vn Hd) as [|H]; [assumption|].
        apply heap_pop_none in Ep. rewrite Ep in H. destruct H. }
    destruct (pop_inv _ _ _ _ _ _ _ _ I Ep) as (I1 & Htc & u & HuU & -> & Hdu & Hin & Hnin).
    destruct (heap_pop_some _ _ _ _ _ Ep) as (Pm & Hmin & Hlen).
    set (s1 := Rst (r_dist s) (r_prev s) h) in *.
    assert (D : forall x, ds s1 x = ds s x) by reflexivity.
    pose proof (U_valid u HuU) as Vu.
    rewrite id_index_nid. rewrite aget_ok by (rewrite (i_ld _ _ _ _ I1); now apply idx_lt).
    cbn [bind]. change (araw (r_dist s1) (nidx W u)) with (ds s u).
    assert (Hm1 : measure X s1 = measure X s - 1) by (unfold measure, s1; cbn [r_heap]; lia).
    assert (F1 : cap = true -> forall n, valid_node W n -> ds s n < cmax ->
              In n X \/ (c <= ds s n /\ ((n = u /\ ds s u = c) \/ In (ds s n, nid W n) (snd h)))).
    { intros Hc n Vn Hd. destruct (Hcap Hc) as [_ F]. destruct (F n Vn Hd) as [|H]; [auto|].
      right. split; [apply (Hmin _ _ H)|]. apply (Permutation_in _ Pm) in H. destruct H as [H|H]; [|auto].
      injection H as H1 H2. apply nid_inj in H2; auto. subst n. left. auto. }
    destruct (Z.ltb_spec (ds s u) c) as [Hlt|Hge].
    - apply (IH X c s1 cap I1); [lia|]. intros Hc. split; [destruct (Hcap Hc); lia|].
      intros n Vn Hd. rewrite D in *. destruct (F1 Hc n Vn Hd) as [|[_ [[-> H]|H]]]; [auto|lia|auto].
    - assert (Edu : ds s u = c) by lia.
      rewrite node_of_id_ok by assumption. cbn [bind].
      destruct (is_goal u) eqn:Eg.
      { exists (Some (nid W u)), s1. split; [reflexivity|]. exists X, c. split; [exact I1|].
        exists u. repeat split; auto; [lia|]. intros Hc n Vn Hd. rewrite D in *. destruct (F1 Hc n Vn Hd) as [|[H _]]; auto. }
      destruct (successors_ok W open is_wall HW Hok u Vu) as (l & El & _ & _ & Hl). rewrite El. cbn [bind].
      assert (HuX : ~ In u X).
      { intros H. apply (i_done _ _ _ _ I u H). rewrite Edu. exact Hin. }
      pose proof (expand_inv X c s1 u I1 HuU Edu ltac:(lia) Eg HuX Hnin) as I2.
      destruct (relax_ok (u :: X) c u l (RX X) s1 I2 (or_introl eq_refl) Edu (fun m k => proj1 (Hl m k)))
        as (s' & E & I3 & Hh & Hfull).
      rewrite E. cbn [bind].
      pose proof (HS u l HuU El) as HlS.
      assert (Hx : wsum (u :: X) = wt u + wsum X) by reflexivity.
      pose proof (X_len _ _ _ _ I2) as HXl.
      assert (Hm2 : measure (u :: X) s' < measure X s).
      { unfold measure in *. rewrite Hx in *. lia. }
      apply (IH (u :: X) c s' cap); [|lia|].
      + apply (inv_weaken _ _ _ _ _ I3). intros p m k Hp Vm [_ [tr Hr]]. left.
        destruct Hp as [<-|Hp].
        * right. split; [reflexivity|]. apply Hl. eauto.
        * left. split; [exact Hp|]. eauto.
      + intros Hc. destruct (Hcap Hc) as [Hcm _]. split; [lia|]. apply Hfull.
        * change (r_heap s1) with h. unfold measure in Hcm. pose proof (llen_nonneg l).
          rewrite Hx in HXl. lia.
        * intros n Vn Hd. rewrite D in *. destruct (F1 Hc n Vn Hd) as [H|[_ [[-> H]|H]]]; cbn [In]; auto.
  Qed.

  (** ** Initial state *)
  Definition init : rst :=
    Rst (aupd (anew RUN_MAX cmax) (nidx W start) 0) (aupd (anew RUN_MAX None) (nidx W start) (Some (nid W start)))
        (1, [(0, nid W start)]).

  Lemma init_ds n : valid_node W n -> ds init n = if node_dec n start then 0 else cmax.
  Proof.
    intros Vn. unfold ds, init. cbn [r_dist]. destruct (node_dec n start) as [->|Hn].
    - apply araw_upd_same. now apply idx_lt.
    - rewrite araw_upd_other; [apply araw_new|apply idx_lt; auto|apply idx_lt; auto|].
      intros E. apply Hn. symmetry. now apply (nidx_inj W).
  Qed.

  Lemma init_inv : Inv [] 0 (RX []) init.
  Proof.
    constructor.
    - reflexivity.
    - reflexivity.
    - lia.
    - constructor.
    - intros n [].
    - rewrite init_ds by assumption. destruct (node_dec start start); congruence.
    - apply araw_upd_same. now apply idx_lt.
    - intros c id [E|[]]. injection E as <- <-. exists start. rewrite init_ds by assumption.
      destruct (node_dec start start); [|congruence]. repeat split; auto; lia.
    - cbn. constructor; [intros []|constructor].
    - intros n [].
    - reflexivity.
    - cbn. unfold RUN_MAX, WIDTH. lia.
    - intros n Vn. rewrite init_ds by assumption. destruct (node_dec n start); lia.
    - intros n Vn. rewrite init_ds by assumption. destruct (node_dec n start) as [|Hn]; [lia|].
      intros _. unfold pr, init. cbn [r_prev].
      rewrite araw_upd_other; [apply araw_new|apply idx_lt; auto|apply idx_lt; auto|].
      intros E. apply Hn. symmetry. now apply (nidx_inj W).
    - intros n Vn. rewrite init_ds by assumption. destruct (node_dec n start) as [->|Hn]; [|lia].
      intros _. exists [start]. split; [constructor|]. cbn. intros x [].
    - intros p m k [].
  Qed.

  Lemma init_full : full [] init.
  Proof.
    intros n Vn. rewrite init_ds by assumption. destruct (node_dec n start) as [->|Hn]; [|lia].
    intros _. right. left. reflexivity.
  Qed.

  (** ** Reading off the path *)
  Lemma path_loop_ok s sid : sid = nid W start -> alen (r_prev s) = RUN_MAX -> pr s start = Some (nid W start) ->
    forall n L, traced s n L -> forall fuel acc,
    llen acc <= PATH_MAX -> PATH_MAX - llen acc < Z.of_nat fuel ->
    path_loop W fuel (r_prev s) sid (nid W n) acc =
      (if llen acc + llen L <=? PATH_MAX then Ret (acc ++ L) else Panic).
  Proof.
    intros -> Hlp Hsp. induction 1 as [|p n L k t H IH Hm Hn Hp Hd]; intros fuel acc Ha Hf.
    - destruct fuel as [|fuel]; [lia|].
      cbn [path_loop]. rewrite id_index_nid. rewrite aget_ok by (rewrite Hlp; now apply idx_lt).
      cbn [bind]. change (araw (r_prev s) (nidx W start)) with (pr s start). rewrite Hsp.
      rewrite node_of_id_ok by assumption. cbn [bind]. unfold vpush.
      change (llen [start]) with 1.
      destruct (Z.ltb_spec (llen acc) PATH_MAX), (Z.leb_spec (llen acc + 1) PATH_MAX); try lia; [|reflexivity].
      cbn [bind]. rewrite Z.eqb_refl. reflexivity.
    - assert (HnU : In n U).
      { apply (traced_U s n (n :: L)); [apply (tr_step s p n L k t); assumption|left; reflexivity]. }
      pose proof (U_valid n HnU) as Vn.
      assert (Hns : n <> start).
      { intros ->. apply Hn. now apply (traced_in_start s p). }
      assert (Ll : llen (n :: L) = llen L + 1) by (unfold llen; cbn [length]; lia).
      pose proof (llen_nonneg L) as L0.
      destruct fuel as [|fuel]; [lia|].
      cbn [path_loop]. rewrite id_index_nid. rewrite aget_ok by (rewrite Hlp; now apply idx_lt).
      cbn [bind]. change (araw (r_prev s) (nidx W n)) with (pr s n). rewrite Hp.
      rewrite node_of_id_ok by assumption. cbn [bind]. unfold vpush.
      destruct (Z.ltb_spec (llen acc) PATH_MAX).
      + cbn [bind]. destruct (Z.eqb_spec (nid W n) (nid W start)) as [E|_].
        { apply nid_inj in E; auto; contradiction. }
        assert (La : llen (acc ++ [n]) = llen acc + 1) by (rewrite llen_app; reflexivity).
        rewrite IH by lia.
        rewrite La, Ll. replace (llen acc + 1 + llen L) with (llen acc + (llen L + 1)) by lia.
        rewrite <- app_assoc. reflexivity.
      + destruct (Z.leb_spec (llen acc + llen (n :: L)) PATH_MAX); [lia|reflexivity].
  Qed.

  (** ** Optimality *)
  Lemma path_bound X t s : Inv X t (RX X) s -> forall t', t' <= cmax ->
    (forall n, valid_node W n -> ds s n < cmax -> In n X \/ t' <= ds s n) ->
    forall l b c, rpath W open into_cost cmax start l b c -> valid_node W b /\ (ds s b <= c \/ t' <= c).
  Proof.
    intros I t' Ht' F l b c H. induction H as [|l b c m k tr H IH Hm].
    - split; [exact Hstart|]. left. rewrite (i_s0 _ _ _ _ I). lia.
    - destruct IH as [Vb IH]. pose proof (rmove_valid W open b m k tr Vb Hm) as Vm.
      split; [exact Vm|]. pose proof (Hcost k) as Hk.
      destruct IH as [IH|IH]; [|right; lia].
      destruct (Z_lt_ge_dec (ds s b) cmax) as [Hb|Hb].
      + destruct (F b Vb Hb) as [HX|Ht]; [|right; lia].
        left. pose proof (i_R _ _ _ _ I b m k HX Vm (conj HX (ex_intro _ tr Hm))) as HR.
        unfold sat_add in HR. lia.
      + right. lia.
  Qed.

  Lemma run_path_ok cap : measure [] init <= RUN_MAX * NEIGHBOR_MAX + 1 ->
    (cap = true -> measure [] init <= RUN_MAX) ->
    match run_path W is_goal is_wall into_cost cmax tie start with
    | Ret (Some (path, c)) =>
        (exists g, rpath W open into_cost cmax start path g c /\ is_goal g = true /\ In g U) /\ c < cmax /\ NoDup path /\
        incl path U /\ llen path <= PATH_MAX /\
        (cap = true -> forall l g c', rpath W open into_cost cmax start l g c' -> is_goal g = true -> c <= c')
    | Ret None => cap = true -> forall l g c', rpath W open into_cost cmax start l g c' -> is_goal g = true -> cmax <= c'
    | Panic => exists path g c, rpath W open into_cost cmax start path g c /\ is_goal g = true /\ NoDup path /\
        incl path U /\ PATH_MAX < llen path /\ c < cmax /\
        (cap = true -> forall l g' c', rpath W open into_cost cmax start l g' c' -> is_goal g' = true -> c <= c')
    | Fuel => False
    end.
  Proof.
    intros Hm Hcap. unfold run_path. rewrite node_id_ok by assumption. cbn [bind]. rewrite !id_index_nid.
    rewrite !aset_ok by (now apply idx_lt). cbn [bind].
    change (Rst _ _ _) with init.
    destruct (loop_ok RUN_FUEL [] 0 init cap init_inv) as (r & s & -> & X & t & I & P).
    { unfold RUN_FUEL. rewrite Z2Nat.id by (unfold RUN_MAX, NEIGHBOR_MAX, WIDTH; lia).
      pose proof (eq_refl : RUN_MAX = 16384). lia. }
    { intros Hc. split; [auto|]. apply init_full. }
    cbn [bind fst snd]. destruct r as [id|].
    - destruct P as (g & HgU & -> & Hg & Et & Ht & F).
      pose proof (U_valid g HgU) as Vg.
      destruct (i_tr _ _ _ _ I g Vg) as (L & HL & _); [lia|].
      pose proof (traced_nodup s g L HL) as Nd. pose proof (traced_U s g L HL) as HLU.
      assert (Hrp : rpath W open into_cost cmax start (rev L) g (ds s g)) by (apply traced_path; [apply (i_s0 _ _ _ _ I)|exact HL]).
      assert (Hlr : llen (rev L) = llen L) by (unfold llen; rewrite rev_length; reflexivity).
      assert (Hir : incl (rev L) U) by (intros x Hx; apply HLU, in_rev, Hx).
      assert (OPT : cap = true -> forall l g' c', rpath W open into_cost cmax start l g' c' -> is_goal g' = true -> ds s g <= c').
      { intros Hc l g' c' Hp' Hg'.
        destruct (path_bound X t s I t ltac:(lia) (F Hc) l g' c' Hp') as [Vg' [Hb|Hb]]; [|lia].
        destruct (Z_lt_ge_dec (ds s g') cmax) as [Hd|Hd]; [|lia].
        destruct (F Hc g' Vg' Hd) as [HX|HX]; [|lia].
        destruct (i_X _ _ _ _ I g' HX) as (_ & _ & _ & H'). congruence. }
      rewrite (path_loop_ok s (nid W start) eq_refl (i_lp _ _ _ _ I) (i_sp _ _ _ _ I) g L HL).
      2:{ unfold llen, PATH_MAX, WIDTH. cbn [length]. lia. }
      2:{ rewrite Z2Nat.id by (unfold PATH_MAX, WIDTH; lia). unfold llen. cbn [length]. lia. }
      change (llen []) with 0. rewrite Z.add_0_l.
      destruct (Z.leb_spec (llen L) PATH_MAX) as [Hl|Hl].
      + cbn [bind app]. rewrite id_index_nid, aget_ok by (rewrite (i_ld _ _ _ _ I); now apply idx_lt). cbn [bind].
        change (araw (r_dist s) (nidx W g)) with (ds s g).
        split; [exists g; auto|]. split; [lia|]. split; [apply NoDup_rev; exact Nd|]. split; [exact Hir|]. split; [lia|].
        exact OPT.
      + cbn [bind]. exists (rev L), g, (ds s g). split; [exact Hrp|]. split; [exact Hg|]. split; [apply NoDup_rev; exact Nd|].
        split; [exact Hir|]. split; [lia|]. split; [lia | exact OPT].
    - intros Hc l g c' Hp Hg.
      destruct (path_bound X t s I cmax (Z.le_refl _) (fun n Vn Hd => or_introl (P Hc n Vn Hd)) l g c' Hp)
        as [Vg [Hb|Hb]]; [|exact Hb].
      destruct (Z_lt_ge_dec (ds s g) cmax) as [Hd|Hd]; [|lia].
      destruct (i_X _ _ _ _ I g (P Hc g Vg Hd)) as (_ & _ & _ & H'). congruence.
  Qed.
End Dijk.
