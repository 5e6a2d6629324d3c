(** The search tree of [bfs_tree] contains the first of the shortest routes. *)
From Coq Require Import ZArith List Bool Lia Sorting.Sorted Arith.
From Verif Require Import Base SearchModel SearchSpec SearchCoord SearchBfs SearchBfsInv SearchPath SearchUnk FirstSpec SearchFirst.
Import ListNotations.
Open Scope Z_scope.

Definition ord (l : list coord) (a b : coord) : Prop := exists x y, l = x ++ y /\ In a x /\ In b y.

Lemma ord_snoc l v a b : ord (l ++ [v]) a b -> ord l a b \/ (b = v /\ In a l).
Proof.
  intros (x & y & E & Ha & Hb). destruct (exists_last (l := y)) as (y' & z & ->).
  { intros ->. destruct Hb. }
  rewrite app_assoc in E. apply app_inj_tail in E as [-> <-].
  apply in_app_iff in Hb as [Hb|[<-|[]]].
  - left. exists x, y'. auto.
  - right. split; [reflexivity|]. apply in_or_app. now left.
Qed.

Lemma ord_more l v a b : ord l a b -> ord (l ++ [v]) a b.
Proof. intros (x & y & -> & Ha & Hb). exists x, (y ++ [v]). rewrite app_assoc. split; [reflexivity|]. split; [exact Ha|]. apply in_or_app. now left. Qed.

Lemma ord_last l v a : In a l -> ord (l ++ [v]) a v.
Proof. intros H. exists l, [v]. split; [reflexivity|]. split; [exact H|now left]. Qed.

Section Inv.
Variable W : Z.
Hypothesis HW : supported W.
Variable op : coord -> bool.
Variable start : coord.
Hypothesis Hstart : valid W start.
Variable goalf : filter.
Hypothesis Hgoalf : filter_ok goalf.

Notation Inv := (Inv W op start goalf).
Notation pv := (pv W).
Notation isgoal := (isgoal W goalf).

Record Ext (exp cur : list coord) (D : coord -> nat) (P : coord -> list coord) (s : bfs_st) : Prop := {
  e_start : P start = [];
  e_path : forall c p, In c (exp ++ cur ++ b_que s) -> c <> start -> pv (b_prev s) c = Some p -> P c = P p ++ [c];
  e_last : forall c, In c (exp ++ cur ++ b_que s) -> last (P c) start = c;
  e_first : forall c p u, In c (exp ++ cur ++ b_que s) -> c <> start -> pv (b_prev s) c = Some p ->
      In u (exp ++ cur ++ b_que s) -> run W op u c -> u = p \/ ord (exp ++ cur ++ b_que s) p u;
  e_ord : forall a b, ord (exp ++ cur ++ b_que s) a b -> D a = D b -> rlex start (P a) (P b)
}.

Lemma parent exp cur D s c : Inv exp cur D s -> In c (exp ++ cur ++ b_que s) -> c <> start ->
  exists p, pv (b_prev s) c = Some p /\ In p (exp ++ cur) /\ run W op p c /\ D c = S (D p).
Proof.
  intros I Hc Ns. pose proof (i_val _ _ _ _ _ _ _ _ I c Hc) as Vc.
  destruct (pv (b_prev s) c) as [p|] eqn:E.
  - exists p. split; [reflexivity|]. exact (i_prev _ _ _ _ _ _ _ _ I c p Vc Ns E).
  - apply (i_disc _ _ _ _ _ _ _ _ I) in Hc; [congruence|exact Vc].
Qed.

(** All nodes at most as far as the current one are known, with the right distance. *)
Lemma near exp h D s : Inv exp [h] D s -> forall l c, chain (run W op) c l -> In c (exp ++ [h] ++ b_que s) ->
  (D c + length l <= D h)%nat -> In (last l c) (exp ++ [h] ++ b_que s) /\ (D (last l c) <= D c + length l)%nat.
Proof.
  intros I. induction l as [|d l IH]; intros c Hc Hin Hlen; [cbn [last length]; split; [exact Hin|lia]|].
  destruct Hc as [R Hc]. cbn [length] in Hlen.
  assert (Hexp : In c exp).
  { rewrite !in_app_iff in Hin. destruct Hin as [Hin|[[<-|[]]|Hin]]; [exact Hin| |]; exfalso; [lia|].
    pose proof (i_le _ _ _ _ _ _ _ _ I h c ltac:(rewrite in_app_iff; simpl; auto) Hin). lia. }
  destruct (i_exp _ _ _ _ _ _ _ _ I c d Hexp R) as [Hd Ld].
  rewrite last_cons. destruct (IH d Hc Hd ltac:(lia)) as [A B]. split; [exact A|]. cbn [length]. lia.
Qed.

Lemma chain_split (R : coord -> coord -> Prop) l c d : chain R c (l ++ [d]) -> chain R c l /\ R (last l c) d.
Proof.
  revert c. induction l as [|a l IH]; intros c H; cbn [app chain] in *; [split; [exact I|apply H]|].
  destruct H as [H1 H2]. rewrite last_cons. destruct (IH a H2) as [A B]. auto.
Qed.

(** The path in the tree is the first of the shortest ones. *)
Lemma tree_first exp h D P s : Inv exp [h] D s -> Ext exp [h] D P s ->
  forall n l c, length l = n -> In c (exp ++ [h] ++ b_que s) -> chain (run W op) start l -> last l start = c -> length l = D c ->
  (D c <= D h)%nat -> P c = l \/ rlex start (P c) l.
Proof.
  intros I X. induction n as [|n IH]; intros l c Ln Hc Cl Ll Len Dh.
  - destruct l; [|discriminate]. cbn [last] in Ll. subst c. left. apply (e_start _ _ _ _ _ X).
  - destruct (exists_last (l := l)) as (m & d & ->); [intros ->; discriminate|].
    rewrite last_snoc in Ll. subst d. rewrite app_length in *. cbn [length] in *.
    apply chain_split in Cl as [Cm Ru]. set (u := last m start) in *.
    destruct (near exp h D s I m start Cm (i_start _ _ _ _ _ _ _ _ I)) as [Hu Du].
    { rewrite (i_D0 _ _ _ _ _ _ _ _ I). lia. }
    fold u in Hu, Du. rewrite (i_D0 _ _ _ _ _ _ _ _ I) in Du. cbn [plus] in Du.
    assert (Hexp : In u exp).
    { rewrite !in_app_iff in Hu. destruct Hu as [Hu|[[<-|[]]|Hu]]; [exact Hu| |]; exfalso; [lia|].
      pose proof (i_le _ _ _ _ _ _ _ _ I h u ltac:(rewrite in_app_iff; simpl; auto) Hu). lia. }
    destruct (i_exp _ _ _ _ _ _ _ _ I u c Hexp Ru) as [_ Dc].
    assert (Eu : D u = length m) by lia.
    assert (Ns : c <> start) by (intros ->; rewrite (i_D0 _ _ _ _ _ _ _ _ I) in Len; lia).
    destruct (parent _ _ _ _ _ I Hc Ns) as (p & Ep & _ & _ & Dp).
    rewrite (e_path _ _ _ _ _ X c p Hc Ns Ep).
    destruct (IH m u ltac:(lia) Hu Cm eq_refl ltac:(lia) ltac:(lia)) as [E|L];
      destruct (e_first _ _ _ _ _ X c p u Hc Ns Ep Hu Ru) as [->|O].
    + left. now rewrite E.
    + right. pose proof (e_ord _ _ _ _ _ X p u O ltac:(lia)) as L. rewrite E in L. now apply rlex_app.
    + right. now apply rlex_app.
    + right. pose proof (e_ord _ _ _ _ _ X p u O ltac:(lia)) as L2. apply rlex_app. now apply rlex_trans with (P u).
Qed.

Lemma pv_upd prev next h c : valid W next -> valid W c ->
  pv (aupd prev (as_index W next) (Some h)) c = if coord_eqb c next then Some h else pv prev c.
Proof.
  intros Vn Vc. unfold SearchBfsInv.pv. rewrite araw_upd by (apply as_index_que; [exact HW|apply Vn || apply Vc]).
  destruct (coord_eqb_spec c next) as [->|Hne]; [now rewrite Z.eqb_refl|].
  destruct (Z.eqb_spec (as_index W next) (as_index W c)) as [E|E]; [|reflexivity].
  exfalso. apply Hne. symmetry. now apply (as_index_inj W).
Qed.

Lemma ext_discover exp h D P s next kinds :
  Inv exp [h] D s -> Ext exp [h] D P s -> valid W next -> run W op h next -> pv (b_prev s) next = None ->
  (forall b, In b (exp ++ [h] ++ b_que s) -> b <> start -> pv (b_prev s) b = Some h -> rank h b < rank h next) ->
  Ext exp [h] (upd D next (S (D h))) (upd P next (P h ++ [next]))
    (Bfs (b_que s ++ [next]) (aupd (b_prev s) (as_index W next) (Some h)) kinds).
Proof.
  intros I X Vn Rn Pn Hb.
  assert (Hh : In h (exp ++ [h] ++ b_que s)) by (rewrite !in_app_iff; simpl; auto).
  assert (Nn : ~ In next (exp ++ [h] ++ b_que s)).
  { intros Hin. apply (i_disc _ _ _ _ _ _ _ _ I) in Hin; auto. }
  assert (Ne : forall c, In c (exp ++ [h] ++ b_que s) -> c <> next) by (intros c Hc ->; auto).
  assert (Dn : forall c, In c (exp ++ [h] ++ b_que s) -> upd D next (S (D h)) c = D c) by (intros c Hc; apply upd_other; auto).
  assert (Pk : forall c, In c (exp ++ [h] ++ b_que s) -> upd P next (P h ++ [next]) c = P c) by (intros c Hc; apply upd_other; auto).
  assert (El : exp ++ [h] ++ b_que s ++ [next] = (exp ++ [h] ++ b_que s) ++ [next]) by now rewrite <- !app_assoc.
  assert (In_ : forall c, In c ((exp ++ [h] ++ b_que s) ++ [next]) <-> In c (exp ++ [h] ++ b_que s) \/ c = next).
  { intros c. rewrite in_app_iff. simpl. intuition. }
  assert (Sub : forall c, In c (exp ++ [h]) -> In c (exp ++ [h] ++ b_que s)) by (intros c; rewrite !in_app_iff; tauto).
  pose proof (i_val _ _ _ _ _ _ _ _ I) as Va.
  constructor; cbn [b_que b_prev b_kinds]; rewrite ?El.
  - rewrite Pk by apply (i_start _ _ _ _ _ _ _ _ I). apply (e_start _ _ _ _ _ X).
  - intros c p Hc Ns. apply In_ in Hc as [Hc| ->].
    + rewrite pv_upd by auto. destruct (coord_eqb_spec c next) as [->|_]; [contradiction|]. intros E.
      destruct (i_prev _ _ _ _ _ _ _ _ I c p (Va c Hc) Ns E) as (Hp & _).
      rewrite !Pk by auto. now apply (e_path _ _ _ _ _ X).
    + rewrite pv_upd by auto. rewrite coord_eqb_refl. intros E. injection E as <-. rewrite upd_same. now rewrite Pk.
  - intros c Hc. apply In_ in Hc as [Hc| ->]; [rewrite Pk by auto; now apply (e_last _ _ _ _ _ X)|].
    rewrite upd_same. apply last_snoc.
  - intros c p u Hc Ns E Hu Ru. apply In_ in Hc as [Hc| ->].
    + rewrite pv_upd in E by auto. destruct (coord_eqb_spec c next) as [->|_]; [contradiction|].
      apply In_ in Hu as [Hu| ->].
      * destruct (e_first _ _ _ _ _ X c p u Hc Ns E Hu Ru) as [A|A]; [now left|right; now apply ord_more].
      * right. destruct (i_prev _ _ _ _ _ _ _ _ I c p (Va c Hc) Ns E) as (Hp & _). apply ord_last. auto.
    + rewrite pv_upd, coord_eqb_refl in E by auto. injection E as <-.
      apply In_ in Hu as [Hu| ->]; [|right; now apply ord_last].
      pose proof Hu as Hu'. rewrite !in_app_iff in Hu. destruct Hu as [Hu|[[<-|[]]|Hu]]; [|now left|].
      * exfalso. apply Nn. exact (proj1 (i_exp _ _ _ _ _ _ _ _ I u next Hu Ru)).
      * right. apply ord_more. exists (exp ++ [h]), (b_que s). rewrite <- app_assoc. split; [reflexivity|].
        split; [rewrite in_app_iff; simpl; auto|exact Hu].
  - intros a b O E. apply ord_snoc in O as [O|[-> Ha]].
    + assert (Ha : In a (exp ++ [h] ++ b_que s) /\ In b (exp ++ [h] ++ b_que s)).
      { destruct O as (x & y & -> & A & B). rewrite !in_app_iff. tauto. }
      destruct Ha as [Ha Hb']. rewrite !Dn in E by auto. rewrite !Pk by auto. now apply (e_ord _ _ _ _ _ X).
    + rewrite upd_same, Dn in E by auto. rewrite upd_same, Pk by auto.
      assert (Ns : a <> start) by (intros ->; rewrite (i_D0 _ _ _ _ _ _ _ _ I) in E; discriminate).
      destruct (parent _ _ _ _ _ I Ha Ns) as (p & Ep & Hp & _ & Dp).
      rewrite (e_path _ _ _ _ _ X a p Ha Ns Ep).
      apply in_app_iff in Hp as [Hp|[<-|[]]].
      * apply rlex_app. apply (e_ord _ _ _ _ _ X); [|lia]. exists exp, ([h] ++ b_que s). split; [reflexivity|]. split; [exact Hp|now left].
      * apply rlex_end. rewrite (e_last _ _ _ _ _ X h Hh). apply Hb; auto.
Qed.

Lemma ext_seen exp h D P s kinds : Ext exp [h] D P s -> Ext exp [h] D P (Bfs (b_que s) (b_prev s) kinds).
Proof. intros []; constructor; assumption. Qed.

Lemma ext_pop exp D P h q p k : Ext exp [] D P (Bfs (h :: q) p k) -> Ext exp [h] D P (Bfs q p k).
Proof. intros []; constructor; assumption. Qed.

Lemma ext_done exp h D P s : Ext exp [h] D P s -> Ext (exp ++ [h]) [] D P s.
Proof.
  intros []. assert (E : (exp ++ [h]) ++ [] ++ b_que s = exp ++ [h] ++ b_que s) by (rewrite <- app_assoc; reflexivity).
  constructor; rewrite ?E; assumption.
Qed.

Lemma ext_init kinds : Ext [] [] (fun _ => O) (fun _ => [])
  (Bfs [start] (aupd (anew QUE_MAX None) (as_index W start) (Some start)) kinds).
Proof.
  constructor; cbn [b_que b_prev b_kinds app].
  - reflexivity.
  - intros c p [<-|[]]; congruence.
  - intros c [<-|[]]; reflexivity.
  - intros c p u [<-|[]]; congruence.
  - intros a b (x & y & E & Ha & Hb). exfalso. destruct x as [|x1 [|x2 x]]; [destruct Ha| |discriminate].
    cbn [app] in E. injection E as E1 E2. subst y. destruct Hb.
Qed.

(** what is found, at the moment it is found. *)
Definition first_found (exp : list coord) (h : coord) (D : coord -> nat) (P : coord -> list coord) (s : bfs_st) (g : coord) : Prop :=
  Inv exp [h] D s /\ Ext exp [h] D P s /\ pv (b_prev s) g = None /\ valid W g /\ isgoal g = true /\ run W op h g.

Lemma for_first exp h : forall ns D P s, Inv exp [h] D s -> Ext exp [h] D P s ->
  (forall n k, In (n, k) ns -> krun W op k h n) -> StronglySorted (inorder h) ns ->
  (forall b, In b (exp ++ [h] ++ b_que s) -> b <> start -> pv (b_prev s) b = Some h -> Forall (fun n => rank h b < rank h (fst n)) ns) ->
  exists D' P' s', D' h = D h /\
   (forall c, In c (exp ++ [h] ++ b_que s) -> In c (exp ++ [h] ++ b_que s')) /\
   ((bfs_for W goalf h ns s = Ret (Cont s') /\ Inv exp [h] D' s' /\ Ext exp [h] D' P' s' /\
     forall n k, In (n, k) ns -> In n (exp ++ [h] ++ b_que s') /\ (D' n <= S (D' h))%nat)
    \/ exists g, bfs_for W goalf h ns s = Ret (Done (aupd (b_prev s') (as_index W g) (Some h), g)) /\
        first_found exp h D' P' s' g /\
        forall n k, In (n, k) ns -> In n (exp ++ [h] ++ b_que s') \/ n = g \/ rank h g < rank h n).
Proof.
  induction ns as [|[next k] ns IH]; intros D P s I X Hns Sn Hb.
  - exists D, P, s. split; [reflexivity|]. split; [auto|]. left. split; [reflexivity|]. split; [exact I|]. split; [exact X|]. intros n k [].
  - assert (Kr : krun W op k h next) by (apply Hns; now left).
    assert (Hns' : forall n k, In (n, k) ns -> krun W op k h n) by (intros; apply Hns; now right).
    inversion_clear Sn as [|? ? Sn' Fn].
    assert (Hh : In h (exp ++ [h] ++ b_que s)) by (rewrite !in_app_iff; simpl; auto).
    assert (Vh : valid W h) by (apply (i_val _ _ _ _ _ _ _ _ I); exact Hh).
    assert (Rn : run W op h next) by (apply run_krun; eauto).
    destruct (run_valid W op h next Vh Rn) as [Vn _].
    pose proof (as_index_que W next HW (proj1 Vn)) as IBn.
    cbn [bfs_for].
    rewrite aget_ok by (rewrite (i_lk _ _ _ _ _ _ _ _ I); exact IBn). cbn [bind].
    rewrite aset_ok by (rewrite (i_lk _ _ _ _ _ _ _ _ I); exact IBn). cbn [bind].
    rewrite aget_ok by (rewrite (i_lp _ _ _ _ _ _ _ _ I); exact IBn). cbn [bind].
    change (araw (b_kinds s) (as_index W next)) with (kd W (b_kinds s) next).
    change (araw (b_prev s) (as_index W next)) with (pv (b_prev s) next).
    destruct (pv (b_prev s) next) as [p|] eqn:Ep.
    + pose proof (inv_seen W HW op start goalf exp h D s next k I Vn Kr) as I'.
      pose proof (ext_seen exp h D P s (aupd (b_kinds s) (as_index W next) (kadd (kd W (b_kinds s) next) k)) X) as X'.
      destruct (IH D P _ I' X' Hns' Sn') as (D' & P' & s' & Dh & Mono & Res).
      { cbn [b_que b_prev]. intros b B1 B2 B3. specialize (Hb b B1 B2 B3). now inversion_clear Hb. }
      cbn [b_que] in Mono.
      assert (Hd : In next (exp ++ [h] ++ b_que s)) by (apply (i_disc _ _ _ _ _ _ _ _ I); [exact Vn|congruence]).
      exists D', P', s'. split; [exact Dh|]. split; [exact Mono|].
      destruct Res as [(E & I2 & X2 & H)|(g & E & F & H)]; [left|right].
      * split; [exact E|]. split; [exact I2|]. split; [exact X2|]. intros n k' [Eq|Hin]; [|now apply (H n k')].
        injection Eq as <- <-. pose proof (Mono next Hd) as Hd'. split; [exact Hd'|].
        rewrite !in_app_iff in Hd'. destruct Hd' as [Hd'|[[<-|[]]|Hd']].
        -- pose proof (i_lecur _ _ _ _ _ _ _ _ I2 next h Hd' (or_introl eq_refl)). lia.
        -- lia.
        -- apply (i_gap _ _ _ _ _ _ _ _ I2); simpl; auto.
      * exists g. split; [exact E|]. split; [exact F|]. intros n k' [Eq|Hin]; [|now apply (H n k')].
        injection Eq as <- <-. left. auto.
    + rewrite aset_ok by (rewrite (i_lp _ _ _ _ _ _ _ _ I); exact IBn). cbn [bind].
      rewrite filter_contains_ok by (assumption || apply Vn). cbn [bind].
      change (fbit W goalf next) with (isgoal next).
      destruct (isgoal next) eqn:Eg.
      * exists D, P, s. split; [reflexivity|]. split; [auto|]. right. exists next. split; [reflexivity|].
        split; [unfold first_found; auto 10|]. intros n k' [Eq|Hin]; [injection Eq as <- <-; auto|].
        right. right. rewrite Forall_forall in Fn. exact (Fn _ Hin).
      * pose proof (inv_discover W HW op start goalf exp h D s next k I Vn Kr Ep Eg) as I'.
        pose proof (ext_discover exp h D P s next (aupd (b_kinds s) (as_index W next) (kadd (kd W (b_kinds s) next) k)) I X Vn Rn Ep) as X'.
        rewrite vpush_ok; cycle 1.
        { pose proof (valid_nodup_bound W _ HW (i_nd _ _ _ _ _ _ _ _ I')) as B.
          rewrite Forall_forall in B. specialize (B (i_val _ _ _ _ _ _ _ _ I')).
          cbn [b_que] in B. rewrite !llen_app in B. unfold llen at 2 4 in B. simpl in B.
          pose proof (llen_nonneg exp).
          assert (2 * W * W <= QUE_MAX)
            by (unfold QUE_MAX, WIDTH; pose proof (supported_bounds W HW); nia).
          lia. }
        cbn [bind].
        destruct (IH _ _ _ I' (X' ltac:(intros b B1 B2 B3; specialize (Hb b B1 B2 B3); now inversion_clear Hb)) Hns' Sn') as (D' & P' & s' & Dh & Mono & Res).
        { cbn [b_que b_prev]. intros b B1 B2 B3.
          assert (Bb : In b (exp ++ [h] ++ b_que s) \/ b = next) by (rewrite !in_app_iff in *; simpl in *; intuition).
          destruct Bb as [Bb| ->].
          - rewrite pv_upd in B3 by (assumption || exact (i_val _ _ _ _ _ _ _ _ I b Bb)).
            destruct (coord_eqb_spec b next) as [->|_].
            + apply (i_disc _ _ _ _ _ _ _ _ I) in Bb; [congruence|exact Vn].
            + specialize (Hb b Bb B2 B3). now inversion_clear Hb.
          - apply Forall_impl with (2 := Fn). intros [m k'] L. exact L. }
        cbn [b_que] in Mono.
        assert (Ne : h <> next).
        { intros ->. apply (i_disc _ _ _ _ _ _ _ _ I) in Hh; [congruence|exact Vn]. }
        assert (Dh' : upd D next (S (D h)) h = D h) by now apply upd_other.
        assert (Hd : In next (exp ++ [h] ++ b_que s')) by (apply Mono; rewrite !in_app_iff; simpl; auto).
        exists D', P', s'. split; [congruence|]. split; [intros c Hc; apply Mono; rewrite !in_app_iff in *; tauto|].
        destruct Res as [(E & I2 & X2 & H)|(g & E & F & H)]; [left|right].
        -- split; [exact E|]. split; [exact I2|]. split; [exact X2|]. intros n k' [Eq|Hin]; [|now apply (H n k')].
           injection Eq as <- <-. split; [exact Hd|].
           rewrite !in_app_iff in Hd. destruct Hd as [Hd|[[<-|[]]|Hd]].
           ++ pose proof (i_lecur _ _ _ _ _ _ _ _ I2 next h Hd (or_introl eq_refl)). lia.
           ++ lia.
           ++ apply (i_gap _ _ _ _ _ _ _ _ I2); simpl; auto.
        -- exists g. split; [exact E|]. split; [exact F|]. intros n k' [Eq|Hin]; [|now apply (H n k')].
           injection Eq as <- <-. left. exact Hd.
Qed.

Variable is_wall : coord -> res bool.
Hypothesis Hwall : forall c, valid W c -> is_wall c = Ret (negb (op c)).

Lemma while_first : forall n exp D P s, Inv exp [] D s -> Ext exp [] D P s -> forall prev g,
  bfs_while n W goalf is_wall s = Ret (Some (prev, g)) ->
  exists exp' h D' P' s', prev = aupd (b_prev s') (as_index W g) (Some h) /\ first_found exp' h D' P' s' g /\
    forall v, run W op h v -> In v (exp' ++ [h] ++ b_que s') \/ v = g \/ rank h g < rank h v.
Proof.
  induction n as [|n IH]; intros exp D P s I X prev0 g0 Eq; [discriminate|].
  cbn [bfs_while] in Eq. destruct s as [que prev kinds]. cbn [b_que b_prev b_kinds] in Eq.
  destruct que as [|h q]; [discriminate|].
  assert (Hh : In h (exp ++ [] ++ h :: q)) by (rewrite !in_app_iff; simpl; auto).
  assert (Vh : valid W h) by (apply (i_val _ _ _ _ _ _ _ _ I); exact Hh).
  pose proof (as_index_que W h HW (proj1 Vh)) as IBh.
  pose proof (i_lk _ _ _ _ _ _ _ _ I) as LK; cbn [b_kinds] in LK.
  rewrite aget_ok in Eq by (rewrite LK; exact IBh). cbn [bind] in Eq.
  destruct (extended_neighbors_ok W HW (fun c => let* b := is_wall c in Ret (negb b)) op)
    with (ex := araw kinds (as_index W h)) (c := h) as (ns & Ens & Hns).
  { intros c Vc. rewrite Hwall by exact Vc. cbn [bind]. now rewrite negb_involutive. }
  { exact Vh. }
  rewrite Ens in Eq. cbn [bind] in Eq.
  pose proof (inv_pop _ _ _ _ _ _ _ _ _ _ I) as Ip. pose proof (ext_pop _ _ _ _ _ _ _ X) as Xp.
  destruct (for_first exp h ns D P _ Ip Xp) as (D' & P' & s' & Dh & Mono & Res).
  { intros m k Hin. now apply Hns in Hin as [_ Hin]. }
  { exact (neighbours_sorted W HW _ _ h ns (proj1 Vh) Ens). }
  { cbn [b_que b_prev]. intros b B1 B2 B3. exfalso.
    destruct (i_prev _ _ _ _ _ _ _ _ I b h (i_val _ _ _ _ _ _ _ _ I b B1) B2 B3) as (Hp & _). rewrite app_nil_r in Hp.
    pose proof (i_nd _ _ _ _ _ _ _ _ I) as ND. cbn [b_que app] in ND. apply NoDup_remove_2 in ND. apply ND. apply in_or_app. now left. }
  cbn [b_que] in Mono.
  assert (Kn : forall (Ix : Inv exp [h] D' s') v, run W op h v -> (exists k, In (v, k) ns) \/ (In v (exp ++ [h] ++ b_que s') /\ (D' v <= S (D' h))%nat)).
  { intros Ix v Rv. apply run_krun in Rv as [k Kv]. destruct (kget (kd W kinds h) k) eqn:Ek; [right|left; exists k; apply Hns; auto].
    destruct (i_kinds _ _ _ _ _ _ _ _ I h k Vh Ek) as (w & Hw & Kw). rewrite app_nil_r in Hw.
    pose proof (i_lecur _ _ _ _ _ _ _ _ Ix w h Hw (or_introl eq_refl)) as Lw.
    destruct (krun_line W op k w h v Kw Kv) as [->|Kwv]; [split; [rewrite in_app_iff; now left|lia]|].
    destruct (i_exp _ _ _ _ _ _ _ _ Ix w v Hw ltac:(apply run_krun; eauto)) as [A B]. split; [exact A|lia]. }
  destruct Res as [(E & I2 & X2 & H)|(g & E & F & H)]; rewrite E in Eq; cbn [bind] in Eq.
  - apply (IH (exp ++ [h]) D' P' s'); [|now apply ext_done|exact Eq].
    apply inv_done; [exact I2|]. intros v Rv. destruct (Kn I2 v Rv) as [[k Hk]|A]; [exact (H v k Hk)|exact A].
  - injection Eq as <- <-. exists exp, h, D', P', s'. split; [reflexivity|]. split; [exact F|].
    intros v Rv. destruct (Kn (proj1 F) v Rv) as [[k Hk]|[A _]]; [exact (H v k Hk)|now left].
Qed.

(** Every other route to a goal, of the same length, comes later. *)
Lemma found_first exp h D P s g : first_found exp h D P s g ->
  (forall v, run W op h v -> In v (exp ++ [h] ++ b_que s) \/ v = g \/ rank h g < rank h v) ->
  forall g' l, isgoal g' = true -> g' <> start -> chain (run W op) start l -> last l start = g' -> length l = S (D h) ->
  P h ++ [g] = l \/ rlex start (P h ++ [g]) l.
Proof.
  intros (I & X & Pg & Vg & Gg & Rg) Hv g' l G' N' Cl Ll Len.
  destruct (exists_last (l := l)) as (m & d & ->); [intros ->; discriminate|].
  rewrite last_snoc in Ll. subst d. rewrite app_length in Len. cbn [length] in Len.
  apply chain_split in Cl as [Cm Ru]. set (u := last m start) in *.
  assert (Hh : In h (exp ++ [h] ++ b_que s)) by (rewrite !in_app_iff; simpl; auto).
  destruct (near exp h D s I m start Cm (i_start _ _ _ _ _ _ _ _ I)) as [Hu Du].
  { rewrite (i_D0 _ _ _ _ _ _ _ _ I). lia. }
  fold u in Hu, Du. rewrite (i_D0 _ _ _ _ _ _ _ _ I) in Du. cbn [plus] in Du.
  assert (Ng : ~ In g' (exp ++ [h] ++ b_que s)).
  { intros H. rewrite (i_goal _ _ _ _ _ _ _ _ I g' H N') in G'. discriminate. }
  pose proof Hu as Hu'. rewrite !in_app_iff in Hu. destruct Hu as [Hu|[[Hu|[]]|Hu]].
  - exfalso. apply Ng. exact (proj1 (i_exp _ _ _ _ _ _ _ _ I u g' Hu Ru)).
  - assert (T : P h = m \/ rlex start (P h) m).
    { apply (tree_first exp h D P s I X (length m) m h); auto; lia. }
    destruct T as [T|T]; [|right; now apply rlex_app]. rewrite T.
    rewrite <- Hu in Ru. destruct (Hv g' Ru) as [A|[<-|A]]; [contradiction|now left|right].
    apply rlex_end. fold u. now rewrite <- Hu.
  - pose proof (i_le _ _ _ _ _ _ _ _ I h u ltac:(rewrite in_app_iff; simpl; auto) Hu) as Le.
    right. apply rlex_app.
    assert (L : rlex start (P h) (P u)).
    { apply (e_ord _ _ _ _ _ X); [|lia]. exists (exp ++ [h]), (b_que s). rewrite <- app_assoc. split; [reflexivity|].
      split; [rewrite in_app_iff; simpl; auto|exact Hu]. }
    destruct (tree_first exp h D P s I X (length m) m u eq_refl Hu' Cm eq_refl ltac:(lia) ltac:(lia)) as [T|T].
    + now rewrite <- T.
    + now apply rlex_trans with (P u).
Qed.

End Inv.
