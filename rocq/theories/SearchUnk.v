(** [intermediate_coords] and [unchecked_walls]. *)
From Coq Require Import ZArith List Bool Lia Arith ZifyBool.
From Verif Require Import Base SearchModel SearchSpec SearchCoord SearchBfs SearchBfsInv SearchPath.
Import ListNotations.
Open Scope Z_scope.
Ltac Zify.zify_post_hook ::= Z.div_mod_to_equations.

Section Unk.
Variable W : Z.
Hypothesis HW : supported W.

Lemma inter_seq_ok c u m p : on_board W c -> on_board W p ->
  Z.abs (fst u) <= 1 -> Z.abs (snd u) <= 1 -> u <> (0, 0) -> p = shift c u m -> m <= 64 ->
  forall n i acc, 1 <= i <= m -> m + 1 - i <= Z.of_nat n ->
  llen acc + (m - i) <= INTER_CAP ->
  exists l, inter_seq n W c p (fst u) (snd u) i acc = Ret (acc ++ l) /\
   forall e, In e l <-> exists j, i <= j < m /\ e = shift c u j.
Proof.
  intros Bc Bp Hx Hy Hu Ep Hm. pose proof (supported_bounds W HW) as HB.
  induction n as [|n IH]; intros i acc Hi Hn Hcap; [lia|].
  cbn [inter_seq]. unfold range_next.
  assert (Bx : -64 <= fst u * i <= 64) by nia.
  assert (By : -64 <= snd u * i <= 64) by nia.
  rewrite !chk_i8_ok by lia. cbn [bind].
  rewrite new_relative_ok by assumption. cbn [bind].
  replace (Co (cx c + fst u * i) (cy c + snd u * i)) with (shift c u i)
    by (apply coord_ext; simpl; ring).
  assert (B : on_board W (shift c u i)).
  { subst p. unfold on_board, shift in *; simpl in *. destruct u as [ux uy]; simpl in *.
    assert (ux = -1 \/ ux = 0 \/ ux = 1) as [->|[->| ->]] by lia;
    assert (uy = -1 \/ uy = 0 \/ uy = 1) as [->|[->| ->]] by lia; lia. }
  destruct (board_b_spec W (shift c u i)) as [_|]; [|contradiction].
  destruct (coord_eqb_spec (shift c u i) p) as [E|E].
  - assert (i = m).
    { subst p. unfold shift in E. injection E as E1 E2. destruct u as [ux uy]; simpl in *.
      assert (ux <> 0 \/ uy <> 0) by (destruct (Z.eq_dec ux 0), (Z.eq_dec uy 0); auto; congruence).
      nia. }
    subst i. exists []. rewrite app_nil_r. split; [reflexivity|]. intros e; split; [intros []|].
    intros (j & Hj & _); lia.
  - assert (i <> m) by (intros ->; congruence).
    rewrite vpush_ok by lia. cbn [bind].
    destruct (IH (i + 1) (acc ++ [shift c u i])) as (l & El & Hl);
      [lia|lia|rewrite llen_app; unfold llen at 2; simpl; lia|].
    exists (shift c u i :: l). split; [rewrite El; now rewrite <- app_assoc|].
    intros e. simpl. rewrite Hl. split.
    + intros [<-|(j & Hj & ->)]; [exists i|exists j]; split; auto; lia.
    + intros (j & Hj & ->). destruct (Z.eq_dec j i) as [->|]; [now left|].
      right. exists j. split; auto; lia.
Qed.

Definition unit (v : Z * Z) : Z * Z := (Z.sgn (fst v), Z.sgn (snd v)).
Definition usteps (v : Z * Z) (n : Z) : Z := if (fst v =? 0) || (snd v =? 0) then 2 * n else n.

Lemma unit_shift c k v n p : In v (kdirs c k) -> shift p v n = shift p (unit v) (usteps v n).
Proof.
  intros H. apply kdirs_vals in H.
  destruct H as [->|[->|[->|[->|[->|[->|[->| ->]]]]]]]; apply coord_ext; unfold usteps; simpl;
  try change (0 =? 0) with true; try change (2 =? 0) with false; try change (-2 =? 0) with false;
  try change (1 =? 0) with false; try change (-1 =? 0) with false; simpl; ring.
Qed.

Lemma unit_neg v : unit (neg v) = neg (unit v).
Proof. destruct v; unfold unit, neg; simpl. now rewrite !Z.sgn_opp. Qed.

Lemma unit_ok c k v : In v (kdirs c k) ->
  Z.abs (fst (unit v)) <= 1 /\ Z.abs (snd (unit v)) <= 1 /\ unit v <> (0, 0).
Proof.
  intros H. apply kdirs_vals in H.
  destruct H as [->|[->|[->|[->|[->|[->|[->| ->]]]]]]]; unfold unit; simpl; repeat split; try lia; discriminate.
Qed.

Lemma usteps_bound v k p n : valid W p -> In v (kdirs p k) -> 1 <= n -> on_board W (shift p v n) ->
  1 <= usteps v n <= 63.
Proof.
  intros [[Px Py] _] Hv Hn B. pose proof (supported_bounds W HW). apply kdirs_vals in Hv.
  destruct Hv as [->|[->|[->|[->|[->|[->|[->| ->]]]]]]]; unfold on_board, shift, usteps in *; simpl in *;
  try change (0 =? 0) with true; try change (2 =? 0) with false; try change (-2 =? 0) with false;
  try change (1 =? 0) with false; try change (-1 =? 0) with false; simpl; lia.
Qed.

(** The listed coordinates are the grid points from [c] (included) to [p] (excluded). *)
Lemma intermediate_ok p k v n c : valid W p -> In v (kdirs p k) -> 1 <= n -> c = shift p v n ->
  on_board W c ->
  exists l, intermediate_coords W c p = Ret l /\
    forall e, In e l <-> exists j, 1 <= j <= usteps v n /\ e = shift p (unit v) j.
Proof.
  intros Vp Hv Hn Ec Bc.
  assert (Hv' : In (neg v) (kdirs c k)).
  { subst c. rewrite kdirs_shift by exact Hv. now apply kdirs_neg. }
  assert (Vc : valid W c) by (subst c; now apply (shift_valid W p k)).
  pose proof (usteps_bound v k p n Vp Hv Hn ltac:(now subst c)) as HS.
  set (m := usteps v n) in *.
  assert (Ep : p = shift c (neg (unit v)) m).
  { subst c. rewrite (unit_shift p k v n p Hv), shift_neg, shift_shift.
    fold m. replace (m + - m) with 0 by ring. now rewrite shift_0. }
  destruct (unit_ok p k v Hv) as (U1 & U2 & U3).
  assert (NU1 : Z.abs (fst (neg (unit v))) <= 1) by (unfold neg; simpl; lia).
  assert (NU2 : Z.abs (snd (neg (unit v))) <= 1) by (unfold neg; simpl; lia).
  assert (NU3 : neg (unit v) <> (0, 0)).
  { destruct (unit v) as [a b]; unfold neg; simpl in *. intros E. injection E as E1 E2.
    apply U3. f_equal; lia. }
  assert (IC : INTER_CAP = 64) by reflexivity.
  destruct (inter_seq_ok c (neg (unit v)) m p Bc (proj1 Vp) NU1 NU2 NU3 Ep ltac:(lia)
              SEQ_FUEL 1 [c]) as (l & El & Hl);
    [lia|rewrite SEQ_FUEL_val; lia|unfold llen; simpl; lia|].
  exists ([c] ++ l). split.
  - unfold intermediate_coords.
    rewrite vpush_ok by (unfold llen; simpl; lia). cbn [bind app].
    pose proof (supported_bounds W HW) as HB.
    destruct Vp as [[Px Py] PP]. destruct Bc as [Cx Cy].
    rewrite !as_i8_small by lia.
    rewrite !chk_i8_ok by lia. cbn [bind].
    rewrite chk_i8_ok by lia. cbn [bind].
    rewrite is_top_odd.
    assert (Xd : cx p - cx c = - (n * fst v)) by (subst c; simpl; ring).
    assert (Yd : cy p - cy c = - (n * snd v)) by (subst c; simpl; ring).
    rewrite Xd, Yd.
    assert (Par : fst v = 0 \/ snd v = 0 -> Z.odd (cy c) = (fst v =? 0)).
    { destruct k; cbn [kdirs] in Hv'; [|simpl in Hv; destruct Hv as [<-|[<-|[]]]; simpl; lia..].
      unfold straight_dirs, neg in Hv'. intros _.
      destruct (Z.odd (cy c)); simpl in Hv';
        destruct Hv' as [E|[E|[]]]; injection E as E1 E2; lia. }
    clear Hl Hv' Xd Yd Ep Ec.
    apply kdirs_vals in Hv.
    rewrite !land_1_mod.
    destruct Hv as [->|[->|[->|[->|[->|[->|[->| ->]]]]]]]; cbn [fst snd] in *;
    unfold unit, neg in El; cbn [fst snd Z.sgn] in El;
    try (rewrite Par by lia);
    repeat (match goal with |- context [if ?b then _ else _] =>
       first [ replace b with true by lia | replace b with false by lia ]; cbv iota end);
    exact El.
  - intros e. simpl. rewrite Hl. split.
    + intros [<-|(j & Hj & ->)].
      * exists m. split; [lia|]. subst c. now apply (unit_shift p k).
      * exists (m - j). split; [lia|]. rewrite shift_neg, Ec, (unit_shift p k v n p Hv), shift_shift.
        fold m. apply (f_equal (shift p (unit v))). ring.
    + intros (j & Hj & ->). destruct (Z.eq_dec j m) as [->|Hne].
      * left. subst c. now rewrite (unit_shift p k v n p Hv).
      * right. exists (m - j). split; [lia|].
        rewrite shift_neg, Ec, (unit_shift p k v n p Hv), shift_shift. fold m. apply (f_equal (shift p (unit v))). ring.
Qed.

(** Relating the listing to [seg]. *)
Lemma seg_unit p k v n c e : In v (kdirs p k) -> 1 <= n -> c = shift p v n ->
  (seg p c e <-> exists j, 1 <= j <= usteps v n /\ e = shift p (unit v) j).
Proof.
  intros Hv Hn Ec. destruct (unit_ok p k v Hv) as (U1 & U2 & U3).
  assert (HS : 1 <= usteps v n) by (unfold usteps; destruct ((fst v =? 0) || (snd v =? 0)); lia).
  split.
  - intros (u & m & j & A1 & A2 & A3 & A4 & A5 & A6).
    rewrite A4, (unit_shift p k v n p Hv) in Ec.
    destruct u as [ux uy]; destruct (unit v) as [vx vy].
    injection Ec as E1 E2. simpl in *.
    assert (N1 : ux <> 0 \/ uy <> 0) by (destruct (Z.eq_dec ux 0), (Z.eq_dec uy 0); auto; congruence).
    assert (N2 : vx <> 0 \/ vy <> 0) by (destruct (Z.eq_dec vx 0), (Z.eq_dec vy 0); auto; congruence).
    assert (ux = vx /\ uy = vy /\ m = usteps v n) as (-> & -> & ->).
    { set (q := usteps v n) in *. clearbody q.
      assert (F1 : m * ux = q * vx) by lia. assert (F2 : m * uy = q * vy) by lia.
      assert (ux = -1 \/ ux = 0 \/ ux = 1) as [->|[->| ->]] by lia;
      assert (uy = -1 \/ uy = 0 \/ uy = 1) as [->|[->| ->]] by lia;
      assert (vx = -1 \/ vx = 0 \/ vx = 1) as [->|[->| ->]] by lia;
      assert (vy = -1 \/ vy = 0 \/ vy = 1) as [->|[->| ->]] by lia; lia. }
    exists j. auto.
  - intros (j & Hj & ->). exists (unit v), (usteps v n), j. repeat split; auto; try lia.
    subst c. now apply (unit_shift p k).
Qed.

Variable wsr : coord -> res wall_state.
Variable ws : coord -> wall_state.
Hypothesis Hws : forall c, on_board W c -> wsr c = Ret (ws c).

Lemma uw_mark_ok : forall cs f b, Forall (on_board W) cs -> filter_ok f ->
  exists f' b', uw_mark W wsr cs (f, b) = Ret (f', b') /\ filter_ok f' /\
   (forall d, on_board W d -> (fbit W f' d = true <->
      fbit W f d = true \/ exists e, In e cs /\ ws e = Unchecked /\ as_index W e = as_index W d)) /\
   (b' = true <-> b = true \/ exists e, In e cs /\ ws e = Unchecked).
Proof.
  induction cs as [|c cs IH]; intros f b Hcs Hf; simpl.
  - exists f, b. split; [reflexivity|]. split; [exact Hf|]. split.
    + intros d Hd. split; [auto|intros [H|(e & [] & _)]; exact H].
    + split; [auto|intros [H|(e & [] & _)]; exact H].
  - inversion_clear Hcs as [|? ? Hc Hcs']. rewrite Hws by exact Hc. cbn [bind].
    destruct (ws c) eqn:Ew; cbn [is_unchecked].
    + destruct (filter_set_ok W f c HW Hc Hf) as (f1 & -> & Hf1 & B1). cbn [bind].
      destruct (IH f1 true Hcs' Hf1) as (f' & b' & E & Hf' & HB & Hb).
      exists f', b'. split; [exact E|]. split; [exact Hf'|]. split.
      * intros d Hd. rewrite (HB d Hd), (B1 d Hd), orb_true_iff, Z.eqb_eq. split.
        -- intros [[H|H]|(e & H1 & H2)]; [right; exists c; auto|auto|right; exists e; intuition].
        -- intros [H|(e & [<-|H1] & H2 & H3)]; [auto|auto|right; exists e; auto].
      * rewrite Hb. split; [intros _; right; exists c; auto|auto].
    + destruct (IH f b Hcs' Hf) as (f' & b' & E & Hf' & HB & Hb).
      exists f', b'. split; [exact E|]. split; [exact Hf'|]. split.
      * intros d Hd. rewrite (HB d Hd). split.
        -- intros [H|(e & H1 & H2)]; [auto|right; exists e; intuition].
        -- intros [H|(e & [<-|H1] & H2 & H3)]; [auto|congruence|right; exists e; auto].
      * rewrite Hb. split.
        -- intros [H|(e & H1 & H2)]; [auto|right; exists e; auto].
        -- intros [H|(e & [<-|H1] & H2)]; [auto|congruence|right; exists e; auto].
Qed.

Variable op : coord -> bool.
Variable start : coord.

Notation tpath := (tpath W start).

Lemma tpath_fun prev c l l' : tpath prev c l -> tpath prev c l' -> l = l'.
Proof.
  intros H. revert l'. induction H as [|c p l Hs Hp H IH]; intros l' H'.
  - inversion H'; [reflexivity|congruence].
  - inversion H' as [E|c' p' m Hs' Hp' H'']; subst; [congruence|].
    rewrite Hp in Hp'. injection Hp' as <-. f_equal. now apply IH.
Qed.

Lemma tpath_exists prev D disc : tree W op start prev D disc ->
  forall m c, In c disc -> D c = m -> exists l, tpath prev c l /\ chain (run W op) start l /\
    last l start = c /\ length l = m.
Proof.
  clear Hws wsr ws.
  intros (T1 & T2 & T3 & T4 & T5). induction m as [|m IH]; intros c Hc Dm.
  - destruct (coord_eq_dec c start) as [->|Hne].
    + exists []. repeat split; constructor.
    + destruct (T5 c Hc) as (p & Ep & Hp). destruct (Hp Hne) as (_ & _ & E). lia.
  - destruct (coord_eq_dec c start) as [->|Hne]; [lia|].
    destruct (T5 c Hc) as (p & Ep & Hp). destruct (Hp Hne) as (A & B & E).
    destruct (IH p A ltac:(lia)) as (l & H1 & H2 & H3 & H4).
    exists (l ++ [c]). split; [now apply (tp_step W start prev c p)|].
    split; [apply chain_snoc; [exact H2|now rewrite H3]|].
    split; [apply last_snoc|]. rewrite app_length; simpl; lia.
Qed.

Lemma passes_snoc l p c e : passes p (l ++ [c]) e <-> passes p l e \/ seg (last l p) c e.
Proof.
  revert p. induction l as [|d l IH]; intros p; cbn [app passes].
  - cbn [last]. tauto.
  - rewrite IH, last_cons. tauto.
Qed.


Lemma run_seg_board p c e : valid W p -> run W op p c -> seg p c e -> on_board W e.
Proof.
  intros Vp R Hs. destruct (run_valid W op p c Vp R) as [[Bc _] _]. destruct Vp as [Bp _].
  destruct Hs as (u & m & j & A1 & A2 & _ & -> & Hj & ->).
  destruct u as [ux uy]; unfold on_board, shift in *; simpl in *.
  assert (ux = -1 \/ ux = 0 \/ ux = 1) as [->|[->| ->]] by lia;
  assert (uy = -1 \/ uy = 0 \/ uy = 1) as [->|[->| ->]] by lia; lia.
Qed.

Lemma uw_while_ok prev D disc : tree W op start prev D disc ->
  forall n cur f b l, In cur disc -> cur <> start -> (D cur <= n)%nat -> filter_ok f ->
  tpath prev cur l ->
  exists f' b', uw_while n W start wsr prev cur (f, b) = Ret (f', b') /\ filter_ok f' /\
   (forall d, on_board W d -> (fbit W f' d = true <->
      fbit W f d = true \/ exists e, passes start l e /\ ws e = Unchecked /\ as_index W e = as_index W d)) /\
   (b' = true <-> b = true \/ exists e, passes start l e /\ ws e = Unchecked).
Proof.
  intros (T1 & T2 & T3 & T4 & T5). induction n as [|n IH]; intros cur f b l Hc Hs Hn Hf Tp.
  - exfalso. destruct (T5 cur Hc) as (p & Ep & Hp). destruct (Hp Hs) as (_ & _ & E). lia.
  - cbn [uw_while].
    destruct (T5 cur Hc) as (p & Ep & Hp). destruct (Hp Hs) as (Hpd & R & E).
    pose proof (as_index_que W cur HW (proj1 (T3 _ Hc))) as IBc.
    rewrite aget_ok by (rewrite T1; exact IBc). cbn [bind].
    change (araw prev (as_index W cur)) with (pv W prev cur). rewrite Ep.
    pose proof (T3 p Hpd) as Vp.
    destruct (proj1 (run_krun W op p cur) R) as (k & v & Hv & m & Hm & Ec & O).
    destruct (intermediate_ok p k v m cur Vp Hv Hm Ec (proj1 (T3 _ Hc))) as (cs & -> & Hcs).
    cbn [bind].
    assert (Hseg : forall e, In e cs <-> seg p cur e).
    { intros e. rewrite Hcs. symmetry. now apply (seg_unit p k). }
    assert (Fcs : Forall (on_board W) cs).
    { apply Forall_forall. intros e He. apply Hseg in He. now apply (run_seg_board p cur). }
    destruct (uw_mark_ok cs f b Fcs Hf) as (f1 & b1 & -> & Hf1 & HB1 & Hb1). cbn [bind].
    inversion Tp as [E1 E2|c' p' l' Hs' Hp' T' E1 E2]; [congruence|]. subst l. clear E1.
    rewrite Ep in Hp'. injection Hp' as <-.
    assert (Hlast : last l' start = p).
    { clear - T'. inversion T'; [reflexivity|]. apply last_snoc. }
    destruct (coord_eqb_spec p start) as [->|Hps].
    + exists f1, b1. split; [reflexivity|]. split; [exact Hf1|].
      assert (l' = []) as ->.
      { inversion T' as [|? ? ? Hne]; [reflexivity|congruence]. }
      cbn [app passes]. split.
      * intros d Hd. rewrite (HB1 d Hd). split; intros [H|(e & H1 & H2 & H3)]; auto; right; exists e;
          rewrite Hseg in *; tauto.
      * rewrite Hb1. split; intros [H|(e & H1 & H2)]; auto; right; exists e; rewrite Hseg in *; tauto.
    + destruct (IH p f1 b1 l' Hpd Hps ltac:(lia) Hf1 T') as (f' & b' & E' & Hf' & HB & Hb).
      exists f', b'. split; [exact E'|]. split; [exact Hf'|]. split.
      * intros d Hd. rewrite (HB d Hd), (HB1 d Hd). split.
        -- intros [[H|(e & H1 & H2 & H3)]|(e & H1 & H2 & H3)]; auto; right; exists e;
             rewrite passes_snoc, Hlast; rewrite ?Hseg in H1; auto.
        -- intros [H|(e & H1 & H2 & H3)]; auto. rewrite passes_snoc, Hlast in H1.
           destruct H1 as [H1|H1]; [right; exists e; auto|].
           left; right. exists e. rewrite Hseg. auto.
      * rewrite Hb, Hb1. split.
        -- intros [[H|(e & H1 & H2)]|(e & H1 & H2)]; auto; right; exists e;
             rewrite passes_snoc, Hlast; rewrite ?Hseg in H1; auto.
        -- intros [H|(e & H1 & H2)]; auto. rewrite passes_snoc, Hlast in H1.
           destruct H1 as [H1|H1]; [right; exists e; auto|].
           left; right. exists e. rewrite Hseg. auto.
Qed.

End Unk.
