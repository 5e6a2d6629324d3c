(** The successors are exactly the moves of the specification; trajectory kinds. *)
From Coq Require Import ZArith List Bool Lia Zify ZifyBool.
From Verif Require Import Base SearchModel SearchSpec SearchCoord SearchBfs RunModel RunSpec RunNode.
Import ListNotations.
Open Scope Z_scope.
Ltac Zify.zify_post_hook ::= Z.div_mod_to_equations.

Lemma place_parity n dx dy : (cx (place n dx dy) + cy (place n dx dy)) mod 2 = (nx n + ny n + dx + dy) mod 2.
Proof. unfold place. destruct (np n); cbn [to_right ahead fst snd cx cy]; lia. Qed.

Lemma onb_dist W n dx dy : valid_node W n -> onb W n dx dy = true ->
  -(2 * W) < dx < 2 * W /\ -(2 * W) < dy < 2 * W.
Proof.
  intros (Hx & Hy & _). rewrite onb_iff. unfold on_board, place.
  destruct (np n); cbn [to_right ahead fst snd cx cy]; lia.
Qed.

Lemma onb_conv W n a b k : valid_node W n -> onb W n (k * b) b = true -> 0 <= a <= b -> k = 0 \/ k = 1 ->
  onb W n (k * a) a = true.
Proof.
  intros (Hx & Hy & _). rewrite !onb_iff. unfold on_board, place.
  destruct (np n); cbn [to_right ahead fst snd cx cy]; intros ? ? [-> | ->]; lia.
Qed.

Lemma onb_far W n s a b d : valid_node W n -> onb W n s a = true -> onb W n d a = false -> 
  on_board W (place n 0 b) -> onb W n d b = false.
Proof.
  intros (Hx & Hy & _). rewrite <- !not_true_iff_false, !onb_iff. unfold on_board, place.
  destruct (np n); cbn [to_right ahead fst snd cx cy]; lia.
Qed.

Lemma place_00 n : place n 0 0 = Co (nx n) (ny n).
Proof. unfold place. destruct (np n); cbn [to_right ahead fst snd]; f_equal; lia. Qed.

Lemma nodup_app {A} (l l' : list A) : NoDup l -> NoDup l' -> (forall x, In x l -> ~ In x l') -> NoDup (l ++ l').
Proof.
  induction 1 as [|a l Ha Hl IH]; intros H' Hd; cbn [app]; [exact H'|].
  constructor.
  - rewrite in_app_iff. intros [H|H]; [auto|]. apply (Hd a); cbn; auto.
  - apply IH; [exact H'|]. intros x Hx. apply Hd. right. exact Hx.
Qed.

Section Moves.
  Variables (W : Z) (open : coord -> bool) (is_wall : coord -> res bool).
  Hypothesis HW : supported W.
  Hypothesis Hok : wall_ok W open is_wall.
  Variable n : node.
  Hypothesis Hv : valid_node W n.

  Let B : 1 <= W <= 32 := supported_bounds W HW.

  Lemma cont_val dx dy : -127 <= dx <= 127 -> -127 <= dy <= 127 -> (nx n + ny n + dx + dy) mod 2 = 1 ->
    cont W is_wall n dx dy = Ret (freeb W open n dx dy).
  Proof. intros. apply cont_ok; auto. rewrite odd_mod, place_parity. assumption. Qed.

  Lemma straight_loop_ok : is_diag (np n) = false -> forall fuel i acc,
    1 <= i <= W -> W - i < Z.of_nat fuel -> llen acc + (W - i) < NEIGHBOR_MAX ->
    exists l, straight_loop W is_wall n fuel i acc = Ret (acc ++ l) /\ llen l <= W - i /\ NoDup l /\
      (forall m k, In (m, k) l <-> exists j, i <= j /\ k = KStraight j /\
        (forall h, i <= h <= j -> freeb W open n 0 (2 * h - 1) = true) /\
        onb W n 0 (2 * j) = true /\ m = mk n 0 (2 * j) 0).
  Proof.
    intros Hd. induction fuel as [|fuel IH]; intros i acc Hi Hf Hl; [lia|].
    assert (Hpar : (nx n + ny n) mod 2 = 0).
    { destruct Hv as (_ & _ & H). rewrite Hd, !even_mod in H. lia. }
    cbn [straight_loop]. unfold range_next. rewrite !chk_i8_ok by lia. cbn [bind].
    rewrite cont_val by lia. cbn [bind].
    destruct (freeb W open n 0 (2 * i - 1)) eqn:Ef.
    2:{ exists []. rewrite app_nil_r. split; [reflexivity|]. unfold llen; cbn [length]. split; [lia|]. split; [constructor|].
        intros m k. split; [intros []|]. intros (j & Hj & _ & H & _).
        rewrite (H i) in Ef by lia. discriminate. }
    rewrite (add_ok W n acc 0 (2 * i) PN (KStraight i) 0) by
      (assumption || lia || (rewrite Hd; reflexivity)).
    cbn [bind fst snd].
    destruct (onb W n 0 (2 * i)) eqn:Eo.
    - pose proof (onb_dist W n 0 (2 * i) Hv Eo) as [_ Hi2].
      destruct (IH (i + 1) (acc ++ [(mk n 0 (2 * i) 0, KStraight i)])) as (l & El & Ll & Nd & Hin);
        [lia|lia|unfold llen in *; rewrite app_length; cbn [length]; lia|].
      exists ((mk n 0 (2 * i) 0, KStraight i) :: l).
      rewrite El, <- app_assoc. split; [reflexivity|].
      split; [unfold llen in *; cbn [length]; lia|].
      split; [constructor; [rewrite Hin; intros (j & Hj & Hk & _); injection Hk as Hk; lia|exact Nd]|].
      intros m k. cbn [In]. rewrite Hin. split.
      + intros [E|(j & Hj & Hk & Hh & Ho & Hm)].
        * injection E as <- <-. exists i. repeat split; try lia; try assumption.
          intros h Hh. replace h with i by lia. assumption.
        * exists j. repeat split; try lia; try assumption.
          intros h Hh'. destruct (Z.eq_dec h i) as [->|]; [assumption|apply Hh; lia].
      + intros (j & Hj & Hk & Hh & Ho & Hm). destruct (Z.eq_dec j i) as [->|].
        * left. congruence.
        * right. exists j. repeat split; try lia; try assumption. intros h Hh'. apply Hh. lia.
    - exists []. split; [reflexivity|]. unfold llen; cbn [length]. split; [lia|]. split; [constructor|].
      intros m k. split; [intros []|]. intros (j & Hj & _ & _ & Ho & _).
      pose proof (onb_conv W n (2 * i) (2 * j) 0 Hv Ho ltac:(lia) ltac:(lia)) as C. rewrite Z.mul_0_l in C. congruence.
  Qed.

  Lemma diag_loop_ok : is_diag (np n) = true -> forall fuel i acc,
    1 <= i <= 2 * W -> 2 * W - i < Z.of_nat fuel -> llen acc + (2 * W - i) < NEIGHBOR_MAX ->
    exists l, diag_loop W is_wall n fuel i acc = Ret (acc ++ l) /\ llen l <= 2 * W - i /\ NoDup l /\
      (forall m k, In (m, k) l <-> exists j, i <= j /\ k = KStraightDiagonal j /\
        (forall h, i <= h <= j -> freeb W open n h h = true) /\
        onb W n j j = true /\ m = mk n j j 0).
  Proof.
    intros Hd. induction fuel as [|fuel IH]; intros i acc Hi Hf Hl; [lia|].
    assert (Hpar : (nx n + ny n) mod 2 = 1).
    { destruct Hv as (_ & _ & H). rewrite Hd, odd_mod in H. lia. }
    cbn [diag_loop]. unfold range_next. rewrite !chk_i8_ok by lia. cbn [bind].
    rewrite cont_val by lia. cbn [bind].
    destruct (freeb W open n i i) eqn:Ef.
    2:{ exists []. rewrite app_nil_r. split; [reflexivity|]. unfold llen; cbn [length]. split; [lia|]. split; [constructor|].
        intros m k. split; [intros []|]. intros (j & Hj & _ & H & _).
        rewrite (H i) in Ef by lia. discriminate. }
    rewrite (add_ok W n acc i i PNE (KStraightDiagonal i) 0) by
      (assumption || lia || (rewrite Hd; reflexivity)).
    cbn [bind fst snd].
    destruct (onb W n i i) eqn:Eo.
    - pose proof (onb_dist W n i i Hv Eo) as [_ Hi2].
      destruct (IH (i + 1) (acc ++ [(mk n i i 0, KStraightDiagonal i)])) as (l & El & Ll & Nd & Hin);
        [lia|lia|unfold llen in *; rewrite app_length; cbn [length]; lia|].
      exists ((mk n i i 0, KStraightDiagonal i) :: l).
      rewrite El, <- app_assoc. split; [reflexivity|].
      split; [unfold llen in *; cbn [length]; lia|].
      split; [constructor; [rewrite Hin; intros (j & Hj & Hk & _); injection Hk as Hk; lia|exact Nd]|].
      intros m k. cbn [In]. rewrite Hin. split.
      + intros [E|(j & Hj & Hk & Hh & Ho & Hm)].
        * injection E as <- <-. exists i. repeat split; try lia; try assumption.
          intros h Hh. replace h with i by lia. assumption.
        * exists j. repeat split; try lia; try assumption.
          intros h Hh'. destruct (Z.eq_dec h i) as [->|]; [assumption|apply Hh; lia].
      + intros (j & Hj & Hk & Hh & Ho & Hm). destruct (Z.eq_dec j i) as [->|].
        * left. congruence.
        * right. exists j. repeat split; try lia; try assumption. intros h Hh'. apply Hh. lia.
    - exists []. split; [reflexivity|]. unfold llen; cbn [length]. split; [lia|]. split; [constructor|].
      intros m k. split; [intros []|]. intros (j & Hj & _ & Hh & Ho & _).
      specialize (Hh i ltac:(lia)). unfold freeb in Hh. apply andb_prop in Hh. unfold onb in Eo. destruct Hh; congruence.
  Qed.

  Definition turns (s : Z) : list (node * ekind) :=
    if freeb W open n s 2 then
      (mk n s 2 s, KSlalom45) ::
      if onb W n (2 * s) 2 then
        (mk n (2 * s) 2 (2 * s), KSlalom90) ::
        if freeb W open n (2 * s) 1 then
          (mk n (2 * s) 1 (3 * s), KSlalom135) ::
          if onb W n (2 * s) 0 then [(mk n (2 * s) 0 4, KSlalom180)] else []
        else []
      else []
    else [].

  Lemma freeb_onb dx dy : freeb W open n dx dy = true -> onb W n dx dy = true.
  Proof. unfold freeb. intros H. apply andb_prop in H. apply H. Qed.

  Lemma turn_side_ok s acc : is_diag (np n) = false -> s = 1 \/ s = -1 -> llen acc + 3 < NEIGHBOR_MAX ->
    turn_side W is_wall n s acc = Ret (acc ++ turns s).
  Proof.
    intros Hd Hs Hl.
    assert (Hpar : (nx n + ny n) mod 2 = 0).
    { destruct Hv as (_ & _ & H). rewrite Hd, !even_mod in H. lia. }
    unfold turn_side, turns. rewrite cont_val by lia. cbn [bind].
    destruct (freeb W open n s 2) eqn:E1; cbn [negb]; [|rewrite app_nil_r; reflexivity].
    rewrite (add_ok W n acc s 2 _ KSlalom45 s); try assumption; try lia.
    2:{ rewrite Hd. destruct Hs as [-> | ->]; reflexivity. }
    rewrite (freeb_onb _ _ E1). cbn [bind fst snd negb].
    rewrite (add_ok W n _ (2 * s) 2 _ KSlalom90 (2 * s)); try assumption; try lia.
    2:{ unfold llen in *; rewrite app_length; cbn [length]; lia. }
    2:{ rewrite Hd. destruct Hs as [-> | ->]; reflexivity. }
    destruct (onb W n (2 * s) 2) eqn:E2; cbn [bind fst snd negb]; [|rewrite app_nil_r; reflexivity].
    rewrite cont_val by lia. cbn [bind].
    destruct (freeb W open n (2 * s) 1) eqn:E3; cbn [negb]; [|rewrite <- !app_assoc; reflexivity].
    rewrite (add_ok W n _ (2 * s) 1 _ KSlalom135 (3 * s)); try assumption; try lia.
    2:{ unfold llen in *; rewrite !app_length; cbn [length]; lia. }
    2:{ rewrite Hd. destruct Hs as [-> | ->]; reflexivity. }
    rewrite (freeb_onb _ _ E3). cbn [bind fst snd negb].
    rewrite (add_ok W n _ (2 * s) 0 _ KSlalom180 4); try assumption; try lia.
    2:{ unfold llen in *; rewrite !app_length; cbn [length]; lia. }
    2:{ rewrite Hd. reflexivity. }
    cbn [bind snd]. rewrite <- !app_assoc. reflexivity.
  Qed.

  Lemma turns_len s : llen (turns s) <= 4.
  Proof.
    unfold turns, llen. destruct (freeb W open n s 2), (onb W n (2 * s) 2), (freeb W open n (2 * s) 1), (onb W n (2 * s) 0);
    cbn [length]; lia.
  Qed.

  Lemma turns_in s m k : s = 1 \/ s = -1 -> is_diag (np n) = false ->
    (In (m, k) (turns s) <->
     (freeb W open n s 2 = true /\ onb W n s 2 = true /\ m = mk n s 2 s /\ k = KSlalom45) \/
     (freeb W open n s 2 = true /\ onb W n (2 * s) 2 = true /\ m = mk n (2 * s) 2 (2 * s) /\ k = KSlalom90) \/
     (freeb W open n s 2 = true /\ freeb W open n (2 * s) 1 = true /\ onb W n (2 * s) 1 = true
       /\ m = mk n (2 * s) 1 (3 * s) /\ k = KSlalom135) \/
     (freeb W open n s 2 = true /\ freeb W open n (2 * s) 1 = true /\ onb W n (2 * s) 0 = true
       /\ m = mk n (2 * s) 0 4 /\ k = KSlalom180)).
  Proof.
    intros Hs Hd. unfold turns.
    pose proof (freeb_onb s 2) as F1. pose proof (freeb_onb (2 * s) 1) as F2.
    assert (F3 : freeb W open n s 2 = true -> onb W n (2 * s) 1 = true -> onb W n (2 * s) 2 = true).
    { intros A1 A2. apply F1 in A1. revert A1 A2. destruct Hv as (Hx & Hy & _). rewrite !onb_iff.
      unfold on_board, place. destruct (np n); cbn [to_right ahead fst snd cx cy]; lia. }
    destruct (freeb W open n s 2); [|split; [intros []|intuition discriminate]].
    destruct (freeb W open n (2 * s) 1).
    - rewrite (F3 eq_refl (F2 eq_refl)), (F1 eq_refl), (F2 eq_refl).
      destruct (onb W n (2 * s) 0); cbn [In]; split; intros H; intuition (try congruence).
    - rewrite (F1 eq_refl). destruct (onb W n (2 * s) 2); cbn [In]; split; intros H; intuition (try congruence).
  Qed.

  Lemma turns_nodup : is_diag (np n) = false -> NoDup (turns 1 ++ turns (-1)).
  Proof.
    intros Hd.
    assert (N : forall s, NoDup (turns s)).
    { intros s. unfold turns. repeat (match goal with |- context [if ?b then _ else _] => destruct b end);
      repeat constructor; cbn [In]; intuition discriminate. }
    apply nodup_app; auto. intros [m k]. rewrite !turns_in by auto. clear N B.
    assert (P : forall a b c d e f, a <> d -> mk n a b c <> mk n d e f \/ b <> e).
    { intros a b c d e f Hn. destruct (Z.eq_dec b e) as [->|]; [|auto]. left. unfold mk, place.
      intros E. destruct (np n); cbn [to_right ahead fst snd cx cy] in E; injection E; intros; lia. }
    intros H1 H2.
    destruct H1 as [H1|[H1|[H1|H1]]], H2 as [H2|[H2|[H2|H2]]];
    repeat match goal with h : _ /\ _ |- _ => destruct h end; try congruence;
    match goal with h : m = mk n ?a ?b ?c, h' : m = mk n ?d ?e ?f |- _ =>
      destruct (P a b c d e f); [lia|congruence|congruence] end.
  Qed.

  Definition lefts : list (node * ekind) :=
    if onb W n 1 2 then
      (mk n 1 2 (-1), KSlalom45) ::
      if freeb W open n 0 2 then
        (mk n 0 2 (-2), KSlalomDiagonal90) ::
        if onb W n (-1) 2 then [(mk n (-1) 2 (-3), KSlalom135)] else []
      else []
    else [].
  Definition rights : list (node * ekind) :=
    if onb W n 2 1 then
      (mk n 2 1 1, KSlalom45) ::
      if freeb W open n 2 0 then
        (mk n 2 0 2, KSlalomDiagonal90) ::
        if onb W n 2 (-1) then [(mk n 2 (-1) 3, KSlalom135)] else []
      else []
    else [].

  Lemma lefts_in m k : onb W n 1 1 = true ->
    (In (m, k) lefts <->
     (onb W n 1 2 = true /\ m = mk n 1 2 (-1) /\ k = KSlalom45) \/
     (freeb W open n 0 2 = true /\ onb W n 0 2 = true /\ m = mk n 0 2 (-2) /\ k = KSlalomDiagonal90) \/
     (freeb W open n 0 2 = true /\ onb W n (-1) 2 = true /\ m = mk n (-1) 2 (-3) /\ k = KSlalom135)).
  Proof.
    intros H1. unfold lefts. pose proof (freeb_onb 0 2) as F1.
    assert (F3 : onb W n 0 2 = true -> onb W n 1 2 = true).
    { revert H1. destruct Hv as (Hx & Hy & _). rewrite !onb_iff.
      unfold on_board, place. destruct (np n); cbn [to_right ahead fst snd cx cy]; lia. }
    destruct (freeb W open n 0 2).
    - rewrite (F3 (F1 eq_refl)), (F1 eq_refl). destruct (onb W n (-1) 2); cbn [In]; split; intros H; intuition (try congruence).
    - destruct (onb W n 1 2); cbn [In]; split; intros H; intuition (try congruence).
  Qed.
  Lemma rights_in m k : onb W n 1 1 = true ->
    (In (m, k) rights <->
     (onb W n 2 1 = true /\ m = mk n 2 1 1 /\ k = KSlalom45) \/
     (freeb W open n 2 0 = true /\ onb W n 2 0 = true /\ m = mk n 2 0 2 /\ k = KSlalomDiagonal90) \/
     (freeb W open n 2 0 = true /\ onb W n 2 (-1) = true /\ m = mk n 2 (-1) 3 /\ k = KSlalom135)).
  Proof.
    intros H1. unfold rights. pose proof (freeb_onb 2 0) as F1.
    assert (F3 : onb W n 2 0 = true -> onb W n 2 1 = true).
    { revert H1. destruct Hv as (Hx & Hy & _). rewrite !onb_iff.
      unfold on_board, place. destruct (np n); cbn [to_right ahead fst snd cx cy]; lia. }
    destruct (freeb W open n 2 0).
    - rewrite (F3 (F1 eq_refl)), (F1 eq_refl). destruct (onb W n 2 (-1)); cbn [In]; split; intros H; intuition (try congruence).
    - destruct (onb W n 2 1); cbn [In]; split; intros H; intuition (try congruence).
  Qed.

  Lemma group_ok : group n = if is_diag (np n) then (if bends_left n then GLeft else GRight) else GCell.
  Proof.
    unfold group. rewrite !land1, !Zmod_odd. destruct Hv as (_ & _ & H).
    unfold bends_left. destruct (np n); cbn [is_diag] in *; rewrite ?Z.odd_add in H;
    rewrite <- ?Z.negb_odd in H; destruct (Z.odd (nx n)), (Z.odd (ny n)); cbn in H; try reflexivity; intuition discriminate.
  Qed.

  Lemma rmove_cell m k : is_diag (np n) = false ->
    ((exists t, rmove W open n m k t) <->
     (exists j, 1 <= j /\ k = KStraight j /\ (forall h, 1 <= h <= j -> freeb W open n 0 (2 * h - 1) = true) /\
        onb W n 0 (2 * j) = true /\ m = mk n 0 (2 * j) 0) \/
     (freeb W open n 0 1 = true /\ (In (m, k) (turns 1) \/ In (m, k) (turns (-1))))).
  Proof.
    intros Hd. rewrite (turns_in 1) by auto. rewrite (turns_in (-1)) by auto.
    split.
    - intros [t H]. inversion H; clear H; subst; try congruence;
      repeat match goal with
      | h : lands _ _ _ _ _ _ |- _ => apply lands_iff in h; destruct h
      | h : free _ _ _ _ _ |- _ => rewrite <- freeb_iff in h
      end.
      + left. eexists. repeat split; eauto. intros h Hh. apply freeb_iff. auto.
      + right. split; [assumption|]. match goal with h : _ = 1 \/ _ |- _ => destruct h; subst s end; [left|right]; left; auto.
      + right. split; [assumption|]. match goal with h : _ = 1 \/ _ |- _ => destruct h; subst s end; [left|right]; right; left; auto.
      + right. split; [assumption|]. match goal with h : _ = 1 \/ _ |- _ => destruct h; subst s end; [left|right]; right; right; left; auto.
      + right. split; [assumption|]. match goal with h : _ = 1 \/ _ |- _ => destruct h; subst s end; [left|right]; right; right; right; auto.
    - intros [(j & Hj & -> & Hf & Ho & ->)|[F [D|D]]].
      + eexists. apply mv_straight; auto; [intros h Hh; apply freeb_iff; auto|apply lands_iff; auto].
      + clear B; destruct D as [D|[D|[D|D]]]; repeat match goal with h : _ /\ _ |- _ => destruct h end; subst;
        repeat match goal with h : freeb _ _ _ _ _ = true |- _ => apply freeb_iff in h end; eexists;
        [apply (mv_45 W open n _ 1)|apply (mv_90 W open n _ 1)|apply (mv_135 W open n _ 1)|apply (mv_180 W open n _ 1)];
        auto; apply lands_iff; auto.
      + clear B; destruct D as [D|[D|[D|D]]]; repeat match goal with h : _ /\ _ |- _ => destruct h end; subst;
        repeat match goal with h : freeb _ _ _ _ _ = true |- _ => apply freeb_iff in h end; eexists;
        [apply (mv_45 W open n _ (-1))|apply (mv_90 W open n _ (-1))|apply (mv_135 W open n _ (-1))|apply (mv_180 W open n _ (-1))];
        auto; apply lands_iff; auto.
  Qed.

  Lemma rmove_diag m k : is_diag (np n) = true ->
    ((exists t, rmove W open n m k t) <->
     (exists j, 1 <= j /\ k = KStraightDiagonal j /\ (forall h, 1 <= h <= j -> freeb W open n h h = true) /\
        onb W n j j = true /\ m = mk n j j 0) \/
     (freeb W open n 1 1 = true /\ In (m, k) (if bends_left n then lefts else rights))).
  Proof.
    intros Hd.
    assert (E : freeb W open n 1 1 = true /\ In (m, k) (if bends_left n then lefts else rights) <->
      freeb W open n 1 1 = true /\
      ((bends_left n = true /\
     ((onb W n 1 2 = true /\ m = mk n 1 2 (-1) /\ k = KSlalom45) \/
     (freeb W open n 0 2 = true /\ onb W n 0 2 = true /\ m = mk n 0 2 (-2) /\ k = KSlalomDiagonal90) \/
     (freeb W open n 0 2 = true /\ onb W n (-1) 2 = true /\ m = mk n (-1) 2 (-3) /\ k = KSlalom135))) \/
      (bends_left n = false /\ ((onb W n 2 1 = true /\ m = mk n 2 1 1 /\ k = KSlalom45) \/
     (freeb W open n 2 0 = true /\ onb W n 2 0 = true /\ m = mk n 2 0 2 /\ k = KSlalomDiagonal90) \/
     (freeb W open n 2 0 = true /\ onb W n 2 (-1) = true /\ m = mk n 2 (-1) 3 /\ k = KSlalom135))))).
    { split; intros [F H]; (split; [exact F|]); apply freeb_onb in F;
      rewrite <- ?(lefts_in m k F), <- ?(rights_in m k F) in *;
      destruct (bends_left n); intuition discriminate. }
    rewrite E; clear E. split.
    - intros [t H]. inversion H; clear H; subst; try congruence;
      repeat match goal with
      | h : lands _ _ _ _ _ _ |- _ => apply lands_iff in h; destruct h
      | h : free _ _ _ _ _ |- _ => rewrite <- freeb_iff in h
      end.
      + left. eexists. repeat split; eauto. intros h Hh. apply freeb_iff. auto.
      + right. auto 10.
      + right. auto 10.
      + right. auto 10.
      + right. auto 10.
      + right. auto 10.
      + right. auto 10.
    - intros [(j & Hj & -> & Hf & Ho & ->)|[F [[Eb D]|[Eb D]]]].
      + eexists. apply mv_diag; auto; [intros h Hh; apply freeb_iff; auto|apply lands_iff; auto].
      + clear B; destruct D as [D|[D|D]]; repeat match goal with h : _ /\ _ |- _ => destruct h end; subst;
        repeat match goal with h : freeb _ _ _ _ _ = true |- _ => apply freeb_iff in h end; eexists;
        [apply mv_left45|apply mv_left90|apply mv_left135]; auto; apply lands_iff; auto.
      + clear B; destruct D as [D|[D|D]]; repeat match goal with h : _ /\ _ |- _ => destruct h end; subst;
        repeat match goal with h : freeb _ _ _ _ _ = true |- _ => apply freeb_iff in h end; eexists;
        [apply mv_right45|apply mv_right90|apply mv_right135]; auto; apply lands_iff; auto.
  Qed.

  Lemma successors_ok : exists l, successors W is_wall n = Ret l /\
    llen l <= Z.max (W + 7) (2 * W + 2) /\ NoDup l /\
    (forall m k, In (m, k) l <-> exists t, rmove W open n m k t).
  Proof.
    unfold successors. rewrite group_ok. destruct (is_diag (np n)) eqn:Hd.
    - assert (Hpar : (nx n + ny n) mod 2 = 1).
      { destruct Hv as (_ & _ & H). rewrite Hd, odd_mod in H. lia. }
      destruct (diag_loop_ok Hd SEQ_FUEL 1 []) as (l & El & Ll & Nd & Hl);
        [lia|rewrite SEQ_FUEL_val; lia|unfold llen; cbn [length]; unfold NEIGHBOR_MAX, WIDTH; lia|].
      assert (Hlen : llen l + 3 <= NEIGHBOR_MAX) by (unfold NEIGHBOR_MAX, WIDTH; lia).
      destruct (bends_left n) eqn:Eb.
      + unfold succs_left. rewrite cont_val by lia. cbn [bind].
        destruct (freeb W open n 1 1) eqn:F1; cbn [negb].
        2:{ exists []. split; [reflexivity|]. split; [unfold llen; cbn; lia|]. split; [constructor|].
            intros m k. rewrite rmove_diag, F1 by assumption. split; [intros []|].
            intros [(j & Hj & _ & H & _)|[]]; [rewrite (H 1) in F1 by lia|]; discriminate. }
        rewrite El. cbn [bind app].
        assert (Er : (let* r := add W n l 1 2 PN KSlalom45 in
                if negb (fst r) then Ret (snd r) else
                let* c := cont W is_wall n 0 2 in
                if negb c then Ret (snd r) else
                let* r := add W n (snd r) 0 2 PNW KSlalomDiagonal90 in
                if negb (fst r) then Ret (snd r) else
                let* r := add W n (snd r) (-1) 2 PW KSlalom135 in
                Ret (snd r)) = Ret (l ++ lefts)).
        { unfold lefts. rewrite (add_ok W n l 1 2 PN KSlalom45 (-1)); try assumption; try lia.
          2:{ rewrite Hd. reflexivity. }
          cbn [bind fst snd]. destruct (onb W n 1 2); cbn [negb]; [|reflexivity].
          rewrite cont_val by lia. cbn [bind].
          destruct (freeb W open n 0 2) eqn:F2; cbn [negb]; [|reflexivity].
          rewrite (add_ok W n _ 0 2 PNW KSlalomDiagonal90 (-2)); try assumption; try lia.
          2:{ unfold llen in *; rewrite !app_length; cbn [length]; lia. }
          2:{ rewrite Hd. reflexivity. }
          rewrite (freeb_onb _ _ F2). cbn [bind fst snd negb].
          rewrite (add_ok W n _ (-1) 2 PW KSlalom135 (-3)); try assumption; try lia.
          2:{ unfold llen in *; rewrite !app_length; cbn [length]; lia. }
          2:{ rewrite Hd. reflexivity. }
          cbn [bind snd]. rewrite <- !app_assoc. reflexivity. }
        rewrite Er. exists (l ++ lefts). split; [reflexivity|]. split; [|split].
        * assert (llen lefts <= 3).
          { unfold lefts, llen. destruct (onb W n 1 2), (freeb W open n 0 2), (onb W n (-1) 2); cbn [length]; lia. }
          unfold llen in *. rewrite app_length. lia.
        * apply nodup_app; [exact Nd|unfold lefts; repeat (match goal with |- context [if ?b then _ else _] => destruct b end); repeat constructor; cbn [In]; intuition discriminate|].
          intros [m k] H1 H2. apply Hl in H1. destruct H1 as (j & _ & -> & _). revert H2.
          unfold lefts. repeat (match goal with |- context [if ?b then _ else _] => destruct b end); cbn [In]; intuition discriminate.
        * intros m k. rewrite in_app_iff, Hl, rmove_diag, F1, Eb by assumption. intuition.
      + unfold succs_right. rewrite cont_val by lia. cbn [bind].
        destruct (freeb W open n 1 1) eqn:F1; cbn [negb].
        2:{ exists []. split; [reflexivity|]. split; [unfold llen; cbn; lia|]. split; [constructor|].
            intros m k. rewrite rmove_diag, F1 by assumption. split; [intros []|].
            intros [(j & Hj & _ & H & _)|[]]; [rewrite (H 1) in F1 by lia|]; discriminate. }
        rewrite El. cbn [bind app].
        assert (Er : (let* r := add W n l 2 1 PE KSlalom45 in
                if negb (fst r) then Ret (snd r) else
                let* c := cont W is_wall n 2 0 in
                if negb c then Ret (snd r) else
                let* r := add W n (snd r) 2 0 PSE KSlalomDiagonal90 in
                if negb (fst r) then Ret (snd r) else
                let* r := add W n (snd r) 2 (-1) PS KSlalom135 in
                Ret (snd r)) = Ret (l ++ rights)).
        { unfold rights. rewrite (add_ok W n l 2 1 PE KSlalom45 1); try assumption; try lia.
          2:{ rewrite Hd. reflexivity. }
          cbn [bind fst snd]. destruct (onb W n 2 1); cbn [negb]; [|reflexivity].
          rewrite cont_val by lia. cbn [bind].
          destruct (freeb W open n 2 0) eqn:F2; cbn [negb]; [|reflexivity].
          rewrite (add_ok W n _ 2 0 PSE KSlalomDiagonal90 2); try assumption; try lia.
          2:{ unfold llen in *; rewrite !app_length; cbn [length]; lia. }
          2:{ rewrite Hd. reflexivity. }
          rewrite (freeb_onb _ _ F2). cbn [bind fst snd negb].
          rewrite (add_ok W n _ 2 (-1) PS KSlalom135 3); try assumption; try lia.
          2:{ unfold llen in *; rewrite !app_length; cbn [length]; lia. }
          2:{ rewrite Hd. reflexivity. }
          cbn [bind snd]. rewrite <- !app_assoc. reflexivity. }
        rewrite Er. exists (l ++ rights). split; [reflexivity|]. split; [|split].
        * assert (llen rights <= 3).
          { unfold rights, llen. destruct (onb W n 2 1), (freeb W open n 2 0), (onb W n 2 (-1)); cbn [length]; lia. }
          unfold llen in *. rewrite app_length. lia.
        * apply nodup_app; [exact Nd|unfold rights; repeat (match goal with |- context [if ?b then _ else _] => destruct b end); repeat constructor; cbn [In]; intuition discriminate|].
          intros [m k] H1 H2. apply Hl in H1. destruct H1 as (j & _ & -> & _). revert H2.
          unfold rights. repeat (match goal with |- context [if ?b then _ else _] => destruct b end); cbn [In]; intuition discriminate.
        * intros m k. rewrite in_app_iff, Hl, rmove_diag, F1, Eb by assumption. intuition.
    - assert (Hpar : (nx n + ny n) mod 2 = 0).
      { destruct Hv as (_ & _ & H). rewrite Hd, !even_mod in H. lia. }
      unfold succs_cell. rewrite cont_val by lia. cbn [bind].
      destruct (freeb W open n 0 1) eqn:F1; cbn [negb].
      2:{ exists []. split; [reflexivity|]. split; [unfold llen; cbn; lia|]. split; [constructor|].
          intros m k. rewrite rmove_cell, F1 by assumption. split; [intros []|].
          intros [(j & Hj & _ & H & _)|[]]; [|discriminate].
          specialize (H 1 ltac:(lia)). change (2 * 1 - 1) with 1 in H. congruence. }
      destruct (straight_loop_ok Hd SEQ_FUEL 1 []) as (l & El & Ll & Nd & Hl);
        [lia|rewrite SEQ_FUEL_val; lia|unfold llen; cbn [length]; unfold NEIGHBOR_MAX, WIDTH; lia|].
      rewrite El. cbn [bind app].
      pose proof (turns_len 1) as T1. pose proof (turns_len (-1)) as T2.
      rewrite turn_side_ok by (auto; unfold NEIGHBOR_MAX, WIDTH; lia). cbn [bind].
      rewrite turn_side_ok by (auto; unfold NEIGHBOR_MAX, WIDTH, llen in *; rewrite ?app_length; lia).
      eexists. split; [reflexivity|]. split; [|split].
      + unfold llen in *. rewrite !app_length. lia.
      + rewrite <- app_assoc. apply nodup_app; [exact Nd|apply turns_nodup; exact Hd|].
        intros [m k] H1 H2. apply Hl in H1. destruct H1 as (j & _ & -> & _). revert H2. rewrite in_app_iff.
        rewrite !turns_in by auto. intuition discriminate.
      + intros m k. rewrite !in_app_iff, Hl, rmove_cell, F1 by assumption. intuition.
  Qed.
End Moves.
