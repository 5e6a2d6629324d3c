(** Every way from square to square can be driven with the moves of a run. *)
From Coq Require Import ZArith List Bool Lia.
From Verif Require Import Base SearchModel SearchSpec RunModel RunSpec RunTraj RunDijk RunThm ReachSpec.
Import ListNotations.
Open Scope Z_scope.

Definition P8 (p : posture) : dir8 := match p with North => PN | East => PE | South => PS | West => PW end.
Definition D8 (f g : posture) : dir8 :=
  match f, g with
  | North, East | East, North => PNE
  | East, South | South, East => PSE
  | South, West | West, South => PSW
  | West, North | North, West => PNW
  | _, _ => PN
  end.
Definition cn (c : Z * Z) (p : posture) : node := Nde (2 * fst c) (2 * snd c) (P8 p).
Definition dn (c : Z * Z) (f g : posture) : node := Nde (2 * fst c + fst (pvec f)) (2 * snd c + snd (pvec f)) (D8 f g).
Definition perp (f g : posture) : Prop := g = turn_right f \/ g = turn_left f.

Section Moves.
Variables (W : Z) (open : coord -> bool).

Ltac prep := repeat match goal with c : (Z * Z)%type |- _ => destruct c end;
  unfold passage, in_maze, beyond, between, cn, dn in *; cbn [pvec fst snd P8 D8 reverse turn_right turn_left] in *;
  repeat match goal with H : _ /\ _ |- _ => destruct H end.
Ltac wall_in := match goal with
  | H : open ?c = true |- open ?c' = true => replace c' with c; [exact H | f_equal; lia]
  end.
Ltac fr := unfold free, lands, on_board, place, turned; cbn [nx ny np to_right ahead fst snd cx cy dir_num];
  repeat split; try lia; try wall_in; try (f_equal; lia); try reflexivity.

Lemma mk_straight c d : in_maze W c -> passage W open c d -> rmove W open (cn c d) (cn (beyond c d) d) (KStraight 1) (RStraight 1).
Proof.
  intros C H. destruct d; prep; (apply mv_straight; [reflexivity | lia | intros j Hj; replace j with 1 by lia; fr | fr]).
Qed.
Lemma mk_45 c d e : perp d e -> in_maze W c -> passage W open c d -> passage W open (beyond c d) e ->
  exists t, rmove W open (cn c d) (dn (beyond c d) e d) KSlalom45 t.
Proof.
  intros [-> | ->] C H1 H2; eexists; destruct d; prep;
  first [apply (mv_45 _ _ _ _ 1); [reflexivity | lia | fr | fr | fr; fail] | apply (mv_45 _ _ _ _ (-1)); [reflexivity | lia | fr | fr | fr; fail]].
Qed.
Lemma mk_90 c d e : perp d e -> in_maze W c -> passage W open c d -> passage W open (beyond c d) e ->
  exists t, rmove W open (cn c d) (cn (beyond (beyond c d) e) e) KSlalom90 t.
Proof.
  intros [-> | ->] C H1 H2; eexists; destruct d; prep;
  first [apply (mv_90 _ _ _ _ 1); [reflexivity | lia | fr | fr | fr; fail] | apply (mv_90 _ _ _ _ (-1)); [reflexivity | lia | fr | fr | fr; fail]].
Qed.
Lemma mk_135 c d e : perp d e -> in_maze W c -> passage W open c d -> passage W open (beyond c d) e -> passage W open (beyond (beyond c d) e) (reverse d) ->
  exists t, rmove W open (cn c d) (dn (beyond (beyond c d) e) (reverse d) e) KSlalom135 t.
Proof.
  intros [-> | ->] C H1 H2 H3; eexists; destruct d; prep;
  first [apply (mv_135 _ _ _ _ 1); [reflexivity | lia | fr | fr | fr | fr; fail] | apply (mv_135 _ _ _ _ (-1)); [reflexivity | lia | fr | fr | fr | fr; fail]].
Qed.
Lemma mk_180 c d e : perp d e -> in_maze W c -> passage W open c d -> passage W open (beyond c d) e -> passage W open (beyond (beyond c d) e) (reverse d) ->
  exists t, rmove W open (cn c d) (cn (beyond (beyond (beyond c d) e) (reverse d)) (reverse d)) KSlalom180 t.
Proof.
  intros [-> | ->] C H1 H2 H3; eexists; destruct d; prep;
  first [apply (mv_180 _ _ _ _ 1); [reflexivity | lia | fr | fr | fr | fr; fail] | apply (mv_180 _ _ _ _ (-1)); [reflexivity | lia | fr | fr | fr | fr; fail]].
Qed.

(** from the middle of a wall *)
Ltac par := cbn [dn bends_left np nx ny D8]; rewrite ?Z.odd_add, ?Z.odd_mul; reflexivity.
Lemma mk_diag c f g : perp f g -> in_maze W c -> passage W open c f -> passage W open (beyond c f) g ->
  rmove W open (dn c f g) (dn (beyond c f) g f) (KStraightDiagonal 1) (RStraightDiagonal 1).
Proof.
  intros [-> | ->] C H1 H2; destruct f; prep; (apply mv_diag; [reflexivity | lia | intros j Hj; replace j with 1 by lia; fr | fr]).
Qed.
Lemma mk_45r c f g : perp f g -> in_maze W c -> passage W open c f -> passage W open (beyond c f) g ->
  exists t, rmove W open (dn c f g) (cn (beyond (beyond c f) g) g) KSlalom45 t.
Proof.
  intros [-> | ->] C H1 H2; eexists; destruct f; prep;
  first [apply mv_left45; [reflexivity | par | fr | fr; fail] | apply mv_right45; [reflexivity | par | fr | fr; fail]].
Qed.
Lemma mk_90d c f g : perp f g -> in_maze W c -> passage W open c f -> passage W open (beyond c f) g -> passage W open (beyond (beyond c f) g) (reverse f) ->
  exists t, rmove W open (dn c f g) (dn (beyond (beyond c f) g) (reverse f) g) KSlalomDiagonal90 t.
Proof.
  intros [-> | ->] C H1 H2 H3; eexists; destruct f; prep;
  first [apply mv_left90; [reflexivity | par | fr | fr | fr; fail] | apply mv_right90; [reflexivity | par | fr | fr | fr; fail]].
Qed.
Lemma mk_135r c f g : perp f g -> in_maze W c -> passage W open c f -> passage W open (beyond c f) g -> passage W open (beyond (beyond c f) g) (reverse f) ->
  exists t, rmove W open (dn c f g) (cn (beyond (beyond (beyond c f) g) (reverse f)) (reverse f)) KSlalom135 t.
Proof.
  intros [-> | ->] C H1 H2 H3; eexists; destruct f; prep;
  first [apply mv_left135; [reflexivity | par | fr | fr | fr; fail] | apply mv_right135; [reflexivity | par | fr | fr | fr; fail]].
Qed.

(** ** whole ways *)
Variables (cost : ekind -> Z) (cmax B : Z).
Hypothesis Hc : forall k, 0 <= cost k.
Hypothesis HB : forall k, In k [KStraight 1; KStraightDiagonal 1; KSlalom45; KSlalom90; KSlalom135; KSlalom180; KSlalomDiagonal90] -> cost k <= B.

Lemma rpath_cons a b l e c k t : rmove W open a b k t -> rpath W open cost cmax b l e c ->
  exists c', rpath W open cost cmax a (a :: l) e c' /\ c' <= cost k + c.
Proof.
  intros M H. induction H as [|l b' c m k' t' H (c1 & H1 & L) M'].
  - eexists. split; [apply (rp_snoc _ _ _ _ _ [a] a 0 b k t); [constructor | exact M]|]. lia.
  - eexists. split; [rewrite app_comm_cons; eapply rp_snoc; [exact H1 | exact M']|]. specialize (Hc k). lia.
Qed.

(** no turning back, and not around a pillar *)
Fixpoint tame (l : list posture) : Prop :=
  match l with
  | p :: l' => tame l' /\
      match l' with
      | q :: l'' => q <> reverse p /\ match l'' with r :: s :: _ => ~ (r = reverse p /\ s = reverse q) | _ => True end
      | [] => True
      end
  | [] => True
  end.

Lemma dir_cases p q : q <> reverse p -> q = p \/ perp p q.
Proof. unfold perp. destruct p, q; cbn; intros H; try (left; reflexivity); try (right; left; reflexivity); try (right; right; reflexivity); congruence. Qed.
Lemma perp_cases p q r : perp p q -> r <> reverse q -> r = q \/ r = p \/ r = reverse p.
Proof. unfold perp. intros [-> | ->] H; destruct p, r; cbn in *; auto; congruence. Qed.
Lemma perp_sym p q : perp p q -> perp q p.
Proof. unfold perp. intros [-> | ->]; destruct p; cbn; auto. Qed.
Lemma perp_rev p q : perp p q -> perp (reverse p) q.
Proof. unfold perp. intros [-> | ->]; destruct p; cbn; auto. Qed.

Definition drive (a b : node) (n : nat) : Prop := exists l c, rpath W open cost cmax a l b c /\ c <= B * Z.of_nat n.
Lemma drive_step a b e k t n m : rmove W open a b k t -> In k [KStraight 1; KStraightDiagonal 1; KSlalom45; KSlalom90; KSlalom135; KSlalom180; KSlalomDiagonal90] ->
  (n < m)%nat -> drive b e n -> drive a e m.
Proof.
  intros M K L (l & c & P & Q). destruct (rpath_cons _ _ _ _ _ _ _ M P) as (c' & P' & Q'). exists (a :: l), c'. split; [exact P'|].
  specialize (HB k K). specialize (Hc k). nia.
Qed.
Lemma drive_last a b k t m : rmove W open a b k t -> In k [KStraight 1; KStraightDiagonal 1; KSlalom45; KSlalom90; KSlalom135; KSlalom180; KSlalomDiagonal90] ->
  (0 < m)%nat -> drive a b m.
Proof. intros M K L. eapply drive_step; [exact M | exact K | exact L|]. exists [b], 0. split; [constructor | lia]. Qed.

Lemma way_inv c p l e : way W open c (p :: l) e -> passage W open c p /\ way W open (beyond c p) l e.
Proof. intros H. inversion H; subst; split; assumption. Qed.
Lemma way_end c e : way W open c [] e -> e = c.
Proof. intros H. inversion H; reflexivity. Qed.

Lemma tame_drive n : 
  (forall ds c d e, (length ds <= n)%nat -> tame (d :: ds) -> in_maze W c -> way W open c (d :: ds) e -> exists p, drive (cn c d) (cn e p) (S (length ds))) /\
  (forall ds c f g e, (length ds <= n)%nat -> perp f g -> tame (f :: g :: ds) -> in_maze W c -> passage W open c f -> way W open (beyond c f) (g :: ds) e ->
    exists p, drive (dn c f g) (cn e p) (S (length ds))).
Proof.
  induction n as [n IH] using (well_founded_induction Wf_nat.lt_wf). split.
  - intros ds c d e Hn T C Wy. destruct (way_inv _ _ _ _ Wy) as [P1 W1]. clear Wy.
    destruct ds as [|e1 ds].
    { apply way_end in W1. subst e. exists d. eapply drive_last; [apply mk_straight; assumption | cbn; auto | cbn; lia]. }
    assert (C1 := proj1 P1). destruct (way_inv _ _ _ _ W1) as [P2 W2]. assert (C2 := proj1 P2).
    destruct T as (T1 & R1 & L1). cbn [length] in Hn.
    destruct (dir_cases _ _ R1) as [-> | PE].
    { destruct (proj1 (IH (length ds) ltac:(lia)) ds _ d e (le_n _) T1 C1 W1) as (p & D). exists p.
      eapply drive_step; [apply mk_straight; assumption | cbn; auto | | exact D]. cbn; lia. }
    destruct (mk_90 c d e1 PE C P1 P2) as (t90 & M90). destruct (mk_45 c d e1 PE C P1 P2) as (t45 & M45).
    destruct ds as [|f ds].
    { apply way_end in W2. subst e. exists e1. eapply drive_last; [exact M90 | cbn; auto | cbn; lia]. }
    destruct (way_inv _ _ _ _ W2) as [P3 W3]. assert (C3 := proj1 P3). destruct T1 as (T2 & R2 & L2). cbn [length] in Hn.
    destruct (perp_cases _ _ _ PE R2) as [-> | [-> | ->]].
    + destruct (proj1 (IH (length ds) ltac:(lia)) ds _ e1 e (le_n _) T2 C2 W2) as (p & D). exists p.
      eapply drive_step; [exact M90 | cbn; auto | | exact D]. cbn; lia.
    + destruct (proj2 (IH (length ds) ltac:(lia)) ds _ e1 d e (le_n _) (perp_sym _ _ PE) (conj T2 (conj R2 L2)) C1 P2 W2) as (p & D). exists p.
      eapply drive_step; [exact M45 | cbn; auto | | exact D]. cbn; lia.
    + destruct (mk_180 c d e1 PE C P1 P2 P3) as (t180 & M180). destruct (mk_135 c d e1 PE C P1 P2 P3) as (t135 & M135).
      destruct ds as [|g ds].
      { apply way_end in W3. subst e. exists (reverse d). eapply drive_last; [exact M180 | cbn; auto 8 | cbn; lia]. }
      destruct (way_inv _ _ _ _ W3) as [P4 W4]. destruct T2 as (T3 & R3 & L3). cbn [length] in Hn.
      destruct (perp_cases _ _ _ (perp_sym _ _ (perp_rev _ _ PE)) (fun H => R3 (eq_trans H eq_refl))) as [E | [E | E]].
      * subst g. destruct (proj1 (IH (length ds) ltac:(lia)) ds _ (reverse d) e (le_n _) T3 C3 W3) as (p & D). exists p.
        eapply drive_step; [exact M180 | cbn; auto 8 | | exact D]. cbn; lia.
      * subst g. destruct (proj2 (IH (length ds) ltac:(lia)) ds _ (reverse d) e1 e (le_n _) (perp_rev _ _ PE) (conj T3 (conj R3 L3)) C2 P3 W3) as (p & D). exists p.
        eapply drive_step; [exact M135 | cbn; auto 8 | | exact D]. cbn; lia.
      * exfalso. apply L1. split; [reflexivity | exact E].
  - intros ds c f g e Hn PE (T & R1 & L1) C P1 W1. destruct (way_inv _ _ _ _ W1) as [P2 W2]. assert (C1 := proj1 P1). assert (C2 := proj1 P2).
    destruct (mk_45r c f g PE C P1 P2) as (t45 & M45). assert (MD := mk_diag c f g PE C P1 P2).
    destruct ds as [|h ds].
    { apply way_end in W2. subst e. exists g. eapply drive_last; [exact M45 | cbn; auto | cbn; lia]. }
    destruct (way_inv _ _ _ _ W2) as [P3 W3]. assert (C3 := proj1 P3). destruct T as (T2 & R2 & L2). cbn [length] in Hn.
    destruct (perp_cases _ _ _ PE R2) as [-> | [-> | ->]].
    + destruct (proj1 (IH (length ds) ltac:(lia)) ds _ g e (le_n _) T2 C2 W2) as (p & D). exists p.
      eapply drive_step; [exact M45 | cbn; auto | | exact D]. cbn; lia.
    + destruct (proj2 (IH (length ds) ltac:(lia)) ds _ g f e (le_n _) (perp_sym _ _ PE) (conj T2 (conj R2 L2)) C1 P2 W2) as (p & D). exists p.
      eapply drive_step; [exact MD | cbn; auto | | exact D]. cbn; lia.
    + destruct (mk_90d c f g PE C P1 P2 P3) as (t90 & M90). destruct (mk_135r c f g PE C P1 P2 P3) as (t135 & M135).
      destruct ds as [|i ds].
      { apply way_end in W3. subst e. exists (reverse f). eapply drive_last; [exact M135 | cbn; auto 8 | cbn; lia]. }
      destruct (way_inv _ _ _ _ W3) as [P4 W4]. destruct T2 as (T3 & R3 & L3). cbn [length] in Hn.
      destruct (perp_cases _ _ _ (perp_sym _ _ (perp_rev _ _ PE)) R3) as [E | [E | E]].
      * subst i. destruct (proj1 (IH (length ds) ltac:(lia)) ds _ (reverse f) e (le_n _) T3 C3 W3) as (p & D). exists p.
        eapply drive_step; [exact M135 | cbn; auto 8 | | exact D]. cbn; lia.
      * subst i. destruct (proj2 (IH (length ds) ltac:(lia)) ds _ (reverse f) g e (le_n _) (perp_rev _ _ PE) (conj T3 (conj R3 L3)) C2 P3 W3) as (p & D). exists p.
        eapply drive_step; [exact M90 | cbn; auto 8 | | exact D]. cbn; lia.
      * exfalso. apply L1. split; [reflexivity | exact E].
Qed.
End Moves.
