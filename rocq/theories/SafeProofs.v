(** Distances from the walls: cells in the frame of the mouse, and the points of the trajectories. *)
From Coq Require Import ZArith Reals Lra Lia List Bool Psatz.
From Verif Require Import Base SearchModel SearchSpec RunModel RunSpec Num ControlModel TrajModel TrajSpec RouteModel RouteSpec SafeSpec.
Import ListNotations.
Open Scope R_scope.

Definition sq (x : R) : R := x * x.
Definition gap2 (x y x' y' : R) : R := sq (x - x') + sq (y - y').

Lemma sq_le_p (a b : R) : - b <= a <= b -> sq a <= sq b.
Proof. unfold sq. intros L. nra. Qed.
Lemma sq_le_n (a b : R) : b <= a <= - b -> sq a <= sq b.
Proof. unfold sq. intros L. nra. Qed.
Ltac sqle := first [apply sq_le_p; lra | apply sq_le_n; lra].
Lemma sq_pos a : 0 <= sq a.
Proof. unfold sq. nra. Qed.

(** a point of the cell [(I, J)] (coordinates of its centre, both even) *)
Lemma clear_cell W open (I J : Z) (x y mu : R) :
  Z.even I = true -> Z.even J = true ->
  IZR I <= x <= IZR I + 2 -> IZR J <= y <= IZR J + 2 -> 0 <= mu <= 2 ->
  (forall a b, (a = 0 \/ a = 2) -> (b = 0 \/ b = 2) -> sq mu <= gap2 x y (IZR I + a) (IZR J + b)) ->
  (~ solid W open (Co (I + 1) J) \/ mu <= IZR I + 2 - x) ->
  (~ solid W open (Co (I - 1) J) \/ mu <= x - IZR I) ->
  (~ solid W open (Co I (J + 1)) \/ mu <= IZR J + 2 - y) ->
  (~ solid W open (Co I (J - 1)) \/ mu <= y - IZR J) ->
  forall c u v, solid W open c -> on_wall c u v -> sq mu <= gap2 x y u v.
Proof.
  intros EI EJ Hx Hy Hm HC H1 H2 H3 H4 [a b] u v S O. assert (S' := S). destruct S' as [P _]. cbn [cx cy] in P.
  apply Z.even_spec in EI, EJ. destruct EI as [i ->], EJ as [j ->].
  unfold on_wall in O. cbn [cx cy] in O. rewrite Z.odd_add in P.
  assert (C00 := HC 0 0 ltac:(lra) ltac:(lra)). assert (C02 := HC 0 2 ltac:(lra) ltac:(lra)).
  assert (C20 := HC 2 0 ltac:(lra) ltac:(lra)). assert (C22 := HC 2 2 ltac:(lra) ltac:(lra)). clear HC.
  unfold gap2 in *.
  assert (Q := sq_pos (x - u)). assert (Q' := sq_pos (y - v)).
  destruct (Z.odd a) eqn:OA.
  - destruct O as [-> O]. apply Z.odd_spec in OA. destruct OA as [a' ->].
    assert (OB : Z.even b = true) by (rewrite <- Z.negb_odd; destruct (Z.odd b); [discriminate | reflexivity]).
    apply Z.even_spec in OB. destruct OB as [b' ->].
    assert (CA : (a' <= i - 2 \/ a' = i - 1 \/ a' = i \/ i + 1 <= a')%Z) by lia.
    assert (CB : (b' <= j - 1 \/ b' = j \/ j + 1 <= b')%Z) by lia.
    assert (BIG : (a' <= i - 2 \/ i + 1 <= a')%Z -> sq mu <= sq (x - (IZR (2 * a' + 1) + 1)) + sq (y - v)).
    { intros [L|L]; apply IZR_le in L; rewrite ?plus_IZR, ?mult_IZR, ?minus_IZR in *.
      - assert (sq mu <= sq (x - (2 * IZR a' + 1 + 1))) by (sqle). lra.
      - assert (sq mu <= sq (x - (2 * IZR a' + 1 + 1))) by (sqle). lra. }
    destruct CA as [CA|[CA|[CA|CA]]]; try (apply BIG; lia); clear BIG; subst a'.
    + destruct CB as [CB|[CB|CB]].
      * apply IZR_le in CB. rewrite ?plus_IZR, ?mult_IZR, ?minus_IZR in *.
        eapply Rle_trans; [exact C00|]. apply Rplus_le_compat; [right; unfold sq; ring | sqle].
      * subst b'. destruct H2 as [H2|H2]; [exfalso; apply H2; replace (2 * i - 1)%Z with (2 * (i - 1) + 1)%Z by ring; exact S|].
        rewrite ?plus_IZR, ?mult_IZR, ?minus_IZR in *. assert (sq mu <= sq (x - (2 * (IZR i - 1) + 1 + 1))) by (sqle). lra.
      * apply IZR_le in CB. rewrite ?plus_IZR, ?mult_IZR, ?minus_IZR in *.
        eapply Rle_trans; [exact C02|]. apply Rplus_le_compat; [right; unfold sq; ring | sqle].
    + destruct CB as [CB|[CB|CB]].
      * apply IZR_le in CB. rewrite ?plus_IZR, ?mult_IZR, ?minus_IZR in *.
        eapply Rle_trans; [exact C20|]. apply Rplus_le_compat; [right; unfold sq; ring | sqle].
      * subst b'. destruct H1 as [H1|H1]; [exfalso; apply H1; exact S|].
        rewrite ?plus_IZR, ?mult_IZR, ?minus_IZR in *. assert (sq mu <= sq (x - (2 * IZR i + 1 + 1))) by (sqle). lra.
      * apply IZR_le in CB. rewrite ?plus_IZR, ?mult_IZR, ?minus_IZR in *.
        eapply Rle_trans; [exact C22|]. apply Rplus_le_compat; [right; unfold sq; ring | sqle].
  - destruct O as [-> O].
    assert (OA' : Z.even a = true) by (rewrite <- Z.negb_odd, OA; reflexivity).
    apply Z.even_spec in OA'. destruct OA' as [a' ->].
    assert (OB : Z.odd b = true) by (destruct (Z.odd b); [reflexivity | discriminate]).
    apply Z.odd_spec in OB. destruct OB as [b' ->].
    assert (CA : (b' <= j - 2 \/ b' = j - 1 \/ b' = j \/ j + 1 <= b')%Z) by lia.
    assert (CB : (a' <= i - 1 \/ a' = i \/ i + 1 <= a')%Z) by lia.
    assert (BIG : (b' <= j - 2 \/ j + 1 <= b')%Z -> sq mu <= sq (x - u) + sq (y - (IZR (2 * b' + 1) + 1))).
    { intros [L|L]; apply IZR_le in L; rewrite ?plus_IZR, ?mult_IZR, ?minus_IZR in *.
      - assert (sq mu <= sq (y - (2 * IZR b' + 1 + 1))) by (sqle). lra.
      - assert (sq mu <= sq (y - (2 * IZR b' + 1 + 1))) by (sqle). lra. }
    destruct CA as [CA|[CA|[CA|CA]]]; try (apply BIG; lia); clear BIG; subst b'.
    + destruct CB as [CB|[CB|CB]].
      * apply IZR_le in CB. rewrite ?plus_IZR, ?mult_IZR, ?minus_IZR in *.
        eapply Rle_trans; [exact C00|]. apply Rplus_le_compat; [sqle | right; unfold sq; ring].
      * subst a'. destruct H4 as [H4|H4]; [exfalso; apply H4; replace (2 * j - 1)%Z with (2 * (j - 1) + 1)%Z by ring; exact S|].
        rewrite ?plus_IZR, ?mult_IZR, ?minus_IZR in *. assert (sq mu <= sq (y - (2 * (IZR j - 1) + 1 + 1))) by (sqle). lra.
      * apply IZR_le in CB. rewrite ?plus_IZR, ?mult_IZR, ?minus_IZR in *.
        eapply Rle_trans; [exact C20|]. apply Rplus_le_compat; [sqle | right; unfold sq; ring].
    + destruct CB as [CB|[CB|CB]].
      * apply IZR_le in CB. rewrite ?plus_IZR, ?mult_IZR, ?minus_IZR in *.
        eapply Rle_trans; [exact C02|]. apply Rplus_le_compat; [sqle | right; unfold sq; ring].
      * subst a'. destruct H3 as [H3|H3]; [exfalso; apply H3; exact S|].
        rewrite ?plus_IZR, ?mult_IZR, ?minus_IZR in *. assert (sq mu <= sq (y - (2 * IZR j + 1 + 1))) by (sqle). lra.
      * apply IZR_le in CB. rewrite ?plus_IZR, ?mult_IZR, ?minus_IZR in *.
        eapply Rle_trans; [exact C22|]. apply Rplus_le_compat; [sqle | right; unfold sq; ring].
Qed.

(** the frame of a node, in half squares *)
Definition fx (n : node) (r a : R) : R := IZR (nx n) + 1 + r * IZR (fst (to_right (np n))) + a * IZR (fst (RunSpec.ahead (np n))).
Definition fy (n : node) (r a : R) : R := IZR (ny n) + 1 + r * IZR (snd (to_right (np n))) + a * IZR (snd (RunSpec.ahead (np n))).

Definition cell_at (n : node) (cr ca : Z) : Prop := Z.even (cx (place n cr ca)) = true /\ Z.even (cy (place n cr ca)) = true.

(** the local conditions: the point [(r, a)] lies in the cell with centre [(cr, ca)], at least [mu] from its corners and from
    those of its walls that are not free *)
Definition good (W : Z) (open : coord -> bool) (n : node) (mu : R) (cr ca : Z) (r a : R) : Prop :=
  -1 <= r - IZR cr <= 1 /\ -1 <= a - IZR ca <= 1 /\
  (forall i j, (i = 1 \/ i = -1) -> (j = 1 \/ j = -1) -> sq mu <= gap2 r a (IZR cr + i) (IZR ca + j)) /\
  (free W open n (cr + 1) ca \/ mu <= IZR cr + 1 - r) /\ (free W open n (cr - 1) ca \/ mu <= r - (IZR cr - 1)) /\
  (free W open n cr (ca + 1) \/ mu <= IZR ca + 1 - a) /\ (free W open n cr (ca - 1) \/ mu <= a - (IZR ca - 1)).

Lemma free_solid W open n dx dy c : free W open n dx dy -> c = place n dx dy -> ~ solid W open c.
Proof. intros [A B] -> [_ C]. rewrite (C A) in B. discriminate. Qed.

Lemma good_clear W open n mu cr ca r a : 0 <= mu <= 2 -> cell_at n cr ca -> good W open n mu cr ca r a ->
  forall c u v, solid W open c -> on_wall c u v -> sq mu <= gap2 (fx n r a) (fy n r a) u v.
Proof.
  intros Hm [EI EJ] (R1 & A1 & HC & E1 & E2 & E3 & E4).
  assert (F : forall dx dy c, (free W open n dx dy) -> c = place n dx dy -> ~ solid W open c) by (intros; eapply free_solid; eassumption).
  apply (clear_cell W open (cx (place n cr ca)) (cy (place n cr ca)) _ _ mu EI EJ); clear EI EJ; try assumption;
  unfold fx, fy, place in *; destruct n as [x y p]; destruct p; cbn [nx ny np cx cy fst snd to_right RunSpec.ahead] in *;
  rewrite ?plus_IZR, ?mult_IZR, ?minus_IZR, ?opp_IZR; try lra;
  try (intros a0 b0 Ha Hb; unfold gap2 in *;
    assert (C11 := HC 1 1 ltac:(lra) ltac:(lra)); assert (C12 := HC 1 (-1) ltac:(lra) ltac:(lra));
    assert (C21 := HC (-1) 1 ltac:(lra) ltac:(lra)); assert (C22 := HC (-1) (-1) ltac:(lra) ltac:(lra));
    unfold sq in *; destruct Ha as [->| ->], Hb as [->| ->]; lra);
  first [ destruct E1 as [E|E]; [left; apply (F _ _ _ E); f_equal; lia | right; lra]
        | destruct E2 as [E|E]; [left; apply (F _ _ _ E); f_equal; lia | right; lra]
        | destruct E3 as [E|E]; [left; apply (F _ _ _ E); f_equal; lia | right; lra]
        | destruct E4 as [E|E]; [left; apply (F _ _ _ E); f_equal; lia | right; lra] ].
Qed.
