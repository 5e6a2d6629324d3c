(** Targets of moves are nodes; the trajectory chosen for a move is the one of the specification. *)
From Coq Require Import ZArith List Bool Lia Zify ZifyBool.
From Verif Require Import Base SearchModel SearchSpec SearchCoord RunModel RunSpec RunNode RunMoves.
Import ListNotations.
Open Scope Z_scope.
Ltac Zify.zify_post_hook ::= Z.div_mod_to_equations.

Lemma mk_valid W n dx dy t : valid_node W n -> onb W n dx dy = true ->
  (if is_diag (np n) then
     if Z.odd t then (if bends_left n then Z.odd dx && Z.even dy else Z.even dx && Z.odd dy)
     else Z.even (dx + dy)
   else if Z.odd t then Z.odd (dx + dy) else Z.even dx && Z.even dy) = true ->
  valid_node W (mk n dx dy t).
Proof.
  intros (Hx & Hy & Hp) Ho Hc. apply onb_iff in Ho. destruct Ho as [Ox Oy].
  split; [exact Ox|]. split; [exact Oy|]. cbn [mk nx ny np].
  assert (Ed : is_diag (turn (np n) t) = xorb (is_diag (np n)) (Z.odd t)).
  { unfold turn, dir8_of. assert (Eo : Z.odd t = Z.odd (((dir_num (np n) + t) mod 8) - dir_num (np n))).
    { rewrite !Zodd_bool_Zmod || idtac. destruct (Z.odd t) eqn:E; symmetry; [apply odd_mod; apply odd_mod in E; lia|apply odd_mod_false; apply odd_mod_false in E; lia]. }
    rewrite Eo. pose proof (Z.mod_pos_bound (dir_num (np n) + t) 8 ltac:(lia)) as HB.
    generalize dependent ((dir_num (np n) + t) mod 8). intros v _ HB.
    assert (v = 0 \/ v = 1 \/ v = 2 \/ v = 3 \/ v = 4 \/ v = 5 \/ v = 6 \/ v = 7) as D by lia.
    destruct D as [E|[E|[E|[E|[E|[E|[E|E]]]]]]]; subst v; destruct (np n); reflexivity. }
  rewrite Ed. clear Ed.
  unfold bends_left in Hc.
  destruct (Z.odd t) eqn:Et; destruct (is_diag (np n)) eqn:Ed; cbn [xorb];
  rewrite ?odd_mod, ?even_mod in *; rewrite ?place_parity.
  - unfold place. destruct (np n); try discriminate; cbn [to_right ahead fst snd cx cy] in *;
    destruct (Z.odd (nx n)) eqn:E1 in *; destruct (Z.odd (ny n)) eqn:E2 in *;
    rewrite ?odd_mod, ?odd_mod_false, ?andb_true_iff, ?odd_mod, ?even_mod in *; lia.
  - lia.
  - lia.
  - unfold place. rewrite andb_true_iff, !even_mod in Hc.
    destruct (np n); cbn [to_right ahead fst snd cx cy] in *; lia.
Qed.

Lemma rmove_valid W open n m k t : valid_node W n -> rmove W open n m k t -> valid_node W m.
Proof.
  intros Hv H. inversion H; subst;
  match goal with h : lands _ _ _ _ _ _ |- _ => apply lands_iff in h; destruct h as [Ho ->] end;
  apply mk_valid; try assumption;
  repeat match goal with h : is_diag _ = _ |- _ => rewrite h; clear h | h : bends_left _ = _ |- _ => rewrite h; clear h end;
  try match goal with h : _ = 1 \/ _ |- _ => destruct h as [-> | ->] end; try reflexivity.
  - rewrite Z.even_mul. reflexivity.
  - change (Z.odd 0) with false. cbv iota. rewrite <- Z.add_diag || idtac. replace (k0 + k0) with (2 * k0) by lia. rewrite Z.even_mul. reflexivity.
Qed.

(** The relative pose computed by [trajectory_kind]. *)
Lemma rel_of_ok W n dx dy t : supported W -> valid_node W n -> onb W n dx dy = true ->
  rel_of n (mk n dx dy t) = Ret (dx, dy, turn (if is_diag (np n) then PNE else PN) t).
Proof.
  intros HW Hv Ho. destruct (valid_bounds W n HW Hv) as (Hx & Hy & HB).
  pose proof Ho as Ho'. apply onb_iff in Ho'. destruct Ho' as [Ox Oy].
  unfold rel_of. cbn [mk nx ny np]. rewrite !as_i8_small by lia. rewrite !chk_i8_ok by lia. cbn [bind].
  assert (Et : forall a, from_u8 (Z.land (a + dir_num (turn (np n) t)) 7) = Ret (dir8_of (a + dir_num (np n) + t))).
  { intros a. unfold turn. change 7 with (Z.ones 3). rewrite Z.land_ones by lia. change (2 ^ 3) with 8.
    replace ((a + dir_num (dir8_of (dir_num (np n) + t))) mod 8) with ((a + dir_num (np n) + t) mod 8).
    - unfold dir8_of. pose proof (Z.mod_pos_bound (a + dir_num (np n) + t) 8 ltac:(lia)) as HB'.
      generalize dependent ((a + dir_num (np n) + t) mod 8). intros v HB'.
      assert (v = 0 \/ v = 1 \/ v = 2 \/ v = 3 \/ v = 4 \/ v = 5 \/ v = 6 \/ v = 7) as D by lia.
      destruct D as [E|[E|[E|[E|[E|[E|[E|E]]]]]]]; subst v; reflexivity.
    - pose proof (proj2 (turned_iff (np n) t (turn (np n) t)) eq_refl) as T. unfold turned, turn in T.
      generalize dependent (dir_num (dir8_of (dir_num (np n) + t))). intros d T. lia. }
  assert (Ed : forall a, (a + dir_num (np n)) mod 8 = (if is_diag (np n) then 1 else 0) ->
    dir8_of (a + dir_num (np n) + t) = turn (if is_diag (np n) then PNE else PN) t).
  { intros a Ha. unfold turn, dir8_of.
    replace ((a + dir_num (np n) + t) mod 8) with ((dir_num (if is_diag (np n) then PNE else PN) + t) mod 8); [reflexivity|].
    destruct (is_diag (np n)); cbn [dir_num]; lia. }
  unfold place in *. 
  destruct (np n) eqn:En; cbn [to_right ahead fst snd cx cy is_diag] in *; rewrite ?chk_i8_ok by lia; cbn [bind];
  rewrite ?Et; cbn [bind]; rewrite ?Ed by reflexivity; repeat f_equal; lia.
Qed.

Lemma traj_ok W open n m k t : supported W -> valid_node W n -> rmove W open n m k t ->
  trajectory_kind n m = Ret (Some t).
Proof.
  intros HW Hv H. unfold trajectory_kind. pose proof (group_ok W HW n Hv) as Hg.
  inversion H; subst;
  repeat match goal with h : lands _ _ _ _ _ _ |- _ => apply lands_iff in h; destruct h as [Ho ->] end;
  rewrite (rel_of_ok W) by assumption; cbn [bind]; rewrite Hg;
  repeat match goal with h : is_diag _ = _ |- _ => rewrite h; clear h | h : bends_left _ = _ |- _ => rewrite h; clear h end;
  try match goal with h : _ = 1 \/ _ |- _ => destruct h as [-> | ->] end; try reflexivity.
  - change (turn PN 0) with PN. cbn iota.
    replace ((0 <? 2 * k0) && (Z.land (2 * k0) 1 =? 0)) with true by (rewrite land1; lia).
    rewrite Z.shiftr_div_pow2 by lia. change (2 ^ 1) with 2. do 3 f_equal. lia.
  - change (turn PNE 0) with PNE.
    assert (E : (k0 =? k0) && (0 <? k0) = true) by lia.
    destruct (bends_left n).
    + destruct k0 as [|p|p]; try lia. destruct p as [p|p|]; cbn in E |- *; rewrite ?E; rewrite ?Pos.eqb_refl; try reflexivity; destruct p; reflexivity.
    + destruct k0 as [|p|p]; try lia. destruct p as [p|p|]; cbn in E |- *; rewrite ?E; rewrite ?Pos.eqb_refl; try reflexivity; destruct p; reflexivity.
Qed.

Lemma rmove_det W open n m k t k' t' : supported W -> valid_node W n ->
  rmove W open n m k t -> rmove W open n m k' t' -> k = k' /\ t = t'.
Proof.
  intros HW Hv H H'. pose proof (traj_ok W open n m k t HW Hv H) as A.
  pose proof (traj_ok W open n m k' t' HW Hv H') as C. rewrite A in C. injection C as C. split; [|exact C].
  inversion H; inversion H'; subst; try congruence; try discriminate.
Qed.
