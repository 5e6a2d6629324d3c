(** The targets of a run keep clear of the walls. *)
From Coq Require Import ZArith QArith Qreals Reals Lra Lia List Bool Psatz.
From Verif Require Import Base SearchModel SearchSpec RunModel RunSpec RunTraj RunDijk RunThm Num NumLemmas ControlModel TrajModel TrajSpec TrajProofs TrajProofs2 TrajProofs3 TrajProofs4 TrajProofs5
  TrajProofs6 TrajProofs7 TrajProofs8 TrajQuad RouteModel RouteSpec RouteProofs RouteProofs2 RouteProofs3 RouteProofs4 RouteProofs5
  SafeSpec SafeProofs SafeProofs2 SafeProofs3 SafeGrid SafeRun SafeRun2.
Import ListNotations.
Open Scope R_scope.

Lemma nearF_shift (C C' F F' : Z -> Z -> Prop) mu e r a i j : (forall x y, C x y -> C' (x + i) (y + j))%Z -> (forall x y, F x y -> F' (x + i) (y + j))%Z ->
  nearF C F mu e r a -> nearF C' F' mu e (r + IZR i) (a + IZR j).
Proof.
  intros HC HF (cr & ca & r' & a' & Cc & (G1 & G2 & G3 & G4 & G5 & G6 & G7) & E). exists (cr + i)%Z, (ca + j)%Z, (r' + IZR i), (a' + IZR j).
  split; [apply HC, Cc|]. split.
  - unfold goodF. rewrite !plus_IZR. split; [lra|]. split; [lra|]. split.
    { intros s t Hs Ht. specialize (G3 s t Hs Ht). unfold gap2, sq in *. lra. }
    split; [destruct G4 as [G|G]; [left; replace (cr + i + 1)%Z with (cr + 1 + i)%Z by ring; apply HF, G | right; lra]|].
    split; [destruct G5 as [G|G]; [left; replace (cr + i - 1)%Z with (cr - 1 + i)%Z by ring; apply HF, G | right; lra]|].
    split; [destruct G6 as [G|G]; [left; replace (ca + j + 1)%Z with (ca + 1 + j)%Z by ring; apply HF, G | right; lra]|].
    destruct G7 as [G|G]; [left; replace (ca + j - 1)%Z with (ca - 1 + j)%Z by ring; apply HF, G | right; lra].
  - unfold gap2, sq in *. lra.
Qed.

Lemma unit_pick L (N : nat) a : 0 < L -> (1 <= N)%nat -> 0 <= a <= INR N * L -> exists j, (j < N)%nat /\ INR j * L <= a <= INR j * L + L.
Proof.
  intros HL HN. induction N as [|N IH]; [lia|]. intros Ha. rewrite S_INR in Ha.
  destruct (Rle_lt_dec (INR N * L) a) as [A|A]; [exists N; split; [lia | lra]|].
  destruct N as [|N]; [cbn [INR] in A; lra|]. destruct (IH ltac:(lia) ltac:(lra)) as (j & Hj & B). exists j. split; [lia | exact B].
Qed.

Lemma unit_straight : segb [(0, 1)]%Z [(0, 0); (0, 2)]%Z seg_mu 0 0 0 1 5000 400 = true.
Proof. vm_compute. reflexivity. Qed.
Lemma unit_diagonal : segb [(0, 0); (1, 1)]%Z [(0, 1)]%Z seg_mu 0 0 1 1 5000 200 = true.
Proof. vm_compute. reflexivity. Qed.

Ltac in_list := repeat match goal with H : In _ (_ :: _) |- _ => destruct H as [H|H]; [injection H as <- <- |] | H : In _ [] |- _ => destruct H end.

Section Moves.
Variables (W : Z) (open : coord -> bool) (n : node).
Hypothesis Vn : valid_node W n.
Hypothesis On : is_diag (np n) = true -> free W open n 0 0.

Lemma straight_safe (x : Z) (a : R) : is_diag (np n) = false -> (1 <= x)%Z -> (forall j, (1 <= j <= x)%Z -> free W open n 0 (2 * j - 1)) ->
  0 <= a <= 2 * IZR x -> safeF (cell_at n) (free W open n) 0 a.
Proof.
  intros D Hx F Ha.
  destruct (unit_pick 2 (Z.to_nat x) a ltac:(lra) ltac:(lia)) as (j & Hj & B).
  { rewrite INR_IZR_INZ, Z2Nat.id by lia. lra. }
  assert (N := segb_ok _ _ _ _ _ _ _ _ _ (a - INR j * 2) unit_straight ltac:(lia) ltac:(lia) ltac:(lia)).
  assert (HN : 0 <= a - INR j * 2 <= INR 400 * mil 5000) by (rewrite (INR_IZR_INZ 400); unfold mil; change (IZR (Z.of_nat 400)) with 400; lra).
  specialize (N HN). apply (near_safe _ _ (mil 5000)); [unfold mil; lra|].
  replace 0 with (mil 0 + (a - INR j * 2) * 0 + IZR 0) by (unfold mil; field).
  replace a with (mil 0 + (a - INR j * 2) * 1 + IZR (2 * Z.of_nat j)) at 2 by (rewrite mult_IZR, <- INR_IZR_INZ; unfold mil; field).
  destruct Vn as (_ & _ & VN). rewrite D in VN. destruct VN as [V1 V2].
  revert N. apply nearF_shift.
  - intros u v I. unfold isin in I. apply even_cells; try assumption; in_list; rewrite ?Z.even_add, ?Z.even_mul; reflexivity.
  - intros u v I. unfold isin in I. in_list. replace (0 + 0)%Z with 0%Z by ring. replace (1 + 2 * Z.of_nat j)%Z with (2 * (Z.of_nat j + 1) - 1)%Z by ring. apply F. lia.
Qed.

Lemma diagonal_safe (x : Z) (a : R) : is_diag (np n) = true -> (1 <= x)%Z -> (forall j, (1 <= j <= x)%Z -> free W open n j j) ->
  0 <= a <= IZR x -> safeF (cell_at n) (free W open n) a a.
Proof.
  intros D Hx F Ha.
  destruct (unit_pick 1 (Z.to_nat x) a ltac:(lra) ltac:(lia)) as (j & Hj & B).
  { rewrite INR_IZR_INZ, Z2Nat.id by lia. lra. }
  assert (N := segb_ok _ _ _ _ _ _ _ _ _ (a - INR j) unit_diagonal ltac:(lia) ltac:(lia) ltac:(lia)).
  assert (HN : 0 <= a - INR j <= INR 200 * mil 5000) by (rewrite (INR_IZR_INZ 200); unfold mil; change (IZR (Z.of_nat 200)) with 200; lra).
  specialize (N HN). apply (near_safe _ _ (mil 5000)); [unfold mil; lra|].
  replace a with (mil 0 + (a - INR j) * 1 + IZR (Z.of_nat j)) by (rewrite <- INR_IZR_INZ; unfold mil; field).
  assert (F' : forall i, (0 <= i <= x)%Z -> free W open n i i).
  { intros i Hi. destruct (Z.eq_dec i 0) as [->|]; [exact (On D) | apply F; lia]. }
  destruct Vn as (_ & _ & VN). rewrite D in VN.
  destruct (Bool.bool_dec (Z.odd (Z.of_nat j)) (bends_left n)) as [E|E].
  - revert N. apply nearF_shift.
    + intros u v I. unfold isin in I. in_list. apply wall_node_cells; try assumption; rewrite Z.odd_add, E; destruct (bends_left n); reflexivity.
    + intros u v I. unfold isin in I. in_list; apply F'; lia.
  - apply (nearF_swap _ (fun x y => (x, y) = (1, 0)%Z) _ (fun x y => (x, y) = (0, 0) \/ (x, y) = (1, 1))%Z) in N.
    + revert N. apply nearF_shift.
      * intros u v I. injection I as -> ->. apply wall_node_cells; try assumption; rewrite Z.odd_add; destruct (bends_left n), (Z.odd (Z.of_nat j)); try reflexivity; congruence.
      * intros u v [I|I]; injection I as -> ->; apply F'; lia.
    + intros u v I. unfold isin in I. in_list. reflexivity.
    + intros u v I. unfold isin in I. in_list; [left | right]; reflexivity.
Qed.

Lemma bend_facts m K k d : rmove W open n m K (RSlalom k d) -> let b := bend_of k in
  b_dg b = is_diag (np n) /\
  (forall x y, In (x, y) (b_free b) -> let '(x, y) := mirror (b_dg b) d x y in free W open n x y) /\
  (forall x y, In (x, y) (b_cells b) -> let '(x, y) := mirror (b_dg b) d x y in cell_at n x y).
Proof.
  intros M. destruct Vn as (_ & _ & VN).
  inversion M as [|s D Hs F1 F2 L|s D Hs F1 F2 L|s D Hs F1 F2 F3 L|s D Hs F1 F2 F3 L| |D B F1 L|D B F1 F2 L|D B F1 F2 L|D B F1 L|D B F1 F2 L|D B F1 F2 L]; subst; clear M; rewrite D in *;
  (split; [reflexivity|]); cbv zeta; cbn [bend_of b_dg b_free b_cells];
  try (destruct Hs as [-> | ->]; cbn [side Z.ltb Z.compare mirror]; (split; intros u v I; [unfold fl45, fl135 in I; in_list; assumption |
    unfold cell_cells in I; destruct VN; apply even_cells; try assumption; in_list; reflexivity]));
  assert (F0 := On eq_refl); cbn [mirror]; (split; intros u v I; [unfold flr45, flr90 in I; in_list; assumption |
    unfold wall_cells_ in I; apply wall_node_cells; try assumption; rewrite B; in_list; reflexivity]).
Qed.
End Moves.
