(** Independent specification vocabulary for the run solver properties (C26-C30): nodes, moves in
    the frame of the mouse, paths and their costs.  Nothing here mentions indices, heaps or loops. *)
From Coq Require Import ZArith List Bool Lia.
From Verif Require Import Base SearchModel SearchSpec RunModel.
Import ListNotations.
Open Scope Z_scope.

(** A node: a cell centre (both coordinates even) with one of the four main directions or the
    middle of a wall with a diagonal direction, on the board. *)
Definition valid_node (W : Z) (n : node) : Prop :=
  0 <= nx n < 2 * W /\ 0 <= ny n < 2 * W /\
  (if is_diag (np n) then Z.odd (nx n + ny n) = true
   else Z.even (nx n) = true /\ Z.even (ny n) = true).

(** The mouse's frame: unit vectors to its right and ahead.  For the diagonal directions the frame
    is that of the main direction 45 degrees to the left, so "ahead" is (1, 1). *)
Definition to_right (p : dir8) : Z * Z :=
  match p with PN | PNE => (1, 0) | PE | PSE => (0, -1) | PS | PSW => (-1, 0) | PW | PNW => (0, 1) end.
Definition ahead (p : dir8) : Z * Z :=
  match p with PN | PNE => (0, 1) | PE | PSE => (1, 0) | PS | PSW => (0, -1) | PW | PNW => (-1, 0) end.
(** The point [dx] to the right and [dy] ahead (in half cells). *)
Definition place (n : node) (dx dy : Z) : coord :=
  Co (nx n + dx * fst (to_right (np n)) + dy * fst (ahead (np n)))
     (ny n + dx * snd (to_right (np n)) + dy * snd (ahead (np n))).

(** Turning by [t] times 45 degrees to the right. *)
Definition turned (p : dir8) (t : Z) (q : dir8) : Prop := (dir_num q - dir_num p - t) mod 8 = 0.

(** Is the point on the board and (being a wall position) open? *)
Definition free (W : Z) (open : coord -> bool) (n : node) (dx dy : Z) : Prop :=
  on_board W (place n dx dy) /\ open (place n dx dy) = true.

(** [m] is the node at [(dx, dy)] turned by [t]. *)
Definition lands (W : Z) (n : node) (dx dy t : Z) (m : node) : Prop :=
  on_board W (place n dx dy) /\ Co (nx m) (ny m) = place n dx dy /\ turned (np n) t (np m).

Definition side (s : Z) : sdir := if 0 <? s then SRight else SLeft.

(** In a diagonal node the cell ahead lies to the right or to the left of the line of travel. *)
Definition bends_left (n : node) : bool :=
  match np n with PNE | PSW => Z.odd (nx n) | _ => Z.odd (ny n) end.

(** The moves of a mouse at [n], where they lead, their kind and the trajectory to drive them. *)
Inductive rmove (W : Z) (open : coord -> bool) (n m : node) : ekind -> rtraj -> Prop :=
| mv_straight k : is_diag (np n) = false -> 1 <= k ->
    (forall j, 1 <= j <= k -> free W open n 0 (2 * j - 1)) ->
    lands W n 0 (2 * k) 0 m ->
    rmove W open n m (KStraight k) (RStraight k)
| mv_45 s : is_diag (np n) = false -> s = 1 \/ s = -1 ->
    free W open n 0 1 -> free W open n s 2 -> lands W n s 2 s m ->
    rmove W open n m KSlalom45 (RSlalom FastRun45 (side s))
| mv_90 s : is_diag (np n) = false -> s = 1 \/ s = -1 ->
    free W open n 0 1 -> free W open n s 2 -> lands W n (2 * s) 2 (2 * s) m ->
    rmove W open n m KSlalom90 (RSlalom FastRun90 (side s))
| mv_135 s : is_diag (np n) = false -> s = 1 \/ s = -1 ->
    free W open n 0 1 -> free W open n s 2 -> free W open n (2 * s) 1 -> lands W n (2 * s) 1 (3 * s) m ->
    rmove W open n m KSlalom135 (RSlalom FastRun135 (side s))
| mv_180 s : is_diag (np n) = false -> s = 1 \/ s = -1 ->
    free W open n 0 1 -> free W open n s 2 -> free W open n (2 * s) 1 -> lands W n (2 * s) 0 4 m ->
    rmove W open n m KSlalom180 (RSlalom FastRun180 (side s))
| mv_diag k : is_diag (np n) = true -> 1 <= k ->
    (forall j, 1 <= j <= k -> free W open n j j) ->
    lands W n k k 0 m ->
    rmove W open n m (KStraightDiagonal k) (RStraightDiagonal k)
| mv_left45 : is_diag (np n) = true -> bends_left n = true ->
    free W open n 1 1 -> lands W n 1 2 (-1) m ->
    rmove W open n m KSlalom45 (RSlalom FastRun45Rev SLeft)
| mv_left90 : is_diag (np n) = true -> bends_left n = true ->
    free W open n 1 1 -> free W open n 0 2 -> lands W n 0 2 (-2) m ->
    rmove W open n m KSlalomDiagonal90 (RSlalom FastRunDiagonal90 SLeft)
| mv_left135 : is_diag (np n) = true -> bends_left n = true ->
    free W open n 1 1 -> free W open n 0 2 -> lands W n (-1) 2 (-3) m ->
    rmove W open n m KSlalom135 (RSlalom FastRun135Rev SLeft)
| mv_right45 : is_diag (np n) = true -> bends_left n = false ->
    free W open n 1 1 -> lands W n 2 1 1 m ->
    rmove W open n m KSlalom45 (RSlalom FastRun45Rev SRight)
| mv_right90 : is_diag (np n) = true -> bends_left n = false ->
    free W open n 1 1 -> free W open n 2 0 -> lands W n 2 0 2 m ->
    rmove W open n m KSlalomDiagonal90 (RSlalom FastRunDiagonal90 SRight)
| mv_right135 : is_diag (np n) = true -> bends_left n = false ->
    free W open n 1 1 -> free W open n 2 0 -> lands W n 2 (-1) 3 m ->
    rmove W open n m KSlalom135 (RSlalom FastRun135Rev SRight).

(** A path from [a] along the nodes [l] with total cost [c], saturating at [cmax]. *)
Inductive rpath (W : Z) (open : coord -> bool) (cost : ekind -> Z) (cmax : Z) (a : node) : list node -> node -> Z -> Prop :=
| rp_nil : rpath W open cost cmax a [a] a 0
| rp_snoc l b c m k t : rpath W open cost cmax a l b c -> rmove W open b m k t ->
    rpath W open cost cmax a (l ++ [m]) m (Z.min cmax (c + cost k)).

(** All runs from [start] stay within [U], and their moves are among [ms]. *)
Definition covers (W : Z) (open : coord -> bool) (start : node) (U : list node) (ms : list (node * node * ekind)) : Prop :=
  In start U /\ Forall (valid_node W) U /\
  forall n m k t, In n U -> rmove W open n m k t -> In m U /\ In (n, m, k) ms.
