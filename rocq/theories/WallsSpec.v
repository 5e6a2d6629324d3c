(** Vocabulary for the statements about [Walls]. *)
From Coq Require Import ZArith List Bool Lia Ascii String.
From Verif Require Import Base SearchModel SearchSpec WallsModel.
Import ListNotations.
Open Scope Z_scope.
Open Scope list_scope.

(** What the type [[u8; 512]] guarantees. *)
Definition walls_ok (w : walls) : Prop :=
  alen w = 512 /\ forall i, 0 <= i < 512 -> 0 <= araw w i < 256.

(** [w] is a map in which every wall can be read, with the states [st]. *)
Definition holds (W : Z) (w : walls) (st : coord -> wall_state) : Prop :=
  walls_ok w /\ forall c, valid W c -> walls_state W w c = Ret (st c).

Definition setst (st : coord -> wall_state) (c : coord) (s : wall_state) : coord -> wall_state :=
  fun d => if coord_eqb d c then s else st d.

(** A history of updates. *)
Fixpoint walls_updates (W : Z) (w : walls) (h : list (coord * wall_state)) : res walls :=
  match h with
  | [] => Ret w
  | (c, s) :: h' => let* w' := walls_update W w c s in walls_updates W w' h'
  end.

(** the state written last to [c] in the history [h] (oldest first), [s0] if none. *)
Definition last_written (h : list (coord * wall_state)) (c : coord) (s0 : wall_state) : wall_state :=
  match find (fun e => coord_eqb (fst e) c) (rev h) with Some e => snd e | None => s0 end.

(** The map of a fresh [Walls]. *)
Definition fresh (W : Z) (c : coord) : wall_state :=
  if coord_eqb c (Co 0 1) then Checked false
  else if coord_eqb c (Co 1 0) then Checked true
  else if (cx c =? 2 * W - 1) || (cy c =? 2 * W - 1) then Checked true
  else Unchecked.

(** ** The textual form.  Lines are numbered from 0 (the top). *)

(** the pieces allowed after the first character of line [y]. *)
Definition pieces (W y : Z) : list text :=
  if y =? 2 * W then [L "---+"]
  else if Z.even y then [L "---+"; L "   +"] else [L "   |"; L "    "].
Definition starts (y : Z) : list text := if Z.even y then [L "+"] else [L "|"].

Definition upto (n : Z) : list Z := map Z.of_nat (seq 0 (Z.to_nat n)).

(** a place in the text: line, first character, pieces allowed there. *)
Record place := Place { p_line : Z; p_col : Z; p_allowed : list text }.

(** the places of line [y], then those of the first [n] lines, in reading order. *)
Definition line_places (W y : Z) : list place :=
  Place y 0 (starts y) :: map (fun x => Place y (4 * x + 1) (pieces W y)) (upto W).
Definition places (W n : Z) : list place := flat_map (line_places W) (upto n).

(** the text [t] stands at line [y], character [col]. *)
Definition stands (ls : list text) (y col : Z) (t : text) : Prop :=
  exists l pre post, nth_error ls (Z.to_nat y) = Some l /\ l = pre ++ t ++ post /\ llen pre = col.

Definition allowed (ls : list text) (p : place) : Prop :=
  exists t, In t (p_allowed p) /\ stands ls (p_line p) (p_col p) t.

(** the error that designates the place [p]. *)
Definition designates (e : perr) (p : place) : Prop :=
  e_expected e = p_allowed p /\ e_line e = p_line p /\ e_from e = p_col p /\
  forall t, In t (p_allowed p) -> e_to e = p_col p + llen t.

(** where the wall [c] is drawn, and what is drawn when it exists. *)
Definition wall_line (W : Z) (c : coord) : Z :=
  if Z.odd (cy c) then 2 * (W - 1 - cy c / 2) else 2 * (W - 1 - cy c / 2) + 1.
Definition wall_col (c : coord) : Z := 4 * (cx c / 2) + 1.
Definition wall_yes (c : coord) : text := if Z.odd (cy c) then L "---+" else L "   |".
Definition wall_no (c : coord) : text := if Z.odd (cy c) then L "   +" else L "    ".

Definition drawn (W : Z) (ls : list text) (c : coord) (e : bool) : Prop :=
  stands ls (wall_line W c) (wall_col c) (if e then wall_yes c else wall_no c).

(** the documented maze format: [2W+1] newline-terminated lines, each the start character of
    its kind followed by exactly [W] allowed pieces. *)
Definition line_ok (W y : Z) (l : text) : Prop :=
  exists st ps, In st (starts y) /\ llen ps = W /\ Forall (fun p => In p (pieces W y)) ps /\
    l = st ++ List.concat ps.
Definition maze_text (W : Z) (ls : list text) (s : text) : Prop :=
  s = flat_map (fun l => l ++ [NL]) ls /\ llen ls = 2 * W + 1 /\
  forall y l, nth_error ls y = Some l -> line_ok W (Z.of_nat y) l.
