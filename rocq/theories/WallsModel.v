(** Model of [Walls] in /repo/mousecore2/src/wall.rs (lines 472-704): the packed wall map,
    its byte form, its textual form. *)
From Coq Require Import ZArith List Bool Lia Ascii String.
From Verif Require Import Base SearchModel.
Import ListNotations.
Open Scope Z_scope.
Open Scope list_scope.

(** wall.rs:472. *)
Definition WALL_ARRAY_LEN : Z := WIDTH * WIDTH / 2.

(** wall.rs:475: [[u8; WALL_ARRAY_LEN]]. *)
Definition walls := arr Z.

(** wall.rs:508-512. *)
Definition state_bits (s : wall_state) : Z :=
  match s with Unchecked => 0 | Checked false => 1 | Checked true => 3 end.

(** wall.rs:507-517.  [!v] on u8 is [255 - v]; [3 << shift] fits u8 because [shift <= 6]. *)
Definition walls_update (W : Z) (w : walls) (c : coord) (s : wall_state) : res walls :=
  let index := as_index W c in
  let shift := Z.shiftl (Z.land index 3) 1 in
  let* b := aget w (Z.shiftr index 2) in
  let* w1 := aset w (Z.shiftr index 2) (Z.land b (255 - Z.shiftl 3 shift)) in
  let* b1 := aget w1 (Z.shiftr index 2) in
  aset w1 (Z.shiftr index 2) (Z.lor b1 (Z.shiftl (state_bits s) shift)).

(** wall.rs:519-528. *)
Definition walls_state (W : Z) (w : walls) (c : coord) : res wall_state :=
  let index := as_index W c in
  let* b := aget w (Z.shiftr index 2) in
  let bit := Z.land (Z.shiftr b (Z.shiftl (Z.land index 3) 1)) 3 in
  if bit =? 0 then Ret Unchecked
  else if bit =? 1 then Ret (Checked false)
  else if bit =? 3 then Ret (Checked true)
  else Panic.

(** [Coordinate::new(x, y).unwrap()], as at wall.rs:488, 601, 674. *)
Definition coord_unwrap (W x y : Z) : res coord :=
  match coord_new W x y with Some c => Ret c | None => Panic end.

(** The range [0..W] (u8), wall.rs:486, 618, 624, 679, 689. *)
Definition range (W : Z) : list Z := map Z.of_nat (seq 0 (Z.to_nat W)).

(** body of the loop of wall.rs:486-495; [W - 1] is a checked u8 subtraction. *)
Definition border_step (W : Z) (w : walls) (i : Z) : res walls :=
  let* wm := chk_u8 (W - 1) in
  let* c1 := coord_unwrap W (Z.lor (as_u8 (Z.shiftl wm 1)) 1) (as_u8 (Z.shiftl i 1)) in
  let* w1 := walls_update W w c1 (Checked true) in
  let* c2 := coord_unwrap W (as_u8 (Z.shiftl i 1)) (Z.lor (as_u8 (Z.shiftl wm 1)) 1) in
  walls_update W w1 c2 (Checked true).

(** [for i in xs { w = body(w, i) }] (the loops of wall.rs:486, 678, 679, 689). *)
Fixpoint for_each {A S} (body : S -> A -> res S) (xs : list A) (s : S) : res S :=
  match xs with
  | [] => Ret s
  | x :: xs' => let* s' := body s x in for_each body xs' s'
  end.

(** wall.rs:484-505. *)
Definition walls_new (W : Z) : res walls :=
  let* w := for_each (border_step W) (range W) (anew WALL_ARRAY_LEN 0) in
  let* c1 := coord_unwrap W 1 0 in
  let* w1 := walls_update W w c1 (Checked true) in
  let* c2 := coord_unwrap W 0 1 in
  walls_update W w1 c2 (Checked false).

(** wall.rs:530-532. *)
Definition walls_as_bytes (w : walls) : list Z :=
  map (fun i => araw w (Z.of_nat i)) (seq 0 (Z.to_nat (alen w))).

(** copy of a slice into an array, used by [TryFrom<&[u8]> for [u8; N]] (core), wall.rs:539. *)
Fixpoint fill (a : arr Z) (i : Z) (bs : list Z) : arr Z :=
  match bs with [] => a | b :: bs' => fill (aupd a i b) (i + 1) bs' end.

(** wall.rs:535-541: [None] is the length error of [TryFrom<&[u8]>]. *)
Definition walls_try_from (bs : list Z) : option walls :=
  if llen bs =? WALL_ARRAY_LEN then Some (fill (anew WALL_ARRAY_LEN 0) 0 bs) else None.

(** ** Text.  A [&str] is its list of UTF-8 bytes.  All comparisons in the parser are with
    ASCII literals, for which comparing bytes and comparing [str] prefixes at a char boundary
    agree (a byte after an ASCII byte is never a continuation byte). *)
(** [&str], wall.rs:597. *)
Definition text := list ascii.
(** a string literal, e.g. wall.rs:616. *)
Definition L (s : string) : text := list_ascii_of_string s.

(** the line terminators of [writeln!] and [str::lines], wall.rs:613, 686. *)
Definition NL : ascii := "010"%char.
(** see [NL] (wall.rs:613). *)
Definition CR : ascii := "013"%char.

(** [str::lines] (core; wall.rs:613): split after each line feed, drop it and a preceding carriage return;
    no final empty line. [cur] is the current line reversed. *)
Definition strip_cr (cur : text) : text :=
  match cur with c :: cur' => if Ascii.eqb c CR then rev cur' else rev cur | [] => [] end.
(** [str::lines], wall.rs:613. *)
Fixpoint lines_from (cur : text) (s : text) : list text :=
  match s with
  | [] => match cur with [] => [] | _ => [rev cur] end
  | c :: s' => if Ascii.eqb c NL then strip_cr cur :: lines_from [] s' else lines_from (c :: cur) s'
  end.
(** [str::lines], wall.rs:613. *)
Definition lines (s : text) : list text := lines_from [] s.

(** equality of [&str], wall.rs:606. *)
Definition teqb (a b : text) : bool := if list_eq_dec ascii_dec a b then true else false.

(** [s.get(..n)], wall.rs:606, 632. *)
Definition sget (s : text) (n : nat) : option text :=
  if (n <=? Datatypes.length s)%nat then Some (firstn n s) else None.

(** [&s[n..]], wall.rs:617, 620: panics when [n] is past the end. *)
Definition sdrop (s : text) (n : nat) : res text :=
  if (n <=? Datatypes.length s)%nat then Ret (skipn n s) else Panic.

(** [ParseWallsError], wall.rs:543-554: [expected] has one or two entries. *)
Record perr := PErr { e_expected : list text; e_line : Z; e_from : Z; e_to : Z }.

(** [Result<A, ParseWallsError>], wall.rs:597. *)
Definition pr (A : Type) := (A + perr)%type.

(** the closure [check] of wall.rs:605-611. *)
Definition check (s expected : text) (len : Z) (y x : Z) : option perr :=
  match sget s (Z.to_nat len) with
  | Some t => if teqb t expected then None else Some (PErr [expected] y x (x + len))
  | None => Some (PErr [expected] y x (x + len))
  end.

(** wall.rs:618-621: the last line's [for x in 0..W] loop. *)
Fixpoint parse_last (y : Z) (xs : list Z) (s : text) : res (pr unit) :=
  match xs with
  | [] => Ret (inl tt)
  | x :: xs' =>
    match check s (L "---+") 4 y (4 * x + 1) with
    | Some e => Ret (inr e)
    | None => let* s' := sdrop s 4 in parse_last y xs' s'
    end
  end.

(** the closure [update] of wall.rs:599-604. *)
Definition parse_update (W : Z) (w : walls) (x y : Z) (exists_ : bool) : res walls :=
  let* c := coord_unwrap W x y in walls_update W w c (Checked exists_).

(** wall.rs:624-664: the [for x in 0..W] loop of a line above the last.  [yes] and [no] are the
    pieces of an existing and an absent wall, [first] the piece before the first column. *)
Fixpoint parse_cells (W y : Z) (xs : list Z) (s : text) (w : walls) : res (pr walls) :=
  match xs with
  | [] => Ret (inl w)
  | x :: xs' =>
    let even := Z.land y 1 =? 0 in
    let first := if even then L "+" else L "|" in
    let yes := if even then L "---+" else L "   |" in
    let no := if even then L "   +" else L "    " in
    let* s1 :=
      (if x =? 0 then
         match check s first 1 y x with
         | Some e => Ret (inr e)
         | None => let* s' := sdrop s 1 in Ret (inl s')
         end
       else Ret (inl s)) in
    match s1 with
    | inr e => Ret (inr e)
    | inl s1 =>
      let* r := chk_u8 (W - Z.shiftr y 1) in
      let* r := chk_u8 (r - 1) in
      let xt := if even then as_u8 (Z.shiftl x 1) else Z.lor (as_u8 (Z.shiftl x 1)) 1 in
      let yt := if even then Z.lor (as_u8 (Z.shiftl r 1)) 1 else as_u8 (Z.shiftl r 1) in
      let bad := PErr [yes; no] y (4 * x + 1) (4 * x + 5) in
      match sget s1 4 with
      | Some t =>
        if teqb t yes then
          let* w' := parse_update W w xt yt true in
          let* s2 := sdrop s1 4 in parse_cells W y xs' s2 w'
        else if teqb t no then
          let* w' := parse_update W w xt yt false in
          let* s2 := sdrop s1 4 in parse_cells W y xs' s2 w'
        else Ret (inr bad)
      | None => Ret (inr bad)
      end
    end
  end.

(** wall.rs:613-665: the loop over [s.lines().enumerate().take(2 * W + 1)]; [n] is how many
    lines may still be taken.  [y as u8] is exact because [y <= 2 * W]. *)
Fixpoint parse_lines (n : nat) (W y : Z) (ls : list text) (w : walls) : res (pr walls) :=
  match n, ls with
  | O, _ | _, [] => Ret (inl w)
  | S n', l :: ls' =>
    let yb := as_u8 y in
    let* w2 := chk_u8 (2 * W) in
    if yb =? w2 then
      match check l (L "+") 1 yb 0 with
      | Some e => Ret (inr e)
      | None =>
        let* l' := sdrop l 1 in
        let* r := parse_last yb (range W) l' in
        match r with inr e => Ret (inr e) | inl _ => Ret (inl w) end
      end
    else
      let* r := parse_cells W yb (range W) l w in
      match r with
      | inr e => Ret (inr e)
      | inl w' => parse_lines n' W (y + 1) ls' w'
      end
  end.

(** wall.rs:597-667. *)
Definition walls_parse (W : Z) (s : text) : res (pr walls) :=
  let* w := walls_new W in
  parse_lines (Z.to_nat (2 * W + 1)) W 0 (lines s) w.

(** the closure [exists] of wall.rs:672-677. *)
Definition wexists (W : Z) (w : walls) (x y : Z) : res bool :=
  let* c := coord_unwrap W x y in
  let* s := walls_state W w c in
  Ret (is_checked_true s).

(** wall.rs:679-685 (one column of the top-wall line). *)
Definition disp_top (W : Z) (w : walls) (y : Z) (out : text) (x : Z) : res text :=
  let* b := wexists W w (as_u8 (Z.shiftl x 1)) (Z.lor (as_u8 (Z.shiftl y 1)) 1) in
  Ret (out ++ (if b then L "+---" else L "+   ")).

(** wall.rs:689-695 (one column of the cell line). *)
Definition disp_right (W : Z) (w : walls) (y : Z) (out : text) (x : Z) : res text :=
  let* b := wexists W w (Z.lor (as_u8 (Z.shiftl x 1)) 1) (as_u8 (Z.shiftl y 1)) in
  Ret (out ++ (if b then L "   |" else L "    ")).

(** wall.rs:678-697 (one row of cells). *)
Definition disp_row (W : Z) (w : walls) (out : text) (y : Z) : res text :=
  let* o1 := for_each (disp_top W w y) (range W) out in
  let o2 := o1 ++ L "+" ++ [NL] ++ L "|" in
  let* o3 := for_each (disp_right W w y) (range W) o2 in
  Ret (o3 ++ [NL]).

(** wall.rs:671-703.  The formatter's own errors are not modelled. *)
Definition walls_display (W : Z) (w : walls) : res text :=
  let* o := for_each (disp_row W w) (rev (range W)) [] in
  Ret (o ++ List.concat (map (fun _ => L "+---") (range W)) ++ L "+" ++ [NL]).
