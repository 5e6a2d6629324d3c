(** Independent specification vocabulary for the search properties (C01-C24).
    Nothing here mentions indices, queues, filters or the solver's loops. *)
From Coq Require Import ZArith List Bool Lia.
From Verif Require Import Base SearchModel.
Import ListNotations.
Open Scope Z_scope.

(** Maze widths the crate can hold: powers of two up to [WIDTH] (lib.rs:9). *)
Definition supported (W : Z) : Prop :=
  W = 1 \/ W = 2 \/ W = 4 \/ W = 8 \/ W = 16 \/ W = 32.

(** Positions inside the doubled grid. *)
Definition on_board (W : Z) (c : coord) : Prop := 0 <= cx c < 2 * W /\ 0 <= cy c < 2 * W.

(** A wall position: [x] even, [y] odd = top wall of cell [(x/2, y/2)];
    [x] odd, [y] even = right wall of that cell. *)
Definition valid (W : Z) (c : coord) : Prop := on_board W c /\ Z.odd (cx c + cy c) = true.

Definition shift (c : coord) (v : Z * Z) (k : Z) : coord :=
  Co (cx c + k * fst v) (cy c + k * snd v).

(** Directions in which a mouse standing across wall [c] can run: perpendicular to the
    wall (one cell = 2 grid units) and the four diagonals. *)
Definition straight_dirs (c : coord) : list (Z * Z) :=
  if Z.odd (cy c) then [(0, 2); (0, -2)] else [(2, 0); (-2, 0)].
Definition dirs (c : coord) : list (Z * Z) :=
  [(1, 1); (-1, -1); (-1, 1); (1, -1)] ++ straight_dirs c.

(** One run: from wall [c] to wall [d] along a straight or diagonal, all walls passed
    after [c] (including [d]) being on the board and open. *)
Definition run_along (W : Z) (open : coord -> bool) (c : coord) (v : Z * Z) (d : coord) : Prop :=
  exists n, 1 <= n /\ d = shift c v n /\
    forall k, 1 <= k <= n -> on_board W (shift c v k) /\ open (shift c v k) = true.
Definition run (W : Z) (open : coord -> bool) (c d : coord) : Prop :=
  exists v, In v (dirs c) /\ run_along W open c v d.

(** A route: a list of walls, consecutive ones joined by runs. *)
Fixpoint chain (R : coord -> coord -> Prop) (c : coord) (l : list coord) : Prop :=
  match l with
  | [] => True
  | d :: l' => R c d /\ chain R d l'
  end.

(** [route W open s g l]: the route visits [s :: l], ends at [g], with [length l] runs. *)
Definition route (W : Z) (open : coord -> bool) (s g : coord) (l : list coord) : Prop :=
  chain (run W open) s l /\ last l s = g.

(** Walls of a common cell with [c]: the (at most) six walls one can drive to from [c]
    by crossing exactly one cell. *)
Definition adjacent (c d : coord) : Prop := exists v, In v (dirs c) /\ d = shift c v 1.

(** One exploration step: to an adjacent wall not known to exist. *)
Definition step (W : Z) (ok : coord -> bool) (c d : coord) : Prop :=
  adjacent c d /\ on_board W d /\ ok d = true.

(** Reachability by a chain of a relation. *)
Definition reaches (R : coord -> coord -> Prop) (c d : coord) : Prop :=
  exists l, chain R c l /\ last l c = d.

(** Grid points passed when driving in a straight line from [p] (excluded) to [c]. *)
Definition seg (p c e : coord) : Prop :=
  exists u m j, Z.abs (fst u) <= 1 /\ Z.abs (snd u) <= 1 /\ u <> (0, 0) /\
    c = shift p u m /\ 1 <= j <= m /\ e = shift p u j.

(** Grid points passed by the route [p :: l], its first wall [p] excluded. *)
Fixpoint passes (p : coord) (l : list coord) (e : coord) : Prop :=
  match l with
  | [] => False
  | c :: l' => seg p c e \/ passes c l' e
  end.

(** The two cells on both sides of a wall (a cell may lie outside the board). *)
Definition touches (c : coord) (cell : Z * Z) : Prop :=
  if Z.odd (cy c) then cell = (cx c / 2, cy c / 2) \/ cell = (cx c / 2, cy c / 2 + 1)
  else cell = (cx c / 2, cy c / 2) \/ cell = (cx c / 2 + 1, cy c / 2).

(** Storage slot of a grid point: its cell and whether [y] is odd.  Two different walls
    never share a slot, but the grid points between walls share the slot of some wall. *)
Definition slot (c : coord) : Z * Z * bool := (cx c / 2, cy c / 2, Z.odd (cy c)).

(** [d] is a wall whose slot is passed, while unknown, by the route [s :: l]. *)
Definition wanted (W : Z) (ws : coord -> wall_state) (s : coord) (l : list coord) (d : coord) : Prop :=
  valid W d /\ exists e, passes s l e /\ ws e = Unchecked /\ slot e = slot d.

(** Walls not known to exist. *)
Definition maybe_open (ws : coord -> wall_state) (d : coord) : bool :=
  match ws d with Checked true => false | _ => true end.

(** Walls known to be open. *)
Definition known_open (ws : coord -> wall_state) (d : coord) : bool :=
  match ws d with Checked false => true | _ => false end.

(** A shortest route (in number of runs) from [s] to some goal other than [s]. *)
Definition best_route (W : Z) (open : coord -> bool) (s : coord) (goals : list coord) (l : list coord) : Prop :=
  (exists g, In g goals /\ g <> s /\ route W open s g l) /\
  forall g' l', In g' goals -> g' <> s -> route W open s g' l' -> (length l <= length l')%nat.

Definition unreachable (W : Z) (open : coord -> bool) (s : coord) (goals : list coord) : Prop :=
  forall g l, In g goals -> g <> s -> ~ route W open s g l.

(** ** Mouse states (C24) *)

(** Unit vector of a posture, and the posture after a right turn. *)
Definition pvec (p : posture) : Z * Z :=
  match p with North => (0, 1) | East => (1, 0) | South => (0, -1) | West => (-1, 0) end.
Definition turn_right (p : posture) : posture :=
  match p with North => East | East => South | South => West | West => North end.
Definition reverse (p : posture) : posture := turn_right (turn_right p).
Definition turn_left (p : posture) : posture := turn_right (reverse p).

(** The posture is perpendicular to the wall: North/South across top walls ([y] odd),
    East/West across right walls. *)
Definition crosses (c : coord) (p : posture) : Prop :=
  match p with North | South => Z.odd (cy c) = true | East | West => Z.odd (cy c) = false end.

Definition plus (c : coord) (v : Z * Z) : coord := Co (cx c + fst v) (cy c + snd v).

(** What a move is supposed to do: from wall [c] facing [p], towards wall [n]. *)
Inductive moves (c : coord) (p : posture) (n : coord) : traj_kind -> coord -> posture -> Prop :=
| mv_front : n = plus (plus c (pvec p)) (pvec p) -> moves c p n Front n p
| mv_right : n = plus (plus c (pvec p)) (pvec (turn_right p)) -> moves c p n Right n (turn_right p)
| mv_left : n = plus (plus c (pvec p)) (pvec (turn_left p)) -> moves c p n Left n (turn_left p)
| mv_back q : In q [reverse p; turn_right p; turn_left p] ->
    n = plus (plus c (pvec (reverse p))) (pvec q) -> moves c p n Back c (reverse p).
