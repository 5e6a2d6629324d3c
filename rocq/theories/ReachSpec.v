(** Vocabulary for ways through a maze from square to square. *)
From Coq Require Import ZArith List Bool.
From Verif Require Import Base SearchModel SearchSpec RunModel RunSpec.
Import ListNotations.
Open Scope Z_scope.

Definition in_maze (W : Z) (c : Z * Z) : Prop := 0 <= fst c < W /\ 0 <= snd c < W.
(** the next square in a direction, and the wall between. *)
Definition beyond (c : Z * Z) (p : posture) : Z * Z := (fst c + fst (pvec p), snd c + snd (pvec p)).
Definition between (c : Z * Z) (p : posture) : coord := Co (2 * fst c + fst (pvec p)) (2 * snd c + snd (pvec p)).

(** One can leave the square [c] in direction [p]. *)
Definition passage (W : Z) (open : coord -> bool) (c : Z * Z) (p : posture) : Prop :=
  in_maze W (beyond c p) /\ open (between c p) = true.
(** A way from square to square, as the list of its directions. *)
Inductive way (W : Z) (open : coord -> bool) : Z * Z -> list posture -> Z * Z -> Prop :=
  | way_nil c : way W open c [] c
  | way_cons c p l e : passage W open c p -> way W open (beyond c p) l e -> way W open c (p :: l) e.
Definition linked (W : Z) (open : coord -> bool) (c e : Z * Z) : Prop := exists l, way W open c l e.

(** The squares of a way, the first included. *)
Fixpoint visits (c : Z * Z) (l : list posture) : list (Z * Z) :=
  match l with [] => [c] | p :: l' => c :: visits (beyond c p) l' end.

(** A run that may end in these squares in any of the four directions, but not on a diagonal, as in tests/run.rs. *)
Definition ends_in (W : Z) (is_goal : node -> bool) (squares : list (Z * Z)) : Prop :=
  forall n, valid_node W n -> (is_goal n = true <-> is_diag (np n) = false /\ In (nx n / 2, ny n / 2) squares).
(** A search for these squares: the goals are walls of them, and all that are open in the maze. *)
Definition aims_at (W : Z) (open : coord -> bool) (goals : list coord) (squares : list (Z * Z)) : Prop :=
  Forall (fun g => valid W g /\ exists e, In e squares /\ touches g e) goals /\
  forall e g, In e squares -> valid W g -> touches g e -> open g = true -> In g goals.
(** Costs of the moves: the shortest ones cost at most [B] each, and a way through all squares stays below the highest number. *)
Definition payable (W B : Z) (cost : ekind -> Z) (cmax : Z) : Prop :=
  (forall k, 0 <= cost k) /\
  (forall k, In k [KStraight 1; KStraightDiagonal 1; KSlalom45; KSlalom90; KSlalom135; KSlalom180; KSlalomDiagonal90] -> cost k <= B) /\
  B * (W * W) < cmax.
(** The planner of runs has room for 16384 entries in its heap and for 1024 nodes in a path.  Up to 8 x 8 this is always enough;
    in larger mazes it is if all runs from the start have at most 16383 moves in all and are spread over at most 1024 nodes,
    or no move costs less than [b] and a way through all squares costs at most [1023 * b]. *)
Definition within_memory (W : Z) (open : coord -> bool) (start : node) (B : Z) (cost : ekind -> Z) : Prop :=
  W <= 8 \/ exists U ms, covers W open start U ms /\ llen ms <= 16383 /\
    (llen U <= 1024 \/
     exists b, 0 < b /\ (forall n m k t, In n U -> rmove W open n m k t -> b <= cost k) /\ B * (W * W) <= 1023 * b).
