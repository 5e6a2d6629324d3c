(** Which of several shortest routes is taken (C114). *)
From Coq Require Import ZArith List Bool Lia.
From Verif Require Import Base SearchModel SearchSpec.
Import ListNotations.
Open Scope Z_scope.

(** Seen from [c], the run to [a] comes before the run to [b]: its direction comes earlier in the
    list [dirs] (north-east, south-west, north-west, south-east, then straight ahead in the positive
    and in the negative direction), or it is shorter in the same direction. *)
Definition before (c a b : coord) : Prop :=
  exists i j v w m n, nth_error (dirs c) i = Some v /\ nth_error (dirs c) j = Some w /\ 1 <= m /\ 1 <= n /\
    a = shift c v m /\ b = shift c w n /\ ((i < j)%nat \/ i = j /\ m < n).

(** The first difference between two routes from [c] decides. *)
Fixpoint earlier (c : coord) (l m : list coord) : Prop :=
  match l, m with
  | a :: l', b :: m' => before c a b \/ (a = b /\ earlier a l' m')
  | _, _ => False
  end.

(** The first of the shortest routes. *)
Definition first_route (W : Z) (open : coord -> bool) (s : coord) (goals : list coord) (l : list coord) : Prop :=
  best_route W open s goals l /\
  forall g' l', In g' goals -> g' <> s -> route W open s g' l' -> length l' = length l -> l' = l \/ earlier s l l'.
