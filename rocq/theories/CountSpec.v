(** How many moves the loop of the search test makes (C118). *)
From Coq Require Import ZArith List Bool.
From Verif Require Import Base SearchModel Num ControlModel TrajModel DetectModel SimModel RouteModel LoopModel.

(** rounds of the loop from [l] to [l'] in [k] of which the planned state of the mouse changes. *)
Inductive makes {K : ops} (W : Z) (v : search_setup) : search_vars -> nat -> search_vars -> Prop :=
  | makes_nil l : makes W v l 0 l
  | makes_stay l l1 k l' : search_period W v l = Ret (inl l1) -> l_robot l1 = l_robot l -> makes W v l1 k l' -> makes W v l k l'
  | makes_move l l1 k l' : search_period W v l = Ret (inl l1) -> l_robot l1 <> l_robot l -> makes W v l1 k l' -> makes W v l (S k) l'.
