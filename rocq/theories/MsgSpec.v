(** Vocabulary for the text of a parse error. *)
From Coq Require Import ZArith List Ascii String.
From Verif Require Import Base WallsModel WallsSpec.
Import ListNotations.
Open Scope Z_scope.
Open Scope list_scope.

Definition digit (c : ascii) : Prop := 48 <= Z.of_nat (nat_of_ascii c) <= 57.

(** the number that a list of digits means. *)
Definition meaning (t : text) : Z := fold_left (fun a c => 10 * a + (Z.of_nat (nat_of_ascii c) - 48)) t 0.

(** [t] is how one writes the number [z]: digits that mean [z], without a leading zero. *)
Definition numeral (t : text) (z : Z) : Prop :=
  Forall digit t /\ meaning t = z /\ (exists c r, t = c :: r /\ (c = "0"%char -> r = [])).

(** the pieces of a place, as a person would list them. *)
Definition choice (l : list text) : text :=
  match l with
  | [] => []
  | x :: l => L "`" ++ x ++ L "`" ++ List.concat (map (fun y => L " or `" ++ y ++ L "`") l)
  end.
