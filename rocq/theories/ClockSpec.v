(** The clock of the trajectory iterators in binary32. *)
From Flocq Require Import BinarySingleNaN.
From Verif Require Import Num.

(** [n] additions of the period to 0. *)
Definition clock (p : f32) (n : nat) : f32 := Nat.iter n (fun t => Bplus mode_NE t p) (B754_zero false).
