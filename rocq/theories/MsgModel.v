(** Model of the text of a parse error (wall.rs 574-592). *)
From Coq Require Import ZArith List Ascii String.
From Verif Require Import Base WallsModel.
Import ListNotations.
Open Scope Z_scope.
Open Scope list_scope.

(** [fmt::Display] of usize (core; used by wall.rs 576-582): decimal digits without leading zeros.
    [n] bounds the number of digits. *)
Fixpoint decimal (n : nat) (z : Z) : text :=
  match n with
  | O => []
  | S n => (if z <? 10 then [] else decimal n (z / 10)) ++ [ascii_of_nat (Z.to_nat (48 + z mod 10))]
  end.

(** wall.rs 576-582: a usize of 32 bits has at most ten digits. *)
Definition usize_text (z : Z) : text := decimal 10 z.

(** wall.rs 574-592: Display of ParseWallsError.  [self.line + 1] is checked. The formatter's own
    errors are not modelled. *)
Definition perr_display (e : perr) : res text :=
  if 4294967295 <? e_line e + 1 then Panic
  else
    let place := L "line " ++ usize_text (e_line e + 1) ++ L ", character " ++ usize_text (e_from e)
                 ++ L " to " ++ usize_text (e_to e) ++ L ", " in
    match e_expected e with
    | [one] => Ret (place ++ L "here must be `" ++ one ++ L "`.")
    | first :: second :: _ => Ret (place ++ L "here must be `" ++ first ++ L "` or `" ++ second ++ L "`.")
    | [] => Panic
    end.
