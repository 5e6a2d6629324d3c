(** Runs of the model on 16 by 16 and 32 by 32 mazes where the fixed capacities of solve/run.rs are exceeded. *)
From Coq Require Import ZArith List Bool Lia.
From Verif Require Import Base SearchModel RunModel.
Import ListNotations.
Open Scope Z_scope.

Definition same (a b : node) : bool := (nx a =? nx b) && (ny a =? ny b) && (dir_num (np a) =? dir_num (np b)).

(** An empty maze: border walls only. *)
Definition hall (c : coord) : bool := negb ((cx c =? 63) || (cy c =? 63)).
(** Half turns and diagonal turns are cheap, everything else is dear. *)
Definition hall_cost (k : ekind) : Z :=
  match k with
  | KStraight i | KStraightDiagonal i => if i =? 1 then 1000 else 5 + 1000 * Z.abs i
  | KSlalom45 => 30 | KSlalom90 => 100 | KSlalom135 => 300 | KSlalom180 => 0 | KSlalomDiagonal90 => 2
  end.
Definition hall_goal (n : node) : bool := same n (Nde 54 8 PE) || same n (Nde 24 7 PSW).

Lemma hall_run : exists p, run_path 32 hall_goal (fun c => Ret (negb (hall c))) hall_cost 4294967295 (fun _ => O) (Nde 60 6 PW)
  = Ret (Some (p, 64)).
Proof. eexists. vm_compute. reflexivity. Qed.

(** A snake of corridors of width one ending in a small hall. *)
Definition snake (c : coord) : bool :=
  let x := cx c / 2 in let y := cy c / 2 in
  if (cx c =? 63) || (cy c =? 63) then false else
  if 28 <=? x then (y <? 4) && (cy c <? 7) else
  if Z.odd (cx c) then (if Z.even x then y =? 31 else y =? 0) else true.
(** Long straights are forbidden by their cost. *)
Definition snake_cost (k : ekind) : Z :=
  match k with KStraight i | KStraightDiagonal i => if i =? 1 then 1 else 65535 | _ => 1 end.

Lemma snake_run : run_path 32 (same (Nde 0 0 PS)) (fun c => Ret (negb (snake c))) snake_cost 65535 (fun _ => O) (Nde 0 0 PN) = Panic.
Proof. vm_compute. reflexivity. Qed.

(** An empty maze of the usual size. *)
Definition hall16 (c : coord) : bool := negb ((cx c =? 31) || (cy c =? 31)).
(** Only the shortest diagonals and the turns by 135 degrees are allowed, and they cost nothing. *)
Definition mill_cost (k : ekind) : Z :=
  match k with KStraightDiagonal i => if i =? 1 then 0 else 65535 | KSlalom135 => 0 | _ => 65535 end.

Lemma mill_run : run_path 16 (same (Nde 28 24 PN)) (fun c => Ret (negb (hall16 c))) mill_cost 65535 (fun _ => O) (Nde 8 4 PN) = Panic.
Proof. vm_compute. reflexivity. Qed.
