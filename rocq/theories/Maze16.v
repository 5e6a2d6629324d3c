(** A 16 x 16 maze of the repository, with the moves of all runs from its first square. *)
From Coq Require Import ZArith List Bool Lia.
From Verif Require Import Base SearchModel SearchSpec RunModel RunSpec RunMoves RunTraj RunThm.
Import ListNotations.
Open Scope Z_scope.

(** mousecore2/mazes/maze16_1.dat 1-33, the maze of tests/run.rs 27-37 and tests/search.rs 28-34: bit [x] of row [y]
    says that (x, y) is open. *)
Definition m16_rows : list Z :=
  [673884832; 1145311509; 42115104; 1414530373; 42608768; 1346371905;
   137013802; 1078202689; 707439146; 1090519297; 680142984; 1162872145;
   537042946; 1430524228; 163872; 1431655749; 8421504; 1430524244;
   537042946; 1162888529; 680003592; 1073758529; 713730218; 1145307153;
   2656768; 1145045265; 671787018; 1095763265; 168470568; 1078202625;
   715655850; 0].
Definition m16_open (c : coord) : bool := Z.testbit (nth (Z.to_nat (cy c)) m16_rows 0) (cx c).
Definition m16_wall (c : coord) : bool := negb (m16_open c).

(** The nodes that runs from the first square come to (mousecore2/src/solve/run.rs): bit [8 x + p] of row [y] says that they come to (x, y, p). *)
Definition m16_nodes : list Z :=
  [0x14204408500000001420440854204400440854204408542044085000000011;
   0x200000088000000220000008a0000000000a200000082000000a000000000;
   0x1100000015a0440a5100000005804400440241000000110014224100000011;
   0xa000000a000000000000000000000000000080022000000000000;
   0x110000000580440a510000000000000000000000000015aa51000000000011;
   0x8800000000000000000000000000220088000000000020;
   0x110000000000000015a044085420440044085420440a510015a04400440a51;
   0x8000000000000000a000000aa0000000000aa000000a0000a0000000000a0;
   0x15a0440044085000058044024580440044024580440a510005804400440a51;
   0xa000000000088000000000000000000000000000000880000000000000080;
   0x15a04408500015a8500000000000000000000000000015a850000000000011;
   0xa000000800002008000000000000000000000000000020080000000000020;
   0x15a85000110011001100000014204400440850000000110011000000142241;
   0x2008000000000000000000002000000000080000000000000000000020000;
   0x11001100110011001100000011a04000500011000000110011a04000110000;
   0x8002000000000008000a00000000000080020000000000000;
   0x11001100110015aa510000001100058241001100000015aa51000000110000;
   0x8002000000002008000000008000000000020000000020080000000080000;
   0x15a24100110011001100000005804408542241000000110011000000058850;
   0xa000000200008002000000000000000820000000000000000000000000080;
   0x15a04402410005824100000000000000110000000000110011000000000011;
   0xa000000000000000000000000000000200000000000080028000000000020;
   0x15a04408542044085000040814204402418040004000058245885420440a51;
   0x2000000820000008800000022000000000000000000000000008200000080;
   0x110000001100000015a0440241000000000004000408100000001100000011;
   0x8000000200000000200000000000000000000000000000000000800000020;
   0x15a04402410000001100142044004400440044085000100000000580440a51;
   0x20000000000000000000a000000000000000000a000000000000000000080;
   0x11000000000000001100058854204400440854224100100000000000000011;
   0x80000000000000028000000a200000000008a000000280000000000000020;
   0x5804400440044024580440241000000000005804400440044004400440241;
   0].
Definition m16_dir (p : dir8) : Z :=
  match p with PN => 0 | PNE => 1 | PE => 2 | PSE => 3 | PS => 4 | PSW => 5 | PW => 6 | PNW => 7 end.
Definition m16_visited (n : node) : bool := Z.testbit (nth (Z.to_nat (ny n)) m16_nodes 0) (8 * nx n + m16_dir (np n)).

(** ** a way to check that runs stay among some nodes *)
Definition moves_from (W : Z) (open : coord -> bool) (U : list node) : list (node * node * ekind) :=
  flat_map (fun n => match successors W (fun c => Ret (negb (open c))) n with Ret l => map (fun mk => (n, fst mk, snd mk)) l | _ => [] end) U.
Lemma check_covers W open start (f : node -> bool) : supported W -> valid_node W start -> f start = true ->
  forallb (fun x => f (snd (fst x))) (moves_from W open (List.filter f (all_nodes W))) = true ->
  covers W open start (List.filter f (all_nodes W)) (moves_from W open (List.filter f (all_nodes W))).
Proof.
  intros HW V F C. assert (IN : forall n, In n (List.filter f (all_nodes W)) <-> valid_node W n /\ f n = true).
  { intros n. rewrite filter_In, all_nodes_in. reflexivity. }
  split; [apply IN; auto|]. split; [apply Forall_forall; intros n I; apply IN, I|].
  intros n m k t I M. assert (Vn := proj1 (proj1 (IN n) I)).
  destruct (successors_ok W open (fun c => Ret (negb (open c))) HW (fun c _ => eq_refl) n Vn) as (l & El & _ & _ & Hin).
  assert (J : In (n, m, k) (moves_from W open (List.filter f (all_nodes W)))).
  { unfold moves_from. apply in_flat_map. exists n. split; [exact I|]. rewrite El. apply in_map_iff. exists (m, k). split; [reflexivity|]. apply Hin. eauto. }
  split; [|exact J]. apply IN. split.
  - exact (rmove_valid W open n m k t Vn M).
  - rewrite forallb_forall in C. exact (C _ J).
Qed.

Definition m16_U := List.filter m16_visited (all_nodes 16).
Definition m16_ms := moves_from 16 m16_open m16_U.
Lemma m16_covers : covers 16 m16_open (Nde 0 0 PN) m16_U m16_ms /\ llen m16_ms = 1582 /\ llen m16_U = 683.
Proof.
  split; [|split; vm_compute; reflexivity]. apply check_covers; [unfold supported; auto 10 | repeat split; cbn; lia | vm_compute; reflexivity|].
  vm_compute. reflexivity.
Qed.
(** a way from the first square to the goal of the tests *)
Definition m16_way : list posture :=
  [North; North; North; North; North; North; East; North; North; North; West; North; North; North; North; North;
   North; East; East; East; East; East; East; South; East; East; East; North; East; East; South; South; South;
   West; West; South; West; West; South; South; East; East; South; South; West; West].
