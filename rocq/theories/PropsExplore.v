(** Property theorem C23 about the exploration loop. *)
From Coq Require Import ZArith List Bool Lia Arith ZifyBool.
From Verif Require Import Base SearchModel SearchSpec WallsModel WallsSpec ExploreModel ExploreProofs.
Import ListNotations.
Open Scope Z_scope.

(** ** C23: in every maze in which the fresh map is true, whatever else the sensors see, the loop
    ends; it ends with a map on which the path that is computed next is a best route of the maze,
    or the maze has no route to a goal.  The map never contains a wrong wall. *)
Theorem C23_exploration : forall W goals wall se w0 extra,
  supported W -> Forall (valid W) goals ->
  (forall c b, valid W c -> fresh W c = Checked b -> wall c = b) ->
  searcher_new W (Co 0 1) goals = Ret se -> walls_new W = Ret w0 ->
  (forall i, Forall (valid W) (extra i)) ->
  exists n o w s, explore n W se wall extra w0 (SS (Co 0 1) North) = Ret (o, w, s) /\
    (forall c, valid W c -> walls_state W w c = Ret Unchecked \/ walls_state W w c = Ret (Checked (wall c))) /\
    ((o = Found /\ exists l,
        shortest_path W se (fun c => let* t := walls_state W w c in Ret (negb (is_checked_false t)))
          = Ret (Some (Co 0 1 :: l)) /\
        best_route W (fun c => negb (wall c)) (Co 0 1) goals l)
     \/ (o = Failed /\ unreachable W (fun c => negb (wall c)) (Co 0 1) goals)).
Proof. exact explore_ok. Qed.
Print Assumptions C23_exploration.

(** A 4x4 maze: mazes/maze4_1.dat, with the goals of the cell (1,0). *)
Definition x4_closed : list coord :=
  [Co 1 0; Co 4 1; Co 5 0; Co 7 0; Co 1 2; Co 3 2; Co 7 2; Co 1 4; Co 2 5; Co 4 5; Co 5 4; Co 7 4;
   Co 0 7; Co 2 7; Co 4 7; Co 6 7; Co 7 6].
Definition x4_wall (c : coord) : bool := existsb (coord_eqb c) x4_closed.
(** the same maze with the goals walled in *)
Definition x4_wall' (c : coord) : bool := x4_wall c || coord_eqb c (Co 2 3) || coord_eqb c (Co 2 1) || coord_eqb c (Co 3 0).
Definition x4_goals := [Co 2 1; Co 3 0].

Definition outcome_of {A B} (r : res (outcome * A * B)) : option outcome :=
  match r with Ret (o, _, _) => Some o | _ => None end.

Example C23_case : supported 4 /\ Forall (valid 4) x4_goals /\
  (forall c b, valid 4 c -> fresh 4 c = Checked b -> x4_wall c = b) /\
  (forall c b, valid 4 c -> fresh 4 c = Checked b -> x4_wall' c = b) /\
  exists se w0, searcher_new 4 (Co 0 1) x4_goals = Ret se /\ walls_new 4 = Ret w0 /\
    outcome_of (explore 40 4 se x4_wall (fun _ => []) w0 (SS (Co 0 1) North)) = Some Found /\
    outcome_of (explore 40 4 se x4_wall' (fun _ => []) w0 (SS (Co 0 1) North)) = Some Failed /\
    outcome_of (explore 5 4 se x4_wall (fun _ => []) w0 (SS (Co 0 1) North)) = None.
Proof.
  assert (V : forall (P : coord -> Prop), (forall c, valid 4 c -> P c) <-> Forall P (all_walls 4)).
  { intros P. rewrite Forall_forall. split; intros H c Hc; apply H; now apply all_walls_In. }
  split; [unfold supported; tauto|]. split; [repeat constructor; simpl; lia|].
  split; [|split].
  - intros c b Vc. revert b. revert c Vc. apply (proj2 (V (fun c => forall b, fresh 4 c = Checked b -> x4_wall c = b))).
    vm_compute. repeat constructor; intros b E; congruence.
  - intros c b Vc. revert b. revert c Vc. apply (proj2 (V (fun c => forall b, fresh 4 c = Checked b -> x4_wall' c = b))).
    vm_compute. repeat constructor; intros b E; congruence.
  - eexists. eexists. split; [vm_compute; reflexivity|]. split; [vm_compute; reflexivity|].
    split; [|split]; vm_compute; reflexivity.
Qed.
