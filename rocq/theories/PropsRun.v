(** Properties of the run solver (mousecore2/src/solve/run.rs). *)
From Coq Require Import ZArith List Bool Lia Ascii String.
From Verif Require Import Base SearchModel SearchSpec WallsModel RunModel RunSpec RunNode RunMoves RunTraj RunDijk RunThm Maze16 RunOverflow.
Import ListNotations.
Open Scope Z_scope.
Open Scope list_scope.

(** C26: [Node::new] accepts exactly the nodes; slots are in bounds, distinct, and identifiers can be
    turned back into nodes. *)
Theorem C26_node_new W x y p n : supported W -> 0 <= x < 256 -> 0 <= y < 256 ->
  (node_new W x y p = Some n <-> n = Nde x y p /\ valid_node W n).
Proof. exact (node_new_iff W x y p n). Qed.
Print Assumptions C26_node_new.

Theorem C26_node_ids W a : supported W -> valid_node W a ->
  exists id, node_id W a = Ret id /\ 0 < id < 65536 /\ 0 <= id_index id < RUN_MAX /\ node_of_id W id = Ret a /\
  forall b id', valid_node W b -> node_id W b = Ret id' -> id_index id' = id_index id -> b = a.
Proof.
  intros HW Va. exists (nid W a). pose proof (nidx_bound W a HW Va) as HB.
  split; [now apply node_id_ok|]. rewrite id_index_nid.
  split; [unfold nid; change RUN_MAX with 16384 in HB; lia|]. split; [exact HB|].
  split; [now apply node_of_id_ok|].
  intros b id' Vb Eb E. rewrite node_id_ok in Eb by assumption. injection Eb as <-.
  rewrite id_index_nid in E. now apply (nidx_inj W).
Qed.
Print Assumptions C26_node_ids.

Example C26_example : supported 32 /\ valid_node 32 (Nde 63 62 PNW) /\ node_new 32 63 62 PNW = Some (Nde 63 62 PNW)
  /\ node_id 32 (Nde 63 62 PNW) = Ret 32639 /\ node_of_id 32 32639 = Ret (Nde 63 62 PNW) /\ node_new 32 63 63 PNW = None /\ node_new 32 2 3 PN = None.
Proof.
  split; [unfold supported; auto 10|]. split; [unfold valid_node; vm_compute; repeat split; discriminate|].
  vm_compute. auto 10.
Qed.

(** C27: the successors of a node are exactly the moves of the specification (each once), each leads to
    a node, and [trajectory_kind] gives the trajectory of the specification. *)
Theorem C27_successors W open is_wall n : supported W -> (forall c, valid W c -> is_wall c = Ret (negb (open c))) ->
  valid_node W n ->
  exists l, successors W is_wall n = Ret l /\ NoDup l /\
    (forall m k, In (m, k) l <-> exists t, rmove W open n m k t) /\
    (forall m k, In (m, k) l -> valid_node W m /\ exists t, rmove W open n m k t /\ trajectory_kind n m = Ret (Some t)).
Proof.
  intros HW Hok Vn. destruct (successors_ok W open is_wall HW Hok n Vn) as (l & E & _ & Nd & Hin).
  exists l. split; [exact E|]. split; [exact Nd|]. split; [exact Hin|].
  intros m k Hm. apply Hin in Hm. destruct Hm as [t Hm].
  split; [now apply (rmove_valid W open n m k t)|]. exists t. split; [exact Hm|]. now apply (traj_ok W open n m k t).
Qed.
Print Assumptions C27_successors.

Example C27_example : let open := fun c => (cx c <? 7) && (cy c <? 7) in
  successors 4 (fun c => Ret (negb (open c))) (Nde 2 2 PN) =
    Ret [(Nde 2 4 PN, KStraight 1); (Nde 2 6 PN, KStraight 2);
         (Nde 3 4 PNE, KSlalom45); (Nde 4 4 PE, KSlalom90); (Nde 4 3 PSE, KSlalom135); (Nde 4 2 PS, KSlalom180);
         (Nde 1 4 PNW, KSlalom45); (Nde 0 4 PW, KSlalom90); (Nde 0 3 PSW, KSlalom135); (Nde 0 2 PS, KSlalom180)] /\
  trajectory_kind (Nde 2 2 PN) (Nde 0 3 PSW) = Ret (Some (RSlalom FastRun135 SLeft)) /\
  trajectory_kind (Nde 2 2 PN) (Nde 6 6 PN) = Ret None.
Proof. vm_compute. auto. Qed.

(** C28: an answer is a path over open walls from the start to a goal with that cost; for every
    supported width, even when the heap overflows. *)
Theorem C28_sound W open is_wall is_goal cost cmax tie start path c :
  supported W -> (forall p, valid W p -> is_wall p = Ret (negb (open p))) -> (forall k, 0 <= cost k) -> 0 < cmax ->
  valid_node W start ->
  run_path W is_goal is_wall cost cmax tie start = Ret (Some (path, c)) ->
  exists g, rpath W open cost cmax start path g c /\ is_goal g = true.
Proof. intros HW Hok Hc Hm Hs. exact (run_sound W open is_wall is_goal cost cmax tie start HW Hok Hc Hm Hs path c). Qed.
Print Assumptions C28_sound.

(** The path of the specification begins at its start and ends at its end. *)
Theorem C28_ends W open cost cmax a l b c : rpath W open cost cmax a l b c -> hd_error l = Some a /\ last l a = b.
Proof.
  induction 1 as [|l b c m k t H [IH1 IH2] Hm]; [split; reflexivity|]. split.
  - destruct l; [discriminate|exact IH1].
  - apply last_last.
Qed.
Print Assumptions C28_ends.

(** C29: for W up to 8 it neither panics nor loops and the answer is optimal. *)
Theorem C29_optimal W open is_wall is_goal cost cmax tie start :
  supported W -> W <= 8 -> (forall p, valid W p -> is_wall p = Ret (negb (open p))) -> (forall k, 0 <= cost k) -> 0 < cmax ->
  valid_node W start ->
  (exists path c g, run_path W is_goal is_wall cost cmax tie start = Ret (Some (path, c)) /\
     rpath W open cost cmax start path g c /\ is_goal g = true /\ c < cmax /\
     forall l g' c', rpath W open cost cmax start l g' c' -> is_goal g' = true -> c <= c') \/
  (run_path W is_goal is_wall cost cmax tie start = Ret None /\
     forall l g c, rpath W open cost cmax start l g c -> is_goal g = true -> cmax <= c).
Proof. intros HW H8 Hok Hc Hm Hs. exact (run_optimal W open is_wall is_goal cost cmax tie start HW Hok Hc Hm Hs H8). Qed.
Print Assumptions C29_optimal.

(** Example for C28 and C29: test_shortest_path4 of run.rs. *)
Definition maze4_3 : text := List.concat (map (fun s => L s ++ [NL])
  ["+---+---+---+---+"; "|               |"; "+   +---+   +   +"; "|   |       |   |"; "+---+   +---+   +";
   "|       |       |"; "+   +---+---+   +"; "|   |           |"; "+---+---+---+---+"]%string).
Definition test_cost (k : ekind) : Z :=
  match k with
  | KStraight x => x * 10 | KStraightDiagonal x => x * 7 | KSlalom45 => 12 | KSlalom90 => 15
  | KSlalom135 => 20 | KSlalom180 => 25 | KSlalomDiagonal90 => 15
  end.
Definition test_wall (w : walls) (c : coord) : res bool :=
  let* s := walls_state 4 w c in Ret (match s with Checked false => false | _ => true end).
Definition map4_3 : walls := match walls_parse 4 maze4_3 with Ret (inl w) => w | _ => anew 0 0 end.
Example C28_example : walls_parse 4 maze4_3 = Ret (inl map4_3) /\
  run_path 4 (fun n => node_eqb n (Nde 2 0 PS) || node_eqb n (Nde 2 0 PW)) (test_wall map4_3) test_cost 65535
    (fun _ => O) (Nde 0 0 PN)
  = Ret (Some ([Nde 0 0 PN; Nde 1 2 PNE; Nde 4 5 PNE; Nde 6 4 PS; Nde 6 2 PS; Nde 4 0 PW; Nde 2 0 PW], 88)).
Proof. split; vm_compute; reflexivity. Qed.
(** No answer when the goal is walled off. *)
Example C29_example : run_path 8 (fun n => node_eqb n (Nde 2 0 PS)) (fun _ => Ret true) test_cost 65535 (fun _ => O) (Nde 0 0 PN)
  = Ret None.
Proof. vm_compute. reflexivity. Qed.

(** C30 is false for W = 32: with a full heap an entry is dropped and a dearer answer is returned
    (no straight is longer than 255 and all costs fit in 32 bits); and a path of more than 1024 nodes
    panics.  It is false for W = 16: with moves that cost nothing a path can have more than 1024 nodes as well. *)
Theorem C30_large_refuted :
  (exists open is_goal cost tie start path c,
     valid_node 32 start /\ (forall k, 0 <= cost k) /\
     run_path 32 is_goal (fun p => Ret (negb (open p))) cost 4294967295 tie start = Ret (Some (path, c)) /\
     exists l g c', rpath 32 open cost 4294967295 start l g c' /\ is_goal g = true /\ c' < c) /\
  (exists open is_goal cost tie start,
     valid_node 32 start /\ (forall k, 0 <= cost k <= 65535) /\
     run_path 32 is_goal (fun p => Ret (negb (open p))) cost 65535 tie start = Panic) /\
  (exists open is_goal cost tie start,
     valid_node 16 start /\ (forall k, 0 <= cost k <= 65535) /\
     run_path 16 is_goal (fun p => Ret (negb (open p))) cost 65535 tie start = Panic).
Proof.
  split; [|split].
  - destruct hall_run as [p Hp].
    exists hall, hall_goal, hall_cost, (fun _ => O), (Nde 60 6 PW), p, 64.
    split; [vm_compute; repeat split; discriminate|].
    split; [intros k; unfold hall_cost; destruct k as [i|i| | | | | ]; try (destruct (Z.eqb_spec i 1)); lia|].
    split; [exact Hp|].
    eexists _, _, 62. split; [|split; [|lia]].
    + apply (path_cost_start 32 hall (fun p => Ret (negb (hall p))) hall_cost 4294967295 (Nde 60 6 PW)
        [Nde 60 8 PE; Nde 60 10 PW; Nde 58 11 PNW; Nde 56 11 PSW; Nde 54 10 PW; Nde 54 8 PE]).
      * unfold supported; auto 10.
      * reflexivity.
      * vm_compute; repeat split; discriminate.
      * vm_compute. reflexivity.
    + vm_compute. reflexivity.
  - exists snake, (same (Nde 0 0 PS)), snake_cost, (fun _ => O), (Nde 0 0 PN).
    split; [vm_compute; repeat split; discriminate|].
    split; [intros k; unfold snake_cost; destruct k as [i|i| | | | | ]; try (destruct (Z.eqb_spec i 1)); lia|].
    exact snake_run.
  - exists hall16, (same (Nde 28 24 PN)), mill_cost, (fun _ => O), (Nde 8 4 PN).
    split; [vm_compute; repeat split; discriminate|].
    split; [intros k; unfold mill_cost; destruct k as [i|i| | | | | ]; try (destruct (Z.eqb_spec i 1)); lia|].
    exact mill_run.
Qed.
Print Assumptions C30_large_refuted.

(** What holds for every supported width: if all runs from the start have few moves in all ([ms]) so that the
    heap cannot fill, and few nodes ([U]) so that the path buffer suffices, the answer is optimal.  It also is if
    the nodes are many but no move is too cheap and a goal not too far. *)
Theorem C30_large_partial W open is_wall is_goal cost cmax tie start U ms :
  supported W -> (forall p, valid W p -> is_wall p = Ret (negb (open p))) -> (forall k, 0 <= cost k) -> 0 < cmax ->
  valid_node W start -> covers W open start U ms -> llen ms <= 16383 ->
  (llen U <= 1024 \/ exists b, 0 < b /\ (forall n m k t, In n U -> rmove W open n m k t -> b <= cost k) /\
     ((exists l g c, rpath W open cost cmax start l g c /\ is_goal g = true /\ c < cmax) ->
      exists l g c, rpath W open cost cmax start l g c /\ is_goal g = true /\ c <= 1023 * b)) ->
  (exists path c g, run_path W is_goal is_wall cost cmax tie start = Ret (Some (path, c)) /\
     rpath W open cost cmax start path g c /\ is_goal g = true /\ c < cmax /\
     forall l g' c', rpath W open cost cmax start l g' c' -> is_goal g' = true -> c <= c') \/
  (run_path W is_goal is_wall cost cmax tie start = Ret None /\
     forall l g c, rpath W open cost cmax start l g c -> is_goal g = true -> cmax <= c).
Proof.
  intros HW Hok Hc Hm Hs. exact (run_optimal_modest W open is_wall is_goal cost cmax tie start HW Hok Hc Hm Hs U ms).
Qed.
Print Assumptions C30_large_partial.

(** Example: a 16 x 16 maze of the repository (mousecore2/mazes/maze16_1.dat).  Runs from the first square
    come to 683 nodes and have 1582 moves in all. *)
Example C30_example : supported 16 /\ valid_node 16 (Nde 0 0 PN) /\ covers 16 m16_open (Nde 0 0 PN) m16_U m16_ms /\
  llen m16_ms <= 16383 /\ llen m16_U <= 1024.
Proof.
  destruct m16_covers as (C & L1 & L2). split; [unfold supported; auto 10|]. split; [repeat split; cbn; lia|].
  split; [exact C|]. rewrite L1, L2. lia.
Qed.
