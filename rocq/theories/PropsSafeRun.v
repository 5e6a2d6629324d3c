(** Properties C93 and C94: the planned targets of a run keep clear of the walls. *)
From Coq Require Import ZArith Reals List Bool Lia Lra.
From Verif Require Import Base SearchModel SearchSpec RunModel RunSpec Num NumLemmas ControlModel TrajModel TrajSpec RouteModel RouteSpec RunThm
  WallsModel WallsSpec SearchCoord ExploreModel ExploreProofs SafeSpec SafeProofs4 SafeRun4 PropsRoute PropsExplore PropsSafe.
Import ListNotations.
Open Scope R_scope.

(** ** C93 *)

(** All targets of the joined trajectories of a shortest path keep a distance of 34/100 of a square from every
    wall, pillar and the border, if the walls taken for open are.  A start between two squares is taken for open. *)
Theorem C93_run W open truth is_wall is_goal cost cmax tie start path c (w off run_v e : R) (g : @straight_generator Rops) :
  let v := g_v_max (sg_gen g) in let p := sg_period g in
  supported W -> (forall x, valid W x -> is_wall x = Ret (negb (open x))) -> (forall k, (0 <= cost k)%Z) -> (0 < cmax)%Z ->
  (forall x, valid W x -> open x = true -> truth x = true) ->
  valid_node W start -> (is_diag (np start) = true -> open (Co (nx start) (ny start)) = true) -> is_goal start = false ->
  run_path W is_goal is_wall cost cmax tie start = Ret (Some (path, c)) ->
  0 < w -> 0 < p -> v * p <= w / 50 -> 0 <= e -> limits (sg_gen g) ->
  route_room w off g run_v e (length path) path 0 0 ->
  exists boxes v_end L, @run_route Rops w off g run_v path = Ret (boxes, v_end) /\ serves boxes L /\ L <> [] /\
    Forall (clear W truth w (34 / 100 * w)) L.
Proof.
  cbv zeta. intros HW Hok Hc Hm HT Hs Os NG RP Hw Hp Hvp He Lg RR.
  destruct (C90_run W open is_wall is_goal cost cmax tie start path c w off run_v e g HW Hok Hc Hm Hs NG RP Hw Hp Hvp He Lg RR)
    as (goal & boxes & ve & L & _ & _ & EB & SE & (t & L' & EL & _) & _).
  exists boxes, ve, L. split; [exact EB|]. split; [exact SE|]. split; [rewrite EL; discriminate|].
  destruct g as [g p]. cbn [sg_gen sg_period] in *.
  assert (C := run_route_clear W open is_wall is_goal cost cmax tie start path c w off run_v e g p L boxes ve HW Hok Hc Hm Hs Os NG RP Hw Hp Hvp He Lg RR EB SE).
  revert C. apply Forall_impl. intros s. apply clear_mono. exact HT.
Qed.
Print Assumptions C93_run.

(** the path of C90 in a maze where only the walls on the way are open *)
Example C93_case :
  let g := @StraightGenerator Rops (@Generator Rops 1%R 10%R 100%R) (1 / 1000)%R in
  let path := [Nde 0 0 PN; Nde 0 2 PN; Nde 2 4 PE] in
  let w := 9 / 100 in let open c := existsb (coord_eqb c) [Co 0 1; Co 0 3; Co 1 4] in
  run_path 4 (fun n => node_eqb n (Nde 2 4 PE)) (fun c => Ret (negb (open c))) (fun _ => 10%Z) 65535 (fun _ => O) (Nde 0 0 PN)
    = Ret (Some (path, 20%Z)) /\
  route_room w 0 g (1 / 2) 0 (length path) path 0 0 /\
  exists boxes v_end L, @run_route Rops w 0%R g (1 / 2)%R path = Ret (boxes, v_end) /\ serves boxes L /\ L <> [] /\
    Forall (clear 4 open w (34 / 100 * w)) L /\ solid 4 open (Co 1 2) /\ solid 4 open (Co (-1) 0).
Proof.
  cbv zeta. set (open := fun c => existsb (coord_eqb c) _).
  destruct C90_case as (_ & _ & _ & VP & LG & RR).
  assert (RP : run_path 4 (fun n => node_eqb n (Nde 2 4 PE)) (fun c => Ret (negb (open c))) (fun _ => 10%Z) 65535 (fun _ => O) (Nde 0 0 PN)
    = Ret (Some ([Nde 0 0 PN; Nde 0 2 PN; Nde 2 4 PE], 20%Z))) by (vm_compute; reflexivity).
  split; [exact RP|]. split; [exact RR|].
  assert (HW : supported 4) by (unfold supported; auto 8).
  assert (VN : valid_node 4 (Nde 0 0 PN)) by (vm_compute; repeat split; try reflexivity; discriminate).
  assert (RN := C93_run 4 open open (fun c => Ret (negb (open c))) _ (fun _ => 10%Z) 65535 (fun _ => O) (Nde 0 0 PN) _ 20 (9 / 100) 0 (1 / 2) 0
    (@StraightGenerator Rops (@Generator Rops 1%R 10%R 100%R) (1 / 1000)%R) HW (fun _ _ => eq_refl) ltac:(intros; lia) ltac:(lia) (fun _ _ H => H) VN ltac:(discriminate) eq_refl RP).
  cbv zeta in RN. destruct RN as (bs & ve & L & E & SE & NE & F); try assumption; try lra; [cbn; lra|].
  exists bs, ve, L. repeat split; try assumption; reflexivity.
Qed.

(** ** C94 *)

(** A run planned on the map of an exploration, as in tests/run.rs 137-155, at any time of the exploration: its
    targets keep this distance from the walls the maze really has. *)
Theorem C94_after_search W goals wall se w0 extra l we e is_goal cost cmax tie path c (w off run_v er : R) (g : @straight_generator Rops) :
  let v := g_v_max (sg_gen g) in let p := sg_period g in
  supported W -> Forall (valid W) goals ->
  (forall c b, valid W c -> fresh W c = Checked b -> wall c = b) ->
  searcher_new W (Co 0 1) goals = Ret se -> walls_new W = Ret w0 ->
  (forall i, Forall (valid W) (extra i)) -> explored W se wall extra w0 (SS (Co 0 1) North) l we e ->
  (forall k, (0 <= cost k)%Z) -> (0 < cmax)%Z -> is_goal (Nde 0 0 PN) = false ->
  run_path W is_goal (fun c => let* t := walls_state W we c in Ret (negb (is_checked_false t))) cost cmax tie (Nde 0 0 PN) = Ret (Some (path, c)) ->
  0 < w -> 0 < p -> v * p <= w / 50 -> 0 <= er -> limits (sg_gen g) ->
  route_room w off g run_v er (length path) path 0 0 ->
  exists boxes v_end L, @run_route Rops w off g run_v path = Ret (boxes, v_end) /\ serves boxes L /\ L <> [] /\
    Forall (clear W (fun c => negb (wall c)) w (34 / 100 * w)) L.
Proof.
  cbv zeta. intros HW Hg Hf Hse Hw0 Fe X Hc Hm NG RP Hw Hp Hvp He Lg RR.
  assert (Hs := first_valid W HW). assert (I0 := first_inv W wall w0 HW Hf Hw0).
  destruct (explored_end W HW (Co 0 1) Hs goals Hg se Hse wall _ _ _ _ _ _ X Fe (ex_intro _ _ I0)) as (kn & I).
  assert (Rd : forall c, valid W c -> walls_state W we c = Ret (if kn c then Checked (wall c) else Unchecked)).
  { intros x V. rewrite (read W HW wall kn we x (i_map _ _ _ _ _ _ I)) by apply V. rewrite (ws_valid W) by exact V. reflexivity. }
  refine (C93_run W (fun c => (kn c && negb (wall c))%bool) (fun c => negb (wall c)) _ is_goal cost cmax tie (Nde 0 0 PN) path c w off run_v er g
    HW _ Hc Hm _ _ _ NG RP Hw Hp Hvp He Lg RR).
  - intros x V. rewrite (Rd x V). cbn [bind]. destruct (kn x), (wall x); reflexivity.
  - intros x _ E. apply andb_prop in E. apply E.
  - assert (B := supported_bounds W HW). repeat split; cbn [nx ny]; lia.
  - discriminate.
Qed.
Print Assumptions C94_after_search.

(** three moves into the maze of C23 a run to the third square of the left border and around its corner can be planned *)
Example C94_case : exists se w0 we, searcher_new 4 (Co 0 1) x4_goals = Ret se /\ walls_new 4 = Ret w0 /\
  explored 4 se x4_wall (fun _ => []) w0 (SS (Co 0 1) North)
    [(SS (Co 0 1) North, Front); (SS (Co 0 3) North, Front); (SS (Co 0 5) North, Right)] we (SS (Co 1 6) East) /\
  let path := [Nde 0 0 PN; Nde 0 4 PN; Nde 2 6 PE] in
  run_path 4 (fun n => node_eqb n (Nde 2 6 PE)) (fun c => let* t := walls_state 4 we c in Ret (negb (is_checked_false t))) (fun _ => 10%Z) 65535 (fun _ => O) (Nde 0 0 PN)
    = Ret (Some (path, 20%Z)) /\
  route_room (9 / 100) 0 (@StraightGenerator Rops (@Generator Rops 1%R 10%R 100%R) (1 / 1000)%R) (1 / 2) 0 (length path) path 0 0.
Proof.
  eexists. eexists. eexists. split; [vm_compute; reflexivity|]. split; [vm_compute; reflexivity|]. split.
  - eapply explored_cons with (n := Co 0 3) (s' := SS (Co 0 3) North); [vm_compute; reflexivity | vm_compute; repeat split; try reflexivity; discriminate | reflexivity|].
    eapply explored_cons with (n := Co 0 5) (s' := SS (Co 0 5) North); [vm_compute; reflexivity | vm_compute; repeat split; try reflexivity; discriminate | reflexivity|].
    eapply explored_cons with (n := Co 1 6) (s' := SS (Co 1 6) East); [vm_compute; reflexivity | vm_compute; repeat split; try reflexivity; discriminate | reflexivity|].
    apply explored_nil.
  - cbv zeta. split; [vm_compute; reflexivity|]. apply two_moves with 2%Z; [lia | vm_compute; reflexivity | vm_compute; reflexivity].
Qed.
