(** Properties C95, C96 and C97: what the planners find is what can be reached from square to square. *)
From Coq Require Import ZArith List Bool Lia.
From Verif Require Import Base SearchModel SearchSpec SearchCoord SearchThm2 RunModel RunSpec RunThm Maze16 WallsModel WallsSpec ExploreModel ExploreProofs SafeSpec SafeProofs4
  ReachSpec ReachProofs ReachProofs2 ReachProofs3 ReachProofs4 PropsSearch PropsExplore.
Import ListNotations.
Open Scope Z_scope.

(** ** C95 *)

(** A run is planned exactly if one can go from square to square to a goal: the moves of a fast run lose no
    way, though they cannot turn on the spot.  The start has one exit, the one the mouse faces. *)
Theorem C95_run_complete W open is_wall is_goal cost cmax tie B s p squares :
  let start := Nde (2 * fst s) (2 * snd s) (match p with North => PN | East => PE | South => PS | West => PW end) in
  supported W -> within_memory W open start B cost -> (forall c, valid W c -> is_wall c = Ret (negb (open c))) ->
  payable W B cost cmax -> ends_in W is_goal squares ->
  in_maze W s -> (forall q, passage W open s q -> q = p) ->
  let r := run_path W is_goal is_wall cost cmax tie start in
  ((exists path c, r = Ret (Some (path, c))) <-> exists e, In e squares /\ linked W open s e) /\
  (r = Ret None <-> forall e, In e squares -> ~ linked W open s e).
Proof.
  cbv zeta. change (Nde _ _ _) with (start_node s p). intros HW H8 Hok Hpay He Hs Hx.
  assert (A : (exists path c, run_path W is_goal is_wall cost cmax tie (start_node s p) = Ret (Some (path, c))) -> exists e, In e squares /\ linked W open s e).
  { intros (path & c & E). destruct (some_linked W open is_wall is_goal cost cmax B tie s p squares HW Hok Hpay Hs He path c E) as (g & _ & _ & I & L). eauto. }
  assert (C : (exists e, In e squares /\ linked W open s e) -> exists path c, run_path W is_goal is_wall cost cmax tie (start_node s p) = Ret (Some (path, c))).
  { intros (e & I & L). exact (linked_some W open is_wall is_goal cost cmax B tie s p squares HW Hok Hpay Hs He Hx e H8 I L). }
  split; [split; assumption|]. split.
  - intros E e I L. destruct C as (path & c & E'); [eauto | congruence].
  - intros N.
    destruct (plan_answers W open is_wall is_goal cost cmax B tie s p squares HW Hok Hpay Hs He Hx H8) as [(path & c & E)|[E _]]; [|exact E].
    destruct A as (e & I & L); [eauto | destruct (N e I L)].
Qed.
Print Assumptions C95_run_complete.

(** a goal in the north-west corner beside a zigzag: the way is found; with the wall before it closed none is *)
Definition zig_open (c : coord) : bool := existsb (coord_eqb c) [Co 0 1; Co 1 2; Co 2 3; Co 1 4; Co 0 5].
Definition zig_shut (c : coord) : bool := zig_open c && negb (coord_eqb c (Co 0 5)).
Definition zig_goal (n : node) : bool := existsb (node_eqb n) [Nde 0 6 PN; Nde 0 6 PE; Nde 0 6 PS; Nde 0 6 PW].

Lemma zig_ends : ends_in 4 zig_goal [(0, 3)].
Proof.
  intros [x y p] (V1 & V2 & V3). cbn [nx ny np] in *. split.
  - unfold zig_goal. cbn [existsb]. unfold node_eqb. cbn [nx ny np]. intros H.
    destruct (x =? 0) eqn:X; [|cbn in H; discriminate]. destruct (y =? 6) eqn:Y; [|cbn in H; discriminate].
    apply Z.eqb_eq in X, Y. subst. destruct p; cbn in *; try discriminate; auto.
  - intros [D [E|[]]]. injection E as E1 E2. rewrite D in V3. destruct V3 as [O1 O2].
    apply Z.even_spec in O1 as [a ->]. apply Z.even_spec in O2 as [b ->].
    rewrite (Z.mul_comm 2 a), Z.div_mul in E1 by lia. rewrite (Z.mul_comm 2 b), Z.div_mul in E2 by lia. subst. destruct p; try discriminate; reflexivity.
Qed.
(** the costs of tests/run.rs 146-154 *)
Definition move_cost (k : ekind) : Z :=
  match k with KStraight x => Z.abs x * 10 | KStraightDiagonal x => Z.abs x * 7 | KSlalom45 => 12 | KSlalom90 => 15
  | KSlalom135 => 20 | KSlalom180 => 25 | KSlalomDiagonal90 => 15 end.
Lemma test_payable : payable 4 25 move_cost 65535.
Proof.
  split; [intros k; destruct k; cbn; lia|]. split; [|lia]. intros k H. cbn [In] in H. decompose [or] H; subst; try contradiction; cbn; lia.
Qed.

Example C95_case : supported 4 /\
  payable 4 25 move_cost 65535 /\
  ends_in 4 zig_goal [(0, 3)] /\ in_maze 4 (0, 0) /\
  (forall q, passage 4 zig_open (0, 0) q -> q = North) /\ (forall q, passage 4 zig_shut (0, 0) q -> q = North) /\
  linked 4 zig_open (0, 0) (0, 3) /\
  run_path 4 zig_goal (fun c => Ret (negb (zig_open c))) move_cost 65535 (fun _ => O) (Nde 0 0 PN)
    = Ret (Some ([Nde 0 0 PN; Nde 1 2 PNE; Nde 1 4 PNW; Nde 0 6 PN], 39)) /\
  run_path 4 zig_goal (fun c => Ret (negb (zig_shut c))) move_cost 65535 (fun _ => O) (Nde 0 0 PN) = Ret None.
Proof.
  split; [unfold supported; auto|]. split; [exact test_payable|]. split; [exact zig_ends|].
  split; [unfold in_maze; cbn; lia|]. split; [apply start_exit; reflexivity|]. split; [apply start_exit; reflexivity|].
  split.
  - exists [North; East; North; West; North]. repeat (apply way_cons; [split; [unfold in_maze; cbn; lia | reflexivity]|]; cbn). constructor.
  - split; vm_compute; reflexivity.
Qed.

(** a 16 x 16 maze of the repository with the goal and the costs of tests/run.rs 27-37 and 146-154 *)
Definition m16_goal (n : node) : bool := existsb (node_eqb n) [Nde 14 14 PN; Nde 14 14 PE; Nde 14 14 PS; Nde 14 14 PW].
Lemma m16_ends : ends_in 16 m16_goal [(7, 7)].
Proof.
  intros [x y p] (V1 & V2 & V3). cbn [nx ny np] in *. split.
  - unfold m16_goal. cbn [existsb]. unfold node_eqb. cbn [nx ny np]. intros H.
    destruct (x =? 14) eqn:X; [|cbn in H; discriminate]. destruct (y =? 14) eqn:Y; [|cbn in H; discriminate].
    apply Z.eqb_eq in X, Y. subst. destruct p; cbn in *; try discriminate; auto.
  - intros [D [E|[]]]. injection E as E1 E2. rewrite D in V3. destruct V3 as [O1 O2].
    apply Z.even_spec in O1 as [a ->]. apply Z.even_spec in O2 as [b ->].
    rewrite (Z.mul_comm 2 a), Z.div_mul in E1 by lia. rewrite (Z.mul_comm 2 b), Z.div_mul in E2 by lia. subst. destruct p; try discriminate; reflexivity.
Qed.
Lemma m16_payable : payable 16 25 move_cost 65535.
Proof. split; [apply test_payable|]. split; [apply test_payable | lia]. Qed.
Lemma m16_memory : within_memory 16 m16_open (Nde 0 0 PN) 25 move_cost.
Proof. right. exists m16_U, m16_ms. destruct m16_covers as (C & L1 & L2). split; [exact C|]. rewrite L1, L2. lia. Qed.
Lemma m16_linked : linked 16 m16_open (0, 0) (7, 7).
Proof.
  exists m16_way. unfold m16_way. repeat (apply way_cons; [split; [unfold in_maze; cbn; lia | vm_compute; reflexivity]|]; cbn). constructor.
Qed.
Example C95_sixteen : supported 16 /\ within_memory 16 m16_open (Nde 0 0 PN) 25 move_cost /\ payable 16 25 move_cost 65535 /\
  ends_in 16 m16_goal [(7, 7)] /\ in_maze 16 (0, 0) /\ (forall q, passage 16 m16_open (0, 0) q -> q = North) /\
  linked 16 m16_open (0, 0) (7, 7).
Proof.
  split; [unfold supported; auto 10|]. split; [exact m16_memory|]. split; [exact m16_payable|]. split; [exact m16_ends|].
  split; [unfold in_maze; cbn; lia|]. split; [apply start_exit; reflexivity | exact m16_linked].
Qed.

(** ** C96 *)

(** Both planners find something in the same mazes: the search planner from the first wall to the walls of the
    goal squares and the run planner from the first square. *)
Theorem C96_planners_agree W open is_wall is_goal cost cmax tie B goals squares se :
  supported W -> within_memory W open (Nde 0 0 PN) B cost -> (forall c, valid W c -> is_wall c = Ret (negb (open c))) ->
  open (Co 0 1) = true -> open (Co 1 0) = false ->
  payable W B cost cmax -> ends_in W is_goal squares -> aims_at W open goals squares ->
  Forall (in_maze W) squares -> ~ In (0, 0) squares -> ~ In (0, 1) squares ->
  searcher_new W (Co 0 1) goals = Ret se ->
  ((exists path, shortest_path W se is_wall = Ret (Some path)) <->
   (exists path c, run_path W is_goal is_wall cost cmax tie (Nde 0 0 PN) = Ret (Some (path, c)))) /\
  ((exists path, shortest_path W se is_wall = Ret (Some path)) <-> exists e, In e squares /\ linked W open (0, 0) e).
Proof.
  intros HW H8 Hok O1 O2 Hpay He [Ha1 Ha2] Hq N0 N1 Hse.
  assert (HW' := supported_bounds W HW). rewrite Forall_forall in Ha1, Hq.
  assert (Vs := first_valid W HW).
  assert (Hg : Forall (valid W) goals) by (apply Forall_forall; intros g G; apply (Ha1 g G)).
  assert (S0 : in_maze W (0, 0)) by (unfold in_maze; cbn; lia).
  assert (S : (exists path, shortest_path W se is_wall = Ret (Some path)) <-> exists e, In e squares /\ linked W open (0, 0) e).
  { split.
    - intros (path & E). destruct (C11_path_legal W (Co 0 1) goals se is_wall open HW Vs Hg Hse Hok path E) as (g & l & _ & _ & G & _ & R).
      destruct (Ha1 g G) as (_ & e & I & T). exists e. split; [exact I|]. exact (route_linked W open g l e ltac:(lia) O1 R T (Hq e I)).
    - intros (e & I & L). destruct L as (l & Wy).
      destruct (way_wall W open (0, 0) l e Wy S0 ltac:(intros <-; contradiction)) as (d & V & O & T).
      destruct (linked_route W open e ltac:(lia) O2 (ex_intro _ l Wy) d V O T) as (r & R).
      destruct (path_ok W HW (Co 0 1) Vs goals Hg se Hse is_wall open Hok) as [[_ U]|(l' & E & _)]; [|eauto].
      destruct (U d r (Ha2 e d I V T O)); [|exact R].
      intros ->. cbn in T. destruct T as [->| ->]; contradiction. }
  split; [|exact S]. rewrite S.
  destruct (C95_run_complete W open is_wall is_goal cost cmax tie B (0, 0) North squares HW H8 Hok Hpay He S0 (start_exit W open O2)) as [R _].
  symmetry. exact R.
Qed.
Print Assumptions C96_planners_agree.

Lemma zig_aims (open : coord -> bool) : open (Co 1 6) = false -> open (Co 0 7) = false -> aims_at 4 open [Co 0 5] [(0, 3)].
Proof.
  intros O1 O2. split.
  - repeat constructor; cbn; try lia. exists (0, 3). split; [left; reflexivity | right; reflexivity].
  - intros e g [<-|[]] V T O. destruct V as [B P]. apply odd_mod in P. apply (close_touches g _ P) in T. destruct g as [x y]. unfold close, on_board in *. cbn [cx cy fst snd] in *.
    assert ((x = 0 /\ y = 5) \/ (x = 1 /\ y = 6) \/ (x = 0 /\ y = 7)) as [[-> ->]|[[-> ->]|[-> ->]]] by lia; [left; reflexivity | congruence | congruence].
Qed.
Example C96_case : exists se, searcher_new 4 (Co 0 1) [Co 0 5] = Ret se /\
  aims_at 4 zig_open [Co 0 5] [(0, 3)] /\ aims_at 4 zig_shut [Co 0 5] [(0, 3)] /\
  shortest_path 4 se (fun c => Ret (negb (zig_open c))) = Ret (Some [Co 0 1; Co 2 3; Co 0 5]) /\
  shortest_path 4 se (fun c => Ret (negb (zig_shut c))) = Ret None.
Proof.
  eexists. split; [vm_compute; reflexivity|]. split; [apply zig_aims; reflexivity|]. split; [apply zig_aims; reflexivity|].
  split; vm_compute; reflexivity.
Qed.

(** ** C97 *)

(** The whole way: in a maze with a way from square to square to a goal the exploration ends with a map on which
    a run is planned, and the moves of this run are open in the maze itself.  In a maze without one it fails. *)
Theorem C97_solved W wall is_goal cost cmax tie B goals squares se w0 extra :
  supported W -> within_memory W (fun c => negb (wall c)) (Nde 0 0 PN) B cost -> (forall c b, valid W c -> fresh W c = Checked b -> wall c = b) ->
  payable W B cost cmax -> ends_in W is_goal squares -> aims_at W (fun c => negb (wall c)) goals squares ->
  Forall (in_maze W) squares -> ~ In (0, 0) squares -> ~ In (0, 1) squares ->
  searcher_new W (Co 0 1) goals = Ret se -> walls_new W = Ret w0 -> (forall i, Forall (valid W) (extra i)) ->
  exists n o we s, explore n W se wall extra w0 (SS (Co 0 1) North) = Ret (o, we, s) /\
    ((exists e, In e squares /\ linked W (fun c => negb (wall c)) (0, 0) e) -> o = Found) /\
    ((forall e, In e squares -> ~ linked W (fun c => negb (wall c)) (0, 0) e) -> o = Failed) /\
    (o = Found -> exists path c g,
      run_path W is_goal (fun c => let* t := walls_state W we c in Ret (negb (is_checked_false t))) cost cmax tie (Nde 0 0 PN) = Ret (Some (path, c)) /\
      is_goal g = true /\ In (nx g / 2, ny g / 2) squares /\ rpath W (fun c => negb (wall c)) cost cmax (Nde 0 0 PN) path g c).
Proof.
  intros HW H8 Hf Hpay He Ha Hq N0 N1 Hse Hw0 Fe.
  assert (HW' := supported_bounds W HW). assert (Vs := first_valid W HW).
  assert (Hg : Forall (valid W) goals) by (destruct Ha as [Ha _]; revert Ha; apply Forall_impl; intros g G; apply G).
  assert (S0 : in_maze W (0, 0)) by (unfold in_maze; cbn; lia).
  assert (V10 : valid W (Co 1 0)) by (repeat split; cbn; lia).
  assert (W01 : wall (Co 0 1) = false) by (apply Hf; [exact Vs | reflexivity]).
  assert (W10 : wall (Co 1 0) = true) by (apply Hf; [exact V10 | reflexivity]).
  destruct (C23_exploration W goals wall se w0 extra HW Hg Hf Hse Hw0 Fe) as (n & o & we & s & E & _ & P).
  exists n, o, we, s. split; [exact E|].
  assert (I0 := first_inv W wall w0 HW Hf Hw0).
  destruct (explore_explored W HW (Co 0 1) Vs goals Hg se Hse wall n extra w0 (SS (Co 0 1) North) o we s E Fe (ex_intro _ _ I0)) as (l & X).
  destruct (explored_keep W HW (Co 0 1) Vs goals Hg se Hse wall extra w0 _ l we s _ X Fe I0) as (kn & I & K).
  assert (K1 : kn (Co 0 1) = true) by (apply K; reflexivity). assert (K2 : kn (Co 1 0) = true) by (apply K; reflexivity).
  set (isw := fun c => let* t := walls_state W we c in Ret (negb (is_checked_false t))) in *.
  set (op := fun c => kn c && negb (wall c)).
  assert (Hok : forall c, valid W c -> isw c = Ret (negb (op c))).
  { intros x V. unfold isw. rewrite (read W HW wall kn we x (i_map _ _ _ _ _ _ I)) by apply V. rewrite (ws_valid W) by exact V.
    unfold st, op. cbn [bind]. destruct (kn x), (wall x); reflexivity. }
  assert (Mo : forall c, op c = true -> negb (wall c) = true) by (intros x Hx; apply andb_prop in Hx; apply Hx).
  assert (Ha' : aims_at W op goals squares) by (destruct Ha as [A1 A2]; split; [exact A1 | intros e g G1 G2 G3 G4; apply (A2 e g G1 G2 G3), Mo, G4]).
  assert (O1 : op (Co 0 1) = true) by (unfold op; rewrite K1, W01; reflexivity).
  assert (O2 : op (Co 1 0) = false) by (unfold op; rewrite W10, andb_false_r; reflexivity).
  destruct (C96_planners_agree W op isw is_goal cost cmax tie B goals squares se HW
    (memory_mono W op (fun c => negb (wall c)) (Nde 0 0 PN) B cost Mo H8) Hok O1 O2 Hpay He Ha' Hq N0 N1 Hse) as [AG _].
  assert (O1' : negb (wall (Co 0 1)) = true) by (rewrite W01; reflexivity).
  assert (O2' : negb (wall (Co 1 0)) = false) by (rewrite W10; reflexivity).
  destruct (C96_planners_agree W (fun c => negb (wall c)) (fun c => Ret (negb (negb (wall c)))) is_goal cost cmax tie B goals squares se HW H8
    (fun c _ => eq_refl) O1' O2' Hpay He Ha Hq N0 N1 Hse) as [_ TR].
  destruct (path_ok W HW (Co 0 1) Vs goals Hg se Hse (fun c => Ret (negb (negb (wall c)))) (fun c => negb (wall c)) (fun c _ => eq_refl))
    as [[NE U]|(l' & SE & BR)].
  - (* no route *)
    split; [|split].
    + intros H. apply TR in H. destruct H as (path & H). congruence.
    + intros _. destruct P as [(_ & l1 & _ & (g & G1 & G2 & G3) & _)|[F _]]; [destruct (U g l1 G1 G2 G3) | exact F].
    + intros ->. destruct P as [(_ & l1 & _ & (g & G1 & G2 & G3) & _)|[F _]]; [destruct (U g l1 G1 G2 G3) | discriminate F].
  - assert (PF : o = Found /\ exists l, shortest_path W se isw = Ret (Some (Co 0 1 :: l))).
    { destruct P as [(F & l1 & E1 & _)|[_ U]]; [split; [exact F | exists l1; exact E1]|]. destruct BR as [[(g & G1 & G2 & G3) _] _]. destruct (U g l' G1 G2 G3). }
    destruct PF as [F (l1 & E1)]. split; [intros _; exact F|]. split.
    + intros H. destruct (proj1 TR (ex_intro _ _ SE)) as (e & J & L). destruct (H e J L).
    + intros _. destruct (proj1 AG (ex_intro _ _ E1)) as (path & c & RP).
      destruct (some_linked W op isw is_goal cost cmax B tie (0, 0) North squares HW Hok Hpay S0 He path c RP) as (g & G & RPa & J & _).
      exists path, c, g. split; [exact RP|]. split; [exact G|]. split; [exact J|].
      exact (rpath_mono W op (fun c => negb (wall c)) cost cmax _ path g c Mo RPa).
Qed.
Print Assumptions C97_solved.

(** the maze of C23 with the goal square (1, 0), and the same with it walled in *)
Definition x4_goal (n : node) : bool := existsb (node_eqb n) [Nde 2 0 PN; Nde 2 0 PE; Nde 2 0 PS; Nde 2 0 PW].
Lemma x4_ends : ends_in 4 x4_goal [(1, 0)].
Proof.
  intros [x y p] (V1 & V2 & V3). cbn [nx ny np] in *. split.
  - unfold x4_goal. cbn [existsb]. unfold node_eqb. cbn [nx ny np]. intros H.
    destruct (x =? 2) eqn:X; [|cbn in H; discriminate]. destruct (y =? 0) eqn:Y; [|cbn in H; discriminate].
    apply Z.eqb_eq in X, Y. subst. destruct p; cbn in *; try discriminate; auto.
  - intros [D [E|[]]]. injection E as E1 E2. rewrite D in V3. destruct V3 as [O1 O2].
    apply Z.even_spec in O1 as [a ->]. apply Z.even_spec in O2 as [b ->].
    rewrite (Z.mul_comm 2 a), Z.div_mul in E1 by lia. rewrite (Z.mul_comm 2 b), Z.div_mul in E2 by lia. subst. destruct p; try discriminate; reflexivity.
Qed.
Lemma x4_aims (open : coord -> bool) : open (Co 1 0) = false -> aims_at 4 open x4_goals [(1, 0)].
Proof.
  intros O1. split.
  - unfold x4_goals. constructor; [|constructor; [|constructor]].
    + split; [repeat split; cbn; lia|]. exists (1, 0). split; left; reflexivity.
    + split; [repeat split; cbn; lia|]. exists (1, 0). split; left; reflexivity.
  - intros e g [<-|[]] V T O. destruct V as [B P]. apply odd_mod in P. apply (close_touches g _ P) in T. destruct g as [x y]. unfold close, on_board in *. cbn [cx cy fst snd] in *.
    assert ((x = 2 /\ y = 1) \/ (x = 3 /\ y = 0) \/ (x = 1 /\ y = 0)) as [[-> ->]|[[-> ->]|[-> ->]]] by lia; [left; reflexivity | right; left; reflexivity | congruence].
Qed.
Example C97_case : payable 4 25 move_cost 65535 /\ ends_in 4 x4_goal [(1, 0)] /\
  aims_at 4 (fun c => negb (x4_wall c)) x4_goals [(1, 0)] /\ aims_at 4 (fun c => negb (x4_wall' c)) x4_goals [(1, 0)] /\
  linked 4 (fun c => negb (x4_wall c)) (0, 0) (1, 0) /\
  exists se w0 we s path c, searcher_new 4 (Co 0 1) x4_goals = Ret se /\ walls_new 4 = Ret w0 /\
    explore 40 4 se x4_wall (fun _ => []) w0 (SS (Co 0 1) North) = Ret (Found, we, s) /\
    run_path 4 x4_goal (fun c => let* t := walls_state 4 we c in Ret (negb (is_checked_false t))) move_cost 65535 (fun _ => O) (Nde 0 0 PN) = Ret (Some (path, c)) /\
    (length path > 4)%nat.
Proof.
  split; [exact test_payable|]. split; [exact x4_ends|]. split; [apply x4_aims; reflexivity|]. split; [apply x4_aims; reflexivity|].
  split.
  - exists [North; North; North; East; East; East; South; South; West; North; West; South; South].
    repeat (apply way_cons; [split; [unfold in_maze; cbn; lia | vm_compute; reflexivity]|]; cbn). constructor.
  - eexists. eexists. eexists. eexists. eexists. eexists.
    split; [vm_compute; reflexivity|]. split; [vm_compute; reflexivity|]. split; [vm_compute; reflexivity|].
    split; [vm_compute; reflexivity|]. cbn. lia.
Qed.

(** the 16 x 16 maze above with the goals of tests/search.rs 28-34 and tests/run.rs 27-37 *)
Lemma m16_fresh c b : valid 16 c -> fresh 16 c = Checked b -> m16_wall c = b.
Proof.
  intros V F.
  assert (H : forallb (fun c => match fresh 16 c with Checked b => Bool.eqb (m16_wall c) b | _ => true end) (all_walls 16) = true) by (vm_compute; reflexivity).
  rewrite forallb_forall in H. specialize (H c (proj2 (all_walls_In 16 c) V)). rewrite F in H. apply Bool.eqb_prop, H.
Qed.
Lemma m16_aims : aims_at 16 (fun c => negb (m16_wall c)) [Co 15 14; Co 14 15] [(7, 7)].
Proof.
  split.
  - constructor; [|constructor; [|constructor]].
    + split; [repeat split; cbn; lia|]. exists (7, 7). split; left; reflexivity.
    + split; [repeat split; cbn; lia|]. exists (7, 7). split; left; reflexivity.
  - intros e g [<-|[]] V T O. destruct V as [B P]. apply odd_mod in P. apply (close_touches g _ P) in T. destruct g as [x y]. unfold close, on_board in *. cbn [cx cy fst snd] in *.
    assert ((x = 15 /\ y = 14) \/ (x = 14 /\ y = 15) \/ (x = 13 /\ y = 14) \/ (x = 14 /\ y = 13)) as [[-> ->]|[[-> ->]|[[-> ->]|[-> ->]]]] by lia;
      [left; reflexivity | right; left; reflexivity | discriminate O | discriminate O].
Qed.
Lemma m16_memory' : within_memory 16 (fun c => negb (m16_wall c)) (Nde 0 0 PN) 25 move_cost.
Proof.
  apply (memory_mono 16 (fun c => negb (m16_wall c)) m16_open); [|exact m16_memory].
  intros c H. unfold m16_wall in H. rewrite negb_involutive in H. exact H.
Qed.
Lemma m16_linked' : linked 16 (fun c => negb (m16_wall c)) (0, 0) (7, 7).
Proof.
  exists m16_way. unfold m16_way. repeat (apply way_cons; [split; [unfold in_maze; cbn; lia | vm_compute; reflexivity]|]; cbn). constructor.
Qed.
Example C97_sixteen : supported 16 /\ within_memory 16 (fun c => negb (m16_wall c)) (Nde 0 0 PN) 25 move_cost /\
  (forall c b, valid 16 c -> fresh 16 c = Checked b -> m16_wall c = b) /\ payable 16 25 move_cost 65535 /\ ends_in 16 m16_goal [(7, 7)] /\
  aims_at 16 (fun c => negb (m16_wall c)) [Co 15 14; Co 14 15] [(7, 7)] /\ linked 16 (fun c => negb (m16_wall c)) (0, 0) (7, 7) /\
  exists se w0, searcher_new 16 (Co 0 1) [Co 15 14; Co 14 15] = Ret se /\ walls_new 16 = Ret w0.
Proof.
  split; [unfold supported; auto 10|]. split; [exact m16_memory'|]. split; [exact m16_fresh|]. split; [exact m16_payable|]. split; [exact m16_ends|].
  split; [exact m16_aims|]. split; [exact m16_linked'|]. eexists. eexists. split; vm_compute; reflexivity.
Qed.
