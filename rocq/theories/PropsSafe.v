(** Properties C91 and C92: the planned targets of a search keep clear of the walls. *)
From Coq Require Import ZArith Reals List Bool Lia Lra.
From Verif Require Import Base WallsModel WallsSpec SearchModel SearchSpec ExploreModel ExploreProofs RunModel RunSpec Num NumLemmas ControlModel TrajModel TrajSpec RouteModel RouteSpec
  SafeSpec SafeProofs3 SafeProofs4 PropsRoute PropsExplore.
Import ListNotations.
Open Scope R_scope.

(** ** C91 *)

(** If every wall the mouse drives through is open, all targets of the joined trajectories keep a distance of
    39/100 of a square from every wall, pillar and the border. *)
Theorem C91_clear W open (w off stop : R) (g : @straight_generator Rops) (sg : @generator Rops) l e L :
  drivable w off stop g sg -> supported W -> walks W (SS (Co 0 1) North) l e -> open (Co 0 1) = true ->
  Forall (fun sk => open (ss_coord (fst sk)) = true) l -> open (ss_coord e) = true ->
  serves (@search_route Rops w off g sg stop l) L -> Forall (clear W open w (39 / 100 * w)) L.
Proof.
  destruct g as [g p]. unfold drivable. cbn [sg_gen sg_period]. intros (Hw & Ho & Hp & Hvp & Hst & Lg & Ls & Bs & Rs & Re & Rf) HW WK O0 OL OE SE.
  exact (route_clear W open w off p stop g sg Hw Ho Hp Lg Ls Bs Hvp Hst Rs Re Rf l e L HW (first_valid W HW) WK OL OE O0 SE).
Qed.
Print Assumptions C91_clear.

Definition test_g := @StraightGenerator Rops (@Generator Rops (3 / 10)%R 10%R 100%R) (1 / 1000)%R.
Definition test_sg := @Generator Rops (8 * PI)%R (80 * PI)%R (160 * PI)%R.
Lemma test_drivable : drivable (9 / 100) (1 / 100) (1 / 10) test_g test_sg.
Proof.
  destruct C89_case as (l & e & _ & _ & _ & O & VP & LG & LS & BE & RM & RN & RF & _).
  split; [reflexivity|]. split; [exact O|]. split; [cbn; lra|]. split; [exact VP|]. split; [lra|].
  repeat split; try assumption; try apply LG; try apply LS; try apply RM; try apply RN.
Qed.

(** a way with all four kinds of moves through a maze in which only its own walls are open *)
Example C91_case : let open c := existsb (coord_eqb c) [Co 0 1; Co 0 3; Co 1 4; Co 2 5; Co 2 3] in
  exists l e L, length l = 5%nat /\ walks 16 (SS (Co 0 1) North) l e /\ Forall (fun sk => open (ss_coord (fst sk)) = true) l /\ open (ss_coord e) = true /\
    serves (@search_route Rops (9 / 100)%R (1 / 100)%R test_g test_sg (1 / 10)%R l) L /\ Forall (clear 16 open (9 / 100) (39 / 100 * (9 / 100))) L /\
    solid 16 open (Co 1 2) /\ solid 16 open (Co (-1) 0).
Proof.
  cbv zeta. set (open := fun c => existsb (coord_eqb c) _).
  set (l := [(SS (Co 0 1) North, Front); (SS (Co 0 3) North, Right); (SS (Co 1 4) East, Left); (SS (Co 2 5) North, Back); (SS (Co 2 5) South, Front)]).
  set (e := SS (Co 2 3) South).
  assert (WK : walks 16 (SS (Co 0 1) North) l e).
  { unfold l.
    apply walks_cons with (n := Co 0 3) (s' := SS (Co 0 3) North); [vm_compute; repeat split; try reflexivity; discriminate | reflexivity|].
    apply walks_cons with (n := Co 1 4) (s' := SS (Co 1 4) East); [vm_compute; repeat split; try reflexivity; discriminate | reflexivity|].
    apply walks_cons with (n := Co 2 5) (s' := SS (Co 2 5) North); [vm_compute; repeat split; try reflexivity; discriminate | reflexivity|].
    apply walks_cons with (n := Co 2 3) (s' := SS (Co 2 5) South); [vm_compute; repeat split; try reflexivity; discriminate | reflexivity|].
    apply walks_cons with (n := Co 2 3) (s' := SS (Co 2 3) South); [vm_compute; repeat split; try reflexivity; discriminate | reflexivity|].
    constructor. }
  assert (OL : Forall (fun sk : search_state * traj_kind => open (ss_coord (fst sk)) = true) l) by (unfold l; repeat constructor).
  assert (HW : supported 16) by (unfold supported; auto 8).
  assert (TD := test_drivable). assert (TD' := TD). destruct TD' as (H1 & H2 & H3 & H4 & H5 & H6 & H7 & H8 & H9 & H10 & H11).
  destruct (C89_search 16 (9 / 100) (1 / 100) (1 / 10) test_g test_sg l e HW (first_valid 16 HW) WK H1 H2 H3 H4 H5 H6 H7 H8 H9 H10 H11) as (L & SE & _).
  exists l, e, L. split; [reflexivity|]. split; [exact WK|]. split; [exact OL|]. split; [reflexivity|]. split; [exact SE|].
  split; [exact (C91_clear 16 open _ _ _ _ _ l e L TD HW WK eq_refl OL eq_refl SE)|].
  split; split; reflexivity.
Qed.

(** ** C92 *)

(** In every exploration of every maze the targets of the moves made so far keep this distance from the walls
    the maze really has; every exploration ends, and its moves can be driven. *)
Theorem C92_exploration W goals wall se w0 extra (w off stop : R) (g : @straight_generator Rops) (sg : @generator Rops) :
  drivable w off stop g sg -> supported W -> Forall (valid W) goals ->
  (forall c b, valid W c -> fresh W c = Checked b -> wall c = b) ->
  searcher_new W (Co 0 1) goals = Ret se -> walls_new W = Ret w0 ->
  (forall i, Forall (valid W) (extra i)) ->
  (forall l we e, explored W se wall extra w0 (SS (Co 0 1) North) l we e ->
     exists L, serves (@search_route Rops w off g sg stop l) L /\ Forall (clear W (fun c => negb (wall c)) w (39 / 100 * w)) L) /\
  exists n o we e l, explore n W se wall extra w0 (SS (Co 0 1) North) = Ret (o, we, e) /\
    explored W se wall extra w0 (SS (Co 0 1) North) l we e.
Proof.
  intros D HW Hg Hf Hse Hw0 Fe. assert (Hs := first_valid W HW). assert (I0 := first_inv W wall w0 HW Hf Hw0).
  split.
  - intros l we e X. destruct (explored_inv W HW (Co 0 1) Hs goals Hg se Hse wall _ _ _ _ _ _ X Fe (ex_intro _ _ I0)) as (WK & OL & OE).
    assert (D' := D). destruct D' as (H1 & H2 & H3 & H4 & H5 & H6 & H7 & H8 & H9 & H10 & H11).
    destruct (C89_search W w off stop g sg l e HW Hs WK H1 H2 H3 H4 H5 H6 H7 H8 H9 H10 H11) as (L & SE & _).
    exists L. split; [exact SE|].
    refine (C91_clear W (fun c => negb (wall c)) w off stop g sg l e L D HW WK _ OL OE SE).
    assert (IO := i_open _ _ _ _ _ _ I0). cbn [ss_coord first_state] in IO. rewrite IO. reflexivity.
  - destruct (explore_ok W goals wall se w0 extra HW Hg Hf Hse Hw0 Fe) as (n & o & we & e & E & _).
    destruct (explore_explored W HW (Co 0 1) Hs goals Hg se Hse wall n _ _ _ _ _ _ E Fe (ex_intro _ _ I0)) as (l & X).
    exists n, o, we, e, l. split; assumption.
Qed.
Print Assumptions C92_exploration.

(** the first moves in the maze of C23, which meets the hypotheses *)
Example C92_case : drivable (9 / 100) (1 / 100) (1 / 10) test_g test_sg /\ supported 4 /\ Forall (valid 4) x4_goals /\
  (forall c b, valid 4 c -> fresh 4 c = Checked b -> x4_wall c = b) /\
  exists se w0, searcher_new 4 (Co 0 1) x4_goals = Ret se /\ walls_new 4 = Ret w0 /\
    exists we, explored 4 se x4_wall (fun _ => []) w0 (SS (Co 0 1) North)
      [(SS (Co 0 1) North, Front); (SS (Co 0 3) North, Front); (SS (Co 0 5) North, Right)] we (SS (Co 1 6) East).
Proof.
  destruct C23_case as (HW & Hg & Hf & _). split; [exact test_drivable|]. split; [exact HW|]. split; [exact Hg|]. split; [exact Hf|].
  eexists. eexists. split; [vm_compute; reflexivity|]. split; [vm_compute; reflexivity|]. eexists.
  eapply explored_cons with (n := Co 0 3) (s' := SS (Co 0 3) North); [vm_compute; reflexivity | vm_compute; repeat split; try reflexivity; discriminate | reflexivity|].
  eapply explored_cons with (n := Co 0 5) (s' := SS (Co 0 5) North); [vm_compute; reflexivity | vm_compute; repeat split; try reflexivity; discriminate | reflexivity|].
  eapply explored_cons with (n := Co 1 6) (s' := SS (Co 1 6) East); [vm_compute; reflexivity | vm_compute; repeat split; try reflexivity; discriminate | reflexivity|].
  apply explored_nil.
Qed.
