(** The loop of the search test makes finitely many moves (C118). *)
From Coq Require Import ZArith Reals List Bool Lia.
From Verif Require Import Base SearchModel SearchSpec WallsModel WallsSpec Num NumLemmas ControlModel TrajModel DetectModel DetectSpec SimModel SimSpec RouteModel LoopModel
  ExploreModel ExploreProofs SearchSpec LoopSpec ResumeSpec CountSpec LoopCount PropsExplore PropsDriven SearchSpec.
Import ListNotations.
Open Scope Z_scope.

(** ** C118: however long the loop runs, with any controllers, estimators, trajectories and sensors, from an
    empty or a saved map, the planned state changes in at most 8 W^2 (2 W^2 + 1) of its rounds. *)
Theorem C118_bound W goals se tr (v : @search_setup Rops) (l : @search_vars Rops) k l' :
  let wall c := is_wall (tr c) in
  supported W -> Forall (valid W) goals -> searcher_new W (Co 0 1) goals = Ret se -> v_searcher v = se ->
  holds W (m_walls (l_simulator l)) tr -> (forall c b, valid W c -> fresh W c = Checked b -> wall c = b) ->
  begins W l \/ resumes W wall l -> makes W v l k l' -> Z.of_nat k <= 8 * (W * W) * (2 * (W * W) + 1).
Proof. intros wall HW Hg Hse Ev Ht Hf. exact (moves_bound W HW tr goals Hg se Hse Hf v l k l' Ev Ht). Qed.
Print Assumptions C118_bound.

(** All rounds that the loop runs through are counted. *)
Theorem C118_rounds {K : ops} W (v : search_setup) n l l' : search_rounds n W v l = Ret (inl l') -> exists k, makes W v l k l'.
Proof. exact (rounds_make W v n l l'). Qed.
Print Assumptions C118_rounds.

(** From some round on the mouse plans no move any more, however long the loop still runs. *)
Theorem C118_rests W goals se tr (v : @search_setup Rops) (l : @search_vars Rops) :
  let wall c := is_wall (tr c) in
  supported W -> Forall (valid W) goals -> searcher_new W (Co 0 1) goals = Ret se -> v_searcher v = se ->
  holds W (m_walls (l_simulator l)) tr -> (forall c b, valid W c -> fresh W c = Checked b -> wall c = b) ->
  begins W l \/ resumes W wall l ->
  exists N l1, search_rounds N W v l = Ret (inl l1) /\
    forall n l2, search_rounds n W v l1 = Ret (inl l2) -> l_robot l2 = l_robot l1.
Proof.
  intros wall HW Hg Hse Ev Ht Hf Hb. apply (bounded_rests W v (Z.to_nat (8 * (W * W) * (2 * (W * W) + 1)))). intros k l' M.
  pose proof (moves_bound W HW tr goals Hg se Hse Hf v l k l' Ev Ht Hb M). lia.
Qed.
Print Assumptions C118_rests.

(** The maze of 4 by 4 squares: all that is asked for, and two rounds, in one of which a move is made. *)
Example C118_case : exists se tr (v : @search_setup Rops) l l', searcher_new 4 (Co 0 1) x4_goals = Ret se /\ supported 4 /\ Forall (valid 4) x4_goals /\ v_searcher v = se /\
  holds 4 (m_walls (l_simulator l)) tr /\ (forall c b, valid 4 c -> fresh 4 c = Checked b -> is_wall (tr c) = b) /\
  resumes 4 (fun c => is_wall (tr c)) l /\ search_rounds 2 4 v l = Ret (inl l') /\ exists k, makes 4 v l (S k) l'.
Proof.
  destruct C116_case as (se & w & w1 & d & b & tr & A1 & A2 & A3 & A4 & _ & A6 & A7 & _ & _ & _ & l' & E & R).
  exists se, tr, (drive_setup se), (drive_start w w1 d b), l'.
  split; [exact A1|]. split; [exact A2|]. split; [exact A3|]. split; [reflexivity|]. split; [exact A4|]. split; [exact A6|]. split; [exact A7|].
  split; [exact E|]. destruct (rounds_make _ _ _ _ _ E) as ([|k] & M); [exfalso|exists k; exact M].
  pose proof (makes_none _ _ _ _ _ M eq_refl) as Y. rewrite R in Y.
  apply (f_equal (fun s => match s with SS (Co _ y) _ => y end)) in Y. cbn in Y. discriminate Y.
Qed.
