(** The targets of an exploration keep clear of the walls of the maze. *)
From Coq Require Import ZArith List Bool Lia.
From Verif Require Import Base SearchModel SearchSpec SearchThm2 SearchState WallsModel WallsSpec ExploreModel ExploreProofs RouteModel RouteSpec SafeSpec.
Import ListNotations.
Open Scope Z_scope.

Lemma next_in cs f c : next_coordinate cs f = Ret (NSome c) -> In c cs.
Proof.
  induction cs as [|d cs IH]; cbn [next_coordinate]; [discriminate|]. intros E.
  destruct (f d) as [[|[|]]| |]; try discriminate; cbn [bind] in E; [right; apply IH, E | left; congruence].
Qed.

Section Explored.
Variable W : Z.
Hypothesis HW : supported W.
Variable start : coord.
Hypothesis Hstart : valid W start.
Variable goals : list coord.
Hypothesis Hgoals : Forall (valid W) goals.
Variable se : searcher.
Hypothesis Hse : searcher_new W start goals = Ret se.
Variable wall : coord -> bool.

Lemma explored_inv extra ws s l we e : explored W se wall extra ws s l we e -> (forall i, Forall (valid W) (extra i)) ->
  (exists kn, Inv W start wall kn ws s) ->
  walks W s l e /\ Forall (fun sk => negb (wall (ss_coord (fst sk))) = true) l /\ negb (wall (ss_coord e)) = true.
Proof.
  intros X. induction X as [extra ws s|extra ws s n k ws' s' l we e R V U X IH]; intros Fe (kn & I).
  - split; [constructor|]. split; [constructor|]. rewrite (i_open _ _ _ _ _ _ I). reflexivity.
  - destruct (round_ok W HW start Hstart goals Hgoals se Hse wall kn ws s (extra O) I (Fe O)) as (r & E & P).
    rewrite R in E. injection E as <-. cbn beta iota in P. destruct P as [I' _].
    destruct (IH (fun i => Fe (S i)) (ex_intro _ _ I')) as (A & B & C).
    split; [econstructor; eassumption|]. split; [|exact C]. constructor; [|exact B]. cbn [fst]. rewrite (i_open _ _ _ _ _ _ I). reflexivity.
Qed.

Lemma explored_end extra ws s l we e : explored W se wall extra ws s l we e -> (forall i, Forall (valid W) (extra i)) ->
  (exists kn, Inv W start wall kn ws s) -> exists kn, Inv W start wall kn we e.
Proof.
  intros X. induction X as [extra ws s|extra ws s n k ws' s' l we e R V U X IH]; intros Fe (kn & I); [exists kn; exact I|].
  destruct (round_ok W HW start Hstart goals Hgoals se Hse wall kn ws s (extra O) I (Fe O)) as (r & E & P).
  rewrite R in E. injection E as <-. cbn beta iota in P. destruct P as [I' _]. exact (IH (fun i => Fe (S i)) (ex_intro _ _ I')).
Qed.

Lemma explore_explored n : forall extra ws s o we e, explore n W se wall extra ws s = Ret (o, we, e) -> (forall i, Forall (valid W) (extra i)) ->
  (exists kn, Inv W start wall kn ws s) -> exists l, explored W se wall extra ws s l we e.
Proof.
  induction n as [|n IH]; intros extra ws s o we e E Fe (kn & I); [discriminate|]. cbn [explore] in E.
  destruct (round_ok W HW start Hstart goals Hgoals se Hse wall kn ws s (extra O) I (Fe O)) as (r & R & P).
  rewrite R in E. cbn [bind] in E. destruct r as [[ws' s']|o'].
  - destruct P as [I' _]. destruct (IH _ _ _ _ _ _ E (fun i => Fe (S i)) (ex_intro _ _ I')) as (l & X).
    assert (R' := R). unfold round in R'.
    destruct (search W se (ss_coord s) (walls_state W ws)) as [[| |cs]| |] eqn:SE; try discriminate. cbn [bind] in R'.
    destruct (reveal W wall ws _) as [w1| |]; try discriminate. cbn [bind] in R'.
    destruct (next_coordinate cs (walls_state W w1)) as [[| |c]| |] eqn:NC; try discriminate. cbn [bind] in R'.
    destruct (ss_update s c) as [[s1 [k|]]| |] eqn:U; try discriminate. cbn [bind] in R'. injection R' as -> ->.
    exists ((s, k) :: l). apply (explored_cons _ _ _ _ _ _ c k ws' s'); try assumption.
    destruct (search_candidates W HW start Hstart goals Hgoals se Hse (walls_state W ws) (ExploreProofs.ws wall kn)
      (fun d => read W HW wall kn ws d (i_map _ _ _ _ _ _ I)) _ (i_valid _ _ _ _ _ _ I) cs SE) as (_ & Hin & _).
    destruct (proj1 (Hin c) (next_in _ _ _ NC)) as (A & B & _). apply (adjacent_valid W (ss_coord s)); [apply (i_valid _ _ _ _ _ _ I) | exact A | exact B].
  - injection E as <- <- <-. exists []. constructor.
Qed.
End Explored.
