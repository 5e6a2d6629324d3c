(** What an exploration once knows stays in its map. *)
From Coq Require Import ZArith List Bool Lia.
From Verif Require Import Base SearchModel SearchSpec SearchCoord SearchThm2 WallsModel WallsSpec ExploreModel ExploreProofs SafeSpec SafeProofs4.
Import ListNotations.
Open Scope Z_scope.

Section Keep.
Variable W : Z.
Hypothesis HW : supported W.
Variable start : coord.
Hypothesis Hstart : valid W start.
Variable goals : list coord.
Hypothesis Hgoals : Forall (valid W) goals.
Variable se : searcher.
Hypothesis Hse : searcher_new W start goals = Ret se.
Variable wall : coord -> bool.
Lemma explored_keep extra ws s l we e kn : explored W se wall extra ws s l we e -> (forall i, Forall (valid W) (extra i)) ->
  Inv W start wall kn ws s -> exists kn', Inv W start wall kn' we e /\ forall c, kn c = true -> kn' c = true.
Proof.
  intros X. revert kn. induction X as [extra ws s|extra ws s n k ws' s' l we e R V U X IH]; intros kn Fe I; [exists kn; auto|].
  destruct (round_ok W HW start Hstart goals Hgoals se Hse wall kn ws s (extra O) I (Fe O)) as (r & E & P).
  rewrite R in E. injection E as <-. cbn beta iota in P. destruct P as [I' _].
  destruct (IH _ (fun i => Fe (S i)) I') as (kn' & J & K). exists kn'. split; [exact J|]. intros c Hc. apply K, learn_mono, Hc.
Qed.
End Keep.
