(** Runs for which the numbers leave room for all changes of speed. *)
From Coq Require Import ZArith Reals List Bool Lia Lra Psatz.
From Verif Require Import Base SearchModel SearchSpec RunModel RunSpec RunTraj RunDijk RunThm Num NumLemmas ControlModel TrajModel TrajSpec RouteModel RouteSpec
  TrajProofs2 TrajProofs3 TrajProofs4 RouteProofs5 FitSpec.
Import ListNotations.
Open Scope R_scope.

Section Fit.
Variables (w off run_v : R) (g : @straight_generator Rops).
Hypothesis Hw : 0 < w.
Hypothesis B : brisk w run_v g.
Let G := sg_gen g.
Let eps := g_v_max G / 2 ^ 25.

Lemma eps_pos : 0 < eps /\ eps < run_v.
Proof. destruct B as ((V & _) & _ & E & _). split; [unfold eps; apply Rdiv_lt_0_compat; [exact V | apply pow_lt; lra] | exact E]. Qed.

Lemma settle (d vs ve : R) : 156 / 1000 * w <= d -> 0 <= vs <= run_v -> 0 <= ve <= run_v ->
  let u := snd (@straight_generate_tv Rops g d vs ve) in ve - eps <= u <= ve /\ (ve <= vs -> u = ve) /\ room G d vs ve.
Proof.
  intros D S E. cbv zeta. destruct B as (L & V & _ & RD & BE). change (0 < run_v <= g_v_max (sg_gen g)) in V. change (limits (sg_gen g)) in L. destruct eps_pos as [E0 E1].
  rewrite straight_tv_snd, n0_R, generate_tv_snd by lra. rewrite (Rabs_pos_eq d) by lra.
  assert (RM : room G d vs ve).
  { split.
    - destruct (Rlt_dec vs ve); [left; assumption | right]. intros u Hu. eapply Rlt_le_trans; [apply RD; lra | exact D].
    - destruct (Rlt_dec 0 vs); [left; assumption | right]. unfold big_enough in BE. rewrite Rabs_pos_eq in BE by lra. fold G in BE. lra. }
  destruct (Rlt_dec vs ve) as [LT|NL].
  - destruct (limited_up (sg_gen g) d vs ve L ltac:(lra) ltac:(lra) ltac:(lra)) as (A1 & _ & A3 & _).
    specialize (A3 ve ltac:(lra) ltac:(eapply Rlt_le_trans; [apply RD; lra | exact D])).
    split; [|split; [lra | exact RM]]. split; [|lra].
    assert ((g_v_max (sg_gen g) - vs) / 2 ^ 25 <= eps) by (change eps with (g_v_max (sg_gen g) / 2 ^ 25); generalize (g_v_max (sg_gen g)); intros m; change R in m; clear - S m; assert (0 < / 2 ^ 25) by (apply Rinv_0_lt_compat, pow_lt; lra); unfold Rdiv; nra).
    lra.
  - rewrite (limited_down (sg_gen g) d vs ve L ltac:(lra)); [split; [lra | split; [reflexivity | exact RM]]|].
    intros u Hu. eapply Rlt_le_trans; [apply RD; lra | exact D].
Qed.

Lemma lengths k d : let q := @parameters Rops w off (Some k) d in 156 / 1000 * w <= l_start q /\ 156 / 1000 * w <= l_end q.
Proof. cbv zeta. unfold parameters, create_params. destruct k, d; cbn [l_start l_end]; rops; lra. Qed.

Lemma leg_fits t v0 v1 v2 : match t with RStraight x | RStraightDiagonal x => (1 <= x)%Z | _ => True end ->
  0 <= v0 <= run_v -> 0 < v1 <= run_v -> 0 <= v2 <= run_v -> (eps < v1 \/ v1 <= v0) ->
  leg_room w off g t v0 v1 v2 /\ let u := snd (@run_leg Rops w off g t v0 v1 v2) in
  v2 - eps <= u <= v2 /\ (v2 <= v0 -> v2 <= v1 -> v1 <= v0 -> u = v2).
Proof.
  intros Hx H0 H1 H2 H3. destruct eps_pos as [E0 E1]. assert (V : run_v <= g_v_max (sg_gen g)) by apply B.
  unfold leg_room. cbv zeta. destruct t as [x|x|k d].
  - apply IZR_le in Hx. assert (D : 156 / 1000 * w <= IZR x * w) by nra.
    destruct (settle _ v0 v2 D H0 H2) as (A1 & A2 & A3).
    split; [split; [lra | split; [lra | exact A3]]|]. unfold run_leg. change (@of_int Rops x * w)%num with (IZR x * w)%R.
    destruct (straight_generate_tv g (IZR x * w)%R v0 v2) as [s u]. cbn [snd] in *. split; [exact A1 | intros; apply A2; assumption].
  - apply IZR_le in Hx. assert (S2 : 0 < sqrt 2 <= 3 / 2).
    { split; [apply sqrt_lt_R0; lra|]. replace (3 / 2) with (sqrt ((3 / 2) * (3 / 2))) by (apply sqrt_square; lra). apply sqrt_le_1_alt. lra. }
    assert (D : 156 / 1000 * w <= IZR x * w / sqrt 2).
    { apply Rmult_le_reg_r with (sqrt 2); [lra|]. replace (IZR x * w / sqrt 2 * sqrt 2) with (IZR x * w) by (field; lra). nra. }
    destruct (settle _ v0 v2 D H0 H2) as (A1 & A2 & A3).
    split; [split; [lra | split; [lra | exact A3]]|]. unfold run_leg.
    replace (@of_int Rops x * w / @nsqrt Rops n2)%num with (IZR x * w / sqrt 2)%R by (rops; replace (2 / 1) with 2 by field; reflexivity).
    destruct (straight_generate_tv g (IZR x * w / sqrt 2)%R v0 v2) as [s u]. cbn [snd] in *. split; [exact A1 | intros; apply A2; assumption].
  - destruct (lengths k d) as [L1 L2]. unfold run_leg. set (q := @parameters Rops w off (Some k) d) in *.
    destruct (settle _ v0 v1 L1 H0 ltac:(lra)) as (A1 & A2 & A3). unfold generate_slalom_tv.
    destruct (straight_generate_tv g (l_start q) v0 v1) as [s u]. cbn [snd] in *.
    assert (U : 0 < u) by (destruct H3 as [H3|H3]; [lra | rewrite (A2 H3); lra]).
    destruct (settle _ u v2 L2 ltac:(lra) H2) as (C1 & C2 & C3).
    split; [split; [lra | split; [lra | split; [exact A3 | split; [exact U | exact C3]]]]|].
    destruct (straight_generate_tv g (l_end q) u v2) as [s2 u2]. cbn [snd] in *. split; [exact C1|].
    intros Q1 Q2 Q3. apply C2. rewrite (A2 Q3). exact Q2.
Qed.

(** the speed before move [i] of a path of [n] nodes *)
Definition pace (n i : nat) (v : R) : Prop :=
  0 <= v <= run_v /\ (i = 0%nat -> v = 0) /\ (i <> 0%nat -> 0 < v) /\ (i <> 0%nat -> (i + 2 = n)%nat \/ run_v - eps <= v).

Lemma lit_R a b : (@lit Rops a b) = IZR a / IZR (Zpos b). Proof. reflexivity. Qed.

Lemma fits W open n : supported W -> forall l a b goal, rchain W open (a :: b :: l) goal -> valid_node W a ->
  forall i v, (i + S (S (length l)) = n)%nat -> pace n i v ->
  route_room w off g run_v eps n (a :: b :: l) i v /\
  forall boxes ve, @run_route_from Rops w off g run_v n (a :: b :: l) i v = Ret (boxes, ve) ->
    ((4 <= n)%nat -> ve = 0) /\ ((n <= 3)%nat -> run_v - eps <= ve).
Proof.
  intros HW. destruct eps_pos as [E0 E1].
  induction l as [|b2 l IH]; intros a b goal CH Va i v Hn (P1 & P2 & P3 & P4).
  - inversion CH as [|? ? ? ? k t M CH']; subst. assert (TK := traj_ok W open a b k t HW Va M).
    assert (X : match t with RStraight x | RStraightDiagonal x => (1 <= x)%Z | _ => True end) by (destruct M; try exact I; assumption).
    cbn [length] in *. cbn [route_room run_route_from]. rewrite TK. cbn [bind].
    unfold run_speeds. destruct (Nat.leb i 1) eqn:I1.
    + apply Nat.leb_le in I1.
      destruct (leg_fits t v run_v run_v X P1 ltac:(lra) ltac:(lra) ltac:(left; exact E1)) as [LR (U & _)].
      split; [|intros boxes ve E; split; [intros; lia | intros _]; destruct (@run_leg Rops w off g t v run_v run_v) as [j v']; cbn [snd bind fst] in *; injection E as _ <-; lra].
      intros t' E. injection E as <-. rewrite (Rminus_diag_eq v v eq_refl), Rabs_R0.
      split; [lra|]. split; [destruct B as (_ & V & _); lra|]. split; [exact LR | exact I].
    + apply Nat.leb_gt in I1. replace (Nat.eqb (i + 2) (i + 2)) with true by (symmetry; apply Nat.eqb_refl).
      rewrite n0_R, lit_R. change (@mul Rops v (IZR 6666667 / IZR 10000000)%R) with (v * (IZR 6666667 / IZR 10000000))%R.
      specialize (P3 ltac:(lia)).
      destruct (leg_fits t v (v * (6666667 / 10000000)) 0 X P1 ltac:(lra) ltac:(lra) ltac:(right; lra)) as [LR (U1 & U2)].
      specialize (U2 ltac:(lra) ltac:(lra) ltac:(lra)).
      split.
      * intros t' E. injection E as <-. rewrite (Rminus_diag_eq v v eq_refl), Rabs_R0.
        split; [lra|]. split; [destruct B as (_ & V & _); lra|]. split; [exact LR | exact I].
      * intros boxes ve E. split; [intros _ | lia]. destruct (@run_leg Rops w off g t v (v * (6666667 / 10000000))%R 0%R) as [j v']. cbn [snd bind fst] in *. injection E as _ <-. exact U2.
  - inversion CH as [|? ? ? ? k t M CH']; subst.
    assert (TK := traj_ok W open a b k t HW Va M). assert (Vb := rmove_valid W open a b k t Va M).
    assert (X : match t with RStraight x | RStraightDiagonal x => (1 <= x)%Z | _ => True end) by (destruct M; try exact I; assumption).
    set (n := (i + S (S (length (b2 :: l))))%nat) in *.
    assert (S1 : exists v0 v1 v2, @run_speeds Rops run_v i n v = (v0, v1, v2) /\ Rabs (v - v0) <= eps /\ 0 <= v0 <= run_v /\
      leg_room w off g t v0 v1 v2 /\ pace n (S i) (snd (@run_leg Rops w off g t v0 v1 v2))).
    { unfold run_speeds. destruct (Nat.leb i 1) eqn:I1.
      - exists v, run_v, run_v. split; [reflexivity|]. rewrite (Rminus_diag_eq v v eq_refl), Rabs_R0. split; [lra|]. split; [exact P1|].
        destruct (leg_fits t v run_v run_v X P1 ltac:(lra) ltac:(lra) ltac:(left; exact E1)) as [LR (U & _)].
        split; [exact LR|]. unfold pace. split; [lra|]. split; [discriminate|]. split; [intros _; lra | intros _; right; lra].
      - apply Nat.leb_gt in I1. replace (Nat.eqb (i + 2) n) with false by (symmetry; apply Nat.eqb_neq; unfold n; cbn [length]; lia).
        specialize (P3 ltac:(lia)). specialize (P4 ltac:(lia)).
        assert (P5 : run_v - eps <= v) by (destruct P4 as [P4|P4]; [exfalso; revert P4; unfold n; cbn [length]; lia | exact P4]).
        destruct (Nat.eqb (i + 3) n) eqn:I3.
        + apply Nat.eqb_eq in I3. rewrite lit_R. change (@mul Rops v (5 / 10)%R) with (v * (5 / 10))%R.
          exists v, (v * (5 / 10)), (v * (5 / 10)). split; [reflexivity|]. rewrite (Rminus_diag_eq v v eq_refl), Rabs_R0. split; [lra|]. split; [exact P1|].
          destruct (leg_fits t v (v * (5 / 10)) (v * (5 / 10)) X P1 ltac:(lra) ltac:(lra) ltac:(right; lra)) as [LR (_ & U)].
          specialize (U ltac:(lra) ltac:(lra) ltac:(lra)). split; [exact LR|]. unfold pace.
          split; [rewrite U; lra|]. split; [discriminate|]. split; [intros _; rewrite U; lra | intros _; left; lia].
        + exists run_v, run_v, run_v. split; [reflexivity|]. split; [apply Rabs_le; lra|]. split; [lra|].
          destruct (leg_fits t run_v run_v run_v X ltac:(lra) ltac:(lra) ltac:(lra) ltac:(left; exact E1)) as [LR (U & _)].
          split; [exact LR|]. unfold pace. split; [lra|]. split; [discriminate|]. split; [intros _; lra | intros _; right; lra]. }
    destruct S1 as (v0 & v1 & v2 & ES & D & R0 & LR & PC).
    destruct (IH b b2 goal CH' Vb (S i) (snd (@run_leg Rops w off g t v0 v1 v2))) as [RR FE]; [unfold n; cbn [length]; lia | exact PC|].
    split.
    + cbn [route_room]. rewrite TK. intros t' E. injection E as <-. rewrite ES. split; [exact D|]. split; [destruct B as (_ & V & _); lra|]. split; [exact LR | exact RR].
    + intros boxes ve E. cbn [run_route_from] in E, FE. rewrite TK in E. cbn [bind] in E. rewrite ES in E.
      destruct (@run_leg Rops w off g t v0 v1 v2) as [j v']. cbn [snd] in *.
      match type of E with bind ?r _ = _ => destruct r as [[bs vv]| |] eqn:ER; cbn [bind] in E; try discriminate end.
      cbn [snd fst] in E. injection E as _ <-. exact (FE bs vv eq_refl).
Qed.
End Fit.
