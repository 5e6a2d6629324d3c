From Coq Require Import ZArith Reals List Bool Lra Lia Psatz.
From Flocq Require Import Core.
From Verif Require Import Base Num ControlModel ControlSpec ControlProofs ControlProofs2.
Import ListNotations.
Open Scope R_scope.

(** ** Polar coordinates *)

Lemma sqrt_pos_sq a : 0 < a -> 0 < sqrt a /\ sqrt a * sqrt a = a.
Proof. intros H. split; [apply sqrt_lt_R0, H|apply sqrt_sqrt; lra]. Qed.

Lemma sqrt_scale x y : x <> 0 -> sqrt (1 + (y / x)²) = sqrt (x * x + y * y) / Rabs x.
Proof.
  intros H. assert (0 < Rabs x) by (apply Rabs_pos_lt, H).
  rewrite <- (sqrt_Rsqr_abs x). rewrite <- sqrt_div_alt by (apply Rlt_0_sqr, H).
  f_equal. unfold Rsqr. field. exact H.
Qed.

Lemma polar x y : x <> 0 \/ y <> 0 ->
  let r := sqrt (x * x + y * y) in let t := Ratan2 y x in
  0 < r /\ x = r * cos t /\ y = r * sin t.
Proof.
  intros NZ r t.
  assert (P : 0 < x * x + y * y).
  { destruct NZ as [H|H]; [assert (0 < x * x) by nra|assert (0 < y * y) by nra]; nra. }
  assert (R : 0 < r) by (apply sqrt_lt_R0, P).
  split; [exact R|]. unfold t, Ratan2.
  assert (Q : x <> 0 -> sqrt (1 + (y / x)²) = r / Rabs x) by (apply sqrt_scale).
  destruct (Rlt_dec 0 x) as [X|X].
  - rewrite cos_atan, sin_atan, Q by lra. rewrite Rabs_pos_eq by lra. split; field; lra.
  - destruct (Rlt_dec x 0) as [X'|X'].
    + assert (C : cos (atan (y / x)) = - x / r).
      { rewrite cos_atan, Q by lra. rewrite Rabs_left by lra. field. lra. }
      assert (S : sin (atan (y / x)) = - y / r).
      { rewrite sin_atan, Q by lra. rewrite Rabs_left by lra. field. lra. }
      destruct (Rle_dec 0 y).
      * rewrite neg_cos, neg_sin, C, S. split; field; lra.
      * replace (atan (y / x) - PI) with (- (PI - atan (y / x))) by ring.
        rewrite cos_neg, sin_neg, Rtrigo_facts.cos_pi_minus, Rtrigo_facts.sin_pi_minus, C, S.
        split; field; lra.
    + assert (x = 0) by lra. subst x.
      assert (E : r = Rabs y).
      { unfold r. rewrite Rmult_0_l, Rplus_0_l. apply sqrt_Rsqr_abs. }
      destruct (Rlt_dec 0 y).
      * rewrite cos_PI2, sin_PI2, E, Rabs_pos_eq by lra. split; ring.
      * destruct (Rlt_dec y 0); [|exfalso; lra].
        rewrite cos_neg, sin_neg, cos_PI2, sin_PI2, E, Rabs_left by lra. split; ring.
Qed.

Lemma polar0 x y : let r := sqrt (x * x + y * y) in let t := Ratan2 y x in
  0 <= r /\ x = r * cos t /\ y = r * sin t.
Proof.
  intros r t.
  destruct (Req_dec x 0) as [X|X]; [destruct (Req_dec y 0) as [Y|Y]|].
  - subst x y. unfold r. rewrite Rmult_0_l, Rplus_0_l, sqrt_0. lra.
  - destruct (polar x y) as (A & B & C); [right; exact Y|]. fold r t in A, B, C. lra.
  - destruct (polar x y) as (A & B & C); [left; exact X|]. fold r t in A, B, C. lra.
Qed.

(** ** apply_constraints *)

Lemma project_ok (i : @tracking_input Rops) (a1 a2 b : R) :
  a1 <> 0 \/ a2 <> 0 ->
  exists ux2 uy2 : R, @project Rops i a1 a2 b = Ret (ux2, uy2) /\
    ux2 = u_x i - a1 * (a1 * u_x i + a2 * u_y i + b) / (a1 * a1 + a2 * a2) /\
    uy2 = u_y i - a2 * (a1 * u_x i + a2 * u_y i + b) / (a1 * a1 + a2 * a2).
Proof.
  intros NZ. unfold project. rops.
  destruct (Reqb_spec a2 (0 / 1)) as [E|E]; cbn [negb].
  - assert (Z2 : a2 = 0) by lra. subst a2. destruct NZ as [Z1|Z1]; [|lra].
    destruct (Reqb_spec a1 (0 / 1)) as [E'|E']; [exfalso; lra|]. cbn [negb].
    eexists _, _. split; [reflexivity|]. split; field; repeat split; nra.
  - assert (a2 <> 0) by lra.
    assert (0 < a1 * a1 + a2 * a2) by nra.
    eexists _, _. split; [reflexivity|]. split; field; repeat split; nra.
Qed.

Lemma apply_satisfied (i : @tracking_input Rops) (a1 a2 b : R) :
  0 <= a1 * u_x i + a2 * u_y i + b -> @apply_constraints Rops i a1 a2 b = Ret i.
Proof.
  intros H. unfold apply_constraints. rops. cbn [orb].
  destruct (Rleb_spec (0 / 1) (a1 * u_x i + a2 * u_y i + b)) as [L|L]; [reflexivity|].
  exfalso. lra.
Qed.

Lemma apply_infeasible (i : @tracking_input Rops) (b : R) :
  b < 0 -> @apply_constraints Rops i 0 0 b = Panic.
Proof.
  intros H. unfold apply_constraints. rops. cbn [orb].
  match goal with |- context [Rleb ?a ?c] => destruct (Rleb_spec a c) as [L|L] end.
  { exfalso. lra. }
  unfold project. rops. destruct (Reqb_spec 0 (0 / 1)); [reflexivity|exfalso; lra].
Qed.

Lemma apply_violated (i : @tracking_input Rops) (a1 a2 b : R) :
  a1 <> 0 \/ a2 <> 0 -> a1 * u_x i + a2 * u_y i + b < 0 ->
  exists o : @tracking_input Rops, @apply_constraints Rops i a1 a2 b = Ret o /\
    a1 * u_x o + a2 * u_y o + b = 0 /\
    (forall x y : R, 0 <= a1 * x + a2 * y + b ->
       sqdist (u_x o) (u_y o) (u_x i) (u_y i) <= sqdist x y (u_x i) (u_y i)) /\
    (u_x i <> 0 \/ u_y i <> 0 ->
     same_turn (u_x i) (u_y i) (u_x o) (u_y o) (du_x i) (du_y i) (du_x o) (du_y o)).
Proof.
  intros NZ V.
  destruct (project_ok i a1 a2 b NZ) as (px & py & E & PX & PY).
  unfold apply_constraints. rewrite E. rops. cbn [orb bind].
  match goal with |- context [Rleb ?a ?c] => destruct (Rleb_spec a c) as [L|L] end.
  { exfalso. lra. }
  unfold to_polar. rops.
  assert (N : 0 < a1 * a1 + a2 * a2).
  { destruct NZ as [H|H]; [assert (0 < a1 * a1) by nra|assert (0 < a2 * a2) by nra]; nra. }
  eexists. split; [reflexivity|]. cbn [u_x u_y du_x du_y].
  set (ux := u_x i) in *. set (uy := u_y i) in *. clearbody ux uy.
  set (k := (a1 * ux + a2 * uy + b) / (a1 * a1 + a2 * a2)).
  assert (K : k * (a1 * a1 + a2 * a2) = a1 * ux + a2 * uy + b) by (unfold k; field; lra).
  assert (PX' : px = ux - a1 * k) by (rewrite PX; unfold k; field; lra).
  assert (PY' : py = uy - a2 * k) by (rewrite PY; unfold k; field; lra).
  assert (K0 : k < 0). { unfold k. apply Rdiv_neg_pos || idtac.
    apply (Rmult_lt_reg_r (a1 * a1 + a2 * a2)); [exact N|]. fold k. rewrite K. lra. }
  clearbody k.
  split; [rewrite PX', PY'; nra|]. split.
  - intros x y H. unfold sqdist. rewrite PX', PY'.
    (* Cauchy-Schwarz *)
    assert (G : - k * (a1 * a1 + a2 * a2) <= a1 * (x - ux) + a2 * (y - uy)) by nra.
    assert (CS : (a1 * (x - ux) + a2 * (y - uy)) * (a1 * (x - ux) + a2 * (y - uy))
                 <= (a1 * a1 + a2 * a2) * ((x - ux) * (x - ux) + (y - uy) * (y - uy))).
    { pose proof (Rle_0_sqr (a1 * (y - uy) - a2 * (x - ux))) as Q. unfold Rsqr in Q. nra. }
    set (n := a1 * a1 + a2 * a2) in *.
    set (d := (x - ux) * (x - ux) + (y - uy) * (y - uy)) in *.
    set (p := a1 * (x - ux) + a2 * (y - uy)) in *.
    replace ((ux - a1 * k - ux) * (ux - a1 * k - ux) + (uy - a2 * k - uy) * (uy - a2 * k - uy))
      with (k * k * n) by (unfold n; ring).
    assert (S : (- k * n) * (- k * n) <= p * p) by (apply Rmult_le_compat; nra).
    apply (Rmult_le_reg_l n); [exact N|]. nra.
  - intros U. unfold same_turn.
    destruct (polar ux uy U) as (R0 & UX & UY).
    destruct (polar0 px py) as (_ & QX & QY).
    destruct (polar0 (du_x i) (du_y i)) as (_ & DX & DY).
    set (r := sqrt (ux * ux + uy * uy)) in *. set (t := Ratan2 uy ux) in *.
    set (r2 := sqrt (px * px + py * py)) in *. set (t2 := Ratan2 py px) in *.
    set (dr := sqrt (du_x i * du_x i + du_y i * du_y i)) in *.
    set (dt := Ratan2 (du_y i) (du_x i)) in *.
    rewrite UX, UY, QX, QY, DX, DY. clear - R0. clearbody r t r2 t2 dr dt.
    pose proof (sincos t) as SC.
    replace (dt + t2 - t) with ((dt + t2) - t) by ring.
    rewrite cos_minus, sin_minus, cos_plus, sin_plus.
    set (ct := cos t) in *. set (st := sin t) in *. clearbody ct st.
    set (c2 := cos t2). set (s2 := sin t2). set (cd := cos dt). set (sd := sin dt).
    split.
    + transitivity (dr * r2 * ((cd * c2 - sd * s2) * (st * st + ct * ct)));
        [field; lra|rewrite SC; ring].
    + transitivity (dr * r2 * ((sd * c2 + cd * s2) * (st * st + ct * ct)));
        [field; lra|rewrite SC; ring].
Qed.

(** ** supervise *)

Definition slackR (i : @tracking_input Rops) (k : R * R * R) : R := @slack Rops i k.

Lemma min_step_R (i : @tracking_input Rops) (m k : R * R * R) :
  @min_step Rops i m k = Ret (if Rlt_dec (slackR i k) (slackR i m) then k else m).
Proof.
  unfold min_step. rops. fold (slackR i m) (slackR i k).
  destruct (Rltb_spec (slackR i k) (slackR i m)); destruct (Rlt_dec (slackR i k) (slackR i m));
    try reflexivity; try contradiction.
  destruct (Rltb_spec (slackR i m) (slackR i k)); [reflexivity|].
  destruct (Reqb_spec (slackR i m) (slackR i k)); [reflexivity|]. exfalso; lra.
Qed.

Lemma min_by_ok (i : @tracking_input Rops) l (m : R * R * R) :
  exists k, @min_by Rops i m l = Ret k /\ In k (m :: l) /\
    forall k', In k' (m :: l) -> slackR i k <= slackR i k'.
Proof.
  revert m; induction l as [|k l IH]; intros m.
  - exists m. repeat split; [left; reflexivity|]. intros k' [<-|[]]. lra.
  - cbn [min_by]. rewrite min_step_R. cbn [bind].
    set (m' := if Rlt_dec (slackR i k) (slackR i m) then k else m).
    destruct (IH m') as (k0 & E & I & M). exists k0. split; [exact E|].
    assert (L : slackR i m' <= slackR i k /\ slackR i m' <= slackR i m).
    { unfold m'. destruct (Rlt_dec (slackR i k) (slackR i m)); lra. }
    split.
    + destruct I as [<-|I]; [|right; right; exact I].
      unfold m'. destruct (Rlt_dec (slackR i k) (slackR i m)); [right; left|left]; reflexivity.
    + pose proof (M m' (or_introl eq_refl)).
      intros k' [<-|[<-|J]]; [lra|lra|]. apply M. right; exact J.
Qed.

Lemma supervise_ok (c : @supervisory Rops) (i : @tracking_input Rops) (s : @state Rops)
    (ps : list (R * R)) :
  @nearest_pillars Rops c s = Ret ps -> ps <> [] ->
  (forall p, In p ps -> sx (s_x s) <> fst p \/ sx (s_y s) <> snd p) ->
  exists o, supervise c i s = Ret o /\
   ((forall p, In p ps -> 0 <= slackR i (constraint_of c s p)) -> o = i) /\
   (~ (forall p, In p ps -> 0 <= slackR i (constraint_of c s p)) ->
    exists p, In p ps /\ slackR i (constraint_of c s p) < 0 /\
      (forall q, In q ps -> slackR i (constraint_of c s p) <= slackR i (constraint_of c s q)) /\
      slackR o (constraint_of c s p) = 0).
Proof.
  intros E NE OFF. unfold supervise. rewrite E. cbn [bind].
  destruct ps as [|p ps]; [congruence|]. cbn [map].
  destruct (min_by_ok i (map (constraint_of c s) ps) (constraint_of c s p)) as ([[a1 a2] b] & M & I & L).
  rewrite M. cbn [bind].
  change (constraint_of c s p :: map (constraint_of c s) ps)
    with (map (constraint_of c s) (p :: ps)) in I, L.
  assert (L' : forall q, In q (p :: ps) -> slackR i (a1, a2, b) <= slackR i (constraint_of c s q)).
  { intros q Q. apply L. apply in_map, Q. }
  apply in_map_iff in I. destruct I as (q & Eq & Iq).
  destruct (Rlt_or_le (slackR i (a1, a2, b)) 0) as [N|P].
  - assert (NZ : a1 <> 0 \/ a2 <> 0).
    { destruct (OFF q Iq) as [O|O]; [left|right]; destruct q as [x y];
        unfold constraint_of in Eq; injection Eq as E1 E2 E3; revert E1 E2; rops; cbn [fst snd] in O;
        intros E1 E2; lra. }
    destruct (apply_violated i a1 a2 b NZ N) as (o & A & B & _).
    exists o. split; [exact A|]. split.
    + intros H. exfalso. specialize (H q Iq). rewrite Eq in H. lra.
    + intros _. exists q. rewrite Eq. repeat split; [exact Iq|exact N|exact L'|].
      unfold slackR, slack. rops. exact B.
  - exists i. split; [apply apply_satisfied; exact P|]. split; [reflexivity|].
    intros H. exfalso. apply H. intros q' Q. specialize (L' q' Q). lra.
Qed.
