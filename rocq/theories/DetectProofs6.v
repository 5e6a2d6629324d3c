(** The detector in exact arithmetic: Bayesian updates; in binary32: stored values. *)
From Coq Require Import ZArith Reals List Bool Lia Lra Psatz Permutation.
From Flocq Require Import Core BinarySingleNaN.
From Verif Require Import Base SearchModel SearchSpec SearchCoord WallsModel WallsSpec WallsLemmas Num NumLemmas TrajModel
  DetectModel DetectSpec DetectProofs DetectProofs4 DetectProofs5.
Import ListNotations.
Open Scope R_scope.

Lemma posterior_R (p e n : R) : 0 < p < 1 ->
  exists q, @posterior Rops p e n = Ret q /\ 0 < q < 1 /\ odds q = odds p * (exp e / exp n).
Proof.
  intros Hp. unfold posterior, is_infinite, prob_new, prob_reverse. rops. cbn [andb orb].
  set (m := if Rltb e n then e else n).
  set (u := exp (e - m) * p). set (v := exp (n - m) * (1 / 1 - p)).
  assert (Hu : 0 < u) by (apply Rmult_lt_0_compat; [apply exp_pos|lra]).
  assert (Hv : 0 < v) by (apply Rmult_lt_0_compat; [apply exp_pos|lra]).
  assert (Hi : 0 < / (u + v)) by (apply Rinv_0_lt_compat; lra).
  assert (Hq : 0 < u / (u + v) < 1).
  { split; [unfold Rdiv; nra|]. apply (Rmult_lt_reg_r (u + v)); [lra|].
    unfold Rdiv. rewrite Rmult_assoc, Rinv_l by lra. lra. }
  destruct (Rltb_spec (u / (u + v)) 0); [lra|].
  destruct (Rltb_spec (1 / 1) (u / (u + v))); [lra|]. cbn [orb].
  eexists. split; [reflexivity|]. split; [exact Hq|].
  unfold odds. replace (u / (u + v) / (1 - u / (u + v))) with (u / v) by (field; repeat split; lra).
  unfold u, v. unfold Rminus. rewrite !exp_plus. fold m.
  pose proof (exp_pos (- m)). pose proof (exp_pos n). pose proof (exp_pos e).
  field. repeat split; lra.
Qed.

Lemma log_likelihood_R (r : @reading Rops) (d : R) :
  exp (@log_likelihood Rops d (r_mean r) (r_stddev r)) = gaussian r d.
Proof. unfold log_likelihood, gaussian. rops. f_equal. set (t := (d - r_mean r) / r_stddev r). field. Qed.

Lemma latched_R (p : R) : 0 <= p <= 1 -> @latched Rops p = false -> 0 < p < 1.
Proof.
  unfold latched, is_zero, is_one, EPSILON. rops. intros Hp.
  destruct (Rltb_spec (Rabs p) (1 / 8388608)) as [|H1]; [discriminate|].
  destruct (Rltb_spec (Rabs (p - 1 / 1)) (1 / 8388608)) as [|H2]; [discriminate|]. intros _.
  rewrite Rabs_pos_eq in H1 by lra. rewrite Rabs_left1 in H2 by lra. lra.
Qed.

Lemma reported_ok (p : R) : reported p (@state_of Rops p).
Proof.
  unfold state_of, WALL_EXISTENCE_TH, prob_reverse. rops.
  destruct (Rltb_spec p (1 / 10)); [cbn; lra|].
  destruct (Rltb_spec (1 / 1 - 1 / 10) p); cbn; lra.
Qed.

Section Bayes.
Variable W : Z.
Hypothesis HW : supported W.

Lemma detect_step (d : @detector Rops) (r : @reading Rops) : detector_ok W d ->
  exists d' a, @detect_and_update Rops W d (r_mean r) (r_stddev r) (r_pose r) = Ret (d', a) /\
    detector_ok W d' /\
    (forall c, about c a = true -> sees W c r = true) /\
    (forall c, valid W c -> about c a = false -> belief W d' c = belief W d c) /\
    (forall c, valid W c -> 0 < belief W d c < 1 -> 0 < belief W d' c < 1 /\
       odds (belief W d' c) = odds (belief W d c) * (if about c a then likelihood_ratio W r else 1)) /\
    (forall c st, a = Some (c, st) -> valid W c /\ reported (belief W d' c) st).
Proof.
  intros (Hcv & Hlen & Hpr).
  assert (Hret : exists d' a, @detect_and_update Rops W d (r_mean r) (r_stddev r) (r_pose r) = Ret (d', a)).
  { unfold detect_and_update. rewrite Hcv.
    destruct (proj1 (convert_shape W (r_pose r))) as [E|(i & E)]; rewrite E; cbn [bind]; [eauto|].
    pose proof (convert_valid W HW _ _ _ E) as Hv.
    pose proof (as_index_que W _ HW (proj1 Hv)) as Hix.
    unfold wall_existence. rewrite aget_ok by (rewrite Hlen; exact Hix). cbn [bind].
    fold (belief W d (w_coord i)). fold (latched (belief W d (w_coord i))).
    destruct (latched _) eqn:El; [eauto|]. cbn [isnan Rops orb].
    destruct (posterior_R (belief W d (w_coord i))
      (@log_likelihood Rops (length_of (w_existing i)) (r_mean r) (r_stddev r))
      (@log_likelihood Rops (length_of (w_not_existing i)) (r_mean r) (r_stddev r))
      (latched_R _ (Hpr _ Hv) El)) as (q & Eq & _).
    rewrite Eq. cbn [bind]. unfold set_existence. rewrite aset_ok by (rewrite Hlen; exact Hix). cbn [bind]. eauto. }
  destruct Hret as (d' & a & E). exists d', a. split; [exact E|].
  destruct (detect_frame W HW _ _ _ _ _ _ Hlen E) as (F1 & F2 & F3 & F4).
  destruct (detect_inv W HW _ _ _ _ _ _ Hlen E) as [[-> ->]|(i & q & Ec & El & Eq & Ed & Ea)].
  - split; [split; [exact Hcv|split; [exact Hlen|exact Hpr]]|]. cbn [about].
    split; [discriminate|]. split; [auto|]. split; [|discriminate].
    intros c _ Hc. split; [exact Hc|ring].
  - rewrite Hcv in Ec. pose proof (convert_valid W HW _ _ _ Ec) as Hv.
    destruct (posterior_R (belief W d (w_coord i))
      (@log_likelihood Rops (length_of (w_existing i)) (r_mean r) (r_stddev r))
      (@log_likelihood Rops (length_of (w_not_existing i)) (r_mean r) (r_stddev r))
      (latched_R _ (Hpr _ Hv) El)) as (q' & Eq' & Hq & Ho).
    rewrite Eq in Eq'. injection Eq' as <-.
    assert (Eb : forall c, valid W c -> belief W d' c = if coord_eqb (w_coord i) c then q else belief W d c).
    { intros c Hc. rewrite Ed. now apply belief_upd. }
    split.
    { split; [now rewrite F1|]. split; [exact F2|]. intros c Hc. rewrite Eb by assumption.
      destruct (coord_eqb _ _); [lra|now apply Hpr]. }
    split. { intros c Ha. unfold sees. rewrite Ec. rewrite Ea in Ha. exact Ha. }
    split; [exact F3|]. split.
    + intros c Hc Hb. rewrite Eb by assumption. rewrite Ea. cbn [about].
      destruct (coord_eqb_spec (w_coord i) c) as [<-|N]; [|split; [exact Hb|ring]].
      split; [exact Hq|]. rewrite Ho. f_equal. unfold likelihood_ratio. rewrite Ec.
      destruct (proj2 (convert_shape W (r_pose r)) i Ec) as (x & y & dir & d1 & d2 & _ & _ & _ & _ & E1 & E2 & _).
      destruct i as [ci e n]. cbn [w_existing w_not_existing] in *. subst e n. cbn [length_of].
      now rewrite !log_likelihood_R.
    + intros c st Es. destruct (F4 c st Es) as (V & _ & Est). split; [exact V|]. rewrite Est. apply reported_ok.
Qed.

Lemma bayes rs : forall (d : @detector Rops), detector_ok W d ->
  exists d' l, readings W d rs = Ret (d', l) /\ length l = length rs /\ detector_ok W d' /\
    (forall c, valid W c -> 0 < belief W d c < 1 -> 0 < belief W d' c < 1 /\
       odds (belief W d' c) = odds (belief W d c) * evidence W c rs l) /\
    (forall c, valid W c -> Forall (fun a => about c a = false) l -> belief W d' c = belief W d c) /\
    (forall c, Forall2 (fun r a => about c a = true -> sees W c r = true) rs l).
Proof.
  induction rs as [|r rs IH]; intros d Hd; cbn [readings].
  - exists d, []. split; [reflexivity|]. split; [reflexivity|]. split; [exact Hd|]. split; [|split; [auto|constructor]].
    intros c _ Hc. split; [exact Hc|]. cbn. ring.
  - destruct (detect_step d r Hd) as (d1 & a & E & Hd1 & S1 & S2 & S3 & S4). rewrite E. cbn [bind].
    destruct (IH d1 Hd1) as (d2 & l & E2 & Hlen & Hd2 & I1 & I2 & I3). rewrite E2. cbn [bind].
    exists d2, (a :: l). split; [reflexivity|]. split; [cbn; now rewrite Hlen|]. split; [exact Hd2|]. split; [|split].
    + intros c Hc Hb. destruct (S3 c Hc Hb) as [B1 O1]. destruct (I1 c Hc B1) as [B2 O2]. split; [exact B2|].
      rewrite O2, O1. cbn [evidence]. ring.
    + intros c Hc Hf. inversion Hf as [|? ? Ha Hl]; subst. rewrite (I2 c Hc Hl). now apply S2.
    + intros c. constructor; [apply S1|apply I3].
Qed.

(** with every reading of [c] answered, the evidence depends on the readings only. *)
Definition total (c : coord) (rs : list (@reading Rops)) : R :=
  fold_right (fun r x => (if sees W c r then likelihood_ratio W r else 1) * x) 1 rs.

Lemma evidence_total c rs : forall l, length l = length rs ->
  Forall2 (fun r a => about c a = true -> sees W c r = true) rs l ->
  all_answered W c rs l -> evidence W c rs l = total c rs.
Proof.
  induction rs as [|r rs IH]; intros [|a l] Hlen Hf Ha; try discriminate; [reflexivity|].
  inversion Hf as [|? ? ? ? Hs Hf']; subst. destruct Ha as [Ha1 Ha2]. cbn [evidence total fold_right].
  rewrite (IH l) by (auto; cbn in Hlen; lia). f_equal.
  assert (E : about c a = sees W c r).
  { destruct (about c a); [symmetry; now apply Hs|]. destruct (sees W c r); [now apply Ha1|reflexivity]. }
  now rewrite E.
Qed.

Lemma total_perm c rs rs' : Permutation rs rs' -> total c rs = total c rs'.
Proof.
  induction 1; unfold total in *; cbn [fold_right].
  - reflexivity.
  - now rewrite IHPermutation.
  - ring.
  - congruence.
Qed.

Lemma odds_inj p q : 0 < p < 1 -> 0 < q < 1 -> odds p = odds q -> p = q.
Proof.
  unfold odds. intros Hp Hq E.
  assert (E2 : p * (1 - q) = q * (1 - p)).
  { apply (Rmult_eq_compat_r ((1 - p) * (1 - q))) in E.
    replace (p / (1 - p) * ((1 - p) * (1 - q))) with (p * (1 - q)) in E by (field; lra).
    replace (q / (1 - q) * ((1 - p) * (1 - q))) with (q * (1 - p)) in E by (field; lra). exact E. }
  lra.
Qed.

Lemma order_free (d : @detector Rops) rs rs' c d1 l1 d2 l2 : detector_ok W d -> valid W c ->
  0 < belief W d c < 1 -> Permutation rs rs' ->
  readings W d rs = Ret (d1, l1) -> readings W d rs' = Ret (d2, l2) ->
  all_answered W c rs l1 -> all_answered W c rs' l2 -> belief W d1 c = belief W d2 c.
Proof.
  intros Hd Hc Hb Hp E1 E2 A1 A2.
  destruct (bayes rs d Hd) as (d1' & l1' & E1' & L1 & _ & B1 & _ & F1).
  destruct (bayes rs' d Hd) as (d2' & l2' & E2' & L2 & _ & B2 & _ & F2).
  rewrite E1 in E1'. rewrite E2 in E2'. injection E1' as <- <-. injection E2' as <- <-.
  destruct (B1 c Hc Hb) as [R1 O1]. destruct (B2 c Hc Hb) as [R2 O2].
  apply odds_inj; [exact R1|exact R2|]. rewrite O1, O2.
  rewrite (evidence_total c rs l1), (evidence_total c rs' l2) by auto. now rewrite (total_perm c rs rs').
Qed.

Lemma new_ok : detector_ok W (@detector_new Rops) /\ forall c, belief W (@detector_new Rops) c = 1 / 2.
Proof.
  assert (E : forall c, belief W (@detector_new Rops) c = 1 / 2).
  { intros c. unfold belief, detector_new. cbn [d_existence]. rewrite araw_new. reflexivity. }
  split; [|exact E]. split; [reflexivity|]. split; [reflexivity|]. intros c _. rewrite E. lra.
Qed.

Lemma with_walls_R w st : holds W w st ->
  exists d, @with_walls Rops W w = Ret d /\ detector_ok W d /\
    forall c, valid W c -> belief W d c = match st c with Unchecked => 1 / 2 | Checked true => 1 | Checked false => 0 end.
Proof.
  intros Hh. destruct (@with_walls_ok Rops W HW w st Hh) as (d & E & I1 & I2 & I3).
  assert (Eb : forall c, valid W c -> belief W d c = match st c with Unchecked => 1 / 2 | Checked true => 1 | Checked false => 0 end).
  { intros c Hc. rewrite (I3 c Hc I). unfold target, prob_mid, prob_one, prob_zero.
    destruct (st c) as [|[|]]; rops; lra. }
  exists d. split; [exact E|]. split; [|exact Eb]. split; [exact I1|]. split; [exact I2|].
  intros c Hc. rewrite (Eb c Hc). destruct (st c) as [|[|]]; lra.
Qed.

End Bayes.

(** ** binary32 *)

Section Float.
Variable lm : libm.
Variable W : Z.
Hypothesis HW : supported W.
Notation F := (Fops lm).

(** a finite value in [0, 1]. *)
Definition in_unit (v : f32) : Prop := is_finite v = true /\ 0 <= B2R v <= 1.

Lemma prob_new_unit (v q : @num F) : prob_new v = Some q -> in_unit q.
Proof.
  unfold prob_new. cbn [isnan isneg ltb Fops n1 lit]. fold f1.
  destruct f1_val as [V1 F1].
  destruct (is_nan v) eqn:En; [discriminate|]. destruct (Bsign v) eqn:Es; [discriminate|]. cbn [orb].
  destruct (Bltb f1 v) eqn:El; [discriminate|]. intros E; injection E as <-.
  assert (Hf : is_finite v = true).
  { destruct v as [s0|s0| |s0 m0 e0 b0]; try reflexivity; try discriminate En.
    cbn in Es. subst s0. exfalso. revert F1 El. clear. generalize f1.
    intros [s|s| |s m e b]; try discriminate; destruct s; discriminate. }
  split; [exact Hf|]. rewrite Bltb_correct in El by assumption. rewrite V1 in El.
  destruct (Rlt_bool_spec 1 (B2R v)); [discriminate|]. split; [|assumption].
  destruct v as [s0|s0| |s0 m0 e0 b0]; try discriminate; cbn in Es; subst; cbn [B2R]; [lra|].
  apply F2R_ge_0. cbn. lia.
Qed.

Lemma unit_consts : in_unit (@prob_one F) /\ in_unit (@prob_zero F) /\ in_unit (@prob_mid F).
Proof.
  unfold prob_one, prob_zero, prob_mid, n1, n0. cbn [lit Fops].
  destruct (f32_of_Z_exact 1 ltac:(lia)) as [V1 F1].
  destruct (f32_of_Z_exact 2 ltac:(lia)) as [V2 F2].
  destruct (f32_of_Z_exact 0 ltac:(lia)) as [V0 F0].
  split; [|split].
  - fold f1. destruct f1_val as [V F]. split; [exact F|]. rewrite V. lra.
  - assert (E : rnd32 (0 / 1) = 0).
    { replace (0 / 1) with 0 by lra. apply rnd_exact. apply (int_format 0). lia. }
    destruct (div_ok (f32_of_Z 0) (f32_of_Z 1) F0) as [A B].
    + rewrite V1. lra.
    + rewrite V0, V1, E, Rabs_R0. apply bpow_gt_0.
    + split; [exact B|]. rewrite A, V0, V1, E. lra.
  - assert (Hb : 0 <= rnd32 (1 / 2) <= 1).
    { assert (E0 : rnd32 0 = 0) by (apply rnd_exact; apply (int_format 0); lia).
      assert (E1 : rnd32 1 = 1) by (apply rnd_exact; apply (int_format 1); lia).
      pose proof (rnd_le 0 (1 / 2) ltac:(lra)). pose proof (rnd_le (1 / 2) 1 ltac:(lra)). lra. }
    destruct (div_ok (f32_of_Z 1) (f32_of_Z 2) F1) as [A B].
    + rewrite V2. lra.
    + rewrite V1, V2. rewrite Rabs_pos_eq by apply Hb. apply Rle_lt_trans with 1; [apply Hb|].
      change (bpow radix2 128) with (IZR (2 ^ 128)). apply IZR_lt. lia.
    + split; [exact B|]. rewrite A, V1, V2. exact Hb.
Qed.

Lemma posterior_unit (p e n q : @num F) : posterior p e n = Ret q -> in_unit q.
Proof.
  unfold posterior. destruct (is_infinite _); [intros E; injection E as <-; apply unit_consts|].
  destruct (is_infinite _); [intros E; injection E as <-; apply unit_consts|].
  destruct (prob_new _) eqn:E; [|discriminate]. intros E2; injection E2 as <-. now apply prob_new_unit in E.
Qed.

Definition stored_unit (d : @detector F) : Prop :=
  alen (d_existence d) = EXISTENCE_ARRAY_LEN /\ forall c, valid W c -> in_unit (belief W d c).

Lemma stays_unit rs : forall (d : @detector F) d' l, stored_unit d ->
  readings W d rs = Ret (d', l) -> stored_unit d'.
Proof.
  induction rs as [|r rs IH]; intros d d' l [Hl Hu]; cbn [readings].
  - intros E; injection E as <- <-. now split.
  - destruct (detect_and_update _ _ _ _ _) as [[d1 a]| |] eqn:E1; cbn [bind]; try discriminate.
    destruct (readings W d1 rs) as [[d2 l2]| |] eqn:E2; cbn [bind]; try discriminate.
    intros E; injection E as <- <-. apply (IH d1 d2 l2); [|exact E2].
    destruct (detect_inv W HW _ _ _ _ _ _ Hl E1) as [[_ ->]|(i & q & Ec & _ & Eq & -> & _)]; [now split|].
    split; [exact Hl|]. intros c Hc. rewrite (belief_upd W HW) by (eauto using convert_valid).
    destruct (coord_eqb _ _); [now apply posterior_unit in Eq|now apply Hu].
Qed.

Lemma new_unit : stored_unit (@detector_new F).
Proof.
  split; [reflexivity|]. intros c _. unfold belief, detector_new. cbn [d_existence]. rewrite araw_new. apply unit_consts.
Qed.

Lemma with_walls_unit w st d : holds W w st -> @with_walls F W w = Ret d -> stored_unit d.
Proof.
  intros Hh E. destruct (@with_walls_ok F W HW w st Hh) as (d' & E' & I1 & I2 & I3).
  rewrite E in E'. injection E' as <-. split; [exact I2|]. intros c Hc. rewrite (I3 c Hc I).
  unfold target. destruct (st c) as [|[|]]; apply unit_consts.
Qed.

Lemma consts_latched : @latched F (@prob_one F) = true /\ @latched F (@prob_zero F) = true.
Proof. split; vm_compute; reflexivity. Qed.

End Float.

Lemma consts_latched_R : @latched Rops (@prob_one Rops) = true /\ @latched Rops (@prob_zero Rops) = true.
Proof.
  unfold latched, is_zero, is_one, EPSILON, prob_one, prob_zero. rops. split; apply orb_true_iff.
  - right. destruct (Rltb_spec (Rabs (1 / 1 - 1 / 1)) (1 / 8388608)) as [|N]; [reflexivity|exfalso; apply N].
    replace (1 / 1 - 1 / 1) with 0 by lra. rewrite Rabs_R0. lra.
  - left. destruct (Rltb_spec (Rabs (0 / 1)) (1 / 8388608)) as [|N]; [reflexivity|exfalso; apply N].
    replace (0 / 1) with 0 by lra. rewrite Rabs_R0. lra.
Qed.

(** ** A panic in binary32 *)

Definition zero : f32 := f32_of_Z 0.
Definition tiny : f32 := f32_div (f32_of_Z 1) (f32_of_Z (2 ^ 80)).
Definition fifty : f32 := f32_div (f32_of_Z 5) (f32_of_Z 100).
Definition half_cell : f32 := f32_div (f32_of_Z 45) (f32_of_Z 1000).
Definition libm2 : libm := Libm (fun _ => zero) (fun _ => f32_of_Z 1) (fun _ => B754_nan) (fun y x => y).
Definition pose0 lm : @pose (Fops lm) := @Pose (Fops lm) half_cell half_cell zero.

Lemma nan_posterior lm (p e n : f32) : l_exp lm B754_nan = B754_nan ->
  is_nan (Bminus mode_NE e n) = true -> is_nan (Bminus mode_NE n n) = true -> is_nan (Bminus mode_NE e e) = true ->
  is_nan (Bminus mode_NE n e) = true ->
  @posterior (Fops lm) p e n = Panic.
Proof.
  intros He H1 H2 H3 H4. 
  assert (N : forall x : f32, is_nan x = true -> x = B754_nan) by (intros [| | |]; try discriminate; reflexivity).
  apply N in H1, H2, H3, H4.
  unfold posterior. cbn [ltb sub mul add div nexp Fops].
  destruct (Bltb e n); rewrite ?H1, ?H2, ?H3, ?H4, He.
  - reflexivity.
  - reflexivity.
Qed.


Definition nan_check lm (r : res (option (@wall_info (Fops lm)))) : bool :=
  match r with
  | Ret (Some i) =>
      let ev : f32 := @log_likelihood (Fops lm) (length_of (w_existing i)) fifty tiny in
      let nv : f32 := @log_likelihood (Fops lm) (length_of (w_not_existing i)) fifty tiny in
      coord_eqb (w_coord i) (Co 1 0) && negb (is_nan ev) && negb (is_nan nv) &&
      is_nan (Bminus mode_NE ev nv) && is_nan (Bminus mode_NE nv nv) &&
      is_nan (Bminus mode_NE ev ev) && is_nan (Bminus mode_NE nv ev)
  | _ => false
  end.

Lemma overflow_panic lm : l_sin lm zero = zero -> l_cos lm zero = f32_of_Z 1 -> l_exp lm B754_nan = B754_nan ->
  @detect_and_update (Fops lm) 4 (@detector_new (Fops lm)) fifty tiny (pose0 lm) = Panic.
Proof.
  intros Hs Hc He.
  assert (B : nan_check lm (@convert (Fops lm) 4 (@converter_default (Fops lm)) (pose0 lm)) = true).
  { unfold convert, is_near_pillar, pose0. cbn [p_theta].
    change (@nsin (Fops lm) zero) with (l_sin lm zero).  change (@ncos (Fops lm) zero) with (l_cos lm zero).
    rewrite Hs, Hc. clear. vm_compute. reflexivity. }
  unfold detect_and_update. change (d_converter detector_new) with (@converter_default (Fops lm)).
  destruct (convert _ _ _) as [[i|]| |]; try discriminate B. cbn [bind nan_check] in *.
  apply andb_prop in B. destruct B as [B B6]. apply andb_prop in B. destruct B as [B B5].
  apply andb_prop in B. destruct B as [B B4]. apply andb_prop in B. destruct B as [B B3].
  apply andb_prop in B. destruct B as [B B2]. apply andb_prop in B. destruct B as [B1 B0].
  destruct (coord_eqb_spec (w_coord i) (Co 1 0)) as [Ei|]; [|discriminate].
  rewrite Ei.
  assert (Eg : wall_existence 4 (@detector_new (Fops lm)) (Co 1 0) = Ret prob_mid) by reflexivity.
  rewrite Eg. cbn [bind].
  assert (El : is_zero (@prob_mid (Fops lm)) || is_one (@prob_mid (Fops lm)) = false) by (vm_compute; reflexivity).
  rewrite El. cbn [isnan Fops].
  apply negb_true_iff in B0, B2. rewrite B0, B2. cbn [orb].
  rewrite nan_posterior by assumption. reflexivity.
Qed.
