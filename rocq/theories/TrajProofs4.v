(** Iterators: number of samples, sequences, rigid motions. *)
From Coq Require Import ZArith Reals List Bool Lra Lia Psatz.
From Flocq Require Import Core BinarySingleNaN.
From Verif Require Import Base Num NumLemmas SearchModel RunModel ControlModel TrajModel TrajSpec
  TrajProofs TrajProofs2 TrajProofs3.
Import ListNotations.
Open Scope R_scope.

Lemma n0_R : @n0 Rops = 0%R.
Proof. unfold n0. rops. field. Qed.

Lemma def_R : @axis4_default Rops = @Axis4 Rops 0%R 0%R 0%R 0%R.
Proof. unfold axis4_default. rewrite n0_R. reflexivity. Qed.

(** ** Generic sampling lemma *)

Section Ticks.
Context {K : ops} {S : Type}.
Variables (next : iterator S) (st : nat -> S) (v : nat -> target) (P : nat -> Prop).
Hypothesis P_dec : forall n, P n \/ ~ P n.
Hypothesis P_down : forall n, P (Datatypes.S n) -> P n.
Hypothesis yes : forall n, P n -> next (st n) = (Some (v n), st (Datatypes.S n)).
Hypothesis no : forall n, ~ P n -> next (st n) = (None, st n).

Lemma ticks_state n : exists m, after next n (st 0) = st m /\ (P n -> m = n) /\ (~ P n -> ~ P m).
Proof.
  induction n as [|n (m & E & A & B)]; [exists 0%nat; cbn; tauto|].
  change (after next (Datatypes.S n) (st 0)) with (snd (next (after next n (st 0)))). rewrite E.
  destruct (P_dec n) as [H|H].
  - rewrite (A H), (yes n H). exists (Datatypes.S n). cbn. tauto.
  - rewrite (no m (B H)). exists m. cbn. split; [reflexivity|]. split; [|tauto].
    intros N. destruct (H (P_down n N)).
Qed.

Lemma ticks_some n : P n -> output next n (st 0) = Some (v n).
Proof.
  intros H. unfold output. destruct (ticks_state n) as (m & -> & A & _).
  rewrite (A H), (yes n H). reflexivity.
Qed.

Lemma ticks_none n : ~ P n -> output next n (st 0) = None.
Proof.
  intros H. unfold output. destruct (ticks_state n) as (m & -> & _ & B).
  rewrite (no m (B H)). reflexivity.
Qed.

Lemma ticks_yields N : (forall n, P n <-> (n < N)%nat) -> yields next (st 0) N.
Proof.
  intros H k. destruct (P_dec k) as [A|A].
  - rewrite (ticks_some k A). apply H in A. split; [discriminate | auto].
  - rewrite (ticks_none k A). split; [|congruence]. intros B. destruct A. apply H. exact B.
Qed.
End Ticks.

Lemma floor_count T p n : 0 < p ->
  INR n * p <= T <-> (n < Z.to_nat (Zfloor (T / p) + 1))%nat.
Proof.
  intros Hp. rewrite INR_IZR_INZ.
  assert (E : IZR (Z.of_nat n) * p <= T <-> (Z.of_nat n <= Zfloor (T / p))%Z).
  { split; intros H.
    - apply Zfloor_lub. apply Rmult_le_reg_r with p; [exact Hp|].
      replace (T / p * p) with T by (field; lra). exact H.
    - apply IZR_le in H. assert (F := Zfloor_lb (T / p)).
      apply Rle_trans with (T / p * p); [apply Rmult_le_compat_r; lra|].
      right. field. lra. }
  rewrite E. lia.
Qed.

Lemma ceil_count T p n : 0 < p ->
  INR n * p < T <-> (n < Z.to_nat (Zceil (T / p)))%nat.
Proof.
  intros Hp. rewrite INR_IZR_INZ.
  assert (E : IZR (Z.of_nat n) * p < T <-> (Z.of_nat n < Zceil (T / p))%Z).
  { split; intros H.
    - apply lt_IZR. apply Rlt_le_trans with (T / p); [|apply Zceil_ub].
      apply Rmult_lt_reg_r with p; [exact Hp|].
      replace (T / p * p) with T by (field; lra). exact H.
    - apply Rnot_le_lt. intros L.
      assert (Zceil (T / p) <= Z.of_nat n)%Z; [|lia].
      apply Zceil_glb. apply Rmult_le_reg_r with p; [exact Hp|].
      replace (T / p * p) with T by (field; lra). exact L. }
  rewrite E. lia.
Qed.

Lemma INR_step p n : 0 < p -> INR n * p < INR (S n) * p.
Proof. intros. rewrite S_INR. nra. Qed.

Section Sampled.
Variables (T p : R).
Hypothesis Hp : 0 < p.

Lemma le_dec n : INR n * p <= T \/ ~ INR n * p <= T.
Proof. destruct (Rle_dec (INR n * p) T); auto. Qed.
Lemma le_down n : INR (S n) * p <= T -> INR n * p <= T.
Proof. pose proof (INR_step p n Hp). lra. Qed.
Lemma lt_dec' n : INR n * p < T \/ ~ INR n * p < T.
Proof. destruct (Rlt_dec (INR n * p) T); auto. Qed.
Lemma lt_down n : INR (S n) * p < T -> INR n * p < T.
Proof. pose proof (INR_step p n Hp). lra. Qed.

Definition straight_st (c : @straight_calc Rops) n := @StraightTraj Rops c (INR n * p)%R T p.

Lemma straight_st_0 (c : @straight_calc Rops) : @straight_new Rops c T p = straight_st c 0.
Proof. unfold straight_new, straight_st. rewrite n0_R. f_equal. cbn. lra. Qed.

Lemma straight_tick (c : @straight_calc Rops) : let v n := @Target Rops (@straight_calculate Rops c (INR n * p)%R)
    axis4_default axis4_default in
  (forall n, INR n * p <= T -> straight_next (straight_st c n) = (Some (v n), straight_st c (S n))) /\
  (forall n, ~ INR n * p <= T -> straight_next (straight_st c n) = (None, straight_st c n)).
Proof.
  cbv zeta. split; intros n H; unfold straight_next, straight_st; cbn [st_t st_t_end st_calc st_period].
  - rops. destruct (Rltb_spec T (INR n * p)); [lra|]. do 2 f_equal. rewrite S_INR. rops. ring.
  - rops. destruct (Rltb_spec T (INR n * p)); [reflexivity|]. lra.
Qed.

Lemma straight_sampled (c : @straight_calc Rops) :
  yields straight_next (@straight_new Rops c T p) (Z.to_nat (Zfloor (T / p) + 1)) /\
  forall n, INR n * p <= T ->
    output straight_next n (@straight_new Rops c T p) =
    Some (@Target Rops (@straight_calculate Rops c (INR n * p)%R) axis4_default axis4_default).
Proof.
  rewrite straight_st_0. destruct (straight_tick c) as [Y N]. split.
  - apply (ticks_yields straight_next (straight_st c) (fun n => @Target Rops (@straight_calculate Rops c (INR n * p)%R) axis4_default axis4_default) (fun n => INR n * p <= T) le_dec le_down Y N).
    intros; apply floor_count, Hp.
  - exact (ticks_some straight_next (straight_st c) (fun n => @Target Rops (@straight_calculate Rops c (INR n * p)%R) axis4_default axis4_default) (fun n => INR n * p <= T) le_dec le_down Y N).
Qed.

Definition spin_st (c : @overall Rops) n := @SpinTraj Rops c (INR n * p)%R T p.

Lemma spin_tick (c : @overall Rops) : let v n := @Target Rops axis4_default axis4_default (@calculate Rops c (INR n * p)%R) in
  (forall n, INR n * p <= T -> spin_next (spin_st c n) = (Some (v n), spin_st c (S n))) /\
  (forall n, ~ INR n * p <= T -> spin_next (spin_st c n) = (None, spin_st c n)).
Proof.
  cbv zeta. split; intros n H; unfold spin_next, spin_st; cbn [sp_t sp_t_end sp_calc sp_period].
  - rops. destruct (Rltb_spec T (INR n * p)); [lra|]. do 2 f_equal. rewrite S_INR. rops. ring.
  - rops. destruct (Rltb_spec T (INR n * p)); [reflexivity|]. lra.
Qed.

Lemma spin_sampled (c : @overall Rops) :
  yields spin_next (@SpinTraj Rops c 0%R T p) (Z.to_nat (Zfloor (T / p) + 1)) /\
  forall n, INR n * p <= T ->
    output spin_next n (@SpinTraj Rops c 0%R T p) =
    Some (@Target Rops axis4_default axis4_default (@calculate Rops c (INR n * p)%R)).
Proof.
  replace (@SpinTraj Rops c 0%R T p) with (spin_st c 0) by (unfold spin_st; f_equal; cbn; lra).
  destruct (spin_tick c) as [Y N]. split.
  - apply (ticks_yields spin_next (spin_st c) (fun n => @Target Rops axis4_default axis4_default (@calculate Rops c (INR n * p)%R)) (fun n => INR n * p <= T) le_dec le_down Y N).
    intros; apply floor_count, Hp.
  - exact (ticks_some spin_next (spin_st c) (fun n => @Target Rops axis4_default axis4_default (@calculate Rops c (INR n * p)%R)) (fun n => INR n * p <= T) le_dec le_down Y N).
Qed.

Definition stop_st (q : @pose Rops) n := @StopTraj Rops (INR n * p)%R q p T.

Lemma stop_tick q :
  (forall n, INR n * p < T -> stop_next (stop_st q n) = (Some (rest_at q), stop_st q (S n))) /\
  (forall n, ~ INR n * p < T -> stop_next (stop_st q n) = (None, stop_st q n)).
Proof.
  split; intros n H; unfold stop_next, stop_st; cbn [so_t so_t_end so_pose so_period].
  - rops. destruct (Rltb_spec (INR n * p) T); [|lra]. replace (0 / 1) with 0 by field.
    do 2 f_equal. rewrite S_INR. rops. ring.
  - rops. destruct (Rltb_spec (INR n * p) T); [lra|]. reflexivity.
Qed.

Lemma stop_sampled q :
  yields stop_next (@stop_new Rops q p T) (Z.to_nat (Zceil (T / p))) /\
  forall n, INR n * p < T -> output stop_next n (@stop_new Rops q p T) = Some (rest_at q).
Proof.
  replace (@stop_new Rops q p T) with (stop_st q 0)
    by (unfold stop_new, stop_st; rewrite n0_R; f_equal; cbn; lra).
  destruct (stop_tick q) as [Y N]. split.
  - apply (ticks_yields stop_next (stop_st q) (fun _ => rest_at q) (fun n => INR n * p < T) lt_dec' lt_down Y N).
    intros; apply ceil_count, Hp.
  - exact (ticks_some stop_next (stop_st q) (fun _ => rest_at q) (fun n => INR n * p < T) lt_dec' lt_down Y N).
Qed.

(** curves: the state before the n-th sample. *)
Variables (c : @overall Rops) (x0 y0 v : R).

Definition head (t : R) : R := tx (@calculate Rops c t).
Definition gauss1 (t : R) : R := t + 21132487 / 100000000 * p.
Definition gauss2 (t : R) : R := t + 7886751 / 10000000 * p.

Fixpoint curve_pos (n : nat) : R * R :=
  match n with
  | O => (x0, y0)
  | S n =>
      let t := (INR n * p)%R in
      ((fst (curve_pos n) + v * p * (1 / 2 * cos (head (gauss1 t)) + 1 / 2 * cos (head (gauss2 t))))%R,
       (snd (curve_pos n) + v * p * (1 / 2 * sin (head (gauss1 t)) + 1 / 2 * sin (head (gauss2 t))))%R)
  end.

Definition curve_st n :=
  @CurveTraj Rops c (INR n * p)%R T p (fst (curve_pos n)) (snd (curve_pos n)) v.

Definition curve_target n : @target Rops :=
  let t := (INR n * p)%R in
  let th := tx (@calculate Rops c t) in let om := tv (@calculate Rops c t) in let al := ta (@calculate Rops c t) in
  @Target Rops
    (@Axis4 Rops (fst (curve_pos n)) (v * cos th)%R (- v * sin th * om)%R
       (- v * (cos th * (om * om) + sin th * al))%R)
    (@Axis4 Rops (snd (curve_pos n)) (v * sin th)%R (v * cos th * om)%R
       (v * (- sin th * (om * om) + cos th * al))%R)
    (@calculate Rops c t).

Lemma curve_tick :
  (forall n, INR n * p <= T -> curve_next (curve_st n) = (Some (curve_target n), curve_st (S n))) /\
  (forall n, ~ INR n * p <= T -> curve_next (curve_st n) = (None, curve_st n)).
Proof.
  split; intros n H; unfold curve_next, curve_st, curve_target; cbn [cu_t cu_t_end cu_calc cu_period cu_x cu_y cu_v].
  - rops. destruct (Rltb_spec T (INR n * p)); [lra|].
    replace (63397461 / 300000000) with (21132487 / 100000000) by field. replace (0 / 1) with 0 by field. rewrite !Rplus_0_l.
    f_equal. cbn [curve_pos fst snd]. unfold head, gauss1, gauss2. f_equal. rewrite S_INR. rops. ring.
  - rops. destruct (Rltb_spec T (INR n * p)); [reflexivity|]. lra.
Qed.

Lemma curve_sampled :
  yields curve_next (@CurveTraj Rops c 0%R T p x0 y0 v) (Z.to_nat (Zfloor (T / p) + 1)) /\
  forall n, INR n * p <= T ->
    output curve_next n (@CurveTraj Rops c 0%R T p x0 y0 v) = Some (curve_target n).
Proof.
  replace (@CurveTraj Rops c 0%R T p x0 y0 v) with (curve_st 0)
    by (unfold curve_st; f_equal; cbn; lra).
  destruct curve_tick as [Y N]. split.
  - apply (ticks_yields curve_next curve_st curve_target (fun n => INR n * p <= T) le_dec le_down Y N).
    intros; apply floor_count, Hp.
  - exact (ticks_some curve_next curve_st curve_target (fun n => INR n * p <= T) le_dec le_down Y N).
Qed.

End Sampled.

(** ** Sequences *)

Lemma after_S {K : ops} {S} (next : iterator S) n s :
  after next (Datatypes.S n) s = after next n (snd (next s)).
Proof.
  induction n as [|n IH]; [reflexivity|].
  change (after next (Datatypes.S (Datatypes.S n)) s) with (snd (next (after next (Datatypes.S n) s))).
  rewrite IH. reflexivity.
Qed.

Lemma output_S {K : ops} {S} (next : iterator S) n s :
  output next (Datatypes.S n) s = output next n (snd (next s)).
Proof. unfold output. rewrite after_S. reflexivity. Qed.

Lemma yields_pred {K : ops} {S} (next : iterator S) s n :
  yields next s (Datatypes.S n) -> exists t s', next s = (Some t, s') /\ yields next s' n.
Proof.
  intros Y. destruct (next s) as [[t|] s'] eqn:E.
  - exists t, s'. split; [reflexivity|]. intros k.
    specialize (Y (Datatypes.S k)). rewrite output_S, E in Y. cbn [snd] in Y. rewrite <- Y. lia.
  - exfalso. assert (H := proj1 (Y 0%nat) ltac:(lia)). apply H. unfold output. cbn. rewrite E. reflexivity.
Qed.

Lemma chain_second {K : ops} {A B} (na : iterator A) (nb : iterator B) b k :
  output (chain_next na nb) k (None, b) = output nb k b.
Proof.
  revert b. induction k as [|k IH]; intros b.
  - unfold output. cbn. destruct (nb b); reflexivity.
  - rewrite !output_S. cbn [chain_next]. destruct (nb b) as [o b']. cbn [snd]. apply IH.
Qed.

Lemma chain_output {K : ops} {A B} (na : iterator A) (nb : iterator B) n : forall a b k,
  yields na a n ->
  output (chain_next na nb) k (Some a, b) =
  if (k <? n)%nat then output na k a else output nb (k - n) b.
Proof.
  induction n as [|n IH]; intros a b k Y.
  - cbn [Nat.ltb Nat.leb]. rewrite Nat.sub_0_r.
    assert (E : fst (na a) = None).
    { destruct (fst (na a)) eqn:E; [|reflexivity]. exfalso.
      assert (0 < 0)%nat; [|lia]. apply Y. unfold output. cbn. congruence. }
    destruct k as [|k].
    + unfold output. cbn. destruct (na a) as [o a']. cbn in E. subst o. destruct (nb b); reflexivity.
    + rewrite !output_S. cbn [chain_next]. destruct (na a) as [o a']. cbn in E. subst o.
      destruct (nb b) as [o b']. cbn [snd]. apply chain_second.
  - destruct (yields_pred na a n Y) as (t & a' & E & Y').
    destruct k as [|k].
    + unfold output. cbn. rewrite E. reflexivity.
    + rewrite !output_S. cbn [chain_next]. rewrite E. cbn [snd]. rewrite (IH a' b k Y').
      change (S k <? S n)%nat with (k <? n)%nat. rewrite Nat.sub_succ. destruct (k <? n)%nat; reflexivity.
Qed.

Lemma chain_yields {K : ops} {A B} (na : iterator A) (nb : iterator B) a b n m :
  yields na a n -> yields nb b m -> yields (chain_next na nb) (Some a, b) (n + m).
Proof.
  intros Ya Yb k. rewrite (chain_output na nb n a b k Ya).
  destruct (Nat.ltb_spec k n) as [L|L].
  - rewrite <- (Ya k). lia.
  - rewrite <- (Yb (k - n)%nat). lia.
Qed.

Lemma shift_output {K : ops} {S} (p : pose) (next : iterator S) n s :
  output (shift_next p next) n s = option_map (shift p) (output next n s).
Proof.
  revert s. induction n as [|n IH]; intros s.
  - unfold output. cbn. unfold shift_next. destruct (next s); reflexivity.
  - rewrite !output_S, IH. unfold shift_next. destruct (next s); reflexivity.
Qed.

Lemma shift_yields {K : ops} {S} (p : pose) (next : iterator S) n s :
  yields (shift_next p next) s n <-> yields next s n.
Proof.
  unfold yields. assert (E : forall k, output (shift_next p next) k s <> None <-> output next k s <> None).
  { intros k. rewrite shift_output. destruct (output next k s); cbn; [split; discriminate | tauto]. }
  split; intros H k; [rewrite <- E | rewrite E]; apply H.
Qed.
