(** Proofs about the sensor drivers: voltmeter, IMU, range sensor. *)
From Coq Require Import ZArith List Bool Lia ZifyBool Reals Lra.
From Verif Require Import Base Num SensorsModel SensorsProofs.
Import ListNotations.
Open Scope Z_scope.
Ltac Zify.zify_post_hook ::= Z.div_mod_to_equations.

(** ** Voltmeter *)

(** the values delivered by an ADC from state [b] until state [b']. *)
Inductive adc_reads {B} (adc : B -> adc_ans * B) : B -> list Z -> B -> Prop :=
| reads_nil b : adc_reads adc b [] b
| reads_ok b v b1 vs b' : adc b = (AOk v, b1) -> adc_reads adc b1 vs b' -> adc_reads adc b (v :: vs) b'
| reads_wait b b1 vs b' : adc b = (AWouldBlock, b1) -> adc_reads adc b1 vs b' -> adc_reads adc b vs b'.

Definition dot (ws xs : list R) : R := Rsum (map (fun p => fst p * snd p)%R (combine ws xs)).

Lemma reads_app {B} (adc : B -> adc_ans * B) b vs b1 :
  adc_reads adc b vs b1 -> forall ws b2, adc_reads adc b1 ws b2 -> adc_reads adc b (vs ++ ws) b2.
Proof.
  induction 1; intros ws b2 H2; cbn [app]; [exact H2|econstructor 2; eauto|econstructor 3; eauto].
Qed.

Lemma adc_block_ok {B} (adc : B -> adc_ans * B) fuel : forall b v b',
  adc_block adc fuel b = Ret (v, b') -> adc_reads adc b [v] b'.
Proof.
  induction fuel as [|n IH]; intros b v b' E; cbn [adc_block] in E; [discriminate|].
  destruct (adc b) as [a b1] eqn:Ea. destruct a as [w| |]; try discriminate.
  - injection E as -> ->. econstructor 2; [exact Ea|constructor].
  - econstructor 3; [exact Ea|apply IH, E].
Qed.

(** the conversion of a raw reading. *)
Definition volts (ratio : R) (v : Z) : R := (IZR v * (33 / 10) * ratio / 4096)%R.

Lemma current_ok {B} (adc : B -> adc_ans * B) fuel ratio b x b' :
  @current_voltage Rops B adc fuel ratio b = Ret (x, b') ->
  exists v, adc_reads adc b [v] b' /\ x = volts ratio v.
Proof.
  unfold current_voltage. destruct (adc_block adc fuel b) as [[v b1]| |] eqn:E; try discriminate.
  cbn [bind fst snd]. intros H. injection H as <- <-. exists v. split; [apply adc_block_ok in E; exact E|].
  unfold adc_convert, volts. rops. lra.
Qed.

Lemma vm_sum_ok {B} (adc : B -> adc_ans * B) n : forall fuel ratio sum b x b',
  @vm_sum Rops B adc n fuel ratio sum b = Ret (x, b') ->
  exists vs, adc_reads adc b vs b' /\ length vs = n /\ x = (sum + Rsum (map (volts ratio) vs))%R.
Proof.
  induction n as [|n IH]; intros fuel ratio sum b x b' E; cbn [vm_sum] in E.
  - injection E as <- <-. exists []. split; [constructor|split; [reflexivity|]]. cbn. rops. lra.
  - destruct (current_voltage adc fuel ratio b) as [[y b1]| |] eqn:Ec; try discriminate.
    cbn [bind fst snd] in E. apply current_ok in Ec. destruct Ec as (v & Hv & ->).
    apply IH in E. destruct E as (vs & Hvs & Hl & ->).
    exists (v :: vs). split; [exact (reads_app _ _ _ _ Hv _ _ Hvs)|]. split; [cbn; lia|].
    cbn [map Rsum fold_right]. fold (Rsum (map (volts ratio) vs)). rops. lra.
Qed.

(** weights of the last [n] readings. *)
Definition uw (a : R) (n : nat) : list R := map (fun k => (1 - a) * a ^ (n - 1 - k))%R (seq 0 n).

Lemma uw_S a n : uw a (S n) = ((1 - a) * a ^ n)%R :: uw a n.
Proof.
  unfold uw. cbn [seq map]. f_equal; [do 2 f_equal; lia|].
  rewrite <- seq_shift, map_map. apply map_ext. intros k. do 2 f_equal. lia.
Qed.

Lemma vm_updates_ok {B} (adc : B -> adc_ans * B) n : forall fuel (v : @voltmeter Rops) b v' b',
  vm_updates adc n fuel v b = Ret (v', b') ->
  exists vs, adc_reads adc b vs b' /\ length vs = n /\
    v_voltage v' = ((v_alpha v) ^ n * v_voltage v + dot (uw (v_alpha v) n) (map (volts (v_ratio v)) vs))%R.
Proof.
  induction n as [|n IH]; intros fuel v b v' b' E; cbn [vm_updates] in E.
  - injection E as <- <-. exists []. split; [constructor|split; [reflexivity|]]. cbn. rops. lra.
  - unfold vm_update in E.
    destruct (current_voltage adc fuel (v_ratio v) b) as [[y b1]| |] eqn:Ec; try discriminate.
    cbn [bind fst snd] in E. apply current_ok in Ec. destruct Ec as (w & Hw & ->).
    apply IH in E. destruct E as (vs & Hvs & Hl & E). cbn [v_alpha v_ratio v_voltage] in E.
    exists (w :: vs). split; [exact (reads_app _ _ _ _ Hw _ _ Hvs)|]. split; [cbn; lia|].
    rewrite E, uw_S. unfold dot. cbn [map combine Rsum fold_right fst snd pow].
    fold (Rsum (map (fun p => fst p * snd p)%R (combine (uw (v_alpha v) n) (map (volts (v_ratio v)) vs)))).
    unfold n1. rops. field.
Qed.

Definition weights (a : R) (n : nat) : list R := repeat (a ^ n / 100)%R 100 ++ uw a n.

Lemma Rsum_app l1 l2 : Rsum (l1 ++ l2) = (Rsum l1 + Rsum l2)%R.
Proof. unfold Rsum. induction l1 as [|x l IH]; cbn [app fold_right]; [lra|]. rewrite IH. lra. Qed.

Lemma dot_app l1 l2 m1 m2 : length l1 = length m1 -> dot (l1 ++ l2) (m1 ++ m2) = (dot l1 m1 + dot l2 m2)%R.
Proof.
  revert m1. induction l1 as [|x l IH]; intros [|y m] H; try discriminate.
  - unfold dot. cbn [app combine map]. unfold Rsum. cbn [fold_right]. lra.
  - unfold dot, Rsum in *. cbn [app combine map fold_right fst snd].
    rewrite IH by (cbn in H; lia). lra.
Qed.

Lemma dot_repeat c n : forall l, length l = n -> dot (repeat c n) l = (c * Rsum l)%R.
Proof.
  induction n as [|n IH]; intros [|x l] H; try discriminate; unfold dot, Rsum in *; cbn [repeat combine map fold_right fst snd]; [lra|].
  rewrite IH by (cbn in H; lia). lra.
Qed.

Lemma vm_ok {B} (adc : B -> adc_ans * B) fuel period freq ratio b v0 b0 n v b1 :
  @vm_new Rops B adc fuel period freq ratio b = Ret (v0, b0) ->
  vm_updates adc n fuel v0 b0 = Ret (v, b1) ->
  exists vs, adc_reads adc b vs b1 /\ length vs = (100 + n)%nat /\
    v_voltage v = dot (weights (1 / (2 * PI * (period * freq) + 1)) n) (map (volts ratio) vs).
Proof.
  unfold vm_new. intros E0 E1.
  destruct (vm_sum adc 100 fuel ratio n0 b) as [[s b2]| |] eqn:Es; try discriminate.
  cbn [bind fst snd] in E0. injection E0 as <- <-.
  apply vm_sum_ok in Es. destruct Es as (vs & H1 & H2 & ->).
  apply vm_updates_ok in E1. destruct E1 as (us & H3 & H4 & E). cbn [v_alpha v_ratio v_voltage] in E.
  exists (vs ++ us). split; [eapply reads_app; eauto|]. split; [rewrite app_length; lia|].
  rewrite map_app. unfold weights. rewrite dot_app by (rewrite repeat_length, map_length; congruence).
  rewrite dot_repeat by (rewrite map_length; exact H2).
  rewrite E. unfold vm_alpha, n0, n1, n2. rops.
  replace (1 / 1 / (2 / 1 * PI * (period * freq) + 1 / 1))%R with (1 / (2 * PI * (period * freq) + 1))%R
    by (unfold Rdiv; rewrite Rinv_1, !Rmult_1_r; reflexivity).
  unfold Rdiv. ring.
Qed.

Lemma uw_sum a n : Rsum (uw a n) = (1 - a ^ n)%R.
Proof.
  induction n as [|n IH]; [cbn; lra|]. rewrite uw_S. cbn [Rsum fold_right pow].
  fold (Rsum (uw a n)). rewrite IH. ring.
Qed.

Lemma weights_ok a n : (0 < a < 1)%R ->
  Forall (fun w => (0 <= w)%R) (weights a n) /\ Rsum (weights a n) = 1%R /\ length (weights a n) = (100 + n)%nat.
Proof.
  intros Ha. assert (Hp : forall k, (0 < a ^ k)%R) by (intros; apply pow_lt; lra).
  split; [|split].
  - apply Forall_app. split.
    + apply Forall_forall. intros x Hx. apply repeat_spec in Hx. subst. specialize (Hp n). lra.
    + apply Forall_forall. intros x Hx. unfold uw in Hx. apply in_map_iff in Hx.
      destruct Hx as (k & <- & _). apply Rmult_le_pos; [lra|left; apply Hp].
  - unfold weights. rewrite Rsum_app, uw_sum.
    assert (E : forall m c, Rsum (repeat c m) = (INR m * c)%R).
    { induction m as [|m IH]; intros c; [cbn; lra|]. cbn [repeat Rsum fold_right].
      fold (Rsum (repeat c m)). rewrite IH, S_INR. ring. }
    rewrite E. replace (INR 100) with 100%R by (rewrite INR_IZR_INZ; reflexivity). field.
  - unfold weights, uw. rewrite app_length, repeat_length, map_length, seq_length. reflexivity.
Qed.

Lemma dot_hull lo hi : forall ws xs, length ws = length xs ->
  Forall (fun w => (0 <= w)%R) ws -> Forall (fun x => (lo <= x <= hi)%R) xs ->
  (lo * Rsum ws <= dot ws xs <= hi * Rsum ws)%R.
Proof.
  induction ws as [|w ws IH]; intros [|x xs] Hl Hw Hx; try discriminate.
  - cbn. lra.
  - inversion Hw; subst. inversion Hx; subst. unfold dot, Rsum in *. cbn [combine map fold_right fst snd].
    specialize (IH xs ltac:(cbn in Hl; lia) ltac:(auto) ltac:(auto)).
    assert (lo * w <= w * x <= hi * w)%R.
    { split; rewrite (Rmult_comm w); apply Rmult_le_compat_r; lra. }
    lra.
Qed.

Lemma alpha_range period freq : (0 < period)%R -> (0 < freq)%R ->
  (0 < 1 / (2 * PI * (period * freq) + 1) < 1)%R.
Proof.
  intros Hp Hf. assert (0 < period * freq)%R by (apply Rmult_lt_0_compat; lra).
  assert (0 < 2 * PI * (period * freq))%R.
  { apply Rmult_lt_0_compat; [|lra]. pose proof PI_RGT_0. lra. }
  unfold Rdiv. rewrite Rmult_1_l. split; [apply Rinv_0_lt_compat; lra|].
  rewrite <- Rinv_1. apply Rinv_lt_contravar; lra.
Qed.

(** ** The driver monad: an invariant is preserved whatever the outcome *)

Definition pres {S A} (P : S -> Prop) (m : M S A) : Prop := forall s, P s -> P (snd (m s)).

Lemma pres_ret {S A} P (a : A) : @pres S A P (mret a).
Proof. intros s H. exact H. Qed.
Lemma pres_stop {S A} P : @pres S A P mstop.
Proof. intros s H. exact H. Qed.
Lemma pres_bind {S A C} P (m : M S A) (k : A -> M S C) :
  pres P m -> (forall a, pres P (k a)) -> pres P (mbind m k).
Proof.
  intros Hm Hk s H. unfold mbind. specialize (Hm s H). destruct (m s) as [[a| |] s']; cbn in *; auto.
  apply Hk, Hm.
Qed.
Lemma pres_wait {S A} P (m : M S (option A)) fuel : pres P m -> pres P (wait_ok fuel m).
Proof.
  intros H. induction fuel as [|n IH]; cbn [wait_ok]; [intros s Hs; exact Hs|].
  apply pres_bind; [exact H|]. intros [a|]; [apply pres_ret|exact IH].
Qed.
Lemma pres_block {S A} P (m : M S (nbr A)) fuel : pres P m -> pres P (block fuel m).
Proof.
  intros H. induction fuel as [|n IH]; cbn [block]; [intros s Hs; exact Hs|].
  apply pres_bind; [exact H|]. intros [a| |]; [apply pres_ret|apply pres_ret|exact IH].
Qed.

Section ImuProofs.
  Context {K : ops} {B : Type} (env : spi_env B).

  (** an invariant of bus operations that ignores the offsets lifts to all calls. *)
  Section Lift.
    Variable P : imu B -> Prop.
    Hypothesis Hoff : forall s a g, P s -> P (Imu (i_bus s) (i_high s) (i_log s) a g).
    Hypothesis Htim : pres P (timer_wait env).
    Hypothesis Hwr : forall a d, pres P (write_to_register env a d).
    Hypothesis Hrd : forall a n, pres P (read_from_registers env a n).

    Lemma pres_at l i : pres P (at_index l i).
    Proof. unfold at_index. destruct (nth_error l i); [apply pres_ret|apply pres_stop]. Qed.

    Lemma pres_get : pres P get_accel /\ pres P get_gyro.
    Proof. split; intros s H; exact H. Qed.

    Lemma pres_gyro : pres P (angular_velocity env).
    Proof.
      apply pres_bind; [apply Hrd|]. intros [l|]; [|apply pres_ret].
      apply pres_bind; [apply pres_at|intros h]. apply pres_bind; [apply pres_at|intros lo].
      apply pres_bind; [apply pres_get|intros o]. apply pres_ret.
    Qed.

    Lemma pres_accel : pres P (translational_acceleration env).
    Proof.
      apply pres_bind; [apply Hrd|]. intros [l|]; [|apply pres_ret].
      apply pres_bind; [apply pres_at|intros h]. apply pres_bind; [apply pres_at|intros lo].
      apply pres_bind; [apply pres_get|intros o]. apply pres_ret.
    Qed.

    Lemma pres_loop fuel n : forall sa sg, pres P (calib_loop env n fuel sa sg).
    Proof.
      induction n as [|n IH]; intros sa sg; cbn [calib_loop]; [apply pres_ret|].
      apply pres_bind; [apply pres_block, pres_accel|]. intros [a|]; [|apply pres_ret].
      apply pres_bind; [apply pres_block, pres_gyro|]. intros [g|]; [|apply pres_ret].
      apply pres_bind; [apply pres_block, Htim|]. intros _. apply IH.
    Qed.

    Lemma pres_set a g : pres P (set_offsets a g).
    Proof. intros s H. apply Hoff, H. Qed.

    Lemma pres_calibrate fuel : pres P (calibrate env fuel).
    Proof.
      apply pres_bind; [apply pres_loop|]. intros [[sa sg]|]; [|apply pres_ret].
      apply pres_bind; [apply pres_get|intros a0]. apply pres_bind; [apply pres_get|intros g0].
      apply pres_bind; [apply pres_set|intros _]. apply pres_ret.
    Qed.

    Lemma pres_init fuel : pres P (imu_init env fuel).
    Proof.
      unfold imu_init.
      repeat (apply pres_bind; [first [apply pres_wait, Hwr|apply pres_set|apply pres_wait, pres_calibrate|idtac]|intros _]).
      - apply pres_wait, pres_block. apply pres_bind; [apply Hrd|].
        intros [l|]; [|apply pres_ret]. apply pres_bind; [apply pres_at|intros v]. apply pres_ret.
      - apply pres_wait, pres_calibrate.
    Qed.

    Lemma pres_call fuel c : pres P (imu_do env fuel c).
    Proof.
      destruct c; cbn [imu_do]; [apply pres_init| | |];
        (apply pres_bind; [|intros _; apply pres_ret]);
        [apply pres_calibrate|apply pres_gyro|apply pres_accel].
    Qed.

    Lemma pres_calls fuel cs : pres P (imu_calls env fuel cs).
    Proof.
      induction cs as [|c cs IH]; cbn [imu_calls]; [apply pres_ret|].
      apply pres_bind; [apply pres_call|intros _; exact IH].
    Qed.
  End Lift.

  Definition all_low (s : imu B) : Prop := Forall (fun e => fst (fst e) = false) (i_log s).

  Lemma pin_state h s : let (r, s') := pin_set env h s in
    i_log s' = i_log s /\ i_accel s' = i_accel s /\ i_gyro s' = i_gyro s /\
    exists o, r = Val o /\ (o = Some tt -> i_high s' = h).
  Proof.
    unfold pin_set. destruct (e_pin env (i_bus s) h) as [[ok lvl] b]. cbn.
    repeat split; auto. eexists. split; [reflexivity|]. destruct ok; [auto|discriminate].
  Qed.

  Lemma write_low a d : pres all_low (write_to_register env a d).
  Proof.
    intros s H. unfold write_to_register, assert_cs, deassert_cs, mbind.
    pose proof (pin_state false s) as P0. destruct (pin_set env false s) as [r0 s0].
    destruct P0 as (E1 & _ & _ & o & -> & Hh). destruct o as [[]|]; cbn [mret snd].
    - specialize (Hh eq_refl). unfold transfer. destruct (e_transfer env (i_bus s0) [a; d]) as [tr b].
      set (s1 := Imu _ _ _ _ _). assert (H1 : all_low s1).
      { unfold all_low. cbn. rewrite E1. constructor; [exact Hh|exact H]. }
      clearbody s1. cbn. pose proof (pin_state true s1) as P1. destruct (pin_set env true s1) as [r1 s2].
      destruct P1 as (E2 & _ & _ & o & -> & _). destruct o; cbn; unfold all_low; rewrite E2; exact H1.
    - unfold all_low. rewrite E1. exact H.
  Qed.

  Lemma read_low a n : pres all_low (read_from_registers env a n).
  Proof.
    intros s H. unfold read_from_registers, assert_cs, deassert_cs, mbind.
    pose proof (pin_state false s) as P0. destruct (pin_set env false s) as [r0 s0].
    destruct P0 as (E1 & _ & _ & o & -> & Hh). destruct o as [[]|]; cbn [mret snd].
    - specialize (Hh eq_refl). unfold transfer.
      destruct (e_transfer env (i_bus s0) (Z.lor a 128 :: repeat 0 (n - 1))) as [tr b].
      set (s1 := Imu _ _ _ _ _). assert (H1 : all_low s1).
      { unfold all_low. cbn. rewrite E1. constructor; [exact Hh|exact H]. }
      clearbody s1. cbn. pose proof (pin_state true s1) as P1. destruct (pin_set env true s1) as [r1 s2].
      destruct P1 as (E2 & _ & _ & o & -> & _). destruct o; cbn; unfold all_low; rewrite E2; exact H1.
    - unfold all_low. rewrite E1. exact H.
  Qed.

  Lemma calls_low fuel cs : pres all_low (imu_calls env fuel cs).
  Proof.
    apply pres_calls; [intros s a g H; exact H| |apply write_low|apply read_low].
    intros s H. unfold timer_wait. destruct (e_timer env (i_bus s)). exact H.
  Qed.

  Lemma calls_high fuel cs : (forall b h, fst (fst (e_pin env b h)) = true) ->
    pres (fun s => i_high s = true) (imu_calls env fuel cs).
  Proof.
    intros Hp. assert (Hpin : forall h s, exists s', pin_set env h s = (Val (Some tt), s') /\ i_high s' = h).
    { intros h s. unfold pin_set. specialize (Hp (i_bus s) h).
      destruct (e_pin env (i_bus s) h) as [[ok lvl] b]. cbn in Hp. subst ok. eexists. split; reflexivity. }
    apply pres_calls.
    - intros s a g H; exact H.
    - intros s H. unfold timer_wait. destruct (e_timer env (i_bus s)). exact H.
    - intros a d s _. unfold write_to_register, assert_cs, deassert_cs, mbind.
      destruct (Hpin false s) as (s1 & -> & _). unfold transfer. destruct (e_transfer env (i_bus s1) [a; d]).
      match goal with |- context [pin_set env true ?x] => destruct (Hpin true x) as (s2 & -> & Hs) end. exact Hs.
    - intros a n s _. unfold read_from_registers, assert_cs, deassert_cs, mbind.
      destruct (Hpin false s) as (s1 & -> & _). unfold transfer.
      destruct (e_transfer env (i_bus s1) (Z.lor a 128 :: repeat 0 (n - 1))).
      match goal with |- context [pin_set env true ?x] => destruct (Hpin true x) as (s2 & -> & Hs) end. exact Hs.
  Qed.

  (** chip-select is high after a single reading from any level. *)
  Lemma one_call_high fuel c s : (forall b h, fst (fst (e_pin env b h)) = true) ->
    (c = CGyro \/ c = CAccel) -> i_high (snd (imu_do env fuel c s)) = true.
  Proof.
    intros Hp Hc. assert (Hpin : forall h s, exists s', pin_set env h s = (Val (Some tt), s') /\ i_high s' = h).
    { intros h s0. unfold pin_set. specialize (Hp (i_bus s0) h).
      destruct (e_pin env (i_bus s0) h) as [[ok lvl] b]. cbn in Hp. subst ok. eexists. split; reflexivity. }
    assert (Hr : forall a n s, i_high (snd (read_from_registers env a n s)) = true).
    { intros a n s0. unfold read_from_registers, assert_cs, deassert_cs, mbind.
      destruct (Hpin false s0) as (s1 & -> & _). unfold transfer.
      destruct (e_transfer env (i_bus s1) (Z.lor a 128 :: repeat 0 (n - 1))).
      match goal with |- context [pin_set env true ?x] => destruct (Hpin true x) as (s2 & -> & Hs) end. exact Hs. }
    destruct Hc as [-> | ->]; cbn [imu_do]; unfold angular_velocity, translational_acceleration, mbind at 1 2.
    - specialize (Hr 55 3%nat s). destruct (read_from_registers env 55 3 s) as [[[l|]| |] s1]; cbn in Hr |- *; auto.
      unfold mbind, at_index. destruct l as [|x [|y l]]; exact Hr.
    - specialize (Hr 47 3%nat s). destruct (read_from_registers env 47 3 s) as [[[l|]| |] s1]; cbn in Hr |- *; auto.
      unfold mbind, at_index. destruct l as [|x [|y l]]; exact Hr.
  Qed.
End ImuProofs.
