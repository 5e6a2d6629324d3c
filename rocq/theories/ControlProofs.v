From Coq Require Import ZArith Reals List Bool Lra Lia Ranalysis.
From Flocq Require Import Core.
From Verif Require Import Base Num ControlModel ControlSpec.
Import ListNotations.
Open Scope R_scope.

(** ** Controller *)

Lemma run_calls_state {K : ops} tp rp T (h : list call) acc :
  run_calls (Controller tp rp (integral T c_v acc) (integral T c_omega acc) T) h =
  Controller tp rp (integral T c_v (since_reset acc h)) (integral T c_omega (since_reset acc h)) T.
Proof.
  revert acc; induction h as [|[r y|] h IH]; intros acc; [reflexivity| |].
  - cbn [run_calls fold_left since_reset]. rewrite <- IH. unfold run_calls. f_equal.
    cbn [step_call control control_each snd trans_params rot_params trans_sum rot_sum c_period].
    unfold integral. rewrite !fold_left_app. reflexivity.
  - cbn [run_calls fold_left since_reset step_call]. apply (IH []).
Qed.

Lemma control_history {K : ops} tp rp T (h : list call) (r y : control_target) :
  let l := since_reset [] h in
  let vt := ff_pid tp (c_v r) (c_a r) (c_v y) (c_a y) (integral T c_v l) in
  let vr := ff_pid rp (c_omega r) (c_alpha r) (c_omega y) (c_alpha y) (integral T c_omega l) in
  fst (control (run_calls (controller_new tp rp T) h) r y) =
  MotorOutput (vt - vr)%num (vt + vr)%num.
Proof.
  intros l vt vr. subst l vt vr.
  pose proof (run_calls_state tp rp T h []) as H.
  change (integral T c_v []) with (@n0 K) in H. change (integral T c_omega []) with (@n0 K) in H.
  unfold controller_new. rewrite H. reflexivity.
Qed.

Lemma reset_new {K : ops} tp rp T (h : list call) :
  reset (run_calls (controller_new tp rp T) h) = controller_new tp rp T.
Proof.
  pose proof (run_calls_state tp rp T h []) as H.
  change (integral T c_v []) with (@n0 K) in H. change (integral T c_omega []) with (@n0 K) in H.
  unfold controller_new. rewrite H. reflexivity.
Qed.

Lemma integral_sum (T : R) (f : @control_target Rops -> R) l :
  @integral Rops T f l = Rsum (map (fun p => f (fst p) - f (snd p)) l) * T.
Proof.
  unfold integral.
  cut (forall a : R, fold_left (fun s p => (s + (f (fst p) - f (snd p)) * T)) l a =
            a + Rsum (map (fun p => f (fst p) - f (snd p)) l) * T).
  { intros H. specialize (H 0). rops. unfold Rdiv. rewrite Rmult_0_l.
    etransitivity; [exact H|ring]. }
  induction l as [|p l IH]; intros a; cbn [fold_left map Rsum]; [ring|].
  rewrite IH. ring.
Qed.

(** ** Angles *)

Lemma rem_euclid_R x y : 0 < y ->
  0 <= @rem_euclid Rops x y < y /\ exists k : Z, @rem_euclid Rops x y = x + IZR k * y.
Proof.
  intros Hy. unfold rem_euclid. rops. unfold Rrem.
  set (q := Ztrunc (x / y)).
  assert (Hx : x = x / y * y) by (field; lra).
  destruct (Rltb_spec (x - y * IZR q) (0 / 1)) as [H|H].
  - assert (x / y < 0).
    { destruct (Rlt_or_le (x / y) 0) as [L|L]; [exact L|exfalso].
      unfold q in H. rewrite Ztrunc_floor in H by exact L.
      pose proof (Zfloor_lb (x / y)). nra. }
    rewrite Rabs_pos_eq by lra.
    unfold q in *. rewrite Ztrunc_ceil in * by lra.
    pose proof (Zceil_ub (x / y)). pose proof (Zceil_lb (x / y)).
    split; [split; nra|]. exists (1 - Zceil (x / y))%Z. rewrite minus_IZR. ring.
  - destruct (Rlt_or_le (x / y) 0) as [L|L].
    + unfold q in *. rewrite Ztrunc_ceil in * by lra.
      pose proof (Zceil_ub (x / y)). pose proof (Zceil_lb (x / y)).
      split; [split; nra|]. exists (- Zceil (x / y))%Z. rewrite opp_IZR. ring.
    + unfold q in *. rewrite Ztrunc_floor in * by exact L.
      pose proof (Zfloor_lb (x / y)). pose proof (Zfloor_ub (x / y)).
      split; [split; nra|]. exists (- Zfloor (x / y))%Z. rewrite opp_IZR. ring.
Qed.

Lemma normalize_ok (a : R) :
  - PI < @normalize_angle Rops a <= PI /\
  exists k : Z, @normalize_angle Rops a = a + 2 * PI * IZR k.
Proof.
  unfold normalize_angle.
  pose proof PI_RGT_0 as P.
  assert (Hp : 0 < (@n2 Rops * @npi Rops)%num) by (rops; lra).
  destruct (rem_euclid_R a _ Hp) as [B [k E]].
  set (r := @rem_euclid Rops a _) in *. clearbody r.
  rops. destruct (Rltb_spec PI r) as [L|L].
  - split; [lra|]. exists (k - 1)%Z. rewrite minus_IZR. rewrite E. field.
  - split; [lra|]. exists k. rewrite E. field.
Qed.

Lemma normalize_unique (a b : R) (k : Z) :
  - PI < b <= PI -> b = a + 2 * PI * IZR k -> @normalize_angle Rops a = b.
Proof.
  intros B E. destruct (normalize_ok a) as [C [m F]].
  pose proof PI_RGT_0.
  assert (G : @normalize_angle Rops a - b = 2 * PI * IZR (m - k)) by (rewrite minus_IZR; lra).
  assert (m - k = 0)%Z.
  { assert (-1 < IZR (m - k) < 1) by (split; nra).
    destruct H0 as [H1 H2].
    apply (lt_IZR (-1)) in H1. apply (lt_IZR _ 1) in H2. lia. }
  rewrite H0 in G. rewrite Rmult_0_r in G. lra.
Qed.

Lemma normalize_0 : @normalize_angle Rops 0 = 0.
Proof.
  apply (normalize_unique 0 0 0). { pose proof PI_RGT_0. lra. } ring.
Qed.

(** ** sinc *)

Lemma sinc_eq (x : R) : @sinc Rops x =
  1 - x ^ 2 / 6 + x ^ 4 / 120 - x ^ 6 / 5040 + x ^ 8 / 362880.
Proof. unfold sinc. rops. field. Qed.

Lemma fact_S n : INR (fact (S n)) = (INR n + 1) * INR (fact n).
Proof. rewrite fact_simpl, mult_INR, S_INR. reflexivity. Qed.
Lemma fact_1 : INR (fact 1) = 1.
Proof. reflexivity. Qed.
Lemma fact_3 : INR (fact 3) = 6.
Proof. rewrite 2 fact_S, fact_1. rewrite !S_INR. change (INR 0) with 0. ring. Qed.
Lemma fact_5 : INR (fact 5) = 120.
Proof. rewrite 2 fact_S, fact_3. rewrite !S_INR. change (INR 0) with 0. ring. Qed.
Lemma fact_7 : INR (fact 7) = 5040.
Proof. rewrite 2 fact_S, fact_5. rewrite !S_INR. change (INR 0) with 0. ring. Qed.
Lemma fact_9 : INR (fact 9) = 362880.
Proof. rewrite 2 fact_S, fact_7. rewrite !S_INR. change (INR 0) with 0. ring. Qed.
Lemma fact_11 : INR (fact 11) = 39916800.
Proof. rewrite 2 fact_S, fact_9. rewrite !S_INR. change (INR 0) with 0. ring. Qed.

Lemma sinc_bound_pos x : 0 < x <= 4 ->
  0 <= @sinc Rops x - sin x / x <= x ^ 10 / 39916800.
Proof.
  intros [H0 H4].
  pose proof (pre_sin_bound x 1 ltac:(lra) H4) as [_ U].
  pose proof (pre_sin_bound x 2 ltac:(lra) H4) as [L _].
  unfold sin_approx, sin_term in U, L. cbn -[fact pow INR] in U, L.
  rewrite fact_1, fact_3, fact_5, fact_7, fact_9 in U.
  rewrite fact_1, fact_3, fact_5, fact_7, fact_9, fact_11 in L.
  assert (E : sin x = x * (sin x / x)) by (field; lra).
  set (q := sin x / x) in *. clearbody q. rewrite E in U, L. clear E.
  rewrite sinc_eq.
  assert (U' : x * q <= x * (1 - x ^ 2 / 6 + x ^ 4 / 120 - x ^ 6 / 5040 + x ^ 8 / 362880))
    by (eapply Rle_trans; [exact U|apply Req_le; field]).
  assert (L' : x * (1 - x ^ 2 / 6 + x ^ 4 / 120 - x ^ 6 / 5040 + x ^ 8 / 362880
                    - x ^ 10 / 39916800) <= x * q)
    by (eapply Rle_trans; [|exact L]; apply Req_le; field).
  apply Rmult_le_reg_l in U'; [|exact H0]. apply Rmult_le_reg_l in L'; [|exact H0].
  lra.
Qed.

Lemma sinc_bound x : x <> 0 -> Rabs x <= 4 ->
  Rabs (@sinc Rops x - sin x / x) <= x ^ 10 / 39916800.
Proof.
  intros H0 H4. destruct (Rlt_or_le 0 x) as [P|N].
  - rewrite Rabs_pos_eq in H4 by lra. destruct (sinc_bound_pos x) as [A B]; [lra|].
    rewrite Rabs_pos_eq; assumption.
  - rewrite Rabs_left in H4 by lra. destruct (sinc_bound_pos (- x)) as [A B]; [lra|].
    assert (E1 : @sinc Rops (- x)%R = @sinc Rops x :> R) by (rewrite (sinc_eq x); etransitivity; [apply (sinc_eq (- x))|]; field).
    assert (E2 : sin (- x) / (- x) = sin x / x) by (rewrite sin_neg; field; exact H0).
    rewrite E1, E2 in *.
    replace ((- x) ^ 10) with (x ^ 10) in B by ring.
    rewrite Rabs_pos_eq; assumption.
Qed.
