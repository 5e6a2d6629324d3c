(** The curves of the tabulated slaloms in closed form: with [k] the speed relative to the reference
    speed, the heading at time [t] is the heading of one fixed turn at time [k * t]. *)
From Coq Require Import ZArith Reals List Bool Lia Lra QArith Qreals.
From Verif Require Import Base Num SearchModel RunModel ControlModel TrajModel TrajSpec TrajProofs TrajProofs2.
Import ListNotations.
Open Scope R_scope.

(** the turn by [pi * d] with the limits 3 pi, 36 pi, 1200 pi and the peak [pi * r], divided by pi. *)
Definition ramp_t (r : R) : R := r / 36 + 3 / 100.
Definition cruise_t (r d : R) : R := (d - r * ramp_t r) / r.
Definition turn_t (r d : R) : R := 2 * ramp_t r + cruise_t r d.
Definition rise (r t : R) : R :=
  if Rle_dec t (3 / 100) then 200 * t * t * t
  else if Rle_dec t (r / 36) then
    200 * (3 / 100) * (3 / 100) * (3 / 100) + 54 / 100 * (t - 3 / 100) + 18 * (t - 3 / 100) * (t - 3 / 100)
  else r * ramp_t r / 2 - r * (ramp_t r - t) + 200 * (ramp_t r - t) * (ramp_t r - t) * (ramp_t r - t).
Definition turn (r d t : R) : R :=
  if Rle_dec t (ramp_t r) then rise r t
  else if Rle_dec t (ramp_t r + cruise_t r d) then r * ramp_t r / 2 + r * (t - ramp_t r)
  else
    let u := t - (ramp_t r + cruise_t r d) in
    if Rle_dec u (3 / 100) then d - r * ramp_t r / 2 + r * u - 200 * u * u * u
    else if Rle_dec u (r / 36) then
      d - r * ramp_t r / 2 + r * (3 / 100) - 200 * (3 / 100) * (3 / 100) * (3 / 100)
      + (r - 54 / 100) * (u - 3 / 100) - 18 * (u - 3 / 100) * (u - 3 / 100)
    else d - 200 * (ramp_t r - u) * (ramp_t r - u) * (ramp_t r - u).

Section Closed.
Variables (k r d s : R).
Hypothesis Hk : 0 < k.
Hypothesis Hr : 108 / 100 <= r.
Hypothesis Hd : r * ramp_t r <= d.
Let g : @generator Rops := @Generator Rops (k * (3 * PI))%R (k * k * (36 * PI))%R (k * k * k * (1200 * PI))%R.

Lemma rt_pos : 0 < ramp_t r.
Proof. unfold ramp_t. lra. Qed.
Lemma ct_pos : 0 <= cruise_t r d.
Proof. unfold cruise_t. apply Rmult_le_pos; [lra | left; apply Rinv_0_lt_compat; lra]. Qed.

Lemma div_le (a b : R) : a / k <= b / k <-> a <= b.
Proof.
  assert (0 < / k) by (apply Rinv_0_lt_compat, Hk). unfold Rdiv. split; intros H1; [|nra].
  apply Rmult_le_reg_r with (/ k); assumption.
Qed.

Lemma leb_div (a b : R) : Rleb (a / k) (b / k) = Rleb a b.
Proof.
  destruct (div_le a b) as [H1 H2].
  destruct (Rleb_spec (a / k) (b / k)) as [L|L], (Rleb_spec a b) as [M|M]; try reflexivity; exfalso.
  - specialize (H1 L). lra.
  - apply L, H2, M.
Qed.

Lemma accel_up x0 : generate_acceleration g x0 0%R (k * (PI * r))%R =
  (@AccelCalc Rops x0 0%R (x0 + PI * (r * ramp_t r / 2))%R (k * (PI * r))%R (k * k * (36 * PI))%R
     (k * k * k * (1200 * PI))%R (3 / 100 / k)%R (r / 36 / k)%R (ramp_t r / k)%R, (ramp_t r / k)%R).
Proof.
  pose proof PI_RGT_0 as HP. unfold generate_acceleration, g. cbn [g_a_max g_j_max]. rops.
  assert (P1 : 0 < k * (PI * r)) by (apply Rmult_lt_0_compat; [lra | apply Rmult_lt_0_compat; lra]).
  rewrite Rminus_0_r, Rabs_pos_eq by lra.
  replace (k * k * (36 * PI) / (k * k * k * (1200 * PI))) with (3 / 100 / k) by (field; lra).
  destruct (Rleb_spec (k * k * (36 * PI) * (3 / 100 / k)) (k * (PI * r))) as [L|L].
  2:{ exfalso. replace (k * k * (36 * PI) * (3 / 100 / k)) with (k * PI * (108 / 100)) in L by (field; lra).
      assert (0 < k * PI) by (apply Rmult_lt_0_compat; lra). nra. }
  replace (k * (PI * r) / (k * k * (36 * PI))) with (r / 36 / k) by (field; lra).
  destruct (Rleb_spec 0 (k * (PI * r))); [|lra].
  assert (E1 : 3 / 100 / k + (r / 36 / k - 3 / 100 / k) = r / 36 / k) by ring.
  assert (E2 : 2 / 1 * (3 / 100 / k) + (r / 36 / k - 3 / 100 / k) = ramp_t r / k) by (unfold ramp_t; field; lra).
  rewrite E1, E2.
  assert (E3 : (0 + k * (PI * r)) * (ramp_t r / k) / (2 / 1) = PI * (r * ramp_t r / 2)) by (unfold ramp_t; field; lra).
  rewrite E3. reflexivity.
Qed.

Lemma accel_down x0 : generate_acceleration g x0 (k * (PI * r))%R 0%R =
  (@AccelCalc Rops x0 (k * (PI * r))%R (x0 + PI * (r * ramp_t r / 2))%R 0%R (- (k * k * (36 * PI)))%R
     (- (k * k * k * (1200 * PI)))%R (3 / 100 / k)%R (r / 36 / k)%R (ramp_t r / k)%R, (ramp_t r / k)%R).
Proof.
  pose proof PI_RGT_0 as HP. unfold generate_acceleration, g. cbn [g_a_max g_j_max]. rops.
  assert (P1 : 0 < k * (PI * r)) by (apply Rmult_lt_0_compat; [lra | apply Rmult_lt_0_compat; lra]).
  rewrite Rabs_left by lra. replace (- (0 - k * (PI * r))) with (k * (PI * r)) by ring.
  replace (k * k * (36 * PI) / (k * k * k * (1200 * PI))) with (3 / 100 / k) by (field; lra).
  destruct (Rleb_spec (k * k * (36 * PI) * (3 / 100 / k)) (k * (PI * r))) as [L|L].
  2:{ exfalso. replace (k * k * (36 * PI) * (3 / 100 / k)) with (k * PI * (108 / 100)) in L by (field; lra).
      assert (0 < k * PI) by (apply Rmult_lt_0_compat; lra). nra. }
  replace (k * (PI * r) / (k * k * (36 * PI))) with (r / 36 / k) by (field; lra).
  destruct (Rleb_spec (k * (PI * r)) 0); [lra|].
  assert (E1 : 3 / 100 / k + (r / 36 / k - 3 / 100 / k) = r / 36 / k) by ring.
  assert (E2 : 2 / 1 * (3 / 100 / k) + (r / 36 / k - 3 / 100 / k) = ramp_t r / k) by (unfold ramp_t; field; lra).
  rewrite E1, E2.
  assert (E3 : (k * (PI * r) + 0) * (ramp_t r / k) / (2 / 1) = PI * (r * ramp_t r / 2)) by (unfold ramp_t; field; lra).
  rewrite E3. reflexivity.
Qed.

Lemma dist_scaled m : 108 / 100 <= m -> ramp_distance (k * k * (36 * PI)) (k * k * k * (1200 * PI)) 0 (k * (PI * m)) = PI * (m * ramp_t m / 2).
Proof.
  intros Hm. pose proof PI_RGT_0 as HP.
  assert (P1 : 0 < k * (PI * m)) by (apply Rmult_lt_0_compat; [lra | apply Rmult_lt_0_compat; lra]).
  unfold ramp_distance, ramp_time. rewrite Rminus_0_r, Rabs_pos_eq by lra.
  destruct (Rle_dec _ _) as [L|L].
  - unfold ramp_t. field. lra.
  - exfalso. apply L. replace (k * k * (36 * PI) * (k * k * (36 * PI)) / (k * k * k * (1200 * PI)))
      with (k * PI * (108 / 100)) by (field; lra).
    assert (0 < k * PI) by (apply Rmult_lt_0_compat; lra). nra.
Qed.

Lemma plan_closed : plan g 0%R (PI * d)%R s 0%R (k * (PI * r))%R 0%R =
  (@Overall Rops 0%R 0%R (ramp_t r / k)%R ((ramp_t r + cruise_t r d) / k)%R (turn_t r d / k)%R (PI * d)%R 0%R
     (@AccelCalc Rops 0%R 0%R (PI * (r * ramp_t r / 2))%R (k * (PI * r))%R (k * k * (36 * PI))%R
        (k * k * k * (1200 * PI))%R (3 / 100 / k)%R (r / 36 / k)%R (ramp_t r / k)%R)
     (@ConstCalc Rops (cruise_t r d / k)%R (PI * (r * ramp_t r / 2))%R (k * (PI * r))%R)
     (@AccelCalc Rops (PI * (d - r * ramp_t r / 2))%R (k * (PI * r))%R (PI * d)%R 0%R (- (k * k * (36 * PI)))%R
        (- (k * k * k * (1200 * PI)))%R (3 / 100 / k)%R (r / 36 / k)%R (ramp_t r / k)%R) s,
   (turn_t r d / k)%R).
Proof.
  pose proof PI_RGT_0 as HP. assert (RT := rt_pos). assert (CT := ct_pos). unfold plan.
  assert (Hj : 0 < g_j_max g) by (cbn; apply Rmult_lt_0_compat; [repeat apply Rmult_lt_0_compat; exact Hk | lra]).
  rewrite !accel_distance by exact Hj. rewrite (ramp_distance_sym _ _ (k * (PI * r)) 0).
  change (g_a_max g) with (k * k * (36 * PI)). change (g_j_max g) with (k * k * k * (1200 * PI)).
  rewrite dist_scaled by exact Hr. rewrite accel_up, accel_down. unfold generate_constant. rops.
  replace ((PI * d - PI * (r * ramp_t r / 2) - PI * (r * ramp_t r / 2)) / (k * (PI * r))) with (cruise_t r d / k)
    by (unfold cruise_t; field; lra).
  destruct (Rltb_spec (cruise_t r d / k) (0 / 1)) as [L|L].
  { exfalso. assert (0 / k <= cruise_t r d / k) by (apply div_le, CT). unfold Rdiv in H at 1. lra. }
  assert (E1 : 0 + PI * (r * ramp_t r / 2) = PI * (r * ramp_t r / 2)) by ring.
  assert (E2 : 0 + PI * d - PI * (r * ramp_t r / 2) = PI * (d - r * ramp_t r / 2)) by ring.
  assert (E3 : PI * (d - r * ramp_t r / 2) + PI * (r * ramp_t r / 2) = PI * d) by field.
  assert (E4 : ramp_t r / k + cruise_t r d / k = (ramp_t r + cruise_t r d) / k) by (field; lra).
  assert (E5 : (ramp_t r + cruise_t r d) / k + ramp_t r / k = turn_t r d / k) by (unfold turn_t; field; lra).
  rewrite E1, E2, E3, E4, E5. reflexivity.
Qed.

Lemma heading_closed t : 0 <= t <= turn_t r d ->
  tx (@calculate Rops (fst (plan g 0%R (PI * d)%R s 0%R (k * (PI * r))%R 0%R)) (t / k)%R) = s * (PI * turn r d t).
Proof.
  intros [T0 T1]. pose proof PI_RGT_0 as HP. assert (RT := rt_pos). assert (CT := ct_pos). rewrite plan_closed. cbn [fst].
  unfold calculate. cbn [tx oc_x_start oc_v_start oc_t1 oc_t2 oc_t3 oc_distance oc_v_end oc_accel oc_const oc_decel oc_sign].
  rops. assert (Z : forall u, 0 <= u -> Rltb (u / k) (0 / 1) = false).
  { intros u Hu. destruct (Rltb_spec (u / k) (0 / 1)) as [L|L]; [|reflexivity].
    exfalso. assert (0 / k <= u / k) by (apply div_le, Hu). unfold Rdiv in H at 1. lra. }
  rewrite Z by exact T0. rewrite !leb_div.
  replace (t / k - ramp_t r / k) with ((t - ramp_t r) / k) by (field; lra).
  replace (t / k - (ramp_t r + cruise_t r d) / k) with ((t - (ramp_t r + cruise_t r d)) / k) by (field; lra).
  unfold turn. destruct (Rleb_spec t (ramp_t r)) as [A|A]; (destruct (Rle_dec t (ramp_t r)); [|try lra]); try lra.
  { unfold accel_calculate, rise. cbn [ac_x_start ac_v_start ac_x_end ac_v_end ac_a_m ac_j_m ac_t1 ac_t2 ac_t3]. rops.
    rewrite Z by exact T0. rewrite !leb_div.
    destruct (Rleb_spec t (3 / 100)) as [B|B]; (destruct (Rle_dec t (3 / 100)); [|try lra]); try lra.
    { cbn [tx]. rops. field. lra. }
    destruct (Rleb_spec t (r / 36)) as [C|C]; (destruct (Rle_dec t (r / 36)); [|try lra]); try lra.
    { cbn [tx]. rops. field. lra. }
    destruct (Rleb_spec t (ramp_t r)); [|lra]. cbn [tx]. rops. field. lra. }
  destruct (Rleb_spec t (ramp_t r + cruise_t r d)) as [B|B];
    (destruct (Rle_dec t (ramp_t r + cruise_t r d)); [|try lra]); try lra.
  { unfold const_calculate. cbn [cc_t_end cc_x_start cc_v]. rops. rewrite Z by lra.
    destruct (Rltb_spec (cruise_t r d / k) ((t - ramp_t r) / k)) as [L|L]; cbn [orb].
    { exfalso. apply Rlt_not_le in L. apply L, div_le. lra. }
    cbn [tx]. field. lra. }
  destruct (Rleb_spec t (turn_t r d)); [|lra]. cbv zeta. set (u := t - (ramp_t r + cruise_t r d)).
  unfold accel_calculate. cbn [ac_x_start ac_v_start ac_x_end ac_v_end ac_a_m ac_j_m ac_t1 ac_t2 ac_t3]. rops.
  assert (U0 : 0 <= u) by (unfold u; lra). assert (U1 : u <= ramp_t r) by (unfold u, turn_t in *; lra).
  rewrite Z by exact U0. rewrite !leb_div.
  destruct (Rleb_spec u (3 / 100)) as [F|F]; (destruct (Rle_dec u (3 / 100)); [|try lra]); try lra.
  { cbn [tx]. rops. field. lra. }
  destruct (Rleb_spec u (r / 36)) as [G|G]; (destruct (Rle_dec u (r / 36)); [|try lra]); try lra.
  { cbn [tx]. rops. field. lra. }
  destruct (Rleb_spec u (ramp_t r)); [|lra]. cbn [tx]. rops. field. lra.
Qed.
End Closed.

(** ** The peak turning rate, by the bisection of the code on rational numbers *)

Fixpoint bisectQ (n : nat) (up : Q -> bool) (low high : Q) : Q :=
  match n with
  | O => low
  | S n => let mid := Qred ((low + high) * (1 # 2)) in
           if up mid then bisectQ n up mid high else bisectQ n up low mid
  end.

Definition upQ (d m : Q) : bool := Qle_bool (m * (m * (1 # 36) + (3 # 100))) d.

Lemma Q2R_red q : Q2R (Qred q) = Q2R q.
Proof. apply Qeq_eqR, Qred_correct. Qed.
Lemma Q2R_frac n d : Q2R (n # d) = IZR n / IZR (Z.pos d).
Proof. reflexivity. Qed.

Lemma bisect_Q (c : R) (up : R -> bool) (upq : Q -> bool) :
  (forall m, 27 / 25 <= Q2R m -> up (c * Q2R m) = upq m) ->
  forall n lo hi, 27 / 25 <= Q2R lo -> Q2R lo <= Q2R hi ->
  @bisect Rops n up (c * Q2R lo)%R (c * Q2R hi)%R = c * Q2R (bisectQ n upq lo hi).
Proof.
  intros U. induction n as [|n IH]; intros lo hi Hl Hh; [reflexivity|].
  cbn [bisect bisectQ]. set (mid := Qred ((lo + hi) * (1 # 2))).
  assert (E : Q2R mid = (Q2R lo + Q2R hi) / 2).
  { unfold mid. rewrite Q2R_red, Q2R_mult, Q2R_plus, Q2R_frac. field. }
  assert (E' : (c * Q2R lo + c * Q2R hi) / (2 / 1) = c * Q2R mid) by (rewrite E; field).
  rops. rewrite E'. rewrite U by (rewrite E; lra).
  destruct (upq mid); apply IH; rewrite ?E; lra.
Qed.

Lemma bisect_S n (up : R -> bool) (lo hi : R) : @bisect Rops (S n) up lo hi =
  if up ((lo + hi) / (2 / 1)) then @bisect Rops n up ((lo + hi) / (2 / 1))%R hi else @bisect Rops n up lo ((lo + hi) / (2 / 1))%R.
Proof. reflexivity. Qed.

Definition peakQ (d : Q) : Q := bisectQ 24 (upQ d) (3 # 2) 3.

Lemma peak_closed (k : R) (d : Q) : 0 < k -> 1 / 5 <= Q2R d ->
  let g : @generator Rops := @Generator Rops (k * (3 * PI))%R (k * k * (36 * PI))%R (k * k * k * (1200 * PI))%R in
  peak_velocity g 0%R 0%R (PI * Q2R d)%R = k * (PI * Q2R (peakQ d)).
Proof.
  intros Hk Hd g. pose proof PI_RGT_0 as HP. unfold peak_velocity. change LOOP_COUNT with (S 24).
  assert (Hj : 0 < g_j_max g) by (cbn; apply Rmult_lt_0_compat; [repeat apply Rmult_lt_0_compat; exact Hk | lra]).
  match goal with |- context [@bisect _ _ ?u _ _] => set (up := u) end. rops.
  assert (U : forall m, 27 / 25 <= m -> up (k * PI * m) = Rleb (m * (m / 36 + 3 / 100)) (Q2R d)).
  { intros m Hm. unfold up. rops. rewrite !accel_distance by exact Hj. rewrite (ramp_distance_sym _ _ (k * PI * m) 0).
    change (g_a_max g) with (k * k * (36 * PI)). change (g_j_max g) with (k * k * k * (1200 * PI)).
    rewrite (Rmult_assoc k PI m), dist_scaled by lra. unfold ramp_t.
    destruct (Rleb_spec (PI * (m * (m / 36 + 3 / 100) / 2) + PI * (m * (m / 36 + 3 / 100) / 2)) (PI * Q2R d)) as [L|L],
      (Rleb_spec (m * (m / 36 + 3 / 100)) (Q2R d)) as [M|M]; try reflexivity; exfalso.
    - apply M, Rmult_le_reg_l with PI; lra.
    - apply L. apply Rmult_le_compat_l with (r := PI) in M; lra. }
  assert (UQ : forall m : Q, 27 / 25 <= Q2R m -> up (k * PI * Q2R m) = upQ d m).
  { intros m Hm. rewrite U by exact Hm. unfold upQ.
    assert (E : Q2R (m * (m * (1 # 36) + (3 # 100))) = Q2R m * (Q2R m / 36 + 3 / 100)).
    { rewrite Q2R_mult, Q2R_plus, Q2R_mult, !Q2R_frac. field. }
    rewrite <- E. destruct (Rleb_spec (Q2R (m * (m * (1 # 36) + (3 # 100)))) (Q2R d)) as [L|L];
      destruct (Qle_bool (m * (m * (1 # 36) + (3 # 100))) d) eqn:B; try reflexivity; exfalso.
    - apply Rle_Qle in L. apply Qle_bool_iff in L. congruence.
    - apply L, Qle_Rle, Qle_bool_iff, B. }
  destruct (Rltb_spec 0 0) as [L|_]; [lra|]. rewrite bisect_S. change (g_v_max g) with (k * (3 * PI)).
  replace ((0 + k * (3 * PI)) / (2 / 1)) with (k * PI * Q2R (3 # 2)) by (rewrite Q2R_frac; field).
  rewrite U by (rewrite Q2R_frac; lra).
  destruct (Rleb_spec (Q2R (3 # 2) * (Q2R (3 # 2) / 36 + 3 / 100)) (Q2R d)) as [_|L].
  2:{ exfalso. apply L. rewrite Q2R_frac. lra. }
  replace (k * (3 * PI)) with (k * PI * Q2R 3) by (unfold Q2R; cbn; field).
  rewrite (bisect_Q (k * PI) up (upQ d) UQ) by (unfold Q2R; cbn; lra).
  unfold peakQ. ring.
Qed.

Lemma generate_closed (k : R) (d : Q) (s : R) : 0 < k -> 1 / 5 <= Q2R d -> s = 1 \/ s = -1 ->
  let g : @generator Rops := @Generator Rops (k * (3 * PI))%R (k * k * (36 * PI))%R (k * k * k * (1200 * PI))%R in
  generate g 0%R (s * (PI * Q2R d))%R 0%R 0%R = plan g 0%R (PI * Q2R d)%R s 0%R (k * (PI * Q2R (peakQ d)))%R 0%R.
Proof.
  intros Hk Hd Hs g. pose proof PI_RGT_0 as HP.
  assert (PD : 0 < PI * Q2R d) by (apply Rmult_lt_0_compat; lra).
  assert (AB : Rabs (s * (PI * Q2R d)) = PI * Q2R d).
  { destruct Hs as [-> | ->]; [rewrite Rabs_pos_eq | rewrite Rabs_left]; lra. }
  assert (SG : sgn (s * (PI * Q2R d)) = s).
  { unfold sgn. destruct (Rlt_dec (s * (PI * Q2R d)) 0), Hs as [-> | ->]; lra. }
  assert (KP : 0 < k * PI) by (apply Rmult_lt_0_compat; lra).
  assert (Lg : limits g).
  { unfold limits, g. cbn [g_v_max g_a_max g_j_max]. repeat split.
    - apply Rmult_lt_0_compat; lra.
    - apply Rmult_lt_0_compat; [apply Rmult_lt_0_compat; exact Hk | lra].
    - apply Rmult_lt_0_compat; [repeat apply Rmult_lt_0_compat; exact Hk | lra]. }
  assert (VE : limited_v_end g 0%R 0%R (PI * Q2R d)%R = 0).
  { apply limited_down; [exact Lg | lra|]. intros w Hw. replace w with 0 by lra. rewrite ramp_distance_same by apply Lg. exact PD. }
  unfold generate. rewrite generate_tv_eq; rewrite AB, VE.
  - rewrite SG. assert (PC := peak_closed k d Hk Hd). cbv zeta in PC. fold g in PC. rewrite PC. apply eq_sym, surjective_pairing.
  - destruct (peak_spec g (PI * Q2R d) 0 0 Lg) as (P & _); try (destruct Lg; rops; lra).
    rewrite ramp_distance_same by apply Lg. lra.
Qed.
