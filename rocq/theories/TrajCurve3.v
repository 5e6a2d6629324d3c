(** Certified values of the integrals of cos and sin along the turns of TrajCurve, continued. *)
From Coq Require Import ZArith Reals List Bool Lia Lra QArith Qreals.
From Verif Require Import Base Num SearchModel RunModel ControlModel TrajModel TrajSpec TrajProofs TrajProofs2 TrajProofs4
  TrajProofs5 TrajQuad TrajCurve TrajCurve2.
Import ListNotations.
Open Scope R_scope.

(** ** The turn is one of the turns of the trajectory generator *)

Lemma closed_turns (k : R) (d : Q) (s : R) : 0 < k -> 1 / 5 <= Q2R d -> 27 / 25 <= Q2R (peakQ d) -> s = 1 \/ s = -1 ->
  let g : @generator Rops := @Generator Rops (k * (3 * PI))%R (k * k * (36 * PI))%R (k * k * k * (1200 * PI))%R in
  limits g /\ exists c T, generate g 0%R (s * (PI * Q2R d))%R 0%R 0%R = (c, T) /\
    turns (@calculate Rops c) g T 0 (s * (PI * Q2R d)).
Proof.
  intros Hk D5 R0 Hs g. set (r := Q2R (peakQ d)) in *. set (dd := Q2R d) in *.
  pose proof PI_RGT_0 as HP. 
  assert (Lg : limits g).
  { unfold limits, g. cbn [g_v_max g_a_max g_j_max]. repeat split.
    - apply Rmult_lt_0_compat; lra.
    - apply Rmult_lt_0_compat; [apply Rmult_lt_0_compat; exact Hk | lra].
    - apply Rmult_lt_0_compat; [repeat apply Rmult_lt_0_compat; exact Hk | lra]. }
  split; [exact Lg|].
  assert (AB : Rabs (s * (PI * dd)) = PI * dd).
  { assert (0 < PI * dd) by (apply Rmult_lt_0_compat; lra).
    destruct Hs as [-> | ->]; [rewrite Rabs_pos_eq | rewrite Rabs_left]; lra. }
  assert (BE : big_enough g (s * (PI * dd))).
  { unfold big_enough. rewrite AB.
    destruct (peak_spec g (PI * dd) 0 0 Lg) as (P1 & _ & _ & P4 & _).
    - destruct Lg; lra.
    - destruct Lg; lra.
    - rewrite ramp_distance_same by apply Lg. assert (0 < PI * dd) by (apply Rmult_lt_0_compat; lra). lra.
    - cbv zeta in P4. assert (PK := peak_closed k d Hk D5). cbv zeta in PK. fold g dd r in PK. rewrite PK in P4.
      rewrite (ramp_distance_sym _ _ (k * (PI * r)) 0) in P4.
      eapply Rle_trans; [|exact P4].
      assert (KP : 0 < k * PI) by (apply Rmult_lt_0_compat; lra).
      assert (ramp_distance (g_a_max g) (g_j_max g) 0 (g_v_max g / 2 ^ 25) <= ramp_distance (g_a_max g) (g_j_max g) 0 (k * (PI * r))); [|lra].
      apply ramp_distance_mono; [apply Lg | apply Lg | lra|]. cbn [g_v_max g]. split.
      + apply Rmult_le_pos; [lra | left; apply Rinv_0_lt_compat, pow_lt; lra].
      + assert (1 / 2 ^ 25 <= 1 / 3).
        { unfold Rdiv. apply Rmult_le_compat_l; [lra|]. apply Rinv_le_contravar; [lra|].
          assert (2 ^ 2 <= 2 ^ 25) by (apply Rle_pow; [lra | lia]). lra. }
        unfold Rdiv in *. rewrite Rmult_1_l in H. nra. }
  exact (generate_turns g 0 (s * (PI * dd)) Lg BE).
Qed.

Lemma turn_lip (d : Q) a b : 1 / 5 <= Q2R d -> 27 / 25 <= Q2R (peakQ d) ->
  let r := Q2R (peakQ d) in let D := Q2R d in r * ramp_t r <= D ->
  0 <= a <= turn_t r D -> 0 <= b <= turn_t r D -> Rabs (turn r D a - turn r D b) <= 3 * Rabs (a - b).
Proof.
  intros D5 R0 r D RD Ha Hb. pose proof PI_RGT_0 as HP.
  destruct (closed_turns 1 d 1 Rlt_0_1 D5 R0 (or_introl eq_refl)) as (Lg & c & T & G & (T0 & F & BD & _)).
  set (g := @Generator Rops _ _ _) in *.
  assert (G' := generate_closed 1 d 1 Rlt_0_1 D5 (or_introl eq_refl)). cbv zeta in G'. fold g in G'. rewrite G in G'.
  fold r D in G'. assert (PC := plan_closed 1 r D 1 Rlt_0_1 ltac:(unfold r; lra) RD). fold g in PC.
  assert (ET : T = turn_t r D / 1). { rewrite PC in G'. injection G' as _ E. exact E. }
  assert (HEAD : forall t, 0 <= t <= turn_t r D -> tx (@calculate Rops c t) = PI * turn r D t).
  { intros t Ht. assert (H := heading_closed 1 r D 1 Rlt_0_1 ltac:(unfold r; lra) RD t Ht). fold g in H.
    rewrite <- G' in H. cbn [fst] in H. replace (t / 1) with t in H by field. etransitivity; [exact H | apply Rmult_1_l]. }
  destruct F as (fx & fv & fa & fj & ex & M & FE).
  destruct (MVT_abs fx fv b a) as (z & Hz & B1 & B2).
  { intros z _. apply (mo_x _ _ _ _ _ _ M). }
  assert (Hz' : 0 <= z <= T) by (rewrite ET; unfold Rmin, Rmax in *; destruct (Rle_dec b a); lra).
  destruct (FE z Hz') as (_ & E2 & _). destruct (BD z Hz') as (V & _). rewrite E2 in V. cbn [g_v_max g] in V.
  destruct (FE a ltac:(rewrite ET; lra)) as (EA & _). destruct (FE b ltac:(rewrite ET; lra)) as (EB & _).
  rewrite <- EA, <- EB, HEAD, HEAD in Hz by assumption.
  rewrite <- Rmult_minus_distr_l, Rabs_mult, (Rabs_pos_eq PI) in Hz by lra.
  apply Rmult_le_reg_l with PI; [exact HP|]. rewrite Hz.
  pose proof (Rabs_pos (a - b)). nra.
Qed.

(** ** The turn on rational numbers *)

Definition rampQ (r : Q) : Q := (r * (1 # 36) + (3 # 100))%Q.
Definition cruiseQ (r d : Q) : Q := ((d - r * rampQ r) / r)%Q.
Definition turn_tQ (r d : Q) : Q := (2 * rampQ r + cruiseQ r d)%Q.
(** [m] is the duration of a ramp, [c] of the cruise between the ramps. *)
Definition riseQ (r m t : Q) : Q :=
  if Qle_bool t (3 # 100) then 200 * t * t * t
  else if Qle_bool t (r * (1 # 36)) then
    200 * (3 # 100) * (3 # 100) * (3 # 100) + (54 # 100) * (t - (3 # 100)) + 18 * (t - (3 # 100)) * (t - (3 # 100))
  else r * m * (1 # 2) - r * (m - t) + 200 * (m - t) * (m - t) * (m - t).
Definition turnQ (r d m c t : Q) : Q :=
  if Qle_bool t m then riseQ r m t
  else if Qle_bool t (m + c) then r * m * (1 # 2) + r * (t - m)
  else
    let u := (t - (m + c))%Q in
    if Qle_bool u (3 # 100) then d - r * m * (1 # 2) + r * u - 200 * u * u * u
    else if Qle_bool u (r * (1 # 36)) then
      d - r * m * (1 # 2) + r * (3 # 100) - 200 * (3 # 100) * (3 # 100) * (3 # 100)
      + (r - (54 # 100)) * (u - (3 # 100)) - 18 * (u - (3 # 100)) * (u - (3 # 100))
    else d - 200 * (m - u) * (m - u) * (m - u).

Lemma if_Qle {A} (x y : Q) (a b : A) :
  (if Qle_bool x y then a else b) = (if Rle_dec (Q2R x) (Q2R y) then a else b).
Proof.
  destruct (Rle_dec (Q2R x) (Q2R y)) as [L|L], (Qle_bool x y) eqn:B; try reflexivity; exfalso.
  - apply Rle_Qle, Qle_bool_iff in L. congruence.
  - apply L, Qle_Rle, Qle_bool_iff, B.
Qed.

Ltac q2r := repeat rewrite ?Q2R_plus, ?Q2R_minus, ?Q2R_mult, ?Q2R_opp.

Lemma rampQ_ok r : Q2R (rampQ r) = ramp_t (Q2R r).
Proof. unfold rampQ, ramp_t. q2r. rewrite !Q2R_frac. field. Qed.
Lemma cruiseQ_ok r d : 0 < Q2R r -> Q2R (cruiseQ r d) = cruise_t (Q2R r) (Q2R d).
Proof.
  intros H. unfold cruiseQ, cruise_t. rewrite Q2R_div.
  - q2r. rewrite rampQ_ok. reflexivity.
  - intros E. apply Qeq_eqR in E. rewrite E in H. unfold Q2R in H. cbn in H. lra.
Qed.
Lemma turn_tQ_ok r d : 0 < Q2R r -> Q2R (turn_tQ r d) = turn_t (Q2R r) (Q2R d).
Proof.
  intros H. unfold turn_tQ, turn_t. q2r. rewrite rampQ_ok, cruiseQ_ok by exact H. unfold Q2R at 1. cbn. field.
Qed.

Lemma lit2 n : Q2R (n # 1) = IZR n.
Proof. rewrite Q2R_frac. field. Qed.

Lemma turnQ_ok r d m c t : Q2R m = ramp_t (Q2R r) -> Q2R c = cruise_t (Q2R r) (Q2R d) ->
  Q2R (turnQ r d m c t) = turn (Q2R r) (Q2R d) (Q2R t).
Proof.
  intros ER EC. unfold turnQ, turn, riseQ, rise. cbv zeta. rewrite !if_Qle.
  q2r. rewrite ER, EC.
  assert (F36 : Q2R r * Q2R (1 # 36) = Q2R r / 36) by (rewrite Q2R_frac; field).
  assert (F3 : Q2R (3 # 100) = 3 / 100) by apply Q2R_frac.
  rewrite F36, F3.
  repeat match goal with |- context [Rle_dec ?a ?b] => destruct (Rle_dec a b) end;
    q2r; rewrite ?ER, ?EC, ?F3, ?lit2, ?Q2R_frac; unfold Rdiv; field.
Qed.

(** ** Sums *)

Fixpoint sumf (h : nat -> R) (n : nat) : R := match n with O => 0 | S n => sumf h n + h n end.
Fixpoint sumz (h : nat -> Z) (n : nat) : Z := match n with O => 0%Z | S n => (sumz h n + h n)%Z end.

Lemma sumf_close (h : nat -> R) (z : nat -> Z) (D e : R) n :
  (forall i, (i < n)%nat -> Rabs (h i - IZR (z i) / D) <= e) ->
  Rabs (sumf h n - IZR (sumz z n) / D) <= INR n * e.
Proof.
  induction n as [|n IH]; intros H.
  - cbn [sumf sumz INR]. unfold Rdiv. rewrite Rmult_0_l, Rminus_0_r, Rabs_R0. lra.
  - cbn [sumf sumz]. rewrite plus_IZR, S_INR.
    replace (sumf h n + h n - (IZR (sumz z n) + IZR (z n)) / D)
      with ((sumf h n - IZR (sumz z n) / D) + (h n - IZR (z n) / D)) by (unfold Rdiv; ring).
    eapply Rle_trans; [apply Rabs_triang|].
    specialize (IH ltac:(intros i Hi; apply H; lia)). specialize (H n ltac:(lia)). lra.
Qed.

(** [q] as a multiple of [1 / D], rounded down. *)
Definition fixed (D : Z) (q : Q) : Z := (Qnum q * D / Z.pos (Qden q))%Z.

Lemma fixed_bounds D q : (0 < D)%Z -> IZR (fixed D q) / IZR D <= Q2R q <= IZR (fixed D q) / IZR D + 1 / IZR D.
Proof.
  intros HD. apply IZR_lt in HD. destruct q as [n d]. unfold fixed, Q2R. cbn [Qnum Qden].
  assert (P : 0 < IZR (Z.pos d)) by (apply IZR_lt; reflexivity).
  pose proof (Z.mul_div_le (n * D) (Z.pos d) eq_refl) as L.
  pose proof (Z.mul_succ_div_gt (n * D) (Z.pos d) eq_refl) as U.
  set (k := (n * D / Z.pos d)%Z) in *. unfold Z.succ in U.
  apply IZR_le in L. apply IZR_lt in U. rewrite !mult_IZR in L, U. rewrite plus_IZR in U.
  set (E := IZR (Z.pos d)) in *. set (N := IZR n) in *. set (K := IZR k) in *. set (M := IZR D) in *.
  split; apply Rmult_le_reg_r with (E * M); try (apply Rmult_lt_0_compat; assumption).
  - replace (K / M * (E * M)) with (E * K) by (field; lra). replace (N * / E * (E * M)) with (N * M) by (field; lra). lra.
  - replace ((K / M + 1 / M) * (E * M)) with (E * (K + 1)) by (field; lra).
    replace (N * / E * (E * M)) with (N * M) by (field; lra). lra.
Qed.

Definition steps : nat := 120.

(** the node [(i + c / 10 ^ 8) * h], as a multiple of 2 ^ -30. *)
Definition nodeQ (h : Q) (c : Z) (i : nat) : Q :=
  fixed 1073741824 (((Z.of_nat i * 100000000 + c) # 100000000) * h) # 1073741824.
Definition c1Z : Z := 21132487.
Definition c2Z : Z := 78867510.

(** the turn at a node, as a multiple of 2 ^ -24. *)
Definition ang (r d m c h : Q) (cz : Z) (i : nat) : Z := fixed 16777216 (turnQ r d m c (nodeQ h cz i)).
Definition in_range (a : Z) : bool := ((0 <=? a) && (a <=? 16777216))%Z.

(** the sums of the cosines and of the sines at the nodes, and whether all angles are in range. *)
Fixpoint sums (r d m c h : Q) (n : nat) : Z * Z * bool :=
  match n with
  | O => (0%Z, 0%Z, true)
  | S n =>
    let '(x, y, b) := sums r d m c h n in
    let a1 := ang r d m c h c1Z n in
    let a2 := ang r d m c h c2Z n in
    (x + (cosZ a1 + cosZ a2), y + (sinZ a1 + sinZ a2), b && (in_range a1 && in_range a2))%Z
  end.

(** the sums, times the step, over twice the denominator. *)
Definition valQ (h : Q) (z : Z) : Q := (h * (z # Z.to_pos (2 * czd)))%Q.
Definition nearQ (a b : Q) : bool := (Qle_bool (a - b) (1 # 10000000) && Qle_bool (b - a) (1 # 10000000))%bool.
Definition certified (d r m c h ic is_ : Q) : bool :=
  (Qle_bool (1 # 5) d && Qeq_bool r (peakQ d) && Qle_bool (27 # 25) r && Qle_bool (r * rampQ r) d
   && Qeq_bool m (rampQ r) && Qeq_bool c (cruiseQ r d) && Qeq_bool h (turn_tQ r d * (1 # 120))
   && Qle_bool h (375 # 100000)
   && let '(x, y, b) := sums r d m c h steps in b && nearQ (valQ h x) ic && nearQ (valQ h y) is_)%bool.

(** the Gauss sum of the turn, in the time scale of the reference speed. *)
Definition gsum_to (f : R -> R) (r d : R) (n : nat) : R :=
  let h := turn_t r d / 120 in
  h * sumf (fun i => 1 / 2 * f (PI * turn r d ((INR i + 21132487 / 100000000) * h))
                     + 1 / 2 * f (PI * turn r d ((INR i + 7886751 / 10000000) * h))) n.
Definition gsum (f : R -> R) (r d : R) : R := gsum_to f r d steps.

Lemma sums_spec r d m c h n : let '(x, y, b) := sums r d m c h n in
  x = sumz (fun i => cosZ (ang r d m c h c1Z i) + cosZ (ang r d m c h c2Z i))%Z n /\
  y = sumz (fun i => sinZ (ang r d m c h c1Z i) + sinZ (ang r d m c h c2Z i))%Z n /\
  (b = true -> forall i, (i < n)%nat -> in_range (ang r d m c h c1Z i) = true /\ in_range (ang r d m c h c2Z i) = true).
Proof.
  induction n as [|n IH].
  - cbn [sums sumz]. repeat split; intros; lia.
  - cbn [sums sumz]. destruct (sums r d m c h n) as [[x y] b]. destruct IH as (-> & -> & IB).
    split; [reflexivity|]. split; [reflexivity|]. intros B i Hi. apply andb_prop in B as [B1 B2].
    destruct (Nat.eq_dec i n) as [-> | N]; [apply andb_prop, B2 | apply IB; [exact B1 | lia]].
Qed.

Lemma half_close (a b x y c e : R) : 0 < c -> Rabs (a - x / c) <= e -> Rabs (b - y / c) <= e ->
  Rabs (1 / 2 * a + 1 / 2 * b - (x + y) / (2 * c)) <= e.
Proof.
  intros C A B. replace (1 / 2 * a + 1 / 2 * b - (x + y) / (2 * c)) with (1 / 2 * (a - x / c) + 1 / 2 * (b - y / c)) by (field; lra).
  eapply Rle_trans; [apply Rabs_triang|]. rewrite !Rabs_mult, (Rabs_pos_eq (1 / 2)) by lra. lra.
Qed.

Lemma certified_at d rq m c h ic is_ : certified d rq m c h ic is_ = true ->
  let r := Q2R (peakQ d) in let D := Q2R d in
  1 / 5 <= D /\ 27 / 25 <= r /\ r * ramp_t r <= D /\ turn_t r D <= 45 / 100 /\ Q2R h = turn_t r D / 120 /\
  forall n, (n <= steps)%nat -> let '(x, y, _) := sums rq d m c h n in
  Rabs (gsum_to cos r D n - Q2R (valQ h x)) <= 45 / 100000000 /\ Rabs (gsum_to sin r D n - Q2R (valQ h y)) <= 45 / 100000000.
Proof.
  unfold certified. intros H. apply andb_prop in H as [H HS]. apply andb_prop in H as [H Hh]. apply andb_prop in H as [H EH].
  apply andb_prop in H as [H EC]. apply andb_prop in H as [H EM]. apply andb_prop in H as [H RD].
  apply andb_prop in H as [H R0]. apply andb_prop in H as [D5 ER].
  apply Qeq_bool_iff, Qeq_eqR in EH, EC, EM, ER. apply Qle_bool_iff, Qle_Rle in Hh, RD, R0, D5.
  rewrite Q2R_mult, rampQ_ok in RD. rewrite Q2R_frac in Hh, R0, D5. cbv zeta.
  set (r := Q2R (peakQ d)) in *. set (D := Q2R d) in *.
  rewrite Q2R_mult, turn_tQ_ok, Q2R_frac in EH by lra. rewrite rampQ_ok in EM. rewrite cruiseQ_ok in EC by lra.
  fold D in EH, EC. assert (EM' := EM). assert (EC' := EC). rewrite ER in EM, EC, EH, RD, R0.
  set (HH := turn_t r D / 120) in *.
  assert (EH' : Q2R h = HH) by (rewrite EH; unfold HH; field).
  assert (T0 : 0 <= turn_t r D).
  { unfold turn_t. assert (A := rt_pos r ltac:(lra)). assert (B := ct_pos r D ltac:(lra) RD). lra. }
  assert (TH : turn_t r D = 120 * HH) by (unfold HH; field).
  split; [lra|]. split; [lra|]. split; [assumption|]. split; [lra|]. split; [exact EH'|].
  pose proof (sums_spec rq d m c h steps) as SP. destruct (sums rq d m c h steps) as [[x y] b].
  destruct SP as (_ & _ & RNG). apply andb_prop in HS as [HS _]. apply andb_prop in HS as [HB _].
  specialize (RNG HB). clear HB.
  assert (ANG : forall cz i, (cz = c1Z \/ cz = c2Z) -> (i < steps)%nat ->
    Rabs (cos (PI * turn r D ((INR i + IZR cz / 100000000) * HH)) - IZR (cosZ (ang rq d m c h cz i)) / IZR czd) <= 1 / 1000000 /\
    Rabs (sin (PI * turn r D ((INR i + IZR cz / 100000000) * HH)) - IZR (sinZ (ang rq d m c h cz i)) / IZR czd) <= 1 / 1000000).
  { intros cz i Hc Hi. destruct (RNG i Hi) as [A B].
    assert (IR : in_range (ang rq d m c h cz i) = true) by (destruct Hc as [-> | ->]; assumption).
    unfold in_range in IR. apply andb_prop in IR as [I1 I2]. apply Z.leb_le in I1, I2.
    apply cosZ_ok; [lia|]. unfold ang.
    destruct (fixed_bounds 16777216 (turnQ rq d m c (nodeQ h cz i)) eq_refl) as [F1 F2].
    rewrite (turnQ_ok rq d m c _ EM' EC') in F1, F2. rewrite ER in F1, F2. fold D in F1, F2.
    set (t := (INR i + IZR cz / 100000000) * HH).
    set (q := (((Z.of_nat i * 100000000 + cz) # 100000000) * h)%Q).
    assert (EQ : Q2R q = t).
    { unfold q, t. rewrite Q2R_mult, EH', Q2R_frac, plus_IZR, mult_IZR, <- INR_IZR_INZ. f_equal. field. }
    destruct (fixed_bounds 1073741824 q eq_refl) as [G1 G2]. rewrite EQ in G1, G2.
    assert (EN : Q2R (nodeQ h cz i) = IZR (fixed 1073741824 q) / 1073741824) by (unfold nodeQ; apply Q2R_frac).
    assert (CZ : 0 <= IZR cz / 100000000 <= 1) by (destruct Hc as [-> | ->]; unfold c1Z, c2Z; lra).
    assert (I0 := pos_INR i). assert (I3 : INR i + 1 <= 120).
    { replace 120 with (INR steps) by (unfold steps; rewrite INR_IZR_INZ; reflexivity). rewrite <- S_INR. apply le_INR. lia. }
    assert (Ht : 0 <= t <= turn_t r D).
    { rewrite TH. unfold t. split; [apply Rmult_le_pos; lra | apply Rmult_le_compat_r; lra]. }
    assert (P0 : 0 <= IZR (fixed 1073741824 q)).
    { apply (IZR_le 0). unfold fixed. apply Z.div_pos; [|reflexivity].
      assert (0 <= Q2R q) by (rewrite EQ; lra). unfold Q2R in H.
      assert (0 <= IZR (Qnum q)).
      { apply Rmult_le_reg_r with (/ IZR (Z.pos (Qden q))); [apply Rinv_0_lt_compat, IZR_lt; reflexivity | lra]. }
      apply (le_IZR 0) in H0. lia. }
    assert (LP := turn_lip d t (Q2R (nodeQ h cz i)) D5 R0 RD Ht ltac:(rewrite EN; fold r D; lra)). fold r D in LP.
    rewrite (Rabs_pos_eq (t - _)) in LP by (rewrite EN; lra).
    set (z := turn r D (Q2R (nodeQ h cz i))) in *.
    apply Rabs_le. 
    match type of LP with Rabs ?e <= _ => assert (L := Rle_abs e); assert (U := Rle_abs (- e)) end.
    rewrite Rabs_Ropp in U. rewrite EN in LP. lra. }
  assert (VAL : forall z, Q2R (valQ h z) = HH * (IZR z / (2 * IZR czd))).
  { intros z. unfold valQ. rewrite Q2R_mult, EH'. rewrite Q2R_frac, Z2Pos.id, mult_IZR by reflexivity. reflexivity. }
  assert (CP := czd_pos).
  intros n Hn. pose proof (sums_spec rq d m c h n) as SP. destruct (sums rq d m c h n) as [[x' y'] b'].
  destruct SP as (EX & EY & _).
  assert (STEP : forall (f : R -> R) (g : nat -> Z),
    (forall i, (i < n)%nat ->
       Rabs (1 / 2 * f (PI * turn r D ((INR i + 21132487 / 100000000) * HH))
         + 1 / 2 * f (PI * turn r D ((INR i + 7886751 / 10000000) * HH)) - IZR (g i) / (2 * IZR czd)) <= 1 / 1000000) ->
    Rabs (gsum_to f r D n - HH * (IZR (sumz g n) / (2 * IZR czd))) <= 45 / 100000000).
  { intros f g Hs. apply sumf_close in Hs. unfold gsum_to. fold HH. cbv zeta. set (S := sumf _ _) in *.
    assert (N0 : 0 <= INR n <= 120).
    { split; [apply pos_INR|]. replace 120 with (INR steps) by (unfold steps; rewrite INR_IZR_INZ; reflexivity). apply le_INR, Hn. }
    set (Z := IZR (sumz g n) / (2 * IZR czd)) in *.
    replace (HH * S - HH * Z) with (HH * (S - Z)) by ring.
    rewrite Rabs_mult, (Rabs_pos_eq HH) by lra.
    pose proof (Rabs_pos (S - Z)). apply Rle_trans with (375 / 100000 * (120 * (1 / 1000000))); [|lra].
    apply Rmult_le_compat; lra. }
  assert (C2 : IZR c2Z / 100000000 = 7886751 / 10000000) by (unfold c2Z; lra).
  rewrite !VAL, EX, EY. split.
  - apply STEP. intros i Hi. cbv beta. rewrite plus_IZR.
    destruct (ANG c1Z i (or_introl eq_refl) ltac:(lia)) as [A1 _]. destruct (ANG c2Z i (or_intror eq_refl) ltac:(lia)) as [A2 _].
    rewrite C2 in A2. exact (half_close _ _ _ _ _ _ CP A1 A2).
  - apply STEP. intros i Hi. cbv beta. rewrite plus_IZR.
    destruct (ANG c1Z i (or_introl eq_refl) ltac:(lia)) as [_ A1]. destruct (ANG c2Z i (or_intror eq_refl) ltac:(lia)) as [_ A2].
    rewrite C2 in A2. exact (half_close _ _ _ _ _ _ CP A1 A2).
Qed.

Lemma certified_ok d rq m c h ic is_ : certified d rq m c h ic is_ = true ->
  let r := Q2R (peakQ d) in let D := Q2R d in
  1 / 5 <= D /\ 27 / 25 <= r /\ r * ramp_t r <= D /\ turn_t r D <= 45 / 100 /\
  Rabs (gsum cos r D - Q2R ic) <= 55 / 100000000 /\ Rabs (gsum sin r D - Q2R is_) <= 55 / 100000000.
Proof.
  intros C. destruct (certified_at _ _ _ _ _ _ _ C) as (D5 & R0 & RD & TH & _ & AT). cbv zeta in *.
  repeat (split; [assumption|]). specialize (AT steps (le_n _)). unfold certified in C. apply andb_prop in C as [_ C].
  destruct (sums rq d m c h steps) as [[x y] b]. apply andb_prop in C as [C HY]. apply andb_prop in C as [_ HX].
  assert (NEAR : forall a b, nearQ a b = true -> Rabs (Q2R a - Q2R b) <= 1 / 10000000).
  { intros a1 b1 N. unfold nearQ in N. apply andb_prop in N as [N1 N2].
    apply Qle_bool_iff, Qle_Rle in N1, N2. rewrite Q2R_minus, Q2R_frac in N1, N2. apply Rabs_le. lra. }
  apply NEAR in HX, HY. destruct AT as [AX AY]. unfold gsum.
  split; [replace (_ - _) with ((gsum_to cos (Q2R (peakQ d)) (Q2R d) steps - Q2R (valQ h x)) + (Q2R (valQ h x) - Q2R ic)) by ring
    | replace (_ - _) with ((gsum_to sin (Q2R (peakQ d)) (Q2R d) steps - Q2R (valQ h y)) + (Q2R (valQ h y) - Q2R is_)) by ring];
  (eapply Rle_trans; [apply Rabs_triang | lra]).
Qed.

Lemma cert45 : certified (1 # 4) (42080823 # 16777216) (167222823 # 1677721600) (401543071 # 70599905692876800)
  (14073748433989729 # 8471988683145216000) (175947381 # 1000000000) (72879752 # 1000000000) = true.
Proof. vm_compute. reflexivity. Qed.
Lemma cert90 : certified (1 # 2) (100663293 # 33554432) (1140850663 # 10066329600) (18014400489193447 # 337769961986457600)
  (10508398910563217 # 4503599493152768000) (165569707 # 1000000000) (165569675 # 1000000000) = true.
Proof. vm_compute. reflexivity. Qed.
Lemma cert135 : certified (3 # 4) (100663293 # 33554432) (1140850663 # 10066329600) (46161898160259047 # 337769961986457600)
  (122723087866134553 # 40532395438374912000) (93711130 # 1000000000) (226238601 # 1000000000) = true.
Proof. vm_compute. reflexivity. Qed.
Lemma cert180 : certified (1 # 1) (100663293 # 33554432) (1140850663 # 10066329600) (24769798610441549 # 112589987328819200)
  (150870585537200153 # 40532395438374912000) (22 # 1000000000) (218326287 # 1000000000) = true.
Proof. vm_compute. reflexivity. Qed.
