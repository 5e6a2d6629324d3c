(** Geometry of the pose converter. *)
From Coq Require Import ZArith Reals List Bool Lia Lra Psatz.
From Flocq Require Import Core.
From Verif Require Import Base SearchModel SearchSpec SearchCoord WallsLemmas Num TrajModel ControlProofs DetectModel DetectSpec.
Import ListNotations.
Open Scope R_scope.

Notation cd := (@converter_default Rops).

Lemma trunc90 : Ztrunc (9 / 100 * (1000 / 1)) = 90%Z.
Proof. replace (9 / 100 * (1000 / 1)) with (IZR 90) by lra. apply Ztrunc_IZR. Qed.

Lemma default_vals : c_i_square_width cd = 90%Z /\ c_square_width cd = side_len /\
  c_ignore_radius cd = 1 / 100 /\ c_ignore_length cd = 8 / 1000 /\
  c_p1 cd = side_len - half_wall /\ c_p2 cd = side_len - half_wall + side_len /\
  c_n1 cd = half_wall /\ c_n2 cd = half_wall - side_len.
Proof.
  unfold converter_default, converter_new; cbn [c_i_square_width c_square_width c_ignore_radius c_ignore_length c_p1 c_p2 c_n1 c_n2].
  rops. unfold Rto_int. rewrite trunc90. unfold side_len, half_wall.
  repeat split; lra.
Qed.

Lemma clamp_ge lo hi z : (z < 0)%Z -> (0 <= hi)%Z -> (z <= clampZ lo hi z)%Z.
Proof. unfold clampZ. lia. Qed.

(** ** The cell *)

Lemma remquof_spec (v : R) : exists r q,
  remquof_with_width cd v = Ret (r, q) /\ v = IZR q * side_len + r /\
  (0 < r -> (0 <= q)%Z) /\
  (forall i, (0 <= i < 1000000)%Z -> within i v -> q = i).
Proof.
  destruct default_vals as (E90 & _). unfold remquof_with_width. rewrite E90. cbn [Z.eqb].
  change (90 =? 0)%Z with false. cbv iota.
  set (t := @to_int Rops I32_MIN I32_MAX _). set (q := Z.quot t 90).
  eexists _, q. split; [reflexivity|]. rops.
  assert (Ht : t = clampZ I32_MIN I32_MAX (Ztrunc (v * 1000))).
  { unfold t. rops. unfold Rto_int. f_equal. f_equal. lra. }
  rewrite mult_IZR. unfold side_len. split; [lra|]. split.
  - intros Hr. destruct (Z_lt_le_dec q 0) as [Hq|]; [exfalso|assumption].
    assert (Ht0 : (t < 0)%Z).
    { destruct (Z_lt_le_dec t 0); [assumption|].
      pose proof (Z.quot_pos t 90 ltac:(lia) ltac:(lia)). unfold q in Hq. lia. }
    assert (Hz : (Ztrunc (v * 1000) < 0)%Z).
    { rewrite Ht in Ht0. unfold clampZ, I32_MAX in Ht0. lia. }
    assert (Hv : v * 1000 < 0).
    { destruct (Rlt_or_le (v * 1000) 0) as [|Hv]; [assumption|].
      rewrite Ztrunc_floor in Hz by exact Hv.
      apply Zfloor_le in Hv. change 0 with (IZR 0) in Hv. rewrite Zfloor_IZR in Hv. lia. }
    assert (Hge : (Ztrunc (v * 1000) <= t)%Z) by (rewrite Ht; apply clamp_ge; [exact Hz|unfold I32_MAX; lia]).
    rewrite Ztrunc_ceil in Hge by lra. pose proof (Zceil_ub (v * 1000)).
    apply IZR_le in Hge.
    assert (Hq2 : (t <= q * 90)%Z).
    { pose proof (Z.quot_rem' t 90) as E1. pose proof (Z.rem_bound_pos_neg t 90 ltac:(lia) ltac:(lia)) as E2.
      fold q in E1. set (m := Z.rem t 90) in *. clearbody m q t. lia. }
    apply IZR_le in Hq2. rewrite mult_IZR in Hq2. lra.
  - intros i Hi [H1 H2]. unfold side_len, half_wall in *.
    assert (0 <= IZR i) by (apply IZR_le; lia).
    assert (Hf : (90 * i <= Zfloor (v * 1000) < 90 * i + 90)%Z).
    { split.
      - apply Zfloor_lub. rewrite mult_IZR. lra.
      - apply lt_IZR. rewrite plus_IZR, mult_IZR. pose proof (Zfloor_lb (v * 1000)). lra. }
    rewrite Ztrunc_floor in Ht by lra.
    assert (E : t = Zfloor (v * 1000)).
    { rewrite Ht. unfold clampZ, I32_MIN, I32_MAX. lia. }
    unfold q. rewrite E. symmetry. apply Z.quot_unique with (Zfloor (v * 1000) - 90 * i)%Z; lia.
Qed.

Lemma between_unique i j v : between i v -> between j v -> i = j.
Proof.
  unfold between, side_len. intros [H1 H2] [H3 H4].
  assert (A : IZR i < IZR (j + 1)) by (rewrite plus_IZR; lra).
  assert (B : IZR j < IZR (i + 1)) by (rewrite plus_IZR; lra).
  apply lt_IZR in A, B. lia.
Qed.

(** ** The quadrant *)

Definition sg (b : bool) : R := if b then 1 else - (1).
Definition face (b : bool) : R := if b then side_len - half_wall else half_wall.
Definition corner (b : bool) : R := if b then side_len else 0.
Definition dirx (b : bool) : direction := if b then DRight else DLeft.
Definition diry (b : bool) : direction := if b then DTop else DBottom.

Lemma trig_shift (x : R) (k : Z) : cos (x + IZR k * (2 * PI)) = cos x /\ sin (x + IZR k * (2 * PI)) = sin x.
Proof.
  destruct (Z_le_gt_dec 0 k) as [H|H].
  - rewrite <- (Z2Nat.id k H). rewrite <- INR_IZR_INZ.
    replace (x + INR (Z.to_nat k) * (2 * PI)) with (x + 2 * INR (Z.to_nat k) * PI) by ring.
    split; [apply cos_period|apply sin_period].
  - set (m := Z.to_nat (- k)).
    assert (E : IZR k = - INR m).
    { rewrite INR_IZR_INZ. unfold m. rewrite Z2Nat.id by lia. rewrite opp_IZR. lra. }
    rewrite E. rewrite <- (cos_period (x + - INR m * (2 * PI)) m), <- (sin_period (x + - INR m * (2 * PI)) m).
    replace (x + - INR m * (2 * PI) + 2 * INR m * PI) with x by ring. split; reflexivity.
Qed.

Lemma revolution_spec (th : R) : let r := @revolution Rops th in
  0 <= r < 1 /\ cos th = cos (2 * PI * r) /\ sin th = sin (2 * PI * r).
Proof.
  intros r. pose proof PI_RGT_0. assert (H1 : 0 < 1 / 1) by lra.
  destruct (rem_euclid_R (th / (2 / 1 * PI))%R (1 / 1)%R H1) as (B & k & E).
  assert (Er : r = th / (2 * PI) + IZR k).
  { unfold r, revolution. rops. etransitivity; [exact E|]. field. lra. }
  split. { unfold r, revolution. rops. revert B. rops. lra. }
  assert (Et : 2 * PI * r = th + IZR k * (2 * PI)) by (rewrite Er; field; lra).
  rewrite Et. destruct (trig_shift th k) as [-> ->]. split; reflexivity.
Qed.

Lemma cos_eighth x : - (PI / 4) <= x <= PI / 4 -> Rabs (sin x) <= cos x.
Proof.
  intros H. pose proof PI_RGT_0.
  assert (C : 0 <= cos x) by (apply cos_ge_0; lra).
  assert (C2 : 0 <= cos (2 * x)) by (apply cos_ge_0; lra).
  rewrite cos_2a in C2. apply Rabs_le. nra.
Qed.

Lemma rot90 x : cos x = - sin (x - PI / 2) /\ sin x = cos (x - PI / 2).
Proof.
  rewrite cos_minus, sin_minus, cos_PI2, sin_PI2. split; ring.
Qed.

Lemma rot180 x : cos x = - cos (x - PI) /\ sin x = - sin (x - PI).
Proof. rewrite cos_minus, sin_minus, cos_PI, sin_PI. split; ring. Qed.

Lemma rot360 x : cos x = cos (x - 2 * PI) /\ sin x = sin (x - 2 * PI).
Proof. rewrite cos_minus, sin_minus, cos_2PI, sin_2PI. split; ring. Qed.

Lemma first_quadrant x : 0 <= x < PI / 2 -> 0 < cos x /\ 0 <= sin x.
Proof.
  intros H. pose proof PI_RGT_0. split; [apply cos_gt_0; lra|apply sin_ge_0; lra].
Qed.

(** the side within 45 degrees of the heading that is_near_pillar looks at. *)
Definition ahead_rot (r : R) (s : side) : Prop :=
  match s with
  | East_side => r < 1 / 8 \/ 7 / 8 < r
  | North_side => 1 / 8 <= r < 3 / 8
  | West_side => 3 / 8 <= r < 5 / 8
  | South_side => 5 / 8 <= r <= 7 / 8
  end.

Definition ahead_ok (s : side) (c n : R) : Prop :=
  match s with
  | East_side => Rabs n <= c
  | West_side => Rabs n <= - c
  | North_side => Rabs c <= n
  | South_side => Rabs c <= - n
  end.

Lemma octant (r : R) s : 0 <= r < 1 -> ahead_rot r s ->
  ahead_ok s (cos (2 * PI * r)) (sin (2 * PI * r)).
Proof.
  intros Hr Hs. pose proof PI_RGT_0 as Hp. set (x := 2 * PI * r).
  destruct s; cbn [ahead_rot ahead_ok] in *.
  - destruct Hs as [Hs|Hs].
    + apply cos_eighth. unfold x. nra.
    + destruct (rot360 x) as [-> ->]. apply cos_eighth. unfold x. nra.
  - destruct (rot180 x) as [-> ->]. rewrite Rabs_Ropp, Ropp_involutive. apply cos_eighth. unfold x. nra.
  - destruct (rot90 x) as [-> ->]. rewrite Rabs_Ropp. apply cos_eighth. unfold x. nra.
  - destruct (rot180 x) as [-> ->]. destruct (rot90 (x - PI)) as [-> ->].
    rewrite !Ropp_involutive. apply cos_eighth. unfold x. nra.
Qed.

Definition quad_rot (r : R) (bx by_ : bool) : Prop :=
  match bx, by_ with
  | true, true => r < 1 / 4
  | false, true => 1 / 4 <= r < 1 / 2
  | false, false => 1 / 2 <= r < 3 / 4
  | true, false => 3 / 4 <= r
  end.

Lemma quadrant (r : R) bx by_ : 0 <= r < 1 -> quad_rot r bx by_ ->
  0 <= sg bx * cos (2 * PI * r) /\ 0 <= sg by_ * sin (2 * PI * r).
Proof.
  intros Hr Hq. pose proof PI_RGT_0 as Hp. set (x := 2 * PI * r).
  destruct bx, by_; cbn [quad_rot sg] in *.
  - assert (0 <= x < PI / 2) as Hx by (unfold x; nra). apply first_quadrant in Hx. lra.
  - destruct (rot180 x) as [-> ->]. destruct (rot90 (x - PI)) as [-> ->].
    assert (0 <= x - PI - PI / 2 < PI / 2) as Hx by (unfold x; nra). apply first_quadrant in Hx. lra.
  - destruct (rot90 x) as [-> ->].
    assert (0 <= x - PI / 2 < PI / 2) as Hx by (unfold x; nra). apply first_quadrant in Hx. lra.
  - destruct (rot180 x) as [-> ->].
    assert (0 <= x - PI < PI / 2) as Hx by (unfold x; nra). apply first_quadrant in Hx. lra.
Qed.

Lemma axes_spec (th : R) : exists bx by_,
  0 <= sg bx * cos th /\ 0 <= sg by_ * sin th /\
  axes cd (@revolution Rops th) =
    [(@AxX Rops (face bx), dirx bx); (@AxX Rops (face bx + sg bx * side_len)%R, dirx bx);
     (@AxY Rops (face by_), diry by_); (@AxY Rops (face by_ + sg by_ * side_len)%R, diry by_)] /\
  exists s A B, ahead_ok s (cos th) (sin th) /\ pillars cd (@revolution Rops th) = (A, B) /\
    (A = (corner bx, corner by_) \/ B = (corner bx, corner by_)) /\
    forall q, (q = A \/ q = B) <-> pillar_of s 0 0 q.
Proof.
  destruct (revolution_spec th) as (Hr & Ec & Es). set (r := @revolution Rops th) in *. clearbody r.
  rewrite Ec, Es.
  destruct default_vals as (_ & E1 & _ & _ & E2 & E3 & E4 & E5).
  assert (E3' : c_p2 cd = side_len - half_wall + 1 * side_len) by (rewrite E3; rops; ring).
  assert (E5' : c_n2 cd = half_wall + - (1) * side_len) by (rewrite E5; rops; ring).
  unfold axes, pillars. rewrite E1, E2, E3', E4, E5'. rops.
  assert (Hq : forall bx by_, quad_rot r bx by_ ->
    0 <= sg bx * cos (2 * PI * r) /\ 0 <= sg by_ * sin (2 * PI * r)) by (intros; now apply quadrant).
  assert (Ho : forall s, ahead_rot r s -> ahead_ok s (cos (2 * PI * r)) (sin (2 * PI * r))) by (intros; now apply octant).
  clear Ec Es.
  assert (Hpil : exists s A B, ahead_rot r s /\
    (if negb (Rleb (1 / 8) r && Rleb r (7 / 8)) then ((side_len, 0 / 1), (side_len, side_len))
     else if Rltb r (3 / 8) then ((side_len, side_len), (0 / 1, side_len))
     else if Rltb r (5 / 8) then ((0 / 1, side_len), (0 / 1, 0 / 1))
     else ((0 / 1, 0 / 1), (side_len, 0 / 1))) = (A, B) /\
    (forall bx by_, quad_rot r bx by_ -> A = (corner bx, corner by_) \/ B = (corner bx, corner by_)) /\
    forall q, (q = A \/ q = B) <-> pillar_of s 0 0 q).
  { unfold pillar_of, corner. replace (0 / 1) with 0 by lra.
    replace (0 * side_len) with 0 by ring. replace (0 + side_len) with side_len by ring.
    destruct (Rleb_spec (1 / 8) r) as [H1|H1]; [destruct (Rleb_spec r (7 / 8)) as [H2|H2]|]; cbn [negb andb].
    2:{ exists East_side. do 2 eexists. split; [right; lra|]. split; [reflexivity|]. split; [|intros q; tauto].
        intros [|] [|]; cbn [quad_rot]; intros; try lra; tauto. }
    2:{ exists East_side. do 2 eexists. split; [left; lra|]. split; [reflexivity|]. split; [|intros q; tauto].
        intros [|] [|]; cbn [quad_rot]; intros; try lra; tauto. }
    destruct (Rltb_spec r (3 / 8)) as [H3|H3].
    { exists North_side. do 2 eexists. split; [cbn; lra|]. split; [reflexivity|]. split; [|intros q; tauto].
        intros [|] [|]; cbn [quad_rot]; intros; try lra; tauto. }
    destruct (Rltb_spec r (5 / 8)) as [H4|H4].
    { exists West_side. do 2 eexists. split; [cbn; lra|]. split; [reflexivity|]. split; [|intros q; tauto].
        intros [|] [|]; cbn [quad_rot]; intros; try lra; tauto. }
    exists South_side. do 2 eexists. split; [cbn; lra|]. split; [reflexivity|]. split; [|intros q; tauto].
        intros [|] [|]; cbn [quad_rot]; intros; try lra; tauto. }
  destruct Hpil as (s & A & B & Hs & EAB & Hc & Hin). rewrite EAB.
  assert (fin : forall bx by_ (Hqr : quad_rot r bx by_),
    exists s0 A0 B0, ahead_ok s0 (cos (2 * PI * r)) (sin (2 * PI * r)) /\ (A, B) = (A0, B0) /\
    (A0 = (corner bx, corner by_) \/ B0 = (corner bx, corner by_)) /\
    (forall q, (q = A0 \/ q = B0) <-> pillar_of s0 0 0 q)).
  { intros bx by_ Hqr. exists s, A, B. split; [now apply Ho|]. split; [reflexivity|]. split; [now apply Hc|exact Hin]. }
  destruct (Rltb_spec r (1 / 4)) as [H1|H1]; [|destruct (Rltb_spec r (1 / 2)) as [H2|H2]; [|destruct (Rltb_spec r (3 / 4)) as [H3|H3]]].
  - exists true, true. assert (Q : quad_rot r true true) by (cbn; lra).
    destruct (Hq _ _ Q). split; [assumption|]. split; [assumption|]. split; [|now apply fin].
    reflexivity.
  - exists false, true. assert (Q : quad_rot r false true) by (cbn; lra).
    destruct (Hq _ _ Q). split; [assumption|]. split; [assumption|]. split; [|now apply fin].
    reflexivity.
  - exists false, false. assert (Q : quad_rot r false false) by (cbn; lra).
    destruct (Hq _ _ Q). split; [assumption|]. split; [assumption|]. split; [|now apply fin].
    reflexivity.
  - exists true, false. assert (Q : quad_rot r true false) by (cbn; lra).
    destruct (Hq _ _ Q). split; [assumption|]. split; [assumption|]. split; [|now apply fin].
    reflexivity.
Qed.
