(** The normalisation of angles in binary32. *)
From Coq Require Import ZArith Reals List Bool Lia Lra.
From Flocq Require Import Core BinarySingleNaN.
From Verif Require Import Base Num NumLemmas ControlModel FloatMag FloatRange FloatMoveSpec FloatCurve3 CtlFloat SimFloat AngleFloat.
Open Scope R_scope.

(** [pi] of the code: the binary32 number 13176795 / 2^22. *)
Definition pi32 : R := 13176795 / 4194304.

(** ** C109: for every finite angle the normalised angle lies in the half-open interval from -pi to pi and
    differs from the given one by whole turns, up to one rounding for negative angles. *)
Theorem C109_angle lm (x : f32) : is_finite x = true ->
  let y := @normalize_angle (Fops lm) x : f32 in
  is_finite y = true /\ - pi32 < B2R y <= pi32 /\
  exists j : Z, (0 <= B2R x -> B2R y = B2R x - IZR j * (2 * pi32)) /\
    Rabs (B2R y - (B2R x - IZR j * (2 * pi32))) <= 1 / 2097152.
Proof.
  intros Fx. cbv zeta. rewrite normalize_unfold. cbv zeta. destruct (raw_ok x Fx) as (F & H & j & E1 & E2).
  match type of F with is_finite ?w = true => set (raw := w) in * end. clearbody raw. destruct (fold_exact lm raw F H) as (F' & H' & C). change pi32 with pif.
  split; [exact F'|]. split; [exact H'|].
  assert (G : forall Y : R, Y = B2R raw \/ Y = B2R raw - 2 * pif -> exists j : Z, (0 <= B2R x -> Y = B2R x - IZR j * (2 * pif)) /\
    Rabs (Y - (B2R x - IZR j * (2 * pif))) <= 1 / 2097152).
  { intros Y [->| ->].
    - exists j. split; assumption.
    - exists (j + 1)%Z. rewrite plus_IZR. split.
      + intros Hx. rewrite (E1 Hx). ring.
      + replace (B2R raw - 2 * pif - (B2R x - (IZR j + 1) * (2 * pif))) with (B2R raw - (B2R x - IZR j * (2 * pif))) by ring. exact E2. }
  apply G. destruct C as [[_ C]|[_ C]]; [left; exact (f_equal B2R C)|right; exact C].
Qed.
Print Assumptions C109_angle.

(** An angle from 0 to pi is returned unchanged, bit for bit. *)
Theorem C109_same lm (x : f32) : is_finite x = true -> 0 < B2R x <= pi32 -> (@normalize_angle (Fops lm) x : f32) = x.
Proof.
  intros Fx Hx. change pi32 with pif in Hx. destruct (C109_angle lm x Fx) as (Fy & Hy & j & E & _). change pi32 with pif in *.
  specialize (E ltac:(lra)). pose proof pif_range as P.
  assert (J : j = 0%Z).
  { destruct (Z.lt_trichotomy j 0) as [L|[L|L]]; [exfalso| exact L|exfalso].
    - assert (IZR j <= -1) by (apply IZR_le; lia). nra.
    - assert (1 <= IZR j) by (apply IZR_le; lia). nra. }
  subst j. rewrite Rmult_0_l, Rminus_0_r in E. set (y := @normalize_angle (Fops lm) x : f32) in *. clearbody y.
  apply B2R_Bsign_inj; [exact Fy|exact Fx|exact E|].
  assert (S : forall z : f32, 0 < B2R z -> Bsign z = false).
  { intros [s|s| |s m e B] Hz; cbn [B2R] in Hz; try (exfalso; lra). destruct s; [exfalso|reflexivity].
    unfold F2R in Hz. cbn [cond_Zopp Fnum Fexp] in Hz. pose proof (bpow_gt_0 radix2 e). assert (IZR (Z.opp (Z.pos m)) <= -1) by (apply IZR_le; lia). nra. }
  rewrite (S y) by lra. rewrite (S x) by lra. reflexivity.
Qed.
Print Assumptions C109_same.

(** A negative angle above -2^-22 comes out as 0: a full turn is added, in which the angle is lost. *)
Theorem C109_lost lm (x : f32) : is_finite x = true -> - (1 / 4194304) < B2R x < 0 -> B2R (@normalize_angle (Fops lm) x : f32) = 0.
Proof.
  intros Fx Hx. rewrite normalize_unfold. cbv zeta. pose proof pif_range as P. destruct twopi_val as [Vt Ft]. destruct zero_lit as [V0 F0].
  destruct (rem_exact x twopi Fx Ft) as (Fr & (j & Ej) & Lr & _ & S2); [rewrite Vt; lra|]. rewrite Vt in *.
  rewrite (Rabs_pos_eq (2 * pif)) in Lr by lra. apply Rabs_lt_inv in Lr. specialize (S2 ltac:(lra)).
  assert (J : j = 0%Z).
  { destruct (Z.lt_trichotomy j 0) as [L|[L|L]]; [exfalso| exact L|exfalso].
    - assert (IZR j <= -1) by (apply IZR_le; lia). nra.
    - assert (1 <= IZR j) by (apply IZR_le; lia). nra. }
  subst j. rewrite Rmult_0_l, Rminus_0_r in Ej. set (r := f32_rem x twopi) in *. clearbody r.
  destruct (ltb_cases r _ Fr F0) as [[-> C]|[_ C]]; [|rewrite V0 in C; lra].
  destruct (raw_lost r Fr) as [E F]; [lra|]. set (raw := Bplus mode_NE r (Babs twopi)) in *. clearbody raw.
  destruct (fold_exact lm raw F) as (_ & _ & Q); [lra|]. destruct Q as [[Q _]|[_ Q]]; [lra|]. rewrite E in Q. apply eq_trans with (1 := Q). ring.
Qed.
Print Assumptions C109_lost.

(** An infinite angle or NaN gives NaN. *)
Theorem C109_nan lm (x : f32) : is_finite x = false -> is_nan (@normalize_angle (Fops lm) x : f32) = true.
Proof.
  intros Fx. rewrite normalize_unfold. cbv zeta. destruct (npi_val lm) as [_ Fp]. set (p := @npi (Fops lm) : f32) in *. clearbody p.
  assert (E : f32_rem x twopi = B754_nan) by (destruct x; try discriminate; reflexivity). rewrite E.
  assert (B0 : Bltb (B754_nan : f32) (f32_div (f32_of_Z 0) (f32_of_Z 1)) = false) by reflexivity. rewrite B0.
  assert (B1 : Bltb p (B754_nan : f32) = false) by (destruct p; try discriminate; reflexivity). rewrite B1. reflexivity.
Qed.
Print Assumptions C109_nan.

(** 7 radians, half a radian, -2^-23 radians, infinity. *)
Example C109_case : is_finite (dyad 7 0) = true /\ B2R (dyad 7 0) = 7 /\
  is_finite (dyad 1 1) = true /\ 0 < B2R (dyad 1 1) <= pi32 /\
  is_finite (dyad (-1) 23) = true /\ - (1 / 4194304) < B2R (dyad (-1) 23) < 0 /\ is_finite (B754_infinity true : f32) = false.
Proof.
  destruct (dyad_val 7 0 ltac:(lia) ltac:(lia)) as [F1 E1]. destruct (dyad_val 1 1 ltac:(lia) ltac:(lia)) as [F2 E2]. destruct (dyad_val (-1) 23 ltac:(lia) ltac:(lia)) as [F3 E3].
  rewrite E1, E2, E3. change (2 ^ 0)%Z with 1%Z. change (2 ^ 1)%Z with 2%Z. change (2 ^ 23)%Z with 8388608%Z. unfold pi32.
  repeat split; try assumption; lra.
Qed.
