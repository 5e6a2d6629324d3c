(** Tracker and controller in binary32: magnitudes. *)
From Coq Require Import ZArith Reals List Bool Lia Lra.
From Flocq Require Import Core BinarySingleNaN.
From Verif Require Import Base Num NumLemmas ControlModel ControlSpec FloatMag FloatRange FloatMoveSpec JerkProofs FloatMove FloatMove2 EstFloat.
Open Scope R_scope.

Lemma rem_below k (x y : f32) : is_finite x = true -> below k y -> (-149 <= k < 128)%Z -> B2R y <> 0 -> below k (f32_rem x y).
Proof.
  intros Fx [Fy By] Hk Ny. destruct x as [s|s| |s mx ex Bx]; try discriminate; destruct y as [s'|s'| |s' my ey By']; try discriminate;
    try (exfalso; apply Ny; reflexivity).
  - cbn [f32_rem]. split; [reflexivity|]. cbn [B2R]. rewrite Rabs_R0. apply bpow_ge_0.
  - cbn [f32_rem]. cbv zeta. set (e := Z.min ex ey).
    set (A := (Z.pos mx * 2 ^ (ex - e))%Z). set (B := (Z.pos my * 2 ^ (ey - e))%Z).
    assert (PB : (0 < B)%Z) by (apply Z.mul_pos_pos; [lia|apply Z.pow_pos_nonneg; unfold e; lia]).
    pose proof (Z.rem_bound_abs A B ltac:(lia)) as RB. set (r := Z.rem A B) in *. clearbody r A.
    set (q := if s then (- r)%Z else r). assert (Q : (Z.abs q < B)%Z) by (unfold q; destruct s; lia). clearbody q.
    assert (V : Rabs (B2R (B754_finite s' my ey By')) = IZR B * bpow radix2 e).
    { cbn [B2R]. rewrite <- F2R_Zabs. unfold F2R. cbn [Fnum Fexp]. rewrite abs_cond_Zopp. cbn [Z.abs].
      unfold B. rewrite mult_IZR. change 2%Z with (radix_val radix2). rewrite (IZR_Zpower radix2) by (unfold e; lia).
      rewrite Rmult_assoc, <- bpow_plus. do 2 f_equal. lia. }
    assert (L : Rabs (F2R (Float radix2 q e)) <= bpow radix2 k).
    { apply Rle_trans with (2 := By). rewrite V, <- F2R_Zabs. unfold F2R. cbn [Fnum Fexp].
      apply Rmult_le_compat_r; [apply bpow_ge_0|]. apply IZR_le. lia. }
    pose proof (binary_normalize_correct 24 128 prec32 emax32 mode_NE q e s) as C. cbv zeta in C.
    change (round radix2 (SpecFloat.fexp 24 128) (round_mode mode_NE)) with rnd32 in C.
    pose proof (rnd_top _ k Hk L) as T. rewrite Rlt_bool_true in C by exact T. destruct C as (C1 & C2 & _).
    split; [exact C2|]. rewrite C1. apply rnd_below; [lia|exact L].
Qed.

Section Track.
Variable lm : libm.
#[local] Hint Extern 0 ops => exact (Fops lm) : typeclass_instances.
Hypothesis trig : forall x : f32, is_finite x = true -> below 1 (l_sin lm x) /\ below 1 (l_cos lm x).

Definition twopi : f32 := Bmult mode_NE f2 (f32_div (f32_of_Z 13176795) (f32_of_Z 4194304)).
Lemma twopi_below : below 3 twopi /\ B2R twopi <> 0 /\ below 2 (f32_div (f32_of_Z 13176795) (f32_of_Z 4194304)).
Proof.
  destruct f2_val as [V2 F2]. destruct (f32_of_Z_exact 13176795 ltac:(lia)) as [E1 G1]. destruct (f32_of_Z_exact 4194304 ltac:(lia)) as [E2 G2].
  destruct (div_btw 3 4 (f32_of_Z 13176795) (f32_of_Z 4194304) G1) as [F H]; [rewrite E2; lra|apply fit_int; lia|apply fit_int; lia|rewrite E1, E2; lra|].
  destruct (mul_btw 6 8 f2 _ F2 F) as [F' H']; [apply fit_int; lia|apply fit_int; lia|rewrite V2; lra|]. fold twopi in F', H'.
  split; [|split; [lra|]].
  - apply (btw_below 6 8); [split; assumption| |]; change (bpow radix2 3) with 8; lra.
  - apply (btw_below 3 4); [split; assumption| |]; change (bpow radix2 2) with 4; lra.
Qed.

Lemma angle_below (a : f32) : is_finite a = true -> below 5 (@normalize_angle (Fops lm) a : f32).
Proof.
  intros Fa. destruct twopi_below as (T1 & T2 & T3).
  unfold normalize_angle. cbv zeta. unfold rem_euclid. cbv zeta. unfold n2. cbn [lit mul npi nrem add sub ltb nabs Fops].
  change (f32_div (f32_of_Z 2) (f32_of_Z 1)) with f2. fold twopi.
  pose proof (rem_below 3 a twopi Fa T1 ltac:(lia) T2) as R. set (r := f32_rem a twopi) in *. clearbody r.
  assert (Ab : below 3 (Babs twopi)). { destruct T1 as [F H]. split; [rewrite is_finite_Babs; exact F|]. rewrite B2R_Babs, Rabs_Rabsolu. exact H. }
  match goal with |- below _ (if _ then Bminus _ ?x _ else ?x) => assert (Q : below 4 x) end.
  { match goal with |- below _ (if ?c then _ else _) => destruct c end; [eapply (below_le (Z.max 3 3 + 1)); [lia|bl]|apply (below_le 3); [lia|exact R]]. }
  match goal with |- below _ (if _ then Bminus _ ?x _ else ?x) => set (y := x) in *; clearbody y end.
  match goal with |- below _ (if ?c then _ else _) => destruct c end; [eapply (below_le (Z.max 4 3 + 1)); [lia|bl]|apply (below_le 4); [lia|exact Q]].
Qed.
End Track.
