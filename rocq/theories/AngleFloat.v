(** Remainders and the normalisation of angles in binary32. *)
From Coq Require Import ZArith Reals List Bool Lia Lra.
From Flocq Require Import Core Relative Sterbenz BinarySingleNaN.
From Verif Require Import Base Num NumLemmas ControlModel FloatMag FloatRange FloatMoveSpec JerkProofs FloatMove FloatMove2 EstFloat CtlFloat SimFloat.
Open Scope R_scope.

(** The remainder is exact. *)
Lemma rem_exact (x y : f32) : is_finite x = true -> is_finite y = true -> B2R y <> 0 ->
  is_finite (f32_rem x y) = true /\ (exists j : Z, B2R (f32_rem x y) = B2R x - IZR j * B2R y) /\
  Rabs (B2R (f32_rem x y)) < Rabs (B2R y) /\ (0 <= B2R x -> 0 <= B2R (f32_rem x y)) /\ (B2R x <= 0 -> B2R (f32_rem x y) <= 0).
Proof.
  intros Fx Fy Ny. destruct x as [s|s| |s mx ex Bx]; try discriminate; destruct y as [s'|s'| |s' my ey By']; try discriminate;
    try (exfalso; apply Ny; reflexivity).
  - cbn [f32_rem]. split; [reflexivity|]. split; [exists 0%Z; cbn [B2R]; lra|]. split; [|cbn [B2R]; lra].
    change (B2R (B754_zero s : f32)) with 0. rewrite Rabs_R0. apply Rabs_pos_lt. exact Ny.
  - set (Y := B754_finite s' my ey By' : f32) in *. set (X := B754_finite s mx ex Bx : f32).
    assert (E : f32_rem X Y = let e := Z.min ex ey in let r := Z.rem (Zpos mx * 2 ^ (ex - e)) (Zpos my * 2 ^ (ey - e)) in
      binary_normalize 24 128 prec32 emax32 mode_NE (if s then - r else r)%Z e s) by reflexivity.
    rewrite E. clear E. cbv zeta. set (e := Z.min ex ey).
    assert (WX : (Z.pos mx < 2 ^ 24)%Z /\ (-149 <= ex)%Z).
    { pose proof Bx as Q. unfold SpecFloat.bounded, SpecFloat.canonical_mantissa in Q. apply andb_prop in Q. destruct Q as [Q _].
      apply Zeq_bool_eq in Q. unfold SpecFloat.fexp, SpecFloat.emin in Q. rewrite Digits.Zpos_digits2_pos in Q.
      pose proof (Digits.Zdigits_correct radix2 (Z.pos mx)) as D. rewrite Z.abs_eq in D by lia. split; [|lia].
      apply Z.lt_le_trans with (1 := proj2 D). change 2%Z with (radix_val radix2). apply Zpower_le. lia. }
    assert (WY : (Z.pos my < 2 ^ 24)%Z /\ (-149 <= ey)%Z).
    { pose proof By' as Q. unfold SpecFloat.bounded, SpecFloat.canonical_mantissa in Q. apply andb_prop in Q. destruct Q as [Q _].
      apply Zeq_bool_eq in Q. unfold SpecFloat.fexp, SpecFloat.emin in Q. rewrite Digits.Zpos_digits2_pos in Q.
      pose proof (Digits.Zdigits_correct radix2 (Z.pos my)) as D. rewrite Z.abs_eq in D by lia. split; [|lia].
      apply Z.lt_le_trans with (1 := proj2 D). change 2%Z with (radix_val radix2). apply Zpower_le. lia. }
    set (A := (Z.pos mx * 2 ^ (ex - e))%Z). set (B := (Z.pos my * 2 ^ (ey - e))%Z).
    assert (PB : (0 < B)%Z) by (apply Z.mul_pos_pos; [lia|apply Z.pow_pos_nonneg; unfold e; lia]).
    assert (PA : (0 < A)%Z) by (apply Z.mul_pos_pos; [lia|apply Z.pow_pos_nonneg; unfold e; lia]).
    assert (VX : B2R X = IZR (if s then - A else A) * bpow radix2 e).
    { unfold X. cbn [B2R]. unfold F2R. cbn [Fnum Fexp].
      replace (if s then - A else A)%Z with (cond_Zopp s (Z.pos mx) * 2 ^ (ex - e))%Z by (unfold A, cond_Zopp; destruct s; ring).
      rewrite mult_IZR. change 2%Z with (radix_val radix2). rewrite (IZR_Zpower radix2) by (unfold e; lia).
      rewrite Rmult_assoc, <- bpow_plus. do 2 f_equal. lia. }
    assert (VY : B2R Y = IZR (if s' then - B else B) * bpow radix2 e).
    { unfold Y. cbn [B2R]. unfold F2R. cbn [Fnum Fexp].
      replace (if s' then - B else B)%Z with (cond_Zopp s' (Z.pos my) * 2 ^ (ey - e))%Z by (unfold B, cond_Zopp; destruct s'; ring).
      rewrite mult_IZR. change 2%Z with (radix_val radix2). rewrite (IZR_Zpower radix2) by (unfold e; lia).
      rewrite Rmult_assoc, <- bpow_plus. do 2 f_equal. lia. }
    pose proof (Z.rem_bound_pos A B ltac:(lia) PB) as RB. pose proof (Z.quot_rem' A B) as QR.
    pose proof (Z.quot_pos A B ltac:(lia) PB) as QP.
    assert (RA : (Z.rem A B <= A)%Z) by nia.
    assert (R24 : (Z.rem A B < 2 ^ 24)%Z).
    { destruct (Z.le_gt_cases ex ey) as [L|L].
      - assert (A = Z.pos mx) by (unfold A, e; rewrite Z.min_l by lia; rewrite Z.sub_diag; lia). lia.
      - assert (B = Z.pos my) by (unfold B, e; rewrite Z.min_r by lia; rewrite Z.sub_diag; lia). lia. }
    assert (E149 : (-149 <= e)%Z) by (unfold e; lia).
    clearbody X Y A B e. set (r := Z.rem A B) in *. set (t := Z.quot A B) in *. clearbody r t.
    set (q := if s then (- r)%Z else r).
    assert (Fq : format32 (F2R (Float radix2 q e))).
    { apply generic_format_FLT. exists (Float radix2 q e); [reflexivity| |exact E149]. cbn [Fnum]. unfold q. change (Z.pow (radix_val radix2) 24) with (2 ^ 24)%Z. destruct s; lia. }
    assert (Lq : Rabs (F2R (Float radix2 q e)) < Rabs (B2R Y)).
    { rewrite VY, <- F2R_Zabs. unfold F2R. cbn [Fnum Fexp]. rewrite Rabs_mult, (Rabs_pos_eq (bpow radix2 e)) by apply bpow_ge_0.
      apply Rmult_lt_compat_r; [apply bpow_gt_0|]. rewrite <- abs_IZR. apply IZR_lt. unfold q. destruct s, s'; lia. }
    pose proof (binary_normalize_correct 24 128 prec32 emax32 mode_NE q e s) as C. cbv zeta in C.
    rewrite round_generic in C; [|apply valid_rnd_N|exact Fq].
    rewrite Rlt_bool_true in C by (apply Rlt_trans with (1 := Lq); apply abs_B2R_lt_emax).
    destruct C as (C1 & C2 & _). split; [exact C2|]. rewrite C1. split; [|split; [exact Lq|]].
    + exists (if xorb s s' then - t else t)%Z. rewrite VX, VY. unfold F2R. cbn [Fnum Fexp]. rewrite <- Rmult_assoc, <- mult_IZR, <- Rmult_minus_distr_r, <- minus_IZR.
      do 2 f_equal. unfold q. destruct s, s'; cbn [xorb]; lia.
    + unfold F2R. cbn [Fnum Fexp]. pose proof (bpow_gt_0 radix2 e) as P. rewrite VX.
      assert (0 <= IZR r) by (apply IZR_le; lia). assert (0 < IZR A) by (apply IZR_lt; lia). unfold q. split; destruct s; rewrite ?opp_IZR; nra.
Qed.

(** the two constants. *)
Definition pif : R := 13176795 / 4194304.

Lemma npi_val lm : B2R (@npi (Fops lm) : f32) = pif /\ is_finite (@npi (Fops lm) : f32) = true.
Proof.
  cbn [npi Fops]. destruct (f32_of_Z_exact 13176795 ltac:(lia)) as [E1 G1]. destruct (f32_of_Z_exact 4194304 ltac:(lia)) as [E2 G2].
  pose proof (fit_dyadic 13176795 22 ltac:(lia) ltac:(lia)) as L. change (2 ^ 22)%Z with 4194304%Z in L. fold pif in L.
  destruct (div_btw pif pif (f32_of_Z 13176795) (f32_of_Z 4194304) G1) as [F H]; [rewrite E2; lra|exact L|exact L|rewrite E1, E2; fold pif; lra|].
  split; [lra|exact F].
Qed.

Lemma twopi_val : B2R twopi = 2 * pif /\ is_finite twopi = true.
Proof.
  unfold twopi. destruct f2_val as [V2 F2]. destruct (npi_val libm0) as [V F]. cbn [npi Fops] in V, F.
  pose proof (fit_dyadic 13176795 21 ltac:(lia) ltac:(lia)) as L. change (2 ^ 21)%Z with 2097152%Z in L.
  replace (13176795 / 2097152) with (2 * pif) in L by (unfold pif; lra).
  destruct (mul_btw (2 * pif) (2 * pif) f2 _ F2 F) as [F' H']; [exact L|exact L|rewrite V2, V; lra|]. split; [lra|exact F'].
Qed.

Lemma pif_range : 3 < pif < 4.
Proof. unfold pif. lra. Qed.

Lemma pif_fit : fit pif /\ fit (2 * pif).
Proof.
  split.
  - exact (fit_dyadic 13176795 22 ltac:(lia) ltac:(lia)).
  - pose proof (fit_dyadic 13176795 21 ltac:(lia) ltac:(lia)) as L. change (2 ^ 21)%Z with 2097152%Z in L.
    replace (13176795 / 2097152) with (2 * pif) in L by (unfold pif; lra). exact L.
Qed.

Lemma normalize_unfold lm (x : f32) : (@normalize_angle (Fops lm) x : f32) =
  let r := f32_rem x twopi in
  let raw := if Bltb r (f32_div (f32_of_Z 0) (f32_of_Z 1)) then Bplus mode_NE r (Babs twopi) else r in
  if Bltb (@npi (Fops lm)) raw then Bminus mode_NE raw twopi else raw.
Proof. reflexivity. Qed.

(** the second half: fold the upper half of the circle down, exactly. *)
Lemma fold_exact lm (raw : f32) : is_finite raw = true -> 0 <= B2R raw <= 2 * pif ->
  let y := if Bltb (@npi (Fops lm) : f32) raw then Bminus mode_NE raw twopi else raw in
  is_finite y = true /\ - pif < B2R y <= pif /\
  ((B2R raw <= pif /\ y = raw) \/ (pif < B2R raw /\ B2R y = B2R raw - 2 * pif)).
Proof.
  intros F H. cbv zeta. destruct (npi_val lm) as [Vp Fp]. destruct twopi_val as [Vt Ft]. pose proof pif_range as P.
  pose proof (ltb_cases (@npi (Fops lm) : f32) raw Fp F) as C. rewrite Vp in C. destruct C as [[-> C]|[-> C]].
  - assert (pif < B2R raw) by exact C. clear C.
    assert (E : rnd32 (B2R raw - B2R twopi) = B2R raw - B2R twopi).
    { apply round_generic; [apply valid_rnd_N|]. apply sterbenz; [apply FLT_exp_valid; reflexivity|apply FLT_exp_monotone|apply generic_format_B2R|apply generic_format_B2R|rewrite Vt; lra]. }
    destruct (minus_ok raw twopi F Ft) as [E' F'].
    { rewrite E, Vt. apply Rle_lt_trans with (bpow radix2 3); [|apply bpow_lt; lia]. change (bpow radix2 3) with 8. apply Rabs_le. split; lra. }
    rewrite E in E'. rewrite Vt in E'. split; [exact F'|]. rewrite E'. split; [lra|]. right. split; [assumption|reflexivity].
  - split; [exact F|]. split; [lra|]. left. split; [lra|reflexivity].
Qed.

Lemma zero_lit : B2R (f32_div (f32_of_Z 0) (f32_of_Z 1)) = 0 /\ is_finite (f32_div (f32_of_Z 0) (f32_of_Z 1)) = true.
Proof. change (f32_div (f32_of_Z 0) (f32_of_Z 1)) with (B754_zero false : f32). split; reflexivity. Qed.

(** the first half: the remainder moved to [0, 2 pif]. *)
Lemma raw_ok (x : f32) : is_finite x = true ->
  let r := f32_rem x twopi in
  let raw := if Bltb r (f32_div (f32_of_Z 0) (f32_of_Z 1)) then Bplus mode_NE r (Babs twopi) else r in
  is_finite raw = true /\ 0 <= B2R raw <= 2 * pif /\
  exists j : Z, (0 <= B2R x -> B2R raw = B2R x - IZR j * (2 * pif)) /\ Rabs (B2R raw - (B2R x - IZR j * (2 * pif))) <= 1 / 2097152.
Proof.
  intros Fx. cbv zeta. destruct twopi_val as [Vt Ft]. pose proof pif_range as P. destruct zero_lit as [V0 F0]. destruct pif_fit as [_ L].
  destruct (rem_exact x twopi Fx Ft) as (Fr & (j & Ej) & Lr & S1 & S2); [rewrite Vt; lra|].
  rewrite Vt in *. rewrite (Rabs_pos_eq (2 * pif)) in Lr by lra. apply Rabs_lt_inv in Lr.
  set (r := f32_rem x twopi) in *. clearbody r.
  pose proof (ltb_cases r _ Fr F0) as C. rewrite V0 in C. destruct C as [[-> C]|[-> C]].
  - assert (N : B2R r < 0) by exact C. assert (Va : B2R (Babs twopi) = 2 * pif) by (rewrite B2R_Babs, Vt; apply Rabs_pos_eq; lra).
    assert (Fa : is_finite (Babs twopi) = true) by (rewrite is_finite_Babs; exact Ft).
    destruct (add_btw 0 (2 * pif) r (Babs twopi) Fr Fa) as [F H]; [fitz|exact L|rewrite Va; lra|].
    destruct (plus_ok r (Babs twopi) Fr Fa) as [E _].
    { apply (rnd_top _ 3); [lia|]. change (bpow radix2 3) with 8. rewrite Va. rewrite Rabs_pos_eq; lra. }
    split; [exact F|]. split; [exact H|]. exists (j - 1)%Z. rewrite minus_IZR. split; [intros; exfalso; pose proof (S1 ltac:(assumption)); lra|].
    pose proof (rnd_off (B2R r + B2R (Babs twopi))) as O. rewrite <- E, Va in O. rewrite (Rabs_pos_eq (B2R r + 2 * pif)) in O by lra.
    pose proof eta_small as H'. unfold ee in O. replace (B2R x - (IZR j - 1) * (2 * pif)) with (B2R r + 2 * pif) by (rewrite Ej; ring).
    apply Rle_trans with (1 := O). unfold pif, ee in *. lra.
  - split; [exact Fr|]. split; [lra|]. exists j. split; [intros _; exact Ej|]. rewrite Ej, Rminus_diag_eq by reflexivity. rewrite Rabs_R0. lra.
Qed.

(** small negative angles are lost when a full turn is added. *)
Lemma raw_lost (r : f32) : is_finite r = true -> - (1 / 4194304) < B2R r < 0 -> B2R (Bplus mode_NE r (Babs twopi)) = 2 * pif /\ is_finite (Bplus mode_NE r (Babs twopi)) = true.
Proof.
  intros Fr H. destruct twopi_val as [Vt Ft]. pose proof pif_range as P. destruct pif_fit as [_ L].
  assert (Va : B2R (Babs twopi) = 2 * pif) by (rewrite B2R_Babs, Vt; apply Rabs_pos_eq; lra).
  assert (Fa : is_finite (Babs twopi) = true) by (rewrite is_finite_Babs; exact Ft).
  destruct (add_btw 0 (2 * pif) r (Babs twopi) Fr Fa) as [F B]; [fitz|exact L|rewrite Va; lra|].
  destruct (plus_ok r (Babs twopi) Fr Fa) as [E _].
  { apply (rnd_top _ 3); [lia|]. change (bpow radix2 3) with 8. rewrite Va. rewrite Rabs_pos_eq; lra. }
  split; [|exact F]. apply Rle_antisym; [lra|]. rewrite E, Va.
  apply (round_N_ge_midp radix2 (FLT_exp (-149) 24)); [exact (proj1 L)|].
  assert (U : pred radix2 (FLT_exp (-149) 24) (2 * pif) = 2 * pif - 1 / 2097152).
  { rewrite pred_eq_pos by lra. unfold pred_pos.
    assert (M : mag radix2 (2 * pif) = 3%Z :> Z).
    { apply mag_unique_pos. change (bpow radix2 (3 - 1)) with 4. change (bpow radix2 3) with 8. lra. }
    rewrite M. rewrite Req_bool_false by (change (bpow radix2 (3 - 1)) with 4; lra).
    rewrite ulp_neq_0 by lra. unfold cexp. rewrite M. change (FLT_exp (-149) 24 3) with (-21)%Z.
    change (bpow radix2 (-21)) with (/ 2097152). lra. }
  rewrite U. lra.
Qed.
