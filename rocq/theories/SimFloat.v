(** The simulator in binary32. *)
From Coq Require Import ZArith Reals List Bool Lia Lra.
From Flocq Require Import Core Relative BinarySingleNaN.
From Verif Require Import Base Num NumLemmas ControlModel ControlSpec SimModel SimSpec FloatMag FloatRange FloatMoveSpec FloatEstSpec FloatSimSpec
  JerkProofs FloatMove FloatMove2 FloatMove3 EstFloat EstFloat2 CtlFloat2 PropsSim.
Import ListNotations.
Open Scope R_scope.

Ltac fitz := match goal with
  | |- fit 0 => apply fit_int; lia
  | |- fit (IZR _) => apply fit_int; lia
  | |- fit (- IZR ?z) => rewrite <- opp_IZR; apply fit_int; lia
  | |- fit (1023 / 1024) => exact (fit_dyadic 1023 10 ltac:(lia) ltac:(lia))
  end.

Lemma rnd_off x : Rabs (rnd32 x - x) <= Rabs x * ee + eta.
Proof.
  destruct (error_N_FLT radix2 (-149) 24 ltac:(lia) (fun z => negb (Z.even z)) x) as (e & h & He & Hh & _ & E).
  assert (E' : rnd32 x = x * (1 + e) + h) by exact E. rewrite E'. replace (x * (1 + e) + h - x) with (x * e + h) by ring.
  assert (Q : / 2 * bpow radix2 (- (24) + 1) = ee).
  { change (- (24) + 1)%Z with (- (23))%Z. rewrite bpow_opp. change (bpow radix2 23) with 8388608. unfold ee. field. }
  rewrite Q in He. apply Rle_trans with (1 := Rabs_triang _ _). apply Rplus_le_compat.
  - rewrite Rabs_mult. apply Rmult_le_compat_l; [apply Rabs_pos|exact He].
  - apply Rle_trans with (1 := Hh). fold eta. pose proof eta_small. lra.
Qed.

Lemma near_mono k n x : near k n x -> near k (S n) x.
Proof. intros [F H]. split; [exact F|]. rewrite S_INR. pose proof (bpow_gt_0 radix2 k). nra. Qed.

(** the pole of the filters. *)
Lemma alpha_btw (t p : f32) : within 0 (1 / 2) t -> within (1 / 1024) (1 / 64) p -> btw 0 (1023 / 1024) (f32_div t (Bplus mode_NE t p)).
Proof.
  intros [Ft Ht] [Fp Hp]. destruct (plus_ok t p Ft Fp) as [E F].
  { apply (rnd_top _ 0); [lia|]. change (bpow radix2 0) with 1. rewrite Rabs_pos_eq; lra. }
  pose proof (rnd_off (B2R t + B2R p)) as O. rewrite <- E in O. rewrite (Rabs_pos_eq (B2R t + B2R p)) in O by lra. apply Rabs_le_inv in O.
  pose proof eta_small as H. unfold ee in *.
  assert (L : B2R t + 1 / 2046 <= B2R (Bplus mode_NE t p)) by lra.
  apply div_btw; [exact Ft|lra|fitz|fitz|]. apply quot_btw; lra.
Qed.

(** one step of a filter. *)
Lemma filter_btw (cur al k u : f32) : btw (-4194304) 4194304 cur -> btw 0 (1023 / 1024) al -> within (-64) 64 k -> btw (-32) 32 u ->
  btw (-4192256) 4192256 (Bplus mode_NE (Bmult mode_NE cur al) (Bmult mode_NE (Bminus mode_NE f1 al) (Bmult mode_NE k u))).
Proof.
  intros [Fc Hc] [Fa Ha] [Fk Hk] [Fu Hu]. destruct f1_val as [V1 F1].
  destruct (mul_sym 4194304 (1023 / 1024) 4190208 cur al) as [G1 B1]; try assumption; try lra; [fitz|fitz|].
  destruct (mul_sym 64 32 2048 k u) as [G2 B2]; try assumption; try lra; [fitz|fitz|].
  destruct (sub_btw 0 1 f1 al F1 Fa) as [G3 B3]; [fitz|fitz|rewrite V1; lra|].
  destruct (mul_sym 1 2048 2048 _ _ G3 G2) as [G4 B4]; try lra; [fitz|fitz|].
  apply add_btw; try assumption; [fitz|fitz|lra].
Qed.

Lemma half_btw (a b : f32) : btw (-32) 32 a -> btw (-32) 32 b ->
  btw (-32) 32 (f32_div (Bplus mode_NE a b) f2) /\ btw (-32) 32 (f32_div (Bminus mode_NE a b) f2).
Proof.
  intros [Fa Ha] [Fb Hb]. destruct f2_val as [V2 F2]. split.
  - destruct (add_btw (-64) 64 a b Fa Fb) as [F H]; [fitz|fitz|lra|]. apply div_btw; [exact F|rewrite V2; lra|fitz|fitz|rewrite V2; lra].
  - destruct (sub_btw (-64) 64 a b Fa Fb) as [F H]; [fitz|fitz|lra|]. apply div_btw; [exact F|rewrite V2; lra|fitz|fitz|rewrite V2; lra].
Qed.

(** the speed that is read back from its components. *)
Lemma back_one (V c : f32) : btw (-4192256) 4192256 V -> is_finite c = true -> Rabs (B2R c) <= 2 ->
  below 23 (Bmult mode_NE V c) /\ is_finite (Bmult mode_NE (Bmult mode_NE V c) c) = true /\
  Rabs (B2R (Bmult mode_NE (Bmult mode_NE V c) c)) <= 4192257 * (B2R c * B2R c) + 1 / 8.
Proof.
  intros HV Fc Hc. pose proof (btw_below _ _ 22 V HV) as BV. change (bpow radix2 22) with 4194304 in BV. specialize (BV ltac:(lra) ltac:(lra)).
  assert (Bc : below 1 c) by (split; [exact Fc|exact Hc]).
  pose proof (below_mul 22 1 V c BV Bc ltac:(lia)) as B1. change (22 + 1)%Z with 23%Z in B1.
  pose proof (below_mul 23 1 _ c B1 Bc ltac:(lia)) as B2.
  split; [exact B1|]. split; [apply B2|].
  destruct HV as [FV HV]. apply Rabs_le in HV.
  assert (T : forall x y : f32, forall i j, below i x -> below j y -> (-149 <= i + j < 128)%Z -> Rabs (B2R (Bmult mode_NE x y)) <= Rabs (B2R x) * Rabs (B2R y) * (1 + ee) + eta).
  { intros x y i j Bx By K. destruct (Bx) as [Fx Hx]. destruct (By) as [Fy Hy].
    assert (U : Rabs (B2R x * B2R y) <= bpow radix2 (i + j)).
    { rewrite Rabs_mult, bpow_plus. apply Rmult_le_compat; try apply Rabs_pos; assumption. }
    destruct (mult_ok x y Fx Fy (rnd_top _ _ K U)) as [E _]. rewrite E, <- Rabs_mult. apply rnd_err. }
  pose proof (T V c 22%Z 1%Z BV Bc ltac:(lia)) as T1. pose proof (T _ c 23%Z 1%Z B1 Bc ltac:(lia)) as T2.
  set (x := Rabs (B2R (Bmult mode_NE V c))) in *. set (y := Rabs (B2R (Bmult mode_NE (Bmult mode_NE V c) c))) in *.
  assert (S : B2R c * B2R c = Rabs (B2R c) * Rabs (B2R c)) by (rewrite <- Rabs_mult, Rabs_pos_eq; [reflexivity|apply Rle_0_sqr]).
  rewrite S. pose proof (Rabs_pos (B2R c)) as P. pose proof (Rabs_pos (B2R V)) as PV. set (r := Rabs (B2R c)) in *. set (v := Rabs (B2R V)) in *.
  pose proof eta_small as He. unfold ee in *. clearbody x y r v. clear S T B1 B2 Bc BV.
  assert (X : x <= 4192256 * (1 + / 16777216) * r + eta).
  { apply Rle_trans with (1 := T1). apply Rplus_le_compat_r. replace (4192256 * (1 + / 16777216) * r) with (4192256 * r * (1 + / 16777216)) by ring.
    apply Rmult_le_compat_r; [lra|]. apply Rmult_le_compat_r; assumption. }
  assert (Y : x * r <= 4192256 * (1 + / 16777216) * (r * r) + eta * 2).
  { apply Rle_trans with ((4192256 * (1 + / 16777216) * r + eta) * r); [apply Rmult_le_compat_r; assumption|].
    rewrite Rmult_plus_distr_r. apply Rplus_le_compat; [right; ring|]. apply Rmult_le_compat_l; lra. }
  assert (Q : 0 <= r * r) by (apply Rmult_le_pos; assumption). set (q := r * r) in *. set (w := x * r) in *. clearbody q w.
  lra.
Qed.

Lemma back_btw (V c s : f32) : btw (-4192256) 4192256 V -> is_finite c = true -> is_finite s = true ->
  B2R s * B2R s + B2R c * B2R c <= 4097 / 4096 ->
  below 23 (Bmult mode_NE V c) /\ below 23 (Bmult mode_NE V s) /\
  btw (-4194304) 4194304 (Bplus mode_NE (Bmult mode_NE (Bmult mode_NE V c) c) (Bmult mode_NE (Bmult mode_NE V s) s)).
Proof.
  intros HV Fc Fs H. pose proof (Rle_0_sqr (B2R c)) as Pc. pose proof (Rle_0_sqr (B2R s)) as Ps. unfold Rsqr in *.
  assert (A : forall x, x * x <= 4097 / 4096 -> Rabs x <= 2) by (intros x Hx; apply Rabs_le; split; nra).
  destruct (back_one V c HV Fc (A (B2R c) ltac:(lra))) as (X1 & X2 & X3). destruct (back_one V s HV Fs (A (B2R s) ltac:(lra))) as (Y1 & Y2 & Y3).
  split; [exact X1|]. split; [exact Y1|]. apply Rabs_le_inv in X3, Y3. apply add_btw; try assumption; [fitz|fitz|lra].
Qed.
