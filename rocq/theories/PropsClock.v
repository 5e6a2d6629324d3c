(** The trajectory iterators in binary32 (C87). *)
From Coq Require Import ZArith Reals List Bool Lia Lra.
From Flocq Require Import Core BinarySingleNaN.
From Verif Require Import Base Num NumLemmas ControlModel TrajModel TrajSpec ClockSpec TrajClock.
Open Scope R_scope.

(** ** C87: a positive finite period and a finite end time do not suffice: a clock can stand still
    before the end (period 2^-25 s, end at 1 s), in all four iterators. *)
Theorem C87_refuted (l : libm) : exists p T : f32,
  is_finite p = true /\ 0 < B2R p /\ is_finite T = true /\ 0 < B2R T /\ forall n,
  (forall c, output straight_next n (@straight_new (Fops l) c T p) <> None) /\
  (forall c, output spin_next n (@SpinTraj (Fops l) c n0 T p) <> None) /\
  (forall c x y v, output curve_next n (@CurveTraj (Fops l) c n0 T p x y v) <> None) /\
  (forall q, output stop_next n (@stop_new (Fops l) q p T) <> None).
Proof.
  exists small, one. rewrite small_val, one_val. split; [reflexivity|]. split; [lra|]. split; [reflexivity|]. split; [lra|]. intros n.
  split; [|split; [|split]]; intros.
  - apply straight_stuck.
  - apply spin_stuck.
  - apply curve_stuck.
  - apply stop_stuck.
Qed.
Print Assumptions C87_refuted.

(** the first 2^24 readings of the clock: the relative error grows by at most 2^-24 per step. *)
Theorem C87_clock (p : f32) (n : nat) : is_finite p = true -> 0 < B2R p <= bpow radix2 100 -> INR n <= 16777216 ->
  is_finite (clock p n) = true /\
  Rabs (B2R (clock p n) - INR n * B2R p) <= INR n * B2R p * (INR n / 16777216).
Proof.
  intros Fp Pp Hn. destruct (drift p Fp Pp n Hn) as [F D]. split; [exact F|].
  replace (INR n * B2R p * (INR n / 16777216)) with (INR n * INR n * B2R p / 16777216) by field. exact D.
Qed.
Print Assumptions C87_clock.

(** up to 2^22 periods every iterator ends, and it samples exactly at the readings of the clock up
    to its end time. *)
Theorem C87_ends_partial (l : libm) (p T : f32) :
  is_finite p = true -> 0 < B2R p <= bpow radix2 100 -> is_finite T = true -> B2R T < 4194304 * B2R p ->
  (exists N, INR N <= 8388608 /\ (forall i, (i < N)%nat -> B2R (clock p i) <= B2R T) /\ B2R T < B2R (clock p N) /\
    forall c, yields straight_next (@straight_new (Fops l) c T p) N /\
    forall i, (i < N)%nat -> output straight_next i (@straight_new (Fops l) c T p) =
      Some (@Target (Fops l) (straight_calculate c (clock p i)) axis4_default axis4_default)) /\
  (exists N, INR N <= 8388608 /\ (forall i, (i < N)%nat -> B2R (clock p i) <= B2R T) /\ B2R T < B2R (clock p N) /\
    forall c, yields spin_next (@SpinTraj (Fops l) c n0 T p) N /\
    forall i, (i < N)%nat -> output spin_next i (@SpinTraj (Fops l) c n0 T p) =
      Some (@Target (Fops l) axis4_default axis4_default (calculate c (clock p i)))) /\
  (exists N, INR N <= 8388608 /\ (forall i, (i < N)%nat -> B2R (clock p i) <= B2R T) /\ B2R T < B2R (clock p N) /\
    forall c x y v, yields curve_next (@CurveTraj (Fops l) c n0 T p x y v) N /\
    forall i, (i < N)%nat -> exists t, output curve_next i (@CurveTraj (Fops l) c n0 T p x y v) = Some t /\
      t_theta t = calculate c (clock p i)) /\
  (exists N, INR N <= 8388608 /\ (forall i, (i < N)%nat -> B2R (clock p i) < B2R T) /\ B2R T <= B2R (clock p N) /\
    forall q, yields stop_next (@stop_new (Fops l) q p T) N).
Proof.
  intros Fp Pp FT HT. split; [|split; [|split]].
  - exact (straight_clocked l p T Fp Pp FT HT).
  - exact (spin_clocked l p T Fp Pp FT HT).
  - exact (curve_clocked l p T Fp Pp FT HT).
  - exact (stop_clocked l p T Fp Pp FT HT).
Qed.
Print Assumptions C87_ends_partial.

(** a period of 1 ms (0.001f32) and an end after 3 s. *)
Example C87_case : let p := @B754_finite 24 128 false 8589935 (-33) eq_refl in
  let T := @B754_finite 24 128 false 12582912 (-22) eq_refl in
  (0 < B2R p <= bpow radix2 100) /\ B2R T = 3 /\ B2R T < 4194304 * B2R p /\ 1 / 1000 < B2R p < 1 / 1000 + / 10000000000.
Proof.
  cbv zeta. set (p := @B754_finite 24 128 false 8589935 (-33) eq_refl). set (T := @B754_finite 24 128 false 12582912 (-22) eq_refl).
  assert (P : B2R p = 8589935 / 8589934592).
  { unfold p. cbn [B2R]. unfold F2R. cbn [Defs.Fnum Defs.Fexp cond_Zopp]. change (-33)%Z with (Z.opp 33). rewrite (bpow_opp radix2 33).
    change (bpow radix2 33) with (IZR 8589934592). lra. }
  assert (E : B2R T = 3).
  { unfold T. cbn [B2R]. unfold F2R. cbn [Defs.Fnum Defs.Fexp cond_Zopp]. change (-22)%Z with (Z.opp 22). rewrite (bpow_opp radix2 22).
    change (bpow radix2 22) with (IZR 4194304). lra. }
  rewrite P, E, pow100. assert (1 <= IZR (2 ^ 100)) by (apply IZR_le; lia). repeat split; lra.
Qed.
