(** Moves planned in binary32 with ordinary parameters: their duration and their targets are finite. *)
From Coq Require Import ZArith Reals Bool Lra Lia.
From Flocq Require Import Core BinarySingleNaN Mult_error.
From Verif Require Import Base Num NumLemmas FloatMag FloatRange TrajModel JerkProofs.
Open Scope R_scope.

Section Move.
Variable lm : libm.
#[local] Hint Extern 0 ops => exact (Fops lm) : typeclass_instances.

Ltac fitz := match goal with
  | |- fit (IZR _) => apply fit_int; lia
  | |- fit (- IZR ?z) => rewrite <- opp_IZR; apply fit_int; lia
  | |- fit (/ IZR (2 ^ ?k)) => replace (/ IZR (2 ^ k)) with (IZR 1 / IZR (2 ^ k)) by (unfold Rdiv; ring);
      apply fit_dyadic; lia
  | |- fit (IZR _ / IZR (2 ^ _)) => apply fit_dyadic; lia
  end.

Definition fine (g : generator) : Prop :=
  btw (1 / 128) 32 (g_v_max g) /\ btw 1 1024 (g_a_max g) /\ btw 16 65536 (g_j_max g).

Variable g : generator.
Hypothesis Hg : fine g.

Let tc : f32 := f32_div (g_a_max g) (g_j_max g).
Let vd : f32 := Bmult mode_NE (g_a_max g) tc.

Lemma tc_btw : btw 0 64 tc.
Proof.
  destruct Hg as (_ & [Fa Ha] & [Fj Hj]). apply div_btw; [exact Fa|lra|fitz|fitz|]. apply quot_btw; [lra|nra].
Qed.

Lemma vd_btw : btw 0 65536 vd.
Proof.
  destruct Hg as (_ & [Fa Ha] & _). destruct tc_btw as [Ft Ht]. apply mul_btw; [exact Fa|exact Ft|fitz|fitz|]. nra.
Qed.

Lemma gap_btw (m : Z) (k : Z) (x y : f32) : (0 <= m <= 2 ^ 24)%Z -> (0 <= k <= 100)%Z ->
  btw 0 (IZR m / IZR (2 ^ k)) x -> btw 0 (IZR m / IZR (2 ^ k)) y ->
  btw 0 (IZR m / IZR (2 ^ k)) (Babs (Bminus mode_NE y x)).
Proof.
  intros Hm Hk [Fx Hx] [Fy Hy]. set (b := IZR m / IZR (2 ^ k)) in *.
  assert (B : fit b) by (apply fit_dyadic; lia).
  assert (B' : fit (- b)).
  { replace (- b) with (IZR (- m) / IZR (2 ^ k)); [apply fit_dyadic; lia|]. rewrite opp_IZR. unfold b, Rdiv. ring. }
  destruct (sub_btw (- b) b y x Fy Fx B' B) as [F H]; [lra|]. apply abs_btw; assumption.
Qed.

(** the duration of a change of speed. *)
Let dur (v1 v2 : f32) : f32 :=
  if Bleb vd (Babs (Bminus mode_NE v2 v1)) then Bplus mode_NE (f32_div (Babs (Bminus mode_NE v2 v1)) (g_a_max g)) tc
  else Bmult mode_NE f2 (Bsqrt mode_NE (f32_div (Babs (Bminus mode_NE v2 v1)) (g_j_max g))).

Lemma time_btw (v1 v2 : f32) : btw 0 32 v1 -> btw 0 32 v2 -> btw 0 96 (dur v1 v2).
Proof.
  intros H1 H2. unfold dur. destruct Hg as (_ & [Fa Ha] & [Fj Hj]). destruct tc_btw as [Ft Ht].
  assert (G : btw 0 32 (Babs (Bminus mode_NE v2 v1))).
  { replace 32 with (IZR 32 / IZR (2 ^ 0)) in * by (change (IZR (2 ^ 0)) with 1; field). apply gap_btw; try assumption; lia. }
  destruct G as [Fd Hd]. set (dv := Babs (Bminus mode_NE v2 v1)) in *. clearbody dv tc.
  destruct (Bleb vd dv).
  - destruct (div_btw 0 32 dv (g_a_max g)) as [F H]; [exact Fd|lra|fitz|fitz|apply quot_btw; [lra|nra]|].
    apply add_btw; [exact F|exact Ft|fitz|fitz|lra].
  - destruct (div_btw 0 4 dv (g_j_max g)) as [F H]; [exact Fd|lra|fitz|fitz|apply quot_btw; [lra|nra]|].
    destruct (sqrt_btw 2 _ F) as [F' H']; [lra|fitz|lra|lra|]. destruct f2_val as [V2 F2].
    apply mul_btw; [exact F2|exact F'|fitz|fitz|]. rewrite V2. lra.
Qed.

Lemma half_btw (a b : R) (x : f32) : is_finite x = true -> fit a -> fit b -> 2 * a <= B2R x <= 2 * b ->
  btw a b (f32_div x f2).
Proof.
  intros Fx A B H. destruct f2_val as [V F]. apply div_btw; [exact Fx|rewrite V; lra|exact A|exact B|].
  rewrite V. apply quot_btw; lra.
Qed.

Lemma distance_btw (v1 v2 : f32) : btw 0 32 v1 -> btw 0 32 v2 ->
  btw 0 3072 (acceleration_distance g v1 v2).
Proof.
  intros H1 H2. pose proof (time_btw v1 v2 H1 H2) as T. change (acceleration_distance g v1 v2) with (f32_div (Bmult mode_NE (Bplus mode_NE v1 v2) (dur v1 v2)) f2).
  set (t := dur v1 v2) in *. clearbody t. destruct T as [Ft Ht], H1 as [F1 H1], H2 as [F2 H2].
  destruct (add_btw 0 64 v1 v2 F1 F2) as [F H]; [fitz|fitz|lra|].
  destruct (mul_btw 0 6144 _ t F Ft) as [F' H']; [fitz|fitz|nra|].
  apply half_btw; [exact F'|fitz|fitz|lra].
Qed.

(** a change between two low speeds takes half a millimetre at most. *)
Lemma distance_small (v1 v2 : f32) : btw 0 (1 / IZR (2 ^ 7)) v1 -> btw 0 (1 / IZR (2 ^ 7)) v2 ->
  btw 0 (1 / IZR (2 ^ 11)) (acceleration_distance g v1 v2).
Proof.
  intros H1 H2. destruct Hg as (_ & [Fa Ha] & [Fj Hj]). destruct tc_btw as [Ft Ht].
  pose proof (gap_btw 1 7 v1 v2 ltac:(lia) ltac:(lia) H1 H2) as [Fd Hd].
  change (acceleration_distance g v1 v2) with (f32_div (Bmult mode_NE (Bplus mode_NE v1 v2) (dur v1 v2)) f2).
  assert (T : btw 0 (1 / IZR (2 ^ 4)) (dur v1 v2)).
  { unfold dur.
    set (dv := Babs (Bminus mode_NE v2 v1)) in *. clearbody dv.
    destruct vd_btw as [Fv Hv]. destruct (leb_cases vd dv Fv Fd) as [[-> L]|[-> L]].
    - assert (Q : B2R tc <= 1 / IZR (2 ^ 6)).
      { destruct (Rle_or_lt (B2R tc) (1 / IZR (2 ^ 6))) as [Y|N]; [exact Y|exfalso].
        destruct (mul_btw (1 / IZR (2 ^ 6)) 65536 (g_a_max g) tc Fa Ft) as [_ W]; [fitz|fitz| |].
        - split; [|nra]. change (2 ^ 6)%Z with 64%Z in *. nra.
        - fold vd in W. change (2 ^ 6)%Z with 64%Z in *. change (2 ^ 7)%Z with 128%Z in *. lra. }
      destruct (div_btw 0 (1 / IZR (2 ^ 7)) dv (g_a_max g)) as [F H]; [exact Fd|lra|fitz|fitz|apply quot_btw; [lra|]|].
      + change (2 ^ 7)%Z with 128%Z in *. nra.
      + apply add_btw; [exact F|exact Ft|fitz|fitz|].
        change (2 ^ 7)%Z with 128%Z in *. change (2 ^ 6)%Z with 64%Z in *. change (2 ^ 4)%Z with 16%Z in *. lra.
    - destruct (div_btw 0 (1 / IZR (2 ^ 10)) dv (g_j_max g)) as [F H]; [exact Fd|lra|fitz|fitz|apply quot_btw; [lra|]|].
      + change (2 ^ 7)%Z with 128%Z in *. change (2 ^ 10)%Z with 1024%Z in *. nra.
      + destruct (sqrt_btw (1 / IZR (2 ^ 5)) _ F) as [F' H'];
          [lra|fitz| | |]; [change (2 ^ 5)%Z with 32%Z; lra|
           change (2 ^ 5)%Z with 32%Z; change (2 ^ 10)%Z with 1024%Z in *; lra|].
        destruct f2_val as [V2 F2].
        apply mul_btw; [exact F2|exact F'|fitz|fitz|]. rewrite V2.
        change (2 ^ 5)%Z with 32%Z in *. change (2 ^ 4)%Z with 16%Z in *. lra. }
  set (t := dur v1 v2) in *. clearbody t. destruct T as [Fq Hq], H1 as [F1 H1], H2 as [F2 H2].
  change (2 ^ 7)%Z with 128%Z in *. change (2 ^ 4)%Z with 16%Z in *.
  destruct (add_btw 0 (1 / IZR (2 ^ 6)) v1 v2 F1 F2) as [F H]; [fitz|fitz|change (2 ^ 6)%Z with 64%Z; lra|].
  change (2 ^ 6)%Z with 64%Z in *.
  destruct (mul_btw 0 (1 / IZR (2 ^ 10)) _ t F Fq) as [F' H']; [fitz|fitz|change (2 ^ 10)%Z with 1024%Z; nra|].
  change (2 ^ 10)%Z with 1024%Z in *.
  apply half_btw; [exact F'|fitz|fitz|change (2 ^ 11)%Z with 2048%Z; lra].
Qed.

(** ** The bisections *)
Definition midp (low high : f32) : f32 := f32_div (Bplus mode_NE low high) f2.
Lemma bisect_S n up (low high : f32) : bisect (S n) up low high =
  if up (midp low high) then bisect n up (midp low high) high else bisect n up low (midp low high).
Proof. reflexivity. Qed.

Lemma mid_btw (low high : f32) : btw 0 32 low -> btw 0 32 high -> B2R low <= B2R high ->
  is_finite (midp low high) = true /\ B2R low <= B2R (midp low high) <= B2R high.
Proof.
  intros [Fl Hl] [Fh Hh] L. unfold midp.
  assert (FF : forall x : f32, btw 0 32 x -> is_finite x = true -> fit (B2R x) /\ format32 (2 * B2R x)).
  { intros x [_ H] F. pose proof (generic_format_B2R 24 128 x) as Gx. split.
    - split; [exact Gx|]. rewrite Rabs_pos_eq by lra. apply Rle_trans with (bpow radix2 5); [change (bpow radix2 5) with 32; lra|].
      apply bpow_le. lia.
    - rewrite Rmult_comm. change 2 with (bpow radix2 1). apply mult_bpow_pos_exact_FLT; [exact Gx|lia]. }
  destruct (FF low (conj Fl Hl) Fl) as [[G1 B1] D1]. destruct (FF high (conj Fh Hh) Fh) as [[G2 B2] D2].
  assert (T : forall x : f32, 0 <= B2R x <= 32 -> format32 (2 * B2R x) -> fit (2 * B2R x)).
  { intros x H D. split; [exact D|]. rewrite Rabs_pos_eq by lra. apply Rle_trans with (bpow radix2 6); [change (bpow radix2 6) with 64; lra|].
    apply bpow_le. lia. }
  destruct (add_btw (2 * B2R low) (2 * B2R high) low high Fl Fh) as [F H]; [now apply T|now apply T|lra|].
  apply half_btw; [exact F|split; assumption|split; assumption|lra].
Qed.

Lemma bisect_btw up n (low high : f32) : btw 0 32 low -> btw 0 32 high -> B2R low <= B2R high ->
  is_finite (bisect n up low high) = true /\ B2R low <= B2R (bisect n up low high) <= B2R high.
Proof.
  revert low high. induction n as [|n IH]; intros low high [Fl Hl] [Fh Hh] L; [cbn [bisect]; split; [exact Fl|lra]|].
  rewrite bisect_S. destruct (mid_btw low high (conj Fl Hl) (conj Fh Hh) L) as [Fm Hm].
  set (mid := (midp low high)) in *. clearbody mid.
  assert (M : btw 0 32 mid) by (split; [exact Fm|lra]).
  destruct (up mid).
  - destruct (IH mid high M (conj Fh Hh) ltac:(lra)) as [F H]. split; [exact F|lra].
  - destruct (IH low mid (conj Fl Hl) M ltac:(lra)) as [F H]. split; [exact F|lra].
Qed.

(** a bisection of which the lower end may move to every speed up to 1/128 ends above 1/256. *)
Lemma bisect_above up n (i : Z) (low high : f32) : (forall v, btw 0 (1 / 128) v -> up v = true) ->
  btw 0 32 low -> btw 0 32 high -> B2R low <= B2R high -> 1 / 128 <= B2R high ->
  (0 <= i <= 13)%Z -> (13 - i < Z.of_nat n)%Z -> B2R high <= 1 / 256 + 32 / IZR (2 ^ i) ->
  1 / 256 <= B2R (bisect n up low high).
Proof.
  intros U. revert i low high. induction n as [|n IH]; intros i low high [Fl Hl] [Fh Hh] L L1 Hi Hn B; [lia|].
  destruct (Rle_or_lt (1 / 256) (B2R low)) as [Y|N].
  { apply Rle_trans with (1 := Y). apply bisect_btw; [split; assumption|split; assumption|exact L]. }
  rewrite bisect_S. destruct (mid_btw low high (conj Fl Hl) (conj Fh Hh) L) as [Fm Hm].
  assert (Lm : 1 / 256 <= B2R (midp low high)).
  { unfold midp.
    destruct (add_btw (1 / IZR (2 ^ 7)) 64 low high Fl Fh) as [F H]; [fitz|fitz|change (2 ^ 7)%Z with 128%Z; lra|].
    change (1 / 256) with (1 / IZR (2 ^ 8)).
    apply (half_btw (1 / IZR (2 ^ 8)) 32); [exact F|fitz|fitz|change (2 ^ 8)%Z with 256%Z; change (2 ^ 7)%Z with 128%Z in H; lra]. }
  assert (Um : (i < 13)%Z -> B2R (midp low high) <= 1 / 256 + 32 / IZR (2 ^ (i + 1))).
  { intros Hi'. unfold midp.
    assert (P : 0 < IZR (2 ^ i)) by (apply IZR_lt, Z.pow_pos_nonneg; lia).
    assert (E1 : IZR (2 ^ (i + 1)) = 2 * IZR (2 ^ i)) by (rewrite Z.pow_add_r by lia; rewrite mult_IZR; change (IZR (2 ^ 1)) with 2; ring).
    assert (E2 : 1 / 256 + 32 / IZR (2 ^ (i + 1)) = IZR (2 ^ (13 - i - 1) + 1) / IZR (2 ^ 8)).
    { rewrite E1. assert (Q : IZR (2 ^ (13 - i - 1)) * IZR (2 ^ i) = 4096).
      { rewrite <- mult_IZR, <- Z.pow_add_r by lia. replace (13 - i - 1 + i)%Z with 12%Z by lia. reflexivity. }
      rewrite plus_IZR. change (IZR (2 ^ 8)) with 256. replace (IZR (2 ^ (13 - i - 1))) with (4096 / IZR (2 ^ i)); [field; lra|].
      rewrite <- Q. field. lra. }
    assert (S : (1 <= 2 ^ (13 - i - 1) <= 4096)%Z).
    { split; [apply (Z.pow_le_mono_r 2 0); lia|change 4096%Z with (2 ^ 12)%Z; apply Z.pow_le_mono_r; lia]. }
    assert (E3 : 2 * (1 / 256 + 32 / IZR (2 ^ (i + 1))) = IZR (2 ^ (13 - i - 1) + 1) / IZR (2 ^ 7)).
    { rewrite E2. change (IZR (2 ^ 8)) with 256. change (IZR (2 ^ 7)) with 128. field. }
    destruct (add_btw 0 (IZR (2 ^ (13 - i - 1) + 1) / IZR (2 ^ 7)) low high Fl Fh) as [F H]; [fitz|fitz| |].
    - rewrite <- E3, E1. assert (32 / (2 * IZR (2 ^ i)) = (32 / IZR (2 ^ i)) / 2) by (field; lra). lra.
    - rewrite <- E3 in H. rewrite E2 in *. apply (half_btw 0); [exact F|fitz|fitz|lra]. }
  set (mid := (midp low high)) in *. clearbody mid.
  assert (M : btw 0 32 mid) by (split; [exact Fm|lra]).
  destruct (up mid) eqn:Q.
  - apply Rle_trans with (1 := Lm). apply bisect_btw; [exact M|split; assumption|lra].
  - assert (G : 1 / 128 < B2R mid).
    { destruct (Rle_or_lt (B2R mid) (1 / 128)) as [Y|G]; [|exact G]. rewrite U in Q; [discriminate Q|]. split; [exact Fm|lra]. }
    destruct (Z.eq_dec i 13) as [->|Ni].
    + exfalso. change (IZR (2 ^ 13)) with 8192 in B. lra.
    + apply (IH (i + 1)%Z low mid (conj Fl Hl) M); try lra; try lia. apply Um. lia.
Qed.
End Move.
