(** The curve of a slalom in binary32: its targets are finite. *)
From Coq Require Import ZArith Reals List Bool Lia Lra.
From Flocq Require Import Core BinarySingleNaN.
From Verif Require Import Base Num NumLemmas ControlModel TrajModel TrajSpec ClockSpec TrajClock FloatMag FloatRange
  FloatMoveSpec JerkProofs FloatMove FloatMove2 FloatMove3.
Open Scope R_scope.

Lemma clock_below p N T : within (1 / 1024) 1 p -> within 0 2368 T -> INR N <= 8388608 ->
  (forall i, (i < N)%nat -> B2R (clock p i) <= B2R T) -> forall i, (i < N)%nat -> below 12 (clock p i).
Proof.
  intros [Fp Hp] [FT HT] HN A i Hi.
  assert (P100 : 1 <= bpow radix2 100) by (change 1 with (bpow radix2 0); apply bpow_le; lia).
  pose proof (lt_INR _ _ Hi) as L. pose proof (pos_INR i) as Pi.
  destruct (drift p Fp ltac:(lra) i ltac:(lra)) as [F D]. split; [exact F|].
  specialize (A i Hi). apply Rabs_le_inv in D.
  assert (Q : 0 <= INR i * B2R p - INR i * INR i * B2R p / 16777216).
  { replace (INR i * B2R p - INR i * INR i * B2R p / 16777216) with (INR i * B2R p * (1 - INR i / 16777216)) by field.
    apply Rmult_le_pos; [nra|lra]. }
  apply Rabs_le. change (bpow radix2 12) with 4096. lra.
Qed.

Lemma first_sample p (T : f32) N : is_finite p = true -> 0 <= B2R T -> B2R T < B2R (clock p N) -> (0 < N)%nat.
Proof. intros _ HT H. destruct N; [cbn in H; lra|lia]. Qed.

Lemma unit_below (x : f32) : is_finite x = true -> Bleb (Babs x) f1 = true -> below 0 x.
Proof.
  intros F H. split; [exact F|]. destruct f1_val as [V F1].
  rewrite (Bleb_correct 24 128) in H by (try rewrite is_finite_Babs; assumption).
  rewrite B2R_Babs, V in H. change (bpow radix2 0) with 1. destruct (Rle_bool_spec (Rabs (B2R x)) 1); [assumption|discriminate].
Qed.

Section Curve.
Variable lm : libm.
#[local] Hint Extern 0 ops => exact (Fops lm) : typeclass_instances.
Hypothesis trig : forall x : f32, is_finite x = true -> below 1 (l_sin lm x) /\ below 1 (l_cos lm x).

(** a position after [n] steps. *)
Definition near (n : nat) (x : f32) : Prop := is_finite x = true /\ Rabs (B2R x) <= 256 * (INR n + 1).

Lemma fit_near n : INR n <= 8388608 -> fit (256 * (INR n + 1)) /\ fit (- (256 * (INR n + 1))).
Proof.
  intros H. assert (E : 256 * (INR n + 1) = IZR (Z.of_nat n + 1) * bpow radix2 8).
  { rewrite plus_IZR, <- INR_IZR_INZ. change (bpow radix2 8) with 256. ring. }
  assert (B : Rabs (256 * (INR n + 1)) <= bpow radix2 100).
  { pose proof (pos_INR n). rewrite Rabs_pos_eq by lra.
    apply Rle_trans with (bpow radix2 32); [|apply bpow_le; lia]. change (bpow radix2 32) with 4294967296. lra. }
  rewrite INR_IZR_INZ in H. apply le_IZR in H.
  assert (G : format32 (256 * (INR n + 1))).
  { rewrite E. apply generic_format_FLT. exists (Float radix2 (Z.of_nat n + 1) 8); [reflexivity| |]; cbn [Fnum Fexp]; change (radix2 ^ 24)%Z with 16777216%Z; lia. }
  split; (split; [|try rewrite Rabs_Ropp; exact B]); [exact G|]. apply generic_format_opp, G.
Qed.

Lemma near_add n (x d : f32) : INR (S n) <= 8388608 -> near n x -> below 8 d -> near (S n) (Bplus mode_NE x d).
Proof.
  intros Hn [Fx Hx] [Fd Hd]. destruct (fit_near (S n) Hn) as [A B].
  change (bpow radix2 8) with 256 in Hd. apply Rabs_le_inv in Hx, Hd. rewrite S_INR in *.
  destruct (add_btw _ _ x d Fx Fd B A) as [F H]; [lra|]. split; [exact F|]. rewrite S_INR. apply Rabs_le, H.
Qed.

Lemma near_below n x : INR n <= 8388608 -> near n x -> below 32 x.
Proof.
  intros Hn [F H]. split; [exact F|]. change (bpow radix2 32) with 4294967296. lra.
Qed.

(** what is left of a curve that has run for [n] steps. *)
Lemma curve_step (c : overall) (t T p x y v : f32) n : INR (S n) <= 8388608 -> tame lm c -> below 12 t -> below 0 p ->
  below 5 v -> near n x -> near n y -> Bltb T t = false ->
  exists tg x' y', @curve_next (Fops lm) (@CurveTraj (Fops lm) c t T p x y v) =
    (Some tg, @CurveTraj (Fops lm) c (Bplus mode_NE t p) T p x' y' v) /\
    near (S n) x' /\ near (S n) y' /\ finite_target tg.
Proof.
  intros Hn Hc Ht Hp Hv Hx Hy HT. unfold curve_next. cbv zeta. cbn [cu_t cu_t_end cu_calc cu_period cu_x cu_y cu_v].
  change (@ltb (Fops lm) T t) with (Bltb T t).
  assert (L1 : below 0 (@lit (Fops lm) 63397461 300000000 : f32)) by (apply unit_below; vm_compute; reflexivity).
  assert (L2 : below 0 (@lit (Fops lm) 7886751 10000000 : f32)) by (apply unit_below; vm_compute; reflexivity).
  assert (L3 : below 0 (@lit (Fops lm) 1 2 : f32)) by (apply unit_below; vm_compute; reflexivity).
  assert (L0 : below 0 (@n0 (Fops lm) : f32)) by (apply unit_below; vm_compute; reflexivity).
  set (l1 := @lit (Fops lm) 63397461 300000000) in *. set (l2 := @lit (Fops lm) 7886751 10000000) in *.
  set (l3 := @lit (Fops lm) 1 2) in *. set (z := @n0 (Fops lm)) in *.
  clearbody l1 l2 l3 z.
  assert (W : forall k j x, below k x -> (k <= j)%Z -> below j x) by (intros k j u By Q; apply (below_le k); assumption).
  cbn [add mul sub opp Fops].
  set (a1 := Bplus mode_NE t (Bmult mode_NE l1 p)). set (a2 := Bplus mode_NE t (Bmult mode_NE l2 p)).
  assert (A1 : below 13 a1) by (eapply W; [unfold a1; bl|lia]).
  assert (A2 : below 13 a2) by (eapply W; [unfold a2; bl|lia]).
  destruct (calculate_small lm c a1 Hc A1) as ((C1 & _) & _). destruct (calculate_small lm c a2 Hc A2) as ((C2 & _) & _).
  destruct (calculate_small lm c t Hc (below_le 12 13 t ltac:(lia) Ht)) as (C3 & C4 & C5 & C6).
  set (x1 := tx (@calculate (Fops lm) c a1)) in *. set (x2 := tx (@calculate (Fops lm) c a2)) in *.
  set (th := @calculate (Fops lm) c t) in *. clearbody x1 x2 th.
  destruct (trig x1 C1) as [S1 K1]. destruct (trig x2 C2) as [S2 K2]. destruct (trig (tx th) (proj1 C3)) as [S3 K3].
  unfold nsin, ncos. cbn [Fops].
  rewrite HT. do 3 eexists. split; [reflexivity|].
  assert (Hn' : INR n <= 8388608) by (rewrite S_INR in Hn; lra).
  split; [apply near_add; [exact Hn|exact Hx|]; eapply W; [bl|lia]|].
  split; [apply near_add; [exact Hn|exact Hy|]; eapply W; [bl|lia]|].
  assert (G : forall k u, below k u -> is_finite u = true) by (intros k u U; apply U).
  unfold finite_target, finite_axis. cbn [t_x t_y t_theta tx tv ta tj].
  split; [|split]; (split; [|split; [|split]]); try (eapply G; eassumption); try apply Hx; try apply Hy; eapply G; bl.
Qed.

(** a curve whose plan is tame. *)
Lemma curve_run (p T : f32) : within (1 / 1024) 1 p -> within 0 2368 T ->
  exists N, (0 < N)%nat /\ INR N <= 8388608 /\
  forall (c : overall) (x y v : f32), tame lm c -> below 8 x -> below 8 y -> below 5 v ->
  yields curve_next (@CurveTraj (Fops lm) c n0 T p x y v) N /\
  forall i t, output curve_next i (@CurveTraj (Fops lm) c n0 T p x y v) = Some t -> finite_target t.
Proof.
  intros Hp HT.
  assert (P100 : 1 <= bpow radix2 100) by (change 1 with (bpow radix2 0); apply bpow_le; lia).
  assert (Q : 0 < B2R p <= bpow radix2 100) by (destruct Hp; lra).
  assert (Q2 : B2R T < 4194304 * B2R p) by (destruct Hp, HT; lra).
  destruct (upto_end p T (proj1 Hp) Q (proj1 HT) Q2) as (N & HN & A & B & E).
  destruct (curve_clocked lm p T (proj1 Hp) Q (proj1 HT) Q2) as (N' & HN' & A' & B' & Y).
  assert (NN : N' = N).
  { destruct (Nat.lt_trichotomy N N') as [L|[L|L]]; [|auto|].
    - specialize (A' N L). lra.
    - specialize (A N' L). lra. }
  subst N'. exists N. split; [apply (first_sample p T); [apply Hp|apply HT|exact B]|]. split; [exact HN|].
  intros c x y v Hc Hx Hy Hv. destruct (Y c x y v) as [Y1 _]. split; [exact Y1|].
  set (s0 := @CurveTraj (Fops lm) c n0 T p x y v) in *.
  assert (Bp : below 0 p) by (destruct Hp as [F H]; apply (btw_below (1 / 1024) 1); [split; assumption| |]; change (bpow radix2 0) with 1; lra).
  assert (Step : forall i, (i < N)%nat -> forall x y, near i x -> near i y ->
    exists tg x' y', @curve_next (Fops lm) (@CurveTraj (Fops lm) c (clock p i) T p x y v) =
      (Some tg, @CurveTraj (Fops lm) c (clock p (S i)) T p x' y' v) /\ near (S i) x' /\ near (S i) y' /\ finite_target tg).
  { intros i Hi x1 y1 N1 N2.
    destruct (curve_step c (clock p i) T p x1 y1 v i) as (tg & x' & y' & S1 & S2); try assumption.
    - apply Rle_trans with (INR N); [apply le_INR; lia|exact HN].
    - exact (clock_below p N T Hp HT HN A i Hi).
    - rewrite (E i) by lia. destruct (Nat.ltb_spec i N); [reflexivity|lia].
    - exists tg, x', y'. split; [exact S1|exact S2]. }
  assert (Near0 : forall u, below 8 u -> near 0 u).
  { intros u [F H]. split; [exact F|]. cbn [INR]. change (bpow radix2 8) with 256 in H. lra. }
  assert (St : forall i, (i <= N)%nat -> exists x y, after curve_next i s0 = @CurveTraj (Fops lm) c (clock p i) T p x y v /\ near i x /\ near i y).
  { induction i as [|i IH]; intros Hi.
    - exists x, y. unfold s0. rewrite (zero_clock lm p). auto.
    - destruct IH as (x1 & y1 & IH & N1 & N2); [lia|]. destruct (Step i Hi x1 y1 N1 N2) as (tg & x' & y' & S1 & S2 & S3 & _).
      exists x', y'. split; [|auto]. change (after curve_next (S i) s0) with (snd (curve_next (after curve_next i s0))).
      rewrite IH, S1. reflexivity. }
  intros i t Ht. assert (Hi : (i < N)%nat) by (apply Y1; rewrite Ht; discriminate).
  destruct (St i) as (x1 & y1 & Si & N1 & N2); [lia|]. destruct (Step i Hi x1 y1 N1 N2) as (tg & x' & y' & S1 & _ & _ & S4).
  unfold output in Ht. rewrite Si, S1 in Ht. cbn [fst] in Ht. injection Ht as <-. exact S4.
Qed.
End Curve.
