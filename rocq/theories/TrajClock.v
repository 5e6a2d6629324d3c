(** The iterators in binary32: when they end and at which times they sample. *)
From Coq Require Import ZArith Reals List Bool Arith Lia Lra.
From Flocq Require Import Core BinarySingleNaN Relative Plus_error.
From Verif Require Import Base Num NumLemmas ControlModel TrajModel TrajSpec ClockSpec TrajProofs4.
Open Scope R_scope.

Lemma clock_S p n : clock p (S n) = Bplus mode_NE (clock p n) p.
Proof. reflexivity. Qed.

Lemma plus_error (x y : f32) : exists e, Rabs e <= / 16777216 /\ rnd32 (B2R x + B2R y) = (B2R x + B2R y) * (1 + e).
Proof.
  destruct (FLT_plus_error_N_ex radix2 (-149) 24 (fun x => negb (Z.even x)) (B2R x) (B2R y)) as (e & He & E).
  - apply generic_format_B2R.
  - apply generic_format_B2R.
  - exists e. split; [|exact E]. eapply Rle_trans; [exact He|].
    assert (U : u_ro radix2 24 = / 16777216).
    { change (u_ro radix2 24) with (/ 2 * bpow radix2 (Z.opp 23)). rewrite (bpow_opp radix2 23). change (bpow radix2 23) with (IZR 8388608). field. }
    rewrite U. lra.
Qed.

Lemma pow100 : bpow radix2 100 = IZR (2 ^ 100).
Proof. rewrite (IZR_Zpower radix2) by lia. reflexivity. Qed.
Lemma pow128 : bpow radix2 128 = IZR (2 ^ 100) * 268435456.
Proof. change 128%Z with (100 + 28)%Z. rewrite bpow_plus, pow100. f_equal. Qed.

Section Clock.
Variable p : f32.
Hypothesis Fp : is_finite p = true.
Hypothesis Pp : 0 < B2R p <= bpow radix2 100.
Let P := B2R p.

Lemma drift n : INR n <= 16777216 ->
  is_finite (clock p n) = true /\ Rabs (B2R (clock p n) - INR n * P) <= INR n * INR n * P / 16777216.
Proof.
  destruct Pp as [P0 P1]. fold P in P0, P1. rewrite pow100 in P1.
  induction n as [|n IH]; intros Hn.
  - split; [reflexivity|]. change (B2R (clock p 0)) with 0. change (INR 0) with 0. rewrite Rmult_0_l, Rminus_0_r, Rabs_R0, Rmult_0_l. unfold Rdiv. lra.
  - rewrite S_INR in *. pose proof (pos_INR n) as N0. destruct IH as [F D]; [lra|].
    set (i := INR n) in *. set (t := B2R (clock p n)) in *.
    rewrite clock_S. destruct (plus_error (clock p n) p) as (e & He & E). fold t P in E.
    assert (D' : - (i * i * P / 16777216) <= t - i * P <= i * i * P / 16777216) by (apply Rabs_le_inv, D).
    assert (I2 : i * i * P / 16777216 <= i * P).
    { replace (i * i * P / 16777216) with (i * P * (i / 16777216)) by field.
      assert (0 <= i * P) by (apply Rmult_le_pos; lra). nra. }
    assert (T0 : 0 <= t) by lra.
    assert (T1 : t + P <= 2 * (16777216 * P)) by nra.
    assert (EE : Rabs ((t + P) * (1 + e) - (t + P)) <= (t + P) / 16777216).
    { replace ((t + P) * (1 + e) - (t + P)) with ((t + P) * e) by ring. rewrite Rabs_mult, Rabs_pos_eq by lra.
      unfold Rdiv. apply Rmult_le_compat_l; lra. }
    assert (EE' := Rabs_le_inv _ _ EE).
    destruct (plus_ok (clock p n) p F Fp) as [B1 B2].
    { fold t P. rewrite E, Rabs_pos_eq by lra. rewrite pow128. lra. }
    split; [exact B2|]. rewrite B1. fold t P. rewrite E.
    replace ((t + P) * (1 + e) - (i + 1) * P) with (((t + P) * (1 + e) - (t + P)) + (t - i * P)) by ring.
    eapply Rle_trans; [apply Rabs_triang|].
    assert ((t + P) / 16777216 <= (2 * i * P + P) / 16777216) by (unfold Rdiv; apply Rmult_le_compat_r; lra).
    replace ((i + 1) * (i + 1) * P / 16777216) with (i * i * P / 16777216 + (2 * i * P + P) / 16777216) by field. lra.
Qed.

(** the first time after [T] *)
Section First.
Variable live : f32 -> Prop.
Hypothesis live_dec : forall t, live t \/ ~ live t.

Lemma first_dead k : (forall j, (j <= k)%nat -> live (clock p j)) \/
  exists N, (N <= k)%nat /\ (forall i, (i < N)%nat -> live (clock p i)) /\ ~ live (clock p N).
Proof.
  induction k as [|k IH].
  - destruct (live_dec (clock p 0)) as [L|L]; [left | right].
    + intros j Hj. replace j with 0%nat by lia. exact L.
    + exists 0%nat. split; [lia|]. split; [intros i Hi; lia | exact L].
  - destruct IH as [IH|(N & HN & IH)]; [|right; exists N; split; [lia | exact IH]].
    destruct (live_dec (clock p (S k))) as [L|L].
    + left. intros j Hj. destruct (Nat.eq_dec j (S k)) as [->|]; [exact L | apply IH; lia].
    + right. exists (S k). split; [lia|]. split; [intros i Hi; apply IH; lia | exact L].
Qed.
End First.

Lemma half : exists k, INR k = 8388608.
Proof. exists (Z.to_nat 8388608). rewrite INR_IZR_INZ, Z2Nat.id by lia. reflexivity. Qed.

Lemma first_dead_time (live : f32 -> Prop) T : (forall t, live t \/ ~ live t) ->
  (forall t, is_finite t = true -> live t -> B2R t <= T) -> T < 4194304 * P ->
  exists N, INR N <= 8388608 /\ (forall i, (i < N)%nat -> live (clock p i)) /\ ~ live (clock p N).
Proof.
  intros Dl Lt HT. destruct half as (k & Hk). destruct (first_dead live Dl k) as [A|(N & HN & A)].
  - exfalso. destruct (drift k) as [F D]; [lra|]. rewrite Hk in D. specialize (Lt _ F (A k (le_n k))).
    apply Rabs_le_inv in D. lra.
  - exists N. split; [rewrite <- Hk; apply le_INR, HN | exact A].
Qed.
End Clock.

Section Float.
Variable l : libm.
Notation K := (Fops l).

Lemma zero_clock p : @n0 K = clock p 0.
Proof. vm_compute. reflexivity. Qed.

Section Ends.
Variables p T : f32.
Hypothesis Fp : is_finite p = true.
Hypothesis Pp : 0 < B2R p <= bpow radix2 100.
Hypothesis FT : is_finite T = true.
Hypothesis HT : B2R T < 4194304 * B2R p.

Lemma upto_end : exists N, INR N <= 8388608 /\ (forall i, (i < N)%nat -> B2R (clock p i) <= B2R T) /\ B2R T < B2R (clock p N) /\
  forall i, (i <= N)%nat -> Bltb T (clock p i) = negb (i <? N)%nat.
Proof.
  destruct (first_dead_time p Fp Pp (fun t => B2R t <= B2R T) (B2R T)) as (N & HN & A & B).
  - intros t. destruct (Rle_dec (B2R t) (B2R T)); auto.
  - auto.
  - exact HT.
  - exists N. split; [exact HN|]. split; [exact A|]. split; [lra|]. intros i Hi.
    destruct (drift p Fp Pp i) as [F _]; [apply le_INR in Hi; lra|].
    rewrite Bltb_correct by assumption. destruct (Nat.ltb_spec i N) as [L|L].
    + specialize (A i L). apply Rlt_bool_false. exact A.
    + replace i with N by lia. apply Rlt_bool_true. lra.
Qed.

Lemma below_end : exists N, INR N <= 8388608 /\ (forall i, (i < N)%nat -> B2R (clock p i) < B2R T) /\ B2R T <= B2R (clock p N) /\
  forall i, (i <= N)%nat -> Bltb (clock p i) T = (i <? N)%nat.
Proof.
  destruct (first_dead_time p Fp Pp (fun t => B2R t < B2R T) (B2R T)) as (N & HN & A & B).
  - intros t. destruct (Rlt_dec (B2R t) (B2R T)); auto.
  - intros t _ L. lra.
  - exact HT.
  - exists N. split; [exact HN|]. split; [exact A|]. split; [lra|]. intros i Hi.
    destruct (drift p Fp Pp i) as [F _]; [apply le_INR in Hi; lra|].
    rewrite Bltb_correct by assumption. destruct (Nat.ltb_spec i N) as [L|L].
    + apply Rlt_bool_true. exact (A i L).
    + replace i with N by lia. apply Rlt_bool_false. lra.
Qed.

Lemma lt_dec_P N : forall n, (n < N)%nat \/ ~ (n < N)%nat. Proof. intros; lia. Qed.
Lemma lt_down_P N : forall n, (S n < N)%nat -> (n < N)%nat. Proof. intros; lia. Qed.

(** an iterator whose state before the i-th sample is [st i] *)
Lemma counted {S} (next : @iterator K S) (st : nat -> S) (v : nat -> target) N :
  (forall i, (i < N)%nat -> next (st i) = (Some (v i), st (Datatypes.S i))) -> next (st N) = (None, st N) ->
  yields next (st 0%nat) N /\ forall i, (i < N)%nat -> output next i (st 0%nat) = Some (v i).
Proof.
  intros Y Z. set (st' := fun i => st (Nat.min i N)).
  assert (Y' : forall n, (n < N)%nat -> next (st' n) = (Some (v n), st' (Datatypes.S n))).
  { intros n H. unfold st'. rewrite !Nat.min_l by lia. apply Y, H. }
  assert (N' : forall n, ~ (n < N)%nat -> next (st' n) = (None, st' n)).
  { intros n H. unfold st'. rewrite !Nat.min_r by lia. exact Z. }
  change (st 0%nat) with (st' 0%nat). split.
  - apply (ticks_yields next st' v (fun n => (n < N)%nat) (lt_dec_P N) (lt_down_P N) Y' N'). tauto.
  - exact (ticks_some next st' v (fun n => (n < N)%nat) (lt_dec_P N) (lt_down_P N) Y' N').
Qed.

Lemma straight_clocked : exists N, INR N <= 8388608 /\ (forall i, (i < N)%nat -> B2R (clock p i) <= B2R T) /\ B2R T < B2R (clock p N) /\
  forall c, yields straight_next (@straight_new K c T p) N /\
  forall i, (i < N)%nat -> output straight_next i (@straight_new K c T p) =
    Some (@Target K (straight_calculate c (clock p i)) axis4_default axis4_default).
Proof.
  destruct upto_end as (N & HN & A & B & E). exists N. split; [exact HN|]. split; [exact A|]. split; [exact B|]. intros c.
  unfold straight_new. rewrite (zero_clock p).
  apply (counted straight_next (fun i => @StraightTraj K c (clock p i) T p) (fun i => @Target K (straight_calculate c (clock p i)) axis4_default axis4_default)).
  - intros i Hi. unfold straight_next. cbn [st_t st_t_end st_calc st_period]. change (@ltb K) with (@Bltb 24 128).
    rewrite (E i) by lia. destruct (Nat.ltb_spec i N); [reflexivity | lia].
  - unfold straight_next. cbn [st_t st_t_end st_calc st_period]. change (@ltb K) with (@Bltb 24 128).
    rewrite (E N) by lia. rewrite Nat.ltb_irrefl. reflexivity.
Qed.

Lemma spin_clocked : exists N, INR N <= 8388608 /\ (forall i, (i < N)%nat -> B2R (clock p i) <= B2R T) /\ B2R T < B2R (clock p N) /\
  forall c, yields spin_next (@SpinTraj K c n0 T p) N /\
  forall i, (i < N)%nat -> output spin_next i (@SpinTraj K c n0 T p) =
    Some (@Target K axis4_default axis4_default (calculate c (clock p i))).
Proof.
  destruct upto_end as (N & HN & A & B & E). exists N. split; [exact HN|]. split; [exact A|]. split; [exact B|]. intros c.
  replace (@SpinTraj K c n0 T p) with (@SpinTraj K c (clock p 0) T p) by (rewrite <- (zero_clock p); reflexivity).
  apply (counted spin_next (fun i => @SpinTraj K c (clock p i) T p) (fun i => @Target K axis4_default axis4_default (calculate c (clock p i)))).
  - intros i Hi. unfold spin_next. cbn [sp_t sp_t_end sp_calc sp_period]. change (@ltb K) with (@Bltb 24 128).
    rewrite (E i) by lia. destruct (Nat.ltb_spec i N); [reflexivity | lia].
  - unfold spin_next. cbn [sp_t sp_t_end sp_calc sp_period]. change (@ltb K) with (@Bltb 24 128).
    rewrite (E N) by lia. rewrite Nat.ltb_irrefl. reflexivity.
Qed.

Lemma curve_clocked : exists N, INR N <= 8388608 /\ (forall i, (i < N)%nat -> B2R (clock p i) <= B2R T) /\ B2R T < B2R (clock p N) /\
  forall c x y v, yields curve_next (@CurveTraj K c n0 T p x y v) N /\
  forall i, (i < N)%nat -> exists t, output curve_next i (@CurveTraj K c n0 T p x y v) = Some t /\
    t_theta t = calculate c (clock p i).
Proof.
  destruct upto_end as (N & HN & A & B & E). exists N. split; [exact HN|]. split; [exact A|]. split; [exact B|]. intros c x y v.
  set (s0 := @CurveTraj K c n0 T p x y v).
  assert (St : forall i, (i <= N)%nat -> exists x y, after curve_next i s0 = @CurveTraj K c (clock p i) T p x y v).
  { induction i as [|i IH]; intros Hi.
    - exists x, y. unfold s0. rewrite (zero_clock p). reflexivity.
    - destruct IH as (x' & y' & IH); [lia|]. change (after curve_next (S i) s0) with (snd (curve_next (after curve_next i s0))).
      rewrite IH. unfold curve_next. cbn [cu_t cu_t_end]. change (@ltb K) with (@Bltb 24 128).
      rewrite (E i) by lia. destruct (Nat.ltb_spec i N); [|lia]. cbn [negb snd cu_calc cu_period cu_v cu_x cu_y].
      eexists _, _. reflexivity. }
  assert (O : forall i, (i < N)%nat -> exists t, output curve_next i s0 = Some t /\ t_theta t = calculate c (clock p i)).
  { intros i Hi. destruct (St i) as (x' & y' & Si); [lia|]. unfold output. rewrite Si. unfold curve_next. cbn [cu_t cu_t_end].
    change (@ltb K) with (@Bltb 24 128). rewrite (E i) by lia. destruct (Nat.ltb_spec i N); [|lia]. cbn [negb fst].
    eexists. split; reflexivity. }
  split; [|exact O]. intros k. split.
  - intros Hk. destruct (O k Hk) as (t & -> & _). discriminate.
  - intros Hk. destruct (Nat.lt_ge_cases k N) as [L|L]; [exact L|]. exfalso. apply Hk.
    assert (Fix : forall j, after curve_next (j + N) s0 = after curve_next N s0 /\ output curve_next (j + N) s0 = None).
    { destruct (St N (le_n N)) as (x' & y' & SN).
      assert (Z : curve_next (after curve_next N s0) = (None, after curve_next N s0)).
      { rewrite SN. unfold curve_next. cbn [cu_t cu_t_end]. change (@ltb K) with (@Bltb 24 128).
        rewrite (E N) by lia. rewrite Nat.ltb_irrefl. reflexivity. }
      induction j as [|j [I1 I2]].
      - split; [reflexivity|]. unfold output. cbn [Nat.add]. rewrite Z. reflexivity.
      - assert (I : after curve_next (S j + N) s0 = after curve_next N s0).
        { change (after curve_next (S j + N) s0) with (snd (curve_next (after curve_next (j + N) s0))). rewrite I1, Z. reflexivity. }
        split; [exact I|]. unfold output. rewrite I, Z. reflexivity. }
    replace k with (k - N + N)%nat by lia. apply Fix.
Qed.

Lemma stop_clocked : exists N, INR N <= 8388608 /\ (forall i, (i < N)%nat -> B2R (clock p i) < B2R T) /\ B2R T <= B2R (clock p N) /\
  forall q, yields stop_next (@stop_new K q p T) N.
Proof.
  destruct below_end as (N & HN & A & B & E). exists N. split; [exact HN|]. split; [exact A|]. split; [exact B|]. intros q.
  unfold stop_new. rewrite (zero_clock p).
  apply (counted stop_next (fun i => @StopTraj K (clock p i) q p T)
    (fun _ => @Target K (@Axis4 K (p_x q) n0 n0 n0) (@Axis4 K (p_y q) n0 n0 n0) (@Axis4 K (p_theta q) n0 n0 n0))).
  - intros i Hi. unfold stop_next. cbn [so_t so_t_end so_pose so_period]. change (@ltb K) with (@Bltb 24 128).
    rewrite (E i) by lia. destruct (Nat.ltb_spec i N); [reflexivity | lia].
  - unfold stop_next. cbn [so_t so_t_end so_pose so_period]. change (@ltb K) with (@Bltb 24 128).
    rewrite (E N) by lia. rewrite Nat.ltb_irrefl. reflexivity.
Qed.
End Ends.

(** ** A clock that stands still *)
Definition small : f32 := @B754_finite 24 128 false 8388608 (-48) eq_refl.
Definition one : f32 := @B754_finite 24 128 false 8388608 (-23) eq_refl.

Lemma small_val : B2R small = / 33554432.
Proof. unfold small. cbn [B2R]. unfold F2R. cbn [Defs.Fnum Defs.Fexp cond_Zopp]. change (-48)%Z with (Z.opp 48). rewrite (bpow_opp radix2 48).
  change (bpow radix2 48) with (IZR 281474976710656). lra. Qed.
Lemma one_val : B2R one = 1.
Proof. unfold one. cbn [B2R]. unfold F2R. cbn [Defs.Fnum Defs.Fexp cond_Zopp]. change (-23)%Z with (Z.opp 23). rewrite (bpow_opp radix2 23).
  change (bpow radix2 23) with (IZR 8388608). lra. Qed.
Definition hlf : f32 := @B754_finite 24 128 false 8388608 (-24) eq_refl.
Lemma hlf_val : B2R hlf = / 2.
Proof. unfold hlf. cbn [B2R]. unfold F2R. cbn [Defs.Fnum Defs.Fexp cond_Zopp]. change (-24)%Z with (Z.opp 24). rewrite (bpow_opp radix2 24).
  change (bpow radix2 24) with (IZR 16777216). lra. Qed.

Lemma stands : rnd32 (/ 2 + / 33554432) = / 2.
Proof.
  assert (E : Bplus mode_NE hlf small = hlf) by (apply B2SF_inj; vm_compute; reflexivity).
  pose proof (Bplus_correct 24 128 prec32 emax32 mode_NE hlf small eq_refl eq_refl) as C.
  rewrite E, hlf_val, small_val in C.
  change (round radix2 (SpecFloat.fexp 24 128) (round_mode mode_NE)) with rnd32 in C.
  destruct (Rlt_bool (Rabs (rnd32 (/ 2 + / 33554432))) (bpow radix2 128)).
  - symmetry. apply C.
  - destruct C as [C _]. discriminate C.
Qed.

Lemma stuck n : is_finite (clock small n) = true /\ 0 <= B2R (clock small n) <= / 2.
Proof.
  induction n as [|n [F [L U]]]; [split; [reflexivity | cbn; lra]|]. rewrite clock_S.
  assert (R : 0 <= rnd32 (B2R (clock small n) + B2R small) <= / 2).
  { rewrite small_val. split.
    - replace 0 with (rnd32 0) by (apply rnd_exact, generic_format_0). apply rnd_le. lra.
    - rewrite <- stands. apply rnd_le. lra. }
  destruct (plus_ok (clock small n) small F eq_refl) as [B1 B2].
  - rewrite Rabs_pos_eq by apply R. rewrite pow128. assert (1 <= IZR (2 ^ 100)) by (apply IZR_le; lia). lra.
  - rewrite B1. auto.
Qed.

Lemma endless_clock {S} (next : @iterator K S) (t : S -> f32) (inv : S -> Prop) (s : S) :
  inv s -> t s = clock small 0 ->
  (forall s, inv s -> B2R (t s) <= / 2 -> is_finite (t s) = true -> exists o s', next s = (Some o, s') /\ inv s' /\ t s' = Bplus mode_NE (t s) small) ->
  forall n, output next n s <> None.
Proof.
  intros I0 T0 St n.
  assert (Q : inv (after next n s) /\ t (after next n s) = clock small n).
  { induction n as [|n [I E]]; [auto|]. change (after next (Datatypes.S n) s) with (snd (next (after next n s))).
    destruct (stuck n) as [F [_ U]]. destruct (St _ I) as (o & s' & -> & I' & E'); [rewrite E; exact U | rewrite E; exact F|].
    cbn [snd]. split; [exact I'|]. rewrite E', E, clock_S. reflexivity. }
  destruct Q as [I E]. destruct (stuck n) as [F [_ U]]. unfold output.
  destruct (St _ I) as (o & s' & -> & _); [rewrite E; exact U | rewrite E; exact F|]. discriminate.
Qed.

Lemma one_after (t : f32) : is_finite t = true -> B2R t <= / 2 -> Bltb one t = false /\ Bltb t one = true.
Proof.
  intros F U. rewrite !Bltb_correct by (assumption || reflexivity). rewrite one_val. split; [apply Rlt_bool_false | apply Rlt_bool_true]; lra.
Qed.

Lemma stop_stuck q n : output stop_next n (@stop_new K q small one) <> None.
Proof.
  apply (endless_clock stop_next (@so_t K) (fun s => so_period s = small /\ so_t_end s = one)).
  - split; reflexivity.
  - vm_compute. reflexivity.
  - intros [t q' p' T'] [I1 I2]. cbn in I1, I2. subst. cbn [so_t]. intros U F. destruct (one_after t F U) as [_ H].
    unfold stop_next. cbn [so_t so_t_end so_pose so_period]. change (@ltb K) with (@Bltb 24 128). rewrite H.
    eexists _, _. split; [reflexivity|]. auto.
Qed.
Lemma straight_stuck c n : output straight_next n (@straight_new K c one small) <> None.
Proof.
  apply (endless_clock straight_next (@st_t K) (fun s => st_period s = small /\ st_t_end s = one)).
  - split; reflexivity.
  - vm_compute. reflexivity.
  - intros [c' t T' p'] [I1 I2]. cbn in I1, I2. subst. cbn [st_t]. intros U F. destruct (one_after t F U) as [H _].
    unfold straight_next. cbn [st_t st_t_end st_period st_calc]. change (@ltb K) with (@Bltb 24 128). rewrite H.
    eexists _, _. split; [reflexivity|]. auto.
Qed.
Lemma spin_stuck c n : output spin_next n (@SpinTraj K c n0 one small) <> None.
Proof.
  apply (endless_clock spin_next (@sp_t K) (fun s => sp_period s = small /\ sp_t_end s = one)).
  - split; reflexivity.
  - vm_compute. reflexivity.
  - intros [c' t T' p'] [I1 I2]. cbn in I1, I2. subst. cbn [sp_t]. intros U F. destruct (one_after t F U) as [H _].
    unfold spin_next. cbn [sp_t sp_t_end sp_period sp_calc]. change (@ltb K) with (@Bltb 24 128). rewrite H.
    eexists _, _. split; [reflexivity|]. auto.
Qed.
Lemma curve_stuck c x y v n : output curve_next n (@CurveTraj K c n0 one small x y v) <> None.
Proof.
  apply (endless_clock curve_next (@cu_t K) (fun s => cu_period s = small /\ cu_t_end s = one)).
  - split; reflexivity.
  - vm_compute. reflexivity.
  - intros [c' t T' p' x' y' v'] [I1 I2]. cbn in I1, I2. subst. cbn [cu_t]. intros U F. destruct (one_after t F U) as [H _].
    unfold curve_next. cbn [cu_t cu_t_end]. change (@ltb K) with (@Bltb 24 128). rewrite H.
    eexists _, _. split; [reflexivity|]. cbn [cu_period cu_t_end cu_t]. auto.
Qed.
End Float.
