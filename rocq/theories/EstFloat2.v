(** The estimator in binary32: a whole history of readings. *)
From Coq Require Import ZArith Reals List Bool Lia Lra.
From Flocq Require Import Core BinarySingleNaN.
From Verif Require Import Base Num NumLemmas ControlModel ControlSpec FloatMag FloatRange FloatMoveSpec JerkProofs FloatMove FloatMove2 FloatMove3
  FloatEstSpec EstFloat.
Open Scope R_scope.

Section Run.
Variable lm : libm.
#[local] Hint Extern 0 ops => exact (Fops lm) : typeclass_instances.
Hypothesis trig : forall x : f32, is_finite x = true -> below 1 (l_sin lm x) /\ below 1 (l_cos lm x).
Hypothesis apart : cos_apart lm.
Variables p al sc th : f32.
Hypothesis Hp : within (1 / 1024) (1 / 64) p.
Hypothesis Hal : within 0 (1023 / 1024) al.
Hypothesis Fsc : is_finite sc = true.
Hypothesis Psc : 0 < B2R sc.
Hypothesis Fth : is_finite th = true.
Hypothesis Hth : 1 / 1024 <= B2R th.

Ltac fitz := match goal with
  | |- fit (IZR _) => apply fit_int; lia
  | |- fit (- IZR ?z) => rewrite <- opp_IZR; apply fit_int; lia
  | |- fit (IZR _ / IZR (2 ^ _)) => apply fit_dyadic; lia
  end.

Lemma mul_sym (a b c : R) (x y : f32) : is_finite x = true -> is_finite y = true -> 0 <= a -> 0 <= b ->
  - a <= B2R x <= a -> - b <= B2R y <= b -> a * b <= c -> fit c -> fit (- c) -> btw (- c) c (Bmult mode_NE x y).
Proof.
  intros Fx Fy Ha Hb Hx Hy Hc F1 F2. apply mul_btw; try assumption. apply Rabs_le_inv.
  rewrite Rabs_mult. apply Rle_trans with (a * b); [|exact Hc]. apply Rmult_le_compat; try apply Rabs_pos; apply Rabs_le; assumption.
Qed.

(** the filtered speed. *)
Lemma speed_step (v l r a : f32) : btw (-131072) 131072 v -> within (- (1 / 16)) (1 / 16) l -> within (- (1 / 16)) (1 / 16) r ->
  within (-256) 256 a ->
  btw (-131072) 131072 (Bplus mode_NE (Bmult mode_NE al (Bplus mode_NE v (Bmult mode_NE a p)))
    (Bmult mode_NE (Bminus mode_NE f1 al) (f32_div (Bplus mode_NE (f32_div l p) (f32_div r p)) f2))).
Proof.
  intros [Fv Hv] [Fl Hl] [Fr Hr] [Fa Ha]. destruct Hp as [Fp Pp]. destruct Hal as [Fal Pal].
  destruct f1_val as [V1 F1]. destruct f2_val as [V2 F2].
  destruct (mul_sym 256 (1 / 64) 4 a p) as [Fap Hap]; try assumption; try lra; [fitz|fitz|].
  destruct (add_btw (-131076) 131076 v _ Fv Fap) as [Fs Hs]; [fitz|fitz|lra|].
  destruct (mul_sym (1023 / 1024) 131076 130948 al _ Fal Fs) as [Ft Ht]; try lra; [fitz|fitz|].
  assert (D : forall x : f32, is_finite x = true -> - (1 / 16) <= B2R x <= 1 / 16 -> btw (-64) 64 (f32_div x p)).
  { intros x Fx Hx. apply div_btw; [exact Fx|lra|fitz|fitz|]. apply quot_btw; [lra|nra]. }
  destruct (D l Fl Hl) as [Fl' Hl']. destruct (D r Fr Hr) as [Fr' Hr'].
  destruct (add_btw (-128) 128 _ _ Fl' Fr') as [Fm Hm]; [fitz|fitz|lra|].
  destruct (div_btw (-64) 64 _ f2 Fm) as [Fd Hd]; [rewrite V2; lra|fitz|fitz|rewrite V2; lra|].
  destruct (sub_btw 0 1 f1 al F1 Fal) as [Fc Hc]; [fitz|fitz|rewrite V1; lra|].
  destruct (mul_sym 1 64 64 _ _ Fc Fd) as [Fe He]; try lra; [fitz|fitz|].
  apply add_btw; try assumption; [fitz|fitz|lra].
Qed.

(** what holds after [n] readings. *)
Definition kept (n : nat) (es : estimator * state) : Prop :=
  let '(e, s) := es in
  e_period e = p /\ e_alpha e = al /\ e_slip_const e = sc /\ e_approx_th e = th /\
  is_finite (e_slip_angle e : f32) = true /\ Rabs (B2R (e_slip_angle e : f32)) <= 4 * INR n /\
  btw (-131072) 131072 (e_trans_vel e : f32) /\
  near 70 n (sx (s_x s) : f32) /\ near 70 n (sx (s_y s) : f32) /\ near 2 n (sx (s_theta s) : f32) /\
  btw (-64) 64 (sv (s_theta s) : f32).

Lemma estimate_step n e s v : INR (S n) <= 1048576 -> usual_reading v -> kept n (e, s) ->
  let '(s', e') := estimate e s v in kept (S n) (e', s') /\ finite_state s'.
Proof.
  intros Hn (Hl & Hr & Ha & Hw) (E1 & E2 & E3 & E4 & Fsl & Hsl & Htv & Hx & Hy & Ht & Hs).
  unfold estimate. cbv zeta. rewrite E1, E2, E3, E4.
  set (l := left_distance v) in *. set (r := right_distance v) in *. set (a := translational_acceleration v) in *. set (w := angular_velocity v) in *.
  set (tv0 := e_trans_vel e) in *. set (sl := e_slip_angle e) in *.
  set (x := sx (s_x s)) in *. set (y := sx (s_y s)) in *. set (t0 := sx (s_theta s)) in *. set (w0 := sv (s_theta s)) in *.
  clearbody l r a w tv0 sl x y t0 w0. clear E1 E2 E3 E4 v e s.
  unfold n1, n2. cbn [lit Fops add sub mul div opp nabs ltb nsin ncos].
  change (f32_div (f32_of_Z 1) (f32_of_Z 1)) with f1. change (f32_div (f32_of_Z 2) (f32_of_Z 1)) with f2.
  pose proof (speed_step tv0 l r a Htv Hl Hr Ha) as T.
  set (tv := Bplus mode_NE (Bmult mode_NE al _) _) in *. clearbody tv.
  destruct Hp as [Fp Pp]. destruct f1_val as [V1 F1].
  pose proof (div_btw 64 1024 f1 p F1 ltac:(lra) ltac:(fitz) ltac:(fitz) ltac:(rewrite V1; apply quot_btw; lra)) as Rv.
  set (rv := f32_div f1 p) in *. clearbody rv.
  assert (Dn : Bplus mode_NE rv (f32_div sc (Babs tv)) = B754_infinity false \/
    (is_finite (Bplus mode_NE rv (f32_div sc (Babs tv))) = true /\ B2R rv <= B2R (Bplus mode_NE rv (f32_div sc (Babs tv))))).
  { apply denom_cases; [apply Rv|destruct Rv; lra|]. apply quot_cases; [exact Fsc|exact Psc|apply T]. }
  set (dn := Bplus mode_NE rv _) in *. clearbody dn.
  pose proof (pos_INR n) as Pn. rewrite S_INR in Hn.
  destruct (slip_step sl rv w dn (4 * INR n) Fsl Hsl ltac:(lra) Rv Hw Dn) as [Fsl' Hsl'].
  set (sl' := f32_div (Bplus mode_NE (Bmult mode_NE sl rv) w) dn) in *. clearbody sl'.
  assert (Hsl2 : Rabs (B2R sl') <= 4 * INR (S n)) by (rewrite S_INR; lra).
  assert (Bw : below 6 w) by (apply (btw_below (-64) 64); [exact Hw| |]; change (bpow radix2 6) with 64; lra).
  assert (Bw0 : below 6 w0) by (apply (btw_below (-64) 64); [exact Hs| |]; change (bpow radix2 6) with 64; lra).
  assert (Bp : below 0 p) by (apply (btw_below (1 / 1024) (1 / 64)); [split; assumption| |]; change (bpow radix2 0) with 1; lra).
  assert (Ba : below 8 a) by (apply (btw_below (-256) 256); [exact Ha| |]; change (bpow radix2 8) with 256; lra).
  assert (Bt : below 17 tv) by (apply (btw_below (-131072) 131072); [exact T| |]; change (bpow radix2 17) with 131072; lra).
  assert (Bsl : below 23 sl') by (split; [exact Fsl'|]; change (bpow radix2 23) with 8388608; lra).
  assert (Dt : btw (-1) 1 (Bmult mode_NE w p)).
  { destruct Hw as [Fw Hw]. apply (mul_sym 64 (1 / 64) 1); try assumption; try lra; fitz. }
  assert (Bd : below 0 (Bmult mode_NE w p)) by (apply (btw_below (-1) 1); [exact Dt| |]; change (bpow radix2 0) with 1; lra).
  set (dt := Bmult mode_NE w p) in *. clearbody dt.
  assert (W : forall k j x, below k x -> (k <= j)%Z -> below j x) by (intros k j u By Q; apply (below_le k); assumption).
  assert (Lp : bpow radix2 (-10) <= Rabs (B2R p)).
  { rewrite Rabs_pos_eq by lra. change (-10)%Z with (- (10))%Z. rewrite bpow_opp. change (bpow radix2 10) with 1024. lra. }
  destruct (trig _ (proj1 (below_div 0 1 dt f2 Bd f2_low ltac:(lia)))) as [S1 _].
  destruct (trig sl' Fsl') as [_ C2]. pose proof (apart sl' Fsl') as Ap.
  assert (Bdist : below 29 (if Bltb (Babs w) th then Bmult mode_NE tv p
      else f32_div (Bmult mode_NE (Bmult mode_NE f2 tv) (l_sin lm (f32_div dt f2))) w)).
  { destruct (ltb_cases (Babs w) th) as [[-> L]|[-> L]]; [rewrite is_finite_Babs; apply Bw|exact Fth| |].
    - eapply W; [bl|lia].
    - assert (Lw : bpow radix2 (-10) <= Rabs (B2R w)).
      { rewrite B2R_Babs in L. change (-10)%Z with (- (10))%Z. rewrite bpow_opp. change (bpow radix2 10) with 1024. lra. }
      eapply W; [eapply below_div; [bl|exact Lw|lia]|lia]. }
  set (ds := if Bltb (Babs w) th then _ else _) in *. clearbody ds.
  assert (Btd : below 69 (f32_div ds (l_cos lm sl'))) by (eapply W; [eapply below_div; [exact Bdist|exact Ap|lia]|lia]).
  set (td := f32_div ds (l_cos lm sl')) in *. clearbody td.
  assert (N23 : INR n <= 8388608) by lra. assert (N24 : INR (S n) <= 8388608) by (rewrite S_INR; lra).
  pose proof (near_below 2 n t0 N23 Ht) as Bt0. change (2 + 24)%Z with 26%Z in Bt0.
  assert (Fm : is_finite (Bplus mode_NE (Bminus mode_NE t0 sl') (f32_div dt f2)) = true).
  { assert (G : forall k u, below k u -> is_finite u = true) by (intros k u U; apply U). eapply G. bl. }
  set (tm := Bplus mode_NE (Bminus mode_NE t0 sl') (f32_div dt f2)) in *. clearbody tm.
  destruct (trig tm Fm) as [S3 C3].
  assert (Nx : near 70 (S n) (Bplus mode_NE x (Bmult mode_NE td (l_cos lm tm)))) by (apply near_add; [lia|exact N24|exact Hx|]; eapply W; [bl|lia]).
  assert (Ny : near 70 (S n) (Bplus mode_NE y (Bmult mode_NE td (l_sin lm tm)))) by (apply near_add; [lia|exact N24|exact Hy|]; eapply W; [bl|lia]).
  assert (Nt : near 2 (S n) (Bplus mode_NE t0 dt)) by (apply near_add; [lia|exact N24|exact Ht|]; eapply W; [exact Bd|lia]).
  split.
  - unfold kept. cbn [e_period e_alpha e_slip_const e_approx_th e_slip_angle e_trans_vel s_x s_y s_theta sx sv].
    repeat match goal with |- _ /\ _ => split end; try reflexivity; try assumption; apply T || apply Hw.
  - assert (G : forall k u, below k u -> is_finite u = true) by (intros k u U; apply U).
    unfold finite_state, finite_axis3. cbn [s_x s_y s_theta sx sv sa].
    split; [|split]; (split; [|split]); try apply Nx; try apply Ny; try apply Nt; try apply Bw;
      try (eapply G; bl). eapply G. eapply below_div; [bl|exact Lp|lia].
Qed.

Lemma run_kept l : forall n es, Forall usual_reading l -> INR (n + length l) <= 1048576 -> kept n es ->
  kept (n + length l) (est_run es l) /\ (l <> nil -> finite_state (snd (est_run es l))).
Proof.
  induction l as [|v l IH]; intros n es HF HN HK.
  - cbn [length est_run fold_left]. rewrite Nat.add_0_r. split; [exact HK|intros H; contradiction].
  - inversion HF as [|? ? Hv Hl]; subst. destruct es as [e s]. cbn [length] in *.
    assert (HS : INR (S n) <= 1048576) by (apply Rle_trans with (2 := HN); apply le_INR; lia).
    pose proof (estimate_step n e s v HS Hv HK) as St.
    change (est_run (e, s) (v :: l)) with (est_run (let '(s', e') := estimate e s v in (e', s')) l).
    destruct (estimate e s v) as [s' e']. destruct St as [K' F'].
    destruct (IH (S n) (e', s') Hl) as [K2 F2]; [replace (S n + length l)%nat with (n + S (length l))%nat by lia; exact HN|exact K'|].
    replace (n + S (length l))%nat with (S n + length l)%nat by lia. split; [exact K2|]. intros _.
    destruct l as [|v' l']; [exact F'|]. apply F2. discriminate.
Qed.

Lemma start_kept (s : state) : usual_start s -> kept 0 (estimator_new p al sc th, s).
Proof.
  intros (H1 & H2 & H3 & H4).
  assert (N : forall k b (x : f32), within (- b) b x -> b <= bpow radix2 k -> near k 0 x).
  { intros k b x [F H] Hb. split; [exact F|]. cbn [INR]. rewrite Rplus_0_l, Rmult_1_r. apply Rabs_le. lra. }
  assert (B70 : 64 <= bpow radix2 70) by (change 64 with (bpow radix2 6); apply bpow_le; lia).
  assert (Z : B2R (@n0 (Fops lm) : f32) = 0) by (replace (@n0 (Fops lm) : f32) with (B754_zero false : f32) by (vm_compute; reflexivity); reflexivity).
  assert (Fz : is_finite (@n0 (Fops lm) : f32) = true) by (vm_compute; reflexivity).
  unfold kept, estimator_new. cbn [e_period e_alpha e_slip_const e_approx_th e_slip_angle e_trans_vel].
  set (z := @n0 (Fops lm)) in *. clearbody z.
  split; [reflexivity|]. split; [reflexivity|]. split; [reflexivity|]. split; [reflexivity|]. split; [exact Fz|].
  split; [rewrite Z, Rabs_R0; cbn [INR]; lra|]. split; [split; [exact Fz|rewrite Z; lra]|].
  split; [apply (N 70%Z 64); [exact H1|exact B70]|]. split; [apply (N 70%Z 64); [exact H2|exact B70]|].
  split; [apply (N 2%Z 4); [exact H3|change (bpow radix2 2) with 4; lra]|exact H4].
Qed.
End Run.

(** ** Not a number *)
Lemma nan_step lm (e : @estimator (Fops lm)) (s : @state (Fops lm)) (v : @sensor_value (Fops lm)) :
  is_nan (e_trans_vel e : f32) = true \/ is_nan (translational_acceleration v : f32) = true ->
  is_nan (e_trans_vel (snd (estimate e s v)) : f32) = true.
Proof.
  intros H. unfold estimate. cbv zeta. cbn [snd e_trans_vel add mul sub div Fops].
  assert (M1 : forall x y : f32, is_nan x = true \/ is_nan y = true -> Bplus mode_NE x y = B754_nan).
  { intros x y [N|N]; [destruct x; try discriminate|destruct y; try discriminate; destruct x]; reflexivity. }
  assert (M2 : forall x y : f32, is_nan x = true \/ is_nan y = true -> Bmult mode_NE x y = B754_nan).
  { intros x y [N|N]; [destruct x; try discriminate|destruct y; try discriminate; destruct x]; reflexivity. }
  assert (A : Bplus mode_NE (e_trans_vel e : f32) (Bmult mode_NE (translational_acceleration v) (e_period e)) = B754_nan).
  { apply M1. destruct H as [H|H]; [left; exact H|right]. rewrite M2 by (left; exact H). reflexivity. }
  rewrite A. rewrite (M2 _ B754_nan) by (right; reflexivity). rewrite M1 by (left; reflexivity). reflexivity.
Qed.
Lemma nan_stays lm (e : @estimator (Fops lm)) (s : @state (Fops lm)) (v : @sensor_value (Fops lm)) (l : list (@sensor_value (Fops lm))) :
  is_nan (translational_acceleration v : f32) = true ->
  is_nan (e_trans_vel (fst (est_run (e, s) (v :: l))) : f32) = true.
Proof.
  intros H. change (est_run (e, s) (v :: l)) with (est_run (let '(s', e') := estimate e s v in (e', s')) l).
  pose proof (nan_step lm e s v (or_intror H)) as N. destruct (estimate e s v) as [s1 e1]. cbn [snd] in N.
  clear v H e s. revert e1 s1 N. induction l as [|v l IH]; intros e1 s1 N; [exact N|].
  change (est_run (e1, s1) (v :: l)) with (est_run (let '(s', e') := estimate e1 s1 v in (e', s')) l).
  pose proof (nan_step lm e1 s1 v (or_introl N)) as N'. destruct (estimate e1 s1 v) as [s2 e2]. apply IH, N'.
Qed.
