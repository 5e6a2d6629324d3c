(** Rigid motions, curves, spins, mirror images. *)
From Coq Require Import ZArith Reals List Bool Lra Lia Psatz.
From Flocq Require Import Core BinarySingleNaN.
From Verif Require Import Base Num NumLemmas SearchModel RunModel ControlModel TrajModel TrajSpec
  TrajProofs TrajProofs2 TrajProofs3 TrajProofs4.
Import ListNotations.
Open Scope R_scope.

Lemma target_ext (s t : @target Rops) : t_x s = t_x t -> t_y s = t_y t -> t_theta s = t_theta t -> s = t.
Proof. destruct s, t. cbn. congruence. Qed.
Lemma axis_ext (s t : @axis4 Rops) : (tx s = tx t :> R) -> (tv s = tv t :> R) -> (ta s = ta t :> R) ->
  (tj s = tj t :> R) -> s = t.
Proof. destruct s, t. cbn. congruence. Qed.

(** ** Rigid motions *)

Lemma norm_rot a b c s : s * s + c * c = 1 ->
  (a * c - b * s) * (a * c - b * s) + (a * s + b * c) * (a * s + b * c) = a * a + b * b.
Proof. intros H. transitivity ((a * a + b * b) * (s * s + c * c)); [ring | rewrite H; ring]. Qed.

Lemma shift_norms (p : @pose Rops) (s t : @target Rops) :
  let s' := shift p s in let t' := shift p t in
  (forall q : @axis4 Rops -> R, q = tv \/ q = ta \/ q = tj ->
     q (t_x t') * q (t_x t') + q (t_y t') * q (t_y t') =
     q (t_x t) * q (t_x t) + q (t_y t) * q (t_y t)) /\
  (tx (t_x s') - tx (t_x t')) * (tx (t_x s') - tx (t_x t'))
  + (tx (t_y s') - tx (t_y t')) * (tx (t_y s') - tx (t_y t')) =
  (tx (t_x s) - tx (t_x t)) * (tx (t_x s) - tx (t_x t))
  + (tx (t_y s) - tx (t_y t)) * (tx (t_y s) - tx (t_y t)).
Proof.
  cbv zeta. pose proof (sin2_cos2 (p_theta p)) as SC. unfold Rsqr in SC. split.
  - intros q H. destruct H as [-> | [-> | ->]]; unfold shift; cbn [t_x t_y t_theta tv ta tj]; rops;
      apply norm_rot, SC.
  - unfold shift; cbn [t_x t_y t_theta tx]; rops.
    match goal with |- ?l = _ => transitivity
      (((tx (t_x s) - tx (t_x t)) * cos (p_theta p) - (tx (t_y s) - tx (t_y t)) * sin (p_theta p)) *
       ((tx (t_x s) - tx (t_x t)) * cos (p_theta p) - (tx (t_y s) - tx (t_y t)) * sin (p_theta p)) +
       ((tx (t_x s) - tx (t_x t)) * sin (p_theta p) + (tx (t_y s) - tx (t_y t)) * cos (p_theta p)) *
       ((tx (t_x s) - tx (t_x t)) * sin (p_theta p) + (tx (t_y s) - tx (t_y t)) * cos (p_theta p))) end.
    + rops. ring.
    + apply norm_rot, SC.
Qed.

Lemma shift_heading (p : @pose Rops) (t : @target Rops) :
  let t' := shift p t in
  (tx (t_theta t') = tx (t_theta t) + p_theta p :> R) /\
  (forall q : @axis4 Rops -> R, q = tv \/ q = ta \/ q = tj ->
     q (t_theta t') = q (t_theta t) /\
     q (t_x t') * cos (tx (t_theta t')) + q (t_y t') * sin (tx (t_theta t')) =
     q (t_x t) * cos (tx (t_theta t)) + q (t_y t) * sin (tx (t_theta t)) /\
     - q (t_x t') * sin (tx (t_theta t')) + q (t_y t') * cos (tx (t_theta t')) =
     - q (t_x t) * sin (tx (t_theta t)) + q (t_y t) * cos (tx (t_theta t))).
Proof.
  cbv zeta. pose proof (sin2_cos2 (p_theta p)) as SC. unfold Rsqr in SC. split.
  - unfold shift. cbn [t_theta tx]. rops. reflexivity.
  - assert (G : forall a b th ph, sin ph * sin ph + cos ph * cos ph = 1 ->
      (a * cos ph - b * sin ph) * cos (th + ph) + (a * sin ph + b * cos ph) * sin (th + ph) = a * cos th + b * sin th /\
      - (a * cos ph - b * sin ph) * sin (th + ph) + (a * sin ph + b * cos ph) * cos (th + ph) = - a * sin th + b * cos th).
    { intros a b th ph H. rewrite cos_plus, sin_plus. split.
      - transitivity ((a * cos th + b * sin th) * (sin ph * sin ph + cos ph * cos ph)); [ring | rewrite H; ring].
      - transitivity ((- a * sin th + b * cos th) * (sin ph * sin ph + cos ph * cos ph)); [ring | rewrite H; ring]. }
    intros q [-> | [-> | ->]]; unfold shift; cbn [t_x t_y t_theta tx tv ta tj]; rops;
      (split; [reflexivity | apply G, SC]).
Qed.

Lemma shift_compose (p q : @pose Rops) (t : @target Rops) :
  shift p (shift q t) = shift (compose p q) t.
Proof.
  unfold shift, compose. cbn [t_x t_y t_theta tx tv ta tj p_x p_y p_theta]. rops.
  rewrite cos_plus, sin_plus.
  apply target_ext; apply axis_ext; cbn [t_x t_y t_theta tx tv ta tj]; try ring.
  all: change (@num Rops) with R; try reflexivity; try ring.
Qed.

Lemma shift_rest (p q : @pose Rops) : shift p (rest_at q) = rest_at (compose p q).
Proof.
  unfold shift, rest_at, compose. cbn [t_x t_y t_theta tx tv ta tj p_x p_y p_theta]. rops.
  apply target_ext; apply axis_ext; cbn [t_x t_y t_theta tx tv ta tj]; try ring.
Qed.

(** ** Turning: the angle of spins and curves *)

Lemma big_room g d : limits g -> big_enough g d -> 0 < Rabs d /\ room g (Rabs d) 0 0.
Proof.
  intros Lg B. unfold big_enough in B.
  assert (P : 0 < ramp_distance (g_a_max g) (g_j_max g) 0 (g_v_max g / 2 ^ 25)).
  { apply two_D_pos; [exact Lg|]. apply Rdiv_lt_0_compat; [apply Lg | apply pow_lt; lra]. }
  assert (D : 0 < Rabs d) by lra. split; [exact D|].
  split; [right | right; exact B].
  intros w Hw. replace w with 0 by lra. rewrite ramp_distance_same by apply Lg. exact D.
Qed.

Lemma generate_turns (g : @generator Rops) (th0 d : R) : limits g -> big_enough g d ->
  exists c T, generate g th0 d 0%R 0%R = (c, T) /\ turns (@calculate Rops c) g T th0 d.
Proof.
  intros Lg B. destruct (big_room g d Lg B) as [D0 HR].
  assert (V : 0 <= 0 <= g_v_max g) by (destruct Lg; lra).
  destruct (generate_tv_ok g th0 d 0 0 Lg V V HR) as
    (c & T & vt & E & T0 & F & Bd & Bj & S0 & ST & _ & _ & _ & Evt & _).
  specialize (Evt ltac:(lra)). subst vt.
  exists c, T. unfold generate. split; [rewrite E; reflexivity|].
  assert (SG : sgn d = 1 \/ sgn d = -1) by apply sgn_cases.
  assert (Bv : forall t, 0 <= t <= T -> 0 <= sgn d * tv (calculate c t) <= g_v_max g).
  { intros t Ht. destruct (Bd t Ht) as [Q _]. rewrite Rmin_left in Q by lra. exact Q. }
  split; [exact T0|]. split; [exact F|]. split; [|split; [|split]].
  - intros t Ht. split; [|split; [apply Bd, Ht | apply Bj]].
    specialize (Bv t Ht). destruct SG as [G|G]; rewrite G in Bv; apply Rabs_le; lra.
  - destruct S0 as (A1 & A2 & A3). rewrite A1, A2, A3. rops. split; [reflexivity|]. split; [apply Rmult_0_r | reflexivity].
  - destruct ST as (A1 & A2 & A3). rewrite A1, A2, A3. rops. split; [reflexivity|]. split; [apply Rmult_0_r | reflexivity].
  - intros s t Hs Ht. destruct F as (x & v & a & j & ex & M & FE).
    assert (Ex : forall u, 0 <= u <= T -> tx (calculate c u) = x u /\ tv (calculate c u) = v u).
    { intros u Hu. destruct (FE u Hu) as (P1 & P2 & _). auto. }
    destruct (Ex s) as [-> _]; [lra|]. destruct (Ex t) as [-> _]; [lra|].
    assert (Bw : forall u, 0 <= u <= T -> 0 <= sgn d * v u).
    { intros u Hu. destruct (Ex u Hu) as [_ <-]. apply Bv, Hu. }
    unfold sgn in Bw. destruct (Rlt_dec d 0).
    + apply (nonpos_le x v); [lra | intros u _; apply (mo_x _ _ _ _ _ _ M) |].
      intros u Hu. specialize (Bw u ltac:(lra)). lra.
    + enough (- x t <= - x s) by lra.
      apply (nonpos_le (fun u => - x u) (fun u => - v u)); [lra | |].
      * intros u _. apply derivable_pt_lim_opp, (mo_x _ _ _ _ _ _ M).
      * intros u Hu. specialize (Bw u ltac:(lra)). lra.
Qed.

Lemma spin_ok (g : @generator Rops) (p d : R) : limits g -> big_enough g d -> 0 < p ->
  exists f T, turns f g T 0 d /\
    yields spin_next (spin_generate g p d) (Z.to_nat (Zfloor (T / p) + 1)) /\
    forall n, INR n * p <= T ->
      output spin_next n (spin_generate g p d) =
      Some (@Target Rops (@Axis4 Rops 0%R 0%R 0%R 0%R) (@Axis4 Rops 0%R 0%R 0%R 0%R) (f (INR n * p))).
Proof.
  intros Lg B Hp. destruct (generate_turns g 0 d Lg B) as (c & T & E & Tu).
  exists (@calculate Rops c), T. split; [exact Tu|].
  unfold spin_generate. rewrite n0_R, E. destruct (spin_sampled T p Hp c) as [Y O].
  rewrite def_R in O. split; [exact Y | exact O].
Qed.

(** ** Curves *)

(** the position increments: the mean of two unit vectors times the arc length. *)
Lemma unit_mean a b : let X := 1 / 2 * cos a + 1 / 2 * cos b in
  let Y := 1 / 2 * sin a + 1 / 2 * sin b in X * X + Y * Y <= 1.
Proof.
  cbv zeta. pose proof (sin2_cos2 a) as A. pose proof (sin2_cos2 b) as B. unfold Rsqr in *.
  pose proof (COS_bound (a - b)) as [_ C]. rewrite cos_minus in C. nra.
Qed.

Lemma curve_step (c : @overall Rops) (p x0 y0 v : R) n :
  let q := curve_pos p c x0 y0 v in
  (fst (q (S n)) - fst (q n)) * (fst (q (S n)) - fst (q n))
  + (snd (q (S n)) - snd (q n)) * (snd (q (S n)) - snd (q n)) <= (v * p) * (v * p).
Proof.
  cbv zeta. cbn [curve_pos fst snd].
  set (t := INR n * p). pose proof (unit_mean (head c (gauss1 p t)) (head c (gauss2 p t))) as U.
  cbv zeta in U.
  set (X' := 1 / 2 * cos (head c (gauss1 p t)) + 1 / 2 * cos (head c (gauss2 p t))) in *.
  set (Y' := 1 / 2 * sin (head c (gauss1 p t)) + 1 / 2 * sin (head c (gauss2 p t))) in *.
  replace (fst (curve_pos p c x0 y0 v n) + v * p * X' - fst (curve_pos p c x0 y0 v n)) with (v * p * X') by ring.
  replace (snd (curve_pos p c x0 y0 v n) + v * p * Y' - snd (curve_pos p c x0 y0 v n)) with (v * p * Y') by ring.
  replace (v * p * X' * (v * p * X') + v * p * Y' * (v * p * Y')) with (v * p * (v * p) * (X' * X' + Y' * Y')) by ring.
  rewrite <- (Rmult_1_r (v * p * (v * p))) at 2.
  apply Rmult_le_compat_l; [apply Rle_0_sqr | exact U].
Qed.

Lemma head_derivs (x v a : R -> R) (k t : R) :
  derivable_pt_lim x t (v t) -> derivable_pt_lim v t (a t) ->
  derivable_pt_lim (fun u => k * cos (x u)) t (- k * sin (x t) * v t) /\
  derivable_pt_lim (fun u => k * sin (x u)) t (k * cos (x t) * v t) /\
  derivable_pt_lim (fun u => - k * sin (x u) * v u) t
    (- k * (cos (x t) * (v t * v t) + sin (x t) * a t)) /\
  derivable_pt_lim (fun u => k * cos (x u) * v u) t
    (k * (- sin (x t) * (v t * v t) + cos (x t) * a t)).
Proof.
  intros Dx Dv.
  assert (C : forall m, derivable_pt_lim (fun u => m * cos (x u)) t (- m * sin (x t) * v t)).
  { intros m. replace (- m * sin (x t) * v t) with (m * (- sin (x t) * v t)) by ring.
    apply (derivable_pt_lim_scal (fun u => cos (x u))).
    apply (derivable_pt_lim_comp x cos t (v t) (- sin (x t))); [exact Dx | apply derivable_pt_lim_cos]. }
  assert (S : forall m, derivable_pt_lim (fun u => m * sin (x u)) t (m * cos (x t) * v t)).
  { intros m. replace (m * cos (x t) * v t) with (m * (cos (x t) * v t)) by ring.
    apply (derivable_pt_lim_scal (fun u => sin (x u))).
    apply (derivable_pt_lim_comp x sin t (v t) (cos (x t))); [exact Dx | apply derivable_pt_lim_sin]. }
  split; [apply C|]. split; [apply S|]. split.
  - replace (- k * (cos (x t) * (v t * v t) + sin (x t) * a t))
      with ((- k * cos (x t) * v t) * v t + (- k * sin (x t)) * a t) by ring.
    apply (derivable_pt_lim_mult (fun u => - k * sin (x u)) v); [apply S | exact Dv].
  - replace (k * (- sin (x t) * (v t * v t) + cos (x t) * a t))
      with ((- k * sin (x t) * v t) * v t + (k * cos (x t)) * a t) by ring.
    apply (derivable_pt_lim_mult (fun u => k * cos (x u)) v); [apply C | exact Dv].
Qed.

Lemma curve_ok (p x y th0 d v v_ref dth ddth dddth : R) :
  let g := curve_gen v v_ref dth ddth dddth in
  let s := @generate_curve Rops p x y th0 d v v_ref dth ddth dddth in
  limits g -> big_enough g d -> 0 < p ->
  exists f T, turns f g T th0 d /\
    yields curve_next s (Z.to_nat (Zfloor (T / p) + 1)) /\
    (exists t, output curve_next 0 s = Some t /\ tx (t_x t) = x /\ tx (t_y t) = y) /\
    (forall n t t', output curve_next n s = Some t -> output curve_next (S n) s = Some t' ->
       (tx (t_x t') - tx (t_x t)) * (tx (t_x t') - tx (t_x t))
       + (tx (t_y t') - tx (t_y t)) * (tx (t_y t') - tx (t_y t)) <= (v * p) * (v * p)) /\
    exists th vx vy ax ay : R -> R,
      (forall u, vx u = v * cos (th u) /\ vy u = v * sin (th u) /\
         derivable_pt_lim vx u (ax u) /\ derivable_pt_lim vy u (ay u)) /\
      forall n t, output curve_next n s = Some t ->
        let u := INR n * p in
        t_theta t = f u /\ tx (t_theta t) = th u /\ derivable_pt_lim th u (tv (t_theta t)) /\
        tv (t_x t) = vx u /\ tv (t_y t) = vy u /\ ta (t_x t) = ax u /\ ta (t_y t) = ay u /\
        derivable_pt_lim ax u (tj (t_x t)) /\ derivable_pt_lim ay u (tj (t_y t)).
Proof.
  cbv zeta. intros Lg B Hp.
  destruct (generate_turns _ th0 d Lg B) as (c & T & E & Tu).
  exists (@calculate Rops c), T. split; [exact Tu|].
  assert (ES : @generate_curve Rops p x y th0 d v v_ref dth ddth dddth = @CurveTraj Rops c 0%R T p x y v).
  { unfold generate_curve. rewrite n0_R. rops. unfold curve_gen in E. cbv zeta in E.
    rewrite E. reflexivity. }
  rewrite ES. destruct (curve_sampled T p Hp c x y v) as [Y O].
  split; [exact Y|].
  assert (O' : forall n t, output curve_next n (@CurveTraj Rops c 0%R T p x y v) = Some t ->
    INR n * p <= T /\ t = curve_target p c x y v n).
  { intros n t H. assert (N : output curve_next n (@CurveTraj Rops c 0%R T p x y v) <> None) by congruence.
    apply Y in N. apply (floor_count T p n Hp) in N. split; [exact N|]. specialize (O n N). congruence. }
  destruct Tu as (T0 & F & _).
  split; [|split].
  - exists (curve_target p c x y v 0). split; [apply O; cbn; lra|]. cbn. auto.
  - intros n t t' H H'. apply O' in H. apply O' in H'. destruct H as [_ ->], H' as [_ ->].
    cbn [curve_target t_x t_y tx]. exact (curve_step c p x y v n).
  - destruct F as (fx & fv & fa & fj & ex & M & FE).
    assert (DD := fun u => head_derivs fx fv fa v u (mo_x _ _ _ _ _ _ M u) (mo_v _ _ _ _ _ _ M u)).
    exists fx, (fun u => v * cos (fx u)), (fun u => v * sin (fx u)),
      (fun u => - v * sin (fx u) * fv u), (fun u => v * cos (fx u) * fv u).
    split.
    { intros u. destruct (DD u) as (A1 & A2 & _). auto. }
    intros n t H. apply O' in H. destruct H as [L ->].
    assert (L0 : 0 <= INR n * p <= T) by (split; [apply Rmult_le_pos; [apply pos_INR | lra] | exact L]).
    destruct (FE _ L0) as (F1 & F2 & F3 & _). cbv zeta.
    destruct (DD (INR n * p)) as (_ & _ & A3 & A4).
    unfold curve_target. cbn [t_x t_y t_theta tx tv ta tj]. rewrite F1, F2, F3.
    split; [reflexivity|]. split; [reflexivity|]. split; [apply (mo_x _ _ _ _ _ _ M)|].
    do 4 (split; [reflexivity|]). split; [exact A3 | exact A4].
Qed.

(** ** Mirror images *)

Lemma bisim {K : ops} {A B} (na : iterator A) (nb : iterator B) (m : target -> target)
    (R : A -> B -> Prop) :
  (forall a b, R a b -> fst (nb b) = option_map m (fst (na a)) /\ R (snd (na a)) (snd (nb b))) ->
  forall n a b, R a b -> output nb n b = option_map m (output na n a).
Proof.
  intros H. induction n as [|n IH]; intros a b r.
  - unfold output. cbn. apply H, r.
  - rewrite !output_S. apply IH. apply H, r.
Qed.

Definition opt_rel {A B} (R : A -> B -> Prop) (a : option A) (b : option B) : Prop :=
  match a, b with Some a, Some b => R a b | None, None => True | _, _ => False end.

Lemma chain_bisim {K : ops} {A B A' B'} (na : iterator A) (nb : iterator B)
    (na' : iterator A') (nb' : iterator B') (m : target -> target)
    (RA : A -> A' -> Prop) (RB : B -> B' -> Prop) :
  (forall a b, RA a b -> fst (na' b) = option_map m (fst (na a)) /\ RA (snd (na a)) (snd (na' b))) ->
  (forall a b, RB a b -> fst (nb' b) = option_map m (fst (nb a)) /\ RB (snd (nb a)) (snd (nb' b))) ->
  forall s s', (opt_rel RA (fst s) (fst s') /\ RB (snd s) (snd s')) ->
    fst (chain_next na' nb' s') = option_map m (fst (chain_next na nb s)) /\
    opt_rel RA (fst (snd (chain_next na nb s))) (fst (snd (chain_next na' nb' s'))) /\
    RB (snd (snd (chain_next na nb s))) (snd (snd (chain_next na' nb' s'))).
Proof.
  intros HA HB [oa b] [oa' b'] [r rb]. cbn [fst snd] in *.
  destruct (HB b b' rb) as [EB RB'].
  destruct oa as [a|], oa' as [a'|]; cbn in r; try contradiction; cbn [chain_next].
  - destruct (HA a a' r) as [EA RA'].
    destruct (na a) as [[t|] a1], (na' a') as [[t'|] a1']; cbn in *; try discriminate.
    + injection EA as ->. auto.
    + destruct (nb b), (nb' b'). cbn in *. auto.
  - destruct (nb b), (nb' b'). cbn in *. auto.
Qed.

Definition neg_calc (c c' : @overall Rops) : Prop :=
  forall t, calculate c' t = neg4 (calculate c t).

Lemma mirror_straight (a b : @straight_traj Rops) : a = b ->
  fst (straight_next b) = option_map mirror (fst (straight_next a)) /\
  snd (straight_next a) = snd (straight_next b).
Proof.
  intros <-. split; [|reflexivity]. unfold straight_next.
  destruct (_ >? _)%num; [reflexivity|]. cbn [fst option_map]. unfold mirror. rewrite def_R.
  cbn [t_x t_y t_theta]. unfold neg4. cbn [tx tv ta tj]. rewrite !Ropp_0. reflexivity.
Qed.

Definition flip (p : @pose Rops) : @pose Rops := @Pose Rops (p_x p) (- p_y p)%R (- p_theta p)%R.

Lemma mirror_shift (p : @pose Rops) (t : @target Rops) : shift (flip p) (mirror t) = mirror (shift p t).
Proof.
  unfold shift, mirror, flip, neg4. cbn [t_x t_y t_theta tx tv ta tj p_x p_y p_theta]. rops.
  rewrite cos_neg, sin_neg.
  apply target_ext; apply axis_ext; cbn [t_x t_y t_theta tx tv ta tj]; change (@num Rops) with R; ring.
Qed.

Lemma mirror_shifted (p : @pose Rops) (a b : @straight_traj Rops) : a = b ->
  fst (shift_next (flip p) straight_next b) = option_map mirror (fst (shift_next p straight_next a)) /\
  snd (shift_next p straight_next a) = snd (shift_next (flip p) straight_next b).
Proof.
  intros H. destruct (mirror_straight a b H) as [E S]. unfold shift_next.
  destruct (straight_next a) as [o s], (straight_next b) as [o' s']. cbn [fst snd] in *.
  split; [|exact S]. subst o'. destruct o as [t|]; [|reflexivity]. cbn. f_equal. apply mirror_shift.
Qed.

Definition mirror_curve_rel (a b : @curve_traj Rops) : Prop :=
  neg_calc (cu_calc a) (cu_calc b) /\ cu_t b = cu_t a /\ cu_t_end b = cu_t_end a /\
  cu_period b = cu_period a /\ cu_x b = cu_x a /\ cu_v b = cu_v a /\ (cu_y b = - cu_y a :> R).

Lemma mirror_curve (a b : @curve_traj Rops) : mirror_curve_rel a b ->
  fst (curve_next b) = option_map mirror (fst (curve_next a)) /\
  mirror_curve_rel (snd (curve_next a)) (snd (curve_next b)).
Proof.
  intros (N & Et & ET & Ep & Ex & Ev & Ey). destruct a as [c t T p x y v], b as [c' t' T' p' x' y' v'].
  cbn [cu_calc cu_t cu_t_end cu_period cu_x cu_y cu_v] in *. subst t' T' p' x' v' y'.
  unfold curve_next. cbn [cu_calc cu_t cu_t_end cu_period cu_x cu_y cu_v].
  destruct (_ >? _)%num; cbn [fst snd option_map]; [repeat split; auto|].
  rewrite !N. unfold neg4. cbn [tx tv ta tj]. rops.
  rewrite !cos_neg, !sin_neg. split.
  - f_equal. unfold mirror, neg4. cbn [t_x t_y t_theta tx tv ta tj].
    apply target_ext; try reflexivity; apply axis_ext; cbn [t_x t_y t_theta tx tv ta tj];
      change (@num Rops) with R; try reflexivity. all: rewrite ?cos_neg; ring.
  - unfold mirror_curve_rel. cbn [cu_calc cu_t cu_t_end cu_period cu_x cu_y cu_v].
    split; [exact N|]. do 5 (split; [reflexivity|]). change (@num Rops) with R. field.
Qed.

Lemma curve_gen_mirror (p x d v v_ref dth ddth dddth : R) : d <> 0 ->
  mirror_curve_rel (@generate_curve Rops p x n0 n0 d v v_ref dth ddth dddth)
    (@generate_curve Rops p x n0 n0 (- d)%R v v_ref dth ddth dddth).
Proof.
  intros Hd. unfold generate_curve, generate. rewrite !n0_R.
  set (g := Generator _ _ _). destruct (@generate_tv Rops g 0%R d 0%R 0%R) as [[c T] vt] eqn:E.
  destruct (generate_tv_mirror g d 0 0 Hd c T vt E) as (c' & E' & N). rewrite E'.
  unfold mirror_curve_rel. cbn [cu_calc cu_t cu_t_end cu_period cu_x cu_y cu_v].
  split; [exact N|]. do 5 (split; [reflexivity|]). rops. lra.
Qed.

Definition slalom_rel (s s' : @slalom_state Rops) : Prop :=
  opt_rel (fun a a' => opt_rel eq (fst a) (fst a') /\ mirror_curve_rel (snd a) (snd a')) (fst s) (fst s')
  /\ snd s = snd s'.

Lemma slalom_mirror (q : @slalom_params Rops) (s s' : @slalom_state Rops) n : slalom_rel s s' ->
  output (slalom_next (flip_params q)) n s' = option_map mirror (output (slalom_next q) n s).
Proof.
  revert n s s'. apply (bisim (slalom_next q) (slalom_next (flip_params q)) mirror slalom_rel).
  intros s s' r. unfold slalom_next.
  change (curve_end (flip_params q)) with (flip (curve_end q)).
  apply (chain_bisim (chain_next straight_next curve_next) (shift_next (curve_end q) straight_next)
    (chain_next straight_next curve_next) (shift_next (flip (curve_end q)) straight_next) mirror
    (fun a a' => opt_rel eq (fst a) (fst a') /\ mirror_curve_rel (snd a) (snd a')) eq).
  - intros a a' ra. apply (chain_bisim straight_next curve_next straight_next curve_next mirror eq mirror_curve_rel
      mirror_straight mirror_curve). exact ra.
  - apply mirror_shifted.
  - exact r.
Qed.

Lemma constant_slalom_mirror (q : @slalom_params Rops) (p v : R) n : sl_theta q <> 0 ->
  output (slalom_next (flip_params q)) n (@generate_constant_slalom Rops p (flip_params q) v) =
  option_map mirror (output (slalom_next q) n (@generate_constant_slalom Rops p q v)).
Proof.
  intros Ht. apply slalom_mirror. split; [|reflexivity]. cbn [fst generate_constant_slalom opt_rel].
  split; [reflexivity|]. cbn [snd]. apply (curve_gen_mirror p), Ht.
Qed.

Lemma tv_slalom_mirror (g : @straight_generator Rops) (q : @slalom_params Rops) (v0 v1 v2 : R) n :
  sl_theta q <> 0 ->
  let l := @generate_slalom_tv Rops g q v0 v1 v2 in
  let r := @generate_slalom_tv Rops g (flip_params q) v0 v1 v2 in
  snd r = snd l /\
  output (slalom_next (flip_params q)) n (fst r) = option_map mirror (output (slalom_next q) n (fst l)).
Proof.
  intros Ht. cbv zeta. unfold generate_slalom_tv. cbn [l_start l_end v_ref dtheta ddtheta dddtheta flip_params sl_theta].
  destruct (@straight_generate_tv Rops g (l_start q) v0 v1) as [a m].
  destruct (@straight_generate_tv Rops g (l_end q) m v2) as [b e]. split; [reflexivity|].
  apply slalom_mirror. split; [|reflexivity]. cbn [fst opt_rel].
  split; [reflexivity|]. cbn [snd]. apply (curve_gen_mirror (sg_period g)), Ht.
Qed.

Lemma parameters_mirror (w off : R) k :
  @parameters Rops w off k SRight = flip_params (@parameters Rops w off k SLeft) /\
  0 < sl_theta (@parameters Rops w off k SLeft).
Proof.
  assert (D : forall z, (0 < z)%Z -> 0 < @degree Rops (@lit Rops z 1)).
  { intros z Hz. unfold degree. rops. pose proof PI_RGT_0. apply IZR_lt in Hz.
    apply Rdiv_lt_0_compat; [|lra]. apply Rmult_lt_0_compat; lra. }
  destruct k as [k|]; [destruct k|];
    try (split; [reflexivity | unfold parameters, create_params; cbn [sl_theta]; apply D; lia]).
  unfold parameters, search90_params. destruct (_ <=? _)%num;
    (split; [reflexivity | unfold create_params; cbn [sl_theta]; apply D; lia]).
Qed.
