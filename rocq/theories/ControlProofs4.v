From Coq Require Import ZArith Reals List Bool Lra Lia Psatz.
From Flocq Require Import Core.
From Verif Require Import Base Num ControlModel ControlSpec ControlProofs ControlProofs2 ControlProofs3.
Import ListNotations.
Open Scope R_scope.

(** ** Pillars *)

Lemma trunc_mm (x : R) : 0 <= x -> 1000 * x < 4294967295 ->
  @to_int Rops 0 USIZE_MAX (x / (1 / 1000))%R = Zfloor (1000 * x).
Proof.
  intros H0 H1. rops. unfold Rto_int.
  replace (x / (1 / 1000)) with (1000 * x) by field.
  rewrite Ztrunc_floor by lra. unfold clampZ, USIZE_MAX.
  assert (0 <= Zfloor (1000 * x))%Z by (apply Zfloor_lub; simpl; lra).
  assert (Zfloor (1000 * x) < 4294967295)%Z.
  { apply lt_IZR. pose proof (Zfloor_lb (1000 * x)). lra. }
  lia.
Qed.

Lemma remquof_cell (m i : Z) (x : R) :
  (1 <= m <= 10000000)%Z -> (0 <= i <= 127)%Z ->
  IZR i * (IZR m / 1000) <= x < (IZR i + 1) * (IZR m / 1000) ->
  @remquof Rops x (IZR m / 1000)%R = Ret (i, x - IZR m / 1000 * IZR i).
Proof.
  intros M I X. unfold remquof.
  assert (M' : 1 <= IZR m <= 10000000) by (split; apply IZR_le; lia).
  assert (I' : 0 <= IZR i <= 127) by (split; apply IZR_le; lia).
  assert (X0 : 0 <= x) by (assert (0 <= IZR i * (IZR m / 1000)) by nra; lra).
  assert (X1 : 1000 * x < 4294967295).
  { assert ((IZR i + 1) * (IZR m / 1000) <= 128 * 10000) by nra. lra. }
  change (@lit Rops 1 1000) with (1 / 1000).
  change (@div Rops x (1 / 1000)%R) with (x / (1 / 1000)).
  change (@div Rops (IZR m / 1000)%R (1 / 1000)%R) with ((IZR m / 1000) / (1 / 1000)).
  rewrite !trunc_mm by lra.
  replace (1000 * (IZR m / 1000)) with (IZR m) by field. rewrite Zfloor_IZR.
  destruct (Z.eqb_spec m 0) as [E|E]; [lia|].
  assert (D : (Zfloor (1000 * x) / m = i)%Z).
  { symmetry. apply (Z.div_unique _ m i (Zfloor (1000 * x) - m * i)); [left|lia].
    assert (m * i <= Zfloor (1000 * x))%Z.
    { apply Zfloor_lub. rewrite mult_IZR. nra. }
    assert (Zfloor (1000 * x) < m * i + m)%Z.
    { apply lt_IZR. rewrite plus_IZR, mult_IZR. pose proof (Zfloor_lb (1000 * x)). nra. }
    lia. }
  cbv zeta. rewrite D. rops. do 2 f_equal. unfold usize_as_i8, as_i8, as_u8.
  rewrite Z.mod_small by lia. destruct (Z.ltb_spec i 128); lia.
Qed.

(** the six pillars, in units of the square width. *)
Definition six (i j : Z) (more : list (Z * Z)) (w : R) : list (R * R) :=
  map (fun p => (IZR (fst p) * w, IZR (snd p) * w))
    ([(i + 1, j + 1); (i + 2, j + 1); (i + 1, j + 2); (i + 2, j + 2)] ++ more)%Z.

Lemma pillars_ok (c : @supervisory Rops) (s : @state Rops) (m i j : Z) :
  square_width c = IZR m / 1000 -> (1 <= m <= 10000000)%Z ->
  (0 <= i <= 124)%Z -> (0 <= j <= 124)%Z ->
  in_cell (IZR m / 1000) i j (sx (s_x s)) (sx (s_y s)) ->
  exists more, In more
    [[(i + 1, j + 3); (i + 2, j + 3)]; [(i, j + 1); (i, j + 2)];
     [(i + 3, j + 1); (i + 3, j + 2)]; [(i + 1, j); (i + 2, j)]]%Z /\
    nearest_pillars c s = Ret (six i j more (IZR m / 1000)).
Proof.
  intros W M I J [X Y]. unfold nearest_pillars. rewrite W.
  rewrite (remquof_cell m i _ M) by (try lia; exact X).
  rewrite (remquof_cell m j _ M) by (try lia; exact Y).
  cbn [bind]. unfold pillar_cells.
  rewrite (chk_i8_ok (i + 1)), (chk_i8_ok (j + 1)) by lia. cbn [bind].
  match goal with |- context [match ?a with true => match ?b with _ => _ end | _ => _ end] =>
    destruct a; destruct b end.
  all: rewrite chk_i8_ok by lia; cbn [bind app pillar_points].
  all: repeat (rewrite chk_i8_ok by lia; cbn [bind]).
  1: exists [(i + 1, j + 3); (i + 2, j + 3)]%Z.
  2: exists [(i, j + 1); (i, j + 2)]%Z.
  3: exists [(i + 3, j + 1); (i + 3, j + 2)]%Z.
  4: exists [(i + 1, j); (i + 2, j)]%Z.
  all: split; [cbn [In]; auto|unfold six; cbn [map app fst snd]; rops].
  all: repeat match goal with
    | |- context [(?a + 1 + 1)%Z] => replace (a + 1 + 1)%Z with (a + 2)%Z by ring
    | |- context [(?a + 2 + 1)%Z] => replace (a + 2 + 1)%Z with (a + 3)%Z by ring
    | |- context [(?a - 1 + 1)%Z] => replace (a - 1 + 1)%Z with a by ring
    end; reflexivity.
Qed.

Lemma six_upper i j more w : In ((IZR i + 1) * w, (IZR j + 1) * w) (six i j more w).
Proof. left. cbn [fst snd]. rewrite !plus_IZR. reflexivity. Qed.

Lemma six_lower i j more w : 0 < w ->
  In more
    [[(i + 1, j + 3); (i + 2, j + 3)]; [(i, j + 1); (i, j + 2)];
     [(i + 3, j + 1); (i + 3, j + 2)]; [(i + 1, j); (i + 2, j)]]%Z ->
  ~ In (IZR i * w, IZR j * w) (six i j more w).
Proof.
  intros Hw H K.
  assert (F : forall a b, In (a, b)
     ([(i + 1, j + 1); (i + 2, j + 1); (i + 1, j + 2); (i + 2, j + 2)] ++ more)%Z ->
     a <> i \/ b <> j).
  { intros a b G. cbn [In] in H.
    destruct H as [<-|[<-|[<-|[<-|[]]]]]; cbn [app In] in G;
      repeat (destruct G as [G|G]; [injection G as <- <-; lia|]); destruct G. }
  unfold six in K. apply in_map_iff in K. destruct K as ([a b] & E & G). cbn [fst snd] in E.
  injection E as E1 E2. apply Rmult_eq_reg_r in E1; [|lra]. apply Rmult_eq_reg_r in E2; [|lra].
  apply eq_IZR in E1. apply eq_IZR in E2. destruct (F _ _ G); contradiction.
Qed.

Lemma six_off i j more w x y : 0 < w -> in_cell w i j x y ->
  In more
    [[(i + 1, j + 3); (i + 2, j + 3)]; [(i, j + 1); (i, j + 2)];
     [(i + 3, j + 1); (i + 3, j + 2)]; [(i + 1, j); (i + 2, j)]]%Z ->
  forall p, In p (six i j more w) -> x <> fst p \/ y <> snd p.
Proof.
  intros Hw [X Y] H p K.
  assert (F : forall a b, In (a, b)
     ([(i + 1, j + 1); (i + 2, j + 1); (i + 1, j + 2); (i + 2, j + 2)] ++ more)%Z ->
     (i + 1 <= a \/ j + 1 <= b)%Z).
  { intros a b G. cbn [In] in H.
    destruct H as [<-|[<-|[<-|[<-|[]]]]]; cbn [app In] in G;
      repeat (destruct G as [G|G]; [injection G as <- <-; lia|]); destruct G. }
  unfold six in K. apply in_map_iff in K. destruct K as ([a b] & <- & G). cbn [fst snd].
  destruct (F _ _ G) as [L|L]; apply IZR_le in L; rewrite plus_IZR in L; [left|right]; nra.
Qed.

Lemma slack_is_barrier (c : @supervisory Rops) (i : @tracking_input Rops) (s : @state Rops) (px py : R) :
  slackR i (constraint_of c s (px, py)) =
  barrier (margin c) (avoidance_distance c) px py s (u_x i) (u_y i).
Proof.
  unfold slackR, slack, constraint_of, barrier, clearance, sqdist. rops. field.
Qed.

(** ** The constraint is a second order barrier condition *)

Section Barrier.
  Variables (c : @supervisory Rops) (px py : R).
  Variables (x y vx vy ux uy : R -> R).
  Hypothesis Dx : forall t, derivable_pt_lim x t (vx t).
  Hypothesis Dy : forall t, derivable_pt_lim y t (vy t).
  Hypothesis Dvx : forall t, derivable_pt_lim vx t (ux t).
  Hypothesis Dvy : forall t, derivable_pt_lim vy t (uy t).

  Definition hh (t : R) : R := clearance (avoidance_distance c) px py (x t) (y t).
  Definition hd (t : R) : R := 2 * ((x t - px) * vx t + (y t - py) * vy t).
  Definition hdd (t : R) : R :=
    2 * (vx t * vx t + vy t * vy t) + 2 * ((x t - px) * ux t + (y t - py) * uy t).

  Lemma D_sub f f' a t : derivable_pt_lim f t f' -> derivable_pt_lim (fun s => f s - a) t f'.
  Proof.
    intros H. replace f' with (f' - 0) by ring.
    apply (derivable_pt_lim_minus f (fun _ => a)); [exact H|apply derivable_pt_lim_const].
  Qed.

  Lemma D_prod f g f' g' t : derivable_pt_lim f t f' -> derivable_pt_lim g t g' ->
    derivable_pt_lim (fun s => f s * g s) t (f' * g t + f t * g').
  Proof. intros F G. apply (derivable_pt_lim_mult f g); assumption. Qed.

  Lemma D_sum f g f' g' t : derivable_pt_lim f t f' -> derivable_pt_lim g t g' ->
    derivable_pt_lim (fun s => f s + g s) t (f' + g').
  Proof. intros F G. apply (derivable_pt_lim_plus f g); assumption. Qed.

  Lemma D_eq f a b t : derivable_pt_lim f t a -> a = b -> derivable_pt_lim f t b.
  Proof. intros H <-. exact H. Qed.

  Lemma D_hh t : derivable_pt_lim hh t (hd t).
  Proof.
    unfold hh, clearance, sqdist. eapply D_eq.
    - apply (D_sub (fun s => (x s - px) * (x s - px) + (y s - py) * (y s - py))).
      apply D_sum; apply D_prod; apply D_sub; first [apply Dx|apply Dy].
    - unfold hd. ring.
  Qed.

  Lemma D_hd t : derivable_pt_lim hd t (hdd t).
  Proof.
    unfold hd. eapply D_eq.
    - apply (D_prod (fun _ => 2)); [apply derivable_pt_lim_const|].
      apply D_sum; apply D_prod; try (apply D_sub); first [apply Dx|apply Dy|apply Dvx|apply Dvy].
    - unfold hdd. ring.
  Qed.

  (** f' + m f >= 0 keeps f non-negative. *)
  Lemma gronwall f f' m t0 t1 :
    (forall t, derivable_pt_lim f t (f' t)) ->
    (forall t, t0 <= t <= t1 -> 0 <= f' t + m * f t) ->
    0 <= f t0 -> t0 <= t1 -> 0 <= f t1.
  Proof.
    intros D H F0 L.
    destruct (Rle_lt_or_eq_dec _ _ L) as [L'|<-]; [|exact F0].
    set (g := fun t => exp (m * t) * f t).
    set (g' := fun t => exp (m * t) * (f' t + m * f t)).
    assert (Dg : forall t, derivable_pt_lim g t (g' t)).
    { intros t. unfold g, g'. eapply D_eq.
      - apply (D_prod (fun t => exp (m * t)) f); [|apply D].
        apply (derivable_pt_lim_comp (fun t => m * t) exp); [|apply derivable_pt_lim_exp].
        apply (D_prod (fun _ => m) (fun t => t)); [apply derivable_pt_lim_const|apply derivable_pt_lim_id].
      - ring. }
    destruct (MVT_cor2 g g' t0 t1 L' (fun t _ => Dg t)) as (z & E & Z).
    assert (0 <= g' z).
    { unfold g'. apply Rmult_le_pos; [left; apply exp_pos|]. apply H. lra. }
    assert (0 <= g t0) by (unfold g; apply Rmult_le_pos; [left; apply exp_pos|exact F0]).
    assert (0 <= g t1) by nra.
    unfold g in *. pose proof (exp_pos (m * t1)).
    destruct (Rlt_or_le (f t1) 0); [nra|assumption].
  Qed.

  Lemma barrier_safe t0 t1 :
    (forall t, t0 <= t <= t1 -> 0 <= hdd t + 2 * margin c * hd t + margin c * margin c * hh t) ->
    0 <= hh t0 -> 0 <= hd t0 + margin c * hh t0 -> t0 <= t1 -> 0 <= hh t1.
  Proof.
    intros S H0 G0 L.
    assert (G : forall t, t0 <= t <= t1 -> 0 <= hd t + margin c * hh t).
    { intros t Ht.
      apply (gronwall (fun t => hd t + margin c * hh t)
               (fun t => hdd t + margin c * hd t) (margin c) t0 t).
      - intros u. eapply D_eq; [apply D_sum; [apply D_hd|apply (D_prod (fun _ => margin c));
          [apply derivable_pt_lim_const|apply D_hh]]|ring].
      - intros u Hu. specialize (S u ltac:(lra)). lra.
      - exact G0.
      - lra. }
    apply (gronwall hh hd (margin c) t0 t1); [apply D_hh|exact G|exact H0|exact L].
  Qed.
End Barrier.

(** ** Estimator *)

Lemma est_params (l : list (@sensor_value Rops)) : forall (e : @estimator Rops) (s : @state Rops),
  let '(e', s') := est_run (e, s) l in
  e_period e' = e_period e /\ e_alpha e' = e_alpha e /\ e_slip_const e' = e_slip_const e /\
  e_approx_th e' = e_approx_th e.
Proof.
  induction l as [|v l IH]; intros e s; [cbn; auto|].
  cbn [est_run fold_left fst snd]. destruct (estimate e s v) as [s1 e1] eqn:E.
  specialize (IH e1 s1). unfold est_run in IH. destruct (fold_left _ l (e1, s1)) as [e' s'].
  unfold estimate in E. injection E as _ <-. exact IH.
Qed.

Lemma est_heading (l : list (@sensor_value Rops)) : forall (e : @estimator Rops) (s : @state Rops),
  sx (s_theta (snd (est_run (e, s) l))) =
  sx (s_theta s) + Rsum (map angular_velocity l) * e_period e :> R.
Proof.
  induction l as [|v l IH]; intros e s; [cbn [est_run fold_left snd map Rsum]; rops; lra|].
  cbn [est_run fold_left fst snd map Rsum]. destruct (estimate e s v) as [s1 e1] eqn:E.
  fold (est_run (e1, s1) l). rewrite IH. unfold estimate in E. injection E as <- <-.
  cbn [s_theta sx e_period]. rops. ring.
Qed.

Lemma est_speed (l : list (@sensor_value Rops)) : forall (e : @estimator Rops) (s : @state Rops),
  e_period e <> 0 ->
  e_trans_vel (fst (est_run (e, s) l)) = filtered (e_alpha e) (e_period e) (e_trans_vel e) l :> R.
Proof.
  induction l as [|v l IH]; intros e s H; [reflexivity|].
  cbn [est_run fold_left fst snd filtered]. destruct (estimate e s v) as [s1 e1] eqn:E.
  fold (est_run (e1, s1) l). unfold estimate in E. injection E as <- <-.
  rewrite IH by (cbn [e_period]; exact H). cbn [e_period e_alpha e_trans_vel].
  f_equal. unfold filter_step. rops. field. exact H.
Qed.

Lemma est_last (l : list (@sensor_value Rops)) v (e : @estimator Rops) (s : @state Rops) :
  let '(e', s') := est_run (e, s) (l ++ [v]) in
  exists phi : R,
    sv (s_x s') = e_trans_vel e' * cos phi /\ sv (s_y s') = e_trans_vel e' * sin phi /\
    sa (s_x s') = translational_acceleration v * cos phi /\
    sa (s_y s') = translational_acceleration v * sin phi /\
    phi = sx (s_theta s') - e_slip_angle e' - angular_velocity v * e_period e / 2 /\
    sv (s_theta s') = angular_velocity v.
Proof.
  unfold est_run. rewrite fold_left_app. fold (est_run (e, s) l).
  pose proof (est_params l e s) as P.
  destruct (est_run (e, s) l) as [e1 s1]. destruct P as (P & _).
  cbn [fold_left fst snd]. unfold estimate. cbn [s_x s_y s_theta sv sa sx e_trans_vel e_slip_angle].
  eexists. do 4 (split; [reflexivity|]). split; [|reflexivity]. rewrite P. rops.
  match goal with |- _ - ?a + _ = _ => set (slip := a) end. clearbody slip. field.
Qed.

Lemma est_acceleration (l : list (@sensor_value Rops)) v w (e : @estimator Rops) (s : @state Rops) :
  let '(_, s') := est_run (e, s) (l ++ [w; v]) in
  sa (s_theta s') = (angular_velocity v - angular_velocity w) / e_period e :> R.
Proof.
  unfold est_run. rewrite fold_left_app. fold (est_run (e, s) l).
  pose proof (est_params l e s) as P.
  destruct (est_run (e, s) l) as [e1 s1]. destruct P as (P & _).
  cbn [fold_left fst snd]. unfold estimate. cbn [s_x s_y s_theta sv sa sx e_period].
  rewrite P. rops. reflexivity.
Qed.

Lemma filtered_const (alpha T u : R) (l : list (@sensor_value Rops)) : forall v : R,
  T <> 0 ->
  (forall s, In s l -> translational_acceleration s = 0 /\
     (left_distance s + right_distance s) / 2 = u * T) ->
  filtered alpha T v l - u = alpha ^ length l * (v - u).
Proof.
  induction l as [|s l IH]; intros v HT H; [cbn; ring|].
  cbn [filtered length pow]. rewrite IH; [|exact HT|intros s' I; apply H; right; exact I].
  destruct (H s (or_introl eq_refl)) as [A B].
  assert (F : filter_step alpha T v s = alpha * v + (1 - alpha) * u).
  { unfold filter_step. rewrite A.
    replace ((left_distance s + right_distance s) / (2 * T))
      with ((left_distance s + right_distance s) / 2 / T) by (field; exact HT).
    rewrite B. field. exact HT. }
  rewrite F. ring.
Qed.

(** one step: the end point of the circular arc, plus a sideways slip of tan(slip) times the
    chord. *)
Lemma est_arc (e : @estimator Rops) (s : @state Rops) (v : @sensor_value Rops) :
  e_approx_th e <= Rabs (angular_velocity v) -> 0 < e_approx_th e ->
  let '(s', e') := estimate e s v in
  cos (e_slip_angle e') <> 0 ->
  let th := sx (s_theta s) in let th' := sx (s_theta s') in
  let w := angular_velocity v in let u := e_trans_vel e' in
  let X := u / w * (sin th' - sin th) in let Y := - (u / w * (cos th' - cos th)) in
  th' = th + w * e_period e /\
  sx (s_x s') = sx (s_x s) + X + tan (e_slip_angle e') * Y /\
  sx (s_y s') = sx (s_y s) + Y - tan (e_slip_angle e') * X.
Proof.
  intros A TH. unfold estimate. cbv zeta. cbn [e_slip_angle e_trans_vel s_x s_y s_theta sx].
  match goal with |- cos ?a <> 0 -> _ => set (slip := a) end. intros S.
  clearbody slip. rops.
  destruct (Rltb_spec (Rabs (angular_velocity v)) (e_approx_th e)) as [B|B]; [exfalso; lra|].
  assert (W : angular_velocity v <> 0). { intros E. rewrite E, Rabs_R0 in A. lra. }
  set (w := angular_velocity v) in *. set (th := sx (s_theta s)).
  match goal with |- context [2 / 1 * ?a * _] => set (u := a) end. clearbody u.
  set (d := w * e_period e / (2 / 1)). unfold tan.
  split; [reflexivity|].
  replace (th + w * e_period e) with ((th + d) + d) by (unfold d; field).
  replace (th - slip + d) with ((th + d) - slip) by ring.
  set (m := th + d). replace th with (m - d) by (unfold m; ring).
  rewrite sin_plus, !sin_minus, cos_plus, !cos_minus.
  set (px := sx (s_x s)). set (py := sx (s_y s)). clearbody px py.
  split; field; split; assumption.
Qed.

(** below the threshold the chord is the straight distance. *)
Lemma est_straight (e : @estimator Rops) (s : @state Rops) (v : @sensor_value Rops) :
  Rabs (angular_velocity v) < e_approx_th e ->
  let '(s', e') := estimate e s v in
  cos (e_slip_angle e') <> 0 ->
  let mid := (sx (s_theta s) + sx (s_theta s')) / 2 in
  let X := e_trans_vel e' * e_period e * cos mid in
  let Y := e_trans_vel e' * e_period e * sin mid in
  sx (s_x s') = sx (s_x s) + X + tan (e_slip_angle e') * Y /\
  sx (s_y s') = sx (s_y s) + Y - tan (e_slip_angle e') * X.
Proof.
  intros A. unfold estimate. cbv zeta. cbn [e_slip_angle e_trans_vel s_x s_y s_theta sx].
  match goal with |- cos ?a <> 0 -> _ => set (slip := a) end. intros S.
  clearbody slip. rops.
  destruct (Rltb_spec (Rabs (angular_velocity v)) (e_approx_th e)) as [B|B]; [|exfalso; lra].
  set (w := angular_velocity v) in *. set (th := sx (s_theta s)).
  match goal with |- context [?a * e_period e / cos slip] => set (u := a) end. clearbody u.
  unfold tan.
  replace (th - slip + w * e_period e / (2 / 1)) with ((th + (th + w * e_period e)) / 2 - slip) by field.
  rewrite sin_minus, cos_minus.
  set (px := sx (s_x s)). set (py := sx (s_y s)). clearbody px py.
  split; field; assumption.
Qed.

(** the slip angle stays below what the gyro alone would integrate to. *)
Lemma est_slip (e : @estimator Rops) (s : @state Rops) (v : @sensor_value Rops) :
  0 < e_period e -> 0 <= e_slip_const e ->
  let '(_, e') := estimate e s v in
  Rabs (e_slip_angle e') <= Rabs (e_slip_angle e + angular_velocity v * e_period e).
Proof.
  intros T C. unfold estimate. cbv zeta. cbn [e_slip_angle]. rops.
  match goal with |- context [Rabs (_ / (_ + _ / ?a))] => set (av := a) end.
  assert (AV : 0 <= e_slip_const e / av).
  { unfold av. set (q := e_alpha e * _ + _). destruct (Req_dec q 0) as [E|E].
    - rewrite E, Rabs_R0. unfold Rdiv. rewrite Rinv_0. lra.
    - unfold Rdiv. apply Rmult_le_pos; [exact C|]. left. apply Rinv_0_lt_compat, Rabs_pos_lt, E. }
  set (q := e_slip_const e / av) in *. clearbody q. clear av.
  set (T' := e_period e) in *. set (sl := e_slip_angle e). set (w := angular_velocity v).
  replace ((sl * (1 / 1 / T') + w) / (1 / 1 / T' + q)) with ((sl + w * T') * / (1 + q * T')).
  2:{ assert (0 <= q * T') by nra. field. split; apply Rgt_not_eq; lra. }
  rewrite Rabs_mult. rewrite <- (Rmult_1_r (Rabs (sl + w * T'))) at 2.
  apply Rmult_le_compat_l; [apply Rabs_pos|].
  assert (0 <= q * T') by nra.
  rewrite Rabs_pos_eq by (left; apply Rinv_0_lt_compat; lra).
  rewrite <- Rinv_1. apply Rinv_le_contravar; lra.
Qed.
