From Coq Require Import ZArith Reals List Bool Lra Lia Machin.
From Flocq Require Import Core.
From Verif Require Import Base Num ControlModel ControlSpec ControlProofs.
Import ListNotations.
Open Scope R_scope.

(** ** A bound on pi *)

Lemma PI_upper : PI < 31417 / 10000.
Proof.
  pose proof (PI_2_3_7_ineq 2) as [_ U].
  unfold tg_alt, PI_2_3_7_tg, Ratan_seq in U. cbn -[pow INR] in U.
  replace (INR 1) with 1 in U by reflexivity.
  replace (INR 3) with 3 in U by (cbn; ring).
  replace (INR 5) with 5 in U by (cbn; ring).
  replace (INR 7) with 7 in U by (cbn; ring).
  replace (INR 9) with 9 in U by (cbn; ring).
  lra.
Qed.

Lemma sinc_small x : x <> 0 -> Rabs x <= PI ->
  Rabs (@sinc Rops x - sin x / x) < 24 / 10000.
Proof.
  intros H0 HP. pose proof PI_upper as U.
  eapply Rle_lt_trans; [apply sinc_bound; [exact H0|lra]|].
  assert (E : x ^ 10 <= (31417 / 10000) ^ 10).
  { replace (x ^ 10) with ((Rabs x) ^ 10).
    - apply pow_incr. split; [apply Rabs_pos|lra].
    - rewrite RPow_abs. apply Rabs_pos_eq. apply (pow_Rsqr x 5) || idtac.
      replace (x ^ 10) with ((x ^ 5) * (x ^ 5)) by ring. apply Rle_0_sqr. }
  apply (Rle_lt_trans _ ((31417 / 10000) ^ 10 / 39916800)); [|lra].
  unfold Rdiv. apply Rmult_le_compat_r; [lra|]. exact E.
Qed.

(** ** Navigation and tracking *)

Lemma sincos (th : R) : sin th * sin th + cos th * cos th = 1.
Proof. pose proof (sin2_cos2 th). unfold Rsqr in *. lra. Qed.

Lemma navigate_on_target (n : @navigation Rops) (s : @state Rops) (t : @target Rops) :
  sx (s_x s) = tx (t_x t) -> sx (s_y s) = tx (t_y t) ->
  sv (s_x s) = tv (t_x t) -> sv (s_y s) = tv (t_y t) ->
  let i := navigate n s t in
  u_x i = ta (t_x t) /\ u_y i = ta (t_y t) /\
  (sa (s_x s) = ta (t_x t) -> du_x i = tj (t_x t)) /\
  (sa (s_y s) = ta (t_y t) -> du_y i = tj (t_y t)).
Proof.
  intros X Y VX VY i. unfold i, navigate. cbn [u_x u_y du_x du_y].
  rewrite X, Y, VX, VY. rops.
  repeat split; [ring|ring|intros E; rewrite E; ring|intros E; rewrite E; ring].
Qed.

Lemma navigate_errors (n : @navigation Rops) (s s' : @state Rops) (t t' : @target Rops) :
  (forall (p : @target Rops -> axis4) (q : @state Rops -> axis3),
     (p = t_x /\ q = s_x) \/ (p = t_y /\ q = s_y) ->
     tx (p t) - sx (q s) = tx (p t') - sx (q s') /\
     tv (p t) - sv (q s) = tv (p t') - sv (q s') /\
     ta (p t) - sa (q s) = ta (p t') - sa (q s') /\
     ta (p t) = ta (p t') /\ tj (p t) = tj (p t')) ->
  navigate n s t = navigate n s' t'.
Proof.
  intros H.
  destruct (H _ _ (or_introl (conj eq_refl eq_refl))) as (A1 & A2 & A3 & A4 & A5).
  destruct (H _ _ (or_intror (conj eq_refl eq_refl))) as (B1 & B2 & B3 & B4 & B5).
  unfold navigate. rops. rewrite A1, A2, A3, A4, A5, B1, B2, B3, B4, B5. reflexivity.
Qed.

(** the two branches of the tracker. *)
Definition new_xi (k : @tracker Rops) (s : @state Rops) (i : @tracking_input Rops) : R :=
  k_xi k + k_period k * (u_x i * cos (sx (s_theta s)) + u_y i * sin (sx (s_theta s))).
Definition fast (k : @tracker Rops) (s : @state Rops) (t : @target Rops)
    (i : @tracking_input Rops) : Prop :=
  let th := tx (t_theta t) in
  k_xi_threshold k < Rabs (tv (t_x t) * cos th + tv (t_y t) * sin th) /\
  k_xi_threshold k < Rabs (new_xi k s i).

Lemma fast_dec k s t i :
  {fast k s t i} + {~ fast k s t i}.
Proof.
  unfold fast.
  destruct (Rlt_dec (k_xi_threshold k)
     (Rabs (tv (t_x t) * cos (tx (t_theta t)) + tv (t_y t) * sin (tx (t_theta t)))));
  destruct (Rlt_dec (k_xi_threshold k) (Rabs (new_xi k s i))); [left|right|right|right];
    intuition.
Qed.

Lemma track_slow (k : @tracker Rops) (s : @state Rops) (t : @target Rops) (i : @tracking_input Rops) (v v' v'' : R) :
  unicycle t v v' v'' -> ~ fast k s t i ->
  sx (s_x s) = tx (t_x t) -> sx (s_y s) = tx (t_y t) -> sx (s_theta s) = tx (t_theta t) ->
  let '(r, _, _) := track k s t i in
  c_v r = v /\ c_a r = v' /\ c_omega r = tv (t_theta t) /\ c_alpha r = ta (t_theta t).
Proof.
  intros (V1 & V2 & A1 & A2 & _) NF X Y TH. unfold track. rops.
  match goal with |- context [if ?b then _ else _] => replace b with false end.
  2:{ symmetry. apply not_true_is_false. intros E. apply NF. apply andb_true_iff in E.
      destruct E as [E1 E2].
      unfold fast, new_xi.
      split; [revert E1|revert E2];
        match goal with |- Rltb ?a ?b = true -> _ => destruct (Rltb_spec a b); [auto|discriminate] end. }
  rewrite X, Y, TH, V1, V2, A1, A2.
  replace (tx (t_theta t) - tx (t_theta t)) with 0 by ring. rewrite normalize_0.
  set (th := tx (t_theta t)) in *. pose proof (sincos th) as SC.
  cbn [c_v c_a c_omega c_alpha]. rewrite cos_0.
  repeat split; [| |ring].
  - transitivity (v * (sin th * sin th + cos th * cos th)); [ring|rewrite SC; ring].
  - transitivity (v' * (sin th * sin th + cos th * cos th)); [ring|rewrite SC; ring].
Qed.

Lemma track_fast (k : @tracker Rops) (s : @state Rops) (t : @target Rops) (i : @tracking_input Rops) (v v' v'' : R) :
  unicycle t v v' v'' -> fast k s t i -> 0 <= k_xi_threshold k ->
  sx (s_theta s) = tx (t_theta t) ->
  u_x i = ta (t_x t) -> u_y i = ta (t_y t) -> du_x i = tj (t_x t) -> du_y i = tj (t_y t) ->
  k_xi k + k_period k * v' = v ->
  let '(r, _, k') := track k s t i in
  c_v r = v /\ c_a r = v' /\ c_omega r = tv (t_theta t) /\ c_alpha r = ta (t_theta t) /\
  k_xi k' = v.
Proof.
  intros (V1 & V2 & A1 & A2 & J1 & J2) F Th TH U1 U2 D1 D2 XI. unfold track. rops.
  unfold fast, new_xi in F.
  match goal with |- context [if ?b then _ else _] => replace b with true end.
  2:{ symmetry. apply andb_true_iff. destruct F as [F1 F2]. split.
      - match goal with |- Rltb ?a ?b = true => destruct (Rltb_spec a b); [auto|contradiction] end.
      - match goal with |- Rltb ?a ?b = true => destruct (Rltb_spec a b); [auto|contradiction] end. }
  destruct F as [_ F2]. cbv beta iota zeta. cbn [c_v c_a c_omega c_alpha k_xi].
  rewrite TH in *. rewrite U1, U2, D1, D2 in *. rewrite J1, J2. rewrite A1, A2 in *.
  set (th := tx (t_theta t)) in *. set (w := tv (t_theta t)) in *. set (w' := ta (t_theta t)) in *.
  pose proof (sincos th) as SC.
  set (c := cos th) in *. set (n := sin th) in *. clearbody c n.
  assert (E1 : (v' * c - v * w * n) * c + (v' * n + v * w * c) * n = v').
  { transitivity (v' * (n * n + c * c)); [ring|rewrite SC; ring]. }
  rewrite E1 in *. rewrite XI in *.
  assert (NZ : v <> 0). { intros ->. rewrite Rabs_R0 in F2. lra. }
  assert (E2 : ((v' * n + v * w * c) * c - (v' * c - v * w * n) * n) / v = w).
  { transitivity (v * w * (n * n + c * c) / v); [field; exact NZ|rewrite SC; field; exact NZ]. }
  rewrite E2. repeat split.
  assert (E3 : ((v'' - v * w * w) * c - (2 * v' * w + v * w') * n) * n -
    ((v'' - v * w * w) * n + (2 * v' * w + v * w') * c) * c = - (2 * v' * w + v * w')).
  { transitivity (- (2 * v' * w + v * w') * (n * n + c * c)); [ring|rewrite SC; ring]. }
  apply (Rmult_eq_reg_r v); [|exact NZ].
  transitivity (- (2 / 1 * v' * w + (((v'' - v * w * w) * c - (2 * v' * w + v * w') * n) * n -
    ((v'' - v * w * w) * n + (2 * v' * w + v * w') * c) * c))); [field; exact NZ|].
  rewrite E3. field.
Qed.

Lemma track_measured (k : @tracker Rops) (s : @state Rops) (t : @target Rops) (i : @tracking_input Rops) (v v' w : R) :
  sv (s_x s) = v * cos (sx (s_theta s)) -> sv (s_y s) = v * sin (sx (s_theta s)) ->
  sa (s_x s) = v' * cos (sx (s_theta s)) - w * sin (sx (s_theta s)) ->
  sa (s_y s) = v' * sin (sx (s_theta s)) + w * cos (sx (s_theta s)) ->
  let '(_, y, _) := track k s t i in
  c_v y = v /\ c_a y = v' /\ c_omega y = sv (s_theta s) /\ c_alpha y = sa (s_theta s).
Proof.
  intros V1 V2 A1 A2. unfold track. rops.
  match goal with |- context [if ?b then ?x else ?y] => destruct (if b then x else y) as [[[? ?] ?] ?] end.
  cbn [c_v c_a c_omega c_alpha]. rewrite V1, V2, A1, A2.
  set (th := sx (s_theta s)) in *. pose proof (sincos th) as SC.
  repeat split.
  - transitivity (v * (sin th * sin th + cos th * cos th)); [ring|rewrite SC; ring].
  - transitivity (v' * (sin th * sin th + cos th * cos th)); [ring|rewrite SC; ring].
Qed.

(** ** Error energy of the low speed law *)

Lemma track_slow_law (k : @tracker Rops) (s : @state Rops) (t : @target Rops) (i : @tracking_input Rops) :
  ~ fast k s t i ->
  let '(r, _, _) := track k s t i in
  let th := sx (s_theta s) in
  let thr := tx (t_theta t) in
  let vr := tv (t_x t) * cos thr + tv (t_y t) * sin thr in
  let e := @normalize_angle Rops (thr - th)%R in
  let xd := tx (t_x t) - sx (s_x s) in
  let yd := tx (t_y t) - sx (s_y s) in
  let k1 := 2 * k_zeta k * sqrt (tv (t_theta t) * tv (t_theta t) + k_b k * vr * vr) in
  c_v r = vr * cos e + k1 * (xd * cos th + yd * sin th) /\
  c_omega r = tv (t_theta t) + k_b k * vr * (- xd * sin th + yd * cos th) * @sinc Rops e + k1 * e.
Proof.
  intros NF. unfold track. rops.
  match goal with |- context [if ?b then _ else _] => replace b with false end.
  2:{ symmetry. apply not_true_is_false. intros E. apply NF. apply andb_true_iff in E.
      destruct E as [E1 E2].
      unfold fast, new_xi.
      split; [revert E1|revert E2];
        match goal with |- Rltb ?a ?b = true -> _ => destruct (Rltb_spec a b); [auto|discriminate] end. }
  cbv beta iota zeta. cbn [c_v c_omega]. replace (2 / 1) with 2 by field. split; reflexivity.
Qed.

Lemma sinc_sin x : Rabs x <= 4 -> Rabs (sin x - x * @sinc Rops x) <= Rabs x ^ 11 / 39916800.
Proof.
  intros H4. destruct (Req_dec x 0) as [->|N].
  - rewrite sin_0, Rmult_0_l, Rminus_0_r, Rabs_R0. rewrite pow_ne_zero by discriminate. lra.
  - pose proof (sinc_bound x N H4) as B.
    replace (sin x - x * @sinc Rops x) with (- (x * (@sinc Rops x - sin x / x))) by (rops; field; exact N).
    rewrite Rabs_Ropp, Rabs_mult.
    replace (Rabs x ^ 11 / 39916800) with (Rabs x * (Rabs x ^ 10 / 39916800)) by (cbn [pow]; field).
    apply Rmult_le_compat_l; [apply Rabs_pos|]. rewrite RPow_abs.
    rewrite (Rabs_pos_eq (x ^ 10)); [exact B|].
    replace (x ^ 10) with ((x * x) ^ 5) by ring. apply pow_le. nra.
Qed.

Lemma cos_sin_normalize (a : R) :
  cos (@normalize_angle Rops a) = cos a /\ sin (@normalize_angle Rops a) = sin a.
Proof.
  destruct (normalize_ok a) as [_ [k Ek]]. change (@num Rops) with R in Ek. rewrite Ek.
  replace (a + 2 * PI * IZR k) with (a + 2 * IZR k * PI) by ring.
  destruct (Z_le_gt_dec 0 k) as [H|H].
  - rewrite <- (Z2Nat.id k H), <- INR_IZR_INZ. split; [apply cos_period|apply sin_period].
  - set (b := a + 2 * IZR k * PI).
    assert (B : a = b + 2 * INR (Z.to_nat (- k)) * PI).
    { rewrite INR_IZR_INZ, Z2Nat.id by lia. rewrite opp_IZR. unfold b. ring. }
    rewrite B, cos_period, sin_period. auto.
Qed.

Lemma track_energy (k : @tracker Rops) (s : @state Rops) (t : @target Rops)
    (i : @tracking_input Rops) (v v' v'' : R) (x y X Y E : R -> R) (u : R) :
  unicycle t v v' v'' -> ~ fast k s t i -> 0 <= k_b k ->
  let '(r, _, _) := track k s t i in
  let th := sx (s_theta s) in
  let thr := tx (t_theta t) in
  x u = sx (s_x s) -> y u = sx (s_y s) -> X u = tx (t_x t) -> Y u = tx (t_y t) ->
  E u = @normalize_angle Rops (thr - th)%R ->
  derivable_pt_lim x u (c_v r * cos th) -> derivable_pt_lim y u (c_v r * sin th) ->
  derivable_pt_lim X u (v * cos thr) -> derivable_pt_lim Y u (v * sin thr) ->
  derivable_pt_lim E u (tv (t_theta t) - c_omega r) ->
  let along := (X u - x u) * cos th + (Y u - y u) * sin th in
  let across := - (X u - x u) * sin th + (Y u - y u) * cos th in
  let k1 := 2 * k_zeta k * sqrt (tv (t_theta t) * tv (t_theta t) + k_b k * v * v) in
  exists D,
    derivable_pt_lim (fun w => k_b k / 2 * sqdist (X w) (Y w) (x w) (y w) + E w * E w / 2) u D /\
    D <= - k1 * (k_b k * (along * along) + E u * E u)
         + k_b k * Rabs v * Rabs across * (Rabs (E u) ^ 11 / 39916800).
Proof.
  intros U NF Hb. pose proof (track_slow_law k s t i NF) as L.
  destruct (track k s t i) as [[r yy] k']. cbv zeta in L |- *.
  destruct U as (U1 & U2 & _). rewrite U1, U2 in L.
  change (@num Rops) with R in *.
  set (th := sx (s_theta s)) in *. set (thr := tx (t_theta t)) in *.
  intros Ex Ey EX EY EE Dx Dy DX DY DE.
  assert (Hv : v * cos thr * cos thr + v * sin thr * sin thr = v).
  { pose proof (sin2_cos2 thr) as SC. unfold Rsqr in SC.
    transitivity (v * (sin thr * sin thr + cos thr * cos thr)); [ring|rewrite SC; ring]. }
  rewrite Hv in L. rewrite <- Ex, <- Ey, <- EX, <- EY, <- EE in L.
  destruct L as [Lv Lw].
  destruct (cos_sin_normalize (thr - th)) as [NC NS]. rewrite <- EE in NC, NS.
  rewrite cos_minus in NC. rewrite sin_minus in NS.
  set (k1 := 2 * k_zeta k * sqrt (tv (t_theta t) * tv (t_theta t) + k_b k * v * v)) in *.
  set (w := tv (t_theta t)) in *. set (b := k_b k) in *. set (c := c_v r) in *. set (om := c_omega r) in *.
  exists (b / 2 * (2 * ((X u - x u) * (v * cos thr - c * cos th)) + 2 * ((Y u - y u) * (v * sin thr - c * sin th)))
          + E u * (w - om)).
  split.
  - unfold sqdist.
    pose proof (derivable_pt_lim_minus _ _ _ _ _ DX Dx) as D1.
    pose proof (derivable_pt_lim_minus _ _ _ _ _ DY Dy) as D2.
    pose proof (derivable_pt_lim_mult _ _ _ _ _ D1 D1) as D11.
    pose proof (derivable_pt_lim_mult _ _ _ _ _ D2 D2) as D22.
    pose proof (derivable_pt_lim_scal _ (b / 2) _ _ (derivable_pt_lim_plus _ _ _ _ _ D11 D22)) as DD.
    pose proof (derivable_pt_lim_scal _ (/ 2) _ _ (derivable_pt_lim_mult _ _ _ _ _ DE DE)) as DEE.
    pose proof (derivable_pt_lim_plus _ _ _ _ _ DD DEE) as DF.
    match type of DF with derivable_pt_lim ?f _ ?l =>
      match goal with |- derivable_pt_lim ?g _ ?l' => replace l' with l end end.
    + intros eps He. destruct (DF eps He) as [d Hd]. exists d. intros h Hh Hl.
      specialize (Hd h Hh Hl).
      unfold plus_fct, mult_fct, minus_fct, mult_real_fct in Hd.
      match type of Hd with Rabs (?a / h - _) < _ => match goal with |- Rabs (?a' / h - _) < _ =>
        replace a' with a by (field) end end. exact Hd.
    + unfold minus_fct. field.
  - pose proof (sin2_cos2 th) as SC. unfold Rsqr in SC.
    set (al := (X u - x u) * cos th + (Y u - y u) * sin th) in *.
    set (ac := - (X u - x u) * sin th + (Y u - y u) * cos th) in *.
    assert (HX : X u - x u = al * cos th - ac * sin th).
    { unfold al, ac. transitivity ((X u - x u) * (sin th * sin th + cos th * cos th)); [rewrite SC; ring|ring]. }
    assert (HY : Y u - y u = al * sin th + ac * cos th).
    { unfold al, ac. transitivity ((Y u - y u) * (sin th * sin th + cos th * cos th)); [rewrite SC; ring|ring]. }
    assert (P : (X u - x u) * (v * cos thr - c * cos th) + (Y u - y u) * (v * sin thr - c * sin th)
                = v * (al * cos (E u) + ac * sin (E u)) - c * al).
    { rewrite NC, NS, HX, HY.
      transitivity (v * (al * (cos thr * cos th + sin thr * sin th) + ac * (sin thr * cos th - cos thr * sin th))
                    - c * al * (sin th * sin th + cos th * cos th)); [ring|rewrite SC; ring]. }
    apply Rle_trans with (b * (v * (al * cos (E u) + ac * sin (E u)) - c * al) + E u * (w - om)).
    { right. rewrite <- P. field. }
    rewrite Lv, Lw.
    apply Rle_trans with (- k1 * (b * (al * al) + E u * E u) + b * (v * ac * (sin (E u) - E u * @sinc Rops (E u)))).
    { right. ring. }
    apply Rplus_le_compat_l. rewrite !Rmult_assoc. apply Rmult_le_compat_l; [exact Hb|].
    eapply Rle_trans; [apply Rle_abs|]. rewrite !Rabs_mult.
    apply Rmult_le_compat_l; [apply Rabs_pos|]. apply Rmult_le_compat_l; [apply Rabs_pos|].
    apply sinc_sin. rewrite EE. destruct (normalize_ok (thr - th)) as [N _].
    pose proof PI_upper. apply Rabs_le. lra.
Qed.
