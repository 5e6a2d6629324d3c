(** Consequences for the iterators, and the witnesses of the refuted trajectory properties. *)
From Coq Require Import ZArith Reals List Bool Lra Lia Psatz.
From Flocq Require Import Core.
From Verif Require Import Base Num NumLemmas SearchModel SearchSpec SearchState RunModel RunSpec ControlModel TrajModel TrajSpec TrajProofs
  TrajProofs2 TrajProofs3 TrajProofs4 TrajProofs5 TrajProofs6 TrajProofs7.
Import ListNotations.
Open Scope R_scope.

Lemma straight_ok (g : @generator Rops) (p dist vs ve : R) : limits g -> 0 < p ->
  0 <= vs <= g_v_max g -> 0 <= ve <= g_v_max g -> room g (Rabs dist) vs ve ->
  let r := straight_generate_tv (@StraightGenerator Rops g p) dist vs ve in
  exists (f : R -> @axis4 Rops) (T vt : R), snd r = vt /\ 0 <= T /\ follows f T (g_j_max g) /\
    (forall t, 0 <= t <= T -> Rmin vs vt <= sgn dist * tv (f t) <= g_v_max g /\
       Rabs (ta (f t)) <= g_a_max g /\ Rabs (tj (f t)) <= g_j_max g) /\
    (tx (f 0) = 0 /\ tv (f 0) = sgn dist * vs /\ ta (f 0) = 0) /\
    (tx (f T) = dist /\ tv (f T) = sgn dist * vt /\ ta (f T) = 0) /\
    0 <= vt /\ (ve <= vs -> vt = ve) /\ (vs < ve -> vs <= vt <= ve) /\
    yields straight_next (fst r) (samples T p) /\
    forall n, INR n * p <= T -> output straight_next n (fst r) =
      Some (let z := @Axis4 Rops 0%R 0%R 0%R 0%R in @Target Rops (f (INR n * p)) z z).
Proof.
  intros Hg Hp Hs He Hr. cbv zeta.
  destruct (generate_tv_ok g 0 dist vs ve Hg Hs He Hr) as (c & T & vt & E & HT & HF & HB & HJ & H0 & H1 & _ & _ & Hv & Hd & Hu).
  unfold straight_generate_tv. cbn [sg_gen sg_period]. replace (@n0 Rops) with 0 by (symmetry; apply n0_R).
  rewrite E. cbn [fst snd].
  destruct (straight_sampled T p Hp (@SAccel Rops c)) as [Y O].
  exists (@calculate Rops c), T, vt. split; [reflexivity|]. split; [exact HT|]. split; [exact HF|].
  split. { intros t Ht. destruct (HB t Ht) as [A B]. split; [exact A|]. split; [exact B | apply HJ]. }
  split; [exact H0|]. split. { rewrite Rplus_0_l in H1. exact H1. }
  split; [exact Hv|]. split; [exact Hd|]. split; [exact Hu|]. split; [exact Y|].
  intros n Hn. rewrite (O n Hn). rewrite def_R. reflexivity.
Qed.

Lemma straight_mirror (g : @generator Rops) (p dist vs ve : R) : 0 < p -> dist <> 0 ->
  let r := straight_generate_tv (@StraightGenerator Rops g p) dist vs ve in
  let r' := straight_generate_tv (@StraightGenerator Rops g p) (- dist)%R vs ve in
  snd r' = snd r /\ forall n, output straight_next n (fst r') =
    option_map (fun t => @Target Rops (neg4 (t_x t)) (t_y t) (t_theta t)) (output straight_next n (fst r)).
Proof.
  intros Hp Hd. cbv zeta. unfold straight_generate_tv. cbn [sg_gen sg_period].
  replace (@n0 Rops) with 0 by (symmetry; apply n0_R).
  destruct (@generate_tv Rops g 0%R dist vs ve) as [[c T] vt] eqn:E.
  destruct (generate_tv_mirror g dist vs ve Hd c T vt E) as (c' & E' & M).
  rewrite E'. cbn [fst snd]. split; [reflexivity|]. intros n.
  destruct (straight_sampled T p Hp (@SAccel Rops c)) as [Y O].
  destruct (straight_sampled T p Hp (@SAccel Rops c')) as [Y' O'].
  destruct (Rle_dec (INR n * p) T) as [L|L].
  - rewrite (O n L), (O' n L). cbn [option_map t_x t_y t_theta straight_calculate]. rewrite (M (INR n * p)%R). reflexivity.
  - assert (N : ~ (n < Z.to_nat (Zfloor (T / p) + 1))%nat).
    { intros X. apply L. assert (Q : (Z.of_nat n <= Zfloor (T / p))%Z) by lia.
      apply Rmult_le_reg_r with (/ p); [apply Rinv_0_lt_compat, Hp|].
      rewrite Rmult_assoc, Rinv_r, Rmult_1_r by lra. rewrite INR_IZR_INZ.
      eapply Rle_trans; [apply IZR_le, Q|]. apply Zfloor_lb. }
    destruct (output straight_next n (straight_new (SAccel c) T p)) eqn:A.
    { exfalso. apply N, Y. rewrite A. discriminate. }
    destruct (output straight_next n (straight_new (SAccel c') T p)) eqn:B.
    { exfalso. apply N, Y'. rewrite B. discriminate. }
    reflexivity.
Qed.

Lemma shift_pose (p : @pose Rops) (t : @target Rops) : let t' := shift p t in
  @Pose Rops (tx (t_x t')) (tx (t_y t')) (tx (t_theta t')) =
  compose p (@Pose Rops (tx (t_x t)) (tx (t_y t)) (tx (t_theta t))).
Proof.
  cbv zeta. unfold shift, compose. cbn [t_x t_y t_theta tx p_x p_y p_theta]. rops. f_equal; ring.
Qed.

Lemma search_steps W s n k s' (w off : R) : supported W -> valid W (ss_coord s) -> valid W n ->
  crosses (ss_coord s) (ss_posture s) -> 0 <= w -> ss_update s n = Ret (s', Some k) ->
  near (match k with Front | Back => 0 | _ => 1 / 1000000 * w + 2 * Rabs (off * (w / (9 / 100) - 1)) end)
    (compose (@pose_of_search Rops s w off) (search_end w off k)) (@pose_of_search Rops s' w off).
Proof.
  intros HW Hs Hn Hc Hw E. destruct (search_state_ok W HW) as (_ & U & _).
  destruct (U s n Hs Hn Hc) as [(_ & k1 & c' & p' & E1 & M & _)|(_ & E1)]; [|congruence].
  rewrite E in E1. injection E1 as -> ->. exact (search_moves_end s n k1 c' p' w off Hw M).
Qed.

Lemma search_scaled : let s := SS (Co 0 1) North in let s' := SS (Co 1 2) East in
  ~ near (1 / 20 * (18 / 100)) (compose (@pose_of_search Rops s (18 / 100)%R (1 / 100)%R) (search_end (18 / 100) (1 / 100) Right))
      (@pose_of_search Rops s' (18 / 100)%R (1 / 100)%R).
Proof.
  cbv zeta. intros (_ & N & _). revert N. rewrite !search_pose. cbn [ss_coord ss_posture post8 C8 S8 ang cx cy].
  cbn [search_end]. unfold parameters, search90_params. rops.
  destruct (Rleb_spec (1 / 100 / (9 / 100)) (55555556 / 1000000000)) as [L|_]; [lra|].
  unfold slalom_end, create_params. unfold compose. cbn [p_x p_y p_theta x_curve_end y_curve_end l_end sl_theta].
  destruct (cs8 PN) as [C S]. cbn [ang] in C, S. unfold degree. rops. rewrite C, S. cbn [C8 S8].
  replace (- (90 / 1 * PI / (180 / 1))) with (- (2 * (PI / 4))) by field.
  rewrite cos_neg, sin_neg, C, S. cbn [C8 S8]. change (@num Rops) with R.
  intros N. apply Rabs_le_inv in N. lra.
Qed.

(** ** The hypotheses hold for the entries of the table *)

Lemma ramp_distance_bound a j v0 v1 : 0 < a -> 0 < j -> 0 <= v0 + v1 -> Rabs (v1 - v0) < a * a / j ->
  ramp_distance a j v0 v1 <= (v0 + v1) * (a / j).
Proof.
  intros Ha Hj Hv L. unfold ramp_distance, ramp_time.
  destruct (Rle_dec (a * a / j) (Rabs (v1 - v0))) as [N|_]; [lra|].
  assert (sqrt (Rabs (v1 - v0) / j) <= a / j); [|nra].
  assert (P : 0 < a / j) by (apply Rdiv_lt_0_compat; lra).
  rewrite <- (sqrt_square (a / j)) by lra. apply sqrt_le_1_alt.
  apply Rmult_le_reg_r with j; [lra|]. replace (Rabs (v1 - v0) / j * j) with (Rabs (v1 - v0)) by (field; lra).
  replace (a / j * (a / j) * j) with (a * a / j) by (field; lra). lra.
Qed.

Lemma big_enough_when (g : @generator Rops) d : limits g ->
  g_v_max g / 2 ^ 25 < g_a_max g * g_a_max g / g_j_max g ->
  2 * (g_v_max g / 2 ^ 25) * (g_a_max g / g_j_max g) <= Rabs d -> big_enough g d.
Proof.
  intros (Hv & Ha & Hj) L B. unfold big_enough.
  assert (P : 0 < g_v_max g / 2 ^ 25) by (apply Rdiv_lt_0_compat; [exact Hv | apply pow_lt; lra]).
  assert (Q := ramp_distance_bound (g_a_max g) (g_j_max g) 0 (g_v_max g / 2 ^ 25) Ha Hj ltac:(lra)).
  rewrite Rminus_0_r, Rabs_pos_eq in Q by lra. specialize (Q L). lra.
Qed.

Lemma table_limits (w off v : R) k d : 0 < w -> 0 < v ->
  let q := @parameters Rops w off (Some k) d in
  0 <= l_start q /\ 0 <= l_end q /\ limits (slalom_gen q v) /\ big_enough (slalom_gen q v) (sl_theta q).
Proof.
  intros Hw Hv. cbv zeta. pose proof PI_RGT_0 as HPI.
  set (q := parameters _ _ _ _).
  assert (A : exists r, 0 < r /\ v_ref q = r /\ dtheta q = 3 * PI /\ ddtheta q = 36 * PI /\ dddtheta q = 1200 * PI).
  { unfold q, parameters. destruct k; unfold create_params; destruct d; cbn [v_ref dtheta ddtheta dddtheta]; rops;
      (eexists; split; [|split; [reflexivity | repeat split; field]]); apply Rmult_lt_0_compat; lra. }
  assert (B : 0 <= l_start q /\ 0 <= l_end q /\ 1 / 2 <= Rabs (sl_theta q)).
  { unfold q, parameters. destruct k; unfold create_params; destruct d; cbn [l_start l_end sl_theta]; unfold degree; rops;
      (split; [apply Rmult_le_pos; lra|]); (split; [apply Rmult_le_pos; lra|]);
      rewrite ?Rabs_Ropp, Rabs_pos_eq; change (@num Rops) with R; pose proof PI2_3_2 as P2; lra. }
  destruct A as (r & Hr & E1 & E2 & E3 & E4). destruct B as (B1 & B2 & B3).
  split; [exact B1|]. split; [exact B2|]. unfold slalom_gen. rewrite E1, E2, E3, E4. clearbody q. clear E1 E2 E3 E4.
  unfold curve_gen. set (m := v / r). assert (Hm : 0 < m) by (apply Rdiv_lt_0_compat; assumption). clearbody m.
  assert (L : limits (@Generator Rops (m * (3 * PI))%R (m * m * (36 * PI))%R (m * m * m * (1200 * PI))%R)).
  { unfold limits. cbn [g_v_max g_a_max g_j_max]. change (@num Rops) with R.
    repeat split; repeat first [lra | apply Rmult_lt_0_compat]. }
  split; [exact L|]. apply big_enough_when; [exact L| |]; cbn [g_v_max g_a_max g_j_max]; change (@num Rops) with R.
  - replace (m * m * (36 * PI) * (m * m * (36 * PI)) / (m * m * m * (1200 * PI))) with (m * PI * (108 / 100)) by (field; lra).
    replace (m * (3 * PI) / 2 ^ 25) with (m * PI * (3 / 2 ^ 25)) by (field; lra).
    apply Rmult_lt_compat_l; [apply Rmult_lt_0_compat; lra | lra].
  - replace (2 * (m * (3 * PI) / 2 ^ 25) * (m * m * (36 * PI) / (m * m * m * (1200 * PI))))
      with (PI * (6 / 2 ^ 25 * (3 / 100))) by (field; lra).
    pose proof PI_4. lra.
Qed.

(** ** Slaloms with changing speed *)

Lemma slalom_parts {K : ops} (g : straight_generator) (q : slalom_params) (v0 v1 v2 : num) a m b :
  let r1 := straight_generate_tv g (l_start q) v0 v1 in
  let c := generate_curve (sg_period g) (l_start q) n0 n0 (sl_theta q) (snd r1) (v_ref q) (dtheta q) (ddtheta q) (dddtheta q) in
  let r3 := straight_generate_tv g (l_end q) (snd r1) v2 in
  let r := generate_slalom_tv g q v0 v1 v2 in
  yields straight_next (fst r1) a -> yields curve_next c m -> yields straight_next (fst r3) b ->
  snd r = snd r3 /\ yields (slalom_next q) (fst r) (a + m + b) /\
  forall k, output (slalom_next q) k (fst r) =
    if (k <? a)%nat then output straight_next k (fst r1)
    else if (k <? a + m)%nat then output curve_next (k - a) c
    else option_map (shift (Pose (x_curve_end q) (y_curve_end q) (sl_theta q))) (output straight_next (k - (a + m)) (fst r3)).
Proof.
  cbv zeta. unfold generate_slalom_tv.
  destruct (straight_generate_tv g (l_start q) v0 v1) as [s1 vm]. cbn [fst snd].
  destruct (straight_generate_tv g (l_end q) vm v2) as [s3 vt]. cbn [fst snd].
  set (c := generate_curve _ _ _ _ _ _ _ _ _ _). intros Ya Ym Yb. split; [reflexivity|].
  assert (Y1 := chain_yields straight_next curve_next s1 c a m Ya Ym).
  assert (Y3 : yields (shift_next (curve_end q) straight_next) s3 b) by (apply shift_yields; exact Yb).
  split; [exact (chain_yields _ _ _ _ _ _ Y1 Y3)|].
  intros k. etransitivity; [exact (chain_output _ (shift_next (curve_end q) straight_next) _ _ s3 k Y1)|].
  rewrite (chain_output _ _ _ _ _ k Ya), shift_output.
  destruct (Nat.ltb_spec k a), (Nat.ltb_spec k (a + m)); try reflexivity. lia.
Qed.

(** ** Absolute poses *)

Lemma heads_ang p : heads (IZR (ang p) * (PI / 4)) (dvec p).
Proof.
  destruct (cs8 p) as [C S]. unfold heads. cbv zeta. rewrite C, S.
  assert (H1 : sqrt 1 = 1) by apply sqrt_1.
  assert (H2 : sqrt 2 * h = 1) by (unfold h; apply Rinv_r; assert (0 < sqrt 2) by (apply sqrt_lt_R0; lra); lra).
  destruct p; cbn [dvec fst snd C8 S8]; match goal with |- context [sqrt (IZR ?z)] => let z' := eval vm_compute in z in change z with z' end;
    rewrite ?H1; split; lra.
Qed.

Lemma wall_mid (x y : Z) (w : R) : Z.odd (x + y) = true ->
  exists a b, a <> b /\ touches (Co x y) a /\ touches (Co x y) b /\
    (IZR x + 1) * w / 2 = (fst (centre w a) + fst (centre w b)) / 2 /\
    (IZR y + 1) * w / 2 = (snd (centre w a) + snd (centre w b)) / 2.
Proof.
  intros V. unfold touches. cbn [cx cy]. destruct (Z.odd y) eqn:Oy.
  - exists (x / 2, y / 2)%Z, (x / 2, y / 2 + 1)%Z. split; [intros E; injection E; lia|].
    split; [auto|]. split; [auto|]. cbn [centre fst snd].
    assert (Ex : x = (2 * (x / 2))%Z).
    { apply Z.div_exact; [lia|]. rewrite Zmod_odd. destruct (Z.odd x) eqn:Ox; [|reflexivity].
      exfalso. rewrite Z.odd_add in V. rewrite Ox, Oy in V. discriminate. }
    assert (Ey : y = (2 * (y / 2) + 1)%Z) by (pose proof (Z.div_mod y 2); rewrite Zmod_odd, Oy in *; lia).
    split.
    + rewrite Ex at 1. rewrite mult_IZR. field.
    + rewrite Ey at 1. rewrite !plus_IZR, mult_IZR. field.
  - exists (x / 2, y / 2)%Z, (x / 2 + 1, y / 2)%Z. split; [intros E; injection E; lia|].
    split; [auto|]. split; [auto|]. cbn [centre fst snd].
    assert (Ey : y = (2 * (y / 2))%Z) by (apply Z.div_exact; [lia|]; rewrite Zmod_odd, Oy; reflexivity).
    assert (Ex : x = (2 * (x / 2) + 1)%Z).
    { pose proof (Z.div_mod x 2). rewrite Zmod_odd in *. destruct (Z.odd x) eqn:Ox; [lia|].
      exfalso. rewrite Z.odd_add in V. rewrite Ox, Oy in V. discriminate. }
    split.
    + rewrite Ex at 1. rewrite !plus_IZR, mult_IZR. field.
    + rewrite Ey at 1. rewrite mult_IZR. field.
Qed.

Lemma wall_pose W s (w off : R) : valid W (ss_coord s) ->
  let q := @pose_of_search Rops s w off in let d := pvec (ss_posture s) in
  exists a b, a <> b /\ touches (ss_coord s) a /\ touches (ss_coord s) b /\
    p_x q = (fst (centre w a) + fst (centre w b)) / 2 + off * IZR (fst d) /\
    p_y q = (snd (centre w a) + snd (centre w b)) / 2 + off * IZR (snd d) /\ heads (p_theta q) d.
Proof.
  intros (_ & V). cbv zeta. rewrite search_pose. cbn [p_x p_y p_theta].
  destruct s as [[x y] p]. cbn [ss_coord ss_posture cx cy] in *.
  assert (D : pvec p = dvec (post8 p)) by (destruct p; reflexivity).
  assert (P1 : C8 (post8 p) = IZR (fst (pvec p)) /\ S8 (post8 p) = IZR (snd (pvec p))) by (destruct p; split; reflexivity).
  destruct P1 as [-> ->].
  destruct (wall_mid x y w V) as (a & b & N & A & B & Ex & Ey). exists a, b.
  split; [exact N|]. split; [exact A|]. split; [exact B|]. rewrite Ex, Ey.
  split; [reflexivity|]. split; [reflexivity|]. rewrite D. apply heads_ang.
Qed.

Lemma node_pose_ok W n (w : R) : valid_node W n -> let q := @pose_of_node Rops n w in
  heads (p_theta q) (dvec (np n)) /\
  if is_diag (np n) then exists a b, a <> b /\ touches (Co (nx n) (ny n)) a /\ touches (Co (nx n) (ny n)) b /\
    p_x q = (fst (centre w a) + fst (centre w b)) / 2 /\ p_y q = (snd (centre w a) + snd (centre w b)) / 2
  else (p_x q, p_y q) = centre w (nx n / 2, ny n / 2)%Z.
Proof.
  intros (_ & _ & V). cbv zeta. rewrite node_pose. cbn [p_x p_y p_theta]. split; [apply heads_ang|].
  destruct (is_diag (np n)).
  - exact (wall_mid (nx n) (ny n) w V).
  - destruct V as [Ex Ey]. unfold centre. cbn [fst snd].
    assert (E : forall z, Z.even z = true -> z = (2 * (z / 2))%Z).
    { intros z Hz. apply Z.div_exact; [lia|]. rewrite Zmod_even, Hz. reflexivity. }
    rewrite (E _ Ex) at 1. rewrite (E _ Ey) at 1. rewrite !mult_IZR. change (@num Rops) with R. f_equal; field.
Qed.
