(** The supervised input stays finite in binary32 when no quantity is extreme. *)
From Coq Require Import ZArith Reals Bool Lra Lia.
From Flocq Require Import Core BinarySingleNaN.
From Verif Require Import Base Num NumLemmas FloatMag ControlModel.
Open Scope R_scope.

Ltac fops := unfold n0, n1, n2 in *;
  cbn [lit add sub mul div opp nabs nsqrt ltb leb eqb nsin ncos natan2 isnan Fops] in *;
  change (f32_div (f32_of_Z 1) (f32_of_Z 1)) with f1 in *.

Lemma below_not_nan k x : below k x -> is_nan x = false.
Proof. intros [F _]. destruct x; try discriminate; reflexivity. Qed.

Definition f2 : f32 := f32_div (f32_of_Z 2) (f32_of_Z 1).
Lemma f2_val : B2R f2 = 2 /\ is_finite f2 = true.
Proof.
  destruct (f32_of_Z_exact 2 ltac:(lia)) as [E F]. destruct (f32_of_Z_exact 1 ltac:(lia)) as [E1 F1].
  assert (R1 : rnd32 (B2R (f32_of_Z 2) / B2R (f32_of_Z 1)) = 2).
  { rewrite E, E1. replace (2 / 1) with (IZR 2) by lra. apply rnd_exact, int_format. lia. }
  destruct (div_ok (f32_of_Z 2) (f32_of_Z 1) F) as [A B].
  - rewrite E1. lra.
  - rewrite R1, Rabs_pos_eq by lra. change (bpow radix2 128) with (IZR (2 ^ 128)). apply IZR_lt. lia.
  - split; [rewrite <- R1; exact A|exact B].
Qed.
Lemma f2_below : below 1 f2.
Proof. destruct f2_val as [V F]. split; [exact F|]. rewrite V, Rabs_pos_eq by lra. change (bpow radix2 1) with 2. lra. Qed.
Lemma f1_below : below 0 f1.
Proof. destruct f1_val as [V F]. split; [exact F|]. rewrite V, Rabs_pos_eq by lra. change (bpow radix2 0) with 1. lra. Qed.

(** the size of a number above 1. *)
Lemma size a m : below m a -> (0 <= m)%Z -> exists k, (0 <= k <= m)%Z /\ below (k + 1) a /\
  (k = 0%Z \/ bpow radix2 k <= Rabs (B2R a)).
Proof.
  intros [F B] M. destruct (Rle_or_lt 1 (Rabs (B2R a))) as [L|L].
  - assert (N : B2R a <> 0) by (intros E; rewrite E, Rabs_R0 in L; lra).
    destruct (mag radix2 (B2R a)) as [e He]. specialize (He N). exists (e - 1)%Z.
    assert (E1 : (0 < e)%Z). { apply (lt_bpow radix2). apply Rle_lt_trans with (2 := proj2 He). exact L. }
    assert (E2 : (e - 1 <= m)%Z). { apply (le_bpow radix2). apply Rle_trans with (1 := proj1 He). exact B. }
    split; [lia|]. split; [|right; apply He]. split; [exact F|]. replace (e - 1 + 1)%Z with e by lia. lra.
  - exists 0%Z. split; [lia|]. split; [|left; reflexivity]. split; [exact F|].
    change (bpow radix2 (0 + 1)) with 2. lra.
Qed.

(** one branch of [project]: the point of the line y = a x + b nearest to (p, q). *)
Lemma foot a b p q : below 46 a -> below 46 b -> below 16 p -> below 16 q ->
  let c1 := Bplus mode_NE (Bmult mode_NE a a) f1 in
  let c2 := Bmult mode_NE f2 (Bminus mode_NE (Bminus mode_NE (Bmult mode_NE a b) p) (Bmult mode_NE a q)) in
  let x := f32_div (Bopp c2) (Bmult mode_NE f2 c1) in
  below 51 x /\ below 51 (Bplus mode_NE (Bmult mode_NE a x) b).
Proof.
  intros Ha Hb Hp Hq. destruct (size a 46 Ha ltac:(lia)) as (k & K & Hk & Lk). cbv zeta.
  assert (Haa : below 94 (Bmult mode_NE a a)).
  { apply (below_le (46 + 46)); [lia|]. apply below_mul; [exact Ha|exact Ha|lia]. }
  assert (Fa : is_finite a = true) by apply Ha.
  assert (Ua : Rabs (B2R a) < bpow radix2 63).
  { apply Rle_lt_trans with (1 := proj2 Ha). apply bpow_lt. lia. }
  assert (Pa : 0 <= B2R (Bmult mode_NE a a)) by (apply square_nonneg; [exact Fa|lra]).
  destruct f1_val as [V1 F1]. destruct f2_val as [V2 F2].
  set (c1 := Bplus mode_NE (Bmult mode_NE a a) f1).
  assert (U1 : B2R (Bmult mode_NE a a) + B2R f1 <= bpow radix2 127).
  { rewrite V1. apply Rle_trans with (bpow radix2 94 + bpow radix2 94).
    - destruct Haa as [_ Q]. rewrite Rabs_pos_eq in Q by exact Pa.
      assert (1 <= bpow radix2 94) by (change 1 with (bpow radix2 0); apply bpow_le; lia). lra.
    - replace (bpow radix2 94 + bpow radix2 94) with (bpow radix2 95); [apply bpow_le; lia|].
      change 95%Z with (94 + 1)%Z. rewrite bpow_plus. change (bpow radix2 1) with 2. ring. }
  destruct (plus_ge (Bmult mode_NE a a) f1 (proj1 Haa) F1 Pa ltac:(lra) U1) as [G1 G2]. fold c1 in G1, G2.
  assert (Lc : bpow radix2 (2 * k) <= B2R c1).
  { destruct Lk as [->|Lk]; [rewrite V1 in G2; exact G2|].
    apply Rle_trans with (2 := G1). apply above_mul_self; [exact Fa|exact Ua|exact Lk|lia]. }
  assert (Hc1 : below 95 c1).
  { apply (below_add 94); [exact Haa|apply (below_le 0); [lia|exact f1_below]|lia]. }
  assert (H2c : bpow radix2 (2 * k + 1) <= Rabs (B2R (Bmult mode_NE f2 c1))).
  { assert (Q : bpow radix2 (2 * k + 1) <= B2R f2 * B2R c1).
    { rewrite V2, bpow_plus. change (bpow radix2 1) with 2. lra. }
    assert (T : Rabs (B2R f2 * B2R c1) <= bpow radix2 96).
    { change 96%Z with (1 + 95)%Z. rewrite bpow_plus, Rabs_mult. apply Rmult_le_compat; try apply Rabs_pos; [apply f2_below|apply Hc1]. }
    destruct (mult_ok f2 c1 F2 (proj1 Hc1) (rnd_top _ 96 ltac:(lia) T)) as [E _]. rewrite E.
    apply rnd_above_abs; [lia|]. apply Rle_trans with (1 := Q). apply Rle_abs. }
  assert (Hab : below (k + 47) (Bmult mode_NE a b)).
  { replace (k + 47)%Z with (k + 1 + 46)%Z by lia. apply below_mul; [exact Hk|exact Hb|lia]. }
  assert (Haq : below (k + 48) (Bmult mode_NE a q)).
  { apply (below_le (k + 1 + 16)); [lia|]. apply below_mul; [exact Hk|exact Hq|lia]. }
  assert (S1 : below (k + 48) (Bminus mode_NE (Bmult mode_NE a b) p)).
  { replace (k + 48)%Z with (k + 47 + 1)%Z by lia. apply below_sub; [exact Hab|apply (below_le 16); [lia|exact Hp]|lia]. }
  assert (S2 : below (k + 49) (Bminus mode_NE (Bminus mode_NE (Bmult mode_NE a b) p) (Bmult mode_NE a q))).
  { replace (k + 49)%Z with (k + 48 + 1)%Z by lia. apply below_sub; [exact S1|exact Haq|lia]. }
  set (c2 := Bmult mode_NE f2 _).
  assert (Hc2 : below (1 + (k + 49)) c2) by (apply below_mul; [exact f2_below|exact S2|lia]).
  set (x := f32_div (Bopp c2) (Bmult mode_NE f2 c1)).
  assert (Hx : below (1 + (k + 49) - (2 * k + 1)) x) by (apply below_div; [apply below_opp, Hc2|exact H2c|lia]).
  split; [apply (below_le (1 + (k + 49) - (2 * k + 1))); [lia|exact Hx]|].
  apply (below_add 50); [|apply (below_le 46); [lia|exact Hb]|lia].
  replace 50%Z with (k + 1 + (1 + (k + 49) - (2 * k + 1)))%Z by lia. apply below_mul; [exact Hk|exact Hx|lia].
Qed.

Lemma norm_below k x y : below k x -> below k y -> (0 <= k <= 60)%Z ->
  below (k + 1) (Bsqrt mode_NE (Bplus mode_NE (Bmult mode_NE x x) (Bmult mode_NE y y))).
Proof.
  intros Hx Hy K.
  assert (Xx : below (k + k) (Bmult mode_NE x x)) by (apply below_mul; [exact Hx|exact Hx|lia]).
  assert (Yy : below (k + k) (Bmult mode_NE y y)) by (apply below_mul; [exact Hy|exact Hy|lia]).
  pose proof (below_add (k + k) _ _ Xx Yy ltac:(lia)) as S.
  assert (U : bpow radix2 k <= bpow radix2 63) by (apply bpow_le; lia).
  assert (Px : 0 <= B2R (Bmult mode_NE x x)) by (apply square_nonneg; [apply Hx|destruct Hx; lra]).
  assert (Py : 0 <= B2R (Bmult mode_NE y y)) by (apply square_nonneg; [apply Hy|destruct Hy; lra]).
  apply below_sqrt; [apply (below_le (k + k + 1)); [lia|exact S]| |lia].
  apply Rle_trans with (1 := Px). apply plus_ge; try assumption; [apply Xx|apply Yy|].
  destruct Xx as [_ Xx], Yy as [_ Yy]. rewrite Rabs_pos_eq in Xx, Yy by assumption.
  apply Rle_trans with (bpow radix2 (k + k) + bpow radix2 (k + k)); [lra|].
  replace (bpow radix2 (k + k) + bpow radix2 (k + k)) with (bpow radix2 (k + k + 1)); [apply bpow_le; lia|].
  rewrite (bpow_plus radix2 (k + k) 1). change (bpow radix2 1) with 2. ring.
Qed.

Lemma norm_above k j x y : below k x -> below k y -> (0 <= k <= 60)%Z -> (-74 <= j)%Z ->
  bpow radix2 j <= Rabs (B2R x) \/ bpow radix2 j <= Rabs (B2R y) ->
  bpow radix2 j <= B2R (Bsqrt mode_NE (Bplus mode_NE (Bmult mode_NE x x) (Bmult mode_NE y y))).
Proof.
  intros Hx Hy K J L.
  assert (Xx : below (k + k) (Bmult mode_NE x x)) by (apply below_mul; [exact Hx|exact Hx|lia]).
  assert (Yy : below (k + k) (Bmult mode_NE y y)) by (apply below_mul; [exact Hy|exact Hy|lia]).
  assert (U : bpow radix2 k < bpow radix2 63) by (apply bpow_lt; lia).
  assert (Px : 0 <= B2R (Bmult mode_NE x x)) by (apply square_nonneg; [apply Hx|destruct Hx; lra]).
  assert (Py : 0 <= B2R (Bmult mode_NE y y)) by (apply square_nonneg; [apply Hy|destruct Hy; lra]).
  destruct (plus_ge (Bmult mode_NE x x) (Bmult mode_NE y y) (proj1 Xx) (proj1 Yy) Px Py) as [G1 G2].
  { destruct Xx as [_ Xx], Yy as [_ Yy]. rewrite Rabs_pos_eq in Xx, Yy by assumption.
    apply Rle_trans with (bpow radix2 (k + k) + bpow radix2 (k + k)); [lra|].
    replace (bpow radix2 (k + k) + bpow radix2 (k + k)) with (bpow radix2 (k + k + 1)); [apply bpow_le; lia|].
    rewrite (bpow_plus radix2 (k + k) 1). change (bpow radix2 1) with 2. ring. }
  apply above_sqrt; [|lia]. destruct L as [L|L].
  - apply Rle_trans with (2 := G1). apply above_mul_self; [apply Hx|destruct Hx; lra|exact L|lia].
  - apply Rle_trans with (2 := G2). apply above_mul_self; [apply Hy|destruct Hy; lra|exact L|lia].
Qed.

Section Jerk.
Context (lm : libm).
Hypothesis Hcos : forall x, is_finite x = true -> below 1 (l_cos lm x) /\ below 1 (l_sin lm x).
Hypothesis Hatan : forall x y, is_finite x = true -> is_finite y = true -> below 2 (l_atan2 lm y x).

Theorem jerk_finite (i : @tracking_input (Fops lm)) (a1 a2 b : f32) :
  below 16 (u_x i) -> below 16 (u_y i) -> below 16 (du_x i) -> below 16 (du_y i) ->
  below 16 a1 -> below 16 a2 -> below 16 b ->
  bpow radix2 (-20) <= Rabs (B2R (u_x i : f32)) \/ bpow radix2 (-20) <= Rabs (B2R (u_y i : f32)) ->
  bpow radix2 (-30) <= Rabs (B2R a2) \/ B2R a2 = 0 /\ bpow radix2 (-30) <= Rabs (B2R a1) ->
  exists o, @apply_constraints (Fops lm) i a1 a2 b = Ret o /\
    below 51 (u_x o) /\ below 51 (u_y o) /\ below 90 (du_x o) /\ below 90 (du_y o).
Proof.
  intros Hx Hy Hdx Hdy H1 H2 Hb Lu La. unfold apply_constraints. fops.
  rewrite (below_not_nan _ _ H1), (below_not_nan _ _ H2), (below_not_nan _ _ Hb). cbn [orb].
  match goal with |- context [if ?c then Ret i else _] => destruct c eqn:C end.
  { exists i. split; [reflexivity|].
    repeat split; try (apply Hx || apply Hy || apply Hdx || apply Hdy);
    (eapply Rle_trans; [apply Hx || apply Hy || apply Hdx || apply Hdy|apply bpow_le; lia]). }
  assert (P : exists x y, @project (Fops lm) i a1 a2 b = Ret (x, y) /\ below 51 x /\ below 51 y).
  { assert (Z : B2R (f32_div (f32_of_Z 0) (f32_of_Z 1)) = 0) by (vm_compute; reflexivity).
    assert (Fz : is_finite (f32_div (f32_of_Z 0) (f32_of_Z 1)) = true) by (vm_compute; reflexivity).
    unfold project. fops. rewrite (Beqb_correct 24 128 a2 _ (proj1 H2) Fz), Z.
    fold f2. pose proof (bpow_gt_0 radix2 (-30)) as P30.
    destruct La as [La|[Ea La]].
    - rewrite Req_bool_false by (intros E; rewrite E, Rabs_R0 in La; lra). cbn [negb].
      assert (A : below 46 (f32_div (Bopp a1) a2)) by (apply (below_div 16 (-30)); [apply below_opp, H1|exact La|lia]).
      assert (B : below 46 (f32_div (Bopp b) a2)) by (apply (below_div 16 (-30)); [apply below_opp, Hb|exact La|lia]).
      destruct (foot _ _ _ _ A B Hx Hy) as [X Y]. eexists _, _. split; [reflexivity|]. split; [exact X|exact Y].
    - rewrite Req_bool_true by exact Ea. cbn [negb].
      rewrite (Beqb_correct 24 128 a1 _ (proj1 H1) Fz), Z.
      rewrite Req_bool_false by (intros E; rewrite E, Rabs_R0 in La; lra). cbn [negb].
      assert (A : below 46 (f32_div (Bopp a2) a1)) by (apply (below_div 16 (-30)); [apply below_opp, H2|exact La|lia]).
      assert (B : below 46 (f32_div (Bopp b) a1)) by (apply (below_div 16 (-30)); [apply below_opp, Hb|exact La|lia]).
      destruct (foot _ _ _ _ A B Hy Hx) as [X Y]. eexists _, _. split; [reflexivity|]. split; [exact Y|exact X]. }
  destruct P as (x & y & E & X & Y). rewrite E. cbn [bind].
  rewrite (below_not_nan _ _ X), (below_not_nan _ _ Y). cbn [orb]. unfold to_polar. fops.
  eexists. split; [reflexivity|]. cbn [u_x u_y du_x du_y].
  split; [exact X|]. split; [exact Y|].
  pose proof (norm_below 51 _ _ X Y ltac:(lia)) as N2. pose proof (norm_below 16 _ _ Hdx Hdy ltac:(lia)) as N3.
  pose proof (norm_above 16 (-20) _ _ Hx Hy ltac:(lia) ltac:(lia) Lu) as N1.
  pose proof (below_mul _ _ _ _ N3 N2 ltac:(lia)) as N4.
  assert (N1' : bpow radix2 (-20) <= Rabs (B2R (Bsqrt mode_NE (Bplus mode_NE (Bmult mode_NE (u_x i) (u_x i)) (Bmult mode_NE (u_y i) (u_y i)))))).
  { apply Rle_trans with (1 := N1). apply Rle_abs. }
  pose proof (below_div _ _ _ _ N4 N1' ltac:(lia)) as N5.
  pose proof (Hatan _ _ (proj1 Hx) (proj1 Hy)) as T. pose proof (Hatan _ _ (proj1 X) (proj1 Y)) as T2.
  pose proof (Hatan _ _ (proj1 Hdx) (proj1 Hdy)) as T3.
  pose proof (below_add _ _ _ T3 T2 ltac:(lia)) as A1.
  pose proof (below_sub _ _ _ A1 (below_le 2 3 _ ltac:(lia) T) ltac:(lia)) as A2.
  destruct (Hcos _ (proj1 A2)) as [Cc Cs].
  split; (match type of N5 with below ?k _ => apply (below_le (k + 1)) end; [lia|apply below_mul; [exact N5|assumption|lia]]).
Qed.
End Jerk.
