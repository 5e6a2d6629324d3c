(** In binary32 the new probability is computed without panic when both exponents are finite. *)
From Coq Require Import ZArith Reals List Bool Lia Lra Psatz.
From Flocq Require Import Core BinarySingleNaN.
From Verif Require Import Base SearchModel SearchSpec SearchCoord Num NumLemmas TrajModel DetectModel DetectSpec DetectProofs5 DetectProofs6.
Import ListNotations.
Open Scope R_scope.

Lemma over_inf s : binary_overflow 24 128 mode_NE s = SpecFloat.S754_infinity s.
Proof. reflexivity. Qed.

Lemma sf_inf (x : f32) s : B2SF x = SpecFloat.S754_infinity s -> x = B754_infinity s.
Proof. destruct x; cbn; try discriminate. intros E; injection E as <-. reflexivity. Qed.

Lemma rnd_opp x : rnd32 (- x) = - rnd32 x.
Proof. apply round_NE_opp. Qed.

Lemma sign_le (x : f32) : is_finite x = true -> Bsign x = true -> B2R x <= 0.
Proof.
  intros F S. destruct x as [s|s| |s m e b]; try discriminate; cbn [B2R]; [lra|]. cbn in S. subst s.
  apply F2R_le_0. cbn. lia.
Qed.

Lemma minus_cases (x y : f32) : is_finite x = true -> is_finite y = true -> B2R y <= B2R x ->
  (is_finite (Bminus mode_NE x y) = true /\ 0 <= B2R (Bminus mode_NE x y)) \/
  Bminus mode_NE x y = B754_infinity false.
Proof.
  intros Fx Fy H. pose proof (Bminus_correct 24 128 prec32 emax32 mode_NE x y Fx Fy) as C.
  change (round radix2 (SpecFloat.fexp 24 128) (round_mode mode_NE)) with rnd32 in C.
  assert (H0 : 0 <= rnd32 (B2R x - B2R y)).
  { rewrite <- (rnd_exact 0) by (apply (int_format 0); lia). apply rnd_le. lra. }
  destruct (Rlt_bool_spec (Rabs (rnd32 (B2R x - B2R y))) (bpow radix2 128)) as [L|L].
  - left. destruct C as (E & F & _). split; [exact F|]. rewrite E. exact H0.
  - right. destruct C as (E & Es). rewrite over_inf in E. apply sf_inf in E. rewrite E. f_equal.
    destruct (Bsign x) eqn:S1; [|reflexivity]. exfalso.
    assert (Bx : B2R x <= 0).
    { destruct x as [s|s| |s m e b]; try discriminate; cbn [B2R]; [lra|]. cbn in S1. subst s.
      apply F2R_le_0. cbn. lia. }
    assert (By : 0 <= B2R y).
    { destruct (Bsign y) eqn:S2; [discriminate|].
      destruct y as [s|s| |s m e b]; try discriminate; cbn [B2R]; [lra|]. cbn in S2. subst s.
      apply F2R_ge_0. cbn. lia. }
    replace (B2R x - B2R y) with 0 in L by lra.
    rewrite (rnd_exact 0) in L by (apply (int_format 0); lia). rewrite Rabs_R0 in L.
    pose proof (bpow_gt_0 radix2 128). lra.
Qed.

Lemma infinite_inf lm s : @is_infinite (Fops lm) (B754_infinity s) = true.
Proof. destruct s; reflexivity. Qed.

Lemma infinite_fin lm (x : f32) : is_finite x = true -> @is_infinite (Fops lm) x = false.
Proof.
  intros F. unfold is_infinite. cbn [isnan sub Fops].
  destruct (minus_cases x x F F ltac:(lra)) as [[F2 _]|E].
  - destruct (Bminus mode_NE x x); try discriminate; reflexivity.
  - exfalso. pose proof (minus_ok x x F F) as M. replace (B2R x - B2R x) with 0 in M by ring.
    rewrite (rnd_exact 0) in M by (apply (int_format 0); lia). rewrite Rabs_R0 in M.
    destruct (M (bpow_gt_0 radix2 128)) as [_ F2]. rewrite E in F2. discriminate.
Qed.

(** the product of an exponential and a probability that is not tiny. *)
Lemma mult_cases (v p : f32) : v = B754_infinity false \/ (is_finite v = true /\ 1 <= B2R v) ->
  is_finite p = true -> 0 < B2R p ->
  (exists s, Bmult mode_NE v p = B754_infinity s) \/
  (is_finite (Bmult mode_NE v p) = true /\ B2R p <= B2R (Bmult mode_NE v p)).
Proof.
  intros Hv Fp Hp. destruct Hv as [-> |[Fv Hv]].
  - left. destruct p as [s|s| |s m e b]; try discriminate; [cbn in Hp; lra|]. cbn. eauto.
  - pose proof (Bmult_correct 24 128 prec32 emax32 mode_NE v p) as C.
    change (round radix2 (SpecFloat.fexp 24 128) (round_mode mode_NE)) with rnd32 in C.
    destruct (Rlt_bool_spec (Rabs (rnd32 (B2R v * B2R p))) (bpow radix2 128)) as [L|L].
    + right. destruct C as (E & F & _). rewrite F, Fv, Fp. split; [reflexivity|]. rewrite E.
      assert (G : rnd32 (B2R p) = B2R p) by (apply rnd_exact; apply generic_format_B2R).
      rewrite <- G at 1. apply rnd_le. nra.
    + left. rewrite over_inf in C. apply sf_inf in C. eauto.
Qed.

Lemma share_ok lm (e n : f32) : is_finite e = true -> is_finite n = true -> 0 < B2R e -> 0 < B2R n ->
  exists q, @prob_new (Fops lm) (f32_div e (Bplus mode_NE e n)) = Some q.
Proof.
  intros Fe Fn He Hn.
  assert (K : forall v : f32, is_finite v = true -> 0 <= B2R v <= 1 -> Bsign v = false -> exists q, @prob_new (Fops lm) v = Some q).
  { intros v Fv Hv Sv. unfold prob_new. cbn [isnan isneg ltb Fops n1 lit]. fold f1. rewrite Sv.
    destruct f1_val as [V1 F1]. rewrite Bltb_correct by assumption. rewrite V1.
    rewrite Rlt_bool_false by lra. destruct v; try discriminate; cbn [is_nan orb]; eexists; reflexivity. }
  assert (Se : Bsign e = false).
  { destruct (Bsign e) eqn:S1; [|reflexivity]. pose proof (sign_le e Fe S1). lra. }
  pose proof (Bplus_correct 24 128 prec32 emax32 mode_NE e n Fe Fn) as C.
  change (round radix2 (SpecFloat.fexp 24 128) (round_mode mode_NE)) with rnd32 in C.
  destruct (Rlt_bool_spec (Rabs (rnd32 (B2R e + B2R n))) (bpow radix2 128)) as [L|L].
  - destruct C as (Es & Fs & Ss).
    assert (Ge : rnd32 (B2R e) = B2R e) by (apply rnd_exact; apply generic_format_B2R).
    assert (Hs : B2R e <= B2R (Bplus mode_NE e n)) by (rewrite Es, <- Ge at 1; apply rnd_le; lra).
    set (u := Bplus mode_NE e n) in *.
    assert (Hq : 0 < B2R e / B2R u <= 1).
    { split; [apply Rdiv_lt_0_compat; lra|]. apply (Rmult_le_reg_r (B2R u)); [lra|].
      unfold Rdiv. rewrite Rmult_assoc, Rinv_l by lra. lra. }
    assert (Hr : 0 <= rnd32 (B2R e / B2R u) <= 1).
    { assert (E0 : rnd32 0 = 0) by (apply rnd_exact; apply (int_format 0); lia).
      assert (E1 : rnd32 1 = 1) by (apply rnd_exact; apply (int_format 1); lia).
      pose proof (rnd_le 0 (B2R e / B2R u) ltac:(lra)). pose proof (rnd_le (B2R e / B2R u) 1 ltac:(lra)). lra. }
    pose proof (Bdiv_correct 24 128 prec32 emax32 mode_NE e u ltac:(lra)) as D.
    change (round radix2 (SpecFloat.fexp 24 128) (round_mode mode_NE)) with rnd32 in D.
    rewrite Rlt_bool_true in D.
    2:{ rewrite Rabs_pos_eq by lra. apply Rle_lt_trans with 1; [lra|].
        change (bpow radix2 128) with (IZR (2 ^ 128)). apply IZR_lt. lia. }
    destruct D as (Ed & Fd & Sd). apply K; unfold f32_div.
    + now rewrite Fd.
    + rewrite Ed. exact Hr.
    + rewrite Sd.
      * rewrite Se. cbn [xorb]. rewrite Ss.
        destruct (Rcompare_spec (B2R e + B2R n) 0); [lra|lra|reflexivity].
      * assert (Ff : is_finite (Bdiv mode_NE e u) = true) by (now rewrite Fd).
        destruct (Bdiv mode_NE e u); try discriminate; reflexivity.
  - destruct C as (E & Es). rewrite over_inf in E. apply sf_inf in E. rewrite E, Se. unfold f32_div.
    destruct e as [s|s| |s m x b]; try discriminate; cbn in Se; subst s; cbn; apply K; try reflexivity; cbn [B2R]; lra.
Qed.

(** a probability that is neither [is_zero] nor [is_one]. *)
Lemma unlatched lm (p : f32) : is_finite p = true -> 0 <= B2R p <= 1 -> @latched (Fops lm) p = false ->
  0 < B2R p /\ is_finite (Bminus mode_NE f1 p) = true /\ 0 < B2R (Bminus mode_NE f1 p).
Proof.
  intros Fp Hp Hl.
  assert (Eps : exists eps : f32, @EPSILON (Fops lm) = eps /\ is_finite eps = true /\ 0 < B2R eps <= 1 / 2).
  { exists (@EPSILON (Fops lm)). split; [reflexivity|]. unfold EPSILON. cbn [lit Fops].
    destruct (f32_of_Z_exact 1 ltac:(lia)) as [V1 F1]. destruct (f32_of_Z_exact 8388608 ltac:(lia)) as [V2 F2].
    assert (R : rnd32 (1 / 8388608) = 1 / 8388608).
    { replace (1 / 8388608) with (bpow radix2 (-23)) by (change (bpow radix2 (-23)) with (/ IZR 8388608); lra).
      apply rnd_exact. apply generic_format_bpow. vm_compute. discriminate. }
    destruct (div_ok (f32_of_Z 1) (f32_of_Z 8388608) F1) as [A B].
    - rewrite V2. lra.
    - rewrite V1, V2, R. rewrite Rabs_pos_eq by lra.
      change (bpow radix2 128) with (IZR (2 ^ 128)). apply Rlt_trans with 1; [lra|apply IZR_lt; lia].
    - split; [exact B|]. rewrite A, V1, V2, R. lra. }
  destruct Eps as (eps & Ee & Fz & Hz).
  unfold latched, is_zero, is_one in Hl. rewrite Ee in Hl. apply orb_false_iff in Hl. destruct Hl as [L0 L1].
  cbn [ltb nabs sub n1 lit Fops] in L0, L1. fold f1 in L1. destruct f1_val as [V1 F1].
  rewrite Bltb_correct in L0 by (rewrite ?is_finite_Babs; assumption). rewrite B2R_Babs in L0.
  assert (P0 : 0 < B2R p).
  { rewrite Rabs_pos_eq in L0 by lra. destruct (Rlt_bool_spec (B2R p) (B2R eps)); [discriminate|lra]. }
  (* 1 - p *)
  assert (G1 : Rabs (rnd32 (1 - B2R p)) < bpow radix2 128).
  { assert (E0 : rnd32 0 = 0) by (apply rnd_exact; apply (int_format 0); lia).
    assert (E1 : rnd32 1 = 1) by (apply rnd_exact; apply (int_format 1); lia).
    pose proof (rnd_le 0 (1 - B2R p) ltac:(lra)). pose proof (rnd_le (1 - B2R p) 1 ltac:(lra)).
    rewrite Rabs_pos_eq by lra. apply Rle_lt_trans with 1; [lra|].
    change (bpow radix2 128) with (IZR (2 ^ 128)). apply IZR_lt. lia. }
  assert (Q : is_finite (Bminus mode_NE f1 p) = true /\ 0 < B2R (Bminus mode_NE f1 p)).
  { destruct (minus_ok f1 p F1 Fp) as [A B]; [now rewrite V1|]. split; [exact B|]. rewrite A, V1.
    destruct (minus_ok p f1 Fp F1) as [A' B'].
    { rewrite V1. replace (B2R p - 1) with (- (1 - B2R p)) by ring. rewrite rnd_opp, Rabs_Ropp. exact G1. }
    rewrite Bltb_correct in L1 by (rewrite ?is_finite_Babs; assumption). rewrite B2R_Babs, A', V1 in L1.
    replace (B2R p - 1) with (- (1 - B2R p)) in L1 by ring. rewrite rnd_opp, Rabs_Ropp in L1.
    assert (E0 : rnd32 0 = 0) by (apply rnd_exact; apply (int_format 0); lia).
    pose proof (rnd_le 0 (1 - B2R p) ltac:(lra)) as H0. rewrite E0 in H0.
    rewrite Rabs_pos_eq in L1 by exact H0.
    destruct (Rlt_bool_spec (rnd32 (1 - B2R p)) (B2R eps)); [discriminate|]. lra. }
  destruct Q as [Fq Hq]. auto.
Qed.

Lemma posterior_safe lm (p e n : f32) : exp_like (l_exp lm) ->
  is_finite p = true -> 0 <= B2R p <= 1 -> @latched (Fops lm) p = false ->
  is_finite e = true -> is_finite n = true -> exists q, @posterior (Fops lm) p e n = Ret q.
Proof.
  intros Hex Fp Hp Hl Fe Fn. destruct (unlatched lm p Fp Hp Hl) as (P0 & Fq & Hq).
  unfold posterior, prob_reverse. cbv zeta. cbn [ltb sub mul add div nexp n1 lit Fops]. fold f1. change (@num (Fops lm)) with f32.
  set (mn := if Bltb e n then e else n).
  assert (Hm : is_finite mn = true /\ B2R mn <= B2R e /\ B2R mn <= B2R n).
  { unfold mn. rewrite Bltb_correct by assumption. destruct (Rlt_bool_spec (B2R e) (B2R n)); repeat split; (assumption || lra). }
  destruct Hm as (Fm & M1 & M2).
  destruct (mult_cases _ p (Hex _ (minus_cases e mn Fe Fm M1)) Fp P0) as [(s & ->)|[F1' H1']].
  { rewrite infinite_inf. eauto. }
  rewrite (infinite_fin lm _ F1').
  destruct (mult_cases _ _ (Hex _ (minus_cases n mn Fn Fm M2)) Fq Hq) as [(s & ->)|[F2' H2']].
  { rewrite infinite_inf. eauto. }
  rewrite (infinite_fin lm _ F2').
  destruct (share_ok lm _ _ F1' F2' ltac:(lra) ltac:(lra)) as (q & ->). eauto.
Qed.

(** ** The whole call *)

Lemma insert_length {K : ops} (e : direction * option num) l : length (insert e l) = S (length l).
Proof. induction l as [|h t IH]; cbn; [reflexivity|]. destruct (dist_lt _ _); cbn; [now rewrite IH|reflexivity]. Qed.

Lemma sort_length {K : ops} (l : list (direction * option num)) : length (sort_distances l) = length l.
Proof. induction l as [|h t IH]; [reflexivity|]. cbn [sort_distances fold_right]. rewrite insert_length. fold (sort_distances t). now rewrite IH. Qed.

Lemma convert_total {K : ops} W (cv : converter) (p : pose) : c_i_square_width cv <> 0%Z ->
  isnan (p_x p) = false -> isnan (p_y p) = false -> exists o, convert W cv p = Ret o.
Proof.
  intros H0 Nx Ny. unfold convert. rewrite Nx, Ny. cbn [orb]. unfold remquof_with_width.
  destruct (Z.eqb_spec (c_i_square_width cv) 0); [contradiction|]. cbn [bind].
  destruct (is_near_pillar _ _); [eauto|]. destruct (_ || _); [eauto|].
  match goal with |- context [sort_distances ?m] => set (l := m); pose proof (sort_length l) as L end.
  assert (L4 : length l = 4%nat).
  { unfold l. rewrite map_length. unfold axes. repeat (destruct (ltb _ _); [reflexivity|]). reflexivity. }
  rewrite L4 in L. destruct (sort_distances l) as [|[dir e] [|[dir2 e2] t]]; try discriminate.
  destruct (hit_wall _ _ _ _); [|eauto]. destruct (match e with Some _ => _ | None => _ end); eauto.
Qed.

Lemma default_width lm : c_i_square_width (@converter_default (Fops lm)) = 90%Z.
Proof. vm_compute. reflexivity. Qed.

Lemma detect_safe lm W (d : @detector (Fops lm)) m s (p : @pose (Fops lm)) : supported W ->
  exp_like (l_exp lm) -> d_converter d = converter_default -> stored_unit lm W d ->
  is_nan (p_x p : f32) = false -> is_nan (p_y p : f32) = false ->
  (forall i, convert W converter_default p = Ret (Some i) ->
     is_finite (@log_likelihood (Fops lm) (length_of (w_existing i)) m s : f32) = true /\
     is_finite (@log_likelihood (Fops lm) (length_of (w_not_existing i)) m s : f32) = true) ->
  exists d' a, detect_and_update W d m s p = Ret (d', a).
Proof.
  intros HW Hex Hcv [Hl Hu] Nx Ny Hfin. unfold detect_and_update. rewrite Hcv.
  destruct (convert_total W (@converter_default (Fops lm)) p ltac:(rewrite default_width; lia) Nx Ny) as ([i|] & E);
    rewrite E; cbn [bind]; [|eauto].
  pose proof (convert_valid W HW _ _ _ E) as Hv. destruct (Hfin i E) as [F1 F2].
  unfold wall_existence. rewrite aget_ok by (rewrite Hl; apply (as_index_que W _ HW (proj1 Hv))). cbn [bind].
  fold (belief W d (w_coord i)). fold (latched (belief W d (w_coord i))).
  destruct (latched _) eqn:El; [eauto|].
  destruct (Hu _ Hv) as [Fb Hb].
  assert (N1 : forall x : f32, is_finite x = true -> is_nan x = false) by (intros [| | |]; try discriminate; reflexivity).
  cbn [isnan Fops]. rewrite (N1 _ F1), (N1 _ F2). cbn [orb].
  destruct (posterior_safe lm _ _ _ Hex Fb Hb El F1 F2) as (q & ->). cbn [bind].
  unfold set_existence. rewrite aset_ok by (rewrite Hl; apply (as_index_que W _ HW (proj1 Hv))). cbn [bind]. eauto.
Qed.
