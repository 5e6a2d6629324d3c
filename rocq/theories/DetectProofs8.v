(** When a reading panics in binary32. *)
From Coq Require Import ZArith Reals List Bool Lia Lra.
From Flocq Require Import Core BinarySingleNaN.
From Verif Require Import Base SearchModel SearchSpec SearchCoord WallsModel WallsSpec Num NumLemmas FloatMag TrajModel
  DetectModel DetectSpec DetectProofs DetectProofs2 DetectProofs3 DetectProofs4 DetectProofs5 DetectProofs6 DetectProofs7.
Import ListNotations.
Open Scope R_scope.

Notation minf := (B754_infinity true : f32).
Notation pinf := (B754_infinity false : f32).

(** an exponent is finite, -infinity or NaN. *)
Lemma exponent_cases lm (d m s : f32) : let v := @log_likelihood (Fops lm) d m s : f32 in
  is_finite v = true \/ v = minf \/ v = B754_nan.
Proof.
  cbv zeta. unfold log_likelihood. cbn [div mul opp sub Fops n2 lit].
  set (t := f32_div (Bminus mode_NE d m) s). clearbody t.
  assert (Q : let q := Bmult mode_NE (Bopp t) t in is_finite q = true \/ q = minf \/ q = B754_nan).
  { cbv zeta. destruct t as [b|b| |b x e p].
    - left. destruct b; reflexivity.
    - right. left. destruct b; reflexivity.
    - right. right. reflexivity.
    - set (t := B754_finite b x e p : f32).
      pose proof (Bmult_correct 24 128 prec32 emax32 mode_NE (Bopp t) t) as C.
      destruct (Rlt_bool _ _) in C.
      + left. destruct C as (_ & C & _). rewrite C. reflexivity.
      + right. left. rewrite over_inf in C. apply sf_inf in C. rewrite C. unfold t. destruct b; reflexivity. }
  set (q := Bmult mode_NE (Bopp t) t) in *. clearbody q. cbv zeta in Q.
  destruct Q as [F|[->| ->]].
  - left.
    assert (N2 : B2R (f32_div (f32_of_Z 2) (f32_of_Z 1)) = 2 ).
    { destruct (f32_of_Z_exact 2 ltac:(lia)) as [E F2]. destruct (f32_of_Z_exact 1 ltac:(lia)) as [E1 F1].
      assert (R1 : rnd32 (B2R (f32_of_Z 2) / B2R (f32_of_Z 1)) = 2).
      { rewrite E, E1. replace (2 / 1) with (IZR 2) by lra. apply rnd_exact, int_format. lia. }
      destruct (div_ok (f32_of_Z 2) (f32_of_Z 1) F2) as [A B].
      - rewrite E1. lra.
      - rewrite R1, Rabs_pos_eq by lra. change (bpow radix2 128) with (IZR (2 ^ 128)). apply IZR_lt. lia.
      - rewrite <- R1. exact A. }
    apply (below_div 128 1); [|rewrite N2, Rabs_pos_eq by lra; change (bpow radix2 1) with 2; lra|lia].
    split; [exact F|]. apply Rlt_le, (abs_B2R_lt_emax 24 128).
  - right. left. vm_compute. reflexivity.
  - right. right. reflexivity.
Qed.

Lemma inf_times (p : f32) : is_finite p = true -> 0 < B2R p -> Bmult mode_NE pinf p = pinf.
Proof.
  intros F H. destruct p as [b|b| |b x e q]; try discriminate; [cbn in H; lra|].
  destruct b; [|reflexivity]. exfalso. cbn [B2R] in H.
  assert (F2R (Float radix2 (SpecFloat.cond_Zopp true (Z.pos x)) e) < 0) by (apply F2R_lt_0; cbn; lia). lra.
Qed.

Lemma posterior_wall lm (p e : f32) : exp_full (l_exp lm) ->
  is_finite p = true -> 0 <= B2R p <= 1 -> @latched (Fops lm) p = false -> is_finite e = true ->
  @posterior (Fops lm) p e minf = Ret prob_one.
Proof.
  intros (_ & Xi & Xn) Fp Hp Hl Fe. destruct (unlatched lm p Fp Hp Hl) as (P0 & Fq & Hq).
  unfold posterior. cbv zeta. cbn [ltb sub mul add div nexp Fops]. change (@num (Fops lm)) with f32.
  replace (Bltb e minf) with false by (destruct e as [[]| | |[]]; try discriminate; reflexivity).
  replace (Bminus mode_NE e minf) with pinf by (destruct e as [[]| | |[]]; try discriminate; reflexivity).
  rewrite Xi, (inf_times p Fp P0), infinite_inf. reflexivity.
Qed.

Lemma posterior_open lm (p n : f32) : exp_full (l_exp lm) ->
  is_finite p = true -> 0 <= B2R p <= 1 -> @latched (Fops lm) p = false -> is_finite n = true ->
  @posterior (Fops lm) p minf n = Ret prob_zero.
Proof.
  intros (_ & Xi & Xn) Fp Hp Hl Fe. destruct (unlatched lm p Fp Hp Hl) as (P0 & Fq & Hq).
  unfold posterior, prob_reverse. cbv zeta. cbn [ltb sub mul add div nexp n1 lit Fops]. fold f1. change (@num (Fops lm)) with f32.
  replace (Bltb minf n) with true by (destruct n as [[]| | |[]]; try discriminate; reflexivity).
  replace (Bminus mode_NE n minf) with pinf by (destruct n as [[]| | |[]]; try discriminate; reflexivity).
  change (Bminus mode_NE minf minf) with (B754_nan : f32). rewrite Xn, Xi, (inf_times _ Fq Hq).
  change (Bmult mode_NE B754_nan p) with (B754_nan : f32). rewrite infinite_inf. reflexivity.
Qed.

Lemma posterior_none lm (p : f32) : exp_full (l_exp lm) -> @posterior (Fops lm) p minf minf = Panic.
Proof.
  intros (_ & Xi & Xn). unfold posterior. cbv zeta. cbn [ltb sub mul add div nexp Fops].
  change (Bltb minf minf) with false. cbv iota.
  change (Bminus mode_NE minf minf) with (B754_nan : f32). rewrite Xn.
  reflexivity.
Qed.

Lemma detect_cases lm W (d : @detector (Fops lm)) m s (p : @pose (Fops lm)) : supported W ->
  exp_full (l_exp lm) -> d_converter d = converter_default -> stored_unit lm W d ->
  is_nan (p_x p : f32) = false -> is_nan (p_y p : f32) = false ->
  let bad := exists i, convert W converter_default p = Ret (Some i) /\
    @latched (Fops lm) (belief W d (w_coord i)) = false /\ hopeless lm m s i in
  (bad -> detect_and_update W d m s p = Panic) /\
  (~ bad -> exists d' a, detect_and_update W d m s p = Ret (d', a)).
Proof.
  intros HW Hex Hcv [Hl Hu] Nx Ny. unfold detect_and_update. rewrite Hcv.
  destruct (convert_total W (@converter_default (Fops lm)) p ltac:(rewrite default_width; lia) Nx Ny) as ([i|] & E);
    rewrite E; cbn [bind]; cbv zeta.
  2:{ split; [intros (i & Q & _); discriminate|eauto]. }
  pose proof (convert_valid W HW _ _ _ E) as Hv.
  unfold wall_existence. rewrite aget_ok by (rewrite Hl; apply (as_index_que W _ HW (proj1 Hv))). cbn [bind].
  fold (belief W d (w_coord i)). fold (latched (belief W d (w_coord i))).
  destruct (latched (belief W d (w_coord i))) eqn:El.
  { split; [intros (j & Q & L & _); injection Q as <-; rewrite El in L; discriminate|eauto]. }
  destruct (Hu _ Hv) as [Fb Hb].
  set (e := @log_likelihood (Fops lm) (length_of (w_existing i)) m s : f32).
  set (n := @log_likelihood (Fops lm) (length_of (w_not_existing i)) m s : f32).
  pose proof (exponent_cases lm (length_of (w_existing i)) m s) as Ce. pose proof (exponent_cases lm (length_of (w_not_existing i)) m s) as Cn.
  cbv zeta in Ce, Cn. fold e in Ce. fold n in Cn.
  assert (Go : forall q, @posterior (Fops lm) (belief W d (w_coord i)) e n = Ret q -> is_nan e = false -> is_nan n = false ->
    exists d' a, (if @isnan (Fops lm) e || @isnan (Fops lm) n then Panic
      else let* q := @posterior (Fops lm) (belief W d (w_coord i)) e n in
           let* d1 := set_existence W d (w_coord i) q in Ret (d1, Some (w_coord i, state_of q))) = Ret (d', a)).
  { intros q Eq E1 E2. cbn [isnan Fops]. rewrite E1, E2. cbn [orb]. rewrite Eq. cbn [bind].
    unfold set_existence. rewrite aset_ok by (rewrite Hl; apply (as_index_que W _ HW (proj1 Hv))). cbn [bind]. eauto. }
  assert (NN : forall x : f32, is_finite x = true -> is_nan x = false) by (intros [| | |]; try discriminate; reflexivity).
  assert (Bad : hopeless lm m s i -> exists j, Ret (Some i) = Ret (Some j) /\
    @latched (Fops lm) (belief W d (w_coord j)) = false /\ hopeless lm m s j) by (intros H; exists i; auto).
  assert (Bad' : (exists j, Ret (Some i) = Ret (Some j) /\
    @latched (Fops lm) (belief W d (w_coord j)) = false /\ hopeless lm m s j) -> hopeless lm m s i)
    by (intros (j & Q & _ & H); injection Q as <-; exact H).
  split.
  - intros H. apply Bad' in H. unfold hopeless in H. cbv zeta in H. fold e n in H.
    destruct H as [H|[H|[H1 H2]]].
    + rewrite H. reflexivity.
    + rewrite H. cbn [isnan Fops]. rewrite orb_comm. reflexivity.
    + rewrite H1, H2. cbn [isnan Fops is_nan orb]. rewrite (posterior_none lm _ Hex). reflexivity.
  - intros H. destruct Ce as [Fe|[Ee|Ee]].
    + destruct Cn as [Fn|[En|En]].
      * destruct (posterior_safe lm _ _ _ (proj1 Hex) Fb Hb El Fe Fn) as (q & Eq). apply (Go q Eq); apply NN; assumption.
      * apply (Go prob_one); [rewrite En; apply (posterior_wall lm _ _ Hex Fb Hb El Fe)|apply NN, Fe|rewrite En; reflexivity].
      * exfalso. apply H, Bad. right. left. exact En.
    + destruct Cn as [Fn|[En|En]].
      * apply (Go prob_zero); [rewrite Ee; apply (posterior_open lm _ _ Hex Fb Hb El Fn)|rewrite Ee; reflexivity|apply NN, Fn].
      * exfalso. apply H, Bad. right. right. split; assumption.
      * exfalso. apply H, Bad. right. left. exact En.
    + exfalso. apply H, Bad. left. exact Ee.
Qed.
