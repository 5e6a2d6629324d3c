(** Readings of ordinary size do not panic in binary32. *)
From Coq Require Import ZArith Reals List Bool Lia Lra.
From Flocq Require Import Core BinarySingleNaN.
From Verif Require Import Base SearchModel SearchSpec SearchCoord WallsModel WallsSpec Num NumLemmas FloatMag TrajModel
  DetectModel DetectSpec DetectProofs DetectProofs2 DetectProofs3 DetectProofs4 DetectProofs5 DetectProofs6 DetectProofs7
  DetectProofs8.
Import ListNotations.
Open Scope R_scope.

Lemma fin_not_nan (x : f32) : is_finite x = true -> is_nan x = false.
Proof. destruct x; try discriminate; reflexivity. Qed.

Lemma sub_not_nan (x y : f32) : is_nan x = false -> is_finite y = true -> is_nan (Bminus mode_NE x y) = false.
Proof.
  intros Nx Fy. destruct (is_finite x) eqn:Fx.
  - pose proof (Bminus_correct 24 128 prec32 emax32 mode_NE x y Fx Fy) as C.
    destruct (Rlt_bool _ _) in C.
    + apply fin_not_nan. apply C.
    + destruct C as [C _]. rewrite over_inf in C. apply sf_inf in C. rewrite C. reflexivity.
  - destruct x as [|b| |]; try discriminate. destruct y as [| | |]; try discriminate; reflexivity.
Qed.

Lemma div_not_nan (x y : f32) : is_nan x = false -> is_finite y = true -> B2R y <> 0 -> is_nan (f32_div x y) = false.
Proof.
  intros Nx Fy N. destruct (is_finite x) eqn:Fx.
  - pose proof (Bdiv_correct 24 128 prec32 emax32 mode_NE x y N) as C. unfold f32_div.
    destruct (Rlt_bool _ _) in C.
    + apply fin_not_nan. destruct C as (_ & C & _). rewrite C. exact Fx.
    + rewrite over_inf in C. apply sf_inf in C. rewrite C. reflexivity.
  - destruct x as [|b| |]; try discriminate. destruct y as [| | |]; try discriminate; reflexivity.
Qed.

Lemma sqr_not_nan (x : f32) : is_nan x = false -> is_nan (Bmult mode_NE (Bopp x) x) = false.
Proof.
  intros Nx. destruct (is_finite x) eqn:Fx.
  - pose proof (Bmult_correct 24 128 prec32 emax32 mode_NE (Bopp x) x) as C.
    destruct (Rlt_bool _ _) in C.
    + apply fin_not_nan. destruct C as (_ & C & _). rewrite C, is_finite_Bopp, Fx. reflexivity.
    + rewrite over_inf in C. apply sf_inf in C. rewrite C. reflexivity.
  - destruct x as [|b| |]; try discriminate. reflexivity.
Qed.

Lemma two_val : is_finite (f32_div (f32_of_Z 2) (f32_of_Z 1)) = true /\ B2R (f32_div (f32_of_Z 2) (f32_of_Z 1)) = 2.
Proof.
  destruct (f32_of_Z_exact 2 ltac:(lia)) as [E F2]. destruct (f32_of_Z_exact 1 ltac:(lia)) as [E1 F1].
  assert (R1 : rnd32 (B2R (f32_of_Z 2) / B2R (f32_of_Z 1)) = 2).
  { rewrite E, E1. replace (2 / 1) with (IZR 2) by lra. apply rnd_exact, int_format. lia. }
  destruct (div_ok (f32_of_Z 2) (f32_of_Z 1) F2) as [A B].
  - rewrite E1. lra.
  - rewrite R1, Rabs_pos_eq by lra. change (bpow radix2 128) with (IZR (2 ^ 128)). apply IZR_lt. lia.
  - split; [exact B|]. rewrite <- R1. exact A.
Qed.

Lemma exponent_not_nan lm (d m s : f32) : is_nan d = false -> is_finite m = true -> is_finite s = true -> B2R s <> 0 ->
  @log_likelihood (Fops lm) d m s <> B754_nan.
Proof.
  intros Nd Fm Fs Ns E. unfold log_likelihood in E. cbn [div mul opp sub Fops n2 lit] in E.
  destruct two_val as [F2 V2].
  assert (Q : is_nan (f32_div (Bmult mode_NE (Bopp (f32_div (Bminus mode_NE d m) s)) (f32_div (Bminus mode_NE d m) s))
    (f32_div (f32_of_Z 2) (f32_of_Z 1))) = false).
  { apply div_not_nan; [|exact F2|rewrite V2; lra]. apply sqr_not_nan, div_not_nan; [|exact Fs|exact Ns].
    apply sub_not_nan; assumption. }
  change (@num (Fops lm)) with f32 in E. rewrite E in Q. discriminate.
Qed.

Lemma exponent_finite lm (d m s : f32) : below 10 d -> below 10 m -> is_finite s = true -> bpow radix2 (-40) <= B2R s ->
  is_finite (@log_likelihood (Fops lm) d m s : f32) = true.
Proof.
  intros Hd Hm Fs Ls. unfold log_likelihood. cbn [div mul opp sub Fops n2 lit]. destruct two_val as [F2 V2].
  assert (T : below 51 (f32_div (Bminus mode_NE d m) s)).
  { apply (below_div 11 (-40)); [apply (below_sub 10); [exact Hd|exact Hm|lia]| |lia].
    apply Rle_trans with (1 := Ls). apply Rle_abs. }
  apply (below_div 102 1); [|rewrite V2, Rabs_pos_eq by lra; change (bpow radix2 1) with 2; lra|lia].
  apply (below_mul 51 51); [apply below_opp, T|exact T|lia].
Qed.

(** ** The first distance is small if any distance is. *)
Section Near.
Context (lm : libm).
Notation F := (Fops lm).
Definition sane (o : option (@num F)) : Prop :=
  match o with Some v => is_finite (v : f32) = true /\ 0 <= B2R (v : f32) | None => True end.
Definition near (o : option (@num F)) : Prop :=
  exists v : f32, o = Some v /\ B2R v <= bpow radix2 10.

Lemma sort_near l : Forall (fun e => sane (snd e)) l -> Exists (fun e => near (snd e)) l ->
  Forall (fun e => sane (snd e)) (sort_distances l) /\
  exists h t, sort_distances l = h :: t /\ near (snd h).
Proof.
  assert (S : forall l, Forall (fun e => sane (snd e)) l -> Forall (fun e => sane (snd e)) (sort_distances l)).
  { induction l0 as [|e l0 IH]; intros H; [constructor|]. inversion H; subst. cbn [sort_distances fold_right].
    fold (sort_distances l0). specialize (IH H3). clear -IH H2. induction IH as [|h t Hh Ht IH]; [repeat constructor; exact H2|].
    cbn [insert]. destruct (dist_lt _ _); [constructor; [exact Hh|exact IH]|constructor; [exact H2|constructor; assumption]]. }
  intros Hs Hn. split; [exact (S l Hs)|]. revert Hs Hn. induction l as [|e l IH]; intros Hs Hn; [inversion Hn|].
  inversion Hs as [|? ? Se Sl]; subst. cbn [sort_distances fold_right]. fold (sort_distances l).
  pose proof (S l Sl) as Ss.
  destruct (sort_distances l) as [|h t] eqn:El.
  - cbn [insert]. exists e, []. split; [reflexivity|]. inversion Hn as [? ? N|? ? N]; subst; [exact N|].
    destruct (IH Sl N) as (h & t & Q & _). discriminate.
  - inversion Ss as [|? ? Sh St]; subst. cbn [insert].
    destruct (dist_lt (snd h) (snd e)) eqn:D.
    + exists h, (insert e t). split; [reflexivity|]. inversion Hn as [? ? N|? ? N]; subst.
      * destruct N as (v & Ev & Hv). unfold dist_lt in D. rewrite Ev in D. destruct (snd h) as [x|] eqn:Eh; [|discriminate].
        cbn [sane] in Sh. destruct Sh as [Fx _]. rewrite Ev in Se. cbn [sane] in Se. destruct Se as [Fv _].
        cbn [ltb Fops] in D. rewrite (Bltb_correct 24 128 x v Fx Fv) in D.
        destruct (Rlt_bool_spec (B2R (x : f32)) (B2R v)); [|discriminate]. exists x. split; [reflexivity|lra].
      * destruct (IH Sl N) as (h' & t' & Q & Hh). injection Q as <- <-. exact Hh.
    + exists e, (h :: t). split; [reflexivity|]. inversion Hn as [? ? N|? ? N]; subst; [exact N|].
      destruct (IH Sl N) as (h' & t' & Q & Hh). injection Q as <- <-. destruct Hh as (x & Eh & Hx).
      unfold dist_lt in D. rewrite Eh in D, Sh. cbn [sane] in Sh. destruct Sh as [Fx _].
      destruct (snd e) as [y|] eqn:Ee; [|discriminate]. cbn [sane] in Se. destruct Se as [Fy _].
      cbn [ltb Fops] in D. rewrite (Bltb_correct 24 128 x y Fx Fy) in D.
      destruct (Rlt_bool_spec (B2R x) (B2R (y : f32))); [discriminate|]. exists y. split; [reflexivity|lra].
Qed.

Lemma ray_sane (a b : @num F) : sane (@ray_distance F a b).
Proof.
  unfold ray_distance. destruct (eqb _ _); [exact I|].
  set (v := (a / b)%num). destruct ((v <? n0)%num || isnan v || is_infinite v) eqn:E; [exact I|].
  apply orb_false_iff in E. destruct E as [E Ei]. apply orb_false_iff in E. destruct E as [El En]. cbn [sane].
  clearbody v. change f32 in v.
  assert (Fv : is_finite v = true).
  { clear El. destruct v as [b0|b0| |b0 x e p]; try reflexivity; [|discriminate].
    rewrite (infinite_inf lm b0) in Ei. discriminate. }
  split; [exact Fv|]. cbn [ltb Fops n0 lit] in El.
  assert (Fz : is_finite (f32_div (f32_of_Z 0) (f32_of_Z 1)) = true) by (vm_compute; reflexivity).
  rewrite (Bltb_correct 24 128 v _ Fv Fz) in El.
  replace (B2R (f32_div (f32_of_Z 0) (f32_of_Z 1))) with 0 in El by (vm_compute; reflexivity).
  destruct (Rlt_bool_spec (B2R (v : f32)) 0); [discriminate|lra].
Qed.

Lemma ray_near (a b : f32) : below 0 a ->
  0 <= B2R a /\ bpow radix2 (-10) <= B2R b \/ B2R a <= 0 /\ B2R b <= - bpow radix2 (-10) ->
  is_finite b = true -> near (@ray_distance F a b).
Proof.
  intros Ha Hs Fb. pose proof (bpow_gt_0 radix2 (-10)) as P.
  assert (Fz : is_finite (f32_div (f32_of_Z 0) (f32_of_Z 1)) = true) by (vm_compute; reflexivity).
  assert (Z : B2R (f32_div (f32_of_Z 0) (f32_of_Z 1)) = 0) by (vm_compute; reflexivity).
  assert (Nb : B2R b <> 0) by lra.
  assert (Lb : bpow radix2 (-10) <= Rabs (B2R b)).
  { destruct Hs as [[_ H]|[_ H]]; [rewrite Rabs_pos_eq; lra|rewrite Rabs_left; lra]. }
  pose proof (below_div 0 (-10) a b Ha Lb ltac:(lia)) as Q. replace (0 - -10)%Z with 10%Z in Q by lia.
  assert (Pq : 0 <= B2R (f32_div a b)).
  { assert (R0 : 0 <= B2R a / B2R b).
    { unfold Rdiv. destruct Hs as [[H1 H2]|[H1 H2]].
      - apply Rmult_le_pos; [exact H1|]. apply Rlt_le, Rinv_0_lt_compat. lra.
      - rewrite <- Rmult_opp_opp. apply Rmult_le_pos; [lra|]. rewrite <- Rinv_opp. apply Rlt_le, Rinv_0_lt_compat. lra. }
    destruct (div_ok a b (proj1 Ha) Nb) as [E _].
    { assert (H : Rabs (B2R a / B2R b) <= bpow radix2 10).
      { unfold Rdiv. rewrite Rabs_mult, Rabs_inv. change 10%Z with (0 + - (-10))%Z. rewrite bpow_plus, bpow_opp.
        apply Rmult_le_compat; try apply Rabs_pos; [apply Rlt_le, Rinv_0_lt_compat; lra|apply Ha|apply Rinv_le_contravar; lra]. }
      apply (rnd_top _ 10); [lia|exact H]. }
    rewrite E, <- (round_0 radix2 fexp32 ZnearestE). apply rnd_le, R0. }
  unfold ray_distance. cbn [eqb div ltb isnan Fops n0 lit].
  rewrite (Beqb_correct 24 128 b _ Fb Fz), Z, Req_bool_false by exact Nb.
  rewrite (Bltb_correct 24 128 _ _ (proj1 Q) Fz), Z, Rlt_bool_false by exact Pq.
  rewrite (fin_not_nan _ (proj1 Q)), (infinite_fin lm _ (proj1 Q)). cbn [orb].
  exists (f32_div a b). split; [reflexivity|]. apply Rle_trans with (2 := proj2 Q). apply Rle_abs.
Qed.
End Near.
