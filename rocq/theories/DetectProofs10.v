(** The existing distance found by the converter is short in binary32. *)
From Coq Require Import ZArith Reals List Bool Lia Lra.
From Flocq Require Import Core BinarySingleNaN.
From Verif Require Import Base SearchModel SearchSpec SearchCoord WallsModel WallsSpec Num NumLemmas FloatMag TrajModel
  DetectModel DetectSpec DetectProofs DetectProofs2 DetectProofs3 DetectProofs4 DetectProofs5 DetectProofs6 DetectProofs7
  DetectProofs8 DetectProofs9.
Import ListNotations.
Open Scope R_scope.

Lemma of_Z_below z : (Z.abs z <= 2 ^ 32)%Z -> below 32 (f32_of_Z z).
Proof.
  intros H. unfold f32_of_Z.
  pose proof (binary_normalize_correct 24 128 prec32 emax32 mode_NE z 0 false) as C.
  cbv zeta in C. replace (F2R (Float radix2 z 0)) with (IZR z) in C by (unfold F2R; simpl; lra).
  change (round radix2 (SpecFloat.fexp 24 128) (round_mode mode_NE) (IZR z)) with (rnd32 (IZR z)) in C.
  assert (B : Rabs (IZR z) <= bpow radix2 32).
  { rewrite <- abs_IZR. change (bpow radix2 32) with (IZR (2 ^ 32)). apply IZR_le, H. }
  rewrite Rlt_bool_true in C by (apply (rnd_top _ 32); [lia|exact B]).
  destruct C as (E & F & _). split; [exact F|]. rewrite E. apply rnd_below; [lia|exact B].
Qed.

Lemma to_int_bound (x : f32) : (Z.abs (f32_to_int I32_MIN I32_MAX x) <= 2 ^ 31)%Z.
Proof. unfold f32_to_int, clampZ, I32_MIN, I32_MAX. destruct x as [|[]| |]; lia. Qed.

Section Convert.
Context (lm : libm).
Notation F := (Fops lm).
Notation cv := (@converter_default F).

Lemma lower : is_finite (c_n1 cv : f32) = true /\ 0 <= B2R (c_n1 cv : f32) <= 1.
Proof.
  assert (A : is_finite (c_n1 cv : f32) = true) by (vm_compute; reflexivity). split; [exact A|].
  assert (L : Bleb (f32_of_Z 0) (c_n1 cv : f32) = true) by (vm_compute; reflexivity).
  assert (U : Bleb (c_n1 cv : f32) (f32_of_Z 1) = true) by (vm_compute; reflexivity).
  destruct (f32_of_Z_exact 0 ltac:(lia)) as [V0 F0]. destruct (f32_of_Z_exact 1 ltac:(lia)) as [V1 F1].
  rewrite (Bleb_correct 24 128 _ _ F0 A), V0 in L. rewrite (Bleb_correct 24 128 _ _ A F1), V1 in U.
  destruct (Rle_bool_spec 0 (B2R (c_n1 cv : f32))); [|discriminate].
  destruct (Rle_bool_spec (B2R (c_n1 cv : f32)) 1); [|discriminate]. lra.
Qed.
Lemma upper : is_finite (c_p1 cv : f32) = true /\ 0 <= B2R (c_p1 cv : f32) <= 1.
Proof.
  assert (A : is_finite (c_p1 cv : f32) = true) by (vm_compute; reflexivity). split; [exact A|].
  assert (L : Bleb (f32_of_Z 0) (c_p1 cv : f32) = true) by (vm_compute; reflexivity).
  assert (U : Bleb (c_p1 cv : f32) (f32_of_Z 1) = true) by (vm_compute; reflexivity).
  destruct (f32_of_Z_exact 0 ltac:(lia)) as [V0 F0]. destruct (f32_of_Z_exact 1 ltac:(lia)) as [V1 F1].
  rewrite (Bleb_correct 24 128 _ _ F0 A), V0 in L. rewrite (Bleb_correct 24 128 _ _ A F1), V1 in U.
  destruct (Rle_bool_spec 0 (B2R (c_p1 cv : f32))); [|discriminate].
  destruct (Rle_bool_spec (B2R (c_p1 cv : f32)) 1); [|discriminate]. lra.
Qed.

(** a remainder is not NaN. *)
Lemma rem_not_nan (v : f32) (r : @num F) q : is_nan v = false -> @remquof_with_width F cv v = Ret (r, q) -> is_nan (r : f32) = false.
Proof.
  intros N. unfold remquof_with_width. destruct (_ =? 0)%Z; [discriminate|]. intros E. injection E as <- _.
  cbn [sub mul of_int lit to_int Fops].
  set (z := f32_to_int I32_MIN I32_MAX _).
  assert (Hz : (Z.abs z <= 2 ^ 31)%Z).
  { apply to_int_bound. }
  clearbody z.
  apply sub_not_nan; [exact N|].
  assert (B : below 32 (f32_of_Z (Z.quot z (c_i_square_width cv) * c_i_square_width cv))).
  { apply of_Z_below. rewrite default_width.
    pose proof (Z.quot_rem' z 90). pose proof (Z.rem_bound_abs z 90 ltac:(lia)).
    assert (Z.abs (Z.quot z 90 * 90) <= Z.abs z)%Z; [|lia].
    destruct (Z.le_gt_cases 0 z).
    - pose proof (Z.rem_nonneg z 90 ltac:(lia) ltac:(lia)). pose proof (Z.quot_pos z 90 ltac:(lia) ltac:(lia)). lia.
    - pose proof (Z.rem_nonpos z 90 ltac:(lia) ltac:(lia)). lia. }
  assert (M : below 0 (f32_div (f32_of_Z 1) (f32_of_Z 1000))).
  { destruct (f32_of_Z_exact 1 ltac:(lia)) as [V1 F1]. destruct (f32_of_Z_exact 1000 ltac:(lia)) as [V2 F2].
    apply (below_le (0 - 9)); [lia|]. apply below_div; [|rewrite V2, Rabs_pos_eq by lra|lia].
    - split; [exact F1|]. rewrite V1, Rabs_pos_eq by lra. change (bpow radix2 0) with 1. lra.
    - change (bpow radix2 9) with (IZR 512). lra. }
  apply (below_mul 32 0); [exact B|exact M|lia].
Qed.

(** a number that passes neither [<= n1] nor [>= p1]. *)
Lemma inside (r : f32) : is_nan r = false -> @leb F r (c_n1 cv) = false -> @leb F (c_p1 cv) r = false ->
  is_finite r = true /\ B2R (c_n1 cv : f32) < B2R r < B2R (c_p1 cv : f32).
Proof.
  intros N A B. cbn [leb Fops] in A, B. destruct lower as [Fn _], upper as [Fp _].
  revert A B Fn Fp. generalize (c_n1 cv : f32) (c_p1 cv : f32). intros u v A B Fn Fp.
  assert (Fr : is_finite r = true).
  { destruct r as [b|b| |b m e p]; [reflexivity| |discriminate N|reflexivity]. exfalso. destruct b.
    - destruct u as [[]| | |[]]; discriminate.
    - destruct v as [[]| | |[]]; discriminate. }
  split; [exact Fr|]. rewrite (Bleb_correct 24 128 _ _ Fr Fn) in A. rewrite (Bleb_correct 24 128 _ _ Fp Fr) in B.
  destruct (Rle_bool_spec (B2R r) (B2R u)); [discriminate|].
  destruct (Rle_bool_spec (B2R v) (B2R r)); [discriminate|]. lra.
Qed.

(** the differences to the near walls. *)
Lemma gaps (r : f32) : is_finite r = true -> B2R (c_n1 cv : f32) < B2R r < B2R (c_p1 cv : f32) ->
  (below 0 (Bminus mode_NE (c_p1 cv) r) /\ 0 <= B2R (Bminus mode_NE (c_p1 cv : f32) r)) /\
  (below 0 (Bminus mode_NE (c_n1 cv) r) /\ B2R (Bminus mode_NE (c_n1 cv : f32) r) <= 0).
Proof.
  intros Fr. destruct lower as [Fn Hn], upper as [Fp Hp].
  revert Fn Hn Fp Hp. generalize (c_n1 cv : f32) (c_p1 cv : f32). intros u v Fn Hn Fp Hp H.
  assert (A : Rabs (B2R v - B2R r) <= bpow radix2 0) by (change (bpow radix2 0) with 1; apply Rabs_le; lra).
  assert (B : Rabs (B2R u - B2R r) <= bpow radix2 0) by (change (bpow radix2 0) with 1; apply Rabs_le; lra).
  destruct (minus_ok _ _ Fp Fr (rnd_top _ 0 ltac:(lia) A)) as [E1 G1].
  destruct (minus_ok _ _ Fn Fr (rnd_top _ 0 ltac:(lia) B)) as [E2 G2].
  assert (R0 : rnd32 0 = 0) by apply round_0, valid_rnd_N.
  split; (split; [split; [assumption|]|]).
  - rewrite E1. apply rnd_below; [lia|exact A].
  - rewrite E1, <- R0. apply rnd_le. lra.
  - rewrite E2. apply rnd_below; [lia|exact B].
  - rewrite E2, <- R0. apply rnd_le. lra.
Qed.

Lemma convert_near W (p : @pose F) i : is_nan (p_x p : f32) = false -> is_nan (p_y p : f32) = false ->
  steady lm (p_theta p) -> @convert F W cv p = Ret (Some i) ->
  near lm (w_existing i) /\ sane lm (w_existing i) /\ sane lm (w_not_existing i).
Proof.
  intros Nx Ny (Fc & Fs & St). unfold convert. cbn [isnan Fops]. rewrite Nx, Ny. cbn [orb].
  destruct (@remquof_with_width F cv (p_x p)) as [[x xq]| |] eqn:Ex; [|discriminate|discriminate].
  destruct (@remquof_with_width F cv (p_y p)) as [[y yq]| |] eqn:Ey; [|discriminate|discriminate].
  cbn [bind]. destruct (is_near_pillar _ _); [discriminate|].
  destruct (_ || _) eqn:Eo; [discriminate|].
  apply orb_false_iff in Eo. destruct Eo as [Eo E4]. apply orb_false_iff in Eo. destruct Eo as [Eo E3].
  apply orb_false_iff in Eo. destruct Eo as [E1 E2].
  destruct (inside x (rem_not_nan _ _ _ Nx Ex) E1 E2) as [Fx Hx].
  destruct (inside y (rem_not_nan _ _ _ Ny Ey) E3 E4) as [Fy Hy].
  destruct (gaps x Fx Hx) as [[X1 X2] [X3 X4]]. destruct (gaps y Fy Hy) as [[Y1 Y2] [Y3 Y4]].
  set (l := map _ _).
  assert (Sl : Forall (fun e => sane lm (snd e)) l).
  { unfold l. apply Forall_forall. intros e He. apply in_map_iff in He. destruct He as (a & <- & _).
    unfold axis_distance. cbn [snd]. destruct (fst a); apply ray_sane. }
  assert (Nl : Exists (fun e => near lm (snd e)) l).
  { unfold l, axes. cbv zeta in St. unfold axis_distance. cbn [nsin ncos sub Fops] in *.
    destruct (ltb (revolution (p_theta p)) (lit 1 4)).
    - cbn [map fst snd]. destruct St as [S|S].
      + apply Exists_cons_hd. cbn [snd]. apply ray_near; [exact X1|left; split; assumption|exact Fc].
      + apply Exists_cons_tl, Exists_cons_tl, Exists_cons_hd. cbn [snd]. apply ray_near; [exact Y1|left; split; assumption|exact Fs].
    - destruct (ltb (revolution (p_theta p)) (lit 1 2)); [|destruct (ltb (revolution (p_theta p)) (lit 3 4))];
      cbn [map fst snd]; (destruct St as [S|S]; [apply Exists_cons_hd|apply Exists_cons_tl, Exists_cons_tl, Exists_cons_hd]);
      cbn [snd]; apply ray_near; try assumption; auto. }
  destruct (sort_near lm l Sl Nl) as (Ss & h & t & El & Hh). clearbody l.
  rewrite El in *. destruct h as [dir e]. destruct t as [|[dir2 e2] t]; [discriminate|].
  destruct (hit_wall _ _ _ _) as [wc|]; [|discriminate].
  destruct (match e with Some _ => _ | None => _ end); [discriminate|].
  intros Q. injection Q as <-. cbn [w_existing w_not_existing].
  inversion Ss as [|? ? S1 S2]; subst. inversion S2; subst. cbn [snd] in *. auto.
Qed.

Theorem ordinary W (d : @detector F) (m s : f32) (p : @pose F) : supported W ->
  exp_full (l_exp lm) -> d_converter d = converter_default -> stored_unit lm W d ->
  is_nan (p_x p : f32) = false -> is_nan (p_y p : f32) = false -> steady lm (p_theta p) ->
  below 10 m -> is_finite s = true -> bpow radix2 (-40) <= B2R s ->
  exists d' a, @detect_and_update F W d m s p = Ret (d', a).
Proof.
  intros HW Hex Hcv Hu Nx Ny St Hm Fs Ls.
  destruct (detect_cases lm W d m s p HW Hex Hcv Hu Nx Ny) as [_ H]. apply H.
  intros (i & E & _ & B). destruct (convert_near W p i Nx Ny St E) as ((v & Ev & Lv) & Se & Sn).
  pose proof (bpow_gt_0 radix2 (-40)) as P.
  unfold hopeless in B. cbv zeta in B. rewrite Ev in *. cbn [length_of sane] in *. destruct Se as [Fv Pv].
  assert (Fe : is_finite (@log_likelihood F v m s : f32) = true).
  { apply exponent_finite; try assumption. split; [exact Fv|]. rewrite Rabs_pos_eq by exact Pv. exact Lv. }
  destruct B as [B|[B|[B _]]].
  - rewrite B in Fe. discriminate.
  - revert B. apply exponent_not_nan; [|apply Hm|exact Fs|lra].
    destruct (w_not_existing i) as [u|]; cbn [length_of]; [|vm_compute; reflexivity]. cbn [sane] in Sn. apply fin_not_nan, Sn.
  - rewrite B in Fe. discriminate.
Qed.
End Convert.
