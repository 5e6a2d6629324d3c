(** Moves that never end in binary32; whole slaloms. *)
From Coq Require Import ZArith Reals List Bool Lra Lia Psatz.
From Flocq Require Import Core BinarySingleNaN.
From Verif Require Import Base Num NumLemmas SearchModel RunModel ControlModel TrajModel TrajSpec
  TrajProofs TrajProofs2 TrajProofs3 TrajProofs4 TrajProofs5.
Import ListNotations.

(** nothing is greater. *)
Definition endless (x : f32) : bool :=
  match x with B754_nan => true | B754_infinity false => true | _ => false end.

Lemma endless_spec x y : endless x = true -> Bltb x y = false.
Proof.
  destruct x as [s|[|]| |s m e B]; try discriminate; intros _.
  - destruct y as [s|[|]| |[|] m e B]; reflexivity.
  - destruct y; reflexivity.
Qed.

Section F32.
Variable l : libm.
Notation K := (Fops l).

Lemma straight_endless (s : @straight_traj K) : endless (st_t_end s) = true ->
  forall n, output straight_next n s <> None.
Proof.
  intros H n. revert s H. induction n as [|n IH]; intros s H.
  - unfold output. cbn [after Nat.iter nat_rect]. unfold straight_next.
    change (@ltb K) with (@Bltb 24 128). rewrite endless_spec by exact H. discriminate.
  - rewrite output_S. apply IH. unfold straight_next.
    change (@ltb K) with (@Bltb 24 128). rewrite endless_spec by exact H. exact H.
Qed.

Lemma spin_endless (s : @spin_traj K) : endless (sp_t_end s) = true ->
  forall n, output spin_next n s <> None.
Proof.
  intros H n. revert s H. induction n as [|n IH]; intros s H.
  - unfold output. cbn [after Nat.iter nat_rect]. unfold spin_next.
    change (@ltb K) with (@Bltb 24 128). rewrite endless_spec by exact H. discriminate.
  - rewrite output_S. apply IH. unfold spin_next.
    change (@ltb K) with (@Bltb 24 128). rewrite endless_spec by exact H. exact H.
Qed.

Definition unit_gen : @generator K := @Generator K n1 n1 n1.

Lemma zero_move_endless : endless (st_t_end (straight_generate (@StraightGenerator K unit_gen n1) n0 n0 n0)) = true.
Proof. vm_compute. reflexivity. Qed.

(** 2^-60 *)
Definition tiny : f32 := binary_normalize 24 128 prec32 emax32 mode_NE 1 (-60) false.

Lemma tiny_spin_endless : endless (sp_t_end (@spin_generate K unit_gen n1 tiny)) = true.
Proof. vm_compute. reflexivity. Qed.
End F32.

Open Scope R_scope.

(** ** Whole slaloms *)

Lemma constant_ok (d v p : R) : 0 <= d -> 0 < v -> 0 < p ->
  yields straight_next (@straight_generate_constant Rops d v p) (samples (d / v) p) /\
  forall n, (n < samples (d / v) p)%nat ->
    output straight_next n (@straight_generate_constant Rops d v p) = Some (along v (v * (INR n * p))).
Proof.
  intros Hd Hv Hp. unfold straight_generate_constant, generate_constant. rewrite n0_R. rops.
  assert (Q : 0 <= d / v) by (apply Rle_mult_inv_pos; assumption).
  destruct (Rltb_spec (d / v) 0) as [N0|_]; [lra|].
  destruct (straight_sampled (d / v) p Hp (@SConst Rops (@ConstCalc Rops (d / v)%R 0%R v))) as [Y O].
  split; [exact Y|]. intros n L. apply (floor_count (d / v) p n Hp) in L. rewrite (O n L).
  f_equal. unfold along. rewrite def_R. f_equal. cbn [straight_calculate]. unfold const_calculate.
  cbn [cc_t_end cc_x_start cc_v]. rops.
  destruct (Rltb_spec (d / v) (INR n * p)); [lra|].
  destruct (Rltb_spec (INR n * p) (0 / 1)) as [N|_].
  - exfalso. pose proof (pos_INR n). assert (0 <= INR n * p) by (apply Rmult_le_pos; lra). lra.
  - cbn [orb]. replace (0 / 1) with 0 by field. rewrite Rplus_0_l. reflexivity.
Qed.

Lemma slalom_ok (q : @slalom_params Rops) (p v : R) :
  0 <= l_start q -> 0 <= l_end q -> 0 < v -> 0 < p ->
  limits (slalom_gen q v) -> big_enough (slalom_gen q v) (sl_theta q) ->
  let s := @generate_constant_slalom Rops p q v in
  let c := @generate_curve Rops p (l_start q) 0%R 0%R (sl_theta q) v (v_ref q) (dtheta q) (ddtheta q) (dddtheta q) in
  let a := samples (l_start q / v) p in
  let b := samples (l_end q / v) p in
  exists T, 0 <= T /\
    yields (slalom_next q) s (a + samples T p + b) /\
    (forall k, (k < a)%nat -> output (slalom_next q) k s = Some (along v (v * (INR k * p)))) /\
    (forall k, (k < samples T p)%nat -> output (slalom_next q) (a + k) s = output curve_next k c) /\
    (forall k, (k < b)%nat -> output (slalom_next q) (a + samples T p + k) s =
       Some (shift (@Pose Rops (x_curve_end q) (y_curve_end q) (sl_theta q)) (along v (v * (INR k * p))))) /\
    (forall k t, output (slalom_next q) k s = Some t ->
       tv (t_x t) = v * cos (tx (t_theta t)) /\ tv (t_y t) = v * sin (tx (t_theta t))).
Proof.
  intros Hs He Hv Hp Lg B. cbv zeta.
  destruct (constant_ok (l_start q) v p Hs Hv Hp) as [Ya Oa].
  destruct (constant_ok (l_end q) v p He Hv Hp) as [Yb Ob].
  destruct (curve_ok p (l_start q) 0 0 (sl_theta q) v (v_ref q) (dtheta q) (ddtheta q) (dddtheta q) Lg B Hp)
    as (f & T & (T0 & _) & Yc & _ & _ & th & vx & vy & ax & ay & DV & OC).
  exists T. split; [exact T0|].
  unfold generate_constant_slalom. rewrite n0_R.
  set (sa := @straight_generate_constant Rops (l_start q) v p) in *.
  set (sb := @straight_generate_constant Rops (l_end q) v p) in *.
  set (c := @generate_curve Rops p (l_start q) 0%R 0%R _ _ _ _ _ _) in *.
  change (Z.to_nat (Zfloor (T / p) + 1)) with (samples T p) in Yc.
  set (a := samples (l_start q / v) p) in *. set (b := samples (l_end q / v) p) in *.
  set (m := samples T p) in *.
  assert (Y1 := chain_yields straight_next curve_next sa c a m Ya Yc).
  assert (Y3 : yields (shift_next (curve_end q) straight_next) sb b) by (apply shift_yields; exact Yb).
  assert (Y := chain_yields _ _ _ _ _ _ Y1 Y3). fold (slalom_next q) in Y.
  assert (O : forall k, output (slalom_next q) k (Some (Some sa, c), sb) =
    if (k <? a + m)%nat then (if (k <? a)%nat then output straight_next k sa else output curve_next (k - a) c)
    else option_map (shift (curve_end q)) (output straight_next (k - (a + m)) sb)).
  { intros k. etransitivity; [exact (chain_output _ (shift_next (curve_end q) straight_next) _ _ sb k Y1)|].
    rewrite (chain_output _ _ _ _ _ k Ya), shift_output. reflexivity. }
  split; [exact Y|].
  assert (O1 : forall k, (k < a)%nat -> output (slalom_next q) k (Some (Some sa, c), sb) = Some (along v (v * (INR k * p)))).
  { intros k L. rewrite O. destruct (Nat.ltb_spec k (a + m)); [|lia]. destruct (Nat.ltb_spec k a); [|lia]. apply Oa, L. }
  assert (O2 : forall k, (k < m)%nat -> output (slalom_next q) (a + k) (Some (Some sa, c), sb) = output curve_next k c).
  { intros k L. rewrite O. destruct (Nat.ltb_spec (a + k) (a + m)); [|lia]. destruct (Nat.ltb_spec (a + k) a); [lia|].
    f_equal. lia. }
  assert (O3 : forall k, (k < b)%nat -> output (slalom_next q) (a + m + k) (Some (Some sa, c), sb) =
    Some (shift (curve_end q) (along v (v * (INR k * p))))).
  { intros k L. rewrite O. destruct (Nat.ltb_spec (a + m + k) (a + m)); [lia|].
    replace (a + m + k - (a + m))%nat with k by lia. rewrite (Ob k L). reflexivity. }
  split; [exact O1|]. split; [exact O2|]. split; [exact O3|].
  assert (G : forall x, tv (t_x (along v x)) = v * cos (tx (t_theta (along v x))) /\
     tv (t_y (along v x)) = v * sin (tx (t_theta (along v x)))).
  { intros x. unfold along. cbn [t_x t_y t_theta tx tv]. rewrite cos_0, sin_0. rops. lra. }
  intros k t H.
  assert (Lk : (k < a + m + b)%nat).
  { apply Y. intros N. change (output (slalom_next q) k (Some (Some sa, c), sb) = None) in N.
    rewrite N in H. discriminate H. }
  destruct (Nat.lt_ge_cases k a) as [L|L].
  { rewrite (O1 k L) in H. injection H as <-. apply G. }
  destruct (Nat.lt_ge_cases k (a + m)) as [L'|L'].
  { replace k with (a + (k - a))%nat in H by lia. rewrite O2 in H by lia.
    destruct (OC _ _ H) as (_ & E1 & _ & E2 & E3 & _).
    destruct (DV (INR (k - a) * p)) as (D1 & D2 & _). rewrite E1, E2, E3, D1, D2. auto. }
  replace k with (a + m + (k - (a + m)))%nat in H by lia. rewrite O3 in H by lia. injection H as <-.
  set (x := v * _). unfold shift, along. cbn [t_x t_y t_theta tx tv curve_end p_theta]. rops.
  rewrite Rplus_0_l. split; rops; ring.
Qed.
