(** The two nearest crossings. *)
From Coq Require Import ZArith Reals List Bool Lia Lra Psatz.
From Flocq Require Import Core.
From Verif Require Import Base SearchModel SearchSpec SearchCoord WallsLemmas Num TrajModel DetectModel DetectSpec DetectProofs.
Import ListNotations.
Open Scope R_scope.

Lemma ray_distance_R (a c : R) : c <> 0 -> 0 <= a / c -> @ray_distance Rops a c = Some (a / c).
Proof.
  intros Hc Ha. unfold ray_distance, is_infinite. rops. cbn [andb orb].
  destruct (Reqb_spec c (0 / 1)); [lra|].
  destruct (Rltb_spec (a / c) (0 / 1)); [lra|]. reflexivity.
Qed.

Lemma ray_distance_0 (a : R) : @ray_distance Rops a 0 = None.
Proof. unfold ray_distance. rops. destruct (Reqb_spec 0 (0 / 1)); [reflexivity|lra]. Qed.

Lemma axis_dist b (c v : R) : half_wall < v < side_len - half_wall -> 0 <= sg b * c -> c <> 0 ->
  exists a P : R, 0 < a < P /\ a * c = face b - v /\ P * c = sg b * side_len /\
    @ray_distance Rops (face b - v)%R c = Some a /\
    @ray_distance Rops (face b + sg b * side_len - v)%R c = Some (a + P)%R.
Proof.
  intros Hv Hc Hn. exists ((face b - v) / c), (sg b * side_len / c).
  assert (Hs : 0 < sg b * c).
  { destruct Hc as [|E]; [assumption|]. destruct b; cbn in *; lra. }
  assert (Ei : / c = sg b / (sg b * c)) by (destruct b; cbn in *; field; lra).
  assert (Hi : 0 < / (sg b * c)) by (apply Rinv_0_lt_compat; assumption).
  assert (Hf : 0 < sg b * (face b - v) < side_len).
  { unfold side_len, half_wall in *. destruct b; cbn; unfold side_len, half_wall; lra. }
  assert (Hsq : sg b * sg b = 1) by (destruct b; cbn; ring).
  assert (Ha : (face b - v) / c = sg b * (face b - v) * / (sg b * c)) by (unfold Rdiv; rewrite Ei; unfold Rdiv; ring).
  assert (HP : sg b * side_len / c = side_len * / (sg b * c)).
  { unfold Rdiv. rewrite Ei. unfold Rdiv. transitivity (sg b * sg b * side_len * / (sg b * c)); [ring|].
    rewrite Hsq. ring. }
  split; [rewrite Ha, HP; split; nra|].
  split; [field; assumption|]. split; [field; assumption|].
  split; [apply ray_distance_R; [assumption|rewrite Ha; nra]|].
  replace ((face b - v) / c + sg b * side_len / c) with ((face b + sg b * side_len - v) / c) by (field; assumption).
  apply ray_distance_R; [assumption|].
  replace ((face b + sg b * side_len - v) / c) with ((face b - v) / c + sg b * side_len / c) by (field; assumption).
  rewrite Ha, HP. unfold side_len in *. nra.
Qed.

Lemma facing_axis b (c v a P u : R) (i : Z) : c <> 0 -> a * c = face b - v -> P * c = sg b * side_len ->
  (exists k : Z, IZR i * side_len + v + u * c = IZR k * side_len - sg b * half_wall) <->
  exists m : Z, u = a + IZR m * P.
Proof.
  intros Hc Ea EP. split.
  - intros (k & E). exists (if b then k - i - 1 else i - k)%Z.
    apply (Rmult_eq_reg_r c); [|exact Hc]. rewrite Rmult_plus_distr_r, Rmult_assoc, EP, Ea.
    destruct b; cbn [sg face] in *; rewrite ?minus_IZR; lra.
  - intros (m & ->). exists (if b then m + i + 1 else i - m)%Z.
    rewrite Rmult_plus_distr_r, Rmult_assoc, EP, Ea.
    destruct b; cbn [sg face] in *; rewrite ?minus_IZR, ?plus_IZR; lra.
Qed.

Lemma no_earlier a P u (m : Z) : 0 < a < P -> 0 < u -> u = a + IZR m * P -> a <= u.
Proof.
  intros H Hu ->. destruct (Z_le_gt_dec 0 m) as [Hm|Hm].
  - apply IZR_le in Hm. nra.
  - assert (Hm' : (m <= - 1)%Z) by lia. apply IZR_le in Hm'. nra.
Qed.

Lemma no_between a P u (m : Z) : 0 < a < P -> a < u -> u = a + IZR m * P -> a + P <= u.
Proof.
  intros H Hu ->. destruct (Z_le_gt_dec 1 m) as [Hm|Hm].
  - apply IZR_le in Hm. nra.
  - assert (Hm' : (m <= 0)%Z) by lia. apply IZR_le in Hm'. nra.
Qed.

(** ** Sorting *)

Ltac sort_by := unfold sort_distances; cbn [fold_right insert snd dist_lt]; rops;
  repeat (match goal with
   | |- context [Rltb ?x ?y] => destruct (Rltb_spec x y); try (exfalso; lra)
   end; cbn [insert snd dist_lt]; rops).

Notation dl := (list (direction * option (@num Rops))).

Lemma sort_y (dx dy : direction) (b b2 : R) : b < b2 ->
  exists l : dl, @sort_distances Rops [(dx, None); (dx, None); (dy, Some b); (dy, Some b2)] =
    (dy, Some b) :: (dy, Some b2) :: l.
Proof. intros H. eexists. sort_by. reflexivity. Qed.

Lemma sort_x (dx dy : direction) (a a2 : R) : a < a2 ->
  exists l : dl, @sort_distances Rops [(dx, Some a); (dx, Some a2); (dy, None); (dy, None)] =
    (dx, Some a) :: (dx, Some a2) :: l.
Proof. intros H. eexists. sort_by. reflexivity. Qed.

Lemma sort_xy (dx dy : direction) (a a2 b b2 : R) : a < a2 -> b < b2 -> a <> b ->
  exists d (l : dl), @sort_distances Rops [(dx, Some a); (dx, Some a2); (dy, Some b); (dy, Some b2)] =
    (if Rltb a b then dx else dy, Some (Rmin a b)) ::
    (d, Some (if Rltb a b then Rmin a2 b else Rmin a b2)) :: l.
Proof.
  intros Ha Hb Hn. unfold sort_distances; cbn [fold_right insert snd dist_lt]; rops.
  unfold Rmin.
  destruct (Rltb_spec a b), (Rle_dec a b), (Rltb_spec b2 b), (Rle_dec a2 b), (Rle_dec a b2); try (exfalso; lra);
  cbn [insert snd dist_lt]; rops;
  repeat (match goal with
   | |- context [Rltb ?x ?y] => destruct (Rltb_spec x y); try (exfalso; lra)
   end; cbn [insert snd dist_lt]; rops); do 2 eexists; try reflexivity.
Qed.
