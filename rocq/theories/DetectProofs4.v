(** The wall reported for a pose. *)
From Coq Require Import ZArith Reals List Bool Lia Lra Psatz.
From Flocq Require Import Core.
From Verif Require Import Base SearchModel SearchSpec SearchCoord WallsLemmas Num TrajModel DetectModel DetectSpec DetectProofs DetectProofs2 DetectProofs3.
Import ListNotations.
Open Scope R_scope.

Lemma hit_wall_spec W dir (i j : Z) : supported W -> (0 <= i < 128)%Z -> (0 <= j < 128)%Z ->
  forall c, hit_wall W dir i j = Some c <-> c = wall_of (side_of dir) i j /\ valid W c.
Proof.
  intros HW Hi Hj c. pose proof (supported_bounds W HW) as HB.
  assert (S8 : forall v, (0 <= v < 128)%Z -> as_u8 (Z.shiftl (as_u8 v) 1) = (2 * v)%Z).
  { intros v Hv. rewrite (as_u8_small v) by lia. rewrite shiftl1. apply as_u8_small. lia. }
  assert (CN : forall x y, (0 <= x < 256)%Z -> (0 <= y < 256)%Z -> Z.odd (x + y) = true ->
     coord_new W x y = Some c <-> c = Co x y /\ valid W c).
  { intros x y Hx Hy Ho. rewrite coord_new_spec by assumption. unfold valid, on_board.
    rewrite Ho. cbn [andb].
    destruct (Z.ltb_spec x (2 * W)), (Z.ltb_spec y (2 * W)); cbn [andb]; split; intros H1; try discriminate;
      try (injection H1 as <-; cbn; repeat split; (lia || assumption));
      try (destruct H1 as [-> _]; reflexivity);
      try (destruct H1 as [-> [[? ?] ?]]; cbn in *; lia). }
  assert (No : forall x y, (x < 0 \/ y < 0)%Z -> c = Co x y /\ valid W c -> False).
  { intros x y H (-> & [[? ?] _]). cbn in *. lia. }
  assert (O1 : forall x y, Z.odd (2 * x + 1 + 2 * y) = true) by (intros; apply odd_mod; lia).
  assert (O2 : forall x y, Z.odd (2 * x + (2 * y + 1)) = true) by (intros; apply odd_mod; lia).
  unfold hit_wall. destruct dir; cbn [side_of wall_of].
  - destruct (Z.ltb_spec i 0), (Z.ltb_spec j 0); try lia; cbn [orb]. rewrite !S8, lor1 by lia.
    apply CN; [lia|lia|apply O1].
  - destruct (Z.ltb_spec j 0); try lia. rewrite orb_false_r. destruct (Z.ltb_spec i 1).
    + split; [discriminate|]. intros H1. exfalso. eapply No; [|exact H1]. lia.
    + rewrite !S8, lor1 by lia. replace (2 * (i - 1) + 1)%Z with (2 * i - 1)%Z by lia.
      apply CN; [lia|lia|]. replace (2 * i - 1)%Z with (2 * (i - 1) + 1)%Z by lia. apply O1.
  - destruct (Z.ltb_spec i 0), (Z.ltb_spec j 0); try lia; cbn [orb]. rewrite !S8, lor1 by lia.
    apply CN; [lia|lia|apply O2].
  - destruct (Z.ltb_spec i 0); try lia. cbn [orb]. destruct (Z.ltb_spec j 1).
    + split; [discriminate|]. intros H1. exfalso. eapply No; [|exact H1]. lia.
    + rewrite !S8, lor1 by lia. replace (2 * (j - 1) + 1)%Z with (2 * j - 1)%Z by lia.
      apply CN; [lia|lia|]. replace (2 * j - 1)%Z with (2 * (j - 1) + 1)%Z by lia. apply O2.
Qed.

Lemma convert_shape W (p : @pose Rops) :
  (@convert Rops W cd p = Ret None \/ exists info, @convert Rops W cd p = Ret (Some info)) /\
  forall info, @convert Rops W cd p = Ret (Some info) ->
  exists i j dir d d2, (0 <= i)%Z /\ (0 <= j)%Z /\ free i j (point p) /\
    hit_wall W dir i j = Some (w_coord info) /\ w_existing info = Some d /\ w_not_existing info = Some d2 /\
    8 / 1000 < d /\ first_facing p 0 d /\ first_facing p d d2 /\ on_face (side_of dir) i j (ray p d) /\
    forall t, 0 <= t < d -> free i j (ray p t).
Proof.
  unfold convert. cbn [isnan Rops orb].
  destruct (remquof_spec (p_x p)) as (xr & i & E1 & Ex & Hi & _).
  destruct (remquof_spec (p_y p)) as (yr & j & E2 & Ey & Hj & _).
  rewrite E1, E2. cbn [bind].
  destruct (is_near_pillar cd _) eqn:Hnear; [split; [now left|discriminate]|].
  destruct default_vals as (_ & _ & _ & Elen & Ep & _ & En & _).
  rewrite Ep, En, Elen. rops.
  destruct (Rleb_spec xr half_wall); [split; [now left|discriminate]|].
  destruct (Rleb_spec (side_len - half_wall) xr); [split; [now left|discriminate]|].
  destruct (Rleb_spec yr half_wall); [split; [now left|discriminate]|].
  destruct (Rleb_spec (side_len - half_wall) yr); [split; [now left|discriminate]|].
  cbn [orb].
  assert (Hxr : half_wall < xr < side_len - half_wall) by lra.
  assert (Hyr : half_wall < yr < side_len - half_wall) by lra.
  destruct (crossings p i j xr yr Ex Ey Hxr Hyr Hnear) as (dir & d & d2 & dir2 & l & El & F1 & F2 & Hon & Hfree).
  change (@num Rops) with R in El. rewrite El.
  destruct (hit_wall W dir i j) as [c|] eqn:Ehit; [|split; [now left|discriminate]].
  destruct (Rleb_spec d (8 / 1000)); [split; [now left|discriminate]|].
  split; [right; eexists; reflexivity|].
  intros info E. injection E as <-. cbn [w_coord w_existing w_not_existing].
  assert (0 < half_wall) by (unfold half_wall; lra).
  exists i, j, dir, d, d2. split; [apply Hi; lra|]. split; [apply Hj; lra|].
  split. { unfold free, point. cbn [fst snd]. rewrite Ex, Ey. split; now apply within_shift. }
  repeat (split; [first [assumption|reflexivity|lra]|]). exact Hfree.
Qed.

Lemma within_between i v : within i v -> between i v.
Proof. unfold within, between, side_len, half_wall. lra. Qed.

Lemma convert_sound W (p : @pose Rops) info (i j : Z) : supported W ->
  @convert Rops W cd p = Ret (Some info) ->
  in_cell i j (point p) -> (i < 128)%Z -> (j < 128)%Z ->
  exists s d d2, w_coord info = wall_of s i j /\ valid W (w_coord info) /\
    w_existing info = Some d /\ w_not_existing info = Some d2 /\ 8 / 1000 < d /\
    first_facing p 0 d /\ first_facing p d d2 /\ on_face s i j (ray p d) /\
    forall t, 0 <= t < d -> free i j (ray p t).
Proof.
  intros HW E [Hx Hy] Hi Hj.
  destruct (proj2 (convert_shape W p) info E) as (i' & j' & dir & d & d2 & Hi0 & Hj0 & [Fx Fy] & Hh & E1 & E2 & Hd & F1 & F2 & Hon & Hfr).
  assert (i' = i) by (eapply between_unique; [apply within_between; exact Fx|exact Hx]).
  assert (j' = j) by (eapply between_unique; [apply within_between; exact Fy|exact Hy]).
  subst i' j'. apply hit_wall_spec in Hh; [|assumption|lia|lia]. destruct Hh as [Ec Hv].
  exists (side_of dir), d, d2. repeat (split; [first [assumption|exact Ec]|]). exact Hfr.
Qed.

Lemma line_shift (p : @pose Rops) (i j : Z) (xr yr : R) (q : R * R) :
  p_x p = IZR i * side_len + xr -> p_y p = IZR j * side_len + yr ->
  line_distance p (IZR i * side_len + fst q, IZR j * side_len + snd q) =
  Rabs (sin (p_theta p) * (xr - fst q) - cos (p_theta p) * (yr - snd q)).
Proof. intros Ex Ey. unfold line_distance. cbn [fst snd]. rewrite Ex, Ey. f_equal. ring. Qed.

Lemma pillar_shift s (i j : Z) (q : R * R) : pillar_of s 0 0 q ->
  pillar_of s i j (IZR i * side_len + fst q, IZR j * side_len + snd q).
Proof.
  unfold pillar_of. replace (0 * side_len) with 0 by ring.
  destruct s; intros [-> | ->]; cbn [fst snd];
    first [left; f_equal; ring | right; f_equal; ring].
Qed.

Lemma not_near (p : @pose Rops) (i j : Z) (xr yr : R) :
  p_x p = IZR i * side_len + xr -> p_y p = IZR j * side_len + yr -> clear_of_pillars p i j ->
  @is_near_pillar Rops cd (@Pose Rops xr yr (p_theta p)) = false.
Proof.
  intros Ex Ey Hcl.
  destruct (axes_spec (p_theta p)) as (bx & by_ & _ & _ & _ & s & A & B & Hs & Epil & _ & Hin).
  unfold is_near_pillar. cbn [p_x p_y p_theta]. rewrite Epil.
  destruct default_vals as (_ & _ & Erad & _). rewrite Erad. rops.
  assert (H : forall q, q = A \/ q = B -> 1 / 100 <= Rabs (sin (p_theta p) * (xr - fst q) - cos (p_theta p) * (yr - snd q))).
  { intros q Hq. rewrite <- (line_shift p i j xr yr q Ex Ey). apply (Hcl s); [now apply ahead_heads|].
    apply pillar_shift. now apply Hin. }
  pose proof (H A (or_introl eq_refl)). pose proof (H B (or_intror eq_refl)).
  destruct (Rltb_spec (Rabs (sin (p_theta p) * (xr - fst A) - cos (p_theta p) * (yr - snd A))) (1 / 100)); [lra|].
  destruct (Rltb_spec (Rabs (sin (p_theta p) * (xr - fst B) - cos (p_theta p) * (yr - snd B))) (1 / 100)); [lra|].
  reflexivity.
Qed.

Lemma convert_general W (p : @pose Rops) (i j : Z) :
  (0 <= i < 1000000)%Z -> (0 <= j < 1000000)%Z -> free i j (point p) -> clear_of_pillars p i j ->
  (forall t, 0 <= t <= 8 / 1000 -> free i j (ray p t)) ->
  exists dir d d2, first_facing p 0 d /\ first_facing p d d2 /\ on_face (side_of dir) i j (ray p d) /\
    @convert Rops W cd p = Ret (match hit_wall W dir i j with
                                | Some c => Some (@WallInfo Rops c (Some d) (Some d2)) | None => None end).
Proof.
  intros Hi Hj [Fx Fy] Hcl H8.
  unfold convert. cbn [isnan Rops orb].
  destruct (remquof_spec (p_x p)) as (xr & i' & E1 & Ex & _ & Ui).
  destruct (remquof_spec (p_y p)) as (yr & j' & E2 & Ey & _ & Uj).
  cbn [point fst snd] in Fx, Fy.
  assert (i' = i) by (apply Ui; [lia|exact Fx]). assert (j' = j) by (apply Uj; [lia|exact Fy]). subst i' j'.
  rewrite E1, E2. cbn [bind]. rewrite (not_near p i j xr yr Ex Ey Hcl).
  destruct default_vals as (_ & _ & _ & Elen & Ep & _ & En & _).
  rewrite Ep, En, Elen. rops.
  assert (Hxr : half_wall < xr < side_len - half_wall) by (unfold within in Fx; lra).
  assert (Hyr : half_wall < yr < side_len - half_wall) by (unfold within in Fy; lra).
  destruct (Rleb_spec xr half_wall); [lra|].
  destruct (Rleb_spec (side_len - half_wall) xr); [lra|].
  destruct (Rleb_spec yr half_wall); [lra|].
  destruct (Rleb_spec (side_len - half_wall) yr); [lra|].
  cbn [orb].
  destruct (crossings p i j xr yr Ex Ey Hxr Hyr (not_near p i j xr yr Ex Ey Hcl)) as (dir & d & d2 & dir2 & l & El & F1 & F2 & Hon & Hfree).
  change (@num Rops) with R in El. rewrite El.
  exists dir, d, d2. split; [exact F1|]. split; [exact F2|]. split; [exact Hon|].
  destruct (hit_wall W dir i j); [|reflexivity].
  destruct (Rleb_spec d (8 / 1000)) as [Hd|]; [exfalso|reflexivity].
  assert (Hr : free i j (ray p d)) by (apply H8; destruct F1; lra).
  destruct Hr as [R1 R2]. unfold within in R1, R2.
  destruct (side_of dir); cbn [on_face] in Hon; destruct Hon as [Hon _]; lra.
Qed.

Lemma convert_complete W (p : @pose Rops) (i j : Z) : supported W ->
  (0 <= i < 128)%Z -> (0 <= j < 128)%Z -> free i j (point p) -> clear_of_pillars p i j ->
  (forall t, 0 <= t <= 8 / 1000 -> free i j (ray p t)) ->
  (forall s d, first_facing p 0 d -> on_face s i j (ray p d) -> valid W (wall_of s i j)) ->
  exists info, @convert Rops W cd p = Ret (Some info).
Proof.
  intros HW Hi Hj Hf Hcl H8 Hval.
  destruct (convert_general W p i j ltac:(lia) ltac:(lia) Hf Hcl H8) as (dir & d & d2 & F1 & F2 & Hon & E).
  assert (Hh : hit_wall W dir i j = Some (wall_of (side_of dir) i j)).
  { apply hit_wall_spec; [assumption|lia|lia|]. split; [reflexivity|]. now apply (Hval _ d). }
  rewrite Hh in E. eauto.
Qed.

(** the middle of a cell of the bottom row, facing east. *)
Definition middle (i : Z) : @pose Rops := @Pose Rops (IZR i * side_len + 45 / 1000)%R (45 / 1000)%R 0%R.

Lemma middle_ok (i : Z) : (0 <= i < 1000000)%Z ->
  free i 0 (point (middle i)) /\ clear_of_pillars (middle i) i 0 /\
  (forall t, 0 <= t <= 8 / 1000 -> free i 0 (ray (middle i) t)) /\
  (forall dir d, first_facing (middle i) 0 d -> on_face (side_of dir) i 0 (ray (middle i) d) ->
     dir = DRight /\ d = 42 / 1000) /\
  (forall d, first_facing (middle i) (42 / 1000) d -> d = 132 / 1000).
Proof.
  intros Hi. unfold middle, free, point, within, clear_of_pillars, heads_to, pillar_of, line_distance, first_facing, facing, ray.
  cbn [p_x p_y p_theta fst snd]. rewrite sin_0, cos_0. unfold side_len, half_wall.
  split; [lra|]. split; [|split; [|split]].
  - intros s q Hs Hq. destruct s.
    + destruct Hq as [-> | ->]; cbn [fst snd]; [rewrite Rabs_left1 by lra|rewrite Rabs_pos_eq by lra]; lra.
    + rewrite Rabs_R0 in Hs. lra.
    + rewrite Rabs_R1 in Hs. lra.
    + rewrite Rabs_R1 in Hs. lra.
  - intros t Ht. lra.
  - intros dir d (H1 & _ & _) Hon. destruct dir; cbn [side_of on_face] in Hon; unfold side_len, half_wall in Hon;
      cbn [fst snd] in Hon; destruct Hon as [Hon _]; try (split; [reflexivity|]; lra); lra.
  - intros d (H1 & F & Hn).
    assert (Hd : d <= 132 / 1000).
    { destruct (Rle_or_lt d (132 / 1000)) as [|H]; [assumption|exfalso].
      apply (Hn (132 / 1000)); [lra|]. left. split; [lra|]. exists (i + 2)%Z. rewrite plus_IZR. lra. }
    destruct F as [[_ (k & E)]|[[F _]|[[F _]|[F _]]]]; try lra.
    assert (A : IZR (i + 1) < IZR k) by (rewrite plus_IZR; lra).
    assert (B : IZR k <= IZR (i + 2)) by (rewrite plus_IZR; lra).
    apply lt_IZR in A. apply le_IZR in B. assert (k = (i + 2)%Z) by lia. subst k.
    rewrite plus_IZR in E. lra.
Qed.

Lemma middle_convert W (i : Z) : (0 <= i < 1000000)%Z ->
  @convert Rops W cd (middle i) = Ret (match hit_wall W DRight i 0 with
    | Some c => Some (@WallInfo Rops c (Some (42 / 1000)%R) (Some (132 / 1000)%R)) | None => None end).
Proof.
  intros Hi. destruct (middle_ok i Hi) as (H1 & H2 & H3 & H4 & H5).
  destruct (convert_general W (middle i) i 0 Hi ltac:(lia) H1 H2 H3) as (dir & d & d2 & F1 & F2 & Hon & E).
  destruct (H4 dir d F1 Hon) as [-> ->]. rewrite (H5 d2 F2) in E. exact E.
Qed.
