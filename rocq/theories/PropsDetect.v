(** The properties of the wall detector and the pose converter (C49-C52, C79-C81). *)
From Coq Require Import ZArith Reals List Bool Lia Lra Permutation.
From Flocq Require Import Core BinarySingleNaN.
From Verif Require Import Base SearchModel SearchSpec SearchCoord WallsModel WallsSpec WallsLemmas Num TrajModel
  DetectModel DetectSpec DetectProofs DetectProofs2 DetectProofs3 DetectProofs4 DetectProofs5 DetectProofs6 DetectProofs7
  FloatMag DetectProofs8 DetectProofs9 DetectProofs10.
Import ListNotations.
Open Scope R_scope.

(** ** C49 *)

(** In exact arithmetic: any history runs without panic, probabilities stay probabilities, and
    the odds of a wall are multiplied by the likelihood ratios of the readings answered for it. *)
Theorem C49_bayes W (d : @detector Rops) rs : supported W -> detector_ok W d ->
  exists d' l, readings W d rs = Ret (d', l) /\ length l = length rs /\ detector_ok W d' /\
    forall c, valid W c -> 0 < belief W d c < 1 ->
      0 < belief W d' c < 1 /\ odds (belief W d' c) = odds (belief W d c) * evidence W c rs l.
Proof.
  intros HW Hd. destruct (bayes W HW rs d Hd) as (d' & l & E & L & O & B & _). exists d', l. auto.
Qed.
Print Assumptions C49_bayes.

(** A wall about which nothing was answered keeps its probability. *)
Theorem C49_others W (d : @detector Rops) rs d' l c : supported W -> detector_ok W d -> valid W c ->
  readings W d rs = Ret (d', l) -> Forall (fun a => about c a = false) l ->
  belief W d' c = belief W d c.
Proof.
  intros HW Hd Hc E Hf. destruct (bayes W HW rs d Hd) as (d2 & l2 & E2 & _ & _ & _ & B & _).
  rewrite E in E2. injection E2 as <- <-. now apply B.
Qed.
Print Assumptions C49_others.

(** The order of the readings has no influence as long as all of them are answered. *)
Theorem C49_order W (d : @detector Rops) rs rs' c d1 l1 d2 l2 : supported W -> detector_ok W d ->
  valid W c -> 0 < belief W d c < 1 -> Permutation rs rs' ->
  readings W d rs = Ret (d1, l1) -> readings W d rs' = Ret (d2, l2) ->
  all_answered W c rs l1 -> all_answered W c rs' l2 -> belief W d1 c = belief W d2 c.
Proof. intros HW. exact (order_free W HW d rs rs' c d1 l1 d2 l2). Qed.
Print Assumptions C49_order.

(** The state answered for a reading is that of the new probability; a reading is answered
    exactly when a wall is seen whose probability is not yet within f32::EPSILON of 0 or 1. *)
Theorem C49_answer W (d : @detector Rops) r : supported W -> detector_ok W d ->
  exists d' a, @detect_and_update Rops W d (r_mean r) (r_stddev r) (r_pose r) = Ret (d', a) /\
    (forall c st, a = Some (c, st) -> valid W c /\ reported (belief W d' c) st /\ sees W c r = true) /\
    (forall c, sees W c r = true -> / 8388608 <= belief W d c <= 1 - / 8388608 -> about c a = true).
Proof.
  intros HW Hd. destruct (detect_step W HW d r Hd) as (d' & a & E & _ & S1 & _ & _ & S4).
  exists d', a. split; [exact E|]. split.
  - intros c st Ea. destruct (S4 c st Ea) as [V Rp]. split; [exact V|]. split; [exact Rp|].
    apply S1. rewrite Ea. cbn. now destruct (coord_eqb_spec c c).
  - intros c Hs Hb. unfold sees in Hs. destruct Hd as (Hcv & Hl & _).
    destruct (convert W cd (r_pose r)) as [[i|]| |] eqn:Ec; try discriminate.
    revert E. unfold detect_and_update. rewrite Hcv, Ec. cbn [bind].
    destruct (coord_eqb_spec (w_coord i) c) as [<-|]; [|discriminate].
    pose proof (convert_valid W HW _ _ _ Ec) as Hv.
    unfold wall_existence. rewrite aget_ok by (rewrite Hl; apply (as_index_que W _ HW (proj1 Hv))). cbn [bind].
    fold (belief W d (w_coord i)).
    assert (Z0 : @is_zero Rops (belief W d (w_coord i)) = false).
    { unfold is_zero, EPSILON. rops. rewrite Rabs_pos_eq by lra.
      destruct (Rltb_spec (belief W d (w_coord i)) (1 / 8388608)); [lra|reflexivity]. }
    assert (Z1 : @is_one Rops (belief W d (w_coord i)) = false).
    { unfold is_one, EPSILON. rops. rewrite Rabs_left1 by lra.
      destruct (Rltb_spec (- (belief W d (w_coord i) - 1 / 1)) (1 / 8388608)); [lra|reflexivity]. }
    rewrite Z0, Z1. cbn [orb isnan Rops].
    destruct (posterior _ _ _); cbn [bind]; try discriminate.
    unfold set_existence. rewrite aset_ok by (rewrite Hl; apply (as_index_que W _ HW (proj1 Hv))). cbn [bind].
    intros E; injection E as <- <-. cbn. now destruct (coord_eqb_spec (w_coord i) (w_coord i)).
Qed.
Print Assumptions C49_answer.

(** The detectors of new and with_walls meet the hypotheses. *)
Theorem C49_start W : supported W ->
  detector_ok W (@detector_new Rops) /\ (forall c, belief W (@detector_new Rops) c = 1 / 2) /\
  forall w st, holds W w st -> exists d, @with_walls Rops W w = Ret d /\ detector_ok W d /\
    forall c, valid W c ->
      belief W d c = match st c with Unchecked => 1 / 2 | Checked true => 1 | Checked false => 0 end.
Proof.
  intros HW. destruct (new_ok W) as [H1 H2]. split; [exact H1|]. split; [exact H2|]. intros w st. now apply with_walls_R.
Qed.
Print Assumptions C49_start.

(** In the middle of cell (0, 0), facing east, a reading of 42 mm with 10 mm deviation is 81/2
    in favour (natural logarithm of the ratio) of the wall right of the cell. *)
Definition reading0 : @reading Rops := @Reading Rops (42 / 1000)%R (10 / 1000)%R (middle 0).

Example C49_example : supported 16 /\ valid 16 (Co 1 0) /\ sees 16 (Co 1 0) reading0 = true /\
  likelihood_ratio 16 reading0 = exp (81 / 2) /\
  exists d l, readings 16 (@detector_new Rops) [reading0; reading0] = Ret (d, l) /\
    about (Co 1 0) (hd None l) = true /\ belief 16 d (Co 3 2) = 1 / 2.
Proof.
  assert (HW : supported 16) by (unfold supported; tauto).
  assert (V1 : valid 16 (Co 1 0)) by (split; [split; cbn; lia|reflexivity]).
  assert (V2 : valid 16 (Co 3 2)) by (split; [split; cbn; lia|reflexivity]).
  assert (Ec : @convert Rops 16 cd (middle 0) = Ret (Some (@WallInfo Rops (Co 1 0) (Some (42 / 1000)%R) (Some (132 / 1000)%R)))).
  { rewrite middle_convert by lia. reflexivity. }
  assert (Es : sees 16 (Co 1 0) reading0 = true) by (unfold sees, reading0; cbn [r_pose]; rewrite Ec; reflexivity).
  split; [exact HW|]. split; [exact V1|]. split; [exact Es|]. split.
  { unfold likelihood_ratio, reading0. cbn [r_pose]. rewrite Ec. unfold gaussian. cbn [r_mean r_stddev].
    match goal with |- exp ?a / exp ?b = _ => replace a with 0 by field; replace b with (- (81 / 2)) by field end.
    rewrite exp_0, exp_Ropp. unfold Rdiv. rewrite Rinv_inv. ring. }
  destruct (new_ok 16) as [Hok Hb].
  destruct (bayes 16 HW [reading0; reading0] _ Hok) as (d & l & E & L & _ & _ & Bo & F).
  exists d, l. split; [exact E|]. split.
  - revert E. cbn [readings].
    destruct (C49_answer 16 (@detector_new Rops) reading0 HW Hok) as (d1 & a & E1 & _ & A2).
    rewrite E1. cbn [bind].
    destruct (detect_and_update 16 d1 _ _ _) as [[d2 a2]| |]; cbn [bind]; try discriminate.
    intros E; injection E as <- <-. cbn [hd]. apply A2; [exact Es|]. rewrite Hb. lra.
  - rewrite <- (Hb (Co 3 2)). apply Bo; [exact V2|].
    assert (Fs : Forall2 (fun r a => about (Co 3 2) a = true -> sees 16 (Co 3 2) r = true) [reading0; reading0] l) by apply F.
    assert (Hn : sees 16 (Co 3 2) reading0 = false) by (unfold sees, reading0; cbn [r_pose]; rewrite Ec; reflexivity).
    assert (G : forall rs l, (forall r, In r rs -> r = reading0) ->
      Forall2 (fun r a => about (Co 3 2) a = true -> sees 16 (Co 3 2) r = true) rs l ->
      Forall (fun a => about (Co 3 2) a = false) l).
    { intros rs l0 Hr H. induction H as [|r a rs' l' H1 H2 IH]; constructor.
      - destruct (about (Co 3 2) a); [|reflexivity]. rewrite (Hr r (or_introl eq_refl)) in H1. rewrite Hn in H1. symmetry. now apply H1.
      - apply IH. intros r' Hr'. apply Hr. now right. }
    apply (G [reading0; reading0] l); [|exact Fs]. intros r [<-|[<-|[]]]; reflexivity.
Qed.

(** ** C50 *)

(** In every arithmetic: a wall whose probability is_zero or is_one keeps it, and no reading of
    any history is answered for it. *)
Theorem C50_latched (K : ops) W (d d' : @detector K) rs l c : supported W ->
  alen (d_existence d) = EXISTENCE_ARRAY_LEN -> valid W c ->
  is_zero (belief W d c) || is_one (belief W d c) = true ->
  readings W d rs = Ret (d', l) ->
  belief W d' c = belief W d c /\ Forall (fun a => about c a = false) l.
Proof. intros HW Hl Hc Hlat E. now apply (latch W HW rs d d' l c). Qed.
Print Assumptions C50_latched.

(** A reading of such a wall returns None and leaves the detector as it is. *)
Theorem C50_unchanged (K : ops) W (d : @detector K) m s p i : supported W ->
  alen (d_existence d) = EXISTENCE_ARRAY_LEN -> convert W (d_converter d) p = Ret (Some i) ->
  is_zero (belief W d (w_coord i)) || is_one (belief W d (w_coord i)) = true ->
  detect_and_update W d m s p = Ret (d, None).
Proof. intros HW Hl Ec Hlat. now apply (detect_latched W HW d m s p i). Qed.
Print Assumptions C50_unchanged.

(** The two tests in exact arithmetic. *)
Theorem C50_threshold (p : R) : 0 <= p <= 1 ->
  (@is_zero Rops p || @is_one Rops p = true <-> p < / 8388608 \/ 1 - / 8388608 < p).
Proof.
  intros Hp. unfold is_zero, is_one, EPSILON. rops. rewrite (Rabs_pos_eq p), (Rabs_left1 (p - 1 / 1)) by lra.
  destruct (Rltb_spec p (1 / 8388608)), (Rltb_spec (- (p - 1 / 1)) (1 / 8388608)); cbn [orb]; split; intros; try lra; try discriminate; reflexivity.
Qed.
Print Assumptions C50_threshold.

(** A detector built by with_walls never answers for a wall that was Checked, in exact
    arithmetic and in binary32 with any libm. *)
Theorem C50_with_walls (K : ops) W w st : (K = Rops \/ exists lm, K = Fops lm) -> supported W ->
  holds W w st -> exists d, @with_walls K W w = Ret d /\
    forall rs d' l c b, readings W d rs = Ret (d', l) -> valid W c -> st c = Checked b ->
      Forall (fun a => about c a = false) l.
Proof.
  intros HK HW Hh. destruct (@with_walls_ok K W HW w st Hh) as (d & E & I1 & I2 & I3).
  exists d. split; [exact E|]. intros rs d' l c b Er Hc Hs.
  apply (latch W HW rs d d' l c I2 Hc); [|exact Er]. rewrite (I3 c Hc I), Hs. unfold target.
  destruct HK as [-> |(lm & ->)]; destruct b; first [apply consts_latched_R | apply consts_latched].
Qed.
Print Assumptions C50_with_walls.

Example C50_example : exists w d, walls_new 4 = Ret w /\ @with_walls Rops 4 w = Ret d /\
  @is_zero Rops (belief 4 d (Co 0 1)) || @is_one Rops (belief 4 d (Co 0 1)) = true /\
  belief 4 d (Co 2 1) = 1 / 2.
Proof.
  assert (HW : supported 4) by (unfold supported; tauto).
  destruct (walls_new_ok 4 HW) as (w & E & Hok & Hs).
  destruct (with_walls_R 4 HW w (fresh 4) (conj Hok Hs)) as (d & Ed & _ & Hb).
  exists w, d. split; [exact E|]. split; [exact Ed|].
  rewrite !Hb by (split; [split; cbn; lia|reflexivity]).
  change (fresh 4 (Co 0 1)) with (Checked false). change (fresh 4 (Co 2 1)) with Unchecked. cbv iota.
  split; [|reflexivity]. apply C50_threshold; lra.
Qed.

(** ** C51 *)

Theorem C51_ray W (p : @pose Rops) info (i j : Z) : supported W ->
  convert W converter_default p = Ret (Some info) ->
  in_cell i j (point p) -> (i < 128)%Z -> (j < 128)%Z ->
  exists s d d2, w_coord info = wall_of s i j /\ valid W (w_coord info) /\
    w_existing info = Some d /\ w_not_existing info = Some d2 /\ 8 / 1000 < d /\
    first_facing p 0 d /\ first_facing p d d2 /\ on_face s i j (ray p d) /\
    forall t, 0 <= t < d -> free i j (ray p t).
Proof. exact (convert_sound W p info i j). Qed.
Print Assumptions C51_ray.

Example C51_example : in_cell 3 0 (point (middle 3)) /\
  convert 16 converter_default (middle 3) =
    Ret (Some (@WallInfo Rops (Co 7 0) (Some (42 / 1000)%R) (Some (132 / 1000)%R))).
Proof.
  split.
  - unfold in_cell, between, point, middle, side_len. cbn [p_x p_y fst snd]. lra.
  - rewrite middle_convert by lia. reflexivity.
Qed.

(** ** C52: false, since [(x_quo as u8) << 1] wraps: from column 128 the walls of column 0 are
    reported. *)
Theorem C52_outside_refuted : exists W (p : @pose Rops) info, supported W /\
  in_cell 128 0 (point p) /\ (W < 128)%Z /\
  convert W converter_default p = Ret (Some info) /\ w_coord info = Co 1 0.
Proof.
  exists 16%Z, (middle 128). eexists. split; [unfold supported; tauto|].
  split. { unfold in_cell, between, point, middle, side_len. cbn [p_x p_y fst snd]. lra. }
  split; [lia|]. split; [rewrite middle_convert by lia; reflexivity|reflexivity].
Qed.
Print Assumptions C52_outside_refuted.

(** What holds: below column and row 128, an answer comes from a cell of the maze, or from a
    cell beyond the right or top border looking at that border. *)
Theorem C52_outside_partial W (p : @pose Rops) info (i j : Z) : supported W ->
  convert W converter_default p = Ret (Some info) ->
  in_cell i j (point p) -> (i < 128)%Z -> (j < 128)%Z ->
  ((0 <= i < W)%Z /\ (0 <= j < W)%Z) \/
  (i = W /\ (0 <= j < W)%Z /\ w_coord info = Co (2 * W - 1) (2 * j)) \/
  (j = W /\ (0 <= i < W)%Z /\ w_coord info = Co (2 * i) (2 * W - 1)).
Proof.
  intros HW E Hc Hi Hj.
  destruct (convert_sound W p info i j HW E Hc Hi Hj) as (s & d & d2 & Ec & [[Hx Hy] _] & _).
  rewrite Ec in *. destruct s; cbn [wall_of cx cy] in *.
  - left. lia.
  - destruct (Z.eq_dec i W) as [->|]; [right; left; repeat split; auto; lia|left; lia].
  - left. lia.
  - destruct (Z.eq_dec j W) as [->|]; [right; right; repeat split; auto; lia|left; lia].
Qed.
Print Assumptions C52_outside_partial.

Example C52_example : convert 16 converter_default (middle 16) = Ret None /\
  convert 16 converter_default (middle 127) = Ret None.
Proof. split; rewrite middle_convert by lia; reflexivity. Qed.

(** ** C79: a pose that sees a wall is not rejected *)
Theorem C79_complete W (p : @pose Rops) (i j : Z) : supported W ->
  (0 <= i < 128)%Z -> (0 <= j < 128)%Z -> free i j (point p) -> clear_of_pillars p i j ->
  (forall t, 0 <= t <= 8 / 1000 -> free i j (ray p t)) ->
  (forall s d, first_facing p 0 d -> on_face s i j (ray p d) -> valid W (wall_of s i j)) ->
  exists info, convert W converter_default p = Ret (Some info).
Proof. exact (convert_complete W p i j). Qed.
Print Assumptions C79_complete.

Example C79_example : free 5 0 (point (middle 5)) /\ clear_of_pillars (middle 5) 5 0 /\
  (forall t, 0 <= t <= 8 / 1000 -> free 5 0 (ray (middle 5) t)) /\
  (forall s d, first_facing (middle 5) 0 d -> on_face s 5 0 (ray (middle 5) d) -> valid 16 (wall_of s 5 0)).
Proof.
  destruct (middle_ok 5 ltac:(lia)) as (H1 & H2 & H3 & H4 & _). split; [exact H1|]. split; [exact H2|]. split; [exact H3|].
  intros s d F Hon.
  assert (Hs : exists dir, side_of dir = s) by (destruct s; [exists DRight|exists DLeft|exists DTop|exists DBottom]; reflexivity).
  destruct Hs as (dir & <-). destruct (H4 dir d F Hon) as [-> _]. split; [split; cbn; lia|reflexivity].
Qed.

(** ** C80: whatever f32 values are passed, what is stored stays in [0, 1] *)
Theorem C80_stored lm W (d0 d : @detector (Fops lm)) rs l : supported W ->
  (d0 = detector_new \/ exists w st, holds W w st /\ with_walls W w = Ret d0) ->
  readings W d0 rs = Ret (d, l) ->
  forall c, valid W c -> is_finite (belief W d c) = true /\ 0 <= B2R (belief W d c) <= 1.
Proof.
  intros HW H0 E. assert (S0 : stored_unit lm W d0).
  { destruct H0 as [-> |(w & st & Hh & Ew)]; [apply new_unit|now apply (with_walls_unit lm W HW w st)]. }
  exact (proj2 (stays_unit lm W HW rs d0 d l S0 E)).
Qed.
Print Assumptions C80_stored.

Definition libm1 : libm :=
  Libm (fun _ => f32_of_Z 0) (fun _ => f32_of_Z 1) (fun _ => f32_of_Z 1) (fun y x => f32_div y x).

(** with a constant exp the probability stays 1/2; the second reading, of NaN position, panics
    in a debug build, a NaN mean panics as well. *)
Example C80_example :
  let K := Fops libm1 in
  let p := @Pose K (lit 45 1000) (lit 45 1000) (lit 0 1) in
  let answers r := match r with Ret (_, l) => Some l | _ => None end in
  answers (readings 4 (@detector_new K) [@Reading K (lit 42 1000) (lit 1 100) p; @Reading K (lit 1 1) (lit 1 100) p])
    = Some [Some (Co 1 0, Unchecked); Some (Co 1 0, Unchecked)] /\
  answers (readings 4 (@detector_new K) [@Reading K B754_nan (lit 1 100) p]) = None.
Proof. split; vm_compute; reflexivity. Qed.

(** ** C81: "Should never fail" can fail: both exponents overflow to -infinity.  [tiny] is 2^-80. *)
Theorem C81_panic_refuted lm : l_sin lm zero = zero -> l_cos lm zero = f32_of_Z 1 ->
  l_exp lm B754_nan = B754_nan ->
  exists W (mean stddev : f32) (p : @pose (Fops lm)), supported W /\
    is_finite mean = true /\ is_finite stddev = true /\ Bltb zero stddev = true /\
    is_finite (p_x p : f32) = true /\ is_finite (p_y p : f32) = true /\ is_finite (p_theta p : f32) = true /\
    @detect_and_update (Fops lm) W detector_new mean stddev p = Panic.
Proof.
  intros Hs Hc He. exists 4%Z, fifty, tiny, (pose0 lm). split; [unfold supported; tauto|].
  do 6 (split; [vm_compute; reflexivity|]). now apply overflow_panic.
Qed.
Print Assumptions C81_panic_refuted.

Example C81_refuted_example : l_sin libm2 zero = zero /\ l_cos libm2 zero = f32_of_Z 1 /\
  l_exp libm2 B754_nan = B754_nan.
Proof. repeat split. Qed.


Lemma hopeless_dec lm W (d : @detector (Fops lm)) (m s : f32) (r : res (option (@wall_info (Fops lm)))) :
  let bad := exists i, r = Ret (Some i) /\ @latched (Fops lm) (belief W d (w_coord i)) = false /\ hopeless lm m s i in
  bad \/ ~ bad.
Proof.
  assert (N : forall x : f32, x = B754_nan \/ x <> B754_nan).
  { intros [| | |]; [right|right|left|right]; (discriminate || reflexivity). }
  assert (M : forall x : f32, x = B754_infinity true \/ x <> B754_infinity true).
  { intros [|[]| |]; [right|left|right|right|right]; (discriminate || reflexivity). }
  cbv zeta. destruct r as [[i|]| |]; try (right; intros (j & Q & _); discriminate Q).
  assert (H : hopeless lm m s i \/ ~ hopeless lm m s i).
  { unfold hopeless. cbv zeta. generalize (@log_likelihood (Fops lm) (length_of (w_existing i)) m s : f32),
      (@log_likelihood (Fops lm) (length_of (w_not_existing i)) m s : f32). intros e n.
    destruct (N e), (N n), (M e), (M n); tauto. }
  destruct H as [H|H]; [|right; intros (j & Q & _ & B); injection Q as <-; exact (H B)].
  destruct (@latched (Fops lm) (belief W d (w_coord i))) eqn:L; [|left; exists i; auto].
  right. intros (j & Q & L' & _). injection Q as <-. rewrite L in L'. discriminate L'.
Qed.

Lemma reachable_unit lm W (d0 d : @detector (Fops lm)) rs l : supported W ->
  (d0 = detector_new \/ exists w st, holds W w st /\ with_walls W w = Ret d0) ->
  readings W d0 rs = Ret (d, l) -> stored_unit lm W d /\ d_converter d = converter_default.
Proof.
  intros HW H0 E. assert (S0 : stored_unit lm W d0 /\ d_converter d0 = converter_default).
  { destruct H0 as [-> |(w & st & Hh & Ew)]; [split; [apply new_unit|reflexivity]|].
    split; [now apply (with_walls_unit lm W HW w st)|].
    destruct (@with_walls_ok (Fops lm) W HW w st Hh) as (d1 & E1 & I1 & _). rewrite Ew in E1. injection E1 as <-. exact I1. }
  destruct S0 as [S0 C0]. split; [exact (stays_unit lm W HW rs d0 d l S0 E)|].
  rewrite <- C0. exact (keeps_converter W HW rs d0 d l (proj1 S0) E).
Qed.

(** What holds: from any reachable detector, no panic when the position is not NaN and the two
    exponents are finite, for every exponential function that is at least 1 (or infinite) on
    non-negative arguments. *)
Theorem C81_panic_partial lm W (d0 d : @detector (Fops lm)) rs l m s (p : @pose (Fops lm)) : supported W ->
  (d0 = detector_new \/ exists w st, holds W w st /\ with_walls W w = Ret d0) ->
  readings W d0 rs = Ret (d, l) -> exp_like (l_exp lm) ->
  is_nan (p_x p : f32) = false -> is_nan (p_y p : f32) = false ->
  (forall i, convert W converter_default p = Ret (Some i) ->
     is_finite (@log_likelihood (Fops lm) (length_of (w_existing i)) m s : f32) = true /\
     is_finite (@log_likelihood (Fops lm) (length_of (w_not_existing i)) m s : f32) = true) ->
  exists d' a, detect_and_update W d m s p = Ret (d', a).
Proof.
  intros HW H0 E Hex. destruct (reachable_unit lm W d0 d rs l HW H0 E) as [S C].
  exact (detect_safe lm W d m s p HW Hex C S).
Qed.
Print Assumptions C81_panic_partial.

Example C81_partial_example :
  exp_like (l_exp libm1) /\
  match @convert (Fops libm1) 4 converter_default (@Pose (Fops libm1) (lit 45 1000) (lit 45 1000) (lit 0 1)) with
  | Ret (Some i) =>
      is_finite (@log_likelihood (Fops libm1) (length_of (w_existing i)) (lit 42 1000) (lit 1 100) : f32) &&
      is_finite (@log_likelihood (Fops libm1) (length_of (w_not_existing i)) (lit 42 1000) (lit 1 100) : f32)
  | _ => false
  end = true.
Proof.
  split; [|vm_compute; reflexivity]. intros x _. right. cbn [l_exp libm1].
  destruct (NumLemmas.f32_of_Z_exact 1 ltac:(lia)) as [V F]. split; [exact F|]. rewrite V. lra.
Qed.

(** Exactly when it panics: the pose sees a wall whose probability is not yet taken for 0 or 1
    (within EPSILON), and the exponents of the two hypotheses say nothing. *)
Theorem C81_panic_iff lm W (d0 d : @detector (Fops lm)) rs l m s (p : @pose (Fops lm)) : supported W ->
  (d0 = detector_new \/ exists w st, holds W w st /\ with_walls W w = Ret d0) ->
  readings W d0 rs = Ret (d, l) -> exp_full (l_exp lm) ->
  is_nan (p_x p : f32) = false -> is_nan (p_y p : f32) = false ->
  (detect_and_update W d m s p = Panic <->
   exists i, convert W converter_default p = Ret (Some i) /\
     is_zero (belief W d (w_coord i)) = false /\
     is_one (belief W d (w_coord i)) = false /\
     hopeless lm m s i) /\
  (detect_and_update W d m s p <> Panic -> exists d' a, detect_and_update W d m s p = Ret (d', a)).
Proof.
  intros HW H0 E Hex Nx Ny. destruct (reachable_unit lm W d0 d rs l HW H0 E) as [S C].
  pose proof (detect_cases lm W d m s p HW Hex C S Nx Ny) as H. cbv zeta in H.
  assert (L : forall b : f32, @latched (Fops lm) b = false <-> @is_zero (Fops lm) b = false /\ @is_one (Fops lm) b = false).
  { intros b. unfold latched. rewrite orb_false_iff. reflexivity. }
  assert (Q : (exists i, convert W converter_default p = Ret (Some i) /\
     @latched (Fops lm) (belief W d (w_coord i)) = false /\ hopeless lm m s i) <->
   exists i, convert W converter_default p = Ret (Some i) /\
     is_zero (belief W d (w_coord i)) = false /\
     is_one (belief W d (w_coord i)) = false /\ hopeless lm m s i).
  { split; intros (i & A & B); exists i; (split; [exact A|]).
    - destruct B as [B B']. apply L in B. tauto.
    - split; [apply L|]; tauto. }
  rewrite <- Q. destruct H as [H1 H2].
  assert (D : (exists i, convert W converter_default p = Ret (Some i) /\
     @latched (Fops lm) (belief W d (w_coord i)) = false /\ hopeless lm m s i) \/
    ~ exists i, convert W converter_default p = Ret (Some i) /\
     @latched (Fops lm) (belief W d (w_coord i)) = false /\ hopeless lm m s i) by (apply hopeless_dec).
  split; [split; [|exact H1]|].
  - intros P. destruct D as [D|D]; [exact D|]. destruct (H2 D) as (d' & a & R). rewrite R in P. discriminate P.
  - intros P. apply H2. intros B. exact (P (H1 B)).
Qed.
Print Assumptions C81_panic_iff.

Definition libm3 : libm :=
  Libm (fun _ => zero) (fun _ => f32_of_Z 1)
    (fun x => match x with B754_nan => B754_nan | B754_infinity false => B754_infinity false | _ => f32_of_Z 1 end)
    (fun y x => f32_div y x).

Lemma libm3_exp : exp_full (l_exp libm3).
Proof.
  destruct (NumLemmas.f32_of_Z_exact 1 ltac:(lia)) as [V F].
  split; [|split; reflexivity]. intros x H. cbn [l_exp libm3].
  destruct x as [?|[]| |]; try (left; reflexivity); try (right; split; [exact F|]; rewrite V; lra).
  destruct H as [[H _]|H]; discriminate H.
Qed.

(** both sides occur: the reading of the refutation panics, an ordinary one does not. *)
Example C81_iff_example : exp_full (l_exp libm3) /\
  @detect_and_update (Fops libm3) 4 detector_new fifty tiny (pose0 libm3) = Panic /\
  match @detect_and_update (Fops libm3) 4 detector_new (lit 42 1000) (lit 1 100) (pose0 libm3) with
  | Ret (_, Some _) => true | _ => false end = true.
Proof. split; [exact libm3_exp|]. split; [now apply overflow_panic|vm_compute; reflexivity]. Qed.

(** In terms of the arguments: no panic for any position that is not NaN, any heading whose sine and
    cosine agree with the quadrant the code puts it in, any mean up to 1024 m and any standard
    deviation from 2^-40 m. *)
Theorem C81_ordinary_partial lm W (d0 d : @detector (Fops lm)) rs l (m s : f32) (p : @pose (Fops lm)) : supported W ->
  (d0 = detector_new \/ exists w st, holds W w st /\ with_walls W w = Ret d0) ->
  readings W d0 rs = Ret (d, l) -> exp_full (l_exp lm) ->
  is_nan (p_x p : f32) = false -> is_nan (p_y p : f32) = false -> steady lm (p_theta p) ->
  is_finite m = true -> Rabs (B2R m) <= 1024 ->
  is_finite s = true -> bpow radix2 (-40) <= B2R s ->
  exists d' a, @detect_and_update (Fops lm) W d m s p = Ret (d', a).
Proof.
  intros HW H0 E Hex Nx Ny St Fm Bm. destruct (reachable_unit lm W d0 d rs l HW H0 E) as [S C].
  apply (ordinary lm W d m s p HW Hex C S Nx Ny St). split; [exact Fm|].
  change (bpow radix2 10) with 1024. exact Bm.
Qed.
Print Assumptions C81_ordinary_partial.

Example C81_ordinary_example :
  let m : f32 := @lit (Fops libm3) 42 1000 in let s : f32 := @lit (Fops libm3) 1 100 in
  steady libm3 (p_theta (pose0 libm3)) /\ is_finite m = true /\ Rabs (B2R m) <= 1024 /\
  is_finite s = true /\ bpow radix2 (-40) <= B2R s.
Proof.
  cbv zeta. destruct (NumLemmas.f32_of_Z_exact 1 ltac:(lia)) as [V F]. split.
  { unfold steady. cbv zeta. split; [exact F|]. split; [reflexivity|].
    replace (@ltb (Fops libm3) (@revolution (Fops libm3) (p_theta (pose0 libm3))) (lit 1 4)) with true
      by (vm_compute; reflexivity).
    left. cbn [l_cos libm3]. rewrite V. lra. }
  assert (L : forall a b : f32, is_finite a = true -> is_finite b = true -> Bleb a b = true -> B2R a <= B2R b).
  { intros a b A B C. rewrite (Bleb_correct 24 128 a b A B) in C. destruct (Rle_bool_spec (B2R a) (B2R b)); [assumption|discriminate C]. }
  assert (Fm : is_finite (@lit (Fops libm3) 42 1000 : f32) = true) by (vm_compute; reflexivity).
  assert (Fs : is_finite (@lit (Fops libm3) 1 100 : f32) = true) by (vm_compute; reflexivity).
  split; [exact Fm|]. split; [|split; [exact Fs|]].
  - assert (A : B2R (@lit (Fops libm3) 42 1000 : f32) <= B2R (f32_of_Z 1)) by (apply L; vm_compute; reflexivity).
    assert (B : B2R (zero : f32) <= B2R (@lit (Fops libm3) 42 1000 : f32)) by (apply L; vm_compute; reflexivity).
    rewrite V in A. cbn [B2R zero] in B. rewrite Rabs_pos_eq by exact B. lra.
  - assert (A : B2R (@B754_finite 24 128 false 8388608 (-63) eq_refl) <= B2R (@lit (Fops libm3) 1 100 : f32))
      by (apply L; vm_compute; reflexivity).
    refine (Rle_trans _ _ _ _ A). cbn [B2R]. unfold F2R. cbn [cond_Zopp Fnum Fexp].
    change 8388608 with (bpow radix2 23). rewrite <- bpow_plus. apply Rle_refl.
Qed.
