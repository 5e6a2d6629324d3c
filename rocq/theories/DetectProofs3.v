(** The result of the pose converter. *)
From Coq Require Import ZArith Reals List Bool Lia Lra Psatz.
From Flocq Require Import Core.
From Verif Require Import Base SearchModel SearchSpec SearchCoord WallsLemmas Num TrajModel DetectModel DetectSpec DetectProofs DetectProofs2.
Import ListNotations.
Open Scope R_scope.

Definition side_of (d : direction) : side :=
  match d with DRight => East_side | DLeft => West_side | DTop => North_side | DBottom => South_side end.

Lemma ahead_heads s (p : @pose Rops) : ahead_ok s (cos (p_theta p)) (sin (p_theta p)) <-> heads_to s p.
Proof. destruct s; reflexivity. Qed.

Lemma facing_iff (p : @pose Rops) bx by_ (i j : Z) (xr yr u : R) :
  0 <= sg bx * cos (p_theta p) -> 0 <= sg by_ * sin (p_theta p) ->
  p_x p = IZR i * side_len + xr -> p_y p = IZR j * side_len + yr ->
  facing p u <->
  (cos (p_theta p) <> 0 /\ exists k : Z, IZR i * side_len + xr + u * cos (p_theta p) = IZR k * side_len - sg bx * half_wall) \/
  (sin (p_theta p) <> 0 /\ exists k : Z, IZR j * side_len + yr + u * sin (p_theta p) = IZR k * side_len - sg by_ * half_wall).
Proof.
  intros Hx Hy Ex Ey. unfold facing, ray. cbn [fst snd]. rewrite Ex, Ey.
  set (c := cos _) in *. set (s := sin _) in *.
  assert (X : (0 < c /\ (exists k : Z, IZR i * side_len + xr + u * c = IZR k * side_len - half_wall)) \/
     (c < 0 /\ (exists k : Z, IZR i * side_len + xr + u * c = IZR k * side_len + half_wall)) <->
     (c <> 0 /\ exists k : Z, IZR i * side_len + xr + u * c = IZR k * side_len - sg bx * half_wall)).
  { split.
    - intros [[H (k & E)]|[H (k & E)]]; (split; [lra|exists k]); destruct bx; cbn [sg] in *; lra.
    - intros [H (k & E)]. destruct bx; cbn [sg] in *; [left|right]; (split; [lra|exists k; lra]). }
  assert (Y : (0 < s /\ (exists k : Z, IZR j * side_len + yr + u * s = IZR k * side_len - half_wall)) \/
     (s < 0 /\ (exists k : Z, IZR j * side_len + yr + u * s = IZR k * side_len + half_wall)) <->
     (s <> 0 /\ exists k : Z, IZR j * side_len + yr + u * s = IZR k * side_len - sg by_ * half_wall)).
  { split.
    - intros [[H (k & E)]|[H (k & E)]]; (split; [lra|exists k]); destruct by_; cbn [sg] in *; lra.
    - intros [H (k & E)]. destruct by_; cbn [sg] in *; [left|right]; (split; [lra|exists k; lra]). }
  tauto.
Qed.

(** along one coordinate: before the crossing at [a] the ray stays between the two faces. *)
Lemma stays b (c v a t : R) : half_wall < v < side_len - half_wall -> 0 <= sg b * c ->
  a * c = face b - v -> c <> 0 -> 0 <= t < a -> half_wall < v + t * c < side_len - half_wall.
Proof.
  intros Hv Hc Ea Hn Ht. destruct b; cbn [sg face] in *; unfold side_len, half_wall in *; nra.
Qed.

Lemma stays0 (c v t : R) : half_wall < v < side_len - half_wall -> c = 0 ->
  half_wall < v + t * c < side_len - half_wall.
Proof. intros Hv ->. lra. Qed.

Lemma within_shift (i : Z) (v : R) : half_wall < v < side_len - half_wall -> within i (IZR i * side_len + v).
Proof. unfold within. lra. Qed.

Lemma on_face_x bx (i j : Z) (q : R * R) (y : R) :
  fst q = IZR i * side_len + face bx -> snd q = IZR j * side_len + y ->
  half_wall < y < side_len - half_wall -> on_face (side_of (dirx bx)) i j q.
Proof.
  intros E1 E2 Hy. destruct bx; cbn [dirx side_of on_face face] in *; rewrite E1, E2;
    (split; [lra|now apply within_shift]).
Qed.

Lemma on_face_y by_ (i j : Z) (q : R * R) (x : R) :
  snd q = IZR j * side_len + face by_ -> fst q = IZR i * side_len + x ->
  half_wall < x < side_len - half_wall -> on_face (side_of (diry by_)) i j q.
Proof.
  intros E1 E2 Hx. destruct by_; cbn [diry side_of on_face face] in *; rewrite E1, E2;
    (split; [lra|now apply within_shift]).
Qed.

Lemma crossings (p : @pose Rops) (i j : Z) (xr yr : R) :
  p_x p = IZR i * side_len + xr -> p_y p = IZR j * side_len + yr ->
  half_wall < xr < side_len - half_wall -> half_wall < yr < side_len - half_wall ->
  @is_near_pillar Rops cd (@Pose Rops xr yr (p_theta p)) = false ->
  exists dir d d2 dir2 l,
    @sort_distances Rops (map (@axis_distance Rops xr yr (sin (p_theta p)) (cos (p_theta p)))
      (axes cd (@revolution Rops (p_theta p)))) = (dir, Some d) :: (dir2, Some d2) :: l /\
    first_facing p 0 d /\ first_facing p d d2 /\ on_face (side_of dir) i j (ray p d) /\
    forall t, 0 <= t < d -> free i j (ray p t).
Proof.
  intros Ex Ey Hxr Hyr Hnear.
  destruct (axes_spec (p_theta p)) as (bx & by_ & Hcx & Hsy & Eax & s & A & B & _ & Epil & Hcorner & _).
  rewrite Eax. cbn [map]. unfold axis_distance. cbn [fst snd].
  unfold is_near_pillar in Hnear. cbn [p_x p_y p_theta] in Hnear. rewrite Epil in Hnear.
  destruct default_vals as (_ & _ & Erad & _). rewrite Erad in Hnear.
  pose proof (fun u => facing_iff p bx by_ i j xr yr u Hcx Hsy Ex Ey) as Hfac.
  set (c := cos (p_theta p)) in *. set (n := sin (p_theta p)) in *.
  assert (Hcn : c * c + n * n = 1).
  { pose proof (sin2_cos2 (p_theta p)) as H. unfold Rsqr in H. unfold c, n. lra. }
  assert (Eray : forall t, ray p t = (IZR i * side_len + (xr + t * c), IZR j * side_len + (yr + t * n))).
  { intros t. unfold ray. rewrite Ex, Ey. fold c n. f_equal; ring. }
  rops.
  destruct (Req_dec c 0) as [C0|C0]; [|destruct (Req_dec n 0) as [N0|N0]].
  - (* straight up or down *)
    assert (N0 : n <> 0) by (intros E; rewrite C0, E in Hcn; lra).
    destruct (axis_dist by_ n yr Hyr Hsy N0) as (b & P & Hb & Eb & EP & R1 & R2).
    rewrite C0, !ray_distance_0, R1, R2.
    destruct (sort_y (dirx bx) (diry by_) b (b + P)%R ltac:(lra)) as (l & El).
    exists (diry by_), b, (b + P)%R, (diry by_), l. split; [exact El|].
    assert (Hf : forall u, facing p u <-> exists m : Z, u = b + IZR m * P).
    { intros u. rewrite Hfac, (facing_axis by_ n yr b P u j N0 Eb EP). tauto. }
    split; [|split; [|split]].
    + split; [lra|]. split; [apply Hf; exists 0%Z; ring|]. intros u Hu F. apply Hf in F. destruct F as (m & F).
      pose proof (no_earlier b P u m Hb ltac:(lra) F). lra.
    + split; [lra|]. split; [apply Hf; exists 1%Z; ring|]. intros u Hu F. apply Hf in F. destruct F as (m & F).
      pose proof (no_between b P u m Hb ltac:(lra) F). lra.
    + rewrite Eray. apply on_face_y with (xr + b * c); cbn [fst snd]; [rewrite Eb; ring|reflexivity|].
      now apply stays0.
    + intros t Ht. rewrite Eray. split; cbn [fst snd]; apply within_shift; [now apply stays0|].
      now apply (stays by_ n yr b t).
  - (* straight left or right *)
    destruct (axis_dist bx c xr Hxr Hcx C0) as (a & P & Ha & Ea & EP & R1 & R2).
    rewrite N0, !ray_distance_0, R1, R2.
    destruct (sort_x (dirx bx) (diry by_) a (a + P)%R ltac:(lra)) as (l & El).
    exists (dirx bx), a, (a + P)%R, (dirx bx), l. split; [exact El|].
    assert (Hf : forall u, facing p u <-> exists m : Z, u = a + IZR m * P).
    { intros u. rewrite Hfac, (facing_axis bx c xr a P u i C0 Ea EP). tauto. }
    split; [|split; [|split]].
    + split; [lra|]. split; [apply Hf; exists 0%Z; ring|]. intros u Hu F. apply Hf in F. destruct F as (m & F).
      pose proof (no_earlier a P u m Ha ltac:(lra) F). lra.
    + split; [lra|]. split; [apply Hf; exists 1%Z; ring|]. intros u Hu F. apply Hf in F. destruct F as (m & F).
      pose proof (no_between a P u m Ha ltac:(lra) F). lra.
    + rewrite Eray. apply on_face_x with (yr + a * n); cbn [fst snd]; [rewrite Ea; ring|reflexivity|].
      now apply stays0.
    + intros t Ht. rewrite Eray. split; cbn [fst snd]; apply within_shift; [|now apply stays0].
      now apply (stays bx c xr a t).
  - destruct (axis_dist bx c xr Hxr Hcx C0) as (a & P & Ha & Ea & EP & R1 & R2).
    destruct (axis_dist by_ n yr Hyr Hsy N0) as (b & Q & Hb & Eb & EQ & R3 & R4).
    rewrite R1, R2, R3, R4.
    assert (Hab : a <> b).
    { (* the ray does not pass through the corner between the two faces *)
      intros E. subst b.
      assert (Hd : 1 / 100 <= Rabs (n * (xr - corner bx) - c * (yr - corner by_))).
      { apply orb_false_iff in Hnear. destruct Hnear as [H1 H2].
        destruct Hcorner as [-> | ->]; cbn [fst snd] in *; revert H1 H2; rops; fold c n.
        - destruct (Rltb_spec (Rabs (n * (xr - corner bx) - c * (yr - corner by_))) (1 / 100)); intros; [discriminate|lra].
        - destruct (Rltb_spec (Rabs (n * (xr - corner bx) - c * (yr - corner by_))) (1 / 100)); intros; [discriminate|lra]. }
      assert (Ec : n * (xr - corner bx) - c * (yr - corner by_) = half_wall * (sg by_ * c - sg bx * n)).
      { assert (xr = face bx - a * c) as -> by lra. assert (yr = face by_ - a * n) as -> by lra.
        destruct bx, by_; cbn [face corner sg]; unfold side_len, half_wall; ring. }
      rewrite Ec in Hd. assert (Rabs (half_wall * (sg by_ * c - sg bx * n)) <= 6 / 1000).
      { apply Rabs_le. unfold half_wall. destruct bx, by_; cbn [sg] in *; nra. }
      lra. }
    destruct (sort_xy (dirx bx) (diry by_) a (a + P)%R b (b + Q)%R ltac:(lra) ltac:(lra) Hab) as (dir2 & l & El).
   
    assert (Hf : forall u, facing p u <-> (exists m : Z, u = a + IZR m * P) \/ exists m : Z, u = b + IZR m * Q).
    { intros u. rewrite Hfac, (facing_axis bx c xr a P u i C0 Ea EP), (facing_axis by_ n yr b Q u j N0 Eb EQ). tauto. }
    do 5 eexists. split; [exact El|].
    destruct (Rltb_spec a b) as [Lab|Lab].
    + rewrite (Rmin_left a b) by lra. pose proof (Rmin_l (a + P) b). pose proof (Rmin_r (a + P) b).
      split; [|split; [|split]].
      * split; [lra|]. split; [apply Hf; left; exists 0%Z; ring|]. intros u Hu F. apply Hf in F.
        destruct F as [(m & F)|(m & F)];
          [pose proof (no_earlier a P u m Ha ltac:(lra) F)|pose proof (no_earlier b Q u m Hb ltac:(lra) F)]; lra.
      * split; [apply Rmin_glb_lt; lra|]. split.
        { apply Hf. apply Rmin_case; [left; exists 1%Z; ring|right; exists 0%Z; ring]. }
        intros u Hu F. apply Hf in F.
        destruct F as [(m & F)|(m & F)];
          [pose proof (no_between a P u m Ha ltac:(lra) F)|pose proof (no_earlier b Q u m Hb ltac:(lra) F)]; lra.
      * rewrite Eray. apply on_face_x with (yr + a * n); cbn [fst snd]; [rewrite Ea; ring|reflexivity|].
        apply (stays by_ n yr b a); try assumption; lra.
      * intros t Ht. rewrite Eray. split; cbn [fst snd]; apply within_shift;
          [apply (stays bx c xr a t)|apply (stays by_ n yr b t)]; try assumption; lra.
    + rewrite (Rmin_right a b) by lra. pose proof (Rmin_l a (b + Q)). pose proof (Rmin_r a (b + Q)).
      split; [|split; [|split]].
      * split; [lra|]. split; [apply Hf; right; exists 0%Z; ring|]. intros u Hu F. apply Hf in F.
        destruct F as [(m & F)|(m & F)];
          [pose proof (no_earlier a P u m Ha ltac:(lra) F)|pose proof (no_earlier b Q u m Hb ltac:(lra) F)]; lra.
      * split; [apply Rmin_glb_lt; lra|]. split.
        { apply Hf. apply Rmin_case; [left; exists 0%Z; ring|right; exists 1%Z; ring]. }
        intros u Hu F. apply Hf in F.
        destruct F as [(m & F)|(m & F)];
          [pose proof (no_earlier a P u m Ha ltac:(lra) F)|pose proof (no_between b Q u m Hb ltac:(lra) F)]; lra.
      * rewrite Eray. apply on_face_y with (xr + b * c); cbn [fst snd]; [rewrite Eb; ring|reflexivity|].
        apply (stays bx c xr a b); try assumption; lra.
      * intros t Ht. rewrite Eray. split; cbn [fst snd]; apply within_shift;
          [apply (stays bx c xr a t)|apply (stays by_ n yr b t)]; try assumption; lra.
Qed.
