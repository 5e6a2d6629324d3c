(** Joined trajectories: the iterators. *)
From Coq Require Import ZArith Reals List Bool Lia Lra.
From Flocq Require Import Core.
From Verif Require Import Base SearchModel SearchSpec RunModel Num NumLemmas ControlModel TrajModel TrajSpec RouteModel RouteSpec
  TrajProofs TrajProofs2 TrajProofs4 TrajProofs5 TrajProofs7 TrajProofs8 TrajQuad RouteProofs.
Import ListNotations.
Open Scope R_scope.

(** ** Iterators as lists *)
Definition plays {K : ops} {S} (next : iterator S) (s : S) (l : list target) : Prop :=
  forall k, output next k s = nth_error l k.

Lemma plays_yields {K : ops} {S} (next : iterator S) s l : plays next s l -> yields next s (length l).
Proof. intros P k. rewrite P. symmetry. apply nth_error_Some. Qed.

Lemma plays_unique {K : ops} {S} (next : iterator S) s l m : plays next s l -> plays next s m -> l = m.
Proof.
  intros P Q. assert (E : forall k, nth_error l k = nth_error m k) by (intros k; rewrite <- P, <- Q; reflexivity). clear P Q.
  revert m E. induction l as [|a l IH]; intros [|b m] E; [reflexivity | discriminate (E 0%nat) | discriminate (E 0%nat)|].
  f_equal; [specialize (E 0%nat); cbn in E; congruence | apply IH; intros k; exact (E (Datatypes.S k))].
Qed.

Lemma plays_app {K : ops} {A B} (na : iterator A) (nb : iterator B) a b l m : plays na a l -> plays nb b m ->
  plays (chain_next na nb) (Some a, b) (l ++ m).
Proof.
  intros PA PB k. rewrite (chain_output na nb (length l) a b k (plays_yields _ _ _ PA)).
  destruct (Nat.ltb_spec k (length l)) as [L|L].
  - rewrite PA, nth_error_app1 by exact L. reflexivity.
  - rewrite PB, nth_error_app2 by exact L. reflexivity.
Qed.

Lemma plays_shift {K : ops} {S} (p : pose) (next : iterator S) s l : plays next s l -> plays (shift_next p next) s (map (shift p) l).
Proof. intros P k. rewrite shift_output, P, nth_error_map. reflexivity. Qed.

Lemma plays_map {K : ops} {S T} (next : iterator S) (next' : iterator T) (f : S -> T) s l :
  (forall s, next' (f s) = (fst (next s), f (snd (next s)))) -> plays next s l -> plays next' (f s) l.
Proof.
  intros H P k. rewrite <- P. clear P. revert s. induction k as [|k IH]; intros s.
  - unfold output. cbn. rewrite H. reflexivity.
  - rewrite !output_S, H. cbn [snd]. apply IH.
Qed.

Lemma plays_step {K : ops} {S} (next : iterator S) s l : plays next s l ->
  match l with
  | [] => fst (next s) = None
  | t :: l' => fst (next s) = Some t /\ plays next (snd (next s)) l'
  end.
Proof.
  intros P. destruct l as [|t l]; [exact (P 0%nat)|]. split; [exact (P 0%nat)|].
  intros k. rewrite <- (output_S next k s). exact (P (Datatypes.S k)).
Qed.

Lemma plays_boxed {K : ops} p i l : plays inner_next i l -> plays boxed_next (Boxed p i) (map (shift p) l).
Proof.
  intros P. apply (plays_map (shift_next p inner_next) boxed_next (Boxed p)).
  - intros s. unfold boxed_next. cbn [b_pose b_inner]. destruct (shift_next p inner_next s). reflexivity.
  - apply plays_shift, P.
Qed.
Lemma plays_straight {K : ops} s l : plays straight_next s l -> plays inner_next (IStraight s) l.
Proof. apply plays_map. intros x. cbn. destruct (straight_next x). reflexivity. Qed.
Lemma plays_slalom {K : ops} q s l : plays (slalom_next q) s l -> plays inner_next (ISlalom q s) l.
Proof. apply plays_map. intros x. cbn. destruct (slalom_next q x). reflexivity. Qed.
Lemma plays_back {K : ops} p q s l : plays (back_next p q) s l -> plays inner_next (IBack p q s) l.
Proof. apply plays_map. intros x. cbn. destruct (back_next p q x). reflexivity. Qed.

(** the queue *)
Lemma serves_all {K : ops} r ls : Forall2 (plays boxed_next) r ls -> Forall (fun l => l <> []) ls ->
  forall l b, plays boxed_next b l -> serves (b :: r) (l ++ concat ls).
Proof.
  intros F. induction F as [|b2 l2 r ls P2 F IH]; intros NE.
  - induction l as [|t l IHl]; intros b P; apply plays_step in P.
    + cbn. apply serves_end with []. unfold route_next. destruct (boxed_next b). cbn in P. subst. reflexivity.
    + destruct P as [E P]. apply serves_next with [snd (boxed_next b)]; [|exact (IHl _ P)].
      unfold route_next. destruct (boxed_next b). cbn in E. subst. reflexivity.
  - inversion_clear NE. specialize (IH H0).
    induction l as [|t l IHl]; intros b P; apply plays_step in P.
    + cbn [app concat]. apply plays_step in P2. destruct l2 as [|t2 l2]; [congruence|]. destruct P2 as [E2 P2].
      apply serves_next with (snd (boxed_next b2) :: r); [|exact (IH _ _ P2)].
      unfold route_next. destruct (boxed_next b). cbn in P. subst. destruct (boxed_next b2). cbn in E2. subst. reflexivity.
    + destruct P as [E P]. apply serves_next with (snd (boxed_next b) :: b2 :: r); [|exact (IHl _ P)].
      unfold route_next. destruct (boxed_next b). cbn in E. subst. reflexivity.
Qed.

(** ** Samples *)
Lemma samples_S T p : 0 <= T -> 0 < p -> exists n, samples T p = S n /\ INR n * p <= T /\ T - INR n * p <= p.
Proof.
  intros T0 Hp. assert (C := floor_count T p). fold (samples T p) in C.
  destruct (samples T p) as [|n].
  - exfalso. assert (0 < 0)%nat; [|lia]. apply (C 0%nat Hp). cbn. lra.
  - exists n. split; [reflexivity|]. split; [apply (C n Hp); lia|].
    assert (~ (INR (S n) * p <= T)) by (intros H; apply (C (S n) Hp) in H; lia). rewrite S_INR in H. lra.
Qed.

Lemma plays_seq {K : ops} {S} (next : iterator S) s (F : nat -> target) N : yields next s N ->
  (forall k, (k < N)%nat -> output next k s = Some (F k)) -> plays next s (map F (seq 0 N)).
Proof.
  intros Y O k. destruct (Nat.lt_ge_cases k N) as [L|L].
  - rewrite (O k L). symmetry. apply map_nth_error. rewrite (nth_error_nth' _ 0%nat) by (rewrite seq_length; exact L).
    rewrite seq_nth by exact L. reflexivity.
  - rewrite (proj2 (nth_error_None _ _)) by (rewrite map_length, seq_length; exact L).
    destruct (output next k s) eqn:E; [|reflexivity]. assert (k < N)%nat by (apply Y; congruence). lia.
Qed.

(** a time sampled function *)
Lemma ride_sampled (F : R -> @target Rops) (A B : @pose Rops) (va vb d h c T p : R) : 0 <= T -> 0 < p ->
  passing A va (F 0) -> passing B vb (F T) ->
  (forall s t, 0 <= s <= t -> t <= T -> t - s <= p -> close d h c (F s) (F t)) ->
  ride (map (fun n => F (INR n * p)) (seq 0 (samples T p))) A B va vb d h c.
Proof.
  intros T0 Hp PA PB C. destruct (samples_S T p T0 Hp) as (n & -> & L1 & L2).
  assert (I0 : forall i, 0 <= INR i * p) by (intros i; apply Rmult_le_pos; [apply pos_INR | lra]).
  split.
  - exists (F (INR 0 * p)), (map (fun n => F (INR n * p)) (seq 1 n)). split; [reflexivity|]. cbn [INR]. rewrite Rmult_0_l. exact PA.
  - apply linked_seq; cbn [Nat.add].
    + intros i Hi. apply C; rewrite ?S_INR; [split; [apply I0 | lra] | | lra].
      apply Rle_trans with (INR n * p); [|exact L1]. rewrite <- S_INR. apply Rmult_le_compat_r; [lra|]. apply le_INR. lia.
    + assert (K := C (INR n * p) T (conj (I0 n) L1) (Rle_refl T) L2).
      assert (J := passing_close _ _ vb vb _ _ 0 PB (mark_passing B vb) (near_refl _)).
      rewrite (Rminus_diag_eq vb vb eq_refl), Rabs_R0 in J.
      apply (close_weaken _ _ _ d h c _ _ (close_tri _ _ _ _ _ _ _ _ _ K J)); lra.
Qed.

Definition origin : @pose Rops := @Pose Rops 0%R 0%R 0%R.
Definition ahead (x : R) : @pose Rops := @Pose Rops x 0%R 0%R.
Definition line (a : @axis4 Rops) : @target Rops := let z := @Axis4 Rops 0%R 0%R 0%R 0%R in @Target Rops a z z.

Lemma line_passing (a : @axis4 Rops) (x v : R) : tx a = x -> tv a = v -> passing (ahead x) v (line a).
Proof.
  intros X V. unfold passing, ahead, line. cbn [t_x t_y t_theta tx tv p_x p_y p_theta]. rewrite cos_0, sin_0.
  split; [exact X|]. split; [reflexivity|]. split; [reflexivity|]. rewrite V. split; [symmetry; apply Rmult_1_r | symmetry; apply Rmult_0_r].
Qed.
Lemma line_close (a b : @axis4 Rops) (d c : R) : Rabs (tx a - tx b) <= d -> Rabs (tv a - tv b) <= c -> close d 0 c (line a) (line b).
Proof.
  intros D C. unfold close, gap, speed_gap, turn_gap, line. cbn [t_x t_y t_theta tx tv]. split; [|split].
  - eapply Rle_trans; [apply dist_sum|]. rewrite (Rminus_diag_eq 0 0 eq_refl), Rabs_R0. lra.
  - exists 0%Z. replace (0 - 0 + 2 * PI * 0) with 0 by ring. rewrite Rabs_R0. lra.
  - eapply Rle_trans; [apply dist_sum|]. rewrite (Rminus_diag_eq 0 0 eq_refl), Rabs_R0. lra.
Qed.

(** straights *)
Lemma straight_ride (g : @generator Rops) (p dist vs ve : R) : limits g -> 0 < p -> 0 <= dist ->
  0 <= vs <= g_v_max g -> 0 <= ve <= g_v_max g -> room g dist vs ve ->
  let r := straight_generate_tv (@StraightGenerator Rops g p) dist vs ve in
  (0 <= snd r <= g_v_max g /\ (ve <= vs -> snd r = ve) /\ (vs < ve -> vs <= snd r <= ve)) /\
  exists l, plays straight_next (fst r) l /\
    ride l origin (ahead dist) vs (snd r) (g_v_max g * p) 0 (g_a_max g * p).
Proof.
  intros Lg Hp Hd Hs He Hr. cbv zeta.
  assert (Rm : room g (Rabs dist) vs ve) by (rewrite Rabs_pos_eq; assumption).
  destruct (straight_ok g p dist vs ve Lg Hp Hs He Rm) as (f & T & vt & -> & T0 & Fo & Bd & (X0 & V0 & _) & (XT & VT & _) & P0 & P1 & P2 & Y & O).
  assert (SG : sgn dist = 1) by (unfold sgn; destruct (Rlt_dec dist 0); lra). rewrite SG, !Rmult_1_l in *.
  split.
  { split; [|split; assumption]. split; [exact P0|]. destruct (Rle_lt_dec ve vs) as [L|L]; [rewrite (P1 L); lra|]. specialize (P2 L). lra. }
  exists (map (fun n => line (f (INR n * p))) (seq 0 (samples T p))). split.
  - apply plays_seq; [exact Y|]. intros k Hk. rewrite O; [reflexivity|]. apply (floor_count T p k Hp). exact Hk.
  - apply (ride_sampled (fun u => line (f u))); [exact T0 | exact Hp | | |].
    + exact (line_passing _ _ _ X0 V0).
    + exact (line_passing _ _ _ XT VT).
    + destruct Fo as (x & v & a & j & ex & M & FE). intros s t Hst HtT Hp'.
      destruct (FE s ltac:(lra)) as (E1 & E2 & _). destruct (FE t ltac:(lra)) as (E3 & E4 & _).
      assert (LX := lip x v 0 T (g_v_max g) (fun u _ => mo_x _ _ _ _ _ _ M u)).
      assert (LV := lip v a 0 T (g_a_max g) (fun u _ => mo_v _ _ _ _ _ _ M u)).
      apply line_close.
      * rewrite E1, E3. eapply Rle_trans; [apply LX; try lra|].
        -- intros u Hu. destruct (FE u Hu) as (_ & E & _). destruct (Bd u Hu) as ([B1 B2] & _).
           rewrite Rmult_1_l in *. rewrite E in B1, B2. apply Rabs_le. split; [|exact B2].
           assert (0 <= Rmin vs vt) by (apply Rmin_glb; lra). destruct Lg. lra.
        -- destruct Lg. apply Rmult_le_compat_l; [lra|]. rewrite Rabs_left1 by lra. lra.
      * rewrite E2, E4. eapply Rle_trans; [apply LV; try lra|].
        -- intros u Hu. destruct (FE u Hu) as (_ & _ & E & _). destruct (Bd u Hu) as (_ & B & _). rewrite E in B. exact B.
        -- destruct Lg as (_ & ? & _). apply Rmult_le_compat_l; [lra|]. rewrite Rabs_left1 by lra. lra.
Qed.

Lemma constant_ride (dist v p : R) : 0 <= dist -> 0 < v -> 0 < p ->
  exists l, plays straight_next (@straight_generate_constant Rops dist v p) l /\
    ride l origin (ahead dist) v v (v * p) 0 0.
Proof.
  intros Hd Hv Hp. destruct (constant_ok dist v p Hd Hv Hp) as [Y O].
  assert (T0 : 0 <= dist / v) by (apply Rle_mult_inv_pos; assumption).
  exists (map (fun n => along v (v * (INR n * p))) (seq 0 (samples (dist / v) p))). split.
  - apply plays_seq; [exact Y | exact O].
  - apply (ride_sampled (fun u => line (@Axis4 Rops (v * u)%R v 0%R 0%R)) origin (ahead dist) v v (v * p) 0 0 _ _ T0 Hp).
    + apply (line_passing _ 0); cbn; [ring | reflexivity].
    + apply line_passing; cbn; [field; lra | reflexivity].
    + intros s t Hs Ht D. apply line_close; cbn [tx tv].
      * replace (v * s - v * t) with (- (v * (t - s))) by ring. rewrite Rabs_Ropp, Rabs_pos_eq by (apply Rmult_le_pos; lra).
        apply Rmult_le_compat_l; lra.
      * rewrite Rminus_diag_eq, Rabs_R0 by reflexivity. lra.
Qed.

(** spins *)
Definition facing (d : R) : @pose Rops := @Pose Rops 0%R 0%R d.
Lemma still_close (a b : @axis4 Rops) (h : R) : Rabs (tx b - tx a) <= h ->
  let z := @Axis4 Rops 0%R 0%R 0%R 0%R in close 0 h 0 (@Target Rops z z a) (@Target Rops z z b).
Proof.
  intros D. unfold close, gap, speed_gap, turn_gap. cbn [t_x t_y t_theta tx tv]. split; [|split].
  - eapply Rle_trans; [apply dist_sum|]. rewrite !(Rminus_diag_eq 0 0 eq_refl), Rabs_R0. lra.
  - exists 0%Z. rewrite Rmult_0_r, Rplus_0_r. exact D.
  - eapply Rle_trans; [apply dist_sum|]. rewrite !(Rminus_diag_eq 0 0 eq_refl), Rabs_R0. lra.
Qed.
Lemma still_passing (a : @axis4 Rops) (d : R) : tx a = d ->
  let z := @Axis4 Rops 0%R 0%R 0%R 0%R in passing (facing d) 0 (@Target Rops z z a).
Proof.
  intros D. unfold passing, facing. cbn [t_x t_y t_theta tx tv p_x p_y p_theta].
  split; [reflexivity|]. split; [reflexivity|]. split; [exact D|]. split; symmetry; apply Rmult_0_l.
Qed.

Lemma turns_lip (f : R -> @axis4 Rops) g T th0 d s t : turns f g T th0 d -> 0 <= s <= t -> t <= T ->
  Rabs (tx (f t) - tx (f s)) <= g_v_max g * (t - s).
Proof.
  intros (T0 & Fo & Bd & _) Hs Ht. destruct Fo as (x & v & a & j & ex & M & FE).
  destruct (FE s ltac:(lra)) as (-> & _). destruct (FE t ltac:(lra)) as (-> & _).
  rewrite <- (Rabs_pos_eq (t - s)) by lra.
  apply (lip x v 0 T (g_v_max g) (fun u _ => mo_x _ _ _ _ _ _ M u)); try lra.
  intros u Hu. destruct (FE u Hu) as (_ & E & _). destruct (Bd u Hu) as (B & _). rewrite E in B. exact B.
Qed.

Lemma spin_ride (g : @generator Rops) (p d : R) : limits g -> big_enough g d -> 0 < p ->
  exists l, plays spin_next (spin_generate g p d) l /\ ride l origin (facing d) 0 0 0 (g_v_max g * p) 0.
Proof.
  intros Lg B Hp. destruct (spin_ok g p d Lg B Hp) as (f & T & Tu & Y & O).
  set (z := @Axis4 Rops 0%R 0%R 0%R 0%R) in *.
  exists (map (fun n => @Target Rops z z (f (INR n * p))) (seq 0 (samples T p))). split.
  - apply plays_seq; [exact Y|]. intros k Hk. apply O. apply (floor_count T p k Hp). exact Hk.
  - assert (Tu' := Tu). destruct Tu' as (T0 & _ & _ & (X0 & _) & (XT & _) & _).
    apply (ride_sampled (fun u => @Target Rops z z (f u))); [exact T0 | exact Hp | | |].
    + exact (still_passing _ 0 X0).
    + rewrite Rplus_0_l in XT. exact (still_passing _ d XT).
    + intros s t Hs Ht D. apply still_close. eapply Rle_trans; [exact (turns_lip f g T 0 d s t Tu Hs Ht)|].
      destruct Lg. apply Rmult_le_compat_l; lra.
Qed.

(** stops *)
Lemma rest_passing (q : @pose Rops) : passing q 0 (rest_at q).
Proof.
  unfold passing, rest_at. cbn [t_x t_y t_theta tx tv]. repeat split; symmetry; apply Rmult_0_l.
Qed.
Lemma stop_ride (q : @pose Rops) (p T : R) : 0 < p -> 0 < T ->
  exists l, plays stop_next (@stop_new Rops q p T) l /\ ride l q q 0 0 0 0 0.
Proof.
  intros Hp HT. destruct (stop_sampled T p Hp q) as [Y O].
  assert (C := ceil_count T p). destruct (Z.to_nat (Zceil (T / p))) as [|n] eqn:EN.
  { exfalso. assert (0 < 0)%nat; [|lia]. apply (C 0%nat Hp). cbn. lra. }
  exists (map (fun _ => rest_at q) (seq 0 (S n))). split.
  - apply plays_seq; [exact Y|]. intros k Hk. apply O. apply (C k Hp). exact Hk.
  - assert (CL : forall t, passing q 0 t -> close 0 0 0 (rest_at q) t).
    { intros t P. assert (J := passing_close _ _ 0 0 _ _ 0 (rest_passing q) P (near_refl _)).
      rewrite (Rminus_diag_eq 0 0 eq_refl), Rabs_R0, Rmult_0_r in J. exact J. }
    split.
    + exists (rest_at q), (map (fun _ => rest_at q) (seq 1 n)). split; [reflexivity | apply rest_passing].
    + apply linked_seq; [intros; apply CL, rest_passing | apply CL, mark_passing].
Qed.

(** curves *)
Lemma dist_tri3 a b a' b' c d e : Rabs (a - a') <= e -> Rabs (b - b') <= e -> dist_euc a b c d <= 2 * e + dist_euc a' b' c d.
Proof.
  intros A B. eapply Rle_trans; [apply (triangle a b c d a' b')|]. assert (Q := dist_sum a b a' b'). lra.
Qed.

Lemma curve_ride (p x y th0 d v xe ye ex ey e : R) (g : @generator Rops) (c : @overall Rops) (T : R) :
  limits g -> turns (@calculate Rops c) g T th0 d -> 0 < p -> 0 <= v ->
  (forall X Y, drives v (fun u => tx (@calculate Rops c u)) T x y X Y -> Rabs (X T - xe) <= ex /\ Rabs (Y T - ye) <= ey) ->
  0 <= ex -> 0 <= ey -> v * T * quad_error (g_v_max g) (g_a_max g) (g_j_max g) p <= e ->
  exists l, plays curve_next (@CurveTraj Rops c 0%R T p x y v) l /\
    ride l (@Pose Rops x y th0) (@Pose Rops xe ye (th0 + d)%R) v v (v * p + 2 * e + (ex + ey)) (g_v_max g * p) (v * (g_v_max g * p)).
Proof.
  intros Lg Tu Hp Hv HE Ex Ey He.
  assert (Tu' := Tu). destruct Tu' as (T0 & _ & _ & (X0 & _) & (XT & _) & _).
  destruct (curve_sampled T p Hp c x y v) as [Y O]. fold (samples T p) in Y.
  destruct (curve_positions_at p x y th0 d v g c T Lg Tu Hp Hv) as (X & Y' & XX0 & YY0 & D & _ & PO).
  assert (QE : 0 <= quad_error (g_v_max g) (g_a_max g) (g_j_max g) p).
  { destruct Lg as (L1 & L2 & L3). unfold quad_error.
    assert (0 < p * p) by nra. assert (0 < p * p * p) by nra. assert (0 < g_v_max g * p) by nra.
    assert (0 < g_v_max g * g_v_max g) by nra. assert (0 < g_v_max g * g_a_max g) by nra.
    assert (0 < g_v_max g * g_v_max g * g_v_max g) by nra.
    assert (0 < (g_v_max g * g_v_max g + g_a_max g) * (p * p)) by (apply Rmult_lt_0_compat; lra).
    assert (0 < (g_j_max g + 3 * g_v_max g * g_a_max g + g_v_max g * g_v_max g * g_v_max g) * (p * p * p)) by (apply Rmult_lt_0_compat; lra). lra. }
  assert (E0 : 0 <= e).
  { eapply Rle_trans; [|exact He]. apply Rmult_le_pos; [apply Rmult_le_pos; lra | exact QE]. }
  exists (map (curve_target p c x y v) (seq 0 (samples T p))). split.
  { apply plays_seq; [exact Y|]. intros k Hk. apply O. apply (floor_count T p k Hp). exact Hk. }
  destruct (samples_S T p T0 Hp) as (n & -> & L1 & L2).
  assert (I0 : forall i, 0 <= INR i * p) by (intros i; apply Rmult_le_pos; [apply pos_INR | lra]).
  assert (VP : 0 <= v * p) by (apply Rmult_le_pos; lra).
  split.
  - exists (curve_target p c x y v 0), (map (curve_target p c x y v) (seq 1 n)). split; [reflexivity|].
    unfold passing, curve_target. cbn [t_x t_y t_theta tx tv p_x p_y p_theta curve_pos fst snd INR].
    rewrite !Rmult_0_l, X0. repeat split.
  - apply linked_seq; cbn [Nat.add].
    + intros i Hi. assert (HS : INR i * p + p <= T).
      { apply Rle_trans with (INR n * p); [|exact L1]. replace (INR i * p + p) with (INR (S i) * p) by (rewrite S_INR; ring).
        apply Rmult_le_compat_r; [lra|]. apply le_INR. lia. }
      assert (TL := turns_lip _ g T th0 d (INR i * p) (INR (S i) * p) Tu).
      assert (AB : Rabs (tx (@calculate Rops c (INR (S i) * p)%R) - tx (@calculate Rops c (INR i * p)%R)) <= g_v_max g * p).
      { eapply Rle_trans; [apply TL; rewrite S_INR; try lra; split; [apply I0 | lra]|]. rewrite S_INR. right. ring. }
      split; [|split].
      * apply Rle_trans with (v * p); [|lra]. unfold gap, curve_target. cbn [t_x t_y tx]. apply dist_le; [exact VP|].
        assert (CS := curve_step c p x y v i). cbv zeta in CS.
        eapply Rle_trans; [|exact CS]. right. ring.
      * exists 0%Z. unfold curve_target. cbn [t_theta]. rewrite Rmult_0_r, Rplus_0_r. exact AB.
      * unfold speed_gap, curve_target. cbn [t_x t_y tv]. eapply Rle_trans; [apply dist_dir, Hv|].
        apply Rmult_le_compat_l; [exact Hv|]. rewrite Rabs_minus_sym. exact AB.
    + assert (DR : drives v (fun u => tx (@calculate Rops c u)) T x y X Y') by (split; [exact XX0 | split; [exact YY0 | exact D]]).
      destruct (HE X Y' DR) as [EX EY]. clear DR.
      destruct (PO n _ (O n L1)) as (_ & PX & PY). 
      assert (EB : v * (INR n * p) * quad_error (g_v_max g) (g_a_max g) (g_j_max g) p <= e).
      { eapply Rle_trans; [|exact He]. apply Rmult_le_compat_r; [exact QE|]. apply Rmult_le_compat_l; lra. }
      assert (AB : Rabs (tx (@calculate Rops c T) - tx (@calculate Rops c (INR n * p)%R)) <= g_v_max g * p).
      { eapply Rle_trans; [apply (turns_lip _ g T th0 d (INR n * p) T Tu (conj (I0 n) L1)); lra|]. destruct Lg. apply Rmult_le_compat_l; lra. }
      split; [|split].
      * unfold gap, mark. cbn [t_x t_y tx p_x p_y].
        eapply Rle_trans; [exact (dist_tri3 _ _ _ _ _ _ e (Rle_trans _ _ _ PX EB) (Rle_trans _ _ _ PY EB))|].
        eapply Rle_trans; [apply Rplus_le_compat_l, (triangle _ _ _ _ (X T) (Y' T))|].
        assert (D2 := dist_sum (X T) (Y' T) xe ye).
        assert (DV := driven X Y' (fun u => v * cos (tx (@calculate Rops c u))) (fun u => v * sin (tx (@calculate Rops c u))) T v Hv).
        assert (DV' : dist_euc (X (INR n * p)) (Y' (INR n * p)) (X T) (Y' T) <= v * (T - INR n * p)).
        { apply DV; [|exact (conj (I0 n) L1) | lra]. intros u Hu. destruct (D u Hu) as [D1 D3]. split; [exact D1|]. split; [exact D3|].
          pose proof (sin2_cos2 (tx (@calculate Rops c u))) as S. unfold Rsqr in S. cbv beta. right.
          set (co := cos _) in *. set (si := sin _) in *. transitivity (v * v * (si * si + co * co)); [ring | rewrite S; ring]. }
        assert (v * (T - INR n * p) <= v * p) by (apply Rmult_le_compat_l; lra). lra.
      * exists 0%Z. unfold curve_target, mark. cbn [t_theta tx p_theta]. rewrite Rmult_0_r, Rplus_0_r. rewrite XT in AB. exact AB.
      * unfold speed_gap, curve_target, mark. cbn [t_x t_y tv p_theta]. eapply Rle_trans; [apply dist_dir, Hv|].
        apply Rmult_le_compat_l; [exact Hv|]. rewrite XT in AB. rewrite Rabs_minus_sym. exact AB.
Qed.
