(** The positions of a curve approximate the integral of its velocity. *)
From Coq Require Import ZArith Reals List Bool Lra Lia Psatz.
From Flocq Require Import Core.
From Verif Require Import Base Num NumLemmas SearchModel RunModel ControlModel TrajModel TrajSpec TrajProofs
  TrajProofs2 TrajProofs3 TrajProofs4 TrajProofs5.
Import ListNotations.
Open Scope R_scope.

Lemma taylor_up (H h : R -> R) a b K n : a <= b -> H a = 0 ->
  (forall s, a <= s <= b -> derivable_pt_lim H s (h s)) ->
  (forall s, a <= s <= b -> h s <= K * (s - a) ^ n) -> H b <= K * ((b - a) ^ S n / INR (S n)).
Proof.
  intros L Ha D B. assert (N : INR (S n) <> 0) by (apply not_0_INR; lia).
  assert (Q := nonpos_le (fun s => H s - K * ((s - a) ^ S n / INR (S n))) (fun s => h s - K * (s - a) ^ n) a b L).
  cbv beta in Q. rewrite Ha in Q. replace (a - a) with 0 in Q by ring. rewrite pow_i in Q by lia.
  enough (H b - K * ((b - a) ^ S n / INR (S n)) <= 0 - K * (0 / INR (S n))) by (unfold Rdiv in *; lra).
  apply Q.
  - intros s Hs. apply (derivable_pt_lim_minus H); [apply D, Hs|].
    apply (derivable_pt_lim_scal (fun u => (u - a) ^ S n / INR (S n))).
    eapply dlim_eq.
    + apply (derivable_pt_lim_scal_right (fun u => (u - a) ^ S n)).
      apply (derivable_pt_lim_comp (fun u => u - a) (fun y => y ^ S n) s 1 (INR (S n) * (s - a) ^ Nat.pred (S n))).
      * dlim.
      * apply derivable_pt_lim_pow.
    + cbn [Nat.pred]. field. exact N.
  - intros s Hs. specialize (B s Hs). lra.
Qed.

Lemma taylor_step (H h : R -> R) lo hi m K n : lo <= m <= hi -> H m = 0 ->
  (forall s, lo <= s <= hi -> derivable_pt_lim H s (h s)) ->
  (forall s, lo <= s <= hi -> Rabs (h s) <= K * Rabs (s - m) ^ n) ->
  forall s, lo <= s <= hi -> Rabs (H s) <= K * (Rabs (s - m) ^ S n / INR (S n)).
Proof.
  intros Hm H0 D B s Hs. apply Rabs_le. destruct (Rle_dec m s) as [L|L].
  - rewrite (Rabs_pos_eq (s - m)) by lra. split.
    + enough (- H s <= K * ((s - m) ^ S n / INR (S n))) by lra.
      apply (taylor_up (fun u => - H u) (fun u => - h u) m s K n L); [lra | |].
      * intros u Hu. apply (derivable_pt_lim_opp H). apply D. lra.
      * intros u Hu. specialize (B u ltac:(lra)). rewrite (Rabs_pos_eq (u - m)) in B by lra.
        apply Rabs_le_inv in B. lra.
    + apply (taylor_up H h m s K n L H0).
      * intros u Hu. apply D. lra.
      * intros u Hu. specialize (B u ltac:(lra)). rewrite (Rabs_pos_eq (u - m)) in B by lra.
        apply Rabs_le_inv in B. lra.
  - rewrite (Rabs_left (s - m)) by lra.
    assert (E : - (s - m) = - s - - m) by ring. rewrite E.
    assert (DR : forall u, - m <= u <= - s -> derivable_pt_lim (fun u => H (- u)) u (- h (- u))).
    { intros u Hu. eapply dlim_eq.
      - apply (derivable_pt_lim_comp (fun u => - u) H u (-1) (h (- u))).
        + eapply dlim_eq; [apply (derivable_pt_lim_opp id), derivable_pt_lim_id | ring].
        + apply D. lra.
      - ring. }
    assert (BR : forall u, - m <= u <= - s -> Rabs (h (- u)) <= K * (u - - m) ^ n).
    { intros u Hu. specialize (B (- u) ltac:(lra)). rewrite (Rabs_left1 (- u - m)) in B by lra.
      replace (- (- u - m)) with (u - - m) in B by ring. exact B. }
    split.
    + enough (- H (- - s) <= K * ((- s - - m) ^ S n / INR (S n))) by (rewrite Ropp_involutive in *; lra).
      apply (taylor_up (fun u => - H (- u)) (fun u => h (- u)) (- m) (- s) K n ltac:(lra)).
      * rewrite Ropp_involutive. lra.
      * intros u Hu. eapply dlim_eq; [apply (derivable_pt_lim_opp (fun u => H (- u))), DR, Hu | ring].
      * intros u Hu. specialize (BR u Hu). apply Rabs_le_inv in BR. lra.
    + enough (H (- - s) <= K * ((- s - - m) ^ S n / INR (S n))) by (rewrite Ropp_involutive in *; lra).
      apply (taylor_up (fun u => H (- u)) (fun u => - h (- u)) (- m) (- s) K n ltac:(lra)).
      * rewrite Ropp_involutive. exact H0.
      * exact DR.
      * intros u Hu. specialize (BR u Hu). apply Rabs_le_inv in BR. lra.
Qed.

Lemma mid_remainders (X F F1 F2 : R -> R) t p L : 0 <= p -> 0 <= L ->
  let m := t + p / 2 in
  (forall s, t <= s <= t + p -> derivable_pt_lim X s (F s) /\ derivable_pt_lim F s (F1 s) /\ derivable_pt_lim F1 s (F2 s)) ->
  (forall s, t <= s <= t + p -> Rabs (F2 s - F2 m) <= L * Rabs (s - m)) ->
  forall s, t <= s <= t + p ->
    Rabs (F s - F m - F1 m * (s - m) - F2 m * ((s - m) * (s - m) / 2)) <= L / 6 * Rabs (s - m) ^ 3 /\
    Rabs (X s - X m - F m * (s - m) - F1 m * ((s - m) * (s - m) / 2) - F2 m * ((s - m) * (s - m) * (s - m) / 6))
      <= L / 24 * Rabs (s - m) ^ 4.
Proof.
  intros Hp HL m D B.
  assert (Hm : t <= m <= t + p) by (unfold m; lra).
  assert (A1 := taylor_step (fun s => F1 s - F1 m - F2 m * (s - m)) (fun s => F2 s - F2 m) t (t + p) m L 1 Hm).
  cbv beta in A1. specialize (A1 ltac:(ring)).
  assert (A2 := fun H => taylor_step (fun s => F s - F m - F1 m * (s - m) - F2 m * ((s - m) * (s - m) / 2))
    (fun s => F1 s - F1 m - F2 m * (s - m)) t (t + p) m (L / 2) 2 Hm H).
  cbv beta in A2. specialize (A2 ltac:(field)).
  assert (A3 := fun H => taylor_step (fun s => X s - X m - F m * (s - m) - F1 m * ((s - m) * (s - m) / 2) - F2 m * ((s - m) * (s - m) * (s - m) / 6))
    (fun s => F s - F m - F1 m * (s - m) - F2 m * ((s - m) * (s - m) / 2)) t (t + p) m (L / 6) 3 Hm H).
  cbv beta in A3. specialize (A3 ltac:(field)).
  assert (B1 : forall s, t <= s <= t + p -> Rabs (F1 s - F1 m - F2 m * (s - m)) <= L / 2 * Rabs (s - m) ^ 2).
  { intros s Hs. replace (L / 2 * Rabs (s - m) ^ 2) with (L * (Rabs (s - m) ^ 2 / INR 2)) by (cbn [INR]; field).
    apply A1; [| |exact Hs].
    - intros u Hu. destruct (D u Hu) as (_ & _ & D3). unfold Rminus. dlimh D3.
    - intros u Hu. rewrite pow_1. apply B, Hu. }
  assert (B2 : forall s, t <= s <= t + p ->
    Rabs (F s - F m - F1 m * (s - m) - F2 m * ((s - m) * (s - m) / 2)) <= L / 6 * Rabs (s - m) ^ 3).
  { intros s Hs. replace (L / 6 * Rabs (s - m) ^ 3) with (L / 2 * (Rabs (s - m) ^ 3 / INR 3)) by (cbn [INR]; field).
    apply A2; [|exact B1|exact Hs].
    intros u Hu. destruct (D u Hu) as (_ & D2 & _). unfold Rdiv. dlimh D2. }
  intros s Hs. split; [apply B2, Hs|].
  replace (L / 24 * Rabs (s - m) ^ 4) with (L / 6 * (Rabs (s - m) ^ 4 / INR 4)) by (cbn [INR]; field).
  apply A3; [|exact B2|exact Hs].
  intros u Hu. destruct (D u Hu) as (D1 & _ & _). unfold Rdiv. dlimh D1.
Qed.

Lemma gauss_step (X F F1 F2 : R -> R) t p L M1 M2 : 0 < p -> 0 <= L ->
  let m := t + p / 2 in
  (forall s, t <= s <= t + p -> derivable_pt_lim X s (F s) /\ derivable_pt_lim F s (F1 s) /\ derivable_pt_lim F1 s (F2 s)) ->
  (forall s, t <= s <= t + p -> Rabs (F2 s - F2 m) <= L * Rabs (s - m)) ->
  Rabs (F1 m) <= M1 -> Rabs (F2 m) <= M2 ->
  Rabs (p * (1 / 2 * F (gauss1 p t) + 1 / 2 * F (gauss2 p t)) - (X (t + p) - X t))
    <= p * (2 / 100000000 * (M1 * p) + 1 / 100000000 * (M2 * (p * p)) + L * (p * p * p) / 100).
Proof.
  intros Hp HL m D B HM1 HM2.
  assert (A := mid_remainders X F F1 F2 t p L ltac:(lra) HL D B). fold m in A.
  assert (G1 : t <= gauss1 p t <= t + p) by (unfold gauss1; split; nra).
  assert (G2 : t <= gauss2 p t <= t + p) by (unfold gauss2; split; nra).
  destruct (A (t + p) ltac:(lra)) as [_ X1]. destruct (A t ltac:(lra)) as [_ X0].
  destruct (A _ G1) as [Q1 _]. destruct (A _ G2) as [Q2 _]. clear A D B.
  set (d1 := gauss1 p t - m) in *. set (d2 := gauss2 p t - m) in *.
  assert (E1 : d1 = - (28867513 / 100000000) * p) by (unfold d1, gauss1, m; field).
  assert (E2 : d2 = 2886751 / 10000000 * p) by (unfold d2, gauss2, m; field).
  clearbody d1 d2. subst d1 d2.
  assert (P3 : 0 < p * p * p) by (repeat apply Rmult_lt_0_compat; lra).
  assert (P4 : 0 < p * p * p * p) by (repeat apply Rmult_lt_0_compat; lra).
  replace (Rabs (- (28867513 / 100000000) * p)) with (28867513 / 100000000 * p) in Q1
    by (rewrite Rabs_left; nra).
  rewrite (Rabs_pos_eq (2886751 / 10000000 * p)) in Q2 by nra.
  replace (t + p - m) with (p / 2) in X1 by (unfold m; field).
  replace (t - m) with (- (p / 2)) in X0 by (unfold m; field).
  rewrite Rabs_Ropp in X0. rewrite (Rabs_pos_eq (p / 2)) in X0, X1 by lra.
  apply Rabs_le_inv in Q1. apply Rabs_le_inv in Q2. apply Rabs_le_inv in X0. apply Rabs_le_inv in X1.
  apply Rabs_le_inv in HM1. apply Rabs_le_inv in HM2.
  set (f1 := F (gauss1 p t)) in *. set (f2 := F (gauss2 p t)) in *.
  set (fm := F m) in *. set (gm := F1 m) in *. set (hm := F2 m) in *.
  clearbody f1 f2 fm gm hm.
  assert (K1 : L / 6 * (28867513 / 100000000 * p) ^ 3 <= L * (p * p * p) * (401 / 100000)) by nra.
  assert (K2 : L / 6 * (2886751 / 10000000 * p) ^ 3 <= L * (p * p * p) * (401 / 100000)) by nra.
  assert (K3 : L / 24 * (p / 2) ^ 4 = L * (p * p * p) * p / 384) by field.
  rewrite K3 in X0, X1. clear K3.
  set (xs := X (t + p)) in *. set (x0 := X t) in *. set (xm := X m) in *. clearbody xs x0 xm.
  assert (QQ : Rabs ((1 / 2 * f1 + 1 / 2 * f2) - (fm + hm * (p * p) / 24)) <=
     2 / 100000000 * (M1 * p) + 1 / 100000000 * (M2 * (p * p)) + L * (p * p * p) * (401 / 100000)).
  { set (LL := L * (p * p * p)) in *.
    assert (Z1 : - (M1 * p) <= gm * p <= M1 * p) by (split; nra).
    assert (Z2 : - (M2 * (p * p)) <= hm * (p * p) <= M2 * (p * p)) by (split; nra).
    set (gp := gm * p) in *. set (hp := hm * (p * p)) in *. set (m1 := M1 * p) in *. set (m2 := M2 * (p * p)) in *.
    replace (gm * (- (28867513 / 100000000) * p)) with (- (28867513 / 100000000) * gp) in Q1 by (unfold gp; ring).
    replace (hm * (- (28867513 / 100000000) * p * (- (28867513 / 100000000) * p) / 2))
      with (28867513 / 100000000 * (28867513 / 100000000) / 2 * hp) in Q1 by (unfold hp; field).
    replace (gm * (2886751 / 10000000 * p)) with (2886751 / 10000000 * gp) in Q2 by (unfold gp; ring).
    replace (hm * (2886751 / 10000000 * p * (2886751 / 10000000 * p) / 2))
      with (2886751 / 10000000 * (2886751 / 10000000) / 2 * hp) in Q2 by (unfold hp; field).
    apply Rabs_le. split; lra. }
  assert (XX : Rabs ((xs - x0) - p * (fm + hm * (p * p) / 24)) <= p * (L * (p * p * p) / 192)).
  { replace (hm * (p / 2 * (p / 2) * (p / 2) / 6)) with (hm * (p * p * p) / 48) in X1 by field.
    replace (hm * (- (p / 2) * - (p / 2) * - (p / 2) / 6)) with (- (hm * (p * p * p) / 48)) in X0 by field.
    replace (gm * (p / 2 * (p / 2) / 2)) with (gm * (p * p) / 8) in X1 by field.
    replace (gm * (- (p / 2) * - (p / 2) / 2)) with (gm * (p * p) / 8) in X0 by field.
    replace (p * (fm + hm * (p * p) / 24)) with (p * fm + hm * (p * p * p) / 24) by field.
    replace (fm * (p / 2)) with (p * fm / 2) in X1 by field.
    replace (fm * - (p / 2)) with (- (p * fm / 2)) in X0 by field.
    replace (p * (L * (p * p * p) / 192)) with (2 * (L * (p * p * p) * p / 384)) by field.
    apply Rabs_le. split; lra. }
  replace (p * (1 / 2 * f1 + 1 / 2 * f2) - (xs - x0)) with
    (p * ((1 / 2 * f1 + 1 / 2 * f2) - (fm + hm * (p * p) / 24)) - ((xs - x0) - p * (fm + hm * (p * p) / 24))) by ring.
  unfold Rminus at 1. eapply Rle_trans; [apply Rabs_triang|]. rewrite Rabs_Ropp, Rabs_mult, (Rabs_pos_eq p) by lra.
  eapply Rle_trans; [apply Rplus_le_compat; [apply Rmult_le_compat_l; [lra | exact QQ] | exact XX]|].
  rewrite <- Rmult_plus_distr_l. apply Rmult_le_compat_l; [lra|].
  assert (0 <= L * (p * p * p)) by nra. lra.
Qed.

Lemma lip (f f' : R -> R) lo hi K : (forall s, lo <= s <= hi -> derivable_pt_lim f s (f' s)) ->
  (forall s, lo <= s <= hi -> Rabs (f' s) <= K) ->
  forall s m, lo <= s <= hi -> lo <= m <= hi -> Rabs (f s - f m) <= K * Rabs (s - m).
Proof.
  intros D B s m Hs Hm.
  assert (A := taylor_step (fun u => f u - f m) f' lo hi m K 0 Hm). cbv beta in A. specialize (A ltac:(ring)).
  replace (K * Rabs (s - m)) with (K * (Rabs (s - m) ^ 1 / INR 1)) by (cbn [INR]; field).
  apply A; [| |exact Hs].
  - intros u Hu. eapply dlim_eq;
      [apply (derivable_pt_lim_minus f (fun _ => f m)); [apply D, Hu | apply derivable_pt_lim_const] | ring].
  - intros u Hu. cbn [pow]. rewrite Rmult_1_r. apply B, Hu.
Qed.

Lemma lip_sin a b : Rabs (sin a - sin b) <= Rabs (a - b).
Proof.
  rewrite <- (Rmult_1_l (Rabs (a - b))). apply (lip sin cos (Rmin a b) (Rmax a b)).
  - intros s _. apply derivable_pt_lim_sin.
  - intros s _. apply Rabs_le. destruct (COS_bound s). lra.
  - split; [apply Rmin_l | apply Rmax_l].
  - split; [apply Rmin_r | apply Rmax_r].
Qed.

Lemma lip_cos a b : Rabs (cos a - cos b) <= Rabs (a - b).
Proof.
  rewrite <- (Rmult_1_l (Rabs (a - b))). apply (lip cos (fun s => - sin s) (Rmin a b) (Rmax a b)).
  - intros s _. apply derivable_pt_lim_cos.
  - intros s _. apply Rabs_le. destruct (SIN_bound s). lra.
  - split; [apply Rmin_l | apply Rmax_l].
  - split; [apply Rmin_r | apply Rmax_r].
Qed.

Lemma lip_mult a b a' b' A B d e : Rabs a' <= A -> Rabs b <= B -> Rabs (a - a') <= d -> Rabs (b - b') <= e ->
  Rabs (a * b - a' * b') <= d * B + A * e.
Proof.
  intros HA HB Hd He. replace (a * b - a' * b') with ((a - a') * b + a' * (b - b')) by ring.
  eapply Rle_trans; [apply Rabs_triang|]. rewrite !Rabs_mult.
  apply Rplus_le_compat; apply Rmult_le_compat; auto using Rabs_pos.
Qed.

Lemma abs_mult x y A B : Rabs x <= A -> Rabs y <= B -> Rabs (x * y) <= A * B.
Proof. intros HA HB. rewrite Rabs_mult. apply Rmult_le_compat; auto using Rabs_pos. Qed.

Lemma abs_sin x : Rabs (sin x) <= 1. Proof. apply Rabs_le. destruct (SIN_bound x). lra. Qed.
Lemma abs_cos x : Rabs (cos x) <= 1. Proof. apply Rabs_le. destruct (COS_bound x). lra. Qed.

(** the second derivative of the velocity components. *)
Section Turning.
Variables (x w a : R -> R) (W A J lo hi : R).
Hypothesis Dx : forall s, derivable_pt_lim x s (w s).
Hypothesis Dw : forall s, derivable_pt_lim w s (a s).
Hypothesis La : forall s t, Rabs (a s - a t) <= J * Rabs (s - t).
Hypothesis Bw : forall s, lo <= s <= hi -> Rabs (w s) <= W.
Hypothesis Ba : forall s, lo <= s <= hi -> Rabs (a s) <= A.

Lemma lip_second s m : lo <= s <= hi -> lo <= m <= hi ->
  let K := J + 3 * W * A + W * W * W in
  Rabs ((cos (x s) * (w s * w s) + sin (x s) * a s) - (cos (x m) * (w m * w m) + sin (x m) * a m)) <= K * Rabs (s - m) /\
  Rabs ((- sin (x s) * (w s * w s) + cos (x s) * a s) - (- sin (x m) * (w m * w m) + cos (x m) * a m)) <= K * Rabs (s - m).
Proof.
  intros Hs Hm K.
  assert (Lx : Rabs (x s - x m) <= W * Rabs (s - m)) by (apply (lip x w lo hi W); auto).
  assert (Lw : Rabs (w s - w m) <= A * Rabs (s - m)) by (apply (lip w a lo hi A); auto).
  assert (Ws := Bw s Hs). assert (Wm := Bw m Hm). assert (As := Ba s Hs). assert (Am := Ba m Hm).
  assert (Lc := lip_cos (x s) (x m)). assert (Ls := lip_sin (x s) (x m)).
  assert (Q2 := lip_mult (w s) (w s) (w m) (w m) W W _ _ Wm Ws Lw Lw).
  assert (B2 := abs_mult _ _ _ _ Ws Ws).
  assert (P1 := lip_mult (cos (x s)) (w s * w s) (cos (x m)) (w m * w m) 1 (W * W) _ _ (abs_cos _) B2 (Rle_trans _ _ _ Lc Lx) Q2).
  assert (P2 := lip_mult (sin (x s)) (a s) (sin (x m)) (a m) 1 A _ _ (abs_sin _) As (Rle_trans _ _ _ Ls Lx) (La s m)).
  assert (P3 := lip_mult (sin (x s)) (w s * w s) (sin (x m)) (w m * w m) 1 (W * W) _ _ (abs_sin _) B2 (Rle_trans _ _ _ Ls Lx) Q2).
  assert (P4 := lip_mult (cos (x s)) (a s) (cos (x m)) (a m) 1 A _ _ (abs_cos _) As (Rle_trans _ _ _ Lc Lx) (La s m)).
  split.
  - replace (cos (x s) * (w s * w s) + sin (x s) * a s - (cos (x m) * (w m * w m) + sin (x m) * a m))
      with ((cos (x s) * (w s * w s) - cos (x m) * (w m * w m)) + (sin (x s) * a s - sin (x m) * a m)) by ring.
    eapply Rle_trans; [apply Rabs_triang|]. unfold K. lra.
  - replace (- sin (x s) * (w s * w s) + cos (x s) * a s - (- sin (x m) * (w m * w m) + cos (x m) * a m))
      with (- (sin (x s) * (w s * w s) - sin (x m) * (w m * w m)) + (cos (x s) * a s - cos (x m) * a m)) by ring.
    eapply Rle_trans; [apply Rabs_triang|]. rewrite Rabs_Ropp. unfold K. lra.
Qed.

Lemma second_bound m : lo <= m <= hi ->
  Rabs (cos (x m) * (w m * w m) + sin (x m) * a m) <= W * W + A /\
  Rabs (- sin (x m) * (w m * w m) + cos (x m) * a m) <= W * W + A.
Proof.
  intros Hm. assert (Wm := Bw m Hm). assert (Am := Ba m Hm). assert (B2 := abs_mult _ _ _ _ Wm Wm).
  assert (P1 := abs_mult _ _ _ _ (abs_cos (x m)) B2). assert (P2 := abs_mult _ _ _ _ (abs_sin (x m)) Am).
  assert (P3 := abs_mult _ _ _ _ (abs_sin (x m)) B2). assert (P4 := abs_mult _ _ _ _ (abs_cos (x m)) Am).
  split; (eapply Rle_trans; [apply Rabs_triang|]); [lra|].
  replace (- sin (x m) * (w m * w m)) with (- (sin (x m) * (w m * w m))) by ring. rewrite Rabs_Ropp. lra.
Qed.

(** one step of both components. *)
Lemma curve_quad_step (X Y : R -> R) v t p : 0 < p -> 0 <= v -> lo <= t -> t + p <= hi -> 0 <= W -> 0 <= A -> 0 <= J ->
  (forall s, lo <= s <= hi -> derivable_pt_lim X s (v * cos (x s)) /\ derivable_pt_lim Y s (v * sin (x s))) ->
  let E := 2 / 100000000 * (W * p) + 1 / 100000000 * ((W * W + A) * (p * p))
           + (J + 3 * W * A + W * W * W) * (p * p * p) / 100 in
  Rabs (v * p * (1 / 2 * cos (x (gauss1 p t)) + 1 / 2 * cos (x (gauss2 p t))) - (X (t + p) - X t)) <= v * p * E /\
  Rabs (v * p * (1 / 2 * sin (x (gauss1 p t)) + 1 / 2 * sin (x (gauss2 p t))) - (Y (t + p) - Y t)) <= v * p * E.
Proof.
  intros Hp Hv Hlo Hhi HW HA HJ DX E.
  set (m := t + p / 2). assert (Hm : lo <= m <= hi) by (unfold m; lra).
  set (K := J + 3 * W * A + W * W * W).
  assert (HK : 0 <= K).
  { unfold K. assert (0 <= W * A) by (apply Rmult_le_pos; assumption).
    assert (0 <= W * W * W) by (repeat apply Rmult_le_pos; assumption). lra. }
  assert (HD := fun u => head_derivs x w a v u (Dx u) (Dw u)).
  assert (GX := gauss_step X (fun u => v * cos (x u)) (fun u => - v * sin (x u) * w u)
    (fun u => - v * (cos (x u) * (w u * w u) + sin (x u) * a u)) t p (v * K) (v * W) (v * (W * W + A)) Hp).
  assert (GY := gauss_step Y (fun u => v * sin (x u)) (fun u => v * cos (x u) * w u)
    (fun u => v * (- sin (x u) * (w u * w u) + cos (x u) * a u)) t p (v * K) (v * W) (v * (W * W + A)) Hp).
  assert (LK : 0 <= v * K) by (apply Rmult_le_pos; assumption).
  specialize (GX LK). specialize (GY LK). cbv beta zeta in GX, GY. fold m in GX, GY.
  assert (AV : Rabs v = v) by (apply Rabs_pos_eq, Hv).
  assert (EE : p * (2 / 100000000 * (v * W * p) + 1 / 100000000 * (v * (W * W + A) * (p * p)) + v * K * (p * p * p) / 100)
               = v * p * E) by (unfold E, K; field).
  rewrite EE in GX, GY.
  split.
  - replace (v * p * (1 / 2 * cos (x (gauss1 p t)) + 1 / 2 * cos (x (gauss2 p t))))
      with (p * (1 / 2 * (v * cos (x (gauss1 p t))) + 1 / 2 * (v * cos (x (gauss2 p t))))) by ring.
    apply GX.
    + intros s Hs. destruct (HD s) as (D1 & _ & D3 & _). destruct (DX s ltac:(lra)) as [D0 _]. auto.
    + intros s Hs. destruct (lip_second s m ltac:(lra) Hm) as [Q _].
      replace (- v * (cos (x s) * (w s * w s) + sin (x s) * a s) - - v * (cos (x m) * (w m * w m) + sin (x m) * a m))
        with (- (v * ((cos (x s) * (w s * w s) + sin (x s) * a s) - (cos (x m) * (w m * w m) + sin (x m) * a m)))) by ring.
      rewrite Rabs_Ropp, Rabs_mult, AV, Rmult_assoc. apply Rmult_le_compat_l; [exact Hv | exact Q].
    + replace (- v * sin (x m) * w m) with (- (v * (sin (x m) * w m))) by ring.
      rewrite Rabs_Ropp, Rabs_mult, AV. apply Rmult_le_compat_l; [exact Hv|].
      rewrite <- (Rmult_1_l W). apply abs_mult; [apply abs_sin | apply Bw, Hm].
    + rewrite Rabs_mult, Rabs_Ropp, AV. apply Rmult_le_compat_l; [exact Hv|]. apply (second_bound m Hm).
  - replace (v * p * (1 / 2 * sin (x (gauss1 p t)) + 1 / 2 * sin (x (gauss2 p t))))
      with (p * (1 / 2 * (v * sin (x (gauss1 p t))) + 1 / 2 * (v * sin (x (gauss2 p t))))) by ring.
    apply GY.
    + intros s Hs. destruct (HD s) as (_ & D1 & _ & D3). destruct (DX s ltac:(lra)) as [_ D0]. auto.
    + intros s Hs. destruct (lip_second s m ltac:(lra) Hm) as [_ Q].
      replace (v * (- sin (x s) * (w s * w s) + cos (x s) * a s) - v * (- sin (x m) * (w m * w m) + cos (x m) * a m))
        with (v * ((- sin (x s) * (w s * w s) + cos (x s) * a s) - (- sin (x m) * (w m * w m) + cos (x m) * a m))) by ring.
      rewrite Rabs_mult, AV, Rmult_assoc. apply Rmult_le_compat_l; [exact Hv | exact Q].
    + replace (v * cos (x m) * w m) with (v * (cos (x m) * w m)) by ring.
      rewrite Rabs_mult, AV. apply Rmult_le_compat_l; [exact Hv|].
      rewrite <- (Rmult_1_l W). apply abs_mult; [apply abs_cos | apply Bw, Hm].
    + rewrite Rabs_mult, AV. apply Rmult_le_compat_l; [exact Hv|]. apply (second_bound m Hm).
Qed.
End Turning.

Lemma antiderivative_on (f : R -> R) T : 0 <= T -> (forall s, continuity_pt f s) ->
  exists X, X 0 = 0 /\ forall s, 0 <= s <= T -> derivable_pt_lim X s (f s).
Proof.
  intros HT C. assert (L : -1 <= T + 1) by lra.
  set (C0 := fun x (_ : -1 <= x <= T + 1) => C x).
  set (P := primitive L (FTC_P1 L C0)).
  exists (fun s => P s - P 0). split; [ring|]. intros s Hs.
  eapply dlim_eq; [apply (derivable_pt_lim_minus P (fun _ => P 0)); [|apply derivable_pt_lim_const] | apply Rminus_0_r].
  apply RiemannInt_P28. lra.
Qed.

Lemma curve_positions_at (p x y th0 d v : R) (g : @generator Rops) (c : @overall Rops) (T : R) :
  let s := @CurveTraj Rops c 0%R T p x y v in
  limits g -> turns (@calculate Rops c) g T th0 d -> 0 < p -> 0 <= v ->
  exists X Y, X 0 = x /\ Y 0 = y /\
    (forall u, 0 <= u <= T -> derivable_pt_lim X u (v * cos (tx (@calculate Rops c u))) /\ derivable_pt_lim Y u (v * sin (tx (@calculate Rops c u)))) /\
    yields curve_next s (samples T p) /\
    forall n t, output curve_next n s = Some t ->
      let u := INR n * p in let e := v * u * quad_error (g_v_max g) (g_a_max g) (g_j_max g) p in
      t_theta t = @calculate Rops c u /\ Rabs (tx (t_x t) - X u) <= e /\ Rabs (tx (t_y t) - Y u) <= e.
Proof.
  cbv zeta. intros Lg Tu Hp Hv.
  destruct (curve_sampled T p Hp c x y v) as [Y O].
  destruct Tu as (T0 & F & BD & _).
  destruct F as (fx & fv & fa & fj & ex & M & FE).
  assert (DD := fun u => head_derivs fx fv fa v u (mo_x _ _ _ _ _ _ M u) (mo_v _ _ _ _ _ _ M u)).
  assert (CX : forall u, continuity_pt (fun u => v * cos (fx u)) u).
  { intros u. apply derivable_continuous_pt. eexists. apply (DD u). }
  assert (CY : forall u, continuity_pt (fun u => v * sin (fx u)) u).
  { intros u. apply derivable_continuous_pt. eexists. apply (DD u). }
  destruct (antiderivative_on _ T T0 CX) as (X0 & X00 & DX).
  destruct (antiderivative_on _ T T0 CY) as (Y0 & Y00 & DY).
  assert (BB : forall u, 0 <= u <= T -> Rabs (fv u) <= g_v_max g /\ Rabs (fa u) <= g_a_max g).
  { intros u Hu. destruct (FE u Hu) as (_ & E2 & E3 & _). destruct (BD u Hu) as (B1 & B2 & _).
    rewrite E2 in B1. rewrite E3 in B2. auto. }
  exists (fun u => x + X0 u), (fun u => y + Y0 u).
  split; [rewrite X00; ring|]. split; [rewrite Y00; ring|].
  assert (DXY : forall u, 0 <= u <= T -> derivable_pt_lim X0 u (v * cos (fx u)) /\ derivable_pt_lim Y0 u (v * sin (fx u))).
  { intros u Hu. split; [apply DX, Hu | apply DY, Hu]. }
  split.
  { intros u Hu. destruct (FE u Hu) as (-> & _). destruct (DXY u Hu) as [D1 D2].
    split; (eapply dlim_eq; [apply (derivable_pt_lim_plus (fun _ => _)); [apply derivable_pt_lim_const | eassumption] | apply Rplus_0_l]). }
  split; [exact Y|].
  destruct Lg as (Pv & Pa & Pj).
  set (e := quad_error (g_v_max g) (g_a_max g) (g_j_max g) p).
  assert (K : forall n, INR n * p <= T ->
    Rabs (fst (curve_pos p c x y v n) - (x + X0 (INR n * p))) <= v * (INR n * p) * e /\
    Rabs (snd (curve_pos p c x y v n) - (y + Y0 (INR n * p))) <= v * (INR n * p) * e).
  { induction n as [|n IH]; intros Hn.
    - cbn [curve_pos fst snd INR]. rewrite !Rmult_0_l, X00, Y00, !Rmult_0_r, !Rmult_0_l.
      rewrite !Rplus_0_r. rewrite !Rminus_diag_eq, Rabs_R0 by reflexivity. lra.
    - assert (Hn' : INR n * p + p <= T) by (rewrite S_INR in Hn; lra).
      assert (N0 : 0 <= INR n * p) by (apply Rmult_le_pos; [apply pos_INR | lra]).
      destruct (IH ltac:(lra)) as [IX IY]. cbn [curve_pos fst snd].
      set (t := INR n * p) in *.
      destruct (curve_quad_step fx fv fa (g_v_max g) (g_a_max g) (g_j_max g) 0 T
        (mo_x _ _ _ _ _ _ M) (mo_v _ _ _ _ _ _ M) (mo_lip _ _ _ _ _ _ M)
        (fun u Hu => proj1 (BB u Hu)) (fun u Hu => proj2 (BB u Hu)) X0 Y0 v t p Hp Hv N0 Hn'
        ltac:(lra) ltac:(lra) ltac:(lra) DXY) as [SX SY].
      replace (INR (S n) * p) with (t + p) by (unfold t; rewrite S_INR; ring).
      assert (H1 : head c (gauss1 p t) = fx (gauss1 p t)) by (apply FE; unfold gauss1; split; nra).
      assert (H2 : head c (gauss2 p t) = fx (gauss2 p t)) by (apply FE; unfold gauss2; split; nra).
      rewrite H1, H2. cbv zeta in SX, SY. change (2 / 100000000 * (g_v_max g * p) + 1 / 100000000 * ((g_v_max g * g_v_max g + g_a_max g) * (p * p))
           + (g_j_max g + 3 * g_v_max g * g_a_max g + g_v_max g * g_v_max g * g_v_max g) * (p * p * p) / 100) with e in SX, SY.
      set (sx := v * p * (1 / 2 * cos _ + 1 / 2 * cos _)) in *.
      set (sy := v * p * (1 / 2 * sin _ + 1 / 2 * sin _)) in *.
      replace (v * (t + p) * e) with (v * t * e + v * p * e) by ring.
      split.
      + replace (fst (curve_pos p c x y v n) + sx - (x + X0 (t + p)))
          with ((fst (curve_pos p c x y v n) - (x + X0 t)) + (sx - (X0 (t + p) - X0 t))) by ring.
        eapply Rle_trans; [apply Rabs_triang|]. apply Rplus_le_compat; assumption.
      + replace (snd (curve_pos p c x y v n) + sy - (y + Y0 (t + p)))
          with ((snd (curve_pos p c x y v n) - (y + Y0 t)) + (sy - (Y0 (t + p) - Y0 t))) by ring.
        eapply Rle_trans; [apply Rabs_triang|]. apply Rplus_le_compat; assumption. }
  intros n t H. assert (N : output curve_next n (@CurveTraj Rops c 0%R T p x y v) <> None) by congruence.
  apply Y in N. apply (floor_count T p n Hp) in N. rewrite (O n N) in H. injection H as <-.
  destruct (K n N) as [KX KY]. unfold curve_target. cbn [t_theta t_x t_y tx]. auto.
Qed.

Lemma curve_positions (p x y th0 d v v_ref dth ddth dddth : R) :
  let g := curve_gen v v_ref dth ddth dddth in
  let s := @generate_curve Rops p x y th0 d v v_ref dth ddth dddth in
  limits g -> big_enough g d -> 0 < p -> 0 <= v ->
  exists (f : R -> @axis4 Rops) T X Y, turns f g T th0 d /\ X 0 = x /\ Y 0 = y /\
    (forall u, 0 <= u <= T -> derivable_pt_lim X u (v * cos (tx (f u))) /\ derivable_pt_lim Y u (v * sin (tx (f u)))) /\
    yields curve_next s (samples T p) /\
    forall n t, output curve_next n s = Some t ->
      let u := INR n * p in let e := v * u * quad_error (g_v_max g) (g_a_max g) (g_j_max g) p in
      t_theta t = f u /\ Rabs (tx (t_x t) - X u) <= e /\ Rabs (tx (t_y t) - Y u) <= e.
Proof.
  cbv zeta. intros Lg B Hp Hv.
  destruct (generate_turns _ th0 d Lg B) as (c & T & E & Tu).
  assert (ES : @generate_curve Rops p x y th0 d v v_ref dth ddth dddth = @CurveTraj Rops c 0%R T p x y v).
  { unfold generate_curve. rewrite n0_R. rops. unfold curve_gen in E. cbv zeta in E.
    rewrite E. reflexivity. }
  rewrite ES. destruct (curve_positions_at p x y th0 d v _ c T Lg Tu Hp Hv) as (X & Y & H).
  exists (@calculate Rops c), T, X, Y. split; [exact Tu | exact H].
Qed.
