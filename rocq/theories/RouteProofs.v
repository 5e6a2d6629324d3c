(** Joined trajectories: sequences of targets and their joints. *)
From Coq Require Import ZArith Reals List Bool Lia Lra.
From Verif Require Import Base SearchModel SearchSpec RunModel Num NumLemmas ControlModel TrajModel TrajSpec RouteModel RouteSpec
  TrajProofs TrajProofs2 TrajProofs4 TrajProofs5 TrajProofs7 TrajProofs8 TrajQuad.
Import ListNotations.
Open Scope R_scope.

(** ** Distances *)
Lemma dist_sum a b c d : dist_euc a b c d <= Rabs (a - c) + Rabs (b - d).
Proof.
  unfold dist_euc. pose proof (Rabs_pos (a - c)). pose proof (Rabs_pos (b - d)).
  rewrite <- (sqrt_Rsqr (Rabs (a - c) + Rabs (b - d))) by lra. apply sqrt_le_1_alt.
  rewrite (Rsqr_abs (a - c)), (Rsqr_abs (b - d)). unfold Rsqr. nra.
Qed.
Lemma dist_le a b c d e : 0 <= e -> (a - c) * (a - c) + (b - d) * (b - d) <= e * e -> dist_euc a b c d <= e.
Proof.
  intros E H. unfold dist_euc. rewrite <- (sqrt_Rsqr e) by exact E. apply sqrt_le_1_alt. unfold Rsqr. exact H.
Qed.
Lemma dist_sq a b c d a' b' c' d' : (a - c) * (a - c) + (b - d) * (b - d) = (a' - c') * (a' - c') + (b' - d') * (b' - d') ->
  dist_euc a b c d = dist_euc a' b' c' d'.
Proof. intros H. unfold dist_euc, Rsqr. rewrite H. reflexivity. Qed.
Lemma dist_nonneg a b c d : 0 <= dist_euc a b c d.
Proof. apply sqrt_pos. Qed.
Lemma dist_dir v a b : 0 <= v -> dist_euc (v * cos a) (v * sin a) (v * cos b) (v * sin b) <= v * Rabs (a - b).
Proof.
  intros V. apply dist_le; [apply Rmult_le_pos; [exact V | apply Rabs_pos]|].
  replace (v * Rabs (a - b) * (v * Rabs (a - b))) with (v * v * ((a - b) * (a - b)))
    by (pose proof (Rsqr_abs (a - b)) as Q; unfold Rsqr in Q; rewrite Q; ring).
  assert (Q : 1 - cos (a - b) <= (a - b) * (a - b) / 2).
  { replace (a - b) with (2 * ((a - b) / 2)) at 1 by field. rewrite cos_2a_sin.
    assert (S := lip_sin ((a - b) / 2) 0). rewrite sin_0, !Rminus_0_r in S. apply Rsqr_le_abs_1 in S. unfold Rsqr in S. lra. }
  rewrite cos_minus in Q. pose proof (sin2_cos2 a) as A. pose proof (sin2_cos2 b) as B. unfold Rsqr in A, B.
  assert (VV : 0 <= v * v) by nra.
  replace ((v * cos a - v * cos b) * (v * cos a - v * cos b) + (v * sin a - v * sin b) * (v * sin a - v * sin b))
    with (v * v * ((sin a * sin a + cos a * cos a) + (sin b * sin b + cos b * cos b) - 2 * (cos a * cos b + sin a * sin b))) by ring.
  rewrite A, B. apply Rmult_le_compat_l; [exact VV | lra].
Qed.

(** a curve driven with speed at most [v] *)
Lemma driven (X Y x' y' : R -> R) T v : 0 <= v ->
  (forall u, 0 <= u <= T -> derivable_pt_lim X u (x' u) /\ derivable_pt_lim Y u (y' u) /\ x' u * x' u + y' u * y' u <= v * v) ->
  forall s t, 0 <= s <= t -> t <= T -> dist_euc (X s) (Y s) (X t) (Y t) <= v * (t - s).
Proof.
  intros V D s t Hs Ht. set (dx := X t - X s). set (dy := Y t - Y s).
  set (n := dist_euc (X s) (Y s) (X t) (Y t)).
  assert (N0 : 0 <= n) by apply dist_nonneg.
  assert (NN : n * n = dx * dx + dy * dy).
  { unfold n, dist_euc. rewrite sqrt_sqrt; [unfold Rsqr, dx, dy; ring|]. apply Rplus_le_le_0_compat; apply Rle_0_sqr. }
  assert (L : Rabs ((X t * dx + Y t * dy) - (X s * dx + Y s * dy)) <= v * n * Rabs (t - s)).
  { apply (lip (fun u => X u * dx + Y u * dy) (fun u => x' u * dx + y' u * dy) 0 T).
    - intros u Hu. destruct (D u Hu) as (A & B & _).
      apply derivable_pt_lim_plus.
      + eapply dlim_eq; [apply (derivable_pt_lim_mult X (fun _ => dx)); [exact A | apply derivable_pt_lim_const] | ring].
      + eapply dlim_eq; [apply (derivable_pt_lim_mult Y (fun _ => dy)); [exact B | apply derivable_pt_lim_const] | ring].
    - intros u Hu. destruct (D u Hu) as (_ & _ & C).
      rewrite <- (Rabs_pos_eq (v * n)) by (apply Rmult_le_pos; assumption). apply Rsqr_le_abs_0. unfold Rsqr.
      apply Rle_trans with ((x' u * x' u + y' u * y' u) * (dx * dx + dy * dy)).
      + assert (0 <= (x' u * dy - y' u * dx) * (x' u * dy - y' u * dx)) by apply Rle_0_sqr. lra.
      + rewrite <- NN. replace (v * n * (v * n)) with (v * v * (n * n)) by ring. apply Rmult_le_compat_r; [nra | exact C].
    - lra.
    - lra. }
  replace (X t * dx + Y t * dy - (X s * dx + Y s * dy)) with (n * n) in L by (rewrite NN; unfold dx, dy; ring).
  rewrite Rabs_pos_eq in L by nra. rewrite Rabs_pos_eq in L by lra.
  destruct (Req_dec n 0) as [Z|Z]; [rewrite Z; apply Rmult_le_pos; lra|].
  apply Rmult_le_reg_r with n; [lra|]. lra.
Qed.

(** ** Close targets *)
Lemma gap_tri s t u : gap s u <= gap s t + gap t u.
Proof. apply triangle. Qed.
Lemma speed_tri s t u : speed_gap s u <= speed_gap s t + speed_gap t u.
Proof. apply triangle. Qed.
Lemma turn_tri h k s t u : turn_gap h s t -> turn_gap k t u -> turn_gap (h + k) s u.
Proof.
  intros [a A] [b B]. exists (a + b)%Z. rewrite plus_IZR.
  replace (tx (t_theta u) - tx (t_theta s) + 2 * PI * (IZR a + IZR b)) with
    ((tx (t_theta t) - tx (t_theta s) + 2 * PI * IZR a) + (tx (t_theta u) - tx (t_theta t) + 2 * PI * IZR b)) by (rops; change (@num Rops) with R in *; ring).
  eapply Rle_trans; [apply Rabs_triang|]. lra.
Qed.
Lemma close_tri d h c d' h' c' s t u : close d h c s t -> close d' h' c' t u -> close (d + d') (h + h') (c + c') s u.
Proof.
  intros (A & B & C) (A' & B' & C'). split; [|split].
  - pose proof (gap_tri s t u). lra.
  - exact (turn_tri _ _ _ _ _ B B').
  - pose proof (speed_tri s t u). lra.
Qed.
Lemma close_weaken d h c d' h' c' s t : close d h c s t -> d <= d' -> h <= h' -> c <= c' -> close d' h' c' s t.
Proof. intros (A & [k B] & C) D H E. split; [lra|]. split; [exists k; lra | lra]. Qed.

(** two poses that are near, passed with nearly the same speed *)
Lemma passing_close q q' v v' t t' e : passing q v t -> passing q' v' t' -> near e q q' -> close (2 * e) 0 (Rabs (v - v')) t t'.
Proof.
  intros (A1 & A2 & A3 & A4 & A5) (B1 & B2 & B3 & B4 & B5) (N1 & N2 & k & N3). unfold close, gap, speed_gap, turn_gap.
  rewrite A1, A2, A3, A4, A5, B1, B2, B3, B4, B5. split; [|split].
  - eapply Rle_trans; [apply dist_sum|]. lra.
  - exists k. rewrite N3. replace (p_theta q' - (p_theta q' + 2 * PI * IZR k) + 2 * PI * IZR k) with 0 by (change (@num Rops) with R in *; ring).
    rewrite Rabs_R0. lra.
  - rewrite N3. assert (E : forall x, cos (x + 2 * PI * IZR k) = cos x /\ sin (x + 2 * PI * IZR k) = sin x).
    { intros x. replace (2 * PI * IZR k) with (2 * IZR k * PI) by ring.
      destruct k as [|n|n].
      - replace (x + 2 * IZR 0 * PI) with x by ring. auto.
      - replace (IZR (Z.pos n)) with (INR (Pos.to_nat n)) by apply INR_IPR || (rewrite INR_IZR_INZ, positive_nat_Z; reflexivity).
        split; [apply cos_period | apply sin_period].
      - replace (IZR (Z.neg n)) with (- INR (Pos.to_nat n)) by (rewrite INR_IZR_INZ, positive_nat_Z; rewrite <- opp_IZR; reflexivity).
        rewrite <- (cos_period (x + 2 * - INR (Pos.to_nat n) * PI) (Pos.to_nat n)), <- (sin_period (x + 2 * - INR (Pos.to_nat n) * PI) (Pos.to_nat n)).
        replace (x + 2 * - INR (Pos.to_nat n) * PI + 2 * INR (Pos.to_nat n) * PI) with x by ring. auto. }
    destruct (E (p_theta q')) as [-> ->]. apply dist_le; [apply Rabs_pos|].
    pose proof (sin2_cos2 (p_theta q')) as S. unfold Rsqr in S. pose proof (Rsqr_abs (v - v')) as Q. unfold Rsqr in Q. rewrite <- Q.
    right. transitivity ((v - v') * (v - v') * (sin (p_theta q') * sin (p_theta q') + cos (p_theta q') * cos (p_theta q'))); [ring|].
    rewrite S. ring.
Qed.

(** the target that passes a pose *)
Definition mark (q : @pose Rops) (v : R) : @target Rops :=
  @Target Rops (@Axis4 Rops (p_x q) (v * cos (p_theta q))%R 0%R 0%R) (@Axis4 Rops (p_y q) (v * sin (p_theta q))%R 0%R 0%R)
    (@Axis4 Rops (p_theta q) 0%R 0%R 0%R).
Lemma mark_passing q v : passing q v (mark q v).
Proof. repeat split. Qed.

Lemma near_refl q : near 0 q q.
Proof.
  unfold near. change (@num Rops) with R. rewrite !Rminus_diag_eq, Rabs_R0 by reflexivity. repeat split; try lra. assert (E : forall x : R, x = x + 2 * PI * IZR 0) by (intros; ring). exists 0%Z. exact (E _).
Qed.

(** shifting changes no distance *)
Lemma shift_close p d h c s t : close d h c s t -> close d h c (shift p s) (shift p t).
Proof.
  pose proof (sin2_cos2 (p_theta p)) as SC. unfold Rsqr in SC.
  intros (A & [k B] & C). split; [|split].
  - replace (gap (shift p s) (shift p t)) with (gap s t); [exact A|]. apply dist_sq. symmetry. apply (shift_norms p s t).
  - exists k. unfold shift. cbn [t_theta tx]. rops. change (@num Rops) with R in *.
    replace (tx (t_theta t) + p_theta p - (tx (t_theta s) + p_theta p)) with (tx (t_theta t) - tx (t_theta s)) by ring. exact B.
  - replace (speed_gap (shift p s) (shift p t)) with (speed_gap s t); [exact C|]. apply dist_sq. symmetry.
    unfold shift. cbn [t_x t_y tv]. rops. change (@num Rops) with R in *.
    rewrite <- (norm_rot (tv (t_x s) - tv (t_x t)) (tv (t_y s) - tv (t_y t)) (cos (p_theta p)) (sin (p_theta p)) SC). ring.
Qed.
Lemma shift_passing p q v t : passing q v t -> passing (compose p q) v (shift p t).
Proof.
  intros (A1 & A2 & A3 & A4 & A5). unfold passing, shift, compose. cbn [t_x t_y t_theta tx tv p_x p_y p_theta].
  rewrite A1, A2, A3, A4, A5. rops. change (@num Rops) with R in *. rewrite cos_plus, sin_plus. repeat split; ring.
Qed.

(** ** Sequences *)
Fixpoint linked {A} (P : A -> A -> Prop) (l : list A) : Prop :=
  match l with
  | a :: ((b :: _) as l') => P a b /\ linked P l'
  | _ => True
  end.
Lemma linked_weaken {A} (P Q : A -> A -> Prop) l : (forall a b, P a b -> Q a b) -> linked P l -> linked Q l.
Proof. intros H. induction l as [|a [|b l] IH]; cbn; try tauto. intros [L M]. split; [apply H, L | apply IH, M]. Qed.
Lemma linked_join {A} (P : A -> A -> Prop) l m t l' : linked P (l ++ [m]) -> (forall s, P s m -> P s t) ->
  linked P (t :: l') -> linked P (l ++ t :: l').
Proof.
  intros H J L. induction l as [|a l IH]; [exact L|]. destruct l as [|b l].
  - cbn in *. split; [apply J, H | exact L].
  - cbn [app] in *. destruct H as [H1 H2]. split; [exact H1 | apply IH, H2].
Qed.
Lemma linked_map {A} (P : A -> A -> Prop) f l : (forall a b, P a b -> P (f a) (f b)) -> linked P l -> linked P (map f l).
Proof. intros H. induction l as [|a [|b l] IH]; cbn; try tauto. intros [L M]. split; [apply H, L | apply IH, M]. Qed.
Lemma linked_split {A} (P : A -> A -> Prop) l1 s t l2 : linked P (l1 ++ s :: t :: l2) -> P s t.
Proof.
  induction l1 as [|a l1 IH]; [intros [H _]; exact H|]. intros H. apply IH.
  destruct l1 as [|b l1]; destruct H as [_ H]; exact H.
Qed.
Lemma linked_init {A} (P : A -> A -> Prop) l m : linked P (l ++ [m]) -> linked P l.
Proof.
  induction l as [|a [|b l] IH]; cbn; try tauto.
Qed.
Lemma linked_seq {A} (P : A -> A -> Prop) (F : nat -> A) m : forall n k, (forall i, (k <= i < k + n)%nat -> P (F i) (F (S i))) -> P (F (k + n)%nat) m ->
  linked P (map F (seq k (S n)) ++ [m]).
Proof.
  induction n as [|n IH]; intros k H L.
  - rewrite Nat.add_0_r in L. cbn. auto.
  - change (seq k (S (S n))) with (k :: seq (S k) (S n)). rewrite map_cons, <- app_comm_cons.
    specialize (IH (S k)). change (seq (S k) (S n)) with (S k :: seq (S (S k)) n) in *. rewrite map_cons, <- app_comm_cons in *.
    cbn [linked]. split; [apply H; lia|]. apply IH; [intros i Hi; apply H; lia|]. replace (S k + n)%nat with (k + S n)%nat by lia. exact L.
Qed.

(** a drive from passing [A] with speed [va] to passing [B] with speed [vb] *)
Definition ride (l : list (@target Rops)) (A B : @pose Rops) (va vb d h c : R) : Prop :=
  (exists t l', l = t :: l' /\ passing A va t) /\ linked (close d h c) (l ++ [mark B vb]).

Lemma ride_weaken l A B va vb d h c d' h' c' : ride l A B va vb d h c -> d <= d' -> h <= h' -> c <= c' -> ride l A B va vb d' h' c'.
Proof. intros [F L] D H C. split; [exact F|]. revert L. apply linked_weaken. intros s t K. now apply (close_weaken d h c). Qed.

Lemma ride_app l1 l2 A B B' C va vb vb' vc d h c D c' e : ride l1 A B va vb d h c -> ride l2 B' C vb' vc D h c' ->
  near e B B' -> 0 <= e -> d + 2 * e <= D -> c + Rabs (vb - vb') <= c' -> ride (l1 ++ l2) A C va vc D h c'.
Proof.
  intros [(t & l & -> & P) L] [(t2 & l' & -> & P2) L2] N E0 HD HC. pose proof (Rabs_pos (vb - vb')).
  split; [exists t, (l ++ t2 :: l'); split; [reflexivity | exact P]|].
  rewrite <- app_assoc. clear P. revert L. generalize (t :: l). clear t l. intros r0 L.
  induction r0 as [|a r IH]; [exact L2|].
  destruct r as [|b r].
  - cbn [app linked] in L |- *. split; [|exact L2].
    destruct L as [L _]. assert (K := passing_close B B' vb vb' _ _ e (mark_passing B vb) P2 N).
    apply (close_weaken _ _ _ D h c' _ _ (close_tri _ _ _ _ _ _ _ _ _ L K)); lra.
  - cbn [app linked] in L |- *. destruct L as [L M]. split; [|apply IH, M].
    apply (close_weaken _ _ _ D h c' _ _ L); lra.
Qed.

Lemma ride_shift P l A B va vb d h c : ride l A B va vb d h c -> ride (map (shift P) l) (compose P A) (compose P B) va vb d h c.
Proof.
  intros [(t & l' & -> & Q) L]. split; [exists (shift P t), (map (shift P) l'); split; [reflexivity | apply shift_passing, Q]|].
  apply (linked_map _ (shift P)) in L; [|intros a b; apply shift_close]. rewrite map_app in L. cbn [map] in L.
  assert (K := passing_close _ _ vb vb _ _ 0 (shift_passing P B vb _ (mark_passing B vb)) (mark_passing (compose P B) vb) (near_refl _)).
  assert (J := linked_join (close d h c) (map (shift P) (t :: l')) (shift P (mark B vb)) (mark (compose P B) vb) [] L).
  apply J; [|exact I]. intros s C. rewrite (Rminus_diag_eq vb vb eq_refl), Rabs_R0 in K.
  apply (close_weaken _ _ _ d h c _ _ (close_tri _ _ _ _ _ _ _ _ _ C K)); lra.
Qed.

Lemma ride_smooth l A B va vb d h c : ride l A B va vb d h c -> smooth d h c l.
Proof. intros [_ L] l1 s t l2 ->. apply linked_init in L. exact (linked_split _ _ _ _ _ L). Qed.
