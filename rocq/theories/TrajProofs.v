(** Motions: polynomial pieces, gluing, shifting, and the acceleration ramps of straight.rs. *)
From Coq Require Import ZArith Reals List Bool Lra Lia Psatz.
From Verif Require Import Base Num NumLemmas SearchModel RunModel ControlModel TrajModel TrajSpec.
Import ListNotations.
Open Scope R_scope.

(** ** Functions that agree near a point *)

Lemma dlim_ext f g t l d : 0 < d -> (forall s, Rabs (s - t) < d -> f s = g s) ->
  derivable_pt_lim f t l -> derivable_pt_lim g t l.
Proof.
  intros Hd E D eps He. destruct (D eps He) as [e1 H1].
  assert (P : 0 < Rmin e1 d) by (apply Rmin_glb_lt; [apply cond_pos | exact Hd]).
  exists (mkposreal _ P). intros h Hh Hlt. simpl in Hlt.
  rewrite <- (E (t + h)), <- (E t).
  - apply H1; [exact Hh | eapply Rlt_le_trans; [exact Hlt | apply Rmin_l]].
  - replace (t - t) with 0 by ring. rewrite Rabs_R0. exact Hd.
  - replace (t + h - t) with h by ring. eapply Rlt_le_trans; [exact Hlt | apply Rmin_r].
Qed.

Definition glue (c : R) (f g : R -> R) : R -> R := fun t => if Rle_dec t c then f t else g t.

Lemma glue_lim c f g t l : f c = g c ->
  (t <= c -> derivable_pt_lim f t l) -> (c <= t -> derivable_pt_lim g t l) ->
  derivable_pt_lim (glue c f g) t l.
Proof.
  intros E Df Dg. destruct (Rtotal_order t c) as [L|[L|L]].
  - apply (dlim_ext f _ _ _ (c - t)); [lra | | apply Df; lra].
    intros s Hs. apply Rabs_def2 in Hs. unfold glue. destruct (Rle_dec s c); [reflexivity | lra].
  - subst t. specialize (Df (Rle_refl _)). specialize (Dg (Rle_refl _)).
    intros eps He. destruct (Df eps He) as [d1 H1]. destruct (Dg eps He) as [d2 H2].
    assert (P : 0 < Rmin d1 d2) by (apply Rmin_glb_lt; apply cond_pos).
    exists (mkposreal _ P). intros h Hh Hlt. simpl in Hlt.
    assert (L1 := Rlt_le_trans _ _ _ Hlt (Rmin_l _ _)).
    assert (L2 := Rlt_le_trans _ _ _ Hlt (Rmin_r _ _)).
    unfold glue. destruct (Rle_dec c c) as [_|N]; [|lra].
    destruct (Rle_dec (c + h) c); [apply H1 | rewrite E; apply H2]; assumption.
  - apply (dlim_ext g _ _ _ (t - c)); [lra | | apply Dg; lra].
    intros s Hs. apply Rabs_def2 in Hs. unfold glue. destruct (Rle_dec s c); [lra | reflexivity].
Qed.

Lemma glue_motion c J x1 v1 a1 j1 e1 x2 v2 a2 j2 e2 :
  motion x1 v1 a1 j1 e1 J -> motion x2 v2 a2 j2 e2 J ->
  x1 c = x2 c -> v1 c = v2 c -> a1 c = a2 c ->
  motion (glue c x1 x2) (glue c v1 v2) (glue c a1 a2) (glue c j1 j2) (c :: e1 ++ e2) J.
Proof.
  intros [X1 V1 A1 L1] [X2 V2 A2 L2] Ex Ev Ea. constructor.
  - intros t. unfold glue at 2. destruct (Rle_dec t c); apply glue_lim; auto; intros L.
    + replace t with c by lra. rewrite Ev. apply X2.
    + lra.
  - intros t. unfold glue at 2. destruct (Rle_dec t c); apply glue_lim; auto; intros L.
    + replace t with c by lra. rewrite Ea. apply V2.
    + lra.
  - intros t N. assert (t <> c) by (intros ->; apply N; left; reflexivity).
    assert (~ In t e1) by (intros I; apply N; right; apply in_or_app; auto).
    assert (~ In t e2) by (intros I; apply N; right; apply in_or_app; auto).
    unfold glue at 2. destruct (Rle_dec t c); apply glue_lim; auto; intros L; lra.
  - assert (M : forall s t, s <= c -> c < t -> Rabs (a1 s - a2 t) <= J * Rabs (s - t)).
    { intros s t Hs Ht. replace (a1 s - a2 t) with ((a1 s - a1 c) + (a2 c - a2 t)) by lra.
      eapply Rle_trans; [apply Rabs_triang|].
      specialize (L1 s c). specialize (L2 c t).
      rewrite (Rabs_left1 (s - c)) in L1 by lra. rewrite (Rabs_left1 (c - t)) in L2 by lra.
      rewrite (Rabs_left1 (s - t)) by lra. lra. }
    intros s t. unfold glue. destruct (Rle_dec s c), (Rle_dec t c); auto.
    + apply M; lra.
    + rewrite Rabs_minus_sym, (Rabs_minus_sym s). apply M; lra.
Qed.

(** ** Polynomial pieces *)

Definition px (c x0 v0 a0 j0 t : R) : R :=
  x0 + v0 * (t - c) + a0 * (t - c) * (t - c) / 2 + j0 * (t - c) * (t - c) * (t - c) / 6.
Definition pv (c v0 a0 j0 t : R) : R := v0 + a0 * (t - c) + j0 * (t - c) * (t - c) / 2.
Definition pa (c a0 j0 t : R) : R := a0 + j0 * (t - c).

Lemma dlim_eq f t l l' : derivable_pt_lim f t l -> l = l' -> derivable_pt_lim f t l'.
Proof. intros H <-. exact H. Qed.

Lemma dlim_id t : derivable_pt_lim (fun t => t) t 1.
Proof. apply (derivable_pt_lim_id t). Qed.
Lemma dlim_c k t : derivable_pt_lim (fun _ => k) t 0.
Proof. apply derivable_pt_lim_const. Qed.

Ltac dlim :=
  eapply dlim_eq;
  [ repeat first
      [ apply dlim_id | apply dlim_c
      | apply (derivable_pt_lim_minus (fun t => _) (fun t => _))
      | apply (derivable_pt_lim_plus (fun t => _) (fun t => _))
      | apply (derivable_pt_lim_mult (fun t => _) (fun t => _)) ]
  | try field ].

Ltac dlimh H :=
  eapply dlim_eq;
  [ repeat first
      [ apply dlim_id | apply dlim_c | apply H
      | apply (derivable_pt_lim_minus (fun t => _) (fun t => _))
      | apply (derivable_pt_lim_plus (fun t => _) (fun t => _))
      | apply (derivable_pt_lim_mult (fun t => _) (fun t => _)) ]
  | try field ].

Lemma poly_motion c x0 v0 a0 j0 J : Rabs j0 <= J ->
  motion (px c x0 v0 a0 j0) (pv c v0 a0 j0) (pa c a0 j0) (fun _ => j0) [] J.
Proof.
  intros HJ. constructor.
  - intros t. unfold px, pv, Rdiv. dlim.
  - intros t. unfold pv, pa, Rdiv. dlim.
  - intros t _. unfold pa. dlim.
  - intros s t. unfold pa. replace (a0 + j0 * (s - c) - (a0 + j0 * (t - c))) with (j0 * (s - t)) by ring.
    rewrite Rabs_mult. apply Rmult_le_compat_r; [apply Rabs_pos | exact HJ].
Qed.

Lemma motion_shift d x v a j ex J : motion x v a j ex J ->
  motion (fun t => x (t - d)) (fun t => v (t - d)) (fun t => a (t - d)) (fun t => j (t - d))
    (map (fun t => t + d) ex) J.
Proof.
  intros [X V A L].
  assert (S : forall f g, (forall t, derivable_pt_lim f t (g t)) ->
    forall t, derivable_pt_lim (fun t => f (t - d)) t (g (t - d))).
  { intros f g H t. eapply dlim_eq.
    - apply (derivable_pt_lim_comp (fun t => t - d) f t 1); [dlim | apply H].
    - ring. }
  constructor; [apply S, X | apply S, V | | ].
  - intros t N. eapply dlim_eq.
    + apply (derivable_pt_lim_comp (fun t => t - d) a t 1); [dlim | apply A].
      intros I. apply N. apply in_map_iff. exists (t - d). split; [ring | exact I].
    + ring.
  - intros s t. eapply Rle_trans; [apply L|]. right. do 2 f_equal. ring.
Qed.

Lemma motion_sign s x0 x v a j ex J : (s = 1 \/ s = -1) -> motion x v a j ex J ->
  motion (fun t => (x t - x0) * s + x0) (fun t => v t * s) (fun t => a t * s) (fun t => j t * s) ex J.
Proof.
  intros Hs [X V A L]. constructor.
  - intros t. dlimh (X t).
  - intros t. dlimh (V t).
  - intros t N. dlimh (A t N).
  - intros p q. replace (a p * s - a q * s) with ((a p - a q) * s) by ring.
    rewrite Rabs_mult. replace (Rabs s) with 1; [rewrite Rmult_1_r; apply L|].
    destruct Hs as [-> | ->]; [rewrite Rabs_R1 | rewrite Rabs_left]; lra.
Qed.

(** ** A ramp: jerk [jm] during [T1], then none until [T2], then [-jm] until [T3] *)

Section Ramp.
Variables x0 v0 x1 v1 jm T1 T2 T3 : R.
Hypothesis H1 : 0 <= T1.
Hypothesis H2 : T1 <= T2.
Hypothesis H3 : T3 = T1 + T2.
Hypothesis Hv : v1 = v0 + jm * T1 * T2.
Hypothesis Hx : x1 = x0 + (v0 + v1) * T3 / 2.

Definition glue4 (f0 f1 f2 f3 f4 : R -> R) : R -> R :=
  glue T3 (glue T2 (glue T1 (glue 0 f0 f1) f2) f3) f4.
Definition rx := glue4 (px 0 x0 v0 0 0) (px 0 x0 v0 0 jm)
  (px T1 (x0 + v0 * T1 + jm * T1 * T1 * T1 / 6) (v0 + jm * T1 * T1 / 2) (jm * T1) 0)
  (px T3 x1 v1 0 (- jm)) (px T3 x1 v1 0 0).
Definition rv := glue4 (pv 0 v0 0 0) (pv 0 v0 0 jm) (pv T1 (v0 + jm * T1 * T1 / 2) (jm * T1) 0)
  (pv T3 v1 0 (- jm)) (pv T3 v1 0 0).
Definition ra := glue4 (pa 0 0 0) (pa 0 0 jm) (pa T1 (jm * T1) 0) (pa T3 0 (- jm)) (pa T3 0 0).
Definition rj := glue4 (fun _ => 0) (fun _ => jm) (fun _ => 0) (fun _ => - jm) (fun _ => 0).
Definition rex : list R := [T3; T2; T1; 0].

Ltac glues := try unfold glue4; unfold glue; repeat
  match goal with
  | |- context [Rle_dec ?a ?b] => destruct (Rle_dec a b); try lra
  end.

Ltac feed G t1 t2 t3 :=
  match type of G with ?A -> ?B -> ?C -> _ =>
    let a := fresh in let b := fresh in let c := fresh in
    assert (a : A) by t1; assert (b : B) by t2; assert (c : C) by t3;
    specialize (G a b c); clear a b c end.

Lemma ramp_motion : motion rx rv ra rj rex (Rabs jm).
Proof.
  assert (J0 : Rabs 0 <= Rabs jm) by (rewrite Rabs_R0; apply Rabs_pos).
  assert (J1 : Rabs jm <= Rabs jm) by lra.
  assert (J2 : Rabs (- jm) <= Rabs jm) by (rewrite Rabs_Ropp; lra).
  assert (M0 := poly_motion 0 x0 v0 0 0 _ J0).
  assert (M1 := poly_motion 0 x0 v0 0 jm _ J1).
  assert (M2 := poly_motion T1 (x0 + v0 * T1 + jm * T1 * T1 * T1 / 6) (v0 + jm * T1 * T1 / 2)
                  (jm * T1) 0 _ J0).
  assert (M3 := poly_motion T3 x1 v1 0 (- jm) _ J2).
  assert (M4 := poly_motion T3 x1 v1 0 0 _ J0).
  unfold rx, rv, ra, rj, rex, glue4.
  assert (G1 := glue_motion 0 _ _ _ _ _ _ _ _ _ _ _ M0 M1).
  feed G1 ltac:(unfold px; field) ltac:(unfold pv; field) ltac:(unfold pa; ring).
  assert (G2 := glue_motion T1 _ _ _ _ _ _ _ _ _ _ _ G1 M2).
  feed G2 ltac:(glues; unfold px; try (replace T1 with 0 by lra); field)
                 ltac:(glues; unfold pv; try (replace T1 with 0 by lra); field)
                 ltac:(glues; unfold pa; try (replace T1 with 0 by lra); ring).
  assert (G3 := glue_motion T2 _ _ _ _ _ _ _ _ _ _ _ G2 M3).
  assert (G3' : motion (glue T2 (glue T1 (glue 0 (px 0 x0 v0 0 0) (px 0 x0 v0 0 jm))
      (px T1 (x0 + v0 * T1 + jm * T1 * T1 * T1 / 6) (v0 + jm * T1 * T1 / 2) (jm * T1) 0))
      (px T3 x1 v1 0 (- jm)))
    (glue T2 (glue T1 (glue 0 (pv 0 v0 0 0) (pv 0 v0 0 jm)) (pv T1 (v0 + jm * T1 * T1 / 2) (jm * T1) 0))
      (pv T3 v1 0 (- jm)))
    (glue T2 (glue T1 (glue 0 (pa 0 0 0) (pa 0 0 jm)) (pa T1 (jm * T1) 0)) (pa T3 0 (- jm)))
    (glue T2 (glue T1 (glue 0 (fun _ => 0) (fun _ => jm)) (fun _ => 0)) (fun _ => - jm))
    [T2; T1; 0] (Rabs jm)).
  { apply G3.
    - rewrite Hx, Hv, H3. glues; unfold px; try (replace T2 with T1 by lra); try (replace T1 with 0 by lra); field.
    - rewrite Hv, H3. glues; unfold pv; try (replace T2 with T1 by lra); try (replace T1 with 0 by lra); field.
    - rewrite H3. glues; unfold pa; try (replace T2 with T1 by lra); try (replace T1 with 0 by lra); ring. }
  assert (G4 := glue_motion T3 _ _ _ _ _ _ _ _ _ _ _ G3' M4).
  apply G4.
  - glues; rewrite ?Hx, ?Hv; unfold px;
      first [field | replace T1 with 0 by lra; replace T2 with T3 by lra; field
            | replace T1 with 0 by lra; replace T2 with 0 by lra; replace T3 with 0 by lra; field].
  - glues; rewrite ?Hv; unfold pv;
      first [field | replace T1 with 0 by lra; replace T2 with T3 by lra; field
            | replace T1 with 0 by lra; replace T2 with 0 by lra; replace T3 with 0 by lra; field].
  - glues; unfold pa;
      first [ring | replace T1 with 0 by lra; replace T2 with T3 by lra; ring
            | replace T1 with 0 by lra; replace T2 with 0 by lra; replace T3 with 0 by lra; ring].
Qed.

Lemma ramp_before t : t <= 0 -> rx t = x0 + v0 * t /\ rv t = v0 /\ ra t = 0.
Proof.
  intros Ht. unfold rx, rv, ra. glues. unfold px, pv, pa. repeat split; field.
Qed.

Lemma ramp_after t : T3 <= t -> rx t = x1 + v1 * (t - T3) /\ rv t = v1 /\ ra t = 0.
Proof.
  intros Ht. destruct (Rle_lt_or_eq_dec _ _ Ht) as [L|L].
  - unfold rx, rv, ra. glues. unfold px, pv, pa. repeat split; field.
  - rewrite <- L. unfold rx, rv, ra. repeat split.
    + glues; rewrite ?Hx, ?Hv; unfold px;
      first [field | replace T1 with 0 by lra; replace T2 with T3 by lra; field
            | replace T1 with 0 by lra; replace T2 with 0 by lra; replace T3 with 0 by lra; field].
    + glues; rewrite ?Hv; unfold pv;
      first [field | replace T1 with 0 by lra; replace T2 with T3 by lra; field
            | replace T1 with 0 by lra; replace T2 with 0 by lra; replace T3 with 0 by lra; field].
    + glues; unfold pa;
      first [ring | replace T1 with 0 by lra; replace T2 with T3 by lra; ring
            | replace T1 with 0 by lra; replace T2 with 0 by lra; replace T3 with 0 by lra; ring].
Qed.

Lemma ramp_calc am t : (am = jm * T1 \/ T1 = T2) -> 0 <= t <= T3 ->
  let r := @accel_calculate Rops (@AccelCalc Rops x0 v0 x1 v1 am jm T1 T2 T3) t in
  tx r = rx t /\ tv r = rv t /\ ta r = ra t /\ (~ In t rex -> tj r = rj t).
Proof.
  intros Ha [L1 L2]. unfold accel_calculate.
  cbn [ac_x_start ac_v_start ac_x_end ac_v_end ac_a_m ac_j_m ac_t1 ac_t2 ac_t3]. rops.
  destruct (Rltb_spec t (0 / 1)) as [N|_]; [lra|].
  destruct (Rleb_spec t T1) as [A|A]; [|destruct (Rleb_spec t T2) as [B|B];
    [|destruct (Rleb_spec t T3) as [C|C]; [|lra]]]; cbn [tx tv ta tj]; unfold rx, rv, ra, rj, rex.
  - destruct (Req_dec t 0) as [-> | N].
    + split; [|split; [|split]].
      * glues. unfold px. field.
      * glues. unfold pv. field.
      * glues. unfold pa. ring.
      * intros I. exfalso. apply I. right; right; right; left; reflexivity.
    + split; [|split; [|split]].
      * glues. unfold px. field.
      * glues. unfold pv. field.
      * glues. unfold pa. ring.
      * intros _. glues; reflexivity.
  - destruct Ha as [-> | Ha]; [|lra]. split; [|split; [|split]].
    + glues. unfold px. field.
    + glues. unfold pv. field.
    + glues. unfold pa. ring.
    + intros _. glues; field.
  - split; [|split; [|split]].
    + glues. unfold px. field.
    + glues. unfold pv. field.
    + glues. unfold pa. ring.
    + intros _. glues; reflexivity.
Qed.

Lemma ramp_v t : 0 <= t <= T3 ->
  exists k, 0 <= k <= T1 * T2 /\ rv t = v0 + jm * k.
Proof.
  intros [L1 L2]. unfold rv. glues; unfold pv.
  - exists 0. split; [nra|]. field.
  - exists (t * t / 2). split; [nra | field].
  - exists (T1 * T1 / 2 + T1 * (t - T1)). split; [nra | field].
  - exists (T1 * T2 - (T3 - t) * (T3 - t) / 2). split; [nra | rewrite Hv; field].
Qed.

Lemma ramp_a t : 0 <= t <= T3 -> exists k, 0 <= k <= T1 /\ ra t = jm * k.
Proof.
  intros [L1 L2]. unfold ra. glues; unfold pa.
  - exists 0. split; [lra|]. field.
  - exists t. split; [lra | field].
  - exists T1. split; [lra | field].
  - exists (T3 - t). split; [lra | field].
Qed.

End Ramp.

(** ** generate_acceleration *)

Lemma gen_accel (g : @generator Rops) (x0 v0 v1 : R) : 0 < g_a_max g -> 0 < g_j_max g ->
  exists am jm T1 T2,
    let T := ramp_time (g_a_max g) (g_j_max g) (Rabs (v1 - v0)) in
    generate_acceleration g x0 v0 v1
    = (@AccelCalc Rops x0 v0 (x0 + (v0 + v1) * T / 2)%R v1 am jm T1 T2 T, T) /\
    0 <= T1 /\ T1 <= T2 /\ T = T1 + T2 /\ v1 = v0 + jm * T1 * T2 /\
    (am = jm * T1 \/ T1 = T2) /\ g_j_max g * T1 <= g_a_max g /\
    ((v0 <= v1 /\ jm = g_j_max g) \/ (v1 < v0 /\ jm = - g_j_max g)).
Proof.
  destruct g as [vm a j]. cbn [g_a_max g_j_max]. rops. intros Ha Hj.
  assert (Haj : 0 < a / j) by (apply Rdiv_lt_0_compat; assumption).
  unfold generate_acceleration. cbn [g_a_max g_j_max]. rops.
  unfold ramp_time. replace (a * a / j) with (a * (a / j)) by (field; lra).
  set (dv := Rabs (v1 - v0)). assert (P : 0 <= dv) by apply Rabs_pos.
  assert (E : forall s, (v0 <= v1 /\ s = 1) \/ (v1 < v0 /\ s = -1) -> v1 - v0 = s * dv).
  { intros s [[L ->]|[L ->]]; unfold dv; [rewrite Rabs_pos_eq | rewrite Rabs_left]; lra. }
  assert (Q : 0 <= dv / j) by (apply Rmult_le_pos; [exact P | left; apply Rinv_0_lt_compat, Hj]).
  destruct (Rleb_spec (a * (a / j)) dv) as [B|B];
    (destruct (Rle_dec (a * (a / j)) dv) as [B'|B']; [try lra | try lra]);
    (destruct (Rleb_spec v0 v1) as [D|D]).
  - exists a, j, (a / j), (a / j + (dv / a - a / j)). cbv zeta. repeat split; try lra.
    + f_equal; [f_equal|]; field; lra.
    + assert (a / j <= dv / a); [|lra]. apply Rmult_le_reg_r with a; [exact Ha|].
      replace (dv / a * a) with dv by (field; lra). lra.
    + rewrite <- (Rplus_minus v0 v1) at 1. f_equal. rewrite (E 1) by lra. field. lra.
    + left. field. lra.
    + right. field. lra.
  - exists (- a), (- j), (a / j), (a / j + (dv / a - a / j)). cbv zeta. repeat split; try lra.
    + f_equal; [f_equal|]; field; lra.
    + assert (a / j <= dv / a); [|lra]. apply Rmult_le_reg_r with a; [exact Ha|].
      replace (dv / a * a) with dv by (field; lra). lra.
    + rewrite <- (Rplus_minus v0 v1) at 1. f_equal. rewrite (E (-1)) by lra. field. lra.
    + left. field. lra.
    + right. field. lra.
  - assert (S := sqrt_pos (dv / j)). assert (S2 := sqrt_sqrt _ Q).
    exists a, j, (sqrt (dv / j)), (sqrt (dv / j)). cbv zeta.
    split; [replace (2 / 1) with 2 by field; reflexivity|].
    split; [lra|]. split; [lra|]. split; [lra|]. split.
    { rewrite <- (Rplus_minus v0 v1) at 1. f_equal. rewrite (E 1) by lra.
      rewrite Rmult_assoc, S2. field. lra. }
    split; [right; reflexivity|]. split; [|left; split; [exact D | reflexivity]].
    apply Rsqr_incr_0_var; [unfold Rsqr | lra].
    replace (j * sqrt (dv / j) * (j * sqrt (dv / j))) with (j * j * (sqrt (dv / j) * sqrt (dv / j))) by ring.
    rewrite S2. replace (j * j * (dv / j)) with (j * dv) by (field; lra).
    replace (a * a) with (j * (a * (a / j))) by (field; lra). nra.
  - assert (S := sqrt_pos (dv / j)). assert (S2 := sqrt_sqrt _ Q).
    exists (- a), (- j), (sqrt (dv / j)), (sqrt (dv / j)). cbv zeta.
    split; [replace (2 / 1) with 2 by field; reflexivity|].
    split; [lra|]. split; [lra|]. split; [lra|]. split.
    { rewrite <- (Rplus_minus v0 v1) at 1. f_equal. rewrite (E (-1)) by lra.
      rewrite Rmult_assoc, S2. field. lra. }
    split; [right; reflexivity|]. split; [|right; split; [lra | reflexivity]].
    apply Rsqr_incr_0_var; [unfold Rsqr | lra].
    replace (j * sqrt (dv / j) * (j * sqrt (dv / j))) with (j * j * (sqrt (dv / j) * sqrt (dv / j))) by ring.
    rewrite S2. replace (j * j * (dv / j)) with (j * dv) by (field; lra).
    replace (a * a) with (j * (a * (a / j))) by (field; lra). nra.
Qed.

Lemma accel_distance (g : @generator Rops) (v0 v1 : R) : 0 < g_j_max g ->
  acceleration_distance g v0 v1 = ramp_distance (g_a_max g) (g_j_max g) v0 v1.
Proof.
  destruct g as [vm a j]. cbn [g_a_max g_j_max]. rops. intros Hj.
  unfold acceleration_distance, ramp_distance, ramp_time. cbn [g_a_max g_j_max]. rops.
  replace (a * a / j) with (a * (a / j)) by (field; lra).
  destruct (Rleb_spec (a * (a / j)) (Rabs (v1 - v0))), (Rle_dec (a * (a / j)) (Rabs (v1 - v0)));
    try lra; field; lra.
Qed.
