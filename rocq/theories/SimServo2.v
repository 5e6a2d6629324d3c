(** The speed controller under targets that change in any way: proofs. *)
From Coq Require Import ZArith Reals List Bool Lia Lra.
From Verif Require Import Base SearchModel WallsModel Num NumLemmas ControlModel TrajModel DetectModel SimModel SimSpec SimProofs SimServo FollowSpec.
Import ListNotations.
Open Scope R_scope.

(** ** one channel, pushed *)
Fixpoint push (al A B p : R) (w : nat -> R) (n : nat) (z : R * R) : R * R :=
  match n with
  | O => z
  | S n' => let (e, s) := push al A B p w n' z in (e - al * (A * e + B * s) + w n', s + p * e)
  end.

Section Push.
Variables al A B p : R.
Let one (z : R * R) : R * R := (fst z - al * (A * fst z + B * snd z), snd z + p * fst z).
Lemma lin_front n z : lin al A B p (S n) z = lin al A B p n (one z).
Proof.
  induction n as [|n IH]; [destruct z; reflexivity|]. change (lin al A B p (S (S n)) z) with (let (e, s) := lin al A B p (S n) z in (e - al * (A * e + B * s), s + p * e)).
  rewrite IH. reflexivity.
Qed.
Lemma push_front w n z : push al A B p w (S n) z = push al A B p (fun i => w (S i)) n (fst (one z) + w O, snd (one z)).
Proof.
  induction n as [|n IH]; [destruct z; reflexivity|].
  change (push al A B p w (S (S n)) z) with (let (e, s) := push al A B p w (S n) z in (e - al * (A * e + B * s) + w (S n), s + p * e)).
  rewrite IH. reflexivity.
Qed.
Lemma push_add w n z d : push al A B p w n (fst z + d, snd z) =
  (fst (push al A B p w n z) + fst (lin al A B p n (d, 0)), snd (push al A B p w n z) + snd (lin al A B p n (d, 0))).
Proof.
  induction n as [|n IH]; [cbn; f_equal; ring|].
  change (push al A B p w (S n) (fst z + d, snd z)) with (let (e, s) := push al A B p w n (fst z + d, snd z) in (e - al * (A * e + B * s) + w n, s + p * e)).
  rewrite IH. cbn [push lin]. destruct (push al A B p w n z) as [e s], (lin al A B p n (d, 0)) as [e' s']. cbn [fst snd]. f_equal; ring.
Qed.
Variables C rho M : R.
Hypothesis C0 : 0 <= C.
Hypothesis R0 : 0 < rho < 1.
Hypothesis M0 : 0 <= M.
Hypothesis Hlin : forall e s n, Rabs (fst (lin al A B p n (e, s))) <= C * rho ^ n * (Rabs e + Rabs s) /\
  Rabs (snd (lin al A B p n (e, s))) <= C * rho ^ n * (Rabs e + Rabs s).
Lemma push_near n : forall w z, (forall i, (i < n)%nat -> Rabs (w i) <= M) ->
  Rabs (fst (push al A B p w n z) - fst (lin al A B p n z)) <= C * M * (1 - rho ^ n) / (1 - rho) /\
  Rabs (snd (push al A B p w n z) - snd (lin al A B p n z)) <= C * M * (1 - rho ^ n) / (1 - rho).
Proof.
  induction n as [|n IH]; intros w z Hw.
  - cbn [push lin pow]. replace (C * M * (1 - 1) / (1 - rho)) with 0 by (field; lra).
    replace (fst z - fst z) with 0 by ring. replace (snd z - snd z) with 0 by ring. rewrite Rabs_R0. lra.
  - rewrite push_front, lin_front, push_add. cbn [fst snd].
    destruct (IH (fun i => w (S i)) (one z)) as [I1 I2]; [intros i Hi; apply Hw; lia|].
    destruct (Hlin (w O) 0 n) as [L1 L2]. rewrite Rabs_R0, Rplus_0_r in L1, L2.
    assert (W0 := Hw O ltac:(lia)).
    assert (P : 0 <= C * rho ^ n) by (apply Rmult_le_pos; [exact C0 | apply pow_le; lra]).
    assert (K : C * rho ^ n * Rabs (w O) <= C * rho ^ n * M) by (apply Rmult_le_compat_l; assumption).
    assert (E : C * M * (1 - rho ^ S n) / (1 - rho) = C * M * (1 - rho ^ n) / (1 - rho) + C * rho ^ n * M) by (cbn [pow]; field; lra).
    rewrite E. destruct z as [e s]. unfold one in *. cbn [fst snd] in *.
    set (q := push al A B p (fun i => w (S i)) n _) in *. set (l := lin al A B p n (e - _, _)) in *. set (d := lin al A B p n (w O, 0)) in *.
    split.
    + replace (fst q + fst d - fst l) with ((fst q - fst l) + fst d) by ring. eapply Rle_trans; [apply Rabs_triang | lra].
    + replace (snd q + snd d - snd l) with ((snd q - snd l) + snd d) by ring. eapply Rle_trans; [apply Rabs_triang | lra].
Qed.
Lemma push_bound n w e s : (forall i, (i < n)%nat -> Rabs (w i) <= M) ->
  Rabs (fst (push al A B p w n (e, s))) <= C * rho ^ n * (Rabs e + Rabs s) + C / (1 - rho) * M /\
  Rabs (snd (push al A B p w n (e, s))) <= C * rho ^ n * (Rabs e + Rabs s) + C / (1 - rho) * M.
Proof.
  intros Hw. destruct (push_near n w (e, s) Hw) as [N1 N2]. destruct (Hlin e s n) as [L1 L2].
  assert (G : C * M * (1 - rho ^ n) / (1 - rho) <= C / (1 - rho) * M).
  { replace (C / (1 - rho) * M) with (C * M / (1 - rho)) by (field; lra). unfold Rdiv.
    apply Rmult_le_compat_r; [left; apply Rinv_0_lt_compat; lra|].
    assert (0 <= rho ^ n) by (apply pow_le; lra). assert (0 <= C * M) by (apply Rmult_le_pos; assumption). nra. }
  set (q := push al A B p w n (e, s)) in *. set (l := lin al A B p n (e, s)) in *.
  split.
  - replace (fst q) with ((fst q - fst l) + fst l) by ring. eapply Rle_trans; [apply Rabs_triang | lra].
  - replace (snd q) with ((snd q - snd l) + snd l) by ring. eapply Rle_trans; [apply Rabs_triang | lra].
Qed.
End Push.

(** ** the loop *)
Lemma exact_voltage k t1 p (c : @control_parameters Rops) r dr y dy s : k <> 0 -> kd c = 0 -> model_k c = k -> model_t1 c = t1 ->
  fst (@control_each Rops r dr y dy c p s) = (r + dr * t1) / k + (kp c * (r - y) + ki c * s) /\
  snd (@control_each Rops r dr y dy c p s) = s + p * (r - y).
Proof.
  intros Hk Hd E1 E2. unfold control_each. cbn [fst snd]. rops. change (@num Rops) with R in *. rewrite Hd, E1, E2. split; [field; exact Hk | ring].
Qed.
Lemma lag_push k t1 p kpc kic r r' dr y s : 0 < k -> 0 <= t1 -> 0 < p ->
  r' - (y * (t1 / (t1 + p)) + (1 - t1 / (t1 + p)) * (k * ((r + dr * t1) / k + (kpc * (r - y) + kic * s))))
  = (r - y) - p / (t1 + p) * ((1 + k * kpc) * (r - y) + k * kic * s) + (r' - r - p * dr + p * p / (t1 + p) * dr).
Proof. intros Hk Ht Hp. field. lra. Qed.

Section Loop.
Variables (m : @simulator Rops) (c : @controller Rops) (r : nat -> @control_target Rops) (v : R).
Let p := m_period m.
Let kt := m_trans_k m. Let tt := m_trans_t1 m. Let kr := m_rot_k m. Let tr := m_rot_t1 m.
Let tp := trans_params c. Let rp := rot_params c.
Hypothesis Gt : stable_gains kt tt p tp.
Hypothesis Gr : stable_gains kr tr p rp.
Hypothesis Pe : c_period c = p.
Hypothesis Mt : model_k tp = kt. Hypothesis Mr : model_k rp = kr.
Hypothesis Tt : model_t1 tp = tt. Hypothesis Tr : model_t1 rp = tr.
Hypothesis Mv : moves (m_current m) v.

Let wt n : R := c_v (r (S n)) - c_v (r n) - p * c_a (r n) + p * p / (tt + p) * c_a (r n).
Let wr n : R := c_omega (r (S n)) - c_omega (r n) - p * c_alpha (r n) + p * p / (tr + p) * c_alpha (r n).
Let zt n := push (p / (tt + p)) (1 + kt * kp tp) (kt * ki tp) p wt n (c_v (r O) - v, trans_sum c).
Let zr n := push (p / (tr + p)) (1 + kr * kp rp) (kr * ki rp) p wr n (c_omega (r O) - sv (s_theta (m_current m)), rot_sum c).
Let dt n := kp tp * fst (zt n) + ki tp * snd (zt n).
Let dr n := kp rp * fst (zr n) + ki rp * snd (zr n).

Lemma servo_push n :
  (forall i, (i < n)%nat ->
    Rabs ((c_v (r i) + c_a (r i) * tt) / kt) + Rabs ((c_omega (r i) + c_alpha (r i) * tr) / kr)
    + (Rabs (dt i) + Rabs (dr i)) <= m_max_voltage m) ->
  let (m', c') := servo r n m c in
  same m m' c c' /\ (exists v', moves (m_current m') v' /\ c_v (r n) - v' = fst (zt n)) /\
  c_omega (r n) - sv (s_theta (m_current m')) = fst (zr n) /\
  trans_sum c' = snd (zt n) /\ rot_sum c' = snd (zr n).
Proof.
  induction n as [|n IH]; intros Hv.
  - cbn [servo]. split; [split; [apply params_refl | auto]|]. unfold zt, zr. cbn [push fst snd].
    split; [exists v; split; [exact Mv | reflexivity]|]. auto.
  - cbn [servo]. assert (Hv' := fun i H => Hv i (Nat.lt_lt_succ_r i n H)). specialize (IH Hv'). clear Hv'.
    destruct (servo r n m c) as [m1 c1].
    destruct IH as (Sm & (v1 & M1 & E1) & E2 & S1 & S2).
    destruct Sm as (Pm & Pt & Pr & Pp). assert (Pm' := Pm). destruct Pm' as (_ & Qp & Qx & Qkt & Qtt & Qkr & Qtr & _).
    destruct Gt as (Gk & Gtt & Gp & Gi & Gd & _). destruct Gr as (Gk' & Gtt' & _ & Gi' & Gd' & _).
    unfold control, measured. rewrite (trans_vel_moves _ _ M1), Pt, Pr, Pp, Pe. cbn [c_v c_a c_omega c_alpha].
    fold tp rp. unfold sim_angular_velocity.
    assert (Vt := exact_voltage kt tt p tp (c_v (r n)) (c_a (r n)) v1 (sim_translational_acceleration m1) (trans_sum c1) (Rgt_not_eq _ _ Gk) Gd Mt Tt).
    assert (Vr := exact_voltage kr tr p rp (c_omega (r n)) (c_alpha (r n)) (sv (s_theta (m_current m1))) (sa (s_theta (m_current m1))) (rot_sum c1) (Rgt_not_eq _ _ Gk') Gd' Mr Tr).
    destruct (@control_each Rops (c_v (r n)) (c_a (r n)) v1 _ tp p (trans_sum c1)) as [ut ts].
    destruct (@control_each Rops (c_omega (r n)) (c_alpha (r n)) _ _ rp p (rot_sum c1)) as [ur rs].
    cbn [fst snd] in Vt, Vr. destruct Vt as [Vt Wt]. destruct Vr as [Vr Wr].
    rewrite E1, S1 in Vt. rewrite E2, S2 in Vr. rewrite E1 in Wt. rewrite E2 in Wr.
    fold (dt n) in Vt. fold (dr n) in Vr.
    assert (Hn := Hv n (Nat.lt_succ_diag_r n)).
    set (nt := (c_v (r n) + c_a (r n) * tt) / kt) in *.
    set (nr := (c_omega (r n) + c_alpha (r n) * tr) / kr) in *.
    assert (L : Rabs (ut + ur) <= m_max_voltage m /\ Rabs (ut - ur) <= m_max_voltage m).
    { rewrite Vt, Vr. revert Hn. clear. unfold Rabs. repeat destruct Rcase_abs; lra. }
    destruct L as [L1 L2].
    unfold apply. cbn [m_left m_right]. rewrite Qx.
    assert (LR : @limit Rops (m_max_voltage m) (@add Rops ut ur) = ut + ur) by (apply limit_id; exact L1).
    assert (LL : @limit Rops (m_max_voltage m) (@sub Rops ut ur) = ut - ur) by (apply limit_id; exact L2).
    rewrite LR, LL.
    assert (Xt := lag_push kt tt p (kp tp) (ki tp) (c_v (r n)) (c_v (r (S n))) (c_a (r n)) v1 (snd (zt n)) Gk Gtt Gp). fold nt in Xt.
    assert (Xr := lag_push kr tr p (kp rp) (ki rp) (c_omega (r n)) (c_omega (r (S n))) (c_alpha (r n)) (sv (s_theta (m_current m1))) (snd (zr n)) Gk' Gtt' Gp). fold nr in Xr.
    rewrite E1 in Xt. rewrite E2 in Xr. fold (dt n) (wt n) in Xt. fold (dr n) (wr n) in Xr.
    assert (Zt : zt (S n) = (fst (zt n) - p / (tt + p) * ((1 + kt * kp tp) * fst (zt n) + kt * ki tp * snd (zt n)) + wt n, snd (zt n) + p * fst (zt n))).
    { unfold zt. cbn [push]. destruct (push _ _ _ _ wt n _). reflexivity. }
    assert (Zr : zr (S n) = (fst (zr n) - p / (tr + p) * ((1 + kr * kp rp) * fst (zr n) + kr * ki rp * snd (zr n)) + wr n, snd (zr n) + p * fst (zr n))).
    { unfold zr. cbn [push]. destruct (push _ _ _ _ wr n _). reflexivity. }
    split; [|split; [|split; [|split]]].
    + split; [|cbn; auto]. apply params_trans with m1; [exact Pm|]. unfold params. cbn. rewrite Qx. tauto.
    + eexists. split; [apply step_moves|]. rewrite Zt. cbn [fst]. rewrite <- Xt. unfold next_trans_vel.
      cbn [m_current m_trans_t1 m_period m_trans_k m_right_voltage m_left_voltage].
      rewrite (trans_vel_moves _ _ M1), Qtt, Qp, Qkt. fold tt p kt. rops. rewrite <- Vt.
      replace ((ut + ur + (ut - ur)) / (2 / 1)) with ut by field. replace (1 / 1) with 1 by field. reflexivity.
    + rewrite Zr. cbn [fst]. rewrite <- Xr. cbn [step m_current s_theta sv]. unfold next_rot_vel.
      cbn [m_current m_rot_t1 m_period m_rot_k m_right_voltage m_left_voltage].
      rewrite Qtr, Qp, Qkr. fold tr p kr. rops. rewrite <- Vr.
      replace ((ut + ur - (ut - ur)) / (2 / 1)) with ur by field. replace (1 / 1) with 1 by field. reflexivity.
    + rewrite Zt. cbn [snd trans_sum]. rewrite Wt, <- S1. reflexivity.
    + rewrite Zr. cbn [snd rot_sum]. rewrite Wr, <- S2. reflexivity.
Qed.
End Loop.

Lemma over_one C rho : 0 <= C -> 0 < rho < 1 -> C <= C / (1 - rho).
Proof. intros HC Hr. apply Rmult_le_reg_r with (1 - rho); [lra|]. replace (C / (1 - rho) * (1 - rho)) with C by (field; lra). nra. Qed.
Lemma astray_push t p x a x' : 0 < p -> 0 <= t -> Rabs (x' - x - p * a + p * p / (t + p) * a) <= astray t p x a x'.
Proof.
  intros Hp Ht. unfold astray. replace (x' - x - p * a + p * p / (t + p) * a) with ((x' - (x + p * a)) + p * p / (t + p) * a) by ring.
  eapply Rle_trans; [apply Rabs_triang|]. rewrite (Rabs_mult (p * p / (t + p))), (Rabs_pos_eq (p * p / (t + p))); [lra|].
  apply Rmult_le_pos; [nra | left; apply Rinv_0_lt_compat; lra].
Qed.
Lemma servo_follows kt tt kr tr p (tp rp : @control_parameters Rops) :
  stable_gains kt tt p tp -> stable_gains kr tr p rp -> model_k tp = kt -> model_t1 tp = tt -> model_k rp = kr -> model_t1 rp = tr ->
  exists C rho, 0 <= C /\ 0 < rho < 1 /\
  forall (m : @simulator Rops) (c : @controller Rops) (r : nat -> @control_target Rops) (v M : R),
  m_trans_k m = kt -> m_trans_t1 m = tt -> m_rot_k m = kr -> m_rot_t1 m = tr -> m_period m = p ->
  trans_params c = tp -> rot_params c = rp -> c_period c = p -> moves (m_current m) v ->
  forall n, (forall i, (i < n)%nat ->
    astray tt p (c_v (r i)) (c_a (r i)) (c_v (r (S i))) <= M /\ astray tr p (c_omega (r i)) (c_alpha (r i)) (c_omega (r (S i))) <= M /\
    Rabs (feed kt tt (c_v (r i)) (c_a (r i))) + Rabs (feed kr tr (c_omega (r i)) (c_alpha (r i))) + C * (gap m c (r O) v + M) <= m_max_voltage m) ->
  0 <= M ->
  let (m', c') := servo r n m c in
  exists v', moves (m_current m') v' /\
  Rabs (v' - c_v (r n)) <= C * (rho ^ n * gap m c (r O) v + M) /\
  Rabs (sv (s_theta (m_current m')) - c_omega (r n)) <= C * (rho ^ n * gap m c (r O) v + M).
Proof.
  intros Gt Gr Mt Tt Mr Tr. destruct (stable_channel _ _ _ _ Gt) as (Ct & rt & Ct0 & Rt & Ht).
  destruct (stable_channel _ _ _ _ Gr) as (Cr & rr & Cr0 & Rr & Hr).
  set (ft := Rabs (kp tp) + Rabs (ki tp)). set (fr := Rabs (kp rp) + Rabs (ki rp)).
  assert (F1 : 0 <= ft) by (unfold ft; pose proof (Rabs_pos (kp tp)); pose proof (Rabs_pos (ki tp)); lra).
  assert (F2 : 0 <= fr) by (unfold fr; pose proof (Rabs_pos (kp rp)); pose proof (Rabs_pos (ki rp)); lra).
  set (Kt := Ct / (1 - rt)). set (Kr := Cr / (1 - rr)).
  assert (K1 := over_one Ct rt Ct0 Rt). assert (K2 := over_one Cr rr Cr0 Rr). fold Kt in K1. fold Kr in K2.
  set (C := Kt * (1 + ft) + Kr * (1 + fr)).
  assert (C1 : Kt <= C /\ Kr <= C /\ ft * Kt + fr * Kr <= C) by (unfold C; repeat split; nra). destruct C1 as (C1 & C2 & C3).
  exists C, (Rmax rt rr). split; [lra|]. split; [split; [apply Rlt_le_trans with rt; [lra | apply Rmax_l] | apply Rmax_lub_lt; lra]|].
  intros m c r v M <- <- <- <- <- <- <- Pe Mv n Hn M0.
  assert (L := servo_push m c r v Gt Gr Pe Mt Mr Tt Tr Mv n). cbv zeta beta in L.
  assert (Gp : 0 < m_period m) by apply Gt. assert (Gtt : 0 <= m_trans_t1 m) by apply Gt. assert (Gtr : 0 <= m_rot_t1 m) by apply Gr.
  set (p := m_period m) in *. set (tt := m_trans_t1 m) in *. set (tr := m_rot_t1 m) in *. set (kt := m_trans_k m) in *. set (kr := m_rot_k m) in *.
  set (tp := trans_params c) in *. set (rp := rot_params c) in *.
  set (wt := fun n : nat => c_v (r (S n)) - c_v (r n) - p * c_a (r n) + p * p / (tt + p) * c_a (r n)) in *.
  set (wr := fun n : nat => c_omega (r (S n)) - c_omega (r n) - p * c_alpha (r n) + p * p / (tr + p) * c_alpha (r n)) in *.
  assert (AS := fun t x a x' => astray_push t p x a x' Gp).
  set (ot := Rabs (c_v (r O) - v) + Rabs (trans_sum c)). set (og := Rabs (c_omega (r O) - sv (s_theta (m_current m))) + Rabs (rot_sum c)).
  assert (OG : gap m c (r 0%nat) v = ot + og).
  { unfold gap, ot, og. rewrite (Rabs_minus_sym v), (Rabs_minus_sym (sv (s_theta (m_current m)))). ring. }
  assert (O1 : 0 <= ot) by (unfold ot; pose proof (Rabs_pos (c_v (r O) - v)); pose proof (Rabs_pos (trans_sum c)); lra).
  assert (O2 : 0 <= og) by (unfold og; pose proof (Rabs_pos (c_omega (r O) - sv (s_theta (m_current m)))); pose proof (Rabs_pos (rot_sum c)); lra).
  rewrite OG in *. clear OG.
  assert (Bt : forall i, (i <= n)%nat ->
    let z := push (p / (tt + p)) (1 + kt * kp tp) (kt * ki tp) p wt i (c_v (r O) - v, trans_sum c) in
    Rabs (fst z) <= Kt * (rt ^ i * ot + M) /\ Rabs (snd z) <= Kt * (rt ^ i * ot + M)).
  { intros i Hi z. destruct (push_bound _ _ _ _ Ct rt M Ct0 Rt M0 Ht i wt (c_v (r O) - v) (trans_sum c)) as [P1 P2].
    { intros j Hj. eapply Rle_trans; [apply AS; exact Gtt | apply (Hn j); lia]. }
    change (Rabs (fst z) <= Ct * rt ^ i * ot + Kt * M) in P1. change (Rabs (snd z) <= Ct * rt ^ i * ot + Kt * M) in P2.
    clearbody z. assert (0 <= rt ^ i * ot) by (apply Rmult_le_pos; [apply pow_le; lra | exact O1]).
    assert (Ct * (rt ^ i * ot) <= Kt * (rt ^ i * ot)) by (apply Rmult_le_compat_r; assumption). lra. }
  assert (Br : forall i, (i <= n)%nat ->
    let z := push (p / (tr + p)) (1 + kr * kp rp) (kr * ki rp) p wr i (c_omega (r O) - sv (s_theta (m_current m)), rot_sum c) in
    Rabs (fst z) <= Kr * (rr ^ i * og + M) /\ Rabs (snd z) <= Kr * (rr ^ i * og + M)).
  { intros i Hi z. destruct (push_bound _ _ _ _ Cr rr M Cr0 Rr M0 Hr i wr (c_omega (r O) - sv (s_theta (m_current m))) (rot_sum c)) as [P1 P2].
    { intros j Hj. eapply Rle_trans; [apply AS; exact Gtr | apply (Hn j); lia]. }
    change (Rabs (fst z) <= Cr * rr ^ i * og + Kr * M) in P1. change (Rabs (snd z) <= Cr * rr ^ i * og + Kr * M) in P2.
    clearbody z. assert (0 <= rr ^ i * og) by (apply Rmult_le_pos; [apply pow_le; lra | exact O2]).
    assert (Cr * (rr ^ i * og) <= Kr * (rr ^ i * og)) by (apply Rmult_le_compat_r; assumption). lra. }
  assert (W : forall (k i K e s o q : R), 0 <= K -> 0 <= o -> 0 <= q <= 1 -> Rabs e <= K * (q * o + M) -> Rabs s <= K * (q * o + M) ->
    Rabs (k * e + i * s) <= (Rabs k + Rabs i) * (K * (o + M))).
  { intros k i K0 e s o q HK Ho Hq He Hs. eapply Rle_trans; [apply Rabs_triang|]. rewrite !Rabs_mult.
    assert (K0 * (q * o + M) <= K0 * (o + M)) by (apply Rmult_le_compat_l; [exact HK | nra]).
    pose proof (Rabs_pos k). pose proof (Rabs_pos i).
    assert (Rabs k * Rabs e <= Rabs k * (K0 * (o + M))) by (apply Rmult_le_compat_l; lra).
    assert (Rabs i * Rabs s <= Rabs i * (K0 * (o + M))) by (apply Rmult_le_compat_l; lra). lra. }
  assert (PW : forall x i, 0 < x < 1 -> 0 <= x ^ i <= 1).
  { intros x i Hx. split; [apply pow_le; lra|]. rewrite <- (pow1 i). apply pow_incr. lra. }
  assert (Kt0 : 0 <= Kt) by lra. assert (Kr0 : 0 <= Kr) by lra.
  destruct (servo r n m c) as [m' c'].
  destruct L as (_ & (v' & M' & E1) & E2 & _).
  { intros i Hi. destruct (Hn i Hi) as (_ & _ & Hv). eapply Rle_trans; [|exact Hv]. apply Rplus_le_compat_l.
    destruct (Bt i ltac:(lia)) as [T1 T2]. destruct (Br i ltac:(lia)) as [T3 T4].
    assert (B1 := W (kp tp) (ki tp) _ _ _ _ _ Kt0 O1 (PW _ i Rt) T1 T2).
    assert (B2 := W (kp rp) (ki rp) _ _ _ _ _ Kr0 O2 (PW _ i Rr) T3 T4).
    fold ft in B1. fold fr in B2.
    assert (ft * (Kt * (ot + M)) + fr * (Kr * (og + M)) <= C * (ot + og + M)).
    { assert (0 <= ft * Kt) by (apply Rmult_le_pos; assumption). assert (0 <= fr * Kr) by (apply Rmult_le_pos; assumption).
      apply Rle_trans with ((ft * Kt + fr * Kr) * (ot + og + M)); [nra | apply Rmult_le_compat_r; lra]. }
    eapply Rle_trans; [apply Rplus_le_compat; [exact B1 | exact B2] | assumption]. }
  exists v'. split; [exact M'|].
  assert (BB : forall K x o e, 0 <= K <= C -> 0 < x <= Rmax rt rr -> 0 <= o <= ot + og -> Rabs e <= K * (x ^ n * o + M) -> Rabs e <= C * (Rmax rt rr ^ n * (ot + og) + M)).
  { intros K x o e HK Hx Ho He. eapply Rle_trans; [exact He|].
    assert (X : 0 <= x ^ n <= Rmax rt rr ^ n) by (split; [apply pow_le | apply pow_incr]; lra).
    assert (0 <= x ^ n * o <= Rmax rt rr ^ n * (ot + og)) by (split; [apply Rmult_le_pos | apply Rmult_le_compat]; lra).
    apply Rmult_le_compat; lra. }
  assert (X1 : 0 < rt <= Rmax rt rr) by (split; [lra | apply Rmax_l]).
  assert (X2 : 0 < rr <= Rmax rt rr) by (split; [lra | apply Rmax_r]).
  destruct (Bt n (le_n n)) as [T1 _]. destruct (Br n (le_n n)) as [T3 _].
  rewrite (Rabs_minus_sym v'), (Rabs_minus_sym (sv (s_theta (m_current m')))). rewrite E1, E2. split.
  - apply (BB Kt rt ot); try assumption; lra.
  - apply (BB Kr rr og); try assumption; lra.
Qed.
