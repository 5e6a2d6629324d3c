(** Joined trajectories: the moves of the search and of the run, and whole routes. *)
From Coq Require Import ZArith Reals List Bool Lia Lra Psatz.
From Verif Require Import Base SearchModel SearchSpec SearchState RunModel Num NumLemmas ControlModel TrajModel TrajSpec RouteModel RouteSpec
  TrajProofs TrajProofs2 TrajProofs3 TrajProofs4 TrajProofs5 TrajProofs6 TrajProofs7 TrajProofs8 TrajQuad
  RouteProofs RouteProofs2 RouteProofs3.
Import ListNotations.
Open Scope R_scope.

Lemma compose_origin (q : @pose Rops) : near 0 q (compose q origin).
Proof. unfold near, compose, origin. destruct q as [x y th]. cbn [p_x p_y p_theta]. change (@num Rops) with R in *.
  split; [|split].
  - replace (x - (x + (0 * cos th - 0 * sin th))) with 0 by ring. rewrite Rabs_R0. lra.
  - replace (y - (y + (0 * sin th + 0 * cos th))) with 0 by ring. rewrite Rabs_R0. lra.
  - exists 0%Z. ring.
Qed.
Lemma near_sym e (p q : @pose Rops) : near e p q -> near e q p.
Proof.
  intros (X & Y & k & T). split; [rewrite Rabs_minus_sym; exact X|]. split; [rewrite Rabs_minus_sym; exact Y|].
  exists (- k)%Z. rewrite T, opp_IZR. assert (E : forall a b c : R, a = a + b * c + b * - c) by (intros; ring). exact (E _ _ _).
Qed.
Lemma compose_assoc (p q r : @pose Rops) : near 0 (compose (compose p q) r) (compose p (compose q r)).
Proof.
  destruct p as [x y t], q as [x' y' t'], r as [x'' y'' t'']. unfold near, compose. cbn [p_x p_y p_theta]. change (@num Rops) with R in *.
  rewrite cos_plus, sin_plus. split; [|split].
  - match goal with |- Rabs ?a <= _ => replace a with 0 by ring end. rewrite Rabs_R0. lra.
  - match goal with |- Rabs ?a <= _ => replace a with 0 by ring end. rewrite Rabs_R0. lra.
  - exists 0%Z. ring.
Qed.

Lemma linked_end {A} (P Q : A -> A -> Prop) l m m' : (forall a b, P a b -> Q a b) -> (forall a, P a m -> Q a m') ->
  linked P (l ++ [m]) -> linked Q (l ++ [m']).
Proof.
  intros H H'. induction l as [|a [|b l] IH]; cbn; [tauto | intros [L _]; split; [apply H', L | exact I]|].
  intros [L M]. split; [apply H, L | apply IH, M].
Qed.

Lemma ride_end l A B B' va vb vb' d h c e : ride l A B va vb d h c -> near e B B' ->
  ride l A B' va vb' (d + 2 * e) h (c + Rabs (vb - vb')).
Proof.
  intros [F L] N. split; [exact F|]. assert (E0 : 0 <= e) by (destruct N as (N & _); pose proof (Rabs_pos (p_x B - p_x B')); lra).
  pose proof (Rabs_pos (vb - vb')).
  assert (K := passing_close B B' vb vb' _ _ e (mark_passing B vb) (mark_passing B' vb') N).
  revert L. apply linked_end.
  - intros a b C. apply (close_weaken _ _ _ _ _ _ _ _ C); lra.
  - intros a C. apply (close_weaken _ _ _ _ _ _ _ _ (close_tri _ _ _ _ _ _ _ _ _ C K)); lra.
Qed.

Lemma ride_passing l A B va vb d h c t : ride l A B va vb d h c -> passing B vb t -> smooth d h c (l ++ [t]).
Proof.
  intros [_ L] P l1 s u l2 E. apply (linked_split (close d h c) l1 s u l2). rewrite <- E. revert L. apply linked_end; [tauto|].
  intros a K. assert (J := passing_close _ _ vb vb _ _ 0 (mark_passing B vb) P (near_refl _)).
  rewrite (Rminus_diag_eq vb vb eq_refl), Rabs_R0 in J.
  apply (close_weaken _ _ _ d h c _ _ (close_tri _ _ _ _ _ _ _ _ _ K J)); lra.
Qed.

(** joining without any gap *)
Lemma ride_join l1 l2 A B B' C va vb vc d h c : ride l1 A B va vb d h c -> ride l2 B' C vb vc d h c -> near 0 B B' ->
  ride (l1 ++ l2) A C va vc d h c.
Proof.
  intros R1 R2 N. apply (ride_app l1 l2 A B B' C va vb vb vc d h c d c 0 R1 R2 N); try lra.
  rewrite (Rminus_diag_eq vb vb eq_refl), Rabs_R0. lra.
Qed.

(** straight, curve and straight *)
Lemma slalom_ride (q : @slalom_params Rops) s1 cu s3 l1 l2 l3 va u vb d0 c0 d h c :
  plays straight_next s1 l1 -> plays curve_next cu l2 -> plays straight_next s3 l3 ->
  ride l1 origin (ahead (l_start q)) va u d0 0 c0 -> ride l2 (ahead (l_start q)) (curve_end q) u u d h c ->
  ride l3 origin (ahead (l_end q)) u vb d0 0 c0 -> d0 <= d -> 0 <= h -> c0 <= c ->
  exists l, plays (slalom_next q) (Some (Some s1, cu), s3) l /\ ride l origin (slalom_end q) va vb d h c.
Proof.
  intros P1 P2 P3 R1 R2 R3 D H C. exists ((l1 ++ l2) ++ map (shift (curve_end q)) l3). split.
  - apply plays_app; [apply plays_app; assumption | apply plays_shift, P3].
  - apply (ride_weaken _ _ _ _ _ _ _ _ d h c) in R1; try assumption. apply (ride_weaken _ _ _ _ _ _ _ _ d h c) in R3; try assumption.
    eapply ride_join; [eapply ride_join; [exact R1 | exact R2 | apply near_refl] | exact (ride_shift (curve_end q) _ _ _ _ _ _ _ _ R3)|].
    apply compose_origin.
Qed.

Lemma ride_conv l A A' B B' va vb d h c : ride l A B va vb d h c -> A = A' -> near 0 B B' -> ride l A' B' va vb d h c.
Proof.
  intros R <- N. apply (ride_end _ _ _ B' _ _ vb _ _ _ 0) in R; [|exact N].
  rewrite (Rminus_diag_eq vb vb eq_refl), Rabs_R0 in R. eapply ride_weaken; [exact R | lra | lra | lra].
Qed.

Section Search.
Variables (w off p stop : R) (g : @generator Rops) (sg : @generator Rops).
Let G := @StraightGenerator Rops g p.
Let v := g_v_max g.
Hypothesis Hw : w = 9 / 100.
Hypothesis Ho : - (5 / 1000) <= off <= 30 / 1000.
Hypothesis Hp : 0 < p.
Hypothesis Lg : limits g.
Hypothesis Ls : limits sg.
Hypothesis Bs : big_enough sg PI.
Hypothesis Hvp : v * p <= w / 100.
Hypothesis Hst : 0 < stop.
Hypothesis Rs : room g (w / 2 - off) v 0.
Hypothesis Re : room g (w / 2 + off) 0 v.
Hypothesis Rf : ramp_distance (g_a_max g) (g_j_max g) 0 v < w / 2 + off.
Let h := Rmax (943 / 100 * (v * p / w)) (g_v_max sg * p).
Let c := Rmax (g_a_max g * p) (v * (943 / 100 * (v * p / w))).
Let d := v * p + 112 / 1000000 * w.

Lemma search_pos : 0 < v /\ 0 < v * p /\ 0 <= 943 / 100 * (v * p / w) /\ 0 <= h /\ 0 <= c /\ 0 < g_a_max g * p /\ 0 < g_v_max sg * p.
Proof.
  destruct Lg as (V & A & _). destruct Ls as (V' & _). fold v in V. assert (VP : 0 < v * p) by nra.
  assert (Q : 0 < v * p / w) by (apply Rdiv_lt_0_compat; lra).
  split; [exact V|]. split; [exact VP|]. split; [lra|].
  assert (AP : 0 < g_a_max g * p) by (apply Rmult_lt_0_compat; assumption).
  assert (SP : 0 < g_v_max sg * p) by (apply Rmult_lt_0_compat; assumption).
  split; [|split; [|split; assumption]].
  - apply Rle_trans with (g_v_max sg * p); [lra | apply Rmax_r].
  - apply Rle_trans with (g_a_max g * p); [lra | apply Rmax_l].
Qed.

(** reaching the speed of the search *)
Lemma full_speed : let r := straight_generate_tv G (w / 2 + off)%R 0%R v in
  v - v / 2 ^ 25 <= snd r <= v /\ exists l, plays straight_next (fst r) l /\
    ride l origin (ahead (w / 2 + off)) 0 (snd r) (v * p) 0 (g_a_max g * p).
Proof.
  destruct search_pos as (V & _).
  destruct (straight_ride g p (w / 2 + off) 0 v Lg Hp ltac:(lra) ltac:(fold v; lra) ltac:(fold v; lra) Re) as [(_ & _ & VU) EX].
  fold G v in VU, EX. cbv zeta. split; [|exact EX]. specialize (VU V). split; [|lra].
  rewrite straight_tv_snd. replace (@n0 Rops) with 0 by (symmetry; apply n0_R).
  rewrite generate_tv_snd by (cbn [sg_gen G]; fold v; lra). cbn [sg_gen G].
  assert (W0 : 0 <= w / 2 + off) by lra. rewrite (Rabs_pos_eq (w / 2 + off)) by lra.
  destruct (limited_up g (w / 2 + off) 0 v Lg W0 ltac:(lra) ltac:(fold v; lra)) as (_ & _ & C & _).
  specialize (C v ltac:(lra) Rf). fold v in C. rewrite Rminus_0_r in C. lra.
Qed.

Lemma slalom_move dir : let q := @parameters Rops w off None dir in
  exists l, plays (slalom_next q) (@generate_constant_slalom Rops p q v) l /\ ride l origin (slalom_end q) v v d h c.
Proof.
  cbv zeta. destruct search_pos as (V & VP & X0 & H0 & C0 & A0 & S0).
  set (q := @parameters Rops w off None dir).
  assert (LQ : 0 <= l_start q /\ 0 <= l_end q).
  { unfold q, parameters, search90_params. rops. destruct (Rleb_spec (off / (9 / 100)) (55555556 / 1000000000)) as [L|L];
    unfold create_params; destruct dir; cbn [l_start l_end]; rops; rewrite Hw; split; apply Rmult_le_pos; lra. }
  destruct LQ as [L1 L2].
  destruct (constant_ride (l_start q) v p L1 V Hp) as (l1 & P1 & R1).
  destruct (constant_ride (l_end q) v p L2 V Hp) as (l3 & P3 & R3).
  destruct (table_ride w off v p None dir ltac:(lra) V Hp ltac:(cbn [reach]; lra) ltac:(intros _; lra)) as (l2 & P2 & R2). fold q in P2, R2.
  unfold v_low, slack in R2. replace (v * p / w / 1) with (v * p / w) in R2 by (field; lra).
  unfold generate_constant_slalom. rewrite !n0_R.
  eapply (slalom_ride q _ _ _ l1 l2 l3 v v v (v * p) 0 d h c P1 P2 P3 R1); [|exact R3 | | exact H0 | exact C0].
  - eapply ride_weaken; [exact R2 | unfold d; lra | apply Rmax_l | apply Rmax_r].
  - unfold d. lra.
Qed.

Lemma back_move : let i := @search_move Rops w off G sg stop Back in
  exists l vb, v - v / 2 ^ 25 <= vb <= v /\ plays inner_next i l /\ ride l origin (search_end w off Back) v vb d h c.
Proof.
  cbv zeta. destruct search_pos as (V & VP & X0 & H0 & C0 & A0 & S0).
  assert (HS : g_v_max sg * p <= h) by apply Rmax_r. assert (CA : g_a_max g * p <= c) by apply Rmax_l.
  assert (DV : v * p <= d) by (unfold d; lra).
  destruct full_speed as (FV & l5 & P5 & R5).
  set (vb := snd _) in *.
  unfold search_move. cbn [sg_gen sg_period G]. fold G v.
  assert (D180 : @degree Rops (lit 180 1) = PI) by (unfold degree; rops; field).
  rewrite D180.
  rops. replace (2 / 1) with 2 by field. replace (0 / 1) with 0 by field. change (@num Rops) with R in *.
  set (P := @Pose Rops (w / 2 - off)%R 0%R 0%R). set (Q := @Pose Rops (w / 2 - off)%R 0%R PI).
  destruct (straight_ride g p (w / 2 - off) v 0 Lg Hp ltac:(lra) ltac:(fold v; lra) ltac:(fold v; lra) Rs) as [(_ & VE & _) (l1 & P1 & R1)].
  fold G in VE, P1, R1. rewrite (VE ltac:(lra)) in R1. fold v in R1. clear VE.
  destruct (stop_ride P p stop Hp Hst) as (l2 & P2 & R2).
  destruct (spin_ride sg p PI Ls Bs Hp) as (l3 & P3 & R3).
  destruct (stop_ride Q p stop Hp Hst) as (l4 & P4 & R4).
  exists ((((l1 ++ l2) ++ map (shift P) l3) ++ l4) ++ map (shift Q) l5), vb.
  split; [exact FV|]. split.
  - apply plays_back. unfold back_next. apply plays_app; [|apply plays_shift; exact P5].
    apply plays_app; [|exact P4]. apply plays_app; [|apply plays_shift; exact P3]. apply plays_app; [exact P1 | exact P2].
  - assert (N3 : near 0 (compose P (facing PI)) Q).
    { unfold near, compose, facing, P, Q. cbn [p_x p_y p_theta]. change (@num Rops) with R. rewrite cos_0, sin_0. split; [|split].
      - match goal with |- Rabs ?a <= _ => replace a with 0 by ring end. rewrite Rabs_R0. lra.
      - match goal with |- Rabs ?a <= _ => replace a with 0 by ring end. rewrite Rabs_R0. lra.
      - exists 0%Z. ring. }
    assert (N5 : near 0 (compose Q (ahead (w / 2 + off))) (search_end w off Back)).
    { unfold near, compose, ahead, search_end, Q, compose. cbn [p_x p_y p_theta]. change (@num Rops) with R.
      rewrite cos_0, sin_0, cos_PI, sin_PI. split; [|split].
      - match goal with |- Rabs ?a <= _ => replace a with 0 by ring end. rewrite Rabs_R0. lra.
      - match goal with |- Rabs ?a <= _ => replace a with 0 by ring end. rewrite Rabs_R0. lra.
      - exists 0%Z. ring. }
    assert (R1' : ride l1 origin P v 0 d h c) by (eapply ride_weaken; [exact R1 | exact DV | exact H0 | exact CA]).
    assert (D0 : 0 <= d) by lra.
    assert (R2' : ride l2 P P 0 0 d h c) by (eapply ride_weaken; [exact R2 | exact D0 | exact H0 | exact C0]).
    assert (R3' : ride (map (shift P) l3) (compose P origin) (compose P (facing PI)) 0 0 d h c)
      by (apply ride_shift; eapply ride_weaken; [exact R3 | exact D0 | exact HS | exact C0]).
    assert (R4' : ride l4 Q Q 0 0 d h c) by (eapply ride_weaken; [exact R4 | exact D0 | exact H0 | exact C0]).
    assert (R5' : ride (map (shift Q) l5) (compose Q origin) (compose Q (ahead (w / 2 + off))) 0 vb d h c)
      by (apply ride_shift; eapply ride_weaken; [exact R5 | exact DV | exact H0 | exact CA]).
    apply (ride_conv _ _ _ _ _ _ _ _ _ _ (ride_join _ _ _ _ _ _ _ _ _ _ _ _
      (ride_join _ _ _ _ _ _ _ _ _ _ _ _ (ride_join _ _ _ _ _ _ _ _ _ _ _ _
        (ride_join _ _ _ _ _ _ _ _ _ _ _ _ R1' R2' (near_refl _)) R3' (compose_origin _)) R4' N3) R5' (compose_origin _)) eq_refl N5).
Qed.

Lemma one_move k : exists l vb, v - v / 2 ^ 25 <= vb <= v /\ plays inner_next (@search_move Rops w off G sg stop k) l /\
  ride l origin (search_end w off k) v vb d h c.
Proof.
  destruct search_pos as (V & VP & X0 & H0 & C0 & A0 & S0). assert (V2 : 0 < v / 2 ^ 25) by (apply Rdiv_lt_0_compat; lra).
  destruct k; [| | |exact back_move].
  - destruct (straight_ride g p w v v Lg Hp ltac:(lra) ltac:(fold v; lra) ltac:(fold v; lra)) as [(_ & VE & _) (l & P & R)].
    { split; [|left; exact V]. right. intros u Hu. replace u with v by lra.
      assert (Z : ramp_distance (g_a_max g) (g_j_max g) v v = 0); [|lra].
      unfold ramp_distance. rewrite (Rminus_diag_eq v v eq_refl), Rabs_R0.
      destruct Lg as (_ & La & Lj). assert (0 < g_a_max g * g_a_max g / g_j_max g) by (apply Rdiv_lt_0_compat; nra).
      unfold ramp_time. destruct (Rle_dec _ _); [lra|]. replace (0 / g_j_max g) with 0 by (field; lra). rewrite sqrt_0. ring. }
    exists l, v. split; [lra|]. split; [apply plays_straight; exact P|]. rewrite (VE ltac:(lra)) in R.
    eapply ride_weaken; [exact R | unfold d; fold v; lra | exact H0 | apply Rmax_l].
  - destruct (slalom_move SRight) as (l & P & R). exists l, v. split; [lra|]. split; [apply plays_slalom; exact P | exact R].
  - destruct (slalom_move SLeft) as (l & P & R). exists l, v. split; [lra|]. split; [apply plays_slalom; exact P | exact R].
Qed.
Let box (sk : search_state * traj_kind) : @boxed Rops :=
  @Boxed Rops (@pose_of_search Rops (fst sk) w off) (@search_move Rops w off G sg stop (snd sk)).
Let D := v * p + w / 8000.
Let C := c + v / 2 ^ 25.

Lemma moves_ride W : supported W -> forall s l e, walks W s l e -> valid W (ss_coord s) -> crosses (ss_coord s) (ss_posture s) ->
  forall l1 A B va vb, ride l1 A B va vb d h c -> near (1 / 1000000 * w) B (@pose_of_search Rops s w off) -> v - v / 2 ^ 25 <= vb <= v ->
  exists ls, Forall2 (plays boxed_next) (map box l) ls /\ Forall (fun l => l <> []) ls /\
    ride (l1 ++ concat ls) A (@pose_of_search Rops e w off) va v D h C.
Proof.
  intros HW s l e WK. destruct search_pos as (V & VP & X0 & H0 & C0 & A0 & S0).
  assert (V2 : 0 < v / 2 ^ 25) by (apply Rdiv_lt_0_compat; lra).
  induction WK as [s|s n k s' l e Vn U WK IH]; intros Vs Cs l1 A B va vb R1 N VB.
  - exists []. split; [constructor|]. split; [constructor|]. cbn [concat]. rewrite app_nil_r.
    apply (ride_end _ _ _ _ _ _ v) with (2 := N) in R1. eapply ride_weaken; [exact R1 | unfold d, D; lra | lra|].
    unfold C. apply Rplus_le_compat_l. apply Rabs_le. lra.
  - destruct (one_move k) as (l2 & v2 & V2B & P2 & R2).
    destruct (search_state_ok W HW) as (_ & US & _).
    destruct (US s n Vs Vn Cs) as [(_ & k1 & c1 & p1 & E1 & _ & Vc & Cc)|(_ & E1)]; [|congruence].
    rewrite U in E1. injection E1 as -> ->. cbn [ss_coord ss_posture] in IH.
    assert (N2 := search_steps W s n k1 (SS c1 p1) w off HW Vs Vn Cs ltac:(lra) U).
    assert (N2' : near (1 / 1000000 * w) (compose (@pose_of_search Rops s w off) (search_end w off k1)) (@pose_of_search Rops (SS c1 p1) w off)).
    { eapply near_weaken; [|exact N2]. replace (off * (w / (9 / 100) - 1)) with 0 by (rewrite Hw; field). rewrite Rabs_R0. destruct k1; lra. }
    destruct (IH Vc Cc _ _ _ _ _ (ride_shift (@pose_of_search Rops s w off) _ _ _ _ _ _ _ _ R2) N2' V2B) as (ls & F & NE & R).
    exists (map (shift (@pose_of_search Rops s w off)) l2 :: ls). split; [|split].
    + constructor; [|exact F]. apply plays_boxed. exact P2.
    + constructor; [|exact NE]. destruct R2 as ((t & l' & -> & _) & _). discriminate.
    + cbn [concat]. apply (ride_app _ _ _ _ _ _ _ _ _ _ _ _ _ _ _ (1 / 1000000 * w) R1 R).
      * eapply near_weaken; [|exact (near_trans _ _ _ _ _ N (compose_origin _))]. lra.
      * lra.
      * unfold d, D. lra.
      * unfold C. apply Rplus_le_compat_l. apply Rabs_le. lra.
Qed.

Lemma route_ride W l e : supported W -> valid W (Co 0 1) -> walks W (SS (Co 0 1) North) l e ->
  exists L, serves (@search_route Rops w off G sg stop l) L /\
    ride L (@Pose Rops (w / 2)%R (w / 2)%R (PI / 2)%R) (@pose_of_search Rops e w off) 0 v D h C.
Proof.
  intros HW VS WK. destruct search_pos as (V & VP & X0 & H0 & C0 & A0 & S0).
  destruct full_speed as (FV & l1 & P1 & R1). set (vb := snd _) in *.
  set (P := @Pose Rops (w / 2)%R (w / 2)%R (PI / 2)%R).
  assert (R1' : ride (map (shift P) l1) (compose P origin) (compose P (ahead (w / 2 + off))) 0 vb d h c).
  { apply ride_shift. eapply ride_weaken; [exact R1 | unfold d; lra | exact H0 | apply Rmax_l]. }
  assert (N : near (1 / 1000000 * w) (compose P (ahead (w / 2 + off))) (@pose_of_search Rops (SS (Co 0 1) North) w off)).
  { apply near_weaken with 0; [lra|]. rewrite search_pose. unfold near, compose, ahead, P. cbn [ss_coord ss_posture cx cy post8 C8 S8 ang p_x p_y p_theta].
    change (@num Rops) with R. rewrite cos_PI2, sin_PI2. split; [|split].
    - match goal with |- Rabs ?a <= _ => replace a with 0 by field end. rewrite Rabs_R0. lra.
    - match goal with |- Rabs ?a <= _ => replace a with 0 by field end. rewrite Rabs_R0. lra.
    - exists 0%Z. field. }
  destruct (moves_ride W HW _ _ _ WK VS eq_refl _ _ _ _ _ R1' N FV) as (ls & F & NE & RR).
  exists (map (shift P) l1 ++ concat ls). split.
  - assert (E : @search_route Rops w off G sg stop l = @Boxed Rops P (IStraight (fst (straight_generate_tv G (w / 2 + off)%R 0%R v))) :: map box l).
    { unfold search_route, search_init, straight_generate.
      assert (D90 : @degree Rops (lit 90 1) = PI / 2) by (unfold degree; rops; field). rewrite D90.
      rops. cbn [sg_gen G]. fold G v. replace (2 / 1) with 2 by field. replace (0 / 1) with 0 by field. unfold P. exact (eq_refl _). }
    rewrite E. apply serves_all; [exact F | exact NE | apply plays_boxed, plays_straight, P1].
  - destruct RR as [(t & l' & EQ & PA) L]. split; [|exact L]. exists t, l'. split; [exact EQ|].
    revert PA. unfold passing, compose, origin, P. cbn [p_x p_y p_theta]. change (@num Rops) with R.
    rewrite !Rmult_0_l, Rminus_0_r, !Rplus_0_r. tauto.
Qed.
End Search.
