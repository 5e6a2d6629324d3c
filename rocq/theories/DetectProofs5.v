(** The detector over arbitrary arithmetic: what a reading changes, latching, with_walls. *)
From Coq Require Import ZArith List Bool Lia.
From Verif Require Import Base SearchModel SearchSpec SearchCoord WallsModel WallsSpec WallsLemmas Num TrajModel DetectModel DetectSpec.
Import ListNotations.
Open Scope Z_scope.

Section Generic.
Context {K : ops}.
Variable W : Z.
Hypothesis HW : supported W.

Lemma as_u8_range v : 0 <= as_u8 v < 256.
Proof. unfold as_u8. apply Z.mod_pos_bound. lia. Qed.

Lemma lor1_range v : 0 <= v < 256 -> 0 <= Z.lor v 1 < 256.
Proof.
  intros H. assert (E : exists k, v = 2 * k \/ v = 2 * k + 1) by (exists (v / 2); lia).
  destruct E as (k & [-> | ->]); rewrite ?lor1; [lia|].
  rewrite <- (lor1 k), <- Z.lor_assoc. change (Z.lor 1 1) with 1. rewrite lor1. lia.
Qed.

Lemma coord_new_valid x y c : 0 <= x < 256 -> 0 <= y < 256 -> coord_new W x y = Some c -> valid W c.
Proof.
  intros Hx Hy. rewrite coord_new_spec by assumption.
  destruct (_ && _) eqn:E; [|discriminate]. intros H; injection H as <-.
  unfold valid, on_board. cbn. apply andb_prop in E. destruct E as [E1 E2]. apply andb_prop in E1.
  split; [lia|assumption].
Qed.

Lemma hit_wall_valid dir i j c : hit_wall W dir i j = Some c -> valid W c.
Proof.
  unfold hit_wall.
  destruct dir; destruct (_ || _); try discriminate; apply coord_new_valid;
    try apply as_u8_range; apply lor1_range; apply as_u8_range.
Qed.

Lemma convert_valid cv p i : convert W cv p = Ret (Some i) -> valid W (w_coord i).
Proof.
  unfold convert. destruct (_ || _); [discriminate|].
  destruct (remquof_with_width cv (p_x p)) as [[xr xq]| |]; try discriminate. cbn [bind].
  destruct (remquof_with_width cv (p_y p)) as [[yr yq]| |]; try discriminate. cbn [bind].
  destruct (is_near_pillar _ _); [discriminate|]. destruct (_ || _); [discriminate|].
  destruct (sort_distances _) as [|[dir e] [|[d2 n] l]]; try discriminate.
  destruct (hit_wall W dir xq yq) as [c|] eqn:E; [|discriminate].
  destruct (match e with Some _ => _ | None => _ end); [discriminate|].
  intros H; injection H as <-. cbn. now apply hit_wall_valid in E.
Qed.

Definition latched (p : num) : bool := is_zero p || is_one p.

Lemma detect_inv d m s p d' a : alen (d_existence d) = EXISTENCE_ARRAY_LEN ->
  detect_and_update W d m s p = Ret (d', a) ->
  (a = None /\ d' = d) \/
  exists i q, convert W (d_converter d) p = Ret (Some i) /\ latched (belief W d (w_coord i)) = false /\
    posterior (belief W d (w_coord i)) (log_likelihood (length_of (w_existing i)) m s)
      (log_likelihood (length_of (w_not_existing i)) m s) = Ret q /\
    d' = Detector (d_converter d) (aupd (d_existence d) (as_index W (w_coord i)) q) /\
    a = Some (w_coord i, state_of q).
Proof.
  intros Hl. unfold detect_and_update.
  destruct (convert W (d_converter d) p) as [[i|]| |] eqn:Ec; cbn [bind]; try discriminate.
  2:{ intros E; injection E as <- <-. now left. }
  pose proof (convert_valid _ _ _ Ec) as [Hb Ho].
  pose proof (as_index_que W _ HW Hb) as Hix.
  unfold wall_existence. rewrite aget_ok by (rewrite Hl; exact Hix). cbn [bind].
  fold (belief W d (w_coord i)). fold (latched (belief W d (w_coord i))).
  destruct (latched _) eqn:El. { intros E; injection E as <- <-. now left. }
  destruct (_ || _); [discriminate|].
  destruct (posterior _ _ _) as [q| |] eqn:Eq; cbn [bind]; try discriminate.
  unfold set_existence. rewrite aset_ok by (rewrite Hl; exact Hix). cbn [bind].
  intros E; injection E as <- <-. right. exists i, q. auto.
Qed.

Lemma belief_upd d c q e : valid W c -> valid W e ->
  belief W (Detector (d_converter d) (aupd (d_existence d) (as_index W c) q)) e =
  if coord_eqb c e then q else belief W d e.
Proof.
  intros Hc He. unfold belief. cbn [d_existence].
  pose proof (as_index_que W c HW (proj1 Hc)). pose proof (as_index_que W e HW (proj1 He)).
  destruct (coord_eqb_spec c e) as [->|N].
  - apply araw_upd_same. lia.
  - apply araw_upd_other; [lia|lia|]. intros E. apply N. now apply (as_index_inj W).
Qed.

Lemma detect_latched d m s p i : alen (d_existence d) = EXISTENCE_ARRAY_LEN ->
  convert W (d_converter d) p = Ret (Some i) -> latched (belief W d (w_coord i)) = true ->
  detect_and_update W d m s p = Ret (d, None).
Proof.
  intros Hl Ec El. unfold detect_and_update. rewrite Ec. cbn [bind].
  pose proof (convert_valid _ _ _ Ec) as [Hb Ho].
  pose proof (as_index_que W _ HW Hb) as Hix.
  unfold wall_existence. rewrite aget_ok by (rewrite Hl; exact Hix). cbn [bind].
  fold (belief W d (w_coord i)). fold (latched (belief W d (w_coord i))). now rewrite El.
Qed.

(** a reading changes at most the wall it answers for. *)
Lemma detect_frame d m s p d' a : alen (d_existence d) = EXISTENCE_ARRAY_LEN ->
  detect_and_update W d m s p = Ret (d', a) ->
  d_converter d' = d_converter d /\ alen (d_existence d') = EXISTENCE_ARRAY_LEN /\
  (forall c, valid W c -> about c a = false -> belief W d' c = belief W d c) /\
  (forall c st, a = Some (c, st) -> valid W c /\ latched (belief W d c) = false /\ st = state_of (belief W d' c)).
Proof.
  intros Hl E. destruct (detect_inv _ _ _ _ _ _ Hl E) as [[-> ->]|(i & q & Ec & El & Eq & -> & ->)].
  - repeat split; auto; discriminate.
  - pose proof (convert_valid _ _ _ Ec) as Hv.
    split; [reflexivity|]. split; [exact Hl|]. split.
    + intros c Hc Ha. rewrite belief_upd by assumption. cbn [about] in Ha. now rewrite Ha.
    + intros c st E1. injection E1 as <- <-. split; [exact Hv|]. split; [exact El|].
      rewrite belief_upd by assumption. now destruct (coord_eqb_spec (w_coord i) (w_coord i)).
Qed.

Lemma latch rs : forall d d' l c, alen (d_existence d) = EXISTENCE_ARRAY_LEN -> valid W c ->
  latched (belief W d c) = true -> readings W d rs = Ret (d', l) ->
  belief W d' c = belief W d c /\ Forall (fun a => about c a = false) l.
Proof.
  induction rs as [|r rs IH]; intros d d' l c Hl Hc Hlat; cbn [readings].
  - intros E; injection E as <- <-. split; [reflexivity|constructor].
  - destruct (detect_and_update _ _ _ _ _) as [[d1 a]| |] eqn:E1; cbn [bind]; try discriminate.
    destruct (readings W d1 rs) as [[d2 l2]| |] eqn:E2; cbn [bind]; try discriminate.
    intros E; injection E as <- <-.
    destruct (detect_frame _ _ _ _ _ _ Hl E1) as (_ & Hl1 & Hfr & Hab).
    assert (Ha : about c a = false).
    { destruct a as [[c' st]|]; [|reflexivity]. cbn. destruct (coord_eqb_spec c' c) as [->|]; [|reflexivity].
      destruct (Hab c st eq_refl) as (_ & H & _). congruence. }
    rewrite <- (Hfr c Hc Ha) in Hlat.
    destruct (IH _ _ _ _ Hl1 Hc Hlat E2) as [Hb Hf]. split; [now rewrite Hb, Hfr|]. now constructor.
Qed.

Lemma keeps_converter rs : forall d d' l, alen (d_existence d) = EXISTENCE_ARRAY_LEN ->
  readings W d rs = Ret (d', l) -> d_converter d' = d_converter d.
Proof.
  induction rs as [|r rs IH]; intros d d' l Hl; cbn [readings].
  - intros E; injection E as <- <-. reflexivity.
  - destruct (detect_and_update _ _ _ _ _) as [[d1 a]| |] eqn:E1; cbn [bind]; try discriminate.
    destruct (readings W d1 rs) as [[d2 l2]| |] eqn:E2; cbn [bind]; try discriminate.
    intros E; injection E as <- <-.
    destruct (detect_frame _ _ _ _ _ _ Hl E1) as (F1 & Hl1 & _). rewrite <- F1. now apply (IH d1 d2 l2).
Qed.

(** ** with_walls *)

Definition target (s : wall_state) : num :=
  match s with Unchecked => prob_mid | Checked true => prob_one | Checked false => prob_zero end.

Definition Inv (st : coord -> wall_state) (D : coord -> Prop) (d : detector) : Prop :=
  d_converter d = converter_default /\ alen (d_existence d) = EXISTENCE_ARRAY_LEN /\
  forall c, valid W c -> D c -> belief W d c = target (st c).

Lemma with_walls_step_ok w st D d i j k : holds W w st -> 0 <= i < W -> 0 <= j < W -> k = 0 \/ k = 1 ->
  Inv st D d -> exists d', with_walls_step W w i j d k = Ret d' /\
    Inv st (fun c => D c \/ (cx c / 2 = i /\ cy c / 2 = j /\ cy c mod 2 = k)) d'.
Proof.
  intros [Hok Hst] Hi Hj Hk (I1 & I2 & I3). pose proof (supported_bounds W HW).
  assert (Hc : exists c, coord_unwrap W (Z.lor (as_u8 (Z.shiftl i 1)) (Z.land (1 + k) 1)) (Z.lor (as_u8 (Z.shiftl j 1)) k) = Ret c
    /\ valid W c /\ (forall e, valid W e -> cx e / 2 = i -> cy e / 2 = j -> cy e mod 2 = k -> e = c)).
  { rewrite !shiftl1, !as_u8_small by lia.
    destruct Hk as [-> | ->]; [change (Z.land (1 + 0) 1) with 1|change (Z.land (1 + 1) 1) with 0];
      rewrite Z.lor_0_r, lor1.
    - assert (V : valid W (Co (2 * i + 1) (2 * j))) by (now apply valid_right).
      rewrite coord_unwrap_ok by assumption. eexists; split; [reflexivity|]. split; [exact V|].
      intros e [_ Ho] Ex Ey Em. apply odd_mod in Ho. apply coord_ext; cbn; lia.
    - assert (V : valid W (Co (2 * i) (2 * j + 1))) by (now apply valid_top).
      rewrite coord_unwrap_ok by assumption. eexists; split; [reflexivity|]. split; [exact V|].
      intros e [_ Ho] Ex Ey Em. apply odd_mod in Ho. apply coord_ext; cbn; lia. }
  destruct Hc as (c & Ec & Hv & Hu). unfold with_walls_step. rewrite Ec. cbn [bind]. rewrite (Hst c Hv). cbn [bind].
  unfold set_existence.
  rewrite aset_ok by (rewrite I2; apply (as_index_que W c HW (proj1 Hv))). cbn [bind].
  fold (target (st c)). eexists. split; [reflexivity|].
  split; [exact I1|]. split; [exact I2|]. intros e He HD. rewrite belief_upd by assumption.
  destruct (coord_eqb_spec c e) as [->|N]; [reflexivity|].
  destruct HD as [HD|(H1 & H2 & H3)]; [now apply I3|]. exfalso. apply N. symmetry. now apply Hu.
Qed.

Lemma Inv_weaken st (D D' : coord -> Prop) d : (forall c, valid W c -> D' c -> D c) -> Inv st D d -> Inv st D' d.
Proof. intros H (I1 & I2 & I3). split; [exact I1|]. split; [exact I2|]. auto. Qed.

Lemma with_walls_ok w st : holds W w st ->
  exists d, with_walls W w = Ret d /\ Inv st (fun _ => True) d.
Proof.
  intros Hh. unfold with_walls.
  destruct (for_each_ok
    (fun d i => for_each (fun d j => for_each (with_walls_step W w i j) [0; 1] d) (range W) d)
    (fun pre d => Inv st (fun c => In (cx c / 2) pre) d) (range W) detector_new) as (d & E & HI).
  - split; [reflexivity|]. split; [reflexivity|]. intros c _ [].
  - intros pre i post d Epre HIo.
    assert (Hi : 0 <= i < W) by (apply in_range_inv; rewrite Epre; apply in_or_app; right; now left).
    destruct (for_each_ok (fun d j => for_each (with_walls_step W w i j) [0; 1] d)
      (fun prej d => Inv st (fun c => In (cx c / 2) pre \/ (cx c / 2 = i /\ In (cy c / 2) prej)) d) (range W) d)
      as (d1 & E1 & HI1).
    + eapply Inv_weaken; [|exact HIo]. intros c _ [H|[_ []]]. exact H.
    + intros prej j postj d2 Eprej HIj.
      assert (Hj : 0 <= j < W) by (apply in_range_inv; rewrite Eprej; apply in_or_app; right; now left).
      destruct (with_walls_step_ok w st _ d2 i j 0 Hh Hi Hj (or_introl eq_refl) HIj) as (d3 & E3 & HI3).
      destruct (with_walls_step_ok w st _ d3 i j 1 Hh Hi Hj (or_intror eq_refl) HI3) as (d4 & E4 & HI4).
      exists d4. cbn [for_each]. rewrite E3. cbn [bind]. rewrite E4. cbn [bind]. split; [reflexivity|].
      eapply Inv_weaken; [|exact HI4]. intros c _ [H|[H1 H2]]; [left; left; now left|].
      apply in_app_or in H2. destruct H2 as [H2|[H2|[]]]; [left; left; right; auto|].
      pose proof (Z.mod_pos_bound (cy c) 2 ltac:(lia)).
      destruct (Z.eq_dec (cy c mod 2) 0); [left; right; auto|right; repeat split; auto; lia].
    + exists d1. split; [exact E1|]. eapply Inv_weaken; [|exact HI1]. intros c [[_ Hb] _] H.
      apply in_app_or in H. destruct H as [H|[H|[]]]; [now left|]. right. split; [now symmetry|].
      apply in_range. pose proof (supported_bounds W HW). lia.
  - exists d. split; [exact E|]. eapply Inv_weaken; [|exact HI]. intros c [[Hb _] _] _.
    apply in_range. pose proof (supported_bounds W HW). lia.
Qed.

End Generic.
