(** Proofs about the packed wall map. *)
From Coq Require Import ZArith List Bool Lia ZifyBool Ascii String.
From Verif Require Import Base SearchModel SearchSpec SearchCoord WallsModel WallsSpec.
Import ListNotations.
Open Scope Z_scope.
Open Scope list_scope.
Ltac Zify.zify_post_hook ::= Z.div_mod_to_equations.

Ltac ifs := repeat match goal with |- context [if ?b then _ else _] =>
  let E := fresh "E" in destruct b eqn:E end; try reflexivity; exfalso; lia.

(** ** Bytes *)

Definition lane (b k : Z) : Z := Z.land (Z.shiftr b (Z.shiftl k 1)) 3.
Definition wr (b k v : Z) : Z :=
  Z.lor (Z.land b (255 - Z.shiftl 3 (Z.shiftl k 1))) (Z.shiftl v (Z.shiftl k 1)).

Definition lanes_check : bool :=
  forallb (fun b => forallb (fun k => forallb (fun v =>
    let r := wr b k v in
    (0 <=? r) && (r <? 256) && (0 <=? Z.land b (255 - Z.shiftl 3 (Z.shiftl k 1))) &&
    (Z.land b (255 - Z.shiftl 3 (Z.shiftl k 1)) <? 256) &&
    forallb (fun j => lane r j =? (if j =? k then v else lane b j)) (range 4))
    (range 4)) (range 4)) (range 256).

Lemma in_range n i : 0 <= i < n -> In i (range n).
Proof.
  intros H. unfold range. apply in_map_iff. exists (Z.to_nat i). split; [lia|].
  apply in_seq. lia.
Qed.

Lemma in_range_inv n i : In i (range n) -> 0 <= i < n.
Proof.
  unfold range. intros H. apply in_map_iff in H. destruct H as (k & <- & H).
  apply in_seq in H. lia.
Qed.

Lemma lanes_ok : lanes_check = true.
Proof. vm_compute. reflexivity. Qed.

Lemma wr_ok b k v j : 0 <= b < 256 -> 0 <= k < 4 -> 0 <= v < 4 -> 0 <= j < 4 ->
  0 <= wr b k v < 256 /\ lane (wr b k v) j = (if j =? k then v else lane b j) /\
  0 <= Z.land b (255 - Z.shiftl 3 (Z.shiftl k 1)) < 256.
Proof.
  intros Hb Hk Hv Hj. pose proof lanes_ok as H. unfold lanes_check in H.
  rewrite forallb_forall in H. specialize (H b (in_range _ _ Hb)).
  rewrite forallb_forall in H. specialize (H k (in_range _ _ Hk)).
  rewrite forallb_forall in H. specialize (H v (in_range _ _ Hv)).
  cbv zeta in H. rewrite !andb_true_iff, forallb_forall in H.
  destruct H as [[[[H1 H2] H3] H4] H5]. specialize (H5 j (in_range _ _ Hj)). lia.
Qed.

Lemma land3 i : Z.land i 3 = i mod 4.
Proof. change 3 with (Z.ones 2). rewrite Z.land_ones by lia. reflexivity. Qed.

Lemma shiftr2 i : Z.shiftr i 2 = i / 4.
Proof. rewrite Z.shiftr_div_pow2 by lia. reflexivity. Qed.

Definition decode (v : Z) : res wall_state :=
  if v =? 0 then Ret Unchecked else if v =? 1 then Ret (Checked false)
  else if v =? 3 then Ret (Checked true) else Panic.

Lemma decode_bits s : decode (state_bits s) = Ret s.
Proof. destruct s as [|[|]]; reflexivity. Qed.

Lemma idx512 W c : supported W -> on_board W c ->
  0 <= as_index W c / 4 < 512 /\ 0 <= as_index W c mod 4 < 4.
Proof.
  intros HW Hc. pose proof (as_index_que W c HW Hc) as H. change QUE_MAX with 2048 in H. lia.
Qed.

Lemma walls_state_eq W w c : supported W -> on_board W c -> walls_ok w ->
  walls_state W w c = decode (lane (araw w (as_index W c / 4)) (as_index W c mod 4)).
Proof.
  intros HW Hc [Hl _]. destruct (idx512 W c HW Hc).
  unfold walls_state, lane, decode. rewrite land3, shiftr2, aget_ok by lia. reflexivity.
Qed.

Lemma walls_update_eq W w c s : supported W -> on_board W c -> walls_ok w ->
  exists w', walls_update W w c s = Ret w' /\ alen w' = 512 /\
    forall i, 0 <= i -> araw w' i =
      if as_index W c / 4 =? i then wr (araw w i) (as_index W c mod 4) (state_bits s)
      else araw w i.
Proof.
  intros HW Hc [Hl _]. destruct (idx512 W c HW Hc) as [Hi _].
  unfold walls_update. rewrite land3, shiftr2, aget_ok by lia. cbn [bind].
  rewrite aset_ok by lia. cbn [bind]. rewrite aget_ok by (rewrite alen_upd; lia). cbn [bind].
  rewrite aset_ok by (rewrite alen_upd; lia).
  eexists; split; [reflexivity|]. split; [rewrite !alen_upd; exact Hl|].
  intros i Hi0. rewrite !araw_upd by lia.
  destruct (Z.eqb_spec (as_index W c / 4) i) as [E|E]; [|reflexivity].
  rewrite Z.eqb_refl. subst i. reflexivity.
Qed.

Lemma bits_range s : 0 <= state_bits s < 4.
Proof. destruct s as [|[|]]; cbn; lia. Qed.

Lemma walls_update_ok W w c s : supported W -> valid W c -> walls_ok w ->
  exists w', walls_update W w c s = Ret w' /\ walls_ok w' /\
    walls_state W w' c = Ret s /\
    (forall d, valid W d -> d <> c -> walls_state W w' d = walls_state W w d).
Proof.
  intros HW Hc Hw. destruct (walls_update_eq W w c s HW (proj1 Hc) Hw) as (w' & E & El & Hr).
  assert (Hw' : walls_ok w').
  { split; [exact El|]. intros i Hi. rewrite Hr by lia. destruct Hw as [_ Hb].
    destruct (idx512 W c HW (proj1 Hc)) as [_ Hm].
    destruct (Z.eqb_spec (as_index W c / 4) i); [|now apply Hb].
    apply (wr_ok _ _ _ 0); [apply Hb; lia|lia|apply bits_range|lia]. }
  exists w'. split; [exact E|]. split; [exact Hw'|].
  assert (Hall : forall d, valid W d -> walls_state W w' d =
    if coord_eqb d c then Ret s else walls_state W w d).
  { intros d Hd. rewrite (walls_state_eq W w' d HW (proj1 Hd) Hw').
    destruct (idx512 W c HW (proj1 Hc)) as [Hq Hm].
    destruct (idx512 W d HW (proj1 Hd)) as [Hq' Hm'].
    rewrite Hr by lia. destruct (coord_eqb_spec d c) as [->|Hn].
    - rewrite Z.eqb_refl. destruct Hw as [_ Hb].
      destruct (wr_ok (araw w (as_index W c / 4)) (as_index W c mod 4) (state_bits s)
        (as_index W c mod 4)) as (_ & -> & _); [apply Hb; lia|lia|apply bits_range|lia|].
      rewrite Z.eqb_refl. apply decode_bits.
    - rewrite (walls_state_eq W w d HW (proj1 Hd) Hw).
      assert (Hi : as_index W d <> as_index W c).
      { intros Ei. apply Hn. exact (as_index_inj W d c HW Hd Hc Ei). }
      destruct (Z.eqb_spec (as_index W c / 4) (as_index W d / 4)) as [Eq|_]; [|reflexivity].
      destruct Hw as [_ Hb].
      destruct (wr_ok (araw w (as_index W d / 4)) (as_index W c mod 4) (state_bits s)
        (as_index W d mod 4)) as (_ & -> & _); [apply Hb; lia|lia|apply bits_range|lia|].
      destruct (Z.eqb_spec (as_index W d mod 4) (as_index W c mod 4)) as [Em|_]; [|reflexivity].
      exfalso. lia. }
  split.
  - rewrite Hall by assumption. rewrite coord_eqb_refl. reflexivity.
  - intros d Hd Hn. rewrite Hall by assumption.
    destruct (coord_eqb_spec d c); [contradiction|reflexivity].
Qed.

Lemma holds_update W w st c s : supported W -> valid W c -> holds W w st ->
  exists w', walls_update W w c s = Ret w' /\ holds W w' (setst st c s).
Proof.
  intros HW Hc [Hw Hs]. destruct (walls_update_ok W w c s HW Hc Hw) as (w' & E & Hw' & Hsame & Hoth).
  exists w'. split; [exact E|]. split; [exact Hw'|]. intros d Hd. unfold setst.
  destruct (coord_eqb_spec d c) as [->|Hn]; [exact Hsame|].
  rewrite Hoth by assumption. now apply Hs.
Qed.

Lemma holds_ext W w st st' : (forall c, valid W c -> st c = st' c) -> holds W w st -> holds W w st'.
Proof. intros E [Hw Hs]. split; [exact Hw|]. intros c Hc. rewrite <- E by assumption. now apply Hs. Qed.

Lemma updates_ok W h : forall w, supported W -> walls_ok w -> Forall (fun e => valid W (fst e)) h ->
  exists w', walls_updates W w h = Ret w' /\ walls_ok w' /\
    forall c, valid W c ->
      walls_state W w' c = match find (fun e => coord_eqb (fst e) c) (rev h) with
                           | Some e => Ret (snd e) | None => walls_state W w c end.
Proof.
  induction h as [|[c s] h IH]; intros w HW Hw Hh.
  - exists w. split; [reflexivity|]. split; [exact Hw|]. intros; reflexivity.
  - inversion Hh as [|? ? Hc Hh']; subst. cbn in Hc.
    destruct (walls_update_ok W w c s HW Hc Hw) as (w1 & E & Hw1 & Hsame & Hoth).
    destruct (IH w1 HW Hw1 Hh') as (w' & E' & Hw' & Hst).
    exists w'. split; [cbn; rewrite E; exact E'|]. split; [exact Hw'|].
    intros d Hd. rewrite Hst by assumption. cbn [rev].
    assert (Hf : forall (l : list (coord * wall_state)) e, find (fun e => coord_eqb (fst e) d) (l ++ [e]) =
      match find (fun e => coord_eqb (fst e) d) l with Some x => Some x
      | None => if coord_eqb (fst e) d then Some e else None end).
    { clear. induction l as [|a l IH]; intros e; cbn.
      - destruct (coord_eqb (fst e) d); reflexivity.
      - destruct (coord_eqb (fst a) d); [reflexivity|apply IH]. }
    rewrite Hf. destruct (find _ (rev h)); [reflexivity|]. cbn [fst].
    destruct (coord_eqb_spec c d) as [->|Hn]; [exact Hsame|]. apply Hoth; congruence.
Qed.

(** ** The fresh map *)

Lemma coord_unwrap_ok W x y : supported W -> valid W (Co x y) -> coord_unwrap W x y = Ret (Co x y).
Proof.
  intros HW Hv. unfold coord_unwrap.
  pose proof (supported_bounds W HW). destruct Hv as [[Hx Hy] Ho]; cbn in Hx, Hy, Ho.
  rewrite coord_new_spec by (assumption || lia). rewrite Ho.
  destruct (Z.ltb_spec x (2 * W)), (Z.ltb_spec y (2 * W)); try lia. reflexivity.
Qed.

Lemma for_each_ok {A S} (body : S -> A -> res S) (P : list A -> S -> Prop) xs s :
  P [] s ->
  (forall pre x post s, xs = pre ++ x :: post -> P pre s ->
     exists s', body s x = Ret s' /\ P (pre ++ [x]) s') ->
  exists s', for_each body xs s = Ret s' /\ P xs s'.
Proof.
  intros H0 Hs.
  assert (G : forall post pre s, xs = pre ++ post -> P pre s ->
    exists s', for_each body post s = Ret s' /\ P xs s').
  { induction post as [|x post IH]; intros pre s1 E HP.
    - exists s1. rewrite app_nil_r in E. subst. split; [reflexivity|assumption].
    - destruct (Hs pre x post s1 E HP) as (s2 & E2 & HP2). cbn. rewrite E2. cbn.
      apply (IH (pre ++ [x])); [|assumption]. rewrite <- app_assoc. exact E. }
  exact (G xs [] s eq_refl H0).
Qed.

Lemma as_u8_small v : 0 <= v < 256 -> as_u8 v = v.
Proof. intros. unfold as_u8. apply Z.mod_small. assumption. Qed.

Lemma shiftl1 v : Z.shiftl v 1 = 2 * v.
Proof. rewrite Z.shiftl_mul_pow2 by lia. lia. Qed.

Lemma lor1 v : Z.lor (2 * v) 1 = 2 * v + 1.
Proof.
  rewrite <- shiftl1 at 1. rewrite lor_shift_add by lia. lia.
Qed.

Definition mem (x : Z) (l : list Z) : bool := existsb (Z.eqb x) l.
Definition bord (W : Z) (l : list Z) (c : coord) : wall_state :=
  if ((cx c =? 2 * W - 1) && mem (cy c / 2) l) || ((cy c =? 2 * W - 1) && mem (cx c / 2) l)
  then Checked true else Unchecked.

Lemma mem_app x l y : mem x (l ++ [y]) = mem x l || (x =? y).
Proof. unfold mem. rewrite existsb_app. cbn. rewrite orb_false_r. reflexivity. Qed.

Lemma mem_range x n : mem x (range n) = (0 <=? x) && (x <? n).
Proof.
  unfold mem. destruct (existsb (Z.eqb x) (range n)) eqn:E.
  - apply existsb_exists in E. destruct E as (y & Hy & E). apply in_range_inv in Hy. lia.
  - symmetry. destruct ((0 <=? x) && (x <? n)) eqn:E2; [|reflexivity].
    exfalso. assert (H : existsb (Z.eqb x) (range n) = true); [|congruence].
    apply existsb_exists. exists x. split; [apply in_range; lia|lia].
Qed.

Lemma holds_empty W : supported W -> holds W (anew WALL_ARRAY_LEN 0) (fun _ => Unchecked).
Proof.
  intros HW. assert (Hok : walls_ok (anew WALL_ARRAY_LEN 0)).
  { split; [reflexivity|]. intros. rewrite araw_new. lia. }
  split; [exact Hok|]. intros c Hc. rewrite walls_state_eq by (assumption || apply Hc).
  rewrite araw_new. unfold lane. rewrite Z.shiftr_0_l. reflexivity.
Qed.

Lemma valid_top W x y : 0 <= x < W -> 0 <= y < W -> valid W (Co (2 * x) (2 * y + 1)).
Proof.
  intros. split; [split; cbn; lia|]. cbn. apply odd_mod. lia.
Qed.

Lemma valid_right W x y : 0 <= x < W -> 0 <= y < W -> valid W (Co (2 * x + 1) (2 * y)).
Proof.
  intros. split; [split; cbn; lia|]. cbn. apply odd_mod. lia.
Qed.

Lemma valid_cases W c : valid W c -> exists x y, 0 <= x < W /\ 0 <= y < W /\
  (c = Co (2 * x) (2 * y + 1) \/ c = Co (2 * x + 1) (2 * y)).
Proof.
  destruct c as [a b]. intros [[H1 H2] H3]; cbn in *. rewrite odd_mod in H3.
  exists (a / 2), (b / 2). split; [lia|]. split; [lia|].
  destruct (Z.eq_dec (a mod 2) 0); [left|right]; f_equal; lia.
Qed.

Lemma coord_eqb_co a b c d : coord_eqb (Co a b) (Co c d) = (a =? c) && (b =? d).
Proof. reflexivity. Qed.

Lemma border_step_ok W w i pre : supported W -> 0 <= i < W -> holds W w (bord W pre) ->
  exists w', border_step W w i = Ret w' /\ holds W w' (bord W (pre ++ [i])).
Proof.
  intros HW Hi Hw. pose proof (supported_bounds W HW) as HB. unfold border_step.
  rewrite chk_u8_ok by lia. cbn [bind]. rewrite !shiftl1, !as_u8_small, lor1 by lia.
  rewrite coord_unwrap_ok by (assumption || apply valid_right; lia). cbn [bind].
  destruct (holds_update W w _ (Co (2 * (W - 1) + 1) (2 * i)) (Checked true) HW
    (valid_right W (W - 1) i ltac:(lia) Hi) Hw) as (w1 & -> & H1). cbn [bind].
  rewrite coord_unwrap_ok by (assumption || apply valid_top; lia). cbn [bind].
  destruct (holds_update W w1 _ (Co (2 * i) (2 * (W - 1) + 1)) (Checked true) HW
    (valid_top W i (W - 1) Hi ltac:(lia)) H1) as (w2 & -> & H2).
  exists w2. split; [reflexivity|]. revert H2. apply holds_ext. intros c Hc.
  destruct (valid_cases W c Hc) as (x & y & Hx & Hy & [-> | ->]); unfold setst, bord;
    rewrite !coord_eqb_co, !mem_app; cbn [cx cy].
  - replace (2 * x / 2) with x by lia. replace ((2 * y + 1) / 2) with y by lia.
    destruct (mem x pre), (mem y pre); ifs.
  - replace (2 * y / 2) with y by lia. replace ((2 * x + 1) / 2) with x by lia.
    destruct (mem x pre), (mem y pre); ifs.
Qed.

Lemma walls_new_ok W : supported W -> exists w, walls_new W = Ret w /\ holds W w (fresh W).
Proof.
  intros HW. pose proof (supported_bounds W HW) as HB. unfold walls_new.
  destruct (for_each_ok (border_step W) (fun pre w => holds W w (bord W pre)) (range W)
    (anew WALL_ARRAY_LEN 0)) as (w & -> & Hw).
  - eapply holds_ext; [|apply holds_empty, HW]. intros c _. unfold bord. cbn.
    rewrite !andb_false_r. reflexivity.
  - intros pre x post s E Hs. apply border_step_ok; [assumption| |assumption].
    apply in_range_inv. rewrite E. apply in_elt.
  - cbn [bind]. change 1 with (2 * 0 + 1) at 1. change 0 with (2 * 0) at 2.
    rewrite coord_unwrap_ok by (assumption || apply valid_right; lia). cbn [bind].
    destruct (holds_update W w _ (Co (2 * 0 + 1) (2 * 0)) (Checked true) HW
      (valid_right W 0 0 ltac:(lia) ltac:(lia)) Hw) as (w1 & -> & H1). cbn [bind].
    change 1 with (2 * 0 + 1) at 1. change 0 with (2 * 0) at 1.
    rewrite coord_unwrap_ok by (assumption || apply valid_top; lia). cbn [bind].
    destruct (holds_update W w1 _ (Co (2 * 0) (2 * 0 + 1)) (Checked false) HW
      (valid_top W 0 0 ltac:(lia) ltac:(lia)) H1) as (w2 & -> & H2).
    exists w2. split; [reflexivity|]. revert H2. apply holds_ext. intros c Hc.
    destruct (valid_cases W c Hc) as (x & y & Hx & Hy & [-> | ->]); unfold setst, bord, fresh;
      rewrite !coord_eqb_co, !mem_range; cbn [cx cy]; ifs.
Qed.

(** ** Byte form *)

Lemma araw_fill bs : forall a k i, 0 <= k -> 0 <= i ->
  araw (fill a k bs) i =
  if (k <=? i) && (i <? k + llen bs) then nth (Z.to_nat (i - k)) bs 0 else araw a i.
Proof.
  induction bs as [|b bs IH]; intros a k i Hk Hi; cbn [fill].
  - replace (llen (@nil Z)) with 0 by reflexivity.
    destruct ((k <=? i) && (i <? k + 0)) eqn:E; [lia|reflexivity].
  - rewrite IH by lia. unfold llen in *; cbn [Datatypes.length].
    rewrite araw_upd by lia.
    destruct (Z.eqb_spec k i) as [->|Hn].
    + replace (Z.to_nat (i - i)) with O by lia. cbn [nth].
      destruct ((i + 1 <=? i) && (i <? i + 1 + Z.of_nat (Datatypes.length bs))) eqn:E1; [lia|].
      destruct ((i <=? i) && (i <? i + Z.of_nat (S (Datatypes.length bs)))) eqn:E2; [reflexivity|lia].
    + destruct ((k + 1 <=? i) && (i <? k + 1 + Z.of_nat (Datatypes.length bs))) eqn:E1;
      destruct ((k <=? i) && (i <? k + Z.of_nat (S (Datatypes.length bs)))) eqn:E2; try lia.
      replace (Z.to_nat (i - k)) with (S (Z.to_nat (i - (k + 1)))) by lia. reflexivity.
Qed.

Lemma alen_fill bs : forall a k, alen (fill a k bs) = alen a.
Proof. induction bs as [|b bs IH]; intros; cbn [fill]; [reflexivity|]. rewrite IH. reflexivity. Qed.

Lemma as_bytes_len w : walls_ok w -> llen (walls_as_bytes w) = 512.
Proof.
  intros [Hl _]. unfold walls_as_bytes, llen. rewrite map_length, seq_length, Hl. reflexivity.
Qed.

Lemma as_bytes_nth w i : walls_ok w -> 0 <= i < 512 ->
  nth (Z.to_nat i) (walls_as_bytes w) 0 = araw w i.
Proof.
  intros [Hl _] Hi. unfold walls_as_bytes.
  set (f := fun i => araw w (Z.of_nat i)).
  rewrite (nth_indep _ 0 (f O)) by (rewrite map_length, seq_length; lia).
  rewrite map_nth, seq_nth by lia. unfold f. f_equal. lia.
Qed.

Lemma try_from_ok bs w : walls_try_from bs = Some w ->
  llen bs = 512 /\ alen w = 512 /\ walls_as_bytes w = bs /\
  forall i, 0 <= i < 512 -> araw w i = nth (Z.to_nat i) bs 0.
Proof.
  unfold walls_try_from. change WALL_ARRAY_LEN with 512.
  destruct (Z.eqb_spec (llen bs) 512) as [E|]; [|discriminate].
  intros H; injection H as <-. split; [exact E|]. split; [apply alen_fill|].
  assert (Hn : forall i, 0 <= i < 512 -> araw (fill (anew 512 0) 0 bs) i = nth (Z.to_nat i) bs 0).
  { intros i Hi. rewrite araw_fill, E by lia.
    destruct ((0 <=? i) && (i <? 0 + 512)) eqn:E2; [|lia]. f_equal; lia. }
  split; [|exact Hn].
  unfold walls_as_bytes. rewrite alen_fill. cbn [alen anew].
  apply (nth_ext _ _ 0 0).
  - rewrite map_length, seq_length. unfold llen in E. lia.
  - intros n Hlt. rewrite map_length, seq_length in Hlt.
    set (f := fun i => araw (fill (anew 512 0) 0 bs) (Z.of_nat i)).
    rewrite (nth_indep _ 0 (f O)) by (rewrite map_length, seq_length; lia).
    rewrite map_nth, seq_nth by lia. unfold f. rewrite Hn by lia. f_equal. lia.
Qed.

Lemma try_from_walls W w : supported W -> walls_ok w ->
  exists w', walls_try_from (walls_as_bytes w) = Some w' /\
    walls_as_bytes w' = walls_as_bytes w /\ walls_ok w' /\
    forall c, valid W c -> walls_state W w' c = walls_state W w c.
Proof.
  intros HW Hw. pose proof (as_bytes_len w Hw) as El.
  destruct (walls_try_from (walls_as_bytes w)) as [w'|] eqn:E.
  - destruct (try_from_ok _ _ E) as (_ & Hl & Eb & Hr). exists w'.
    assert (Hs : forall i, 0 <= i < 512 -> araw w' i = araw w i).
    { intros i Hi. rewrite Hr, as_bytes_nth by assumption. reflexivity. }
    assert (Hw' : walls_ok w').
    { split; [exact Hl|]. intros i Hi. rewrite Hs by assumption. now apply Hw. }
    split; [reflexivity|]. split; [exact Eb|]. split; [exact Hw'|].
    intros c Hc. rewrite !walls_state_eq by (assumption || apply Hc).
    destruct (idx512 W c HW (proj1 Hc)). rewrite Hs by lia. reflexivity.
  - unfold walls_try_from in E. change WALL_ARRAY_LEN with 512 in E.
    destruct (Z.eqb_spec (llen (walls_as_bytes w)) 512); [discriminate|contradiction].
Qed.
