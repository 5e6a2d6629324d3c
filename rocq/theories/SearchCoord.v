(** Facts about coordinates, storage indices, bit filters and relative moves. *)
From Coq Require Import ZArith List Bool Lia ZifyBool.
From Verif Require Import Base SearchModel SearchSpec.
Import ListNotations.
Open Scope Z_scope.
Ltac Zify.zify_post_hook ::= Z.div_mod_to_equations.

Ltac destruct_supported H :=
  destruct H as [->|[->|[->|[->|[->| ->]]]]].

Lemma supported_bounds W : supported W -> 1 <= W <= 32.
Proof. intros H; destruct_supported H; lia. Qed.

Lemma coord_eta c : c = Co (cx c) (cy c).
Proof. destruct c; reflexivity. Qed.

Lemma coord_ext a b : cx a = cx b -> cy a = cy b -> a = b.
Proof. destruct a, b; simpl; congruence. Qed.

Lemma coord_eqb_spec a b : reflect (a = b) (coord_eqb a b).
Proof.
  unfold coord_eqb. destruct (Z.eqb_spec (cx a) (cx b)), (Z.eqb_spec (cy a) (cy b)); simpl;
    constructor; try congruence; now apply coord_ext.
Qed.

Lemma coord_eqb_refl a : coord_eqb a a = true.
Proof. destruct (coord_eqb_spec a a); congruence. Qed.

Lemma coord_eq_dec (a b : coord) : {a = b} + {a <> b}.
Proof. destruct (coord_eqb_spec a b); [left|right]; assumption. Qed.

Lemma is_top_odd c : is_top c = Z.odd (cy c).
Proof.
  unfold is_top. rewrite land_1_mod, Zmod_odd. destruct (Z.odd (cy c)); reflexivity.
Qed.

Lemma odd_mod z : Z.odd z = true <-> z mod 2 = 1.
Proof. rewrite Zmod_odd. destruct (Z.odd z); split; congruence. Qed.

Lemma odd_mod_false z : Z.odd z = false <-> z mod 2 = 0.
Proof. rewrite Zmod_odd. destruct (Z.odd z); split; congruence. Qed.

(** Arithmetic form of the storage index. *)
Lemma as_index_arith W c : supported W ->
  as_index W c = (cy c / 2) * (2 * W) + (cx c / 2) * 2 + cy c mod 2
  \/ ~ on_board W c.
Proof.
  intros HW. destruct c as [x y].
  destruct (Z_lt_dec x 0); [right; unfold on_board; cbn [cx cy]; lia|].
  destruct (Z_lt_dec y 0); [right; unfold on_board; cbn [cx cy]; lia|].
  destruct (Z_lt_dec x (2 * W)); [|right; unfold on_board; cbn [cx cy]; lia].
  left.
  unfold as_index; cbn [cx cy].
  rewrite !shiftr_1_div, land_1_mod.
  assert (E : forall t, 2 ^ (t + 1) = 2 * W -> 0 <= t ->
     Z.lor (Z.lor (Z.shiftl (y / 2) (t + 1)) (Z.shiftl (x / 2) 1)) (y mod 2)
     = y / 2 * (2 * W) + x / 2 * 2 + y mod 2).
  { intros t Ht Ht0.
    rewrite <- Z.lor_assoc.
    rewrite (lor_shift_add (x / 2) (y mod 2) 1) by (change (2 ^ 1) with 2; lia).
    change (2 ^ 1) with 2.
    rewrite lor_shift_add; [rewrite Ht; lia| lia |].
    rewrite Ht. lia. }
  unfold trailing_zeros.
  destruct_supported HW; apply E; try (vm_compute; congruence); lia.
Qed.

Lemma as_index_eq W c : supported W -> on_board W c ->
  as_index W c = (cy c / 2) * (2 * W) + (cx c / 2) * 2 + cy c mod 2.
Proof. intros HW Hc. destruct (as_index_arith W c HW); [assumption|contradiction]. Qed.

Lemma as_index_bound W c : supported W -> on_board W c -> 0 <= as_index W c < 2 * W * W.
Proof.
  intros HW Hc. rewrite as_index_eq by assumption.
  destruct c as [x y]; unfold on_board in Hc; cbn [cx cy] in *.
  destruct_supported HW; lia.
Qed.

Lemma as_index_que W c : supported W -> on_board W c -> 0 <= as_index W c < QUE_MAX.
Proof.
  intros HW Hc. pose proof (as_index_bound W c HW Hc) as H.
  unfold QUE_MAX, WIDTH. destruct_supported HW; lia.
Qed.

Lemma as_index_inj W a b : supported W -> valid W a -> valid W b ->
  as_index W a = as_index W b -> a = b.
Proof.
  intros HW [Ha Pa] [Hb Pb] E.
  rewrite !as_index_eq in E by assumption.
  apply odd_mod in Pa. apply odd_mod in Pb.
  destruct a as [x y], b as [u v]; unfold on_board in *; cbn [cx cy] in *.
  assert (x = u /\ y = v) as [-> ->]; [|reflexivity].
  destruct_supported HW; lia.
Qed.

Lemma as_index_surj W i : supported W -> 0 <= i < 2 * W * W ->
  exists c, valid W c /\ as_index W c = i.
Proof.
  intros HW Hi.
  set (k := i mod 2). set (x := (i / 2) mod W). set (y := i / (2 * W)).
  exists (Co (2 * x + (1 - k)) (2 * y + k)).
  assert (Hk : 0 <= k < 2) by (subst k; lia).
  pose proof (supported_bounds W HW) as HB.
  assert (Hx : 0 <= x < W) by (apply Z.mod_pos_bound; lia).
  assert (Hy : 0 <= y < W).
  { split; [apply Z.div_pos; lia|apply Z.div_lt_upper_bound; [lia|apply Hi]]. }
  assert (Hv : valid W (Co (2 * x + (1 - k)) (2 * y + k))).
  { split; [unfold on_board; cbn [cx cy]; lia|]. apply odd_mod. simpl. lia. }
  split; [exact Hv|].
  rewrite as_index_eq by (assumption || apply Hv). simpl.
  replace ((2 * y + k) / 2) with y by lia.
  replace ((2 * x + (1 - k)) / 2) with x by lia.
  replace ((2 * y + k) mod 2) with k by lia.
  subst x y k. destruct_supported HW; lia.
Qed.

(** [Coordinate::new]. *)
Lemma coord_new_spec W x y : supported W -> 0 <= x < 256 -> 0 <= y < 256 ->
  coord_new W x y = if (x <? 2 * W) && (y <? 2 * W) && Z.odd (x + y)
                    then Some (Co x y) else None.
Proof.
  intros HW Hx Hy. unfold coord_new.
  assert (Hp : is_power_of_two W = true /\ as_u8 (Z.shiftl W 1) = 2 * W)
    by (destruct_supported HW; split; reflexivity).
  destruct Hp as [-> ->]. simpl negb.
  rewrite land_1_mod.
  assert (Hodd : (Z.lxor x y mod 2 =? 0) = negb (Z.odd (x + y))).
  { rewrite Zmod_odd, <- Z.bit0_odd, Z.lxor_spec, !Z.bit0_odd, Z.odd_add.
    destruct (xorb (Z.odd x) (Z.odd y)); reflexivity. }
  rewrite Hodd.
  destruct (Z.leb_spec (2 * W) x), (Z.ltb_spec x (2 * W)),
    (Z.leb_spec (2 * W) y), (Z.ltb_spec y (2 * W)), (Z.odd (x + y)); simpl; try lia; reflexivity.
Qed.

(** ** Relative moves *)

Lemma checked_add_i8_ok a b : -128 <= a + b <= 127 -> checked_add_i8 a b = Some (a + b).
Proof.
  intros H; unfold checked_add_i8.
  destruct (Z.leb_spec (-128) (a + b)), (Z.leb_spec (a + b) 127); simpl; try reflexivity; lia.
Qed.

Definition board_b (W : Z) (c : coord) : bool :=
  (0 <=? cx c) && (0 <=? cy c) && (cx c <? 2 * W) && (cy c <? 2 * W).

Lemma board_b_spec W c : reflect (on_board W c) (board_b W c).
Proof.
  apply iff_reflect. unfold board_b, on_board. lia.
Qed.

Lemma as_i8_small v : 0 <= v < 128 -> as_i8 v = v.
Proof. intros H; unfold as_i8. destruct (Z.ltb_spec v 128); lia. Qed.

Lemma new_relative_ok W c dx dy : supported W -> on_board W c -> -64 <= dx <= 64 -> -64 <= dy <= 64 ->
  new_relative W c dx dy =
  Ret (if board_b W (Co (cx c + dx) (cy c + dy)) then Some (Co (cx c + dx) (cy c + dy)) else None).
Proof.
  intros HW Hc Hdx Hdy. unfold new_relative.
  pose proof (supported_bounds W HW) as HB. unfold on_board in Hc.
  rewrite (as_i8_small (cx c)), (as_i8_small (cy c)), (as_i8_small W) by lia.
  rewrite !checked_add_i8_ok by lia.
  unfold board_b; simpl cx; simpl cy.
  destruct (W =? 64) eqn:E64; [lia|].
  rewrite chk_i8_ok by lia. simpl bind.
  destruct (Z.ltb_spec (cx c + dx) 0), (Z.ltb_spec (cy c + dy) 0), (Z.leb_spec 0 (cx c + dx)),
    (Z.leb_spec 0 (cy c + dy)); simpl; try lia; try reflexivity;
  destruct (Z.leb_spec (2 * W) (cx c + dx)), (Z.leb_spec (2 * W) (cy c + dy)),
    (Z.ltb_spec (cx c + dx) (2 * W)), (Z.ltb_spec (cy c + dy) (2 * W)); simpl; try lia; reflexivity.
Qed.

(** ** Filters *)

Definition fbit (W : Z) (f : filter) (c : coord) : bool :=
  Z.testbit (araw f (as_index W c / 8)) (as_index W c mod 8).

Definition filter_ok (f : filter) : Prop := alen f = FIL_LEN.

Lemma land7 i : Z.land i 7 = i mod 8.
Proof. change 7 with (Z.ones 3). rewrite Z.land_ones by lia. reflexivity. Qed.

Lemma shiftr3 i : Z.shiftr i 3 = i / 8.
Proof. rewrite Z.shiftr_div_pow2 by lia. reflexivity. Qed.

Lemma filter_idx_ok W c (f : filter) : supported W -> on_board W c -> filter_ok f ->
  0 <= as_index W c / 8 < alen f.
Proof.
  intros HW Hc Hf. rewrite Hf. pose proof (as_index_que W c HW Hc).
  unfold FIL_LEN, QUE_MAX, WIDTH in *. lia.
Qed.

Lemma filter_contains_ok W f c : supported W -> on_board W c -> filter_ok f ->
  filter_contains W f c = Ret (fbit W f c).
Proof.
  intros HW Hc Hf. unfold filter_contains. rewrite shiftr3, land7.
  rewrite aget_ok by now apply filter_idx_ok. simpl. f_equal.
  unfold fbit. rewrite land_1_mod, Zmod_odd, <- Z.bit0_odd, Z.shiftr_spec by lia.
  rewrite Z.add_0_l. destruct (Z.testbit _ _); reflexivity.
Qed.

Lemma filter_set_ok W f c : supported W -> on_board W c -> filter_ok f ->
  exists f', filter_set W f c = Ret f' /\ filter_ok f' /\
  forall d, on_board W d -> fbit W f' d = (as_index W c =? as_index W d) || fbit W f d.
Proof.
  intros HW Hc Hf. unfold filter_set. rewrite shiftr3, land7.
  pose proof (filter_idx_ok W c f HW Hc Hf) as Hi.
  rewrite aget_ok by assumption. simpl bind. rewrite aset_ok by assumption.
  eexists; split; [reflexivity|]. split; [exact Hf|].
  intros d Hd. unfold fbit.
  pose proof (filter_idx_ok W d f HW Hd Hf) as Hj.
  set (i := as_index W c) in *. set (j := as_index W d) in *.
  rewrite araw_upd by lia.
  destruct (Z.eqb_spec (i / 8) (j / 8)) as [E|E].
  - rewrite Z.lor_spec.
    rewrite Z.shiftl_spec by lia.
    rewrite <- E.
    destruct (Z.eqb_spec i j) as [->|Hn].
    + rewrite Z.sub_diag. simpl. apply orb_true_r.
    + replace (Z.testbit 1 (j mod 8 - i mod 8)) with false; [simpl; now rewrite orb_false_r|].
      symmetry. destruct (Z.lt_ge_cases (j mod 8 - i mod 8) 0).
      * now apply Z.testbit_neg_r.
      * apply Z.bits_above_log2; simpl; lia.
  - destruct (Z.eqb_spec i j) as [->|Hn]; [congruence|reflexivity].
Qed.

Lemma filter_new_ok : filter_ok filter_new.
Proof. reflexivity. Qed.

Lemma fbit_new W c : fbit W filter_new c = false.
Proof. unfold fbit, filter_new. rewrite araw_new. apply Z.testbit_0_l. Qed.

Lemma filter_set_all_ok W cs f : supported W -> Forall (valid W) cs -> filter_ok f ->
  exists f', filter_set_all W f cs = Ret f' /\ filter_ok f' /\
  forall d, valid W d -> (fbit W f' d = true <-> In d cs \/ fbit W f d = true).
Proof.
  intros HW. revert f. induction cs as [|c cs IH]; intros f Hcs Hf; simpl.
  - exists f. repeat split; auto; tauto.
  - inversion_clear Hcs as [|? ? Hc Hcs'].
    destruct (filter_set_ok W f c HW (proj1 Hc) Hf) as (f1 & -> & Hf1 & B1). simpl.
    destruct (IH f1 Hcs' Hf1) as (f2 & E2 & Hf2 & B2).
    exists f2. split; [exact E2|]. split; [exact Hf2|].
    intros d Hd. rewrite (B2 d Hd), (B1 d (proj1 Hd)), orb_true_iff, Z.eqb_eq.
    split.
    + intros [H|[H|H]]; auto. left; left. now apply (as_index_inj W).
    + intros [[->|H]|H]; auto.
Qed.

Lemma filter_with_coord_ok W cs : supported W -> Forall (valid W) cs ->
  exists f, filter_with_coord W cs = Ret f /\ filter_ok f /\
  forall d, valid W d -> (fbit W f d = true <-> In d cs).
Proof.
  intros HW Hcs. destruct (filter_set_all_ok W cs filter_new HW Hcs filter_new_ok) as (f & E & Hf & B).
  exists f. split; [exact E|]. split; [exact Hf|].
  intros d Hd. rewrite (B d Hd), fbit_new. intuition congruence.
Qed.
