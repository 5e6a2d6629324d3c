(** Node constructor, identifiers and geometry helpers of the run solver. *)
From Coq Require Import ZArith List Bool Lia Zify ZifyBool.
From Verif Require Import Base SearchModel SearchSpec SearchCoord RunModel RunSpec.
Import ListNotations.
Open Scope Z_scope.
Ltac Zify.zify_post_hook ::= Z.div_mod_to_equations.

Lemma land1 z : Z.land z 1 = z mod 2.
Proof. change 1 with (Z.ones 1). rewrite Z.land_ones by lia. reflexivity. Qed.

Lemma w2 W : supported W -> is_power_of_two W = true /\ as_u8 (Z.shiftl W 1) = 2 * W.
Proof. intros HW; destruct_supported HW; split; reflexivity. Qed.

Lemma rc_new_ok W x y : supported W ->
  rc_new W x y = if (x <? 2 * W) && (y <? 2 * W) then Some (x, y) else None.
Proof.
  intros HW. unfold rc_new. destruct (w2 W HW) as [-> ->]. cbn [negb orb].
  destruct (Z.leb_spec (2 * W) x), (Z.ltb_spec x (2 * W)), (Z.leb_spec (2 * W) y), (Z.ltb_spec y (2 * W));
  cbn; try lia; reflexivity.
Qed.

Lemma even_mod z : Z.even z = true <-> z mod 2 = 0.
Proof. rewrite Zmod_even. destruct (Z.even z); lia. Qed.
Lemma odd_add x y : Z.odd (x + y) = true <-> (x + y) mod 2 = 1.
Proof. apply odd_mod. Qed.

Lemma node_new_iff W x y p n : supported W -> 0 <= x < 256 -> 0 <= y < 256 ->
  (node_new W x y p = Some n <-> n = Nde x y p /\ valid_node W n).
Proof.
  intros HW Hx Hy. unfold node_new. rewrite rc_new_ok by assumption.
  unfold valid_node. rewrite !land1.
  assert (E : forall b : bool, (if b then Some (Nde x y p) else None) = Some n <-> n = Nde x y p /\ b = true).
  { intros []; split; intros H; [injection H as <-; auto|destruct H as [-> _]; reflexivity|discriminate|destruct H; discriminate]. }
  destruct ((x <? 2 * W) && (y <? 2 * W)) eqn:EB.
  - rewrite E. split; intros [-> H]; (split; [reflexivity|]); cbn [nx ny np] in *.
    + destruct (is_diag p); cbn [andb orb negb] in H; rewrite ?odd_mod, ?even_mod; lia.
    + destruct (is_diag p); cbn [andb orb negb] in *; rewrite ?odd_mod, ?even_mod in H; lia.
  - split; [discriminate|]. intros [-> H]. cbn [nx ny np] in H. lia.
Qed.

(** The number of the direction within its group. *)
Definition quarter (p : dir8) : Z := dir_num p / 2.

Lemma quarter_bound p : 0 <= quarter p <= 3.
Proof. destruct p; vm_compute; split; discriminate. Qed.

Lemma offs W : supported W -> y_offset W = Z.log2 (2 * W) /\ dir_offset W = 2 * Z.log2 (2 * W)
  /\ 2 ^ y_offset W = 2 * W /\ 2 ^ dir_offset W = 4 * W * W /\ 1 <= y_offset W <= 6 /\ 2 <= dir_offset W <= 12.
Proof. intros HW; destruct_supported HW; vm_compute; repeat split; try discriminate. Qed.

Lemma lor_add a b k : 0 <= k -> 0 <= a < 2 ^ k -> Z.lor a (Z.shiftl b k) = a + 2 ^ k * b.
Proof.
  intros Hk Ha.
  assert (E : Z.land a (Z.shiftl b k) = 0).
  { apply Z.bits_inj'. intros i Hi. rewrite Z.land_spec, Z.bits_0.
    destruct (Z.ltb_spec i k).
    - rewrite Z.shiftl_spec_low by lia. apply andb_false_r.
    - destruct (Z.eq_dec a 0) as [->|]; [rewrite Z.bits_0; reflexivity|].
      rewrite (Z.bits_above_log2 a i); [reflexivity|lia|].
      assert (Z.log2 a < k) by (apply Z.log2_lt_pow2; lia). lia. }
  rewrite <- (Z.lxor_lor _ _ E), <- (Z.add_nocarry_lxor _ _ E), Z.shiftl_mul_pow2 by lia. lia.
Qed.

Definition nidx (W : Z) (n : node) : Z := nx n + 2 * W * (ny n + 2 * W * quarter (np n)).

Lemma valid_bounds W n : supported W -> valid_node W n -> 0 <= nx n < 2 * W /\ 0 <= ny n < 2 * W /\ 2 <= 2 * W <= 64.
Proof. intros HW (A & B & _). pose proof (supported_bounds W HW). lia. Qed.

Lemma node_index_ok W n : supported W -> valid_node W n -> node_index W n = Ret (nidx W n).
Proof.
  intros HW Hv. unfold node_index.
  assert (Ed : (if Z.land (Z.lxor (nx n) (ny n)) 1 =? 1 then
       match np n with PNE => Ret 0 | PSE => Ret 1 | PSW => Ret 2 | PNW => Ret 3 | _ => Panic end
     else if Z.land (Z.lor (nx n) (ny n)) 1 =? 0 then
       match np n with PN => Ret 0 | PE => Ret 1 | PS => Ret 2 | PW => Ret 3 | _ => Panic end
     else Panic) = Ret (quarter (np n))).
  { destruct Hv as (_ & _ & H).
    rewrite !land1, !Zmod_odd, <- !Z.bit0_odd, Z.lxor_spec, Z.lor_spec, !Z.bit0_odd.
    destruct (np n); cbn [is_diag] in H;
    try (rewrite Z.odd_add in H; rewrite H; reflexivity);
    destruct H as [Hx Hy]; rewrite <- Z.negb_odd in Hx, Hy;
    destruct (Z.odd (nx n)), (Z.odd (ny n)); try discriminate; reflexivity. }
  rewrite Ed. cbn [bind].
  destruct (valid_bounds W n HW Hv) as (Hx & Hy & HB).
  destruct (offs W HW) as (_ & _ & E1 & E2 & B1 & B2).
  pose proof (quarter_bound (np n)) as Hq.
  rewrite (lor_add (nx n) (ny n)) by (rewrite ?E1; lia). rewrite E1.
  rewrite lor_add; [rewrite E2; unfold nidx; f_equal; lia|lia|].
  rewrite E2. split; [nia|]. nia.
Qed.

Lemma nidx_bound W n : supported W -> valid_node W n -> 0 <= nidx W n < RUN_MAX.
Proof.
  intros HW Hv. destruct (valid_bounds W n HW Hv) as (Hx & Hy & HB).
  pose proof (quarter_bound (np n)) as Hq. unfold nidx. change RUN_MAX with (64 * (64 * 4)).
  set (w := 2 * W) in *. clearbody w. nia.
Qed.

Definition nid (W : Z) (n : node) : Z := 2 * nidx W n + 1.

Lemma node_id_ok W n : supported W -> valid_node W n -> node_id W n = Ret (nid W n).
Proof.
  intros HW Hv. unfold node_id. rewrite node_index_ok by assumption. cbn [bind].
  pose proof (nidx_bound W n HW Hv) as HB. change RUN_MAX with 16384 in HB.
  rewrite (Z.mod_small (nidx W n)) by lia.
  rewrite Z.shiftl_mul_pow2 by lia. change (2 ^ 1) with 2.
  rewrite (Z.mod_small (nidx W n * 2)) by lia.
  rewrite Z.lor_comm. replace (nidx W n * 2) with (Z.shiftl (nidx W n) 1)
    by (rewrite Z.shiftl_mul_pow2 by lia; reflexivity).
  rewrite lor_add by lia. change (2 ^ 1) with 2. unfold nid.
  destruct (Z.eqb_spec (1 + 2 * nidx W n) 0); [lia|]. f_equal; lia.
Qed.

Lemma id_index_nid W n : id_index (nid W n) = nidx W n.
Proof. unfold id_index, nid. rewrite Z.shiftr_div_pow2 by lia. change (2 ^ 1) with 2. lia. Qed.

Lemma shl1 k : 0 <= k -> Z.shiftl 1 k - 1 = Z.ones k.
Proof. intros. rewrite Z.ones_equiv, Z.shiftl_mul_pow2 by lia. lia. Qed.

Lemma dir_of_quarter W n : valid_node W n ->
  (if Z.land (Z.lxor (nx n) (ny n)) 1 =? 1 then
     match quarter (np n) with 0 => Ret PNE | 1 => Ret PSE | 2 => Ret PSW | 3 => Ret PNW | _ => Panic end
   else if Z.land (Z.lor (nx n) (ny n)) 1 =? 0 then
     match quarter (np n) with 0 => Ret PN | 1 => Ret PE | 2 => Ret PS | 3 => Ret PW | _ => Panic end
   else Panic) = Ret (np n).
Proof.
  intros (_ & _ & H).
  rewrite !land1, !Zmod_odd, <- !Z.bit0_odd, Z.lxor_spec, Z.lor_spec, !Z.bit0_odd.
  destruct (np n); cbn [is_diag] in H;
  try (rewrite Z.odd_add in H; rewrite H; reflexivity);
  destruct H as [Hx Hy]; rewrite <- Z.negb_odd in Hx, Hy;
  destruct (Z.odd (nx n)), (Z.odd (ny n)); try discriminate; reflexivity.
Qed.

Lemma node_of_id_ok W n : supported W -> valid_node W n -> node_of_id W (nid W n) = Ret n.
Proof.
  intros HW Hv. unfold node_of_id.
  destruct (valid_bounds W n HW Hv) as (Hx & Hy & HB).
  destruct (offs W HW) as (_ & _ & E1 & E2 & B1 & B2).
  pose proof (quarter_bound (np n)) as Hq.
  pose proof (dir_of_quarter W n Hv) as Hd.
  change (Z.shiftr (nid W n) 1) with (id_index (nid W n)). rewrite id_index_nid.
  rewrite !shl1 by lia. rewrite !Z.land_ones by lia.
  rewrite !Z.shiftr_div_pow2 by lia.
  rewrite !Z.pow_add_r by lia. rewrite E1, E2. change (2 ^ 1) with 2.
  assert (Ex : nidx W n mod (2 * W) = nx n).
  { unfold nidx. rewrite (Z.mul_comm (2 * W)), Z.mod_add by lia. apply Z.mod_small; lia. }
  assert (Ey : nid W n mod (4 * W * W * 2) / (2 * (2 * W)) = ny n).
  { unfold nid, nidx. set (w := 2 * W) in *.
    replace (4 * W * W * 2) with (w * w * 2) by (subst w; lia).
    replace (2 * (nx n + w * (ny n + w * quarter (np n))) + 1)
      with (2 * nx n + 1 + 2 * w * ny n + quarter (np n) * (w * w * 2)) by lia.
    clearbody w. rewrite Z.mod_add by nia. rewrite Z.mod_small by nia.
    replace (2 * nx n + 1 + 2 * w * ny n) with (2 * nx n + 1 + ny n * (2 * w)) by lia.
    rewrite Z.div_add by lia. rewrite Z.div_small by lia. lia. }
  assert (Eq : nid W n / (2 * (4 * W * W)) = quarter (np n)).
  { unfold nid, nidx. set (w := 2 * W) in *.
    replace (2 * (4 * W * W)) with (w * w * 2) by (subst w; lia).
    replace (2 * (nx n + w * (ny n + w * quarter (np n))) + 1)
      with (2 * nx n + 1 + 2 * w * ny n + quarter (np n) * (w * w * 2)) by lia.
    clearbody w. rewrite Z.div_add by nia. rewrite Z.div_small by nia. lia. }
  rewrite Ex, Ey, Eq.
  unfold as_u8. rewrite (Z.mod_small (nx n) 256), (Z.mod_small (ny n) 256) by (clear - Hx Hy HB; lia).
  cbv zeta. rewrite Hd. cbn [bind]. destruct n; reflexivity.
Qed.

Lemma nid_inj W a b : supported W -> valid_node W a -> valid_node W b -> nid W a = nid W b -> a = b.
Proof.
  intros HW Ha Hb E. pose proof (node_of_id_ok W a HW Ha) as A. rewrite E, node_of_id_ok in A by assumption.
  congruence.
Qed.
Lemma nidx_inj W a b : supported W -> valid_node W a -> valid_node W b -> nidx W a = nidx W b -> a = b.
Proof. intros. apply (nid_inj W); auto. unfold nid. lia. Qed.

(** ** Geometry *)
Lemma chk_neg v : -127 <= v <= 127 -> chk_i8 (- v) = Ret (- v).
Proof. intros. apply chk_i8_ok. lia. Qed.

Lemma rot_ok n dx dy : -127 <= dx <= 127 -> -127 <= dy <= 127 ->
  exists a b, rot n dx dy = Ret (a, b) /\ Co (nx n + a) (ny n + b) = place n dx dy
    /\ -127 <= a <= 127 /\ -127 <= b <= 127.
Proof.
  intros Hx Hy. unfold rot, place.
  destruct (np n); cbn [to_right ahead fst snd]; rewrite ?chk_neg by lia; cbn [bind]; eexists _, _;
  (split; [reflexivity|]); (split; [f_equal; lia|lia]).
Qed.

Lemma rc_relative_ok W n a b : supported W -> valid_node W n -> -127 <= a <= 127 -> -127 <= b <= 127 ->
  rc_relative W (nx n) (ny n) a b =
  if board_b W (Co (nx n + a) (ny n + b)) then Some (nx n + a, ny n + b) else None.
Proof.
  intros HW Hv Ha Hb. destruct (valid_bounds W n HW Hv) as (Hx & Hy & HB).
  unfold rc_relative. rewrite !as_i8_small by lia. unfold checked_add_i8, board_b. cbn [cx cy].
  destruct ((-128 <=? nx n + a) && (nx n + a <=? 127)) eqn:E1.
  2:{ replace ((0 <=? nx n + a) && (0 <=? ny n + b) && (nx n + a <? 2 * W) && (ny n + b <? 2 * W)) with false by lia.
      reflexivity. }
  destruct ((-128 <=? ny n + b) && (ny n + b <=? 127)) eqn:E2.
  2:{ replace ((0 <=? nx n + a) && (0 <=? ny n + b) && (nx n + a <? 2 * W) && (ny n + b <? 2 * W)) with false by lia.
      reflexivity. }
  rewrite rc_new_ok by assumption.
  destruct (Z.ltb_spec (nx n + a) 0), (Z.ltb_spec (ny n + b) 0), (Z.leb_spec 0 (nx n + a)), (Z.leb_spec 0 (ny n + b));
  cbn [orb andb]; try lia; reflexivity.
Qed.

(** decidable [free]. *)
Definition freeb (W : Z) (open : coord -> bool) (n : node) (dx dy : Z) : bool :=
  board_b W (place n dx dy) && open (place n dx dy).
Definition onb (W : Z) (n : node) (dx dy : Z) : bool := board_b W (place n dx dy).

Lemma onb_iff W n dx dy : onb W n dx dy = true <-> on_board W (place n dx dy).
Proof. unfold onb. destruct (board_b_spec W (place n dx dy)); intuition; discriminate. Qed.

Lemma freeb_iff W open n dx dy : freeb W open n dx dy = true <-> free W open n dx dy.
Proof.
  unfold freeb, free. rewrite andb_true_iff, <- onb_iff. reflexivity.
Qed.

(** A wall callback that answers on wall positions. *)
Definition wall_ok (W : Z) (open : coord -> bool) (is_wall : coord -> res bool) : Prop :=
  forall c, valid W c -> is_wall c = Ret (negb (open c)).

Lemma cont_ok W open is_wall n dx dy : supported W -> wall_ok W open is_wall -> valid_node W n ->
  -127 <= dx <= 127 -> -127 <= dy <= 127 -> Z.odd (cx (place n dx dy) + cy (place n dx dy)) = true ->
  cont W is_wall n dx dy = Ret (freeb W open n dx dy).
Proof.
  intros HW Hok Hv Hx Hy Ho. unfold cont, freeb.
  destruct (rot_ok n dx dy Hx Hy) as (a & b & -> & Ep & Ha & Hb). cbn [bind fst snd].
  rewrite <- Ep in Ho |- *. rewrite rc_relative_ok by assumption. cbn [cx cy] in Ho.
  destruct (board_b_spec W (Co (nx n + a) (ny n + b))) as [On|]; [|reflexivity]. cbn [andb].
  unfold on_board in On. cbn [cx cy] in On.
  pose proof (supported_bounds W HW) as HB.
  rewrite !land1. rewrite odd_mod in Ho.
  destruct (((nx n + a) mod 2 =? 1) && ((ny n + b) mod 2 =? 0) || ((nx n + a) mod 2 =? 0) && ((ny n + b) mod 2 =? 1)) eqn:E; [|exfalso; clear - E Ho; lia].
  rewrite coord_new_spec by (assumption || lia).
  replace ((nx n + a <? 2 * W) && (ny n + b <? 2 * W) && Z.odd (nx n + a + (ny n + b))) with true.
  2:{ symmetry. rewrite !andb_true_iff, odd_mod. lia. }
  rewrite Hok; [cbn [bind]; rewrite negb_involutive; reflexivity|].
  split; [unfold on_board; cbn [cx cy]; lia|]. cbn [cx cy]. rewrite odd_mod. lia.
Qed.

(** The posture [t] eighths to the right of [p]. *)
Definition dir8_of (v : Z) : dir8 :=
  match v mod 8 with 0 => PN | 1 => PNE | 2 => PE | 3 => PSE | 4 => PS | 5 => PSW | 6 => PW | _ => PNW end.
Definition turn (p : dir8) (t : Z) : dir8 := dir8_of (dir_num p + t).

Lemma turned_iff p t q : turned p t q <-> q = turn p t.
Proof.
  unfold turned, turn, dir8_of. split.
  - intros H. destruct q; cbn [dir_num] in H;
    [assert (E : (dir_num p + t) mod 8 = 0) by lia|assert (E : (dir_num p + t) mod 8 = 1) by lia
    |assert (E : (dir_num p + t) mod 8 = 2) by lia|assert (E : (dir_num p + t) mod 8 = 3) by lia
    |assert (E : (dir_num p + t) mod 8 = 4) by lia|assert (E : (dir_num p + t) mod 8 = 5) by lia
    |assert (E : (dir_num p + t) mod 8 = 6) by lia|assert (E : (dir_num p + t) mod 8 = 7) by lia];
    rewrite E; reflexivity.
  - intros ->. pose proof (Z.mod_pos_bound (dir_num p + t) 8 ltac:(lia)) as HB.
    remember ((dir_num p + t) mod 8) as v eqn:Ev.
    assert (v = 0 \/ v = 1 \/ v = 2 \/ v = 3 \/ v = 4 \/ v = 5 \/ v = 6 \/ v = 7) as D by lia.
    destruct D as [E|[E|[E|[E|[E|[E|[E|E]]]]]]]; rewrite E; cbn [dir_num]; clear HB; lia.
Qed.

(** [rot_dir] turns by the direction given relative to the frame. *)
Lemma rot_dir_ok n dir : exists q, rot_dir n dir = Ret q /\ q = dir8_of (2 * quarter (np n) + dir_num dir).
Proof. unfold rot_dir. destruct (np n), dir; vm_compute; eexists; split; reflexivity. Qed.

Definition mk (n : node) (dx dy t : Z) : node :=
  Nde (cx (place n dx dy)) (cy (place n dx dy)) (turn (np n) t).

Lemma lands_iff W n dx dy t m : lands W n dx dy t m <-> onb W n dx dy = true /\ m = mk n dx dy t.
Proof.
  unfold lands. rewrite onb_iff, turned_iff. unfold mk.
  split; intros (A & B & C) || intros (A & B).
  - split; [exact A|]. destruct m as [x y p]. cbn [nx ny np] in *. rewrite <- B, C. reflexivity.
  - subst m. cbn [nx ny np]. split; [exact A|]. split; [|reflexivity].
    destruct (place n dx dy); reflexivity.
Qed.

(** [add], for the direction [dir] which is [t] to the right of the mouse's own. *)
Lemma add_ok W n acc dx dy dir kind t : supported W -> valid_node W n ->
  -127 <= dx <= 127 -> -127 <= dy <= 127 -> llen acc < NEIGHBOR_MAX ->
  dir_num dir = (t + if is_diag (np n) then 1 else 0) mod 8 ->
  add W n acc dx dy dir kind =
  Ret (onb W n dx dy, acc ++ if onb W n dx dy then [(mk n dx dy t, kind)] else []).
Proof.
  intros HW Hv Hx Hy Hl Hd. unfold add, onb, mk.
  destruct (rot_ok n dx dy Hx Hy) as (a & b & -> & Ep & Ha & Hb). cbn [bind fst snd].
  destruct (rot_dir_ok n dir) as (q & -> & ->). cbn [bind].
  rewrite rc_relative_ok by assumption. rewrite <- Ep.
  destruct (board_b W (Co (nx n + a) (ny n + b))); [|rewrite app_nil_r; reflexivity].
  rewrite vpush_ok by assumption. cbn [bind cx cy]. do 5 f_equal.
  unfold turn, dir8_of. rewrite Hd.
  replace ((2 * quarter (np n) + (t + (if is_diag (np n) then 1 else 0)) mod 8) mod 8)
    with ((dir_num (np n) + t) mod 8); [reflexivity|].
  destruct (np n); unfold quarter; cbn [dir_num is_diag]; lia.
Qed.
