(** Shared vocabulary: the panic monad, machine-integer conversions, fixed-size
    arrays and fixed-capacity vectors.  Nothing in this file models a particular
    Rust function; it fixes the meaning of Rust primitives used by the models. *)
From Coq Require Import ZArith List Bool Lia.
Import ListNotations.
Open Scope Z_scope.

#[global] Arguments Z.mul : simpl never.
#[global] Arguments Z.add : simpl never.
#[global] Arguments Z.sub : simpl never.
#[global] Arguments Z.opp : simpl never.
#[global] Arguments Z.div : simpl never.
#[global] Arguments Z.modulo : simpl never.
#[global] Arguments Z.pow : simpl never.
#[global] Arguments Z.shiftl : simpl never.
#[global] Arguments Z.shiftr : simpl never.
#[global] Arguments Z.land : simpl never.
#[global] Arguments Z.lor : simpl never.
#[global] Arguments Z.testbit : simpl never.
#[global] Arguments Z.ltb : simpl never.
#[global] Arguments Z.leb : simpl never.
#[global] Arguments Z.eqb : simpl never.
#[global] Arguments Z.odd : simpl never.
#[global] Arguments Z.of_nat : simpl never.
#[global] Arguments Z.to_nat : simpl never.

(** Result of running Rust code: a value, a panic, or "the model's loop fuel was
    exhausted" (never a normal-looking value; the theorems exclude it). *)
Inductive res (A : Type) : Type :=
| Ret (a : A)
| Panic
| Fuel.
Arguments Ret {A} a.
Arguments Panic {A}.
Arguments Fuel {A}.

(** sequencing: the rest is not run after a panic (any function of search.rs, run.rs, wall.rs). *)
Definition bind {A B} (m : res A) (k : A -> res B) : res B :=
  match m with Ret a => k a | Panic => Panic | Fuel => Fuel end.

Declare Scope res_scope.
Delimit Scope res_scope with res.
Notation "'let*' x ':=' m 'in' k" := (bind m (fun x => k))
  (at level 200, x pattern, m at level 100, k at level 200, right associativity) : res_scope.
Open Scope res_scope.

Lemma bind_ret {A B} (a : A) (k : A -> res B) : bind (Ret a) k = k a.
Proof. reflexivity. Qed.

(** ** Machine integers *)

(** [v as u8], e.g. search.rs 252-253. *)
Definition as_u8 (v : Z) : Z := v mod 256.
(** [v as i8] for [v : u8], e.g. search.rs 170-171, 246-248. *)
Definition as_i8 (v : Z) : Z := if v <? 128 then v else v - 256.
(** Result of an i8 operation with debug overflow check, e.g. search.rs 170-171, 248. *)
Definition chk_i8 (v : Z) : res Z :=
  if (-128 <=? v) && (v <=? 127) then Ret v else Panic.
(** [i8::checked_add], search.rs 246-247, run.rs 60-61. *)
Definition checked_add_i8 (a b : Z) : option Z :=
  let v := a + b in if (-128 <=? v) && (v <=? 127) then Some v else None.
(** Result of a u8 operation with debug overflow check, e.g. run.rs 199-201. *)
Definition chk_u8 (v : Z) : res Z :=
  if (0 <=? v) && (v <=? 255) then Ret v else Panic.

Lemma chk_i8_ok v : -128 <= v <= 127 -> chk_i8 v = Ret v.
Proof.
  intros H; unfold chk_i8.
  destruct (Z.leb_spec (-128) v), (Z.leb_spec v 127); simpl; try reflexivity; lia.
Qed.

Lemma chk_u8_ok v : 0 <= v <= 255 -> chk_u8 v = Ret v.
Proof.
  intros H; unfold chk_u8.
  destruct (Z.leb_spec 0 v), (Z.leb_spec v 255); simpl; try reflexivity; lia.
Qed.

(** ** Fixed-size arrays [[A; n]] with bounds-checked indexing, e.g. search.rs 304-306, wall.rs 475 *)

(** the content of an array, by position (no code counterpart). *)
Inductive tree (A : Type) : Type :=
| Leaf
| Nd (l : tree A) (o : option A) (r : tree A).
Arguments Leaf {A}.
Arguments Nd {A} l o r.

(** see [tree] (no code counterpart). *)
Fixpoint tget {A} (p : positive) (t : tree A) : option A :=
  match t with
  | Leaf => None
  | Nd l o r => match p with xH => o | xO q => tget q l | xI q => tget q r end
  end.

(** see [tree] (no code counterpart). *)
Fixpoint tset {A} (p : positive) (v : A) (t : tree A) : tree A :=
  match t with
  | Leaf => match p with
            | xH => Nd Leaf (Some v) Leaf
            | xO q => Nd (tset q v Leaf) None Leaf
            | xI q => Nd Leaf None (tset q v Leaf)
            end
  | Nd l o r => match p with
                | xH => Nd l (Some v) r
                | xO q => Nd (tset q v l) o r
                | xI q => Nd l o (tset q v r)
                end
  end.

Lemma tget_leaf {A} p : tget p (@Leaf A) = None.
Proof. destruct p; reflexivity. Qed.

Lemma tget_set_same {A} p (v : A) t : tget p (tset p v t) = Some v.
Proof.
  revert t; induction p as [q IH|q IH|]; intros [|l o r]; simpl; auto.
Qed.

Lemma tget_set_other {A} p q (v : A) t : p <> q -> tget q (tset p v t) = tget q t.
Proof.
  revert q t; induction p as [p IH|p IH|]; intros [q|q|] [|l o r] H; simpl;
    rewrite ?tget_leaf; try reflexivity; try congruence;
    try (rewrite IH by congruence; rewrite ?tget_leaf; reflexivity).
Qed.

(** [[A; n]], e.g. search.rs 304-306: length, value of the untouched elements, the others. *)
Record arr (A : Type) := mkArr { alen : Z; adef : A; amap : tree A }.
Arguments mkArr {A}.
Arguments alen {A}.
Arguments adef {A}.
Arguments amap {A}.

(** [[v; n]], e.g. search.rs 14, 305-306. *)
Definition anew {A} (n : Z) (v : A) : arr A := mkArr n v Leaf.

(** see [tree] (no code counterpart). *)
Definition key (i : Z) : positive := Z.to_pos (i + 1).

(** Content without bounds check (used in statements only). *)
Definition araw {A} (a : arr A) (i : Z) : A :=
  match tget (key i) (amap a) with Some v => v | None => adef a end.

(** the bounds check of indexing (core). *)
Definition inb {A} (a : arr A) (i : Z) : bool := (0 <=? i) && (i <? alen a).

(** [a[i]], e.g. search.rs 32: panics when out of bounds. *)
Definition aget {A} (a : arr A) (i : Z) : res A :=
  if inb a i then Ret (araw a i) else Panic.

(** [a[i] = v], e.g. search.rs 27: panics when out of bounds. *)
Definition aset {A} (a : arr A) (i : Z) (v : A) : res (arr A) :=
  if inb a i then Ret (mkArr (alen a) (adef a) (tset (key i) v (amap a))) else Panic.

(** [aset] without the bounds check (used in statements only). *)
Definition aupd {A} (a : arr A) (i : Z) (v : A) : arr A :=
  mkArr (alen a) (adef a) (tset (key i) v (amap a)).

Lemma araw_new {A} n (v : A) i : araw (anew n v) i = v.
Proof. unfold araw, anew; simpl. rewrite tget_leaf. reflexivity. Qed.

Lemma araw_upd {A} (a : arr A) i j v :
  0 <= i -> 0 <= j -> araw (aupd a i v) j = if i =? j then v else araw a j.
Proof.
  intros Hi Hj. unfold araw, aupd; simpl.
  destruct (Z.eqb_spec i j) as [->|Hn].
  - now rewrite tget_set_same.
  - rewrite tget_set_other; [reflexivity|].
    unfold key; intros E. apply Hn.
    apply (f_equal Zpos) in E. rewrite !Z2Pos.id in E by lia. lia.
Qed.

Lemma araw_upd_same {A} (a : arr A) i v : 0 <= i -> araw (aupd a i v) i = v.
Proof. intros H. rewrite araw_upd, Z.eqb_refl by assumption. reflexivity. Qed.

Lemma araw_upd_other {A} (a : arr A) i j v :
  0 <= i -> 0 <= j -> i <> j -> araw (aupd a i v) j = araw a j.
Proof.
  intros Hi Hj Hn. rewrite araw_upd by assumption.
  destruct (Z.eqb_spec i j); congruence.
Qed.

Lemma aget_ok {A} (a : arr A) i : 0 <= i < alen a -> aget a i = Ret (araw a i).
Proof.
  intros H; unfold aget, inb.
  destruct (Z.leb_spec 0 i), (Z.ltb_spec i (alen a)); simpl; try reflexivity; lia.
Qed.

Lemma aset_ok {A} (a : arr A) i v : 0 <= i < alen a -> aset a i v = Ret (aupd a i v).
Proof.
  intros H; unfold aset, inb, aupd.
  destruct (Z.leb_spec 0 i), (Z.ltb_spec i (alen a)); simpl; try reflexivity; lia.
Qed.

Lemma alen_upd {A} (a : arr A) i v : alen (aupd a i v) = alen a.
Proof. reflexivity. Qed.

(** ** Fixed-capacity containers ([heapless::Vec], [heapless::Deque]), e.g. search.rs 112, 304 *)

(** the number of elements. *)
Definition llen {A} (l : list A) : Z := Z.of_nat (length l).

(** [v.push(x).unwrap()] / [q.push_back(x).unwrap()], search.rs 122, 307. *)
Definition vpush {A} (cap : Z) (l : list A) (x : A) : res (list A) :=
  if llen l <? cap then Ret (l ++ [x]) else Panic.

Lemma vpush_ok {A} cap (l : list A) x : llen l < cap -> vpush cap l x = Ret (l ++ [x]).
Proof. intros H; unfold vpush. destruct (Z.ltb_spec (llen l) cap); [reflexivity|lia]. Qed.

Lemma llen_app {A} (l m : list A) : llen (l ++ m) = llen l + llen m.
Proof. unfold llen. rewrite app_length. lia. Qed.

Lemma llen_nonneg {A} (l : list A) : 0 <= llen l.
Proof. unfold llen; lia. Qed.

Lemma last_cons {A} (l : list A) d c : last (d :: l) c = last l d.
Proof.
  revert d c. induction l as [|e l IH]; intros d c; [reflexivity|].
  change (last (d :: e :: l) c) with (last (e :: l) c). rewrite !IH. reflexivity.
Qed.

(** ** Bit tricks used by the packed representations *)

Lemma lor_shift_add a b n : 0 <= n -> 0 <= b < 2 ^ n ->
  Z.lor (Z.shiftl a n) b = a * 2 ^ n + b.
Proof.
  intros Hn Hb.
  rewrite <- Z.shiftl_mul_pow2 by lia.
  rewrite <- Z.lxor_lor, <- Z.add_nocarry_lxor; [reflexivity| |];
  apply Z.bits_inj'; intros k Hk; rewrite Z.land_spec, Z.bits_0;
  (destruct (Z.lt_ge_cases k n) as [Hlt|Hge];
   [ rewrite Z.shiftl_spec_low by lia; reflexivity
   | replace (Z.testbit b k) with false; [apply andb_false_r|];
     symmetry; destruct (Z.eq_dec b 0) as [->|Hb0]; [apply Z.testbit_0_l|];
     apply Z.bits_above_log2; [lia|];
     apply Z.log2_lt_pow2; [lia|];
     apply Z.lt_le_trans with (2 ^ n); [lia|apply Z.pow_le_mono_r; lia] ]).
Qed.

Lemma land_1_mod a : Z.land a 1 = a mod 2.
Proof. change 1 with (Z.ones 1). rewrite Z.land_ones by lia. reflexivity. Qed.

Lemma shiftr_1_div a : Z.shiftr a 1 = a / 2.
Proof. rewrite Z.shiftr_div_pow2 by lia. reflexivity. Qed.
