(** Arithmetic used by the numeric parts of the code.  A model function is written once
    over [ops] and used with two instances: exact real arithmetic [Rops], and IEEE-754
    binary32 with one NaN [Fops] (Rust's [f32]), where the functions of libm / micromath
    are arbitrary. Units (uom) are erased: every quantity is its value in SI base units. *)
From Coq Require Import ZArith Reals Bool Lia Lra.
From Flocq Require Import Core BinarySingleNaN.
Open Scope Z_scope.

(** The f32 operations that occur in control.rs, estimate.rs, wall.rs, trajectory/*.rs (mousecore2/src), mousesim2/src/lib.rs
    and sensors2/src/*.rs. *)
Class ops := Ops {
  num : Type;
  lit : Z -> positive -> num;       (* the decimal literal n/d *)
  add : num -> num -> num;
  sub : num -> num -> num;
  mul : num -> num -> num;
  div : num -> num -> num;
  opp : num -> num;
  nabs : num -> num;
  nsqrt : num -> num;
  ltb : num -> num -> bool;         (* a < b *)
  leb : num -> num -> bool;         (* a <= b *)
  eqb : num -> num -> bool;         (* a == b *)
  of_int : Z -> num;                (* [i as f32] *)
  to_int : Z -> Z -> num -> Z;      (* [x as iN/uN], saturating at the two bounds *)
  nsin : num -> num;
  ncos : num -> num;
  nexp : num -> num;
  npi : num;                         (* core::f32::consts::PI *)
  nrem : num -> num -> num;         (* a % b, the remainder of truncating division *)
  natan2 : num -> num -> num;       (* y.atan2(x) *)
  isnan : num -> bool;              (* x.is_nan() *)
  isneg : num -> bool               (* x.is_sign_negative() *)
}.

Declare Scope num_scope.
Delimit Scope num_scope with num.
Bind Scope num_scope with num.
Notation "x + y" := (add x y) : num_scope.
Notation "x - y" := (sub x y) : num_scope.
Notation "x * y" := (mul x y) : num_scope.
Notation "x / y" := (div x y) : num_scope.
Notation "- x" := (opp x) : num_scope.
Notation "x <? y" := (ltb x y) : num_scope.
Notation "x <=? y" := (leb x y) : num_scope.
Notation "x >? y" := (ltb y x) : num_scope.
Notation "x >=? y" := (leb y x) : num_scope.
Notation "x =? y" := (eqb x y) : num_scope.

(** the literals 0.0, 1.0 and 2.0 and [Default::default()], e.g. control.rs 161-170. *)
Definition n0 {K : ops} : num := lit 0 1.
(** see [n0] (control.rs 161-170). *)
Definition n1 {K : ops} : num := lit 1 1.
(** see [n0] (control.rs 161-170). *)
Definition n2 {K : ops} : num := lit 2 1.

(** [x.rem_euclid(y)] (core / micromath; control.rs 160, wall.rs 301, 373): the remainder, made
    non-negative. *)
Definition rem_euclid {K : ops} (x y : num) : num :=
  let r := nrem x y in
  if (r <? n0)%num then (r + nabs y)%num else r.

(** ** Exact reals *)

(** [<] of the real instance (no code counterpart). *)
Definition Rltb (x y : R) : bool := if Rlt_dec x y then true else false.
(** [<=] of the real instance (no code counterpart). *)
Definition Rleb (x y : R) : bool := if Rle_dec x y then true else false.
(** [==] of the real instance (no code counterpart). *)
Definition Reqb (x y : R) : bool := if Req_EM_T x y then true else false.

(** [as i32], [as usize] of wall.rs 279, 293, control.rs 284-285: truncation towards zero, clamped. *)
Definition clampZ (lo hi z : Z) : Z := Z.max lo (Z.min hi z).
(** see [clampZ], for the real instance (wall.rs 279, 293). *)
Definition Rto_int (lo hi : Z) (x : R) : Z := clampZ lo hi (Ztrunc x).

(** the remainder of truncating division (within [rem_euclid], control.rs 160), for the real instance. *)
Definition Rrem (x y : R) : R := (x - y * IZR (Ztrunc (x / y)))%R.

(** [atan2] (control.rs 386) for the real instance: the angle of the point
    (x, y), in (-pi, pi]; 0 at the origin. *)
Definition Ratan2 (y x : R) : R :=
  if Rlt_dec 0 x then atan (y / x)
  else if Rlt_dec x 0 then
    (if Rle_dec 0 y then (atan (y / x) + PI)%R else (atan (y / x) - PI)%R)
  else if Rlt_dec 0 y then (PI / 2)%R
  else if Rlt_dec y 0 then (- (PI / 2))%R else 0%R.

(** exact real arithmetic (no code counterpart). *)
Definition Rops : ops := {|
  num := R;
  lit n d := (IZR n / IZR (Zpos d))%R;
  add := Rplus; sub := Rminus; mul := Rmult; div := Rdiv; opp := Ropp;
  nabs := Rabs; nsqrt := sqrt;
  ltb := Rltb; leb := Rleb; eqb := Reqb;
  of_int := IZR; to_int := Rto_int;
  nsin := sin; ncos := cos; nexp := exp; npi := PI;
  nrem := Rrem; natan2 := Ratan2; isnan _ := false; isneg x := Rltb x 0 |}.

Lemma Rltb_spec x y : reflect (x < y)%R (Rltb x y).
Proof. unfold Rltb. destruct (Rlt_dec x y); constructor; assumption. Qed.
Lemma Rleb_spec x y : reflect (x <= y)%R (Rleb x y).
Proof. unfold Rleb. destruct (Rle_dec x y); constructor; assumption. Qed.
Lemma Reqb_spec x y : reflect (x = y)%R (Reqb x y).
Proof. unfold Reqb. destruct (Req_EM_T x y); constructor; assumption. Qed.

(** unfold the real instance. *)
Ltac rops := unfold n0, n1, n2 in *;
  cbn [lit add sub mul div opp nabs nsqrt ltb leb eqb of_int to_int nsin ncos nexp npi nrem natan2 isnan isneg Rops] in *;
  change (@num Rops) with R in *.

(** ** binary32 *)

(** Rust's [f32], with one NaN. *)
Definition f32 := binary_float 24 128.
#[global] Instance prec32 : Prec_gt_0 24 := eq_refl.
#[global] Instance emax32 : Prec_lt_emax 24 128 := eq_refl.

(** [i as f32]. *)
Definition f32_of_Z (z : Z) : f32 := binary_normalize 24 128 prec32 emax32 mode_NE z 0 false.
(** [x / y]. *)
Definition f32_div (x y : f32) : f32 := Bdiv mode_NE x y.

(** [x as iN]: NaN is 0, infinities saturate. *)
Definition f32_to_int (lo hi : Z) (x : f32) : Z :=
  match x with
  | B754_nan => 0
  | B754_infinity s => if s then lo else hi
  | _ => clampZ lo hi (Btrunc x)
  end.

(** [x % y] (fmod): the remainder of truncating division, which is always representable. *)
Definition f32_rem (x y : f32) : f32 :=
  match x, y with
  | B754_nan, _ | _, B754_nan | B754_infinity _, _ | _, B754_zero _ => B754_nan
  | _, B754_infinity _ | B754_zero _, _ => x
  | B754_finite sx mx ex _, B754_finite sy my ey _ =>
      let e := Z.min ex ey in
      let r := Z.rem (Zpos mx * 2 ^ (ex - e)) (Zpos my * 2 ^ (ey - e)) in
      binary_normalize 24 128 prec32 emax32 mode_NE (if sx then - r else r) e sx
  end.

(** functions of libm, about which nothing is assumed. *)
Record libm := Libm { l_sin : f32 -> f32; l_cos : f32 -> f32; l_exp : f32 -> f32;
  l_atan2 : f32 -> f32 -> f32 }.

(** [lit n d] is the correctly rounded value of [n/d] when [n] and [d] are below 2^24 up to a
    power of two.  The slalom table (slalom.rs 457-604) and the curve generator have longer literals;
    there the division of the rounded numbers was compared with the correctly rounded literal, one
    by one, and the three literals for which it is not the same are written with three times the
    numerator and the denominator. *)
Definition Fops (l : libm) : ops := {|
  num := f32;
  lit n d := f32_div (f32_of_Z n) (f32_of_Z (Zpos d));
  add := Bplus mode_NE; sub := Bminus mode_NE; mul := Bmult mode_NE; div := f32_div;
  opp := Bopp; nabs := Babs; nsqrt := Bsqrt mode_NE;
  ltb := Bltb; leb := Bleb; eqb := Beqb;
  of_int := f32_of_Z; to_int := f32_to_int;
  nsin := l_sin l; ncos := l_cos l; nexp := l_exp l;
  npi := f32_div (f32_of_Z 13176795) (f32_of_Z 4194304);
  nrem := f32_rem; natan2 := l_atan2 l; isnan := is_nan; isneg := Bsign |}.

(** a libm for examples. *)
Definition libm0 : libm := Libm (fun x => x) (fun x => x) (fun x => x) (fun y x => f32_div y x).
