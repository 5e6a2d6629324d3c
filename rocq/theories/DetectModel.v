(** Model of /repo/mousecore2/src/wall.rs 76-470: [Probability], [WallDetector] and
    [PoseConverter].  Angles are in radians, lengths in metres.  [W] is the const generic. *)
From Coq Require Import ZArith List Bool.
From Verif Require Import Base SearchModel WallsModel Num TrajModel.
Import ListNotations.
Open Scope Z_scope.

(** wall.rs 76. *)
Definition EXISTENCE_ARRAY_LEN : Z := WIDTH * WIDTH * 2.

(** the bounds of i32, for the casts of wall.rs 279 and 293. *)
Definition I32_MIN : Z := - 2147483648.
(** see [I32_MIN] (wall.rs 279, 293). *)
Definition I32_MAX : Z := 2147483647.

Section Arith.
Context {K : ops}.

(** ** Probability: the f32 inside (wall.rs 84-85) *)

(** wall.rs 88-94: Probability::new. *)
Definition prob_new (v : num) : option num :=
  if isnan v || isneg v || (v >? n1)%num then None else Some v.

(** wall.rs 96-98. *)
Definition prob_one : num := n1.
(** wall.rs 100-102. *)
Definition prob_zero : num := n0.
(** wall.rs 104-106. *)
Definition prob_mid : num := lit 1 2.
(** wall.rs 108-110. *)
Definition prob_reverse (p : num) : num := (n1 - p)%num.

(** [core::f32::EPSILON] = 2^-23, wall.rs 113 and 117. *)
Definition EPSILON : num := lit 1 8388608.
(** wall.rs 112-114. *)
Definition is_one (p : num) : bool := (nabs (p - n1) <? EPSILON)%num.
(** wall.rs 116-118. *)
Definition is_zero (p : num) : bool := (nabs p <? EPSILON)%num.

(** wall.rs 220. *)
Definition WALL_EXISTENCE_TH : num := lit 1 10.

(** [x.is_infinite()] (wall.rs 197, 199): x - x is NaN exactly for NaN and infinities. *)
Definition is_infinite (x : num) : bool := isnan (x - x)%num && negb (isnan x).

(** ** PoseConverter *)

(** wall.rs 222-233; [square_width_half] is never read. *)
Record converter := Converter {
  c_i_square_width : Z;
  c_square_width : num;
  c_ignore_radius : num;
  c_ignore_length : num;
  c_p1 : num; c_p2 : num; c_n1 : num; c_n2 : num }.

(** wall.rs 268-289: PoseConverter::new. *)
Definition converter_new (square_width wall_width ignore_radius ignore_length : num) : converter :=
  let p1 := (square_width - wall_width / n2)%num in
  let p2 := (p1 + square_width)%num in
  let n1 := (wall_width / n2)%num in
  let n2 := (n1 - square_width)%num in
  Converter (to_int I32_MIN I32_MAX (square_width * lit 1000 1)%num) square_width ignore_radius
    ignore_length p1 p2 n1 n2.

(** wall.rs 235-265: PoseConverter::default, the only constructor visible outside. *)
Definition converter_default : converter :=
  converter_new (lit 9 100) (lit 6 1000) (lit 1 100) (lit 8 1000).

(** wall.rs 292-296: remquof_with_width.  Dividing by zero panics; i32 division truncates and
    [quo * i_square_width] cannot overflow, being no larger than the dividend. *)
Definition remquof_with_width (c : converter) (val : num) : res (num * Z) :=
  if c_i_square_width c =? 0 then Panic
  else
    let quo := Z.quot (to_int I32_MIN I32_MAX (val * lit 1000 1)%num) (c_i_square_width c) in
    Ret ((val - of_int (quo * c_i_square_width c) * lit 1 1000)%num, quo).

(** wall.rs 301 and 373: [theta.get::<revolution>().rem_euclid(1.0)]. *)
Definition revolution (theta : num) : num := rem_euclid (theta / (n2 * npi))%num n1.

(** wall.rs 302-322: the two pillars ahead. *)
Definition pillars (c : converter) (rot : num) : (num * num) * (num * num) :=
  let w := c_square_width c in
  if negb ((lit 1 8 <=? rot)%num && (rot <=? lit 7 8)%num) then ((w, n0), (w, w))
  else if (rot <? lit 3 8)%num then ((w, w), (n0, w))
  else if (rot <? lit 5 8)%num then ((n0, w), (n0, n0))
  else ((n0, n0), (w, n0)).

(** wall.rs 300-332: is_near_pillar.  [f32::min] ignores NaN, so the folded minimum is below
    the radius exactly when one of the two distances is. *)
Definition is_near_pillar (c : converter) (p : pose) : bool :=
  let '(a, b) := pillars c (revolution (p_theta p)) in
  let sin_th := nsin (p_theta p) in
  let cos_th := ncos (p_theta p) in
  let dist (q : num * num) :=
    nabs (sin_th * (p_x p - fst q) - cos_th * (p_y p - snd q))%num in
  (dist a <? c_ignore_radius c)%num || (dist b <? c_ignore_radius c)%num.

(** wall.rs 337-341: Axis. *)
Inductive axis := AxX (x : num) | AxY (y : num).

End Arith.

(** wall.rs 343-349: Direction. *)
Inductive direction := DRight | DLeft | DTop | DBottom.

Section Arith2.
Context {K : ops}.

(** wall.rs 375-403. *)
Definition axes (c : converter) (rot : num) : list (axis * direction) :=
  if (rot <? lit 1 4)%num then
    [(AxX (c_p1 c), DRight); (AxX (c_p2 c), DRight); (AxY (c_p1 c), DTop); (AxY (c_p2 c), DTop)]
  else if (rot <? lit 1 2)%num then
    [(AxX (c_n1 c), DLeft); (AxX (c_n2 c), DLeft); (AxY (c_p1 c), DTop); (AxY (c_p2 c), DTop)]
  else if (rot <? lit 3 4)%num then
    [(AxX (c_n1 c), DLeft); (AxX (c_n2 c), DLeft); (AxY (c_n1 c), DBottom); (AxY (c_n2 c), DBottom)]
  else
    [(AxX (c_p1 c), DRight); (AxX (c_p2 c), DRight); (AxY (c_n1 c), DBottom); (AxY (c_n2 c), DBottom)].

(** wall.rs 412-420: a distance, [None] for infinity.  A division by zero gives an infinity or
    NaN, and every such value ends up as infinity or below zero and then as infinity. *)
Definition ray_distance (num_ den : num) : option num :=
  if (den =? n0)%num then None
  else
    let dist := (num_ / den)%num in
    if (dist <? n0)%num || isnan dist || is_infinite dist then None else Some dist.

(** wall.rs 411-421. *)
Definition axis_distance (x_rem y_rem sin_th cos_th : num) (a : axis * direction) :
  direction * option num :=
  (snd a, match fst a with
          | AxX x => ray_distance (x - x_rem)%num cos_th
          | AxY y => ray_distance (y - y_rem)%num sin_th
          end).

(** wall.rs 426: [partial_cmp] is [Less]. *)
Definition dist_lt (a b : option num) : bool :=
  match a, b with
  | Some x, Some y => (x <? y)%num
  | Some _, None => true
  | None, _ => false
  end.

(** insertion into a sorted list, see [sort_distances] (wall.rs 425-428). *)
Fixpoint insert (e : direction * option num) (l : list (direction * option num)) :=
  match l with
  | [] => [e]
  | h :: t => if dist_lt (snd h) (snd e) then h :: insert e t else e :: l
  end.

(** wall.rs 425-428: sort_unstable_by.  Equal distances keep their order here; the order is
    unspecified in Rust.  C51 shows that the first distance is smaller than the second one, so
    that the order of equal distances has no effect. *)
Definition sort_distances (l : list (direction * option num)) := fold_right insert [] l.

(** wall.rs 18-22: WallInfo; [None] is an infinite distance. *)
Record wall_info := WallInfo {
  w_coord : coord; w_existing : option num; w_not_existing : option num }.

(** wall.rs 430-455. *)
Definition hit_wall (W : Z) (d : direction) (x_quo y_quo : Z) : option coord :=
  let shl v := as_u8 (Z.shiftl (as_u8 v) 1) in
  match d with
  | DRight =>
      if (x_quo <? 0) || (y_quo <? 0) then None
      else coord_new W (Z.lor (shl x_quo) 1) (shl y_quo)
  | DLeft =>
      if (x_quo <? 1) || (y_quo <? 0) then None
      else coord_new W (Z.lor (shl (x_quo - 1)) 1) (shl y_quo)
  | DTop =>
      if (x_quo <? 0) || (y_quo <? 0) then None
      else coord_new W (shl x_quo) (Z.lor (shl y_quo) 1)
  | DBottom =>
      if (x_quo <? 0) || (y_quo <? 1) then None
      else coord_new W (shl x_quo) (Z.lor (shl (y_quo - 1)) 1)
  end.

(** wall.rs 336-469: PoseConverter::convert, with the debug assertions. *)
Definition convert (W : Z) (c : converter) (p : pose) : res (option wall_info) :=
  if isnan (p_x p) || isnan (p_y p) then Panic
  else
  let* (x_rem, x_quo) := remquof_with_width c (p_x p) in
  let* (y_rem, y_quo) := remquof_with_width c (p_y p) in
  if is_near_pillar c (Pose x_rem y_rem (p_theta p)) then Ret None
  else if (x_rem <=? c_n1 c)%num || (x_rem >=? c_p1 c)%num
       || (y_rem <=? c_n1 c)%num || (y_rem >=? c_p1 c)%num then Ret None
  else
  let sin_th := nsin (p_theta p) in
  let cos_th := ncos (p_theta p) in
  match sort_distances (map (axis_distance x_rem y_rem sin_th cos_th)
                          (axes c (revolution (p_theta p)))) with
  | (d, existing) :: (_, not_existing) :: _ =>
      match hit_wall W d x_quo y_quo with
      | None => Ret None
      | Some wall =>
          if match existing with
             | Some e => (e <=? c_ignore_length c)%num
             | None => false
             end then Ret None
          else Ret (Some (WallInfo wall existing not_existing))
      end
  | _ => Panic
  end.

(** ** WallDetector *)

(** wall.rs 78-82. *)
Record detector := Detector { d_converter : converter; d_existence : arr num }.

(** wall.rs 128-133: WallDetector::new. *)
Definition detector_new : detector :=
  Detector converter_default (anew EXISTENCE_ARRAY_LEN prob_mid).

(** wall.rs 153-155. *)
Definition wall_existence (W : Z) (d : detector) (c : coord) : res num :=
  aget (d_existence d) (as_index W c).

(** wall.rs 157-159, assigned to. *)
Definition set_existence (W : Z) (d : detector) (c : coord) (v : num) : res detector :=
  let* a := aset (d_existence d) (as_index W c) v in
  Ret (Detector (d_converter d) a).

(** wall.rs 140-146: the body of the loops. *)
Definition with_walls_step (W : Z) (w : walls) (i j : Z) (d : detector) (k : Z) : res detector :=
  let* c := coord_unwrap W (Z.lor (as_u8 (Z.shiftl i 1)) (Z.land (1 + k) 1))
              (Z.lor (as_u8 (Z.shiftl j 1)) k) in
  let* s := walls_state W w c in
  set_existence W d c
    (match s with
     | Unchecked => prob_mid
     | Checked true => prob_one
     | Checked false => prob_zero
     end).

(** wall.rs 135-151: WallDetector::with_walls. *)
Definition with_walls (W : Z) (w : walls) : res detector :=
  for_each (fun d i =>
    for_each (fun d j => for_each (with_walls_step W w i j) [0; 1] d) (range W) d)
    (range W) detector_new.

(** f32::INFINITY (as 1/0) for an infinite distance, wall.rs 417. *)
Definition length_of (d : option num) : num :=
  match d with Some x => x | None => (n1 / n0)%num end.

(** wall.rs 177-184: the exponent of the likelihood of a distance. *)
Definition log_likelihood (dist mean stddev : num) : num :=
  let tmp := ((dist - mean) / stddev)%num in
  ((- tmp) * tmp / n2)%num.

(** wall.rs 189-204: the new probability. *)
Definition posterior (p exist_val not_exist_val : num) : res num :=
  let min := if (exist_val <? not_exist_val)%num then exist_val else not_exist_val in
  let e := (nexp (exist_val - min) * p)%num in
  let n := (nexp (not_exist_val - min) * prob_reverse p)%num in
  if is_infinite e then Ret prob_one
  else if is_infinite n then Ret prob_zero
  else match prob_new (e / (e + n))%num with Some q => Ret q | None => Panic end.

(** wall.rs 208-214. *)
Definition state_of (p : num) : wall_state :=
  if (p <? WALL_EXISTENCE_TH)%num then Checked false
  else if (p >? prob_reverse WALL_EXISTENCE_TH)%num then Checked true
  else Unchecked.

(** wall.rs 161-217: WallDetector::detect_and_update. *)
Definition detect_and_update (W : Z) (d : detector) (mean stddev : num) (p : pose) :
  res (detector * option (coord * wall_state)) :=
  let* info := convert W (d_converter d) p in
  match info with
  | None => Ret (d, None)
  | Some i =>
      let* existence := wall_existence W d (w_coord i) in
      if is_zero existence || is_one existence then Ret (d, None)
      else
        let exist_val := log_likelihood (length_of (w_existing i)) mean stddev in
        let not_exist_val := log_likelihood (length_of (w_not_existing i)) mean stddev in
        if isnan exist_val || isnan not_exist_val then Panic
        else
          let* q := posterior existence exist_val not_exist_val in
          let* d1 := set_existence W d (w_coord i) q in
          Ret (d1, Some (w_coord i, state_of q))
  end.

End Arith2.
