(** Vocabulary for the statements about the wall detector. *)
From Coq Require Import ZArith Reals List Bool.
From Flocq Require Import Core BinarySingleNaN.
From Verif Require Import Base SearchModel SearchSpec Num TrajModel DetectModel.
Import ListNotations.
Open Scope R_scope.

(** ** The floor plan: square cells of side 90 mm, walls 6 mm thick centred on the cell borders *)

Definition side_len : R := 9 / 100.
Definition half_wall : R := 3 / 1000.

Inductive side := East_side | West_side | North_side | South_side.

(** the wall on a side of the cell in column [i] and row [j]. *)
Definition wall_of (s : side) (i j : Z) : coord :=
  match s with
  | East_side => Co (2 * i + 1) (2 * j)
  | West_side => Co (2 * i - 1) (2 * j)
  | North_side => Co (2 * i) (2 * j + 1)
  | South_side => Co (2 * i) (2 * j - 1)
  end.

Definition between (i : Z) (v : R) : Prop := IZR i * side_len <= v < (IZR i + 1) * side_len.
Definition within (i : Z) (v : R) : Prop :=
  IZR i * side_len + half_wall < v < (IZR i + 1) * side_len - half_wall.

(** the point is in the cell; in the part of the cell that no wall can cover. *)
Definition in_cell (i j : Z) (q : R * R) : Prop := between i (fst q) /\ between j (snd q).
Definition free (i j : Z) (q : R * R) : Prop := within i (fst q) /\ within j (snd q).

(** the point is on the face, seen from inside the cell, of the wall on side [s]. *)
Definition on_face (s : side) (i j : Z) (q : R * R) : Prop :=
  match s with
  | East_side => fst q = (IZR i + 1) * side_len - half_wall /\ within j (snd q)
  | West_side => fst q = IZR i * side_len + half_wall /\ within j (snd q)
  | North_side => snd q = (IZR j + 1) * side_len - half_wall /\ within i (fst q)
  | South_side => snd q = IZR j * side_len + half_wall /\ within i (fst q)
  end.

Definition point (p : @pose Rops) : R * R := (p_x p, p_y p).

(** the point at distance [t] along the ray. *)
Definition ray (p : @pose Rops) (t : R) : R * R :=
  (p_x p + t * cos (p_theta p), p_y p + t * sin (p_theta p)).

(** the ray meets, at distance [t], a line on which faces of walls turned towards it lie. *)
Definition facing (p : @pose Rops) (t : R) : Prop :=
  (0 < cos (p_theta p) /\ exists k : Z, fst (ray p t) = IZR k * side_len - half_wall) \/
  (cos (p_theta p) < 0 /\ exists k : Z, fst (ray p t) = IZR k * side_len + half_wall) \/
  (0 < sin (p_theta p) /\ exists k : Z, snd (ray p t) = IZR k * side_len - half_wall) \/
  (sin (p_theta p) < 0 /\ exists k : Z, snd (ray p t) = IZR k * side_len + half_wall).

(** [t] is the first such distance after [t0]. *)
Definition first_facing (p : @pose Rops) (t0 t : R) : Prop :=
  t0 < t /\ facing p t /\ forall u, t0 < u < t -> ~ facing p u.

(** the heading is within 45 degrees of the side. *)
Definition heads_to (s : side) (p : @pose Rops) : Prop :=
  match s with
  | East_side => Rabs (sin (p_theta p)) <= cos (p_theta p)
  | West_side => Rabs (sin (p_theta p)) <= - cos (p_theta p)
  | North_side => Rabs (cos (p_theta p)) <= sin (p_theta p)
  | South_side => Rabs (cos (p_theta p)) <= - sin (p_theta p)
  end.

(** the pillars at the two ends of a side of the cell. *)
Definition pillar_of (s : side) (i j : Z) (q : R * R) : Prop :=
  let x := IZR i * side_len in
  let y := IZR j * side_len in
  match s with
  | East_side => q = (x + side_len, y) \/ q = (x + side_len, y + side_len)
  | West_side => q = (x, y) \/ q = (x, y + side_len)
  | North_side => q = (x, y + side_len) \/ q = (x + side_len, y + side_len)
  | South_side => q = (x, y) \/ q = (x + side_len, y)
  end.

(** distance of a point from the line of the ray. *)
Definition line_distance (p : @pose Rops) (q : R * R) : R :=
  Rabs (sin (p_theta p) * (p_x p - fst q) - cos (p_theta p) * (p_y p - snd q)).

(** the line of the ray keeps 10 mm away from the pillars ahead. *)
Definition clear_of_pillars (p : @pose Rops) (i j : Z) : Prop :=
  forall s q, heads_to s p -> pillar_of s i j q -> 1 / 100 <= line_distance p q.

(** ** Readings *)

(** the arguments of one call of detect_and_update. *)
Record reading {K : ops} := Reading { r_mean : num; r_stddev : num; r_pose : pose }.
Arguments Reading {K}.

(** the answer of one call. *)
Definition answer := option (coord * wall_state).

(** a history of calls, with the answers. *)
Fixpoint readings {K : ops} (W : Z) (d : detector) (rs : list reading) :
  res (detector * list answer) :=
  match rs with
  | [] => Ret (d, [])
  | r :: rs' =>
      let* (d1, a) := detect_and_update W d (r_mean r) (r_stddev r) (r_pose r) in
      let* (d2, l) := readings W d1 rs' in
      Ret (d2, a :: l)
  end.

(** the probability stored for a wall. *)
Definition belief {K : ops} (W : Z) (d : detector) (c : coord) : num :=
  araw (d_existence d) (as_index W c).

(** a detector as it comes from new or with_walls: the array has its length and holds
    probabilities. *)
Definition detector_ok (W : Z) (d : @detector Rops) : Prop :=
  d_converter d = converter_default /\ alen (d_existence d) = EXISTENCE_ARRAY_LEN /\
  forall c, valid W c -> 0 <= belief W d c <= 1.

Definition odds (p : R) : R := p / (1 - p).

(** the Gaussian density, up to the factor common to all distances. *)
Definition gaussian (r : @reading Rops) (dist : R) : R :=
  exp (- (((dist - r_mean r) / r_stddev r) * ((dist - r_mean r) / r_stddev r)) / 2).

(** the likelihood ratio of a reading for the wall seen. *)
Definition likelihood_ratio (W : Z) (r : @reading Rops) : R :=
  match convert W converter_default (r_pose r) with
  | Ret (Some (WallInfo _ (Some d1) (Some d2))) => gaussian r d1 / gaussian r d2
  | _ => 1
  end.

(** the answer is about the wall [c]. *)
Definition about (c : coord) (a : answer) : bool :=
  match a with Some (c', _) => coord_eqb c' c | None => false end.

(** the product of the likelihood ratios of the readings that were answered for [c]. *)
Fixpoint evidence (W : Z) (c : coord) (rs : list (@reading Rops)) (l : list answer) : R :=
  match rs, l with
  | r :: rs', a :: l' =>
      (if about c a then likelihood_ratio W r else 1) * evidence W c rs' l'
  | _, _ => 1
  end.

(** the wall that a reading is about, whether answered or not. *)
Definition sees (W : Z) (c : coord) (r : @reading Rops) : bool :=
  match convert W converter_default (r_pose r) with
  | Ret (Some i) => coord_eqb (w_coord i) c
  | _ => false
  end.

(** every reading of [c] is answered. *)
Fixpoint all_answered (W : Z) (c : coord) (rs : list (@reading Rops)) (l : list answer) : Prop :=
  match rs, l with
  | r :: rs', a :: l' => (sees W c r = true -> about c a = true) /\ all_answered W c rs' l'
  | _, _ => True
  end.

(** the state that a probability is reported as. *)
Definition reported (p : R) (s : wall_state) : Prop :=
  match s with
  | Checked true => 9 / 10 < p
  | Checked false => p < 1 / 10
  | Unchecked => 1 / 10 <= p <= 9 / 10
  end.

(** ** binary32 *)

(** an exponential function on non-negative arguments. *)
Definition exp_like (ex : f32 -> f32) : Prop :=
  forall x, (is_finite x = true /\ 0 <= B2R x) \/ x = B754_infinity false ->
    ex x = B754_infinity false \/ (is_finite (ex x) = true /\ 1 <= B2R (ex x)).

(** an exponential that also treats the special values as usual. *)
Definition exp_full (ex : f32 -> f32) : Prop :=
  exp_like ex /\ ex (B754_infinity false) = B754_infinity false /\ ex B754_nan = B754_nan.

(** the exponents of both hypotheses say nothing: one is NaN or both are -infinity. *)
Definition hopeless lm (m s : f32) (i : @wall_info (Fops lm)) : Prop :=
  let e := @log_likelihood (Fops lm) (length_of (w_existing i)) m s : f32 in
  let n := @log_likelihood (Fops lm) (length_of (w_not_existing i)) m s : f32 in
  e = B754_nan \/ n = B754_nan \/ (e = B754_infinity true /\ n = B754_infinity true).

(** sine and cosine of a heading agree with the quadrant the code puts it in, one of them
    being at least 2^-10 from 0. *)
Definition steady (lm : libm) (th : f32) : Prop :=
  let c := B2R (l_cos lm th) in let s := B2R (l_sin lm th) in let e := (/ 1024)%R in
  let r := @revolution (Fops lm) th in
  is_finite (l_cos lm th) = true /\ is_finite (l_sin lm th) = true /\
  (if @ltb (Fops lm) r (lit 1 4) then e <= c \/ e <= s
   else if @ltb (Fops lm) r (lit 1 2) then c <= - e \/ e <= s
   else if @ltb (Fops lm) r (lit 3 4) then c <= - e \/ s <= - e
   else e <= c \/ s <= - e)%R.
