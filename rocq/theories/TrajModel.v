(** Model of mousecore2/src/trajectory.rs and mousecore2/src/trajectory/{straight,spin,slalom}.rs,
    and of Pose in mousecore2/src/wall.rs 24-74. The macro of straight.rs is instantiated twice
    (Length and Angle) with the same text, so one definition stands for both. [advance_by] is
    compiled only on nightly and is not modelled. *)
From Coq Require Import ZArith Reals List Bool.
From Verif Require Import Base Num SearchModel RunModel ControlModel.
Import ListNotations.
Open Scope Z_scope.

(** wall.rs 24-29: Pose. *)
Record pose {K : ops} := Pose { p_x : num; p_y : num; p_theta : num }.
Arguments Pose {K}.

Section Traj.
Context {K : ops}.
Open Scope num_scope.

(** control.rs 43-58: LengthTarget::default(), AngleTarget::default(). *)
Definition axis4_default : axis4 := Axis4 n0 n0 n0 n0.

(** uom: Angle::new::<degree>(d) (slalom.rs 462, wall.rs 53 and 62). *)
Definition degree (d : num) : num := d * npi / lit 180 1.

(** ** straight.rs: the calculators *)

(** straight.rs 21-37: StraightCalculatorGenerator and its constructor. *)
Record generator := Generator { g_v_max : num; g_a_max : num; g_j_max : num }.

(** straight.rs 231-242: AccelerationCalculator. *)
Record accel_calc := AccelCalc {
  ac_x_start : num; ac_v_start : num; ac_x_end : num; ac_v_end : num;
  ac_a_m : num; ac_j_m : num; ac_t1 : num; ac_t2 : num; ac_t3 : num }.

(** straight.rs 297-302: ConstantCalculator. *)
Record const_calc := ConstCalc { cc_t_end : num; cc_x_start : num; cc_v : num }.

(** straight.rs 324-337: OverallCalculator. *)
Record overall := Overall {
  oc_x_start : num; oc_v_start : num; oc_t1 : num; oc_t2 : num; oc_t3 : num;
  oc_distance : num; oc_v_end : num;
  oc_accel : accel_calc; oc_const : const_calc; oc_decel : accel_calc; oc_sign : num }.

(** straight.rs 28: LOOP_COUNT. *)
Definition LOOP_COUNT : nat := 25.

(** straight.rs 170-179: calculate_acceleration_distance. *)
Definition acceleration_distance (g : generator) (v_start v_end : num) : num :=
  let tc := g_a_max g / g_j_max g in
  let vd := g_a_max g * tc in
  let t :=
    if nabs (v_end - v_start) >=? vd then nabs (v_end - v_start) / g_a_max g + tc
    else n2 * nsqrt (nabs (v_end - v_start) / g_j_max g) in
  (v_start + v_end) * t / n2.

(** straight.rs 77-86, 203-212 and 217-226: the bisection loop; [up mid] tells whether the
    lower end moves to the middle. Returns [low]. *)
Fixpoint bisect (n : nat) (up : num -> bool) (low high : num) : num :=
  match n with
  | O => low
  | S n =>
      let mid := (low + high) / n2 in
      if up mid then bisect n up mid high else bisect n up low mid
  end.

(** straight.rs 195-229: calculate_reachable_velocity. *)
Definition reachable_velocity (g : generator) (v_start v_end distance : num) : num :=
  if v_start <? v_end then
    bisect LOOP_COUNT (fun mid => acceleration_distance g v_start mid <? distance)
      v_start (g_v_max g)
  else
    bisect LOOP_COUNT (fun mid => negb (acceleration_distance g v_start mid <? distance))
      n0 v_start.

(** straight.rs 129-168: generate_acceleration. *)
Definition generate_acceleration (g : generator) (x_start v_start v_end : num)
  : accel_calc * num :=
  let tc := g_a_max g / g_j_max g in
  let vd := g_a_max g * tc in
  let '(t1, t2, t3) :=
    if nabs (v_end - v_start) >=? vd then
      let tm := nabs (v_end - v_start) / g_a_max g - tc in
      (tc, tc + tm, n2 * tc + tm)
    else
      let td := nsqrt (nabs (v_end - v_start) / g_j_max g) in
      (td, td, n2 * td) in
  let '(a_m, j_m) :=
    if v_start <=? v_end then (g_a_max g, g_j_max g) else (- g_a_max g, - g_j_max g) in
  let distance := (v_start + v_end) * t3 / n2 in
  let x_end := x_start + distance in
  (AccelCalc x_start v_start x_end v_end a_m j_m t1 t2 t3, t3).

(** straight.rs 181-192: generate_constant. *)
Definition generate_constant (x_start distance v : num) : const_calc * num :=
  let t_end := if distance / v <? n0 then n0 else distance / v in
  (ConstCalc t_end x_start v, t_end).

(** straight.rs 61-65: the sign and the absolute distance. *)
Definition split_sign (distance : num) : num * num :=
  if distance <? n0 then (- distance, - n1) else (distance, n1).

(** straight.rs 66-77: the first limit on v_end. *)
Definition limited_v_end (g : generator) (v_start v_end distance : num) : num :=
  let v_reach := reachable_velocity g v_start v_end distance in
  if v_start <? v_end then (if v_reach <? v_end then v_reach else v_end)
  else if v_reach >? v_end then v_reach else v_end.

(** straight.rs 78-90: the peak velocity. *)
Definition peak_velocity (g : generator) (v_start v_end distance : num) : num :=
  bisect LOOP_COUNT
    (fun mid => acceleration_distance g v_start mid + acceleration_distance g mid v_end
                <=? distance)
    (if v_start <? v_end then v_end else v_start) (g_v_max g).

(** straight.rs 55-127: generate_with_terminal_velocity. *)
Definition generate_tv (g : generator) (x_start distance v_start v_end : num)
  : overall * num * num :=
  let '(distance, sign) := split_sign distance in
  let v_end := limited_v_end g v_start v_end distance in
  let v_max := peak_velocity g v_start v_end distance in
  let v_end := if v_end <? v_max then v_end else v_max in
  let dist1 := acceleration_distance g v_start v_max in
  let dist3 := acceleration_distance g v_max v_end in
  let dist2 := distance - dist1 - dist3 in
  let '(accel, dt1) := generate_acceleration g x_start v_start v_max in
  let '(const, dt2) := generate_constant (x_start + dist1) dist2 v_max in
  let '(decel, dt3) := generate_acceleration g (x_start + distance - dist3) v_max v_end in
  let t1 := dt1 in
  let t2 := t1 + dt2 in
  let t3 := t2 + dt3 in
  (Overall x_start v_start t1 t2 t3 distance v_end accel const decel sign, t3, v_end).

(** straight.rs 42-52: generate. *)
Definition generate (g : generator) (x_start distance v_start v_end : num) : overall * num :=
  let '(calculator, t_end, _) := generate_tv g x_start distance v_start v_end in
  (calculator, t_end).

(** straight.rs 245-294: AccelerationCalculator::calculate. *)
Definition accel_calculate (c : accel_calc) (t : num) : axis4 :=
  if t <? n0 then Axis4 (ac_x_start c) (ac_v_start c) n0 n0
  else if t <=? ac_t1 c then
    Axis4 (ac_x_start c + (ac_v_start c * t + ac_j_m c * t * t * t / lit 6 1))
      (ac_v_start c + ac_j_m c * t * t / n2) (ac_j_m c * t) (ac_j_m c)
  else if t <=? ac_t2 c then
    let dt1 := t - ac_t1 c in
    Axis4
      (ac_x_start c
       + (ac_v_start c * ac_t1 c + ac_j_m c * ac_t1 c * ac_t1 c * ac_t1 c / lit 6 1
          + (ac_v_start c + ac_a_m c * ac_t1 c / n2) * dt1
          + ac_a_m c * dt1 * dt1 / n2))
      (ac_v_start c + (ac_a_m c * ac_t1 c / n2 + ac_a_m c * dt1)) (ac_a_m c) n0
  else if t <=? ac_t3 c then
    let dt3 := ac_t3 c - t in
    Axis4
      (ac_x_end c - ac_v_end c * dt3 + ac_j_m c * dt3 * dt3 * dt3 / lit 6 1)
      (ac_v_end c - ac_j_m c * dt3 * dt3 / n2) (ac_j_m c * dt3) (- ac_j_m c)
  else Axis4 (ac_x_end c) (ac_v_end c) n0 n0.

(** straight.rs 305-321: ConstantCalculator::calculate. *)
Definition const_calculate (c : const_calc) (t : num) : axis4 :=
  if (t >? cc_t_end c) || (t <? n0) then
    Axis4 (cc_x_start c + cc_v c * cc_t_end c) (cc_v c) n0 n0
  else Axis4 (cc_x_start c + cc_v c * t) (cc_v c) n0 n0.

(** straight.rs 340-371: OverallCalculator::calculate. *)
Definition calculate (c : overall) (t : num) : axis4 :=
  let target :=
    if t <? n0 then Axis4 (oc_x_start c) (oc_v_start c) n0 n0
    else if t <=? oc_t1 c then accel_calculate (oc_accel c) t
    else if t <=? oc_t2 c then const_calculate (oc_const c) (t - oc_t1 c)
    else if t <=? oc_t3 c then accel_calculate (oc_decel c) (t - oc_t2 c)
    else Axis4 (oc_x_start c + oc_distance c) (oc_v_end c) n0 n0 in
  Axis4 ((tx target - oc_x_start c) * oc_sign c + oc_x_start c)
    (tv target * oc_sign c) (ta target * oc_sign c) (tj target * oc_sign c).

(** ** Iterators *)

(** core::iter::Iterator::next, with [Item = Target] (trajectory.rs 116, 148), as a function of the
    state. *)
Definition iterator (S : Type) : Type := S -> option target * S.

(** straight.rs 472-476: StraightTrajectoryCalculator. *)
Inductive straight_calc := SAccel (c : overall) | SConst (c : const_calc).

(** straight.rs 478-484: StraightTrajectory. *)
Record straight_traj := StraightTraj {
  st_calc : straight_calc; st_t : num; st_t_end : num; st_period : num }.

(** straight.rs 486-495: StraightTrajectory::new. *)
Definition straight_new (c : straight_calc) (t_end period : num) : straight_traj :=
  StraightTraj c n0 t_end period.

(** straight.rs 506-509: the choice of the calculator. *)
Definition straight_calculate (c : straight_calc) (t : num) : axis4 :=
  match c with SAccel c => calculate c t | SConst c => const_calculate c t end.

(** straight.rs 500-514: StraightTrajectory::next. *)
Definition straight_next : iterator straight_traj := fun s =>
  if st_t s >? st_t_end s then (None, s)
  else
    (Some (Target (straight_calculate (st_calc s) (st_t s)) axis4_default axis4_default),
     StraightTraj (st_calc s) (st_t s + st_period s) (st_t_end s) (st_period s)).

(** straight.rs 402-405: StraightGenerator. *)
Record straight_generator := StraightGenerator { sg_gen : generator; sg_period : num }.

(** straight.rs 429-447: StraightGenerator::generate_with_terminal_velocity. *)
Definition straight_generate_tv (g : straight_generator) (distance v_start v_end : num)
  : straight_traj * num :=
  let '(c, t_end, v) := generate_tv (sg_gen g) n0 distance v_start v_end in
  (straight_new (SAccel c) t_end (sg_period g), v).

(** straight.rs 419-427: StraightGenerator::generate. *)
Definition straight_generate (g : straight_generator) (distance v_start v_end : num)
  : straight_traj := fst (straight_generate_tv g distance v_start v_end).

(** straight.rs 449-458: StraightGenerator::generate_constant. *)
Definition straight_generate_constant (distance v period : num) : straight_traj :=
  let '(c, t_end) := generate_constant n0 distance v in
  straight_new (SConst c) t_end period.

(** spin.rs 44-49: SpinTrajectory. *)
Record spin_traj := SpinTraj {
  sp_calc : overall; sp_t : num; sp_t_end : num; sp_period : num }.

(** spin.rs 65-75: SpinTrajectory::next. *)
Definition spin_next : iterator spin_traj := fun s =>
  if sp_t s >? sp_t_end s then (None, s)
  else
    (Some (Target axis4_default axis4_default (calculate (sp_calc s) (sp_t s))),
     SpinTraj (sp_calc s) (sp_t s + sp_period s) (sp_t_end s) (sp_period s)).

(** spin.rs 32-40 and 52-59: SpinGenerator::generate and SpinTrajectory::new. *)
Definition spin_generate (g : generator) (period theta_distance : num) : spin_traj :=
  let '(c, t_end) := generate g n0 theta_distance n0 n0 in
  SpinTraj c n0 t_end period.

(** trajectory.rs 84-107: ShiftTrajectory::shift. *)
Definition shift (p : pose) (t : target) : target :=
  let sin_th := nsin (p_theta p) in
  let cos_th := ncos (p_theta p) in
  Target
    (Axis4 (tx (t_x t) * cos_th - tx (t_y t) * sin_th + p_x p)
       (tv (t_x t) * cos_th - tv (t_y t) * sin_th)
       (ta (t_x t) * cos_th - ta (t_y t) * sin_th)
       (tj (t_x t) * cos_th - tj (t_y t) * sin_th))
    (Axis4 (tx (t_x t) * sin_th + tx (t_y t) * cos_th + p_y p)
       (tv (t_x t) * sin_th + tv (t_y t) * cos_th)
       (ta (t_x t) * sin_th + ta (t_y t) * cos_th)
       (tj (t_x t) * sin_th + tj (t_y t) * cos_th))
    (Axis4 (tx (t_theta t) + p_theta p) (tv (t_theta t)) (ta (t_theta t)) (tj (t_theta t))).

(** trajectory.rs 116-118: ShiftTrajectory::next; the pose never changes. *)
Definition shift_next {S : Type} (p : pose) (next : iterator S) : iterator S := fun s =>
  let '(o, s) := next s in (option_map (shift p) o, s).

(** trajectory.rs 127-132: StopTrajectory. *)
Record stop_traj := StopTraj { so_t : num; so_pose : pose; so_period : num; so_t_end : num }.

(** trajectory.rs 135-142: StopTrajectory::new. *)
Definition stop_new (p : pose) (period t_end : num) : stop_traj := StopTraj n0 p period t_end.

(** trajectory.rs 148-168: StopTrajectory::next. *)
Definition stop_next : iterator stop_traj := fun s =>
  if so_t s <? so_t_end s then
    (Some (Target (Axis4 (p_x (so_pose s)) n0 n0 n0) (Axis4 (p_y (so_pose s)) n0 n0 n0)
             (Axis4 (p_theta (so_pose s)) n0 n0 n0)),
     StopTraj (so_t s + so_period s) (so_pose s) (so_period s) (so_t_end s))
  else (None, s).

(** core::iter::Chain::next (used at slalom.rs 110 and 146): the first iterator is dropped when
    it is exhausted. *)
Definition chain_next {A B : Type} (na : iterator A) (nb : iterator B)
  : iterator (option A * B) := fun s =>
  match s with
  | (Some a, b) =>
      match na a with
      | (Some t, a) => (Some t, (Some a, b))
      | (None, _) => let '(o, b) := nb b in (o, (None, b))
      end
  | (None, b) => let '(o, b) := nb b in (o, (None, b))
  end.

(** ** slalom.rs *)

(** slalom.rs 55-65: SlalomParameters. *)
Record slalom_params := SlalomParams {
  l_start : num; l_end : num; x_curve_end : num; y_curve_end : num; sl_theta : num;
  v_ref : num; dtheta : num; ddtheta : num; dddtheta : num }.

(** slalom.rs 181-189: CurveTrajectory. *)
Record curve_traj := CurveTraj {
  cu_calc : overall; cu_t : num; cu_t_end : num; cu_period : num;
  cu_x : num; cu_y : num; cu_v : num }.

(** slalom.rs 229-284: CurveTrajectory::next. The literal 0.21132487 is written with the denominator
    3 * 10^8, which makes its binary32 value the correctly rounded one (Num.v). *)
Definition curve_next : iterator curve_traj := fun s =>
  if cu_t s >? cu_t_end s then (None, s)
  else
    let t := cu_t s in
    let p := cu_period s in
    let v := cu_v s in
    let angle1 := tx (calculate (cu_calc s) (t + lit 63397461 300000000 * p)) in
    let angle2 := tx (calculate (cu_calc s) (t + lit 7886751 10000000 * p)) in
    let delta_x := n0 + lit 1 2 * ncos angle1 + lit 1 2 * ncos angle2 in
    let delta_y := n0 + lit 1 2 * nsin angle1 + lit 1 2 * nsin angle2 in
    let th := calculate (cu_calc s) t in
    let sin_theta := nsin (tx th) in
    let cos_theta := ncos (tx th) in
    let vx := v * cos_theta in
    let ax := - v * sin_theta * tv th in
    let jx := - v * (cos_theta * (tv th * tv th) + sin_theta * ta th) in
    let vy := v * sin_theta in
    let ay := v * cos_theta * tv th in
    let jy := v * (- sin_theta * (tv th * tv th) + cos_theta * ta th) in
    (Some (Target (Axis4 (cu_x s) vx ax jx) (Axis4 (cu_y s) vy ay jy) th),
     CurveTraj (cu_calc s) (t + p) (cu_t_end s) p
       (cu_x s + v * p * delta_x) (cu_y s + v * p * delta_y) v).

(** slalom.rs 153-178 and 206-223: generate_curve and CurveTrajectory::new. *)
Definition generate_curve (period x y theta theta_distance v v_ref dtheta ddtheta dddtheta : num)
  : curve_traj :=
  let k := v / v_ref in
  let g := Generator (k * dtheta) (k * k * ddtheta) (k * k * k * dddtheta) in
  let '(c, t_end) := generate g theta theta_distance n0 n0 in
  CurveTraj c n0 t_end period x y v.

(** slalom.rs 81-82: the state of a SlalomTrajectory; the pose of the last part is fixed. *)
Definition slalom_state : Type := option (option straight_traj * curve_traj) * straight_traj.

(** slalom.rs 103-107 and 138-142: the pose at the end of the curve. *)
Definition curve_end (q : slalom_params) : pose :=
  Pose (x_curve_end q) (y_curve_end q) (sl_theta q).

(** slalom.rs 81-82: SlalomTrajectory::next, for parameters [q]. *)
Definition slalom_next (q : slalom_params) : iterator slalom_state :=
  chain_next (chain_next straight_next curve_next) (shift_next (curve_end q) straight_next).

(** slalom.rs 85-111: generate_constant_slalom. *)
Definition generate_constant_slalom (period : num) (q : slalom_params) (v : num) : slalom_state :=
  let straight1 := straight_generate_constant (l_start q) v period in
  let curve := generate_curve period (l_start q) n0 n0 (sl_theta q) v (v_ref q) (dtheta q)
                 (ddtheta q) (dddtheta q) in
  let straight2 := straight_generate_constant (l_end q) v period in
  (Some (Some straight1, curve), straight2).

(** slalom.rs 113-149: generate_slalom_with_terminal_velocity. *)
Definition generate_slalom_tv (g : straight_generator) (q : slalom_params)
    (v_start v_middle v_end : num) : slalom_state * num :=
  let '(start_straight, middle) := straight_generate_tv g (l_start q) v_start v_middle in
  let curve := generate_curve (sg_period g) (l_start q) n0 n0 (sl_theta q) middle (v_ref q)
                 (dtheta q) (ddtheta q) (dddtheta q) in
  let '(end_straight, terminal) := straight_generate_tv g (l_end q) middle v_end in
  ((Some (Some start_straight, curve), end_straight), terminal).

(** slalom.rs 446-475: create_params, with the index of 480-483 (Left is 0, Right is 1) already
    applied. slalom.rs 337-353: the default turning limits. *)
Definition create_params (l_start l_end x_curve_end y_curve_end v_ref theta square_width : num)
    (d : sdir) : slalom_params :=
  let y := square_width * y_curve_end in
  let th := degree theta in
  let '(y, th) := match d with SLeft => (y, th) | SRight => (- y, - th) end in
  SlalomParams (square_width * l_start) (square_width * l_end) (square_width * x_curve_end)
    y th (square_width * v_ref) (lit 3 1 * npi) (lit 36 1 * npi) (lit 1200 1 * npi).

(** slalom.rs 355-379: the entry search90 of SlalomConfig::new. The literal 2.6843333 is written with
    the denominator 3 * 10^7 (Num.v). *)
Definition search90_params (square_width search_front_offset : num) (d : sdir) : slalom_params :=
  let off := search_front_offset / lit 9 100 in
  if off <=? lit 55555556 1000000000 then
    create_params (lit 55555567 1000000000 - off) (lit 55555556 1000000000 + off)
      (lit 5 10 - off) (lit 44444445 100000000) (lit 80529999 30000000) (lit 90 1)
      square_width d
  else
    create_params n0 (off + off) (lit 5 10 - off) (lit 5 10 - off)
      ((lit 5 10 - off) * lit 603975 100000) (lit 90 1) square_width d.

(** slalom.rs 355-444 and 477-494: SlalomConfig::new(square_width, front_offset) followed by
    parameters(kind, direction); [None] is Search90, the other kinds are those of the run
    solver (RunModel.skind). The literal 0.17377333 is written with the denominator 3 * 10^8 (Num.v). *)
Definition parameters (square_width search_front_offset : num) (k : option skind) (d : sdir)
  : slalom_params :=
  let c l_start l_end x y v th := create_params l_start l_end x y v (lit th 1) square_width d in
  match k with
  | None => search90_params square_width search_front_offset d
  | Some FastRun45 =>
      c (lit 1564414 10000000) (lit 3680321 10000000) (lit 739762 1000000) (lit 239762 1000000)
        (lit 33333333 10000000) 45%Z
  | Some FastRun45Rev =>
      c (lit 3635475 10000000) (lit 1564412 10000000) (lit 9500395 10000000)
        (lit 2429328 10000000) (lit 33333333 10000000) 45%Z
  | Some FastRun90 =>
      c (lit 22222222 100000000) (lit 22222222 100000000) (lit 10 10) (lit 7777778 10000000)
        (lit 4697589 1000000) 90%Z
  | Some FastRun135 =>
      c (lit 24291888 100000000) (lit 15713444 100000000) (lit 6111111 10000000)
        (lit 8888889 10000000) (lit 3928989 1000000) 135%Z
  | Some FastRun135Rev =>
      c (lit 15713444 100000000) (lit 24291888 100000000) (lit 52532303 100000000)
        (lit 88889056 100000000) (lit 3928989 1000000) 135%Z
  | Some FastRun180 =>
      c (lit 26666668 100000000) (lit 26666668 100000000) (lit 26666668 100000000) (lit 10 10)
        (lit 45803113 10000000) 180%Z
  | Some FastRunDiagonal90 =>
      c (lit 52131999 300000000) (lit 52131999 300000000) (lit 70710665 100000000)
        (lit 53333336 100000000) (lit 32212 10000) 90%Z
  end.

(** ** Poses *)

(** wall.rs 32-55: Pose::from_search_state. *)
Definition pose_of_search (s : search_state) (square_width front_offset : num) : pose :=
  let half := square_width / n2 in
  let x := (of_int (cx (ss_coord s)) + n1) * half in
  let y := (of_int (cy (ss_coord s)) + n1) * half in
  let '(x, y, th) :=
    match ss_posture s with
    | North => (x, y + front_offset, lit 90 1)
    | South => (x, y - front_offset, - lit 90 1)
    | East => (x + front_offset, y, n0)
    | West => (x - front_offset, y, lit 180 1)
    end in
  Pose x y (degree th).

(** wall.rs 57-73: Pose::from_node (the addition on u8 cannot overflow for a valid node). *)
Definition pose_of_node (n : node) (square_width : num) : pose :=
  Pose (of_int (nx n + 1) * square_width / n2) (of_int (ny n + 1) * square_width / n2)
    (degree
       match np n with
       | PN => lit 90 1 | PNE => lit 45 1 | PE => n0 | PSE => - lit 45 1 | PS => - lit 90 1
       | PSW => - lit 135 1 | PW => lit 180 1 | PNW => lit 135 1
       end).

End Traj.
