(** Model of mousecore2/src/control.rs and mousecore2/src/estimate.rs.
    Units are erased (Num.v), so LengthTarget and AngleTarget (LengthState and AngleState)
    become one record each. *)
From Coq Require Import ZArith Reals List Bool.
From Verif Require Import Base Num.
Import ListNotations.
Open Scope Z_scope.

(** control.rs 43-58: LengthTarget, AngleTarget. *)
Record axis4 {K : ops} := Axis4 { tx : num; tv : num; ta : num; tj : num }.
(** control.rs 36-41: Target. *)
Record target {K : ops} := Target { t_x : axis4; t_y : axis4; t_theta : axis4 }.
(** estimate.rs 18-30: LengthState, AngleState. *)
Record axis3 {K : ops} := Axis3 { sx : num; sv : num; sa : num }.
(** estimate.rs 11-16: State. *)
Record state {K : ops} := State { s_x : axis3; s_y : axis3; s_theta : axis3 }.
(** control.rs 27-31: MotorOutput. *)
Record motor_output {K : ops} := MotorOutput { m_left : num; m_right : num }.
(** control.rs 60-66: ControlTarget. *)
Record control_target {K : ops} :=
  ControlTarget { c_v : num; c_a : num; c_omega : num; c_alpha : num }.
(** control.rs 274-280: TrackingInput. *)
Record tracking_input {K : ops} :=
  TrackingInput { u_x : num; u_y : num; du_x : num; du_y : num }.

Arguments Axis4 {K}. Arguments Target {K}. Arguments Axis3 {K}. Arguments State {K}.
Arguments MotorOutput {K}. Arguments ControlTarget {K}. Arguments TrackingInput {K}.

Section Control.
Context {K : ops}.
Open Scope num_scope.

(** ** Tracker *)

(** control.rs 68-78: Tracker (the builder starts [xi] at 0). *)
Record tracker := Tracker {
  k_xi : num; k_period : num; k_xi_threshold : num; k_zeta : num; k_b : num }.

(** control.rs 158-169: normalize_angle. *)
Definition normalize_angle (angle : num) : num :=
  let raw_angle := rem_euclid angle (n2 * npi) in
  if raw_angle >? npi then raw_angle - n2 * npi else raw_angle.

(** control.rs 171-176: sinc. *)
Definition sinc (x : num) : num :=
  let xx := x * x in
  let xxxx := xx * xx in
  xxxx * xxxx / lit 362880 1 - xxxx * xx / lit 5040 1 + xxxx / lit 120 1 - xx / lit 6 1 + n1.

(** control.rs 81-155: Tracker::track; returns the reference, the measured values and the
    new tracker. *)
Definition track (k : tracker) (s : state) (t : target) (i : tracking_input)
  : control_target * control_target * tracker :=
  let sin_th := nsin (sx (s_theta s)) in
  let cos_th := ncos (sx (s_theta s)) in
  let vv := sv (s_x s) * cos_th + sv (s_y s) * sin_th in
  let va := sa (s_x s) * cos_th + sa (s_y s) * sin_th in
  let ux := u_x i in let uy := u_y i in let dux := du_x i in let duy := du_y i in
  let dxi := ux * cos_th + uy * sin_th in
  let xi := k_xi k + k_period k * dxi in
  let sin_th_r := nsin (tx (t_theta t)) in
  let cos_th_r := ncos (tx (t_theta t)) in
  let vr := tv (t_x t) * cos_th_r + tv (t_y t) * sin_th_r in
  let '(uv, uw, duv, duw) :=
    if (nabs vr >? k_xi_threshold k) && (nabs xi >? k_xi_threshold k) then
      let uw := (uy * cos_th - ux * sin_th) / xi in
      let duw := - ((n2 * dxi * uw + dux * sin_th - duy * cos_th) / xi) in
      (xi, uw, dxi, duw)
    else
      let theta_d := normalize_angle (tx (t_theta t) - sx (s_theta s)) in
      let cos_th_d := ncos theta_d in
      let xd := tx (t_x t) - sx (s_x s) in
      let yd := tx (t_y t) - sx (s_y s) in
      let wr := tv (t_theta t) in
      let k1 := n2 * k_zeta k * nsqrt (wr * wr + k_b k * vr * vr) in
      let k2 := k_b k in
      let k3 := k1 in
      let uv := vr * cos_th_d + k1 * (xd * cos_th + yd * sin_th) in
      let uw := wr + k2 * vr * (- xd * sin_th + yd * cos_th) * sinc theta_d + k3 * theta_d in
      (uv, uw, ta (t_x t) * cos_th_r + ta (t_y t) * sin_th_r, ta (t_theta t)) in
  (ControlTarget uv duv uw duw,
   ControlTarget vv va (sv (s_theta s)) (sa (s_theta s)),
   Tracker xi (k_period k) (k_xi_threshold k) (k_zeta k) (k_b k)).

(** ** Controller *)

(** control.rs 178-185: ControlParameters. *)
Record control_parameters :=
  ControlParameters { kp : num; ki : num; kd : num; model_k : num; model_t1 : num }.
(** control.rs 187-196: Controller. *)
Record controller := Controller {
  trans_params : control_parameters; rot_params : control_parameters;
  trans_sum : num; rot_sum : num; c_period : num }.

(** control.rs 187-196: Controller::builder().build(): both sums start at 0. *)
Definition controller_new (tp rp : control_parameters) (period : num) : controller :=
  Controller tp rp n0 n0 period.

(** control.rs 199-214: Controller::control_each; returns the voltage and the new error sum. *)
Definition control_each (r dr y dy : num) (p : control_parameters) (period error_sum : num)
  : num * num :=
  let vol_f := (dr * model_t1 p + r) / model_k p in
  let vol_p := kp p * (r - y) in
  let vol_i := ki p * error_sum in
  let vol_d := kd p * (dr - dy) in
  (vol_f + vol_p + vol_i + vol_d, error_sum + (r - y) * period).

(** control.rs 216-219: Controller::reset. *)
Definition reset (c : controller) : controller :=
  Controller (trans_params c) (rot_params c) n0 n0 (c_period c).

(** control.rs 221-247: Controller::control. *)
Definition control (c : controller) (r y : control_target) : motor_output * controller :=
  let '(vol_t, ts) :=
    control_each (c_v r) (c_a r) (c_v y) (c_a y) (trans_params c) (c_period c) (trans_sum c) in
  let '(vol_r, rs) :=
    control_each (c_omega r) (c_alpha r) (c_omega y) (c_alpha y) (rot_params c) (c_period c)
      (rot_sum c) in
  (MotorOutput (vol_t - vol_r) (vol_t + vol_r),
   Controller (trans_params c) (rot_params c) ts rs (c_period c)).

(** ** NavigationController *)

(** control.rs 250-256: NavigationController. *)
Record navigation := Navigation { gain : num; dgain : num }.

(** control.rs 259-271: NavigationController::navigate. *)
Definition navigate (n : navigation) (s : state) (t : target) : tracking_input :=
  let u r x := ta r + dgain n * (tv r - sv x) + gain n * (tx r - sx x) in
  let du r x := tj r + dgain n * (ta r - sa x) + gain n * (tv r - sv x) in
  TrackingInput (u (t_x t) (s_x s)) (u (t_y t) (s_y s))
    (du (t_x t) (s_x s)) (du (t_y t) (s_y s)).

(** ** SupervisoryController *)

(** control.rs 289-295: SupervisoryController. *)
Record supervisory :=
  Supervisory { margin : num; avoidance_distance : num; square_width : num }.

(** the largest usize (32 bits, the target of the firmware); used by control.rs 282-287. *)
Definition USIZE_MAX : Z := 4294967295.

(** [v as i8] for an unsigned [v] of any size (control.rs 286). *)
Definition usize_as_i8 (v : Z) : Z := as_i8 (as_u8 v).

(** control.rs 282-287: remquof. [get::<millimeter>()] divides the value in metres by 0.001. *)
Definition remquof (value base : num) : res (Z * num) :=
  let iwidth := to_int 0 USIZE_MAX (base / lit 1 1000) in
  let ivalue := to_int 0 USIZE_MAX (value / lit 1 1000) in
  if (iwidth =? 0)%Z then Panic
  else
    let d := (ivalue / iwidth)%Z in
    Ret (usize_as_i8 d, value - base * of_int d).

(** control.rs 325-350: the array of cells in nearest_pillars; the arithmetic is on i8. The
    first array (331-336) is built before the second one (337-344). *)
Definition pillar_cells (w : num) (divx divy : Z) (remx remy : num) : res (list (Z * Z)) :=
  let* x1 := chk_i8 (divx + 1) in
  let* y1 := chk_i8 (divy + 1) in
  let* more :=
    match remy >? remx, remy >? w - remx with
    | true, true => let* y2 := chk_i8 (divy + 2) in Ret [(divx, y2); (x1, y2)]
    | true, false => let* x2 := chk_i8 (divx - 1) in Ret [(x2, divy); (x2, y1)]
    | false, true => let* x2 := chk_i8 (divx + 2) in Ret [(x2, divy); (x2, y1)]
    | false, false => let* y2 := chk_i8 (divy - 1) in Ret [(divx, y2); (x1, y2)]
    end in
  Ret ([(divx, divy); (x1, divy); (divx, y1); (x1, y1)] ++ more).

(** control.rs 345-350: the map at the end of nearest_pillars (lazy, in order). *)
Fixpoint pillar_points (w : num) (cs : list (Z * Z)) : res (list (num * num)) :=
  match cs with
  | [] => Ret []
  | (x, y) :: cs =>
      let* x1 := chk_i8 (x + 1) in
      let* y1 := chk_i8 (y + 1) in
      let* l := pillar_points w cs in
      Ret ((of_int x1 * w, of_int y1 * w) :: l)
  end.

(** control.rs 325-351: nearest_pillars. *)
Definition nearest_pillars (c : supervisory) (s : state) : res (list (num * num)) :=
  let w := square_width c in
  let* (divx, remx) := remquof (sx (s_x s)) w in
  let* (divy, remy) := remquof (sx (s_y s)) w in
  let* cs := pillar_cells w divx divy remx remy in
  pillar_points w cs.

(** control.rs 302-315: the linear constraint a1 ux + a2 uy + b >= 0 of one pillar. *)
Definition constraint_of (c : supervisory) (s : state) (p : num * num) : num * num * num :=
  let '(x, y) := p in
  let dx := sx (s_x s) - x in
  let dy := sx (s_y s) - y in
  let vx := sv (s_x s) in
  let vy := sv (s_y s) in
  let b_part := n2 * (vx * vx + vy * vy) in
  let a1 := n2 * dx in
  let a2 := n2 * dy in
  let b := b_part + lit 4 1 * margin c * (dx * vx + dy * vy)
           + margin c * margin c
             * (dx * dx + dy * dy - avoidance_distance c * avoidance_distance c) in
  (a1, a2, b).

(** control.rs 317-319: the value compared by min_by. *)
Definition slack (i : tracking_input) (k : num * num * num) : num :=
  let '(a1, a2, b) := k in a1 * u_x i + a2 * u_y i + b.

(** control.rs 316-320: one comparison of min_by: the later element wins only when it is
    smaller; an incomparable pair panics. *)
Definition min_step (i : tracking_input) (m k : num * num * num) : res (num * num * num) :=
  if slack i m >? slack i k then Ret k
  else if (slack i m <? slack i k) || (slack i m =? slack i k) then Ret m
  else Panic.

(** control.rs 316-320: Iterator::min_by after the first element. *)
Fixpoint min_by (i : tracking_input) (m : num * num * num) (l : list (num * num * num))
  : res (num * num * num) :=
  match l with
  | [] => Ret m
  | k :: l => let* m := min_step i m k in min_by i m l
  end.

(** control.rs 366-384: the new input. *)
Definition project (i : tracking_input) (a1 a2 b : num) : res (num * num) :=
  let ux := u_x i in let uy := u_y i in
  if negb (a2 =? n0) then
    let a := - a1 / a2 in
    let b := - b / a2 in
    let c1 := a * a + n1 in
    let c2 := n2 * (a * b - ux - a * uy) in
    let ux2 := - c2 / (n2 * c1) in
    Ret (ux2, a * ux2 + b)
  else if negb (a1 =? n0) then
    let a := - a2 / a1 in
    let b := - b / a1 in
    let c1 := a * a + n1 in
    let c2 := n2 * (a * b - uy - a * ux) in
    let uy2 := - c2 / (n2 * c1) in
    Ret (a * uy2 + b, uy2)
  else Panic.

(** control.rs 388: to_polar. *)
Definition to_polar (x y : num) : num * num := (nsqrt (x * x + y * y), natan2 y x).

(** control.rs 353-403: apply_constraints. *)
Definition apply_constraints (i : tracking_input) (a1 a2 b : num) : res tracking_input :=
  if isnan a1 || isnan a2 || isnan b then Panic
  else if a1 * u_x i + a2 * u_y i + b >=? n0 then Ret i
  else
    let* (ux2, uy2) := project i a1 a2 b in
    if isnan ux2 || isnan uy2 then Panic
    else
      let '(r, t) := to_polar (u_x i) (u_y i) in
      let '(r2, t2) := to_polar ux2 uy2 in
      let '(dr, dt) := to_polar (du_x i) (du_y i) in
      let dr2 := dr * r2 / r in
      let dt2 := dt + t2 - t in
      Ret (TrackingInput ux2 uy2 (dr2 * ncos dt2) (dr2 * nsin dt2)).

(** control.rs 298-323: supervise. *)
Definition supervise (c : supervisory) (i : tracking_input) (s : state) : res tracking_input :=
  let* ps := nearest_pillars c s in
  match map (constraint_of c s) ps with
  | [] => Panic
  | k :: l =>
      let* (a1, a2, b) := min_by i k l in
      apply_constraints i a1 a2 b
  end.

(** ** Estimator *)

(** estimate.rs 32-38: SensorValue. *)
Record sensor_value := SensorValue {
  left_distance : num; right_distance : num;
  translational_acceleration : num; angular_velocity : num }.

(** estimate.rs 41-54: Estimator. *)
Record estimator := Estimator {
  e_period : num; e_alpha : num; e_slip_const : num; e_approx_th : num;
  e_slip_angle : num; e_trans_vel : num }.

(** estimate.rs 41-54: Estimator::builder().build(): slip angle and speed start at 0. *)
Definition estimator_new (period alpha slip_const approx_th : num) : estimator :=
  Estimator period alpha slip_const approx_th n0 n0.

(** estimate.rs 57-107: Estimator::estimate. *)
Definition estimate (e : estimator) (s : state) (v : sensor_value) : state * estimator :=
  let period := e_period e in
  let ang_vel := angular_velocity v in
  let trans_acc := translational_acceleration v in
  let average_left_velocity := left_distance v / period in
  let average_right_velocity := right_distance v / period in
  let average_trans_velocity := (average_left_velocity + average_right_velocity) / n2 in
  let tv := e_alpha e * (e_trans_vel e + trans_acc * period)
            + (n1 - e_alpha e) * average_trans_velocity in
  let rev_period := n1 / period in
  let slip := (e_slip_angle e * rev_period + ang_vel)
              / (rev_period + e_slip_const e / nabs tv) in
  let dtheta := ang_vel * period in
  let trans_distance :=
    (if nabs ang_vel <? e_approx_th e then tv * period
     else n2 * tv * nsin (dtheta / n2) / ang_vel) / ncos slip in
  let theta_m := sx (s_theta s) - slip + dtheta / n2 in
  let sin_th := nsin theta_m in
  let cos_th := ncos theta_m in
  (State
     (Axis3 (sx (s_x s) + trans_distance * cos_th) (tv * cos_th) (trans_acc * cos_th))
     (Axis3 (sx (s_y s) + trans_distance * sin_th) (tv * sin_th) (trans_acc * sin_th))
     (Axis3 (sx (s_theta s) + dtheta) ang_vel ((ang_vel - sv (s_theta s)) / period)),
   Estimator period (e_alpha e) (e_slip_const e) (e_approx_th e) slip tv).

End Control.
