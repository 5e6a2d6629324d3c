(** Model of mousesim2/src/lib.rs: the simulator.  Units are erased (Num.v). *)
From Coq Require Import ZArith List Bool.
From Verif Require Import Base SearchModel WallsModel Num ControlModel TrajModel DetectModel.
Import ListNotations.

(** mousesim2/src/lib.rs 24-28: EncoderOutput. *)
Record encoder_output {K : ops} := EncoderOutput { e_left : num; e_right : num }.
Arguments EncoderOutput {K}.
(** mousesim2/src/lib.rs 30-34: Normal<Length>. *)
Record normal {K : ops} := Normal { n_mean : num; n_stddev : num }.
Arguments Normal {K}.

Section Sim.
Context {K : ops}.
Open Scope num_scope.

(** mousesim2/src/lib.rs 36-54: Simulator.  [pose_converter] is always the default one and is
    not a field here; the text of the maze is already parsed (WallsModel.v). *)
Record simulator := Simulator {
  m_walls : walls; m_current : state; m_last : state;
  m_right_voltage : num; m_left_voltage : num; m_max_voltage : num; m_period : num;
  m_trans_k : num; m_trans_t1 : num; m_rot_k : num; m_rot_t1 : num; m_wheel_interval : num }.

(** mousesim2/src/lib.rs 36-54: the builder; both voltages start at 0. *)
Definition simulator_new (w : walls) (current last : state)
  (max_voltage period trans_k trans_t1 rot_k rot_t1 wheel_interval : num) : simulator :=
  Simulator w current last n0 n0 max_voltage period trans_k trans_t1 rot_k rot_t1 wheel_interval.

(** mousesim2/src/lib.rs 93-95: Simulator::trans_vel. *)
Definition trans_vel (s : state) : num :=
  sv (s_x s) * ncos (sx (s_theta s)) + sv (s_y s) * nsin (sx (s_theta s)).

(** mousesim2/src/lib.rs 97-104: Simulator::next_trans_vel. *)
Definition next_trans_vel (m : simulator) : num :=
  let alpha := m_trans_t1 m / (m_trans_t1 m + m_period m) in
  let current := trans_vel (m_current m) in
  let trans_voltage := (m_right_voltage m + m_left_voltage m) / n2 in
  current * alpha + (n1 - alpha) * (m_trans_k m * trans_voltage).

(** mousesim2/src/lib.rs 106-113: Simulator::next_rot_vel. *)
Definition next_rot_vel (m : simulator) : num :=
  let alpha := m_rot_t1 m / (m_rot_t1 m + m_period m) in
  let current := sv (s_theta (m_current m)) in
  let rot_voltage := (m_right_voltage m - m_left_voltage m) / n2 in
  current * alpha + (n1 - alpha) * (m_rot_k m * rot_voltage).

(** mousesim2/src/lib.rs 62-91: Simulator::step. *)
Definition step (m : simulator) : simulator :=
  let cur := m_current m in
  let period := m_period m in
  let current_trans_vel := trans_vel cur in
  let next_trans_vel := next_trans_vel m in
  let next_rot_vel := next_rot_vel m in
  let theta := sx (s_theta cur) + next_rot_vel * period in
  let theta_a := (next_rot_vel - sv (s_theta cur)) / period in
  let cur_sin := nsin (sx (s_theta cur)) in
  let cur_cos := ncos (sx (s_theta cur)) in
  let next_sin := nsin theta in
  let next_cos := ncos theta in
  let x := sx (s_x cur) + (current_trans_vel * cur_cos + next_trans_vel * next_cos) * period / n2 in
  let y := sx (s_y cur) + (current_trans_vel * cur_sin + next_trans_vel * next_sin) * period / n2 in
  let xv := next_trans_vel * next_cos in
  let yv := next_trans_vel * next_sin in
  let xa := (xv - sv (s_x cur)) / period in
  let ya := (yv - sv (s_y cur)) / period in
  Simulator (m_walls m) (State (Axis3 x xv xa) (Axis3 y yv ya) (Axis3 theta next_rot_vel theta_a)) cur
    (m_right_voltage m) (m_left_voltage m) (m_max_voltage m) period
    (m_trans_k m) (m_trans_t1 m) (m_rot_k m) (m_rot_t1 m) (m_wheel_interval m).

(** mousesim2/src/lib.rs 126-134: Simulator::average. *)
Definition average (m : simulator) (f : state -> num) : num :=
  (f (m_current m) + f (m_last m)) / n2.

(** mousesim2/src/lib.rs 115-124: Simulator::distance. *)
Definition distance (m : simulator) : encoder_output :=
  let average_trans := average m (fun s =>
    sv (s_x s) * ncos (sx (s_theta s)) + sv (s_y s) * nsin (sx (s_theta s))) in
  let average_rot := average m (fun s => sv (s_theta s)) in
  EncoderOutput ((average_trans - average_rot * m_wheel_interval m / n2) * m_period m)
    ((average_trans + average_rot * m_wheel_interval m / n2) * m_period m).

(** mousesim2/src/lib.rs 136-138: Simulator::angular_velocity. *)
Definition sim_angular_velocity (m : simulator) : num := sv (s_theta (m_current m)).

(** mousesim2/src/lib.rs 140-143: Simulator::translational_acceleration. *)
Definition sim_translational_acceleration (m : simulator) : num :=
  sa (s_x (m_current m)) * ncos (sx (s_theta (m_current m)))
  + sa (s_y (m_current m)) * nsin (sx (s_theta (m_current m))).

(** mousesim2/src/lib.rs 146-154: the closure [limit] of Simulator::apply. *)
Definition limit (max val : num) : num :=
  if val >? max then max else if val <? - max then - max else val.

(** mousesim2/src/lib.rs 145-159: Simulator::apply. *)
Definition apply (m : simulator) (o : motor_output) : simulator :=
  Simulator (m_walls m) (m_current m) (m_last m)
    (limit (m_max_voltage m) (m_right o)) (limit (m_max_voltage m) (m_left o))
    (m_max_voltage m) (m_period m)
    (m_trans_k m) (m_trans_t1 m) (m_rot_k m) (m_rot_t1 m) (m_wheel_interval m).

(** mousesim2/src/lib.rs 161-179: Simulator::distance_from_wall; an infinite distance is [None]
    inside [WallInfo] (DetectModel.v) and [length_of] turns it into the number used from there on. *)
Definition distance_from_wall (W : Z) (m : simulator) (p : pose) : res (option normal) :=
  let* info := convert W converter_default p in
  match info with
  | None => Ret None
  | Some i =>
    let* st := walls_state W (m_walls m) (w_coord i) in
    let d := length_of (match st with Checked true => w_existing i | _ => w_not_existing i end) in
    Ret (if isnan d then None else Some (Normal d (lit 2 1000)))
  end.

End Sim.
Arguments Simulator {K}.
