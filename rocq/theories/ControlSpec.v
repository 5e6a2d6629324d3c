(** What the controllers and the estimator are meant to compute, stated without the
    definitions of ControlModel except for its data types. *)
From Coq Require Import ZArith Reals List.
From Verif Require Import Base Num ControlModel.
Import ListNotations.

(** ** Controller histories *)

Inductive call {K : ops} := Control (r y : control_target) | Reset.

(** the controller after a history of calls. *)
Definition step_call {K : ops} (c : controller) (x : call) : controller :=
  match x with Control r y => snd (control c r y) | Reset => reset c end.
Definition run_calls {K : ops} (c : controller) (h : list call) : controller :=
  fold_left step_call h c.

(** the (reference, measurement) pairs of the control calls after the last reset. *)
Fixpoint since_reset {K : ops} (acc : list (control_target * control_target)) (h : list call) :=
  match h with
  | [] => acc
  | Reset :: h => since_reset [] h
  | Control r y :: h => since_reset (acc ++ [(r, y)]) h
  end.

(** the accumulated error, oldest first, of one channel. *)
Definition integral {K : ops} (period : num) (f : control_target -> num)
    (l : list (control_target * control_target)) : num :=
  fold_left (fun s p => (s + (f (fst p) - f (snd p)) * period)%num) l n0.

(** feed-forward + P + I + D. *)
Definition ff_pid {K : ops} (p : control_parameters) (r dr y dy integ : num) : num :=
  ((dr * model_t1 p + r) / model_k p + kp p * (r - y) + ki p * integ + kd p * (dr - dy))%num.

Fixpoint Rsum (l : list R) : R :=
  match l with [] => 0 | x :: l => x + Rsum l end%R.

(** ** Planar geometry *)

Open Scope R_scope.

Definition sqdist (x y x' y' : R) : R := (x - x') * (x - x') + (y - y') * (y - y').

(** (c, d) is obtained from (a, b) by the rotation and scaling taking (x, y) to (x', y'),
    i.e. (c + d i)(x + y i) = (a + b i)(x' + y' i). *)
Definition same_turn (x y x' y' a b c d : R) : Prop :=
  c * x - d * y = a * x' - b * y' /\ c * y + d * x = a * y' + b * x'.

(** a target moving along its heading with speed v, acceleration v', turn rate w and angular
    acceleration w' (first and second derivatives of the velocity (v cos th, v sin th)). *)
Definition unicycle (t : @target Rops) (v v' v'' : R) : Prop :=
  let th := tx (t_theta t) in let w := tv (t_theta t) in let w' := ta (t_theta t) in
  tv (t_x t) = v * cos th /\ tv (t_y t) = v * sin th /\
  ta (t_x t) = v' * cos th - v * w * sin th /\ ta (t_y t) = v' * sin th + v * w * cos th /\
  tj (t_x t) = (v'' - v * w * w) * cos th - (2 * v' * w + v * w') * sin th /\
  tj (t_y t) = (v'' - v * w * w) * sin th + (2 * v' * w + v * w') * cos th.

(** ** Pillars *)

(** squared distance to a pillar minus the squared avoidance distance. *)
Definition clearance (d px py x y : R) : R := sqdist x y px py - d * d.

(** with h the clearance to the pillar, h'' + 2 m h' + m^2 h for a point with the position and
    velocity of [s] and acceleration (ux, uy). *)
Definition barrier (m d px py : R) (s : @state Rops) (ux uy : R) : R :=
  let x := sx (s_x s) in let y := sx (s_y s) in let vx := sv (s_x s) in let vy := sv (s_y s) in
  2 * (vx * vx + vy * vy) + 2 * ((x - px) * ux + (y - py) * uy)
  + 2 * m * (2 * ((x - px) * vx + (y - py) * vy))
  + m * m * clearance d px py x y.

(** the position is in the cell (i, j) of a maze with squares of width w. *)
Definition in_cell (w : R) (i j : Z) (x y : R) : Prop :=
  IZR i * w <= x < (IZR i + 1) * w /\ IZR j * w <= y < (IZR j + 1) * w.

(** ** Motions in continuous time *)

(** the state moves along its heading with speed [v]. *)
Definition rolls (v : R -> R) (S : R -> @state Rops) : Prop :=
  forall u, sv (s_x (S u)) = v u * cos (sx (s_theta (S u))) /\ sv (s_y (S u)) = v u * sin (sx (s_theta (S u))).

(** at time [u] the state carries out the command: speed, acceleration and turn rate are those
    commanded, and the position follows the velocity. *)
Definition obeys (v : R -> R) (S : R -> @state Rops) (c : R -> @control_target Rops) (u : R) : Prop :=
  c_v (c u) = v u /\ derivable_pt_lim v u (c_a (c u)) /\
  derivable_pt_lim (fun w => sx (s_theta (S w))) u (c_omega (c u)) /\
  derivable_pt_lim (fun w => sx (s_x (S w))) u (sv (s_x (S u))) /\
  derivable_pt_lim (fun w => sx (s_y (S w))) u (sv (s_y (S u))).

(** at time [u] velocity and acceleration of the target are the derivatives of position and velocity. *)
Definition smooth (T : R -> @target Rops) (u : R) : Prop :=
  forall r : @target Rops -> @axis4 Rops, r = t_x \/ r = t_y ->
  derivable_pt_lim (fun w => tx (r (T w))) u (tv (r (T u))) /\
  derivable_pt_lim (fun w => tv (r (T w))) u (ta (r (T u))).

(** squared speed error plus [g] times the squared distance. *)
Definition error_energy (g : R) (S : @state Rops) (T : @target Rops) : R :=
  sqdist (tv (t_x T)) (tv (t_y T)) (sv (s_x S)) (sv (s_y S)) +
  g * sqdist (tx (t_x T)) (tx (t_y T)) (sx (s_x S)) (sx (s_y S)).

(** ** Estimator *)

(** estimator and state after a history of sensor values. *)
Definition est_run {K : ops} (es : estimator * state) (l : list sensor_value) : estimator * state :=
  fold_left (fun es v => let '(s, e) := estimate (fst es) (snd es) v in (e, s)) l es.

(** complementary filter of acceleration and encoder speed. *)
Definition filter_step (alpha T v : R) (s : @sensor_value Rops) : R :=
  alpha * (v + translational_acceleration s * T)
  + (1 - alpha) * ((left_distance s + right_distance s) / (2 * T)).

Fixpoint filtered (alpha T v : R) (l : list (@sensor_value Rops)) : R :=
  match l with [] => v | s :: l => filtered alpha T (filter_step alpha T v s) l end.
