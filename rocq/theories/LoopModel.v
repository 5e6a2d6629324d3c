(** Model of the control loops of the integration tests: mousecore2/tests/search.rs 254-334 and
    mousecore2/tests/run.rs 212-256. *)
From Coq Require Import ZArith List Bool.
From Verif Require Import Base SearchModel WallsModel Num ControlModel TrajModel DetectModel SimModel RouteModel.
Import ListNotations.
Open Scope num_scope.

Section Loop.
Context {K : ops}.

(** search.rs 256-264 and run.rs 216-224: the readings taken from the simulator. *)
Definition readings (m : simulator) : sensor_value :=
  let d := distance m in
  SensorValue (e_left d) (e_right d) (sim_translational_acceleration m) (sim_angular_velocity m).

(** search.rs 115-131, 139-142, 162-164, 167-227: what the loop uses and does not change.
    [v_move] gives the trajectories [front], [right], [left], [back]. *)
Record search_setup := SearchSetup {
  v_searcher : searcher; v_navigation : navigation; v_sensors : list pose;
  v_square : num; v_offset : num; v_move : traj_kind -> inner }.

(** search.rs 133-161, 229-252: what the loop changes. *)
Record search_vars := SearchVars {
  l_estimator : estimator; l_state : state; l_trajectory : boxed; l_next : option boxed;
  l_tracker : tracker; l_controller : controller; l_commander : option (list coord);
  l_robot : search_state; l_walls : walls; l_detector : detector; l_simulator : simulator }.

(** search.rs 268-275: the target of this period, the trajectory and what is left of [next]. The
    unwrap of 272 and the unreachable of 274 are [Panic]. *)
Definition take_target (b : boxed) (next : option boxed) : res (target * boxed * option boxed) :=
  match boxed_next b with
  | (Some t, b') => Ret (t, b', next)
  | (None, _) =>
      match next with
      | None => Panic
      | Some b2 => match boxed_next b2 with (Some t, b2') => Ret (t, b2', None) | (None, _) => Panic end
      end
  end.

(** search.rs 282-312: [None] for the break of 307; otherwise commander, next and robot. The unwrap
    of 288 and the unreachables of 303 and 308 are [Panic]. *)
Definition decide (W : Z) (v : search_setup) (commander : option (list coord)) (next : option boxed)
  (robot : search_state) (w : walls) : res (option (option (list coord) * option boxed * search_state)) :=
  match commander with
  | Some cs =>
      let* r := next_coordinate cs (walls_state W w) in
      match r with
      | NSome n =>
          let p := pose_of_search robot (v_square v) (v_offset v) in
          let* (robot', k) := ss_update robot n in
          match k with
          | Some k => Ret (Some (None, Some (Boxed p (v_move v k)), robot'))
          | None => Panic
          end
      | NNone => Ret (Some (Some cs, next, robot))
      | NErr => Panic
      end
  | None =>
      match next with
      | None =>
          let* r := search W (v_searcher v) (ss_coord robot) (walls_state W w) in
          match r with
          | SSome cs => Ret (Some (Some cs, None, robot))
          | SNone => Ret None
          | SErr => Panic
          end
      | Some b => Ret (Some (None, Some b, robot))
      end
  end.

(** search.rs 316-322: the pose of a sensor in the maze, from the estimated state. *)
Definition sensor_pose (s : state) (p : pose) : pose :=
  let cos_th := ncos (sx (s_theta s)) in
  let sin_th := nsin (sx (s_theta s)) in
  Pose (sx (s_x s) + p_x p * cos_th - p_y p * sin_th) (sx (s_y s) + p_x p * sin_th + p_y p * cos_th)
    (sx (s_theta s) + p_theta p).

(** search.rs 315-331: the sensors one after the other. *)
Fixpoint detect_walls (W : Z) (m : simulator) (s : state) (d : detector) (w : walls) (ps : list pose)
  : res (detector * walls) :=
  match ps with
  | [] => Ret (d, w)
  | p :: ps' =>
      let q := sensor_pose s p in
      let* n := distance_from_wall W m q in
      match n with
      | None => detect_walls W m s d w ps'
      | Some n =>
          let* (d1, a) := detect_and_update W d (n_mean n) (n_stddev n) q in
          match a with
          | None => detect_walls W m s d1 w ps'
          | Some (c, t) => let* w1 := walls_update W w c t in detect_walls W m s d1 w1 ps'
          end
      end
  end.

(** search.rs 255-333: one round; [inr] for the break. *)
Definition search_period (W : Z) (v : search_setup) (l : search_vars) : res (search_vars + search_vars) :=
  let '(s, e) := estimate (l_estimator l) (l_state l) (readings (l_simulator l)) in
  let* (t, b, nx) := take_target (l_trajectory l) (l_next l) in
  let i := navigate (v_navigation v) s t in
  let '(r, y, k) := track (l_tracker l) s t i in
  let '(o, c) := control (l_controller l) r y in
  let m := apply (l_simulator l) o in
  let* x := decide W v (l_commander l) nx (l_robot l) (l_walls l) in
  match x with
  | None => Ret (inr (SearchVars e s b nx k c None (l_robot l) (l_walls l) (l_detector l) m))
  | Some (cmd, nx, robot) =>
      let* (d, w) := detect_walls W m s (l_detector l) (l_walls l) (v_sensors v) in
      Ret (inl (SearchVars e s b nx k c cmd robot w d (step m)))
  end.

(** search.rs 254-334: at most [n] rounds; [inl] when the loop has not ended by then, [inr] after the break. *)
Fixpoint search_rounds (n : nat) (W : Z) (v : search_setup) (l : search_vars) : res (search_vars + search_vars) :=
  match n with
  | O => Ret (inl l)
  | S n' =>
      let* r := search_period W v l in
      match r with inl l' => search_rounds n' W v l' | inr l' => Ret (inr l') end
  end.

(** run.rs 82-114: what the loop uses and does not change. *)
Record run_setup := RunSetup { u_navigation : navigation; u_supervisor : supervisory; u_threshold : num }.

(** run.rs 80-135, 158-210: what the loop changes. *)
Record run_vars := RunVars {
  q_estimator : estimator; q_state : state; q_trajectories : list boxed;
  q_tracker : tracker; q_controller : controller; q_simulator : simulator }.

(** run.rs 215-255: one round; [inr] for the break. The assertion of 246-252 is [Panic] when it fails. *)
Definition run_period (u : run_setup) (l : run_vars) : res (run_vars + run_vars) :=
  let '(s, e) := estimate (q_estimator l) (q_state l) (readings (q_simulator l)) in
  let* (o, q) := route_next (q_trajectories l) in
  match o with
  | None => Ret (inr (RunVars e s q (q_tracker l) (q_controller l) (q_simulator l)))
  | Some t =>
      let i := navigate (u_navigation u) s t in
      let* i := supervise (u_supervisor u) i s in
      let '(r, y, k) := track (q_tracker l) s t i in
      let '(o, c) := control (q_controller l) r y in
      if (nabs (m_left o) <=? u_threshold u) && (nabs (m_right o) <=? u_threshold u)
      then Ret (inl (RunVars e s q k c (step (apply (q_simulator l) o))))
      else Panic
  end.

(** run.rs 214-256: at most [n] rounds; [inl] when the loop has not ended by then, [inr] after the break. *)
Fixpoint run_rounds (n : nat) (u : run_setup) (l : run_vars) : res (run_vars + run_vars) :=
  match n with
  | O => Ret (inl l)
  | S n' =>
      let* r := run_period u l in
      match r with inl l' => run_rounds n' u l' | inr l' => Ret (inr l') end
  end.
End Loop.
Arguments search_setup {K}. Arguments search_vars {K}. Arguments run_setup {K}. Arguments run_vars {K}.
