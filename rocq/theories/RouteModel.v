(** Model of the way the integration tests join the trajectories of a route
    (mousecore2/tests/search.rs 168-242, 268-300 and mousecore2/tests/run.rs 158-210, 228-241). *)
From Coq Require Import ZArith List Bool.
From Verif Require Import Base SearchModel RunModel Num ControlModel TrajModel.
Import ListNotations.
Open Scope num_scope.

Section Route.
Context {K : ops}.

(** search.rs 193-226: the state of [back], a chain of straight, stop, spin, stop and straight. *)
Definition back_state : Type :=
  option (option (option (option straight_traj * stop_traj) * spin_traj) * stop_traj) * straight_traj.

(** search.rs 193-226: [next] of [back]; [p] is the pose of the turn and [q] the pose after it. *)
Definition back_next (p q : pose) : iterator back_state :=
  chain_next (chain_next (chain_next (chain_next straight_next stop_next) (shift_next p spin_next)) stop_next)
    (shift_next q straight_next).

(** search.rs 230, 238 and run.rs 190: the iterators behind [Box<dyn Iterator<Item = Target>>] inside
    the ShiftTrajectory. *)
Inductive inner :=
  | IStraight (s : straight_traj)
  | ISlalom (q : slalom_params) (s : slalom_state)
  | IBack (p q : pose) (s : back_state).

(** search.rs 230, 238 and run.rs 190: the dynamic dispatch of [next]. *)
Definition inner_next : iterator inner := fun i =>
  match i with
  | IStraight s => let '(o, s) := straight_next s in (o, IStraight s)
  | ISlalom q s => let '(o, s) := slalom_next q s in (o, ISlalom q s)
  | IBack p q s => let '(o, s) := back_next p q s in (o, IBack p q s)
  end.

(** search.rs 291 and run.rs 185: a boxed [ShiftTrajectory::new(pose, trajectory)]. *)
Record boxed := Boxed { b_pose : pose; b_inner : inner }.

(** trajectory.rs 116-118 behind the box (search.rs 268, run.rs 229). *)
Definition boxed_next : iterator boxed := fun b =>
  let '(o, i) := shift_next (b_pose b) inner_next (b_inner b) in (o, Boxed (b_pose b) i).

(** run.rs 228-241: the next target from the queue of trajectories. [Panic] for the unwrap of 234
    and the unreachable of 240; [None] for the break of 236. search.rs 268-275 does the same with
    a queue of two (simplified: the next moves are already decided, so the queue holds all). *)
Definition route_next (l : list boxed) : res (option target * list boxed) :=
  match l with
  | [] => Panic
  | b :: l' =>
      match boxed_next b with
      | (Some t, b') => Ret (Some t, b' :: l')
      | (None, _) =>
          match l' with
          | [] => Ret (None, [])
          | b2 :: l2 =>
              match boxed_next b2 with
              | (Some t, b2') => Ret (Some t, b2' :: l2)
              | (None, _) => Panic
              end
          end
      end
  end.

(** search.rs 183 (init) and 184-226 (front, right, left, back), for a square width [w], a front offset
    [off], a straight generator [g], a spin generator [sg] and the time [stop] of a halt; the speed
    is the [v_max] of the straight generator (169, 181-187). *)
Definition search_init (w off : num) (g : straight_generator) : inner :=
  IStraight (straight_generate g (w / n2 + off) n0 (g_v_max (sg_gen g))).
(** search.rs 184-226: front, right, left and back. *)
Definition search_move (w off : num) (g : straight_generator) (sg : generator) (stop : num) (k : traj_kind) : inner :=
  let v := g_v_max (sg_gen g) in
  let per := sg_period g in
  match k with
  | Front => IStraight (straight_generate g w v v)
  | Right => let q := parameters w off None SRight in ISlalom q (generate_constant_slalom per q v)
  | Left => let q := parameters w off None SLeft in ISlalom q (generate_constant_slalom per q v)
  | Back =>
      let p := Pose (w / n2 - off) n0 n0 in
      let q := Pose (w / n2 - off) n0 (degree (lit 180 1)) in
      IBack p q
        (Some (Some (Some (Some (straight_generate g (w / n2 - off) v n0), stop_new p per stop),
                     spin_generate sg per (degree (lit 180 1))), stop_new q per stop),
         straight_generate g (w / n2 + off) n0 v)
  end.

(** search.rs 101-114 and 230-237: the first trajectory, from the centre of the start cell (45 mm is
    half a square) to the north; then 287-299 for each state of the robot and the move out of it. *)
Definition search_route (w off : num) (g : straight_generator) (sg : generator) (stop : num)
    (l : list (search_state * traj_kind)) : list boxed :=
  Boxed (Pose (w / n2) (w / n2) (degree (lit 90 1))) (search_init w off g)
  :: map (fun sk => Boxed (pose_of_search (fst sk) w off) (search_move w off g sg stop (snd sk))) l.

(** run.rs 190-207: the trajectory of one move and its terminal velocity, for the speeds at its
    start, in its middle and at its end. *)
Definition run_leg (w off : num) (g : straight_generator) (t : rtraj) (v_start v_middle v_end : num) : inner * num :=
  match t with
  | RStraight x => let '(s, v) := straight_generate_tv g (of_int x * w) v_start v_end in (IStraight s, v)
  | RStraightDiagonal x =>
      let '(s, v) := straight_generate_tv g (of_int x * w / nsqrt n2) v_start v_end in (IStraight s, v)
  | RSlalom k d =>
      let q := parameters w off (Some k) d in
      let '(s, v) := generate_slalom_tv g q v_start v_middle v_end in (ISlalom q s, v)
  end.

(** run.rs 168-180: the speeds at the start, in the middle and at the end of move [i] of a path of [n]
    nodes, when the move before ended with speed [v]; [run_v] is run_slalom_velocity (160). *)
Definition run_speeds (run_v : num) (i n : nat) (v : num) : num * num * num :=
  if Nat.leb i 1 then (v, run_v, run_v)
  else if Nat.eqb (i + 2) n then (v, v * lit 6666667 10000000, n0)
  else if Nat.eqb (i + 3) n then (v, v * lit 5 10, v * lit 5 10)
  else (run_v, run_v, run_v).

(** run.rs 161-210: the trajectories of the rest [path], from move [i] on, of a path of [n] nodes, and
    the last terminal velocity; [v] is the terminal velocity so far. [Panic] for the unreachable of 167. *)
Fixpoint run_route_from (w off : num) (g : straight_generator) (run_v : num) (n : nat) (path : list node) (i : nat) (v : num)
  : res (list boxed * num) :=
  match path with
  | a :: ((b :: _) as path') =>
      bind (trajectory_kind a b) (fun t =>
      match t with
      | None => Panic
      | Some t =>
          let '(v_start, v_middle, v_end) := run_speeds run_v i n v in
          let '(j, v') := run_leg w off g t v_start v_middle v_end in
          bind (run_route_from w off g run_v n path' (S i) v') (fun r =>
          Ret (Boxed (pose_of_node a w) j :: fst r, snd r))
      end)
  | _ => Ret ([], v)
  end.
(** run.rs 158-210: the trajectories of a path, from rest. *)
Definition run_route (w off : num) (g : straight_generator) (run_v : num) (path : list node) : res (list boxed * num) :=
  run_route_from w off g run_v (length path) path 0 n0.

End Route.
