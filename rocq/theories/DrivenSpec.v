(** The targets followed in the loop of the search test (C116). *)
From Coq Require Import ZArith List Bool.
From Verif Require Import Base SearchModel Num ControlModel TrajModel SimModel RouteModel LoopModel.
Import ListNotations.

(** the voltages with which the mouse follows the target [t] in a round. *)
Definition voltages {K : ops} (v : search_setup) (l : search_vars) (t : target) : motor_output :=
  let s := fst (estimate (l_estimator l) (l_state l) (readings (l_simulator l))) in
  let '(r, y, _) := track (l_tracker l) s t (navigate (v_navigation v) s t) in
  fst (control (l_controller l) r y).

(** [followed W v l ts l']: in the rounds from [l] to [l'] the simulator was driven with the voltages for the targets [ts]. *)
Inductive followed {K : ops} (W : Z) (v : search_setup) : search_vars -> list target -> search_vars -> Prop :=
  | followed_nil l : followed W v l [] l
  | followed_cons l t l1 ts l2 : search_period W v l = Ret (inl l1) ->
      l_simulator l1 = step (apply (l_simulator l) (voltages v l t)) -> followed W v l1 ts l2 -> followed W v l (t :: ts) l2.

(** the same for the loop of the run test (C117); the voltages depend on the controllers after the supervisor. *)
Definition run_voltages {K : ops} (u : run_setup) (l : run_vars) (t : target) : res motor_output :=
  let s := fst (estimate (q_estimator l) (q_state l) (readings (q_simulator l))) in
  let* i := supervise (u_supervisor u) (navigate (u_navigation u) s t) s in
  let '(r, y, _) := track (q_tracker l) s t i in
  Ret (fst (control (q_controller l) r y)).

(** [run_followed u l ts l']: in the rounds from [l] to [l'] the simulator was driven with the voltages for the targets [ts]. *)
Inductive run_followed {K : ops} (u : run_setup) : run_vars -> list target -> run_vars -> Prop :=
  | run_followed_nil l : run_followed u l [] l
  | run_followed_cons l t l1 ts l2 o : run_period u l = Ret (inl l1) -> run_voltages u l t = Ret o ->
      q_simulator l1 = step (apply (q_simulator l) o) -> run_followed u l1 ts l2 -> run_followed u l (t :: ts) l2.

(** the moves of a robot, as [walks], but towards any coordinates. *)
Inductive hops : search_state -> list (search_state * traj_kind) -> search_state -> Prop :=
  | hops_nil s : hops s [] s
  | hops_cons s n k s' l e : ss_update s n = Ret (s', Some k) -> hops s' l e -> hops s ((s, k) :: l) e.
