(** The loop of the run test in binary32 (C113). *)
From Coq Require Import ZArith Reals List Bool Lia Lra.
From Flocq Require Import Core BinarySingleNaN.
From Verif Require Import Base Num NumLemmas WallsModel ControlModel ControlSpec TrajModel SimModel SimSpec RouteModel LoopModel FloatMag FloatRange FloatMoveSpec
  FloatEstSpec FloatSimSpec FloatCurve3 PropsSlalom PropsSimFin.
Import ListNotations.
Open Scope R_scope.

(** what passes the assertion of the test is not NaN. *)
Lemma passed_number lm (x t : f32) : @leb (Fops lm) (@nabs (Fops lm) x) t = true -> is_nan x = false.
Proof. destruct x; cbn; auto; discriminate. Qed.

Definition unfinished {K : ops} (r : run_vars + run_vars) : run_vars := match r with inl l | inr l => l end.

Lemma rounds_runs lm (u : @run_setup (Fops lm)) n : forall l r, run_rounds n u l = Ret r ->
  exists cs, Forall (@no_nan lm) cs /\ (length cs <= 2 * n)%nat /\ q_simulator (unfinished r) = runs (q_simulator l) cs.
Proof.
  induction n as [|n IH]; intros l r E; cbn [run_rounds] in E.
  { injection E as <-. exists []. split; [constructor|]. split; [cbn; lia|reflexivity]. }
  destruct (run_period u l) as [x| |] eqn:Ex; cbn [bind] in E; try discriminate.
  unfold run_period in Ex. destruct (estimate _ _ _) as [s e]. destruct (route_next (q_trajectories l)) as [[[t|] q]| |]; cbn [bind] in Ex; try discriminate.
  - destruct (supervise _ _ _) as [i| |]; cbn [bind] in Ex; try discriminate.
    destruct (track _ _ _ _) as [[rr y] k]. destruct (control _ rr y) as [o c].
    destruct (@leb (Fops lm) (@nabs (Fops lm) (m_left o)) (u_threshold u)) eqn:E1; cbn [andb] in Ex; [|discriminate].
    destruct (@leb (Fops lm) (@nabs (Fops lm) (m_right o)) (u_threshold u)) eqn:E2; [|discriminate].
    injection Ex as <-. destruct (IH _ _ E) as (cs & F & Len & Eq). exists (Apply o :: Step :: cs).
    split; [constructor; [split; [exact (passed_number lm _ _ E1)|exact (passed_number lm _ _ E2)]|constructor; [exact I|exact F]]|].
    split; [cbn [length]; lia|]. rewrite Eq. reflexivity.
  - injection Ex as <-. injection E as <-. exists []. split; [constructor|]. split; [cbn; lia|reflexivity].
Qed.

(** ** C113: however the estimate and the controllers behave, as long as the loop of the run test goes
    on, everything that can be read from the simulator is finite: its assertion stops every voltage
    that is not a number. *)
Theorem C113_simulated lm (u : @run_setup (Fops lm)) (l : @run_vars (Fops lm)) (w : walls) (cur last : @state (Fops lm))
    (mx p kt tt kr tr wi : f32) (n : nat) r :
  near_circle lm -> usual_body cur -> usual_body last ->
  within 0 32 mx -> within (1 / 1024) (1 / 64) p -> within (-64) 64 kt -> within 0 (1 / 2) tt ->
  within (-64) 64 kr -> within 0 (1 / 2) tr -> within (-1) 1 wi ->
  q_simulator l = @simulator_new (Fops lm) w cur last mx p kt tt kr tr wi ->
  INR n <= 4194304 -> run_rounds n u l = Ret r ->
  finite_sim (q_simulator (unfinished r)).
Proof.
  intros Hc H1 H2 Hm Hp Hkt Htt Hkr Htr Hw Es Hn E. destruct (rounds_runs lm u n l r E) as (cs & F & Len & Eq).
  rewrite Eq, Es. apply (C108_finite lm w cur last mx p kt tt kr tr wi cs); try assumption.
  apply Rle_trans with (INR (2 * n)); [apply le_INR, Len|]. rewrite mult_INR. cbn [INR]. lra.
Qed.
Print Assumptions C113_simulated.

(** The voltages of a round that goes on are finite and at most the threshold in size; a round whose
    voltages are not goes no further. *)
Theorem C113_round lm (u : @run_setup (Fops lm)) (l l' : @run_vars (Fops lm)) :
  is_finite (u_threshold u : f32) = true -> run_period u l = Ret (inl l') ->
  exists o : @motor_output (Fops lm), q_simulator l' = step (apply (q_simulator l) o) /\
    is_finite (m_left o : f32) = true /\ is_finite (m_right o : f32) = true /\
    Rabs (B2R (m_left o : f32)) <= B2R (u_threshold u : f32) /\ Rabs (B2R (m_right o : f32)) <= B2R (u_threshold u : f32).
Proof.
  intros Ft Ex. unfold run_period in Ex.
  assert (P : forall x : f32, @leb (Fops lm) (@nabs (Fops lm) x) (u_threshold u) = true -> is_finite x = true /\ Rabs (B2R x) <= B2R (u_threshold u : f32)).
  { intros x H. cbn [leb nabs Fops] in H. assert (Fx : is_finite x = true) by (destruct x as [| [] | |]; destruct (u_threshold u : f32) as [| [] | |]; try discriminate; reflexivity).
    split; [exact Fx|]. rewrite Bleb_correct in H; [|rewrite is_finite_Babs; exact Fx|exact Ft]. rewrite B2R_Babs in H.
    revert H. case Rle_bool_spec; intros H E; [exact H|discriminate]. }
  destruct (estimate _ _ _) as [s e]. destruct (route_next (q_trajectories l)) as [[[t|] q]| |]; cbn [bind] in Ex; try discriminate.
  destruct (supervise _ _ _) as [i| |]; cbn [bind] in Ex; try discriminate.
  destruct (track _ _ _ _) as [[rr y] k]. destruct (control _ rr y) as [o c].
  destruct (@leb (Fops lm) (@nabs (Fops lm) (m_left o)) (u_threshold u)) eqn:E1; cbn [andb] in Ex; [|discriminate].
  destruct (@leb (Fops lm) (@nabs (Fops lm) (m_right o)) (u_threshold u)) eqn:E2; [|discriminate].
  injection Ex as <-. exists o. cbn [q_simulator]. split; [reflexivity|].
  destruct (P _ E1) as [A B], (P _ E2) as [C D]. auto.
Qed.
Print Assumptions C113_round.

(** A simulated mouse at rest at the origin, whose estimate says that it is in the middle of a
    square, with a trajectory of one second: the loop goes through a round. *)
Definition still : @state (Fops flat_libm) :=
  let z := @Axis3 (Fops flat_libm) (dyad 0 0) (dyad 0 0) (dyad 0 0) in @State (Fops flat_libm) z z z.
Definition run_start (w : walls) : @run_vars (Fops flat_libm) :=
  let z := dyad 0 0 in let h := dyad 3 6 in
  let s := @State (Fops flat_libm) (@Axis3 (Fops flat_libm) h z z) (@Axis3 (Fops flat_libm) h z z) (@Axis3 (Fops flat_libm) z z z) in
  let g := @ControlParameters (Fops flat_libm) (dyad 1 0) (dyad 1 0) z (dyad 1 0) (dyad 1 2) in
  @RunVars (Fops flat_libm) (@estimator_new (Fops flat_libm) (dyad 1 10) (dyad 1 1) (dyad 100 0) (dyad 1 6)) s
    [@Boxed (Fops flat_libm) (@Pose (Fops flat_libm) h h z) (@IStraight (Fops flat_libm) (@straight_new (Fops flat_libm) (@SConst (Fops flat_libm) (@ConstCalc (Fops flat_libm) (dyad 1 0) z (dyad 1 3))) (dyad 1 0) (dyad 1 10)))]
    (@Tracker (Fops flat_libm) z (dyad 1 10) (dyad 1 2) (dyad 1 0) (dyad 1 0)) (@controller_new (Fops flat_libm) g g (dyad 1 10))
    (@simulator_new (Fops flat_libm) w still still (dyad 5 0) (dyad 1 10) (dyad 1 0) (dyad 1 2) (dyad 1 0) (dyad 1 2) (dyad 1 5)).
Definition run_with : @run_setup (Fops flat_libm) :=
  @RunSetup (Fops flat_libm) (@Navigation (Fops flat_libm) (dyad 40 0) (dyad 4 0)) (@Supervisory (Fops flat_libm) (dyad 100 0) (dyad 3 5) (dyad 1 6)) (dyad 4 0).

Example C113_case (w : walls) :
  near_circle flat_libm /\ usual_body still /\ within 0 32 (dyad 5 0) /\ within (1 / 1024) (1 / 64) (dyad 1 10) /\
  within (-64) 64 (dyad 1 0) /\ within 0 (1 / 2) (dyad 1 2) /\ within (-1) 1 (dyad 1 5) /\
  q_simulator (run_start w) = @simulator_new (Fops flat_libm) w still still (dyad 5 0) (dyad 1 10) (dyad 1 0) (dyad 1 2) (dyad 1 0) (dyad 1 2) (dyad 1 5) /\
  is_finite (u_threshold run_with : f32) = true /\ exists l', run_rounds 1 run_with (run_start w) = Ret (inl l').
Proof.
  destruct C108_case as (A & B & C & D & E & F & G & _).
  split; [exact A|]. split; [exact B|]. split; [exact C|]. split; [exact D|]. split; [exact E|]. split; [exact F|]. split; [exact G|].
  split; [reflexivity|]. split; [reflexivity|].
  assert (H : match run_rounds 1 run_with (run_start w) with Ret (inl _) => true | _ => false end = true) by (vm_compute; reflexivity).
  destruct (run_rounds 1 run_with (run_start w)) as [[l'|l']| |]; [exists l'; reflexivity|discriminate H..].
Qed.
