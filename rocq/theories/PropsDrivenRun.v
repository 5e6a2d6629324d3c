(** What the mouse is made to follow in the loop of the run test (C117). *)
From Coq Require Import ZArith Reals List Bool Lia Lra.
From Verif Require Import Base SearchModel SearchSpec RunModel RunSpec WallsModel Num NumLemmas ControlModel TrajModel TrajSpec SimModel RouteModel RouteSpec SafeSpec RunThm FitSpec
  LoopModel DrivenSpec LoopRoute PropsRoute PropsSafeRun PropsFit PropsDriven FloatRange FloatCurve3 PropsSlalom PropsSimFin PropsRunLoop.
Import ListNotations.
Open Scope R_scope.

Section Any.
Context {K : ops}.
Variable u : run_setup.

(** the round stops because the supervisor fails or the voltages exceed the threshold. *)
Definition stopped (l : run_vars) (t : target) : Prop :=
  run_voltages u l t = Panic \/
  exists o, run_voltages u l t = Ret o /\ leb (nabs (m_left o)) (u_threshold u) && leb (nabs (m_right o)) (u_threshold u) = false.

Lemma supervise_fuel c i s : supervise c i s <> Fuel.
Proof.
  assert (M : forall l m, min_by i m l <> Fuel).
  { induction l as [|k l IH]; intros m; cbn [min_by]; [discriminate|]. unfold min_step.
    destruct (ltb (slack i k) (slack i m)); cbn [bind]; [apply IH|]. destruct (_ || _); cbn [bind]; [apply IH|discriminate]. }
  assert (P : forall a1 a2 b, project i a1 a2 b <> Fuel) by (intros a1 a2 b; unfold project; destruct (negb _); [discriminate|]; destruct (negb _); discriminate).
  assert (A : forall a1 a2 b, apply_constraints i a1 a2 b <> Fuel).
  { intros a1 a2 b. unfold apply_constraints. destruct (_ || _ || _); [discriminate|]. match goal with |- context [if ?b then Ret i else _] => destruct b end; [discriminate|].
    specialize (P a1 a2 b). destruct (project i a1 a2 b) as [[x y]| |]; cbn [bind]; [|discriminate|contradiction]. destruct (_ || _); [discriminate|].
    unfold to_polar. discriminate. }
  unfold supervise. destruct (nearest_pillars c s) as [ps| |] eqn:E; cbn [bind].
  - destruct (map _ ps) as [|k l]; [discriminate|]. specialize (M l k). destruct (min_by i k l) as [[[a1 a2] b]| |]; cbn [bind]; [apply A|discriminate|contradiction].
  - discriminate.
  - exfalso. revert E. unfold nearest_pillars.
    assert (C : forall z, chk_i8 z <> Fuel) by (intros z; unfold chk_i8; destruct (_ && _); discriminate).
    assert (Q : forall x y, remquof x y <> Fuel) by (intros x y; unfold remquof; repeat match goal with |- context [if ?b then _ else _] => destruct b end; discriminate).
    assert (PP : forall w cs, pillar_points w cs <> Fuel).
    { intros w. induction cs as [|[x y] cs IH]; cbn [pillar_points]; [discriminate|].
      pose proof (C (x + 1)%Z). destruct (chk_i8 (x + 1)); cbn [bind]; [|discriminate|contradiction].
      pose proof (C (y + 1)%Z). destruct (chk_i8 (y + 1)); cbn [bind]; [|discriminate|contradiction].
      destruct (pillar_points w cs); cbn [bind]; [discriminate|discriminate|contradiction]. }
    pose proof (Q (sx (s_x s)) (square_width c)). destruct (remquof (sx (s_x s)) (square_width c)) as [[dx rx]| |]; cbn [bind]; [|discriminate|contradiction].
    pose proof (Q (sx (s_y s)) (square_width c)). destruct (remquof (sx (s_y s)) (square_width c)) as [[dy ry]| |]; cbn [bind]; [|discriminate|contradiction].
    assert (PC : pillar_cells (square_width c) dx dy rx ry <> Fuel).
    { unfold pillar_cells. pose proof (C (dx + 1)%Z). destruct (chk_i8 (dx + 1)); cbn [bind]; [|discriminate|contradiction].
      pose proof (C (dy + 1)%Z). destruct (chk_i8 (dy + 1)); cbn [bind]; [|discriminate|contradiction].
      destruct (ltb rx ry), (ltb (sub (square_width c) rx) ry).
      - pose proof (C (dy + 2)%Z). destruct (chk_i8 (dy + 2)); cbn [bind]; [discriminate|discriminate|contradiction].
      - pose proof (C (dx - 1)%Z). destruct (chk_i8 (dx - 1)); cbn [bind]; [discriminate|discriminate|contradiction].
      - pose proof (C (dx + 2)%Z). destruct (chk_i8 (dx + 2)); cbn [bind]; [discriminate|discriminate|contradiction].
      - pose proof (C (dy - 1)%Z). destruct (chk_i8 (dy - 1)); cbn [bind]; [discriminate|discriminate|contradiction]. }
    destruct (pillar_cells _ _ _ _ _); cbn [bind]; [apply PP|discriminate|contradiction].
Qed.

Lemma run_step l t q : route_next (q_trajectories l) = Ret (Some t, q) ->
  (exists l1 o, run_period u l = Ret (inl l1) /\ run_voltages u l t = Ret o /\ q_simulator l1 = step (apply (q_simulator l) o) /\ q_trajectories l1 = q) \/
  run_period u l = Panic /\ stopped l t.
Proof.
  intros E. unfold stopped, run_period, run_voltages. destruct (estimate (q_estimator l) (q_state l) (readings (q_simulator l))) as [s e]. cbn [fst].
  rewrite E. cbn [bind]. pose proof (supervise_fuel (u_supervisor u) (navigate (u_navigation u) s t) s) as F.
  destruct (supervise _ _ _) as [i| |]; cbn [bind]; [|right; split; [reflexivity|now left]|contradiction].
  destruct (track _ _ _ _) as [[r y] k]. destruct (control _ r y) as [o c]. cbn [fst].
  destruct (leb (nabs (m_left o)) (u_threshold u) && leb (nabs (m_right o)) (u_threshold u)) eqn:B; [left|right].
  - eexists. exists o. split; [reflexivity|]. repeat split; reflexivity.
  - split; [reflexivity|]. right. exists o. split; [reflexivity|exact B].
Qed.
Lemma run_last l q : route_next (q_trajectories l) = Ret (None, q) -> exists l1, run_period u l = Ret (inr l1) /\ q_simulator l1 = q_simulator l.
Proof.
  intros E. unfold run_period. destruct (estimate _ _ _) as [s e]. rewrite E. cbn [bind]. eexists. split; reflexivity.
Qed.

Lemma run_all n : forall l L, serves (q_trajectories l) L ->
  match run_rounds n u l with
  | Ret (inl l') => exists ts L', L = ts ++ L' /\ run_followed u l ts l' /\ length ts = n /\ serves (q_trajectories l') L'
  | Ret (inr l') => exists l1, run_followed u l L l1 /\ q_simulator l' = q_simulator l1 /\ (length L < n)%nat
  | Panic => exists ts t L' l1, L = ts ++ t :: L' /\ run_followed u l ts l1 /\ (length ts < n)%nat /\ stopped l1 t
  | Fuel => False
  end.
Proof.
  induction n as [|n IH]; intros l L S; cbn [run_rounds].
  - exists [], L. split; [reflexivity|]. split; [constructor|]. split; [reflexivity|exact S].
  - inversion S as [r r' E|r t r' L0 E S' Eq1 Eq2]; subst.
    + destruct (run_last l r' E) as (l1 & -> & Es). cbn [bind]. exists l. split; [constructor|]. split; [exact Es|cbn; lia].
    + destruct (run_step l t r' E) as [(l1 & o & Ep & Ev & Es & Eq)|[Ep St]]; rewrite Ep; cbn [bind].
      * rewrite <- Eq in S'. specialize (IH l1 L0 S'). destruct (run_rounds n u l1) as [[l'|l']| |].
        -- destruct IH as (ts & L' & -> & F & Ln & S2). exists (t :: ts), L'. split; [reflexivity|].
           split; [exact (run_followed_cons u l t l1 ts l' o Ep Ev Es F)|]. split; [cbn [length]; lia|exact S2].
        -- destruct IH as (l2 & F & E2 & Ln). exists l2. split; [exact (run_followed_cons u l t l1 L0 l2 o Ep Ev Es F)|]. split; [exact E2|cbn [length]; lia].
        -- destruct IH as (ts & t' & L' & l2 & -> & F & Ln & P). exists (t :: ts), t', L', l2. split; [reflexivity|].
           split; [exact (run_followed_cons u l t l1 ts l2 o Ep Ev Es F)|]. split; [cbn [length]; lia|exact P].
        -- exact IH.
      * exists [], t, L0, l. split; [reflexivity|]. split; [constructor|]. split; [cbn; lia|exact St].
Qed.
End Any.

(** ** C117: in every arithmetic, binary32 included: the loop of the run test follows the targets of
    the queue of trajectories one by one and ends after the last; it stops before only because the supervisor
    fails or a voltage exceeds the threshold. *)
Theorem C117_followed {K : ops} (u : run_setup) (l : run_vars) L n : serves (q_trajectories l) L ->
  match run_rounds n u l with
  | Ret (inl l') => exists ts L', L = ts ++ L' /\ run_followed u l ts l' /\ length ts = n /\ serves (q_trajectories l') L'
  | Ret (inr l') => exists l1, run_followed u l L l1 /\ q_simulator l' = q_simulator l1 /\ (length L < n)%nat
  | Panic => exists ts t L' l1, L = ts ++ t :: L' /\ run_followed u l ts l1 /\ (length ts < n)%nat /\ stopped u l1 t
  | Fuel => False
  end.
Proof. exact (run_all u n l L). Qed.
Print Assumptions C117_followed.

(** With numbers that leave room for every change of speed, in exact real arithmetic: the targets followed
    run on without jumps from rest at the start to the goal and keep 34/100 of a square away from every wall. *)
Theorem C117_drive W open truth is_wall is_goal cost cmax tie start path c (w off run_v v_end : R) (g : @straight_generator Rops)
    (u : @run_setup Rops) (l : @run_vars Rops) n :
  let v := g_v_max (sg_gen g) in let p := sg_period g in
  supported W -> (forall x, valid W x -> is_wall x = Ret (negb (open x))) -> (forall k, (0 <= cost k)%Z) -> (0 < cmax)%Z ->
  (forall x, valid W x -> open x = true -> truth x = true) ->
  valid_node W start -> (is_diag (np start) = true -> open (Co (nx start) (ny start)) = true) -> is_goal start = false ->
  run_path W is_goal is_wall cost cmax tie start = Ret (Some (path, c)) ->
  0 < w -> 0 < p -> v * p <= w / 50 -> brisk w run_v g ->
  @run_route Rops w off g run_v path = Ret (q_trajectories l, v_end) ->
  let turn := 3 * (v * p / w) in
  let safe ts := smooth (v * p + w / 150) turn (Rmax (g_a_max (sg_gen g) * p) (v * turn) + v / 2 ^ 25) ts /\
    Forall (clear W truth w (34 / 100 * w)) ts /\ (forall t ts', ts = t :: ts' -> passing (@pose_of_node Rops start w) 0 t) in
  match run_rounds n u l with
  | Ret (inl l') => exists ts, run_followed u l ts l' /\ length ts = n /\ safe ts
  | Ret (inr l') => exists ts l1 goal, run_followed u l ts l1 /\ q_simulator l' = q_simulator l1 /\ safe ts /\ is_goal goal = true /\
      forall t, passing (@pose_of_node Rops goal w) v_end t ->
        smooth (v * p + w / 150) turn (Rmax (g_a_max (sg_gen g) * p) (v * turn) + v / 2 ^ 25) (ts ++ [t])
  | Panic => exists ts t l1, run_followed u l ts l1 /\ (length ts < n)%nat /\ safe ts /\ stopped u l1 t
  | Fuel => False
  end.
Proof.
  intros v p HW Hok Hc Hm HT Hs Os NG RP Hw Hp Hvp B ER turn safe.
  destruct (C98_brisk W open truth is_wall is_goal cost cmax tie start path c w off run_v g HW Hok Hc Hm HT Hs Os NG RP Hw Hp Hvp B)
    as (goal & boxes & ve & L & G1 & _ & EB & SE & (t0 & L0 & EL & P0) & CL & _ & SM).
  rewrite ER in EB. injection EB as <- <-.
  assert (SF : forall ts L', L = ts ++ L' -> safe ts).
  { intros ts L' E. split; [|split].
    - set (e := @pose_of_node Rops goal w) in *.
      set (t := @Target Rops (@Axis4 Rops (p_x e) (v_end * cos (p_theta e))%R 0%R 0%R) (@Axis4 Rops (p_y e) (v_end * sin (p_theta e))%R 0%R 0%R) (@Axis4 Rops (p_theta e) 0%R 0%R 0%R)).
      specialize (SM t ltac:(repeat split; reflexivity)). rewrite E, <- app_assoc in SM. exact (smooth_prefix _ _ _ _ _ SM).
    - rewrite E in CL. exact (proj1 (proj1 (Forall_app _ _ _) CL)).
    - intros t ts' ->. rewrite E in EL. injection EL as -> _. exact P0. }
  pose proof (run_all u n l L SE) as H. destruct (run_rounds n u l) as [[l'|l']| |]; [| | |exact H].
  - destruct H as (ts & L' & E & F & Ln & _). exists ts. split; [exact F|]. split; [exact Ln|exact (SF ts L' E)].
  - destruct H as (l1 & F & E & _). exists L, l1, goal. split; [exact F|]. split; [exact E|]. split; [apply (SF L []); rewrite app_nil_r; reflexivity|]. split; [exact G1|exact SM].
  - destruct H as (ts & t & L' & l1 & E & F & Ln & S). exists ts, t, l1. split; [exact F|]. split; [exact Ln|]. split; [exact (SF ts _ E)|exact S].
Qed.
Print Assumptions C117_drive.

(** In binary32, a trajectory of three periods and a bit: four targets, all followed; the loop ends in the fifth round. *)
Definition short_start (w : walls) : @run_vars (Fops flat_libm) :=
  let l := run_start w in let z := dyad 0 0 in let h := dyad 3 6 in
  @RunVars (Fops flat_libm) (q_estimator l) (q_state l)
    [@Boxed (Fops flat_libm) (@Pose (Fops flat_libm) h h z) (@IStraight (Fops flat_libm) (@straight_new (Fops flat_libm) (@SConst (Fops flat_libm) (@ConstCalc (Fops flat_libm) (dyad 1 0) z (dyad 1 3))) (dyad 7 11) (dyad 1 10)))]
    (q_tracker l) (q_controller l) (q_simulator l).

(** all targets of a queue, if there are fewer than [n]. *)
Fixpoint collect {K : ops} (n : nat) (q : list boxed) : option (list target) :=
  match n with
  | O => None
  | S n => match route_next q with
           | Ret (None, _) => Some []
           | Ret (Some t, q') => option_map (cons t) (collect n q')
           | _ => None
           end
  end.
Lemma collect_serves {K : ops} n : forall q L, collect n q = Some L -> serves q L.
Proof.
  induction n as [|n IH]; intros q L E; cbn [collect] in E; [discriminate E|].
  destruct (route_next q) as [[[t|] q']| |] eqn:R; try discriminate E.
  - destruct (collect n q') as [L0|] eqn:C; [|discriminate E]. injection E as <-. exact (serves_next _ _ _ _ R (IH _ _ C)).
  - injection E as <-. exact (serves_end _ _ R).
Qed.

Example C117_case (w : walls) : exists L l', serves (q_trajectories (short_start w)) L /\ length L = 4%nat /\
  run_rounds 5 run_with (short_start w) = Ret (inr l').
Proof.
  assert (H : match run_rounds 5 run_with (short_start w) with Ret (inr _) => true | _ => false end = true) by (vm_compute; reflexivity).
  assert (C : match collect 6 (q_trajectories (short_start w)) with Some L => Nat.eqb (length L) 4 | None => false end = true) by (vm_compute; reflexivity).
  remember (run_rounds 5 run_with (short_start w)) as r eqn:Er. clear Er. destruct r as [[l'|l']| |]; try discriminate H.
  remember (collect 6 (q_trajectories (short_start w))) as y eqn:Ey. destruct y as [L|]; [|discriminate C].
  exists L, l'. split; [exact (collect_serves _ _ _ (eq_sym Ey))|]. split; [apply Nat.eqb_eq, C|reflexivity].
Qed.

(** The path of C98 with its trajectories in the loop. *)
Example C117_drive_case (l : @run_vars Rops) :
  let path := [Nde 0 0 PN; Nde 0 2 PN; Nde 2 4 PE] in let open c := existsb (coord_eqb c) [Co 0 1; Co 0 3; Co 1 4] in
  supported 4 /\ valid_node 4 (Nde 0 0 PN) /\ node_eqb (Nde 0 0 PN) (Nde 2 4 PE) = false /\
  run_path 4 (fun n => node_eqb n (Nde 2 4 PE)) (fun c => Ret (negb (open c))) (fun _ => 10%Z) 65535 (fun _ => O) (Nde 0 0 PN) = Ret (Some (path, 20%Z)) /\
  brisk (9 / 100) (1 / 4) brisk_g /\ 0 < sg_period brisk_g /\ g_v_max (sg_gen brisk_g) * sg_period brisk_g <= 9 / 100 / 50 /\
  exists q v_end, q <> [] /\ @run_route Rops (9 / 100)%R 0%R brisk_g (1 / 4)%R path =
    Ret (q_trajectories (@RunVars Rops (q_estimator l) (q_state l) q (q_tracker l) (q_controller l) (q_simulator l)), v_end).
Proof.
  cbv zeta. set (open := fun c => existsb (coord_eqb c) _).
  destruct C98_case as (B & P & V & RP). fold open in RP.
  assert (HW : supported 4) by (unfold supported; auto 8).
  assert (VN : valid_node 4 (Nde 0 0 PN)) by (vm_compute; repeat split; try reflexivity; discriminate).
  split; [exact HW|]. split; [exact VN|]. split; [reflexivity|]. split; [exact RP|]. split; [exact B|]. split; [exact P|]. split; [exact V|].
  destruct (C98_brisk 4 open open (fun c => Ret (negb (open c))) _ (fun _ => 10%Z) 65535 (fun _ => O) (Nde 0 0 PN) _ 20 (9 / 100) 0 (1 / 4) brisk_g
    HW (fun _ _ => eq_refl) ltac:(intros; lia) ltac:(lia) (fun _ _ H => H) VN ltac:(discriminate) eq_refl RP ltac:(lra) P V B) as (_ & q & ve & L & _ & _ & E & S & (t & L' & EL & _) & _).
  exists q, ve. split; [|exact E]. intros ->. rewrite EL in S. inversion S as [|r t' r' l0 X]; subst. discriminate X.
Qed.
