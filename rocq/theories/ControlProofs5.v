(** The dynamic feedback law of the tracker, fed by the navigation controller: closed loop. *)
From Coq Require Import ZArith Reals List Bool Lia Lra.
From Verif Require Import Base Num ControlModel ControlSpec ControlProofs ControlProofs2.
Import ListNotations.
Open Scope R_scope.

Lemma dlim_to f x l l' : derivable_pt_lim f x l -> l = l' -> derivable_pt_lim f x l'.
Proof. intros H <-. exact H. Qed.

Lemma dlim_fext f g x l : (forall y, f y = g y) -> derivable_pt_lim f x l -> derivable_pt_lim g x l.
Proof.
  intros E D eps He. destruct (D eps He) as [d Hd]. exists d. intros h Hh Hb. rewrite <- !E. apply Hd; assumption.
Qed.

(** ** Commands in the fast regime *)

Section Command.
Variables (k : @tracker Rops) (s : @state Rops) (t : @target Rops) (i : @tracking_input Rops).
Hypothesis F : fast k s t i.
Hypothesis Hth : 0 <= k_xi_threshold k.
Let th := sx (s_theta s).

Lemma fast_nz : new_xi k s i <> 0.
Proof. destruct F as [_ F2]. intros E. rewrite E, Rabs_R0 in F2. lra. Qed.

Lemma fast_command : fst (fst (track k s t i)) =
  @ControlTarget Rops (new_xi k s i) (u_x i * cos th + u_y i * sin th)%R
    ((u_y i * cos th - u_x i * sin th) / new_xi k s i)%R
    (- ((2 * (u_x i * cos th + u_y i * sin th) * ((u_y i * cos th - u_x i * sin th) / new_xi k s i)
         + du_x i * sin th - du_y i * cos th) / new_xi k s i))%R.
Proof.
  destruct F as [F1 F2]. unfold track. rops. fold th. unfold new_xi in *. fold th in F2 |- *.
  destruct (Rltb_spec (k_xi_threshold k) (Rabs (tv (t_x t) * cos (tx (t_theta t)) + tv (t_y t) * sin (tx (t_theta t))))) as [_|N];
    [|exfalso; apply N; exact F1].
  destruct (Rltb_spec (k_xi_threshold k) (Rabs (k_xi k + k_period k * (u_x i * cos th + u_y i * sin th)))) as [_|N];
    [|exfalso; apply N; exact F2].
  cbn [andb fst]. replace (2 / 1) with 2 by field. reflexivity.
Qed.

(** turning with the commanded rate and accelerating with the commanded acceleration from the
    commanded speed gives the requested acceleration. *)
Lemma command_acceleration : let r := fst (fst (track k s t i)) in
  c_a r * cos th - c_v r * (sin th * c_omega r) = u_x i /\
  c_a r * sin th + c_v r * (cos th * c_omega r) = u_y i.
Proof.
  cbv zeta. rewrite fast_command. cbn [c_v c_a c_omega]. pose proof fast_nz as NZ.
  pose proof (sin2_cos2 th) as P. unfold Rsqr in P.
  set (c := cos th) in *. set (z := sin th) in *. set (q := new_xi k s i) in *.
  change (@num Rops) with R in *.
  split.
  - transitivity (u_x i * (z * z + c * c)); [field; exact NZ | rewrite P; ring].
  - transitivity (u_y i * (z * z + c * c)); [field; exact NZ | rewrite P; ring].
Qed.
End Command.

(** ** The loop *)

Section Loop.
Variables (n : @navigation Rops) (K : R -> @tracker Rops) (S : R -> @state Rops) (T : R -> @target Rops) (v : R -> R).
Let th u := sx (s_theta (S u)).
Let cmd u := fst (fst (track (K u) (S u) (T u) (navigate n (S u) (T u)))).
Hypothesis Hv : rolls v S.

Section At.
Variable u : R.
Hypothesis Hf : fast (K u) (S u) (T u) (navigate n (S u) (T u)).
Hypothesis Hk : 0 <= k_xi_threshold (K u).
Hypothesis Ho : obeys v S cmd u.

Lemma loop_acceleration :
  derivable_pt_lim (fun w => sv (s_x (S w))) u (u_x (navigate n (S u) (T u))) /\
  derivable_pt_lim (fun w => sv (s_y (S w))) u (u_y (navigate n (S u) (T u))).
Proof.
  destruct Ho as (Cv & Dv & Dth & _).
  destruct (command_acceleration (K u) (S u) (T u) (navigate n (S u) (T u)) Hf Hk) as [AX AY].
  fold (cmd u) in AX, AY. fold (th u) in AX, AY. rewrite Cv in AX, AY. split.
  - apply (dlim_fext (fun w => v w * cos (th w))); [intros w; symmetry; apply Hv|].
    eapply dlim_to; [apply derivable_pt_lim_mult; [exact Dv | exact (derivable_pt_lim_comp th cos u _ _ Dth (derivable_pt_lim_cos _))]|].
    rewrite <- AX. ring.
  - apply (dlim_fext (fun w => v w * sin (th w))); [intros w; symmetry; apply Hv|].
    eapply dlim_to; [apply derivable_pt_lim_mult; [exact Dv | exact (derivable_pt_lim_comp th sin u _ _ Dth (derivable_pt_lim_sin _))]|].
    rewrite <- AY. ring.
Qed.

Lemma loop_error (rx : @target Rops -> @axis4 Rops) (px : @state Rops -> @axis3 Rops) :
  (rx = t_x /\ px = s_x) \/ (rx = t_y /\ px = s_y) ->
  smooth T u ->
  let e w := tx (rx (T w)) - sx (px (S w)) in
  let e' w := tv (rx (T w)) - sv (px (S w)) in
  derivable_pt_lim e u (e' u) /\ derivable_pt_lim e' u (- dgain n * e' u - gain n * e u).
Proof.
  intros Hxy Sm e e'. destruct loop_acceleration as [AX AY].
  destruct (Sm rx ltac:(destruct Hxy as [[-> _] | [-> _]]; auto)) as [DR DV].
  assert (DX : derivable_pt_lim (fun w => sx (px (S w))) u (sv (px (S u)))).
  { destruct Ho as (_ & _ & _ & DX & DY). destruct Hxy as [[_ ->] | [_ ->]]; assumption. }
  split.
  - apply derivable_pt_lim_minus; assumption.
  - assert (A : derivable_pt_lim (fun w => sv (px (S w))) u
      (ta (rx (T u)) + dgain n * (tv (rx (T u)) - sv (px (S u))) + gain n * (tx (rx (T u)) - sx (px (S u))))).
    { destruct Hxy as [[-> ->] | [-> ->]]; [exact AX | exact AY]. }
    eapply dlim_to; [apply derivable_pt_lim_minus; [exact DV | exact A]|]. unfold e, e'. change (@num Rops) with R. ring.
Qed.
End At.
(** the commanded angular acceleration is the derivative of the commanded turn rate. *)
Lemma loop_alpha u :
  (forall w, fast (K w) (S w) (T w) (navigate n (S w) (T w)) /\ 0 <= k_xi_threshold (K w) /\ obeys v S cmd w) ->
  smooth T u ->
  (forall r : @target Rops -> @axis4 Rops, r = t_x \/ r = t_y -> derivable_pt_lim (fun w => ta (r (T w))) u (tj (r (T u)))) ->
  (forall q : @state Rops -> @axis3 Rops, q = s_x \/ q = s_y -> derivable_pt_lim (fun w => sv (q (S w))) u (sa (q (S u)))) ->
  derivable_pt_lim (fun w => c_omega (cmd w)) u (c_alpha (cmd u)).
Proof.
  intros H Sm DJ DA. destruct (H u) as (Fu & Ku & Ou).
  assert (AT := loop_acceleration u Fu Ku Ou). destruct AT as [AX AY].
  assert (DU : forall (r : @target Rops -> @axis4 Rops) (q : @state Rops -> @axis3 Rops),
    (r = t_x /\ q = s_x) \/ (r = t_y /\ q = s_y) ->
    derivable_pt_lim (fun w => ta (r (T w)) + dgain n * (tv (r (T w)) - sv (q (S w))) + gain n * (tx (r (T w)) - sx (q (S w)))) u
      (tj (r (T u)) + dgain n * (ta (r (T u)) - sa (q (S u))) + gain n * (tv (r (T u)) - sv (q (S u))))).
  { intros r q Hq. destruct (Sm r ltac:(destruct Hq as [[-> _] | [-> _]]; auto)) as [D1 D2].
    assert (D3 := DJ r ltac:(destruct Hq as [[-> _] | [-> _]]; auto)).
    assert (D4 := DA q ltac:(destruct Hq as [[_ ->] | [_ ->]]; auto)).
    assert (D5 : derivable_pt_lim (fun w => sx (q (S w))) u (sv (q (S u)))).
    { destruct Ou as (_ & _ & _ & DX & DY). destruct Hq as [[_ ->] | [_ ->]]; assumption. }
    apply derivable_pt_lim_plus; [apply derivable_pt_lim_plus; [exact D3|]|].
    - apply (derivable_pt_lim_scal (fun w => tv (r (T w)) - sv (q (S w)))), derivable_pt_lim_minus; assumption.
    - apply (derivable_pt_lim_scal (fun w => tx (r (T w)) - sx (q (S w)))), derivable_pt_lim_minus; assumption. }
  assert (UX := DU t_x s_x (or_introl (conj eq_refl eq_refl))).
  assert (UY := DU t_y s_y (or_intror (conj eq_refl eq_refl))).
  match type of UX with derivable_pt_lim ?f _ _ => set (ux := f) in UX end.
  match type of UY with derivable_pt_lim ?f _ _ => set (uy := f) in UY end.
  assert (EX : forall w, u_x (navigate n (S w) (T w)) = ux w) by reflexivity.
  assert (EY : forall w, u_y (navigate n (S w) (T w)) = uy w) by reflexivity.
  match type of UX with derivable_pt_lim _ _ ?f => set (dux := f) in UX end.
  match type of UY with derivable_pt_lim _ _ ?f => set (duy := f) in UY end.
  assert (CM : forall w, new_xi (K w) (S w) (navigate n (S w) (T w)) = v w /\ v w <> 0 /\
    c_omega (cmd w) = (uy w * cos (th w) - ux w * sin (th w)) / v w /\ c_a (cmd w) = ux w * cos (th w) + uy w * sin (th w)).
  { intros w. destruct (H w) as (Fw & Kw & Ow). destruct Ow as (Cv & _).
    assert (NZ := fast_nz _ _ _ _ Fw Kw). assert (E := fast_command _ _ _ _ Fw). fold (cmd w) (th w) in E.
    rewrite E in Cv |- *. cbn [c_v c_omega c_a] in *. rewrite Cv in *. rewrite EX, EY. repeat split; auto. }
  destruct Ou as (Cv & Dv & Dth & _).
  assert (E := fast_command _ _ _ _ Fu). fold (cmd u) (th u) in E.
  destruct (CM u) as (Xu & NZ & Om & Ac).
  assert (AL : c_alpha (cmd u) = - ((2 * c_a (cmd u) * c_omega (cmd u) + dux * sin (th u) - duy * cos (th u)) / v u)).
  { rewrite E. cbn [c_alpha c_a c_omega]. rewrite Xu. reflexivity. }
  apply (dlim_fext (fun w => (uy w * cos (th w) - ux w * sin (th w)) / v w)).
  { intros w. symmetry. apply CM. }
  assert (DC : derivable_pt_lim (fun w => cos (th w)) u (- sin (th u) * c_omega (cmd u)))
    by exact (derivable_pt_lim_comp th cos u _ _ Dth (derivable_pt_lim_cos _)).
  assert (DS : derivable_pt_lim (fun w => sin (th w)) u (cos (th u) * c_omega (cmd u)))
    by exact (derivable_pt_lim_comp th sin u _ _ Dth (derivable_pt_lim_sin _)).
  assert (DN := derivable_pt_lim_minus _ _ _ _ _ (derivable_pt_lim_mult _ _ _ _ _ UY DC) (derivable_pt_lim_mult _ _ _ _ _ UX DS)).
  eapply dlim_to; [exact (derivable_pt_lim_div _ _ _ _ _ DN Dv NZ)|].
  rewrite AL. unfold minus_fct, mult_fct, Rsqr. rewrite Om, Ac.
  set (c := cos (th u)). set (z := sin (th u)). set (x := ux u). set (y := uy u). set (q := v u) in *.
  change (@num Rops) with R in *. field. exact NZ.
Qed.
End Loop.

(** ** Decay of e'' + d e' + g e = 0 *)

Section Decay.
Variables (g d : R) (e e' f f' : R -> R) (a b : R).
Hypothesis Hg : 0 < g.
Hypothesis Hd : 0 < d.
Hypothesis Hab : a <= b.
Hypothesis De : forall u, a <= u <= b -> derivable_pt_lim e u (e' u) /\ derivable_pt_lim e' u (- d * e' u - g * e u).
Hypothesis Df : forall u, a <= u <= b -> derivable_pt_lim f u (f' u) /\ derivable_pt_lim f' u (- d * f' u - g * f u).

Let W (x y : R) := y * y + d * x * y + (g + d * d / 2) * (x * x).
Let M := 3 / 2 + d * d / g.
Let lam := d / M.

Lemma M_pos : 0 < M.
Proof. unfold M. assert (0 < d * d / g) by (apply Rdiv_lt_0_compat; nra). lra. Qed.

Lemma Mg : M * g = 3 / 2 * g + d * d.
Proof. unfold M. field. lra. Qed.

Lemma W_le x y : W x y <= M * (y * y + g * (x * x)).
Proof.
  assert (E : M * (y * y + g * (x * x)) = M * (y * y) + (M * g) * (x * x)) by ring. rewrite E, Mg. unfold W.
  assert (H1 : d * x * y <= d * d * (x * x) / 2 + y * y / 2) by (pose proof (Rle_0_sqr (d * x - y)) as Q; unfold Rsqr in Q; lra).
  assert (H2 : 0 <= d * d / g) by (left; apply Rdiv_lt_0_compat; nra).
  assert (H3 : 3 / 2 * (y * y) <= M * (y * y)) by (apply Rmult_le_compat_r; [apply Rle_0_sqr | unfold M; lra]).
  pose proof (Rle_0_sqr x) as X0. unfold Rsqr in X0. nra.
Qed.

Lemma W_ge x y : (y * y + g * (x * x)) / 2 <= W x y.
Proof.
  unfold W. assert (H1 : - (d * x * y) <= d * d * (x * x) / 2 + y * y / 2).
  { pose proof (Rle_0_sqr (d * x + y)) as Q. unfold Rsqr in Q. lra. }
  pose proof (Rle_0_sqr x) as X0. unfold Rsqr in X0. nra.
Qed.

Lemma W_deriv (h h' : R -> R) u : derivable_pt_lim h u (h' u) -> derivable_pt_lim h' u (- d * h' u - g * h u) ->
  derivable_pt_lim (fun w => W (h w) (h' w)) u (- d * (h' u * h' u + g * (h u * h u))).
Proof.
  intros D1 D2. unfold W.
  assert (P1 := derivable_pt_lim_mult _ _ _ _ _ D2 D2). assert (P2 := derivable_pt_lim_mult _ _ _ _ _ D1 D2).
  assert (P3 := derivable_pt_lim_mult _ _ _ _ _ D1 D1).
  assert (P := derivable_pt_lim_plus _ _ _ _ _ (derivable_pt_lim_plus _ _ _ _ _ P1 (derivable_pt_lim_scal _ d _ _ P2))
    (derivable_pt_lim_scal _ (g + d * d / 2) _ _ P3)).
  eapply dlim_to; [eapply dlim_fext; [|exact P]|].
  - intros w. unfold plus_fct, mult_real_fct, mult_fct. ring.
  - unfold mult_fct. field.
Qed.

Let V u := W (e u) (e' u) + W (f u) (f' u).
Let P u := e' u * e' u + g * (e u * e u) + (f' u * f' u + g * (f u * f u)).

Lemma V_decay : V b <= V a * exp (- lam * (b - a)).
Proof.
  pose proof M_pos as MP.
  destruct Hab as [L | ->]; [|rewrite Rminus_diag_eq, Rmult_0_r, exp_0, Rmult_1_r by reflexivity; lra].
  set (h := fun u => V u * exp (lam * (u - a))).
  assert (DH : forall u, a <= u <= b -> derivable_pt_lim h u ((- d * P u + lam * V u) * exp (lam * (u - a)))).
  { intros u Hu. destruct (De u Hu) as [E1 E2]. destruct (Df u Hu) as [F1 F2].
    assert (DV := derivable_pt_lim_plus _ _ _ _ _ (W_deriv e e' u E1 E2) (W_deriv f f' u F1 F2)).
    assert (DL : derivable_pt_lim (fun w => lam * (w - a)) u (lam * (1 - 0))).
    { apply (derivable_pt_lim_scal (fun w => w - a)), derivable_pt_lim_minus; [apply derivable_pt_lim_id | apply derivable_pt_lim_const]. }
    assert (DE := derivable_pt_lim_comp _ exp u _ _ DL (derivable_pt_lim_exp _)).
    eapply dlim_to; [apply (derivable_pt_lim_mult V _ _ _ _ DV DE)|]. unfold P, comp. ring. }
  destruct (MVT_cor2 h (fun u => (- d * P u + lam * V u) * exp (lam * (u - a))) a b L DH) as (c & Hc & C).
  assert (VP : V c <= M * P c).
  { unfold V, P. pose proof (W_le (e c) (e' c)). pose proof (W_le (f c) (f' c)). nra. }
  assert (NEG : - d * P c + lam * V c <= 0).
  { unfold lam. replace (d / M * V c) with (d * (V c / M)) by (field; lra).
    assert (V c / M <= P c).
    { apply Rmult_le_reg_r with M; [exact MP|]. unfold Rdiv. rewrite Rmult_assoc, Rinv_l by lra. nra. }
    apply Rmult_le_compat_l with (r := d) in H; lra. }
  pose proof (exp_pos (lam * (c - a))) as EP.
  assert (HB : h b <= h a).
  { assert (0 <= exp (lam * (c - a)) * (b - a)) by (apply Rmult_le_pos; lra).
    assert ((- d * P c + lam * V c) * (exp (lam * (c - a)) * (b - a)) <= 0) by nra. lra. }
  unfold h in HB.
  replace (lam * (a - a)) with 0 in HB by ring. rewrite exp_0, Rmult_1_r in HB.
  replace (- lam * (b - a)) with (- (lam * (b - a))) by ring. rewrite exp_Ropp.
  pose proof (exp_pos (lam * (b - a))) as EB.
  apply Rmult_le_reg_r with (exp (lam * (b - a))); [exact EB|].
  rewrite Rmult_assoc, Rinv_l, Rmult_1_r by lra. exact HB.
Qed.

Lemma decay : P b <= 2 * M * P a * exp (- lam * (b - a)).
Proof.
  assert (H := V_decay). pose proof (exp_pos (- lam * (b - a))) as EP.
  assert (L : P b / 2 <= V b) by (unfold P, V; pose proof (W_ge (e b) (e' b)); pose proof (W_ge (f b) (f' b)); lra).
  assert (U : V a <= M * P a) by (unfold P, V; pose proof (W_le (e a) (e' a)); pose proof (W_le (f a) (f' a)); lra).
  assert (V a * exp (- lam * (b - a)) <= M * P a * exp (- lam * (b - a))) by (apply Rmult_le_compat_r; lra).
  lra.
Qed.
End Decay.

Lemma fast_loop (n : @navigation Rops) (K : R -> @tracker Rops) (S : R -> @state Rops) (T : R -> @target Rops) (v : R -> R) (a b : R) :
  0 < gain n -> 0 < dgain n -> rolls v S -> a <= b ->
  (forall u, a <= u <= b -> fast (K u) (S u) (T u) (navigate n (S u) (T u)) /\ 0 <= k_xi_threshold (K u) /\
     obeys v S (fun w => fst (fst (track (K w) (S w) (T w) (navigate n (S w) (T w))))) u /\ smooth T u) ->
  let M := 3 / 2 + dgain n * dgain n / gain n in
  error_energy (gain n) (S b) (T b) <= 2 * M * error_energy (gain n) (S a) (T a) * exp (- (dgain n / M) * (b - a)).
Proof.
  intros Hg Hd Hr Hab H M.
  assert (D := decay (gain n) (dgain n) (fun w => tx (t_x (T w)) - sx (s_x (S w))) (fun w => tv (t_x (T w)) - sv (s_x (S w)))
    (fun w => tx (t_y (T w)) - sx (s_y (S w))) (fun w => tv (t_y (T w)) - sv (s_y (S w))) a b Hg Hd Hab).
  cbv beta zeta in D.
  assert (E : forall w, error_energy (gain n) (S w) (T w) =
    (tv (t_x (T w)) - sv (s_x (S w))) * (tv (t_x (T w)) - sv (s_x (S w))) + gain n * ((tx (t_x (T w)) - sx (s_x (S w))) * (tx (t_x (T w)) - sx (s_x (S w)))) +
    ((tv (t_y (T w)) - sv (s_y (S w))) * (tv (t_y (T w)) - sv (s_y (S w))) + gain n * ((tx (t_y (T w)) - sx (s_y (S w))) * (tx (t_y (T w)) - sx (s_y (S w)))))).
  { intros w. unfold error_energy, sqdist. change (@num Rops) with R. ring. }
  rewrite !E. apply D.
  - intros u Hu. destruct (H u Hu) as (F & Kt & O & Sm).
    exact (loop_error n K S T v Hr u F Kt O t_x s_x (or_introl (conj eq_refl eq_refl)) Sm).
  - intros u Hu. destruct (H u Hu) as (F & Kt & O & Sm).
    exact (loop_error n K S T v Hr u F Kt O t_y s_y (or_intror (conj eq_refl eq_refl)) Sm).
Qed.
