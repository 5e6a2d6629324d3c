(** Binary32 results with bounds on the magnitudes (the true part of C70). *)
From Coq Require Import ZArith Reals Bool Lra Lia.
From Flocq Require Import Core BinarySingleNaN.
From Verif Require Import Base Num NumLemmas FloatMag ControlModel JerkProofs.
Open Scope R_scope.

(** a finite number of at most a given size. *)
Definition upto (m : R) (x : f32) : Prop := is_finite x = true /\ Rabs (B2R x) <= m.
(** a libm with sines, cosines and arctangents of a plausible size. *)
Definition fair_libm (lm : libm) : Prop :=
  (forall x, is_finite x = true -> upto 2 (l_sin lm x) /\ upto 2 (l_cos lm x)) /\
  (forall x y, is_finite x = true -> is_finite y = true -> upto 4 (l_atan2 lm y x)).

(** ** C70, the true part: the input, its derivative and the constraint up to 65536, a component of
    the input not below 2^-20, and the coefficient the code divides by not below 2^-30: there is no
    panic and the new input and its derivative are finite.  Missing: inputs nearer to zero (false,
    see C70_jerk_finite_refuted) and the ranges beyond. *)
Theorem C70_jerk_finite_partial lm (i : @tracking_input (Fops lm)) (a1 a2 b : f32) :
  fair_libm lm ->
  upto 65536 (u_x i) -> upto 65536 (u_y i) -> upto 65536 (du_x i) -> upto 65536 (du_y i) ->
  upto 65536 a1 -> upto 65536 a2 -> upto 65536 b ->
  / 1048576 <= Rabs (B2R (u_x i : f32)) \/ / 1048576 <= Rabs (B2R (u_y i : f32)) ->
  / 1073741824 <= Rabs (B2R a2) \/ B2R a2 = 0 /\ / 1073741824 <= Rabs (B2R a1) ->
  exists o, @apply_constraints (Fops lm) i a1 a2 b = Ret o /\
    is_finite (u_x o) = true /\ is_finite (u_y o) = true /\
    is_finite (du_x o) = true /\ is_finite (du_y o) = true.
Proof.
  intros [HT HA] H1 H2 H3 H4 H5 H6 H7 H8 H9.
  destruct (jerk_finite lm) with (i := i) (a1 := a1) (a2 := a2) (b := b) as (o & E & A & B & C & D); try assumption.
  - intros x F. destruct (HT x F). split; assumption.
  - exists o. split; [exact E|]. split; [apply A|]. split; [apply B|]. split; [apply C|apply D].
Qed.
Print Assumptions C70_jerk_finite_partial.

(** a violated constraint: input (1, 0), constraint y >= x. *)
Definition lm2 : libm := Libm (fun _ => f32_of_Z 0) (fun _ => f32_of_Z 1) (fun x => x) (fun _ _ => f32_of_Z 0).
Example C70_case :
  let i := @TrackingInput (Fops lm2) (f32_of_Z 1) (f32_of_Z 0) (f32_of_Z 3) (f32_of_Z 4) in
  (exists o, @apply_constraints (Fops lm2) i (f32_of_Z (-1)) (f32_of_Z 1) (f32_of_Z 0) = Ret o /\
    is_finite (u_x o) = true /\ is_finite (u_y o) = true /\
    is_finite (du_x o) = true /\ is_finite (du_y o) = true) /\
  @leb (Fops lm2) n0 (@add (Fops lm2) (@add (Fops lm2) (@mul (Fops lm2) (f32_of_Z (-1)) (u_x i))
    (@mul (Fops lm2) (f32_of_Z 1) (u_y i))) (f32_of_Z 0)) = false.
Proof.
  cbv zeta. split; [|vm_compute; reflexivity].
  assert (V : forall z, (Z.abs z <= 4)%Z -> upto 65536 (f32_of_Z z) /\ B2R (f32_of_Z z) = IZR z /\ upto 4 (f32_of_Z z)).
  { intros z Hz. destruct (f32_of_Z_exact z ltac:(lia)) as [E F]. unfold upto. rewrite E, <- abs_IZR.
    apply IZR_le in Hz. repeat split; try exact F; lra. }
  apply C70_jerk_finite_partial; cbn [u_x u_y du_x du_y]; try (apply V; lia).
  - assert (Q : forall z, (Z.abs z <= 2)%Z -> upto 2 (f32_of_Z z)).
    { intros z Hz. destruct (f32_of_Z_exact z ltac:(lia)) as [E F]. unfold upto. rewrite E, <- abs_IZR.
      apply IZR_le in Hz. split; [exact F|lra]. }
    split; [intros x _; split; apply Q; lia|intros x y _ _; apply V; lia].
  - left. destruct (V 1%Z ltac:(lia)) as (_ & -> & _). rewrite Rabs_pos_eq; lra.
  - left. destruct (V 1%Z ltac:(lia)) as (_ & -> & _). rewrite Rabs_pos_eq; lra.
Qed.
