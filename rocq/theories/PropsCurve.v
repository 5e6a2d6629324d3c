(** Property C76: the curves of the slalom table end where the table says. *)
From Coq Require Import ZArith Reals List Bool Lia Lra QArith.
From Verif Require Import Base Num SearchModel RunModel ControlModel TrajModel TrajSpec TrajCurve4.
Open Scope R_scope.

(** ** C76 *)

(** All kinds but FastRun45: whatever the speed, driving along the heading of the curve from its
    start leads to the tabulated end within a fifty-thousandth of the width of a square. *)
Theorem C76_curve_end_partial (w off v p : R) k d : 0 < w -> 0 < v -> (k = None -> off < 45 / 1000) -> k <> Some FastRun45 ->
  let q := @parameters Rops w off k d in
  let s := @generate_curve Rops p (l_start q) 0%R 0%R (sl_theta q) v (v_ref q) (dtheta q) (ddtheta q) (dddtheta q) in
  (exists X Y, drives v (fun u => tx (@calculate Rops (cu_calc s) u)) (cu_t_end s) (l_start q) 0 X Y) /\
  forall X Y, drives v (fun u => tx (@calculate Rops (cu_calc s) u)) (cu_t_end s) (l_start q) 0 X Y ->
  Rabs (X (cu_t_end s) - x_curve_end q) <= w / 50000 /\ Rabs (Y (cu_t_end s) - y_curve_end q) <= w / 50000.
Proof. exact (curve_ends w off v p k d). Qed.
Print Assumptions C76_curve_end_partial.

Example C76_case : exists X Y,
  let q := @parameters Rops (9 / 100)%R (1 / 100)%R None SRight in
  let s := @generate_curve Rops (1 / 1000)%R (l_start q) 0%R 0%R (sl_theta q) (1 / 2)%R (v_ref q) (dtheta q) (ddtheta q) (dddtheta q) in
  drives (1 / 2) (fun u => tx (@calculate Rops (cu_calc s) u)) (cu_t_end s) (l_start q) 0 X Y /\
  Rabs (Y (cu_t_end s) - y_curve_end q) <= 18 / 10000000 /\ y_curve_end q < - (34 / 1000).
Proof.
  destruct (C76_curve_end_partial (9 / 100) (1 / 100) (1 / 2) (1 / 1000) None SRight ltac:(lra) ltac:(lra) ltac:(intros; lra) ltac:(discriminate))
    as [(X & Y & D) AL].
  exists X, Y. split; [exact D|]. split; [destruct (AL X Y D) as [_ B]; eapply Rle_trans; [exact B | lra]|].
  unfold parameters, search90_params, create_params. rops.
  destruct (Rleb_spec (1 / 100 / (9 / 100)) (55555556 / 1000000000)); [lra|]. cbn [y_curve_end]. lra.
Qed.

(** FastRun45: the curve always ends 0.3 per cent of the width of a square too far. *)
Theorem C76_curve_end_refuted : exists k, forall (w off v p : R) d, 0 < w -> 0 < v ->
  let q := @parameters Rops w off (Some k) d in
  let s := @generate_curve Rops p (l_start q) 0%R 0%R (sl_theta q) v (v_ref q) (dtheta q) (ddtheta q) (dddtheta q) in
  (exists X Y, drives v (fun u => tx (@calculate Rops (cu_calc s) u)) (cu_t_end s) (l_start q) 0 X Y) /\
  forall X Y, drives v (fun u => tx (@calculate Rops (cu_calc s) u)) (cu_t_end s) (l_start q) 0 X Y ->
  3 / 1000 * w <= X (cu_t_end s) - x_curve_end q <= 33 / 10000 * w.
Proof. exists FastRun45. exact curve45_off. Qed.
Print Assumptions C76_curve_end_refuted.
