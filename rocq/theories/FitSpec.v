(** Numbers with which every run can be driven. *)
From Coq Require Import ZArith Reals List.
From Verif Require Import Base RunModel Num ControlModel TrajModel TrajSpec.
Open Scope R_scope.

(** Changes between any two speeds up to the speed of the run fit into 156 thousandths of a square (the shortest
    straight part of any curve of a run is a little longer). *)
Definition brisk (w run_v : R) (g : @straight_generator Rops) : Prop :=
  let G := sg_gen g in
  limits G /\ 0 < run_v <= g_v_max G /\ g_v_max G / 2 ^ 25 < run_v /\
  (forall u v, 0 <= u <= run_v -> 0 <= v <= run_v -> ramp_distance (g_a_max G) (g_j_max G) u v < 156 / 1000 * w) /\
  big_enough G (156 / 1000 * w).
