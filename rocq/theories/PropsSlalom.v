(** Slaloms planned in binary32 (C104). *)
From Coq Require Import ZArith Reals List Bool Lia Lra.
From Flocq Require Import Core BinarySingleNaN.
From Verif Require Import Base Num NumLemmas RunModel ControlModel TrajModel TrajSpec ClockSpec FloatMag FloatRange
  FloatMoveSpec FloatMove FloatCurve FloatCurve2 FloatCurve3 PropsMove.
Open Scope R_scope.

(** ** C104: a slalom at constant speed with ordinary parameters ends, and every number of every target
    is finite. *)
Theorem C104_constant lm (p : f32) (q : @slalom_params (Fops lm)) (v : f32) :
  calm_trig lm -> within (1 / 1024) 1 p -> usual_curve q -> within 0 8 (l_start q) -> within 0 8 (l_end q) ->
  curve_speed q v ->
  exists N, (0 < N)%nat /\ INR N <= 3 * 8388608 /\ yields (@slalom_next (Fops lm) q) (@generate_constant_slalom (Fops lm) p q v) N /\
    forall i t, output (@slalom_next (Fops lm) q) i (@generate_constant_slalom (Fops lm) p q v) = Some t -> finite_target t.
Proof. exact (constant_slalom lm p q v). Qed.
Print Assumptions C104_constant.

(** and so does a slalom whose straight parts change the speed, provided the speed in the curve is in
    the range; the speed at the end is an ordinary one. *)
Theorem C104_terminal lm (g : @generator (Fops lm)) (p : f32) (q : @slalom_params (Fops lm)) (vs vm ve : f32) :
  calm_trig lm -> usual_limits g -> within (1 / 1024) 1 p -> usual_curve q -> usual_distance (l_start q) -> usual_distance (l_end q) ->
  within 0 (B2R (g_v_max g : f32)) vs -> within 0 (B2R (g_v_max g : f32)) vm -> within 0 (B2R (g_v_max g : f32)) ve ->
  curve_speed q (snd (@straight_generate_tv (Fops lm) (@StraightGenerator (Fops lm) g p) (l_start q) vs vm)) ->
  let slalom := @generate_slalom_tv (Fops lm) (@StraightGenerator (Fops lm) g p) q vs vm ve in
  within 0 (B2R (g_v_max g : f32)) (snd slalom) /\
  exists N, (0 < N)%nat /\ INR N <= 3 * 8388608 /\ yields (@slalom_next (Fops lm) q) (fst slalom) N /\
    forall i t, output (@slalom_next (Fops lm) q) i (fst slalom) = Some t -> finite_target t.
Proof. exact (tv_slalom lm g p q vs vm ve). Qed.
Print Assumptions C104_terminal.

(** The speed in the curve lies between the two speeds asked for. *)
Theorem C104_middle lm (g : @generator (Fops lm)) (p d vs vm : f32) :
  usual_limits g -> usual_distance d ->
  within 0 (B2R (g_v_max g : f32)) vs -> within 0 (B2R (g_v_max g : f32)) vm ->
  Rmin (B2R vs) (B2R vm) <= B2R (snd (@straight_generate_tv (Fops lm) (@StraightGenerator (Fops lm) g p) d vs vm) : f32) <= Rmax (B2R vs) (B2R vm).
Proof. intros Hg. exact (middle_between lm g Hg p d vs vm). Qed.
Print Assumptions C104_middle.

(** The parameters of the table are ordinary for every width of a square from 1/16 to 1/2. *)
Theorem C104_table lm (w off : f32) (k : skind) (d : sdir) : within (1 / 16) (1 / 2) w ->
  let q := @parameters (Fops lm) w off (Some k) d in
  usual_curve q /\ usual_distance (l_start q) /\ usual_distance (l_end q) /\ 0 < B2R (l_start q : f32) /\ 0 < B2R (l_end q : f32).
Proof. exact (table_usual lm w off k d). Qed.
Print Assumptions C104_table.

(** and so are those of the slalom of a search, for a front offset of at most 1/64. *)
Theorem C104_search lm (w off : f32) (d : sdir) : within (1 / 16) (1 / 2) w -> within 0 (1 / 64) off ->
  let q := @parameters (Fops lm) w off None d in
  usual_curve q /\ within 0 8 (l_start q) /\ within 0 8 (l_end q).
Proof. exact (search90_usual lm w off d). Qed.
Print Assumptions C104_search.

(** a mathematical library whose sine is 0 and whose cosine is 1, for the example only. *)
Definition flat_libm : libm := Libm (fun _ => B754_zero false) (fun _ => f32_of_Z 1) (fun x => x) (fun y x => f32_div y x).

(** A search slalom to the left at 1/4 metre per second in a maze of squares of 9 centimetres. *)
Example C104_case : let q := @parameters (Fops flat_libm) (@lit (Fops flat_libm) 9 100) (@lit (Fops flat_libm) 1 100) None SLeft in
  calm_trig flat_libm /\ within (1 / 1024) 1 (@lit (Fops flat_libm) 1 1000) /\
  usual_curve q /\ within 0 8 (l_start q) /\ within 0 8 (l_end q) /\ curve_speed q (@lit (Fops flat_libm) 1 4).
Proof.
  cbv zeta.
  assert (R : forall (a b : Z) (x : f32), in_range a b x = true -> (Z.abs a <= 2 ^ 24)%Z -> (Z.abs b <= 2 ^ 24)%Z -> within (IZR a / 1024) (IZR b / 1024) x)
    by (intros; apply in_range_btw; assumption).
  assert (W : within (1 / 16) (1 / 2) (@lit (Fops flat_libm) 9 100)).
  { destruct (R 92 93 (@lit (Fops flat_libm) 9 100) ltac:(vm_compute; reflexivity) ltac:(lia) ltac:(lia))%Z as [F H]. split; [exact F|lra]. }
  assert (O : within 0 (1 / 64) (@lit (Fops flat_libm) 1 100)).
  { destruct (R 10 11 (@lit (Fops flat_libm) 1 100) ltac:(vm_compute; reflexivity) ltac:(lia) ltac:(lia))%Z as [F H]. split; [exact F|lra]. }
  split.
  { intros x _. cbn [flat_libm l_sin l_cos]. destruct (f32_of_Z_exact 1 ltac:(lia)) as [E1 F1].
    split; [split; [reflexivity|cbn [B2R]; lra]|split; [exact F1|rewrite E1; lra]]. }
  split.
  { destruct (R 1 2 (@lit (Fops flat_libm) 1 1000) ltac:(vm_compute; reflexivity) ltac:(lia) ltac:(lia))%Z as [F H]. split; [exact F|lra]. }
  destruct (C104_search flat_libm _ _ SLeft W O) as (U & L1 & L2).
  split; [exact U|]. split; [exact L1|]. split; [exact L2|].
  destruct (R 256 256 (@lit (Fops flat_libm) 1 4) ltac:(vm_compute; reflexivity) ltac:(lia) ltac:(lia))%Z as [F H].
  destruct (R 200 256 (v_ref (@parameters (Fops flat_libm) (@lit (Fops flat_libm) 9 100) (@lit (Fops flat_libm) 1 100) None SLeft)) ltac:(vm_compute; reflexivity) ltac:(lia) ltac:(lia))%Z as [_ H'].
  unfold curve_speed. set (r := v_ref _) in *. clearbody r. split; [exact F|lra].
Qed.

(** A fast slalom of 45 degrees to the right, entered at 1/4 metre per second and taken at 1/2. *)
Example C104_case_fast : let q := @parameters (Fops flat_libm) (@lit (Fops flat_libm) 9 100) (@n0 (Fops flat_libm)) (Some FastRun45) SRight in
  let g := @Generator (Fops flat_libm) (f32_of_Z 1) (f32_of_Z 10) (f32_of_Z 100) in
  let vs := @lit (Fops flat_libm) 1 4 in let vm := @lit (Fops flat_libm) 1 2 in
  usual_limits g /\ usual_curve q /\ usual_distance (l_start q) /\ usual_distance (l_end q) /\
  within 0 (B2R (g_v_max g : f32)) vs /\ within 0 (B2R (g_v_max g : f32)) vm /\
  curve_speed q (snd (@straight_generate_tv (Fops flat_libm) (@StraightGenerator (Fops flat_libm) g (@lit (Fops flat_libm) 1 1000)) (l_start q) vs vm)).
Proof.
  assert (R : forall (a b : Z) (x : f32), in_range a b x = true -> (Z.abs a <= 2 ^ 24)%Z -> (Z.abs b <= 2 ^ 24)%Z -> within (IZR a / 1024) (IZR b / 1024) x)
    by (intros; apply in_range_btw; assumption).
  set (q := parameters _ _ _ _). set (g := @Generator (Fops flat_libm) _ _ _). set (vs := lit 1 4). set (vm := lit 1 2). cbv zeta.
  assert (W : within (1 / 16) (1 / 2) (@lit (Fops flat_libm) 9 100)).
  { destruct (R 92 93 (@lit (Fops flat_libm) 9 100) ltac:(vm_compute; reflexivity) ltac:(lia) ltac:(lia))%Z as [F H]. split; [exact F|lra]. }
  destruct (C104_table flat_libm _ (@n0 (Fops flat_libm)) FastRun45 SRight W) as (U & D1 & D2 & _). fold q in U, D1, D2.
  assert (G : usual_limits g).
  { destruct (f32_of_Z_exact 1 ltac:(lia)) as [E1 F1]. destruct (f32_of_Z_exact 10 ltac:(lia)) as [E2 F2]. destruct (f32_of_Z_exact 100 ltac:(lia)) as [E3 F3].
    unfold usual_limits, within. cbn [g g_v_max g_a_max g_j_max]. rewrite E1, E2, E3.
    split; [split; [exact F1|lra]|]. split; [split; [exact F2|lra]|]. split; [exact F3|lra]. }
  destruct (R 256 256 vs ltac:(vm_compute; reflexivity) ltac:(lia) ltac:(lia))%Z as [Fs Hs].
  destruct (R 512 512 vm ltac:(vm_compute; reflexivity) ltac:(lia) ltac:(lia))%Z as [Fm Hm].
  assert (T : B2R (g_v_max g : f32) = 1) by (apply (f32_of_Z_exact 1); lia).
  assert (Vs : within 0 (B2R (g_v_max g : f32)) vs) by (split; [exact Fs|lra]).
  assert (Vm : within 0 (B2R (g_v_max g : f32)) vm) by (split; [exact Fm|lra]).
  split; [exact G|]. split; [exact U|]. split; [exact D1|]. split; [exact D2|]. split; [exact Vs|]. split; [exact Vm|].
  set (p := lit 1 1000).
  pose proof (C104_middle flat_libm g p (l_start q) vs vm G D1 Vs Vm) as M.
  assert (P : within (1 / 1024) 1 p).
  { destruct (R 1 2 p ltac:(vm_compute; reflexivity) ltac:(lia) ltac:(lia))%Z as [F H]. split; [exact F|lra]. }
  destruct (C103_straight flat_libm g p (l_start q) vs vm G P D1 Vs Vm) as [[FM _] _].
  destruct (R 300 320 (v_ref q) ltac:(vm_compute; reflexivity) ltac:(lia) ltac:(lia))%Z as [_ Hr].
  unfold curve_speed. set (r := v_ref q) in *. set (u := snd _) in *. clearbody r u.
  rewrite Rmin_left, Rmax_right in M by lra. split; [exact FM|lra].
Qed.
