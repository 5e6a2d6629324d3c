(** A robot that is left alone (C102), in binary32 arithmetic. *)
From Coq Require Import ZArith Reals List Bool Lra Lia.
From Flocq Require Import Core BinarySingleNaN.
From Verif Require Import Base WallsModel Num NumLemmas ControlModel SimModel SimSpec RestSpec RestProofs RestProofs2.
Open Scope R_scope.

(** ** C102: the parts as their builders make them, a state at rest, any number of rounds. *)
Theorem C102_still lm n (w : walls) (s : @state (Fops lm)) (tp rp : @control_parameters (Fops lm))
    (mx p tk tt rk rt wi al sc th : f32) :
  sound_libm lm -> at_rest s -> usable tp -> usable rp -> usual p ->
  finite mx -> 0 <= B2R mx -> finite tk -> finite rk -> finite wi ->
  finite tt -> 0 <= B2R tt <= 2 ^ 100 -> finite rt -> 0 <= B2R rt <= 2 ^ 100 ->
  finite al -> 0 <= B2R al <= 1 -> finite sc -> 0 < B2R sc -> finite th -> 0 < B2R th ->
  let m := @simulator_new (Fops lm) w s s mx p tk tt rk rt wi in
  let '(m', _, _, s') := idle n m (@controller_new (Fops lm) tp rp p) (@estimator_new (Fops lm) p al sc th) s in
  at_rest (m_current m') /\ same_place (m_current m') s /\ at_rest s' /\ same_place s' s.
Proof.
  intros HL Rs Ut Ur Up A1 A2 A3 A4 A5 A6 A7 A8 A9 B1 B2 B3 B4 B5 B6 m.
  pose proof nought_ok as N.
  pose proof (idle_rest lm HL n m (@controller_new (Fops lm) tp rp p) (@estimator_new (Fops lm) p al sc th) s) as H.
  destruct (idle n m _ _ s) as [[[m' c'] e'] s'].
  destruct H as (_ & R1 & S1 & _ & _ & R2 & S2);
    [constructor; assumption|exact Rs|constructor; assumption|constructor; assumption|exact Rs|].
  split; [exact R1|]. split; [exact S1|]. split; [exact R2|exact S2].
Qed.
Print Assumptions C102_still.

(** Without new voltages the simulator alone stays, too. *)
Theorem C102_untouched lm n (w : walls) (s : @state (Fops lm)) (mx p tk tt rk rt wi : f32) :
  sound_libm lm -> at_rest s -> usual p ->
  finite mx -> 0 <= B2R mx -> finite tk -> finite rk -> finite wi ->
  finite tt -> 0 <= B2R tt <= 2 ^ 100 -> finite rt -> 0 <= B2R rt <= 2 ^ 100 ->
  let m' := runs (@simulator_new (Fops lm) w s s mx p tk tt rk rt wi) (repeat Step n) in
  at_rest (m_current m') /\ same_place (m_current m') s.
Proof.
  intros HL Rs Up A1 A2 A3 A4 A5 A6 A7 A8 A9. cbv zeta.
  apply (still_steps lm HL n (@simulator_new (Fops lm) w s s mx p tk tt rk rt wi));
    [constructor; assumption|exact Rs|exact nought_ok|exact nought_ok].
Qed.
Print Assumptions C102_untouched.

(** The slip constant must not be 0: the first estimate of a robot at rest then has no slip angle. *)
Theorem C102_noslip lm (s : @state (Fops lm)) (v : @sensor_value (Fops lm)) (p al sc th : f32) :
  usual p -> finite al -> 0 <= B2R al <= 1 -> zero sc ->
  zero (left_distance v) -> zero (right_distance v) ->
  zero (translational_acceleration v) -> zero (angular_velocity v) ->
  e_slip_angle (snd (estimate (@estimator_new (Fops lm) p al sc th) s v)) = B754_nan.
Proof. exact (noslip lm s v p al sc th). Qed.
Print Assumptions C102_noslip.

(** The centre of the first square, a period of 1/1024 s, the default slip constant 100. *)
Definition lm1 : libm := Libm (fun x => x) (fun _ => f32_of_Z 1) (fun x => x) (fun y _ => y).
Lemma lm1_sound : sound_libm lm1.
Proof.
  destruct (f32_of_Z_exact 1 ltac:(lia)) as [E F].
  split; intros x H; [split; [exact H|exact F]|]. cbn [lm1 l_cos]. rewrite E. lra.
Qed.

(** the literal n / 1024. *)
Definition part (n : Z) : f32 := f32_div (f32_of_Z n) (f32_of_Z 1024).
Lemma part_ok n : (Z.abs n <= 2 ^ 24)%Z -> finite (part n) /\ B2R (part n) = IZR n / 1024.
Proof.
  intros H. destruct (f32_of_Z_exact n H) as [E F]. destruct (f32_of_Z_exact 1024 ltac:(lia)) as [E1 F1].
  assert (G : rnd32 (B2R (f32_of_Z n) / B2R (f32_of_Z 1024)) = IZR n / 1024).
  { rewrite E, E1. apply rnd_exact. apply generic_format_FLT. destruct (Z.eq_dec (Z.abs n) (2 ^ 24)) as [A|A].
    - exists (Float radix2 (n / 2) (-9)); [|cbn [Fnum]; change (radix2 ^ 24)%Z with (2 ^ 24)%Z|cbn [Fexp]; lia].
      + assert (D : (n = 2 * (n / 2))%Z) by (destruct (Z.abs_spec n) as [[_ B]|[_ B]]; rewrite B in A;
          [subst n|replace n with (- (2 ^ 24))%Z by lia]; reflexivity).
        unfold F2R. cbn [Fnum Fexp]. rewrite D at 1. rewrite mult_IZR. simpl. lra.
      + apply Z.lt_le_trans with (2 ^ 23 + 1)%Z; [|lia].
        destruct (Z.abs_spec n) as [[_ B]|[_ B]]; rewrite B in A;
          [subst n|replace n with (- (2 ^ 24))%Z by lia]; reflexivity.
    - exists (Float radix2 n (-10)); [|cbn [Fnum]; change (radix2 ^ 24)%Z with (2 ^ 24)%Z; lia|cbn [Fexp]; lia].
      unfold F2R. cbn [Fnum Fexp]. simpl. lra. }
  destruct (div_ok (f32_of_Z n) (f32_of_Z 1024) F) as [A B].
  - rewrite E1. lra.
  - rewrite G. unfold Rdiv. rewrite Rabs_mult, (Rabs_pos_eq (/ 1024)) by lra. rewrite <- abs_IZR.
    apply Rle_lt_trans with (IZR (2 ^ 24)).
    + apply IZR_le in H. pose proof (IZR_le 0 (Z.abs n) ltac:(lia)). lra.
    + change (bpow radix2 128) with (IZR (2 ^ 128)). apply IZR_lt. lia.
  - split; [exact B|]. unfold part. rewrite A. exact G.
Qed.

(** The first square, 46.9 mm from both walls, heading 1.5, with the default slip constant 100. *)
Example C102_case n (w : walls) :
  let ax (x : f32) := @Axis3 (Fops lm1) x (part 0) (part 0) in
  let s := @State (Fops lm1) (ax (part 48)) (ax (part 48)) (ax (part 1536)) in
  let cp := @ControlParameters (Fops lm1) (part 2048) (part 30720) (part 0) (part 1024) (part 1024) in
  let m := @simulator_new (Fops lm1) w s s (part 3072) (part 1) (part 1024) (part 1024) (part 10240) (part 1024) (part 32) in
  let '(m', _, _, s') := idle n m (@controller_new (Fops lm1) cp cp (part 1))
    (@estimator_new (Fops lm1) (part 1) (part 768) (part 102400) (part 128)) s in
  at_rest (m_current m') /\ same_place (m_current m') s /\ at_rest s' /\ same_place s' s /\
  B2R (sx (s_x s')) = 3 / 64.
Proof.
  cbv zeta.
  assert (P : forall k : Z, (Z.abs k <= 2 ^ 24)%Z -> finite (part k)) by (intros; apply part_ok; assumption).
  assert (V : forall k : Z, (Z.abs k <= 2 ^ 24)%Z -> B2R (part k) = IZR k / 1024) by (intros; apply part_ok; assumption).
  assert (L : 1024 <= 2 ^ 100) by (apply Rle_trans with (2 ^ 10); [lra|apply Rle_pow; [lra|lia]]).
  assert (Z0 : zero (part 0)) by (split; [apply P; lia|rewrite V by lia; lra]).
  set (s := @State (Fops lm1) _ _ _).
  set (cp := @ControlParameters (Fops lm1) _ _ _ _ _).
  assert (Rs : at_rest s) by (repeat split; try (apply P; lia); rewrite V by lia; lra).
  assert (Uc : usable cp).
  { unfold usable, cp. cbn [kp ki kd model_k model_t1]. repeat (split; [apply P; lia|]). rewrite V by lia. lra. }
  assert (Up : usual (part 1)).
  { split; [apply P; lia|]. rewrite V by lia. split; [|lra].
    apply Rle_trans with (/ 1024); [apply Rinv_le_contravar; lra|lra]. }
  pose proof (C102_still lm1 n w s cp cp (part 3072) (part 1) (part 1024) (part 1024) (part 10240) (part 1024)
    (part 32) (part 768) (part 102400) (part 128)) as H. cbv zeta in H.
  destruct (idle n _ _ _ s) as [[[m' c'] e'] s'].
  destruct H as (H1 & H2 & H3 & H4); try exact lm1_sound; try assumption; try (apply P; lia);
    try (rewrite V by lia; lra).
  repeat (split; [assumption|]). destruct H4 as (E & _). rewrite E. unfold s. cbn [s_x sx]. rewrite V by lia. lra.
Qed.
