(** The table of slaloms and the poses of nodes. *)
From Coq Require Import ZArith Reals List Bool Lra Lia Psatz.
From Coq Require Import ZifyBool.
From Flocq Require Import Core BinarySingleNaN.
From Verif Require Import Base Num NumLemmas SearchModel SearchSpec SearchCoord RunModel RunSpec RunNode RunMoves
  ControlModel TrajModel TrajSpec TrajProofs TrajProofs2 TrajProofs3 TrajProofs4 TrajProofs5.
Import ListNotations.
Open Scope R_scope.

(** ** Angles *)

Definition h : R := / sqrt 2.

Lemma h_sq : h * h = 1 / 2.
Proof. unfold h. rewrite <- Rinv_mult. rewrite sqrt_sqrt by lra. lra. Qed.

Lemma h_bounds : 70710678 / 100000000 < h < 70710679 / 100000000.
Proof.
  assert (P : 0 < h) by (unfold h; apply Rinv_0_lt_compat, sqrt_lt_R0; lra).
  pose proof h_sq. split; nra.
Qed.

(** multiples of 45 degrees *)
Definition ang (p : dir8) : Z :=
  match p with PN => 2 | PNE => 1 | PE => 0 | PSE => -1 | PS => -2 | PSW => -3 | PW => 4 | PNW => 3 end.
Definition C8 (p : dir8) : R :=
  match p with PN | PS => 0 | PE => 1 | PW => -1 | PNE | PSE => h | PNW | PSW => - h end.
Definition S8 (p : dir8) : R :=
  match p with PE | PW => 0 | PN => 1 | PS => -1 | PNE | PNW => h | PSE | PSW => - h end.

Lemma cs8 p : cos (IZR (ang p) * (PI / 4)) = C8 p /\ sin (IZR (ang p) * (PI / 4)) = S8 p.
Proof.
  assert (Q : 1 / sqrt 2 = h) by (unfold h; lra).
  assert (Q' : -1 / sqrt 2 = - h) by (unfold h; lra).
  destruct p; cbn [ang C8 S8].
  - replace (2 * (PI / 4)) with (PI / 2) by field. rewrite cos_PI2, sin_PI2. auto.
  - rewrite Rmult_1_l, cos_PI4, sin_PI4. auto.
  - rewrite Rmult_0_l, cos_0, sin_0. auto.
  - replace (-1 * (PI / 4)) with (- (PI / 4)) by field. rewrite cos_neg, sin_neg, cos_PI4, sin_PI4. rewrite Q. auto.
  - replace (-2 * (PI / 4)) with (- (PI / 2)) by field. rewrite cos_neg, sin_neg, cos_PI2, sin_PI2. auto.
  - replace (-3 * (PI / 4)) with (- (3 * (PI / 4))) by field. rewrite cos_neg, sin_neg, cos_3PI4, sin_3PI4.
    rewrite Q, Q'. auto.
  - replace (4 * (PI / 4)) with PI by field. rewrite cos_PI, sin_PI. auto.
  - rewrite cos_3PI4, sin_3PI4. auto.
Qed.

Lemma node_pose (n : node) (w : R) :
  @pose_of_node Rops n w = @Pose Rops ((IZR (nx n) + 1) * w / 2)%R ((IZR (ny n) + 1) * w / 2)%R
                       (IZR (ang (np n)) * (PI / 4))%R.
Proof.
  unfold pose_of_node. destruct n as [x y p]. cbn [nx ny np].
  rops. rewrite !plus_IZR. f_equal; try field.
  unfold degree. destruct p; cbn [ang]; rops; field.
Qed.

(** ** Ideal ends *)

Definition ideal (w : R) (t : rtraj) : @pose Rops :=
  let s d := match d with SLeft => 1 | SRight => -1 end in
  match t with
  | RStraight x => @Pose Rops (IZR x * w)%R 0%R 0%R
  | RStraightDiagonal x => @Pose Rops (IZR x * w * h)%R 0%R 0%R
  | RSlalom FastRun45 d => @Pose Rops w (s d * (w / 2))%R (s d * (1 * (PI / 4)))%R
  | RSlalom FastRun45Rev d => @Pose Rops (3 / 2 * w * h)%R (s d * (1 / 2 * w * h))%R (s d * (1 * (PI / 4)))%R
  | RSlalom FastRun90 d => @Pose Rops w (s d * w)%R (s d * (2 * (PI / 4)))%R
  | RSlalom FastRun135 d => @Pose Rops (w / 2)%R (s d * w)%R (s d * (3 * (PI / 4)))%R
  | RSlalom FastRun135Rev d => @Pose Rops (1 / 2 * w * h)%R (s d * (3 / 2 * w * h))%R (s d * (3 * (PI / 4)))%R
  | RSlalom FastRun180 d => @Pose Rops 0%R (s d * w)%R (s d * (4 * (PI / 4)))%R
  | RSlalom FastRunDiagonal90 d => @Pose Rops (w * h)%R (s d * (w * h))%R (s d * (2 * (PI / 4)))%R
  end.

Lemma near_scale eps (w a : R) : 0 <= w -> - eps <= a <= eps -> Rabs (a * w) <= eps * w.
Proof. intros Hw Ha. rewrite Rabs_mult, (Rabs_pos_eq w Hw). apply Rmult_le_compat_r; [exact Hw|]. apply Rabs_le. exact Ha. Qed.

Lemma create_end (ls le x y v w : R) (th : Z) p d :
  (th = 45 * ang p)%Z ->
  slalom_end (@create_params Rops ls le x y v (@lit Rops th 1) w d) =
  let s := match d with SLeft => 1 | SRight => -1 end in
  @Pose Rops ((x + le * C8 p) * w)%R (s * ((y + le * S8 p) * w))%R (s * (IZR (ang p) * (PI / 4)))%R.
Proof.
  intros ->. destruct (cs8 p) as [C S].
  assert (D : @degree Rops (@lit Rops (45 * ang p) 1) = IZR (ang p) * (PI / 4) :> R).
  { unfold degree. rops. rewrite mult_IZR. field. }
  unfold slalom_end, create_params, compose. destruct d; cbn [x_curve_end y_curve_end sl_theta l_end p_x p_y p_theta];
    rewrite D; rops; rewrite ?cos_neg, ?sin_neg, C, S; f_equal; cbv zeta; ring.
Qed.

Ltac ends p := unfold parameters; rewrite (create_end _ _ _ _ _ _ _ p) by reflexivity; cbv zeta;
  cbn [C8 S8 ang]; rops.

Ltac endx G :=
  match goal with
  | |- Rabs (_ * (?a * ?w - ?b)) <= _ =>
    first [ eapply (G (a - 1)); [ring | lra]
          | eapply (G (a - 3 / 2 * h)); [ring | lra]
          | eapply (G (a - 1 / 2)); [field | lra]
          | eapply (G (a - 1 / 2 * h)); [field | lra]
          | eapply (G a); [ring | lra]
          | eapply (G (a - h)); [ring | lra] ]
  | |- Rabs (?a * ?w - ?b) <= _ =>
    first [ eapply (G (a - 1) _ SLeft); [ring | lra]
          | eapply (G (a - 3 / 2 * h) _ SLeft); [ring | lra]
          | eapply (G (a - 1 / 2) _ SLeft); [field | lra]
          | eapply (G (a - 1 / 2 * h) _ SLeft); [field | lra]
          | eapply (G a _ SLeft); [ring | lra]
          | eapply (G (a - h) _ SLeft); [ring | lra] ]
  end.

Lemma table_end (w off : R) t : 0 <= w -> near (3 / 10000000 * w) (run_end w off t) (ideal w t).
Proof.
  intros Hw. pose proof h_bounds as HB.
  assert (G : forall (a b : R) d, a * w = b -> - (3 / 10000000) <= a <= 3 / 10000000 ->
    Rabs b <= 3 / 10000000 * w /\ Rabs (match d with SLeft => 1 | SRight => -1 end * b) <= 3 / 10000000 * w).
  { intros a b d <- H. pose proof (near_scale _ w a Hw H) as Q. split; [exact Q|].
    rewrite Rabs_mult. destruct d; [rewrite Rabs_left by lra | rewrite Rabs_R1]; lra. }
  assert (Z0 : forall b : R, b = 0 -> Rabs b <= 3 / 10000000 * w).
  { intros b ->. rewrite Rabs_R0. lra. }
  destruct t as [x|x|k d]; [| |destruct k]; cbn [run_end ideal].
  1,2: unfold near; cbn [p_x p_y p_theta]; (split; [apply Z0; unfold h; lra|]; split; [apply Z0; lra|]);
    exists 0%Z; rops; lra.
  all: match goal with
       | |- context [FastRun45] => ends PNE
       | |- context [FastRun45Rev] => ends PNE
       | |- context [FastRun90] => ends PN
       | |- context [FastRun135] => ends PNW
       | |- context [FastRun135Rev] => ends PNW
       | |- context [FastRun180] => ends PW
       | |- context [FastRunDiagonal90] => ends PN
       end; unfold near; cbn [p_x p_y p_theta].
  all: (split; [|split; [|exists 0%Z; change (@num Rops) with R; ring]]).
  all: try rewrite <- Rmult_minus_distr_l.
  { endx G. } { endx G. } { endx G. } { endx G. } { endx G. } { endx G. } { endx G. }
  { endx G. } { endx G. } { endx G. } { endx G. } { endx G. } { endx G. } { endx G. }
Qed.

(** ** Relative positions of nodes *)

Definition kind_case (g : ngroup) (dx dy : Z) (p : dir8) (t : rtraj) : Prop :=
  (g = GCell /\
   ((dx = 0%Z /\ p = PN /\ exists k, dy = (2 * k)%Z /\ t = RStraight k) \/
    (exists s, (s = 1%Z \/ s = (-1)%Z) /\ let q (a b : dir8) := if (s =? 1)%Z then a else b in
      let d := if (s =? 1)%Z then SRight else SLeft in
      (dx = s /\ dy = 2%Z /\ p = q PNE PNW /\ t = RSlalom FastRun45 d) \/
      (dx = (2 * s)%Z /\ dy = 2%Z /\ p = q PE PW /\ t = RSlalom FastRun90 d) \/
      (dx = (2 * s)%Z /\ dy = 1%Z /\ p = q PSE PSW /\ t = RSlalom FastRun135 d) \/
      (dx = (2 * s)%Z /\ dy = 0%Z /\ p = PS /\ t = RSlalom FastRun180 d)))) \/
  ((g = GLeft \/ g = GRight) /\
   ((p = PNE /\ dx = dy /\ t = RStraightDiagonal dx) \/
    (dx = 1%Z /\ dy = 2%Z /\ p = PN /\ t = RSlalom FastRun45Rev SLeft) \/
    (dx = 0%Z /\ dy = 2%Z /\ p = PNW /\ t = RSlalom FastRunDiagonal90 SLeft) \/
    (dx = (-1)%Z /\ dy = 2%Z /\ p = PW /\ t = RSlalom FastRun135Rev SLeft) \/
    (dx = 2%Z /\ dy = 1%Z /\ p = PE /\ t = RSlalom FastRun45Rev SRight) \/
    (dx = 2%Z /\ dy = 0%Z /\ p = PSE /\ t = RSlalom FastRunDiagonal90 SRight) \/
    (dx = 2%Z /\ dy = (-1)%Z /\ p = PS /\ t = RSlalom FastRun135Rev SRight))).

Ltac zcases H := repeat (match type of H with context [match ?z with _ => _ end] =>
  first [is_var z; destruct z; try discriminate H | fail 1] end).

Lemma kind_inv a b t : trajectory_kind a b = Ret (Some t) ->
  exists dx dy p, rel_of a b = Ret (dx, dy, p) /\ kind_case (group a) dx dy p t.
Proof.
  unfold trajectory_kind. destruct (rel_of a b) as [[[dx dy] p]| |]; cbn [bind]; try discriminate.
  intros H. exists dx, dy, p. split; [reflexivity|]. injection H as H.
  destruct (group a); [left|right|right|discriminate]; (split; [auto|]).
  - assert (S1 : exists s, (s = 1%Z \/ s = (-1)%Z) /\ s = 1%Z) by (exists 1%Z; auto).
    destruct p; zcases H;
      try (left; split; [reflexivity|]; split; [reflexivity|];
           destruct ((0 <? dy)%Z && (Z.land dy 1 =? 0)%Z) eqn:E; [|discriminate H]; injection H as <-;
           exists (Z.shiftr dy 1); split; [|reflexivity]; rewrite Z.shiftr_div_pow2 by lia;
           change (2 ^ 1)%Z with 2%Z;
           assert (Z.land dy 1 = dy mod 2)%Z by (change 1%Z with (Z.ones 1); rewrite Z.land_ones by lia; reflexivity); lia);
      injection H as <-; right; (exists 1%Z; split; [auto|]; cbv zeta; cbn; intuition congruence) ||
        (exists (-1)%Z; split; [auto|]; cbv zeta; cbn; intuition congruence).
  - destruct p; zcases H; try (injection H as <-; intuition congruence);
      (match type of H with (if ?b then _ else _) = _ => destruct b eqn:E end; [|discriminate H];
       injection H as <-; left; split; [reflexivity|]; split; [lia | reflexivity]).
  - destruct p; zcases H; try (injection H as <-; intuition congruence);
      (match type of H with (if ?b then _ else _) = _ => destruct b eqn:E end; [|discriminate H];
       injection H as <-; left; split; [reflexivity|]; split; [lia | reflexivity]).
Qed.

Definition rel_dir (a b : dir8) : dir8 :=
  let k := match a with PN | PNE => 0 | PE | PSE => 6 | PS | PSW => 4 | PW | PNW => 2 end%Z in
  match from_u8 (Z.land (k + dir_num b) 7) with Ret p => p | _ => PN end.

Lemma rel_inv W a b dx dy p : supported W -> valid_node W a -> valid_node W b ->
  rel_of a b = Ret (dx, dy, p) ->
  nx b = (nx a + dx * fst (to_right (np a)) + dy * fst (ahead (np a)))%Z /\
  ny b = (ny a + dx * snd (to_right (np a)) + dy * snd (ahead (np a)))%Z /\
  p = rel_dir (np a) (np b).
Proof.
  intros HW Ha Hb. destruct (valid_bounds W a HW Ha) as (Hx & Hy & HB).
  destruct (valid_bounds W b HW Hb) as (Hx' & Hy' & _).
  unfold rel_of. rewrite !as_i8_small by lia. rewrite !chk_i8_ok by lia. cbn [bind].
  assert (F : forall k, exists q, from_u8 (Z.land (k + dir_num (np b)) 7) = Ret q).
  { intros k. change 7%Z with (Z.ones 3). rewrite Z.land_ones by lia. change (2 ^ 3)%Z with 8%Z.
    pose proof (Z.mod_pos_bound (k + dir_num (np b)) 8 ltac:(lia)) as B.
    set (v := ((k + dir_num (np b)) mod 8)%Z) in *. clearbody v.
    assert (v = 0 \/ v = 1 \/ v = 2 \/ v = 3 \/ v = 4 \/ v = 5 \/ v = 6 \/ v = 7)%Z as D by lia.
    destruct D as [E|[E|[E|[E|[E|[E|[E|E]]]]]]]; subst v; eexists; reflexivity. }
  destruct a as [xa ya pa], b as [xb yb pb]. cbn [nx ny np] in *.
  destruct pa; cbn [to_right ahead fst snd] in *; rewrite ?chk_i8_ok by lia; cbn [bind];
    try (destruct (F 6%Z) as [q6 E6]; rewrite E6); try (destruct (F 4%Z) as [q4 E4]; rewrite E4);
    try (destruct (F 2%Z) as [q2 E2]; rewrite E2); cbn [bind]; intros [= <- <- <-];
    (split; [lia|]; split; [lia|]); unfold rel_dir; rewrite ?E6, ?E4, ?E2; try reflexivity;
    destruct pb; reflexivity.
Qed.

Lemma pose_eq_near (p q : @pose Rops) eps : 0 <= eps -> (p_x p = p_x q :> R) -> (p_y p = p_y q :> R) ->
  (exists k, p_theta p = p_theta q + 2 * PI * IZR k) -> near eps p q.
Proof.
  intros He Ex Ey H. split; [|split; [|exact H]]; rewrite ?Ex, ?Ey;
    (replace (_ - _) with 0 by (rops; lra)); rewrite Rabs_R0; exact He.
Qed.

Ltac turns_by := first
  [ exists 0%Z; change (@num Rops) with R; field
  | exists 1%Z; change (@num Rops) with R; field
  | exists (-1)%Z; change (@num Rops) with R; field ].

Ltac fin X w := first
  [ turns_by
  | pose proof (X w); try (match goal with |- context [IZR ?k * w * h] => pose proof (X (IZR k * w)) end);
    change (@num Rops) with R; lra ].

Lemma ideal_ok (a b : node) dx dy p t (w : R) :
  nx b = (nx a + dx * fst (to_right (np a)) + dy * fst (ahead (np a)))%Z ->
  ny b = (ny a + dx * snd (to_right (np a)) + dy * snd (ahead (np a)))%Z ->
  p = rel_dir (np a) (np b) ->
  kind_case (if is_diag (np a) then GLeft else GCell) dx dy p t ->
  near 0 (compose (@pose_of_node Rops a w) (ideal w t)) (@pose_of_node Rops b w).
Proof.
  intros Hx Hy Hp Hk. rewrite !node_pose. unfold compose. cbn [p_x p_y p_theta].
  destruct (cs8 (np a)) as [C S]. rewrite C, S. clear C S.
  rewrite Hx, Hy. clear Hx Hy. destruct a as [xa ya pa], b as [xb yb pb]. cbn [nx ny np] in *.
  pose proof h_sq as HH. clear xb yb.
  assert (X : forall z, z * h * h = z / 2) by (intros z; rewrite Rmult_assoc, HH; lra).
  assert (X' : forall z u, z * h * (u * h) = z * u / 2) by (intros z u; transitivity (z * u * (h * h)); [ring | rewrite HH; lra]).
  apply pose_eq_near; [lra | | |]; cbn [p_x p_y p_theta].
  all: destruct Hk as [[Hg K] | [Hg K]];
    [ destruct K as [(-> & E & k & -> & ->) | (s & Hs & K)];
      [ | destruct Hs as [-> | ->]; cbv zeta in K; cbn in K;
          destruct K as [(-> & -> & E & ->) | [(-> & -> & E & ->) | [(-> & -> & E & ->) | (-> & -> & E & ->)]]] ]
    | destruct K as [(E & -> & ->) | [(-> & -> & E & ->) | [(-> & -> & E & ->) | [(-> & -> & E & ->)
        | [(-> & -> & E & ->) | [(-> & -> & E & ->) | (-> & -> & E & ->)]]]]]] ];
    destruct pa; cbn [is_diag] in Hg; try discriminate Hg; try (destruct Hg as [Hg|Hg]; discriminate Hg);
    rewrite E in Hp; clear E; destruct pb; try discriminate Hp; clear Hp;
    cbn [ideal p_x p_y p_theta C8 S8 ang to_right ahead fst snd]; rewrite ?plus_IZR, ?mult_IZR, ?opp_IZR.
  all: change (1 =? 1)%Z with true; change (-1 =? 1)%Z with false; cbv iota.
  all: match goal with w : R |- _ => fin X w end.
Qed.

Lemma near_compose (p q r : @pose Rops) eps : near eps q r ->
  near (2 * eps) (compose p q) (compose p r).
Proof.
  intros (X & Y & k & T). unfold near, compose. cbn [p_x p_y p_theta].
  assert (G : forall a b c s, Rabs a <= eps -> Rabs b <= eps -> Rabs c <= 1 -> Rabs s <= 1 ->
    Rabs (a * c + b * s) <= 2 * eps).
  { intros a b c s A B C S. eapply Rle_trans; [apply Rabs_triang|]. rewrite !Rabs_mult.
    pose proof (Rabs_pos a). pose proof (Rabs_pos b). pose proof (Rabs_pos c). pose proof (Rabs_pos s). nra. }
  assert (C : Rabs (cos (p_theta p)) <= 1) by (apply Rabs_le; pose proof (COS_bound (p_theta p)); lra).
  assert (S : Rabs (sin (p_theta p)) <= 1) by (apply Rabs_le; pose proof (SIN_bound (p_theta p)); lra).
  split; [|split].
  - match goal with |- Rabs ?u <= _ => replace u with
      ((p_x q - p_x r) * cos (p_theta p) + (p_y q - p_y r) * - sin (p_theta p)) by (rops; ring) end.
    apply G; rewrite ?Rabs_Ropp; assumption.
  - match goal with |- Rabs ?u <= _ => replace u with
      ((p_x q - p_x r) * sin (p_theta p) + (p_y q - p_y r) * cos (p_theta p)) by (rops; ring) end.
    apply G; assumption.
  - exists k. rewrite T. rops. ring.
Qed.

Lemma near_trans eps eps' (p q r : @pose Rops) : near eps p q -> near eps' q r -> near (eps + eps') p r.
Proof.
  intros (X & Y & k & T) (X' & Y' & k' & T'). split; [|split].
  - replace (p_x p - p_x r) with ((p_x p - p_x q) + (p_x q - p_x r)) by (rops; ring).
    eapply Rle_trans; [apply Rabs_triang|]. apply Rplus_le_compat; assumption.
  - replace (p_y p - p_y r) with ((p_y p - p_y q) + (p_y q - p_y r)) by (rops; ring).
    eapply Rle_trans; [apply Rabs_triang|]. apply Rplus_le_compat; assumption.
  - exists (k + k')%Z. rewrite T, T', plus_IZR. rops. ring.
Qed.

Lemma near_weaken eps eps' (p q : @pose Rops) : eps <= eps' -> near eps p q -> near eps' p q.
Proof. intros L (X & Y & T). split; [lra|]. split; [lra | exact T]. Qed.

Lemma run_moves_end W a b t (w off : R) : supported W -> valid_node W a -> valid_node W b -> 0 <= w ->
  trajectory_kind a b = Ret (Some t) ->
  near (1 / 1000000 * w) (compose (@pose_of_node Rops a w) (run_end w off t)) (@pose_of_node Rops b w).
Proof.
  intros HW Ha Hb Hw H. destruct (kind_inv a b t H) as (dx & dy & p & R & K).
  destruct (rel_inv W a b dx dy p HW Ha Hb R) as (Hx & Hy & Hp).
  rewrite (group_ok W HW a Ha) in K.
  assert (K' : kind_case (if is_diag (np a) then GLeft else GCell) dx dy p t).
  { destruct (is_diag (np a)); [|exact K]. destruct K as [[G _] | [_ K]].
    - destruct (bends_left a); discriminate G.
    - right. auto. }
  apply near_weaken with (2 * (3 / 10000000 * w) + 0); [lra|].
  eapply near_trans; [apply near_compose, table_end, Hw|].
  exact (ideal_ok a b dx dy p t w Hx Hy Hp K').
Qed.

(** ** Search moves *)

Definition post8 (p : posture) : dir8 := match p with North => PN | East => PE | South => PS | West => PW end.

Lemma search_pose (s : search_state) (w off : R) :
  let p := post8 (ss_posture s) in
  @pose_of_search Rops s w off =
  @Pose Rops ((IZR (cx (ss_coord s)) + 1) * w / 2 + off * C8 p)%R
    ((IZR (cy (ss_coord s)) + 1) * w / 2 + off * S8 p)%R (IZR (ang p) * (PI / 4))%R.
Proof.
  unfold pose_of_search. destruct s as [[x y] p]. cbn [ss_coord ss_posture cx cy].
  destruct p; cbn [post8 C8 S8 ang]; rops; cbv zeta; f_equal; try field; unfold degree; rops; field.
Qed.

Definition search_ideal (w off : R) (k : traj_kind) : @pose Rops :=
  match k with
  | Front => @Pose Rops w 0%R 0%R
  | Right => @Pose Rops (w / 2 - off)%R (- (w / 2 + off))%R (- (PI / 2))%R
  | Left => @Pose Rops (w / 2 - off)%R (w / 2 + off)%R (PI / 2)%R
  | Back => @Pose Rops (- (2 * off))%R 0%R PI
  end.

Lemma search_table (w off : R) k : 0 <= w ->
  near (match k with Front | Back => 0 | _ => 1 / 10000000 * w + Rabs (off * (w / (9 / 100) - 1)) end)
    (search_end w off k) (search_ideal w off k).
Proof.
  intros Hw. set (e := off * (w / (9 / 100) - 1)).
  assert (E : off / (9 / 100) * w = off + e) by (unfold e; field).
  assert (B : forall a (s : R), 0 <= a <= 1 / 10000000 -> (s = 1 \/ s = -1) ->
    Rabs (s * (a * w + e)) <= 1 / 10000000 * w + Rabs e /\ Rabs (s * (a * w - e)) <= 1 / 10000000 * w + Rabs e).
  { intros a s Ha Hs. rewrite !Rabs_mult. replace (Rabs s) with 1
      by (destruct Hs as [-> | ->]; [rewrite Rabs_R1 | rewrite Rabs_left by lra]; lra).
    rewrite !Rmult_1_l.
    assert (A : Rabs (a * w) <= 1 / 10000000 * w).
    { rewrite Rabs_pos_eq by (apply Rmult_le_pos; lra). apply Rmult_le_compat_r; lra. }
    split; [eapply Rle_trans; [apply Rabs_triang|]; lra|].
    unfold Rminus at 1. eapply Rle_trans; [apply Rabs_triang|]. rewrite Rabs_Ropp. lra. }
  assert (B0 : forall x s a, x = s * (a * w - e) \/ x = s * (a * w + e) -> 0 <= a <= 1 / 10000000 -> s = 1 \/ s = -1 ->
     Rabs x <= 1 / 10000000 * w + Rabs e).
  { intros x s a [-> | ->] Ha Hs; apply (B a s Ha Hs). }
  destruct k; cbn [search_end search_ideal].
  - apply pose_eq_near; [lra | reflexivity | reflexivity | exists 0%Z; rops; lra].
  - unfold parameters, search90_params.
    destruct (_ <=? _)%num;
      rewrite (create_end _ _ _ _ _ _ _ PN) by reflexivity; cbv zeta; cbn [C8 S8 ang]; rops;
      (split; [|split; [|exists 0%Z; change (@num Rops) with R; cbn [p_theta]; field]]); cbn [p_x p_y].
    + apply (B0 _ 1 0); [left | lra | lra]. lra.
    + apply (B0 _ (-1) (6 / 1000000000)); [right | lra | lra]. lra.
    + apply (B0 _ 1 0); [left | lra | lra]. lra.
    + apply (B0 _ (-1) 0); [right | lra | lra]. lra.
  - unfold parameters, search90_params.
    destruct (_ <=? _)%num;
      rewrite (create_end _ _ _ _ _ _ _ PN) by reflexivity; cbv zeta; cbn [C8 S8 ang]; rops;
      (split; [|split; [|exists 0%Z; change (@num Rops) with R; cbn [p_theta]; field]]); cbn [p_x p_y].
    + apply (B0 _ 1 0); [left | lra | lra]. lra.
    + apply (B0 _ 1 (6 / 1000000000)); [right | lra | lra]. lra.
    + apply (B0 _ 1 0); [left | lra | lra]. lra.
    + apply (B0 _ 1 0); [right | lra | lra]. lra.
  - unfold compose. cbn [p_x p_y p_theta]. rewrite cos_0, sin_0, cos_PI, sin_PI.
    apply pose_eq_near; cbn [p_x p_y p_theta]; [lra | rops; lra | rops; lra | exists 0%Z; rops; lra].
Qed.

Lemma search_exact (c : coord) (p : posture) n k c' p' (w off : R) :
  moves c p n k c' p' ->
  near 0 (compose (@pose_of_search Rops (SS c p) w off) (search_ideal w off k))
    (@pose_of_search Rops (SS c' p') w off).
Proof.
  intros M. rewrite !search_pose. cbn [ss_coord ss_posture]. unfold compose. cbn [p_x p_y p_theta].
  destruct (cs8 (post8 p)) as [C S]. rewrite C, S. clear C S. destruct c as [x y].
  destruct M as [-> | -> | -> | q _ _]; destruct p;
    cbn [post8 C8 S8 ang turn_right turn_left reverse search_ideal pvec plus cx cy fst snd p_x p_y p_theta];
    rewrite ?plus_IZR;
    (apply pose_eq_near; [lra | | |]); cbn [p_x p_y p_theta]; try (rops; lra); turns_by.
Qed.

Lemma search_moves_end (s : search_state) n k c' p' (w off : R) : 0 <= w ->
  moves (ss_coord s) (ss_posture s) n k c' p' ->
  near (match k with Front | Back => 0 | _ => 1 / 1000000 * w + 2 * Rabs (off * (w / (9 / 100) - 1)) end)
    (compose (@pose_of_search Rops s w off) (search_end w off k)) (@pose_of_search Rops (SS c' p') w off).
Proof.
  intros Hw M. destruct s as [c p]. cbn [ss_coord ss_posture] in M.
  assert (A := search_table w off k Hw). assert (X := search_exact c p n k c' p' w off M).
  assert (N := near_trans _ _ _ _ _ (near_compose (@pose_of_search Rops (SS c p) w off) _ _ _ A) X).
  eapply near_weaken; [|exact N]. destruct k; lra.
Qed.
