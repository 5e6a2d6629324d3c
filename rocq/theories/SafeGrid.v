(** Checking the clearance of a curve on a grid of its points. *)
From Coq Require Import ZArith QArith Qreals Reals Lra Lia List Bool Psatz.
From Verif Require Import Base SearchModel SearchSpec RunModel RunSpec Num ControlModel TrajModel TrajSpec TrajProofs TrajQuad TrajCurve TrajCurve2 TrajCurve3 TrajCurve4
  SafeSpec SafeProofs SafeProofs2.
Import ListNotations.
Open Scope R_scope.

(** ** Distances *)
Lemma gap2_pos x y x' y' : 0 <= gap2 x y x' y'.
Proof. unfold gap2. assert (A := sq_pos (x - x')). assert (B := sq_pos (y - y')). lra. Qed.

Lemma sq_root (x e : R) : 0 <= e -> x <= sq e -> 0 <= x -> sqrt x <= e.
Proof.
  intros He H Hx. rewrite <- (sqrt_Rsqr e He). apply sqrt_le_1_alt. exact H.
Qed.

Lemma gap2_trans x y x1 y1 x2 y2 a b : 0 <= a -> 0 <= b -> gap2 x y x1 y1 <= sq a -> gap2 x1 y1 x2 y2 <= sq b ->
  gap2 x y x2 y2 <= sq (a + b).
Proof.
  intros Ha Hb HA HB. assert (T := triangle x y x2 y2 x1 y1). unfold dist_euc, Rsqr in T.
  fold (sq (x - x2)) (sq (y - y2)) (sq (x - x1)) (sq (y - y1)) (sq (x1 - x2)) (sq (y1 - y2)) in T.
  fold (gap2 x y x2 y2) (gap2 x y x1 y1) (gap2 x1 y1 x2 y2) in T.
  assert (A := sq_root _ _ Ha HA (gap2_pos _ _ _ _)). assert (B := sq_root _ _ Hb HB (gap2_pos _ _ _ _)).
  assert (C := sqrt_pos (gap2 x y x2 y2)). rewrite <- (sqrt_sqrt (gap2 x y x2 y2) (gap2_pos _ _ _ _)). unfold sq. apply Rmult_le_compat; lra.
Qed.

Lemma gap2_box x y x' y' e : Rabs (x - x') <= e -> Rabs (y - y') <= e -> gap2 x y x' y' <= sq (14143 / 10000 * e).
Proof.
  intros HX HY. unfold gap2.
  assert (B : forall z, Rabs z <= e -> sq z <= sq e).
  { intros z Hz. assert (P := Rabs_pos z). unfold sq. rewrite <- (Rabs_pos_eq (z * z)) by nra. rewrite Rabs_mult. apply Rmult_le_compat; lra. }
  assert (A1 := B _ HX). assert (A2 := B _ HY). assert (E := sq_pos e). replace (sq (14143 / 10000 * e)) with (14143 / 10000 * (14143 / 10000) * sq e) by (unfold sq; ring). lra.
Qed.

Lemma drives_lip v th T x0 y0 X Y s t : drives v th T x0 y0 X Y -> 0 <= v -> 0 <= s <= T -> 0 <= t <= T ->
  gap2 (X s) (Y s) (X t) (Y t) <= sq (v * (t - s)).
Proof.
  intros (_ & _ & D) Hv. 
  assert (K : forall s t, 0 <= s -> s < t -> t <= T -> gap2 (X s) (Y s) (X t) (Y t) <= sq (v * (t - s))).
  { clear s t. intros s t Hs L Ht. set (A := X t - X s). set (B := Y t - Y s).
    destruct (MVT_cor2 (fun u => A * X u + B * Y u) (fun u => A * (v * cos (th u)) + B * (v * sin (th u))) s t L) as (c & E & Hc).
    { intros u Hu. destruct (D u ltac:(lra)) as [D1 D2]. apply derivable_pt_lim_plus; apply derivable_pt_lim_scal; assumption. }
    set (z := A * cos (th c) + B * sin (th c)).
    assert (Z : z * z <= A * A + B * B).
    { assert (Q := sin2_cos2 (th c)). unfold Rsqr in Q. unfold z. set (sn := sin (th c)) in *. set (cs := cos (th c)) in *.
      assert (P := sq_pos (A * sn - B * cs)). unfold sq in P.
      replace (A * A + B * B) with ((A * A + B * B) * (sn * sn + cs * cs)) by (rewrite Q; ring). lra. }
    assert (E' : A * A + B * B = v * (t - s) * z).
    { unfold z. transitivity (A * X t + B * Y t - (A * X s + B * Y s)); [unfold A, B; ring|]. rewrite E. ring. }
    assert (G : gap2 (X s) (Y s) (X t) (Y t) = A * A + B * B) by (unfold gap2, sq, A, B; ring). rewrite G. unfold sq.
    set (N := A * A + B * B) in *. set (k := v * (t - s)) in *.
    assert (N0 : 0 <= N) by (unfold N; nra). assert (Q : 0 <= k) by (unfold k; apply Rmult_le_pos; lra).
    destruct (Rle_lt_dec N (k * k)) as [O|O]; [exact O|]. exfalso.
    assert (NN : N * N <= k * k * N).
    { replace (N * N) with (k * z * (k * z)) by (rewrite <- E'; reflexivity). replace (k * z * (k * z)) with (k * k * (z * z)) by ring.
      apply Rmult_le_compat_l; [nra | exact Z]. }
    assert (N * N > k * k * N); [|lra]. apply Rmult_lt_compat_r; [nra | exact O]. }
  intros Hs Ht. destruct (Rtotal_order s t) as [L|[->|L]].
  - apply K; lra.
  - unfold gap2, sq. right. ring.
  - replace (sq (v * (t - s))) with (sq (v * (s - t))) by (unfold sq; ring).
    replace (gap2 (X s) (Y s) (X t) (Y t)) with (gap2 (X t) (Y t) (X s) (Y s)) by (unfold gap2, sq; ring). apply K; lra.
Qed.

Lemma grid_pick h N u : 0 < h -> 0 <= u <= INR N * h -> exists n, (n <= N)%nat /\ Rabs (u - INR n * h) <= h / 2.
Proof.
  intros Hh. induction N as [|N IH]; intros Hu.
  - exists 0%nat. split; [lia|]. cbn [INR] in *. rewrite Rmult_0_l in *. replace (u - 0) with 0 by lra. rewrite Rabs_R0. lra.
  - rewrite S_INR in Hu. destruct (Rle_lt_dec u (INR N * h)) as [L|L].
    + destruct (IH ltac:(lra)) as (n & Hn & B). exists n. split; [lia | exact B].
    + destruct (Rle_lt_dec (u - INR N * h) (h / 2)) as [M|M].
      * exists N. split; [lia|]. rewrite Rabs_pos_eq; lra.
      * exists (S N). split; [lia|]. rewrite S_INR. rewrite Rabs_left1; lra.
Qed.

(** ** The local conditions, checked in millionths of half squares *)
Definition goodF (F : Z -> Z -> Prop) (mu : R) (cr ca : Z) (r a : R) : Prop :=
  -1 <= r - IZR cr <= 1 /\ -1 <= a - IZR ca <= 1 /\
  (forall i j, (i = 1 \/ i = -1) -> (j = 1 \/ j = -1) -> sq mu <= gap2 r a (IZR cr + i) (IZR ca + j)) /\
  (F (cr + 1)%Z ca \/ mu <= IZR cr + 1 - r) /\ (F (cr - 1)%Z ca \/ mu <= r - (IZR cr - 1)) /\
  (F cr (ca + 1)%Z \/ mu <= IZR ca + 1 - a) /\ (F cr (ca - 1)%Z \/ mu <= a - (IZR ca - 1)).

Definition nearF (C F : Z -> Z -> Prop) (mu e r a : R) : Prop :=
  exists cr ca r' a', C cr ca /\ goodF F mu cr ca r' a' /\ gap2 r a r' a' <= sq e.

Lemma nearF_mono (C C' F F' : Z -> Z -> Prop) mu e r a : (forall x y, C x y -> C' x y) -> (forall x y, F x y -> F' x y) ->
  nearF C F mu e r a -> nearF C' F' mu e r a.
Proof.
  intros HC HF (cr & ca & r' & a' & Cc & (G1 & G2 & G3 & G4 & G5 & G6 & G7) & E). exists cr, ca, r', a'.
  split; [apply HC, Cc|]. split; [|exact E]. unfold goodF.
  repeat (split; [first [assumption | match goal with H : F ?x ?y \/ _ |- F' ?x ?y \/ _ => destruct H; [left; apply HF; assumption | right; assumption] end]|]).
  destruct G7; [left; apply HF; assumption | right; assumption].
Qed.

Lemma nearF_flip (C C' F F' : Z -> Z -> Prop) mu e r a : (forall x y, C x y -> C' (- x) y)%Z -> (forall x y, F x y -> F' (- x) y)%Z ->
  nearF C F mu e r a -> nearF C' F' mu e (- r) a.
Proof.
  intros HC HF (cr & ca & r' & a' & Cc & (G1 & G2 & G3 & G4 & G5 & G6 & G7) & E). exists (- cr)%Z, ca, (- r'), a'.
  split; [apply HC, Cc|]. split.
  - unfold goodF. rewrite opp_IZR. split; [lra|]. split; [lra|]. split.
    { intros i j Hi Hj. specialize (G3 (- i) j ltac:(lra) Hj). unfold gap2, sq in *. lra. }
    split; [destruct G5 as [G|G]; [left; replace (- cr + 1)%Z with (- (cr - 1))%Z by ring; apply HF, G | right; lra]|].
    split; [destruct G4 as [G|G]; [left; replace (- cr - 1)%Z with (- (cr + 1))%Z by ring; apply HF, G | right; lra]|].
    split; [destruct G6 as [G|G]; [left; apply HF, G | right; lra] | destruct G7 as [G|G]; [left; apply HF, G | right; lra]].
  - unfold gap2, sq in *. lra.
Qed.

Lemma nearF_swap (C C' F F' : Z -> Z -> Prop) mu e r a : (forall x y, C x y -> C' y x)%Z -> (forall x y, F x y -> F' y x)%Z ->
  nearF C F mu e r a -> nearF C' F' mu e a r.
Proof.
  intros HC HF (cr & ca & r' & a' & Cc & (G1 & G2 & G3 & G4 & G5 & G6 & G7) & E). exists ca, cr, a', r'.
  split; [apply HC, Cc|]. split.
  - unfold goodF. split; [lra|]. split; [lra|]. split.
    { intros i j Hi Hj. specialize (G3 j i Hj Hi). unfold gap2 in *. lra. }
    split; [destruct G6 as [G|G]; [left; apply HF, G | right; lra]|]. split; [destruct G7 as [G|G]; [left; apply HF, G | right; lra]|].
    split; [destruct G4 as [G|G]; [left; apply HF, G | right; lra] | destruct G5 as [G|G]; [left; apply HF, G | right; lra]].
  - unfold gap2 in *. lra.
Qed.

Lemma nearF_move C F mu e r a r1 a1 d : 0 <= e -> 0 <= d -> gap2 r a r1 a1 <= sq d -> nearF C F mu e r1 a1 -> nearF C F mu (d + e) r a.
Proof.
  intros He Hd D (cr & ca & r' & a' & Cc & G & E). exists cr, ca, r', a'. split; [exact Cc|]. split; [exact G|].
  exact (gap2_trans _ _ _ _ _ _ _ _ Hd He D E).
Qed.

Definition unit_ : Z := 1000000.
Definition mem (l : list (Z * Z)) (x y : Z) : bool := existsb (fun c => Z.eqb (fst c) x && Z.eqb (snd c) y) l.
Definition goodb (fl : list (Z * Z)) (mu cr ca r a : Z) : bool :=
  let x := (r - cr * unit_)%Z in let y := (a - ca * unit_)%Z in
  let far s t := Z.leb (mu * mu) ((x - s * unit_) * (x - s * unit_) + (y - t * unit_) * (y - t * unit_)) in
  (Z.leb (- unit_) x && Z.leb x unit_ && Z.leb (- unit_) y && Z.leb y unit_
   && far 1 1 && far 1 (-1) && far (-1) 1 && far (-1) (-1)
   && (mem fl (cr + 1) ca || Z.leb mu (unit_ - x)) && (mem fl (cr - 1) ca || Z.leb mu (unit_ + x))
   && (mem fl cr (ca + 1) || Z.leb mu (unit_ - y)) && (mem fl cr (ca - 1) || Z.leb mu (unit_ + y)))%Z%bool.
Definition pointb (fl cells : list (Z * Z)) (mu r a : Z) : bool := existsb (fun c => goodb fl mu (fst c) (snd c) r a) cells.
Definition mil (z : Z) : R := IZR z / 1000000.
Definition isin (l : list (Z * Z)) (x y : Z) : Prop := In (x, y) l.

Lemma mem_ok l x y : mem l x y = true -> isin l x y.
Proof.
  unfold mem, isin. intros H. apply existsb_exists in H as ([u v] & I & E). apply andb_prop in E as [E1 E2].
  cbn [fst snd] in *. apply Z.eqb_eq in E1, E2. subst. exact I.
Qed.

Lemma mil_le a b : (a <= b)%Z -> mil a <= mil b.
Proof. intros H. apply IZR_le in H. unfold mil. lra. Qed.

Lemma goodb_ok fl mu cr ca r a : goodb fl mu cr ca r a = true -> goodF (isin fl) (mil mu) cr ca (mil r) (mil a).
Proof.
  unfold goodb. intros H. rewrite !andb_true_iff, !orb_true_iff, !Z.leb_le in H.
  destruct H as (((((((((((H1 & H2) & H3) & H4) & C1) & C2) & C3) & C4) & W1) & W2) & W3) & W4).
  unfold goodF.
  assert (K : forall s t, (mu * mu <= (r - cr * unit_ - s * unit_) * (r - cr * unit_ - s * unit_) + (a - ca * unit_ - t * unit_) * (a - ca * unit_ - t * unit_))%Z ->
    sq (mil mu) <= gap2 (mil r) (mil a) (IZR cr + IZR s) (IZR ca + IZR t)).
  { intros s t Q. apply IZR_le in Q. unfold gap2, sq, mil, unit_ in *. rewrite ?plus_IZR, ?mult_IZR, ?minus_IZR, ?mult_IZR in Q. lra. }
  apply K in C1, C2, C3, C4. clear K.
  apply mil_le in H1, H2, H3, H4. unfold mil, unit_ in *. rewrite ?opp_IZR, ?plus_IZR, ?minus_IZR, ?mult_IZR in *.
  split; [lra|]. split; [lra|]. split.
  { intros i j [-> | ->] [-> | ->]; assumption. }
  assert (M : forall b c x y, mem fl x y = true \/ (b <= c)%Z -> isin fl x y \/ IZR b / 1000000 <= IZR c / 1000000).
  { intros b c x y [Q|Q]; [left; apply mem_ok, Q | right; apply IZR_le in Q; lra]. }
  apply M in W1, W2, W3, W4. rewrite ?opp_IZR, ?plus_IZR, ?minus_IZR, ?mult_IZR in *.
  split; [destruct W1; [left; assumption | right; lra]|]. split; [destruct W2; [left; assumption | right; lra]|].
  split; [destruct W3; [left; assumption | right; lra] | destruct W4; [left; assumption | right; lra]].
Qed.

Lemma pointb_ok fl cells mu r a : pointb fl cells mu r a = true -> nearF (isin cells) (isin fl) (mil mu) 0 (mil r) (mil a).
Proof.
  unfold pointb. intros H. apply existsb_exists in H as ([cr ca] & I & G). cbn [fst snd] in G.
  exists cr, ca, (mil r), (mil a). split; [exact I|]. split; [apply goodb_ok, G|]. unfold gap2, sq. right. ring.
Qed.

(** ** Segments *)
Fixpoint segb (fl cells : list (Z * Z)) (mu r a dr da st : Z) (n : nat) : bool :=
  (pointb fl cells mu (r + Z.of_nat n * st * dr) (a + Z.of_nat n * st * da)
   && match n with O => true | S n => segb fl cells mu r a dr da st n end)%bool%Z.

Lemma segb_at fl cells mu r a dr da st N : segb fl cells mu r a dr da st N = true -> forall n, (n <= N)%nat ->
  pointb fl cells mu (r + Z.of_nat n * st * dr) (a + Z.of_nat n * st * da)%Z = true.
Proof.
  induction N as [|N IH]; cbn [segb]; intros H n Hn; apply andb_prop in H as [H1 H2].
  - replace n with 0%nat by lia. exact H1.
  - destruct (Nat.eq_dec n (S N)) as [-> |]; [exact H1 | apply IH; [exact H2 | lia]].
Qed.

Lemma segb_ok fl cells mu r a dr da st N x : segb fl cells mu r a dr da st N = true -> (0 < st)%Z -> (-1 <= dr <= 1)%Z -> (-1 <= da <= 1)%Z ->
  0 <= x <= INR N * mil st ->
  nearF (isin cells) (isin fl) (mil mu) (mil st) (mil r + x * IZR dr) (mil a + x * IZR da).
Proof.
  intros H Hst Hdr Hda Hx. apply IZR_lt in Hst. assert (S0 : 0 < mil st) by (unfold mil; lra).
  destruct (grid_pick (mil st) N x S0 Hx) as (n & Hn & B).
  assert (P := pointb_ok _ _ _ _ _ (segb_at _ _ _ _ _ _ _ _ _ H n Hn)).
  replace (mil st) with (mil st + 0) by ring. eapply nearF_move; [lra | lra | | exact P].
  assert (E : forall b d, mil (b + Z.of_nat n * st * d) = mil b + INR n * mil st * IZR d).
  { intros b d. unfold mil. rewrite plus_IZR, !mult_IZR, <- INR_IZR_INZ. field. }
  rewrite !E. set (y := INR n * mil st) in *.
  assert (D : forall b d, (-1 <= d <= 1)%Z -> Rabs (mil b + x * IZR d - (mil b + y * IZR d)) <= mil st / 2).
  { intros b d Hd. replace (mil b + x * IZR d - (mil b + y * IZR d)) with ((x - y) * IZR d) by ring.
    rewrite Rabs_mult. assert (Rabs (IZR d) <= 1) by (apply Rabs_le; split; [apply (IZR_le (-1)) | apply IZR_le]; lia).
    assert (P1 := Rabs_pos (IZR d)). assert (P2 := Rabs_pos (x - y)). nra. }
  eapply Rle_trans; [apply gap2_box; apply D; assumption|].
  apply sq_le_p. lra.
Qed.

(** ** Curves *)
Fixpoint scan (P : Z -> Z -> bool) (r d m c h : Q) (n : nat) : Z * Z * bool :=
  match n with
  | O => (0%Z, 0%Z, P 0%Z 0%Z)
  | S n =>
    let '(x, y, b) := scan P r d m c h n in
    let a1 := ang r d m c h c1Z n in
    let a2 := ang r d m c h c2Z n in
    let x := (x + (cosZ a1 + cosZ a2))%Z in
    let y := (y + (sinZ a1 + sinZ a2))%Z in
    (x, y, b && P x y)
  end.

Lemma scan_ok P r d m c h N : snd (scan P r d m c h N) = true ->
  (fst (scan P r d m c h N) = fst (sums r d m c h N)) /\
  forall n, (n <= N)%nat -> let '(x, y, _) := sums r d m c h n in P x y = true.
Proof.
  induction N as [|N IH]; intros H.
  - split; [reflexivity|]. intros n Hn. replace n with 0%nat by lia. exact H.
  - cbn [scan sums] in *. destruct (scan P r d m c h N) as [[x y] b]. destruct (sums r d m c h N) as [[x' y'] b'] eqn:ES.
    cbn [fst snd] in *. apply andb_prop in H as [H1 H2]. destruct (IH H1) as [E AT]. injection E as -> ->. split; [reflexivity|].
    intros n Hn. destruct (Nat.eq_dec n (S N)) as [-> |]; [|apply AT; lia]. cbn [sums]. rewrite ES. exact H2.
Qed.

(** the square root of 2, from below *)
Definition rt2 : Q := 1414213562 # 1000000000.
Lemma rt2_ok : 0 <= sqrt 2 - Q2R rt2 <= 1 / 1000000000.
Proof.
  unfold rt2. rewrite q2r. set (s := sqrt 2). assert (S : s * s = 2) by (apply sqrt_sqrt; lra).
  assert (P : 0 <= s) by apply sqrt_pos. split; nra.
Qed.

(** a point [f] ahead and [l] to the right of a node, in the frame of a node in a cell or on a wall *)
Definition latR (dg : bool) (f l : R) : R := if dg then sqrt 2 * (f + l) else 2 * l.
Definition latA (dg : bool) (f l : R) : R := if dg then sqrt 2 * (f - l) else 2 * f.
Lemma lat_gap dg f l f' l' : gap2 (latR dg f l) (latA dg f l) (latR dg f' l') (latA dg f' l') = 4 * gap2 f l f' l'.
Proof.
  unfold latR, latA, gap2, sq. destruct dg; [|ring]. assert (S : sqrt 2 * sqrt 2 = 2) by (apply sqrt_sqrt; lra).
  set (s := sqrt 2) in *.
  transitivity (s * s * (((f + l) - (f' + l')) * ((f + l) - (f' + l')) + ((f - l) - (f' - l')) * ((f - l) - (f' - l')))); [ring|].
  rewrite S. ring.
Qed.


(** multiplying by a constant and rounding *)
Definition cut (z : Z) : Z := Z.shiftr z 232.
Definition stepZ (K z : Z) : Z := Z.shiftr (K * cut z) 40.
Definition smallb (z : Z) : bool := Z.leb (Z.abs (cut z)) 1099511627776.

Lemma shiftr_R z n : (0 <= n)%Z -> 0 <= IZR z - IZR (2 ^ n) * IZR (Z.shiftr z n) < IZR (2 ^ n).
Proof.
  intros Hn. rewrite Z.shiftr_div_pow2 by exact Hn. assert (P : (0 < 2 ^ n)%Z) by (apply Z.pow_pos_nonneg; lia).
  assert (E := Z.div_mod z (2 ^ n) ltac:(lia)). assert (B := Z.mod_pos_bound z (2 ^ n) P).
  replace (IZR z - IZR (2 ^ n) * IZR (z / 2 ^ n)) with (IZR (z mod 2 ^ n)).
  - split; [apply (IZR_le 0) | apply IZR_lt]; lia.
  - rewrite <- mult_IZR, <- minus_IZR. f_equal. lia.
Qed.

Lemma stepZ_close (k : R) K z : 0 <= k - IZR K <= 2 -> (0 <= K <= 1000000000000)%Z -> smallb z = true ->
  Rabs (k * (IZR z / IZR (2 ^ 272)) - IZR (stepZ K z)) <= 4.
Proof.
  intros Hk HK S. unfold smallb in S. apply Z.leb_le in S.
  destruct (shiftr_R z 232 ltac:(lia)) as [A1 A2]. fold (cut z) in A1, A2.
  destruct (shiftr_R (K * cut z) 40 ltac:(lia)) as [B1 B2]. fold (stepZ K z) in B1, B2. rewrite mult_IZR in B1, B2.
  assert (C : (-1099511627776 <= cut z <= 1099511627776)%Z) by lia. destruct C as [C1 C2]. apply IZR_le in C1, C2.
  destruct HK as [K1 K2]. apply IZR_le in K1, K2.
  change (2 ^ 272)%Z with (2 ^ 232 * 2 ^ 40)%Z. rewrite mult_IZR.
  set (M := IZR (2 ^ 232)) in *. assert (M0 : 0 < M) by (unfold M; apply IZR_lt; reflexivity).
  change (IZR (2 ^ 40)) with 1099511627776 in *.
  set (q := IZR z / M). assert (Q1 : 0 <= q - IZR (cut z) <= 1).
  { assert (E : IZR z = M * q) by (unfold q; field; lra). rewrite E in A1, A2. split.
    - apply Rmult_le_reg_l with M; [exact M0 | lra].
    - apply Rmult_le_reg_l with M; [exact M0 | lra]. }
  replace (k * (IZR z / (M * 1099511627776))) with (k * q / 1099511627776) by (unfold q; field; lra).
  clearbody q. clear A1 A2. set (c := IZR (cut z)) in *. set (kz := IZR K) in *. set (o := IZR (stepZ K z)) in *. clearbody M c kz o.
  assert (E1 : k * q = kz * c + (k - kz) * c + k * (q - c)) by ring.
  assert (E2 : - 2 * 1099511627776 <= (k - kz) * c <= 2 * 1099511627776) by (split; nra).
  assert (E3 : 0 <= k * (q - c) <= 1000000000002) by (split; nra).
  apply Rabs_le. split.
  - apply Rmult_le_reg_r with 1099511627776; [lra|]. replace ((k * q / 1099511627776 - o) * 1099511627776) with (k * q - 1099511627776 * o) by field. lra.
  - apply Rmult_le_reg_r with 1099511627776; [lra|]. replace ((k * q / 1099511627776 - o) * 1099511627776) with (k * q - 1099511627776 * o) by field. lra.
Qed.

(** A move: whether it starts on a wall, the free positions and the cells in the frame of a right turn, the
    table entries, the clearance of the grid points, and the two table entries in the units of the grid. *)
Record bend := Bend { b_dg : bool; b_free : list (Z * Z); b_cells : list (Z * Z); b_ls : Q; b_vr : Q; b_mu : Z; b_L : Z; b_K : Z }.
Definition bendb (b : bend) (x y : Z) : bool :=
  if b_dg b then
    let u := (x + y)%Z in let v := (x - y)%Z in
    (smallb u && smallb v && pointb (b_free b) (b_cells b) (b_mu b) (b_L b + stepZ (b_K b) u) (b_L b + stepZ (b_K b) v))%bool
  else (smallb y && smallb x && pointb (b_free b) (b_cells b) (b_mu b) (stepZ (b_K b) y) (b_L b + stepZ (b_K b) x))%bool.
Definition bendok (b : bend) (h : Q) : bool :=
  let lo := if b_dg b then rt2 else 2%Q in
  let hi := if b_dg b then (rt2 + (1 # 1000000000))%Q else 2%Q in
  let k := (b_vr b * h * (500000 * (2 ^ 272) # Z.to_pos czd))%Q in
  (Qle_bool 0 (b_ls b) && Qle_bool 1 (b_vr b) && Qle_bool (b_vr b) 5 && Qle_bool 0 h
   && Qle_bool ((68 # 100) + b_vr b * h + (15 # 100000)) (b_mu b # 1000000) && Z.leb (b_mu b) 2000000
   && Qle_bool ((b_L b - 2) # 1000000) (lo * b_ls b) && Qle_bool (hi * b_ls b) ((b_L b + 2) # 1000000)
   && Z.leb 0 (b_K b) && Z.leb (b_K b) 1000000000000
   && Qle_bool (b_K b # 1) (lo * k) && Qle_bool (hi * k) ((b_K b + 2) # 1))%bool.

Definition sigma (dg : bool) : R := if dg then sqrt 2 else 2.
Lemma lat_sigma dg f l : latR dg f l = (if dg then sigma dg * (f + l) else sigma dg * l) /\ latA dg f l = (if dg then sigma dg * (f - l) else sigma dg * f).
Proof. unfold latR, latA, sigma. destruct dg; split; reflexivity. Qed.

Lemma valQ_R h z : Q2R (valQ h z) = Q2R h * (IZR z / (2 * IZR czd)).
Proof. unfold valQ. rewrite Q2R_mult, q2r, Z2Pos.id, mult_IZR by reflexivity. reflexivity. Qed.

Lemma bendok_facts b h : bendok b h = true ->
  0 <= Q2R (b_ls b) /\ 1 <= Q2R (b_vr b) <= 5 /\ 0 <= Q2R h /\ 68 / 100 + Q2R (b_vr b) * Q2R h + 15 / 100000 <= mil (b_mu b) <= 2 /\
  Rabs (sigma (b_dg b) * Q2R (b_ls b) - mil (b_L b)) <= 2 / 1000000 /\
  forall z, smallb z = true -> Rabs (sigma (b_dg b) * (Q2R (b_vr b) * Q2R (valQ h z)) - mil (stepZ (b_K b) z)) <= 4 / 1000000.
Proof.
  unfold bendok. cbv zeta. set (k := (b_vr b * h * _)%Q). set (lo := if b_dg b then rt2 else 2%Q). set (hi := if b_dg b then (rt2 + _)%Q else 2%Q).
  intros H. rewrite !andb_true_iff in H. destruct H as (((((((((((B1 & B2) & B3) & B4) & B5) & B6) & B7) & B8) & B9) & B10) & B11) & B12).
  apply Z.leb_le in B6, B9, B10. apply Qle_bool_iff, Qle_Rle in B1, B2, B3, B4, B5, B7, B8, B11, B12.
  rewrite !Q2R_plus, Q2R_mult, !q2r in B5. rewrite Q2R_mult, q2r, ?minus_IZR in B7. rewrite Q2R_mult, q2r, ?plus_IZR in B8.
  rewrite Q2R_mult, q2r in B11. rewrite Q2R_mult, q2r, plus_IZR in B12.
  replace (Q2R 0) with 0 in B1, B4 by (unfold Q2R; cbn; lra). replace (Q2R 1) with 1 in B2 by (unfold Q2R; cbn; lra).
  replace (Q2R 5) with 5 in B3 by (unfold Q2R; cbn; lra).
  assert (SG : 0 <= Q2R lo <= sigma (b_dg b) /\ sigma (b_dg b) <= Q2R hi).
  { unfold lo, hi, sigma. destruct rt2_ok as [R1 R2]. destruct (b_dg b).
    - rewrite Q2R_plus, q2r. split; [split; [unfold rt2; rewrite q2r; lra | lra] | lra].
    - unfold Q2R. cbn. lra. }
  destruct SG as [[S0 S1] S2].
  apply IZR_le in B6.
  assert (EK : Q2R k = 1000000 * (Q2R (b_vr b) * Q2R h) * (IZR (2 ^ 272) / (2 * IZR czd))).
  { unfold k. rewrite !Q2R_mult, q2r. rewrite Z2Pos.id by reflexivity. rewrite mult_IZR. assert (CP := czd_pos). field. lra. }
  assert (CP := czd_pos). assert (VH : 0 <= Q2R (b_vr b) * Q2R h) by (apply Rmult_le_pos; lra).
  assert (P272 : 0 < IZR (2 ^ 272)) by (apply IZR_lt; reflexivity).
  assert (K0 : 0 <= Q2R k).
  { rewrite EK. apply Rmult_le_pos; [lra|]. apply Rlt_le, Rdiv_lt_0_compat; lra. }
  split; [exact B1|]. split; [lra|]. split; [exact B4|]. split; [unfold mil; lra|]. split.
  { apply (Rmult_le_compat_r (Q2R (b_ls b))) in S1; [|exact B1]. apply (Rmult_le_compat_r (Q2R (b_ls b))) in S2; [|exact B1].
    unfold mil. apply Rabs_le. lra. }
  intros z Hz.
  assert (KB : 0 <= sigma (b_dg b) * Q2R k - IZR (b_K b) <= 2).
  { apply (Rmult_le_compat_r (Q2R k)) in S1; [|exact K0]. apply (Rmult_le_compat_r (Q2R k)) in S2; [|exact K0]. lra. }
  assert (ST := stepZ_close (sigma (b_dg b) * Q2R k) (b_K b) z KB (conj B9 B10) Hz).
  rewrite valQ_R. unfold mil.
  replace (sigma (b_dg b) * (Q2R (b_vr b) * (Q2R h * (IZR z / (2 * IZR czd)))) - IZR (stepZ (b_K b) z) / 1000000)
    with ((sigma (b_dg b) * Q2R k * (IZR z / IZR (2 ^ 272)) - IZR (stepZ (b_K b) z)) / 1000000).
  2:{ rewrite EK. field. lra. }
  unfold Rdiv at 1. rewrite Rabs_mult, (Rabs_pos_eq (/ 1000000)) by lra. lra.
Qed.

Lemma bendb_near b h x y : bendok b h = true -> bendb b x y = true ->
  let f := Q2R (b_ls b) + Q2R (b_vr b) * Q2R (valQ h x) in let l := Q2R (b_vr b) * Q2R (valQ h y) in
  nearF (isin (b_cells b)) (isin (b_free b)) (mil (b_mu b)) (9 / 1000000) (latR (b_dg b) f l) (latA (b_dg b) f l).
Proof.
  intros OK HB. destruct (bendok_facts b h OK) as (_ & _ & _ & _ & HL & HS). cbv zeta.
  replace (9 / 1000000) with (9 / 1000000 + 0) by ring.
  set (ls := Q2R (b_ls b)) in *. set (vr := Q2R (b_vr b)) in *.
  assert (ADD : forall s t, mil (s + t) = mil s + mil t) by (intros; unfold mil; rewrite plus_IZR; field).
  assert (SUM : forall z, smallb z = true -> Rabs (sigma (b_dg b) * (ls + vr * Q2R (valQ h z)) - mil (b_L b + stepZ (b_K b) z)) <= 6 / 1000000).
  { intros z Hz. specialize (HS z Hz). rewrite ADD.
    replace (_ - _) with ((sigma (b_dg b) * ls - mil (b_L b)) + (sigma (b_dg b) * (vr * Q2R (valQ h z)) - mil (stepZ (b_K b) z))) by ring.
    eapply Rle_trans; [apply Rabs_triang | lra]. }
  assert (BOX : forall r a r' a', Rabs (r - r') <= 6 / 1000000 -> Rabs (a - a') <= 6 / 1000000 -> gap2 r a r' a' <= sq (9 / 1000000)).
  { intros r a r' a' Hr Ha. eapply Rle_trans; [apply gap2_box; eassumption|]. apply sq_le_p. lra. }
  unfold bendb in HB. destruct (lat_sigma (b_dg b) (ls + vr * Q2R (valQ h x)) (vr * Q2R (valQ h y))) as [-> ->].
  destruct (b_dg b).
  - apply andb_prop in HB as [HB PB]. apply andb_prop in HB as [S1 S2]. apply SUM in S1, S2. clear SUM HS.
    eapply nearF_move; [lra | lra | | exact (pointb_ok _ _ _ _ _ PB)]. apply BOX.
    + rewrite !valQ_R in *. rewrite plus_IZR in S1. 
      match type of S1 with Rabs (?a - _) <= _ => match goal with |- Rabs (?b - _) <= _ => replace b with a; [exact S1|] end end.
      assert (CP := czd_pos). field. lra.
    + rewrite !valQ_R in *. rewrite minus_IZR in S2.
      match type of S2 with Rabs (?a - _) <= _ => match goal with |- Rabs (?b - _) <= _ => replace b with a; [exact S2|] end end.
      assert (CP := czd_pos). field. lra.
  - apply andb_prop in HB as [HB PB]. apply andb_prop in HB as [S1 S2]. apply SUM in S2. apply HS in S1.
    eapply nearF_move; [lra | lra | | exact (pointb_ok _ _ _ _ _ PB)]. apply BOX; [lra | exact S2].
Qed.
