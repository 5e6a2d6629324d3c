(** Consequences of [search_ok] in specification terms. *)
From Coq Require Import ZArith List Bool Lia Arith Permutation ZifyBool.
From Verif Require Import Base SearchModel SearchSpec SearchCoord SearchBfs SearchBfsInv SearchPath SearchUnk SearchCand SearchMain.
Import ListNotations.
Open Scope Z_scope.
Ltac Zify.zify_post_hook ::= Z.div_mod_to_equations.

(** ** Runs and what they pass *)

Lemma dirs_shift_valid W c v k : valid W c -> In v (dirs c) -> on_board W (shift c v k) -> valid W (shift c v k).
Proof.
  intros [Bc Oc] Hv B. split; [exact B|].
  destruct c as [x y], v as [a b]; unfold dirs, straight_dirs, shift in *; simpl in *.
  rewrite odd_mod in Oc |- *.
  destruct Hv as [E|[E|[E|[E|Hv]]]]; try (injection E as <- <-; lia).
  destruct (Z.odd y); destruct Hv as [E|[E|[]]]; injection E as <- <-; lia.
Qed.

Lemma run_mono W f g c d : valid W c -> (forall x, valid W x -> f x = true -> g x = true) ->
  run W f c d -> run W g c d.
Proof.
  intros Vc E (v & Hv & n & Hn & Ed & O). exists v. split; [exact Hv|]. exists n.
  split; [exact Hn|]. split; [exact Ed|]. intros k Hk. destruct (O k Hk) as [B T].
  split; [exact B|]. apply E; [|exact T]. now apply (dirs_shift_valid W c v k).
Qed.

Lemma chain_run_mono W f g : (forall x, valid W x -> f x = true -> g x = true) ->
  forall l c, valid W c -> chain (run W f) c l -> chain (run W g) c l.
Proof.
  intros E. induction l as [|d l IH]; intros c Vc H; [exact I|].
  destruct H as [R H]. split; [now apply (run_mono W f g)|].
  apply IH; [|exact H]. now apply (run_valid W f c d).
Qed.

Lemma route_mono W f g s t l : valid W s -> (forall x, valid W x -> f x = true -> g x = true) ->
  route W f s t l -> route W g s t l.
Proof. intros Vs E [C L]. split; [|exact L]. now apply (chain_run_mono W f g). Qed.

(** Every wall of a run is a point of its segment. *)
Lemma run_seg c v n k : In v (dirs c) -> 1 <= k <= n -> seg c (shift c v n) (shift c v k).
Proof.
  intros Hv Hk.
  assert (D : forall a b, Z.abs a <= 1 -> Z.abs b <= 1 -> (a, b) <> (0, 0) -> v = (a, b) ->
      seg c (shift c v n) (shift c v k)).
  { intros a b Ha Hb Nab ->. exists (a, b), n, k. repeat split; auto; lia. }
  assert (D2 : forall a b, Z.abs a <= 1 -> Z.abs b <= 1 -> (a, b) <> (0, 0) -> v = (2 * a, 2 * b) ->
      seg c (shift c v n) (shift c v k)).
  { intros a b Ha Hb Nab ->. exists (a, b), (2 * n), (2 * k). repeat split; auto; try lia;
      unfold shift; simpl; f_equal; lia. }
  unfold dirs, straight_dirs in Hv.
  destruct Hv as [E|[E|[E|[E|Hv]]]]; try (subst v; eapply D; eauto; try lia; discriminate).
  destruct (Z.odd (cy c)); destruct Hv as [E|[E|[]]]; subst v.
  - apply (D2 0 1); auto; try lia; discriminate.
  - apply (D2 0 (-1)); auto; try lia; discriminate.
  - apply (D2 1 0); auto; try lia; discriminate.
  - apply (D2 (-1) 0); auto; try lia; discriminate.
Qed.

(** A route none of whose passed walls has property [bad] stays a route when [bad] walls close. *)
Lemma chain_restrict W f g : forall l c, valid W c -> chain (run W f) c l ->
  (forall e, valid W e -> passes c l e -> f e = true -> g e = true) -> chain (run W g) c l.
Proof.
  induction l as [|d l IH]; intros c Vc H E; [exact I|].
  destruct H as [(v & Hv & n & Hn & Ed & O) H]. split.
  - exists v. split; [exact Hv|]. exists n. split; [exact Hn|]. split; [exact Ed|].
    intros k Hk. destruct (O k Hk) as [B T]. split; [exact B|].
    apply E; [now apply (dirs_shift_valid W c v k)| |exact T].
    left. rewrite Ed. now apply run_seg.
  - apply IH; [|exact H|].
    + apply (run_valid W f c d); [exact Vc|]. exists v. split; [exact Hv|]. exists n. auto.
    + intros e Ve Pe. apply E; [exact Ve|]. now right.
Qed.

Lemma reaches_trans R a b c : reaches R a b -> reaches R b c -> reaches R a c.
Proof.
  intros (l & C & L) (m & C' & L'). exists (l ++ m). subst b. split; [now apply chain_app|].
  clear C C'. revert a L'. induction l as [|x l IH]; intros a L'; [exact L'|].
  rewrite <- app_comm_cons, last_cons. rewrite last_cons in L'. now apply IH.
Qed.

Lemma reaches_refl R a : reaches R a a.
Proof. now exists []. Qed.

Lemma reaches_one (R : coord -> coord -> Prop) a b : R a b -> reaches R a b.
Proof. intros H. exists [b]. repeat split. exact H. Qed.

Lemma dirs_shift c v k : In v (dirs c) -> In v (dirs (shift c v k)).
Proof.
  rewrite !dirs_kdirs. intros [q Hq]. exists q. now rewrite kdirs_shift.
Qed.

Lemma run_reaches W f c v n : In v (dirs c) ->
  (forall k, 1 <= k <= n -> on_board W (shift c v k) /\ f (shift c v k) = true) ->
  forall k, 0 <= k <= n -> reaches (step W f) c (shift c v k).
Proof.
  intros Hv O k Hk. destruct Hk as [Hk0 Hk]. revert Hk. pattern k. apply natlike_ind; [| |exact Hk0].
  - intros _. replace (shift c v 0) with c; [apply reaches_refl|].
    destruct c; unfold shift; simpl; f_equal; lia.
  - intros j Hj IH Hn. eapply reaches_trans; [apply IH; lia|]. apply reaches_one.
    destruct (O (Z.succ j) ltac:(lia)) as [B T].
    split; [|auto]. exists v. split; [now apply dirs_shift|].
    destruct c as [x y]; unfold shift; simpl; f_equal; lia.
Qed.

Lemma chain_reaches W f : forall l c, chain (run W f) c l -> reaches (step W f) c (last l c).
Proof.
  induction l as [|d l IH]; intros c H; [apply reaches_refl|].
  destruct H as [(v & Hv & n & Hn & -> & O) H]. rewrite last_cons.
  eapply reaches_trans; [|now apply IH]. apply (run_reaches W f c v n); auto; lia.
Qed.

(** [wall_state] functions that, like [Walls::wall_state], depend on the slot only. *)
Definition slotwise (W : Z) (ws : coord -> wall_state) : Prop :=
  forall a b, on_board W a -> on_board W b -> slot a = slot b -> ws a = ws b.

Lemma slot_inj W a b : valid W a -> valid W b -> slot a = slot b -> a = b.
Proof.
  intros [_ Oa] [_ Ob] E. destruct a as [x y], b as [u v]; unfold slot in E; simpl in *.
  injection E as E1 E2 E3. rewrite Z.odd_add in Oa, Ob.
  pose proof (Zmod_odd x). pose proof (Zmod_odd y). pose proof (Zmod_odd u). pose proof (Zmod_odd v).
  rewrite E3 in *. f_equal; destruct (Z.odd x), (Z.odd u), (Z.odd v); simpl in *; try discriminate; lia.
Qed.

(** The wall stored in the slot of any grid point. *)
Definition slot_wall (e : coord) : coord :=
  if Z.odd (cy e) then Co (2 * (cx e / 2)) (cy e) else Co (2 * (cx e / 2) + 1) (cy e).

Lemma slot_wall_ok W e : on_board W e -> valid W (slot_wall e) /\ slot (slot_wall e) = slot e.
Proof.
  intros B. destruct e as [x y]; unfold slot_wall, valid, on_board, slot in *; simpl in *.
  pose proof (Zmod_odd y) as M.
  destruct (Z.odd y) eqn:Oy; simpl; rewrite Oy; (split; [split; [lia|]|]).
  - rewrite odd_mod. lia.
  - replace (2 * (x / 2) / 2) with (x / 2) by lia. reflexivity.
  - rewrite odd_mod. lia.
  - replace ((2 * (x / 2) + 1) / 2) with (x / 2) by lia. reflexivity.
Qed.

Lemma slot_wall_valid W d : valid W d -> slot_wall d = d.
Proof.
  intros V. destruct (slot_wall_ok W d (proj1 V)) as [A B]. now apply (slot_inj W).
Qed.

Lemma seg_reaches W ws c v n e : valid W c -> In v (dirs c) -> 1 <= n ->
  (forall k, 1 <= k <= n -> on_board W (shift c v k) /\ maybe_open ws (shift c v k) = true) ->
  slotwise W ws -> seg c (shift c v n) e -> on_board W e -> ws e = Unchecked ->
  reaches (step W (maybe_open ws)) c (slot_wall e).
Proof.
  intros Vc Hv Hn O Sl Hs Be Ue.
  pose proof (run_reaches W _ c v n Hv O) as RR.
  assert (Hd := Hv). apply dirs_kdirs in Hd as [q Hq].
  apply (seg_unit c q v n _ e Hq Hn eq_refl) in Hs as (j & Hj & ->).
  assert (Wd : forall k, j = usteps v k -> 1 <= k <= n -> 
     reaches (step W (maybe_open ws)) c (slot_wall (shift c (unit v) j))).
  { intros k -> Hk. rewrite <- (unit_shift c q v k c Hq).
    rewrite (slot_wall_valid W); [apply RR; lia|]. apply dirs_shift_valid; auto. now apply O. }
  unfold dirs in Hv. rewrite in_app_iff in Hv. destruct Hv as [Hv|Hv].
  - apply (Wd j).
    + destruct Hv as [<-|[<-|[<-|[<-|[]]]]]; reflexivity.
    + destruct Hv as [<-|[<-|[<-|[<-|[]]]]]; exact Hj.
  - unfold straight_dirs in Hv. assert (Us : forall k, usteps v k = 2 * k).
    { intros k. destruct (Z.odd (cy c)); destruct Hv as [<-|[<-|[]]]; reflexivity. }
    rewrite Us in Hj. destruct (Z.eq_dec (j mod 2) 0) as [Ej|Ej].
    { apply (Wd (j / 2)); [rewrite Us|]; lia. }
    set (k := j / 2). assert (Hk : j = 2 * k + 1) by (unfold k; lia).
    assert (Uw : maybe_open ws (slot_wall (shift c (unit v) j)) = true).
    { unfold maybe_open. destruct (slot_wall_ok W _ Be) as [[A _] B].
      now rewrite (Sl _ _ A Be B), Ue. }
    assert (Bw : on_board W (slot_wall (shift c (unit v) j))) by now apply slot_wall_ok.
    destruct Vc as [Bc Oc]. rewrite odd_mod in Oc.
    destruct (Z.odd (cy c)) eqn:Oy.
    + (* vertical: the right wall beside the passed point *)
      eapply reaches_trans; [apply (RR k); lia|]. apply reaches_one. split; [|auto].
      pose proof (Zmod_odd (cy c)) as My. rewrite Oy in My.
      destruct c as [x y]; simpl in *.
      assert (Hx : 2 * (x / 2) = x) by lia.
      destruct Hv as [<-|[<-|[]]]; unfold unit, slot_wall, shift; cbn [fst snd cx cy];
      [change (Z.sgn 2) with 1|change (Z.sgn (-2)) with (-1)]; change (Z.sgn 0) with 0;
      rewrite ?Z.mul_0_r, ?Z.add_0_r.
      * replace (Z.odd (y + j * 1)) with false by (symmetry; rewrite odd_mod_false; lia).
        exists (1, 1). split; [now left|]. unfold shift; simpl; f_equal; lia.
      * replace (Z.odd (y + j * -1)) with false by (symmetry; rewrite odd_mod_false; lia).
        exists (1, -1). split; [simpl; auto|]. unfold shift; simpl; f_equal; lia.
    + pose proof (Zmod_odd (cy c)) as My. rewrite Oy in My.
      destruct c as [x y]; simpl in *.
      destruct Hv as [<-|[<-|[]]].
      * replace (slot_wall _) with (shift (Co x y) (2, 0) (k + 1)); [apply RR; lia|].
        unfold unit, slot_wall, shift; cbn [fst snd cx cy]. change (Z.sgn 2) with 1. change (Z.sgn 0) with 0.
        rewrite ?Z.mul_0_r, ?Z.add_0_r, Oy. f_equal; lia.
      * replace (slot_wall _) with (shift (Co x y) (-2, 0) k); [apply RR; lia|].
        unfold unit, slot_wall, shift; cbn [fst snd cx cy]. change (Z.sgn (-2)) with (-1). change (Z.sgn 0) with 0.
        rewrite ?Z.mul_0_r, ?Z.add_0_r, Oy. f_equal; lia.
Qed.

Lemma passes_reaches W ws : slotwise W ws -> forall l c e, valid W c ->
  chain (run W (maybe_open ws)) c l -> passes c l e -> ws e = Unchecked -> on_board W e ->
  reaches (step W (maybe_open ws)) c (slot_wall e).
Proof.
  intros Sl. induction l as [|d l IH]; intros c e Vc H P Ue Be; [contradiction|].
  destruct H as [R H]. assert (Vd := proj1 (run_valid W _ c d Vc R)).
  destruct R as (v & Hv & n & Hn & -> & O). destruct P as [S|P].
  - now apply (seg_reaches W ws c v n).
  - eapply reaches_trans; [apply (run_reaches W _ c v n Hv O n); lia|]. now apply IH.
Qed.

(** ** Cells *)

(** The cell entered when leaving wall [c] in direction [v]. *)
Definition ahead (c : coord) (v : Z * Z) : Z * Z :=
  if Z.odd (cy c)
  then (cx c / 2, if 0 <? snd v then cy c / 2 + 1 else cy c / 2)
  else (if 0 <? fst v then cx c / 2 + 1 else cx c / 2, cy c / 2).

Lemma ahead_touches c v : Z.odd (cx c + cy c) = true -> In v (dirs c) ->
  touches c (ahead c v) /\ touches (shift c v 1) (ahead c v) /\
  forall q, touches c q -> touches (shift c v 1) q -> q = ahead c v.
Proof.
  intros Oc Hv. destruct c as [x y]. unfold touches, ahead, dirs, straight_dirs, shift in *.
  cbn [cx cy] in *. pose proof (Zmod_odd y) as My. rewrite odd_mod in Oc.
  destruct (Z.odd y) eqn:Oy.
  - destruct Hv as [E|[E|[E|[E|[E|[E|[]]]]]]]; subst v; cbn [fst snd];
      try change (0 <? 1) with true; try change (0 <? -1) with false; try change (0 <? 2) with true;
      try change (0 <? -2) with false;
      match goal with |- context [if Z.odd ?z then _ else _] =>
        first [replace (Z.odd z) with true by (symmetry; rewrite odd_mod; lia)
              |replace (Z.odd z) with false by (symmetry; rewrite odd_mod_false; lia)] end;
      (split; [auto|]; split; [first [left; f_equal; lia|right; f_equal; lia]|
        intros q [->| ->] [E|E]; injection E as E1 E2; try (f_equal; lia); exfalso; lia]).
  - destruct Hv as [E|[E|[E|[E|[E|[E|[]]]]]]]; subst v; cbn [fst snd];
      try change (0 <? 1) with true; try change (0 <? -1) with false; try change (0 <? 2) with true;
      try change (0 <? -2) with false;
      match goal with |- context [if Z.odd ?z then _ else _] =>
        first [replace (Z.odd z) with true by (symmetry; rewrite odd_mod; lia)
              |replace (Z.odd z) with false by (symmetry; rewrite odd_mod_false; lia)] end;
      (split; [auto|]; split; [first [left; f_equal; lia|right; f_equal; lia]|
        intros q [->| ->] [E|E]; injection E as E1 E2; try (f_equal; lia); exfalso; lia]).
Qed.

Lemma adjacent_ahead c v w : Z.odd (cx c + cy c) = true -> In v (dirs c) -> In w (dirs c) -> v <> w ->
  (adjacent (shift c v 1) (shift c w 1) <-> ahead c v = ahead c w).
Proof.
  intros Oc Hv Hw N. destruct c as [x y]. rewrite odd_mod in Oc.
  unfold adjacent, ahead, dirs, straight_dirs, shift in *.
  cbn [cx cy] in *. pose proof (Zmod_odd y) as My.
  destruct (Z.odd y) eqn:Oy;
  destruct Hv as [E|[E|[E|[E|[E|[E|[]]]]]]]; subst v;
  destruct Hw as [E|[E|[E|[E|[E|[E|[]]]]]]]; subst w; try congruence; cbn [fst snd] in *;
      try change (0 <? 1) with true; try change (0 <? -1) with false; try change (0 <? 2) with true;
      try change (0 <? -2) with false;
      match goal with |- context [if Z.odd ?z then _ else _] =>
        first [replace (Z.odd z) with true by (symmetry; rewrite odd_mod; lia)
              |replace (Z.odd z) with false by (symmetry; rewrite odd_mod_false; lia)] end;
  (split;
   [intros (u & Hu & E); injection E as E1 E2;
    destruct Hu as [F|[F|[F|[F|[F|[F|[]]]]]]]; subst u; cbn [fst snd] in *; try (exfalso; lia); try (f_equal; lia)
   |intros E; try (injection E as E1; exfalso; lia);
    first [exists (1, 1); split; [simpl; tauto|cbn [fst snd]; f_equal; lia]
          |exists (1, -1); split; [simpl; tauto|cbn [fst snd]; f_equal; lia]
          |exists (-1, 1); split; [simpl; tauto|cbn [fst snd]; f_equal; lia]
          |exists (-1, -1); split; [simpl; tauto|cbn [fst snd]; f_equal; lia]
          |exists (0, 2); split; [simpl; tauto|cbn [fst snd]; f_equal; lia]
          |exists (0, -2); split; [simpl; tauto|cbn [fst snd]; f_equal; lia]
          |exists (2, 0); split; [simpl; tauto|cbn [fst snd]; f_equal; lia]
          |exists (-2, 0); split; [simpl; tauto|cbn [fst snd]; f_equal; lia]]]).
Qed.
