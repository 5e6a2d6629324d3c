(** Properties of [Walls] (mousecore2/src/wall.rs). *)
From Coq Require Import ZArith List Bool Lia ZifyBool Ascii String.
From Verif Require Import Base SearchModel SearchSpec SearchCoord WallsModel WallsSpec
  WallsLemmas WallsText WallsText2 WallsText3.
Import ListNotations.
Open Scope Z_scope.
Open Scope list_scope.
Ltac Zify.zify_post_hook ::= Z.div_mod_to_equations.

(** C03: read-after-write and frame, for one update of any map, and for histories. *)
Theorem C03_update W w c s : supported W -> walls_ok w -> valid W c ->
  exists w', walls_update W w c s = Ret w' /\ walls_ok w' /\ walls_state W w' c = Ret s /\
    (forall d, valid W d -> d <> c -> walls_state W w' d = walls_state W w d).
Proof. intros. now apply walls_update_ok. Qed.
Print Assumptions C03_update.

Theorem C03_history W h : supported W -> Forall (fun e => valid W (fst e)) h ->
  exists w0 w, walls_new W = Ret w0 /\ walls_updates W w0 h = Ret w /\ walls_ok w /\
    forall c, valid W c -> exists s0, walls_state W w0 c = Ret s0 /\
      walls_state W w c = Ret (last_written h c s0).
Proof.
  intros HW Hh. destruct (walls_new_ok W HW) as (w0 & E0 & Hok & Hs).
  destruct (updates_ok W h w0 HW Hok Hh) as (w & E & Hw & Hst).
  exists w0, w. split; [exact E0|]. split; [exact E|]. split; [exact Hw|].
  intros c Hc. exists (fresh W c). split; [now apply Hs|]. rewrite Hst by assumption. unfold last_written.
  destruct (find _ (rev h)); [reflexivity|]. now apply Hs.
Qed.
Print Assumptions C03_history.

Example C03_example : exists w0 w,
  walls_new 4 = Ret w0 /\
  walls_updates 4 w0 [(Co 2 1, Checked true); (Co 3 2, Checked false); (Co 2 1, Unchecked)] = Ret w /\
  walls_state 4 w (Co 2 1) = Ret Unchecked /\ walls_state 4 w (Co 3 2) = Ret (Checked false) /\
  walls_state 4 w (Co 1 2) = Ret Unchecked.
Proof. eexists _, _. split; [vm_compute; reflexivity|]. split; [vm_compute; reflexivity|]. vm_compute. auto. Qed.

(** C04 *)
Theorem C04_new W : supported W -> exists w, walls_new W = Ret w /\ walls_ok w /\
  forall c, valid W c -> walls_state W w c = Ret (fresh W c).
Proof. intros HW. destruct (walls_new_ok W HW) as (w & E & H1 & H2). eauto. Qed.
Print Assumptions C04_new.

Example C04_example : fresh 4 (Co 7 2) = Checked true /\ fresh 4 (Co 2 7) = Checked true /\
  fresh 4 (Co 1 0) = Checked true /\ fresh 4 (Co 0 1) = Checked false /\ fresh 4 (Co 3 2) = Unchecked /\
  fresh 1 (Co 0 1) = Checked false.
Proof. repeat split. Qed.

(** C05 *)
Theorem C05_bytes W h : supported W -> Forall (fun e => valid W (fst e)) h ->
  exists w0 w w', walls_new W = Ret w0 /\ walls_updates W w0 h = Ret w /\
    walls_try_from (walls_as_bytes w) = Some w' /\
    walls_as_bytes w' = walls_as_bytes w /\
    forall c, valid W c -> walls_state W w' c = walls_state W w c.
Proof.
  intros HW Hh. destruct (walls_new_ok W HW) as (w0 & E0 & Hok & Hs).
  destruct (updates_ok W h w0 HW Hok Hh) as (w & E & Hw & Hst).
  destruct (try_from_walls W w HW Hw) as (w' & E' & Eb & _ & Hst').
  exists w0, w, w'. auto 10.
Qed.
Print Assumptions C05_bytes.

Theorem C05_length bs : (exists w, walls_try_from bs = Some w) <-> llen bs = 512.
Proof.
  unfold walls_try_from. change WALL_ARRAY_LEN with 512. destruct (Z.eqb_spec (llen bs) 512); split; eauto.
  - intros (w & E). discriminate.
  - contradiction.
Qed.
Print Assumptions C05_length.

Example C05_example : exists w0 w, walls_new 2 = Ret w0 /\
  walls_updates 2 w0 [(Co 2 1, Checked true)] = Ret w /\
  firstn 3 (walls_as_bytes w) = [247; 252; 0].
Proof. eexists _, _. split; [vm_compute; reflexivity|]. split; [vm_compute; reflexivity|]. vm_compute. reflexivity. Qed.

(** C06 is false: a byte with a 2-bit group equal to 2 is accepted and cannot be read. *)
Theorem C06_any_bytes_refuted : exists W bs w c, supported W /\ llen bs = 512 /\
  Forall (fun b => 0 <= b < 256) bs /\ valid W c /\
  walls_try_from bs = Some w /\ walls_state W w c = Panic.
Proof.
  exists 4, (2 :: repeat 0 511), (fill (anew 512 0) 0 (2 :: repeat 0 511)), (Co 1 0).
  split; [unfold supported; auto|]. split; [reflexivity|]. split.
  { constructor; [lia|]. rewrite Forall_forall. intros b Hb. apply repeat_spec in Hb. lia. }
  split; [split; [split; cbn; lia|reflexivity]|]. split; vm_compute; reflexivity.
Qed.
Print Assumptions C06_any_bytes_refuted.

(** ... and readable everywhere when no 2-bit group is 2. *)
Theorem C06_any_bytes_partial W bs w : supported W ->
  Forall (fun b => 0 <= b < 256 /\ forall k, 0 <= k < 4 -> b / 4 ^ k mod 4 <> 2) bs ->
  walls_try_from bs = Some w -> forall c, valid W c -> exists s, walls_state W w c = Ret s.
Proof.
  intros HW Hb E c Hc. destruct (try_from_ok bs w E) as (Hl & Hal & _ & Hr).
  rewrite Forall_forall in Hb.
  assert (Hin : forall i, 0 <= i < 512 -> In (araw w i) bs).
  { intros i Hi. rewrite Hr by assumption. apply nth_In. unfold llen in Hl. lia. }
  rewrite walls_state_eq; [|assumption|apply Hc|split; [exact Hal|intros i Hi; apply Hb, Hin, Hi]].
  destruct (idx512 W c HW (proj1 Hc)) as [Hi Hk].
  destruct (Hb _ (Hin _ Hi)) as [_ Hg]. specialize (Hg _ Hk).
  set (b := araw w (as_index W c / 4)) in *. set (k := as_index W c mod 4) in *.
  unfold lane. rewrite land3, Z.shiftr_div_pow2 by (rewrite shiftl1; lia). rewrite shiftl1, Z.pow_mul_r by lia.
  change (2 ^ 2) with 4. unfold decode.
  assert (0 <= b / 4 ^ k mod 4 < 4) by (apply Z.mod_pos_bound; lia).
  set (v := b / 4 ^ k mod 4) in *.
  destruct (Z.eqb_spec v 0); [eauto|]. destruct (Z.eqb_spec v 1); [eauto|].
  destruct (Z.eqb_spec v 3); [eauto|]. lia.
Qed.
Print Assumptions C06_any_bytes_partial.

Example C06_example : exists w, walls_try_from (119 :: repeat 0 511) = Some w /\
  walls_state 2 w (Co 1 0) = Ret (Checked true).
Proof. eexists. split; [vm_compute; reflexivity|]. vm_compute. reflexivity. Qed.

(** C07: every readable map, displayed and parsed again. *)
Theorem C07_parse_display W w st : supported W -> holds W w st ->
  exists s ls w', walls_display W w = Ret s /\ maze_text W ls s /\ walls_parse W s = Ret (inl w') /\
    (forall c, valid W c -> drawn W ls c (is_checked_true (st c))) /\
    (forall c, valid W c -> walls_state W w' c = Ret (Checked (is_checked_true (st c)))).
Proof.
  intros HW Hh. destruct (display_parse W w st HW Hh) as (s & ls & w' & H1 & H2 & H3 & H4 & H5).
  exists s, ls, w'. repeat split; auto; try apply H2. apply H5.
Qed.
Print Assumptions C07_parse_display.

Theorem C07_identity W w st : supported W -> holds W w st ->
  (forall c, valid W c -> st c <> Unchecked) ->
  exists s w', walls_display W w = Ret s /\ walls_parse W s = Ret (inl w') /\
    forall c, valid W c -> walls_state W w' c = walls_state W w c.
Proof.
  intros HW Hh Hk. destruct (C07_parse_display W w st HW Hh) as (s & ls & w' & H1 & _ & H3 & _ & H5).
  exists s, w'. split; [exact H1|]. split; [exact H3|]. intros c Hc. rewrite H5 by assumption.
  destruct Hh as [_ Hs]. rewrite Hs by assumption. specialize (Hk c Hc). destruct (st c) as [|[|]]; [contradiction|reflexivity|reflexivity].
Qed.
Print Assumptions C07_identity.

Definition maze2 : text := L "+---+---+
|       |
+   +---+
|   |   |
+---+---+
".

Example C07_example : exists w, walls_parse 2 maze2 = Ret (inl w) /\ walls_display 2 w = Ret maze2 /\
  walls_state 2 w (Co 1 0) = Ret (Checked true) /\ walls_state 2 w (Co 1 2) = Ret (Checked false) /\
  walls_state 2 w (Co 0 1) = Ret (Checked false) /\ walls_state 2 w (Co 2 1) = Ret (Checked true).
Proof. eexists. split; [vm_compute; reflexivity|]. vm_compute. auto. Qed.

(** C08 *)
Theorem C08_display_parse W ls s : supported W -> maze_text W ls s ->
  exists w f, walls_parse W s = Ret (inl w) /\
    (forall c, valid W c -> drawn W ls c (f c) /\ walls_state W w c = Ret (Checked (f c))) /\
    walls_display W w = Ret s.
Proof.
  intros HW Hm. destruct (parse_maze W ls s HW Hm) as (w & f & H1 & [_ H2] & H3 & H4).
  exists w, f. auto.
Qed.
Print Assumptions C08_display_parse.

Example C08_example : maze_text 2 [L "+---+---+"; L "|       |"; L "+   +---+"; L "|   |   |"; L "+---+---+"] maze2.
Proof.
  split; [reflexivity|]. split; [reflexivity|]. intros y l E.
  destruct y as [|[|[|[|[|y]]]]]; cbn in E; [..|destruct y; discriminate]; injection E as <-.
  - exists (L "+"), [L "---+"; L "---+"]. split; [left; reflexivity|]. split; [reflexivity|]. split; [|reflexivity]. repeat (apply Forall_cons; [vm_compute; auto|]); constructor.
  - exists (L "|"), [L "    "; L "   |"]. split; [left; reflexivity|]. split; [reflexivity|]. split; [|reflexivity]. repeat (apply Forall_cons; [vm_compute; auto|]); constructor.
  - exists (L "+"), [L "   +"; L "---+"]. split; [left; reflexivity|]. split; [reflexivity|]. split; [|reflexivity]. repeat (apply Forall_cons; [vm_compute; auto|]); constructor.
  - exists (L "|"), [L "   |"; L "   |"]. split; [left; reflexivity|]. split; [reflexivity|]. split; [|reflexivity]. repeat (apply Forall_cons; [vm_compute; auto|]); constructor.
  - exists (L "+"), [L "---+"; L "---+"]. split; [left; reflexivity|]. split; [reflexivity|]. split; [|reflexivity]. repeat (apply Forall_cons; [vm_compute; auto|]); constructor.
Qed.

(** C09: parsing returns; an error designates the first place that is not allowed; and parsing
    succeeds exactly when no place of the lines read is wrong. *)
Theorem C09_parse_errors W s : supported W ->
  let n := Z.min (llen (lines s)) (2 * W + 1) in
  (exists w, walls_parse W s = Ret (inl w) /\ Forall (allowed (lines s)) (places W n)) \/
  (exists e pre p post, walls_parse W s = Ret (inr e) /\ places W n = pre ++ p :: post /\
     Forall (allowed (lines s)) pre /\ ~ allowed (lines s) p /\ designates e p).
Proof.
  intros HW n. destruct (parse_spec W s HW) as [(w & st & E & _ & H & _)|(e & E & pre & p & post & H)].
  - left. eauto.
  - right. exists e, pre, p, post. auto.
Qed.
Print Assumptions C09_parse_errors.

Example C09_example : walls_parse 2 (L "+---+---+
|   x   |
") = Ret (inr (PErr [L "   |"; L "    "] 1 1 5)).
Proof. vm_compute. reflexivity. Qed.

(** C10 is false: the empty text is accepted (and yields the fresh map). *)
Theorem C10_complete_refuted : exists W s w, supported W /\ walls_parse W s = Ret (inl w) /\
  llen (lines s) < 2 * W + 1.
Proof.
  exists 4, []. eexists. split; [unfold supported; auto|]. split; [vm_compute; reflexivity|reflexivity].
Qed.
Print Assumptions C10_complete_refuted.

(** ... but a text of at least [2W+1] lines is only accepted when it describes all of them,
    and lines that are missing leave the fresh map's states. *)
Theorem C10_complete_partial W s w : supported W -> walls_parse W s = Ret (inl w) ->
  let n := Z.min (llen (lines s)) (2 * W + 1) in
  Forall (allowed (lines s)) (places W n) /\
  (forall c, valid W c -> wall_line W c < n ->
     exists e, drawn W (lines s) c e /\ walls_state W w c = Ret (Checked e)) /\
  (forall c, valid W c -> n <= wall_line W c -> walls_state W w c = Ret (fresh W c)).
Proof.
  intros HW E n. destruct (parse_spec W s HW) as [(w' & st & E' & [_ Hh] & H & H1 & H2)|(e & E' & _)].
  - rewrite E in E'. injection E' as <-. split; [exact H|]. split.
    + intros c Hc Hl. destruct (H1 c Hc Hl) as (e & Hd & Es). exists e. rewrite Hh, Es by assumption. auto.
    + intros c Hc Hl. rewrite Hh, H2 by assumption. reflexivity.
  - rewrite E in E'. discriminate.
Qed.
Print Assumptions C10_complete_partial.

Example C10_example : exists w, walls_parse 2 (L "+---+   +") = Ret (inl w) /\
  walls_state 2 w (Co 2 3) = Ret (Checked false) /\ walls_state 2 w (Co 3 2) = Ret (Checked true).
Proof. eexists. split; [vm_compute; reflexivity|]. vm_compute. auto. Qed.
