(** Displaying, and the round trips. *)
From Coq Require Import ZArith List Bool Lia ZifyBool Ascii String.
From Verif Require Import Base SearchModel SearchSpec SearchCoord WallsModel WallsSpec WallsLemmas WallsText WallsText2.
Import ListNotations.
Open Scope Z_scope.
Open Scope list_scope.
Ltac Zify.zify_post_hook ::= Z.div_mod_to_equations.

(** ** The lines of a map *)

Definition pic (y : Z) (e : bool) : text := if e then p_yes y else p_no y.
Definition body (W y : Z) (g : Z -> text) : text := List.concat (map g (range W)).
Definition seen (st : coord -> wall_state) (c : coord) : bool := is_checked_true (st c).
Definition map_line (W : Z) (st : coord -> wall_state) (y : Z) : text :=
  p_first y ++ body W y (fun x => if y =? 2 * W then L "---+" else pic y (seen st (wall_at W y x))).
Definition map_lines (W : Z) (st : coord -> wall_state) : list text :=
  map (map_line W st) (upto (2 * W + 1)).

Lemma for_each_app {A} (f : A -> text) (b : text -> A -> res text) xs :
  (forall o x, In x xs -> b o x = Ret (o ++ f x)) ->
  forall o, for_each b xs o = Ret (o ++ List.concat (map f xs)).
Proof.
  induction xs as [|x xs IH]; intros H o; cbn.
  - rewrite app_nil_r. reflexivity.
  - rewrite H by (left; reflexivity). cbn. rewrite IH by (intros; apply H; right; assumption).
    rewrite <- app_assoc. reflexivity.
Qed.

Lemma shift_plus {A} (g : A -> text) xs a :
  List.concat (map (fun x => a :: g x) xs) ++ [a] = a :: List.concat (map (fun x => g x ++ [a]) xs).
Proof.
  induction xs as [|x xs IH]; [reflexivity|]. cbn. rewrite <- app_assoc, IH, <- app_assoc. reflexivity.
Qed.

Lemma wexists_ok W w st x y : supported W -> holds W w st -> valid W (Co x y) ->
  wexists W w x y = Ret (seen st (Co x y)).
Proof.
  intros HW [_ Hs] Hv. unfold wexists. rewrite coord_unwrap_ok by assumption. cbn [bind].
  rewrite Hs by assumption. reflexivity.
Qed.

Lemma map_top W st y : 0 <= y < W ->
  map_line W st (2 * (W - 1 - y)) =
  List.concat (map (fun x => if seen st (Co (2 * x) (2 * y + 1)) then L "+---" else L "+   ") (range W)) ++ L "+".
Proof.
  intros Hy. unfold map_line, body, p_first, pic, p_yes, p_no, wall_at.
  assert (Z.even (2 * (W - 1 - y)) = true) as -> by (apply even_mod; lia).
  destruct (Z.eqb_spec (2 * (W - 1 - y)) (2 * W)); [lia|].
  replace (W - 1 - 2 * (W - 1 - y) / 2) with y by lia.
  set (g := fun x => if seen st (Co (2 * x) (2 * y + 1)) then L "---" else L "   ").
  rewrite (map_ext _ (fun x => g x ++ ["+"%char])).
  2: { intros x. unfold g. destruct (seen st (Co (2 * x) (2 * y + 1))); reflexivity. }
  rewrite (map_ext (fun x => if seen st (Co (2 * x) (2 * y + 1)) then L "+---" else L "+   ")
    (fun x => "+"%char :: g x)).
  2: { intros x. unfold g. destruct (seen st (Co (2 * x) (2 * y + 1))); reflexivity. }
  symmetry. apply shift_plus.
Qed.

Lemma map_right W st y : 0 <= y < W ->
  map_line W st (2 * (W - 1 - y) + 1) =
  L "|" ++ List.concat (map (fun x => if seen st (Co (2 * x + 1) (2 * y)) then L "   |" else L "    ") (range W)).
Proof.
  intros Hy. unfold map_line, body, p_first, pic, p_yes, p_no, wall_at.
  assert (Z.even (2 * (W - 1 - y) + 1) = false) as -> by (apply even_mod_false; lia).
  destruct (Z.eqb_spec (2 * (W - 1 - y) + 1) (2 * W)); [lia|].
  replace (W - 1 - (2 * (W - 1 - y) + 1) / 2) with y by lia. reflexivity.
Qed.

Lemma map_bottom W st :
  map_line W st (2 * W) = List.concat (map (fun _ => L "+---") (range W)) ++ L "+".
Proof.
  unfold map_line, body, p_first.
  assert (Z.even (2 * W) = true) as -> by (apply even_mod; lia). rewrite Z.eqb_refl.
  symmetry. change (L "+---") with ("+"%char :: L "---"). rewrite (shift_plus (fun _ => L "---")).
  reflexivity.
Qed.

Lemma disp_row_ok W w st y o : supported W -> holds W w st -> 0 <= y < W ->
  disp_row W w o y = Ret (o ++ map_line W st (2 * (W - 1 - y)) ++ [NL] ++
                               map_line W st (2 * (W - 1 - y) + 1) ++ [NL]).
Proof.
  intros HW Hh Hy. pose proof (supported_bounds W HW) as HB. unfold disp_row.
  rewrite (for_each_app (fun x => if seen st (Co (2 * x) (2 * y + 1)) then L "+---" else L "+   ")).
  2: { intros o1 x Hx. apply in_range_inv in Hx. unfold disp_top.
       rewrite !shiftl1, !as_u8_small, lor1 by lia.
       rewrite (wexists_ok W w st) by (assumption || apply valid_top; lia). reflexivity. }
  cbn [bind].
  rewrite (for_each_app (fun x => if seen st (Co (2 * x + 1) (2 * y)) then L "   |" else L "    ")).
  2: { intros o1 x Hx. apply in_range_inv in Hx. unfold disp_right.
       rewrite !shiftl1, !as_u8_small, lor1 by lia.
       rewrite (wexists_ok W w st) by (assumption || apply valid_right; lia). reflexivity. }
  cbn [bind]. rewrite map_top, map_right by assumption. f_equal. rewrite <- !app_assoc. reflexivity.
Qed.

Lemma upto_app a b : 0 <= a -> 0 <= b -> upto (a + b) = upto a ++ map (fun i => a + i) (upto b).
Proof.
  intros Ha Hb. unfold upto. rewrite Z2Nat.inj_add, seq_app, map_app by assumption. f_equal.
  rewrite map_map.
  assert (G : forall n k, map Z.of_nat (seq (Z.to_nat a + k) n) = map (fun i => a + Z.of_nat i) (seq k n)).
  { induction n as [|n IH]; intros k; [reflexivity|]. cbn [seq map]. f_equal; [lia|].
    rewrite <- Nat.add_succ_r. apply IH. }
  specialize (G (Z.to_nat b) O). rewrite Nat.add_0_r in G. exact G.
Qed.

Lemma upto_S n : 0 <= n -> upto (n + 1) = upto n ++ [n].
Proof. intros H. rewrite upto_app by lia. f_equal. change (upto 1) with [0]. cbn [map]. rewrite Z.add_0_r. reflexivity. Qed.

Lemma rows_lines (f : Z -> text) W : forall n, 0 <= n <= W ->
  List.concat (map (fun y => f (2 * (W - 1 - y)) ++ f (2 * (W - 1 - y) + 1))
    (map (fun i => W - 1 - i) (upto n))) = List.concat (map f (upto (2 * n))).
Proof.
  intros n Hn. replace n with (Z.of_nat (Z.to_nat n)) in * by lia.
  induction (Z.to_nat n) as [|k IH]; [reflexivity|].
  replace (Z.of_nat (S k)) with (Z.of_nat k + 1) in * by lia. rewrite upto_S by lia.
  replace (2 * (Z.of_nat k + 1)) with (2 * Z.of_nat k + 1 + 1) by lia.
  rewrite (upto_S (2 * Z.of_nat k + 1)), (upto_S (2 * Z.of_nat k)), !map_app, !concat_app, IH by lia.
  rewrite <- app_assoc. cbn. rewrite !app_nil_r. do 2 f_equal; [|f_equal]; f_equal; lia.
Qed.

Lemma rev_range W : rev (range W) = map (fun i => W - 1 - i) (upto W).
Proof.
  destruct (Z.le_gt_cases W 0) as [H|H].
  { unfold range, upto. replace (Z.to_nat W) with O by lia. reflexivity. }
  replace W with (Z.of_nat (Z.to_nat W)) by lia.
  change range with upto. clear H.
  induction (Z.to_nat W) as [|k IH]; [reflexivity|].
  replace (Z.of_nat (S k)) with (Z.of_nat k + 1) by lia.
  rewrite upto_S at 1 by lia. rewrite rev_app_distr, IH.
  replace (upto (Z.of_nat k + 1)) with (upto (1 + Z.of_nat k)) by (f_equal; lia). rewrite (upto_app 1) by lia.
  cbn [rev app map]. change (upto 1) with [0]. cbn [app map]. replace (Z.of_nat k + 1 - 1 - 0) with (Z.of_nat k) by lia. f_equal.
  rewrite map_map. apply map_ext. intros; lia.
Qed.

Lemma flat_map_concat {A B} (f : A -> list B) xs : flat_map f xs = List.concat (map f xs).
Proof. apply flat_map_concat_map. Qed.

Lemma display_ok W w st : supported W -> holds W w st ->
  walls_display W w = Ret (flat_map (fun l => l ++ [NL]) (map_lines W st)).
Proof.
  intros HW Hh. pose proof (supported_bounds W HW) as HB. unfold walls_display.
  set (f := fun y => map_line W st y ++ [NL]).
  rewrite (for_each_app (fun y => f (2 * (W - 1 - y)) ++ f (2 * (W - 1 - y) + 1))).
  2: { intros o y Hy. apply in_rev in Hy. apply in_range_inv in Hy.
       rewrite (disp_row_ok W w st) by assumption. unfold f. rewrite <- !app_assoc. reflexivity. }
  cbn [bind]. rewrite rev_range, rows_lines by lia. cbn [app].
  f_equal. rewrite flat_map_concat. unfold map_lines. rewrite map_map. fold f.
  rewrite upto_S, map_app, concat_app by lia. f_equal. cbn. rewrite app_nil_r.
  unfold f. rewrite map_bottom, <- app_assoc. reflexivity.
Qed.

(** ** Lines of a maze text *)

Lemma upto_len n : 0 <= n -> List.length (upto n) = Z.to_nat n.
Proof. intros. unfold upto. rewrite map_length, seq_length. reflexivity. Qed.

Lemma nth_upto n y : (y < Z.to_nat n)%nat -> nth_error (upto n) y = Some (Z.of_nat y).
Proof.
  intros H. unfold upto. apply map_nth_error.
  rewrite (nth_error_nth' _ O) by (rewrite seq_length; exact H). rewrite seq_nth by exact H. reflexivity.
Qed.

Lemma nth_map_lines W st y : 0 <= y < 2 * W + 1 ->
  nth_error (map_lines W st) (Z.to_nat y) = Some (map_line W st y).
Proof.
  intros H. unfold map_lines. rewrite (map_nth_error (map_line W st) _ _ (d := y)); [reflexivity|].
  rewrite nth_upto by lia. f_equal. lia.
Qed.

Lemma map_lines_maze W st : supported W ->
  maze_text W (map_lines W st) (flat_map (fun l => l ++ [NL]) (map_lines W st)).
Proof.
  intros HW. pose proof (supported_bounds W HW) as HB. split; [reflexivity|]. split.
  - unfold map_lines, llen. rewrite map_length, upto_len by lia. lia.
  - intros y l E.
    assert (Hlt : (y < Z.to_nat (2 * W + 1))%nat).
    { assert (H : nth_error (map_lines W st) y <> None) by congruence.
      apply nth_error_Some in H. unfold map_lines in H. rewrite map_length, upto_len in H by lia. exact H. }
    pose proof (nth_map_lines W st (Z.of_nat y) ltac:(lia)) as H. rewrite Nat2Z.id, E in H.
    injection H as ->. unfold line_ok.
    exists (p_first (Z.of_nat y)), (map (fun x => if Z.of_nat y =? 2 * W then L "---+"
      else pic (Z.of_nat y) (seen st (wall_at W (Z.of_nat y) x))) (range W)).
    split; [rewrite starts_first; left; reflexivity|]. split.
    { unfold llen. rewrite map_length. change (range W) with (upto W). rewrite upto_len; lia. }
    split; [|reflexivity].
    rewrite Forall_forall. intros p Hp. apply in_map_iff in Hp. destruct Hp as (x & <- & _).
    unfold pieces, pic, p_yes, p_no. destruct (Z.of_nat y =? 2 * W); [left; reflexivity|].
    destruct (Z.even (Z.of_nat y)), (seen st (wall_at W (Z.of_nat y) x)); cbn; auto.
Qed.

Lemma concat_at (ps : list text) : Forall (fun p => List.length p = 4%nat) ps ->
  forall i p, nth_error ps i = Some p -> at_col (List.concat ps) (4 * Z.of_nat i) p.
Proof.
  induction 1 as [|q ps Hq Hps IH]; intros i p E; [destruct i; discriminate|].
  destruct i as [|i]; cbn in E.
  - injection E as ->. exists [], (List.concat ps). split; reflexivity.
  - destruct (IH i p E) as (pre & post & E2 & Hl). exists (q ++ pre), post. cbn. rewrite E2.
    split; [now rewrite <- app_assoc|]. rewrite llen_app, Hl. unfold llen. lia.
Qed.

Lemma at_col_app st l col t : at_col l col t -> at_col (st ++ l) (llen st + col) t.
Proof.
  intros (pre & post & -> & H). exists (st ++ pre), post. rewrite <- app_assoc, llen_app. split; [reflexivity|lia].
Qed.

Lemma at_col_det l col t t' : at_col l col t -> at_col l col t' -> List.length t = List.length t' -> t = t'.
Proof.
  intros (p & q & E & H) (p' & q' & E' & H') Hl. unfold llen in *. rewrite E in E'.
  destruct (app_inv_len _ _ _ _ E' ltac:(lia)) as [_ E2]. exact (proj1 (app_inv_len _ _ _ _ E2 Hl)).
Qed.

Lemma pieces_len W y p : In p (pieces W y) -> List.length p = 4%nat.
Proof.
  unfold pieces. destruct (y =? 2 * W); [|destruct (Z.even y)]; cbn; intuition; subst; reflexivity.
Qed.

Lemma starts_len y s : In s (starts y) -> s = p_first y /\ llen s = 1.
Proof.
  rewrite starts_first. intros [<-|[]]. split; [reflexivity|]. unfold llen. destruct (p_lens y) as (_&_&->&_). reflexivity.
Qed.

(** a line in the format is determined by its pieces. *)
Lemma line_ok_places W y l : 0 <= W -> line_ok W y l -> Forall (ok_l l) (line_places W y).
Proof.
  intros HW (st & ps & Hst & Hlen & Hps & ->). destruct (starts_len y st Hst) as [-> Hl].
  constructor.
  - exists (p_first y). split; [exact Hst|]. exists [], (List.concat ps). split; reflexivity.
  - rewrite Forall_forall. intros p Hp. apply in_map_iff in Hp. destruct Hp as (x & <- & Hx).
    apply (in_range_inv W) in Hx. unfold llen in Hlen.
    destruct (nth_error ps (Z.to_nat x)) as [q|] eqn:E.
    2: { apply nth_error_None in E. lia. }
    exists q. rewrite Forall_forall in Hps. split; [apply Hps; eapply nth_error_In, E|]. cbn [p_col].
    replace (4 * x + 1) with (llen (p_first y) + 4 * Z.of_nat (Z.to_nat x)) by lia.
    apply at_col_app, concat_at; [|exact E]. rewrite Forall_forall. intros r Hr. eapply pieces_len, Hps, Hr.
Qed.

Lemma line_det W y l g : 0 <= W -> line_ok W y l ->
  (forall x, 0 <= x < W -> at_col l (4 * x + 1) (g x) /\ List.length (g x) = 4%nat) ->
  l = p_first y ++ body W y g.
Proof.
  intros HW (st & ps & Hst & Hlen & Hps & ->) Hg. destruct (starts_len y st Hst) as [-> Hl].
  f_equal. unfold body. f_equal. unfold llen in Hlen.
  assert (Hp4 : Forall (fun p => List.length p = 4%nat) ps).
  { rewrite Forall_forall in *. intros r Hr. eapply pieces_len, Hps, Hr. }
  unfold text in *. apply (nth_ext _ _ [] []).
  - rewrite map_length. change (range W) with (upto W). rewrite upto_len by lia. lia.
  - intros i Hi. destruct (nth_error ps i) as [q|] eqn:E.
    2: { apply nth_error_None in E. lia. }
    rewrite (nth_error_nth _ _ [] E). symmetry. apply nth_error_nth.
    rewrite (map_nth_error g _ _ (d := Z.of_nat i)).
    2: { change (range W) with (upto W). apply nth_upto. lia. }
    f_equal. destruct (Hg (Z.of_nat i) ltac:(lia)) as [Ha Hlg].
    pose proof (at_col_app (p_first y) _ _ _ (concat_at ps Hp4 i q E)) as Hq.
    rewrite Hl in Hq. replace (1 + 4 * Z.of_nat i) with (4 * Z.of_nat i + 1) in Hq by lia.
    eapply at_col_det; [exact Ha|exact Hq|].
    rewrite Hlg. rewrite Forall_forall in Hp4. symmetry. apply Hp4. eapply nth_error_In, E.
Qed.

(** ** Splitting a maze text into lines *)

Definition plain (c : ascii) : Prop := c <> NL /\ c <> CR.

Lemma lines_from_line l : Forall plain l -> forall cur rest, Forall plain cur ->
  lines_from cur (l ++ NL :: rest) = (rev cur ++ l) :: lines_from [] rest.
Proof.
  induction 1 as [|c l [Hc1 Hc2] Hl IH]; intros cur rest Hcur; cbn.
  - rewrite app_nil_r. f_equal. destruct Hcur as [|d cur [Hd1 Hd2] _]; [reflexivity|]. cbn.
    destruct (Ascii.eqb_spec d CR); [contradiction|reflexivity].
  - destruct (Ascii.eqb_spec c NL); [contradiction|].
    rewrite IH by (constructor; [split|]; assumption). cbn. rewrite <- app_assoc. reflexivity.
Qed.

Lemma lines_join ls : Forall (Forall plain) ls -> lines (flat_map (fun l => l ++ [NL]) ls) = ls.
Proof.
  unfold lines. induction 1 as [|l ls Hl Hls IH]; [reflexivity|]. cbn [flat_map].
  rewrite <- app_assoc. cbn [app]. rewrite lines_from_line by (assumption || constructor).
  cbn. rewrite IH. reflexivity.
Qed.

Lemma line_ok_plain W y l : line_ok W y l -> Forall plain l.
Proof.
  intros (st & ps & Hst & _ & Hps & ->). apply Forall_app. split.
  - unfold starts in Hst. destruct (Z.even y); destruct Hst as [<-|[]]; repeat constructor; discriminate.
  - induction Hps as [|p ps Hp Hps IH]; [constructor|]. cbn. apply Forall_app. split; [|exact IH].
    unfold pieces in Hp. destruct (y =? 2 * W); [|destruct (Z.even y)]; cbn in Hp;
      intuition; subst; repeat constructor; discriminate.
Qed.

Lemma maze_lines W ls s : maze_text W ls s -> lines s = ls.
Proof.
  intros (-> & _ & Hl). apply lines_join. rewrite Forall_forall. intros l Hin.
  apply In_nth_error in Hin. destruct Hin as (y & E). exact (line_ok_plain W _ l (Hl y l E)).
Qed.

Lemma maze_nth W ls s y : maze_text W ls s -> 0 <= y < 2 * W + 1 ->
  exists l, nth_error ls (Z.to_nat y) = Some l /\ line_ok W y l.
Proof.
  intros (_ & Hlen & Hl) Hy. unfold llen in Hlen.
  destruct (nth_error ls (Z.to_nat y)) as [l|] eqn:E; [|apply nth_error_None in E; lia].
  exists l. split; [reflexivity|]. specialize (Hl _ _ E). rewrite Z2Nat.id in Hl by lia. exact Hl.
Qed.

Lemma maze_allowed W ls s : 0 <= W -> maze_text W ls s ->
  Forall (allowed ls) (places W (2 * W + 1)).
Proof.
  intros HW Hm. rewrite Forall_forall. intros p Hp. apply in_flat_map in Hp.
  destruct Hp as (y & Hy & Hp). apply (in_range_inv (2 * W + 1)) in Hy.
  destruct (maze_nth W ls s y Hm Hy) as (l & E & Hl).
  apply (ok_l_allowed ls W y l); [exact E|exact Hp|].
  pose proof (line_ok_places W y l HW Hl) as Hf. rewrite Forall_forall in Hf. now apply Hf.
Qed.

(** what is drawn is what [wall_at] says. *)
Lemma drawn_at W ls y x l e : 0 <= y < 2 * W -> 0 <= x < W -> nth_error ls (Z.to_nat y) = Some l ->
  (drawn W ls (wall_at W y x) e <-> at_col l (4 * x + 1) (pic y e)).
Proof.
  intros Hy Hx E. unfold drawn.
  destruct (wall_at_inv W _ (wall_at_valid W y x Hy Hx)) as (_ & _ & _ & Ey & En).
  destruct (wall_at_line W y x Hy Hx) as [El Ex]. rewrite El in Ey, En. rewrite El.
  unfold wall_col. rewrite Ex, Ey, En. apply stands_at. exact E.
Qed.

Lemma map_lines_drawn W st c : supported W -> valid W c -> drawn W (map_lines W st) c (seen st c).
Proof.
  intros HW Hc. pose proof (supported_bounds W HW) as HB.
  destruct (wall_at_inv W c Hc) as (Hy & Hx & Ec & _).
  set (y := wall_line W c) in *. set (x := cx c / 2) in *.
  rewrite Ec. pose proof (nth_map_lines W st y ltac:(lia)) as En.
  apply (drawn_at W _ y x _ _ Hy Hx En).
  unfold map_line, body. destruct (p_lens y) as (Ly & Ln & Lf & _).
  replace (4 * x + 1) with (llen (p_first y) + 4 * Z.of_nat (Z.to_nat x)) by (unfold llen; lia).
  apply at_col_app, concat_at.
  - rewrite Forall_forall. intros p Hp. apply in_map_iff in Hp. destruct Hp as (x' & <- & _).
    unfold pic. destruct (y =? 2 * W), (seen st (wall_at W y x')); try assumption; reflexivity.
  - rewrite (map_nth_error _ _ _ (d := x)).
    + destruct (Z.eqb_spec y (2 * W)); [lia|reflexivity].
    + change (range W) with (upto W). rewrite nth_upto by lia. f_equal. lia.
Qed.

Lemma nth_error_ext {A} (a : list A) : forall b, (forall i, nth_error a i = nth_error b i) -> a = b.
Proof.
  induction a as [|x a IH]; intros [|y b] H; [reflexivity|specialize (H O); discriminate| |].
  - specialize (H O); discriminate.
  - pose proof (H O) as H0. cbn in H0. injection H0 as ->. f_equal. apply IH. intros i. exact (H (S i)).
Qed.

Lemma maze_det W ls s st : supported W -> maze_text W ls s ->
  (forall c, valid W c -> drawn W ls c (seen st c)) -> ls = map_lines W st.
Proof.
  intros HW Hm Hd. pose proof (supported_bounds W HW) as HB.
  assert (Hlen : List.length ls = Z.to_nat (2 * W + 1)) by (destruct Hm as (_ & H & _); unfold llen in H; lia).
  apply nth_error_ext. intros i.
  destruct (Nat.ltb_spec i (Z.to_nat (2 * W + 1))) as [Hi|Hi].
  - pose proof (nth_map_lines W st (Z.of_nat i) ltac:(lia)) as En. rewrite Nat2Z.id in En. rewrite En.
    destruct (maze_nth W ls s (Z.of_nat i) Hm ltac:(lia)) as (l & E & Hl). rewrite Nat2Z.id in E. rewrite E.
    f_equal. unfold map_line. apply line_det; [lia|exact Hl|]. intros x Hx.
    destruct (Z.eqb_spec (Z.of_nat i) (2 * W)) as [Ei|Ni].
    + split; [|reflexivity]. pose proof (line_ok_places W _ l ltac:(lia) Hl) as Hf.
      inversion Hf as [|? ? _ Hf']; subst. rewrite Forall_forall in Hf'.
      destruct (Hf' (Place (Z.of_nat i) (4 * x + 1) (pieces W (Z.of_nat i)))) as (t & Ht & Hat).
      * apply in_map_iff. exists x. split; [reflexivity|]. apply (in_range W). exact Hx.
      * cbn in Ht, Hat. unfold pieces in Ht. rewrite Ei, Z.eqb_refl in Ht. destruct Ht as [<-|[]]. exact Hat.
    + split.
      * apply (drawn_at W ls (Z.of_nat i) x l); [lia|lia|rewrite Nat2Z.id; exact E|].
        apply Hd, wall_at_valid; lia.
      * unfold pic. destruct (p_lens (Z.of_nat i)) as (Ly & Ln & _). destruct (seen st _); assumption.
  - rewrite (proj2 (nth_error_None ls i)) by lia.
    symmetry. apply nth_error_None. unfold map_lines. rewrite map_length, upto_len by lia. lia.
Qed.

Lemma parse_maze W ls s : supported W -> maze_text W ls s ->
  exists w f, walls_parse W s = Ret (inl w) /\ holds W w (fun c => Checked (f c)) /\
    (forall c, valid W c -> drawn W ls c (f c)) /\ walls_display W w = Ret s.
Proof.
  intros HW Hm. pose proof (supported_bounds W HW) as HB.
  pose proof (maze_lines W ls s Hm) as El.
  pose proof (parse_spec W s HW) as Hp. cbv zeta in Hp. rewrite El in Hp.
  assert (Hn : llen ls = 2 * W + 1) by apply Hm.
  rewrite Hn, Z.min_id in Hp.
  destruct Hp as [(w & st & E & Hh & _ & Hd & _)|(e & _ & (pre & p & post & Ep & _ & Hno & _))].
  - exists w, (seen st).
    assert (Hst : forall c, valid W c -> drawn W ls c (seen st c) /\ st c = Checked (seen st c)).
    { intros c Hc. destruct (wall_at_inv W c Hc) as (Hl & _).
      destruct (Hd c Hc ltac:(lia)) as (e & H1 & H2). unfold seen. rewrite H2. destruct e; auto. }
    split; [exact E|]. split.
    { eapply holds_ext; [|exact Hh]. intros c Hc. apply Hst, Hc. }
    split; [intros c Hc; apply Hst, Hc|].
    rewrite (display_ok W w st HW Hh). f_equal. rewrite <- (maze_det W ls s st HW Hm).
    + symmetry. apply Hm.
    + intros c Hc. apply Hst, Hc.
  - exfalso. apply Hno. pose proof (maze_allowed W ls s ltac:(lia) Hm) as Hf.
    rewrite Forall_forall in Hf. apply Hf. rewrite Ep. apply in_elt.
Qed.

Lemma drawn_det W ls c e e' : drawn W ls c e -> drawn W ls c e' -> e = e'.
Proof.
  intros (l & p & q & E & E1 & H1) (l' & p' & q' & E' & E1' & H1').
  rewrite E in E'. injection E' as <-.
  assert (Hl : forall b : bool, List.length (if b then wall_yes c else wall_no c) = 4%nat).
  { intros b. unfold wall_yes, wall_no. destruct b, (Z.odd (cy c)); reflexivity. }
  assert (H : (if e then wall_yes c else wall_no c) = (if e' then wall_yes c else wall_no c)).
  { eapply (at_col_det l); [exists p, q; eauto|exists p', q'; eauto|]. rewrite !Hl. reflexivity. }
  revert H. unfold wall_yes, wall_no. destruct e, e', (Z.odd (cy c)); cbn; congruence.
Qed.

Lemma display_parse W w st : supported W -> holds W w st ->
  exists s ls w', walls_display W w = Ret s /\ maze_text W ls s /\ walls_parse W s = Ret (inl w') /\
    (forall c, valid W c -> drawn W ls c (is_checked_true (st c))) /\
    holds W w' (fun c => Checked (is_checked_true (st c))).
Proof.
  intros HW Hh. pose proof (map_lines_maze W st HW) as Hm.
  destruct (parse_maze W _ _ HW Hm) as (w' & f & Ep & Hh' & Hd & _).
  eexists _, _, w'. split; [apply (display_ok W w st HW Hh)|]. split; [exact Hm|].
  split; [exact Ep|]. split; [intros c Hc; apply (map_lines_drawn W st c HW Hc)|].
  eapply holds_ext; [|exact Hh']. intros c Hc. cbn. f_equal.
  eapply drawn_det; [apply Hd, Hc|apply map_lines_drawn; assumption].
Qed.
