(** Proofs about [extended_neighbors], [bfs_tree] and [shortest_path]. *)
From Coq Require Import ZArith List Bool Lia ZifyBool Sorting.Sorted FinFun Arith.
From Verif Require Import Base SearchModel SearchSpec SearchCoord.
Import ListNotations.
Open Scope Z_scope.
Ltac Zify.zify_post_hook ::= Z.div_mod_to_equations.

Lemma SEQ_FUEL_val : Z.of_nat SEQ_FUEL = 128.
Proof. reflexivity. Qed.
Lemma SEQ_FUEL_S : exists n, SEQ_FUEL = S n.
Proof. now exists (pred SEQ_FUEL). Qed.
Lemma BFS_FUEL_val : Z.of_nat BFS_FUEL = QUE_MAX + 1.
Proof. unfold BFS_FUEL. rewrite Z2Nat.id; [reflexivity|]. unfold QUE_MAX, WIDTH; lia. Qed.
#[global] Opaque SEQ_FUEL BFS_FUEL.

(** ** Geometry of runs *)

Definition kdirs (c : coord) (k : nkind) : list (Z * Z) :=
  match k with
  | VerticalOrHorizontal => straight_dirs c
  | BottomLeftToTopRight => [(1, 1); (-1, -1)]
  | TopLeftToBottomRight => [(-1, 1); (1, -1)]
  end.

Lemma dirs_kdirs c v : In v (dirs c) <-> exists k, In v (kdirs c k).
Proof.
  unfold dirs. rewrite in_app_iff. split.
  - intros [H|H].
    + simpl in H. destruct H as [H|[H|[H|[H|[]]]]].
      * exists BottomLeftToTopRight; simpl; auto.
      * exists BottomLeftToTopRight; simpl; auto.
      * exists TopLeftToBottomRight; simpl; auto.
      * exists TopLeftToBottomRight; simpl; auto.
    + exists VerticalOrHorizontal; exact H.
  - intros [[] H]; [right; exact H| |]; simpl in H; simpl; tauto.
Qed.

Definition neg (v : Z * Z) : Z * Z := (- fst v, - snd v).

Lemma kdirs_two c k v v' : In v (kdirs c k) -> In v' (kdirs c k) -> v' = v \/ v' = neg v.
Proof.
  unfold kdirs, straight_dirs, neg. destruct k; [destruct (Z.odd (cy c))| |]; simpl;
  intros [<-|[<-|[]]] [<-|[<-|[]]]; auto.
Qed.

Lemma kdirs_neg c k v : In v (kdirs c k) -> In (neg v) (kdirs c k).
Proof.
  unfold kdirs, straight_dirs, neg. destruct k; [destruct (Z.odd (cy c))| |]; simpl;
  intros [<-|[<-|[]]]; auto.
Qed.

Lemma kdirs_vals c k v : In v (kdirs c k) ->
  v = (1, 1) \/ v = (-1, -1) \/ v = (-1, 1) \/ v = (1, -1) \/
  v = (0, 2) \/ v = (0, -2) \/ v = (2, 0) \/ v = (-2, 0).
Proof.
  unfold kdirs, straight_dirs. destruct k; [destruct (Z.odd (cy c))| |]; simpl;
  intros [<-|[<-|[]]]; tauto.
Qed.

Lemma kdirs_even c k v : In v (kdirs c k) -> Z.even (fst v + snd v) = true.
Proof.
  intros H; destruct (kdirs_vals c k v H) as [->|[->|[->|[->|[->|[->|[->| ->]]]]]]]; reflexivity.
Qed.

Lemma shift_parity c k v n : In v (kdirs c k) ->
  Z.odd (cx (shift c v n) + cy (shift c v n)) = Z.odd (cx c + cy c).
Proof.
  intros H. pose proof (kdirs_even c k v H) as E. unfold shift; simpl.
  replace (cx c + n * fst v + (cy c + n * snd v)) with ((cx c + cy c) + n * (fst v + snd v)) by ring.
  rewrite Z.odd_add, Z.odd_mul, <- (Z.negb_even (fst v + snd v)), E. simpl.
  now rewrite andb_false_r, xorb_false_r.
Qed.

Lemma shift_valid W c k v n : valid W c -> In v (kdirs c k) -> on_board W (shift c v n) ->
  valid W (shift c v n).
Proof. intros [_ P] H B. split; [exact B|]. now rewrite (shift_parity c k). Qed.

Lemma kdirs_shift c k v n : In v (kdirs c k) -> kdirs (shift c v n) k = kdirs c k.
Proof.
  destruct k; try reflexivity. simpl. unfold straight_dirs, shift; simpl.
  destruct (Z.odd (cy c)) eqn:E; simpl; intros [<-|[<-|[]]]; simpl;
    rewrite Z.odd_add, Z.odd_mul, E, ?andb_false_r, ?xorb_false_r, ?Z.mul_0_r; reflexivity.
Qed.

Lemma shift_shift c v n m : shift (shift c v n) v m = shift c v (n + m).
Proof. apply coord_ext; simpl; ring. Qed.

Lemma shift_neg c v n : shift c (neg v) n = shift c v (- n).
Proof. apply coord_ext; unfold neg; simpl; ring. Qed.

Lemma shift_0 c v : shift c v 0 = c.
Proof. apply coord_ext; simpl; ring. Qed.

Section Geometry.
Variable W : Z.
Variable op : coord -> bool.

Definition krun (k : nkind) (c d : coord) : Prop :=
  exists v, In v (kdirs c k) /\ run_along W op c v d.

Lemma run_krun c d : run W op c d <-> exists k, krun k c d.
Proof.
  unfold run, krun. split.
  - intros (v & Hv & R). apply dirs_kdirs in Hv as [k Hk]. eauto.
  - intros (k & v & Hv & R). exists v; split; [apply dirs_kdirs; eauto|exact R].
Qed.

Lemma krun_line k w u x : krun k w u -> krun k u x -> x = w \/ krun k w x.
Proof.
  intros (v & Hv & n & Hn & -> & On) (v' & Hv' & m & Hm & -> & Om).
  rewrite kdirs_shift in Hv' by exact Hv.
  destruct (kdirs_two w k v v' Hv Hv') as [->| ->].
  - right. exists v; split; [exact Hv|]. exists (n + m).
    rewrite shift_shift. repeat split; [lia|..];
    destruct (Z_le_dec k0 n) as [L|G]; try (now apply On; lia);
    specialize (Om (k0 - n)); rewrite shift_shift in Om;
    replace (n + (k0 - n)) with k0 in Om by ring; apply Om; lia.
  - rewrite shift_neg, shift_shift.
    assert (Om' : forall q, 1 <= q <= m -> on_board W (shift w v (n - q)) /\ op (shift w v (n - q)) = true).
    { intros q Hq. specialize (Om q Hq). rewrite shift_neg, shift_shift in Om.
      now replace (n - q) with (n + - q) by ring. }
    destruct (Z.lt_trichotomy m n) as [L|[->|G]].
    + right. exists v; split; [exact Hv|]. exists (n + - m). repeat split; [lia|..]; apply On; lia.
    + left. replace (n + - n) with 0 by ring. apply shift_0.
    + right. exists (neg v); split; [exact Hv'|]. exists (m - n).
      split; [lia|]. split; [rewrite shift_neg; f_equal; ring|].
      intros q Hq. rewrite shift_neg. replace (- q) with (n - (n + q)) by ring. apply Om'; lia.
Qed.

Lemma run_valid c d : valid W c -> run W op c d -> valid W d /\ op d = true.
Proof.
  intros Hc H. apply run_krun in H as (k & v & Hv & n & Hn & -> & O).
  destruct (O n ltac:(lia)) as [B Ho]. split; [|exact Ho].
  now apply (shift_valid W c k).
Qed.

Lemma krun_board k c v d : In v (kdirs c k) -> run_along W op c v d ->
  on_board W d /\ op d = true.
Proof. intros Hv (n & Hn & -> & O). apply O; lia. Qed.

End Geometry.

(** ** extended_neighbors *)

Section Ext.
Variable W : Z.
Hypothesis HW : supported W.
Variable openr : coord -> res bool.
Variable op : coord -> bool.
Hypothesis Hop : forall c, valid W c -> openr c = Ret (op c).

Lemma ext_seq_ok ex c v k M : valid W c -> In v (kdirs c k) -> kget ex k = false ->
  (forall j, 1 <= j -> on_board W (shift c v j) -> j <= M) ->
  0 <= M -> Z.abs (fst v) * (M + 1) <= 64 -> Z.abs (snd v) * (M + 1) <= 64 -> M <= 64 ->
  forall n i acc, 1 <= i <= M + 1 -> M + 2 - i <= Z.of_nat n ->
  llen acc + (M + 1 - i) <= EXT_CAP ->
  exists l, ext_seq n W openr ex c (fst v) (snd v) k i acc = Ret (acc ++ map (fun d => (d, k)) l)
    /\ llen l <= M + 1 - i
    /\ forall d, In d l <-> exists j, i <= j /\ d = shift c v j /\
         forall q, i <= q <= j -> on_board W (shift c v q) /\ op (shift c v q) = true.
Proof.
  intros Hc Hv Hex HM HM0 Hx Hy HM64. induction n as [|n IH]; intros i acc Hi Hn Hcap; [lia|].
  cbn [ext_seq]. unfold range_next.
  assert (Bx : -64 <= fst v * i <= 64) by nia.
  assert (By : -64 <= snd v * i <= 64) by nia.
  rewrite !chk_i8_ok by lia. cbn [bind]. rewrite Hex.
  rewrite new_relative_ok by (assumption || apply Hc). cbn [bind].
  replace (Co (cx c + fst v * i) (cy c + snd v * i)) with (shift c v i)
    by (apply coord_ext; simpl; ring).
  destruct (board_b_spec W (shift c v i)) as [B|B].
  - rewrite Hop by (now apply (shift_valid W c k)). cbn [bind].
    destruct (op (shift c v i)) eqn:E.
    + assert (Hi' : i <= M) by (apply HM; [lia|exact B]).
      rewrite vpush_ok by lia. cbn [bind].
      destruct (IH (i + 1) (acc ++ [(shift c v i, k)])) as (l & El & Ll & Hl);
        [lia|lia| rewrite llen_app; unfold llen at 2; simpl; lia|].
      exists (shift c v i :: l). split; [rewrite El; simpl; now rewrite <- app_assoc|].
      split; [unfold llen in *; simpl; lia|].
      intros d. simpl. rewrite Hl. split.
      * intros [<-|(j & Hj & -> & O)].
        -- exists i. split; [lia|]. split; [reflexivity|]. intros q Hq.
           replace q with i by lia. auto.
        -- exists j. split; [lia|]. split; [reflexivity|]. intros q Hq.
           destruct (Z.eq_dec q i) as [->|]; [auto|]. apply O; lia.
      * intros (j & Hj & -> & O). destruct (Z.eq_dec j i) as [->|]; [now left|].
        right. exists j. split; [lia|]. split; [reflexivity|]. intros q Hq. apply O; lia.
    + exists []. rewrite app_nil_r. split; [reflexivity|]. split; [unfold llen; simpl; lia|].
      intros d; split; [intros []|]. intros (j & Hj & _ & O).
      destruct (O i ltac:(lia)); congruence.
  - exists []. rewrite app_nil_r. split; [reflexivity|]. split; [unfold llen; simpl; lia|].
    intros d; split; [intros []|]. intros (j & Hj & _ & O).
    destruct (O i ltac:(lia)); contradiction.
Qed.

Lemma ext_seq1 ex c v k M acc : valid W c -> In v (kdirs c k) ->
  (forall j, 1 <= j -> on_board W (shift c v j) -> j <= M) ->
  0 <= M -> Z.abs (fst v) * (M + 1) <= 64 -> Z.abs (snd v) * (M + 1) <= 64 -> M <= 64 ->
  llen acc + M <= EXT_CAP ->
  exists l, ext_seq SEQ_FUEL W openr ex c (fst v) (snd v) k 1 acc = Ret (acc ++ l)
    /\ llen l <= M
    /\ forall d k', In (d, k') l <-> k' = k /\ kget ex k = false /\ run_along W op c v d.
Proof.
  intros Hc Hv HM HM0 Hx Hy HM64 Hcap.
  destruct (kget ex k) eqn:E.
  - exists []. rewrite app_nil_r. split; [|split; [unfold llen; simpl; lia|]].
    + destruct SEQ_FUEL_S as [n ->]. cbn [ext_seq]. unfold range_next.
      rewrite !chk_i8_ok by lia. cbn [bind]. now rewrite E.
    + intros d k'; split; [intros []|intuition congruence].
  - destruct (ext_seq_ok ex c v k M Hc Hv E HM HM0 Hx Hy HM64 SEQ_FUEL 1 acc)
      as (l & El & Ll & Hl); [lia| rewrite SEQ_FUEL_val; lia |lia|].
    exists (map (fun d => (d, k)) l). split; [exact El|].
    split; [unfold llen in *; rewrite map_length; lia|].
    intros d k'. rewrite in_map_iff. split.
    + intros (d' & Eq & Hd). injection Eq as -> ->. split; [reflexivity|]. split; [reflexivity|].
      apply Hl in Hd as (j & Hj & -> & O). exists j. auto.
    + intros (-> & _ & j & Hj & -> & O). exists (shift c v j). split; [reflexivity|].
      apply Hl. exists j. auto.
Qed.

Definition ray_max (c : coord) (v : Z * Z) : Z :=
  if 0 <? fst v then (2 * W - 1 - cx c) / fst v
  else if fst v <? 0 then cx c / (- fst v)
  else if 0 <? snd v then (2 * W - 1 - cy c) / snd v
  else cy c / (- snd v).

Lemma ray_max_ok c k v : valid W c -> In v (kdirs c k) ->
  (forall j, 1 <= j -> on_board W (shift c v j) -> j <= ray_max c v) /\
  0 <= ray_max c v /\ Z.abs (fst v) * (ray_max c v + 1) <= 64 /\
  Z.abs (snd v) * (ray_max c v + 1) <= 64 /\ ray_max c v <= 64.
Proof.
  clear Hop openr op.
  intros [[Bx By] _] Hv. pose proof (supported_bounds W HW) as HB.
  apply kdirs_vals in Hv.
  destruct Hv as [->|[->|[->|[->|[->|[->|[->| ->]]]]]]]; unfold ray_max; simpl;
    (split; [unfold on_board, shift; simpl; intros; lia|lia]).
Qed.

Lemma ext_seq2 ex c v k acc : valid W c -> In v (kdirs c k) ->
  llen acc + ray_max c v <= EXT_CAP ->
  exists l, ext_seq SEQ_FUEL W openr ex c (fst v) (snd v) k 1 acc = Ret (acc ++ l)
    /\ llen l <= ray_max c v
    /\ forall d k', In (d, k') l <-> k' = k /\ kget ex k = false /\ run_along W op c v d.
Proof.
  intros Hc Hv Hcap. destruct (ray_max_ok c k v Hc Hv) as (A & B & C & D & E).
  now apply (ext_seq1 ex c v k (ray_max c v) acc).
Qed.

Fixpoint ext_list (ex : kset) (c : coord) (vs : list (Z * Z * nkind)) acc :=
  match vs with
  | [] => Ret acc
  | (v, k) :: vs' =>
    let* a := ext_seq SEQ_FUEL W openr ex c (fst v) (snd v) k 1 acc in ext_list ex c vs' a
  end.

Fixpoint ray_sum (c : coord) (vs : list (Z * Z * nkind)) : Z :=
  match vs with [] => 0 | (v, _) :: vs' => ray_max c v + ray_sum c vs' end.

Lemma ext_list_ok ex c vs : valid W c -> Forall (fun p => In (fst p) (kdirs c (snd p))) vs ->
  forall acc, llen acc + ray_sum c vs <= EXT_CAP ->
  exists l, ext_list ex c vs acc = Ret (acc ++ l) /\
  forall d k, In (d, k) l <-> kget ex k = false /\ exists v, In (v, k) vs /\ run_along W op c v d.
Proof.
  intros Hc. induction vs as [|[v k] vs IH]; intros Hvs acc Hs; simpl.
  - exists []. rewrite app_nil_r. split; [reflexivity|]. intros d k; split; [intros []|].
    intros (_ & v & [] & _).
  - inversion_clear Hvs as [|? ? Hv Hvs']. simpl in Hv, Hs.
    assert (Hpos : 0 <= ray_sum c vs).
    { clear - HW Hc Hvs'. induction Hvs' as [|[v k] vs Hv Hvs IH]; simpl; [lia|].
      simpl in Hv. destruct (ray_max_ok c k v Hc Hv) as (_ & B & _). lia. }
    destruct (ext_seq2 ex c v k acc Hc Hv ltac:(lia)) as (l1 & -> & L1 & H1). cbn [bind].
    destruct (IH Hvs' (acc ++ l1)) as (l2 & E2 & H2); [rewrite llen_app; lia|].
    exists (l1 ++ l2). split; [rewrite E2; now rewrite app_assoc|].
    intros d k'. rewrite in_app_iff, H1, H2. split.
    + intros [(-> & E & R)|(E & v' & I & R)]; (split; [exact E|]); eauto.
    + intros (E & v' & [I|I] & R).
      * injection I as -> ->. auto.
      * right. split; [exact E|]. eauto.
Qed.

Definition ext_dirs (c : coord) : list (Z * Z * nkind) :=
  [((1, 1), BottomLeftToTopRight); ((-1, -1), BottomLeftToTopRight);
   ((-1, 1), TopLeftToBottomRight); ((1, -1), TopLeftToBottomRight)] ++
  (if Z.odd (cy c) then [((0, 2), VerticalOrHorizontal); ((0, -2), VerticalOrHorizontal)]
   else [((2, 0), VerticalOrHorizontal); ((-2, 0), VerticalOrHorizontal)]).

Lemma ext_dirs_ok c v k : In (v, k) (ext_dirs c) <-> In v (kdirs c k).
Proof.
  unfold ext_dirs, kdirs, straight_dirs. rewrite in_app_iff.
  destruct (Z.odd (cy c)); simpl; split.
  all: try (intros [[H|[H|[H|[H|[]]]]]|[H|[H|[]]]]; injection H as <- <-; simpl; auto).
  all: destruct k; simpl; intros [<-|[<-|[]]]; auto 10.
Qed.

Lemma bind_assoc {A B C} (m : res A) (f : A -> res B) (g : B -> res C) :
  bind (bind m f) g = bind m (fun a => bind (f a) g).
Proof. destruct m; reflexivity. Qed.

Lemma bind_ret_r {A} (m : res A) : bind m Ret = m.
Proof. destruct m; reflexivity. Qed.

Lemma extended_neighbors_list ex c :
  extended_neighbors W openr ex c = ext_list ex c (ext_dirs c) [].
Proof.
  unfold extended_neighbors, ext_dirs. rewrite is_top_odd.
  destruct (Z.odd (cy c)); cbn [app ext_list fst snd];
  repeat (match goal with |- bind ?m _ = bind ?m _ => destruct m; [cbn [bind]|reflexivity|reflexivity] end);
  now rewrite bind_ret_r.
Qed.

Lemma extended_neighbors_ok ex c : valid W c ->
  exists l, extended_neighbors W openr ex c = Ret l /\
  forall d k, In (d, k) l <-> kget ex k = false /\ krun W op k c d.
Proof.
  intros Hc. rewrite extended_neighbors_list.
  destruct (ext_list_ok ex c (ext_dirs c) Hc) with (acc := @nil (coord * nkind)) as (l & E & H).
  - apply Forall_forall. intros [v k] Hi. now apply ext_dirs_ok.
  - pose proof (supported_bounds W HW). destruct Hc as [[? ?] _].
    change EXT_CAP with 192. unfold ext_dirs, llen.
    cbn [length].
    destruct (Z.odd (cy c)); cbn [app ray_sum fst snd]; unfold ray_max; cbn [fst snd];
      repeat match goal with |- context [?a <? ?b] => let t := eval compute in (a <? b) in change (a <? b) with t end;
      cbv iota; lia.
  - exists l. split; [exact E|]. intros d k. rewrite H. unfold krun.
    split; intros (E' & v & I & R); (split; [exact E'|]); exists v; (split; [|exact R]);
      now apply ext_dirs_ok.
Qed.

End Ext.
