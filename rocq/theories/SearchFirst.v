(** [shortest_path] returns the first of the shortest routes. *)
From Coq Require Import ZArith List Bool Lia ZifyBool Sorting.Sorted Arith.
From Verif Require Import Base SearchModel SearchSpec SearchCoord SearchBfs SearchBfsInv SearchPath FirstSpec.
Import ListNotations.
Open Scope Z_scope.

(** ** The order of the runs from a wall as a number *)
Definition rank (c d : coord) : Z :=
  let dx := cx d - cx c in let dy := cy d - cy c in
  1000 * (if dx =? dy then if 0 <? dx then 0 else 1
          else if dx =? - dy then if dx <? 0 then 2 else 3
          else if 0 <? dx + dy then 4 else 5) + (Z.abs dx + Z.abs dy).

Definition vidx (v : Z * Z) : Z :=
  if fst v =? snd v then if 0 <? fst v then 0 else 1
  else if fst v =? - snd v then if fst v <? 0 then 2 else 3
  else if 0 <? fst v + snd v then 4 else 5.

Lemma rank_shift c v k n : In v (kdirs c k) -> 1 <= n ->
  rank c (shift c v n) = 1000 * vidx v + (Z.abs (fst v) + Z.abs (snd v)) * n.
Proof.
  intros Hv Hn. apply kdirs_vals in Hv. unfold rank, shift. cbn [cx cy].
  replace (cx c + n * fst v - cx c) with (n * fst v) by ring.
  replace (cy c + n * snd v - cy c) with (n * snd v) by ring.
  destruct Hv as [->|[->|[->|[->|[->|[->|[->| ->]]]]]]]; cbn [fst snd];
    match goal with |- context [vidx ?x] => let t := eval compute in (vidx x) in change (vidx x) with t end;
    repeat match goal with |- context [if ?b then _ else _] => destruct b eqn:? end; lia.
Qed.

Fixpoint rlex (c : coord) (l m : list coord) : Prop :=
  match l, m with
  | a :: l', b :: m' => rank c a < rank c b \/ (a = b /\ rlex a l' m')
  | _, _ => False
  end.

Lemma rlex_app : forall l m c x y, rlex c l m -> rlex c (l ++ x) (m ++ y).
Proof.
  induction l as [|a l IH]; intros [|b m] c x y H; cbn in *; try contradiction.
  destruct H as [H|[-> H]]; [now left|right]. split; [reflexivity|]. now apply IH.
Qed.

Lemma rlex_end : forall l c a b, rank (last l c) a < rank (last l c) b -> rlex c (l ++ [a]) (l ++ [b]).
Proof.
  induction l as [|x l IH]; intros c a b H; cbn [app rlex]; [now left|right].
  split; [reflexivity|]. apply IH. now rewrite last_cons in H.
Qed.

Lemma rlex_trans : forall l m n c, rlex c l m -> rlex c m n -> rlex c l n.
Proof.
  induction l as [|a l IH]; intros [|b m] [|d n] c H1 H2; cbn in *; try contradiction.
  destruct H1 as [H1|[-> H1]], H2 as [H2|[-> H2]]; [left; lia|now left|now left|right].
  split; [reflexivity|]. now apply IH with m.
Qed.

Lemma rlex_irrefl : forall l c, ~ rlex c l l.
Proof.
  induction l as [|a l IH]; intros c H; cbn in H; [exact H|]. destruct H as [H|[_ H]]; [lia|]. exact (IH a H).
Qed.

(** ** The neighbours come in this order *)
Lemma new_relative_some W c dx dy d : supported W -> on_board W c -> new_relative W c dx dy = Ret (Some d) ->
  d = Co (cx c + dx) (cy c + dy) /\ on_board W d.
Proof.
  intros HW Hc. pose proof (supported_bounds W HW) as HB. unfold on_board in Hc. unfold new_relative.
  rewrite (as_i8_small (cx c)), (as_i8_small (cy c)), (as_i8_small W) by lia.
  unfold checked_add_i8. destruct ((-128 <=? cx c + dx) && (cx c + dx <=? 127)) eqn:E1; [|discriminate].
  destruct ((-128 <=? cy c + dy) && (cy c + dy <=? 127)) eqn:E2; [|discriminate].
  destruct ((cx c + dx <? 0) || (cy c + dy <? 0)) eqn:E3; [discriminate|].
  rewrite chk_i8_ok by lia. cbn [bind].
  destruct ((2 * W <=? cx c + dx) || (2 * W <=? cy c + dy)) eqn:E4; [discriminate|].
  intros E. injection E as <-. split; [reflexivity|]. unfold on_board. cbn [cx cy]. lia.
Qed.

Section Sorted.
Variable W : Z.
Hypothesis HW : supported W.
Variable openr : coord -> res bool.

Lemma ext_seq_list ex c v k : on_board W c ->
  forall n i acc r, ext_seq n W openr ex c (fst v) (snd v) k i acc = Ret r ->
  exists l, r = acc ++ map (fun j => (shift c v j, k)) l /\ StronglySorted Z.lt l /\
    Forall (fun j => i <= j /\ on_board W (shift c v j)) l.
Proof.
  intros Hc. induction n as [|n IH]; intros i acc r E; cbn [ext_seq] in E; [discriminate|].
  unfold range_next, chk_i8 in E. destruct ((-128 <=? i + 1) && (i + 1 <=? 127)); cbn [bind] in E; [|discriminate].
  destruct ((-128 <=? fst v * i) && (fst v * i <=? 127)); cbn [bind] in E; [|discriminate].
  destruct ((-128 <=? snd v * i) && (snd v * i <=? 127)); cbn [bind] in E; [|discriminate].
  assert (Stop : Ret acc = Ret r -> exists l, r = acc ++ map (fun j => (shift c v j, k)) l /\ StronglySorted Z.lt l /\
    Forall (fun j => i <= j /\ on_board W (shift c v j)) l).
  { intros X. injection X as <-. exists []. cbn [map]. rewrite app_nil_r. repeat constructor. }
  destruct (kget ex k); [exact (Stop E)|].
  destruct (new_relative W c (fst v * i) (snd v * i)) as [[d|]| |] eqn:Ed; cbn [bind] in E; try discriminate; [|exact (Stop E)].
  apply new_relative_some in Ed as [-> Bd]; [|exact HW|exact Hc].
  replace (Co (cx c + fst v * i) (cy c + snd v * i)) with (shift c v i) in * by (apply coord_ext; simpl; ring).
  destruct (openr (shift c v i)) as [[|]| |]; cbn [bind] in E; try discriminate; [|exact (Stop E)].
  unfold vpush in E. destruct (llen acc <? EXT_CAP); cbn [bind] in E; [|discriminate].
  destruct (IH _ _ _ E) as (l & -> & S & F). exists (i :: l). cbn [map]. rewrite <- app_assoc. split; [reflexivity|]. split.
  - constructor; [exact S|]. apply Forall_impl with (2 := F). intros j [H _]. lia.
  - constructor; [split; [lia|exact Bd]|]. apply Forall_impl with (2 := F). intros j [H B]. split; [lia|exact B].
Qed.

Definition inorder (c : coord) (a b : coord * nkind) : Prop := rank c (fst a) < rank c (fst b).

Lemma sorted_two {A} (R : A -> A -> Prop) l m : StronglySorted R l -> StronglySorted R m -> (forall a b, In a l -> In b m -> R a b) -> StronglySorted R (l ++ m).
Proof.
  intros S1 S2 H. induction S1 as [|a l S IH F]; cbn [app]; [exact S2|]. constructor.
  - apply IH. intros x y Hx Hy. apply H; [now right|exact Hy].
  - apply Forall_app. split; [exact F|]. apply Forall_forall. intros b Hb. apply H; [now left|exact Hb].
Qed.

Lemma ext_list_sorted ex c : on_board W c -> forall vs acc r, ext_list W openr ex c vs acc = Ret r ->
  Forall (fun p => In (fst p) (kdirs c (snd p))) vs -> StronglySorted (fun p q => vidx (fst p) < vidx (fst q)) vs ->
  StronglySorted (inorder c) acc -> (forall a p, In a acc -> In p vs -> rank c (fst a) < 1000 * vidx (fst p)) ->
  StronglySorted (inorder c) r.
Proof.
  intros Hc. induction vs as [|[v k] vs IH]; intros acc r E Hv Sv Sa Ha; cbn [ext_list] in E.
  { injection E as <-. exact Sa. }
  destruct (ext_seq _ _ _ _ _ _ _ _ _ _) as [a| |] eqn:Ea; cbn [bind] in E; try discriminate.
  inversion_clear Hv as [|? ? Hk Hv']. cbn [fst snd] in Hk. inversion_clear Sv as [|? ? Sv' Fv].
  destruct (ext_seq_list _ _ _ _ Hc _ _ _ _ Ea) as (l & -> & Sl & Fl). rewrite Forall_forall in Fl.
  assert (Rk : forall j, In j l -> 1000 * vidx v < rank c (shift c v j) < 1000 * vidx v + 1000).
  { intros j Hj. destruct (Fl j Hj) as [J [B1 B2]]. rewrite (rank_shift c v k) by assumption.
    pose proof (supported_bounds W HW). unfold on_board, shift in *. cbn [cx cy] in *. clear - Hk J B1 B2 H Hc.
    apply kdirs_vals in Hk. destruct Hk as [->|[->|[->|[->|[->|[->|[->| ->]]]]]]]; cbn [fst snd] in *; lia. }
  apply (IH _ _ E Hv' Sv').
  - apply sorted_two; [exact Sa| |].
    + clear - Sl Fl Hk Rk. induction Sl as [|j l S IHl F]; cbn [map]; constructor.
      * apply IHl; [intros x Hx; apply Fl; now right|intros x Hx; apply Rk; now right].
      * apply Forall_forall. intros x Hx. apply in_map_iff in Hx as (m & <- & Hm). unfold inorder. cbn [fst].
        rewrite Forall_forall in F. specialize (F m Hm). destruct (Fl j (or_introl eq_refl)) as [J _].
        rewrite !(rank_shift c v k) by (assumption || lia).
        apply kdirs_vals in Hk. destruct Hk as [->|[->|[->|[->|[->|[->|[->| ->]]]]]]]; cbn [fst snd]; lia.
    + intros x y Hx Hy. apply in_map_iff in Hy as (m & <- & Hm). unfold inorder. cbn [fst].
      specialize (Ha x (v, k) Hx (or_introl eq_refl)). cbn [fst] in Ha. specialize (Rk m Hm). lia.
  - intros x p Hx Hp. apply in_app_iff in Hx as [Hx|Hx]; [apply Ha; [exact Hx|now right]|].
    apply in_map_iff in Hx as (m & <- & Hm). cbn [fst]. specialize (Rk m Hm).
    rewrite Forall_forall in Fv. specialize (Fv p Hp). cbn [fst] in Fv. lia.
Qed.

Lemma neighbours_sorted ex c ns : on_board W c -> extended_neighbors W openr ex c = Ret ns -> StronglySorted (inorder c) ns.
Proof.
  intros Hc E. rewrite extended_neighbors_list in E. apply (ext_list_sorted ex c Hc _ _ _ E).
  - apply Forall_forall. intros [v k] H. now apply ext_dirs_ok.
  - unfold ext_dirs. destruct (Z.odd (cy c)); cbn [app]; repeat (constructor; [|repeat (constructor; [reflexivity|]); constructor]); constructor.
  - constructor.
  - intros a p [].
Qed.
End Sorted.
