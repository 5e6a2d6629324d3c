(** The run solver theorems over all nodes of the board, and a checker for concrete paths. *)
From Coq Require Import ZArith List Bool Lia Zify ZifyBool.
From Verif Require Import Base SearchModel SearchSpec SearchCoord RunModel RunSpec RunNode RunMoves RunTraj RunDijk.
Import ListNotations.
Open Scope Z_scope.

Definition dirs8 : list dir8 := [PN; PNE; PE; PSE; PS; PSW; PW; PNW].
Definition validb (n : node) : bool :=
  if is_diag (np n) then Z.odd (nx n + ny n) else Z.even (nx n) && Z.even (ny n).
Definition coords (W : Z) : list Z := map Z.of_nat (seq 0 (Z.to_nat (2 * W))).
Definition all_nodes (W : Z) : list node :=
  List.filter validb (flat_map (fun x => flat_map (fun y => map (fun p => Nde x y p) dirs8) (coords W)) (coords W)).

Lemma coords_in W x : In x (coords W) <-> 0 <= x < 2 * W.
Proof.
  unfold coords. rewrite in_map_iff. split.
  - intros (i & <- & Hi). apply in_seq in Hi. lia.
  - intros H. exists (Z.to_nat x). split; [lia|]. apply in_seq. lia.
Qed.

Lemma all_nodes_in W n : In n (all_nodes W) <-> valid_node W n.
Proof.
  unfold all_nodes. rewrite filter_In, in_flat_map. unfold valid_node.
  assert (Hb : validb n = true <-> (if is_diag (np n) then Z.odd (nx n + ny n) = true
   else Z.even (nx n) = true /\ Z.even (ny n) = true)).
  { unfold validb. destruct (is_diag (np n)); [reflexivity|]. apply andb_true_iff. }
  rewrite Hb. split.
  - intros [(x & Hx & H) Hv]. apply in_flat_map in H. destruct H as (y & Hy & H).
    apply in_map_iff in H. destruct H as (p & <- & _). cbn [nx ny np] in *.
    apply coords_in in Hx, Hy. auto.
  - intros (Hx & Hy & Hv). split; [|exact Hv].
    exists (nx n). split; [now apply coords_in|]. apply in_flat_map.
    exists (ny n). split; [now apply coords_in|]. apply in_map_iff. exists (np n).
    split; [destruct n; reflexivity|]. destruct (np n); cbn; auto 10.
Qed.

Lemma all_nodes_len W : supported W -> llen (all_nodes W) = 12 * W * W.
Proof. intros HW. destruct_supported HW; vm_compute; reflexivity. Qed.

Definition dir_eqb (p q : dir8) : bool := dir_num p =? dir_num q.
Definition node_eqb (a b : node) : bool := (nx a =? nx b) && (ny a =? ny b) && dir_eqb (np a) (np b).
Lemma node_eqb_eq a b : node_eqb a b = true <-> a = b.
Proof.
  unfold node_eqb, dir_eqb. destruct a as [x y p], b as [x' y' p']. cbn [nx ny np]. split.
  - intros H. assert (x = x' /\ y = y' /\ dir_num p = dir_num p') as (-> & -> & E) by lia.
    destruct p, p'; cbn in E; try discriminate; reflexivity.
  - intros H. injection H as -> -> ->. lia.
Qed.

(** the number of moves of a list that leave a node *)
Definition leaving (l : list (node * node * ekind)) (n : node) : Z := llen (List.filter (fun x => node_eqb (fst (fst x)) n) l).
Lemma wsum_one a X : NoDup X -> wsum (fun n => if node_eqb a n then 1 else 0) X <= 1 /\ (~ In a X -> wsum (fun n => if node_eqb a n then 1 else 0) X = 0).
Proof.
  induction 1 as [|x X N ND [IH1 IH2]]; [cbn; lia|]. cbn [wsum fold_right] in *. fold (wsum (fun n => if node_eqb a n then 1 else 0) X).
  destruct (node_eqb a x) eqn:E.
  - apply node_eqb_eq in E. subst x. rewrite (IH2 N). split; [lia|]. intros H. destruct H. left. reflexivity.
  - split; [exact IH1|]. intros H. apply IH2. intros I. apply H. right. exact I.
Qed.
Lemma wsum_leaving l X : NoDup X -> wsum (leaving l) X <= llen l.
Proof.
  intros N. induction l as [|x l IH].
  - assert (Z0 : wsum (leaving []) X = 0) by (clear; induction X as [|y X IH]; [reflexivity|]; cbn [wsum fold_right]; fold (wsum (leaving []) X); rewrite IH; reflexivity).
    rewrite Z0. unfold llen. cbn. lia.
  - assert (E : wsum (leaving (x :: l)) X = wsum (fun n => if node_eqb (fst (fst x)) n then 1 else 0) X + wsum (leaving l) X).
    { clear. induction X as [|y X IH]; [reflexivity|]. cbn [wsum fold_right]. fold (wsum (leaving (x :: l)) X) (wsum (leaving l) X) (wsum (fun n => if node_eqb (fst (fst x)) n then 1 else 0) X).
      rewrite IH. unfold leaving at 1. cbn [List.filter]. fold (leaving l y). destruct (node_eqb (fst (fst x)) y); unfold leaving, llen; cbn [length]; lia. }
    rewrite E. destruct (wsum_one (fst (fst x)) X N) as [H _]. unfold llen in *. cbn [length]. lia.
Qed.

Section Thm.
  Variables (W : Z) (open : coord -> bool) (is_wall : coord -> res bool).
  Variable is_goal : node -> bool.
  Variable into_cost : ekind -> Z.
  Variable cmax : Z.
  Variable tie : nat -> nat.
  Variable start : node.
  Hypothesis HW : supported W.
  Hypothesis Hok : forall c, valid W c -> is_wall c = Ret (negb (open c)).
  Hypothesis Hcost : forall k, 0 <= into_cost k.
  Hypothesis Hcmax : 0 < cmax.
  Hypothesis Hstart : valid_node W start.

  Let sol := run_path W is_goal is_wall into_cost cmax tie start.

  Lemma all_valid : Forall (valid_node W) (all_nodes W).
  Proof. apply Forall_forall. intros n. apply all_nodes_in. Qed.
  Lemma all_closed n m k t : In n (all_nodes W) -> rmove W open n m k t -> In m (all_nodes W).
  Proof. rewrite !all_nodes_in. intros. eapply rmove_valid; eauto. Qed.

  Lemma succ_len n l : In n (all_nodes W) -> successors W is_wall n = Ret l -> llen l <= Z.max (W + 7) (2 * W + 2).
  Proof.
    intros Hn El. apply all_nodes_in in Hn.
    destruct (successors_ok W open is_wall HW Hok n Hn) as (l' & El' & H & _). congruence.
  Qed.

  Lemma measure_init wt T : measure wt T [] (init W cmax start) = 1 + T.
  Proof. unfold measure. cbn [wsum fold_right init r_heap fst]. lia. Qed.
  Lemma wsum_const S X : wsum (fun _ => S) X = S * llen X.
  Proof. induction X as [|x X IH]; [unfold llen; cbn; lia|]. cbn [wsum fold_right] in *. unfold wsum in IH. rewrite IH. unfold llen. cbn [length]. lia. Qed.
  Lemma wsum_const_le S U : 0 <= S -> forall X, NoDup X -> incl X U -> wsum (fun _ => S) X <= S * llen U.
  Proof.
    intros H0 X N I. rewrite wsum_const. assert (llen X <= llen U) by (unfold llen; apply inj_le, NoDup_incl_length; assumption). nia.
  Qed.

  Lemma run_all cap : (cap = true -> W <= 8) ->
    match sol with
    | Ret (Some (path, c)) =>
        (exists g, rpath W open into_cost cmax start path g c /\ is_goal g = true) /\ c < cmax /\ NoDup path /\
        (cap = true -> forall l g c', rpath W open into_cost cmax start l g c' -> is_goal g = true -> c <= c')
    | Ret None => cap = true -> forall l g c', rpath W open into_cost cmax start l g c' -> is_goal g = true -> cmax <= c'
    | Panic => 8 < W /\ exists path g c, rpath W open into_cost cmax start path g c /\ is_goal g = true /\ c < cmax /\
        NoDup path /\ PATH_MAX < llen path
    | Fuel => False
    end.
  Proof.
    intros Hcap. pose proof (supported_bounds W HW) as HB.
    pose proof (run_path_ok W open is_wall is_goal into_cost cmax tie start HW Hok Hcost Hcmax Hstart
      (all_nodes W) all_valid (proj2 (all_nodes_in W start) Hstart) all_closed _ _ succ_len
      (wsum_const_le (Z.max (W + 7) (2 * W + 2)) (all_nodes W) ltac:(lia)) cap) as H.
    rewrite measure_init, all_nodes_len in H by exact HW.
    assert (E1 : RUN_MAX = 16384) by reflexivity. assert (E2 : NEIGHBOR_MAX = 68) by reflexivity.
    assert (E3 : PATH_MAX = 1024) by reflexivity.
    rewrite E1, E2 in H. fold sol in H.
    specialize (H ltac:(nia)).
    assert (Hc : cap = true -> 1 + Z.max (W + 7) (2 * W + 2) * (12 * W * W) <= 16384) by (intros Hc; specialize (Hcap Hc); nia).
    specialize (H Hc).
    destruct sol as [[[path c]|]| |].
    - destruct H as ((g & H1 & H2 & _) & H3 & H4 & _ & _ & H5). split; [eauto|]. auto.
    - exact H.
    - destruct H as (path & g & c & H1 & H2 & H3 & H4 & H5 & H6 & _). split; [|exists path, g, c; auto 10].
      assert (llen path <= 12 * W * W).
      { rewrite <- all_nodes_len by exact HW. unfold llen. apply inj_le. apply NoDup_incl_length; assumption. }
      nia.
    - exact H.
  Qed.

  Theorem run_sound path c : sol = Ret (Some (path, c)) ->
    exists g, rpath W open into_cost cmax start path g c /\ is_goal g = true.
  Proof.
    intros E. pose proof (run_all false ltac:(discriminate)) as H. rewrite E in H. apply H.
  Qed.

  Theorem run_optimal : W <= 8 ->
    (exists path c g, sol = Ret (Some (path, c)) /\
       rpath W open into_cost cmax start path g c /\ is_goal g = true /\ c < cmax /\
       forall l g' c', rpath W open into_cost cmax start l g' c' -> is_goal g' = true -> c <= c') \/
    (sol = Ret None /\ forall l g c, rpath W open into_cost cmax start l g c -> is_goal g = true -> cmax <= c).
  Proof.
    intros H8. pose proof (run_all true (fun _ => H8)) as H. destruct sol as [[[path c]|]| |] eqn:Es.
    - left. fold sol.  destruct H as ((g & H1 & H2) & H3 & _ & H5). exists path, c, g. specialize (H5 eq_refl). do 4 (split; [first [reflexivity|assumption]|]). exact H5.
    - right. split; [first [reflexivity|assumption]|]. apply H. reflexivity.
    - destruct H as [H _]. lia.
    - destruct H.
  Qed.

  (** Any width, if there are few moves in all; then the path buffer may still be too small. *)
  Theorem run_optimal_few U ms :
    covers W open start U ms -> llen ms <= 16383 ->
    (exists path c g, sol = Ret (Some (path, c)) /\
       rpath W open into_cost cmax start path g c /\ is_goal g = true /\ c < cmax /\
       forall l g' c', rpath W open into_cost cmax start l g' c' -> is_goal g' = true -> c <= c') \/
    (sol = Ret None /\ forall l g c, rpath W open into_cost cmax start l g c -> is_goal g = true -> cmax <= c) \/
    exists path g c, rpath W open into_cost cmax start path g c /\ is_goal g = true /\ NoDup path /\ incl path U /\ PATH_MAX < llen path /\ c < cmax /\
      forall l g' c', rpath W open into_cost cmax start l g' c' -> is_goal g' = true -> c <= c'.
  Proof.
    intros (Hs & HU & Hm) Hcap.
    assert (HS' : forall n l, In n U -> successors W is_wall n = Ret l -> llen l <= leaving ms n).
    { intros n l Hn El. assert (Vn : valid_node W n) by (rewrite Forall_forall in HU; auto).
      destruct (successors_ok W open is_wall HW Hok n Vn) as (l' & El' & _ & Nd & Hin).
      rewrite El in El'. injection El' as <-. unfold leaving, llen. apply inj_le.
      rewrite <- (map_length (fun mk : node * ekind => (n, fst mk, snd mk)) l). apply NoDup_incl_length.
      - apply FinFun.Injective_map_NoDup; [|exact Nd]. intros [a b] [a' b'] E. cbn in E. congruence.
      - intros x Hx. apply in_map_iff in Hx. destruct Hx as ([m k] & <- & Hx). apply Hin in Hx. destruct Hx as [t Hx].
        apply filter_In. cbn [fst snd]. split; [apply (Hm n m k t Hn Hx) | apply node_eqb_eq; reflexivity]. }
    pose proof (run_path_ok W open is_wall is_goal into_cost cmax tie start HW Hok Hcost Hcmax Hstart
      U HU Hs (fun n m k t Hn Hr => proj1 (Hm n m k t Hn Hr)) (leaving ms) (llen ms) HS' (fun X N _ => wsum_leaving ms X N) true) as H.
    rewrite measure_init in H. assert (E1 : RUN_MAX = 16384) by reflexivity. assert (E2 : NEIGHBOR_MAX = 68) by reflexivity.
    rewrite E1, E2 in *. specialize (H ltac:(lia) (fun _ => ltac:(lia))). fold sol in H.
    destruct sol as [[[path c]|]| |] eqn:Es.
    - left. destruct H as ((g & H1 & H2 & _) & H3 & _ & _ & _ & H5). exists path, c, g. specialize (H5 eq_refl). do 4 (split; [first [reflexivity|assumption]|]). exact H5.
    - right. left. split; [reflexivity|]. apply H. reflexivity.
    - right. right. destruct H as (path & g & c & H1 & H2 & H3 & H4 & H5 & H6 & H7). exists path, g, c. specialize (H7 eq_refl). auto 10.
    - destruct H.
  Qed.

  Lemma path_price U ms b : covers W open start U ms -> (forall n m k t, In n U -> rmove W open n m k t -> b <= into_cost k) ->
    forall l g c, rpath W open into_cost cmax start l g c -> In g U /\ (c < cmax -> b * (llen l - 1) <= c).
  Proof.
    intros (Hs & _ & Hm) Hb l g c H. induction H as [|l g c m k t H [IU IH] M]; [split; [exact Hs | unfold llen; cbn; lia]|].
    split; [apply (Hm g m k t IU M)|]. intros L. specialize (Hb g m k t IU M). rewrite llen_app. change (llen [m]) with 1. specialize (IH ltac:(pose proof (Hcost k); lia)). lia.
  Qed.

  (** ... which it is not if the nodes are few, or if the moves have a least price and a goal is cheap. *)
  Theorem run_optimal_modest U ms :
    covers W open start U ms -> llen ms <= 16383 ->
    (llen U <= 1024 \/ exists b, 0 < b /\ (forall n m k t, In n U -> rmove W open n m k t -> b <= into_cost k) /\
       ((exists l g c, rpath W open into_cost cmax start l g c /\ is_goal g = true /\ c < cmax) ->
        exists l g c, rpath W open into_cost cmax start l g c /\ is_goal g = true /\ c <= 1023 * b)) ->
    (exists path c g, sol = Ret (Some (path, c)) /\
       rpath W open into_cost cmax start path g c /\ is_goal g = true /\ c < cmax /\
       forall l g' c', rpath W open into_cost cmax start l g' c' -> is_goal g' = true -> c <= c') \/
    (sol = Ret None /\ forall l g c, rpath W open into_cost cmax start l g c -> is_goal g = true -> cmax <= c).
  Proof.
    intros C Hcap P. assert (E1 : PATH_MAX = 1024) by reflexivity.
    destruct (run_optimal_few U ms C Hcap) as [H|[H|(path & g & c & R & G & ND & I & L & Hc & O)]]; [left; exact H | right; exact H|].
    exfalso. destruct P as [P|(b & b0 & Hb & P)].
    - assert (llen path <= llen U); [|lia]. unfold llen. apply inj_le. apply NoDup_incl_length; assumption.
    - destruct (P (ex_intro _ path (ex_intro _ g (ex_intro _ c (conj R (conj G Hc)))))) as (l & g' & c' & R' & G' & Lc). specialize (O l g' c' R' G').
      destruct (path_price U ms b C Hb path g c R) as [_ PP]. specialize (PP Hc). nia.
  Qed.
End Thm.

(** ** Concrete paths *)

Fixpoint path_cost (W : Z) (is_wall : coord -> res bool) (cost : ekind -> Z) (cmax : Z) (a : node) (c : Z) (l : list node) : option Z :=
  match l with
  | [] => Some c
  | m :: l' =>
    match successors W is_wall a with
    | Ret s => match find (fun e => node_eqb (fst e) m) s with
               | Some (_, k) => path_cost W is_wall cost cmax m (Z.min cmax (c + cost k)) l'
               | None => None
               end
    | _ => None
    end
  end.

Lemma path_cost_ok W open is_wall cost cmax : supported W -> (forall c, valid W c -> is_wall c = Ret (negb (open c))) ->
  forall a, valid_node W a ->
  forall l b c l' c', rpath W open cost cmax a l b c -> valid_node W b ->
  path_cost W is_wall cost cmax b c l' = Some c' -> rpath W open cost cmax a (l ++ l') (last l' b) c'.
Proof.
  intros HW Hok a Va l b c l'. revert l b c. induction l' as [|m l' IH]; intros l b c c' Hp Vb H.
  - cbn in H. injection H as <-. rewrite app_nil_r. exact Hp.
  - cbn [path_cost] in H. destruct (successors_ok W open is_wall HW Hok b Vb) as (s & El & _ & _ & Hin).
    rewrite El in H. destruct (find (fun e => node_eqb (fst e) m) s) as [[m' k]|] eqn:Ef; [|discriminate].
    apply find_some in Ef. destruct Ef as [Hm E]. cbn [fst] in E. apply node_eqb_eq in E. subst m'.
    apply Hin in Hm. destruct Hm as [t Hm].
    rewrite last_cons. replace (l ++ m :: l') with ((l ++ [m]) ++ l') by (rewrite <- app_assoc; reflexivity).
    apply IH with (c := Z.min cmax (c + cost k)); [|eapply rmove_valid; eauto|exact H].
    apply (rp_snoc _ _ _ _ _ l b c m k t); assumption.
Qed.

Lemma path_cost_start W open is_wall cost cmax a l c : supported W -> (forall c, valid W c -> is_wall c = Ret (negb (open c))) ->
  valid_node W a -> path_cost W is_wall cost cmax a 0 l = Some c -> rpath W open cost cmax a (a :: l) (last l a) c.
Proof.
  intros HW Hok Va H. apply (path_cost_ok W open is_wall cost cmax HW Hok a Va [a] a 0 l c); auto. constructor.
Qed.
