(** The converse: what a run or a search reaches is linked, and the ways as routes of the search planner. *)
From Coq Require Import ZArith List Bool Lia ZifyBool.
From Verif Require Import Base SearchModel SearchSpec SearchCoord SearchPath RunModel RunSpec RunTraj RunThm ReachSpec ReachProofs ReachProofs2.
Import ListNotations.
Open Scope Z_scope.

Definition cnt (q : coord) : Prop := cx q mod 2 = 0 /\ cy q mod 2 = 0.
Definition wll (q : coord) : Prop := (cx q + cy q) mod 2 = 1.
Definition close (q : coord) (x : Z * Z) : Prop := Z.abs (cx q - 2 * fst x) + Z.abs (cy q - 2 * snd x) <= 1.

Lemma odd_mod z : Z.odd z = true <-> z mod 2 = 1.
Proof. rewrite Zmod_odd. destruct (Z.odd z); split; congruence. Qed.
Lemma even_mod z : Z.even z = true <-> z mod 2 = 0.
Proof. rewrite Zmod_even. destruct (Z.even z); split; congruence. Qed.
Lemma close_touches q x : wll q -> (touches q x <-> close q x).
Proof.
  unfold wll, close, touches. destruct q as [a b], x as [i j]. cbn [cx cy fst snd]. intros O.
  destruct (Z.odd b) eqn:E.
  - apply odd_mod in E. split; [intros [H|H]; injection H; intros; subst; lia|].
    intros H. assert (j = b / 2 \/ j = b / 2 + 1) as [->| ->] by lia; [left | right]; f_equal; lia.
  - assert (b mod 2 = 0) by (rewrite Zmod_odd, E; reflexivity). split; [intros [H1|H1]; injection H1; intros; subst; lia|].
    intros H1. assert (i = a / 2 \/ i = a / 2 + 1) as [->| ->] by lia; [left | right]; f_equal; lia.
Qed.
Lemma wll_valid W q : on_board W q -> wll q -> valid W q.
Proof. intros B O. split; [exact B | apply odd_mod, O]. Qed.

Section Got.
Variables (W : Z) (open : coord -> bool) (s : Z * Z).
Definition got (q : coord) : Prop := forall x, in_maze W x -> close q x -> linked W open s x.

Lemma got_wall p q : cnt p -> on_board W p -> Z.abs (cx q - cx p) + Z.abs (cy q - cy p) = 1 -> on_board W q -> open q = true -> got p -> got q.
Proof.
  intros [C1 C2] BP D B O G x X N. set (m := (cx p / 2, cy p / 2)). unfold on_board in *.
  assert (M : in_maze W m) by (unfold in_maze, m; cbn [fst snd]; lia).
  assert (Q : wll q) by (unfold wll; lia).
  apply linked_trans with m; [apply G; [exact M | unfold close, m; cbn [fst snd]; lia]|].
  apply (wall_linked W open q m x); try assumption; [apply wll_valid; assumption | |]; apply close_touches; try assumption.
  unfold close, m. cbn [fst snd]. lia.
Qed.
Lemma got_cnt p q : cnt q -> on_board W q -> Z.abs (cx q - cx p) + Z.abs (cy q - cy p) = 1 -> got p -> got q.
Proof.
  intros [C1 C2] B D G x X N. apply G; [exact X|]. unfold close in *. lia.
Qed.
Lemma got_diag p q : wll p -> on_board W p -> Z.abs (cx q - cx p) = 1 -> Z.abs (cy q - cy p) = 1 -> on_board W q -> open q = true -> got p -> got q.
Proof.
  unfold wll, on_board. intros O BP D1 D2 B Oq G.
  assert (C : cnt (Co (cx p) (cy q)) \/ cnt (Co (cx q) (cy p))) by (unfold cnt; cbn [cx cy]; lia).
  destruct C as [C|C].
  - apply (got_wall (Co (cx p) (cy q))); try assumption; unfold on_board; cbn [cx cy]; try lia.
    apply (got_cnt p); try assumption; unfold on_board; cbn [cx cy]; lia.
  - apply (got_wall (Co (cx q) (cy p))); try assumption; unfold on_board; cbn [cx cy]; try lia.
    apply (got_cnt p); try assumption; unfold on_board; cbn [cx cy]; lia.
Qed.

Definition pos (n : node) : coord := Co (nx n) (ny n).
Lemma straight_got n k : is_diag (np n) = false -> valid_node W n -> got (pos n) -> (forall j, 1 <= j <= Z.of_nat k -> free W open n 0 (2 * j - 1)) ->
  on_board W (place n 0 (2 * Z.of_nat k)) -> got (place n 0 (2 * Z.of_nat k)).
Proof.
  intros Dg (V1 & V2 & V3) G. rewrite Dg in V3. destruct V3 as [E1 E2]. rewrite even_mod in E1, E2.
  induction k as [|k IH]; intros F B.
  - revert G. unfold pos, place. replace (2 * Z.of_nat 0) with 0 by lia. rewrite !Z.mul_0_l, !Z.add_0_r. tauto.
  - destruct (F (Z.of_nat (S k)) ltac:(lia)) as [B1 O1]. unfold on_board in B, B1.
    assert (B0 : on_board W (place n 0 (2 * Z.of_nat k))).
    { unfold on_board, place in *. cbn [cx cy] in *. clear - V1 V2 B. destruct n as [a b p]. destruct p; cbn in *; try discriminate; lia. }
    assert (G1 := IH (fun j Hj => F j ltac:(lia)) B0).
    apply (got_cnt (place n 0 (2 * Z.of_nat (S k) - 1))).
    3: unfold place; cbn [cx cy]; destruct n as [a b p]; destruct p; cbn in *; try discriminate; lia.
    1: unfold cnt, place; cbn [cx cy]; destruct n as [a b p]; destruct p; cbn in *; try discriminate; lia.
    1: exact B.
    apply (got_wall (place n 0 (2 * Z.of_nat k))); try assumption.
    + unfold cnt, place; cbn [cx cy]; destruct n as [a b p]; destruct p; cbn in *; try discriminate; lia.
    + unfold place; cbn [cx cy]; destruct n as [a b p]; destruct p; cbn in *; try discriminate; lia.
Qed.
Lemma diagonal_got n k : is_diag (np n) = true -> valid_node W n -> got (pos n) -> (forall j, 1 <= j <= Z.of_nat k -> free W open n j j) ->
  got (place n (Z.of_nat k) (Z.of_nat k)).
Proof.
  intros Dg (V1 & V2 & V3) G. rewrite Dg in V3. rewrite odd_mod in V3.
  induction k as [|k IH]; intros F.
  - revert G. unfold pos, place. change (Z.of_nat 0) with 0. rewrite !Z.mul_0_l, !Z.add_0_r. tauto.
  - assert (G1 := IH (fun j Hj => F j ltac:(lia))). destruct (F (Z.of_nat (S k)) ltac:(lia)) as [B1 O1].
    assert (B0 : on_board W (place n (Z.of_nat k) (Z.of_nat k))).
    { unfold on_board, place in *. cbn [cx cy] in *. clear - V1 V2 B1. destruct n as [a b p]. destruct p; cbn in *; lia. }
    apply (got_diag (place n (Z.of_nat k) (Z.of_nat k))); try assumption.
    + unfold wll, place; cbn [cx cy]; destruct n as [a b p]; destruct p; cbn in *; try discriminate; lia.
    + unfold place; cbn [cx cy]; destruct n as [a b p]; destruct p; cbn in *; try discriminate; lia.
    + unfold place; cbn [cx cy]; destruct n as [a b p]; destruct p; cbn in *; try discriminate; lia.
Qed.

Ltac place_lia := unfold wll, cnt, on_board, place, pos, bends_left in *; cbn [cx cy nx ny np] in *;
  repeat match goal with
  | H : Z.odd _ = true |- _ => rewrite odd_mod in H
  | H : Z.even _ = true |- _ => rewrite even_mod in H
  | H : Z.odd ?z = false |- _ => assert (z mod 2 = 0) by (rewrite Zmod_odd, H; reflexivity); clear H
  end;
  match goal with p : dir8 |- _ => destruct p end; cbn [is_diag to_right ahead fst snd] in *; try discriminate;
  repeat match goal with
  | H : Z.odd _ = true |- _ => rewrite odd_mod in H
  | H : Z.odd ?z = false |- _ => assert (z mod 2 = 0) by (rewrite Zmod_odd, H; reflexivity); clear H
  | H : s = 1 \/ s = -1 |- _ => destruct H; subst s
  end; lia.

Lemma move_got n m k t : rmove W open n m k t -> valid_node W n -> got (pos n) -> got (pos m).
Proof.
  intros M V G. assert (V' := V). destruct V' as (V1 & V2 & V3).
  destruct M as [i Dg Hi F L|z Dg Hz F1 F2 L|z Dg Hz F1 F2 L|z Dg Hz F1 F2 F3 L|z Dg Hz F1 F2 F3 L|i Dg Hi F L
    |Dg Bl F1 L|Dg Bl F1 F2 L|Dg Bl F1 F2 L|Dg Bl F1 L|Dg Bl F1 F2 L|Dg Bl F1 F2 L]; rewrite Dg in V3;
    destruct L as (LB & LP & _); unfold pos; rewrite LP.
  1: { replace i with (Z.of_nat (Z.to_nat i)) in * by lia. apply straight_got; assumption. }
  5: { replace i with (Z.of_nat (Z.to_nat i)) in * by lia. apply diagonal_got; assumption. }
  all: destruct n as [a b p]; cbn [np nx ny] in *; try match goal with H : Z.even _ = true /\ _ |- _ => destruct H end; try destruct F1 as [B1 O1]; try destruct F2 as [B2 O2]; try destruct F3 as [B3 O3].
  all: try (assert (G1 : got (place (Nde a b p) 0 1)) by (apply (got_wall (pos (Nde a b p))); try assumption; place_lia)).
  all: try (assert (G1 : got (place (Nde a b p) 1 1)) by (apply (got_diag (pos (Nde a b p))); try assumption; place_lia)).
  1-4: destruct Hz as [-> | ->].
  all: repeat match goal with O : open ?q = true |- _ =>
      lazymatch goal with _ : got q |- _ => fail | _ => idtac end;
      match goal with H : got ?r |- _ => assert (got q) by (apply (got_diag r); try assumption; place_lia) end end.
  all: try assumption.
  all: match goal with H : got ?r |- _ => apply (got_cnt r); try assumption; place_lia end.
Qed.
End Got.

Lemma path_got W open cost cmax s a l b c : rpath W open cost cmax a l b c -> valid_node W a -> got W open s (pos a) -> valid_node W b /\ got W open s (pos b).
Proof.
  intros P V G. induction P as [|l b c m k t P [IV IG] M]; [split; assumption|].
  split; [exact (rmove_valid W open b m k t IV M) | exact (move_got W open s b m k t M IV IG)].
Qed.
Lemma path_linked W open cost cmax s p l g c : rpath W open cost cmax (Nde (2 * fst s) (2 * snd s) p) l g c -> valid_node W (Nde (2 * fst s) (2 * snd s) p) ->
  is_diag p = false -> is_diag (np g) = false -> in_maze W (nx g / 2, ny g / 2) /\ linked W open s (nx g / 2, ny g / 2).
Proof.
  intros P V Dp Dg.
  assert (G0 : got W open s (pos (Nde (2 * fst s) (2 * snd s) p))).
  { intros [i j] X N. unfold close, pos in N. cbn [cx cy nx ny fst snd] in N. replace (i, j) with s; [exists []; constructor|].
    destruct s as [a b]. cbn [fst snd] in N. f_equal; lia. }
  destruct (path_got W open cost cmax s _ l g c P V G0) as [(V1 & V2 & V3) G]. rewrite Dg in V3. destruct V3 as [E1 E2]. rewrite even_mod in E1, E2.
  assert (M : in_maze W (nx g / 2, ny g / 2)) by (unfold in_maze; cbn [fst snd]; lia).
  split; [exact M|]. apply G; [exact M|]. unfold close, pos. cbn [cx cy fst snd]. lia.
Qed.

(** ** ways as routes *)
Section Routes.
Variables (W : Z) (open : coord -> bool).
Lemma close_adjacent b d x : wll b -> wll d -> close b x -> close d x -> b <> d -> adjacent b d.
Proof.
  destruct b as [b1 b2], d as [d1 d2]. unfold wll, close. cbn [cx cy]. intros O1 O2 C1 C2 N.
  exists (d1 - b1, d2 - b2). unfold shift. cbn [cx cy fst snd]. split; [|f_equal; lia].
  assert (N' : b1 <> d1 \/ b2 <> d2) by (destruct (Z.eq_dec b1 d1), (Z.eq_dec b2 d2); subst; try tauto; exfalso; apply N; reflexivity).
  unfold dirs, straight_dirs. cbn [cy]. destruct (Z.odd b2) eqn:E.
  - apply odd_mod in E.
    assert (C : (d1 - b1 = 1 /\ d2 - b2 = 1) \/ (d1 - b1 = -1 /\ d2 - b2 = -1) \/ (d1 - b1 = -1 /\ d2 - b2 = 1) \/ (d1 - b1 = 1 /\ d2 - b2 = -1)
      \/ (d1 - b1 = 0 /\ d2 - b2 = 2) \/ (d1 - b1 = 0 /\ d2 - b2 = -2)) by lia.
    decompose [or and] C; repeat match goal with H : _ - _ = _ |- _ => rewrite H; clear H end; cbn; tauto.
  - assert (b2 mod 2 = 0) by (rewrite Zmod_odd, E; reflexivity).
    assert (C : (d1 - b1 = 1 /\ d2 - b2 = 1) \/ (d1 - b1 = -1 /\ d2 - b2 = -1) \/ (d1 - b1 = -1 /\ d2 - b2 = 1) \/ (d1 - b1 = 1 /\ d2 - b2 = -1)
      \/ (d1 - b1 = 2 /\ d2 - b2 = 0) \/ (d1 - b1 = -2 /\ d2 - b2 = 0)) by lia.
    decompose [or and] C; repeat match goal with H : _ - _ = _ |- _ => rewrite H; clear H end; cbn; tauto.
Qed.
Lemma adjacent_run c d : adjacent c d -> on_board W d -> open d = true -> run W open c d.
Proof.
  intros (v & V & ->) B O. exists v. split; [exact V|]. exists 1. split; [lia|]. split; [reflexivity|].
  intros k Hk. replace k with 1 by lia. split; assumption.
Qed.
Definition routed (s d : coord) : Prop := exists l, route W open s d l.
Lemma way_routed s c l e : way W open c l e -> in_maze W c ->
  (forall d, valid W d -> open d = true -> touches d c -> routed s d) -> forall d, valid W d -> open d = true -> touches d e -> routed s d.
Proof.
  intros H. induction H as [c|c p l e [M O] H IH]; intros Mc F; [exact F|]. apply (IH M). clear IH H.
  intros d Vd Od Td. set (b := between c p).
  assert (Ob : wll b /\ close b c /\ close b (beyond c p) /\ on_board W b).
  { unfold wll, close, b, between, beyond, in_maze, on_board in *. clear - M Mc. cbn [fst snd cx cy] in *. destruct p; cbn [pvec fst snd] in *; lia. }
  destruct Ob as (O1 & C1 & C2 & Bb).
  assert (Vb := wll_valid W b Bb O1).
  assert (Rb : routed s b) by (apply F; [exact Vb | exact O | apply close_touches; assumption]).
  destruct (coord_eqb b d) eqn:E.
  - assert (b = d) by (destruct b, d; unfold coord_eqb in E; cbn in E; f_equal; lia). subst d. exact Rb.
  - assert (Od' : wll d) by (apply odd_mod, Vd).
    assert (N : b <> d) by (intros <-; destruct b as [u w]; unfold coord_eqb in E; cbn in E; lia).
    assert (A := close_adjacent b d _ O1 Od' C2 (proj1 (close_touches d _ Od') Td) N).
    destruct Rb as (r & C & L). exists (r ++ [d]). split; [|rewrite last_last; reflexivity].
    apply chain_snoc; [exact C|]. rewrite L. apply adjacent_run; [exact A | apply Vd | exact Od].
Qed.
Lemma way_wall c l e : way W open c l e -> in_maze W c -> c <> e -> exists d, valid W d /\ open d = true /\ touches d e.
Proof.
  intros H. induction H as [c|c p l e [M O] H IH]; intros Mc N; [congruence|].
  destruct (cell_dec (beyond c p) e) as [<-|Ne]; [|exact (IH M Ne)].
  exists (between c p).
  assert (Ob : wll (between c p) /\ close (between c p) (beyond c p) /\ on_board W (between c p)).
  { unfold wll, close, between, beyond, in_maze, on_board in *. clear - M Mc. cbn [fst snd cx cy] in *. destruct p; cbn [pvec fst snd] in *; lia. }
  destruct Ob as (O1 & C1 & B). split; [apply wll_valid; assumption|]. split; [exact O | apply close_touches; assumption].
Qed.

(** walls of the start square *)
Lemma start_walls d : valid W d -> touches d (0, 0) -> d = Co 0 1 \/ d = Co 1 0.
Proof.
  intros [B O] T. apply odd_mod in O. apply (close_touches d _ O) in T. destruct d as [x y]. unfold close, on_board in *. cbn [cx cy fst snd] in *.
  assert ((x = 0 /\ y = 1) \/ (x = 1 /\ y = 0)) as [[-> ->]|[-> ->]] by lia; auto.
Qed.
Lemma start_exit : open (Co 1 0) = false -> forall q, passage W open (0, 0) q -> q = North.
Proof.
  intros C q [M O]. destruct q; unfold between, beyond, in_maze in *; cbn [fst snd pvec] in *; try reflexivity; try lia.
  change (open (Co 1 0) = true) in O. congruence.
Qed.
Lemma linked_route e : 0 < W -> open (Co 1 0) = false -> linked W open (0, 0) e ->
  forall d, valid W d -> open d = true -> touches d e -> routed (Co 0 1) d.
Proof.
  intros HW C (l & H). apply (way_routed _ _ _ _ H); [unfold in_maze; cbn; lia|].
  intros d V O T. destruct (start_walls d V T) as [->| ->]; [exists []; split; [exact I | reflexivity] | congruence].
Qed.
Lemma route_linked g l e : 0 < W -> open (Co 0 1) = true -> route W open (Co 0 1) g l -> touches g e -> in_maze W e -> linked W open (0, 0) e.
Proof.
  intros HW O R T M. refine (route_reached W open (0, 0) (Co 0 1) g l _ R _ e T M).
  - repeat split; cbn; lia.
  - intros x Tx Mx. cbn in Tx. destruct Tx as [->| ->]; [exists []; constructor|].
    exists [North]. apply (way_cons W open (0, 0) North [] (0, 1)); [split; [exact Mx | exact O] | constructor].
Qed.
End Routes.


Lemma rmove_mono W (f g : coord -> bool) n m k t : (forall c, f c = true -> g c = true) -> rmove W f n m k t -> rmove W g n m k t.
Proof.
  intros H M. assert (F : forall i j, free W f n i j -> free W g n i j) by (intros i j [B O]; split; [exact B | apply H, O]).
  destruct M; econstructor; eauto.
Qed.
Lemma rpath_mono W (f g : coord -> bool) cost cmax a l b c : (forall c, f c = true -> g c = true) -> rpath W f cost cmax a l b c -> rpath W g cost cmax a l b c.
Proof. intros H P. induction P; econstructor; eauto using rmove_mono. Qed.
Lemma memory_mono W (f g : coord -> bool) start B cost : (forall c, f c = true -> g c = true) ->
  within_memory W g start B cost -> within_memory W f start B cost.
Proof.
  intros H [H8|(U & ms & (C1 & C2 & C3) & L & P)]; [left; exact H8|].
  right. exists U, ms. split; [split; [exact C1|]; split; [exact C2|]; intros n m k t I R; exact (C3 n m k t I (rmove_mono W f g n m k t H R))|].
  split; [exact L|]. destruct P as [P|(b & b0 & Hb & P)]; [left; exact P | right; exists b; split; [exact b0|]; split; [|exact P]].
  intros n m k t I R. exact (Hb n m k t I (rmove_mono W f g n m k t H R)).
Qed.

(** ** the planners *)
Section Plan.
Variables (W : Z) (open : coord -> bool) (is_wall : coord -> res bool) (is_goal : node -> bool) (cost : ekind -> Z) (cmax B : Z) (tie : nat -> nat).
Variables (s : Z * Z) (p : posture) (squares : list (Z * Z)).
Hypothesis HW : supported W.
Hypothesis Hok : forall c, valid W c -> is_wall c = Ret (negb (open c)).
Hypothesis Hpay : payable W B cost cmax.
Hypothesis Hs : in_maze W s.
Hypothesis Hends : ends_in W is_goal squares.
Definition start_node := Nde (2 * fst s) (2 * snd s) (P8 p).

Lemma start_valid : valid_node W start_node.
Proof.
  destruct Hs. unfold valid_node, start_node. cbn [nx ny np]. rewrite !Z.even_mul. split; [lia|]. split; [lia|]. destruct p; split; reflexivity.
Qed.
Lemma cmax_pos : 0 < cmax.
Proof. destruct Hpay as (H1 & H2 & H3). assert (H := H1 KSlalom45). specialize (H2 KSlalom45 ltac:(cbn; auto)). assert (HW' := supported_bounds W HW). nia. Qed.
Lemma goal_linked path g c : rpath W open cost cmax start_node path g c -> is_goal g = true ->
  In (nx g / 2, ny g / 2) squares /\ linked W open s (nx g / 2, ny g / 2).
Proof.
  intros P G.
  assert (G0 : got W open s (pos start_node)).
  { intros [i j] X N. unfold close, pos, start_node in N. cbn [cx cy nx ny fst snd] in N. replace (i, j) with s; [exists []; constructor|].
    destruct s as [a b]. cbn [fst snd] in N. f_equal; lia. }
  assert (V := proj1 (path_got W open cost cmax s _ path g c P start_valid G0)).
  destruct (proj1 (Hends g V) G) as [Dg I]. split; [exact I|].
  apply (path_linked W open cost cmax s (P8 p) path g c P start_valid); [destruct p; reflexivity | exact Dg].
Qed.
Lemma some_linked path c : run_path W is_goal is_wall cost cmax tie start_node = Ret (Some (path, c)) ->
  exists g, is_goal g = true /\ rpath W open cost cmax start_node path g c /\ In (nx g / 2, ny g / 2) squares /\ linked W open s (nx g / 2, ny g / 2).
Proof.
  intros E. destruct (run_sound W open is_wall is_goal cost cmax tie start_node HW Hok (proj1 Hpay) cmax_pos start_valid path c E) as (g & P & G).
  exists g. split; [exact G|]. split; [exact P|]. exact (goal_linked path g c P G).
Qed.
Hypothesis Hexit : forall q, passage W open s q -> q = p.
Lemma linked_cheap e : In e squares -> linked W open s e ->
  exists l g c, rpath W open cost cmax start_node l g c /\ is_goal g = true /\ c <= B * (W * W).
Proof.
  intros I (l & Wy). assert (Me : in_maze W e).
  { assert (F := visits_maze W open s l e Hs Wy). rewrite Forall_forall in F. apply F. clear - Wy.
    induction Wy as [c|c q l e P Wy IH]; [left; reflexivity | right; exact IH]. }
  apply (cheap_run W open is_goal cost cmax B s p e HW (proj1 Hpay) (proj1 (proj2 Hpay)) Hs Hexit).
  - exists l. exact Wy.
  - intros q Dq. apply Hends.
    + destruct Me. unfold valid_node. cbn [nx ny np]. rewrite Dq, !Z.even_mul. split; [lia|]. split; [lia|]. split; reflexivity.
    + cbn [np nx ny]. split; [exact Dq|]. replace (2 * fst e / 2, 2 * snd e / 2) with e; [exact I|].
      destruct e. cbn [fst snd]. f_equal; lia.
Qed.
Lemma plan_answers : within_memory W open start_node B cost ->
  (exists path c, run_path W is_goal is_wall cost cmax tie start_node = Ret (Some (path, c))) \/
  (run_path W is_goal is_wall cost cmax tie start_node = Ret None /\
   forall l g c, rpath W open cost cmax start_node l g c -> is_goal g = true -> cmax <= c).
Proof.
  intros M. destruct (run_answers W open is_wall is_goal cost cmax tie B start_node HW M Hok (proj1 Hpay) cmax_pos start_valid)
    as [(path & c & g & E & _)|N].
  - intros (l & g & c & P & G & _). destruct (goal_linked l g c P G) as [I L]. exact (linked_cheap _ I L).
  - left. exists path, c. exact E.
  - right. exact N.
Qed.
Lemma linked_some e : within_memory W open start_node B cost -> In e squares -> linked W open s e ->
  exists path c, run_path W is_goal is_wall cost cmax tie start_node = Ret (Some (path, c)).
Proof.
  intros M I L. destruct (plan_answers M) as [E|[_ N]]; [exact E|]. exfalso.
  destruct (linked_cheap e I L) as (l & g & c & P & G & K). specialize (N l g c P G). destruct Hpay as (_ & _ & H3). lia.
Qed.
End Plan.
