(** Simple ways, and the routes of the search planner as ways. *)
From Coq Require Import ZArith List Bool Lia.
From Verif Require Import Base SearchModel SearchSpec SearchCoord RunModel RunSpec RunTraj RunDijk RunThm ReachSpec ReachProofs.
Import ListNotations.
Open Scope Z_scope.

Section Ways.
Variables (W : Z) (open : coord -> bool).

Lemma visits_head c l : In c (visits c l).
Proof. destruct l; left; reflexivity. Qed.
Lemma visits_maze c l e : in_maze W c -> way W open c l e -> Forall (in_maze W) (visits c l).
Proof.
  intros C H. induction H as [c|c p l e P H IH]; cbn [visits]; constructor; try assumption; [constructor|]. apply IH, P.
Qed.
Lemma visits_length c l : length (visits c l) = S (length l).
Proof. revert c. induction l as [|p l IH]; intros c; cbn; [reflexivity | rewrite IH; reflexivity]. Qed.

Lemma cell_dec (a b : Z * Z) : {a = b} + {a <> b}.
Proof. decide equality; apply Z.eq_dec. Qed.

Lemma way_from x c l e : way W open c l e -> NoDup (visits c l) -> In x (visits c l) -> exists l', way W open x l' e /\ NoDup (visits x l').
Proof.
  intros H. induction H as [c|c p l e P H IH]; cbn [visits]; intros N I.
  - destruct I as [<-|[]]. exists []. split; [constructor | exact N].
  - destruct I as [<-|I]; [exists (p :: l); split; [constructor; assumption | exact N]|]. inversion N; subst. exact (IH H3 I).
Qed.
Lemma simple_way c e : linked W open c e -> exists l, way W open c l e /\ NoDup (visits c l).
Proof.
  intros (l & H). induction H as [c|c p l e P H (l' & H' & N)].
  - exists []. split; [constructor | repeat constructor; intros []].
  - destruct (in_dec cell_dec c (visits (beyond c p) l')) as [I|I].
    + exact (way_from _ _ _ _ H' N I).
    + exists (p :: l'). split; [constructor; assumption | constructor; assumption].
Qed.

Lemma beyond_back c p : beyond (beyond c p) (reverse p) = c.
Proof. destruct c as [i j]. unfold beyond. destruct p; cbn; f_equal; lia. Qed.
Lemma beyond_loop c p q : beyond (beyond (beyond (beyond c p) q) (reverse p)) (reverse q) = c.
Proof. destruct c as [i j]. unfold beyond. destruct p, q; cbn; f_equal; lia. Qed.
Lemma simple_tame c l : NoDup (visits c l) -> tame l.
Proof.
  revert c. induction l as [|p l IH]; intros c N; [exact I|]. cbn [visits] in N. inversion N as [|? ? NI N']; subst. cbn [tame]. split; [exact (IH _ N')|].
  destruct l as [|q l]; [exact I|]. split.
  - intros ->. apply NI. cbn [visits]. right. rewrite beyond_back. apply visits_head.
  - destruct l as [|r [|s l]]; try exact I. intros [-> ->]. apply NI. cbn [visits]. right. right. right. rewrite beyond_loop. apply visits_head.
Qed.

(** the number of squares *)
Definition cells : list (Z * Z) := list_prod (map Z.of_nat (seq 0 (Z.to_nat W))) (map Z.of_nat (seq 0 (Z.to_nat W))).
Lemma cells_in c : in_maze W c -> In c cells.
Proof.
  destruct c as [i j]. intros [H1 H2]. cbn [fst snd] in *. apply in_prod; apply in_map_iff.
  - exists (Z.to_nat i). split; [lia | apply in_seq; lia].
  - exists (Z.to_nat j). split; [lia | apply in_seq; lia].
Qed.
Lemma simple_short c l e : 0 < W -> in_maze W c -> way W open c l e -> NoDup (visits c l) -> Z.of_nat (length l) < W * W.
Proof.
  intros HW C H N. assert (F := visits_maze _ _ _ C H).
  assert (L : (length (visits c l) <= length cells)%nat).
  { apply NoDup_incl_length; [exact N|]. intros x I. apply cells_in. rewrite Forall_forall in F. exact (F x I). }
  rewrite visits_length in L. unfold cells in L. rewrite prod_length, map_length, seq_length in L. nia.
Qed.

(** ** from walls to squares *)
Definition sides (c : coord) : (Z * Z) * (Z * Z) := ((cx c / 2, cy c / 2), if Z.odd (cy c) then (cx c / 2, cy c / 2 + 1) else (cx c / 2 + 1, cy c / 2)).
Definition across (c : coord) : posture := if Z.odd (cy c) then North else East.

Lemma touches_sides c x : touches c x <-> x = fst (sides c) \/ x = snd (sides c).
Proof. unfold touches, sides. cbn [fst snd]. destruct (Z.odd (cy c)); tauto. Qed.

Lemma halves z : z = 2 * (z / 2) + (if Z.odd z then 1 else 0).
Proof. assert (H := Z.div_mod z 2 ltac:(lia)). rewrite Zmod_odd in H. exact H. Qed.

Lemma sides_ok c : Z.odd (cx c + cy c) = true -> beyond (fst (sides c)) (across c) = snd (sides c) /\ between (fst (sides c)) (across c) = c.
Proof.
  intros O. rewrite Z.odd_add in O. destruct c as [x y]. cbn [cx cy] in *. assert (X := halves x). assert (Y := halves y).
  unfold sides, across, beyond, between. cbn [cx cy fst snd]. destruct (Z.odd x), (Z.odd y); try discriminate O; cbn [pvec fst snd]; split; f_equal; lia.
Qed.
Lemma between_back c p : between (beyond c p) (reverse p) = between c p.
Proof. destruct c as [i j]. unfold between, beyond. destruct p; cbn; f_equal; lia. Qed.

Lemma linked_trans a b c : linked W open a b -> linked W open b c -> linked W open a c.
Proof.
  intros (l & H) (m & K). exists (l ++ m). induction H; cbn [app]; [exact K | constructor; auto].
Qed.
Lemma linked_step a p : passage W open a p -> linked W open a (beyond a p).
Proof. intros P. exists [p]. constructor; [exact P | constructor]. Qed.

Lemma wall_linked c x y : valid W c -> open c = true -> touches c x -> touches c y -> in_maze W x -> in_maze W y -> linked W open x y.
Proof.
  intros [_ O] E Tx Ty X Y. destruct (sides_ok c O) as [B1 B2]. apply touches_sides in Tx. apply touches_sides in Ty.
  assert (FW : in_maze W (snd (sides c)) -> linked W open (fst (sides c)) (snd (sides c))).
  { intros M. rewrite <- B1. apply linked_step. split; [rewrite B1; exact M | rewrite B2; exact E]. }
  assert (BW : in_maze W (fst (sides c)) -> linked W open (snd (sides c)) (fst (sides c))).
  { intros M. assert (BB := beyond_back (fst (sides c)) (across c)). rewrite B1 in BB. assert (LS := linked_step (snd (sides c)) (reverse (across c))). rewrite BB in LS. apply LS.
    split; [rewrite BB; exact M|]. assert (K := between_back (fst (sides c)) (across c)). rewrite B1, B2 in K. rewrite K. exact E. }
  destruct Tx as [-> | ->], Ty as [-> | ->]; try (exists []; constructor); auto.
Qed.

(** adjacent walls have a square in common *)
Lemma adjacent_common c d : valid W c -> valid W d -> adjacent c d -> exists x, touches c x /\ touches d x /\ in_maze W x.
Proof.
  destruct c as [x y]. intros [Bc Oc] [Bd Od] (v & V & ->). rewrite Z.odd_add in Oc.
  unfold dirs, straight_dirs in V. unfold touches, on_board, shift, in_maze in *. cbn [cx cy] in *.
  assert (X := halves x). assert (Y := halves y).
  assert (K : forall i j, in_maze W (i, j) -> (touches (Co x y) (i, j)) -> touches (Co (x + 1 * fst v) (y + 1 * snd v)) (i, j) ->
    exists x0, (if Z.odd y then x0 = (x / 2, y / 2) \/ x0 = (x / 2, y / 2 + 1) else x0 = (x / 2, y / 2) \/ x0 = (x / 2 + 1, y / 2)) /\
      (if Z.odd (y + 1 * snd v)
       then x0 = ((x + 1 * fst v) / 2, (y + 1 * snd v) / 2) \/ x0 = ((x + 1 * fst v) / 2, (y + 1 * snd v) / 2 + 1)
       else x0 = ((x + 1 * fst v) / 2, (y + 1 * snd v) / 2) \/ x0 = ((x + 1 * fst v) / 2 + 1, (y + 1 * snd v) / 2)) /\
      (0 <= fst x0 < W /\ 0 <= snd x0 < W)).
  { intros i j M T1 T2. exists (i, j). exact (conj T1 (conj T2 M)). }
  destruct (Z.odd x) eqn:Ox, (Z.odd y) eqn:Oy; try discriminate Oc; cbn [app In] in V;
  decompose [or] V; clear V; subst; try contradiction; cbn [fst snd] in *;
  first [apply (K (x / 2) (y / 2)); unfold touches, in_maze; cbn [cx cy fst snd]; rewrite ?Z.odd_add, ?Oy; cbn;
           [Z.div_mod_to_equations; lia | first [left; f_equal; Z.div_mod_to_equations; lia | right; f_equal; Z.div_mod_to_equations; lia]
           | first [left; f_equal; Z.div_mod_to_equations; lia | right; f_equal; Z.div_mod_to_equations; lia]]
        |apply (K (x / 2) (y / 2 + 1)); unfold touches, in_maze; cbn [cx cy fst snd]; rewrite ?Z.odd_add, ?Oy; cbn;
           [Z.div_mod_to_equations; lia | first [left; f_equal; Z.div_mod_to_equations; lia | right; f_equal; Z.div_mod_to_equations; lia]
           | first [left; f_equal; Z.div_mod_to_equations; lia | right; f_equal; Z.div_mod_to_equations; lia]]
        |apply (K (x / 2 + 1) (y / 2)); unfold touches, in_maze; cbn [cx cy fst snd]; rewrite ?Z.odd_add, ?Oy; cbn;
           [Z.div_mod_to_equations; lia | first [left; f_equal; Z.div_mod_to_equations; lia | right; f_equal; Z.div_mod_to_equations; lia]
           | first [left; f_equal; Z.div_mod_to_equations; lia | right; f_equal; Z.div_mod_to_equations; lia]]].
Qed.
Variable s : Z * Z.
Definition reached (d : coord) : Prop := forall x, touches d x -> in_maze W x -> linked W open s x.
Lemma adjacent_reached c d : valid W c -> valid W d -> adjacent c d -> open d = true -> reached c -> reached d.
Proof.
  intros Vc Vd A O R y Ty My. destruct (adjacent_common c d Vc Vd A) as (x & T1 & T2 & Mx).
  apply linked_trans with x; [exact (R x T1 Mx) | exact (wall_linked d x y Vd O T2 Ty Mx My)].
Qed.

Lemma dirs_even c v : In v (dirs c) -> Z.odd (fst v + snd v) = false.
Proof. unfold dirs, straight_dirs. destruct (Z.odd (cy c)); cbn; intros H; decompose [or] H; subst; try contradiction; reflexivity. Qed.
Lemma dirs_keep c v k : In v (dirs c) -> In v (dirs (shift c v k)).
Proof.
  unfold dirs, straight_dirs, shift. cbn [cy]. rewrite Z.odd_add, Z.odd_mul.
  destruct (Z.odd (cy c)); cbn [app In]; intros H; decompose [or] H; subst; try contradiction; cbn [snd]; try tauto;
  cbn [Z.odd]; rewrite andb_false_r; cbn; tauto.
Qed.
Lemma run_reached c d : valid W c -> run W open c d -> reached c -> valid W d /\ reached d.
Proof.
  intros Vc (v & V & n & Hn & -> & F) R.
  assert (K : forall m, 0 <= Z.of_nat m <= n -> valid W (shift c v (Z.of_nat m)) /\ reached (shift c v (Z.of_nat m))).
  { assert (S0 : shift c v 0 = c) by (destruct c; unfold shift; cbn; f_equal; lia).
    induction m as [|m IH]; intros Hm; [change (Z.of_nat 0) with 0; rewrite S0; split; assumption|].
    destruct (IH ltac:(lia)) as [V1 R1]. destruct (F (Z.of_nat (S m)) ltac:(lia)) as [B O].
    assert (V2 : valid W (shift c v (Z.of_nat (S m)))).
    { split; [exact B|]. destruct Vc as [_ Oc]. assert (E := dirs_even _ _ V). unfold shift. cbn [cx cy].
      replace (cx c + Z.of_nat (S m) * fst v + (cy c + Z.of_nat (S m) * snd v)) with ((cx c + cy c) + Z.of_nat (S m) * (fst v + snd v)) by ring.
      rewrite Z.odd_add, Z.odd_mul, Oc, E, andb_false_r. reflexivity. }
    split; [exact V2|]. apply (adjacent_reached (shift c v (Z.of_nat m))); try assumption.
    exists v. split; [apply dirs_keep, V|]. unfold shift. cbn [cx cy]. f_equal; lia. }
  specialize (K (Z.to_nat n) ltac:(lia)). rewrite Z2Nat.id in K by lia. exact K.
Qed.
Lemma route_reached c g l : valid W c -> route W open c g l -> reached c -> reached g.
Proof.
  intros Vc [C L]. revert c Vc C L. induction l as [|d l IH]; intros c Vc C L R; cbn [last] in L; [subst g; exact R|].
  destruct C as [H C]. destruct (run_reached c d Vc H R) as [Vd Rd]. apply (IH d Vd C); [|exact Rd].
  rewrite <- L. clear. revert d. induction l as [|a l IH]; intros d; [reflexivity|]. cbn [last] in *. destruct l; [reflexivity | apply IH].
Qed.
End Ways.

(** ** the planners *)
Lemma cheap_run W open is_goal cost cmax B s p e :
  supported W -> (forall k, 0 <= cost k) ->
  (forall k, In k [KStraight 1; KStraightDiagonal 1; KSlalom45; KSlalom90; KSlalom135; KSlalom180; KSlalomDiagonal90] -> cost k <= B) ->
  in_maze W s -> (forall q, passage W open s q -> q = p) -> linked W open s e ->
  (forall q, is_diag q = false -> is_goal (Nde (2 * fst e) (2 * snd e) q) = true) ->
  exists l g c, rpath W open cost cmax (Nde (2 * fst s) (2 * snd s) (P8 p)) l g c /\ is_goal g = true /\ c <= B * (W * W).
Proof.
  intros HW Hc HB S Ex Lk G. assert (HW' := supported_bounds W HW).
  assert (B0 : 0 <= B) by (eapply Z.le_trans; [apply (Hc KSlalom45) | apply HB; cbn; auto]).
  destruct (simple_way W open s e Lk) as (l & Wy & N). assert (SH := simple_short W open s l e ltac:(lia) S Wy N).
  destruct l as [|q l].
  - apply way_end in Wy. subst e. exists [Nde (2 * fst s) (2 * snd s) (P8 p)], (Nde (2 * fst s) (2 * snd s) (P8 p)), 0.
    split; [constructor|]. split; [apply G; destruct p; reflexivity | nia].
  - assert (Eq := Ex q (proj1 (way_inv _ _ _ _ _ _ Wy))). subst q.
    destruct (proj1 (tame_drive W open cost cmax B Hc HB (length l)) l s p e (le_n _) (simple_tame _ _ N) S Wy) as (q & pa & c & PT & CB).
    exists pa, (cn e q), c. split; [exact PT|]. split; [apply G; destruct q; reflexivity|].
    cbn [length] in SH. nia.
Qed.
Lemma run_answers W open is_wall is_goal cost cmax tie B start :
  supported W -> within_memory W open start B cost -> (forall c, valid W c -> is_wall c = Ret (negb (open c))) -> (forall k, 0 <= cost k) -> 0 < cmax ->
  valid_node W start ->
  ((exists l g c, rpath W open cost cmax start l g c /\ is_goal g = true /\ c < cmax) ->
   exists l g c, rpath W open cost cmax start l g c /\ is_goal g = true /\ c <= B * (W * W)) ->
  (exists path c g, run_path W is_goal is_wall cost cmax tie start = Ret (Some (path, c)) /\
     rpath W open cost cmax start path g c /\ is_goal g = true /\ c < cmax /\
     forall l g' c', rpath W open cost cmax start l g' c' -> is_goal g' = true -> c <= c') \/
  (run_path W is_goal is_wall cost cmax tie start = Ret None /\
   forall l g c, rpath W open cost cmax start l g c -> is_goal g = true -> cmax <= c).
Proof.
  intros HW M Hok Hc M0 VN CH. destruct M as [H8|(U & ms & C & L & P)].
  - exact (run_optimal W open is_wall is_goal cost cmax tie start HW Hok Hc M0 VN H8).
  - apply (run_optimal_modest W open is_wall is_goal cost cmax tie start HW Hok Hc M0 VN U ms C L).
    destruct P as [P|(b & b0 & Hb & P)]; [left; exact P | right; exists b; split; [exact b0|]; split; [exact Hb|]].
    intros X. destruct (CH X) as (l & g & c & R & G & K). exists l, g, c. split; [exact R|]. split; [exact G | lia].
Qed.
