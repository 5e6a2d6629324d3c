(** Property theorems C01, C02, C11-C22, C24 about the search solver.
    Each theorem is followed by an [Example] showing a concrete, non-trivial case. *)
From Coq Require Import ZArith List Bool Lia Arith Permutation.
From Verif Require Import Base SearchModel SearchSpec SearchCoord SearchMain SearchThm SearchThm2 SearchState.
Import ListNotations.
Open Scope Z_scope.

(** ** C01 *)
Theorem C01_coordinate_new : forall W x y, 0 <= W < 256 -> 0 <= x < 256 -> 0 <= y < 256 ->
  (supported W ->
     (coord_new W x y = Some (Co x y) /\ valid W (Co x y)) \/
     (coord_new W x y = None /\ ~ valid W (Co x y))) /\
  ((forall k, 0 <= k -> W <> 2 ^ k) -> coord_new W x y = None).
Proof. exact coordinate_new_exact. Qed.
Print Assumptions C01_coordinate_new.

Example C01_case : supported 16 /\ coord_new 16 31 2 = Some (Co 31 2) /\ coord_new 16 32 1 = None /\
  coord_new 16 3 3 = None /\ coord_new 12 1 2 = None /\ forall k, 0 <= k -> 12 <> 2 ^ k.
Proof. repeat split; try reflexivity; [unfold supported; tauto|]. exact twelve_not_pow. Qed.

(** ** C02: [as_index] is the slot number; [/ 4] is the byte of [Walls], [/ 8] that of the filters. *)
Theorem C02_storage : forall W, supported W ->
  (forall c d, valid W c -> valid W d -> as_index W c = as_index W d -> c = d) /\
  (forall c, valid W c -> 0 <= as_index W c < 2 * W * W /\ as_index W c < 2048 /\
                          as_index W c / 4 < 512 /\ as_index W c / 8 < 256) /\
  (forall i, 0 <= i < 2 * W * W -> exists c, valid W c /\ as_index W c = i).
Proof. exact storage_exact. Qed.
Print Assumptions C02_storage.

Example C02_case : valid 32 (Co 63 62) /\ valid 32 (Co 62 63) /\ as_index 32 (Co 63 62) = 2046 /\
  as_index 32 (Co 62 63) = 2047.
Proof. repeat split; vm_compute; congruence. Qed.

(** A 4x4 maze: mazes/maze4_1.dat. *)
Definition m4_closed : list coord :=
  [Co 1 0; Co 4 1; Co 5 0; Co 7 0; Co 1 2; Co 3 2; Co 7 2; Co 1 4; Co 2 5; Co 4 5; Co 5 4; Co 7 4;
   Co 0 7; Co 2 7; Co 4 7; Co 6 7; Co 7 6].
Definition m4_wall (c : coord) : bool := existsb (coord_eqb c) m4_closed.
Definition m4_open (c : coord) : bool := negb (m4_wall c).
(** The same maze half explored: the walls with [x <= 2] are known. *)
Definition m4_ws (c : coord) : wall_state := if cx c <=? 2 then Checked (m4_wall c) else Unchecked.


Definition m4_goals := [Co 2 1; Co 3 0].

(** ** C11 *)
Theorem C11_path_legal : forall W start goals se isw open,
  supported W -> valid W start -> Forall (valid W) goals ->
  searcher_new W start goals = Ret se ->
  (forall c, valid W c -> isw c = Ret (negb (open c))) ->
  forall path, shortest_path W se isw = Ret (Some path) ->
  exists g l, path = start :: l /\ l <> [] /\ In g goals /\ g <> start /\ route W open start g l.
Proof. exact path_legal. Qed.
Print Assumptions C11_path_legal.

Example C11_case : exists se, searcher_new 4 (Co 0 1) m4_goals = Ret se /\
  Forall (valid 4) (Co 0 1 :: m4_goals) /\ supported 4 /\
  (forall c, valid 4 c -> Ret (m4_wall c) = Ret (negb (m4_open c))) /\
  shortest_path 4 se (fun c => Ret (m4_wall c)) =
    Ret (Some [Co 0 1; Co 0 5; Co 1 6; Co 5 6; Co 6 5; Co 6 1; Co 3 4; Co 2 3; Co 2 1]).
Proof.
  eexists. split; [vm_compute; reflexivity|]. split; [repeat constructor; simpl; lia|].
  split; [unfold supported; tauto|]. split; [|vm_compute; reflexivity].
  intros c _. unfold m4_open. now rewrite negb_involutive.
Qed.

(** ** C12: a path of [n] entries is a route of [n - 1] runs. *)
Theorem C12_path_optimal : forall W start goals se isw open,
  supported W -> valid W start -> Forall (valid W) goals ->
  searcher_new W start goals = Ret se ->
  (forall c, valid W c -> isw c = Ret (negb (open c))) ->
  forall path, shortest_path W se isw = Ret (Some path) ->
  forall g l, In g goals -> g <> start -> route W open start g l -> (length path <= length (start :: l))%nat.
Proof. exact path_optimal. Qed.
Print Assumptions C12_path_optimal.

Example C12_case : route 4 m4_open (Co 0 1) (Co 2 1)
   [Co 0 3; Co 0 5; Co 1 6; Co 3 6; Co 5 6; Co 6 5; Co 6 1; Co 3 4; Co 2 3; Co 2 1].
Proof.
  assert (R1 : forall c d v, In v (dirs c) -> d = shift c v 1 -> on_board 4 d -> m4_open d = true -> run 4 m4_open c d).
  { intros c d v Hv -> B O. exists v. split; [exact Hv|]. exists 1. split; [lia|]. split; [reflexivity|].
    intros k Hk. replace k with 1 by lia. auto. }
  split; [|reflexivity]. cbn [chain].
  repeat split;
    try (eapply R1; [|vm_compute; reflexivity|split; simpl; lia|reflexivity]; simpl; tauto).
  - eapply (R1 _ _ (0, 2)); [simpl; tauto|reflexivity|split; simpl; lia|reflexivity].
  - eapply (R1 _ _ (0, 2)); [simpl; tauto|reflexivity|split; simpl; lia|reflexivity].
  - eapply (R1 _ _ (1, 1)); [simpl; tauto|reflexivity|split; simpl; lia|reflexivity].
  - eapply (R1 _ _ (2, 0)); [simpl; tauto|reflexivity|split; simpl; lia|reflexivity].
  - eapply (R1 _ _ (2, 0)); [simpl; tauto|reflexivity|split; simpl; lia|reflexivity].
  - eapply (R1 _ _ (1, -1)); [simpl; tauto|reflexivity|split; simpl; lia|reflexivity].
  - exists (0, -2). split; [simpl; tauto|]. exists 2. split; [lia|]. split; [reflexivity|].
    intros k Hk. assert (k = 1 \/ k = 2) as [->| ->] by lia; (split; [split; simpl; lia|reflexivity]).
  - exists (-1, 1). split; [simpl; tauto|]. exists 3. split; [lia|]. split; [reflexivity|].
    intros k Hk. assert (k = 1 \/ k = 2 \/ k = 3) as [->|[->| ->]] by lia; (split; [split; simpl; lia|reflexivity]).
  - eapply (R1 _ _ (-1, -1)); [simpl; tauto|reflexivity|split; simpl; lia|reflexivity].
  - eapply (R1 _ _ (0, -2)); [simpl; tauto|reflexivity|split; simpl; lia|reflexivity].
Qed.

(** ** C13 *)
Theorem C13_path_complete : forall W start goals se isw open,
  supported W -> valid W start -> Forall (valid W) goals ->
  searcher_new W start goals = Ret se ->
  (forall c, valid W c -> isw c = Ret (negb (open c))) ->
  (shortest_path W se isw = Ret None <-> forall g l, In g goals -> g <> start -> ~ route W open start g l).
Proof. exact path_complete. Qed.
Print Assumptions C13_path_complete.

Example C13_case : exists se, searcher_new 4 (Co 0 1) [Co 6 1] = Ret se /\
  shortest_path 4 se (fun c => Ret (m4_wall c)) <> Ret None /\
  shortest_path 4 se (fun c => Ret (m4_wall c || coord_eqb c (Co 6 5))) = Ret None.
Proof. eexists. split; [vm_compute; reflexivity|]. split; vm_compute; [discriminate|reflexivity]. Qed.

(** ** C14: false — a goal equal to the start is not reported when nothing else is reachable. *)
Theorem C14_start_is_goal_refuted : exists W start goals se isw,
  supported W /\ valid W start /\ In start goals /\ Forall (valid W) goals /\
  (forall c, exists b, isw c = Ret b) /\
  searcher_new W start goals = Ret se /\ shortest_path W se isw = Ret None.
Proof.
  exists 4, (Co 0 1), [Co 0 1]. eexists. exists (fun _ => Ret true).
  split; [unfold supported; tauto|]. split; [split; [split; simpl; lia|reflexivity]|].
  split; [now left|]. split; [repeat constructor; simpl; lia|]. split; [eauto|].
  split; [vm_compute; reflexivity|]; vm_compute; reflexivity.
Qed.
Print Assumptions C14_start_is_goal_refuted.

(** The part that holds: a path is returned whenever some goal other than the start is reachable. *)
Theorem C14_start_is_goal_partial : forall W start goals se isw open,
  supported W -> valid W start -> Forall (valid W) goals -> In start goals ->
  searcher_new W start goals = Ret se ->
  (forall c, valid W c -> isw c = Ret (negb (open c))) ->
  (exists g l, In g goals /\ g <> start /\ route W open start g l) ->
  exists path, shortest_path W se isw = Ret (Some path).
Proof.
  intros W start goals se isw open HW Hs Hg _ Es Hw (g & l & G1 & G2 & G3).
  destruct (path_ok W HW start Hs goals Hg se Es isw open Hw) as [[_ U]|(l' & E & _)]; [|eauto].
  exfalso. exact (U g l G1 G2 G3).
Qed.
Print Assumptions C14_start_is_goal_partial.

Example C14_case : exists se p, searcher_new 4 (Co 0 1) [Co 0 1; Co 2 1] = Ret se /\
  shortest_path 4 se (fun c => Ret (m4_wall c)) = Ret (Some p) /\ length p = 9%nat.
Proof. eexists. eexists. split; [vm_compute; reflexivity|]. split; [vm_compute; reflexivity|]; vm_compute; reflexivity. Qed.

(** ** C15: every call returns ([Ret]); neither [Panic] nor [Fuel] (divergence) is possible.
    The callbacks are arbitrary total functions of the coordinates they receive. *)
Theorem C15_no_panic : forall W start goals current isw open wsr ws,
  supported W -> valid W start -> Forall (valid W) goals -> valid W current ->
  (forall c, valid W c -> isw c = Ret (open c)) -> (forall c, on_board W c -> wsr c = Ret (ws c)) ->
  exists se, searcher_new W start goals = Ret se /\
   (exists r, shortest_path W se isw = Ret r) /\
   exists r, search W se current wsr = Ret r /\
     forall cs, r = SSome cs -> forall wsr' ws', (forall c, valid W c -> wsr' c = Ret (ws' c)) ->
       (exists n, next_coordinate cs wsr' = Ret n) /\ (exists n, force_next_coordinate cs wsr' = Ret n).
Proof. exact no_panic. Qed.
Print Assumptions C15_no_panic.

Example C15_case : exists se, searcher_new 32 (Co 62 61) [Co 0 1; Co 63 62] = Ret se /\
  exists p, shortest_path 32 se (fun c => Ret (coord_eqb c (Co 63 62))) = Ret (Some p) /\
  search 32 se (Co 63 60) (fun c => Ret Unchecked) = Ret (SSome [Co 62 61; Co 62 59; Co 61 60]).
Proof. eexists. split; [vm_compute; reflexivity|]. eexists. split; [vm_compute; reflexivity|]; vm_compute; reflexivity. Qed.

(** ** C16 *)
Theorem C16_done_is_optimal : forall W start goals se wsr ws current,
  supported W -> valid W start -> Forall (valid W) goals -> valid W current ->
  searcher_new W start goals = Ret se ->
  (forall c, on_board W c -> wsr c = Ret (ws c)) ->
  search W se current wsr = Ret SNone ->
  exists l, best_route W (known_open ws) start goals l /\
    (exists l', shortest_path W se (fun c => let* s := wsr c in Ret (negb (is_checked_false s)))
                = Ret (Some (start :: l')) /\
       best_route W (known_open ws) start goals l' /\ length l' = length l) /\
    forall open, consistent W ws open -> best_route W open start goals l.
Proof.
  intros W start goals se wsr ws current HW Hs Hg Hc Es Hw.
  exact (search_done W HW start Hs goals Hg se Es wsr ws Hw current Hc).
Qed.
Print Assumptions C16_done_is_optimal.

(** Known: the walls met by the optimal route and around it; the rest is unknown. *)
Definition m4_known : list coord :=
  [Co 0 1; Co 0 3; Co 0 5; Co 1 6; Co 3 6; Co 5 6; Co 6 5; Co 6 3; Co 6 1; Co 5 2; Co 4 3; Co 3 4; Co 2 3; Co 2 1;
   Co 1 2; Co 1 4; Co 7 2; Co 7 4; Co 3 2; Co 1 0; Co 4 5; Co 7 6; Co 2 5; Co 5 4; Co 4 1; Co 5 0; Co 0 7; Co 2 7; Co 4 7; Co 6 7].
Definition m4_ws_done (c : coord) : wall_state :=
  if existsb (fun d => (as_index 4 c =? as_index 4 d)) m4_known then Checked (m4_wall (slot_wall c)) else Unchecked.

Example C16_case : exists se, searcher_new 4 (Co 0 1) m4_goals = Ret se /\
  search 4 se (Co 2 3) (fun c => Ret (m4_ws_done c)) = Ret SNone /\
  m4_ws_done (Co 3 0) = Unchecked /\ consistent 4 m4_ws_done m4_open.
Proof.
  eexists. split; [vm_compute; reflexivity|]. split; [vm_compute; reflexivity|]. split; [reflexivity|].
  intros d b Vd E. unfold m4_ws_done in E. destruct (existsb _ _); [|discriminate].
  rewrite (slot_wall_valid 4) in E by exact Vd. injection E as <-. reflexivity.
Qed.

(** ** C17: false — a grid point between two walls of a straight run is looked up too; it shares
    its slot with the wall beside the run, here (1,2), which is not on the route. *)
Theorem C17_done_when_known_refuted : exists W start goals se current ws l,
  supported W /\ valid W start /\ Forall (valid W) goals /\ valid W current /\ slotwise W ws /\
  searcher_new W start goals = Ret se /\
  shortest_path W se (fun c => Ret (is_checked_true (ws c))) = Ret (Some (start :: l)) /\
  (forall e, valid W e -> passes start l e -> ws e <> Unchecked) /\
  search W se current (fun c => Ret (ws c)) <> Ret SNone.
Proof. exact done_when_known_refuted. Qed.
Print Assumptions C17_done_when_known_refuted.

(** The part that holds: also the in-between grid points (whose slot belongs to a neighbouring wall)
    must read as checked. *)
Theorem C17_done_when_known_partial : forall W start goals se wsr ws current l,
  supported W -> valid W start -> Forall (valid W) goals -> valid W current ->
  searcher_new W start goals = Ret se ->
  (forall c, on_board W c -> wsr c = Ret (ws c)) ->
  shortest_path W se (fun c => let* s := wsr c in Ret (is_checked_true s)) = Ret (Some (start :: l)) ->
  (forall e, passes start l e -> ws e <> Unchecked) ->
  search W se current wsr = Ret SNone.
Proof.
  intros W start goals se wsr ws current l HW Hs Hg Hc Es Hw.
  exact (search_known W HW start Hs goals Hg se Es wsr ws Hw current Hc l).
Qed.
Print Assumptions C17_done_when_known_partial.

Example C17_case : exists se p, searcher_new 4 (Co 0 1) m4_goals = Ret se /\
  shortest_path 4 se (fun c => let* s := Ret (m4_ws_done c) in Ret (is_checked_true s)) = Ret (Some p) /\
  length p = 9%nat.
Proof. eexists. eexists. split; [vm_compute; reflexivity|]. split; [vm_compute; reflexivity|]; vm_compute; reflexivity. Qed.

(** ** C18: false — [search] calls [wall_state] with coordinates [Coordinate::new] rejects. *)
Theorem C18_valid_callbacks_refuted : exists W start goals se current wsr,
  supported W /\ valid W start /\ Forall (valid W) goals /\ valid W current /\
  searcher_new W start goals = Ret se /\
  (forall c, valid W c -> exists s, wsr c = Ret s) /\
  (forall c, ~ valid W c -> wsr c = Panic) /\
  search W se current wsr = Panic.
Proof. exact valid_callbacks_refuted. Qed.
Print Assumptions C18_valid_callbacks_refuted.

(** What holds: only coordinates inside the doubled grid are passed (a callback defined there only
    is enough for [search] to return), and [shortest_path] passes accepted coordinates only. *)
Theorem C18_valid_callbacks_partial : forall W start goals current isw open wsr ws,
  supported W -> valid W start -> Forall (valid W) goals -> valid W current ->
  (forall c, valid W c -> isw c = Ret (open c)) -> (forall c, ~ valid W c -> isw c = Panic) ->
  (forall c, on_board W c -> wsr c = Ret (ws c)) -> (forall c, ~ on_board W c -> wsr c = Panic) ->
  exists se, searcher_new W start goals = Ret se /\
   (exists r, shortest_path W se isw = Ret r) /\ (exists r, search W se current wsr = Ret r).
Proof.
  intros W start goals current isw open wsr ws HW Hs Hg Hc Hi _ Hw _.
  destruct (no_panic W start goals current isw open wsr ws HW Hs Hg Hc Hi Hw) as (se & E & H1 & r & H2 & _).
  eauto.
Qed.
Print Assumptions C18_valid_callbacks_partial.

Definition strict (W : Z) (c : coord) : bool :=
  (0 <=? cx c) && (cx c <? 2 * W) && (0 <=? cy c) && (cy c <? 2 * W).
Example C18_case : exists se, searcher_new 4 (Co 0 1) m4_goals = Ret se /\
  search 4 se (Co 0 3) (fun c => if strict 4 c then Ret (m4_ws c) else Panic) = Ret (SSome [Co 0 5; Co 0 1]) /\
  exists p, shortest_path 4 se (fun c => if strict 4 c && Z.odd (cx c + cy c) then Ret (m4_wall c) else Panic)
    = Ret (Some p).
Proof. eexists. split; [vm_compute; reflexivity|]. split; [vm_compute; reflexivity|]. eexists. vm_compute. reflexivity. Qed.

(** ** C19: [wanted] = walls whose slot is passed, while unknown, by the optimistic route [start :: l]. *)
Theorem C19_nearest_first : forall W start goals se wsr ws current cs,
  supported W -> valid W start -> Forall (valid W) goals -> valid W current ->
  searcher_new W start goals = Ret se ->
  (forall c, on_board W c -> wsr c = Ret (ws c)) ->
  search W se current wsr = Ret (SSome cs) ->
  exists l f rest m d,
    shortest_path W se (fun c => let* s := wsr c in Ret (is_checked_true s)) = Ret (Some (start :: l)) /\
    best_route W (maybe_open ws) start goals l /\
    cs = f :: rest /\ step W (maybe_open ws) current f /\
    chain (step W (maybe_open ws)) current (f :: m) /\ last (f :: m) current = d /\
    wanted W ws start l d /\ d <> current /\
    forall d' m', wanted W ws start l d' -> d' <> current ->
      chain (step W (maybe_open ws)) current m' -> last m' current = d' -> (length (f :: m) <= length m')%nat.
Proof.
  intros W start goals se wsr ws current cs HW Hs Hg Hc Es Hw.
  exact (search_nearest W HW start Hs goals Hg se Es wsr ws Hw current Hc cs).
Qed.
Print Assumptions C19_nearest_first.

Example C19_case : exists se, searcher_new 4 (Co 0 1) m4_goals = Ret se /\
  search 4 se (Co 0 3) (fun c => Ret (m4_ws c)) = Ret (SSome [Co 0 5; Co 0 1]).
Proof. eexists. split; [vm_compute; reflexivity|]; vm_compute; reflexivity. Qed.

(** ** C20 *)
Theorem C20_candidates : forall W start goals se wsr ws current cs,
  supported W -> valid W start -> Forall (valid W) goals -> valid W current ->
  searcher_new W start goals = Ret se ->
  (forall c, on_board W c -> wsr c = Ret (ws c)) ->
  search W se current wsr = Ret (SSome cs) ->
  NoDup cs /\
  (forall d, In d cs <-> adjacent current d /\ on_board W d /\ ws d <> Checked true) /\
  exists f A B cell other, cs = f :: A ++ B /\
    touches current cell /\ touches current other /\ cell <> other /\
    touches f cell /\ (forall a, In a A -> touches a cell) /\
    (forall b, In b B -> touches b other /\ ~ touches b cell).
Proof.
  intros W start goals se wsr ws current cs HW Hs Hg Hc Es Hw H.
  destruct (search_candidates W HW start Hs goals Hg se Es wsr ws Hw current Hc cs H) as (H1 & H2 & H3).
  split; [exact H1|]. split; [|exact H3]. intros d. rewrite H2. unfold step, maybe_open.
  destruct (ws d) as [|[]]; intuition congruence.
Qed.
Print Assumptions C20_candidates.

Example C20_case : exists se, searcher_new 4 (Co 0 1) m4_goals = Ret se /\
  search 4 se (Co 2 5) (fun _ => Ret Unchecked) =
    Ret (SSome [Co 2 3; Co 3 4; Co 1 4; Co 1 6; Co 3 6; Co 2 7]) .
Proof. eexists. split; [vm_compute; reflexivity|]; vm_compute; reflexivity. Qed.

(** ** C21 *)
Theorem C21_err_iff : forall W start goals se wsr ws current,
  supported W -> valid W start -> Forall (valid W) goals -> valid W current ->
  searcher_new W start goals = Ret se ->
  (forall c, on_board W c -> wsr c = Ret (ws c)) ->
  (search W se current wsr = Ret SErr <->
   (forall g l, In g goals -> g <> start -> ~ route W (maybe_open ws) start g l) \/
   exists l,
     shortest_path W se (fun c => let* s := wsr c in Ret (is_checked_true s)) = Ret (Some (start :: l)) /\
     best_route W (maybe_open ws) start goals l /\
     (exists e, passes start l e /\ ws e = Unchecked) /\
     forall d, wanted W ws start l d -> d <> current -> ~ reaches (step W (maybe_open ws)) current d).
Proof.
  intros W start goals se wsr ws current HW Hs Hg Hc Es Hw.
  exact (search_err W HW start Hs goals Hg se Es wsr ws Hw current Hc).
Qed.
Print Assumptions C21_err_iff.

Theorem C21_no_spurious_err : forall W start goals se wsr ws current open,
  supported W -> valid W start -> Forall (valid W) goals -> valid W current ->
  searcher_new W start goals = Ret se ->
  (forall c, on_board W c -> wsr c = Ret (ws c)) ->
  slotwise W ws -> consistent W ws open ->
  (exists g l, In g goals /\ g <> start /\ route W open start g l) ->
  ws current <> Unchecked -> reaches (step W (maybe_open ws)) current start ->
  search W se current wsr <> Ret SErr.
Proof.
  intros W start goals se wsr ws current open HW Hs Hg Hc Es Hw.
  exact (search_not_err W HW start Hs goals Hg se Es wsr ws Hw current Hc open).
Qed.
Print Assumptions C21_no_spurious_err.

Example C21_case : exists se, searcher_new 4 (Co 0 1) m4_goals = Ret se /\
  search 4 se (Co 0 3) (fun c => Ret (if cx c <=? 1 then Checked (negb (coord_eqb c (Co 0 1))) else Unchecked)) = Ret SErr /\
  search 4 se (Co 5 2) (fun c => Ret (if cx c <=? 3 then Checked (m4_wall c) else if cx c =? 5 then Checked (negb (coord_eqb c (Co 5 2))) else if cx c =? 4 then Checked true else Unchecked)) = Ret SErr.
Proof. eexists. split; [vm_compute; reflexivity|]. split; [vm_compute; reflexivity|]; vm_compute; reflexivity. Qed.

(** ** C22 *)
Theorem C22_next_coordinate : forall wsr ws, (forall c, wsr c = Ret (ws c)) -> forall cs,
  match next_coordinate cs wsr with
  | Ret (NSome c) => exists pre post, cs = pre ++ c :: post /\ ws c = Checked false /\
                       Forall (fun p => ws p = Checked true) pre
  | Ret NNone => exists pre c post, cs = pre ++ c :: post /\ ws c = Unchecked /\
                       Forall (fun p => ws p = Checked true) pre
  | Ret NErr => Forall (fun p => ws p = Checked true) cs
  | _ => False
  end /\
  match force_next_coordinate cs wsr with
  | Ret (Some c) => exists pre post, cs = pre ++ c :: post /\ ws c = Checked false /\
                       Forall (fun p => ws p <> Checked false) pre
  | Ret None => Forall (fun p => ws p <> Checked false) cs
  | _ => False
  end.
Proof. intros wsr ws H cs. split; [exact (next_spec ws wsr H cs)|exact (force_spec ws wsr H cs)]. Qed.
Print Assumptions C22_next_coordinate.

Example C22_case :
  next_coordinate [Co 0 3; Co 1 2; Co 1 0] (fun c => Ret (if cx c =? 0 then Checked true else if cy c =? 2 then Unchecked else Checked false)) = Ret NNone /\
  force_next_coordinate [Co 0 3; Co 1 2; Co 1 0] (fun c => Ret (if cx c =? 0 then Checked true else if cy c =? 2 then Unchecked else Checked false)) = Ret (Some (Co 1 0)).
Proof. split; reflexivity. Qed.

(** ** C24 *)
Theorem C24_search_state : forall W, supported W ->
  (forall c p, valid W c ->
     (ss_new c p = Some (SS c p) /\ crosses c p) \/ (ss_new c p = None /\ ~ crosses c p)) /\
  (forall s n, valid W (ss_coord s) -> valid W n -> crosses (ss_coord s) (ss_posture s) ->
     (adjacent (ss_coord s) n /\ exists k c' p', ss_update s n = Ret (SS c' p', Some k) /\
        moves (ss_coord s) (ss_posture s) n k c' p' /\ valid W c' /\ crosses c' p') \/
     (~ adjacent (ss_coord s) n /\ ss_update s n = Ret (s, None))) /\
  (forall c p s ns, valid W c -> ss_new c p = Some s -> Forall (valid W) ns ->
     exists s', ss_updates s ns = Ret s' /\ valid W (ss_coord s') /\ crosses (ss_coord s') (ss_posture s')).
Proof. exact search_state_ok. Qed.
Print Assumptions C24_search_state.

Example C24_case : exists s, ss_new (Co 0 1) North = Some s /\
  ss_updates s [Co 0 3; Co 1 4; Co 6 6; Co 0 3] = Ret (SS (Co 1 4) West) /\ ss_new (Co 0 1) East = None.
Proof. eexists. repeat split; reflexivity. Qed.
