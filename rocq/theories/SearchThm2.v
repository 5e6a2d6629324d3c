(** The search properties C16-C22, C24 derived from [search_ok]. *)
From Coq Require Import ZArith List Bool Lia Arith Permutation ZifyBool.
From Verif Require Import Base SearchModel SearchSpec SearchCoord SearchBfs SearchBfsInv SearchPath SearchUnk SearchCand SearchMain SearchThm.
Import ListNotations.
Open Scope Z_scope.
Ltac Zify.zify_post_hook ::= Z.div_mod_to_equations.

(** [open] describes an actual maze that agrees with everything known in [ws]. *)
Definition consistent (W : Z) (ws : coord -> wall_state) (open : coord -> bool) : Prop :=
  forall d b, valid W d -> ws d = Checked b -> open d = negb b.

Lemma consistent_mo W ws open d : consistent W ws open -> valid W d -> open d = true -> maybe_open ws d = true.
Proof.
  intros C V O. unfold maybe_open. destruct (ws d) as [|[]] eqn:E; auto.
  rewrite (C d true V E) in O. discriminate.
Qed.
Lemma consistent_ko W ws open d : consistent W ws open -> valid W d -> known_open ws d = true -> open d = true.
Proof.
  intros C V O. unfold known_open in O. destruct (ws d) as [|[]] eqn:E; try discriminate.
  now rewrite (C d false V E).
Qed.

Section S.
Variable W : Z.
Hypothesis HW : supported W.
Variable start : coord.
Hypothesis Hstart : valid W start.
Variable goals : list coord.
Hypothesis Hgoals : Forall (valid W) goals.
Variable se : searcher.
Hypothesis Hse : searcher_new W start goals = Ret se.

Lemma path_ok isw op : (forall c, valid W c -> isw c = Ret (negb (op c))) ->
  (shortest_path W se isw = Ret None /\ unreachable W op start goals) \/
  (exists l, shortest_path W se isw = Ret (Some (start :: l)) /\ best_route W op start goals l /\ l <> []).
Proof.
  intros Hw.
  destruct (searcher_new_ok W HW start goals Hgoals) as (gf & Es & Hgf & Hg).
  rewrite Es in Hse. injection Hse as <-.
  destruct (shortest_path_ok W HW op start Hstart gf Hgf isw Hw)
    as [[E H]|(g & l & E & Vg & Gg & Ng & [Cl Ll] & Min)].
  - left. split; [exact E|]. intros g l Hgin Hne Hr.
    rewrite Forall_forall in Hgoals. pose proof (Hgoals g Hgin) as Vg.
    apply (H g l Vg); auto. now apply Hg.
  - right. exists l. split; [exact E|].
    split; [|intros ->; simpl in Ll; congruence].
    split.
    + exists g. split; [now apply Hg|]. split; [exact Ng|]. split; assumption.
    + intros g' l' Hg' Ng' R'. apply (Min g' l'); auto.
      rewrite Forall_forall in Hgoals. apply Hg; auto.
Qed.

Variable wsr : coord -> res wall_state.
Variable ws : coord -> wall_state.
Hypothesis Hws : forall c, on_board W c -> wsr c = Ret (ws c).
Variable current : coord.
Hypothesis Hcur : valid W current.

Notation mo := (maybe_open ws).

Lemma search_total : exists r, search W se current wsr = Ret r /\
  search_spec W start goals wsr ws current r.
Proof.
  destruct (search_ok W HW start Hstart goals Hgoals wsr ws Hws current Hcur) as (se' & r & E & S & P).
  rewrite Hse in E. injection E as <-. eauto.
Qed.

Lemma search_inv r : search W se current wsr = Ret r -> search_spec W start goals wsr ws current r.
Proof. destruct search_total as (r' & E & P). rewrite E. now intros [= <-]. Qed.

(** C16 *)
Lemma search_done : search W se current wsr = Ret SNone ->
  exists l, best_route W (known_open ws) start goals l /\
    (exists l', shortest_path W se (fun c => let* s := wsr c in Ret (negb (is_checked_false s)))
                = Ret (Some (start :: l')) /\
       best_route W (known_open ws) start goals l' /\ length l' = length l) /\
    forall open, consistent W ws open ->
      best_route W open start goals l.
Proof.
  intros H. apply search_inv in H. destruct H as [H _|l B _ [[_ Hl]|[_ [[H _]|(? & ? & ? & ? & H & _)]]]]; try discriminate.
  assert (HB : forall op, (forall x, valid W x -> known_open ws x = true -> op x = true) ->
     (forall x, valid W x -> op x = true -> mo x = true) -> best_route W op start goals l).
  { intros op H1 H2. destruct B as [(g & G1 & G2 & G3 & G4) Bm]. split.
    - exists g. split; [exact G1|]. split; [exact G2|]. split; [|exact G4].
      apply (chain_restrict W mo); auto. intros e Ve Pe Me. apply H1; [exact Ve|].
      specialize (Hl e Pe). unfold maybe_open, known_open in *. destruct (ws e) as [|[]]; congruence.
    - intros g' l' G1' G2' R'. apply (Bm g' l'); auto. apply (route_mono W op mo); auto. }
  assert (BK : best_route W (known_open ws) start goals l).
  { apply HB; auto. intros x _. unfold maybe_open, known_open. destruct (ws x) as [|[]]; congruence. }
  exists l. split; [exact BK|]. split.
  - destruct (path_ok (fun c => let* s := wsr c in Ret (negb (is_checked_false s))) (known_open ws))
      as [[E U]|(l' & E & B' & _)].
    + intros c Vc. rewrite Hws by apply Vc. cbn [bind]. unfold known_open. destruct (ws c) as [|[]]; reflexivity.
    + exfalso. destruct BK as [(g & G1 & G2 & G3) _]. exact (U g l G1 G2 G3).
    + exists l'. split; [exact E|]. split; [exact B'|]. apply Nat.le_antisymm.
      * destruct BK as [(g & G1 & G2 & G3) _]. apply B' with g; auto.
      * destruct B' as [(g & G1 & G2 & G3) _]. apply BK with g; auto.
  - intros open C. apply HB.
    + intros x Vx. now apply (consistent_ko W).
    + intros x Vx. now apply (consistent_mo W).
Qed.

(** the route found when unknown walls count as open *)
Definition optimistic (l : list coord) : Prop :=
  shortest_path W se (fun c => let* s := wsr c in Ret (is_checked_true s)) = Ret (Some (start :: l)).

(** C17 (restricted) *)
Lemma search_known l : optimistic l -> (forall e, passes start l e -> ws e <> Unchecked) ->
  search W se current wsr = Ret SNone.
Proof.
  intros Hl Hk. destruct search_total as (r & E & P). rewrite E.
  destruct P as [-> U|l' B P' D].
  - exfalso. destruct (path_ok (fun c => let* s := wsr c in Ret (is_checked_true s)) mo)
      as [[E' _]|(l' & E' & [(g & G1 & G2 & G3) _] & _)].
    + intros c Vc. rewrite Hws by apply Vc. cbn [bind]. unfold maybe_open. destruct (ws c) as [|[]]; reflexivity.
    + unfold optimistic in Hl. congruence.
    + exact (U g l' G1 G2 G3).
  - pose proof (P' se Hse) as El. unfold optimistic in Hl. rewrite El in Hl. injection Hl as ->.
    destruct D as [[-> _]|[(e & P1 & P2) _]]; [reflexivity|]. exfalso. now apply (Hk e).
Qed.

(** C19 *)
Lemma search_nearest cs : search W se current wsr = Ret (SSome cs) ->
  exists l f rest m d, optimistic l /\ best_route W mo start goals l /\
    cs = f :: rest /\ step W mo current f /\
    chain (step W mo) current (f :: m) /\ last (f :: m) current = d /\
    wanted W ws start l d /\ d <> current /\
    forall d' m', wanted W ws start l d' -> d' <> current ->
      chain (step W mo) current m' -> last m' current = d' -> (length (f :: m) <= length m')%nat.
Proof.
  intros H. apply search_inv in H.
  destruct H as [H _|l B P' [[H _]|[_ [[H _]|(cs' & f & A & Bl & H & -> & (m & d & H1 & H2 & H3 & H4 & H5) & _)]]]]; try discriminate.
  injection H as ->. exists l, f, (A ++ Bl), m, d. split; [now apply P'|]. 
  split; [exact B|]. split; [reflexivity|]. split; [apply H1|]. auto.
Qed.

(** C20 *)
Lemma search_candidates cs : search W se current wsr = Ret (SSome cs) ->
  NoDup cs /\ (forall d, In d cs <-> step W mo current d) /\
  exists f A B cell other, cs = f :: A ++ B /\
    touches current cell /\ touches current other /\ cell <> other /\
    touches f cell /\ (forall a, In a A -> touches a cell) /\
    (forall b, In b B -> touches b other /\ ~ touches b cell).
Proof.
  intros H. apply search_inv in H.
  destruct H as [H _|l B P' [[H _]|[_ [[H _]|(cs' & f & A & Bl & H & -> & _ & ND & Hin & HA & HB)]]]]; try discriminate.
  injection H as ->. split; [exact ND|]. split; [exact Hin|].
  destruct Hcur as [_ Oc].
  assert (Sf : step W mo current f) by (apply Hin; now left).
  destruct Sf as ((v & Hv & Ef) & _).
  destruct (ahead_touches current v Oc Hv) as (T1 & T2 & T3).
  assert (Ho : exists other, touches current other /\ ahead current v <> other /\
     forall q, touches current q -> q <> ahead current v -> q = other).
  { unfold touches, ahead. destruct (Z.odd (cy current)).
    - destruct (0 <? snd v).
      + exists (cx current / 2, cy current / 2). split; [now left|]. split; [intros E; injection E; lia|].
        intros q [->| ->] N; [reflexivity|congruence].
      + exists (cx current / 2, cy current / 2 + 1). split; [now right|]. split; [intros E; injection E; lia|].
        intros q [->| ->] N; [congruence|reflexivity].
    - destruct (0 <? fst v).
      + exists (cx current / 2, cy current / 2). split; [now left|]. split; [intros E; injection E; lia|].
        intros q [->| ->] N; [reflexivity|congruence].
      + exists (cx current / 2 + 1, cy current / 2). split; [now right|]. split; [intros E; injection E; lia|].
        intros q [->| ->] N; [congruence|reflexivity]. }
  destruct Ho as (other & O1 & O2 & O3).
  exists f, A, Bl, (ahead current v), other. split; [reflexivity|]. split; [exact T1|].
  split; [exact O1|]. split; [exact O2|]. split; [now rewrite Ef|].
  apply NoDup_cons_iff in ND as [Nf _].
  assert (Dir : forall a, In a (A ++ Bl) -> exists w, In w (dirs current) /\ a = shift current w 1 /\ v <> w).
  { intros a Ha. assert (Sa : step W mo current a) by (apply Hin; now right).
    destruct Sa as ((w & Hw & Ea) & _). exists w. split; [exact Hw|]. split; [exact Ea|].
    intros <-. apply Nf. rewrite <- Ea in Ef. now subst f. }
  split.
  - intros a Ha. destruct (Dir a) as (w & Hw & Ea & N); [apply in_app_iff; auto|].
    specialize (HA a Ha). rewrite Ef, Ea in HA. apply adjacent_ahead in HA; auto.
    rewrite HA, Ea. now apply ahead_touches.
  - intros b Hb. destruct (Dir b) as (w & Hw & Eb & N); [apply in_app_iff; auto|].
    specialize (HB b Hb). rewrite Ef, Eb in HB.
    rewrite adjacent_ahead in HB by auto.
    destruct (ahead_touches current w Oc Hw) as (S1 & S2 & S3).
    rewrite <- (O3 (ahead current w)) by congruence. rewrite Eb. split; [exact S2|].
    intros Tb. apply HB. now apply S3.
Qed.

(** C21 *)
Lemma search_err : search W se current wsr = Ret SErr <->
  unreachable W mo start goals \/
  exists l, optimistic l /\ best_route W mo start goals l /\
    (exists e, passes start l e /\ ws e = Unchecked) /\
    forall d, wanted W ws start l d -> d <> current -> ~ reaches (step W mo) current d.
Proof.
  destruct search_total as (r & E & P). rewrite E. split.
  - intros [= ->]. destruct P as [_ U|l B P' [[H _]|[Hex [[_ H]|(? & ? & ? & ? & H & _)]]]]; try discriminate.
    + now left.
    + right. exists l. split; [now apply P'|]. split; [exact B|]. split; [exact Hex|].
      intros d Hd Nd (m & C & L). now apply (H d m).
  - intros H. destruct P as [-> U|l B P' D]; [reflexivity|].
    destruct H as [U|(l' & El & _ & (e & Pe & Ue) & H)].
    + exfalso. destruct B as [(g & G1 & G2 & G3) _]. exact (U g l G1 G2 G3).
    + pose proof (P' se Hse) as El'. unfold optimistic in El. rewrite El' in El. injection El as <-.
      destruct D as [[_ N]|[_ [[-> _]|(cs & f & A & Bl & _ & _ & (m & d & H1 & H2 & H3 & H4 & _) & _)]]].
      * exfalso. now apply (N e).
      * reflexivity.
      * exfalso. apply (H d); auto. exists (f :: m). auto.
Qed.

Lemma search_not_err open : slotwise W ws -> consistent W ws open ->
  (exists g l, In g goals /\ g <> start /\ route W open start g l) ->
  ws current <> Unchecked -> reaches (step W mo) current start ->
  search W se current wsr <> Ret SErr.
Proof.
  intros Sl C (g & l0 & G1 & G2 & G3) Uc Rc H. apply search_err in H.
  destruct H as [U|(l & _ & B & (e & Pe & Ue) & H)].
  - apply (U g l0); auto. apply (route_mono W open mo); auto. intros x Vx. now apply (consistent_mo W).
  - destruct B as [(g' & _ & _ & Cl & _) _].
    assert (Be : on_board W e) by (apply (passes_board W wsr ws Hws mo start l e); auto).
    destruct (slot_wall_ok W e Be) as [Vd Sd].
    apply (H (slot_wall e)).
    + split; [exact Vd|]. exists e. auto.
    + intros Ec. apply Uc. rewrite <- Ec. rewrite (Sl _ _ (proj1 Vd) Be Sd). exact Ue.
    + eapply reaches_trans; [exact Rc|]. apply (passes_reaches W ws Sl l start e); auto.
Qed.

End S.

(** ** C01, C02 *)
Lemma pow_check : forallb (fun w => negb (is_power_of_two w) || existsb (Z.eqb w) [1; 2; 4; 8; 16; 32; 64; 128])
   (map Z.of_nat (seq 0 256)) = true.
Proof. vm_compute. reflexivity. Qed.

Lemma coordinate_new_exact W x y : 0 <= W < 256 -> 0 <= x < 256 -> 0 <= y < 256 ->
  (supported W ->
     (coord_new W x y = Some (Co x y) /\ valid W (Co x y)) \/
     (coord_new W x y = None /\ ~ valid W (Co x y))) /\
  ((forall k, 0 <= k -> W <> 2 ^ k) -> coord_new W x y = None).
Proof.
  intros HW Hx Hy. split.
  - intros Hs. rewrite coord_new_spec by assumption. unfold valid, on_board; cbn [cx cy].
    destruct (Z.odd (x + y)); [|right; rewrite andb_false_r; split; [reflexivity|intros [_ H]; discriminate]].
    destruct (Z.ltb_spec x (2 * W)), (Z.ltb_spec y (2 * W)); simpl; [left|right|right|right];
      (split; [reflexivity|lia]) || (split; [reflexivity|intros [H1 _]; lia]).
  - intros Hk. unfold coord_new. replace (is_power_of_two W) with false; [reflexivity|].
    symmetry. apply not_true_is_false. intros Hp.
    pose proof pow_check as H. rewrite forallb_forall in H.
    specialize (H W). rewrite Hp in H. cbn [negb orb] in H.
    assert (Hin : In W (map Z.of_nat (seq 0 256))).
    { apply in_map_iff. exists (Z.to_nat W). split; [lia|]. apply in_seq. lia. }
    specialize (H Hin). apply existsb_exists in H as (p & Hp' & E). apply Z.eqb_eq in E. subst p.
    repeat (destruct Hp' as [<-|Hp']; [first
      [now apply (Hk 0)|now apply (Hk 1)|now apply (Hk 2)|now apply (Hk 3)|now apply (Hk 4)
      |now apply (Hk 5)|now apply (Hk 6)|now apply (Hk 7)]|]). exact Hp'.
Qed.

Lemma twelve_not_pow k : 0 <= k -> 12 <> 2 ^ k.
Proof.
  intros Hk E. assert (k < 4) by (apply (Z.pow_lt_mono_r_iff 2); lia).
  assert (k = 0 \/ k = 1 \/ k = 2 \/ k = 3) as [->|[->|[->| ->]]] by lia; discriminate.
Qed.

Lemma storage_exact W : supported W ->
  (forall c d, valid W c -> valid W d -> as_index W c = as_index W d -> c = d) /\
  (forall c, valid W c -> 0 <= as_index W c < 2 * W * W /\ as_index W c < 2048 /\
                          as_index W c / 4 < 512 /\ as_index W c / 8 < 256) /\
  (forall i, 0 <= i < 2 * W * W -> exists c, valid W c /\ as_index W c = i).
Proof.
  intros HW. split; [|split].
  - intros c d Vc Vd. now apply as_index_inj.
  - intros c [B _]. pose proof (as_index_bound W c HW B). split; [assumption|].
    assert (2 * W * W <= 2048) by (destruct_supported HW; lia). lia.
  - intros i Hi. now apply as_index_surj.
Qed.

(** ** C11-C13 in the shape of the property theorems *)
Lemma path_legal W start goals se isw open : supported W -> valid W start -> Forall (valid W) goals ->
  searcher_new W start goals = Ret se ->
  (forall c, valid W c -> isw c = Ret (negb (open c))) ->
  forall path, shortest_path W se isw = Ret (Some path) ->
  exists g l, path = start :: l /\ l <> [] /\ In g goals /\ g <> start /\ route W open start g l.
Proof.
  intros HW Hs Hg Es Hw path E.
  destruct (path_ok W HW start Hs goals Hg se Es isw open Hw) as [[E' _]|(l & E' & [(g & G) _] & N)];
    rewrite E' in E; [discriminate|]. injection E as <-. exists g, l. intuition.
Qed.

Lemma path_optimal W start goals se isw open : supported W -> valid W start -> Forall (valid W) goals ->
  searcher_new W start goals = Ret se ->
  (forall c, valid W c -> isw c = Ret (negb (open c))) ->
  forall path, shortest_path W se isw = Ret (Some path) ->
  forall g l, In g goals -> g <> start -> route W open start g l -> (length path <= length (start :: l))%nat.
Proof.
  intros HW Hs Hg Es Hw path E g l Gi Gn R.
  destruct (path_ok W HW start Hs goals Hg se Es isw open Hw) as [[E' _]|(l' & E' & [_ B] & N)];
    rewrite E' in E; [discriminate|]. injection E as <-. specialize (B g l Gi Gn R). simpl. lia.
Qed.

Lemma path_complete W start goals se isw open : supported W -> valid W start -> Forall (valid W) goals ->
  searcher_new W start goals = Ret se ->
  (forall c, valid W c -> isw c = Ret (negb (open c))) ->
  (shortest_path W se isw = Ret None <-> forall g l, In g goals -> g <> start -> ~ route W open start g l).
Proof.
  intros HW Hs Hg Es Hw.
  destruct (path_ok W HW start Hs goals Hg se Es isw open Hw) as [[E' U]|(l' & E' & [(g & G1 & G2 & G3) _] & N)];
    rewrite E'; split; auto; [discriminate|]. intros H. exfalso. now apply (H g l').
Qed.

Lemma no_panic W start goals current isw open wsr ws : supported W -> valid W start -> Forall (valid W) goals ->
  valid W current ->
  (forall c, valid W c -> isw c = Ret (open c)) -> (forall c, on_board W c -> wsr c = Ret (ws c)) ->
  exists se, searcher_new W start goals = Ret se /\
   (exists r, shortest_path W se isw = Ret r) /\
   exists r, search W se current wsr = Ret r /\
     forall cs, r = SSome cs -> forall wsr' ws', (forall c, valid W c -> wsr' c = Ret (ws' c)) ->
       (exists n, next_coordinate cs wsr' = Ret n) /\ (exists n, force_next_coordinate cs wsr' = Ret n).
Proof.
  intros HW Hs Hg Hc Hi Hw.
  destruct (searcher_new_ok W HW start goals Hg) as (gf & Es & _). exists (Searcher start gf).
  split; [exact Es|]. split.
  - destruct (path_ok W HW start Hs goals Hg _ Es isw (fun c => negb (open c))) as [[E' _]|(l & E' & _)]; eauto.
    intros c Vc. rewrite negb_involutive. auto.
  - destruct (search_total W HW start Hs goals Hg _ Es wsr ws Hw current Hc) as (r & E & _).
    exists r. split; [exact E|]. intros cs -> wsr' ws' Hw'.
    destruct (search_candidates W HW start Hs goals Hg _ Es wsr ws Hw current Hc cs E) as (_ & Hin & _).
    assert (Hv : Forall (valid W) cs).
    { apply Forall_forall. intros d Hd. apply Hin in Hd as ((v & Hv & ->) & B & _). now apply dirs_shift_valid. }
    clear - Hv Hw'. split; induction Hv as [|c cs Vc Hv IH]; cbn [next_coordinate force_next_coordinate]; eauto;
      rewrite Hw' by exact Vc; cbn [bind]; destruct (ws' c) as [|[]]; cbn [is_checked_false]; eauto.
Qed.

(** Witness for C17: one open cell column; the unknown wall (1,2) is beside the route. *)
Definition w17 (c : coord) : wall_state :=
  if (cx c / 2 =? 0) && (cy c / 2 =? 1) && negb (Z.odd (cy c)) then Unchecked else Checked false.

Lemma done_when_known_refuted : exists W start goals se current ws l,
  supported W /\ valid W start /\ Forall (valid W) goals /\ valid W current /\ slotwise W ws /\
  searcher_new W start goals = Ret se /\
  shortest_path W se (fun c => Ret (is_checked_true (ws c))) = Ret (Some (start :: l)) /\
  (forall e, valid W e -> passes start l e -> ws e <> Unchecked) /\
  search W se current (fun c => Ret (ws c)) <> Ret SNone.
Proof.
  exists 2, (Co 0 1), [Co 0 3]. eexists. exists (Co 0 1), w17, [Co 0 3].
  split; [unfold supported; tauto|]. split; [split; [split; simpl; lia|reflexivity]|].
  split; [repeat constructor; simpl; lia|]. split; [split; [split; simpl; lia|reflexivity]|].
  split. { intros a b _ _ E. unfold slot in E. injection E as E1 E2 E3. unfold w17. now rewrite E1, E2, E3. }
  split; [vm_compute; reflexivity|]. split; [vm_compute; reflexivity|]. split; [|vm_compute; discriminate].
  intros e Ve [S|[]]. destruct S as (u & m & j & U1 & U2 & U3 & E1 & Hj & E2).
  destruct u as [a b]. unfold shift in E1; simpl in *. injection E1 as F1 F2.
  assert (a = 0) as -> by nia. assert (b = 1) as -> by nia. assert (m = 2) as -> by lia.
  assert (j = 1 \/ j = 2) as [->| ->] by lia.
  - subst e. destruct Ve as [_ Ve]. discriminate.
  - subst e. discriminate.
Qed.

Lemma valid_callbacks_refuted : exists W start goals se current wsr,
  supported W /\ valid W start /\ Forall (valid W) goals /\ valid W current /\
  searcher_new W start goals = Ret se /\
  (forall c, valid W c -> exists s, wsr c = Ret s) /\
  (forall c, ~ valid W c -> wsr c = Panic) /\
  search W se current wsr = Panic.
Proof.
  exists 2, (Co 0 1), [Co 0 3]. eexists.
  exists (Co 0 1), (fun c => if board_b 2 c && Z.odd (cx c + cy c) then Ret (Checked false) else Panic).
  split; [unfold supported; tauto|]. split; [split; [split; simpl; lia|reflexivity]|].
  split; [repeat constructor; simpl; lia|]. split; [split; [split; simpl; lia|reflexivity]|].
  split; [vm_compute; reflexivity|]. split; [|split].
  - intros c [B O]. destruct (board_b_spec 2 c); [|contradiction]. rewrite O. simpl. eauto.
  - intros c N. destruct (board_b_spec 2 c) as [B|B]; [|reflexivity].
    destruct (Z.odd (cx c + cy c)) eqn:O; [|reflexivity]. exfalso. apply N. split; auto.
  - vm_compute. reflexivity.
Qed.
