(** Proofs about the textual form of [Walls]. *)
From Coq Require Import ZArith List Bool Lia ZifyBool Ascii String.
From Verif Require Import Base SearchModel SearchSpec SearchCoord WallsModel WallsSpec WallsLemmas.
Import ListNotations.
Open Scope Z_scope.
Open Scope list_scope.
Ltac Zify.zify_post_hook ::= Z.div_mod_to_equations.

Definition starts_with (t s : text) : Prop := exists post, s = t ++ post.
Definition at_col (l : text) (col : Z) (t : text) : Prop :=
  exists pre post, l = pre ++ t ++ post /\ llen pre = col.

Lemma app_inv_len {A} (a b c d : list A) : a ++ b = c ++ d -> List.length a = List.length c ->
  a = c /\ b = d.
Proof.
  revert c; induction a as [|x a IH]; intros [|y c] E H; cbn in *; try discriminate; [auto|].
  injection E as -> E. injection H as H. destruct (IH c E H) as [-> ->]. auto.
Qed.

Lemma at_col_iff pre s t : at_col (pre ++ s) (llen pre) t <-> starts_with t s.
Proof.
  split.
  - intros (p & q & E & H). unfold llen in H.
    destruct (app_inv_len pre s p (t ++ q) E ltac:(lia)) as [_ ->]. exists q. reflexivity.
  - intros (q & ->). exists pre, q. split; reflexivity.
Qed.

Lemma stands_at ls y l col t : nth_error ls (Z.to_nat y) = Some l ->
  (stands ls y col t <-> at_col l col t).
Proof.
  intros E. split.
  - intros (l' & p & q & E' & H1 & H2). rewrite E in E'. injection E' as <-. exists p, q. auto.
  - intros (p & q & H1 & H2). exists l, p, q. auto.
Qed.

Lemma teqb_spec a b : reflect (a = b) (teqb a b).
Proof. unfold teqb. destruct (list_eq_dec ascii_dec a b); constructor; assumption. Qed.

Lemma sget_some s n t : sget s n = Some t -> List.length t = n /\ s = t ++ skipn n s.
Proof.
  unfold sget. destruct (Nat.leb_spec n (List.length s)); [|discriminate].
  intros E; injection E as <-. split; [apply firstn_length_le; assumption|].
  symmetry. apply firstn_skipn.
Qed.

Lemma sget_app t post : sget (t ++ post) (List.length t) = Some t.
Proof.
  unfold sget. rewrite app_length.
  destruct (Nat.leb_spec (List.length t) (List.length t + List.length post)); [|lia].
  rewrite firstn_app, Nat.sub_diag, firstn_all. cbn. rewrite app_nil_r. reflexivity.
Qed.

Lemma sdrop_app t post n : List.length t = n -> sdrop (t ++ post) n = Ret post.
Proof.
  intros <-. unfold sdrop. rewrite app_length.
  destruct (Nat.leb_spec (List.length t) (List.length t + List.length post)); [|lia].
  rewrite skipn_app, Nat.sub_diag, skipn_all. reflexivity.
Qed.

Lemma check_spec s e len y x : llen e = len ->
  (check s e len y x = None /\ starts_with e s) \/
  (check s e len y x = Some (PErr [e] y x (x + len)) /\ ~ starts_with e s).
Proof.
  intros El. unfold check. destruct (sget s (Z.to_nat len)) as [t|] eqn:E.
  - destruct (teqb_spec t e) as [->|Hn].
    + left. split; [reflexivity|]. apply sget_some in E. destruct E as [_ ->]. eexists; reflexivity.
    + right. split; [reflexivity|]. intros (post & ->). apply Hn.
      replace (Z.to_nat len) with (List.length e) in E by (unfold llen in El; lia).
      rewrite sget_app in E. congruence.
  - right. split; [reflexivity|]. intros (post & ->).
    replace (Z.to_nat len) with (List.length e) in E by (unfold llen in El; lia).
    rewrite sget_app in E. discriminate.
Qed.

Lemma starts_with_det t t' s : starts_with t s -> starts_with t' s ->
  List.length t = List.length t' -> t = t'.
Proof.
  intros (p & ->) (q & E) H. exact (proj1 (app_inv_len _ _ _ _ E H)).
Qed.

(** ** One line above the last *)

Definition cells (x n : nat) : list Z := map Z.of_nat (seq x n).

Lemma cells_range W : range W = cells 0 (Z.to_nat W).
Proof. reflexivity. Qed.

Definition p_yes (y : Z) : text := if Z.even y then L "---+" else L "   |".
Definition p_no (y : Z) : text := if Z.even y then L "   +" else L "    ".
Definition p_first (y : Z) : text := if Z.even y then L "+" else L "|".

Definition ok_l (l : text) (p : place) : Prop :=
  exists t, In t (p_allowed p) /\ at_col l (p_col p) t.

Definition cell_places (W y : Z) (x n : nat) : list place :=
  map (fun x => Place y (4 * x + 1) (pieces W y)) (cells x n).
Definition rest_places (W y : Z) (x n : nat) : list place :=
  (if Nat.eqb x 0 then [Place y 0 (starts y)] else []) ++ cell_places W y x n.

(** the wall drawn at column [x] of line [y]. *)
Definition wall_at (W y x : Z) : coord :=
  if Z.even y then Co (2 * x) (2 * (W - 1 - y / 2) + 1) else Co (2 * x + 1) (2 * (W - 1 - y / 2)).

Definition failed (ok : place -> Prop) (ps : list place) (e : perr) : Prop :=
  exists pre p post, ps = pre ++ p :: post /\ Forall ok pre /\ ~ ok p /\ designates e p.

Lemma failed_app_r ok qs ps e : Forall ok qs -> failed ok ps e -> failed ok (qs ++ ps) e.
Proof.
  intros Hq (pre & p & post & -> & H1 & H2 & H3).
  exists (qs ++ pre), p, post. split; [now rewrite app_assoc|].
  split; [apply Forall_app; auto|]. auto.
Qed.

Lemma failed_app_l ok qs ps e : failed ok ps e -> failed ok (ps ++ qs) e.
Proof.
  intros (pre & p & post & -> & H1 & H2 & H3).
  exists pre, p, (post ++ qs). rewrite <- app_assoc. auto.
Qed.

Lemma failed_iff ok ok' ps e : (forall p, In p ps -> (ok p <-> ok' p)) -> failed ok ps e -> failed ok' ps e.
Proof.
  intros H (pre & p & post & -> & H1 & H2 & H3).
  exists pre, p, post. split; [reflexivity|]. split.
  - rewrite Forall_forall in *. intros q Hq. apply H; [apply in_or_app; auto|]. auto.
  - split; [|exact H3]. rewrite <- H; [exact H2|]. apply in_elt.
Qed.

Lemma even_land y : (Z.land y 1 =? 0) = Z.even y.
Proof. rewrite land_1_mod, Zmod_even. destruct (Z.even y); reflexivity. Qed.

Lemma even_mod z : Z.even z = true <-> z mod 2 = 0.
Proof. rewrite Zmod_even. destruct (Z.even z); split; auto; discriminate. Qed.
Lemma even_mod_false z : Z.even z = false <-> z mod 2 = 1.
Proof. rewrite Zmod_even. destruct (Z.even z); split; auto; discriminate. Qed.

Lemma wall_at_valid W y x : 0 <= y < 2 * W -> 0 <= x < W -> valid W (wall_at W y x).
Proof.
  intros Hy Hx. unfold wall_at. destruct (Z.even y); [apply valid_top|apply valid_right]; lia.
Qed.

Lemma wall_at_inv W c : valid W c ->
  0 <= wall_line W c < 2 * W /\ 0 <= cx c / 2 < W /\ c = wall_at W (wall_line W c) (cx c / 2) /\
  wall_yes c = p_yes (wall_line W c) /\ wall_no c = p_no (wall_line W c).
Proof.
  intros Hc. destruct (valid_cases W c Hc) as (x & y & Hx & Hy & E).
  unfold wall_at, wall_yes, wall_no, p_yes, p_no, wall_line.
  destruct E as [-> | ->]; cbn [cx cy].
  - assert (Z.odd (2 * y + 1) = true) as -> by (apply odd_mod; lia).
    assert (Z.even (2 * (W - 1 - (2 * y + 1) / 2)) = true) as -> by (apply even_mod; lia).
    repeat split; try lia. f_equal; lia.
  - assert (Z.odd (2 * y) = false) as -> by (apply odd_mod_false; lia).
    assert (Z.even (2 * (W - 1 - 2 * y / 2) + 1) = false) as -> by (apply even_mod_false; lia).
    repeat split; try lia. f_equal; lia.
Qed.

Lemma wall_at_line W y x : 0 <= y < 2 * W -> 0 <= x < W ->
  wall_line W (wall_at W y x) = y /\ cx (wall_at W y x) / 2 = x.
Proof.
  intros Hy Hx. unfold wall_at, wall_line. destruct (Z.even y) eqn:Ev; cbn [cx cy].
  - apply even_mod in Ev.
    assert (Z.odd (2 * (W - 1 - y / 2) + 1) = true) as -> by (apply odd_mod; lia). lia.
  - apply even_mod_false in Ev.
    assert (Z.odd (2 * (W - 1 - y / 2)) = false) as -> by (apply odd_mod_false; lia). lia.
Qed.

Definition line_state (W y : Z) (x : nat) (l : text) (st st' : coord -> wall_state) : Prop :=
  (forall c, valid W c -> wall_line W c = y -> Z.of_nat x <= cx c / 2 ->
     exists e, at_col l (wall_col c) (if e : bool then wall_yes c else wall_no c) /\ st' c = Checked e) /\
  (forall c, valid W c -> ~ (wall_line W c = y /\ Z.of_nat x <= cx c / 2) -> st' c = st c).

Lemma p_lens y : List.length (p_yes y) = 4%nat /\ List.length (p_no y) = 4%nat /\
  List.length (p_first y) = 1%nat /\ p_yes y <> p_no y.
Proof.
  unfold p_yes, p_no, p_first. destruct (Z.even y); repeat split; cbn; discriminate.
Qed.

Lemma pieces_yn W y : y <> 2 * W -> pieces W y = [p_yes y; p_no y].
Proof.
  intros H. unfold pieces, p_yes, p_no. destruct (Z.eqb_spec y (2 * W)); [contradiction|].
  destruct (Z.even y); reflexivity.
Qed.
Lemma starts_first y : starts y = [p_first y].
Proof. unfold starts, p_first. destruct (Z.even y); reflexivity. Qed.

Lemma parse_update_ok W w st y x e : supported W -> 0 <= y < 2 * W -> 0 <= x < W -> holds W w st ->
  exists w',
    parse_update W w (if Z.even y then as_u8 (Z.shiftl x 1) else Z.lor (as_u8 (Z.shiftl x 1)) 1)
      (if Z.even y then Z.lor (as_u8 (Z.shiftl (W - y / 2 - 1) 1)) 1
       else as_u8 (Z.shiftl (W - y / 2 - 1) 1)) e = Ret w' /\
    holds W w' (setst st (wall_at W y x) (Checked e)).
Proof.
  intros HW Hy Hx Hh. pose proof (supported_bounds W HW).
  rewrite !shiftl1, !as_u8_small, !lor1 by lia.
  destruct (holds_update W w st (wall_at W y x) (Checked e) HW (wall_at_valid W y x Hy Hx) Hh)
    as (w' & E & Hh').
  exists w'. split; [|exact Hh'].
  pose proof (wall_at_valid W y x Hy Hx) as Hv. unfold wall_at in *. unfold parse_update.
  destruct (Z.even y).
  - replace (W - y / 2 - 1) with (W - 1 - y / 2) by lia.
    rewrite coord_unwrap_ok by assumption. exact E.
  - replace (W - y / 2 - 1) with (W - 1 - y / 2) by lia.
    rewrite coord_unwrap_ok by assumption. exact E.
Qed.

(** what remains of a line when the columns before [x] have been read. *)
Definition remains (l : text) (x : nat) (s : text) : Prop :=
  if Nat.eqb x 0 then s = l else exists pre, l = pre ++ s /\ llen pre = 4 * Z.of_nat x + 1.

Lemma first_step y x l s : remains l x s ->
  let r := (if Z.of_nat x =? 0 then
       match check s (p_first y) 1 y (Z.of_nat x) with
       | Some e => Ret (inr e)
       | None => let* s' := sdrop s 1 in Ret (inl s')
       end
     else Ret (inl s)) in
  (exists s1 pre, r = Ret (inl s1) /\ l = pre ++ s1 /\ llen pre = 4 * Z.of_nat x + 1 /\
     Forall (ok_l l) (if Nat.eqb x 0 then [Place y 0 (starts y)] else [])) \/
  (exists e, r = Ret (inr e) /\ failed (ok_l l) (if Nat.eqb x 0 then [Place y 0 (starts y)] else []) e).
Proof.
  intros Hr. cbv zeta. unfold remains in Hr. destruct (Nat.eqb_spec x 0) as [->|Hn].
  - subst s. change (Z.of_nat 0 =? 0) with true. cbv iota. change (Z.of_nat 0) with 0.
    destruct (p_lens y) as (_ & _ & Hl & _).
    destruct (check_spec l (p_first y) 1 y 0 ltac:(unfold llen; lia)) as [[-> (post & E)]|[-> Hno]].
    + left. exists post, (p_first y). rewrite E at 1. rewrite sdrop_app by assumption.
      split; [reflexivity|]. split; [exact E|]. split; [unfold llen; lia|].
      constructor; [|constructor]. exists (p_first y). rewrite starts_first. split; [left; reflexivity|].
      exists [], post. split; [exact E|reflexivity].
    + right. eexists; split; [reflexivity|].
      exists [], (Place y 0 (starts y)), []. split; [reflexivity|]. split; [constructor|]. split.
      * intros (t & Hin & Hat). cbn in Hat. rewrite starts_first in Hin. destruct Hin as [<-|[]].
        apply Hno. apply (at_col_iff [] l). exact Hat.
      * rewrite starts_first. repeat split. intros t [<-|[]]. cbn. unfold llen. rewrite Hl. reflexivity.
  - destruct (Z.eqb_spec (Z.of_nat x) 0); [lia|]. left.
    destruct Hr as (pre & E & H). exists s, pre. auto.
Qed.

Lemma cells_cons x n : cells x (S n) = Z.of_nat x :: cells (S x) n.
Proof. reflexivity. Qed.

Lemma parse_cells_ok W y l : supported W -> 0 <= y < 2 * W ->
  forall n x s w st, (x + n = Z.to_nat W)%nat -> remains l x s -> holds W w st ->
  (exists w' st', parse_cells W y (cells x n) s w = Ret (inl w') /\ holds W w' st' /\
     ((0 < n)%nat -> Forall (ok_l l) (rest_places W y x n)) /\ line_state W y x l st st') \/
  (exists e, parse_cells W y (cells x n) s w = Ret (inr e) /\
     failed (ok_l l) (rest_places W y x n) e).
Proof.
  intros HW Hy. pose proof (supported_bounds W HW) as HB.
  induction n as [|n IH]; intros x s w st Hxn Hr Hh.
  - left. exists w, st. split; [reflexivity|]. split; [exact Hh|]. split; [lia|].
    split; [|reflexivity]. intros c Hc _ Hx. destruct (wall_at_inv W c Hc) as (_ & Hlt & _). lia.
  - rewrite cells_cons. cbn [parse_cells]. cbv zeta. rewrite even_land.
    fold (p_first y) (p_yes y) (p_no y).
    destruct (first_step y x l s Hr) as [(s1 & pre & -> & El & Hpre & Hf)|(e & -> & Hf)];
      cbn [bind]; cycle 1.
    { right. eexists; split; [reflexivity|]. unfold rest_places. apply failed_app_l. exact Hf. }
    rewrite shiftr_1_div, chk_u8_ok by lia. cbn [bind]. rewrite chk_u8_ok by lia. cbn [bind].
    set (bad := PErr [p_yes y; p_no y] y (4 * Z.of_nat x + 1) (4 * Z.of_nat x + 5)).
    set (c := wall_at W y (Z.of_nat x)).
    assert (Hx : 0 <= Z.of_nat x < W) by lia.
    destruct (wall_at_line W y (Z.of_nat x) Hy Hx) as [Hcl Hcx].
    pose proof (wall_at_valid W y (Z.of_nat x) Hy Hx) as Hcv. fold c in Hcl, Hcx, Hcv.
    destruct (wall_at_inv W c Hcv) as (_ & _ & _ & Hcy & Hcn). rewrite Hcl in Hcy, Hcn.
    destruct (p_lens y) as (Ly & Ln & _ & Hyn).
    assert (Hbad : ~ starts_with (p_yes y) s1 -> ~ starts_with (p_no y) s1 ->
      failed (ok_l l) (rest_places W y x (S n)) bad).
    { intros Hny Hnn. unfold rest_places, cell_places. rewrite cells_cons. cbn [map].
      apply failed_app_r; [exact Hf|].
      eexists [], _, _. split; [reflexivity|]. split; [constructor|].
      rewrite pieces_yn by lia. split.
      - intros (t & Hin & Hat). cbn in Hin, Hat. rewrite El, <- Hpre, at_col_iff in Hat.
        destruct Hin as [<-|[<-|[]]]; contradiction.
      - unfold bad. repeat split. intros t [<-|[<-|[]]]; cbn [e_to p_col]; unfold llen;
          rewrite ?Ly, ?Ln; lia. }
    assert (Hgo : forall (e : bool) post, s1 = (if e then p_yes y else p_no y) ++ post ->
      (exists w' st', (let* w' := parse_update W w
          (if Z.even y then as_u8 (Z.shiftl (Z.of_nat x) 1) else Z.lor (as_u8 (Z.shiftl (Z.of_nat x) 1)) 1)
          (if Z.even y then Z.lor (as_u8 (Z.shiftl (W - y / 2 - 1) 1)) 1
           else as_u8 (Z.shiftl (W - y / 2 - 1) 1)) e in
        let* s2 := sdrop s1 4 in parse_cells W y (cells (S x) n) s2 w') = Ret (inl w') /\
        holds W w' st' /\
        ((0 < S n)%nat -> Forall (ok_l l) (rest_places W y x (S n))) /\ line_state W y x l st st') \/
      (exists er, (let* w' := parse_update W w
          (if Z.even y then as_u8 (Z.shiftl (Z.of_nat x) 1) else Z.lor (as_u8 (Z.shiftl (Z.of_nat x) 1)) 1)
          (if Z.even y then Z.lor (as_u8 (Z.shiftl (W - y / 2 - 1) 1)) 1
           else as_u8 (Z.shiftl (W - y / 2 - 1) 1)) e in
        let* s2 := sdrop s1 4 in parse_cells W y (cells (S x) n) s2 w') = Ret (inr er) /\
        failed (ok_l l) (rest_places W y x (S n)) er)).
    { intros e post Es.
      destruct (parse_update_ok W w st y (Z.of_nat x) e HW Hy Hx Hh) as (w1 & -> & Hh1). fold c in Hh1.
      cbn [bind].
      assert (Lp : List.length (if e then p_yes y else p_no y) = 4%nat) by (destruct e; assumption).
      assert (Hdrop : sdrop s1 4 = Ret post) by (rewrite Es; apply sdrop_app; exact Lp).
      rewrite Hdrop. cbn [bind].
      assert (Hat : at_col l (4 * Z.of_nat x + 1) (if e then p_yes y else p_no y)).
      { rewrite El, <- Hpre. apply at_col_iff. exists post. exact Es. }
      assert (Hok : ok_l l (Place y (4 * Z.of_nat x + 1) (pieces W y))).
      { exists (if e then p_yes y else p_no y). split; [|exact Hat]. cbn.
        rewrite pieces_yn by lia. destruct e; cbn; auto. }
      assert (Hr1 : remains l (S x) post).
      { cbn. exists (pre ++ (if e then p_yes y else p_no y)). rewrite <- app_assoc, <- Es.
        split; [exact El|]. rewrite llen_app, Hpre. unfold llen. rewrite Lp. lia. }
      assert (Hrest : rest_places W y x (S n) =
        ((if Nat.eqb x 0 then [Place y 0 (starts y)] else []) ++
         [Place y (4 * Z.of_nat x + 1) (pieces W y)]) ++ rest_places W y (S x) n).
      { unfold rest_places, cell_places. rewrite cells_cons. cbn [map Nat.eqb]. rewrite <- app_assoc. reflexivity. }
      assert (Hhead : Forall (ok_l l) ((if Nat.eqb x 0 then [Place y 0 (starts y)] else []) ++
         [Place y (4 * Z.of_nat x + 1) (pieces W y)])).
      { apply Forall_app. split; [exact Hf|]. constructor; [exact Hok|constructor]. }
      destruct (IH (S x) post w1 _ ltac:(lia) Hr1 Hh1)
        as [(w' & st' & E' & Hh' & Hp' & Hst)|(er & E' & Hfail)].
      - left. exists w', st'. split; [exact E'|]. split; [exact Hh'|]. split.
        + intros _. rewrite Hrest. apply Forall_app. split; [exact Hhead|].
          destruct n as [|n]; [constructor|]. apply Hp'. lia.
        + destruct Hst as [S1 S2]. split.
          * intros d Hd Hdl Hdx. destruct (Z.eq_dec (cx d / 2) (Z.of_nat x)) as [Ex|Ex].
            -- destruct (wall_at_inv W d Hd) as (_ & _ & Hde & Hdy & Hdn).
               assert (Edc : d = c) by (rewrite Hde, Hdl, Ex; reflexivity).
               exists e. split.
               ++ unfold wall_col. rewrite Ex, Edc, Hcy, Hcn. exact Hat.
               ++ rewrite S2 by (auto; lia). unfold setst. rewrite Edc, coord_eqb_refl. reflexivity.
            -- apply S1; auto. lia.
          * intros d Hd Hno. rewrite S2 by (auto; lia). unfold setst.
            destruct (coord_eqb_spec d c) as [->|_]; [|reflexivity].
            exfalso. apply Hno. split; [exact Hcl|lia].
      - right. exists er. split; [exact E'|]. rewrite Hrest. apply failed_app_r; assumption. }
    destruct (sget s1 4) as [t|] eqn:Eg.
    + destruct (sget_some _ _ _ Eg) as [Lt Es].
      destruct (teqb_spec t (p_yes y)) as [->|Hty]; [exact (Hgo true _ Es)|].
      destruct (teqb_spec t (p_no y)) as [->|Htn]; [exact (Hgo false _ Es)|].
      right. exists bad. split; [reflexivity|]. apply Hbad.
      * intros Hs. apply Hty. eapply starts_with_det; [eexists; exact Es|exact Hs|congruence].
      * intros Hs. apply Htn. eapply starts_with_det; [eexists; exact Es|exact Hs|congruence].
    + right. exists bad. split; [reflexivity|]. apply Hbad.
      * intros (post & ->). rewrite <- Ly, sget_app in Eg. discriminate.
      * intros (post & ->). rewrite <- Ln, sget_app in Eg. discriminate.
Qed.
