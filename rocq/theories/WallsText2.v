(** Parsing whole texts; displaying. *)
From Coq Require Import ZArith List Bool Lia ZifyBool Ascii String.
From Verif Require Import Base SearchModel SearchSpec SearchCoord WallsModel WallsSpec WallsLemmas WallsText.
Import ListNotations.
Open Scope Z_scope.
Open Scope list_scope.
Ltac Zify.zify_post_hook ::= Z.div_mod_to_equations.

(** ** The last line *)

Lemma parse_last_ok W l : 0 <= W -> forall n x s pre, l = pre ++ s -> llen pre = 4 * Z.of_nat x + 1 ->
  (parse_last (2 * W) (cells x n) s = Ret (inl tt) /\ Forall (ok_l l) (cell_places W (2 * W) x n)) \/
  (exists e, parse_last (2 * W) (cells x n) s = Ret (inr e) /\
     failed (ok_l l) (cell_places W (2 * W) x n) e).
Proof.
  intros HW. assert (Hp : pieces W (2 * W) = [L "---+"]) by (unfold pieces; rewrite Z.eqb_refl; reflexivity).
  induction n as [|n IH]; intros x s pre El Hpre.
  - left. split; [reflexivity|constructor].
  - rewrite cells_cons. cbn [parse_last]. unfold cell_places. rewrite cells_cons. cbn [map].
    fold (cell_places W (2 * W) (S x) n). rewrite Hp.
    destruct (check_spec s (L "---+") 4 (2 * W) (4 * Z.of_nat x + 1) eq_refl) as [[-> (post & E)]|[-> Hno]].
    + assert (Hat : ok_l l (Place (2 * W) (4 * Z.of_nat x + 1) [L "---+"])).
      { eexists; split; [left; reflexivity|]. cbn [p_col]. rewrite El, <- Hpre, at_col_iff. exists post. exact E. }
      rewrite E, sdrop_app by reflexivity. cbn [bind].
      destruct (IH (S x) post (pre ++ L "---+")) as [[E1 H1]|(e & E1 & H1)].
      * rewrite <- app_assoc, <- E. exact El.
      * rewrite llen_app, Hpre. change (llen (L "---+")) with 4. lia.
      * left. split; [exact E1|]. constructor; assumption.
      * right. exists e. split; [exact E1|].
        apply (failed_app_r _ [_]); [constructor; [exact Hat|constructor]|exact H1].
    + right. eexists; split; [reflexivity|].
      eexists [], _, _. split; [reflexivity|]. split; [constructor|]. split.
      * intros (t & [<-|[]] & Hat). cbn [p_col] in Hat. rewrite El, <- Hpre, at_col_iff in Hat. contradiction.
      * repeat split. intros t [<-|[]]. reflexivity.
Qed.

(** ** All lines *)

Definition all_places (W : Z) (y k : nat) : list place := flat_map (line_places W) (cells y k).

Lemma rest_places_0 W y : rest_places W y 0 (Z.to_nat W) = line_places W y.
Proof. reflexivity. Qed.

Lemma ok_l_allowed ls W y l p : nth_error ls (Z.to_nat y) = Some l -> In p (line_places W y) ->
  (ok_l l p <-> allowed ls p).
Proof.
  intros E Hin. assert (Hl : p_line p = y).
  { destruct Hin as [<-|Hin]; [reflexivity|]. apply in_map_iff in Hin. destruct Hin as (x & <- & _). reflexivity. }
  unfold ok_l, allowed. rewrite Hl.
  split; intros (t & Hi & Ha); exists t; (split; [exact Hi|]); now apply (stands_at ls y l).
Qed.

Definition text_state (W : Z) (ls : list text) (y k : nat) (st st' : coord -> wall_state) : Prop :=
  (forall c, valid W c -> Z.of_nat y <= wall_line W c < Z.of_nat y + Z.of_nat k ->
     exists e, drawn W ls c e /\ st' c = Checked e) /\
  (forall c, valid W c -> ~ (Z.of_nat y <= wall_line W c < Z.of_nat y + Z.of_nat k) -> st' c = st c).

Lemma parse_lines_ok W all : supported W ->
  forall ls n y before w st, all = before ++ ls -> List.length before = y ->
  (y + n = Z.to_nat (2 * W + 1))%nat -> holds W w st ->
  let k := Nat.min n (List.length ls) in
  (exists w' st', parse_lines n W (Z.of_nat y) ls w = Ret (inl w') /\ holds W w' st' /\
     Forall (allowed all) (all_places W y k) /\ text_state W all y k st st') \/
  (exists e, parse_lines n W (Z.of_nat y) ls w = Ret (inr e) /\
     failed (allowed all) (all_places W y k) e).
Proof.
  intros HW. pose proof (supported_bounds W HW) as HB.
  assert (Hnil : forall y w st, holds W w st ->
    exists w' st', Ret (inl w) = Ret (A:=pr walls) (inl w') /\ holds W w' st' /\
     Forall (allowed all) (all_places W y 0) /\ text_state W all y 0 st st').
  { intros y w st Hh. exists w, st. split; [reflexivity|]. split; [exact Hh|]. split; [constructor|].
    split; [|reflexivity]. intros c Hc Hr. lia. }
  induction ls as [|l ls IH]; intros n y before w st Hall Hy Hn Hh; cbv zeta.
  { left. destruct n; cbn [parse_lines Nat.min List.length]; apply Hnil; exact Hh. }
  destruct n as [|n]; [left; cbn [parse_lines Nat.min]; apply Hnil; exact Hh|].
  cbn [parse_lines List.length]. cbv zeta.
  assert (Hnth : nth_error all (Z.to_nat (Z.of_nat y)) = Some l).
  { rewrite Hall, Nat2Z.id, nth_error_app2, Hy, Nat.sub_diag by lia. reflexivity. }
  rewrite as_u8_small, chk_u8_ok by lia. cbn [bind].
  set (k' := Nat.min n (List.length ls)).
  assert (Hk : Nat.min (S n) (S (List.length ls)) = S k') by reflexivity. rewrite Hk.
  assert (Hpl : all_places W y (S k') = line_places W (Z.of_nat y) ++ all_places W (S y) k') by reflexivity.
  destruct (Z.eqb_spec (Z.of_nat y) (2 * W)) as [Ey|Ny].
  - assert (Hk0 : k' = 0%nat) by (unfold k'; lia).
    assert (Hev : Z.even (Z.of_nat y) = true) by (apply even_mod; lia).
    rewrite Hpl, Hk0. cbn [all_places cells seq map flat_map]. unfold all_places. cbn [cells seq map flat_map].
    rewrite app_nil_r.
    assert (Hpf : p_first (Z.of_nat y) = L "+") by (unfold p_first; rewrite Hev; reflexivity).
    rewrite <- Hpf.
    assert (Hcl : line_places W (Z.of_nat y) =
      Place (Z.of_nat y) 0 (starts (Z.of_nat y)) :: cell_places W (2 * W) 0 (Z.to_nat W)).
    { unfold line_places, cell_places. rewrite Ey. reflexivity. }
    assert (Hst0 : text_state W all y 1 st st).
    { split; [|reflexivity]. intros c Hc Hr. destruct (wall_at_inv W c Hc) as (Hw0 & _). lia. }
    destruct (p_lens (Z.of_nat y)) as (_ & _ & Lf & _).
    destruct (check_spec l (p_first (Z.of_nat y)) 1 (Z.of_nat y) 0 ltac:(unfold llen; lia))
      as [[-> (post & E)]|[-> Hno]].
    + assert (Hdrop : sdrop l 1 = Ret post) by (rewrite E; apply sdrop_app; exact Lf).
      rewrite Hdrop. cbn [bind]. rewrite cells_range, Ey.
      assert (H0 : ok_l l (Place (Z.of_nat y) 0 (starts (Z.of_nat y)))).
      { exists (p_first (Z.of_nat y)). cbn. rewrite starts_first. split; [left; reflexivity|].
        exists [], post. split; [exact E|reflexivity]. }
      destruct (parse_last_ok W l ltac:(lia) (Z.to_nat W) 0 post (p_first (Z.of_nat y)) E
        ltac:(unfold llen; rewrite Lf; reflexivity)) as [[-> H1]|(e & -> & H1)]; cbn [bind].
      * left. exists w, st. split; [reflexivity|]. split; [exact Hh|]. split; [|exact Hst0].
        rewrite <- Ey, Hcl. rewrite Forall_forall. intros p Hp. apply (ok_l_allowed all W (Z.of_nat y) l);
          [exact Hnth|rewrite Hcl; exact Hp|].
        destruct Hp as [<-|Hp]; [exact H0|]. rewrite Forall_forall in H1. now apply H1.
      * right. exists e. split; [reflexivity|]. rewrite <- Ey.
        apply (failed_iff (ok_l l)); [intros p Hp; now apply (ok_l_allowed all W (Z.of_nat y) l)|].
        rewrite Hcl. apply (failed_app_r _ [_]); [constructor; [exact H0|constructor]|exact H1].
    + right. eexists; split; [reflexivity|].
      apply (failed_iff (ok_l l)); [intros p Hp; now apply (ok_l_allowed all W (Z.of_nat y) l)|].
      eexists [], _, _. split; [reflexivity|]. split; [constructor|]. split.
      * intros (t & Hin & Hat). cbn in Hat. rewrite starts_first in Hin. destruct Hin as [<-|[]].
        apply Hno. apply (at_col_iff [] l). exact Hat.
      * rewrite starts_first. repeat split. intros t [<-|[]]. cbn. unfold llen. rewrite Lf. reflexivity.
  - assert (Hyr : 0 <= Z.of_nat y < 2 * W) by lia.
    rewrite cells_range.
    destruct (parse_cells_ok W (Z.of_nat y) l HW Hyr (Z.to_nat W) 0 l w st eq_refl eq_refl Hh)
      as [(w1 & st1 & -> & Hh1 & Hp1 & Hs1)|(e & -> & Hf)]; cbn [bind]; cycle 1.
    { right. exists e. split; [reflexivity|]. rewrite Hpl. apply failed_app_l.
      rewrite rest_places_0 in Hf.
      apply (failed_iff (ok_l l)); [|exact Hf]. intros p Hp; now apply (ok_l_allowed all W (Z.of_nat y) l). }
    assert (Hok : Forall (allowed all) (line_places W (Z.of_nat y))).
    { specialize (Hp1 ltac:(lia)). rewrite rest_places_0 in Hp1. rewrite Forall_forall in *.
      intros p Hp. apply (ok_l_allowed all W (Z.of_nat y) l); auto. }
    replace (Z.of_nat y + 1) with (Z.of_nat (S y)) by lia.
    destruct (IH n (S y) (before ++ [l]) w1 st1) as [(w' & st' & -> & Hh' & Hp' & Hst')|(e & -> & Hf)].
    + rewrite <- app_assoc. exact Hall.
    + rewrite app_length. cbn. lia.
    + lia.
    + exact Hh1.
    + fold k' in Hp', Hst'. left. exists w', st'. split; [reflexivity|]. split; [exact Hh'|]. split.
      { rewrite Hpl. apply Forall_app. split; assumption. }
      destruct Hs1 as [A1 A2]. destruct Hst' as [B1 B2]. split.
      * intros c Hc Hr. destruct (Z.eq_dec (wall_line W c) (Z.of_nat y)) as [Ec|Ec].
        -- destruct (wall_at_inv W c Hc) as (_ & Hcx & _).
           destruct (A1 c Hc Ec ltac:(lia)) as (e & Hat & Est). exists e. split.
           ++ unfold drawn. rewrite Ec. apply (stands_at all (Z.of_nat y) l); assumption.
           ++ rewrite B2; [exact Est|exact Hc|lia].
        -- apply B1; [exact Hc|lia].
      * intros c Hc Hr. rewrite B2 by (auto; lia). apply A2; [exact Hc|lia].
    + right. exists e. split; [reflexivity|]. rewrite Hpl. apply failed_app_r; assumption.
Qed.

Lemma parse_spec W s : supported W ->
  let n := Z.min (llen (lines s)) (2 * W + 1) in
  (exists w st, walls_parse W s = Ret (inl w) /\ holds W w st /\
     Forall (allowed (lines s)) (places W n) /\
     (forall c, valid W c -> wall_line W c < n -> exists e, drawn W (lines s) c e /\ st c = Checked e) /\
     (forall c, valid W c -> n <= wall_line W c -> st c = fresh W c)) \/
  (exists e, walls_parse W s = Ret (inr e) /\ failed (allowed (lines s)) (places W n) e).
Proof.
  intros HW n. pose proof (supported_bounds W HW) as HB. unfold walls_parse.
  destruct (walls_new_ok W HW) as (w0 & -> & H0). cbn [bind].
  pose proof (parse_lines_ok W (lines s) HW (lines s) (Z.to_nat (2 * W + 1)) 0 [] w0 (fresh W)
    eq_refl eq_refl ltac:(lia) H0) as H. cbv zeta in H.
  set (k := Nat.min (Z.to_nat (2 * W + 1)) (List.length (lines s))) in H.
  assert (Hk : Z.of_nat k = n) by (unfold n, k, llen; lia).
  assert (Hp : all_places W 0 k = places W n).
  { unfold all_places, places, upto, cells. rewrite <- Hk, Nat2Z.id. reflexivity. }
  rewrite Hp in H. change (Z.of_nat 0) with 0 in H.
  destruct H as [(w & st & E & Hh & Hf & Ha & Hb)|(e & E & Hf)].
  - left. exists w, st. split; [exact E|]. split; [exact Hh|]. split; [exact Hf|]. split.
    + intros c Hc Hl. apply Ha; [exact Hc|]. destruct (wall_at_inv W c Hc). lia.
    + intros c Hc Hl. apply Hb; [exact Hc|]. lia.
  - right. exists e. auto.
Qed.
