From Coq Require Import ZArith List Bool Lia Ascii String.
From Verif Require Import Base SearchModel SearchSpec WallsModel WallsSpec SearchCoord WallsText2 MsgModel MsgSpec.
Import ListNotations.
Open Scope Z_scope.
Open Scope list_scope.

Lemma digit_code d : 0 <= d < 10 -> Z.of_nat (nat_of_ascii (ascii_of_nat (Z.to_nat (48 + d)))) = 48 + d.
Proof. intros H. rewrite nat_ascii_embedding by lia. lia. Qed.

Lemma meaning_snoc t c : meaning (t ++ [c]) = 10 * meaning t + (Z.of_nat (nat_of_ascii c) - 48).
Proof. unfold meaning. rewrite fold_left_app. reflexivity. Qed.

Lemma decimal_ok n : forall z, 0 <= z < 10 ^ Z.of_nat n -> (n <> 0)%nat -> numeral (decimal n z) z.
Proof.
  induction n as [|n IH]; [congruence|]. intros z Hz _. cbn [decimal].
  pose proof (Z.mod_pos_bound z 10 ltac:(lia)) as M. pose proof (Z.div_mod z 10 ltac:(lia)) as E.
  pose proof (digit_code (z mod 10) M) as D. set (c := ascii_of_nat _) in *.
  destruct (Z.ltb_spec z 10) as [S|S].
  - rewrite Z.mod_small in D by lia. cbn [app]. split; [constructor; [unfold digit; lia|constructor]|].
    split; [unfold meaning; cbn [fold_left]; lia|]. exists c, []. split; reflexivity.
  - rewrite Nat2Z.inj_succ, Z.pow_succ_r in Hz by lia.
    assert (Q : 1 <= z / 10 < 10 ^ Z.of_nat n).
    { split; [apply Z.div_le_lower_bound; lia|]. apply Z.div_lt_upper_bound; lia. }
    assert (N : (n <> 0)%nat) by (intros ->; cbn in Q; lia).
    destruct (IH (z / 10) ltac:(lia) N) as (A & B & (d & r & Er & Z0)).
    split; [apply Forall_app; split; [exact A|constructor; [unfold digit; lia|constructor]]|].
    split; [rewrite meaning_snoc, B; lia|]. exists d, (r ++ [c]). split; [rewrite Er; reflexivity|].
    intros Ed. specialize (Z0 Ed). subst d r. rewrite Er in B. cbn in B. lia.
Qed.

Lemma usize_ok z : 0 <= z < 4294967296 -> numeral (usize_text z) z.
Proof. intros H. apply decimal_ok; [|lia]. change (10 ^ Z.of_nat 10) with 10000000000. lia. Qed.

(** the places. *)
Definition pieces5 : list (list text) := [[L "+"]; [L "|"]; [L "---+"]; [L "---+"; L "   +"]; [L "   |"; L "    "]].

Lemma place_ok W n p : In p (places W n) -> n <= 2 * W + 1 ->
  0 <= p_line p < n /\ 0 <= p_col p < 4 * Z.max 0 W + 1 /\ In (p_allowed p) pieces5.
Proof.
  intros H Hn. unfold places in H. apply in_flat_map in H as (y & Hy & H).
  unfold upto in Hy. apply in_map_iff in Hy as (i & <- & Hi). apply in_seq in Hi.
  destruct H as [<-|H].
  - cbn [p_line p_col p_allowed]. split; [lia|]. split; [lia|]. unfold starts, pieces5. destruct (Z.even _); cbn; auto.
  - apply in_map_iff in H as (x & <- & Hx). unfold upto in Hx. apply in_map_iff in Hx as (j & <- & Hj). apply in_seq in Hj.
    cbn [p_line p_col p_allowed]. split; [lia|]. split; [lia|]. unfold pieces, pieces5.
    destruct (Z.of_nat i =? 2 * W); [cbn; auto|]. destruct (Z.even _); cbn; auto 6.
Qed.

Definition shown (e : perr) : Prop :=
  exists a b c, perr_display e = Ret (L "line " ++ a ++ L ", character " ++ b ++ L " to " ++ c ++ L ", here must be " ++ choice (e_expected e) ++ L ".") /\
    numeral a (e_line e + 1) /\ numeral b (e_from e) /\ numeral c (e_to e).

Lemma error_shown e : In (e_expected e) pieces5 -> 0 <= e_line e < 1000 -> 0 <= e_from e < 1000 -> 0 <= e_to e < 1000 -> shown e.
Proof.
  intros P H1 H2 H3. exists (usize_text (e_line e + 1)), (usize_text (e_from e)), (usize_text (e_to e)).
  split; [|split; [apply usize_ok; lia|split; apply usize_ok; lia]].
  unfold perr_display. destruct (Z.ltb_spec 4294967295 (e_line e + 1)); [lia|]. cbv zeta.
  generalize (usize_text (e_line e + 1)) (usize_text (e_from e)) (usize_text (e_to e)). intros a b c.
  destruct P as [P|[P|[P|[P|[P|[]]]]]]; rewrite <- P; cbn [choice map List.concat]; rewrite ?app_nil_r, <- ?app_assoc; reflexivity.
Qed.

Lemma parse_error_ok W s e : supported W -> walls_parse W s = Ret (inr e) ->
  In (e_expected e) pieces5 /\ 0 <= e_line e < 1000 /\ 0 <= e_from e < 1000 /\ 0 <= e_to e < 1000.
Proof.
  intros HW H. pose proof (supported_bounds W HW) as B.
  destruct (parse_spec W s HW) as [(w & st & E & _)|(e' & E & pre & p & post & Hp & _ & _ & D)]; [congruence|].
  assert (e' = e) by congruence. subst e'.
  assert (I : In p (places W (Z.min (llen (lines s)) (2 * W + 1)))) by (rewrite Hp; apply in_elt).
  apply place_ok in I; [|lia]. destruct I as (I1 & I2 & I3). destruct D as (D1 & D2 & D3 & D4). rewrite D1, D2, D3.
  split; [exact I3|]. split; [lia|]. split; [lia|].
  assert (X : exists t, In t (p_allowed p) /\ (llen t = 1 \/ llen t = 4)).
  { destruct I3 as [I3|[I3|[I3|[I3|[I3|[]]]]]]; rewrite <- I3; eexists; (split; [left; reflexivity|]); vm_compute; auto. }
  destruct X as (t & X1 & X2). rewrite (D4 t X1). lia.
Qed.

(** reading back. *)
Lemma split_digits : forall a b x y r r', Forall digit a -> Forall digit b -> ~ digit x -> ~ digit y -> a ++ x :: r = b ++ y :: r' -> a = b /\ r = r'.
Proof.
  induction a as [|d a IH]; intros [|d' b] x y r r' Ha Hb Nx Ny E; cbn [app] in E.
  - injection E as _ E. auto.
  - injection E as E _. subst. inversion Hb; subst. contradiction.
  - injection E as E _. subst. inversion Ha; subst. contradiction.
  - injection E as E1 E2. inversion Ha; inversion Hb; subst. destruct (IH b x y r r') as [-> ->]; auto.
Qed.

Lemma choice_inj l l' r : In l pieces5 -> In l' pieces5 -> choice l ++ r = choice l' ++ r -> l = l'.
Proof.
  intros H H' E. destruct H as [H|[H|[H|[H|[H|[]]]]]]; destruct H' as [H'|[H'|[H'|[H'|[H'|[]]]]]]; subst l l'; try reflexivity; cbn in E; try discriminate E.
  all: exfalso; apply (f_equal (@List.length ascii)) in E; cbn in E; lia.
Qed.

Lemma shown_inj e e' : In (e_expected e) pieces5 -> In (e_expected e') pieces5 -> shown e -> shown e' -> perr_display e = perr_display e' -> e = e'.
Proof.
  intros P P' (a & b & c & E & A & B & C) (a' & b' & c' & E' & A' & B' & C') H. rewrite E, E' in H. injection H as H.
  assert (N : ~ digit ","%char) by (unfold digit; cbn; lia). assert (N' : ~ digit " "%char) by (unfold digit; cbn; lia).
  cbn [L list_ascii_of_string app] in H.
  apply split_digits in H as [Ha H]; [|apply A|apply A'|exact N|exact N]. injection H as H.
  apply split_digits in H as [Hb H]; [|apply B|apply B'|exact N'|exact N']. injection H as H.
  apply split_digits in H as [Hc H]; [|apply C|apply C'|exact N|exact N]. injection H as H.
  apply choice_inj in H; [|assumption|assumption]. subst a' b' c'.
  destruct e as [x l f t], e' as [x' l' f' t']. cbn in *. destruct A as (_ & A & _), A' as (_ & A' & _), B as (_ & B & _), B' as (_ & B' & _), C as (_ & C & _), C' as (_ & C' & _).
  f_equal; [exact H|lia|lia|lia].
Qed.
