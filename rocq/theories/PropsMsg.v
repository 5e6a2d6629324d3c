(** The text of a parse error (C107). *)
From Coq Require Import ZArith List Bool Lia Ascii String.
From Verif Require Import Base SearchModel SearchSpec WallsModel WallsSpec SearchCoord WallsText2 MsgModel MsgSpec MsgProofs.
Import ListNotations.
Open Scope Z_scope.
Open Scope list_scope.

(** ** C107: the text of a parse error names, in decimal, the line (counted from 1) and the characters
    (counted from 0) of the first place that is not allowed, and lists the pieces allowed there. *)
Theorem C107_message W s e : supported W -> walls_parse W s = Ret (inr e) ->
  exists pre p post a b c,
    places W (Z.min (llen (lines s)) (2 * W + 1)) = pre ++ p :: post /\
    Forall (allowed (lines s)) pre /\ ~ allowed (lines s) p /\
    perr_display e = Ret (L "line " ++ a ++ L ", character " ++ b ++ L " to " ++ c ++ L ", here must be " ++ choice (p_allowed p) ++ L ".") /\
    numeral a (p_line p + 1) /\ numeral b (p_col p) /\
    forall t, In t (p_allowed p) -> numeral c (p_col p + llen t).
Proof.
  intros HW H. destruct (parse_error_ok W s e HW H) as (P & P1 & P2 & P3).
  destruct (error_shown e P P1 P2 P3) as (a & b & c & E & A & B & C).
  destruct (parse_spec W s HW) as [(w & st & E' & _)|(e' & E' & pre & p & post & Hp & Ha & Hn & D1 & D2 & D3 & D4)]; [congruence|].
  assert (e' = e) by congruence. subst e'. exists pre, p, post, a, b, c. rewrite D1, D2, D3 in *.
  split; [exact Hp|]. split; [exact Ha|]. split; [exact Hn|]. split; [exact E|]. split; [exact A|]. split; [exact B|].
  intros t I. rewrite <- (D4 t I). exact C.
Qed.
Print Assumptions C107_message.

(** Different errors have different texts, also for mazes of different sizes. *)
Theorem C107_distinct W W' s s' e e' : supported W -> supported W' ->
  walls_parse W s = Ret (inr e) -> walls_parse W' s' = Ret (inr e') -> perr_display e = perr_display e' -> e = e'.
Proof.
  intros HW HW' H H'. destruct (parse_error_ok W s e HW H) as (P & P1 & P2 & P3).
  destruct (parse_error_ok W' s' e' HW' H') as (Q & Q1 & Q2 & Q3).
  apply shown_inj; [exact P|exact Q|apply error_shown; assumption|apply error_shown; assumption].
Qed.
Print Assumptions C107_distinct.

Example C107_case : walls_parse 2 (L "+---+---+
|   x   |
") = Ret (inr (PErr [L "   |"; L "    "] 1 1 5)) /\
  perr_display (PErr [L "   |"; L "    "] 1 1 5) = Ret (L "line 2, character 1 to 5, here must be `   |` or `    `.").
Proof. split; vm_compute; reflexivity. Qed.
