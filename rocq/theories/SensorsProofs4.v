(** Proofs about the range sensor driver. *)
From Coq Require Import ZArith List Bool Lia ZifyBool.
From Verif Require Import Base SensorsModel.
Import ListNotations.
Open Scope Z_scope.

(** calls of the driver and what the caller sees. *)
Inductive tof_call := TRequest | TDistance.
Inductive tof_event := ERequest (ok : bool) | EDistance (d : option Z).

Section Proto.
  Context {B : Type} (env : i2c_env B).

  (** what a call shows to the caller; [None] if it panics or hangs. *)
  Definition tof_event_of (c : tof_call) (s : tof B) : option tof_event * tof B :=
    match c with
    | TRequest => match request_polling env s with
                  | (Val (NOk _), s') => (Some (ERequest true), s')
                  | (Val _, s') => (Some (ERequest false), s')
                  | (_, s') => (None, s') end
    | TDistance => match tof_distance env s with
                   | (Val (NOk d), s') => (Some (EDistance (Some d)), s')
                   | (Val _, s') => (Some (EDistance None), s')
                   | (_, s') => (None, s') end
    end.

  Fixpoint tof_events (cs : list tof_call) (s : tof B) : option (list tof_event) * tof B :=
    match cs with
    | [] => (Some [], s)
    | c :: cs' =>
      let (e, s1) := tof_event_of c s in
      match e with
      | None => (None, s1)
      | Some e => let (es, s2) := tof_events cs' s1 in (option_map (cons e) es, s2)
      end
    end.
End Proto.

(** is a request outstanding after these events, if [o] told so before? *)
Definition outstanding1 (o : bool) (e : tof_event) : bool :=
  match e with
  | ERequest true => true
  | ERequest false => o
  | EDistance (Some _) => false
  | EDistance None => o
  end.
Definition outstanding (o : bool) (es : list tof_event) : bool := fold_left outstanding1 es o.
(** a measurement is only delivered while a request is outstanding. *)
Fixpoint well_paired (o : bool) (es : list tof_event) : Prop :=
  match es with
  | [] => True
  | e :: es' => (forall d, e = EDistance (Some d) -> o = true) /\ well_paired (outstanding1 o e) es'
  end.

Lemma event_ok {B} (env : i2c_env B) c s : exists e s',
  tof_event_of env c s = (Some e, s') /\ is_polling_requested s' = outstanding1 (is_polling_requested s) e /\
  (forall d, e = EDistance (Some d) -> is_polling_requested s = true).
Proof.
  destruct s as [b a st]. destruct c; cbn [tof_event_of].
  - unfold request_polling, mbind, tof_write. change (split_register_address 24) with (0, 24). cbn.
    destruct (t_write env b a [0; 24; 1]) as [[] b']; cbn; eexists _, _;
      (split; [reflexivity|split; [reflexivity|discriminate]]).
  - unfold tof_distance. cbn [f_state]. destruct st; cbn.
    + eexists _, _; (split; [reflexivity|split; [reflexivity|discriminate]]).
    + unfold mbind, tof_read, tof_write. change (split_register_address 79) with (0, 79).
      change (split_register_address 98) with (0, 98). change (split_register_address 21) with (0, 21). cbn.
      destruct (t_write_read env b a [0; 79]) as [[v|] b1]; cbn;
        [|eexists _, _; (split; [reflexivity|split; [reflexivity|discriminate]])].
      destruct (negb (Z.land v 4 =? 4)); cbn;
        [eexists _, _; (split; [reflexivity|split; [reflexivity|discriminate]])|].
      destruct (t_write_read env b1 a [0; 98]) as [[d|] b2]; cbn;
        [|eexists _, _; (split; [reflexivity|split; [reflexivity|discriminate]])].
      destruct (t_write env b2 a [0; 21; 7]) as [[] b3]; cbn; eexists _, _;
        (split; [reflexivity|split; [reflexivity|first [discriminate|reflexivity]]]).
Qed.

Lemma events_ok {B} (env : i2c_env B) cs : forall s, exists es s',
  tof_events env cs s = (Some es, s') /\ length es = length cs /\
  is_polling_requested s' = outstanding (is_polling_requested s) es /\ well_paired (is_polling_requested s) es.
Proof.
  induction cs as [|c cs IH]; intros s; cbn [tof_events].
  - exists [], s. repeat split.
  - destruct (event_ok env c s) as (e & s1 & -> & H1 & H2).
    destruct (IH s1) as (es & s2 & -> & H3 & H4 & H5).
    exists (e :: es), s2. cbn. rewrite <- H1. repeat split; auto.
Qed.

(** ** Re-initialisation, with a device that behaves as the data sheet says: it answers only at its
    own address, the address register changes it and a reset restores the default one. *)
Record device := Device { d_addr : Z; d_on : bool }.

Definition vl6180x : i2c_env device := I2cEnv device
  (fun d a bytes =>
     if d_on d && (a =? d_addr d)
     then (true, match bytes with
                 | [h; l; v] => if (h =? 2) && (l =? 18) then Device v (d_on d) else d
                 | _ => d end)
     else (false, d))
  (fun d a bytes => if d_on d && (a =? d_addr d)
                    then (Some (match bytes with [0; 22] => 1 | _ => 0 end), d) else (None, d))
  (fun d high => (true, if high then Device (d_addr d) true else Device 41 false)).

Lemma tuning_ok a : forall st,
  tof_writes vl6180x tuning (Tof (Device a true) a st) = (Val (Some tt), Tof (Device a true) a st).
Proof.
  intros st.
  assert (H : forall l, forallb (fun p => negb (fst p =? 530) && (0 <=? fst p) && (fst p <? 65536)) l = true ->
    tof_writes vl6180x l (Tof (Device a true) a st) = (Val (Some tt), Tof (Device a true) a st)).
  { induction l as [|[r v] l IH]; intros Hl; [reflexivity|].
    cbn [forallb fst] in Hl. cbn [tof_writes]. unfold mbind at 1. unfold tof_write, split_register_address.
    cbn [f_bus f_addr f_state t_write vl6180x d_on d_addr andb]. rewrite Z.eqb_refl.
    assert (Hr : (Z.shiftr r 8 mod 256 =? 2) && (r mod 256 =? 18) = false).
    { rewrite Z.shiftr_div_pow2 by lia. change (2 ^ 8) with 256.
      apply not_true_is_false. intros Ht. apply andb_prop in Ht. destruct Ht as [T1 T2].
      apply Z.eqb_eq in T1, T2. assert (r = 530); [|lia].
      rewrite Z.mod_small in T1; [pose proof (Z.div_mod r 256); lia|].
      split; [apply Z.div_pos; lia|apply Z.div_lt_upper_bound; lia]. }
    rewrite Hr. apply IH. lia. }
  apply H. vm_compute. reflexivity.
Qed.

Lemma init_ok fuel d st new : tof_init vl6180x (S fuel) new (Tof d 41 st) = (Val tt, Tof (Device new true) new st).
Proof.
  unfold tof_init. unfold mbind at 1. replace (wait_ok (S fuel) (tof_pin vl6180x false) (Tof d 41 st))
    with (Val tt, Tof (Device 41 false) 41 st) by reflexivity.
  unfold mbind at 1. replace (wait_ok (S fuel) (tof_pin vl6180x true) (Tof (Device 41 false) 41 st))
    with (Val tt, Tof (Device 41 true) 41 st) by reflexivity.
  unfold mbind at 1. replace (wait_ok (S fuel) (block (S fuel) (check_if_working vl6180x)) (Tof (Device 41 true) 41 st))
    with (Val tt, Tof (Device 41 true) 41 st) by reflexivity.
  unfold mbind at 1.
  assert (E : wait_ok (S fuel) (tof_writes vl6180x tuning) (Tof (Device 41 true) 41 st) =
    (Val tt, Tof (Device 41 true) 41 st)).
  { cbn [wait_ok]. unfold mbind. rewrite tuning_ok. reflexivity. }
  rewrite E. reflexivity.
Qed.

(** a second [init] while the driver still holds another address never finishes. *)
Lemma reinit_stuck fuel d a st new : a <> 41 -> fst (tof_init vl6180x fuel new (Tof d a st)) = More.
Proof.
  intros Ha. destruct fuel as [|fuel]; [reflexivity|].
  unfold tof_init. unfold mbind at 1. replace (wait_ok (S fuel) (tof_pin vl6180x false) (Tof d a st))
    with (Val tt, Tof (Device 41 false) a st) by reflexivity.
  unfold mbind at 1. replace (wait_ok (S fuel) (tof_pin vl6180x true) (Tof (Device 41 false) a st))
    with (Val tt, Tof (Device 41 true) a st) by reflexivity.
  unfold mbind at 1.
  assert (Ea : (a =? 41) = false) by lia.
  assert (Eb : block (S fuel) (check_if_working vl6180x) (Tof (Device 41 true) a st) = (Val None, Tof (Device 41 true) a st)).
  { cbn [block]. unfold mbind, check_if_working, tof_read. cbn. unfold mbind. cbn. rewrite Ea. reflexivity. }
  assert (E : forall n, wait_ok n (block (S fuel) (check_if_working vl6180x)) (Tof (Device 41 true) a st) =
     (More, Tof (Device 41 true) a st)).
  { induction n as [|n IH]; [reflexivity|]. cbn [wait_ok]. unfold mbind. rewrite Eb. exact IH. }
  rewrite E. reflexivity.
Qed.
