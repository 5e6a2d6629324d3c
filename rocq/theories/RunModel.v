(** Model of /repo/mousecore2/src/solve/run.rs.
    [W : u8] is an explicit argument.  [is_wall] may panic ([coord -> res bool]); [is_goal] and
    [into_cost] are total functions.  The cost type [C] is an unsigned integer type with largest
    value [cmax].  The binary heap (crate heapless) is a bag from which [pop] removes an entry of
    least cost; which one of several is decided by an arbitrary oracle [tie]. *)
From Coq Require Import ZArith List Bool Lia.
From Verif Require Import Base SearchModel.
Import ListNotations.
Open Scope Z_scope.

(** run.rs:11. *)
Definition RUN_MAX : Z := WIDTH * WIDTH * 16.
(** run.rs:12. *)
Definition PATH_MAX : Z := WIDTH * WIDTH.
(** run.rs:13. *)
Definition NEIGHBOR_MAX : Z := 2 * WIDTH + 4.

(** run.rs:16-25. *)
Inductive dir8 := PN | PNE | PE | PSE | PS | PSW | PW | PNW.
(** [dir as u8], run.rs:199-201, 280-282. *)
Definition dir_num (p : dir8) : Z :=
  match p with PN => 0 | PNE => 1 | PE => 2 | PSE => 3 | PS => 4 | PSW => 5 | PW => 6 | PNW => 7 end.

(** run.rs:28-42. *)
Definition from_u8 (v : Z) : res dir8 :=
  match v with
  | 0 => Ret PN | 1 => Ret PNE | 2 => Ret PE | 3 => Ret PSE
  | 4 => Ret PS | 5 => Ret PSW | 6 => Ret PW | 7 => Ret PNW
  | _ => Panic
  end.

(** run.rs:46-49 (fields of [RunCoord]) and 70-73. *)
Record node := Nde { nx : Z; ny : Z; np : dir8 }.

(** run.rs:52-57. *)
Definition rc_new (W x y : Z) : option (Z * Z) :=
  if negb (is_power_of_two W) || (as_u8 (Z.shiftl W 1) <=? x) || (as_u8 (Z.shiftl W 1) <=? y)
  then None else Some (x, y).

(** run.rs:59-66. *)
Definition rc_relative (W x y dx dy : Z) : option (Z * Z) :=
  match checked_add_i8 (as_i8 x) dx with
  | None => None
  | Some x' =>
    match checked_add_i8 (as_i8 y) dy with
    | None => None
    | Some y' => if (x' <? 0) || (y' <? 0) then None else rc_new W x' y'
    end
  end.

(** the diagonal postures of run.rs:83. *)
Definition is_diag (p : dir8) : bool := match p with PNE | PSE | PSW | PNW => true | _ => false end.

(** run.rs:76-91. *)
Definition node_new (W x y : Z) (p : dir8) : option node :=
  match rc_new W x y with
  | None => None
  | Some _ =>
    if (is_diag p && (((Z.land x 1 =? 1) && (Z.land y 1 =? 0)) || ((Z.land x 1 =? 0) && (Z.land y 1 =? 1))))
       || (negb (is_diag p) && (Z.land x 1 =? 0) && (Z.land y 1 =? 0))
    then Some (Nde x y p) else None
  end.

(** run.rs:133-135. *)
Definition y_offset (W : Z) : Z := trailing_zeros W + 1.
(** run.rs:137-139. *)
Definition dir_offset (W : Z) : Z := Z.shiftl (trailing_zeros W + 1) 1.

(** run.rs:105-131. *)
Definition node_index (W : Z) (n : node) : res Z :=
  let* dir :=
    (if Z.land (Z.lxor (nx n) (ny n)) 1 =? 1 then
       match np n with PNE => Ret 0 | PSE => Ret 1 | PSW => Ret 2 | PNW => Ret 3 | _ => Panic end
     else if Z.land (Z.lor (nx n) (ny n)) 1 =? 0 then
       match np n with PN => Ret 0 | PE => Ret 1 | PS => Ret 2 | PW => Ret 3 | _ => Panic end
     else Panic) in
  Ret (Z.lor (Z.lor (nx n) (Z.shiftl (ny n) (y_offset W))) (Z.shiftl dir (dir_offset W))).

(** run.rs:326-334. *)
Inductive ekind :=
| KStraight (n : Z) | KStraightDiagonal (n : Z)
| KSlalom45 | KSlalom90 | KSlalom135 | KSlalom180 | KSlalomDiagonal90.

(** trajectory/slalom.rs:42-51 (the variants used by run.rs) and 33-36. *)
Inductive skind :=
| FastRun45 | FastRun45Rev | FastRun90 | FastRun135 | FastRun135Rev | FastRun180 | FastRunDiagonal90.
(** trajectory/slalom.rs:33-36. *)
Inductive sdir := SRight | SLeft.
(** run.rs:319-323. *)
Inductive rtraj := RStraight (n : Z) | RStraightDiagonal (n : Z) | RSlalom (k : skind) (d : sdir).

Section Succs.
  Variable W : Z.
  Variable is_wall : coord -> res bool.
  Variable n : node.

  (** run.rs:183-188. *)
  Definition rot (dx dy : Z) : res (Z * Z) :=
    match np n with
    | PN | PNE => Ret (dx, dy)
    | PE | PSE => let* b := chk_i8 (- dx) in Ret (dy, b)
    | PS | PSW => let* a := chk_i8 (- dx) in let* b := chk_i8 (- dy) in Ret (a, b)
    | PW | PNW => let* a := chk_i8 (- dy) in Ret (a, dx)
    end.

  (** run.rs:147-162 with 190-193: [true] is [ControlFlow::Continue]. *)
  Definition cont (dx dy : Z) : res bool :=
    let* d := rot dx dy in
    match rc_relative W (nx n) (ny n) (fst d) (snd d) with
    | None => Ret false
    | Some (x, y) =>
      if ((Z.land x 1 =? 1) && (Z.land y 1 =? 0)) || ((Z.land x 1 =? 0) && (Z.land y 1 =? 1)) then
        match coord_new W x y with
        | None => Panic
        | Some c => let* b := is_wall c in Ret (negb b)
        end
      else Panic
    end.

  (** run.rs:197-202. *)
  Definition rot_dir (dir : dir8) : res dir8 :=
    match np n with
    | PN | PNE => Ret dir
    | PE | PSE => from_u8 (Z.land (dir_num dir + 2) 7)
    | PS | PSW => from_u8 (Z.land (dir_num dir + 4) 7)
    | PW | PNW => from_u8 (Z.land (dir_num dir + 6) 7)
    end.

  (** run.rs:163-170 with 195-204 and 262-268: the successors so far and [true] for [Continue]. *)
  Definition add (acc : list (node * ekind)) (dx dy : Z) (dir : dir8) (kind : ekind)
      : res (bool * list (node * ekind)) :=
    let* d := rot dx dy in
    let* dir' := rot_dir dir in
    match rc_relative W (nx n) (ny n) (fst d) (snd d) with
    | None => Ret (false, acc)
    | Some (x, y) => let* acc' := vpush NEIGHBOR_MAX acc (Nde x y dir', kind) in Ret (true, acc')
    end.

  (** run.rs:210-213. *)
  Fixpoint straight_loop (fuel : nat) (i : Z) (acc : list (node * ekind)) : res (list (node * ekind)) :=
    match fuel with
    | O => Fuel
    | S f =>
      let* i' := range_next i in
      let* i2 := chk_i8 (2 * i) in
      let* c := cont 0 (i2 - 1) in
      if c then
        let* r := add acc 0 i2 PN (KStraight i) in
        if fst r then straight_loop f i' (snd r) else Ret (snd r)
      else Ret acc
    end.

  (** run.rs:236-239, 248-251. *)
  Fixpoint diag_loop (fuel : nat) (i : Z) (acc : list (node * ekind)) : res (list (node * ekind)) :=
    match fuel with
    | O => Fuel
    | S f =>
      let* i' := range_next i in
      let* c := cont i i in
      if c then
        let* r := add acc i i PNE (KStraightDiagonal i) in
        if fst r then diag_loop f i' (snd r) else Ret (snd r)
      else Ret acc
    end.

  (** run.rs:215-222 ([s = 1]) and 224-231 ([s = -1]); the postures are those of the code. *)
  Definition turn_side (s : Z) (acc : list (node * ekind)) : res (list (node * ekind)) :=
    let p45 := if s =? 1 then PNE else PNW in
    let p90 := if s =? 1 then PE else PW in
    let p135 := if s =? 1 then PSE else PSW in
    let* c := cont s 2 in
    if negb c then Ret acc else
    let* r := add acc s 2 p45 KSlalom45 in
    if negb (fst r) then Ret (snd r) else
    let* r := add (snd r) (2 * s) 2 p90 KSlalom90 in
    if negb (fst r) then Ret (snd r) else
    let* c := cont (2 * s) 1 in
    if negb c then Ret (snd r) else
    let* r := add (snd r) (2 * s) 1 p135 KSlalom135 in
    if negb (fst r) then Ret (snd r) else
    let* r := add (snd r) (2 * s) 0 PS KSlalom180 in
    Ret (snd r).

  (** run.rs:207-232. *)
  Definition succs_cell : res (list (node * ekind)) :=
    let* c := cont 0 1 in
    if negb c then Ret [] else
    let* acc := straight_loop SEQ_FUEL 1 [] in
    let* acc := turn_side 1 acc in
    turn_side (-1) acc.

  (** run.rs:234-244. *)
  Definition succs_left : res (list (node * ekind)) :=
    let* c := cont 1 1 in
    if negb c then Ret [] else
    let* acc := diag_loop SEQ_FUEL 1 [] in
    let* r := add acc 1 2 PN KSlalom45 in
    if negb (fst r) then Ret (snd r) else
    let* c := cont 0 2 in
    if negb c then Ret (snd r) else
    let* r := add (snd r) 0 2 PNW KSlalomDiagonal90 in
    if negb (fst r) then Ret (snd r) else
    let* r := add (snd r) (-1) 2 PW KSlalom135 in
    Ret (snd r).

  (** run.rs:246-256. *)
  Definition succs_right : res (list (node * ekind)) :=
    let* c := cont 1 1 in
    if negb c then Ret [] else
    let* acc := diag_loop SEQ_FUEL 1 [] in
    let* r := add acc 2 1 PE KSlalom45 in
    if negb (fst r) then Ret (snd r) else
    let* c := cont 2 0 in
    if negb c then Ret (snd r) else
    let* r := add (snd r) 2 0 PSE KSlalomDiagonal90 in
    if negb (fst r) then Ret (snd r) else
    let* r := add (snd r) 2 (-1) PS KSlalom135 in
    Ret (snd r).

  (** the three groups of run.rs:206-258 and 284-313. *)
  Inductive ngroup := GCell | GLeft | GRight | GNone.
  (** the [match] of run.rs:206, 234, 246, 257 and 284, 298, 306. *)
  Definition group : ngroup :=
    match Z.land (nx n) 1, Z.land (ny n) 1, np n with
    | 0, 0, (PN | PE | PS | PW) => GCell
    | 1, 0, (PNE | PSW) | 0, 1, (PNW | PSE) => GLeft
    | 0, 1, (PNE | PSW) | 1, 0, (PNW | PSE) => GRight
    | _, _, _ => GNone
    end.

  (** run.rs:141-173, 175-260. *)
  Definition successors : res (list (node * ekind)) :=
    match group with
    | GCell => succs_cell
    | GLeft => succs_left
    | GRight => succs_right
    | GNone => Panic
    end.
End Succs.

(** run.rs:276-283: the other node relative to this one's posture. *)
Definition rel_of (a b : node) : res (Z * Z * dir8) :=
  let* dx := chk_i8 (as_i8 (nx b) - as_i8 (nx a)) in
  let* dy := chk_i8 (as_i8 (ny b) - as_i8 (ny a)) in
  match np a with
  | PN | PNE => Ret (dx, dy, np b)
  | PE | PSE => let* a1 := chk_i8 (- dy) in
                let* p := from_u8 (Z.land (6 + dir_num (np b)) 7) in Ret (a1, dx, p)
  | PS | PSW => let* a1 := chk_i8 (- dx) in let* b1 := chk_i8 (- dy) in
                let* p := from_u8 (Z.land (4 + dir_num (np b)) 7) in Ret (a1, b1, p)
  | PW | PNW => let* b1 := chk_i8 (- dx) in
                let* p := from_u8 (Z.land (2 + dir_num (np b)) 7) in Ret (dy, b1, p)
  end.

(** run.rs:270-315. *)
Definition trajectory_kind (a b : node) : res (option rtraj) :=
  let* rel := rel_of a b in
  Ret (match group a with
  | GCell =>
    match rel with
    | (0, y, PN) => if (0 <? y) && (Z.land y 1 =? 0) then Some (RStraight (Z.shiftr y 1)) else None
    | (1, 2, PNE) => Some (RSlalom FastRun45 SRight)
    | (2, 2, PE) => Some (RSlalom FastRun90 SRight)
    | (2, 1, PSE) => Some (RSlalom FastRun135 SRight)
    | (2, 0, PS) => Some (RSlalom FastRun180 SRight)
    | (-1, 2, PNW) => Some (RSlalom FastRun45 SLeft)
    | (-2, 2, PW) => Some (RSlalom FastRun90 SLeft)
    | (-2, 1, PSW) => Some (RSlalom FastRun135 SLeft)
    | (-2, 0, PS) => Some (RSlalom FastRun180 SLeft)
    | _ => None
    end
  | GLeft =>
    match rel with
    | (x, y, PNE) => if (x =? y) && (0 <? x) then Some (RStraightDiagonal x) else None
    | (1, 2, PN) => Some (RSlalom FastRun45Rev SLeft)
    | (0, 2, PNW) => Some (RSlalom FastRunDiagonal90 SLeft)
    | (-1, 2, PW) => Some (RSlalom FastRun135Rev SLeft)
    | _ => None
    end
  | GRight =>
    match rel with
    | (x, y, PNE) => if (x =? y) && (0 <? x) then Some (RStraightDiagonal x) else None
    | (2, 1, PE) => Some (RSlalom FastRun45Rev SRight)
    | (2, 0, PSE) => Some (RSlalom FastRunDiagonal90 SRight)
    | (2, -1, PS) => Some (RSlalom FastRun135Rev SRight)
    | _ => None
    end
  | GNone => None
  end).

(** run.rs:345-349 ([NonZeroU16] is its value). *)
Definition node_id (W : Z) (n : node) : res Z :=
  let* i := node_index W n in
  let v := Z.lor (Z.shiftl (i mod 65536) 1 mod 65536) 1 in
  if v =? 0 then Panic else Ret v.

(** run.rs:340-342. *)
Definition id_index (id : Z) : Z := Z.shiftr id 1.

(** run.rs:351-384. *)
Definition node_of_id (W id : Z) : res node :=
  let x := as_u8 (Z.land (Z.shiftr id 1) (Z.shiftl 1 (y_offset W) - 1)) in
  let y := as_u8 (Z.shiftr (Z.land id (Z.shiftl 1 (dir_offset W + 1) - 1)) (1 + y_offset W)) in
  let dir := Z.shiftr id (1 + dir_offset W) in
  let* p :=
    (if Z.land (Z.lxor x y) 1 =? 1 then
       match dir with 0 => Ret PNE | 1 => Ret PSE | 2 => Ret PSW | 3 => Ret PNW | _ => Panic end
     else if Z.land (Z.lor x y) 1 =? 0 then
       match dir with 0 => Ret PN | 1 => Ret PE | 2 => Ret PS | 3 => Ret PW | _ => Panic end
     else Panic) in
  Ret (Nde x y p).

(** ** The heap, [BinaryHeap<CostNode<C, NodeId<W>>, Min, QUE_MAX>] (run.rs:438): number of entries
    and entries (cost, identifier). *)
Definition rheap : Type := Z * list (Z * Z).

(** [heap.push(..).ok()], run.rs:441-445, 466: dropped silently when full. *)
Definition heap_push (h : rheap) (c id : Z) : rheap :=
  if fst h <? RUN_MAX then (fst h + 1, (c, id) :: snd h) else h.

(** least cost among the entries ([Ord] of run.rs:408-412). *)
Fixpoint heap_min (l : list (Z * Z)) : option Z :=
  match l with
  | [] => None
  | (c, _) :: l' => match heap_min l' with None => Some c | Some m => Some (Z.min c m) end
  end.

(** remove the [j]-th entry of cost [m] (the last one if there are fewer); part of [pop], run.rs:449
    (crate heapless). *)
Fixpoint heap_take (m : Z) (j : nat) (l : list (Z * Z)) : option (Z * list (Z * Z)) :=
  match l with
  | [] => None
  | (c, id) :: l' =>
    if c =? m then
      match j with
      | O => Some (id, l')
      | S j' => match heap_take m j' l' with
                | Some (id', r) => Some (id', (c, id) :: r)
                | None => Some (id, l')
                end
      end
    else match heap_take m j l' with
         | Some (id', r) => Some (id', (c, id) :: r)
         | None => None
         end
  end.

(** [heap.pop()], run.rs:449, with the tie broken by [j]. *)
Definition heap_pop (j : nat) (h : rheap) : option (Z * Z * rheap) :=
  match heap_min (snd h) with
  | None => None
  | Some m => match heap_take m j (snd h) with
              | None => None
              | Some (id, l) => Some (m, id, (fst h - 1, l))
              end
  end.

(** the local variables of run.rs:436-438. *)
Record rst := Rst { r_dist : arr Z; r_prev : arr (option Z); r_heap : rheap }.

Section Solver.
  Variable W : Z.
  Variable is_goal : node -> bool.
  Variable is_wall : coord -> res bool.
  Variable into_cost : ekind -> Z.
  Variable cmax : Z.
  Variable tie : nat -> nat.

  (** [Saturating::saturating_add], run.rs:462. *)
  Definition sat_add (a b : Z) : Z := Z.min cmax (a + b).

  (** run.rs:460-469. *)
  Fixpoint relax (cost node : Z) (l : list (RunModel.node * ekind)) (s : rst) : res rst :=
    match l with
    | [] => Ret s
    | (nxt, kind) :: l' =>
      let* next := node_id W nxt in
      let c := sat_add cost (into_cost kind) in
      let* d := aget (r_dist s) (id_index next) in
      if d <=? c then relax cost node l' s else
      let h := heap_push (r_heap s) c next in
      let* dist := aset (r_dist s) (id_index next) c in
      let* prev := aset (r_prev s) (id_index next) (Some node) in
      relax cost node l' (Rst dist prev h)
    end.

  (** run.rs:449-470. *)
  Fixpoint run_loop (fuel : nat) (s : rst) : res (option Z * rst) :=
    match fuel with
    | O => Fuel
    | S f =>
      match heap_pop (tie f) (r_heap s) with
      | None => Ret (None, s)
      | Some (cost, id, h) =>
        let s := Rst (r_dist s) (r_prev s) h in
        let* d := aget (r_dist s) (id_index id) in
        if d <? cost then run_loop f s else
        let* n := node_of_id W id in
        if is_goal n then Ret (Some id, s) else
        let* succs := successors W is_wall n in
        let* s' := relax cost id succs s in
        run_loop f s'
      end
    end.

  (** run.rs:474-483; [fuel] only bounds the recursion, the buffer is full after [PATH_MAX]. *)
  Fixpoint path_loop (fuel : nat) (prev : arr (option Z)) (start cur : Z) (path : list RunModel.node)
      : res (list RunModel.node) :=
    match fuel with
    | O => Fuel
    | S f =>
      let* o := aget prev (id_index cur) in
      match o with
      | None => Ret path
      | Some next =>
        let* n := node_of_id W cur in
        let* path' := vpush PATH_MAX path n in
        if cur =? start then Ret path' else path_loop f prev start next path'
      end
    end.

  (** bound for the recursion of [run_loop]: more than the number of pushes of run.rs:441, 466
      (fuel has no code counterpart). *)
  Definition RUN_FUEL : nat := Z.to_nat (RUN_MAX * (NEIGHBOR_MAX + 1) + 2).

  (** run.rs:386-486. *)
  Definition run_path (start : RunModel.node) : res (option (list RunModel.node * Z)) :=
    let* sid := node_id W start in
    let* dist := aset (anew RUN_MAX cmax) (id_index sid) 0 in
    let* prev := aset (anew RUN_MAX None) (id_index sid) (Some sid) in
    let* r := run_loop RUN_FUEL (Rst dist prev (heap_push (0, []) 0 sid)) in
    match fst r with
    | None => Ret None
    | Some goal =>
      let* path := path_loop (Z.to_nat (PATH_MAX + 2)) (r_prev (snd r)) sid goal [] in
      let* d := aget (r_dist (snd r)) (id_index goal) in
      Ret (Some (rev path, d))
    end.
End Solver.
