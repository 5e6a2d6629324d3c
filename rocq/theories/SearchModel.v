(** Model of /repo/mousecore2/src/solve/search.rs.
    The const generic [W : u8] is an explicit argument.  Panics (array index out of
    bounds, [unwrap] on a full container, debug overflow, [unreachable!]) are [Panic].
    Callbacks ([is_wall], [wall_state], [unchecked_wall]) are arbitrary functions
    [coord -> res A], so a callback may itself panic. *)
From Coq Require Import ZArith List Bool Lia.
From Verif Require Import Base.
Import ListNotations.
Open Scope Z_scope.

(** mousecore2/src/lib.rs:9 [const WIDTH: usize = 32]. *)
Definition WIDTH : Z := 32.

(** search.rs:8. *)
Definition FIL_LEN : Z := WIDTH * WIDTH / 4.

(** search.rs:276. *)
Definition QUE_MAX : Z := WIDTH * WIDTH * 2.

(** search.rs:45-48, fields [x, y : u8]. *)
Record coord := Co { cx : Z; cy : Z }.

(** derived [PartialEq], search.rs:44. *)
Definition coord_eqb (a b : coord) : bool := (cx a =? cx b) && (cy a =? cy b).

(** [u8::is_power_of_two] (core), called in search.rs:52: exactly one bit set. *)
Definition is_power_of_two (w : Z) : bool := (0 <? w) && (Z.land w (w - 1) =? 0).

(** [u8::trailing_zeros] (core), called in search.rs:59; 8 on zero. *)
Fixpoint trailing_zeros_from (fuel : nat) (w : Z) : Z :=
  match fuel with
  | O => 0
  | S n => if Z.odd w then 0 else 1 + trailing_zeros_from n (Z.shiftr w 1)
  end.
(** [u8::trailing_zeros], search.rs:59. *)
Definition trailing_zeros (w : Z) : Z := trailing_zeros_from 8 w.

(** search.rs:51-56.  [W << 1] drops the top bit (u8). *)
Definition coord_new (W x y : Z) : option coord :=
  if negb (is_power_of_two W) || (as_u8 (Z.shiftl W 1) <=? x) || (as_u8 (Z.shiftl W 1) <=? y)
     || (Z.land (Z.lxor x y) 1 =? 0)
  then None else Some (Co x y).

(** search.rs:58-62. *)
Definition as_index (W : Z) (c : coord) : Z :=
  Z.lor (Z.lor (Z.shiftl (Z.shiftr (cy c) 1) (trailing_zeros W + 1))
               (Z.shiftl (Z.shiftr (cx c) 1) 1))
        (Z.land (cy c) 1).

(** search.rs:64-66. *)
Definition is_top (c : coord) : bool := Z.land (cy c) 1 =? 1.

(** ** Filter, search.rs:10-34 *)

(** search.rs:10. *)
Definition filter := arr Z.

(** search.rs:13-15. *)
Definition filter_new : filter := anew FIL_LEN 0.

(** search.rs:25-28.  [1 << (index & 7)] fits u8. *)
Definition filter_set (W : Z) (f : filter) (c : coord) : res filter :=
  let index := as_index W c in
  let* b := aget f (Z.shiftr index 3) in
  aset f (Z.shiftr index 3) (Z.lor b (Z.shiftl 1 (Z.land index 7))).

(** search.rs:30-33. *)
Definition filter_contains (W : Z) (f : filter) (c : coord) : res bool :=
  let index := as_index W c in
  let* b := aget f (Z.shiftr index 3) in
  Ret (Z.land (Z.shiftr b (Z.land index 7)) 1 =? 1).

(** the [for] loop of search.rs:19-21. *)
Fixpoint filter_set_all (W : Z) (f : filter) (cs : list coord) : res filter :=
  match cs with
  | [] => Ret f
  | c :: cs' => let* f' := filter_set W f c in filter_set_all W f' cs'
  end.

(** search.rs:17-23. *)
Definition filter_with_coord (W : Z) (cs : list coord) : res filter :=
  filter_set_all W filter_new cs.

(** search.rs:37-41. *)
Inductive nkind := VerticalOrHorizontal | BottomLeftToTopRight | TopLeftToBottomRight.

(** [[bool; 3]] indexed by [kind as usize], search.rs:117, 306, 312. *)
Record kset := KS { k_vh : bool; k_bltr : bool; k_tlbr : bool }.
(** [excludes[kind as usize]], search.rs:117. *)
Definition kget (s : kset) (k : nkind) : bool :=
  match k with
  | VerticalOrHorizontal => k_vh s
  | BottomLeftToTopRight => k_bltr s
  | TopLeftToBottomRight => k_tlbr s
  end.
(** [kinds[next][kind as usize] = true], search.rs:312. *)
Definition kadd (s : kset) (k : nkind) : kset :=
  match k with
  | VerticalOrHorizontal => KS true (k_bltr s) (k_tlbr s)
  | BottomLeftToTopRight => KS (k_vh s) true (k_tlbr s)
  | TopLeftToBottomRight => KS (k_vh s) (k_bltr s) true
  end.

(** search.rs:244-255.  [2 * W as i8] is an i8 multiplication with overflow check;
    the parity of the result is not checked by the code. *)
Definition new_relative (W : Z) (c : coord) (dx dy : Z) : res (option coord) :=
  match checked_add_i8 (as_i8 (cx c)) dx with
  | None => Ret None
  | Some x =>
    match checked_add_i8 (as_i8 (cy c)) dy with
    | None => Ret None
    | Some y =>
      if (x <? 0) || (y <? 0) then Ret None else
      let* w2 := chk_i8 (2 * as_i8 W) in
      if (w2 <=? x) || (w2 <=? y) then Ret None else Ret (Some (Co x y))
    end
  end.

(** search.rs:112: [Vec<_, { 6 * WIDTH }>]. *)
Definition EXT_CAP : Z := 6 * WIDTH.

(** The iterator [(1i8..)] of search.rs:130: producing item [i] computes [i + 1] first,
    which overflows (panics) at 127; hence 128 steps of fuel always suffice. *)
Definition range_next (i : Z) : res Z := chk_i8 (i + 1).

(** see [range_next] (search.rs:130). *)
Definition SEQ_FUEL : nat := 128.

(** [add_seq!(|i| add_with_check(f i, g i, kind))] of search.rs:116-144.
    [ax, ay] are the coefficients ([-2], [-1], [0], [1], [2]) of [i]. *)
Fixpoint ext_seq (fuel : nat) (W : Z) (open : coord -> res bool) (ex : kset) (c : coord)
    (ax ay : Z) (k : nkind) (i : Z) (acc : list (coord * nkind)) : res (list (coord * nkind)) :=
  match fuel with
  | O => Fuel
  | S n =>
    let* i' := range_next i in
    let* dx := chk_i8 (ax * i) in
    let* dy := chk_i8 (ay * i) in
    if kget ex k then Ret acc else
    let* o := new_relative W c dx dy in
    match o with
    | None => Ret acc
    | Some d =>
      let* b := open d in
      if b then
        let* acc' := vpush EXT_CAP acc (d, k) in
        ext_seq n W open ex c ax ay k i' acc'
      else Ret acc
    end
  end.

(** search.rs:108-145. *)
Definition extended_neighbors (W : Z) (open : coord -> res bool) (ex : kset) (c : coord)
  : res (list (coord * nkind)) :=
  let seq ax ay k acc := ext_seq SEQ_FUEL W open ex c ax ay k 1 acc in
  let* a1 := seq 1 1 BottomLeftToTopRight [] in
  let* a2 := seq (-1) (-1) BottomLeftToTopRight a1 in
  let* a3 := seq (-1) 1 TopLeftToBottomRight a2 in
  let* a4 := seq 1 (-1) TopLeftToBottomRight a3 in
  if is_top c then
    let* a5 := seq 0 2 VerticalOrHorizontal a4 in
    seq 0 (-2) VerticalOrHorizontal a5
  else
    let* a5 := seq 2 0 VerticalOrHorizontal a4 in
    seq (-2) 0 VerticalOrHorizontal a5.

(** search.rs:151: [Vec<_, { 2 * WIDTH }>]. *)
Definition INTER_CAP : Z := 2 * WIDTH.

(** [add_seq!(|i| add_with_check(f i, g i))] of search.rs:155-168. *)
Fixpoint inter_seq (fuel : nat) (W : Z) (c other : coord) (ax ay i : Z) (acc : list coord)
  : res (list coord) :=
  match fuel with
  | O => Fuel
  | S n =>
    let* i' := range_next i in
    let* dx := chk_i8 (ax * i) in
    let* dy := chk_i8 (ay * i) in
    let* o := new_relative W c dx dy in
    match o with
    | None => Ret acc
    | Some d =>
      if coord_eqb d other then Ret acc else
      let* acc' := vpush INTER_CAP acc d in
      inter_seq n W c other ax ay i' acc'
    end
  end.

(** search.rs:151-192. *)
Definition intermediate_coords (W : Z) (c other : coord) : res (list coord) :=
  let* acc := vpush INTER_CAP [] c in
  let* dx := chk_i8 (as_i8 (cx other) - as_i8 (cx c)) in
  let* dy := chk_i8 (as_i8 (cy other) - as_i8 (cy c)) in
  let go ax ay := inter_seq SEQ_FUEL W c other ax ay 1 acc in
  if (dx =? dy) && (0 <? dx) then go 1 1
  else if (dx =? dy) && (dx <? 0) then go (-1) (-1)
  else
  let* ndy := chk_i8 (- dy) in
  if (dx =? ndy) && (dx <? 0) then go (-1) 1
  else if (dx =? ndy) && (0 <? dx) then go 1 (-1)
  else if (dy =? 0) && (0 <? dx) && (Z.land dx 1 =? 0) && negb (is_top c) then go 1 0
  else if (dy =? 0) && (dx <? 0) && (Z.land dx 1 =? 0) && negb (is_top c) then go (-1) 0
  else if (dx =? 0) && (0 <? dy) && (Z.land dy 1 =? 0) && is_top c then go 0 1
  else if (dx =? 0) && (dy <? 0) && (Z.land dy 1 =? 0) && is_top c then go 0 (-1)
  else Panic.

(** search.rs:265-268. *)
Inductive wall_state := Unchecked | Checked (exists_ : bool).

(** [matches!(s, WallState::Checked { exists: true })], also the [==] of search.rs:427. *)
Definition is_checked_true (s : wall_state) : bool :=
  match s with Checked true => true | _ => false end.
(** [Checked { exists: false }], search.rs:459, 473. *)
Definition is_checked_false (s : wall_state) : bool :=
  match s with Checked false => true | _ => false end.
(** [== WallState::Unchecked], search.rs:355, 460. *)
Definition is_unchecked (s : wall_state) : bool :=
  match s with Unchecked => true | _ => false end.

(** the closure [add_with_check] of search.rs:215-221. *)
Definition nb_add (W : Z) (ws : coord -> res wall_state) (c : coord) (acc : list coord)
    (d : Z * Z) : res (list coord) :=
  let* o := new_relative W c (fst d) (snd d) in
  match o with
  | None => Ret acc
  | Some n =>
    let* s := ws n in
    if negb (is_checked_true s) then vpush 6 acc n else Ret acc
  end.

(** the calls of [add_with_check], search.rs:222-232. *)
Fixpoint nb_adds (W : Z) (ws : coord -> res wall_state) (c : coord) (acc : list coord)
    (ds : list (Z * Z)) : res (list coord) :=
  match ds with
  | [] => Ret acc
  | d :: ds' => let* acc' := nb_add W ws c acc d in nb_adds W ws c acc' ds'
  end.

(** search.rs:213-234. *)
Definition neighbors (W : Z) (ws : coord -> res wall_state) (c : coord) : res (list coord) :=
  nb_adds W ws c []
    ([(1, -1); (-1, -1); (-1, 1); (1, 1)] ++
     (if is_top c then [(0, -2); (0, 2)] else [(-2, 0); (2, 0)])).

(** tuple pattern [(a, b)] against [(dx, dy)], search.rs:239-241, 539-567. *)
Definition pat (a b dx dy : Z) : bool := (dx =? a) && (dy =? b).

(** search.rs:236-242. *)
Definition is_neighbor (c other : coord) : res bool :=
  let* dx := chk_i8 (as_i8 (cx other) - as_i8 (cx c)) in
  let* dy := chk_i8 (as_i8 (cy other) - as_i8 (cy c)) in
  Ret ((is_top c && (pat 0 (-2) dx dy || pat 0 2 dx dy))
       || (negb (is_top c) && (pat (-2) 0 dx dy || pat 2 0 dx dy))
       || (pat 1 (-1) dx dy || pat (-1) (-1) dx dy || pat (-1) 1 dx dy || pat 1 1 dx dy)).

(** ** Searcher, search.rs:258-445 *)

(** search.rs:258-261. *)
Record searcher := Searcher { s_start : coord; s_goals : filter }.

(** search.rs:293-298. *)
Definition searcher_new (W : Z) (start : coord) (goals : list coord) : res searcher :=
  let* f := filter_with_coord W goals in Ret (Searcher start f).

(** local variables of [bfs_tree], search.rs:304-306. *)
Record bfs_st := Bfs { b_que : list coord; b_prev : arr (option coord); b_kinds : arr kset }.

(** control flow of a loop body with early [return], search.rs:318, 400, 412. *)
Inductive flow (S R : Type) := Cont (s : S) | Done (r : R).
Arguments Cont {S R} s.
Arguments Done {S R} r.

(** the value returned at search.rs:318. *)
Definition bfs_res := (arr (option coord) * coord)%type.

(** the [for] body of search.rs:311-321. *)
Fixpoint bfs_for (W : Z) (goals : filter) (node : coord) (ns : list (coord * nkind)) (s : bfs_st)
  : res (flow bfs_st bfs_res) :=
  match ns with
  | [] => Ret (Cont s)
  | (next, kind) :: ns' =>
    let* ks := aget (b_kinds s) (as_index W next) in
    let* kinds := aset (b_kinds s) (as_index W next) (kadd ks kind) in
    let* p := aget (b_prev s) (as_index W next) in
    match p with
    | Some _ => bfs_for W goals node ns' (Bfs (b_que s) (b_prev s) kinds)
    | None =>
      let* prev := aset (b_prev s) (as_index W next) (Some node) in
      let* g := filter_contains W goals next in
      if g then Ret (Done (prev, next)) else
      let* que := vpush QUE_MAX (b_que s) next in
      bfs_for W goals node ns' (Bfs que prev kinds)
    end
  end.

(** the [while] loop of search.rs:310-322. *)
Fixpoint bfs_while (fuel : nat) (W : Z) (goals : filter) (is_wall : coord -> res bool) (s : bfs_st)
  : res (option bfs_res) :=
  match fuel with
  | O => Fuel
  | S n =>
    match b_que s with
    | [] => Ret None
    | node :: que =>
      let* ex := aget (b_kinds s) (as_index W node) in
      let* ns := extended_neighbors W (fun c => let* b := is_wall c in Ret (negb b)) ex node in
      let* r := bfs_for W goals node ns (Bfs que (b_prev s) (b_kinds s)) in
      match r with
      | Done r => Ret (Some r)
      | Cont s' => bfs_while n W goals is_wall s'
      end
    end
  end.

(** Fuel for the loops of search.rs:310, 332, 352, 406, which handle each of the at most [QUE_MAX] coordinates once. *)
Definition BFS_FUEL : nat := Z.to_nat (QUE_MAX + 1).

(** search.rs:300-324. *)
Definition bfs_tree (W : Z) (se : searcher) (is_wall : coord -> res bool) : res (option bfs_res) :=
  let* que := vpush QUE_MAX [] (s_start se) in
  let* prev := aset (anew QUE_MAX None) (as_index W (s_start se)) (Some (s_start se)) in
  bfs_while BFS_FUEL W (s_goals se) is_wall
    (Bfs que prev (anew QUE_MAX (KS false false false))).

(** the [while let] loop of search.rs:332-338. *)
Fixpoint sp_while (fuel : nat) (W : Z) (start : coord) (prev : arr (option coord)) (cur : coord)
    (path : list coord) : res (list coord) :=
  match fuel with
  | O => Fuel
  | S n =>
    let* o := aget prev (as_index W cur) in
    match o with
    | None => Ret path
    | Some next =>
      let* path' := vpush QUE_MAX path cur in
      if coord_eqb cur start then Ret path' else sp_while n W start prev next path'
    end
  end.

(** search.rs:326-341. *)
Definition shortest_path (W : Z) (se : searcher) (is_wall : coord -> res bool)
  : res (option (list coord)) :=
  let* r := bfs_tree W se is_wall in
  match r with
  | None => Ret None
  | Some (prev, goal) =>
    let* path := sp_while BFS_FUEL W (s_start se) prev goal [] in
    Ret (Some (rev path))
  end.

(** search.rs:353-359: filter by [wall_state(node) == Unchecked], then record. *)
Fixpoint uw_mark (W : Z) (ws : coord -> res wall_state) (cs : list coord) (fl : filter * bool)
  : res (filter * bool) :=
  match cs with
  | [] => Ret fl
  | c :: cs' =>
    let* s := ws c in
    if is_unchecked s then
      let* f := filter_set W (fst fl) c in uw_mark W ws cs' (f, true)
    else uw_mark W ws cs' fl
  end.

(** the [while let] loop of search.rs:352-364. *)
Fixpoint uw_while (fuel : nat) (W : Z) (start : coord) (ws : coord -> res wall_state)
    (prev : arr (option coord)) (cur : coord) (fl : filter * bool) : res (filter * bool) :=
  match fuel with
  | O => Fuel
  | S n =>
    let* o := aget prev (as_index W cur) in
    match o with
    | None => Ret fl
    | Some next =>
      let* cs := intermediate_coords W cur next in
      let* fl' := uw_mark W ws cs fl in
      if coord_eqb next start then Ret fl' else uw_while n W start ws prev next fl'
    end
  end.

(** search.rs:343-370. *)
Definition unchecked_walls (W : Z) (se : searcher) (ws : coord -> res wall_state)
    (prev : arr (option coord)) (goal : coord) : res (option filter) :=
  let* fl := uw_while BFS_FUEL W (s_start se) ws prev goal (filter_new, false) in
  Ret (if snd fl then Some (fst fl) else None).

(** search.rs:387-394: push every element of [ns] satisfying [want near] and not self. *)
Fixpoint cand_push (nearest current : coord) (want : bool) (ns acc : list coord)
  : res (list coord) :=
  match ns with
  | [] => Ret acc
  | n :: ns' =>
    let* near := is_neighbor nearest n in
    if Bool.eqb near want && negb (coord_eqb nearest n || coord_eqb current n)
    then let* acc' := vpush 6 acc n in cand_push nearest current want ns' acc'
    else cand_push nearest current want ns' acc
  end.

(** the closure [candidates] of search.rs:382-396. *)
Definition cand_list (current : coord) (ns : list coord) (nearest : coord) : res (list coord) :=
  let* a0 := vpush 6 [] nearest in
  let* a1 := cand_push nearest current true ns a0 in
  cand_push nearest current false ns a1.

(** local variables of [candidates], search.rs:377-378. *)
Record cand_st := Cst { c_que : list (coord * Z); c_vis : arr bool }.

(** search.rs:398-404; [Done n] is the early return [Some(candidates(n))]. *)
Fixpoint cand_init (W : Z) (unchecked_wall : coord -> res bool) (i : Z) (ns : list coord)
    (s : cand_st) : res (flow cand_st coord) :=
  match ns with
  | [] => Ret (Cont s)
  | next :: ns' =>
    let* u := unchecked_wall next in
    if u then Ret (Done next) else
    let* que := vpush QUE_MAX (c_que s) (next, i) in
    let* vis := aset (c_vis s) (as_index W next) true in
    cand_init W unchecked_wall (i + 1) ns' (Cst que vis)
  end.

(** search.rs:407-416; [Done i] is the early return [Some(candidates(neighbors[i]))]. *)
Fixpoint cand_for (W : Z) (unchecked_wall : coord -> res bool) (i : Z) (ns : list coord)
    (s : cand_st) : res (flow cand_st Z) :=
  match ns with
  | [] => Ret (Cont s)
  | next :: ns' =>
    let* v := aget (c_vis s) (as_index W next) in
    if v then cand_for W unchecked_wall i ns' s else
    let* u := unchecked_wall next in
    if u then Ret (Done i) else
    let* vis := aset (c_vis s) (as_index W next) true in
    let* que := vpush QUE_MAX (c_que s) (next, i) in
    cand_for W unchecked_wall i ns' (Cst que vis)
  end.

(** search.rs:406-417. *)
Fixpoint cand_while (fuel : nat) (W : Z) (ws : coord -> res wall_state)
    (unchecked_wall : coord -> res bool) (s : cand_st) : res (option Z) :=
  match fuel with
  | O => Fuel
  | S n =>
    match c_que s with
    | [] => Ret None
    | (node, i) :: que =>
      let* ns := neighbors W ws node in
      let* r := cand_for W unchecked_wall i ns (Cst que (c_vis s)) in
      match r with
      | Done j => Ret (Some j)
      | Cont s' => cand_while n W ws unchecked_wall s'
      end
    end
  end.

(** slice indexing [neighbors[i]] on a [Vec], search.rs:412. *)
Definition vget {A} (l : list A) (i : Z) : res A :=
  if (0 <=? i) then match nth_error l (Z.to_nat i) with Some x => Ret x | None => Panic end
  else Panic.

(** search.rs:372-419. *)
Definition candidates (W : Z) (current : coord) (ws : coord -> res wall_state)
    (unchecked_wall : coord -> res bool) : res (option (list coord)) :=
  let* vis := aset (anew QUE_MAX false) (as_index W current) true in
  let* ns := neighbors W ws current in
  let* r := cand_init W unchecked_wall 0 ns (Cst [] vis) in
  match r with
  | Done nearest => let* l := cand_list current ns nearest in Ret (Some l)
  | Cont s =>
    let* o := cand_while BFS_FUEL W ws unchecked_wall s in
    match o with
    | None => Ret None
    | Some i => let* n := vget ns i in let* l := cand_list current ns n in Ret (Some l)
    end
  end.

(** [Result<Option<Commander<W>>, SearchError>], search.rs:272-274, 425, 448-450. *)
Inductive search_out := SErr | SNone | SSome (cands : list coord).

(** search.rs:421-444. *)
Definition search (W : Z) (se : searcher) (current : coord) (ws : coord -> res wall_state)
  : res search_out :=
  let* t := bfs_tree W se (fun c => let* s := ws c in Ret (is_checked_true s)) in
  match t with
  | None => Ret SErr
  | Some (prev, goal) =>
    let* wf := unchecked_walls W se ws prev goal in
    match wf with
    | None => Ret SNone
    | Some f =>
      let* cs := candidates W current ws (fun c => filter_contains W f c) in
      match cs with None => Ret SErr | Some l => Ret (SSome l) end
    end
  end.

(** ** Commander, search.rs:447-476 *)

(** [Result<Option<Coordinate<W>>, SearchError>], search.rs:456. *)
Inductive next_out := NErr | NNone | NSome (c : coord).

(** search.rs:453-465. *)
Fixpoint next_coordinate (cands : list coord) (ws : coord -> res wall_state) : res next_out :=
  match cands with
  | [] => Ret NErr
  | c :: cs =>
    let* s := ws c in
    match s with
    | Checked false => Ret (NSome c)
    | Unchecked => Ret NNone
    | Checked true => next_coordinate cs ws
    end
  end.

(** search.rs:467-475. *)
Fixpoint force_next_coordinate (cands : list coord) (ws : coord -> res wall_state)
  : res (option coord) :=
  match cands with
  | [] => Ret None
  | c :: cs =>
    let* s := ws c in
    if is_checked_false s then Ret (Some c) else force_next_coordinate cs ws
  end.

(** ** SearchState, search.rs:478-576 *)

(** search.rs:479-484. *)
Inductive posture := North | East | South | West.
(** search.rs:487-492. *)
Inductive traj_kind := Front | Right | Left | Back.
(** search.rs:495-498. *)
Record search_state := SS { ss_coord : coord; ss_posture : posture }.

(** search.rs:501-508. *)
Definition ss_new (c : coord) (p : posture) : option search_state :=
  match is_top c, p with
  | true, (North | South) | false, (East | West) => Some (SS c p)
  | _, _ => None
  end.

(** search.rs:528-575: new state and returned kind ([None] leaves the state unchanged). *)
Definition ss_update (s : search_state) (next : coord) : res (search_state * option traj_kind) :=
  let cur := ss_coord s in
  let* dx := chk_i8 (as_i8 (cx next) - as_i8 (cx cur)) in
  let* dy := chk_i8 (as_i8 (cy next) - as_i8 (cy cur)) in
  let p a b := pat a b dx dy in
  let* o :=
    match is_top cur, ss_posture s with
    | true, North => Ret (
        if p 0 2 then Some (North, Front) else if p 1 1 then Some (East, Right)
        else if p (-1) 1 then Some (West, Left)
        else if p 0 (-2) || p 1 (-1) || p (-1) (-1) then Some (South, Back) else None)
    | true, South => Ret (
        if p 0 (-2) then Some (South, Front) else if p 1 (-1) then Some (East, Left)
        else if p (-1) (-1) then Some (West, Right)
        else if p 0 2 || p 1 1 || p (-1) 1 then Some (North, Back) else None)
    | false, East => Ret (
        if p 2 0 then Some (East, Front) else if p 1 (-1) then Some (South, Right)
        else if p 1 1 then Some (North, Left)
        else if p (-2) 0 || p (-1) (-1) || p (-1) 1 then Some (West, Back) else None)
    | false, West => Ret (
        if p (-2) 0 then Some (West, Front) else if p (-1) (-1) then Some (South, Left)
        else if p (-1) 1 then Some (North, Right)
        else if p 2 0 || p 1 (-1) || p 1 1 then Some (East, Back) else None)
    | _, _ => Panic
    end in
  match o with
  | None => Ret (s, None)
  | Some (abs, rel) =>
    Ret (SS (match rel with Back => cur | _ => next end) abs, Some rel)
  end.
