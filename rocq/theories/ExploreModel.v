(** The exploration loop of mousecore2/tests/search.rs 254-334, reduced to its discrete part.
    Driving is abstract: between a search and the next decision the mouse is inside the cell
    ahead, so the true states of the walls of that cell are known by then.  Sensors may see
    other walls as well ([extra], an arbitrary list in every round). *)
From Coq Require Import ZArith List Bool.
From Verif Require Import Base SearchModel WallsModel WallsSpec.
Import ListNotations.
Open Scope Z_scope.

(** The cell ahead of a mouse standing across a wall (the cell Pose::from_search_state heads into,
    wall.rs 32-56). *)
Definition front_cell (s : search_state) : Z * Z :=
  let c := ss_coord s in
  match ss_posture s with
  | North => (cx c / 2, cy c / 2 + 1)
  | South | West => (cx c / 2, cy c / 2)
  | East => (cx c / 2 + 1, cy c / 2)
  end.

(** Coordinate::new succeeds, search.rs 51-56. *)
Definition is_coord (W : Z) (c : coord) : bool :=
  (0 <=? cx c) && (cx c <? 2 * W) && (0 <=? cy c) && (cy c <? 2 * W) && Z.odd (cx c + cy c).

(** The walls of a cell that have a coordinate (numbering of search.rs 45-56 and wall.rs 435-453). *)
Definition cell_walls (W : Z) (cell : Z * Z) : list coord :=
  let (i, j) := cell in
  List.filter (is_coord W) [Co (2 * i + 1) (2 * j); Co (2 * i) (2 * j + 1);
                            Co (2 * i - 1) (2 * j); Co (2 * i) (2 * j - 1)].

(** tests/search.rs 315-331: the walls seen are written to the map with their true state. *)
Definition reveal (W : Z) (truth : coord -> bool) (w : walls) (l : list coord) : res walls :=
  walls_updates W w (map (fun c => (c, Checked (truth c))) l).

(** How the loop of tests/search.rs ends: [break] at line 307, the errors of lines 303 and 308, or the wait of
    line 302 for a wall that never becomes known. *)
Inductive outcome := Found | Failed | Stuck.

(** tests/search.rs 282-312: search, see, decide, move.  The [unwrap] of line 288 panics on
    [None]. *)
Definition round (W : Z) (se : searcher) (truth : coord -> bool) (extra : list coord)
  (w : walls) (s : search_state) : res (walls * search_state + outcome) :=
  let* r := search W se (ss_coord s) (walls_state W w) in
  match r with
  | SErr => Ret (inr Failed)
  | SNone => Ret (inr Found)
  | SSome cands =>
      let* w' := reveal W truth w (cell_walls W (front_cell s) ++ extra) in
      let* n := next_coordinate cands (walls_state W w') in
      match n with
      | NErr => Ret (inr Failed)
      | NNone => Ret (inr Stuck)
      | NSome c =>
          let* (s', k) := ss_update s c in
          match k with None => Panic | Some _ => Ret (inl (w', s')) end
      end
  end.

(** tests/search.rs 254-334: at most [n] rounds; [Fuel] if the loop has not ended by then.  On
    return: the outcome, the map and the state of the mouse. *)
Fixpoint explore (n : nat) (W : Z) (se : searcher) (truth : coord -> bool)
  (extra : nat -> list coord) (w : walls) (s : search_state)
  : res (outcome * walls * search_state) :=
  match n with
  | O => Fuel
  | S n' =>
      let* r := round W se truth (extra O) w s in
      match r with
      | inr o => Ret (o, w, s)
      | inl (w', s') => explore n' W se truth (fun i => extra (S i)) w' s'
      end
  end.
