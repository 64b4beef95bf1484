(** Model of GenericSearchAlgorithm::findPath (I/generic/SearchAlgorithm.hpp) as
    instantiated by AStar2d, AStar2dTaxi, AStar2dInf (I/generic/Algorithms.hpp:53-66):
    GridMapManager, DirectNeighborhood<4 or 8, D>, NoExpansion. *)
From Coq Require Import QArith.
From Verif Require Import Base GridMap GenericSearch.
Open Scope Z_scope.

Notation cell := (Z * Z)%type.
Definition ceqb (a b : cell) : bool := (fst a =? fst b) && (snd a =? snd b).

(** DirectNeighborhood.hpp:95-113: <4,D>::dx, dy. *)
Definition dx4 (D x : Z) (i : nat) : Z := match i with 0%nat => x - D | 1%nat => x | 2%nat => x + D | _ => x end.
Definition dy4 (D y : Z) (i : nat) : Z := match i with 0%nat => y | 1%nat => y - D | 2%nat => y | _ => y + D end.

(** DirectNeighborhood.hpp:133-158: <8,D>::dx, dy. *)
Definition dx8 (D x : Z) (i : nat) : Z :=
  match i with
  | 0%nat => x - D | 1%nat => x | 2%nat => x + D | 3%nat => x - D
  | 4%nat => x + D | 5%nat => x - D | 6%nat => x | _ => x + D
  end.
Definition dy8 (D y : Z) (i : nat) : Z :=
  match i with
  | 0%nat => y - D | 1%nat => y - D | 2%nat => y - D | 3%nat => y
  | 4%nat => y | 5%nat => y + D | 6%nat => y + D | _ => y + D
  end.
(** DirectNeighborhood.hpp:159-171, delta(i): [true] = COST_DIAG, [false] = COST_HORI. *)
Definition diag8 (i : nat) : bool :=
  match i with
  | 0%nat => true | 1%nat => false | 2%nat => true | 3%nat => false
  | 4%nat => false | 5%nat => true | 6%nat => false | _ => true
  end.

Definition nsize (eight : bool) : nat := if eight then 8%nat else 4%nat.
Definition ncell (eight : bool) (D : Z) (u : cell) (i : nat) : cell :=
  if eight then (dx8 D (fst u) i, dy8 D (snd u) i) else (dx4 D (fst u) i, dy4 D (snd u) i).
(** <4,D>::delta is DISTANCE for every i (DirectNeighborhood.hpp:114-116). *)
Definition ndiag (eight : bool) (i : nat) : bool := if eight then diag8 i else false.

(** DirectNeighborhood.hpp:45-61, iterateFreeNeighbors: the neighbours for which
    processNeighbor is called, in order.  A read outside the map data (excluded
    for [gm_wf] maps because [contains] is asked first) counts as not free. *)
Definition is_free_cell (m : gridmap) (c : cell) : bool :=
  match isFree m (fst c) (snd c) with Some true => true | _ => false end.
Definition offered (eight : bool) (D : Z) (m : gridmap) (u : cell) : list (cell * bool) :=
  flat_map (fun i => let c := ncell eight D u i in
                     if (if isInMap m (fst c) (snd c) then is_free_cell m c else false) then [(c, ndiag eight i)] else [])
           (seq 0 (nsize eight)).

(** DirectNeighborhood.hpp:40-43, isGoal. *)
Definition isGoal (D : Z) (goal ref : cell) : bool :=
  (Z.abs (fst goal - fst ref) <=? D) && (Z.abs (snd goal - snd ref) <=? D).

(** MapManager.hpp:203-205: [unsigned y = reference.y]: conversion of a double.
    It truncates; a result outside [unsigned] is undefined behaviour.  (A finite
    double is a rational number.) *)
Definition to_unsigned (q : Q) : option Z :=
  let z := Z.quot (Qnum q) (Zpos (Qden q)) in
  if (0 <=? z) && (z <? 4294967296) then Some z else None.

Inductive lookup_res := LCell (c : cell) | LOutside | LUndef.
(** MapManager.hpp:202-210, GridMapManager::lookup(reference). *)
Definition lookup_pose (m : gridmap) (p : Q * Q) : lookup_res :=
  match to_unsigned (snd p), to_unsigned (fst p) with
  | Some y, Some x => if (x >=? gm_w m) || (y >=? gm_h m) then LOutside else LCell (x, y)
  | _, _ => LUndef
  end.

Definition is_occ_cell (m : gridmap) (c : cell) : bool :=
  match isOccupied m (fst c) (snd c) with Some true => true | _ => false end.

Definition zrange (n : Z) : list Z := map Z.of_nat (seq 0 (Z.to_nat n)).
Definition all_cells (m : gridmap) : list cell := list_prod (zrange (gm_w m)) (zrange (gm_h m)).

Section Direct.
  Variable C : Type.
  Variable zero inf : C.
  Variable add : C -> C -> C.
  Variable lt : C -> C -> bool.
  Variable tot : C -> C -> C.
  Variable cost : bool -> C.               (* delta * res: straight, diagonal *)
  Variable heur : cell -> cell -> C.       (* Heuristic::compute(current, goal, res) *)
  Variable hyp : cell -> cell -> C.        (* hypot(goal, current) *)
  Variable push : (cell -> C) -> cell -> list cell -> list cell.
  Variable pop : (cell -> C) -> list cell -> option (cell * list cell).
  Variable best : list (cell * C) -> option cell.
  Variable eight : bool.
  Variable D : Z.

  Definition nbrs (m : gridmap) (u : cell) : list (cell * C) :=
    map (fun cd => (fst cd, cost (snd cd))) (offered eight D m u).

  (** A search object: its map (GridMapManager keeps a pointer), the nodes, and
      first_candidate_weight, which is never initialised. *)
  Record sobj := SObj { ob_map : gridmap; ob_info : cell -> info cell C; ob_first : C }.

  (** SearchAlgorithm.hpp:127-130 with MapManager.hpp:49-58,178-194: setMap
      reinitialises every node. *)
  Definition setMap (o : sobj) (m : gridmap) : sobj := SObj m (fun _ => fresh_info cell C zero inf) (ob_first o).
  Definition new_sobj (m : gridmap) (first : C) : sobj := SObj m (fun _ => fresh_info cell C zero inf) first.

  (** Options of one call: oversearch_distance != 0 with its comparison, and the clock. *)
  Record opts := Opts { op_cand : bool; op_over : C -> C -> bool; op_timeout : nat -> bool }.

  Inductive fres := FPath (p : list cell) | FOutside | FUndef | FFuel.
  Definition to_fres (r : gres cell) : fres :=
    match r with GUndef _ => FUndef | GFuel _ => FFuel | GPath _ p => FPath p end.

  Definition goal_test (goal : option cell) (v : cell) : bool :=
    match goal with Some g => isGoal D g v | None => false end.
  Definition goal_val (f : cell -> cell -> C) (goal : option cell) (v : cell) : C :=
    match goal with Some g => f v g | None => zero end.
  Definition somes {A} (o : option A) : bool := match o with Some _ => true | None => false end.

  (** SearchAlgorithm.hpp:317-329 (findPathPose): init, initStartPose (462-492),
      initGoalPose (528-570), findPathImp.  The lookups are made by getPoses
      (Heuristics.hpp:51-63), outside of the try blocks: OutsideMapException
      escapes.  [occupied] is never set, so the "not free" exceptions are never
      thrown; an occupied start or goal is just not inserted. *)
  Definition findPath (fuel : nat) (op : opts) (o : sobj) (from to : Q * Q) : fres * sobj :=
    let m := ob_map o in
    match lookup_pose m from with
    | LUndef => (FUndef, o)
    | LOutside => (FOutside, o)
    | LCell s =>
        let start := if is_occ_cell m s then [] else [s] in
        match lookup_pose m to with
        | LUndef => (FUndef, o)
        | LOutside => (FOutside, SObj m (s_info cell C (init_search cell C ceqb zero tot push start (ob_info o) (ob_first o))) (ob_first o))
        | LCell g =>
            let goal := if is_occ_cell m g then None else Some g in
            let r := run cell C ceqb (all_cells m) zero add lt tot (nbrs m) (goal_val heur goal) push pop
                       start (goal_test goal) (somes goal) (op_cand op) (op_over op) (goal_val hyp goal) best (op_timeout op)
                       fuel (ob_info o) (ob_first o) in
            (to_fres (fst r), SObj m (s_info cell C (snd r)) (s_first cell C (snd r)))
        end
    end.

  (** SearchAlgorithm.hpp:213-217: a reversed neighbourhood swaps the poses and
      reverses the path.  (None of the instantiable neighbourhoods is reversed;
      the wrapper is modelled on top of the same search.) *)
  Definition rev_fres (r : fres) : fres := match r with FPath p => FPath (rev p) | r => r end.
  Definition findPath_dir (reversed : bool) (fuel : nat) (op : opts) (o : sobj) (from to : Q * Q) : fres * sobj :=
    if reversed then let r := findPath fuel op o to from in (rev_fres (fst r), snd r)
    else findPath fuel op o from to.
End Direct.
