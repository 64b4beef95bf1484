(** Model of the two sweeps of the distance transformation, used twice in the code:
    - I/generic/Heuristics.hpp:292-410, HeuristicHolonomicObstacles;
    - I/generic/DistanceTransformation.hpp, DistanceTransformationSearch
      (instantiated in I/evaluation/evaluator.h:96 with GridMapManager and
      DirectNeighborhood<8,1>).

    The arithmetic on doubles is a parameter ([C]); it is instantiated by IEEE
    binary64 (DistTransFloat.v) and by exact numbers a + b*sqrt 2 (DistTransExact.v).
    Simplifications: the array of doubles / the node fields are a function of
    (column, row); marks and intermission callbacks are left out. *)
From Coq Require Import QArith.
From Verif Require Import Base GridMap DirectSearch MapManagers.
Open Scope Z_scope.

Section Sweep.
  Variable C : Type.
  Variable zero maxv inf : C.            (* 0, numeric_limits<double>::max(), infinity *)
  Variable add : C -> C -> C.
  Variable lt : C -> C -> bool.
  Variable is_inf : C -> bool.           (* d == infinity *)
  Variable horiz diag : C.               (* 1 and sqrt(2) *)

  Definition table := cell -> C.
  Definition tset (t : table) (c : cell) (v : C) : table := fun c' => if ceqb c' c then v else t c'.

  (** std::min(a, b): [b < a ? b : a]. *)
  Definition cmin (a b : C) : C := if lt b a then b else a.

  (** Heuristics.hpp:371-374, DistanceTransformation.hpp:103-106. *)
  Definition fwd_min (t : table) (col row : Z) : C :=
    let d1 := add (t (col - 1, row)) horiz in
    let d2 := add (t (col - 1, row - 1)) diag in
    let d3 := add (t (col, row - 1)) horiz in
    let d4 := add (t (col + 1, row - 1)) diag in
    cmin d1 (cmin d2 (cmin d3 d4)).
  (** Heuristics.hpp:392-395, DistanceTransformation.hpp:134-137. *)
  Definition bwd_min (t : table) (col row : Z) : C :=
    let d1 := add (t (col + 1, row)) horiz in
    let d2 := add (t (col - 1, row + 1)) diag in
    let d3 := add (t (col, row + 1)) horiz in
    let d4 := add (t (col + 1, row + 1)) diag in
    cmin d1 (cmin d2 (cmin d3 d4)).

  (** Heuristics.hpp:367-381, DistanceTransformation.hpp:97-119: the body of the
      loops; the boolean is [change]. *)
  Definition relax (dmin : table -> Z -> Z -> C) (st : table * bool) (c : cell) : table * bool :=
    let '(t, change) := st in
    if is_inf (t c) then (t, change)
    else let m := dmin t (fst c) (snd c) in
         if lt m (t c) then (tset t c m, true) else (t, change).

  (** The order of the cells: rows 1..h-2, in each row columns 1..w-2
      (Heuristics.hpp:365-366; DistanceTransformation.hpp:95-96); the second
      sweep visits them backwards (386-387; 128-129). *)
  Definition interior (w h : Z) : list cell :=
    flat_map (fun r => map (fun c => (c, r)) (map (Z.add 1) (zrange (w - 2)))) (map (Z.add 1) (zrange (h - 2))).

  (** One turn of the while loop (Heuristics.hpp:361-405, DistanceTransformation.hpp:91-153). *)
  Definition turn (w h : Z) (t : table) : table * bool :=
    fold_left (relax bwd_min) (rev (interior w h))
      (fold_left (relax fwd_min) (interior w h) (t, false)).

  (** [while(change)]; [None]: [fuel] turns are not enough. *)
  Fixpoint sweeps (fuel : nat) (w h : Z) (t : table) : option table :=
    match fuel with
    | O => None
    | S f => let '(t', change) := turn w h t in if change then sweeps f w h t' else Some t'
    end.

  (** ** HeuristicHolonomicObstacles *)

  (** Heuristics.hpp:326-408, setMap, for a map of [mw] x [mh] cells with the
      padding of the map manager; [occ col row] is [map->isOccupied(col, row, 0)].
      The goal is addressed through [cost__], which adds the padding. *)
  Definition hol_init (pad : Z) (occ : Z -> Z -> bool) (goal : cell) : table :=
    tset (fun c => if occ (fst c) (snd c) then inf else maxv) (fst goal + pad, snd goal + pad) zero.
  Definition hol_setMap (fuel : nat) (pad mw mh : Z) (occ : Z -> Z -> bool) (goal : cell) : option table :=
    sweeps fuel (mw + 2 * pad) (mh + 2 * pad) (hol_init pad occ goal).

  (** Heuristics.hpp:304-316, compute; [costs] is NULL before the first setMap.
      [D]: the type of resolutions and heuristic values (double). *)
  Variable is_max : C -> bool.
  Definition hol_compute {D} (zeroD : D) (mul : C -> D -> D) (pad : Z) (costs : option table) (cur : cell) (res : D) : D :=
    match costs with
    | Some t => let h := t (fst cur + pad, snd cur + pad) in if is_max h then zeroD else mul h res
    | None => zeroD
    end.

  (** The occupancy test of GridMapManager (MapManager.hpp:125-127) ... *)
  Definition grid_occ (m : gridmap) (x y : Z) : bool :=
    match isOccupied m x y with Some true => true | _ => false end.
  (** ... and of DynamicDirectionalStateSpaceManager (750-755). *)
  Definition dyn_occ (m : gridmap) (x y : Z) : bool :=
    match dyn_isOccupied1 m x y with Some true => true | _ => false end.

  (** ** DistanceTransformationSearch *)

  (** DistanceTransformation.hpp:77-87: the initial distances. *)
  Definition dt_init (m : gridmap) (goal : cell) : table :=
    tset (fun c => if is_free_cell m c then maxv else inf) goal zero.

  (** DistanceTransformation.hpp:163-181: the best neighbour of [cur], [cur]
      itself if none has a smaller distance. *)
  Definition dt_best (m : gridmap) (t : table) (cur : cell) : cell :=
    fold_left (fun best i =>
        let c := ncell true 1 cur i in
        if (0 <=? fst c) && (0 <=? snd c) && (fst c <? gm_w m) && (snd c <? gm_h m)
        then if lt (t c) (t best) then c else best
        else best)
      (seq 0 8) cur.

  (** DistanceTransformation.hpp:156-190, backtrack, after the push_back of [cur]. *)
  Fixpoint dt_backtrack (fuel : nat) (m : gridmap) (t : table) (goal cur : cell) : option (list cell) :=
    if ceqb cur goal then Some [cur]
    else
      let best := dt_best m t cur in
      if ceqb best cur then Some [cur]
      else match fuel with
           | O => None
           | S f => match dt_backtrack f m t goal best with Some l => Some (cur :: l) | None => None end
           end.

  (** Result of findPath: the path, the OutsideMapException, undefined
      behaviour, or not enough fuel. *)
  Inductive dres := DPath (p : list cell) | DOutside | DUndef | DFuel.

  (** DistanceTransformation.hpp:66-154, findPathImp.  The lookups of the poses
      come first (72-73); line 89 looks up the goal again with the overload for
      doubles (MapManager.hpp:218-223), which refuses negative coordinates. *)
  Definition dt_findPath (fuel : nat) (m : gridmap) (from to : Q * Q) : dres :=
    match lookup_pose m from with
    | LUndef => DUndef
    | LOutside => DOutside
    | LCell s =>
        match lookup_pose m to with
        | LUndef => DUndef
        | LOutside => DOutside
        | LCell g =>
            if negb (Qle_bool 0 (fst to) && Qle_bool 0 (snd to)) then DOutside else
            match sweeps fuel (gm_w m) (gm_h m) (dt_init m g) with
            | None => DFuel
            | Some t => match dt_backtrack fuel m t g s with Some p => DPath p | None => DFuel end
            end
        end
    end.
End Sweep.
