(** Oversearch on the grid: GenericSearchAlgorithm (I/generic/SearchAlgorithm.hpp) of
    DirectSearch.v with the goal candidates kept after the search, as
    getPathCandidates (697-710) reads them.

    [queue]: the contents of the priority queue of candidates in the order top and
    pop give them; the stored order of insertion stands for the queue itself. *)
From Coq Require Import QArith.
From Verif Require Import Base GridMap GenericSearch DirectSearch.
Open Scope Z_scope.

Section Cand.
  Context {C : Type}.
  Variable zero inf : C.
  Variable add : C -> C -> C.
  Variable lt : C -> C -> bool.
  Variable tot : C -> C -> C.
  Variable cost : bool -> C.
  Variable heur : cell -> cell -> C.
  Variable hyp : cell -> cell -> C.
  Variable push : (cell -> C) -> cell -> list cell -> list cell.
  Variable pop : (cell -> C) -> list cell -> option (cell * list cell).
  Variable queue : list (cell * C) -> list (cell * C).
  Variable eight : bool.
  Variable D : Z.

  (** SearchAlgorithm.hpp:439: goal_candidates.top(). *)
  Definition top (l : list (cell * C)) : option cell := option_map fst (hd_error (queue l)).

  (** SearchAlgorithm.hpp:424-428, 455: an oversearch distance that is not zero. *)
  Definition oversearch (osd : C) (timeout : nat -> bool) : opts C :=
    Opts C true (fun total first => lt (add first osd) total) timeout.

  (** The search object with the start nodes and the candidates of its last search. *)
  Record kobj := KObj { ko_obj : sobj C; ko_start : list cell; ko_cand : list (cell * C) }.
  Definition new_kobj (m : gridmap) (first : C) : kobj := KObj (new_sobj C zero inf m first) [] [].

  (** Algorithms.hpp setMap, as in DirectSearch.setMap: the candidates stay in the queue. *)
  Definition setMapC (o : kobj) (m : gridmap) : kobj := KObj (setMap C zero inf (ko_obj o) m) (ko_start o) (ko_cand o).

  (** SearchAlgorithm.hpp:330-341 as in DirectSearch.findPath; init (447-461) clears
      candidates and start nodes. *)
  Definition findPathC (fuel : nat) (op : opts C) (o : kobj) (from to : Q * Q) : fres * kobj :=
    let ob := ko_obj o in
    let m := ob_map C ob in
    match lookup_pose m from with
    | LUndef => (FUndef, KObj ob [] [])
    | LOutside => (FOutside, KObj ob [] [])
    | LCell s =>
        let start := if is_occ_cell m s then [] else [s] in
        match lookup_pose m to with
        | LUndef => (FUndef, KObj ob [] [])
        | LOutside => (FOutside, KObj (SObj C m (s_info cell C (init_search cell C ceqb zero tot push start (ob_info C ob) (ob_first C ob))) (ob_first C ob)) start [])
        | LCell g =>
            let goal := if is_occ_cell m g then None else Some g in
            let r := run cell C ceqb (all_cells m) zero add lt tot (nbrs C cost eight D m) (goal_val C zero heur goal) push pop
                       start (goal_test D goal) (somes goal) (op_cand C op) (op_over C op) (goal_val C zero hyp goal) top (op_timeout C op)
                       fuel (ob_info C ob) (ob_first C ob) in
            (to_fres (fst r), KObj (SObj C m (s_info cell C (snd r)) (s_first cell C (snd r))) start (s_cand cell C (snd r)))
        end
    end.

  (** SearchAlgorithm.hpp:697-710.  [None]: one of the backtrackings is undefined. *)
  Fixpoint backtracks (back : cell -> option (list cell)) (l : list (cell * C)) : option (list (list cell)) :=
    match l with
    | [] => Some []
    | (v, _) :: r => p <- back v ;; ps <- backtracks back r ;; Some (p :: ps)
    end.
  Definition getPathCandidates (o : kobj) : option (list (list cell)) :=
    backtracks (backtrack cell C ceqb (all_cells (ob_map C (ko_obj o))) (ko_start o) (ob_info C (ko_obj o))) (queue (ko_cand o)).
End Cand.
