(** The search object of DirectSearch.v together with its statistics counters:
    getExpansions, getMultiExpansions, getTouchedNodes
    (I/generic/SearchAlgorithm.hpp:176-188). *)
From Coq Require Import QArith.
From Verif Require Import Base GridMap GenericSearch DirectSearch GenericCount.
Open Scope Z_scope.

Section CountSearch.
  Context {C : Type}.
  Variable zero inf : C.
  Variable add : C -> C -> C.
  Variable lt : C -> C -> bool.
  Variable tot : C -> C -> C.
  Variable cost : bool -> C.
  Variable heur : cell -> cell -> C.
  Variable hyp : cell -> cell -> C.
  Variable push : (cell -> C) -> cell -> list cell -> list cell.
  Variable pop : (cell -> C) -> list cell -> option (cell * list cell).
  Variable best : list (cell * C) -> option cell.
  Variable eight : bool.
  Variable D : Z.

  Record cobj := CObj { co_obj : sobj C; co_cnt : cnt }.
  (** SearchAlgorithm.hpp:176-188. *)
  Definition getExpansions (o : cobj) : Z := n_exp (co_cnt o).
  Definition getMultiExpansions (o : cobj) : Z := n_multi (co_cnt o).
  Definition getTouchedNodes (o : cobj) : Z := n_touched (co_cnt o).

  (** SearchAlgorithm.hpp:127-130: the constructor zeroes all counters; setMap
      (131-134, MapManager.hpp:178-194) touches none of them. *)
  Definition new_cobj (m : gridmap) (first : C) : cobj := CObj (new_sobj C zero inf m first) (Cnt 0 0 0 0).
  Definition setMapN (o : cobj) (m : gridmap) : cobj := CObj (setMap C zero inf (co_obj o) m) (co_cnt o).

  (** SearchAlgorithm.hpp:330-341 as in DirectSearch.findPath; init() (447-460) has
      run before a lookup can throw.  Also returns the nodes handed to the goal
      test, in order. *)
  Definition findPathN (fuel : nat) (op : opts C) (o : cobj) (from to : Q * Q) : (fres * cobj) * list cell :=
    let ob := co_obj o in
    let m := ob_map C ob in
    let k0 := init_cnt (co_cnt o) in
    match lookup_pose m from with
    | LUndef => ((FUndef, CObj ob k0), [])
    | LOutside => ((FOutside, CObj ob k0), [])
    | LCell s =>
        let start := if is_occ_cell m s then [] else [s] in
        match lookup_pose m to with
        | LUndef => ((FUndef, CObj ob k0), [])
        | LOutside => ((FOutside, CObj (SObj C m (s_info cell C (init_search cell C ceqb zero tot push start (ob_info C ob) (ob_first C ob))) (ob_first C ob)) k0), [])
        | LCell g =>
            let goal := if is_occ_cell m g then None else Some g in
            let r := runN ceqb (all_cells m) zero add lt tot (nbrs C cost eight D m) (goal_val C zero heur goal) push pop
                       start (goal_test D goal) (somes goal) (op_cand C op) (op_over C op) (goal_val C zero hyp goal) best (op_timeout C op)
                       fuel (ob_info C ob) (ob_first C ob) (co_cnt o) in
            ((to_fres (fst (fst r)), CObj (SObj C m (s_info cell C (snd (fst r))) (s_first cell C (snd (fst r)))) (fst (snd r))), snd (snd r))
        end
    end.
End CountSearch.
