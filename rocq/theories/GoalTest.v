(** Model of the findPath overloads with a goal test supplied by the caller
    (I/generic/SearchAlgorithm.hpp:253-298, 345-370, 372-445), on top of the
    operations of GenericSearch.v.

    The caller's object is a state [T] and its reaction to [terminate(node)]: the
    new state, whether it calls addGoalCandidate(node, cost) (a public member
    function, 190-196) and with which cost, and the answer.  Simplification: it
    adds at most one candidate per call, the node it was called with. *)
From Coq Require Import QArith.
From Verif Require Import Base GridMap GenericSearch DirectSearch.
Open Scope Z_scope.

Section GoalTest.
  Variables V C T : Type.
  Variable veqb : V -> V -> bool.
  Variable all : list V.
  Variable zero : C.
  Variable add : C -> C -> C.
  Variable lt : C -> C -> bool.
  Variable tot : C -> C -> C.
  Variable nbr : V -> list (V * C).
  Variable hval : V -> C.                (* Heuristic::compute(current, heuristic_goal, res) *)
  Variable hgoal : bool.                 (* getHeuristicGoal() != NULL *)
  Variable push : (V -> C) -> V -> list V -> list V.
  Variable pop : (V -> C) -> list V -> option (V * list V).
  Variable start : list V.
  Variable test : T -> V -> info V C -> T * option C * bool.
  Variable use_candidates : bool.        (* oversearch_distance != 0 *)
  Variable over : C -> C -> bool.        (* total > first weight + oversearch *)
  Variable best : list (V * C) -> option V.
  Variable timeout : nat -> bool.

  (** One call of goal_test.terminate: the node, the candidate added, the answer. *)
  Record call := Call { c_node : V; c_cand : option C; c_term : bool }.

  (** SearchAlgorithm.hpp:190-196. *)
  Definition add_cand (s : state V C) (cur : V) (c : C) : state V C :=
    State V C (s_info V C s) (s_open V C s) (s_cand V C s ++ [(cur, c)])
          (match s_cand V C s with [] => total V C tot (s_info V C s) cur | _ => s_first V C s end).

  (** SearchAlgorithm.hpp:372-445, findPathImp with [goal] empty: the heuristic is
      computed for the node taken out (408-412, for heuristic_goal) but not for
      its neighbours (651-653, only for a goal node).  [result] stays empty, so a
      positive answer of the test leads to the candidates (415-421, 437-442).
      Also returned: the final state and the calls of the test, in order. *)
  Fixpoint tloop (fuel n : nat) (t : T) (s : state V C) : gres V * state V C * list call :=
    match fuel with
    | O => (GFuel V, s, [])
    | S k =>
        match s_open V C s with
        | [] => (finish V C veqb all start best s, s, [])
        | _ =>
            if timeout n then (finish V C veqb all start best s, s, []) else
            match pop (total V C tot (s_info V C s)) (s_open V C s) with
            | None => (GUndef V, s, [])
            | Some (cur, o) =>
                let s1 := close V C veqb hval hgoal s cur o in
                let '(t', cand, term) := test t cur (s_info V C s1 cur) in
                let s2 := match cand with Some c => add_cand s1 cur c | None => s1 end in
                let ev := Call cur cand term in
                if term then (finish V C veqb all start best s2, s2, [ev])
                else if use_candidates && negb (match s_cand V C s2 with [] => true | _ => false end)
                          && over (total V C tot (s_info V C s2) cur) (s_first V C s2)
                then (finish V C veqb all start best s2, s2, [ev])
                else match process_all V C veqb add lt tot hval push false cur (nbr cur) s2 with
                     | None => (GUndef V, s2, [ev])
                     | Some s3 => let '(r, s', l) := tloop k (S n) t' s3 in (r, s', ev :: l)
                     end
            end
        end
    end.

  (** SearchAlgorithm.hpp:345-370: init, initStartPose (or initStartNode, which
      differs in the node fields theta and depth only), findPathImp. *)
  Definition trun (fuel : nat) (t : T) (f : V -> info V C) (first : C) : gres V * state V C * list call :=
    tloop fuel 0 t (init_search V C veqb zero tot push start f first).
End GoalTest.
Arguments c_node {V C}. Arguments c_cand {V C}. Arguments c_term {V C}.

Section Grid.
  Variables C T : Type.
  Variable zero inf : C.
  Variable add : C -> C -> C.
  Variable lt : C -> C -> bool.
  Variable tot : C -> C -> C.
  Variable cost : bool -> C.
  Variable hval : cell -> C.
  Variable hgoal : bool.
  Variable push : (cell -> C) -> cell -> list cell -> list cell.
  Variable pop : (cell -> C) -> list cell -> option (cell * list cell).
  Variable best : list (cell * C) -> option cell.
  Variable eight : bool.
  Variable D : Z.
  Variable test : T -> cell -> info cell C -> T * option C * bool.

  (** SearchAlgorithm.hpp:253-265 with 345-357, on the grid (AStar2d and its
      relatives): findPath(from, goal_test, options).
      (DirectNeighborhood.hpp:33: not reversed, so lines 261-263 do nothing.) *)
  Definition findPathTest (fuel : nat) (op : opts C) (o : sobj C) (from : Q * Q) (t : T) : fres * sobj C * list (call cell C) :=
    let m := ob_map C o in
    match lookup_pose m from with
    | LUndef => (FUndef, o, [])
    | LOutside => (FOutside, o, [])
    | LCell s =>
        let start := if is_occ_cell m s then [] else [s] in
        let '(r, s', l) := trun cell C T ceqb (all_cells m) zero add lt tot (nbrs C cost eight D m) hval hgoal push pop
                             start test (op_cand C op) (op_over C op) best (op_timeout C op) fuel t (ob_info C o) (ob_first C o) in
        (to_fres r, SObj C m (s_info cell C s') (s_first cell C s'), l)
    end.
End Grid.
