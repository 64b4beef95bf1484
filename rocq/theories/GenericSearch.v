(** Model of I/generic/SearchAlgorithm.hpp, GenericSearchAlgorithm.

    Parameters of the section are the template parameters of the class:
    - [V]: the nodes of the map manager ([veqb]: pointer equality), [all] an
      enumeration of them;
    - [C]: the costs (double), with the operations the code applies to them;
    - [nbr]: what NeighborhoodType::iterateFreeNeighbors offers for a node, in
      order: the neighbours that passed the freeness test with [delta * res];
    - [hval]: Heuristic::compute for the first goal node;
    - [push], [pop]: OpenNodesPolicy::add and next (given the current total
      costs; the list is the container's state);
    - [best]: the top of the priority queue of goal candidates.
    Analytic expansion is NoExpansion and no candidate callback is set.
    The counters (expansions, touched, updates) are added in GenericCount.v. *)
From Verif Require Import Base.

Section Generic.
  Variables V C : Type.
  Variable veqb : V -> V -> bool.
  Variable all : list V.
  Variable zero inf : C.
  Variable add : C -> C -> C.        (* current->distance + cost *)
  Variable lt : C -> C -> bool.      (* distance < neighbor->distance *)
  Variable tot : C -> C -> C.        (* getTotalCost: distance + h *)
  Variable nbr : V -> list (V * C).
  Variable hval : V -> C.
  Variable push : (V -> C) -> V -> list V -> list V.
  Variable pop : (V -> C) -> list V -> option (V * list V).

  (** Common.hpp:60-118: the fields of a node used by the search. *)
  Record info := Info {
    g_dist : C; g_h : C; g_prev : option V;
    g_open : bool; g_closed : bool; g_watched : bool; g_expanded : bool }.

  (** Heuristics.hpp:38-49, Common.hpp:84-102: state after initMap. *)
  Definition fresh_info : info := Info inf zero None false false false false.

  Record state := State {
    s_info : V -> info;
    s_open : list V;                      (* contents of the open list *)
    s_cand : list (V * C);                (* goal_candidates *)
    s_first : C }.                        (* first_candidate_weight *)

  Definition setn (f : V -> info) (v : V) (n : info) : V -> info :=
    fun w => if veqb w v then n else f w.
  Definition mem (v : V) (l : list V) : bool := existsb (veqb v) l.

  Definition total (f : V -> info) (v : V) : C := tot (g_dist (f v)) (g_h (f v)).

  Section Run.
  (** One call of findPath: the start nodes, the goal test, whether a goal node
      exists (heuristics are only computed then), candidate mode, and the clock. *)
  Variable start : list V.
  Variable is_goal : V -> bool.           (* exists g in goal, isGoal(g, current) *)
  Variable has_goal : bool.               (* !goal.empty() *)
  Variable use_candidates : bool.         (* oversearch_distance != 0 *)
  Variable over : C -> C -> bool.         (* total > first weight + oversearch *)
  Variable gdist : V -> C.                (* hypot to the goal *)
  Variable best : list (V * C) -> option V.
  Variable timeout : nat -> bool.         (* the time limit has passed at iteration n *)

  (** SearchAlgorithm.hpp:629-669, processNeighbor.  [None]: assert(neighbor != current). *)
  Definition processNeighbor (cur : V) (s : state) (vc : V * C) : option state :=
    let '(v, c) := vc in
    let n := s_info s v in
    let d := add (g_dist (s_info s cur)) c in
    let closer := lt d (g_dist n) in
    let n1 := Info (g_dist n) (g_h n) (g_prev n) (g_open n) (g_closed n) true (g_expanded n) in
    let s1 := State (setn (s_info s) v n1) (s_open s) (s_cand s) (s_first s) in
    if g_closed n && negb closer then Some s1
    else if negb (g_open n) || closer then
      if veqb v cur then None else
      let n2 := Info d (if has_goal then hval v else g_h n) (Some cur) true (g_closed n) true (g_expanded n) in
      let f := setn (s_info s) v n2 in
      Some (State f (push (total f) v (s_open s)) (s_cand s) (s_first s))
    else Some s1.

  Fixpoint process_all (cur : V) (l : list (V * C)) (s : state) : option state :=
    match l with
    | [] => Some s
    | vc :: r => s' <- processNeighbor cur s vc ;; process_all cur r s'
    end.

  (** SearchAlgorithm.hpp:671-695, backtrack.  [acc] is the path so far, already
      in start-to-goal order; [seen] the set [contained].  [None]: NULL
      dereference or a failing assertion (or no fuel). *)
  Fixpoint bt (fuel : nat) (f : V -> info) (cur : V) (seen acc : list V) : option (list V) :=
    match fuel with
    | O => None
    | S k =>
        if mem cur start then Some (cur :: acc)
        else if mem cur seen then Some []
        else match g_prev (f cur) with
             | None => None
             | Some p =>
                 match g_prev (f p) with
                 | Some q => if veqb q p then None else bt k f p (cur :: seen) (cur :: acc)
                 | None => bt k f p (cur :: seen) (cur :: acc)
                 end
             end
    end.
  Definition backtrack (f : V -> info) (v : V) : option (list V) := bt (S (S (length all))) f v [] [].

  Inductive gres := GUndef | GFuel | GPath (p : list V).
  Definition of_bt (o : option (list V)) : gres := match o with Some p => GPath p | None => GUndef end.

  (** SearchAlgorithm.hpp:437-444, after the loop. *)
  Definition finish (s : state) : gres :=
    match best (s_cand s) with
    | Some v => of_bt (backtrack (s_info s) v)
    | None => GPath []
    end.

  (** SearchAlgorithm.hpp:397-408 and the heuristic update 410-415. *)
  Definition close (s : state) (cur : V) (o : list V) : state :=
    let n := s_info s cur in
    State (setn (s_info s) cur
             (Info (g_dist n) (if has_goal then hval cur else g_h n) (g_prev n) false true (g_watched n) true))
          o (s_cand s) (s_first s).

  (** SearchAlgorithm.hpp:572-613 without expansion: addGoalCandidate (192-198). *)
  Definition add_candidate (s : state) (cur : V) : state :=
    State (s_info s) (s_open s) (s_cand s ++ [(cur, gdist cur)])
          (match s_cand s with [] => total (s_info s) cur | _ => s_first s end).

  (** SearchAlgorithm.hpp:383-444, findPathImp; [n] counts iterations. *)
  Fixpoint loop (fuel : nat) (n : nat) (s : state) : gres * state :=
    match fuel with
    | O => (GFuel, s)
    | S k =>
        match s_open s with
        | [] => (finish s, s)
        | _ =>
            if timeout n then (finish s, s) else
            match pop (total (s_info s)) (s_open s) with
            | None => (GUndef, s)
            | Some (cur, o) =>
                let s1 := close s cur o in
                if is_goal cur && negb use_candidates then
                  match backtrack (s_info s1) cur with
                  | None => (GUndef, s1)
                  | Some [] => (finish s1, s1)
                  | Some p => (GPath p, s1)
                  end
                else
                  let s2 := if is_goal cur then add_candidate s1 cur else s1 in
                  if use_candidates && negb (match s_cand s2 with [] => true | _ => false end)
                       && over (total (s_info s2) cur) (s_first s2)
                  then (finish s2, s2)
                  else match process_all cur (nbr cur) s2 with
                       | None => (GUndef, s2)
                       | Some s3 => loop k (S n) s3
                       end
            end
        end
    end.

  (** SearchAlgorithm.hpp:447-492: init clears the open list and the candidates
      but not the nodes; the start nodes get distance 0 and are added. *)
  Fixpoint add_starts (l : list V) (s : state) : state :=
    match l with
    | [] => s
    | v :: r =>
        let n := s_info s v in
        let f := setn (s_info s) v (Info zero (g_h n) (g_prev n) true (g_closed n) (g_watched n) (g_expanded n)) in
        add_starts r (State f (push (total f) v (s_open s)) (s_cand s) (s_first s))
    end.
  Definition init_search (f : V -> info) (first : C) : state := add_starts start (State f [] [] first).

  Definition run (fuel : nat) (f : V -> info) (first : C) : gres * state := loop fuel 0 (init_search f first).
  End Run.
End Generic.
