(** Model of the remaining ways to run GenericSearchAlgorithm (I/generic/
    SearchAlgorithm.hpp) with a neighbourhood that overwrites the pose of a node
    (VehicleSearch.v): oversearch with goal candidates and the candidate callback
    (190-196, 372-445, 580-617, 712-715), the caller's own goal test (253-281, 345-357)
    and getPathCandidates (697-710).

    Parameters besides those of VehicleSearch.v:
    - [T], [term]: the goal test, a state and its reaction to terminate(node): undefined
      behaviour, or the new state, the weights with which it adds the node to the
      candidates (addGoalCandidate) and its answer;
    - [hgoal]: the heuristic goal of the test (NULL: [None]);
    - [osd]: search_options.oversearch_distance;
    - [queue]: the candidates in the order in which a priority queue hands them out.
    Simplifications: double is the set of real numbers; a goal test of the caller adds no
    node but the one it is asked about; no analytic expansion. *)
From Coq Require Import Reals.
From Verif Require Import Base GeomR VehicleSearch.

(** SearchAlgorithm.hpp:415-421: go on; stop without a result; stop with the path to the
    current node in [result]. *)
Inductive vanswer := AGo | AStop | AReturn.

Section Test.
  Variables V P M T : Type.
  Variable veqb : V -> V -> bool.
  Variable moves : list M.
  Variable reach : nat.
  Variable offer : P -> list P -> M -> option (option (V * R * P)).
  Variable hval : P -> P -> R.
  Variable tot : R -> R -> R.
  Variable push : (V -> R) -> V -> list V -> list V.
  Variable pop : (V -> R) -> list V -> option (V * list V).
  Variable start goals : list V.
  Variable hgoal : option P.
  Variable osd : R.
  Variable queue : list (V * R) -> list (V * R).
  Variable term : T -> (V -> vinfo V P) -> V -> option (T * list R * vanswer).
  Variable timeout : nat -> bool.
  Variable bf : nat.

  (** The nodes, the candidates in the order of addGoalCandidate and
      first_candidate_weight (which is only read when there is a candidate). *)
  Record wstate := WS { ws_s : vstate V P; ws_cand : list (V * R); ws_first : R }.
  (** A call of terminate: the node, its contents and getTotalCost then, the weights
      added, the answer. *)
  Record wcall := WC { wc_node : V; wc_pay : P; wc_total : R; wc_cands : list R; wc_ans : vanswer }.

  (** SearchAlgorithm.hpp:408-413. *)
  Definition hclose (f : V -> vinfo V P) (v : V) : R :=
    match goals with
    | g :: _ => hval (n_pay V P (f v)) (n_pay V P (f g))
    | [] => match hgoal with Some g => hval (n_pay V P (f v)) g | None => n_h V P (f v) end
    end.
  (** SearchAlgorithm.hpp:397-413. *)
  Definition wclose (s : vstate V P) (cur : V) (o : list V) : vstate V P :=
    let n := v_info V P s cur in
    VS V P (vset V P veqb (v_info V P s) cur (VI V P (n_dist V P n) (hclose (v_info V P s) cur) (n_prev V P n) false true (n_pay V P n))) o.

  (** SearchAlgorithm.hpp:190-196, addGoalCandidate for each weight. *)
  Fixpoint wadd (ws : wstate) (cur : V) (l : list R) : wstate :=
    match l with
    | [] => ws
    | c :: r =>
        wadd (WS (ws_s ws) (ws_cand ws ++ [(cur, c)])
                (match ws_cand ws with [] => vtotal V P tot (v_info V P (ws_s ws)) cur | _ => ws_first ws end)) cur r
    end.

  (** SearchAlgorithm.hpp:437-444: the path to the top of the queue of candidates. *)
  Definition wfinish (ws : wstate) : vres V P :=
    match queue (ws_cand ws) with
    | [] => VPath V P []
    | (v, _) :: _ =>
        match vback V P veqb start bf (v_info V P (ws_s ws)) v [] [] with
        | None => VUndef V P
        | Some l => VPath V P (vcopy V P (v_info V P (ws_s ws)) l)
        end
    end.

  (** SearchAlgorithm.hpp:424-428 with 455: the window of the oversearch is left. *)
  Definition wover (ws : wstate) (cur : V) : bool :=
    (if Req_EM_T osd 0 then false else true) && (match ws_cand ws with [] => false | _ => true end) &&
    Rltb (ws_first ws + osd) (vtotal V P tot (v_info V P (ws_s ws)) cur).

  (** SearchAlgorithm.hpp:373-445, findPathImp; also returned: the last state and the
      calls of the goal test in their order. *)
  Fixpoint wloop (fuel n : nat) (t : T) (ws : wstate) : vres V P * wstate * list wcall :=
    match fuel with
    | O => (VFuel V P, ws, [])
    | S k =>
        match v_open V P (ws_s ws) with
        | [] => (wfinish ws, ws, [])
        | _ =>
            if timeout n then (wfinish ws, ws, []) else
            match pop (vtotal V P tot (v_info V P (ws_s ws))) (v_open V P (ws_s ws)) with
            | None => (VUndef V P, ws, [])
            | Some (cur, o) =>
                let s1 := wclose (ws_s ws) cur o in
                let f1 := v_info V P s1 in
                let ws1 := WS s1 (ws_cand ws) (ws_first ws) in
                match term t f1 cur with
                | None => (VUndef V P, ws1, [])
                | Some (t', cs, ans) =>
                    let ws2 := wadd ws1 cur cs in
                    let ev := WC cur (n_pay V P (f1 cur)) (vtotal V P tot f1 cur) cs ans in
                    match ans with
                    | AStop => (wfinish ws2, ws2, [ev])
                    | AReturn =>
                        match vback V P veqb start bf f1 cur [] [] with
                        | None => (VUndef V P, ws2, [ev])
                        | Some [] => (wfinish ws2, ws2, [ev])
                        | Some l => (VPath V P (vcopy V P f1 l), ws2, [ev])
                        end
                    | AGo =>
                        if wover ws2 cur then (wfinish ws2, ws2, [ev])
                        else match vexpand V P M veqb reach offer hval tot push goals cur moves s1 with
                             | None => (VUndef V P, ws2, [ev])
                             | Some s2 => let '(r, w, l) := wloop k (S n) t' (WS s2 (ws_cand ws2) (ws_first ws2)) in (r, w, ev :: l)
                             end
                    end
                end
            end
        end
    end.

  (** SearchAlgorithm.hpp:330-357: init, initStartPose, (initGoalPose,) findPathImp on
      fresh nodes with the contents [pay]. *)
  Definition wrun (fuel : nat) (t : T) (pay : V -> P) : vres V P * wstate * list wcall :=
    wloop fuel 0 t (WS (vstarts V P veqb tot push start (VS V P (vfresh V P pay) [])) [] 0%R).

  (** SearchAlgorithm.hpp:697-710, getPathCandidates: a path for every candidate, in the
      order of the queue. [None]: backtrack fails. *)
  Fixpoint wpaths (f : V -> vinfo V P) (l : list (V * R)) : option (list (list (V * P))) :=
    match l with
    | [] => Some []
    | (v, _) :: r =>
        p <- vback V P veqb start bf f v [] [] ;; ps <- wpaths f r ;; Some (vcopy V P f p :: ps)
    end.
  Definition wcandidates (ws : wstate) : option (list (list (V * P))) := wpaths (v_info V P (ws_s ws)) (queue (ws_cand ws)).
End Test.

Section Pose.
  Variables V P T : Type.
  Variable veqb : V -> V -> bool.
  Variable start goals : list V.
  Variable isgoal : P -> P -> option P -> option bool.
  Variable gdist : P -> P -> R.           (* std::hypot of the difference, 592 *)
  Variable osd : R.
  Variable cb : option (T -> list (V * P) -> T * bool).   (* goal_candidate_function *)
  Variable bf : nat.

  (** SearchAlgorithm.hpp:588-617, hasPoseBeenReached without analytic expansion. *)
  Fixpoint pose_goals (f : V -> vinfo V P) (cur : V) (gs : list V) (t : T) : option (T * list R * vanswer) :=
    match gs with
    | [] => Some (t, [], AGo)
    | g :: r =>
        b <- isgoal (n_pay V P (f g)) (n_pay V P (f cur)) (match n_prev V P (f cur) with Some u => Some (n_pay V P (f u)) | None => None end) ;;
        if negb b then pose_goals f cur r t else
        if Req_EM_T osd 0 then Some (t, [], AReturn) else
        let d := gdist (n_pay V P (f g)) (n_pay V P (f cur)) in
        match cb with
        | None => x <- pose_goals f cur r t ;; Some (fst (fst x), d :: snd (fst x), snd x)
        | Some c =>
            l <- vback V P veqb start bf f cur [] [] ;;
            let tb := c t (vcopy V P f l) in
            if snd tb then Some (fst tb, [d], AReturn)
            else x <- pose_goals f cur r (fst tb) ;; Some (fst (fst x), d :: snd (fst x), snd x)
        end
    end.
  Definition pose_term (t : T) (f : V -> vinfo V P) (cur : V) : option (T * list R * vanswer) := pose_goals f cur goals t.
End Pose.
