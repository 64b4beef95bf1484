(** Model of I/generic/SearchAlgorithm.hpp, GenericSearchAlgorithm, for neighbourhoods
    that overwrite the pose of a node when they reach it (SteeringNeighborhood.hpp:
    292-343, DynamicSteeringNeighborhood.h:299-352): a node of the map manager is a slot
    (cell, heading interval, direction) and holds the exact state with which the search
    reached it last.

    Parameters of the section are the template parameters of the class:
    - [V]: the nodes ([veqb]: pointer equality);
    - [P]: the contents of a node the neighbourhood reads and writes;
    - [M]: the pairs (i, step) of the two loops, [moves] their order;
    - [offer ref prevs m]: one turn of the loops for a reference with contents [ref]
      whose predecessors have the contents [prevs] (nearest first, at most [reach] of
      them are read): undefined behaviour or an exception ([None]), no neighbour, or
      the node looked up, its cost and the contents it gets when it is accepted;
    - [hval]: Heuristic::compute(node, goal), [tot]: getTotalCost;
    - [isgoal]: NeighborhoodType::isGoal(goal, node) with the node's predecessor;
    - [push], [pop]: OpenNodesPolicy::add and next.
    Simplifications: double is the set of real numbers ([None]: INFINITY); no oversearch
    (the default), no analytic expansion; the counters are left out. *)
From Coq Require Import Reals.
From Verif Require Import Base GeomR.

Section Vehicle.
  Variables V P M : Type.
  Variable veqb : V -> V -> bool.
  Variable moves : list M.
  Variable reach : nat.
  Variable offer : P -> list P -> M -> option (option (V * R * P)).
  Variable hval : P -> P -> R.
  Variable tot : R -> R -> R.
  Variable isgoal : P -> P -> option P -> option bool.
  Variable push : (V -> R) -> V -> list V -> list V.
  Variable pop : (V -> R) -> list V -> option (V * list V).

  (** Common.hpp:60-118, Heuristics.hpp:27-65, SteeringNode.hpp: the fields of a node. *)
  Record vinfo := VI { n_dist : option R; n_h : R; n_prev : option V; n_open : bool; n_closed : bool; n_pay : P }.
  Record vstate := VS { v_info : V -> vinfo; v_open : list V }.

  Definition vset (f : V -> vinfo) (v : V) (n : vinfo) : V -> vinfo := fun w => if veqb w v then n else f w.
  Definition vmem (v : V) (l : list V) : bool := existsb (veqb v) l.
  Definition vdist (f : V -> vinfo) (v : V) : R := match n_dist (f v) with Some d => d | None => 0%R end.
  (** getTotalCost of a node in the open list (its distance is finite). *)
  Definition vtotal (f : V -> vinfo) (v : V) : R := tot (vdist f v) (n_h (f v)).

  (** The contents of the [k] nearest predecessors of [v] (prev pointers). *)
  Fixpoint prevs (k : nat) (f : V -> vinfo) (v : V) : list P :=
    match k with
    | O => []
    | S k' => match n_prev (f v) with None => [] | Some u => n_pay (f u) :: prevs k' f u end
    end.

  Variable start goals : list V.

  (** Heuristic::compute(node, *goal.begin(), res), if there is a goal node. *)
  Definition new_h (f : V -> vinfo) (v : V) : R :=
    match goals with g :: _ => hval (n_pay (f v)) (n_pay (f g)) | [] => n_h (f v) end.

  (** SearchAlgorithm.hpp:629-669, processNeighbor, followed by the stores of the
      neighbourhood when the node was added (the heuristic is computed before them, from
      the old contents). [None]: assert(neighbor != current). *)
  Definition vprocess (cur : V) (s : vstate) (o : V * R * P) : option vstate :=
    let '(v, c, p) := o in
    let n := v_info s v in
    let d := (vdist (v_info s) cur + c)%R in
    let closer := match n_dist n with None => true | Some d' => Rltb d d' end in
    if n_closed n && negb closer then Some s
    else if negb (n_open n) || closer then
      if veqb v cur then None else
      let h := new_h (v_info s) v in
      let f := vset (v_info s) v (VI (Some d) h (Some cur) true (n_closed n) (n_pay n)) in
      Some (VS (vset f v (VI (Some d) h (Some cur) true (n_closed n) p)) (push (vtotal f) v (v_open s)))
    else Some s.

  (** The loops of iterateFreeNeighbors: every turn reads the nodes as they are then. *)
  Fixpoint vexpand (cur : V) (ms : list M) (s : vstate) : option vstate :=
    match ms with
    | [] => Some s
    | m :: r =>
        o <- offer (n_pay (v_info s cur)) (prevs reach (v_info s) cur) m ;;
        match o with
        | None => vexpand cur r s
        | Some vcp => s' <- vprocess cur s vcp ;; vexpand cur r s'
        end
    end.

  (** SearchAlgorithm.hpp:671-695, backtrack: the nodes from the start on. [None]: NULL
      dereference or a failing assertion (or no fuel). *)
  Fixpoint vback (fuel : nat) (f : V -> vinfo) (cur : V) (seen acc : list V) : option (list V) :=
    match fuel with
    | O => None
    | S k =>
        if vmem cur start then Some (cur :: acc)
        else if vmem cur seen then Some []
        else match n_prev (f cur) with
             | None => None
             | Some p =>
                 match n_prev (f p) with
                 | Some q => if veqb q p then None else vback k f p (cur :: seen) (cur :: acc)
                 | None => vback k f p (cur :: seen) (cur :: acc)
                 end
             end
    end.

  (** SearchAlgorithm.hpp:594-613: some goal node accepts the current node. *)
  Fixpoint vreached (f : V -> vinfo) (cur : V) (gs : list V) : option bool :=
    match gs with
    | [] => Some false
    | g :: r =>
        b <- isgoal (n_pay (f g)) (n_pay (f cur)) (match n_prev (f cur) with Some u => Some (n_pay (f u)) | None => None end) ;;
        if (b : bool) then Some true else vreached f cur r
    end.

  (** SearchAlgorithm.hpp:397-415. *)
  Definition vclose (s : vstate) (cur : V) (o : list V) : vstate :=
    let n := v_info s cur in
    VS (vset (v_info s) cur (VI (n_dist n) (new_h (v_info s) cur) (n_prev n) false true (n_pay n))) o.

  (** The result: undefined behaviour or an exception, not enough fuel, or the returned
      path: copies of the nodes, in the order start to goal. *)
  Inductive vres := VUndef | VFuel | VPath (p : list (V * P)).
  Definition vcopy (f : V -> vinfo) (l : list V) : list (V * P) := map (fun v => (v, n_pay (f v))) l.

  (** SearchAlgorithm.hpp:373-445, findPathImp; [timeout n]: the time limit has passed at
      iteration [n]; [bf]: fuel for the backtracking, [fuel]: for the loop. *)
  Fixpoint vloop (timeout : nat -> bool) (bf fuel n : nat) (s : vstate) : vres * vstate :=
    match fuel with
    | O => (VFuel, s)
    | S k =>
        match v_open s with
        | [] => (VPath [], s)
        | _ =>
            if timeout n then (VPath [], s) else
            match pop (vtotal (v_info s)) (v_open s) with
            | None => (VUndef, s)
            | Some (cur, o) =>
                let s1 := vclose s cur o in
                match vreached (v_info s1) cur goals with
                | None => (VUndef, s1)
                | Some true =>
                    match vback bf (v_info s1) cur [] [] with
                    | None => (VUndef, s1)
                    | Some l => (VPath (vcopy (v_info s1) l), s1)
                    end
                | Some false =>
                    match vexpand cur moves s1 with
                    | None => (VUndef, s1)
                    | Some s2 => vloop timeout bf k (S n) s2
                    end
                end
            end
        end
    end.

  (** SearchAlgorithm.hpp:462-492: the start nodes get distance 0 and are added. *)
  Fixpoint vstarts (l : list V) (s : vstate) : vstate :=
    match l with
    | [] => s
    | v :: r =>
        let n := v_info s v in
        let f := vset (v_info s) v (VI (Some 0%R) (n_h n) (n_prev n) true (n_closed n) (n_pay n)) in
        vstarts r (VS f (push (vtotal f) v (v_open s)))
    end.
  (** Common.hpp:84-102, Heuristics.hpp:38-49: the nodes after setMap, with the contents
      [pay] they have when the search begins. *)
  Definition vfresh (pay : V -> P) : V -> vinfo := fun v => VI None 0%R None false false (pay v).
  Definition vrun (timeout : nat -> bool) (bf fuel : nat) (pay : V -> P) : vres * vstate :=
    vloop timeout bf fuel 0 (vstarts start (VS (vfresh pay) [])).
End Vehicle.
