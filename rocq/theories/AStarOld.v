(** Model of S/a_star/{AStar,OpenList,Node}.cpp and the headers.

    Distances are [double]s stored as [float]s.  All floating-point operations
    are parameters of this section ([Dd] = double, [Df] = float), so the
    theorems hold for whatever rounding the hardware performs; AStarFloat.v
    instantiates them with IEEE binary64/binary32.  The only thing assumed of
    the value used for ordering is that it is an [int] (Node.cpp:41-50), i.e.
    the conversion does not overflow. *)
From Verif Require Import Base GridMap.

Section AStar.
  Variables Dd Df : Type.
  Variable tofloat : Dd -> Df.               (* storing a double into a float member *)
  Variable zero : Dd.                        (* the literal 0, AStar.cpp:79 *)
  Variable step : Df -> bool -> Dd.          (* parent->getDistance() + neighbor distance; true = diagonal *)
  Variable predict : Z * Z -> Z * Z -> Dd.   (* getDistanceToStart, AStar.cpp:137-140: start, position *)
  Variable value : Df -> Df -> Z.            (* Node::getValue, Node.cpp:41-50 *)
  Variable gt_value : Dd -> Dd -> Z -> bool. (* (distance + prediction) > value, OpenList.cpp:77 *)

  (** Node.h:39-46 (mPositionIndex is never read and omitted).  Nodes are
      referred to by their array index; a NULL parent is [None]. *)
  Record node := Node {
    n_pos : Z * Z; n_dist : Df; n_pred : Df; n_parent : option Z;
    n_visited : bool; n_init : bool }.

  (** OpenList.h:200-215.  [o_nodes] is the array [mNodesArray] of
      [o_w * o_h] elements (only indices checked by [addNode] are ever used,
      see [C16]); [o_open] the multiset in iteration order; [o_used] the
      vector mUsedNodes, last element first. *)
  Record olist := OList {
    o_w : Z; o_h : Z;
    o_nodes : Z -> node;
    o_open : list Z;
    o_used : list Z }.

  Definition nvalue (n : node) : Z := value (n_dist n) (n_pred n).
  Definition upd {A} (f : Z -> A) (i : Z) (a : A) : Z -> A := fun j => if j =? i then a else f j.

  (** Node.cpp:60-63. *)
  Definition nreset (n : node) : node := Node (n_pos n) (n_dist n) (n_pred n) (n_parent n) false false.
  (** Node.cpp:37-39. *)
  Definition nvisit (n : node) : node := Node (n_pos n) (n_dist n) (n_pred n) (n_parent n) true (n_init n).

  (** OpenList.cpp:17-42: malloc leaves garbage [junk], then every node is reset. *)
  Definition ol_new (junk : Z -> node) (w h : Z) : olist := OList w h (fun i => nreset (junk i)) [] [].

  (** OpenList.cpp:44-57, prepareNewSearch. *)
  Fixpoint reset_all (l : list Z) (ns : Z -> node) : Z -> node :=
    match l with [] => ns | i :: r => reset_all r (upd ns i (nreset (ns i))) end.
  Definition prepare (o : olist) : olist := OList (o_w o) (o_h o) (reset_all (o_used o) (o_nodes o)) [] [].

  (** multiset::lower_bound(node) for key [k]: the suffix starting at the first
      element that is not smaller. *)
  Fixpoint lower_bound (ns : Z -> node) (k : Z) (l : list Z) : list Z * list Z :=
    match l with
    | [] => ([], [])
    | i :: r => if nvalue (ns i) <? k then let '(a, b) := lower_bound ns k r in (i :: a, b) else ([], l)
    end.

  (** OpenList.cpp:117-138, getNode followed by erase of the found element
      (OpenList.cpp:83-88): walk from the lower bound until the pointer is
      found.  [None]: the end iterator is dereferenced (UB). *)
  Fixpoint erase_from (i : Z) (l : list Z) : option (list Z) :=
    match l with
    | [] => None
    | j :: r => if j =? i then Some r else r' <- erase_from i r ;; Some (j :: r')
    end.
  Definition erase_node (ns : Z -> node) (i : Z) (l : list Z) : option (list Z) :=
    let '(a, b) := lower_bound ns (nvalue (ns i)) l in
    b' <- erase_from i b ;; Some (a ++ b').

  (** OpenList.cpp:95-96: insert with the lower bound as hint, i.e. before all
      elements of equal value. *)
  Definition insert_node (ns : Z -> node) (i : Z) (l : list Z) : list Z :=
    let '(a, b) := lower_bound ns (nvalue (ns i)) l in a ++ i :: b.

  Definition pos_index (o : olist) (p : Z * Z) : Z := fst p + snd p * o_w o.

  (** OpenList.cpp:59-107, addNode.  The index is computed in [int]; an
      overflow is UB.  (mNodesCount, also an [int], is taken to be the exact
      product; the theorems ask for it to fit.) *)
  Definition addNode (o : olist) (p : Z * Z) (dist pred : Dd) (parent : option Z) : option olist :=
    let i := pos_index o p in
    if negb (in_i32 (snd p * o_w o) && in_i32 i) then None
    else if (i >=? o_w o * o_h o) || (i <? 0) then Some o
    else
      let n := o_nodes o i in
      if negb (n_init n) then
        let ns := upd (o_nodes o) i (Node p (tofloat dist) (tofloat pred) parent false true) in
        Some (OList (o_w o) (o_h o) ns (insert_node ns i (o_open o)) (i :: o_used o))
      else if n_visited n || gt_value dist pred (nvalue n) then Some o
      else
        open' <- erase_node (o_nodes o) i (o_open o) ;;
        let ns := upd (o_nodes o) i (Node (n_pos n) (tofloat dist) (n_pred n) parent (n_visited n) (n_init n)) in
        Some (OList (o_w o) (o_h o) ns (insert_node ns i open') (o_used o)).

  (** OpenList.cpp:140-149, getFirstNode: [None] = NULL. *)
  Definition getFirst (o : olist) : option Z * olist :=
    match o_open o with
    | [] => (None, o)
    | i :: r => (Some i, OList (o_w o) (o_h o) (upd (o_nodes o) i (nvisit (o_nodes o i))) r (o_used o))
    end.

  (** AStar.cpp:27-34, the neighbours in order with the diagonal flag. *)
  Definition neighbors : list (Z * Z * bool) :=
    [(-1,-1,true); (0,-1,false); (1,-1,true); (-1,0,false); (1,0,false); (-1,1,true); (0,1,false); (1,1,true)].

  (** AStar.cpp:119-124, isFreeWay. *)
  Definition isFreeWay (m : gridmap) (p : Z * Z) : option bool :=
    if negb (isInMap m (fst p) (snd p)) then Some false else isFree m (fst p) (snd p).

  (** AStar.cpp:84-98, expansion of [parent]. *)
  Fixpoint expand (m : gridmap) (start : Z * Z) (parent : Z) (nb : list (Z * Z * bool)) (o : olist) : option olist :=
    match nb with
    | [] => Some o
    | (dx, dy, diag) :: r =>
        let pn := o_nodes o parent in
        let p := (fst (n_pos pn) + dx, snd (n_pos pn) + dy) in
        f <- isFreeWay m p ;;
        o' <- (if f then addNode o p (step (n_dist pn) diag) (predict start p) (Some parent) else Some o) ;;
        expand m start parent r o'
    end.

  (** AStar.cpp:105-110: follow the parents.  Out of fuel: [None]. *)
  Fixpoint backtrack (fuel : nat) (ns : Z -> node) (i : option Z) : option (list (Z * Z)) :=
    match i with
    | None => Some []
    | Some k =>
        match fuel with
        | O => None
        | S f => l <- backtrack f ns (n_parent (ns k)) ;; Some (n_pos (ns k) :: l)
        end
    end.

  Inductive result := Undefined | Path (p : list (Z * Z)) | NoPath.

  Definition cell_eqb (a b : Z * Z) : bool := (fst a =? fst b) && (snd a =? snd b).

  (** AStar.cpp:82-113, main loop with [parent] the current node.
      [Undefined] covers UB and fuel exhaustion. *)
  Fixpoint loop (fuel : nat) (m : gridmap) (start : Z * Z) (parent : Z) (o : olist) : result * olist :=
    match fuel with
    | O => (Undefined, o)
    | S f =>
        if cell_eqb (n_pos (o_nodes o parent)) start then
          match backtrack (S (Z.to_nat (o_w o * o_h o))) (o_nodes o) (Some parent) with
          | Some p => (Path p, o)
          | None => (Undefined, o)
          end
        else
          match expand m start parent neighbors o with
          | None => (Undefined, o)
          | Some o1 =>
              match getFirst o1 with
              | (None, o2) => (NoPath, o2)
              | (Some q, o2) => loop f m start q o2
              end
          end
    end.

  (** AStar.cpp:76-80 + loop.  A NULL first node is dereferenced (UB). *)
  Definition search (m : gridmap) (start goal : Z * Z) (o : olist) : result * olist :=
    let o0 := prepare o in
    match addNode o0 goal zero (predict start goal) None with
    | None => (Undefined, o0)
    | Some o1 =>
        match getFirst o1 with
        | (None, o2) => (Undefined, o2)
        | (Some q, o2) => loop (S (Z.to_nat (o_w o * o_h o))) m start q o2
        end
    end.

  (** AStar.cpp:56-74, planPath.  The result abstracts the returned bool
      together with *getLastPath(): [NoPath] is [false] with an empty path
      (mPath is cleared first and only written on success). *)
  Definition planPath (m : gridmap) (o : olist) (start goal : Z * Z) : result * olist :=
    if negb (isInMap m (fst start) (snd start)) then (NoPath, o)
    else if negb (isInMap m (fst goal) (snd goal)) then (NoPath, o)
    else search m start goal o.

  (** The search object: the map it points to and its node list. *)
  Record astar := AStarObj { a_map : gridmap; a_ol : olist }.

  (** AStar.cpp:19-23 (constructor) and 42-54 (setNewMap).  [mMap] is a pointer:
      the dimensions compared are those of the map object as it is NOW. *)
  Definition astar_new (junk : Z -> node) (m : gridmap) : astar :=
    AStarObj m (ol_new junk (gm_w m) (gm_h m)).
  Definition setNewMap (junk : Z -> node) (a : astar) (m : gridmap) : astar :=
    if negb (gm_w (a_map a) =? gm_w m) || negb (gm_h (a_map a) =? gm_h m)
    then AStarObj m (ol_new junk (gm_w m) (gm_h m))
    else AStarObj m (a_ol a).

  (** A client history: plan, replace the map, or change the map object the
      search points to (setValue, set, ...). *)
  Inductive aop :=
  | OpPlan (start goal : Z * Z)
  | OpSetMap (junk : Z -> node) (m : gridmap)
  | OpMutate (m : gridmap).
  Definition astep (a : astar) (o : aop) : astar :=
    match o with
    | OpPlan s g => AStarObj (a_map a) (snd (planPath (a_map a) (a_ol a) s g))
    | OpSetMap junk m => setNewMap junk a m
    | OpMutate m => AStarObj m (a_ol a)
    end.
  Definition aplan (a : astar) (s g : Z * Z) : result := fst (planPath (a_map a) (a_ol a) s g).
End AStar.

Arguments Node {Df} _ _ _ _ _ _.
Arguments OList {Df} _ _ _ _ _.
Arguments AStarObj {Df} _ _.
