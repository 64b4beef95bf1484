(** Model of a vehicle search: GenericSearchAlgorithm (VehicleSearch.v) with
    DynamicSteeringNeighborhood or SteeringNeighborhood (SteerModel.v) and
    DynamicDirectionalStateSpaceManager (MapManagers.v), from findPath(from, to) on, for
    the first search after setMap.

    Simplifications: double is the set of real numbers; the map manager's resolution and
    the static resolution of the neighbourhood are the same (setMap sets both,
    SearchAlgorithm.hpp:128-131); no analytic expansion, no oversearch. *)
From Coq Require Import Reals.
From Flocq Require Import Core.Raux.
From Verif Require Import Base GridMap Bresenham GeomR MapManagers SteerModel VehicleSearch.
Local Open Scope R_scope.

(** A node of the manager: cell, heading slot, driving direction (MapManager.hpp:472-501).
    PropVehicle.v shows that different keys are different nodes. *)
Definition vkey : Type := (Z * Z * Z * bool)%type.
Definition vkey_eqb (a b : vkey) : bool :=
  let '(x, y, t, f) := a in let '(x', y', t', f') := b in
  ((x =? x') && (y =? y') && (t =? t'))%Z && Bool.eqb f f'.

(** (int) std::floor(x). *)
Definition floor_int (x : R) : option Z := cast_i32 (IZR (Zfloor x)).
(** MapManager.hpp:591-593, angle2index; theta_slots is 32. *)
Definition angle2index (clamp : R -> R) (th : R) : option Z := cast_u32 ((clamp th + PI) / (2 * PI) * 31).

Section Model.
  Variable clamp : R -> R.
  Variable m : gridmap.
  Variable skips : Z.

  (** MapManager.hpp:653-662, contains(double, double). *)
  Definition v_contains (x y : R) : option bool :=
    xi <- floor_int x ;; yi <- floor_int y ;; Some (dyn_contains (dyn_init (gm_w m) (gm_h m)) xi yi).

  (** MapManager.hpp:603-630, lookup(double, double, double, int, bool). [None]: an
      exception (or an undefined conversion). The chunks allocated before make no
      difference (PropVehicle.v). *)
  Definition v_lookup (x y th : R) (fwd : bool) : option vkey :=
    xi <- floor_int x ;; yi <- floor_int y ;; t <- angle2index clamp th ;;
    match fst (dyn_lookup (dyn_init (gm_w m) (gm_h m)) xi yi t fwd) with
    | Found _ => Some (xi, yi, t, fwd)
    | _ => None
    end.

  (** MapManager.hpp:686-708, isFreeOrUnknown(double, double, double, double), for a
      fresh Bresenham state (the state makes no difference, PropVehicle.v). The last test
      truncates the START coordinates. *)
  Definition v_line (sx sy ex ey : R) : option bool :=
    a <- floor_int (sx + 32) ;; b <- floor_int (sy + 32) ;; c <- floor_int (ex + 32) ;; d <- floor_int (ey + 32) ;;
    b1 <- setGrid (bres_new 0) m a b c d ;;
    l <- bwalk (seg_fuel a b c d) b1 ;;
    hit <- skip_scan (fun x y => f <- dyn_isFreeOrUnknown1 m x y ;; Some (negb f)) skips 0 l ;;
    if (hit : bool) then Some false
    else tx <- cast_i32 sx ;; ty <- cast_i32 sy ;; dyn_isFreeOrUnknown1 m tx ty.

  (** MapManager.hpp:747-755, isOccupied(const NodeType* ). *)
  Definition v_occupied (n : snode) : option bool :=
    tx <- cast_i32 (sn_x n) ;; ty <- cast_i32 (sn_y n) ;; dyn_isOccupied1 m tx ty.

  (** ** The neighbourhood *)
  Variable res : R.
  Variable advance : snode -> list snode -> Z -> Z -> adv.

  (** DynamicSteeringNeighborhood.h:311-353 and SteeringNeighborhood.hpp:293-343, one turn
      of the loops; the cost is scaled as in SearchAlgorithm.hpp:633-634. *)
  Definition v_offer (ref : snode) (prevs : list snode) (mv : Z * Z) : option (option (vkey * R * snode)) :=
    match advance ref prevs (fst mv) (snd mv) with
    | AUndef => None
    | AReject => Some None
    | AMove cost n =>
        if Rltb cost 0 then Some None else
        inside <- v_contains (sn_x n) (sn_y n) ;;
        if negb inside then Some None else
        free <- v_line (sn_x ref) (sn_y ref) (sn_x n) (sn_y n) ;;
        if negb free then Some None else
        v <- v_lookup (sn_x n) (sn_y n) (sn_th n) (sn_fwd n) ;;
        Some (Some (v, cost * res, n))
    end.

  (** for(i = lo; i < hi; ++i) for(step = 0; step <= steps; ++step). *)
  Definition v_moves (lo hi : Z) (steps : nat) : list (Z * Z) :=
    flat_map (fun i => map (fun s => (lo + Z.of_nat i, Z.of_nat s)%Z) (seq 0 (S steps))) (seq 0 (Z.to_nat (hi - lo))).

  (** ** Start and goal *)
  (** MapManager.hpp:446-466, SteeringNode.hpp:29-35, Common.hpp:147-149: a node after its
      chunk was allocated. *)
  Definition v_node0 (v : vkey) : snode :=
    let '(x, y, t, _) := v in SN (IZR x) (IZR y) (- PI + 2 * PI / 32 * IZR t) true 0 (Some 0%Z) 0.

  Definition v_upd (pay : vkey -> snode) (v : vkey) (n : snode) : vkey -> snode :=
    fun w => if vkey_eqb w v then n else pay w.
  Definition set_fwd (f : bool) (n : snode) : snode := SN (sn_x n) (sn_y n) (sn_th n) f (sn_steer n) (sn_custom n) (sn_depth n).
  Definition set_th (th : R) (n : snode) : snode := SN (sn_x n) (sn_y n) th (sn_fwd n) (sn_steer n) (sn_custom n) (sn_depth n).

  (** Common.hpp:152-173, getPoses: SteeringNode::init (SteeringNode.hpp:18-25) sets the
      heading of the temporary node to 0, whatever the pose. *)
  Definition v_poses (x y : R) (pay : vkey -> snode) : option (list vkey * (vkey -> snode)) :=
    f <- v_lookup x y 0 true ;;
    let p1 := v_upd pay f (set_fwd true (pay f)) in
    r <- v_lookup x y 0 false ;;
    Some ([f; r], v_upd p1 r (set_fwd false (p1 r))).

  (** SearchAlgorithm.hpp:466-483 and 549-564: the nodes that are not occupied get the
      heading of the pose and are start or goal nodes. *)
  Fixpoint v_init (th : R) (l : list vkey) (pay : vkey -> snode) : option (list vkey * (vkey -> snode)) :=
    match l with
    | [] => Some ([], pay)
    | v :: r =>
        occ <- v_occupied (pay v) ;;
        if (occ : bool) then v_init th r pay
        else
          q <- v_init th r (v_upd pay v (set_th th (pay v))) ;; Some (v :: fst q, snd q)
    end.

  (** ** findPath *)
  Variable moves : list (Z * Z).
  Variable reach : nat.
  Variable hval : snode -> snode -> R.
  Variable tot : R -> R -> R.
  Variable isgoal : snode -> snode -> option snode -> option bool.
  Variable push : (vkey -> R) -> vkey -> list vkey -> list vkey.
  Variable pop : (vkey -> R) -> list vkey -> option (vkey * list vkey).

  (** The start nodes, the goal nodes and the contents of the nodes when the search
      begins (SearchAlgorithm.hpp:330-341); the poses are (x, y, theta). *)
  Definition v_begin (from to : R * R * R) : option (list vkey * list vkey * (vkey -> snode)) :=
    let '(x, y, th) := from in let '(gx, gy, gth) := to in
    a <- v_poses x y v_node0 ;; s <- v_init th (fst a) (snd a) ;;
    b <- v_poses gx gy (snd s) ;; g <- v_init gth (fst b) (snd b) ;;
    Some (fst s, fst g, snd g).

  (** SearchAlgorithm.hpp:208-220, 330-341: the nodes of the returned path. *)
  Definition v_find (rev_search : bool) (timeout : nat -> bool) (bf fuel : nat) (from to : R * R * R) : vres vkey snode :=
    match v_begin (if rev_search then to else from) (if rev_search then from else to) with
    | None => VUndef _ _
    | Some (start, goals, pay) =>
        match fst (vrun vkey snode (Z * Z) vkey_eqb moves reach v_offer hval tot isgoal push pop start goals timeout bf fuel pay) with
        | VPath _ _ p => VPath _ _ (if rev_search then rev p else p)
        | r => r
        end
    end.
End Model.

(** ** The two neighbourhoods *)
(** DynamicSteeringNeighborhood.h: the static variables. *)
Record dopts := DO { do_fwd : bool; do_back : bool; do_steps : nat; do_dist : R; do_ang : R }.
(** DynamicSteeringNeighborhood.h:315-316. *)
Definition d_moves (o : dopts) : list (Z * Z) := v_moves (if do_fwd o then 0 else 3) (if do_back o then 6 else 3) (do_steps o).
Definition d_find (clamp : R -> R) (m : gridmap) (skips : Z) (p : sparams) (so : sopts) (o : dopts)
    (hval : snode -> snode -> R) (tot : R -> R -> R) (push : (vkey -> R) -> vkey -> list vkey -> list vkey)
    (pop : (vkey -> R) -> list vkey -> option (vkey * list vkey)) :=
  v_find clamp m skips (sp_res p) (d_advance clamp p so) (d_moves o) 0 hval tot
    (fun g r _ => Some (d_isGoal (sp_res p) (do_dist o) (do_ang o) g r)) push pop (sp_rev p).
(** SteeringNeighborhood.hpp:296-297; [size] is SIZE (3 forward, 6 both directions). *)
Definition s_find (clamp : R -> R) (m : gridmap) (skips : Z) (p : sparams) (so : sopts) (size : Z) (steps : nat) (distance : Z)
    (hval : snode -> snode -> R) (tot : R -> R -> R) (push : (vkey -> R) -> vkey -> list vkey -> list vkey)
    (pop : (vkey -> R) -> list vkey -> option (vkey * list vkey)) :=
  v_find clamp m skips (sp_res p) (s_advance clamp p so) (v_moves 0 size steps) (Z.to_nat (sp_sds p - 1)) hval tot
    (s_isGoal p distance) push pop (sp_rev p).
(** MapManager.hpp:538-540, setMap: bresenham_skips. *)
Definition skips_of (res : R) : option Z := cast_i32 (/ 2 / res).
