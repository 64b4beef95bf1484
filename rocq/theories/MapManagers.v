(** Model of I/generic/MapManager.hpp: line checks, node index arithmetic and
    the chunked state space.  Coordinates are the integers obtained after the
    code's [std::floor]; angles enter as slot numbers (the slot computation
    itself is modelled over the reals in AngleSlots.v). *)
From Verif Require Import Base GridMap Bresenham.

(** MapManager.hpp:87-97 / 111-118: [while(bresenham.next()) if(!ok(x,y)) return false;
    return true].  The loop is run on the list of walked states. *)
Fixpoint all_ok (ok : Z -> Z -> option bool) (l : list bres) : option bool :=
  match l with
  | [] => Some true
  | b :: r => t <- ok (b_x b) (b_y b) ;; if t then all_ok ok r else Some false
  end.

Definition seg_fuel (xs ys xe ye : Z) : nat :=
  S (Z.to_nat (Z.max (Z.abs (xe - xs)) (Z.abs (ye - ys)))).

(** MapManager.hpp:76-98, Manager::isFree(sx,sy,ex,ey) on floored coordinates
    (assertions: a negative coordinate aborts, [None]).  Simplifications: the
    angle argument is dropped because GridMap2d::isFree(x,y,theta) ignores it
    (S/common/GridMap2d.cpp:23-26) and only that overload is virtual-dispatched;
    the lazy loop is run on the complete walk, which is total for the same
    inputs (line_walk). *)
Definition mgr_isFree (b : bres) (m : gridmap) (sx sy ex ey : Z) : option bool :=
  if (sx <? 0) || (sy <? 0) || (ex <? 0) || (ey <? 0) then None else
  b1 <- setGrid b m sx sy ex ey ;;
  l <- bwalk (seg_fuel sx sy ex ey) b1 ;;
  all_ok (fun x y => isFree m x y) l.

(** MapManager.hpp:100-119, Manager::isFreeOrUnknown. *)
Definition mgr_isFreeOrUnknown (b : bres) (m : gridmap) (sx sy ex ey : Z) : option bool :=
  if (sx <? 0) || (sy <? 0) || (ex <? 0) || (ey <? 0) then None else
  b1 <- setGrid b m sx sy ex ey ;;
  l <- bwalk (seg_fuel sx sy ex ey) b1 ;;
  all_ok (fun x y => n <- isNoInformation m x y ;; f <- isFree m x y ;; Some (negb (negb n && negb f))) l.

(** Result of a lookup: a node, the OutsideMapException, another escaping
    exception (std::out_of_range from vector::at), or UB. *)
Inductive lres (A : Type) := Found (a : A) | Outside | OutOfRange | LUB.
Arguments Found {A} _. Arguments Outside {A}. Arguments OutOfRange {A}. Arguments LUB {A}.

(** MapManager.hpp:198-200, GridMapManager::index (unsigned arithmetic). *)
Definition grid_index (w x y : Z) : Z := u32 (u32 (u32 y * w) + u32 x).

(** MapManager.hpp:212-217, GridMapManager::lookup(int,int); [size] is the
    number of allocated nodes ([new NodeType[w*h]], line 189). *)
Definition grid_lookup (w h size x y : Z) : lres Z :=
  if (x <? 0) || (y <? 0) || (x >=? i32 w) || (y >=? i32 h) then Outside
  else let i := grid_index w x y in if i <? size then Found i else LUB.

(** MapManager.hpp:375-382, DirectionalStateSpaceManager::index;
    [theta_slots = 32] (line 345), [dimension = w*h*theta_slots] (349). *)
Definition dir_index (w h slots x y t : Z) (fwd : bool) : lres Z :=
  if (x <? 0) || (y <? 0) || (x >=? i32 w) || (y >=? i32 h) || (t <? 0) || (t >=? i32 slots) then Outside
  else Found (u32 (y * w + x + t * w * h + (if fwd then 0 else u32 (w * h * slots)))).

(** MapManager.hpp:401-407, lookup; [size] allocated nodes ([2*dimension]). *)
Definition dir_lookup (w h slots size x y t : Z) (fwd : bool) : lres Z :=
  match dir_index w h slots x y t fwd with
  | Found i => if i <? size then Found i else LUB
  | r => r
  end.

(** ** DynamicDirectionalStateSpaceManager *)

(** MapManager.hpp:441-510: a chunk is determined by its origin (ox, oy); the
    nodes it holds are identified by (slot of the chunk, index in the chunk). *)
Record dyn := Dyn {
  dy_w : Z; dy_h : Z;
  dy_cw : Z; dy_ch : Z;            (* chunks_w, chunks_h *)
  dy_chunks : list (option (Z * Z)) (* null or the chunk's origin *) }.

Definition chunk_size : Z := 32.    (* MapManager.hpp:516 *)
Definition dyn_slots : Z := 32.     (* theta_slots, 517 *)
Definition padding : Z := 32.       (* 521-522 *)

(** MapManager.hpp:573-588, initMap. *)
Definition dyn_init (w h : Z) : dyn :=
  let cw := (w + 2 * padding) / chunk_size + 1 in
  let ch := (h + 2 * padding) / chunk_size + 1 in
  Dyn w h cw ch (repeat None (Z.to_nat (cw * ch))).

(** MapManager.hpp:645-650, contains. *)
Definition dyn_contains (s : dyn) (x y : Z) : bool :=
  negb ((x <? - padding) || (y <? - padding) || (x >=? dy_w s + padding) || (y >=? dy_h s + padding)).

(** MapManager.hpp:472-480, Chunk::chunk_index. *)
Definition chunk_index (ox oy mx my t : Z) (fwd : bool) : lres Z :=
  let cx := mx - ox in let cy := my - oy in
  if (cx <? 0) || (cy <? 0) || (cx >=? chunk_size) || (cy >=? chunk_size) then Outside
  else Found (cx + cy * chunk_size + t * chunk_size * chunk_size
              + (if fwd then 0 else chunk_size * chunk_size * dyn_slots)).

(** MapManager.hpp:613-616: [x / 32] truncates, minus one if negative. *)
Definition chunk_coord (x : Z) : Z := Z.quot x chunk_size - (if x <? 0 then 1 else 0).

(** MapManager.hpp:609-630, lookup(int,int,unsigned,int,bool).  The slot index
    [cyp * chunks_w + cxp] is a size_t: a negative value is a huge index and
    [chunks.at] throws std::out_of_range. *)
Definition dyn_lookup (s : dyn) (x y t : Z) (fwd : bool) : lres (Z * Z) * dyn :=
  if (x <? - padding) || (y <? - padding) || (x >=? dy_w s + padding) || (y >=? dy_h s + padding)
     || (t <? 0) || (t >=? dyn_slots) then (Outside, s)
  else
    let cx := chunk_coord x in let cy := chunk_coord y in
    let slot := (cy + 1) * dy_cw s + (cx + 1) in
    if slot <? 0 then (OutOfRange, s)
    else
      match nth_error (dy_chunks s) (Z.to_nat slot) with
      | None => (OutOfRange, s)
      | Some c =>
          let '(ox, oy) := match c with Some o => o | None => (cx * chunk_size, cy * chunk_size) end in
          let s' := match list_set (dy_chunks s) (Z.to_nat slot) (Some (ox, oy)) with
                    | Some l => Dyn (dy_w s) (dy_h s) (dy_cw s) (dy_ch s) l
                    | None => s
                    end in
          (match chunk_index ox oy x y t fwd with
           | Found i => Found (slot, i)
           | Outside => Outside | OutOfRange => OutOfRange | LUB => LUB
           end, s')
      end.

(** MapManager.hpp:633-642, hasNode: no padding shift; [x / chunk_size] is an
    unsigned division. *)
Definition dyn_hasNode (s : dyn) (x y t : Z) : lres bool :=
  if (x <? - padding) || (y <? - padding) || (x >=? dy_w s + padding) || (y >=? dy_h s + padding)
     || (t <? 0) || (t >=? dyn_slots) then Outside
  else
    let cx := i32 (u32 x / chunk_size) in let cy := i32 (u32 y / chunk_size) in
    let slot := (cy * dy_cw s + cx) in
    match nth_error (dy_chunks s) (Z.to_nat slot) with
    | None => OutOfRange
    | Some c => Found (match c with Some _ => true | None => false end)
    end.

(** A history of lookups. *)
Definition dyn_run (s : dyn) (ops : list (Z * Z * Z * bool)) : dyn :=
  fold_left (fun s '(x, y, t, f) => snd (dyn_lookup s x y t f)) ops s.

(** MapManager.hpp:734-755, single-cell tests of the dynamic manager. *)
Definition dyn_out (m : gridmap) (x y : Z) : bool :=
  (x <? 0) || (y <? 0) || (x >=? i32 (gm_w m)) || (y >=? i32 (gm_h m)).
Definition dyn_isFree1 (m : gridmap) (x y : Z) : option bool :=
  if dyn_out m x y then Some false else isFree m x y.
Definition dyn_isFreeOrUnknown1 (m : gridmap) (x y : Z) : option bool :=
  if dyn_out m x y then Some true else o <- isOccupied m x y ;; Some (negb o).
Definition dyn_isOccupied1 (m : gridmap) (x y : Z) : option bool :=
  if dyn_out m x y then Some false else isOccupied m x y.

(** MapManager.hpp:668-681 etc.: the loop with the skip counter; [stop b] is
    the condition of the early return.  Result [Some true]: early return taken. *)
Fixpoint skip_scan (test : Z -> Z -> option bool) (skips : Z) (skip : Z) (l : list bres) : option bool :=
  match l with
  | [] => Some false
  | b :: r =>
      t <- (if skip =? 0
            then test (i32 (u32 (b_x b - padding))) (i32 (u32 (b_y b - padding))) else Some false) ;;
      if t then Some true
      else skip_scan test skips (if skip + 1 >? skips then 0 else skip + 1) r
  end.

(** MapManager.hpp:663-684, isFree over a segment with cell end points
    (simplification: end points given as integers, so [floor(s+padding)] is
    [s+padding] and the truncating cast of line 683 is exact). *)
Definition dyn_isFree (b : bres) (m : gridmap) (skips sx sy ex ey : Z) : option bool :=
  b1 <- setGrid b m (sx + padding) (sy + padding) (ex + padding) (ey + padding) ;;
  l <- bwalk (seg_fuel sx sy ex ey) b1 ;;
  hit <- skip_scan (fun x y => f <- dyn_isFree1 m x y ;; Some (negb f)) skips 0 l ;;
  if hit then Some false else dyn_isFree1 m ex ey.

(** MapManager.hpp:686-708, isFreeOrUnknown: finally tests the START cell. *)
Definition dyn_isFreeOrUnknown (b : bres) (m : gridmap) (skips sx sy ex ey : Z) : option bool :=
  b1 <- setGrid b m (sx + padding) (sy + padding) (ex + padding) (ey + padding) ;;
  l <- bwalk (seg_fuel sx sy ex ey) b1 ;;
  hit <- skip_scan (fun x y => f <- dyn_isFreeOrUnknown1 m x y ;; Some (negb f)) skips 0 l ;;
  if hit then Some false else dyn_isFreeOrUnknown1 m sx sy.

(** MapManager.hpp:711-732, isOccupied over a segment. *)
Definition dyn_isOccupied (b : bres) (m : gridmap) (skips sx sy ex ey : Z) : option bool :=
  b1 <- setGrid b m (sx + padding) (sy + padding) (ex + padding) (ey + padding) ;;
  l <- bwalk (seg_fuel sx sy ex ey) b1 ;;
  hit <- skip_scan (fun x y => dyn_isOccupied1 m x y) skips 0 l ;;
  if hit then Some true else dyn_isOccupied1 m ex ey.
