(** Model of S/common/Bresenham2d.cpp and I/common/Bresenham2d.h. *)
From Verif Require Import Base GridMap.

(** Bresenham2d.h:97-115.  [b_map = None]: the pointer has never been set
    (the constructor does not initialise it). *)
Record bres := Bres {
  b_map : option gridmap;
  b_x0 : Z; b_y0 : Z; b_x1 : Z; b_y1 : Z;
  b_x : Z; b_y : Z;
  b_dx : Z; b_dy : Z; b_sx : Z; b_sy : Z; b_err : Z }.

(** Checked [int] arithmetic: [None] is signed overflow (UB). *)
Definition chk (z : Z) : option Z := if in_i32 z then Some z else None.

(** Bresenham2d.cpp:12-15.  The C++ leaves [dx_..err_] uninitialised;
    the parameter [junk] stands for their arbitrary contents. *)
Definition bres_new (junk : Z) : bres := Bres None 0 0 0 0 0 0 junk junk junk junk junk.

(** Bresenham2d.cpp:35-41 / 58-64: initialisation of the error terms from two
    cells, shared by [set] and [setGrid]. *)
Definition bres_start (m : gridmap) (xs ys xe ye : Z) : option bres :=
  ddx <- chk (xe - xs) ;; ddy <- chk (ye - ys) ;;
  adx <- chk (Z.abs ddx) ;; ady <- chk (Z.abs ddy) ;;
  err <- chk (adx + - ady) ;;
  Some (Bres (Some m) xs ys xe ye xs ys
             adx (- ady)
             (if xs <? xe then 1 else -1) (if ys <? ye then 1 else -1) err).

(** Bresenham2d.cpp:47-50: an end point outside the map zeroes the cell
    coordinates and leaves everything else, including the map pointer. *)
Definition bres_zero (b : bres) : bres :=
  Bres (b_map b) 0 0 0 0 0 0 (b_dx b) (b_dy b) (b_sx b) (b_sy b) (b_err b).

(** Bresenham2d.cpp:44-65, setGrid. *)
Definition setGrid (b : bres) (m : gridmap) (xs ys xe ye : Z) : option bres :=
  if negb (isInMap m xs ys) || negb (isInMap m xe ye) then Some (bres_zero b)
  else bres_start m xs ys xe ye.

(** Bresenham2d.cpp:67-77, next; result is the returned bool and the new state. *)
Definition bnext (b : bres) : option (bool * bres) :=
  if (b_x b =? b_x1 b) && (b_y b =? b_y1 b) then Some (false, b)
  else
    e2 <- chk (2 * b_err b) ;;
    p1 <- (if e2 >? b_dy b
           then er <- chk (b_err b + b_dy b) ;; x <- chk (b_x b + b_sx b) ;; Some (er, x)
           else Some (b_err b, b_x b)) ;;
    p2 <- (if e2 <? b_dx b
           then er <- chk (fst p1 + b_dx b) ;; y <- chk (b_y b + b_sy b) ;; Some (er, y)
           else Some (fst p1, b_y b)) ;;
    Some (true, Bres (b_map b) (b_x0 b) (b_y0 b) (b_x1 b) (b_y1 b)
                     (snd p1) (snd p2) (b_dx b) (b_dy b) (b_sx b) (b_sy b) (fst p2)).

(** Bresenham2d.h:65-67, coordinates. *)
Definition bcoords (b : bres) : Z * Z := (b_x b, b_y b).

(** Bresenham2d.h:72-95, value()/isFree()/isOccupied()/isNoInformation(): use
    the stored map pointer ([None] if never set: UB). *)
Definition bval (b : bres) : option Z := m <- b_map b ;; getValue m (b_x b) (b_y b).
Definition bfree (b : bres) : option bool := m <- b_map b ;; isFree m (b_x b) (b_y b).
Definition bocc (b : bres) : option bool := m <- b_map b ;; isOccupied m (b_x b) (b_y b).
Definition bnoinfo (b : bres) : option bool := m <- b_map b ;; isNoInformation m (b_x b) (b_y b).

(** The client loop [while (b.next()) visit(b)] (MapManager.hpp:90-96,
    LineSegment.cpp): the states visited after each successful [next].
    [None]: UB or out of fuel. *)
Fixpoint bwalk (fuel : nat) (b : bres) : option (list bres) :=
  match fuel with
  | O => None
  | S n =>
      r <- bnext b ;;
      match r with
      | (false, _) => Some []
      | (true, b') => l <- bwalk n b' ;; Some (b' :: l)
      end
  end.
