(** Model of the area classes of I/common/GridMap2d.h and of RobotArea
    (I/common/CollisionGridMap2d.h), and of the area functions of
    S/common/GridMap2d.cpp. *)
From Verif Require Import Base GridMap.

(** The four subclasses of MapArea2d.
    - [ACircle] GridMap2d.h:257-337 (cells_ relative to the centre, counter_, value_),
    - [ABuffer] GridMap2d.h:345-389 (CircleArea plus values_),
    - [ALine]   GridMap2d.h:398-451,
    - [ARobot]  CollisionGridMap2d.h:53-91 (position, init_ flag, idx). *)
Inductive area :=
| ACircle (cells : list (Z * Z)) (cx cy : Z) (value : Z) (counter : nat)
| ABuffer (cells : list (Z * Z)) (cx cy : Z) (values : list Z) (counter : nat)
| ALine (cells : list (Z * Z)) (value : Z) (counter : nat)
| ARobot (cells : list (Z * Z)) (px py : Z) (init : bool) (idx : Z).

Definition area_cells (a : area) : list (Z * Z) :=
  match a with
  | ACircle c _ _ _ _ | ABuffer c _ _ _ _ | ALine c _ _ | ARobot c _ _ _ _ => c
  end.

(** Displacement of the stored cells. *)
Definition area_pos (a : area) : Z * Z :=
  match a with
  | ACircle _ cx cy _ _ | ABuffer _ cx cy _ _ => (cx, cy)
  | ALine _ _ _ => (0, 0)
  | ARobot _ px py _ _ => (px, py)
  end.

(** begin(): GridMap2d.h:294-295, 423-424; CollisionGridMap2d.cpp:100-104
    (the assertion failing is modelled as [None]). *)
Definition abegin (a : area) : option area :=
  match a with
  | ACircle c cx cy v _ => Some (ACircle c cx cy v 0)
  | ABuffer c cx cy vs _ => Some (ABuffer c cx cy vs 0)
  | ALine c v _ => Some (ALine c v 0)
  | ARobot c px py i _ => if i then Some (ARobot c px py i (-1)) else None
  end.

(** next(): GridMap2d.h:297-303, 426-432; CollisionGridMap2d.cpp:110-112. *)
Definition anext (a : area) : bool * area :=
  match a with
  | ACircle c cx cy v n =>
      if Nat.ltb n (length c) then (true, ACircle c cx cy v (S n)) else (false, a)
  | ABuffer c cx cy vs n =>
      if Nat.ltb n (length c) then (true, ABuffer c cx cy vs (S n)) else (false, a)
  | ALine c v n => if Nat.ltb n (length c) then (true, ALine c v (S n)) else (false, a)
  | ARobot c px py i idx =>
      (idx + 1 <? Z.of_nat (length c), ARobot c px py i (idx + 1))
  end.

(** Current index into [cells_]. *)
Definition aindex (a : area) : option nat :=
  match a with
  | ACircle _ _ _ _ n | ABuffer _ _ _ _ n | ALine _ _ n => Some n
  | ARobot _ _ _ _ idx => if idx <? 0 then None else Some (Z.to_nat idx)
  end.

(** getCell(): GridMap2d.h:305-308, 434-437; CollisionGridMap2d.cpp:119-124.
    [None]: index outside [cells_] (UB). *)
Definition agetCell (a : area) : option (Z * Z) :=
  n <- aindex a ;; c <- nth_error (area_cells a) n ;;
  Some (fst c + fst (area_pos a), snd c + snd (area_pos a)).

(** getValue(): GridMap2d.h:310-311, 374-376, 439-440; CollisionGridMap2d.cpp:130-131. *)
Definition agetValue (a : area) : option Z :=
  match a with
  | ACircle _ _ _ v _ | ALine _ v _ => Some v
  | ABuffer _ _ _ vs n => nth_error vs n
  | ARobot _ _ _ _ _ => Some 0
  end.

(** setValue(): GridMap2d.h:57-58 (no-op), 382-384 (buffer), CollisionGridMap2d.cpp:137-138. *)
Definition asetValue (a : area) (v : Z) : option area :=
  match a with
  | ABuffer c cx cy vs n => vs' <- list_set vs n v ;; Some (ABuffer c cx cy vs' n)
  | _ => Some a
  end.

Section Loops.
  Variable m : gridmap.

  (** The loop shape shared by GridMap2d.cpp:36-103:
      [while (area.next()) { area.getCell(x,y); if (isInMap(x,y) && ...) ... }].
      [test x y = Some b] is the condition; the loop returns [hit] at the first
      cell satisfying it, else [miss].  [None]: UB, or fuel exhausted. *)
  Fixpoint scan (test : Z -> Z -> option bool) (hit miss : bool) (fuel : nat) (a : area) : option bool :=
    match fuel with
    | O => None
    | S n =>
        match anext a with
        | (false, _) => Some miss
        | (true, a') =>
            c <- agetCell a' ;;
            t <- (if isInMap m (fst c) (snd c) then test (fst c) (snd c) else Some false) ;;
            if t then Some hit else scan test hit miss n a'
        end
    end.

  Definition onot (o : option bool) : option bool := b <- o ;; Some (negb b).

  Definition afuel (a : area) : nat := S (S (length (area_cells a))).

  (** GridMap2d.cpp:69-79. *)
  Definition isAreaFree (a : area) : option bool :=
    a0 <- abegin a ;; scan (fun x y => onot (isFree m x y)) false true (afuel a) a0.

  (** GridMap2d.cpp:81-91 (returns false at the first cell WITHOUT information). *)
  Definition isAreaNoInformation (a : area) : option bool :=
    a0 <- abegin a ;; scan (fun x y => isNoInformation m x y) false true (afuel a) a0.

  (** GridMap2d.cpp:93-103. *)
  Definition isAreaOccupied (a : area) : option bool :=
    a0 <- abegin a ;; scan (fun x y => isOccupied m x y) true false (afuel a) a0.
End Loops.

(** GridMap2d.cpp:36-56, setAreaValue; [val a] is the value written for the
    selected cell ([area.getValue()] or the constant argument). *)
Fixpoint write_loop (val : area -> option Z) (fuel : nat) (m : gridmap) (a : area) : option gridmap :=
  match fuel with
  | O => None
  | S n =>
      match anext a with
      | (false, _) => Some m
      | (true, a') =>
          c <- agetCell a' ;;
          m' <- (if isInMap m (fst c) (snd c)
                 then v <- val a' ;; setValue m (fst c) (snd c) v else Some m) ;;
          write_loop val n m' a'
      end
  end.
Definition setAreaValue (m : gridmap) (a : area) : option gridmap :=
  a0 <- abegin a ;; write_loop agetValue (afuel a) m a0.
Definition setAreaConst (m : gridmap) (a : area) (v : Z) : option gridmap :=
  a0 <- abegin a ;; write_loop (fun _ => Some v) (afuel a) m a0.

(** GridMap2d.cpp:58-67, getAreaValues; the final area state is returned. *)
Fixpoint read_loop (m : gridmap) (fuel : nat) (a : area) : option area :=
  match fuel with
  | O => None
  | S n =>
      match anext a with
      | (false, a') => Some a'
      | (true, a') =>
          c <- agetCell a' ;;
          a'' <- (if isInMap m (fst c) (snd c)
                  then v <- getValue m (fst c) (snd c) ;; asetValue a' v else Some a') ;;
          read_loop m n a''
      end
  end.
Definition getAreaValues (m : gridmap) (a : area) : option area :=
  a0 <- abegin a ;; read_loop m (afuel a) a0.

(** GridMap2d.cpp:183-193, addHorizontalLine: cells (x,y), x from min to max. *)
Definition hline (y x0 x1 : Z) : list (Z * Z) :=
  let lo := if x0 >? x1 then x1 else x0 in
  let hi := if x0 >? x1 then x0 else x1 in
  map (fun k => (lo + Z.of_nat k, y)) (seq 0 (Z.to_nat (hi - lo + 1))).

(** GridMap2d.cpp:156-176: the midpoint loop of CircleArea::init, state
    (x, y, f, ddF_x, ddF_y); structural on [fuel], which the caller sets to
    the number of iterations [cell_radius]. *)
Fixpoint circle_loop (fuel : nat) (r x y f ddx ddy : Z) : list (Z * Z) :=
  match fuel with
  | O => []
  | S n =>
      if x <? r then
        let y' := if f >=? 0 then y - 1 else y in
        let ddy' := if f >=? 0 then ddy + 2 else ddy in
        let f' := if f >=? 0 then f + ddy' else f in
        let x' := x + 1 in
        let ddx' := ddx + 2 in
        let f'' := f' + ddx' in
        hline x' (- y') y' ++ hline (- x') (- y') y' ++ circle_loop n r x' y' f'' ddx' ddy'
      else []
  end.

(** GridMap2d.cpp:133-181, CircleArea::init: cells for an integer cell radius
    [r = (int)(radius / resolution)] with [radius > resolution]. *)
Definition circle_cells (r : Z) : list (Z * Z) :=
  hline 0 (- r) (0 + r) ++ circle_loop (Z.to_nat r) r 0 r (1 - r) 1 (-2 * r).

(** GridMap2d.cpp:241-253, the Bresenham loop of LineArea::set, including the
    start cell. *)
Fixpoint line_loop (fuel : nat) (x0 y0 x1 y1 dx dy sx sy err : Z) : option (list (Z * Z)) :=
  match fuel with
  | O => None
  | S n =>
      if (x0 =? x1) && (y0 =? y1) then Some [(x0, y0)]
      else
        let e2 := 2 * err in
        let err1 := if e2 >? dy then err + dy else err in
        let x0' := if e2 >? dy then x0 + sx else x0 in
        let err2 := if e2 <? dx then err1 + dx else err1 in
        let y0' := if e2 <? dx then y0 + sy else y0 in
        l <- line_loop n x0' y0' x1 y1 dx dy sx sy err2 ;; Some ((x0, y0) :: l)
  end.
Definition line_cells (x0 y0 x1 y1 : Z) : option (list (Z * Z)) :=
  let dx := Z.abs (x1 - x0) in let dy := - Z.abs (y1 - y0) in
  line_loop (S (Z.to_nat (Z.max (Z.abs (x1 - x0)) (Z.abs (y1 - y0))))) x0 y0 x1 y1 dx dy
    (if x0 <? x1 then 1 else -1) (if y0 <? y1 then 1 else -1) (dx + dy).
