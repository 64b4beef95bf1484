(** Model of S/common/CollisionGridMap2d.cpp: the robot footprint tables and the
    orientation-dependent cell queries. Exact real arithmetic; Eigen's vectors and
    Rotation2D are plain 2-vectors and the rotation matrix. *)
From Coq Require Import Reals Lra.
From Flocq Require Import Core.Raux.
From Verif Require Import Base GridMap Areas GeomR.
Local Open Scope R_scope.

(** CollisionGridMap2d.cpp:49-54: the inner loop, [n] iterations left. *)
Fixpoint col_loop (n : nat) (i_col inc_col : R) (left right : pt) : list pt :=
  match n with
  | O => []
  | S k => padd left (pmul (psub right left) i_col) :: col_loop k (i_col + inc_col) inc_col left right
  end.
(** CollisionGridMap2d.cpp:44-57: the outer loop. *)
Fixpoint row_loop (n : nat) (i_row inc_row : R) (ncol : nat) (inc_col : R) (bl fl fr br : pt) : list pt :=
  match n with
  | O => []
  | S k =>
      let left := padd bl (pmul (psub fl bl) i_row) in
      let right := padd fr (pmul (psub br fr) i_row) in
      col_loop ncol 0 inc_col left right
      ++ row_loop k (i_row + inc_row) inc_row ncol inc_col bl fl fr br
  end.
(** CollisionGridMap2d.cpp:20-57 (width > 0, forward > backward: otherwise the
    divisions yield infinities). *)
Definition samples (forward backward width theta : R) : list pt :=
  let hw := width / 2 in
  let fr := rotate (Pt forward (- hw)) theta in
  let fl := rotate (Pt forward hw) theta in
  let br := rotate (Pt backward (- hw)) theta in
  let bl := rotate (Pt backward hw) theta in
  let m_per_step := width / 8 in
  let steps_row := Zceil (width / m_per_step) in
  let steps_col := Zceil ((forward - backward) / m_per_step) in
  row_loop (Z.to_nat (steps_row + 1)) 0 (1 / IZR steps_row) (Z.to_nat (steps_col + 1)) (1 / IZR steps_col) bl fl fr br.
(** CollisionGridMap2d.h:83-85, Cell(v): double to int. *)
Definition cell_of_pt (p : pt) : option (Z * Z) :=
  x <- cast_i32 (px p) ;; y <- cast_i32 (py p) ;; Some (x, y).
Fixpoint omap {A B} (f : A -> option B) (l : list A) : option (list B) :=
  match l with
  | [] => Some []
  | a :: r => b <- f a ;; bs <- omap f r ;; Some (b :: bs)
  end.
Definition footprint_cells (forward backward width theta : R) : option (list (Z * Z)) :=
  omap cell_of_pt (samples forward backward width theta).

(** CollisionGridMap2d.cpp:150-151. *)
Definition area_theta (t : Z) : R := 2 * PI * (IZR t / (128 + 1)).
(** CollisionGridMap2d.cpp:147-156: the cells of areas_[t]. *)
Definition area_table (res forward backward width : R) (t : Z) : option (list (Z * Z)) :=
  footprint_cells (forward / res) (backward / res) (width / res) (area_theta t).

(** CollisionGridMap2d.cpp:185-187 etc.: the two normalisation loops. *)
Fixpoint wrap_up (fuel : nat) (t : R) : option R :=
  match fuel with
  | O => None
  | S k => if Rlt_dec t 0 then wrap_up k (t + 2 * PI) else Some t
  end.
Fixpoint wrap_down (fuel : nat) (t : R) : option R :=
  match fuel with
  | O => None
  | S k => if Rle_dec (2 * PI) t then wrap_down k (t - 2 * PI) else Some t
  end.
Definition wrap (fuel : nat) (theta : R) : option R := t <- wrap_up fuel theta ;; wrap_down fuel t.
(** CollisionGridMap2d.cpp:190: [(int) round(t)] (C round: halves away from zero;
    t >= 0 here). *)
Definition area_index (t : R) : Z := Zfloor (t + / 2).

(** areas_[i]->setPosition(x,y): CollisionGridMap2d.cpp:85-90. [None]: index outside
    the array of 128 or undefined conversion while building the table. *)
Definition area_at (tab : Z -> option (list (Z * Z))) (i x y : Z) : option area :=
  if ((0 <=? i) && (i <? 128))%Z then cs <- tab i ;; Some (ARobot cs x y true 0) else None.

Section Queries.
  Variable m : gridmap.
  Variable tab : Z -> option (list (Z * Z)).
  Variable fuel : nat.
  (** CollisionGridMap2d.cpp:175-194. *)
  Definition isOccupiedRotated (x y : Z) (theta : R) : option bool :=
    if negb (isInMap m (i32 x) (i32 y)) then Some false else
    o <- isOccupied m x y ;;
    if (o : bool) then Some true else
    t <- wrap fuel theta ;; a <- area_at tab (area_index t) (i32 x) (i32 y) ;; isAreaOccupied m a.
  (** CollisionGridMap2d.cpp:196-211. *)
  Definition isFreeRotated (x y : Z) (theta : R) : option bool :=
    if negb (isInMap m (i32 x) (i32 y)) then Some false else
    f <- isFree m x y ;;
    if negb f then Some false else
    t <- wrap fuel theta ;; a <- area_at tab (area_index t) (i32 x) (i32 y) ;; isAreaFree m a.
  (** CollisionGridMap2d.cpp:214-232. *)
  Definition isNoInformationRotated (x y : Z) (theta : R) : option bool :=
    if negb (isInMap m (i32 x) (i32 y)) then Some false else
    o <- isOccupied m x y ;;
    if (o : bool) then Some false else
    t <- wrap fuel theta ;; a <- area_at tab (area_index t) (i32 x) (i32 y) ;; isAreaNoInformation m a.
End Queries.
