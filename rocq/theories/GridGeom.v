(** Geometry of I/common/SimpleGridMap2d.h and I/common/RotatedGridMap2d.h:
    conversions between world points and cells, over the reals. *)
From Coq Require Import Reals Lra.
From Flocq Require Import Core.Raux.
From Verif Require Import Base GridMap GeomR.
Local Open Scope R_scope.

(** SimpleGridMap2d.h:186-199, the members the conversions use. *)
Record geo := Geo {
  g_w : Z; g_h : Z;      (* width_, height_: unsigned int *)
  g_res : R;             (* res_ *)
  g_o : pt;              (* origin_ *)
  g_yaw : R              (* RotatedGridMap2d.h:140, yaw_ (unused by the simple map) *)
}.

(** SimpleGridMap2d.h:175-176. *)
Definition inMapI (g : geo) (x y : Z) : bool :=
  negb ((x <? 0)%Z || (y <? 0)%Z || (x >=? i32 (g_w g))%Z || (y >=? i32 (g_h g))%Z).

(** *** SimpleGridMap2d *)
(** SimpleGridMap2d.h:118-121. *)
Definition s_getOrigin (g : geo) : pt := g_o g.
Definition s_setOrigin (g : geo) (p : pt) : geo := Geo (g_w g) (g_h g) (g_res g) p (g_yaw g).

(** SimpleGridMap2d.h:148-155: cell coordinates and the return value; [None] is
    the undefined double-to-unsigned conversion. [(int)x] of an unsigned. *)
Definition s_point2cell (g : geo) (p : pt) : option (Z * Z * bool) :=
  x <- cast_u32 ((px p - px (g_o g)) / g_res g) ;;
  y <- cast_u32 ((py p - py (g_o g)) / g_res g) ;;
  Some (x, y, inMapI g (i32 x) (i32 y)).
(** SimpleGridMap2d.h:156-163. *)
Definition s_point2cellSubPixel (g : geo) (p : pt) : option (pt * bool) :=
  let x := (px p - px (g_o g)) / g_res g in
  let y := (py p - py (g_o g)) / g_res g in
  ix <- cast_i32 x ;; iy <- cast_i32 y ;;
  Some (Pt x y, inMapI g ix iy).
(** SimpleGridMap2d.h:165-168. *)
Definition s_cell2point (g : geo) (x y : Z) : pt :=
  Pt (g_res g * (IZR x + / 2) + px (g_o g)) (g_res g * (IZR y + / 2) + py (g_o g)).
(** SimpleGridMap2d.h:170-173. *)
Definition s_cell2pointSubPixel (g : geo) (c : pt) : pt :=
  Pt (g_res g * px c + px (g_o g)) (g_res g * py c + py (g_o g)).
(** SimpleGridMap2d.h:178-179. *)
Definition s_isInMap (g : geo) (p : pt) : bool :=
  Rltb ((px p - px (g_o g)) / g_res g) (IZR (g_w g)) &&
  Rltb ((py p - py (g_o g)) / g_res g) (IZR (g_h g)).

(** *** RotatedGridMap2d *)
(** RotatedGridMap2d.h:48-54. *)
Definition r_getOrigin (g : geo) : pt := g_o g.
Definition r_setOrigin (g : geo) (p : pt) : geo :=
  Geo (g_w g) (g_h g) (g_res g) (rotate p (- g_yaw g)) (g_yaw g).
(** RotatedGridMap2d.h:40-45, set(data,w,h,yaw): [origin_] stays as it is. *)
Definition r_set (g : geo) (w h : Z) (yaw : R) : geo := Geo w h (g_res g) (g_o g) yaw.
(** RotatedGridMap2d.h:72-89. *)
Definition r_point2cell (g : geo) (p : pt) : option (Z * Z * bool) :=
  let c := cos (- g_yaw g) in let s := sin (- g_yaw g) in
  let rx := c * px p - s * py p in
  let ry := s * px p + c * py p in
  x <- cast_u32 ((rx - px (g_o g)) / g_res g) ;;
  y <- cast_u32 ((ry - py (g_o g)) / g_res g) ;;
  Some (x, y, inMapI g (i32 x) (i32 y)).
(** RotatedGridMap2d.h:91-103 (and, with float instead of double, 56-69). *)
Definition r_cell2point (g : geo) (x y : Z) : pt :=
  let nx := g_res g * (IZR x + / 2) in let ny := g_res g * (IZR y + / 2) in
  let c := cos (g_yaw g) in let s := sin (g_yaw g) in
  let rx := nx + px (g_o g) in let ry := ny + py (g_o g) in
  Pt (c * rx - s * ry) (s * rx + c * ry).
(** RotatedGridMap2d.h:105-117. *)
Definition r_cell2pointSubPixel (g : geo) (q : pt) : pt :=
  let nx := g_res g * px q in let ny := g_res g * py q in
  let c := cos (g_yaw g) in let s := sin (g_yaw g) in
  let rx := nx + px (g_o g) in let ry := ny + py (g_o g) in
  Pt (c * rx - s * ry) (s * rx + c * ry).
(** point2cellSubPixel is not overridden in RotatedGridMap2d.h: the inherited
    function runs. *)
Definition r_point2cellSubPixel (g : geo) (p : pt) : option (pt * bool) := s_point2cellSubPixel g p.
(** RotatedGridMap2d.h:123-134: [None] is the undefined double-to-int conversion. *)
Definition r_isInMap (g : geo) (p : pt) : option bool :=
  let c := cos (- g_yaw g) in let s := sin (- g_yaw g) in
  ix <- cast_i32 (c * px p - s * py p) ;;
  iy <- cast_i32 (s * px p + c * py p) ;;
  Some ((ix >=? 0)%Z && (iy >=? 0)%Z && (ix <? i32 (g_w g))%Z && (iy <? i32 (g_h g))%Z).

(** S/common/MapMath.cpp:15-41. *)
Definition pos2map (g : geo) (p : pose) : pose :=
  Pose ((po_x p - px (g_o g)) / g_res g) ((po_y p - py (g_o g)) / g_res g) (po_th p).
Definition map2pos (g : geo) (p : pose) : pose :=
  Pose (g_res g * po_x p + px (g_o g)) (g_res g * po_y p + py (g_o g)) (po_th p).
