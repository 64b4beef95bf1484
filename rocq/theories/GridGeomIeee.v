(** Model of the conversions of I/common/SimpleGridMap2d.h and S/common/MapMath.cpp in
    IEEE binary64 (GridGeom.v: the same in exact arithmetic). *)
From Flocq Require Import BinarySingleNaN.
From Verif Require Import Base AStarFloat.

Definition dsub : b64 -> b64 -> b64 := @Bminus 53 1024 p64 l64 mode_NE.
Definition ddiv : b64 -> b64 -> b64 := @Bdiv 53 1024 p64 l64 mode_NE.
(** 0.5 *)
Definition dhalf : b64 := ddiv (d_of_Z 1) (d_of_Z 2).

(** SimpleGridMap2d.h:186-210. *)
Record dgeo := DGeo { dg_w : Z; dg_h : Z; dg_res : b64; dg_ox : b64; dg_oy : b64 }.

(** (unsigned int)d; [None]: undefined, the truncated value is not representable. *)
Definition d_to_u32 (d : b64) : option Z :=
  let z := Btrunc d in if is_finite d && (0 <=? z) && (z <? 4294967296) then Some z else None.

(** One coordinate: SimpleGridMap2d.h:149-150, 157-158, 179 and MapMath.cpp:17-18. *)
Definition d_to_map (o res p : b64) : b64 := ddiv (dsub p o) res.
(** SimpleGridMap2d.h:171-172, MapMath.cpp:23-24. *)
Definition d_to_pos (o res m : b64) : b64 := dadd (dmul res m) o.
(** SimpleGridMap2d.h:166-167; [x + 0.5] converts the unsigned x (exactly). *)
Definition d_centre (o res : b64) (x : Z) : b64 := d_to_pos o res (dadd (d_of_Z x) dhalf).

(** SimpleGridMap2d.h:175-176. *)
Definition d_inMapI (g : dgeo) (x y : Z) : bool :=
  negb ((x <? 0) || (y <? 0) || (x >=? i32 (dg_w g)) || (y >=? i32 (dg_h g))).
(** SimpleGridMap2d.h:148-155. *)
Definition d_point2cell (g : dgeo) (p : b64 * b64) : option (Z * Z * bool) :=
  x <- d_to_u32 (d_to_map (dg_ox g) (dg_res g) (fst p)) ;;
  y <- d_to_u32 (d_to_map (dg_oy g) (dg_res g) (snd p)) ;;
  Some (x, y, d_inMapI g (i32 x) (i32 y)).
(** SimpleGridMap2d.h:165-168. *)
Definition d_cell2point (g : dgeo) (x y : Z) : b64 * b64 :=
  (d_centre (dg_ox g) (dg_res g) x, d_centre (dg_oy g) (dg_res g) y).
(** SimpleGridMap2d.h:178-179; the unsigned operand is converted to double. *)
Definition d_isInMap (g : dgeo) (p : b64 * b64) : bool :=
  Bltb (d_to_map (dg_ox g) (dg_res g) (fst p)) (d_of_Z (dg_w g)) &&
  Bltb (d_to_map (dg_oy g) (dg_res g) (snd p)) (d_of_Z (dg_h g)).
(** MapMath.cpp:15-19, 21-25. *)
Definition d_pos2map (g : dgeo) (p : b64 * b64) : b64 * b64 :=
  (d_to_map (dg_ox g) (dg_res g) (fst p), d_to_map (dg_oy g) (dg_res g) (snd p)).
Definition d_map2pos (g : dgeo) (m : b64 * b64) : b64 * b64 :=
  (d_to_pos (dg_ox g) (dg_res g) (fst m), d_to_pos (dg_oy g) (dg_res g) (snd m)).
