(** Model of the conversions of I/common/RotatedGridMap2d.h in IEEE binary64
    (GridGeom.v: the same in exact arithmetic).  [dcos], [dsin]: std::cos and
    std::sin of double; products and sums are rounded one by one (no fused
    operations). *)
From Flocq Require Import BinarySingleNaN.
From Verif Require Import Base AStarFloat GridGeomIeee.

(** RotatedGridMap2d.h:140: the members of the simple map and yaw_. *)
Record drgeo := DRGeo { dr_map : dgeo; dr_yaw : b64 }.

Section Rot.
  Variables dcos dsin : b64 -> b64.

  (** Point2d.cpp:33-39; the same expressions in RotatedGridMap2d.h:65-66, 78-79, 101-102, 115-116. *)
  Definition d_rotate (p : b64 * b64) (angle : b64) : b64 * b64 :=
    let c := dcos angle in let s := dsin angle in
    (dsub (dmul c (fst p)) (dmul s (snd p)), dadd (dmul s (fst p)) (dmul c (snd p))).

  (** RotatedGridMap2d.h:48-54. *)
  Definition dr_getOrigin (g : drgeo) : b64 * b64 := (dg_ox (dr_map g), dg_oy (dr_map g)).
  Definition dr_setOrigin (g : drgeo) (p : b64 * b64) : drgeo :=
    let o := d_rotate p (Bopp (dr_yaw g)) in
    DRGeo (DGeo (dg_w (dr_map g)) (dg_h (dr_map g)) (dg_res (dr_map g)) (fst o) (snd o)) (dr_yaw g).

  (** RotatedGridMap2d.h:72-89; [None]: undefined conversion to unsigned. *)
  Definition dr_point2cell (g : drgeo) (p : b64 * b64) : option (Z * Z * bool) :=
    let m := dr_map g in
    let r := d_rotate p (Bopp (dr_yaw g)) in
    x <- d_to_u32 (ddiv (dsub (fst r) (dg_ox m)) (dg_res m)) ;;
    y <- d_to_u32 (ddiv (dsub (snd r) (dg_oy m)) (dg_res m)) ;;
    Some (x, y, d_inMapI m (i32 x) (i32 y)).

  (** RotatedGridMap2d.h:105-117. *)
  Definition dr_cell2pointSubPixel (g : drgeo) (q : b64 * b64) : b64 * b64 :=
    let m := dr_map g in
    let nx := dmul (dg_res m) (fst q) in
    let ny := dmul (dg_res m) (snd q) in
    d_rotate (dadd nx (dg_ox m), dadd ny (dg_oy m)) (dr_yaw g).

  (** RotatedGridMap2d.h:91-103; [x + 0.5] converts the unsigned x (exactly). *)
  Definition dr_cell2point (g : drgeo) (x y : Z) : b64 * b64 :=
    let m := dr_map g in
    let nx := dmul (dg_res m) (dadd (d_of_Z x) dhalf) in
    let ny := dmul (dg_res m) (dadd (d_of_Z y) dhalf) in
    d_rotate (dadd nx (dg_ox m), dadd ny (dg_oy m)) (dr_yaw g).
End Rot.
