(** Model of I/common/SimpleGridMap2d.h (integer part: storage,
    classification, cell bounds).  Geometry is in GridGeom.v. *)
From Verif Require Import Base.
From Verif Require Export GridSpec.

(** SimpleGridMap2d.h:186-210, members relevant to cells.  [data] is the
    [std::vector<uint8_t>], every element a byte. *)
Record gridmap := GridMap {
  gm_w : Z;      (* width_,  unsigned int *)
  gm_h : Z;      (* height_, unsigned int *)
  gm_data : list Z;
  gm_lo : Z;     (* lower_thres_, uint8_t *)
  gm_up : Z;     (* upper_thres_, uint8_t *)
  gm_ni : Z      (* no_information_, int *)
}.

(** S/common/SimpleGridMap2d.cpp:14-19, constructor: [resize(width_*height_)]
    (the product wraps at 32 bit) zero-initialises; thresholds 50/200, no
    no-information value. *)
Definition gm_new (w h : Z) : gridmap :=
  GridMap w h (repeat 0 (Z.to_nat (u32 (w * h)))) 50 200 (-1).

(** SimpleGridMap2d.h:45-61, setters. *)
Definition setLowerThreshold (t : Z) (m : gridmap) :=
  GridMap (gm_w m) (gm_h m) (gm_data m) t (gm_up m) (gm_ni m).
Definition setUpperThreshold (t : Z) (m : gridmap) :=
  GridMap (gm_w m) (gm_h m) (gm_data m) (gm_lo m) t (gm_ni m).
Definition setNoInformationValue (v : Z) (m : gridmap) :=
  GridMap (gm_w m) (gm_h m) (gm_data m) (gm_lo m) (gm_up m) v.

(** SimpleGridMap2d.h:76-80, set(data,w,h): copies the vector, whatever its size. *)
Definition gm_set (d : list Z) (w h : Z) (m : gridmap) : gridmap :=
  GridMap w h d (gm_lo m) (gm_up m) (gm_ni m).

(** SimpleGridMap2d.h:86-92, set(value): every element of the vector. *)
Definition gm_fill (v : Z) (m : gridmap) : gridmap :=
  GridMap (gm_w m) (gm_h m) (map (fun _ => v) (gm_data m)) (gm_lo m) (gm_up m) (gm_ni m).

(** SimpleGridMap2d.h:103: the index expression [y*width_ + x], computed in
    [unsigned int] and therefore modulo 2^32. *)
Definition cell_index (m : gridmap) (x y : Z) : nat :=
  Z.to_nat (u32 (u32 (u32 y * gm_w m) + u32 x)).

(** SimpleGridMap2d.h:102-103.  [None] = read outside the vector (UB). *)
Definition getValue (m : gridmap) (x y : Z) : option Z :=
  nth_error (gm_data m) (cell_index m x y).

(** SimpleGridMap2d.h:105-106.  [None] = write outside the vector (UB). *)
Definition setValue (m : gridmap) (x y v : Z) : option gridmap :=
  d <- list_set (gm_data m) (cell_index m x y) v ;;
  Some (GridMap (gm_w m) (gm_h m) d (gm_lo m) (gm_up m) (gm_ni m)).

(** SimpleGridMap2d.h:125 etc.: [no_information_ != -1 && val == no_information_]. *)
Definition is_ni_value (m : gridmap) (v : Z) : bool :=
  negb (gm_ni m =? -1) && (v =? gm_ni m).

(** SimpleGridMap2d.h:123-129. *)
Definition isFree (m : gridmap) (x y : Z) : option bool :=
  v <- getValue m x y ;;
  Some (if is_ni_value m v then false else v <=? gm_lo m).

(** SimpleGridMap2d.h:131-137. *)
Definition isOccupied (m : gridmap) (x y : Z) : option bool :=
  v <- getValue m x y ;;
  Some (if is_ni_value m v then false else v >=? gm_up m).

(** SimpleGridMap2d.h:139-146. *)
Definition isNoInformation (m : gridmap) (x y : Z) : option bool :=
  v <- getValue m x y ;;
  Some (if is_ni_value m v then true else (v >? gm_lo m) && (v <? gm_up m)).

(** SimpleGridMap2d.h:175-176: note the casts [(int)width_], [(int)height_]. *)
Definition isInMap (m : gridmap) (x y : Z) : bool :=
  negb ((x <? 0) || (y <? 0) || (x >=? i32 (gm_w m)) || (y >=? i32 (gm_h m))).

(** What the documentation of the class asks for ("Size should be >= w * h",
    SimpleGridMap2d.h:72): sizes are unsigned ints whose product is an unsigned
    int, and the vector is big enough. *)
Definition gm_wf (m : gridmap) : Prop :=
  0 <= gm_w m < 2147483648 /\ 0 <= gm_h m < 2147483648 /\
  gm_w m * gm_h m < 4294967296 /\
  gm_w m * gm_h m <= Z.of_nat (length (gm_data m)).
