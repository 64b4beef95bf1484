(** Specification vocabulary for grids, independent of the models. *)
From Verif Require Import Base.

(** A cell of a [w] x [h] map. *)
Definition cell_of (w h x y : Z) : Prop := 0 <= x < w /\ 0 <= y < h.

(** The value most recently written to a cell by a history of writes
    (x, y, value), if any. *)
Fixpoint last_write (ws : list (Z * Z * Z)) (x y : Z) : option Z :=
  match ws with
  | [] => None
  | (x', y', v) :: r =>
      match last_write r x y with
      | Some u => Some u
      | None => if (x =? x') && (y =? y') then Some v else None
      end
  end.

(** The three documented classes of a cell value ("less or equal to the lower
    threshold is free", "greater or equal to the upper threshold is occupied",
    "if exactly this value is encountered, interpret it as unknown");
    [ni = Some v]: a no-information value is configured. *)
Inductive cls := Free | Occ | Unknown.
Definition class_spec (lo up : Z) (ni : option Z) (v : Z) (c : cls) : Prop :=
  match c with
  | Free => v <= lo /\ ni <> Some v
  | Occ => up <= v /\ ni <> Some v
  | Unknown => ni = Some v \/ lo < v < up
  end.

(** [c] is the [k]-th cell of a discretised segment from (xs,ys) to (xe,ye). *)
Definition on_segment (xs ys xe ye : Z) (k : Z) (c : Z * Z) : Prop :=
  let '(x, y) := c in
  let dx := xe - xs in let dy := ye - ys in
  (* inside the bounding box *)
  Z.min xs xe <= x <= Z.max xs xe /\ Z.min ys ye <= y <= Z.max ys ye /\
  (* [k] steps along the longer axis *)
  (Z.abs dy <= Z.abs dx -> Z.abs (x - xs) = k) /\
  (Z.abs dx <= Z.abs dy -> Z.abs (y - ys) = k) /\
  (* at most half a cell off the ideal line, measured along the shorter axis *)
  2 * Z.abs ((y - ys) * dx - (x - xs) * dy) <= Z.max (Z.abs dx) (Z.abs dy).

(** A chain of 8-neighbours starting after [c] that never steps away from
    (xe,ye) in either axis. *)
Fixpoint connected_to (xe ye : Z) (c : Z * Z) (l : list (Z * Z)) : Prop :=
  match l with
  | [] => True
  | c' :: r =>
      c' <> c /\
      Z.abs (fst c' - fst c) <= 1 /\ Z.abs (snd c' - snd c) <= 1 /\
      Z.abs (fst c' - xe) <= Z.abs (fst c - xe) /\ Z.abs (snd c' - ye) <= Z.abs (snd c - ye) /\
      connected_to xe ye c' r
  end.

(** [l] is a discretised segment from (xs,ys), excluded, to (xe,ye), included. *)
Definition segment_cells (xs ys xe ye : Z) (l : list (Z * Z)) : Prop :=
  Z.of_nat (length l) = Z.max (Z.abs (xe - xs)) (Z.abs (ye - ys)) /\
  last l (xs, ys) = (xe, ye) /\
  connected_to xe ye (xs, ys) l /\
  forall n c, nth_error ((xs, ys) :: l) n = Some c -> on_segment xs ys xe ye (Z.of_nat n) c.
