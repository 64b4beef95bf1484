(** Model of the heading slots and of the lookups by pose of StateSpaceManager and
    DirectionalStateSpaceManager (I/generic/MapManager.hpp); the index arithmetic is in
    MapManagers.v. Simplification: double is the set of real numbers. *)
From Coq Require Import Reals.
From Flocq Require Import Core.Raux.
From Verif Require Import Base GeomR MapManagers.
Local Open Scope R_scope.

(** MapManager.hpp:287-289, 383-385, 591-593, angle2index, for [slots] heading slots. *)
Definition slot_of (clamp : R -> R) (slots : Z) (th : R) : option Z := cast_u32 ((clamp th + PI) / (2 * PI) * IZR (slots - 1)).
(** MapManager.hpp:256-276, 345-371, 448-460: the heading the nodes of slot [t] are created with. *)
Definition slot_heading (slots t : Z) : R := - PI + 2 * PI / IZR slots * IZR t.

(** MapManager.hpp:281-286, StateSpaceManager::index(unsigned, unsigned, unsigned). *)
Definition ss_index (w h slots x y t : Z) : lres Z :=
  if (x >=? w)%Z || (y >=? h)%Z || (t >=? slots)%Z then Outside else Found (u32 (y * w + x + t * w * h)).

Definition as_lres {A : Type} (o : option A) (k : A -> lres Z) : lres Z := match o with Some a => k a | None => LUB end.

(** MapManager.hpp:299-310, StateSpaceManager::lookup(double, double, double); 36 slots. *)
Definition ss_find (clamp : R -> R) (w h : Z) (x y th : R) : lres Z :=
  if Rltb x 0 || Rltb y 0 || Rleb (IZR w) x || Rleb (IZR h) y then Outside
  else as_lres (cast_i32 (IZR (Zfloor x))) (fun xi => as_lres (cast_i32 (IZR (Zfloor y))) (fun yi =>
    if (xi <? 0)%Z || (yi <? 0)%Z || (u32 xi >=? w)%Z || (u32 yi >=? h)%Z then Outside
    else as_lres (slot_of clamp 36 th) (fun t =>
      match ss_index w h 36 xi yi t with Found i => if (i <? w * h * 36)%Z then Found i else LUB | r => r end))).

(** MapManager.hpp:401-414, DirectionalStateSpaceManager::lookup(double, double, double, bool). *)
Definition dir_find (clamp : R -> R) (w h : Z) (x y th : R) (fwd : bool) : lres Z :=
  if Rltb x 0 || Rltb y 0 || Rleb (IZR w) x || Rleb (IZR h) y then Outside
  else as_lres (cast_i32 (IZR (Zfloor x))) (fun xi => as_lres (cast_i32 (IZR (Zfloor y))) (fun yi =>
    as_lres (slot_of clamp 32 th) (fun t => dir_lookup w h 32 (2 * (w * h * 32)) xi yi (i32 t) fwd))).

(** MapManager.hpp:270-276, 362-371: cell and heading with which initMap creates the node
    stored at index [i] of the array, [slots] slots per cell. *)
Definition init_cell (w h slots i : Z) : Z * Z * R :=
  let c := (i mod (w * h))%Z in ((c mod w)%Z, (c / w)%Z, slot_heading slots ((i / (w * h)) mod slots)).
