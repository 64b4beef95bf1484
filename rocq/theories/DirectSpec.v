(** Specification vocabulary for searches on a grid with the 4/8-neighbourhood
    at distance [D], independent of the search. *)
From Coq Require Import QArith.
From Verif Require Import Base GridSpec GridMap PathSpec.
Open Scope Z_scope.

(** [b] is one of the 8 (4) neighbours of [a] at distance [D]. *)
Definition direct_step (eight : bool) (D : Z) (a b : Z * Z) : Prop :=
  let dx := Z.abs (fst a - fst b) in
  let dy := Z.abs (snd a - snd b) in
  if eight then (dx = 0 \/ dx = D) /\ (dy = 0 \/ dy = D) /\ a <> b
  else (dx = D /\ dy = 0) \/ (dx = 0 /\ dy = D).

(** A free / an occupied cell inside the map. *)
Definition map_free (m : gridmap) (c : Z * Z) : Prop :=
  cell_of (gm_w m) (gm_h m) (fst c) (snd c) /\ isFree m (fst c) (snd c) = Some true.
Definition map_occupied (m : gridmap) (c : Z * Z) : Prop :=
  cell_of (gm_w m) (gm_h m) (fst c) (snd c) /\ isOccupied m (fst c) (snd c) = Some true.

(** The cell of the plane a position lies in. *)
Definition in_cell (p : Q * Q) (c : Z * Z) : Prop :=
  (inject_Z (fst c) <= fst p < inject_Z (fst c + 1))%Q /\
  (inject_Z (snd c) <= snd p < inject_Z (snd c + 1))%Q.

(** Within the goal tolerance. *)
Definition near (D : Z) (g c : Z * Z) : Prop := Z.abs (fst g - fst c) <= D /\ Z.abs (snd g - snd c) <= D.

(** A path: every step is a neighbourhood step onto a free cell of the map. *)
Definition direct_path (eight : bool) (D : Z) (m : gridmap) (s t : Z * Z) (p : list (Z * Z)) : Prop :=
  from_to s t p /\ chain (fun a b => direct_step eight D a b /\ map_free m b) p.
