(** Model of S/geometry/line.cpp and the pose type of I/geometry/shape.h, exact
    real arithmetic. Eigen's Vector2d is [pt]. *)
From Coq Require Import Reals Lra.
From Flocq Require Import Core.Raux.
From Verif Require Import Base GeomR.
Local Open Scope R_scope.

(** I/geometry/shape.h:32-38. *)
Definition DIST_EPS : R := / 100000.
Definition FORWARD : Z := 1.
Definition BACKWARD : Z := -1.

(** Eigen normalized() of a non-zero vector (the zero vector is excluded by the
    hypotheses of the theorems). *)
Definition normalized (p : pt) : pt := pdiv p (len p).
Definition vdot (p q : pt) : R := px p * px q + py p * py q.
Definition vcross (p q : pt) : R := px p * py q - py p * px q.

(** shape.h:68-107, PathPose (weight_ is not used by the shapes). *)
Record ppose := PP { pp_pos : pt; pp_th : R }.
(** shape.h:73-74: default constructor. *)
Definition ppose0 : ppose := PP (Pt 0 0) 0.
(** shape.h:88-92; [adelta] is MathHelper::AngleDelta. *)
Definition pp_isIdentical (adelta : R -> R -> R) (a b : ppose) (dist_tol angle_tol : R) : bool :=
  Rltb (len (psub (pp_pos a) (pp_pos b))) dist_tol && Rltb (adelta (pp_th a) (pp_th b)) angle_tol.

Record line := Ln { l_start : pt; l_end : pt }.

(** line.cpp:26-38. [None]: division by zero. *)
Definition line_of_pose (s : ppose) (length : R) (direction : Z) : option line :=
  if (direction =? 0)%Z then None else
  let dir := Z.quot direction (Z.abs direction) in
  let h := Pt (cos (pp_th s)) (sin (pp_th s)) in
  Some (if (dir =? FORWARD)%Z then Ln (pp_pos s) (padd (pp_pos s) (pmul h (Rabs length)))
        else Ln (psub (pp_pos s) (pmul h (Rabs length))) (pp_pos s)).

(** line.cpp:41-48. *)
Definition parallel (l : line) (d : R) : line :=
  let ds := normalized (psub (l_end l) (l_start l)) in
  let o := Pt (- d * py ds) (d * px ds) in
  Ln (padd (l_start l) o) (padd (l_end l) o).

(** line.cpp:113-126. *)
Definition pointRelativePosition (l : line) (c : pt) (tol : R) : Z :=
  let ab := psub (l_end l) (l_start l) in
  let ac := psub c (l_start l) in
  let d := px ab * py ac - py ab * px ac in
  if Rlt_dec (Rabs tol) d then 1 else if Rlt_dec d (- Rabs tol) then -1 else 0.

(** line.cpp:129-135. *)
Definition pointSignedDistance (l : line) (c : pt) : R :=
  let ab := psub (l_end l) (l_start l) in
  let ac := psub c (l_start l) in
  (px ab * py ac - py ab * px ac) / len ab.

(** line.cpp:138-144. *)
Definition footPoint (l : line) (p : pt) : pt :=
  let d := pointSignedDistance l p in
  let ds := normalized (psub (l_end l) (l_start l)) in
  psub p (Pt (- d * py ds) (d * px ds)).

(** line.cpp:147-170. *)
Definition selectStartPoint (l : line) (s : pt) (tol : R) : bool * line :=
  if (pointRelativePosition l s tol =? 0)%Z then (true, Ln s (l_end l)) else (false, l).
Definition selectEndPoint (l : line) (e : pt) (tol : R) : bool * line :=
  if (pointRelativePosition l e tol =? 0)%Z then (true, Ln (l_start l) e) else (false, l).

(** line.cpp:183-193. *)
Definition isPointOnSegment (l : line) (p : pt) (tol : R) : bool :=
  let d1 := len (psub p (l_start l)) in
  let d2 := len (psub p (l_end l)) in
  let dl := len (psub (l_end l) (l_start l)) in
  Rltb (Rabs (d1 + d2 - dl)) tol.

(** line.cpp:195-204. *)
Definition l_distanceTo (l : line) (p : pt) : R :=
  let f := footPoint l p in
  if isPointOnSegment l f DIST_EPS then len (psub f p)
  else Rmin (len (psub p (l_start l))) (len (psub p (l_end l))).

(** line.cpp:206-220. *)
Definition l_nearestPointTo (l : line) (p : pt) : pt :=
  let f := footPoint l p in
  if isPointOnSegment l f DIST_EPS then f
  else if Rltb (len (psub p (l_start l))) (len (psub p (l_end l))) then l_start l else l_end l.

(** line.cpp:222-227. *)
Definition projectPoint (l : line) (p : pt) : pt :=
  let v := psub p (l_start l) in let s := psub (l_end l) (l_start l) in
  padd (l_start l) (pmul s (vdot v s / vdot s s)).

(** line.cpp:103-106: the first [n] points, [p] advancing by [step]. *)
Fixpoint march (n : nat) (p step : pt) : list pt :=
  match n with
  | O => []
  | S k => p :: march k (padd p step) step
  end.
(** line.cpp:95-110. [None]: the int conversion or the vector size is undefined
    (resolution 0 or negative, more than 2^31 points). *)
Definition l_toPoints (l : line) (resolution : R) : option (list pt) :=
  let ds := psub (l_end l) (l_start l) in
  let step := pmul (normalized ds) resolution in
  if Req_EM_T resolution 0 then None else
  n <- cast_i32 (len ds / resolution) ;;
  if (n <? 0)%Z then None else
  Some (march (Z.to_nat n) (l_start l) step ++ [l_end l]).

(** std::vector resize: keeps the first elements, fills with default poses. *)
Definition vresize (old : list ppose) (n : nat) : list ppose :=
  firstn n old ++ repeat ppose0 (n - length old).
(** line.cpp:51-92; [old] is the content of the result vector before the call. *)
Definition l_toPoses (l : line) (resolution : R) (old : list ppose) (move_direction : Z) (with_start_pose : bool)
  : option (list ppose) :=
  if Rlt_dec (Rabs resolution) (/ 10000000000) then Some [] else
  let ds := psub (l_end l) (l_start l) in
  n <- cast_i32 (len ds / resolution) ;;
  if (n <? 0)%Z then None else
  let step0 := pmul (normalized ds) resolution in
  let back := (move_direction =? BACKWARD)%Z in
  let p0 := if back then l_end l else l_start l in
  let step := if back then pmul step0 (-1) else step0 in
  let theta := atan2 (py ds) (px ds) in
  let poses := map (fun p => PP p theta) in
  let k := Z.to_nat n in
  if with_start_pose
  then Some (poses (march k p0 step) ++ skipn k (vresize old (S k)))
  else Some (poses (march k (padd p0 step) step)).
