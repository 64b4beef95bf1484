(** Model of S/geometry/circle.cpp and I/geometry/circle.h, exact real arithmetic. *)
From Coq Require Import Reals Lra.
From Flocq Require Import Core.Raux.
From Verif Require Import Base GeomR LineModel.
Local Open Scope R_scope.

(** I/geometry/shape.h:34-35. *)
Definition ARC_LEFT : Z := 1.
Definition ARC_RIGHT : Z := -1.

(** circle.h:129-135. *)
Record circle := Circ { c_center : pt; c_radius : R; c_dir : Z; c_arc : R; c_start : R }.

(** The loop [while (angle > 2*M_PI) angle -= 2*M_PI] (circle.cpp:76-77 and the like);
    [None]: more than [fuel] iterations. *)
Fixpoint loop_down (fuel : nat) (a : R) : option R :=
  match fuel with
  | O => None
  | S k => if Rlt_dec (2 * PI) a then loop_down k (a - 2 * PI) else Some a
  end.
(** The loop [while (angle < 0.0) angle += 2*M_PI] (circle.cpp:78-79). *)
Fixpoint loop_up (fuel : nat) (a : R) : option R :=
  match fuel with
  | O => None
  | S k => if Rlt_dec a 0 then loop_up k (a + 2 * PI) else Some a
  end.
(** circle.cpp:76-79, 97-100, 110-114, 131-134, 156-159. The fuel is proved to be
    enough for every real angle (C44_normalise). *)
Definition norm_fuel (a : R) : nat := S (Z.to_nat (up (Rabs a / (2 * PI)))).
Definition norm2pi (a : R) : option R :=
  b <- loop_down (norm_fuel a) a ;; loop_up (norm_fuel b) b.

(** circle.cpp:23-32. [None]: direction 0, integer division by zero. *)
Definition mk_circle (center : pt) (radius : R) (direction : Z) : option circle :=
  if (direction =? 0)%Z then None else
  let d := Z.quot direction (Z.abs direction) in
  Some (Circ center (Rabs radius) d (2 * PI) (if (d =? ARC_RIGHT)%Z then 2 * PI else 0)).

(** circle.cpp:73-101. *)
Definition setStartAngle (c : circle) (angle : R) : option circle :=
  a <- norm2pi angle ;;
  let end_angle := if (c_dir c =? ARC_LEFT)%Z then c_start c + c_arc c else c_start c - c_arc c in
  r <- norm2pi (if (c_dir c =? ARC_LEFT)%Z then end_angle - a else a - end_angle) ;;
  Some (Circ (c_center c) (c_radius c) (c_dir c) r a).
(** circle.cpp:103-115. *)
Definition setEndAngle (c : circle) (angle : R) : option circle :=
  r <- norm2pi (if (c_dir c =? ARC_LEFT)%Z then angle - c_start c else c_start c - angle) ;;
  Some (Circ (c_center c) (c_radius c) (c_dir c) r (c_start c)).
(** circle.cpp:118-127. *)
Definition setArc (c : circle) (start_angle arc_angle : R) (arc_direction : Z) : option circle :=
  c1 <- setStartAngle c start_angle ;;
  Some (Circ (c_center c1) (c_radius c1) (if (0 <=? arc_direction)%Z then ARC_LEFT else ARC_RIGHT) arc_angle (c_start c1)).
(** circle.cpp:129-137. *)
Definition setArcAngle (c : circle) (angle : R) : option circle :=
  a <- norm2pi angle ;; Some (Circ (c_center c) (c_radius c) (c_dir c) a (c_start c)).
(** circle.cpp:140-145, 164-179. *)
Definition getArcAngle (c : circle) : R := c_arc c.
Definition getArcLength (c : circle) : R := getArcAngle c * c_radius c.
(** circle.cpp:148-161. *)
Definition endAngle (c : circle) : option R :=
  norm2pi (if (c_dir c =? ARC_LEFT)%Z then c_start c + c_arc c else c_start c - c_arc c).

(** circle.cpp:35-50. *)
Definition createArcFrom (start : ppose) (radius arc_angle : R) (arc_direction : Z) : option circle :=
  let sa := if (arc_direction =? ARC_LEFT)%Z then pp_th start - PI / 2 else pp_th start + PI / 2 in
  let center := psub (pp_pos start) (Pt (radius * cos sa) (radius * sin sa)) in
  c <- mk_circle center radius arc_direction ;; setArc c sa arc_angle arc_direction.
(** circle.cpp:53-71. *)
Definition createArcTo (e : ppose) (radius arc_angle : R) (arc_direction : Z) : option circle :=
  let ea := if (arc_direction =? ARC_LEFT)%Z then pp_th e - PI / 2 else pp_th e + PI / 2 in
  let sa := if (arc_direction =? ARC_LEFT)%Z then ea - arc_angle else ea + arc_angle in
  let center := psub (pp_pos e) (Pt (radius * cos ea) (radius * sin ea)) in
  c <- mk_circle center radius arc_direction ;; setArc c sa arc_angle arc_direction.

(** circle.cpp:199-209. *)
Definition polar_pt (c : circle) (phi : R) : pt := padd (c_center c) (pmul (Pt (cos phi) (sin phi)) (c_radius c)).
Definition startPoint (c : circle) : pt := polar_pt c (c_start c).
Definition endPoint (c : circle) : option pt := e <- endAngle c ;; Some (polar_pt c e).

(** circle.cpp:190-195: the points of toPoints (without the centre!). *)
Fixpoint tp_loop (n : nat) (r phi dphi : R) : list pt :=
  match n with O => [] | S k => Pt (r * cos phi) (r * sin phi) :: tp_loop k r (phi + dphi) dphi end.
(** circle.cpp:181-196. [None]: division by resolution 0 or int overflow. *)
Definition c_toPoints (c : circle) (resolution : R) : option (list pt) :=
  if Req_EM_T resolution 0 then None else
  n <- cast_i32 (Rabs (getArcLength c / resolution)) ;;
  Some (tp_loop (Z.to_nat n) (c_radius c) (c_start c) (getArcAngle c / IZR n)).

(** circle.cpp:242-246. *)
Definition arc_pose (clamp : R -> R) (c : circle) (phi : R) : ppose :=
  PP (polar_pt c phi) (clamp (phi + IZR (c_dir c) * PI / 2)).
Fixpoint pose_loop (clamp : R -> R) (c : circle) (n : nat) (phi dphi : R) : list ppose :=
  match n with O => [] | S k => arc_pose clamp c phi :: pose_loop clamp c k (phi + dphi) dphi end.
(** circle.cpp:212-252. [clamp] is MathHelper::AngleClamp. With [steps = 0] the value
    of dphi (a division by zero) is not used. *)
Definition c_toPoses (clamp : R -> R) (c : circle) (resolution : R) (move_direction : Z) (with_start_pose : bool)
  : option (list ppose) :=
  if Rlt_dec (Rabs resolution) (/ 10000000000) then Some [] else
  n <- cast_i32 (Rabs (getArcLength c / resolution)) ;;
  let dphi0 := getArcAngle c / IZR n in
  e <- endAngle c ;;
  let fwd := (move_direction =? FORWARD)%Z in
  let phi := if fwd then c_start c else e in
  let dphi1 := if fwd then dphi0 else - dphi0 in
  let dphi := if (c_dir c =? ARC_RIGHT)%Z then - dphi1 else dphi1 in
  let k := Z.to_nat n in
  Some (if with_start_pose then pose_loop clamp c (S k) phi dphi
        else pose_loop clamp c k (phi + dphi) dphi).

(** circle.cpp:255-261. *)
Definition getAngleOfPoint (c : circle) (p : pt) : R :=
  let cp := psub p (c_center c) in
  let a := atan2 (py cp) (px cp) in
  if Rlt_dec a 0 then a + 2 * PI else a.
(** circle.cpp:264-275. *)
Definition setStartAnglePt (c : circle) (p : pt) : option circle := setStartAngle c (getAngleOfPoint c p).
Definition setEndAnglePt (c : circle) (p : pt) : option circle := setEndAngle c (getAngleOfPoint c p).
(** circle.h:50-67. *)
Definition c_selectStartPoint (c : circle) (p : pt) (tol : R) : option (bool * circle) :=
  if Rlt_dec (Rabs (len (psub p (c_center c)) - c_radius c)) tol
  then c1 <- setStartAnglePt c p ;; Some (true, c1) else Some (false, c).
Definition c_selectEndPoint (c : circle) (p : pt) (tol : R) : option (bool * circle) :=
  if Rlt_dec (Rabs (len (psub p (c_center c)) - c_radius c)) tol
  then c1 <- setEndAnglePt c p ;; Some (true, c1) else Some (false, c).

(** circle.cpp:278-311. *)
Definition isPointOnArc (c : circle) (p : pt) (tol : R) : bool :=
  let d := len (psub (c_center c) p) in
  if Rlt_dec tol (Rabs (d - c_radius c)) then false else
  let a := getAngleOfPoint c p in
  if (c_dir c =? ARC_LEFT)%Z then
    let e := c_start c + c_arc c in
    if Rle_dec e (2 * PI) then Rleb (c_start c) a && Rleb a e
    else Rleb (c_start c) a || Rleb a (e - 2 * PI)
  else
    let e := c_start c - c_arc c in
    if Rle_dec 0 e then Rleb e a && Rleb a (c_start c)
    else Rleb (e + 2 * PI) a || Rleb a (c_start c).

(** circle.cpp:314-328. *)
Definition compareArcAngle (a b : circle) : bool := Rltb (Rabs (getArcAngle a)) (Rabs (getArcAngle b)).

(** circle.cpp:365-371: radial projection, [None] if the point is (almost) the centre
    or the projection is not on the arc. *)
Definition arc_projection (c : circle) (p : pt) : option pt :=
  let cp := psub p (c_center c) in
  if Rlt_dec DIST_EPS (len cp) then
    let a := padd (c_center c) (pmul (normalized cp) (c_radius c)) in
    if isPointOnArc c a DIST_EPS then Some a else None
  else None.
(** circle.cpp:363-385. *)
Definition c_nearestPointTo (c : circle) (p : pt) : option pt :=
  match arc_projection c p with
  | Some a => Some a
  | None => e <- endPoint c ;;
      Some (if Rltb (len (psub p (startPoint c))) (len (psub p e)) then startPoint c else e)
  end.
(** circle.cpp:342-360. *)
Definition c_distanceTo (c : circle) (p : pt) : option R :=
  match arc_projection c p with
  | Some _ => Some (Rabs (len (psub p (c_center c)) - c_radius c))
  | None => e <- endPoint c ;;
      Some (Rmin (len (psub p (startPoint c))) (len (psub p e)))
  end.
