(** Model of S/geometry/intersector.cpp and S/geometry/tangentor.cpp, exact real
    arithmetic.  Not modelled: the line/line intersection (a wrapper of the external
    MathHelper segmentIntersection) and the console output. *)
From Coq Require Import Reals Lra.
From Flocq Require Import Core.Raux.
From Verif Require Import Base GeomR LineModel CircleModel.
Local Open Scope R_scope.

Definition sqn (p : pt) : R := px p * px p + py p * py p.

(** intersector.cpp:41-93; [old] is the content of res_points before the call.
    [None]: the square root of a negative number is taken and NaN points are
    returned, or [d] is zero and divides. *)
Definition cc_intersect (c1 c2 : circle) (old : list pt) (tol0 : R) : option (list pt) :=
  let tol := Rabs tol0 in
  let c1c2 := psub (c_center c2) (c_center c1) in
  let d := len c1c2 in
  if Rlt_dec d tol then Some old else
  let r1 := c_radius c1 in let r2 := c_radius c2 in
  let m := r1 + r2 in let n := Rabs (r1 - r2) in
  if Rlt_dec (m + tol) d then Some [] else
  if Rlt_dec (d + tol) n then Some [] else
  if Rltb (Rabs d) tol && Rltb (Rabs (r1 - r2)) tol then Some [] else
  if Req_EM_T d 0 then None else
  let a := (r1 * r1 - r2 * r2 + d * d) / (2 * d) in
  let p := Pt (px (c_center c1) + (a / d) * px c1c2) (py (c_center c1) + (a / d) * py c1c2) in
  if Rltb (Rabs (r1 + r2 - d)) tol || Rltb (d + Rabs (r1 - r2)) tol then Some [p] else
  let h_sq := r1 * r1 - a * a in
  if Rltb (Rabs h_sq) (tol * tol) then
    (if Rlt_dec (sqrt 0) tol then Some [p] else Some [padd p (pmul (Pt (py c1c2) (-1 * px c1c2)) (sqrt 0 / d)); padd p (pmul (Pt (-1 * py c1c2) (px c1c2)) (sqrt 0 / d))])
  else if Rltb h_sq (- (tol * tol)) then Some []
  else if Rltb h_sq 0 then None
  else
    let h := sqrt h_sq in
    if Rlt_dec h tol then Some [p]
    else Some [padd p (pmul (Pt (py c1c2) (-1 * px c1c2)) (h / d)); padd p (pmul (Pt (-1 * py c1c2) (px c1c2)) (h / d))].

(** intersector.cpp:96-108 (isPointOnArc uses its default tolerance). *)
Definition cc_intersectArcs (c1 c2 : circle) (tol : R) : option (list pt) :=
  ip <- cc_intersect c1 c2 [] tol ;;
  Some (filter (fun p => isPointOnArc c1 p DIST_EPS && isPointOnArc c2 p DIST_EPS) ip).

(** intersector.cpp:119-124: the discriminant. *)
Definition lc_a (l : line) : R := sqn (psub (l_end l) (l_start l)).
Definition lc_b (l : line) (c : circle) : R := 2 * vdot (psub (l_end l) (l_start l)) (psub (l_start l) (c_center c)).
Definition lc_c (l : line) (c : circle) : R :=
  sqn (c_center c) + sqn (l_start l) - 2 * vdot (c_center c) (l_start l) - c_radius c * c_radius c.
Definition lc_disc (l : line) (c : circle) : R := lc_b l c * lc_b l c - 4 * lc_a l * lc_c l c.
(** p1 + mu * p1p2. *)
Definition lc_pt (l : line) (mu : R) : pt := padd (l_start l) (pmul (psub (l_end l) (l_start l)) mu).
Definition in01 (mu : R) : bool := Rleb 0 mu && Rleb mu 1.
(** intersector.cpp:111-155. A line of length 0 gives NaN parameters, and so does the
    square root of a negative discriminant; all comparisons are false then. *)
Definition lc_intersect (l : line) (c : circle) (tol0 : R) : list pt :=
  let tol := Rabs tol0 in
  let a := lc_a l in let b := lc_b l c in
  let disc := lc_disc l c in
  if Rlt_dec disc (- tol * tol) then []
  else if Req_EM_T a 0 then []
  else if Rlt_dec (Rabs disc) (tol * tol) then
    let mu := - b / (2 * a) in
    if in01 mu then [lc_pt l mu] else []
  else if Rlt_dec disc 0 then []
  else
    let mu1 := (- b - sqrt disc) / (2 * a) in
    let mu2 := (- b + sqrt disc) / (2 * a) in
    if Rltb mu1 0 && Rltb mu2 0 then [] else
    (if in01 mu1 then [lc_pt l mu1] else []) ++ (if in01 mu2 then [lc_pt l mu2] else []).

(** ** Tangentor *)
(** The circles of a list of centres; [None]: direction 0. *)
Fixpoint circles_at (ps : list pt) (radius : R) (dir : Z) : option (list circle) :=
  match ps with
  | [] => Some []
  | p :: t => c <- mk_circle p radius dir ;; r <- circles_at t radius dir ;; Some (c :: r)
  end.
(** tangentor.cpp:46-66. *)
Definition tangentCircles (l : line) (c : circle) (radius tol : R) : option (list circle) :=
  c2 <- mk_circle (c_center c) (c_radius c + radius) (c_dir c) ;;
  a <- circles_at (lc_intersect (parallel l radius) c2 tol) radius (c_dir c * -1) ;;
  b <- circles_at (lc_intersect (parallel l (- radius)) c2 tol) radius (c_dir c * -1) ;;
  Some (a ++ b).

(** tangentor.cpp:139-140, 179-180: the circle lies on the side it turns to. *)
Definition turn_side (t : circle) (pos : Z) : bool :=
  ((0 <? c_dir t)%Z && (0 <? pos)%Z) || ((c_dir t <? 0)%Z && (pos <? 0)%Z).
(** tangentor.cpp:133-159, one iteration: the arc from the line to the circle. *)
Definition arc_lc (l : line) (c : circle) (tol : R) (t : circle) : option (list circle) :=
  let pos := pointRelativePosition l (c_center t) tol in
  if (pos =? 0)%Z then Some [] else
  if turn_side t pos then
    t1 <- setStartAnglePt t (footPoint l (c_center t)) ;;
    match lc_intersect (Ln (c_center t1) (c_center c)) t1 tol with
    | [q] => t2 <- setEndAnglePt t1 q ;; Some [t2]
    | _ => Some []
    end
  else Some [].
(** tangentor.cpp:173-200, one iteration: the arc from the circle to the line. *)
Definition arc_cl (l : line) (c : circle) (tol : R) (t : circle) : option (list circle) :=
  let pos := pointRelativePosition l (c_center t) tol in
  if (pos =? 0)%Z then Some [] else
  if turn_side t pos then
    match lc_intersect (Ln (c_center t) (c_center c)) t tol with
    | [q] => t1 <- setStartAnglePt t q ;; t2 <- setEndAnglePt t1 (footPoint l (c_center t1)) ;; Some [t2]
    | _ => Some []
    end
  else Some [].
Fixpoint collect (f : circle -> option (list circle)) (ts : list circle) : option (list circle) :=
  match ts with
  | [] => Some []
  | t :: r => a <- f t ;; b <- collect f r ;; Some (a ++ b)
  end.
(** tangentor.cpp:123-160. *)
Definition tangentArc_lc (l : line) (c : circle) (radius tol : R) : option (list circle) :=
  ts <- tangentCircles l c radius tol ;; collect (arc_lc l c tol) ts.
(** tangentor.cpp:163-201. *)
Definition tangentArc_cl (l : line) (c : circle) (radius tol : R) : option (list circle) :=
  ts <- tangentCircles l c radius tol ;; collect (arc_cl l c tol) ts.

(** std::min_element with compareArcAngle: the first of the smallest. *)
Fixpoint min_arc (best : circle) (l : list circle) : circle :=
  match l with
  | [] => best
  | c :: t => if compareArcAngle c best then min_arc c t else min_arc best t
  end.
Inductive shape := SLine (l : line) | SCirc (c : circle).
(** tangentor.cpp:69-95. The tolerance argument is not passed on. *)
Definition tangentPath_lc (l : line) (c : circle) (radius : R) : option (list shape) :=
  arcs <- tangentArc_lc l c radius DIST_EPS ;;
  match arcs with
  | [] => Some []
  | a :: r =>
      let t := min_arc a r in
      te <- endPoint t ;;
      e1 <- setStartAnglePt c te ;;
      e2 <- setArcAngle e1 (2 * PI) ;;
      Some [SLine (Ln (l_start l) (startPoint t)); SCirc t; SCirc e2]
  end.
(** tangentor.cpp:98-120. *)
Definition tangentPath_cl (c : circle) (l : line) (radius : R) : option (list shape) :=
  arcs <- tangentArc_cl l c radius DIST_EPS ;;
  match arcs with
  | [] => Some []
  | a :: r =>
      let t := min_arc a r in
      te <- endPoint t ;;
      s1 <- c_selectEndPoint c (startPoint t) DIST_EPS ;;
      Some [SCirc (snd s1); SCirc t; SLine (Ln te (l_end l))]
  end.

(** tangentor.cpp:204-225. *)
Definition tangentInnerCircles (c1 c2 : circle) (radius tol : R) : option (list circle) :=
  if Rle_dec (c_radius c2) radius then Some [] else
  lg <- mk_circle (c_center c1) (c_radius c1 + radius) (c_dir c1) ;;
  sm <- mk_circle (c_center c2) (c_radius c2 - radius) (c_dir c2) ;;
  ip <- cc_intersect lg sm [] tol ;;
  circles_at ip radius (c_dir c2).

(** tangentor.cpp:240-254, one iteration. *)
Definition inner_touch (small large : circle) (from_small : bool) (tol : R) (t : circle) : option (list circle) :=
  is <- cc_intersectArcs small t tol ;;
  il <- cc_intersectArcs t large tol ;;
  match is, il with
  | [ps], [pl] =>
      if from_small then Some [t] else
      a <- c_selectStartPoint t pl DIST_EPS ;;
      b <- c_selectEndPoint (snd a) ps DIST_EPS ;;
      Some [snd b]
  | _, _ => Some []
  end.
(** tangentor.cpp:228-290. *)
Definition tangentPath_cc (small large : circle) (radius : R) (from_small : bool) (tol : R) : option (list shape) :=
  ts <- tangentInnerCircles small large radius tol ;;
  arcs <- collect (inner_touch small large from_small tol) ts ;;
  match arcs with
  | [] => Some []
  | a :: r =>
      let t := min_arc a r in
      if Rlt_dec PI (getArcAngle t) then Some [] else
      te <- endPoint t ;;
      if from_small then
        s1 <- c_selectEndPoint small (startPoint t) DIST_EPS ;;
        l1 <- c_selectStartPoint large te DIST_EPS ;;
        Some [SCirc (snd s1); SCirc t; SCirc (snd l1)]
      else
        l1 <- c_selectEndPoint large (startPoint t) DIST_EPS ;;
        s1 <- c_selectStartPoint small te DIST_EPS ;;
        Some [SCirc (snd l1); SCirc t; SCirc (snd s1)]
  end.

(** tangentor.cpp:304-320, one iteration. *)
Definition inner_arc (c1 c2 : circle) (tol : R) (t : circle) : option (list circle) :=
  i1 <- cc_intersectArcs c1 t tol ;;
  match i1 with
  | [p] =>
      t1 <- setStartAnglePt t p ;;
      i2 <- cc_intersectArcs t1 c2 tol ;;
      match i2 with
      | [q] => t2 <- setEndAnglePt t1 q ;; Some [t2]
      | _ => Some []
      end
  | _ => Some []
  end.
(** tangentor.cpp:325-333: the first arc with the smallest angle (signed here;
    [max()] is above every angle). *)
Fixpoint min_arc_signed (best : circle) (l : list circle) : circle :=
  match l with
  | [] => best
  | c :: t => if Rltb (getArcAngle c) (getArcAngle best) then min_arc_signed c t else min_arc_signed best t
  end.
(** tangentor.cpp:293-338. *)
Definition tangentInnerArcs (c1 c2 : circle) (radius tol : R) : option (list circle) :=
  if (c_dir c1 =? c_dir c2)%Z then Some [] else
  ts <- tangentInnerCircles c1 c2 radius tol ;;
  arcs <- collect (inner_arc c1 c2 tol) ts ;;
  match arcs with
  | [] => Some []
  | a :: r => Some [min_arc_signed a r]
  end.

(** tangentor.cpp:24-43: dispatch on the kind of the first shape. *)
Definition tangentPath_shape (s : shape) (c : circle) (radius : R) (first_to_second : bool) : option (list shape) :=
  match s with
  | SLine l => if first_to_second then tangentPath_lc l c radius else tangentPath_cl c l radius
  | SCirc f => tangentPath_cc c f radius (negb first_to_second) DIST_EPS
  end.
