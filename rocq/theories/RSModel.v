(** Model of the Reeds-Shepp curves: S/ReedsShepp/{LineSegment, CircleSegment,
    GeometryHelper, Curve, CurveGenerator}.cpp (I = include/cslibs_path_planning).

    Simplifications, for the whole file: float and double are real numbers; int is
    unbounded except where a real is converted to int ([cast_i32], undefined outside);
    [clamp] is the external MathHelper::AngleClamp behind NORMALIZE (MapMath.h:16);
    the disabled trace code and the messages on std::cerr are left out. *)
From Coq Require Import Reals Lra.
From Flocq Require Import Core.Raux.
From Verif Require Import Base GeomR RSParse.
Local Open Scope R_scope.

(** CurveSegment.h:18. *)
Definition NOT_FREE : R := 999999.

(** The part of the interface GridMap2d the curves use (I/common/GridMap2d.h):
    isInMap(int,int) is the bounds check of every implementation. *)
Record rmap := RM { rm_w : Z; rm_h : Z; rm_val : Z -> Z -> Z; rm_free : Z -> Z -> bool; rm_res : R }.
Definition rm_in (m : rmap) (x y : Z) : bool := (0 <=? x)%Z && (x <? rm_w m)%Z && (0 <=? y)%Z && (y <? rm_h m)%Z.

(** CurveSegment.h:256-272, Curve.h:105-115: the parameters handed down by
    CurveGenerator::find_path (CurveGenerator.cpp:190-204); lengths in cells. *)
Record rparams := RP {
  rp_radius : R; rp_maxd : R;
  rp_use_map : bool; rp_min_cell : Z;
  rp_fwd : R; rp_bwd : R; rp_curve : R; rp_straight : R }.
Definition dir_cost (p : rparams) (d : rdir) : R := match d with Backward => rp_bwd p | Forward => rp_fwd p end.
Definition isBwd (d : rdir) : bool := match d with Backward => true | Forward => false end.

(** ** LineSegment *)
(** LineSegment.h:88-95 without the iteration counters. *)
Record lseg := LS { ls_dir : rdir; ls_a : pt; ls_b : pt }.
(** LineSegment.cpp:33. *)
Definition ls_theta (l : lseg) : R := angle (psub (ls_b l) (ls_a l)).
Definition ls_length (l : lseg) : R := len (psub (ls_a l) (ls_b l)).

(** LineSegment.cpp:62-86. [None]: the fuel ran out; otherwise is_free, path_cost. *)
Fixpoint line_loop (fuel : nat) (m : rmap) (minc : Z) (ignore : bool) (x0 y0 x1 y1 dx dy sx sy err cost : Z) : option (bool * Z) :=
  match fuel with
  | O => None
  | S f =>
      let inm := rm_in m x0 y0 in
      if inm && negb (rm_free m x0 y0) && negb ignore then Some (false, cost) else
      let cost := if inm then (cost + Z.max minc (rm_val m x0 y0))%Z else cost in
      if (x0 =? x1)%Z && (y0 =? y1)%Z then Some (true, cost) else
      let e2 := (2 * err)%Z in
      let stepx := (dy <? e2)%Z in
      let stepy := (e2 <? dx)%Z in
      let err1 := (if stepx then err + dy else err)%Z in
      let x' := (if stepx then x0 + sx else x0)%Z in
      let err2 := (if stepy then err1 + dx else err1)%Z in
      let y' := (if stepy then y0 + sy else y0)%Z in
      line_loop f m minc ignore x' y' x1 y1 dx dy sx sy err2 cost
  end.
(** LineSegment.cpp:44-97. *)
Definition line_weight (m : rmap) (p : rparams) (l : lseg) (ignore : bool) : option R :=
  x0 <- cast_i32 (px (ls_a l)) ;;
  y0 <- cast_i32 (py (ls_a l)) ;;
  x1 <- cast_i32 (px (ls_b l)) ;;
  y1 <- cast_i32 (py (ls_b l)) ;;
  if negb (rm_in m x0 y0) && negb ignore then Some NOT_FREE else
  let dx := Z.abs (x1 - x0) in let sx := (if (x0 <? x1)%Z then 1 else -1)%Z in
  let dy := (- Z.abs (y1 - y0))%Z in let sy := (if (y0 <? y1)%Z then 1 else -1)%Z in
  r <- line_loop (S (Z.to_nat (Z.max dx (- dy)))) m (rp_min_cell p) ignore x0 y0 x1 y1 dx dy sx sy (dx + dy) 0 ;;
  if ignore || fst r then
    let cost := dir_cost p (ls_dir l) in
    if rp_use_map p then Some (cost * IZR (snd r) * rp_straight p / rm_res m)
    else Some (ls_length l * cost * rp_straight p)
  else Some NOT_FREE.

(** LineSegment.cpp:99-126: the points of one iteration. *)
Definition line_count (maxd : R) (l : lseg) : option Z :=
  if Req_EM_T maxd 0 then None else cast_i32 (ls_length l / maxd).
Definition line_pose (l : lseg) (n : Z) (k : Z) : pose :=
  let f := IZR k / IZR n in
  let q := padd (ls_a l) (pmul (psub (ls_b l) (ls_a l)) f) in
  Pose (px q) (py q) (ls_theta l + (if isBwd (ls_dir l) then PI else 0)).
Definition line_points (maxd : R) (l : lseg) : option (list pose) :=
  n <- line_count maxd l ;;
  Some (map (fun k => line_pose l n (Z.of_nat k)) (seq 0 (Z.to_nat n))).

(** ** CircleSegment *)
(** CircleSegment.h:120-129. m_arc_length, m_angle_step_size and m_steps are computed
    below from these: every setter of an angle recomputes them (compute_arc_length),
    and so does reset_iteration before the points are read. *)
Record cseg := CSeg { cs_ori : rori; cs_dir : rdir; cs_c : pt; cs_r : R; cs_a0 : R; cs_a1 : R }.
Definition cs_with_c (c : cseg) (p : pt) : cseg := CSeg (cs_ori c) (cs_dir c) p (cs_r c) (cs_a0 c) (cs_a1 c).
Definition cs_with_r (c : cseg) (r : R) : cseg := CSeg (cs_ori c) (cs_dir c) (cs_c c) r (cs_a0 c) (cs_a1 c).
(** CircleSegment.cpp:78-90. *)
Definition set_start (clamp : R -> R) (c : cseg) (a : R) : cseg := CSeg (cs_ori c) (cs_dir c) (cs_c c) (cs_r c) (clamp a) (cs_a1 c).
Definition set_end (clamp : R -> R) (c : cseg) (a : R) : cseg := CSeg (cs_ori c) (cs_dir c) (cs_c c) (cs_r c) (cs_a0 c) (clamp a).
(** CircleSegment.cpp:52-76: DTOR(90) is PI / 2. *)
Definition angle_for (c : cseg) (o : R) : R := match cs_ori c with LeftC => o - PI / 2 | RightC => o + PI / 2 end.
Definition set_start_for (clamp : R -> R) (c : cseg) (o : R) : cseg := set_start clamp c (angle_for c o).
Definition set_end_for (clamp : R -> R) (c : cseg) (o : R) : cseg := set_end clamp c (angle_for c o).
(** CircleSegment.cpp:102-110. *)
Definition cs_start_point (c : cseg) : pt := padd (cs_c c) (from_polar (cs_a0 c) (cs_r c)).
Definition cs_end_point (c : cseg) : pt := padd (cs_c c) (from_polar (cs_a1 c) (cs_r c)).

(** CircleSegment.cpp:272. *)
Definition must_be_positive (c : cseg) : bool := xorb (match cs_ori c with LeftC => true | RightC => false end) (isBwd (cs_dir c)).
(** CircleSegment.cpp:250-287. *)
Definition arc_len (clamp : R -> R) (c : cseg) : R :=
  let a := clamp (cs_a1 c - cs_a0 c) in
  let pos := Rleb 0 a in
  if must_be_positive c && negb pos then a + 2 * PI
  else if negb (must_be_positive c) && pos then a - 2 * PI
  else a.
(** CircleSegment.cpp:289-293. *)
Definition arc_step (clamp : R -> R) (maxd : R) (c : cseg) : R :=
  maxd / cs_r c * (if Rleb 0 (arc_len clamp c) then 1 else -1).
(** CircleSegment.cpp:296. *)
Definition arc_steps (clamp : R -> R) (maxd : R) (c : cseg) : option Z :=
  if Req_EM_T (arc_step clamp maxd c) 0 then None else
  n <- cast_i32 (Rabs (IZR (Zfloor (arc_len clamp c / arc_step clamp maxd c)))) ;; Some (Z.max 1 n).
(** CircleSegment.cpp:128-136. *)
Definition cs_arc (clamp : R -> R) (c : cseg) : R := Rabs (arc_len clamp c).
Definition cs_length (clamp : R -> R) (c : cseg) : R := cs_arc clamp c * cs_r c.

(** CircleSegment.cpp:314-331, the k-th point. *)
Definition heading_of (c : cseg) (a : R) : R := a + match cs_ori c with RightC => - (PI / 2) | LeftC => PI / 2 end.
Definition cs_pose (c : cseg) (a : R) : pose :=
  let q := padd (cs_c c) (rotate (Pt (cs_r c) 0) a) in Pose (px q) (py q) (heading_of c a).
(** CircleSegment.cpp:299-331: m_output runs from 0 to m_steps. *)
Definition circle_points (clamp : R -> R) (maxd : R) (c : cseg) : option (list pose) :=
  n <- arc_steps clamp maxd c ;;
  Some (map (fun k => cs_pose c (cs_a0 c + arc_step clamp maxd c * INR k)) (seq 0 (S (Z.to_nat n)))).

(** CircleSegment.cpp:142-171: the pairs (x, y) of the midpoint algorithm. *)
Fixpoint mid_loop (fuel : nat) (x y error : Z) : option (list (Z * Z)) :=
  match fuel with
  | O => None
  | S f =>
      if (x >=? y)%Z then
        let error1 := (error + y + (y + 1))%Z in
        let t := (if (error1 >=? 0)%Z then mid_loop f (x - 1) (y + 1) (error1 - x - (x - 1)) else mid_loop f x (y + 1) error1) in
        r <- t ;; Some ((x, y) :: r)
      else Some []
  end.
(** CircleSegment.cpp:188-197: the pixels of test4Points. *)
Definition four (cx cy x y : Z) : list (Z * Z) :=
  ((cx + x, cy + y) :: (if x =? 0 then [] else [(cx - x, cy + y)]) ++ (if y =? 0 then [] else [(cx + x, cy - y)])
   ++ (if (x =? 0) || (y =? 0) then [] else [(cx - x, cy - y)]))%Z.
(** CircleSegment.cpp:176-183. *)
Definition eight (cx cy x y : Z) : list (Z * Z) := four cx cy x y ++ (if (x =? y)%Z then [] else four cx cy y x).
(** CircleSegment.cpp:203-228. *)
Definition on_segment (clamp : R -> R) (maxd : R) (c : cseg) (a : R) : bool :=
  let s := clamp (cs_a0 c) in let e := clamp (cs_a1 c) in
  let increasing := Rltb 0 (arc_step clamp maxd c) in
  if Rltb e s then
    (if negb increasing then Rleb a s && Rleb e a else Rleb s a || Rleb a e)
  else
    (if increasing then Rleb s a && Rleb a e else Rleb a s || Rleb e a).
(** CircleSegment.cpp:199-248: result and what is added to m_weight. *)
Definition test_pixel (clamp : R -> R) (m : rmap) (p : rparams) (c : cseg) (ignore : bool) (cx cy : Z) (q : Z * Z) : bool * Z :=
  let x := fst q in let y := snd q in
  if rm_in m x y then
    if on_segment clamp (rp_maxd p) c (atan2 (IZR (y - cy)) (IZR (x - cx)))
    then (if ignore then true else rm_free m x y, Z.max (rp_min_cell p) (rm_val m x y))
    else (true, 0%Z)
  else (false, 0%Z).
(** CircleSegment.cpp:142-174: is_free and the final m_weight. *)
Definition check_circle (clamp : R -> R) (m : rmap) (p : rparams) (c : cseg) (ignore : bool) (cx cy r : Z) : option (bool * Z) :=
  oct <- mid_loop (Z.to_nat r + 2) r 0 (- r) ;;
  Some (fold_left (fun acc q => let t := test_pixel clamp m p c ignore cx cy q in (fst acc && fst t, (snd acc + snd t)%Z))
    (flat_map (fun xy => eight cx cy (fst xy) (snd xy)) oct) (true, 0%Z)).
(** CircleSegment.cpp:112-126. *)
Definition circle_weight (clamp : R -> R) (m : rmap) (p : rparams) (c : cseg) (ignore : bool) : option R :=
  cx <- cast_i32 (px (cs_c c)) ;; cy <- cast_i32 (py (cs_c c)) ;; r <- cast_i32 (cs_r c) ;;
  f <- check_circle clamp m p c ignore cx cy r ;;
  if ignore || fst f then
    let cost := dir_cost p (cs_dir c) in
    if rp_use_map p then Some (cost * IZR (snd f) * rp_curve p / rm_res m)
    else Some (cs_length clamp c * cost * rp_curve p)
  else Some NOT_FREE.

(** ** GeometryHelper *)
(** GeometryHelper.cpp:37-73. *)
Definition external_tangent (clamp : R -> R) (f : cseg) (l : rdir) (t : cseg) : cseg * lseg * cseg :=
  let direction := psub (cs_c t) (cs_c f) in
  let o := angle direction - (if isBwd l then PI else 0) in
  let off := pmul (normalize (ortho direction)) (cs_r f) in
  let off := if xorb (match cs_ori f with RightC => true | LeftC => false end) (isBwd l) then pmul off (-1) else off in
  (set_end_for clamp f o, LS l (padd (cs_c f) off) (padd (cs_c t) off), set_start_for clamp t o).
(** GeometryHelper.cpp:75-126. *)
Definition internal_tangent (clamp : R -> R) (f : cseg) (l : rdir) (t : cseg) : cseg * lseg * cseg :=
  let direction := psub (cs_c t) (cs_c f) in
  let gamma := acos ((cs_r f + cs_r t) / len direction) in
  let o := angle direction in
  let gamma := match cs_ori f with RightC => gamma | LeftC => - gamma end in
  let gamma := if isBwd l then - gamma else gamma in
  let f' := set_end clamp f (o + gamma) in
  let t' := set_start clamp t (o + gamma + PI) in
  let off := psub (cs_end_point f') (cs_c f') in
  (f', LS l (padd (cs_c f) off) (psub (cs_c t) off), t').
Definition ori_eqb (a b : rori) : bool := match a, b with LeftC, LeftC | RightC, RightC => true | _, _ => false end.
(** GeometryHelper.cpp:17-35; [None]: returns false. *)
Definition common_tangent (clamp : R -> R) (f : cseg) (l : rdir) (t : cseg) : option (cseg * lseg * cseg) :=
  if Rlt_dec (len (psub (cs_c f) (cs_c t))) (cs_r f + cs_r t) then None
  else if ori_eqb (cs_ori f) (cs_ori t) then Some (external_tangent clamp f l t) else Some (internal_tangent clamp f l t).

(** GeometryHelper.cpp:159-211. *)
Definition tangential_circle (clamp : R -> R) (pos : bool) (c1 c2 c3 : cseg) : cseg * cseg * cseg :=
  let s := cs_c c1 in let g := cs_c c3 in
  let delta := psub g s in
  let diameter := 2 * cs_r c1 in
  let gamma0 := acos ((len delta / 2) / diameter) in
  let gamma := if pos then gamma0 else - gamma0 in
  let C := padd s (from_polar (gamma + angle delta) diameter) in
  let c1' := set_end clamp c1 (angle (psub C s)) in
  let c3' := set_start clamp c3 (angle (psub C g)) in
  let c2' := set_end clamp (set_start clamp (cs_with_c c2 C) (cs_a1 c1' + PI)) (cs_a0 c3' + PI) in
  (c1', c2', c3').
(** GeometryHelper.cpp:220-281. *)
Definition tangential_double_circle (clamp : R -> R) (pos : bool) (c1 c2 c3 c4 : cseg) : cseg * cseg * cseg * cseg :=
  let s := cs_c c1 in let g := cs_c c4 in
  let delta := psub g s in
  let r := cs_r c1 in let diameter := 2 * r in
  let theta := angle delta in
  let gamma0 := acos ((len delta / 2 - r) / diameter) in
  let gamma := if pos then gamma0 else - gamma0 in
  let c12 := from_polar (gamma + theta) diameter in
  let c23 := from_polar theta diameter in
  let C2 := padd s c12 in let C3 := padd C2 c23 in
  let c2a := set_end clamp (cs_with_c c2 C2) (angle c23) in
  let c3a := set_start clamp (cs_with_c c3 C3) (angle c23 + PI) in
  let c1' := set_end clamp c1 (angle (psub C2 s)) in
  let c4' := set_start clamp c4 (angle (psub C3 g)) in
  (c1', set_start clamp c2a (cs_a1 c1' + PI), set_end clamp c3a (cs_a0 c4' + PI), c4').

(** ** Curve *)
Inductive seg := SegL (l : lseg) | SegC (c : cseg).
Fixpoint sum_weights (clamp : R -> R) (m : rmap) (p : rparams) (ignore : bool) (cs : list seg) : option R :=
  match cs with
  | [] => Some 0
  | s :: t =>
      w <- match s with SegL l => line_weight m p l ignore | SegC c => circle_weight clamp m p c ignore end ;;
      r <- sum_weights clamp m p ignore t ;; Some (w + r)
  end.

(** GeometryHelper.cpp:284-331 on a list of circles; [cb true], [cb false]: the
    segments after the two callbacks (which always succeed). Returns the segments
    left behind and the result. *)
Definition symmetry_helper (clamp : R -> R) (m : rmap) (p : rparams) (ignore : bool)
    (front back : pt) (r maxdist : R) (cb : bool -> list seg) (before : list seg) : option (list seg * bool) :=
  let d := len (psub front back) in
  if Rlt_dec d 2 then Some (before, false) else
  if Rlt_dec (maxdist * r) d then Some (before, false) else
  wp <- sum_weights clamp m p ignore (cb true) ;;
  wn <- sum_weights clamp m p ignore (cb false) ;;
  if Rleb NOT_FREE wn && Rleb NOT_FREE wp then Some (cb false, false)
  else Some (if Rltb wp wn then cb true else cb false, true).

(** Curve.cpp:247-253. *)
Definition center_left (q : pose) (r : R) : pt := let d := from_polar (po_th q + PI / 2) r in Pt (po_x q + px d) (po_y q + py d).
Definition center_right (q : pose) (r : R) : pt := let d := from_polar (po_th q + PI / 2) r in Pt (po_x q - px d) (po_y q - py d).
Definition center_for (o : rori) (q : pose) (r : R) : pt := match o with LeftC => center_left q r | RightC => center_right q r end.

(** Curve.cpp:119-166 for a circle that starts (ends) the curve. The centre and the
    other angle of the stored segment are kept from the last call. *)
Definition init_first (clamp : R -> R) (p : rparams) (start : pose) (c : cseg) : cseg :=
  let c := cs_with_r c (rp_radius p) in
  set_start_for clamp (cs_with_c c (center_for (cs_ori c) start (rp_radius p))) (po_th start).
Definition init_last (clamp : R -> R) (p : rparams) (goal : pose) (c : cseg) : cseg :=
  let c := cs_with_r c (rp_radius p) in
  set_end_for clamp (cs_with_c c (center_for (cs_ori c) goal (rp_radius p))) (po_th goal).
Definition init_mid (p : rparams) (c : cseg) : cseg := cs_with_r c (rp_radius p).

(** Curve.cpp:94-245: the segments and m_weight afterwards; [None]: the assertion on
    the kinds of the first and the last segment fails, or undefined behaviour. A
    sequence of one circle is never dealt with (size below 3). *)
Definition admissible (clamp : R -> R) (m : rmap) (p : rparams) (ignore : bool) (start goal : pose) (sq : list seg) : option (list seg * R) :=
  if negb ((3 <=? length sq)%nat && (length sq <=? 4)%nat) then Some (sq, NOT_FREE) else
  if Rlt_dec (pose_dist start goal) 2 then Some (sq, NOT_FREE) else
  match sq with
  | [SegC c1; SegL l; SegC c3] =>
      let c1 := init_first clamp p start c1 in let c3 := init_last clamp p goal c3 in
      match common_tangent clamp c1 (ls_dir l) c3 with
      | None => Some ([SegC c1; SegL l; SegC c3], NOT_FREE)
      | Some (a, b, c) => w <- sum_weights clamp m p ignore [SegC a; SegL b; SegC c] ;; Some ([SegC a; SegL b; SegC c], w)
      end
  | [SegC c1; SegC c2; SegC c3] =>
      let c1 := init_first clamp p start c1 in let c3 := init_last clamp p goal c3 in let c2 := init_mid p c2 in
      r <- symmetry_helper clamp m p ignore (cs_c c1) (cs_c c3) (cs_r c1) 4
        (fun b => match tangential_circle clamp b c1 c2 c3 with (x, y, z) => [SegC x; SegC y; SegC z] end) [SegC c1; SegC c2; SegC c3] ;;
      if snd r then w <- sum_weights clamp m p ignore (fst r) ;; Some (fst r, w) else Some (fst r, NOT_FREE)
  | [SegC c1; SegC c2; SegC c3; SegC c4] =>
      let c1 := init_first clamp p start c1 in let c4 := init_last clamp p goal c4 in let c2 := init_mid p c2 in let c3 := init_mid p c3 in
      r <- symmetry_helper clamp m p ignore (cs_c c1) (cs_c c4) (cs_r c1) 6
        (fun b => match tangential_double_circle clamp b c1 c2 c3 c4 with (x, y, z, u) => [SegC x; SegC y; SegC z; SegC u] end) [SegC c1; SegC c2; SegC c3; SegC c4] ;;
      if snd r then w <- sum_weights clamp m p ignore (fst r) ;; Some (fst r, w) else Some (fst r, NOT_FREE)
  | [SegC c1; s2; s3; SegC c4] =>
      Some ([SegC (init_first clamp p start c1); s2; s3; SegC (init_last clamp p goal c4)], NOT_FREE)
  | _ => None
  end.
(** Curve.cpp:269-280. *)
Definition curve_arc (clamp : R -> R) (sq : list seg) : R :=
  fold_left (fun a s => match s with SegC c => a + cs_arc clamp c | SegL _ => a end) sq 0.
(** Curve.cpp:256-263. *)
Definition is_valid (w : R) : bool := if Rlt_dec w (1 / 1000) then false else Rltb w NOT_FREE.

(** ** CurveGenerator *)
(** CurveGenerator.cpp:187-215 on the stored sequences: the sequences afterwards and
    the best one with its weight. [maxarc = None]: m_max_curve_arc was never set (the
    constructor does not initialise it), reading it is undefined. *)
Fixpoint find_loop (clamp : R -> R) (m : rmap) (p : rparams) (ignore : bool) (start goal : pose) (maxarc : option R)
    (cs : list (list seg)) (best : option (list seg)) (bw : R) : option (list (list seg) * option (list seg) * R) :=
  match cs with
  | [] => Some ([], best, bw)
  | c :: t =>
      r <- admissible clamp m p ignore start goal c ;;
      let c' := fst r in let w := snd r in
      u <- (if Rltb w bw then
              ma <- maxarc ;;
              Some (if Rltb (curve_arc clamp c') ma then (Some c', w) else (best, bw))
            else Some (best, bw)) ;;
      v <- find_loop clamp m p ignore start goal maxarc t (fst u) (snd u) ;;
      Some (c' :: fst (fst v), snd (fst v), snd v)
  end.
(** CurveGenerator.cpp:180-222. *)
Definition find_path (clamp : R -> R) (m : rmap) (p : rparams) (ignore : bool) (start goal : pose) (maxarc : option R) (cs : list (list seg)) :=
  match cs with [] => None | _ => find_loop clamp m p ignore start goal maxarc cs None NOT_FREE end.

(** A parsed segment before its first use (CircleSegment.cpp:14-19; the centre, radius
    and line points are set before they are read). *)
Definition new_seg (s : pseg) : seg :=
  match s with
  | PLine d => SegL (LS d (Pt 0 0) (Pt 0 0))
  | PCirc o d => SegC (CSeg o d (Pt 0 0) 0 0 0)
  end.

(** The points of a segment. *)
Definition seg_points (clamp : R -> R) (maxd : R) (s : seg) : option (list pose) :=
  match s with SegL l => line_points maxd l | SegC c => circle_points clamp maxd c end.

(** ** Iteration (Curve.cpp:282-333) over segments given by their points *)
Section Iteration.
  Variable A : Type.
  Variable dflt : A.
  (** One segment: its points, m_output and m_iterating. *)
  Record siter := SI { si_pts : list A; si_out : nat; si_on : bool }.
  Definition s_reset (s : siter) : siter := SI (si_pts s) 0 true.
  (** CircleSegment.cpp:307-312, LineSegment.cpp:106-111; [None]: the assertion fails. *)
  Definition s_has_next (s : siter) : option bool := if si_on s then Some (si_out s <? length (si_pts s))%nat else None.
  Definition s_next (s : siter) : option (A * siter) :=
    if si_on s then a <- nth_error (si_pts s) (si_out s) ;; Some (a, SI (si_pts s) (S (si_out s)) true) else None.
  Record citer := CI { ci_segs : list siter; ci_out : nat; ci_on : bool }.
  (** Curve.cpp:282-292. *)
  Definition c_reset (c : citer) : citer := CI (map s_reset (ci_segs c)) (match ci_segs c with [] => ci_out c | _ => 0%nat end) true.
  (** Curve.cpp:294-308: result and the curve afterwards. *)
  Definition c_has_next (c : citer) : option (bool * citer) :=
    match nth_error (ci_segs c) (ci_out c) with
    | Some s => b <- s_has_next s ;; Some (b || (S (ci_out c) <? length (ci_segs c))%nat, c)
    | None => Some (false, CI (ci_segs c) (ci_out c) false)
    end.
  (** Curve.cpp:310-333; the fuel bounds the recursion over segments. *)
  Fixpoint c_next (fuel : nat) (c : citer) : option (A * citer) :=
    match fuel with
    | O => None
    | S f =>
        s <- nth_error (ci_segs c) (ci_out c) ;;
        b <- s_has_next s ;;
        if b then
          r <- s_next s ;; segs <- list_set (ci_segs c) (ci_out c) (snd r) ;; Some (fst r, CI segs (ci_out c) (ci_on c))
        else
          h <- c_has_next c ;;
          if fst h then
            n <- nth_error (ci_segs (snd h)) (S (ci_out (snd h))) ;;
            segs <- list_set (ci_segs (snd h)) (S (ci_out (snd h))) (s_reset n) ;;
            c_next f (CI segs (S (ci_out (snd h))) (ci_on (snd h)))
          else Some (dflt, snd h)
    end.
  (** while(has_next()) next(); with at most [n] points. *)
  Fixpoint drain (n : nat) (c : citer) : option (list A * bool) :=
    h <- c_has_next c ;;
    if fst h then
      match n with
      | O => Some ([], false)
      | S k => r <- c_next (S (length (ci_segs c))) (snd h) ;; t <- drain k (snd r) ;; Some (fst r :: fst t, snd t)
      end
    else Some ([], true).
End Iteration.
