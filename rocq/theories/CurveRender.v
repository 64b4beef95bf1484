(** Model of S/ReedsShepp/CurveRenderer.cpp (draw_map, draw, draw_arrow): the pixels that
    draw_map sets in the picture, and the calls of cv::circle, cv::putText and cv::line
    that draw makes, in their order.

    Simplifications: exact arithmetic for double; which pixels OpenCV sets for a line, a
    circle or a text is not modelled, nor the text; the map is a SimpleGridMap2d.
    snapshot_in_new_window (draw and a window) and display_overlay (text only) are left
    out. *)
From Coq Require Import Reals.
From Verif Require Import Base GridMap GeomR EvaluatorModel RenderModel RSParse RSModel.
Local Open Scope R_scope.

(** CurveRenderer.cpp:37-44: the colour of a cell. *)
Definition cell_colour (m : gridmap) (x y : Z) : option colour :=
  f <- isFree m x y ;;
  if (f : bool) then Some (255, 255, 255)%Z else v <- getValue m x y ;; Some ((255 - v) mod 256, 0, 0)%Z.
(** CurveRenderer.cpp:34-50; [None]: outside the picture. The row is computed in unsigned. *)
Definition draw_map (m : gridmap) (i : canvas) : option canvas :=
  ofold (fun y => ofold (fun x j => v <- cell_colour m x y ;; put x (i32 (u32 (cv_rows j - 1 - y))) v j) (upto (gm_w m))) (upto (gm_h m)) i.

(** CurveRenderer.h:24-27; [None]: undefined conversion to int. *)
Definition p2cv (p : pt) (h : Z) : option (Z * Z) :=
  x <- cast_i32 (px p) ;; y <- cast_i32 (IZR h - py p) ;; Some (x, y).

(** Calls of OpenCV: centre, radius, colour, thickness; position; ends, colour, thickness. *)
Inductive cmd :=
  | DCircle (c : Z * Z) (r : Z) (col : colour) (t : Z)
  | DText (c : Z * Z)
  | DLine (a b : Z * Z) (col : colour) (t : Z).

(** CurveRenderer.cpp:107-130. [scale]: 1 or 0.4f. *)
Definition arrow_tip (q : pose) (scale : R) : pt := padd (pt_of_pose q) (rotate (Pt (18 * scale) (0 * scale)) (po_th q)).
Definition arrow_left (q : pose) (scale : R) : pt := padd (pt_of_pose q) (rotate (Pt (12 * scale) (-5 * scale)) (po_th q)).
Definition arrow_right (q : pose) (scale : R) : pt := padd (pt_of_pose q) (rotate (Pt (12 * scale) (5 * scale)) (po_th q)).
Definition draw_arrow (h : Z) (q : pose) (col : colour) (scale : R) : option (list cmd) :=
  t <- cast_i32 (2 * scale) ;;
  a <- p2cv (pt_of_pose q) h ;; tip <- p2cv (arrow_tip q scale) h ;;
  l <- p2cv (arrow_left q scale) h ;; r <- p2cv (arrow_right q scale) h ;;
  Some [DLine a tip col t; DLine tip l col t; DLine tip r col t].

(** CurveRenderer.cpp:69-88: the circles and lines the segments lie on. *)
Definition draw_seg (h : Z) (bg : colour) (s : seg) : option (list cmd) :=
  match s with
  | SegC c => o <- p2cv (cs_c c) h ;; r <- cast_i32 (cs_r c) ;; Some [DCircle o r bg 4; DText o]
  | SegL l => a <- p2cv (ls_a l) h ;; b <- p2cv (ls_b l) h ;; Some [DLine a b bg 4]
  end.
Fixpoint each {A} (f : A -> option (list cmd)) (l : list A) : option (list cmd) :=
  match l with [] => Some [] | a :: r => x <- f a ;; y <- each f r ;; Some (x ++ y) end.

(** CurveRenderer.cpp:91-99: lines from pose to pose. *)
Fixpoint draw_lines (h : Z) (last : pose) (l : list pose) : option (list cmd) :=
  match l with
  | [] => Some []
  | n :: r => a <- p2cv (pt_of_pose last) h ;; b <- p2cv (pt_of_pose n) h ;; t <- draw_lines h n r ;; Some (DLine a b (100, 100, 100)%Z 1 :: t)
  end.

(** while(has_next()) next(); with at most [n] points; [None]: an assertion fails or there
    are more points. Unlike [drain] (RSModel.v) with the curve afterwards. *)
Fixpoint walk (n : nat) (c : citer pose) : option (list pose * citer pose) :=
  h <- c_has_next pose c ;;
  if fst h then
    match n with
    | O => None
    | S k => r <- c_next pose pose0 (S (length (ci_segs pose c))) (snd h) ;; t <- walk k (snd r) ;; Some (fst r :: fst t, snd t)
    end
  else Some ([], snd h).

(** 0.4f. *)
Definition small : R := 13421773 / 33554432.
(** CurveRenderer.cpp:52-105. [empty]: of the picture; [w]: the weight of the curve; [c]:
    its iteration; [h]: the height of its map. *)
Definition draw (n : nat) (empty : bool) (h : Z) (bg : colour) (w : R) (start goal : pose) (sq : list seg) (c : citer pose) : option (list cmd) :=
  if empty then Some [] else
  if is_valid w then
    g <- each (draw_seg h bg) sq ;;
    p <- walk n (c_reset pose c) ;;
    l <- draw_lines h start (fst p) ;;
    q <- walk n (c_reset pose (snd p)) ;;
    a <- each (fun s => draw_arrow h s (200, 200, 200)%Z small) (fst q) ;;
    e <- draw_arrow h goal (50, 50, 200)%Z 1 ;;
    s <- draw_arrow h start (50, 200, 50)%Z 1 ;;
    Some (g ++ l ++ a ++ e ++ s)
  else Some [].
