(** Model of I/evaluation/Renderer.hpp (MapRenderer, for a map manager without padding),
    I/evaluation/Util.hpp and the video part of S/evaluation/evaluator.cpp.
    cv::rectangle sets exactly the pixels of the image it is to set; a line of two pixels
    is a parameter ([thick]).  Exact arithmetic for double; the sizes of the picture in
    pixels are below 2^31. *)
From Coq Require Import Reals.
From Flocq Require Import Raux.
From Verif Require Import Base GridMap GeomR EvaluatorModel.
Local Open Scope Z_scope.

(** cv::Vec3b and cv::Mat; [cv_pix column row]. *)
Definition colour : Type := Z * Z * Z.
Record canvas := Canvas { cv_rows : Z; cv_cols : Z; cv_pix : Z -> Z -> colour }.
Definition inside (x1 y1 x2 y2 c r : Z) : bool := (x1 <=? c) && (c <=? x2) && (y1 <=? r) && (r <=? y2).
Definition outline (x1 y1 x2 y2 c r : Z) : bool :=
  inside x1 y1 x2 y2 c r && ((c =? x1) || (c =? x2) || (r =? y1) || (r =? y2)).
Definition paint (s : Z -> Z -> bool) (v : colour) (i : canvas) : canvas :=
  Canvas (cv_rows i) (cv_cols i) (fun c r => if s c r then v else cv_pix i c r).
(** out_.at<cv::Vec3b>(r, c) = v; [None]: outside the picture. *)
Definition put (c r : Z) (v : colour) (i : canvas) : option canvas :=
  if (0 <=? c) && (c <? cv_cols i) && (0 <=? r) && (r <? cv_rows i)
  then Some (paint (fun c' r' => (c' =? c) && (r' =? r)) v i) else None.
Fixpoint ofold {A B} (f : A -> B -> option B) (l : list A) (b : B) : option B :=
  match l with [] => Some b | a :: l' => b' <- f a b ;; ofold f l' b' end.

Section Renderer.
  Variable S : Z.                             (* Scale *)
  Variable anthracite : colour.
  Variable thick : Z -> Z -> Z -> Z -> Z -> Z -> bool.  (* outline of two pixels *)
  Variable img_w img_h : Z.                   (* setMap, Renderer.hpp:63-71 *)

  (** Renderer.hpp:301-303, fill for Scale 1. *)
  Definition fill1 (x y : Z) (v : colour) (i : canvas) : option canvas := put x (cv_rows i - 1 - y) v i.
  (** Renderer.hpp:305-330, fill for the other scales. *)
  Definition fill_pixel (v : colour) (dx dy : Z) (i : canvas) : option canvas :=
    let yy := i32 (u32 (cv_rows i - 1 - dy)) in let xx := i32 (u32 dx) in
    if (yy <? 0) || (xx <? 0) || (yy >=? img_h) || (xx >=? img_w) then Some i else put xx yy v i.
  Definition fillN (x y : Z) (v : colour) (i : canvas) : option canvas :=
    let sx := u32 (S * x) in let sy := u32 (S * y) in
    i' <- ofold (fun dy => ofold (fun dx => fill_pixel v (sx + dx) (sy + dy)) (upto S)) (upto S) i ;;
    Some (if S >? 2 then
            let yy := i32 (u32 (cv_rows i - 1 - sy - S)) in
            paint (outline sx yy (sx + S) (yy + S)) anthracite i'
          else i').
  Definition fill (x y : Z) (v : colour) (i : canvas) : option canvas := if S =? 1 then fill1 x y v i else fillN x y v i.

  (** Renderer.hpp:290-298: the lines every metre; [metre] = Scale / resolution, truncated. *)
  Definition multiples (m n : Z) : list Z := map (fun k => k * m) (upto (if m >? 0 then (n + m - 1) / m else 0)).
  Definition metre_lines (metre : Z) (i : canvas) : canvas :=
    fold_left (fun j y => fold_left (fun j x => paint (thick x y (x + metre) (y + metre)) anthracite j)
      (multiples metre (cv_cols i)) j) (multiples metre (cv_rows i)) i.
  (** Renderer.hpp:250-299, renderMap, after findFocus; [col x y] the colour of a cell. *)
  Definition renderMap (map_w map_h : Z) (col : Z -> Z -> option colour) (metre : Z) (i : canvas) : option canvas :=
    i' <- ofold (fun y => ofold (fun x j => v <- col x y ;; fill x y v j) (upto map_w)) (upto map_h) i ;;
    Some (if metre >? 2 then metre_lines metre i' else i').

  (** Renderer.hpp:93-157, analyze and visualizeSearchSpaceGrid: the nodes in the order of the loops
      ([dist x y t]: [None] if there is no node or its distance is INFINITY or the largest
      double), the colour from two of the five stages. *)
  Variable mix : Z -> Z -> R -> R -> colour.  (* stages[a] * fa + stages[b] * fb, whatever stages[-1] is *)
  Definition stage_count : Z := 5.
  Definition analyze (ds : list R) : R := fold_left (fun m d => if Rlt_bool m d then d else m) ds 1%R.
  Definition shade (d max_dist : R) : Z * Z * R * R :=
    let col_angle := (d / max_dist - / 10000)%R in
    let idx := (col_angle * IZR (stage_count - 1))%R in
    let a := Zfloor idx in let b := Z.min (stage_count - 1) (a + 1) in
    (a, b, Rabs (idx - IZR b), Rabs (idx - IZR a)).
  Definition in_table (a : Z) : bool := (0 <=? a) && (a <? stage_count).
  Definition node_rect (map_h x y : Z) (c r : Z) : bool :=
    let w := S - 1 in let x_ := x * S in let y_ := (map_h - y - 1) * S in inside x_ y_ (x_ + w) (y_ + w) c r.
  Definition nodes (map_w map_h slots : Z) (dist : Z -> Z -> Z -> option R) : list (Z * Z * R) :=
    flat_map (fun t => flat_map (fun y => flat_map (fun x => match dist x y t with Some d => [(x, y, d)] | None => [] end)
      (upto map_w)) (upto map_h)) (upto slots).
  (** The picture, and whether all accesses to the table of colours were inside it. *)
  Definition visualizeSearchSpaceGrid (map_w map_h slots : Z) (dist : Z -> Z -> Z -> option R) (i : canvas) : canvas * bool :=
    let ns := nodes map_w map_h slots dist in
    let max_dist := analyze (map snd ns) in
    fold_left (fun s n =>
      let '(a, b, fa, fb) := shade (snd n) max_dist in
      (paint (node_rect map_h (fst (fst n)) (snd (fst n))) (mix a b fa fb) (fst s), snd s && in_table a && in_table b)) ns (i, true).

  (** Util.hpp:29-33, p2cv, of a point with whole coordinates. *)
  Definition p2cv (img_height x y : Z) : Z * Z := (x * S, (img_height - y) * S).
  (** Renderer.hpp:385-394, fillCell, with the colour of the border; std::ceil(Scale / 4.0)
      pixels of border are a parameter. *)
  Definition fillCell (border : Z -> Z -> Z -> Z -> Z -> Z -> bool) (map_h x y : Z) (v bv : colour) (i : canvas) : canvas :=
    let '(tx, ty) := p2cv map_h x (y + 1) in
    paint (border tx ty (tx + S) (ty + S)) bv (paint (inside tx ty (tx + S) (ty + S)) v i).

  (** Renderer.hpp:260-285: the colour of a cell; [h]: its estimate, negative if the search
      has none. *)
  Definition grey (render_offset render_factor h : R) : option Z :=
    cast_u32 (255 - Rmin 155 (Rmax 0 ((h + render_offset) * render_factor / 255 * 155)))%R.
  Definition cell_colour (m : gridmap) (heur : Z -> Z -> R) (ro rf : R) (x y : Z) : option colour :=
    f <- isFree m x y ;;
    if (f : bool) then
      if Rlt_bool (heur x y) 0 then Some (220, 200, 200)
      else v <- grey ro rf (heur x y) ;; Some (v, v, v)
    else Some anthracite.

  (** Renderer.hpp:396-434, setFocus; [None] of [heur]: the largest double. *)
  Definition dbl_max : R := IZR (2 ^ 1024 - 2 ^ 971).
  Definition dbl_min : R := / IZR (2 ^ 1022).
  Definition around (r : Z) : list Z := map (fun k => k - r) (upto (2 * r + 1)).
  Definition focus_step (m : gridmap) (heur : Z -> Z -> option R) (x y : Z) (s : R * R) : option (R * R) :=
    if isInMap m x y then
      f <- isFree m x y ;;
      if (f : bool) then
        Some match heur x y with
             | Some v => let mx := if Rlt_bool (snd s) v then v else snd s in
                         let mn := if Rlt_bool v (fst s) then v else fst s in (mn, mx)
             | None => s
             end
      else Some s
    else Some s.
  Definition setFocus (m : gridmap) (heur : Z -> Z -> option R) (rows x_img y_img radius : Z) : option (R * R) :=
    let x := Z.quot x_img S in let y := Z.quot (rows - y_img) S in
    s <- ofold (fun dy => ofold (fun dx => focus_step m heur (x + dx) (y + dy)) (around radius)) (around radius) (dbl_max, dbl_min) ;;
    Some ((- fst s)%R, (255 / (snd s - fst s))%R).
  (** Renderer.hpp:83-91, findFocus of a renderer that has none yet. *)
  Definition findFocus (m : gridmap) (heur : Z -> Z -> option R) (rows : Z) : option (R * R) :=
    let wh := img_w / 2 in let hh := img_h / 2 in setFocus m heur rows wh hh (Z.max wh hh).
End Renderer.

(** evaluator.cpp:436-460 and 545-591: which pictures go to the video.  [v_frames]: the
    numbers of the calls of draw whose picture is written, latest first. *)
Record video := Video { v_image : Z; v_flag : bool; v_skipped : Z; v_draws : nat; v_frames : list nat }.
(** evaluator.cpp:138-142. *)
Definition new_video : video := Video 1 false 0 0 [].
(** evaluator.cpp:438-459, the recording part of draw. *)
Definition draw (fps : nat) (skip_images : Z) (v : video) : video :=
  let n := Datatypes.S (v_draws v) in
  let flag := if v_image v =? 1 then true else v_flag v in
  let image := v_image v + 1 in
  if flag then Video image false (v_skipped v) n (repeat n (4 * fps) ++ v_frames v)
  else let s := v_skipped v - 1 in
       if s <=? 0 then Video image false skip_images n (n :: v_frames v) else Video image false s n (v_frames v).
Definition set_flag (v : video) : video := Video (v_image v) true (v_skipped v) (v_draws v) (v_frames v).
(** evaluator.cpp:545-575 as called by render (577-591): the search draws [n] times. *)
Definition record (fps : nat) (skip_images : Z) (n : nat) : list nat :=
  rev (v_frames (draw fps skip_images (set_flag (draw fps skip_images
    (Nat.iter n (draw fps skip_images) new_video))))).
