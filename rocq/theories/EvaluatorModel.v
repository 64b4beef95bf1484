(** Model of the interactive evaluation tool: S/evaluation/evaluator.cpp with
    I/evaluation/evaluator.h and I/evaluation/Renderer.hpp, as far as its map,
    start, goal and files are concerned (drawing, the search itself, the video
    and the focus circle are left out).

    [T]: doubles that go through the YAML file (heading, resolution);
    [through]: what emitting and reading such a number makes of it.
    Whole numbers are written and read exactly.  cv::imwrite of the image and
    writing the text to the opened file are each one step on the disk.
    cv::rectangle with CV_FILLED sets exactly the pixels of the image between
    its corners.  Mouse coordinates times 8 do not overflow int. *)
From Verif Require Import Base GridMap.

Definition image : Type := Z -> Z -> Z.       (* orig_map.at<uint8_t>(y, x) as [i x y] *)
(** evaluator.h:109. *)
Definition SCALE : Z := 8.
Definition upto (n : Z) : list Z := map Z.of_nat (seq 0 (Z.to_nat n)).

Section Evaluator.
  Variable T : Type.
  Variable teqb : T -> T -> bool.             (* == on doubles *)
  Variable through : T -> T.
  Variable half_pi nil : T.                   (* M_PI / 2 and 0 * M_PI *)
  Variable atan2 : Z -> Z -> T.
  (** Maze (false) or HilbertCurve (true) of a given width on a given image
      (MapGenerators.hpp; modelled in MazeModel.v and HilbertModel.v); [None]:
      it does not end or leaves its arrays. *)
  Variable generator : bool -> Z -> image -> Z * Z * T -> Z * Z * T -> option image.

  Notation pose := (Z * Z * T)%type.

  Inductive drag_t := DRAG_LEFT | DRAG_RIGHT | DRAG_NONE.
  Inductive mode_t := SET_GOAL | SET_START | SET_FOCUS | SET_OBSTACLE | MAKE_MAZE | MAKE_FILLING_CURVE.

  (** evaluator.h:176-217, the members in question. *)
  Record evaluator := Ev {
    e_w : Z; e_h : Z; e_res : T;
    e_orig : image; e_map : gridmap;
    e_start : pose; e_goal : pose;
    e_drag : drag_t; e_mode : mode_t;
    e_from : Z * Z;                           (* drag_start *)
    e_sel : Z }.                              (* selection.width *)

  (** The two files. The text file may be there but empty: it is opened (which
      empties it) before it is written. *)
  Inductive text := Empty | Doc (res : T) (start goal : pose).
  Record disk := Disk { d_ppm : option (Z * Z * image); d_yaml : option text }.
  Inductive write := WriteImage (w h : Z) (i : image) | OpenText | WriteText (t : text).
  Definition do_write (d : disk) (x : write) : disk :=
    match x with
    | WriteImage w h i => Disk (Some (w, h, i)) (d_yaml d)
    | OpenText => Disk (d_ppm d) (Some Empty)
    | WriteText t => Disk (d_ppm d) (Some t)
    end.
  Definition do_writes (d : disk) (l : list write) : disk := fold_left do_write l d.

  (** evaluator.cpp:277-293, saveMap; the text as it will be read back. *)
  Definition file_pose (p : pose) : pose := (fst p, through (snd p)).
  Definition saveMap (e : evaluator) : list write :=
    [WriteImage (e_w e) (e_h e) (e_orig e); OpenText; WriteText (Doc (through (e_res e)) (file_pose (e_start e)) (file_pose (e_goal e)))].

  (** evaluator.cpp:254-274, generateMap, the loops; [None]: an assertion fails
      or setValue leaves the map. *)
  Fixpoint generate (i : image) (cells : list (Z * Z)) (m : gridmap) : option gridmap :=
    match cells with
    | [] => Some m
    | (x, y) :: r =>
        let val := i x y in
        m' <- setValue m x y (if val =? 0 then 255 else 0) ;;
        f <- isFree m' x y ;;
        if (if val =? 0 then negb f else f) then generate i r m' else None
    end.
  Definition scan (w h : Z) : list (Z * Z) := flat_map (fun y => map (fun x => (x, y)) (upto w)) (upto h).
  Definition with_map (e : evaluator) (i : image) (m : gridmap) : evaluator :=
    Ev (e_w e) (e_h e) (e_res e) i m (e_start e) (e_goal e) (e_drag e) (e_mode e) (e_from e) (e_sel e).
  Definition generateMap (save : bool) (e : evaluator) (i : image) : option (evaluator * list write) :=
    m <- generate i (scan (e_w e) (e_h e)) (e_map e) ;;
    let e' := with_map e i m in
    Some (e', if save then saveMap e' else []).

  (** cv::rectangle(orig_map, p, q, col, CV_FILLED). *)
  Definition rectangle (i : image) (p q : Z * Z) (col : Z) : image := fun x y =>
    if (Z.min (fst p) (fst q) <=? x) && (x <=? Z.max (fst p) (fst q)) &&
       (Z.min (snd p) (snd q) <=? y) && (y <=? Z.max (snd p) (snd q)) then col else i x y.

  (** evaluator.cpp:204-214, 217-221: the images of invertMap and clearMap
      (val = 255 - val in uint8_t; img is SCALE times as large as the map). *)
  Definition inverted (w h : Z) (i : image) : image := fun x y =>
    if (0 <=? x) && (x <? w) && (0 <=? y) && (y <? h) then 255 - i x y else i x y.
  Definition cleared (w h : Z) (i : image) : image := rectangle i (0, 0) (w * SCALE - 1, h * SCALE - 1) 255.

  (** evaluator.cpp:224-247, makeMaze and makeSpaceFillingCurve. *)
  Definition make (curve : bool) (width : Z) (e : evaluator) : option (evaluator * list write) :=
    let i0 := cleared (e_w e) (e_h e) (e_orig e) in
    r1 <- generateMap false e i0 ;;
    let i1 := inverted (e_w e) (e_h e) i0 in
    r2 <- generateMap false (fst r1) i1 ;;
    i2 <- generator curve (Z.max 1 (Z.quot width SCALE)) i1 (e_start e) (e_goal e) ;;
    generateMap true (fst r2) i2.

  (** evaluator.cpp:177-196, initDefaultMap, and the constructor's members
      (137-141); map_info is a new SimpleGridMap2d of that size. *)
  Definition blank (w h : Z) (res : T) (start goal : pose) : evaluator :=
    Ev w h res (fun _ _ => 255) (setUpperThreshold 50 (setLowerThreshold 20 (gm_new w h))) start goal DRAG_NONE SET_FOCUS (0, 0) 0.
  Definition initDefaultMap (w h : Z) (res : T) : option (evaluator * list write) :=
    generateMap true (blank w h res (1, 1, half_pi) (w - 1, h - 1, nil)) (fun _ _ => 255).

  (** evaluator.cpp:296-338, loadMap: returns false, throws (YAML::BadFile without
      the file, a conversion error on an empty one), or succeeds. *)
  Inductive loaded := LoadFalse | LoadThrows | Loaded (o : option (evaluator * list write)).
  Definition loadMap (w h : Z) (res : T) (d : disk) : loaded :=
    match d_ppm d with
    | None => LoadFalse
    | Some (w', h', i) =>
        if negb (w =? w') || negb (h =? h') then LoadFalse else
        match d_yaml d with
        | None | Some Empty => LoadThrows
        | Some (Doc r s g) =>
            if negb (teqb r res) then LoadFalse
            else Loaded (generateMap false (blank w h r s g) i)
        end
    end.

  (** evaluator.cpp:134-156: the constructor. *)
  Inductive started := Throws | Stuck | Running (e : evaluator) (l : list write).
  Definition start_of (o : option (evaluator * list write)) : started :=
    match o with Some (e, l) => Running e l | None => Stuck end.
  Definition construct (w h : Z) (res : T) (d : disk) : started :=
    match loadMap w h res d with
    | LoadThrows => Throws
    | Loaded o => start_of o
    | LoadFalse => start_of (initDefaultMap w h res)
    end.

  (** What the window system reports. *)
  Inductive mouse := LDown | RDown | LUp | RUp | Move | OtherMouse.
  Inductive event := Mouse (k : mouse) (x y : Z) | Key (k : Z).

  Definition set_drag (e : evaluator) (d : drag_t) (from : Z * Z) : evaluator :=
    Ev (e_w e) (e_h e) (e_res e) (e_orig e) (e_map e) (e_start e) (e_goal e) d (e_mode e) from (e_sel e).
  Definition set_sel (e : evaluator) (s : Z) : evaluator :=
    Ev (e_w e) (e_h e) (e_res e) (e_orig e) (e_map e) (e_start e) (e_goal e) (e_drag e) (e_mode e) (e_from e) s.
  Definition set_mode (e : evaluator) (k : mode_t) : evaluator :=
    Ev (e_w e) (e_h e) (e_res e) (e_orig e) (e_map e) (e_start e) (e_goal e) (e_drag e) k (e_from e) (e_sel e).
  Definition set_poses (e : evaluator) (s g : pose) : evaluator :=
    Ev (e_w e) (e_h e) (e_res e) (e_orig e) (e_map e) s g (e_drag e) (e_mode e) (e_from e) (e_sel e).

  (** evaluator.cpp:103-105, 109-111: the pose of a drag from [e_from e] to (x, y). *)
  Definition drag_pose (e : evaluator) (x y : Z) : pose :=
    (Z.quot (fst (e_from e)) SCALE, e_h e - Z.quot (snd (e_from e)) SCALE, atan2 (snd (e_from e) - y) (x - fst (e_from e))).
  (** evaluator.cpp:61: a corner of the rectangle, converted from double to int. *)
  Definition corner (e : evaluator) (x y : Z) : Z * Z := (Z.quot x SCALE, Z.quot (e_h e * SCALE - y) SCALE).

  (** evaluator.cpp:97-124, the second switch. *)
  Definition dragging (e : evaluator) (up : bool) (x y : Z) : evaluator * list write :=
    match e_mode e with
    | SET_FOCUS => (e, [])
    | SET_START => let e' := set_poses e (drag_pose e x y) (e_goal e) in (e', if up then saveMap e' else [])
    | SET_GOAL => let e' := set_poses e (e_start e) (drag_pose e x y) in (e', if up then saveMap e' else [])
    | SET_OBSTACLE | MAKE_MAZE | MAKE_FILLING_CURVE => (set_sel e (Z.abs (x - fst (e_from e))), [])
    end.
  (** evaluator.cpp:49-86, a button is released. *)
  Definition released (e : evaluator) (x y : Z) : option (evaluator * list write) :=
    match e_mode e with
    | SET_OBSTACLE =>
        let col := match e_drag e with DRAG_LEFT => 0 | _ => 255 end in
        generateMap true (set_sel e (-1)) (rectangle (e_orig e) (corner e (fst (e_from e)) (snd (e_from e))) (corner e x y) col)
    | MAKE_MAZE => r <- make false (e_sel e) e ;; Some (set_sel (fst r) (-1), snd r)
    | MAKE_FILLING_CURVE => r <- make true (e_sel e) e ;; Some (set_sel (fst r) (-1), snd r)
    | _ => Some (e, [])
    end.
  (** evaluator.cpp:33-132, mouseCallback. *)
  Definition mouseCallback (e : evaluator) (k : mouse) (x y : Z) : option (evaluator * list write) :=
    match k with
    | LDown => Some (set_drag e DRAG_LEFT (x, y), [])
    | RDown => Some (set_drag e DRAG_RIGHT (x, y), [])
    | LUp | RUp =>
        r <- released e x y ;;
        let r2 := dragging (set_drag (fst r) DRAG_NONE (e_from (fst r))) true x y in
        Some (fst r2, snd r ++ snd r2)
    | Move => match e_drag e with DRAG_NONE => Some (e, []) | _ => Some (dragging e false x y) end
    | OtherMouse => Some (e, [])
    end.
  (** evaluator.cpp:475-540, keyCallback; the keys without influence on the
      members modelled are the last case.  Key codes are those of the letters. *)
  Definition keyCallback (e : evaluator) (k : Z) : option (evaluator * list write) :=
    if k =? 115 (* s *) then Some (set_mode e SET_START, [])
    else if k =? 103 (* g *) then Some (set_mode e SET_GOAL, [])
    else if k =? 102 (* f *) then Some (set_mode e SET_FOCUS, [])
    else if k =? 109 (* m *) then Some (set_mode e MAKE_MAZE, [])
    else if k =? 110 (* n *) then Some (set_mode e MAKE_FILLING_CURVE, [])
    else if k =? 111 (* o *) then Some (set_mode e SET_OBSTACLE, [])
    else if k =? 99 (* c *) then generateMap true e (cleared (e_w e) (e_h e) (e_orig e))
    else if k =? 105 (* i *) then generateMap true e (inverted (e_w e) (e_h e) (e_orig e))
    else Some (e, []).

  Definition step (e : evaluator) (v : event) : option (evaluator * list write) :=
    match v with Mouse k x y => mouseCallback e k x y | Key k => keyCallback e k end.
  (** A history of events; the disk follows. [None]: the generator did not come back. *)
  Fixpoint session (e : evaluator) (d : disk) (l : list event) : option (evaluator * disk) :=
    match l with
    | [] => Some (e, d)
    | v :: r => s <- step e v ;; session (fst s) (do_writes d (snd s)) r
    end.

  (** Renderer.hpp:303-328, fill, as called by renderMap (268-293): the row of the
      map whose colour the window shows in row [py] of the picture. *)
  Definition shown_row (e : evaluator) (py : Z) : Z := (e_h e * SCALE - 1 - py) / SCALE.
  (** ... and the column. *)
  Definition shown_col (px : Z) : Z := px / SCALE.
End Evaluator.
