(** Model of map_generator::Maze (I/evaluation/MapGenerators.hpp:8-190).
    Simplifications: the start has whole-number coordinates; products of image sizes do not
    overflow int; rand() is an arbitrary stream of non-negative numbers; cv::rectangle with
    CV_FILLED frees exactly the pixels of its rectangle that lie on the image. *)
From Verif Require Import Base.

Definition room : Type := (Z * Z)%type.

(** MapGenerators.hpp:11-22 and 167-189: what the constructor fixes for good; [mz_arg] is the
    constructor's argument, which shadows the member of the same name. *)
Record maze := { mz_arg : Z; mz_rows : Z; mz_cols : Z }.
(** MapGenerators.hpp:12, member width. *)
Definition mz_width (m : maze) : Z := Z.max 2 (mz_arg m).
(** MapGenerators.hpp:14-16: w, h and N. *)
Definition mz_w (m : maze) : Z := Z.quot (mz_rows m) (mz_arg m).
Definition mz_h (m : maze) : Z := Z.quot (mz_cols m) (mz_arg m).
Definition mz_n (m : maze) : Z := mz_w m * mz_h m.
(** MapGenerators.hpp:18, border. *)
Definition mz_border (m : maze) : Z := Z.max 1 (Z.quot (mz_arg m) 4).

(** MapGenerators.hpp:148-153, IDX. *)
Definition mz_idx (m : maze) (p : room) : Z :=
  if (fst p <? 0) || (snd p <? 0) || (fst p =? mz_h m) || (snd p =? mz_w m) then -1 else snd p * mz_h m + fst p.

(** MapGenerators.hpp:66-69: the directions dx__, dy__. *)
Definition mz_dir (n : Z) : Z * Z := if n =? 0 then (-1, 0) else if n =? 1 then (0, -1) else if n =? 2 then (1, 0) else (0, 1).
Definition mz_go (p : room) (n : Z) : room := (fst p + fst (mz_dir n), snd p + snd (mz_dir n)).

(** visited[i]; None outside the array. *)
Definition mz_read (m : maze) (vis : Z -> bool) (i : Z) : option bool := if (0 <=? i) && (i <? mz_n m) then Some (vis i) else None.

(** MapGenerators.hpp:88-97, hasUnvisitedNeighbor. *)
Fixpoint mz_has (m : maze) (vis : Z -> bool) (p : room) (ns : list Z) : option bool :=
  match ns with
  | [] => Some false
  | n :: ns => let i := mz_idx m (mz_go p n) in
      if i >=? 0 then match mz_read m vis i with Some true => mz_has m vis p ns | Some false => Some true | None => None end
      else mz_has m vis p ns
  end.

(** The state of run(): the array, the counter, the stack (top first), the current cell, how
    often rand() was called, and the pairs handed to removeWallsBetween, newest first. *)
Record mstate := { ms_vis : Z -> bool; ms_count : Z; ms_open : list room; ms_cur : room; ms_rnd : nat; ms_joined : list (room * room) }.
(** Where run() is: at the head of its loop, or in the inner loop of getRandomUnvisitedCell. *)
Inductive mpc := AtLoop | Scanning (x y : Z).
Inductive mrun := Going (pc : mpc) (st : mstate) | Finished (st : mstate) | Undefined.

(** MapGenerators.hpp:83-86, mark, of the cell [p] that becomes current. *)
Definition mz_mark (m : maze) (st : mstate) (p : room) : mrun :=
  let i := mz_idx m p in
  if (0 <=? i) && (i <? mz_n m)
  then Going AtLoop {| ms_vis := fun j => if j =? i then true else ms_vis st j; ms_count := ms_count st + 1; ms_open := ms_open st; ms_cur := p;
                       ms_rnd := ms_rnd st; ms_joined := ms_joined st |}
  else Undefined.

(** MapGenerators.hpp:24-31: run() up to its loop, on the array [vis] left by earlier runs. *)
Definition mz_start (m : maze) (vis : Z -> bool) (sx sy : Z) : mrun :=
  let s := (Z.quot sx (mz_width m), Z.quot sy (mz_width m)) in
  mz_mark m {| ms_vis := vis; ms_count := 0; ms_open := []; ms_cur := s; ms_rnd := 0; ms_joined := [] |} s.

(** MapGenerators.hpp:32-55, one round of the loop, with 99-139 for the random choices. Each
    sample of getRandomUnvisitedNeighborCell that is turned down counts as a round: the loop's
    tests have the same outcome as before. *)
Definition mz_round (m : maze) (rnd : nat -> Z) (st : mstate) : mrun :=
  if ms_count st <? mz_n m then
    match mz_has m (ms_vis st) (ms_cur st) [0; 1; 2; 3] with
    | None => Undefined
    | Some true =>
        let nx := mz_go (ms_cur st) (rnd (ms_rnd st) mod 4) in
        let st1 := {| ms_vis := ms_vis st; ms_count := ms_count st; ms_open := ms_open st; ms_cur := ms_cur st; ms_rnd := S (ms_rnd st); ms_joined := ms_joined st |} in
        let i := mz_idx m nx in
        if i >=? 0 then
          match mz_read m (ms_vis st) i with
          | None => Undefined
          | Some true => Going AtLoop st1
          | Some false =>
              if (fst nx <? 0) || (snd nx <? 0) || (fst nx =? mz_h m) || (snd nx =? mz_w m) then Going AtLoop st1
              else mz_mark m {| ms_vis := ms_vis st; ms_count := ms_count st; ms_open := ms_cur st :: ms_open st; ms_cur := ms_cur st;
                                ms_rnd := S (ms_rnd st); ms_joined := (ms_cur st, nx) :: ms_joined st |} nx
          end
        else Going AtLoop st1
    | Some false =>
        match ms_open st with
        | c :: o => Going AtLoop {| ms_vis := ms_vis st; ms_count := ms_count st; ms_open := o; ms_cur := c; ms_rnd := ms_rnd st; ms_joined := ms_joined st |}
        | [] => if (mz_h m =? 0) || (mz_w m =? 0) then Undefined
                else Going (Scanning (Z.rem (rnd (ms_rnd st)) (mz_h m)) (Z.rem (rnd (S (ms_rnd st))) (mz_w m)))
                  {| ms_vis := ms_vis st; ms_count := ms_count st; ms_open := ms_open st; ms_cur := ms_cur st; ms_rnd := S (S (ms_rnd st)); ms_joined := ms_joined st |}
        end
    end
  else Finished st.

(** MapGenerators.hpp:104-115, one round of the inner loop of getRandomUnvisitedCell. *)
Definition mz_scan (m : maze) (st : mstate) (x y : Z) : mrun :=
  match mz_read m (ms_vis st) (mz_idx m (x, y)) with
  | None => Undefined
  | Some false => mz_mark m st (x, y)
  | Some true =>
      let x1 := x + 1 in
      let '(x2, y2) := if x1 =? mz_h m then (0, y + 1) else (x1, y) in
      Going (Scanning x2 (if y2 =? mz_w m then 0 else y2)) st
  end.

Definition mz_step (m : maze) (rnd : nat -> Z) (r : mrun) : mrun :=
  match r with
  | Going AtLoop st => mz_round m rnd st
  | Going (Scanning x y) st => mz_scan m st x y
  | r => r
  end.
Fixpoint mz_steps (m : maze) (rnd : nat -> Z) (k : nat) (r : mrun) : mrun := match k with O => r | S k => mz_steps m rnd k (mz_step m rnd r) end.

(** MapGenerators.hpp:71-79: the array after the constructor. *)
Definition mz_fresh : Z -> bool := fun _ => false.

(** ** The image *)
(** A cv::Rect: x, y, width, height. *)
Record rect := { rc_x : Z; rc_y : Z; rc_w : Z; rc_h : Z }.
Definition in_rect (r : rect) (p : Z * Z) : bool :=
  (rc_x r <=? fst p) && (fst p <? rc_x r + rc_w r) && (rc_y r <=? snd p) && (snd p <? rc_y r + rc_h r).
(** MapGenerators.hpp:163-175, rectFor. *)
Definition rect_for (width border : Z) (a : room) : rect :=
  {| rc_x := fst a * width + Z.quot border 2; rc_y := snd a * width + Z.quot border 2; rc_w := width - border; rc_h := width - border |}.
(** 0.5 * an int in OpenCV: the nearest int, halves to even. *)
Definition cv_half (z : Z) : Z := if Z.even z then z / 2 else if Z.even (z / 2) then z / 2 else z / 2 + 1.
(** MapGenerators.hpp:141, the rectangle [middle]. *)
Definition rect_middle (r1 r2 : rect) : rect :=
  {| rc_x := cv_half (rc_x r1 + rc_x r2); rc_y := cv_half (rc_y r1 + rc_y r2); rc_w := rc_w r1; rc_h := rc_h r1 |}.

(** An image: which pixels (column, row) are white. *)
Definition img : Type := Z * Z -> bool.
Definition fill (rows cols : Z) (i : img) (r : rect) : img :=
  fun p => if (0 <=? fst p) && (fst p <? cols) && (0 <=? snd p) && (snd p <? rows) && in_rect r p then true else i p.
(** MapGenerators.hpp:138-146, removeWallsBetween. *)
Definition remove_walls (rows cols width border : Z) (i : img) (e : room * room) : img :=
  let r1 := rect_for width border (fst e) in let r2 := rect_for width border (snd e) in
  fill rows cols (fill rows cols (fill rows cols i r1) (rect_middle r1 r2)) r2.
(** The image after removeWallsBetween was called for these pairs (newest first). *)
Fixpoint carve (rows cols width border : Z) (i : img) (es : list (room * room)) : img :=
  match es with [] => i | e :: es => remove_walls rows cols width border (carve rows cols width border i es) e end.
Definition mz_image (m : maze) (i : img) (st : mstate) : img := carve (mz_rows m) (mz_cols m) (mz_width m) (mz_border m) i (ms_joined st).
