(** Model of include/cslibs_path_planning/generic/ReedsSheppExpansion.hpp and of its
    use in hasPoseBeenReached and backtrack (generic/SearchAlgorithm.hpp:572-586,
    671-695).  Real arithmetic; the curve generator is the one of RSModel.v. *)
From Coq Require Import Reals Ascii String.
From Verif Require Import Base GeomR PropGeom RSParse RSModel.
Local Open Scope R_scope.

(** What expand reads of a node: its pose (in cells), its flag [forward] and its
    heuristic value [h]. *)
Record xnode := XN { xn_pose : pose; xn_fwd : bool; xn_h : R }.

(** ReedsSheppExpansion.hpp:145-156.  [x_min = None]: min_cost is not initialised by
    the constructor.  [x_curves]: the curves of forwards_generator; the curves of
    backwards_generator are parsed but never used (line 79 is a comment). *)
Record xstate := XS {
  x_initial : R; x_min : option R; x_n : Z; x_cur : Z;
  x_fwd : bool; x_curves : list (list seg); x_poses : list pose }.

(** Lines 22-25, 31-34: the four calls of parse. *)
Definition parse_all (ws : list string) : option (list (list pseg)) :=
  fold_left (fun o w => cs <- o ;; r <- parse cs (list_ascii_of_string w) ;; Some (snd r)) ws (Some []).
Definition forward_words : list string := ["LSL"; "LSR"; "RSL"; "RSR"]%string.

(** Lines 15-39, the constructor ([forward] is not initialised: it is written before
    it is read). *)
Definition x_new (N : Z) (expf : bool) : option xstate :=
  cs <- (if expf then parse_all forward_words else Some []) ;;
  Some (XS (-1) None N N false (map (map new_seg) cs) []).

(** Lines 88-95: 1.3f and 0.15f are these binary fractions (single precision); the
    generator divides them by the resolution (CurveGenerator.cpp:196-197).  The other
    parameters are the defaults of the generator (CurveGenerator.cpp:17-23). *)
Definition radius_m : R := 5452595 / 4194304.
Definition way_m : R := 5033165 / 33554432.
Definition x_params (m : rmap) : rparams := RP (radius_m / rm_res m) (way_m / rm_res m) false 10 1 2 (13 / 10) 1.

(** Lines 103-107: the points of the curve; [None]: a conversion overflows. *)
Fixpoint seg_lists (clamp : R -> R) (maxd : R) (sq : list seg) : option (list (list pose)) :=
  match sq with [] => Some [] | s :: t => l <- seg_points clamp maxd s ;; r <- seg_lists clamp maxd t ;; Some (l :: r) end.
Definition x_walk (clamp : R -> R) (maxd : R) (sq : list seg) : option (list pose) :=
  ls <- seg_lists clamp maxd sq ;;
  r <- drain pose (Pose 0 0 0) (S (length (concat ls))) (c_reset pose (CI pose (map (fun l => SI pose l 0 false) ls) 0 false)) ;;
  Some (fst r).

(** Lines 86-112, find with forwards_generator. *)
Definition x_find (clamp : R -> R) (m : rmap) (s : xstate) (start goal : pose) : option (bool * xstate) :=
  r <- find_path clamp m (x_params m) false start goal (Some PI) (x_curves s) ;;
  match snd (fst r) with
  | None => Some (false, XS (x_initial s) (x_min s) (x_n s) (x_cur s) (x_fwd s) (fst (fst r)) (x_poses s))
  | Some b =>
      ps <- x_walk clamp (rp_maxd (x_params m)) b ;;
      Some (is_valid (snd r), XS (x_initial s) (x_min s) (x_n s) (x_cur s) (x_fwd s) (fst (fst r)) ps)
  end.

(** Lines 43-74: everything before the attempt.  The result: is it time for an attempt
    (line 74 is reached), and the state.  [None]: undefined (overflow of ++current,
    division or conversion of line 68). *)
Definition x_gate (N : Z) (expf expb : bool) (s : xstate) (a : xnode) : option (bool * xstate) :=
  let s := XS (x_initial s) (x_min s) (x_n s) (x_cur s) (xn_fwd a) (x_curves s) (x_poses s) in
  if negb expf && xn_fwd a then Some (false, s)
  else if negb expb && negb (xn_fwd a) then Some (false, s)
  else if negb (in_i32 (x_cur s + 1)) then None
  else
    let cur := (x_cur s + 1)%Z in
    let cost := xn_h a in
    if Rltb (x_initial s) 0 then
      Some (false, XS cost (Some cost) (x_n s) cur (x_fwd s) (x_curves s) (x_poses s))
    else
      mc <- x_min s ;;
      n <- (if Rltb cost mc then (if Req_EM_T (x_initial s) 0 then None else cast_i32 (IZR N * (cost / x_initial s))) else Some (x_n s)) ;;
      let mc' := if Rltb cost mc then cost else mc in
      if (cur <? n)%Z then Some (false, XS (x_initial s) (Some mc') n cur (x_fwd s) (x_curves s) (x_poses s))
      else Some (true, XS (x_initial s) (Some mc') n 0 (x_fwd s) (x_curves s) (x_poses s)).

(** Lines 43-82, expand: was an attempt due, the returned value, the state. *)
Definition x_expand (N : Z) (expf expb : bool) (clamp : R -> R) (m : rmap) (s : xstate) (a : xnode) (goal : pose) : option (bool * bool * xstate) :=
  g <- x_gate N expf expb s a ;;
  if fst g then
    if x_fwd (snd g) then r <- x_find clamp m (snd g) (xn_pose a) goal ;; Some (true, fst r, snd r)
    else Some (true, false, snd g)
  else Some (false, false, snd g).

(** Lines 115-123, get: the poses, all with the flag of the last call. *)
Definition x_get (s : xstate) : list (pose * bool) := map (fun q => (q, x_fwd s)) (x_poses s).

(** The singleton (126-130) over a history of calls (132-142). *)
Fixpoint x_run (N : Z) (expf expb : bool) (clamp : R -> R) (calls : list (rmap * xnode * pose)) (s : xstate) : option (list (bool * bool) * xstate) :=
  match calls with
  | [] => Some ([], s)
  | (m, a, g) :: t =>
      r <- x_expand N expf expb clamp m s a g ;;
      u <- x_run N expf expb clamp t (snd r) ;;
      Some (fst r :: fst u, snd u)
  end.

(** ** The search around it *)
Section Joined.
  Context {V : Type} (veqb : V -> V -> bool).
  Variable prev : V -> option V.
  Variable is_start : V -> bool.
  Variable pose_of : V -> pose.
  (** SearchAlgorithm.hpp:678-691; [seen] is the set [contained]; the path is built
      newest first and reversed (693).  [None]: an assertion fails (or no fuel). *)
  Fixpoint back (fuel : nat) (cur : V) (seen : list V) (path : list V) : option (list V) :=
    match fuel with
    | O => None
    | S k =>
        if is_start cur then Some (rev path)
        else if existsb (veqb cur) seen then Some []
        else p <- prev cur ;;
             if match prev p with Some q => veqb q p | None => false end then None
             else back k p (cur :: seen) (path ++ [p])
    end.
  (** SearchAlgorithm.hpp:575-584: tmp is a copy of the current node with another
      heading; its address is never in the start set, so that the first step back is
      always taken.  The joined path as poses. *)
  Definition joined (fuel : nat) (cur : V) (expansion : list pose) : option (list pose) :=
    match expansion with
    | [] => None
    | e :: _ =>
        let tmp := Pose (po_x (pose_of cur)) (po_y (pose_of cur)) (po_th e) in
        p <- prev cur ;;
        if match prev p with Some q => veqb q p | None => false end then None
        else l <- back fuel p [] [p] ;;
             Some (match l with [] => [] | _ => map pose_of l ++ [tmp] end ++ expansion)
    end.
End Joined.
