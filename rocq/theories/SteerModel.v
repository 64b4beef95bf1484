(** Model of the moves of the vehicle neighbourhoods:
    I/generic/NonHolonomicNeighborhood.hpp, I/generic/SteeringNeighborhood.hpp and
    I/generic/DynamicSteeringNeighborhood.h.

    Simplifications, for the whole file: double is the set of real numbers, int is
    unbounded except where a real is converted to int ([cast_i32]); [clamp] is the
    external MathHelper::AngleClamp. *)
From Coq Require Import Reals Lra.
From Flocq Require Import Core.Raux.
From Verif Require Import Base GeomR.
Local Open Scope R_scope.

(** Pose2d.h:38-42, Common.hpp:111-114, SteeringNode.hpp:14-17: the fields of a node
    the moves read and write. [sn_custom = None]: the field has no determinate value. *)
Record snode := SN {
  sn_x : R; sn_y : R; sn_th : R; sn_fwd : bool; sn_steer : Z; sn_custom : option Z; sn_depth : Z }.

(** The result of [advance] together with the fields iterateFreeNeighbors stores in
    the node: rejected (-1 returned), an indeterminate or undefined value was read, or
    a move with its cost. *)
Inductive adv := AReject | AUndef | AMove (cost : R) (n : snode).

(** SearchOptions (Common.hpp:28-33). *)
Record sopts := SO { so_back : R; so_turn : R }.

(** Template and static parameters. *)
Record sparams := SP {
  sp_step : R;            (* distance_step, world units *)
  sp_res : R;             (* resolution *)
  sp_max : Z;             (* MAX_STEER_ANGLE, degrees *)
  sp_delta : R;           (* STEER_DELTA, degrees *)
  sp_la : R;              (* LA, the wheel base *)
  sp_rev : bool;          (* reversed *)
  sp_both : bool;         (* moves == FORWARD_BACKWARD; allow_forward && allow_backward *)
  sp_sds : Z              (* straight_dir_switch *) }.
(** NonHolonomicNeighborhood.hpp:52-56, DynamicSteeringNeighborhood.h:39-43. *)
Definition sp_pixel (p : sparams) : R := sp_step p / sp_res p.

(** for(straight_parts ...): the [n] predecessors of the node exist and satisfy [ok]
    (SteeringNeighborhood.hpp:231-247; [prevs] is the chain of prev pointers). *)
Fixpoint all_prev (n : nat) (ok : snode -> bool) (prevs : list snode) : bool :=
  match n with
  | O => true
  | S k => match prevs with [] => false | t :: r => ok t && all_prev k ok r end
  end.

(** SteeringNeighborhood.hpp:172-201, DynamicSteeringNeighborhood.h:170-199: the
    steering angle commanded by move [i] at [step] before the limit; [None]: -1. *)
Definition steer_cmd (maxs cur delta i step : Z) : option Z :=
  if ((i =? 1) || (i =? 4))%Z then
    if (step =? 0)%Z then None else if (cur <=? - maxs)%Z then None else Some (cur - delta)%Z
  else if ((i =? 2) || (i =? 5))%Z then
    if (step =? 0)%Z then None else if (maxs <=? cur)%Z then None else Some (cur + delta)%Z
  else if (0 <? step)%Z then None else Some cur.
(** SteeringNeighborhood.hpp:203-207. *)
Definition limit_steer (maxs s : Z) : Z := if (maxs <? s)%Z then maxs else if (s <? - maxs)%Z then (- maxs)%Z else s.

(** SteeringNeighborhood.hpp:219, [steering_angle / 180. * M_PI]. *)
Definition rad (s : Z) : R := IZR s / 180 * PI.
(** SteeringNeighborhood.hpp:211-214. *)
Definition drive_dir (p : sparams) (fwd : bool) : R := (if fwd then 1 else -1) * (if sp_rev p then -1 else 1).
(** SteeringNeighborhood.hpp:219-223, 265-282: the new pose. *)
Definition s_pose (clamp : R -> R) (p : sparams) (s : Z) (dir x y th : R) : R * R * R :=
  let r_world := sp_la p / tan (rad s) in
  let ds_world := sp_step p * dir in
  let ds_map := sp_pixel p * dir in
  let r_map := r_world / sp_res p in
  if (s =? 0)%Z then (x + ds_map * cos th, y + ds_map * sin th, clamp (th + 0))
  else
    let dtheta := ds_world / r_world in
    let t := th + dtheta in
    (x + r_map * (sin t - sin th), y + r_map * (- cos t + cos th), clamp (th + dtheta)).

(** SteeringNeighborhood.hpp:118-290 (advance) with the stores of
    iterateFreeNeighbors (316-326). [map_rotation] is not used. *)
Definition s_advance (clamp : R -> R) (p : sparams) (so : sopts) (ref : snode) (prevs : list snode) (i step : Z) : adv :=
  let fwd := (i <? 3)%Z in
  let initial := (sn_depth ref <? 1)%Z in
  if initial && xorb (sn_fwd ref) fwd then AReject else
  match sn_custom ref with
  | None => AUndef
  | Some cu =>
      if (0 <? cu)%Z && (0 <? Z.abs (sn_steer ref))%Z then AReject else
      match cast_i32 (sp_delta p * IZR step) with
      | None => AUndef
      | Some delta =>
          match steer_cmd (sp_max p) (sn_steer ref) delta i step with
          | None => AReject
          | Some s0 =>
              let s := limit_steer (sp_max p) s0 in
              let dir := drive_dir p fwd in
              let finish (cost : R) (custom : option Z) :=
                let q := s_pose clamp p s dir (sn_x ref) (sn_y ref) (sn_th ref) in
                AMove (if fwd then cost else cost * so_back so)
                  (SN (fst (fst q)) (snd (fst q)) (snd q) fwd s custom (sn_depth ref + 1)) in
              if sp_both p then
                if xorb (sn_fwd ref) fwd then
                  if (0 <? cu)%Z then AReject
                  else if (0 <? Z.abs s)%Z then AReject
                  else if negb (all_prev (Z.to_nat (sp_sds p - 1)) (fun t => negb (0 <? Z.abs (sn_steer t))%Z) prevs) then AReject
                  else finish (sp_pixel p * so_turn so) (Some (sp_sds p - 1)%Z)
                else finish (sp_pixel p) (Some (if (0 <? cu)%Z then cu - 1 else 0)%Z)
              else finish (sp_pixel p) None
          end
      end
  end.

(** DynamicSteeringNeighborhood.h:118-309 (advance) with the stores of
    iterateFreeNeighbors (338-349): straight_dir_switch is the constant 1. *)
Definition d_advance (clamp : R -> R) (p : sparams) (so : sopts) (ref : snode) (prevs : list snode) (i step : Z) : adv :=
  let fwd := (i <? 3)%Z in
  let initial := (sn_depth ref <? 1)%Z in
  if initial && xorb (sn_fwd ref) fwd then AReject else
  match sn_custom ref with
  | None => AUndef
  | Some cu =>
      if (0 <? cu)%Z && (0 <? Z.abs (sn_steer ref))%Z then AReject else
      if negb (sp_rev p) && initial && (3 <? i)%Z then AReject else
      if negb (sp_rev p) && initial && (i =? 3)%Z then
        if negb (step =? 0)%Z then AReject else
        let ds_map := - sp_la p / sp_res p in
        AMove (Rabs ds_map * so_back so)
          (SN (sn_x ref + ds_map * cos (sn_th ref)) (sn_y ref + ds_map * sin (sn_th ref)) (sn_th ref) false 0 (Some 0%Z) (sn_depth ref + 1))
      else
      match cast_i32 (sp_delta p * IZR step) with
      | None => AUndef
      | Some delta =>
          match steer_cmd (sp_max p) (sn_steer ref) delta i step with
          | None => AReject
          | Some s0 =>
              let s := limit_steer (sp_max p) s0 in
              let dir := drive_dir p fwd in
              let finish (cost : R) (custom : option Z) :=
                let q := s_pose clamp p s dir (sn_x ref) (sn_y ref) (sn_th ref) in
                AMove (if fwd then cost else cost * so_back so)
                  (SN (fst (fst q)) (snd (fst q)) (snd q) fwd s custom (sn_depth ref + 1)) in
              if xorb (sn_fwd ref) fwd && negb initial then
                if negb (sp_both p) then AReject
                else if (0 <? cu)%Z then AReject
                else if (0 <? Z.abs s)%Z then AReject
                else finish (sp_pixel p * so_turn so) (Some 0%Z)
              else finish (sp_pixel p) (Some (if (0 <? cu)%Z then cu - 1 else 0)%Z)
          end
      end
  end.

(** ** NonHolonomicNeighborhood *)
(** Template parameters: distance, steerangle, reversed, straight_dir_switch. *)
Record nparams := NP { np_step : R; np_res : R; np_steer : Z; np_rev : bool; np_sds : Z }.
Definition np_pixel (p : nparams) : R := np_step p / np_res p.
(** NonHolonomicNeighborhood.hpp:46. *)
Definition np_delta (p : nparams) : R := IZR (np_steer p) / 10 * PI / 180.
(** NonHolonomicNeighborhood.hpp:69-97. *)
Definition n_turn (p : nparams) (i : Z) : R :=
  if ((i =? 1) || (i =? 4))%Z then - np_delta p
  else if ((i =? 2) || (i =? 5))%Z then np_delta p
  else if ((i =? 6) || (i =? 8))%Z then - (np_delta p / 2)
  else if ((i =? 7) || (i =? 9))%Z then np_delta p / 2 else 0.
(** NonHolonomicNeighborhood.hpp:106. *)
Definition n_forward (i : Z) : bool := ((i <? 3) || ((6 <=? i) && (i <=? 7)))%Z.
(** NonHolonomicNeighborhood.hpp:59-175 (advance) with the stores of
    iterateFreeNeighbors (200-207); steering_angle and depth do not exist and are
    passed through unchanged. *)
Definition n_advance (clamp : R -> R) (p : nparams) (rot : R) (initial : bool) (ref : snode) (prevs : list snode) (i : Z) : adv :=
  if initial && negb ((i =? 0) || (i =? 3))%Z then AReject else
  let t := clamp (sn_th ref + n_turn p i + rot) in
  let fwd := n_forward i in
  match sn_custom ref with
  | None => AUndef
  | Some cu =>
      if (0 <? cu)%Z && negb (Z.rem i 3 =? 0)%Z then AReject else
      let switch := xorb (sn_fwd ref) fwd && negb initial in
      let finish (custom : Z) :=
        let dir := (if fwd then 1 else -1) * (if np_rev p then -1 else 1) in
        let cost := if fwd then np_pixel p else np_pixel p * (3 / 2) in
        AMove (if switch then cost * 4 else cost)
          (SN (sn_x ref + dir * cos t * np_pixel p) (sn_y ref + dir * sin t * np_pixel p) (clamp (t - rot)) fwd (sn_steer ref) (Some custom) (sn_depth ref)) in
      if switch then
        if (0 <? cu)%Z then AReject
        else if negb (i =? (if fwd then 0 else 3))%Z then AReject
        else if negb (all_prev (Z.to_nat (np_sds p - 1)) (fun q => if Req_EM_T (sn_th q) (sn_th ref) then true else false) prevs) then AReject
        else finish (np_sds p - 1)%Z
      else finish (if (0 <? cu)%Z then cu - 1 else 0)%Z
  end.

(** ** The goal tests *)
(** NonHolonomicNeighborhood.hpp:216-221. *)
Definition n_isGoal (clamp : R -> R) (p : nparams) (goal ref : snode) : bool :=
  Rleb (Rabs (sn_x goal - sn_x ref)) (np_pixel p / 2) && Rleb (Rabs (sn_y goal - sn_y ref)) (np_pixel p / 2) &&
  Rltb (Rabs (clamp (sn_th goal - sn_th ref))) (PI / 8).
(** DynamicSteeringNeighborhood.h:45-115. *)
Definition d_isGoal (res dist_thr ang_thr : R) (goal ref : snode) : bool :=
  if Rlt_dec ang_thr (Rabs (atan2 (sin (sn_th goal - sn_th ref)) (cos (sn_th goal - sn_th ref)))) then false else
  Rltb (hyp (sn_x goal - sn_x ref) (sn_y goal - sn_y ref) * res) dist_thr.
(** SteeringNeighborhood.hpp:97-111: distance of [g] to the segment from [q] to [r]. *)
Definition seg_dist (q r g : pt) : R :=
  let d := psub q r in
  let l2 := px d * px d + py d * py d in
  if Rle_dec l2 (/ 10000) then len (psub g q)
  else
    let gp := psub g q in let rp := psub r q in
    let t := Rmax 0 (Rmin 1 ((px gp * px rp + py gp * py rp) / l2)) in
    len (psub g (padd q (pmul rp t))).
(** SteeringNeighborhood.hpp:46-115; [distance] is the integer template parameter,
    [prev] the pose of reference->prev. [None]: the indeterminate custom field is read. *)
Definition s_isGoal (p : sparams) (distance : Z) (goal ref : snode) (prev : option snode) : option bool :=
  if Rlt_dec (PI / 8) (Rabs (atan2 (sin (sn_th goal - sn_th ref)) (cos (sn_th goal - sn_th ref)))) then Some false else
  early <- (if sp_rev p then cu <- sn_custom ref ;; Some (0 <? cu)%Z else Some false) ;;
  if (early : bool) then Some false else
  let back := sp_rev p && negb (sn_fwd ref) in
  let gx := sn_x goal + (if back then - cos (sn_th goal) * sp_la p / sp_res p else 0) in
  let gy := sn_y goal + (if back then - sin (sn_th goal) * sp_la p / sp_res p else 0) in
  let delta := IZR (4 * distance) in
  if Rltb delta (Rabs (gx - sn_x ref)) || Rltb delta (Rabs (gy - sn_y ref)) then Some false else
  if Rlt_dec (hyp (gx - sn_x ref) (gy - sn_y ref) * sp_res p) (5 / 100) then Some true else
  match prev with
  | None => Some false
  | Some q =>
      let sc := sp_res p in
      Some (Rltb (seg_dist (Pt (sn_x q * sc) (sn_y q * sc)) (Pt (sn_x ref * sc) (sn_y ref * sc)) (Pt (gx * sc) (gy * sc))) (/ 10))
  end.
