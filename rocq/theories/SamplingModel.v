(** Model of S/sampling: the goal regions and the sampling planner.

    Simplifications, for the whole file: double is the set of real numbers; [clamp] and
    [vangle] are the external MathHelper::AngleClamp and MathHelper::Angle, [rnd] the
    external rand()/RAND_MAX; messages are left out. *)
From Coq Require Import Reals Lra.
From Verif Require Import Base GeomR GridGeom RSParse RSModel.
Local Open Scope R_scope.

(** I/sampling/GoalRegion.h:16-22. [rg_next st gain]: the state afterwards and, unless
    the function returned false, the goal and the variable passed for the gain.
    [None]: undefined behaviour. *)
Record region (St : Type) := Reg {
  rg_init : St -> Z -> St;
  rg_next : St -> R -> option (St * option (pose * R)) }.
Arguments rg_init {St}. Arguments rg_next {St}. Arguments Reg {St}.

(** ** CentroidRadiusGoalRegion *)
(** CentroidRadiusGoalRegion.h:26-36. *)
Record cst := CS {
  c_src : pt; c_center : pt; c_radius : R; c_angle : R; c_theta : R; c_step : R; c_counter : Z; c_num : Z }.
(** CentroidRadiusGoalRegion.cpp:13-17; theta_ and theta_step_ are indeterminate and
    not read before [init]. *)
Definition c_new (src center : pt) (radius ang : R) : cst := CS src center radius ang 0 0 0 0.
(** CentroidRadiusGoalRegion.cpp:26-43; [n] is the unsigned argument. *)
Definition c_init (vangle : pt -> R) (c : cst) (n : Z) : cst :=
  let theta := vangle (psub (c_center c) (c_src c)) in
  let ang := Rabs (c_angle c) in
  if Rltb ang (1 / 1000000) || (n <=? 1)%Z
  then CS (c_src c) (c_center c) (c_radius c) ang theta 0 0 1
  else CS (c_src c) (c_center c) (c_radius c) ang (theta - 1 / 2 * ang) (ang / IZR (n - 1)) 0 n.
(** CentroidRadiusGoalRegion.cpp:46-63: unsigned subtraction wraps, the conversion to
    int32_t wraps, abs of the least int is undefined. *)
Definition c_next (clamp : R -> R) (c : cst) (gain : R) : option (cst * option (pose * R)) :=
  if (c_num c <=? c_counter c)%Z then Some (c, None) else
  let goal := Pose (px (c_center c) - c_radius c * cos (c_theta c)) (py (c_center c) - c_radius c * sin (c_theta c)) (c_theta c) in
  let counter := u32 (c_counter c + 1) in
  let theta := clamp (c_theta c + c_step c) in
  let diff := i32 (u32 (counter - c_num c / 2)) in
  if (diff =? -2147483648)%Z then None else
  Some (CS (c_src c) (c_center c) (c_radius c) (c_angle c) theta (c_step c) counter (c_num c),
        Some (goal, 1 + 2 * IZR (Z.abs diff) / IZR (c_num c))).
Definition centroid_region (clamp : R -> R) (vangle : pt -> R) : region cst := Reg (c_init vangle) (c_next clamp).

(** ** RingGoalRegion *)
(** RingGoalRegion.h:30-36; [rs_k]: how many random numbers were drawn. *)
Record rst := RS {
  rs_center : pt; rs_width : R; rs_num : Z; rs_step : R; rs_counter : Z; rs_direction : R; rs_radius : R; rs_k : nat }.
(** RingGoalRegion.cpp:17-31. *)
Definition r_new (center : pt) (radius width : R) : rst :=
  RS center width 20 (2 * PI / 20) 0 (if Rlt_dec radius 0 then 0 else 1) (Rabs radius) 0.
(** RingGoalRegion.cpp:38-45 (the quotient for [n = 0] is never used). *)
Definition r_init (s : rst) (n : Z) : rst :=
  RS (rs_center s) (rs_width s) n (2 * PI / IZR n) 0 (rs_direction s) (rs_radius s) (rs_k s).
(** RingGoalRegion.cpp:47-63: the gain is not written. *)
Definition r_next (clamp : R -> R) (rnd : nat -> R) (s : rst) (gain : R) : option (rst * option (pose * R)) :=
  if (rs_num s <=? rs_counter s)%Z then Some (s, None) else
  let r := rs_radius s + (rnd (rs_k s) - 1 / 2) * rs_width s in
  let alpha := IZR (rs_counter s) * rs_step s in
  let goal := Pose (px (rs_center s) + r * cos alpha) (py (rs_center s) + r * sin alpha) (clamp (alpha + (rs_direction s - 1 / 2) * PI)) in
  Some (RS (rs_center s) (rs_width s) (rs_num s) (rs_step s) (u32 (rs_counter s + 1)) (rs_direction s) (rs_radius s) (S (rs_k s)),
        Some (goal, gain)).
Definition ring_region (clamp : R -> R) (rnd : nat -> R) : region rst := Reg r_init (r_next clamp rnd).

(** ** PoseListGoalRegion *)
(** PoseListGoalRegion.cpp:11-17; the pose list (utils::PoseList) and its gains are
    external, [None]: the pointer is NULL. *)
Record plst := PL { pl_use : bool; pl_counter : nat; pl_poses : option (list pose * list R * bool) }.
Definition pl_new (l : option (list pose * list R * bool)) : plst := PL false 0 l.
(** PoseListGoalRegion.cpp:20-29. *)
Definition pl_init (s : plst) (n : Z) : plst :=
  PL (match pl_poses s with Some (ps, gs, ug) => ug && (length ps =? length gs)%nat | None => false end) 0 (pl_poses s).
(** PoseListGoalRegion.cpp:32-50. *)
Definition pl_next (s : plst) (gain : R) : option (plst * option (pose * R)) :=
  match pl_poses s with
  | None => Some (s, None)
  | Some (ps, gs, ug) =>
      match nth_error ps (pl_counter s) with
      | None => Some (s, None)
      | Some p =>
          g <- (if pl_use s then nth_error gs (pl_counter s) else Some gain) ;;
          Some (PL (pl_use s) (S (pl_counter s)) (pl_poses s), Some (p, g))
      end
  end.
Definition poselist_region : region plst := Reg pl_init pl_next.

(** ** SamplingPlanner *)
(** A curve on the heap: its address, its segments and its weight. *)
Record hcurve := HC { hc_id : nat; hc_sq : list seg; hc_w : R }.
(** The heap: the addresses of the live curves and the next new one. *)
Record heap := HP { hp_live : list nat; hp_next : nat }.
(** [delete c]; [None]: double delete. *)
Definition hdelete (h : heap) (c : hcurve) : option heap :=
  if in_dec Nat.eq_dec (hc_id c) (hp_live h)
  then Some (HP (remove Nat.eq_dec (hc_id c) (hp_live h)) (hp_next h)) else None.
(** CurveGenerator.cpp:217-221: NULL, or a new copy of the best curve. *)
Definition halloc (h : heap) (b : option (list seg)) (w : R) : heap * option hcurve :=
  match b with
  | None => (h, None)
  | Some sq => (HP (hp_next h :: hp_live h) (S (hp_next h)), Some (HC (hp_next h) sq w))
  end.
(** The settings of the curve generator and the map, in the two views the code uses. *)
Record planner := PlanCfg { pc_geo : geo; pc_map : rmap; pc_par : rparams; pc_maxarc : option R }.
Definition pose_pt (p : pose) : pt := Pt (po_x p) (po_y p).

(** SamplingPlanner.cpp:35-69. [Some None]: the fuel ran out. The state of the curve
    generator ([cs]) and of the region are threaded through. *)
Fixpoint cp_loop {St} (rg : region St) (clamp : R -> R) (c : planner) (start_map : pose) (fuel : nat)
    (st : St) (cs : list (list seg)) (h : heap) (gain : R) (best : option hcurve) (min_cost : R) : option (option (option hcurve * heap)) :=
  match fuel with
  | O => Some None
  | S f =>
      n <- rg_next rg st gain ;;
      match snd n with
      | None => Some (Some (best, h))
      | Some gg =>
          let goal := fst gg in let gain := snd gg in
          let goal_map := pos2map (pc_geo c) goal in
          if negb (s_isInMap (pc_geo c) (pose_pt goal)) then cp_loop rg clamp c start_map f (fst n) cs h gain best min_cost else
          r <- find_path clamp (pc_map c) (pc_par c) false start_map goal_map (pc_maxarc c) cs ;;
          let cs := fst (fst r) in
          let a := halloc h (snd (fst r)) (snd r) in
          match snd a with
          | None => cp_loop rg clamp c start_map f (fst n) cs (fst a) gain best min_cost
          | Some curve =>
              if is_valid (hc_w curve) then
                let cost := gain * hc_w curve in
                if Rltb cost min_cost then
                  h2 <- match best with Some b => hdelete (fst a) b | None => Some (fst a) end ;;
                  cp_loop rg clamp c start_map f (fst n) cs h2 gain (Some curve) cost
                else
                  h2 <- hdelete (fst a) curve ;;
                  cp_loop rg clamp c start_map f (fst n) cs h2 gain best min_cost
              else
                h2 <- hdelete (fst a) curve ;;
                cp_loop rg clamp c start_map f (fst n) cs h2 gain best min_cost
          end
      end
  end.
(** SamplingPlanner.cpp:23-70; [samples] is converted to unsigned for [init]. *)
Definition createPath {St} (rg : region St) (clamp : R -> R) (c : planner) (fuel : nat) (st : St) (cs : list (list seg)) (h : heap) (start : pose) (samples : Z)
    : option (option (option hcurve * heap)) :=
  if negb (s_isInMap (pc_geo c) (pose_pt start)) then Some (Some (None, h)) else
  cp_loop rg clamp c (pos2map (pc_geo c) start) fuel (rg_init rg st (u32 samples)) cs h 1 None 999999.
