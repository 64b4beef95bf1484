(** C17: the grid A* with the arithmetic the hardware performs: IEEE-754
    binary64/binary32, round to nearest even, in Flocq's executable formalisation. *)
From Coq Require Import Reals Lra.
From Flocq Require Import Core BinarySingleNaN.
From Verif Require Import Base GridMap PathSpec PathLen AStarOld AStarOldProofs.

Notation b64 := (binary_float 53 1024).
Notation b32 := (binary_float 24 128).
Definition p64 : Prec_gt_0 53 := eq_refl.
Definition l64 : Prec_lt_emax 53 1024 := eq_refl.
Definition p32 : Prec_gt_0 24 := eq_refl.
Definition l32 : Prec_lt_emax 24 128 := eq_refl.
Definition dadd : b64 -> b64 -> b64 := @Bplus 53 1024 p64 l64 mode_NE.
Definition dmul : b64 -> b64 -> b64 := @Bmult 53 1024 p64 l64 mode_NE.
Definition dsqrt : b64 -> b64 := @Bsqrt 53 1024 p64 l64 mode_NE.
Definition fadd : b32 -> b32 -> b32 := @Bplus 24 128 p32 l32 mode_NE.
(** int -> double, double -> float and float -> double. *)
Definition d_of_Z (z : Z) : b64 := binary_normalize 53 1024 p64 l64 mode_NE z 0 false.
Definition to_f32 (x : b64) : b32 :=
  match x with
  | B754_finite s m e _ => binary_normalize 24 128 p32 l32 mode_NE (cond_Zopp s (Zpos m)) e s
  | B754_zero s => B754_zero s
  | B754_infinity s => B754_infinity s
  | B754_nan => B754_nan
  end.
Definition to_f64 (x : b32) : b64 :=
  match x with
  | B754_finite s m e _ => binary_normalize 53 1024 p64 l64 mode_NE (cond_Zopp s (Zpos m)) e s
  | B754_zero s => B754_zero s
  | B754_infinity s => B754_infinity s
  | B754_nan => B754_nan
  end.
(** (int)x: truncation; out of range (undefined) what the x86 instruction gives. *)
Definition trunc_int (x : b32) : Z := let z := Btrunc x in if is_finite x && in_i32 z then z else -2147483648.

(** AStar.cpp:27-34 [sqrt(2)]; Node.h:30 [double getDistance()]. *)
Definition fl_step (d : b32) (diag : bool) : b64 :=
  dadd (to_f64 d) (if diag then dsqrt (d_of_Z 2) else d_of_Z 1).
(** AStar.cpp:137-140: pow(k,2) of an int is the rounded square. *)
Definition fl_predict (s p : Z * Z) : b64 :=
  dsqrt (dadd (dmul (d_of_Z (fst p - fst s)) (d_of_Z (fst p - fst s)))
              (dmul (d_of_Z (snd p - snd s)) (d_of_Z (snd p - snd s)))).
(** Node.cpp:41-50: float sum, then truncation. *)
Definition fl_value (d p : b32) : Z := trunc_int (fadd d p).
(** OpenList.cpp:77: double sum against an int. *)
Definition fl_gt (d p : b64) (v : Z) : bool :=
  match Bcompare (dadd d p) (d_of_Z v) with Some Gt => true | _ => false end.

Definition fl_aplan := aplan b64 b32 to_f32 (d_of_Z 0) fl_step fl_predict fl_value fl_gt.
Definition fl_junk : Z -> node b32 := fun _ => Node (0, 0) B754_nan B754_nan None true true.

(** An empty 3x2 map: the search walks around the corner. *)
Definition open_map : gridmap := gm_new 3 2.

Example C17_search_result :
  fl_aplan (astar_new b32 fl_junk open_map) (2, 0) (0, 0) = Path [(2, 0); (1, 1); (0, 0)].
Proof. vm_compute. reflexivity. Qed.

Theorem C17_cheapest_refuted :
  exists m start goal p q,
    gm_wf m /\ fl_aplan (astar_new b32 fl_junk m) start goal = Path p /\
    grid_path (free_cell m) start goal q /\ (path_len q < path_len p)%R.
Proof.
  exists open_map, (2, 0), (0, 0), [(2, 0); (1, 1); (0, 0)], [(2, 0); (1, 0); (0, 0)].
  split; [vm_compute; repeat split; discriminate || reflexivity|].
  split; [apply C17_search_result|]. split.
  - split; [split; reflexivity|]. split.
    + split; [split; [congruence|cbn; lia]|]. split; [split; [congruence|cbn; lia]|exact I].
    + intros c [<-|[<-|[<-|[]]]] _; (split; [vm_compute; repeat split; discriminate || reflexivity|vm_compute; reflexivity]).
  - cbn. assert (1 < sqrt 2)%R.
    { rewrite <- sqrt_1 at 1. apply sqrt_lt_1_alt. lra. }
    lra.
Qed.
