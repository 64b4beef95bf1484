(** C21: A* does not return a cheapest path to the goal region; IEEE binary64
    run (Flocq). *)
From Coq Require Import Reals Lra QArith.
From Flocq Require Import BinarySingleNaN.
From Verif Require Import Base GridMap PathSpec GenericSearch GenericProofs OpenPolicies DirectSpec DirectSearch AStarFloat Heuristics PropHeur.
Open Scope Z_scope.

Definition sf_lt (a b : b64) : bool := Bltb a b.
(** M_SQRT2 * 1 and 1, times the resolution 1. *)
Definition sf_cost (d : bool) : b64 := if d then dsqrt (d_of_Z 2) else d_of_Z 1.
(** hypot of small integers: correctly rounded. *)
Definition sf_L2 (a b : cell) : b64 :=
  dsqrt (d_of_Z ((fst a - fst b) * (fst a - fst b) + (snd a - snd b) * (snd a - snd b))).
Definition sf_find :=
  findPath b64 (d_of_Z 0) dadd sf_lt dadd sf_cost sf_L2 sf_L2 fifo_push (min_pop sf_lt) (best_of sf_lt) true 1.

(** Empty 3x3 map, start (0,1), goal (2,0): of the two accepted cells next to the
    start the search takes the diagonal one. *)
Example C21_run : fst (sf_find 50 (Opts _ false (fun _ _ => false) (fun _ => false))
    (new_sobj b64 (d_of_Z 0) (B754_infinity false) (gm_new 3 3) (d_of_Z 0)) (0%Q, 1%Q) (2%Q, 0%Q))
  = FPath [(0, 1); (1, 0)].
Proof. vm_compute. reflexivity. Qed.

Theorem C21_cheapest_in_region_refuted : exists m from to s g p t' q,
  fst (sf_find 50 (Opts _ false (fun _ _ => false) (fun _ => false))
    (new_sobj b64 (d_of_Z 0) (B754_infinity false) m (d_of_Z 0)) from to) = FPath p /\
  in_cell from s /\ in_cell to g /\ near 1 g t' /\ direct_path true 1 m s t' q /\ (path_length q < path_length p)%R.
Proof.
  exists (gm_new 3 3), (0%Q, 1%Q), (2%Q, 0%Q), (0, 1), (2, 0), [(0, 1); (1, 0)], (1, 1), [(0, 1); (1, 1)].
  split; [exact C21_run|]. split; [split; split; vm_compute; (reflexivity || discriminate)|].
  split; [split; split; vm_compute; (reflexivity || discriminate)|]. split; [split; cbn; lia|]. split.
  - split; [split; reflexivity|]. split; [|exact I]. split; [cbn; repeat split; lia || congruence|].
    split; [vm_compute; repeat split; discriminate || reflexivity|vm_compute; reflexivity].
  - cbn [path_length]. unfold euclid. cbn [fst snd]. rewrite !Rplus_0_r.
    change (0 - 1) with (-1). change (1 - 1) with 0. change (1 - 0) with 1. apply sqrt_lt_1_alt. lra.
Qed.
