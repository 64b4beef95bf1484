(** Concrete runs of findPath: non-vacuity of PropGeneric and the refuted parts
    of C22 and C24. Integer costs, priority queue of OpenPolicies. *)
From Coq Require Import QArith.
From Verif Require Import Base GridMap GridMapProofs PathSpec GenericSearch GenericProofs GenericCand GenericReuse OpenPolicies DirectSpec DirectSearch PropGeneric.
Open Scope Z_scope.

(** Straight step 10, diagonal 14; Manhattan-like integer heuristic. *)
Definition zcost (d : bool) : Z := if d then 14 else 10.
Definition zheur (a b : cell) : Z := 10 * Z.max (Z.abs (fst a - fst b)) (Z.abs (snd a - snd b)).
Definition zhyp (a b : cell) : Z := Z.abs (fst a - fst b) + Z.abs (snd a - snd b).
Definition zfind (eight : bool) :=
  findPath Z 0 Z.add Z.ltb Z.add zcost zheur zhyp fifo_push (min_pop Z.ltb) (best_of Z.ltb) eight 1.
Definition zinf : Z := 1000000.
Definition znew (m : gridmap) : sobj Z := new_sobj Z 0 zinf m 0.
Definition plain : opts Z := Opts Z false (fun _ _ => false) (fun _ => false).
Definition over5 : opts Z := Opts Z true (fun t f => f + 50 <? t) (fun _ => false).
Definition at_ (x y : Z) : Q * Q := (inject_Z x + (1 # 2), inject_Z y + (1 # 2))%Q.

(** A 5x4 map with a wall: column 2 occupied except in row 3. *)
Definition wall_map : gridmap :=
  GridMap 5 4 [0;0;255;0;0; 0;0;255;0;0; 0;0;255;0;0; 0;0;0;0;0] 50 200 (-1).

Lemma zarith : cost_arith 0 Z.add Z.ltb zcost (fun a => 0 <= a).
Proof.
  assert (Hc : forall d, 0 < zcost d) by (intros []; reflexivity).
  constructor.
  - intros a. apply (well_founded_lt_compat _ Z.to_nat). intros x y (A & B & H). lia.
  - intros a. lia.
  - lia.
  - intros d a H. specialize (Hc d). lia.
  - intros d a H. specialize (Hc d). lia.
  - intros a b c _ _ _ H1 H2. lia.
Qed.
Lemma zirr a : Z.ltb a a = false. Proof. lia. Qed.
Lemma ztr a b c : Z.ltb a b = false -> Z.ltb b c = false -> Z.ltb a c = false. Proof. lia. Qed.
Lemma zas a b : Z.ltb a b = true -> Z.ltb b a = false. Proof. lia. Qed.
Lemma zbest_min : best_min (V := cell) Z.ltb (best_of Z.ltb).
Proof.
  intros l v H. unfold best_of in H. destruct (min_cand Z.ltb l) as [[w c]|] eqn:E; [|discriminate]. injection H as ->.
  destruct (min_cand_min Z.ltb zirr ztr zas l _ E) as [A B]. exists c. split; [exact A|]. intros x d Hx. apply (B (x, d) Hx).
Qed.

(** The hypotheses of C19, C20 and C54 are met by this run. *)
Example C20_hypotheses :
  push_ok (V := cell) (C := Z) fifo_push /\ pop_ok (V := cell) (min_pop Z.ltb) /\
  best_ok (V := cell) (best_of Z.ltb) /\ (forall l : list (cell * Z), best_of Z.ltb l = None -> l = []) /\
  cost_arith 0 Z.add Z.ltb zcost (fun a => 0 <= a) /\ gm_wf wall_map /\
  in_cell (at_ 0 0) (0, 0) /\ in_cell (at_ 4 0) (4, 0) /\
  cell_of (gm_w wall_map) (gm_h wall_map) 0 0 /\ cell_of (gm_w wall_map) (gm_h wall_map) 4 0 /\
  ~ map_occupied wall_map (0, 0) /\ ~ map_occupied wall_map (4, 0).
Proof.
  split; [apply fifo_push_ok|]. split; [apply min_pop_ok|]. split; [apply best_of_ok|]. split; [apply best_of_some|].
  split; [exact zarith|]. split; [vm_compute; repeat split; discriminate || reflexivity|].
  split; [split; split; vm_compute; (reflexivity || discriminate)|]. split; [split; split; vm_compute; (reflexivity || discriminate)|].
  split; [vm_compute; repeat split; discriminate || reflexivity|]. split; [vm_compute; repeat split; discriminate || reflexivity|].
  split; intros [_ H]; vm_compute in H; discriminate.
Qed.
Example C19_run : fst (zfind true 100 plain (znew wall_map) (at_ 0 0) (at_ 4 0)) =
  FPath [(0, 0); (1, 1); (1, 2); (2, 3); (3, 2); (3, 1)].
Proof. vm_compute. reflexivity. Qed.
Example C54_run : fst (zfind true 100 over5 (znew wall_map) (at_ 0 0) (at_ 4 0)) =
  FPath [(0, 0); (1, 1); (1, 2); (2, 3); (3, 2); (3, 1); (4, 0)].
Proof. vm_compute. reflexivity. Qed.
Example C20_walled_in :
  let m := GridMap 3 1 [0; 255; 0] 50 200 (-1) in
  fst (zfind true 100 plain (znew m) (at_ 0 0) (at_ 2 0)) = FPath [].
Proof. vm_compute. reflexivity. Qed.
(** The breadth-first search (QueueManager) is an instance as well. *)
Definition bfs (eight : bool) :=
  findPath Z 0 Z.add Z.ltb Z.add zcost zheur zhyp fifo_push fifo_pop (best_of Z.ltb) eight 1.
Example C19_bfs_run : fst (bfs false 100 plain (znew wall_map) (at_ 0 0) (at_ 4 0)) =
  FPath [(0, 0); (1, 0); (1, 1); (1, 2); (1, 3); (2, 3); (3, 3); (3, 2); (3, 1)].
Proof. vm_compute. reflexivity. Qed.

(** C22 is false without setMap: on a 4x1 free corridor, after a first search
    from the left to the right end, the search back finds nothing although a
    path exists (and a new object finds it). *)
Theorem C22_reuse_refuted :
  let m := gm_new 4 1 in
  let '(r1, o1) := zfind true 100 plain (znew m) (at_ 0 0) (at_ 3 0) in
  r1 = FPath [(0, 0); (1, 0); (2, 0)] /\
  fst (zfind true 100 plain o1 (at_ 3 0) (at_ 0 0)) = FPath [] /\
  fst (zfind true 100 plain (znew m) (at_ 3 0) (at_ 0 0)) = FPath [(3, 0); (2, 0); (1, 0)].
Proof. vm_compute. repeat split. Qed.

(** C24 is false for poses outside the map: the exception escapes (there is no
    FPath result), a pose just left of the map is silently taken for column 0,
    and one at least one cell left of it is undefined behaviour. *)
Theorem C24_outside_refuted :
  let m := gm_new 4 2 in
  fst (zfind true 100 plain (znew m) (at_ 9 0) (at_ 0 0)) = FOutside /\
  fst (zfind true 100 plain (znew m) (at_ 0 0) (at_ 9 0)) = FOutside /\
  fst (zfind true 100 plain (znew m) ((-1 # 2)%Q, 0%Q) (at_ 3 0)) = FPath [(0, 0); (1, 0); (2, 0)] /\
  fst (zfind true 100 plain (znew m) ((-3 # 2)%Q, 0%Q) (at_ 3 0)) = FUndef.
Proof. vm_compute. repeat split. Qed.

(** C23: with a reversed neighbourhood the first cell is only near the start. *)
Theorem C23_first_cell_refuted :
  fst (findPath_dir Z 0 Z.add Z.ltb Z.add zcost zheur zhyp fifo_push (min_pop Z.ltb) (best_of Z.ltb) true 1
         true 100 plain (znew (gm_new 4 1)) (at_ 0 0) (at_ 3 0)) = FPath [(1, 0); (2, 0); (3, 0)].
Proof. vm_compute. reflexivity. Qed.

Print Assumptions C22_reuse_refuted.
