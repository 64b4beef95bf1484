(** Model of vehicle searches with candidates and with the caller's own goal test:
    VehicleTest.v with the steering neighbourhoods and DynamicDirectionalStateSpaceManager
    (VehicleModel.v), for the first search after setMap on a new object.

    Simplifications: those of VehicleTest.v and VehicleModel.v. *)
From Coq Require Import Reals.
From Verif Require Import Base GridMap GeomR SteerModel VehicleSearch VehicleModel VehicleTest.
Local Open Scope R_scope.

(** The neighbourhood: DynamicSteeringNeighborhood with its static variables, or
    SteeringNeighborhood with SIZE, STEPS and DISTANCE. *)
Inductive nbh := NDyn (o : dopts) | NTmp (size : Z) (steps : nat) (distance : Z).

Section Find.
  Variable clamp : R -> R.
  Variable m : gridmap.
  Variable skips : Z.
  Variable p : sparams.
  Variable so : sopts.
  Variable b : nbh.

  (** The parts of the neighbourhood, as in d_find and s_find (VehicleModel.v). *)
  Definition nb_advance : snode -> list snode -> Z -> Z -> adv := match b with NDyn _ => d_advance clamp p so | NTmp _ _ _ => s_advance clamp p so end.
  Definition nb_moves : list (Z * Z) := match b with NDyn o => d_moves o | NTmp size steps _ => v_moves 0 size steps end.
  Definition nb_reach : nat := match b with NDyn _ => 0%nat | NTmp _ _ _ => Z.to_nat (sp_sds p - 1) end.
  Definition nb_isgoal : snode -> snode -> option snode -> option bool :=
    match b with NDyn o => fun g r _ => Some (d_isGoal (sp_res p) (do_dist o) (do_ang o) g r) | NTmp _ _ distance => s_isGoal p distance end.
  Definition nb_offer : snode -> list snode -> Z * Z -> option (option (vkey * R * snode)) := v_offer clamp m skips (sp_res p) nb_advance.

  Variable hval : snode -> snode -> R.
  Variable tot : R -> R -> R.
  Variable push : (vkey -> R) -> vkey -> list vkey -> list vkey.
  Variable pop : (vkey -> R) -> list vkey -> option (vkey * list vkey).
  Variable queue : list (vkey * R) -> list (vkey * R).
  Variable timeout : nat -> bool.
  Variables bf fuel : nat.
  Variable osd : R.

  (** What a call leaves: the returned path, what getPathCandidates returns afterwards and
      the calls of the goal test. *)
  Record vfound := VF { vf_path : vres vkey snode; vf_cands : option (list (list (vkey * snode))); vf_calls : list (wcall vkey snode) }.
  Definition vf_fail : vfound := VF (VUndef _ _) None [].
  (** std::reverse of the result for a reversed neighbourhood (213-219, 260-263); the
      candidates are not reversed (697-710). *)
  Definition vf_of (start : list vkey) (x : vres vkey snode * wstate vkey snode * list (wcall vkey snode)) : vfound :=
    VF (match fst (fst x) with VPath _ _ l => VPath _ _ (if sp_rev p then rev l else l) | r => r end)
       (wcandidates vkey snode vkey_eqb start queue bf (snd (fst x))) (snd x).

  (** SearchAlgorithm.hpp:592. *)
  Definition goal_dist (g r : snode) : R := hyp (sn_x g - sn_x r) (sn_y g - sn_y r).

  (** SearchAlgorithm.hpp:208-220, 330-341, findPath(from, to, options); [cb] is the
      function of setPathCandidateCallback with its own state. *)
  Definition v_findo {T : Type} (cb : option (T -> list (vkey * snode) -> T * bool)) (t : T) (from to : R * R * R) : vfound :=
    match v_begin clamp m (if sp_rev p then to else from) (if sp_rev p then from else to) with
    | None => vf_fail
    | Some (start, goals, pay) =>
        vf_of start (wrun vkey snode (Z * Z) T vkey_eqb nb_moves nb_reach nb_offer hval tot push pop start goals None osd queue
          (pose_term vkey snode T vkey_eqb start goals nb_isgoal goal_dist osd cb bf) timeout bf fuel t pay)
    end.

  (** SearchAlgorithm.hpp:346-349, 462-492: the start nodes and the contents of the nodes. *)
  Definition v_begin1 (from : R * R * R) : option (list vkey * (vkey -> snode)) :=
    let '(x, y, th) := from in a <- v_poses clamp m x y v_node0 ;; v_init m th (fst a) (snd a).

  (** SearchAlgorithm.hpp:253-265, 345-357, findPath(from, goal_test, options). The test
      reads the nodes, adds the node it is asked about to the candidates with some weights
      and tells whether to stop; [hgoal] is its heuristic goal. *)
  Definition v_findt {T : Type} (hgoal : option snode) (test : T -> (vkey -> vinfo vkey snode) -> vkey -> T * list R * bool) (t : T) (from : R * R * R) : vfound :=
    match v_begin1 from with
    | None => vf_fail
    | Some (start, pay) =>
        vf_of start (wrun vkey snode (Z * Z) T vkey_eqb nb_moves nb_reach nb_offer hval tot push pop start [] hgoal osd queue
          (fun t f v => let '(t', cs, stop) := test t f v in Some (t', cs, if (stop : bool) then AStop else AGo)) timeout bf fuel t pay)
    end.
End Find.
