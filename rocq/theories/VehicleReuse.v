(** Model of a vehicle search object that is used for several searches and several maps
    (I/generic/SearchAlgorithm.hpp with DynamicDirectionalStateSpaceManager): the members
    that outlive a call, and the calls of VehicleFind.v started with whatever they hold.

    - init (447-460) clears the open list, the candidates, the result, start and goal, but
      neither the nodes nor heuristic_goal nor first_candidate_weight;
    - setMap (127-130; MapManager.hpp:530-545, 572-588) throws the nodes away.
    Simplifications: those of VehicleFind.v; heuristic_goal is the contents of the node it
    points to (the code keeps the pointer); the counters are left out (CountSearch.v). *)
From Coq Require Import Reals.
From Verif Require Import Base GridMap GeomR SteerModel VehicleSearch VehicleModel VehicleTest VehicleFind.
Local Open Scope R_scope.

(** The map and bresenham_skips; the nodes (a node that has no memory yet has the contents
    it would get, MapManager.hpp:446-466, 621-626); heuristic_goal, start,
    goal_candidates, first_candidate_weight; [vo_alive]: the nodes of goal_candidates
    still exist. *)
Record vobj := VO { vo_map : gridmap; vo_skips : Z; vo_info : vkey -> vinfo vkey snode;
  vo_hgoal : option snode; vo_start : list vkey; vo_cand : list (vkey * R); vo_first : R; vo_alive : bool }.

(** SearchAlgorithm.hpp:122-130; [first] is the uninitialised first_candidate_weight. *)
Definition vo_new (m : gridmap) (skips : Z) (first : R) : vobj := VO m skips (vfresh vkey snode v_node0) None [] [] first true.
(** SearchAlgorithm.hpp:127-130, MapManager.hpp:530-545, 572-588. *)
Definition vo_setMap (o : vobj) (m : gridmap) (skips : Z) : vobj :=
  VO m skips (vfresh vkey snode v_node0) (vo_hgoal o) (vo_start o) (vo_cand o) (vo_first o) false.

Section Reuse.
  Variable clamp : R -> R.

  (** The nodes' contents, and the nodes with other contents. *)
  Definition pays (f : vkey -> vinfo vkey snode) (v : vkey) : snode := n_pay _ _ (f v).
  Definition attach (f : vkey -> vinfo vkey snode) (pay : vkey -> snode) (v : vkey) : vinfo vkey snode :=
    let n := f v in VI _ _ (n_dist _ _ n) (n_h _ _ n) (n_prev _ _ n) (n_open _ _ n) (n_closed _ _ n) (pay v).

  (** SearchAlgorithm.hpp:462-492 and 526-575 on nodes with the contents [pay] (v_begin
      and v_begin1 for other contents than v_node0): the nodes and the contents after it. *)
  Definition start_at (m : gridmap) (pay : vkey -> snode) (from : R * R * R) : option (list vkey * (vkey -> snode)) :=
    let '(x, y, th) := from in a <- v_poses clamp m x y pay ;; v_init m th (fst a) (snd a).

  Variable p : sparams.
  Variable so : sopts.
  Variable b : nbh.
  Variable hval : snode -> snode -> R.
  Variable tot : R -> R -> R.
  Variable push : (vkey -> R) -> vkey -> list vkey -> list vkey.
  Variable pop : (vkey -> R) -> list vkey -> option (vkey * list vkey).
  Variable queue : list (vkey * R) -> list (vkey * R).
  Variable timeout : nat -> bool.
  Variables bf fuel : nat.
  Variable osd : R.

  Notation starts := (vstarts vkey snode vkey_eqb tot push).
  (** A call that throws: init has run, and the start nodes are set if they exist. *)
  Definition threw (o : vobj) (f : vkey -> vinfo vkey snode) (start : list vkey) : vfound * vobj :=
    (vf_fail, VO (vo_map o) (vo_skips o) f (vo_hgoal o) start [] (vo_first o) true).

  (** The search itself (373-445), and what it leaves. *)
  Definition searched {T : Type} (o : vobj) (start goals : list vkey) (hgoal : option snode)
      (term : T -> (vkey -> vinfo vkey snode) -> vkey -> option (T * list R * vanswer)) (t : T) (s : vstate vkey snode) : vfound * vobj :=
    let r := wloop vkey snode (Z * Z) T vkey_eqb (nb_moves b) (nb_reach p b) (nb_offer clamp (vo_map o) (vo_skips o) p so b)
               hval tot push pop start goals hgoal osd queue term timeout bf fuel 0 t (WS _ _ s [] (vo_first o)) in
    let w := snd (fst r) in
    (vf_of p queue bf start r, VO (vo_map o) (vo_skips o) (v_info _ _ (ws_s _ _ w)) hgoal start (ws_cand _ _ w) (ws_first _ _ w) true).

  (** SearchAlgorithm.hpp:208-220, 330-341, findPath(from, to, options). *)
  Definition vo_findo {T : Type} (cb : option (T -> list (vkey * snode) -> T * bool)) (t : T) (o : vobj) (from to : R * R * R) : vfound * vobj :=
    match start_at (vo_map o) (pays (vo_info o)) (if sp_rev p then to else from) with
    | None => threw o (vo_info o) []
    | Some (start, pay1) =>
        match start_at (vo_map o) pay1 (if sp_rev p then from else to) with
        | None => threw o (v_info _ _ (starts start (VS _ _ (attach (vo_info o) pay1) []))) start
        | Some (goals, pay) =>
            searched o start goals (vo_hgoal o) (pose_term vkey snode T vkey_eqb start goals (nb_isgoal p b) goal_dist osd cb bf) t
              (starts start (VS _ _ (attach (vo_info o) pay) []))
        end
    end.

  (** SearchAlgorithm.hpp:253-265, 345-357, findPath(from, goal_test, options). *)
  Definition vo_findt {T : Type} (hgoal : option snode) (test : T -> (vkey -> vinfo vkey snode) -> vkey -> T * list R * bool) (t : T) (o : vobj) (from : R * R * R) : vfound * vobj :=
    match start_at (vo_map o) (pays (vo_info o)) from with
    | None => threw o (vo_info o) []
    | Some (start, pay) =>
        searched o start [] hgoal (fun t f v => let '(t', cs, stop) := test t f v in Some (t', cs, if (stop : bool) then AStop else AGo)) t
          (starts start (VS _ _ (attach (vo_info o) pay) []))
    end.

  (** SearchAlgorithm.hpp:697-710. [None]: a node that does not exist any more is read, or
      backtrack fails. *)
  Definition vo_candidates (o : vobj) : option (list (list (vkey * snode))) :=
    match vo_cand o with
    | [] => wpaths vkey snode vkey_eqb (vo_start o) bf (vo_info o) (queue [])
    | _ => if vo_alive o then wpaths vkey snode vkey_eqb (vo_start o) bf (vo_info o) (queue (vo_cand o)) else None
    end.
End Reuse.
