(** C80: findPathWithStartConfiguration takes over the position and the heading of the
    node and nothing else. *)
From Coq Require Import Reals Lra.
From Flocq Require Import Core.Raux.
From Verif Require Import Base GridMap GridMapProofs GridSpec GeomR PropGeom MapManagers SteerModel PropSteer PropSteerKin PropSteerCost PropSteerGoal
  GenericProofs OpenPolicies VehicleSearch VehicleProofs VehicleAny VehicleModel VehicleInst VehicleGen PropVehicle PropVehicleEnd VehicleTest VehicleTestProofs VehicleTestDone VehicleFind PropDynLine
  PropVehicleTest PropVehicleJump PropVehicleStart StartConfig.
Local Open Scope R_scope.

(** ** Specification *)
(** The pose of a node. *)
Definition pose_of (n : snode) : R * R * R := (sn_x n, sn_y n, sn_th n).

(** ** Proofs *)
Lemma upd_depth pay v n : (forall w, sn_depth (pay w) = 0%Z) -> sn_depth n = 0%Z -> forall w, sn_depth (v_upd pay v n w) = 0%Z.
Proof. intros H Hn w. unfold v_upd. destruct (vkey_eqb w v); auto. Qed.
Lemma initn_same m th : forall l pay, (forall v, sn_depth (pay v) = 0%Z) -> v_initn m th l pay = v_init m th l pay.
Proof.
  induction l as [|v l IH]; intros pay H; [reflexivity|]. cbn [v_initn v_init].
  destruct (v_occupied m (pay v)) as [[]|]; cbn [obind]; [apply IH, H| |reflexivity].
  assert (E : set_start th (pay v) = set_th th (pay v)) by (unfold set_start, set_th; rewrite H; reflexivity).
  rewrite E, IH; [reflexivity|]. apply upd_depth; [exact H|]. unfold set_th. cbn [sn_depth]. apply H.
Qed.
Lemma poses_depth clamp m x y pay l q : (forall v, sn_depth (pay v) = 0%Z) -> v_poses clamp m x y pay = Some (l, q) -> forall v, sn_depth (q v) = 0%Z.
Proof.
  intros H. unfold v_poses. destruct (v_lookup clamp m x y 0 true) as [f|]; [|discriminate]. cbn [obind].
  destruct (v_lookup clamp m x y 0 false) as [r|]; [|discriminate]. cbn [obind]. intros E v. injection E as _ <-.
  assert (G : forall w, sn_depth (v_upd pay f (set_fwd true (pay f)) w) = 0%Z) by (apply upd_depth; [exact H|apply H]).
  apply upd_depth; [exact G|]. unfold set_fwd at 1. cbn [sn_depth]. apply G.
Qed.
Lemma beginn_same clamp m node : v_beginn clamp m node = v_begin1 clamp m (pose_of node).
Proof.
  unfold v_beginn, v_begin1, pose_of. destruct (v_poses clamp m (sn_x node) (sn_y node) v_node0) as [[l q]|] eqn:E; [|reflexivity]. cbn [obind fst snd].
  apply initn_same. eapply poses_depth; [|exact E]. intros [[[x y] t] f]. reflexivity.
Qed.

(** ** C80 *)
(** The call is the call with the pose of the node: same path, same candidates, same
    questions to the goal test. *)
Theorem C80_same : forall clamp m skips p so b hval tot push pop queue timeout bf fuel osd T hgoal test (t : T) node,
  v_findn clamp m skips p so b hval tot push pop queue timeout bf fuel osd hgoal test t node =
  v_findt clamp m skips p so b hval tot push pop queue timeout bf fuel osd hgoal test t (pose_of node).
Proof. intros. unfold v_findn, v_findt. rewrite beginn_same. reflexivity. Qed.

(** The configuration in the name - steering angle, gear, depth and the rest - has no
    effect. *)
Theorem C80_configuration_ignored : forall clamp m skips p so b hval tot push pop queue timeout bf fuel osd T hgoal test (t : T) x y th fwd steer custom depth fwd' steer' custom' depth',
  v_findn clamp m skips p so b hval tot push pop queue timeout bf fuel osd hgoal test t (SN x y th fwd steer custom depth) =
  v_findn clamp m skips p so b hval tot push pop queue timeout bf fuel osd hgoal test t (SN x y th fwd' steer' custom' depth').
Proof. intros. rewrite !C80_same. reflexivity. Qed.

(** What the goal test is asked about: poses reached from a vehicle that stands in the
    corner of the cell of the node with its heading and wheels straight (start_node). *)
Theorem C80_calls : forall clamp m skips p so b hval tot push pop queue timeout bf fuel osd T hgoal test (t : T) node c,
  AngleClamp_contract clamp -> map_ok m -> vehicle_ok p so -> nb_ok b -> push_ok push -> pop_ok pop ->
  let r := v_findn clamp m skips p so b hval tot push pop queue timeout bf fuel osd hgoal test t node in
  asked test t (vf_calls r) /\ (In c (vf_calls r) -> exists s, start_node (pose_of node) (pose_of node) s /\ drives_to (nb_move clamp p so b) s (wc_pay _ _ c)) /\
  (osd <> 0 -> in_window osd (vf_calls r)).
Proof. intros clamp m skips p so b hval tot push pop queue timeout bf fuel osd T hgoal test t node c Hc Hm Hk Hb Hpush Hpop. rewrite C80_same. apply C74_own_test_calls; assumption. Qed.
Theorem C80_path : forall clamp m skips p so b hval tot push pop queue timeout bf fuel osd T hgoal test (t : T) node path cands log,
  AngleClamp_contract clamp -> map_ok m -> (0 <= skips)%Z -> vehicle_ok p so -> nb_ok b -> push_ok push -> pop_ok pop -> queue_ok queue ->
  v_findn clamp m skips p so b hval tot push pop queue timeout bf fuel osd hgoal test t node = VF (VPath _ _ path) cands log ->
  (path = [] /\ forall q w, ~ added log q w) \/
  exists n l q w, driven (sp_rev p) path = n :: l /\ drivable clamp m skips p so b (pose_of node) (pose_of node) (n :: l) /\ best log q w /\ slot_of clamp n = slot_of clamp q.
Proof. intros clamp m skips p so b hval tot push pop queue timeout bf fuel osd T hgoal test t node path cands log Hc Hm Hs Hk Hb Hpush Hpop Hq E. rewrite C80_same in E. eapply C74_own_test; eassumption. Qed.
Theorem C80_least : forall clamp m skips p so b hval tot push pop queue timeout bf fuel osd T hgoal test (t : T) node path cands log,
  AngleClamp_contract clamp -> map_ok m -> (0 <= skips)%Z -> vehicle_ok p so -> nb_ok b -> push_ok push -> pop_ok pop -> queue_ok queue ->
  (forall d h, tot d h = d) -> least_first pop ->
  v_findn clamp m skips p so b hval tot push pop queue timeout bf fuel osd hgoal test t node = VF (VPath _ _ path) cands log ->
  (path = [] /\ forall q w, ~ added log q w) \/
  exists s c n l w, driven (sp_rev p) path = n :: l /\ start_node (pose_of node) (pose_of node) s /\ trip (nb_move clamp p so b) s (n :: l) c /\ best log n w.
Proof. intros clamp m skips p so b hval tot push pop queue timeout bf fuel osd T hgoal test t node path cands log Hc Hm Hs Hk Hb Hpush Hpop Hq Ht Hl E. rewrite C80_same in E. eapply C74_own_test_least; eassumption. Qed.
Theorem C80_exhaustive : forall clamp m skips p so b hval tot push pop queue bf fuel osd T hgoal test (t : T) node path cands log,
  AngleClamp_contract clamp -> map_ok m -> (0 <= skips)%Z -> vehicle_ok p so -> push_ok push -> pop_ok pop ->
  v_findn clamp m skips p so b hval tot push pop queue (fun _ => false) bf fuel osd hgoal test t node = VF (VPath _ _ path) cands log ->
  ran_out osd log -> exhaustive clamp m p so b (pose_of node) (pose_of node) log.
Proof. intros clamp m skips p so b hval tot push pop queue bf fuel osd T hgoal test t node path cands log Hc Hm Hs Hk Hpush Hpop E Hr. rewrite C80_same in E. eapply C74_own_test_exhaustive; eassumption. Qed.
Theorem C80_candidates : forall clamp m skips p so b hval tot push pop queue timeout bf fuel osd T hgoal test (t : T) node path ps log,
  AngleClamp_contract clamp -> map_ok m -> (0 <= skips)%Z -> vehicle_ok p so -> nb_ok b -> push_ok push -> pop_ok pop -> queue_ok queue ->
  v_findn clamp m skips p so b hval tot push pop queue timeout bf fuel osd hgoal test t node = VF (VPath _ _ path) (Some ps) log ->
  candidate_paths clamp m skips p so b (pose_of node) (pose_of node) log ps /\ path = (if sp_rev p then rev (hd [] ps) else hd [] ps).
Proof. intros clamp m skips p so b hval tot push pop queue timeout bf fuel osd T hgoal test t node path ps log Hc Hm Hs Hk Hb Hpush Hpop Hq E. rewrite C80_same in E. eapply C75_own_test; eassumption. Qed.

(** A node with its wheels turned, in reverse gear, inside cell (2, 3). The path consists
    of the corner of the cell with straight wheels. *)
Example C80_case : forall clamp, AngleClamp_contract clamp ->
  exists k f log, let r := v_findn clamp walled 0 def_p def_so (NDyn def_o) (l2 (/ 20)) Rplus fifo_push (min_pop Rltb) q_sort (fun _ => false) 1 1 1 None (fun (t : unit) _ _ => (t, [5; 3], true)) tt (SN (5 / 2) (7 / 2) 1 false 40 (Some 7%Z) 9) in
    let n := (k, SN 2 3 1 f 0 (Some 0%Z) 0) in
    r = VF (VPath _ _ [n]) (Some [[n]; [n]]) log /\ best log (snd n) 3.
Proof.
  intros clamp Hc.
  assert (F1 : Zfloor (5 / 2) = 2%Z) by (apply Zfloor_imp; cbn; lra).
  assert (F2 : Zfloor (7 / 2) = 3%Z) by (apply Zfloor_imp; cbn; lra).
  destruct (first_asked clamp walled 0 def_p def_so (NDyn def_o) (l2 (/ 20)) Rplus fifo_push (min_pop Rltb) 1 1 1 (5 / 2) (7 / 2) 1 None Hc walled_ok fifo_push_ok (min_pop_ok Rltb)) as (f & log & E & Hb).
  - rewrite F1, F2. unfold has_nodes. cbn [fst snd walled gm_w gm_h]. lia.
  - rewrite F1, F2. apply walled_free. vm_compute. reflexivity.
  - reflexivity.
  - lia.
  - lia.
  - cbv zeta. eexists _, f, log. rewrite C80_same. unfold pose_of. cbn [sn_x sn_y sn_th]. rewrite F1, F2 in E, Hb. unfold at_corner in E, Hb. split; [exact E|exact Hb].
Qed.
