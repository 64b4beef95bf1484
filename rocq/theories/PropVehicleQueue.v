(** C59, refuted for other orders: with the open list of QueueManager (NodeManager.hpp:
    22-66, first in first out) the returned path contains a pose that no move of the
    vehicle leads to from the pose before it. *)
From Coq Require Import Reals Lra.
From Flocq Require Import Core.Raux.
From Verif Require Import Base GridMap GridMapProofs GridSpec BresenhamProofs GeomR PropGeom PropLine MapManagers SteerModel PropSteer PropSteerKin PropSteerCost PropSteerGoal
  GenericProofs OpenPolicies VehicleSearch VehicleProofs VehicleAny VehicleModel VehicleInst VehicleGen PropVehicle PropVehicleEnd PropVehicleStart PropVehicleCase.
Local Open Scope R_scope.

(** An empty map; a vehicle that drives straight only, 3.5 cells a step, both ways. *)
Definition q_map : gridmap := gm_new 20 8.
Definition q_p : sparams := SP (7 / 2) 1 0 15 (2 / 5) false true 1.
Definition q_so : sopts := SO (5 / 2) (1 / 2).
Definition q_o : dopts := DO true true 0 (3 / 10) (PI / 8).
Lemma q_map_ok : map_ok q_map.
Proof. constructor; cbn [q_map gm_new gm_w gm_h]; try lia. unfold gm_wf, q_map, gm_new; cbn [gm_w gm_h gm_data]. rewrite repeat_length. vm_compute. repeat split; discriminate. Qed.
Lemma q_ok : vehicle_ok q_p q_so.
Proof. constructor; cbn [q_p q_so sp_step sp_res sp_la sp_max so_back so_turn]; lra || lia. Qed.
Lemma q_free x y : cell_of 20 8 x y -> ~ occupied q_map x y.
Proof.
  intros [Hx Hy]. assert (E : isOccupied q_map x y = Some false).
  { assert (C : forallb (fun y => forallb (fun x => match isOccupied q_map (Z.of_nat x) (Z.of_nat y) with Some false => true | _ => false end) (seq 0 20)) (seq 0 8) = true) by (vm_compute; reflexivity).
    rewrite forallb_forall in C. specialize (C (Z.to_nat y)). rewrite in_seq in C. specialize (C ltac:(lia)). rewrite forallb_forall in C. specialize (C (Z.to_nat x)). rewrite in_seq in C. specialize (C ltac:(lia)).
    rewrite !Z2Nat.id in C by lia. destruct (isOccupied q_map x y) as [[]|]; congruence. }
  intros (_ & X). congruence.
Qed.

Section Queue.
  Variable clamp : R -> R.
  Hypothesis Hclamp : AngleClamp_contract clamp.
  Notation offer := (v_offer clamp q_map 0 1 (d_advance clamp q_p q_so)).
  (** A pose on the line through the start. *)
  Definition at_x (x : R) (f : bool) (d : Z) : snode := SN x 3 0 f 0 (Some 0%Z) d.

  Lemma pix : sp_pixel q_p = 7 / 2.
  Proof. unfold sp_pixel, q_p. cbn [sp_step sp_res]. lra. Qed.
  Lemma adv_turn x f d prevs i : (i = 1 \/ i = 2 \/ i = 4 \/ i = 5)%Z -> d_advance clamp q_p q_so (at_x x f d) prevs i 0 = AReject.
  Proof using Type.
    intros Hi. unfold d_advance, at_x. cbv zeta. cbn [sn_depth sn_fwd sn_custom sn_steer sn_x sn_y sn_th].
    destruct ((d <? 1)%Z && xorb f (i <? 3)%Z); [reflexivity|]. change (0 <? 0)%Z with false. cbn [andb].
    destruct (negb (sp_rev q_p) && (d <? 1)%Z && (3 <? i)%Z); [reflexivity|]. replace (i =? 3)%Z with false by lia. rewrite andb_false_r.
    rewrite Rmult_0_r. change 0 with (IZR 0). rewrite cast_i32_IZR by lia. unfold steer_cmd.
    destruct Hi as [-> |[-> |[-> | ->]]]; reflexivity.
  Qed.
  Lemma adv_straight x (f : bool) d (b : bool) prevs : (1 <= d)%Z -> d_advance clamp q_p q_so (at_x x f d) prevs (if b then 0 else 3) 0 =
    AMove ((if Bool.eqb f b then 7 / 2 else 7 / 2 * (1 / 2)) * (if b then 1 else 5 / 2)) (at_x (if b then x + 7 / 2 else x - 7 / 2) b (d + 1)).
  Proof using Hclamp.
    intros Hd. unfold d_advance, at_x. cbv zeta. cbn [sn_depth sn_fwd sn_custom sn_steer sn_x sn_y sn_th]. replace (d <? 1)%Z with false by lia. cbn [andb negb].
    change (0 <? 0)%Z with false. cbn [andb]. rewrite !andb_false_r. cbn [andb]. rewrite Rmult_0_r. change (cast_i32 0) with (cast_i32 (IZR 0)). rewrite cast_i32_IZR by lia.
    assert (El : limit_steer (sp_max q_p) 0 = 0%Z) by reflexivity.
    assert (Ec : forall i, (i = 0 \/ i = 3)%Z -> steer_cmd (sp_max q_p) 0 0 i 0 = Some 0%Z) by (intros i [-> | ->]; reflexivity).
    rewrite Ec by (destruct b; auto). rewrite El. unfold s_pose. cbv zeta. change (0 =? 0)%Z with true. cbv iota. cbn [fst snd]. rewrite pix, cos_0, sin_0, Rplus_0_r, (clamp_0 clamp Hclamp).
    assert (Ef : ((if b then 0 else 3) <? 3)%Z = b) by (destruct b; reflexivity). rewrite Ef. change (sp_both q_p) with true. change (Z.abs 0) with 0%Z. change (0 <? 0)%Z with false.
    unfold drive_dir. change (sp_rev q_p) with false. cbn [negb q_so so_turn so_back].
    destruct f, b; cbn [xorb andb negb Bool.eqb]; f_equal; try lra; f_equal; lra.
  Qed.
  Lemma adv_start_fwd x prevs : d_advance clamp q_p q_so (at_x x true 0) prevs 0 0 = AMove (7 / 2) (at_x (x + 7 / 2) true 1).
  Proof using Hclamp.
    unfold d_advance, at_x. cbv zeta. cbn [sn_depth sn_fwd sn_custom sn_steer sn_x sn_y sn_th]. change (0 <? 1)%Z with true. change (0 <? 3)%Z with true. cbn [xorb andb negb].
    change (0 <? 0)%Z with false. change (3 <? 0)%Z with false. change (0 =? 3)%Z with false. rewrite !andb_false_r. cbn [andb].
    rewrite Rmult_0_r. change (cast_i32 0) with (cast_i32 (IZR 0)). rewrite cast_i32_IZR by lia. change (steer_cmd (sp_max q_p) 0 0 0 0) with (Some 0%Z). cbv iota. change (limit_steer (sp_max q_p) 0) with 0%Z.
    unfold s_pose. cbv zeta. change (0 =? 0)%Z with true. cbv iota. cbn [fst snd]. rewrite pix, cos_0, sin_0, Rplus_0_r, (clamp_0 clamp Hclamp).
    unfold drive_dir. change (sp_rev q_p) with false. f_equal. f_equal; lra.
  Qed.
  Lemma adv_start_back x prevs : d_advance clamp q_p q_so (at_x x false 0) prevs 3 0 = AMove 1 (at_x (x - 2 / 5) false 1).
  Proof using Type.
    unfold d_advance, at_x. cbv zeta. cbn [sn_depth sn_fwd sn_custom sn_steer sn_x sn_y sn_th]. change (0 <? 1)%Z with true. change (3 <? 3)%Z with false. cbn [xorb andb negb].
    change (0 <? 0)%Z with false. change (sp_rev q_p) with false. cbn [negb andb]. change (3 =? 3)%Z with true. change (0 =? 0)%Z with true. cbv iota. cbn [negb].
    rewrite cos_0, sin_0. cbn [q_p q_so sp_la sp_res so_back]. replace (- (2 / 5) / 1) with (- (2 / 5)) by lra. rewrite Rabs_left by lra. f_equal; [lra|]. f_equal; lra.
  Qed.
  Lemma adv_start_other x (f : bool) prevs : d_advance clamp q_p q_so (at_x x f 0) prevs (if f then 3 else 0) 0 = AReject.
  Proof using Type. unfold d_advance, at_x. cbv zeta. cbn [sn_depth sn_fwd]. change (0 <? 1)%Z with true. destruct f; reflexivity. Qed.

  Lemma offer_none q prevs i : d_advance clamp q_p q_so q prevs i 0 = AReject -> offer q prevs (i, 0%Z) = Some None.
  Proof using Type. intros E. unfold v_offer. cbn [fst snd]. rewrite E. reflexivity. Qed.
  Lemma offer_some x f d prevs i c x' f' d' k : d_advance clamp q_p q_so (at_x x f d) prevs i 0 = AMove c (at_x x' f' d') -> 0 <= c -> Zfloor x' = k -> (0 <= Zfloor x < 20)%Z -> (0 <= k < 20)%Z ->
    offer (at_x x f d) prevs (i, 0%Z) = Some (Some ((k, 3, 15, f')%Z, c, at_x x' f' d')).
  Proof using Hclamp.
    intros E Hc <- Hx Hk. unfold v_offer. cbn [fst snd]. rewrite E. replace (Rltb c 0) with false by (symmetry; apply Rltb_false; lra).
    destruct q_map_ok as [Hwf Hsm Hw Hh]. cbn [at_x sn_x sn_y sn_th sn_fwd].
    assert (E3 : Zfloor 3 = 3%Z) by apply (Zfloor_IZR 3).
    assert (Hi : forall z, (0 <= Zfloor z < 20)%Z -> inner q_map (Zfloor z) (Zfloor 3)) by (intros z Hz; rewrite E3; unfold inner; cbn; lia).
    rewrite (contains_ok q_map Hsm _ _ (Hi _ Hk)). cbn [obind negb].
    rewrite line_unchecked.
    - cbn [obind negb]. destruct (lookup_some clamp Hclamp q_map Hsm Hw Hh x' 3 0 f' (Hi _ Hk)) as (t & Et & _ & ->). cbn [obind].
      rewrite (slot_0 clamp Hclamp) in Et. injection Et as <-. rewrite E3, Rmult_1_r. reflexivity.
    - assumption.
    - apply (inner_fits q_map Hsm). auto.
    - apply (inner_fits q_map Hsm). auto.
    - left. unfold cell_of. cbn. lia.
    - rewrite (Ztrunc_IZR 3). apply q_free. unfold cell_of. rewrite Ztrunc_floor; [|eapply Rle_trans; [|apply Zfloor_lb]; apply IZR_le; lia]. lia.
  Qed.

  (** ** The run *)
  Notation VI := (VI vkey snode).
  Notation vst := (vstate vkey snode).
  Notation inf := (v_info vkey snode).
  Notation opn := (v_open vkey snode).
  Notation sf := (10, 3, 15, true)%Z.
  Notation sr := (10, 3, 15, false)%Z.
  Notation kx := (13, 3, 15, true)%Z.
  Notation kb := (9, 3, 15, false)%Z.
  Notation kc := (6, 3, 15, false)%Z.
  Notation gf := (17, 3, 15, true)%Z.
  Notation gr := (17, 3, 15, false)%Z.
  Notation goals := [gf; gr].
  Notation start := [sf; sr].
  Notation hv := (fun _ _ : snode => 0).
  Notation tt_ := (fun d _ : R => d).
  Notation isg := (fun g r (_ : option snode) => Some (d_isGoal 1 (3 / 10) (PI / 8) g r)).
  Notation mvs := [(0, 0); (1, 0); (2, 0); (3, 0); (4, 0); (5, 0)]%Z.
  Notation process := (vprocess vkey snode vkey_eqb hv tt_ fifo_push goals).
  Notation expand := (vexpand vkey snode (Z * Z) vkey_eqb 0 offer hv tt_ fifo_push goals).
  Notation close := (vclose vkey snode vkey_eqb hv goals).
  Notation reached := (vreached vkey snode isg).
  Notation loop := (vloop vkey snode (Z * Z) vkey_eqb mvs 0 offer hv tt_ isg fifo_push fifo_pop start goals (fun _ => false)).

  Lemma process_closer cur s v c q d : n_dist _ _ (inf s cur) = Some d -> v <> cur -> (forall d', n_dist _ _ (inf s v) = Some d' -> d + c < d') ->
    exists s', process cur s (v, c, q) = Some s' /\ opn s' = opn s ++ [v] /\
      inf s' v = VI (Some (d + c)) 0 (Some cur) true (n_closed _ _ (inf s v)) q /\ forall w, w <> v -> inf s' w = inf s w.
  Proof using Type.
    intros Hd Hv Hc. assert (Ed : vdist vkey snode (inf s) cur = d) by (unfold vdist; rewrite Hd; reflexivity). unfold vprocess. cbv zeta. rewrite !Ed.
    assert (E : (match n_dist _ _ (inf s v) with None => true | Some d' => Rltb (d + c) d' end) = true).
    { destruct (n_dist _ _ (inf s v)) as [d'|]; [apply Rltb_spec; auto|reflexivity]. }
    rewrite E. cbn [negb]. rewrite andb_false_r, orb_true_r. destruct (vkey_eqb_spec v cur) as [X|_]; [contradiction|].
    eexists. split; [reflexivity|]. cbn [v_info v_open]. split; [reflexivity|]. split.
    - rewrite (vset_same vkey_eqb vkey_eqb_spec). reflexivity.
    - intros w Hw. rewrite !(vset_other vkey_eqb vkey_eqb_spec) by assumption. reflexivity.
  Qed.
  Lemma process_not cur s v c q d d' : n_dist _ _ (inf s cur) = Some d -> n_dist _ _ (inf s v) = Some d' -> n_closed _ _ (inf s v) = true -> d' <= d + c -> process cur s (v, c, q) = Some s.
  Proof using Type.
    intros Hd Hv Hc Hl. assert (Ed : vdist vkey snode (inf s) cur = d) by (unfold vdist; rewrite Hd; reflexivity). unfold vprocess. cbv zeta. rewrite !Ed, Hv, Hc. replace (Rltb (d + c) d') with false by (symmetry; apply Rltb_false; lra). reflexivity.
  Qed.
  Lemma close_inf s v l : (inf (close s v l) v = VI (n_dist _ _ (inf s v)) 0 (n_prev _ _ (inf s v)) false true (n_pay _ _ (inf s v))) /\ forall w, w <> v -> inf (close s v l) w = inf s w.
  Proof using Type.
    unfold vclose. cbn [v_info]. split; [rewrite (vset_same vkey_eqb vkey_eqb_spec); reflexivity|]. intros w Hw. apply (vset_other vkey_eqb vkey_eqb_spec). assumption.
  Qed.
  Lemma expand_cons cur mv r s : expand cur (mv :: r) s =
    (o <- offer (n_pay _ _ (inf s cur)) [] mv ;; match o with None => expand cur r s | Some vcp => s' <- process cur s vcp ;; expand cur r s' end).
  Proof using Type. reflexivity. Qed.
  Lemma process_pay cur s r s' : process cur s r = Some s' -> n_pay _ _ (inf s' cur) = n_pay _ _ (inf s cur).
  Proof using Type.
    destruct r as [[v c] q]. intros E. unfold vprocess in E. cbv zeta in E. destruct (_ && _); [injection E as <-; reflexivity|]. destruct (_ || _); [|injection E as <-; reflexivity].
    destruct (vkey_eqb_spec v cur) as [X|N]; [discriminate|]. injection E as <-. cbn [v_info]. rewrite !(vset_other vkey_eqb vkey_eqb_spec) by congruence. reflexivity.
  Qed.
  (** One expansion: two of the six moves are left. *)
  Lemma expand_two cur s x f d o0 o3 : n_pay _ _ (inf s cur) = at_x x f d -> offer (at_x x f d) [] (0, 0)%Z = Some o0 -> offer (at_x x f d) [] (3, 0)%Z = Some o3 ->
    expand cur mvs s = (s1 <- match o0 with Some r => process cur s r | None => Some s end ;; match o3 with Some r => process cur s1 r | None => Some s1 end).
  Proof using Type.
    intros Hp H0 H3.
    assert (T : forall i s1 r, (i = 1 \/ i = 2 \/ i = 4 \/ i = 5)%Z -> n_pay _ _ (inf s1 cur) = at_x x f d -> expand cur ((i, 0%Z) :: r) s1 = expand cur r s1).
    { intros i s1 r Hi Hq. rewrite expand_cons, Hq, offer_none by (apply adv_turn; assumption). reflexivity. }
    assert (T2 : forall s1, n_pay _ _ (inf s1 cur) = at_x x f d -> expand cur [(4, 0); (5, 0)]%Z s1 = Some s1).
    { intros s1 Hq. rewrite !T by auto. reflexivity. }
    assert (T1 : forall s1, n_pay _ _ (inf s1 cur) = at_x x f d ->
      expand cur [(1, 0); (2, 0); (3, 0); (4, 0); (5, 0)]%Z s1 = match o3 with Some r => process cur s1 r | None => Some s1 end).
    { intros s1 Hq. rewrite T by auto. rewrite T by auto. rewrite expand_cons, Hq, H3. cbn [obind]. destruct o3 as [r|]; [|apply T2; assumption].
      destruct (process cur s1 r) as [s2|] eqn:E; [|reflexivity]. cbn [obind]. apply T2. rewrite (process_pay _ _ _ _ E). assumption. }
    rewrite expand_cons, Hp, H0. cbn [obind]. destruct o0 as [r|]; [|cbn [obind]; apply T1; assumption].
    destruct (process cur s r) as [s2|] eqn:E; [|reflexivity]. cbn [obind]. apply T1. rewrite (process_pay _ _ _ _ E). assumption.
  Qed.
  Lemma loop_step bf fuel n s cur l : opn s = cur :: l -> reached (inf (close s cur l)) cur goals = Some false ->
    forall s2, expand cur mvs (close s cur l) = Some s2 -> loop bf (S fuel) n s = loop bf fuel (S n) s2.
  Proof using Type. intros Ho Hr s2 He. cbn [vloop]. rewrite Ho. cbn [fifo_pop]. rewrite Hr, He. reflexivity. Qed.
  Lemma loop_goal bf fuel n s cur l p : opn s = cur :: l -> reached (inf (close s cur l)) cur goals = Some true -> vback vkey snode vkey_eqb start bf (inf (close s cur l)) cur [] [] = Some p ->
    fst (loop bf (S fuel) n s) = VPath vkey snode (vcopy vkey snode (inf (close s cur l)) p).
  Proof using Type. intros Ho Hr Hb. cbn [vloop]. rewrite Ho. cbn [fifo_pop]. rewrite Hr, Hb. reflexivity. Qed.
  Lemma not_near g x y f d : sn_x g = x -> sn_y g = 3 -> (x - y <= -3 / 10 \/ 3 / 10 <= x - y) -> d_isGoal 1 (3 / 10) (PI / 8) g (at_x y f d) = false.
  Proof using Type.
    intros Hx Hy Hd. unfold d_isGoal. destruct (Rlt_dec _ _); [reflexivity|]. apply Rltb_false. cbn [at_x sn_x sn_y]. rewrite Hx, Hy, Rmult_1_r.
    unfold hyp. replace ((x - y) * (x - y) + (3 - 3) * (3 - 3)) with (Rsqr (x - y)) by (unfold Rsqr; ring). rewrite sqrt_Rsqr_abs. unfold Rabs. destruct (Rcase_abs _); lra.
  Qed.
  Lemma no_goal cur s l y f d : n_pay _ _ (inf s cur) = at_x y f d -> (exists g, n_pay _ _ (inf s gf) = at_x 17 true g) -> n_pay _ _ (inf s gr) = at_x 17 false 0 -> (17 - y <= -3 / 10 \/ 3 / 10 <= 17 - y) ->
    reached (inf (close s cur l)) cur goals = Some false.
  Proof using Type.
    intros Hc (g & Hg) Hr Hd. assert (P : forall w, n_pay _ _ (inf (close s cur l) w) = n_pay _ _ (inf s w)).
    { intros w. destruct (close_inf s cur l) as [A B]. destruct (vkey_eqb_spec w cur) as [->|N]; [rewrite A; reflexivity|rewrite B by assumption; reflexivity]. }
    cbn [vreached]. rewrite !P, Hc, Hg, Hr. rewrite (not_near _ 17 y) by (reflexivity || assumption). cbn [obind]. rewrite (not_near _ 17 y) by (reflexivity || assumption). reflexivity.
  Qed.


  Lemma fl (z : Z) (r : R) : IZR z <= r < IZR z + 1 -> Zfloor r = z.
  Proof using Type. intros H. apply Zfloor_imp. rewrite plus_IZR. exact H. Qed.
  Lemma o_sf : offer (at_x 10 true 0) [] (0, 0)%Z = Some (Some (kx, 7 / 2, at_x (27 / 2) true 1)).
  Proof using Hclamp.
    apply offer_some; [rewrite adv_start_fwd; f_equal; f_equal; lra|lra|apply fl; lra|rewrite (fl 10 10) by lra; lia|lia].
  Qed.
  Lemma o_sr : offer (at_x 10 false 0) [] (3, 0)%Z = Some (Some (kb, 1, at_x (48 / 5) false 1)).
  Proof using Hclamp.
    apply offer_some; [rewrite adv_start_back; f_equal; f_equal; lra|lra|apply fl; lra|rewrite (fl 10 10) by lra; lia|lia].
  Qed.
  Lemma o_x1 : offer (at_x (27 / 2) true 1) [] (0, 0)%Z = Some (Some (gf, 7 / 2, at_x 17 true 2)).
  Proof using Hclamp.
    apply offer_some; [rewrite (adv_straight _ true 1 true) by lia; cbn [Bool.eqb]; f_equal; [lra|f_equal; lra]|lra|apply fl; lra|rewrite (fl 13 (27 / 2)) by lra; lia|lia].
  Qed.
  Lemma o_x2 : offer (at_x (27 / 2) true 1) [] (3, 0)%Z = Some (Some (sr, 35 / 8, at_x 10 false 2)).
  Proof using Hclamp.
    apply offer_some; [rewrite (adv_straight _ true 1 false) by lia; cbn [Bool.eqb]; f_equal; [lra|f_equal; lra]|lra|apply fl; lra|rewrite (fl 13 (27 / 2)) by lra; lia|lia].
  Qed.
  Lemma o_b1 : offer (at_x (48 / 5) false 1) [] (0, 0)%Z = Some (Some (kx, 7 / 4, at_x (131 / 10) true 2)).
  Proof using Hclamp.
    apply offer_some; [rewrite (adv_straight _ false 1 true) by lia; cbn [Bool.eqb]; f_equal; [lra|f_equal; lra]|lra|apply fl; lra|rewrite (fl 9 (48 / 5)) by lra; lia|lia].
  Qed.
  Lemma o_b2 : offer (at_x (48 / 5) false 1) [] (3, 0)%Z = Some (Some (kc, 35 / 4, at_x (61 / 10) false 2)).
  Proof using Hclamp.
    apply offer_some; [rewrite (adv_straight _ false 1 false) by lia; cbn [Bool.eqb]; f_equal; [lra|f_equal; lra]|lra|apply fl; lra|rewrite (fl 9 (48 / 5)) by lra; lia|lia].
  Qed.
  Notation answer := (VPath vkey snode [(sr, at_x 10 false 0); (kb, at_x (48 / 5) false 1); (kx, at_x (131 / 10) true 2); (gf, at_x 17 true 2)]).
  Lemma run_loop s : opn s = [sf; sr] -> inf s sf = VI (Some 0) 0 None true false (at_x 10 true 0) -> inf s sr = VI (Some 0) 0 None true false (at_x 10 false 0) ->
    n_dist _ _ (inf s kx) = None -> n_dist _ _ (inf s kb) = None -> n_dist _ _ (inf s kc) = None ->
    inf s gf = VI None 0 None false false (at_x 17 true 0) -> n_pay _ _ (inf s gr) = at_x 17 false 0 ->
    fst (loop 4 5 0 s) = answer.
  Proof using Hclamp.
    intros O0 I1 I2 Nx Nb Nc Ig Ir.
    (* 1: the forward start node *)
    destruct (close_inf s sf [sr]) as [A1 B1]. rewrite I1 in A1. cbn [n_dist n_prev n_pay] in A1.
    assert (G1 : reached (inf (close s sf [sr])) sf goals = Some false) by (apply (no_goal _ _ _ 10 true 0); [rewrite I1; reflexivity|exists 0%Z; rewrite Ig; reflexivity|assumption|lra]).
    assert (L1 := loop_step 4 4 0 s sf [sr] O0 G1). set (t := close s sf [sr]) in *. change (opn s) with (opn s) in O0. assert (Ot : opn t = [sr]) by reflexivity. clearbody t.
    destruct (process_closer sf t kx (7 / 2) (at_x (27 / 2) true 1) 0) as (s1 & P1 & O1 & V1 & W1); [rewrite A1; reflexivity|discriminate|rewrite B1 by discriminate; rewrite Nx; discriminate|].
    assert (E1 : expand sf mvs t = Some s1).
    { rewrite (expand_two sf t 10 true 0 _ _ ltac:(rewrite A1; reflexivity) o_sf (offer_none _ _ _ (adv_start_other 10 true []))). match goal with |- obind ?p _ = _ => replace p with (Some s1) by (symmetry; exact P1) end. reflexivity. }
    rewrite (L1 s1 E1). clear L1 G1 E1 P1. rewrite Ot in O1. cbn [app] in O1.
    assert (U1 : forall w, w <> sf -> w <> kx -> inf s1 w = inf s w) by (intros w H1 H2; rewrite W1 by assumption; apply B1; assumption).
    assert (K1 : exists cl, inf s1 kx = VI (Some (7 / 2)) 0 (Some sf) true cl (at_x (27 / 2) true 1)) by (eexists; rewrite V1; f_equal; f_equal; lra).
    clear A1 B1 V1 W1 Ot O0 I1 Nx t. rewrite <- U1 in I2, Nb, Nc, Ig, Ir by discriminate. clear U1 s. rename s1 into s. destruct K1 as (clx & Ix).
    (* 2: the reverse start node *)
    destruct (close_inf s sr [kx]) as [A1 B1]. rewrite I2 in A1. cbn [n_dist n_prev n_pay] in A1.
    assert (G1 : reached (inf (close s sr [kx])) sr goals = Some false) by (apply (no_goal _ _ _ 10 false 0); [rewrite I2; reflexivity|exists 0%Z; rewrite Ig; reflexivity|assumption|lra]).
    assert (L1 := loop_step 4 3 1 s sr [kx] O1 G1). set (t := close s sr [kx]) in *. assert (Ot : opn t = [kx]) by reflexivity. clearbody t.
    destruct (process_closer sr t kb 1 (at_x (48 / 5) false 1) 0) as (s1 & P1 & O2 & V1 & W1); [rewrite A1; reflexivity|discriminate|rewrite B1 by discriminate; rewrite Nb; discriminate|].
    assert (E1 : expand sr mvs t = Some s1).
    { rewrite (expand_two sr t 10 false 0 _ _ ltac:(rewrite A1; reflexivity) (offer_none _ _ _ (adv_start_other 10 false [])) o_sr). cbn [obind]. exact P1. }
    rewrite (L1 s1 E1). clear L1 G1 E1 P1. rewrite Ot in O2. cbn [app] in O2.
    assert (U1 : forall w, w <> sr -> w <> kb -> inf s1 w = inf s w) by (intros w H1 H2; rewrite W1 by assumption; apply B1; assumption).
    assert (K1 : exists cl, inf s1 kb = VI (Some 1) 0 (Some sr) true cl (at_x (48 / 5) false 1)) by (eexists; rewrite V1; f_equal; f_equal; lra).
    assert (Is : inf s1 sr = VI (Some 0) 0 None false true (at_x 10 false 0)) by (rewrite W1 by discriminate; exact A1).
    clear A1 B1 V1 W1 Ot O1 I2 Nb t. rewrite <- U1 in Ix, Nc, Ig, Ir by discriminate. clear U1 s. rename s1 into s. destruct K1 as (clb & Ib).
    (* 3: the node ahead *)
    destruct (close_inf s kx [kb]) as [A1 B1]. rewrite Ix in A1. cbn [n_dist n_prev n_pay] in A1.
    assert (G1 : reached (inf (close s kx [kb])) kx goals = Some false) by (apply (no_goal _ _ _ (27 / 2) true 1); [rewrite Ix; reflexivity|exists 0%Z; rewrite Ig; reflexivity|assumption|lra]).
    assert (L1 := loop_step 4 2 2 s kx [kb] O2 G1). set (t := close s kx [kb]) in *. assert (Ot : opn t = [kb]) by reflexivity. clearbody t.
    destruct (process_closer kx t gf (7 / 2) (at_x 17 true 2) (7 / 2)) as (s1 & P1 & O3 & V1 & W1); [rewrite A1; reflexivity|discriminate|rewrite B1 by discriminate; rewrite Ig; discriminate|].
    assert (E1 : expand kx mvs t = Some s1).
    { rewrite (expand_two kx t (27 / 2) true 1 _ _ ltac:(rewrite A1; reflexivity) o_x1 o_x2). match goal with |- obind ?p _ = _ => replace p with (Some s1) by (symmetry; exact P1) end. cbn [obind].
      apply (process_not kx s1 sr (35 / 8) _ (7 / 2) 0); [rewrite W1, A1 by discriminate; reflexivity|rewrite W1, B1, Is by discriminate; reflexivity|rewrite W1, B1, Is by discriminate; reflexivity|lra]. }
    rewrite (L1 s1 E1). clear L1 G1 E1 P1. rewrite Ot in O3. cbn [app] in O3.
    assert (U1 : forall w, w <> kx -> w <> gf -> inf s1 w = inf s w) by (intros w H1 H2; rewrite W1 by assumption; apply B1; assumption).
    assert (Kg : exists cl, inf s1 gf = VI (Some 7) 0 (Some kx) true cl (at_x 17 true 2)) by (eexists; rewrite V1; f_equal; f_equal; lra).
    assert (Ix' : inf s1 kx = VI (Some (7 / 2)) 0 (Some sf) false true (at_x (27 / 2) true 1)) by (rewrite W1 by discriminate; exact A1).
    clear A1 B1 V1 W1 Ot O2 Ix Ig t. rewrite <- U1 in Ib, Is, Nc, Ir by discriminate. clear U1 s. rename s1 into s. destruct Kg as (clg & Ig). rename Ix' into Ix.
    (* 4: the node behind: the node ahead is reached again, with less cost *)
    destruct (close_inf s kb [gf]) as [A1 B1]. rewrite Ib in A1. cbn [n_dist n_prev n_pay] in A1.
    assert (G1 : reached (inf (close s kb [gf])) kb goals = Some false) by (apply (no_goal _ _ _ (48 / 5) false 1); [rewrite Ib; reflexivity|exists 2%Z; rewrite Ig; reflexivity|assumption|lra]).
    assert (L1 := loop_step 4 1 3 s kb [gf] O3 G1). set (t := close s kb [gf]) in *. assert (Ot : opn t = [gf]) by reflexivity. clearbody t.
    destruct (process_closer kb t kx (7 / 4) (at_x (131 / 10) true 2) 1) as (s1 & P1 & O4 & V1 & W1); [rewrite A1; reflexivity|discriminate|rewrite B1 by discriminate; rewrite Ix; cbn [n_dist]; intros d' H; injection H as <-; lra|].
    destruct (process_closer kb s1 kc (35 / 4) (at_x (61 / 10) false 2) 1) as (s2 & P2 & O5 & V2 & W2); [rewrite W1, A1 by discriminate; reflexivity|discriminate|rewrite W1, B1 by discriminate; rewrite Nc; discriminate|].
    assert (E1 : expand kb mvs t = Some s2).
    { rewrite (expand_two kb t (48 / 5) false 1 _ _ ltac:(rewrite A1; reflexivity) o_b1 o_b2). match goal with |- obind ?p _ = _ => replace p with (Some s1) by (symmetry; exact P1) end. cbn [obind]. exact P2. }
    rewrite (L1 s2 E1). clear L1 G1 E1 P1 P2. rewrite O4, Ot in O5. cbn [app] in O5.
    assert (U1 : forall w, w <> kx -> w <> kc -> w <> kb -> inf s2 w = inf s w) by (intros w H1 H2 H3; rewrite W2, W1 by assumption; apply B1; assumption).
    assert (Kx : exists cl, inf s2 kx = VI (Some (11 / 4)) 0 (Some kb) true cl (at_x (131 / 10) true 2)) by (eexists; rewrite W2, V1 by discriminate; f_equal; f_equal; lra).
    assert (Kb : inf s2 kb = VI (Some 1) 0 (Some sr) false true (at_x (48 / 5) false 1)) by (rewrite W2, W1 by discriminate; exact A1).
    clear A1 B1 V1 W1 V2 W2 Ot O4 Ix Ib Nc O3 t. rewrite <- U1 in Ig, Is, Ir by discriminate. clear U1 s s1. rename s2 into s. destruct Kx as (cx & Ix).
    (* 5: the goal *)
    destruct (close_inf s gf [kx; kc]) as [A1 B1]. rewrite Ig in A1. cbn [n_dist n_prev n_pay] in A1. assert (L1 := fun p => loop_goal 4 0 4 s gf [kx; kc] p O5). set (t := close s gf [kx; kc]) in *. clearbody t.
    assert (G : reached (inf t) gf goals = Some true).
    { cbn [vreached]. rewrite A1. cbn [n_pay n_prev]. assert (E : d_isGoal 1 (3 / 10) (PI / 8) (at_x 17 true 2) (at_x 17 true 2) = true); [|rewrite E; reflexivity].
      unfold d_isGoal. rewrite diff_0, Rabs_R0, hyp_00. pose proof PI_RGT_0. destruct (Rlt_dec _ _) as [L|_]; [exfalso; lra|]. apply Rltb_spec. lra. }
    assert (K : vback vkey snode vkey_eqb start 4 (inf t) gf [] [] = Some [sr; kb; kx; gf]).
    { cbn [vback vmem existsb vkey_eqb Z.eqb Pos.eqb Bool.eqb andb orb fst snd]. rewrite A1. cbn [n_prev]. rewrite (B1 kx) by discriminate. rewrite Ix. cbn [n_prev vkey_eqb Z.eqb Pos.eqb Bool.eqb andb orb fst snd].
      rewrite (B1 kb) by discriminate. rewrite Kb. cbn [n_prev vkey_eqb Z.eqb Pos.eqb Bool.eqb andb orb fst snd]. rewrite (B1 sr) by discriminate. rewrite Is. cbn [n_prev]. reflexivity. }
    rewrite (L1 _ G K). cbn [vcopy map]. rewrite A1, !B1 by discriminate. rewrite Is, Kb, Ix. reflexivity.
  Qed.

  Lemma q_run : d_find clamp q_map 0 q_p q_so q_o hv tt_ fifo_push fifo_pop (fun _ => false) 4 5 (10, 3, 0) (17, 3, 0) = answer.
  Proof using Hclamp.
    unfold d_find, v_find. change (sp_rev q_p) with false. cbv iota. destruct q_map_ok as [Hwf Hsm Hw Hh].
    assert (Hi1 : inner q_map (Zfloor (IZR 10)) (Zfloor (IZR 3))) by (rewrite !Zfloor_IZR; unfold inner; cbn; lia).
    assert (Hi2 : inner q_map (Zfloor (IZR 17)) (Zfloor (IZR 3))) by (rewrite !Zfloor_IZR; unfold inner; cbn; lia).
    destruct (begin_ok clamp Hclamp q_map Hwf Hsm Hw Hh (IZR 10) (IZR 3) 0 (IZR 17) (IZR 3) 0 Hi1 Hi2) as (os & og & pay & Eb & Hq1 & Hq2 & P1 & P2 & _).
    rewrite !Zfloor_IZR in *. destruct os; [exfalso; refine (q_free 10 3 _ (proj1 Hq1 eq_refl)); unfold cell_of; lia|]. destruct og; [exfalso; refine (q_free 17 3 _ (proj1 Hq2 eq_refl)); unfold cell_of; lia|].
    unfold keys_of in *. rewrite Eb. change ((10 =? 17) && (3 =? 3))%Z with false in P1. cbv iota in P1. specialize (P1 eq_refl). specialize (P2 eq_refl).
    change (d_moves q_o) with mvs. change (sp_res q_p) with 1. change (do_dist q_o) with (3 / 10). change (do_ang q_o) with (PI / 8).
    unfold vrun. set (s0 := vstarts vkey snode vkey_eqb tt_ fifo_push start _).
    assert (Es : inf s0 = vset vkey snode vkey_eqb (vset vkey snode vkey_eqb (vfresh vkey snode pay) sf (VI (Some 0) 0 None true false (pay sf))) sr (VI (Some 0) 0 None true false (pay sr))).
    { unfold s0. cbn [vstarts v_info v_open]. rewrite (vset_other vkey_eqb vkey_eqb_spec) by discriminate. reflexivity. }
    rewrite (run_loop s0); [reflexivity|reflexivity|..]; rewrite Es.
    - rewrite (vset_other vkey_eqb vkey_eqb_spec) by discriminate. rewrite (vset_same vkey_eqb vkey_eqb_spec), P1. reflexivity.
    - rewrite (vset_same vkey_eqb vkey_eqb_spec), P1. reflexivity.
    - rewrite !(vset_other vkey_eqb vkey_eqb_spec) by discriminate. reflexivity.
    - rewrite !(vset_other vkey_eqb vkey_eqb_spec) by discriminate. reflexivity.
    - rewrite !(vset_other vkey_eqb vkey_eqb_spec) by discriminate. reflexivity.
    - rewrite !(vset_other vkey_eqb vkey_eqb_spec) by discriminate. unfold vfresh. rewrite P2. reflexivity.
    - rewrite !(vset_other vkey_eqb vkey_eqb_spec) by discriminate. unfold vfresh. cbn [n_pay]. rewrite P2. reflexivity.
  Qed.
End Queue.

(** On an empty map: two poses that follow each other are further apart than a step, and
    no move of the vehicle leads from the first to the second. (The node of the first was
    reached again, at less cost and with another pose, after the second had been reached
    from it.) *)
Theorem C59_queue_refuted : forall clamp, AngleClamp_contract clamp ->
  exists m p so o from to path u v l1 l2, map_ok m /\ vehicle_ok p so /\ sp_rev p = false /\
    d_find clamp m 0 p so o (fun _ _ => 0) (fun d _ => d) fifo_push fifo_pop (fun _ => false) 4 5 from to = VPath _ _ path /\
    path = l1 ++ u :: v :: l2 /\ sp_pixel p + 3 / 10 < dist (spos (snd u)) (spos (snd v)) /\
    forall prevs c, ~ d_move clamp p so (Z.of_nat (do_steps o)) (snd u) prevs c (snd v).
Proof.
  intros clamp Hclamp. exists q_map, q_p, q_so, q_o, (10, 3, 0), (17, 3, 0). eexists _, _, _, [_; _], []. split; [apply q_map_ok|]. split; [apply q_ok|]. split; [reflexivity|].
  split; [apply (q_run clamp Hclamp)|]. split; [reflexivity|]. cbn [snd].
  assert (D : dist (spos (at_x (131 / 10) true 2)) (spos (at_x 17 true 2)) = 39 / 10).
  { rewrite dist_hyp. cbn [spos px py at_x sn_x sn_y]. unfold hyp. match goal with |- sqrt ?e = _ => replace e with (39 / 10 * (39 / 10)) by lra end. apply sqrt_square. lra. }
  split; [rewrite D, pix; lra|]. intros prevs c (i & k & Hi & Hk & Ha).
  destruct q_ok as [A B C F _ _]. destruct (C36_cost_dynamic clamp q_p q_so (at_x (131 / 10) true 2) prevs i k c (at_x 17 true 2) C B ltac:(lra) F Ha) as (_ & L & _).
  cbn [at_x sn_depth sn_fwd] in L. rewrite !andb_false_r in L. fold (at_x (131 / 10) true 2) (at_x 17 true 2) in L. rewrite D in L. unfold q_p in L. cbn [sp_step sp_res] in L. lra.
Qed.
Print Assumptions C59_queue_refuted.
