(** C63: how a vehicle search starts; refuted parts of C60 - C62. *)
From Coq Require Import Reals Lra.
From Flocq Require Import Core.Raux.
From Verif Require Import Base GridMap GridMapProofs GridSpec BresenhamProofs GeomR PropGeom PropLine MapManagers SteerModel PropSteer PropSteerKin PropSteerCost PropSteerGoal
  GenericProofs OpenPolicies VehicleSearch VehicleProofs VehicleAny VehicleModel VehicleInst VehicleGen PropVehicle PropVehicleEnd PropVehicleJump.
Local Open Scope R_scope.

(** ** C63 *)
Lemma near_last clamp move s l : near_trip clamp move s l -> exists l', l = l' ++ [s].
Proof. induction 1 as [|n r l r' prevs c _ (l' & IH) _ _ _]; [exists []; reflexivity|]. exists (n :: l'). rewrite IH. reflexivity. Qed.
(** The first pose of the drive is the corner of the cell of the requested start, less
    than a cell diagonal away, at rest and (unless the goal lies in the same cell) with the
    requested heading. *)
Lemma start_close a b s : start_node a b s -> dist (spos s) (at_pt a) <= sqrt 2.
Proof. intros (E1 & E2 & _). unfold spos, at_pt. rewrite E1, E2. apply same_cell_near; rewrite Zfloor_IZR; reflexivity. Qed.
Theorem C63_dynamic_start : forall clamp m skips p so o hval tot push pop timeout bf fuel from to path,
  AngleClamp_contract clamp -> map_ok m -> (0 <= skips)%Z -> vehicle_ok p so -> push_ok push -> pop_ok pop ->
  d_find clamp m skips p so o hval tot push pop timeout bf fuel from to = VPath _ _ path -> path <> [] ->
  let a := search_from (sp_rev p) from to in let b := search_to (sp_rev p) from to in
  exists s l, driven (sp_rev p) path = l ++ [s] /\ start_node a b s /\ world_dist (sp_res p) (spos s) (at_pt a) <= sqrt 2 * sp_res p /\
    ~ occupied m (fst (cell_at a)) (snd (cell_at a)) /\ ~ occupied m (fst (cell_at b)) (snd (cell_at b)).
Proof.
  intros clamp m skips p so o hval tot push pop timeout bf fuel from to path Hc [Hwf Hsm Hw Hh] Hs Hk Hpush Hpop E Hne a b.
  destruct (gen_weak clamp Hc m Hwf Hsm Hw Hh skips (sp_res p) (d_advance clamp p so) (d_moves o) 0 hval tot _ push pop Hpush Hpop (move_costs p so) (costs_pos p so Hk)
    (fun ref prevs i s c n H => d_cost_in clamp p so ref prevs i s c n Hk H) _ _ _ _ _ _ _ E Hne) as (s & n & l & gp & Ed & Ht & Hst & _ & Hg & _).
  destruct (near_last _ _ _ _ Ht) as (l' & El). exists s, l'. rewrite Ed. split; [exact El|]. pose proof (start_node_of m _ _ s Hst) as Hsn. split; [exact Hsn|]. split.
  - unfold world_dist. apply Rmult_le_compat_r; [apply Rlt_le, Hk|]. apply (start_close _ _ _ Hsn).
  - split; [apply Hst|apply Hg].
Qed.
Theorem C63_template_start : forall clamp m skips p so size steps distance hval tot push pop timeout bf fuel from to path,
  AngleClamp_contract clamp -> map_ok m -> (0 <= skips)%Z -> vehicle_ok p so -> push_ok push -> pop_ok pop ->
  s_find clamp m skips p so size steps distance hval tot push pop timeout bf fuel from to = VPath _ _ path -> path <> [] ->
  let a := search_from (sp_rev p) from to in let b := search_to (sp_rev p) from to in
  exists s l, driven (sp_rev p) path = l ++ [s] /\ start_node a b s /\ world_dist (sp_res p) (spos s) (at_pt a) <= sqrt 2 * sp_res p /\
    ~ occupied m (fst (cell_at a)) (snd (cell_at a)) /\ ~ occupied m (fst (cell_at b)) (snd (cell_at b)).
Proof.
  intros clamp m skips p so size steps distance hval tot push pop timeout bf fuel from to path Hc [Hwf Hsm Hw Hh] Hs Hk Hpush Hpop E Hne a b.
  destruct (gen_weak clamp Hc m Hwf Hsm Hw Hh skips (sp_res p) (s_advance clamp p so) (v_moves 0 size steps) _ hval tot _ push pop Hpush Hpop (move_costs p so) (costs_pos p so Hk)
    (fun ref prevs i s c n H => s_cost_in clamp p so ref prevs i s c n H) _ _ _ _ _ _ _ E Hne) as (s & n & l & gp & Ed & Ht & Hst & _ & Hg & _).
  destruct (near_last _ _ _ _ Ht) as (l' & El). exists s, l'. rewrite Ed. split; [exact El|]. pose proof (start_node_of m _ _ s Hst) as Hsn. split; [exact Hsn|]. split.
  - unfold world_dist. apply Rmult_le_compat_r; [apply Rlt_le, Hk|]. apply (start_close _ _ _ Hsn).
  - split; [apply Hst|apply Hg].
Qed.

(** An occupied start (of the search) gives the empty path: no exception. *)
Lemma occupied_empty clamp m skips res adv moves reach hval tot isgoal push pop rv timeout bf fuel from to :
  AngleClamp_contract clamp -> map_ok m -> has_nodes m (cell_at from) -> has_nodes m (cell_at to) ->
  (let a := search_from rv from to in occupied m (fst (cell_at a)) (snd (cell_at a))) -> (1 <= fuel)%nat ->
  v_find clamp m skips res adv moves reach hval tot isgoal push pop rv timeout bf fuel from to = VPath _ _ [].
Proof.
  intros Hc [Hwf Hsm Hw Hh] Hf Ht Ho Hfu. unfold v_find, search_from in *. cbv zeta in Ho.
  set (a := if rv then to else from) in *. set (b := if rv then from else to) in *.
  assert (Ha : inner m (fst (cell_at a)) (snd (cell_at a))) by (unfold a; destruct rv; assumption). assert (Hb : inner m (fst (cell_at b)) (snd (cell_at b))) by (unfold b; destruct rv; assumption).
  clearbody a b. destruct a as [[x y] th], b as [[gx gy] gth]. unfold cell_at in *. cbn [fst snd] in *.
  destruct (begin_ok clamp Hc m Hwf Hsm Hw Hh x y th gx gy gth Ha Hb) as (os & og & pay & E & Hos & _). apply Hos in Ho. subst os. rewrite E.
  unfold vrun. cbn [vstarts]. destruct fuel as [|fuel]; [lia|]. cbn [vloop v_open fst]. destruct rv; reflexivity.
Qed.
Theorem C63_occupied_start_refuted : forall clamp m skips p so o size steps distance hval tot push pop timeout bf fuel from to,
  AngleClamp_contract clamp -> map_ok m -> has_nodes m (cell_at from) -> has_nodes m (cell_at to) ->
  (let a := search_from (sp_rev p) from to in occupied m (fst (cell_at a)) (snd (cell_at a))) -> (1 <= fuel)%nat ->
  d_find clamp m skips p so o hval tot push pop timeout bf fuel from to = VPath _ _ [] /\
  s_find clamp m skips p so size steps distance hval tot push pop timeout bf fuel from to = VPath _ _ [].
Proof. intros. split; unfold d_find, s_find; apply occupied_empty; assumption. Qed.

(** Start and goal in one cell: one pose, with the heading of the goal, whatever the
    heading of the start. *)
Lemma same_cell clamp m skips res adv moves reach hval tot isgoal push pop timeout bf fuel x y th gx gy gth :
  AngleClamp_contract clamp -> map_ok m -> push_ok push -> pop_ok pop -> has_nodes m (Zfloor x, Zfloor y) -> Zfloor gx = Zfloor x -> Zfloor gy = Zfloor y -> ~ occupied m (Zfloor x) (Zfloor y) ->
  (forall f f' o, isgoal (at_corner (Zfloor x) (Zfloor y) gth f) (at_corner (Zfloor x) (Zfloor y) gth f') o = Some true) -> (forall n, timeout n = false) ->
  (1 <= fuel)%nat -> (1 <= bf)%nat ->
  exists f, v_find clamp m skips res adv moves reach hval tot isgoal push pop false timeout bf fuel (x, y, th) (gx, gy, gth) =
    VPath _ _ [((Zfloor x, Zfloor y, 15%Z, f), at_corner (Zfloor x) (Zfloor y) gth f)].
Proof.
  intros Hc [Hwf Hsm Hw Hh] Hpush Hpop Hn Ex Ey Hno Hg Htm Hfu Hbf. unfold v_find.
  assert (Hn2 : inner m (Zfloor gx) (Zfloor gy)) by (rewrite Ex, Ey; exact Hn).
  destruct (begin_ok clamp Hc m Hwf Hsm Hw Hh x y th gx gy gth Hn Hn2) as (os & og & pay & E & Hos & Hog & P1 & P2 & _).
  rewrite Ex, Ey in *. destruct os; [exfalso; apply Hno, Hos; reflexivity|]. destruct og; [exfalso; apply Hno, Hog; reflexivity|]. rewrite E. clear E P1. specialize (P2 eq_refl).
  set (cx := Zfloor x) in *. set (cy := Zfloor y) in *. clearbody cx cy. unfold vrun, keys_of.
  set (start := [(cx, cy, 15%Z, true); (cx, cy, 15%Z, false)] : list vkey).
  destruct (starts_spec vkey_eqb vkey_eqb_spec tot push Hpush start (VS vkey snode (vfresh vkey snode pay) [])) as (A & _ & B).
  set (s0 := vstarts _ _ _ _ _ _ _) in *. clearbody s0. destruct fuel as [|fuel]; [lia|]. cbn [vloop].
  assert (Hne : v_open vkey snode s0 <> []). { intros X. assert (Y : In (cx, cy, 15%Z, true) (v_open vkey snode s0)) by (apply A; right; left; reflexivity). rewrite X in Y. exact Y. }
  destruct (v_open vkey snode s0) as [|a0 l0] eqn:Eo; [congruence|]. rewrite <- Eo in *. rewrite Htm.
  pose proof (Hpop (vtotal vkey snode tot (v_info vkey snode s0)) (v_open vkey snode s0)) as Hp. destruct (pop _ _) as [[cur l]|]; [|congruence].
  destruct Hp as (Hin & _). apply A in Hin. destruct Hin as [[]|Hin]. destruct (B cur Hin) as (h & Ecur).
  assert (Hcur : exists f, cur = (cx, cy, 15%Z, f)) by (destruct Hin as [<-|[<-|[]]]; eauto). destruct Hcur as [f ->].
  cbn [v_info vfresh n_prev n_closed n_pay] in Ecur. rewrite P2 in Ecur.
  set (s1 := vclose _ _ _ _ _ _ _ _).
  assert (Epay : forall v, n_pay _ _ (v_info _ _ s1 v) = n_pay _ _ (v_info _ _ s0 v)).
  { intros v. unfold s1, vclose. cbn [v_info]. unfold vset. destruct (vkey_eqb_spec v (cx, cy, 15%Z, f)) as [->|_]; reflexivity. }
  assert (Er : vreached vkey snode isgoal (v_info vkey snode s1) (cx, cy, 15%Z, f) start = Some true).
  { unfold start. cbn [vreached]. rewrite !Epay, Ecur. cbn [n_pay]. destruct (B (cx, cy, 15%Z, true) (or_introl eq_refl)) as (h' & E'). cbn [v_info vfresh n_prev n_closed n_pay] in E'. rewrite P2 in E'. rewrite E'. cbn [n_pay].
    rewrite Hg. reflexivity. }
  fold start. rewrite Er. destruct bf as [|bf]; [lia|].
  assert (Eb : vback vkey snode vkey_eqb start (S bf) (v_info vkey snode s1) (cx, cy, 15%Z, f) [] [] = Some [(cx, cy, 15%Z, f)]).
  { cbn [vback]. replace (vmem vkey vkey_eqb (cx, cy, 15%Z, f) start) with true; [reflexivity|]. symmetry. apply (vmem_spec vkey_eqb vkey_eqb_spec). exact Hin. }
  rewrite Eb. exists f. cbn [fst vcopy map]. rewrite Epay, Ecur. reflexivity.
Qed.
Lemma d_same res dt at_ g : 0 < dt -> 0 <= at_ -> forall g', sn_x g' = sn_x g -> sn_y g' = sn_y g -> sn_th g' = sn_th g -> d_isGoal res dt at_ g g' = true.
Proof.
  intros H1 H2 g' E1 E2 E3. unfold d_isGoal. rewrite E1, E2, E3. rewrite !Rminus_diag_eq by reflexivity. rewrite sin_0, cos_0.
  assert (A0 : atan2 0 1 = 0). { unfold atan2. destruct (Rlt_dec 0 1) as [_|N]; [|lra]. replace (0 / 1) with 0 by lra. apply atan_0. }
  rewrite A0, Rabs_R0. destruct (Rlt_dec at_ 0) as [L|_]; [exfalso; lra|]. apply Rltb_spec. unfold hyp. rewrite Rmult_0_l, Rplus_0_l, sqrt_0. lra.
Qed.
Theorem C63_heading_refuted : forall clamp m skips p so o hval tot push pop bf fuel x y th gx gy gth,
  AngleClamp_contract clamp -> map_ok m -> push_ok push -> pop_ok pop -> has_nodes m (Zfloor x, Zfloor y) -> Zfloor gx = Zfloor x -> Zfloor gy = Zfloor y -> ~ occupied m (Zfloor x) (Zfloor y) ->
  sp_rev p = false -> 0 < do_dist o -> 0 <= do_ang o -> (1 <= fuel)%nat -> (1 <= bf)%nat ->
  exists v n, d_find clamp m skips p so o hval tot push pop (fun _ => false) bf fuel (x, y, th) (gx, gy, gth) = VPath _ _ [(v, n)] /\
    spos n = Pt (IZR (Zfloor x)) (IZR (Zfloor y)) /\ sn_th n = gth.
Proof.
  intros clamp m skips p so o hval tot push pop bf fuel x y th gx gy gth Hc Hm Hpush Hpop Hn Ex Ey Hno Hrev Hd Ha Hfu Hbf. unfold d_find. rewrite Hrev.
  destruct (same_cell clamp m skips (sp_res p) (d_advance clamp p so) (d_moves o) 0 hval tot (fun g r _ => Some (d_isGoal (sp_res p) (do_dist o) (do_ang o) g r)) push pop (fun _ => false) bf fuel x y th gx gy gth
    Hc Hm Hpush Hpop Hn Ex Ey Hno) as (f & E).
  - intros f f' _. rewrite d_same by (assumption || reflexivity). reflexivity.
  - reflexivity.
  - assumption.
  - assumption.
  - eexists _, _. split; [exact E|]. split; reflexivity.
Qed.

(** ** C60, C62: walls and headings *)
(** For every vehicle, every open list that hands out the least cost, HeuristicL2 and every
    map of at most 32 columns: the goal one straight step ahead is reached by that step,
    whatever lies between and whatever heading is requested. *)
Theorem C62_unchecked : forall clamp m skips p so o push pop x y D gth bf fuel,
  AngleClamp_contract clamp -> map_ok m -> vehicle_ok p so -> push_ok push -> pop_ok pop -> least_first pop ->
  (gm_w m <= 32)%Z -> sp_rev p = false -> do_fwd o = true -> do_back o = false ->
  (1 <= D <= 31)%Z -> sp_pixel p = IZR D -> 0 < do_dist o <= sp_step p -> 0 <= do_ang o -> Rabs (sp_delta p) * IZR (Z.of_nat (do_steps o)) < 2147483648 ->
  (0 <= x /\ x + D < gm_w m)%Z -> (0 <= y < gm_h m)%Z -> ~ occupied m x y -> ~ occupied m (x + D) y -> (2 <= bf)%nat -> (3 <= fuel)%nat ->
  d_find clamp m skips p so o (l2 (sp_res p)) Rplus push pop (fun _ => false) bf fuel (IZR x, IZR y, 0) (IZR (x + D), IZR y, gth) =
    VPath _ _ [((x, y, 15%Z, true), SN (IZR x) (IZR y) 0 true 0 (Some 0%Z) 0); (((x + D)%Z, y, 15%Z, true), SN (IZR (x + D)) (IZR y) 0 true 0 (Some 0%Z) 1)].
Proof.
  intros clamp m skips p so o push pop x y D gth bf fuel Hc Hm Hk Hpush Hpop Hl Hw Hrev Hf Hb HD Hp Hd Ha Hdl Hx Hy Ho1 Ho2 Hbf Hfu.
  apply (jump clamp Hc m Hm Hw skips p so o Hk push pop Hpush Hpop Hl Hrev Hf Hb D HD Hp Hd Ha Hdl x y Hx Hy gth Ho1 Ho2 bf fuel Hbf Hfu).
Qed.

(** The default parameters at a resolution of 5 cm: a step is 8 cells. *)
Definition def_p : sparams := SP (2 / 5) (/ 20) 60 15 (6 / 5) false false 1.
Definition def_so : sopts := SO (5 / 2) 4.
Definition def_o : dopts := DO true false 2 (/ 20) (PI / 8).
(** A map of 16 x 16 cells with a wall at column 6. *)
Definition walled : gridmap := GridMap 16 16 (map (fun i => if (Z.of_nat i mod 16 =? 6)%Z then 255%Z else 0%Z) (seq 0 (Z.to_nat 256))) 50 200 (-1).
Lemma def_ok : vehicle_ok def_p def_so.
Proof. constructor; cbn [def_p def_so sp_step sp_res sp_la sp_max so_back so_turn]; lra || lia. Qed.
Lemma walled_ok : map_ok walled.
Proof. constructor; cbn [walled gm_w gm_h]; try lia. unfold gm_wf, walled; cbn [gm_w gm_h gm_data]. rewrite map_length, seq_length. lia. Qed.
Lemma walled_free x y : isOccupied walled x y = Some false -> ~ occupied walled x y.
Proof. intros E [_ X]. congruence. Qed.
Theorem C62_walls_refuted : forall clamp gth, AngleClamp_contract clamp ->
  let r := d_find clamp walled 0 def_p def_so def_o (l2 (/ 20)) Rplus fifo_push (min_pop Rltb) (fun _ => false) 2 3 (2, 3, 0) (10, 3, gth) in
  exists v n v' n', r = VPath _ _ [(v, n); (v', n')] /\ pcell n = (2, 3)%Z /\ pcell n' = (10, 3)%Z /\ sn_th n' = 0 /\
    (forall y, (0 <= y < 16)%Z -> occupied walled 6 y).
Proof.
  intros clamp gth Hc r.
  pose proof (C62_unchecked clamp walled 0 def_p def_so def_o fifo_push (min_pop Rltb) 2 3 8 gth 2 3 Hc walled_ok def_ok fifo_push_ok (min_pop_ok Rltb)) as H.
  assert (Hl : least_first (min_pop Rltb)).
  { intros f l v q E w Hw. pose proof (@min_pop_min vkey R Rltb) as M.
    assert (Rltb (f w) (f v) = false). { eapply M; try eassumption; intros; repeat match goal with H : Rltb _ _ = true |- _ => apply Rltb_spec in H | H : Rltb _ _ = false |- _ => apply Rltb_false in H | |- Rltb _ _ = true => apply Rltb_spec | |- Rltb _ _ = false => apply Rltb_false end; lra. } apply Rltb_false in H0. lra. }
  assert (E1 : sp_res def_p = / 20) by reflexivity. assert (E2 : IZR (2 + 8) = 10) by reflexivity. rewrite E1, E2 in H. eexists _, _, _, _. split; [apply H|].
  - exact Hl.
  - cbn; lia.
  - reflexivity.
  - reflexivity.
  - reflexivity.
  - lia.
  - unfold sp_pixel, def_p. cbn [sp_step sp_res]. lra.
  - cbn [def_o do_dist def_p sp_step]. lra.
  - cbn [def_o do_ang]. pose proof PI_RGT_0. lra.
  - cbn [def_p sp_delta def_o do_steps Z.of_nat Pos.of_succ_nat Pos.succ]. rewrite Rabs_pos_eq; lra.
  - cbn [walled gm_w]. lia.
  - cbn [walled gm_h]. lia.
  - apply walled_free. vm_compute. reflexivity.
  - apply walled_free. vm_compute. reflexivity.
  - lia.
  - lia.
  - unfold pcell. cbn [sn_x sn_y sn_th]. rewrite !Zfloor_IZR. split; [reflexivity|]. split; [reflexivity|]. split; [reflexivity|].
    intros y Hy. split; [unfold cell_of; cbn [walled gm_w gm_h]; lia|].
    assert (C : (y = 0 \/ y = 1 \/ y = 2 \/ y = 3 \/ y = 4 \/ y = 5 \/ y = 6 \/ y = 7 \/ y = 8 \/ y = 9 \/ y = 10 \/ y = 11 \/ y = 12 \/ y = 13 \/ y = 14 \/ y = 15)%Z) by lia.
    repeat (destruct C as [->|C]; [vm_compute; reflexivity|]). subst y. vm_compute. reflexivity.
Qed.
(** Requested headings from which heading 0 is further than the threshold are missed. *)
Theorem C60_heading_refuted : forall clamp gth, AngleClamp_contract clamp -> ~ heading_within 0 gth (do_ang def_o) ->
  exists path n l, d_find clamp walled 0 def_p def_so def_o (l2 (/ 20)) Rplus fifo_push (min_pop Rltb) (fun _ => false) 2 3 (2, 3, 0) (10, 3, gth) = VPath _ _ path /\
    driven (sp_rev def_p) path = n :: l /\ ~ heading_within (sn_th n) gth (do_ang def_o).
Proof.
  intros clamp gth Hc Hg. destruct (C62_walls_refuted clamp gth Hc) as (v & n & v' & n' & E & _ & _ & Eh & _).
  eexists _, n', [n]. split; [exact E|]. split; [reflexivity|]. rewrite Eh. assumption.
Qed.
Example C60_heading_refuted_case : ~ heading_within 0 PI (do_ang def_o).
Proof.
  intros [k H]. cbn [def_o do_ang] in H. pose proof PI_RGT_0 as P. apply Rabs_le_inv in H. destruct (Z.le_gt_cases k 0) as [L|L].
  - apply IZR_le in L. nra.
  - assert (1 <= k)%Z by lia. apply IZR_le in H0. nra.
Qed.

(** ** C61: a pose on the map, and an exception *)
Section Edge.
  Variable clamp : R -> R.
  Hypothesis Hclamp : AngleClamp_contract clamp.
  Variable m : gridmap.
  Hypothesis Hmap : map_ok m.
  Hypothesis Hw32 : (gm_w m <= 32)%Z.
  Variable skips : Z.
  Variable p : sparams.
  Variable so : sopts.
  Variable o : dopts.
  Hypothesis Hk : vehicle_ok p so.
  Variable hval : snode -> snode -> R.
  Variable tot : R -> R -> R.
  Variable push : (vkey -> R) -> vkey -> list vkey -> list vkey.
  Variable pop : (vkey -> R) -> list vkey -> option (vkey * list vkey).
  Hypothesis Hpush : push_ok push.
  Hypothesis Hpop : pop_ok pop.
  Hypothesis Hrev : sp_rev p = false.
  Hypothesis Hfwd : do_fwd o = true.
  Hypothesis Hback : do_back o = false.
  Variables x y : Z.
  Hypothesis Hx : (0 <= x < gm_w m)%Z.
  Hypothesis Hy : (0 <= y < gm_h m)%Z.
  Hypothesis HpD : sp_pixel p = IZR (x + 32).
  Hypothesis Hs_free : ~ occupied m x y.
  Variables gx gy gth : R.
  Hypothesis Hg : cell_of (gm_w m) (gm_h m) (Zfloor gx) (Zfloor gy).
  Hypothesis Hgdist : do_dist o <= world_dist (sp_res p) (Pt (IZR (Zfloor gx)) (IZR (Zfloor gy))) (Pt (IZR x) (IZR y)).
  Hypothesis Hcell : (x, y) <> (Zfloor gx, Zfloor gy).

  Notation offer := (v_offer clamp m skips (sp_res p) (d_advance clamp p so)).
  Notation isg := (fun g r (_ : option snode) => Some (d_isGoal (sp_res p) (do_dist o) (do_ang o) g r)).
  Notation sf := (x, y, 15%Z, true).
  Notation sr := (x, y, 15%Z, false).

  Lemma edge_offer prevs : offer (at_corner x y PI true) prevs (0, 0)%Z = None.
  Proof using Hclamp Hmap Hw32 Hk Hrev Hx Hy HpD Hs_free.
    destruct (Hmap) as [Hwf Hsm Hw Hh]. pose proof (pixel_pos p so Hk) as Pp.
    assert (E : d_advance clamp p so (at_corner x y PI true) prevs 0 0 = AMove (sp_pixel p) (SN (-32) (IZR y) (clamp (PI + 0)) true 0 (Some 0%Z) 1)).
    { unfold d_advance, at_corner. cbv zeta. cbn [sn_depth sn_fwd sn_custom sn_steer sn_x sn_y sn_th].
      rewrite Hrev. change (0 <? 1)%Z with true. change (0 <? 3)%Z with true. cbn [xorb andb negb]. change (0 <? 0)%Z with false. change (3 <? 0)%Z with false. change (0 =? 3)%Z with false. cbn [andb].
      rewrite Rmult_0_r. change 0 with (IZR 0) at 1. rewrite cast_i32_IZR by (clear; lia).
      unfold steer_cmd. change ((0 =? 1) || (0 =? 4))%Z with false. change ((0 =? 2) || (0 =? 5))%Z with false. change (0 <? 0)%Z with false. cbv iota.
      assert (E : limit_steer (sp_max p) 0 = 0%Z).
      { destruct Hk as [_ _ _ F _ _]. unfold limit_steer. clear - F. destruct (sp_max p <? 0)%Z eqn:E; [lia|]. destruct (0 <? - sp_max p)%Z eqn:E2; lia. }
      rewrite E. unfold s_pose. cbv zeta. change (0 =? 0)%Z with true. cbv iota. cbn [fst snd]. unfold drive_dir. rewrite Hrev, HpD.
      rewrite cos_PI, sin_PI. f_equal. f_equal; [rewrite plus_IZR; ring|ring]. }
    unfold v_offer. cbn [fst snd]. rewrite E. replace (Rltb (sp_pixel p) 0) with false by (symmetry; apply Rltb_false; lra). cbn [sn_x sn_y sn_th sn_fwd].
    assert (F32 : Zfloor (-32) = (-32)%Z) by (change (-32) with (IZR (-32)); apply Zfloor_IZR).
    unfold gm_small in Hsm.
    assert (Ec : v_contains m (-32) (IZR y) = Some true).
    { unfold v_contains. rewrite !floor_int_ok by (rewrite ?F32, ?Zfloor_IZR; clear - Hy Hsm; lia). rewrite F32, Zfloor_IZR. cbn [obind]. unfold dyn_contains, padding. cbn [dyn_init dy_w dy_h]. f_equal. clear - Hx Hy. lia. }
    rewrite Ec. cbn [obind negb]. rewrite line_unchecked.
    - cbn [obind negb]. destruct (v_lookup clamp m (-32) (IZR y) (clamp (PI + 0)) true) as [v|] eqn:El; [|reflexivity]. exfalso.
      destruct (lookup_inv clamp Hclamp m Hsm Hw Hh _ _ _ _ _ El) as [[X _] _]. rewrite F32 in X. clear - X. lia.
    - assumption.
    - cbn [at_corner sn_x sn_y]. unfold fits. rewrite !Zfloor_IZR. clear - Hx Hy Hsm. lia.
    - unfold fits. rewrite F32, Zfloor_IZR. clear - Hy Hsm. lia.
    - left. cbn [at_corner sn_x sn_y]. rewrite !Zfloor_IZR. unfold cell_of. clear - Hx Hw32. lia.
    - cbn [at_corner sn_x sn_y]. rewrite !Ztrunc_IZR. assumption.
  Qed.

  Lemma edge bf fuel : (2 <= fuel)%nat ->
    d_find clamp m skips p so o hval tot push pop (fun _ => false) bf fuel (IZR x, IZR y, PI) (gx, gy, gth) = VUndef _ _.
  Proof using Hclamp Hmap Hw32 Hk Hrev Hx Hy HpD Hs_free Hpush Hpop Hfwd Hback Hg Hgdist Hcell.
    intros Hfu. unfold d_find, v_find. rewrite Hrev. cbv iota. destruct (Hmap) as [Hwf Hsm Hw Hh].
    assert (Hi1 : inner m (Zfloor (IZR x)) (Zfloor (IZR y))) by (rewrite !Zfloor_IZR; unfold inner; clear - Hx Hy; lia).
    assert (Hi2 : inner m (Zfloor gx) (Zfloor gy)) by (unfold inner; unfold cell_of in Hg; clear - Hg; lia).
    destruct (begin_ok clamp Hclamp m Hwf Hsm Hw Hh (IZR x) (IZR y) PI gx gy gth Hi1 Hi2) as (os & og & pay & Eb & Ho1 & _ & P1 & P2 & _).
    rewrite !Zfloor_IZR in *. destruct os; [exfalso; apply Hs_free, Ho1; reflexivity|].
    assert (Ecell : ((x =? Zfloor gx) && (y =? Zfloor gy))%Z = false).
    { apply not_true_is_false. intros X. apply Hcell. apply andb_prop in X. destruct X as [X1 X2]. apply Z.eqb_eq in X1, X2. congruence. }
    rewrite Ecell in P1. specialize (P1 eq_refl).
    set (goals := if og then [] else keys_of (Zfloor gx) (Zfloor gy)) in *.
    assert (Hgo : forall v, In v goals -> exists f, v = (Zfloor gx, Zfloor gy, 15%Z, f) /\ pay v = at_corner (Zfloor gx) (Zfloor gy) gth f).
    { intros v Hv. unfold goals in Hv. destruct og; [destruct Hv|]. specialize (P2 eq_refl). destruct Hv as [<-|[<-|[]]]; eexists; (split; [reflexivity|apply P2]). }
    clearbody goals. rewrite Eb. unfold vrun. unfold keys_of.
    set (start := [sf; sr] : list vkey).
    destruct (starts_spec vkey_eqb vkey_eqb_spec tot push Hpush start (VS vkey snode (vfresh vkey snode pay) [])) as (A & B1 & B).
    assert (Hlen : (length (v_open vkey snode (vstarts vkey snode vkey_eqb tot push start (VS vkey snode (vfresh vkey snode pay) []))) <= 2)%nat).
    { unfold start. cbn [vstarts v_open]. match goal with |- (length (push ?f ?v ?l) <= _)%nat => pose proof (proj1 (Hpush f v l)) as L1 end.
      match type of L1 with (_ <= S (length (push ?f ?v ?l)))%nat => pose proof (proj1 (Hpush f v l)) as L2 end. cbn [length] in L2. clear - L1 L2. lia. }
    set (s0 := vstarts _ _ _ _ _ _ _) in *. clearbody s0.
    (* contents of the nodes, which closing a node does not change *)
    assert (Pay : forall v, n_pay _ _ (v_info _ _ s0 v) = pay v).
    { intros v. destruct (vkey_eqb_spec v sf) as [->|N1]; [destruct (B sf (or_introl eq_refl)) as (h & ->); reflexivity|].
      destruct (vkey_eqb_spec v sr) as [->|N2]; [destruct (B sr (or_intror (or_introl eq_refl))) as (h & ->); reflexivity|].
      rewrite B1; [reflexivity|]. intros [X|[X|[]]]; congruence. }
    assert (Cl : forall s v l w, n_pay _ _ (v_info _ _ (vclose vkey snode vkey_eqb hval goals s v l) w) = n_pay _ _ (v_info _ _ s w)).
    { intros s v l w. unfold vclose. cbn [v_info]. unfold vset. destruct (vkey_eqb_spec w v) as [->|_]; reflexivity. }
    assert (NR : forall f b, (forall v, n_pay _ _ (f v) = pay v) -> vreached vkey snode isg f (x, y, 15%Z, b) goals = Some false).
    { intros f b Hf. assert (G : forall gs, incl gs goals -> vreached vkey snode isg f (x, y, 15%Z, b) gs = Some false); [|apply G, incl_refl].
      induction gs as [|g gs IH]; intros Hi; [reflexivity|]. cbn [vreached]. rewrite !Hf, P1. destruct (Hgo g (Hi g (or_introl eq_refl))) as (f' & -> & ->).
      assert (Ed : d_isGoal (sp_res p) (do_dist o) (do_ang o) (at_corner (Zfloor gx) (Zfloor gy) gth f') (at_corner x y PI b) = false).
      { unfold d_isGoal. destruct (Rlt_dec _ _); [reflexivity|]. apply Rltb_false. cbn [at_corner sn_x sn_y]. unfold world_dist in Hgdist. rewrite dist_hyp in Hgdist. cbn [px py] in Hgdist. lra. }
      rewrite Ed. cbn [obind]. apply IH. intros z Hz. apply Hi. right. assumption. }
    assert (Esr : forall ms s, (forall v, n_pay _ _ (v_info _ _ s v) = pay v) -> incl ms (d_moves o) -> vexpand vkey snode (Z * Z) vkey_eqb 0 offer hval tot push goals sr ms s = Some s).
    { intros ms s Hp. induction ms as [|[i k] ms IH]; intros Hi; [reflexivity|]. cbn [vexpand prevs]. rewrite Hp, P1.
      assert (E : offer (at_corner x y PI false) [] (i, k) = Some None).
      { assert (Hm : In (i, k) (d_moves o)) by (apply Hi; left; reflexivity). destruct (d_moves_in o i k Hm) as (_ & _ & H3 & _). specialize (H3 Hback).
        unfold v_offer. cbn [fst snd]. unfold d_advance. cbv zeta. unfold at_corner. cbn [sn_depth sn_fwd]. change (0 <? 1)%Z with true.
        replace (i <? 3)%Z with true by (symmetry; apply Z.ltb_lt; assumption). reflexivity. }
      rewrite E. cbn [obind]. apply IH. intros z Hz. apply Hi. right. assumption. }
    destruct (moves_split o Hfwd Hback) as (rest & Em).
    assert (Esf : forall s, (forall v, n_pay _ _ (v_info _ _ s v) = pay v) -> vexpand vkey snode (Z * Z) vkey_eqb 0 offer hval tot push goals sf (d_moves o) s = None).
    { intros s Hp. rewrite Em. cbn [vexpand prevs]. rewrite Hp, P1, edge_offer. reflexivity. }
    destruct fuel as [|[|fuel]]; [clear - Hfu; lia|clear - Hfu; lia|].
    set (lp := vloop vkey snode (Z * Z) vkey_eqb (d_moves o) 0 offer hval tot isg push pop start goals (fun _ => false) bf).
    assert (Step : forall n fu s cur l, v_open _ _ s <> [] -> pop (vtotal vkey snode tot (v_info _ _ s)) (v_open _ _ s) = Some (cur, l) -> (forall v, n_pay _ _ (v_info _ _ s v) = pay v) ->
      (cur = sf -> fst (lp (S fu) n s) = VUndef _ _) /\ (cur = sr -> lp (S fu) n s = lp fu (S n) (vclose vkey snode vkey_eqb hval goals s sr l))).
    { intros n fu s cur l Hne Ep Hp. unfold lp. cbn [vloop]. destruct (v_open vkey snode s) as [|a0 l0] eqn:Eo; [congruence|]. rewrite <- Eo in *. rewrite Ep. cbv zeta.
      split; intros ->.
      - rewrite NR by (intros v; rewrite Cl; apply Hp). rewrite Esf by (intros v; rewrite Cl; apply Hp). reflexivity.
      - rewrite NR by (intros v; rewrite Cl; apply Hp). rewrite Esr; [reflexivity|intros v; rewrite Cl; apply Hp|apply incl_refl]. }
    change (match fst (lp (S (S fuel)) 0%nat s0) with VPath _ _ q => VPath vkey snode q | r => r end = VUndef vkey snode).
    enough (X : fst (lp (S (S fuel)) 0%nat s0) = VUndef vkey snode) by (rewrite X; reflexivity).
    assert (Hsf0 : In sf (v_open _ _ s0)) by (apply A; right; left; reflexivity).
    pose proof (Hpop (vtotal vkey snode tot (v_info _ _ s0)) (v_open _ _ s0)) as Hp0. destruct (pop (vtotal vkey snode tot (v_info _ _ s0)) (v_open _ _ s0)) as [[cur l]|] eqn:Ep; [|rewrite Hp0 in Hsf0; destruct Hsf0].
    destruct Hp0 as (Hin & Hl & Hi & Hc). assert (Hne : v_open _ _ s0 <> []) by (intros X; rewrite X in Hsf0; exact Hsf0).
    destruct (Step 0%nat (S fuel) s0 cur l Hne Ep Pay) as [S1 S2].
    apply A in Hin. destruct Hin as [[]|Hin]. destruct Hin as [E|[E|[]]]; [apply S1; symmetry; assumption|]. rewrite S2 by (symmetry; assumption). clear S1 S2. subst cur.
    assert (Hsl : In sf l) by (destruct (Hc sf Hsf0) as [X|X]; [congruence|assumption]).
    assert (Hls : l = [sf]). { destruct l as [|a [|b l]]; [destruct Hsl| |cbn [length] in Hl; clear - Hl Hlen; lia]. destruct Hsl as [->|[]]. reflexivity. }
    subst l. set (s1 := vclose vkey snode vkey_eqb hval goals s0 sr [sf]).
    assert (Eo1 : v_open _ _ s1 = [sf]) by reflexivity. assert (P1' : forall v, n_pay _ _ (v_info _ _ s1 v) = pay v) by (intros v; unfold s1; rewrite Cl; apply Pay). clearbody s1.
    pose proof (Hpop (vtotal vkey snode tot (v_info _ _ s1)) (v_open _ _ s1)) as Hp1. destruct (pop (vtotal vkey snode tot (v_info _ _ s1)) (v_open _ _ s1)) as [[cur l]|] eqn:Ep1; [|rewrite Eo1 in Hp1; discriminate].
    destruct Hp1 as (Hin & _). assert (Hne1 : v_open _ _ s1 <> []) by (rewrite Eo1; discriminate). destruct (Step 1%nat fuel s1 cur l Hne1 Ep1 P1') as [S1 _]. apply S1.
    rewrite Eo1 in Hin. destruct Hin as [X|[]]. symmetry. assumption.
  Qed.
End Edge.

(** For every vehicle whose step ends in column -32, every heuristic and every open list,
    start and goal on the map (of at most 32 columns) and not occupied: an exception. *)
Theorem C61_exception_refuted : forall clamp m skips p so o hval tot push pop x y gx gy gth bf fuel,
  AngleClamp_contract clamp -> map_ok m -> vehicle_ok p so -> push_ok push -> pop_ok pop ->
  (gm_w m <= 32)%Z -> sp_rev p = false -> do_fwd o = true -> do_back o = false ->
  (0 <= x < gm_w m)%Z -> (0 <= y < gm_h m)%Z -> sp_pixel p = IZR (x + 32) -> ~ occupied m x y ->
  cell_of (gm_w m) (gm_h m) (Zfloor gx) (Zfloor gy) -> (x, y) <> (Zfloor gx, Zfloor gy) ->
  do_dist o <= world_dist (sp_res p) (Pt (IZR (Zfloor gx)) (IZR (Zfloor gy))) (Pt (IZR x) (IZR y)) -> (2 <= fuel)%nat ->
  d_find clamp m skips p so o hval tot push pop (fun _ => false) bf fuel (IZR x, IZR y, PI) (gx, gy, gth) = VUndef _ _.
Proof.
  intros clamp m skips p so o hval tot push pop x y gx gy gth bf fuel Hc Hm Hk Hpush Hpop Hw Hrev Hf Hb Hx Hy Hp Ho Hg Hcell Hd Hfu.
  apply (edge clamp Hc m Hm Hw skips p so o Hk hval tot push pop Hpush Hpop Hrev Hf Hb x y Hx Hy Hp Ho gx gy gth Hg Hd Hcell bf fuel Hfu).
Qed.
(** For example a resolution of 1.25 cm, otherwise the default parameters. *)
Example C61_exception_case : forall clamp gth, AngleClamp_contract clamp ->
  d_find clamp walled 0 (SP (2 / 5) (/ 80) 60 15 (6 / 5) false false 1) def_so def_o (l2 (/ 80)) Rplus fifo_push (min_pop Rltb) (fun _ => false) 100 2 (0, 3, PI) (15, 3, gth) = VUndef _ _.
Proof.
  intros clamp gth Hc. apply (C61_exception_refuted clamp walled 0 _ def_so def_o _ _ fifo_push (min_pop Rltb) 0 3); try reflexivity; try lia; try assumption.
  - exact walled_ok.
  - constructor; cbn [def_so sp_step sp_res sp_la sp_max so_back so_turn]; lra || lia.
  - apply fifo_push_ok.
  - apply min_pop_ok.
  - cbn [walled gm_w]. lia.
  - cbn [walled gm_w]. lia.
  - cbn [walled gm_h]. lia.
  - unfold sp_pixel. cbn [sp_step sp_res]. change (0 + 32)%Z with 32%Z. lra.
  - apply walled_free. vm_compute. reflexivity.
  - rewrite !Zfloor_IZR. unfold cell_of. cbn [walled gm_w gm_h]. lia.
  - rewrite !Zfloor_IZR. discriminate.
  - rewrite !Zfloor_IZR. unfold world_dist. rewrite dist_hyp. cbn [px py sp_res def_o do_dist]. replace (3 - 3) with 0 by ring. unfold hyp. replace ((15 - 0) * (15 - 0) + 0 * 0) with (15 * 15) by ring. rewrite sqrt_square by lra. lra.
Qed.
