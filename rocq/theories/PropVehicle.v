(** C59 and C60: the path of a vehicle search (GenericSearchAlgorithm with a steering
    neighbourhood and DynamicDirectionalStateSpaceManager). *)
From Coq Require Import Reals Lra.
From Flocq Require Import Core.Raux.
From Verif Require Import Base GridMap GridMapProofs GridSpec BresenhamProofs GeomR PropGeom PropLine MapManagers SteerModel PropSteer PropSteerKin PropSteerCost PropSteerGoal
  GenericProofs OpenPolicies VehicleSearch VehicleModel VehicleInst VehicleGen.
Local Open Scope R_scope.

(** ** C31: how many cells of a line are skipped *)
(** setMap: as many cells as fit into half a metre; so of every stretch longer than half
    a metre plus one cell at least one cell is looked at. *)
Theorem C31_skips : forall res k, 0 < res -> skips_of res = Some k ->
  (0 <= k)%Z /\ IZR k * res <= 1 / 2 < IZR (k + 1) * res.
Proof.
  intros res k Hr E. unfold skips_of in E. apply cast_i32_trunc in E. destruct E as [E _].
  assert (X : 0 < / 2 / res) by (apply Rdiv_lt_0_compat; lra).
  rewrite Ztrunc_floor in E by lra. subst k.
  pose proof (Zfloor_lb (/ 2 / res)) as L. pose proof (Zfloor_ub (/ 2 / res)) as U.
  split; [apply Zfloor_lub; cbn; lra|]. rewrite plus_IZR. split.
  - apply (Rmult_le_compat_r res) in L; [|lra]. unfold Rdiv in L at 2. rewrite Rmult_assoc, Rinv_l in L by lra. lra.
  - apply (Rmult_lt_compat_r res) in U; [|lra]. unfold Rdiv in U at 1. rewrite Rmult_assoc, Rinv_l in U by lra. lra.
Qed.
Theorem C31_skips_defined : forall res, / 2000000000 <= res -> exists k, skips_of res = Some k.
Proof.
  intros res Hr. unfold skips_of, cast_i32. cbv zeta.
  assert (X : 0 < / 2 / res <= 1000000000).
  { split; [apply Rdiv_lt_0_compat; lra|]. apply (Rmult_le_reg_r res); [lra|]. unfold Rdiv. rewrite Rmult_assoc, Rinv_l by lra. lra. }
  assert (Y : (0 <= Ztrunc (/ 2 / res) <= 1000000000)%Z).
  { rewrite Ztrunc_floor by lra. split; [apply Zfloor_lub; cbn; lra|]. apply le_IZR. eapply Rle_trans; [apply Zfloor_lb|]. lra. }
  exists (Ztrunc (/ 2 / res)). assert (in_i32 (Ztrunc (/ 2 / res)) = true) as ->; [|reflexivity]. unfold in_i32. lia.
Qed.

(** ** Specification *)
(** A vehicle and weights for which all moves have a positive cost, and a map. *)
Record vehicle_ok (p : sparams) (so : sopts) : Prop := {
  vk_step : 0 < sp_step p; vk_res : 0 < sp_res p; vk_la : 0 < sp_la p; vk_max : (0 <= sp_max p < 90)%Z;
  vk_back : 0 < so_back so; vk_turn : 0 < so_turn so }.
Record map_ok (m : gridmap) : Prop := {
  mk_wf : gm_wf m; mk_small : (gm_w m <= 536870912 /\ gm_h m <= 536870912)%Z; mk_w : (0 < gm_w m)%Z; mk_h : (0 < gm_h m)%Z }.
(** An open list that hands out a node of least cost. *)
Definition least_first (pop : (vkey -> R) -> list vkey -> option (vkey * list vkey)) : Prop :=
  forall f l v r, pop f l = Some (v, r) -> forall w, In w l -> f v <= f w.
(** The pose from which the search starts and the one it looks for. *)
Definition search_from (rv : bool) (from to : R * R * R) : R * R * R := if rv then to else from.
Definition search_to (rv : bool) (from to : R * R * R) : R * R * R := if rv then from else to.
(** The corner of the cell of the start pose, at rest, with the requested heading (the
    heading of the goal, if both lie in the same cell). *)
Definition start_node (a b : R * R * R) (s : snode) : Prop :=
  sn_x s = IZR (fst (cell_at a)) /\ sn_y s = IZR (snd (cell_at a)) /\ at_rest s /\
  (cell_at a <> cell_at b -> sn_th s = snd a) /\ (cell_at a = cell_at b -> sn_th s = snd b).
(** The pose of a request, as a point. *)
Definition at_pt (a : R * R * R) : pt := Pt (fst (fst a)) (snd (fst a)).

(** ** Proofs *)
Lemma start_node_of m a b s : starts_at m a b s -> start_node a b s.
Proof.
  intros (_ & _ & f & ->). unfold at_corner, start_node, at_rest. cbn [sn_x sn_y sn_th sn_steer sn_custom sn_depth]. repeat (split; [auto|]).
  - intros N. destruct ((fst (cell_at a) =? fst (cell_at b)) && (snd (cell_at a) =? snd (cell_at b)))%Z eqn:E; [|reflexivity]. exfalso. apply N.
    destruct (cell_at a), (cell_at b). cbn [fst snd] in E. f_equal; lia.
  - intros ->. rewrite !Z.eqb_refl. reflexivity.
Qed.

Lemma v_moves_in lo hi steps i k : In (i, k) (v_moves lo hi steps) -> (lo <= i < hi)%Z /\ (0 <= k <= Z.of_nat steps)%Z.
Proof.
  unfold v_moves. intros H. apply in_flat_map in H. destruct H as (j & Hj & H). apply in_map_iff in H. destruct H as (s & E & Hs). injection E as <- <-.
  apply in_seq in Hj, Hs. lia.
Qed.
Lemma d_moves_in o i k : In (i, k) (d_moves o) -> (0 <= i < 6)%Z /\ (0 <= k <= Z.of_nat (do_steps o))%Z /\ (do_back o = false -> i < 3)%Z /\ (do_fwd o = false -> 3 <= i)%Z.
Proof. intros H. apply v_moves_in in H. destruct H as [H1 H2]. destruct (do_fwd o), (do_back o); repeat split; try lia; intros; lia. Qed.

(** The costs of the moves. *)
Definition move_costs (p : sparams) (so : sopts) : list R :=
  [sp_pixel p * sp_res p; so_turn so * sp_pixel p * sp_res p; so_back so * sp_pixel p * sp_res p; so_back so * so_turn so * sp_pixel p * sp_res p;
   sp_la p / sp_res p * so_back so * sp_res p].
Lemma pixel_pos p so : vehicle_ok p so -> 0 < sp_pixel p.
Proof. intros [A B _ _ _ _]. unfold sp_pixel. apply Rdiv_lt_0_compat; assumption. Qed.
Lemma costs_pos p so : vehicle_ok p so -> forall c, In c (move_costs p so) -> 0 < c.
Proof.
  intros Hk c H. pose proof (pixel_pos p so Hk) as Hp. destruct Hk as [A B D _ F G].
  assert (0 < sp_la p / sp_res p) by (apply Rdiv_lt_0_compat; assumption).
  unfold move_costs in H. set (q := sp_la p / sp_res p) in *. set (px := sp_pixel p) in *. clearbody q px. cbn [In] in H. repeat (destruct H as [<-|H]; [repeat apply Rmult_lt_0_compat; assumption|]). destruct H.
Qed.
Lemma d_cost_in clamp p so ref prevs i s c n : vehicle_ok p so -> d_advance clamp p so ref prevs i s = AMove c n -> In (c * sp_res p) (move_costs p so).
Proof.
  intros Hk E. apply d_advance_inv in E. destruct E as (cu & _ & _ & _ & _ & _ & [(_ & _ & _ & _ & _ & _ & _ & _ & _ & ->)|(delta & s0 & _ & _ & _ & _ & [(_ & _ & _ & _ & _ & ->)|(_ & _ & ->)])]); unfold move_costs.
  - rewrite Rabs_pos_eq; [do 4 right; left; reflexivity|]. destruct Hk. apply Rlt_le, Rdiv_lt_0_compat; assumption.
  - destruct (sn_fwd n); [right; left|do 3 right; left]; ring.
  - destruct (sn_fwd n); [left|do 2 right; left]; ring.
Qed.
Lemma s_cost_in clamp p so ref prevs i s c n : s_advance clamp p so ref prevs i s = AMove c n -> In (c * sp_res p) (move_costs p so).
Proof.
  intros E. apply s_advance_inv in E. destruct E as (cu & delta & s0 & _ & _ & _ & _ & _ & _ & _ & _ & _ & F). unfold move_costs.
  destruct (sp_both p); [destruct F as [(_ & _ & _ & _ & _ & ->)|(_ & _ & ->)]|destruct F as [_ ->]]; destruct (sn_fwd n);
  try (left; ring); try (right; left; ring); try (do 2 right; left; ring); try (do 3 right; left; ring).
Qed.
Lemma all_prev_firstn n ok l : all_prev n ok (firstn n l) = all_prev n ok l.
Proof. revert l. induction n as [|n IH]; intros l; [reflexivity|]. destruct l as [|a l]; [reflexivity|]. cbn [firstn all_prev]. rewrite IH. reflexivity. Qed.
Lemma s_prevs clamp p so ref prevs i s : s_advance clamp p so ref (firstn (Z.to_nat (sp_sds p - 1)) prevs) i s = s_advance clamp p so ref prevs i s.
Proof. unfold s_advance. cbv zeta. rewrite all_prev_firstn. reflexivity. Qed.

Lemma coord_le a b x y d : hyp (a - x) (b - y) <= d -> Rabs (x - a) <= d /\ Rabs (y - b) <= d.
Proof.
  intros H. pose proof (hyp_sq (a - x) (b - y)) as S1. pose proof (hyp_nonneg (a - x) (b - y)) as S2. assert (0 <= d) by lra. assert (S3 : hyp (a - x) (b - y) * hyp (a - x) (b - y) <= d * d) by nra.
  pose proof (Rle_0_sqr (a - x)) as Q1. pose proof (Rle_0_sqr (b - y)) as Q2. unfold Rsqr in Q1, Q2. split; apply Rabs_le; clear - S1 S3 Q1 Q2 H0; nra.
Qed.
Lemma d_far clamp p so ref prevs i s c n : vehicle_ok p so -> sp_step p / sp_res p <= 536870912 -> sp_la p / sp_res p <= 536870912 ->
  d_advance clamp p so ref prevs i s = AMove c n -> Rabs (sn_x n - sn_x ref) <= far /\ Rabs (sn_y n - sn_y ref) <= far.
Proof.
  intros [A B D F _ _] H1 H2 E. destruct (C36_cost_dynamic clamp p so ref prevs i s c n D B ltac:(lra) F E) as (_ & L & _). cbv zeta in L. rewrite dist_hyp in L. cbn [spos px py] in L.
  apply coord_le. eapply Rle_trans; [exact L|]. unfold far. destruct (negb (sp_rev p) && (sn_depth ref <? 1)%Z && negb (sn_fwd n)); assumption.
Qed.
Lemma s_far clamp p so ref prevs i s c n : vehicle_ok p so -> sp_both p = true -> sp_step p / sp_res p <= 536870912 ->
  s_advance clamp p so ref prevs i s = AMove c n -> Rabs (sn_x n - sn_x ref) <= far /\ Rabs (sn_y n - sn_y ref) <= far.
Proof.
  intros [A B D F _ _] Hb H1 E. destruct (C36_cost clamp p so ref prevs i s c n D B ltac:(lra) F Hb E) as (_ & L & _). rewrite dist_hyp in L. cbn [spos px py] in L.
  apply coord_le. eapply Rle_trans; [exact L|]. unfold far. assumption.
Qed.

(** Conclusions about a list of poses, newest first. *)
Section Conclude.
  Variables (clamp : R -> R) (m : gridmap) (skips : Z) (move : snode -> list snode -> R -> snode -> Prop).
  Lemma near_line s l : near_trip clamp move s l -> (forall r prevs c n, move r prevs c n -> v_line m skips (sn_x r) (sn_y r) (sn_x n) (sn_y n) = Some true) ->
    forall a n r b, l = a ++ n :: r :: b -> exists r', pcell r' = pcell r /\ v_line m skips (sn_x r') (sn_y r') (sn_x n) (sn_y n) = Some true.
  Proof using Type.
    intros H Hm. induction H as [|n r l r' prevs c H IH H0 Hs M]; intros a n0 r0 b E.
    - destruct a as [|x [|y a]]; discriminate.
    - destruct a as [|x a].
      + cbn [app] in E. injection E as <- <- <-. exists r'. split; [|eapply Hm; eassumption]. unfold slot_of in Hs. congruence.
      + cbn [app] in E. injection E as _ E. apply (IH a n0 r0 b E).
  Qed.
End Conclude.
Lemma line_cells m skips r n rc : map_ok m -> (0 <= skips)%Z -> pcell r = rc -> v_line m skips (sn_x r) (sn_y r) (sn_x n) (sn_y n) = Some true ->
  ~ occupied m (fst rc) (snd rc) /\ line_clear m skips (fst rc) (snd rc) (fst (pcell n)) (snd (pcell n)).
Proof.
  intros [Hwf Hsm _ _] Hs <- H. destruct (line_inv m Hwf Hsm skips Hs _ _ _ _ H) as [A B]. unfold pcell. cbn [fst snd]. split; [|assumption].
  intros [X Y]. apply B. assert (G : (0 <= Zfloor (sn_x r))%Z /\ (0 <= Zfloor (sn_y r))%Z) by (unfold cell_of in X; lia). destruct G as [G1 G2].
  rewrite (trunc_nonneg _ G1), (trunc_nonneg _ G2). split; assumption.
Qed.

(** ** C59: the path can be driven *)
(** DynamicSteeringNeighborhood, nodes handed out in the order of their distance: the
    poses are a drive from the start; every pose is one move from the one before. *)
Theorem C59_dynamic_least_first : forall clamp m skips p so o hval tot push pop timeout bf fuel from to path,
  AngleClamp_contract clamp -> map_ok m -> (0 <= skips)%Z -> vehicle_ok p so -> push_ok push -> pop_ok pop ->
  (forall d h, tot d h = d) -> least_first pop ->
  d_find clamp m skips p so o hval tot push pop timeout bf fuel from to = VPath _ _ path -> path <> [] ->
  exists s c, start_node (search_from (sp_rev p) from to) (search_to (sp_rev p) from to) s /\
    trip (d_move clamp p so (Z.of_nat (do_steps o))) s (driven (sp_rev p) path) c.
Proof.
  intros clamp m skips p so o hval tot push pop timeout bf fuel from to path Hc [Hwf Hsm Hw Hh] Hs Hk Hpush Hpop Htot Hleast E Hne.
  destruct (gen_least clamp Hc m Hwf Hsm Hw Hh skips (sp_res p) (d_advance clamp p so) (d_moves o) 0 hval tot _ push pop Hpush Hpop (move_costs p so) (costs_pos p so Hk)
    (fun ref prevs i s c n H => d_cost_in clamp p so ref prevs i s c n Hk H) (fun ref prevs i s => eq_refl) Htot Hleast _ _ _ _ _ _ _ E Hne) as (s & n & l & c & Ed & Ht & Hst).
  exists s, c. split; [apply (start_node_of m); exact Hst|]. rewrite Ed. eapply trip_mono; [|exact Ht].
  intros r prevs c0 n0 (([i k] & Hm & Ha) & _). destruct (d_moves_in o i k Hm) as (A & B & _). exists i, k. auto.
Qed.
(** SteeringNeighborhood with both directions. *)
Theorem C59_template_least_first : forall clamp m skips p so size steps distance hval tot push pop timeout bf fuel from to path,
  AngleClamp_contract clamp -> map_ok m -> (0 <= skips)%Z -> vehicle_ok p so -> (size <= 6)%Z -> push_ok push -> pop_ok pop ->
  (forall d h, tot d h = d) -> least_first pop ->
  s_find clamp m skips p so size steps distance hval tot push pop timeout bf fuel from to = VPath _ _ path -> path <> [] ->
  exists s c, start_node (search_from (sp_rev p) from to) (search_to (sp_rev p) from to) s /\
    trip (s_move clamp p so (Z.of_nat steps)) s (driven (sp_rev p) path) c.
Proof.
  intros clamp m skips p so size steps distance hval tot push pop timeout bf fuel from to path Hc [Hwf Hsm Hw Hh] Hs Hk Hsz Hpush Hpop Htot Hleast E Hne.
  destruct (gen_least clamp Hc m Hwf Hsm Hw Hh skips (sp_res p) (s_advance clamp p so) (v_moves 0 size steps) _ hval tot _ push pop Hpush Hpop (move_costs p so) (costs_pos p so Hk)
    (fun ref prevs i s c n H => s_cost_in clamp p so ref prevs i s c n H) (fun ref prevs i s => s_prevs clamp p so ref prevs i s) Htot Hleast _ _ _ _ _ _ _ E Hne) as (s & n & l & c & Ed & Ht & Hst).
  exists s, c. split; [apply (start_node_of m); exact Hst|]. rewrite Ed. eapply trip_mono; [|exact Ht].
  intros r prevs c0 n0 (([i k] & Hm & Ha) & _). apply v_moves_in in Hm. destruct Hm as (A & B). exists i, k. split; [lia|]. split; assumption.
Qed.

(** Every heuristic and every order: each pose is one move from a pose in the cell and
    heading slot, and with the direction, of the pose before. *)
Theorem C59_dynamic_any_order : forall clamp m skips p so o hval tot push pop timeout bf fuel from to path,
  AngleClamp_contract clamp -> map_ok m -> (0 <= skips)%Z -> vehicle_ok p so -> push_ok push -> pop_ok pop ->
  d_find clamp m skips p so o hval tot push pop timeout bf fuel from to = VPath _ _ path -> path <> [] ->
  exists s, start_node (search_from (sp_rev p) from to) (search_to (sp_rev p) from to) s /\
    near_trip clamp (d_move clamp p so (Z.of_nat (do_steps o))) s (driven (sp_rev p) path).
Proof.
  intros clamp m skips p so o hval tot push pop timeout bf fuel from to path Hc [Hwf Hsm Hw Hh] Hs Hk Hpush Hpop E Hne.
  destruct (gen_weak clamp Hc m Hwf Hsm Hw Hh skips (sp_res p) (d_advance clamp p so) (d_moves o) 0 hval tot _ push pop Hpush Hpop (move_costs p so) (costs_pos p so Hk)
    (fun ref prevs i s c n H => d_cost_in clamp p so ref prevs i s c n Hk H) _ _ _ _ _ _ _ E Hne) as (s & n & l & gp & Ed & Ht & Hst & _).
  exists s. split; [apply (start_node_of m); exact Hst|]. rewrite Ed. eapply near_mono; [|exact Ht].
  intros r prevs c0 n0 (([i k] & Hm & Ha) & _). destruct (d_moves_in o i k Hm) as (A & B & _). exists i, k. auto.
Qed.
Theorem C59_template_any_order : forall clamp m skips p so size steps distance hval tot push pop timeout bf fuel from to path,
  AngleClamp_contract clamp -> map_ok m -> (0 <= skips)%Z -> vehicle_ok p so -> (size <= 6)%Z -> push_ok push -> pop_ok pop ->
  s_find clamp m skips p so size steps distance hval tot push pop timeout bf fuel from to = VPath _ _ path -> path <> [] ->
  exists s, start_node (search_from (sp_rev p) from to) (search_to (sp_rev p) from to) s /\
    near_trip clamp (s_move clamp p so (Z.of_nat steps)) s (driven (sp_rev p) path).
Proof.
  intros clamp m skips p so size steps distance hval tot push pop timeout bf fuel from to path Hc [Hwf Hsm Hw Hh] Hs Hk Hsz Hpush Hpop E Hne.
  destruct (gen_weak clamp Hc m Hwf Hsm Hw Hh skips (sp_res p) (s_advance clamp p so) (v_moves 0 size steps) _ hval tot _ push pop Hpush Hpop (move_costs p so) (costs_pos p so Hk)
    (fun ref prevs i s c n H => s_cost_in clamp p so ref prevs i s c n H) _ _ _ _ _ _ _ E Hne) as (s & n & l & gp & Ed & Ht & Hst & _).
  exists s. split; [apply (start_node_of m); exact Hst|]. rewrite Ed. eapply near_mono; [|exact Ht].
  intros r prevs c0 n0 (([i k] & Hm & Ha) & _). apply v_moves_in in Hm. destruct Hm as (A & B). exists i, k. split; [lia|]. split; assumption.
Qed.

(** No cell is visited twice with the same heading slot and direction (the start, whose
    node belongs to another heading, aside); without backward moves all poses but the
    start are driven forward. *)
Theorem C59_dynamic_no_repeat : forall clamp m skips p so o hval tot push pop timeout bf fuel from to path,
  AngleClamp_contract clamp -> map_ok m -> (0 <= skips)%Z -> vehicle_ok p so -> push_ok push -> pop_ok pop ->
  d_find clamp m skips p so o hval tot push pop timeout bf fuel from to = VPath _ _ path ->
  NoDup (map (slot_of clamp) (removelast (driven (sp_rev p) path))) /\
  (do_back o = false -> forall n, In n (removelast (driven (sp_rev p) path)) -> sn_fwd n = true) /\
  (do_fwd o = false -> forall n, In n (removelast (driven (sp_rev p) path)) -> sn_fwd n = false).
Proof.
  intros clamp m skips p so o hval tot push pop timeout bf fuel from to path Hc [Hwf Hsm Hw Hh] Hs Hk Hpush Hpop E.
  destruct path as [|x path]; [unfold driven; destruct (sp_rev p); cbn; repeat split; try constructor; intros _ n []|].
  destruct (gen_weak clamp Hc m Hwf Hsm Hw Hh skips (sp_res p) (d_advance clamp p so) (d_moves o) 0 hval tot _ push pop Hpush Hpop (move_costs p so) (costs_pos p so Hk)
    (fun ref prevs i s c n H => d_cost_in clamp p so ref prevs i s c n Hk H) _ _ _ _ _ _ _ E ltac:(discriminate)) as (s & n & l & gp & Ed & Ht & _ & Hnd & _).
  rewrite Ed. split; [exact Hnd|].
  assert (G : forall v, (forall i k, In (i, k) (d_moves o) -> (i <? 3)%Z = v) -> forall x, In x (removelast (n :: l)) -> sn_fwd x = v).
  { intros v Hv. clear - Ht Hv. induction Ht as [|n0 r l0 r' prevs c H IH _ _ M]; [intros x []|]. intros x Hx. cbn [removelast] in Hx.
    destruct Hx as [<-|Hx]; [|apply IH; exact Hx]. destruct M as (([i k] & Hm & Ha) & _). rewrite <- (Hv i k Hm).
    apply d_advance_inv in Ha. destruct Ha as (cu & _ & _ & _ & F & _). exact F. }
  split; intros Hb; apply G; intros i k Hm; apply d_moves_in in Hm; destruct Hm as (_ & _ & A & B); [specialize (A Hb)|specialize (B Hb)]; lia.
Qed.

(** ** C60: where the path ends *)
Lemma heading_tri a b c d e : heading_within a b d -> heading_within b c e -> heading_within a c (d + e).
Proof.
  intros [j H] [k K]. exists (j + k)%Z. rewrite plus_IZR. replace (a - c + 2 * (IZR j + IZR k) * PI) with ((a - b + 2 * IZR j * PI) + (b - c + 2 * IZR k * PI)) by ring.
  eapply Rle_trans; [apply Rabs_triang|lra].
Qed.
Lemma heading_sym a b d : heading_within a b d -> heading_within b a d.
Proof. intros [j H]. exists (- j)%Z. rewrite opp_IZR. replace (b - a + 2 * - IZR j * PI) with (- (a - b + 2 * IZR j * PI)) by ring. rewrite Rabs_Ropp. assumption. Qed.
Lemma slot15 clamp th : AngleClamp_contract clamp -> angle2index clamp th = Some 15%Z -> heading_within th 0 (PI / 31).
Proof.
  intros Hc E. destruct (slot_range clamp th Hc) as (t & Et & _ & Hr). rewrite E in Et. injection Et as <-. destruct (Hc th) as [_ [k Hk]]. pose proof PI_RGT_0.
  exists k. rewrite Rminus_0_r, <- Hk. apply Rabs_le. lra.
Qed.
Lemma same_cell_near a b c d : Zfloor a = Zfloor c -> Zfloor b = Zfloor d -> dist (Pt a b) (Pt c d) <= sqrt 2.
Proof.
  intros E1 E2. rewrite dist_hyp. cbn [px py]. pose proof (Zfloor_lb a). pose proof (Zfloor_ub a). pose proof (Zfloor_lb b). pose proof (Zfloor_ub b).
  pose proof (Zfloor_lb c). pose proof (Zfloor_ub c). pose proof (Zfloor_lb d). pose proof (Zfloor_ub d). rewrite E1, E2 in *.
  apply hyp_le; [apply sqrt_pos|]. rewrite sqrt_sqrt by lra. assert (-1 <= a - c <= 1) by lra. assert (-1 <= b - d <= 1) by lra. nra.
Qed.
Lemma goal_close clamp m to gp : goal_node clamp m to gp -> dist (spos gp) (at_pt to) <= sqrt 2.
Proof.
  intros (_ & _ & [(f & ->)|(E & _)]); unfold spos, at_pt; apply same_cell_near.
  - cbn [at_corner sn_x]. rewrite Zfloor_IZR. reflexivity.
  - cbn [at_corner sn_y]. rewrite Zfloor_IZR. reflexivity.
  - unfold pcell, cell_at in E. congruence.
  - unfold pcell, cell_at in E. congruence.
Qed.

(** The last pose is closer than the distance threshold and a cell diagonal to the goal;
    its heading is within the angle threshold of the requested heading, or else within
    the threshold and half a slot of heading 0. *)
Theorem C60_dynamic_goal : forall clamp m skips p so o hval tot push pop timeout bf fuel from to path,
  AngleClamp_contract clamp -> map_ok m -> (0 <= skips)%Z -> vehicle_ok p so -> push_ok push -> pop_ok pop ->
  d_find clamp m skips p so o hval tot push pop timeout bf fuel from to = VPath _ _ path -> path <> [] ->
  let goal := search_to (sp_rev p) from to in
  exists n l, driven (sp_rev p) path = n :: l /\
    world_dist (sp_res p) (spos n) (at_pt goal) < do_dist o + sqrt 2 * sp_res p /\
    (heading_within (sn_th n) (snd goal) (do_ang o) \/ heading_within (sn_th n) 0 (do_ang o + PI / 31)).
Proof.
  intros clamp m skips p so o hval tot push pop timeout bf fuel from to path Hc [Hwf Hsm Hw Hh] Hs Hk Hpush Hpop E Hne goal.
  destruct (gen_weak clamp Hc m Hwf Hsm Hw Hh skips (sp_res p) (d_advance clamp p so) (d_moves o) 0 hval tot _ push pop Hpush Hpop (move_costs p so) (costs_pos p so Hk)
    (fun ref prevs i s c n H => d_cost_in clamp p so ref prevs i s c n Hk H) _ _ _ _ _ _ _ E Hne) as (s & n & l & gp & Ed & _ & _ & _ & Hg & Hi).
  exists n, l. split; [exact Ed|]. cbv beta in Hi. injection Hi as Hi. apply C57_dynamic in Hi. destruct Hi as [Ha Hd]. split.
  - pose proof (goal_close clamp m _ gp Hg) as Hcl. fold (search_to (sp_rev p) from to) in Hcl. fold goal in Hcl. unfold world_dist in *.
    pose proof (dist_tri (spos n) (spos gp) (at_pt goal)) as T. destruct Hk as [_ B _ _ _ _].
    assert (S1 : dist (spos n) (spos gp) = dist (spos gp) (spos n)) by (rewrite !dist_hyp; unfold hyp; f_equal; ring). rewrite S1 in T.
    assert (dist (spos n) (at_pt goal) * sp_res p <= (dist (spos gp) (spos n) + sqrt 2) * sp_res p) by (apply Rmult_le_compat_r; lra). lra.
  - destruct Hg as (_ & _ & [(f & ->)|(_ & E15)]).
    + left. apply heading_sym. exact Ha.
    + right. eapply heading_tri; [apply heading_sym; exact Ha|apply (slot15 clamp); assumption].
Qed.

(** The goal test of the template neighbourhood: measured to the goal, moved back by the
    wheel base at the end of a reversed search if the vehicle drives backwards. *)
Theorem C60_template_goal : forall clamp m skips p so size steps distance hval tot push pop timeout bf fuel from to path,
  AngleClamp_contract clamp -> map_ok m -> (0 <= skips)%Z -> vehicle_ok p so -> (size <= 6)%Z -> push_ok push -> pop_ok pop ->
  s_find clamp m skips p so size steps distance hval tot push pop timeout bf fuel from to = VPath _ _ path -> path <> [] ->
  let goal := search_to (sp_rev p) from to in
  exists n l gp, driven (sp_rev p) path = n :: l /\ dist (spos gp) (at_pt goal) <= sqrt 2 /\
    (sn_th gp = snd goal \/ heading_within (sn_th gp) 0 (PI / 31)) /\
    heading_within (sn_th gp) (sn_th n) (PI / 8) /\
    (world_dist (sp_res p) (eff_goal p gp n) (spos n) < 5 / 100 \/
     exists q r t, l = q :: r /\ 0 <= t <= 1 /\ world_dist (sp_res p) (eff_goal p gp n) (between (spos q) (spos n) t) < / 10).
Proof.
  intros clamp m skips p so size steps distance hval tot push pop timeout bf fuel from to path Hc [Hwf Hsm Hw Hh] Hs Hk Hsz Hpush Hpop E Hne goal.
  destruct (gen_weak clamp Hc m Hwf Hsm Hw Hh skips (sp_res p) (s_advance clamp p so) (v_moves 0 size steps) _ hval tot _ push pop Hpush Hpop (move_costs p so) (costs_pos p so Hk)
    (fun ref prevs i s c n H => s_cost_in clamp p so ref prevs i s c n H) _ _ _ _ _ _ _ E Hne) as (s & n & l & gp & Ed & _ & _ & _ & Hg & Hi).
  exists n, l, gp. split; [exact Ed|]. split; [apply (goal_close clamp m); exact Hg|]. split.
  - destruct Hg as (_ & _ & [(f & ->)|(_ & E15)]); [left; reflexivity|right; apply (slot15 clamp); assumption].
  - destruct (C57_template_sound p distance gp n (hd_error l) (vk_res _ _ Hk) Hi) as (A & _ & B). split; [assumption|]. destruct B as [B|(q & t & Eq & B)]; [left; assumption|right].
    destruct l as [|q' l]; [discriminate|]. cbn [hd_error] in Eq. injection Eq as <-. eauto 6.
Qed.

(** ** For C61 *)
Lemma custom_some_d clamp m skips p so o s q : sn_custom s <> None -> rpose m skips (d_advance clamp p so) (d_moves o) s q -> sn_custom q <> None.
Proof.
  intros Hs H. destruct H as [|q prevs c n _ (((i & k) & _ & Ha) & _)]; [assumption|]. apply d_advance_inv in Ha.
  destruct Ha as (cu & _ & _ & _ & _ & _ & [(_ & _ & _ & _ & _ & -> & _)|(delta & s0 & _ & _ & _ & _ & [(_ & _ & _ & _ & -> & _)|(_ & -> & _)])]); discriminate.
Qed.
Lemma custom_some_s clamp m skips p so moves s q : sp_both p = true -> sn_custom s <> None -> rpose m skips (s_advance clamp p so) moves s q -> sn_custom q <> None.
Proof.
  intros Hb Hs H. destruct H as [|q prevs c n _ (((i & k) & _ & Ha) & _)]; [assumption|]. apply s_advance_inv in Ha.
  destruct Ha as (cu & delta & s0 & _ & _ & _ & _ & _ & _ & _ & _ & _ & F). rewrite Hb in F. destruct F as [(_ & _ & _ & _ & -> & _)|(_ & -> & _)]; discriminate.
Qed.
Lemma delta_cast p steps k : Rabs (sp_delta p) * IZR (Z.of_nat steps) < 2147483648 -> (0 <= k <= Z.of_nat steps)%Z -> cast_i32 (sp_delta p * IZR k) <> None.
Proof.
  intros H Hk. set (x := sp_delta p * IZR k).
  assert (Hx : -2147483648 < x < 2147483648).
  { assert (L1 : 0 <= IZR k) by (apply IZR_le; lia). assert (L2 : IZR k <= IZR (Z.of_nat steps)) by (apply IZR_le; lia).
    assert (A : Rabs x < 2147483648). { unfold x. rewrite Rabs_mult, (Rabs_pos_eq (IZR k)) by assumption. pose proof (Rabs_pos (sp_delta p)). nra. }
    apply Rabs_def2 in A. lra. }
  unfold cast_i32, in_i32. cbv zeta. pose proof (trunc_near x) as [T1 T2]. pose proof (trunc_lt x 2147483648 ltac:(lia)) as T3.
  assert (T4 : (-2147483648 <= Zfloor x)%Z) by (apply Zfloor_lub; lra).
  destruct (_ && _)%Z eqn:E; [discriminate|]. exfalso. assert (Ztrunc x < 2147483648)%Z by (apply T3; lra). lia.
Qed.
Lemma d_defined clamp p so o prevs q i k : Rabs (sp_delta p) * IZR (Z.of_nat (do_steps o)) < 2147483648 -> sn_custom q <> None -> In (i, k) (d_moves o) -> d_advance clamp p so q prevs i k <> AUndef.
Proof.
  intros Hd Hq Hm. apply d_moves_in in Hm. destruct Hm as (_ & Hk & _). pose proof (delta_cast p _ k Hd Hk) as Hcast. unfold d_advance. cbv zeta. destruct (sn_custom q) as [cu|]; [|congruence].
  destruct (cast_i32 (sp_delta p * IZR k)) as [d|]; [|congruence]. destruct (steer_cmd _ _ _ _ _); repeat match goal with |- context [if ?b then _ else _] => destruct b end; discriminate.
Qed.
Lemma s_defined clamp p so lo hi steps prevs q i k : Rabs (sp_delta p) * IZR (Z.of_nat steps) < 2147483648 -> sn_custom q <> None -> In (i, k) (v_moves lo hi steps) -> s_advance clamp p so q prevs i k <> AUndef.
Proof.
  intros Hd Hq Hm. apply v_moves_in in Hm. destruct Hm as (_ & Hk). pose proof (delta_cast p _ k Hd Hk) as Hcast. unfold s_advance. cbv zeta. destruct (sn_custom q) as [cu|]; [|congruence].
  destruct (cast_i32 (sp_delta p * IZR k)) as [d|]; [|congruence]. destruct (steer_cmd _ _ _ _ _); repeat match goal with |- context [if ?b then _ else _] => destruct b end; discriminate.
Qed.
