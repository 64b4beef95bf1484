(** C57: what the vehicle neighbourhoods accept as the goal. *)
From Coq Require Import Reals Lra.
From Flocq Require Import Core.Raux.
From Verif Require Import Base GeomR PropGeom LineModel PropLine SteerModel PropSteer PropSteerCost.
Local Open Scope R_scope.

(** ** Specification *)
(** Two headings differ by at most [d], up to full turns. *)
Definition heading_within (a b d : R) : Prop := exists k : Z, Rabs (a - b + 2 * IZR k * PI) <= d.
(** The point at fraction [t] of the way from [q] to [r]. *)
Definition between (q r : pt) (t : R) : pt := Pt (px q + t * (px r - px q)) (py q + t * (py r - py q)).
(** Distance in world units of two poses given in cells. *)
Definition world_dist (res : R) (a b : pt) : R := dist a b * res.

(** ** Proofs *)
Lemma rep_min a m : - PI <= a <= PI -> Rabs a <= Rabs (a + 2 * IZR m * PI).
Proof.
  intros H. pose proof PI_RGT_0. destruct (Z.eq_dec m 0) as [->|N]; [right; f_equal; ring|].
  assert (HA : Rabs a <= PI) by (apply Rabs_le; lra).
  destruct (Z_lt_le_dec 0 m) as [M|M].
  - assert (1 <= IZR m) by (apply IZR_le; lia). rewrite (Rabs_pos_eq (a + 2 * IZR m * PI)) by nra. nra.
  - assert (IZR m <= -1) by (apply IZR_le; lia). rewrite (Rabs_left1 (a + 2 * IZR m * PI)) by nra. nra.
Qed.
Lemma clamp_within clamp a b d : AngleClamp_contract clamp -> Rabs (clamp (a - b)) <= d <-> heading_within a b d.
Proof.
  intros Hc. destruct (Hc (a - b)) as [R0 [k E]]. split.
  - intros H. exists k. rewrite <- E. assumption.
  - intros [m H]. eapply Rle_trans; [apply (rep_min _ (m - k) R0)|]. rewrite minus_IZR. rewrite E. replace (a - b + 2 * IZR k * PI + 2 * (IZR m - IZR k) * PI) with (a - b + 2 * IZR m * PI) by ring. assumption.
Qed.
Lemma atan2_within a b d : Rabs (atan2 (sin (a - b)) (cos (a - b))) <= d <-> heading_within a b d.
Proof. apply (clamp_within clamp_ref a b d clamp_ref_ok). Qed.

Lemma len_hyp p : len p = hyp (px p) (py p).
Proof. unfold len, hyp. f_equal. ring. Qed.

(** [seg_dist] is the distance to the nearest point of the segment. *)
Lemma seg_dist_attained q r g : exists t, 0 <= t <= 1 /\ seg_dist q r g = dist g (between q r t).
Proof.
  unfold seg_dist. cbv zeta. destruct (Rle_dec _ _) as [H|H].
  - exists 0. split; [lra|]. rewrite len_hyp, dist_hyp. cbn [px py psub between]. f_equal; ring.
  - set (t := Rmax 0 _). exists t. split.
    + split; [apply Rmax_l|]. unfold t. apply Rmax_lub; [lra|]. apply Rmin_l.
    + rewrite len_hyp, dist_hyp. cbn [px py psub padd pmul between]. f_equal; ring.
Qed.
Lemma seg_dist_least q r g t : / 100 < dist q r -> 0 <= t <= 1 -> seg_dist q r g <= dist g (between q r t).
Proof.
  intros Hl Ht.
  assert (L2 : px (psub q r) * px (psub q r) + py (psub q r) * py (psub q r) = dist q r * dist q r).
  { rewrite dist_hyp. rewrite hyp_sq. cbn [psub px py]. ring. }
  unfold seg_dist. cbv zeta. rewrite L2. destruct (Rle_dec (dist q r * dist q r) (/ 10000)) as [H|H]; [exfalso; nra|].
  set (l2 := dist q r * dist q r) in *. assert (HL : 0 < l2) by (unfold l2; nra).
  cbn [psub px py] in L2. set (dot := px (psub g q) * px (psub r q) + py (psub g q) * py (psub r q)).
  set (u := Rmax 0 (Rmin 1 (dot / l2))). rewrite len_hyp, dist_hyp. apply hyp_le; [apply hyp_nonneg|]. rewrite hyp_sq.
  cbn [px py psub padd pmul between]. cbn [px py psub] in dot.
  set (gx := px g - px q) in *. set (gy := py g - py q) in *. set (rx := px r - px q) in *. set (ry := py r - py q) in *.
  replace (px g - (px q + rx * u)) with (gx - u * rx) by (unfold gx; ring). replace (py g - (py q + ry * u)) with (gy - u * ry) by (unfold gy; ring).
  replace (px g - (px q + t * rx)) with (gx - t * rx) by (unfold gx; ring). replace (py g - (py q + t * ry)) with (gy - t * ry) by (unfold gy; ring).
  assert (ER : rx * rx + ry * ry = l2) by (rewrite <- L2; unfold rx, ry; ring).
  assert (ED : gx * rx + gy * ry = dot) by (unfold dot; reflexivity).
  assert (K : (u - t) * ((u + t) * l2 - 2 * dot) <= 0).
  { assert (HU : (u = 0 /\ dot <= 0) \/ (u = 1 /\ l2 <= dot) \/ u * l2 = dot).
    { unfold u. assert (HQ : dot / l2 * l2 = dot) by (field; lra). unfold Rmin, Rmax. destruct (Rle_dec 1 (dot / l2)) as [A|A].
      - destruct (Rle_dec 0 1); [|lra]. right. left. split; [reflexivity|nra].
      - destruct (Rle_dec 0 (dot / l2)) as [B|B]; [right; right; assumption|]. left. split; [reflexivity|nra]. }
    destruct HU as [[EU HU]|[[EU HU]|HU]].
    { rewrite EU. clear -HU Ht HL. assert (0 <= t * l2) by nra. assert (0 <= t * (t * l2 - 2 * dot)) by (apply Rmult_le_pos; lra). lra. }
    { rewrite EU. clear -HU Ht HL. assert (t * l2 <= 1 * l2) by (apply Rmult_le_compat_r; lra). assert (0 <= (1 - t) * (2 * dot - (1 + t) * l2)) by (apply Rmult_le_pos; lra). lra. } rewrite <- HU. replace ((u - t) * ((u + t) * l2 - 2 * (u * l2))) with (- ((u - t) * (u - t) * l2)) by ring.
    pose proof (Rle_0_sqr (u - t)) as Q. unfold Rsqr in Q. nra. }
  assert (X : forall v, (gx - v * rx) * (gx - v * rx) + (gy - v * ry) * (gy - v * ry) = gx * gx + gy * gy - 2 * v * dot + v * v * l2) by (intros v; rewrite <- ER, <- ED; ring).
  rewrite !X. nra.
Qed.

(** The simple non-holonomic neighbourhood: within half a step in both coordinates and
    less than an eighth of pi in heading. *)
Theorem C57_nonholonomic : forall clamp p goal ref, AngleClamp_contract clamp ->
  n_isGoal clamp p goal ref = true <->
  Rabs (sn_x goal - sn_x ref) <= np_step p / np_res p / 2 /\ Rabs (sn_y goal - sn_y ref) <= np_step p / np_res p / 2 /\
  exists d, d < PI / 8 /\ heading_within (sn_th goal) (sn_th ref) d.
Proof.
  intros clamp p goal ref Hc. unfold n_isGoal, np_pixel. rewrite !andb_true_iff, !Rleb_spec, Rltb_spec. split.
  - intros [[H1 H2] H3]. split; [assumption|]. split; [assumption|]. exists (Rabs (clamp (sn_th goal - sn_th ref))). split; [assumption|]. apply (clamp_within clamp); [assumption|lra].
  - intros (H1 & H2 & d & H3 & H4). split; [split; assumption|]. apply (clamp_within clamp) in H4; [|assumption]. lra.
Qed.

(** The dynamic neighbourhood: closer than the distance threshold and within the angle
    threshold. *)
Theorem C57_dynamic : forall res dthr athr goal ref,
  d_isGoal res dthr athr goal ref = true <-> heading_within (sn_th goal) (sn_th ref) athr /\ world_dist res (spos goal) (spos ref) < dthr.
Proof.
  intros res dthr athr goal ref. unfold d_isGoal, world_dist, spos. rewrite dist_hyp. cbn [px py].
  rewrite <- atan2_within. destruct (Rlt_dec athr _) as [H|H].
  - split; [discriminate|]. intros [H1 _]. lra.
  - rewrite Rltb_spec. split; [intros H1; split; [lra|assumption]|tauto].
Qed.

(** The template neighbourhood: heading within an eighth of pi and closer than 5 cm, or
    within 10 cm of the straight connection to the predecessor. For a search from the
    goal ([reversed]) the vehicle arriving backward is compared with the pose one wheel
    base behind the goal, and never while the flag of a reversal is positive. *)
Definition eff_goal (p : sparams) (goal ref : snode) : pt :=
  if sp_rev p && negb (sn_fwd ref) then Pt (sn_x goal - sp_la p / sp_res p * cos (sn_th goal)) (sn_y goal - sp_la p / sp_res p * sin (sn_th goal)) else spos goal.

Lemma dist_scaled a b k : 0 <= k -> dist (Pt (px a * k) (py a * k)) (Pt (px b * k) (py b * k)) = dist a b * k.
Proof.
  intros Hk. rewrite !dist_hyp. cbn [px py]. apply hyp_unique; [pose proof (hyp_nonneg (px a - px b) (py a - py b)); nra|].
  pose proof (hyp_sq (px a - px b) (py a - py b)) as E. replace (hyp (px a - px b) (py a - py b) * k * (hyp (px a - px b) (py a - py b) * k)) with (hyp (px a - px b) (py a - py b) * hyp (px a - px b) (py a - py b) * (k * k)) by ring. rewrite E. ring.
Qed.

Theorem C57_template_sound : forall p distance goal ref prev, 0 < sp_res p -> s_isGoal p distance goal ref prev = Some true ->
  heading_within (sn_th goal) (sn_th ref) (PI / 8) /\
  (sp_rev p = true -> exists cu, sn_custom ref = Some cu /\ (cu <= 0)%Z) /\
  (world_dist (sp_res p) (eff_goal p goal ref) (spos ref) < 5 / 100 \/
   exists q t, prev = Some q /\ 0 <= t <= 1 /\ world_dist (sp_res p) (eff_goal p goal ref) (between (spos q) (spos ref) t) < / 10).
Proof.
  intros p distance goal ref prev Hres. unfold s_isGoal. cbv zeta.
  destruct (Rlt_dec (PI / 8) _) as [|Ha]; [discriminate|]. apply Rnot_lt_le in Ha. apply atan2_within in Ha.
  set (gx := sn_x goal + _). set (gy := sn_y goal + _).
  assert (EG : eff_goal p goal ref = Pt gx gy).
  { unfold eff_goal, gx, gy, spos. destruct (sp_rev p && negb (sn_fwd ref)); f_equal; unfold Rdiv; ring. }
  assert (G : forall b : bool, (if b then Some false else
      if Rltb (IZR (4 * distance)) (Rabs (gx - sn_x ref)) || Rltb (IZR (4 * distance)) (Rabs (gy - sn_y ref)) then Some false else
      if Rlt_dec (hyp (gx - sn_x ref) (gy - sn_y ref) * sp_res p) (5 / 100) then Some true else
      match prev with None => Some false | Some q =>
        Some (Rltb (seg_dist (Pt (sn_x q * sp_res p) (sn_y q * sp_res p)) (Pt (sn_x ref * sp_res p) (sn_y ref * sp_res p)) (Pt (gx * sp_res p) (gy * sp_res p))) (/ 10)) end) = Some true ->
      b = false /\ (world_dist (sp_res p) (eff_goal p goal ref) (spos ref) < 5 / 100 \/
      exists q t, prev = Some q /\ 0 <= t <= 1 /\ world_dist (sp_res p) (eff_goal p goal ref) (between (spos q) (spos ref) t) < / 10)).
  { intros [|]; [discriminate|]. destruct (_ || _); [discriminate|]. rewrite EG. unfold world_dist, spos. rewrite dist_hyp. cbn [px py].
    destruct (Rlt_dec _ _) as [Hd|Hd]; [auto|]. destruct prev as [q|]; [|discriminate]. intros E. injection E as E. apply Rltb_spec in E. split; [reflexivity|]. right.
    destruct (seg_dist_attained (Pt (sn_x q * sp_res p) (sn_y q * sp_res p)) (Pt (sn_x ref * sp_res p) (sn_y ref * sp_res p)) (Pt (gx * sp_res p) (gy * sp_res p))) as (t & Ht & Et).
    exists q, t. split; [reflexivity|]. split; [assumption|]. rewrite Et in E. rewrite <- (dist_scaled (Pt gx gy) (between _ _ t)) by lra. cbn [px py between] in E |- *.
    replace ((sn_x q + t * (sn_x ref - sn_x q)) * sp_res p) with (sn_x q * sp_res p + t * (sn_x ref * sp_res p - sn_x q * sp_res p)) by ring.
    replace ((sn_y q + t * (sn_y ref - sn_y q)) * sp_res p) with (sn_y q * sp_res p + t * (sn_y ref * sp_res p - sn_y q * sp_res p)) by ring. exact E. }
  destruct (sp_rev p) eqn:Er; cbn [obind].
  - destruct (sn_custom ref) as [cu|]; [|discriminate]. cbn. intros E. apply G in E. destruct E as [E1 E2]. split; [assumption|]. split; [|assumption]. intros _. exists cu. split; [reflexivity|lia].
  - intros E. apply (G false) in E. destruct E as [_ E2]. split; [assumption|]. split; [discriminate|assumption].
Qed.

(** Conversely such a pose is accepted, provided it is not further away than the
    (coarse) box test allows, and provided the predecessor is more than 1 cm away. *)
Theorem C57_template_complete : forall p distance goal ref prev, 0 < sp_res p ->
  heading_within (sn_th goal) (sn_th ref) (PI / 8) ->
  (sp_rev p = true -> exists cu, sn_custom ref = Some cu /\ (cu <= 0)%Z) ->
  Rabs (px (eff_goal p goal ref) - sn_x ref) <= 4 * IZR distance -> Rabs (py (eff_goal p goal ref) - sn_y ref) <= 4 * IZR distance ->
  (world_dist (sp_res p) (eff_goal p goal ref) (spos ref) < 5 / 100 \/
   exists q t, prev = Some q /\ / 100 < world_dist (sp_res p) (spos q) (spos ref) /\ 0 <= t <= 1 /\ world_dist (sp_res p) (eff_goal p goal ref) (between (spos q) (spos ref) t) < / 10) ->
  s_isGoal p distance goal ref prev = Some true.
Proof.
  intros p distance goal ref prev Hres Ha Hcu Hbx Hby H. unfold s_isGoal. cbv zeta.
  destruct (Rlt_dec (PI / 8) _) as [N|_]; [apply atan2_within in Ha; lra|].
  set (gx := sn_x goal + _). set (gy := sn_y goal + _).
  assert (EG : eff_goal p goal ref = Pt gx gy).
  { unfold eff_goal, gx, gy, spos. destruct (sp_rev p && negb (sn_fwd ref)); f_equal; unfold Rdiv; ring. }
  rewrite EG in *. cbn [px py] in Hbx, Hby.
  assert (E1 : (if sp_rev p then cu <- sn_custom ref;; Some (0 <? cu)%Z else Some false) = Some false).
  { destruct (sp_rev p); [|reflexivity]. destruct (Hcu eq_refl) as (cu & -> & Hc). cbn. f_equal. lia. }
  rewrite E1. cbn [obind].
  assert (E2 : Rltb (IZR (4 * distance)) (Rabs (gx - sn_x ref)) || Rltb (IZR (4 * distance)) (Rabs (gy - sn_y ref)) = false).
  { apply orb_false_iff. rewrite mult_IZR. split; apply Rltb_false; assumption. }
  rewrite E2. unfold world_dist, spos in H. rewrite dist_hyp in H. cbn [px py] in H. destruct (Rlt_dec _ _) as [|Hd]; [reflexivity|].
  destruct H as [H|(q & t & -> & Hl & Ht & H)]; [contradiction|]. f_equal. apply Rltb_spec.
  eapply Rle_lt_trans; [apply (seg_dist_least _ _ _ t)|]; [|assumption|].
  - rewrite (dist_scaled (Pt (sn_x q) (sn_y q)) (Pt (sn_x ref) (sn_y ref))) by lra. assumption.
  - eapply Rle_lt_trans; [|exact H]. right. rewrite <- (dist_scaled (Pt gx gy) (between _ _ t)) by lra. unfold between; cbn [px py]. f_equal; f_equal; ring.
Qed.

(** Not refuted by distance: a goal beside the last move is accepted although the
    vehicle has driven past it. *)
Example C57_passed : s_isGoal (SP 1 (1/10) 60 15 1 false true 2) 100 (SN 95 0 0 true 0 (Some 0%Z) 0) (SN 100 0 (PI / 10) true 0 (Some 0%Z) 2) (Some (SN 90 0 0 true 0 (Some 0%Z) 1)) = Some true.
Proof.
  pose proof PI_RGT_0. apply C57_template_complete; cbn [sp_res sp_rev sp_la sn_th sn_x sn_y eff_goal spos px py andb]; try lra; try discriminate.
  - exists 0%Z. rewrite Rabs_left1; lra.
  - rewrite Rabs_left1; lra.
  - rewrite Rabs_pos_eq; lra.
  - right. exists (SN 90 0 0 true 0 (Some 0%Z) 1), (/ 2). split; [reflexivity|]. unfold world_dist, spos. cbn [sn_x sn_y px py between]. split; [|split; [lra|]].
    + rewrite dist_hyp. cbn [px py]. assert (hyp (90 - 100) (0 - 0) = 10) as -> by (apply hyp_unique; lra). lra.
    + rewrite dist_hyp. unfold between. cbn [px py]. assert (hyp (95 - (90 + / 2 * (100 - 90))) (0 - (0 + / 2 * (0 - 0))) = 0) as -> by (apply hyp_unique; lra). lra.
Qed.
