(** C46 (GeometryHelper) and C56: a Reeds-Shepp curve leads from the start to the goal
    without a jump of position or heading. *)
From Coq Require Import Reals Lra.
From Flocq Require Import Core.Raux.
From Verif Require Import Base GeomR PropGeom RSParse RSModel PropRSArc PropRSRing PropRSLine PropRSFind.
Local Open Scope R_scope.

(** ** Specification *)
(** The direction of an angle, the pose of a vehicle on a circle: a left curve has the
    centre to the left of the vehicle, a right curve to the right. *)
Definition dirv (a : R) : pt := Pt (cos a) (sin a).
Definition same_pose (p q : pose) : Prop := pt_of_pose p = pt_of_pose q /\ angle_eq (po_th p) (po_th q).
Definition vehicle_on (c : cseg) (a : R) : pose :=
  Pose (px (cs_c c) + cs_r c * cos a) (py (cs_c c) + cs_r c * sin a) (match cs_ori c with LeftC => a + PI / 2 | RightC => a - PI / 2 end).
(** A vehicle drives a sequence of segments from pose [p] to pose [q]: it enters every
    circle where and as it left the segment before, turns by the arc length, and
    follows lines in (or, backwards, against) its heading. *)
Inductive drive (clamp : R -> R) : pose -> list seg -> pose -> Prop :=
| drive_end p q : same_pose p q -> drive clamp p [] q
| drive_circle p c t q : same_pose p (vehicle_on c (cs_a0 c)) -> drive clamp (vehicle_on c (cs_a0 c + arc_len clamp c)) t q -> drive clamp p (SegC c :: t) q
| drive_line p l t q th s : 0 <= s -> pt_of_pose p = ls_a l -> angle_eq (po_th p) th ->
    ls_b l = padd (ls_a l) (pmul (dirv th) (match ls_dir l with Forward => s | Backward => - s end)) ->
    drive clamp (Pose (px (ls_b l)) (py (ls_b l)) th) t q -> drive clamp p (SegL l :: t) q.

Lemma same_pose_refl p : same_pose p p.
Proof. split; [reflexivity|apply angle_eq_refl]. Qed.
Lemma same_pose_sym p q : same_pose p q -> same_pose q p.
Proof. intros [H1 H2]. split; [auto|apply angle_eq_sym; exact H2]. Qed.
Lemma same_pose_trans p q r : same_pose p q -> same_pose q r -> same_pose p r.
Proof. intros [H1 H2] [H3 H4]. split; [congruence|eapply angle_eq_trans; eassumption]. Qed.
Lemma drive_same clamp p p' t q : same_pose p p' -> drive clamp p' t q -> drive clamp p t q.
Proof.
  intros S D. inversion D; subst.
  - constructor. eapply same_pose_trans; eassumption.
  - constructor; [eapply same_pose_trans; eassumption|assumption].
  - eapply drive_line with (th := th) (s := s); try assumption; destruct S as [S1 S2]; [congruence|eapply angle_eq_trans; eassumption].
Qed.
Lemma vehicle_eq c a b : angle_eq a b -> same_pose (vehicle_on c a) (vehicle_on c b).
Proof.
  intros H. split; unfold vehicle_on, pt_of_pose; cbn [po_x po_y po_th].
  - rewrite (angle_eq_cos _ _ H), (angle_eq_sin _ _ H). reflexivity.
  - destruct H as [k ->]. exists k. destruct (cs_ori c); ring.
Qed.
(** The end of the arc is the end angle. *)
Lemma arc_exit clamp c : AngleClamp_contract clamp -> same_pose (vehicle_on c (cs_a0 c + arc_len clamp c)) (vehicle_on c (cs_a1 c)).
Proof. intros H. apply vehicle_eq, arc_len_angle, H. Qed.
Lemma drive_circle' clamp p c t q : AngleClamp_contract clamp -> same_pose p (vehicle_on c (cs_a0 c)) -> drive clamp (vehicle_on c (cs_a1 c)) t q -> drive clamp p (SegC c :: t) q.
Proof. intros Hcl H D. constructor; [exact H|]. eapply drive_same; [apply arc_exit, Hcl|exact D]. Qed.

(** ** The ends *)
Lemma trig_m90 a : cos (a - PI / 2) = sin a /\ sin (a - PI / 2) = - cos a.
Proof. unfold Rminus. rewrite cos_plus, sin_plus, cos_neg, sin_neg, cos_PI2, sin_PI2. split; ring. Qed.
Lemma trig_p90 a : cos (a + PI / 2) = - sin a /\ sin (a + PI / 2) = cos a.
Proof. rewrite cos_plus, sin_plus, cos_PI2, sin_PI2. split; ring. Qed.
Lemma trig_pi a : cos (a + PI) = - cos a /\ sin (a + PI) = - sin a.
Proof. rewrite cos_plus, sin_plus, cos_PI, sin_PI. split; ring. Qed.
Lemma vehicle_ends (o : rori) d (q : pose) r a a0 a1 : angle_eq a (match o with LeftC => po_th q - PI / 2 | RightC => po_th q + PI / 2 end) ->
  same_pose q (vehicle_on (CSeg o d (center_for o q r) r a0 a1) a).
Proof.
  intros H. eapply same_pose_trans; [|apply vehicle_eq, angle_eq_sym, H]. destruct (trig_m90 (po_th q)) as [M1 M2]. destruct (trig_p90 (po_th q)) as [P1 P2].
  destruct o; cbn [center_for]; unfold vehicle_on, center_left, center_right, from_polar; cbn [cs_c cs_r cs_ori px py]; (split; [unfold pt_of_pose; cbn [po_x po_y]; rewrite ?M1, ?M2, ?P1, ?P2; f_equal; ring|]); cbn [po_th]; exists 0%Z; ring.
Qed.
Lemma init_first_drive clamp p start c : AngleClamp_contract clamp -> same_pose start (vehicle_on (init_first clamp p start c) (cs_a0 (init_first clamp p start c))).
Proof.
  intros Hcl. unfold init_first, set_start_for, set_start. cbn [cs_with_r cs_with_c cs_ori cs_dir cs_c cs_r cs_a0 cs_a1]. apply vehicle_ends.
  unfold angle_for. cbn [cs_ori]. destruct c as [o d k r x y]; cbn [cs_ori]; destruct o; apply Hcl.
Qed.
Lemma init_last_drive clamp p goal c : AngleClamp_contract clamp -> same_pose goal (vehicle_on (init_last clamp p goal c) (cs_a1 (init_last clamp p goal c))).
Proof.
  intros Hcl. unfold init_last, set_end_for, set_end. cbn [cs_with_r cs_with_c cs_ori cs_dir cs_c cs_r cs_a0 cs_a1]. apply vehicle_ends.
  unfold angle_for. cbn [cs_ori]. destruct c as [o d k r x y]; cbn [cs_ori]; destruct o; apply Hcl.
Qed.

(** ** Tangents *)
Lemma angle_vec v : px v = len v * cos (angle v) /\ py v = len v * sin (angle v).
Proof. unfold angle. rewrite len_hyp. destruct (atan2_polar (py v) (px v)). split; auto. Qed.
Lemma off_vec v r : 0 < len v -> pmul (normalize (ortho v)) r = Pt (r * sin (angle v)) (- (r * cos (angle v))).
Proof.
  intros H. destruct (angle_vec v) as [H1 H2]. unfold normalize, resize.
  assert (L : len (ortho v) = len v) by (rewrite !len_hyp; unfold ortho; cbn [px py]; unfold hyp; f_equal; ring).
  rewrite L. unfold ortho, pmul. cbn [px py].
  assert (Q1 : py v * (1 / len v) = sin (angle v)) by (rewrite H2 at 1; field; lra).
  assert (Q2 : - px v * (1 / len v) = - cos (angle v)) by (rewrite H1 at 1; field; lra).
  rewrite Q1, Q2. f_equal; ring.
Qed.
Lemma pt_plus p q : padd p (psub q p) = q.
Proof. destruct p as [a b], q as [c d]. unfold padd, psub. cbn [px py]. f_equal; ring. Qed.

(** What the helper promises for a line between two circles of the same radius: the
    vehicle that leaves the first circle at its end angle stands at the start of the
    line, its heading along the line, and reaches the second circle at its start
    angle with the right heading. *)
Definition joined_by (dir : rdir) (f' : cseg) (l : lseg) (t' : cseg) : Prop :=
  ls_dir l = dir /\ exists th s, 0 <= s /\
    same_pose (vehicle_on f' (cs_a1 f')) (Pose (px (ls_a l)) (py (ls_a l)) th) /\
    ls_b l = padd (ls_a l) (pmul (dirv th) (match dir with Forward => s | Backward => - s end)) /\
    same_pose (Pose (px (ls_b l)) (py (ls_b l)) th) (vehicle_on t' (cs_a0 t')).

Lemma external_joined clamp f dir t : AngleClamp_contract clamp -> cs_ori f = cs_ori t -> cs_r f = cs_r t -> 0 < len (psub (cs_c t) (cs_c f)) ->
  match external_tangent clamp f dir t with (f', l, t') => joined_by dir f' l t' end.
Proof.
  intros Hcl Ho Hr Hd. destruct f as [o d1 c1 r a0 a1]. destruct t as [o' d2 c2 r' b0 b1]. cbn [cs_ori cs_r cs_c] in *. subst o' r'.
  unfold external_tangent. cbn [cs_ori cs_r cs_c cs_dir]. rewrite (off_vec _ _ Hd). set (v := psub c2 c1) in *. destruct (angle_vec v) as [V1 V2].
  set (A := angle v) in *. set (L := len v) in *.
  set (off := if xorb _ _ then _ else _).
  assert (B : padd c2 off = padd (padd c1 off) (pmul (dirv (A - (if isBwd dir then PI else 0))) (match dir with Forward => L | Backward => - L end))).
  { assert (E1 : px c2 = px c1 + px v) by (unfold v, psub; cbn [px py]; ring). assert (E2 : py c2 = py c1 + py v) by (unfold v, psub; cbn [px py]; ring).
    unfold padd, pmul, dirv. cbn [px py]. rewrite E1, E2, V1, V2. destruct dir; cbn [isBwd].
    - rewrite Rminus_0_r. f_equal; ring.
    - destruct (trig_pi (A - PI)) as [T1 T2]. replace (A - PI + PI) with A in T1, T2 by ring. rewrite T1, T2. f_equal; ring. }
  set (O := A - (if isBwd dir then PI else 0)) in *.
  assert (OFF : off = pmul (dirv (match o with LeftC => O - PI / 2 | RightC => O + PI / 2 end)) r).
  { unfold off, O, pmul, dirv. destruct (trig_m90 A) as [M1 M2]. destruct (trig_p90 A) as [P1 P2]. destruct (trig_m90 (A - PI)) as [M3 M4]. destruct (trig_p90 (A - PI)) as [P3 P4].
    destruct (trig_pi (A - PI)) as [T1 T2]. replace (A - PI + PI) with A in T1, T2 by ring.
    assert (N1 : cos (A - PI) = - cos A) by lra. assert (N2 : sin (A - PI) = - sin A) by lra.
    destruct o, dir; cbn [isBwd xorb px py]; rewrite ?Rminus_0_r, ?M1, ?M2, ?P1, ?P2, ?M3, ?M4, ?P3, ?P4, ?N1, ?N2; f_equal; ring. }
  split; [reflexivity|]. cbn [ls_a ls_b]. exists O, L. split; [apply sqrt_pos|]. split; [|split; [exact B|]].
  - unfold set_end_for, set_end, angle_for. cbn [cs_ori cs_dir cs_c cs_r cs_a0 cs_a1]. eapply same_pose_trans; [apply vehicle_eq, Hcl|].
    rewrite OFF. unfold vehicle_on. cbn [cs_ori cs_c cs_r]. split; [unfold pt_of_pose, padd, pmul, dirv; cbn [po_x po_y px py]; destruct o; f_equal; ring|]. cbn [po_th]. destruct o; exists 0%Z; ring.
  - unfold set_start_for, set_start, angle_for. cbn [cs_ori cs_dir cs_c cs_r cs_a0 cs_a1]. apply same_pose_sym. eapply same_pose_trans; [apply vehicle_eq, Hcl|].
    rewrite OFF. unfold vehicle_on. cbn [cs_ori cs_c cs_r]. split; [unfold pt_of_pose, padd, pmul, dirv; cbn [po_x po_y px py]; destruct o; f_equal; ring|]. cbn [po_th]. destruct o; exists 0%Z; ring.
Qed.

Lemma internal_joined clamp f dir t : AngleClamp_contract clamp -> cs_ori f <> cs_ori t -> cs_r f = cs_r t -> 0 < cs_r f -> 2 * cs_r f <= len (psub (cs_c t) (cs_c f)) ->
  match internal_tangent clamp f dir t with (f', l, t') => joined_by dir f' l t' end.
Proof.
  intros Hcl Ho Hr Hr0 Hd. destruct f as [o d1 c1 r a0 a1]. destruct t as [o' d2 c2 r' b0 b1]. cbn [cs_ori cs_r cs_c] in *. subst r'.
  unfold internal_tangent. cbn [cs_ori cs_r cs_c cs_dir]. set (v := psub c2 c1) in *. destruct (angle_vec v) as [V1 V2].
  set (A := angle v) in *. set (L := len v) in *. assert (HL : 0 < L) by lra. set (g0 := acos ((r + r) / L)) in *.
  assert (X1 : -1 <= (r + r) / L <= 1).
  { split; [apply Rle_trans with 0; [lra|apply Rle_mult_inv_pos; lra]|]. apply (Rmult_le_reg_r L); [assumption|]. unfold Rdiv. rewrite Rmult_assoc, Rinv_l by lra. lra. }
  assert (CG : L * cos g0 = 2 * r) by (unfold g0; rewrite cos_acos by exact X1; field; lra).
  assert (SG : 0 <= sin g0) by (pose proof (acos_bound ((r + r) / L)) as AB; fold g0 in AB; apply sin_ge_0; lra).
  set (g := if isBwd dir then _ else _).
  assert (GC : cos g = cos g0) by (unfold g; destruct o, dir; cbn [isBwd]; rewrite ?Ropp_involutive, ?cos_neg; reflexivity).
  assert (GS : sin g = match o, dir with RightC, Forward | LeftC, Backward => sin g0 | _, _ => - sin g0 end) by (unfold g; destruct o, dir; cbn [isBwd]; rewrite ?Ropp_involutive, ?sin_neg; reflexivity).
  unfold set_end, set_start, cs_end_point. cbn [cs_ori cs_dir cs_c cs_r cs_a0 cs_a1].
  destruct (Hcl (A + g)) as [_ C1]. destruct (Hcl (A + g + PI)) as [_ C2].
  replace (psub (padd c1 (from_polar (clamp (A + g)) r)) c1) with (pmul (dirv (A + g)) r).
  2: { unfold psub, padd, from_polar, pmul, dirv. cbn [px py]. rewrite (angle_eq_cos _ _ C1), (angle_eq_sin _ _ C1). f_equal; ring. }
  set (off := pmul (dirv (A + g)) r) in *. set (th := match o with LeftC => A + g + PI / 2 | RightC => A + g - PI / 2 end).
  split; [reflexivity|]. cbn [ls_a ls_b]. exists th, (L * sin g0). split; [apply Rmult_le_pos; lra|]. 
  assert (E1 : px c2 = px c1 + px v) by (unfold v, psub; cbn [px py]; ring). assert (E2 : py c2 = py c1 + py v) by (unfold v, psub; cbn [px py]; ring).
  destruct (trig_m90 (A + g)) as [M1 M2]. destruct (trig_p90 (A + g)) as [P1 P2]. destruct (trig_pi (A + g)) as [T1 T2].
  assert (CA : cos A = cos (A + g) * cos g + sin (A + g) * sin g) by (rewrite <- cos_minus; f_equal; ring).
  assert (SA : sin A = sin (A + g) * cos g - cos (A + g) * sin g) by (rewrite <- sin_minus; f_equal; ring).
  split; [|split].
  - eapply same_pose_trans; [apply vehicle_eq, C1|]. unfold vehicle_on. cbn [cs_ori cs_c cs_r]. split; [unfold pt_of_pose, padd, off, pmul, dirv; cbn [po_x po_y px py]; f_equal; ring|]. cbn [po_th]. unfold th. destruct o; exists 0%Z; ring.
  - unfold psub, padd, off, pmul, dirv. cbn [px py]. rewrite E1, E2, V1, V2, CA, SA, GC, GS.
    assert (LC : forall x, L * (x * cos g0) = 2 * r * x) by (intros x; rewrite <- CG; ring).
    unfold th. destruct o, dir; rewrite ?M1, ?M2, ?P1, ?P2; f_equal; rewrite ?Rmult_plus_distr_l, ?Rmult_minus_distr_l, ?LC; ring.
  - apply same_pose_sym. eapply same_pose_trans; [apply vehicle_eq, C2|]. unfold vehicle_on. cbn [cs_ori cs_c cs_r]. rewrite T1, T2. split; [unfold pt_of_pose, psub, off, pmul, dirv; cbn [po_x po_y px py]; f_equal; ring|].
    cbn [po_th]. unfold th. destruct o, o'; try congruence; (exists 0%Z; lra) || (exists 1%Z; lra).
Qed.

(** ** Theorems about the helper *)
Theorem C46_helper_line : forall clamp f dir t f' l t', AngleClamp_contract clamp -> cs_r f = cs_r t -> 0 < cs_r f ->
  common_tangent clamp f dir t = Some (f', l, t') -> joined_by dir f' l t' /\
  cs_start_point f' = cs_start_point f /\ cs_end_point t' = cs_end_point t.
Proof.
  intros clamp f dir t f' l t' Hcl Hr Hr0 H. unfold common_tangent in H. destruct (Rlt_dec _ _) as [|D]; [discriminate|].
  assert (LS : len (psub (cs_c t) (cs_c f)) = len (psub (cs_c f) (cs_c t))) by (rewrite !len_hyp; unfold psub; cbn [px py]; unfold hyp; f_equal; ring).
  destruct (ori_eqb (cs_ori f) (cs_ori t)) eqn:O.
  - assert (E : external_tangent clamp f dir t = (f', l, t')) by congruence.
    assert (HO : cs_ori f = cs_ori t) by (destruct (cs_ori f), (cs_ori t); try discriminate; reflexivity).
    pose proof (external_joined clamp f dir t Hcl HO Hr ltac:(rewrite LS; lra)) as J. rewrite E in J. split; [exact J|].
    unfold external_tangent in E. cbv zeta in E. match type of E with (?x, _, ?y) = _ => assert (Q : f' = x /\ t' = y) by (split; congruence) end. destruct Q as [-> ->]. split; reflexivity.
  - assert (E : internal_tangent clamp f dir t = (f', l, t')) by congruence.
    assert (HO : cs_ori f <> cs_ori t) by (destruct (cs_ori f), (cs_ori t); try discriminate; congruence).
    pose proof (internal_joined clamp f dir t Hcl HO Hr Hr0 ltac:(rewrite LS; lra)) as J. rewrite E in J. split; [exact J|].
    unfold internal_tangent in E. cbv zeta in E. match type of E with (?x, _, ?y) = _ => assert (Q : f' = x /\ t' = y) by (split; congruence) end. destruct Q as [-> ->]. split; reflexivity.
Qed.

(** Two circles of radius r whose centres are 2r apart in direction [al]: the vehicle
    changes from one to the other iff they turn in opposite directions. *)
Definition opp_ori (a b : rori) : Prop := a <> b.
Lemma kiss o1 d1 o2 d2 c1 c2 r al x1 y1 x2 y2 A B : psub c2 c1 = pmul (dirv al) (2 * r) -> angle_eq A al -> angle_eq B (al + PI) -> o1 <> o2 ->
  same_pose (vehicle_on (CSeg o1 d1 c1 r x1 y1) A) (vehicle_on (CSeg o2 d2 c2 r x2 y2) B).
Proof.
  intros Hc HA HB Ho. eapply same_pose_trans; [apply vehicle_eq, HA|]. apply same_pose_sym. eapply same_pose_trans; [apply vehicle_eq, HB|].
  destruct (trig_pi al) as [T1 T2]. unfold psub, pmul, dirv in Hc. injection Hc as H1 H2. cbn [px py] in H1, H2.
  unfold vehicle_on. cbn [cs_ori cs_c cs_r]. split.
  - unfold pt_of_pose. cbn [po_x po_y]. rewrite T1, T2. f_equal; lra.
  - cbn [po_th]. destruct o1, o2; try congruence; (exists 0%Z; lra) || (exists 1%Z; lra).
Qed.

Lemma vec_angle v r : 0 < r -> len v = r -> v = pmul (dirv (angle v)) r.
Proof. intros H1 H2. destruct (angle_vec v) as [V1 V2]. destruct v as [x y]. unfold pmul, dirv. cbn [px py] in *. rewrite H2 in V1, V2. set (A := angle _) in *. clearbody A. f_equal; lra. Qed.
Lemma len_polar a r : 0 <= r -> len (from_polar a r) = r.
Proof. intros H. rewrite len_hyp. unfold from_polar. cbn [px py]. apply hyp_unique; [assumption|]. pose proof (sin2_cos2 a) as S. unfold Rsqr in S. nra. Qed.

(** Three circles: the middle one touches both others, for both solutions. *)
Theorem C46_helper_three : forall clamp pos c1 c2 c3 x y z, AngleClamp_contract clamp ->
  0 < cs_r c1 -> cs_r c2 = cs_r c1 -> cs_r c3 = cs_r c1 -> len (psub (cs_c c3) (cs_c c1)) <= 4 * cs_r c1 ->
  cs_ori c1 <> cs_ori c2 -> cs_ori c2 <> cs_ori c3 -> tangential_circle clamp pos c1 c2 c3 = (x, y, z) ->
  same_pose (vehicle_on x (cs_a1 x)) (vehicle_on y (cs_a0 y)) /\ same_pose (vehicle_on y (cs_a1 y)) (vehicle_on z (cs_a0 z)) /\
  cs_start_point x = cs_start_point c1 /\ cs_end_point z = cs_end_point c3.
Proof.
  intros clamp pos [o1 d1 s r a1 b1] [o2 d2 s2 r2 a2 b2] [o3 d3 g r3 a3 b3] x y z Hcl Hr E2 E3 Hd O12 O23 T. cbn [cs_ori cs_r cs_c] in *. subst r2 r3.
  unfold tangential_circle in T. cbv zeta in T. unfold set_start, set_end, cs_with_c in T. cbn [cs_ori cs_dir cs_c cs_r cs_a0 cs_a1] in T.
  set (v := psub g s) in *. destruct (angle_vec v) as [V1 V2]. set (L := len v) in *. set (A := angle v) in *.
  set (ga := if pos then acos (L / 2 / (2 * r)) else _) in *. set (C := padd s (from_polar (ga + A) (2 * r))) in *.
  match type of T with (?u1, ?u2, ?u3) = _ => assert (Q : x = u1 /\ y = u2 /\ z = u3) by (repeat split; congruence) end. clear T. destruct Q as (-> & -> & ->).
  assert (L0 : 0 <= L) by apply sqrt_pos.
  assert (CG : 4 * r * cos ga = L).
  { assert (CC : cos ga = cos (acos (L / 2 / (2 * r)))) by (unfold ga; destruct pos; [reflexivity|apply cos_neg]). rewrite CC, cos_acos; [field; lra|].
    split; [apply Rle_trans with 0; [lra|apply Rle_mult_inv_pos; lra]|]. apply (Rmult_le_reg_r (2 * r)); [lra|]. unfold Rdiv at 1. rewrite Rmult_assoc, Rinv_l by lra. lra. }
  assert (D1 : psub C s = from_polar (ga + A) (2 * r)) by (unfold C, psub, padd, from_polar; cbn [px py]; f_equal; ring).
  assert (L1 : len (psub C s) = 2 * r) by (rewrite D1; apply len_polar; lra).
  assert (L2 : len (psub C g) = 2 * r).
  { rewrite len_hyp. apply hyp_unique; [lra|]. unfold C, psub, padd, from_polar. cbn [px py].
    assert (G1 : px g = px s + L * cos A) by (rewrite <- V1; unfold v, psub; cbn [px py]; ring). assert (G2 : py g = py s + L * sin A) by (rewrite <- V2; unfold v, psub; cbn [px py]; ring).
    rewrite G1, G2, <- CG, cos_plus, sin_plus. pose proof (sin2_cos2 A) as S1. pose proof (sin2_cos2 ga) as S2. unfold Rsqr in S1, S2.
    set (ca := cos A) in *. set (sa := sin A) in *. set (cg := cos ga) in *. set (sg := sin ga) in *.
    replace ((px s + (cg * ca - sg * sa) * (2 * r) - (px s + 4 * r * cg * ca)) * (px s + (cg * ca - sg * sa) * (2 * r) - (px s + 4 * r * cg * ca)) + (py s + (sg * ca + cg * sa) * (2 * r) - (py s + 4 * r * cg * sa)) * (py s + (sg * ca + cg * sa) * (2 * r) - (py s + 4 * r * cg * sa)))
      with (2 * r * (2 * r) * ((sa * sa + ca * ca) * (sg * sg + cg * cg))) by ring. rewrite S1, S2. ring. }
  destruct (Hcl (angle (psub C s))) as [_ K1]. destruct (Hcl (angle (psub C g))) as [_ K2].
  destruct (Hcl (clamp (angle (psub C s)) + PI)) as [_ K3]. destruct (Hcl (clamp (angle (psub C g)) + PI)) as [_ K4].
  split; [|split; [|split; reflexivity]].
  - cbn [cs_a0 cs_a1]. eapply kiss; [apply vec_angle; [lra|exact L1]|exact K1| |exact O12]. eapply angle_eq_trans; [exact K3|]. apply angle_eq_plus; [exact K1|apply angle_eq_refl].
  - cbn [cs_a0 cs_a1]. apply same_pose_sym. eapply kiss; [apply vec_angle; [lra|exact L2]|exact K2| |congruence]. eapply angle_eq_trans; [exact K4|]. apply angle_eq_plus; [exact K2|apply angle_eq_refl].
Qed.

(** Four circles. *)
Theorem C46_helper_four : forall clamp pos c1 c2 c3 c4 x y z u, AngleClamp_contract clamp ->
  0 < cs_r c1 -> cs_r c2 = cs_r c1 -> cs_r c3 = cs_r c1 -> cs_r c4 = cs_r c1 -> len (psub (cs_c c4) (cs_c c1)) <= 6 * cs_r c1 ->
  cs_ori c1 <> cs_ori c2 -> cs_ori c2 <> cs_ori c3 -> cs_ori c3 <> cs_ori c4 -> tangential_double_circle clamp pos c1 c2 c3 c4 = (x, y, z, u) ->
  same_pose (vehicle_on x (cs_a1 x)) (vehicle_on y (cs_a0 y)) /\ same_pose (vehicle_on y (cs_a1 y)) (vehicle_on z (cs_a0 z)) /\ same_pose (vehicle_on z (cs_a1 z)) (vehicle_on u (cs_a0 u)) /\
  cs_start_point x = cs_start_point c1 /\ cs_end_point u = cs_end_point c4.
Proof.
  intros clamp pos [o1 d1 s r a1 b1] [o2 d2 s2 r2 a2 b2] [o3 d3 s3 r3 a3 b3] [o4 d4 g r4 a4 b4] x y z u Hcl Hr E2 E3 E4 Hd O12 O23 O34 T. cbn [cs_ori cs_r cs_c] in *. subst r2 r3 r4.
  unfold tangential_double_circle in T. cbv zeta in T. unfold set_start, set_end, cs_with_c in T. cbn [cs_ori cs_dir cs_c cs_r cs_a0 cs_a1] in T.
  set (v := psub g s) in *. destruct (angle_vec v) as [V1 V2]. set (L := len v) in *. set (A := angle v) in *.
  set (ga := if pos then acos ((L / 2 - r) / (2 * r)) else _) in *. set (C2 := padd s (from_polar (ga + A) (2 * r))) in *. set (C3 := padd C2 (from_polar A (2 * r))) in *.
  match type of T with (?u1, ?u2, ?u3, ?u4) = _ => assert (Q : x = u1 /\ y = u2 /\ z = u3 /\ u = u4) by (repeat split; congruence) end. clear T. destruct Q as (-> & -> & -> & ->).
  assert (L0 : 0 <= L) by apply sqrt_pos.
  assert (CG : L = 4 * r * cos ga + 2 * r).
  { assert (CC : cos ga = cos (acos ((L / 2 - r) / (2 * r)))) by (unfold ga; destruct pos; [reflexivity|apply cos_neg]). rewrite CC, cos_acos; [field; lra|].
    split; apply (Rmult_le_reg_r (2 * r)); try lra; unfold Rdiv at 1; rewrite Rmult_assoc, Rinv_l by lra; lra. }
  assert (D1 : psub C2 s = from_polar (ga + A) (2 * r)) by (unfold C2, psub, padd, from_polar; cbn [px py]; f_equal; ring).
  assert (D2 : psub C3 C2 = from_polar A (2 * r)) by (unfold C3, psub, padd, from_polar; cbn [px py]; f_equal; ring).
  assert (L1 : len (psub C2 s) = 2 * r) by (rewrite D1; apply len_polar; lra).
  assert (L2 : len (psub C3 g) = 2 * r).
  { rewrite len_hyp. apply hyp_unique; [lra|]. unfold C3, C2, psub, padd, from_polar. cbn [px py].
    assert (G1 : px g = px s + L * cos A) by (rewrite <- V1; unfold v, psub; cbn [px py]; ring). assert (G2 : py g = py s + L * sin A) by (rewrite <- V2; unfold v, psub; cbn [px py]; ring).
    rewrite G1, G2, CG, cos_plus, sin_plus. pose proof (sin2_cos2 A) as S1. pose proof (sin2_cos2 ga) as S2. unfold Rsqr in S1, S2.
    set (ca := cos A) in *. set (sa := sin A) in *. set (cg := cos ga) in *. set (sg := sin ga) in *.
    match goal with |- _ = ?R => replace R with (2 * r * (2 * r) * ((sa * sa + ca * ca) * (sg * sg + cg * cg))) by ring end. rewrite S1, S2. ring. }
  destruct (Hcl (angle (psub C2 s))) as [_ K1]. destruct (Hcl (angle (psub C3 g))) as [_ K2].
  destruct (Hcl (clamp (angle (psub C2 s)) + PI)) as [_ K3]. destruct (Hcl (clamp (angle (psub C3 g)) + PI)) as [_ K4].
  destruct (Hcl (angle (from_polar A (2 * r)))) as [_ K5]. destruct (Hcl (angle (from_polar A (2 * r)) + PI)) as [_ K6].
  split; [|split; [|split; [|split; reflexivity]]].
  - cbn [cs_a0 cs_a1]. eapply kiss; [apply vec_angle; [lra|exact L1]|exact K1| |exact O12]. eapply angle_eq_trans; [exact K3|]. apply angle_eq_plus; [exact K1|apply angle_eq_refl].
  - cbn [cs_a0 cs_a1]. eapply kiss; [rewrite D2; apply vec_angle; [lra|apply len_polar; lra]|exact K5|exact K6|exact O23].
  - cbn [cs_a0 cs_a1]. apply same_pose_sym. eapply kiss; [apply vec_angle; [lra|exact L2]|exact K2| |congruence]. eapply angle_eq_trans; [exact K4|]. apply angle_eq_plus; [exact K2|apply angle_eq_refl].
Qed.

(** ** C56: the whole curve *)
(** Neighbouring circles turn in opposite directions. *)
Fixpoint alternates (sq : list seg) : Prop :=
  match sq with
  | SegC a :: (SegC b :: _) as t => cs_ori a <> cs_ori b /\ alternates t
  | _ :: t => alternates t
  | [] => True
  end.
Lemma vehicle_start c : vehicle_on c (cs_a0 c) = Pose (px (cs_start_point c)) (py (cs_start_point c)) (po_th (vehicle_on c (cs_a0 c))).
Proof. unfold vehicle_on, cs_start_point, padd, from_polar. cbn [px py po_th]. f_equal; ring. Qed.

(** A candidate that is not blocked leads from the start pose to the goal pose. *)
Theorem C56_drive : forall clamp m p ignore start goal sq sq' w, AngleClamp_contract clamp -> 0 < rp_radius p -> alternates sq ->
  admissible clamp m p ignore start goal sq = Some (sq', w) -> w < NOT_FREE -> drive clamp start sq' goal.
Proof.
  intros clamp m p ignore start goal sq sq' w Hcl Hr Hal H L. apply C38_candidate in H; [|exact L]. destruct H as (_ & _ & H).
  destruct H as [(c1 & l & c3 & a & b & c & -> & T & ->)|[(c1 & c2 & c3 & wp & wn & -> & B & _ & _ & -> & _)|(c1 & c2 & c3 & c4 & wp & wn & -> & B & _ & _ & -> & _)]].
  - destruct (C46_helper_line clamp (init_first clamp p start c1) (ls_dir l) (init_last clamp p goal c3) a b c Hcl ltac:(reflexivity) Hr T) as [[Jd (th & s & S0 & J1 & J2 & J3)] _].
    assert (F : cs_ori a = cs_ori (init_first clamp p start c1) /\ cs_c a = cs_c (init_first clamp p start c1) /\ cs_r a = cs_r (init_first clamp p start c1) /\ cs_a0 a = cs_a0 (init_first clamp p start c1) /\
                cs_ori c = cs_ori (init_last clamp p goal c3) /\ cs_c c = cs_c (init_last clamp p goal c3) /\ cs_r c = cs_r (init_last clamp p goal c3) /\ cs_a1 c = cs_a1 (init_last clamp p goal c3)).
    { unfold common_tangent in T. destruct (Rlt_dec _ _); [discriminate|]. destruct (ori_eqb _ _).
      - unfold external_tangent in T. match type of T with Some (?x, _, ?y) = _ => assert (Q : a = x /\ c = y) by (split; congruence) end. destruct Q as [-> ->]. repeat split.
      - unfold internal_tangent in T. match type of T with Some (?x, _, ?y) = _ => assert (Q : a = x /\ c = y) by (split; congruence) end. destruct Q as [-> ->]. repeat split. }
    destruct F as (F1 & F2 & F3 & F4 & F5 & F6 & F7 & F8).
    apply drive_circle'; [exact Hcl| |].
    + eapply same_pose_trans; [apply (init_first_drive clamp p start c1 Hcl)|]. unfold vehicle_on. rewrite F1, F2, F3, F4. apply same_pose_refl.
    + eapply drive_line with (th := th) (s := s); [exact S0| | | |].
      * destruct J1 as [J1 _]. rewrite J1. unfold pt_of_pose. cbn [po_x po_y]. destruct (ls_a b); reflexivity.
      * apply J1.
      * rewrite Jd. exact J2.
      * apply drive_circle'; [exact Hcl|exact J3|]. constructor. apply same_pose_sym. eapply same_pose_trans; [apply (init_last_drive clamp p goal c3 Hcl)|]. unfold vehicle_on. rewrite F5, F6, F7, F8. apply same_pose_refl.
  - cbn [alternates] in Hal. destruct Hal as (A1 & A2 & _). unfold c3_curve. destruct (tangential_circle _ _ _ _ _) as [[x y] z] eqn:T.
    edestruct (C46_helper_three clamp (Rltb wp wn) (init_first clamp p start c1) (init_mid p c2) (init_last clamp p goal c3) x y z Hcl Hr eq_refl eq_refl) as (J1 & J2 & _); [| | |exact T|].
    { cbn [cs_r init_first set_start_for set_start cs_with_c cs_with_r]. replace (len (psub (cs_c (init_last clamp p goal c3)) (cs_c (init_first clamp p start c1)))) with (len (psub (cs_c (init_first clamp p start c1)) (cs_c (init_last clamp p goal c3)))); [apply B|].
      rewrite !len_hyp; unfold psub; cbn [px py]; unfold hyp; f_equal; ring. }
    { exact A1. } { exact A2. }
    assert (F : vehicle_on x (cs_a0 x) = vehicle_on (init_first clamp p start c1) (cs_a0 (init_first clamp p start c1)) /\ vehicle_on z (cs_a1 z) = vehicle_on (init_last clamp p goal c3) (cs_a1 (init_last clamp p goal c3))).
    { unfold tangential_circle in T. cbv zeta in T. match type of T with (?u1, ?u2, ?u3) = _ => assert (Q : x = u1 /\ z = u3) by (repeat split; congruence) end. destruct Q as (-> & ->). split; reflexivity. }
    destruct F as [F1 F2]. apply drive_circle'; [exact Hcl|rewrite F1; apply init_first_drive, Hcl|]. apply drive_circle'; [exact Hcl|exact J1|]. apply drive_circle'; [exact Hcl|exact J2|].
    constructor. rewrite F2. apply same_pose_sym, init_last_drive, Hcl.
  - cbn [alternates] in Hal. destruct Hal as (A1 & A2 & A3 & _). unfold c4_curve. destruct (tangential_double_circle _ _ _ _ _ _) as [[[x y] z] u] eqn:T.
    edestruct (C46_helper_four clamp (Rltb wp wn) (init_first clamp p start c1) (init_mid p c2) (init_mid p c3) (init_last clamp p goal c4) x y z u Hcl Hr eq_refl eq_refl eq_refl) as (J1 & J2 & J3 & _); [| | | |exact T|].
    { cbn [cs_r init_first set_start_for set_start cs_with_c cs_with_r]. replace (len (psub (cs_c (init_last clamp p goal c4)) (cs_c (init_first clamp p start c1)))) with (len (psub (cs_c (init_first clamp p start c1)) (cs_c (init_last clamp p goal c4)))); [apply B|].
      rewrite !len_hyp; unfold psub; cbn [px py]; unfold hyp; f_equal; ring. }
    { exact A1. } { exact A2. } { exact A3. }
    assert (F : vehicle_on x (cs_a0 x) = vehicle_on (init_first clamp p start c1) (cs_a0 (init_first clamp p start c1)) /\ vehicle_on u (cs_a1 u) = vehicle_on (init_last clamp p goal c4) (cs_a1 (init_last clamp p goal c4))).
    { unfold tangential_double_circle in T. cbv zeta in T. match type of T with (?u1, ?u2, ?u3, ?u4) = _ => assert (Q : x = u1 /\ u = u4) by (repeat split; congruence) end. destruct Q as (-> & ->). split; reflexivity. }
    destruct F as [F1 F2]. apply drive_circle'; [exact Hcl|rewrite F1; apply init_first_drive, Hcl|]. apply drive_circle'; [exact Hcl|exact J1|]. apply drive_circle'; [exact Hcl|exact J2|]. apply drive_circle'; [exact Hcl|exact J3|].
    constructor. rewrite F2. apply same_pose_sym, init_last_drive, Hcl.
Qed.

(** Refuted: nothing makes the circles of a pattern alternate. The pattern "LLL" is
    accepted, and the vehicle would have to turn round on the spot. *)
Lemma pi_not_0 a : ~ angle_eq a (a + PI).
Proof.
  intros [k H]. pose proof PI_RGT_0. assert (IZR (2 * k + 1) = 0) by (rewrite plus_IZR, mult_IZR; nra). apply (eq_IZR _ 0) in H1. lia.
Qed.
Lemma no_turn clamp x y t p q : AngleClamp_contract clamp -> cs_ori x = cs_ori y -> angle_eq (cs_a0 y) (cs_a1 x + PI) -> ~ drive clamp p (SegC x :: SegC y :: t) q.
Proof.
  intros Hcl Ho Ha D. inversion D as [|? ? ? ? S1 D1|]; subst. inversion D1 as [|? ? ? ? S2 D2|]; subst.
  assert (S : same_pose (vehicle_on x (cs_a1 x)) (vehicle_on y (cs_a1 x + PI))).
  { eapply same_pose_trans; [apply same_pose_sym, arc_exit, Hcl|]. eapply same_pose_trans; [exact S2|]. apply vehicle_eq, Ha. }
  destruct S as [_ S]. unfold vehicle_on in S. cbn [po_th] in S. rewrite Ho in S. destruct S as [k S]. apply (pi_not_0 (cs_a1 x)). exists k. destruct (cs_ori y); lra.
Qed.
Lemma cast_pos d : 0 <= d < 1000 -> exists z, cast_i32 d = Some z.
Proof.
  intros H. exists (Ztrunc d). unfold cast_i32. cbv zeta. unfold in_i32. assert ((0 <= Ztrunc d < 1000)%Z).
  { rewrite Ztrunc_floor by lra. split; [apply Zfloor_lub; lra|]. apply lt_IZR. pose proof (Zfloor_lb d). lra. }
  replace ((-2147483648 <=? Ztrunc d)%Z && (Ztrunc d <? 2147483648)%Z) with true by lia. reflexivity.
Qed.
Definition lll : list seg := [SegC (CSeg LeftC Forward (Pt 0 0) 0 0 0); SegC (CSeg LeftC Forward (Pt 0 0) 0 0 0); SegC (CSeg LeftC Forward (Pt 0 0) 0 0 0)].
Lemma ignore_weight m c : 0 <= px (cs_c c) < 1000 -> 0 <= py (cs_c c) < 1000 -> cs_r c = 2 -> exists w, circle_weight clamp_ref m ex_par c true = Some w /\ 0 <= w <= 16.
Proof.
  intros Hx Hy Hr. destruct (cast_pos _ Hx) as [cx Cx]. destruct (cast_pos _ Hy) as [cy Cy].
  assert (Cr : cast_i32 (cs_r c) = Some 2%Z) by (rewrite Hr; unfold cast_i32; rewrite (Ztrunc_IZR 2); reflexivity).
  destruct (C41_weight clamp_ref m ex_par c true cx cy 2 clamp_ref_halfopen ltac:(cbn; lra) Cx Cy Cr ltac:(lia)) as (w & cells & E & _ & _ & _ & F).
  exists w. split; [exact E|]. rewrite F by (left; reflexivity). cbn [ex_par rp_use_map]. unfold cs_length, cs_arc. rewrite Hr.
  assert (D : dir_cost ex_par (cs_dir c) = 1) by (destruct (cs_dir c); reflexivity). fold ex_par. rewrite D. cbn [ex_par rp_curve].
  assert (Rabs (arc_len clamp_ref c) <= 2 * PI). { destruct (arc_len_cases clamp_ref c clamp_ref_ok) as [[_ B]|[_ B]]; [rewrite Rabs_pos_eq by lra|rewrite Rabs_left by lra]; lra. }
  pose proof (Rabs_pos (arc_len clamp_ref c)). pose proof PI_4. lra.
Qed.
Theorem C56_jump_refuted : exists sq' w,
  admissible clamp_ref (free_rmap 40 40) ex_par true (Pose 10 10 0) (Pose 16 10 0) lll = Some (sq', w) /\ w < NOT_FREE /\
  ~ drive clamp_ref (Pose 10 10 0) sq' (Pose 16 10 0).
Proof.
  assert (CL : forall k, center_for LeftC (Pose (IZR k) 10 0) 2 = Pt (IZR k) 12).
  { intros k. unfold center_for, center_left, from_polar. cbn [po_th po_x po_y px py]. rewrite Rplus_0_l, cos_PI2, sin_PI2. f_equal; lra. }
  set (k0 := CSeg LeftC Forward (Pt 0 0) 0 0 0).
  assert (F1 : cs_c (init_first clamp_ref ex_par (Pose 10 10 0) k0) = Pt 10 12) by apply (CL 10%Z).
  assert (F2 : cs_c (init_last clamp_ref ex_par (Pose 16 10 0) k0) = Pt 16 12) by apply (CL 16%Z).
  assert (W : forall b, exists w, sum_weights clamp_ref (free_rmap 40 40) ex_par true (c3_curve clamp_ref ex_par (Pose 10 10 0) (Pose 16 10 0) k0 k0 k0 b) = Some w /\ 0 <= w <= 48).
  { intros b. unfold c3_curve. destruct (tangential_circle _ _ _ _ _) as [[x y] z] eqn:T. unfold tangential_circle in T. cbv zeta in T. rewrite F1, F2 in T. change (cs_r (init_first clamp_ref ex_par (Pose 10 10 0) k0)) with 2 in T.
    match type of T with (?u1, ?u2, ?u3) = _ => assert (Q : x = u1 /\ y = u2 /\ z = u3) by (repeat split; congruence) end. clear T. destruct Q as (Qx & Qy & Qz).
    destruct (ignore_weight (free_rmap 40 40) x) as (wx & Ex & Bx); [rewrite Qx; unfold set_end; cbn [cs_c]; rewrite F1; cbn; lra|rewrite Qx; unfold set_end; cbn [cs_c]; rewrite F1; cbn; lra|rewrite Qx; reflexivity|].
    destruct (ignore_weight (free_rmap 40 40) z) as (wz & Ez & Bz); [rewrite Qz; unfold set_start; cbn [cs_c]; rewrite F2; cbn; lra|rewrite Qz; unfold set_start; cbn [cs_c]; rewrite F2; cbn; lra|rewrite Qz; reflexivity|].
    destruct (ignore_weight (free_rmap 40 40) y) as (wy & Ey & By).
    { rewrite Qy. unfold set_start, set_end, cs_with_c, padd, from_polar. cbn [cs_c px py]. match goal with |- context [cos ?u] => pose proof (COS_bound u) end. lra. }
    { rewrite Qy. unfold set_start, set_end, cs_with_c, padd, from_polar. cbn [cs_c px py]. match goal with |- context [sin ?u] => pose proof (SIN_bound u) end. lra. }
    { rewrite Qy. reflexivity. }
    exists (wx + (wy + (wz + 0))). split; [cbn [sum_weights]; rewrite Ex, Ey, Ez; reflexivity|lra]. }
  destruct (W true) as (wp & Ep & Bp). destruct (W false) as (wn & En & Bn).
  exists (c3_curve clamp_ref ex_par (Pose 10 10 0) (Pose 16 10 0) k0 k0 k0 (Rltb wp wn)), (Rmin wp wn).
  assert (LW : Rmin wp wn < NOT_FREE) by (unfold Rmin, NOT_FREE; destruct (Rle_dec wp wn); lra). split; [|split; [exact LW|]].
  - apply C38_candidate; [exact LW|]. split; [unfold pose_dist; cbn [po_x po_y]; apply Rsqr_incr_0_var; [unfold Rsqr; rewrite sqrt_sqrt; lra|apply sqrt_pos]|].
    split; [destruct (Rltb wp wn) eqn:Q; [apply Rltb_spec in Q; rewrite Rmin_left by lra; exact Ep|apply Rltb_false in Q; rewrite Rmin_right by lra; exact En]|].
    right. left. exists k0, k0, k0, wp, wn. split; [reflexivity|]. split; [|split; [exact Ep|split; [exact En|split; reflexivity]]].
    rewrite F1, F2. assert (len (psub (Pt 10 12) (Pt 16 12)) = 6) as -> by (rewrite len_hyp; unfold psub; cbn [px py]; apply hyp_unique; lra). cbn [ex_par rp_radius]. lra.
  - unfold c3_curve. destruct (tangential_circle _ _ _ _ _) as [[x y] z] eqn:T. unfold tangential_circle in T. cbv zeta in T.
    match type of T with (?u1, ?u2, ?u3) = _ => assert (Q : x = u1 /\ y = u2 /\ z = u3) by (repeat split; congruence) end. clear T. destruct Q as (Qx & Qy & _).
    apply no_turn; [exact clamp_ref_ok|rewrite Qx, Qy; reflexivity|]. rewrite Qy, Qx. unfold set_start, set_end, cs_with_c. cbn [cs_a0 cs_a1]. apply clamp_ref_ok.
Qed.

(** Refuted: a straight drive between poses nearer than two diameters is not found by
    the pattern made for it, although it would be the curve asked for. *)
Theorem C56_overlap_refuted : forall m ignore,
  let start := Pose 10 10 0 in let goal := Pose (125 / 10) 10 0 in
  (exists sq', admissible clamp_ref m ex_par ignore start goal ex_seg = Some (sq', NOT_FREE)) /\
  exists q, drive clamp_ref start [SegC (CSeg LeftC Forward (Pt 10 12) 2 q q); SegL (LS Forward (Pt 10 10) (Pt (125 / 10) 10)); SegC (CSeg LeftC Forward (Pt (125 / 10) 12) 2 q q)] goal.
Proof.
  intros m ignore start goal.
  assert (CL : forall k, center_for LeftC (Pose k 10 0) 2 = Pt k 12).
  { intros k. unfold center_for, center_left, from_polar. cbn [po_th po_x po_y px py]. rewrite Rplus_0_l, cos_PI2, sin_PI2. f_equal; lra. }
  split.
  - eexists. unfold ex_seg. rewrite admissible_csc.
    + unfold common_tangent. set (k0 := CSeg LeftC Forward (Pt 0 0) 0 0 0).
      assert (F1 : cs_c (init_first clamp_ref ex_par start k0) = Pt 10 12) by apply (CL 10).
      assert (F2 : cs_c (init_last clamp_ref ex_par goal k0) = Pt (125 / 10) 12) by apply (CL (125 / 10)).
      rewrite F1, F2. assert (len (psub (Pt 10 12) (Pt (125 / 10) 12)) = 25 / 10) as -> by (rewrite len_hyp; unfold psub; cbn [px py]; apply hyp_unique; lra).
      change (cs_r (init_first clamp_ref ex_par start k0)) with 2. change (cs_r (init_last clamp_ref ex_par goal k0)) with 2. destruct (Rlt_dec (25 / 10) (2 + 2)); [reflexivity|lra].
    + unfold pose_dist, start, goal. cbn [po_x po_y]. apply Rsqr_incr_0_var; [unfold Rsqr; rewrite sqrt_sqrt; lra|apply sqrt_pos].
  - set (q := 0 - PI / 2). exists q. destruct (trig_m90 0) as [M1 M2]. rewrite cos_0, sin_0 in *.
    assert (V : forall k, same_pose (Pose k 10 0) (vehicle_on (CSeg LeftC Forward (Pt k 12) 2 q q) q)).
    { intros k. unfold vehicle_on. cbn [cs_c cs_r cs_ori px py]. unfold q. rewrite M1, M2. split; [unfold pt_of_pose; cbn [po_x po_y]; f_equal; lra|]. cbn [po_th]. exists 0%Z. lra. }
    apply drive_circle'; [exact clamp_ref_ok|apply V|]. cbn [cs_a1]. eapply drive_same; [apply same_pose_sym, V|].
    eapply drive_line with (th := 0) (s := 25 / 10); [lra|reflexivity|apply angle_eq_refl| |].
    { unfold padd, pmul, dirv. cbn [ls_a ls_b ls_dir px py]. rewrite cos_0, sin_0. f_equal; lra. }
    cbn [ls_b px py]. apply drive_circle'; [exact clamp_ref_ok|apply V|]. constructor. apply same_pose_sym, V.
Qed.
(** The example candidate of C38 satisfies the hypotheses of [C56_drive]. *)
Example C56_example : alternates ex_seg /\ 0 < rp_radius ex_par /\ exists sq', drive clamp_ref (Pose 10 10 0) sq' (Pose 20 10 0).
Proof.
  split; [cbn; tauto|]. split; [cbn; lra|]. destruct C38_example as (sq' & E & _). exists sq'. eapply C56_drive; [exact clamp_ref_ok| | |exact E|unfold NOT_FREE; lra]; [|exact I]. cbn. lra.
Qed.
