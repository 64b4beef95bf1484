(** C41, C42: the circle segments of a Reeds-Shepp curve. *)
From Coq Require Import Reals Lra.
From Flocq Require Import Core.Raux.
From Verif Require Import Base GeomR PropGeom RSParse RSModel PropLine.
Local Open Scope R_scope.

(** ** Specification *)
(** Contract of NORMALIZE (the external MathHelper::AngleClamp) with the range the
    comparison of angles needs. *)
Definition Clamp_halfopen (clamp : R -> R) : Prop := forall a, - PI < clamp a <= PI /\ angle_eq (clamp a) a.
Lemma halfopen_contract clamp : Clamp_halfopen clamp -> AngleClamp_contract clamp.
Proof. intros H a. destruct (H a) as [H1 H2]. split; [lra|exact H2]. Qed.
Lemma clamp_ref_halfopen : Clamp_halfopen clamp_ref.
Proof. intros a. split; [apply atan2_range|apply clamp_ref_ok]. Qed.

(** The point of the circle in direction [a], and the direction in which the vehicle
    moves there: left turns circle anticlockwise when driven forward, and so on. *)
Definition on_circ (c : cseg) (a : R) : pt := Pt (px (cs_c c) + cs_r c * cos a) (py (cs_c c) + cs_r c * sin a).
Definition anticlockwise (c : cseg) : Prop :=
  (cs_ori c = LeftC /\ cs_dir c = Forward) \/ (cs_ori c = RightC /\ cs_dir c = Backward).
(** [a] is a direction the segment passes when it drives its arc length. *)
Definition passes (clamp : R -> R) (c : cseg) (a : R) : Prop :=
  exists t, 0 <= t <= 1 /\ angle_eq a (cs_a0 c + t * arc_len clamp c).

(** ** C42 *)
Lemma mbp c : must_be_positive c = true <-> anticlockwise c.
Proof. unfold must_be_positive, anticlockwise. destruct (cs_ori c), (cs_dir c); cbn; split; intros; try discriminate; try tauto; intuition discriminate. Qed.
Lemma arc_len_cases clamp c : AngleClamp_contract clamp ->
  (anticlockwise c /\ 0 <= arc_len clamp c < 2 * PI) \/ (~ anticlockwise c /\ - (2 * PI) <= arc_len clamp c < 0).
Proof.
  intros Hcl. destruct (Hcl (cs_a1 c - cs_a0 c)) as [B _]. pose proof PI_RGT_0 as HP. unfold arc_len. cbv zeta.
  set (a := clamp (cs_a1 c - cs_a0 c)) in *. clearbody a. destruct (must_be_positive c) eqn:M.
  - left. split; [apply mbp, M|]. cbn [andb negb]. destruct (Rleb 0 a) eqn:P; [apply Rleb_spec in P|apply Rleb_false in P]; cbn [negb]; lra.
  - right. split; [intros H; apply mbp in H; congruence|]. cbn [andb negb]. destruct (Rleb 0 a) eqn:P; [apply Rleb_spec in P|apply Rleb_false in P]; lra.
Qed.
Lemma arc_len_angle clamp c : AngleClamp_contract clamp -> angle_eq (cs_a0 c + arc_len clamp c) (cs_a1 c).
Proof.
  intros Hcl. destruct (Hcl (cs_a1 c - cs_a0 c)) as [_ [k E]]. unfold arc_len. cbv zeta. rewrite E.
  destruct (_ && _); [exists (k + 1)%Z; rewrite plus_IZR; ring|]. destruct (_ && _); [exists (k - 1)%Z; rewrite minus_IZR; ring|exists k; ring].
Qed.

(** The arc length has the sign of the turn, at most a full circle, and leads from the
    start to the end point. *)
Theorem C42_arc : forall clamp c, AngleClamp_contract clamp ->
  (anticlockwise c -> 0 <= arc_len clamp c < 2 * PI) /\ (~ anticlockwise c -> - (2 * PI) <= arc_len clamp c < 0) /\
  cs_start_point c = on_circ c (cs_a0 c) /\ cs_end_point c = on_circ c (cs_a0 c + arc_len clamp c).
Proof.
  intros clamp c Hcl. destruct (arc_len_cases clamp c Hcl) as [[H1 H2]|[H1 H2]]; (split; [intros; tauto|]; split; [intros; tauto|]);
  pose proof (arc_len_angle clamp c Hcl) as E; unfold cs_start_point, cs_end_point, on_circ, padd, from_polar; cbn [px py];
  (split; [f_equal; ring|]); rewrite (angle_eq_cos _ _ E), (angle_eq_sin _ _ E); f_equal; ring.
Qed.
(** It is the only such angle, up to the full circle. *)
Theorem C42_arc_unique : forall clamp c L, AngleClamp_contract clamp -> angle_eq (cs_a0 c + L) (cs_a1 c) ->
  (anticlockwise c -> 0 <= L < 2 * PI -> L = arc_len clamp c) /\ (~ anticlockwise c -> - (2 * PI) <= L < 0 -> L = arc_len clamp c).
Proof.
  intros clamp c L Hcl HL. pose proof (arc_len_angle clamp c Hcl) as E.
  assert (Q : angle_eq L (arc_len clamp c)).
  { destruct HL as [k1 H1]. destruct E as [k2 H2]. exists (k1 - k2)%Z. rewrite minus_IZR. lra. }
  destruct (arc_len_cases clamp c Hcl) as [[H1 H2]|[H1 H2]]; split; intros; try tauto; apply angle_eq_unique; try assumption; lra.
Qed.
(** Refuted: the arc is not always in (0, 2 pi]. The same two end points mean an empty
    arc when turning anticlockwise, a full circle when turning clockwise. *)
Theorem C42_empty_refuted : forall clamp d c r a, Clamp_halfopen clamp ->
  arc_len clamp (CSeg LeftC Forward c r a a) = 0 /\ arc_len clamp (CSeg RightC Backward c r a a) = 0 /\
  arc_len clamp (CSeg (match d with Forward => RightC | Backward => LeftC end) d c r a a) = - (2 * PI).
Proof.
  intros clamp d c r a Hcl. assert (Z : clamp (a - a) = 0).
  { destruct (Hcl (a - a)) as [H1 H2]. pose proof PI_RGT_0. apply angle_eq_unique; [|lra]. replace 0 with (a - a) by ring. exact H2. }
  unfold arc_len, must_be_positive. cbn [cs_ori cs_dir cs_a0 cs_a1 isBwd]. rewrite Z. unfold Rleb. destruct (Rle_dec 0 0); [|lra].
  cbn. destruct d; cbn; repeat split; ring.
Qed.

(** *** The way-points *)
Lemma arc_step_sign clamp maxd c : AngleClamp_contract clamp -> 0 < maxd -> 0 < cs_r c ->
  Rabs (arc_step clamp maxd c) = maxd / cs_r c /\
  ((anticlockwise c /\ arc_step clamp maxd c = maxd / cs_r c) \/ (~ anticlockwise c /\ arc_step clamp maxd c = - (maxd / cs_r c))).
Proof.
  intros Hcl Hm Hr. assert (0 < maxd / cs_r c) by (apply Rdiv_lt_0_compat; assumption).
  unfold arc_step. destruct (arc_len_cases clamp c Hcl) as [[H1 H2]|[H1 H2]].
  - assert (Rleb 0 (arc_len clamp c) = true) as -> by (apply Rleb_spec; lra). rewrite Rmult_1_r. split; [apply Rabs_pos_eq; lra|tauto].
  - assert (Rleb 0 (arc_len clamp c) = false) as -> by (apply Rleb_false; lra). split; [rewrite Rabs_left; lra|right; split; [assumption|lra]].
Qed.
Lemma chord_le r d a b : 0 <= r -> Rabs (b - a) * r <= d ->
  dist (Pt (r * cos a) (r * sin a)) (Pt (r * cos b) (r * sin b)) <= d.
Proof.
  intros Hr Hd. pose proof (Rabs_pos (b - a)) as A. rewrite dist_hyp. cbn [px py psub].
  apply hyp_le; [nra|]. 
  assert (C : r * cos a * (r * cos b) + r * sin a * (r * sin b) = r * r * cos (b - a)) by (rewrite cos_minus; ring).
  pose proof (sin2_cos2 a) as Sa. pose proof (sin2_cos2 b) as Sb. unfold Rsqr in Sa, Sb.
  assert (E : (r * cos a - r * cos b) * (r * cos a - r * cos b) + (r * sin a - r * sin b) * (r * sin a - r * sin b) = 2 * (r * r) * (1 - cos (b - a))) by nra.
  assert (S2 : 1 - cos (b - a) <= (b - a) * (b - a) / 2).
  { set (x := b - a). replace (cos x) with (cos (2 * (x / 2))) by (f_equal; field). rewrite cos_2a_sin.
    assert (Rabs (sin (x / 2)) <= Rabs (x / 2)).
    { destruct (Rle_or_lt 0 (x / 2)) as [P|P].
      - destruct (Req_dec (x / 2) 0) as [->|N]; [rewrite sin_0; lra|]. pose proof (sin_lt_x (x / 2) ltac:(lra)).
        rewrite (Rabs_pos_eq (x / 2)) by assumption. apply Rabs_le. split; [|lra].
        destruct (Rle_or_lt (x / 2) PI) as [Q|Q]; [pose proof (sin_ge_0 (x / 2) P Q); lra|]. pose proof (SIN_bound (x / 2)). pose proof PI2_3_2. lra.
      - pose proof (sin_lt_x (- (x / 2)) ltac:(lra)) as U. rewrite sin_neg in U. rewrite (Rabs_left (x / 2)) by assumption. apply Rabs_le. split; [lra|].
        destruct (Rle_or_lt (- (x / 2)) PI) as [Q|Q]; [pose proof (sin_ge_0 (- (x / 2)) ltac:(lra) Q) as W; rewrite sin_neg in W; lra|]. pose proof (SIN_bound (x / 2)). pose proof PI2_3_2. lra. }
    assert (sin (x / 2) * sin (x / 2) <= x / 2 * (x / 2)).
    { pose proof (Rabs_pos (sin (x / 2))). rewrite <- (Rabs_pos_eq (sin (x / 2) * sin (x / 2))) by apply Rle_0_sqr. rewrite <- (Rabs_pos_eq (x / 2 * (x / 2))) by apply Rle_0_sqr. rewrite !Rabs_mult. nra. }
    lra. }
  assert (Q : (b - a) * (b - a) = Rabs (b - a) * Rabs (b - a)).
  { rewrite <- Rabs_mult. symmetry. apply Rabs_pos_eq. apply Rle_0_sqr. }
  cbv [psub px py] in *. rewrite E. 
  assert (2 * (r * r) * (1 - cos (b - a)) <= r * r * (Rabs (b - a) * Rabs (b - a))) by (rewrite <- Q; nra).
  assert (r * r * (Rabs (b - a) * Rabs (b - a)) <= d * d).
  { replace (r * r * (Rabs (b - a) * Rabs (b - a))) with ((Rabs (b - a) * r) * (Rabs (b - a) * r)) by ring. apply Rmult_le_compat; nra. }
  lra.
Qed.

(** The points lie on the circle, the first is the start of the arc, consecutive ones
    are at most the way-point distance apart along the arc, the heading is the one of a
    vehicle that moves along the circle in its driving direction, and - unless the arc
    is shorter than one step - all are on the arc and the last is less than one step
    before its end. *)
Theorem C42_points : forall clamp maxd c ps, AngleClamp_contract clamp -> 0 < maxd -> 0 < cs_r c ->
  circle_points clamp maxd c = Some ps ->
  (2 <= length ps)%nat /\
  (forall k p, nth_error ps k = Some p ->
     exists s, Rabs s * cs_r c = INR k * maxd /\ (anticlockwise c -> 0 <= s) /\ (~ anticlockwise c -> s <= 0) /\
       pt_of_pose p = on_circ c (cs_a0 c + s) /\
       let fwd := match cs_dir c with Forward => 1 | Backward => -1 end in
       let turn := match cs_ori c, cs_dir c with LeftC, Forward | RightC, Backward => 1 | _, _ => -1 end in
       (fwd * cos (po_th p) = - turn * sin (cs_a0 c + s) /\ fwd * sin (po_th p) = turn * cos (cs_a0 c + s)) /\
       (maxd <= cs_length clamp c -> Rabs s <= Rabs (arc_len clamp c)) /\
       (S k = length ps -> maxd <= cs_length clamp c -> (Rabs (arc_len clamp c) - Rabs s) * cs_r c < maxd)) /\
  (forall k p q, nth_error ps k = Some p -> nth_error ps (S k) = Some q -> dist (pt_of_pose p) (pt_of_pose q) <= maxd).
Proof.
  intros clamp maxd c ps Hcl Hm Hr E. unfold circle_points in E. destruct (arc_steps clamp maxd c) as [n|] eqn:En; [|discriminate]. cbn [obind] in E.
  match type of E with Some ?x = Some _ => assert (EQ : ps = x) by congruence end. subst ps. clear E.
  destruct (arc_step_sign clamp maxd c Hcl Hm Hr) as [Sa Ss].
  assert (P0 : 0 < maxd / cs_r c) by (apply Rdiv_lt_0_compat; assumption).
  set (st := arc_step clamp maxd c) in *. set (L := arc_len clamp c) in *.
  assert (Hn : (1 <= n)%Z /\ (maxd <= cs_length clamp c -> IZR n * Rabs st <= Rabs L < (IZR n + 1) * Rabs st)).
  { unfold arc_steps in En. fold st L in En. destruct (Req_EM_T st 0) as [Z|Z]; [discriminate|].
    destruct (cast_i32 _) as [z|] eqn:C; [|discriminate]. cbn [obind] in En.
    assert (EQ : n = Z.max 1 z) by congruence. clear En. split; [lia|]. intros Hlen. unfold cs_length, cs_arc in Hlen. fold L in Hlen.
    assert (HL : L / st = Rabs L / (maxd / cs_r c)).
    { destruct (arc_len_cases clamp c Hcl) as [[H1 H2]|[H1 H2]]; fold L in H2; destruct Ss as [[H3 H4]|[H3 H4]]; try tauto; rewrite H4;
        [rewrite Rabs_pos_eq by lra; reflexivity|rewrite Rabs_left by lra; field; split; lra]. }
    rewrite HL in C. set (q := Rabs L / (maxd / cs_r c)) in *.
    assert (Hq : 1 <= q).
    { unfold q. apply (Rmult_le_reg_r (maxd / cs_r c)); [assumption|]. replace (Rabs L / (maxd / cs_r c) * (maxd / cs_r c)) with (Rabs L) by (field; split; lra).
      rewrite Rmult_1_l. apply (Rmult_le_reg_r (cs_r c)); [assumption|]. replace (maxd / cs_r c * cs_r c) with maxd by (field; lra). exact Hlen. }
    assert (F1 : (1 <= Zfloor q)%Z) by (apply Zfloor_lub; exact Hq).
    rewrite Rabs_pos_eq in C by (apply IZR_le; lia). apply cast_i32_trunc in C. destruct C as [C _]. rewrite Ztrunc_IZR in C. subst z.
    rewrite Z.max_r in EQ by lia. subst n. rewrite Sa.
    assert (Rabs L = q * (maxd / cs_r c)) as -> by (unfold q; field; split; lra). pose proof (Zfloor_lb q). pose proof (Zfloor_ub q). split; nra. }
  destruct Hn as [Hn1 Hn2].
  assert (NTH : forall k p, nth_error (map (fun k => cs_pose c (cs_a0 c + st * INR k)) (seq 0 (S (Z.to_nat n)))) k = Some p ->
            p = cs_pose c (cs_a0 c + st * INR k) /\ (k <= Z.to_nat n)%nat).
  { intros k p H. rewrite nth_error_map in H. destruct (nth_error (seq 0 (S (Z.to_nat n))) k) as [z|] eqn:Ez; [|discriminate]. cbn in H.
    assert (Hk : (k < S (Z.to_nat n))%nat) by (assert (NN : nth_error (seq 0 (S (Z.to_nat n))) k <> None) by congruence; apply nth_error_Some in NN; rewrite seq_length in NN; exact NN).
    rewrite (nth_error_nth' _ 0%nat) in Ez by (rewrite seq_length; lia). rewrite seq_nth in Ez by lia. injection Ez as <-. injection H as <-. split; [reflexivity|lia]. }
  assert (POS : forall a, pt_of_pose (cs_pose c a) = on_circ c a).
  { intros a. unfold cs_pose, on_circ, pt_of_pose, padd, rotate. cbn [po_x po_y px py]. f_equal; ring. }
  split; [rewrite map_length, seq_length; lia|]. split.
  - intros k p Hp. apply NTH in Hp. destruct Hp as [-> Hk]. exists (st * INR k). pose proof (pos_INR k) as Ik.
    assert (AB : Rabs (st * INR k) = maxd / cs_r c * INR k) by (rewrite Rabs_mult, Sa, (Rabs_pos_eq (INR k)) by assumption; reflexivity).
    split; [rewrite AB; field; lra|]. split; [|split; [|split; [apply POS|split]]].
    + intros A. destruct Ss as [[_ ->]|[X _]]; [nra|tauto].
    + intros A. destruct Ss as [[X _]|[_ ->]]; [tauto|nra].
    + cbn [cs_pose po_th]. set (a := cs_a0 c + st * INR k). unfold heading_of.
      destruct (cs_ori c), (cs_dir c); cbn; rewrite cos_plus, sin_plus, ?cos_neg, ?sin_neg, cos_PI2, sin_PI2; split; ring.
    + assert (KN : INR k <= IZR n) by (rewrite INR_IZR_INZ; apply IZR_le; lia). rewrite AB. rewrite Sa in Hn2. split.
      * intros Hl. specialize (Hn2 Hl). assert (maxd / cs_r c * INR k <= IZR n * (maxd / cs_r c)) by nra. lra.
      * intros Hlast Hl. specialize (Hn2 Hl). rewrite map_length, seq_length in Hlast. assert (KE : INR k = IZR n) by (rewrite INR_IZR_INZ; f_equal; lia).
        rewrite KE. apply (Rmult_lt_reg_r (/ cs_r c)); [apply Rinv_0_lt_compat; assumption|].
        replace ((Rabs L - maxd / cs_r c * IZR n) * cs_r c * / cs_r c) with (Rabs L - maxd / cs_r c * IZR n) by (field; lra). fold (maxd / cs_r c). nra.
  - intros k p q Hp Hq. apply NTH in Hp. apply NTH in Hq. destruct Hp as [-> _]. destruct Hq as [-> _]. rewrite !POS.
    assert (T : forall a b, dist (on_circ c a) (on_circ c b) = dist (Pt (cs_r c * cos a) (cs_r c * sin a)) (Pt (cs_r c * cos b) (cs_r c * sin b))).
    { intros a b. rewrite !dist_hyp. unfold on_circ. cbn [px py]. f_equal; cbv [psub px py]; ring. }
    rewrite T. apply chord_le; [lra|]. rewrite S_INR.
    replace (cs_a0 c + st * (INR k + 1) - (cs_a0 c + st * INR k)) with st by ring. rewrite Sa. right. field. lra.
Qed.

(** Refuted: an arc shorter than the way-point distance is overshot, its second and
    last point is a whole step from the start. *)
Theorem C42_overshoot_refuted : forall clamp maxd c, AngleClamp_contract clamp -> 0 < maxd -> 0 < cs_r c ->
  cs_length clamp c < maxd ->
  exists p q s, circle_points clamp maxd c = Some [p; q] /\ pt_of_pose p = cs_start_point c /\
    pt_of_pose q = on_circ c (cs_a0 c + s) /\ Rabs s * cs_r c = maxd /\ Rabs (arc_len clamp c) < Rabs s.
Proof.
  intros clamp maxd c Hcl Hm Hr Hl. destruct (arc_step_sign clamp maxd c Hcl Hm Hr) as [Sa Ss].
  assert (P0 : 0 < maxd / cs_r c) by (apply Rdiv_lt_0_compat; assumption).
  assert (HL : arc_len clamp c / arc_step clamp maxd c = Rabs (arc_len clamp c) / (maxd / cs_r c)).
  { destruct (arc_len_cases clamp c Hcl) as [[H1 H2]|[H1 H2]]; destruct Ss as [[H3 H4]|[H3 H4]]; try tauto; rewrite H4;
      [rewrite Rabs_pos_eq by lra; reflexivity|rewrite Rabs_left by lra; field; split; lra]. }
  unfold cs_length, cs_arc in Hl. set (q := Rabs (arc_len clamp c) / (maxd / cs_r c)) in *.
  assert (EL : Rabs (arc_len clamp c) = q * (maxd / cs_r c)) by (unfold q; field; split; lra).
  assert (Hq : 0 <= q < 1).
  { pose proof (Rabs_pos (arc_len clamp c)). split; [unfold q; apply Rle_mult_inv_pos; assumption|]. rewrite EL in Hl. replace (q * (maxd / cs_r c) * cs_r c) with (q * maxd) in Hl by (field; lra). nra. }
  assert (F : Zfloor q = 0%Z) by (apply Zfloor_imp; cbn; lra).
  unfold circle_points, arc_steps. destruct (Req_EM_T (arc_step clamp maxd c) 0) as [Z|Z]; [rewrite Z, Rabs_R0 in Sa; lra|].
  rewrite HL, F, Rabs_R0. assert (cast_i32 0 = Some 0%Z) as -> by (unfold cast_i32; rewrite (Ztrunc_IZR 0); reflexivity). cbn [obind].
  change (Z.to_nat (Z.max 1 0)) with 1%nat. cbn [seq map].
  eexists _, _, (arc_step clamp maxd c * INR 1). split; [reflexivity|].
  assert (POS : forall a, pt_of_pose (cs_pose c a) = on_circ c a).
  { intros a. unfold cs_pose, on_circ, pt_of_pose, padd, rotate. cbn [po_x po_y px py]. f_equal; ring. }
  rewrite !POS. split; [|split; [reflexivity|]].
  - unfold cs_start_point, on_circ, padd, from_polar. cbn [px py INR]. rewrite Rmult_0_r, Rplus_0_r. f_equal; ring.
  - cbn [INR]. rewrite Rmult_1_r, Sa. split; [field; lra|]. rewrite EL. nra.
Qed.

(** ** C41: which directions are on the arc *)
Theorem C41_on_arc : forall clamp maxd c a, Clamp_halfopen clamp -> 0 < maxd -> 0 < cs_r c -> - PI < a <= PI ->
  on_segment clamp maxd c a = true <-> passes clamp c a.
Proof.
  intros clamp maxd c a Hcl Hm Hr Ha. assert (Hcl' := halfopen_contract clamp Hcl). pose proof PI_RGT_0 as HP.
  destruct (Hcl (cs_a0 c)) as [Bs Es]. destruct (Hcl (cs_a1 c)) as [Be Ee]. unfold on_segment. cbv zeta.
  set (s := clamp (cs_a0 c)) in *. set (e := clamp (cs_a1 c)) in *. clearbody s e.
  assert (INC : Rltb 0 (arc_step clamp maxd c) = true <-> anticlockwise c).
  { rewrite Rltb_spec. assert (0 < maxd / cs_r c) by (apply Rdiv_lt_0_compat; assumption).
    destruct (arc_step_sign clamp maxd c Hcl' Hm Hr) as [_ [[H1 H2]|[H1 H2]]]; rewrite H2; split; intros; try tauto; lra. }
  assert (LU := C42_arc_unique clamp c).
  assert (UU : forall L, angle_eq (s + L) e -> angle_eq (cs_a0 c + L) (cs_a1 c)).
  { intros L [k Hk]. destruct Es as [k1 H1]. destruct Ee as [k2 H2]. exists (k - k1 + k2)%Z. rewrite plus_IZR, minus_IZR. lra. }
  assert (PS : passes clamp c a <-> exists t, 0 <= t <= 1 /\ angle_eq a (s + t * arc_len clamp c)).
  { unfold passes. destruct Es as [k1 H1]. split; intros (t & Ht & [k Hk]); exists t; (split; [assumption|]); [exists (k - k1)%Z; rewrite minus_IZR; lra|exists (k + k1)%Z; rewrite plus_IZR; lra]. }
  rewrite PS. clear PS.
  (* a sweep from s by L, as an interval *)
  assert (SW : forall L, 0 < L < 2 * PI -> forall x, - (2 * PI) < x - s < 2 * PI -> (exists t, 0 <= t <= 1 /\ angle_eq x (s + t * L)) <-> (s <= x <= s + L) \/ (s <= x + 2 * PI <= s + L)).
  { intros L HL x Hx. split.
    - intros (t & Ht & [k Hk]). assert (0 <= t * L < 2 * PI) by nra.
      assert (- (2) < IZR k < 1) by (split; nra). assert (k = (-1)%Z \/ k = 0%Z) as [-> | ->] by (assert (-2 < k < 1)%Z by (split; apply lt_IZR; lra); lia); [right|left]; nra.
    - intros [H|H]; [exists ((x - s) / L)|exists ((x + 2 * PI - s) / L)]; (split; [split; [apply Rle_mult_inv_pos; lra|apply (Rmult_le_reg_r L); [lra|]; unfold Rdiv; rewrite Rmult_assoc, Rinv_l by lra; lra]|]);
      [exists 0%Z|exists (-1)%Z]; unfold Rdiv; rewrite Rmult_assoc, Rinv_l by lra; lra. }
  assert (SWN : forall L, - (2 * PI) < L < 0 -> forall x, - (2 * PI) < x - s < 2 * PI -> (exists t, 0 <= t <= 1 /\ angle_eq x (s + t * L)) <-> (s + L <= x <= s) \/ (s + L <= x - 2 * PI <= s)).
  { intros L HL x Hx. split.
    - intros (t & Ht & [k Hk]). assert (- (2 * PI) < t * L <= 0) by nra.
      assert (-1 < IZR k < 2) by (split; nra). assert (k = 1%Z \/ k = 0%Z) as [-> | ->] by (assert (-1 < k < 2)%Z by (split; apply lt_IZR; lra); lia); [right|left]; nra.
    - assert (DV : forall u, 0 <= u <= - L -> 0 <= u / - L <= 1 /\ u / - L * L = - u).
      { intros u Hu. split; [split; [apply Rle_mult_inv_pos; lra|apply (Rmult_le_reg_r (- L)); [lra|]; unfold Rdiv; rewrite Rmult_assoc, Rinv_l by lra; lra]|field; lra]. }
      intros [H|H].
      + destruct (DV (s - x) ltac:(lra)) as [D1 D2]. exists ((s - x) / - L). split; [exact D1|]. exists 0%Z. rewrite D2. lra.
      + destruct (DV (s + 2 * PI - x) ltac:(lra)) as [D1 D2]. exists ((s + 2 * PI - x) / - L). split; [exact D1|]. exists 1%Z. rewrite D2. lra. }
  destruct (Rltb e s) eqn:Q; [apply Rltb_spec in Q|apply Rltb_false in Q].
  - destruct (Rltb 0 (arc_step clamp maxd c)) eqn:I; cbn [negb].
    + assert (A : anticlockwise c) by tauto. rewrite orb_true_iff, !Rleb_spec.
      assert (EL : e - s + 2 * PI = arc_len clamp c) by (apply (proj1 (LU _ Hcl' (UU (e - s + 2 * PI) ltac:(exists 1%Z; lra)))); [exact A|lra]).
      rewrite <- EL, SW by lra. lra.
    + assert (A : ~ anticlockwise c) by (intros A; apply INC in A; discriminate). rewrite andb_true_iff, !Rleb_spec.
      assert (EL : e - s = arc_len clamp c) by (apply (proj2 (LU _ Hcl' (UU (e - s) ltac:(exists 0%Z; lra)))); [exact A|lra]).
      rewrite <- EL, SWN by lra. lra.
  - destruct (Rltb 0 (arc_step clamp maxd c)) eqn:I.
    + assert (A : anticlockwise c) by tauto. rewrite andb_true_iff, !Rleb_spec.
      assert (EL : e - s = arc_len clamp c) by (apply (proj1 (LU _ Hcl' (UU (e - s) ltac:(exists 0%Z; lra)))); [exact A|lra]).
      rewrite <- EL. destruct (Req_dec s e) as [<-|N].
      * replace (s - s) with 0 by ring. split.
        -- intros H. exists 0. split; [lra|]. exists 0%Z. lra.
        -- intros (t & _ & H). rewrite Rmult_0_r, Rplus_0_r in H. apply angle_eq_unique in H; [lra|lra].
      * rewrite SW by lra. lra.
    + assert (A : ~ anticlockwise c) by (intros A; apply INC in A; discriminate). rewrite orb_true_iff, !Rleb_spec.
      assert (EL : e - s - 2 * PI = arc_len clamp c) by (apply (proj2 (LU _ Hcl' (UU (e - s - 2 * PI) ltac:(exists (-1)%Z; lra)))); [exact A|lra]).
      rewrite <- EL. destruct (Req_dec s e) as [<-|N].
      * split; [intros _|intros _; lra]. replace (s - s - 2 * PI) with (- (2 * PI)) by ring.
        destruct (Rle_or_lt a s).
        -- exists ((s - a) / (2 * PI)). split; [split; [apply Rle_mult_inv_pos; lra|apply (Rmult_le_reg_r (2 * PI)); [lra|]; unfold Rdiv; rewrite Rmult_assoc, Rinv_l by lra; lra]|].
           exists 0%Z. field. lra.
        -- exists ((s - a + 2 * PI) / (2 * PI)). split; [split; [apply Rle_mult_inv_pos; lra|apply (Rmult_le_reg_r (2 * PI)); [lra|]; unfold Rdiv; rewrite Rmult_assoc, Rinv_l by lra; lra]|].
           exists 1%Z. field. lra.
      * rewrite SWN by lra. lra.
Qed.
(** A quarter turn to the left, two way-points on radius 2. *)
Example C42_example : let c := CSeg LeftC Forward (Pt 0 0) 2 0 (PI / 2) in
  anticlockwise c /\ 0 < cs_r c /\ arc_len clamp_ref c = PI / 2 /\ AngleClamp_contract clamp_ref.
Proof.
  cbv zeta. pose proof PI_RGT_0. split; [left; split; reflexivity|]. split; [cbn; lra|]. split; [|apply clamp_ref_ok]. symmetry.
  apply (proj1 (C42_arc_unique clamp_ref (CSeg LeftC Forward (Pt 0 0) 2 0 (PI / 2)) (PI / 2) clamp_ref_ok ltac:(exists 0%Z; cbn; ring))); [left; split; reflexivity|lra].
Qed.
