(** C46: arcs and paths between two circles (tangentor.cpp:228-338). *)
From Coq Require Import Reals Lra.
From Flocq Require Import Core.Raux.
From Verif Require Import Base GeomR PropGeom LineModel PropLine CircleModel PropCircle IntersectModel PropIntersect PropTangent.
Local Open Scope R_scope.

(** The hypotheses: an arc of the given radius fits between the circles, away from the
    tolerance. *)
Definition between (small large : circle) (radius tol : R) : Prop :=
  0 < tol /\ dir_ok small /\ dir_ok large /\ 0 < c_radius small /\ 0 < radius /\ tol <= c_radius large - radius /\ tol <= c_radius small + radius /\
  tol <= dist (c_center small) (c_center large).

(** Unless the intersection of the two locus circles is a single point (a contact within
    the tolerance), every candidate circle is exactly tangent. *)
Lemma candidate small large radius tol ts t : between small large radius tol -> tangentInnerCircles small large radius tol = Some ts -> length ts <> 1%nat -> In t ts ->
  normalised t /\ c_radius t = radius /\ c_dir t = c_dir large /\
  dist (c_center t) (c_center small) = c_radius small + radius /\ dist (c_center t) (c_center large) = c_radius large - radius.
Proof.
  intros (Ht & D1 & D2 & R1 & Rr & L1 & L2 & Dd) E Hl Hi.
  destruct (C46_tangentInnerCircles small large radius tol ts D1 D2 ltac:(lra) Rr Ht Dd E) as (_ & K1 & K2).
  destruct (K1 t Hi) as [E1 E2]. assert (In (c_center t) (map c_center ts)) as Hm by (apply in_map; assumption). apply K2 in Hm; [|assumption|lra].
  split; [|tauto]. unfold tangentInnerCircles in E. destruct (Rle_dec _ _); [injection E as <-; destruct Hi|].
  destruct (mk_circle (c_center small) _ _) as [lg|]; [|discriminate]. cbn [obind] in E. destruct (mk_circle (c_center large) _ _) as [sm|]; [|discriminate]. cbn [obind] in E.
  destruct (cc_intersect lg sm [] tol) as [ip|]; [|discriminate]. cbn [obind] in E.
  assert (Hn2 : c_dir large <> 0%Z) by (destruct D2 as [-> | ->]; discriminate).
  destruct (circles_at_spec ip radius _ Hn2) as (ts' & Et' & _ & K). rewrite Et' in E. injection E as <-. apply K. assumption.
Qed.
Lemma sel c p : on_circle c p -> Rabs (len (psub p (c_center c)) - c_radius c) < DIST_EPS.
Proof. intros O. rewrite <- dist_len, O, Rminus_eq_0, Rabs_R0. unfold DIST_EPS. lra. Qed.

(** One candidate of the path: an arc from the contact with the large circle to the
    contact with the small one. *)
Lemma touch_normal small large tol t res : 0 < tol -> dir_ok small -> dir_ok large -> normalised t ->
  0 < c_radius small -> 0 < c_radius t -> c_radius t < c_radius large -> tol <= c_radius large - c_radius t -> tol <= c_radius small + c_radius t ->
  dist (c_center t) (c_center small) = c_radius small + c_radius t ->
  dist (c_center t) (c_center large) = c_radius large - c_radius t ->
  inner_touch small large false tol t = Some res -> forall x, In x res -> dir_ok x /\ 0 <= c_arc x.
Proof.
  intros Ht Hds Hdl Nt Hs Hrt Hl Hd1 Hd2 D1 D2 E x Hx. unfold inner_touch in E.
  destruct (cc_intersectArcs small t tol) as [is|]; [|discriminate]. cbn [obind] in E. destruct (cc_intersectArcs t large tol) as [il|] eqn:El; [|discriminate]. cbn [obind] in E.
  destruct is as [|ps [|? ?]]; try (injection E as <-; destruct Hx; fail). destruct il as [|pl [|? ?]]; try (injection E as <-; destruct Hx; fail).
  destruct (c_selectStartPoint t pl DIST_EPS) as [[b1 t1]|] eqn:E1; [|discriminate]. cbn [obind snd] in E.
  destruct (c_selectEndPoint t1 ps DIST_EPS) as [[b2 t2]|] eqn:E2; [|discriminate]. cbn [obind snd] in E. injection E as <-. destruct Hx as [<-|[]].
  assert (N1 : dir_ok t1 /\ 0 <= c_arc t1).
  { unfold c_selectStartPoint in E1. destruct (Rlt_dec _ _); [|injection E1 as <- <-; split; apply Nt].
    unfold setStartAnglePt in E1. destruct (C44_setStartAngle t (getAngleOfPoint t pl) (proj1 Nt) (proj2 (proj2 (proj2 Nt)))) as (c' & Ec & N & _). rewrite Ec in E1. cbn [obind] in E1. injection E1 as <- <-. split; apply N. }
  unfold c_selectEndPoint in E2. destruct (Rlt_dec _ _); [|injection E2 as <- <-; exact N1].
  unfold setEndAnglePt in E2. destruct (C44_setEndAngle t1 (getAngleOfPoint t1 ps) (proj1 N1)) as (c' & Ec & N & _ & _ & C & _). rewrite Ec in E2. cbn [obind] in E2. injection E2 as <- <-.
  split; [unfold dir_ok; rewrite C; apply N1|lra].
Qed.

(** The path from the large circle over the arc onto the small circle. The first joint is
    always smooth; the second one is if the circles turn in opposite directions, and is a
    reversal (heading turned by PI) if they turn in the same direction: this is not checked. *)
Theorem C46_path_between_circles : forall small large radius tol ts path, between small large radius tol ->
  tangentInnerCircles small large radius tol = Some ts -> length ts <> 1%nat ->
  tangentPath_cc small large radius false tol = Some path -> path <> [] ->
  exists l t s p, path = [SCirc l; SCirc t; SCirc s] /\ c_radius t = radius /\ c_dir t = c_dir large /\ 0 <= c_arc t <= PI /\
    c_center l = c_center large /\ c_radius l = c_radius large /\ c_dir l = c_dir large /\ startPoint l = startPoint large /\ endPoint l = Some (startPoint t) /\
    inner_contact t large (startPoint t) /\ angle_eq (heading l (startPoint t)) (heading t (startPoint t)) /\
    endPoint t = Some p /\ startPoint s = p /\ outer_contact t small p /\
    c_center s = c_center small /\ c_radius s = c_radius small /\ c_dir s = c_dir small /\
    (c_dir small = (- c_dir large)%Z -> angle_eq (heading t p) (heading s p)) /\
    (c_dir small = c_dir large -> angle_eq (heading t p) (heading s p + PI)).
Proof.
  intros small large radius tol ts path HB Et Hl E Hne. pose proof HB as (Ht & D1 & D2 & R1 & Rr & L1 & L2 & Dd). unfold tangentPath_cc in E. rewrite Et in E. cbn [obind] in E.
  destruct (collect _ ts) as [arcs|] eqn:Ec; [|discriminate]. cbn [obind] in E. destruct arcs as [|a r]; [injection E as <-; contradiction|]. cbv zeta in E.
  destruct (min_arc_spec r a) as [I1 _]. set (t := min_arc a r) in *. destruct (collect_in _ _ _ Ec t I1) as (t0 & res & Ht0 & Ef & Hr).
  destruct (candidate _ _ _ _ _ _ HB Et Hl Ht0) as (N0 & Rt0 & Dt0 & X1 & X2). rewrite <- Rt0 in X1, X2.
  destruct (touch_normal small large tol t0 res Ht D1 D2 N0 R1 ltac:(lra) ltac:(lra) ltac:(lra) ltac:(lra) X1 X2 Ef t Hr) as [Dt At].
  destruct (C46_inner_touch small large tol t0 res Ht D1 D2 N0 R1 ltac:(lra) ltac:(lra) ltac:(lra) ltac:(lra) X1 X2 Ef t Hr) as (p & A1 & A2 & A3 & IC & Ep & OC).
  clearbody t. assert (Rt : c_radius t = radius) by lra. assert (Dl : c_dir t = c_dir large) by congruence.
  unfold getArcAngle in E. destruct (Rlt_dec PI _) as [X|Hpi]; [injection E as <-; contradiction|]. rewrite Ep in E. cbn [obind] in E.
  unfold c_selectEndPoint in E. destruct (Rlt_dec _ DIST_EPS) as [_|X] in E; [|exfalso; apply X, sel, IC].
  destruct (setEndPt_spec large (startPoint t) D2) as (l & F1 & _ & B1 & B2 & B3 & _ & B4 & B5 & _); [apply IC|]. rewrite F1 in E. cbn [obind snd] in E.
  unfold c_selectStartPoint in E. destruct (Rlt_dec _ DIST_EPS) as [_|X] in E; [|exfalso; apply X, sel, OC].
  destruct (setStartPt_spec small p D1 ltac:(lra)) as (s & F2 & _ & C1 & C2 & C3 & C4 & _ & _); [apply OC|]. rewrite F2 in E. cbn [obind snd] in E.
  match type of E with Some ?x = Some _ => assert (Q : path = x) by congruence end. rewrite Q. exists l, t, s, p.
  split; [reflexivity|]. split; [exact Rt|]. split; [exact Dl|]. split; [lra|]. do 3 (split; [assumption|]). split; [assumption|]. split; [assumption|]. split; [assumption|].
  split; [rewrite (heading_cc large l) by assumption; apply angle_eq_sym; apply C46_inner_contact_heading; [lra|lra|assumption|assumption]|].
  split; [assumption|]. split; [assumption|]. split; [assumption|]. do 3 (split; [assumption|]). rewrite (heading_cc small s) by assumption.
  destruct (C46_outer_contact_heading t small p ltac:(lra) R1 Dt D1 OC) as [G1 G2]. split; intros X; [apply G1; rewrite Dl, X; lia|apply G2; congruence].
Qed.

(** tangentInnerArcs: the arc starts on the first circle, touching it from outside, ends
    on the second one, touching it from inside, and drives on smoothly at both contacts. *)
Theorem C46_inner_arcs : forall c1 c2 radius tol ts arcs, between c1 c2 radius tol ->
  tangentInnerCircles c1 c2 radius tol = Some ts -> length ts <> 1%nat -> tangentInnerArcs c1 c2 radius tol = Some arcs ->
  (length arcs <= 1)%nat /\ forall t, In t arcs -> exists p, c_radius t = radius /\ c_dir t = c_dir c2 /\
    outer_contact t c1 (startPoint t) /\ angle_eq (heading c1 (startPoint t)) (heading t (startPoint t)) /\
    endPoint t = Some p /\ inner_contact t c2 p /\ angle_eq (heading t p) (heading c2 p).
Proof.
  intros c1 c2 radius tol ts arcs HB Et Hl E. pose proof HB as (Ht & D1 & D2 & R1 & Rr & L1 & L2 & Dd). unfold tangentInnerArcs in E.
  destruct (c_dir c1 =? c_dir c2)%Z eqn:Ed; [injection E as <-; split; [cbn; lia|intros t []]|]. apply Z.eqb_neq in Ed.
  rewrite Et in E. cbn [obind] in E. destruct (collect _ ts) as [cs|] eqn:Ec; [|discriminate]. cbn [obind] in E.
  destruct cs as [|a r]; [injection E as <-; split; [cbn; lia|intros t []]|]. match type of E with Some ?x = Some _ => assert (Q : arcs = x) by congruence end. rewrite Q. split; [cbn; lia|].
  assert (M : forall l b, In (min_arc_signed b l) (b :: l)).
  { induction l as [|c l IH]; intros b; cbn [min_arc_signed]; [left; reflexivity|]. destruct (Rltb _ _); [right; apply IH|]. destruct (IH b) as [X|X]; [left; exact X|right; right; exact X]. }
  intros x [<-|[]]. pose proof (M r a) as I1. set (t := min_arc_signed a r) in *. clearbody t. destruct (collect_in _ _ _ Ec t I1) as (t0 & res & Ht0 & Ef & Hr).
  destruct (candidate _ _ _ _ _ _ HB Et Hl Ht0) as (N0 & Rt0 & Dt0 & X1 & X2). rewrite <- Rt0 in X1, X2.
  unfold inner_arc, cc_intersectArcs in Ef.
  destruct (cc_exact_outer c1 t0 tol Ht R1 ltac:(lra)) as (p1 & E1 & O1); [rewrite dist_sym; lra|rewrite dist_sym; lra|]. rewrite E1 in Ef. cbn [obind filter] in Ef.
  destruct (isPointOnArc c1 p1 DIST_EPS && isPointOnArc t0 p1 DIST_EPS) in Ef; [|injection Ef as <-; destruct Hr].
  assert (O1' : on_circle t0 p1) by apply O1.
  destruct (setStartPt_spec t0 p1 (proj1 N0) ltac:(lra) O1') as (t1 & F1 & N1 & A1 & B1 & C1 & P1 & _ & _). rewrite F1 in Ef. cbn [obind] in Ef.
  destruct (cc_exact_inner t1 c2 tol Ht ltac:(lra) ltac:(lra)) as (p2 & E2 & O2); [rewrite A1; lra|rewrite A1, B1; lra|]. rewrite E2 in Ef. cbn [obind filter] in Ef.
  destruct (isPointOnArc t1 p2 DIST_EPS && isPointOnArc c2 p2 DIST_EPS) in Ef; [|injection Ef as <-; destruct Hr].
  destruct (setEndPt_spec t1 p2 (proj1 N1) (proj1 O2)) as (t2 & F2 & _ & A2 & B2 & C2 & _ & P2 & Q2 & _). rewrite F2 in Ef. cbn [obind] in Ef. injection Ef as <-. destruct Hr as [<-|[]].
  assert (Ctr : c_center t2 = c_center t0) by congruence. assert (Rad : c_radius t2 = c_radius t0) by congruence. assert (Dr : c_dir t2 = c_dir c2) by congruence.
  assert (OC : outer_contact t2 c1 p1).
  { destruct O1 as (Oa & Ob & Oc). unfold outer_contact, on_circle in *. rewrite Ctr, Rad. split; [assumption|]. split; [assumption|]. rewrite X1. ring. }
  assert (IC : inner_contact t2 c2 p2). { unfold inner_contact, on_circle in *. rewrite Ctr, Rad. rewrite A1, B1 in O2. assumption. }
  exists p2. split; [lra|]. split; [assumption|]. rewrite P2, P1. split; [assumption|]. split; [|split; [assumption|split; [assumption|]]].
  - apply angle_eq_sym. apply C46_outer_contact_heading; [lra|lra|unfold dir_ok; rewrite Dr; exact D2|assumption|assumption|]. rewrite Dr. clear - Ed D1 D2. destruct D1, D2; lia.
  - apply C46_inner_contact_heading; [lra|lra|assumption|assumption].
Qed.

(** ** Completeness: between two whole circles a path is always found *)
(** Twice the signed area of the triangle L, m, S: how far m is off the line through the
    two centres, times their distance. *)
Definition off_line (L S m : pt) : R := (px m - px L) * (py S - py L) - (py m - py L) * (px S - px L).
Definition is_between (small large : circle) (radius : R) (m : pt) : Prop :=
  dist m (c_center small) = c_radius small + radius /\ dist m (c_center large) = c_radius large - radius.

Lemma whole_on c p tol : normalised c -> c_arc c = 2 * PI -> on_circle c p -> 0 <= tol -> isPointOnArc c p tol = true.
Proof.
  intros N W O Ht. apply isPointOnArc_test. split; [rewrite O, Rminus_eq_0, Rabs_R0; assumption|].
  pose proof (gaop_range c p) as G. destruct N as (Hd & Hs & _ & _). pose proof PI_RGT_0. unfold arc_test. cbv zeta. rewrite W.
  destruct (dir_cases c Hd) as [(-> & _ & _)|(-> & _ & _)].
  - destruct (Rle_dec _ _); [apply andb_true_intro; rewrite !Rleb_spec; lra|].
    apply orb_true_intro. rewrite !Rleb_spec. destruct (Rle_dec (c_start c) (getAngleOfPoint c p)); [left|right]; lra.
  - destruct (Rle_dec _ _); [apply andb_true_intro; rewrite !Rleb_spec; lra|].
    apply orb_true_intro. rewrite !Rleb_spec. destruct (Rle_dec (getAngleOfPoint c p) (c_start c)); [right|left]; lra.
Qed.

(** What the candidate arc of one joining circle looks like. *)
Lemma touch_whole small large tol t : 0 < tol -> normalised small -> normalised large -> normalised t ->
  c_arc small = 2 * PI -> c_arc large = 2 * PI -> c_arc t = 2 * PI ->
  0 < c_radius small -> 0 < c_radius t -> tol <= c_radius large - c_radius t -> tol <= c_radius small + c_radius t ->
  is_between small large (c_radius t) (c_center t) ->
  exists x, inner_touch small large false tol t = Some [x] /\ dir_ok x /\ c_dir x = c_dir t /\ 0 <= c_arc x <= 2 * PI /\
    off_line (c_center large) (c_center small) (c_center t) = (c_radius large - c_radius t) * (c_radius small + c_radius t) * (dirR t * sin (c_arc x)).
Proof.
  intros Ht Ns Nl Nt Ws Wl Wt Hs Hrt L1 L2 [D1 D2]. unfold inner_touch, cc_intersectArcs.
  destruct (cc_exact_outer small t tol Ht Hs Hrt) as (p1 & E1 & O1); [rewrite dist_sym; lra|rewrite dist_sym; lra|].
  destruct (cc_exact_inner t large tol Ht Hrt ltac:(lra)) as (p2 & E2 & O2); [lra|lra|].
  assert (HE : 0 <= DIST_EPS) by (unfold DIST_EPS; lra). assert (O1' : on_circle t p1) by apply O1. assert (O2' : on_circle t p2) by apply O2.
  rewrite E1, E2. cbn [obind filter].
  rewrite (whole_on small p1), (whole_on t p1), (whole_on t p2), (whole_on large p2) by (assumption || apply O1 || apply O2). cbn [andb].
  unfold c_selectStartPoint. destruct (Rlt_dec _ DIST_EPS) as [_|X]; [|exfalso; apply X, sel; assumption].
  destruct (setStartPt_spec t p2 (proj1 Nt) ltac:(lra) O2') as (t1 & F1 & N1 & A1 & B1 & C1 & P1 & S1 & _). rewrite F1. cbn [obind snd].
  assert (Ot1 : on_circle t1 p1) by (apply (on_circle_cc t); auto).
  unfold c_selectEndPoint. destruct (Rlt_dec _ DIST_EPS) as [_|X]; [|exfalso; apply X, sel; assumption].
  destruct (setEndPt_spec t1 p1 (proj1 N1) Ot1) as (x & F2 & R2 & A2 & B2 & C2 & S2 & _ & Q2 & W2). rewrite F2. cbn [obind snd].
  exists x. split; [reflexivity|]. split; [unfold dir_ok; rewrite C2; apply N1|]. split; [congruence|]. split; [lra|].
  assert (IA : angle_eq (getAngleOfPoint t p2) (getAngleOfPoint large p2)) by (apply inner_contact_angle; [lra|lra|exact O2]).
  assert (OA : outer_contact t small p1). { destruct O1 as (Oa & Ob & Oc). split; [exact Ob|]. split; [exact Oa|]. rewrite D1. ring. }
  pose proof (outer_contact_angle t small p1 Hrt Hs OA) as OA'.
  pose proof (gaop_polar t p2) as G1. pose proof (gaop_polar large p2) as G2. pose proof (gaop_polar t p1) as G3. pose proof (gaop_polar small p1) as G4.
  rewrite O2' in G1. rewrite (proj1 (proj2 O2)) in G2. rewrite O1' in G3. rewrite (proj1 O1) in G4.
  assert (GG : getAngleOfPoint t1 p1 = getAngleOfPoint t p1) by (unfold getAngleOfPoint; rewrite A1; reflexivity). rewrite GG in W2.
  rewrite (angle_eq_cos _ _ IA), (angle_eq_sin _ _ IA) in G1.
  set (al := getAngleOfPoint large p2) in *. set (be := getAngleOfPoint t p1) in *.
  assert (ST : angle_eq (c_start x) al) by (rewrite S2; eapply angle_eq_trans; [exact S1|exact IA]).
  assert (SB : sin (be - al) = dirR t * sin (c_arc x)).
  { assert (K : angle_eq (be - al) (dirR t * c_arc x)).
    { destruct ST as [k Hk]. destruct W2 as [j Hj]. unfold sweep in Hj. assert (HD : dirR x = dirR t) by (unfold dirR; rewrite C2, C1; reflexivity). rewrite HD in Hj.
      exists (k - j)%Z. rewrite minus_IZR. lra. }
    rewrite (angle_eq_sin _ _ K). unfold dirR. destruct (proj1 Nt) as [-> | ->]; rewrite ?Rmult_1_l; [reflexivity|]. replace (IZR (-1) * c_arc x) with (- c_arc x) by ring. rewrite sin_neg. ring. }
  assert (V1 : px (c_center t) - px (c_center large) = (c_radius large - c_radius t) * cos al /\ py (c_center t) - py (c_center large) = (c_radius large - c_radius t) * sin al).
  { clear - G1 G2. unfold psub, pmul in *. cbn [px py] in *. injection G1 as ? ?. injection G2 as ? ?. split; lra. }
  assert (V2 : px (c_center small) - px (c_center t) = (c_radius small + c_radius t) * cos be /\ py (c_center small) - py (c_center t) = (c_radius small + c_radius t) * sin be).
  { assert (Y : cos (getAngleOfPoint small p1) = - cos be /\ sin (getAngleOfPoint small p1) = - sin be).
    { rewrite (angle_eq_cos _ _ OA'), (angle_eq_sin _ _ OA'), neg_cos, neg_sin. lra. }
    destruct Y as [Y1 Y2]. rewrite Y1, Y2 in G4. clear - G3 G4. unfold psub, pmul in *. cbn [px py] in *. injection G3 as ? ?. injection G4 as ? ?. split; lra. }
  rewrite <- SB, sin_minus. unfold off_line. destruct V1 as [V1 V1']. destruct V2 as [V2 V2'].
  replace (py (c_center small) - py (c_center large)) with ((py (c_center small) - py (c_center t)) + (py (c_center t) - py (c_center large))) by ring.
  replace (px (c_center small) - px (c_center large)) with ((px (c_center small) - px (c_center t)) + (px (c_center t) - px (c_center large))) by ring.
  rewrite V1, V1', V2, V2'. ring.
Qed.

(** The mirror image of a point in the line through L and S. *)
Definition mirror (L S m : pt) : pt :=
  let d2 := (px S - px L) * (px S - px L) + (py S - py L) * (py S - py L) in
  let k := 2 * off_line L S m / d2 in
  Pt (px m - k * (py S - py L)) (py m + k * (px S - px L)).
Lemma mirror_spec L S m : 0 < dist S L -> dist (mirror L S m) L = dist m L /\ dist (mirror L S m) S = dist m S /\ off_line L S (mirror L S m) = - off_line L S m /\
  dist m (mirror L S m) * dist S L = 2 * Rabs (off_line L S m).
Proof.
  intros Hd. pose proof (dist_sq S L) as D2. set (d2 := (px S - px L) * (px S - px L) + (py S - py L) * (py S - py L)) in *. assert (P : 0 < d2) by nra.
  unfold mirror. fold d2. cbv zeta. set (o := off_line L S m). set (k := 2 * o / d2). assert (K : k * d2 = 2 * o) by (unfold k; field; lra).
  assert (Q : forall u v, 0 <= u -> 0 <= v -> u * u = v * v -> u = v) by (intros; nra).
  split; [|split; [|split]].
  - apply Q; [apply dist_nonneg|apply dist_nonneg|]. rewrite !dist_sq. cbn [px py].
    match goal with |- ?l = ?r => replace l with (r + k * (k * d2 - 2 * o)) by (unfold d2, o, off_line; ring) end. rewrite K. ring.
  - apply Q; [apply dist_nonneg|apply dist_nonneg|]. rewrite !dist_sq. cbn [px py].
    match goal with |- ?l = ?r => replace l with (r + k * (k * d2 - 2 * o)) by (unfold d2, o, off_line; ring) end. rewrite K. ring.
  - unfold off_line at 1. cbn [px py]. replace (k * d2) with (2 * o) in K by lra. unfold o at 1. transitivity (o - k * d2); [unfold d2, o, off_line; ring|].
    replace (k * d2) with (2 * o) by (unfold k; field; lra). unfold o. ring.
  - apply Q; [apply Rmult_le_pos; [apply dist_nonneg|lra]|pose proof (Rabs_pos o); lra|].
    replace (dist m (Pt (px m - k * (py S - py L)) (py m + k * (px S - px L))) * dist S L * (dist m (Pt (px m - k * (py S - py L)) (py m + k * (px S - px L))) * dist S L))
      with ((dist m (Pt (px m - k * (py S - py L)) (py m + k * (px S - px L))) * dist m (Pt (px m - k * (py S - py L)) (py m + k * (px S - px L)))) * (dist S L * dist S L)) by ring.
    rewrite D2, dist_sq. cbn [px py]. pose proof (Rsqr_abs o) as R2. unfold Rsqr in R2.
    replace (2 * Rabs o * (2 * Rabs o)) with (4 * (Rabs o * Rabs o)) by ring. rewrite <- R2. replace (4 * (o * o)) with ((k * d2) * (k * d2)) by (rewrite K; ring). unfold d2. ring.
Qed.

(** If a joining centre exists well off the line through the centres (and the locus
    circles do not touch from outside), both joining centres are candidates. *)
Lemma two_candidates small large radius tol m : between small large radius tol -> is_between small large radius m ->
  tol * dist (c_center small) (c_center large) <= Rabs (off_line (c_center large) (c_center small) m) ->
  tol <= Rabs (c_radius small + c_radius large - dist (c_center small) (c_center large)) ->
  exists ts, tangentInnerCircles small large radius tol = Some ts /\ length ts <> 1%nat /\
    (forall t, In t ts -> normalised t /\ c_radius t = radius /\ c_dir t = c_dir large /\ c_arc t = 2 * PI /\ is_between small large radius (c_center t)) /\
    (forall q, is_between small large radius q -> exists t, In t ts /\ c_center t = q).
Proof.
  intros HB [M1 M2] Hoff Hsum. pose proof HB as (Ht & D1 & D2 & R1 & Rr & L1 & L2 & Dd).
  assert (Hn1 : c_dir small <> 0%Z) by (destruct D1 as [-> | ->]; discriminate). assert (Hn2 : c_dir large <> 0%Z) by (destruct D2 as [-> | ->]; discriminate).
  destruct (C44_constructor (c_center small) (c_radius small + radius) (c_dir small)) as [_ Q1]. destruct (Q1 Hn1) as (lg & El & Nl & Al & Bl & _ & _).
  destruct (C44_constructor (c_center large) (c_radius large - radius) (c_dir large)) as [_ Q2]. destruct (Q2 Hn2) as (sm & Es & Ns & As & Bs & _ & _).
  rewrite Rabs_pos_eq in Bl, Bs by lra.
  assert (O : forall q, (on_circle lg q /\ on_circle sm q) <-> is_between small large radius q) by (intros q; unfold on_circle, is_between; rewrite Al, As, Bl, Bs; reflexivity).
  assert (Dl : dist (c_center lg) (c_center sm) = dist (c_center small) (c_center large)) by (rewrite Al, As; reflexivity).
  set (d := dist (c_center small) (c_center large)) in *.
  destruct (mirror_spec (c_center large) (c_center small) m) as (X1 & X2 & X3 & X4); [fold d; lra|]. fold d in X4. set (m' := mirror _ _ m) in *.
  assert (Om : on_circle lg m /\ on_circle sm m) by (apply O; split; assumption).
  assert (Om' : on_circle lg m' /\ on_circle sm m') by (apply O; split; congruence).
  assert (Hc : exists ip, cc_intersect lg sm [] tol = Some ip /\ length ip <> 1%nat).
  { destruct (cc_intersect lg sm [] tol) as [ip|] eqn:Ei.
    - exists ip. split; [reflexivity|]. intros Hl. destruct ip as [|p [|? ?]]; try discriminate Hl.
      pose proof (C45_circles_single_complete lg sm [] tol p) as C. 
      assert (C1 : forall q, on_circle lg q /\ on_circle sm q -> dist q p < tol).
      { intros q [? ?]. apply C; [lra|lra|lra|rewrite Dl; lra|assumption|rewrite Dl, Bl, Bs; replace (c_radius small + radius + (c_radius large - radius) - d) with (c_radius small + c_radius large - d) by ring; assumption|assumption|assumption]. }
      pose proof (C1 m Om) as Y1. pose proof (C1 m' Om') as Y2. pose proof (dist_tri m p m') as T. rewrite (dist_sym p m') in T.
      assert (dist m m' * d < 2 * tol * d) by (apply Rmult_lt_compat_r; lra). lra.
    - exfalso. unfold cc_intersect in Ei. cbv zeta in Ei. rewrite (Rabs_pos_eq tol) in Ei by lra.
      pose proof (common_hsq lg sm ltac:(lra) ltac:(lra)) as CH. rewrite dist_centers, Dl in CH. specialize (CH ltac:(lra) m (proj1 Om) (proj2 Om)).
      rewrite dist_centers, Dl in Ei. destruct (Rlt_dec d tol); [discriminate|]. destruct (Rlt_dec _ d); [discriminate|]. destruct (Rlt_dec (d + tol) _); [discriminate|].
      destruct (_ && _); [discriminate|]. destruct (Req_EM_T d 0); [lra|]. destruct (_ || _); [discriminate|].
      destruct (Rltb (Rabs _) _); [destruct (Rlt_dec _ _); discriminate|]. destruct (Rltb _ (- _)); [discriminate|].
      destruct (Rltb _ 0) eqn:B6; [apply Rltb_spec in B6; lra|]. destruct (Rlt_dec _ _); discriminate. }
  destruct Hc as (ip & Ei & Hl). destruct (circles_at_spec ip radius _ Hn2) as (ts & Et & Em & K). exists ts.
  assert (ET : tangentInnerCircles small large radius tol = Some ts).
  { unfold tangentInnerCircles. destruct (Rle_dec _ _); [lra|]. rewrite El. cbn [obind]. rewrite Es. cbn [obind]. rewrite Ei. cbn [obind]. exact Et. }
  assert (HL : length ts <> 1%nat) by (rewrite <- Em, map_length in Hl; exact Hl).
  split; [exact ET|]. split; [exact HL|]. split.
  - intros t Hi. destruct (candidate small large radius tol ts t HB ET HL Hi) as (Y1 & Y2 & Y3 & Y4 & Y5). split; [exact Y1|]. split; [exact Y2|]. split; [exact Y3|]. split; [apply (K t Hi)|split; assumption].
  - intros q Hq. destruct (C45_circles lg sm [] tol ip Ht ltac:(lra) ltac:(lra) ltac:(rewrite Dl; lra) Ei) as (_ & C & _).
    destruct (C Hl) as [_ C2]. apply O in Hq. apply C2 in Hq. rewrite <- Em in Hq. apply in_map_iff in Hq. destruct Hq as (t & <- & Hi). exists t. auto.
Qed.

Lemma dirR_sq t : dir_ok t -> dirR t * dirR t = 1.
Proof. intros [E|E]; unfold dirR; rewrite E; lra. Qed.

(** Between two whole circles the path from the large to the small circle is always
    found, as soon as a joining circle exists that is clear of the tolerance. *)
Theorem C46_path_between_exists : forall small large radius tol m, between small large radius tol -> normalised small -> normalised large ->
  c_arc small = 2 * PI -> c_arc large = 2 * PI -> is_between small large radius m ->
  tol * dist (c_center small) (c_center large) <= Rabs (off_line (c_center large) (c_center small) m) ->
  tol <= Rabs (c_radius small + c_radius large - dist (c_center small) (c_center large)) ->
  exists path, tangentPath_cc small large radius false tol = Some path /\ path <> [].
Proof.
  intros small large radius tol m HB Ns Nl Ws Wl Hm Hoff Hsum. destruct (two_candidates small large radius tol m HB Hm Hoff Hsum) as (ts & Et & _ & K1 & K2).
  pose proof HB as (Ht & D1 & D2 & R1 & Rr & L1 & L2 & Dd). pose proof PI_RGT_0 as HP.
  assert (EACH : forall t, In t ts -> exists x, inner_touch small large false tol t = Some [x] /\ dir_ok x /\ c_dir x = c_dir t /\ 0 <= c_arc x <= 2 * PI /\
    off_line (c_center large) (c_center small) (c_center t) = (c_radius large - radius) * (c_radius small + radius) * (dirR t * sin (c_arc x))).
  { intros t Hi. destruct (K1 t Hi) as (Y1 & Y2 & Y3 & Y4 & Y5). rewrite <- Y2. apply touch_whole; try assumption; try lra. rewrite Y2. assumption. }
  assert (W : exists q, is_between small large radius q /\ 0 < dirR large * off_line (c_center large) (c_center small) q).
  { assert (ND : off_line (c_center large) (c_center small) m <> 0).
    { intros X. rewrite X, Rabs_R0 in Hoff. assert (0 < tol * dist (c_center small) (c_center large)) by (apply Rmult_lt_0_compat; lra). lra. }
    destruct (mirror_spec (c_center large) (c_center small) m) as (X1 & X2 & X3 & _); [lra|].
    pose proof (dirR_sq large D2) as Q. set (o := off_line _ _ m) in *.
    destruct (Rlt_dec 0 (dirR large * o)) as [Y|Y]; [exists m; auto|]. exists (mirror (c_center large) (c_center small) m). split; [destruct Hm; split; congruence|].
    rewrite X3. assert (dirR large * o <> 0); [|lra]. intros Z. apply ND. replace o with (dirR large * (dirR large * o)) by (rewrite <- Rmult_assoc, Q; ring). rewrite Z. ring. }
  destruct W as (q & Hq & Hpos). destruct (K2 q Hq) as (t & Hi & <-).
  destruct (collect_total (inner_touch small large false tol) ts) as (arcs & Ec & KA).
  { intros u Hu. destruct (EACH u Hu) as (x & Ex & _). eauto. }
  destruct (EACH t Hi) as (x & Ex & Dx & Cx & Ax & Ox). destruct (K1 t Hi) as (_ & _ & Dt & _ & _).
  assert (HX : In x arcs) by (apply (KA t [x] x); [assumption|assumption|left; reflexivity]).
  assert (SX : 0 < sin (c_arc x)).
  { rewrite Ox in Hpos. assert (HD : dirR t = dirR large) by (unfold dirR; rewrite Dt; reflexivity). rewrite HD in Hpos.
    replace (dirR large * ((c_radius large - radius) * (c_radius small + radius) * (dirR large * sin (c_arc x)))) with ((dirR large * dirR large) * (((c_radius large - radius) * (c_radius small + radius)) * sin (c_arc x))) in Hpos by ring.
    rewrite (dirR_sq large D2), Rmult_1_l in Hpos. assert (P : 0 < (c_radius large - radius) * (c_radius small + radius)) by (apply Rmult_lt_0_compat; lra).
    clear - Hpos P. nra. }
  assert (AX : c_arc x < PI).
  { destruct (Rlt_dec (c_arc x) PI); [assumption|]. exfalso. pose proof (sin_le_0 (c_arc x) ltac:(lra) ltac:(lra)). lra. }
  unfold tangentPath_cc. rewrite Et. cbn [obind]. rewrite Ec. cbn [obind]. destruct arcs as [|a r]; [destruct HX|]. cbv zeta.
  destruct (min_arc_spec r a) as [I1 I2]. specialize (I2 x HX). set (b := min_arc a r) in *. clearbody b.
  destruct (collect_in _ _ _ Ec b I1) as (t0 & res & Ht0 & Ef & Hr). destruct (EACH t0 Ht0) as (y & Ey & Dy & Cy & Ay & _). rewrite Ey in Ef.
  assert (EQ : res = [y]) by congruence. rewrite EQ in Hr. destruct Hr as [<-|[]].
  rewrite !Rabs_pos_eq in I2 by lra. unfold getArcAngle. destruct (Rlt_dec PI (c_arc y)); [lra|].
  destruct (C44_end y Dy) as (e & _ & _ & _ & Ee & _). rewrite Ee. cbn [obind].
  unfold c_selectEndPoint, c_selectStartPoint.
  destruct (Rlt_dec _ _).
  - unfold setEndAnglePt. destruct (C44_setEndAngle large (getAngleOfPoint large (startPoint y)) D2) as (c1 & F1 & _). rewrite F1. cbn [obind snd].
    destruct (Rlt_dec _ _).
    + unfold setStartAnglePt. destruct (C44_setStartAngle small (getAngleOfPoint small (circ_pt y (sweep y (c_arc y)))) D1 ltac:(lra)) as (c2 & F2 & _). rewrite F2. cbn [obind snd]. eexists. split; [reflexivity|discriminate].
    + cbn [obind snd]. eexists. split; [reflexivity|discriminate].
  - cbn [obind snd]. destruct (Rlt_dec _ _).
    + unfold setStartAnglePt. destruct (C44_setStartAngle small (getAngleOfPoint small (circ_pt y (sweep y (c_arc y)))) D1 ltac:(lra)) as (c2 & F2 & _). rewrite F2. cbn [obind snd]. eexists. split; [reflexivity|discriminate].
    + cbn [obind snd]. eexists. split; [reflexivity|discriminate].
Qed.

(** The directions of the two contacts seen from the joining centre. *)
Lemma contact_dirs small large t p1 p2 : 0 < c_radius small -> 0 < c_radius t -> c_radius t < c_radius large ->
  outer_contact t small p1 -> inner_contact t large p2 ->
  (px (c_center small) - px (c_center t) = (c_radius small + c_radius t) * cos (getAngleOfPoint t p1) /\
   py (c_center small) - py (c_center t) = (c_radius small + c_radius t) * sin (getAngleOfPoint t p1)) /\
  (px (c_center t) - px (c_center large) = (c_radius large - c_radius t) * cos (getAngleOfPoint t p2) /\
   py (c_center t) - py (c_center large) = (c_radius large - c_radius t) * sin (getAngleOfPoint t p2)).
Proof.
  intros Hs Hrt Hl O1 O2. pose proof (inner_contact_angle t large p2 Hrt Hl O2) as IA. pose proof (outer_contact_angle t small p1 Hrt Hs O1) as OA.
  pose proof (gaop_polar t p2) as G1. pose proof (gaop_polar large p2) as G2. pose proof (gaop_polar t p1) as G3. pose proof (gaop_polar small p1) as G4.
  rewrite (proj1 O2) in G1. rewrite (proj1 (proj2 O2)) in G2. rewrite (proj1 O1) in G3. rewrite (proj1 (proj2 O1)) in G4.
  rewrite <- (angle_eq_cos _ _ IA), <- (angle_eq_sin _ _ IA) in G2.
  set (al := getAngleOfPoint t p2) in *. set (be := getAngleOfPoint t p1) in *. set (ga := getAngleOfPoint small p1) in *.
  assert (Y : cos ga = - cos be /\ sin ga = - sin be).
  { rewrite (angle_eq_cos _ _ OA), (angle_eq_sin _ _ OA), neg_cos, neg_sin. lra. }
  destruct Y as [Y1 Y2]. rewrite Y1, Y2 in G4. clearbody al be ga. clear - G1 G2 G3 G4. unfold psub, pmul in *. cbn [px py] in *.
  injection G1 as ? ?. injection G2 as ? ?. injection G3 as ? ?. injection G4 as ? ?. split; split; lra.
Qed.

(** tangentInnerArcs first cuts the joining circle at its start point, which leaves the
    part up to the angle zero, and then looks for the end point on that part only. *)
Lemma inner_arc_lost c1 c2 tol t : 0 < tol -> normalised c1 -> c_arc c1 = 2 * PI -> normalised t -> c_dir t = 1%Z -> c_start t = 0 -> c_arc t = 2 * PI ->
  0 < c_radius c1 -> 0 < c_radius t -> tol <= c_radius c2 - c_radius t -> tol <= c_radius c1 + c_radius t -> is_between c1 c2 (c_radius t) (c_center t) ->
  (forall a b, 0 <= a < 2 * PI -> 0 <= b < 2 * PI ->
    px (c_center c1) - px (c_center t) = (c_radius c1 + c_radius t) * cos a -> py (c_center c1) - py (c_center t) = (c_radius c1 + c_radius t) * sin a ->
    px (c_center t) - px (c_center c2) = (c_radius c2 - c_radius t) * cos b -> py (c_center t) - py (c_center c2) = (c_radius c2 - c_radius t) * sin b -> b < a) ->
  inner_arc c1 c2 tol t = Some [].
Proof.
  intros Ht N1 W1 Nt Dt St At R1 Rt L1 L2 [X1 X2] HB. unfold inner_arc, cc_intersectArcs.
  assert (HE : 0 <= DIST_EPS) by (unfold DIST_EPS; lra).
  destruct (cc_exact_outer c1 t tol Ht R1 ltac:(lra)) as (p1 & E1 & O1); [rewrite dist_sym; lra|rewrite dist_sym; lra|]. rewrite E1. cbn [obind filter].
  rewrite (whole_on c1 p1), (whole_on t p1) by (assumption || apply O1). cbn [andb].
  assert (O1' : on_circle t p1) by apply O1.
  assert (OA : outer_contact t c1 p1). { destruct O1 as (Oa & Ob & Oc). split; [exact Ob|]. split; [exact Oa|]. rewrite X1. ring. }
  pose proof (gaop_range t p1) as GR. destruct (setStartPt_spec t p1 (proj1 Nt) ltac:(lra) O1') as (t1 & F1 & M1 & A1 & B1 & C1 & P1 & S1 & Q1).
  assert (T1 : c_start t1 = getAngleOfPoint t p1 /\ c_arc t1 = 2 * PI - getAngleOfPoint t p1).
  { unfold setStartAnglePt, setStartAngle in F1. destruct (C44_normalise (getAngleOfPoint t p1)) as (b & Eb & _ & _ & K). rewrite (K ltac:(lra)) in Eb. rewrite Eb in F1. cbn [obind] in F1.
    rewrite Dt, St, At in F1. change ((1 =? ARC_LEFT)%Z) with true in F1. cbv iota zeta in F1.
    match type of F1 with context [norm2pi ?e] => destruct (C44_normalise e) as (r & Er & _ & _ & K2) end. rewrite (K2 ltac:(lra)) in Er. rewrite Er in F1. cbn [obind] in F1.
    match type of F1 with Some ?x = Some _ => assert (EQ : t1 = x) by congruence end. rewrite EQ. cbn [c_start c_arc]. split; [reflexivity|lra]. }
  rewrite F1. cbn [obind].
  destruct (cc_exact_inner t1 c2 tol Ht ltac:(lra) ltac:(lra)) as (p2 & E2 & O2); [rewrite A1; lra|rewrite A1, B1; lra|]. rewrite E2. cbn [obind filter].
  assert (IC : inner_contact t c2 p2). { unfold inner_contact, on_circle in *. rewrite A1, B1 in O2. assumption. }
  destruct (contact_dirs c1 c2 t p1 p2 R1 Rt ltac:(lra) OA IC) as [[V1 V2] [V3 V4]].
  pose proof (gaop_range t p2) as GR2. pose proof (HB _ _ GR GR2 V1 V2 V3 V4) as LT.
  destruct (isPointOnArc t1 p2 DIST_EPS) eqn:Ep; [|cbn [andb]; reflexivity]. exfalso. apply isPointOnArc_test in Ep. destruct Ep as [_ Ep].
  assert (GG : getAngleOfPoint t1 p2 = getAngleOfPoint t p2) by (unfold getAngleOfPoint; rewrite A1; reflexivity). rewrite GG in Ep.
  unfold arc_test in Ep. rewrite C1, Dt in Ep. change ((1 =? ARC_LEFT)%Z) with true in Ep. cbv iota zeta in Ep. destruct T1 as [T1 T2]. rewrite T1, T2 in Ep.
  destruct (Rle_dec _ _) as [Y|Y]; [|lra]. apply andb_prop in Ep. rewrite !Rleb_spec in Ep. lra.
Qed.
Lemma mk_left ctr r : 0 <= r -> mk_circle ctr r 1 = Some (Circ ctr r 1 (2 * PI) 0).
Proof. intros H. unfold mk_circle. cbn [Z.eqb]. rewrite Rabs_pos_eq by assumption. reflexivity. Qed.
Lemma circles_left ps r : 0 <= r -> forall ts, circles_at ps r 1 = Some ts -> forall t, In t ts -> c_start t = 0.
Proof.
  intros H. induction ps as [|p ps IH]; intros ts E t Ht; cbn [circles_at] in E; [injection E as <-; destruct Ht|].
  rewrite mk_left in E by assumption. cbn [obind] in E. destruct (circles_at ps r 1) as [r0|]; [|discriminate]. cbn [obind] in E.
  match type of E with Some ?x = Some _ => assert (EQ : ts = x) by congruence end. rewrite EQ in Ht. destruct Ht as [<-|Ht]; [reflexivity|apply (IH r0 eq_refl t Ht)].
Qed.

(** Two joining circles exist, clear of every tolerance, but tangentInnerArcs finds
    nothing: both arcs would pass the angle zero of their circle. *)
Definition lost1 : circle := Circ (Pt 112 (-210)) 254 (-1) (2 * PI) (2 * PI).
Definition lost2 : circle := Circ (Pt 0 0) 222 1 (2 * PI) 0.
Lemma lost_geometry : between lost1 lost2 1 DIST_EPS /\ is_between lost1 lost2 1 (Pt 220 21) /\ is_between lost1 lost2 1 (Pt (-140) (-171)) /\
  dist (c_center lost1) (c_center lost2) = 238 /\ off_line (c_center lost2) (c_center lost1) (Pt 220 21) = -48552 /\ normalised lost1 /\ normalised lost2.
Proof.
  pose proof PI_RGT_0 as HP.
  assert (D : forall a b c d r, 0 <= r -> (a - c) * (a - c) + (b - d) * (b - d) = r * r -> dist (Pt a b) (Pt c d) = r).
  { intros. rewrite dist_hyp. apply hyp_unique; [assumption|]. cbn [px py]. lra. }
  unfold between, is_between, off_line, normalised, dir_ok, lost1, lost2, DIST_EPS. cbn [c_center c_radius c_dir c_arc c_start px py].
  rewrite (D 112 (-210) 0 0 238), (D 220 21 112 (-210) 255), (D 220 21 0 0 221), (D (-140) (-171) 112 (-210) 255), (D (-140) (-171) 0 0 221) by lra.
  repeat split; auto; try lra.
Qed.
Theorem C46_inner_arcs_lost_refuted : exists c1 c2 radius m, between c1 c2 radius DIST_EPS /\ normalised c1 /\ normalised c2 /\ c_arc c1 = 2 * PI /\ c_arc c2 = 2 * PI /\
  c_dir c1 = (-1)%Z /\ c_dir c2 = 1%Z /\ is_between c1 c2 radius m /\
  1000 * dist (c_center c1) (c_center c2) * DIST_EPS <= Rabs (off_line (c_center c2) (c_center c1) m) /\
  tangentInnerArcs c1 c2 radius DIST_EPS = Some [].
Proof.
  destruct lost_geometry as (HB & Hm1 & Hm2 & Dd & Ho & N1 & N2). exists lost1, lost2, 1, (Pt 220 21). pose proof PI_RGT_0 as HP.
  split; [exact HB|]. split; [exact N1|]. split; [exact N2|]. do 4 (split; [reflexivity|]). split; [exact Hm1|].
  rewrite Dd, Ho. split; [unfold DIST_EPS, Rabs; destruct (Rcase_abs _); lra|].
  destruct (two_candidates lost1 lost2 1 DIST_EPS (Pt 220 21) HB Hm1) as (ts & Et & _ & K1 & _).
  { rewrite Dd, Ho. unfold DIST_EPS, Rabs. destruct (Rcase_abs _); lra. }
  { rewrite Dd. unfold lost1, lost2, DIST_EPS, Rabs. cbn [c_radius]. destruct (Rcase_abs _); lra. }
  assert (ST : forall t, In t ts -> c_start t = 0).
  { unfold tangentInnerCircles in Et. destruct (Rle_dec _ _); [injection Et as <-; intros t []|].
    destruct (mk_circle (c_center lost1) _ _) as [lg|]; [|discriminate]. cbn [obind] in Et. destruct (mk_circle (c_center lost2) _ _) as [sm|]; [|discriminate]. cbn [obind] in Et.
    destruct (cc_intersect lg sm [] DIST_EPS) as [ip|]; [|discriminate]. cbn [obind] in Et. apply (circles_left ip 1 ltac:(lra)). exact Et. }
  assert (HE : 0 < DIST_EPS) by (unfold DIST_EPS; lra).
  assert (EACH : forall t, In t ts -> inner_arc lost1 lost2 DIST_EPS t = Some []).
  { intros t Hi. destruct (K1 t Hi) as (Y1 & Y2 & Y3 & Y4 & Y5). apply inner_arc_lost; try assumption; try (rewrite ?Y2; unfold lost1, lost2, DIST_EPS; cbn [c_radius]; lra); [reflexivity|apply ST; assumption|rewrite Y2; assumption|].
    rewrite Y2. unfold lost1, lost2. cbn [c_center c_radius px py]. destruct Y5 as [Q1 Q2]. unfold lost1, lost2 in Q1, Q2. cbn [c_center c_radius] in Q1, Q2.
    destruct (c_center t) as [u v]. cbn [px py].
    assert (Q1' := dist_sq (Pt u v) (Pt 112 (-210))). assert (Q2' := dist_sq (Pt u v) (Pt 0 0)). rewrite Q1 in Q1'. rewrite Q2 in Q2'. cbn [px py] in Q1', Q2'.
    intros a b Ha Hb V1 V2 V3 V4.
    assert (Z : (u - 220) * (u + 140) = 0) by nra.
    assert (LIN : 15 * v = 8 * u - 1445) by nra.
    assert (G0 : forall x, 0 <= x < 2 * PI -> sin x < 0 -> PI < x < 2 * PI).
    { intros x Hx Hs. split; [|lra]. destruct (Rlt_dec PI x); [assumption|]. pose proof (sin_ge_0 x ltac:(lra) ltac:(lra)). lra. }
    apply Rmult_integral in Z. destruct Z as [Z|Z].
    - assert (u = 220) by lra. assert (v = 21) by lra. subst u v.
      assert (PI < a < 2 * PI) by (apply G0; lra). destruct (Rlt_dec b a); [assumption|]. pose proof (sin_le_0 b ltac:(lra) ltac:(lra)). lra.
    - assert (u = -140) by lra. assert (v = -171) by lra. subst u v.
      assert (PI < a < 2 * PI) by (apply G0; lra). assert (PI < b < 2 * PI) by (apply G0; lra).
      destruct (Rlt_dec b a); [assumption|]. exfalso.
      assert (3 * (PI / 2) < a). { destruct (Rlt_dec (3 * (PI / 2)) a); [assumption|]. pose proof (cos_le_0 a ltac:(lra) ltac:(lra)). lra. }
      pose proof (cos_ge_0_3PI2 b ltac:(lra) ltac:(lra)). lra. }
  unfold tangentInnerArcs. change (c_dir lost1 =? c_dir lost2)%Z with false. cbv iota. rewrite Et. cbn [obind].
  assert (CE : collect (inner_arc lost1 lost2 DIST_EPS) ts = Some []).
  { clear - EACH. induction ts as [|t ts IH]; [reflexivity|]. cbn [collect]. rewrite (EACH t (or_introl eq_refl)). cbn [obind]. rewrite IH; [reflexivity|]. intros x Hx. apply EACH. right. exact Hx. }
  rewrite CE. reflexivity.
Qed.
(** For the same circles the path of [C46_path_between_exists] is found. *)
(** The general entry point, given any shape and the direction of travel, is the
    path from the shape to the circle or from the circle to the shape. *)
Theorem C46_path_shape : forall c radius,
  (forall l path, proper l -> normalised c -> 0 < c_radius c -> 0 < radius -> clear_crossing l c radius DIST_EPS ->
     DIST_EPS * DIST_EPS <= 4 * (radius * radius) * ((radius + c_radius c) * (radius + c_radius c)) -> path <> [] ->
     (tangentPath_shape (SLine l) c radius true = Some path ->
        exists t e p, path = [SLine (Ln (l_start l) (startPoint t)); SCirc t; SCirc e] /\ joins_lc l c t radius /\ endPoint t = Some p /\ startPoint e = p) /\
     (tangentPath_shape (SLine l) c radius false = Some path ->
        exists t s p, path = [SCirc s; SCirc t; SLine (Ln p (l_end l))] /\ joins_cl l c t radius /\ endPoint t = Some p /\ endPoint s = Some (startPoint t))) /\
  (forall f ts path, between c f radius DIST_EPS -> tangentInnerCircles c f radius DIST_EPS = Some ts -> length ts <> 1%nat ->
     (tangentPath_shape (SCirc f) c radius true = Some path -> path <> [] ->
        exists l t s p, path = [SCirc l; SCirc t; SCirc s] /\ c_radius t = radius /\ c_center l = c_center f /\ c_center s = c_center c /\
          startPoint l = startPoint f /\ endPoint l = Some (startPoint t) /\ endPoint t = Some p /\ startPoint s = p) /\
     (tangentPath_shape (SCirc f) c radius false = Some path -> path = [])).
Proof.
  intros c radius. split.
  - intros l path Hp Hc H1 H2 H3 H4 Hne. split; intros E; cbn [tangentPath_shape] in E.
    + destruct (C46_path_line_to_circle l c radius path Hp (proj1 Hc) H1 H2 H3 H4 E Hne) as (t & e & p & arcs & A & B & C & D & _). exists t, e, p. auto.
    + destruct (C46_path_circle_to_line l c radius path Hp Hc H1 H2 H3 H4 E Hne) as (t & s & p & arcs & A & B & C & D & _). exists t, s, p. auto.
  - intros f ts path HB Et Hl. split; intros E; [intros Hne|]; cbn [tangentPath_shape negb] in E.
    + destruct (C46_path_between_circles c f radius DIST_EPS ts path HB Et Hl E Hne) as (l & t & s & p & A & B & _ & _ & C1 & _ & _ & C2 & C3 & _ & _ & C4 & C5 & _ & C6 & _).
      exists l, t, s, p. repeat split; auto.
    + destruct HB as (_ & D1 & D2 & _). apply (C46_from_small_refuted c f radius DIST_EPS path D1 D2 E).
Qed.
Example C46_between_example : exists path, tangentPath_cc lost1 lost2 1 false DIST_EPS = Some path /\ path <> [].
Proof.
  destruct lost_geometry as (HB & Hm1 & Hm2 & Dd & Ho & N1 & N2).
  apply (C46_path_between_exists lost1 lost2 1 DIST_EPS (Pt 220 21)); auto; rewrite Dd, ?Ho; unfold lost1, lost2, DIST_EPS, Rabs; cbn [c_radius]; destruct (Rcase_abs _); lra.
Qed.
