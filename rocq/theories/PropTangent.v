(** C46: the tangent circles, arcs and paths of the Tangentor. *)
From Coq Require Import Reals Lra.
From Flocq Require Import Core.Raux.
From Verif Require Import Base GeomR PropGeom LineModel PropLine CircleModel PropCircle IntersectModel PropIntersect.
Local Open Scope R_scope.

(** ** Specification *)
(** Heading of a vehicle driving along the circle in its direction, at its point [p]. *)
Definition heading (c : circle) (p : pt) : R := getAngleOfPoint c p + dirR c * (PI / 2).
(** Outer contact of two circles in [p]. *)
Definition outer_contact (t c : circle) (p : pt) : Prop :=
  on_circle t p /\ on_circle c p /\ dist (c_center t) (c_center c) = c_radius t + c_radius c.
(** [t] touches [c] from inside in [p]. *)
Definition inner_contact (t c : circle) (p : pt) : Prop :=
  on_circle t p /\ on_circle c p /\ dist (c_center t) (c_center c) = c_radius c - c_radius t.
(** [t] touches the segment [l] in [p]. *)
Definition line_contact (t : circle) (l : line) (p : pt) : Prop :=
  on_circle t p /\ on_seg l p /\ vdot (psub (c_center t) p) (psub (l_end l) (l_start l)) = 0.

(** ** Circles *)
Lemma circ_at c p : on_circle c p -> circ_pt c (getAngleOfPoint c p) = p.
Proof.
  intros H. pose proof (gaop_polar c p) as G. rewrite H in G. unfold pmul, psub in G. cbn [px py] in G. injection G as G1 G2.
  unfold circ_pt. apply pt_ext; cbn [px py]; lra.
Qed.
Lemma gaop_cc c c' p : c_center c' = c_center c -> getAngleOfPoint c' p = getAngleOfPoint c p.
Proof. intros E. unfold getAngleOfPoint. rewrite E. reflexivity. Qed.
Lemma on_circle_cc c c' p : c_center c' = c_center c -> c_radius c' = c_radius c -> on_circle c p -> on_circle c' p.
Proof. unfold on_circle. intros -> ->. auto. Qed.

Lemma setStartPt_spec c p : dir_ok c -> 0 <= c_radius c -> on_circle c p ->
  exists c', setStartAnglePt c p = Some c' /\ normalised c' /\ c_center c' = c_center c /\ c_radius c' = c_radius c /\ c_dir c' = c_dir c /\
    startPoint c' = p /\ angle_eq (c_start c') (getAngleOfPoint c p) /\ endPoint c' = endPoint c.
Proof.
  intros Hd Hr Ho. unfold setStartAnglePt. destruct (C44_setStartAngle c (getAngleOfPoint c p) Hd Hr) as (c' & E & N & A & B & C & S & F).
  exists c'. split; [exact E|]. split; [exact N|]. split; [exact A|]. split; [exact B|]. split; [exact C|].
  assert (P : forall x y, angle_eq x y -> circ_pt c' x = circ_pt c y).
  { intros x y Hxy. rewrite (circ_pt_angle c' _ _ Hxy). unfold circ_pt. rewrite A, B. reflexivity. }
  split; [|split; [exact S|]].
  - unfold startPoint. rewrite <- circ_pt_eq, (P _ _ S). apply circ_at. assumption.
  - destruct (C44_end c' (proj1 N)) as (e' & _ & _ & _ & -> & _). destruct (C44_end c Hd) as (e & _ & _ & _ & -> & _). f_equal. apply P. assumption.
Qed.
Lemma setEndPt_spec c p : dir_ok c -> on_circle c p ->
  exists c', setEndAnglePt c p = Some c' /\ 0 <= c_arc c' <= 2 * PI /\ c_center c' = c_center c /\ c_radius c' = c_radius c /\ c_dir c' = c_dir c /\
    c_start c' = c_start c /\ startPoint c' = startPoint c /\ endPoint c' = Some p /\ angle_eq (sweep c' (c_arc c')) (getAngleOfPoint c p).
Proof.
  intros Hd Ho. unfold setEndAnglePt. destruct (C44_setEndAngle c (getAngleOfPoint c p) Hd) as (c' & E & N & A & B & C & S & F).
  exists c'. split; [exact E|]. split; [exact N|]. split; [exact A|]. split; [exact B|]. split; [exact C|]. split; [exact S|].
  split; [|split; [|exact F]].
  - unfold startPoint. rewrite <- !circ_pt_eq. unfold circ_pt. rewrite A, B, S. reflexivity.
  - assert (Hd' : dir_ok c') by (unfold dir_ok; rewrite C; assumption).
    destruct (C44_end c' Hd') as (e' & _ & _ & _ & -> & _). f_equal. rewrite (circ_pt_angle c' _ _ F). rewrite <- (circ_at c p Ho) at 2. unfold circ_pt. rewrite A, B. reflexivity.
Qed.

(** Directions of centre-to-point vectors decide headings. *)
Lemma gaop_of_polar c p a : p <> c_center c ->
  psub p (c_center c) = pmul (Pt (cos a) (sin a)) (dist p (c_center c)) -> angle_eq (getAngleOfPoint c p) a.
Proof.
  intros Hp E. pose proof (dist_pos p (c_center c) Hp) as Hd. pose proof (gaop_polar c p) as G. rewrite E in G.
  unfold pmul in G. cbn [px py] in G. injection G as G1 G2.
  apply Rmult_eq_reg_r in G1; [|lra]. apply Rmult_eq_reg_r in G2; [|lra]. apply angle_eq_cs; symmetry; assumption.
Qed.
Lemma sqsum0 u v : u * u + v * v = 0 -> u = 0 /\ v = 0.
Proof.
  intros H. pose proof (Rle_0_sqr u) as A. pose proof (Rle_0_sqr v) as B. unfold Rsqr in *.
  split; apply Rsqr_0_uniq; unfold Rsqr; lra.
Qed.
(** In an outer contact the two centres are seen from opposite sides. *)
Lemma outer_contact_between t c p : 0 < c_radius t -> 0 < c_radius c -> outer_contact t c p ->
  psub p (c_center t) = pmul (psub (c_center c) p) (c_radius t / c_radius c).
Proof.
  intros Ht Hc (O1 & O2 & D). apply on_circle_sq in O1; [|lra]. apply on_circle_sq in O2; [|lra].
  assert (D2 := dist_sq (c_center t) (c_center c)). rewrite D in D2.
  set (r := c_radius t) in *. set (R := c_radius c) in *.
  unfold psub, pmul. cbn [px py]. set (tx := px (c_center t)) in *. set (ty := py (c_center t)) in *. set (cx := px (c_center c)) in *. set (cy := py (c_center c)) in *.
  set (x := px p) in *. set (y := py p) in *.
  (* |R (p - t) - r (c - p)|^2 = 0 *)
  assert (Z : (R * (x - tx) - r * (cx - x)) * (R * (x - tx) - r * (cx - x)) + (R * (y - ty) - r * (cy - y)) * (R * (y - ty) - r * (cy - y)) = 0).
  { assert (DOT : 2 * ((x - tx) * (cx - x) + (y - ty) * (cy - y)) = 2 * (r * R)) by nra.
    replace ((R * (x - tx) - r * (cx - x)) * (R * (x - tx) - r * (cx - x)) + (R * (y - ty) - r * (cy - y)) * (R * (y - ty) - r * (cy - y)))
      with (R * R * ((x - tx) * (x - tx) + (y - ty) * (y - ty)) + r * r * ((x - cx) * (x - cx) + (y - cy) * (y - cy)) - r * R * (2 * ((x - tx) * (cx - x) + (y - ty) * (cy - y)))) by ring.
    rewrite O1, O2, DOT. ring. }
  apply sqsum0 in Z. destruct Z as [Z1 Z2].
  apply pt_ext; cbn [px py].
  - apply (Rmult_eq_reg_l R); [|lra]. replace (R * ((cx - x) * (r / R))) with (r * (cx - x)) by (field; lra). lra.
  - apply (Rmult_eq_reg_l R); [|lra]. replace (R * ((cy - y) * (r / R))) with (r * (cy - y)) by (field; lra). lra.
Qed.
Lemma outer_contact_angle t c p : 0 < c_radius t -> 0 < c_radius c -> outer_contact t c p ->
  angle_eq (getAngleOfPoint t p) (getAngleOfPoint c p + PI).
Proof.
  intros Ht Hc K. pose proof (outer_contact_between t c p Ht Hc K) as B. destruct K as (O1 & O2 & _).
  pose proof (gaop_polar c p) as G. rewrite O2 in G.
  apply gaop_of_polar; [intros ->; unfold on_circle in O1; rewrite dist_hyp, (proj2 (hyp_0 _ _)) in O1 by (split; ring); lra|].
  rewrite B, O1, neg_cos, neg_sin. unfold psub, pmul in *. cbn [px py] in *. injection G as G1 G2.
  apply pt_ext; cbn [px py].
  - replace (px (c_center c) - px p) with (- (cos (getAngleOfPoint c p) * c_radius c)) by lra. field. lra.
  - replace (py (c_center c) - py p) with (- (sin (getAngleOfPoint c p) * c_radius c)) by lra. field. lra.
Qed.
(** Opposite directions drive on smoothly through an outer contact; equal directions
    turn round by 180 degrees. *)
Theorem C46_outer_contact_heading : forall t c p, 0 < c_radius t -> 0 < c_radius c -> dir_ok t -> dir_ok c -> outer_contact t c p ->
  (c_dir t = (- c_dir c)%Z -> angle_eq (heading t p) (heading c p)) /\
  (c_dir t = c_dir c -> angle_eq (heading t p) (heading c p + PI)).
Proof.
  intros t c p Ht Hc Dt Dc K. pose proof (outer_contact_angle t c p Ht Hc K) as A. unfold heading, dirR. split; intros E; rewrite E.
  - rewrite opp_IZR. destruct Dc as [-> | ->].
    + apply angle_eq_trans with (getAngleOfPoint c p + PI + - (1) * (PI / 2)); [apply angle_eq_plus; [assumption|apply angle_eq_refl]|]. exists 0%Z. field.
    + apply angle_eq_trans with (getAngleOfPoint c p + PI + - (-1) * (PI / 2)); [apply angle_eq_plus; [assumption|apply angle_eq_refl]|]. exists 1%Z. field.
  - apply angle_eq_trans with (getAngleOfPoint c p + PI + IZR (c_dir c) * (PI / 2)); [apply angle_eq_plus; [assumption|apply angle_eq_refl]|]. exists 0%Z. ring.
Qed.

(** ** Parallels *)
Lemma parallel_dir l d : psub (l_end (parallel l d)) (l_start (parallel l d)) = psub (l_end l) (l_start l).
Proof. unfold parallel. cbv zeta. unfold psub, padd. cbn [l_start l_end px py]. apply pt_ext; cbn [px py]; ring. Qed.
Lemma parallel_llen l d : llen (parallel l d) = llen l.
Proof. rewrite <- !llen_len, parallel_dir. reflexivity. Qed.
Lemma parallel_proper l d : proper l -> proper (parallel l d).
Proof.
  intros Hp E. apply Hp. pose proof (parallel_dir l d) as P. rewrite E in P. unfold psub in P. cbn [px py] in P. injection P as P1 P2. apply pt_ext; lra.
Qed.
Lemma parallel_at l d t : at_t (parallel l d) t =
  padd (at_t l t) (Pt (- d * py (normalized (psub (l_end l) (l_start l)))) (d * px (normalized (psub (l_end l) (l_start l))))).
Proof. unfold at_t. rewrite parallel_dir. unfold parallel, padd. cbv zeta. cbn [l_start l_end px py]. apply pt_ext; cbn [px py]; ring. Qed.
Lemma parallel_foot l d t : proper l -> footPoint l (at_t (parallel l d) t) = at_t l t /\ pointSignedDistance l (at_t (parallel l d) t) = d.
Proof.
  intros Hp. destruct (C43_parallel l d (at_t (parallel l d) t) Hp) as [_ K].
  assert (S : pointSignedDistance l (at_t (parallel l d) t) = d) by (apply K; exists t; reflexivity). split; [|exact S].
  unfold footPoint. rewrite S, parallel_at. unfold psub, padd. cbv zeta. cbn [px py]. apply pt_ext; cbn [px py]; ring.
Qed.
Lemma parallel_seg l d q : proper l -> on_seg (parallel l d) q <-> pointSignedDistance l q = d /\ on_seg l (footPoint l q).
Proof.
  intros Hp. split.
  - intros (t & Ht & ->). destruct (parallel_foot l d t Hp) as [F S]. split; [exact S|]. rewrite F. exists t. auto.
  - intros [S (t & Ht & F)]. exists t. split; [assumption|]. rewrite parallel_at, <- F. unfold footPoint. rewrite S. unfold psub, padd. cbv zeta. cbn [px py]. apply pt_ext; cbn [px py]; ring.
Qed.
(** The discriminant measures how far the line passes from tangency. *)
Lemma disc_distance l c : proper l ->
  lc_disc l c = 4 * (llen l * llen l) * (c_radius c * c_radius c - pointSignedDistance l (c_center c) * pointSignedDistance l (c_center c)).
Proof.
  intros Hp. pose proof (llen_pos l Hp) as H. pose proof (llen_sq l) as Hs. unfold pointSignedDistance. cbv zeta. rewrite llen_len.
  replace (4 * (llen l * llen l) * (c_radius c * c_radius c -
    (px (psub (l_end l) (l_start l)) * py (psub (c_center c) (l_start l)) - py (psub (l_end l) (l_start l)) * px (psub (c_center c) (l_start l))) / llen l *
    ((px (psub (l_end l) (l_start l)) * py (psub (c_center c) (l_start l)) - py (psub (l_end l) (l_start l)) * px (psub (c_center c) (l_start l))) / llen l)))
    with (4 * (llen l * llen l) * (c_radius c * c_radius c) - 4 *
    ((px (psub (l_end l) (l_start l)) * py (psub (c_center c) (l_start l)) - py (psub (l_end l) (l_start l)) * px (psub (c_center c) (l_start l))) *
     (px (psub (l_end l) (l_start l)) * py (psub (c_center c) (l_start l)) - py (psub (l_end l) (l_start l)) * px (psub (c_center c) (l_start l))))) by (field; lra).
  rewrite Hs. unfold lc_disc, lc_a, lc_b, lc_c, sqn, vdot, psub. cbn [px py]. ring.
Qed.
Lemma parallel_signed l d q : proper l -> pointSignedDistance (parallel l d) q = pointSignedDistance l q - d.
Proof.
  intros Hp. pose proof (llen_pos l Hp) as H. pose proof (llen_sq l) as Hs. unfold pointSignedDistance. cbv zeta. rewrite parallel_dir, llen_len.
  unfold parallel, normalized. rewrite llen_len. unfold psub, padd, pdiv. cbv zeta. cbn [l_start l_end px py].
  set (ex := px (l_end l) - px (l_start l)) in *. set (ey := py (l_end l) - py (l_start l)) in *. set (L := llen l) in *.
  replace ((ex * (py q - (py (l_start l) + d * (ex / L))) - ey * (px q - (px (l_start l) + - d * (ey / L)))) / L)
    with ((ex * (py q - py (l_start l)) - ey * (px q - px (l_start l))) / L - d * (ex * ex + ey * ey) / (L * L)) by (field; lra).
  rewrite <- Hs. field. lra.
Qed.

(** ** Tangent circles of a segment and a circle *)
(** The parallels at distance [radius] do not touch the enlarged circle within the
    tolerance: they miss it or cross it. *)
Definition clear_crossing (l : line) (c : circle) (radius tol : R) : Prop :=
  forall e, (e = 1 \/ e = -1) ->
    tol * tol <= Rabs (4 * (llen l * llen l) * ((c_radius c + radius) * (c_radius c + radius) -
       (pointSignedDistance l (c_center c) - e * radius) * (pointSignedDistance l (c_center c) - e * radius))).

Lemma circles_at_spec ps r d : d <> 0%Z -> exists ts, circles_at ps r d = Some ts /\ map c_center ts = ps /\
  forall t, In t ts -> normalised t /\ c_radius t = Rabs r /\ c_arc t = 2 * PI /\ c_dir t = (if (0 <? d)%Z then 1 else -1)%Z.
Proof.
  intros Hd. induction ps as [|p ps (ts & E & M & K)]; [exists []; cbn; split; [reflexivity|split; [reflexivity|intros t []]]|].
  destruct (C44_constructor p r d) as [_ Q]. destruct (Q Hd) as (c & Ec & N & A & B & C & D). exists (c :: ts). cbn [circles_at]. rewrite Ec, E. cbn [obind].
  split; [reflexivity|]. split; [cbn; rewrite A, M; reflexivity|]. intros t [<-|Ht]; [auto|apply K; assumption].
Qed.

Lemma tangentCircles_centers l c radius tol ts : proper l -> dir_ok c -> 0 <= c_radius c -> 0 < radius -> clear_crossing l c radius tol ->
  tangentCircles l c radius tol = Some ts ->
  (forall t, In t ts -> normalised t /\ c_radius t = radius /\ c_arc t = 2 * PI /\ c_dir t = (- c_dir c)%Z) /\
  (forall m, In m (map c_center ts) <->
    Rabs (pointSignedDistance l m) = radius /\ on_seg l (footPoint l m) /\ dist m (c_center c) = c_radius c + radius).
Proof.
  intros Hp Hd Hr Hrad Hcl E. unfold tangentCircles in E.
  destruct (C44_constructor (c_center c) (c_radius c + radius) (c_dir c)) as [_ Q].
  assert (Hdn : c_dir c <> 0%Z) by (destruct Hd as [-> | ->]; discriminate).
  destruct (Q Hdn) as (c2 & E2 & N2 & A2 & B2 & _ & _). rewrite E2 in E. cbn [obind] in E. rewrite Rabs_pos_eq in B2 by lra.
  assert (Hdn' : (c_dir c * -1)%Z <> 0%Z) by (destruct Hd as [-> | ->]; discriminate).
  destruct (circles_at_spec (lc_intersect (parallel l radius) c2 tol) radius _ Hdn') as (t1 & Et1 & M1 & K1). rewrite Et1 in E. cbn [obind] in E.
  destruct (circles_at_spec (lc_intersect (parallel l (- radius)) c2 tol) radius _ Hdn') as (t2 & Et2 & M2 & K2). rewrite Et2 in E. cbn [obind] in E.
  injection E as <-. split.
  - intros t Ht. assert (X : normalised t /\ c_radius t = Rabs radius /\ c_arc t = 2 * PI /\ c_dir t = (if (0 <? c_dir c * -1)%Z then 1 else -1)%Z).
    { apply in_app_or in Ht. destruct Ht; [apply K1|apply K2]; assumption. }
    destruct X as (X1 & X2 & X3 & X4). split; [assumption|]. rewrite Rabs_pos_eq in X2 by lra. split; [assumption|]. split; [assumption|].
    rewrite X4. destruct Hd as [-> | ->]; reflexivity.
  - intros m. rewrite map_app, M1, M2, in_app_iff.
    assert (L : forall e, (e = 1 \/ e = -1) -> In m (lc_intersect (parallel l (e * radius)) c2 tol) <->
       (pointSignedDistance l m = e * radius /\ on_seg l (footPoint l m)) /\ dist m (c_center c) = c_radius c + radius).
    { intros e He. rewrite C45_line_circle.
      - rewrite parallel_seg by assumption. unfold on_circle. rewrite A2, B2. tauto.
      - apply parallel_proper. assumption.
      - rewrite B2. lra.
      - rewrite disc_distance by (apply parallel_proper; assumption). rewrite parallel_llen, parallel_signed, A2, B2 by assumption. apply Hcl. assumption. }
    pose proof (L 1 (or_introl eq_refl)) as L1. pose proof (L (-1) (or_intror eq_refl)) as L2.
    replace (1 * radius) with radius in L1 by ring. replace (-1 * radius) with (- radius) in L2 by ring. rewrite L1, L2.
    split.
    + intros [[[S F] D]|[[S F] D]]; rewrite S; (split; [|split; assumption]); [apply Rabs_pos_eq; lra|rewrite Rabs_left; lra].
    + intros (S & F & D). unfold Rabs in S. destruct (Rcase_abs _) in S; [right|left]; (split; [split; [lra|assumption]|assumption]).
Qed.

(** Every tangent circle touches the segment and, from outside, the circle; it turns
    the other way; and all such circles (touching within the segment) are returned. *)
Theorem C46_tangentCircles : forall l c radius tol ts, proper l -> dir_ok c -> 0 <= c_radius c -> 0 < radius -> clear_crossing l c radius tol ->
  tangentCircles l c radius tol = Some ts ->
  (forall t, In t ts -> c_radius t = radius /\ c_dir t = (- c_dir c)%Z /\ line_contact t l (footPoint l (c_center t)) /\
     exists p, outer_contact t c p) /\
  (forall m p, on_seg l p -> vdot (psub m p) (psub (l_end l) (l_start l)) = 0 -> dist m p = radius ->
     dist m (c_center c) = c_radius c + radius -> exists t, In t ts /\ c_center t = m).
Proof.
  intros l c radius tol ts Hp Hd Hr Hrad Hcl E. destruct (tangentCircles_centers l c radius tol ts Hp Hd Hr Hrad Hcl E) as [K1 K2]. split.
  - intros t Ht. destruct (K1 t Ht) as (N & R1 & _ & D1). split; [assumption|]. split; [assumption|].
    assert (Hm : In (c_center t) (map c_center ts)) by (apply in_map; assumption). apply K2 in Hm. destruct Hm as (S & F & D). split.
    + split; [|split].
      * unfold on_circle. rewrite dist_sym, R1, <- S. symmetry. apply C43_signed_distance. assumption.
      * assumption.
      * apply C43_footPoint. assumption.
    + set (T := radius / (c_radius c + radius)). assert (HT : 0 <= T <= 1).
      { unfold T. split; [apply Rmult_le_pos; [lra|left; apply Rinv_0_lt_compat; lra]|]. apply (Rmult_le_reg_r (c_radius c + radius)); [lra|]. unfold Rdiv. rewrite Rmult_assoc, Rinv_l; lra. }
      assert (Hpc : proper (Ln (c_center t) (c_center c))).
      { unfold proper. cbn. intros X. rewrite X, dist_hyp, (proj2 (hyp_0 _ _)) in D by (split; ring). lra. }
      exists (at_t (Ln (c_center t) (c_center c)) T). split; [|split].
      * unfold on_circle. change (c_center t) with (l_start (Ln (c_center t) (c_center c))) at 2. rewrite <- at_0, dist_at. unfold llen. cbn [l_start l_end]. rewrite D, R1, Rminus_0_r, Rabs_pos_eq by lra. unfold T. field. lra.
      * unfold on_circle. change (c_center c) with (l_end (Ln (c_center t) (c_center c))) at 2. rewrite <- at_1, dist_at. unfold llen. cbn [l_start l_end]. rewrite D, Rabs_left1 by lra. unfold T. field. lra.
      * rewrite D, R1. ring.
  - intros m p Hs Hv Hdm Hdc.
    assert (F : footPoint l m = p).
    { destruct Hs as (u & _ & ->). rewrite foot_at by assumption. f_equal. pose proof (llen_pos l Hp) as HL. pose proof (llen_sq l) as Hq.
      unfold foot_t. apply (Rmult_eq_reg_r (llen l * llen l)); [|nra]. unfold Rdiv. rewrite Rmult_assoc, Rinv_l, Rmult_1_r by nra.
      rewrite Hq. unfold vdot, at_t, psub, padd, pmul in *. cbn [px py] in *. lra. }
    assert (Hin : In m (map c_center ts)).
    { apply K2. rewrite F. split; [|split; assumption]. destruct (C43_signed_distance l m Hp) as (A & _). rewrite A, F. assumption. }
    apply in_map_iff in Hin. destruct Hin as (t & Et & Ht). exists t. auto.
Qed.

(** ** Tangent arcs *)
(** The touch point found on the line of the two centres. *)
Lemma ccline_point t c tol : 0 < c_radius t -> 0 <= c_radius c -> dist (c_center t) (c_center c) = c_radius t + c_radius c ->
  tol * tol <= 4 * (c_radius t * c_radius t) * ((c_radius t + c_radius c) * (c_radius t + c_radius c)) ->
  exists p, lc_intersect (Ln (c_center t) (c_center c)) t tol = [p] /\ outer_contact t c p.
Proof.
  intros Ht Hc D Htol. set (l := Ln (c_center t) (c_center c)). set (r := c_radius t) in *. set (R := c_radius c) in *.
  assert (Hp : proper l) by (unfold proper, l; cbn; intros X; rewrite X, dist_hyp, (proj2 (hyp_0 _ _)) in D by (split; ring); lra).
  assert (L : llen l = r + R) by exact D.
  assert (A : lc_a l = (r + R) * (r + R)) by (rewrite lc_a_len, L; ring).
  assert (B : lc_b l t = 0) by (unfold lc_b, vdot, psub, l; cbn [px py l_start l_end]; ring).
  assert (C : lc_c l t = - (r * r)) by (unfold lc_c, sqn, vdot, l; cbn [px py l_start l_end]; fold r; ring).
  assert (Dc : lc_disc l t = (2 * r * (r + R)) * (2 * r * (r + R))) by (unfold lc_disc; rewrite A, B, C; ring).
  assert (Sq : sqrt (lc_disc l t) = 2 * r * (r + R)) by (rewrite Dc; apply sqrt_square; nra).
  assert (Hpos : 0 < 2 * r * (r + R)) by (apply Rmult_lt_0_compat; lra).
  exists (at_t l (r / (r + R))). split.
  - unfold lc_intersect. cbv zeta. rewrite Sq, A, B.
    assert (Hs : tol * tol = Rabs tol * Rabs tol) by (apply (Rsqr_abs tol)). rewrite Hs in Htol. set (tl := Rabs tol) in *.
    assert (HD : tl * tl <= lc_disc l t) by (rewrite Dc; lra). assert (0 <= tl * tl) by apply Rle_0_sqr.
    destruct (Rlt_dec (lc_disc l t) (- tl * tl)); [lra|]. destruct (Req_EM_T _ 0); [nra|].
    destruct (Rlt_dec (Rabs _) (tl * tl)) as [X|_]; [rewrite Rabs_pos_eq in X by lra; lra|]. destruct (Rlt_dec _ 0); [lra|].
    replace ((- 0 - 2 * r * (r + R)) / (2 * ((r + R) * (r + R)))) with (- (r / (r + R))) by (field; lra).
    replace ((- 0 + 2 * r * (r + R)) / (2 * ((r + R) * (r + R)))) with (r / (r + R)) by (field; lra).
    assert (Q : 0 < r / (r + R) <= 1).
    { split; [apply Rdiv_lt_0_compat; lra|]. apply (Rmult_le_reg_r (r + R)); [lra|]. unfold Rdiv. rewrite Rmult_assoc, Rinv_l; lra. }
    assert (Rltb (r / (r + R)) 0 = false) as -> by (apply Rltb_false; lra). rewrite andb_false_r.
    assert (in01 (- (r / (r + R))) = false) as -> by (apply not_true_is_false; rewrite in01_spec; lra).
    assert (in01 (r / (r + R)) = true) as -> by (apply in01_spec; lra). reflexivity.
  - assert (Q : 0 <= r / (r + R) <= 1).
    { split; [left; apply Rdiv_lt_0_compat; lra|]. apply (Rmult_le_reg_r (r + R)); [lra|]. unfold Rdiv. rewrite Rmult_assoc, Rinv_l; lra. }
    split; [|split].
    + unfold on_circle. change (c_center t) with (l_start l). rewrite <- at_0, dist_at, L, Rminus_0_r, Rabs_pos_eq by lra. fold r. field. lra.
    + unfold on_circle. change (c_center c) with (l_end l). rewrite <- at_1, dist_at, L, Rabs_left1 by lra. fold R. field. lra.
    + exact D.
Qed.

(** Heading along the line in a point of contact. *)
Lemma line_heading l t : proper l -> dir_ok t -> 0 < c_radius t -> pointSignedDistance l (c_center t) = dirR t * c_radius t ->
  Pt (cos (heading t (footPoint l (c_center t)))) (sin (heading t (footPoint l (c_center t)))) = normalized (psub (l_end l) (l_start l)).
Proof.
  intros Hp Hd Hr S. set (f := footPoint l (c_center t)). pose proof (llen_pos l Hp) as HL. pose proof (llen_sq l) as Hq.
  pose proof (gaop_polar t f) as G.
  assert (Df : dist f (c_center t) = c_radius t).
  { rewrite dist_sym. destruct (C43_signed_distance l (c_center t) Hp) as (A & _). unfold f. rewrite <- A, S. rewrite Rabs_mult, (Rabs_pos_eq (c_radius t)) by lra.
    unfold dirR. destruct Hd as [-> | ->]; [rewrite Rabs_R1|rewrite Rabs_left by lra]; ring. }
  rewrite Df in G. unfold heading.
  set (u := normalized (psub (l_end l) (l_start l))) in *.
  assert (F : psub f (c_center t) = Pt (dirR t * c_radius t * py u) (- (dirR t * c_radius t) * px u)).
  { unfold f, footPoint. rewrite S. fold u. unfold psub. cbv zeta. cbn [px py]. apply pt_ext; cbn [px py]; ring. }
  rewrite F in G. clearbody u. unfold pmul in G. cbn [px py] in G. injection G as G1 G2.
  set (g := getAngleOfPoint t f) in *. unfold dirR in *.
  assert (C1 : cos g = IZR (c_dir t) * py u) by (apply (Rmult_eq_reg_r (c_radius t)); [|lra]; lra).
  assert (C2 : sin g = - IZR (c_dir t) * px u) by (apply (Rmult_eq_reg_r (c_radius t)); [|lra]; lra).
  destruct Hd as [E|E]; rewrite E in *.
  - replace (g + 1 * (PI / 2)) with (PI / 2 + g) by ring. rewrite <- cos_sin. replace (PI / 2 + g) with (g + PI / 2) by ring. rewrite cos_plus, cos_PI2, sin_PI2.
    apply pt_ext; cbn [px py]; lra.
  - replace (g + -1 * (PI / 2)) with (- (PI / 2 - g)) by ring. rewrite cos_neg, sin_neg, cos_shift, sin_shift. apply pt_ext; cbn [px py]; lra.
Qed.

(** The side test with the area tolerance: strictly left is +1, strictly right -1. *)
Lemma rel_pos l m tol : proper l -> let pos := pointRelativePosition l m tol in
  (pos = 1%Z /\ 0 < pointSignedDistance l m) \/ (pos = (-1)%Z /\ pointSignedDistance l m < 0) \/ pos = 0%Z.
Proof.
  intros Hp pos. pose proof (llen_pos l Hp) as HL. unfold pos, pointRelativePosition, pointSignedDistance. cbv zeta. rewrite llen_len.
  set (d := _ - _). pose proof (Rabs_pos tol). destruct (Rlt_dec (Rabs tol) d).
  - left. split; [reflexivity|]. apply Rdiv_lt_0_compat; lra.
  - destruct (Rlt_dec d (- Rabs tol)); [right; left|right; right; reflexivity]. split; [reflexivity|].
    unfold Rdiv. apply Rmult_lt_reg_r with (llen l); [assumption|]. rewrite Rmult_assoc, Rinv_l by lra. lra.
Qed.
Lemma turn_side_signed l t tol : proper l -> dir_ok t -> Rabs (pointSignedDistance l (c_center t)) = c_radius t ->
  (pointRelativePosition l (c_center t) tol =? 0)%Z = false -> turn_side t (pointRelativePosition l (c_center t) tol) = true ->
  pointSignedDistance l (c_center t) = dirR t * c_radius t.
Proof.
  intros Hp Hd Ha Hz Hs. apply Z.eqb_neq in Hz. unfold turn_side in Hs. unfold dirR.
  destruct (rel_pos l (c_center t) tol Hp) as [[E P]|[[E P]|E]]; [| |contradiction]; rewrite E in Hs.
  - destruct Hd as [D|D]; rewrite D in Hs |- *; [|discriminate]. rewrite <- Ha, Rabs_pos_eq; lra.
  - destruct Hd as [D|D]; rewrite D in Hs |- *; [discriminate|]. rewrite <- Ha, Rabs_left; lra.
Qed.

(** A join from the segment to the circle: starts on the segment driving along it,
    ends on the circle driving along it. *)
Definition joins_lc (l : line) (c t : circle) (radius : R) : Prop :=
  exists p, c_radius t = radius /\ c_dir t = (- c_dir c)%Z /\ normalised t /\
    line_contact t l (startPoint t) /\ endPoint t = Some p /\ outer_contact t c p /\
    Pt (cos (heading t (startPoint t))) (sin (heading t (startPoint t))) = normalized (psub (l_end l) (l_start l)) /\
    angle_eq (heading t p) (heading c p).
Definition joins_cl (l : line) (c t : circle) (radius : R) : Prop :=
  exists p, c_radius t = radius /\ c_dir t = (- c_dir c)%Z /\ normalised t /\
    endPoint t = Some p /\ line_contact t l p /\ outer_contact t c (startPoint t) /\
    Pt (cos (heading t p)) (sin (heading t p)) = normalized (psub (l_end l) (l_start l)) /\
    angle_eq (heading c (startPoint t)) (heading t (startPoint t)).

Lemma collect_in f : forall ts res, collect f ts = Some res -> forall x, In x res -> exists t r, In t ts /\ f t = Some r /\ In x r.
Proof.
  induction ts as [|t ts IH]; intros res E x Hx; cbn [collect] in E.
  - injection E as <-. destruct Hx.
  - destruct (f t) as [a|] eqn:Ef; [|discriminate]. cbn [obind] in E. destruct (collect f ts) as [b|] eqn:Eb; [|discriminate]. cbn [obind] in E. injection E as <-.
    apply in_app_or in Hx. destruct Hx as [Hx|Hx].
    + exists t, a. cbn. auto.
    + destruct (IH b eq_refl x Hx) as (t' & r & H1 & H2 & H3). exists t', r. cbn. auto.
Qed.

Lemma heading_cc c c' p : c_center c' = c_center c -> c_dir c' = c_dir c -> heading c' p = heading c p.
Proof. intros E1 E2. unfold heading, dirR. rewrite (gaop_cc c c' p E1), E2. reflexivity. Qed.
Lemma outer_cc t t' c p : c_center t' = c_center t -> c_radius t' = c_radius t -> outer_contact t c p -> outer_contact t' c p.
Proof. unfold outer_contact, on_circle. intros -> ->. auto. Qed.
Lemma line_contact_cc t t' l p : c_center t' = c_center t -> c_radius t' = c_radius t -> line_contact t l p -> line_contact t' l p.
Proof. unfold line_contact, on_circle. intros -> ->. auto. Qed.

Theorem C46_tangentArc_from_line : forall l c radius tol arcs, proper l -> dir_ok c -> 0 < c_radius c -> 0 < radius -> clear_crossing l c radius tol ->
  tol * tol <= 4 * (radius * radius) * ((radius + c_radius c) * (radius + c_radius c)) ->
  tangentArc_lc l c radius tol = Some arcs -> forall t, In t arcs -> joins_lc l c t radius.
Proof.
  intros l c radius tol arcs Hp Hd Hr Hrad Hcl Htol E x Hx. unfold tangentArc_lc in E.
  destruct (tangentCircles l c radius tol) as [ts|] eqn:Et; [|discriminate]. cbn [obind] in E.
  destruct (collect_in _ _ _ E x Hx) as (t & res & Ht & Ef & Hxr).
  destruct (tangentCircles_centers l c radius tol ts Hp Hd ltac:(lra) Hrad Hcl Et) as [K1 K2].
  destruct (K1 t Ht) as (N & R1 & _ & D1). assert (Hm : In (c_center t) (map c_center ts)) by (apply in_map; assumption). apply K2 in Hm. destruct Hm as (S & F & D).
  destruct (C46_tangentCircles l c radius tol ts Hp Hd ltac:(lra) Hrad Hcl Et) as [K3 _]. destruct (K3 t Ht) as (_ & _ & LC & _). clear K1 K2 K3.
  unfold arc_lc in Ef. cbv zeta in Ef. destruct (_ =? 0)%Z eqn:Ez in Ef; [injection Ef as <-; destruct Hxr|].
  destruct (turn_side t _) eqn:Es in Ef; [|injection Ef as <-; destruct Hxr].
  set (f := footPoint l (c_center t)) in *.
  destruct (setStartPt_spec t f (proj1 N)) as (t1 & E1 & N1 & A1 & B1 & C1 & P1 & S1 & _); [lra|apply LC|]. rewrite E1 in Ef. cbn [obind] in Ef.
  destruct (ccline_point t1 c tol) as (p & Ep & O); [lra|lra|rewrite A1, B1, R1; lra|rewrite B1, R1; assumption|]. rewrite Ep in Ef.
  destruct (setEndPt_spec t1 p (proj1 N1)) as (t2 & E2 & Ar & A2 & B2 & C2 & St2 & P2 & Q2 & _); [apply O|]. rewrite E2 in Ef. cbn [obind] in Ef. injection Ef as <-.
  destruct Hxr as [<-|[]].
  assert (R2 : c_radius t2 = radius) by (rewrite B2, B1; assumption).
  assert (D2 : c_dir t2 = (- c_dir c)%Z) by (rewrite C2, C1; assumption).
  assert (Ctr : c_center t2 = c_center t) by (rewrite A2; assumption).
  assert (N2 : normalised t2).
  { destruct N1 as (M1 & M2 & _ & M4). unfold normalised, dir_ok in *. rewrite St2, B2, C2. auto. }
  assert (Start : startPoint t2 = f) by (rewrite P2; assumption).
  exists p. split; [assumption|]. split; [assumption|]. split; [assumption|]. rewrite Start. split; [|split; [assumption|split; [|split]]].
  - apply (line_contact_cc t); [assumption|lra|assumption].
  - apply (outer_cc t1); auto.
  - assert (dir_ok t2) as Dk by apply N2. assert (Cf : f = footPoint l (c_center t2)) by (rewrite Ctr; reflexivity). rewrite Cf. apply line_heading; [assumption|assumption|lra|].
    rewrite Ctr, R2. unfold dirR. rewrite C2, C1. change (IZR (c_dir t)) with (dirR t). rewrite <- R1. apply turn_side_signed with tol; try assumption; [apply N|lra].
  - apply C46_outer_contact_heading; [lra|lra|apply N2|assumption|apply (outer_cc t1); auto|assumption].
Qed.

Theorem C46_tangentArc_to_line : forall l c radius tol arcs, proper l -> dir_ok c -> 0 < c_radius c -> 0 < radius -> clear_crossing l c radius tol ->
  tol * tol <= 4 * (radius * radius) * ((radius + c_radius c) * (radius + c_radius c)) ->
  tangentArc_cl l c radius tol = Some arcs -> forall t, In t arcs -> joins_cl l c t radius.
Proof.
  intros l c radius tol arcs Hp Hd Hr Hrad Hcl Htol E x Hx. unfold tangentArc_cl in E.
  destruct (tangentCircles l c radius tol) as [ts|] eqn:Et; [|discriminate]. cbn [obind] in E.
  destruct (collect_in _ _ _ E x Hx) as (t & res & Ht & Ef & Hxr).
  destruct (tangentCircles_centers l c radius tol ts Hp Hd ltac:(lra) Hrad Hcl Et) as [K1 K2].
  destruct (K1 t Ht) as (N & R1 & _ & D1). assert (Hm : In (c_center t) (map c_center ts)) by (apply in_map; assumption). apply K2 in Hm. destruct Hm as (S & F & D).
  destruct (C46_tangentCircles l c radius tol ts Hp Hd ltac:(lra) Hrad Hcl Et) as [K3 _]. destruct (K3 t Ht) as (_ & _ & LC & _). clear K1 K2 K3.
  unfold arc_cl in Ef. cbv zeta in Ef. destruct (_ =? 0)%Z eqn:Ez in Ef; [injection Ef as <-; destruct Hxr|].
  destruct (turn_side t _) eqn:Es in Ef; [|injection Ef as <-; destruct Hxr].
  set (f := footPoint l (c_center t)) in *.
  destruct (ccline_point t c tol) as (p & Ep & O); [lra|lra|rewrite R1; lra|rewrite R1; assumption|]. rewrite Ep in Ef.
  destruct (setStartPt_spec t p (proj1 N)) as (t1 & E1 & N1 & A1 & B1 & C1 & P1 & S1 & _); [lra|apply O|]. rewrite E1 in Ef. cbn [obind] in Ef.
  rewrite A1 in Ef. fold f in Ef.
  destruct (setEndPt_spec t1 f (proj1 N1)) as (t2 & E2 & Ar & A2 & B2 & C2 & St2 & P2 & Q2 & _); [apply (on_circle_cc t); auto; apply LC|]. rewrite E2 in Ef. cbn [obind] in Ef. injection Ef as <-.
  destruct Hxr as [<-|[]].
  assert (R2 : c_radius t2 = radius) by (rewrite B2, B1; assumption).
  assert (D2 : c_dir t2 = (- c_dir c)%Z) by (rewrite C2, C1; assumption).
  assert (Ctr : c_center t2 = c_center t) by (rewrite A2; assumption).
  assert (N2 : normalised t2).
  { destruct N1 as (M1 & M2 & _ & M4). unfold normalised, dir_ok in *. rewrite St2, B2, C2. auto. }
  assert (Start : startPoint t2 = p) by (rewrite P2; assumption).
  exists f. split; [assumption|]. split; [assumption|]. split; [assumption|]. rewrite Start. split; [assumption|]. split; [|split; [|split]].
  - apply (line_contact_cc t); [assumption|lra|assumption].
  - apply (outer_cc t); auto. lra.
  - assert (dir_ok t2) as Dk by apply N2. assert (Cf : f = footPoint l (c_center t2)) by (rewrite Ctr; reflexivity). rewrite Cf. apply line_heading; [assumption|assumption|lra|].
    rewrite Ctr, R2. unfold dirR. rewrite C2, C1. change (IZR (c_dir t)) with (dirR t). rewrite <- R1. apply turn_side_signed with tol; try assumption; [apply N|lra].
  - apply angle_eq_sym. apply C46_outer_contact_heading; [lra|lra|apply N2|assumption|apply (outer_cc t); auto; lra|assumption].
Qed.

(** ** Paths *)
Lemma min_arc_spec : forall l b, In (min_arc b l) (b :: l) /\ forall x, In x (b :: l) -> Rabs (c_arc (min_arc b l)) <= Rabs (c_arc x).
Proof.
  induction l as [|c l IH]; intros b; cbn [min_arc].
  - split; [left; reflexivity|]. intros x [<-|[]]. lra.
  - unfold compareArcAngle, getArcAngle. destruct (Rltb _ _) eqn:E.
    + apply Rltb_spec in E. destruct (IH c) as [I1 I2]. split; [right; exact I1|]. intros x [<-|Hx]; [|apply I2; assumption].
      specialize (I2 c (or_introl eq_refl)). lra.
    + apply Rltb_false in E. destruct (IH b) as [I1 I2]. split; [destruct I1 as [<-|I1]; [left; reflexivity|right; right; exact I1]|].
      intros x [<-|[<-|Hx]].
      * apply I2. left. reflexivity.
      * specialize (I2 b (or_introl eq_refl)). lra.
      * apply I2. right. assumption.
Qed.

(** From a segment onto a circle: segment start -> touch point, arc, full turn of the
    circle from the second touch point; smooth at both joints; the arc is the shortest
    of all tangent arcs. *)
Theorem C46_path_line_to_circle : forall l c radius path, proper l -> dir_ok c -> 0 < c_radius c -> 0 < radius -> clear_crossing l c radius DIST_EPS ->
  DIST_EPS * DIST_EPS <= 4 * (radius * radius) * ((radius + c_radius c) * (radius + c_radius c)) ->
  tangentPath_lc l c radius = Some path -> path <> [] ->
  exists t e p arcs, path = [SLine (Ln (l_start l) (startPoint t)); SCirc t; SCirc e] /\
    joins_lc l c t radius /\ endPoint t = Some p /\ startPoint e = p /\
    c_center e = c_center c /\ c_radius e = c_radius c /\ c_dir e = c_dir c /\ c_arc e = 2 * PI /\
    tangentArc_lc l c radius DIST_EPS = Some arcs /\ In t arcs /\ forall a, In a arcs -> c_arc t <= c_arc a.
Proof.
  intros l c radius path Hp Hd Hr Hrad Hcl Htol E Hne. unfold tangentPath_lc in E.
  destruct (tangentArc_lc l c radius DIST_EPS) as [arcs|] eqn:Ea; [|discriminate]. cbn [obind] in E.
  pose proof (C46_tangentArc_from_line l c radius DIST_EPS arcs Hp Hd Hr Hrad Hcl Htol Ea) as J.
  destruct arcs as [|a r]; [injection E as <-; contradiction|]. cbv zeta in E.
  destruct (min_arc_spec r a) as [I1 I2]. set (t := min_arc a r) in *. destruct (J t I1) as (p & Jt). pose proof Jt as (R1 & D1 & N1 & LC & Ep & O & H1 & H2).
  rewrite Ep in E. cbn [obind] in E.
  destruct (setStartPt_spec c p Hd ltac:(lra)) as (e1 & E1 & N1' & A1 & B1 & C1 & P1 & S1 & _); [apply O|]. rewrite E1 in E. cbn [obind] in E.
  destruct (C44_setArcAngle e1 (2 * PI)) as (e2 & E2 & _ & _ & F2 & A2 & B2 & C2 & D2). rewrite E2 in E. cbn [obind] in E.
  match type of E with Some ?x = Some _ => assert (Q : path = x) by congruence end. rewrite Q. exists t, e2, p, (a :: r).
  split; [reflexivity|]. split; [exists p; exact Jt|]. split; [exact Ep|]. split.
  { rewrite <- P1. unfold startPoint. rewrite <- !circ_pt_eq. unfold circ_pt. rewrite A2, B2, D2. reflexivity. }
  split; [congruence|]. split; [congruence|]. split; [congruence|]. pose proof PI_RGT_0. split; [apply F2; lra|]. split; [reflexivity|]. split; [exact I1|].
  intros x Hx. specialize (I2 x Hx). destruct (J x Hx) as (px & Jx). destruct Jx as (_ & _ & Nx & _).
  rewrite !Rabs_pos_eq in I2; [assumption|apply Nx|apply N1].
Qed.

(** From a circle onto a segment. *)
Theorem C46_path_circle_to_line : forall l c radius path, proper l -> normalised c -> 0 < c_radius c -> 0 < radius -> clear_crossing l c radius DIST_EPS ->
  DIST_EPS * DIST_EPS <= 4 * (radius * radius) * ((radius + c_radius c) * (radius + c_radius c)) ->
  tangentPath_cl c l radius = Some path -> path <> [] ->
  exists t s p arcs, path = [SCirc s; SCirc t; SLine (Ln p (l_end l))] /\
    joins_cl l c t radius /\ endPoint t = Some p /\ endPoint s = Some (startPoint t) /\
    startPoint s = startPoint c /\ c_center s = c_center c /\ c_radius s = c_radius c /\ c_dir s = c_dir c /\
    tangentArc_cl l c radius DIST_EPS = Some arcs /\ In t arcs /\ forall a, In a arcs -> c_arc t <= c_arc a.
Proof.
  intros l c radius path Hp Nc Hr Hrad Hcl Htol E Hne. pose proof (proj1 Nc) as Hd. unfold tangentPath_cl in E.
  destruct (tangentArc_cl l c radius DIST_EPS) as [arcs|] eqn:Ea; [|discriminate]. cbn [obind] in E.
  pose proof (C46_tangentArc_to_line l c radius DIST_EPS arcs Hp Hd Hr Hrad Hcl Htol Ea) as J.
  destruct arcs as [|a r]; [injection E as <-; contradiction|]. cbv zeta in E.
  destruct (min_arc_spec r a) as [I1 I2]. set (t := min_arc a r) in *. destruct (J t I1) as (p & Jt). pose proof Jt as (R1 & D1 & N1 & Ep & LC & O & H1 & H2).
  rewrite Ep in E. cbn [obind] in E.
  unfold c_selectEndPoint in E. destruct (Rlt_dec _ DIST_EPS) as [_|X] in E.
  2:{ exfalso. apply X. rewrite <- dist_len. destruct O as (_ & O2 & _). rewrite O2, Rminus_eq_0, Rabs_R0. unfold DIST_EPS. lra. }
  destruct (setEndPt_spec c (startPoint t) Hd) as (s & E1 & _ & A1 & B1 & C1 & S1 & P1 & Q1 & _); [apply O|]. rewrite E1 in E. cbn [obind snd] in E.
  match type of E with Some ?x = Some _ => assert (Q : path = x) by congruence end. rewrite Q. exists t, s, p, (a :: r).
  split; [reflexivity|]. split; [exists p; exact Jt|]. split; [exact Ep|]. split; [exact Q1|]. split; [exact P1|]. split; [exact A1|]. split; [exact B1|]. split; [exact C1|].
  split; [reflexivity|]. split; [exact I1|].
  intros x Hx. specialize (I2 x Hx). destruct (J x Hx) as (px & Jx). destruct Jx as (_ & _ & Nx & _).
  rewrite !Rabs_pos_eq in I2; [assumption|apply Nx|apply N1].
Qed.

(** ** Tangent circles between two circles *)
Theorem C46_tangentInnerCircles : forall c1 c2 radius tol ts, dir_ok c1 -> dir_ok c2 -> 0 <= c_radius c1 -> 0 < radius -> 0 < tol ->
  tol <= dist (c_center c1) (c_center c2) -> tangentInnerCircles c1 c2 radius tol = Some ts ->
  (c_radius c2 <= radius -> ts = []) /\
  (forall t, In t ts -> c_radius t = radius /\ c_dir t = c_dir c2) /\
  (length ts <> 1%nat -> radius < c_radius c2 ->
    forall m, In m (map c_center ts) <-> dist m (c_center c1) = c_radius c1 + radius /\ dist m (c_center c2) = c_radius c2 - radius).
Proof.
  intros c1 c2 radius tol ts H1 H2 Hr1 Hrad Ht Hdist E. unfold tangentInnerCircles in E.
  destruct (Rle_dec (c_radius c2) radius) as [Hle|Hgt].
  { injection E as <-. split; [reflexivity|]. split; [intros t []|]. intros _ X. lra. }
  assert (Hn1 : c_dir c1 <> 0%Z) by (destruct H1 as [-> | ->]; discriminate). assert (Hn2 : c_dir c2 <> 0%Z) by (destruct H2 as [-> | ->]; discriminate).
  destruct (C44_constructor (c_center c1) (c_radius c1 + radius) (c_dir c1)) as [_ Q1]. destruct (Q1 Hn1) as (lg & El & Nl & Al & Bl & _ & _).
  destruct (C44_constructor (c_center c2) (c_radius c2 - radius) (c_dir c2)) as [_ Q2]. destruct (Q2 Hn2) as (sm & Es & Ns & As & Bs & _ & _).
  rewrite El, Es in E. cbn [obind] in E. rewrite Rabs_pos_eq in Bl, Bs by lra.
  destruct (cc_intersect lg sm [] tol) as [ip|] eqn:Ei; [|discriminate]. cbn [obind] in E.
  destruct (circles_at_spec ip radius _ Hn2) as (ts' & Et & M & K). rewrite Et in E. injection E as <-.
  split; [lra|]. split.
  - intros t Hi. destruct (K t Hi) as (_ & R & _ & D). rewrite Rabs_pos_eq in R by lra. split; [assumption|]. rewrite D. destruct H2 as [-> | ->]; reflexivity.
  - intros Hl _ m. rewrite M. rewrite <- Al, <- As in Hdist.
    destruct (C45_circles lg sm [] tol ip Ht (proj2 (proj2 (proj2 Nl))) (proj2 (proj2 (proj2 Ns))) Hdist Ei) as (_ & C & _).
    destruct C as [_ C]; [rewrite <- M, map_length; assumption|]. rewrite C. unfold on_circle. rewrite Al, As, Bl, Bs. reflexivity.
Qed.

(** A path that starts on the small circle is never found: the candidate arcs keep
    their full turn, which is more than the half turn allowed. *)
Theorem C46_from_small_refuted : forall small large radius tol path, dir_ok small -> dir_ok large ->
  tangentPath_cc small large radius true tol = Some path -> path = [].
Proof.
  intros small large radius tol path H1 H2 E. pose proof PI_RGT_0 as HP. unfold tangentPath_cc in E.
  destruct (tangentInnerCircles small large radius tol) as [ts|] eqn:Et; [|discriminate]. cbn [obind] in E.
  destruct (collect _ ts) as [arcs|] eqn:Ec; [|discriminate]. cbn [obind] in E.
  assert (F : forall t, In t ts -> c_arc t = 2 * PI).
  { unfold tangentInnerCircles in Et. destruct (Rle_dec _ _); [injection Et as <-; intros t []|].
    destruct (mk_circle (c_center small) _ _) as [lg|]; [|discriminate]. cbn [obind] in Et. destruct (mk_circle (c_center large) _ _) as [sm|]; [|discriminate]. cbn [obind] in Et.
    destruct (cc_intersect lg sm [] tol) as [ip|]; [|discriminate]. cbn [obind] in Et.
    assert (Hn2 : c_dir large <> 0%Z) by (destruct H2 as [-> | ->]; discriminate).
    destruct (circles_at_spec ip radius _ Hn2) as (ts' & Et' & _ & K). rewrite Et' in Et. injection Et as <-. intros t Ht. apply K. assumption. }
  assert (G : forall t, In t arcs -> c_arc t = 2 * PI).
  { intros x Hx. destruct (collect_in _ _ _ Ec x Hx) as (t & res & Ht & Ef & Hr). unfold inner_touch in Ef.
    destruct (cc_intersectArcs small t tol) as [is|]; [|discriminate]. cbn [obind] in Ef. destruct (cc_intersectArcs t large tol) as [il|]; [|discriminate]. cbn [obind] in Ef.
    destruct is as [|ps [|? ?]]; try (injection Ef as <-; destruct Hr).
    destruct il as [|pl [|? ?]]; try (injection Ef as <-; destruct Hr); subst; try contradiction. apply F. assumption. }
  destruct arcs as [|a r]; [injection E as <-; reflexivity|]. cbv zeta in E.
  destruct (min_arc_spec r a) as [I1 _]. unfold getArcAngle in E. rewrite (G _ I1) in E. destruct (Rlt_dec PI (2 * PI)); [injection E as <-; reflexivity|lra].
Qed.

(** ** The arc between a large and a small circle (path leaving the large circle) *)
(** Exact contact is found exactly. *)
Lemma cc_exact_outer c1 c2 tol : 0 < tol -> 0 < c_radius c1 -> 0 < c_radius c2 -> tol <= dist (c_center c1) (c_center c2) ->
  dist (c_center c1) (c_center c2) = c_radius c1 + c_radius c2 ->
  exists p, cc_intersect c1 c2 [] tol = Some [p] /\ outer_contact c1 c2 p.
Proof.
  intros Ht Hr1 Hr2 Hd D. destruct (cc_intersect c1 c2 [] tol) as [res|] eqn:E.
  - pose proof (cc_cases c1 c2 [] tol res Ht ltac:(lra) ltac:(lra) Hd E) as K. cbv zeta in K.
    set (r1 := c_radius c1) in *. set (r2 := c_radius c2) in *.
    assert (A : (r1 * r1 - r2 * r2 + dist (c_center c1) (c_center c2) * dist (c_center c1) (c_center c2)) / (2 * dist (c_center c1) (c_center c2)) = r1) by (rewrite D; field; lra).
    rewrite A in K.
    destruct K as [[_ K]|[[Er K]|(h & Hh & Hs & _)]].
    + exfalso. destruct K as [K|[K|K]]; try lra. unfold Rabs in K. destruct (Rcase_abs _); lra.
    + eexists. split; [rewrite Er; reflexivity|].
      assert (Hd0 : 0 < len (psub (c_center c2) (c_center c1))) by (rewrite dist_centers; lra).
      pose proof (p_dist1 c1 c2 Hd0) as P1. pose proof (p_dist2 c1 c2 Hd0) as P2. rewrite dist_centers in P1, P2. fold r1 r2 in P1, P2. rewrite A in P1, P2.
      split; [|split].
      * unfold on_circle. rewrite P1. apply Rabs_pos_eq. unfold r1 in *; lra.
      * unfold on_circle. rewrite P2, D. fold r2. rewrite Rabs_pos_eq; lra.
      * exact D.
    + exfalso. nra.
  - exfalso. unfold cc_intersect in E. rewrite dist_centers in E. cbv zeta in E. rewrite (Rabs_pos_eq tol) in E by lra.
    destruct (Rlt_dec _ tol) in E; [lra|]. destruct (Rlt_dec _ (dist _ _)) in E; [discriminate|]. destruct (Rlt_dec _ (Rabs _)) in E; [discriminate|].
    destruct (_ && _) in E; [discriminate|]. destruct (Req_EM_T _ 0) in E; [lra|].
    assert (B : Rltb (Rabs (c_radius c1 + c_radius c2 - dist (c_center c1) (c_center c2))) tol = true).
    { apply Rltb_spec. rewrite D, Rminus_eq_0, Rabs_R0. assumption. }
    rewrite B in E. discriminate.
Qed.
Lemma cc_exact_inner t c tol : 0 < tol -> 0 < c_radius t -> c_radius t < c_radius c -> tol <= dist (c_center t) (c_center c) ->
  dist (c_center t) (c_center c) = c_radius c - c_radius t ->
  exists p, cc_intersect t c [] tol = Some [p] /\ inner_contact t c p.
Proof.
  intros Ht Hr1 Hr2 Hd D.
  set (r1 := c_radius t) in *. set (r2 := c_radius c) in *.
  assert (A : (r1 * r1 - r2 * r2 + dist (c_center t) (c_center c) * dist (c_center t) (c_center c)) / (2 * dist (c_center t) (c_center c)) = - r1) by (rewrite D; field; lra).
  destruct (cc_intersect t c [] tol) as [res|] eqn:E.
  - pose proof (cc_cases t c [] tol res Ht ltac:(unfold r1 in *; lra) ltac:(unfold r1, r2 in *; lra) Hd E) as K. cbv zeta in K. fold r1 r2 in K. rewrite A in K.
    destruct K as [[_ K]|[[Er K]|(h & Hh & Hs & _)]].
    + exfalso. destruct K as [K|[K|K]]; try lra. unfold Rabs in K. destruct (Rcase_abs _); lra.
    + eexists. split; [rewrite Er; reflexivity|].
      assert (Hd0 : 0 < len (psub (c_center c) (c_center t))) by (rewrite dist_centers; lra).
      pose proof (p_dist1 t c Hd0) as P1. pose proof (p_dist2 t c Hd0) as P2. rewrite dist_centers in P1, P2. fold r1 r2 in P1, P2. rewrite A in P1, P2.
      split; [|split].
      * unfold on_circle. rewrite P1, Rabs_Ropp. apply Rabs_pos_eq. unfold r1 in *. lra.
      * unfold on_circle. rewrite P2, D. fold r2. rewrite Rabs_pos_eq; lra.
      * exact D.
    + exfalso. nra.
  - exfalso. unfold cc_intersect in E. rewrite dist_centers in E. cbv zeta in E. rewrite (Rabs_pos_eq tol) in E by lra. fold r1 r2 in E. rewrite A in E.
    destruct (Rlt_dec _ tol) in E; [lra|]. destruct (Rlt_dec _ (dist _ _)) in E; [discriminate|]. destruct (Rlt_dec _ (Rabs _)) in E; [discriminate|].
    destruct (_ && _) in E; [discriminate|]. destruct (Req_EM_T _ 0) in E; [lra|]. destruct (_ || _) in E; [discriminate|].
    assert (B : Rltb (Rabs (r1 * r1 - - r1 * - r1)) (tol * tol) = true).
    { apply Rltb_spec. replace (r1 * r1 - - r1 * - r1) with 0 by ring. rewrite Rabs_R0. nra. }
    rewrite B in E. rewrite sqrt_0 in E. destruct (Rlt_dec 0 tol) in E; [discriminate|lra].
Qed.

(** tangentInnerArcs and the path from the large circle: the chosen arc starts and ends
    in the contact points. Stated for one exactly tangent candidate circle. *)
Theorem C46_inner_touch : forall small large tol t res, 0 < tol -> dir_ok small -> dir_ok large -> normalised t ->
  0 < c_radius small -> 0 < c_radius t -> c_radius t < c_radius large -> tol <= c_radius large - c_radius t -> tol <= c_radius small + c_radius t ->
  dist (c_center t) (c_center small) = c_radius small + c_radius t ->
  dist (c_center t) (c_center large) = c_radius large - c_radius t ->
  inner_touch small large false tol t = Some res ->
  forall x, In x res -> exists ps, c_center x = c_center t /\ c_radius x = c_radius t /\ c_dir x = c_dir t /\
    inner_contact x large (startPoint x) /\ endPoint x = Some ps /\ outer_contact x small ps.
Proof.
  intros small large tol t res Ht Hds Hdl Nt Hs Hrt Hl Hd1 Hd2 D1 D2 E x Hx. unfold inner_touch, cc_intersectArcs in E.
  destruct (cc_exact_outer small t tol Ht Hs Hrt) as (p1 & E1 & O1); [rewrite dist_sym; lra|rewrite dist_sym; lra|].
  destruct (cc_exact_inner t large tol Ht Hrt Hl) as (p2 & E2 & O2); [lra|lra|].
  rewrite E1, E2 in E. cbn [obind filter] in E.
  destruct (_ && _) in E; [|injection E as <-; destruct Hx].
  destruct (isPointOnArc t p2 DIST_EPS && isPointOnArc large p2 DIST_EPS) in E; [|injection E as <-; destruct Hx].
  assert (Sel : forall c p, on_circle c p -> Rabs (len (psub p (c_center c)) - c_radius c) < DIST_EPS).
  { intros c p O. rewrite <- dist_len, O, Rminus_eq_0, Rabs_R0. unfold DIST_EPS. lra. }
  unfold c_selectStartPoint in E. destruct (Rlt_dec _ DIST_EPS) as [_|X] in E; [|exfalso; apply X, Sel, O2].
  destruct (setStartPt_spec t p2 (proj1 Nt) ltac:(lra)) as (t1 & F1 & N1 & A1 & B1 & C1 & P1 & _ & _); [apply O2|]. rewrite F1 in E. cbn [obind snd] in E.
  assert (Ot1 : on_circle t1 p1) by (apply (on_circle_cc t); auto; apply O1).
  unfold c_selectEndPoint in E. destruct (Rlt_dec _ DIST_EPS) as [_|X] in E; [|exfalso; apply X, Sel, Ot1].
  destruct (setEndPt_spec t1 p1 (proj1 N1) Ot1) as (t2 & F2 & _ & A2 & B2 & C2 & _ & P2 & Q2 & _). rewrite F2 in E. cbn [obind snd] in E. injection E as <-.
  destruct Hx as [<-|[]]. exists p1. assert (Ctr : c_center t2 = c_center t) by congruence. assert (Rad : c_radius t2 = c_radius t) by congruence.
  split; [assumption|]. split; [assumption|]. split; [congruence|]. rewrite P2, P1. split; [|split; [assumption|]].
  - unfold inner_contact, on_circle in *. rewrite Ctr, Rad. assumption.
  - destruct O1 as (O1a & O1b & O1c). unfold outer_contact, on_circle in *. rewrite Ctr, Rad. split; [assumption|]. split; [assumption|]. rewrite D1. ring.
Qed.

(** Through an inner contact equal directions drive on smoothly. *)
Lemma inner_contact_angle t c p : 0 < c_radius t -> c_radius t < c_radius c -> inner_contact t c p ->
  angle_eq (getAngleOfPoint t p) (getAngleOfPoint c p).
Proof.
  intros Ht Hc (O1 & O2 & D). pose proof (gaop_polar c p) as G. rewrite O2 in G. pose proof O1 as O1'.
  apply on_circle_sq in O1; [|lra]. pose proof O2 as O2'. apply on_circle_sq in O2; [|lra].
  assert (D2 := dist_sq (c_center t) (c_center c)). rewrite D in D2.
  apply gaop_of_polar; [intros ->; unfold on_circle in O1'; rewrite dist_hyp, (proj2 (hyp_0 _ _)) in O1' by (split; ring); lra|]. rewrite O1'.
  set (r := c_radius t) in *. set (R := c_radius c) in *. set (g := getAngleOfPoint c p) in *.
  unfold psub, pmul in *. cbn [px py] in *. injection G as G1 G2.
  set (tx := px (c_center t)) in *. set (ty := py (c_center t)) in *. set (cx := px (c_center c)) in *. set (cy := py (c_center c)) in *. set (x := px p) in *. set (y := py p) in *.
  assert (Z : (R * (x - tx) - r * (x - cx)) * (R * (x - tx) - r * (x - cx)) + (R * (y - ty) - r * (y - cy)) * (R * (y - ty) - r * (y - cy)) = 0).
  { assert (DOT : 2 * ((x - tx) * (x - cx) + (y - ty) * (y - cy)) = 2 * (r * R)) by nra.
    replace ((R * (x - tx) - r * (x - cx)) * (R * (x - tx) - r * (x - cx)) + (R * (y - ty) - r * (y - cy)) * (R * (y - ty) - r * (y - cy)))
      with (R * R * ((x - tx) * (x - tx) + (y - ty) * (y - ty)) + r * r * ((x - cx) * (x - cx) + (y - cy) * (y - cy)) - r * R * (2 * ((x - tx) * (x - cx) + (y - ty) * (y - cy)))) by ring.
    rewrite O1, O2, DOT. ring. }
  apply sqsum0 in Z. destruct Z as [Z1 Z2]. rewrite G1 in Z1. rewrite G2 in Z2.
  apply pt_ext; cbn [px py]; apply (Rmult_eq_reg_l R); lra.
Qed.
Theorem C46_inner_contact_heading : forall t c p, 0 < c_radius t -> c_radius t < c_radius c -> c_dir t = c_dir c -> inner_contact t c p ->
  angle_eq (heading t p) (heading c p).
Proof.
  intros t c p Ht Hc Hd K. unfold heading, dirR. rewrite Hd. apply angle_eq_plus; [apply inner_contact_angle; assumption|apply angle_eq_refl].
Qed.

(** ** Completeness: a path is returned exactly when a join exists *)
Lemma collect_total f : forall ts, (forall t, In t ts -> exists r, f t = Some r) ->
  exists res, collect f ts = Some res /\ forall t r x, In t ts -> f t = Some r -> In x r -> In x res.
Proof.
  induction ts as [|t ts IH]; intros H; cbn [collect].
  - exists []. split; [reflexivity|]. intros ? ? ? [].
  - destruct (H t (or_introl eq_refl)) as (a & Ea). destruct IH as (b & Eb & K); [intros x Hx; apply H; right; assumption|]. rewrite Ea, Eb. cbn [obind].
    exists (a ++ b). split; [reflexivity|]. intros u r x [<-|Hu] Er Hx; apply in_or_app; [left; congruence|right; apply (K u r); assumption].
Qed.
Lemma rel_pos_side l m tol s : proper l -> Rabs tol < llen l * Rabs (pointSignedDistance l m) -> (s = 1%Z \/ s = (-1)%Z) ->
  pointSignedDistance l m = IZR s * Rabs (pointSignedDistance l m) -> pointRelativePosition l m tol = s.
Proof.
  intros Hp Ht Hs E. pose proof (llen_pos l Hp) as HL. set (q := Rabs (pointSignedDistance l m)) in *. unfold pointSignedDistance in E. cbv zeta in E. rewrite llen_len in E.
  unfold pointRelativePosition. cbv zeta. set (d := _ - _) in *.
  assert (Ed : d = IZR s * (llen l * q)). { replace d with (d / llen l * llen l) by (field; lra). rewrite E. ring. }
  pose proof (Rabs_pos tol). destruct Hs as [-> | ->].
  - destruct (Rlt_dec (Rabs tol) d); [reflexivity|]. lra.
  - destruct (Rlt_dec (Rabs tol) d); [lra|]. destruct (Rlt_dec d (- Rabs tol)); [reflexivity|lra].
Qed.
Lemma tangentCircles_defined l c radius tol : dir_ok c -> exists ts, tangentCircles l c radius tol = Some ts.
Proof.
  intros Hd. unfold tangentCircles.
  destruct (C44_constructor (c_center c) (c_radius c + radius) (c_dir c)) as [_ Q].
  assert (Hdn : c_dir c <> 0%Z) by (destruct Hd as [-> | ->]; discriminate).
  destruct (Q Hdn) as (c2 & E2 & _). rewrite E2. cbn [obind].
  assert (Hdn' : (c_dir c * -1)%Z <> 0%Z) by (destruct Hd as [-> | ->]; discriminate).
  destruct (circles_at_spec (lc_intersect (parallel l radius) c2 tol) radius _ Hdn') as (t1 & Et1 & _). rewrite Et1. cbn [obind].
  destruct (circles_at_spec (lc_intersect (parallel l (- radius)) c2 tol) radius _ Hdn') as (t2 & Et2 & _). rewrite Et2. cbn [obind]. eauto.
Qed.

(** Where the centre of a joining circle has to be: beside the segment on the side
    the joining circle turns to, and outside the circle. *)
Definition join_centre (l : line) (c : circle) (radius : R) (m : pt) : Prop :=
  pointSignedDistance l m = - dirR c * radius /\ on_seg l (footPoint l m) /\ dist m (c_center c) = c_radius c + radius.

Lemma arc_each l c radius tol t : proper l -> dir_ok c -> 0 < c_radius c -> 0 < radius ->
  tol * tol <= 4 * (radius * radius) * ((radius + c_radius c) * (radius + c_radius c)) ->
  normalised t -> c_radius t = radius -> c_dir t = (- c_dir c)%Z ->
  Rabs (pointSignedDistance l (c_center t)) = radius -> on_seg l (footPoint l (c_center t)) -> dist (c_center t) (c_center c) = c_radius c + radius ->
  (exists r, arc_lc l c tol t = Some r /\ (forall x, In x r -> c_center x = c_center t) /\ (Rabs tol < llen l * radius -> join_centre l c radius (c_center t) -> r <> [])) /\
  (exists r, arc_cl l c tol t = Some r /\ (forall x, In x r -> c_center x = c_center t) /\ (Rabs tol < llen l * radius -> join_centre l c radius (c_center t) -> r <> [])).
Proof.
  intros Hp Hd Hr Hrad Htol N R1 D1 S F D.
  assert (LC : on_circle t (footPoint l (c_center t))).
  { unfold on_circle. rewrite dist_sym, R1, <- S. symmetry. apply C43_signed_distance. assumption. }
  set (f := footPoint l (c_center t)) in *.
  assert (T : Rabs tol < llen l * radius -> join_centre l c radius (c_center t) ->
     (pointRelativePosition l (c_center t) tol =? 0)%Z = false /\ turn_side t (pointRelativePosition l (c_center t) tol) = true).
  { intros Ht (J & _). rewrite (rel_pos_side l (c_center t) tol (- c_dir c)%Z Hp).
    - rewrite <- D1. unfold turn_side. destruct (proj1 N) as [E|E]; rewrite E; split; reflexivity.
    - rewrite S. assumption.
    - destruct Hd as [-> | ->]; auto.
    - rewrite S, J, opp_IZR. unfold dirR. ring. }
  split.
  - unfold arc_lc. cbv zeta. destruct (_ =? 0)%Z eqn:Ez.
    { exists []. split; [reflexivity|]. split; [intros x []|]. intros A B. destruct (T A B). discriminate. }
    destruct (turn_side t _) eqn:Es.
    2:{ exists []. split; [reflexivity|]. split; [intros x []|]. intros A B. destruct (T A B). discriminate. }
    destruct (setStartPt_spec t f (proj1 N)) as (t1 & E1 & N1 & A1 & B1 & C1 & P1 & S1 & _); [lra|exact LC|]. fold f. rewrite E1. cbn [obind].
    destruct (ccline_point t1 c tol) as (p & Ep & O); [lra|lra|rewrite A1, B1, R1; lra|rewrite B1, R1; assumption|]. rewrite Ep.
    destruct (setEndPt_spec t1 p (proj1 N1)) as (t2 & E2 & Ar & A2 & B2 & C2 & St2 & P2 & Q2 & _); [apply O|]. rewrite E2. cbn [obind].
    exists [t2]. split; [reflexivity|]. split; [intros x [<-|[]]; congruence|]. intros _ _ X. discriminate X.
  - unfold arc_cl. cbv zeta. destruct (_ =? 0)%Z eqn:Ez.
    { exists []. split; [reflexivity|]. split; [intros x []|]. intros A B. destruct (T A B). discriminate. }
    destruct (turn_side t _) eqn:Es.
    2:{ exists []. split; [reflexivity|]. split; [intros x []|]. intros A B. destruct (T A B). discriminate. }
    destruct (ccline_point t c tol) as (p & Ep & O); [lra|lra|rewrite R1; lra|rewrite R1; assumption|]. rewrite Ep.
    destruct (setStartPt_spec t p (proj1 N)) as (t1 & E1 & N1 & A1 & B1 & C1 & P1 & S1 & _); [lra|apply O|]. rewrite E1. cbn [obind]. rewrite A1. fold f.
    destruct (setEndPt_spec t1 f (proj1 N1)) as (t2 & E2 & Ar & A2 & B2 & C2 & St2 & P2 & Q2 & _); [apply (on_circle_cc t); auto|]. rewrite E2. cbn [obind].
    exists [t2]. split; [reflexivity|]. split; [intros x [<-|[]]; congruence|]. intros _ _ X. discriminate X.
Qed.

(** All joins are found: every admissible centre carries a returned arc. *)
Theorem C46_tangentArc_complete : forall l c radius tol, proper l -> dir_ok c -> 0 < c_radius c -> 0 < radius -> clear_crossing l c radius tol ->
  tol * tol <= 4 * (radius * radius) * ((radius + c_radius c) * (radius + c_radius c)) -> Rabs tol < llen l * radius ->
  (exists arcs, tangentArc_lc l c radius tol = Some arcs /\ forall m, join_centre l c radius m -> exists t, In t arcs /\ c_center t = m) /\
  (exists arcs, tangentArc_cl l c radius tol = Some arcs /\ forall m, join_centre l c radius m -> exists t, In t arcs /\ c_center t = m).
Proof.
  intros l c radius tol Hp Hd Hr Hrad Hcl Htol Ha. unfold tangentArc_lc, tangentArc_cl.
  destruct (tangentCircles_defined l c radius tol Hd) as (ts & Et). rewrite Et. cbn [obind].
  destruct (tangentCircles_centers l c radius tol ts Hp Hd ltac:(lra) Hrad Hcl Et) as [K1 K2].
  assert (Each : forall t, In t ts -> normalised t /\ c_radius t = radius /\ c_dir t = (- c_dir c)%Z /\
     Rabs (pointSignedDistance l (c_center t)) = radius /\ on_seg l (footPoint l (c_center t)) /\ dist (c_center t) (c_center c) = c_radius c + radius).
  { intros t Ht. destruct (K1 t Ht) as (N & R1 & _ & D1). assert (Hm : In (c_center t) (map c_center ts)) by (apply in_map; assumption). apply K2 in Hm. tauto. }
  assert (Ctr : forall m, join_centre l c radius m -> exists t, In t ts /\ c_center t = m).
  { intros m (J1 & J2 & J3). assert (Hm : In m (map c_center ts)).
    { apply K2. split; [|split; assumption]. rewrite J1, Rabs_mult, Rabs_Ropp, (Rabs_pos_eq radius) by lra. unfold dirR. destruct Hd as [-> | ->]; [rewrite Rabs_R1|rewrite Rabs_left by lra]; ring. }
    apply in_map_iff in Hm. destruct Hm as (t & E & I). exists t. auto. }
  split.
  - destruct (collect_total (arc_lc l c tol) ts) as (res & Er & K).
    { intros t Ht. destruct (Each t Ht) as (X1 & X2 & X3 & X4 & X5 & X6). destruct (arc_each l c radius tol t) as [(r & E & _) _]; auto. exists r. assumption. }
    exists res. split; [exact Er|]. intros m Hm. destruct (Ctr m Hm) as (t & Ht & Em). destruct (Each t Ht) as (X1 & X2 & X3 & X4 & X5 & X6).
    destruct (arc_each l c radius tol t) as [(r & E & C & NE) _]; auto. rewrite <- Em in Hm. specialize (NE Ha Hm). destruct r as [|x r]; [contradiction|].
    exists x. split; [apply (K t (x :: r)); auto; left; reflexivity|]. rewrite (C x (or_introl eq_refl)). assumption.
  - destruct (collect_total (arc_cl l c tol) ts) as (res & Er & K).
    { intros t Ht. destruct (Each t Ht) as (X1 & X2 & X3 & X4 & X5 & X6). destruct (arc_each l c radius tol t) as [_ (r & E & _)]; auto. exists r. assumption. }
    exists res. split; [exact Er|]. intros m Hm. destruct (Ctr m Hm) as (t & Ht & Em). destruct (Each t Ht) as (X1 & X2 & X3 & X4 & X5 & X6).
    destruct (arc_each l c radius tol t) as [_ (r & E & C & NE)]; auto. rewrite <- Em in Hm. specialize (NE Ha Hm). destruct r as [|x r]; [contradiction|].
    exists x. split; [apply (K t (x :: r)); auto; left; reflexivity|]. rewrite (C x (or_introl eq_refl)). assumption.
Qed.

(** The paths between a segment and a circle never hit an assertion, and are empty
    exactly when there is no joining circle. *)
Theorem C46_path_exists : forall l c radius, proper l -> normalised c -> 0 < c_radius c -> 0 < radius -> clear_crossing l c radius DIST_EPS ->
  DIST_EPS * DIST_EPS <= 4 * (radius * radius) * ((radius + c_radius c) * (radius + c_radius c)) -> DIST_EPS < llen l * radius ->
  (exists path, tangentPath_lc l c radius = Some path /\ (path = [] <-> ~ exists m, join_centre l c radius m)) /\
  (exists path, tangentPath_cl c l radius = Some path /\ (path = [] <-> ~ exists m, join_centre l c radius m)).
Proof.
  intros l c radius Hp Nc Hr Hrad Hcl Htol Ha. pose proof (proj1 Nc) as Hd.
  assert (He : Rabs DIST_EPS < llen l * radius) by (rewrite Rabs_pos_eq; [assumption|unfold DIST_EPS; lra]).
  destruct (C46_tangentArc_complete l c radius DIST_EPS Hp Hd Hr Hrad Hcl Htol He) as [(a1 & E1 & K1) (a2 & E2 & K2)].
  assert (JC : forall t p q, c_radius t = radius -> c_dir t = (- c_dir c)%Z -> normalised t -> line_contact t l p -> outer_contact t c q ->
     Pt (cos (heading t p)) (sin (heading t p)) = normalized (psub (l_end l) (l_start l)) -> join_centre l c radius (c_center t)).
  { intros t p q R1 D1 N (O & Sg & V) (_ & _ & D) H. unfold on_circle in O. rewrite R1 in *.
    assert (F : footPoint l (c_center t) = p).
    { destruct Sg as (u & _ & ->). rewrite foot_at by assumption. f_equal. pose proof (llen_pos l Hp) as HL. pose proof (llen_sq l) as Hq.
      unfold foot_t. apply (Rmult_eq_reg_r (llen l * llen l)); [|nra]. unfold Rdiv. rewrite Rmult_assoc, Rinv_l, Rmult_1_r by nra.
      rewrite Hq. unfold vdot, at_t, psub, padd, pmul in *. cbn [px py] in *. lra. }
    split; [|split; [rewrite F; assumption|lra]].
    pose proof (gaop_polar t p) as G. rewrite O in G.
    assert (Q : psub p (c_center t) = Pt (pointSignedDistance l (c_center t) * py (normalized (psub (l_end l) (l_start l)))) (- pointSignedDistance l (c_center t) * px (normalized (psub (l_end l) (l_start l))))).
    { rewrite <- F. unfold footPoint. cbv zeta. set (u := normalized _). clearbody u. unfold psub. cbn [px py]. apply pt_ext; cbn [px py]; ring. }
    rewrite Q in G. set (s := pointSignedDistance l (c_center t)) in *. rewrite <- H in G. cbn [px py] in G. unfold pmul in G. cbn [px py] in G.
    unfold heading in G. set (g := getAngleOfPoint t p) in *. unfold dirR in *. rewrite D1, opp_IZR in G.
    assert (G1 := f_equal px G). assert (G2 := f_equal py G). cbn [px py] in G1, G2. clear - G1 G2 Hd.
    assert (CS := sin2_cos2 g). unfold Rsqr in CS.
    destruct Hd as [E|E]; rewrite E in *.
    - replace (g + - (1) * (PI / 2)) with (- (PI / 2 - g)) in G1, G2 by field. rewrite cos_neg, cos_shift in G2. rewrite sin_neg, sin_shift in G1.
      replace (- (1) * radius) with (- (radius * (sin g * sin g + cos g * cos g))) by (rewrite CS; ring).
      assert (X1 : s * cos g * cos g = - radius * (cos g * cos g)) by (apply (f_equal (fun z => - z * cos g)) in G1; lra).
      assert (X2 : s * sin g * sin g = - radius * (sin g * sin g)) by (apply (f_equal (fun z => - z * sin g)) in G2; lra).
      replace s with (s * (sin g * sin g + cos g * cos g)) by (rewrite CS; ring). lra.
    - replace (g + - (-1) * (PI / 2)) with (PI / 2 + g) in G1, G2 by field. rewrite <- cos_sin in G1 || idtac.
      replace (PI / 2 + g) with (g + PI / 2) in G1, G2 by ring. rewrite cos_plus, cos_PI2, sin_PI2 in G2. rewrite ?sin_plus, ?cos_PI2, ?sin_PI2 in G1.
      replace (- (-1) * radius) with (radius * (sin g * sin g + cos g * cos g)) by (rewrite CS; ring).
      assert (X1 : s * cos g * cos g = radius * (cos g * cos g)) by (apply (f_equal (fun z => z * cos g)) in G1; lra).
      assert (X2 : s * sin g * sin g = radius * (sin g * sin g)) by (apply (f_equal (fun z => z * sin g)) in G2; lra).
      replace s with (s * (sin g * sin g + cos g * cos g)) by (rewrite CS; ring). lra. }
  split.
  - pose proof (C46_tangentArc_from_line l c radius DIST_EPS a1 Hp Hd Hr Hrad Hcl Htol E1) as J. unfold tangentPath_lc. rewrite E1. cbn [obind].
    destruct a1 as [|a r].
    { exists []. split; [reflexivity|]. split; [|reflexivity]. intros _ (m & Hm). destruct (K1 m Hm) as (t & [] & _). }
    cbv zeta. destruct (min_arc_spec r a) as [I1 _]. set (t := min_arc a r) in *. destruct (J t I1) as (p & R1 & D1 & N1 & LC & Ep & O & H1 & H2). rewrite Ep. cbn [obind].
    destruct (setStartPt_spec c p Hd ltac:(lra)) as (e1 & F1 & _); [apply O|]. rewrite F1. cbn [obind].
    destruct (C44_setArcAngle e1 (2 * PI)) as (e2 & F2 & _). rewrite F2. cbn [obind]. eexists. split; [reflexivity|]. split; [discriminate|].
    intros X. exfalso. apply X. exists (c_center t). apply (JC t (startPoint t) p); assumption.
  - pose proof (C46_tangentArc_to_line l c radius DIST_EPS a2 Hp Hd Hr Hrad Hcl Htol E2) as J. unfold tangentPath_cl. rewrite E2. cbn [obind].
    destruct a2 as [|a r].
    { exists []. split; [reflexivity|]. split; [|reflexivity]. intros _ (m & Hm). destruct (K2 m Hm) as (t & [] & _). }
    cbv zeta. destruct (min_arc_spec r a) as [I1 _]. set (t := min_arc a r) in *. destruct (J t I1) as (p & R1 & D1 & N1 & Ep & LC & O & H1 & H2). rewrite Ep. cbn [obind].
    unfold c_selectEndPoint. destruct (Rlt_dec _ DIST_EPS) as [_|X].
    2:{ exfalso. apply X. rewrite <- dist_len. destruct O as (_ & O2 & _). rewrite O2, Rminus_eq_0, Rabs_R0. unfold DIST_EPS. lra. }
    destruct (setEndPt_spec c (startPoint t) Hd) as (s & F1 & _); [apply O|]. rewrite F1. cbn [obind snd]. eexists. split; [reflexivity|]. split; [discriminate|].
    intros X. exfalso. apply X. exists (c_center t). apply (JC t p (startPoint t)); assumption.
Qed.

(** A concrete case: the x axis from 0 to 20 and a circle of radius 4 turning right
    about (10,5); joining radius 1. The joining circles sit at (7,1) and (13,1). *)
Definition ex46_l : line := Ln (Pt 0 0) (Pt 20 0).
Example C46_example : exists c, mk_circle (Pt 10 5) 4 (-1) = Some c /\ proper ex46_l /\ normalised c /\ clear_crossing ex46_l c 1 DIST_EPS /\
  join_centre ex46_l c 1 (Pt 7 1) /\ join_centre ex46_l c 1 (Pt 13 1) /\
  exists path, tangentPath_lc ex46_l c 1 = Some path /\ path <> [].
Proof.
  destruct (C44_constructor (Pt 10 5) 4 (-1)) as [_ Q]. destruct Q as (c & E & N & A & B & _ & D); [discriminate|]. rewrite Rabs_pos_eq in B by lra. cbn in D.
  exists c. split; [exact E|].
  assert (Hp : proper ex46_l) by (unfold proper, ex46_l; cbn; intros X; injection X as X; lra).
  assert (HL : llen ex46_l = 20).
  { unfold llen. rewrite dist_hyp. apply hyp_unique; [lra|]. unfold ex46_l. cbn [l_start l_end px py]. lra. }
  assert (S : forall m, pointSignedDistance ex46_l m = py m).
  { intros m. unfold pointSignedDistance. cbv zeta. rewrite llen_len, HL. unfold ex46_l, psub. cbn [l_start l_end px py]. field. }
  assert (U : normalized (psub (l_end ex46_l) (l_start ex46_l)) = Pt 1 0).
  { unfold normalized, pdiv. rewrite llen_len, HL. unfold ex46_l, psub. cbn [l_start l_end px py]. apply pt_ext; cbn [px py]; field. }
  assert (F : forall m, footPoint ex46_l m = Pt (px m) 0).
  { intros m. unfold footPoint. cbv zeta. rewrite S, U. unfold psub, padd. cbn [px py]. apply pt_ext; cbn [px py]; ring. }
  assert (CL : clear_crossing ex46_l c 1 DIST_EPS).
  { intros e He. rewrite HL, S, A, B. cbn [py]. unfold DIST_EPS. destruct He as [-> | ->]; unfold Rabs; destruct (Rcase_abs _); lra. }
  assert (J : forall x, (x = 7 \/ x = 13) -> join_centre ex46_l c 1 (Pt x 1)).
  { intros x Hx. split; [|split].
    - rewrite S. unfold dirR. rewrite D. cbn [py]. lra.
    - rewrite F. exists (x / 20). split; [lra|]. unfold at_t, ex46_l, padd, pmul, psub. cbn [l_start l_end px py]. apply pt_ext; cbn [px py]; field.
    - rewrite A, B, dist_hyp. apply hyp_unique; [lra|]. cbn [px py]. destruct Hx as [-> | ->]; lra. }
  split; [exact Hp|]. split; [exact N|]. split; [exact CL|]. split; [apply J; auto|]. split; [apply J; auto|].
  destruct (C46_path_exists ex46_l c 1 Hp N ltac:(lra) ltac:(lra) CL) as [(path & Ep & K) _]; [rewrite B; unfold DIST_EPS; lra|rewrite HL; unfold DIST_EPS; lra|].
  exists path. split; [exact Ep|]. intros X. apply K in X. apply X. exists (Pt 7 1). apply J. auto.
Qed.
