(** C43: laws of straight lines and segments. *)
From Coq Require Import Reals Lra.
From Flocq Require Import Core.Raux.
From Verif Require Import Base GeomR PropGeom LineModel.
Local Open Scope R_scope.

(** ** Specification *)
Definition proper (l : line) : Prop := l_start l <> l_end l.
(** The point at parameter t: t = 0 is the start, t = 1 the end. *)
Definition at_t (l : line) (t : R) : pt := padd (l_start l) (pmul (psub (l_end l) (l_start l)) t).
Definition on_line (l : line) (p : pt) : Prop := exists t, p = at_t l t.
Definition on_seg (l : line) (p : pt) : Prop := exists t, 0 <= t <= 1 /\ p = at_t l t.
Definition llen (l : line) : R := dist (l_start l) (l_end l).

Lemma dist_len p q : dist p q = len (psub p q).
Proof. unfold dist, len, psub. cbn [px py]. f_equal. ring. Qed.
Lemma dist_sym p q : dist p q = dist q p.
Proof. unfold dist. f_equal. ring. Qed.
Lemma dist_nonneg p q : 0 <= dist p q.
Proof. apply sqrt_pos. Qed.
Lemma dist_sq p q : dist p q * dist p q = (px p - px q) * (px p - px q) + (py p - py q) * (py p - py q).
Proof. apply sqrt_sqrt. apply Rplus_le_le_0_compat; apply Rle_0_sqr. Qed.
Lemma dist_hyp p q : dist p q = hyp (px p - px q) (py p - py q).
Proof. reflexivity. Qed.
Lemma dist_tri p q r : dist p r <= dist p q + dist q r.
Proof.
  rewrite !dist_hyp. replace (px p - px r) with (px p - px q + (px q - px r)) by ring.
  replace (py p - py r) with (py p - py q + (py q - py r)) by ring. apply hyp_triangle.
Qed.
Lemma dist_le_sq p q r s : dist p q * dist p q <= dist r s * dist r s -> dist p q <= dist r s.
Proof. intros H. pose proof (dist_nonneg p q). pose proof (dist_nonneg r s). nra. Qed.
Lemma dist_pos p q : p <> q -> 0 < dist p q.
Proof.
  intros H. rewrite dist_hyp. apply hyp_pos. destruct (Req_dec (px p - px q) 0) as [E|]; [|left; assumption].
  right. intros E'. apply H. apply pt_ext; lra.
Qed.

Lemma llen_pos l : proper l -> 0 < llen l.
Proof. apply dist_pos. Qed.
Lemma llen_len l : len (psub (l_end l) (l_start l)) = llen l.
Proof. unfold llen. rewrite dist_sym, dist_len. reflexivity. Qed.
Lemma llen_sq l : llen l * llen l = (px (l_end l) - px (l_start l)) * (px (l_end l) - px (l_start l)) + (py (l_end l) - py (l_start l)) * (py (l_end l) - py (l_start l)).
Proof. unfold llen. rewrite dist_sq. ring. Qed.

(** Distance along the line. *)
Lemma dist_at l t u : dist (at_t l t) (at_t l u) = Rabs (t - u) * llen l.
Proof.
  rewrite dist_hyp. apply hyp_unique.
  - apply Rmult_le_pos; [apply Rabs_pos|apply dist_nonneg].
  - unfold at_t, padd, pmul, psub. cbn [px py].
    replace (Rabs (t - u) * llen l * (Rabs (t - u) * llen l)) with ((Rabs (t - u) * Rabs (t - u)) * (llen l * llen l)) by ring.
    rewrite llen_sq. pose proof (Rsqr_abs (t - u)) as H. unfold Rsqr in H. rewrite <- H. ring.
Qed.
Lemma at_0 l : at_t l 0 = l_start l.
Proof. unfold at_t, padd, pmul, psub. apply pt_ext; cbn [px py]; ring. Qed.
Lemma at_1 l : at_t l 1 = l_end l.
Proof. unfold at_t, padd, pmul, psub. apply pt_ext; cbn [px py]; ring. Qed.

(** ** Foot point *)
Definition foot_t (l : line) (p : pt) : R :=
  vdot (psub p (l_start l)) (psub (l_end l) (l_start l)) / (llen l * llen l).

Lemma foot_at l p : proper l -> footPoint l p = at_t l (foot_t l p).
Proof.
  intros Hp. pose proof (llen_pos l Hp) as H. pose proof (llen_sq l) as Hs.
  unfold footPoint, foot_t, at_t, pointSignedDistance, normalized. rewrite llen_len.
  unfold vdot, padd, pmul, psub, pdiv. cbn [px py].
  set (sx := px (l_start l)) in *. set (sy := py (l_start l)) in *.
  set (ex := px (l_end l)) in *. set (ey := py (l_end l)) in *. set (L := llen l) in *.
  set (x := px p). set (y := py p).
  apply pt_ext; cbn [px py].
  - apply (Rmult_eq_reg_r (L * L)); [|nra].
    replace ((x - - (((ex - sx) * (y - sy) - (ey - sy) * (x - sx)) / L) * ((ey - sy) / L)) * (L * L))
      with (x * (L * L) + ((ex - sx) * (y - sy) - (ey - sy) * (x - sx)) * (ey - sy)) by (field; lra).
    replace ((sx + (ex - sx) * (((x - sx) * (ex - sx) + (y - sy) * (ey - sy)) / (L * L))) * (L * L))
      with (sx * (L * L) + (ex - sx) * ((x - sx) * (ex - sx) + (y - sy) * (ey - sy))) by (field; lra).
    rewrite Hs. ring.
  - apply (Rmult_eq_reg_r (L * L)); [|nra].
    replace ((y - ((ex - sx) * (y - sy) - (ey - sy) * (x - sx)) / L * ((ex - sx) / L)) * (L * L))
      with (y * (L * L) - ((ex - sx) * (y - sy) - (ey - sy) * (x - sx)) * (ex - sx)) by (field; lra).
    replace ((sy + (ey - sy) * (((x - sx) * (ex - sx) + (y - sy) * (ey - sy)) / (L * L))) * (L * L))
      with (sy * (L * L) + (ey - sy) * ((x - sx) * (ex - sx) + (y - sy) * (ey - sy))) by (field; lra).
    rewrite Hs. ring.
Qed.

(** Pythagoras about the foot point. *)
Lemma pythagoras l p t : proper l ->
  dist p (at_t l t) * dist p (at_t l t) =
  dist p (footPoint l p) * dist p (footPoint l p) + (t - foot_t l p) * (t - foot_t l p) * (llen l * llen l).
Proof.
  intros Hp. pose proof (llen_pos l Hp) as H. rewrite foot_at by assumption. rewrite !dist_sq.
  assert (E : foot_t l p * (llen l * llen l) = vdot (psub p (l_start l)) (psub (l_end l) (l_start l))) by (unfold foot_t; field; lra).
  set (u := foot_t l p) in *. rewrite llen_sq in E |- *. unfold at_t, padd, pmul, psub, vdot in *. cbn [px py] in *.
  set (sx := px (l_start l)) in *. set (sy := py (l_start l)) in *.
  set (dx := px (l_end l) - sx) in *. set (dy := py (l_end l) - sy) in *.
  set (x := px p) in *. set (y := py p) in *.
  replace ((x - (sx + dx * t)) * (x - (sx + dx * t)) + (y - (sy + dy * t)) * (y - (sy + dy * t)))
    with ((x - sx) * (x - sx) + (y - sy) * (y - sy) - 2 * t * ((x - sx) * dx + (y - sy) * dy) + t * t * (dx * dx + dy * dy)) by ring.
  replace ((x - (sx + dx * u)) * (x - (sx + dx * u)) + (y - (sy + dy * u)) * (y - (sy + dy * u)))
    with ((x - sx) * (x - sx) + (y - sy) * (y - sy) - 2 * u * ((x - sx) * dx + (y - sy) * dy) + u * u * (dx * dx + dy * dy)) by ring.
  rewrite <- E. ring.
Qed.

Theorem C43_footPoint : forall l p, proper l ->
  on_line l (footPoint l p) /\
  vdot (psub p (footPoint l p)) (psub (l_end l) (l_start l)) = 0 /\
  (forall q, on_line l q -> dist p (footPoint l p) <= dist p q) /\
  projectPoint l p = footPoint l p.
Proof.
  intros l p Hp. pose proof (llen_pos l Hp) as H. split; [exists (foot_t l p); apply foot_at; assumption|]. split; [|split].
  - rewrite foot_at by assumption.
    assert (E : foot_t l p * (llen l * llen l) = vdot (psub p (l_start l)) (psub (l_end l) (l_start l))) by (unfold foot_t; field; lra).
    set (u := foot_t l p) in *. rewrite llen_sq in E. unfold at_t, padd, pmul, psub, vdot in *. cbn [px py] in *. lra.
  - intros q [t ->]. apply dist_le_sq. rewrite (pythagoras l p t Hp).
    assert (0 <= (t - foot_t l p) * (t - foot_t l p)) by (apply Rle_0_sqr).
    assert (0 <= (t - foot_t l p) * (t - foot_t l p) * (llen l * llen l)) by (apply Rmult_le_pos; nra). lra.
  - rewrite foot_at by assumption. unfold projectPoint, at_t, foot_t.
    assert (E : vdot (psub (l_end l) (l_start l)) (psub (l_end l) (l_start l)) = llen l * llen l).
    { rewrite llen_sq. unfold vdot, psub. cbn [px py]. ring. }
    rewrite E. reflexivity.
Qed.

(** The signed distance: its magnitude is the distance to the line, it is positive
    exactly left of the line and zero exactly on it. *)
Theorem C43_signed_distance : forall l p, proper l ->
  Rabs (pointSignedDistance l p) = dist p (footPoint l p) /\
  (0 < pointSignedDistance l p <-> 0 < vcross (psub (l_end l) (l_start l)) (psub p (l_start l))) /\
  (pointSignedDistance l p = 0 <-> on_line l p).
Proof.
  intros l p Hp. pose proof (llen_pos l Hp) as H. pose proof (llen_sq l) as Hs.
  assert (A : Rabs (pointSignedDistance l p) = dist p (footPoint l p)).
  { symmetry. rewrite dist_hyp. apply hyp_unique; [apply Rabs_pos|].
    pose proof (Rsqr_abs (pointSignedDistance l p)) as E. unfold Rsqr in E. rewrite <- E. clear E.
    unfold footPoint. set (d := pointSignedDistance l p). unfold normalized. rewrite llen_len. unfold psub, pdiv. cbn [px py].
    set (ex := px (l_end l) - px (l_start l)) in *. set (ey := py (l_end l) - py (l_start l)) in *.
    replace ((px p - (px p - - d * (ey / llen l))) * (px p - (px p - - d * (ey / llen l))) +
             (py p - (py p - d * (ex / llen l))) * (py p - (py p - d * (ex / llen l))))
      with (d * d * (ex * ex + ey * ey) / (llen l * llen l)) by (field; lra).
    rewrite <- Hs. field. lra. }
  assert (S : pointSignedDistance l p = vcross (psub (l_end l) (l_start l)) (psub p (l_start l)) / llen l).
  { unfold pointSignedDistance. rewrite llen_len. reflexivity. }
  split; [exact A|]. split.
  - rewrite S. set (c := vcross _ _). split; intros Hc.
    + apply (Rmult_lt_compat_r (llen l)) in Hc; [|assumption]. unfold Rdiv in Hc. rewrite Rmult_assoc, Rinv_l in Hc by lra. lra.
    + apply Rdiv_lt_0_compat; assumption.
  - split.
    + intros E. rewrite E, Rabs_R0 in A. symmetry in A. rewrite dist_hyp in A. apply hyp_0 in A. destruct A as [A1 A2].
      exists (foot_t l p). rewrite <- foot_at by assumption. apply pt_ext; lra.
    + intros [t ->]. rewrite S. unfold vcross, at_t, padd, pmul, psub. cbn [px py]. unfold Rdiv.
      replace ((px (l_end l) - px (l_start l)) * (py (l_start l) + (py (l_end l) - py (l_start l)) * t - py (l_start l)) -
               (py (l_end l) - py (l_start l)) * (px (l_start l) + (px (l_end l) - px (l_start l)) * t - px (l_start l))) with 0 by ring. ring.
Qed.

(** parallel: same length and direction, every point at the requested signed
    distance from the original line. *)
Theorem C43_parallel : forall l d q, proper l ->
  psub (l_end (parallel l d)) (l_start (parallel l d)) = psub (l_end l) (l_start l) /\
  (on_line (parallel l d) q <-> pointSignedDistance l q = d).
Proof.
  intros l d q Hp. pose proof (llen_pos l Hp) as H. pose proof (llen_sq l) as Hs.
  assert (E1 : psub (l_end (parallel l d)) (l_start (parallel l d)) = psub (l_end l) (l_start l)).
  { unfold parallel. cbv zeta. unfold psub, padd. cbn [l_start l_end px py]. apply pt_ext; cbn [px py]; ring. }
  split; [exact E1|]. split.
  - intros [t ->]. unfold at_t. rewrite E1. unfold pointSignedDistance. rewrite llen_len. unfold parallel, normalized. rewrite llen_len.
    unfold padd, pmul, psub, pdiv. cbn [l_start l_end px py].
    set (ex := px (l_end l) - px (l_start l)) in *. set (ey := py (l_end l) - py (l_start l)) in *.
    replace ((ex * (py (l_start l) + d * (ex / llen l) + ey * t - py (l_start l)) -
              ey * (px (l_start l) + - d * (ey / llen l) + ex * t - px (l_start l))) / llen l)
      with (d * (ex * ex + ey * ey) / (llen l * llen l)) by (field; lra). rewrite <- Hs. field. lra.
  - intros Hd. exists (foot_t l q). unfold at_t. rewrite E1.
    pose proof (foot_at l q Hp) as F. unfold footPoint in F. rewrite Hd in F.
    assert (Q : q = padd (at_t l (foot_t l q)) (Pt (- d * py (normalized (psub (l_end l) (l_start l)))) (d * px (normalized (psub (l_end l) (l_start l)))))).
    { rewrite <- F. unfold padd, psub. cbn [px py]. apply pt_ext; cbn [px py]; ring. }
    rewrite Q at 1. unfold parallel, at_t, padd, pmul. cbv zeta. cbn [l_start l_end px py]. apply pt_ext; cbn [px py]; ring.
Qed.

(** Side of a point (tolerance 0 is the exact orientation test). *)
Theorem C43_relative_position : forall l p,
  (pointRelativePosition l p 0 = 1%Z <-> 0 < vcross (psub (l_end l) (l_start l)) (psub p (l_start l))) /\
  (pointRelativePosition l p 0 = (-1)%Z <-> vcross (psub (l_end l) (l_start l)) (psub p (l_start l)) < 0) /\
  (proper l -> (pointRelativePosition l p 0 = 0%Z <-> on_line l p)).
Proof.
  intros l p.
  assert (E : forall c : Z, pointRelativePosition l p 0 = c <->
     (if Rlt_dec 0 (vcross (psub (l_end l) (l_start l)) (psub p (l_start l))) then 1
      else if Rlt_dec (vcross (psub (l_end l) (l_start l)) (psub p (l_start l))) 0 then -1 else 0)%Z = c).
  { intros c. unfold pointRelativePosition. cbv zeta. rewrite Rabs_R0, Ropp_0. unfold vcross. reflexivity. }
  split; [|split].
  - rewrite E. destruct (Rlt_dec 0 _); [tauto|]. destruct (Rlt_dec _ 0); (split; [discriminate|lra]).
  - rewrite E. destruct (Rlt_dec 0 _); [split; [discriminate|lra]|]. destruct (Rlt_dec _ 0); [tauto|split; [discriminate|lra]].
  - intros Hp. rewrite E. destruct (C43_signed_distance l p Hp) as (_ & _ & S0). rewrite <- S0.
    assert (S : pointSignedDistance l p = vcross (psub (l_end l) (l_start l)) (psub p (l_start l)) / llen l).
    { unfold pointSignedDistance. rewrite llen_len. reflexivity. }
    rewrite S. pose proof (llen_pos l Hp) as H. set (c := vcross _ _) in *.
    assert (Z0 : c / llen l = 0 <-> c = 0).
    { split; [intros Hc|intros ->; unfold Rdiv; ring]. apply (f_equal (fun v => v * llen l)) in Hc. unfold Rdiv in Hc. rewrite Rmult_assoc, Rinv_l in Hc by lra. lra. }
    rewrite Z0. destruct (Rlt_dec 0 c); [split; [discriminate|lra]|]. destruct (Rlt_dec c 0); [split; [discriminate|lra]|]. split; [intros; lra|reflexivity].
Qed.
(** The tolerance is compared with an area, not with a distance: on a line of
    length 1000 a point one millimetre off is "not on the line" for tol = 0.1. *)
Theorem C43_tolerance_refuted : exists l p, proper l /\
  dist p (footPoint l p) = / 1000 /\ pointRelativePosition l p (/ 10) <> 0%Z.
Proof.
  exists (Ln (Pt 0 0) (Pt 1000 0)), (Pt 500 (/ 1000)).
  assert (Hp : proper (Ln (Pt 0 0) (Pt 1000 0))) by (unfold proper; cbn; intros H; injection H as H; lra).
  split; [exact Hp|]. split.
  - destruct (C43_signed_distance _ (Pt 500 (/ 1000)) Hp) as (A & _). rewrite <- A. unfold pointSignedDistance. cbv zeta. rewrite llen_len.
    assert (L : llen (Ln (Pt 0 0) (Pt 1000 0)) = 1000).
    { unfold llen. cbn [l_start l_end]. rewrite dist_hyp. apply hyp_unique; cbn [px py]; lra. }
    rewrite L. unfold psub. cbn [px py l_start l_end]. rewrite Rabs_pos_eq; lra.
  - unfold pointRelativePosition, psub. cbv zeta. cbn [px py l_start l_end]. rewrite Rabs_pos_eq by lra.
    destruct (Rlt_dec (/ 10) _); [discriminate|]. lra.
Qed.

(** ** Segments *)
Lemma seg_sum l t : proper l -> dist (at_t l t) (l_start l) + dist (at_t l t) (l_end l) - llen l =
  (Rabs t + Rabs (t - 1) - 1) * llen l.
Proof.
  intros Hp. pose proof (dist_at l t 0) as A. pose proof (dist_at l t 1) as B. rewrite at_0 in A. rewrite at_1 in B.
  rewrite A, B, Rminus_0_r. ring.
Qed.
(** For points of the line, the test accepts the segment lengthened by less than
    tol/2 at each end. *)
Lemma onseg_line l t tol : proper l -> 0 < tol ->
  isPointOnSegment l (at_t l t) tol = true <-> (- (tol / 2) < t * llen l < llen l + tol / 2).
Proof.
  intros Hp Ht. pose proof (llen_pos l Hp) as H. unfold isPointOnSegment. cbv zeta. rewrite Rltb_spec.
  rewrite <- !dist_len. rewrite (dist_sym (l_end l)). change (dist (l_start l) (l_end l)) with (llen l). rewrite seg_sum by assumption.
  assert (P : 0 <= Rabs t + Rabs (t - 1) - 1).
  { unfold Rabs. destruct (Rcase_abs t); destruct (Rcase_abs (t - 1)); lra. }
  rewrite Rabs_pos_eq by (apply Rmult_le_pos; lra).
  unfold Rabs. destruct (Rcase_abs t); destruct (Rcase_abs (t - 1)); split; intros; nra.
Qed.

Theorem C43_on_segment : forall l p tol, proper l -> 0 < tol ->
  (on_seg l p -> isPointOnSegment l p tol = true) /\
  (on_line l p -> isPointOnSegment l p tol = true -> exists q, on_seg l q /\ dist p q < tol / 2).
Proof.
  intros l p tol Hp Ht. pose proof (llen_pos l Hp) as H. split.
  - intros (t & Hr & ->). apply onseg_line; [assumption|assumption|]. nra.
  - intros [t ->] Ho. apply onseg_line in Ho; [|assumption|assumption].
    destruct (Rlt_or_le t 0) as [Hn|Hn]; [|destruct (Rlt_or_le 1 t) as [Hm|Hm]].
    + exists (at_t l 0). split; [exists 0; split; [lra|reflexivity]|]. rewrite dist_at, Rabs_left by lra. lra.
    + exists (at_t l 1). split; [exists 1; split; [lra|reflexivity]|]. rewrite dist_at, Rabs_pos_eq by lra. lra.
    + exists (at_t l t). split; [exists t; split; [lra|reflexivity]|]. rewrite dist_at, Rminus_eq_0, Rabs_R0. lra.
Qed.

(** Off the line the tolerance is not a distance: a point of a 10 m segment's
    ellipse, 7 mm off, is accepted with the default tolerance 0.01 mm. *)
Theorem C43_on_segment_refuted : exists l p, proper l /\ isPointOnSegment l p DIST_EPS = true /\
  forall q, on_seg l q -> 7 / 1000 <= dist p q.
Proof.
  exists (Ln (Pt 0 0) (Pt 10 0)), (Pt 5 (7 / 1000)).
  assert (Hp : proper (Ln (Pt 0 0) (Pt 10 0))) by (unfold proper; cbn; intros H; injection H as H; lra).
  split; [exact Hp|]. split.
  - unfold isPointOnSegment, DIST_EPS. cbv zeta. rewrite Rltb_spec. rewrite !len_hyp. unfold psub. cbn [px py l_start l_end].
    replace (hyp (5 - 10) (7 / 1000 - 0)) with (hyp (5 - 0) (7 / 1000 - 0)) by (unfold hyp; f_equal; lra).
    assert (D10 : hyp (10 - 0) (0 - 0) = 10) by (apply hyp_unique; lra). rewrite D10.
    pose proof (hyp_sq (5 - 0) (7 / 1000 - 0)) as S. pose proof (hyp_nonneg (5 - 0) (7 / 1000 - 0)) as N.
    clear D10. set (h := hyp (5 - 0) (7 / 1000 - 0)) in *. assert (5 <= h) by nra. assert (h < 5 + 4999 / 1000000000).
    { apply Rnot_le_lt. intros Hc. assert (Hm : (5 + 4999 / 1000000000) * (5 + 4999 / 1000000000) <= h * h) by (apply Rmult_le_compat; lra). lra. }
    rewrite Rabs_pos_eq by lra. lra.
  - intros q (t & _ & ->). rewrite dist_hyp. unfold at_t, padd, pmul, psub. cbn [px py l_start l_end].
    pose proof (hyp_sq (5 - (0 + (10 - 0) * t)) (7 / 1000 - (0 + (0 - 0) * t))) as S.
    pose proof (hyp_nonneg (5 - (0 + (10 - 0) * t)) (7 / 1000 - (0 + (0 - 0) * t))) as N.
    pose proof (Rle_0_sqr (5 - (0 + (10 - 0) * t))) as Q. unfold Rsqr in Q.
    replace (7 / 1000 - (0 + (0 - 0) * t)) with (7 / 1000) in * by ring.
    set (h := hyp _ _) in *. apply Rnot_lt_le. intros Hc. assert (h * h <= h * (7 / 1000)) by (apply Rmult_le_compat_l; lra). lra.
Qed.

(** nearestPointTo: no point of the segment is nearer, and the returned point is a
    point of the segment up to half the tolerance; distanceTo is the distance to it. *)
Lemma foot_outside_nearest l p : proper l ->
  (foot_t l p <= 0 -> forall q, on_seg l q -> dist p (l_start l) <= dist p q) /\
  (1 <= foot_t l p -> forall q, on_seg l q -> dist p (l_end l) <= dist p q).
Proof.
  intros Hp. pose proof (llen_pos l Hp) as H. split; intros Hf q (t & Ht & ->); apply dist_le_sq.
  - rewrite <- (at_0 l). rewrite !pythagoras by assumption. set (u := foot_t l p) in *.
    assert ((0 - u) * (0 - u) <= (t - u) * (t - u)) by nra.
    apply Rplus_le_compat_l. apply Rmult_le_compat_r; [nra|assumption].
  - rewrite <- (at_1 l). rewrite !pythagoras by assumption. set (u := foot_t l p) in *.
    assert ((1 - u) * (1 - u) <= (t - u) * (t - u)) by nra.
    apply Rplus_le_compat_l. apply Rmult_le_compat_r; [nra|assumption].
Qed.
Theorem C43_nearest : forall l p, proper l ->
  (forall q, on_seg l q -> dist p (l_nearestPointTo l p) <= dist p q) /\
  (exists q, on_seg l q /\ dist (l_nearestPointTo l p) q < DIST_EPS / 2) /\
  l_distanceTo l p = dist p (l_nearestPointTo l p).
Proof.
  intros l p Hp. pose proof (llen_pos l Hp) as H.
  assert (HE : 0 < DIST_EPS) by (unfold DIST_EPS; lra).
  unfold l_distanceTo, l_nearestPointTo. cbv zeta.
  destruct (isPointOnSegment l (footPoint l p) DIST_EPS) eqn:E.
  - split; [|split].
    + intros q (t & _ & ->). destruct (C43_footPoint l p Hp) as (_ & _ & M & _). apply M. exists t. reflexivity.
    + apply (C43_on_segment l (footPoint l p) DIST_EPS Hp HE); [apply C43_footPoint; assumption|assumption].
    + rewrite dist_sym, dist_len. reflexivity.
  - assert (F : foot_t l p <= 0 \/ 1 <= foot_t l p).
    { destruct (Rle_or_lt (foot_t l p) 0) as [|H1]; [left; assumption|]. destruct (Rle_or_lt 1 (foot_t l p)) as [|H2]; [right; assumption|].
      exfalso. assert (isPointOnSegment l (footPoint l p) DIST_EPS = true); [|congruence].
      apply C43_on_segment; [assumption|assumption|]. exists (foot_t l p). split; [lra|apply foot_at; assumption]. }
    destruct (foot_outside_nearest l p Hp) as [N0 N1].
    assert (S0 : on_seg l (l_start l)) by (exists 0; split; [lra|symmetry; apply at_0]).
    assert (S1 : on_seg l (l_end l)) by (exists 1; split; [lra|symmetry; apply at_1]).
    assert (Z : forall a, dist a a = 0) by (intros a; rewrite dist_hyp; apply hyp_0; split; ring).
    rewrite <- !dist_len. destruct (Rltb (dist p (l_start l)) (dist p (l_end l))) eqn:E2.
    + apply Rltb_spec in E2. split; [|split].
      * destruct F as [F|F]; [apply N0; assumption|]. intros q Hq. specialize (N1 F _ S0). lra.
      * exists (l_start l). split; [assumption|]. rewrite Z. lra.
      * apply Rmin_left. lra.
    + apply Rltb_false in E2. split; [|split].
      * destruct F as [F|F]; [|apply N1; assumption]. intros q Hq. apply Rle_trans with (dist p (l_start l)); [assumption|apply N0; assumption].
      * exists (l_end l). split; [assumption|]. rewrite Z. lra.
      * apply Rmin_right. lra.
Qed.

(** ** Discretisation *)
Lemma march_nth n : forall p s k, (k < n)%nat -> nth_error (march n p s) k = Some (padd p (pmul s (INR k))).
Proof.
  induction n as [|n IH]; intros p s k Hk; [lia|]. cbn [march]. destruct k as [|k].
  - cbn. f_equal. unfold padd, pmul. apply pt_ext; cbn [px py]; ring.
  - cbn [nth_error]. rewrite IH by lia. f_equal. rewrite S_INR. unfold padd, pmul. apply pt_ext; cbn [px py]; ring.
Qed.
Lemma march_length n : forall p s, length (march n p s) = n.
Proof. induction n; intros; cbn; [reflexivity|rewrite IHn; reflexivity]. Qed.
Lemma step_at l r k : proper l ->
  padd (l_start l) (pmul (pmul (normalized (psub (l_end l) (l_start l))) r) (INR k)) = at_t l (INR k * r / llen l) /\
  padd (l_end l) (pmul (pmul (pmul (normalized (psub (l_end l) (l_start l))) r) (-1)) (INR k)) = at_t l (1 - INR k * r / llen l).
Proof.
  intros Hp. pose proof (llen_pos l Hp) as H. unfold normalized. rewrite llen_len. unfold at_t, padd, pmul, psub, pdiv. cbn [px py].
  split; apply pt_ext; cbn [px py]; field; lra.
Qed.
Lemma cast_len l r n : 0 < r -> cast_i32 (llen l / r) = Some n ->
  (0 <= n)%Z /\ IZR n * r <= llen l < (IZR n + 1) * r.
Proof.
  intros Hr E. apply cast_i32_trunc in E. destruct E as [-> _].
  assert (Q : 0 <= llen l / r) by (apply Rmult_le_pos; [apply dist_nonneg|left; apply Rinv_0_lt_compat; assumption]).
  assert (L : llen l = llen l / r * r) by (field; lra).
  rewrite Ztrunc_floor by assumption. pose proof (Zfloor_lb (llen l / r)). pose proof (Zfloor_ub (llen l / r)).
  split; [apply Zfloor_lub; assumption|]. rewrite L at 2 3. split; nra.
Qed.

(** toPoints: from start to end, all on the segment, spacing [resolution] except the
    last gap, which is between one and two resolutions (one may be all there is). *)
Theorem C43_toPoints : forall l r pts, proper l -> 0 < r -> l_toPoints l r = Some pts ->
  exists n, length pts = S n /\ INR n * r <= llen l < (INR n + 1) * r /\
    (forall k, (k < n)%nat -> nth_error pts k = Some (at_t l (INR k * r / llen l))) /\
    nth_error pts n = Some (l_end l) /\
    (forall p, In p pts -> on_seg l p).
Proof.
  intros l r pts Hp Hr E. pose proof (llen_pos l Hp) as H. unfold l_toPoints in E. cbv zeta in E.
  destruct (Req_EM_T r 0) as [|_]; [lra|]. rewrite llen_len in E.
  destruct (cast_i32 (llen l / r)) as [n|] eqn:Ec; [|discriminate]. cbn [obind] in E.
  destruct (n <? 0)%Z eqn:En; [discriminate|]. injection E as <-.
  destruct (cast_len l r n Hr Ec) as [Hn0 Hn]. exists (Z.to_nat n).
  assert (Hin : INR (Z.to_nat n) = IZR n) by (rewrite INR_IZR_INZ, Z2Nat.id by assumption; reflexivity).
  assert (Hk : forall k, (k < Z.to_nat n)%nat ->
     nth_error (march (Z.to_nat n) (l_start l) (pmul (normalized (psub (l_end l) (l_start l))) r) ++ [l_end l]) k = Some (at_t l (INR k * r / llen l))).
  { intros k Hk. rewrite nth_error_app1 by (rewrite march_length; assumption). rewrite march_nth by assumption. f_equal. apply step_at. assumption. }
  split; [rewrite app_length, march_length; cbn; lia|]. split; [rewrite Hin; exact Hn|]. split; [exact Hk|]. split.
  - rewrite nth_error_app2 by (rewrite march_length; lia). rewrite march_length, Nat.sub_diag. reflexivity.
  - intros p Hi. apply in_app_or in Hi. destruct Hi as [Hi|[<-|[]]].
    + apply In_nth_error in Hi. destruct Hi as [k Ek].
      assert (Hkl : (k < Z.to_nat n)%nat) by (rewrite <- (march_length (Z.to_nat n) (l_start l) (pmul (normalized (psub (l_end l) (l_start l))) r)); apply nth_error_Some; rewrite Ek; discriminate).
      rewrite march_nth in Ek by assumption. injection Ek as <-.
      exists (INR k * r / llen l). split; [|apply step_at; assumption].
      assert (0 <= INR k) by apply pos_INR. assert (INR k <= INR (Z.to_nat n)) by (apply le_INR; lia). rewrite Hin in *.
      split; [apply Rmult_le_pos; [nra|left; apply Rinv_0_lt_compat; assumption]|].
      apply (Rmult_le_reg_r (llen l)); [assumption|]. unfold Rdiv. rewrite Rmult_assoc, Rinv_l by lra. nra.
    + exists 1. split; [lra|symmetry; apply at_1].
Qed.

(** toPoses without the start pose: positions on the segment, heading along it,
    starting one step after the start (before the end, if driven backward). *)
Theorem C43_toPoses : forall l r old dir ps, proper l -> / 10000000000 <= r ->
  (dir = FORWARD \/ dir = BACKWARD) -> l_toPoses l r old dir false = Some ps ->
  INR (length ps) * r <= llen l < (INR (length ps) + 1) * r /\
  forall k p, nth_error ps k = Some p ->
    let t := INR (S k) * r / llen l in
    0 <= t <= 1 /\ pp_pos p = at_t l (if (dir =? BACKWARD)%Z then 1 - t else t) /\
    psub (l_end l) (l_start l) = pmul (Pt (cos (pp_th p)) (sin (pp_th p))) (llen l).
Proof.
  intros l r old dir ps Hp Hr Hd E. pose proof (llen_pos l Hp) as H.
  assert (Hr0 : 0 < r) by lra.
  unfold l_toPoses in E. cbv zeta in E. destruct (Rlt_dec (Rabs r) _) as [Hb|_]; [rewrite Rabs_pos_eq in Hb by lra; lra|].
  rewrite llen_len in E.
  destruct (cast_i32 (llen l / r)) as [n|] eqn:Ec; [|discriminate]. cbn [obind] in E.
  destruct (n <? 0)%Z eqn:En; [discriminate|]. injection E as <-.
  destruct (cast_len l r n Hr0 Ec) as [Hn0 Hn].
  assert (Hin : INR (Z.to_nat n) = IZR n) by (rewrite INR_IZR_INZ, Z2Nat.id by assumption; reflexivity).
  rewrite map_length, march_length, Hin. split; [exact Hn|].
  intros k p Hk. rewrite nth_error_map in Hk.
  destruct (Nat.lt_ge_cases k (Z.to_nat n)) as [Hkn|Hkn].
  2:{ exfalso. match type of Hk with option_map _ (nth_error ?ml k) = _ => assert (Z : nth_error ml k = None) by (apply nth_error_None; rewrite march_length; assumption); rewrite Z in Hk end. discriminate. }
  rewrite march_nth in Hk by assumption. cbn [option_map] in Hk. injection Hk as <-. cbn [pp_pos pp_th].
  assert (HSk : INR (S k) <= IZR n) by (rewrite <- Hin; apply le_INR; lia). pose proof (pos_INR (S k)).
  split; [|split].
  - split; [apply Rmult_le_pos; [nra|left; apply Rinv_0_lt_compat; assumption]|].
    apply (Rmult_le_reg_r (llen l)); [assumption|]. unfold Rdiv. rewrite Rmult_assoc, Rinv_l by lra. nra.
  - destruct Hd as [-> | ->].
    + change ((FORWARD =? BACKWARD)%Z) with false. cbv iota. rewrite <- (proj1 (step_at l r (S k) Hp)). rewrite S_INR.
      unfold padd, pmul. cbn [px py]. apply pt_ext; cbn [px py]; ring.
    + change ((BACKWARD =? BACKWARD)%Z) with true. cbv iota. rewrite <- (proj2 (step_at l r (S k) Hp)). rewrite S_INR.
      unfold padd, pmul. cbn [px py]. apply pt_ext; cbn [px py]; ring.
  - pose proof (atan2_polar (py (psub (l_end l) (l_start l))) (px (psub (l_end l) (l_start l)))) as [P1 P2].
    rewrite <- len_hyp, llen_len in P1, P2. unfold psub in *. unfold pmul. cbn [px py] in *. apply pt_ext; cbn [px py]; lra.
Qed.

(** toPoses with the start pose: as before but starting at the start; the last element is
    the one the vector held at that place before the call (the origin, if it was shorter). *)
Theorem C43_toPoses_start : forall l r old dir ps, proper l -> / 10000000000 <= r ->
  (dir = FORWARD \/ dir = BACKWARD) -> l_toPoses l r old dir true = Some ps ->
  exists n, length ps = S n /\ INR n * r <= llen l < (INR n + 1) * r /\
  (forall k p, (k < n)%nat -> nth_error ps k = Some p ->
    let t := INR k * r / llen l in
    0 <= t <= 1 /\ pp_pos p = at_t l (if (dir =? BACKWARD)%Z then 1 - t else t) /\
    psub (l_end l) (l_start l) = pmul (Pt (cos (pp_th p)) (sin (pp_th p))) (llen l)) /\
  nth_error ps n = Some (nth n old ppose0).
Proof.
  intros l r old dir ps Hp Hr Hd E. pose proof (llen_pos l Hp) as H.
  assert (Hr0 : 0 < r) by lra.
  unfold l_toPoses in E. cbv zeta in E. destruct (Rlt_dec (Rabs r) _) as [Hb|_]; [rewrite Rabs_pos_eq in Hb by lra; lra|].
  rewrite llen_len in E.
  destruct (cast_i32 (llen l / r)) as [n|] eqn:Ec; [|discriminate]. cbn [obind] in E.
  destruct (n <? 0)%Z eqn:En; [discriminate|]. injection E as <-.
  destruct (cast_len l r n Hr0 Ec) as [Hn0 Hn].
  assert (Hin : INR (Z.to_nat n) = IZR n) by (rewrite INR_IZR_INZ, Z2Nat.id by assumption; reflexivity).
  assert (T : forall k, skipn k (vresize old (S k)) = [nth k old ppose0]).
  { clear. intros k. unfold vresize. revert old. induction k as [|k IH]; intros [|o o']; try reflexivity.
    - cbn [firstn app length Nat.sub repeat skipn nth]. specialize (IH []). cbn [firstn app length Nat.sub repeat skipn] in IH. rewrite IH. destruct k; reflexivity.
    - cbn [firstn app length Nat.sub skipn nth]. apply IH. }
  exists (Z.to_nat n). rewrite T, app_length, map_length, march_length. cbn [length]. split; [lia|]. rewrite Hin. split; [exact Hn|]. split.
  - intros k p Hk Ek. rewrite nth_error_app1 in Ek by (rewrite map_length, march_length; assumption). rewrite nth_error_map, march_nth in Ek by assumption. cbn [option_map] in Ek. injection Ek as <-. cbn [pp_pos pp_th].
    assert (HSk : INR k <= IZR n) by (rewrite <- Hin; apply le_INR; lia). pose proof (pos_INR k). split; [|split].
    + split; [apply Rmult_le_pos; [nra|left; apply Rinv_0_lt_compat; assumption]|].
      apply (Rmult_le_reg_r (llen l)); [assumption|]. unfold Rdiv. rewrite Rmult_assoc, Rinv_l by lra. nra.
    + destruct Hd as [-> | ->].
      * change ((FORWARD =? BACKWARD)%Z) with false. cbv iota. rewrite <- (proj1 (step_at l r k Hp)). reflexivity.
      * change ((BACKWARD =? BACKWARD)%Z) with true. cbv iota. rewrite <- (proj2 (step_at l r k Hp)).
        unfold padd, pmul. cbn [px py]. apply pt_ext; cbn [px py]; ring.
    + pose proof (atan2_polar (py (psub (l_end l) (l_start l))) (px (psub (l_end l) (l_start l)))) as [P1 P2].
      rewrite <- len_hyp, llen_len in P1, P2. unfold psub in *. unfold pmul. cbn [px py] in *. apply pt_ext; cbn [px py]; lra.
  - rewrite nth_error_app2 by (rewrite map_length, march_length; lia). rewrite map_length, march_length, Nat.sub_diag. reflexivity.
Qed.

(** With the start pose one element is never written: it is the origin with
    heading 0, or whatever the vector held before. *)
Theorem C43_toPoses_start_refuted : exists l r ps p,
  proper l /\ l_toPoses l r [] FORWARD true = Some ps /\ In p ps /\ ~ on_line l (pp_pos p).
Proof.
  assert (Hp : proper (Ln (Pt 5 5) (Pt 9 5))) by (unfold proper; cbn; intros H; injection H as H; lra).
  assert (L : llen (Ln (Pt 5 5) (Pt 9 5)) = 4).
  { unfold llen. cbn [l_start l_end]. rewrite dist_hyp. apply hyp_unique; cbn [px py]; lra. }
  assert (E : exists ps, l_toPoses (Ln (Pt 5 5) (Pt 9 5)) 2 [] FORWARD true = Some ps /\ In ppose0 ps).
  { unfold l_toPoses. cbv zeta. destruct (Rlt_dec (Rabs 2) _) as [Hb|_]; [rewrite Rabs_pos_eq in Hb by lra; lra|].
    rewrite llen_len, L. assert (C : cast_i32 (4 / 2) = Some 2%Z).
    { replace (4 / 2) with 2 by field. unfold cast_i32. rewrite (Ztrunc_IZR 2). reflexivity. }
    rewrite C. cbn [obind]. eexists. split; [reflexivity|]. apply in_or_app. right. cbn. left. reflexivity. }
  destruct E as (ps & E & Hi). exists (Ln (Pt 5 5) (Pt 9 5)), 2, ps, ppose0. split; [exact Hp|]. split; [exact E|]. split; [exact Hi|].
  intros [t Ht]. unfold at_t, padd, pmul, psub in Ht. cbn [l_start l_end px py pp_pos ppose0] in Ht. injection Ht as _ Ht. lra.
Qed.

(** Line from a pose: length |L|, directed along the heading; the pose is its start
    (driving forward) or its end (backward). *)
Theorem C43_line_of_pose : forall s L d l, line_of_pose s L d = Some l ->
  psub (l_end l) (l_start l) = pmul (Pt (cos (pp_th s)) (sin (pp_th s))) (Rabs L) /\
  llen l = Rabs L /\ ((0 < d)%Z -> l_start l = pp_pos s) /\ ((d < 0)%Z -> l_end l = pp_pos s).
Proof.
  intros s L d l E. unfold line_of_pose in E. destruct (d =? 0)%Z eqn:Ed; [discriminate|]. apply Z.eqb_neq in Ed. cbv zeta in E. injection E as E.
  assert (Q : (Z.quot d (Z.abs d) =? FORWARD)%Z = (0 <? d)%Z).
  { destruct (Z.ltb_spec 0 d).
    - rewrite Z.abs_eq, Z.quot_same by lia. reflexivity.
    - rewrite Z.abs_neq by lia. rewrite Z.quot_opp_r, Z.quot_same by lia. reflexivity. }
  rewrite Q in E.
  assert (G : psub (l_end l) (l_start l) = pmul (Pt (cos (pp_th s)) (sin (pp_th s))) (Rabs L)).
  { subst l. destruct (0 <? d)%Z; cbn [l_start l_end]; unfold psub, padd, pmul; cbn [px py]; apply pt_ext; cbn [px py]; ring. }
  split; [exact G|]. split.
  - rewrite <- llen_len, G, len_hyp. apply hyp_unique; [apply Rabs_pos|]. unfold pmul. cbn [px py]. pose proof (cs1 (pp_th s)).
    replace (cos (pp_th s) * Rabs L * (cos (pp_th s) * Rabs L) + sin (pp_th s) * Rabs L * (sin (pp_th s) * Rabs L))
      with ((cos (pp_th s) * cos (pp_th s) + sin (pp_th s) * sin (pp_th s)) * (Rabs L * Rabs L)) by ring. rewrite H. ring.
  - subst l. split; intros Hd; destruct (Z.ltb_spec 0 d); try lia; reflexivity.
Qed.

(** selectStartPoint / selectEndPoint: an exact line point (in particular a point of
    the segment) is accepted and becomes the end point; refused points change nothing. *)
Theorem C43_select : forall l p tol, proper l ->
  (on_line l p -> selectStartPoint l p tol = (true, Ln p (l_end l)) /\ selectEndPoint l p tol = (true, Ln (l_start l) p)) /\
  (fst (selectStartPoint l p tol) = false -> snd (selectStartPoint l p tol) = l) /\
  (fst (selectEndPoint l p tol) = false -> snd (selectEndPoint l p tol) = l).
Proof.
  intros l p tol Hp. split.
  - intros [t ->].
    assert (E : pointRelativePosition l (at_t l t) tol = 0%Z).
    { unfold pointRelativePosition. cbv zeta. unfold at_t, padd, pmul, psub. cbn [px py].
      match goal with |- context [Rlt_dec (Rabs tol) ?d] => assert (Z : d = 0) by ring; rewrite Z end.
      pose proof (Rabs_pos tol). destruct (Rlt_dec (Rabs tol) 0); [lra|]. destruct (Rlt_dec 0 (- Rabs tol)); [lra|reflexivity]. }
    unfold selectStartPoint, selectEndPoint. rewrite E. split; reflexivity.
  - unfold selectStartPoint, selectEndPoint. destruct (_ =? 0)%Z; cbn; split; (discriminate || reflexivity).
Qed.

(** isIdentical ignores headings turned the other way: the signed angle difference
    is compared. *)
Theorem C43_isIdentical_refuted : forall adelta, AngleDelta_contract adelta ->
  exists a b, pp_isIdentical adelta a b DIST_EPS (/ 1000) = true /\ pp_th a - pp_th b = 1.
Proof.
  intros adelta Hc. exists (PP (Pt 0 0) 1), (PP (Pt 0 0) 0). cbn [pp_th]. split; [|ring].
  unfold pp_isIdentical, DIST_EPS. cbn [pp_pos pp_th]. rewrite andb_true_iff, !Rltb_spec. split.
  - rewrite len_hyp. unfold psub. cbn [px py]. rewrite (hyp_unique _ _ 0); lra.
  - destruct (Hc 1 0) as [Hr [k Hk]]. assert (adelta 1 0 = -1) as ->; [|lra].
    pose proof PI_RGT_0. pose proof PI2_1. apply angle_eq_unique; [|lra]. exists k. rewrite Hk. ring.
Qed.

(** Non-vacuity *)
Example C43_example : let l := Ln (Pt 1 1) (Pt 4 5) in
  proper l /\ llen l = 5 /\ (exists pts, l_toPoints l 1 = Some pts /\ length pts = 6%nat).
Proof.
  cbv zeta. assert (Hp : proper (Ln (Pt 1 1) (Pt 4 5))) by (unfold proper; cbn; intros H; injection H as H; lra).
  assert (L : llen (Ln (Pt 1 1) (Pt 4 5)) = 5).
  { unfold llen. cbn [l_start l_end]. rewrite dist_hyp. apply hyp_unique; cbn [px py]; lra. }
  split; [exact Hp|]. split; [exact L|].
  assert (C : cast_i32 (llen (Ln (Pt 1 1) (Pt 4 5)) / 1) = Some 5%Z).
  { rewrite L. replace (5 / 1) with 5 by field. unfold cast_i32. rewrite (Ztrunc_IZR 5). reflexivity. }
  unfold l_toPoints. cbv zeta. destruct (Req_EM_T 1 0); [lra|]. rewrite llen_len, C. cbn [obind].
  eexists. split; [reflexivity|]. rewrite app_length, march_length. reflexivity.
Qed.

Print Assumptions C43_nearest.
Print Assumptions C43_toPoses.
