(** C45: intersections of circles, arcs and segments. *)
From Coq Require Import Reals Lra.
From Flocq Require Import Core.Raux.
From Verif Require Import Base GeomR PropGeom LineModel PropLine CircleModel PropCircle IntersectModel.
Local Open Scope R_scope.

(** ** Specification *)
Definition on_circle (c : circle) (p : pt) : Prop := dist p (c_center c) = c_radius c.

Lemma on_circle_sq c p : 0 <= c_radius c -> on_circle c p <->
  (px p - px (c_center c)) * (px p - px (c_center c)) + (py p - py (c_center c)) * (py p - py (c_center c)) = c_radius c * c_radius c.
Proof.
  intros Hr. unfold on_circle. split.
  - intros H. rewrite <- dist_sq, H. reflexivity.
  - intros H. rewrite dist_hyp. apply hyp_unique; auto.
Qed.

(** ** Two circles *)
Section CC.
  Variables (c1 c2 : circle).
  Let X := px (psub (c_center c2) (c_center c1)).
  Let Y := py (psub (c_center c2) (c_center c1)).
  Let d := len (psub (c_center c2) (c_center c1)).
  Let r1 := c_radius c1.
  Let r2 := c_radius c2.
  Let a := (r1 * r1 - r2 * r2 + d * d) / (2 * d).
  Let p := Pt (px (c_center c1) + (a / d) * X) (py (c_center c1) + (a / d) * Y).
  Let q1 h := padd p (pmul (Pt Y (-1 * X)) (h / d)).
  Let q2 h := padd p (pmul (Pt (-1 * Y) X) (h / d)).
  Hypothesis Hr1 : 0 <= r1.
  Hypothesis Hr2 : 0 <= r2.
  Hypothesis Hd : 0 < d.

  Lemma dd : d * d = X * X + Y * Y.
  Proof using. unfold d, X, Y. rewrite len_hyp. apply hyp_sq. Qed.
  Lemma ad : 2 * (a * d) = r1 * r1 - r2 * r2 + d * d.
  Proof using Hd. unfold a. field. lra. Qed.

  (** Coordinates of a common point. *)
  Lemma common_coords q : on_circle c1 q -> on_circle c2 q -> 
    let cr := X * (py q - py (c_center c1)) - Y * (px q - px (c_center c1)) in
    cr * cr = (r1 * r1 - a * a) * (d * d) /\
    q = Pt (px p - Y * cr / (d * d)) (py p + X * cr / (d * d)).
  Proof using Hr1 Hr2 Hd.
    intros H1 H2 cr. apply on_circle_sq in H1; [|assumption]. apply on_circle_sq in H2; [|assumption].
    set (u := px q - px (c_center c1)) in *. set (v := py q - py (c_center c1)) in *.
    replace (px q - px (c_center c2)) with (u - X) in H2 by (unfold u, X, psub; cbn [px py]; ring).
    replace (py q - py (c_center c2)) with (v - Y) in H2 by (unfold v, Y, psub; cbn [px py]; ring).
    fold r1 in H1. fold r2 in H2. pose proof dd as DD. pose proof ad as AD.
    assert (DOT : u * X + v * Y = a * d) by lra.
    assert (LAG : (u * X + v * Y) * (u * X + v * Y) + cr * cr = (u * u + v * v) * (X * X + Y * Y)) by (unfold cr; ring).
    split.
    - rewrite DOT, H1, <- DD in LAG. lra.
    - assert (Hdd : d * d <> 0) by nra.
      apply pt_ext; cbn [px py p].
      + replace (px q) with (px (c_center c1) + u) by (unfold u; ring). 
        assert (E : u * (d * d) = X * (a * d) - Y * cr) by (rewrite DD, <- DOT; unfold cr; ring).
        apply (Rmult_eq_reg_r (d * d)); [|assumption].
        replace ((px (c_center c1) + a / d * X - Y * cr / (d * d)) * (d * d)) with (px (c_center c1) * (d * d) + X * (a * d) - Y * cr) by (field; lra).
        rewrite Rmult_plus_distr_r, E. ring.
      + replace (py q) with (py (c_center c1) + v) by (unfold v; ring). 
        assert (E : v * (d * d) = Y * (a * d) + X * cr) by (rewrite DD, <- DOT; unfold cr; ring).
        apply (Rmult_eq_reg_r (d * d)); [|assumption].
        replace ((py (c_center c1) + a / d * Y + X * cr / (d * d)) * (d * d)) with (py (c_center c1) * (d * d) + Y * (a * d) + X * cr) by (field; lra).
        rewrite Rmult_plus_distr_r, E. ring.
  Qed.
  Lemma hsq_sym : r1 * r1 - a * a = r2 * r2 - (d - a) * (d - a).
  Proof using Hd. pose proof ad. nra. Qed.
  Lemma pts_on h : h * h = r1 * r1 - a * a ->
    on_circle c1 (q1 h) /\ on_circle c2 (q1 h) /\ on_circle c1 (q2 h) /\ on_circle c2 (q2 h).
  Proof using Hr1 Hr2 Hd.
    intros Hh. pose proof dd as DD. pose proof hsq_sym as HS.
    assert (G1 : forall e, (a / d * X + e * (h / d) * Y) * (a / d * X + e * (h / d) * Y) + (a / d * Y - e * (h / d) * X) * (a / d * Y - e * (h / d) * X)
        = (a * a + e * e * (h * h)) * (X * X + Y * Y) / (d * d)) by (intros e; field; lra).
    assert (G2 : forall e, (a / d * X + e * (h / d) * Y - X) * (a / d * X + e * (h / d) * Y - X) + (a / d * Y - e * (h / d) * X - Y) * (a / d * Y - e * (h / d) * X - Y)
        = ((d - a) * (d - a) + e * e * (h * h)) * (X * X + Y * Y) / (d * d)) by (intros e; field; lra).
    rewrite <- DD in G1, G2.
    assert (S : forall z, z * (d * d) / (d * d) = z) by (intros; field; lra).
    split; [|split; [|split]]; apply on_circle_sq; try assumption; unfold q1, q2, p, padd, pmul; cbn [px py].
    - replace (px (c_center c1) + a / d * X + Y * (h / d) - px (c_center c1)) with (a / d * X + 1 * (h / d) * Y) by ring.
      replace (py (c_center c1) + a / d * Y + -1 * X * (h / d) - py (c_center c1)) with (a / d * Y - 1 * (h / d) * X) by ring.
      rewrite G1, S. fold r1. lra.
    - replace (px (c_center c1) + a / d * X + Y * (h / d) - px (c_center c2)) with (a / d * X + 1 * (h / d) * Y - X) by (unfold X, psub; cbn [px py]; ring).
      replace (py (c_center c1) + a / d * Y + -1 * X * (h / d) - py (c_center c2)) with (a / d * Y - 1 * (h / d) * X - Y) by (unfold Y, psub; cbn [px py]; ring).
      rewrite G2, S. fold r2. lra.
    - replace (px (c_center c1) + a / d * X + -1 * Y * (h / d) - px (c_center c1)) with (a / d * X + -1 * (h / d) * Y) by ring.
      replace (py (c_center c1) + a / d * Y + X * (h / d) - py (c_center c1)) with (a / d * Y - -1 * (h / d) * X) by ring.
      rewrite G1, S. fold r1. lra.
    - replace (px (c_center c1) + a / d * X + -1 * Y * (h / d) - px (c_center c2)) with (a / d * X + -1 * (h / d) * Y - X) by (unfold X, psub; cbn [px py]; ring).
      replace (py (c_center c1) + a / d * Y + X * (h / d) - py (c_center c2)) with (a / d * Y - -1 * (h / d) * X - Y) by (unfold Y, psub; cbn [px py]; ring).
      rewrite G2, S. fold r2. lra.
  Qed.
  Lemma pts_complete h q : 0 <= h -> h * h = r1 * r1 - a * a -> on_circle c1 q -> on_circle c2 q -> q = q1 h \/ q = q2 h.
  Proof using Hr1 Hr2 Hd.
    intros Hh0 Hh H1 H2. destruct (common_coords q H1 H2) as [K Q]. set (cr := X * _ - Y * _) in *.
    rewrite <- Hh in K. assert (E : (cr - h * d) * (cr + h * d) = 0) by lra.
    apply Rmult_integral in E. destruct E as [E|E].
    - right. rewrite Q. replace cr with (h * d) by lra. unfold q2, padd, pmul. cbn [px py]. apply pt_ext; cbn [px py]; field; lra.
    - left. rewrite Q. replace cr with (- (h * d)) by lra. unfold q1, padd, pmul. cbn [px py]. apply pt_ext; cbn [px py]; field; lra.
  Qed.
  Lemma common_hsq q : on_circle c1 q -> on_circle c2 q -> 0 <= r1 * r1 - a * a.
  Proof using Hr1 Hr2 Hd.
    intros H1 H2. destruct (common_coords q H1 H2) as [K _]. set (cr := X * _ - Y * _) in *.
    assert (D2 : 0 < d * d) by (apply Rmult_lt_0_compat; assumption). assert (C2 : 0 <= cr * cr) by apply Rle_0_sqr.
    rewrite K in C2. apply (Rmult_le_reg_r (d * d)); [assumption|]. rewrite Rmult_0_l. assumption.
  Qed.
  Lemma common_near q : on_circle c1 q -> on_circle c2 q -> dist q p * dist q p = r1 * r1 - a * a.
  Proof using Hr1 Hr2 Hd.
    intros H1 H2. destruct (common_coords q H1 H2) as [K Q]. set (cr := X * _ - Y * _) in *. rewrite dist_sq, Q. cbn [px py].
    replace ((px p - Y * cr / (d * d) - px p) * (px p - Y * cr / (d * d) - px p) + (py p + X * cr / (d * d) - py p) * (py p + X * cr / (d * d) - py p))
      with ((cr * cr) * (X * X + Y * Y) / (d * d * (d * d))) by (field; lra). rewrite <- dd, K. field. lra.
  Qed.
  Lemma p_dist1 : dist p (c_center c1) = Rabs a.
  Proof using Hd.
    rewrite dist_hyp. apply hyp_unique; [apply Rabs_pos|]. cbn [px py p]. pose proof (Rsqr_abs a) as E. unfold Rsqr in E. rewrite <- E. 
    replace ((px (c_center c1) + a / d * X - px (c_center c1)) * (px (c_center c1) + a / d * X - px (c_center c1)) +
      (py (c_center c1) + a / d * Y - py (c_center c1)) * (py (c_center c1) + a / d * Y - py (c_center c1)))
      with (a * a * (X * X + Y * Y) / (d * d)) by (field; lra). rewrite <- dd. field. lra.
  Qed.
  Lemma p_dist2 : dist p (c_center c2) = Rabs (d - a).
  Proof using Hd.
    rewrite dist_hyp. apply hyp_unique; [apply Rabs_pos|]. cbn [px py p]. pose proof (Rsqr_abs (d - a)) as E. unfold Rsqr in E. rewrite <- E. 
    replace (px (c_center c1) + a / d * X - px (c_center c2)) with (a / d * X - X) by (unfold X, psub; cbn [px py]; ring).
    replace (py (c_center c1) + a / d * Y - py (c_center c2)) with (a / d * Y - Y) by (unfold Y, psub; cbn [px py]; ring).
    replace ((a / d * X - X) * (a / d * X - X) + (a / d * Y - Y) * (a / d * Y - Y))
      with ((d - a) * (d - a) * (X * X + Y * Y) / (d * d)) by (field; lra). rewrite <- dd. field. lra.
  Qed.
End CC.

Lemma dist_centers c1 c2 : len (psub (c_center c2) (c_center c1)) = dist (c_center c1) (c_center c2).
Proof. rewrite dist_sym, dist_len. reflexivity. Qed.

(** |x - y| < t from |x^2 - y^2| < t^2. *)
Lemma sq_close x y t : 0 <= x -> 0 <= y -> 0 < t -> Rabs (x * x - y * y) < t * t -> Rabs (x - y) < t.
Proof.
  intros Hx Hy Ht H. apply Rabs_def2 in H. apply Rabs_def1.
  - apply Rnot_le_lt. intros Hc. nra.
  - apply Rnot_le_lt. intros Hc. nra.
Qed.

(** What the code computes once the centres are [tol] apart. *)
Lemma cc_cases c1 c2 old tol res : 0 < tol -> 0 <= c_radius c1 -> 0 <= c_radius c2 ->
  tol <= dist (c_center c1) (c_center c2) -> cc_intersect c1 c2 old tol = Some res ->
  let d := dist (c_center c1) (c_center c2) in
  let a := (c_radius c1 * c_radius c1 - c_radius c2 * c_radius c2 + d * d) / (2 * d) in
  let hs := c_radius c1 * c_radius c1 - a * a in
  let p := Pt (px (c_center c1) + (a / d) * px (psub (c_center c2) (c_center c1))) (py (c_center c1) + (a / d) * py (psub (c_center c2) (c_center c1))) in
  (res = [] /\ (c_radius c1 + c_radius c2 + tol < d \/ d + tol < Rabs (c_radius c1 - c_radius c2) \/ hs < 0)) \/
  (res = [p] /\ (Rabs (c_radius c1 + c_radius c2 - d) < tol \/ Rabs hs < tol * tol)) \/
  (exists h, tol <= h /\ h * h = hs /\
     res = [padd p (pmul (Pt (py (psub (c_center c2) (c_center c1))) (-1 * px (psub (c_center c2) (c_center c1)))) (h / d));
            padd p (pmul (Pt (-1 * py (psub (c_center c2) (c_center c1))) (px (psub (c_center c2) (c_center c1)))) (h / d))]).
Proof.
  intros Ht Hr1 Hr2 Hd E d a hs p. unfold cc_intersect in E. rewrite dist_centers in E. fold d in E, Hd. cbv zeta in E.
  rewrite (Rabs_pos_eq tol) in E by lra. fold a in E. fold hs in E. fold p in E.
  destruct (Rlt_dec d tol); [lra|].
  destruct (Rlt_dec _ d) as [H1|H1]; [injection E as <-; left; auto|].
  destruct (Rlt_dec (d + tol) _) as [H2|H2]; [injection E as <-; left; auto|].
  assert (B1 : Rltb (Rabs d) tol = false) by (apply Rltb_false; rewrite Rabs_pos_eq; lra). rewrite B1 in E. cbn [andb] in E.
  destruct (Req_EM_T d 0); [lra|].
  assert (B2 : Rltb (d + Rabs (c_radius c1 - c_radius c2)) tol = false).
  { apply Rltb_false. pose proof (Rabs_pos (c_radius c1 - c_radius c2)). lra. }
  rewrite B2, orb_false_r in E.
  destruct (Rltb (Rabs (c_radius c1 + c_radius c2 - d)) tol) eqn:B3.
  { injection E as <-. right. left. apply Rltb_spec in B3. auto. }
  destruct (Rltb (Rabs hs) (tol * tol)) eqn:B4.
  { apply Rltb_spec in B4. rewrite sqrt_0 in E. destruct (Rlt_dec 0 tol); [|lra]. injection E as <-. right. left. auto. }
  apply Rltb_false in B4.
  destruct (Rltb hs (- (tol * tol))) eqn:B5; [apply Rltb_spec in B5; injection E as <-; left; split; [reflexivity|]; right; right; nra|].
  destruct (Rltb hs 0) eqn:B6; [discriminate|]. apply Rltb_false in B6.
  pose proof (sqrt_sqrt hs B6) as S. pose proof (sqrt_pos hs) as S0. rewrite Rabs_pos_eq in B4 by assumption.
  destruct (Rlt_dec (sqrt hs) tol) as [H|H]; [nra|]. injection E as <-. right. right. exists (sqrt hs). split; [lra|]. auto.
Qed.

(** No result point: no common point. Two result points: exactly the common points.
    One: a point within 3/2 of the tolerance of both circles. *)
Theorem C45_circles : forall c1 c2 old tol res, 0 < tol -> 0 <= c_radius c1 -> 0 <= c_radius c2 ->
  tol <= dist (c_center c1) (c_center c2) -> cc_intersect c1 c2 old tol = Some res ->
  (length res <= 2)%nat /\
  (length res <> 1%nat -> NoDup res /\ forall q, In q res <-> on_circle c1 q /\ on_circle c2 q) /\
  (forall p, res = [p] -> Rabs (dist p (c_center c1) - c_radius c1) <= 3 / 2 * tol /\
                          Rabs (dist p (c_center c2) - c_radius c2) <= 3 / 2 * tol).
Proof.
  intros c1 c2 old tol res Ht Hr1 Hr2 Hd E. pose proof (cc_cases c1 c2 old tol res Ht Hr1 Hr2 Hd E) as K. cbv zeta in K.
  rewrite <- dist_centers in K, Hd. set (d := len (psub (c_center c2) (c_center c1))) in *. assert (Hd0 : 0 < d) by lra.
  set (r1 := c_radius c1) in *. set (r2 := c_radius c2) in *. set (a := (r1 * r1 - r2 * r2 + d * d) / (2 * d)) in *.
  assert (AD : 2 * (a * d) = r1 * r1 - r2 * r2 + d * d) by (unfold a; field; lra).
  destruct K as [[-> K]|[[-> K]|(h & Hh & Hhs & ->)]].
  - split; [cbn; lia|]. split; [|discriminate]. intros _. split; [constructor|]. intros q. split; [intros []|]. intros [H1 H2]. exfalso.
    pose proof (common_hsq c1 c2 Hr1 Hr2 Hd0 q H1 H2) as P.
    assert (HD : d = dist (c_center c1) (c_center c2)) by (unfold d; apply dist_centers).
    pose proof (dist_tri (c_center c1) q (c_center c2)) as T1. rewrite <- HD, (dist_sym (c_center c1) q), H1, H2 in T1. fold r1 r2 in T1.
    pose proof (dist_tri q (c_center c1) (c_center c2)) as T2. rewrite <- HD, H1, H2 in T2. fold r1 r2 in T2.
    pose proof (dist_tri q (c_center c2) (c_center c1)) as T3. rewrite (dist_sym (c_center c2)), <- HD, H1, H2 in T3. fold r1 r2 in T3.
    destruct K as [K|[K|K]]; [lra| |fold d r1 r2 a in P; lra].
    unfold Rabs in K. destruct (Rcase_abs _); lra.
  - split; [cbn; lia|]. split; [cbn; lia|]. intros p Ep. match type of Ep with [?x] = _ => assert (EQ : p = x) by congruence; rewrite EQ; clear Ep EQ end.
    pose proof (p_dist1 c1 c2 Hd0) as D1. pose proof (p_dist2 c1 c2 Hd0) as D2. fold d r1 r2 a in D1, D2. rewrite D1, D2.
    destruct K as [K|K].
    + apply Rabs_def2 in K.
      assert (U1 : (a - r1) * (2 * d) = (d - r1 - r2) * (d - r1 + r2)) by (rewrite Rmult_minus_distr_r; lra).
      assert (U2 : ((d - a) - r2) * (2 * d) = (d - r1 - r2) * (d - r2 + r1)) by (rewrite !Rmult_minus_distr_r; lra).
      assert (W1 : Rabs (a - r1) <= 3 / 2 * tol).
      { apply (Rmult_le_reg_r (2 * d)); [lra|]. rewrite <- (Rabs_pos_eq (2 * d)) at 1 by lra. rewrite <- Rabs_mult, U1, Rabs_mult.
        replace (3 / 2 * tol * (2 * d)) with (tol * (3 * d)) by field.
        apply Rmult_le_compat; [apply Rabs_pos|apply Rabs_pos|apply Rabs_le; lra|apply Rabs_le; lra]. }
      assert (W2 : Rabs (d - a - r2) <= 3 / 2 * tol).
      { apply (Rmult_le_reg_r (2 * d)); [lra|]. rewrite <- (Rabs_pos_eq (2 * d)) at 1 by lra. rewrite <- Rabs_mult, U2, Rabs_mult.
        replace (3 / 2 * tol * (2 * d)) with (tol * (3 * d)) by field.
        apply Rmult_le_compat; [apply Rabs_pos|apply Rabs_pos|apply Rabs_le; lra|apply Rabs_le; lra]. }
      split.
      * eapply Rle_trans; [|exact W1]. rewrite <- (Rabs_pos_eq r1) at 1 by assumption. apply Rabs_triang_inv2.
      * eapply Rle_trans; [|exact W2]. rewrite <- (Rabs_pos_eq r2) at 1 by assumption. apply Rabs_triang_inv2.
    + pose proof (hsq_sym c1 c2 Hd0) as HS. fold d r1 r2 a in HS. split.
      * left. apply Rlt_trans with tol; [|lra]. apply sq_close; [apply Rabs_pos|assumption|assumption|].
        pose proof (Rsqr_abs a) as Q. unfold Rsqr in Q. rewrite <- Q. rewrite Rabs_minus_sym. assumption.
      * left. apply Rlt_trans with tol; [|lra]. apply sq_close; [apply Rabs_pos|assumption|assumption|].
        pose proof (Rsqr_abs (d - a)) as Q. unfold Rsqr in Q. rewrite <- Q. rewrite Rabs_minus_sym, <- HS. assumption.
  - split; [cbn; lia|]. split; [|discriminate]. intros _. 
    pose proof (pts_on c1 c2 Hr1 Hr2 Hd0 h Hhs) as (A1 & A2 & A3 & A4). split.
    + constructor; [|constructor; [intros []|constructor]]. intros [Ex|[]]. 
      pose proof (dd c1 c2) as DD. fold d in DD. set (X := px (psub (c_center c2) (c_center c1))) in *. set (Y := py (psub (c_center c2) (c_center c1))) in *.
      unfold padd, pmul in Ex. cbn [px py] in Ex. injection Ex as Ex1 Ex2.
      assert (H0 : 0 < h / d) by (apply Rdiv_lt_0_compat; lra).
      assert (Y * (h / d) = 0) by lra. assert (X * (h / d) = 0) by lra. apply Rmult_integral in H. apply Rmult_integral in H1.
      destruct H; [|lra]. destruct H1; [|lra]. rewrite H, H1 in DD. nra.
    + intros q. split.
      * intros [<-|[<-|[]]]; auto.
      * intros [H1 H2]. assert (Hh0 : 0 <= h) by lra. destruct (pts_complete c1 c2 Hr1 Hr2 Hd0 h q Hh0 Hhs H1 H2) as [-> | ->]; [left|right; left]; reflexivity.
Qed.

(** A single point that is not an outer contact: every common point is within the
    tolerance of it. *)
Theorem C45_circles_single_complete : forall c1 c2 old tol p q, 0 < tol -> 0 <= c_radius c1 -> 0 <= c_radius c2 ->
  tol <= dist (c_center c1) (c_center c2) -> cc_intersect c1 c2 old tol = Some [p] ->
  tol <= Rabs (c_radius c1 + c_radius c2 - dist (c_center c1) (c_center c2)) ->
  on_circle c1 q -> on_circle c2 q -> dist q p < tol.
Proof.
  intros c1 c2 old tol p q Ht Hr1 Hr2 Hd E Ho H1 H2. pose proof (cc_cases c1 c2 old tol _ Ht Hr1 Hr2 Hd E) as K. cbv zeta in K.
  rewrite <- dist_centers in K, Hd, Ho. assert (Hd0 : 0 < len (psub (c_center c2) (c_center c1))) by lra.
  destruct K as [[K _]|[[Ep K]|(h & _ & _ & K)]]; try discriminate K. destruct K as [K|K]; [lra|].
  pose proof (common_near c1 c2 Hr1 Hr2 Hd0 q H1 H2) as N. match type of Ep with [?x] = [?y] => assert (EQ : x = y) by congruence; rewrite <- EQ in N; clear EQ end.
  apply Rabs_def2 in K. pose proof (dist_nonneg q p). nra.
Qed.

(** The result is only undefined (NaN points) in one degenerate case. *)
Theorem C45_circles_defined : forall c1 c2 old tol, 0 < tol -> cc_intersect c1 c2 old tol = None ->
  exists a, c_radius c1 * c_radius c1 - a * a = - (tol * tol).
Proof.
  intros c1 c2 old tol Ht E. unfold cc_intersect in E. cbv zeta in E. rewrite (Rabs_pos_eq tol) in E by lra.
  set (d := len (psub (c_center c2) (c_center c1))) in *.
  destruct (Rlt_dec d tol); [discriminate|]. destruct (Rlt_dec _ d); [discriminate|]. destruct (Rlt_dec (d + tol) _); [discriminate|].
  destruct (_ && _); [discriminate|]. destruct (Req_EM_T d 0); [lra|]. destruct (_ || _); [discriminate|].
  set (a := _ / (2 * d)) in *. exists a. set (hs := c_radius c1 * c_radius c1 - a * a) in *.
  destruct (Rltb (Rabs hs) (tol * tol)) eqn:B4; [destruct (Rlt_dec _ tol); discriminate|].
  destruct (Rltb hs (- (tol * tol))) eqn:B5; [discriminate|]. destruct (Rltb hs 0) eqn:B6; [|destruct (Rlt_dec _ tol); discriminate].
  apply Rltb_false in B4, B5. apply Rltb_spec in B6. rewrite Rabs_left in B4 by assumption. lra.
Qed.

(** Circles with (almost) the same centre: the caller's old points are returned as
    if they were intersections. *)
Theorem C45_stale_refuted : exists c1 c2 q, cc_intersect c1 c2 [q] DIST_EPS = Some [q] /\ ~ on_circle c1 q /\ ~ on_circle c2 q.
Proof.
  exists (Circ (Pt 0 0) 1 1 (2 * PI) 0), (Circ (Pt 0 0) 2 1 (2 * PI) 0), (Pt 7 0).
  assert (D : dist (Pt 7 0) (Pt 0 0) = 7) by (rewrite dist_hyp; apply hyp_unique; cbn; lra).
  split; [|unfold on_circle; cbn [c_center c_radius]; rewrite D; split; lra].
  unfold cc_intersect. cbv zeta. cbn [c_center]. rewrite len_hyp. unfold psub, DIST_EPS. cbn [px py].
  assert (Z : hyp (0 - 0) (0 - 0) = 0) by (apply hyp_unique; lra). rewrite Z. rewrite (Rabs_pos_eq (/ 100000)) by lra.
  destruct (Rlt_dec 0 (/ 100000)); [reflexivity|lra].
Qed.
(** Outer contact within the tolerance: one point is reported where the circles cross
    in two points 4.9 mm apart. *)
Theorem C45_contact_refuted : exists c1 c2 p q1 q2, cc_intersect c1 c2 [] DIST_EPS = Some [p] /\
  on_circle c1 q1 /\ on_circle c2 q1 /\ on_circle c1 q2 /\ on_circle c2 q2 /\ 49 / 10000 <= dist q1 q2.
Proof.
  (* m = 800: r = m^2+1, half distance m^2-1, half chord 2m, scaled to r = 1 *)
  set (x := 639999 / 640001).
  set (y' := 1600 / 640001).
  exists (Circ (Pt 0 0) 1 1 (2 * PI) 0), (Circ (Pt (2 * x) 0) 1 1 (2 * PI) 0), (Pt x 0), (Pt x y'), (Pt x (- y')).
  assert (On : forall s, (s = y' \/ s = - y') -> on_circle (Circ (Pt 0 0) 1 1 (2 * PI) 0) (Pt x s) /\ on_circle (Circ (Pt (2 * x) 0) 1 1 (2 * PI) 0) (Pt x s)).
  { intros s Hs. split; apply on_circle_sq; cbn [c_center c_radius px py]; try lra; unfold x, y' in *; destruct Hs as [-> | ->]; lra. }
  split; [|split; [apply On; auto|split; [apply On; auto|split; [apply On; auto|split; [apply On; auto|]]]]].
  2:{ rewrite dist_hyp. cbn [px py]. assert (Z : hyp (x - x) (y' - - y') = 2 * y') by (apply hyp_unique; unfold y'; lra). rewrite Z. unfold y'. lra. }
  unfold cc_intersect. cbv zeta. cbn [c_center c_radius]. rewrite len_hyp. unfold psub. cbn [px py].
  assert (D : hyp (2 * x - 0) (0 - 0) = 2 * x) by (apply hyp_unique; unfold x; lra). rewrite D. unfold DIST_EPS. rewrite (Rabs_pos_eq (/ 100000)) by lra.
  destruct (Rlt_dec (2 * x) _); [unfold x in *; lra|]. destruct (Rlt_dec _ (2 * x)); [unfold x in *; lra|].
  replace (1 - 1) with 0 by ring. rewrite Rabs_R0. destruct (Rlt_dec (2 * x + / 100000) 0); [unfold x in *; lra|].
  assert (B1 : Rltb (Rabs (2 * x)) (/ 100000) = false) by (apply Rltb_false; rewrite Rabs_pos_eq; unfold x; lra). rewrite B1. cbn [andb].
  destruct (Req_EM_T (2 * x) 0); [unfold x in *; lra|].
  assert (B2 : Rltb (Rabs (1 + 1 - 2 * x)) (/ 100000) = true) by (apply Rltb_spec; rewrite Rabs_pos_eq; unfold x; lra). rewrite B2. cbn [orb].
  do 2 f_equal. apply pt_ext; cbn [px py]; field; unfold x; lra.
Qed.

(** ** Arcs *)
Theorem C45_arcs : forall c1 c2 tol res, 0 < tol -> normalised c1 -> normalised c2 ->
  tol <= dist (c_center c1) (c_center c2) -> cc_intersectArcs c1 c2 tol = Some res ->
  (forall q, In q res -> q <> c_center c1 -> q <> c_center c2 ->
     (in_sector c1 q /\ exists q1, on_arc c1 q1 /\ dist q q1 <= DIST_EPS) /\
     (in_sector c2 q /\ exists q2, on_arc c2 q2 /\ dist q q2 <= DIST_EPS)) /\
  (forall full q, cc_intersect c1 c2 [] tol = Some full -> length full <> 1%nat -> q <> c_center c1 -> q <> c_center c2 ->
     on_circle c1 q -> on_circle c2 q -> in_sector c1 q -> in_sector c2 q ->
     (getAngleOfPoint c1 q <> 0 \/ ~ seam c1) -> (getAngleOfPoint c2 q <> 0 \/ ~ seam c2) -> In q res).
Proof.
  intros c1 c2 tol res Ht N1 N2 Hd E. unfold cc_intersectArcs in E. destruct (cc_intersect c1 c2 [] tol) as [ip|] eqn:Ei; [|discriminate].
  cbn [obind] in E. injection E as <-. split.
  - intros q Hq Hc1 Hc2. apply filter_In in Hq. destruct Hq as [_ Hq]. apply andb_prop in Hq. destruct Hq as [A B].
    split; apply C44_isPointOnArc_sound; assumption.
  - intros full q Ef Hl Hc1 Hc2 O1 O2 S1 S2 X1 X2. injection Ef as <-.
    destruct (C45_circles c1 c2 [] tol ip Ht (proj2 (proj2 (proj2 N1))) (proj2 (proj2 (proj2 N2))) Hd Ei) as (_ & K & _).
    apply filter_In. split; [apply K; auto|]. apply andb_true_intro.
    assert (Z : forall c, on_circle c q -> Rabs (dist q (c_center c) - c_radius c) <= DIST_EPS).
    { intros c O. rewrite O, Rminus_eq_0, Rabs_R0. unfold DIST_EPS. lra. }
    split; apply C44_isPointOnArc_off_seam; auto.
Qed.

(** ** Segment and circle *)
Definition lc_poly (l : line) (c : circle) (t : R) : R := lc_a l * t * t + lc_b l c * t + lc_c l c.
Lemma lc_poly_dist l c t : dist (at_t l t) (c_center c) * dist (at_t l t) (c_center c) - c_radius c * c_radius c = lc_poly l c t.
Proof.
  rewrite dist_sq. unfold lc_poly, lc_a, lc_b, lc_c, sqn, vdot, at_t, padd, pmul, psub. cbn [px py]. ring.
Qed.
Lemma lc_a_len l : lc_a l = llen l * llen l.
Proof. rewrite llen_sq. unfold lc_a, sqn, psub. cbn [px py]. ring. Qed.
Lemma lc_poly_disc l c t : 4 * lc_a l * lc_poly l c t = (2 * lc_a l * t + lc_b l c) * (2 * lc_a l * t + lc_b l c) - lc_disc l c.
Proof. unfold lc_poly, lc_disc. ring. Qed.
Lemma on_circle_poly l c t : proper l -> 0 <= c_radius c -> on_circle c (at_t l t) <-> lc_poly l c t = 0.
Proof.
  intros Hp Hr. rewrite <- lc_poly_dist. unfold on_circle. split.
  - intros ->. ring.
  - intros H. pose proof (dist_nonneg (at_t l t) (c_center c)). nra.
Qed.
Lemma in01_spec t : in01 t = true <-> 0 <= t <= 1.
Proof. unfold in01. rewrite andb_true_iff, !Rleb_spec. tauto. Qed.

(** Unless the discriminant is within the tolerance: exactly the common points of the
    segment and the full circle. *)
Theorem C45_line_circle : forall l c tol q, proper l -> 0 <= c_radius c -> tol * tol <= Rabs (lc_disc l c) ->
  In q (lc_intersect l c tol) <-> on_seg l q /\ on_circle c q.
Proof.
  intros l c tol q Hp Hr Ht. pose proof (llen_pos l Hp) as Hl. pose proof (lc_a_len l) as Ha.
  assert (Ha0 : 0 < lc_a l) by (rewrite Ha; nra).
  assert (Hs : tol * tol = Rabs tol * Rabs tol) by (apply (Rsqr_abs tol)). rewrite Hs in Ht.
  unfold lc_intersect. cbv zeta. set (tl := Rabs tol) in *. set (D := lc_disc l c) in *. set (a := lc_a l) in *. set (b := lc_b l c) in *.
  assert (Neg : D < 0 -> ~ (on_seg l q /\ on_circle c q)).
  { intros HD [(t & _ & ->) O]. apply on_circle_poly in O; [|assumption|assumption].
    pose proof (lc_poly_disc l c t) as P. rewrite O in P. fold a b D in P. assert (0 <= (2 * a * t + b) * (2 * a * t + b)) by apply Rle_0_sqr. lra. }
  destruct (Rlt_dec D (- tl * tl)) as [H1|H1]; [split; [intros []|]; intros X; apply Neg in X; [destruct X|nra]|].
  destruct (Req_EM_T a 0); [lra|]. destruct (Rlt_dec (Rabs D) (tl * tl)); [lra|].
  destruct (Rlt_dec D 0) as [H2|H2]; [split; [intros []|]; intros X; apply Neg in X; [destruct X|assumption]|].
  pose proof (sqrt_sqrt D ltac:(lra)) as S. pose proof (sqrt_pos D) as S0. set (s := sqrt D) in *.
  set (m1 := (- b - s) / (2 * a)). set (m2 := (- b + s) / (2 * a)).
  assert (R : forall t, lc_poly l c t = 0 <-> (t = m1 \/ t = m2)).
  { intros t. pose proof (lc_poly_disc l c t) as P. fold a b D in P. split.
    - intros O. rewrite O in P. assert (Q : (2 * a * t + b - s) * (2 * a * t + b + s) = 0) by lra. apply Rmult_integral in Q. destruct Q as [Q|Q]; [right|left].
      + unfold m2. apply (Rmult_eq_reg_r (2 * a)); [|lra]. replace ((- b + s) / (2 * a) * (2 * a)) with (- b + s) by (field; lra). lra.
      + unfold m1. apply (Rmult_eq_reg_r (2 * a)); [|lra]. replace ((- b - s) / (2 * a) * (2 * a)) with (- b - s) by (field; lra). lra.
    - intros Q. assert (U : (2 * a * t + b) * (2 * a * t + b) = D).
      { destruct Q as [-> | ->].
        - replace (2 * a * m1 + b) with (- s) by (unfold m1; field; lra). lra.
        - replace (2 * a * m2 + b) with s by (unfold m2; field; lra). lra. }
      rewrite U in P. nra. }
  assert (Fin : In q ((if in01 m1 then [lc_pt l m1] else []) ++ (if in01 m2 then [lc_pt l m2] else [])) <-> on_seg l q /\ on_circle c q).
  { split.
    - intros Hi. apply in_app_or in Hi. destruct Hi as [Hi|Hi].
      + destruct (in01 m1) eqn:E1; [|destruct Hi]. destruct Hi as [<-|[]]. apply in01_spec in E1. split; [exists m1; split; [assumption|reflexivity]|].
        apply (on_circle_poly l c m1 Hp Hr). apply R. left. reflexivity.
      + destruct (in01 m2) eqn:E1; [|destruct Hi]. destruct Hi as [<-|[]]. apply in01_spec in E1. split; [exists m2; split; [assumption|reflexivity]|].
        apply (on_circle_poly l c m2 Hp Hr). apply R. right. reflexivity.
    - intros [(t & Htr & ->) O]. apply on_circle_poly in O; [|assumption|assumption]. apply R in O. apply in_or_app. 
      destruct O as [-> | ->]; [left|right]; rewrite (proj2 (in01_spec _) Htr); left; reflexivity. }
  destruct (Rltb m1 0 && Rltb m2 0) eqn:EN; [|exact Fin].
  apply andb_prop in EN. rewrite !Rltb_spec in EN. rewrite <- Fin.
  assert (in01 m1 = false) as -> by (apply not_true_is_false; rewrite in01_spec; lra).
  assert (in01 m2 = false) as -> by (apply not_true_is_false; rewrite in01_spec; lra). cbn. tauto.
Qed.

(** Contact within the tolerance: at most one point, on the segment, whose squared
    distance to the centre is off by less than tol^2/(4 len^2); if the contact is
    inside the segment, every common point is within tol/(2 len) of it. *)
Theorem C45_line_circle_contact : forall l c tol, proper l -> 0 <= c_radius c -> 0 < tol -> Rabs (lc_disc l c) < tol * tol ->
  (lc_intersect l c tol = [] /\ ~ 0 <= - lc_b l c / (2 * lc_a l) <= 1) \/
  (exists p, lc_intersect l c tol = [p] /\ on_seg l p /\
    Rabs (dist p (c_center c) * dist p (c_center c) - c_radius c * c_radius c) < tol * tol / (4 * (llen l * llen l)) /\
    forall q, on_seg l q -> on_circle c q -> dist q p < tol / (2 * llen l)).
Proof.
  intros l c tol Hp Hr Ht HD. pose proof (llen_pos l Hp) as Hl. pose proof (lc_a_len l) as Ha.
  assert (Ha0 : 0 < lc_a l) by (rewrite Ha; nra).
  unfold lc_intersect. cbv zeta. rewrite (Rabs_pos_eq tol) by lra. pose proof HD as HD'. apply Rabs_def2 in HD'.
  destruct (Rlt_dec _ (- tol * tol)); [lra|]. destruct (Req_EM_T (lc_a l) 0); [lra|]. destruct (Rlt_dec (Rabs _) (tol * tol)); [|lra].
  set (mu := - lc_b l c / (2 * lc_a l)). destruct (in01 mu) eqn:E1.
  - right. apply in01_spec in E1. exists (lc_pt l mu). split; [reflexivity|]. split; [exists mu; split; [assumption|reflexivity]|]. split.
    + change (lc_pt l mu) with (at_t l mu). rewrite lc_poly_dist. pose proof (lc_poly_disc l c mu) as P.
      replace (2 * lc_a l * mu + lc_b l c) with 0 in P by (unfold mu; field; lra).
      rewrite <- Ha. set (a := lc_a l) in *. set (f := lc_poly l c mu) in *.
      apply (Rmult_lt_reg_r (4 * a)); [lra|]. replace (tol * tol / (4 * a) * (4 * a)) with (tol * tol) by (field; lra).
      rewrite <- (Rabs_pos_eq (4 * a)) by lra. rewrite <- Rabs_mult. replace (f * (4 * a)) with (- lc_disc l c) by lra. rewrite Rabs_Ropp. assumption.
    + intros q (t & _ & ->) O. apply on_circle_poly in O; [|assumption|assumption]. pose proof (lc_poly_disc l c t) as P. rewrite O in P.
      change (lc_pt l mu) with (at_t l mu). rewrite dist_at.
      assert (Q : (2 * lc_a l * (t - mu)) * (2 * lc_a l * (t - mu)) < tol * tol).
      { replace (2 * lc_a l * (t - mu)) with (2 * lc_a l * t + lc_b l c) by (unfold mu; field; lra). lra. }
      apply (Rmult_lt_reg_r (2 * llen l)); [lra|]. replace (tol / (2 * llen l) * (2 * llen l)) with tol by (field; lra).
      replace (Rabs (t - mu) * llen l * (2 * llen l)) with (2 * (llen l * llen l) * Rabs (t - mu)) by ring. rewrite <- Ha.
      pose proof (Rabs_pos (t - mu)). pose proof (Rsqr_abs (t - mu)) as Z. unfold Rsqr in Z.
      set (v := Rabs (t - mu)) in *. assert (Q' : (2 * lc_a l * v) * (2 * lc_a l * v) < tol * tol).
      { replace ((2 * lc_a l * v) * (2 * lc_a l * v)) with ((2 * lc_a l) * (2 * lc_a l) * (v * v)) by ring. rewrite <- Z. lra. }
      assert (0 <= 2 * lc_a l * v) by (apply Rmult_le_pos; lra). nra.
  - left. split; [reflexivity|]. intros H. apply (in01_spec mu) in H. rewrite H in E1. discriminate.
Qed.

(** Such a contact is missed at the end of a segment: the start of the segment is
    exactly on the circle and nothing is found. *)
Theorem C45_contact_end_refuted : exists l c, proper l /\ on_circle c (l_start l) /\ lc_intersect l c DIST_EPS = [].
Proof.
  set (s := 2000000 / 1000000000001). set (y := 999999999999 / 1000000000001).
  set (l := Ln (Pt s y) (Pt (s + 1) y)). set (c := Circ (Pt 0 0) 1 1 (2 * PI) 0).
  assert (Hp : proper l) by (unfold proper, l; cbn; intros H; injection H as H; lra).
  assert (O : on_circle c (l_start l)) by (apply on_circle_sq; cbn [c_radius c c_center l l_start px py]; unfold s, y; lra).
  assert (A : lc_a l = 1) by (unfold lc_a, sqn, psub, l; cbn [px py l_start l_end]; ring).
  assert (B : lc_b l c = 2 * s) by (unfold lc_b, vdot, psub, l, c; cbn [px py l_start l_end c_center]; ring).
  assert (C : lc_c l c = 0) by (unfold lc_c, sqn, vdot, l, c; cbn [px py l_start l_end c_center c_radius]; unfold s, y; lra).
  assert (D : lc_disc l c = 4 * (s * s)) by (unfold lc_disc; rewrite A, B, C; ring).
  exists l, c. split; [exact Hp|]. split; [exact O|].
  destruct (C45_line_circle_contact l c DIST_EPS Hp) as [[E _]|(p & E & (t & Htr & Et) & _)].
  - cbn. lra.
  - unfold DIST_EPS. lra.
  - rewrite D. rewrite Rabs_pos_eq; unfold s, DIST_EPS; lra.
  - exact E.
  - exfalso. unfold lc_intersect in E. cbv zeta in E. rewrite D, A, B in E.
    destruct (Rlt_dec _ _) in E; [discriminate|]. destruct (Req_EM_T 1 0) in E; [lra|].
    destruct (Rlt_dec _ _) in E.
    + assert (in01 (- (2 * s) / (2 * 1)) = false) as X by (apply not_true_is_false; rewrite in01_spec; unfold s; lra). rewrite X in E. discriminate.
    + match goal with H : ~ Rabs _ < _ |- _ => apply H end. rewrite (Rabs_pos_eq DIST_EPS), Rabs_pos_eq by (unfold s, DIST_EPS; lra). unfold s, DIST_EPS. lra.
Qed.

(** The extent of the arc is ignored: the quarter arc of the first quadrant "meets" a
    segment of the left half plane. *)
Theorem C45_arc_extent_refuted : exists l c p, proper l /\ normalised c /\ In p (lc_intersect l c DIST_EPS) /\ ~ on_arc c p.
Proof.
  pose proof PI_RGT_0 as HP.
  set (l := Ln (Pt (-2) 0) (Pt 0 0)). set (c := Circ (Pt 0 0) 1 1 (PI / 2) 0).
  assert (Hp : proper l) by (unfold proper, l; cbn; intros H; injection H as H; lra).
  exists l, c, (Pt (-1) 0). split; [exact Hp|]. split; [unfold normalised, dir_ok, c; cbn; repeat split; auto; lra|]. split.
  - apply C45_line_circle; [exact Hp|cbn; lra| |].
    + assert (D : lc_disc l c = 16) by (unfold lc_disc, lc_a, lc_b, lc_c, sqn, vdot, psub, l, c; cbn [px py l_start l_end c_center c_radius]; ring).
      rewrite D, Rabs_pos_eq by lra. unfold DIST_EPS. lra.
    + split; [exists (/ 2); split; [lra|unfold at_t, padd, pmul, psub, l; apply pt_ext; cbn [px py l_start l_end]; lra]|]. apply on_circle_sq; cbn [c c_radius c_center px py]; lra.
  - intros (s & Hs & E). unfold circ_pt, sweep, dirR, c in E. unfold c in Hs. cbn [c_center c_radius c_start c_dir c_arc px py] in E, Hs. injection E as E _.
    assert (0 <= cos (0 + 1 * s)) by (apply cos_ge_0; lra). lra.
Qed.

(** Non-vacuity: two unit circles one apart. *)
Example C45_example : let c1 := Circ (Pt 0 0) 5 1 (2 * PI) 0 in let c2 := Circ (Pt 6 0) 5 1 (2 * PI) 0 in
  exists res, cc_intersect c1 c2 [] DIST_EPS = Some res /\ length res = 2%nat /\ In (Pt 3 4) res.
Proof.
  cbv zeta. set (c1 := Circ (Pt 0 0) 5 1 (2 * PI) 0). set (c2 := Circ (Pt 6 0) 5 1 (2 * PI) 0).
  assert (D : dist (c_center c1) (c_center c2) = 6) by (rewrite dist_hyp; apply hyp_unique; cbn; lra).
  assert (E0 : 0 < DIST_EPS) by (unfold DIST_EPS; lra).
  assert (Q1 : on_circle c1 (Pt 3 4) /\ on_circle c2 (Pt 3 4)) by (split; apply on_circle_sq; cbn [c1 c2 c_radius c_center px py]; lra).
  assert (Q2 : on_circle c1 (Pt 3 (-4)) /\ on_circle c2 (Pt 3 (-4))) by (split; apply on_circle_sq; cbn [c1 c2 c_radius c_center px py]; lra).
  destruct (cc_intersect c1 c2 [] DIST_EPS) as [res|] eqn:E.
  - exists res. split; [reflexivity|]. assert (Hd : DIST_EPS <= dist (c_center c1) (c_center c2)) by (rewrite D; unfold DIST_EPS; lra).
    pose proof (cc_cases c1 c2 [] DIST_EPS res E0 ltac:(cbn; lra) ltac:(cbn; lra) Hd E) as K. cbv zeta in K. rewrite D in K. cbn [c_radius c1 c2] in K.
    replace ((5 * 5 - 5 * 5 + 6 * 6) / (2 * 6)) with 3 in K by field. replace (5 - 5) with 0 in K by ring. rewrite Rabs_R0 in K.
    destruct K as [[_ K]|[[_ K]|(h & _ & _ & El)]].
    + exfalso. destruct K as [K|[K|K]]; unfold DIST_EPS in K; lra.
    + exfalso. destruct K as [K|K]; apply Rabs_def2 in K; unfold DIST_EPS in K; lra.
    + assert (L : length res = 2%nat) by (rewrite El; reflexivity). split; [exact L|].
      destruct (C45_circles c1 c2 [] DIST_EPS res E0 ltac:(cbn; lra) ltac:(cbn; lra) Hd E) as (_ & K & _). apply K; [rewrite L; discriminate|assumption].
  - exfalso. unfold cc_intersect in E. rewrite dist_centers, D in E. cbv zeta in E. cbn [c_radius c1 c2] in E. unfold DIST_EPS in E.
    rewrite (Rabs_pos_eq (/ 100000)) in E by lra. replace ((5 * 5 - 5 * 5 + 6 * 6) / (2 * 6)) with 3 in E by field.
    destruct (Rlt_dec 6 _) in E; [lra|]. destruct (Rlt_dec _ 6) in E; [discriminate|]. destruct (Rlt_dec _ (Rabs _)) in E; [discriminate|].
    destruct (_ && _) in E; [discriminate|]. destruct (Req_EM_T 6 0) in E; [lra|]. destruct (_ || _) in E; [discriminate|].
    destruct (Rltb (Rabs _) _) in E; [destruct (Rlt_dec _ _) in E; discriminate|]. destruct (Rltb _ _) in E; [discriminate|].
    destruct (Rltb (5 * 5 - 3 * 3) 0) eqn:X; [apply Rltb_spec in X; lra|]. destruct (Rlt_dec _ _) in E; discriminate.
Qed.

Print Assumptions C45_circles.
Print Assumptions C45_line_circle.
