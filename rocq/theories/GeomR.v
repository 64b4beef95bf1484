(** Exact real arithmetic vocabulary of the geometric models: C++ casts from
    [double] to integers, [atan2], and the vector type of S/common/Point2d.cpp
    and S/common/Pose2d.cpp.

    Simplification: [double] is the set of real numbers; no rounding, no
    infinities, no NaN, no signed zeros. *)
From Coq Require Import Reals Lra.
From Flocq Require Import Core.Raux.
From Verif Require Import Base.
Local Open Scope R_scope.

(** [(unsigned int)d]: truncation; undefined if the truncated value does not fit
    (C++ [conv.fpint]). *)
Definition cast_u32 (d : R) : option Z :=
  let t := Ztrunc d in
  if ((0 <=? t) && (t <? 4294967296))%Z then Some t else None.
(** [(int)d]. *)
Definition cast_i32 (d : R) : option Z :=
  let t := Ztrunc d in if in_i32 t then Some t else None.

(** Comparison of reals as a boolean. *)
Definition Rltb (a b : R) : bool := if Rlt_dec a b then true else false.
Definition Rleb (a b : R) : bool := if Rle_dec a b then true else false.

Lemma Rltb_spec a b : Rltb a b = true <-> a < b.
Proof. unfold Rltb. destruct (Rlt_dec a b); split; (congruence || tauto). Qed.
Lemma Rltb_false a b : Rltb a b = false <-> b <= a.
Proof. unfold Rltb. destruct (Rlt_dec a b); split; intros; (congruence || lra || reflexivity). Qed.
Lemma Rleb_spec a b : Rleb a b = true <-> a <= b.
Proof. unfold Rleb. destruct (Rle_dec a b); split; (congruence || tauto). Qed.
Lemma Rleb_false a b : Rleb a b = false <-> b < a.
Proof. unfold Rleb. destruct (Rle_dec a b); split; intros; (congruence || lra || reflexivity). Qed.

Lemma trunc_floor d z : 0 <= d -> Ztrunc d = z <-> IZR z <= d < IZR z + 1.
Proof.
  intros H. rewrite Ztrunc_floor by assumption. split.
  - intros <-. split; [apply Zfloor_lb|apply Zfloor_ub].
  - intros H1. apply Zfloor_imp. rewrite plus_IZR. assumption.
Qed.
Lemma trunc_neg d : d <= 0 -> (Ztrunc d <= 0)%Z.
Proof.
  intros H. rewrite Ztrunc_ceil by assumption. apply (Zceil_glb 0 d). assumption.
Qed.
Lemma trunc_nonneg_gt d : (0 <= Ztrunc d)%Z <-> -1 < d.
Proof.
  destruct (Rle_or_lt 0 d) as [H|H].
  - rewrite Ztrunc_floor by assumption. split; [lra|]. intros _. apply Zfloor_lub. assumption.
  - rewrite Ztrunc_ceil by lra. split; intros H1.
    + apply Rnot_le_lt. intros H2. apply (Zceil_glb (-1)) in H2. lia.
    + assert (-1 < Zceil d)%Z; [|lia]. apply lt_IZR. eapply Rlt_le_trans; [exact H1|apply Zceil_ub].
Qed.
Lemma trunc_lt d z : (0 < z)%Z -> (Ztrunc d < z)%Z <-> d < IZR z.
Proof.
  intros Hz. destruct (Rle_or_lt 0 d) as [H|H].
  - rewrite Ztrunc_floor by assumption. split; intros H1.
    + apply Rnot_le_lt. intros H2. apply Zfloor_lub in H2. lia.
    + apply lt_IZR. eapply Rle_lt_trans; [apply Zfloor_lb|assumption].
  - rewrite Ztrunc_ceil by lra. apply (IZR_lt 0) in Hz as Hz'. split; [lra|]. intros _.
    assert (Zceil d <= 0)%Z; [|lia]. apply (Zceil_glb 0). lra.
Qed.

Lemma cast_u32_some d z :
  0 <= d -> cast_u32 d = Some z <-> (IZR z <= d < IZR z + 1 /\ (z < 4294967296)%Z).
Proof.
  intros H. unfold cast_u32. cbv zeta. split.
  - destruct (_ && _)%Z eqn:E; intros H1; inversion H1; subst z. split; [apply trunc_floor; auto|lia].
  - intros [H1 H2]. apply (trunc_floor d z H) in H1. rewrite H1.
    assert (0 <= z)%Z by (rewrite <- H1, Ztrunc_floor by assumption; apply Zfloor_lub; assumption).
    destruct (_ && _)%Z eqn:E; [reflexivity|lia].
Qed.
Lemma cast_u32_trunc d z : cast_u32 d = Some z -> z = Ztrunc d /\ (0 <= z < 4294967296)%Z.
Proof.
  unfold cast_u32. cbv zeta. destruct (_ && _)%Z eqn:E; intros H; inversion H. subst. lia.
Qed.
Lemma cast_u32_none d : cast_u32 d = None <-> (d <= -1 \/ 4294967296 <= d).
Proof.
  unfold cast_u32. cbv zeta. pose proof (trunc_nonneg_gt d). pose proof (trunc_lt d 4294967296 ltac:(lia)).
  destruct (_ && _)%Z eqn:E; split; intros H1; try reflexivity; try discriminate.
  - apply andb_prop in E. rewrite Z.leb_le, Z.ltb_lt in E. destruct E as [E1 E2]. apply H in E1. apply H0 in E2. lra.
  - apply andb_false_iff in E. rewrite Z.leb_gt, Z.ltb_ge in E. destruct E as [E|E].
    + left. apply Rnot_lt_le. intros H2. apply H in H2. lia.
    + right. apply Rnot_lt_le. intros H2. apply H0 in H2. lia.
Qed.
Lemma cast_i32_trunc d z : cast_i32 d = Some z -> z = Ztrunc d /\ (-2147483648 <= z < 2147483648)%Z.
Proof.
  unfold cast_i32, in_i32. cbv zeta. destruct (_ && _)%Z eqn:E; intros H; inversion H. subst. lia.
Qed.

(** C [atan2(y, x)] on reals (IEEE: y = -0, x < 0 would give -PI instead of PI). *)
Definition atan2 (y x : R) : R :=
  if Rlt_dec 0 x then atan (y / x)
  else if Rlt_dec x 0 then
    (if Rle_dec 0 y then atan (y / x) + PI else atan (y / x) - PI)
  else if Rlt_dec 0 y then PI / 2
  else if Rlt_dec y 0 then - (PI / 2)
  else 0.

Lemma atan2_range y x : - PI < atan2 y x <= PI.
Proof.
  unfold atan2. pose proof PI_RGT_0. pose proof (atan_bound (y / x)).
  destruct (Rlt_dec 0 x); [lra|]. destruct (Rlt_dec x 0) as [Hx|].
  - destruct (Rle_dec 0 y) as [Hy|Hy].
    + assert (y / x <= 0). { unfold Rdiv. assert (/ x < 0) by (apply Rinv_lt_0_compat; assumption). nra. }
      assert (atan (y / x) <= 0).
      { rewrite <- atan_0. destruct (Rle_lt_or_eq_dec _ _ H1) as [H2|H2]; [left; apply atan_increasing; assumption|rewrite H2; right; reflexivity]. }
      lra.
    + assert (0 < y / x). { unfold Rdiv. assert (/ x < 0) by (apply Rinv_lt_0_compat; assumption). nra. }
      assert (0 < atan (y / x)) by (rewrite <- atan_0; apply atan_increasing; assumption). lra.
  - destruct (Rlt_dec 0 y); [lra|]. destruct (Rlt_dec y 0); lra.
Qed.

Definition hyp (x y : R) : R := sqrt (x * x + y * y).

Lemma hyp_nonneg x y : 0 <= hyp x y.
Proof. apply sqrt_pos. Qed.
Lemma hyp_sq x y : hyp x y * hyp x y = x * x + y * y.
Proof. apply sqrt_sqrt. nra. Qed.
Lemma hyp_pos x y : x <> 0 \/ y <> 0 -> 0 < hyp x y.
Proof. intros H. apply sqrt_lt_R0. destruct H; nra. Qed.
Lemma hyp_0 x y : hyp x y = 0 <-> x = 0 /\ y = 0.
Proof.
  split.
  - intros H. pose proof (hyp_sq x y). rewrite H in H0. split; nra.
  - intros [-> ->]. unfold hyp. replace (0 * 0 + 0 * 0) with 0 by ring. apply sqrt_0.
Qed.
Lemma hyp_unique x y r : 0 <= r -> r * r = x * x + y * y -> hyp x y = r.
Proof. intros H1 H2. unfold hyp. rewrite <- H2. apply sqrt_square. assumption. Qed.
Lemma hyp_le x y r : 0 <= r -> hyp x y <= r <-> x * x + y * y <= r * r.
Proof.
  intros Hr. pose proof (hyp_nonneg x y). pose proof (hyp_sq x y). split; intros; nra.
Qed.

Lemma cos_atan t : cos (atan t) = / sqrt (1 + t * t).
Proof.
  pose proof (atan_bound t) as Hb.
  assert (Hc : 0 < cos (atan t)) by (apply cos_gt_0; lra).
  assert (Ht : sin (atan t) = t * cos (atan t)).
  { pose proof (tan_atan t) as H. unfold tan in H. apply (f_equal (fun u => u * cos (atan t))) in H.
    unfold Rdiv in H. rewrite Rmult_assoc, Rinv_l, Rmult_1_r in H by lra. assumption. }
  assert (Hs : 0 < sqrt (1 + t * t)) by (apply sqrt_lt_R0; nra).
  pose proof (sin2_cos2 (atan t)) as H1. unfold Rsqr in H1. rewrite Ht in H1.
  apply Rmult_eq_reg_r with (sqrt (1 + t * t)); [|lra]. rewrite Rinv_l by lra.
  assert (Hsq : sqrt (1 + t * t) * sqrt (1 + t * t) = 1 + t * t) by (apply sqrt_sqrt; nra).
  assert (H2 : (cos (atan t) * sqrt (1 + t * t)) * (cos (atan t) * sqrt (1 + t * t)) = 1)
    by (replace ((cos (atan t) * sqrt (1 + t * t)) * (cos (atan t) * sqrt (1 + t * t)))
          with (cos (atan t) * cos (atan t) * (sqrt (1 + t * t) * sqrt (1 + t * t))) by ring;
        rewrite Hsq; lra).
  assert (0 < cos (atan t) * sqrt (1 + t * t)) by (apply Rmult_lt_0_compat; assumption). nra.
Qed.
Lemma sin_atan t : sin (atan t) = t / sqrt (1 + t * t).
Proof.
  pose proof (atan_bound t) as Hb.
  assert (Hc : 0 < cos (atan t)) by (apply cos_gt_0; lra).
  pose proof (tan_atan t) as H. unfold tan in H. apply (f_equal (fun u => u * cos (atan t))) in H.
  unfold Rdiv in H. rewrite Rmult_assoc, Rinv_l, Rmult_1_r in H by lra. rewrite H, cos_atan. reflexivity.
Qed.

Lemma sqrt_ratio x y : x <> 0 -> sqrt (1 + y / x * (y / x)) = hyp x y / Rabs x.
Proof.
  intros Hx. assert (Hp : 0 < Rabs x) by (apply Rabs_pos_lt; assumption).
  assert (Ha : Rabs x * Rabs x = x * x) by (apply eq_sym, (Rsqr_abs x)).
  symmetry. apply (Rmult_eq_reg_r (Rabs x)); [|lra]. unfold Rdiv at 1. rewrite Rmult_assoc, Rinv_l, Rmult_1_r by lra.
  apply hyp_unique.
  - apply Rmult_le_pos; [apply sqrt_pos|lra].
  - replace (sqrt (1 + y / x * (y / x)) * Rabs x * (sqrt (1 + y / x * (y / x)) * Rabs x))
      with ((sqrt (1 + y / x * (y / x)) * sqrt (1 + y / x * (y / x))) * (Rabs x * Rabs x)) by ring.
    rewrite sqrt_sqrt; [|assert (0 <= (y / x) * (y / x)) by apply Rle_0_sqr; lra]. rewrite Ha. field. assumption.
Qed.

(** The defining property of [atan2]. *)
Lemma atan2_polar y x : hyp x y * cos (atan2 y x) = x /\ hyp x y * sin (atan2 y x) = y.
Proof.
  unfold atan2. destruct (Rlt_dec 0 x) as [Hx|Hx].
  - assert (0 < hyp x y) by (apply hyp_pos; left; lra).
    rewrite cos_atan, sin_atan, sqrt_ratio by lra. rewrite Rabs_pos_eq by lra. split; field; lra.
  - destruct (Rlt_dec x 0) as [Hx'|Hx'].
    + assert (0 < hyp x y) by (apply hyp_pos; left; lra).
      assert (E : hyp x y * - cos (atan (y / x)) = x /\ hyp x y * - sin (atan (y / x)) = y).
      { rewrite cos_atan, sin_atan, sqrt_ratio by lra. rewrite Rabs_left by lra. split; field; lra. }
      destruct (Rle_dec 0 y).
      * rewrite neg_cos, neg_sin. exact E.
      * replace (atan (y / x) - PI) with (atan (y / x) + PI - 2 * PI) by lra.
        rewrite cos_minus, sin_minus, cos_2PI, sin_2PI, neg_cos, neg_sin. lra.
    + assert (x = 0) as -> by lra. destruct (Rlt_dec 0 y).
      * rewrite cos_PI2, sin_PI2. rewrite (hyp_unique 0 y y) by lra. lra.
      * destruct (Rlt_dec y 0).
        -- rewrite cos_neg, sin_neg, cos_PI2, sin_PI2. rewrite (hyp_unique 0 y (-y)) by lra. lra.
        -- assert (y = 0) as -> by lra. rewrite (hyp_unique 0 0 0) by lra. lra.
Qed.

(** Equality of angles modulo full turns. *)
Definition angle_eq (a b : R) : Prop := exists k : Z, a = b + 2 * IZR k * PI.

Lemma cos_period_Z a k : cos (a + 2 * IZR k * PI) = cos a.
Proof.
  destruct (Z_le_gt_dec 0 k) as [H|H].
  - rewrite <- (Z2Nat.id k H), <- INR_IZR_INZ. apply cos_period.
  - rewrite <- (cos_period (a + 2 * IZR k * PI) (Z.to_nat (- k))). f_equal.
    rewrite INR_IZR_INZ, Z2Nat.id by lia. rewrite opp_IZR. ring.
Qed.
Lemma sin_period_Z a k : sin (a + 2 * IZR k * PI) = sin a.
Proof.
  destruct (Z_le_gt_dec 0 k) as [H|H].
  - rewrite <- (Z2Nat.id k H), <- INR_IZR_INZ. apply sin_period.
  - rewrite <- (sin_period (a + 2 * IZR k * PI) (Z.to_nat (- k))). f_equal.
    rewrite INR_IZR_INZ, Z2Nat.id by lia. rewrite opp_IZR. ring.
Qed.
Lemma angle_eq_cos a b : angle_eq a b -> cos a = cos b.
Proof. intros [k ->]. apply cos_period_Z. Qed.
Lemma angle_eq_sin a b : angle_eq a b -> sin a = sin b.
Proof. intros [k ->]. apply sin_period_Z. Qed.
Lemma angle_eq_refl a : angle_eq a a.
Proof. exists 0%Z. ring. Qed.
Lemma angle_eq_sym a b : angle_eq a b -> angle_eq b a.
Proof. intros [k ->]. exists (- k)%Z. rewrite opp_IZR. ring. Qed.
Lemma angle_eq_trans a b c : angle_eq a b -> angle_eq b c -> angle_eq a c.
Proof. intros [k ->] [j ->]. exists (j + k)%Z. rewrite plus_IZR. ring. Qed.
Lemma angle_eq_plus a b c d : angle_eq a b -> angle_eq c d -> angle_eq (a + c) (b + d).
Proof. intros [k ->] [j ->]. exists (j + k)%Z. rewrite plus_IZR. ring. Qed.
Lemma angle_eq_neg a b : angle_eq a b -> angle_eq (- a) (- b).
Proof. intros [k ->]. exists (- k)%Z. rewrite opp_IZR. ring. Qed.

Lemma cos_1_zero d : cos d = 1 -> -2 * PI < d < 2 * PI -> d = 0.
Proof.
  intros Hc Hd. pose proof PI_RGT_0.
  assert (Hs : sin (d / 2) = 0).
  { replace d with (2 * (d / 2)) in Hc by field. rewrite cos_2a_sin in Hc. nra. }
  destruct (Req_dec d 0) as [|Hn]; [assumption|]. exfalso.
  destruct (Rlt_or_le 0 d).
  - assert (0 < sin (d / 2)) by (apply sin_gt_0; lra). lra.
  - assert (0 < sin (- (d / 2))) by (apply sin_gt_0; lra). rewrite sin_neg in *. lra.
Qed.

(** Same cosine and sine: same angle modulo full turns. *)
Lemma angle_eq_cs a b : cos a = cos b -> sin a = sin b -> angle_eq a b.
Proof.
  intros Hc Hs. pose proof PI_RGT_0 as HP.
  set (t := (a - b) / (2 * PI)). set (k := Zfloor t).
  assert (Hk : IZR k <= t < IZR k + 1) by (split; [apply Zfloor_lb|apply Zfloor_ub]).
  exists k. set (d := a - b - 2 * IZR k * PI).
  assert (Hd : 0 <= d < 2 * PI).
  { unfold d. replace (a - b) with (t * (2 * PI)) by (unfold t; field; lra). nra. }
  assert (Hcd : cos d = 1).
  { unfold d. replace (a - b - 2 * IZR k * PI) with ((a - b) + 2 * IZR (- k) * PI) by (rewrite opp_IZR; ring).
    rewrite cos_period_Z, cos_minus, Hc, Hs. pose proof (sin2_cos2 b) as H. unfold Rsqr in H. lra. }
  apply cos_1_zero in Hcd; [|lra]. unfold d in Hcd. lra.
Qed.

(** The angle in (-PI, PI] is unique. *)
Lemma angle_eq_unique a b : angle_eq a b -> -2 * PI < a - b < 2 * PI -> a = b.
Proof.
  intros [k ->] H. pose proof PI_RGT_0.
  assert (k = 0)%Z as ->; [|ring].
  assert (-1 < IZR k < 1) by nra.
  assert (-1 < k < 1)%Z by (split; apply lt_IZR; lra). lia.
Qed.
Lemma polar_atan2 r a : 0 < r -> - PI < a <= PI -> atan2 (r * sin a) (r * cos a) = a.
Proof.
  intros Hr Ha. pose proof (atan2_polar (r * sin a) (r * cos a)) as [H1 H2].
  assert (Hh : hyp (r * cos a) (r * sin a) = r).
  { apply hyp_unique; [lra|]. pose proof (sin2_cos2 a) as H. unfold Rsqr in H. nra. }
  rewrite Hh in H1, H2. apply Rmult_eq_reg_l in H1; [|lra]. apply Rmult_eq_reg_l in H2; [|lra].
  pose proof (atan2_range (r * sin a) (r * cos a)). apply angle_eq_unique; [|lra]. apply angle_eq_cs; assumption.
Qed.

(** ** Point2d *)
Record pt := Pt { px : R; py : R }.

Lemma pt_ext p q : px p = px q -> py p = py q -> p = q.
Proof. destruct p, q. cbn. intros -> ->. reflexivity. Qed.

(** Point2d.cpp:28-31. *)
Definition from_polar (angle radius : R) : pt := Pt (cos angle * radius) (sin angle * radius).
(** Point2d.cpp:33-39. *)
Definition rotate (p : pt) (angle : R) : pt :=
  Pt (cos angle * px p - sin angle * py p) (sin angle * px p + cos angle * py p).
(** Point2d.cpp:41-47. *)
Definition ortho (p : pt) : pt := Pt (py p) (- px p).
(** Point2d.cpp:64-72. *)
Definition len (p : pt) : R := sqrt (px p ^ 2 + py p ^ 2).
(** Point2d.cpp:54-62.  With a zero vector the division yields NaN: see the
    hypotheses of the theorems. *)
Definition resize (p : pt) (size : R) : pt :=
  let f := size / len p in Pt (px p * f) (py p * f).
(** Point2d.cpp:49-52. *)
Definition normalize (p : pt) : pt := resize p 1.
(** Point2d.cpp:74-77. *)
Definition angle (p : pt) : R := atan2 (py p) (px p).
(** Point2d.h:67-106. *)
Definition pdiv (p : pt) (f : R) : pt := Pt (px p / f) (py p / f).
Definition pmul (p : pt) (f : R) : pt := Pt (px p * f) (py p * f).
Definition padd (p q : pt) : pt := Pt (px p + px q) (py p + py q).
Definition psub (p q : pt) : pt := Pt (px p - px q) (py p - py q).
Definition popp (p : pt) : pt := Pt (- px p) (- py p).

Lemma len_hyp p : len p = hyp (px p) (py p).
Proof. unfold len, hyp. f_equal. ring. Qed.

(** ** Pose2d *)
Record pose := Pose { po_x : R; po_y : R; po_th : R }.
(** Pose2d.cpp:16-19, default constructor. *)
Definition pose0 : pose := Pose 0 0 0.
(** Pose2d.h:49-83: the operators build a default pose (theta = 0) and set x, y. *)
Definition pose_sub (a b : pose) : pose := Pose (po_x a - po_x b) (po_y a - po_y b) 0.
Definition pose_add (a b : pose) : pose := Pose (po_x a + po_x b) (po_y a + po_y b) 0.
Definition pose_div (a : pose) (f : R) : pose := Pose (po_x a / f) (po_y a / f) 0.
Definition pose_mul (a : pose) (f : R) : pose := Pose (po_x a * f) (po_y a * f) 0.
(** Pose2d.h:85-87. *)
Definition pose_dot (a b : pose) : R := po_x a * po_x b + po_y a * po_y b.
(** Pose2d.cpp:26-36. *)
Definition pose_dist (a b : pose) : R :=
  let dx := po_x a - po_x b in let dy := po_y a - po_y b in sqrt (dx * dx + dy * dy).
Definition pose_dist_origin (a : pose) : R := sqrt (po_x a * po_x a + po_y a * po_y a).
(** Point2d.cpp:22-26. *)
Definition pt_of_pose (a : pose) : pt := Pt (po_x a) (po_y a).

(** Pose2d.cpp:38-44; [adelta] is the external MathHelper::AngleDelta. *)
Definition pose_isEqual (adelta : R -> R -> R) (a p : pose) (dist_eps theta_eps : R) : bool :=
  Rleb (pose_dist a p) dist_eps && Rleb (Rabs (adelta (po_th a) (po_th p))) theta_eps.

(** Contract of the external MathHelper::AngleDelta(a, b): the turn from a to b,
    normalised. *)
Definition AngleDelta_contract (adelta : R -> R -> R) : Prop :=
  forall a b, - PI <= adelta a b <= PI /\ angle_eq (adelta a b) (b - a).
(** Contract of MathHelper::AngleClamp. *)
Definition AngleClamp_contract (clamp : R -> R) : Prop :=
  forall a, - PI <= clamp a <= PI /\ angle_eq (clamp a) a.

(** Both contracts can be met. *)
Definition clamp_ref (a : R) : R := atan2 (sin a) (cos a).
Lemma clamp_ref_ok : AngleClamp_contract clamp_ref.
Proof.
  intros a. unfold clamp_ref. pose proof (atan2_range (sin a) (cos a)). split; [lra|].
  pose proof (atan2_polar (sin a) (cos a)) as [H1 H2].
  rewrite (hyp_unique (cos a) (sin a) 1) in H1, H2; [|lra| |lra|].
  - apply angle_eq_cs; lra.
  - pose proof (sin2_cos2 a) as E. unfold Rsqr in E. lra.
  - pose proof (sin2_cos2 a) as E. unfold Rsqr in E. lra.
Qed.
Lemma delta_ref_ok : AngleDelta_contract (fun a b => clamp_ref (b - a)).
Proof. intros a b. apply clamp_ref_ok. Qed.
