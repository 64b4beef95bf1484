(** C47, C48, C58: the goals the goal regions deliver. *)
From Coq Require Import Reals Lra.
From Verif Require Import Base GeomR PropGeom LineModel PropLine SamplingModel.
Local Open Scope R_scope.

(** ** Specification *)
(** The goals (with their gains) a region delivers until it reports exhaustion; the
    caller passes the gain variable on, as SamplingPlanner::createPath does. *)
Inductive offers {St} (rg : region St) : St -> R -> list (pose * R) -> Prop :=
| offers_end st g st' : rg_next rg st g = Some (st', None) -> offers rg st g []
| offers_next st g st' p g' l : rg_next rg st g = Some (st', Some (p, g')) -> offers rg st' g' l -> offers rg st g ((p, g') :: l).

(** Contract of MathHelper::Angle: the polar angle. *)
Definition Angle_contract (vangle : pt -> R) : Prop :=
  forall v, len v * cos (vangle v) = px v /\ len v * sin (vangle v) = py v.
Lemma angle_ok : Angle_contract angle.
Proof. intros v. unfold angle. pose proof (atan2_polar (py v) (px v)) as H. assert (len v = hyp (px v) (py v)) as -> by (unfold len, hyp; f_equal; ring). exact H. Qed.

Theorem offers_unique : forall St (rg : region St) st g l l', offers rg st g l -> offers rg st g l' -> l = l'.
Proof.
  intros St rg st g l l' H. revert l'. induction H as [st g st' E|st g st' p g' l E H IH]; intros l' H'; inversion H'; subst; try congruence.
  match goal with X : rg_next rg st g = Some (_, Some _) |- _ => rewrite E in X; injection X as <- <- <- end. f_equal. apply IH. assumption.
Qed.

(** ** CentroidRadiusGoalRegion *)
(** The number of goals after [init n]. *)
Definition centroid_count (ang : R) (n : Z) : Z := if Rlt_dec (Rabs ang) (1 / 1000000) then 1 else if (n <=? 1)%Z then 1 else n.
(** The approach heading of goal [k] of [n], relative to the direct one: evenly spaced
    from minus half to plus half of the opening angle. *)
Definition spread (ang : R) (n k : Z) : R := if (n <=? 1)%Z then 0 else Rabs ang * (IZR k / IZR (n - 1) - 1 / 2).

Lemma i32_small z : (-2147483648 <= z < 2147483648)%Z -> i32 (u32 z) = z.
Proof.
  intros H. unfold i32, u32. rewrite Zmod_mod. destruct (Z_lt_le_dec z 0).
  - replace (z mod 4294967296)%Z with (z + 4294967296)%Z by (rewrite <- (Z_mod_plus_full z 1); symmetry; apply Z.mod_small; lia). destruct (_ <? _)%Z eqn:E; lia.
  - rewrite (Z.mod_small z) by lia. destruct (_ <? _)%Z eqn:E; lia.
Qed.

(** [init n] makes the region deliver exactly [centroid_count] goals. Every goal is
    [radius] away from the centre and looks at it; the approach directions are evenly
    spread over the opening angle, symmetrically around the direct line from the source
    to the centre. This holds whatever the object went through before. *)
Theorem C47_goals : forall clamp vangle c n g, AngleClamp_contract clamp -> Angle_contract vangle -> (0 <= n < 4294967295)%Z ->
  let N := centroid_count (c_angle c) n in
  exists l, offers (centroid_region clamp vangle) (rg_init (centroid_region clamp vangle) c n) g l /\ Z.of_nat (length l) = N /\
    exists phi, (len (psub (c_center c) (c_src c)) * cos phi = px (c_center c) - px (c_src c) /\ len (psub (c_center c) (c_src c)) * sin phi = py (c_center c) - py (c_src c)) /\
    forall k p gn, nth_error l k = Some (p, gn) ->
      angle_eq (po_th p) (phi + spread (c_angle c) N (Z.of_nat k)) /\
      px (c_center c) = po_x p + c_radius c * cos (po_th p) /\ py (c_center c) = po_y p + c_radius c * sin (po_th p) /\
      gn = 1 + 2 * IZR (Z.abs (Z.of_nat k + 1 - N / 2)) / IZR N.
Proof.
  intros clamp vangle c n g Hc Ha Hn N. set (phi := vangle (psub (c_center c) (c_src c))).
  assert (RUN : forall m k d g, c_num d = N -> c_counter d = k -> c_center d = c_center c -> c_radius d = c_radius c -> (0 <= k)%Z -> (k + Z.of_nat m = N)%Z -> (1 <= N < 4294967295)%Z ->
     (forall j, angle_eq (phi + spread (c_angle c) N j + c_step d) (phi + spread (c_angle c) N (j + 1))) -> angle_eq (c_theta d) (phi + spread (c_angle c) N k) ->
     exists l, offers (centroid_region clamp vangle) d g l /\ length l = m /\
       forall i p gn, nth_error l i = Some (p, gn) ->
         angle_eq (po_th p) (phi + spread (c_angle c) N (k + Z.of_nat i)) /\
         px (c_center c) = po_x p + c_radius c * cos (po_th p) /\ py (c_center c) = po_y p + c_radius c * sin (po_th p) /\
         gn = 1 + 2 * IZR (Z.abs (k + Z.of_nat i + 1 - N / 2)) / IZR N).
  { induction m as [|m IH]; intros k d g0 E1 E2 E3 E4 Hk Hm HN HS HT.
    - exists []. split; [|split; [reflexivity|intros [|i] p gn X; discriminate]]. eapply offers_end. cbn [centroid_region rg_next]. unfold c_next. assert ((c_num d <=? c_counter d)%Z = true) as -> by lia. reflexivity.
    - assert (U : u32 (k + 1) = (k + 1)%Z) by (unfold u32; apply Z.mod_small; lia).
      assert (HQ : (N / 2 <= N)%Z /\ (0 <= N / 2)%Z /\ (N < 2 * (N / 2) + 2)%Z) by (pose proof (Z.div_mod N 2 ltac:(lia)); pose proof (Z.mod_pos_bound N 2 ltac:(lia)); lia).
      assert (D : i32 (u32 (k + 1 - N / 2)) = (k + 1 - N / 2)%Z) by (apply i32_small; lia).
      set (d' := CS (c_src d) (c_center d) (c_radius d) (c_angle d) (clamp (c_theta d + c_step d)) (c_step d) (k + 1) (c_num d)).
      assert (HT' : angle_eq (c_theta d') (phi + spread (c_angle c) N (k + 1))).
      { cbn [d' c_theta]. eapply angle_eq_trans; [apply Hc|]. eapply angle_eq_trans; [|apply (HS k)]. apply angle_eq_plus; [exact HT|apply angle_eq_refl]. }
      destruct (IH (k + 1)%Z d' (1 + 2 * IZR (Z.abs (k + 1 - N / 2)) / IZR N) E1 eq_refl E3 E4 ltac:(lia) ltac:(lia) HN HS HT') as (l & O & L & P).
      eexists (_ :: l). split; [eapply offers_next; [|exact O]|split; [cbn [length]; lia|]].
      + cbn [centroid_region rg_next]. unfold c_next. rewrite E1, E2, E3, E4, U, D. assert ((N <=? k)%Z = false) as -> by lia. assert ((k + 1 - N / 2 =? -2147483648)%Z = false) as -> by lia.
        unfold d'. rewrite E1, E3, E4. reflexivity.
      + intros [|i] p gn X.
        * cbn in X. injection X as <- <-. cbn [po_th po_x po_y]. rewrite Z.add_0_r. split; [exact HT|]. split; [ring|]. split; [ring|reflexivity].
        * cbn in X. apply P in X. replace (k + Z.of_nat (S i))%Z with (k + 1 + Z.of_nat i)%Z by lia. exact X. }
  assert (HN : (1 <= N < 4294967295)%Z) by (unfold N, centroid_count; destruct (Rlt_dec _ _); [lia|]; destruct (n <=? 1)%Z eqn:E; lia).
  set (d := rg_init (centroid_region clamp vangle) c n).
  assert (HD : c_num d = N /\ c_counter d = 0%Z /\ c_center d = c_center c /\ c_radius d = c_radius c /\
     c_step d = (if (N <=? 1)%Z then 0 else Rabs (c_angle c) / IZR (N - 1)) /\ c_theta d = phi + spread (c_angle c) N 0).
  { unfold d, N, centroid_count. cbn [centroid_region rg_init]. unfold c_init. cbv zeta. fold phi.
    destruct (Rlt_dec (Rabs (c_angle c)) (1 / 1000000)) as [L|L].
    - assert (Rltb (Rabs (c_angle c)) (1 / 1000000) = true) as -> by (apply Rltb_spec; exact L). cbn. repeat split. unfold spread. cbn. ring.
    - assert (Rltb (Rabs (c_angle c)) (1 / 1000000) = false) as -> by (apply Rltb_false; lra). cbn [orb]. destruct (n <=? 1)%Z eqn:E; cbn [c_num c_counter c_center c_radius c_step c_theta]; repeat split.
      + unfold spread. cbn. ring.
      + rewrite E. reflexivity.
      + unfold spread. rewrite E. unfold Rdiv at 2. rewrite Rmult_0_l. field. }
  destruct HD as (D1 & D2 & D3 & D4 & D5 & D6).
  destruct (RUN (Z.to_nat N) 0%Z d g D1 D2 D3 D4 ltac:(lia) ltac:(lia) HN) as (l & O & L & P).
  - intros j. rewrite D5. unfold spread. destruct (N <=? 1)%Z eqn:E; exists 0%Z; [ring|]. rewrite plus_IZR, minus_IZR. assert (1 < IZR N) by (apply IZR_lt; lia). field. lra.
  - rewrite D6. apply angle_eq_refl.
  - exists l. split; [exact O|]. split; [rewrite L; lia|]. exists phi. split; [destruct (Ha (psub (c_center c) (c_src c))) as [A1 A2]; split; assumption|]. exact P.
Qed.

(** The documented gain ("Direct approach 1.0 -> approach from max angle 2.0") is
    wrong, because the counter is already incremented: a single goal, on the direct
    line, has gain 3; of three goals the direct one has 5/3, the extreme right one has 1
    and the extreme left one 7/3. For every odd number of goals the direct approach is
    not the one with gain 1, and the largest gain exceeds 2. *)
Theorem C47_gain_refuted : forall clamp vangle c m g, AngleClamp_contract clamp -> Angle_contract vangle -> (0 <= m < 2147483647)%Z -> ~ Rabs (c_angle c) < 1 / 1000000 ->
  exists l, offers (centroid_region clamp vangle) (rg_init (centroid_region clamp vangle) c (2 * m + 1)) g l /\ length l = Z.to_nat (2 * m + 1) /\
    spread (c_angle c) (2 * m + 1) m = 0 /\
    (exists p, nth_error l (Z.to_nat m) = Some (p, 1 + 2 / IZR (2 * m + 1))) /\
    (exists p, nth_error l (Z.to_nat (2 * m)) = Some (p, 1 + 2 * IZR (m + 1) / IZR (2 * m + 1))) /\ 1 + 2 * IZR (m + 1) / IZR (2 * m + 1) > 2.
Proof.
  intros clamp vangle c m g Hc Ha Hm HA. destruct (C47_goals clamp vangle c (2 * m + 1) g Hc Ha ltac:(lia)) as (l & O & L & phi & _ & P).
  assert (EN : centroid_count (c_angle c) (2 * m + 1) = (2 * m + 1)%Z). { unfold centroid_count. destruct (Rlt_dec _ _); [contradiction|]. destruct (_ <=? 1)%Z eqn:E; lia. }
  cbv zeta in P. rewrite EN in *. assert (EH : ((2 * m + 1) / 2 = m)%Z) by (symmetry; apply (Z.div_unique _ 2 m 1); lia). rewrite EH in P.
  assert (G : forall k, (0 <= k < 2 * m + 1)%Z -> exists p, nth_error l (Z.to_nat k) = Some (p, 1 + 2 * IZR (Z.abs (k + 1 - m)) / IZR (2 * m + 1))).
  { intros k Hk. destruct (nth_error l (Z.to_nat k)) as [[p gn]|] eqn:E; [|apply nth_error_None in E; lia]. exists p. f_equal. f_equal. destruct (P _ _ _ E) as (_ & _ & _ & X). rewrite Z2Nat.id in X by lia. exact X. }
  exists l. split; [exact O|]. split; [lia|]. split; [|split; [|split]].
  - unfold spread. destruct (_ <=? 1)%Z eqn:E; [reflexivity|]. replace (2 * m + 1 - 1)%Z with (2 * m)%Z by lia. rewrite mult_IZR. assert (0 < IZR m) by (apply IZR_lt; lia). field. lra.
  - destruct (G m ltac:(lia)) as [p X]. exists p. rewrite X. replace (m + 1 - m)%Z with 1%Z by lia. change (Z.abs 1) with 1%Z. rewrite Rmult_1_r. reflexivity.
  - destruct (G (2 * m)%Z ltac:(lia)) as [p X]. exists p. rewrite X. replace (2 * m + 1 - m)%Z with (m + 1)%Z by lia. rewrite Z.abs_eq by lia. reflexivity.
  - rewrite !plus_IZR, mult_IZR. assert (0 <= IZR m) by (apply IZR_le; lia). apply Rplus_gt_reg_l with (-1). replace (-1 + (1 + 2 * (IZR m + 1) / (2 * IZR m + 1))) with (2 * (IZR m + 1) / (2 * IZR m + 1)) by ring.
    apply Rlt_gt. replace (-1 + 2) with ((2 * IZR m + 1) / (2 * IZR m + 1)) by (field; lra). apply Rmult_lt_compat_r; [apply Rinv_0_lt_compat; lra|lra].
Qed.
(** Zero samples still give one goal. *)
Theorem C47_zero_refuted : forall clamp vangle c g, AngleClamp_contract clamp -> Angle_contract vangle ->
  exists p, offers (centroid_region clamp vangle) (rg_init (centroid_region clamp vangle) c 0) g [(p, 3)].
Proof.
  intros clamp vangle c g Hc Ha. destruct (C47_goals clamp vangle c 0 g Hc Ha ltac:(lia)) as (l & O & L & phi & _ & P).
  assert (EN : centroid_count (c_angle c) 0 = 1%Z) by (unfold centroid_count; destruct (Rlt_dec _ _); reflexivity). cbv zeta in P. rewrite EN in *.
  destruct l as [|[p gn] [|? ?]]; try (cbn in L; lia). exists p. destruct (P 0%nat p gn eq_refl) as (_ & _ & _ & X). cbn in X. assert (gn = 3) as <- by (rewrite X; lra). exact O.
Qed.
(** The same for a new region, in terms of the arguments of its constructor. *)
Theorem C47_new : forall clamp vangle src center radius ang n g, AngleClamp_contract clamp -> Angle_contract vangle -> (0 <= n < 4294967295)%Z ->
  let N := centroid_count ang n in
  exists l, offers (centroid_region clamp vangle) (rg_init (centroid_region clamp vangle) (c_new src center radius ang) n) g l /\ Z.of_nat (length l) = N /\
    exists phi, (len (psub center src) * cos phi = px center - px src /\ len (psub center src) * sin phi = py center - py src) /\
    forall k p gn, nth_error l k = Some (p, gn) ->
      angle_eq (po_th p) (phi + spread ang N (Z.of_nat k)) /\
      px center = po_x p + radius * cos (po_th p) /\ py center = po_y p + radius * sin (po_th p).
Proof.
  intros clamp vangle src center radius ang n g Hc Ha Hn N. destruct (C47_goals clamp vangle (c_new src center radius ang) n g Hc Ha Hn) as (l & O & L & phi & F & P).
  cbn [c_new c_center c_src c_angle c_radius] in *. exists l. split; [exact O|]. split; [exact L|]. exists phi. split; [exact F|].
  intros k p gn X. destruct (P k p gn X) as (A & B & C & _). auto.
Qed.
(** Before [init] nothing is delivered. *)
Theorem C47_before_init : forall clamp vangle src center radius ang g, offers (centroid_region clamp vangle) (c_new src center radius ang) g [].
Proof. intros. eapply offers_end. reflexivity. Qed.

(** ** RingGoalRegion *)
(** [init n] makes the region deliver exactly [n] goals, at the angles [2 pi k / n]
    around the centre, at most half the width off the radius, tangential to the ring:
    counterclockwise for a region created with a non-negative radius, clockwise
    otherwise. The gain is left alone. *)
Definition ring_of (s : rst) (center : pt) (radius width : R) : Prop :=
  rs_center s = center /\ rs_width s = width /\ rs_radius s = Rabs radius /\ rs_direction s = (if Rlt_dec radius 0 then 0 else 1).
Theorem C48_goals : forall clamp rnd s center radius width n g, AngleClamp_contract clamp -> (forall k, 0 <= rnd k <= 1) -> ring_of s center radius width -> 0 <= width -> (0 <= n < 4294967296)%Z ->
  exists l, offers (ring_region clamp rnd) (rg_init (ring_region clamp rnd) s n) g l /\ Z.of_nat (length l) = n /\
    forall k p gn, nth_error l k = Some (p, gn) -> gn = g /\
      exists r, Rabs radius - width / 2 <= r <= Rabs radius + width / 2 /\
        po_x p = px center + r * cos (2 * PI * INR k / IZR n) /\ po_y p = py center + r * sin (2 * PI * INR k / IZR n) /\
        angle_eq (po_th p) (2 * PI * INR k / IZR n + (if Rlt_dec radius 0 then - (PI / 2) else PI / 2)).
Proof.
  intros clamp rnd s center radius width n g Hc Hrnd (R1 & R2 & R3 & R4) Hw Hn.
  assert (RUN : forall m k d g, ring_of d center radius width -> rs_num d = n -> rs_step d = 2 * PI / IZR n -> rs_counter d = k -> (0 <= k)%Z -> (k + Z.of_nat m = n)%Z ->
    exists l, offers (ring_region clamp rnd) d g l /\ length l = m /\ forall i p gn, nth_error l i = Some (p, gn) -> gn = g /\
      exists r, Rabs radius - width / 2 <= r <= Rabs radius + width / 2 /\
        po_x p = px center + r * cos (2 * PI * IZR (k + Z.of_nat i) / IZR n) /\ po_y p = py center + r * sin (2 * PI * IZR (k + Z.of_nat i) / IZR n) /\
        angle_eq (po_th p) (2 * PI * IZR (k + Z.of_nat i) / IZR n + (if Rlt_dec radius 0 then - (PI / 2) else PI / 2))).
  { induction m as [|m IH]; intros k d g0 (Q1 & Q2 & Q3 & Q4) E1 E2 E3 Hk Hm.
    - exists []. split; [|split; [reflexivity|intros [|i] p gn X; discriminate]]. eapply offers_end. cbn [ring_region rg_next]. unfold r_next. assert ((rs_num d <=? rs_counter d)%Z = true) as -> by lia. reflexivity.
    - destruct (Z.eq_dec (k + 1) 4294967296) as [W|W]; [lia|].
      assert (U : u32 (k + 1) = (k + 1)%Z) by (unfold u32; apply Z.mod_small; lia).
      set (d' := RS (rs_center d) (rs_width d) (rs_num d) (rs_step d) (k + 1) (rs_direction d) (rs_radius d) (S (rs_k d))).
      destruct (IH (k + 1)%Z d' g0) as (l & O & L & P); try assumption; try lia; [repeat split; assumption|reflexivity|].
      eexists (_ :: l). split; [eapply offers_next; [|exact O]|split; [cbn [length]; lia|]].
      + cbn [ring_region rg_next]. unfold r_next. rewrite E1, E3, U. assert ((n <=? k)%Z = false) as -> by lia. unfold d'. rewrite E1. reflexivity.
      + intros [|i] p gn X.
        * cbn in X. injection X as <- <-. split; [reflexivity|]. cbn [po_th po_x po_y]. rewrite Q1, Q2, Q3, Q4, E2, Z.add_0_r. exists (Rabs radius + (rnd (rs_k d) - 1 / 2) * width).
          replace (IZR k * (2 * PI / IZR n)) with (2 * PI * IZR k / IZR n) by (unfold Rdiv; ring).
          split; [pose proof (Hrnd (rs_k d)); split; nra|]. split; [reflexivity|]. split; [reflexivity|]. eapply angle_eq_trans; [apply Hc|]. exists 0%Z. destruct (Rlt_dec radius 0); field; apply not_0_IZR; lia.
        * cbn in X. apply P in X. replace (k + Z.of_nat (S i))%Z with (k + 1 + Z.of_nat i)%Z by lia. exact X. }
  destruct (RUN (Z.to_nat n) 0%Z (rg_init (ring_region clamp rnd) s n) g) as (l & O & L & P); try reflexivity; try lia; [repeat split; assumption|].
  exists l. split; [exact O|]. split; [lia|]. intros k p gn X. apply P in X. rewrite Z.add_0_l, <- INR_IZR_INZ in X. exact X.
Qed.
(** The hypothesis [ring_of] holds from the constructor on. *)
Theorem C48_new : forall center radius width, ring_of (r_new center radius width) center radius width.
Proof. intros. repeat split. Qed.
Theorem C48_kept : forall clamp rnd s center radius width, ring_of s center radius width ->
  (forall n, ring_of (rg_init (ring_region clamp rnd) s n) center radius width) /\
  (forall g s' o, rg_next (ring_region clamp rnd) s g = Some (s', o) -> ring_of s' center radius width).
Proof.
  intros clamp rnd s center radius width H. split; [intros n; exact H|]. intros g s' o. cbn [ring_region rg_next]. unfold r_next. destruct (_ <=? _)%Z; intros E; injection E as <- _; exact H.
Qed.
(** The directions of different goals are different. *)
Theorem C48_distinct : forall n i j, (0 <= i < n)%Z -> (0 <= j < n)%Z -> angle_eq (2 * PI * IZR i / IZR n) (2 * PI * IZR j / IZR n) -> i = j.
Proof.
  intros n i j Hi Hj [k E]. pose proof PI_RGT_0. assert (Hn : 0 < IZR n) by (apply IZR_lt; lia).
  assert (X : IZR i = IZR j + IZR k * IZR n).
  { apply (Rmult_eq_reg_r (2 * PI / IZR n)); [|unfold Rdiv; apply Rmult_integral_contrapositive; split; [lra|apply Rinv_neq_0_compat; lra]].
    replace (IZR i * (2 * PI / IZR n)) with (2 * PI * IZR i / IZR n) by (unfold Rdiv; ring). rewrite E. field. lra. }
  rewrite <- mult_IZR, <- plus_IZR in X. apply eq_IZR in X. assert (k = 0)%Z by nia. lia.
Qed.

(** An exhausted region is unchanged by further calls and stays exhausted. *)
Theorem C47_exhausted : forall clamp vangle rnd,
  (forall s g s', rg_next (centroid_region clamp vangle) s g = Some (s', None) -> s' = s /\ forall g', rg_next (centroid_region clamp vangle) s' g' = Some (s', None)) /\
  (forall s g s', rg_next (ring_region clamp rnd) s g = Some (s', None) -> s' = s /\ forall g', rg_next (ring_region clamp rnd) s' g' = Some (s', None)) /\
  (forall s g s', rg_next poselist_region s g = Some (s', None) -> s' = s /\ forall g', rg_next poselist_region s' g' = Some (s', None)).
Proof.
  intros clamp vangle rnd. split; [|split]; intros s g s'.
  - cbn [centroid_region rg_next]. unfold c_next. cbv zeta. destruct (c_num s <=? c_counter s)%Z eqn:E; [|destruct (_ =? _)%Z; discriminate].
    intros X. injection X as <-. split; [reflexivity|]. intros g'. rewrite E. reflexivity.
  - cbn [ring_region rg_next]. unfold r_next. cbv zeta. destruct (rs_num s <=? rs_counter s)%Z eqn:E; [|discriminate].
    intros X. injection X as <-. split; [reflexivity|]. intros g'. rewrite E. reflexivity.
  - cbn [poselist_region rg_next]. unfold pl_next. destruct (pl_poses s) as [[[ps gs] ug]|] eqn:E.
    + destruct (nth_error ps (pl_counter s)) as [p|] eqn:F; [destruct (if pl_use s then _ else _); discriminate|]. intros X. injection X as <-. split; [reflexivity|]. intros g'. rewrite E, F. reflexivity.
    + intros X. injection X as <-. split; [reflexivity|]. intros g'. rewrite E. reflexivity.
Qed.

(** ** PoseListGoalRegion *)
(** [init] makes the region deliver exactly the poses of the list, in order; with the
    gains of the list if they are enabled and there are as many as poses, otherwise the
    gain is left alone. *)
Theorem C58_goals : forall s n g,
  offers poselist_region (rg_init poselist_region s n) g
    (match pl_poses s with
     | None => []
     | Some (ps, gs, ug) => if ug && (length ps =? length gs)%nat then combine ps gs else map (fun p => (p, g)) ps
     end).
Proof.
  intros s n g. cbn [poselist_region rg_init]. unfold pl_init. destruct (pl_poses s) as [[[ps gs] ug]|] eqn:E; [|eapply offers_end; cbn [poselist_region rg_next]; unfold pl_next; reflexivity].
  destruct (ug && (length ps =? length gs)%nat) eqn:U.
  - apply andb_prop in U. destruct U as [_ U]. apply Nat.eqb_eq in U.
    assert (RUN : forall qs hs k g, skipn k ps = qs -> skipn k gs = hs -> offers poselist_region (PL true k (Some (ps, gs, ug))) g (combine qs hs)).
    { induction qs as [|q qs IH]; intros hs k g0 E1 E2.
      - eapply offers_end. cbn [poselist_region rg_next]. unfold pl_next. cbn [pl_poses pl_counter pl_use].
        assert (nth_error ps k = None) as ->; [|reflexivity]. apply nth_error_None. assert (length (skipn k ps) = 0%nat) by (rewrite E1; reflexivity). rewrite skipn_length in H. lia.
      - assert (K : nth_error ps k = Some q /\ skipn (S k) ps = qs) by (clear -E1; revert k E1; induction ps as [|a t IHt]; intros [|k] E1; cbn in *; try discriminate; [injection E1 as <- <-; auto|apply IHt; exact E1]).
        destruct K as [K1 K2].
        destruct hs as [|h hs].
        { exfalso. assert (length (skipn k gs) = 0%nat) by (rewrite E2; reflexivity). rewrite skipn_length in H. assert (nth_error ps k <> None) as X by congruence. apply nth_error_Some in X. lia. }
        assert (K' : nth_error gs k = Some h /\ skipn (S k) gs = hs) by (clear -E2; revert k E2; induction gs as [|a t IHt]; intros [|k] E2; cbn in *; try discriminate; [injection E2 as <- <-; auto|apply IHt; exact E2]).
        destruct K' as [K3 K4]. cbn [combine]. eapply offers_next; [|apply (IH hs (S k) h K2 K4)].
        cbn [poselist_region rg_next]. unfold pl_next. cbn [pl_poses pl_counter pl_use]. rewrite K1, K3. reflexivity. }
    apply (RUN ps gs 0%nat); reflexivity.
  - assert (RUN : forall qs k, skipn k ps = qs -> offers poselist_region (PL false k (Some (ps, gs, ug))) g (map (fun p => (p, g)) qs)).
    { induction qs as [|q qs IH]; intros k E1.
      - eapply offers_end. cbn [poselist_region rg_next]. unfold pl_next. cbn [pl_poses pl_counter pl_use].
        assert (nth_error ps k = None) as ->; [|reflexivity]. apply nth_error_None. assert (length (skipn k ps) = 0%nat) by (rewrite E1; reflexivity). rewrite skipn_length in H. lia.
      - assert (K : nth_error ps k = Some q /\ skipn (S k) ps = qs) by (clear -E1; revert k E1; induction ps as [|a t IHt]; intros [|k] E1; cbn in *; try discriminate; [injection E1 as <- <-; auto|apply IHt; exact E1]).
        destruct K as [K1 K2]. cbn [map]. eapply offers_next; [|apply (IH (S k) K2)].
        cbn [poselist_region rg_next]. unfold pl_next. cbn [pl_poses pl_counter pl_use]. rewrite K1. reflexivity. }
    apply (RUN ps 0%nat). reflexivity.
Qed.
(** A new region delivers the poses even without [init], and leaves the gain alone. *)
Theorem C58_new : forall ps gs ug g, offers poselist_region (pl_new (Some (ps, gs, ug))) g (map (fun p => (p, g)) ps).
Proof.
  intros ps gs ug g. unfold pl_new.
  assert (RUN : forall qs k, skipn k ps = qs -> offers poselist_region (PL false k (Some (ps, gs, ug))) g (map (fun p => (p, g)) qs)).
  { induction qs as [|q qs IH]; intros k E1.
    - eapply offers_end. cbn [poselist_region rg_next]. unfold pl_next. cbn [pl_poses pl_counter pl_use].
      assert (nth_error ps k = None) as ->; [|reflexivity]. apply nth_error_None. assert (length (skipn k ps) = 0%nat) by (rewrite E1; reflexivity). rewrite skipn_length in H. lia.
    - assert (K : nth_error ps k = Some q /\ skipn (S k) ps = qs) by (clear -E1; revert k E1; induction ps as [|a t IHt]; intros [|k] E1; cbn in *; try discriminate; [injection E1 as <- <-; auto|apply IHt; exact E1]).
      destruct K as [K1 K2]. cbn [map]. eapply offers_next; [|apply (IH (S k) K2)].
      cbn [poselist_region rg_next]. unfold pl_next. cbn [pl_poses pl_counter pl_use]. rewrite K1. reflexivity. }
  apply (RUN ps 0%nat). reflexivity.
Qed.
