(** C44: laws of circles and arcs. *)
From Coq Require Import Reals Lra.
From Flocq Require Import Core.Raux BinarySingleNaN.
From Verif Require Import Base GeomR PropGeom LineModel PropLine CircleModel GenericFloat.
Local Open Scope R_scope.

(** ** Specification *)
Definition dirR (c : circle) : R := IZR (c_dir c).
(** A direction is +1 (counter-clockwise) or -1 (clockwise). *)
Definition dir_ok (c : circle) : Prop := c_dir c = 1%Z \/ c_dir c = (-1)%Z.
Definition normalised (c : circle) : Prop :=
  dir_ok c /\ 0 <= c_start c <= 2 * PI /\ 0 <= c_arc c <= 2 * PI /\ 0 <= c_radius c.
(** The angle reached after sweeping [s] from the start. *)
Definition sweep (c : circle) (s : R) : R := c_start c + dirR c * s.
(** The point of the circle at angle [phi]. *)
Definition circ_pt (c : circle) (phi : R) : pt :=
  Pt (px (c_center c) + c_radius c * cos phi) (py (c_center c) + c_radius c * sin phi).
Definition on_arc (c : circle) (p : pt) : Prop := exists s, 0 <= s <= c_arc c /\ p = circ_pt c (sweep c s).
(** The direction from the centre to [p] is one of the swept directions. *)
Definition in_sector (c : circle) (p : pt) : Prop :=
  exists s, 0 <= s <= c_arc c /\
    psub p (c_center c) = pmul (Pt (cos (sweep c s)) (sin (sweep c s))) (dist p (c_center c)).

Lemma circ_pt_eq c phi : circ_pt c phi = polar_pt c phi.
Proof. unfold circ_pt, polar_pt, padd, pmul. cbn [px py]. apply pt_ext; cbn [px py]; ring. Qed.
Lemma circ_pt_angle c a b : angle_eq a b -> circ_pt c a = circ_pt c b.
Proof. intros H. unfold circ_pt. rewrite (angle_eq_cos a b H), (angle_eq_sin a b H). reflexivity. Qed.
Lemma dir_cases c : dir_ok c -> (c_dir c =? ARC_LEFT)%Z = true /\ (c_dir c =? ARC_RIGHT)%Z = false /\ dirR c = 1 \/
  (c_dir c =? ARC_LEFT)%Z = false /\ (c_dir c =? ARC_RIGHT)%Z = true /\ dirR c = -1.
Proof. unfold dirR. intros [-> | ->]; cbn; [left|right]; auto. Qed.

(** ** The normalisation loops *)
Lemma loop_down_spec : forall fuel a, (1 <= fuel)%nat -> a <= INR fuel * (2 * PI) ->
  exists b, loop_down fuel a = Some b /\ b <= 2 * PI /\ angle_eq a b /\ (a <= 2 * PI -> b = a) /\ (2 * PI < a -> 0 < b).
Proof.
  pose proof PI_RGT_0 as HP. induction fuel as [|k IH]; intros a Hf Ha; [lia|]. cbn [loop_down].
  destruct (Rlt_dec (2 * PI) a) as [H|H].
  - rewrite S_INR in Ha. destruct k as [|k]; [cbn in Ha; lra|].
    destruct (IH (a - 2 * PI)) as (b & E & Hb & He & H1 & H2); [lia|lra|]. exists b. split; [exact E|]. split; [exact Hb|]. split; [|split].
    + destruct He as [j He]. exists (j + 1)%Z. rewrite plus_IZR. lra.
    + lra.
    + intros _. destruct (Rlt_or_le (2 * PI) (a - 2 * PI)) as [H3|H3]; [apply H2; assumption|]. rewrite H1 by assumption. lra.
  - exists a. split; [reflexivity|]. split; [lra|]. split; [apply angle_eq_refl|]. split; [reflexivity|lra].
Qed.
Lemma loop_up_spec : forall fuel a, (1 <= fuel)%nat -> - a <= (INR fuel - 1) * (2 * PI) ->
  exists b, loop_up fuel a = Some b /\ 0 <= b /\ angle_eq a b /\ (0 <= a -> b = a) /\ (a < 0 -> b < 2 * PI).
Proof.
  pose proof PI_RGT_0 as HP. induction fuel as [|k IH]; intros a Hf Ha; [lia|]. cbn [loop_up].
  destruct (Rlt_dec a 0) as [H|H].
  - rewrite S_INR in Ha. destruct k as [|k]; [cbn in Ha; lra|].
    destruct (IH (a + 2 * PI)) as (b & E & Hb & He & H1 & H2); [lia|lra|]. exists b. split; [exact E|]. split; [exact Hb|]. split; [|split].
    + destruct He as [j He]. exists (j - 1)%Z. rewrite minus_IZR. lra.
    + lra.
    + intros _. destruct (Rlt_or_le (a + 2 * PI) 0) as [H3|H3]; [apply H2; assumption|]. rewrite H1 by assumption. lra.
  - exists a. split; [reflexivity|]. split; [lra|]. split; [apply angle_eq_refl|]. split; [reflexivity|lra].
Qed.
Lemma norm_fuel_big a : Rabs a <= (INR (norm_fuel a) - 1) * (2 * PI).
Proof.
  pose proof PI_RGT_0 as HP. unfold norm_fuel. rewrite S_INR.
  assert (Q : 0 <= Rabs a / (2 * PI)) by (apply Rmult_le_pos; [apply Rabs_pos|left; apply Rinv_0_lt_compat; lra]).
  pose proof (archimed (Rabs a / (2 * PI))) as [A _].
  assert (U : (0 <= up (Rabs a / (2 * PI)))%Z) by (apply le_IZR; lra).
  rewrite INR_IZR_INZ, Z2Nat.id by assumption.
  replace (Rabs a) with (Rabs a / (2 * PI) * (2 * PI)) at 1 by (field; lra).
  apply Rmult_le_compat_r; lra.
Qed.

(** The loops terminate for every real angle, do not change the direction meant,
    end in [0, 2 pi] and leave values already there alone. *)
Theorem C44_normalise : forall a, exists b, norm2pi a = Some b /\ 0 <= b <= 2 * PI /\ angle_eq a b /\
  (0 <= a <= 2 * PI -> b = a).
Proof.
  intros a. pose proof PI_RGT_0 as HP. pose proof (norm_fuel_big a) as F. pose proof (Rle_abs a).
  destruct (loop_down_spec (norm_fuel a) a) as (b & E & Hb & He & H1 & H2); [unfold norm_fuel; lia|lra|].
  unfold norm2pi. rewrite E. cbn [obind].
  pose proof (norm_fuel_big b) as Fb. pose proof (Rle_abs (- b)) as Hn. rewrite Rabs_Ropp in Hn.
  destruct (loop_up_spec (norm_fuel b) b) as (d & E' & Hd & He' & H1' & H2'); [unfold norm_fuel; lia|lra|].
  exists d. split; [exact E'|]. split; [|split].
  - split; [exact Hd|]. destruct (Rlt_or_le b 0) as [Hl|Hl]; [left; apply H2'; assumption|rewrite H1'; assumption].
  - apply angle_eq_trans with b; assumption.
  - intros Ha. rewrite <- H1 by lra. apply H1'. destruct (Rlt_or_le (2 * PI) a); [lra|]. rewrite H1; lra.
Qed.

(** In binary64 they do not: 2^60 - 2 pi is 2^60 again. *)
Fixpoint loop_down_ieee (fuel : nat) (t : b64) : option b64 :=
  match fuel with
  | O => None
  | S k => if Bltb (@B754_finite 53 1024 false 7074237752028440 (-50) eq_refl) t
           then loop_down_ieee k (@Bminus 53 1024 prec_gt0 prec_lt mode_NE t (@B754_finite 53 1024 false 7074237752028440 (-50) eq_refl))
           else Some t
  end.
Theorem C44_normalise_ieee_refuted :
  exists t : b64, is_finite t = true /\ B2R t = 2 ^ 60 /\ forall fuel, loop_down_ieee fuel t = None.
Proof.
  set (t := @B754_finite 53 1024 false 4503599627370496 8 eq_refl).
  exists t. split; [reflexivity|]. split.
  - unfold t. cbn. unfold Defs.F2R. cbn. lra.
  - assert (E : @Bminus 53 1024 prec_gt0 prec_lt mode_NE t (@B754_finite 53 1024 false 7074237752028440 (-50) eq_refl) = t).
    { apply B2SF_inj. vm_compute. reflexivity. }
    assert (L : Bltb (@B754_finite 53 1024 false 7074237752028440 (-50) eq_refl) t = true) by (vm_compute; reflexivity).
    induction fuel as [|k IH]; [reflexivity|]. cbn [loop_down_ieee]. rewrite L, E. exact IH.
Qed.

(** ** Construction *)
Theorem C44_constructor : forall ctr r d,
  (d = 0%Z -> mk_circle ctr r d = None) /\
  (d <> 0%Z -> exists c, mk_circle ctr r d = Some c /\ normalised c /\ c_center c = ctr /\
     c_radius c = Rabs r /\ c_arc c = 2 * PI /\ c_dir c = (if (0 <? d)%Z then 1 else -1)%Z).
Proof.
  intros ctr r d. pose proof PI_RGT_0 as HP. split.
  - intros ->. reflexivity.
  - intros Hd. unfold mk_circle. destruct (Z.eqb_spec d 0); [contradiction|].
    assert (Q : Z.quot d (Z.abs d) = (if (0 <? d)%Z then 1 else -1)%Z).
    { destruct (Z.ltb_spec 0 d).
      - rewrite Z.abs_eq, Z.quot_same by lia. reflexivity.
      - rewrite Z.abs_neq by lia. rewrite Z.quot_opp_r, Z.quot_same by lia. reflexivity. }
    cbv zeta. rewrite Q. eexists. split; [reflexivity|]. unfold normalised, dir_ok. cbn [c_center c_radius c_arc c_dir c_start].
    pose proof (Rabs_pos r). repeat split; try lra; destruct (0 <? d)%Z; cbn; auto; try lra.
Qed.

(** ** Setting start, end and sweep *)
Lemma end_sweep c : dir_ok c ->
  (if (c_dir c =? ARC_LEFT)%Z then c_start c + c_arc c else c_start c - c_arc c) = sweep c (c_arc c).
Proof. intros H. unfold sweep. destruct (dir_cases c H) as [(-> & _ & ->)|(-> & _ & ->)]; ring. Qed.

(** setStartAngle: the start moves, the end stays. *)
Theorem C44_setStartAngle : forall c a, dir_ok c -> 0 <= c_radius c ->
  exists c', setStartAngle c a = Some c' /\ normalised c' /\
    c_center c' = c_center c /\ c_radius c' = c_radius c /\ c_dir c' = c_dir c /\
    angle_eq (c_start c') a /\ angle_eq (sweep c' (c_arc c')) (sweep c (c_arc c)).
Proof.
  intros c a Hd Hr. unfold setStartAngle. destruct (C44_normalise a) as (b & E & Hb & He & _). rewrite E. cbn [obind].
  rewrite end_sweep by assumption. cbv zeta.
  match goal with |- context [norm2pi ?x] => destruct (C44_normalise x) as (r & E2 & Hr2 & He2 & _); rewrite E2 end. cbn [obind].
  eexists. split; [reflexivity|]. unfold normalised, dir_ok. cbn [c_center c_radius c_arc c_dir c_start].
  split; [auto|]. split; [reflexivity|]. split; [reflexivity|]. split; [reflexivity|]. split; [apply angle_eq_sym; assumption|].
  unfold sweep at 1, dirR. cbn [c_start c_dir]. change (IZR (c_dir c)) with (dirR c). set (s := sweep c (c_arc c)) in *.
  destruct (dir_cases c Hd) as [(El & _ & Ed)|(El & _ & Ed)]; rewrite El in He2; rewrite Ed.
  - apply angle_eq_sym in He2. apply (angle_eq_plus b b) in He2; [|apply angle_eq_refl].
    replace (b + 1 * r) with (b + r) by ring. replace s with (b + (s - b)) by ring. assumption.
  - apply angle_eq_neg in He2. apply angle_eq_sym in He2. apply (angle_eq_plus b b) in He2; [|apply angle_eq_refl].
    replace (b + -1 * r) with (b + - r) by ring. replace s with (b + - (b - s)) by ring. assumption.
Qed.
(** setEndAngle: the start stays, the end moves. *)
Theorem C44_setEndAngle : forall c a, dir_ok c ->
  exists c', setEndAngle c a = Some c' /\ 0 <= c_arc c' <= 2 * PI /\
    c_center c' = c_center c /\ c_radius c' = c_radius c /\ c_dir c' = c_dir c /\
    c_start c' = c_start c /\ angle_eq (sweep c' (c_arc c')) a.
Proof.
  intros c a Hd. unfold setEndAngle.
  match goal with |- context [norm2pi ?x] => destruct (C44_normalise x) as (r & E2 & Hr2 & He2 & _); rewrite E2 end. cbn [obind].
  eexists. split; [reflexivity|]. cbn [c_center c_radius c_arc c_dir c_start].
  split; [assumption|]. split; [reflexivity|]. split; [reflexivity|]. split; [reflexivity|]. split; [reflexivity|].
  unfold sweep, dirR. cbn [c_start c_dir]. change (IZR (c_dir c)) with (dirR c).
  destruct (dir_cases c Hd) as [(El & _ & Ed)|(El & _ & Ed)]; rewrite El in He2; rewrite Ed; set (b := c_start c) in *.
  - apply angle_eq_sym in He2. apply (angle_eq_plus b b) in He2; [|apply angle_eq_refl].
    replace (b + 1 * r) with (b + r) by ring. replace a with (b + (a - b)) by ring. assumption.
  - apply angle_eq_neg in He2. apply angle_eq_sym in He2. apply (angle_eq_plus b b) in He2; [|apply angle_eq_refl].
    replace (b + -1 * r) with (b + - r) by ring. replace a with (b + - (b - a)) by ring. assumption.
Qed.
Theorem C44_setArcAngle : forall c a,
  exists c', setArcAngle c a = Some c' /\ 0 <= c_arc c' <= 2 * PI /\ angle_eq (c_arc c') a /\ (0 <= a <= 2 * PI -> c_arc c' = a) /\
    c_center c' = c_center c /\ c_radius c' = c_radius c /\ c_dir c' = c_dir c /\ c_start c' = c_start c.
Proof.
  intros c a. unfold setArcAngle. destruct (C44_normalise a) as (b & E & Hb & He & Hi). rewrite E. cbn [obind].
  eexists. split; [reflexivity|]. cbn. split; [assumption|]. split; [apply angle_eq_sym; assumption|]. split; [assumption|]. auto.
Qed.
(** endAngle / endPoint: the point reached after the whole sweep. *)
Theorem C44_end : forall c, dir_ok c ->
  exists e, endAngle c = Some e /\ 0 <= e <= 2 * PI /\ angle_eq e (sweep c (c_arc c)) /\
    endPoint c = Some (circ_pt c (sweep c (c_arc c))) /\ startPoint c = circ_pt c (sweep c 0).
Proof.
  intros c Hd. unfold endPoint, endAngle. rewrite end_sweep by assumption.
  destruct (C44_normalise (sweep c (c_arc c))) as (b & E & Hb & He & _). exists b. rewrite E. cbn [obind].
  split; [reflexivity|]. split; [assumption|]. split; [apply angle_eq_sym; assumption|]. split.
  - f_equal. rewrite <- circ_pt_eq. apply circ_pt_angle. apply angle_eq_sym. assumption.
  - unfold startPoint. rewrite <- circ_pt_eq. f_equal. unfold sweep. ring.
Qed.

(** Every history of the setters keeps the representation normalised. *)
Inductive cop := OpStart (a : R) | OpEnd (a : R) | OpArc (a : R) | OpSelStart (p : pt) (tol : R) | OpSelEnd (p : pt) (tol : R).
Definition run_op (c : circle) (o : cop) : option circle :=
  match o with
  | OpStart a => setStartAngle c a
  | OpEnd a => setEndAngle c a
  | OpArc a => setArcAngle c a
  | OpSelStart p tol => r <- c_selectStartPoint c p tol ;; Some (snd r)
  | OpSelEnd p tol => r <- c_selectEndPoint c p tol ;; Some (snd r)
  end.
Fixpoint run_ops (c : circle) (l : list cop) : option circle :=
  match l with [] => Some c | o :: t => c1 <- run_op c o ;; run_ops c1 t end.
Lemma setStart_norm c a : normalised c -> exists c', setStartAngle c a = Some c' /\ normalised c' /\
  c_center c' = c_center c /\ c_radius c' = c_radius c /\ c_dir c' = c_dir c.
Proof.
  intros (Hd & _ & _ & Hr). destruct (C44_setStartAngle c a Hd Hr) as (c' & E & N & A & B & C & _). exists c'. auto.
Qed.
Lemma setEnd_norm c a : normalised c -> exists c', setEndAngle c a = Some c' /\ normalised c' /\
  c_center c' = c_center c /\ c_radius c' = c_radius c /\ c_dir c' = c_dir c.
Proof.
  intros (Hd & Hs & _ & Hr). destruct (C44_setEndAngle c a Hd) as (c' & E & N & A & B & C & D & _). exists c'.
  split; [assumption|]. split; [|auto]. unfold normalised, dir_ok in *. rewrite B, C, D. auto.
Qed.
Theorem C44_history : forall ops c, normalised c ->
  exists c', run_ops c ops = Some c' /\ normalised c' /\
    c_center c' = c_center c /\ c_radius c' = c_radius c /\ c_dir c' = c_dir c.
Proof.
  induction ops as [|o ops IH]; intros c Hc; [exists c; auto|].
  assert (S : exists c', run_op c o = Some c' /\ normalised c' /\ c_center c' = c_center c /\ c_radius c' = c_radius c /\ c_dir c' = c_dir c).
  { destruct o as [a|a|a|p tol|p tol]; cbn [run_op].
    - apply setStart_norm. assumption.
    - apply setEnd_norm. assumption.
    - destruct (C44_setArcAngle c a) as (c' & E & N & _ & _ & A & B & C & D). exists c'. split; [assumption|]. split; [|auto].
      destruct Hc as (Hd & Hs & _ & Hr). unfold normalised, dir_ok in *. rewrite B, C, D. auto.
    - unfold c_selectStartPoint. destruct (Rlt_dec _ tol).
      + unfold setStartAnglePt. destruct (setStart_norm c (getAngleOfPoint c p) Hc) as (c' & -> & H). cbn. exists c'. auto.
      + cbn. exists c. auto.
    - unfold c_selectEndPoint. destruct (Rlt_dec _ tol).
      + unfold setEndAnglePt. destruct (setEnd_norm c (getAngleOfPoint c p) Hc) as (c' & -> & H). cbn. exists c'. auto.
      + cbn. exists c. auto. }
  destruct S as (c1 & E & N & A & B & C). cbn [run_ops]. rewrite E. cbn [obind].
  destruct (IH c1 N) as (c' & E' & N' & A' & B' & C'). exists c'. rewrite A', B', C'. auto.
Qed.
(** setArc does not normalise the sweep. *)
Theorem C44_setArc : forall c a arc d, dir_ok c -> 0 <= c_radius c ->
  exists c', setArc c a arc d = Some c' /\ c_center c' = c_center c /\ c_radius c' = c_radius c /\
    angle_eq (c_start c') a /\ 0 <= c_start c' <= 2 * PI /\ c_arc c' = arc /\ c_dir c' = (if (0 <=? d)%Z then 1 else -1)%Z.
Proof.
  intros c a arc d Hd Hr. destruct (C44_setStartAngle c a Hd Hr) as (c' & E & N & A & B & C & D & _).
  unfold setArc. rewrite E. cbn [obind]. eexists. split; [reflexivity|]. cbn. destruct N as (_ & N & _).
  repeat split; auto; apply N.
Qed.
Theorem C44_setArc_refuted : exists c c', normalised c /\ setArc c 0 (-1) 1 = Some c' /\ ~ normalised c'.
Proof.
  pose proof PI_RGT_0 as HP. set (c := Circ (Pt 0 0) 1 1 (2 * PI) 0).
  assert (N : normalised c) by (unfold normalised, dir_ok, c; cbn; repeat split; auto; lra).
  destruct (C44_setArc c 0 (-1) 1) as (c' & E & _ & _ & _ & _ & A & _); [apply N|apply N|].
  exists c, c'. split; [exact N|]. split; [exact E|]. intros (_ & _ & H & _). rewrite A in H. lra.
Qed.

(** ** Arcs from and to a pose *)
Theorem C44_createArcFrom : forall s r arc d, 0 <= r -> (d = 1%Z \/ d = (-1)%Z) ->
  exists c, createArcFrom s r arc d = Some c /\ c_radius c = r /\ c_arc c = arc /\ c_dir c = d /\
    startPoint c = pp_pos s /\ angle_eq (c_start c + dirR c * (PI / 2)) (pp_th s).
Proof.
  intros s r arc d Hr Hd. unfold createArcFrom. cbv zeta.
  set (sa := if (d =? ARC_LEFT)%Z then pp_th s - PI / 2 else pp_th s + PI / 2).
  set (ctr := psub (pp_pos s) (Pt (r * cos sa) (r * sin sa))).
  destruct (C44_constructor ctr r d) as [_ K]. destruct K as (c0 & E0 & N0 & A0 & B0 & _ & D0); [destruct Hd; lia|].
  rewrite E0. cbn [obind]. destruct (C44_setArc c0 sa arc d) as (c & E & A & B & C & _ & D & F); [apply N0|apply N0|].
  exists c. split; [exact E|].
  assert (Er : c_radius c = r) by (rewrite B, B0; apply Rabs_pos_eq; assumption).
  assert (Ed : c_dir c = d) by (rewrite F; destruct Hd as [-> | ->]; reflexivity).
  split; [exact Er|]. split; [exact D|]. split; [exact Ed|]. split.
  - unfold startPoint. rewrite <- circ_pt_eq, (circ_pt_angle c _ _ C). unfold circ_pt. rewrite Er, A, A0. unfold ctr, psub. cbn [px py].
    apply pt_ext; cbn [px py]; ring.
  - unfold dirR. rewrite Ed. apply angle_eq_trans with (sa + IZR d * (PI / 2)); [apply angle_eq_plus; [assumption|apply angle_eq_refl]|].
    unfold sa. destruct Hd as [-> | ->]; cbn; exists 0%Z; field.
Qed.
Theorem C44_createArcTo : forall s r arc d, 0 <= r -> (d = 1%Z \/ d = (-1)%Z) ->
  exists c e, createArcTo s r arc d = Some c /\ c_radius c = r /\ c_arc c = arc /\ c_dir c = d /\
    endAngle c = Some e /\ endPoint c = Some (pp_pos s) /\ angle_eq (e + dirR c * (PI / 2)) (pp_th s).
Proof.
  intros s r arc d Hr Hd. unfold createArcTo. cbv zeta.
  set (ea := if (d =? ARC_LEFT)%Z then pp_th s - PI / 2 else pp_th s + PI / 2).
  set (sa := if (d =? ARC_LEFT)%Z then ea - arc else ea + arc).
  set (ctr := psub (pp_pos s) (Pt (r * cos ea) (r * sin ea))).
  destruct (C44_constructor ctr r d) as [_ K]. destruct K as (c0 & E0 & N0 & A0 & B0 & _ & D0); [destruct Hd; lia|].
  rewrite E0. cbn [obind]. destruct (C44_setArc c0 sa arc d) as (c & E & A & B & C & _ & D & F); [apply N0|apply N0|].
  assert (Er : c_radius c = r) by (rewrite B, B0; apply Rabs_pos_eq; assumption).
  assert (Ed : c_dir c = d) by (rewrite F; destruct Hd as [-> | ->]; reflexivity).
  assert (Hok : dir_ok c) by (unfold dir_ok; rewrite Ed; assumption).
  destruct (C44_end c Hok) as (e & Ee & _ & He & Ep & _).
  assert (Hea : angle_eq (sweep c (c_arc c)) ea).
  { unfold sweep, dirR. rewrite Ed, D. apply angle_eq_trans with (sa + IZR d * arc); [apply angle_eq_plus; [assumption|apply angle_eq_refl]|].
    unfold sa. destruct Hd as [-> | ->]; cbn; exists 0%Z; ring. }
  exists c, e. split; [exact E|]. split; [exact Er|]. split; [exact D|]. split; [exact Ed|]. split; [exact Ee|]. split.
  - rewrite Ep. f_equal. rewrite (circ_pt_angle c _ _ Hea). unfold circ_pt. rewrite Er, A, A0. unfold ctr, psub. cbn [px py].
    apply pt_ext; cbn [px py]; ring.
  - unfold dirR. rewrite Ed. apply angle_eq_trans with (ea + IZR d * (PI / 2)); [apply angle_eq_plus; [|apply angle_eq_refl]|].
    + apply angle_eq_trans with (sweep c (c_arc c)); assumption.
    + unfold ea. destruct Hd as [-> | ->]; cbn; exists 0%Z; field.
Qed.
(** With a negative radius the arc does not start at the pose. *)
Theorem C44_createArcFrom_refuted : exists s c, createArcFrom s (-1) PI 1 = Some c /\ startPoint c <> pp_pos s.
Proof.
  set (s := PP (Pt 0 0) (PI / 2)). unfold createArcFrom. cbv zeta. change ((1 =? ARC_LEFT)%Z) with true. cbv iota.
  set (ctr := psub (pp_pos s) (Pt (-1 * cos (pp_th s - PI / 2)) (-1 * sin (pp_th s - PI / 2)))). destruct (C44_constructor ctr (-1) 1) as [_ K]. destruct K as (c0 & E0 & N0 & A0 & B0 & _ & D0); [lia|].
  exists s. fold ctr. rewrite E0. cbn [obind]. destruct (C44_setArc c0 (pp_th s - PI / 2) PI 1) as (c & E & A & B & C & _ & D & F); [apply N0|apply N0|].
  exists c. split; [exact E|]. unfold startPoint. rewrite <- circ_pt_eq, (circ_pt_angle c _ _ C). unfold circ_pt. rewrite A, A0, B, B0.
  unfold ctr, psub. cbn [pp_pos pp_th s px py]. replace (PI / 2 - PI / 2) with 0 by ring. rewrite cos_0, sin_0.
  intros H. injection H as H _. unfold Rabs in H. destruct (Rcase_abs (-1)); lra.
Qed.

(** ** Discretisation *)
Lemma pose_loop_length clamp c n : forall phi d, length (pose_loop clamp c n phi d) = n.
Proof. induction n; intros; cbn; [reflexivity|rewrite IHn; reflexivity]. Qed.
Lemma pose_loop_nth clamp c n : forall phi d k, (k < n)%nat ->
  nth_error (pose_loop clamp c n phi d) k = Some (arc_pose clamp c (phi + INR k * d)).
Proof.
  induction n as [|n IH]; intros phi d k Hk; [lia|]. cbn [pose_loop]. destruct k as [|k].
  - cbn. do 2 f_equal. ring.
  - cbn [nth_error]. rewrite IH by lia. do 2 f_equal. rewrite S_INR. ring.
Qed.
Lemma cast_abs x n : cast_i32 (Rabs x) = Some n -> (0 <= n)%Z /\ IZR n <= Rabs x < IZR n + 1.
Proof.
  intros E. apply cast_i32_trunc in E. destruct E as [-> _]. rewrite Ztrunc_floor by apply Rabs_pos.
  pose proof (Zfloor_lb (Rabs x)). pose proof (Zfloor_ub (Rabs x)). split; [apply Zfloor_lub; apply Rabs_pos|lra].
Qed.

(** toPoses with the start pose: the k-th of n+1 poses is on the arc after the
    fraction k/n of the sweep (counted from the end when driving backward), its
    heading is the driving direction of the arc; the first is the start and the
    last the end (the other way round backward). The spacing is at least the
    resolution. An arc shorter than the resolution yields its first point only. *)
Theorem C44_toPoses : forall clamp c res mdir ps, AngleClamp_contract clamp -> dir_ok c -> 0 <= c_arc c -> 0 <= c_radius c ->
  / 10000000000 <= Rabs res -> c_toPoses clamp c res mdir true = Some ps ->
  exists n, length ps = S n /\ INR n * Rabs res <= c_arc c * c_radius c < (INR n + 1) * Rabs res /\
    forall k p, nth_error ps k = Some p ->
      let f := if (n =? 0)%nat then 0 else INR k / INR n in
      let t := if (mdir =? FORWARD)%Z then f else 1 - f in
      0 <= t <= 1 /\ pp_pos p = circ_pt c (sweep c (c_arc c * t)) /\
      Pt (cos (pp_th p)) (sin (pp_th p)) =
        pmul (Pt (- sin (sweep c (c_arc c * t))) (cos (sweep c (c_arc c * t)))) (dirR c).
Proof.
  intros clamp c res mdir ps Hcl Hd Ha Hr Hres E. unfold c_toPoses in E.
  destruct (Rlt_dec (Rabs res) _) as [|_]; [lra|]. cbv zeta in E.
  destruct (cast_i32 _) as [n|] eqn:Ec; [|discriminate]. cbn [obind] in E.
  destruct (C44_end c Hd) as (e & Ee & _ & He & _). rewrite Ee in E. cbn [obind] in E.
  match type of E with Some ?x = Some _ => assert (EP : ps = x) by congruence; rewrite EP; clear E EP end.
  apply cast_abs in Ec. destruct Ec as [Hn0 Hn]. exists (Z.to_nat n). rewrite pose_loop_length. split; [reflexivity|].
  assert (Hin : INR (Z.to_nat n) = IZR n) by (rewrite INR_IZR_INZ, Z2Nat.id by assumption; reflexivity).
  rewrite Hin. split.
  { unfold getArcLength, getArcAngle in Hn. unfold Rdiv in Hn. rewrite Rabs_mult, (Rabs_pos_eq (_ * _)) in Hn by (apply Rmult_le_pos; assumption).
    assert (Hrn : res <> 0) by (intros ->; rewrite Rabs_R0 in Hres; lra). rewrite Rabs_inv in Hn.
    set (L := c_arc c * c_radius c) in *. set (q := Rabs res) in *.
    assert (EL : L = L * / q * q) by (field; lra). split; [rewrite EL; apply Rmult_le_compat_r; lra|rewrite EL; apply Rmult_lt_compat_r; lra]. }
  intros k p Hk. cbv zeta.
  assert (Hkn : (k < S (Z.to_nat n))%nat).
  { match type of Hk with nth_error ?l _ = _ => rewrite <- (pose_loop_length clamp c (S (Z.to_nat n)) (if (mdir =? FORWARD)%Z then c_start c else e)
      (if (c_dir c =? ARC_RIGHT)%Z then - (if (mdir =? FORWARD)%Z then getArcAngle c / IZR n else - (getArcAngle c / IZR n)) else (if (mdir =? FORWARD)%Z then getArcAngle c / IZR n else - (getArcAngle c / IZR n)))) end.
    apply nth_error_Some. rewrite Hk. discriminate. }
  rewrite pose_loop_nth in Hk by assumption. injection Hk as <-.
  set (f := if (Z.to_nat n =? 0)%nat then 0 else INR k / IZR n).
  assert (Hf : 0 <= f <= 1).
  { unfold f. destruct (Z.to_nat n =? 0)%nat eqn:En; [lra|]. apply Nat.eqb_neq in En.
    assert (0 < IZR n) by (apply IZR_lt; lia). assert (INR k <= IZR n) by (rewrite <- Hin; apply le_INR; lia). pose proof (pos_INR k).
    split; [apply Rmult_le_pos; [assumption|left; apply Rinv_0_lt_compat; assumption]|].
    apply (Rmult_le_reg_r (IZR n)); [assumption|]. unfold Rdiv. rewrite Rmult_assoc, Rinv_l by lra. lra. }
  assert (Hkf : INR k * (getArcAngle c / IZR n) = c_arc c * f).
  { unfold f, getArcAngle. destruct (Z.to_nat n =? 0)%nat eqn:En.
    - apply Nat.eqb_eq in En. assert (k = 0)%nat as -> by lia. cbn. ring.
    - apply Nat.eqb_neq in En. assert (0 < IZR n) by (apply IZR_lt; lia). field. lra. }
  set (t := if (mdir =? FORWARD)%Z then f else 1 - f).
  split; [unfold t; destruct (mdir =? FORWARD)%Z; lra|].
  match goal with |- context [arc_pose clamp c ?x] => set (phi := x) end.
  assert (Hphi : angle_eq phi (sweep c (c_arc c * t))).
  { unfold phi, t. destruct (mdir =? FORWARD)%Z.
    - unfold sweep. destruct (dir_cases c Hd) as [(_ & -> & ->)|(_ & -> & ->)]; exists 0%Z; [rewrite Hkf; ring|].
      rewrite Ropp_mult_distr_r_reverse, Hkf. ring.
    - apply angle_eq_trans with (sweep c (c_arc c) + - (dirR c * (c_arc c * f))).
      + apply angle_eq_plus; [assumption|]. destruct (dir_cases c Hd) as [(_ & -> & ->)|(_ & -> & ->)]; exists 0%Z; rewrite <- Hkf; ring.
      + exists 0%Z. unfold sweep. ring. }
  unfold arc_pose. cbn [pp_pos pp_th]. split.
  - rewrite <- circ_pt_eq. apply circ_pt_angle. assumption.
  - destruct (Hcl (phi + IZR (c_dir c) * PI / 2)) as [_ Hc].
    rewrite (angle_eq_cos _ _ Hc), (angle_eq_sin _ _ Hc). rewrite <- (angle_eq_cos _ _ Hphi), <- (angle_eq_sin _ _ Hphi).
    unfold pmul, dirR. cbn [px py]. destruct Hd as [-> | ->].
    + replace (phi + 1 * PI / 2) with (PI / 2 + phi) by field. rewrite <- cos_sin. rewrite (sin_cos phi). apply pt_ext; cbn [px py]; ring.
    + replace (phi + -1 * PI / 2) with (- (PI / 2 - phi)) by field. rewrite cos_neg, sin_neg, cos_shift, sin_shift. apply pt_ext; cbn [px py]; ring.
Qed.

(** Without the start pose: the same list without its first element. *)
Theorem C44_toPoses_tail : forall clamp c res mdir ps, / 10000000000 <= Rabs res ->
  c_toPoses clamp c res mdir true = Some ps -> c_toPoses clamp c res mdir false = Some (tl ps).
Proof.
  intros clamp c res mdir ps Hres E. unfold c_toPoses in *. destruct (Rlt_dec (Rabs res) _) as [|_]; [lra|]. cbv zeta in *.
  destruct (cast_i32 _) as [n|]; [|discriminate]. cbn [obind] in *. destruct (endAngle c) as [e|]; [|discriminate]. cbn [obind] in *.
  injection E as <-. cbn [pose_loop tl]. reflexivity.
Qed.

(** toPoints forgets the centre ... *)
Theorem C44_toPoints_refuted : exists c pts p, normalised c /\ c_toPoints c 1 = Some pts /\ In p pts /\ dist p (c_center c) <> c_radius c.
Proof.
  pose proof PI_RGT_0 as HP. set (c := Circ (Pt 10 0) 1 1 (2 * PI) 0).
  assert (H2 : PI < 3.25) by (pose proof (PI_ineq 5) as [_ Hu]; unfold tg_alt, PI_tg in Hu; cbn in Hu; lra).
  pose proof PI2_3_2 as H3.
  assert (E : cast_i32 (Rabs (getArcLength c / 1)) = Some 6%Z).
  { unfold getArcLength, getArcAngle. cbn [c_arc c_radius c]. replace (2 * PI * 1 / 1) with (2 * PI) by field. rewrite Rabs_pos_eq by lra.
    unfold cast_i32. assert (Ztrunc (2 * PI) = 6%Z) as -> by (apply trunc_floor; lra). reflexivity. }
  exists c. eexists. exists (Pt (1 * cos 0) (1 * sin 0)). split; [unfold normalised, dir_ok; cbn; repeat split; auto; lra|]. split.
  - unfold c_toPoints. destruct (Req_EM_T 1 0); [lra|]. rewrite E. cbn [obind]. reflexivity.
  - split; [left; reflexivity|]. rewrite cos_0, sin_0. cbn [c_center c_radius c]. rewrite dist_hyp. cbn [px py]. rewrite (hyp_unique _ _ 9); lra.
Qed.
(** ... and the turning direction; for left arcs about the origin it is right. *)
Lemma tp_loop_nth n : forall r phi d k, (k < n)%nat -> nth_error (tp_loop n r phi d) k = Some (Pt (r * cos (phi + INR k * d)) (r * sin (phi + INR k * d))).
Proof.
  induction n as [|n IH]; intros r phi d k Hk; [lia|]. cbn [tp_loop]. destruct k as [|k].
  - cbn [nth_error]. replace (phi + INR 0 * d) with phi by (cbn; ring). reflexivity.
  - cbn [nth_error]. rewrite IH by lia. rewrite S_INR. replace (phi + d + INR k * d) with (phi + (INR k + 1) * d) by ring. reflexivity.
Qed.
Lemma tp_loop_length n : forall r phi d, length (tp_loop n r phi d) = n.
Proof. induction n; intros; cbn; [reflexivity|rewrite IHn; reflexivity]. Qed.
Theorem C44_toPoints_centred : forall c res pts, c_center c = Pt 0 0 -> c_dir c = 1%Z -> 0 <= c_arc c -> 0 <= c_radius c ->
  c_toPoints c res = Some pts -> forall k p, nth_error pts k = Some p ->
  p = circ_pt c (sweep c (c_arc c * (INR k / INR (length pts)))) /\ on_arc c p.
Proof.
  intros c res pts Hc Hd Ha Hr E k p Hk. unfold c_toPoints in E. destruct (Req_EM_T res 0); [discriminate|].
  destruct (cast_i32 _) as [m|] eqn:Ec; [|discriminate]. cbn [obind] in E. injection E as <-.
  rewrite tp_loop_length. apply cast_abs in Ec. destruct Ec as [Hn0 _].
  assert (Hkn : (k < Z.to_nat m)%nat).
  { rewrite <- (tp_loop_length (Z.to_nat m) (c_radius c) (c_start c) (getArcAngle c / IZR m)). apply nth_error_Some. rewrite Hk. discriminate. }
  rewrite tp_loop_nth in Hk by assumption. injection Hk as <-.
  assert (Hin : INR (Z.to_nat m) = IZR m) by (rewrite INR_IZR_INZ, Z2Nat.id by assumption; reflexivity).
  assert (0 < IZR m) by (apply IZR_lt; lia). rewrite Hin.
  assert (Q : Pt (c_radius c * cos (c_start c + INR k * (getArcAngle c / IZR m))) (c_radius c * sin (c_start c + INR k * (getArcAngle c / IZR m))) = circ_pt c (sweep c (c_arc c * (INR k / IZR m)))).
  { unfold circ_pt, sweep, dirR, getArcAngle. rewrite Hd, Hc. cbn [px py].
    replace (c_start c + 1 * (c_arc c * (INR k / IZR m))) with (c_start c + INR k * (c_arc c / IZR m)) by (field; lra). apply pt_ext; cbn [px py]; ring. }
  split; [exact Q|]. rewrite Q. eexists. split; [|reflexivity].
  assert (INR k <= IZR m) by (rewrite <- Hin; apply le_INR; lia). pose proof (pos_INR k).
  assert (0 <= INR k / IZR m) by (apply Rmult_le_pos; [assumption|left; apply Rinv_0_lt_compat; assumption]).
  assert (INR k / IZR m <= 1).
  { apply (Rmult_le_reg_r (IZR m)); [assumption|]. unfold Rdiv. rewrite Rmult_assoc, Rinv_l by lra. lra. }
  split; [apply Rmult_le_pos; assumption|]. nra.
Qed.

(** ** Point on arc *)
Lemma gaop_range c p : 0 <= getAngleOfPoint c p < 2 * PI.
Proof.
  unfold getAngleOfPoint. cbv zeta. pose proof PI_RGT_0. match goal with |- context [atan2 ?y ?x] => pose proof (atan2_range y x); destruct (Rlt_dec (atan2 y x) 0) end; lra.
Qed.
Lemma gaop_polar c p : psub p (c_center c) = pmul (Pt (cos (getAngleOfPoint c p)) (sin (getAngleOfPoint c p))) (dist p (c_center c)).
Proof.
  assert (A : angle_eq (getAngleOfPoint c p) (atan2 (py (psub p (c_center c))) (px (psub p (c_center c))))).
  { unfold getAngleOfPoint. cbv zeta. destruct (Rlt_dec _ 0); [exists 1%Z; cbn; ring|apply angle_eq_refl]. }
  rewrite (angle_eq_cos _ _ A), (angle_eq_sin _ _ A).
  pose proof (atan2_polar (py (psub p (c_center c))) (px (psub p (c_center c)))) as [P1 P2].
  rewrite <- len_hyp, <- dist_len in P1, P2. unfold pmul. cbn [px py]. apply pt_ext; cbn [px py]; lra.
Qed.
Lemma sector_angle c p : p <> c_center c -> in_sector c p <-> exists s, 0 <= s <= c_arc c /\ angle_eq (getAngleOfPoint c p) (sweep c s).
Proof.
  intros Hp. pose proof (dist_pos p (c_center c) Hp) as Hd. pose proof (gaop_polar c p) as G. split; intros (s & Hs & E); exists s; (split; [exact Hs|]).
  - rewrite E in G. unfold pmul in G. cbn [px py] in G. injection G as G1 G2.
    apply Rmult_eq_reg_r in G1; [|lra]. apply Rmult_eq_reg_r in G2; [|lra]. apply angle_eq_cs; symmetry; assumption.
  - rewrite G at 1. rewrite (angle_eq_cos _ _ E), (angle_eq_sin _ _ E). reflexivity.
Qed.
(** The interval test of isPointOnArc. *)
Definition arc_test (c : circle) (a : R) : bool :=
  if (c_dir c =? ARC_LEFT)%Z then
    let e := c_start c + c_arc c in
    if Rle_dec e (2 * PI) then Rleb (c_start c) a && Rleb a e
    else Rleb (c_start c) a || Rleb a (e - 2 * PI)
  else
    let e := c_start c - c_arc c in
    if Rle_dec 0 e then Rleb e a && Rleb a (c_start c)
    else Rleb (e + 2 * PI) a || Rleb a (c_start c).
Lemma arc_test_sound c a : normalised c -> 0 <= a < 2 * PI -> arc_test c a = true ->
  exists s, 0 <= s <= c_arc c /\ angle_eq a (sweep c s).
Proof.
  intros (Hd & Hs & Ha & _) Hr H. unfold arc_test in H. cbv zeta in H. unfold sweep.
  destruct (dir_cases c Hd) as [(El & _ & ->)|(El & _ & ->)]; rewrite El in H.
  - destruct (Rle_dec _ _) as [He|He].
    + apply andb_prop in H. rewrite !Rleb_spec in H. exists (a - c_start c). split; [lra|]. exists 0%Z. ring.
    + apply orb_prop in H. rewrite !Rleb_spec in H. destruct H as [H|H].
      * exists (a - c_start c). split; [lra|]. exists 0%Z. ring.
      * exists (a + 2 * PI - c_start c). split; [lra|]. exists (-1)%Z. ring.
  - destruct (Rle_dec _ _) as [He|He].
    + apply andb_prop in H. rewrite !Rleb_spec in H. exists (c_start c - a). split; [lra|]. exists 0%Z. ring.
    + apply orb_prop in H. rewrite !Rleb_spec in H. destruct H as [H|H].
      * exists (c_start c - a + 2 * PI). split; [lra|]. exists 1%Z. ring.
      * exists (c_start c - a). split; [lra|]. exists 0%Z. ring.
Qed.
(** The one direction the test gets wrong: angle 0, when it is the end (left arc) or
    the start (right arc) and is represented as 2 pi there. *)
Definition seam (c : circle) : Prop :=
  (c_dir c = 1%Z /\ c_start c + c_arc c = 2 * PI) \/ (c_dir c = (-1)%Z /\ c_start c = 2 * PI /\ 0 <= c_start c - c_arc c).
Lemma Zsmall (k : Z) (lo hi : Z) : IZR lo < IZR k < IZR hi -> (lo < k < hi)%Z.
Proof. intros [H1 H2]. split; apply lt_IZR; assumption. Qed.
Lemma arc_test_complete c a s : normalised c -> 0 <= a < 2 * PI -> 0 <= s <= c_arc c -> angle_eq a (sweep c s) ->
  arc_test c a = true \/ (a = 0 /\ seam c).
Proof.
  intros (Hd & Hs & Ha & _) Hr Hsr [k Hk]. pose proof PI_RGT_0 as HP. unfold arc_test, seam. cbv zeta. unfold sweep in Hk.
  assert (Hb : -3 < IZR k < 3).
  { destruct (dir_cases c Hd) as [(_ & _ & E)|(_ & _ & E)]; rewrite E in Hk; split; nra. }
  apply Zsmall in Hb. assert (Hc : (k = -2 \/ k = -1 \/ k = 0 \/ k = 1 \/ k = 2)%Z) by lia.
  destruct Hd as [Ed|Ed]; unfold dirR in Hk; rewrite Ed in *; cbn [Z.eqb ARC_LEFT Pos.eqb].
  - destruct (Rle_dec _ _) as [He|He].
    + rewrite andb_true_iff, !Rleb_spec. destruct Hc as [-> | [-> | [-> | [-> | ->]]]]; cbn in Hk; try lra.
      right. split; [lra|]. left. split; [reflexivity|lra].
    + left. rewrite orb_true_iff, !Rleb_spec. destruct Hc as [-> | [-> | [-> | [-> | ->]]]]; cbn in Hk; lra.
  - destruct (Rle_dec _ _) as [He|He].
    + rewrite andb_true_iff, !Rleb_spec. destruct Hc as [-> | [-> | [-> | [-> | ->]]]]; cbn in Hk; try lra.
      right. split; [lra|]. right. split; [reflexivity|lra].
    + left. rewrite orb_true_iff, !Rleb_spec. destruct Hc as [-> | [-> | [-> | [-> | ->]]]]; cbn in Hk; lra.
Qed.

Lemma isPointOnArc_test c p tol : isPointOnArc c p tol = true <-> Rabs (dist p (c_center c) - c_radius c) <= tol /\ arc_test c (getAngleOfPoint c p) = true.
Proof.
  unfold isPointOnArc. cbv zeta. rewrite <- dist_len, dist_sym. destruct (Rlt_dec _ _) as [H|H].
  - split; [discriminate|lra].
  - change (arc_test c (getAngleOfPoint c p) = true <-> Rabs (dist p (c_center c) - c_radius c) <= tol /\ arc_test c (getAngleOfPoint c p) = true).
    split; [intros; split; [lra|assumption]|tauto].
Qed.
Theorem C44_isPointOnArc_sound : forall c p tol, normalised c -> p <> c_center c -> isPointOnArc c p tol = true ->
  in_sector c p /\ exists q, on_arc c q /\ dist p q <= tol.
Proof.
  intros c p tol Hn Hp H. apply isPointOnArc_test in H. destruct H as [H1 H2].
  apply arc_test_sound in H2; [|assumption|apply gaop_range]. split; [apply sector_angle; assumption|].
  destruct H2 as (s & Hs & E). exists (circ_pt c (sweep c s)). split; [exists s; auto|].
  assert (D : dist p (circ_pt c (sweep c s)) = Rabs (dist p (c_center c) - c_radius c)).
  { rewrite <- (circ_pt_angle c _ _ E), dist_hyp. apply hyp_unique; [apply Rabs_pos|].
    pose proof (gaop_polar c p) as G. unfold pmul, psub in G. cbn [px py] in G. injection G as G1 G2. unfold circ_pt. cbn [px py].
    set (a := getAngleOfPoint c p) in *. set (rho := dist p (c_center c)) in *.
    replace (px p) with (px (c_center c) + rho * cos a) by lra. replace (py p) with (py (c_center c) + rho * sin a) by lra.
    pose proof (Rsqr_abs (rho - c_radius c)) as Q. unfold Rsqr in Q. rewrite <- Q. pose proof (cs1 a) as C.
    replace ((px (c_center c) + rho * cos a - (px (c_center c) + c_radius c * cos a)) * (px (c_center c) + rho * cos a - (px (c_center c) + c_radius c * cos a)) +
      (py (c_center c) + rho * sin a - (py (c_center c) + c_radius c * sin a)) * (py (c_center c) + rho * sin a - (py (c_center c) + c_radius c * sin a)))
      with ((rho - c_radius c) * (rho - c_radius c) * (cos a * cos a + sin a * sin a)) by ring. rewrite C. ring. }
  rewrite D. assumption.
Qed.
(** Every swept direction within the tolerance is accepted, except angle 0 on the seam. *)
Theorem C44_isPointOnArc_off_seam : forall c p tol, normalised c -> p <> c_center c -> in_sector c p ->
  Rabs (dist p (c_center c) - c_radius c) <= tol -> (getAngleOfPoint c p <> 0 \/ ~ seam c) ->
  isPointOnArc c p tol = true.
Proof.
  intros c p tol Hn Hp Hs Hd Hx. apply isPointOnArc_test. split; [assumption|].
  apply sector_angle in Hs; [|assumption]. destruct Hs as (s & Hs & E).
  destruct (arc_test_complete c _ s Hn (gaop_range c p) Hs E) as [|[E0 Sm]]; [assumption|]. tauto.
Qed.
(** Missing: the seam. The end point of the upper-to-lower left half circle is not
    "on the arc", nor is the start point of any right arc fresh from the constructor
    that is shortened to less than a full turn. *)
Lemma angle_at c (r : R) : c_center c = Pt 0 0 -> 0 < r -> getAngleOfPoint c (Pt r 0) = 0.
Proof.
  intros Hc Hr. unfold getAngleOfPoint. rewrite Hc. unfold psub. cbn [px py]. cbv zeta. rewrite !Rminus_0_r.
  assert (atan2 0 r = 0) as ->.
  { unfold atan2. destruct (Rlt_dec 0 r); [|lra]. replace (0 / r) with 0 by (field; lra). apply atan_0. }
  destruct (Rlt_dec 0 0); lra.
Qed.
Theorem C44_isPointOnArc_refuted :
  (exists c p, normalised c /\ endPoint c = Some p /\ on_arc c p /\ isPointOnArc c p DIST_EPS = false) /\
  (exists c c' , mk_circle (Pt 0 0) 1 (-1) = Some c /\ setArcAngle c PI = Some c' /\ isPointOnArc c' (startPoint c') DIST_EPS = false).
Proof.
  pose proof PI_RGT_0 as HP. split.
  - set (c := Circ (Pt 0 0) 1 1 PI PI). assert (N : normalised c) by (unfold normalised, dir_ok, c; cbn; repeat split; auto; lra).
    destruct (C44_end c (proj1 N)) as (e & _ & _ & _ & E & _).
    assert (P : circ_pt c (sweep c (c_arc c)) = Pt 1 0).
    { unfold circ_pt, sweep, dirR, c. cbn [c_center c_radius c_start c_dir c_arc px py]. replace (PI + 1 * PI) with (2 * PI) by ring. rewrite cos_2PI, sin_2PI. apply pt_ext; cbn; ring. }
    exists c, (Pt 1 0). split; [exact N|]. split; [rewrite E, P; reflexivity|]. split; [exists PI; split; [cbn; lra|symmetry; exact P]|].
    apply not_true_is_false. intros H. apply isPointOnArc_test in H. destruct H as [_ H]. rewrite (angle_at c 1) in H by (reflexivity || lra).
    unfold arc_test, c in H. cbn [c_dir c_start c_arc Z.eqb ARC_LEFT Pos.eqb] in H. cbv zeta in H.
    destruct (Rle_dec (PI + PI) (2 * PI)); [|lra]. apply andb_prop in H. rewrite !Rleb_spec in H. lra.
  - destruct (C44_constructor (Pt 0 0) 1 (-1)) as [_ K]. destruct K as (c & E & _); [lia|]. 
    destruct (C44_setArcAngle c PI) as (c' & E' & _ & _ & A & C1 & C2 & C3 & C4). exists c, c'. split; [exact E|]. split; [exact E'|].
    unfold mk_circle in E. cbn in E. injection E as <-. cbn in C1, C2, C3, C4. rewrite Rabs_R1 in C2.
    assert (S : startPoint c' = Pt 1 0).
    { unfold startPoint. rewrite <- circ_pt_eq. unfold circ_pt. rewrite C1, C2, C4, cos_2PI, sin_2PI. apply pt_ext; cbn; ring. }
    rewrite S. apply not_true_is_false. intros H. apply isPointOnArc_test in H. destruct H as [_ H]. rewrite (angle_at c' 1) in H by (assumption || lra).
    unfold arc_test in H. rewrite C3, C4 in H. rewrite A in H by lra. cbn [Z.eqb ARC_LEFT Pos.eqb] in H. cbv zeta in H.
    destruct (Rle_dec 0 (2 * PI - PI)); [|lra]. apply andb_prop in H. rewrite !Rleb_spec in H. lra.
Qed.

(** ** Nearest point *)
Lemma dist_circ c p phi : 
  dist p (circ_pt c phi) * dist p (circ_pt c phi) =
  dist p (c_center c) * dist p (c_center c) + c_radius c * c_radius c - 2 * dist p (c_center c) * c_radius c * cos (phi - getAngleOfPoint c p).
Proof.
  rewrite dist_sq. pose proof (gaop_polar c p) as G. unfold pmul, psub in G. cbn [px py] in G. injection G as G1 G2.
  set (a := getAngleOfPoint c p) in *. set (rho := dist p (c_center c)) in *. unfold circ_pt. cbn [px py]. rewrite cos_minus.
  replace (px p) with (px (c_center c) + rho * cos a) by lra. replace (py p) with (py (c_center c) + rho * sin a) by lra.
  pose proof (cs1 a) as C1. pose proof (cs1 phi) as C2. set (r := c_radius c).
  replace (rho * rho) with (rho * rho * (cos a * cos a + sin a * sin a)) by (rewrite C1; ring).
  replace (r * r) with (r * r * (cos phi * cos phi + sin phi * sin phi)) by (rewrite C2; ring). ring.
Qed.
Lemma dist_circ_mono c p a b : 0 <= c_radius c -> cos (b - getAngleOfPoint c p) <= cos (a - getAngleOfPoint c p) ->
  dist p (circ_pt c a) <= dist p (circ_pt c b).
Proof.
  intros Hr H. apply dist_le_sq. rewrite !dist_circ. pose proof (dist_nonneg p (c_center c)).
  assert (0 <= dist p (c_center c) * c_radius c) by (apply Rmult_le_pos; assumption). nra.
Qed.
Lemma cos_interval x y z : 0 <= x -> x <= y -> y <= z -> z <= 2 * PI -> cos y <= cos x \/ cos y <= cos z.
Proof.
  intros H0 H1 H2 H3. pose proof PI_RGT_0. destruct (Rle_or_lt y PI).
  - left. apply cos_decr_1; lra.
  - right. apply cos_incr_1; lra.
Qed.
Lemma angle_rep a : exists d, 0 <= d < 2 * PI /\ angle_eq a d.
Proof.
  pose proof PI_RGT_0 as HP. set (t := a / (2 * PI)). set (k := Zfloor t).
  assert (Hk : IZR k <= t < IZR k + 1) by (split; [apply Zfloor_lb|apply Zfloor_ub]).
  exists (a - 2 * IZR k * PI). split; [|exists k; ring]. replace a with (t * (2 * PI)) by (unfold t; field; lra). nra.
Qed.
(** If the direction of [p] is not swept, an end point of the arc is nearest. *)
Lemma ends_nearest c p s : normalised c -> 
  (forall u, 0 <= u <= c_arc c -> ~ angle_eq (getAngleOfPoint c p) (sweep c u)) -> 0 <= s <= c_arc c ->
  dist p (circ_pt c (sweep c 0)) <= dist p (circ_pt c (sweep c s)) \/
  dist p (circ_pt c (sweep c (c_arc c))) <= dist p (circ_pt c (sweep c s)).
Proof.
  intros (Hd & _ & _ & Hr) Hn Hs. pose proof PI_RGT_0 as HP. set (g := getAngleOfPoint c p) in *.
  destruct (angle_rep (dirR c * (c_start c - g))) as (d & Hdr & k & Hk).
  assert (K : forall u, exists j : Z, dirR c * (sweep c u - g) = d + u + 2 * IZR j * PI).
  { intros u. exists k. unfold sweep. destruct (dir_cases c Hd) as [(_ & _ & E)|(_ & _ & E)]; rewrite E in *; lra. }
  assert (C : forall u, cos (sweep c u - g) = cos (d + u)).
  { intros u. destruct (K u) as [j Hj]. rewrite <- (cos_period_Z (d + u) j), <- Hj.
    destruct (dir_cases c Hd) as [(_ & _ & E)|(_ & _ & E)]; rewrite E; [f_equal; ring|]. rewrite <- cos_neg. f_equal. ring. }
  assert (Hend : d + c_arc c < 2 * PI).
  { apply Rnot_le_lt. intros Hc. apply (Hn (2 * PI - d)); [lra|]. destruct (K (2 * PI - d)) as [j Hj].
    destruct (dir_cases c Hd) as [(_ & _ & E)|(_ & _ & E)]; rewrite E in Hj.
    - exists (- (j + 1))%Z. rewrite opp_IZR, plus_IZR. lra.
    - exists (j + 1)%Z. rewrite plus_IZR. lra. }
  destruct (cos_interval (d + 0) (d + s) (d + c_arc c)) as [H|H]; [lra|lra|lra|lra| |].
  - left. apply dist_circ_mono; [assumption|]. fold g. rewrite !C. assumption.
  - right. apply dist_circ_mono; [assumption|]. fold g. rewrite !C. assumption.
Qed.

Lemma projection_pt c p : p <> c_center c ->
  padd (c_center c) (pmul (normalized (psub p (c_center c))) (c_radius c)) = circ_pt c (getAngleOfPoint c p).
Proof.
  intros Hp. pose proof (dist_pos _ _ Hp) as Hd. pose proof (gaop_polar c p) as G. unfold normalized. rewrite <- dist_len.
  rewrite G. unfold padd, pmul, pdiv, circ_pt. cbn [px py]. apply pt_ext; cbn [px py]; field; lra.
Qed.
Lemma gaop_circ c phi : 0 < c_radius c -> angle_eq (getAngleOfPoint c (circ_pt c phi)) phi.
Proof.
  intros Hr. pose proof (gaop_polar c (circ_pt c phi)) as G.
  assert (D : dist (circ_pt c phi) (c_center c) = c_radius c).
  { rewrite dist_hyp. apply hyp_unique; [lra|]. unfold circ_pt. cbn [px py]. pose proof (cs1 phi). 
    replace (px (c_center c) + c_radius c * cos phi - px (c_center c)) with (c_radius c * cos phi) by ring.
    replace (py (c_center c) + c_radius c * sin phi - py (c_center c)) with (c_radius c * sin phi) by ring.
    replace (c_radius c * c_radius c) with (c_radius c * c_radius c * (cos phi * cos phi + sin phi * sin phi)) by (rewrite H; ring). ring. }
  rewrite D in G. set (a' := getAngleOfPoint c (circ_pt c phi)) in *. unfold psub, pmul, circ_pt in G. cbn [px py] in G. injection G as G1 G2.
  apply angle_eq_cs.
  - apply (Rmult_eq_reg_l (c_radius c)); [|lra]. lra.
  - apply (Rmult_eq_reg_l (c_radius c)); [|lra]. lra.
Qed.

(** The point returned is on the arc and no point of the arc is nearer; distanceTo
    is the distance to it. *)
Theorem C44_nearest : forall c p, normalised c -> 0 < c_radius c -> DIST_EPS < dist p (c_center c) ->
  exists q, c_nearestPointTo c p = Some q /\ on_arc c q /\ (forall q', on_arc c q' -> dist p q <= dist p q') /\
    c_distanceTo c p = Some (dist p q).
Proof.
  intros c p Hn Hr Hp. pose proof Hn as (Hd & Hs & Ha & _). pose proof PI_RGT_0 as HP.
  assert (HE : 0 < DIST_EPS) by (unfold DIST_EPS; lra).
  assert (Hpc : p <> c_center c) by (intros ->; rewrite dist_hyp, (proj2 (hyp_0 _ _)) in Hp by (split; ring); lra).
  set (g := getAngleOfPoint c p).
  assert (Best : forall phi, dist p (circ_pt c g) <= dist p (circ_pt c phi)).
  { intros phi. apply dist_circ_mono; [lra|]. fold g. rewrite Rminus_eq_0, cos_0. apply COS_bound. }
  assert (Gr : getAngleOfPoint c (circ_pt c g) = g).
  { apply angle_eq_unique; [apply gaop_circ; assumption|]. pose proof (gaop_range c (circ_pt c g)). pose proof (gaop_range c p). unfold g in *. lra. }
  assert (Dg : dist (circ_pt c g) (c_center c) = c_radius c).
  { rewrite dist_hyp. apply hyp_unique; [lra|]. unfold circ_pt. cbn [px py]. pose proof (cs1 g).
    replace (px (c_center c) + c_radius c * cos g - px (c_center c)) with (c_radius c * cos g) by ring.
    replace (py (c_center c) + c_radius c * sin g - py (c_center c)) with (c_radius c * sin g) by ring.
    replace (c_radius c * c_radius c) with (c_radius c * c_radius c * (cos g * cos g + sin g * sin g)) by (rewrite H; ring). ring. }
  unfold c_nearestPointTo, c_distanceTo, arc_projection. cbv zeta. rewrite <- dist_len. destruct (Rlt_dec DIST_EPS _); [|lra].
  rewrite projection_pt by assumption. fold g. destruct (isPointOnArc c (circ_pt c g) DIST_EPS) eqn:E.
  - exists (circ_pt c g). split; [reflexivity|]. apply isPointOnArc_test in E. destruct E as [_ E]. rewrite Gr in E.
    apply arc_test_sound in E; [|assumption|apply gaop_range]. destruct E as (s & Hsr & E). split; [exists s; split; [assumption|apply circ_pt_angle; assumption]|].
    split; [intros q' (u & _ & ->); apply Best|]. f_equal.
    symmetry. rewrite dist_hyp. apply hyp_unique; [apply Rabs_pos|]. pose proof (dist_circ c p g) as Q. fold g in Q. rewrite Rminus_eq_0, cos_0 in Q.
    rewrite dist_sq in Q. rewrite Q. pose proof (Rsqr_abs (dist p (c_center c) - c_radius c)) as Q'. unfold Rsqr in Q'. rewrite <- Q'. ring.
  - destruct (C44_end c Hd) as (e & _ & _ & _ & Ee & Es). rewrite Ee, Es. cbn [obind].
    set (ps := circ_pt c (sweep c 0)) in *. set (pe := circ_pt c (sweep c (c_arc c))) in *. rewrite <- !dist_len.
    assert (Os : on_arc c ps) by (exists 0; split; [lra|reflexivity]).
    assert (Oe : on_arc c pe) by (exists (c_arc c); split; [lra|reflexivity]).
    assert (M : forall q', on_arc c q' -> dist p ps <= dist p q' \/ dist p pe <= dist p q').
    { intros q' (s & Hsr & ->).
      destruct (arc_test c g) eqn:Et.
      { exfalso. assert (isPointOnArc c (circ_pt c g) DIST_EPS = true); [|congruence]. apply isPointOnArc_test. rewrite Gr, Dg. split; [|assumption].
        rewrite Rminus_eq_0, Rabs_R0. lra. }
      assert (Dc : (exists u, 0 <= u <= c_arc c /\ angle_eq g (sweep c u)) \/ ~ (exists u, 0 <= u <= c_arc c /\ angle_eq g (sweep c u))).
      { destruct (Rle_dec 0 0) as [_|]; [|lra].
        destruct (angle_rep (dirR c * (g - c_start c))) as (d & Hdr & k & Hk).
        destruct (Rle_or_lt d (c_arc c)) as [Hle|Hlt].
        - left. exists d. split; [lra|]. unfold sweep. destruct (dir_cases c Hd) as [(_ & _ & X)|(_ & _ & X)]; rewrite X in *.
          + exists k. lra.
          + exists (- k)%Z. rewrite opp_IZR. lra.
        - right. intros (u & Hu & [j Hj]). unfold sweep in Hj.
          assert (angle_eq d u).
          { destruct (dir_cases c Hd) as [(_ & _ & X)|(_ & _ & X)]; rewrite X in *.
            - exists (j - k)%Z. rewrite minus_IZR. lra.
            - exists (- j - k)%Z. rewrite minus_IZR, opp_IZR. lra. }
          apply angle_eq_unique in H; lra. }
      destruct Dc as [(u & Hu & Eu)|Hno].
      - destruct (arc_test_complete c g u Hn (gaop_range c p) Hu Eu) as [X|[G0 Sm]]; [congruence|].
        destruct Sm as [[Sd Se]|[Sd [Se _]]].
        + right. assert (pe = circ_pt c g) as ->; [|apply Best]. apply circ_pt_angle. rewrite G0. unfold sweep, dirR. rewrite Sd. exists 1%Z. cbn. lra.
        + left. assert (ps = circ_pt c g) as ->; [|apply Best]. apply circ_pt_angle. rewrite G0. unfold sweep, dirR. rewrite Sd. exists 1%Z. cbn. lra.
      - apply ends_nearest; [assumption| |assumption]. intros v Hv Ev. apply Hno. exists v. split; assumption. }
    destruct (Rltb (dist p ps) (dist p pe)) eqn:Ed.
    + apply Rltb_spec in Ed. exists ps. split; [reflexivity|]. split; [assumption|]. split; [|f_equal; apply Rmin_left; lra].
      intros q' Hq. destruct (M q' Hq); lra.
    + apply Rltb_false in Ed. exists pe. split; [reflexivity|]. split; [assumption|]. split; [|f_equal; apply Rmin_right; lra].
      intros q' Hq. destruct (M q' Hq); lra.
Qed.

(** Non-vacuity: a quarter arc to the left from the origin heading +x. *)
Example C44_example : exists c, createArcFrom (PP (Pt 0 0) 0) 2 (PI / 2) 1 = Some c /\ startPoint c = Pt 0 0 /\ endPoint c = Some (Pt 2 2).
Proof.
  destruct (C44_createArcFrom (PP (Pt 0 0) 0) 2 (PI / 2) 1) as (c & E & R0 & A & D & S & H); [lra|auto|].
  exists c. split; [exact E|]. split; [exact S|]. cbn [pp_pos pp_th] in *.
  destruct (C44_end c) as (e & _ & _ & _ & Ee & Es); [left; assumption|]. rewrite Ee. f_equal.
  assert (Sw : angle_eq (sweep c (c_arc c)) 0) by (unfold sweep; rewrite A; assumption).
  rewrite (circ_pt_angle c _ _ Sw). unfold circ_pt. rewrite R0, cos_0, sin_0.
  assert (S0 : angle_eq (sweep c 0) (- (PI / 2))).
  { unfold sweep, dirR in *. rewrite D in *. destruct H as [k H]. exists k. lra. }
  rewrite Es, (circ_pt_angle c _ _ S0) in S. unfold circ_pt in S. rewrite R0, cos_neg, sin_neg, cos_PI2, sin_PI2 in S. injection S as S1 S2.
  apply pt_ext; cbn; lra.
Qed.

Print Assumptions C44_nearest.
Print Assumptions C44_toPoses.
