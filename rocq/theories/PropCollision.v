(** C53: orientation-dependent collision queries. *)
From Coq Require Import Reals Lra.
From Flocq Require Import Core.Raux BinarySingleNaN.
From Verif Require Import Base GridMap GridMapProofs Areas AreasProofs GeomR PropGeom GenericFloat CollisionMap.
Local Open Scope R_scope.

(** ** Specification *)
(** The rectangle of the robot: [backward..forward] x [-width/2..width/2], turned by
    theta about the reference point. *)
Definition in_footprint (forward backward width theta : R) (p : pt) : Prop :=
  exists a b, backward <= a <= forward /\ - (width / 2) <= b <= width / 2 /\ p = rotate (Pt a b) theta.
(** The cell whose coordinates are the truncated coordinates of the point. *)
Definition trunc_cell (p : pt) : Z * Z := (Ztrunc (px p), Ztrunc (py p)).

(** ** The sample points *)
Lemma col_loop_in n : forall i inc l r p, In p (col_loop n i inc l r) <->
  exists k, (k < n)%nat /\ p = padd l (pmul (psub r l) (i + INR k * inc)).
Proof.
  induction n as [|n IH]; intros i inc l r p; cbn [col_loop].
  - split; [intros []|intros (k & H & _); lia].
  - cbn [In]. rewrite IH. split.
    + intros [<-|(k & Hk & ->)].
      * exists 0%nat. split; [lia|]. do 2 f_equal. cbn. ring.
      * exists (S k). split; [lia|]. do 2 f_equal. rewrite S_INR. ring.
    + intros ([|k] & Hk & ->).
      * left. do 2 f_equal. cbn. ring.
      * right. exists k. split; [lia|]. do 2 f_equal. rewrite S_INR. ring.
Qed.
Lemma row_loop_in n : forall i inc nc ic bl fl fr br p, In p (row_loop n i inc nc ic bl fl fr br) <->
  exists r c, (r < n)%nat /\ (c < nc)%nat /\
    let left := padd bl (pmul (psub fl bl) (i + INR r * inc)) in
    let right := padd fr (pmul (psub br fr) (i + INR r * inc)) in
    p = padd left (pmul (psub right left) (INR c * ic)).
Proof.
  induction n as [|n IH]; intros i inc nc ic bl fl fr br p; cbn [row_loop].
  - split; [intros []|intros (r & c & H & _); lia].
  - cbv zeta. rewrite in_app_iff, IH, col_loop_in. split.
    + intros [(c & Hc & ->)|(r & c & Hr & Hc & ->)].
      * exists 0%nat, c. split; [lia|]. split; [assumption|]. cbv zeta. cbn [INR]. rewrite Rmult_0_l, Rplus_0_r, !Rplus_0_l. reflexivity.
      * exists (S r), c. split; [lia|]. split; [assumption|]. cbv zeta. rewrite S_INR.
        replace (i + (INR r + 1) * inc) with (i + inc + INR r * inc) by ring. reflexivity.
    + intros ([|r] & c & Hr & Hc & ->).
      * left. exists c. split; [assumption|]. cbv zeta. cbn [INR]. rewrite Rmult_0_l, Rplus_0_r, !Rplus_0_l. reflexivity.
      * right. exists r, c. split; [lia|]. split; [assumption|]. cbv zeta. rewrite S_INR.
        replace (i + (INR r + 1) * inc) with (i + inc + INR r * inc) by ring. reflexivity.
Qed.

Definition ncols (forward backward width : R) : Z := Zceil ((forward - backward) / (width / 8)).

Lemma ncols_pos forward backward width : 0 < width -> backward < forward -> (1 <= ncols forward backward width)%Z.
Proof.
  intros Hw Hl. unfold ncols. assert (0 < (forward - backward) / (width / 8)).
  { apply Rdiv_lt_0_compat; lra. }
  assert (0 < Zceil ((forward - backward) / (width / 8)))%Z; [|lia]. apply lt_IZR. eapply Rlt_le_trans; [exact H|]. apply Zceil_ub.
Qed.

Lemma samples_in forward backward width theta p : 0 < width -> backward < forward ->
  In p (samples forward backward width theta) <->
  exists r c, (r <= 8)%nat /\ (c <= Z.to_nat (ncols forward backward width))%nat /\
    let i := INR r / 8 in let j := INR c / IZR (ncols forward backward width) in
    p = rotate (Pt ((forward + backward) / 2 + (forward - backward) * (i - / 2) * (1 - 2 * j)) (width / 2 * (1 - 2 * j))) theta.
Proof.
  intros Hw Hl. unfold samples. cbv zeta. fold (ncols forward backward width).
  assert (E8 : Zceil (width / (width / 8)) = 8%Z).
  { replace (width / (width / 8)) with (IZR 8) by (cbn; field; lra). apply Zceil_IZR. }
  rewrite E8. pose proof (ncols_pos forward backward width Hw Hl) as Hn. set (nc := ncols forward backward width) in *.
  assert (Hnc : 1 <= IZR nc) by (apply IZR_le; assumption).
  rewrite row_loop_in. split.
  - intros (r & c & Hr & Hc & ->). exists r, c. split; [lia|]. split; [lia|]. cbv zeta.
    unfold padd, pmul, psub, rotate. cbn [px py]. apply pt_ext; cbn [px py]; field; lra.
  - intros (r & c & Hr & Hc & ->). exists r, c. split; [lia|]. split; [lia|]. cbv zeta.
    unfold padd, pmul, psub, rotate. cbn [px py]. apply pt_ext; cbn [px py]; field; lra.
Qed.

Lemma frac_range c (n : Z) : (1 <= n)%Z -> (c <= Z.to_nat n)%nat -> 0 <= INR c / IZR n <= 1.
Proof.
  intros Hn Hc. assert (1 <= IZR n) by (apply IZR_le; assumption). pose proof (pos_INR c).
  assert (INR c <= IZR n) by (rewrite INR_IZR_INZ; apply IZR_le; lia).
  split; [apply Rmult_le_pos; [assumption|left; apply Rinv_0_lt_compat; lra]|].
  apply (Rmult_le_reg_r (IZR n)); [lra|]. unfold Rdiv. rewrite Rmult_assoc, Rinv_l by lra. lra.
Qed.

(** Every sample lies in the footprint; and, more, in its two triangles left and
    right of the centre: [|a - mid| * width <= length * |b|]. *)
Lemma samples_shape forward backward width theta p : 0 < width -> backward < forward ->
  In p (samples forward backward width theta) ->
  exists a b, backward <= a <= forward /\ - (width / 2) <= b <= width / 2 /\ p = rotate (Pt a b) theta /\
    Rabs (a - (forward + backward) / 2) * width <= (forward - backward) * Rabs b.
Proof.
  intros Hw Hl H. apply samples_in in H; [|assumption|assumption]. destruct H as (r & c & Hr & Hc & ->).
  pose proof (ncols_pos forward backward width Hw Hl) as Hn.
  pose proof (frac_range c _ Hn Hc) as Hj. set (j := INR c / IZR (ncols forward backward width)) in *.
  assert (Hi : 0 <= INR r / 8 <= 1) by (apply (frac_range r 8); [lia|exact Hr]). set (i := INR r / 8) in *.
  cbv zeta. eexists _, _. split; [|split; [|split; [reflexivity|]]].
  - assert (- / 2 <= (i - / 2) * (1 - 2 * j) <= / 2) by (split; nra).
    replace ((forward - backward) * (i - / 2) * (1 - 2 * j)) with ((forward - backward) * ((i - / 2) * (1 - 2 * j))) by ring. nra.
  - nra.
  - replace ((forward + backward) / 2 + (forward - backward) * (i - / 2) * (1 - 2 * j) - (forward + backward) / 2)
      with ((forward - backward) * (i - / 2) * (1 - 2 * j)) by ring.
    rewrite !Rabs_mult, (Rabs_pos_eq (forward - backward)), (Rabs_pos_eq (width / 2)) by lra.
    assert (Rabs (i - / 2) <= / 2) by (apply Rabs_le; lra). pose proof (Rabs_pos (1 - 2 * j)).
    replace ((forward - backward) * Rabs (i - / 2) * Rabs (1 - 2 * j) * width)
      with ((forward - backward) * (width * Rabs (1 - 2 * j)) * Rabs (i - / 2)) by ring.
    replace ((forward - backward) * (width / 2 * Rabs (1 - 2 * j)))
      with ((forward - backward) * (width * Rabs (1 - 2 * j)) * / 2) by field.
    apply Rmult_le_compat_l; [|assumption]. apply Rmult_le_pos; [lra|]. apply Rmult_le_pos; lra.
Qed.

Theorem C53_samples_inside : forall forward backward width theta p, 0 < width -> backward < forward ->
  In p (samples forward backward width theta) -> in_footprint forward backward width theta p.
Proof.
  intros f b w t p Hw Hl H. destruct (samples_shape f b w t p Hw Hl H) as (a & c & H1 & H2 & H3 & _).
  exists a, c. tauto.
Qed.

(** The four corners of the footprint are tested. *)
Theorem C53_corners : forall forward backward width theta a b, 0 < width -> backward < forward ->
  (a = forward \/ a = backward) -> (b = width / 2 \/ b = - (width / 2)) ->
  In (rotate (Pt a b) theta) (samples forward backward width theta).
Proof.
  intros f b w t x y Hw Hl Hx Hy. apply samples_in; [assumption|assumption|].
  pose proof (ncols_pos f b w Hw Hl) as Hn. assert (Hnc : 1 <= IZR (ncols f b w)) by (apply IZR_le; assumption).
  assert (E1 : INR (Z.to_nat (ncols f b w)) / IZR (ncols f b w) = 1).
  { rewrite INR_IZR_INZ, Z2Nat.id by lia. field. lra. }
  destruct Hy as [-> | ->].
  - (* left side: j = 0 *) destruct Hx as [-> | ->].
    + exists 8%nat, 0%nat. split; [lia|]. split; [lia|]. cbv zeta. f_equal. apply pt_ext; cbn [px py INR]; field; lra.
    + exists 0%nat, 0%nat. split; [lia|]. split; [lia|]. cbv zeta. f_equal. apply pt_ext; cbn [px py INR]; field; lra.
  - destruct Hx as [-> | ->].
    + exists 0%nat, (Z.to_nat (ncols f b w)). split; [lia|]. split; [lia|]. cbv zeta. rewrite E1. f_equal. apply pt_ext; cbn [px py INR]; field.
    + exists 8%nat, (Z.to_nat (ncols f b w)). split; [lia|]. split; [lia|]. cbv zeta. rewrite E1. f_equal. apply pt_ext; cbn [px py INR]; field.
Qed.

Lemma omap_in {A B} (f : A -> option B) l : forall bs, omap f l = Some bs ->
  forall b, In b bs <-> exists a, In a l /\ f a = Some b.
Proof.
  induction l as [|a r IH]; intros bs H b; cbn [omap] in H.
  - injection H as <-. split; [intros []|intros (a & [] & _)].
  - destruct (f a) as [x|] eqn:E; [|discriminate]. cbn [obind] in H. destruct (omap f r) as [xs|]; [|discriminate].
    cbn [obind] in H. injection H as <-. cbn [In]. rewrite (IH xs eq_refl). split.
    + intros [<-|(a' & H1 & H2)]; [exists a; auto|exists a'; auto].
    + intros (a' & [Ea|H1] & H2); [left; subst a'; congruence|right; exists a'; auto].
Qed.
Lemma omap_some {A B} (f : A -> option B) l : (forall a, In a l -> exists b, f a = Some b) -> exists bs, omap f l = Some bs.
Proof.
  induction l as [|a r IH]; intros H; cbn [omap]; [eauto|].
  destruct (H a (or_introl eq_refl)) as [b ->]. destruct IH as [bs ->]; [intros; apply H; right; assumption|]. cbn. eauto.
Qed.
Lemma cell_of_pt_trunc p c : cell_of_pt p = Some c -> c = trunc_cell p.
Proof.
  unfold cell_of_pt. destruct (cast_i32 (px p)) eqn:E1; [|discriminate]. destruct (cast_i32 (py p)) eqn:E2; [|discriminate].
  cbn. intros H. injection H as <-. apply cast_i32_trunc in E1. apply cast_i32_trunc in E2. unfold trunc_cell. f_equal; tauto.
Qed.

(** The table exists (no undefined conversion) for robots up to 10^9 cells. *)
Lemma footprint_defined forward backward width theta : 0 < width <= 1000000000 ->
  - 1000000000 <= backward -> backward < forward -> forward <= 1000000000 ->
  exists cs, footprint_cells forward backward width theta = Some cs.
Proof.
  intros Hw Hb Hl Hf. apply omap_some. intros p Hp.
  destruct (samples_shape _ _ _ _ _ (proj1 Hw) Hl Hp) as (a & b & Ha & Hb' & -> & _).
  unfold cell_of_pt, rotate. cbn [px py].
  pose proof (COS_bound theta) as HC. pose proof (SIN_bound theta) as HS.
  set (C := cos theta) in *. set (S := sin theta) in *.
  assert (T : forall u v, -1 <= u <= 1 -> -1000000000 <= v <= 1000000000 -> -1000000000 <= u * v <= 1000000000) by (intros; nra).
  pose proof (T C a ltac:(lra) ltac:(lra)). pose proof (T S a ltac:(lra) ltac:(lra)).
  pose proof (T C b ltac:(lra) ltac:(lra)). pose proof (T S b ltac:(lra) ltac:(lra)).
  destruct (cast_i32_small (C * a - S * b)) as [x ->]; [lra|]. destruct (cast_i32_small (S * a + C * b)) as [y ->]; [lra|].
  cbn. eauto.
Qed.

(** ** Normalisation of the angle and choice of the table *)
Lemma wrap_up_spec n : forall t fuel, - INR n * (2 * PI) <= t -> (n < fuel)%nat ->
  exists t', wrap_up fuel t = Some t' /\ 0 <= t' /\ (t < 0 -> t' < 2 * PI) /\ (0 <= t -> t' = t) /\ angle_eq t' t.
Proof.
  pose proof PI_RGT_0 as HP. induction n as [|n IH]; intros t fuel Ht Hf; (destruct fuel as [|fuel]; [lia|]); cbn [wrap_up].
  - cbn [INR] in Ht. destruct (Rlt_dec t 0); [lra|]. exists t. repeat split; try lra. apply angle_eq_refl.
  - destruct (Rlt_dec t 0) as [Hn|Hn].
    + destruct (IH (t + 2 * PI) fuel) as (t' & E & H1 & H2 & H3 & H4); [rewrite S_INR in Ht; lra|lia|].
      exists t'. split; [assumption|]. split; [assumption|]. split; [|split; [lra|]].
      * intros _. destruct (Rlt_or_le (t + 2 * PI) 0) as [Hc|Hc]; [auto|rewrite H3 by assumption; lra].
      * eapply angle_eq_trans; [exact H4|]. exists 1%Z. ring.
    + exists t. repeat split; try lra. apply angle_eq_refl.
Qed.
Lemma wrap_down_spec n : forall t fuel, 0 <= t < (INR n + 1) * (2 * PI) -> (n < fuel)%nat ->
  exists t', wrap_down fuel t = Some t' /\ 0 <= t' < 2 * PI /\ (t < 2 * PI -> t' = t) /\ angle_eq t' t.
Proof.
  pose proof PI_RGT_0 as HP. induction n as [|n IH]; intros t fuel Ht Hf; (destruct fuel as [|fuel]; [lia|]); cbn [wrap_down].
  - cbn [INR] in Ht. destruct (Rle_dec (2 * PI) t); [lra|]. exists t. repeat split; try lra. apply angle_eq_refl.
  - destruct (Rle_dec (2 * PI) t) as [Hn|Hn].
    + destruct (IH (t - 2 * PI) fuel) as (t' & E & H1 & H2 & H3); [rewrite S_INR in Ht; lra|lia|].
      exists t'. split; [assumption|]. split; [assumption|]. split; [lra|].
      eapply angle_eq_trans; [exact H3|]. exists (-1)%Z. ring.
    + exists t. repeat split; try lra. apply angle_eq_refl.
Qed.

(** The loops terminate (exact arithmetic) with the equivalent angle in [0,2 PI). *)
Theorem C53_wrap : forall theta, exists n t, 0 <= t < 2 * PI /\ angle_eq t theta /\
  forall fuel, (n <= fuel)%nat -> wrap fuel theta = Some t.
Proof.
  intros theta. pose proof PI_RGT_0 as HP.
  set (k := Z.to_nat (up (Rabs theta / (2 * PI)))).
  assert (Hk : Rabs theta < INR k * (2 * PI)).
  { destruct (archimed (Rabs theta / (2 * PI))) as [H _].
    assert (0 <= Rabs theta / (2 * PI)) by (apply Rmult_le_pos; [apply Rabs_pos|left; apply Rinv_0_lt_compat; lra]).
    assert (0 < up (Rabs theta / (2 * PI)))%Z by (apply lt_IZR; lra).
    unfold k. rewrite INR_IZR_INZ, Z2Nat.id by lia.
    replace (Rabs theta) with (Rabs theta / (2 * PI) * (2 * PI)) at 1 by (field; lra). apply Rmult_lt_compat_r; lra. }
  apply Rabs_def2 in Hk.
  destruct (wrap_up_spec k theta (S k)) as (t1 & E1 & H1 & H2 & H3 & H4); [lra|lia|].
  assert (Ht1 : 0 <= t1 < (INR k + 1) * (2 * PI)).
  { pose proof (pos_INR k). split; [assumption|]. destruct (Rlt_or_le theta 0) as [Hn|Hn]; [specialize (H2 Hn); nra|rewrite (H3 Hn); nra]. }
  destruct (wrap_down_spec k t1 (S k) Ht1) as (t2 & E2 & H5 & H6 & H7); [lia|].
  exists (S k), t2. split; [assumption|]. split; [eapply angle_eq_trans; eassumption|].
  intros fuel Hf. unfold wrap.
  destruct (wrap_up_spec k theta fuel) as (t1' & E1' & K1 & K2 & K3 & K4); [lra|lia|].
  assert (t1' = t1) as ->.
  { destruct (Rlt_or_le theta 0) as [Hn|Hn]; [|rewrite H3, K3 by assumption; reflexivity].
    apply angle_eq_unique; [eapply angle_eq_trans; [exact K4|apply angle_eq_sym; exact H4]|].
    specialize (H2 Hn). specialize (K2 Hn). lra. }
  rewrite E1'. cbn [obind].
  destruct (wrap_down_spec k t1 fuel Ht1) as (t2' & E2' & J1 & J2 & J3); [lia|]. rewrite E2'. f_equal.
  apply angle_eq_unique; [eapply angle_eq_trans; [exact J3|apply angle_eq_sym; exact H7]|lra].
Qed.

(** The array index is one of 0..6: always inside the array of 128 tables, which
    are built for 0, 2 PI/129, 2*2 PI/129, ... *)
Theorem C53_index : forall t, 0 <= t < 2 * PI -> (0 <= area_index t <= 6)%Z /\ Rabs (t - IZR (area_index t)) <= / 2.
Proof.
  intros t Ht. unfold area_index. pose proof (Zfloor_lb (t + / 2)). pose proof (Zfloor_ub (t + / 2)).
  pose proof (Zfloor_lub 0 (t + / 2) ltac:(lra)). split; [split; [assumption|]|apply Rabs_le; lra].
  assert (PI < 325 / 100).
  { pose proof (PI_ineq 5) as [_ H3]. unfold tg_alt, PI_tg in H3. cbn in H3. lra. }
  assert (Zfloor (t + / 2) < 7)%Z; [|lia]. apply lt_IZR. lra.
Qed.

(** ** The queries *)
Lemma area_at_some tab i x y : (0 <= i <= 6)%Z -> (forall t, (0 <= t < 128)%Z -> tab t <> None) ->
  exists cs, tab i = Some cs /\ area_at tab i x y = Some (ARobot cs x y true 0).
Proof.
  intros Hi Ht. unfold area_at. destruct (_ && _)%Z eqn:E; [|lia].
  destruct (tab i) as [cs|] eqn:Ei; [|exfalso; apply (Ht i); [lia|assumption]]. exists cs. split; reflexivity.
Qed.

(** The cells a query at (x,y,theta) looks at, beside (x,y) itself. *)
Definition probed (cs : list (Z * Z)) (m : gridmap) (x y : Z) (c : Z * Z) : Prop :=
  cell_of (gm_w m) (gm_h m) (fst c) (snd c) /\ exists o, In o cs /\ c = (fst o + x, snd o + y)%Z.

Lemma covers_probed m cs x y u v : covers_in_map m (ARobot cs x y true 0) u v <-> probed cs m x y (u, v).
Proof.
  unfold covers_in_map, probed, denoted. cbn [area_cells area_pos fst snd]. rewrite in_map_iff. split.
  - intros [(o & E & Ho) Hc]. split; [assumption|]. exists o. split; [assumption|congruence].
  - intros [Hc (o & Ho & E)]. split; [|assumption]. exists o. split; [congruence|assumption].
Qed.

(** isFreeRotated: true iff (x,y) is a free cell of the map and every in-map cell
    of the table chosen for theta is free. *)
Theorem C53_free_meaning : forall m tab x y theta, gm_wf m ->
  (forall t, (0 <= t < 128)%Z -> tab t <> None) -> cell_of (gm_w m) (gm_h m) x y ->
  exists n b t cs, 0 <= t < 2 * PI /\ angle_eq t theta /\ tab (area_index t) = Some cs /\
    (forall fuel, (n <= fuel)%nat -> isFreeRotated m tab fuel x y theta = Some b) /\
    (b = true <-> (isFree m x y = Some true /\ forall c, probed cs m x y c -> isFree m (fst c) (snd c) = Some true)).
Proof.
  intros m tab x y theta Hwf Htab Hc. destruct (C53_wrap theta) as (n & t & Ht & Ha & Hw).
  destruct (C53_index t Ht) as [Hi _].
  pose proof Hc as [Hx Hy]. destruct Hwf as (Ww & Wh & Wp & Wd).
  assert (Ex : i32 x = x) by (apply i32_id; lia). assert (Ey : i32 y = y) by (apply i32_id; lia).
  assert (Hwf : gm_wf m) by (repeat split; lia).
  destruct (area_at_some tab (area_index t) x y Hi Htab) as (cs & Ecs & Ear).
  destruct (isFree_some m x y Hwf Hc) as [f Ef].
  destruct (robot_area_free m (ARobot cs x y true 0) Hwf) as (b & Eb & Hb); [exact I|].
  assert (Ein : isInMap m x y = true) by (apply isInMap_spec; assumption).
  exists n, (f && b), t, cs. split; [assumption|]. split; [assumption|]. split; [assumption|]. split.
  - intros fuel Hf. unfold isFreeRotated. rewrite Ex, Ey, Ein, Ef. cbn [negb obind]. destruct f; cbn [negb andb]; [|reflexivity].
    rewrite (Hw fuel Hf). cbn [obind]. rewrite Ear. cbn [obind]. assumption.
  - rewrite andb_true_iff, Hb. rewrite Ef. split.
    + intros [-> H]. split; [reflexivity|]. intros [u v] Hp. apply H. apply covers_probed. assumption.
    + intros [H1 H]. split; [congruence|]. intros u v Hp. apply (H (u, v)). apply covers_probed. assumption.
Qed.
Theorem C53_occupied_meaning : forall m tab x y theta, gm_wf m ->
  (forall t, (0 <= t < 128)%Z -> tab t <> None) -> cell_of (gm_w m) (gm_h m) x y ->
  exists n b t cs, 0 <= t < 2 * PI /\ angle_eq t theta /\ tab (area_index t) = Some cs /\
    (forall fuel, (n <= fuel)%nat -> isOccupiedRotated m tab fuel x y theta = Some b) /\
    (b = true <-> (isOccupied m x y = Some true \/ exists c, probed cs m x y c /\ isOccupied m (fst c) (snd c) = Some true)).
Proof.
  intros m tab x y theta Hwf Htab Hc. destruct (C53_wrap theta) as (n & t & Ht & Ha & Hw).
  destruct (C53_index t Ht) as [Hi _].
  pose proof Hc as [Hx Hy]. destruct Hwf as (Ww & Wh & Wp & Wd).
  assert (Ex : i32 x = x) by (apply i32_id; lia). assert (Ey : i32 y = y) by (apply i32_id; lia).
  assert (Hwf : gm_wf m) by (repeat split; lia).
  destruct (area_at_some tab (area_index t) x y Hi Htab) as (cs & Ecs & Ear).
  destruct (isOccupied_some m x y Hwf Hc) as [f Ef].
  destruct (robot_area_occupied m (ARobot cs x y true 0) Hwf) as (b & Eb & Hb); [exact I|].
  assert (Ein : isInMap m x y = true) by (apply isInMap_spec; assumption).
  exists n, (f || b), t, cs. split; [assumption|]. split; [assumption|]. split; [assumption|]. split.
  - intros fuel Hf. unfold isOccupiedRotated. rewrite Ex, Ey, Ein, Ef. cbn [negb obind]. destruct f; cbn [orb]; [reflexivity|].
    rewrite (Hw fuel Hf). cbn [obind]. rewrite Ear. cbn [obind]. assumption.
  - rewrite orb_true_iff, Hb. rewrite Ef. split.
    + intros [H|(u & v & Hp & H)]; [left; congruence|right]. exists (u, v). split; [apply covers_probed; assumption|assumption].
    + intros [H|([u v] & Hp & H)]; [left; congruence|right]. exists u, v. split; [apply covers_probed; assumption|assumption].
Qed.
(** "No information" is answered exactly if the centre is not occupied and every probed
    cell HAS information: the answer of the area is inverted. *)
Theorem C53_noinfo_meaning : forall m tab x y theta, gm_wf m ->
  (forall t, (0 <= t < 128)%Z -> tab t <> None) -> cell_of (gm_w m) (gm_h m) x y ->
  exists n b t cs, 0 <= t < 2 * PI /\ angle_eq t theta /\ tab (area_index t) = Some cs /\
    (forall fuel, (n <= fuel)%nat -> isNoInformationRotated m tab fuel x y theta = Some b) /\
    (b = true <-> (isOccupied m x y = Some false /\ forall c, probed cs m x y c -> isNoInformation m (fst c) (snd c) = Some false)).
Proof.
  intros m tab x y theta Hwf Htab Hc. destruct (C53_wrap theta) as (n & t & Ht & Ha & Hw).
  destruct (C53_index t Ht) as [Hi _].
  pose proof Hc as [Hx Hy]. destruct Hwf as (Ww & Wh & Wp & Wd).
  assert (Ex : i32 x = x) by (apply i32_id; lia). assert (Ey : i32 y = y) by (apply i32_id; lia).
  assert (Hwf : gm_wf m) by (repeat split; lia).
  destruct (area_at_some tab (area_index t) x y Hi Htab) as (cs & Ecs & Ear).
  destruct (isOccupied_some m x y Hwf Hc) as [f Ef].
  destruct (robot_area_noinfo m (ARobot cs x y true 0) Hwf) as (b & Eb & Hb); [exact I|].
  assert (Ein : isInMap m x y = true) by (apply isInMap_spec; assumption).
  exists n, (negb f && b), t, cs. split; [assumption|]. split; [assumption|]. split; [assumption|]. split.
  - intros fuel Hf. unfold isNoInformationRotated. rewrite Ex, Ey, Ein, Ef. cbn [negb obind]. destruct f; cbn [andb negb]; [reflexivity|].
    rewrite (Hw fuel Hf). cbn [obind]. rewrite Ear. cbn [obind]. assumption.
  - rewrite andb_true_iff, Hb. rewrite Ef. split.
    + intros [H1 H]. split; [destruct f; [discriminate|reflexivity]|]. intros [u v] Hp. apply H. apply covers_probed. assumption.
    + intros [H1 H]. split; [injection H1 as ->; reflexivity|]. intros u v Hp. apply (H (u, v)). apply covers_probed. assumption.
Qed.
(** Off the map: neither free nor occupied nor unknown. *)
Theorem C53_outside : forall m tab fuel x y theta, gm_wf m -> ~ cell_of (gm_w m) (gm_h m) x y ->
  (0 <= x < 4294967296)%Z -> (0 <= y < 4294967296)%Z ->
  isFreeRotated m tab fuel x y theta = Some false /\ isOccupiedRotated m tab fuel x y theta = Some false /\
  isNoInformationRotated m tab fuel x y theta = Some false.
Proof.
  intros m tab fuel x y theta Hwf Hn Hx Hy. destruct Hwf as (Ww & Wh & Wp & Wd).
  assert (Hwf : gm_wf m) by (repeat split; lia).
  assert (E : isInMap m (i32 x) (i32 y) = false).
  { destruct (isInMap m (i32 x) (i32 y)) eqn:E; [|reflexivity]. exfalso. apply Hn.
    apply isInMap_spec in E; [|assumption]. unfold cell_of, i32 in *. cbv zeta in E.
    rewrite !Z.mod_small in E by lia.
    destruct (Z.ltb_spec x 2147483648); destruct (Z.ltb_spec y 2147483648); lia. }
  unfold isFreeRotated, isOccupiedRotated, isNoInformationRotated. rewrite E. repeat split; reflexivity.
Qed.

(** ** Where the queries miss obstacles *)
(** A 41x41 map, free except for one occupied cell. *)
Definition one_obstacle (ox oy : Z) : gridmap :=
  GridMap 41 41 (map (fun k => if (Z.of_nat k =? oy * 41 + ox)%Z then 255%Z else 0%Z) (seq 0 1681)) 50 200 (-1).
Lemma one_obstacle_wf ox oy : gm_wf (one_obstacle ox oy).
Proof. unfold gm_wf, one_obstacle. cbn [gm_w gm_h gm_data]. rewrite map_length, seq_length. lia. Qed.
Lemma one_obstacle_free ox oy x y : cell_of 41 41 ox oy -> cell_of 41 41 x y -> (x, y) <> (ox, oy) ->
  isFree (one_obstacle ox oy) x y = Some true.
Proof.
  intros Ho Hc Hn. unfold isFree, getValue. replace (cell_index (one_obstacle ox oy) x y) with (Z.to_nat (y * 41 + x)) by (symmetry; apply (cell_index_eq (one_obstacle ox oy) x y (one_obstacle_wf ox oy) Hc)).
  unfold one_obstacle. cbn [gm_w gm_h gm_data gm_lo gm_up gm_ni]. unfold is_ni_value. cbn [gm_ni].
  destruct Ho, Hc. rewrite nth_error_map.
  rewrite (nth_error_nth' _ 0%nat) by (rewrite seq_length; lia). rewrite seq_nth by lia. cbn [option_map obind].
  destruct (Z.eqb_spec (Z.of_nat (0 + Z.to_nat (y * 41 + x))) (oy * 41 + ox)) as [E|E]; [|reflexivity].
  exfalso. apply Hn. rewrite Nat.add_0_l, Z2Nat.id in E by lia. f_equal; lia.
Qed.
Lemma one_obstacle_occ ox oy : cell_of 41 41 ox oy -> isOccupied (one_obstacle ox oy) ox oy = Some true.
Proof.
  intros Ho. unfold isOccupied, getValue. replace (cell_index (one_obstacle ox oy) ox oy) with (Z.to_nat (oy * 41 + ox)) by (symmetry; apply (cell_index_eq (one_obstacle ox oy) ox oy (one_obstacle_wf ox oy) Ho)).
  unfold one_obstacle. cbn [gm_w gm_h gm_data gm_lo gm_up gm_ni]. unfold is_ni_value. cbn [gm_ni].
  destruct Ho. rewrite nth_error_map.
  rewrite (nth_error_nth' _ 0%nat) by (rewrite seq_length; lia). rewrite seq_nth by lia. cbn [option_map obind].
  destruct (Z.eqb_spec (Z.of_nat (0 + Z.to_nat (oy * 41 + ox))) (oy * 41 + ox)) as [E|E]; [reflexivity|].
  exfalso. apply E. rewrite Nat.add_0_l, Z2Nat.id by lia. reflexivity.
Qed.

Lemma trunc_abs_lt d z : (0 < z)%Z -> Rabs d < IZR z -> (Z.abs (Ztrunc d) < z)%Z.
Proof.
  intros Hz H. apply Rabs_def2 in H. destruct (Rle_or_lt 0 d) as [Hd|Hd].
  - pose proof (trunc_lt d z Hz) as [_ T]. specialize (T ltac:(lra)). pose proof (trunc_nonneg_gt d) as [_ T2]. specialize (T2 ltac:(lra)). lia.
  - pose proof (trunc_lt (- d) z Hz) as [_ T]. specialize (T ltac:(lra)). rewrite Ztrunc_opp in T.
    pose proof (trunc_neg d ltac:(lra)). lia.
Qed.
Lemma trunc_abs_ge d z : (0 < z)%Z -> (z <= Z.abs (Ztrunc d))%Z -> IZR z <= Rabs d.
Proof. intros Hz H. apply Rnot_lt_le. intros H1. apply (trunc_abs_lt d z Hz) in H1. lia. Qed.

Lemma one_obstacle_sizes ox oy : gm_w (one_obstacle ox oy) = 41%Z /\ gm_h (one_obstacle ox oy) = 41%Z.
Proof. split; reflexivity. Qed.

Lemma query_free res f b w x y theta ox oy cs t :
  (forall t, (0 <= t < 128)%Z -> area_table res f b w t <> None) ->
  cell_of 41 41 x y -> cell_of 41 41 ox oy -> (x, y) <> (ox, oy) ->
  0 <= t < 2 * PI -> angle_eq t theta -> area_table res f b w (area_index t) = Some cs ->
  ~ In (ox - x, oy - y)%Z cs ->
  exists n, forall fuel, (n <= fuel)%nat -> isFreeRotated (one_obstacle ox oy) (area_table res f b w) fuel x y theta = Some true.
Proof.
  intros Htab Hc Ho Hne Ht Ha Ecs Hnin.
  destruct (C53_free_meaning (one_obstacle ox oy) (area_table res f b w) x y theta (one_obstacle_wf ox oy) Htab Hc)
    as (n & q & t' & cs' & Ht' & Ha' & Ecs' & Hq & Hm).
  assert (t' = t) as -> by (apply angle_eq_unique; [eapply angle_eq_trans; [exact Ha'|apply angle_eq_sym; exact Ha]|lra]).
  rewrite Ecs in Ecs'. injection Ecs' as <-. exists n. intros fuel Hf. rewrite (Hq fuel Hf). f_equal. apply Hm.
  split; [apply one_obstacle_free; assumption|].
  intros [u v] [Hcu (o & Hin & E)]. cbn [fst snd] in *. apply one_obstacle_free; [assumption|exact Hcu|].
  intros E2. apply Hnin. rewrite E in E2. injection E2 as E3 E4.
  replace (ox - x, oy - y)%Z with o; [assumption|]. destruct o. cbn [fst snd] in *. f_equal; lia.
Qed.

(** 1. Obstacles straight ahead of (or behind) the reference point are not seen even
    at orientation 0: the sample rows run along the diagonals.  A robot reaching
    8 cells ahead, 8 back, 8 wide; the obstacle 5 cells straight ahead. *)
Theorem C53_blind_ahead_refuted :
  let f := 8 in let b := -8 in let w := 8 in
  in_footprint f b w 0 (Pt 5 0) /\
  isOccupied (one_obstacle 25 20) 25 20 = Some true /\
  exists n, forall fuel, (n <= fuel)%nat ->
    isFreeRotated (one_obstacle 25 20) (area_table 1 f b w) fuel 20 20 0 = Some true.
Proof.
  cbv zeta. split; [|split].
  - exists 5, 0. split; [lra|]. split; [lra|]. unfold rotate. rewrite cos_0, sin_0. apply pt_ext; cbn [px py]; ring.
  - apply one_obstacle_occ. split; lia.
  - pose proof PI_RGT_0 as HP.
    assert (Htab : forall t, (0 <= t < 128)%Z -> area_table 1 8 (-8) 8 t <> None).
    { intros t _. unfold area_table. destruct (footprint_defined (8 / 1) (-8 / 1) (8 / 1) (area_theta t)) as [cs ->]; lra || discriminate. }
    assert (E0 : area_index 0 = 0%Z) by (unfold area_index; apply Zfloor_imp; cbn; lra).
    destruct (area_table 1 8 (-8) 8 (area_index 0)) as [cs|] eqn:Ecs; [|exfalso; apply (Htab (area_index 0)); [rewrite E0; lia|assumption]].
    apply (query_free 1 8 (-8) 8 20 20 0 25 20 cs 0 Htab); try (split; lia); try assumption; try lra; try (apply angle_eq_refl); try discriminate.
    intros Hin. unfold area_table, footprint_cells in Ecs. rewrite E0 in Ecs.
    apply (omap_in _ _ _ Ecs) in Hin. destruct Hin as (p & Hp & Ec). apply cell_of_pt_trunc in Ec.
    apply samples_shape in Hp; [|lra|lra]. destruct Hp as (a & d & H1 & H2 & -> & H3).
    unfold area_theta in Ec. replace (2 * PI * (0 / (128 + 1))) with 0 in Ec by field.
    unfold trunc_cell, rotate in Ec. cbn [px py] in Ec. rewrite cos_0, sin_0 in Ec. injection Ec as Ea Ed.
    replace (1 * a - 0 * d) with a in Ea by ring. replace (0 * a + 1 * d) with d in Ed by ring.
    assert (G1 : 5 <= Rabs a) by (apply (trunc_abs_ge a 5); lia).
    assert (G2 : Rabs d < 1).
    { apply Rnot_le_lt. intros G. assert (1 <= Z.abs (Ztrunc d))%Z; [|lia].
      destruct (Z_lt_le_dec (Z.abs (Ztrunc d)) 1); [exfalso|assumption]. destruct (Rle_or_lt 0 d) as [Hd|Hd].
      - rewrite Rabs_pos_eq in G by assumption. rewrite Ztrunc_floor in * by assumption. pose proof (Zfloor_lub 1 d G). lia.
      - rewrite Rabs_left in G by assumption. rewrite Ztrunc_ceil in * by lra. pose proof (Zceil_glb (-1) d ltac:(lra)). lia. }
    replace (a - (8 / 1 + -8 / 1) / 2) with a in H3 by field. lra.
Qed.

(** 2. The table does not belong to the queried orientation: the radian value,
    rounded, is used as an index into tables built for 2 PI i / 129.  For a robot
    20 cells long and 4 wide at orientation PI/2 the table turned by 0.097 rad is
    used; an obstacle 8 cells away, under the robot, is not seen. *)
Theorem C53_orientation_refuted :
  let f := 10 in let b := -10 in let w := 4 in
  in_footprint f b w (PI / 2) (Pt 0 8) /\
  isOccupied (one_obstacle 20 28) 20 28 = Some true /\
  exists n, forall fuel, (n <= fuel)%nat ->
    isFreeRotated (one_obstacle 20 28) (area_table 1 f b w) fuel 20 20 (PI / 2) = Some true.
Proof.
  cbv zeta. split; [|split].
  - exists 8, 0. split; [lra|]. split; [lra|]. unfold rotate. rewrite cos_PI2, sin_PI2. apply pt_ext; cbn [px py]; ring.
  - apply one_obstacle_occ. split; lia.
  - pose proof PI_RGT_0 as HP.
    assert (PL : 3 < PI) by (pose proof PI2_3_2; lra).
    assert (PU : PI < 325 / 100) by (pose proof (PI_ineq 5) as [_ H3]; unfold tg_alt, PI_tg in H3; cbn in H3; lra).
    assert (Htab : forall t, (0 <= t < 128)%Z -> area_table 1 10 (-10) 4 t <> None).
    { intros t _. unfold area_table. destruct (footprint_defined (10 / 1) (-10 / 1) (4 / 1) (area_theta t)) as [cs ->]; lra || discriminate. }
    assert (E0 : area_index (PI / 2) = 2%Z) by (unfold area_index; apply Zfloor_imp; cbn; lra).
    destruct (area_table 1 10 (-10) 4 (area_index (PI / 2))) as [cs|] eqn:Ecs; [|exfalso; apply (Htab (area_index (PI / 2))); [rewrite E0; lia|assumption]].
    apply (query_free 1 10 (-10) 4 20 20 (PI / 2) 20 28 cs (PI / 2) Htab); try (split; lia); try assumption; try lra; try (apply angle_eq_refl); try discriminate.
    intros Hin. unfold area_table, footprint_cells in Ecs. rewrite E0 in Ecs.
    apply (omap_in _ _ _ Ecs) in Hin. destruct Hin as (p & Hp & Ec). apply cell_of_pt_trunc in Ec.
    apply samples_shape in Hp; [|lra|lra]. destruct Hp as (a & d & H1 & H2 & -> & _).
    set (al := area_theta 2) in *. assert (Hal : 0 < al < 2 / 10) by (unfold al, area_theta; split; lra).
    unfold trunc_cell, rotate in Ec. cbn [px py] in Ec. injection Ec as _ Ed.
    assert (G1 : 8 <= Rabs (sin al * a + cos al * d)) by (apply (trunc_abs_ge _ 8); lia).
    assert (Hs : 0 < sin al < 2 / 10).
    { split; [apply sin_gt_0; lra|]. pose proof (sin_lt_x al (proj1 Hal)). lra. }
    pose proof (COS_bound al) as Hcb.
    assert (Rabs (sin al * a + cos al * d) <= 2 + 2); [|lra].
    apply Rabs_le. split; nra.
Qed.

(** 3. In binary64 the normalisation loop does not terminate for large negative
    angles (adding 2 PI changes nothing). *)
Definition btwopi : b64 := @B754_finite 53 1024 false 7074237752028440 (-50) eq_refl.
Fixpoint wrap_up_ieee (fuel : nat) (t : b64) : option b64 :=
  match fuel with
  | O => None
  | S k => if Bltb t bzero then wrap_up_ieee k (badd t btwopi) else Some t
  end.
Theorem C53_wrap_ieee_refuted :
  exists t : b64, is_finite t = true /\ B2R t = - 2 ^ 60 /\ forall fuel, wrap_up_ieee fuel t = None.
Proof.
  set (t := @B754_finite 53 1024 true 4503599627370496 8 eq_refl).
  exists t. split; [reflexivity|]. split.
  - unfold t. cbn. unfold Defs.F2R. cbn. lra.
  - assert (E : badd t btwopi = t).
    { apply B2SF_inj. vm_compute. reflexivity. }
    assert (L : Bltb t bzero = true) by (vm_compute; reflexivity).
    induction fuel as [|k IH]; [reflexivity|]. cbn [wrap_up_ieee]. rewrite L, E. exact IH.
Qed.

(** Non-vacuity of the main theorem: the tables of a real robot exist. *)
Example C53_example : forall t, (0 <= t < 128)%Z -> area_table (5 / 100) (6 / 10) (- (4 / 10)) (6 / 10) t <> None.
Proof.
  intros t _. unfold area_table. destruct (footprint_defined (6 / 10 / (5 / 100)) (- (4 / 10) / (5 / 100)) (6 / 10 / (5 / 100)) (area_theta t)) as [cs ->];
    lra || discriminate.
Qed.

Print Assumptions C53_free_meaning.
Print Assumptions C53_orientation_refuted.
