(** C03, C04, C05, C51, C52: coordinate conversions and point algebra. *)
From Coq Require Import Reals Lra.
From Flocq Require Import Core.Raux.
From Verif Require Import Base GridMap GeomR GridGeom.
Local Open Scope R_scope.

(** ** Specification *)
(** Sizes a map can have ([int] casts of them are exact), positive resolution. *)
Definition geo_ok (g : geo) : Prop :=
  (0 <= g_w g < 2147483648)%Z /\ (0 <= g_h g < 2147483648)%Z /\ 0 < g_res g.
Definition cell_in (g : geo) (x y : Z) : Prop := (0 <= x < g_w g)%Z /\ (0 <= y < g_h g)%Z.
(** The point lies in the square of cell (x,y) of a map whose corner is [o] and
    whose axes are the unit vectors [u], [v]: left/lower edge included. *)
Definition in_square (res : R) (o u v : pt) (x y : Z) (p : pt) : Prop :=
  exists a b, 0 <= a < 1 /\ 0 <= b < 1 /\
    p = padd o (padd (pmul u (res * (IZR x + a))) (pmul v (res * (IZR y + b)))).
Definition ex : pt := Pt 1 0.
Definition ey : pt := Pt 0 1.

Lemma inMapI_cell g x y : geo_ok g -> inMapI g x y = true <-> cell_in g x y.
Proof.
  intros (Hw & Hh & _). unfold inMapI, cell_in. rewrite !i32_id by lia.
  clear - Hw Hh. split; intros; lia.
Qed.

Lemma in_square_axes res o x y p : 0 < res ->
  in_square res o ex ey x y p <->
  (IZR x <= (px p - px o) / res < IZR x + 1 /\ IZR y <= (py p - py o) / res < IZR y + 1).
Proof.
  intros Hr. split.
  - intros (a & b & Ha & Hb & ->). unfold padd, pmul, ex, ey. cbn [px py].
    replace ((px o + (1 * (res * (IZR x + a)) + 0 * (res * (IZR y + b))) - px o) / res) with (IZR x + a) by (field; lra).
    replace ((py o + (0 * (res * (IZR x + a)) + 1 * (res * (IZR y + b))) - py o) / res) with (IZR y + b) by (field; lra).
    lra.
  - intros [Hx Hy]. exists ((px p - px o) / res - IZR x), ((py p - py o) / res - IZR y).
    split; [lra|]. split; [lra|]. apply pt_ext; unfold padd, pmul, ex, ey; cbn [px py]; field; lra.
Qed.

(** A point right of and above the origin: [point2cell] finds the cell whose
    square contains it, and says whether that cell is in the map. *)
Lemma cast_quot d : 0 <= d -> d < 4294967296 -> exists z, cast_u32 d = Some z /\ IZR z <= d < IZR z + 1 /\ (0 <= z < 4294967296)%Z.
Proof.
  intros H0 H1. destruct (cast_u32 d) as [z|] eqn:E.
  - exists z. pose proof (cast_u32_trunc _ _ E) as [_ H2]. apply cast_u32_some in E; [|assumption]. tauto.
  - apply cast_u32_none in E. lra.
Qed.

Lemma inMapI_u32 g x y : geo_ok g -> (0 <= x < 4294967296)%Z -> (0 <= y < 4294967296)%Z ->
  inMapI g (i32 x) (i32 y) = true <-> cell_in g x y.
Proof.
  intros Hg Hx Hy. rewrite inMapI_cell by assumption. destruct Hg as (Hw & Hh & _).
  unfold cell_in, i32. cbv zeta. rewrite !Z.mod_small by lia.
  destruct (Z.ltb_spec x 2147483648); destruct (Z.ltb_spec y 2147483648); lia.
Qed.

(** ** C03 *)
Theorem C03_cell_roundtrip : forall g x y,
  geo_ok g -> cell_in g x y -> s_point2cell g (s_cell2point g x y) = Some (x, y, true).
Proof.
  intros g x y Hg Hc. unfold s_point2cell, s_cell2point. cbn [px py].
  pose proof Hg as (Hw & Hh & Hr). destruct Hc as [Hx Hy].
  assert (Q : forall z o, (g_res g * (IZR z + / 2) + o - o) / g_res g = IZR z + / 2) by (intros; field; lra).
  rewrite !Q.
  assert (C : forall z, (0 <= z < 2147483648)%Z -> cast_u32 (IZR z + / 2) = Some z).
  { intros z Hz. apply cast_u32_some; [|split; [lra|lia]]. assert (0 <= IZR z) by (apply IZR_le; lia). lra. }
  rewrite !C by lia. cbn [obind]. do 2 f_equal. apply inMapI_u32; [assumption|lia|lia|]. split; assumption.
Qed.

Theorem C03_point_cell : forall g p,
  geo_ok g -> px (g_o g) <= px p -> py (g_o g) <= py p ->
  forall x y, s_point2cell g p = Some (x, y, true) <->
    (cell_in g x y /\ in_square (g_res g) (g_o g) ex ey x y p).
Proof.
  intros g p Hg Hx Hy x y. pose proof Hg as (Hw & Hh & Hr). rewrite in_square_axes by assumption.
  assert (Px : 0 <= (px p - px (g_o g)) / g_res g) by (apply Rmult_le_pos; [lra|left; apply Rinv_0_lt_compat; assumption]).
  assert (Py : 0 <= (py p - py (g_o g)) / g_res g) by (apply Rmult_le_pos; [lra|left; apply Rinv_0_lt_compat; assumption]).
  unfold s_point2cell. split.
  - destruct (cast_u32 ((px p - _) / _)) as [x'|] eqn:Ex; [|discriminate]. cbn [obind].
    destruct (cast_u32 ((py p - _) / _)) as [y'|] eqn:Ey; [|discriminate]. cbn [obind].
    intros H. injection H as -> -> H.
    pose proof (cast_u32_trunc _ _ Ex) as [_ Bx]. pose proof (cast_u32_trunc _ _ Ey) as [_ By].
    apply (inMapI_u32 g x y Hg Bx By) in H. apply cast_u32_some in Ex; [|assumption]. apply cast_u32_some in Ey; [|assumption]. tauto.
  - intros [Hc [Ix Iy]]. destruct Hc as [Cx Cy].
    assert (Ex : cast_u32 ((px p - px (g_o g)) / g_res g) = Some x) by (apply cast_u32_some; [assumption|split; [assumption|lia]]).
    assert (Ey : cast_u32 ((py p - py (g_o g)) / g_res g) = Some y) by (apply cast_u32_some; [assumption|split; [assumption|lia]]).
    rewrite Ex, Ey. cbn [obind]. do 2 f_equal. apply inMapI_u32; [assumption|lia|lia|]. split; assumption.
Qed.

Theorem C03_half_cell : forall g p x y,
  geo_ok g -> px (g_o g) <= px p -> py (g_o g) <= py p ->
  s_point2cell g p = Some (x, y, true) ->
  Rabs (px (s_cell2point g x y) - px p) <= g_res g / 2 /\
  Rabs (py (s_cell2point g x y) - py p) <= g_res g / 2.
Proof.
  intros g p x y Hg Hx Hy H. apply C03_point_cell in H; try assumption. destruct H as [_ (a & b & Ha & Hb & ->)].
  destruct Hg as (_ & _ & Hr). unfold s_cell2point, padd, pmul, ex, ey. cbn [px py].
  split; apply Rabs_le; nra.
Qed.

Theorem C03_subpixel_inverse : forall g c p,
  geo_ok g ->
  s_cell2pointSubPixel g c = p <->
  (px c = (px p - px (g_o g)) / g_res g /\ py c = (py p - py (g_o g)) / g_res g).
Proof.
  intros g c p (_ & _ & Hr). unfold s_cell2pointSubPixel. split.
  - intros <-. cbn [px py]. split; field; lra.
  - intros [H1 H2]. apply pt_ext; cbn [px py]; [rewrite H1|rewrite H2]; field; lra.
Qed.

(** Sub-pixel: what point2cellSubPixel returns, cell2pointSubPixel maps back, and
    the accepted points right/above the origin are those of the map's rectangle. *)
Theorem C03_subpixel : forall g p c b,
  geo_ok g -> px (g_o g) <= px p -> py (g_o g) <= py p ->
  s_point2cellSubPixel g p = Some (c, b) ->
  s_cell2pointSubPixel g c = p /\
  (b = true <-> (px p < px (g_o g) + IZR (g_w g) * g_res g /\ py p < py (g_o g) + IZR (g_h g) * g_res g)).
Proof.
  intros g p c b Hg Hx Hy H. pose proof Hg as (Hw & Hh & Hr).
  unfold s_point2cellSubPixel in H. cbv zeta in H.
  destruct (cast_i32 ((px p - _) / _)) as [x|] eqn:Ex; [|discriminate]. cbn [obind] in H.
  destruct (cast_i32 ((py p - _) / _)) as [y|] eqn:Ey; [|discriminate]. cbn [obind] in H.
  injection H as <- <-. split; [apply C03_subpixel_inverse; [assumption|split; reflexivity]|].
  rewrite inMapI_cell by assumption.
  apply cast_i32_trunc in Ex. apply cast_i32_trunc in Ey. destruct Ex as [-> Bx], Ey as [-> By].
  assert (Px : 0 <= (px p - px (g_o g)) / g_res g) by (apply Rmult_le_pos; [lra|left; apply Rinv_0_lt_compat; assumption]).
  assert (Py : 0 <= (py p - py (g_o g)) / g_res g) by (apply Rmult_le_pos; [lra|left; apply Rinv_0_lt_compat; assumption]).
  assert (T : forall d w, (0 <= w)%Z -> 0 <= d -> (0 <= Ztrunc d < w)%Z <-> d < IZR w).
  { intros d w Hw0 Hd. destruct (Z.eq_dec w 0) as [->|Hn]; [split; [lia|lra]|].
    rewrite <- trunc_lt by lia. pose proof (trunc_nonneg_gt d) as [_ Ht]. split; [lia|]. intros; split; [apply Ht; lra|assumption]. }
  unfold cell_in. rewrite !T by (assumption || lia).
  assert (D : forall a o w, (a - o) / g_res g < w <-> a < o + w * g_res g).
  { intros a o w. split; intros Hd.
    - assert (Ha : a - o = (a - o) / g_res g * g_res g) by (field; lra). nra.
    - apply (Rmult_lt_reg_r (g_res g)); [assumption|]. unfold Rdiv. rewrite Rmult_assoc, Rinv_l, Rmult_1_r by lra. lra. }
  rewrite !D. tauto.
Qed.

(** setOrigin(p): p is reported back and is the outer corner of cell (0,0). *)
Theorem C03_origin : forall g p c, s_getOrigin (s_setOrigin g p) = p /\
  s_cell2pointSubPixel (s_setOrigin g p) c = padd p (pmul c (g_res g)) /\
  g_w (s_setOrigin g p) = g_w g /\ g_h (s_setOrigin g p) = g_h g /\ g_res (s_setOrigin g p) = g_res g.
Proof. intros g p c. split; [reflexivity|]. split; [|auto]. unfold s_cell2pointSubPixel, s_setOrigin, padd, pmul. cbn [g_o g_res px py]. apply pt_ext; cbn [px py]; ring. Qed.

(** Beyond the origin the conversion is not the square any more: the strip of one
    cell left of the map is cell 0 as well. *)
Theorem C03_left_strip_refuted :
  exists g p x y, geo_ok g /\ s_point2cell g p = Some (x, y, true) /\
    ~ in_square (g_res g) (g_o g) ex ey x y p.
Proof.
  exists (Geo 10 10 1 (Pt 0 0) 0), (Pt (- / 2) (/ 2)), 0%Z, 0%Z.
  split; [repeat split; cbn; lia || lra|]. split.
  - unfold s_point2cell. cbn [px py g_o g_res].
    assert (E1 : cast_u32 ((- / 2 - 0) / 1) = Some 0%Z).
    { unfold cast_u32. replace ((- / 2 - 0) / 1) with (- / 2) by field.
      rewrite Ztrunc_ceil by lra. rewrite (Zceil_imp 0 (- / 2)) by (cbn; lra). reflexivity. }
    assert (E2 : cast_u32 ((/ 2 - 0) / 1) = Some 0%Z) by (apply cast_u32_some; [lra|split; [lra|lia]]).
    rewrite E1, E2. reflexivity.
  - rewrite in_square_axes by (cbn; lra). cbn [px py g_o g_res]. lra.
Qed.

(** Non-vacuity: a 4x3 map of 5 cm cells with its corner at (-1, 2). *)
Example C03_example :
  let g := Geo 4 3 (/ 20) (Pt (-1) 2) 0 in
  geo_ok g /\ cell_in g 3 2 /\ s_point2cell g (s_cell2point g 3 2) = Some (3, 2, true)%Z.
Proof.
  cbv zeta. assert (H : geo_ok (Geo 4 3 (/ 20) (Pt (-1) 2) 0)) by (repeat split; cbn; lia || lra).
  split; [exact H|]. split; [split; cbn; lia|]. apply C03_cell_roundtrip; [exact H|split; cbn; lia].
Qed.

(** ** C04 *)
Theorem C04_inside_has_cell : forall g p,
  geo_ok g -> px (g_o g) <= px p -> py (g_o g) <= py p ->
  s_isInMap g p = true <-> exists x y, s_point2cell g p = Some (x, y, true) /\ cell_in g x y.
Proof.
  intros g p Hg Hx Hy. pose proof Hg as (Hw & Hh & Hr).
  assert (Px : 0 <= (px p - px (g_o g)) / g_res g) by (apply Rmult_le_pos; [lra|left; apply Rinv_0_lt_compat; assumption]).
  assert (Py : 0 <= (py p - py (g_o g)) / g_res g) by (apply Rmult_le_pos; [lra|left; apply Rinv_0_lt_compat; assumption]).
  unfold s_isInMap. rewrite andb_true_iff, !Rltb_spec. split.
  - intros [Lx Ly].
    assert (W : forall z, (z < 2147483648)%Z -> IZR z < 4294967296) by (intros; apply IZR_lt; lia).
    destruct (cast_quot _ Px) as (x & Ex & Ix & Bx); [eapply Rlt_trans; [exact Lx|apply W; lia]|].
    destruct (cast_quot _ Py) as (y & Ey & Iy & By); [eapply Rlt_trans; [exact Ly|apply W; lia]|].
    assert (cell_in g x y).
    { assert (IZR x < IZR (g_w g)) as A by lra. assert (IZR y < IZR (g_h g)) as B by lra.
      apply lt_IZR in A. apply lt_IZR in B. split; lia. }
    exists x, y. split; [|assumption]. apply C03_point_cell; try assumption.
    split; [assumption|]. apply in_square_axes; [assumption|]. split; assumption.
  - intros (x & y & H & _). apply C03_point_cell in H; try assumption. destruct H as [[Cx Cy] H].
    apply in_square_axes in H; [|assumption]. destruct H as [Ix Iy].
    assert (IZR x + 1 <= IZR (g_w g)) by (rewrite <- plus_IZR; apply IZR_le; lia).
    assert (IZR y + 1 <= IZR (g_h g)) by (rewrite <- plus_IZR; apply IZR_le; lia). lra.
Qed.

(** Left of or below the origin the point test has no lower bound: it answers
    "inside" for every such point, and the cell conversion is then undefined
    behaviour (double to unsigned of a negative number). *)
Theorem C04_inside_has_cell_refuted : forall w h, (0 < w < 2147483648)%Z -> (0 < h < 2147483648)%Z ->
  exists g p, geo_ok g /\ g_w g = w /\ g_h g = h /\
    s_isInMap g p = true /\ s_point2cell g p = None.
Proof.
  intros w h Hw Hh. exists (Geo w h 1 (Pt 0 0) 0), (Pt (-5) 0).
  split; [repeat split; cbn; lia || lra|]. split; [reflexivity|]. split; [reflexivity|].
  assert (0 < IZR w) by (apply IZR_lt; lia). assert (0 < IZR h) by (apply IZR_lt; lia). split.
  - unfold s_isInMap. cbn [px py g_o g_res g_w g_h]. rewrite andb_true_iff, !Rltb_spec. lra.
  - unfold s_point2cell. cbn [px py g_o g_res].
    assert (E : cast_u32 ((-5 - 0) / 1) = None) by (apply cast_u32_none; lra). rewrite E. reflexivity.
Qed.

(** All cases: there is no lower bound at all; a point reported inside has an
    in-map cell unless it is a whole cell or more left of or below the origin,
    and then the conversion is undefined behaviour. *)
Theorem C04_cases : forall g p, geo_ok g ->
  (s_isInMap g p = true <-> px p < px (g_o g) + g_res g * IZR (g_w g) /\ py p < py (g_o g) + g_res g * IZR (g_h g)) /\
  ((0 < g_w g)%Z -> (0 < g_h g)%Z -> s_isInMap g p = true -> px (g_o g) - g_res g < px p -> py (g_o g) - g_res g < py p ->
     exists x y, s_point2cell g p = Some (x, y, true) /\ cell_in g x y) /\
  (px p <= px (g_o g) - g_res g \/ py p <= py (g_o g) - g_res g -> s_point2cell g p = None).
Proof.
  intros g p Hg. pose proof Hg as (Hw & Hh & Hr).
  assert (Q : forall a b c, (a - b) / g_res g < c <-> a < b + g_res g * c).
  { intros a b c. split; intros L.
    - apply (Rmult_lt_compat_r (g_res g)) in L; [|assumption]. unfold Rdiv in L. rewrite Rmult_assoc, Rinv_l, Rmult_1_r in L by lra. lra.
    - apply (Rmult_lt_reg_r (g_res g)); [assumption|]. unfold Rdiv. rewrite Rmult_assoc, Rinv_l, Rmult_1_r by lra. lra. }
  assert (E : s_isInMap g p = true <-> px p < px (g_o g) + g_res g * IZR (g_w g) /\ py p < py (g_o g) + g_res g * IZR (g_h g)).
  { unfold s_isInMap. rewrite andb_true_iff, !Rltb_spec, !Q. reflexivity. }
  split; [exact E|]. split.
  - intros Nw Nh I Lx Ly. apply E in I. destruct I as [Ux Uy]. apply Q in Ux, Uy.
    assert (C : forall d n, (0 < n < 2147483648)%Z -> -1 < d -> d < IZR n -> exists z, cast_u32 d = Some z /\ (0 <= z < n)%Z).
    { intros d n Hn L U. unfold cast_u32. cbv zeta. pose proof (proj2 (trunc_nonneg_gt d) L). pose proof (proj2 (trunc_lt d n ltac:(lia)) U).
      exists (Ztrunc d). replace ((0 <=? Ztrunc d) && (Ztrunc d <? 4294967296))%Z with true by lia. split; [reflexivity|lia]. }
    assert (Lx' : -1 < (px p - px (g_o g)) / g_res g).
    { apply (Rmult_lt_reg_r (g_res g)); [assumption|]. unfold Rdiv. rewrite Rmult_assoc, Rinv_l, Rmult_1_r by lra. lra. }
    assert (Ly' : -1 < (py p - py (g_o g)) / g_res g).
    { apply (Rmult_lt_reg_r (g_res g)); [assumption|]. unfold Rdiv. rewrite Rmult_assoc, Rinv_l, Rmult_1_r by lra. lra. }
    destruct (C _ (g_w g) ltac:(lia) Lx' Ux) as (x & Ex & Bx). destruct (C _ (g_h g) ltac:(lia) Ly' Uy) as (y & Ey & By).
    exists x, y. unfold s_point2cell. rewrite Ex. cbn [obind]. rewrite Ey. cbn [obind]. split; [|split; assumption].
    f_equal. f_equal. unfold inMapI. rewrite !i32_id by lia. clear - Bx By. lia.
  - intros L. unfold s_point2cell.
    assert (N : forall a b, a <= b - g_res g -> cast_u32 ((a - b) / g_res g) = None).
    { intros a b L'. apply cast_u32_none. left. apply (Rmult_le_reg_r (g_res g)); [assumption|].
      unfold Rdiv. rewrite Rmult_assoc, Rinv_l, Rmult_1_r by lra. lra. }
    destruct L as [L|L].
    + rewrite (N _ _ L). reflexivity.
    + rewrite (N _ _ L). destruct (cast_u32 _); reflexivity.
Qed.
Print Assumptions C04_cases.

Example C04_example :
  let g := Geo 4 3 (/ 20) (Pt (-1) 2) 0 in
  geo_ok g /\ s_isInMap g (Pt (- 9 / 10) (2 + / 10)) = true.
Proof.
  cbv zeta. split; [repeat split; cbn; lia || lra|]. unfold s_isInMap. cbn [px py g_o g_res g_w g_h].
  rewrite andb_true_iff, !Rltb_spec. lra.
Qed.

(** ** C05 *)
Lemma cs1 a : cos a * cos a + sin a * sin a = 1.
Proof. pose proof (sin2_cos2 a) as H. unfold Rsqr in H. lra. Qed.

(** The frame of a rotated map: unit vectors along its columns and rows. *)
Definition axis_u (yaw : R) : pt := Pt (cos yaw) (sin yaw).
Definition axis_v (yaw : R) : pt := Pt (- sin yaw) (cos yaw).

(** After setOrigin(p), p is the outer corner of cell (0,0): sub-pixel cell
    coordinates are measured from p along the rotated axes. *)
Theorem C05_frame : forall g p c,
  r_cell2pointSubPixel (r_setOrigin g p) c =
  padd p (padd (pmul (axis_u (g_yaw g)) (g_res g * px c)) (pmul (axis_v (g_yaw g)) (g_res g * py c))).
Proof.
  intros g p c. unfold r_cell2pointSubPixel, r_setOrigin, rotate, padd, pmul, axis_u, axis_v. cbn [px py g_res g_o g_yaw].
  rewrite cos_neg, sin_neg. pose proof (cs1 (g_yaw g)) as H. apply pt_ext; cbn [px py];
  set (C := cos (g_yaw g)) in *; set (S := sin (g_yaw g)) in *.
  - replace (C * (g_res g * px c + (C * px p - - S * py p)) - S * (g_res g * py c + (- S * px p + C * py p)))
      with ((C * C + S * S) * px p + (C * (g_res g * px c) + - S * (g_res g * py c))) by ring. rewrite H. ring.
  - replace (S * (g_res g * px c + (C * px p - - S * py p)) + C * (g_res g * py c + (- S * px p + C * py p)))
      with ((C * C + S * S) * py p + (S * (g_res g * px c) + C * (g_res g * py c))) by ring. rewrite H. ring.
Qed.

Theorem C05_cell_centre : forall g x y,
  r_cell2point g x y = r_cell2pointSubPixel g (Pt (IZR x + / 2) (IZR y + / 2)).
Proof. reflexivity. Qed.

Lemma r_point2cell_unrot g p :
  r_point2cell g p = s_point2cell g (rotate p (- g_yaw g)).
Proof. reflexivity. Qed.

Lemma rotate_inv p a : rotate (rotate p a) (- a) = p.
Proof.
  unfold rotate. cbn [px py]. rewrite cos_neg, sin_neg. pose proof (cs1 a) as H. apply pt_ext; cbn [px py].
  - replace (cos a * (cos a * px p - sin a * py p) - - sin a * (sin a * px p + cos a * py p))
      with ((cos a * cos a + sin a * sin a) * px p) by ring. rewrite H. ring.
  - replace (- sin a * (cos a * px p - sin a * py p) + cos a * (sin a * px p + cos a * py p))
      with ((cos a * cos a + sin a * sin a) * py p) by ring. rewrite H. ring.
Qed.

Theorem C05_cell_roundtrip : forall g x y,
  geo_ok g -> cell_in g x y -> r_point2cell g (r_cell2point g x y) = Some (x, y, true).
Proof.
  intros g x y Hg Hc. rewrite r_point2cell_unrot.
  change (r_cell2point g x y) with (rotate (s_cell2point g x y) (g_yaw g)).
  rewrite rotate_inv. apply C03_cell_roundtrip; assumption.
Qed.

(** Every point of the square of an in-map cell (rotated with the map) is
    converted to that cell. *)
Theorem C05_square : forall g p q x y,
  geo_ok g -> cell_in g x y ->
  in_square (g_res g) p (axis_u (g_yaw g)) (axis_v (g_yaw g)) x y q ->
  r_point2cell (r_setOrigin g p) q = Some (x, y, true).
Proof.
  intros g p q x y Hg Hc (a & b & Ha & Hb & ->). pose proof Hg as (Hw & Hh & Hr). destruct Hc as [Cx Cy].
  assert (0 <= IZR x) by (apply IZR_le; lia). assert (0 <= IZR y) by (apply IZR_le; lia).
  pose proof (C05_frame g p (Pt (IZR x + a) (IZR y + b))) as F. cbn [px py] in F. rewrite <- F.
  rewrite r_point2cell_unrot.
  change (r_cell2pointSubPixel (r_setOrigin g p) (Pt (IZR x + a) (IZR y + b)))
    with (rotate (s_cell2pointSubPixel (r_setOrigin g p) (Pt (IZR x + a) (IZR y + b))) (g_yaw g)).
  change (g_yaw (r_setOrigin g p)) with (g_yaw g). rewrite rotate_inv.
  set (g' := r_setOrigin g p). assert (Hg' : geo_ok g') by exact Hg.
  unfold s_cell2pointSubPixel. cbn [px py].
  change (g_res g') with (g_res g).
  apply C03_point_cell; [assumption| | |].
  - cbn [px]. assert (0 <= g_res g * (IZR x + a)) by (apply Rmult_le_pos; lra). lra.
  - cbn [py]. assert (0 <= g_res g * (IZR y + b)) by (apply Rmult_le_pos; lra). lra.
  - split; [split; assumption|]. exists a, b. split; [assumption|]. split; [assumption|].
    change (g_res g') with (g_res g). unfold padd, pmul, ex, ey. cbn [px py]. apply pt_ext; cbn [px py]; ring.
Qed.

(** The sub-pixel functions: inverse if the map is not rotated ... *)
Theorem C05_subpixel_unrotated : forall g c p b,
  geo_ok g -> sin (g_yaw g) = 0 -> cos (g_yaw g) = 1 ->
  r_point2cellSubPixel g p = Some (c, b) -> r_cell2pointSubPixel g c = p.
Proof.
  intros g c p b (_ & _ & Hr) S0 C1 H. unfold r_point2cellSubPixel, s_point2cellSubPixel in H. cbv zeta in H.
  destruct (cast_i32 ((px p - _) / _)); [|discriminate]. destruct (cast_i32 ((py p - _) / _)); [|discriminate].
  cbn [obind] in H. injection H as <- <-. unfold r_cell2pointSubPixel. cbn [px py]. rewrite S0, C1.
  apply pt_ext; cbn [px py]; field; lra.
Qed.

Lemma cast_i32_small d : -2147483648 <= d < 2147483647 -> exists z, cast_i32 d = Some z.
Proof.
  intros H. unfold cast_i32, in_i32. cbv zeta. destruct (_ && _)%Z eqn:E; [eauto|exfalso].
  apply andb_false_iff in E. rewrite Z.leb_gt, Z.ltb_ge in E.
  destruct (Rle_or_lt 0 d) as [Hd|Hd].
  - rewrite Ztrunc_floor in E by assumption. pose proof (Zfloor_lb d) as L. pose proof (Zfloor_lub 0 d Hd).
    destruct E as [E|E]; [lia|]. apply IZR_le in E. lra.
  - rewrite Ztrunc_ceil in E by lra. pose proof (Zceil_ub d) as L. pose proof (Zceil_glb 0 d ltac:(lra)).
    destruct E as [E|E]; [|lia].
    apply IZR_lt in E. lra.
Qed.

(** ... and wrong for a map turned by a quarter: point2cellSubPixel is not
    overridden and ignores the rotation. *)
Theorem C05_subpixel_refuted :
  exists g c c' b, geo_ok g /\
    r_point2cellSubPixel g (r_cell2pointSubPixel g c) = Some (c', b) /\ c' <> c.
Proof.
  exists (Geo 10 10 1 (Pt 0 0) (PI / 2)), (Pt 3 2), (Pt (-2) 3).
  assert (E : r_cell2pointSubPixel (Geo 10 10 1 (Pt 0 0) (PI / 2)) (Pt 3 2) = Pt (-2) 3).
  { unfold r_cell2pointSubPixel. cbn [px py g_res g_o g_yaw]. rewrite cos_PI2, sin_PI2. apply pt_ext; cbn [px py]; ring. }
  rewrite E. unfold r_point2cellSubPixel, s_point2cellSubPixel. cbn [px py g_res g_o]. cbv zeta.
  replace ((-2 - 0) / 1) with (-2) by field. replace ((3 - 0) / 1) with 3 by field.
  destruct (cast_i32_small (-2)) as [z1 ->]; [lra|]. destruct (cast_i32_small 3) as [z2 ->]; [lra|]. cbn [obind].
  eexists. split; [repeat split; cbn; lia || lra|]. split; [reflexivity|].
  intros H. injection H as H1 H2. lra.
Qed.

(** setOrigin / getOrigin: the stored point is the origin in map axes; it is the
    one that was set iff the rotation does not move it. *)
Theorem C05_origin_unrotated : forall g p,
  rotate (r_getOrigin (r_setOrigin g p)) (g_yaw g) = p /\
  (sin (g_yaw g) = 0 -> cos (g_yaw g) = 1 -> r_getOrigin (r_setOrigin g p) = p).
Proof.
  intros g p. unfold r_getOrigin, r_setOrigin. cbn [g_o]. split.
  - rewrite <- (rotate_inv p (- g_yaw g)) at 2. rewrite Ropp_involutive. reflexivity.
  - intros S0 C1. unfold rotate. rewrite cos_neg, sin_neg, S0, C1. apply pt_ext; cbn [px py]; ring.
Qed.

Theorem C05_origin_refuted : exists g p, geo_ok g /\ r_getOrigin (r_setOrigin g p) <> p.
Proof.
  exists (Geo 10 10 1 (Pt 0 0) PI), (Pt 1 0). split; [repeat split; cbn; lia || lra|].
  unfold r_getOrigin, r_setOrigin, rotate. cbn [g_o g_yaw px py]. rewrite cos_neg, cos_PI.
  intros H. injection H as H _. lra.
Qed.

(** Giving the map a new rotation with set(data,w,h,yaw) moves its corner: the
    stored origin was computed with the old rotation. *)
Theorem C05_set_moves_origin_refuted :
  exists g p yaw, geo_ok g /\
    r_cell2pointSubPixel (r_setOrigin g p) (Pt 0 0) = p /\
    r_cell2pointSubPixel (r_set (r_setOrigin g p) (g_w g) (g_h g) yaw) (Pt 0 0) <> p.
Proof.
  exists (Geo 10 10 1 (Pt 0 0) 0), (Pt 1 0), PI. split; [repeat split; cbn; lia || lra|]. split.
  - rewrite C05_frame. unfold padd, pmul, axis_u, axis_v. cbn [px py g_yaw g_res]. apply pt_ext; cbn [px py]; ring.
  - unfold r_cell2pointSubPixel, r_set, r_setOrigin, rotate. cbn [px py g_res g_o g_yaw].
    rewrite Ropp_0, cos_0, sin_0, cos_PI, sin_PI. intros H. injection H as H _. lra.
Qed.

(** isInMap(point): agrees with point2cell if the resolution is 1 and the origin
    is (0,0) ... *)
Theorem C05_isInMap_unit : forall g p b x y r,
  geo_ok g -> g_res g = 1 -> g_o g = Pt 0 0 ->
  r_isInMap g p = Some b -> r_point2cell g p = Some (x, y, r) -> b = r.
Proof.
  intros g p b x y r Hg R1 O0 Hb Hc. pose proof Hg as (Hw & Hh & _).
  unfold r_isInMap in Hb. unfold r_point2cell in Hc. cbv zeta in *. rewrite R1, O0 in Hc. cbn [px py] in Hc.
  set (rx := cos (- g_yaw g) * px p - sin (- g_yaw g) * py p) in *.
  set (ry := sin (- g_yaw g) * px p + cos (- g_yaw g) * py p) in *.
  replace ((rx - 0) / 1) with rx in Hc by field. replace ((ry - 0) / 1) with ry in Hc by field.
  destruct (cast_i32 rx) as [ix|] eqn:E1; [|discriminate]. destruct (cast_i32 ry) as [iy|] eqn:E2; [|discriminate].
  destruct (cast_u32 rx) as [ux|] eqn:E3; [|discriminate]. destruct (cast_u32 ry) as [uy|] eqn:E4; [|discriminate].
  cbn [obind] in Hb, Hc. injection Hb as <-. injection Hc as -> -> <-.
  apply cast_i32_trunc in E1. apply cast_i32_trunc in E2. apply cast_u32_trunc in E3. apply cast_u32_trunc in E4.
  destruct E1 as [T1 B1], E2 as [T2 B2], E3 as [T3 B3], E4 as [T4 B4].
  assert (Eix : ix = x) by congruence. assert (Eiy : iy = y) by congruence. clear T1 T2 T3 T4. rewrite Eix in *. rewrite Eiy in *. clear - Hw Hh B1 B2 B3 B4.
  unfold inMapI. rewrite (i32_id (g_w g)), (i32_id (g_h g)), (i32_id x), (i32_id y) by lia. clear B3 B4. apply eq_true_iff_eq. rewrite negb_true_iff, !andb_true_iff, !orb_false_iff. lia.
Qed.

(** ... and is wrong otherwise: it compares metres with cells.  In a 10x10 map of
    10 cm cells the point (5,5) is four metres outside. *)
Lemma trunc_int z : Ztrunc (IZR z) = z.
Proof. apply Ztrunc_IZR. Qed.
Theorem C05_isInMap_refuted :
  exists g p, geo_ok g /\ r_isInMap g p = Some true /\
    exists x y, r_point2cell g p = Some (x, y, false) /\ ~ cell_in g x y.
Proof.
  exists (Geo 10 10 (/ 10) (Pt 0 0) 0), (Pt 5 5). split; [repeat split; cbn; lia || lra|].
  unfold r_isInMap, r_point2cell. cbv zeta. cbn [px py g_res g_o g_yaw g_w g_h]. rewrite Ropp_0, cos_0, sin_0.
  replace (1 * 5 - 0 * 5) with 5 by ring. replace (0 * 5 + 1 * 5) with 5 by ring.
  assert (E1 : cast_i32 5 = Some 5%Z) by (unfold cast_i32; rewrite (trunc_int 5); reflexivity).
  assert (E2 : cast_u32 ((5 - 0) / / 10) = Some 50%Z).
  { replace ((5 - 0) / / 10) with 50 by field. unfold cast_u32. rewrite (trunc_int 50). reflexivity. }
  rewrite E1, E2. cbn [obind]. split; [reflexivity|]. exists 50%Z, 50%Z. split; [reflexivity|].
  unfold cell_in. cbn [g_w g_h]. lia.
Qed.

Example C05_example :
  let g := Geo 4 3 (/ 20) (Pt 0 0) (PI / 6) in
  geo_ok g /\ cell_in g 3 2 /\
  in_square (g_res g) (Pt 7 1) (axis_u (g_yaw g)) (axis_v (g_yaw g)) 3 2
    (r_cell2point (r_setOrigin g (Pt 7 1)) 3 2).
Proof.
  cbv zeta. split; [repeat split; cbn; lia || lra|]. split; [split; cbn; lia|].
  exists (/ 2), (/ 2). split; [lra|]. split; [lra|]. rewrite C05_cell_centre, C05_frame. reflexivity.
Qed.

(** ** C51 *)
Theorem C51_inverse : forall g p, g_res g <> 0 ->
  map2pos g (pos2map g p) = p /\ pos2map g (map2pos g p) = p.
Proof.
  intros g [x y t] H. unfold map2pos, pos2map. cbn [po_x po_y po_th]. split; f_equal; field; assumption.
Qed.
(** They are the sub-pixel conversions of the (unrotated) map. *)
Theorem C51_is_subpixel : forall g p,
  pt_of_pose (map2pos g p) = s_cell2pointSubPixel g (pt_of_pose p) /\
  po_th (map2pos g p) = po_th p /\ po_th (pos2map g p) = po_th p.
Proof. intros. repeat split. Qed.

(** ** C52 *)
Theorem C52_vector_space : forall p q r a b,
  padd p q = padd q p /\ padd p (padd q r) = padd (padd p q) r /\
  padd p (popp p) = Pt 0 0 /\ psub p q = padd p (popp q) /\ padd p (Pt 0 0) = p /\
  pmul p 1 = p /\ pmul (pmul p a) b = pmul p (a * b) /\
  pmul (padd p q) a = padd (pmul p a) (pmul q a) /\ pmul p (a + b) = padd (pmul p a) (pmul p b) /\
  pdiv p a = pmul p (/ a).
Proof.
  intros [x1 y1] [x2 y2] [x3 y3] a b. unfold padd, psub, popp, pmul, pdiv. cbn [px py].
  repeat split; f_equal; ring.
Qed.

Definition dist (p q : pt) : R := sqrt ((px p - px q) * (px p - px q) + (py p - py q) * (py p - py q)).

Theorem C52_rotate_isometry : forall p q a, dist (rotate p a) (rotate q a) = dist p q.
Proof.
  intros p q a. unfold dist, rotate. cbn [px py]. f_equal. pose proof (cs1 a) as H.
  set (C := cos a) in *. set (S := sin a) in *.
  match goal with |- ?l = ?r => replace l with ((C * C + S * S) * ((px p - px q) * (px p - px q) + (py p - py q) * (py p - py q))) by ring end.
  rewrite H. ring.
Qed.
Theorem C52_rotate_compose : forall p a b,
  rotate (rotate p a) b = rotate p (a + b) /\ rotate p 0 = p /\ rotate p (2 * PI) = p.
Proof.
  intros p a b. unfold rotate. cbn [px py]. rewrite cos_plus, sin_plus, cos_0, sin_0, cos_2PI, sin_2PI.
  repeat split; apply pt_ext; cbn [px py]; ring.
Qed.
Theorem C52_rotate_linear : forall p q a t,
  rotate (padd p q) a = padd (rotate p a) (rotate q a) /\ rotate (pmul p t) a = pmul (rotate p a) t.
Proof. intros. unfold rotate, padd, pmul. cbn [px py]. split; apply pt_ext; cbn [px py]; ring. Qed.
(** rotate turns the direction of a point by the angle. *)
Theorem C52_rotate_angle : forall p a, p <> Pt 0 0 -> angle_eq (angle (rotate p a)) (angle p + a).
Proof.
  intros p a Hp. unfold angle.
  pose proof (atan2_polar (py p) (px p)) as [H1 H2].
  pose proof (atan2_polar (py (rotate p a)) (px (rotate p a))) as [H3 H4].
  assert (Hh : hyp (px (rotate p a)) (py (rotate p a)) = hyp (px p) (py p)).
  { pose proof (C52_rotate_isometry p (Pt 0 0) a) as H. unfold dist in H.
    unfold hyp. rewrite <- (Rminus_0_r (px p)), <- (Rminus_0_r (py p)). change 0 with (px (Pt 0 0)) at 1 3.
    change 0 with (py (Pt 0 0)) at 3 6. etransitivity; [|exact H]. unfold rotate. cbn [px py]. f_equal. ring. }
  rewrite Hh in H3, H4.
  assert (Hpos : 0 < hyp (px p) (py p)).
  { apply hyp_pos. destruct (Req_dec (px p) 0) as [E|]; [|left; assumption]. right. intros E'. apply Hp. apply pt_ext; assumption. }
  set (h := hyp (px p) (py p)) in *. set (t := atan2 (py p) (px p)) in *.
  apply angle_eq_cs; (apply (Rmult_eq_reg_l h); [|lra]).
  - rewrite H3, cos_plus. unfold rotate. cbn [px]. rewrite <- H1, <- H2 at 1. ring.
  - rewrite H4, sin_plus. unfold rotate. cbn [py]. rewrite <- H1, <- H2 at 1. ring.
Qed.
Definition dotp (p q : pt) : R := px p * px q + py p * py q.
(** ortho is the quarter turn clockwise. *)
Theorem C52_ortho : forall p, dotp p (ortho p) = 0 /\ len (ortho p) = len p /\ ortho (ortho p) = popp p
  /\ ortho p = rotate p (- (PI / 2)).
Proof.
  intros p. unfold dotp, ortho, len, popp, rotate. cbn [px py]. split; [ring|]. split; [f_equal; ring|]. split; [apply pt_ext; cbn [px py]; ring|].
  rewrite cos_neg, sin_neg, cos_PI2, sin_PI2. apply pt_ext; cbn [px py]; ring.
Qed.
Lemma len_pos p : p <> Pt 0 0 -> 0 < len p.
Proof.
  intros Hp. rewrite len_hyp. apply hyp_pos. destruct (Req_dec (px p) 0) as [E|]; [|left; assumption].
  right. intros E'. apply Hp. apply pt_ext; assumption.
Qed.
Theorem C52_resize : forall p s, p <> Pt 0 0 -> 0 <= s ->
  len (resize p s) = s /\ exists f, 0 <= f /\ resize p s = pmul p f.
Proof.
  intros p s Hp Hs. pose proof (len_pos p Hp) as Hl. split.
  - rewrite len_hyp. apply hyp_unique; [assumption|]. unfold resize. cbn [px py].
    pose proof (hyp_sq (px p) (py p)) as H. rewrite <- len_hyp in H.
    replace (px p * (s / len p) * (px p * (s / len p)) + py p * (s / len p) * (py p * (s / len p)))
      with (s * s * / (len p * len p) * (px p * px p + py p * py p)) by (field; lra).
    rewrite <- H. field. lra.
  - exists (s / len p). split; [|reflexivity]. apply Rmult_le_pos; [assumption|]. left. apply Rinv_0_lt_compat. assumption.
Qed.
Theorem C52_normalize : forall p, p <> Pt 0 0 -> len (normalize p) = 1 /\ pmul (normalize p) (len p) = p.
Proof.
  intros p Hp. split; [apply C52_resize; [assumption|lra]|]. pose proof (len_pos p Hp).
  unfold normalize, resize, pmul. cbn [px py]. apply pt_ext; cbn [px py]; field; lra.
Qed.
(** from_polar, length and angle are the two directions of polar coordinates. *)
Theorem C52_polar : forall p a r,
  from_polar (angle p) (len p) = p /\
  (0 <= r -> len (from_polar a r) = r) /\ (0 < r -> - PI < a <= PI -> angle (from_polar a r) = a).
Proof.
  intros p a r. split; [|split].
  - rewrite len_hyp. unfold from_polar, angle. pose proof (atan2_polar (py p) (px p)) as [H1 H2]. apply pt_ext; cbn [px py]; lra.
  - intros Hr. rewrite len_hyp. unfold from_polar. cbn [px py]. apply hyp_unique; [assumption|].
    pose proof (cs1 a). nra.
  - intros Hr Ha. unfold from_polar, angle. cbn [px py]. rewrite (Rmult_comm (cos a)), (Rmult_comm (sin a)). apply polar_atan2; assumption.
Qed.

(** Poses: x/y behave like the points, the metric is Euclidean; the orientation is
    dropped by every operator. *)
Theorem C52_pose_ops : forall a b f,
  pt_of_pose (pose_add a b) = padd (pt_of_pose a) (pt_of_pose b) /\
  pt_of_pose (pose_sub a b) = psub (pt_of_pose a) (pt_of_pose b) /\
  pt_of_pose (pose_mul a f) = pmul (pt_of_pose a) f /\
  pt_of_pose (pose_div a f) = pdiv (pt_of_pose a) f /\
  pose_dist a b = dist (pt_of_pose a) (pt_of_pose b) /\
  pose_dist_origin a = len (pt_of_pose a) /\ pose_dot a b = dotp (pt_of_pose a) (pt_of_pose b) /\
  po_th (pose_add a b) = 0 /\ po_th (pose_sub a b) = 0 /\ po_th (pose_mul a f) = 0 /\ po_th (pose_div a f) = 0.
Proof.
  intros. repeat split. unfold pose_dist_origin, len, pt_of_pose. cbn [px py]. f_equal. ring.
Qed.
Theorem C52_pose_theta_dropped_refuted : exists a, pose_add a pose0 <> a.
Proof. exists (Pose 0 0 1). unfold pose_add, pose0. cbn. intros H. injection H as _ _ H. lra. Qed.

(** Distance is a metric. *)
Lemma cauchy2 a b c d : a * c + b * d <= hyp a b * hyp c d.
Proof.
  pose proof (hyp_nonneg a b). pose proof (hyp_nonneg c d). pose proof (hyp_sq a b). pose proof (hyp_sq c d).
  destruct (Rle_or_lt (a * c + b * d) 0); [assert (0 <= hyp a b * hyp c d) by (apply Rmult_le_pos; assumption); lra|].
  apply Rsqr_incr_0; [|lra|apply Rmult_le_pos; assumption]. unfold Rsqr.
  replace (hyp a b * hyp c d * (hyp a b * hyp c d)) with ((hyp a b * hyp a b) * (hyp c d * hyp c d)) by ring.
  rewrite H1, H2. assert (0 <= (a * d - b * c) * (a * d - b * c)) by apply Rle_0_sqr. nra.
Qed.
Lemma hyp_triangle a b c d : hyp (a + c) (b + d) <= hyp a b + hyp c d.
Proof.
  pose proof (hyp_nonneg a b). pose proof (hyp_nonneg c d). pose proof (hyp_sq a b). pose proof (hyp_sq c d).
  apply hyp_le; [lra|]. pose proof (cauchy2 a b c d). nra.
Qed.
Theorem C52_metric : forall a b c,
  0 <= pose_dist a b /\ pose_dist a b = pose_dist b a /\
  pose_dist a c <= pose_dist a b + pose_dist b c /\
  (pose_dist a b = 0 <-> pt_of_pose a = pt_of_pose b).
Proof.
  intros a b c. unfold pose_dist. cbv zeta. split; [apply sqrt_pos|]. split; [f_equal; ring|]. split.
  - change (hyp (po_x a - po_x c) (po_y a - po_y c) <= hyp (po_x a - po_x b) (po_y a - po_y b) + hyp (po_x b - po_x c) (po_y b - po_y c)).
    replace (po_x a - po_x c) with (po_x a - po_x b + (po_x b - po_x c)) by ring.
    replace (po_y a - po_y c) with (po_y a - po_y b + (po_y b - po_y c)) by ring. apply hyp_triangle.
  - change (hyp (po_x a - po_x b) (po_y a - po_y b) = 0 <-> pt_of_pose a = pt_of_pose b). rewrite hyp_0. unfold pt_of_pose. split.
    + intros [H1 H2]. apply pt_ext; cbn [px py]; lra.
    + intros H. injection H as H1 H2. lra.
Qed.

(** isEqual: positions within dist_eps, headings within theta_eps modulo full turns. *)
Theorem C52_isEqual : forall adelta a p de te, AngleDelta_contract adelta -> te < PI ->
  pose_isEqual adelta a p de te = true <->
  (pose_dist a p <= de /\ exists k : Z, Rabs (po_th p - po_th a + 2 * IZR k * PI) <= te).
Proof.
  intros adelta a p de te Hc Ht. unfold pose_isEqual. rewrite andb_true_iff, !Rleb_spec.
  destruct (Hc (po_th a) (po_th p)) as [Hr [k Hk]]. split; intros [H1 H2]; (split; [assumption|]).
  - exists k. rewrite <- Hk. assumption.
  - destruct H2 as [j Hj]. destruct (Rle_or_lt 0 te) as [Ht0|Ht0]; [|pose proof (Rabs_pos (po_th p - po_th a + 2 * IZR j * PI)); lra].
    pose proof PI_RGT_0 as HP.
    assert (Rabs (po_th p - po_th a + 2 * IZR j * PI) < PI) as Hj' by lra. apply Rabs_def2 in Hj'.
    assert (E : adelta (po_th a) (po_th p) = po_th p - po_th a + 2 * IZR j * PI); [|rewrite E; assumption].
    assert (angle_eq (adelta (po_th a) (po_th p)) (po_th p - po_th a + 2 * IZR j * PI)) as Ha.
    { rewrite Hk. exists (k - j)%Z. rewrite minus_IZR. ring. }
    apply angle_eq_unique; [assumption|]. lra.
Qed.
Example C52_isEqual_example :
  exists adelta, AngleDelta_contract adelta /\ pose_isEqual adelta (Pose 1 2 3) (Pose 1 2 3) (/ 10) (/ 10) = true.
Proof.
  exists (fun a b => clamp_ref (b - a)). split; [exact delta_ref_ok|].
  apply (C52_isEqual _ _ _ _ _ delta_ref_ok); [pose proof PI_RGT_0; pose proof PI2_1; lra|]. split.
  - unfold pose_dist. cbn [po_x po_y]. replace ((1 - 1) * (1 - 1) + (2 - 2) * (2 - 2)) with 0 by ring. rewrite sqrt_0. lra.
  - exists 0%Z. cbn [po_th]. replace (3 - 3 + 2 * 0 * PI) with 0 by ring. rewrite Rabs_R0. lra.
Qed.

Print Assumptions C03_point_cell.
Print Assumptions C05_square.
Print Assumptions C52_isEqual.
