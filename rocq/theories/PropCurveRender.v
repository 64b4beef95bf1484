(** C81: what CurveRenderer draws: the map, and a curve on it. *)
From Coq Require Import Reals Lra.
From Flocq Require Import Core.Raux.
From Verif Require Import Base GridMap GridMapProofs GridSpec PropGrid GeomR EvaluatorModel EvaluatorProofs RenderModel PropRender RSParse RSModel PropRSIter CurveRender.
Local Open Scope R_scope.

(** ** Specification *)
(** Row 0 of the map is at the bottom of the picture, one pixel for each cell. *)
Definition shows_cell (rows c r x y : Z) : Prop := (c = x /\ r = rows - 1 - y)%Z.
(** A picture that has room for the map. *)
Definition room (m : gridmap) (i : canvas) : Prop := (gm_w m <= cv_cols i /\ gm_h m <= cv_rows i < 2147483648)%Z.
Definition bytes (m : gridmap) : Prop := Forall (fun v => 0 <= v < 256)%Z (gm_data m).
Definition free_at (m : gridmap) (v : Z) : Prop := class_spec (gm_lo m) (gm_up m) (ni_opt m) v Free.
(** [z] is [d] without its fraction. *)
Definition cut (d : R) (z : Z) : Prop := 0 <= d -> IZR z <= d < IZR z + 1.
(** A point of the map and the pixel it is drawn at. *)
Definition close (p : pt) (h : Z) (q : Z * Z) : Prop := Rabs (IZR (fst q) - px p) < 1 /\ Rabs (IZR (snd q) - (IZR h - py p)) < 1.
Definition int_range (d : R) : Prop := -2147483649 < d < 2147483648.
Definition drawable (p : pt) (h : Z) : Prop := int_range (px p) /\ int_range (IZR h - py p).
(** A chain of lines from pixel to pixel. *)
Fixpoint chain (col : colour) (t : Z) (a : Z * Z) (l : list (Z * Z)) : list cmd :=
  match l with [] => [] | b :: r => DLine a b col t :: chain col t b r end.

(** ** draw_map *)
Lemma free_dec m v : {free_at m v} + {~ free_at m v}.
Proof. unfold free_at, class_spec. destruct (Z_le_dec v (gm_lo m)); [|right; tauto]. destruct (ni_opt m) as [u|]; [|left; split; [assumption|discriminate]]. destruct (Z.eq_dec u v); [right; intros [_ H]; congruence|left; split; [assumption|congruence]]. Qed.
Definition true_colour (m : gridmap) (v : Z) : colour := if free_dec m v then (255, 255, 255)%Z else (255 - v, 0, 0)%Z.
Lemma getValue_byte m x y v : bytes m -> getValue m x y = Some v -> (0 <= v < 256)%Z.
Proof. intros B E. unfold getValue in E. apply nth_error_In in E. unfold bytes in B. rewrite Forall_forall in B. apply B, E. Qed.
Lemma colour_ok m x y : gm_wf m -> bytes m -> cell_of (gm_w m) (gm_h m) x y ->
  exists v, getValue m x y = Some v /\ cell_colour m x y = Some (true_colour m v).
Proof.
  intros W B C. destruct (C02_classification m x y W C) as (v & E & F & _). exists v. split; [exact E|].
  assert (exists b, isFree m x y = Some b) as (b & Eb) by (unfold isFree; rewrite E; cbn [obind]; eexists; reflexivity).
  unfold cell_colour, true_colour. rewrite Eb. cbn [obind]. fold (free_at m v) in F. rewrite Eb in F.
  destruct (free_dec m v) as [Y|N].
  - apply F in Y. injection Y as ->. reflexivity.
  - destruct b; [exfalso; apply N, F; reflexivity|]. rewrite E. cbn [obind]. pose proof (getValue_byte m x y v B E). rewrite Z.mod_small by lia. reflexivity.
Qed.

Lemma map_pix m i (W : gm_wf m) (B : bytes m) (H : room m i) c r :
  exists j, draw_map m i = Some j /\ same_size i j /\
    ((exists x y v, shows_cell (cv_rows i) c r x y /\ cell_of (gm_w m) (gm_h m) x y /\ getValue m x y = Some v /\ cv_pix j c r = true_colour m v) \/
     cv_pix j c r = cv_pix i c r /\ forall x y, cell_of (gm_w m) (gm_h m) x y -> ~ shows_cell (cv_rows i) c r x y).
Proof.
  unfold draw_map. rewrite (ofold_nest (fun x y j => v <- cell_colour m x y ;; put x (i32 (u32 (cv_rows j - 1 - y))) v j)).
  destruct (ofold_pix (fun p j => v <- cell_colour m (fst p) (snd p) ;; put (fst p) (i32 (u32 (cv_rows j - 1 - snd p))) v j) i c r
    (fun p => shows_cell (cv_rows i) c r (fst p) (snd p))
    (fun col => exists x y v, shows_cell (cv_rows i) c r x y /\ cell_of (gm_w m) (gm_h m) x y /\ getValue m x y = Some v /\ col = true_colour m v)
    (flat_map (fun y => map (fun x => (x, y)) (upto (gm_w m))) (upto (gm_h m)))) with (i := i) as (j & E & Hj & G).
  - intros [x y] k Ha [K1 K2]. apply pairs_in in Ha. rewrite !upto_spec in Ha. cbn [fst snd]. destruct H as [H1 H2].
    destruct (colour_ok m x y W B Ha) as (v & Ev & Ec). rewrite Ec. cbn [obind]. rewrite i32_u32 by lia. unfold put.
    assert ((0 <=? x) && (x <? cv_cols k) && (0 <=? cv_rows k - 1 - y) && (cv_rows k - 1 - y <? cv_rows k) = true)%Z as -> by lia.
    eexists. split; [reflexivity|]. split; [split; [exact K1|exact K2]|]. cbn [paint cv_pix]. unfold shows_cell. destruct (Z.eqb_spec c x) as [->|Nx]; cbn [andb].
    + destruct (Z.eqb_spec r (cv_rows k - 1 - y)) as [->|Ny]; [|right; split; [reflexivity|lia]].
      left. exists x, y, v. split; [lia|]. split; [exact Ha|]. split; [exact Ev|reflexivity].
    + right. split; [reflexivity|lia].
  - split; reflexivity.
  - exists j. split; [exact E|]. split; [exact Hj|]. destruct G as [G|[G N]]; [left; exact G|right; split; [exact G|]].
    intros x y C. apply (N (x, y)). apply pairs_in. rewrite !upto_spec. exact C.
Qed.

(** *** C81: the picture of the map *)
(** Free cells are white, the others blue the darker the higher their value; the rest of
    the picture stays as it was. *)
Theorem C81_map : forall m i, gm_wf m -> bytes m -> room m i -> exists j, draw_map m i = Some j /\ cv_rows j = cv_rows i /\ cv_cols j = cv_cols i /\
  (forall c r x y v, shows_cell (cv_rows i) c r x y -> cell_of (gm_w m) (gm_h m) x y -> getValue m x y = Some v ->
    (free_at m v -> cv_pix j c r = (255, 255, 255)%Z) /\ (~ free_at m v -> cv_pix j c r = (255 - v, 0, 0)%Z)) /\
  (forall c r, (forall x y, cell_of (gm_w m) (gm_h m) x y -> ~ shows_cell (cv_rows i) c r x y) -> cv_pix j c r = cv_pix i c r).
Proof.
  intros m i W B H. destruct (map_pix m i W B H 0%Z 0%Z) as (j & E & [S1 S2] & _). exists j. split; [exact E|]. split; [exact S1|]. split; [exact S2|]. split.
  - intros c r x y v Hs C Ev. destruct (map_pix m i W B H c r) as (j' & E' & _ & P). rewrite E in E'. injection E' as <-.
    destruct P as [(x' & y' & v' & Hs' & C' & Ev' & ->)|[_ N]]; [|exfalso; apply (N x y C Hs)].
    assert (x' = x /\ y' = y) as [-> ->] by (unfold shows_cell in *; lia). rewrite Ev in Ev'. injection Ev' as <-.
    unfold true_colour. destruct (free_dec m v); split; tauto.
  - intros c r N. destruct (map_pix m i W B H c r) as (j' & E' & _ & P). rewrite E in E'. injection E' as <-.
    destruct P as [(x' & y' & v' & Hs' & C' & _)|[P _]]; [exfalso; apply (N x' y' C' Hs')|exact P].
Qed.
(** The picture tells the maps apart, but for the values of free cells. *)
Theorem C81_map_faithful : forall m m' i j j', gm_wf m -> gm_wf m' -> bytes m -> bytes m' -> room m i -> gm_w m' = gm_w m -> gm_h m' = gm_h m ->
  draw_map m i = Some j -> draw_map m' i = Some j' ->
  ((forall c r, cv_pix j c r = cv_pix j' c r) <->
   forall x y v v', cell_of (gm_w m) (gm_h m) x y -> getValue m x y = Some v -> getValue m' x y = Some v' ->
     (free_at m v <-> free_at m' v') /\ (~ free_at m v -> v = v')).
Proof.
  intros m m' i j j' W W' B B' H Ew Eh E E'.
  assert (H' : room m' i) by (unfold room in *; rewrite Ew, Eh; exact H).
  destruct (C81_map m i W B H) as (k & Ek & _ & _ & P & Q). rewrite E in Ek. injection Ek as <-.
  destruct (C81_map m' i W' B' H') as (k & Ek & _ & _ & P' & Q'). rewrite E' in Ek. injection Ek as <-. rewrite Ew, Eh in P', Q'.
  split.
  - intros Y x y v v' C Ev Ev'. pose proof (getValue_byte _ _ _ _ B Ev). pose proof (getValue_byte _ _ _ _ B' Ev').
    set (c := x). set (r := (cv_rows i - 1 - y)%Z). assert (Hs : shows_cell (cv_rows i) c r x y) by (split; reflexivity).
    specialize (Y c r). destruct (P c r x y v Hs C Ev) as [P1 P2]. destruct (P' c r x y v' Hs C Ev') as [P1' P2'].
    destruct (free_dec m v) as [F|F]; destruct (free_dec m' v') as [F'|F'].
    + tauto.
    + exfalso. rewrite (P1 F), (P2' F') in Y. apply (f_equal snd) in Y. discriminate Y.
    + exfalso. rewrite (P2 F), (P1' F') in Y. apply (f_equal snd) in Y. discriminate Y.
    + rewrite (P2 F), (P2' F') in Y. apply (f_equal (fun z => fst (fst z))) in Y. cbn [fst] in Y. split; [tauto|intros _; lia].
  - intros Y c r. destruct (map_pix m i W B H c r) as (k & Ek & _ & D). rewrite E in Ek. injection Ek as <-.
    destruct D as [(x & y & v & Hs & C & Ev & D)|[D N]].
    + rewrite <- Ew, <- Eh in C. destruct (colour_ok m' x y W' B' C) as (v' & Ev' & _). rewrite Ew, Eh in C. destruct (Y x y v v' C Ev Ev') as [Y1 Y2].
      destruct (P c r x y v Hs C Ev) as [P1 P2]. destruct (P' c r x y v' Hs C Ev') as [P1' P2'].
      destruct (free_dec m v) as [F|F]; [rewrite P1, P1' by tauto; reflexivity|]. rewrite P2, P2' by tauto. rewrite (Y2 F). reflexivity.
    + rewrite D. symmetry. apply Q'. exact N.
Qed.

(** A picture that is too small is written outside. *)
Lemma ofold_none {A} (f : A -> canvas -> option canvas) (i0 : canvas) l :
  (forall a i j, In a l -> same_size i0 i -> f a i = Some j -> same_size i0 j) ->
  (exists a, In a l /\ forall i, same_size i0 i -> f a i = None) -> forall i, same_size i0 i -> ofold f l i = None.
Proof.
  induction l as [|a l IH]; intros Hp (b & Hb & N) i Hi; [destruct Hb|]. cbn [ofold].
  destruct (f a i) as [j|] eqn:E; cbn [obind]; [|reflexivity]. destruct Hb as [<-|Hb]; [rewrite (N i Hi) in E; discriminate|].
  apply IH; [intros a' i' j' Ha; apply Hp; right; exact Ha|exists b; tauto|]. apply (Hp a i j (or_introl eq_refl) Hi E).
Qed.
Theorem C81_map_small_refuted : forall m i, gm_wf m -> (0 < gm_w m)%Z -> (0 < gm_h m)%Z -> (0 <= cv_rows i < 2147483648)%Z -> (cv_cols i < gm_w m \/ cv_rows i < gm_h m)%Z -> draw_map m i = None.
Proof.
  intros m i W Hw Hh Hr Hs. unfold draw_map. rewrite (ofold_nest (fun x y j => v <- cell_colour m x y ;; put x (i32 (u32 (cv_rows j - 1 - y))) v j)).
  apply (ofold_none _ i).
  - intros [x y] k j _ [K1 K2]. cbn [fst snd]. destruct (cell_colour m x y); cbn [obind]; [|discriminate]. unfold put. destruct (_ && _); [|discriminate].
    intros E. injection E as <-. split; assumption.
  - exists (gm_w m - 1, gm_h m - 1)%Z. split; [apply pairs_in; rewrite !upto_spec; lia|]. intros k [K1 K2]. cbn [fst snd].
    destruct (cell_colour m (gm_w m - 1) (gm_h m - 1)); cbn [obind]; [|reflexivity]. destruct W as (W1 & W2 & _). rewrite i32_u32 by lia. unfold put.
    destruct (_ && _) eqn:E; [|reflexivity]. exfalso. lia.
  - split; reflexivity.
Qed.

(** ** Pixels *)
Definition pixel_at (h : Z) (p : pt) : Z * Z := (Ztrunc (px p), Ztrunc (IZR h - py p)).
Lemma trunc_near d : Rabs (IZR (Ztrunc d) - d) < 1.
Proof.
  destruct (Rle_dec 0 d) as [L|L].
  - rewrite Ztrunc_floor by exact L. pose proof (Zfloor_lb d). pose proof (Zfloor_ub d). apply Rabs_def1; lra.
  - rewrite Ztrunc_ceil by lra. pose proof (Zceil_ub d). pose proof (Zceil_lb d). apply Rabs_def1; lra.
Qed.
Lemma cast_ok d : int_range d -> cast_i32 d = Some (Ztrunc d).
Proof.
  intros [H1 H2]. unfold cast_i32, in_i32. cbv zeta.
  assert (-2147483648 <= Ztrunc d <= 2147483647)%Z.
  { split.
    - destruct (Rle_dec 0 d) as [L|L]; [rewrite Ztrunc_floor by exact L; assert (0 <= Zfloor d)%Z by (apply Zfloor_lub; exact L); lia|].
      rewrite Ztrunc_ceil by lra. assert (-2147483649 < Zceil d)%Z; [|lia]. apply lt_IZR. pose proof (Zceil_ub d). lra.
    - destruct (Rle_dec 0 d) as [L|L].
      + rewrite Ztrunc_floor by exact L. assert (Zfloor d < 2147483648)%Z; [|lia]. apply lt_IZR. pose proof (Zfloor_lb d). lra.
      + rewrite Ztrunc_ceil by lra. assert (Zceil d <= 0)%Z; [|lia]. apply Zceil_glb. lra. }
  destruct (_ && _)%Z eqn:E; [reflexivity|exfalso; lia].
Qed.
Lemma p2cv_ok p h : drawable p h -> p2cv p h = Some (pixel_at h p) /\ close p h (pixel_at h p).
Proof.
  intros [H1 H2]. unfold p2cv. rewrite !cast_ok by assumption. split; [reflexivity|]. split; apply trunc_near.
Qed.
(** A point of the map is drawn at the pixel of its cell in the picture of the map, but a
    point on the lower edge of its cell at the pixel of the cell below. *)
Theorem C81_pixel : forall p w h, (0 <= w < 2147483648)%Z -> (0 <= h < 2147483648)%Z -> 0 <= px p < IZR w -> 0 <= py p < IZR h ->
  exists c r, p2cv p h = Some (c, r) /\
    (IZR (Zfloor (py p)) < py p -> shows_cell h c r (Zfloor (px p)) (Zfloor (py p))) /\
    (IZR (Zfloor (py p)) = py p -> shows_cell h c r (Zfloor (px p)) (Zfloor (py p) - 1)).
Proof.
  intros p w h Hw Hh Hx Hy. assert (IZR w < 2147483648) by (apply IZR_lt; lia). assert (IZR h < 2147483648) by (apply IZR_lt; lia).
  destruct (p2cv_ok p h) as [E _]; [split; split; lra|]. unfold pixel_at in E. eexists _, _. split; [exact E|].
  rewrite !Ztrunc_floor by lra. unfold shows_cell. pose proof (Zfloor_lb (py p)). pose proof (Zfloor_ub (py p)). set (k := Zfloor (py p)) in *. clearbody k.
  split; intros Q; (split; [reflexivity|]); apply Zfloor_imp; rewrite plus_IZR, ?minus_IZR; lra.
Qed.
(** The lower edge of the map is drawn outside the picture. *)
Theorem C81_edge_refuted : forall x h, (0 <= h < 2147483648)%Z -> int_range x -> exists c, p2cv (Pt x 0) h = Some (c, h).
Proof.
  intros x h Hh Hx. assert (IZR h < 2147483648) by (apply IZR_lt; lia). assert (0 <= IZR h) by (apply IZR_le; lia).
  destruct (p2cv_ok (Pt x 0) h) as [E _]; [split; [exact Hx|cbn [px py]; split; lra]|]. unfold pixel_at in E. cbn [px py] in E.
  replace (IZR h - 0) with (IZR h) in E by ring. rewrite Ztrunc_IZR in E. eexists. exact E.
Qed.

(** ** The arrows *)
(** [tip] is 18 [s] ahead of the pose, the barbs start there and end 12 [s] ahead and
    5 [s] to the sides. *)
Definition ahead (q : pose) (f l : R) : pt := Pt (po_x q + f * cos (po_th q) - l * sin (po_th q)) (po_y q + f * sin (po_th q) + l * cos (po_th q)).
Lemma tip_ahead q s : arrow_tip q s = ahead q (18 * s) 0.
Proof. unfold arrow_tip, ahead, padd, rotate, pt_of_pose. cbn [px py]. f_equal; ring. Qed.
Lemma left_ahead q s : arrow_left q s = ahead q (12 * s) (- (5 * s)).
Proof. unfold arrow_left, ahead, padd, rotate, pt_of_pose. cbn [px py]. f_equal; ring. Qed.
Lemma right_ahead q s : arrow_right q s = ahead q (12 * s) (5 * s).
Proof. unfold arrow_right, ahead, padd, rotate, pt_of_pose. cbn [px py]. f_equal; ring. Qed.
Definition arrow (pix : pt -> Z * Z) (col : colour) (s : R) (t : Z) (q : pose) : list cmd :=
  let a := pix (ahead q 0 0) in let tip := pix (ahead q (18 * s) 0) in
  [DLine a tip col t; DLine tip (pix (ahead q (12 * s) (- (5 * s)))) col t; DLine tip (pix (ahead q (12 * s) (5 * s))) col t].
Definition billion : R := 1000000000.
Definition near_origin (p : pt) : Prop := Rabs (px p) <= billion /\ Rabs (py p) <= billion.
Lemma near_drawable p h k : (0 <= h <= 1000000000)%Z -> 0 <= k <= 1000 -> Rabs (px p) <= billion + k -> Rabs (py p) <= billion + k -> drawable p h.
Proof.
  unfold billion. intros Hh Hk H1 H2. assert (0 <= IZR h <= 1000000000) by (split; apply IZR_le; lia).
  apply Rabs_le_inv in H1. apply Rabs_le_inv in H2. split; split; lra.
Qed.
Lemma ahead_near q f l : near_origin (pt_of_pose q) -> Rabs f <= 18 -> Rabs l <= 18 -> Rabs (px (ahead q f l)) <= billion + 36 /\ Rabs (py (ahead q f l)) <= billion + 36.
Proof.
  unfold near_origin, pt_of_pose, ahead. cbn [px py]. intros [H1 H2] Hf Hl.
  assert (M : forall a t, Rabs a <= 18 -> -1 <= t <= 1 -> Rabs (a * t) <= 18).
  { intros a t Ha Ht. rewrite Rabs_mult. assert (Rabs t <= 1) by (apply Rabs_le; lra). pose proof (Rabs_pos a). pose proof (Rabs_pos t). nra. }
  pose proof (M f (cos (po_th q)) Hf (COS_bound _)) as A1. pose proof (M f (sin (po_th q)) Hf (SIN_bound _)) as A2.
  pose proof (M l (cos (po_th q)) Hl (COS_bound _)) as A3. pose proof (M l (sin (po_th q)) Hl (SIN_bound _)) as A4.
  apply Rabs_le_inv in H1, H2, A1, A2, A3, A4. split; apply Rabs_le; lra.
Qed.
Lemma arrow_ok h q col s : (0 <= h <= 1000000000)%Z -> near_origin (pt_of_pose q) -> 0 <= s <= 1 ->
  draw_arrow h q col s = Some (arrow (pixel_at h) col s (Ztrunc (2 * s)) q).
Proof.
  intros Hh Hq Hs. unfold draw_arrow. rewrite cast_ok by (split; lra). cbn [obind].
  rewrite tip_ahead, left_ahead, right_ahead. assert (E : pt_of_pose q = ahead q 0 0) by (unfold pt_of_pose, ahead; f_equal; ring). rewrite E.
  assert (D : forall f l, Rabs f <= 18 -> Rabs l <= 18 -> p2cv (ahead q f l) h = Some (pixel_at h (ahead q f l))).
  { intros f l Hf Hl. destruct (ahead_near q f l Hq Hf Hl) as [D1 D2]. apply p2cv_ok. apply (near_drawable _ h 36); (assumption || lra). }
  rewrite !D by (apply Rabs_le; lra). reflexivity.
Qed.

(** ** The loop over the poses *)
Lemma set_pts (l l' : list (siter pose)) x : forall i y, nth_error l i = Some y -> si_pts pose x = si_pts pose y -> list_set l i x = Some l' -> map (@si_pts pose) l' = map (@si_pts pose) l.
Proof.
  revert l'. induction l as [|a l IH]; intros l' [|i] y E P H; cbn in E, H; try discriminate.
  - injection E as ->. injection H as <-. cbn. rewrite P. reflexivity.
  - destruct (list_set l i x) as [k|] eqn:K; [|discriminate]. injection H as <-. cbn. rewrite (IH k i y E P K). reflexivity.
Qed.
Definition pts_of (c : citer pose) : list (list pose) := map (@si_pts pose) (ci_segs pose c).
Lemma has_next_pts c b c' : c_has_next pose c = Some (b, c') -> pts_of c' = pts_of c.
Proof.
  unfold c_has_next. destruct (nth_error _ _) as [s|]; [|intros E; injection E as <- <-; reflexivity].
  destruct (s_has_next pose s); cbn [obind]; [|discriminate]. intros E. injection E as <- <-. reflexivity.
Qed.
Lemma next_pts : forall f c a c', c_next pose pose0 f c = Some (a, c') -> pts_of c' = pts_of c.
Proof.
  induction f as [|f IH]; intros c a c' E; [discriminate|]. cbn [c_next] in E.
  destruct (nth_error (ci_segs pose c) (ci_out pose c)) as [s|] eqn:Es; [|discriminate]. cbn [obind] in E.
  destruct (s_has_next pose s) as [b|]; [|discriminate]. cbn [obind] in E. destruct b.
  - unfold s_next in E. destruct (si_on pose s); [|discriminate]. destruct (nth_error (si_pts pose s) (si_out pose s)) as [x|]; [|discriminate]. cbn [obind fst snd] in E.
    destruct (list_set _ _ _) as [segs|] eqn:El; [|discriminate]. cbn [obind] in E. injection E as <- <-. unfold pts_of. cbn [ci_segs]. eapply set_pts; [exact Es| |exact El]; reflexivity.
  - destruct (c_has_next pose c) as [[h c1]|] eqn:Eh; [|discriminate]. cbn [obind fst snd] in E. apply has_next_pts in Eh. destruct h; [|injection E as <- <-; exact Eh].
    destruct (nth_error (ci_segs pose c1) (S (ci_out pose c1))) as [n|] eqn:En; [|discriminate]. cbn [obind] in E.
    destruct (list_set _ _ _) as [segs|] eqn:El; [|discriminate]. cbn [obind] in E. apply IH in E. rewrite E. unfold pts_of at 1. cbn [ci_segs]. rewrite <- Eh.
    eapply set_pts; [exact En| |exact El]; reflexivity.
Qed.
Lemma walk_drain : forall n c l, drain pose pose0 n c = Some (l, true) -> exists c', walk n c = Some (l, c') /\ pts_of c' = pts_of c.
Proof.
  induction n as [|n IH]; intros c l E; cbn [drain walk] in *.
  - destruct (c_has_next pose c) as [[h c1]|] eqn:Eh; [|discriminate]. cbn [obind fst snd] in *. destruct h; [discriminate|]. injection E as <-.
    exists c1. split; [reflexivity|]. apply has_next_pts in Eh. exact Eh.
  - destruct (c_has_next pose c) as [[h c1]|] eqn:Eh; [|discriminate]. cbn [obind fst snd] in *. pose proof (has_next_pts _ _ _ Eh) as P. destruct h.
    + destruct (c_next pose pose0 _ c1) as [[a c2]|] eqn:En; [|discriminate]. cbn [obind fst snd] in *. apply next_pts in En.
      destruct (drain pose pose0 n c2) as [[t b]|] eqn:Ed; [|discriminate]. cbn [obind fst snd] in *. injection E as <- ->.
      destruct (IH c2 t Ed) as (c' & Ew & Q). rewrite Ew. cbn [obind fst snd]. exists c'. split; [reflexivity|]. congruence.
    + injection E as <-. exists c1. split; [reflexivity|exact P].
Qed.
Lemma reset_pts c : pts_of (c_reset pose c) = pts_of c.
Proof. unfold pts_of, c_reset. cbn [ci_segs]. rewrite map_map. reflexivity. Qed.

(** ** C81: the picture of a curve *)
(** The circles and lines of the segments. *)
Definition seg_shape (pix : pt -> Z * Z) (rad : R -> Z) (bg : colour) (s : seg) : list cmd :=
  match s with
  | SegC c => [DCircle (pix (cs_c c)) (rad (cs_r c)) bg 4; DText (pix (cs_c c))]
  | SegL l => [DLine (pix (ls_a l)) (pix (ls_b l)) bg 4]
  end.
Definition seg_near (s : seg) : Prop :=
  match s with SegC c => near_origin (cs_c c) /\ 0 <= cs_r c <= billion | SegL l => near_origin (ls_a l) /\ near_origin (ls_b l) end.
(** Everything drawn: shapes, lines along the trajectory, an arrow at each of its poses,
    the goal and the start. *)
Definition drawing (pix : pt -> Z * Z) (rad : R -> Z) (bg : colour) (sq : list seg) (start goal : pose) (l : list pose) : list cmd :=
  flat_map (seg_shape pix rad bg) sq ++ chain (100, 100, 100)%Z 1 (pix (pt_of_pose start)) (map (fun q => pix (pt_of_pose q)) l) ++
  flat_map (arrow pix (200, 200, 200)%Z small 0) l ++ arrow pix (50, 50, 200)%Z 1 2 goal ++ arrow pix (50, 200, 50)%Z 1 2 start.

Lemma each_ok {A} (f : A -> option (list cmd)) g (l : list A) : (forall a, In a l -> f a = Some (g a)) -> each f l = Some (flat_map g l).
Proof.
  induction l as [|a l IH]; intros H; [reflexivity|]. cbn [each flat_map]. rewrite (H a (or_introl eq_refl)), IH by (intros b Hb; apply H; right; exact Hb). reflexivity.
Qed.
Lemma near_p2cv h p : (0 <= h <= 1000000000)%Z -> near_origin p -> p2cv p h = Some (pixel_at h p).
Proof. intros Hh [H1 H2]. apply p2cv_ok. apply (near_drawable p h 0); [exact Hh|lra|lra|lra]. Qed.
Lemma lines_ok h : (0 <= h <= 1000000000)%Z -> forall l q, (forall p, In p (q :: l) -> near_origin (pt_of_pose p)) ->
  draw_lines h q l = Some (chain (100, 100, 100)%Z 1 (pixel_at h (pt_of_pose q)) (map (fun q => pixel_at h (pt_of_pose q)) l)).
Proof.
  intros Hh. induction l as [|n l IH]; intros q H; [reflexivity|]. cbn [draw_lines map chain].
  rewrite !near_p2cv by (try exact Hh; apply H; cbn; tauto). cbn [obind]. rewrite IH by (intros p Hp; apply H; right; exact Hp). reflexivity.
Qed.
Lemma small_cut : Ztrunc (2 * small) = 0%Z.
Proof. unfold small. rewrite Ztrunc_floor by lra. apply Zfloor_imp. cbn. lra. Qed.
Lemma one_cut : Ztrunc (2 * 1) = 2%Z.
Proof. rewrite Ztrunc_floor by lra. apply Zfloor_imp. cbn. lra. Qed.

Lemma draw_ok n h bg w start goal sq c l : (0 <= h <= 1000000000)%Z -> is_valid w = true ->
  (forall d, pts_of d = pts_of c -> drain pose pose0 n (c_reset pose d) = Some (l, true)) ->
  (forall s, In s sq -> seg_near s) -> (forall q, In q (start :: goal :: l) -> near_origin (pt_of_pose q)) ->
  draw n false h bg w start goal sq c = Some (drawing (pixel_at h) Ztrunc bg sq start goal l).
Proof.
  intros Hh Hw Hd Hs Hq. unfold draw. rewrite Hw. cbv iota.
  assert (Hsm : 0 <= small <= 1) by (unfold small; lra).
  assert (G : each (draw_seg h bg) sq = Some (flat_map (seg_shape (pixel_at h) Ztrunc bg) sq)).
  { apply each_ok. intros [ls|cs] Hi; specialize (Hs _ Hi); cbn [seg_near] in Hs; destruct Hs as [S1 S2]; cbn [draw_seg seg_shape].
    - rewrite !near_p2cv by assumption. reflexivity.
    - rewrite near_p2cv by assumption. cbn [obind]. unfold billion in S2. rewrite cast_ok by (split; lra). reflexivity. }
  rewrite G. cbn [obind].
  destruct (walk_drain n (c_reset pose c) l (Hd c eq_refl)) as (c1 & E1 & P1). rewrite E1. cbn [obind fst snd].
  rewrite (lines_ok h Hh l start) by (intros p [<-|Hp]; apply Hq; cbn; tauto). cbn [obind].
  rewrite reset_pts in P1. destruct (walk_drain n (c_reset pose c1) l (Hd c1 P1)) as (c2 & E2 & _). rewrite E2. cbn [obind fst snd].
  assert (A : each (fun s => draw_arrow h s (200, 200, 200)%Z small) l = Some (flat_map (arrow (pixel_at h) (200, 200, 200)%Z small 0) l)).
  { apply each_ok. intros q Hi. rewrite arrow_ok; [rewrite small_cut; reflexivity|exact Hh|apply Hq; right; right; exact Hi|exact Hsm]. }
  rewrite A. cbn [obind]. rewrite !arrow_ok by (try lra; try exact Hh; apply Hq; cbn; tauto). rewrite one_cut. reflexivity.
Qed.

(** A valid curve whose coordinates are at most a billion: exactly the drawing, each point
    less than a pixel from where it belongs. *)
Theorem C81_curve : forall ls n h bg w start goal sq c, (0 <= h <= 1000000000)%Z -> is_valid w = true -> curve_of ls c -> ends_with_points ls -> (length (concat ls) <= n)%nat ->
  (forall s, In s sq -> seg_near s) -> (forall q, In q (start :: goal :: concat ls) -> near_origin (pt_of_pose q)) ->
  exists pix rad, (forall p, drawable p h -> close p h (pix p)) /\ (forall d, cut d (rad d)) /\
    draw n false h bg w start goal sq c = Some (drawing pix rad bg sq start goal (concat ls)).
Proof.
  intros ls n h bg w start goal sq c Hh Hw Hc He Hn Hs Hq. exists (pixel_at h), Ztrunc. split; [intros p Hp; apply p2cv_ok; exact Hp|]. split.
  - intros d Hd. rewrite Ztrunc_floor by exact Hd. split; [apply Zfloor_lb|apply Zfloor_ub].
  - apply draw_ok; try assumption. intros d Hd. apply (C39_iterate pose0 ls); try assumption. unfold curve_of, pts_of in *. congruence.
Qed.
(** If the last segment has no poses (and is not the only one), a line from the last pose
    to the corner of the picture is drawn as well: the trajectory ends with the default
    pose. *)
Theorem C81_stray_refuted : forall ls l n h bg w start goal sq c, (0 <= h <= 1000000000)%Z -> is_valid w = true -> curve_of (l :: ls ++ [[]]) c -> (length (concat (l :: ls)) < n)%nat ->
  (forall s, In s sq -> seg_near s) -> (forall q, In q (start :: goal :: concat (l :: ls)) -> near_origin (pt_of_pose q)) ->
  exists pix rad cmds a, (forall p, drawable p h -> close p h (pix p)) /\ draw n false h bg w start goal sq c = Some cmds /\
    cmds = drawing pix rad bg sq start goal (concat (l :: ls) ++ [pose0]) /\ In (DLine a (0, h)%Z (100, 100, 100)%Z 1) cmds.
Proof.
  intros ls l n h bg w start goal sq c Hh Hw Hc Hn Hs Hq. exists (pixel_at h), Ztrunc.
  assert (E0 : pixel_at h (pt_of_pose pose0) = (0, h)%Z).
  { unfold pixel_at, pt_of_pose, pose0. cbn [po_x po_y px py]. replace (IZR h - 0) with (IZR h) by ring. rewrite !Ztrunc_IZR. reflexivity. }
  exists (drawing (pixel_at h) Ztrunc bg sq start goal (concat (l :: ls) ++ [pose0])). assert (exists a, In (DLine a (0, h)%Z (100, 100, 100)%Z 1) (chain (100, 100, 100)%Z 1 (pixel_at h (pt_of_pose start)) (map (fun q => pixel_at h (pt_of_pose q)) (concat (l :: ls) ++ [pose0])))) as (a & Ha).
  { generalize (pixel_at h (pt_of_pose start)). generalize (concat (l :: ls)). intros k. induction k as [|x k IH]; intros b.
    - exists b. cbn [app map chain]. rewrite E0. left. reflexivity.
    - cbn [app map chain]. destruct (IH (pixel_at h (pt_of_pose x))) as (a & Ha). exists a. right. exact Ha. }
  exists a. split; [intros p Hp; apply p2cv_ok; exact Hp|]. split; [apply (draw_ok n h bg w start goal sq c (concat (l :: ls) ++ [pose0])); try assumption|].
  - intros d Hd. apply (C39_iterate_refuted pose0 ls l); [|exact Hn]. unfold curve_of, pts_of in *. congruence.
  - intros q [<-|[<-|Hin]]; [apply Hq; cbn; tauto|apply Hq; cbn; tauto|]. apply in_app_or in Hin. destruct Hin as [Hin|[<-|[]]]; [apply Hq; right; right; exact Hin|].
    unfold near_origin, pt_of_pose, pose0, billion. cbn [po_x po_y px py]. rewrite Rabs_R0. lra.
  - split; [reflexivity|]. unfold drawing. apply in_or_app. right. apply in_or_app. left. exact Ha.
Qed.
(** The arrows on the trajectory are lines of thickness 0. *)
Theorem C81_thin_refuted : forall ls n h bg w start goal sq c, (0 <= h <= 1000000000)%Z -> is_valid w = true -> curve_of ls c -> ends_with_points ls -> (length (concat ls) <= n)%nat ->
  (forall s, In s sq -> seg_near s) -> (forall q, In q (start :: goal :: concat ls) -> near_origin (pt_of_pose q)) -> concat ls <> [] ->
  exists cmds a b col, draw n false h bg w start goal sq c = Some cmds /\ In (DLine a b col 0) cmds.
Proof.
  intros ls n h bg w start goal sq c Hh Hw Hc He Hn Hs Hq Hne. destruct (C81_curve ls n h bg w start goal sq c Hh Hw Hc He Hn Hs Hq) as (pix & rad & _ & _ & E).
  clear - E Hne. destruct (concat ls) as [|q l]; [congruence|]. eexists _, _, _, _. split; [exact E|]. unfold drawing.
  apply in_or_app. right. apply in_or_app. right. apply in_or_app. left. left. reflexivity.
Qed.
(** Nothing is drawn of a curve without result, or into an empty picture. *)
Theorem C81_nothing : forall n empty h bg w start goal sq c, empty = true \/ is_valid w = false -> draw n empty h bg w start goal sq c = Some [].
Proof. intros n empty h bg w start goal sq c H. unfold draw. destruct H as [-> | ->]; [reflexivity|destruct empty; reflexivity]. Qed.

(** A map with a free, an unknown and an occupied cell. *)
Definition small_map : gridmap := GridMap 3 1 [10; 100; 255]%Z 50 200 (-1).
Example C81_map_case : gm_wf small_map /\ bytes small_map /\ room small_map (Canvas 2 4 (fun _ _ => (7, 7, 7)%Z)) /\
  exists j, draw_map small_map (Canvas 2 4 (fun _ _ => (7, 7, 7)%Z)) = Some j /\
    map (fun c => cv_pix j c 1%Z) [0; 1; 2; 3]%Z = [(255, 255, 255); (155, 0, 0); (0, 0, 0); (7, 7, 7)]%Z /\ cv_pix j 0%Z 0%Z = (7, 7, 7)%Z.
Proof.
  split; [unfold gm_wf; cbn; lia|]. split; [unfold bytes; cbn [gm_data small_map]; repeat constructor; lia|]. split; [unfold room; cbn; lia|].
  eexists. split; [vm_compute; reflexivity|]. split; reflexivity.
Qed.
Example C81_curve_case : exists ls c sq (start goal : pose), is_valid 5 = true /\ curve_of ls c /\ ends_with_points ls /\ (length (concat ls) = 3)%nat /\ length sq = 2%nat /\
  (forall s, In s sq -> seg_near s) /\ (forall q, In q (start :: goal :: concat ls) -> near_origin (pt_of_pose q)).
Proof.
  assert (A : forall t, 0 <= t <= 100 -> Rabs t <= billion) by (intros t Ht; unfold billion; apply Rabs_le; lra).
  exists [[Pose 1 1 0; Pose 2 1 0]; [Pose 3 2 1]], (CI pose [SI pose [Pose 1 1 0; Pose 2 1 0] 1 false; SI pose [Pose 3 2 1] 0 true] 1 false),
    [SegL (LS Forward (Pt 1 1) (Pt 2 1)); SegC (CSeg LeftC Forward (Pt 2 3) 2 0 1)], (Pose 0 1 0), (Pose 3 2 1).
  split; [|split; [reflexivity|]; split; [|split; [reflexivity|]; split; [reflexivity|]; split]].
  - unfold is_valid. destruct (Rlt_dec 5 (1 / 1000)) as [L|_]; [exfalso; lra|]. unfold NOT_FREE. apply Rltb_spec. lra.
  - right. exists [[Pose 1 1 0; Pose 2 1 0]], [Pose 3 2 1]. split; [reflexivity|discriminate].
  - intros s [<-|[<-|[]]]; cbn [seg_near ls_a ls_b cs_c cs_r]; unfold near_origin; cbn [px py]; repeat split; try (apply A; lra); unfold billion; lra.
  - intros q Hq. cbn in Hq. unfold near_origin, pt_of_pose. repeat (destruct Hq as [<-|Hq]; [cbn [px py po_x po_y]; split; apply A; lra|]). destruct Hq.
Qed.
