(** C41: the cells a circle segment is tested on. *)
From Coq Require Import Reals Lra.
From Flocq Require Import Core.Raux.
From Verif Require Import Base GeomR PropGeom RSParse RSModel PropRSArc.
Local Open Scope Z_scope.

(** ** Specification: the discretised circle of radius [r] *)
Definition ring (r : Z) (u v : Z) : Prop :=
  let M := Z.max (Z.abs u) (Z.abs v) in let m := Z.min (Z.abs u) (Z.abs v) in
  M * M + m * m < r * r + r <= (M + 1) * (M + 1) + m * m.

(** It is one cell thick: its cells are less than a cell away from the circle. *)
Theorem C41_ring_near : forall r u v, 1 <= r -> ring r u v ->
  (r - 1) * (r - 1) < u * u + v * v < r * r + r /\ (IZR r - 1 < hyp (IZR u) (IZR v) < IZR r + / 2)%R.
Proof.
  intros r u v Hr H. unfold ring in H. cbv zeta in H.
  assert (Q : u * u + v * v = Z.max (Z.abs u) (Z.abs v) * Z.max (Z.abs u) (Z.abs v) + Z.min (Z.abs u) (Z.abs v) * Z.min (Z.abs u) (Z.abs v)).
  { rewrite <- (Z.abs_square u), <- (Z.abs_square v). destruct (Z.max_spec (Z.abs u) (Z.abs v)) as [[? ->]|[? ->]]; destruct (Z.min_spec (Z.abs u) (Z.abs v)) as [[? ->]|[? ->]]; try ring.
    - lia.
    - assert (Z.abs u = Z.abs v) as -> by lia. ring. }
  set (M := Z.max _ _) in *. set (m := Z.min _ _) in *. assert (0 <= m <= M) by lia. clearbody M m.
  assert (B : (r - 1) * (r - 1) < u * u + v * v < r * r + r).
  { rewrite Q. split; [|lia]. destruct (Z.lt_ge_cases ((r - 1) * (r - 1)) (M * M + m * m)) as [X|X]; [exact X|]. exfalso.
    assert (M <= r - 1) by (clear - X Hr H0; nia). clear Q. nia. }
  split; [exact B|]. destruct B as [B1 B2]. apply IZR_lt in B1, B2. 
  rewrite !plus_IZR, !mult_IZR, !minus_IZR in B1. rewrite !plus_IZR, !mult_IZR in B2.
  pose proof (hyp_sq (IZR u) (IZR v)). pose proof (hyp_nonneg (IZR u) (IZR v)). assert (1 <= IZR r)%R by (apply (IZR_le 1); lia).
  set (h := hyp (IZR u) (IZR v)) in *. clearbody h. clear - H1 H2 B1 B2 H3. split; apply Rnot_le_lt; intros X; nra.
Qed.

(** ** The midpoint loop *)
Definition oct (r x y : Z) : Prop := 0 <= y <= x /\ x * x + y * y < r * r + r <= (x + 1) * (x + 1) + y * y.
Lemma oct_unique r x x' y : oct r x y -> oct r x' y -> x = x'.
Proof. unfold oct. intros H1 H2. assert (~ x < x') by nia. assert (~ x' < x) by nia. lia. Qed.

Lemma mid_loop_spec r : forall fuel x y, 0 <= y -> y - 1 <= x -> x * x + y * y < r * r + r \/ x < y -> r * r + r <= (x + 1) * (x + 1) + y * y ->
  (Z.of_nat fuel > x - y + 1) ->
  exists l, mid_loop fuel x y (x * x + y * y - r * r - r) = Some l /\
    (forall x' y', In (x', y') l <-> oct r x' y' /\ y <= y') /\ NoDup (map snd l).
Proof.
  induction fuel as [|f IH]; intros x y Hy Hx H1 H2 Hf; [lia|]. cbn [mid_loop]. destruct (Z.geb_spec x y) as [C|C].
  2: { exists []. split; [reflexivity|]. split; [|constructor]. intros x' y'. split; [intros []|]. intros [[B1 B2] B3]. assert (x' < x + 1) by nia. lia. }
  destruct H1 as [H1|H1]; [|lia]. cbv zeta.
  set (e1 := x * x + y * y - r * r - r + y + (y + 1)) in *. assert (E1 : e1 = x * x + (y + 1) * (y + 1) - r * r - r) by (unfold e1; ring). clearbody e1.
  assert (HEAD : oct r x y) by (unfold oct; lia).
  assert (R : exists l, (if e1 >=? 0 then mid_loop f (x - 1) (y + 1) (e1 - x - (x - 1)) else mid_loop f x (y + 1) e1) = Some l /\
      (forall x' y', In (x', y') l <-> oct r x' y' /\ y + 1 <= y') /\ NoDup (map snd l)).
  { destruct (Z.geb_spec e1 0) as [G|G].
    - replace (e1 - x - (x - 1)) with ((x - 1) * (x - 1) + (y + 1) * (y + 1) - r * r - r) by (rewrite E1; ring).
      destruct (Z.lt_ge_cases (x - 1) (y - 0)) as [D|D].
      + (* x = y: the loop ends *) assert (x = y) by lia. subst x. destruct f as [|f']; [lia|]. exists []. cbn [mid_loop].
        destruct (Z.geb_spec (y - 1) (y + 1)); [lia|]. split; [reflexivity|]. split; [|constructor]. intros x' y'. split; [intros []|]. intros [[B1 B2] B3]. exfalso. nia.
      + apply IH; [lia|lia| |lia|lia]. destruct (Z.lt_ge_cases (x - 1) (y + 1)); [right; lia|left; lia].
    - rewrite E1. apply IH; try lia. }
  destruct R as (l & -> & HI & ND). cbn [obind]. exists ((x, y) :: l). split; [reflexivity|]. split.
  - intros x' y'. cbn [In]. rewrite HI. split.
    + intros [E|[H3 H4]]; [injection E as <- <-; split; [exact HEAD|lia]|split; [exact H3|lia]].
    + intros [H3 H4]. destruct (Z.eq_dec y y') as [<-|]; [left; f_equal; apply (oct_unique r x x' y); assumption|right; split; [exact H3|lia]].
  - cbn [map snd]. constructor; [|exact ND]. intros H. apply in_map_iff in H. destruct H as ([a b] & Eb & Hab). cbn in Eb. subst b. apply HI in Hab. lia.
Qed.

(** ** The cells *)
Lemma NoDup_app {A} (l1 l2 : list A) : NoDup l1 -> NoDup l2 -> (forall x, In x l1 -> In x l2 -> False) -> NoDup (l1 ++ l2).
Proof.
  intros H1 H2 H. induction l1 as [|a l1 IH]; [exact H2|]. apply NoDup_cons_iff in H1. destruct H1 as [N1 N2]. cbn. constructor.
  - rewrite in_app_iff. intros [X|X]; [tauto|]. apply (H a); [left; reflexivity|exact X].
  - apply IH; [assumption|]. intros x X1 X2. apply (H x); [right; assumption|assumption].
Qed.
Definition ring_cells (cx cy : Z) (l : list (Z * Z)) : list (Z * Z) := flat_map (fun xy => eight cx cy (fst xy) (snd xy)) l.
Lemma in_four cx cy x y u v : 0 <= x -> 0 <= y -> In (u, v) (four cx cy x y) <-> Z.abs (u - cx) = x /\ Z.abs (v - cy) = y.
Proof.
  intros Hx Hy. unfold four. cbn [In]. rewrite !in_app_iff.
  assert (T : forall (b : bool) (a c : Z), In (u, v) (if b then [] else [(a, c)]) <-> b = false /\ u = a /\ v = c).
  { intros b a c. destruct b; cbn; [split; [tauto|intros [H _]; discriminate]|]. split; [intros [E|[]]; injection E as <- <-; auto|intros (_ & -> & ->); auto]. }
  rewrite !T, orb_false_iff, !Z.eqb_neq. split.
  - intros [E|H]; [injection E as <- <-; lia|lia].
  - intros [H1 H2]. destruct (Z.le_gt_cases 0 (u - cx)); destruct (Z.le_gt_cases 0 (v - cy)); [left; f_equal; lia|right|right|right]; lia.
Qed.
Lemma nodup_four cx cy x y : 0 <= x -> 0 <= y -> NoDup (four cx cy x y).
Proof.
  intros Hx Hy. unfold four. destruct (Z.eqb_spec x 0); destruct (Z.eqb_spec y 0); cbn [orb app]; repeat constructor; cbn [In]; intros H;
    repeat (destruct H as [E|H]; [injection E; intros; lia|]); exact H.
Qed.
Lemma in_eight cx cy x y u v : 0 <= x -> 0 <= y -> In (u, v) (eight cx cy x y) <->
  (Z.abs (u - cx) = x /\ Z.abs (v - cy) = y) \/ (Z.abs (u - cx) = y /\ Z.abs (v - cy) = x).
Proof.
  intros Hx Hy. unfold eight. rewrite in_app_iff, in_four by assumption. destruct (Z.eqb_spec x y) as [->|]; [cbn [In]; tauto|]. rewrite in_four by assumption. tauto.
Qed.
Lemma nodup_eight cx cy x y : 0 <= x -> 0 <= y -> NoDup (eight cx cy x y).
Proof.
  intros Hx Hy. unfold eight. destruct (Z.eqb_spec x y) as [->|N]; [rewrite app_nil_r; apply nodup_four; assumption|].
  apply NoDup_app; [apply nodup_four; assumption|apply nodup_four; assumption|].
  intros [u v] H1 H2. apply in_four in H1; [|assumption..]. apply in_four in H2; [|assumption..]. lia.
Qed.
Lemma nodup_flat (cx cy : Z) : forall l, (forall x y, In (x, y) l -> 0 <= y <= x) -> NoDup (map snd l) -> NoDup (ring_cells cx cy l).
Proof.
  induction l as [|[x y] l IH]; intros H ND; [constructor|]. cbn [ring_cells flat_map map snd fst] in *. apply NoDup_cons_iff in ND. destruct ND as [N1 N2].
  assert (Hxy : 0 <= y <= x) by (apply H; left; reflexivity).
  apply NoDup_app; [apply nodup_eight; lia|apply IH; [intros; apply H; right; assumption|assumption]|].
  intros [u v] I1 I2. apply in_eight in I1; [|lia..]. apply in_flat_map in I2. destruct I2 as ([x' y'] & I2 & I3). cbn [fst snd] in I3.
  assert (Hxy' : 0 <= y' <= x') by (apply H; right; assumption). apply in_eight in I3; [|lia..].
  assert (y = y') by lia. subst y'. apply N1. apply in_map_iff. exists (x', y). split; [reflexivity|assumption].
Qed.

(** The cells visited are exactly those of the ring, each once. *)
Theorem C41_ring : forall cx cy r, 1 <= r ->
  exists l, mid_loop (Z.to_nat r + 2) r 0 (- r) = Some l /\ NoDup (ring_cells cx cy l) /\
    forall u v, In (u, v) (ring_cells cx cy l) <-> ring r (u - cx) (v - cy).
Proof.
  intros cx cy r Hr. destruct (mid_loop_spec r (Z.to_nat r + 2) r 0) as (l & El & HI & ND); try lia.
  replace (r * r + 0 * 0 - r * r - r) with (- r) in El by ring. exists l. split; [exact El|]. split.
  - apply nodup_flat; [|exact ND]. intros x y H. apply HI in H. unfold oct in H. lia.
  - intros u v. unfold ring_cells. rewrite in_flat_map. unfold ring. cbv zeta. split.
    + intros ([x y] & H1 & H2). cbn [fst snd] in H2. apply HI in H1. destruct H1 as [[O1 O2] _]. apply in_eight in H2; [|lia..].
      destruct H2 as [[-> ->]|[-> ->]]; [rewrite Z.max_l, Z.min_r by lia|rewrite Z.max_r, Z.min_l by lia]; lia.
    + intros H. exists (Z.max (Z.abs (u - cx)) (Z.abs (v - cy)), Z.min (Z.abs (u - cx)) (Z.abs (v - cy))). cbn [fst snd]. split; [apply HI; unfold oct; split; [split; [lia|lia]|lia]|apply in_eight; lia].
Qed.

(** ** The weight *)
Local Open Scope R_scope.
(** Cell [q] is on the arc: its direction from the (rounded) centre is passed. *)
Definition arc_cell (clamp : R -> R) (c : cseg) (cx cy r : Z) (q : Z * Z) : Prop :=
  ring r (fst q - cx) (snd q - cy) /\ passes clamp c (atan2 (IZR (snd q - cy)) (IZR (fst q - cx))).
Definition sum_cost (m : rmap) (minc : Z) (l : list (Z * Z)) : Z := fold_right (fun c a => (Z.max minc (rm_val m (fst c) (snd c)) + a)%Z) 0%Z l.

Lemma fold_pixels (f : Z * Z -> bool * Z) : forall l b z,
  fold_left (fun acc q => let t := f q in (fst acc && fst t, (snd acc + snd t)%Z)) l (b, z) =
  (b && forallb (fun q => fst (f q)) l, (z + fold_right (fun q a => (snd (f q) + a)%Z) 0%Z l)%Z).
Proof.
  induction l as [|q l IH]; intros b z; cbn [fold_left forallb fold_right]; [rewrite andb_true_r, Z.add_0_r; reflexivity|]. cbv zeta in IH |- *. cbn [fst snd]. rewrite IH.
  rewrite andb_assoc, Z.add_assoc. reflexivity.
Qed.

(** An arc is found blocked exactly if (a cell of the arc is not free or off the map,
    or) any cell of the whole circle is off the map; otherwise its weight is the length
    (or the sum of the costs of its cells, each counted once) times the cost factors. *)
Theorem C41_weight : forall clamp m p c ignore cx cy r, Clamp_halfopen clamp -> 0 < rp_maxd p ->
  cast_i32 (px (cs_c c)) = Some cx -> cast_i32 (py (cs_c c)) = Some cy -> cast_i32 (cs_r c) = Some r -> (1 <= r)%Z ->
  exists w cells, circle_weight clamp m p c ignore = Some w /\
    NoDup cells /\ (forall q, In q cells <-> arc_cell clamp c cx cy r q /\ rm_in m (fst q) (snd q) = true) /\
    (ignore = false /\ (exists q, (ring r (fst q - cx) (snd q - cy) /\ rm_in m (fst q) (snd q) = false) \/ (arc_cell clamp c cx cy r q /\ rm_in m (fst q) (snd q) = true /\ rm_free m (fst q) (snd q) = false)) ->
      w = NOT_FREE) /\
    (ignore = true \/ ((forall q, ring r (fst q - cx) (snd q - cy) -> rm_in m (fst q) (snd q) = true) /\ (forall q, arc_cell clamp c cx cy r q -> rm_free m (fst q) (snd q) = true)) ->
      w = if rp_use_map p then dir_cost p (cs_dir c) * IZR (sum_cost m (rp_min_cell p) cells) * rp_curve p / rm_res m
          else cs_length clamp c * dir_cost p (cs_dir c) * rp_curve p).
Proof.
  intros clamp m p c ignore cx cy r Hcl Hm Cx Cy Cr Hr. destruct (C41_ring cx cy r Hr) as (l & El & ND & HI).
  assert (Hrad : 0 < cs_r c).
  { apply cast_i32_trunc in Cr. destruct Cr as [Er _]. destruct (Rlt_or_le 0 (cs_r c)) as [X|X]; [exact X|]. apply trunc_neg in X. lia. }
  unfold circle_weight. rewrite Cx, Cy, Cr. cbn [obind]. unfold check_circle. rewrite El. cbn [obind]. rewrite fold_pixels. fold (ring_cells cx cy l).
  set (tp := test_pixel clamp m p c ignore cx cy) in *.
  set (on := fun q : Z * Z => on_segment clamp (rp_maxd p) c (atan2 (IZR (snd q - cy)) (IZR (fst q - cx)))).
  assert (ON : forall q, on q = true <-> passes clamp c (atan2 (IZR (snd q - cy)) (IZR (fst q - cx)))) by (intros q; apply C41_on_arc; try assumption; apply atan2_range).
  assert (TP : forall q, tp q = if rm_in m (fst q) (snd q) then (if on q then (if ignore then true else rm_free m (fst q) (snd q), Z.max (rp_min_cell p) (rm_val m (fst q) (snd q))) else (true, 0%Z)) else (false, 0%Z)) by reflexivity.
  set (cells := filter (fun q => rm_in m (fst q) (snd q) && on q) (ring_cells cx cy l)).
  assert (CI : forall q, In q cells <-> arc_cell clamp c cx cy r q /\ rm_in m (fst q) (snd q) = true).
  { intros [u v]. unfold cells, arc_cell. rewrite filter_In, andb_true_iff, HI, ON. cbn [fst snd]. tauto. }
  assert (SC : fold_right (fun q a => (snd (tp q) + a)%Z) 0%Z (ring_cells cx cy l) = sum_cost m (rp_min_cell p) cells).
  { unfold cells. clear - TP. induction (ring_cells cx cy l) as [|q t IH]; [reflexivity|]. cbn [fold_right filter]. rewrite IH, TP.
    destruct (rm_in m (fst q) (snd q)); [|reflexivity]. cbn [andb]. destruct (on q); reflexivity. }
  rewrite SC. cbn [fst snd andb]. rewrite Z.add_0_l.
  assert (FA : forallb (fun q => fst (tp q)) (ring_cells cx cy l) = true <-> forall q, ring r (fst q - cx) (snd q - cy) -> rm_in m (fst q) (snd q) = true /\ (ignore = false -> arc_cell clamp c cx cy r q -> rm_free m (fst q) (snd q) = true)).
  { rewrite forallb_forall. split.
    - intros H [u v] Hq. specialize (H (u, v) ltac:(apply HI; exact Hq)). rewrite TP in H. cbn [fst snd] in *. destruct (rm_in m u v); [|discriminate]. split; [reflexivity|].
      intros -> [_ Hp]. apply ON in Hp. rewrite Hp in H. exact H.
    - intros H [u v] Hq. apply HI in Hq. destruct (H (u, v) Hq) as [H1 H2]. rewrite TP, H1. cbn [fst snd] in *. destruct (on (u, v)) eqn:O; [|reflexivity]. apply ON in O.
      destruct ignore; [reflexivity|]. apply H2; [reflexivity|]. split; assumption. }
  assert (NDc : NoDup cells) by (apply NoDup_filter; exact ND).
  destruct (ignore || forallb _ _) eqn:O.
  - exists (if rp_use_map p then dir_cost p (cs_dir c) * IZR (sum_cost m (rp_min_cell p) cells) * rp_curve p / rm_res m else cs_length clamp c * dir_cost p (cs_dir c) * rp_curve p), cells.
    split; [destruct (rp_use_map p); reflexivity|]. split; [exact NDc|]. split; [exact CI|]. split; [|reflexivity].
    intros [-> (q & [[Q1 Q2]|(Q1 & Q2 & Q3)])]; exfalso; cbn [orb] in O; rewrite FA in O.
    + destruct (O q Q1). congruence.
    + destruct (O q (proj1 Q1)) as [_ X]. specialize (X eq_refl Q1). congruence.
  - exists NOT_FREE, cells. split; [reflexivity|]. split; [exact NDc|]. split; [exact CI|]. split; [reflexivity|]. apply orb_false_iff in O. destruct O as [-> O].
    intros [X|[H1 H2]]; [discriminate|]. exfalso. assert (X : forallb (fun q => fst (tp q)) (ring_cells cx cy l) = true) by (apply FA; intros q Hq; split; [apply H1, Hq|intros _; apply H2]). congruence.
Qed.

(** Refuted: an arc all of whose cells are free cells of the map is reported blocked
    when the rest of its circle leaves the map. *)
Definition free_rmap (w h : Z) : rmap := RM w h (fun _ _ => 0%Z) (fun _ _ => true) 1.
Theorem C41_off_arc_refuted : forall clamp p w h r, Clamp_halfopen clamp -> 0 < rp_maxd p -> (1 <= r < 2147483648)%Z -> (r < w)%Z -> (r < h)%Z ->
  let c := CSeg LeftC Forward (Pt 0 0) (IZR r) 0 (PI / 2) in
  (forall q, arc_cell clamp c 0 0 r q -> rm_in (free_rmap w h) (fst q) (snd q) = true /\ rm_free (free_rmap w h) (fst q) (snd q) = true) /\
  circle_weight clamp (free_rmap w h) p c false = Some NOT_FREE.
Proof.
  intros clamp p w h r Hcl Hm Hr Hw Hh c. pose proof PI_RGT_0 as HP.
  assert (Cz : forall z, (-2147483648 <= z < 2147483648)%Z -> cast_i32 (IZR z) = Some z).
  { intros z Hz. unfold cast_i32. cbv zeta. rewrite Ztrunc_IZR. unfold in_i32. replace ((-2147483648 <=? z)%Z && (z <? 2147483648)%Z) with true by lia. reflexivity. }
  assert (HL : PI / 2 = arc_len clamp c).
  { apply (proj1 (C42_arc_unique clamp c (PI / 2) (halfopen_contract _ Hcl) ltac:(exists 0%Z; cbn [c cs_a0 cs_a1]; ring))); [left; split; reflexivity|lra]. }
  split.
  - intros [u v] [Hq (t & Ht & Ha)]. cbn [fst snd c cs_a0] in *. rewrite <- HL, !Z.sub_0_r in *. rewrite Rplus_0_l in Ha.
    set (a := atan2 (IZR v) (IZR u)) in *. assert (Ra := atan2_range (IZR v) (IZR u)). fold a in Ra.
    assert (Ea : a = t * (PI / 2)) by (apply angle_eq_unique; [exact Ha|nra]).
    destruct (atan2_polar (IZR v) (IZR u)) as [P1 P2]. fold a in P1, P2. pose proof (hyp_nonneg (IZR u) (IZR v)) as Hh0.
    assert (0 <= cos a) by (apply cos_ge_0; nra). assert (0 <= sin a) by (apply sin_ge_0; nra).
    assert (U : (0 <= u)%Z) by (apply le_IZR; rewrite <- P1; nra). assert (V : (0 <= v)%Z) by (apply le_IZR; rewrite <- P2; nra).
    split; [|reflexivity]. destruct (C41_ring_near r u v ltac:(lia) Hq) as [[_ N] _].
    assert (u <= r)%Z by nia. assert (v <= r)%Z by nia. unfold rm_in, free_rmap. cbn [rm_w rm_h]. lia.
  - destruct (C41_weight clamp (free_rmap w h) p c false 0 0 r Hcl Hm) as (x & cells & E & _ & _ & NF & _); try (apply Cz; lia); [lia|].
    rewrite E. f_equal. apply NF. split; [reflexivity|]. exists (- r, 0)%Z. left. cbn [fst snd]. rewrite !Z.sub_0_r. split.
    + unfold ring. cbv zeta. replace (Z.abs (- r)) with r by lia. change (Z.abs 0) with 0%Z. rewrite Z.max_l, Z.min_r by lia. lia.
    + unfold rm_in. replace (0 <=? - r)%Z with false by lia. reflexivity.
Qed.
Lemma sq_lt4 a b : (a * a + b * b < 3 * 3 + 3)%Z -> (-4 < a < 4 /\ -4 < b < 4)%Z.
Proof. intros H. assert (0 <= a * a)%Z by nia. assert (0 <= b * b)%Z by nia. assert (a * a < 16)%Z by lia. assert (b * b < 16)%Z by lia. split; nia. Qed.
(** Refuted: centre and radius are cut to whole cells, so that a driven cell may be
    occupied and go unnoticed. *)
Definition one_obstacle (x y : Z) : rmap := RM 30 30 (fun _ _ => 0%Z) (fun a b => negb ((a =? x)%Z && (b =? y)%Z)) 1.
Theorem C41_truncation_refuted : forall clamp, Clamp_halfopen clamp ->
  let c := CSeg RightC Forward (Pt (109 / 10) 10) (39 / 10) 0 0 in
  let p := RP (39 / 10) 1 false 0 1 1 1 1 in
  on_circ c 0 = Pt (148 / 10) 10 /\ passes clamp c 0 /\ rm_free (one_obstacle 14 10) 14 10 = false /\
  exists w, circle_weight clamp (one_obstacle 14 10) p c false = Some w /\ w < NOT_FREE.
Proof.
  intros clamp Hcl c p. pose proof PI_RGT_0 as HP. split; [|split; [|split]].
  - unfold on_circ, c. cbn [cs_c cs_r px py]. rewrite cos_0, sin_0. f_equal; lra.
  - exists 0. split; [lra|]. exists 0%Z. cbn [c cs_a0]. ring.
  - reflexivity.
  - assert (C1 : cast_i32 (px (cs_c c)) = Some 10%Z).
    { unfold cast_i32, c. cbn [cs_c px]. assert (Ztrunc (109 / 10) = 10%Z) as -> by (apply trunc_floor; cbn; lra). reflexivity. }
    assert (C2 : cast_i32 (py (cs_c c)) = Some 10%Z).
    { unfold cast_i32, c. cbn [cs_c py]. rewrite (Ztrunc_IZR 10). reflexivity. }
    assert (C3 : cast_i32 (cs_r c) = Some 3%Z).
    { unfold cast_i32, c. cbn [cs_r]. assert (Ztrunc (39 / 10) = 3%Z) as -> by (apply trunc_floor; cbn; lra). reflexivity. }
    destruct (C41_weight clamp (one_obstacle 14 10) p c false 10 10 3 Hcl ltac:(cbn; lra) C1 C2 C3 ltac:(lia)) as (w & cells & E & _ & _ & _ & F).
    exists w. split; [exact E|]. rewrite F.
    + cbn [p rp_use_map]. unfold cs_length, cs_arc. replace (arc_len clamp c) with (- (2 * PI)) by (symmetry; exact (proj2 (proj2 (C42_empty_refuted clamp Forward _ _ _ Hcl)))). unfold c, p. cbn [cs_r cs_dir dir_cost rp_fwd rp_curve].
      rewrite Rabs_left by lra. unfold NOT_FREE. pose proof PI_4. lra.
    + right. split.
      * intros [u v] Hq. cbn [fst snd] in *. destruct (C41_ring_near 3 _ _ ltac:(lia) Hq) as [[_ N] _]. apply sq_lt4 in N.
        unfold rm_in, one_obstacle. cbn [rm_w rm_h]. lia.
      * intros [u v] [Hq _]. cbn [fst snd] in *. destruct (C41_ring_near 3 _ _ ltac:(lia) Hq) as [[_ N] _]. apply sq_lt4 in N.
        unfold one_obstacle. cbn [rm_free]. replace (u =? 14)%Z with false by lia. reflexivity.
Qed.
(** The ring of radius 3, and a segment that meets the hypotheses. *)
Example C41_example : mid_loop 5 3 0 (-3) = Some [(3, 0); (3, 1); (2, 2)]%Z /\ Clamp_halfopen clamp_ref.
Proof. split; [reflexivity|exact clamp_ref_halfopen]. Qed.
