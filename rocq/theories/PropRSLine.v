(** C40: the weight of a line segment of a Reeds-Shepp curve. *)
From Coq Require Import Reals Lra.
From Flocq Require Import Core.Raux.
From Verif Require Import Base GeomR RSParse RSModel.
Local Open Scope Z_scope.

(** ** Specification: the discretised line *)
(** [a / n] rounded to the nearest integer, halves down. *)
Definition rhd (a n : Z) : Z := (2 * a + n - 1) / (2 * n).
(** The k-th of n + 1 cells, n the larger coordinate difference: both coordinates are
    the ideal ones, rounded. *)
Definition raster_cell (x0 y0 x1 y1 : Z) (k : Z) : Z * Z :=
  let n := Z.max (Z.abs (x1 - x0)) (Z.abs (y1 - y0)) in
  (x0 + (if x0 <? x1 then 1 else -1) * rhd (k * Z.abs (x1 - x0)) n,
   y0 + (if y0 <? y1 then 1 else -1) * rhd (k * Z.abs (y1 - y0)) n).
Definition raster_len (x0 y0 x1 y1 : Z) : nat := Z.to_nat (Z.max (Z.abs (x1 - x0)) (Z.abs (y1 - y0))).
Definition raster (x0 y0 x1 y1 : Z) : list (Z * Z) :=
  map (fun k => raster_cell x0 y0 x1 y1 (Z.of_nat k)) (seq 0 (S (raster_len x0 y0 x1 y1))).

(** ** Rounding *)
Lemma rhd_spec a n j : 0 < n -> rhd a n = j <-> 2 * (j * n) - n < 2 * a <= 2 * (j * n) + n.
Proof.
  intros Hn. unfold rhd. pose proof (Z.div_mod (2 * a + n - 1) (2 * n) ltac:(lia)) as E. pose proof (Z.mod_pos_bound (2 * a + n - 1) (2 * n) ltac:(lia)) as B.
  set (q := (2 * a + n - 1) / (2 * n)) in *. set (r := (2 * a + n - 1) mod (2 * n)) in *. clearbody q r.
  replace (2 * n * q) with (2 * (q * n)) in E by ring. split.
  - intros <-. lia.
  - intros H. assert (- (2 * n) < 2 * (j * n) - 2 * (q * n) < 2 * n) by lia.
    assert (X : - (2 * n) < 2 * n * (j - q) < 2 * n) by lia. nia.
Qed.
Lemma rhd_mul k n : 0 < n -> rhd (k * n) n = k.
Proof. intros H. apply rhd_spec; lia. Qed.
Lemma rhd_0 n : 0 <= n -> rhd 0 n = 0.
Proof. intros H. destruct (Z.eq_dec n 0) as [->|]; [reflexivity|]. apply rhd_spec; lia. Qed.
Lemma rhd_end a n : 0 <= n -> rhd (n * a) n = if n =? 0 then 0 else a.
Proof. intros H. destruct (Z.eqb_spec n 0) as [->|]; [reflexivity|]. rewrite Z.mul_comm. apply rhd_mul. lia. Qed.

(** ** One step *)
Lemma zingl_step E D n k : 0 <= E -> 0 <= D -> n = Z.max E D -> 0 <= k < n ->
  let i := rhd (k * E) n in let j := rhd (k * D) n in
  let err := j * E + E - i * D - D in
  rhd ((k + 1) * E) n = (if - D <? 2 * err then i + 1 else i) /\
  rhd ((k + 1) * D) n = (if 2 * err <? E then j + 1 else j).
Proof.
  intros HE HD Hn Hk i j err. destruct (Z.le_ge_cases D E) as [H|H].
  - assert (n = E) as -> by lia. assert (Ei : i = k) by (apply rhd_mul; lia). assert (Hj : rhd (k * D) E = j) by reflexivity. apply rhd_spec in Hj; [|lia].
    assert (Q : (k + 1) * D = k * D + D) by ring.
    assert (P : (j + 1) * E = j * E + E) by ring.
    assert (Odd : D = E -> 2 * (k * D) <> 2 * (j * E) + E).
    { intros ->. replace (k * E) with (E * k) by ring. replace (j * E) with (E * j) by ring. intros X. assert (E * (2 * k - 2 * j - 1) = 0) by lia. apply Z.mul_eq_0 in H0. lia. }
    unfold err in *. rewrite Ei in *. split.
    + rewrite rhd_mul by lia. destruct (Z.ltb_spec (- D) (2 * (j * E + E - k * D - D))); [reflexivity|]. exfalso. destruct (Z.eq_dec D E) as [e|]; [specialize (Odd e)|]; lia.
    + apply rhd_spec; [lia|]. rewrite Q. destruct (Z.ltb_spec (2 * (j * E + E - k * D - D)) E); [rewrite P|]; lia.
  - assert (n = D) as -> by lia. assert (Ej : j = k) by (apply rhd_mul; lia). assert (Hi : rhd (k * E) D = i) by reflexivity. apply rhd_spec in Hi; [|lia].
    assert (Q : (k + 1) * E = k * E + E) by ring.
    assert (P : (i + 1) * D = i * D + D) by ring.
    assert (Odd : D = E -> 2 * (k * E) <> 2 * (i * D) + D).
    { intros ->. replace (k * E) with (E * k) by ring. replace (i * E) with (E * i) by ring. intros X. assert (E * (2 * k - 2 * i - 1) = 0) by lia. apply Z.mul_eq_0 in H0. lia. }
    unfold err in *. rewrite Ej in *. split.
    + apply rhd_spec; [lia|]. rewrite Q. destruct (Z.ltb_spec (- D) (2 * (k * E + E - i * D - D))); [rewrite P|]; lia.
    + rewrite rhd_mul by lia. destruct (Z.ltb_spec (2 * (k * E + E - i * D - D)) E); [reflexivity|]. exfalso. destruct (Z.eq_dec D E) as [e|]; [specialize (Odd e)|]; lia.
Qed.

(** ** The raster is what it should be *)
(** It leads from the first to the last cell in king's moves, one per column (row) of
    the longer side, and stays within half a cell of the ideal line. *)
Theorem C40_raster : forall x0 y0 x1 y1, let n := Z.max (Z.abs (x1 - x0)) (Z.abs (y1 - y0)) in
  raster_cell x0 y0 x1 y1 0 = (x0, y0) /\ raster_cell x0 y0 x1 y1 n = (x1, y1) /\
  forall k, 0 <= k -> let c := raster_cell x0 y0 x1 y1 k in let d := raster_cell x0 y0 x1 y1 (k + 1) in
    (k < n -> Z.max (Z.abs (fst d - fst c)) (Z.abs (snd d - snd c)) = 1) /\
    (k <= n -> 2 * Z.abs (n * (fst c - x0) - k * (x1 - x0)) <= n /\ 2 * Z.abs (n * (snd c - y0) - k * (y1 - y0)) <= n).
Proof.
  intros x0 y0 x1 y1 n. set (E := Z.abs (x1 - x0)) in *. set (D := Z.abs (y1 - y0)) in *.
  assert (Hn : 0 <= n) by lia. unfold raster_cell. cbv zeta. fold E D n.
  assert (SX : (if x0 <? x1 then 1 else -1) * E = x1 - x0) by (destruct (Z.ltb_spec x0 x1); lia).
  assert (SY : (if y0 <? y1 then 1 else -1) * D = y1 - y0) by (destruct (Z.ltb_spec y0 y1); lia).
  assert (QX : (if x0 <? x1 then 1 else -1) = 1 \/ (if x0 <? x1 then 1 else -1) = -1) by (destruct (x0 <? x1); auto).
  assert (QY : (if y0 <? y1 then 1 else -1) = 1 \/ (if y0 <? y1 then 1 else -1) = -1) by (destruct (y0 <? y1); auto).
  set (sx := if x0 <? x1 then 1 else -1) in *. set (sy := if y0 <? y1 then 1 else -1) in *. clearbody sx sy.
  split; [|split].
  - rewrite !Z.mul_0_l, rhd_0 by assumption. f_equal; lia.
  - rewrite !rhd_end by assumption. destruct (Z.eqb_spec n 0); f_equal; lia.
  - intros k Hk. split.
    + intros Hkn. cbn [fst snd]. destruct (zingl_step E D n k ltac:(lia) ltac:(lia) eq_refl ltac:(lia)) as [S1 S2]. rewrite S1, S2.
      assert (M : rhd ((k + 1) * E) n - rhd (k * E) n = 1 \/ rhd ((k + 1) * D) n - rhd (k * D) n = 1).
      { destruct (Z.le_ge_cases D E); [left; replace n with E by lia|right; replace n with D by lia]; rewrite !rhd_mul by lia; lia. }
      rewrite S1, S2 in M. set (i := rhd (k * E) n) in *. set (j := rhd (k * D) n) in *. clearbody i j.
      destruct (_ <? _) in M |- *; destruct (_ <? _) in M |- *; destruct QX as [-> | ->]; destruct QY as [-> | ->]; lia.
    + intros Hkn. cbn [fst snd]. destruct (Z.eq_dec n 0) as [n0|n0].
      { assert (E = 0) by lia. assert (D = 0) by lia. assert (k = 0) by lia. subst k. rewrite n0, !Z.mul_0_l. lia. }
      assert (HX := proj1 (rhd_spec (k * E) n _ ltac:(lia)) eq_refl). assert (HY := proj1 (rhd_spec (k * D) n _ ltac:(lia)) eq_refl).
      set (i := rhd (k * E) n) in *. set (j := rhd (k * D) n) in *. clearbody i j. rewrite <- SX, <- SY.
      replace (n * (x0 + sx * i - x0) - k * (sx * E)) with (sx * (i * n - k * E)) by ring.
      replace (n * (y0 + sy * j - y0) - k * (sy * D)) with (sy * (j * n - k * D)) by ring.
      rewrite !Z.abs_mul. assert (Z.abs sx = 1) as -> by lia. assert (Z.abs sy = 1) as -> by lia. lia.
Qed.

(** ** The loop *)
Definition blocked (m : rmap) (c : Z * Z) : bool := rm_in m (fst c) (snd c) && negb (rm_free m (fst c) (snd c)).
Definition cell_cost (m : rmap) (minc : Z) (c : Z * Z) : Z := if rm_in m (fst c) (snd c) then Z.max minc (rm_val m (fst c) (snd c)) else 0.
Definition total (m : rmap) (minc : Z) (l : list (Z * Z)) : Z := fold_right (fun c a => cell_cost m minc c + a) 0 l.

Lemma line_loop_S f m minc ignore x0 y0 x1 y1 dx dy sx sy err cost : line_loop (S f) m minc ignore x0 y0 x1 y1 dx dy sx sy err cost =
  if rm_in m x0 y0 && negb (rm_free m x0 y0) && negb ignore then Some (false, cost) else
  if (x0 =? x1) && (y0 =? y1) then Some (true, if rm_in m x0 y0 then cost + Z.max minc (rm_val m x0 y0) else cost) else
  line_loop f m minc ignore (if dy <? 2 * err then x0 + sx else x0) (if 2 * err <? dx then y0 + sy else y0) x1 y1 dx dy sx sy
    (if 2 * err <? dx then (if dy <? 2 * err then err + dy else err) + dx else (if dy <? 2 * err then err + dy else err))
    (if rm_in m x0 y0 then cost + Z.max minc (rm_val m x0 y0) else cost).
Proof. reflexivity. Qed.

Lemma line_loop_spec m minc ignore x0 y0 x1 y1 : forall rest k cost, 
  let E := Z.abs (x1 - x0) in let D := Z.abs (y1 - y0) in let n := Z.max E D in
  0 <= k -> k + Z.of_nat rest = n ->
  let i := rhd (k * E) n in let j := rhd (k * D) n in
  let sx := (if x0 <? x1 then 1 else -1) in let sy := (if y0 <? y1 then 1 else -1) in
  let cells := map (fun t => raster_cell x0 y0 x1 y1 (k + Z.of_nat t)) (seq 0 (S rest)) in
  exists r, line_loop (S rest) m minc ignore (x0 + sx * i) (y0 + sy * j) x1 y1 E (- D) sx sy (j * E + E - i * D - D) cost = Some r /\
    fst r = (ignore || negb (existsb (blocked m) cells)) /\ (fst r = true -> snd r = cost + total m minc cells).
Proof.
  induction rest as [|rest IH]; intros k cost E D n Hk Hr i j sx sy cells.
  - assert (k = n) by lia. subst k.
    destruct (C40_raster x0 y0 x1 y1) as (_ & RC & _). cbv zeta in RC. fold E D n in RC.
    assert (HC : cells = [(x1, y1)]) by (unfold cells; cbn; rewrite Z.add_0_r, RC; reflexivity).
    unfold raster_cell in RC. cbv zeta in RC. fold E D n sx sy i j in RC. injection RC as RX RY. rewrite HC. cbn [line_loop]. rewrite RX, RY. cbn [existsb total fold_right]. unfold blocked, cell_cost. cbn [fst snd].
    destruct (rm_in m x1 y1); cbn [andb]; [destruct (rm_free m x1 y1); cbn [negb andb orb]|].
    + rewrite !Z.eqb_refl. cbn [andb]. eexists. split; [reflexivity|]. cbn. rewrite orb_true_r. split; [reflexivity|]. intros _. lia.
    + destruct ignore; cbn [negb andb orb].
      * rewrite !Z.eqb_refl. eexists. split; [reflexivity|]. cbn. split; [reflexivity|]. intros _. lia.
      * eexists. split; [reflexivity|]. cbn. split; [reflexivity|discriminate].
    + rewrite !Z.eqb_refl. cbn [andb]. eexists. split; [reflexivity|]. cbn. rewrite orb_true_r. split; [reflexivity|]. intros _. lia.
  - destruct (zingl_step E D n k ltac:(lia) ltac:(lia) eq_refl ltac:(lia)) as [S1 S2]. cbv zeta in S1, S2. fold i j in S1, S2.
    set (stepx := - D <? 2 * (j * E + E - i * D - D)) in *. set (stepy := 2 * (j * E + E - i * D - D) <? E) in *.
    assert (HC : cells = (x0 + sx * i, y0 + sy * j) :: map (fun t => raster_cell x0 y0 x1 y1 (k + 1 + Z.of_nat t)) (seq 0 (S rest))).
    { unfold cells. change (seq 0 (S (S rest))) with (O :: seq 1 (S rest)). cbn [map]. f_equal.
      - rewrite Z.add_0_r. unfold raster_cell. cbv zeta. reflexivity.
      - rewrite <- seq_shift, map_map. apply map_ext. intros t. f_equal. lia. }
    assert (NE : (x0 + sx * i =? x1) && (y0 + sy * j =? y1) = false).
    { apply andb_false_iff. rewrite !Z.eqb_neq. destruct (Z.le_ge_cases D E).
      - left. assert (Hi : i = k) by (unfold i; replace n with E by lia; apply rhd_mul; lia). assert (Hk2 : k < E) by lia. rewrite Hi. unfold sx. unfold E in Hk2. clear - Hk Hk2. destruct (Z.ltb_spec x0 x1); lia.
      - right. assert (Hj : j = k) by (unfold j; replace n with D by lia; apply rhd_mul; lia). assert (Hk2 : k < D) by lia. rewrite Hj. unfold sy. unfold D in Hk2. clear - Hk Hk2. destruct (Z.ltb_spec y0 y1); lia. }
    rewrite HC, line_loop_S. cbn [existsb total fold_right]. rewrite NE. unfold blocked at 1, cell_cost at 1. cbn [fst snd].
    set (cur := rm_in m (x0 + sx * i) (y0 + sy * j)) in *. set (fr := rm_free m (x0 + sx * i) (y0 + sy * j)) in *.
    destruct (cur && negb fr && negb ignore) eqn:B.
    + eexists. split; [reflexivity|]. cbn. apply andb_prop in B. destruct B as [B1 B2]. rewrite B1. destruct ignore; [discriminate|]. split; [reflexivity|discriminate].
    + cbv zeta. fold stepx stepy.
      set (cost' := if cur then _ else cost).
      specialize (IH (k + 1) cost' ltac:(lia) ltac:(fold E D n; lia)). cbv zeta in IH. fold E D n sx sy in IH. rewrite S1, S2 in IH.
      destruct IH as (r & Er & F1 & F2). exists r. split; [|split].
      * rewrite <- Er. f_equal; destruct stepx; destruct stepy; ring.
      * rewrite F1. destruct ignore; [reflexivity|]. cbn [negb] in B. rewrite andb_true_r in B. rewrite B. reflexivity.
      * intros H. rewrite (F2 H). unfold cost'. fold (total m minc (map (fun t => raster_cell x0 y0 x1 y1 (k + 1 + Z.of_nat t)) (seq 0 (S rest)))).
        destruct cur; unfold total; lia.
Qed.

(** ** The weight *)
Local Open Scope R_scope.
(** A line is found blocked exactly if it starts off the map or one of its cells on
    the map is not free; otherwise the weight is the length (or the sum of the cell
    costs) times the cost factors. The loop always ends. *)
Theorem C40_weight : forall m p l ignore x0 y0 x1 y1,
  cast_i32 (px (ls_a l)) = Some x0 -> cast_i32 (py (ls_a l)) = Some y0 -> cast_i32 (px (ls_b l)) = Some x1 -> cast_i32 (py (ls_b l)) = Some y1 ->
  exists w, line_weight m p l ignore = Some w /\
    (ignore = false /\ (rm_in m x0 y0 = false \/ exists c, In c (raster x0 y0 x1 y1) /\ rm_in m (fst c) (snd c) = true /\ rm_free m (fst c) (snd c) = false) ->
      w = NOT_FREE) /\
    (ignore = true \/ (rm_in m x0 y0 = true /\ forall c, In c (raster x0 y0 x1 y1) -> rm_in m (fst c) (snd c) = true -> rm_free m (fst c) (snd c) = true) ->
      w = if rp_use_map p then dir_cost p (ls_dir l) * IZR (total m (rp_min_cell p) (raster x0 y0 x1 y1)) * rp_straight p / rm_res m
          else ls_length l * dir_cost p (ls_dir l) * rp_straight p).
Proof.
  intros m p l ignore x0 y0 x1 y1 C1 C2 C3 C4. unfold line_weight. rewrite C1, C2, C3, C4. cbn [obind]. cbv zeta.
  destruct (negb (rm_in m x0 y0) && negb ignore) eqn:B.
  { eexists. split; [reflexivity|]. split; [reflexivity|]. apply andb_prop in B. destruct B as [B1 B2]. destruct (rm_in m x0 y0); [discriminate|]. destruct ignore; [discriminate|].
    intros [X|[X _]]; discriminate. }
  set (E := Z.abs (x1 - x0)) in *. set (D := Z.abs (y1 - y0)) in *.
  destruct (line_loop_spec m (rp_min_cell p) ignore x0 y0 x1 y1 (raster_len x0 y0 x1 y1) 0 0 ltac:(lia)) as (r & Er & F1 & F2).
  { unfold raster_len. lia. }
  fold E D in Er. rewrite !Z.mul_0_l, !rhd_0, !Z.mul_0_r, !Z.add_0_r, !Z.mul_0_l in Er by lia.
  replace (0 + E - 0 - D)%Z with (E + - D)%Z in Er by ring.
  replace (Z.max E (- - D)) with (Z.max E D) by lia. change (Z.to_nat (Z.max E D)) with (raster_len x0 y0 x1 y1). rewrite Er. cbn [obind].
  assert (HC : map (fun t => raster_cell x0 y0 x1 y1 (0 + Z.of_nat t)) (seq 0 (S (raster_len x0 y0 x1 y1))) = raster x0 y0 x1 y1) by reflexivity.
  rewrite HC in F1, F2.
  assert (EX : existsb (blocked m) (raster x0 y0 x1 y1) = true <-> exists c, In c (raster x0 y0 x1 y1) /\ rm_in m (fst c) (snd c) = true /\ rm_free m (fst c) (snd c) = false).
  { rewrite existsb_exists. split; intros (c & H1 & H2); exists c; (split; [assumption|]); unfold blocked in *.
    - apply andb_prop in H2. destruct H2 as [-> H2]. destruct (rm_free m _ _); [discriminate|auto].
    - destruct H2 as [-> ->]. reflexivity. }
  destruct (ignore || fst r) eqn:O.
  - assert (Fr : fst r = true) by (rewrite F1 in O |- *; destruct ignore; [reflexivity|exact O]).
    exists (if rp_use_map p then dir_cost p (ls_dir l) * IZR (snd r) * rp_straight p / rm_res m else ls_length l * dir_cost p (ls_dir l) * rp_straight p).
    split; [destruct (rp_use_map p); reflexivity|]. split.
    + intros [-> [X|X]]; exfalso.
      * rewrite X in B. discriminate.
      * apply EX in X. rewrite F1, X in Fr. discriminate.
    + intros _. rewrite (F2 Fr). rewrite Z.add_0_l. reflexivity.
  - eexists. split; [reflexivity|]. split; [reflexivity|]. destruct ignore; [discriminate|]. cbn [orb] in F1, O. intros [X|[_ X]]; [discriminate|]. exfalso.
    rewrite F1 in O. apply negb_false_iff in O. apply EX in O. destruct O as (c & H1 & H2 & H3). rewrite (X c H1 H2) in H3. discriminate.
Qed.

(** Being on the map, for the maps of the Reeds-Shepp curves. *)
Theorem C40_on_map : forall m x y, rm_in m x y = true <-> ((0 <= x < rm_w m)%Z /\ (0 <= y < rm_h m)%Z).
Proof. intros m x y. unfold rm_in. lia. Qed.

(** Cells off the map are not noticed unless the line starts there: a line may leave
    the map, and still have a finite weight. *)
Definition free_map (w h : Z) : rmap := RM w h (fun _ _ => 0%Z) (fun _ _ => true) 1.
Definition unit_params : rparams := RP 1 1 false 0 1 1 1 1.
Theorem C40_off_map_refuted : forall w h (k : Z), (0 < w)%Z -> (0 < h)%Z -> (w <= k < 999999)%Z ->
  let l := LS Forward (Pt 0 0) (Pt (IZR k) 0) in
  In (k, 0%Z) (raster 0 0 k 0) /\ rm_in (free_map w h) k 0 = false /\
  line_weight (free_map w h) unit_params l false = Some (IZR k) /\ IZR k < NOT_FREE.
Proof.
  intros w h k Hw Hh Hk l.
  assert (Cz : forall z, (-2147483648 <= z < 2147483648)%Z -> cast_i32 (IZR z) = Some z).
  { intros z Hz. unfold cast_i32. cbv zeta. rewrite Ztrunc_IZR. unfold in_i32. replace ((-2147483648 <=? z)%Z && (z <? 2147483648)%Z) with true by lia. reflexivity. }
  destruct (C40_raster 0 0 k 0) as (_ & RC & _). cbv zeta in RC.
  assert (HR : In (k, 0%Z) (raster 0 0 k 0)).
  { unfold raster. rewrite <- RC. apply in_map_iff. exists (raster_len 0 0 k 0). split; [|apply in_seq; lia]. f_equal. unfold raster_len. lia. }
  split; [exact HR|]. split; [unfold rm_in, free_map; cbn [rm_w rm_h]; lia|].
  assert (L : ls_length l = IZR k).
  { unfold ls_length, l. rewrite len_hyp. cbn [ls_a ls_b psub px py]. apply hyp_unique; [apply IZR_le; lia|ring]. }
  split.
  - destruct (C40_weight (free_map w h) unit_params l false 0 0 k 0) as (x & E & _ & F); try (apply Cz; lia).
    rewrite E. f_equal. rewrite F.
    + cbn. rewrite L. ring.
    + right. split; [unfold rm_in, free_map; cbn [rm_w rm_h]; lia|reflexivity].
  - unfold NOT_FREE. apply IZR_lt. lia.
Qed.
(** Hypotheses of [C40_weight] are met by a slanted line past an obstacle. *)
Example C40_example : raster 0 0 3 2 = [(0, 0); (1, 1); (2, 1); (3, 2)]%Z /\ raster 2 5 1 1 = [(2, 5); (2, 4); (2, 3); (1, 2); (1, 1)]%Z.
Proof. split; reflexivity. Qed.
