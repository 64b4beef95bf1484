(** Properties C01, C02, C06-C12, C29-C31: grid storage, areas, discrete
    lines, node indices.  Statements only; the proofs are in *Proofs.v. *)
From Verif Require Import Base GridSpec GridMap GridMapProofs Bresenham BresenhamProofs
  Areas AreasProofs MapManagers MapManagersProofs.

(** A 4x3 example map: one obstacle at (2,1), one unknown cell at (3,2). *)
Definition ex_map : gridmap :=
  GridMap 4 3 [0;0;0;0; 0;0;255;0; 0;0;0;100] 50 200 (-1).
Example ex_map_wf : gm_wf ex_map /\ gm_small ex_map.
Proof. unfold gm_wf, gm_small; cbn; lia. Qed.

(** ** C01 *)
Theorem C01_storage_history : forall m ws, gm_wf m ->
  (forall x y v, In (x, y, v) ws -> cell_of (gm_w m) (gm_h m) x y) ->
  exists m', writes m ws = Some m' /\ gm_wf m' /\
    gm_w m' = gm_w m /\ gm_h m' = gm_h m /\ gm_lo m' = gm_lo m /\ gm_up m' = gm_up m /\
    gm_ni m' = gm_ni m /\ length (gm_data m') = length (gm_data m) /\
    forall x y, cell_of (gm_w m) (gm_h m) x y ->
      exists v, getValue m x y = Some v /\
      getValue m' x y = Some (match last_write ws x y with Some u => u | None => v end).
Proof. exact (fun m ws => writes_spec ws m). Qed.
Print Assumptions C01_storage_history.

Theorem C01_construct_fill_load : forall w h,
  0 <= w < 2147483648 -> 0 <= h < 2147483648 -> w * h < 4294967296 ->
  (gm_wf (gm_new w h) /\ forall x y, cell_of w h x y -> getValue (gm_new w h) x y = Some 0) /\
  (forall m v x y, gm_wf m -> cell_of (gm_w m) (gm_h m) x y ->
     gm_wf (gm_fill v m) /\ getValue (gm_fill v m) x y = Some v) /\
  (forall d m, w * h <= Z.of_nat (length d) ->
     gm_wf (gm_set d w h m) /\
     forall x y, cell_of w h x y -> getValue (gm_set d w h m) x y = nth_error d (Z.to_nat (y * w + x))).
Proof.
  exact (fun w h Hw Hh Hp =>
    conj (conj (gm_new_wf w h Hw Hh Hp) (fun x y => gm_new_get w h x y Hw Hh Hp))
    (conj gm_fill_spec (fun d m => gm_set_wf d w h m Hw Hh Hp))).
Qed.
Print Assumptions C01_construct_fill_load.

Example C01_nonvacuous :
  match writes ex_map [(0,0,7); (3,2,9); (0,0,8)] with
  | Some m' => getValue m' 0 0 = Some 8 /\ getValue m' 3 2 = Some 9 /\ getValue m' 2 1 = Some 255
  | None => False end.
Proof. vm_compute. repeat split. Qed.

(** The size condition is needed: with a vector shorter than w*h (the setter
    does not check) an in-map access leaves the vector. *)
Theorem C01_short_vector_refuted :
  exists d m x y, isInMap (gm_set d 4 3 m) x y = true /\ getValue (gm_set d 4 3 m) x y = None.
Proof. exists [0;0], ex_map, 3, 2. vm_compute. auto. Qed.
Print Assumptions C01_short_vector_refuted.

(** ** C02 *)
Theorem C02_classification : forall m x y, gm_wf m -> cell_of (gm_w m) (gm_h m) x y ->
  exists v, getValue m x y = Some v /\
  (isFree m x y = Some true <-> class_spec (gm_lo m) (gm_up m) (ni_opt m) v Free) /\
  (isOccupied m x y = Some true <-> class_spec (gm_lo m) (gm_up m) (ni_opt m) v Occ) /\
  (isNoInformation m x y = Some true <-> class_spec (gm_lo m) (gm_up m) (ni_opt m) v Unknown) /\
  isFree m x y <> None /\ isOccupied m x y <> None /\ isNoInformation m x y <> None.
Proof. exact classify. Qed.
Print Assumptions C02_classification.

(** A map nobody configured: free up to 50, occupied from 200 on, nothing known between. *)
Theorem C02_default : forall w h ws m x y v, 0 <= w < 2147483648 -> 0 <= h < 2147483648 -> w * h < 4294967296 ->
  (forall a b u, In (a, b, u) ws -> cell_of w h a b) -> writes (gm_new w h) ws = Some m ->
  cell_of w h x y -> getValue m x y = Some v ->
  (isFree m x y = Some true <-> v <= 50) /\ (isOccupied m x y = Some true <-> 200 <= v) /\
  (0 <= v -> (isNoInformation m x y = Some true <-> 50 < v < 200)).
Proof.
  intros w h ws m x y v Hw Hh Hp Hin Ew Hc Ev.
  assert (P : forall ws m0 m1, writes m0 ws = Some m1 -> gm_w m1 = gm_w m0 /\ gm_h m1 = gm_h m0 /\ gm_lo m1 = gm_lo m0 /\ gm_up m1 = gm_up m0 /\ gm_ni m1 = gm_ni m0).
  { clear. induction ws as [|[[a b] u] ws IH]; intros m0 m1 E; cbn [writes] in E; [injection E as <-; auto|].
    destruct (setValue m0 a b u) as [m2|] eqn:E2; [|discriminate]. cbn [obind] in E. destruct (IH _ _ E) as (A1 & A2 & A3 & A4 & A5).
    unfold setValue in E2. destruct (list_set _ _ _); [|discriminate]. cbn [obind] in E2. injection E2 as <-. auto. }
  destruct (P _ _ _ Ew) as (P1 & P2 & P3 & P4 & P5). clear P. cbn [gm_new gm_w gm_h gm_lo gm_up gm_ni] in *.
  assert (Wf : gm_wf m).
  { destruct (C01_storage_history (gm_new w h) ws (gm_new_wf w h Hw Hh Hp)) as (m' & E' & F' & _). { intros a b u I. cbn [gm_new gm_w gm_h]. apply (Hin a b u I). } congruence. }
  destruct (C02_classification m x y Wf) as (v' & Ev' & A & B & C & _); [rewrite P1, P2; exact Hc|].
  rewrite Ev in Ev'. injection Ev' as <-. rewrite A, B, C. unfold class_spec, ni_opt. rewrite P3, P4, P5.
  change (negb (-1 =? -1)) with false. cbn.
  split; [split; [tauto|intros; split; [assumption|discriminate]]|]. split; [split; [tauto|intros; split; [assumption|discriminate]]|].
  intros _. split; [intros [X|X]; [discriminate|exact X]|auto].
Qed.

Theorem C02_exactly_one : forall m x y, gm_wf m -> cell_of (gm_w m) (gm_h m) x y -> gm_lo m < gm_up m ->
  (isFree m x y = Some true /\ isOccupied m x y = Some false /\ isNoInformation m x y = Some false) \/
  (isFree m x y = Some false /\ isOccupied m x y = Some true /\ isNoInformation m x y = Some false) \/
  (isFree m x y = Some false /\ isOccupied m x y = Some false /\ isNoInformation m x y = Some true).
Proof. exact classify_unique. Qed.
Print Assumptions C02_exactly_one.

Example C02_nonvacuous :
  isFree ex_map 0 0 = Some true /\ isOccupied ex_map 2 1 = Some true /\ isNoInformation ex_map 3 2 = Some true /\
  isNoInformation (setNoInformationValue 255 ex_map) 2 1 = Some true.
Proof. vm_compute. auto. Qed.

(** Without lower < upper a cell is free and occupied at once. *)
Theorem C02_thresholds_needed : exists m x y, gm_wf m /\ cell_of (gm_w m) (gm_h m) x y /\
  isFree m x y = Some true /\ isOccupied m x y = Some true.
Proof.
  exists (setUpperThreshold 100 (setLowerThreshold 200 ex_map)), 3, 2.
  split; [exact (proj1 ex_map_wf)|]. split; [unfold cell_of; cbn; lia|]. vm_compute. auto.
Qed.
Print Assumptions C02_thresholds_needed.

(** ** C06: area queries (RobotArea) *)
Theorem C06_area_free : forall m a, gm_wf m -> robot_ready a ->
  exists b, isAreaFree m a = Some b /\
  (b = true <-> forall x y, covers_in_map m a x y -> isFree m x y = Some true).
Proof. exact robot_area_free. Qed.
Print Assumptions C06_area_free.

Theorem C06_area_occupied : forall m a, gm_wf m -> robot_ready a ->
  exists b, isAreaOccupied m a = Some b /\
  (b = true <-> exists x y, covers_in_map m a x y /\ isOccupied m x y = Some true).
Proof. exact robot_area_occupied. Qed.
Print Assumptions C06_area_occupied.

Theorem C06_area_write : forall m a v, gm_wf m -> robot_ready a ->
  exists m', setAreaConst m a v = Some m' /\ gm_wf m' /\ gm_w m' = gm_w m /\ gm_h m' = gm_h m /\
    forall x y, cell_of (gm_w m) (gm_h m) x y ->
      (In (x, y) (denoted a) -> getValue m' x y = Some v) /\
      (~ In (x, y) (denoted a) -> getValue m' x y = getValue m x y).
Proof. exact robot_write. Qed.
Print Assumptions C06_area_write.

(** The variant that writes the area's own value (0 for a RobotArea) does the
    same, and reading the values through a RobotArea changes neither the cells
    of the area nor its position. *)
Theorem C06_area_own_value : forall m a, gm_wf m -> robot_ready a ->
  (exists m', setAreaValue m a = Some m' /\ gm_wf m' /\ gm_w m' = gm_w m /\ gm_h m' = gm_h m /\
    forall x y, cell_of (gm_w m) (gm_h m) x y ->
      (In (x, y) (denoted a) -> getValue m' x y = Some 0) /\
      (~ In (x, y) (denoted a) -> getValue m' x y = getValue m x y)) /\
  (exists a', getAreaValues m a = Some a' /\ robot_ready a' /\ denoted a' = denoted a).
Proof.
  intros m a Hwf Ha. split.
  - rewrite robot_write_own by exact Ha. exact (robot_write m a 0 Hwf Ha).
  - destruct a as [| | |cs px py [|] idx]; try contradiction. unfold getAreaValues. cbn [abegin obind].
    destruct (read_robot m cs px py (length cs) Hwf (afuel (ARobot cs px py true idx)) (-1)) as [i ->];
      try (unfold afuel; cbn [area_cells]; lia).
    eexists; split; [reflexivity|]. split; [exact I|reflexivity].
Qed.
Print Assumptions C06_area_own_value.

(** What isAreaNoInformation computes: true iff NO covered cell is unknown. *)
Theorem C06_area_noinfo_meaning : forall m a, gm_wf m -> robot_ready a ->
  exists b, isAreaNoInformation m a = Some b /\
  (b = true <-> forall x y, covers_in_map m a x y -> isNoInformation m x y = Some false).
Proof. exact robot_area_noinfo. Qed.
Print Assumptions C06_area_noinfo_meaning.

(** Hence it is not "there is no information about the area". *)
Theorem C06_area_noinfo_refuted :
  (exists m a, gm_wf m /\ robot_ready a /\ denoted a <> [] /\
     (forall x y, In (x, y) (denoted a) -> isNoInformation m x y = Some true) /\
     isAreaNoInformation m a = Some false) /\
  (exists m a, gm_wf m /\ robot_ready a /\ denoted a <> [] /\
     (forall x y, In (x, y) (denoted a) -> isFree m x y = Some true) /\
     isAreaNoInformation m a = Some true).
Proof.
  split.
  - exists ex_map, (ARobot [(0,0)] 3 2 true 0). split; [exact (proj1 ex_map_wf)|]. split; [exact I|].
    split; [discriminate|]. split; [|reflexivity].
    intros x y [H|[]]. injection H as <- <-. reflexivity.
  - exists ex_map, (ARobot [(0,0);(1,1)] 0 0 true 0). split; [exact (proj1 ex_map_wf)|]. split; [exact I|].
    split; [discriminate|]. split; [|reflexivity].
    intros x y [H|[H|[]]]; injection H as <- <-; reflexivity.
Qed.
Print Assumptions C06_area_noinfo_refuted.

Example C06_nonvacuous :
  isAreaFree ex_map (ARobot [(-1,-1);(0,0);(1,0)] 0 0 true 5) = Some true /\
  isAreaFree ex_map (ARobot [(0,0);(1,1)] 1 0 true 5) = Some false /\
  isAreaOccupied ex_map (ARobot [(0,0);(1,1)] 1 0 true 5) = Some true.
Proof. vm_compute. auto. Qed.

(** ** C07: iteration of areas *)
Theorem C07_robot_area_iteration : forall cs px py idx,
  iterate (ARobot cs px py true idx) = Some (map (fun c => (fst c + px, snd c + py)) cs).
Proof. exact robot_iterate. Qed.
Print Assumptions C07_robot_area_iteration.

(** What an iteration of a CircleArea, CircleBuffer or LineArea sees: after j calls of
    next() the current cell is number j, counted from 0.  So the first cell is current
    only before the first next(), and the last next() that answers true leads past the end. *)
Fixpoint nexts (j : nat) (a : area) : area := match j with O => a | S j => nexts j (snd (anext a)) end.
Theorem C07_circle_line_visits : forall a a0 j, counter_area a -> abegin a = Some a0 -> (j <= length (area_cells a))%nat ->
  fst (anext (nexts j a0)) = (j <? length (area_cells a))%nat /\ agetCell (nexts j a0) = nth_error (denoted a) j.
Proof.
  assert (N : forall c cx cy v j n, (n + j <= length c)%nat -> nexts j (ACircle c cx cy v n) = ACircle c cx cy v (n + j)).
  { intros c cx cy v j. induction j as [|j IH]; intros n H; cbn [nexts]; [f_equal; lia|]. cbn [anext]. replace (n <? length c)%nat with true by (symmetry; apply Nat.ltb_lt; lia). cbn [snd]. rewrite IH by lia. f_equal. lia. }
  assert (N' : forall c cx cy v j n, (n + j <= length c)%nat -> nexts j (ABuffer c cx cy v n) = ABuffer c cx cy v (n + j)).
  { intros c cx cy v j. induction j as [|j IH]; intros n H; cbn [nexts]; [f_equal; lia|]. cbn [anext]. replace (n <? length c)%nat with true by (symmetry; apply Nat.ltb_lt; lia). cbn [snd]. rewrite IH by lia. f_equal. lia. }
  assert (N'' : forall c v j n, (n + j <= length c)%nat -> nexts j (ALine c v n) = ALine c v (n + j)).
  { intros c v j. induction j as [|j IH]; intros n H; cbn [nexts]; [f_equal; lia|]. cbn [anext]. replace (n <? length c)%nat with true by (symmetry; apply Nat.ltb_lt; lia). cbn [snd]. rewrite IH by lia. f_equal. lia. }
  intros a a0 j Ha Hb Hj. rewrite denoted_pos, nth_error_map.
  destruct a as [c cx cy v n|c cx cy v n|c v n|c px py i n]; cbn [abegin area_cells] in *; try (destruct Ha; fail);
    injection Hb as <-; rewrite ?N, ?N', ?N'' by exact Hj; cbn [anext aindex agetCell area_cells area_pos obind Nat.add fst snd];
    (split; [destruct (j <? length c)%nat; reflexivity|destruct (nth_error c j); reflexivity]).
Qed.
Print Assumptions C07_circle_line_visits.

(** Every non-empty CircleArea, CircleBuffer or LineArea iteration reads past
    the end of its cell vector, so no complete scan of one ever succeeds. *)
Theorem C07_circle_line_iteration_refuted : forall a, counter_area a -> area_cells a <> [] ->
  iterate a = None /\
  (forall m, isAreaFree m a <> Some true) /\
  (forall m, isAreaOccupied m a <> Some false) /\
  (forall m v, setAreaConst m a v = None).
Proof.
  exact (fun a Ha Hne => conj (counter_iter_ub a Ha Hne)
    (conj (fun m => counter_area_free_never m a Ha Hne)
    (conj (fun m => counter_area_occupied_never m a Ha Hne)
          (fun m v => counter_area_write_ub m a v Ha Hne)))).
Qed.
Print Assumptions C07_circle_line_iteration_refuted.

(** The values of the areas, at the same places.  The value of a CircleBuffer at its current
    cell is the entry of its buffer with the number of that cell; setting it changes this
    entry and no other, and is refused (a write past the buffer) when the iteration is past
    the end.  A circle or a line has one value, and setting it there does nothing. *)
Definition buffer_of (a : area) : list Z := match a with ABuffer _ _ _ vs _ => vs | _ => [] end.
Definition one_value (a : area) : option Z :=
  match a with ACircle _ _ _ v _ => Some v | ALine _ v _ => Some v | _ => None end.
Theorem C07_values : forall a a0 j, counter_area a -> abegin a = Some a0 -> (j <= length (area_cells a))%nat ->
  match a with
  | ABuffer cs _ _ vs _ => length vs = length cs ->
      agetValue (nexts j a0) = nth_error vs j /\
      ((j < length cs)%nat -> forall v, exists a1, asetValue (nexts j a0) v = Some a1 /\
         agetCell a1 = agetCell (nexts j a0) /\ denoted a1 = denoted a /\
         length (buffer_of a1) = length vs /\
         (forall i, nth_error (buffer_of a1) i = (if Nat.eqb i j then Some v else nth_error vs i))) /\
      (j = length cs -> forall v, asetValue (nexts j a0) v = None)
  | _ => agetValue (nexts j a0) = one_value a /\ forall v, asetValue (nexts j a0) v = Some (nexts j a0)
  end.
Proof.
  assert (N : forall c cx cy v j n, (n + j <= length c)%nat -> nexts j (ACircle c cx cy v n) = ACircle c cx cy v (n + j)).
  { intros c cx cy v j. induction j as [|j IH]; intros n H; cbn [nexts]; [f_equal; lia|]. cbn [anext]. replace (n <? length c)%nat with true by (symmetry; apply Nat.ltb_lt; lia). cbn [snd]. rewrite IH by lia. f_equal. lia. }
  assert (N' : forall c cx cy v j n, (n + j <= length c)%nat -> nexts j (ABuffer c cx cy v n) = ABuffer c cx cy v (n + j)).
  { intros c cx cy v j. induction j as [|j IH]; intros n H; cbn [nexts]; [f_equal; lia|]. cbn [anext]. replace (n <? length c)%nat with true by (symmetry; apply Nat.ltb_lt; lia). cbn [snd]. rewrite IH by lia. f_equal. lia. }
  assert (N'' : forall c v j n, (n + j <= length c)%nat -> nexts j (ALine c v n) = ALine c v (n + j)).
  { intros c v j. induction j as [|j IH]; intros n H; cbn [nexts]; [f_equal; lia|]. cbn [anext]. replace (n <? length c)%nat with true by (symmetry; apply Nat.ltb_lt; lia). cbn [snd]. rewrite IH by lia. f_equal. lia. }
  intros a a0 j Ha Hb Hj. destruct a as [c cx cy v n|c cx cy vs n|c v n|c px py i n]; cbn [abegin area_cells] in *;
    try (destruct Ha; fail); injection Hb as <-; rewrite ?N, ?N', ?N'' by exact Hj; cbn [Nat.add].
  - split; reflexivity.
  - intros Hl. cbn [agetValue asetValue]. split; [reflexivity|]. split.
    + intros Hlt v. destruct (list_set_some vs j v) as [vs' E]; [lia|].
      exists (ABuffer c cx cy vs' j). rewrite E. cbn [obind buffer_of denoted].
      split; [reflexivity|]. split; [reflexivity|]. split; [reflexivity|]. split.
      { apply list_set_length in E. exact E. }
      intros i. exact (list_set_nth _ _ _ _ E i).
    + intros -> v. rewrite <- Hl. replace (list_set vs (length vs) v) with (@None (list Z)); [reflexivity|].
      symmetry. apply list_set_none. lia.
  - split; reflexivity.
Qed.
Print Assumptions C07_values.
Example C07_values_case :
  agetValue (nexts 1 (ABuffer [(0,0);(1,0)] 3 4 [7;8] 0)) = Some 8 /\
  asetValue (nexts 1 (ABuffer [(0,0);(1,0)] 3 4 [7;8] 0)) 9 = Some (ABuffer [(0,0);(1,0)] 3 4 [7;9] 1).
Proof. vm_compute. auto. Qed.

(** What remains of the queries: over a CircleArea, CircleBuffer or LineArea a
    query gives its "found one" answer exactly when a cell after the first one
    decides it, and otherwise ends with the read past the end. *)
Theorem C07_circle_line_query : forall m a, gm_wf m -> counter_area a -> area_cells a <> [] ->
  (isAreaFree m a = Some false <->
     exists x y, In (x, y) (tl (denoted a)) /\ cell_of (gm_w m) (gm_h m) x y /\ isFree m x y = Some false) /\
  (isAreaFree m a = Some false \/ isAreaFree m a = None) /\
  (isAreaOccupied m a = Some true <->
     exists x y, In (x, y) (tl (denoted a)) /\ cell_of (gm_w m) (gm_h m) x y /\ isOccupied m x y = Some true) /\
  (isAreaOccupied m a = Some true \/ isAreaOccupied m a = None).
Proof.
  intros m a Hwf Ha Hne.
  destruct (counter_query m (fun x y => onot (isFree m x y)) false a Hwf Ha Hne) as (r & E & H1 & H2).
  { intros x y H. destruct (isFree_some m x y Hwf H) as [b ->]. discriminate. }
  destruct (counter_query m (fun x y => isOccupied m x y) true a Hwf Ha Hne) as (r' & E' & H1' & H2').
  { intros x y H. destruct (isOccupied_some m x y Hwf H) as [b ->]. discriminate. }
  cbn [negb] in E, E'. unfold isAreaFree, isAreaOccupied. rewrite E, E'. clear E E'.
  split; [|auto]. rewrite H1. split; intros (x & y & Hin & Hc & T); exists x, y; (split; [exact Hin|]; split; [exact Hc|]).
  - destruct (isFree m x y) as [[|]|]; cbn in T; congruence.
  - rewrite T. reflexivity.
Qed.
Print Assumptions C07_circle_line_query.

(** And the first cell is skipped: an obstacle only there is not seen. *)
Theorem C07_first_cell_skipped_refuted :
  exists a, counter_area a /\ In (2,1) (denoted a) /\ isAreaFree ex_map a <> Some false /\
    agetCell (snd (anext a)) = Some (1, 1).
Proof. exists (ALine [(2,1);(1,1)] 0 0). repeat split; vm_compute; auto. discriminate. Qed.
Print Assumptions C07_first_cell_skipped_refuted.

(** The rasterisation of a LineArea is the same discrete segment as
    Bresenham2d, with the start cell included. *)
Theorem C07_line_area_cells : forall m xs ys xe ye, small xs ys xe ye ->
  exists b l, bres_start m xs ys xe ye = Some b /\
    bwalk (S (Z.to_nat (blen xs ys xe ye))) b = Some l /\
    line_cells xs ys xe ye = Some (map bcoords (b :: l)).
Proof. exact line_cells_spec. Qed.
Print Assumptions C07_line_area_cells.

Example C07_nonvacuous : line_cells 0 0 3 1 = Some [(0,0);(1,0);(2,1);(3,1)] /\
  iterate (ALine [(0,0);(1,0)] 0 0) = None /\
  iterate (ARobot [(0,0);(1,0)] 5 6 true 0) = Some [(5,6);(6,6)].
Proof. vm_compute. auto. Qed.

(** ** C08: circle rasterisation *)
Theorem C08_circle_covers_disc : forall r, 0 <= r ->
  (forall a b, In (a, b) (circle_cells r) -> Z.abs a <= r /\ Z.abs b <= r) /\
  (forall a b, a * a + b * b <= r * r -> In (a, b) (circle_cells r)) /\
  (forall a b, In (a, b) (circle_cells r) -> In (- a, b) (circle_cells r) /\ In (a, - b) (circle_cells r)).
Proof. exact circle_cells_spec. Qed.
Print Assumptions C08_circle_covers_disc.

(** How far the area exceeds the disc: where the row is nearer to the centre
    than the column, a cell is at most half a cell beyond the radius (a^2+b^2
    <= r^2+r < (r+1/2)^2); no cell is farther than 1.1 radii plus one cell; and
    each row is filled. *)
Theorem C08_circle_extent : forall r a b, 0 <= r -> In (a, b) (circle_cells r) ->
  (Z.abs b <= Z.abs a -> 4 * (a * a + b * b) < (2 * r + 1) * (2 * r + 1)) /\
  100 * (a * a + b * b) <= (11 * r + 10) * (11 * r + 10) /\
  (forall a', Z.abs a' <= Z.abs a -> In (a', b) (circle_cells r)).
Proof.
  intros r a b Hr Hin. destruct (circle_cells_shape r Hr a b Hin) as (A & _ & C).
  split; [intros L; specialize (A L); lia|]. split; [exact (circle_cells_far r a b Hr Hin)|exact C].
Qed.
Print Assumptions C08_circle_extent.

Definition cellb (c d : Z * Z) : bool := (fst c =? fst d) && (snd c =? snd d).

(** The area is not the disc: cells more than one cell beyond the radius are
    included, and the shape is not symmetric under exchange of the axes. *)
Theorem C08_circle_shape_refuted :
  (exists r a b, In (a, b) (circle_cells r) /\ a * a + b * b > (r + 1) * (r + 1)) /\
  (exists r a b, In (a, b) (circle_cells r) /\ ~ In (b, a) (circle_cells r)).
Proof.
  split.
  - exists 20, 8, 20.
    split; [|lia]. assert (H : existsb (cellb (8, 20)) (circle_cells 20) = true) by (vm_compute; reflexivity).
    apply existsb_exists in H. destruct H as ([p q] & Hin & H). unfold cellb in H. cbn [fst snd] in H.
    assert (p = 8 /\ q = 20) as [-> ->] by lia. exact Hin.
  - exists 4, 2, 4.
    split.
    + assert (H : existsb (cellb (2, 4)) (circle_cells 4) = true) by (vm_compute; reflexivity).
      apply existsb_exists in H. destruct H as ([p q] & Hin & H). unfold cellb in H. cbn [fst snd] in H.
      assert (p = 2 /\ q = 4) as [-> ->] by lia. exact Hin.
    + intros Hin. assert (H : existsb (cellb (4, 2)) (circle_cells 4) = true).
      { apply existsb_exists. exists (4, 2). split; [exact Hin|reflexivity]. }
      vm_compute in H. discriminate.
Qed.
Print Assumptions C08_circle_shape_refuted.

(** ** C09-C11: Bresenham2d *)
Theorem C09_C10_C11_line_walk : forall b0 m xs ys xe ye, gm_wf m -> gm_small m ->
  cell_of (gm_w m) (gm_h m) xs ys -> cell_of (gm_w m) (gm_h m) xe ye ->
  exists b, setGrid b0 m xs ys xe ye = Some b /\ bcoords b = (xs, ys) /\
  forall fuel, blen xs ys xe ye < Z.of_nat fuel ->
  exists l, bwalk fuel b = Some l /\
    Z.of_nat (length l) = blen xs ys xe ye /\
    last (map bcoords l) (xs, ys) = (xe, ye) /\
    connected_to xe ye (xs, ys) (map bcoords l) /\
    (forall n c, nth_error ((xs, ys) :: map bcoords l) n = Some c -> on_segment xs ys xe ye (Z.of_nat n) c) /\
    (forall s, In s l -> b_map s = Some m /\ cell_of (gm_w m) (gm_h m) (fst (bcoords s)) (snd (bcoords s))) /\
    bnext (last l b) = Some (false, last l b).
Proof. exact line_walk. Qed.
Print Assumptions C09_C10_C11_line_walk.

(** What the iterator reads at each of its cells is what the map says there; before the
    first setGrid there is no map to read. *)
Theorem C09_reads : forall b0 m xs ys xe ye, gm_wf m -> gm_small m ->
  cell_of (gm_w m) (gm_h m) xs ys -> cell_of (gm_w m) (gm_h m) xe ye ->
  exists b, setGrid b0 m xs ys xe ye = Some b /\
  forall fuel, blen xs ys xe ye < Z.of_nat fuel ->
  exists l, bwalk fuel b = Some l /\
    forall s x y, In s l -> bcoords s = (x, y) ->
      bval s = getValue m x y /\ bfree s = isFree m x y /\ bocc s = isOccupied m x y /\ bnoinfo s = isNoInformation m x y /\
      bval s <> None.
Proof.
  intros b0 m xs ys xe ye H1 H2 H3 H4. destruct (line_walk b0 m xs ys xe ye H1 H2 H3 H4) as (b & E & _ & W).
  exists b. split; [exact E|]. intros fuel Hf. destruct (W fuel Hf) as (l & El & _ & _ & _ & _ & Hm & _). exists l. split; [exact El|].
  intros s x y Hs Hc. destruct (Hm s Hs) as [M C]. unfold bcoords in Hc. injection Hc as <- <-. cbn [bcoords fst snd] in C.
  unfold bval, bfree, bocc, bnoinfo. rewrite M. cbn [obind]. repeat split. destruct (getValue_some m (b_x s) (b_y s) H1 C) as [v ->]. discriminate.
Qed.
Theorem C09_reads_unset : forall b, b_map b = None -> bval b = None /\ bfree b = None /\ bocc b = None /\ bnoinfo b = None.
Proof. intros b H. unfold bval, bfree, bocc, bnoinfo. rewrite H. auto. Qed.

(** Out-of-map end points: the iteration is empty and the cell is (0,0). *)
Theorem C09_outside : forall b m xs ys xe ye, isInMap m xs ys = false \/ isInMap m xe ye = false ->
  exists b', setGrid b m xs ys xe ye = Some b' /\ bnext b' = Some (false, b') /\ bcoords b' = (0, 0)
    /\ b_map b' = b_map b.
Proof. exact setGrid_out. Qed.
Print Assumptions C09_outside.

Definition walk_cells (m : gridmap) (xs ys xe ye : Z) : option (list (Z * Z)) :=
  b <- setGrid (bres_new 0) m xs ys xe ye ;; l <- bwalk (seg_fuel xs ys xe ye) b ;; Some (map bcoords l).
Example C09_nonvacuous : walk_cells ex_map 0 2 3 0 = Some [(1, 1); (2, 1); (3, 0)].
Proof. vm_compute; reflexivity. Qed.

(** The walked cells depend on the direction (so a line-of-sight answer does). *)
Theorem C11_direction_dependent : exists m xs ys xe ye l1 l2 c,
  walk_cells m xs ys xe ye = Some l1 /\ walk_cells m xe ye xs ys = Some l2 /\
  In c l1 /\ c <> (xe, ye) /\ ~ In c l2.
Proof.
  exists ex_map, 0, 0, 2, 1, [(1,0);(2,1)], [(1,1);(0,0)], (1, 0).
  split; [vm_compute; reflexivity|]. split; [vm_compute; reflexivity|]. cbn. intuition congruence.
Qed.
Print Assumptions C11_direction_dependent.

(** ** C12: Manager line checks *)
Theorem C12_line_free_inside : forall b m sx sy ex ey, gm_wf m -> gm_small m ->
  cell_of (gm_w m) (gm_h m) sx sy -> cell_of (gm_w m) (gm_h m) ex ey ->
  exists l r, segment_cells sx sy ex ey l /\
    mgr_isFree b m sx sy ex ey = Some r /\
    (r = true <-> forall x y, In (x, y) l -> isFree m x y = Some true).
Proof. exact mgr_isFree_spec. Qed.
Print Assumptions C12_line_free_inside.

Theorem C12_line_free_or_unknown_inside : forall b m sx sy ex ey, gm_wf m -> gm_small m -> gm_lo m < gm_up m ->
  cell_of (gm_w m) (gm_h m) sx sy -> cell_of (gm_w m) (gm_h m) ex ey ->
  exists l r, segment_cells sx sy ex ey l /\
    mgr_isFreeOrUnknown b m sx sy ex ey = Some r /\
    (r = true <-> forall x y, In (x, y) l -> isOccupied m x y = Some false).
Proof. exact mgr_isFreeOrUnknown_spec. Qed.
Print Assumptions C12_line_free_or_unknown_inside.

(** An end point outside the map makes the answer "free" whatever the map. *)
Theorem C12_line_free_refuted :
  (forall b m sx sy ex ey, 0 <= sx -> 0 <= sy -> 0 <= ex -> 0 <= ey ->
     isInMap m sx sy = false \/ isInMap m ex ey = false -> mgr_isFree b m sx sy ex ey = Some true) /\
  (exists sx sy, isFree ex_map sx sy = Some false /\ mgr_isFree (bres_new 0) ex_map sx sy 2 0 = Some true).
Proof. split; [exact mgr_isFree_outside|]. exists 2, 1. vm_compute. auto. Qed.
Print Assumptions C12_line_free_refuted.

Example C12_nonvacuous : mgr_isFree (bres_new 0) ex_map 0 0 3 2 = Some false /\
  mgr_isFree (bres_new 0) ex_map 0 0 3 0 = Some true /\
  mgr_isFreeOrUnknown (bres_new 0) ex_map 3 0 3 2 = Some true /\
  mgr_isFree (bres_new 0) ex_map 3 0 3 2 = Some false.
Proof. vm_compute. auto. Qed.

(** ** C29: static node arrays *)
Theorem C29_grid_lookup : forall w h x y, 0 <= w < 2147483648 -> 0 <= h < 2147483648 -> w * h < 4294967296 ->
  (cell_of w h x y -> grid_lookup w h (w * h) x y = Found (y * w + x) /\ 0 <= y * w + x < w * h) /\
  (~ cell_of w h x y -> grid_lookup w h (w * h) x y = Outside).
Proof. exact grid_lookup_spec. Qed.
Print Assumptions C29_grid_lookup.

Theorem C29_directional_lookup : forall w h x y t f, 0 <= w < 2147483648 -> 0 <= h < 2147483648 ->
  2 * (w * h * 32) < 4294967296 -> cell_of w h x y -> 0 <= t < 32 ->
  dir_lookup w h 32 (2 * (w * h * 32)) x y t f =
    Found (y * w + x + t * w * h + (if f then 0 else w * h * 32)) /\
  0 <= y * w + x + t * w * h + (if f then 0 else w * h * 32) < 2 * (w * h * 32).
Proof. exact dir_lookup_spec. Qed.
Print Assumptions C29_directional_lookup.

Theorem C29_directional_injective : forall w h x y t f x' y' t' f', 0 <= w < 2147483648 -> 0 <= h < 2147483648 ->
  2 * (w * h * 32) < 4294967296 -> cell_of w h x y -> cell_of w h x' y' -> 0 <= t < 32 -> 0 <= t' < 32 ->
  dir_lookup w h 32 (2 * (w * h * 32)) x y t f = dir_lookup w h 32 (2 * (w * h * 32)) x' y' t' f' ->
  x = x' /\ y = y' /\ t = t' /\ f = f'.
Proof. exact dir_lookup_inj. Qed.
Print Assumptions C29_directional_injective.

Example C29_nonvacuous : dir_lookup 10 7 32 4480 9 6 31 false = Found 4479 /\
  dir_lookup 10 7 32 4480 10 6 31 false = Outside.
Proof. vm_compute. auto. Qed.

(** ** C30: dynamic chunks *)
Theorem C30_chunk_lookup_inner : forall w h ops x y t f, 0 < w -> 0 < h ->
  let s := dyn_run (dyn_init w h) ops in
  (forall o, In o ops -> op_inner (dyn_init w h) o) ->
  dyn_inner (dyn_init w h) x y -> 0 <= t < 32 ->
  fst (dyn_lookup s x y t f) = Found (node_id (dyn_init w h) x y t f).
Proof. exact dyn_lookup_spec. Qed.
Print Assumptions C30_chunk_lookup_inner.

Theorem C30_chunk_injective : forall s x y t f x' y' t' f', dyn_inv s -> dyn_inner s x y -> dyn_inner s x' y' ->
  0 <= t < 32 -> 0 <= t' < 32 -> node_id s x y t f = node_id s x' y' t' f' ->
  x = x' /\ y = y' /\ t = t' /\ f = f'.
Proof. exact node_id_inj. Qed.
Print Assumptions C30_chunk_injective.

Example C30_nonvacuous : dyn_inv (dyn_init 40 40) /\ dyn_inner (dyn_init 40 40) (-31) 71 /\
  fst (dyn_lookup (dyn_run (dyn_init 40 40) [(0,0,3,true); (-5,70,0,false)]) (-31) 71 5 false)
  = Found (12, 1 + 7 * 32 + 5 * 1024 + 32768).
Proof. split; [apply dyn_init_inv; lia|]. split; [unfold dyn_inner; cbn; lia|]. vm_compute. reflexivity. Qed.

(** contains() accepts x = -32 / y = -32 but the lookup fails: with the map's
    exception, or with std::out_of_range; and a failed lookup at x = -32 leaves
    a misplaced chunk that makes later valid lookups fail. *)
Theorem C30_border_refuted :
  (exists w h x y, dyn_contains (dyn_init w h) x y = true /\ fst (dyn_lookup (dyn_init w h) x y 0 true) = Outside) /\
  (exists w h x y, dyn_contains (dyn_init w h) x y = true /\ fst (dyn_lookup (dyn_init w h) x y 0 true) = OutOfRange) /\
  (exists w h x y x' y', dyn_contains (dyn_init w h) x y = true /\ dyn_inner (dyn_init w h) x' y' /\
     fst (dyn_lookup (dyn_init w h) x' y' 0 true) <> Outside /\
     fst (dyn_lookup (snd (dyn_lookup (dyn_init w h) x y 0 true)) x' y' 0 true) = Outside).
Proof.
  split; [|split].
  - exists 40, 40, (-32), 5. vm_compute. auto.
  - exists 40, 40, 5, (-32). vm_compute. auto.
  - exists 40, 40, (-32), 5, 64, (-5). split; [reflexivity|]. split; [unfold dyn_inner; cbn; lia|].
    vm_compute. split; [discriminate|reflexivity].
Qed.
Print Assumptions C30_border_refuted.

(** hasNode looks at a different chunk than lookup creates. *)
Theorem C30_hasNode_refuted : exists w h x y,
  dyn_inner (dyn_init w h) x y /\
  dyn_hasNode (snd (dyn_lookup (dyn_init w h) x y 0 true)) x y 0 = Found false.
Proof. exists 40, 40, 5, 5. split; [unfold dyn_inner; cbn; lia|]. vm_compute. reflexivity. Qed.
Print Assumptions C30_hasNode_refuted.

(** What it looks at: it answers true exactly if an earlier lookup touched the chunk one
    column to the left and one row above the one of the cell asked about. *)
Theorem C30_hasNode : forall w h ops x y t, 0 < w < 2147483000 -> 0 < h < 2147483000 ->
  (forall o, In o ops -> op_inner (dyn_init w h) o) ->
  0 <= x < w + 32 -> 0 <= y < h + 32 -> 0 <= t < 32 ->
  exists b, dyn_hasNode (dyn_run (dyn_init w h) ops) x y t = Found b /\
    (b = true <-> exists x' y' t' f, In (x', y', t', f) ops /\ x' / 32 = x / 32 - 1 /\ y' / 32 = y / 32 - 1).
Proof. exact dyn_hasNode_spec. Qed.

(** ** C31: dynamic line checks *)
Theorem C31_line_free_inside : forall b m sx sy ex ey, gm_wf m -> gm_small m ->
  cell_of (gm_w m) (gm_h m) (sx + 32) (sy + 32) -> cell_of (gm_w m) (gm_h m) (ex + 32) (ey + 32) ->
  exists l r, segment_cells sx sy ex ey l /\
   dyn_isFree b m 0 sx sy ex ey = Some r /\
   (r = true <-> (cell_of (gm_w m) (gm_h m) ex ey /\ isFree m ex ey = Some true) /\
      forall x y, In (x, y) l -> cell_of (gm_w m) (gm_h m) x y /\ isFree m x y = Some true).
Proof. exact dyn_isFree_exact. Qed.
Print Assumptions C31_line_free_inside.

(** An 80x80 map with a wall at column [k]. *)
Definition tall (k : Z) : gridmap :=
  GridMap 80 80 (map (fun i => if Z.of_nat i mod 80 =? k then 255 else 0) (seq 0 (Z.to_nat 6400))) 50 200 (-1).

(** (1) The end points are tested against the map after shifting them by the
    padding, so within 32 cells of the upper borders only the end cell is
    looked at. (2) With the skip counter a one-cell wall is jumped over.
    (3) isFreeOrUnknown accepts an occupied end cell. *)
Theorem C31_line_free_refuted :
  (exists m sx ex wx, gm_wf m /\ sx < wx < ex /\ isOccupied m wx 5 = Some true /\
     dyn_isFree (bres_new 0) m 0 sx 5 ex 5 = Some true) /\
  (exists m sx ex wx, gm_wf m /\ sx < wx < ex /\ ex + 32 < gm_w m /\ isOccupied m wx 5 = Some true /\
     dyn_isFree (bres_new 0) m 5 sx 5 ex 5 = Some true) /\
  (exists m sx ex, gm_wf m /\ ex + 32 < gm_w m /\ isOccupied m ex 5 = Some true /\
     dyn_isFreeOrUnknown (bres_new 0) m 1 sx 5 ex 5 = Some true).
Proof.
  assert (W : forall k, gm_wf (tall k)).
  { intros k. unfold gm_wf, tall; cbn [gm_w gm_h gm_data]. rewrite map_length, seq_length. lia. }
  split; [|split].
  - exists (tall 60), 55, 70, 60. split; [apply W|]. split; [lia|]. vm_compute. auto.
  - exists (tall 12), 10, 16, 12. split; [apply W|]. split; [lia|]. split; [cbn; lia|]. vm_compute. auto.
  - exists (tall 12), 10, 12. split; [apply W|]. split; [cbn; lia|]. vm_compute. auto.
Qed.
Print Assumptions C31_line_free_refuted.

Example C31_nonvacuous : dyn_isFree (bres_new 0) (tall 12) 0 10 5 16 5 = Some false /\
  dyn_isFree (bres_new 0) (tall 40) 0 10 5 16 7 = Some true.
Proof. vm_compute. auto. Qed.
