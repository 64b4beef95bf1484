(** C31: exact meaning of the line checks of DynamicDirectionalStateSpaceManager
    for every number of skipped cells. *)
From Verif Require Import Base GridSpec GridMap GridMapProofs Bresenham BresenhamProofs
  Areas AreasProofs MapManagers MapManagersProofs PropGrid.

(** The loop with the skip counter looks at every (skips+1)-th cell, the first included. *)
Lemma skip_scan_exact test skips : 0 <= skips -> forall l skip, 0 <= skip <= skips ->
  (forall b, In b l -> test (i32 (u32 (b_x b - padding))) (i32 (u32 (b_y b - padding))) <> None) ->
  exists r, skip_scan test skips skip l = Some r /\
   (r = true <-> exists n b, nth_error l n = Some b /\ (Z.of_nat n + skip) mod (skips + 1) = 0 /\
      test (i32 (u32 (b_x b - padding))) (i32 (u32 (b_y b - padding))) = Some true).
Proof.
  intros Hs. induction l as [|b l IH]; intros skip Hk H; cbn [skip_scan].
  - exists false. split; [reflexivity|]. split; [discriminate|]. intros ([|n] & b & E & _); discriminate.
  - set (skip' := if skip + 1 >? skips then 0 else skip + 1).
    assert (Hk' : 0 <= skip' <= skips /\ (skip' = skip + 1 \/ skip' = 0 /\ skip + 1 = skips + 1)).
    { unfold skip'. destruct (Z.gtb_spec (skip + 1) skips); lia. }
    destruct (IH skip' (proj1 Hk')) as (r & Hr & Hiff); [intros b' Hb'; apply H; right; exact Hb'|].
    assert (Shift : forall n, (Z.of_nat (S n) + skip) mod (skips + 1) = (Z.of_nat n + skip') mod (skips + 1)).
    { intros n. destruct Hk' as [_ [-> |[-> E]]].
      - f_equal. lia.
      - replace (Z.of_nat (S n) + skip) with (Z.of_nat n + 0 + 1 * (skips + 1)) by lia. apply Z_mod_plus_full. }
    assert (Tail : (exists n b0, nth_error l n = Some b0 /\ (Z.of_nat n + skip') mod (skips + 1) = 0 /\
        test (i32 (u32 (b_x b0 - padding))) (i32 (u32 (b_y b0 - padding))) = Some true) <->
      exists n b0, nth_error (b :: l) (S n) = Some b0 /\ (Z.of_nat (S n) + skip) mod (skips + 1) = 0 /\
        test (i32 (u32 (b_x b0 - padding))) (i32 (u32 (b_y b0 - padding))) = Some true).
    { split; intros (n & b0 & E1 & E2 & E3); exists n, b0; (split; [exact E1|]; split; [|exact E3]); rewrite Shift in *; exact E2. }
    assert (Head : (Z.of_nat 0 + skip) mod (skips + 1) = 0 <-> skip = 0).
    { change (Z.of_nat 0) with 0. rewrite Z.add_0_l. rewrite Z.mod_small by lia. reflexivity. }
    assert (Skip : (skip = 0 -> test (i32 (u32 (b_x b - padding))) (i32 (u32 (b_y b - padding))) = Some false) ->
      exists r0, skip_scan test skips skip' l = Some r0 /\
      (r0 = true <-> exists n b0, nth_error (b :: l) n = Some b0 /\ (Z.of_nat n + skip) mod (skips + 1) = 0 /\
        test (i32 (u32 (b_x b0 - padding))) (i32 (u32 (b_y b0 - padding))) = Some true)).
    { intros F. exists r. split; [exact Hr|]. rewrite Hiff, Tail. split.
      - intros (n & b0 & E). exists (S n), b0. exact E.
      - intros ([|n] & b0 & E1 & E2 & E3); [|exists n, b0; auto].
        apply Head in E2. injection E1 as <-. rewrite (F E2) in E3. discriminate. }
    destruct (Z.eqb_spec skip 0) as [E|E].
    + destruct (test (i32 (u32 (b_x b - padding))) (i32 (u32 (b_y b - padding)))) as [[|]|] eqn:T;
        [| |exfalso; apply (H b); [left; reflexivity|exact T]]; cbn [obind].
      * exists true. split; [reflexivity|]. split; [|reflexivity]. intros _. exists O, b. split; [reflexivity|].
        split; [apply Head, E|exact T].
      * apply Skip. intros _. first [exact T|reflexivity].
    + cbn [obind]. apply Skip. intros. contradiction.
Qed.

(** The cells walked between shifted end points are those of the segment. *)
Lemma shifted_walk b m sx sy ex ey : gm_wf m -> gm_small m ->
  cell_of (gm_w m) (gm_h m) (sx + 32) (sy + 32) -> cell_of (gm_w m) (gm_h m) (ex + 32) (ey + 32) ->
  exists b1 l, setGrid b m (sx + padding) (sy + padding) (ex + padding) (ey + padding) = Some b1 /\
    bwalk (seg_fuel sx sy ex ey) b1 = Some l /\
    segment_cells sx sy ex ey (map (fun b => (b_x b - 32, b_y b - 32)) l) /\
    forall b, In b l -> i32 (u32 (b_x b - padding)) = b_x b - 32 /\ i32 (u32 (b_y b - padding)) = b_y b - 32.
Proof.
  intros Hwf Hsm Hs He.
  destruct (line_walk b m (sx + 32) (sy + 32) (ex + 32) (ey + 32) Hwf Hsm Hs He) as (b1 & Hb1 & Hc & Hwk).
  destruct (Hwk (seg_fuel sx sy ex ey)) as (l & Hl & Hlen & Hlast & Hconn & Hon & Hin & _).
  { unfold blen, seg_fuel. clear. lia. }
  exists b1, l. split; [exact Hb1|]. split; [exact Hl|].
  set (un := fun c : Z * Z => (fst c - 32, snd c - 32)%Z).
  replace (map (fun b => (b_x b - 32, b_y b - 32)%Z) l) with (map un (map bcoords l)) by (rewrite map_map; reflexivity).
  assert (Hmap : map bcoords l = map (fun c => (fst c + 32, snd c + 32)%Z) (map un (map bcoords l))).
  { rewrite map_map. rewrite <- (map_id (map bcoords l)) at 1. apply map_ext. intros [p q]. unfold un. cbn [fst snd]. f_equal; ring. }
  split.
  - clear Hwk Hin. unfold segment_cells. split; [|split; [|split]].
    + rewrite !map_length. rewrite Hlen. unfold blen. f_equal; f_equal; ring.
    + destruct (map bcoords l) as [|c0 l0] eqn:El.
      * cbn in *. injection Hlast as E1 E2. f_equal; clear - E1 E2; lia.
      * rewrite <- El in *. assert (Hne : map bcoords l <> []) by (rewrite El; discriminate).
        rewrite (app_removelast_last (sx, sy) Hne), map_app. cbn [map]. rewrite last_last.
        rewrite (app_removelast_last (sx, sy) Hne), last_last in Hlast. rewrite Hlast. unfold un. cbn [fst snd]. f_equal; ring.
    + apply (connected_shift 32). cbn [fst snd]. rewrite <- Hmap. exact Hconn.
    + intros n [p q] Hn. apply (on_segment_shift 32). apply (Hon n).
      rewrite Hmap. destruct n as [|n]; cbn in *; [injection Hn as <- <-; reflexivity|].
      rewrite nth_error_map. rewrite Hn. reflexivity.
  - intros b' Hb'. destruct (Hin b' Hb') as [_ H]. unfold bcoords, cell_of, gm_small in *. cbn [fst snd] in H.
    clear - H Hsm. rewrite !i32_u32_shift by lia. auto.
Qed.

Lemma fou1_exact m x y : gm_wf m -> exists q, dyn_isFreeOrUnknown1 m x y = Some q /\
  (q = false <-> cell_of (gm_w m) (gm_h m) x y /\ isOccupied m x y = Some true).
Proof.
  intros Hwf. pose proof Hwf as (Hw & Hh & Hr). unfold dyn_isFreeOrUnknown1, dyn_out. rewrite !i32_id by lia.
  destruct ((x <? 0) || (y <? 0) || (x >=? gm_w m) || (y >=? gm_h m)) eqn:E.
  - exists true. split; [reflexivity|]. split; [discriminate|]. intros [H _]. unfold cell_of in H. lia.
  - assert (C : cell_of (gm_w m) (gm_h m) x y) by (unfold cell_of; lia).
    destruct (isOccupied_some m x y Hwf C) as [o ->]. cbn [obind]. exists (negb o). split; [reflexivity|].
    destruct o; cbn; split; intros H; auto; try discriminate. destruct H; discriminate.
Qed.

Lemma occ1_exact m x y : gm_wf m -> exists q, dyn_isOccupied1 m x y = Some q /\
  (q = true <-> cell_of (gm_w m) (gm_h m) x y /\ isOccupied m x y = Some true).
Proof.
  intros Hwf. pose proof Hwf as (Hw & Hh & Hr). unfold dyn_isOccupied1, dyn_out. rewrite !i32_id by lia.
  destruct ((x <? 0) || (y <? 0) || (x >=? gm_w m) || (y >=? gm_h m)) eqn:E.
  - exists false. split; [reflexivity|]. split; [discriminate|]. intros [H _]. unfold cell_of in H. lia.
  - assert (C : cell_of (gm_w m) (gm_h m) x y) by (unfold cell_of; lia).
    destruct (isOccupied_some m x y Hwf C) as [o ->]. exists o. split; [reflexivity|].
    destruct o; split; intros H; auto; try discriminate. destruct H; discriminate.
Qed.

Lemma free1_exact m x y : gm_wf m -> exists q, dyn_isFree1 m x y = Some q /\
  (q = true <-> cell_of (gm_w m) (gm_h m) x y /\ isFree m x y = Some true).
Proof.
  intros Hwf. destruct (dyn_isFree1_some m x y Hwf) as [q E]. exists q. split; [exact E|].
  rewrite <- (dyn_isFree1_spec m x y Hwf), E. split; [intros ->; reflexivity|congruence].
Qed.

(** Specification: the cells looked at are those of the segment whose position
    in it (0 for the one after the start) is a multiple of skips + 1. *)
Definition looked_at (skips : Z) (l : list (Z * Z)) (c : Z * Z) : Prop :=
  exists n, nth_error l n = Some c /\ Z.of_nat n mod (skips + 1) = 0.
(** A cell of the map that is free; occupied. *)
Definition is_free (m : gridmap) (c : Z * Z) : Prop := cell_of (gm_w m) (gm_h m) (fst c) (snd c) /\ isFree m (fst c) (snd c) = Some true.
Definition is_occupied (m : gridmap) (c : Z * Z) : Prop := cell_of (gm_w m) (gm_h m) (fst c) (snd c) /\ isOccupied m (fst c) (snd c) = Some true.

(** Both end points, shifted by the padding of 32 cells, in the map. *)
Theorem C31_line : forall b m skips sx sy ex ey, gm_wf m -> gm_small m -> 0 <= skips ->
  cell_of (gm_w m) (gm_h m) (sx + 32) (sy + 32) -> cell_of (gm_w m) (gm_h m) (ex + 32) (ey + 32) ->
  exists l rf ru ro, segment_cells sx sy ex ey l /\
    dyn_isFree b m skips sx sy ex ey = Some rf /\
    dyn_isFreeOrUnknown b m skips sx sy ex ey = Some ru /\
    dyn_isOccupied b m skips sx sy ex ey = Some ro /\
    (rf = true <-> (forall c, looked_at skips l c -> is_free m c) /\ is_free m (ex, ey)) /\
    (ru = true <-> (forall c, looked_at skips l c -> ~ is_occupied m c) /\ ~ is_occupied m (sx, sy)) /\
    (ro = true <-> (exists c, looked_at skips l c /\ is_occupied m c) \/ is_occupied m (ex, ey)).
Proof.
  intros b m skips sx sy ex ey Hwf Hsm Hk Hs He.
  set (tf := fun x y => f <- dyn_isFree1 m x y ;; Some (negb f)).
  set (tu := fun x y => f <- dyn_isFreeOrUnknown1 m x y ;; Some (negb f)).
  set (to := fun x y => dyn_isOccupied1 m x y).
  assert (Tf : forall x y, tf x y <> None) by (intros x y; unfold tf; destruct (free1_exact m x y Hwf) as (q & -> & _); discriminate).
  assert (Tu : forall x y, tu x y <> None) by (intros x y; unfold tu; destruct (fou1_exact m x y Hwf) as (q & -> & _); discriminate).
  assert (To : forall x y, to x y <> None) by (intros x y; unfold to; destruct (occ1_exact m x y Hwf) as (q & -> & _); discriminate).
  destruct (shifted_walk b m sx sy ex ey Hwf Hsm Hs He) as (b1 & bl & E1 & E2 & Hseg & Hsh).
  set (l := map (fun b => (b_x b - 32, b_y b - 32)) bl) in *.
  assert (G : forall test, (forall x y, test x y <> None) -> exists r, skip_scan test skips 0 bl = Some r /\
    (r = true <-> exists c, looked_at skips l c /\ test (fst c) (snd c) = Some true)).
  { intros test Ht. destruct (skip_scan_exact test skips Hk bl 0 ltac:(lia)) as (r & Hr & Hiff); [intros; apply Ht|].
    exists r. split; [exact Hr|]. rewrite Hiff. split.
    - intros (n & b' & En & Em & T). rewrite Z.add_0_r in Em. destruct (Hsh b' (nth_error_In _ _ En)) as [S1 S2]. rewrite S1, S2 in T.
      exists (b_x b' - 32, b_y b' - 32). split; [|exact T]. exists n. unfold l. rewrite nth_error_map, En. auto.
    - intros (c & (n & En & Em) & T). unfold l in En. rewrite nth_error_map in En. destruct (nth_error bl n) as [b'|] eqn:Eb; [|discriminate].
      cbn [option_map] in En. injection En as <-. exists n, b'. rewrite Z.add_0_r. split; [exact Eb|]. split; [exact Em|].
      destruct (Hsh b' (nth_error_In _ _ Eb)) as [S1 S2]. rewrite S1, S2. exact T. }
  destruct (G tf Tf) as (hf & Hf & If). destruct (G tu Tu) as (hu & Hu & Iu). destruct (G to To) as (ho & Ho & Io). clear G.
  destruct (free1_exact m ex ey Hwf) as (qf & Qf & Jf). destruct (fou1_exact m sx sy Hwf) as (qu & Qu & Ju). destruct (occ1_exact m ex ey Hwf) as (qo & Qo & Jo).
  exists l, (if hf then false else qf), (if hu then false else qu), (if ho then true else qo).
  split; [exact Hseg|].
  split; [unfold dyn_isFree; rewrite E1; cbn [obind]; rewrite E2; cbn [obind]; fold tf; rewrite Hf; cbn [obind]; destruct hf; [reflexivity|exact Qf]|].
  split; [unfold dyn_isFreeOrUnknown; rewrite E1; cbn [obind]; rewrite E2; cbn [obind]; fold tu; rewrite Hu; cbn [obind]; destruct hu; [reflexivity|exact Qu]|].
  split; [unfold dyn_isOccupied; rewrite E1; cbn [obind]; rewrite E2; cbn [obind]; fold to; rewrite Ho; cbn [obind]; destruct ho; [reflexivity|exact Qo]|].
  split; [|split].
  - destruct hf.
    + split; [discriminate|]. intros [A _]. destruct (proj1 If eq_refl) as (c & Hc & T). specialize (A c Hc).
      unfold tf in T. destruct (free1_exact m (fst c) (snd c) Hwf) as (q & Eq & Jq). rewrite Eq in T. cbn [obind] in T.
      apply Jq in A. subst q. discriminate.
    + rewrite Jf. split; [|intros [_ A]; exact A]. intros A. split; [|exact A]. intros c Hc.
      destruct (free1_exact m (fst c) (snd c) Hwf) as (q & Eq & Jq). apply Jq. destruct q; [reflexivity|]. exfalso.
      assert (false = true) by (apply If; exists c; split; [exact Hc|unfold tf; rewrite Eq; reflexivity]). discriminate.
  - destruct hu.
    + split; [discriminate|]. intros [A _]. destruct (proj1 Iu eq_refl) as (c & Hc & T). exfalso. apply (A c Hc).
      unfold tu in T. destruct (fou1_exact m (fst c) (snd c) Hwf) as (q & Eq & Jq). rewrite Eq in T. cbn [obind] in T.
      apply Jq. destruct q; [discriminate|reflexivity].
    + split.
      * intros -> . split.
        -- intros c Hc O. destruct (fou1_exact m (fst c) (snd c) Hwf) as (q & Eq & Jq). apply Jq in O. subst q.
           assert (false = true) by (apply Iu; exists c; split; [exact Hc|unfold tu; rewrite Eq; reflexivity]). discriminate.
        -- intros O. apply Ju in O. discriminate.
      * intros [_ A]. destruct qu; [reflexivity|]. exfalso. apply A, Ju. reflexivity.
  - destruct ho.
    + split; [|reflexivity]. intros _. left. destruct (proj1 Io eq_refl) as (c & Hc & T). exists c. split; [exact Hc|].
      unfold to in T. destruct (occ1_exact m (fst c) (snd c) Hwf) as (q & Eq & Jq). rewrite Eq in T. apply Jq. congruence.
    + rewrite Jo. split; [intros A; right; exact A|]. intros [(c & Hc & O)|A]; [|exact A]. exfalso.
      destruct (occ1_exact m (fst c) (snd c) Hwf) as (q & Eq & Jq). apply Jq in O. subst q.
      assert (false = true) by (apply Io; exists c; split; [exact Hc|exact Eq]). discriminate.
Qed.
Print Assumptions C31_line.

(** One of the shifted end points outside the map: only one end cell is looked at. *)
Theorem C31_line_outside : forall b m skips sx sy ex ey, gm_wf m ->
  ~ cell_of (gm_w m) (gm_h m) (sx + 32) (sy + 32) \/ ~ cell_of (gm_w m) (gm_h m) (ex + 32) (ey + 32) ->
  exists rf ru ro,
    dyn_isFree b m skips sx sy ex ey = Some rf /\
    dyn_isFreeOrUnknown b m skips sx sy ex ey = Some ru /\
    dyn_isOccupied b m skips sx sy ex ey = Some ro /\
    (rf = true <-> is_free m (ex, ey)) /\ (ru = true <-> ~ is_occupied m (sx, sy)) /\ (ro = true <-> is_occupied m (ex, ey)).
Proof.
  intros b m skips sx sy ex ey Hwf Ho.
  assert (Ho' : isInMap m (sx + padding) (sy + padding) = false \/ isInMap m (ex + padding) (ey + padding) = false).
  { destruct Ho as [Ho|Ho]; [left|right]; apply not_true_is_false; intros X; apply Ho, isInMap_spec; assumption. }
  destruct (setGrid_out b m _ _ _ _ Ho') as (b1 & E & N1 & _).
  destruct (free1_exact m ex ey Hwf) as (qf & Qf & Jf). destruct (fou1_exact m sx sy Hwf) as (qu & Qu & Ju). destruct (occ1_exact m ex ey Hwf) as (qo & Qo & Jo).
  exists qf, qu, qo. unfold dyn_isFree, dyn_isFreeOrUnknown, dyn_isOccupied. rewrite E. cbn [obind]. unfold seg_fuel. cbn [bwalk]. rewrite N1. cbn [obind skip_scan].
  do 3 (split; [assumption|]). split; [exact Jf|]. split; [|exact Jo].
  split; [intros -> O; apply Ju in O; discriminate|]. intros A. destruct qu; [reflexivity|]. exfalso. apply A, Ju. reflexivity.
Qed.
Print Assumptions C31_line_outside.

Example C31_line_case :
  cell_of (gm_w (tall 12)) (gm_h (tall 12)) (10 + 32) (5 + 32) /\ cell_of (gm_w (tall 12)) (gm_h (tall 12)) (16 + 32) (7 + 32) /\
  dyn_isFreeOrUnknown (bres_new 0) (tall 12) 0 10 5 16 7 = Some false /\ dyn_isFreeOrUnknown (bres_new 0) (tall 12) 5 10 5 16 7 = Some true /\
  dyn_isOccupied (bres_new 0) (tall 12) 0 10 5 16 7 = Some true.
Proof. split; [unfold cell_of; cbn; lia|]. split; [unfold cell_of; cbn; lia|]. vm_compute. auto. Qed.
