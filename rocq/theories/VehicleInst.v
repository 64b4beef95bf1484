(** Facts about the vehicle search instance (VehicleModel.v): nodes, line checks, what a
    move offers, where a search begins. *)
From Coq Require Import Reals Lra.
From Flocq Require Import Core.Raux.
From Verif Require Import Base GridMap GridMapProofs GridSpec Bresenham BresenhamProofs GeomR MapManagers MapManagersProofs SteerModel PropSteer GenericProofs
  VehicleSearch VehicleProofs VehicleAny VehicleModel.
Local Open Scope R_scope.

(** ** Keys *)
Lemma vkey_eqb_spec a b : reflect (a = b) (vkey_eqb a b).
Proof.
  destruct a as [[[x y] t] f], b as [[[x' y'] t'] f']. unfold vkey_eqb.
  destruct (Z.eqb_spec x x') as [->|N]; [|constructor; congruence].
  destruct (Z.eqb_spec y y') as [->|N]; [|constructor; congruence].
  destruct (Z.eqb_spec t t') as [->|N]; [|constructor; congruence].
  destruct f, f'; cbn [andb Bool.eqb]; constructor; congruence.
Qed.

Lemma cast_i32_IZR z : (-2147483648 <= z < 2147483648)%Z -> cast_i32 (IZR z) = Some z.
Proof.
  intros H. unfold cast_i32. cbv zeta. rewrite Ztrunc_IZR. unfold in_i32.
  destruct (_ && _)%Z eqn:E; [reflexivity|lia].
Qed.
Lemma floor_int_ok x : (-2147483648 <= Zfloor x < 2147483648)%Z -> floor_int x = Some (Zfloor x).
Proof. apply cast_i32_IZR. Qed.
Lemma floor_int_inv x z : floor_int x = Some z -> z = Zfloor x /\ (-2147483648 <= z < 2147483648)%Z.
Proof. unfold floor_int. intros H. apply cast_i32_trunc in H. rewrite Ztrunc_IZR in H. exact H. Qed.
Lemma floor_plus x z : Zfloor (x + IZR z) = (Zfloor x + z)%Z.
Proof.
  apply Zfloor_imp. rewrite !plus_IZR. pose proof (Zfloor_lb x). pose proof (Zfloor_ub x). lra.
Qed.
Lemma trunc_nonneg x : (0 <= Zfloor x)%Z -> Ztrunc x = Zfloor x.
Proof. intros H. apply Ztrunc_floor. apply IZR_le in H. pose proof (Zfloor_lb x). lra. Qed.

(** The index of a heading. *)
Lemma slot_range clamp th : AngleClamp_contract clamp -> exists t, angle2index clamp th = Some t /\ (0 <= t < 32)%Z /\
  - PI + 2 * PI / 31 * IZR t <= clamp th < - PI + 2 * PI / 31 * (IZR t + 1).
Proof.
  intros Hc. destruct (Hc th) as [Hr _]. pose proof PI_RGT_0 as HP. set (u := (clamp th + PI) / (2 * PI) * 31).
  assert (Eu : u * (2 * PI) = (clamp th + PI) * 31) by (unfold u; field; lra).
  assert (Hu : 0 <= u <= 31) by (split; nra).
  exists (Zfloor u). assert (Hz : (0 <= Zfloor u)%Z) by (apply Zfloor_lub; lra).
  assert (Hz2 : (Zfloor u < 32)%Z). { apply lt_IZR. pose proof (Zfloor_lb u). lra. }
  split; [|split; [lia|]].
  - apply (cast_u32_some u); [lra|]. split; [|lia]. split; [apply Zfloor_lb|apply Zfloor_ub].
  - pose proof (Zfloor_lb u). pose proof (Zfloor_ub u).
    assert (E1 : clamp th = - PI + 2 * PI / 31 * u) by (unfold u; field; lra). rewrite E1.
    assert (0 < 2 * PI / 31) by lra. split; [apply Rplus_le_compat_l, Rmult_le_compat_l; lra|apply Rplus_lt_compat_l, Rmult_lt_compat_l; lra].
Qed.
Lemma clamp_0 clamp : AngleClamp_contract clamp -> clamp 0 = 0.
Proof. intros Hc. destruct (Hc 0) as [Hr He]. pose proof PI_RGT_0. apply angle_eq_unique; [assumption|lra]. Qed.
Lemma slot_0 clamp : AngleClamp_contract clamp -> angle2index clamp 0 = Some 15%Z.
Proof.
  intros Hc. unfold angle2index. rewrite (clamp_0 clamp Hc). pose proof PI_RGT_0.
  replace ((0 + PI) / (2 * PI) * 31) with (31 / 2) by (field; lra). apply cast_u32_some; [lra|]. split; [lra|lia].
Qed.

Section Inst.
  Variable clamp : R -> R.
  Hypothesis Hclamp : AngleClamp_contract clamp.
  Variable m : gridmap.
  Hypothesis Hwf : gm_wf m.
  Hypothesis Hsm : gm_small m.
  Hypothesis Hw : (0 < gm_w m)%Z.
  Hypothesis Hh : (0 < gm_h m)%Z.

  (** Cells for which the manager has nodes. *)
  Definition inner (x y : Z) : Prop := (- 32 < x < gm_w m + 32)%Z /\ (- 32 < y < gm_h m + 32)%Z.
  Definition innerb (x y : Z) : bool := ((- 32 <? x) && (x <? gm_w m + 32) && (- 32 <? y) && (y <? gm_h m + 32))%Z.
  Lemma innerb_spec x y : innerb x y = true <-> inner x y.
  Proof using Type. unfold innerb, inner. lia. Qed.

  Lemma inner_i32 x y : inner x y -> (-2147483648 <= x < 2147483648)%Z /\ (-2147483648 <= y < 2147483648)%Z.
  Proof using Hsm. unfold inner, gm_small in *. intros [A B]. clear - Hsm A B. lia. Qed.

  Lemma dyn_lookup_low x y t f : (x = -32 \/ y = -32)%Z -> forall q, fst (dyn_lookup (dyn_init (gm_w m) (gm_h m)) x y t f) <> Found q.
  Proof using Hw Hh.
    intros Hxy q. unfold dyn_lookup. set (s := dyn_init (gm_w m) (gm_h m)).
    destruct ((x <? - padding) || (y <? - padding) || (x >=? dy_w s + padding) || (y >=? dy_h s + padding) || (t <? 0) || (t >=? dyn_slots))%Z; [discriminate|].
    cbv zeta. destruct (_ <? 0)%Z eqn:E0; [discriminate|].
    destruct (nth_error (dy_chunks s) _) as [c|] eqn:En; [|discriminate].
    assert (c = None) as ->. { destruct c as [c|]; [|reflexivity]. exfalso. exact (nth_repeat_none _ _ _ En). }
    destruct (list_set _ _ _); cbn [fst].
    all: unfold chunk_index; cbv zeta;
      match goal with |- context [if ?b then _ else _] => replace b with true; [discriminate|] end;
      symmetry; destruct Hxy as [-> | ->]; [change (chunk_coord (-32)) with (-2)%Z|change (chunk_coord (-32)) with (-2)%Z]; unfold chunk_size;
      [replace (-32 - -2 * 32 >=? 32)%Z with true by lia|replace (-32 - -2 * 32 >=? 32)%Z with true by lia]; rewrite ?orb_true_r, ?orb_true_l; reflexivity.
  Qed.

  Lemma lookup_some x y th f : inner (Zfloor x) (Zfloor y) -> exists t, angle2index clamp th = Some t /\ (0 <= t < 32)%Z /\
    v_lookup clamp m x y th f = Some (Zfloor x, Zfloor y, t, f).
  Proof using Hclamp Hsm Hw Hh.
    intros Hi. destruct (slot_range clamp th Hclamp) as (t & Et & Ht & _). exists t. split; [assumption|]. split; [assumption|].
    unfold v_lookup. destruct (inner_i32 _ _ Hi) as [Bx By]. rewrite (floor_int_ok x Bx), (floor_int_ok y By). cbn [obind]. rewrite Et. cbn [obind].
    destruct (dyn_lookup_inner (dyn_init (gm_w m) (gm_h m)) (Zfloor x) (Zfloor y) t f (dyn_init_inv _ _ Hw Hh) Hi Ht) as (s' & -> & _).
    reflexivity.
  Qed.
  Lemma lookup_inv x y th f v : v_lookup clamp m x y th f = Some v ->
    inner (Zfloor x) (Zfloor y) /\ exists t, angle2index clamp th = Some t /\ (0 <= t < 32)%Z /\ v = (Zfloor x, Zfloor y, t, f).
  Proof using Hclamp Hsm Hw Hh.
    intros H. assert (Hi : inner (Zfloor x) (Zfloor y)).
    { unfold v_lookup in H. destruct (floor_int x) as [xi|] eqn:Ex; [|discriminate]. destruct (floor_int y) as [yi|] eqn:Ey; [|discriminate]. cbn [obind] in H.
      destruct (floor_int_inv _ _ Ex) as [<- _]. destruct (floor_int_inv _ _ Ey) as [<- _].
      destruct (angle2index clamp th) as [t|]; [|discriminate]. cbn [obind] in H.
      apply innerb_spec. destruct (innerb xi yi) eqn:E; [reflexivity|]. exfalso.
      destruct (Z.eq_dec xi (-32)) as [Xx|Xx]; [|destruct (Z.eq_dec yi (-32)) as [Xy|Xy]].
      - pose proof (dyn_lookup_low xi yi t f (or_introl Xx)) as L. destruct (fst _) as [q| | |]; try discriminate. exact (L q eq_refl).
      - pose proof (dyn_lookup_low xi yi t f (or_intror Xy)) as L. destruct (fst _) as [q| | |]; try discriminate. exact (L q eq_refl).
      - unfold dyn_lookup in H. unfold innerb in E.
        replace ((xi <? - padding) || (yi <? - padding) || (xi >=? dy_w (dyn_init (gm_w m) (gm_h m)) + padding) || (yi >=? dy_h (dyn_init (gm_w m) (gm_h m)) + padding) || (t <? 0) || (t >=? dyn_slots))%Z with true in H; [discriminate|].
        unfold padding. cbn [dyn_init dy_w dy_h]. clear - E Xx Xy. lia. }
    split; [assumption|]. destruct (lookup_some x y th f Hi) as (t & Et & Ht & E). exists t. rewrite E in H. injection H as <-. auto.
  Qed.

  Lemma contains_inv x y : v_contains m x y = Some true -> (- 32 <= Zfloor x < gm_w m + 32)%Z /\ (- 32 <= Zfloor y < gm_h m + 32)%Z.
  Proof using Type.
    unfold v_contains. destruct (floor_int x) as [xi|] eqn:Ex; [|discriminate]. destruct (floor_int y) as [yi|] eqn:Ey; [|discriminate]. cbn [obind].
    destruct (floor_int_inv _ _ Ex) as [<- _]. destruct (floor_int_inv _ _ Ey) as [<- _]. unfold dyn_contains, padding. cbn [dyn_init dy_w dy_h].
    intros H. injection H as H. clear - H. lia.
  Qed.
  Lemma contains_some x y : (-2147483648 <= Zfloor x < 2147483648)%Z -> (-2147483648 <= Zfloor y < 2147483648)%Z -> v_contains m x y <> None.
  Proof using Type. intros A B. unfold v_contains. rewrite (floor_int_ok x A), (floor_int_ok y B). discriminate. Qed.
  Lemma contains_ok x y : inner (Zfloor x) (Zfloor y) -> v_contains m x y = Some true.
  Proof using Hsm.
    intros H. destruct (inner_i32 _ _ H) as [A B]. unfold v_contains. rewrite (floor_int_ok x A), (floor_int_ok y B). cbn [obind].
    unfold dyn_contains, padding. cbn [dyn_init dy_w dy_h]. unfold inner in H. f_equal. clear - H. lia.
  Qed.

  (** ** Line checks *)
  (** Occupied cells of the map. *)
  Definition occupied (x y : Z) : Prop := cell_of (gm_w m) (gm_h m) x y /\ isOccupied m x y = Some true.
  Lemma isOccupied_some x y : cell_of (gm_w m) (gm_h m) x y -> exists o, isOccupied m x y = Some o.
  Proof using Hwf. intros H. destruct (getValue_some m x y Hwf H) as [v E]. unfold isOccupied. rewrite E. cbn [obind]. eauto. Qed.
  Lemma dyn_out_spec x y : dyn_out m x y = false <-> cell_of (gm_w m) (gm_h m) x y.
  Proof using Hwf. destruct Hwf as (A & B & _). unfold dyn_out, cell_of. clear - A B. rewrite !i32_id by lia. lia. Qed.
  Lemma fou1_spec x y : exists q, dyn_isFreeOrUnknown1 m x y = Some q /\ (q = true <-> ~ occupied x y).
  Proof using Hwf.
    unfold dyn_isFreeOrUnknown1. destruct (dyn_out m x y) eqn:E.
    - exists true. split; [reflexivity|]. split; [|reflexivity]. intros _ [X _]. apply dyn_out_spec in X. congruence.
    - apply dyn_out_spec in E. destruct (isOccupied_some x y E) as [o Eo]. rewrite Eo. cbn [obind]. exists (negb o). split; [reflexivity|].
      unfold occupied. rewrite Eo. destruct o; cbn [negb]; split; try congruence; [intros X; exfalso; apply X; auto|intros _ [_ X]; congruence].
  Qed.
  Lemma occ1_spec x y : exists q, dyn_isOccupied1 m x y = Some q /\ (q = true <-> occupied x y).
  Proof using Hwf.
    unfold dyn_isOccupied1. destruct (dyn_out m x y) eqn:E.
    - exists false. split; [reflexivity|]. split; [discriminate|]. intros [X _]. apply dyn_out_spec in X. congruence.
    - apply dyn_out_spec in E. destruct (isOccupied_some x y E) as [o Eo]. rewrite Eo. exists o. split; [reflexivity|].
      unfold occupied. rewrite Eo. split; [intros ->; auto|intros [_ X]; congruence].
  Qed.

  (** The loop with the skip counter tests every (skips+1)-th cell, from the first on. *)
  Lemma skip_scan_some (test : Z -> Z -> option bool) skips l : (forall x y, test x y <> None) -> forall k, exists r, skip_scan test skips k l = Some r.
  Proof using Type.
    clear. intros Ht. induction l as [|b l IH]; intros k; cbn [skip_scan]; [eauto|].
    destruct (k =? 0)%Z; cbn [obind].
    - destruct (test _ _) as [[|]|] eqn:E; cbn [obind]; [eauto|apply IH|exfalso; exact (Ht _ _ E)].
    - apply IH.
  Qed.
  Lemma skip_scan_false (test : Z -> Z -> option bool) skips l : (0 <= skips)%Z -> forall k, (0 <= k <= skips)%Z -> skip_scan test skips k l = Some false ->
    forall n b, nth_error l n = Some b -> ((k + Z.of_nat n) mod (skips + 1) = 0)%Z ->
    test (i32 (u32 (b_x b - padding))) (i32 (u32 (b_y b - padding))) = Some false.
  Proof using Type.
    clear. intros Hs. induction l as [|b0 l IH]; intros k Hk E n b Hn Hm; [destruct n; discriminate|]. cbn [skip_scan] in E.
    destruct (Z.eqb_spec k 0) as [->|Nk].
    - destruct (test _ _) as [[|]|] eqn:E1; cbn [obind] in E; try discriminate. destruct n as [|n].
      + cbn [nth_error] in Hn. injection Hn as <-. assumption.
      + cbn [nth_error] in Hn. destruct (0 + 1 >? skips)%Z eqn:E2.
        * apply (IH 0%Z ltac:(lia) E n b Hn). assert (skips = 0)%Z by lia. subst skips. apply Z.mod_1_r.
        * apply (IH 1%Z ltac:(lia) E n b Hn). replace (1 + Z.of_nat n)%Z with (0 + Z.of_nat (S n))%Z by lia. assumption.
    - cbn [obind] in E. destruct n as [|n]; [rewrite Z.mod_small in Hm by lia; lia|]. cbn [nth_error] in Hn. destruct (k + 1 >? skips)%Z eqn:E2.
      + apply (IH 0%Z ltac:(lia) E n b Hn). replace (k + Z.of_nat (S n))%Z with ((0 + Z.of_nat n) + 1 * (skips + 1))%Z in Hm by lia. rewrite Z.mod_add in Hm by lia. assumption.
      + apply (IH (k + 1)%Z ltac:(lia) E n b Hn). replace (k + 1 + Z.of_nat n)%Z with (k + Z.of_nat (S n))%Z by lia. assumption.
  Qed.

  Variable skips : Z.
  Hypothesis Hskips : (0 <= skips)%Z.

  (** The line check with any state of the Bresenham object. *)
  Definition v_line_from (b0 : bres) (sx sy ex ey : R) : option bool :=
    a <- floor_int (sx + 32) ;; b <- floor_int (sy + 32) ;; c <- floor_int (ex + 32) ;; d <- floor_int (ey + 32) ;;
    b1 <- setGrid b0 m a b c d ;;
    l <- bwalk (seg_fuel a b c d) b1 ;;
    hit <- skip_scan (fun x y => f <- dyn_isFreeOrUnknown1 m x y ;; Some (negb f)) skips 0 l ;;
    if (hit : bool) then Some false
    else tx <- cast_i32 sx ;; ty <- cast_i32 sy ;; dyn_isFreeOrUnknown1 m tx ty.
  Lemma line_state b0 sx sy ex ey : v_line_from b0 sx sy ex ey = v_line m skips sx sy ex ey.
  Proof using Hwf.
    unfold v_line_from, v_line. destruct (floor_int (sx + 32)) as [a|]; [|reflexivity]. destruct (floor_int (sy + 32)) as [b|]; [|reflexivity].
    destruct (floor_int (ex + 32)) as [c|]; [|reflexivity]. destruct (floor_int (ey + 32)) as [d|]; [|reflexivity]. cbn [obind].
    destruct (isInMap m a b) eqn:E1; [destruct (isInMap m c d) eqn:E2|].
    - unfold setGrid. rewrite E1, E2. reflexivity.
    - destruct (setGrid_out b0 m a b c d (or_intror E2)) as (b1 & -> & N1 & _). destruct (setGrid_out (bres_new 0) m a b c d (or_intror E2)) as (b2 & -> & N2 & _).
      cbn [obind]. unfold seg_fuel. cbn [bwalk]. rewrite N1, N2. reflexivity.
    - destruct (setGrid_out b0 m a b c d (or_introl E1)) as (b1 & -> & N1 & _). destruct (setGrid_out (bres_new 0) m a b c d (or_introl E1)) as (b2 & -> & N2 & _).
      cbn [obind]. unfold seg_fuel. cbn [bwalk]. rewrite N1, N2. reflexivity.
  Qed.

  (** What an accepted line guarantees. *)
  Definition line_clear (x y x' y' : Z) : Prop :=
    cell_of (gm_w m) (gm_h m) (x + 32) (y + 32) -> cell_of (gm_w m) (gm_h m) (x' + 32) (y' + 32) ->
    exists l, segment_cells x y x' y' l /\ forall n c, nth_error l n = Some c -> (Z.of_nat n mod (skips + 1) = 0)%Z -> ~ occupied (fst c) (snd c).

  Lemma walk_cells sx sy ex ey : cell_of (gm_w m) (gm_h m) (sx + 32) (sy + 32) -> cell_of (gm_w m) (gm_h m) (ex + 32) (ey + 32) ->
    exists b1 l, setGrid (bres_new 0) m (sx + 32) (sy + 32) (ex + 32) (ey + 32) = Some b1 /\ bwalk (seg_fuel (sx + 32) (sy + 32) (ex + 32) (ey + 32)) b1 = Some l /\
      segment_cells sx sy ex ey (map (fun b => (b_x b - 32, b_y b - 32)%Z) l) /\
      forall b, In b l -> i32 (u32 (b_x b - padding)) = (b_x b - 32)%Z /\ i32 (u32 (b_y b - padding)) = (b_y b - 32)%Z.
  Proof using Hwf Hsm.
    intros Hs He. destruct (line_walk (bres_new 0) m (sx + 32) (sy + 32) (ex + 32) (ey + 32) Hwf Hsm Hs He) as (b1 & Hb1 & Hc & Hwk).
    destruct (Hwk (seg_fuel (sx + 32) (sy + 32) (ex + 32) (ey + 32))) as (l & Hl & Hlen & Hlast & Hconn & Hon & Hin & _).
    { unfold blen, seg_fuel. clear. lia. }
    exists b1, l. split; [assumption|]. split; [assumption|].
    set (un := fun c : Z * Z => (fst c - 32, snd c - 32)%Z).
    replace (map (fun b => (b_x b - 32, b_y b - 32)%Z) l) with (map un (map bcoords l)) by (rewrite map_map; reflexivity).
    assert (Hmap : map bcoords l = map (fun c => (fst c + 32, snd c + 32)%Z) (map un (map bcoords l))).
    { rewrite map_map. rewrite <- (map_id (map bcoords l)) at 1. apply map_ext. intros [p q]. unfold un. cbn [fst snd]. f_equal; ring. }
    split.
    - clear Hwk Hin. unfold segment_cells. split; [|split; [|split]].
      + rewrite !map_length. rewrite Hlen. unfold blen. f_equal; f_equal; ring.
      + destruct (map bcoords l) as [|c0 l0] eqn:El.
        * cbn in *. injection Hlast as E1 E2. f_equal; clear - E1 E2; lia.
        * rewrite <- El in *. assert (Hne : map bcoords l <> []) by (rewrite El; discriminate).
          rewrite (app_removelast_last (sx, sy) Hne), map_app. cbn [map]. rewrite last_last.
          rewrite (app_removelast_last (sx, sy) Hne), last_last in Hlast. rewrite Hlast. unfold un. cbn [fst snd]. f_equal; ring.
      + apply (connected_shift 32). cbn [fst snd]. rewrite <- Hmap. exact Hconn.
      + intros n [p q] Hn. apply (on_segment_shift 32). apply (Hon n).
        rewrite Hmap. destruct n as [|n]; cbn in *; [injection Hn as <- <-; reflexivity|].
        rewrite nth_error_map. rewrite Hn. reflexivity.
    - intros b' Hb'. destruct (Hin b' Hb') as [_ H]. unfold bcoords, cell_of, gm_small in *. cbn [fst snd] in H.
      clear - H Hsm. rewrite !i32_u32_shift by lia. auto.
  Qed.

  Definition test : Z -> Z -> option bool := fun x y => f <- dyn_isFreeOrUnknown1 m x y ;; Some (negb f).
  Lemma test_some x y : test x y <> None.
  Proof using Hwf. unfold test. destruct (fou1_spec x y) as (q & -> & _). discriminate. Qed.

  Lemma line_inv sx sy ex ey : v_line m skips sx sy ex ey = Some true ->
    line_clear (Zfloor sx) (Zfloor sy) (Zfloor ex) (Zfloor ey) /\ ~ occupied (Ztrunc sx) (Ztrunc sy).
  Proof using Hwf Hsm Hskips.
    unfold v_line. destruct (floor_int (sx + 32)) as [a|] eqn:Ea; [|discriminate]. destruct (floor_int (sy + 32)) as [b|] eqn:Eb; [|discriminate].
    destruct (floor_int (ex + 32)) as [c|] eqn:Ec; [|discriminate]. destruct (floor_int (ey + 32)) as [d|] eqn:Ed; [|discriminate]. cbn [obind].
    apply floor_int_inv in Ea, Eb, Ec, Ed. rewrite floor_plus in Ea, Eb, Ec, Ed. destruct Ea as [-> _], Eb as [-> _], Ec as [-> _], Ed as [-> _].
    destruct (setGrid _ _ _ _ _ _) as [b1|] eqn:Eg; [|discriminate]. cbn [obind]. destruct (bwalk _ _) as [l|] eqn:El; [|discriminate]. cbn [obind].
    fold test. destruct (skip_scan test skips 0 l) as [[|]|] eqn:Es; [discriminate| |discriminate]. cbn [obind].
    destruct (cast_i32 sx) as [tx|] eqn:Et; [|discriminate]. destruct (cast_i32 sy) as [ty|] eqn:Ety; [|discriminate]. cbn [obind].
    apply cast_i32_trunc in Et, Ety. destruct Et as [-> _], Ety as [-> _]. intros Hf. split.
    - intros Hs He. destruct (walk_cells _ _ _ _ Hs He) as (b1' & l' & Eg' & El' & Hseg & Hsh).
      rewrite Eg in Eg'. injection Eg' as <-. rewrite El in El'. injection El' as <-.
      eexists. split; [exact Hseg|]. intros n c Hn Hm. rewrite nth_error_map in Hn. destruct (nth_error l n) as [b|] eqn:En; [|discriminate]. cbn [option_map] in Hn. injection Hn as <-.
      pose proof (skip_scan_false test skips l Hskips 0%Z (conj (Z.le_refl 0) Hskips) Es n b En Hm) as X. destruct (Hsh b (nth_error_In _ _ En)) as [X1 X2]. rewrite X1, X2 in X.
      cbn [fst snd]. unfold test in X. destruct (fou1_spec (b_x b - 32) (b_y b - 32)) as (q & Eq & Hq). rewrite Eq in X. cbn [obind] in X. injection X as X. apply Hq. destruct q; [reflexivity|discriminate].
    - destruct (fou1_spec (Ztrunc sx) (Ztrunc sy)) as (q & Eq & Hq). rewrite Eq in Hf. injection Hf as ->. apply Hq. reflexivity.
  Qed.

  Definition fits (x y : R) : Prop := (-2147483648 <= Zfloor x < 2147483616)%Z /\ (-2147483648 <= Zfloor y < 2147483616)%Z.
  Lemma trunc_near x : (Zfloor x <= Ztrunc x <= Zfloor x + 1)%Z.
  Proof using Type.
    clear. destruct (Rle_or_lt 0 x) as [H|H]; [rewrite Ztrunc_floor by assumption; lia|]. rewrite Ztrunc_ceil by lra.
    split; [apply le_IZR; eapply Rle_trans; [apply Zfloor_lb|apply Zceil_ub]|]. apply Zceil_glb. rewrite plus_IZR. pose proof (Zfloor_ub x). lra.
  Qed.
  Lemma cast_i32_fits x : (-2147483648 <= Zfloor x < 2147483616)%Z -> cast_i32 x = Some (Ztrunc x).
  Proof using Type. intros H. pose proof (trunc_near x) as T. unfold cast_i32, in_i32. cbv zeta. destruct (_ && _)%Z eqn:E; [reflexivity|]. clear - H T E. lia. Qed.
  (** The check is defined on all poses whose coordinates are int. *)
  Lemma line_some sx sy ex ey : fits sx sy -> fits ex ey -> v_line m skips sx sy ex ey <> None.
  Proof using Hwf Hsm.
    intros [A B] [C D]. unfold v_line.
    rewrite (floor_int_ok (sx + 32)), (floor_int_ok (sy + 32)), (floor_int_ok (ex + 32)), (floor_int_ok (ey + 32)) by (rewrite floor_plus; clear - A B C D; lia).
    rewrite !floor_plus. cbn [obind].
    set (a := (Zfloor sx + 32)%Z). set (b := (Zfloor sy + 32)%Z). set (c := (Zfloor ex + 32)%Z). set (d := (Zfloor ey + 32)%Z).
    assert (F : forall l, (hit <- skip_scan test skips 0 l ;; if (hit : bool) then Some false else tx <- cast_i32 sx ;; ty <- cast_i32 sy ;; dyn_isFreeOrUnknown1 m tx ty) <> None).
    { intros l. destruct (skip_scan_some test skips l test_some 0%Z) as [r ->]. cbn [obind]. destruct r; [discriminate|].
      rewrite (cast_i32_fits sx A), (cast_i32_fits sy B). cbn [obind]. destruct (fou1_spec (Ztrunc sx) (Ztrunc sy)) as (q & -> & _). discriminate. }
    assert (O : isInMap m a b = false \/ isInMap m c d = false -> b1 <- setGrid (bres_new 0) m a b c d ;; l <- bwalk (seg_fuel a b c d) b1 ;;
      hit <- skip_scan test skips 0 l ;; (if (hit : bool) then Some false else tx <- cast_i32 sx ;; ty <- cast_i32 sy ;; dyn_isFreeOrUnknown1 m tx ty) <> None).
    { intros Ho. destruct (setGrid_out (bres_new 0) m a b c d Ho) as (b1 & -> & N1 & _). cbn [obind]. unfold seg_fuel. cbn [bwalk]. rewrite N1. cbn [obind]. apply F. }
    destruct (isInMap m a b) eqn:E1; [destruct (isInMap m c d) eqn:E2|]; [|apply O; auto|apply O; auto].
    apply isInMap_spec in E1, E2; [|assumption|assumption]. destruct (walk_cells _ _ _ _ E1 E2) as (b1 & l & Hg & Hl & _). fold a b c d in Hg, Hl. rewrite Hg. cbn [obind]. rewrite Hl. apply F.
  Qed.
  (** If a shifted end point lies outside the map, only the start cell is tested. *)
  Lemma line_unchecked sx sy ex ey : fits sx sy -> fits ex ey ->
    (~ cell_of (gm_w m) (gm_h m) (Zfloor sx + 32) (Zfloor sy + 32) \/ ~ cell_of (gm_w m) (gm_h m) (Zfloor ex + 32) (Zfloor ey + 32)) ->
    ~ occupied (Ztrunc sx) (Ztrunc sy) -> v_line m skips sx sy ex ey = Some true.
  Proof using Hwf.
    intros [A B] [C D] Ho Hn. unfold v_line.
    rewrite (floor_int_ok (sx + 32)), (floor_int_ok (sy + 32)), (floor_int_ok (ex + 32)), (floor_int_ok (ey + 32)) by (rewrite floor_plus; clear - A B C D; lia).
    rewrite !floor_plus. cbn [obind].
    assert (Ho' : isInMap m (Zfloor sx + 32) (Zfloor sy + 32) = false \/ isInMap m (Zfloor ex + 32) (Zfloor ey + 32) = false).
    { destruct Ho as [Ho|Ho]; [left|right]; apply not_true_is_false; intros X; apply Ho, isInMap_spec; assumption. }
    destruct (setGrid_out (bres_new 0) m _ _ _ _ Ho') as (b1 & -> & N1 & _). cbn [obind]. unfold seg_fuel. cbn [bwalk]. rewrite N1. cbn [obind skip_scan].
    rewrite (cast_i32_fits sx A), (cast_i32_fits sy B). cbn [obind]. destruct (fou1_spec (Ztrunc sx) (Ztrunc sy)) as (q & -> & Hq). f_equal. apply Hq. assumption.
  Qed.

  (** ** Moves *)
  Variable res : R.
  Variable advance : snode -> list snode -> Z -> Z -> adv.

  Lemma offer_inv ref prevs mv v c n : v_offer clamp m skips res advance ref prevs mv = Some (Some (v, c, n)) ->
    exists cost, advance ref prevs (fst mv) (snd mv) = AMove cost n /\ c = cost * res /\ 0 <= cost /\
      v_line m skips (sn_x ref) (sn_y ref) (sn_x n) (sn_y n) = Some true /\ inner (Zfloor (sn_x n)) (Zfloor (sn_y n)) /\
      exists t, angle2index clamp (sn_th n) = Some t /\ (0 <= t < 32)%Z /\ v = (Zfloor (sn_x n), Zfloor (sn_y n), t, sn_fwd n).
  Proof using Hclamp Hsm Hw Hh.
    unfold v_offer. destruct (advance ref prevs (fst mv) (snd mv)) as [| |cost n']; [discriminate|discriminate|].
    destruct (Rltb cost 0) eqn:Ec; [discriminate|]. destruct (v_contains _ _ _) as [[|]|]; cbn [obind negb]; [|discriminate|discriminate].
    destruct (v_line _ _ _ _ _ _) as [[|]|] eqn:El; cbn [obind negb]; [|discriminate|discriminate].
    destruct (v_lookup _ _ _ _ _ _) as [v'|] eqn:Ev; cbn [obind]; [|discriminate].
    intros H. injection H as <- <- <-. apply Rltb_false in Ec. exists cost. destruct (lookup_inv _ _ _ _ _ Ev) as [Hi Ht].
    split; [reflexivity|]. split; [reflexivity|]. split; [lra|]. split; [assumption|]. split; assumption.
  Qed.

  (** ** The keys of all nodes *)
  Definition zrange (lo n : Z) : list Z := map (fun k => (lo + Z.of_nat k)%Z) (seq 0 (Z.to_nat n)).
  Lemma zrange_in lo n z : (lo <= z < lo + n)%Z -> In z (zrange lo n).
  Proof using Type. clear. intros H. unfold zrange. apply in_map_iff. exists (Z.to_nat (z - lo)). split; [lia|]. apply in_seq. lia. Qed.
  Lemma zrange_len lo n : length (zrange lo n) = Z.to_nat n.
  Proof using Type. unfold zrange. rewrite map_length, seq_length. reflexivity. Qed.
  Definition all_keys : list vkey :=
    list_prod (list_prod (list_prod (zrange (-32) (gm_w m + 64)) (zrange (-32) (gm_h m + 64))) (zrange 0 32)) [true; false].
  Lemma all_keys_in x y t f : inner x y -> (0 <= t < 32)%Z -> In (x, y, t, f) all_keys.
  Proof using Type.
    intros [A B] Ht. unfold all_keys. rewrite !in_prod_iff. split; [split; [split|]|].
    - apply zrange_in. clear - A. lia.
    - apply zrange_in. clear - B. lia.
    - apply zrange_in. assumption.
    - destruct f; [left|right; left]; reflexivity.
  Qed.
  Lemma all_keys_len : Z.of_nat (length all_keys) = ((gm_w m + 64) * (gm_h m + 64) * 64)%Z.
  Proof using Hw Hh.
    unfold all_keys, vkey. rewrite !prod_length, !zrange_len. cbn [length]. rewrite !Nat2Z.inj_mul, !Z2Nat.id by (clear - Hw Hh; lia). ring.
  Qed.

  (** ** Where a search begins *)
  Definition at_corner (x y : Z) (th : R) (f : bool) : snode := SN (IZR x) (IZR y) th f 0 (Some 0%Z) 0.
  Definition keys_of (x y : Z) : list vkey := [(x, y, 15%Z, true); (x, y, 15%Z, false)].

  Lemma upd_same pay v n : v_upd pay v n v = n.
  Proof using Type. unfold v_upd. destruct (vkey_eqb_spec v v); [reflexivity|contradiction]. Qed.
  Lemma upd_other pay v n w : w <> v -> v_upd pay v n w = pay w.
  Proof using Type. unfold v_upd. intros. destruct (vkey_eqb_spec w v); [contradiction|reflexivity]. Qed.

  Lemma poses_ok x y pay : inner (Zfloor x) (Zfloor y) -> exists pay', v_poses clamp m x y pay = Some (keys_of (Zfloor x) (Zfloor y), pay') /\
    (forall f, pay' (Zfloor x, Zfloor y, 15%Z, f) = set_fwd f (pay (Zfloor x, Zfloor y, 15%Z, f))) /\
    (forall w, ~ In w (keys_of (Zfloor x) (Zfloor y)) -> pay' w = pay w).
  Proof using Hclamp Hsm Hw Hh.
    intros Hi. unfold v_poses.
    destruct (lookup_some x y 0 true Hi) as (t & Et & _ & ->). rewrite (slot_0 clamp Hclamp) in Et. injection Et as <-.
    destruct (lookup_some x y 0 false Hi) as (t & Et & _ & ->). rewrite (slot_0 clamp Hclamp) in Et. injection Et as <-.
    cbn [obind]. eexists. split; [reflexivity|]. split.
    - intros [|].
      + rewrite upd_other by congruence. apply upd_same.
      + rewrite upd_same, upd_other by congruence. reflexivity.
    - intros w Hn. rewrite !upd_other; [reflexivity| |]; intros ->; apply Hn; [left|right; left]; reflexivity.
  Qed.

  Lemma init_ok th x y pay : inner x y -> (forall f, exists th0, pay (x, y, 15%Z, f) = at_corner x y th0 f) ->
    exists o, dyn_isOccupied1 m x y = Some o /\
    if (o : bool) then v_init m th (keys_of x y) pay = Some ([], pay)
    else exists pay', v_init m th (keys_of x y) pay = Some (keys_of x y, pay') /\
      (forall f, pay' (x, y, 15%Z, f) = at_corner x y th f) /\ (forall w, ~ In w (keys_of x y) -> pay' w = pay w).
  Proof using Hwf Hsm.
    intros Hi Hp. destruct (inner_i32 x y Hi) as [Bx By]. destruct (occ1_spec x y) as (o & Eo & _). exists o. split; [assumption|].
    assert (Hoc : forall n th0 f, n = at_corner x y th0 f -> v_occupied m n = Some o).
    { intros n th0 f ->. unfold v_occupied, at_corner. cbn [sn_x sn_y]. rewrite (cast_i32_IZR x Bx), (cast_i32_IZR y By). exact Eo. }
    destruct (Hp true) as (t1 & E1). destruct (Hp false) as (t2 & E2).
    unfold keys_of. cbn [v_init]. rewrite (Hoc _ t1 true E1). cbn [obind]. destruct o.
    - rewrite (Hoc _ t2 false E2). reflexivity.
    - rewrite upd_other by congruence. rewrite (Hoc _ t2 false E2). cbn [obind fst snd]. eexists. split; [reflexivity|]. split.
      + intros [|].
        * rewrite upd_other by congruence. rewrite upd_same, E1. reflexivity.
        * rewrite upd_same, E2. reflexivity.
      + intros w Hn. rewrite !upd_other; [reflexivity| |]; intros ->; apply Hn; [left|right; left]; reflexivity.
  Qed.

  Lemma keys_disjoint x y x' y' f : (x, y) <> (x', y') -> ~ In (x, y, 15%Z, f) (keys_of x' y').
  Proof using Type. intros N [E|[E|[]]]; apply N; congruence. Qed.

  (** Both poses have a cell: the nodes of the two cells, with the requested headings;
      if the cells are the same the heading of the second pose remains. *)
  Lemma begin_ok x y th gx gy gth : inner (Zfloor x) (Zfloor y) -> inner (Zfloor gx) (Zfloor gy) ->
    exists (os og : bool) pay, v_begin clamp m (x, y, th) (gx, gy, gth) =
        Some (if os then [] else keys_of (Zfloor x) (Zfloor y), if og then [] else keys_of (Zfloor gx) (Zfloor gy), pay) /\
      (os = true <-> occupied (Zfloor x) (Zfloor y)) /\ (og = true <-> occupied (Zfloor gx) (Zfloor gy)) /\
      (os = false -> forall f, pay (Zfloor x, Zfloor y, 15%Z, f) =
         at_corner (Zfloor x) (Zfloor y) (if ((Zfloor x =? Zfloor gx) && (Zfloor y =? Zfloor gy))%Z then gth else th) f) /\
      (og = false -> forall f, pay (Zfloor gx, Zfloor gy, 15%Z, f) = at_corner (Zfloor gx) (Zfloor gy) gth f) /\
      (forall w, ~ In w (keys_of (Zfloor x) (Zfloor y)) -> ~ In w (keys_of (Zfloor gx) (Zfloor gy)) -> pay w = v_node0 w).
  Proof using Hclamp Hwf Hsm Hw Hh.
    intros Hi Hg. set (cx := Zfloor x) in *. set (cy := Zfloor y) in *. set (dx := Zfloor gx) in *. set (dy := Zfloor gy) in *.
    unfold v_begin. destruct (poses_ok x y v_node0 Hi) as (p1 & E1 & A1 & B1). fold cx cy in E1, A1, B1. rewrite E1. cbn [obind fst snd].
    destruct (init_ok th cx cy p1 Hi) as (os & Eos & X1).
    { intros f. exists (- PI + 2 * PI / 32 * 15). rewrite A1. reflexivity. }
    assert (Y1 : exists start p2, v_init m th (keys_of cx cy) p1 = Some (start, p2) /\ start = (if os then [] else keys_of cx cy) /\
      (os = false -> forall f, p2 (cx, cy, 15%Z, f) = at_corner cx cy th f) /\ (forall f, exists th0, p2 (cx, cy, 15%Z, f) = at_corner cx cy th0 f) /\
      (forall w, ~ In w (keys_of cx cy) -> p2 w = v_node0 w)).
    { destruct os; [|destruct X1 as (p2 & E2 & A2 & B2)].
      - exists [], p1. split; [assumption|]. split; [reflexivity|]. split; [discriminate|]. split; [|assumption].
        intros f. exists (- PI + 2 * PI / 32 * 15). rewrite A1. reflexivity.
      - exists (keys_of cx cy), p2. split; [assumption|]. split; [reflexivity|]. split; [intros _; assumption|]. split; [intros f; exists th; apply A2|].
        intros w Hn. rewrite B2 by assumption. apply B1. assumption. }
    destruct Y1 as (start & p2 & E2 & -> & A2 & A2' & B2). rewrite E2. cbn [obind fst snd].
    destruct (poses_ok gx gy p2 Hg) as (p3 & E3 & A3 & B3). fold dx dy in E3, A3, B3. rewrite E3. cbn [obind fst snd].
    assert (G0 : forall f, exists th0, p3 (dx, dy, 15%Z, f) = at_corner dx dy th0 f).
    { intros f. rewrite A3. assert (D : {(cx, cy) = (dx, dy)} + {(cx, cy) <> (dx, dy)}) by (repeat decide equality). destruct D as [E|E].
      - injection E as <- <-. destruct (A2' f) as (th0 & ->). exists th0. reflexivity.
      - exists (- PI + 2 * PI / 32 * 15). rewrite B2 by (apply keys_disjoint; congruence). reflexivity. }
    destruct (init_ok gth dx dy p3 Hg G0) as (og & Eog & X3).
    destruct (occ1_spec cx cy) as (os' & Eos' & Hos). rewrite Eos in Eos'. injection Eos' as <-.
    destruct (occ1_spec dx dy) as (og' & Eog' & Hog). rewrite Eog in Eog'. injection Eog' as <-.
    assert (Y3 : exists goals p4, v_init m gth (keys_of dx dy) p3 = Some (goals, p4) /\ goals = (if og then [] else keys_of dx dy) /\
      (og = false -> forall f, p4 (dx, dy, 15%Z, f) = at_corner dx dy gth f) /\ (forall w, ~ In w (keys_of dx dy) -> p4 w = p2 w)).
    { destruct og; [|destruct X3 as (p4 & E4 & A4 & B4)].
      - exists [], p3. split; [assumption|]. split; [reflexivity|]. split; [discriminate|]. assumption.
      - exists (keys_of dx dy), p4. split; [assumption|]. split; [reflexivity|]. split; [intros _; assumption|]. intros w Hn. rewrite B4 by assumption. apply B3. assumption. }
    destruct Y3 as (goals & p4 & E4 & -> & A4 & B4). rewrite E4. cbn [obind fst snd].
    exists os, og, p4. split; [reflexivity|]. split; [assumption|]. split; [assumption|]. split; [|split; [assumption|]].
    - intros Hos0 f. destruct ((cx =? dx)%Z && (cy =? dy)%Z) eqn:E.
      + apply andb_prop in E. destruct E as [Ex Ey]. apply Z.eqb_eq in Ex, Ey. rewrite Ex, Ey in *. apply A4. rewrite Eos in Eog. congruence.
      + rewrite B4; [apply A2; assumption|]. apply keys_disjoint. intros X. injection X as Y Z. rewrite Y, Z, !Z.eqb_refl in E. discriminate.
    - intros w H1 H2. rewrite B4 by assumption. apply B2. assumption.
  Qed.
  Lemma begin_inner from to r : v_begin clamp m from to = Some r ->
    inner (Zfloor (fst (fst from))) (Zfloor (snd (fst from))) /\ inner (Zfloor (fst (fst to))) (Zfloor (snd (fst to))).
  Proof using Hclamp Hsm Hw Hh.
    destruct from as [[x y] th], to as [[gx gy] gth]. unfold v_begin. cbn [fst snd].
    destruct (v_poses clamp m x y v_node0) as [a|] eqn:Ea; [|discriminate]. cbn [obind]. destruct (v_init m th (fst a) (snd a)) as [s|]; [|discriminate]. cbn [obind].
    destruct (v_poses clamp m gx gy (snd s)) as [b|] eqn:Eb; [|discriminate]. intros _.
    unfold v_poses in Ea, Eb. destruct (v_lookup clamp m x y 0 true) as [v|] eqn:E1; [|discriminate]. destruct (v_lookup clamp m gx gy 0 true) as [w|] eqn:E2; [|discriminate].
    split; [apply (lookup_inv _ _ _ _ _ E1)|apply (lookup_inv _ _ _ _ _ E2)].
  Qed.
End Inst.
