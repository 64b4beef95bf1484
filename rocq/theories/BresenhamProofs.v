From Verif Require Import Base GridMap GridMapProofs Bresenham.

(** Major-axis length. *)
Definition blen (xs ys xe ye : Z) : Z := Z.max (Z.abs (xe - xs)) (Z.abs (ye - ys)).


(** State invariant after [k] steps. *)
Definition binv (m : gridmap) (xs ys xe ye k : Z) (b : bres) : Prop :=
  b_map b = Some m /\ b_x1 b = xe /\ b_y1 b = ye /\
  exists i j,
    let D := Z.abs (xe - xs) in let E := Z.abs (ye - ys) in
    let sx := if xs <? xe then 1 else -1 in let sy := if ys <? ye then 1 else -1 in
    b_x b = xs + sx * i /\ b_y b = ys + sy * j /\
    b_dx b = D /\ b_dy b = - E /\ b_sx b = sx /\ b_sy b = sy /\
    b_err b = D * (1 + j) - E * (1 + i) /\
    0 <= i <= D /\ 0 <= j <= E /\
    (E <= D -> i = k) /\ (D <= E -> j = k) /\
    - Z.max D E <= 2 * (D * j - E * i) <= Z.max D E.

Definition small (xs ys xe ye : Z) : Prop :=
  0 <= xs < 536870912 /\ 0 <= ys < 536870912 /\ 0 <= xe < 536870912 /\ 0 <= ye < 536870912.

Lemma chk_some z : -2147483648 <= z < 2147483648 -> chk z = Some z.
Proof. intros H. unfold chk, in_i32. replace ((-2147483648 <=? z) && (z <? 2147483648)) with true by lia. reflexivity. Qed.

Lemma bres_start_inv m xs ys xe ye : small xs ys xe ye ->
  exists b, bres_start m xs ys xe ye = Some b /\ binv m xs ys xe ye 0 b /\ bcoords b = (xs, ys).
Proof.
  intros (H1 & H2 & H3 & H4). unfold bres_start.
  do 5 (rewrite chk_some by lia; cbn [obind]). eexists; split; [reflexivity|]. split; [|reflexivity].
  unfold binv; cbn [b_map b_x0 b_y0 b_x1 b_y1 b_x b_y b_dx b_dy b_sx b_sy b_err].
  repeat (split; [reflexivity|]). exists 0, 0. cbv zeta.
  rewrite !Z.mul_0_r, !Z.add_0_r, !Z.mul_1_r. repeat split; lia.
Qed.

(* The arithmetic core of one step, with D, E the axis lengths. *)
Lemma step_core D E i j k err :
  0 <= D -> 0 <= E ->
  err = D * (1 + j) - E * (1 + i) ->
  0 <= i <= D -> 0 <= j <= E ->
  (E <= D -> i = k) -> (D <= E -> j = k) ->
  - Z.max D E <= 2 * (D * j - E * i) <= Z.max D E ->
  k < Z.max D E ->
  let i' := if 2 * err >? - E then i + 1 else i in
  let j' := if 2 * err <? D then j + 1 else j in
  0 <= i' <= D /\ 0 <= j' <= E /\
  (E <= D -> i' = k + 1) /\ (D <= E -> j' = k + 1) /\
  - Z.max D E <= 2 * (D * j' - E * i') <= Z.max D E.
Proof.
  intros HD HE Herr Hi Hj Hki Hkj Hb Hk i' j'. subst i' j'.
  destruct (Z.le_gt_cases E D) as [LE|LE].
  - (* x-major *)
    rewrite Z.max_l in * by lia. specialize (Hki LE). subst k.
    assert (Hx : 2 * err > - E).
    { destruct (Z.eq_dec E D) as [->|NE].
      - assert (j = i) by (apply Hkj; lia). subst j. nia.
      - nia. }
    replace (2 * err >? - E) with true by lia.
    destruct (Z.ltb_spec (2 * err) D) as [L|L].
    + assert (j + 1 <= E). { assert (D * (j + 1) < D * (E + 1)) by nia. nia. }
      repeat split; try lia; try nia.
    + assert (D < E \/ D = E \/ E < D) as [|[->|]] by lia; [lia| |].
      * assert (j = i) by (apply Hkj; lia). subst j. nia.
      * repeat split; try lia; try nia.
  - (* y-major *)
    rewrite Z.max_r in * by lia. assert (Hj' : j = k) by (apply Hkj; lia). subst k.
    assert (Hy : 2 * err < D) by nia.
    replace (2 * err <? D) with true by lia.
    destruct (Z.gtb_spec (2 * err) (- E)) as [L|L].
    + assert (i + 1 <= D). { assert (E * (i + 1) < E * (D + 1)) by nia. nia. }
      repeat split; try lia; try nia.
    + repeat split; try lia; try nia.
Qed.

Lemma err_bound D E i j : 0 <= D < 536870912 -> 0 <= E < 536870912 ->
  - Z.max D E <= 2 * (D * j - E * i) <= Z.max D E ->
  -1073741823 < D * (1 + j) - E * (1 + i) < 1073741823 .
Proof. intros. lia. Qed.

Lemma bnext_step m xs ys xe ye k b : small xs ys xe ye -> 0 <= k < blen xs ys xe ye ->
  binv m xs ys xe ye k b ->
  exists b', bnext b = Some (true, b') /\ binv m xs ys xe ye (k + 1) b' /\
     Z.abs (b_x b' - b_x b) <= 1 /\ Z.abs (b_y b' - b_y b) <= 1 /\
     Z.abs (b_x b' - xe) <= Z.abs (b_x b - xe) /\ Z.abs (b_y b' - ye) <= Z.abs (b_y b - ye).
Proof.
  intros Hs Hk (Hm & Hx1 & Hy1 & i & j & Hinv). unfold blen in Hk.
  cbv zeta in Hinv.
  destruct Hinv as (Hx & Hy & Hdx & Hdy & Hsx & Hsy & Herr & Hi & Hj & Hki & Hkj & Hb).
  set (D := Z.abs (xe - xs)) in *. set (E := Z.abs (ye - ys)) in *.
  assert (HD : 0 <= D < 536870912) by (unfold D; destruct Hs; lia).
  assert (HE : 0 <= E < 536870912) by (unfold E; destruct Hs; lia).
  pose proof (err_bound D E i j HD HE Hb) as HB.
  pose proof (step_core D E i j k (b_err b) ltac:(lia) ltac:(lia) Herr Hi Hj Hki Hkj Hb ltac:(lia)) as HS.
  cbv zeta in HS.
  set (sx := if xs <? xe then 1 else -1) in *. set (sy := if ys <? ye then 1 else -1) in *.
  assert (Hsx1 : xe = xs + sx * D). { unfold sx, D. destruct (Z.ltb_spec xs xe); lia. }
  assert (Hsy1 : ye = ys + sy * E). { unfold sy, E. destruct (Z.ltb_spec ys ye); lia. }
  assert (Hsxc : sx = 1 \/ sx = -1) by (unfold sx; destruct (xs <? xe); auto).
  assert (Hsyc : sy = 1 \/ sy = -1) by (unfold sy; destruct (ys <? ye); auto).
  unfold bnext.
  assert (Hne : (b_x b =? b_x1 b) && (b_y b =? b_y1 b) = false).
  { apply not_true_iff_false. intros C. apply andb_true_iff in C. destruct C as [C1 C2].
    apply Z.eqb_eq in C1. apply Z.eqb_eq in C2. rewrite Hx, Hx1 in C1. rewrite Hy, Hy1 in C2.
    assert (i = D) by (destruct Hsxc as [e|e]; rewrite e in *; lia).
    assert (j = E) by (destruct Hsyc as [e|e]; rewrite e in *; lia).
    lia. }
  rewrite Hne. rewrite chk_some by lia. cbn [obind].
  rewrite Hdx, Hdy, Hsx, Hsy.
  assert (Rx : chk (b_x b + sx) = Some (b_x b + sx)).
  { apply chk_some. destruct Hs as (? & ? & ? & ?). destruct Hsxc as [e|e]; rewrite e in *; lia. }
  assert (Ry : chk (b_y b + sy) = Some (b_y b + sy)).
  { apply chk_some. destruct Hs as (? & ? & ? & ?). destruct Hsyc as [e|e]; rewrite e in *; lia. }
  assert (Re1 : chk (b_err b + - E) = Some (b_err b + - E)) by (apply chk_some; lia).
  assert (Re2 : chk (b_err b + D) = Some (b_err b + D)) by (apply chk_some; lia).
  assert (Re3 : chk (b_err b + - E + D) = Some (b_err b + - E + D)) by (apply chk_some; lia).
  rewrite Rx, Ry, Re1.
  destruct (Z.gtb_spec (2 * b_err b) (- E)) as [G|G]; destruct (Z.ltb_spec (2 * b_err b) D) as [L|L];
    cbn [obind fst snd] in *; rewrite ?Re2, ?Re3; cbn [obind fst snd];
    (eexists; split; [reflexivity|]); cbn [b_x b_y];
    (split; [unfold binv; cbn [b_map b_x0 b_y0 b_x1 b_y1 b_x b_y b_dx b_dy b_sx b_sy b_err];
             split; [exact Hm|]; split; [exact Hx1|]; split; [exact Hy1|]; cbv zeta;
             fold D; fold E; fold sx; fold sy |]).
  - exists (i + 1), (j + 1). repeat split; try tauto; try lia.
  - clear - Hsxc Hsyc Hx Hy HS Hsx1 Hsy1 Hi Hj. rewrite Hx, Hy. clear Hx Hy. clearbody D E sx sy. subst xe ye.
    destruct Hsxc as [-> | ->]; destruct Hsyc as [-> | ->]; lia.
  - exists (i + 1), j. repeat split; try tauto; try lia.
  - clear - Hsxc Hsyc Hx Hy HS Hsx1 Hsy1 Hi Hj. rewrite Hx, Hy. clear Hx Hy. clearbody D E sx sy. subst xe ye.
    destruct Hsxc as [-> | ->]; destruct Hsyc as [-> | ->]; lia.
  - exists i, (j + 1). repeat split; try tauto; try lia.
  - clear - Hsxc Hsyc Hx Hy HS Hsx1 Hsy1 Hi Hj. rewrite Hx, Hy. clear Hx Hy. clearbody D E sx sy. subst xe ye.
    destruct Hsxc as [-> | ->]; destruct Hsyc as [-> | ->]; lia.
  - exfalso. lia.
  - exfalso. lia.
Qed.

Lemma bnext_end m xs ys xe ye b : small xs ys xe ye ->
  binv m xs ys xe ye (blen xs ys xe ye) b ->
  bcoords b = (xe, ye) /\ bnext b = Some (false, b).
Proof.
  intros Hs (Hm & Hx1 & Hy1 & i & j & Hinv). unfold blen in Hinv. cbv zeta in Hinv.
  destruct Hinv as (Hx & Hy & Hdx & Hdy & Hsx & Hsy & Herr & Hi & Hj & Hki & Hkj & Hb).
  set (D := Z.abs (xe - xs)) in *. set (E := Z.abs (ye - ys)) in *.
  assert (HD : 0 <= D) by lia. assert (HE : 0 <= E) by lia.
  assert (i = D /\ j = E) as [-> ->].
  { destruct (Z.le_gt_cases E D) as [L|L].
    - rewrite Z.max_l in * by lia. assert (i = D) by auto. subst i. split; [reflexivity|].
      destruct (Z.eq_dec D 0); [lia|]. nia.
    - rewrite Z.max_r in * by lia. assert (j = E) by (apply Hkj; lia). subst j. split; [|reflexivity].
      nia. }
  assert (b_x b = xe). { rewrite Hx. unfold D. destruct (Z.ltb_spec xs xe); lia. }
  assert (b_y b = ye). { rewrite Hy. unfold E. destruct (Z.ltb_spec ys ye); lia. }
  unfold bcoords, bnext. rewrite H, H0, Hx1, Hy1, !Z.eqb_refl. auto.
Qed.

Lemma binv_on_segment m xs ys xe ye k b :
  binv m xs ys xe ye k b -> on_segment xs ys xe ye k (bcoords b).
Proof.
  intros (Hm & Hx1 & Hy1 & i & j & Hinv). cbv zeta in Hinv.
  destruct Hinv as (Hx & Hy & Hdx & Hdy & Hsx & Hsy & Herr & Hi & Hj & Hki & Hkj & Hb).
  unfold on_segment, bcoords. cbv zeta. rewrite Hx, Hy.
  destruct (Z.ltb_spec xs xe) as [Lx|Lx]; destruct (Z.ltb_spec ys ye) as [Ly|Ly].
  - rewrite (Z.abs_eq (xe - xs)), (Z.abs_eq (ye - ys)) in * by lia.
    replace ((ys + 1 * j - ys) * (xe - xs) - (xs + 1 * i - xs) * (ye - ys)) with ((xe - xs) * j - (ye - ys) * i) by ring.
    repeat split; lia.
  - rewrite (Z.abs_eq (xe - xs)), (Z.abs_neq (ye - ys)) in * by lia.
    replace ((ys + -1 * j - ys) * (xe - xs) - (xs + 1 * i - xs) * (ye - ys)) with (- ((xe - xs) * j - (- (ye - ys)) * i)) by ring.
    repeat split; lia.
  - rewrite (Z.abs_neq (xe - xs)), (Z.abs_eq (ye - ys)) in * by lia.
    replace ((ys + 1 * j - ys) * (xe - xs) - (xs + -1 * i - xs) * (ye - ys)) with (- (- (xe - xs) * j - (ye - ys) * i)) by ring.
    repeat split; lia.
  - rewrite (Z.abs_neq (xe - xs)), (Z.abs_neq (ye - ys)) in * by lia.
    replace ((ys + -1 * j - ys) * (xe - xs) - (xs + -1 * i - xs) * (ye - ys)) with (- (xe - xs) * j - - (ye - ys) * i) by ring.
    repeat split; lia.
Qed.


Lemma last_cons {A} (a d : A) l : last (a :: l) d = last l a.
Proof. revert a d. induction l as [|b l IH]; intros a d; [reflexivity|].
  change (last (a :: b :: l) d) with (last (b :: l) d). rewrite (IH b d), (IH b a). reflexivity. Qed.

Lemma bwalk_spec m xs ys xe ye : small xs ys xe ye ->
  forall fuel k b, 0 <= k <= blen xs ys xe ye -> binv m xs ys xe ye k b ->
  blen xs ys xe ye - k < Z.of_nat fuel ->
  exists l, bwalk fuel b = Some l /\
    Z.of_nat (length l) = blen xs ys xe ye - k /\
    (forall n s, nth_error l n = Some s -> binv m xs ys xe ye (k + 1 + Z.of_nat n) s) /\
    last (map bcoords l) (bcoords b) = (xe, ye) /\
    connected_to xe ye (bcoords b) (map bcoords l).
Proof.
  intros Hs. induction fuel as [|fuel IH]; intros k b Hk Hb Hf; [lia|]. cbn [bwalk].
  destruct (Z.eq_dec k (blen xs ys xe ye)) as [E|E].
  - subst k. destruct (bnext_end _ _ _ _ _ _ Hs Hb) as [Hc Hn]. rewrite Hn. cbn [obind].
    exists []. cbn. split; [reflexivity|]. split; [lia|]. split; [intros [|n] s; discriminate|].
    split; [exact Hc|exact I].
  - destruct (bnext_step m xs ys xe ye k b Hs ltac:(lia) Hb) as (b' & Hn & Hb' & C1 & C2 & C3 & C4).
    rewrite Hn. cbn [obind].
    destruct (IH (k + 1) b' ltac:(lia) Hb' ltac:(lia)) as (l & Hl & Hlen & Hnth & Hlast & Hconn).
    rewrite Hl. cbn [obind]. exists (b' :: l). split; [reflexivity|]. split; [cbn [length]; lia|].
    split; [|split].
    + intros [|n] s Hs'; cbn in Hs'.
      * injection Hs' as <-. rewrite Z.add_0_r. exact Hb'.
      * specialize (Hnth n s Hs'). replace (k + 1 + Z.of_nat (S n)) with (k + 1 + 1 + Z.of_nat n) by lia. exact Hnth.
    + cbn [map]. rewrite last_cons. exact Hlast.
    + cbn [map connected_to]. split; [|auto].
      intros C.
      pose proof (binv_on_segment _ _ _ _ _ _ _ Hb) as S1. pose proof (binv_on_segment _ _ _ _ _ _ _ Hb') as S2.
      rewrite C in S2. unfold on_segment in S1, S2. destruct (bcoords b) as [px py]. cbv zeta in *.
      destruct S1 as (_ & _ & A1 & A2 & _). destruct S2 as (_ & _ & B1 & B2 & _).
      clear - A1 A2 B1 B2.
      destruct (Z.le_ge_cases (Z.abs (ye - ys)) (Z.abs (xe - xs))) as [H|H];
        [specialize (A1 H); specialize (B1 H); clear - A1 B1|specialize (A2 H); specialize (B2 H); clear - A2 B2]; lia.
Qed.

(** The map is small enough for [int] arithmetic. *)
Definition gm_small (m : gridmap) : Prop := gm_w m <= 536870912 /\ gm_h m <= 536870912.

Lemma setGrid_in b m xs ys xe ye : gm_wf m -> gm_small m ->
  cell_of (gm_w m) (gm_h m) xs ys -> cell_of (gm_w m) (gm_h m) xe ye ->
  small xs ys xe ye /\
  exists b', setGrid b m xs ys xe ye = Some b' /\ binv m xs ys xe ye 0 b' /\ bcoords b' = (xs, ys).
Proof.
  intros Hwf Hsm Hs He.
  assert (Hsmall : small xs ys xe ye) by (unfold small, gm_small, cell_of in *; lia).
  split; [exact Hsmall|].
  unfold setGrid. apply (isInMap_spec m xs ys Hwf) in Hs. apply (isInMap_spec m xe ye Hwf) in He.
  rewrite Hs, He. cbn [negb orb]. apply bres_start_inv; assumption.
Qed.

Lemma setGrid_out b m xs ys xe ye : isInMap m xs ys = false \/ isInMap m xe ye = false ->
  exists b', setGrid b m xs ys xe ye = Some b' /\ bnext b' = Some (false, b') /\ bcoords b' = (0, 0)
    /\ b_map b' = b_map b.
Proof.
  intros H. unfold setGrid.
  replace (negb (isInMap m xs ys) || negb (isInMap m xe ye)) with true
    by (destruct H as [H|H]; rewrite H; cbn; rewrite ?orb_true_r; reflexivity).
  eexists; split; [reflexivity|]. repeat split.
Qed.

(** Main walk theorem. *)
Lemma line_walk b0 m xs ys xe ye : gm_wf m -> gm_small m ->
  cell_of (gm_w m) (gm_h m) xs ys -> cell_of (gm_w m) (gm_h m) xe ye ->
  exists b, setGrid b0 m xs ys xe ye = Some b /\ bcoords b = (xs, ys) /\
  forall fuel, blen xs ys xe ye < Z.of_nat fuel ->
  exists l, bwalk fuel b = Some l /\
    Z.of_nat (length l) = blen xs ys xe ye /\
    last (map bcoords l) (xs, ys) = (xe, ye) /\
    connected_to xe ye (xs, ys) (map bcoords l) /\
    (forall n c, nth_error ((xs, ys) :: map bcoords l) n = Some c -> on_segment xs ys xe ye (Z.of_nat n) c) /\
    (forall s, In s l -> b_map s = Some m /\ cell_of (gm_w m) (gm_h m) (fst (bcoords s)) (snd (bcoords s))) /\
    bnext (last l b) = Some (false, last l b).
Proof.
  intros Hwf Hsm Hs He.
  destruct (setGrid_in b0 m xs ys xe ye Hwf Hsm Hs He) as (Hsmall & b & Hb & Hinv & Hc).
  exists b. split; [exact Hb|]. split; [exact Hc|]. intros fuel Hf.
  assert (0 <= blen xs ys xe ye) by (unfold blen; lia).
  destruct (bwalk_spec m xs ys xe ye Hsmall fuel 0 b ltac:(lia) Hinv ltac:(lia)) as (l & Hl & Hlen & Hnth & Hlast & Hconn).
  exists l. rewrite Hc in Hlast, Hconn. rewrite Z.sub_0_r in Hlen.
  split; [exact Hl|]. split; [exact Hlen|]. split; [exact Hlast|]. split; [exact Hconn|].
  split; [|split].
  - intros [|n] c Hn; cbn in Hn.
    + injection Hn as <-. rewrite <- Hc. apply (binv_on_segment m). exact Hinv.
    + rewrite nth_error_map in Hn. destruct (nth_error l n) as [s|] eqn:En; [|discriminate].
      cbn in Hn. injection Hn as <-. replace (Z.of_nat (S n)) with (0 + 1 + Z.of_nat n) by lia.
      apply (binv_on_segment m). apply (Hnth n s En).
  - intros s Hin. apply In_nth_error in Hin. destruct Hin as [n En].
    pose proof (Hnth n s En) as Hi. split; [apply Hi|].
    apply binv_on_segment in Hi. unfold on_segment in Hi. destruct (bcoords s) as [px py].
    unfold cell_of in *. cbn [fst snd]. lia.
  - destruct l as [|s0 l0] eqn:El.
    + cbn [last]. cbn in Hlen.
      apply (bnext_end m xs ys xe ye b Hsmall). rewrite <- Hlen. exact Hinv.
    + assert (Hne : l <> []) by (rewrite El; discriminate). rewrite <- El in *.
      rewrite (app_removelast_last b Hne) in Hlen. rewrite app_length in Hlen. cbn in Hlen.
      apply (bnext_end m xs ys xe ye _ Hsmall).
      assert (En : nth_error l (length (removelast l)) = Some (last l b)).
      { rewrite (app_removelast_last b Hne) at 1. rewrite nth_error_app2 by lia.
        rewrite Nat.sub_diag. reflexivity. }
      apply Hnth in En. replace (0 + 1 + Z.of_nat (length (removelast l))) with (blen xs ys xe ye) in En by lia.
      exact En.
Qed.
