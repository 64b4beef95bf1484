From Verif Require Import Base GridMap GridMapProofs Bresenham BresenhamProofs Areas.

(** ** RobotArea iterates over exactly its cells. *)

(** Specification: the cells an area denotes, in order: those of a circle moved to its
    centre, those of a robot moved to its position, those of a line as they are. *)
Definition denoted (a : area) : list (Z * Z) :=
  match a with
  | ACircle cs cx cy _ _ => map (fun c => (fst c + cx, snd c + cy)) cs
  | ABuffer cs cx cy _ _ => map (fun c => (fst c + cx, snd c + cy)) cs
  | ALine cs _ _ => cs
  | ARobot cs px py _ _ => map (fun c => (fst c + px, snd c + py)) cs
  end.
Lemma denoted_pos : forall a, denoted a =
  map (fun c => (fst c + fst (area_pos a), snd c + snd (area_pos a))) (area_cells a).
Proof.
  intros [cs cx cy v n|cs cx cy v n|cs v n|cs px py i n]; cbn [denoted area_pos area_cells fst snd]; try reflexivity.
  induction cs as [|c cs IH]; cbn [map]; [reflexivity|]. rewrite <- IH, !Z.add_0_r. destruct c; reflexivity.
Qed.

(** The client iteration [begin(); while(next()) getCell()]. *)
Fixpoint iter_cells (fuel : nat) (a : area) : option (list (Z * Z)) :=
  match fuel with
  | O => None
  | S n => match anext a with
           | (false, _) => Some []
           | (true, a') => c <- agetCell a' ;; l <- iter_cells n a' ;; Some (c :: l)
           end
  end.
Definition iterate (a : area) : option (list (Z * Z)) :=
  a0 <- abegin a ;; iter_cells (afuel a) a0.

Lemma skipn_nth {A} (l : list A) n x : nth_error l n = Some x -> skipn n l = x :: skipn (S n) l.
Proof.
  revert n; induction l as [|h t IH]; intros [|n] H; try discriminate; cbn in *.
  - injection H as ->. reflexivity.
  - rewrite (IH n H). reflexivity.
Qed.

Lemma robot_iter cs px py n : forall fuel idx, -1 <= idx -> n = (length cs - Z.to_nat (idx + 1))%nat ->
  (n < fuel)%nat ->
  iter_cells fuel (ARobot cs px py true idx) =
  Some (map (fun c => (fst c + px, snd c + py)) (skipn (Z.to_nat (idx + 1)) cs)).
Proof.
  induction n as [|n IH]; intros fuel idx Hi Hn Hf; (destruct fuel as [|fuel]; [lia|]); cbn [iter_cells anext].
  - destruct (Z.ltb_spec (idx + 1) (Z.of_nat (length cs))); [lia|].
    rewrite skipn_all2 by lia. reflexivity.
  - destruct (Z.ltb_spec (idx + 1) (Z.of_nat (length cs))); [|lia].
    unfold agetCell at 1. cbn [aindex area_cells area_pos fst snd].
    destruct (Z.ltb_spec (idx + 1) 0); [lia|]. cbn [obind].
    destruct (nth_error cs (Z.to_nat (idx + 1))) as [c|] eqn:E; [|apply nth_error_None in E; lia].
    cbn [obind]. rewrite IH by lia. cbn [obind].
    rewrite (skipn_nth _ _ _ E). cbn [map].
    replace (Z.to_nat (idx + 1 + 1)) with (S (Z.to_nat (idx + 1))) by lia. reflexivity.
Qed.

Lemma robot_iterate cs px py idx :
  iterate (ARobot cs px py true idx) = Some (denoted (ARobot cs px py true idx)).
Proof.
  unfold iterate, abegin. cbn [obind].
  rewrite (robot_iter cs px py (length cs)); unfold afuel; cbn [area_cells]; try lia.
  reflexivity.
Qed.

(** ** Scanning is a test over the iterated cells. *)
Fixpoint scan_list (m : gridmap) (test : Z -> Z -> option bool) (hit miss : bool) (l : list (Z * Z)) : option bool :=
  match l with
  | [] => Some miss
  | c :: r =>
      t <- (if isInMap m (fst c) (snd c) then test (fst c) (snd c) else Some false) ;;
      if t then Some hit else scan_list m test hit miss r
  end.

Lemma scan_iter m test hit miss fuel : forall a l, iter_cells fuel a = Some l ->
  scan m test hit miss fuel a = scan_list m test hit miss l.
Proof.
  induction fuel as [|n IH]; intros a l H; [discriminate|]. cbn [iter_cells scan] in *.
  destruct (anext a) as [[|] a'].
  - destruct (agetCell a') as [c|]; [|discriminate]. cbn [obind] in *.
    destruct (iter_cells n a') as [l'|] eqn:E; [|discriminate]. cbn [obind] in H. injection H as <-.
    cbn [scan_list]. rewrite <- (IH _ _ E). reflexivity.
  - injection H as <-. reflexivity.
Qed.

Lemma scan_list_spec m test hit l : gm_wf m ->
  (forall x y, cell_of (gm_w m) (gm_h m) x y -> test x y <> None) ->
  scan_list m test hit (negb hit) l =
  Some (if existsb (fun c => isInMap m (fst c) (snd c) &&
             match test (fst c) (snd c) with Some true => true | _ => false end) l then hit else negb hit).
Proof.
  intros Hwf Ht. induction l as [|c r IH]; [reflexivity|]. cbn [scan_list existsb].
  destruct (isInMap m (fst c) (snd c)) eqn:E; cbn [andb].
  - apply isInMap_spec in E; [|exact Hwf]. specialize (Ht _ _ E).
    destruct (test (fst c) (snd c)) as [[|]|]; [| |congruence]; cbn [obind orb].
    + reflexivity.
    + exact IH.
  - cbn [obind orb]. exact IH.
Qed.

Lemma scan_robot m test hit cs px py idx : gm_wf m ->
  (forall x y, cell_of (gm_w m) (gm_h m) x y -> test x y <> None) ->
  (a0 <- abegin (ARobot cs px py true idx) ;; scan m test hit (negb hit) (afuel (ARobot cs px py true idx)) a0) =
  Some (if existsb (fun c => isInMap m (fst c) (snd c) &&
             match test (fst c) (snd c) with Some true => true | _ => false end)
          (denoted (ARobot cs px py true idx)) then hit else negb hit).
Proof.
  intros Hwf Ht. pose proof (robot_iterate cs px py idx) as H. unfold iterate in H.
  cbn [abegin obind] in *. rewrite (scan_iter _ _ _ _ _ _ _ H). apply scan_list_spec; assumption.
Qed.

(** Specification predicates over denoted cells. *)
Definition covers_in_map (m : gridmap) (a : area) (x y : Z) : Prop :=
  In (x, y) (denoted a) /\ cell_of (gm_w m) (gm_h m) x y.

Lemma isFree_some m x y : gm_wf m -> cell_of (gm_w m) (gm_h m) x y -> exists b, isFree m x y = Some b.
Proof. intros H1 H2. unfold isFree. destruct (getValue_some _ _ _ H1 H2) as [v ->]. cbn. eauto. Qed.
Lemma isOccupied_some m x y : gm_wf m -> cell_of (gm_w m) (gm_h m) x y -> exists b, isOccupied m x y = Some b.
Proof. intros H1 H2. unfold isOccupied. destruct (getValue_some _ _ _ H1 H2) as [v ->]. cbn. eauto. Qed.
Lemma isNoInformation_some m x y : gm_wf m -> cell_of (gm_w m) (gm_h m) x y -> exists b, isNoInformation m x y = Some b.
Proof. intros H1 H2. unfold isNoInformation. destruct (getValue_some _ _ _ H1 H2) as [v ->]. cbn. eauto. Qed.

Lemma existsb_covers m a test : gm_wf m ->
  existsb (fun c => isInMap m (fst c) (snd c) &&
             match test (fst c) (snd c) with Some true => true | _ => false end) (denoted a) = true <->
  exists x y, covers_in_map m a x y /\ test x y = Some true.
Proof.
  intros Hwf. rewrite existsb_exists. split.
  - intros ([x y] & Hin & H). apply andb_true_iff in H. destruct H as [H1 H2]. cbn [fst snd] in *.
    exists x, y. split; [split; [exact Hin|]|].
    + apply isInMap_spec; assumption.
    + destruct (test x y) as [[|]|]; congruence.
  - intros (x & y & [Hin Hc] & Ht). exists (x, y). split; [exact Hin|]. cbn [fst snd].
    rewrite Ht. apply isInMap_spec in Hc; [|exact Hwf]. rewrite Hc. reflexivity.
Qed.

Definition robot_ready (a : area) : Prop :=
  match a with ARobot _ _ _ true _ => True | _ => False end.

Lemma robot_area_free m a : gm_wf m -> robot_ready a ->
  exists b, isAreaFree m a = Some b /\
  (b = true <-> forall x y, covers_in_map m a x y -> isFree m x y = Some true).
Proof.
  intros Hwf Ha. destruct a as [| | |cs px py [|] idx]; try contradiction.
  unfold isAreaFree. rewrite (scan_robot m _ false) by
    (auto; intros x y H; destruct (isFree_some m x y Hwf H) as [b ->]; cbn; congruence).
  eexists; split; [reflexivity|]. cbn [negb].
  match goal with |- context [existsb ?f ?l] => destruct (existsb f l) eqn:E end.
  - apply (existsb_covers m _ (fun x y => onot (isFree m x y)) Hwf) in E.
    destruct E as (x & y & Hc & Ht). split; [discriminate|]. intros H. rewrite (H _ _ Hc) in Ht. discriminate.
  - split; [|reflexivity]. intros _ x y Hc.
    destruct (isFree_some m x y Hwf) as [[|] Hb]; [apply Hc|exact Hb|].
    exfalso. apply not_true_iff_false in E. apply E.
    apply (existsb_covers m _ (fun x y => onot (isFree m x y)) Hwf). exists x, y. rewrite Hb. auto.
Qed.

Lemma robot_area_occupied m a : gm_wf m -> robot_ready a ->
  exists b, isAreaOccupied m a = Some b /\
  (b = true <-> exists x y, covers_in_map m a x y /\ isOccupied m x y = Some true).
Proof.
  intros Hwf Ha. destruct a as [| | |cs px py [|] idx]; try contradiction.
  unfold isAreaOccupied. rewrite (scan_robot m _ true) by
    (auto; intros x y H; destruct (isOccupied_some m x y Hwf H) as [b ->]; cbn; congruence).
  eexists; split; [reflexivity|]. rewrite <- existsb_covers by exact Hwf.
  match goal with |- context [existsb ?f ?l] => destruct (existsb f l) end; cbn; tauto.
Qed.

(** What isAreaNoInformation really computes: no covered cell lacks information. *)
Lemma robot_area_noinfo m a : gm_wf m -> robot_ready a ->
  exists b, isAreaNoInformation m a = Some b /\
  (b = true <-> forall x y, covers_in_map m a x y -> isNoInformation m x y = Some false).
Proof.
  intros Hwf Ha. destruct a as [| | |cs px py [|] idx]; try contradiction.
  unfold isAreaNoInformation. rewrite (scan_robot m _ false) by
    (auto; intros x y H; destruct (isNoInformation_some m x y Hwf H) as [b ->]; cbn; congruence).
  eexists; split; [reflexivity|]. cbn [negb].
  match goal with |- context [existsb ?f ?l] => destruct (existsb f l) eqn:E end.
  - apply (existsb_covers m _ _ Hwf) in E.
    destruct E as (x & y & Hc & Ht). split; [discriminate|]. intros H. rewrite (H _ _ Hc) in Ht. discriminate.
  - split; [|reflexivity]. intros _ x y Hc.
    destruct (isNoInformation_some m x y Hwf) as [[|] Hb]; [apply Hc| |exact Hb].
    exfalso. apply not_true_iff_false in E. apply E.
    apply (existsb_covers m _ _ Hwf). exists x, y. auto.
Qed.

(** Writing through a RobotArea. *)
Lemma write_robot cs px py v n : forall fuel idx m, gm_wf m -> -1 <= idx ->
  n = (length cs - Z.to_nat (idx + 1))%nat -> (n < fuel)%nat ->
  exists m', write_loop (fun _ => Some v) fuel m (ARobot cs px py true idx) = Some m' /\ gm_wf m' /\
    gm_w m' = gm_w m /\ gm_h m' = gm_h m /\
    forall x y, cell_of (gm_w m) (gm_h m) x y ->
      getValue m' x y =
        if existsb (fun c => (x =? fst c + px) && (y =? snd c + py)) (skipn (Z.to_nat (idx + 1)) cs)
        then Some v else getValue m x y.
Proof.
  induction n as [|n IH]; intros fuel idx m Hwf Hi Hn Hf; (destruct fuel as [|fuel]; [lia|]); cbn [write_loop anext].
  - destruct (Z.ltb_spec (idx + 1) (Z.of_nat (length cs))); [lia|].
    exists m. rewrite skipn_all2 by lia. do 4 (split; [auto|]). reflexivity.
  - destruct (Z.ltb_spec (idx + 1) (Z.of_nat (length cs))); [|lia].
    unfold agetCell at 1. cbn [aindex area_cells area_pos fst snd].
    destruct (Z.ltb_spec (idx + 1) 0); [lia|]. cbn [obind].
    destruct (nth_error cs (Z.to_nat (idx + 1))) as [c|] eqn:E; [|apply nth_error_None in E; lia].
    cbn [obind fst snd]. rewrite (skipn_nth _ _ _ E). cbn [existsb].
    destruct (isInMap m (fst c + px) (snd c + py)) eqn:EM; cbn [obind].
    + apply isInMap_spec in EM; [|exact Hwf].
      destruct (setValue_spec m _ _ v Hwf EM) as (m1 & E1 & Hwf1 & Ew & Eh & _ & _ & _ & _ & Hg).
      rewrite E1. cbn [obind].
      destruct (IH fuel (idx + 1) m1 Hwf1 ltac:(lia) ltac:(lia) ltac:(lia)) as (m2 & E2 & Hwf2 & Ew2 & Eh2 & Hg2).
      exists m2. split; [exact E2|]. split; [exact Hwf2|]. split; [congruence|]. split; [congruence|].
      intros x y Hc. rewrite Hg2 by (rewrite Ew, Eh; exact Hc).
      replace (Z.to_nat (idx + 1 + 1)) with (S (Z.to_nat (idx + 1))) by lia.
      rewrite Hg by exact Hc.
      destruct ((x =? fst c + px) && (y =? snd c + py)); cbn [orb]; [|reflexivity].
      destruct (existsb _ _); reflexivity.
    + destruct (IH fuel (idx + 1) m Hwf ltac:(lia) ltac:(lia) ltac:(lia)) as (m2 & E2 & Hwf2 & Ew2 & Eh2 & Hg2).
      exists m2. split; [exact E2|]. split; [exact Hwf2|]. split; [congruence|]. split; [congruence|].
      intros x y Hc. rewrite Hg2 by exact Hc.
      replace (Z.to_nat (idx + 1 + 1)) with (S (Z.to_nat (idx + 1))) by lia.
      destruct ((x =? fst c + px) && (y =? snd c + py)) eqn:B; cbn [orb]; [|reflexivity].
      apply andb_true_iff in B. destruct B as [B1 B2]. apply Z.eqb_eq in B1. apply Z.eqb_eq in B2. subst x y.
      apply not_true_iff_false in EM. exfalso. apply EM. apply isInMap_spec; assumption.
Qed.

Lemma robot_write m a v : gm_wf m -> robot_ready a ->
  exists m', setAreaConst m a v = Some m' /\ gm_wf m' /\ gm_w m' = gm_w m /\ gm_h m' = gm_h m /\
    forall x y, cell_of (gm_w m) (gm_h m) x y ->
      (In (x, y) (denoted a) -> getValue m' x y = Some v) /\
      (~ In (x, y) (denoted a) -> getValue m' x y = getValue m x y).
Proof.
  intros Hwf Ha. destruct a as [| | |cs px py [|] idx]; try contradiction.
  unfold setAreaConst. cbn [abegin obind].
  destruct (write_robot cs px py v (length cs) (afuel (ARobot cs px py true idx)) (-1) m Hwf) as (m' & E & Hwf' & Ew & Eh & Hg);
    try (unfold afuel; cbn [area_cells]; lia).
  exists m'. repeat (split; [assumption|]). intros x y Hc. rewrite (Hg x y Hc).
  change (skipn (Z.to_nat (-1 + 1)) cs) with cs.
  assert (Hiff : existsb (fun c => (x =? fst c + px) && (y =? snd c + py)) cs = true <-> In (x, y) (denoted (ARobot cs px py true idx))).
  { rewrite existsb_exists. unfold denoted. cbn [area_pos area_cells fst snd]. rewrite in_map_iff. split.
    - intros (c & Hin & H). exists c. split; [|exact Hin]. f_equal; lia.
    - intros (c & H & Hin). exists c. split; [exact Hin|]. injection H as <- <-. rewrite !Z.eqb_refl. reflexivity. }
  split; intros H.
  - apply Hiff in H. rewrite H. reflexivity.
  - destruct (existsb _ _) eqn:B; [|reflexivity]. exfalso. apply H, Hiff. reflexivity.
Qed.

(** ** CircleArea / LineArea: the iteration reads past the end. *)
Definition counter_area (a : area) : Prop :=
  match a with ARobot _ _ _ _ _ => False | _ => True end.

Lemma counter_iter_ub a : counter_area a -> area_cells a <> [] -> iterate a = None.
Proof.
  intros Ha Hne.
  assert (H : forall c0, c0 = area_cells a -> forall fuel n a1, n = (length c0 - match aindex a1 with Some k => k | None => 0 end)%nat ->
     counter_area a1 -> area_cells a1 = c0 -> (match aindex a1 with Some k => (k < length c0)%nat | None => False end) ->
     iter_cells fuel a1 = None).
  { intros c0 Hc0 fuel. induction fuel as [|fuel IH]; intros n a1 Hn Hc Hcs Hidx; [reflexivity|].
    cbn [iter_cells].
    destruct a1 as [c cx cy v k|c cx cy vs k|c v k|]; cbn [aindex area_cells] in *; try contradiction; subst c;
      cbn [anext]; (replace (k <? length c0)%nat with true by (symmetry; apply Nat.ltb_lt; lia));
      unfold agetCell at 1; cbn [aindex area_cells area_pos obind];
      (destruct (nth_error c0 (S k)) as [c|] eqn:E; [|reflexivity]); cbn [obind];
      (assert (S k < length c0)%nat by (apply nth_error_Some; congruence));
      (erewrite IH; [reflexivity|reflexivity|exact I|reflexivity|cbn [aindex]; lia]). }
  destruct a as [c cx cy v k|c cx cy vs k|c v k|]; try contradiction; unfold iterate; cbn [abegin obind];
    (eapply H; [reflexivity|reflexivity|exact I|reflexivity|]; cbn [aindex area_cells] in *; destruct c; [congruence|cbn; lia]).
Qed.

(** Consequently a free/occupied query over such an area never gives the
    "scanned everything" answer, and writing always ends in UB. *)
Lemma scan_ub m test hit miss fuel : forall a b, scan m test hit miss fuel a = Some b ->
  iter_cells fuel a <> None \/ b = hit.
Proof.
  induction fuel as [|n IH]; intros a b H; [discriminate|]. cbn [scan iter_cells] in *.
  destruct (anext a) as [[|] a']; [|left; discriminate].
  destruct (agetCell a') as [c|]; [|discriminate]. cbn [obind] in *.
  destruct (if isInMap m (fst c) (snd c) then test (fst c) (snd c) else Some false) as [[|]|]; [| |discriminate].
  - cbn [obind] in H. injection H as <-. right; reflexivity.
  - cbn [obind] in H. destruct (IH _ _ H) as [H'|H']; [|right; exact H'].
    left. destruct (iter_cells n a'); [discriminate|congruence].
Qed.

Lemma counter_area_free_never m a : counter_area a -> area_cells a <> [] -> isAreaFree m a <> Some true.
Proof.
  intros Ha Hne H. pose proof (counter_iter_ub a Ha Hne) as U. unfold isAreaFree, iterate in *.
  destruct (abegin a) as [a0|]; [|discriminate]. cbn [obind] in *.
  destruct (scan_ub _ _ _ _ _ _ _ H) as [C|C]; [congruence|discriminate].
Qed.

Lemma counter_area_occupied_never m a : counter_area a -> area_cells a <> [] -> isAreaOccupied m a <> Some false.
Proof.
  intros Ha Hne H. pose proof (counter_iter_ub a Ha Hne) as U. unfold isAreaOccupied, iterate in *.
  destruct (abegin a) as [a0|]; [|discriminate]. cbn [obind] in *.
  destruct (scan_ub _ _ _ _ _ _ _ H) as [C|C]; [congruence|discriminate].
Qed.

Lemma write_ub val fuel : forall m a, iter_cells fuel a = None -> write_loop val fuel m a = None.
Proof.
  induction fuel as [|n IH]; intros m a H; [reflexivity|]. cbn [write_loop iter_cells] in *.
  destruct (anext a) as [[|] a']; [|discriminate].
  destruct (agetCell a') as [c|]; [|reflexivity]. cbn [obind] in *.
  destruct (iter_cells n a') eqn:E; [discriminate|].
  destruct (if isInMap m (fst c) (snd c) then v <- val a';; setValue m (fst c) (snd c) v else Some m); [|reflexivity].
  cbn [obind]. apply IH. exact E.
Qed.

Lemma counter_area_write_ub m a v : counter_area a -> area_cells a <> [] -> setAreaConst m a v = None.
Proof.
  intros Ha Hne. pose proof (counter_iter_ub a Ha Hne) as U. unfold setAreaConst, iterate in *.
  destruct (abegin a) as [a0|]; [|reflexivity]. cbn [obind] in *. apply write_ub, U.
Qed.

(** ** Midpoint circle. *)
Lemma hline_in y a b x z : a <= b -> (In (x, z) (hline y a b) <-> z = y /\ a <= x <= b).
Proof.
  intros H. unfold hline. replace (a >? b) with false by lia. rewrite in_map_iff. split.
  - intros (k & E & Hk). apply in_seq in Hk. injection E as <- <-. lia.
  - intros [-> Hx]. exists (Z.to_nat (x - a)). split; [f_equal; lia|]. apply in_seq. lia.
Qed.

Lemma circle_loop_spec r : 0 <= r -> forall fuel x y f ddx ddy,
  Z.of_nat fuel = r - x -> 0 <= x <= r ->
  f = (x + 1) * (x + 1) + y * y - y - r * r -> ddx = 2 * x + 1 -> ddy = - 2 * y ->
  x * x + (y + 1) * (y + 1) > r * r -> r - x <= y <= r ->
  let l := circle_loop fuel r x y f ddx ddy in
  (forall a b, In (a, b) l -> x < Z.abs b <= r /\ Z.abs a <= r) /\
  (forall a b, x < Z.abs b -> a * a + b * b <= r * r -> In (a, b) l) /\
  (forall a b, In (a, b) l -> In (- a, b) l /\ In (a, - b) l).
Proof.
  intros Hr fuel. induction fuel as [|n IH]; intros x y f ddx ddy Hf Hx Ef Ed1 Ed2 Hout Hy; cbn [circle_loop].
  - assert (x = r) by lia. split; [|split].
    + intros a b [].
    + intros a b Hb Hd. exfalso. assert (Z.abs b * Z.abs b = b * b) by (destruct (Z.abs_spec b); nia). nia.
    + intros a b [].
  - replace (x <? r) with true by lia. cbv zeta.
    set (y' := if f >=? 0 then y - 1 else y).
    set (ddy' := if f >=? 0 then ddy + 2 else ddy).
    set (f' := (if f >=? 0 then f + ddy' else f) + (ddx + 2)).
    assert (Hy' : y' = y - 1 /\ f >= 0 \/ y' = y /\ f < 0).
    { unfold y'. destruct (Z.geb_spec f 0); lia. }
    assert (Ef' : f' = (x + 1 + 1) * (x + 1 + 1) + y' * y' - y' - r * r).
    { unfold f', ddy', y'. destruct (Z.geb_spec f 0); subst; ring. }
    assert (Ed' : ddy' = -2 * y'). { unfold ddy', y'. destruct (Z.geb_spec f 0); subst; ring. }
    assert (Hrange : r - (x + 1) <= y' <= r) by lia.
    assert (Hypos : 0 <= y') by lia.
    assert (Hout' : (x + 1) * (x + 1) + (y' + 1) * (y' + 1) > r * r).
    { destruct Hy' as [[-> Hf0]|[-> Hf0]].
      - replace (y - 1 + 1) with y by ring. assert (y >= 1) by lia. nia.
      - nia. }
    specialize (IH (x + 1) y' f' (ddx + 2) ddy' ltac:(lia) ltac:(lia) Ef' ltac:(lia) Ed' Hout' Hrange).
    cbv zeta in IH. destruct IH as (I1 & I2 & I3).
    split; [|split].
    + intros a b Hin. rewrite !in_app_iff, !hline_in in Hin by lia.
      destruct Hin as [[-> H]|[[-> H]|Hin]]; [lia|lia|]. specialize (I1 _ _ Hin). lia.
    + intros a b Hb Hd. rewrite !in_app_iff, !hline_in by lia.
      destruct (Z.eq_dec (Z.abs b) (x + 1)) as [E|E].
      * assert (Ha : - y' <= a <= y').
        { assert (b * b = (x + 1) * (x + 1)) by (destruct (Z.abs_spec b); nia).
          assert (a * a < (y' + 1) * (y' + 1)) by nia. nia. }
        destruct (Z.abs_spec b); [left|right; left]; lia.
      * right; right. apply I2; [lia|exact Hd].
    + intros a b Hin. rewrite !in_app_iff, !hline_in in * by lia.
      destruct Hin as [[-> H]|[[-> H]|Hin]].
      * split; [left; lia|right; left; lia].
      * split; [right; left; lia|left; lia].
      * destruct (I3 _ _ Hin). tauto.
Qed.

Lemma circle_cells_spec r : 0 <= r ->
  (forall a b, In (a, b) (circle_cells r) -> Z.abs a <= r /\ Z.abs b <= r) /\
  (forall a b, a * a + b * b <= r * r -> In (a, b) (circle_cells r)) /\
  (forall a b, In (a, b) (circle_cells r) -> In (- a, b) (circle_cells r) /\ In (a, - b) (circle_cells r)).
Proof.
  intros Hr. unfold circle_cells.
  destruct (circle_loop_spec r Hr (Z.to_nat r) 0 r (1 - r) 1 (-2 * r)) as (I1 & I2 & I3); try lia; try nia.
  split; [|split].
  - intros a b Hin. rewrite in_app_iff, hline_in in Hin by lia.
    destruct Hin as [[-> H]|Hin]; [lia|]. specialize (I1 _ _ Hin). lia.
  - intros a b Hd. rewrite in_app_iff, hline_in by lia.
    destruct (Z.eq_dec b 0) as [->|E]; [left; nia|right; apply I2; [lia|exact Hd]].
  - intros a b Hin. rewrite !in_app_iff, !hline_in in * by lia.
    destruct Hin as [[-> H]|Hin]; [lia|]. destruct (I3 _ _ Hin). tauto.
Qed.

(** ** LineArea produces the Bresenham cells. *)
Lemma line_loop_bres m xs ys xe ye : small xs ys xe ye ->
  forall n k b, 0 <= k -> k + Z.of_nat n = blen xs ys xe ye -> binv m xs ys xe ye k b ->
  exists l, bwalk (S n) b = Some l /\
    line_loop (S n) (b_x b) (b_y b) xe ye (b_dx b) (b_dy b) (b_sx b) (b_sy b) (b_err b) =
    Some (map bcoords (b :: l)).
Proof.
  intros Hs. induction n as [|n IH]; intros k b Hk Hn Hb.
  - assert (k = blen xs ys xe ye) by lia. subst k.
    destruct (bnext_end m xs ys xe ye b Hs Hb) as [Hc Hnx]. exists []. cbn [bwalk]. rewrite Hnx. cbn [obind].
    split; [reflexivity|]. unfold bcoords in Hc. injection Hc as E1 E2. cbn [line_loop].
    rewrite E1, E2, !Z.eqb_refl. cbn. unfold bcoords. rewrite E1, E2. reflexivity.
  - destruct (bnext_step m xs ys xe ye k b Hs ltac:(lia) Hb) as (b' & Hnx & Hb' & _).
    destruct (IH (k + 1) b' ltac:(lia) ltac:(lia) Hb') as (l & Hl & Hll).
    exists (b' :: l). change (bwalk (S (S n)) b) with (r <- bnext b ;; match r with (false, _) => Some [] | (true, b') => l <- bwalk (S n) b' ;; Some (b' :: l) end).
    rewrite Hnx. cbn [obind]. rewrite Hl. cbn [obind]. split; [reflexivity|].
    assert (X1 : b_x1 b = xe) by apply Hb. assert (Y1 : b_y1 b = ye) by apply Hb.
    unfold bnext in Hnx. rewrite X1, Y1 in Hnx.
    change (line_loop (S (S n)) (b_x b) (b_y b) xe ye (b_dx b) (b_dy b) (b_sx b) (b_sy b) (b_err b)) with
     (if (b_x b =? xe) && (b_y b =? ye) then Some [(b_x b, b_y b)]
      else
        l <- line_loop (S n) (if 2 * b_err b >? b_dy b then b_x b + b_sx b else b_x b)
            (if 2 * b_err b <? b_dx b then b_y b + b_sy b else b_y b) xe ye (b_dx b) (b_dy b) (b_sx b) (b_sy b)
            (if 2 * b_err b <? b_dx b then (if 2 * b_err b >? b_dy b then b_err b + b_dy b else b_err b) + b_dx b
             else (if 2 * b_err b >? b_dy b then b_err b + b_dy b else b_err b)) ;; Some ((b_x b, b_y b) :: l)).
    destruct ((b_x b =? xe) && (b_y b =? ye)); [discriminate|].
    destruct (chk (2 * b_err b)) as [e2|] eqn:C; [|discriminate].
    unfold chk in C. destruct (in_i32 (2 * b_err b)); [|discriminate].
    assert (e2 = 2 * b_err b) by congruence. subst e2. clear C. cbn [obind] in Hnx.
    unfold chk in Hnx.
    destruct (2 * b_err b >? b_dy b); destruct (2 * b_err b <? b_dx b); cbn [obind fst snd] in Hnx;
      repeat match type of Hnx with context [if in_i32 ?z then _ else _] => destruct (in_i32 z); cbn [obind fst snd] in Hnx; try discriminate end;
      injection Hnx as <-; cbn [b_x b_y b_dx b_dy b_sx b_sy b_err] in Hll;
      rewrite Hll; reflexivity.
Qed.

Lemma line_cells_spec m xs ys xe ye : small xs ys xe ye ->
  exists b l, bres_start m xs ys xe ye = Some b /\
    bwalk (S (Z.to_nat (blen xs ys xe ye))) b = Some l /\
    line_cells xs ys xe ye = Some (map bcoords (b :: l)).
Proof.
  intros Hs. destruct (bres_start_inv m xs ys xe ye Hs) as (b & Hb & Hinv & Hc).
  assert (H0 : 0 <= blen xs ys xe ye) by (unfold blen; lia).
  destruct (line_loop_bres m xs ys xe ye Hs (Z.to_nat (blen xs ys xe ye)) 0 b) as (l & Hl & Hll); try lia; [exact Hinv|].
  exists b, l. split; [exact Hb|]. split; [exact Hl|].
  rewrite <- Hll. unfold line_cells.
  destruct Hinv as (_ & _ & _ & i & j & Hi). cbv zeta in Hi.
  destruct Hi as (Ex & Ey & -> & -> & -> & -> & Ee & _). rewrite Ee.
  unfold bcoords in Hc. injection Hc as Hcx Hcy. rewrite Hcx, Hcy.
  assert (Eerr : b_err b = Z.abs (xe - xs) + - Z.abs (ye - ys)).
  { clear - Hb. unfold bres_start, chk in Hb.
    repeat match type of Hb with context [if in_i32 ?z then _ else _] => destruct (in_i32 z); cbn [obind] in Hb; [|discriminate] end.
    injection Hb as <-. reflexivity. }
  rewrite <- Ee, Eerr. reflexivity.
Qed.

(** ** Exact outcome of the queries over CircleArea, CircleBuffer, LineArea:
    the first cell is skipped, the others are tested in order, then the read
    past the end happens unless an earlier cell decided. *)
Lemma counter_scan m test hit miss : forall k fuel a n, counter_area a -> aindex a = Some n ->
  k = (length (area_cells a) - n)%nat -> (n < length (area_cells a))%nat -> (k < fuel)%nat ->
  scan m test hit miss fuel a =
  match scan_list m test true false (skipn (S n) (denoted a)) with
  | Some true => Some hit
  | _ => None
  end.
Proof.
  induction k as [|k IH]; intros fuel a n Ha Hn Hk Hlt Hf; [lia|].
  destruct fuel as [|fuel]; [lia|]. cbn [scan].
  assert (E : exists a', anext a = (true, a') /\ counter_area a' /\ aindex a' = Some (S n) /\
    area_cells a' = area_cells a /\ area_pos a' = area_pos a).
  { destruct a as [c cx cy v j|c cx cy vs j|c v j|]; cbn [aindex area_cells] in *; try contradiction;
      injection Hn as ->; cbn [anext]; (replace (n <? length c)%nat with true by (symmetry; apply Nat.ltb_lt; lia));
      eexists; split; try reflexivity; repeat split. }
  destruct E as (a' & -> & Ha' & Hn' & Ec & Ep).
  assert (Ed : denoted a' = denoted a) by (rewrite !denoted_pos, Ec, Ep; reflexivity).
  unfold agetCell at 1. rewrite Hn', Ec, Ep. cbn [obind].
  destruct (nth_error (area_cells a) (S n)) as [c|] eqn:E.
  - assert (S n < length (area_cells a))%nat by (apply nth_error_Some; congruence).
    cbn [obind fst snd].
    assert (En : nth_error (denoted a) (S n) = Some (fst c + fst (area_pos a), snd c + snd (area_pos a))).
    { rewrite denoted_pos, nth_error_map, E. reflexivity. }
    rewrite (skipn_nth _ _ _ En). cbn [scan_list fst snd].
    match goal with |- context [obind ?o _] => destruct o as [[|]|] end; cbn [obind]; try reflexivity.
    rewrite (IH fuel a' (S n) Ha' Hn') by (rewrite ?Ec; lia). rewrite Ed. reflexivity.
  - cbn [obind]. apply nth_error_None in E.
    rewrite skipn_all2 by (rewrite denoted_pos, map_length; lia). reflexivity.
Qed.

Lemma counter_query m test hit a : gm_wf m -> counter_area a -> area_cells a <> [] ->
  (forall x y, cell_of (gm_w m) (gm_h m) x y -> test x y <> None) ->
  exists r, (a0 <- abegin a ;; scan m test hit (negb hit) (afuel a) a0) = r /\
    (r = Some hit <-> exists x y, In (x, y) (tl (denoted a)) /\ cell_of (gm_w m) (gm_h m) x y /\ test x y = Some true) /\
    (r = Some hit \/ r = None).
Proof.
  intros Hwf Ha Hne Ht. eexists; split; [reflexivity|].
  assert (B : exists a0, abegin a = Some a0 /\ counter_area a0 /\ aindex a0 = Some O /\
    area_cells a0 = area_cells a /\ denoted a0 = denoted a).
  { destruct a as [c cx cy v j|c cx cy vs j|c v j|]; try contradiction; cbn [abegin];
      eexists; split; try reflexivity; repeat split. }
  destruct B as (a0 & -> & Ha0 & Hi & Ec & Ed). cbn [obind].
  assert (Hl : (0 < length (area_cells a))%nat) by (destruct (area_cells a); [congruence|cbn; lia]).
  rewrite (counter_scan m test hit (negb hit) _ (afuel a) a0 O Ha0 Hi eq_refl) by (unfold afuel; rewrite ?Ec; lia).
  rewrite Ed. change (skipn 1 (denoted a)) with (match denoted a with [] => [] | _ :: l => l end).
  change (match denoted a with [] => [] | _ :: l => l end) with (tl (denoted a)).
  pose proof (scan_list_spec m test true (tl (denoted a)) Hwf Ht) as Q. cbn [negb] in Q. rewrite Q. clear Q.
  match goal with |- context [existsb ?f ?l] => destruct (existsb f l) eqn:E end; cbn [negb].
  - split; [|left; reflexivity]. split; [|reflexivity]. intros _.
    apply existsb_exists in E. destruct E as ([x y] & Hin & H). apply andb_true_iff in H. destruct H as [H1 H2].
    cbn [fst snd] in *. exists x, y. split; [exact Hin|]. split; [apply isInMap_spec; assumption|].
    destruct (test x y) as [[|]|]; congruence.
  - split; [|right; reflexivity]. split; [discriminate|]. intros (x & y & Hin & Hc & T). exfalso.
    apply not_true_iff_false in E. apply E. apply existsb_exists. exists (x, y). split; [exact Hin|]. cbn [fst snd].
    rewrite T. apply isInMap_spec in Hc; [|exact Hwf]. rewrite Hc. reflexivity.
Qed.

(** getAreaValues over a RobotArea ends with the area unchanged but for its
    cursor: RobotArea::setValue does nothing. *)
Lemma read_robot m cs px py n : gm_wf m -> forall fuel idx, -1 <= idx ->
  n = (length cs - Z.to_nat (idx + 1))%nat -> (n < fuel)%nat ->
  exists i, read_loop m fuel (ARobot cs px py true idx) = Some (ARobot cs px py true i).
Proof.
  intros Hwf. induction n as [|n IH]; intros fuel idx Hi Hn Hf; (destruct fuel as [|fuel]; [lia|]); cbn [read_loop anext].
  - destruct (Z.ltb_spec (idx + 1) (Z.of_nat (length cs))); [lia|]. eauto.
  - destruct (Z.ltb_spec (idx + 1) (Z.of_nat (length cs))); [|lia].
    unfold agetCell at 1. cbn [aindex area_cells area_pos fst snd].
    destruct (Z.ltb_spec (idx + 1) 0); [lia|]. cbn [obind].
    destruct (nth_error cs (Z.to_nat (idx + 1))) as [c|] eqn:E; [|apply nth_error_None in E; lia].
    cbn [obind fst snd]. destruct (isInMap m (fst c + px) (snd c + py)) eqn:EM.
    + apply isInMap_spec in EM; [|exact Hwf]. destruct (getValue_some _ _ _ Hwf EM) as [v ->].
      cbn [obind asetValue]. apply IH; lia.
    + cbn [obind]. apply IH; lia.
Qed.

(** setAreaValue(area) is setAreaValue(area, area.getValue()) for a RobotArea,
    whose value is 0. *)
Lemma write_val_ext f g : (forall cs px py i idx, f (ARobot cs px py i idx) = g (ARobot cs px py i idx)) ->
  forall fuel m cs px py i idx,
  write_loop f fuel m (ARobot cs px py i idx) = write_loop g fuel m (ARobot cs px py i idx).
Proof.
  intros H. induction fuel as [|n IH]; intros m cs px py i idx; [reflexivity|]. cbn [write_loop anext].
  destruct (idx + 1 <? Z.of_nat (length cs)); [|reflexivity].
  destruct (agetCell _) as [c|]; [|reflexivity]. cbn [obind]. rewrite H.
  destruct (if isInMap m (fst c) (snd c) then _ else _); [|reflexivity]. cbn [obind]. apply IH.
Qed.

Lemma robot_write_own m a : robot_ready a -> setAreaValue m a = setAreaConst m a 0.
Proof.
  intros Ha. destruct a as [| | |cs px py [|] idx]; try contradiction.
  unfold setAreaValue, setAreaConst. cbn [abegin obind]. apply write_val_ext. reflexivity.
Qed.

(** ** How far the circle raster goes beyond the circle. *)
Lemma circle_loop_shape r : 0 <= r -> forall fuel x y f ddx ddy,
  Z.of_nat fuel = r - x -> 0 <= x <= r ->
  f = (x + 1) * (x + 1) + y * y - y - r * r -> ddx = 2 * x + 1 -> ddy = - 2 * y ->
  r - x <= y <= r ->
  (x <= y -> x * x + y * y - y <= r * r) ->
  (2 * (x + y) - 1) * (2 * (x + y) - 1) <= 8 * (r * r) + 2 ->
  let l := circle_loop fuel r x y f ddx ddy in
  forall a b, In (a, b) l ->
    (Z.abs b <= Z.abs a -> a * a + b * b <= r * r + r) /\
    (exists c, Z.abs a <= c /\ (2 * (c + Z.abs b) - 1) * (2 * (c + Z.abs b) - 1) <= 8 * (r * r) + 2 /\
       forall a', Z.abs a' <= c -> In (a', b) l).
Proof.
  intros Hr fuel. induction fuel as [|n IH]; intros x y f ddx ddy Hf Hx Ef Ed1 Ed2 Hy J O; cbn [circle_loop]; [intros a b []|].
  replace (x <? r) with true by lia. cbv zeta.
  set (y' := if f >=? 0 then y - 1 else y).
  set (ddy' := if f >=? 0 then ddy + 2 else ddy).
  set (f' := (if f >=? 0 then f + ddy' else f) + (ddx + 2)).
  assert (Hy' : y' = y - 1 /\ f >= 0 \/ y' = y /\ f < 0).
  { unfold y'. destruct (Z.geb_spec f 0); lia. }
  assert (Ef' : f' = (x + 1 + 1) * (x + 1 + 1) + y' * y' - y' - r * r).
  { unfold f', ddy', y'. destruct (Z.geb_spec f 0); subst; ring. }
  assert (Ed' : ddy' = -2 * y'). { unfold ddy', y'. destruct (Z.geb_spec f 0); subst; ring. }
  assert (Hrange : r - (x + 1) <= y' <= r) by lia.
  assert (Hypos : 0 <= y') by lia.
  assert (J' : x + 1 <= y' -> (x + 1) * (x + 1) + y' * y' - y' <= r * r).
  { intros L. destruct Hy' as [[E Hf0]|[E Hf0]].
    - rewrite E in *. specialize (J ltac:(lia)). nia.
    - rewrite E in *. lia. }
  assert (O' : (2 * (x + 1 + y') - 1) * (2 * (x + 1 + y') - 1) <= 8 * (r * r) + 2).
  { destruct Hy' as [[E Hf0]|[E Hf0]].
    - rewrite E. replace (2 * (x + 1 + (y - 1)) - 1) with (2 * (x + y) - 1) by ring. exact O.
    - rewrite E. rewrite Ef in Hf0.
      assert (Q : 0 <= (2 * (x + 1) - (2 * y - 1)) * (2 * (x + 1) - (2 * y - 1))) by apply Z.square_nonneg.
      nia. }
  specialize (IH (x + 1) y' f' (ddx + 2) ddy' ltac:(lia) ltac:(lia) Ef' ltac:(lia) Ed' Hrange J' O').
  cbv zeta in IH. intros a b Hin.
  assert (Here : Z.abs a <= y' -> Z.abs b = x + 1 ->
    (Z.abs b <= Z.abs a -> a * a + b * b <= r * r + r) /\
    exists c, Z.abs a <= c /\ (2 * (c + Z.abs b) - 1) * (2 * (c + Z.abs b) - 1) <= 8 * (r * r) + 2 /\
      forall a', Z.abs a' <= c ->
       In (a', b) (hline (x + 1) (- y') y' ++ hline (- (x + 1)) (- y') y' ++ circle_loop n r (x + 1) y' f' (ddx + 2) ddy')).
  { intros La Lb. split.
    - intros L. specialize (J' ltac:(lia)).
      assert (a * a <= y' * y') by (assert (Z.abs a * Z.abs a = a * a) by (destruct (Z.abs_spec a); nia); nia).
      assert (b * b = (x + 1) * (x + 1)) by (destruct (Z.abs_spec b); nia). lia.
    - exists y'. split; [exact La|]. split; [replace (y' + Z.abs b) with (x + 1 + y') by lia; exact O'|].
      intros a' H. rewrite !in_app_iff, !hline_in by lia. destruct (Z.abs_spec b); [left|right; left]; lia. }
  rewrite !in_app_iff, !hline_in in Hin by lia.
  destruct Hin as [[E H]|[[E H]|Hin]].
  - apply Here; lia.
  - apply Here; lia.
  - destruct (IH a b Hin) as (I1 & c & C1 & C2 & C3). split; [exact I1|]. exists c. split; [exact C1|]. split; [exact C2|].
    intros a' H. rewrite !in_app_iff. right; right. exact (C3 a' H).
Qed.

Lemma circle_cells_shape r : 0 <= r -> forall a b, In (a, b) (circle_cells r) ->
  (Z.abs b <= Z.abs a -> a * a + b * b <= r * r + r) /\
  (2 * (Z.abs a + Z.abs b) - 1) * (2 * (Z.abs a + Z.abs b) - 1) <= 8 * (r * r) + 2 /\
  (forall a', Z.abs a' <= Z.abs a -> In (a', b) (circle_cells r)).
Proof.
  intros Hr a b Hin. unfold circle_cells in *. rewrite in_app_iff, hline_in in Hin by lia.
  destruct Hin as [[E H]|Hin].
  - subst b. split; [intros _; assert (Z.abs a * Z.abs a = a * a) by (destruct (Z.abs_spec a); nia); nia|]. split.
    + replace (Z.abs a + Z.abs 0) with (Z.abs a) by lia. nia.
    + intros a' L. rewrite in_app_iff, hline_in by lia. left. lia.
  - destruct (circle_loop_shape r Hr (Z.to_nat r) 0 r (1 - r) 1 (-2 * r) ltac:(lia) ltac:(lia) ltac:(nia) ltac:(lia) ltac:(lia) ltac:(lia) ltac:(nia) ltac:(nia) a b Hin)
      as (I1 & c & C1 & C2 & C3).
    split; [exact I1|]. split.
    + assert (Z.abs a + Z.abs b = 0 \/ 1 <= Z.abs a + Z.abs b) as [Q|Q] by lia; [rewrite Q; nia|]. nia.
    + intros a' L. rewrite in_app_iff. right. apply C3. lia.
Qed.

Lemma circle_cells_far r a b : 0 <= r -> In (a, b) (circle_cells r) ->
  100 * (a * a + b * b) <= (11 * r + 10) * (11 * r + 10).
Proof.
  intros Hr Hin.
  destruct (circle_cells_shape r Hr a b Hin) as (_ & O & _).
  destruct (circle_cells_spec r Hr) as (B & _). destruct (B a b Hin) as [Ba Bb].
  assert (Ea : Z.abs a * Z.abs a = a * a) by (destruct (Z.abs_spec a); nia).
  assert (Eb : Z.abs b * Z.abs b = b * b) by (destruct (Z.abs_spec b); nia).
  rewrite <- Ea, <- Eb. assert (0 <= Z.abs a) by lia. assert (0 <= Z.abs b) by lia.
  set (u := Z.abs a) in *. set (v := Z.abs b) in *. clearbody u v. clear - Hr O Ba Bb H H0.
  assert (S : 200 * (u + v) <= 283 * r + 200).
  { assert (r = 0 \/ 1 <= r) as [-> |R] by lia; [lia|].
    assert (~ (283 * r + 200 < 200 * (u + v))); [|lia]. intros L.
    assert (283 * r + 100 < 100 * (2 * (u + v) - 1)) by lia.
    set (w := 2 * (u + v) - 1) in *. clearbody w. nia. }
  assert (u * u + v * v <= r * r + (u + v - r) * (u + v - r) \/ u + v <= r) as [M|M] by nia.
  - assert (u + v <= r \/ r <= u + v) as [L|L] by lia; [nia|].
    set (d := u + v - r) in *. assert (200 * d <= 83 * r + 200) by lia. assert (0 <= d) by lia. clearbody d. nia.
  - nia.
Qed.
