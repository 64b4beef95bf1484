From Verif Require Import Base GridMap.

Lemma isInMap_spec m x y : gm_wf m -> isInMap m x y = true <-> cell_of (gm_w m) (gm_h m) x y.
Proof.
  intros (Hw & Hh & _). unfold isInMap, cell_of.
  rewrite !i32_id by lia. lia.
Qed.

Lemma cell_index_eq m x y : gm_wf m -> cell_of (gm_w m) (gm_h m) x y ->
  cell_index m x y = Z.to_nat (y * gm_w m + x) /\ 0 <= y * gm_w m + x < gm_w m * gm_h m.
Proof.
  intros (Hw & Hh & Hp & Hl) [Hx Hy]. unfold cell_index.
  assert (0 <= y * gm_w m) by nia.
  assert (y * gm_w m + x < gm_w m * gm_h m) by nia.
  rewrite (u32_id y) by lia. rewrite (u32_id (y * gm_w m)) by lia.
  rewrite (u32_id x) by lia. rewrite u32_id by lia. split; [reflexivity|lia].
Qed.

Lemma cell_index_inj m x y x' y' : gm_wf m ->
  cell_of (gm_w m) (gm_h m) x y -> cell_of (gm_w m) (gm_h m) x' y' ->
  cell_index m x y = cell_index m x' y' -> x = x' /\ y = y'.
Proof.
  intros Hwf H H'. destruct (cell_index_eq _ _ _ Hwf H) as [-> Hb].
  destruct (cell_index_eq _ _ _ Hwf H') as [-> Hb']. intros E.
  assert (E' : y * gm_w m + x = y' * gm_w m + x') by lia.
  destruct H as [Hx Hy]. destruct H' as [Hx' Hy'].
  assert (y = y'); [|subst y'; lia].
  destruct (Z.lt_trichotomy y y') as [L|[L|L]]; [exfalso|exact L|exfalso].
  - assert ((y' - y - 1) * gm_w m >= 0) by nia. nia.
  - assert ((y - y' - 1) * gm_w m >= 0) by nia. nia.
Qed.

Lemma cell_index_bound m x y : gm_wf m -> cell_of (gm_w m) (gm_h m) x y ->
  (cell_index m x y < length (gm_data m))%nat.
Proof.
  intros Hwf H. destruct (cell_index_eq _ _ _ Hwf H) as [-> Hb].
  destruct Hwf as (_ & _ & _ & Hl). lia.
Qed.

Lemma getValue_some m x y : gm_wf m -> cell_of (gm_w m) (gm_h m) x y ->
  exists v, getValue m x y = Some v.
Proof.
  intros Hwf H. unfold getValue.
  destruct (nth_error (gm_data m) (cell_index m x y)) eqn:E; [eauto|].
  apply nth_error_None in E. pose proof (cell_index_bound _ _ _ Hwf H). lia.
Qed.

Lemma setValue_spec m x y v : gm_wf m -> cell_of (gm_w m) (gm_h m) x y ->
  exists m', setValue m x y v = Some m' /\ gm_wf m' /\
    gm_w m' = gm_w m /\ gm_h m' = gm_h m /\ gm_lo m' = gm_lo m /\ gm_up m' = gm_up m /\
    gm_ni m' = gm_ni m /\ length (gm_data m') = length (gm_data m) /\
    forall x' y', cell_of (gm_w m) (gm_h m) x' y' ->
      getValue m' x' y' = if (x' =? x) && (y' =? y) then Some v else getValue m x' y'.
Proof.
  intros Hwf H. unfold setValue.
  destruct (list_set_some (gm_data m) (cell_index m x y) v) as [d Hd];
    [apply cell_index_bound; assumption|].
  rewrite Hd. cbn [obind]. eexists; split; [reflexivity|]. cbn.
  pose proof (list_set_length _ _ _ _ Hd) as Hlen.
  split. { destruct Hwf as (A & B & C & D). unfold gm_wf; cbn. rewrite Hlen. auto. }
  repeat (split; [reflexivity || exact Hlen|]).
  intros x' y' H'. unfold getValue at 1. cbn [gm_data].
  rewrite (list_set_nth _ _ _ _ Hd).
  change (cell_index {| gm_w := gm_w m; gm_h := gm_h m; gm_data := d; gm_lo := gm_lo m;
                        gm_up := gm_up m; gm_ni := gm_ni m |} x' y') with (cell_index m x' y').
  destruct (Nat.eqb_spec (cell_index m x' y') (cell_index m x y)) as [E|E].
  - destruct (cell_index_inj _ _ _ _ _ Hwf H' H E) as [-> ->].
    rewrite !Z.eqb_refl. reflexivity.
  - destruct (Z.eqb_spec x' x) as [->|]; [|reflexivity].
    destruct (Z.eqb_spec y' y) as [->|]; [|reflexivity].
    congruence.
Qed.

(** A history of writes. *)
Fixpoint writes (m : gridmap) (ws : list (Z * Z * Z)) : option gridmap :=
  match ws with
  | [] => Some m
  | (x, y, v) :: r => m' <- setValue m x y v ;; writes m' r
  end.


Lemma writes_spec ws : forall m, gm_wf m ->
  (forall x y v, In (x, y, v) ws -> cell_of (gm_w m) (gm_h m) x y) ->
  exists m', writes m ws = Some m' /\ gm_wf m' /\
    gm_w m' = gm_w m /\ gm_h m' = gm_h m /\ gm_lo m' = gm_lo m /\ gm_up m' = gm_up m /\
    gm_ni m' = gm_ni m /\ length (gm_data m') = length (gm_data m) /\
    forall x y, cell_of (gm_w m) (gm_h m) x y ->
      exists v, getValue m x y = Some v /\
      getValue m' x y = Some (match last_write ws x y with Some u => u | None => v end).
Proof.
  induction ws as [|[[x0 y0] v0] r IH]; intros m Hwf Hin; cbn [writes].
  - exists m. repeat (split; [auto|]). intros x y H.
    destruct (getValue_some _ _ _ Hwf H) as [v Hv]. exists v. rewrite Hv. auto.
  - destruct (setValue_spec m x0 y0 v0 Hwf) as (m1 & E1 & Hwf1 & Ew & Eh & El & Eu & En & Elen & Hget).
    { apply (Hin x0 y0 v0). left; reflexivity. }
    rewrite E1. cbn [obind].
    destruct (IH m1 Hwf1) as (m2 & E2 & Hwf2 & Ew2 & Eh2 & El2 & Eu2 & En2 & Elen2 & Hget2).
    { intros x y v H. rewrite Ew, Eh. apply (Hin x y v). right; exact H. }
    exists m2. split; [exact E2|]. split; [exact Hwf2|].
    split; [congruence|]. split; [congruence|]. split; [congruence|]. split; [congruence|].
    split; [congruence|]. split; [congruence|].
    intros x y H. destruct (getValue_some _ _ _ Hwf H) as [v Hv]. exists v. split; [exact Hv|].
    destruct (Hget2 x y) as (v' & Hv' & Hr). { rewrite Ew, Eh; exact H. }
    rewrite Hr. rewrite (Hget x y H) in Hv'.
    cbn [last_write]. destruct (last_write r x y) as [u|]; [reflexivity|].
    destruct ((x =? x0) && (y =? y0)); congruence.
Qed.

(** Classification. *)
Lemma classify_spec m x y v : getValue m x y = Some v ->
  isFree m x y = Some (if is_ni_value m v then false else v <=? gm_lo m) /\
  isOccupied m x y = Some (if is_ni_value m v then false else v >=? gm_up m) /\
  isNoInformation m x y = Some (if is_ni_value m v then true else (v >? gm_lo m) && (v <? gm_up m)).
Proof. intros H. unfold isFree, isOccupied, isNoInformation. rewrite H. auto. Qed.

Definition ni_opt (m : gridmap) : option Z := if gm_ni m =? -1 then None else Some (gm_ni m).

Lemma classify m x y : gm_wf m -> cell_of (gm_w m) (gm_h m) x y ->
  exists v, getValue m x y = Some v /\
  (isFree m x y = Some true <-> class_spec (gm_lo m) (gm_up m) (ni_opt m) v Free) /\
  (isOccupied m x y = Some true <-> class_spec (gm_lo m) (gm_up m) (ni_opt m) v Occ) /\
  (isNoInformation m x y = Some true <-> class_spec (gm_lo m) (gm_up m) (ni_opt m) v Unknown) /\
  isFree m x y <> None /\ isOccupied m x y <> None /\ isNoInformation m x y <> None.
Proof.
  intros Hwf H. destruct (getValue_some _ _ _ Hwf H) as [v Hv]. exists v. split; [exact Hv|].
  destruct (classify_spec _ _ _ _ Hv) as (-> & -> & ->).
  unfold class_spec, ni_opt, is_ni_value.
  destruct (Z.eqb_spec (gm_ni m) (-1)) as [E|E]; cbn [negb andb].
  - repeat split; intros; try congruence;
      repeat match goal with
      | H : Some _ = Some _ |- _ => injection H as H
      | H : _ /\ _ |- _ => destruct H
      | H : _ \/ _ |- _ => destruct H
      end; try discriminate; try (f_equal; lia); try lia.
  - destruct (Z.eqb_spec v (gm_ni m)) as [E'|E'].
    + subst v. repeat split; intros; try congruence; repeat match goal with
      | H : Some _ = Some _ |- _ => injection H as H
      | H : _ /\ _ |- _ => destruct H
      end; try congruence. left; reflexivity.
    + repeat split; intros; try congruence; repeat match goal with
      | H : Some _ = Some _ |- _ => injection H as H
      | H : _ /\ _ |- _ => destruct H
      | H : _ \/ _ |- _ => destruct H
      end; try congruence; try (f_equal; lia); try lia.
Qed.

Lemma classify_unique m x y : gm_wf m -> cell_of (gm_w m) (gm_h m) x y -> gm_lo m < gm_up m ->
  (isFree m x y = Some true /\ isOccupied m x y = Some false /\ isNoInformation m x y = Some false) \/
  (isFree m x y = Some false /\ isOccupied m x y = Some true /\ isNoInformation m x y = Some false) \/
  (isFree m x y = Some false /\ isOccupied m x y = Some false /\ isNoInformation m x y = Some true).
Proof.
  intros Hwf H Hlt. destruct (getValue_some _ _ _ Hwf H) as [v Hv].
  destruct (classify_spec _ _ _ _ Hv) as (-> & -> & ->).
  destruct (is_ni_value m v); [auto|].
  destruct (Z.leb_spec v (gm_lo m)); destruct (Z.geb_spec v (gm_up m));
    destruct (Z.gtb_spec v (gm_lo m)); destruct (Z.ltb_spec v (gm_up m)); try lia; cbn; auto.
Qed.

Lemma gm_new_wf w h : 0 <= w < 2147483648 -> 0 <= h < 2147483648 -> w * h < 4294967296 ->
  gm_wf (gm_new w h).
Proof.
  intros Hw Hh Hp. assert (0 <= w * h) by nia. unfold gm_wf, gm_new; cbn [gm_w gm_h gm_data].
  rewrite repeat_length, u32_id by lia. lia.
Qed.

Lemma gm_new_get w h x y : 0 <= w < 2147483648 -> 0 <= h < 2147483648 -> w * h < 4294967296 ->
  cell_of w h x y -> getValue (gm_new w h) x y = Some 0.
Proof.
  intros Hw Hh Hp H. pose proof (gm_new_wf w h Hw Hh Hp) as Hwf.
  destruct (getValue_some (gm_new w h) x y Hwf H) as [v Hv]. rewrite Hv. f_equal.
  unfold getValue in Hv. apply nth_error_In in Hv. cbn in Hv. apply repeat_spec in Hv. exact Hv.
Qed.

Lemma gm_fill_spec m v x y : gm_wf m -> cell_of (gm_w m) (gm_h m) x y ->
  gm_wf (gm_fill v m) /\ getValue (gm_fill v m) x y = Some v.
Proof.
  intros Hwf H.
  assert (Hwf' : gm_wf (gm_fill v m)).
  { destruct Hwf as (A & B & C & D). unfold gm_wf, gm_fill; cbn. rewrite map_length. auto. }
  split; [exact Hwf'|].
  destruct (getValue_some (gm_fill v m) x y Hwf' H) as [u Hu]. rewrite Hu. f_equal.
  unfold getValue in Hu. apply nth_error_In in Hu. cbn in Hu. apply in_map_iff in Hu.
  destruct Hu as (? & ? & ?). auto.
Qed.

Lemma gm_set_wf d w h m : 0 <= w < 2147483648 -> 0 <= h < 2147483648 -> w * h < 4294967296 ->
  w * h <= Z.of_nat (length d) ->
  gm_wf (gm_set d w h m) /\
  forall x y, cell_of w h x y -> getValue (gm_set d w h m) x y = nth_error d (Z.to_nat (y * w + x)).
Proof.
  intros Hw Hh Hp Hl. assert (Hwf : gm_wf (gm_set d w h m)) by (unfold gm_wf; cbn; auto).
  split; [exact Hwf|]. intros x y H. unfold getValue.
  destruct (cell_index_eq (gm_set d w h m) x y Hwf H) as [-> _]. reflexivity.
Qed.
