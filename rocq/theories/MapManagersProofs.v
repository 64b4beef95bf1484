From Verif Require Import Base GridMap GridMapProofs Bresenham BresenhamProofs AreasProofs MapManagers.

Lemma all_ok_spec ok l : (forall b, In b l -> ok (b_x b) (b_y b) <> None) ->
  exists r, all_ok ok l = Some r /\
    (r = true <-> forall x y, In (x, y) (map bcoords l) -> ok x y = Some true).
Proof.
  induction l as [|b l IH]; intros H; cbn [all_ok].
  - exists true. split; [reflexivity|]. split; [intros _ x y []|reflexivity].
  - destruct IH as (r & Hr & Hiff); [intros b' Hb'; apply H; right; exact Hb'|].
    destruct (ok (b_x b) (b_y b)) as [[|]|] eqn:E; [| |exfalso; apply (H b); [left; reflexivity|exact E]]; cbn [obind].
    + exists r. split; [exact Hr|]. rewrite Hiff. cbn [map]. split.
      * intros A x y [Q|Q]; [|apply A, Q]. unfold bcoords in Q. injection Q as <- <-. exact E.
      * intros A x y Q. apply A. right; exact Q.
    + exists false. split; [reflexivity|]. split; [discriminate|]. intros A.
      rewrite (A (b_x b) (b_y b)) in E; [discriminate|left; reflexivity].
Qed.


Lemma seg_fuel_ok xs ys xe ye : blen xs ys xe ye < Z.of_nat (seg_fuel xs ys xe ye).
Proof. unfold blen, seg_fuel. lia. Qed.

Lemma mgr_isFree_spec b m sx sy ex ey : gm_wf m -> gm_small m ->
  cell_of (gm_w m) (gm_h m) sx sy -> cell_of (gm_w m) (gm_h m) ex ey ->
  exists l r, segment_cells sx sy ex ey l /\
    mgr_isFree b m sx sy ex ey = Some r /\
    (r = true <-> forall x y, In (x, y) l -> isFree m x y = Some true).
Proof.
  intros Hwf Hsm Hs He.
  destruct (line_walk b m sx sy ex ey Hwf Hsm Hs He) as (b1 & Hb1 & Hc & Hw).
  destruct (Hw _ (seg_fuel_ok sx sy ex ey)) as (l & Hl & Hlen & Hlast & Hconn & Hon & Hin & _).
  destruct (all_ok_spec (fun x y => isFree m x y) l) as (r & Hr & Hiff).
  { intros b' Hb'. destruct (Hin b' Hb') as [_ H]. unfold bcoords in H. cbn [fst snd] in H.
    destruct (isFree_some m _ _ Hwf H) as [q ->]. discriminate. }
  exists (map bcoords l), r. split.
  { unfold segment_cells. rewrite map_length. auto. }
  split; [|exact Hiff]. unfold mgr_isFree.
  replace ((sx <? 0) || (sy <? 0) || (ex <? 0) || (ey <? 0)) with false by (unfold cell_of in *; lia).
  rewrite Hb1. cbn [obind]. rewrite Hl. cbn [obind]. exact Hr.
Qed.

Lemma mgr_isFreeOrUnknown_spec b m sx sy ex ey : gm_wf m -> gm_small m -> gm_lo m < gm_up m ->
  cell_of (gm_w m) (gm_h m) sx sy -> cell_of (gm_w m) (gm_h m) ex ey ->
  exists l r, segment_cells sx sy ex ey l /\
    mgr_isFreeOrUnknown b m sx sy ex ey = Some r /\
    (r = true <-> forall x y, In (x, y) l -> isOccupied m x y = Some false).
Proof.
  intros Hwf Hsm Hlt Hs He.
  destruct (line_walk b m sx sy ex ey Hwf Hsm Hs He) as (b1 & Hb1 & Hc & Hw).
  destruct (Hw _ (seg_fuel_ok sx sy ex ey)) as (l & Hl & Hlen & Hlast & Hconn & Hon & Hin & _).
  set (ok := fun x y => n <- isNoInformation m x y ;; f <- isFree m x y ;; Some (negb (negb n && negb f))).
  assert (Hok : forall x y, cell_of (gm_w m) (gm_h m) x y ->
     exists q, ok x y = Some q /\ (q = true <-> isOccupied m x y = Some false)).
  { intros x y H. unfold ok.
    destruct (classify_unique m x y Hwf H Hlt) as [(-> & -> & ->)|[(-> & -> & ->)|(-> & -> & ->)]];
      cbn; eexists; split; try reflexivity; split; congruence. }
  destruct (all_ok_spec ok l) as (r & Hr & Hiff).
  { intros b' Hb'. destruct (Hin b' Hb') as [_ H]. unfold bcoords in H. cbn [fst snd] in H.
    destruct (Hok _ _ H) as (q & -> & _). discriminate. }
  exists (map bcoords l), r. split.
  { unfold segment_cells. rewrite map_length. auto. }
  split.
  - unfold mgr_isFreeOrUnknown.
    replace ((sx <? 0) || (sy <? 0) || (ex <? 0) || (ey <? 0)) with false by (unfold cell_of in *; lia).
    rewrite Hb1. cbn [obind]. rewrite Hl. cbn [obind]. exact Hr.
  - rewrite Hiff. split; intros A x y Hxy.
    + assert (Hcell : cell_of (gm_w m) (gm_h m) x y).
      { apply in_map_iff in Hxy. destruct Hxy as (s & E & Hsin). destruct (Hin s Hsin) as [_ H]. rewrite E in H. exact H. }
      destruct (Hok x y Hcell) as (q & Hq & Hqq). apply Hqq. specialize (A x y Hxy). congruence.
    + assert (Hcell : cell_of (gm_w m) (gm_h m) x y).
      { apply in_map_iff in Hxy. destruct Hxy as (s & E & Hsin). destruct (Hin s Hsin) as [_ H]. rewrite E in H. exact H. }
      destruct (Hok x y Hcell) as (q & Hq & Hqq). rewrite Hq. f_equal. apply Hqq, A, Hxy.
Qed.

(** An end point outside the map: nothing is checked at all. *)
Lemma mgr_isFree_outside b m sx sy ex ey :
  0 <= sx -> 0 <= sy -> 0 <= ex -> 0 <= ey ->
  isInMap m sx sy = false \/ isInMap m ex ey = false ->
  mgr_isFree b m sx sy ex ey = Some true.
Proof.
  intros H1 H2 H3 H4 H. unfold mgr_isFree.
  replace ((sx <? 0) || (sy <? 0) || (ex <? 0) || (ey <? 0)) with false by lia.
  destruct (setGrid_out b m sx sy ex ey H) as (b' & -> & Hn & _). cbn [obind].
  unfold seg_fuel. cbn [bwalk]. rewrite Hn. reflexivity.
Qed.

(** ** Index arithmetic *)
Lemma grid_lookup_spec w h x y : 0 <= w < 2147483648 -> 0 <= h < 2147483648 -> w * h < 4294967296 ->
  (cell_of w h x y -> grid_lookup w h (w * h) x y = Found (y * w + x) /\ 0 <= y * w + x < w * h) /\
  (~ cell_of w h x y -> grid_lookup w h (w * h) x y = Outside).
Proof.
  intros Hw Hh Hp. unfold grid_lookup. rewrite !i32_id by lia. split.
  - intros [Hx Hy]. replace ((x <? 0) || (y <? 0) || (x >=? w) || (y >=? h)) with false by lia.
    assert (0 <= y * w) by nia. assert (y * w + x < w * h) by nia.
    unfold grid_index. rewrite (u32_id y) by lia. rewrite (u32_id (y * w)) by lia.
    rewrite (u32_id x), u32_id by lia. replace (y * w + x <? w * h) with true by lia. split; [reflexivity|lia].
  - intros H. replace ((x <? 0) || (y <? 0) || (x >=? w) || (y >=? h)) with true; [reflexivity|].
    unfold cell_of in H. lia.
Qed.

Lemma flat_inj w x y x' y' : 0 <= x < w -> 0 <= x' < w -> y * w + x = y' * w + x' -> x = x' /\ y = y'.
Proof.
  intros Hx Hx' E. assert (y = y').
  { assert (A : y = (y * w + x) / w) by (apply (Z.div_unique _ w y x); lia).
    assert (A' : y' = (y' * w + x') / w) by (apply (Z.div_unique _ w y' x'); lia).
    rewrite A, A', E. reflexivity. }
  subst y'. lia.
Qed.

Lemma dir_lookup_spec w h x y t f : 0 <= w < 2147483648 -> 0 <= h < 2147483648 ->
  2 * (w * h * 32) < 4294967296 -> cell_of w h x y -> 0 <= t < 32 ->
  dir_lookup w h 32 (2 * (w * h * 32)) x y t f =
    Found (y * w + x + t * w * h + (if f then 0 else w * h * 32)) /\
  0 <= y * w + x + t * w * h + (if f then 0 else w * h * 32) < 2 * (w * h * 32).
Proof.
  intros Hw Hh Hp [Hx Hy] Ht. unfold dir_lookup, dir_index. rewrite !i32_id by lia.
  replace ((x <? 0) || (y <? 0) || (x >=? w) || (y >=? h) || (t <? 0) || (t >=? 32)) with false by lia.
  assert (0 <= y * w) by nia. assert (y * w + x < w * h) by nia.
  assert (0 <= t * (w * h) <= 31 * (w * h)) by nia.
  replace (t * w * h) with (t * (w * h)) by ring.
  rewrite (u32_id (w * h * 32)) by lia.
  assert (B : 0 <= y * w + x + t * (w * h) + (if f then 0 else w * h * 32) < 2 * (w * h * 32)) by (destruct f; lia).
  rewrite u32_id by lia.
  replace (y * w + x + t * (w * h) + (if f then 0 else w * h * 32) <? 2 * (w * h * 32)) with true by lia. auto.
Qed.

Lemma dir_lookup_inj w h x y t f x' y' t' f' : 0 <= w < 2147483648 -> 0 <= h < 2147483648 ->
  2 * (w * h * 32) < 4294967296 -> cell_of w h x y -> cell_of w h x' y' -> 0 <= t < 32 -> 0 <= t' < 32 ->
  dir_lookup w h 32 (2 * (w * h * 32)) x y t f = dir_lookup w h 32 (2 * (w * h * 32)) x' y' t' f' ->
  x = x' /\ y = y' /\ t = t' /\ f = f'.
Proof.
  intros Hw Hh Hp H H' Ht Ht' E.
  destruct (dir_lookup_spec w h x y t f Hw Hh Hp H Ht) as [E1 B1].
  destruct (dir_lookup_spec w h x' y' t' f' Hw Hh Hp H' Ht') as [E2 B2].
  rewrite E1, E2 in E. injection E as E.
  destruct H as [Hx Hy]. destruct H' as [Hx' Hy'].
  assert (P : 0 <= y * w + x < w * h) by nia. assert (P' : 0 <= y' * w + x' < w * h) by nia.
  replace (t * w * h) with (t * (w * h)) in * by ring. replace (t' * w * h) with (t' * (w * h)) in * by ring.
  assert (Hf : f = f').
  { destruct f, f'; auto; exfalso; nia. }
  subst f'.
  assert (E' : t * (w * h) + (y * w + x) = t' * (w * h) + (y' * w + x')) by (destruct f; lia).
  destruct (flat_inj (w * h) (y * w + x) t (y' * w + x') t' P P' E') as [E3 ->].
  destruct (flat_inj w x y x' y' Hx Hx' E3) as [-> ->]. auto.
Qed.

(** ** Dynamic chunks *)
(** Chunk coordinate of a cell by floor division (specification). *)
Lemma chunk_coord_floor x : - 32 < x -> chunk_coord x = x / 32.
Proof.
  intros H. unfold chunk_coord, chunk_size. destruct (Z.ltb_spec x 0).
  - assert (Z.quot x 32 = 0). { rewrite Z.quot_small_iff by lia. lia. } rewrite H1. lia.
  - rewrite Z.quot_div_nonneg by lia. lia.
Qed.

(** Every allocated chunk sits in the slot of its origin. *)
Definition dyn_inv (s : dyn) : Prop :=
  0 < dy_w s /\ 0 < dy_h s /\
  dy_cw s = (dy_w s + 64) / 32 + 1 /\ dy_ch s = (dy_h s + 64) / 32 + 1 /\
  Z.of_nat (length (dy_chunks s)) = dy_cw s * dy_ch s /\
  forall slot ox oy, nth_error (dy_chunks s) (Z.to_nat slot) = Some (Some (ox, oy)) -> 0 <= slot ->
    exists cx cy, -1 <= cx < dy_cw s - 1 /\ -1 <= cy < dy_ch s - 1 /\
      slot = (cy + 1) * dy_cw s + (cx + 1) /\ ox = cx * 32 /\ oy = cy * 32.

Lemma nth_repeat_none {A} n k (x : A) : nth_error (repeat (@None A) n) k <> Some (Some x).
Proof. revert k; induction n as [|n IH]; intros [|k]; cbn; try discriminate. apply IH. Qed.

Lemma dyn_init_inv w h : 0 < w -> 0 < h -> dyn_inv (dyn_init w h).
Proof.
  intros Hw Hh. unfold dyn_inv, dyn_init; cbn [dy_w dy_h dy_cw dy_ch dy_chunks]. unfold padding, chunk_size.
  split; [lia|]. split; [lia|]. split; [reflexivity|]. split; [reflexivity|]. split.
  - rewrite repeat_length. assert (0 <= (w + 2 * 32) / 32 + 1) by lia. assert (0 <= (h + 2 * 32) / 32 + 1) by lia. nia.
  - intros slot ox oy H. exfalso. exact (nth_repeat_none _ _ _ H).
Qed.

(** Cells strictly inside the padding's lower border. *)
Definition dyn_inner (s : dyn) (x y : Z) : Prop :=
  - 32 < x < dy_w s + 32 /\ - 32 < y < dy_h s + 32.

Definition node_id (s : dyn) (x y t : Z) (f : bool) : Z * Z :=
  ((y / 32 + 1) * dy_cw s + (x / 32 + 1),
   x mod 32 + (y mod 32) * 32 + t * 32 * 32 + (if f then 0 else 32 * 32 * 32)).

Lemma dyn_lookup_inner s x y t f : dyn_inv s -> dyn_inner s x y -> 0 <= t < 32 ->
  exists s', dyn_lookup s x y t f = (Found (node_id s x y t f), s') /\ dyn_inv s' /\
    dy_w s' = dy_w s /\ dy_h s' = dy_h s /\ dy_cw s' = dy_cw s.
Proof.
  intros (Hw & Hh & Ecw & Ech & Elen & Hch) [Hx Hy] Ht. unfold dyn_lookup, padding, dyn_slots.
  replace ((x <? - (32)) || (y <? - (32)) || (x >=? dy_w s + 32) || (y >=? dy_h s + 32) || (t <? 0) || (t >=? 32)) with false by lia.
  rewrite !chunk_coord_floor by lia. cbv zeta.
  set (slot := (y / 32 + 1) * dy_cw s + (x / 32 + 1)).
  assert (Hcx : -1 <= x / 32 < dy_cw s - 1) by lia.
  assert (Hcy : -1 <= y / 32 < dy_ch s - 1) by lia.
  assert (Hslot : 0 <= slot < dy_cw s * dy_ch s) by (unfold slot; nia).
  replace (slot <? 0) with false by lia.
  destruct (nth_error (dy_chunks s) (Z.to_nat slot)) as [c|] eqn:E; [|apply nth_error_None in E; lia].
  assert (Ho : (match c with Some o => o | None => (x / 32 * chunk_size, y / 32 * chunk_size) end) = (x / 32 * 32, y / 32 * 32)).
  { destruct c as [[ox oy]|]; [|reflexivity].
    destruct (Hch slot ox oy E ltac:(lia)) as (cx & cy & Bx & By & Es & -> & ->).
    unfold slot in Es.
    destruct (flat_inj (dy_cw s) (x / 32 + 1) (y / 32 + 1) (cx + 1) (cy + 1)) as [E1 E2]; try lia.
    f_equal; lia. }
  rewrite Ho.
  destruct (list_set_some (dy_chunks s) (Z.to_nat slot) (Some (x / 32 * 32, y / 32 * 32))) as [l Hl]; [lia|].
  rewrite Hl. eexists. split.
  - f_equal. unfold chunk_index, chunk_size, dyn_slots. cbv zeta.
    replace ((x - x / 32 * 32 <? 0) || (y - y / 32 * 32 <? 0) || (x - x / 32 * 32 >=? 32) || (y - y / 32 * 32 >=? 32)) with false by lia.
    unfold node_id. fold slot. do 2 f_equal. destruct f; lia.
  - split; [|auto]. unfold dyn_inv; cbn [dy_w dy_h dy_cw dy_ch dy_chunks].
    rewrite (list_set_length _ _ _ _ Hl).
    repeat (split; [assumption|]). intros slot' ox oy H H0.
    rewrite (list_set_nth _ _ _ _ Hl) in H.
    destruct (Nat.eqb_spec (Z.to_nat slot') (Z.to_nat slot)) as [Q|Q].
    + injection H as <- <-. exists (x / 32), (y / 32). unfold slot in *. repeat split; try lia.
    + apply (Hch slot' ox oy H H0).
Qed.

Definition op_inner (s : dyn) (o : Z * Z * Z * bool) : Prop :=
  let '(x, y, t, f) := o in dyn_inner s x y /\ 0 <= t < 32.

Lemma dyn_run_inv ops : forall s, dyn_inv s -> (forall o, In o ops -> op_inner s o) ->
  dyn_inv (dyn_run s ops) /\ dy_w (dyn_run s ops) = dy_w s /\ dy_h (dyn_run s ops) = dy_h s
  /\ dy_cw (dyn_run s ops) = dy_cw s.
Proof.
  induction ops as [|[[[x y] t] f] ops IH]; intros s Hs Ho; [cbn; auto|].
  unfold dyn_run; cbn [fold_left]. change (fold_left _ ops ?a) with (dyn_run a ops).
  destruct (Ho (x, y, t, f)) as [Hi Ht]; [left; reflexivity|].
  destruct (dyn_lookup_inner s x y t f Hs Hi Ht) as (s' & E & Hs' & Ew & Eh & Ecw).
  rewrite E. cbn [snd].
  destruct (IH s' Hs') as (A & B & C & D).
  { intros [[[x1 y1] t1] f1] H1. specialize (Ho _ (or_intror H1)). unfold op_inner, dyn_inner in *. rewrite Ew, Eh. exact Ho. }
  unfold dyn_run in *. rewrite B, C, D. auto.
Qed.

Lemma node_id_inj s x y t f x' y' t' f' : dyn_inv s -> dyn_inner s x y -> dyn_inner s x' y' ->
  0 <= t < 32 -> 0 <= t' < 32 -> node_id s x y t f = node_id s x' y' t' f' ->
  x = x' /\ y = y' /\ t = t' /\ f = f'.
Proof.
  intros (Hw & Hh & Ecw & Ech & Elen & _) [Hx Hy] [Hx' Hy'] Ht Ht' E. unfold node_id in E. injection E as E1 E2.
  destruct (flat_inj (dy_cw s) (x / 32 + 1) (y / 32 + 1) (x' / 32 + 1) (y' / 32 + 1)) as [Q1 Q2]; try lia.
  assert (f = f') by (destruct f, f'; auto; exfalso; lia). subst f'.
  assert (t = t') by (destruct f; lia). subst t'.
  assert (y mod 32 = y' mod 32) by (destruct f; lia). assert (x mod 32 = x' mod 32) by (destruct f; lia).
  assert (Dx : x / 32 = x' / 32) by (clear - Q1; lia). assert (Dy : y / 32 = y' / 32) by (clear - Q2; lia).
  pose proof (Z.div_mod x 32 ltac:(lia)) as Mx. pose proof (Z.div_mod x' 32 ltac:(lia)) as Mx'.
  pose proof (Z.div_mod y 32 ltac:(lia)) as My. pose proof (Z.div_mod y' 32 ltac:(lia)) as My'.
  repeat split; congruence.
Qed.

Lemma dyn_lookup_spec w h ops x y t f : 0 < w -> 0 < h ->
  let s := dyn_run (dyn_init w h) ops in
  (forall o, In o ops -> op_inner (dyn_init w h) o) ->
  dyn_inner (dyn_init w h) x y -> 0 <= t < 32 ->
  fst (dyn_lookup s x y t f) = Found (node_id (dyn_init w h) x y t f).
Proof.
  intros Hw Hh s Ho Hi Ht.
  destruct (dyn_run_inv ops (dyn_init w h) (dyn_init_inv w h Hw Hh) Ho) as (A & B & C & D). fold s in A, B, C, D.
  destruct (dyn_lookup_inner s x y t f A) as (s' & E & _).
  { unfold dyn_inner in *. rewrite B, C. exact Hi. } { exact Ht. }
  rewrite E. cbn [fst]. unfold node_id. rewrite D. reflexivity.
Qed.

(** Which chunks exist. *)
Definition allocated (s : dyn) (slot : Z) : Prop := exists o, nth_error (dy_chunks s) (Z.to_nat slot) = Some (Some o).
Lemma dyn_lookup_alloc s x y t f slot : dyn_inv s -> dyn_inner s x y -> 0 <= t < 32 -> 0 <= slot ->
  allocated (snd (dyn_lookup s x y t f)) slot <-> (allocated s slot \/ slot = (y / 32 + 1) * dy_cw s + (x / 32 + 1)).
Proof.
  intros (Hw & Hh & Ecw & Ech & Elen & Hch) [Hx Hy] Ht Hs0. unfold dyn_lookup, padding, dyn_slots.
  replace ((x <? - (32)) || (y <? - (32)) || (x >=? dy_w s + 32) || (y >=? dy_h s + 32) || (t <? 0) || (t >=? 32)) with false by lia.
  rewrite !chunk_coord_floor by lia. cbv zeta.
  set (sl := (y / 32 + 1) * dy_cw s + (x / 32 + 1)).
  assert (Hcx : -1 <= x / 32 < dy_cw s - 1) by lia.
  assert (Hcy : -1 <= y / 32 < dy_ch s - 1) by lia.
  assert (Hslot : 0 <= sl < dy_cw s * dy_ch s) by (unfold sl; nia).
  replace (sl <? 0) with false by lia.
  destruct (nth_error (dy_chunks s) (Z.to_nat sl)) as [c|] eqn:E; [|apply nth_error_None in E; lia].
  destruct (match c with Some o => o | None => _ end) as [ox oy] eqn:Eo. cbn [snd].
  destruct (list_set_some (dy_chunks s) (Z.to_nat sl) (Some (ox, oy))) as [l Hl]; [lia|]. rewrite Hl.
  unfold allocated. cbn [dy_chunks]. rewrite (list_set_nth _ _ _ _ Hl).
  destruct (Nat.eqb_spec (Z.to_nat slot) (Z.to_nat sl)) as [Q|Q].
  - split; [intros _; right; lia|]. intros _. eexists. reflexivity.
  - split; [auto|]. intros [X|X]; [exact X|]. subst slot. contradiction.
Qed.
Lemma dyn_run_alloc ops : forall s slot, dyn_inv s -> (forall o, In o ops -> op_inner s o) -> 0 <= slot ->
  allocated (dyn_run s ops) slot <->
  (allocated s slot \/ exists x y t f, In (x, y, t, f) ops /\ slot = (y / 32 + 1) * dy_cw s + (x / 32 + 1)).
Proof.
  induction ops as [|[[[x y] t] f] ops IH]; intros s slot Hs Ho H0.
  { cbn. split; [auto|]. intros [X|(a & b & c & d & [] & _)]. exact X. }
  unfold dyn_run; cbn [fold_left]. change (fold_left _ ops ?a) with (dyn_run a ops).
  destruct (Ho (x, y, t, f)) as [Hi Ht]; [left; reflexivity|].
  pose proof (dyn_lookup_alloc s x y t f slot Hs Hi Ht H0) as A.
  destruct (dyn_lookup_inner s x y t f Hs Hi Ht) as (s' & E & Hs' & Ew & Eh & Ecw).
  rewrite E in A |- *. cbn [snd] in A |- *. rewrite (IH s' slot Hs'); [|intros [[[x1 y1] t1] f1] H1; specialize (Ho _ (or_intror H1)); unfold op_inner, dyn_inner in *; rewrite Ew, Eh; exact Ho|exact H0].
  rewrite A, Ecw. split.
  - intros [[X|X]|(a & b & c & d & X & Y)]; [auto| |]; right; [exists x, y, t, f|exists a, b, c, d]; (split; [|assumption]); [left; reflexivity|right; assumption].
  - intros [X|(a & b & c & d & [X|X] & Y)]; [auto| |]; [injection X as -> -> -> ->; auto|]. right. exists a, b, c, d. auto.
Qed.
Lemma dyn_hasNode_spec : forall w h ops x y t, 0 < w < 2147483000 -> 0 < h < 2147483000 ->
  (forall o, In o ops -> op_inner (dyn_init w h) o) ->
  0 <= x < w + 32 -> 0 <= y < h + 32 -> 0 <= t < 32 ->
  exists b, dyn_hasNode (dyn_run (dyn_init w h) ops) x y t = Found b /\
    (b = true <-> exists x' y' t' f, In (x', y', t', f) ops /\ x' / 32 = x / 32 - 1 /\ y' / 32 = y / 32 - 1).
Proof.
  intros w h ops x y t Hw Hh Ho Hx Hy Ht.
  pose proof (dyn_init_inv w h ltac:(lia) ltac:(lia)) as I0.
  destruct (dyn_run_inv ops (dyn_init w h) I0 Ho) as (A & B & C & D).
  pose proof (fun slot => dyn_run_alloc ops (dyn_init w h) slot I0 Ho) as AL.
  set (s := dyn_run (dyn_init w h) ops) in *. clearbody s. destruct A as (_ & _ & Ecw & Ech & Elen & _). rewrite B, C in *.
  cbn [dyn_init dy_w dy_h] in B, C, Ecw, Ech. 
  unfold dyn_hasNode, padding, dyn_slots, chunk_size. rewrite B, C.
  replace ((x <? - (32)) || (y <? - (32)) || (x >=? w + 32) || (y >=? h + 32) || (t <? 0) || (t >=? 32)) with false by lia.
  cbv zeta. rewrite !u32_id by lia. rewrite !i32_id by lia. set (slot := y / 32 * dy_cw s + x / 32).
  assert (Hcx : 0 <= x / 32 < dy_cw s - 1) by lia. assert (Hcy : 0 <= y / 32 < dy_ch s - 1) by lia.
  assert (Hsl : 0 <= slot < dy_cw s * dy_ch s) by (unfold slot; nia). specialize (AL slot (proj1 Hsl)).
  destruct (nth_error (dy_chunks s) (Z.to_nat slot)) as [c|] eqn:E; [|apply nth_error_None in E; lia].
  eexists. split; [reflexivity|].
  assert (X : (match c with Some _ => true | None => false end) = true <-> allocated s slot).
  { unfold allocated. rewrite E. destruct c as [o|]; [split; [intros _; exists o; reflexivity|reflexivity]|]. split; [discriminate|]. intros [o Q]. discriminate. }
  rewrite X, AL. split.
  - intros [[o Q]|(a & b & u & f & Hin & Es)].
    + exfalso. cbn [dyn_init dy_chunks] in Q. exact (nth_repeat_none _ _ _ Q).
    + exists a, b, u, f. split; [exact Hin|]. rewrite <- D in Es. unfold slot in Es.
      specialize (Ho _ Hin). cbn [op_inner] in Ho. destruct Ho as [[Oa Ob] _]. cbn [dyn_init dy_w dy_h] in Oa, Ob.
      destruct (flat_inj (dy_cw s) (x / 32) (y / 32) (a / 32 + 1) (b / 32 + 1)) as [Q1 Q2]; try lia.
  - intros (a & b & u & f & Hin & E1 & E2). right. exists a, b, u, f. split; [exact Hin|]. rewrite <- D. unfold slot. rewrite E1, E2. f_equal; [f_equal|]; lia.
Qed.

(** ** Dynamic line checks *)
Lemma skip_scan_nil test skips : skip_scan test skips 0 [] = Some false.
Proof. reflexivity. Qed.

(** If the shifted end points leave the map nothing between is looked at. *)
Lemma dyn_isFree_shift_out b m skips sx sy ex ey :
  isInMap m (sx + padding) (sy + padding) = false \/ isInMap m (ex + padding) (ey + padding) = false ->
  dyn_isFree b m skips sx sy ex ey = dyn_isFree1 m ex ey.
Proof.
  intros H. unfold dyn_isFree. destruct (setGrid_out b m _ _ _ _ H) as (b' & -> & Hn & _). cbn [obind].
  unfold seg_fuel. cbn [bwalk]. rewrite Hn. cbn [obind skip_scan]. reflexivity.
Qed.

(** With no skipping and both shifted end points inside the map the check is exact. *)
Lemma skip_scan_0 (test : Z -> Z -> option bool) l :
  (forall b, In b l -> test (i32 (u32 (b_x b - padding))) (i32 (u32 (b_y b - padding))) <> None) ->
  exists r, skip_scan test 0 0 l = Some r /\
   (r = false <-> forall b, In b l -> test (i32 (u32 (b_x b - padding))) (i32 (u32 (b_y b - padding))) = Some false).
Proof.
  induction l as [|b l IH]; intros H; cbn [skip_scan].
  - exists false. split; [reflexivity|]. split; [intros _ b []|reflexivity].
  - cbn [Z.eqb]. destruct IH as (r & Hr & Hiff); [intros b' Hb'; apply H; right; exact Hb'|].
    destruct (test (i32 (u32 (b_x b - padding))) (i32 (u32 (b_y b - padding)))) as [[|]|] eqn:E;
      [| |exfalso; apply (H b); [left; reflexivity|exact E]]; cbn [obind].
    + exists true. split; [reflexivity|]. split; [discriminate|]. intros A.
      rewrite (A b (or_introl eq_refl)) in E. discriminate.
    + cbn [Z.add Z.gtb Z.compare]. exists r. split; [exact Hr|]. rewrite Hiff. split.
      * intros A b' [<-|Hb']; [exact E|apply A, Hb'].
      * intros A b' Hb'. apply A. right; exact Hb'.
Qed.

Lemma i32_u32_shift x : 0 <= x < 536870912 -> i32 (u32 (x - padding)) = x - padding.
Proof. unfold padding, i32, u32. cbv zeta. intros H. destruct (Z.ltb_spec ((x - 32) mod 4294967296 mod 4294967296) 2147483648); lia. Qed.

Lemma dyn_isFree1_some m x y : gm_wf m -> exists q, dyn_isFree1 m x y = Some q.
Proof.
  intros Hwf. unfold dyn_isFree1, dyn_out. destruct Hwf as (Hw & Hh & Hr). rewrite !i32_id by lia.
  destruct ((x <? 0) || (y <? 0) || (x >=? gm_w m) || (y >=? gm_h m)) eqn:E; [eauto|].
  apply isFree_some; [unfold gm_wf; auto|unfold cell_of; lia].
Qed.

Lemma dyn_isFree1_spec m x y : gm_wf m ->
  (dyn_isFree1 m x y = Some true <-> cell_of (gm_w m) (gm_h m) x y /\ isFree m x y = Some true).
Proof.
  intros Hwf. pose proof Hwf as (Hw & Hh & Hr). unfold dyn_isFree1, dyn_out. rewrite !i32_id by lia.
  destruct ((x <? 0) || (y <? 0) || (x >=? gm_w m) || (y >=? gm_h m)) eqn:E.
  - split; [discriminate|]. intros [H _]. unfold cell_of in H. lia.
  - split; [intros H; split; [unfold cell_of; lia|exact H]|intros [_ H]; exact H].
Qed.

Lemma on_segment_shift d xs ys xe ye k x y :
  on_segment (xs + d) (ys + d) (xe + d) (ye + d) k (x + d, y + d) -> on_segment xs ys xe ye k (x, y).
Proof.
  unfold on_segment.
  replace (xe + d - (xs + d)) with (xe - xs) by ring. replace (ye + d - (ys + d)) with (ye - ys) by ring.
  replace (x + d - (xs + d)) with (x - xs) by ring. replace (y + d - (ys + d)) with (y - ys) by ring.
  intros (A & B & C & D & E). repeat split; try lia; assumption.
Qed.

Lemma connected_shift d xe ye l : forall c,
  connected_to (xe + d) (ye + d) (fst c + d, snd c + d) (map (fun c => (fst c + d, snd c + d)) l) ->
  connected_to xe ye c l.
Proof.
  induction l as [|c' l IH]; intros c; cbn [connected_to map fst snd]; [auto|].
  intros (A & B & C & D & E & F). split; [congruence|].
  repeat (split; [lia|]). apply IH. exact F.
Qed.

Lemma dyn_isFree_exact b m sx sy ex ey : gm_wf m -> gm_small m ->
  cell_of (gm_w m) (gm_h m) (sx + 32) (sy + 32) -> cell_of (gm_w m) (gm_h m) (ex + 32) (ey + 32) ->
  exists l r, segment_cells sx sy ex ey l /\
   dyn_isFree b m 0 sx sy ex ey = Some r /\
   (r = true <-> (cell_of (gm_w m) (gm_h m) ex ey /\ isFree m ex ey = Some true) /\
      forall x y, In (x, y) l -> cell_of (gm_w m) (gm_h m) x y /\ isFree m x y = Some true).
Proof.
  intros Hwf Hsm Hs He.
  destruct (line_walk b m (sx + 32) (sy + 32) (ex + 32) (ey + 32) Hwf Hsm Hs He) as (b1 & Hb1 & Hc & Hw).
  assert (Hfuel : blen (sx + 32) (sy + 32) (ex + 32) (ey + 32) < Z.of_nat (seg_fuel sx sy ex ey)).
  { unfold blen, seg_fuel. lia. }
  destruct (Hw _ Hfuel) as (l & Hl & Hlen & Hlast & Hconn & Hon & Hin & _). clear Hw Hfuel.
  set (un := fun c : Z * Z => (fst c - 32, snd c - 32)).
  assert (Hmap : map bcoords l = map (fun c => (fst c + 32, snd c + 32)) (map un (map bcoords l))).
  { rewrite map_map. rewrite <- (map_id (map bcoords l)) at 1. apply map_ext. intros [p q]. unfold un. cbn [fst snd]. f_equal; ring. }
  assert (Hrange : forall b, In b l -> i32 (u32 (b_x b - padding)) = b_x b - 32 /\ i32 (u32 (b_y b - padding)) = b_y b - 32).
  { intros b' Hb'. destruct (Hin b' Hb') as [_ H]. unfold bcoords, cell_of, gm_small in *. cbn [fst snd] in H.
    rewrite !i32_u32_shift by lia. auto. }
  set (test := fun x y => f <- dyn_isFree1 m x y ;; Some (negb f)).
  destruct (skip_scan_0 test l) as (r & Hr & Hiff).
  { intros b' Hb'. unfold test.
    destruct (dyn_isFree1_some m (i32 (u32 (b_x b' - padding))) (i32 (u32 (b_y b' - padding))) Hwf) as [q ->]. discriminate. }
  destruct (dyn_isFree1_some m ex ey Hwf) as [qe Hqe].
  exists (map un (map bcoords l)), (if r then false else qe).
  assert (Hfor : (forall b, In b l -> test (i32 (u32 (b_x b - padding))) (i32 (u32 (b_y b - padding))) = Some false) <->
     (forall x y, In (x, y) (map un (map bcoords l)) -> cell_of (gm_w m) (gm_h m) x y /\ isFree m x y = Some true)).
  { split.
    - intros A x y Hxy. rewrite map_map in Hxy. apply in_map_iff in Hxy. destruct Hxy as (b' & Eb & Hb').
      specialize (A b' Hb'). destruct (Hrange b' Hb') as [R1 R2]. rewrite R1, R2 in A.
      unfold un, bcoords in Eb. cbn [fst snd] in Eb. injection Eb as <- <-. unfold test in A.
      apply dyn_isFree1_spec; [exact Hwf|].
      destruct (dyn_isFree1 m (b_x b' - 32) (b_y b' - 32)) as [[|]|]; cbn in A; congruence.
    - intros A b' Hb'. destruct (Hrange b' Hb') as [R1 R2]. rewrite R1, R2. unfold test.
      assert (dyn_isFree1 m (b_x b' - 32) (b_y b' - 32) = Some true) as ->; [|reflexivity].
      apply dyn_isFree1_spec; [exact Hwf|]. apply A. rewrite map_map. apply in_map_iff. exists b'. split; [reflexivity|exact Hb']. }
  split; [|split].
  - unfold segment_cells. split; [|split; [|split]].
    + rewrite !map_length. rewrite Hlen. unfold blen. f_equal; f_equal; ring.
    + destruct (map bcoords l) as [|c0 l0] eqn:El.
      * cbn in *. injection Hlast as E1 E2. f_equal; lia.
      * rewrite <- El in *. assert (Hne : map bcoords l <> []) by (rewrite El; discriminate).
        rewrite (app_removelast_last (sx, sy) Hne), map_app. cbn [map]. rewrite last_last.
        rewrite (app_removelast_last (sx, sy) Hne), last_last in Hlast. rewrite Hlast. unfold un. cbn [fst snd]. f_equal; ring.
    + apply (connected_shift 32). cbn [fst snd]. rewrite <- Hmap. exact Hconn.
    + intros n [px py] Hn. apply (on_segment_shift 32). apply (Hon n).
      rewrite Hmap. destruct n as [|n]; cbn in *; [injection Hn as <- <-; reflexivity|].
      rewrite nth_error_map. rewrite Hn. reflexivity.
  - unfold dyn_isFree. fold padding in Hb1. rewrite Hb1. cbn [obind]. rewrite Hl. cbn [obind].
    fold test. rewrite Hr. cbn [obind]. destruct r; [reflexivity|]. exact Hqe.
  - rewrite <- Hfor, <- Hiff. rewrite <- (dyn_isFree1_spec m ex ey Hwf), Hqe.
    destruct r; split; intros H; try discriminate; try (destruct H; discriminate).
    + subst qe. auto.
    + destruct H as [H _]. congruence.
Qed.
