(** C64: the maze generator makes perfect mazes. *)
From Verif Require Import Base MazeModel MazeTree MazeProofs.

(** ** Specification *)
(** A perfect maze on the rooms of a [w] x [h] grid: only rooms that share a wall are
    joined, and between any two rooms there is exactly one route without repetition. *)
Definition perfect_maze (w h : Z) (E : list (room * room)) : Prop :=
  (forall a b, joined E a b -> in_grid w h a /\ in_grid w h b /\ beside a b) /\
  (forall a b, in_grid w h a -> in_grid w h b -> exists l, route E a l b /\ NoDup l /\ forall l', route E a l' b -> NoDup l' -> l' = l).

Definition pixel : Type := (Z * Z)%type.
(** The pixels of room [a], for rooms [W] pixels apart with walls of [b] pixels. *)
Definition room_px (W b : Z) (a : room) (p : pixel) : Prop :=
  fst a * W + b / 2 <= fst p < (fst a + 1) * W + b / 2 - b /\ snd a * W + b / 2 <= snd p < (snd a + 1) * W + b / 2 - b.
(** The smallest box around the rooms [a] and [c]. *)
Definition box_px (W b : Z) (a c : room) (p : pixel) : Prop :=
  Z.min (fst a) (fst c) * W + b / 2 <= fst p < (Z.max (fst a) (fst c) + 1) * W + b / 2 - b /\
  Z.min (snd a) (snd c) * W + b / 2 <= snd p < (Z.max (snd a) (snd c) + 1) * W + b / 2 - b.
(** The doorway between two rooms: their box without the rooms. *)
Definition door_px (W b : Z) (a c : room) (p : pixel) : Prop := box_px W b a c p /\ ~ room_px W b a p /\ ~ room_px W b c p.

(** Walks over white pixels with steps to one of the 4 or 8 neighbours. *)
Definition step4 (p q : pixel) : Prop := Z.abs (fst p - fst q) + Z.abs (snd p - snd q) = 1.
Definition step8 (p q : pixel) : Prop := Z.abs (fst p - fst q) <= 1 /\ Z.abs (snd p - snd q) <= 1.
Inductive walk (step : pixel -> pixel -> Prop) (i : img) : pixel -> list pixel -> pixel -> Prop :=
| walk_here p : i p = true -> walk step i p [p] p
| walk_go p q l r : i p = true -> step p q -> walk step i q l r -> walk step i p (p :: l) r.

Definition all_black : img := fun _ => false.
(** Every direction is sampled again and again. *)
Definition fair (rnd : nat -> Z) : Prop := forall n k, 0 <= n < 4 -> exists j, (k <= j)%nat /\ rnd j mod 4 = n.

(** ** Geometry *)
Lemma half_mid z W : (cv_half (2 * z + W) = z + W / 2 \/ cv_half (2 * z + W) = z + W / 2 + 1 /\ W mod 2 = 1) /\ cv_half (2 * z) = z.
Proof.
  assert (H : forall t, cv_half t = t / 2 \/ cv_half t = t / 2 + 1 /\ t mod 2 = 1).
  { intros t. unfold cv_half. pose proof (Zmod_even t) as E. destruct (Z.even t); [left; reflexivity|].
    destruct (Z.even (t / 2)); [left; reflexivity|right; split; [reflexivity|exact E]]. }
  split; [|destruct (H (2 * z)) as [->|[_ X]]; lia]. destruct (H (2 * z + W)) as [->|[-> X]]; [left|right]; lia.
Qed.
Lemma rect_for_px W b a p : 0 <= b -> (in_rect (rect_for W b a) p = true <-> room_px W b a p).
Proof. intros B. unfold in_rect, rect_for, room_px. cbn [rc_x rc_y rc_w rc_h]. rewrite Z.quot_div_nonneg by lia. rewrite !andb_true_iff, !Z.leb_le, !Z.ltb_lt. lia. Qed.

Section Pixels.
  Variables W b : Z.
  Hypothesis Hb : 1 <= b.
  Hypothesis HW : 2 * b <= W.

  Lemma middle_cover a c p : beside a c ->
    (in_rect (rect_for W b a) p = true \/ in_rect (rect_middle (rect_for W b a) (rect_for W b c)) p = true \/ in_rect (rect_for W b c) p = true <-> box_px W b a c p).
  Proof using Hb HW.
    intros N. destruct a as [ax ay], c as [cx cy]. unfold beside in N. cbn [fst snd] in N.
    unfold in_rect, rect_middle, rect_for, box_px. cbn [rc_x rc_y rc_w rc_h fst snd]. rewrite !Z.quot_div_nonneg by lia. set (o := b / 2). clearbody o. destruct p as [px py]. cbn [fst snd].
    assert (C : (cx = ax - 1 /\ cy = ay) \/ (cx = ax /\ cy = ay - 1) \/ (cx = ax + 1 /\ cy = ay) \/ (cx = ax /\ cy = ay + 1)) by lia.
    assert (Mid : forall z z', z' = z + 1 -> exists e, (cv_half (z * W + o + (z' * W + o)) = z * W + o + e) /\ (cv_half (z' * W + o + (z * W + o)) = z * W + o + e) /\ b <= e <= W - b).
    { intros z z' ->. destruct (half_mid (z * W + o) W) as [[H|[H X]] _]; [exists (W / 2)|exists (W / 2 + 1)].
      all: replace (z * W + o + ((z + 1) * W + o)) with (2 * (z * W + o) + W) by ring; replace ((z + 1) * W + o + (z * W + o)) with (2 * (z * W + o) + W) by ring; rewrite H; lia. }
    assert (Same : forall z, cv_half (z * W + o + (z * W + o)) = z * W + o).
    { intros z. replace (z * W + o + (z * W + o)) with (2 * (z * W + o)) by ring. apply half_mid. exact 0. }
    rewrite !andb_true_iff, !Z.leb_le, !Z.ltb_lt.
    destruct C as [[-> ->]|[[-> ->]|[[-> ->]|[-> ->]]]]; rewrite Same.
    - destruct (Mid (ax - 1) ax ltac:(lia)) as (e & _ & -> & B). replace (Z.min ax (ax - 1)) with (ax - 1) by lia. replace (Z.max ax (ax - 1)) with ax by lia. rewrite Z.min_id, Z.max_id. lia.
    - destruct (Mid (ay - 1) ay ltac:(lia)) as (e & _ & -> & B). replace (Z.min ay (ay - 1)) with (ay - 1) by lia. replace (Z.max ay (ay - 1)) with ay by lia. rewrite Z.min_id, Z.max_id. lia.
    - destruct (Mid ax (ax + 1) ltac:(lia)) as (e & -> & _ & B). replace (Z.min ax (ax + 1)) with ax by lia. replace (Z.max ax (ax + 1)) with (ax + 1) by lia. rewrite Z.min_id, Z.max_id. lia.
    - destruct (Mid ay (ay + 1) ltac:(lia)) as (e & -> & _ & B). replace (Z.min ay (ay + 1)) with ay by lia. replace (Z.max ay (ay + 1)) with (ay + 1) by lia. rewrite Z.min_id, Z.max_id. lia.
  Qed.
  Definition on_image (rows cols : Z) (p : pixel) : Prop := 0 <= fst p < cols /\ 0 <= snd p < rows.
  Lemma fill_spec rows cols i r p : fill rows cols i r p = true <-> i p = true \/ (on_image rows cols p /\ in_rect r p = true).
  Proof using Type.
    clear. unfold fill, on_image. destruct (_ && in_rect r p) eqn:E.
    - split; [|reflexivity]. intros _. right. rewrite !andb_true_iff in E. destruct E as [[[[E1 E2] E3] E4] E5]. split; [lia|exact E5].
    - split; [intros H; left; exact H|]. intros [H|[H F]]; [exact H|]. rewrite F, andb_true_r in E. exfalso. lia.
  Qed.
  Lemma carve_spec rows cols i E p : (forall a c, In (a, c) E -> beside a c) ->
    (carve rows cols W b i E p = true <-> i p = true \/ (on_image rows cols p /\ exists a c, In (a, c) E /\ box_px W b a c p)).
  Proof using Hb HW.
    induction E as [|[a c] E IH]; intros N; cbn [carve].
    - split; [intros H; left; exact H|]. intros [H|[_ (a & c & [] & _)]]. exact H.
    - unfold remove_walls. cbv zeta. cbn [fst snd]. rewrite !fill_spec, IH by (intros x y X; apply N; right; exact X).
      pose proof (middle_cover a c p (N a c (or_introl eq_refl))) as M. split.
      + intros [[[[H|[O (x & y & X & B)]]|[O R]]|[O R]]|[O R]]; [left; exact H| | | |]; right; (split; [exact O|]).
        * exists x, y. split; [right; exact X|exact B].
        * exists a, c. split; [left; reflexivity|]. apply M. tauto.
        * exists a, c. split; [left; reflexivity|]. apply M. tauto.
        * exists a, c. split; [left; reflexivity|]. apply M. tauto.
      + intros [H|[O (x & y & [X|X] & B)]]; [tauto| |].
        * injection X as <- <-. apply M in B. tauto.
        * left. left. left. right. split; [exact O|]. exists x, y. split; assumption.
  Qed.

  (** Neighbouring pixels belong to the same room or to connections that share a room. *)
  Lemma near_line x x' p q : Z.abs (p - q) <= 1 -> forall n n', 0 <= n -> 0 <= n' -> x * W <= p < (x + n + 1) * W - b -> x' * W <= q < (x' + n' + 1) * W - b -> x' <= x + n /\ x <= x' + n'.
  Proof using Hb HW. intros D n n' N N' P Q. split; nia. Qed.
  Lemma near_box a c a' c' p q : beside a c -> beside a' c' -> step8 p q -> box_px W b a c p -> box_px W b a' c' q -> a = a' \/ a = c' \/ c = a' \/ c = c'.
  Proof using Hb HW.
    intros N N' [D1 D2] [B1 B2] [B1' B2']. destruct a as [ax ay], c as [cx cy], a' as [ax' ay'], c' as [cx' cy'], p as [px py], q as [qx qy]. unfold beside in *. cbn [fst snd] in *.
    destruct (near_line (Z.min ax cx) (Z.min ax' cx') (px - b / 2) (qx - b / 2) ltac:(lia) (Z.max ax cx - Z.min ax cx) (Z.max ax' cx' - Z.min ax' cx')) as [X1 X2]; [lia|lia| | |].
    { replace (Z.min ax cx + (Z.max ax cx - Z.min ax cx) + 1) with (Z.max ax cx + 1) by ring. lia. }
    { replace (Z.min ax' cx' + (Z.max ax' cx' - Z.min ax' cx') + 1) with (Z.max ax' cx' + 1) by ring. lia. }
    destruct (near_line (Z.min ay cy) (Z.min ay' cy') (py - b / 2) (qy - b / 2) ltac:(lia) (Z.max ay cy - Z.min ay cy) (Z.max ay' cy' - Z.min ay' cy')) as [Y1 Y2]; [lia|lia| | |].
    { replace (Z.min ay cy + (Z.max ay cy - Z.min ay cy) + 1) with (Z.max ay cy + 1) by ring. lia. }
    { replace (Z.min ay' cy' + (Z.max ay' cy' - Z.min ay' cy') + 1) with (Z.max ay' cy' + 1) by ring. lia. }
    clear -N N' X1 X2 Y1 Y2. assert (C : (ax = ax' /\ ay = ay') \/ (ax = cx' /\ ay = cy') \/ (cx = ax' /\ cy = ay') \/ (cx = cx' /\ cy = cy')) by lia.
    destruct C as [[-> ->]|[[-> ->]|[[-> ->]|[-> ->]]]]; tauto.
  Qed.
  Lemma near_room a a' c' p q : beside a' c' -> step8 p q -> room_px W b a p -> box_px W b a' c' q -> a = a' \/ a = c'.
  Proof using Hb HW.
    intros N' [D1 D2] [B1 B2] [B1' B2']. destruct a as [ax ay], a' as [ax' ay'], c' as [cx' cy'], p as [px py], q as [qx qy]. unfold beside in *. cbn [fst snd] in *.
    destruct (near_line ax (Z.min ax' cx') (px - b / 2) (qx - b / 2) ltac:(lia) 0 (Z.max ax' cx' - Z.min ax' cx')) as [X1 X2]; [lia|lia| | |].
    { rewrite Z.add_0_r. lia. }
    { replace (Z.min ax' cx' + (Z.max ax' cx' - Z.min ax' cx') + 1) with (Z.max ax' cx' + 1) by ring. lia. }
    destruct (near_line ay (Z.min ay' cy') (py - b / 2) (qy - b / 2) ltac:(lia) 0 (Z.max ay' cy' - Z.min ay' cy')) as [Y1 Y2]; [lia|lia| | |].
    { rewrite Z.add_0_r. lia. }
    { replace (Z.min ay' cy' + (Z.max ay' cy' - Z.min ay' cy') + 1) with (Z.max ay' cy' + 1) by ring. lia. }
    clear -N' X1 X2 Y1 Y2. assert (C : (ax = ax' /\ ay = ay') \/ (ax = cx' /\ ay = cy')) by lia.
    destruct C as [[-> ->]|[-> ->]]; tauto.
  Qed.
  Lemma near_rooms a c p q : step8 p q -> room_px W b a p -> room_px W b c q -> a = c.
  Proof using Hb HW.
    intros [D1 D2] [B1 B2] [B1' B2']. destruct a as [ax ay], c as [cx cy], p as [px py], q as [qx qy]. cbn [fst snd] in *.
    destruct (near_line ax cx (px - b / 2) (qx - b / 2) ltac:(lia) 0 0) as [X1 X2]; [lia|lia|rewrite Z.add_0_r; lia|rewrite Z.add_0_r; lia|].
    destruct (near_line ay cy (py - b / 2) (qy - b / 2) ltac:(lia) 0 0) as [Y1 Y2]; [lia|lia|rewrite Z.add_0_r; lia|rewrite Z.add_0_r; lia|].
    f_equal; lia.
  Qed.
  Lemma room_box a c p : beside a c -> room_px W b a p \/ room_px W b c p -> box_px W b a c p.
  Proof using Hb HW.
    intros N. destruct a as [ax ay], c as [cx cy], p as [px py]. unfold beside, room_px, box_px in *. cbn [fst snd] in *. set (o := b / 2). clearbody o.
    intros H. destruct (Z.min_spec ax cx) as [[A ->]|[A ->]], (Z.max_spec ax cx) as [[A' ->]|[A' ->]], (Z.min_spec ay cy) as [[B ->]|[B ->]], (Z.max_spec ay cy) as [[B' ->]|[B' ->]]; destruct H; split; nia.
  Qed.
  Lemma room_dec_px a p : room_px W b a p \/ ~ room_px W b a p.
  Proof using Type. clear. unfold room_px. lia. Qed.

  (** All pixels of a box are connected inside the box. *)
  Lemma box_walk i x1 x2 y1 y2 : (forall p, x1 <= fst p < x2 -> y1 <= snd p < y2 -> i p = true) ->
    forall p q, x1 <= fst p < x2 -> y1 <= snd p < y2 -> x1 <= fst q < x2 -> y1 <= snd q < y2 -> exists l, walk step4 i p l q.
  Proof using Type.
    clear. intros White p q P1 P2 Q1 Q2. remember (Z.to_nat (Z.abs (fst p - fst q) + Z.abs (snd p - snd q))) as n eqn:En.
    revert p P1 P2 En. induction n as [|n IH]; intros [px py] P1 P2 En; destruct q as [qx qy]; cbn [fst snd] in *.
    - exists [(px, py)]. assert (px = qx) as -> by lia. assert (py = qy) as -> by lia. apply walk_here. apply White; cbn [fst snd]; lia.
    - assert (Go : exists p', step4 (px, py) p' /\ x1 <= fst p' < x2 /\ y1 <= snd p' < y2 /\ n = Z.to_nat (Z.abs (fst p' - qx) + Z.abs (snd p' - qy))).
      { unfold step4. destruct (Z.lt_trichotomy px qx) as [X|[X|X]].
        - exists (px + 1, py). cbn [fst snd]. lia.
        - destruct (Z.lt_ge_cases py qy); [exists (px, py + 1)|exists (px, py - 1)]; cbn [fst snd]; lia.
        - exists (px - 1, py). cbn [fst snd]. lia. }
      destruct Go as (p' & S0 & A & B & C). destruct (IH p' A B C) as [l L]. exists ((px, py) :: l). eapply walk_go; [apply White; cbn [fst snd]; lia|exact S0|exact L].
  Qed.
End Pixels.

Lemma walk_app step i p l q k r : walk step i p l q -> walk step i q k r -> exists j, walk step i p j r.
Proof.
  induction 1 as [p H|p q l s H S0 R IH]; intros K; [exists k; exact K|]. destruct (IH K) as [j J]. exists (p :: j). eapply walk_go; [exact H|exact S0|exact J].
Qed.
Lemma walk_first step i p l q : walk step i p l q -> i p = true.
Proof. intros [x H|x y t z H _ _]; exact H. Qed.

(** The run that the theorems are about: [m] was constructed with a width of at least 2
    pixels, and the start lies in one of its rooms' squares. *)
Definition good_start (m : maze) (sx sy : Z) : Prop :=
  2 <= mz_arg m /\ 0 <= mz_rows m /\ 0 <= mz_cols m /\ 0 <= sx < mz_h m * mz_arg m /\ 0 <= sy < mz_w m * mz_arg m.
Lemma good_room m sx sy : good_start m sx sy -> 0 <= mz_w m /\ 0 <= mz_h m /\ mz_width m = mz_arg m /\
  in_grid (mz_w m) (mz_h m) (Z.quot sx (mz_width m), Z.quot sy (mz_width m)).
Proof.
  intros (A & R & C & X & Y). assert (E : mz_width m = mz_arg m) by (unfold mz_width; lia). rewrite E. unfold in_grid. cbn [fst snd].
  assert (0 <= mz_w m) by (unfold mz_w; apply Z.quot_pos; lia). assert (0 <= mz_h m) by (unfold mz_h; apply Z.quot_pos; lia). split; [assumption|]. split; [assumption|]. split; [reflexivity|].
  rewrite !Z.quot_div_nonneg by lia. split; (split; [apply Z.div_pos; lia|apply Z.div_lt_upper_bound; nia]).
Qed.
Lemma run_state m sx sy rnd k r : good_start m sx sy -> mz_steps m rnd k (mz_start m mz_fresh sx sy) = r -> fine m r.
Proof.
  intros G <-. destruct (good_room m sx sy G) as (Hw & Hh & _ & Hs). apply fine_steps; [exact Hw|exact Hh|].
  destruct (inv_start m Hw Hh sx sy _ eq_refl Hs) as (st & E & I). eexists _, st. split; [exact I|]. left. exact E.
Qed.
Lemma run_finished m sx sy rnd k st : good_start m sx sy -> mz_steps m rnd k (mz_start m mz_fresh sx sy) = Finished st ->
  exists V, inv m V st /\ forall p, in_grid (mz_w m) (mz_h m) p -> In p V.
Proof.
  intros G E. destruct (run_state m sx sy rnd k _ G E) as (V & st' & I & [H|[H L]]); [discriminate|]. injection H as <-.
  destruct (good_room m sx sy G) as (Hw & Hh & _). exists V. split; [exact I|]. exact (inv_full m Hw Hh V st I L).
Qed.

(** ** C64: the theorems *)
(** When run() returns, the maze is perfect; it removed one wall fewer than there are rooms. *)
Theorem C64_perfect : forall m sx sy rnd k st, good_start m sx sy -> mz_steps m rnd k (mz_start m mz_fresh sx sy) = Finished st ->
  perfect_maze (mz_w m) (mz_h m) (ms_joined st) /\ Z.of_nat (length (ms_joined st)) = mz_n m - 1.
Proof.
  intros m sx sy rnd k st G E. destruct (run_finished m sx sy rnd k st G E) as (V & I & Full). destruct (good_room m sx sy G) as (Hw & Hh & _). split; [split|].
  - intros a b J. destruct (grown_in _ _ (i_tree _ _ _ I) a b J) as [A B]. split; [apply (i_grid _ _ _ I), A|]. split; [apply (i_grid _ _ _ I), B|].
    destruct J as [J|J]; [apply (i_beside _ _ _ I), J|]. pose proof (i_beside _ _ _ I _ _ J) as X. unfold beside in *. lia.
  - intros a b A B. apply (grown_unique _ _ (i_tree _ _ _ I)); apply Full; assumption.
  - pose proof (grown_length _ _ (i_tree _ _ _ I)) as L. assert (L1 : (length V <= length (rooms (mz_w m) (mz_h m)))%nat).
    { apply NoDup_incl_length; [apply (grown_nodup _ _ (i_tree _ _ _ I))|intros q Q; apply rooms_in, (i_grid _ _ _ I), Q]. }
    assert (L2 : (length (rooms (mz_w m) (mz_h m)) <= length V)%nat).
    { apply NoDup_incl_length; [apply rooms_nodup|intros q Q; apply Full, rooms_in, Q]. }
    pose proof (rooms_length _ _ Hw Hh). unfold mz_n. lia.
Qed.
Print Assumptions C64_perfect.
(** It does return if the random source is fair, never accesses anything outside its array
    and never has to look for a new room to start from. *)
Theorem C64_ends : forall m sx sy rnd, good_start m sx sy ->
  (forall k, mz_steps m rnd k (mz_start m mz_fresh sx sy) <> Undefined) /\
  (forall k x y st, mz_steps m rnd k (mz_start m mz_fresh sx sy) <> Going (Scanning x y) st) /\
  (fair rnd -> exists k st, mz_steps m rnd k (mz_start m mz_fresh sx sy) = Finished st).
Proof.
  intros m sx sy rnd G. split; [|split].
  - intros k E. destruct (run_state m sx sy rnd k _ G E) as (V & st & _ & [H|[H _]]); discriminate.
  - intros k x y st E. destruct (run_state m sx sy rnd k _ G E) as (V & st' & _ & [H|[H _]]); discriminate.
  - intros F. destruct (good_room m sx sy G) as (Hw & Hh & _ & Hs). destruct (inv_start m Hw Hh sx sy _ eq_refl Hs) as (st & E & I).
    rewrite E. apply (ends m Hw Hh rnd F _ st I).
Qed.
Print Assumptions C64_ends.

Lemma border_ok m : 2 <= mz_arg m -> 1 <= mz_border m /\ 2 * mz_border m <= mz_arg m.
Proof. intros A. unfold mz_border. rewrite Z.quot_div_nonneg by lia. lia. Qed.
Lemma box_on m a c p : 2 <= mz_arg m -> 0 <= mz_rows m -> 0 <= mz_cols m -> in_grid (mz_w m) (mz_h m) a -> in_grid (mz_w m) (mz_h m) c ->
  box_px (mz_arg m) (mz_border m) a c p -> on_image (mz_rows m) (mz_cols m) p.
Proof.
  intros A R C [X Y] [X' Y'] [B1 B2]. pose proof (border_ok m A) as Bo. set (W := mz_arg m) in *. set (b := mz_border m) in *.
  assert (mz_h m * W <= mz_cols m). { unfold mz_h. fold W. rewrite Z.quot_div_nonneg by lia. rewrite Z.mul_comm. apply Z.mul_div_le. lia. }
  assert (mz_w m * W <= mz_rows m). { unfold mz_w. fold W. rewrite Z.quot_div_nonneg by lia. rewrite Z.mul_comm. apply Z.mul_div_le. lia. }
  assert (0 <= b / 2 <= b) by lia. set (o := b / 2) in *. clearbody W b o.
  assert (0 <= Z.min (fst a) (fst c) * W) by (apply Z.mul_nonneg_nonneg; lia). assert (0 <= Z.min (snd a) (snd c) * W) by (apply Z.mul_nonneg_nonneg; lia).
  assert ((Z.max (fst a) (fst c) + 1) * W <= mz_h m * W) by (apply Z.mul_le_mono_nonneg_r; lia). assert ((Z.max (snd a) (snd c) + 1) * W <= mz_w m * W) by (apply Z.mul_le_mono_nonneg_r; lia).
  unfold on_image. lia.
Qed.

(** What a black image looks like afterwards: white are the rooms and the doorways of the
    removed walls (if there is more than one room). *)
Theorem C64_image : forall m sx sy rnd k st p, good_start m sx sy -> mz_steps m rnd k (mz_start m mz_fresh sx sy) = Finished st -> 2 <= mz_n m ->
  (mz_image m all_black st p = true <->
   (exists a, in_grid (mz_w m) (mz_h m) a /\ room_px (mz_arg m) (mz_border m) a p) \/
   (exists a c, joined (ms_joined st) a c /\ door_px (mz_arg m) (mz_border m) a c p)).
Proof.
  intros m sx sy rnd k st p G E N2. destruct (run_finished m sx sy rnd k st G E) as (V & I & Full). destruct (good_room m sx sy G) as (Hw & Hh & Ew & _).
  destruct (C64_perfect m sx sy rnd k st G E) as [[Pj Pr] _]. destruct G as (A & R & C & _). destruct (border_ok m A) as [B1 B2].
  unfold mz_image. rewrite Ew, carve_spec by (try assumption; apply (i_beside _ _ _ I)). split.
  - intros [H|[O (a & c & J & B)]]; [discriminate|]. destruct (room_dec_px (mz_arg m) (mz_border m) a p) as [Ra|Ra].
    { left. exists a. split; [apply (Pj a c), or_introl, J|exact Ra]. }
    destruct (room_dec_px (mz_arg m) (mz_border m) c p) as [Rc|Rc].
    { left. exists c. split; [apply (Pj a c), or_introl, J|exact Rc]. }
    right. exists a, c. split; [left; exact J|]. split; [exact B|split; assumption].
  - assert (Box : forall a c, joined (ms_joined st) a c -> box_px (mz_arg m) (mz_border m) a c p -> all_black p = true \/ (on_image (mz_rows m) (mz_cols m) p /\ exists a c, In (a, c) (ms_joined st) /\ box_px (mz_arg m) (mz_border m) a c p)).
    { intros a c J B. right. destruct (Pj a c J) as (Ga & Gc & _). split; [exact (box_on m a c p A R C Ga Gc B)|].
      destruct J as [J|J]; [exists a, c|exists c, a]; (split; [exact J|]); [exact B|]. unfold box_px in *. rewrite (Z.min_comm (fst c)), (Z.max_comm (fst c)), (Z.min_comm (snd c)), (Z.max_comm (snd c)). exact B. }
    intros [(a & Ga & Ra)|(a & c & J & B & _)]; [|apply (Box a c J B)].
    (* a room is joined with another one *)
    assert (X : exists c, in_grid (mz_w m) (mz_h m) c /\ c <> a).
    { unfold mz_n in N2. destruct a as [x y]. unfold in_grid in *. cbn [fst snd] in *. destruct (Z.eq_dec (mz_h m) 1) as [Eh|Eh].
      - rewrite Eh in N2. exists (x, if y =? 0 then 1 else 0). cbn [fst snd]. destruct (Z.eqb_spec y 0); (split; [lia|congruence]).
      - exists ((if x =? 0 then 1 else 0), y). cbn [fst snd]. destruct (Z.eqb_spec x 0); (split; [lia|congruence]). }
    destruct X as (c & Gc & Nc). destruct (Pr a c Ga Gc) as (l & Rt & _). inversion Rt as [a' E1 E2 E3|a' d t c' J Rt' E1 E2 E3]; [congruence|].
    apply (Box a d J). apply room_box; [assumption|assumption|apply (Pj a d J)|left; exact Ra].
Qed.
Print Assumptions C64_image.

(** The image of connected rooms is connected. *)
Lemma rooms_connected : forall W b, 1 <= b -> 2 * b <= W -> forall E i, (forall a c, joined E a c -> beside a c) ->
  (forall x, i x = true -> exists a c, In (a, c) E /\ box_px W b a c x) -> (forall a c, joined E a c -> forall x, box_px W b a c x -> i x = true) ->
  (forall a c a' c', In (a, c) E -> In (a', c') E -> exists l, route E a l a') ->
  forall p q, i p = true -> i q = true -> exists l, walk step4 i p l q.
Proof.
  intros W b B1 B2 E i Nj Spec Box Pr p q.
  assert (Bw : forall a c, joined E a c -> forall x y, box_px W b a c x -> box_px W b a c y -> exists l, walk step4 i x l y).
  { intros a c J x y [X1 X2] [Y1 Y2]. eapply (box_walk i); [|exact X1|exact X2|exact Y1|exact Y2]. intros z Z1 Z2. apply (Box a c J). split; assumption. }
  pose (corner := fun a : room => (fst a * W + b / 2, snd a * W + b / 2)). assert (Cr : forall a, room_px W b a (corner a)) by (intros a; unfold room_px, corner; cbn [fst snd]; lia).
  assert (Rw : forall a l c, route E a l c -> i (corner a) = true -> exists l, walk step4 i (corner a) l (corner c)).
  { induction 1 as [a|a d t c J Rt IH]; intros Wa; [exists [corner a]; apply walk_here, Wa|].
    assert (Na : beside a d) by apply (Nj a d J). assert (Ba : box_px W b a d (corner a)) by (apply room_box; [assumption|assumption|exact Na|left; apply Cr]).
    assert (Bd : box_px W b a d (corner d)) by (apply room_box; [assumption|assumption|exact Na|right; apply Cr]).
    destruct (Bw a d J _ _ Ba Bd) as [l1 L1]. destruct (IH (Box a d J _ Bd)) as [l2 L2]. apply (walk_app _ _ _ _ _ _ _ L1 L2). }
  intros P Q. destruct (Spec p P) as (a & c & Jp & Bp). destruct (Spec q Q) as (a' & c' & Jq & Bq).
  assert (Na : beside a c) by apply (Nj a c (or_introl Jp)). assert (Na' : beside a' c') by apply (Nj a' c' (or_introl Jq)).
  assert (Ba : box_px W b a c (corner a)) by (apply room_box; [assumption|assumption|exact Na|left; apply Cr]).
  assert (Ba' : box_px W b a' c' (corner a')) by (apply room_box; [assumption|assumption|exact Na'|left; apply Cr]).
  destruct (Bw a c (or_introl Jp) p (corner a) Bp Ba) as [l1 L1]. destruct (Bw a' c' (or_introl Jq) (corner a') q Ba' Bq) as [l3 L3].
  destruct (Pr a c a' c' Jp Jq) as (l & Rt).
  destruct (Rw a l a' Rt (Box a c (or_introl Jp) _ Ba)) as [l2 L2]. destruct (walk_app _ _ _ _ _ _ _ L1 L2) as [l4 L4]. apply (walk_app _ _ _ _ _ _ _ L4 L3).
Qed.

(** All white pixels are connected, even without diagonal steps. *)
Theorem C64_connected : forall m sx sy rnd k st p q, good_start m sx sy -> mz_steps m rnd k (mz_start m mz_fresh sx sy) = Finished st ->
  mz_image m all_black st p = true -> mz_image m all_black st q = true -> exists l, walk step4 (mz_image m all_black st) p l q.
Proof.
  intros m sx sy rnd k st p q G E. destruct (run_finished m sx sy rnd k st G E) as (V & I & Full). destruct (good_room m sx sy G) as (Hw & Hh & Ew & _).
  destruct (C64_perfect m sx sy rnd k st G E) as [[Pj Pr] _]. destruct G as (A & R & C & _). destruct (border_ok m A) as [B1 B2].
  set (i := mz_image m all_black st). assert (Spec : forall x, i x = true <-> (on_image (mz_rows m) (mz_cols m) x /\ exists a c, In (a, c) (ms_joined st) /\ box_px (mz_arg m) (mz_border m) a c x)).
  { intros x. unfold i, mz_image. rewrite Ew, carve_spec by (try assumption; apply (i_beside _ _ _ I)). unfold all_black. split; [intros [H|H]; [discriminate|exact H]|intros H; right; exact H]. }
  clearbody i. set (W := mz_arg m) in *. set (b := mz_border m) in *.
  assert (Box : forall a c, joined (ms_joined st) a c -> forall x, box_px W b a c x -> i x = true).
  { intros a c J x B. apply Spec. destruct (Pj a c J) as (Ga & Gc & _). split; [exact (box_on m a c x A R C Ga Gc B)|].
    destruct J as [J|J]; [exists a, c|exists c, a]; (split; [exact J|]); [exact B|]. unfold box_px in *. rewrite (Z.min_comm (fst c)), (Z.max_comm (fst c)), (Z.min_comm (snd c)), (Z.max_comm (snd c)). exact B. }
  apply (rooms_connected W b B1 B2 (ms_joined st) i); [intros x y J; apply (Pj x y J)|intros x X; apply Spec, X|exact Box|].
  intros a c a' c' J J'. destruct (Pr a a') as (l & Rt & _); [apply (Pj a c (or_introl J))|apply (Pj a' c' (or_introl J'))|]. exists l. exact Rt.
Qed.
Print Assumptions C64_connected.

(** In the image of a tree of rooms every walk between joined rooms uses their doorway. *)
Lemma tree_one_way : forall W b, 1 <= b -> 2 * b <= W -> forall V E i, grown V E -> (forall a c, In (a, c) E -> beside a c) ->
  (forall x, i x = true -> exists a c, In (a, c) E /\ box_px W b a c x) ->
  forall a c p l q, joined E a c -> room_px W b a p -> room_px W b c q -> walk step8 i p l q -> exists d, In d l /\ door_px W b a c d.
Proof.
  intros W b B1 B2 V E i Gr Nb Spec. assert (Main : forall a c, In (a, c) E -> forall p l q, walk step8 i p l q ->
    (room_px W b a p /\ room_px W b c q) \/ (room_px W b c p /\ room_px W b a q) -> exists d, In d l /\ door_px W b a c d).
  { intros a c J p l q Wk Ends. destruct (grown_sides _ _ Gr a c J) as (side & Sa & Sc & Same).
    pose (on := fun (x : pixel) (t : bool) => (exists z, room_px W b z x /\ side z = t) \/ (exists z z', In (z, z') E /\ (z, z') <> (a, c) /\ box_px W b z z' x /\ side z = t)).
    assert (Agree : forall x y t t', step8 x y -> on x t -> on y t' -> t = t').
    { intros x y t t' S0 [(z & Rz & <-)|(z & z' & Jz & Nz & Bz & <-)] [(u & Ru & <-)|(u & u' & Ju & Nu & Bu & <-)].
      - rewrite (near_rooms W b B1 B2 z u x y S0 Rz Ru). reflexivity.
      - pose proof (Same u u' Ju Nu). destruct (near_room W b B1 B2 z u u' x y (Nb _ _ Ju) S0 Rz Bu); congruence.
      - assert (S1 : step8 y x) by (unfold step8 in *; lia). pose proof (Same z z' Jz Nz). destruct (near_room W b B1 B2 u z z' y x (Nb _ _ Jz) S1 Ru Bz); congruence.
      - pose proof (Same u u' Ju Nu). pose proof (Same z z' Jz Nz).
        destruct (near_box W b B1 B2 z z' u u' x y (Nb _ _ Jz) (Nb _ _ Ju) S0 Bz Bu) as [X|[X|[X|X]]]; congruence. }
    assert (Some_t : forall x, i x = true -> door_px W b a c x \/ exists t, on x t).
    { intros x X. destruct (Spec x X) as (z & z' & Jz & Bz).
      assert (D : (z, z') = (a, c) \/ (z, z') <> (a, c)) by (destruct (room_dec z a) as [->|], (room_dec z' c) as [->|]; (left; reflexivity) || (right; congruence)).
      destruct D as [D|D]; [injection D as -> ->|right; exists (side z); right; exists z, z'; repeat split; try assumption; apply Bz].
      destruct (room_dec_px W b a x) as [Qa|Qa]; [right; exists (side a); left; exists a; split; [exact Qa|reflexivity]|].
      destruct (room_dec_px W b c x) as [Qc|Qc]; [right; exists (side c); left; exists c; split; [exact Qc|reflexivity]|].
      left. split; [exact Bz|split; assumption]. }
    assert (Along : forall p l q, walk step8 i p l q -> forall t, on p t -> (exists d, In d l /\ door_px W b a c d) \/ on q t).
    { clear p l q Wk Ends. induction 1 as [p H|p q l r H S0 Wk IH]; intros t T; [right; exact T|].
      destruct (Some_t q (walk_first _ _ _ _ _ Wk)) as [D|[t' T']].
      - left. exists q. split; [|exact D]. right. inversion Wk; left; reflexivity.
      - assert (t' = t) as -> by (symmetry; apply (Agree p q t t' S0 T T')). destruct (IH t T') as [(d & D & D')|F]; [left; exists d; split; [right; exact D|exact D']|right; exact F]. }
    assert (S1 : step8 q q) by (unfold step8; lia).
    destruct Ends as [[P Q]|[P Q]].
    - destruct (Along p l q Wk (side a)) as [D|D]; [left; exists a; split; [exact P|reflexivity]|exact D|]. exfalso.
      assert (F : on q (side c)) by (left; exists c; split; [exact Q|reflexivity]). pose proof (Agree q q _ _ S1 D F). congruence.
    - destruct (Along p l q Wk (side c)) as [D|D]; [left; exists c; split; [exact P|reflexivity]|exact D|]. exfalso.
      assert (F : on q (side a)) by (left; exists a; split; [exact Q|reflexivity]). pose proof (Agree q q _ _ S1 D F). congruence. }
  intros a c p l q J Ra Rc Wk. destruct J as [J|J].
  - apply (Main a c J p l q Wk). left. split; assumption.
  - destruct (Main c a J p l q Wk) as (d & D & D1 & D2 & D3); [right; split; assumption|]. exists d. split; [exact D|]. split; [|split; assumption].
    unfold box_px in *. rewrite (Z.min_comm (fst a)), (Z.max_comm (fst a)), (Z.min_comm (snd a)), (Z.max_comm (snd a)). exact D1.
Qed.

(** There is only one way: from a room to the one joined to it every walk over white pixels,
    diagonal steps included, leads through the doorway between them. *)
Theorem C64_one_way : forall m sx sy rnd k st a c p l q, good_start m sx sy -> mz_steps m rnd k (mz_start m mz_fresh sx sy) = Finished st ->
  joined (ms_joined st) a c -> room_px (mz_arg m) (mz_border m) a p -> room_px (mz_arg m) (mz_border m) c q -> walk step8 (mz_image m all_black st) p l q ->
  exists d, In d l /\ door_px (mz_arg m) (mz_border m) a c d.
Proof.
  intros m sx sy rnd k st a c p l q G E J Ra Rc Wk. destruct (run_finished m sx sy rnd k st G E) as (V & I & Full). destruct (good_room m sx sy G) as (Hw & Hh & Ew & _).
  destruct (C64_perfect m sx sy rnd k st G E) as [[Pj Pr] _]. destruct G as (A & R & C & _). destruct (border_ok m A) as [B1 B2].
  set (i := mz_image m all_black st) in *. assert (Spec : forall x, i x = true -> exists a c, In (a, c) (ms_joined st) /\ box_px (mz_arg m) (mz_border m) a c x).
  { intros x. unfold i, mz_image. rewrite Ew, carve_spec by (try assumption; apply (i_beside _ _ _ I)). intros [H|[_ H]]; [discriminate|exact H]. }
  exact (tree_one_way (mz_arg m) (mz_border m) B1 B2 V (ms_joined st) i (i_tree _ _ _ I) (i_beside _ _ _ I) Spec a c p l q J Ra Rc Wk).
Qed.
Print Assumptions C64_one_way.

(** ** Limits *)
Lemma has_none m vis p : 0 <= mz_w m -> 0 <= mz_h m -> in_grid (mz_w m) (mz_h m) p -> (forall q, in_grid (mz_w m) (mz_h m) q -> vis (mz_idx m q) = true) -> mz_has m vis p [0; 1; 2; 3] = Some false.
Proof.
  intros Hw Hh P A. destruct (has_four m Hw Hh vis p P) as (b & -> & B). destruct b; [|reflexivity]. destruct (proj1 B eq_refl) as (q & _ & Q & F). rewrite (A q Q) in F. discriminate.
Qed.
(** A maze object can be used only once: the rooms stay marked, and a second run() never ends. *)
Theorem C64_second_run_refuted : forall m sx sy rnd k st sx' sy' rnd' k', good_start m sx sy -> mz_steps m rnd k (mz_start m mz_fresh sx sy) = Finished st ->
  good_start m sx' sy' -> 2 <= mz_n m -> (forall j, 0 <= rnd' j) ->
  exists pc st', mz_steps m rnd' k' (mz_start m (ms_vis st) sx' sy') = Going pc st'.
Proof.
  intros m sx sy rnd k st sx' sy' rnd' k' G E G' N2 Rn. destruct (run_finished m sx sy rnd k st G E) as (V & I & Full). destruct (good_room m sx' sy' G') as (Hw & Hh & _ & Hs). clear G G' E.
  assert (A : forall q, in_grid (mz_w m) (mz_h m) q -> ms_vis st (mz_idx m q) = true) by (intros q Q; apply (i_vis _ _ _ I q Q), Full, Q).
  unfold mz_start, mz_mark. cbv zeta. cbn [ms_vis ms_count ms_open ms_cur ms_rnd ms_joined]. set (s := (Z.quot sx' (mz_width m), Z.quot sy' (mz_width m))) in *.
  destruct (idx_in m Hw Hh s Hs) as [_ Hi]. replace ((0 <=? mz_idx m s) && (mz_idx m s <? mz_n m)) with true by lia.
  set (vis := fun j => if j =? mz_idx m s then true else ms_vis st j). assert (A' : forall q, in_grid (mz_w m) (mz_h m) q -> vis (mz_idx m q) = true) by (intros q Q; unfold vis; destruct (_ =? _); [reflexivity|apply A, Q]). clearbody vis.
  assert (P : 0 < mz_h m /\ 0 < mz_w m) by (unfold in_grid in Hs; lia).
  assert (Scan : forall n x y st', ms_vis st' = vis -> in_grid (mz_w m) (mz_h m) (x, y) -> exists pc st2, mz_steps m rnd' n (Going (Scanning x y) st') = Going pc st2).
  { induction n as [|n IH]; intros x y st' Ev Gr; cbn [mz_steps]; [eexists _, _; reflexivity|]. cbn [mz_step]. unfold mz_scan, mz_read. destruct (idx_in m Hw Hh (x, y) Gr) as [_ Hj].
    replace ((0 <=? mz_idx m (x, y)) && (mz_idx m (x, y) <? mz_n m)) with true by lia. rewrite Ev, (A' _ Gr). cbv zeta. unfold in_grid in Gr. cbn [fst snd] in Gr.
    destruct (Z.eqb_spec (x + 1) (mz_h m)); apply IH; try assumption; unfold in_grid; cbn [fst snd]; [destruct (Z.eqb_spec (y + 1) (mz_w m))|destruct (Z.eqb_spec y (mz_w m))]; lia. }
  destruct k' as [|k']; cbn [mz_steps]; [eexists _, _; reflexivity|]. cbn [mz_step]. unfold mz_round. cbn [ms_vis ms_count ms_open ms_cur ms_rnd ms_joined].
  replace (0 + 1 <? mz_n m) with true by lia. rewrite (has_none m vis s Hw Hh Hs A'). replace ((mz_h m =? 0) || (mz_w m =? 0)) with false by lia.
  apply Scan; [reflexivity|]. unfold in_grid. cbn [fst snd]. pose proof (Rn 0%nat). pose proof (Rn 1%nat). split; apply Z.rem_bound_pos; lia.
Qed.
Print Assumptions C64_second_run_refuted.
(** A start to the right of the last whole room, though on the image, is written in front of
    the array. *)
Theorem C64_strip_refuted : forall m sx sy, 2 <= mz_arg m -> 0 <= mz_h m -> mz_h m * mz_arg m <= sx < mz_cols m -> mz_start m mz_fresh sx sy = Undefined.
Proof.
  intros m sx sy A H X. unfold mz_start, mz_mark. cbv zeta.
  assert (E : Z.quot sx (mz_width m) = mz_h m).
  { assert (W : mz_width m = mz_arg m) by (unfold mz_width; lia). rewrite W. rewrite Z.quot_div_nonneg by nia. unfold mz_h in *. rewrite Z.quot_div_nonneg in * by nia.
    set (W' := mz_arg m) in *. clearbody W'. symmetry. apply Z.div_unique_pos with (r := sx - mz_cols m / W' * W'); [|ring]. pose proof (Z.mod_pos_bound (mz_cols m) W'). pose proof (Z.div_mod (mz_cols m) W'). lia. }
  rewrite E. unfold mz_idx. cbn [fst snd]. rewrite Z.eqb_refl, orb_true_r. cbn [orb]. reflexivity.
Qed.
Print Assumptions C64_strip_refuted.
(** A maze of a single room stays black. *)
Theorem C64_single_refuted : forall m sx sy rnd k st p, good_start m sx sy -> mz_steps m rnd k (mz_start m mz_fresh sx sy) = Finished st -> mz_n m = 1 ->
  mz_image m all_black st p = false.
Proof.
  intros m sx sy rnd k st p G E N. destruct (C64_perfect m sx sy rnd k st G E) as [_ L]. rewrite N in L. unfold mz_image. destruct (ms_joined st); [reflexivity|cbn [length] in L; lia].
Qed.
Print Assumptions C64_single_refuted.
(** Width 1, which the evaluator passes for small selections: the rooms are 2 pixels wide but
    counted as 1, three quarters of them are off the image, and those on it can be cut off. *)
Definition one_wide : maze := {| mz_arg := 1; mz_rows := 4; mz_cols := 4 |}.
Definition one_rnd (k : nat) : Z := nth k [2; 2; 3; 3; 0; 0; 1; 2; 3; 2; 2; 2; 1; 1; 1] 0.
Theorem C64_width_one_refuted : exists st, mz_steps one_wide one_rnd 20 (mz_start one_wide mz_fresh 0 0) = Finished st /\
  mz_image one_wide all_black st (0, 0) = true /\ mz_image one_wide all_black st (0, 2) = true /\
  forall l, ~ walk step8 (mz_image one_wide all_black st) (0, 0) l (0, 2).
Proof.
  eexists. split; [vm_compute; reflexivity|]. match goal with |- context [mz_image one_wide all_black ?s] => set (st := s) end. split; [vm_compute; reflexivity|]. split; [vm_compute; reflexivity|].
  set (i := mz_image one_wide all_black st). assert (Row : forall p, i p = true -> snd p <> 1).
  { intros [x y] P Y. cbn [snd] in Y. subst y. unfold i, mz_image in P. change (mz_width one_wide) with 2 in P. change (mz_border one_wide) with 1 in P.
    assert (O : on_image 4 4 (x, 1)). { apply carve_spec in P; [|lia|lia|]. - destruct P as [P|[P _]]; [discriminate|exact P]. - intros a c. unfold st. cbn [ms_joined In]. intros X. repeat (destruct X as [X|X]; [injection X as <- <-; reflexivity|]). destruct X. }
    destruct O as [O _]. cbn [fst] in O. assert (C : x = 0 \/ x = 1 \/ x = 2 \/ x = 3) by lia. destruct C as [-> | [-> | [-> | ->]]]; vm_compute in P; discriminate. }
  clearbody i. intros l Wk. assert (Up : forall p l q, walk step8 i p l q -> snd p <= 0 -> snd q <= 0).
  { clear l Wk. induction 1 as [p H|p q l r H S0 Wk IH]; intros P; [exact P|]. apply IH. pose proof (Row q (walk_first _ _ _ _ _ Wk)). unfold step8 in S0. lia. }
  specialize (Up _ _ _ Wk). cbn [snd] in Up. lia.
Qed.
Print Assumptions C64_width_one_refuted.

(** ** A case *)
Definition small_maze : maze := {| mz_arg := 5; mz_rows := 17; mz_cols := 11 |}.
Example C64_case : good_start small_maze 7 13 /\ mz_n small_maze = 6 /\ fair Z.of_nat /\ exists st, mz_steps small_maze Z.of_nat 40 (mz_start small_maze mz_fresh 7 13) = Finished st.
Proof.
  split; [unfold good_start; cbn; lia|]. split; [reflexivity|]. split.
  - intros n k N. exists (4 * k + Z.to_nat n)%nat. split; [lia|]. rewrite Nat2Z.inj_add, Nat2Z.inj_mul, Z2Nat.id by lia. change (Z.of_nat 4) with 4. rewrite Z.add_comm, Z.mul_comm, Z_mod_plus_full. apply Z.mod_small. lia.
  - eexists. vm_compute. reflexivity.
Qed.
