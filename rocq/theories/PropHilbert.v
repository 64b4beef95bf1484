(** C65: the space filling curve. *)
From Verif Require Import Base MazeModel MazeTree MazeProofs PropMaze HilbertModel.

(** ** Specification *)
(** [corridor l E]: the rooms [l] are visited one after the other, and exactly the pairs of
    consecutive rooms are joined; both newest first. *)
Inductive corridor : list room -> list (room * room) -> Prop :=
| corridor_one r : corridor [r] []
| corridor_more a b l E : corridor (a :: l) E -> beside a b -> corridor (b :: a :: l) ((a, b) :: E).
(** The rooms of a square with [s] rooms per side and this top left corner. *)
Definition square (o : room) (s : Z) (p : room) : Prop := fst o <= fst p < fst o + s /\ snd o <= snd p < snd o + s.

(** ** Proofs *)
Definition side (n : nat) : Z := 2 ^ Z.of_nat (S n).
Lemma side_0 : side 0 = 2. Proof. reflexivity. Qed.
Lemma side_S n : side (S n) = 2 * side n.
Proof. unfold side. rewrite !Nat2Z.inj_succ, !Z.pow_succ_r by lia. lia. Qed.
Lemma side_pos n : 1 <= side n.
Proof. induction n as [|n IH]; [rewrite side_0|rewrite side_S]; lia. Qed.
(** Where a level starts and ends, seen from the corner of its square. *)
Definition h_from (d : hdir) (s : Z) : room := match d with UP | LEFT => (0, 0) | RIGHT | DOWN => (s - 1, s - 1) end.
Definition h_to (d : hdir) (s : Z) : room := match d with UP => (s - 1, 0) | LEFT => (0, s - 1) | RIGHT => (s - 1, 0) | DOWN => (0, s - 1) end.
Definition plus (a b : room) : room := (fst a + fst b, snd a + snd b).

Lemma next_beside c d : beside c (h_next c d).
Proof. unfold beside. destruct d; cbn [h_next fst snd]; lia. Qed.

(** From [st] to [st'] the rooms of a square are visited, each once. *)
Definition covers (st st' : hstate) (o : room) (s : Z) : Prop :=
  exists t, NoDup (hs_cur st' :: t) /\ (forall p, In p (hs_cur st' :: t) <-> square o s p) /\
    Z.of_nat (length (hs_cur st' :: t)) = s * s /\ (exists u, hs_cur st' :: t = u ++ [hs_cur st]) /\
    forall k, corridor (hs_cur st :: k) (hs_joined st) -> corridor ((hs_cur st' :: t) ++ k) (hs_joined st').

Lemma corridor_move k st d : corridor (hs_cur st :: k) (hs_joined st) -> corridor (hs_cur (h_move st d) :: hs_cur st :: k) (hs_joined (h_move st d)).
Proof. intros C. unfold h_move. cbn [hs_cur hs_joined]. apply corridor_more; [exact C|apply next_beside]. Qed.

(** Four squares joined by three moves. *)
Lemma covers_four s1 t1 d1 t2 d2 t3 d3 t4 o o1 o2 o3 o4 s : 1 <= s ->
  covers s1 t1 o1 s -> covers (h_move t1 d1) t2 o2 s -> covers (h_move t2 d2) t3 o3 s -> covers (h_move t3 d3) t4 o4 s ->
  (forall p, square o (2 * s) p <-> square o1 s p \/ square o2 s p \/ square o3 s p \/ square o4 s p) ->
  (forall p, ~ (square o1 s p /\ square o2 s p) /\ ~ (square o1 s p /\ square o3 s p) /\ ~ (square o1 s p /\ square o4 s p) /\
             ~ (square o2 s p /\ square o3 s p) /\ ~ (square o2 s p /\ square o4 s p) /\ ~ (square o3 s p /\ square o4 s p)) ->
  covers s1 t4 o (2 * s).
Proof.
  intros Hs (l1 & N1 & I1 & L1 & [u1 U1] & C1) (l2 & N2 & I2 & L2 & _ & C2) (l3 & N3 & I3 & L3 & _ & C3) (l4 & N4 & I4 & L4 & _ & C4) Part Disj.
  exists (l4 ++ (hs_cur t3 :: l3) ++ (hs_cur t2 :: l2) ++ (hs_cur t1 :: l1)).
  rewrite app_comm_cons. set (k1 := hs_cur t1 :: l1) in *. set (k2 := hs_cur t2 :: l2) in *. set (k3 := hs_cur t3 :: l3) in *. set (k4 := hs_cur t4 :: l4) in *.
  split; [|split; [|split; [|split]]].
  - clearbody k1 k2 k3 k4. repeat apply nodup_app; try assumption; intros p P Q; rewrite ?in_app_iff in Q; repeat (destruct Q as [Q|Q]);
      apply I1 in P || apply I2 in P || apply I3 in P || apply I4 in P; (apply I1 in Q || apply I2 in Q || apply I3 in Q); destruct (Disj p) as (D1 & D2 & D3 & D4 & D5 & D6); tauto.
  - intros p. rewrite !in_app_iff, I1, I2, I3, I4, Part. tauto.
  - rewrite !app_length, !Nat2Z.inj_add, L1, L2, L3, L4. ring.
  - exists (k4 ++ k3 ++ k2 ++ u1). rewrite U1, <- !app_assoc. reflexivity.
  - intros k K. rewrite <- !app_assoc. apply C4. apply (corridor_move (l3 ++ k2 ++ k1 ++ k) t3 d3). change (hs_cur t3 :: l3 ++ k2 ++ k1 ++ k) with (k3 ++ k2 ++ k1 ++ k).
    apply C3. apply (corridor_move (l2 ++ k1 ++ k) t2 d2). change (hs_cur t2 :: l2 ++ k1 ++ k) with (k2 ++ k1 ++ k).
    apply C2. apply (corridor_move (l1 ++ k) t1 d1). change (hs_cur t1 :: l1 ++ k) with (k1 ++ k). apply C1, K.
Qed.

Lemma room_eq (a b : room) : fst a = fst b -> snd a = snd b -> a = b.
Proof. destruct a, b. cbn [fst snd]. intros -> ->. reflexivity. Qed.

Lemma level_covers n : forall d st o, hs_cur st = plus o (h_from d (side n)) ->
  hs_cur (h_level n d st) = plus o (h_to d (side n)) /\ covers st (h_level n d st) o (side n).
Proof.
  induction n as [|n IH]; intros d st [x y] E.
  - rewrite side_0 in *. destruct st as [[cx cy] J]. cbn [hs_cur] in E.
    assert (Q : forall p : room, square (x, y) 2 p <-> p = (x, y) \/ p = (x + 1, y) \/ p = (x, y + 1) \/ p = (x + 1, y + 1)).
    { intros [a b]. unfold square. cbn [fst snd]. split; [|intros [H|[H|[H|H]]]; injection H as -> ->; lia]. intros H.
      assert (C : (a = x \/ a = x + 1) /\ (b = y \/ b = y + 1)) by lia. destruct C as [[-> | ->] [-> | ->]]; tauto. }
    destruct d; unfold plus in *; cbn [h_level h_from h_to] in *; unfold h_move; cbv zeta; cbn [h_next hs_cur hs_joined fst snd] in *; injection E as Ex Ey.
    all: (split; [apply room_eq; cbn [fst snd]; lia|]); unfold covers; cbn [hs_cur hs_joined].
    all: match goal with |- context [(?c, _) :: (?b, _) :: (?a, _) :: _] => exists [c; b; a] end.
    all: split; [repeat constructor; cbn [In]; intros H; repeat (destruct H as [H|H]; [injection H; lia|]); exact H|].
    all: split; [intros p; rewrite Q; cbn [In];
      split; [intros H; repeat (destruct H as [<-|H]; [first [left; apply room_eq; cbn [fst snd]; lia|right; left; apply room_eq; cbn [fst snd]; lia|right; right; left; apply room_eq; cbn [fst snd]; lia|right; right; right; apply room_eq; cbn [fst snd]; lia]|]); destruct H
             |intros [H|[H|[H|H]]]; subst p; first [left; apply room_eq; cbn [fst snd]; lia|right; left; apply room_eq; cbn [fst snd]; lia|right; right; left; apply room_eq; cbn [fst snd]; lia|right; right; right; left; apply room_eq; cbn [fst snd]; lia]]|].
    all: split; [reflexivity|]; split; [match goal with |- exists u, ?a :: ?b :: ?c :: ?d :: nil = _ => exists [a; b; c]; reflexivity end|]; intros k K; cbn [app]; repeat (apply corridor_more; [|unfold beside; cbn [fst snd]; lia]); exact K.
  - rewrite side_S in *. pose proof (side_pos n) as Hs. set (s := side n) in *. cbn [fst snd plus] in E.
    destruct d; cbn [h_from h_to plus fst snd] in *; cbn [h_level].
    + destruct (IH LEFT st (x, y)) as [E1 C1]; [rewrite E; reflexivity|]. set (t1 := h_level n LEFT st) in *. clearbody t1.
      destruct (IH UP (h_move t1 DOWN) (x, y + s)) as [E2 C2]; [cbn [h_move hs_cur]; rewrite E1; apply room_eq; cbn [h_next plus h_from h_to fst snd]; lia|]. set (t2 := h_level n UP (h_move t1 DOWN)) in *. clearbody t2.
      destruct (IH UP (h_move t2 RIGHT) (x + s, y + s)) as [E3 C3]; [cbn [h_move hs_cur]; rewrite E2; apply room_eq; cbn [h_next plus h_from h_to fst snd]; lia|]. set (t3 := h_level n UP (h_move t2 RIGHT)) in *. clearbody t3.
      destruct (IH RIGHT (h_move t3 UP) (x + s, y)) as [E4 C4]; [cbn [h_move hs_cur]; rewrite E3; apply room_eq; cbn [h_next plus h_from h_to fst snd]; lia|]. set (t4 := h_level n RIGHT (h_move t3 UP)) in *. clearbody t4.
      split; [rewrite E4; apply room_eq; cbn [plus h_to fst snd]; lia|]. eapply (covers_four _ _ _ _ _ _ _ _ (x, y) _ _ _ _ s Hs C1 C2 C3 C4); intros [a b]; unfold square; cbn [fst snd]; lia.
    + destruct (IH UP st (x, y)) as [E1 C1]; [rewrite E; reflexivity|]. set (t1 := h_level n UP st) in *. clearbody t1.
      destruct (IH LEFT (h_move t1 RIGHT) (x + s, y)) as [E2 C2]; [cbn [h_move hs_cur]; rewrite E1; apply room_eq; cbn [h_next plus h_from h_to fst snd]; lia|]. set (t2 := h_level n LEFT (h_move t1 RIGHT)) in *. clearbody t2.
      destruct (IH LEFT (h_move t2 DOWN) (x + s, y + s)) as [E3 C3]; [cbn [h_move hs_cur]; rewrite E2; apply room_eq; cbn [h_next plus h_from h_to fst snd]; lia|]. set (t3 := h_level n LEFT (h_move t2 DOWN)) in *. clearbody t3.
      destruct (IH DOWN (h_move t3 LEFT) (x, y + s)) as [E4 C4]; [cbn [h_move hs_cur]; rewrite E3; apply room_eq; cbn [h_next plus h_from h_to fst snd]; lia|]. set (t4 := h_level n DOWN (h_move t3 LEFT)) in *. clearbody t4.
      split; [rewrite E4; apply room_eq; cbn [plus h_to fst snd]; lia|]. eapply (covers_four _ _ _ _ _ _ _ _ (x, y) _ _ _ _ s Hs C1 C2 C3 C4); intros [a b]; unfold square; cbn [fst snd]; lia.
    + destruct (IH RIGHT st (x + s, y + s)) as [E1 C1]; [rewrite E; apply room_eq; cbn [plus h_from fst snd]; lia|]. set (t1 := h_level n RIGHT st) in *. clearbody t1.
      destruct (IH DOWN (h_move t1 UP) (x + s, y)) as [E2 C2]; [cbn [h_move hs_cur]; rewrite E1; apply room_eq; cbn [h_next plus h_from h_to fst snd]; lia|]. set (t2 := h_level n DOWN (h_move t1 UP)) in *. clearbody t2.
      destruct (IH DOWN (h_move t2 LEFT) (x, y)) as [E3 C3]; [cbn [h_move hs_cur]; rewrite E2; apply room_eq; cbn [h_next plus h_from h_to fst snd]; lia|]. set (t3 := h_level n DOWN (h_move t2 LEFT)) in *. clearbody t3.
      destruct (IH LEFT (h_move t3 DOWN) (x, y + s)) as [E4 C4]; [cbn [h_move hs_cur]; rewrite E3; apply room_eq; cbn [h_next plus h_from h_to fst snd]; lia|]. set (t4 := h_level n LEFT (h_move t3 DOWN)) in *. clearbody t4.
      split; [rewrite E4; apply room_eq; cbn [plus h_to fst snd]; lia|]. eapply (covers_four _ _ _ _ _ _ _ _ (x, y) _ _ _ _ s Hs C1 C2 C3 C4); intros [a b]; unfold square; cbn [fst snd]; lia.
    + destruct (IH DOWN st (x + s, y + s)) as [E1 C1]; [rewrite E; apply room_eq; cbn [plus h_from fst snd]; lia|]. set (t1 := h_level n DOWN st) in *. clearbody t1.
      destruct (IH RIGHT (h_move t1 LEFT) (x, y + s)) as [E2 C2]; [cbn [h_move hs_cur]; rewrite E1; apply room_eq; cbn [h_next plus h_from h_to fst snd]; lia|]. set (t2 := h_level n RIGHT (h_move t1 LEFT)) in *. clearbody t2.
      destruct (IH RIGHT (h_move t2 UP) (x, y)) as [E3 C3]; [cbn [h_move hs_cur]; rewrite E2; apply room_eq; cbn [h_next plus h_from h_to fst snd]; lia|]. set (t3 := h_level n RIGHT (h_move t2 UP)) in *. clearbody t3.
      destruct (IH UP (h_move t3 RIGHT) (x + s, y)) as [E4 C4]; [cbn [h_move hs_cur]; rewrite E3; apply room_eq; cbn [h_next plus h_from h_to fst snd]; lia|]. set (t4 := h_level n UP (h_move t3 RIGHT)) in *. clearbody t4.
      split; [rewrite E4; apply room_eq; cbn [plus h_to fst snd]; lia|]. eapply (covers_four _ _ _ _ _ _ _ _ (x, y) _ _ _ _ s Hs C1 C2 C3 C4); intros [a b]; unfold square; cbn [fst snd]; lia.
Qed.

Lemma corridor_grown l E : corridor l E -> NoDup l -> grown l E.
Proof.
  induction 1 as [r|a b l E C IH B]; intros N; [constructor|]. apply NoDup_cons_iff in N as [N1 N2].
  apply grown_add; [apply IH, N2|left; reflexivity|exact N1].
Qed.
Lemma corridor_beside l E : corridor l E -> forall a c, In (a, c) E -> beside a c.
Proof. induction 1 as [r|a b l E C IH B]; intros x y X; [destruct X|]. destruct X as [X|X]; [injection X as <- <-; exact B|apply IH, X]. Qed.

(** ** C65: the theorems *)
(** Level [n], from any room and in any direction: one corridor through the 2^n x 2^n rooms
    of a square, every room once. *)
Theorem C65_curve : forall n d c, (1 <= n)%nat -> exists l o, let st := h_level (n - 1) d {| hs_cur := c; hs_joined := [] |} in
  corridor l (hs_joined st) /\ NoDup l /\ hd c l = hs_cur st /\ last l c = c /\ Z.of_nat (length l) = 4 ^ Z.of_nat n /\
  (forall p, In p l <-> square o (2 ^ Z.of_nat n) p) /\ o = match d with UP | LEFT => c | DOWN | RIGHT => (fst c - 2 ^ Z.of_nat n + 1, snd c - 2 ^ Z.of_nat n + 1) end.
Proof.
  intros n d c Hn. set (s := 2 ^ Z.of_nat n). assert (Es : s = side (n - 1)) by (unfold s, side; f_equal; lia).
  pose (o := match d with UP | LEFT => c | DOWN | RIGHT => (fst c - s + 1, snd c - s + 1) end).
  destruct (level_covers (n - 1) d {| hs_cur := c; hs_joined := [] |} o) as [E (t & N & I & L & [u U] & C)].
  { cbn [hs_cur]. rewrite <- Es. unfold o. destruct d; apply room_eq; cbn [plus h_from fst snd]; lia. }
  specialize (C [] (corridor_one c)). cbv zeta. rewrite app_nil_r in C. cbn [hs_cur hs_joined] in *. rewrite <- Es in *.
  eexists _, o. split; [exact C|]. split; [exact N|]. split; [reflexivity|]. split.
  - rewrite U. apply last_last.
  - split; [rewrite L; unfold s; rewrite <- Z.pow_mul_l; reflexivity|]. split; [exact I|reflexivity].
Qed.
Print Assumptions C65_curve.

Lemma curve_gen st n : st = h_level n UP {| hs_cur := (1, 1); hs_joined := [] |} -> exists l, corridor l (hs_joined st) /\ NoDup l /\ (forall p, In p l <-> square (1, 1) (side n) p) /\
  hd (1, 1) l = plus (1, 1) (h_to UP (side n)) /\ last l (1, 1) = (1, 1).
Proof.
  intros E. destruct (C65_curve (S n) UP (1, 1) ltac:(lia)) as (l & o & C & N & H & La & Le & I & ->). replace (S n - 1)%nat with n in * by lia. rewrite <- E in C, H. exists l.
  split; [exact C|]. split; [exact N|]. split; [exact I|]. split; [|exact La]. transitivity (hs_cur st); [exact H|]. rewrite E. apply level_covers. reflexivity.
Qed.
Lemma run_curve : exists l, corridor l (hs_joined h_run) /\ NoDup l /\ (forall p, In p l <-> square (1, 1) 256 p) /\ hd (1, 1) l = (256, 1) /\ last l (1, 1) = (1, 1).
Proof.
  assert (E : h_run = h_level 7 UP {| hs_cur := (1, 1); hs_joined := [] |}) by (unfold h_run; reflexivity).
  destruct (curve_gen h_run 7 E) as (l & C & N & I & H & La). clear E. generalize dependent h_run. intros st C. exists l. repeat (split; [assumption|]). exact La.
Qed.
(** run(): the rooms (1,1) to (256,256), from (1,1) to (256,1); between any two of them there
    is exactly one route, and no others are joined. *)
Theorem C65_run : exists l, corridor l (hs_joined h_run) /\ NoDup l /\ (forall p, In p l <-> 1 <= fst p <= 256 /\ 1 <= snd p <= 256) /\
  hd (1, 1) l = (256, 1) /\ last l (1, 1) = (1, 1) /\
  forall a b, In a l -> In b l -> exists r, route (hs_joined h_run) a r b /\ NoDup r /\ forall r', route (hs_joined h_run) a r' b -> NoDup r' -> r' = r.
Proof.
  destruct run_curve as (l & C & N & I & H & La). exists l. split; [exact C|]. split; [exact N|]. split; [intros p; rewrite I; unfold square; cbn [fst snd]; lia|]. split.
  - exact H.
  - split; [exact La|]. apply (grown_unique l _). apply corridor_grown; assumption.
Qed.
Print Assumptions C65_run.

Section Image.
  Variable m : maze.
  Let W := mz_width m.
  Lemma W2 : 2 * 1 <= W. Proof using Type. unfold W, mz_width. lia. Qed.
  Lemma h_white p : h_image m all_black p = true <-> on_image (mz_rows m) (mz_cols m) p /\ exists a c, In (a, c) (hs_joined h_run) /\ box_px W 1 a c p.
  Proof using Type.
    destruct run_curve as (l & C & _). unfold h_image. rewrite (carve_spec (mz_width m) 1 ltac:(lia) W2) by apply (corridor_beside _ _ C). split; [intros [H|H]; [discriminate|exact H]|intros H; right; exact H].
  Qed.
End Image.
(** On the image: every walk from a room to the next one of the curve, diagonal steps included,
    uses the doorway between them, so the corridor never touches itself. *)
Theorem C65_one_way : forall m a c p l q, joined (hs_joined h_run) a c -> room_px (mz_width m) 1 a p -> room_px (mz_width m) 1 c q ->
  walk step8 (h_image m all_black) p l q -> exists d, In d l /\ door_px (mz_width m) 1 a c d.
Proof.
  intros m a c p l q J Ra Rc Wk. destruct run_curve as (k & C & N & _).
  apply (tree_one_way (mz_width m) 1 ltac:(lia) (W2 m) k (hs_joined h_run) (h_image m all_black) (corridor_grown _ _ C N) (corridor_beside _ _ C)) with (a := a) (c := c) (p := p) (q := q); try assumption.
  intros x X. apply h_white in X. apply X.
Qed.
Print Assumptions C65_one_way.
(** If the 257 x 257 rooms fit on the image, the white pixels are connected and every room of
    the curve is white. *)
Theorem C65_connected : forall m, 257 * mz_width m <= mz_rows m -> 257 * mz_width m <= mz_cols m ->
  (forall p q, h_image m all_black p = true -> h_image m all_black q = true -> exists l, walk step4 (h_image m all_black) p l q) /\
  (forall a p, 1 <= fst a <= 256 /\ 1 <= snd a <= 256 -> room_px (mz_width m) 1 a p -> h_image m all_black p = true).
Proof.
  intros m Hr Hc. destruct C65_run as (k & C & N & I & _ & _ & U). pose proof (corridor_grown _ _ C N) as G. pose proof (corridor_beside _ _ C) as Nb. pose proof (W2 m) as HW.
  assert (Nj : forall a c, joined (hs_joined h_run) a c -> beside a c) by (intros a c [J|J]; [apply Nb, J|apply Nb in J; unfold beside in *; lia]).
  assert (Box : forall a c, joined (hs_joined h_run) a c -> forall x, box_px (mz_width m) 1 a c x -> h_image m all_black x = true).
  { intros a c J x B. apply h_white. destruct (grown_in _ _ G a c J) as [A A']. apply I in A, A'. split.
    - destruct B as [B1 B2]. change (1 / 2) with 0 in *. set (W := mz_width m) in *. clearbody W. clear -B1 B2 A A' Hr Hc HW.
      assert (0 <= Z.min (fst a) (fst c) * W) by (apply Z.mul_nonneg_nonneg; lia). assert (0 <= Z.min (snd a) (snd c) * W) by (apply Z.mul_nonneg_nonneg; lia).
      assert ((Z.max (fst a) (fst c) + 1) * W <= 257 * W) by (apply Z.mul_le_mono_nonneg_r; lia). assert ((Z.max (snd a) (snd c) + 1) * W <= 257 * W) by (apply Z.mul_le_mono_nonneg_r; lia).
      unfold on_image. lia.
    - destruct J as [J|J]; [exists a, c|exists c, a]; (split; [exact J|]); [exact B|]. unfold box_px in *. rewrite (Z.min_comm (fst c)), (Z.max_comm (fst c)), (Z.min_comm (snd c)), (Z.max_comm (snd c)). exact B. }
  split.
  - apply (rooms_connected (mz_width m) 1 ltac:(lia) HW (hs_joined h_run) (h_image m all_black) Nj); [intros x X; apply h_white in X; apply X|exact Box|].
    intros a c a' c' J J'. destruct (U a a') as (r & R & _); [apply (grown_in _ _ G a c), or_introl, J|apply (grown_in _ _ G a' c'), or_introl, J'|]. exists r. exact R.
  - intros a p A Ra. assert (Ne : exists c, In c k /\ c <> a).
    { exists (if room_dec a (1, 1) then (1, 2) else (1, 1)). destruct (room_dec a (1, 1)) as [->|X]; (split; [apply I; cbn [fst snd]; lia|congruence]). }
    destruct Ne as (c & Hk & Nc). destruct (U a c) as (r & R & _); [apply I, A|exact Hk|]. inversion R as [a' E1 E2 E3|a' d t c' J R' E1 E2 E3]; [congruence|].
    assert (Bd : beside a d) by exact (Nj a d J). apply (Box a d J p). apply room_box; [clear; lia|exact HW|exact Bd|left; exact Ra].
Qed.
Print Assumptions C65_connected.

(** ** Limits *)
(** The curve does not fill the image: the rooms of the first row and column stay black. *)
Theorem C65_margin_refuted : forall m p, fst p < mz_width m \/ snd p < mz_width m -> h_image m all_black p = false.
Proof.
  intros m p P. destruct (h_image m all_black p) eqn:E; [|reflexivity]. exfalso. apply h_white in E as (_ & a & c & J & B1 & B2). destruct C65_run as (k & C & N & I & _).
  destruct (grown_in _ _ (corridor_grown _ _ C N) a c (or_introl J)) as [A A']. apply I in A, A'. change (1 / 2) with 0 in *. pose proof (W2 m) as HW. set (W := mz_width m) in *. clearbody W.
  assert (1 * W <= Z.min (fst a) (fst c) * W) by (apply Z.mul_le_mono_nonneg_r; lia). assert (1 * W <= Z.min (snd a) (snd c) * W) by (apply Z.mul_le_mono_nonneg_r; lia). lia.
Qed.
Print Assumptions C65_margin_refuted.
(** On an image that is too small for the fixed level 8 the corridor is cut into pieces. *)
Definition tiny : maze := {| mz_arg := 2; mz_rows := 8; mz_cols := 8 |}.
Definition near_pair (e : room * room) : bool := (fst (fst e) <=? 5) && (snd (fst e) <=? 5) && (fst (snd e) <=? 5) && (snd (snd e) <=? 5).
Notation near_joined := (filter near_pair (hs_joined h_run)).
Definition tiny_px : list pixel := list_prod (zrange 8) (zrange 8).
(** The pixels connected with room (1, 1). *)
Definition first_part (p : pixel) : bool := ((fst p <=? 4) && (snd p <=? 4)) || (fst p <=? 2).
Lemma tiny_gen J p a c : (forall a c, In (a, c) J -> beside a c) -> on_image 8 8 p -> In (a, c) J -> box_px 2 1 a c p -> carve 8 8 2 1 all_black (filter near_pair J) p = true.
Proof.
  intros Nb O Ji B. apply carve_spec; [clear; lia|clear; lia|intros x y X; apply filter_In in X; apply Nb, X|]. right. split; [exact O|]. exists a, c. split; [|exact B]. apply filter_In. split; [exact Ji|].
  pose proof (Nb a c Ji) as Na. clear -O B Na. unfold near_pair, on_image, beside, box_px in *. change (1 / 2) with 0 in B. cbn [fst snd]. lia.
Qed.
Lemma near_gen J e : In e (filter near_pair J) -> In e J.
Proof. intros H. apply filter_In in H. apply H. Qed.
Lemma tiny_white p : h_image tiny all_black p = true -> In p tiny_px /\ carve 8 8 2 1 all_black near_joined p = true.
Proof.
  intros H. apply h_white in H as (O & a & c & J & B). destruct run_curve as (l & C & _). pose proof (corridor_beside _ _ C) as Nb. change (mz_rows tiny) with 8 in O. change (mz_cols tiny) with 8 in O. change (mz_width tiny) with 2 in B.
  split; [destruct p as [x y]; unfold tiny_px, pixel; apply in_prod_iff; rewrite !zrange_in; exact O|]. exact (tiny_gen (hs_joined h_run) p a c Nb O J B).
Qed.
Theorem C65_cut_refuted : h_image tiny all_black (2, 2) = true /\ h_image tiny all_black (4, 6) = true /\ forall l, ~ walk step8 (h_image tiny all_black) (2, 2) l (4, 6).
Proof.
  assert (E : near_joined = [((2, 5), (1, 5)); ((4, 5), (3, 5)); ((5, 4), (5, 5)); ((5, 3), (5, 4)); ((5, 1), (5, 2)); ((4, 1), (5, 1)); ((3, 1), (4, 1)); ((3, 2), (3, 1)); ((4, 2), (3, 2)); ((4, 3), (4, 2));
     ((4, 4), (4, 3)); ((3, 4), (4, 4)); ((3, 3), (3, 4)); ((2, 3), (3, 3)); ((2, 4), (2, 3)); ((1, 4), (2, 4)); ((1, 3), (1, 4)); ((1, 2), (1, 3)); ((2, 2), (1, 2)); ((2, 1), (2, 2)); ((1, 1), (2, 1))]) by (vm_compute; reflexivity).
  assert (Wh : forall p a c, on_image 8 8 p -> In (a, c) near_joined -> box_px 2 1 a c p -> h_image tiny all_black p = true).
  { intros p a c O J B. apply h_white. split; [exact O|]. exists a, c. split; [exact (near_gen _ _ J)|exact B]. }
  split; [apply (Wh (2, 2) (1, 1) (2, 1)); [split; cbn; lia|rewrite E; cbn [In]; tauto|split; cbn; lia]|]. split; [apply (Wh (4, 6) (2, 4) (2, 3)); [split; cbn; lia|rewrite E; cbn [In]; tauto|split; cbn; lia]|]. clear Wh.
  pose proof tiny_white as Wh. rewrite E in Wh. set (i := h_image tiny all_black) in *. clearbody i. clear E.
  assert (Step : forall p q, i p = true -> i q = true -> step8 p q -> first_part p = true -> first_part q = true).
  { intros p q P Q S0 F. destruct (Wh p P) as [P1 P2]. destruct (Wh q Q) as [Q1 Q2]. destruct (first_part q) eqn:G; [reflexivity|]. exfalso.
    match type of P2 with carve _ _ _ _ _ ?e _ = _ => set (es := e) in * end.
    assert (A : forallb (fun p => forallb (fun q => negb (carve 8 8 2 1 all_black es p && carve 8 8 2 1 all_black es q && first_part p && negb (first_part q) && (Z.abs (fst p - fst q) <=? 1) && (Z.abs (snd p - snd q) <=? 1))) tiny_px) tiny_px = true) by (vm_compute; reflexivity).
    rewrite forallb_forall in A. specialize (A p P1). rewrite forallb_forall in A. specialize (A q Q1). rewrite P2, Q2, F, G in A. unfold step8 in S0. clear -A S0.
    replace (Z.abs (fst p - fst q) <=? 1) with true in A by lia. replace (Z.abs (snd p - snd q) <=? 1) with true in A by lia. discriminate. }
  intros l Wk. assert (Up : forall p l q, walk step8 i p l q -> first_part p = true -> first_part q = true).
  { clear l Wk. induction 1 as [p H|p q l r H S0 Wk IH]; intros P; [exact P|]. apply IH. apply (Step p q H (walk_first _ _ _ _ _ Wk) S0 P). }
  specialize (Up _ _ _ Wk eq_refl). discriminate.
Qed.
Print Assumptions C65_cut_refuted.
