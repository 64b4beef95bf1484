(** C38: find_path returns the cheapest valid candidate. *)
From Coq Require Import Reals Lra.
From Flocq Require Import Core.Raux.
From Verif Require Import Base GeomR PropGeom RSParse RSModel PropRSArc PropRSRing PropRSLine.
Local Open Scope R_scope.

(** ** Specification *)
(** The candidates: the curve every pattern leads to, and its weight. *)
Definition candidates (clamp : R -> R) (m : rmap) (p : rparams) (ignore : bool) (start goal : pose) (cs : list (list seg)) (cands : list (list seg * R)) : Prop :=
  Forall2 (fun c r => admissible clamp m p ignore start goal c = Some r) cs cands.
(** The total turning of a curve: the sum of the (unsigned) arcs of its circles; the
    arc of a circle is characterised by C42_arc and C42_arc_unique. *)
Fixpoint turning (clamp : R -> R) (sq : list seg) : R :=
  match sq with
  | [] => 0
  | SegL _ :: t => turning clamp t
  | SegC c :: t => Rabs (arc_len clamp c) + turning clamp t
  end.
(** Valid: weight below the mark for blocked curves, and not too much turning. *)
Definition valid (clamp : R -> R) (maxarc : R) (r : list seg * R) : Prop := snd r < NOT_FREE /\ turning clamp (fst r) < maxarc.
Lemma turning_ok clamp sq : turning clamp sq = curve_arc clamp sq.
Proof.
  unfold curve_arc.
  assert (G : forall a, a + turning clamp sq = fold_left (fun a s => match s with SegC c => a + cs_arc clamp c | SegL _ => a end) sq a).
  { induction sq as [|[l|c] sq IH]; intros a; cbn [turning fold_left]; [ring|apply IH|]. rewrite <- IH. unfold cs_arc. ring. }
  rewrite <- G. ring.
Qed.
(** The first of the valid candidates of least weight. *)
Definition first_best (clamp : R -> R) (maxarc : R) (cands : list (list seg * R)) (i : nat) (r : list seg * R) : Prop :=
  nth_error cands i = Some r /\ valid clamp maxarc r /\
  forall j q, nth_error cands j = Some q -> valid clamp maxarc q -> snd r <= snd q /\ ((j < i)%nat -> snd r < snd q).

Lemma find_loop_spec clamp m p ignore start goal maxarc : forall cs cands best bw, candidates clamp m p ignore start goal cs cands -> bw <= NOT_FREE ->
  exists best' bw', find_loop clamp m p ignore start goal (Some maxarc) cs best bw = Some (map fst cands, best', bw') /\
    ((best' = best /\ bw' = bw /\ forall j q, nth_error cands j = Some q -> valid clamp maxarc q -> bw <= snd q) \/
     (exists i r, nth_error cands i = Some r /\ valid clamp maxarc r /\ best' = Some (fst r) /\ bw' = snd r /\ snd r < bw /\
        forall j q, nth_error cands j = Some q -> valid clamp maxarc q -> snd r <= snd q /\ ((j < i)%nat -> snd r < snd q))).
Proof.
  induction cs as [|c cs IH]; intros cands best bw H Hbw; inversion H as [|? r ? cands' Hr Hc]; subst.
  - exists best, bw. split; [reflexivity|]. left. split; [reflexivity|]. split; [reflexivity|]. intros [|j] q X; discriminate.
  - cbn [find_loop]. rewrite Hr. cbn [obind]. destruct r as [c' w]. cbn [fst snd].
    assert (STEP : (w < bw /\ curve_arc clamp c' < maxarc) \/ ((bw <= w \/ ~ valid clamp maxarc (c', w)) /\
       (if Rltb w bw then Some (if Rltb (curve_arc clamp c') maxarc then (Some c', w) else (best, bw)) else Some (best, bw)) = Some (best, bw))).
    { destruct (Rltb w bw) eqn:Q; [apply Rltb_spec in Q|apply Rltb_false in Q; right; split; [left; exact Q|reflexivity]].
      destruct (Rltb (curve_arc clamp c') maxarc) eqn:Q2; [apply Rltb_spec in Q2; left; tauto|apply Rltb_false in Q2]. right. split; [|reflexivity]. right. unfold valid. cbn [fst snd]. rewrite turning_ok. lra. }
    destruct STEP as [[S1 S2]|[S1 S2]].
    + assert (Rltb w bw = true) as -> by (apply Rltb_spec; exact S1). cbn [obind]. assert (Rltb (curve_arc clamp c') maxarc = true) as -> by (apply Rltb_spec; exact S2). cbn [obind fst snd].
      destruct (IH cands' (Some c') w Hc ltac:(lra)) as (best' & bw' & E & D). rewrite E. cbn [obind fst snd map]. exists best', bw'. split; [reflexivity|]. right.
      destruct D as [(-> & -> & D)|(i & r & I & V & -> & -> & L & D)].
      * exists 0%nat, (c', w). split; [reflexivity|]. split; [split; cbn [fst snd]; rewrite ?turning_ok; lra|]. split; [reflexivity|]. split; [reflexivity|]. split; [exact S1|].
        intros [|j] q Hq Vq; [cbn in Hq; injection Hq as <-; cbn; split; [lra|lia]|]. cbn in Hq. split; [apply (D j q Hq Vq)|lia].
      * exists (S i), r. split; [exact I|]. split; [exact V|]. split; [reflexivity|]. split; [reflexivity|]. split; [lra|].
        intros [|j] q Hq Vq; [cbn in Hq; injection Hq as <-; cbn; lra|]. cbn in Hq. destruct (D j q Hq Vq) as [D1 D2]. split; [exact D1|]. intros; apply D2; lia.
    + rewrite S2. cbn [obind fst snd]. destruct (IH cands' best bw Hc Hbw) as (best' & bw' & E & D). rewrite E. cbn [obind fst snd map]. exists best', bw'. split; [reflexivity|].
      destruct D as [(-> & -> & D)|(i & r & I & V & -> & -> & L & D)]; [left|right].
      * split; [reflexivity|]. split; [reflexivity|]. intros [|j] q Hq Vq; [cbn in Hq; injection Hq as <-; cbn; tauto|]. apply (D j q Hq Vq).
      * exists (S i), r. split; [exact I|]. split; [exact V|]. split; [reflexivity|]. split; [reflexivity|]. split; [exact L|].
        intros [|j] q Hq Vq; [cbn in Hq; injection Hq as <-; cbn; destruct S1 as [S1|S1]; [lra|tauto]|]. cbn in Hq. destruct (D j q Hq Vq) as [D1 D2]. split; [exact D1|]. intros; apply D2; lia.
Qed.

(** ** The theorem *)
(** With the arc limit set, at least one pattern, and no aborting one: a curve is
    returned exactly if a valid candidate exists, and it is the first of the cheapest. *)
Theorem C38_best : forall clamp m p ignore start goal maxarc cs cands, cs <> [] -> candidates clamp m p ignore start goal cs cands ->
  exists best bw, find_path clamp m p ignore start goal (Some maxarc) cs = Some (map fst cands, best, bw) /\
    (best = None <-> forall r, In r cands -> ~ valid clamp maxarc r) /\
    (forall b, best = Some b <-> exists i r, first_best clamp maxarc cands i r /\ b = fst r) /\
    (forall b, best = Some b -> In (b, bw) cands).
Proof.
  intros clamp m p ignore start goal maxarc cs cands Hne Hc. destruct (find_loop_spec clamp m p ignore start goal maxarc cs cands None NOT_FREE Hc ltac:(lra)) as (best & bw & E & D).
  exists best, bw. split; [unfold find_path; destruct cs; [congruence|exact E]|].
  destruct D as [(-> & -> & D)|(i & r & I & V & -> & -> & L & D)].
  - assert (N : forall r, In r cands -> ~ valid clamp maxarc r).
    { intros r Hr Vr. apply In_nth_error in Hr. destruct Hr as [j Hj]. specialize (D j r Hj Vr). destruct Vr. lra. }
    split; [tauto|]. split; [|discriminate]. intros b. split; [discriminate|]. intros (i & r & (I & V & _) & _). exfalso. apply (N r); [eapply nth_error_In; eassumption|exact V].
  - split; [split; [discriminate|intros N; exfalso; apply (N r); [eapply nth_error_In; eassumption|exact V]]|]. split.
    + intros b. split.
      * intros Eb. injection Eb as <-. exists i, r. split; [|reflexivity]. split; [exact I|]. split; [exact V|exact D].
      * intros (j & q & (J & Vq & Dq) & ->). destruct (Dq i r I V) as [A1 A2]. destruct (D j q J Vq) as [B1 B2].
        assert (~ (i < j)%nat) by (intros X; specialize (A2 X); lra). assert (~ (j < i)%nat) by (intros X; specialize (B2 X); lra). assert (i = j) by lia. subst j. congruence.
    + intros b Eb. injection Eb as <-. apply nth_error_In in I. destruct r. exact I.
Qed.

(** The arc limit is not initialised by the constructor: without a call of its setter
    the result is undefined as soon as a candidate is not blocked. *)
Theorem C38_limit_refuted : forall clamp m p ignore start goal c r cs,
  admissible clamp m p ignore start goal c = Some r -> snd r < NOT_FREE ->
  find_path clamp m p ignore start goal None (c :: cs) = None.
Proof.
  intros clamp m p ignore start goal c r cs H L. cbn [find_path find_loop]. rewrite H. cbn [obind]. assert (Rltb (snd r) NOT_FREE = true) as -> by (apply Rltb_spec; exact L). reflexivity.
Qed.

(** ** Which patterns have a candidate *)
Definition is_line (s : seg) : Prop := exists l, s = SegL l.
(** A pattern of three or four segments that begins or ends with a line aborts. *)
Theorem C38_abort : forall clamp m p ignore start goal sq, (3 <= length sq <= 4)%nat -> 2 <= pose_dist start goal ->
  (exists l t, sq = SegL l :: t) \/ (exists l t, sq = t ++ [SegL l]) -> admissible clamp m p ignore start goal sq = None.
Proof.
  intros clamp m p ignore start goal sq Hl Hd H. unfold admissible.
  replace (negb ((3 <=? length sq)%nat && (length sq <=? 4)%nat)) with false by (symmetry; apply negb_false_iff, andb_true_intro; split; apply Nat.leb_le; lia).
  destruct (Rlt_dec (pose_dist start goal) 2); [lra|]. destruct H as [(l & t & ->)|(l & t & ->)]; [reflexivity|].
  rewrite app_length in Hl. cbn in Hl. destruct t as [|a [|b [|c [|? ?]]]]; cbn in Hl; try lia; cbn [app].
  - destruct a, b; reflexivity.
  - destruct a, b, c; reflexivity.
Qed.
(** Patterns of other lengths, poses closer than two cells: never a valid candidate. *)
Theorem C38_never : forall clamp m p ignore start goal sq, ~ (3 <= length sq <= 4)%nat \/ pose_dist start goal < 2 ->
  admissible clamp m p ignore start goal sq = Some (sq, NOT_FREE).
Proof.
  intros clamp m p ignore start goal sq H. unfold admissible. destruct (negb _) eqn:Q; [reflexivity|]. apply negb_false_iff, andb_prop in Q. destruct Q as [Q1 Q2].
  apply Nat.leb_le in Q1, Q2. destruct H as [H|H]; [lia|]. destruct (Rlt_dec (pose_dist start goal) 2); [reflexivity|lra].
Qed.

(** ** A valid candidate is collision free *)
Definition sane (m : rmap) (p : rparams) : Prop :=
  0 < rp_maxd p /\ 0 <= rp_fwd p /\ 0 <= rp_bwd p /\ 0 <= rp_curve p /\ 0 <= rp_straight p /\ (0 <= rp_min_cell p)%Z /\ 0 < rm_res m.
Definition seg_weight (clamp : R -> R) (m : rmap) (p : rparams) (ignore : bool) (s : seg) : option R :=
  match s with SegL l => line_weight m p l ignore | SegC c => circle_weight clamp m p c ignore end.
Lemma dir_cost_nonneg m p d : sane m p -> 0 <= dir_cost p d.
Proof. intros (_ & H1 & H2 & _). destruct d; assumption. Qed.
Lemma mul3 a b c : 0 <= a -> 0 <= b -> 0 <= c -> 0 <= a * b * c.
Proof. intros. apply Rmult_le_pos; [apply Rmult_le_pos|]; assumption. Qed.
Lemma line_loop_nonneg m minc ignore x1 y1 dx dy sx sy : (0 <= minc)%Z -> forall f x0 y0 err cost r, (0 <= cost)%Z -> line_loop f m minc ignore x0 y0 x1 y1 dx dy sx sy err cost = Some r -> (0 <= snd r)%Z.
Proof.
  intros Hm. induction f as [|f IH]; intros x0 y0 err cost r Hc H; [discriminate|]. rewrite line_loop_S in H.
  assert (HC : (0 <= if rm_in m x0 y0 then cost + Z.max minc (rm_val m x0 y0) else cost)%Z) by (destruct (rm_in m x0 y0); lia).
  destruct (_ && _ && _); [injection H as <-; exact Hc|]. destruct (_ && _); [injection H as <-; exact HC|]. eapply IH; [exact HC|exact H].
Qed.
Lemma line_nonneg m p l ignore w : sane m p -> line_weight m p l ignore = Some w -> 0 <= w.
Proof.
  intros Hs H. pose proof (dir_cost_nonneg m p (ls_dir l) Hs) as D. destruct Hs as (_ & _ & _ & Hc & Hst & Hm & Hr). unfold line_weight in H.
  destruct (cast_i32 _); [|discriminate]. destruct (cast_i32 _); [|discriminate]. destruct (cast_i32 _); [|discriminate]. destruct (cast_i32 _); [|discriminate]. cbn [obind] in H.
  destruct (_ && _); [injection H as <-; unfold NOT_FREE; lra|]. cbv zeta in H. destruct (line_loop _ _ _ _ _ _ _ _ _ _ _ _ _ _) as [r|] eqn:E; [|discriminate]. cbn [obind] in H.
  apply line_loop_nonneg in E; [|assumption|lia]. destruct (_ || _); [|injection H as <-; unfold NOT_FREE; lra]. destruct (rp_use_map p); injection H as <-.
  - apply Rle_mult_inv_pos; [|assumption]. apply mul3; [assumption|apply IZR_le; assumption|assumption].
  - apply mul3; [apply sqrt_pos|assumption|assumption].
Qed.
Lemma circle_nonneg clamp m p c ignore w : sane m p -> 0 <= cs_r c -> circle_weight clamp m p c ignore = Some w -> 0 <= w.
Proof.
  intros Hs Hr0 H. pose proof (dir_cost_nonneg m p (cs_dir c) Hs) as D. destruct Hs as (_ & _ & _ & Hc & Hst & Hm & Hr). unfold circle_weight in H.
  destruct (cast_i32 _) as [cx|]; [|discriminate]. destruct (cast_i32 _) as [cy|]; [|discriminate]. destruct (cast_i32 _) as [r|]; [|discriminate]. cbn [obind] in H.
  destruct (check_circle _ _ _ _ _ _ _ _) as [f|] eqn:E; [|discriminate]. cbn [obind] in H.
  assert (F : (0 <= snd f)%Z).
  { unfold check_circle in E. destruct (mid_loop _ _ _ _) as [o|]; [|discriminate]. cbn [obind] in E. rewrite fold_pixels in E. match type of E with Some ?x = Some _ => assert (EQ : f = x) by congruence end. rewrite EQ. cbn [snd]. clear - Hm.
    induction (flat_map _ o) as [|q t IH]; cbn [fold_right]; [lia|].
    assert (0 <= snd (test_pixel clamp m p c ignore cx cy q))%Z by (unfold test_pixel; destruct (rm_in _ _ _); [destruct (on_segment _ _ _ _)|]; cbn [snd]; lia). lia. }
  destruct (_ || _); [|injection H as <-; unfold NOT_FREE; lra]. destruct (rp_use_map p); injection H as <-.
  - apply Rle_mult_inv_pos; [|assumption]. apply mul3; [assumption|apply IZR_le; assumption|assumption].
  - apply mul3; [|assumption|assumption]. unfold cs_length, cs_arc. apply Rmult_le_pos; [apply Rabs_pos|assumption].
Qed.
Definition radii_ok (cs : list seg) : Prop := forall c, In (SegC c) cs -> 0 <= cs_r c.
Lemma sum_weights_spec clamp m p ignore : sane m p -> forall cs w, radii_ok cs -> sum_weights clamp m p ignore cs = Some w ->
  0 <= w /\ forall s, In s cs -> exists ws, seg_weight clamp m p ignore s = Some ws /\ 0 <= ws <= w.
Proof.
  intros Hs. induction cs as [|s cs IH]; intros w Hr H; cbn [sum_weights] in H.
  - injection H as <-. split; [lra|intros s []].
  - destruct (match s with SegL l => _ | SegC c => _ end) as [ws|] eqn:E; [|discriminate]. cbn [obind] in H. destruct (sum_weights clamp m p ignore cs) as [r|] eqn:E2; [|discriminate]. cbn [obind] in H. injection H as <-.
    destruct (IH r ltac:(intros c Hc; apply Hr; right; exact Hc) eq_refl) as [R0 RI].
    assert (W0 : 0 <= ws) by (destruct s; [eapply line_nonneg; eassumption|eapply circle_nonneg; [eassumption|apply Hr; left; reflexivity|eassumption]]).
    split; [lra|]. intros t [<-|Ht]; [exists ws; split; [exact E|lra]|]. destruct (RI t Ht) as (wt & Et & Bt). exists wt. split; [exact Et|lra].
Qed.

(** The radius of all circles of a candidate is the configured one. *)
Definition all_radius (r : R) (cs : list seg) : Prop := forall c, In (SegC c) cs -> cs_r c = r.
(** The better one of the two symmetric solutions is taken. *)
Lemma symmetry_spec clamp m p ignore a b r k cb before sq' ok : symmetry_helper clamp m p ignore a b r k cb before = Some (sq', ok) -> ok = true ->
  exists wp wn, sum_weights clamp m p ignore (cb true) = Some wp /\ sum_weights clamp m p ignore (cb false) = Some wn /\ 2 <= len (psub a b) <= k * r /\
    sq' = (if Rltb wp wn then cb true else cb false) /\ sum_weights clamp m p ignore sq' = Some (Rmin wp wn).
Proof.
  unfold symmetry_helper. cbv zeta. intros H ->. destruct (Rlt_dec _ 2) as [|D1]; [discriminate|]. destruct (Rlt_dec _ _) as [|D2]; [discriminate|].
  destruct (sum_weights _ _ _ _ (cb true)) as [wp|] eqn:Ep; [|discriminate]. destruct (sum_weights _ _ _ _ (cb false)) as [wn|] eqn:En; [|discriminate]. cbn [obind] in H.
  exists wp, wn. split; [reflexivity|]. split; [reflexivity|]. split; [lra|]. destruct (_ && _); [discriminate|]. injection H as <-. split; [reflexivity|].
  destruct (Rltb wp wn) eqn:Q; [apply Rltb_spec in Q; rewrite Rmin_left by lra; exact Ep|apply Rltb_false in Q; rewrite Rmin_right by lra; exact En].
Qed.
Definition c3_curve clamp p start goal c1 c2 c3 (b : bool) : list seg :=
  match tangential_circle clamp b (init_first clamp p start c1) (init_mid p c2) (init_last clamp p goal c3) with (x, y, z) => [SegC x; SegC y; SegC z] end.
Definition c4_curve clamp p start goal c1 c2 c3 c4 (b : bool) : list seg :=
  match tangential_double_circle clamp b (init_first clamp p start c1) (init_mid p c2) (init_mid p c3) (init_last clamp p goal c4) with (x, y, z, u) => [SegC x; SegC y; SegC z; SegC u] end.
(** The candidates that are not blocked: circle-line-circle, and the better one of two
    solutions with three or four circles. *)
Definition open_candidate clamp m p ignore start goal (sq sq' : list seg) (w : R) : Prop :=
  2 <= pose_dist start goal /\ sum_weights clamp m p ignore sq' = Some w /\
  ((exists c1 l c3 a b c, sq = [SegC c1; SegL l; SegC c3] /\ common_tangent clamp (init_first clamp p start c1) (ls_dir l) (init_last clamp p goal c3) = Some (a, b, c) /\ sq' = [SegC a; SegL b; SegC c]) \/
   (exists c1 c2 c3 wp wn, sq = [SegC c1; SegC c2; SegC c3] /\
      2 <= len (psub (cs_c (init_first clamp p start c1)) (cs_c (init_last clamp p goal c3))) <= 4 * rp_radius p /\
      sum_weights clamp m p ignore (c3_curve clamp p start goal c1 c2 c3 true) = Some wp /\ sum_weights clamp m p ignore (c3_curve clamp p start goal c1 c2 c3 false) = Some wn /\
      sq' = c3_curve clamp p start goal c1 c2 c3 (Rltb wp wn) /\ w = Rmin wp wn) \/
   (exists c1 c2 c3 c4 wp wn, sq = [SegC c1; SegC c2; SegC c3; SegC c4] /\
      2 <= len (psub (cs_c (init_first clamp p start c1)) (cs_c (init_last clamp p goal c4))) <= 6 * rp_radius p /\
      sum_weights clamp m p ignore (c4_curve clamp p start goal c1 c2 c3 c4 true) = Some wp /\ sum_weights clamp m p ignore (c4_curve clamp p start goal c1 c2 c3 c4 false) = Some wn /\
      sq' = c4_curve clamp p start goal c1 c2 c3 c4 (Rltb wp wn) /\ w = Rmin wp wn)).
Lemma admissible_c3 clamp m p ignore start goal c1 c2 c3 : 2 <= pose_dist start goal -> admissible clamp m p ignore start goal [SegC c1; SegC c2; SegC c3] =
  r <- symmetry_helper clamp m p ignore (cs_c (init_first clamp p start c1)) (cs_c (init_last clamp p goal c3)) (rp_radius p) 4 (c3_curve clamp p start goal c1 c2 c3)
         [SegC (init_first clamp p start c1); SegC (init_mid p c2); SegC (init_last clamp p goal c3)] ;;
  if snd r then w <- sum_weights clamp m p ignore (fst r) ;; Some (fst r, w) else Some (fst r, NOT_FREE).
Proof. intros H. unfold admissible. cbn [length Nat.leb andb negb]. destruct (Rlt_dec _ 2); [lra|]. reflexivity. Qed.
Lemma admissible_c4 clamp m p ignore start goal c1 c2 c3 c4 : 2 <= pose_dist start goal -> admissible clamp m p ignore start goal [SegC c1; SegC c2; SegC c3; SegC c4] =
  r <- symmetry_helper clamp m p ignore (cs_c (init_first clamp p start c1)) (cs_c (init_last clamp p goal c4)) (rp_radius p) 6 (c4_curve clamp p start goal c1 c2 c3 c4)
         [SegC (init_first clamp p start c1); SegC (init_mid p c2); SegC (init_mid p c3); SegC (init_last clamp p goal c4)] ;;
  if snd r then w <- sum_weights clamp m p ignore (fst r) ;; Some (fst r, w) else Some (fst r, NOT_FREE).
Proof. intros H. unfold admissible. cbn [length Nat.leb andb negb]. destruct (Rlt_dec _ 2); [lra|]. reflexivity. Qed.
Lemma admissible_csc clamp m p ignore start goal c1 l c3 : 2 <= pose_dist start goal -> admissible clamp m p ignore start goal [SegC c1; SegL l; SegC c3] =
  match common_tangent clamp (init_first clamp p start c1) (ls_dir l) (init_last clamp p goal c3) with
  | None => Some ([SegC (init_first clamp p start c1); SegL l; SegC (init_last clamp p goal c3)], NOT_FREE)
  | Some (a, b, c) => w <- sum_weights clamp m p ignore [SegC a; SegL b; SegC c] ;; Some ([SegC a; SegL b; SegC c], w)
  end.
Proof. intros H. unfold admissible. cbn [length Nat.leb andb negb]. destruct (Rlt_dec _ 2); [lra|]. reflexivity. Qed.
Lemma pair_fst {A B} (a c : A) (b d : B) : Some (a, b) = Some (c, d) -> a = c /\ b = d.
Proof. intros E. injection E as -> ->. split; reflexivity. Qed.
Lemma admissible_open clamp m p ignore start goal sq sq' w : admissible clamp m p ignore start goal sq = Some (sq', w) -> w < NOT_FREE ->
  open_candidate clamp m p ignore start goal sq sq' w.
Proof.
  intros H L. destruct (Rlt_le_dec (pose_dist start goal) 2) as [D|D].
  { rewrite C38_never in H by tauto. apply pair_fst in H. destruct H as [_ <-]. lra. }
  destruct (le_dec 3 (length sq)) as [L3|L3]; [|rewrite C38_never in H by lia; apply pair_fst in H; destruct H as [_ <-]; lra].
  destruct (le_dec (length sq) 4) as [L4|L4]; [|rewrite C38_never in H by lia; apply pair_fst in H; destruct H as [_ <-]; lra].
  destruct sq as [|[l1|c1] t]; [cbn in L3; lia|rewrite (C38_abort clamp m p ignore start goal (SegL l1 :: t)) in H; [discriminate|lia|lra|left; eauto]|].
  destruct t as [|s2 [|s3 [|s4 [|? ?]]]]; cbn in L3, L4; try lia.
  - destruct s3 as [l3|c3]; [rewrite (C38_abort clamp m p ignore start goal) in H; [discriminate|cbn; lia|lra|right; exists l3, [SegC c1; s2]; reflexivity]|].
    destruct s2 as [l2|c2].
    + rewrite admissible_csc in H by assumption. destruct (common_tangent _ _ _ _) as [[[a b] c]|] eqn:T; [|apply pair_fst in H; destruct H as [_ <-]; lra].
      destruct (sum_weights clamp m p ignore [SegC a; SegL b; SegC c]) as [w'|] eqn:S; [|discriminate]. cbn [obind] in H. apply pair_fst in H. destruct H as [<- <-].
      split; [assumption|]. split; [exact S|]. left. exists c1, l2, c3, a, b, c. split; [reflexivity|]. split; [exact T|reflexivity].
    + rewrite admissible_c3 in H by assumption. destruct (symmetry_helper _ _ _ _ _ _ _ _ _ _) as [[sq1 ok]|] eqn:S; [|discriminate]. cbn [obind fst snd] in H.
      destruct ok; [|apply pair_fst in H; destruct H as [_ <-]; lra]. apply symmetry_spec in S; [|reflexivity]. destruct S as (wp & wn & Ep & En & B & E1 & E2).
      rewrite E2 in H. cbn [obind] in H. apply pair_fst in H. destruct H as [<- <-]. split; [assumption|]. split; [exact E2|]. right. left.
      exists c1, c2, c3, wp, wn. repeat (split; [first [reflexivity|assumption]|]). split; [rewrite E1; destruct (Rltb wp wn); reflexivity|reflexivity].
  - destruct s4 as [l4|c4]; [rewrite (C38_abort clamp m p ignore start goal) in H; [discriminate|cbn; lia|lra|right; exists l4, [SegC c1; s2; s3]; reflexivity]|].
    assert (BAD : forall x y, admissible clamp m p ignore start goal [SegC c1; x; y; SegC c4] = Some (sq', w) -> is_line x \/ is_line y -> False).
    { clear H. intros x y H Q. unfold admissible in H. cbn [length Nat.leb andb negb] in H. destruct (Rlt_dec _ 2); [lra|].
      destruct x as [lx|cx]; [destruct y; apply pair_fst in H; destruct H as [_ <-]; lra|]. destruct y as [ly|cy]; [apply pair_fst in H; destruct H as [_ <-]; lra|].
      destruct Q as [[z Q]|[z Q]]; discriminate. }
    destruct s2 as [l2|c2]; [exfalso; eapply BAD; [exact H|left; exists l2; reflexivity]|]. destruct s3 as [l3|c3]; [exfalso; eapply BAD; [exact H|right; exists l3; reflexivity]|].
    rewrite admissible_c4 in H by assumption. destruct (symmetry_helper _ _ _ _ _ _ _ _ _ _) as [[sq1 ok]|] eqn:S; [|discriminate]. cbn [obind fst snd] in H.
    destruct ok; [|apply pair_fst in H; destruct H as [_ <-]; lra]. apply symmetry_spec in S; [|reflexivity]. destruct S as (wp & wn & Ep & En & B & E1 & E2).
    rewrite E2 in H. cbn [obind] in H. apply pair_fst in H. destruct H as [<- <-]. split; [assumption|]. split; [exact E2|]. right. right.
    exists c1, c2, c3, c4, wp, wn. repeat (split; [first [reflexivity|assumption]|]). split; [rewrite E1; destruct (Rltb wp wn); reflexivity|reflexivity].
Qed.
Lemma open_radius clamp m p ignore start goal sq sq' w : open_candidate clamp m p ignore start goal sq sq' w -> all_radius (rp_radius p) sq'.
Proof.
  intros (_ & _ & [(c1 & l & c3 & a & b & c & _ & T & ->)|[(c1 & c2 & c3 & wp & wn & _ & _ & _ & _ & -> & _)|(c1 & c2 & c3 & c4 & wp & wn & _ & _ & _ & _ & -> & _)]]).
  - assert (RR : cs_r a = rp_radius p /\ cs_r c = rp_radius p).
    { unfold common_tangent in T. destruct (Rlt_dec _ _); [discriminate|]. destruct (ori_eqb _ _).
      - unfold external_tangent in T. match type of T with Some (?x, _, ?y) = _ => assert (Q : a = x /\ c = y) by (split; congruence) end. destruct Q as [-> ->]. split; reflexivity.
      - unfold internal_tangent in T. match type of T with Some (?x, _, ?y) = _ => assert (Q : a = x /\ c = y) by (split; congruence) end. destruct Q as [-> ->]. split; reflexivity. }
    intros x [E|[E|[E|[]]]]; try discriminate; injection E as <-; tauto.
  - intros x [E|[E|[E|[]]]]; injection E as <-; reflexivity.
  - intros x [E|[E|[E|[E|[]]]]]; injection E as <-; reflexivity.
Qed.

(** What an open candidate is: the weight of a pattern is below the mark exactly if it
    is a curve of one of three kinds. *)
Theorem C38_candidate : forall clamp m p ignore start goal sq sq' w, w < NOT_FREE ->
  admissible clamp m p ignore start goal sq = Some (sq', w) <-> open_candidate clamp m p ignore start goal sq sq' w.
Proof.
  intros clamp m p ignore start goal sq sq' w L. split; [intros H; apply admissible_open; assumption|].
  intros (D & S & [(c1 & l & c3 & a & b & c & -> & T & ->)|[(c1 & c2 & c3 & wp & wn & -> & B & Ep & En & -> & ->)|(c1 & c2 & c3 & c4 & wp & wn & -> & B & Ep & En & -> & ->)]]).
  - rewrite admissible_csc, T, S by assumption. reflexivity.
  - rewrite admissible_c3 by assumption. unfold symmetry_helper. cbv zeta. destruct (Rlt_dec _ 2); [lra|]. destruct (Rlt_dec _ _); [lra|]. rewrite Ep, En. cbn [obind].
    replace (Rleb NOT_FREE wn && Rleb NOT_FREE wp) with false.
    2: { symmetry. apply andb_false_iff. rewrite !Rleb_false. unfold Rmin in L. destruct (Rle_dec wp wn); tauto. }
    replace (if Rltb wp wn then c3_curve clamp p start goal c1 c2 c3 true else c3_curve clamp p start goal c1 c2 c3 false) with (c3_curve clamp p start goal c1 c2 c3 (Rltb wp wn)) by (destruct (Rltb wp wn); reflexivity).
    cbn [obind fst snd]. rewrite S. reflexivity.
  - rewrite admissible_c4 by assumption. unfold symmetry_helper. cbv zeta. destruct (Rlt_dec _ 2); [lra|]. destruct (Rlt_dec _ _); [lra|]. rewrite Ep, En. cbn [obind].
    replace (Rleb NOT_FREE wn && Rleb NOT_FREE wp) with false.
    2: { symmetry. apply andb_false_iff. rewrite !Rleb_false. unfold Rmin in L. destruct (Rle_dec wp wn); tauto. }
    replace (if Rltb wp wn then c4_curve clamp p start goal c1 c2 c3 c4 true else c4_curve clamp p start goal c1 c2 c3 c4 false) with (c4_curve clamp p start goal c1 c2 c3 c4 (Rltb wp wn)) by (destruct (Rltb wp wn); reflexivity).
    cbn [obind fst snd]. rewrite S. reflexivity.
Qed.

(** No segment of a returned curve is blocked (for costs that are not negative). *)
Theorem C38_collision_free : forall clamp m p ignore start goal maxarc cs cs' b bw, sane m p -> 0 <= rp_radius p ->
  (forall c, In c cs -> admissible clamp m p ignore start goal c <> None) ->
  find_path clamp m p ignore start goal (Some maxarc) cs = Some (cs', Some b, bw) ->
  forall s, In s b -> exists w, seg_weight clamp m p ignore s = Some w /\ 0 <= w < NOT_FREE.
Proof.
  intros clamp m p ignore start goal maxarc cs cs' b bw Hs Hr Hd H s Hin.
  assert (C : exists cands, candidates clamp m p ignore start goal cs cands).
  { clear H. induction cs as [|c cs IH]; [exists []; constructor|]. destruct IH as [cands HC]; [intros; apply Hd; right; assumption|].
    destruct (admissible clamp m p ignore start goal c) as [r|] eqn:E; [|exfalso; apply (Hd c); [left; reflexivity|exact E]]. exists (r :: cands). constructor; assumption. }
  destruct C as [cands HC]. destruct cs as [|c0 cs]; [discriminate|].
  destruct (C38_best clamp m p ignore start goal maxarc (c0 :: cs) cands ltac:(discriminate) HC) as (best & bw' & E & _ & F & G).
  rewrite H in E. assert (best = Some b /\ bw' = bw) as [-> ->] by (split; congruence).
  destruct (proj1 (F b) eq_refl) as (i & r & (I & [V _] & _) & ->).
  assert (A : exists c, admissible clamp m p ignore start goal c = Some r).
  { apply nth_error_In in I. clear - HC I. induction HC as [|cc rr csx candsx Hx HCx IHx]; [destruct I|]. destruct I as [<-|I]; [exists cc; exact Hx|apply IHx, I]. }
  destruct A as [c A]. destruct r as [sq' w]. cbn [fst snd] in *. apply admissible_open in A; [|exact V]. pose proof (open_radius _ _ _ _ _ _ _ _ _ A) as RR. destruct A as (_ & S & _).
  destruct (sum_weights_spec clamp m p ignore Hs sq' w ltac:(intros x Hx; rewrite (RR x Hx); exact Hr) S) as [_ W]. destruct (W s Hin) as (ws & E1 & B). exists ws. split; [exact E1|lra].
Qed.

(** The result depends on the patterns only, not on what earlier calls left in the
    stored curves. *)
Definition pattern (s : seg) : pseg := match s with SegL l => PLine (ls_dir l) | SegC c => PCirc (cs_ori c) (cs_dir c) end.
Definition result (r : option (list (list seg) * option (list seg) * R)) : option (option (list seg) * R) :=
  match r with Some (_, b, w) => Some (b, w) | None => None end.
Definition outcome (r : option (list seg * R)) : option (option (list seg) * R) :=
  match r with Some (c, w) => Some (if Rltb w NOT_FREE then Some c else None, w) | None => None end.
Lemma init_first_indep clamp p start c c' : cs_ori c = cs_ori c' -> cs_dir c = cs_dir c' -> init_first clamp p start c = 
  CSeg (cs_ori c') (cs_dir c') (cs_c (init_first clamp p start c')) (rp_radius p) (cs_a0 (init_first clamp p start c')) (cs_a1 c).
Proof. intros H1 H2. destruct c, c'. cbn in H1, H2. subst. reflexivity. Qed.
Lemma admissible_pattern clamp m p ignore start goal : forall sq sq2, map pattern sq = map pattern sq2 ->
  outcome (admissible clamp m p ignore start goal sq) = outcome (admissible clamp m p ignore start goal sq2).
Proof.
  intros sq sq2 H. assert (LE : length sq = length sq2) by (rewrite <- (map_length pattern sq), H, map_length; reflexivity).
  destruct (Rlt_le_dec (pose_dist start goal) 2) as [D|D].
  { rewrite !C38_never by tauto. cbn [outcome]. destruct (Rltb NOT_FREE NOT_FREE) eqn:Q; [apply Rltb_spec in Q; lra|reflexivity]. }
  assert (NF : Rltb NOT_FREE NOT_FREE = false) by (apply Rltb_false; lra).
  destruct (le_dec 3 (length sq)) as [L3|L3]; [|rewrite !C38_never by lia; cbn [outcome]; rewrite NF; reflexivity].
  destruct (le_dec (length sq) 4) as [L4|L4]; [|rewrite !C38_never by lia; cbn [outcome]; rewrite NF; reflexivity].
  destruct sq as [|s1 t]; [cbn in L3; lia|]. destruct sq2 as [|s1' t']; [discriminate|].
  assert (P1 : pattern s1 = pattern s1') by (injection H; auto). 
  destruct s1 as [l1|[o1 d1 k1 r1 a1 b1]]; destruct s1' as [l1'|[o1' d1' k1' r1' a1' b1']]; try discriminate P1.
  { rewrite !C38_abort; [reflexivity|lia|lra|left; eauto|lia|lra|left; eauto]. }
  cbn in P1. injection P1 as <- <-.
  destruct t as [|s2 [|s3 [|s4 [|? ?]]]]; cbn in L3, L4; try lia.
  - destruct t' as [|s2' [|s3' [|? ?]]]; cbn in LE; try lia. assert (P2 : pattern s2 = pattern s2' /\ pattern s3 = pattern s3') by (cbn in H; split; congruence). destruct P2 as [P2 P3].
    destruct s3 as [l3|[o3 d3 k3 r3 a3 b3]]; destruct s3' as [l3'|[o3' d3' k3' r3' a3' b3']]; try discriminate P3.
    { rewrite !C38_abort; [reflexivity|cbn; lia|lra|right; exists l3', [SegC (CSeg o1 d1 k1' r1' a1' b1'); s2']; reflexivity|cbn; lia|lra|right; exists l3, [SegC (CSeg o1 d1 k1 r1 a1 b1); s2]; reflexivity]. }
    cbn in P3. injection P3 as <- <-. destruct s2 as [[d2 x2 y2]|[o2 d2 k2 r2 a2 b2]]; destruct s2' as [[d2' x2' y2']|[o2' d2' k2' r2' a2' b2']]; try discriminate P2; cbn in P2.
    + injection P2 as <-. rewrite !admissible_csc by assumption. cbn [ls_dir].
      replace (common_tangent clamp (init_first clamp p start (CSeg o1 d1 k1' r1' a1' b1')) d2 (init_last clamp p goal (CSeg o3 d3 k3' r3' a3' b3'))) with
        (common_tangent clamp (init_first clamp p start (CSeg o1 d1 k1 r1 a1 b1)) d2 (init_last clamp p goal (CSeg o3 d3 k3 r3 a3 b3))) by reflexivity.
      destruct (common_tangent _ _ _ _) as [[[a b] c]|]; [reflexivity|]. cbn [outcome]. rewrite NF. reflexivity.
    + injection P2 as <- <-. rewrite !admissible_c3 by assumption.
      change (c3_curve clamp p start goal (CSeg o1 d1 k1' r1' a1' b1') (CSeg o2 d2 k2' r2' a2' b2') (CSeg o3 d3 k3' r3' a3' b3')) with (c3_curve clamp p start goal (CSeg o1 d1 k1 r1 a1 b1) (CSeg o2 d2 k2 r2 a2 b2) (CSeg o3 d3 k3 r3 a3 b3)).
      unfold symmetry_helper. cbv zeta.
      change (cs_c (init_first clamp p start (CSeg o1 d1 k1' r1' a1' b1'))) with (cs_c (init_first clamp p start (CSeg o1 d1 k1 r1 a1 b1))).
      change (cs_c (init_last clamp p goal (CSeg o3 d3 k3' r3' a3' b3'))) with (cs_c (init_last clamp p goal (CSeg o3 d3 k3 r3 a3 b3))).
      destruct (Rlt_dec _ 2); [cbn [obind fst snd outcome]; rewrite NF; reflexivity|]. destruct (Rlt_dec _ _); [cbn [obind fst snd outcome]; rewrite NF; reflexivity|]. reflexivity.
  - destruct t' as [|s2' [|s3' [|s4' [|? ?]]]]; cbn in LE; try lia. assert (P2 : pattern s2 = pattern s2' /\ pattern s3 = pattern s3' /\ pattern s4 = pattern s4') by (cbn in H; repeat split; congruence). destruct P2 as (P2 & P3 & P4).
    destruct s4 as [l4|[o4 d4 k4 r4 a4 b4]]; destruct s4' as [l4'|[o4' d4' k4' r4' a4' b4']]; try discriminate P4.
    { rewrite !C38_abort; [reflexivity|cbn; lia|lra|right; exists l4', [SegC (CSeg o1 d1 k1' r1' a1' b1'); s2'; s3']; reflexivity|cbn; lia|lra|right; exists l4, [SegC (CSeg o1 d1 k1 r1 a1 b1); s2; s3]; reflexivity]. }
    cbn in P4. injection P4 as <- <-.
    destruct s2 as [[d2 x2 y2]|[o2 d2 k2 r2 a2 b2]]; destruct s2' as [[d2' x2' y2']|[o2' d2' k2' r2' a2' b2']]; try discriminate P2;
    destruct s3 as [[d3 x3 y3]|[o3 d3 k3 r3 a3 b3]]; destruct s3' as [[d3' x3' y3']|[o3' d3' k3' r3' a3' b3']]; try discriminate P3;
      try (unfold admissible; cbn [length Nat.leb andb negb]; destruct (Rlt_dec _ 2); [lra|]; cbn [outcome]; rewrite NF; reflexivity).
    cbn in P2, P3. injection P2 as <- <-. injection P3 as <- <-. rewrite !admissible_c4 by assumption.
    change (c4_curve clamp p start goal (CSeg o1 d1 k1' r1' a1' b1') (CSeg o2 d2 k2' r2' a2' b2') (CSeg o3 d3 k3' r3' a3' b3') (CSeg o4 d4 k4' r4' a4' b4')) with (c4_curve clamp p start goal (CSeg o1 d1 k1 r1 a1 b1) (CSeg o2 d2 k2 r2 a2 b2) (CSeg o3 d3 k3 r3 a3 b3) (CSeg o4 d4 k4 r4 a4 b4)).
    unfold symmetry_helper. cbv zeta.
    change (cs_c (init_first clamp p start (CSeg o1 d1 k1' r1' a1' b1'))) with (cs_c (init_first clamp p start (CSeg o1 d1 k1 r1 a1 b1))).
    change (cs_c (init_last clamp p goal (CSeg o4 d4 k4' r4' a4' b4'))) with (cs_c (init_last clamp p goal (CSeg o4 d4 k4 r4 a4 b4))).
    destruct (Rlt_dec _ 2); [cbn [obind fst snd outcome]; rewrite NF; reflexivity|]. destruct (Rlt_dec _ _); [cbn [obind fst snd outcome]; rewrite NF; reflexivity|]. reflexivity.
Qed.
Theorem C38_stateless : forall clamp m p ignore start goal maxarc cs cs2,
  map (map pattern) cs = map (map pattern) cs2 ->
  result (find_path clamp m p ignore start goal maxarc cs) = result (find_path clamp m p ignore start goal maxarc cs2).
Proof.
  intros clamp m p ignore start goal maxarc.
  assert (L : forall cs cs2 best bw, map (map pattern) cs = map (map pattern) cs2 -> bw <= NOT_FREE ->
    result (find_loop clamp m p ignore start goal maxarc cs best bw) = result (find_loop clamp m p ignore start goal maxarc cs2 best bw)).
  { induction cs as [|c cs IH]; intros [|c2 cs2] best bw H Hbw; try discriminate; [reflexivity|]. cbn [map] in H. injection H as H1 H2. cbn [find_loop].
    pose proof (admissible_pattern clamp m p ignore start goal c c2 H1) as A.
    destruct (admissible clamp m p ignore start goal c) as [[c' w]|]; destruct (admissible clamp m p ignore start goal c2) as [[c2' w2]|]; cbn [outcome] in A; try discriminate; [|reflexivity].
    assert (w = w2) as <- by congruence. cbn [obind fst snd].
    assert (U : (if Rltb w bw then ma <- maxarc ;; Some (if Rltb (curve_arc clamp c') ma then (Some c', w) else (best, bw)) else Some (best, bw)) =
                (if Rltb w bw then ma <- maxarc ;; Some (if Rltb (curve_arc clamp c2') ma then (Some c2', w) else (best, bw)) else Some (best, bw))).
    { destruct (Rltb w bw) eqn:Q; [|reflexivity]. apply Rltb_spec in Q. destruct (Rltb w NOT_FREE) eqn:Q2; [|apply Rltb_false in Q2; lra]. assert (c' = c2') by congruence. subst. reflexivity. }
    rewrite U. clear U. set (u := if Rltb w bw then _ else _). assert (E : u = u) by reflexivity. unfold u at 2 in E. destruct u as [[best' bw']|]; [|reflexivity]. symmetry in E. cbn [obind fst snd].
    assert (Hbw' : bw' <= NOT_FREE).
    { destruct (Rltb w bw) eqn:Q; [|injection E as <- <-; exact Hbw]. apply Rltb_spec in Q. destruct maxarc as [ma|]; [|discriminate]. cbn [obind] in E. destruct (Rltb _ ma); injection E as <- <-; lra. }
    specialize (IH cs2 best' bw' H2 Hbw'). destruct (find_loop _ _ _ _ _ _ _ cs best' bw') as [[[x y] z]|]; destruct (find_loop _ _ _ _ _ _ _ cs2 best' bw') as [[[x' y'] z']|]; cbn [result obind fst snd] in *; congruence. }
  intros cs cs2 H. destruct cs as [|c cs]; destruct cs2 as [|c2 cs2]; try discriminate; [reflexivity|]. unfold find_path. apply L; [exact H|lra].
Qed.
(** The pattern survives the call. *)
Theorem C38_keeps_patterns : forall clamp m p ignore start goal sq sq' w,
  admissible clamp m p ignore start goal sq = Some (sq', w) -> map pattern sq' = map pattern sq.
Proof.
  intros clamp m p ignore start goal sq sq' w H. destruct (Rlt_le_dec (pose_dist start goal) 2) as [D|D]; [rewrite C38_never in H by tauto; apply pair_fst in H; destruct H as [<- _]; reflexivity|].
  destruct (le_dec 3 (length sq)) as [L3|L3]; [|rewrite C38_never in H by lia; apply pair_fst in H; destruct H as [<- _]; reflexivity].
  destruct (le_dec (length sq) 4) as [L4|L4]; [|rewrite C38_never in H by lia; apply pair_fst in H; destruct H as [<- _]; reflexivity].
  destruct sq as [|[l1|c1] t]; [cbn in L3; lia|rewrite (C38_abort clamp m p ignore start goal (SegL l1 :: t)) in H; [discriminate|lia|lra|left; eauto]|].
  destruct t as [|s2 [|s3 [|s4 [|? ?]]]]; cbn in L3, L4; try lia.
  - destruct s3 as [l3|c3]; [rewrite (C38_abort clamp m p ignore start goal) in H; [discriminate|cbn; lia|lra|right; exists l3, [SegC c1; s2]; reflexivity]|].
    destruct s2 as [l2|c2].
    + rewrite admissible_csc in H by assumption. destruct (common_tangent _ _ _ _) as [[[a b] c]|] eqn:T; [|apply pair_fst in H; destruct H as [<- _]; reflexivity].
      destruct (sum_weights _ _ _ _ _) as [w'|]; [|discriminate]. cbn [obind] in H. apply pair_fst in H. destruct H as [<- _].
      unfold common_tangent in T. destruct (Rlt_dec _ _); [discriminate|]. destruct (ori_eqb _ _).
      * unfold external_tangent in T. match type of T with Some (?x, ?z, ?y) = _ => assert (Q : a = x /\ c = y /\ b = z) by (repeat split; congruence) end. destruct Q as (-> & -> & ->). reflexivity.
      * unfold internal_tangent in T. match type of T with Some (?x, ?z, ?y) = _ => assert (Q : a = x /\ c = y /\ b = z) by (repeat split; congruence) end. destruct Q as (-> & -> & ->). reflexivity.
    + rewrite admissible_c3 in H by assumption. unfold symmetry_helper in H. cbv zeta in H.
      destruct (Rlt_dec _ 2); [cbn [obind fst snd] in H; apply pair_fst in H; destruct H as [<- _]; reflexivity|]. destruct (Rlt_dec _ _); [cbn [obind fst snd] in H; apply pair_fst in H; destruct H as [<- _]; reflexivity|].
      destruct (sum_weights _ _ _ _ (c3_curve _ _ _ _ _ _ _ true)) as [wp|]; [|discriminate]. destruct (sum_weights _ _ _ _ (c3_curve _ _ _ _ _ _ _ false)) as [wn|]; [|discriminate]. cbn [obind] in H.
      destruct (_ && _); cbn [obind fst snd] in H; [apply pair_fst in H; destruct H as [<- _]; reflexivity|].
      destruct (sum_weights _ _ _ _ (if Rltb wp wn then _ else _)) as [w3|]; [|discriminate]. cbn [obind] in H. apply pair_fst in H. destruct H as [<- _]. destruct (Rltb wp wn); reflexivity.
  - destruct s4 as [l4|c4]; [rewrite (C38_abort clamp m p ignore start goal) in H; [discriminate|cbn; lia|lra|right; exists l4, [SegC c1; s2; s3]; reflexivity]|].
    assert (OTHER : (is_line s2 \/ is_line s3) -> map pattern sq' = map pattern [SegC c1; s2; s3; SegC c4]).
    { intros Q. unfold admissible in H. cbn [length Nat.leb andb negb] in H. destruct (Rlt_dec _ 2); [lra|].
      destruct s2 as [lx|cx]; [destruct s3; apply pair_fst in H; destruct H as [<- _]; reflexivity|]. destruct s3 as [ly|cy]; [apply pair_fst in H; destruct H as [<- _]; reflexivity|].
      destruct Q as [[z Q]|[z Q]]; discriminate. }
    destruct s2 as [l2|c2]; [apply OTHER; left; exists l2; reflexivity|]. destruct s3 as [l3|c3]; [apply OTHER; right; exists l3; reflexivity|]. clear OTHER.
    rewrite admissible_c4 in H by assumption. unfold symmetry_helper in H. cbv zeta in H.
    destruct (Rlt_dec _ 2); [cbn [obind fst snd] in H; apply pair_fst in H; destruct H as [<- _]; reflexivity|]. destruct (Rlt_dec _ _); [cbn [obind fst snd] in H; apply pair_fst in H; destruct H as [<- _]; reflexivity|].
    destruct (sum_weights _ _ _ _ (c4_curve _ _ _ _ _ _ _ _ true)) as [wp|]; [|discriminate]. destruct (sum_weights _ _ _ _ (c4_curve _ _ _ _ _ _ _ _ false)) as [wn|]; [|discriminate]. cbn [obind] in H.
    destruct (_ && _); cbn [obind fst snd] in H; [apply pair_fst in H; destruct H as [<- _]; reflexivity|].
    destruct (sum_weights _ _ _ _ (if Rltb wp wn then _ else _)) as [w3|]; [|discriminate]. cbn [obind] in H. apply pair_fst in H. destruct H as [<- _]. destruct (Rltb wp wn); reflexivity.
Qed.

(** A straight drive by the pattern "LSL": a valid candidate of weight 10. *)
Definition ex_seg : list seg := [SegC (CSeg LeftC Forward (Pt 0 0) 0 0 0); SegL (LS Forward (Pt 0 0) (Pt 0 0)); SegC (CSeg LeftC Forward (Pt 0 0) 0 0 0)].
Definition ex_par : rparams := RP 2 1 false 0 1 1 1 1.
Lemma small_sq a b : (a * a + b * b < 2 * 2 + 2)%Z -> (-2 <= a <= 2)%Z.
Proof.
  intros H. assert (0 <= b * b)%Z by apply Z.square_nonneg. assert (A : (a * a < 6)%Z) by lia. clear H H0.
  destruct (Z_le_gt_dec a 2) as [L|L]; [destruct (Z_le_gt_dec (-2) a) as [M|M]; [lia|]|]; exfalso.
  - assert (3 * 3 <= (- a) * (- a))%Z by (apply Z.mul_le_mono_nonneg; lia). lia.
  - assert (3 * 3 <= a * a)%Z by (apply Z.mul_le_mono_nonneg; lia). lia.
Qed.
Lemma ex_curve ignore : exists sq', admissible clamp_ref (free_rmap 40 40) ex_par ignore (Pose 10 10 0) (Pose 20 10 0) ex_seg = Some (sq', 10) /\ valid clamp_ref 1 (sq', 10).
Proof.
  pose proof PI_RGT_0 as HP.
  assert (Cz : forall z, (-2147483648 <= z < 2147483648)%Z -> cast_i32 (IZR z) = Some z).
  { intros z Hz. unfold cast_i32. cbv zeta. rewrite Ztrunc_IZR. unfold in_i32. replace ((-2147483648 <=? z)%Z && (z <? 2147483648)%Z) with true by lia. reflexivity. }
  set (q := clamp_ref (0 - PI / 2)).
  set (a := CSeg LeftC Forward (Pt 10 12) 2 q q). set (c := CSeg LeftC Forward (Pt 20 12) 2 q q). set (b := LS Forward (Pt 10 10) (Pt 20 10)).
  assert (CL : forall k, center_for LeftC (Pose (IZR k) 10 0) 2 = Pt (IZR k) 12).
  { intros k. unfold center_for, center_left, from_polar. cbn [po_th po_x po_y px py]. rewrite Rplus_0_l, cos_PI2, sin_PI2. f_equal; lra. }
  assert (F1 : init_first clamp_ref ex_par (Pose 10 10 0) (CSeg LeftC Forward (Pt 0 0) 0 0 0) = CSeg LeftC Forward (Pt 10 12) 2 q 0).
  { unfold init_first. cbn [cs_with_r cs_ori cs_dir cs_c cs_r cs_a0 cs_a1 ex_par rp_radius]. rewrite (CL 10%Z). reflexivity. }
  assert (F2 : init_last clamp_ref ex_par (Pose 20 10 0) (CSeg LeftC Forward (Pt 0 0) 0 0 0) = CSeg LeftC Forward (Pt 20 12) 2 0 q).
  { unfold init_last. cbn [cs_with_r cs_ori cs_dir cs_c cs_r cs_a0 cs_a1 ex_par rp_radius]. rewrite (CL 20%Z). reflexivity. }
  assert (AN : angle (psub (Pt 20 12) (Pt 10 12)) = 0).
  { unfold angle, psub. cbn [px py]. replace (20 - 10) with (10 * cos 0) by (rewrite cos_0; lra). replace (12 - 12) with (10 * sin 0) by (rewrite sin_0; lra). apply polar_atan2; lra. }
  assert (HL : len (psub (Pt 10 12) (Pt 20 12)) = 10) by (rewrite len_hyp; unfold psub; cbn [px py]; apply hyp_unique; lra).
  assert (T : common_tangent clamp_ref (init_first clamp_ref ex_par (Pose 10 10 0) (CSeg LeftC Forward (Pt 0 0) 0 0 0)) Forward (init_last clamp_ref ex_par (Pose 20 10 0) (CSeg LeftC Forward (Pt 0 0) 0 0 0)) = Some (a, b, c)).
  { rewrite F1, F2. unfold common_tangent. cbn [cs_c cs_r cs_ori ori_eqb]. rewrite HL. destruct (Rlt_dec 10 (2 + 2)); [lra|]. unfold external_tangent. cbn [cs_c cs_r cs_ori cs_dir isBwd]. rewrite AN.
    cbn [xorb]. assert (O : pmul (normalize (ortho (psub (Pt 20 12) (Pt 10 12)))) 2 = Pt 0 (-2)).
    { unfold normalize, resize. assert (LO : len (ortho (psub (Pt 20 12) (Pt 10 12))) = 10) by (rewrite len_hyp; unfold ortho, psub; cbn [px py]; apply hyp_unique; lra). rewrite LO. unfold pmul, pdiv, ortho, psub. cbn [px py]. f_equal; lra. }
    unfold set_end_for, set_start_for, set_end, set_start, angle_for, a, b, c. cbn [cs_ori cs_dir cs_c cs_r cs_a0 cs_a1]. replace (0 - 0 - PI / 2) with (0 - PI / 2) by ring. fold q. rewrite O. unfold padd. cbn [px py].
    repeat f_equal; lra. }
  assert (Z0 : forall k, arc_len clamp_ref (CSeg LeftC Forward k 2 q q) = 0) by (intros k; apply (C42_empty_refuted clamp_ref Forward k 2 q clamp_ref_halfopen)).
  assert (WC : forall k, (2 <= k < 30)%Z -> circle_weight clamp_ref (free_rmap 40 40) ex_par (CSeg LeftC Forward (Pt (IZR k) 12) 2 q q) ignore = Some 0).
  { intros k Hk. destruct (C41_weight clamp_ref (free_rmap 40 40) ex_par (CSeg LeftC Forward (Pt (IZR k) 12) 2 q q) ignore k 12 2 clamp_ref_halfopen) as (w & cells & E & _ & _ & _ & F); [cbn; lra|apply Cz; lia|apply (Cz 12%Z); lia|apply (Cz 2%Z); lia|lia|].
    rewrite E. f_equal. rewrite F.
    2: { right. split; [|reflexivity]. intros [u v] Hq. cbn [fst snd] in Hq |- *. destruct (C41_ring_near 2 (u - k) (v - 12) ltac:(lia) Hq) as [[_ N] _].
      pose proof (small_sq _ _ N) as N1. rewrite Z.add_comm in N. pose proof (small_sq _ _ N) as N2. unfold rm_in, free_rmap. cbn [rm_w rm_h]. lia. }
    cbn [ex_par rp_use_map]. unfold cs_length, cs_arc. rewrite Z0, Rabs_R0. ring. }
  assert (WL : line_weight (free_rmap 40 40) ex_par b ignore = Some 10).
  { destruct (C40_weight (free_rmap 40 40) ex_par b ignore 10 10 20 10) as (w & E & _ & F); try (apply Cz; lia). rewrite E. f_equal. rewrite F by (right; split; [reflexivity|intros; reflexivity]). cbn [ex_par rp_use_map].
    assert (ls_length b = 10) as -> by (unfold ls_length, b; cbn [ls_a ls_b]; rewrite len_hyp; unfold psub; cbn [px py]; apply hyp_unique; lra). unfold dir_cost, ex_par, b. cbn. ring. }
  assert (S : sum_weights clamp_ref (free_rmap 40 40) ex_par ignore [SegC a; SegL b; SegC c] = Some 10).
  { cbn [sum_weights]. unfold a, c. rewrite (WC 10%Z), (WC 20%Z), WL by lia. cbn [obind]. f_equal. ring. }
  exists [SegC a; SegL b; SegC c]. split.
  - apply C38_candidate; [unfold NOT_FREE; lra|]. split; [unfold pose_dist; cbn [po_x po_y]; apply Rsqr_incr_0_var; [unfold Rsqr; rewrite sqrt_sqrt; lra|apply sqrt_pos]|]. split; [exact S|].
    left. eexists _, _, _, a, b, c. split; [reflexivity|]. split; [exact T|reflexivity].
  - unfold valid. cbn [fst snd turning]. unfold a, c. rewrite !Z0, Rabs_R0. unfold NOT_FREE. lra.
Qed.
Example C38_example : exists sq', admissible clamp_ref (free_rmap 40 40) ex_par true (Pose 10 10 0) (Pose 20 10 0) ex_seg = Some (sq', 10) /\ valid clamp_ref 1 (sq', 10).
Proof. apply ex_curve. Qed.
