(** Property C71: the simulator of four-wheel-steering robots. *)
From Coq Require Import Reals Lra.
From Flocq Require Import Core.
From Verif Require Import Base Sim4wsModel.
Local Open Scope R_scope.

(** ** Specification *)
Definition apart (a b : bot) : R := sqrt ((b_x b - b_x a) ^ 2 + (b_y b - b_y a) ^ 2).
(** One of the eleven steering angles from -20 to 20 degrees. *)
Definition grid_angle (a : R) : Prop := exists k, (k <= 10)%nat /\ a = (INR k * 4 - 20) * PI / 180.
Definition is_step (e : event) : bool := match e with EStep _ => true | _ => false end.
Definition steps (l : list event) : nat := length (filter is_step l).
(** The pixel (row, column) a robot is drawn in. *)
Definition stands_in (b : bot) (i j : Z) : Prop := cell_index (b_x b) = i /\ cell_index (b_y b) = j.

Section Sim.
  Variable rnd : Z -> nat -> nat.
  Notation run := (run rnd).
  Notation step := (step rnd).

  Lemma run_snoc l e : run (l ++ [e]) = apply rnd (run l) e.
  Proof using Type. unfold Sim4wsModel.run. rewrite fold_left_app. reflexivity. Qed.
  Lemma run_app l l' : run (l ++ l') = fold_left (apply rnd) l' (run l).
  Proof using Type. unfold Sim4wsModel.run. apply fold_left_app. Qed.

  Lemma changes_spec c : changes c = (10 <? c)%nat.
  Proof using Type.
    unfold changes, t_change, t_step. replace (1 / / 10) with (INR 10) by (cbn; lra). destruct (Rlt_dec (INR 10) (INR c)) as [H|H].
    - apply INR_lt in H. symmetry. apply Nat.ltb_lt. exact H.
    - symmetry. apply Nat.ltb_ge. apply Nat.nlt_ge. intros G. apply H. apply lt_INR. exact G.
  Qed.
  Definition good (b : bot) : Prop := grid_angle (b_df b) /\ grid_angle (b_dr b) /\ b_l b = / 2.
  Lemma grid_of k : (k <= 10)%nat -> grid_angle (INR k * delta_step - delta_max).
  Proof using Type. intros H. exists k. split; [exact H|]. unfold delta_step, delta_max, delta_steps. replace (INR 10) with 10 by (cbn; lra). field. Qed.
  Lemma new_good : good new_bot.
  Proof using Type. split; [|split; [|reflexivity]]; exists 5%nat; (split; [lia|]); cbn; lra. Qed.
  Lemma randomize_good sec l : forall i, Forall good l -> Forall good (randomize rnd sec i l).
  Proof using Type.
    induction l as [|b l IH]; intros i H; [constructor|]. apply Forall_cons_iff in H as [(_ & _ & Hb) H]. cbn [randomize]. constructor; [|apply IH, H].
    split; [|split; [|exact Hb]]; cbn [b_df b_dr]; apply grid_of; (assert (A : (delta_steps + 1 <> 0)%nat) by (unfold delta_steps; lia));
      (match goal with |- (?x mod _ <= _)%nat => pose proof (Nat.mod_upper_bound x _ A) end); unfold delta_steps in *; lia.
  Qed.
  Lemma apply_good s e : Forall good (s_bots s) -> Forall good (s_bots (apply rnd s e)).
  Proof using Type.
    intros H. destruct e as [sec| |n]; cbn [apply].
    - unfold Sim4wsModel.step. cbn [s_bots]. assert (G : forall l, Forall good l -> Forall good (map (update (speed * t_step)) l)).
      { intros l Hl. apply Forall_map. eapply Forall_impl; [|exact Hl]. intros b Hb. exact Hb. }
      apply G. destruct (changes _); [apply randomize_good|]; exact H.
    - exact H.
    - unfold setNumBots. cbn [s_bots]. apply Forall_app. split.
      + rewrite <- (firstn_skipn n (s_bots s)) in H. apply Forall_app in H. apply H.
      + apply Forall_forall. intros b Hb. apply repeat_spec in Hb as ->. apply new_good.
  Qed.
  Lemma run_good l : Forall good (s_bots (run l)).
  Proof using Type.
    induction l as [|e l IH] using rev_ind.
    - unfold Sim4wsModel.run, init. cbn [fold_left reset s_bots setNumBots]. rewrite firstn_nil. apply Forall_forall. intros b Hb. apply repeat_spec in Hb as ->. apply new_good.
    - rewrite run_snoc. apply apply_good, IH.
  Qed.

  (** Whatever happened before: the wheels of every robot stand at one of the eleven angles. *)
  Theorem C71_angles l b : In b (s_bots (run l)) -> grid_angle (b_df b) /\ grid_angle (b_dr b).
  Proof using Type. intros Hb. pose proof (run_good l) as G. rewrite Forall_forall in G. destruct (G b Hb) as (A & B & _). auto. Qed.

  Lemma update_apart d b : 0 <= d -> apart b (update d b) = d.
  Proof using Type.
    intros Hd. unfold apart, update. cbv zeta. cbn [b_x b_y]. set (a := b_theta b + _ / 2 + _).
    replace ((b_x b + d * cos a - b_x b) ^ 2 + (b_y b + d * sin a - b_y b) ^ 2) with (d * d * (Rsqr (sin a) + Rsqr (cos a))) by (unfold Rsqr; ring).
    rewrite sin2_cos2, Rmult_1_r. apply sqrt_square. exact Hd.
  Qed.
  Lemma dmax_range : 0 < delta_max < PI / 2.
  Proof using Type. unfold delta_max. pose proof PI_RGT_0. lra. Qed.
  Lemma grid_tan a : grid_angle a -> - tan delta_max <= tan a <= tan delta_max.
  Proof using Type.
    intros (k & Hk & ->). pose proof PI_RGT_0 as P. pose proof dmax_range as [D1 D2]. unfold delta_max in *.
    assert (K : 0 <= INR k <= 10) by (split; [apply pos_INR|]; replace 10 with (INR 10) by (cbn; lra); apply le_INR; exact Hk).
    set (a := (INR k * 4 - 20) * PI / 180). assert (A : - (20 * PI / 180) <= a <= 20 * PI / 180).
    { unfold a. assert (0 <= INR k * PI <= 10 * PI) by (split; [apply Rmult_le_pos; lra|apply Rmult_le_compat_r; lra]). lra. }
    clearbody a. rewrite <- tan_neg. split.
    - destruct (Req_dec (- (20 * PI / 180)) a) as [->|N]; [lra|]. apply Rlt_le, tan_increasing; lra.
    - destruct (Req_dec a (20 * PI / 180)) as [->|N]; [lra|]. apply Rlt_le, tan_increasing; lra.
  Qed.
  Lemma tan_dmax_pos : 0 < tan delta_max.
  Proof using Type. apply tan_gt_0; apply dmax_range. Qed.

  Lemma randomize_pose sec l : forall i, Forall2 (fun b b' => b_x b' = b_x b /\ b_y b' = b_y b /\ b_theta b' = b_theta b) l (randomize rnd sec i l).
  Proof using Type. induction l as [|b l IH]; intros i; constructor; [auto|apply IH]. Qed.

  (** A step moves every robot by exactly 10 cm, turns it by at most 0.4 tan(20 deg) rad,
      and not at all if front and rear wheels are parallel. *)
  Theorem C71_move l sec : Forall2 (fun b b' => apart b b' = / 10 /\ Rabs (b_theta b' - b_theta b) <= 2 / 5 * tan (20 * PI / 180) /\
      (b_df b' = b_dr b' -> b_theta b' = b_theta b)) (s_bots (run l)) (s_bots (run (l ++ [EStep sec]))).
  Proof using Type.
    rewrite run_snoc. cbn [apply]. unfold Sim4wsModel.step. cbn [s_bots]. pose proof (run_good l) as G.
    set (bs := s_bots (run l)) in *. clearbody bs.
    assert (H : exists ms, Forall2 (fun b b' => b_x b' = b_x b /\ b_y b' = b_y b /\ b_theta b' = b_theta b) bs ms /\ Forall good ms /\
                  (if changes (S (s_count (run l))) then randomize rnd sec 0 bs else bs) = ms).
    { destruct (changes _); eexists; (split; [|split; [|reflexivity]]); [apply randomize_pose|apply randomize_good, G| |exact G].
      clear. induction bs as [|b l IH]; constructor; auto. }
    destruct H as (ms & P & G' & ->). clear G. induction P as [|b m bs ms (E1 & E2 & E3) P IH]; [constructor|].
    apply Forall_cons_iff in G' as [(G1 & G2 & G3) G']. cbn [map]. constructor; [|apply IH, G'].
    assert (Ed : speed * t_step = / 10) by (unfold speed, t_step; lra). rewrite Ed.
    split; [|split].
    - pose proof (update_apart (/ 10) m ltac:(lra)) as A. unfold apart in *. rewrite E1, E2 in A. exact A.
    - unfold update. cbv zeta. cbn [b_theta]. rewrite E3, G3. fold delta_max.
      pose proof (grid_tan _ G1) as T1. pose proof (grid_tan _ G2) as T2. pose proof (COS_bound (b_beta m)) as Cb. pose proof tan_dmax_pos as Tp.
      set (tf := tan (b_df m)) in *. set (tr := tan (b_dr m)) in *. set (tm := tan delta_max) in *. set (c := cos (b_beta m)) in *.
      replace (b_theta b + c * (tf - tr) * / 10 / / 2 - b_theta b) with (c * (tf - tr) * / 5) by field.
      rewrite Rabs_mult, (Rabs_pos_eq (/ 5)) by lra. rewrite Rabs_mult.
      assert (A : Rabs c <= 1) by (apply Rabs_le; lra). assert (B : Rabs (tf - tr) <= 2 * tm) by (apply Rabs_le; lra).
      assert (X : Rabs c * Rabs (tf - tr) <= 1 * (2 * tm)) by (apply Rmult_le_compat; [apply Rabs_pos|apply Rabs_pos|exact A|exact B]). lra.
    - unfold update. cbv zeta. cbn [b_theta b_df b_dr]. intros Ef. rewrite Ef. rewrite Rminus_diag_eq by reflexivity. rewrite E3. unfold Rdiv. ring.
  Qed.

  (** ** When the steering changes *)
  Lemma count_spec base post : (base = [] \/ exists pre, base = pre ++ [EReset]) -> ~ In EReset post -> s_count (run (base ++ post)) = (steps post mod 11)%nat.
  Proof using Type.
    intros Hbase. induction post as [|e post IH] using rev_ind; intros Hn.
    - rewrite app_nil_r. destruct Hbase as [->|(pre & ->)]; [reflexivity|rewrite run_snoc; reflexivity].
    - assert (Hn' : ~ In EReset post) by (intros H; apply Hn, in_or_app; left; exact H). specialize (IH Hn').
      rewrite app_assoc, run_snoc. unfold steps in *. rewrite filter_app, app_length.
      destruct e as [sec| |n]; cbn [apply filter is_step length].
      + unfold Sim4wsModel.step. cbn [s_count]. rewrite IH, changes_spec. set (k := length (filter is_step post)) in *.
        pose proof (Nat.mod_upper_bound k 11 ltac:(lia)). rewrite <- Nat.add_mod_idemp_l by lia. set (r := (k mod 11)%nat) in *.
        destruct (Nat.ltb_spec 10 (S r)).
        * assert (r = 10)%nat as -> by lia. reflexivity.
        * rewrite Nat.mod_small by lia. lia.
      + destruct Hn. apply in_or_app. right. left. reflexivity.
      + rewrite Nat.add_0_r. exact IH.
  Qed.

  (** The angles change at every eleventh step since the last reset (not at every
      tenth, i.e. once a second), and then are a function of the second alone. *)
  Theorem C71_steering base post sec i b' : (base = [] \/ exists pre, base = pre ++ [EReset]) -> ~ In EReset post ->
    nth_error (s_bots (run (base ++ post ++ [EStep sec]))) i = Some b' ->
    exists b, nth_error (s_bots (run (base ++ post))) i = Some b /\
      ((S (steps post) mod 11 <> 0)%nat -> b_df b' = b_df b /\ b_dr b' = b_dr b) /\
      ((S (steps post) mod 11 = 0)%nat ->
         b_df b' = (INR (rnd sec (2 * i) mod 11) * 4 - 20) * PI / 180 /\ b_dr b' = (INR (rnd sec (2 * i + 1) mod 11) * 4 - 20) * PI / 180).
  Proof using Type.
    intros Hb Hn H. rewrite app_assoc, run_snoc in H. cbn [apply] in H. unfold Sim4wsModel.step in H. cbn [s_bots] in H.
    rewrite (count_spec base post Hb Hn), changes_spec in H. clear Hb Hn. set (k := steps post) in *. pose proof (Nat.mod_upper_bound k 11 ltac:(lia)) as Hk.
    assert (Ek : (S k mod 11 = 0)%nat <-> (10 < S (k mod 11))%nat).
    { change (S k) with (1 + k)%nat. rewrite <- Nat.add_mod_idemp_r by lia. set (r := (k mod 11)%nat) in *. split; intros G.
      - destruct (Nat.eq_dec r 10) as [->|N]; [lia|]. rewrite Nat.mod_small in G by lia. lia.
      - assert (r = 10)%nat as -> by lia. reflexivity. }
    rewrite nth_error_map in H. destruct (Nat.ltb_spec 10 (S (k mod 11))) as [L|L].
    - assert (R : forall l i0 j b0, nth_error (randomize rnd sec i0 l) j = Some b0 ->
        exists b, nth_error l j = Some b /\ b_df b0 = INR (rnd sec (2 * (i0 + j)) mod 11) * delta_step - delta_max /\ b_dr b0 = INR (rnd sec (2 * (i0 + j) + 1) mod 11) * delta_step - delta_max).
      { clear. induction l as [|b l IH]; intros i0 j b0 H; [destruct j; discriminate|]. destruct j as [|j]; cbn [randomize nth_error] in H.
        - apply (f_equal (fun o => match o with Some x => x | None => b end)) in H. cbv beta iota in H. subst b0. exists b. rewrite Nat.add_0_r. split; [reflexivity|]. cbn [b_df b_dr]. unfold delta_steps. change (10 + 1)%nat with 11%nat. split; reflexivity.
        - apply IH in H. rewrite Nat.add_succ_r. exact H. }
      destruct (nth_error (randomize rnd sec 0 (s_bots (run (base ++ post)))) i) as [b0|] eqn:E; [|discriminate]. injection H as <-.
      apply R in E as (b & Eb & E1 & E2). exists b. split; [exact Eb|]. split; [intros N; destruct N; apply Ek, L|]. intros _.
      cbn [b_df b_dr update]. rewrite E1, E2, !Nat.add_0_l.
      unfold delta_step, delta_max, delta_steps. replace (INR 10) with 10 by (cbn; lra). split; field.
    - destruct (nth_error (s_bots (run (base ++ post))) i) as [b0|] eqn:E; [|discriminate]. injection H as <-. exists b0. split; [reflexivity|].
      split; [intros _; split; reflexivity|]. intros N. apply Ek in N. lia.
  Qed.

  (** ** The picture *)
  Lemma mark_spec p b i j : (0 <= i < 1000)%Z -> (0 <= j < 1000)%Z -> (p i j = 0 \/ p i j = 255)%Z ->
    (mark p b i j = 0 \/ mark p b i j = 255)%Z /\ (mark p b i j = 0%Z <-> p i j = 0%Z \/ stands_in b i j).
  Proof using rnd.
    intros Hi Hj Hp. unfold mark, stands_in, map_size. cbv zeta. set (x := cell_index (b_x b)). set (y := cell_index (b_y b)). clearbody x y.
    destruct ((x >=? 0) && (x <? 1000) && (y >=? 0) && (y <? 1000))%Z eqn:E.
    - destruct (Z.gtb_spec (p x y) 0) as [G|G].
      + destruct ((i =? x) && (j =? y))%Z eqn:E2.
        * apply andb_prop in E2 as [A B]. apply Z.eqb_eq in A, B. subst. split; [auto|]. tauto.
        * split; [exact Hp|]. split; [auto|]. intros [H|[-> ->]]; [exact H|]. rewrite !Z.eqb_refl in E2. discriminate.
      + split; [exact Hp|]. split; [auto|]. intros [H|[-> ->]]; [exact H|]. destruct Hp as [H|H]; [exact H|lia].
    - split; [exact Hp|]. split; [auto|]. intros [H|[-> ->]]; [exact H|]. exfalso.
      repeat (rewrite andb_false_iff in E). rewrite Z.geb_leb in E. lia.
  Qed.
  Lemma marks_spec bs : forall p i j, (0 <= i < 1000)%Z -> (0 <= j < 1000)%Z -> (p i j = 0 \/ p i j = 255)%Z ->
    (fold_left mark bs p i j = 0 \/ fold_left mark bs p i j = 255)%Z /\ (fold_left mark bs p i j = 0%Z <-> p i j = 0%Z \/ exists b, In b bs /\ stands_in b i j).
  Proof using rnd.
    induction bs as [|b bs IH]; intros p i j Hi Hj Hp; cbn [fold_left].
    - split; [exact Hp|]. split; [auto|]. intros [H|(b & [] & _)]; exact H.
    - destruct (mark_spec p b i j Hi Hj Hp) as [A B]. destruct (IH (mark p b) i j Hi Hj A) as [A' B']. split; [exact A'|]. rewrite B', B. split.
      + intros [[H|H]|(b' & H1 & H2)]; [left; exact H|right; exists b; split; [left; reflexivity|exact H]|right; exists b'; split; [right; exact H1|exact H2]].
      + intros [H|(b' & [<-|H1] & H2)]; [auto|auto|right; exists b'; auto].
  Qed.
  (** A pixel is black exactly if, after one of the steps since the last reset, a
      robot stood in it; all the others are white. *)
  Theorem C71_picture base post i j : (base = [] \/ exists pre, base = pre ++ [EReset]) -> ~ In EReset post -> (0 <= i < 1000)%Z -> (0 <= j < 1000)%Z ->
    (s_pic (run (base ++ post)) i j = 0 \/ s_pic (run (base ++ post)) i j = 255)%Z /\
    (s_pic (run (base ++ post)) i j = 0%Z <-> exists p1 sec p2 b, post = p1 ++ EStep sec :: p2 /\
       In b (s_bots (run (base ++ p1 ++ [EStep sec]))) /\ stands_in b i j).
  Proof using rnd.
    intros Hbase Hn Hi Hj. assert (Hw : forall i j, s_pic (run base) i j = 255%Z).
    { destruct Hbase as [->|(pre & ->)]; [reflexivity|rewrite run_snoc; reflexivity]. }
    assert (Hr : forall p, run (base ++ p) = fold_left (apply rnd) p (run base)) by (intros p; apply run_app).
    set (s0 := run base) in *. clearbody s0. rewrite Hr.
    assert (Goal : (s_pic (fold_left (apply rnd) post s0) i j = 0 \/ s_pic (fold_left (apply rnd) post s0) i j = 255)%Z /\
      (s_pic (fold_left (apply rnd) post s0) i j = 0%Z <-> exists p1 sec p2 b, post = p1 ++ EStep sec :: p2 /\
         In b (s_bots (fold_left (apply rnd) (p1 ++ [EStep sec]) s0)) /\ stands_in b i j)).
    { clear - Hn Hi Hj Hw. induction post as [|e post IH] using rev_ind.
      - cbn [fold_left]. rewrite Hw. split; [auto|]. split; [discriminate|]. intros (p1 & sec & p2 & b & E & _). destruct p1; discriminate.
      - assert (Hn' : ~ In EReset post) by (intros H; apply Hn, in_or_app; left; exact H). destruct (IH Hn') as [A B]. clear IH.
        rewrite !fold_left_app. cbn [fold_left]. set (s := fold_left (apply rnd) post s0) in *.
        destruct e as [sec| |n]; cbn [apply].
        + unfold Sim4wsModel.step at 1 2 3. cbn [s_pic]. set (bs := map _ _).
          destruct (marks_spec bs (s_pic s) i j Hi Hj A) as [A' B']. split; [exact A'|]. rewrite B', B. split.
          * intros [(p1 & sec1 & p2 & b & E & Hb & Hsb)|(b & Hb & Hsb)].
            -- exists p1, sec1, (p2 ++ [EStep sec]), b. split; [rewrite E, <- app_assoc; reflexivity|]. auto.
            -- exists post, sec, [], b. split; [reflexivity|]. split; [|exact Hsb]. rewrite fold_left_app. cbn [fold_left apply]. exact Hb.
          * intros (p1 & sec1 & p2 & b & E & Hb & Hsb). destruct p2 as [|x p2 _] using rev_ind.
            -- apply app_inj_tail in E as [<- E]. injection E as <-. right. exists b. rewrite fold_left_app in Hb. cbn [fold_left apply] in Hb. auto.
            -- left. rewrite app_comm_cons, app_assoc in E. apply app_inj_tail in E as [E _]. exists p1, sec1, p2, b. auto.
        + destruct Hn. apply in_or_app. right. left. reflexivity.
        + cbn [setNumBots s_pic]. split; [exact A|]. rewrite B. split.
          * intros (p1 & sec1 & p2 & b & E & Hb & Hsb). exists p1, sec1, (p2 ++ [EBots n]), b. split; [rewrite E, <- app_assoc; reflexivity|]. auto.
          * intros (p1 & sec1 & p2 & b & E & Hb & Hsb). destruct p2 as [|x p2 _] using rev_ind; [apply app_inj_tail in E as [_ E]; discriminate|].
            rewrite app_comm_cons, app_assoc in E. apply app_inj_tail in E as [E _]. exists p1, sec1, p2, b. auto. }
    destruct Goal as [A B]. split; [exact A|]. rewrite B. split; intros (p1 & sec1 & p2 & b & E & Hb & Hsb); exists p1, sec1, p2, b; (split; [exact E|]); (split; [|exact Hsb]).
    - rewrite Hr. exact Hb.
    - rewrite Hr in Hb. exact Hb.
  Qed.
  (** ** Where the robots are *)
  Definition origin_dist (b : bot) : R := sqrt (b_x b ^ 2 + b_y b ^ 2).
  Lemma triangle a b c d : sqrt ((a + c) ^ 2 + (b + d) ^ 2) <= sqrt (a ^ 2 + b ^ 2) + sqrt (c ^ 2 + d ^ 2).
  Proof using Type.
    assert (P : forall u v : R, 0 <= u ^ 2 + v ^ 2) by (intros u v; nra).
    pose proof (sqrt_pos (a ^ 2 + b ^ 2)) as A0. pose proof (sqrt_pos (c ^ 2 + d ^ 2)) as C0.
    rewrite <- (sqrt_square (sqrt (a ^ 2 + b ^ 2) + sqrt (c ^ 2 + d ^ 2))) by lra. apply sqrt_le_1_alt.
    pose proof (sqrt_sqrt _ (P a b)) as A1. pose proof (sqrt_sqrt _ (P c d)) as C1.
    set (p := sqrt (a ^ 2 + b ^ 2)) in *. set (q := sqrt (c ^ 2 + d ^ 2)) in *.
    assert (X : a * c + b * d <= p * q).
    { apply Rsqr_incr_0_var; [|nra]. unfold Rsqr. replace (p * q * (p * q)) with ((p * p) * (q * q)) by ring. rewrite A1, C1.
      assert (0 <= (a * d - b * c) ^ 2) by apply pow2_ge_0. nra. }
    nra.
  Qed.
  Lemma update_dist d b : 0 <= d -> origin_dist (update d b) <= origin_dist b + d.
  Proof using Type.
    intros Hd. pose proof (update_apart d b Hd) as A. unfold apart, origin_dist in *. set (b' := update d b) in *. clearbody b'.
    apply Rle_trans with (sqrt (b_x b ^ 2 + b_y b ^ 2) + sqrt ((b_x b' - b_x b) ^ 2 + (b_y b' - b_y b) ^ 2)); [|lra].
    replace (b_x b' ^ 2 + b_y b' ^ 2) with ((b_x b + (b_x b' - b_x b)) ^ 2 + (b_y b + (b_y b' - b_y b)) ^ 2) by ring.
    apply triangle.
  Qed.
  (** After n steps in all, no robot is further than n x 10 cm from the middle. *)
  Theorem C71_range l b : In b (s_bots (run l)) -> sqrt (b_x b ^ 2 + b_y b ^ 2) <= INR (steps l) * / 10.
  Proof using Type.
    revert b. induction l as [|e l IH] using rev_ind; intros b Hb.
    - assert (E : b = new_bot) by (unfold Sim4wsModel.run, init in Hb; cbn [fold_left reset s_bots setNumBots] in Hb; rewrite firstn_nil in Hb; apply (repeat_spec _ _ _ Hb)).
      subst b. cbn [b_x b_y new_bot]. replace (0 ^ 2 + 0 ^ 2) with 0 by ring. rewrite sqrt_0. cbn. lra.
    - rewrite run_snoc in Hb. unfold steps. rewrite filter_app, app_length, plus_INR. fold (steps l).
      destruct e as [sec| |n]; cbn [apply filter is_step length] in *.
      + unfold Sim4wsModel.step in Hb. cbn [s_bots] in Hb. apply in_map_iff in Hb as (b0 & <- & Hb).
        assert (Ed : speed * t_step = / 10) by (unfold speed, t_step; lra). rewrite Ed.
        assert (X : origin_dist b0 <= INR (steps l) * / 10).
        { destruct (changes _); [|apply IH, Hb].
          pose proof (randomize_pose sec (s_bots (run l)) 0) as F. clear - F Hb IH.
          induction F as [|b b' bs ms (E1 & E2 & _) F IHF]; [destruct Hb|]. destruct Hb as [->|Hb].
          - unfold origin_dist. rewrite E1, E2. apply IH. left. reflexivity.
          - apply IHF; [intros c Hc; apply IH; right; exact Hc|exact Hb]. }
        pose proof (update_dist (/ 10) b0 ltac:(lra)) as Y. unfold origin_dist in *. cbn [INR]. lra.
      + cbn [reset s_bots] in Hb. specialize (IH b Hb). cbn [INR]. lra.
      + unfold setNumBots in Hb. cbn [s_bots] in Hb. cbn [INR]. apply in_app_or in Hb as [Hb|Hb].
        * assert (Hin : In b (s_bots (run l))) by (rewrite <- (firstn_skipn n (s_bots (run l))); apply in_or_app; left; exact Hb). specialize (IH b Hin). lra.
        * apply repeat_spec in Hb as ->. cbn [b_x b_y new_bot]. replace (0 ^ 2 + 0 ^ 2) with 0 by ring. rewrite sqrt_0. pose proof (pos_INR (steps l)). lra.
  Qed.
  Lemma coord_le b : Rabs (b_x b) <= sqrt (b_x b ^ 2 + b_y b ^ 2) /\ Rabs (b_y b) <= sqrt (b_x b ^ 2 + b_y b ^ 2).
  Proof using Type.
    rewrite <- !sqrt_Rsqr_abs. unfold Rsqr. pose proof (pow2_ge_0 (b_x b)). pose proof (pow2_ge_0 (b_y b)). split; apply sqrt_le_1_alt; lra.
  Qed.
  (** So each of them is drawn in the picture after each of the first 499 steps,
      and the conversions to int are defined for the first 2147483146 steps. *)
  Theorem C71_inside l b : (steps l <= 499)%nat -> In b (s_bots (run l)) ->
    (1 <= cell_index (b_x b) <= 999)%Z /\ (1 <= cell_index (b_y b) <= 999)%Z.
  Proof using Type.
    intros Hl Hb. pose proof (C71_range l b Hb) as R. destruct (coord_le b) as [X Y].
    assert (N : INR (steps l) <= 499) by (replace 499 with (INR 499) by (rewrite INR_IZR_INZ; reflexivity); apply le_INR; exact Hl).
    assert (G : forall x, Rabs x <= INR (steps l) * / 10 -> (1 <= cell_index x <= 999)%Z).
    { intros x Hx. apply Rabs_le_inv in Hx. unfold cell_index, map_res, map_size. change (1000 / 2)%Z with 500%Z. replace (x / / 10 + 500) with (10 * x + 500) by field.
      rewrite Ztrunc_floor by lra. split; [apply Zfloor_lub; lra|]. apply Z.lt_succ_r. apply lt_IZR. eapply Rle_lt_trans; [apply Zfloor_lb|]. change (IZR (Z.succ 999)) with 1000. lra. }
    split; apply G; lra.
  Qed.
  Theorem C71_defined l b : (Z.of_nat (steps l) <= 2147483146)%Z -> In b (s_bots (run l)) ->
    (-2147483648 <= cell_index (b_x b) <= 2147483647)%Z /\ (-2147483648 <= cell_index (b_y b) <= 2147483647)%Z.
  Proof using Type.
    intros Hl Hb. pose proof (C71_range l b Hb) as R. destruct (coord_le b) as [X Y].
    assert (N : INR (steps l) <= 2147483146) by (rewrite INR_IZR_INZ; apply IZR_le; exact Hl).
    assert (G : forall x, Rabs x <= INR (steps l) * / 10 -> (-2147483648 <= cell_index x <= 2147483647)%Z).
    { intros x Hx. apply Rabs_le_inv in Hx. unfold cell_index, map_res, map_size. change (1000 / 2)%Z with 500%Z. replace (x / / 10 + 500) with (10 * x + 500) by field.
      pose proof Ztrunc_le as A.
      split.
      - rewrite <- (Ztrunc_IZR (-2147483648)). apply A. lra.
      - rewrite <- (Ztrunc_IZR 2147483647). apply A. lra. }
    split; apply G; lra.
  Qed.
End Sim.

(** Changing the number of robots keeps the first ones; new ones stand in the
    middle, wheels straight; the picture and the clock are not touched. *)
Theorem C71_bots rnd l n : let s := run rnd l in let s' := run rnd (l ++ [EBots n]) in
  length (s_bots s') = n /\ s_pic s' = s_pic s /\ s_t s' = s_t s /\
  forall i, (i < n)%nat -> nth_error (s_bots s') i = Some (nth i (s_bots s) (Bot 0 0 0 0 0 0 (/ 2))).
Proof.
  cbv zeta. rewrite run_snoc. cbn [apply]. unfold setNumBots. cbn [s_bots s_pic s_t]. set (bs := s_bots (run rnd l)). clearbody bs.
  split; [rewrite app_length, firstn_length, repeat_length; lia|]. split; [reflexivity|]. split; [reflexivity|].
  intros i Hi. destruct (Nat.lt_ge_cases i (length bs)) as [H|H].
  - rewrite nth_error_app1 by (rewrite firstn_length; lia). rewrite <- (firstn_skipn n bs) at 2. rewrite app_nth1 by (rewrite firstn_length; lia).
    apply nth_error_nth'. rewrite firstn_length. lia.
  - rewrite nth_error_app2 by (rewrite firstn_length; lia). rewrite firstn_length, (nth_overflow bs) by exact H. apply nth_error_repeat. lia.
Qed.
(** The clock is the number of steps since the last reset times 0.1 s. *)
Theorem C71_clock rnd base post : (base = [] \/ exists pre, base = pre ++ [EReset]) -> ~ In EReset post ->
  s_t (run rnd (base ++ post)) = INR (steps post) * / 10.
Proof.
  intros Hb. induction post as [|e post IH] using rev_ind; intros Hn.
  - rewrite app_nil_r. assert (E : s_t (run rnd base) = 0) by (destruct Hb as [->|(pre & ->)]; [reflexivity|rewrite run_snoc; reflexivity]). rewrite E. cbn. lra.
  - assert (Hn' : ~ In EReset post) by (intros H; apply Hn, in_or_app; left; exact H). specialize (IH Hn').
    rewrite app_assoc, run_snoc. unfold steps in *. rewrite filter_app, app_length, plus_INR.
    destruct e as [sec| |n]; cbn [apply filter is_step length INR].
    + unfold step. cbn [s_t]. rewrite IH. unfold t_step. lra.
    + destruct Hn. apply in_or_app. right. left. reflexivity.
    + cbn [setNumBots s_t]. rewrite IH. lra.
Qed.

(** A pixel is 10 cm wide, but the first row and column take 20 cm (the
    conversion rounds towards zero, so robots just outside are drawn there). *)
Theorem C71_pixel x i : (0 <= i)%Z ->
  cell_index x = i <-> (if (i =? 0)%Z then - 50 - / 10 < x else - 50 + IZR i / 10 <= x) /\ x < - 50 + (IZR i + 1) / 10.
Proof.
  intros Hi. unfold cell_index, map_res, map_size. change (1000 / 2)%Z with 500%Z. replace (x / / 10 + 500) with (10 * x + 500) by field. set (y := 10 * x + 500).
  assert (Ex : x = (y - 500) / 10) by (unfold y; field). clearbody y. subst x. unfold Ztrunc. destruct (Rlt_bool_spec y 0) as [H|H].
  - destruct (Z.eqb_spec i 0) as [->|N].
    + split.
      * intros E. split; [|lra]. assert (Hc : y <= IZR (Zceil y)) by apply Zceil_ub. rewrite E in Hc. pose proof (Zceil_lb y) as L. rewrite E in L. lra.
      * intros [A _]. apply Zceil_imp. cbn. lra.
    + assert (I1 : 1 <= IZR i) by (apply IZR_le; lia). split.
      * intros E. exfalso. pose proof (Zceil_lb y) as L. rewrite E in L. lra.
      * intros [A _]. exfalso. lra.
  - destruct (Z.eqb_spec i 0) as [->|N].
    + split.
      * intros E. pose proof (Zfloor_ub y) as B. rewrite E in B. lra.
      * intros [_ A]. apply Zfloor_imp. cbn. lra.
    + split.
      * intros E. pose proof (Zfloor_ub y) as B. pose proof (Zfloor_lb y) as L. rewrite E in B, L. lra.
      * intros [A B]. apply Zfloor_imp. rewrite plus_IZR. lra.
Qed.

(** ** Constant steering *)
Fixpoint iter_update (d : R) (k : nat) (b : bot) : bot := match k with O => b | S k => update d (iter_update d k b) end.
(** The change of heading per step once the body has settled in its slip angle. *)
Definition turn (d : R) (b : bot) : R := cos (b_beta b) * (tan (b_df b) - tan (b_dr b)) * d / b_l b.
Definition settled (b : bot) : Prop := b_beta b = atan (/ 2 * (tan (b_df b) + tan (b_dr b))).
(** After one update the slip angle fits the wheels. *)
Theorem C71_settles d b : settled (update d b).
Proof. reflexivity. Qed.
Lemma iter_same d k b : settled b -> let c := iter_update d k b in
  b_df c = b_df b /\ b_dr c = b_dr b /\ b_l c = b_l b /\ b_beta c = b_beta b /\ b_theta c = b_theta b + INR k * turn d b.
Proof.
  intros Hs. induction k as [|k (E1 & E2 & E3 & E4 & E5)]; [cbn; repeat split; lra|]. cbn zeta in *.
  change (iter_update d (S k) b) with (update d (iter_update d k b)). set (c := iter_update d k b) in *. clearbody c.
  unfold update. cbv zeta. cbn [b_df b_dr b_l b_beta b_theta]. rewrite E1, E2, E3, E4. repeat split; [symmetry; exact Hs|].
  rewrite E5, S_INR. unfold turn. unfold Rdiv. ring.
Qed.
(** With the wheels held, a settled robot that turns stays on one circle ... *)
Theorem C71_circle d b : settled b -> sin (turn d b / 2) <> 0 ->
  exists cx cy, forall k, let c := iter_update d k b in
    (b_x c - cx) ^ 2 + (b_y c - cy) ^ 2 = (d / (2 * sin (turn d b / 2))) ^ 2.
Proof.
  intros Hs Hn. set (t := turn d b) in *. set (r := d / (2 * sin (t / 2))) in *. set (a := b_theta b + b_beta b).
  assert (H : forall k, b_x (iter_update d k b) = b_x b + r * (sin (a + INR k * t) - sin a) /\ b_y (iter_update d k b) = b_y b - r * (cos (a + INR k * t) - cos a)).
  { induction k as [|k [E1 E2]]; [cbn [iter_update INR]; rewrite Rmult_0_l, Rplus_0_r; split; ring|].
    destruct (iter_same d k b Hs) as (F1 & F2 & F3 & F4 & F5). cbn zeta in *. change (iter_update d (S k) b) with (update d (iter_update d k b)).
    set (c := iter_update d k b) in *. clearbody c. unfold update. cbv zeta. cbn [b_x b_y]. rewrite F1, F2, F3, F4, F5, E1, E2. rewrite <- Hs. fold (turn d b). fold t.
    replace (b_theta b + INR k * t + t / 2 + (b_beta b + b_beta b) / 2) with (a + INR k * t + t / 2) by (unfold a; field). rewrite S_INR.
    replace (a + (INR k + 1) * t) with (a + INR k * t + t / 2 + t / 2) by field. set (m := a + INR k * t + t / 2).
    replace (a + INR k * t) with (m - t / 2) by (unfold m; ring). rewrite sin_plus, cos_plus, sin_minus, cos_minus. unfold r.
    split; field; exact Hn. }
  exists (b_x b - r * sin a), (b_y b + r * cos a). intros k c. destruct (H k) as [E1 E2]. unfold c. rewrite E1, E2. set (u := a + INR k * t).
  replace (b_x b + r * (sin u - sin a) - (b_x b - r * sin a)) with (r * sin u) by ring.
  replace (b_y b - r * (cos u - cos a) - (b_y b + r * cos a)) with (- (r * cos u)) by ring.
  pose proof (sin2_cos2 u) as P. unfold Rsqr in P. replace ((r * sin u) ^ 2 + (- (r * cos u)) ^ 2) with (r ^ 2 * (sin u * sin u + cos u * cos u)) by ring. rewrite P. ring.
Qed.
(** ... and one whose wheels are parallel moves straight on, along the wheels. *)
Theorem C71_straight d b k : settled b -> b_df b = b_dr b -> - PI / 2 < b_df b < PI / 2 -> let c := iter_update d k b in
  b_theta c = b_theta b /\ b_x c = b_x b + INR k * d * cos (b_theta b + b_df b) /\ b_y c = b_y b + INR k * d * sin (b_theta b + b_df b).
Proof.
  intros Hs He Hr. assert (T : turn d b = 0) by (unfold turn; rewrite He; rewrite Rminus_diag_eq by reflexivity; unfold Rdiv; ring).
  assert (B : b_beta b = b_df b).
  { rewrite Hs, He. replace (/ 2 * (tan (b_dr b) + tan (b_dr b))) with (tan (b_dr b)) by field. rewrite <- He. apply atan_tan. lra. }
  induction k as [|k (E1 & E2 & E3)]; [cbn; repeat split; ring|]. cbn zeta in *. destruct (iter_same d k b Hs) as (F1 & F2 & F3 & F4 & F5). cbn zeta in *.
  change (iter_update d (S k) b) with (update d (iter_update d k b)). set (c := iter_update d k b) in *. clearbody c. unfold update. cbv zeta. cbn [b_x b_y b_theta].
  rewrite F1, F2, F3, F4, E1, E2, E3, <- Hs. fold (turn d b). rewrite T, S_INR. rewrite B.
  replace (b_theta b + 0 / 2 + (b_df b + b_df b) / 2) with (b_theta b + b_df b) by field. repeat split; ring.
Qed.


Lemma init_bots : s_bots init = repeat new_bot 1000.
Proof. reflexivity. Qed.
Lemma first_bots rnd sec : s_bots (run rnd [EStep sec]) = map (update (/ 10)) (repeat new_bot 1000).
Proof.
  unfold run. cbn [fold_left apply]. unfold step. cbn [s_bots]. rewrite changes_spec. change (s_count init) with 0%nat. cbn [Nat.ltb Nat.leb]. rewrite init_bots.
  replace (speed * t_step) with (/ 10) by (unfold speed, t_step; lra). reflexivity.
Qed.
Lemma new_in : In new_bot (repeat new_bot 1000).
Proof. left. reflexivity. Qed.

(** ** Examples and refuted expectations *)
(** reset() leaves the robots where they are: after a step and a reset they do
    not start in the middle again. *)
Theorem C71_reset_refuted rnd sec : exists b, In b (s_bots (run rnd [EStep sec; EReset])) /\ b_x b = / 10.
Proof.
  change (s_bots (run rnd [EStep sec; EReset])) with (s_bots (run rnd [EStep sec])). rewrite first_bots.
  exists (update (/ 10) new_bot). split; [apply in_map, new_in|].
  unfold update. cbv zeta. cbn [new_bot b_x b_df b_dr b_theta b_beta b_l]. rewrite tan_0. replace (/ 2 * (0 + 0)) with 0 by ring. rewrite atan_0.
  replace (0 + cos 0 * (0 - 0) * / 10 / / 2 / 2 + (0 + 0) / 2) with 0 by field. rewrite cos_0. lra.
Qed.
(** The same angles again if two changes fall into the same second. *)
Theorem C71_same_second_refuted rnd base1 post1 base2 post2 sec i b1 b2 :
  (base1 = [] \/ exists pre, base1 = pre ++ [EReset]) -> ~ In EReset post1 -> (S (steps post1) mod 11 = 0)%nat ->
  (base2 = [] \/ exists pre, base2 = pre ++ [EReset]) -> ~ In EReset post2 -> (S (steps post2) mod 11 = 0)%nat ->
  nth_error (s_bots (run rnd (base1 ++ post1 ++ [EStep sec]))) i = Some b1 -> nth_error (s_bots (run rnd (base2 ++ post2 ++ [EStep sec]))) i = Some b2 ->
  b_df b1 = b_df b2 /\ b_dr b1 = b_dr b2.
Proof.
  intros B1 N1 S1 B2 N2 S2 E1 E2. destruct (C71_steering rnd base1 post1 sec i b1 B1 N1 E1) as (c1 & _ & _ & A1). destruct (C71_steering rnd base2 post2 sec i b2 B2 N2 E2) as (c2 & _ & _ & A2).
  destruct (A1 S1) as [-> ->]. destruct (A2 S2) as [-> ->]. auto.
Qed.
(** A robot with the front wheels at 20 degrees and the rear ones straight, after its first update, drives on a circle. *)
Example C71_circle_example : let b := update (/ 10) (Bot 0 0 0 0 (20 * PI / 180) 0 (/ 2)) in settled b /\ sin (turn (/ 10) b / 2) <> 0.
Proof.
  cbv zeta. split; [apply C71_settles|]. apply Rgt_not_eq. unfold turn. cbn [b_beta b_df b_dr b_l update]. rewrite tan_0.
  set (t := tan (20 * PI / 180)). pose proof PI_RGT_0 as P.
  assert (T0 : 0 < t) by (apply tan_gt_0; lra). assert (T1 : t < 1) by (rewrite <- tan_PI4; apply tan_increasing; lra).
  set (be := atan (/ 2 * (t + 0))). assert (B : 0 < cos be <= 1).
  { split; [|apply COS_bound]. pose proof (atan_bound (/ 2 * (t + 0))). fold be in H. apply cos_gt_0; lra. }
  apply sin_gt_0.
  - replace (cos be * (t - 0) * / 10 / / 2 / 2) with (cos be * t * / 10) by field. assert (0 < cos be * t) by (apply Rmult_lt_0_compat; lra). lra.
  - replace (cos be * (t - 0) * / 10 / / 2 / 2) with (cos be * t * / 10) by field. assert (cos be * t <= 1 * 1) by (apply Rmult_le_compat; lra).
    pose proof PI2_1 as P2. unfold PI2 in P2. lra.
Qed.
Example C71_picture_example : forall rnd, s_pic (run rnd [EStep 7%Z]) 501 500 = 0%Z /\ s_pic (run rnd [EStep 7%Z]) 500 500 = 255%Z.
Proof.
  intros rnd. assert (A : forall i j, (0 <= i < 1000)%Z -> (0 <= j < 1000)%Z -> (s_pic (run rnd [EStep 7%Z]) i j = 0 \/ s_pic (run rnd [EStep 7%Z]) i j = 255)%Z /\
    (s_pic (run rnd [EStep 7%Z]) i j = 0%Z <-> (i, j) = (501, 500)%Z)).
  { intros i j Hi Hj. destruct (C71_picture rnd [] [EStep 7%Z] i j) as [A B]; [left; reflexivity|intros [H|[]]; discriminate|exact Hi|exact Hj|]. cbn [app] in *. split; [exact A|]. rewrite B.
    assert (Hb : forall b, In b (s_bots (run rnd [EStep 7%Z])) <-> b = update (/ 10) new_bot).
    { intros b. rewrite first_bots. split.
      - intros H. apply in_map_iff in H as (b0 & <- & H). apply repeat_spec in H as ->. reflexivity.
      - intros ->. apply in_map, new_in. }
    assert (Es : stands_in (update (/ 10) new_bot) 501 500).
    { assert (E : b_x (update (/ 10) new_bot) = / 10 /\ b_y (update (/ 10) new_bot) = 0).
      { unfold update. cbv zeta. cbn [new_bot b_x b_y b_df b_dr b_theta b_beta b_l]. rewrite tan_0. replace (/ 2 * (0 + 0)) with 0 by ring. rewrite atan_0.
        replace (0 + cos 0 * (0 - 0) * / 10 / / 2 / 2 + (0 + 0) / 2) with 0 by field. rewrite cos_0, sin_0. split; ring. }
      unfold stands_in. destruct E as [-> ->]. split; apply C71_pixel; cbn; lra || lia. }
    split.
    - intros (p1 & sec & p2 & b & E & Hin & Hst). destruct p1 as [|x p1]; [|destruct p1; discriminate]. injection E as <- <-. cbn [app] in Hin. apply Hb in Hin as ->.
      destruct Es as [E1 E2], Hst as [E3 E4]. congruence.
    - intros E. injection E as -> ->. exists [], 7%Z, [], (update (/ 10) new_bot). split; [reflexivity|]. split; [apply Hb; reflexivity|exact Es]. }
  split; [apply A; [lia|lia|reflexivity]|]. destruct (A 500%Z 500%Z) as [[H|H] B]; [lia|lia| |exact H]. apply B in H. discriminate.
Qed.
Print Assumptions C71_picture.
Print Assumptions C71_circle.
