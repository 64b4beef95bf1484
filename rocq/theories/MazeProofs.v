(** The depth first search of Maze::run: its invariant and its end. *)
From Coq Require FinFun Wf_nat.
From Verif Require Import Base MazeModel MazeTree.

(** The rooms of a maze with [h] columns and [w] rows of rooms. *)
Definition in_grid (w h : Z) (p : room) : Prop := 0 <= fst p < h /\ 0 <= snd p < w.
(** Two rooms share a wall. *)
Definition beside (a b : room) : Prop := Z.abs (fst a - fst b) + Z.abs (snd a - snd b) = 1.

Definition zrange (n : Z) : list Z := map Z.of_nat (seq 0 (Z.to_nat n)).
Lemma zrange_in n z : In z (zrange n) <-> 0 <= z < n.
Proof.
  unfold zrange. rewrite in_map_iff. split.
  - intros (k & <- & H). apply in_seq in H. lia.
  - intros H. exists (Z.to_nat z). split; [lia|]. apply in_seq. lia.
Qed.
Definition rooms (w h : Z) : list room := list_prod (zrange h) (zrange w).
Lemma rooms_in w h p : In p (rooms w h) <-> in_grid w h p.
Proof. destruct p as [x y]. unfold rooms, in_grid, room. rewrite in_prod_iff, !zrange_in. cbn. tauto. Qed.
Lemma rooms_length w h : 0 <= w -> 0 <= h -> Z.of_nat (length (rooms w h)) = w * h.
Proof. intros. unfold rooms, zrange, room. rewrite prod_length, !map_length, !seq_length. nia. Qed.
Lemma nodup_app {A} (l k : list A) : NoDup l -> NoDup k -> (forall x, In x l -> ~ In x k) -> NoDup (l ++ k).
Proof.
  induction 1 as [|x l X L IH]; intros K D; cbn; [exact K|]. constructor.
  - rewrite in_app_iff. intros [Y|Y]; [contradiction|]. apply (D x); [left; reflexivity|exact Y].
  - apply IH; [exact K|]. intros y Y. apply D. right. exact Y.
Qed.
Lemma rooms_nodup w h : NoDup (rooms w h).
Proof.
  assert (Z1 : forall n, NoDup (zrange n)).
  { intros n. unfold zrange. apply FinFun.Injective_map_NoDup; [intros a b; lia|apply seq_NoDup]. }
  unfold rooms. generalize (Z1 h) (Z1 w). generalize (zrange h) (zrange w). clear. intros l k Hl Hk.
  induction Hl as [|x l X Hl IH]; cbn; [constructor|]. apply nodup_app; [|exact IH|].
  - apply FinFun.Injective_map_NoDup; [intros a b E; congruence|exact Hk].
  - intros p P Q. apply in_map_iff in P as (y & <- & _). unfold room in Q. apply in_prod_iff in Q as [Q _]. contradiction.
Qed.

(** A set of rooms that contains the neighbours of its members contains every room. *)
Lemma grid_closed w h (P : room -> Prop) r : in_grid w h r -> P r ->
  (forall a b, P a -> in_grid w h a -> in_grid w h b -> beside a b -> P b) -> forall q, in_grid w h q -> P q.
Proof.
  intros Hr Pr Step q Hq. remember (Z.to_nat (Z.abs (fst q - fst r) + Z.abs (snd q - snd r))) as n eqn:En.
  revert q Hq En. induction n as [|n IH]; intros [x y] Hq En; destruct r as [rx ry]; unfold in_grid in *; cbn [fst snd] in *.
  - assert (x = rx) as -> by lia. assert (y = ry) as -> by lia. exact Pr.
  - destruct (Z.eq_dec x rx) as [->|Hx].
    + pose (y' := if y <? ry then y + 1 else y - 1). assert (Y : (y' = y + 1 /\ y < ry) \/ (y' = y - 1 /\ ry < y)) by (unfold y'; destruct (Z.ltb_spec y ry); lia). clearbody y'.
      apply (Step (rx, y') (rx, y)); cbn [fst snd]; [apply IH; cbn [fst snd]; lia|lia|lia|unfold beside; cbn [fst snd]; lia].
    + pose (x' := if x <? rx then x + 1 else x - 1). assert (Y : (x' = x + 1 /\ x < rx) \/ (x' = x - 1 /\ rx < x)) by (unfold x'; destruct (Z.ltb_spec x rx); lia). clearbody x'.
      apply (Step (x', y) (x, y)); cbn [fst snd]; [apply IH; cbn [fst snd]; lia|lia|lia|unfold beside; cbn [fst snd]; lia].
Qed.

Section Run.
  Variable m : maze.
  Let w := mz_w m.
  Let h := mz_h m.
  Hypothesis Hw : 0 <= w.
  Hypothesis Hh : 0 <= h.

  Lemma idx_in p : in_grid w h p -> mz_idx m p = snd p * h + fst p /\ 0 <= mz_idx m p < mz_n m.
  Proof using Hw Hh.
    intros [X Y]. unfold mz_idx. fold w h. replace ((fst p <? 0) || (snd p <? 0) || (fst p =? h) || (snd p =? w)) with false by lia.
    split; [reflexivity|]. unfold mz_n. fold w h. nia.
  Qed.
  Lemma idx_inj p q : in_grid w h p -> in_grid w h q -> mz_idx m p = mz_idx m q -> p = q.
  Proof using Hw Hh.
    intros P Q E. rewrite (proj1 (idx_in p P)), (proj1 (idx_in q Q)) in E. destruct p as [x y], q as [x' y'], P as [P1 P2], Q as [Q1 Q2]. cbn [fst snd] in *.
    assert (y = y') by nia. subst y'. f_equal. lia.
  Qed.
  Lemma dir_cases n : 0 <= n < 4 -> (mz_dir n = (-1, 0) \/ mz_dir n = (0, -1) \/ mz_dir n = (1, 0) \/ mz_dir n = (0, 1)).
  Proof using Hw Hh. intros H. unfold mz_dir. repeat match goal with |- context [if ?b then _ else _] => destruct b eqn:? end; tauto. Qed.
  Lemma go_beside p n : 0 <= n < 4 -> beside p (mz_go p n).
  Proof using Hw Hh. intros H. unfold beside, mz_go. destruct (dir_cases n H) as [->|[->|[->| ->]]]; cbn [fst snd]; lia. Qed.
  Lemma beside_go p q : beside p q -> exists n, In n [0; 1; 2; 3] /\ q = mz_go p n.
  Proof using Hw Hh.
    destruct p as [x y], q as [x' y']. unfold beside, mz_go. cbn [fst snd]. intros H.
    assert (C : (x' = x - 1 /\ y' = y) \/ (x' = x /\ y' = y - 1) \/ (x' = x + 1 /\ y' = y) \/ (x' = x /\ y' = y + 1)) by lia.
    destruct C as [[-> ->]|[[-> ->]|[[-> ->]|[-> ->]]]]; [exists 0|exists 1|exists 2|exists 3]; (split; [cbn; tauto|]); cbn; f_equal; lia.
  Qed.
  (** A neighbour off the grid has index -1, one on the grid an index of the array. *)
  Lemma go_idx p n : in_grid w h p -> 0 <= n < 4 -> (in_grid w h (mz_go p n) /\ 0 <= mz_idx m (mz_go p n) < mz_n m) \/ (~ in_grid w h (mz_go p n) /\ mz_idx m (mz_go p n) = -1).
  Proof using Hw Hh.
    intros P Hn. assert (D : in_grid w h (mz_go p n) \/ ~ in_grid w h (mz_go p n)) by (unfold in_grid; lia). destruct D as [D|D]; [left|right]; (split; [exact D|]).
    - apply idx_in, D.
    - unfold mz_idx. fold w h. pose proof (go_beside p n Hn) as B. unfold beside, in_grid in *.
      replace ((fst (mz_go p n) <? 0) || (snd (mz_go p n) <? 0) || (fst (mz_go p n) =? h) || (snd (mz_go p n) =? w)) with true by lia. reflexivity.
  Qed.
  Lemma has_spec vis p ns : in_grid w h p -> (forall n, In n ns -> 0 <= n < 4) ->
    exists b, mz_has m vis p ns = Some b /\ (b = true <-> exists n, In n ns /\ in_grid w h (mz_go p n) /\ vis (mz_idx m (mz_go p n)) = false).
  Proof using Hw Hh.
    intros P. induction ns as [|n ns IH]; intros Hn; cbn [mz_has].
    - exists false. split; [reflexivity|]. split; [discriminate|]. intros (n & [] & _).
    - destruct (IH (fun k K => Hn k (or_intror K))) as (b & E & B). cbv zeta. destruct (go_idx p n P (Hn n (or_introl eq_refl))) as [[D I]|[D I]].
      + replace (mz_idx m (mz_go p n) >=? 0) with true by lia. unfold mz_read. replace ((0 <=? mz_idx m (mz_go p n)) && (mz_idx m (mz_go p n) <? mz_n m)) with true by lia.
        destruct (vis (mz_idx m (mz_go p n))) eqn:F.
        * exists b. split; [exact E|]. rewrite B. split; intros (k & K & X); exists k; [split; [right; exact K|exact X]|].
          destruct K as [<-|K]; [destruct X; congruence|split; assumption].
        * exists true. split; [reflexivity|]. split; [intros _; exists n; split; [left; reflexivity|split; assumption]|reflexivity].
      + rewrite I. change (-1 >=? 0) with false. exists b. split; [exact E|]. rewrite B. split; intros (k & K & X); exists k; [split; [right; exact K|exact X]|].
        destruct K as [<-|K]; [destruct X; contradiction|split; assumption].
  Qed.
  Lemma has_four vis p : in_grid w h p -> exists b, mz_has m vis p [0; 1; 2; 3] = Some b /\
    (b = true <-> exists q, beside p q /\ in_grid w h q /\ vis (mz_idx m q) = false).
  Proof using Hw Hh.
    intros P. destruct (has_spec vis p [0; 1; 2; 3] P) as (b & E & B); [intros n N; cbn in N; lia|]. exists b. split; [exact E|]. rewrite B. split.
    - intros (n & N & X). exists (mz_go p n). split; [apply go_beside; cbn in N; lia|exact X].
    - intros (q & Q & X). destruct (beside_go p q Q) as (n & N & ->). exists n. split; assumption.
  Qed.

  (** The invariant of the loop; [V] are the visited rooms. *)
  Record inv (V : list room) (st : mstate) : Prop := {
    i_tree : grown V (ms_joined st);
    i_grid : forall p, In p V -> in_grid w h p;
    i_vis : forall p, in_grid w h p -> (ms_vis st (mz_idx m p) = true <-> In p V);
    i_count : ms_count st = Z.of_nat (length V);
    i_beside : forall a b, In (a, b) (ms_joined st) -> beside a b;
    i_cur : In (ms_cur st) V;
    i_open : forall p, In p (ms_open st) -> In p V;
    i_done : forall p q, In p V -> p <> ms_cur st -> ~ In p (ms_open st) -> beside p q -> in_grid w h q -> In q V }.

  Lemma inv_start sx sy s : s = (Z.quot sx (mz_width m), Z.quot sy (mz_width m)) -> in_grid w h s ->
    exists st, mz_start m mz_fresh sx sy = Going AtLoop st /\ inv [s] st.
  Proof using Hw Hh.
    intros -> S0. unfold mz_start, mz_mark. cbv zeta. set (s := (Z.quot sx (mz_width m), Z.quot sy (mz_width m))) in *. pose proof (proj2 (idx_in s S0)) as I.
    replace ((0 <=? mz_idx m s) && (mz_idx m s <? mz_n m)) with true by lia. eexists. split; [reflexivity|]. constructor; cbn [ms_vis ms_count ms_open ms_cur ms_rnd ms_joined].
    - constructor.
    - intros p [<-|[]]. exact S0.
    - intros p P. unfold mz_fresh. destruct (Z.eqb_spec (mz_idx m p) (mz_idx m s)) as [E|E].
      + apply idx_inj in E; [|exact P|exact S0]. subst p. split; [intros _; left; reflexivity|reflexivity].
      + split; [discriminate|]. intros [<-|[]]. contradiction.
    - reflexivity.
    - intros a b [].
    - left; reflexivity.
    - intros p [].
    - intros p q [<-|[]] Hp. contradiction.
  Qed.

  (** One round keeps the invariant and gets on, unless the sample is turned down. *)
  Lemma inv_round rnd V st : inv V st -> ms_count st < mz_n m ->
    exists V' st', mz_round m rnd st = Going AtLoop st' /\ inv V' st' /\
      ((V' = V /\ ms_cur st' = ms_cur st /\ ms_open st' = ms_open st /\ ms_vis st' = ms_vis st /\ ms_count st' = ms_count st /\ ms_rnd st' = S (ms_rnd st) /\
        exists n, 0 <= n < 4 /\ in_grid w h (mz_go (ms_cur st) n) /\ ~ In (mz_go (ms_cur st) n) V /\ rnd (ms_rnd st) mod 4 <> n) \/
       (ms_count st' = ms_count st + 1 /\ length (ms_open st') = S (length (ms_open st))) \/
       (ms_count st' = ms_count st /\ S (length (ms_open st')) = length (ms_open st))).
  Proof using Hw Hh.
    intros I L. assert (Cg : in_grid w h (ms_cur st)) by apply (i_grid _ _ I), (i_cur _ _ I).
    unfold mz_round. replace (ms_count st <? mz_n m) with true by lia. destruct (has_four (ms_vis st) (ms_cur st) Cg) as (b & -> & B). destruct b.
    - destruct (proj1 B eq_refl) as (q & Q1 & Q2 & Q3). destruct (beside_go _ _ Q1) as (k & K & ->). assert (K4 : 0 <= k < 4) by (cbn in K; lia).
      assert (Qn : ~ In (mz_go (ms_cur st) k) V) by (rewrite <- (i_vis _ _ I) by assumption; congruence).
      set (n := rnd (ms_rnd st) mod 4). assert (N4 : 0 <= n < 4) by (apply Z.mod_pos_bound; lia). cbv zeta.
      set (st1 := {| ms_vis := ms_vis st; ms_count := ms_count st; ms_open := ms_open st; ms_cur := ms_cur st; ms_rnd := S (ms_rnd st); ms_joined := ms_joined st |}).
      assert (I1 : inv V st1) by (destruct I; constructor; assumption).
      assert (Rej : n <> k -> exists V' st', Going AtLoop st1 = Going AtLoop st' /\ inv V' st' /\
        ((V' = V /\ ms_cur st' = ms_cur st /\ ms_open st' = ms_open st /\ ms_vis st' = ms_vis st /\ ms_count st' = ms_count st /\ ms_rnd st' = S (ms_rnd st) /\
          exists n0, 0 <= n0 < 4 /\ in_grid w h (mz_go (ms_cur st) n0) /\ ~ In (mz_go (ms_cur st) n0) V /\ n <> n0) \/
         (ms_count st' = ms_count st + 1 /\ length (ms_open st') = S (length (ms_open st))) \/
         (ms_count st' = ms_count st /\ S (length (ms_open st')) = length (ms_open st)))).
      { intros X. exists V, st1. split; [reflexivity|]. split; [exact I1|]. left. repeat (split; [reflexivity|]). exists k. repeat split; try assumption; try apply K4; try apply Q2. }
      destruct (go_idx (ms_cur st) n Cg N4) as [[D J]|[D J]].
      2:{ rewrite J. change (-1 >=? 0) with false. apply Rej. intros X. rewrite X in D. contradiction. }
      replace (mz_idx m (mz_go (ms_cur st) n) >=? 0) with true by lia. unfold mz_read. replace ((0 <=? mz_idx m (mz_go (ms_cur st) n)) && (mz_idx m (mz_go (ms_cur st) n) <? mz_n m)) with true by lia.
      destruct (ms_vis st (mz_idx m (mz_go (ms_cur st) n))) eqn:F.
      { apply Rej. intros X. rewrite X in F. congruence. }
      clear Rej I1. set (nx := mz_go (ms_cur st) n) in *. fold h w.
      replace ((fst nx <? 0) || (snd nx <? 0) || (fst nx =? h) || (snd nx =? w)) with false by (unfold in_grid in D; lia).
      unfold mz_mark. cbv zeta. replace ((0 <=? mz_idx m nx) && (mz_idx m nx <? mz_n m)) with true by lia.
      assert (Nn : ~ In nx V) by (rewrite <- (i_vis _ _ I) by assumption; congruence).
      eexists (nx :: V), _. split; [reflexivity|]. split; [|right; left; cbn [ms_count ms_open length]; split; reflexivity].
      constructor; cbn [ms_vis ms_count ms_open ms_cur ms_rnd ms_joined].
      + apply grown_add; [exact (i_tree _ _ I)|exact (i_cur _ _ I)|exact Nn].
      + intros p [<-|P]; [exact D|apply (i_grid _ _ I), P].
      + intros p P. destruct (Z.eqb_spec (mz_idx m p) (mz_idx m nx)) as [E|E].
        * apply idx_inj in E; [|exact P|exact D]. subst p. split; [intros _; left; reflexivity|reflexivity].
        * rewrite (i_vis _ _ I p P). split; [intros X; right; exact X|]. intros [X|X]; [congruence|exact X].
      + cbn [length]. rewrite (i_count _ _ I). lia.
      + intros a b' [X|X]; [injection X as <- <-; apply go_beside, N4|apply (i_beside _ _ I), X].
      + left; reflexivity.
      + intros p [<-|P]; right; [apply (i_cur _ _ I)|apply (i_open _ _ I), P].
      + intros p q' [<-|P] X Y Z1 Z2; [contradiction|]. right. apply (i_done _ _ I p q' P); [|intros W; apply Y; right; exact W|exact Z1|exact Z2].
        intros ->. apply Y. left. reflexivity.
    - assert (Dc : forall q, beside (ms_cur st) q -> in_grid w h q -> In q V).
      { intros q Q1 Q2. apply (i_vis _ _ I q Q2). destruct (ms_vis st (mz_idx m q)) eqn:F; [reflexivity|].
        exfalso. assert (false = true) by (apply B; exists q; repeat split; try assumption; apply Q2). discriminate. }
      destruct (ms_open st) as [|c o] eqn:Eo.
      + exfalso. assert (All : forall q, in_grid w h q -> In q V).
        { apply (grid_closed w h (fun q => In q V) (ms_cur st) Cg (i_cur _ _ I)). intros a b A Ag Bg AB. destruct (room_dec a (ms_cur st)) as [->|X]; [apply Dc; assumption|].
          apply (i_done _ _ I a b A X); [rewrite Eo; intros []|exact AB|exact Bg]. }
        assert (length (rooms w h) <= length V)%nat by (apply NoDup_incl_length; [apply rooms_nodup|intros q Q; apply All, rooms_in, Q]).
        pose proof (rooms_length w h Hw Hh). rewrite (i_count _ _ I) in L. unfold mz_n in L. fold w h in L. lia.
      + eexists V, _. split; [reflexivity|]. split; [|right; right; cbn [ms_count ms_open length]; split; reflexivity].
        constructor; cbn [ms_vis ms_count ms_open ms_cur ms_rnd ms_joined]; [exact (i_tree _ _ I)|exact (i_grid _ _ I)|exact (i_vis _ _ I)|exact (i_count _ _ I)|exact (i_beside _ _ I)| | |].
        * apply (i_open _ _ I). rewrite Eo. left; reflexivity.
        * intros p P. apply (i_open _ _ I). rewrite Eo. right; exact P.
        * intros p q P X Y Z1 Z2. destruct (room_dec p (ms_cur st)) as [->|W]; [apply Dc; assumption|].
          apply (i_done _ _ I p q P W); [|exact Z1|exact Z2]. rewrite Eo. intros [R|R]; [congruence|contradiction].
  Qed.

  (** All rounds. *)
  Definition fine (r : mrun) : Prop := exists V st, inv V st /\ (r = Going AtLoop st \/ (r = Finished st /\ mz_n m <= ms_count st)).
  Lemma fine_step rnd r : fine r -> fine (mz_step m rnd r).
  Proof using Hw Hh.
    intros (V & st & I & [->|[-> L]]); cbn [mz_step].
    - destruct (Z.lt_ge_cases (ms_count st) (mz_n m)) as [L|L].
      + destruct (inv_round rnd V st I L) as (V' & st' & E & I' & _). exists V', st'. split; [exact I'|]. left. exact E.
      + exists V, st. split; [exact I|]. right. split; [|exact L]. unfold mz_round. replace (ms_count st <? mz_n m) with false by lia. reflexivity.
    - exists V, st. split; [exact I|]. right. split; [reflexivity|exact L].
  Qed.
  Lemma fine_steps rnd k : forall r, fine r -> fine (mz_steps m rnd k r).
  Proof using Hw Hh. induction k as [|k IH]; intros r H; cbn [mz_steps]; [exact H|]. apply IH, fine_step, H. Qed.
  Lemma inv_full V st : inv V st -> mz_n m <= ms_count st -> forall p, in_grid w h p -> In p V.
  Proof using Hw Hh.
    intros I L p P. assert (X : incl (rooms w h) V).
    { apply NoDup_length_incl; [apply (grown_nodup _ _ (i_tree _ _ I))| |intros q Q; apply rooms_in, (i_grid _ _ I), Q].
      pose proof (rooms_length w h Hw Hh). rewrite (i_count _ _ I) in L. unfold mz_n in L. fold w h in L. lia. }
    apply X, rooms_in, P.
  Qed.

  (** With a fair random source the loop ends. *)
  Lemma steps_add rnd a b r : mz_steps m rnd (a + b) r = mz_steps m rnd b (mz_steps m rnd a r).
  Proof using Hw Hh. revert r. induction a as [|a IH]; intros r; cbn [mz_steps Nat.add]; [reflexivity|]. apply IH. Qed.
  Definition rest (st : mstate) : Z := 2 * (mz_n m - ms_count st) + Z.of_nat (length (ms_open st)).
  Lemma progress rnd : (forall n k, 0 <= n < 4 -> exists j, (k <= j)%nat /\ rnd j mod 4 = n) -> forall V st, inv V st -> ms_count st < mz_n m ->
    exists k V' st', mz_steps m rnd k (Going AtLoop st) = Going AtLoop st' /\ inv V' st' /\ rest st' < rest st.
  Proof using Hw Hh.
    intros Fair V st I L. unfold rest.
    destruct (inv_round rnd V st I L) as (V' & st' & E & I' & [C|C]).
    2:{ exists 1%nat, V', st'. split; [cbn [mz_steps mz_step]; exact E|]. split; [exact I'|]. lia. }
    destruct C as (_ & _ & _ & _ & _ & _ & n & N4 & Ng & Nv & _).
    destruct (Fair n (ms_rnd st) N4) as (j & J1 & J2). clear V' st' E I'.
    remember (j - ms_rnd st)%nat as d eqn:Ed. revert st I L Ng Nv J1 Ed. induction d as [|d IH]; intros st I L Ng Nv J1 Ed.
    - assert (ms_rnd st = j) as Ej by lia. destruct (inv_round rnd V st I L) as (V' & st' & E & I' & [C|C]).
      2:{ exists 1%nat, V', st'. split; [cbn [mz_steps mz_step]; exact E|]. split; [exact I'|]. lia. }
      exfalso. revert E. unfold mz_round. replace (ms_count st <? mz_n m) with true by lia.
      assert (Cg : in_grid w h (ms_cur st)) by apply (i_grid _ _ I), (i_cur _ _ I).
      destruct (has_four (ms_vis st) (ms_cur st) Cg) as (b & -> & B). assert (Vf : ms_vis st (mz_idx m (mz_go (ms_cur st) n)) = false).
      { destruct (ms_vis st (mz_idx m (mz_go (ms_cur st) n))) eqn:F; [|reflexivity]. exfalso. apply Nv, (i_vis _ _ I _ Ng), F. }
      assert (b = true) as -> by (apply B; exists (mz_go (ms_cur st) n); split; [apply go_beside, N4|split; assumption]).
      rewrite Ej, J2. cbv zeta. pose proof (proj2 (idx_in _ Ng)) as X. replace (mz_idx m (mz_go (ms_cur st) n) >=? 0) with true by lia.
      unfold mz_read. replace ((0 <=? mz_idx m (mz_go (ms_cur st) n)) && (mz_idx m (mz_go (ms_cur st) n) <? mz_n m)) with true by lia. rewrite Vf. fold h w. set (nx := mz_go (ms_cur st) n) in *.
      replace ((fst nx <? 0) || (snd nx <? 0) || (fst nx =? h) || (snd nx =? w)) with false by (unfold in_grid in Ng; lia).
      unfold mz_mark. cbv zeta. replace ((0 <=? mz_idx m nx) && (mz_idx m nx <? mz_n m)) with true by lia. intros E. injection E as E. subst st'.
      destruct C as (_ & _ & Y & _). cbn [ms_open] in Y. apply (f_equal (@length room)) in Y. cbn [length] in Y. lia.
    - destruct (inv_round rnd V st I L) as (V' & st' & E & I' & [C|C]).
      2:{ exists 1%nat, V', st'. split; [cbn [mz_steps mz_step]; exact E|]. split; [exact I'|]. lia. }
      destruct C as (-> & C1 & C2 & C3 & C4 & C5 & _).
      destruct (IH st' I') as (k & V2 & st2 & X1 & X2 & X3); [lia|rewrite C1; exact Ng|rewrite C1; exact Nv|lia|lia|].
      exists (S k), V2, st2. split; [cbn [mz_steps mz_step]; rewrite E; exact X1|]. split; [exact X2|]. rewrite C2, C4 in X3. exact X3.
  Qed.
  Lemma ends rnd : (forall n k, 0 <= n < 4 -> exists j, (k <= j)%nat /\ rnd j mod 4 = n) -> forall V st, inv V st ->
    exists k st', mz_steps m rnd k (Going AtLoop st) = Finished st'.
  Proof using Hw Hh.
    intros Fair V st I. assert (R0 : forall V st, inv V st -> ms_count st <= mz_n m).
    { intros V0 st0 I0. assert (length V0 <= length (rooms w h))%nat by (apply NoDup_incl_length; [apply (grown_nodup _ _ (i_tree _ _ I0))|intros q Q; apply rooms_in, (i_grid _ _ I0), Q]).
      pose proof (rooms_length w h Hw Hh). rewrite (i_count _ _ I0). unfold mz_n. fold w h. lia. }
    remember (Z.to_nat (rest st)) as d eqn:Ed. revert V st I Ed. induction d as [d IH] using lt_wf_ind. intros V st I Ed.
    destruct (Z.lt_ge_cases (ms_count st) (mz_n m)) as [L|L].
    - destruct (progress rnd Fair V st I L) as (k & V' & st' & E & I' & X). pose proof (R0 _ _ I'). pose proof (R0 _ _ I).
      destruct (IH (Z.to_nat (rest st'))) with (V := V') (st := st') as (k' & st2 & E2); [unfold rest in *; lia|exact I'|reflexivity|].
      exists (k + k')%nat, st2. rewrite steps_add, E. exact E2.
    - exists 1%nat, st. cbn [mz_steps mz_step]. unfold mz_round. replace (ms_count st <? mz_n m) with false by lia. reflexivity.
  Qed.
End Run.
