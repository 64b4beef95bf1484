(** C17, what remains true: with exact arithmetic the truncation of the node
    values to integers costs at most one unit of length per step of the best
    path. *)
From Coq Require Import Reals Lra Sorted Permutation.
From Verif Require Import Base GridMap GridMapProofs PathSpec PathLen AStarOld AStarOldProofs AStarFloat PropAStar.

(** Exact counterparts of the operations of AStarFloat.v. *)
Definition ex_step (d : R) (diag : bool) : R := (d + (if diag then sqrt 2 else 1))%R.
Definition ex_value (d p : R) : Z := Int_part (d + p).
Definition ex_gt (d p : R) (v : Z) : bool := if Rgt_dec (d + p) (IZR v) then true else false.

Definition ex_aplan := aplan R R (fun x => x) 0%R ex_step euclid ex_value ex_gt.

Local Open Scope R_scope.

Lemma Int_part_bounds r : IZR (Int_part r) <= r < IZR (Int_part r) + 1.
Proof. destruct (base_Int_part r). lra. Qed.

Section Opt.
  Variable m : gridmap.
  Variables start goal : Z * Z.
  Hypothesis Hwf : gm_wf m.
  Hypothesis Hsize : (gm_w m * gm_h m < 2147483648)%Z.
  Hypothesis Hgoal : cell_of (gm_w m) (gm_h m) (fst goal) (snd goal).

  Notation node := (node R).
  Notation olist := (olist R).
  Notation nodes := (o_nodes R).
  Notation opn := (o_open R).
  Notation pos := (n_pos R).
  Notation ini := (n_init R).
  Notation vis := (n_visited R).
  Notation par := (n_parent R).
  Notation dist := (n_dist R).
  Notation npred := (n_pred R).
  Notation val := (AStarOld.nvalue R ex_value).
  Notation addNode := (addNode R R (fun x => x) ex_value ex_gt).
  Notation expand := (expand R R (fun x => x) ex_step euclid ex_value ex_gt).
  Notation loop := (loop R R (fun x => x) ex_step euclid ex_value ex_gt).
  Notation inv := (@inv R ex_value m goal).
  Notation idx := (idx m).

  (** Effect of addNode on the nodes. *)
  Lemma addNode_nodes closed o p d k o' :
    inv closed o -> inside m p -> addNode o p d (euclid start p) (Some k) = Some o' ->
    (forall j, j <> idx p -> nodes o' j = nodes o j) /\
    ((ini (nodes o (idx p)) = false /\ nodes o' (idx p) = Node p d (euclid start p) (Some k) false true) \/
     (ini (nodes o (idx p)) = true /\ vis (nodes o (idx p)) = true /\ nodes o' (idx p) = nodes o (idx p)) \/
     (ini (nodes o (idx p)) = true /\ vis (nodes o (idx p)) = false /\
       IZR (val (nodes o (idx p))) < d + euclid start p /\ nodes o' (idx p) = nodes o (idx p)) \/
     (ini (nodes o (idx p)) = true /\ vis (nodes o (idx p)) = false /\
       d + euclid start p <= IZR (val (nodes o (idx p))) /\
       nodes o' (idx p) = Node (pos (nodes o (idx p))) d (npred (nodes o (idx p))) (Some k) false true)).
  Proof.
    intros I Hp. destruct (range_checks m Hsize o p (i_w _ _ _ _ _ I) (i_h _ _ _ _ _ I) Hp) as [R1 R2].
    unfold AStarOld.addNode. rewrite R1, R2. cbn [negb]. rewrite (pos_index_idx m o p (i_w _ _ _ _ _ I)).
    destruct (ini (nodes o (idx p))) eqn:Ei; cbn [negb].
    - destruct (vis (nodes o (idx p))) eqn:Ev; cbn [orb].
      { intros H. injection H as <-. split; [reflexivity|]. right; left; auto. }
      unfold ex_gt. destruct (Rgt_dec _ _) as [Hg|Hg].
      { intros H. injection H as <-. split; [reflexivity|]. right; right; left; auto. }
      destruct (erase_node _ _ _ _ _) as [l|]; [|discriminate]. cbn [obind]. intros H. injection H as <-.
      cbn [o_nodes]. split; [intros j Hj; apply upd_other; assumption|]. right; right; right.
      rewrite upd_same. repeat split; auto. lra.
    - intros H. injection H as <-. cbn [o_nodes]. split; [intros j Hj; apply upd_other; assumption|].
      left. rewrite upd_same. auto.
  Qed.

  (** Free neighbour [c] of the closed node [k] is known, and while it is open
      its distance is less than one unit worse than going through [k]. *)
  Definition near (o : olist) (k : Z) (c : Z * Z) : Prop :=
    ini (nodes o (idx c)) = true /\
    (vis (nodes o (idx c)) = false -> dist (nodes o (idx c)) < dist (nodes o k) + step_len (pos (nodes o k)) c + 1).
  Definition gexp (o : olist) (k : Z) : Prop :=
    forall c, adjacent8 c (pos (nodes o k)) -> free_cell m c -> near o k c.

  Record ginv (closed : list Z) (o : olist) : Prop := {
    g_inv : inv closed o;
    g_pred : forall i, ini (nodes o i) = true -> npred (nodes o i) = euclid start (pos (nodes o i));
    g_dist : forall i, ini (nodes o i) = true ->
      match par (nodes o i) with
      | None => dist (nodes o i) = 0
      | Some k => dist (nodes o i) = dist (nodes o k) + step_len (pos (nodes o i)) (pos (nodes o k))
      end;
    g_opt : forall i q, In i closed -> grid_path (free_cell m) (pos (nodes o i)) goal q ->
      dist (nodes o i) <= path_len q + INR (steps q) }.

  Definition nb_diag (nb : list (Z * Z * bool)) : Prop :=
    forall dx dy d, In (dx, dy, d) nb -> d = negb ((dx =? 0)%Z || (dy =? 0)%Z).

  Lemma neighbors_diag : nb_diag neighbors.
  Proof.
    intros dx dy d H. unfold neighbors in H.
    repeat (destruct H as [H|H]; [injection H as <- <- <-; reflexivity|]). destruct H.
  Qed.

  Lemma step_nb x y dx dy d : d = negb ((dx =? 0)%Z || (dy =? 0)%Z) -> forall v,
    ex_step v d = v + step_len (x, y) ((x + dx)%Z, (y + dy)%Z).
  Proof.
    intros -> v. unfold ex_step, step_len. cbn [fst snd].
    replace (x =? x + dx)%Z with (dx =? 0)%Z by lia. replace (y =? y + dy)%Z with (dy =? 0)%Z by lia.
    destruct (_ || _); reflexivity.
  Qed.

  Lemma addNode_ginv closed o p d k o' : ginv closed o -> free_cell m p -> In k closed ->
    adjacent8 p (pos (nodes o k)) -> d = dist (nodes o k) + step_len (pos (nodes o k)) p ->
    addNode o p d (euclid start p) (Some k) = Some o' ->
    ginv closed o' /\ near o' k p /\ grows closed o o' /\
    (forall j c, In j closed -> near o j c -> inside m c -> near o' j c).
  Proof.
    intros G Hf Hk Hadj Hd E. pose proof (g_inv _ _ G) as I.
    destruct (@addNode_spec R R (fun x => x) ex_value ex_gt m goal Hsize closed o p d (euclid start p) k I Hf Hk Hadj)
      as (o1 & E1 & I' & Hini & GR). rewrite E1 in E. injection E as ->.
    destruct (addNode_nodes closed o p d k o' I (proj1 Hf) E1) as [Hoth Hcase].
    set (i := idx p) in *.
    assert (Hcl : forall j, In j closed -> nodes o' j = nodes o j) by apply GR.
    assert (HiniK : ini (nodes o k) = true) by (apply (i_closed _ _ _ _ _ I); assumption).
    assert (Hsame : ini (nodes o i) = true -> pos (nodes o i) = p).
    { intros Hi. destruct (i_node _ _ _ _ _ I i Hi) as (_ & H1 & H2 & _). apply (idx_inj m); auto. apply Hf. }
    (* a known open node only gets cheaper *)
    assert (Hmono : ini (nodes o i) = true -> vis (nodes o' i) = false -> dist (nodes o' i) <= dist (nodes o i)).
    { intros Hi Hv. destruct Hcase as [(H1 & _)|[(_ & _ & ->)|[(_ & _ & _ & ->)|(_ & Hv' & Hle & ->)]]];
        [congruence|lra|lra|]. cbn [n_dist].
      unfold AStarOld.nvalue, ex_value in Hle. rewrite (g_pred _ _ G i Hi), (Hsame Hi) in Hle.
      pose proof (Int_part_bounds (dist (nodes o i) + euclid start p)). lra. }
    split; [|split; [|split; [exact GR|]]].
    - split; [exact I'| | |].
      + intros j Hj. destruct (Z.eq_dec j i) as [->|Hji]; [|rewrite Hoth in * by assumption; apply (g_pred _ _ G j Hj)].
        destruct Hcase as [(_ & ->)|[(Hi & _ & ->)|[(Hi & _ & _ & ->)|(Hi & _ & _ & ->)]]]; cbn [n_pred n_pos];
          try reflexivity; apply (g_pred _ _ G i Hi).
      + intros j Hj.
        assert (Hold : nodes o' j = nodes o j -> ini (nodes o j) = true -> match par (nodes o' j) with
            | Some k0 => dist (nodes o' j) = dist (nodes o' k0) + step_len (pos (nodes o' j)) (pos (nodes o' k0))
            | None => dist (nodes o' j) = 0 end).
        { intros -> Hj'. pose proof (g_dist _ _ G j Hj') as H. pose proof (i_par _ _ _ _ _ I j Hj') as H'.
          destruct (par (nodes o j)) as [q|]; [|exact H]. rewrite (Hcl q (proj1 H')). exact H. }
        destruct (Z.eq_dec j i) as [->|Hji]; [|pose proof (Hoth j Hji) as E; apply Hold; [exact E|congruence]].
        destruct Hcase as [(_ & ->)|[(Hi & _ & E)|[(Hi & _ & _ & E)|(Hi & _ & _ & ->)]]]; [|apply Hold; assumption|apply Hold; assumption|];
          cbn [n_parent n_dist n_pos]; rewrite (Hcl k Hk), Hd; [|rewrite (Hsame Hi)]; rewrite step_len_sym; reflexivity.
      + intros j q Hj. rewrite (Hcl j Hj). apply (g_opt _ _ G j q Hj).
    - split; [exact Hini|]. intros Hv. fold i in Hv |- *. rewrite (Hcl k Hk).
      destruct Hcase as [(_ & E)|[(Hi & Hv' & E)|[(Hi & _ & Hlt & E)|(Hi & _ & _ & E)]]]; rewrite E in *; cbn [n_dist] in *.
      + lra.
      + congruence.
      + unfold AStarOld.nvalue, ex_value in Hlt. rewrite (g_pred _ _ G i Hi), (Hsame Hi) in Hlt.
        pose proof (Int_part_bounds (dist (nodes o i) + euclid start p)). lra.
      + lra.
    - intros j c Hj [N1 N2] Hc. split; [apply GR; exact N1|]. intros Hv. rewrite (Hcl j Hj).
      destruct (Z.eq_dec (idx c) i) as [Ec|Ec].
      + rewrite Ec in *. assert (vis (nodes o i) = false).
        { destruct (vis (nodes o i)) eqn:Ev; [|reflexivity].
          destruct Hcase as [(Hx & _)|[(_ & _ & Hx)|[(_ & Hx & _)|(_ & Hx & _)]]]; congruence. }
        specialize (N2 H). specialize (Hmono N1 Hv). lra.
      + rewrite (Hoth _ Ec) in *. auto.
  Qed.

  Lemma expand_ginv closed k nb : nb_ok nb -> nb_diag nb -> In k closed -> forall o, ginv closed o ->
    exists o', expand m start k nb o = Some o' /\ ginv closed o' /\ grows closed o o' /\
      (forall j c, In j closed -> near o j c -> inside m c -> near o' j c) /\
      forall dx dy d, In (dx, dy, d) nb ->
        let c := ((fst (pos (nodes o k)) + dx)%Z, (snd (pos (nodes o k)) + dy)%Z) in
        free_cell m c -> near o' k c.
  Proof.
    intros Hnb Hdg Hk. induction nb as [|[[dx dy] d] r IH]; intros o G.
    - exists o. split; [reflexivity|]. split; [assumption|]. split; [split; auto|]. split; [auto|intros ? ? ? []].
    - cbn [AStarOld.expand]. set (p := ((fst (pos (nodes o k)) + dx)%Z, (snd (pos (nodes o k)) + dy)%Z)).
      destruct (isFreeWay_spec m Hwf p) as (b & -> & Hb). cbn [obind].
      assert (Hr : nb_ok r) by (intros ? ? ? ?; eapply Hnb; right; eauto).
      assert (Hr' : nb_diag r) by (intros ? ? ? ?; eapply Hdg; right; eauto).
      assert (Hadj : adjacent8 p (pos (nodes o k))).
      { destruct (Hnb dx dy d (or_introl eq_refl)) as (N1 & N2 & N3). unfold adjacent8, p.
        destruct (pos (nodes o k)) as [x y]; cbn [fst snd]. split; [|lia].
        intros E. apply N1. injection E as E1 E2. f_equal; lia. }
      assert (Hstep : exists o1, (if b then addNode o p (ex_step (dist (nodes o k)) d) (euclid start p) (Some k) else Some o) = Some o1
                /\ ginv closed o1 /\ (free_cell m p -> near o1 k p) /\ grows closed o o1 /\
                (forall j c, In j closed -> near o j c -> inside m c -> near o1 j c)).
      { destruct b.
        - destruct (@addNode_spec R R (fun x => x) ex_value ex_gt m goal Hsize closed o p (ex_step (dist (nodes o k)) d)
             (euclid start p) k (g_inv _ _ G) (proj1 Hb eq_refl) Hk Hadj) as (o1 & E1 & _).
          destruct (addNode_ginv closed o p (ex_step (dist (nodes o k)) d) k o1 G (proj1 Hb eq_refl) Hk Hadj) as (A & B & C & D).
          { unfold p. destruct (pos (nodes o k)) as [x y] eqn:Ep. cbn [fst snd]. apply step_nb.
            apply (Hdg dx dy d). left; reflexivity. }
          { exact E1. }
          exists o1. split; [exact E1|]. auto.
        - exists o. split; [reflexivity|]. split; [assumption|]. split; [|split; [split; auto|auto]].
          intros H. apply Hb in H. discriminate. }
      destruct Hstep as (o1 & -> & G1 & Hp1 & [GR1 GR1'] & Hn1). cbn [obind].
      destruct (IH Hr Hr' o1 G1) as (o' & E' & G' & [GR2 GR2'] & Hn2 & Hall).
      exists o'. split; [exact E'|]. split; [exact G'|]. split; [|split].
      { split; [auto|]. intros j Hj. rewrite GR2', GR1' by assumption. reflexivity. }
      { auto. }
      intros dx' dy' d' [E|Hin].
      + injection E as <- <- <-. cbv zeta. fold p. intros Hf. apply Hn2; auto. apply Hf.
      + specialize (Hall dx' dy' d' Hin). rewrite (GR1' k Hk) in Hall. exact Hall.
  Qed.

  (** On the way back from the goal along [q], the first node that is not
      closed is open and close to optimal. *)
  Lemma frontier closed o : ginv closed o -> (forall i, In i closed -> gexp o i) -> In (idx goal) closed ->
    forall q a, grid_path (free_cell m) a goal q ->
      (In (idx a) closed) \/
      exists b q1 q2, q = q1 ++ q2 /\ grid_path (free_cell m) b goal q2 /\ In (idx b) (opn o) /\ inside m b /\
        dist (nodes o (idx b)) <= path_len q2 + INR (steps q2) /\
        euclid start b <= euclid start a + (path_len q - path_len q2) /\
        (q1 = [] -> b = a) /\ (steps q = length q1 + steps q2)%nat.
  Proof.
    intros G Hexp Hgc q. pose proof (g_inv _ _ G) as I.
    induction q as [|a0 q IH]; intros a ((Hhd & Hlast) & Hch & Hfree); [discriminate|].
    injection Hhd as ->. destruct q as [|b q].
    - cbn in Hlast. subst a. left. assumption.
    - destruct Hch as [Hab Hch].
      assert (Hgp : grid_path (free_cell m) b goal (b :: q)).
      { split; [split; [reflexivity|]|split; [assumption|]].
        - rewrite (last_default _ _ a) by discriminate. exact Hlast.
        - intros c Hc. apply Hfree. right. assumption. }
      assert (Hin : forall c, In c (a :: b :: q) -> inside m c).
      { intros c Hc. destruct (list_eq_dec Z.eq_dec [fst c; snd c] [fst goal; snd goal]) as [El|El].
        - assert (c = goal) as -> by (destruct c, goal; cbn in El; congruence). exact Hgoal.
        - apply Hfree; [assumption|]. intros ->. congruence. }
      destruct (IH b Hgp) as [Hb|(b' & q1 & q2 & Eq & Hg2 & Ho & Hin' & Hd & He & H1 & Hst)].
      + destruct (in_dec Z.eq_dec (idx a) closed) as [Ha|Ha]; [left; assumption|right].
        exists a, [], (a :: b :: q). split; [reflexivity|]. split; [split; [split; [reflexivity|assumption]|split; [split; assumption|assumption]]|].
        assert (Hbi : ini (nodes o (idx b)) = true) by (apply (i_closed _ _ _ _ _ I); assumption).
        assert (Hbp : pos (nodes o (idx b)) = b).
        { destruct (i_node _ _ _ _ _ I _ Hbi) as (_ & Hx & Hy & _). apply (idx_inj m); auto. apply Hin. right; left; reflexivity. }
        assert (Hag : a <> goal) by (intros ->; apply Ha; assumption).
        destruct (Hexp _ Hb a) as [N1 N2].
        { rewrite Hbp. assumption. }
        { apply Hfree; [left; reflexivity|assumption]. }
        assert (Hv : vis (nodes o (idx a)) = false).
        { destruct (vis (nodes o (idx a))) eqn:Ev; [|reflexivity]. exfalso. apply Ha, (i_closed _ _ _ _ _ I). auto. }
        specialize (N2 Hv). rewrite Hbp in N2.
        pose proof (g_opt _ _ G (idx b) (b :: q) Hb) as Hopt. rewrite Hbp in Hopt. specialize (Hopt Hgp).
        split; [apply (i_open _ _ _ _ _ I); auto|]. split; [apply Hin; left; reflexivity|].
        split; [|split; [lra|split; [auto|reflexivity]]].
        change (path_len (a :: b :: q)) with (step_len a b + path_len (b :: q)).
        change (steps (a :: b :: q)) with (S (steps (b :: q))). rewrite S_INR.
        rewrite step_len_sym in N2. lra.
      + right. exists b', (a :: q1), q2. split; [simpl; f_equal; exact Eq|]. split; [exact Hg2|].
        split; [exact Ho|]. split; [exact Hin'|]. split; [exact Hd|]. split; [|split; [discriminate|]].
        * change (path_len (a :: b :: q)) with (step_len a b + path_len (b :: q)).
          pose proof (euclid_step start a b Hab). lra.
        * change (steps (a :: b :: q)) with (S (steps (b :: q))). rewrite Hst. reflexivity.
  Qed.

  Lemma path_len_nonneg l : 0 <= path_len l.
  Proof.
    induction l as [|a l IH]; [simpl; lra|]. destruct l as [|b l]; [simpl; lra|].
    change (path_len (a :: b :: l)) with (step_len a b + path_len (b :: l)). pose proof (step_len_pos a b). lra.
  Qed.

  Lemma getFirst_ginv closed o i r : ginv closed o -> (forall j, In j closed -> gexp o j) -> In (idx goal) closed ->
    opn o = i :: r -> exists o', getFirst R o = (Some i, o') /\ ginv (i :: closed) o' /\
      (forall j, In j closed -> gexp o' j) /\ (forall j, In j closed -> nodes o' j = nodes o j).
  Proof.
    intros G Hexp Hgc E. pose proof (g_inv _ _ G) as I.
    destruct (@getFirst_spec R ex_value m goal closed o i r I E) as (o' & Eg & I' & Hp & Hi).
    exists o'. split; [exact Eg|].
    assert (Ho' : forall j, dist (nodes o' j) = dist (nodes o j) /\ npred (nodes o' j) = npred (nodes o j) /\
              par (nodes o' j) = par (nodes o j) /\ vis (nodes o' j) = (if (j =? i)%Z then true else vis (nodes o j)) /\
              (j <> i -> nodes o' j = nodes o j)).
    { unfold getFirst in Eg. rewrite E in Eg. injection Eg as <-. intros j. cbn [o_nodes]. unfold upd.
      destruct (Z.eqb_spec j i) as [->|Hj]; cbn; repeat split; auto. contradiction. }
    assert (Hii : ini (nodes o i) = true /\ vis (nodes o i) = false) by (apply (i_open _ _ _ _ _ I); rewrite E; left; reflexivity).
    assert (Hni : ~ In i closed).
    { intros H. apply (i_closed _ _ _ _ _ I) in H as [_ H]. destruct Hii; congruence. }
    split; [|split].
    - split; [exact I'| | |].
      + intros j. destruct (Ho' j) as (_ & -> & _). rewrite Hi, Hp. apply (g_pred _ _ G).
      + intros j. destruct (Ho' j) as (-> & _ & -> & _). rewrite Hi, Hp. intros Hj. pose proof (g_dist _ _ G j Hj) as H.
        destruct (par (nodes o j)) as [k|]; [|exact H]. destruct (Ho' k) as (-> & _). rewrite Hp. exact H.
      + intros j q Hj. destruct (Ho' j) as (-> & _). rewrite Hp. destruct Hj as [<-|Hj]; [|apply (g_opt _ _ G); assumption].
        intros Hq.
        assert (Hpi : idx (pos (nodes o i)) = i) by (apply (i_node _ _ _ _ _ I); apply Hii).
        destruct (frontier closed o G Hexp Hgc q _ Hq) as [H|(b & q1 & q2 & Eq & Hg2 & Ho & Hinb & Hd & He & H1 & Hst)].
        { rewrite Hpi in H. contradiction. }
        assert (Hbi : ini (nodes o (idx b)) = true) by (apply (i_open _ _ _ _ _ I); assumption).
        assert (Hbp : pos (nodes o (idx b)) = b).
        { destruct (i_node _ _ _ _ _ I _ Hbi) as (_ & Hx & Hy & _). apply (idx_inj m); auto. }
        destruct q1 as [|x q1].
        { specialize (H1 eq_refl). subst b. cbn in Eq. subst q2. rewrite Hpi in Hd. exact Hd. }
        assert (Hle : (val (nodes o i) <= val (nodes o (idx b)))%Z).
        { pose proof (i_sorted _ _ _ _ _ I) as Hs. rewrite E in Hs, Ho. inversion Hs as [|? ? _ Hs2]; subst.
          destruct Ho as [<-|Ho]; [lia|]. rewrite Forall_forall in Hs2. apply Hs2. assumption. }
        unfold AStarOld.nvalue, ex_value in Hle. apply IZR_le in Hle.
        rewrite (g_pred _ _ G i (proj1 Hii)), (g_pred _ _ G _ Hbi), Hbp in Hle.
        pose proof (Int_part_bounds (dist (nodes o i) + euclid start (pos (nodes o i)))).
        pose proof (Int_part_bounds (dist (nodes o (idx b)) + euclid start b)).
        rewrite Hst, plus_INR. assert (1 <= INR (length (x :: q1))).
        { simpl length. rewrite S_INR. pose proof (pos_INR (length q1)). lra. }
        lra.
    - intros j Hj c Hc Hf. rewrite Hp in Hc. destruct (Hexp j Hj c Hc Hf) as [N1 N2].
      split; [rewrite Hi; exact N1|]. destruct (Ho' (idx c)) as (-> & _ & _ & -> & _).
      destruct (Ho' j) as (-> & _). rewrite Hp. destruct (idx c =? i)%Z; [discriminate|exact N2].
    - intros j Hj. apply Ho'. congruence.
  Qed.

  (** The reconstructed path is as long as the distance of its first node. *)
  Lemma backtrack_len closed o : ginv closed o -> forall fuel i p, ini (nodes o i) = true ->
    backtrack R fuel (nodes o) (Some i) = Some p -> path_len p = dist (nodes o i) /\ exists r, p = pos (nodes o i) :: r.
  Proof.
    intros G fuel. induction fuel as [|fuel IH]; intros i p Hi E; [discriminate|]. cbn [backtrack] in E.
    pose proof (g_dist _ _ G i Hi) as Hd. pose proof (i_par _ _ _ _ _ (g_inv _ _ G) i Hi) as Hp.
    destruct (par (nodes o i)) as [k|].
    - destruct (backtrack R fuel (nodes o) (Some k)) as [l|] eqn:El; [|discriminate]. cbn [obind] in E. injection E as <-.
      assert (Hk : ini (nodes o k) = true) by (apply (i_closed _ _ _ _ _ (g_inv _ _ G)); apply Hp).
      destruct (IH k l Hk El) as [H1 (r & ->)]. split; [|eauto].
      change (step_len (pos (nodes o i)) (pos (nodes o k)) + path_len (pos (nodes o k) :: r) = dist (nodes o i)).
      rewrite H1, Hd. ring.
    - assert (E' : Some [pos (nodes o i)] = Some p) by (destruct fuel; exact E). injection E' as <-.
      split; [simpl; lra|eauto].
  Qed.

  Lemma loop_opt fuel : forall k tail o p, ginv (k :: tail) o -> (forall j, In j tail -> gexp o j) ->
    In (idx goal) (k :: tail) ->
    fst (loop fuel m start k o) = Path p ->
    forall q, grid_path (free_cell m) start goal q -> path_len p <= path_len q + INR (steps q).
  Proof.
    induction fuel as [|fuel IH]; intros k tail o p G Hexp Hgc; [discriminate|].
    cbn [AStarOld.loop]. pose proof (g_inv _ _ G) as I.
    assert (Hini : ini (nodes o k) = true) by (apply (i_closed _ _ _ _ _ I); left; reflexivity).
    destruct (cell_eqb (pos (nodes o k)) start) eqn:Es.
    - destruct (backtrack _ _ _ _) as [l|] eqn:El; [|discriminate]. cbn [fst]. intros H. injection H as ->.
      destruct (backtrack_len _ _ G _ _ _ Hini El) as [-> _]. intros q Hq.
      assert (Hs : pos (nodes o k) = start).
      { unfold cell_eqb in Es. destruct (pos (nodes o k)), start; cbn [fst snd] in Es. f_equal; lia. }
      apply (g_opt _ _ G k q (or_introl eq_refl)). rewrite Hs. exact Hq.
    - destruct (expand_ginv (k :: tail) k neighbors neighbors_ok neighbors_diag (or_introl eq_refl) o G)
        as (o1 & E1 & G1 & GR & Hn & Hall).
      rewrite E1.
      assert (Hexp1 : forall j, In j (k :: tail) -> gexp o1 j).
      { intros j Hj c Hc Hf. destruct GR as [_ GR]. rewrite (GR j Hj) in Hc. destruct Hj as [<-|Hj].
        - destruct Hc as (Hne & Hx & Hy). destruct c as [x y], (pos (nodes o k)) as [px py] eqn:Ep. cbn [fst snd] in *.
          destruct (neighbors_complete (x - px) (y - py)) as [d Hd]; try lia.
          { intros E2. apply Hne. injection E2 as E2 E3. f_equal; lia. }
          specialize (Hall _ _ _ Hd). cbv zeta in Hall.
          replace (px + (x - px))%Z with x in Hall by lia. replace (py + (y - py))%Z with y in Hall by lia.
          apply Hall. exact Hf.
        - apply Hn; [right; assumption| |apply Hf]. apply Hexp; assumption. }
      destruct (opn o1) as [|i r] eqn:Eo.
      + unfold getFirst. rewrite Eo. discriminate.
      + destruct (getFirst_ginv _ _ _ _ G1 Hexp1 Hgc Eo) as (o2 & -> & G2 & Hexp2 & _).
        apply (IH i (k :: tail)); [exact G2|exact Hexp2|right; exact Hgc].
  Qed.

  Lemma search_opt o p : o_w R o = gm_w m -> o_h R o = gm_h m -> tracked o ->
    fst (search R R (fun x => x) 0 ex_step euclid ex_value ex_gt m start goal o) = Path p ->
    forall q, grid_path (free_cell m) start goal q -> path_len p <= path_len q + INR (steps q).
  Proof.
    intros Ew Eh Ht. destruct (prepare_fresh o Ht) as (P1 & P2 & P3 & P4 & P5).
    destruct (@first_spec R R (fun x => x) 0 euclid ex_value ex_gt m start goal Hsize Hgoal (prepare R o)) as (o2 & (o1 & E1 & E2) & HI & _).
    { repeat split; congruence || auto. }
    unfold AStarOld.search. rewrite E1, E2. apply (loop_opt _ _ []); [|intros j []|left; reflexivity].
    (* the goal node *)
    assert (Hn : nodes o2 (idx goal) = Node goal 0 (euclid start goal) None true true).
    { revert E1. unfold AStarOld.addNode.
      destruct (range_checks m Hsize (prepare R o) goal) as [R1 R2]; [congruence|congruence|exact Hgoal|].
      rewrite R1, R2. cbn [negb]. rewrite (pos_index_idx m (prepare R o) goal) by congruence. rewrite P5. cbn [negb].
      intros H. injection H as <-. unfold getFirst in E2. cbn [o_open prepare] in E2.
      unfold insert_node in E2. cbn [lower_bound app] in E2. injection E2 as <-.
      cbn [o_nodes]. rewrite !upd_same. reflexivity. }
    assert (Honly : forall j, ini (nodes o2 j) = true -> j = idx goal).
    { intros j Hj. destruct (vis (nodes o2 j)) eqn:Ev.
      - assert (H : In j [idx goal]) by (apply (i_closed _ _ _ _ _ HI); auto). destruct H as [H|[]]; auto.
      - assert (H : In j (opn o2)) by (apply (i_open _ _ _ _ _ HI); auto).
        exfalso. unfold getFirst in E2. destruct (opn o1) as [|x r] eqn:Eo; [discriminate|]. injection E2 as Ex <-. cbn [o_open] in H.
        revert E1. unfold AStarOld.addNode.
        destruct (range_checks m Hsize (prepare R o) goal) as [R1 R2]; [congruence|congruence|exact Hgoal|].
        rewrite R1, R2. cbn [negb]. rewrite (pos_index_idx m (prepare R o) goal) by congruence. rewrite P5. cbn [negb].
        intros E1. injection E1 as <-. cbn [o_open prepare] in Eo.
        unfold insert_node in Eo. cbn [lower_bound app] in Eo. injection Eo as _ <-. destruct H. }
    split; [exact HI| | |].
    - intros i Hi. apply Honly in Hi as ->. rewrite Hn. reflexivity.
    - intros i Hi. apply Honly in Hi as ->. rewrite Hn. reflexivity.
    - intros i q [<-|[]] _. rewrite Hn. cbn [n_dist]. pose proof (path_len_nonneg q). pose proof (pos_INR (steps q)). lra.
  Qed.
End Opt.

Lemma C17_new_object m o start goal p q :
  gm_wf m -> (gm_w m * gm_h m < 2147483648)%Z ->
  ex_aplan (astar_new R o m) start goal = Path p ->
  grid_path (free_cell m) start goal q ->
  path_len p <= path_len q + INR (length q - 1).
Proof.
  intros Hwf Hsz E Hq.
  unfold ex_aplan, aplan, planPath in E. cbn [astar_new a_map a_ol] in E.
  destruct (isInMap m (fst start) (snd start)) eqn:E1; cbn [negb] in E; [|discriminate].
  destruct (isInMap m (fst goal) (snd goal)) eqn:E2; cbn [negb] in E; [|discriminate].
  apply isInMap_spec in E2; [|assumption].
  replace (length q - 1)%nat with (steps q) by (destruct q; simpl; [reflexivity|rewrite Nat.sub_0_r; reflexivity]).
  eapply (search_opt m start goal Hwf Hsz E2); [| | |exact E|exact Hq]; try reflexivity.
  intros i. cbn. discriminate.
Qed.

(** The returned path is longer than a shortest path by at most one unit per
    step of the shortest path (hence at most twice as long).  With the arithmetic of the
    hardware: AStarIeee.v. *)
Theorem C17_bounded_exact a start goal p q :
  reachable (fun x => x) 0 ex_step euclid ex_value ex_gt a -> usable (a_map R a) ->
  ex_aplan a start goal = Path p ->
  grid_path (free_cell (a_map R a)) start goal q ->
  path_len p <= path_len q + INR (length q - 1) /\ path_len p <= 2 * path_len q.
Proof.
  intros Hr Hu E Hq.
  assert (Hb : path_len p <= path_len q + INR (length q - 1)).
  { unfold ex_aplan in E.
    rewrite (C15_history_independent _ _ _ _ _ _ a (fun _ => Node (0, 0)%Z 0 0 None false false) start goal Hr Hu) in E.
    destruct Hu as [Hwf Hsz]. eapply C17_new_object; eauto. }
  split; [exact Hb|].
  assert (Hl : INR (length q - 1) <= path_len q).
  { clear. induction q as [|a q IH]; [simpl; lra|]. destruct q as [|b q]; [simpl; lra|].
    change (path_len (a :: b :: q)) with (step_len a b + path_len (b :: q)).
    replace (length (a :: b :: q) - 1)%nat with (S (length (b :: q) - 1)) by (simpl; lia).
    rewrite S_INR. assert (1 <= step_len a b).
    { unfold step_len. destruct (_ || _); [lra|]. rewrite <- sqrt_1 at 1. apply sqrt_le_1_alt. lra. }
    lra. }
  lra.
Qed.

(** The hypotheses are met: the 3x2 map of the counterexample. *)
Example C17_bound_applies : exists p q,
  ex_aplan (astar_new R (fun _ => Node (0, 0)%Z 0 0 None false false) open_map) (2, 0)%Z (0, 0)%Z = Path p /\
  grid_path (free_cell open_map) (2, 0)%Z (0, 0)%Z q /\ path_len q = 2.
Proof.
  set (q := [(2, 0); (1, 0); (0, 0)]%Z).
  assert (Hq : grid_path (free_cell open_map) (2, 0)%Z (0, 0)%Z q).
  { split; [split; reflexivity|]. split.
    - split; [split; [congruence|cbn; lia]|]. split; [split; [congruence|cbn; lia]|exact I].
    - intros c [<-|[<-|[<-|[]]]] _; (split; [vm_compute; repeat split; discriminate || reflexivity|vm_compute; reflexivity]). }
  assert (Hu : usable open_map) by (vm_compute; repeat split; discriminate || reflexivity).
  destruct (proj2 (C14_complete (fun x => x) 0 ex_step euclid ex_value ex_gt
    (astar_new R (fun _ => Node (0, 0)%Z 0 0 None false false) open_map) (2, 0)%Z (0, 0)%Z
    (ex_intro _ _ (ex_intro _ _ (ex_intro _ [] (conj I eq_refl)))) Hu)) as (p & Hp).
  { split; [vm_compute; repeat split; discriminate || reflexivity|].
    split; [vm_compute; repeat split; discriminate || reflexivity|]. exists q. exact Hq. }
  exists p, q. split; [exact Hp|]. split; [exact Hq|]. cbn. lra.
Qed.
