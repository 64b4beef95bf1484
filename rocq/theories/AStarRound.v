(** C17 for rounded arithmetic: the search of AStarOld.v with any operations whose errors
    are below [e] as long as the values stay below [M].  AStarIeee.v shows that the
    hardware's binary32/binary64 arithmetic is of this kind. *)
From Coq Require Import Reals Lra Sorted Permutation.
From Flocq Require Import Core.Raux.
From Verif Require Import Base GridMap GridMapProofs PathSpec AStarOld AStarOldProofs PathLen PropAStar.

Local Open Scope R_scope.

Lemma steps_len q : chain adjacent8 q -> INR (steps q) <= path_len q <= 3 / 2 * INR (steps q).
Proof.
  assert (S2 : 1 < sqrt 2 <= 3 / 2).
  { split; [rewrite <- sqrt_1 at 1; apply sqrt_lt_1_alt; lra|]. rewrite <- (sqrt_pow2 (3 / 2)) by lra. apply sqrt_le_1_alt. lra. }
  induction q as [|a q IH]; [simpl; lra|]. destruct q as [|b q]; [simpl; lra|]. intros [_ H]. specialize (IH H).
  change (path_len (a :: b :: q)) with (step_len a b + path_len (b :: q)).
  change (steps (a :: b :: q)) with (S (steps (b :: q))). rewrite S_INR.
  assert (1 <= step_len a b <= 3 / 2) by (unfold step_len; destruct (_ || _); lra). lra.
Qed.
Lemma euclid_far start goal q : forall a, from_to a goal q -> chain adjacent8 q -> euclid start a <= euclid start goal + path_len q.
Proof.
  induction q as [|a0 q IH]; intros a [Hh Hl] Hc; [discriminate|]. injection Hh as ->. destruct q as [|b q].
  - cbn in Hl. subst a. cbn. lra.
  - destruct Hc as [Hab Hc]. assert (Hb : from_to b goal (b :: q)).
    { split; [reflexivity|]. rewrite (last_default _ _ a) by discriminate. exact Hl. }
    specialize (IH b Hb Hc). change (path_len (a :: b :: q)) with (step_len a b + path_len (b :: q)).
    assert (Hba : adjacent8 b a) by (destruct Hab as (N & X & Y); split; [congruence|lia]).
    pose proof (euclid_step start b a Hba) as T. rewrite step_len_sym in T. lra.
Qed.


Section Round.
  Variables Dd Df : Type.
  Variable tofloat : Dd -> Df.
  Variable zero : Dd.
  Variable step : Df -> bool -> Dd.
  Variable predict : Z * Z -> Z * Z -> Dd.
  Variable value : Df -> Df -> Z.
  Variable gt : Dd -> Dd -> Z -> bool.
  (** The number a stored float stands for, and the distances that occur. *)
  Variable rf : Df -> R.
  Variable good : Df -> Prop.
  Variables M e : R.
  Variable m : gridmap.
  Variables start goal : Z * Z.
  Hypothesis Hwf : gm_wf m.
  Hypothesis Hsize : (gm_w m * gm_h m < 2147483648)%Z.
  Hypothesis Hgoal : cell_of (gm_w m) (gm_h m) (fst goal) (snd goal).

  Definition len (b : bool) : R := if b then sqrt 2 else 1.
  Hypothesis He : 0 <= e <= / 16.
  Hypothesis A_zero : good (tofloat zero) /\ rf (tofloat zero) = 0.
  Hypothesis A_good : forall d b, good d -> good (tofloat (step d b)).
  Hypothesis A_step : forall d b, good d -> rf d + len b <= M -> Rabs (rf (tofloat (step d b)) - (rf d + len b)) <= e.
  Hypothesis A_mono : forall d b, good d -> rf d <= rf (tofloat (step d b)).
  Hypothesis A_val_lo : forall d p, good d -> inside m p -> let v := value d (tofloat (predict start p)) in
    IZR v <= M - 4 -> rf d + euclid start p < IZR v + 1 + 2 * e.
  Hypothesis A_val_hi : forall d p, good d -> inside m p -> let v := value d (tofloat (predict start p)) in
    rf d + euclid start p <= M - 4 -> IZR v <= rf d + euclid start p + 2 * e.
  (** The comparison is made with the value of a node. *)
  Hypothesis A_gt_true : forall d b p d' p' v, good d' -> inside m p' -> v = value d' (tofloat (predict start p')) -> good d -> inside m p -> rf d + len b + euclid start p <= M - 4 ->
    gt (step d b) (predict start p) v = true -> IZR v < rf d + len b + euclid start p + e.
  Hypothesis A_gt_false : forall d b p d' p' v, good d' -> inside m p' -> v = value d' (tofloat (predict start p')) -> good d -> inside m p -> IZR v <= M - 4 ->
    gt (step d b) (predict start p) v = false -> rf d + len b + euclid start p <= IZR v + e.

  Notation node := (node Df).
  Notation olist := (olist Df).
  Notation nodes := (o_nodes Df).
  Notation opn := (o_open Df).
  Notation pos := (n_pos Df).
  Notation ini := (n_init Df).
  Notation vis := (n_visited Df).
  Notation par := (n_parent Df).
  Notation dist := (n_dist Df).
  Notation npred := (n_pred Df).
  Notation val := (AStarOld.nvalue Df value).
  Notation addNode := (addNode Dd Df tofloat value gt).
  Notation expand := (expand Dd Df tofloat step predict value gt).
  Notation loop := (loop Dd Df tofloat step predict value gt).
  Notation inv := (@inv Df value m goal).
  Notation idx := (idx m).
  Notation rdist o i := (rf (dist (nodes o i))).
  Notation P p := (tofloat (predict start p)).

  (** Effect of addNode on the nodes. *)
  Lemma addNode_nodes closed o p d k o' :
    inv closed o -> inside m p -> addNode o p d (predict start p) (Some k) = Some o' ->
    (forall j, j <> idx p -> nodes o' j = nodes o j) /\
    ((ini (nodes o (idx p)) = false /\ nodes o' (idx p) = Node p (tofloat d) (P p) (Some k) false true) \/
     (ini (nodes o (idx p)) = true /\ vis (nodes o (idx p)) = true /\ nodes o' (idx p) = nodes o (idx p)) \/
     (ini (nodes o (idx p)) = true /\ vis (nodes o (idx p)) = false /\
       gt d (predict start p) (val (nodes o (idx p))) = true /\ nodes o' (idx p) = nodes o (idx p)) \/
     (ini (nodes o (idx p)) = true /\ vis (nodes o (idx p)) = false /\
       gt d (predict start p) (val (nodes o (idx p))) = false /\
       nodes o' (idx p) = Node (pos (nodes o (idx p))) (tofloat d) (npred (nodes o (idx p))) (Some k) false true)).
  Proof.
    intros I Hp. destruct (range_checks m Hsize o p (i_w _ _ _ _ _ I) (i_h _ _ _ _ _ I) Hp) as [R1 R2].
    unfold AStarOld.addNode. rewrite R1, R2. cbn [negb]. rewrite (pos_index_idx m o p (i_w _ _ _ _ _ I)).
    destruct (ini (nodes o (idx p))) eqn:Ei; cbn [negb].
    - destruct (vis (nodes o (idx p))) eqn:Ev; cbn [orb].
      { intros H. injection H as <-. split; [reflexivity|]. right; left; auto. }
      destruct (gt _ _ _) eqn:Eg.
      { intros H. injection H as <-. split; [reflexivity|]. right; right; left; auto. }
      destruct (erase_node _ _ _ _ _) as [l|]; [|discriminate]. cbn [obind]. intros H. injection H as <-.
      cbn [o_nodes]. split; [intros j Hj; apply upd_other; assumption|]. right; right; right.
      rewrite upd_same. repeat split; auto.
    - intros H. injection H as <-. cbn [o_nodes]. split; [intros j Hj; apply upd_other; assumption|].
      left. rewrite upd_same. auto.
  Qed.

  (** The way to [c] through the node [k]. *)
  Definition via (o : olist) (k : Z) (c : Z * Z) : R := rdist o k + step_len (pos (nodes o k)) c + euclid start c.
  (** Free neighbour [c] of the closed node [k] is known, and while it is open its value is
      hardly above the estimate for going through [k]. *)
  Definition near (o : olist) (k : Z) (c : Z * Z) : Prop :=
    ini (nodes o (idx c)) = true /\
    (vis (nodes o (idx c)) = false -> via o k c <= M - 8 -> IZR (val (nodes o (idx c))) <= via o k c + 3 * e).
  Definition gexp (o : olist) (k : Z) : Prop :=
    forall c, adjacent8 c (pos (nodes o k)) -> free_cell m c -> near o k c.

  Definition K : R := 1 + 5 * e.
  Record ginv (closed : list Z) (o : olist) : Prop := {
    g_inv : inv closed o;
    g_good : forall i, ini (nodes o i) = true -> good (dist (nodes o i));
    g_pred : forall i, ini (nodes o i) = true -> npred (nodes o i) = P (pos (nodes o i));
    g_dist : forall i, ini (nodes o i) = true ->
      match par (nodes o i) with
      | None => rdist o i = 0
      | Some k => exists b, dist (nodes o i) = tofloat (step (dist (nodes o k)) b) /\ len b = step_len (pos (nodes o i)) (pos (nodes o k))
      end;
    g_opt : forall i q, In i closed -> grid_path (free_cell m) (pos (nodes o i)) goal q ->
      euclid start goal + 5 * INR (steps q) + 16 <= M ->
      rdist o i <= path_len q + K * INR (steps q) }.

  Definition nb_diag (nb : list (Z * Z * bool)) : Prop :=
    forall dx dy d, In (dx, dy, d) nb -> d = negb ((dx =? 0)%Z || (dy =? 0)%Z).

  Lemma neighbors_diag : nb_diag neighbors.
  Proof.
    intros dx dy d H. unfold neighbors in H.
    repeat (destruct H as [H|H]; [injection H as <- <- <-; reflexivity|]). destruct H.
  Qed.

  Lemma len_nb x y dx dy d : d = negb ((dx =? 0)%Z || (dy =? 0)%Z) ->
    len d = step_len (x, y) ((x + dx)%Z, (y + dy)%Z).
  Proof.
    intros ->. unfold len, step_len. cbn [fst snd].
    replace (x =? x + dx)%Z with (dx =? 0)%Z by lia. replace (y =? y + dy)%Z with (dy =? 0)%Z by lia.
    destruct (_ || _); reflexivity.
  Qed.

  (** The value of a node entered from [k]. *)
  Lemma entered d b p : good d -> inside m p -> rf d + len b + euclid start p <= M - 5 ->
    IZR (value (tofloat (step d b)) (P p)) <= rf d + len b + euclid start p + 3 * e.
  Proof.
    intros Gd Hp HM. assert (0 <= euclid start p) by apply sqrt_pos.
    pose proof (A_step d b Gd ltac:(lra)) as E. apply Rabs_le_inv in E.
    pose proof (A_val_hi (tofloat (step d b)) p (A_good d b Gd) Hp) as V. cbv zeta in V. specialize (V ltac:(lra)). lra.
  Qed.

  Lemma addNode_ginv closed o p b k o' : ginv closed o -> free_cell m p -> In k closed ->
    adjacent8 p (pos (nodes o k)) -> len b = step_len (pos (nodes o k)) p ->
    addNode o p (step (dist (nodes o k)) b) (predict start p) (Some k) = Some o' ->
    ginv closed o' /\ near o' k p /\ grows closed o o' /\
    (forall j c, In j closed -> near o j c -> inside m c -> near o' j c).
  Proof.
    intros G Hf Hk Hadj Hd E. pose proof (g_inv _ _ G) as I. set (d := step (dist (nodes o k)) b) in *.
    destruct (@addNode_spec Dd Df tofloat value gt m goal Hsize closed o p d (predict start p) k I Hf Hk Hadj)
      as (o1 & E1 & I' & Hini & GR). rewrite E1 in E. injection E as ->.
    destruct (addNode_nodes closed o p d k o' I (proj1 Hf) E1) as [Hoth Hcase].
    set (i := idx p) in *.
    assert (Hcl : forall j, In j closed -> nodes o' j = nodes o j) by apply GR.
    assert (HiniK : ini (nodes o k) = true) by (apply (i_closed _ _ _ _ _ I); assumption).
    pose proof (g_good _ _ G k HiniK) as Gk.
    assert (Hsame : ini (nodes o i) = true -> pos (nodes o i) = p).
    { intros Hi. destruct (i_node _ _ _ _ _ I i Hi) as (_ & H1 & H2 & _). apply (idx_inj m); auto. apply Hf. }
    (* the value of a known open node never gets larger *)
    assert (Hmono : ini (nodes o i) = true -> vis (nodes o' i) = false -> IZR (val (nodes o i)) <= M - 7 ->
        (val (nodes o' i) <= val (nodes o i))%Z).
    { intros Hi Hv Hb. destruct Hcase as [(H1 & _)|[(_ & _ & ->)|[(_ & _ & _ & ->)|(_ & Hv' & Hle & ->)]]];
        [congruence|lia|lia|].
      unfold AStarOld.nvalue at 1. cbn [n_dist n_pred]. rewrite (g_pred _ _ G i Hi), (Hsame Hi).
      pose proof (A_gt_false (dist (nodes o k)) b p _ _ (val (nodes o i)) (g_good _ _ G i Hi) (proj1 (proj2 (i_node _ _ _ _ _ I i Hi))) ltac:(unfold AStarOld.nvalue; rewrite (g_pred _ _ G i Hi); reflexivity) Gk (proj1 Hf) ltac:(lra) Hle) as S1.
      pose proof (entered (dist (nodes o k)) b p Gk (proj1 Hf) ltac:(lra)) as S2.
      apply Z.lt_succ_r. apply lt_IZR. unfold Z.succ. rewrite plus_IZR. unfold d. lra. }
    split; [|split; [|split; [exact GR|]]].
    - split; [exact I'| | | |].
      + intros j Hj. destruct (Z.eq_dec j i) as [->|Hji]; [|rewrite Hoth in * by assumption; apply (g_good _ _ G j Hj)].
        destruct Hcase as [(_ & ->)|[(Hi & _ & ->)|[(Hi & _ & _ & ->)|(Hi & _ & _ & ->)]]]; cbn [n_dist];
          try (apply A_good; exact Gk); apply (g_good _ _ G i Hi).
      + intros j Hj. destruct (Z.eq_dec j i) as [->|Hji]; [|rewrite Hoth in * by assumption; apply (g_pred _ _ G j Hj)].
        destruct Hcase as [(_ & ->)|[(Hi & _ & ->)|[(Hi & _ & _ & ->)|(Hi & _ & _ & ->)]]]; cbn [n_pred n_pos];
          try reflexivity; apply (g_pred _ _ G i Hi).
      + intros j Hj.
        assert (Hold : nodes o' j = nodes o j -> ini (nodes o j) = true -> match par (nodes o' j) with
            | Some k0 => exists b, dist (nodes o' j) = tofloat (step (dist (nodes o' k0)) b) /\ len b = step_len (pos (nodes o' j)) (pos (nodes o' k0))
            | None => rdist o' j = 0 end).
        { intros -> Hj'. pose proof (g_dist _ _ G j Hj') as H. pose proof (i_par _ _ _ _ _ I j Hj') as H'.
          destruct (par (nodes o j)) as [q|]; [|exact H]. rewrite (Hcl q (proj1 H')). exact H. }
        destruct (Z.eq_dec j i) as [->|Hji]; [|pose proof (Hoth j Hji) as E; apply Hold; [exact E|congruence]].
        destruct Hcase as [(_ & ->)|[(Hi & _ & E)|[(Hi & _ & _ & E)|(Hi & _ & _ & ->)]]]; [|apply Hold; assumption|apply Hold; assumption|];
          cbn [n_parent n_dist n_pos]; rewrite (Hcl k Hk); exists b; (split; [reflexivity|]); rewrite Hd; [|rewrite (Hsame Hi)]; apply step_len_sym.
      + intros j q Hj. rewrite (Hcl j Hj). apply (g_opt _ _ G j q Hj).
    - split; [exact Hini|]. fold i. unfold via. rewrite (Hcl k Hk). rewrite <- Hd. intros Hv HM.
      pose proof (entered (dist (nodes o k)) b p Gk (proj1 Hf) ltac:(lra)) as S2.
      destruct Hcase as [(_ & E)|[(Hi & Hv' & E)|[(Hi & _ & Hlt & E)|(Hi & _ & _ & E)]]]; rewrite E in *.
      + exact S2.
      + congruence.
      + pose proof (A_gt_true (dist (nodes o k)) b p _ _ (val (nodes o i)) (g_good _ _ G i Hi) (proj1 (proj2 (i_node _ _ _ _ _ I i Hi))) ltac:(unfold AStarOld.nvalue; rewrite (g_pred _ _ G i Hi); reflexivity) Gk (proj1 Hf) ltac:(lra) Hlt). lra.
      + unfold AStarOld.nvalue. cbn [n_dist n_pred]. rewrite (g_pred _ _ G i Hi), (Hsame Hi). exact S2.
    - intros j c Hj [N1 N2] Hc. split; [apply GR; exact N1|]. intros Hv. unfold via in *. rewrite (Hcl j Hj). intros HM.
      destruct (Z.eq_dec (idx c) i) as [Ec|Ec].
      + rewrite Ec in *. assert (Hv0 : vis (nodes o i) = false).
        { destruct (vis (nodes o i)) eqn:Ev; [|reflexivity].
          destruct Hcase as [(Hx & _)|[(_ & _ & Hx)|[(_ & Hx & _)|(_ & Hx & _)]]]; congruence. }
        specialize (N2 Hv0 HM). specialize (Hmono N1 Hv ltac:(lra)). apply IZR_le in Hmono. lra.
      + rewrite (Hoth _ Ec) in *. auto.
  Qed.
  Lemma expand_ginv closed k nb : nb_ok nb -> nb_diag nb -> In k closed -> forall o, ginv closed o ->
    exists o', expand m start k nb o = Some o' /\ ginv closed o' /\ grows closed o o' /\
      (forall j c, In j closed -> near o j c -> inside m c -> near o' j c) /\
      forall dx dy d, In (dx, dy, d) nb ->
        let c := ((fst (pos (nodes o k)) + dx)%Z, (snd (pos (nodes o k)) + dy)%Z) in
        free_cell m c -> near o' k c.
  Proof.
    intros Hnb Hdg Hk. induction nb as [|[[dx dy] d] r IH]; intros o G.
    - exists o. split; [reflexivity|]. split; [assumption|]. split; [split; auto|]. split; [auto|intros ? ? ? []].
    - cbn [AStarOld.expand]. set (p := ((fst (pos (nodes o k)) + dx)%Z, (snd (pos (nodes o k)) + dy)%Z)).
      destruct (isFreeWay_spec m Hwf p) as (b & -> & Hb). cbn [obind].
      assert (Hr : nb_ok r) by (intros ? ? ? ?; eapply Hnb; right; eauto).
      assert (Hr' : nb_diag r) by (intros ? ? ? ?; eapply Hdg; right; eauto).
      assert (Hadj : adjacent8 p (pos (nodes o k))).
      { destruct (Hnb dx dy d (or_introl eq_refl)) as (N1 & N2 & N3). unfold adjacent8, p.
        destruct (pos (nodes o k)) as [x y]; cbn [fst snd]. split; [|lia].
        intros E. apply N1. injection E as E1 E2. f_equal; lia. }
      assert (Hstep : exists o1, (if b then addNode o p (step (dist (nodes o k)) d) (predict start p) (Some k) else Some o) = Some o1
                /\ ginv closed o1 /\ (free_cell m p -> near o1 k p) /\ grows closed o o1 /\
                (forall j c, In j closed -> near o j c -> inside m c -> near o1 j c)).
      { destruct b.
        - destruct (@addNode_spec Dd Df tofloat value gt m goal Hsize closed o p (step (dist (nodes o k)) d)
             (predict start p) k (g_inv _ _ G) (proj1 Hb eq_refl) Hk Hadj) as (o1 & E1 & _).
          destruct (addNode_ginv closed o p d k o1 G (proj1 Hb eq_refl) Hk Hadj) as (A & B & C & D).
          { unfold p. destruct (pos (nodes o k)) as [x y] eqn:Ep. cbn [fst snd]. apply len_nb.
            apply (Hdg dx dy d). left; reflexivity. }
          { exact E1. }
          exists o1. split; [exact E1|]. auto.
        - exists o. split; [reflexivity|]. split; [assumption|]. split; [|split; [split; auto|auto]].
          intros H. apply Hb in H. discriminate. }
      destruct Hstep as (o1 & -> & G1 & Hp1 & [GR1 GR1'] & Hn1). cbn [obind].
      destruct (IH Hr Hr' o1 G1) as (o' & E' & G' & [GR2 GR2'] & Hn2 & Hall).
      exists o'. split; [exact E'|]. split; [exact G'|]. split; [|split].
      { split; [auto|]. intros j Hj. rewrite GR2', GR1' by assumption. reflexivity. }
      { auto. }
      intros dx' dy' d' [E|Hin].
      + injection E as <- <- <-. cbv zeta. fold p. intros Hf. apply Hn2; auto. apply Hf.
      + specialize (Hall dx' dy' d' Hin). rewrite (GR1' k Hk) in Hall. exact Hall.
  Qed.

  (** On the way back from the goal along [q], the first node that is not
      closed is open and its value is close to optimal. *)
  Lemma frontier closed o : ginv closed o -> (forall i, In i closed -> gexp o i) -> In (idx goal) closed ->
    forall q a, grid_path (free_cell m) a goal q -> euclid start goal + 5 * INR (steps q) + 16 <= M ->
      (In (idx a) closed) \/
      exists b, In (idx b) (opn o) /\ inside m b /\ IZR (val (nodes o (idx b))) <= M - 8 /\
        IZR (val (nodes o (idx b))) + K <= path_len q + K * INR (steps q) + euclid start a + 3 * e.
  Proof.
    intros G Hexp Hgc q. pose proof (g_inv _ _ G) as I.
    induction q as [|a0 q IH]; intros a ((Hhd & Hlast) & Hch & Hfree) HM; [discriminate|].
    injection Hhd as ->. destruct q as [|b q].
    - cbn in Hlast. subst a. left. assumption.
    - assert (Hin : forall c, In c (a :: b :: q) -> inside m c).
      { intros c Hc. destruct (list_eq_dec Z.eq_dec [fst c; snd c] [fst goal; snd goal]) as [El|El].
        - assert (c = goal) as -> by (destruct c, goal; cbn in El; congruence). exact Hgoal.
        - apply Hfree; [assumption|]. intros ->. congruence. }
      pose proof (euclid_far start goal (a :: b :: q) a (conj eq_refl Hlast) Hch) as Hfar.
      pose proof (steps_len (a :: b :: q) Hch) as Hsl.
      destruct Hch as [Hab Hch].
      assert (Hgp : grid_path (free_cell m) b goal (b :: q)).
      { split; [split; [reflexivity|]|split; [assumption|]].
        - rewrite (last_default _ _ a) by discriminate. exact Hlast.
        - intros c Hc. apply Hfree. right. assumption. }
      change (path_len (a :: b :: q)) with (step_len a b + path_len (b :: q)) in *.
      change (steps (a :: b :: q)) with (S (steps (b :: q))) in *. rewrite S_INR in *.
      pose proof (pos_INR (steps (b :: q))) as Hn0. set (n := INR (steps (b :: q))) in *.
      pose proof (euclid_step start a b Hab) as T.
      destruct (IH b Hgp ltac:(lra)) as [Hb|(b' & Ho & Hin' & HvM & Hv)].
      + destruct (in_dec Z.eq_dec (idx a) closed) as [Ha|Ha]; [left; assumption|right].
        exists a.
        assert (Hbi : ini (nodes o (idx b)) = true) by (apply (i_closed _ _ _ _ _ I); assumption).
        assert (Hbp : pos (nodes o (idx b)) = b).
        { destruct (i_node _ _ _ _ _ I _ Hbi) as (_ & Hx & Hy & _). apply (idx_inj m); auto. apply Hin. right; left; reflexivity. }
        assert (Hag : a <> goal) by (intros ->; apply Ha; assumption).
        destruct (Hexp _ Hb a) as [N1 N2].
        { rewrite Hbp. assumption. }
        { apply Hfree; [left; reflexivity|assumption]. }
        assert (Hva : vis (nodes o (idx a)) = false).
        { destruct (vis (nodes o (idx a))) eqn:Ev; [|reflexivity]. exfalso. apply Ha, (i_closed _ _ _ _ _ I). auto. }
        specialize (N2 Hva). unfold via in N2. rewrite Hbp, (step_len_sym b a) in N2.
        pose proof (g_opt _ _ G (idx b) (b :: q) Hb) as Hopt. rewrite Hbp in Hopt. specialize (Hopt Hgp). fold n in Hopt. specialize (Hopt ltac:(lra)).
        assert (Kn : K * n <= 3 / 2 * n) by (apply Rmult_le_compat_r; [exact Hn0|unfold K; lra]).
        specialize (N2 ltac:(lra)).
        split; [apply (i_open _ _ _ _ _ I); auto|]. split; [apply Hin; left; reflexivity|]. split; [lra|].
        rewrite Rmult_plus_distr_l. lra.
      + right. exists b'. split; [exact Ho|]. split; [exact Hin'|]. split; [exact HvM|].
        assert (0 <= K) by (unfold K; lra). rewrite Rmult_plus_distr_l. 
        assert (euclid start b <= euclid start a + step_len a b) by exact T. lra.
  Qed.

  Lemma getFirst_ginv closed o i r : ginv closed o -> (forall j, In j closed -> gexp o j) -> In (idx goal) closed ->
    opn o = i :: r -> exists o', getFirst Df o = (Some i, o') /\ ginv (i :: closed) o' /\
      (forall j, In j closed -> gexp o' j) /\ (forall j, In j closed -> nodes o' j = nodes o j).
  Proof.
    intros G Hexp Hgc E. pose proof (g_inv _ _ G) as I.
    destruct (@getFirst_spec Df value m goal closed o i r I E) as (o' & Eg & I' & Hp & Hi).
    exists o'. split; [exact Eg|].
    assert (Ho' : forall j, dist (nodes o' j) = dist (nodes o j) /\ npred (nodes o' j) = npred (nodes o j) /\
              par (nodes o' j) = par (nodes o j) /\ vis (nodes o' j) = (if (j =? i)%Z then true else vis (nodes o j)) /\
              (j <> i -> nodes o' j = nodes o j)).
    { unfold getFirst in Eg. rewrite E in Eg. injection Eg as <-. intros j. cbn [o_nodes]. unfold upd.
      destruct (Z.eqb_spec j i) as [->|Hj]; cbn; repeat split; auto. contradiction. }
    assert (Hii : ini (nodes o i) = true /\ vis (nodes o i) = false) by (apply (i_open _ _ _ _ _ I); rewrite E; left; reflexivity).
    assert (Hni : ~ In i closed).
    { intros H. apply (i_closed _ _ _ _ _ I) in H as [_ H]. destruct Hii; congruence. }
    split; [|split].
    - split; [exact I'| | | |].
      + intros j. destruct (Ho' j) as (-> & _). rewrite Hi. apply (g_good _ _ G).
      + intros j. destruct (Ho' j) as (_ & -> & _). rewrite Hi, Hp. apply (g_pred _ _ G).
      + intros j. destruct (Ho' j) as (-> & _ & -> & _). rewrite Hi, Hp. intros Hj. pose proof (g_dist _ _ G j Hj) as H.
        destruct (par (nodes o j)) as [k|]; [|exact H]. destruct (Ho' k) as (-> & _). rewrite Hp. exact H.
      + intros j q Hj. destruct (Ho' j) as (-> & _). rewrite Hp. destruct Hj as [<-|Hj]; [|apply (g_opt _ _ G); assumption].
        intros Hq HM.
        assert (Hpi : idx (pos (nodes o i)) = i) by (apply (i_node _ _ _ _ _ I); apply Hii).
        destruct (frontier closed o G Hexp Hgc q _ Hq HM) as [H|(b & Ho & Hinb & HvM & Hv)].
        { rewrite Hpi in H. contradiction. }
        assert (Hle : (val (nodes o i) <= val (nodes o (idx b)))%Z).
        { pose proof (i_sorted _ _ _ _ _ I) as Hs. rewrite E in Hs, Ho. inversion Hs as [|? ? _ Hs2]; subst.
          destruct Ho as [<-|Ho]; [lia|]. rewrite Forall_forall in Hs2. apply Hs2. assumption. }
        apply IZR_le in Hle.
        assert (Hin : inside m (pos (nodes o i))) by (apply (i_node _ _ _ _ _ I i (proj1 Hii))).
        pose proof (A_val_lo (dist (nodes o i)) _ (g_good _ _ G i (proj1 Hii)) Hin) as V. cbv zeta in V.
        rewrite <- (g_pred _ _ G i (proj1 Hii)) in V. fold (val (nodes o i)) in V. specialize (V ltac:(lra)).
        unfold K in *. lra.
    - intros j Hj c Hc Hf. rewrite Hp in Hc. destruct (Hexp j Hj c Hc Hf) as [N1 N2].
      split; [rewrite Hi; exact N1|]. unfold via in *. unfold AStarOld.nvalue in *. destruct (Ho' (idx c)) as (-> & -> & _ & -> & _).
      destruct (Ho' j) as (-> & _). rewrite Hp. destruct (idx c =? i)%Z; [discriminate|exact N2].
    - intros j Hj. apply Ho'. congruence.
  Qed.

  (** The reconstructed path is hardly longer than the distance of its first node. *)
  Lemma backtrack_len closed o : ginv closed o -> forall fuel i p, ini (nodes o i) = true -> rdist o i <= M - 2 ->
    backtrack Df fuel (nodes o) (Some i) = Some p ->
    path_len p <= rdist o i + e * INR (steps p) /\ chain adjacent8 p /\ exists r, p = pos (nodes o i) :: r.
  Proof.
    intros G fuel. induction fuel as [|fuel IH]; intros i p Hi HM E; [discriminate|]. cbn [backtrack] in E.
    pose proof (g_dist _ _ G i Hi) as Hd. pose proof (i_par _ _ _ _ _ (g_inv _ _ G) i Hi) as Hp.
    destruct (par (nodes o i)) as [k|].
    - destruct (backtrack Df fuel (nodes o) (Some k)) as [l|] eqn:El; [|discriminate]. cbn [obind] in E. injection E as <-.
      assert (Hk : ini (nodes o k) = true) by (apply (i_closed _ _ _ _ _ (g_inv _ _ G)); apply Hp).
      destruct Hd as (b & Hd & Hl). pose proof (g_good _ _ G k Hk) as Gk. pose proof (A_mono (dist (nodes o k)) b Gk) as Hm. rewrite <- Hd in Hm.
      assert (Hb : len b <= 3 / 2).
      { unfold len. destruct b; [|lra]. rewrite <- (sqrt_pow2 (3 / 2)) by lra. apply sqrt_le_1_alt. lra. }
      pose proof (A_step (dist (nodes o k)) b Gk ltac:(lra)) as Hs. rewrite <- Hd in Hs. apply Rabs_le_inv in Hs.
      destruct (IH k l Hk ltac:(lra) El) as (H1 & H2 & r & ->). split; [|split; [|eauto]].
      + change (step_len (pos (nodes o i)) (pos (nodes o k)) + path_len (pos (nodes o k) :: r) <= rdist o i + e * INR (S (steps (pos (nodes o k) :: r)))).
        rewrite S_INR, Rmult_plus_distr_l. lra.
      + split; [apply Hp|exact H2].
    - assert (E' : Some [pos (nodes o i)] = Some p) by (destruct fuel; exact E). injection E' as <-.
      split; [simpl; lra|]. split; [exact Logic.I|eauto].
  Qed.

  Lemma loop_opt fuel : forall k tail o p, ginv (k :: tail) o -> (forall j, In j tail -> gexp o j) ->
    In (idx goal) (k :: tail) ->
    fst (loop fuel m start k o) = Path p ->
    forall q, grid_path (free_cell m) start goal q -> euclid start goal + 5 * INR (steps q) + 16 <= M ->
    path_len p <= path_len q + (1 + 8 * e) * INR (steps q).
  Proof.
    induction fuel as [|fuel IH]; intros k tail o p G Hexp Hgc; [discriminate|].
    cbn [AStarOld.loop]. pose proof (g_inv _ _ G) as I.
    assert (Hini : ini (nodes o k) = true) by (apply (i_closed _ _ _ _ _ I); left; reflexivity).
    destruct (cell_eqb (pos (nodes o k)) start) eqn:Es.
    - destruct (backtrack _ _ _ _) as [l|] eqn:El; [|discriminate]. cbn [fst]. intros H. injection H as ->.
      intros q Hq HM.
      assert (Hs : pos (nodes o k) = start).
      { unfold cell_eqb in Es. destruct (pos (nodes o k)), start; cbn [fst snd] in Es. f_equal; lia. }
      assert (Hop : rdist o k <= path_len q + K * INR (steps q)) by (apply (g_opt _ _ G k q (or_introl eq_refl)); [rewrite Hs; exact Hq|exact HM]).
      pose proof (steps_len q (proj1 (proj2 Hq))) as Hsl. pose proof (pos_INR (steps q)) as Hn0.
      assert (0 <= euclid start goal) by apply sqrt_pos.
      assert (Kn : K * INR (steps q) <= 3 / 2 * INR (steps q)) by (apply Rmult_le_compat_r; [exact Hn0|unfold K; lra]).
      destruct (backtrack_len _ _ G _ _ _ Hini ltac:(lra) El) as (Hlen & Hch & _).
      pose proof (steps_len p Hch) as Hsp.
      clear - Hlen Hop Hsl Hn0 Hsp He. set (L := path_len q) in *. set (n := INR (steps q)) in *. set (l := path_len p) in *. set (u := INR (steps p)) in *. unfold K in Hop.
      assert (e * u <= e * l) by (apply Rmult_le_compat_l; lra).
      assert (B : l * (1 - e) <= L + (1 + 5 * e) * n) by lra.
      assert (C : L + (1 + 5 * e) * n <= (L + (1 + 8 * e) * n) * (1 - e)).
      { assert (e * L <= e * (3 / 2 * n)) by (apply Rmult_le_compat_l; lra).
        assert (0 <= e * (n * (/ 16 - e))) by (apply Rmult_le_pos; [lra|apply Rmult_le_pos; lra]). lra. }
      apply (Rmult_le_reg_r (1 - e)); lra.
    - destruct (expand_ginv (k :: tail) k neighbors neighbors_ok neighbors_diag (or_introl eq_refl) o G)
        as (o1 & E1 & G1 & GR & Hn & Hall).
      rewrite E1.
      assert (Hexp1 : forall j, In j (k :: tail) -> gexp o1 j).
      { intros j Hj c Hc Hf. destruct GR as [_ GR]. rewrite (GR j Hj) in Hc. destruct Hj as [<-|Hj].
        - destruct Hc as (Hne & Hx & Hy). destruct c as [x y], (pos (nodes o k)) as [px py] eqn:Ep. cbn [fst snd] in *.
          destruct (neighbors_complete (x - px) (y - py)) as [d Hd]; try lia.
          { intros E2. apply Hne. injection E2 as E2 E3. f_equal; lia. }
          specialize (Hall _ _ _ Hd). cbv zeta in Hall.
          replace (px + (x - px))%Z with x in Hall by lia. replace (py + (y - py))%Z with y in Hall by lia.
          apply Hall. exact Hf.
        - apply Hn; [right; assumption| |apply Hf]. apply Hexp; assumption. }
      destruct (opn o1) as [|i r] eqn:Eo.
      + unfold getFirst. rewrite Eo. discriminate.
      + destruct (getFirst_ginv _ _ _ _ G1 Hexp1 Hgc Eo) as (o2 & -> & G2 & Hexp2 & _).
        apply (IH i (k :: tail)); [exact G2|exact Hexp2|right; exact Hgc].
  Qed.

  Lemma search_opt o p : o_w Df o = gm_w m -> o_h Df o = gm_h m -> tracked o ->
    fst (search Dd Df tofloat zero step predict value gt m start goal o) = Path p ->
    forall q, grid_path (free_cell m) start goal q -> euclid start goal + 5 * INR (steps q) + 16 <= M ->
    path_len p <= path_len q + (1 + 8 * e) * INR (steps q).
  Proof.
    intros Ew Eh Ht. destruct (prepare_fresh o Ht) as (P1 & P2 & P3 & P4 & P5).
    destruct (@first_spec Dd Df tofloat zero predict value gt m start goal Hsize Hgoal (prepare Df o)) as (o2 & (o1 & E1 & E2) & HI & _).
    { repeat split; congruence || auto. }
    unfold AStarOld.search. rewrite E1, E2. apply (loop_opt _ _ []); [|intros j []|left; reflexivity].
    (* the goal node *)
    assert (Hn : nodes o2 (idx goal) = Node goal (tofloat zero) (P goal) None true true).
    { revert E1. unfold AStarOld.addNode.
      destruct (range_checks m Hsize (prepare Df o) goal) as [R1 R2]; [congruence|congruence|exact Hgoal|].
      rewrite R1, R2. cbn [negb]. rewrite (pos_index_idx m (prepare Df o) goal) by congruence. rewrite P5. cbn [negb].
      intros H. injection H as <-. unfold getFirst in E2. cbn [o_open prepare] in E2.
      unfold insert_node in E2. cbn [lower_bound app] in E2. injection E2 as <-.
      cbn [o_nodes]. rewrite !upd_same. reflexivity. }
    assert (Honly : forall j, ini (nodes o2 j) = true -> j = idx goal).
    { intros j Hj. destruct (vis (nodes o2 j)) eqn:Ev.
      - assert (H : In j [idx goal]) by (apply (i_closed _ _ _ _ _ HI); auto). destruct H as [H|[]]; auto.
      - assert (H : In j (opn o2)) by (apply (i_open _ _ _ _ _ HI); auto).
        exfalso. unfold getFirst in E2. destruct (opn o1) as [|x r] eqn:Eo; [discriminate|]. injection E2 as Ex <-. cbn [o_open] in H.
        revert E1. unfold AStarOld.addNode.
        destruct (range_checks m Hsize (prepare Df o) goal) as [R1 R2]; [congruence|congruence|exact Hgoal|].
        rewrite R1, R2. cbn [negb]. rewrite (pos_index_idx m (prepare Df o) goal) by congruence. rewrite P5. cbn [negb].
        intros E1. injection E1 as <-. cbn [o_open prepare] in Eo.
        unfold insert_node in Eo. cbn [lower_bound app] in Eo. injection Eo as _ <-. destruct H. }
    split; [exact HI| | | |].
    - intros i Hi. apply Honly in Hi as ->. rewrite Hn. apply A_zero.
    - intros i Hi. apply Honly in Hi as ->. rewrite Hn. reflexivity.
    - intros i Hi. apply Honly in Hi as ->. rewrite Hn. apply A_zero.
    - intros i q [<-|[]] Hq _. rewrite Hn. cbn [n_dist]. rewrite (proj2 A_zero). pose proof (steps_len q (proj1 (proj2 Hq))). pose proof (pos_INR (steps q)).
      assert (0 <= K * INR (steps q)) by (apply Rmult_le_pos; [unfold K; lra|assumption]). lra.
  Qed.
End Round.
