(** Invariants of the search over slots with contents (VehicleSearch.v) for every
    heuristic and every order in which the open list hands out the nodes: closed nodes
    may be reached again and get new contents. *)
From Coq Require Import Reals Lra.
From Verif Require Import Base GeomR PathSpec GenericProofs VehicleSearch VehicleProofs.
Local Open Scope R_scope.

(** ** Sums of finitely many positive numbers *)
Inductive gsum (gens : list R) : R -> Prop :=
| gs_zero : gsum gens 0
| gs_add d c : gsum gens d -> In c gens -> gsum gens (d + c).

(** They are well ordered: every sum has only finitely many below it. *)
Lemma rank_exists (gens : list R) : (forall c, In c gens -> 0 < c) ->
  exists rank : R -> nat, forall d d', gsum gens d -> gsum gens d' -> d < d' -> (rank d < rank d')%nat.
Proof.
  intros Hpos.
  assert (Hcm : exists cm, 0 < cm /\ forall c, In c gens -> cm <= c).
  { induction gens as [|c l IH]; [exists 1; split; [lra|intros c []]|].
    destruct IH as (cm & A & B); [intros c' Hc'; apply Hpos; right; assumption|].
    assert (0 < c) by (apply Hpos; left; reflexivity). exists (Rmin cm c). split; [apply Rmin_glb_lt; assumption|].
    intros c' [<-|Hc']; [apply Rmin_r|]. eapply Rle_trans; [apply Rmin_l|apply B; assumption]. }
  destruct Hcm as (cm & Hcm & Hmin).
  set (sums := fix sums (n : nat) : list R := match n with O => [0] | S k => sums k ++ flat_map (fun d => map (fun c => d + c) gens) (sums k) end).
  assert (Hsound : forall n d, In d (sums n) -> gsum gens d).
  { induction n as [|n IH]; intros d Hd; [destruct Hd as [<-|[]]; constructor|]. cbn [sums] in Hd. apply in_app_iff in Hd. destruct Hd as [Hd|Hd]; [apply IH; assumption|].
    apply in_flat_map in Hd. destruct Hd as (x & Hx & Hd). apply in_map_iff in Hd. destruct Hd as (c & <- & Hc). constructor; [apply IH; assumption|assumption]. }
  assert (Hcomp : forall d, gsum gens d -> exists n, INR n * cm <= d /\ forall k, (n <= k)%nat -> In d (sums k)).
  { induction 1 as [|d c Hd IH Hc].
    - exists O. split; [cbn; lra|]. intros k _. induction k as [|k IHk]; [left; reflexivity|]. cbn [sums]. apply in_app_iff. left. assumption.
    - destruct IH as (n & A & B). exists (S n). split; [rewrite S_INR; specialize (Hmin c Hc); lra|].
      intros k Hk. destruct k as [|k]; [lia|]. cbn [sums]. apply in_app_iff. right. apply in_flat_map. exists d. split; [apply B; lia|].
      apply in_map_iff. exists c. auto. }
  set (N := fun D : R => Z.to_nat (up (D / cm))).
  set (below := fun D : R => nodup Req_EM_T (filter (fun d => Rltb d D) (sums (N D)))).
  exists (fun D => length (below D)). intros d d' Hd Hd' Hlt.
  assert (G : forall x, gsum gens x -> x < d' -> In x (below d')).
  { intros x Hx Hxd. apply nodup_In, filter_In. split; [|apply Rltb_spec; assumption].
    destruct (Hcomp x Hx) as (n & A & B). apply B. unfold N. apply INR_le.
    destruct (Z_le_gt_dec 0 (up (d' / cm))) as [Hz|Hz].
    - rewrite (INR_IZR_INZ (Z.to_nat _)), Z2Nat.id by assumption. destruct (archimed (d' / cm)) as [Ha _]. apply Rlt_le. eapply Rle_lt_trans; [|exact Ha].
      apply (Rmult_le_reg_r cm); [assumption|]. unfold Rdiv. rewrite Rmult_assoc, Rinv_l, Rmult_1_r by lra. lra.
    - exfalso. destruct (archimed (d' / cm)) as [Ha _]. assert (IZR (up (d' / cm)) <= 0) by (apply IZR_le; lia).
      assert (0 <= INR n * cm) by (apply Rmult_le_pos; [apply pos_INR|lra]).
      assert (0 < d' / cm) by (apply Rdiv_lt_0_compat; lra). lra. }
  assert (Hn : NoDup (d :: below d)).
  { constructor; [|apply NoDup_nodup]. intros X. apply nodup_In, filter_In in X. destruct X as [_ X]. apply Rltb_spec in X. lra. }
  assert (Hi : incl (d :: below d) (below d')).
  { intros x [<-|Hx]; [apply G; assumption|]. apply nodup_In, filter_In in Hx. destruct Hx as [A B]. apply Rltb_spec in B. apply G; [apply (Hsound _ _ A)|lra]. }
  apply (NoDup_incl_length Hn) in Hi. cbn [length] in Hi. lia.
Qed.

Section Any.
  Context {V P M : Type}.
  Variable veqb : V -> V -> bool.
  Hypothesis veqb_spec : forall a b, reflect (a = b) (veqb a b).
  Variable moves : list M.
  Variable reach : nat.
  Variable offer : P -> list P -> M -> option (option (V * R * P)).
  Variable hval : P -> P -> R.
  Variable tot : R -> R -> R.
  Variable isgoal : P -> P -> option P -> option bool.
  Variable push : (V -> R) -> V -> list V -> list V.
  Variable pop : (V -> R) -> list V -> option (V * list V).
  Hypothesis Hpush : push_ok push.
  Hypothesis Hpop : pop_ok pop.
  Variable start goals : list V.
  Variable pay0 : V -> P.

  (** The contents a node can get: those of a start node, or what a node with such
      contents offers. *)
  Inductive rch : V -> P -> Prop :=
  | rch_start v : In v start -> rch v (pay0 v)
  | rch_move u q qs m v c p : rch u q -> In m moves -> offer q qs m = Some (Some (v, c, p)) -> rch v p.

  Variable all : list V.
  Variable gens : list R.
  Hypothesis gens_pos : forall c, In c gens -> 0 < c.
  Hypothesis start_all : incl start all.
  Hypothesis offer_gen : forall u q qs m v c p, rch u q -> In m moves -> offer q qs m = Some (Some (v, c, p)) -> In v all /\ In c gens.

  Notation vinfo := (vinfo V P).
  Notation vstate := (vstate V P).
  Notation inf := (v_info V P).
  Notation opn := (v_open V P).
  Notation ndist := (n_dist V P).
  Notation nprev := (n_prev V P).
  Notation nopen := (n_open V P).
  Notation nclosed := (n_closed V P).
  Notation npay := (n_pay V P).
  Notation vset := (vset V P veqb).
  Notation vdist := (vdist V P).
  Notation vtotal := (vtotal V P tot).
  Notation prevs := (prevs V P).
  Notation vprocess := (vprocess V P veqb hval tot push goals).
  Notation vexpand := (vexpand V P M veqb reach offer hval tot push goals).
  Notation vback := (vback V P veqb start).
  Notation vclose := (vclose V P veqb hval goals).
  Notation vreached := (vreached V P isgoal).
  Notation vstarts := (vstarts V P veqb tot push).
  Notation vloop := (vloop V P M veqb moves reach offer hval tot isgoal push pop start goals).
  Notation vrun := (vrun V P M veqb moves reach offer hval tot isgoal push pop start goals).
  Notation vtrace := (vtrace start).
  Notation vdec := (vdec veqb veqb_spec).

  (** What a node holds against what its predecessor held when it offered it: [q] is
      some contents the predecessor had, a start node's first contents. *)
  Definition stepped (u : V) (v : V) (p : P) (c : R) : Prop :=
    exists q qs m, rch u q /\ (In u start -> q = pay0 u) /\ In m moves /\ offer q qs m = Some (Some (v, c, p)).

  Record W (s : vstate) : Prop := {
    w_list : forall v, In v (opn s) -> vseen (inf s) v;
    w_all : forall v, vseen (inf s) v -> In v all;
    w_start : forall v, In v start -> vseen (inf s) v /\ ndist (inf s v) = Some 0 /\ nprev (inf s v) = None /\ npay (inf s v) = pay0 v;
    w_dist : forall v, vseen (inf s) v -> exists d, ndist (inf s v) = Some d /\ gsum gens d;
    w_rch : forall v, vseen (inf s) v -> rch v (npay (inf s v));
    w_prev : forall v, vseen (inf s) v -> ~ In v start -> exists u c, nprev (inf s v) = Some u /\ nclosed (inf s u) = true /\
      stepped u v (npay (inf s v)) c /\ vdist (inf s) u + c <= vdist (inf s) v /\ 0 < c;
    w_fresh : forall v, ~ vseen (inf s) v -> npay (inf s v) = pay0 v }.

  Lemma gsum_nonneg d : gsum gens d -> 0 <= d.
  Proof using gens_pos. induction 1 as [|d c Hd IH Hc]; [lra|]. specialize (gens_pos c Hc). lra. Qed.
  Lemma w_pos s : W s -> forall v, vseen (inf s) v -> 0 <= vdist (inf s) v /\ gsum gens (vdist (inf s) v).
  Proof using gens_pos.
    intros HW v Hv. destruct (w_dist s HW v Hv) as (d & E & G). rewrite (vdist_some _ _ _ E). split; [apply gsum_nonneg; assumption|assumption].
  Qed.

  Definition seenb (f : V -> vinfo) (v : V) : bool := nopen (f v) || nclosed (f v).
  Lemma seenb_spec f v : seenb f v = true <-> vseen f v.
  Proof using Type. unfold seenb, vseen. apply orb_true_iff. Qed.

  (** Following the predecessors leads to a start node: the distance decreases. *)
  Lemma w_trace s : W s -> forall v, vseen (inf s) v -> exists l, vtrace (inf s) v (v :: l) /\ forall x, In x l -> nclosed (inf s x) = true.
  Proof using veqb_spec.
    intros HW.
    set (low := fun v u => seenb (inf s) u && Rltb (vdist (inf s) u) (vdist (inf s) v)).
    assert (G : forall n v, (length (filter (low v) all) <= n)%nat -> vseen (inf s) v -> exists l, vtrace (inf s) v (v :: l) /\ forall x, In x l -> nclosed (inf s x) = true).
    { induction n as [n IH] using (well_founded_ind lt_wf). intros v Hn Hv. destruct (in_dec vdec v start) as [Hs|Hs].
      { exists []. split; [constructor; assumption|intros x []]. }
      destruct (w_prev s HW v Hv Hs) as (u & c & A & B & _ & D & Hc0).
      assert (Hu : vseen (inf s) u) by (right; assumption).
      assert (Hlt : vdist (inf s) u < vdist (inf s) v) by lra.
      assert (L : (length (filter (low u) all) < length (filter (low v) all))%nat).
      { apply (filter_lt _ _ u).
        - intros x Hx. unfold low in *. apply andb_true_iff in Hx. destruct Hx as [X Y]. apply Rltb_spec in Y. rewrite X. cbn [andb]. apply Rltb_spec. lra.
        - apply (w_all s HW). assumption.
        - unfold low. rewrite (proj2 (seenb_spec _ _) Hu). cbn [andb]. apply Rltb_spec. assumption.
        - unfold low. destruct (Rltb (vdist (inf s) u) (vdist (inf s) u)) eqn:X; [apply Rltb_spec in X; lra|]. apply andb_false_r. }
      destruct (IH (length (filter (low u) all)) (Nat.lt_le_trans _ _ _ L Hn) u (Nat.le_refl _) Hu) as (l & Ht & Hc).
      exists (u :: l). split; [apply (vt_step _ _ v u); assumption|]. intros x [<-|Hx]; [assumption|apply Hc; assumption]. }
    intros v Hv. apply (G _ v (Nat.le_refl _) Hv).
  Qed.

  (** ** The measure: nodes never reached, then the distances *)
  Variable rank : R -> nat.
  Hypothesis rank_lt : forall d d', gsum gens d -> gsum gens d' -> d < d' -> (rank d < rank d')%nat.
  Definition unseen (s : vstate) : nat := length (filter (fun v => negb (seenb (inf s) v)) all).
  Definition ranks (s : vstate) : nat := list_sum (map (fun v => if seenb (inf s) v then rank (vdist (inf s) v) else O) all).
  Definition below (s' s : vstate) : Prop := (unseen s' < unseen s)%nat \/ (unseen s' = unseen s /\ (ranks s' < ranks s)%nat).
  Lemma below_trans a b c : below a b -> below b c -> below a c.
  Proof using Type. unfold below. intros [A|[A A']] [B|[B B']]; [left|left|left|right]; lia. Qed.

  Lemma sum_lt (f g : V -> nat) l x : (forall v, (f v <= g v)%nat) -> In x l -> (f x < g x)%nat -> (list_sum (map f l) < list_sum (map g l))%nat.
  Proof using Type.
    clear. intros Hle Hx Hlt. induction l as [|y l IH]; [destruct Hx|]. cbn [map list_sum fold_right].
    assert (L : (list_sum (map f l) <= list_sum (map g l))%nat).
    { clear - Hle. induction l as [|z l IH]; [reflexivity|]. cbn [map list_sum fold_right]. specialize (Hle z). unfold list_sum in IH. lia. }
    unfold list_sum in *. destruct Hx as [->|Hx]; [lia|]. specialize (IH Hx). specialize (Hle y). lia.
  Qed.

  Lemma process_W s cur m v c p : W s -> nclosed (inf s cur) = true -> In m moves ->
    offer (npay (inf s cur)) (prevs reach (inf s) cur) m = Some (Some (v, c, p)) ->
    exists s', vprocess cur s (v, c, p) = Some s' /\ W s' /\ (forall u, nclosed (inf s' u) = nclosed (inf s u)) /\ (s' = s \/ below s' s).
  Proof using veqb_spec Hpush gens_pos offer_gen rank_lt.
    intros HW Hc Hm Ho. assert (Scur : vseen (inf s) cur) by (right; assumption).
    destruct (offer_gen cur _ _ m v c p (w_rch s HW cur Scur) Hm Ho) as [Hva Hcg].
    pose proof (gens_pos c Hcg) as Hc0.
    destruct (w_dist s HW cur Scur) as (dc & Edc & Hdc).
    assert (Ecur : vdist (inf s) cur = dc) by (apply vdist_some; assumption).
    unfold VehicleSearch.vprocess. rewrite Ecur.
    set (n := inf s v).
    set (closer := match ndist n with None => true | Some d' => Rltb (dc + c) d' end).
    destruct (nclosed n && negb closer) eqn:E1.
    { exists s. split; [reflexivity|]. split; [assumption|]. split; [reflexivity|left; reflexivity]. }
    destruct (negb (nopen n) || closer) eqn:E2.
    2:{ exists s. split; [reflexivity|]. split; [assumption|]. split; [reflexivity|left; reflexivity]. }
    assert (Hcl : vseen (inf s) v -> dc + c < vdist (inf s) v).
    { intros Hv. destruct (w_dist s HW v Hv) as (dv & Edv & _). rewrite (vdist_some _ _ _ Edv).
      assert (closer = true).
      { destruct Hv as [Hv|Hv]; fold n in Hv; rewrite Hv in *; cbn [negb orb andb] in *; [assumption|]. destruct closer; [reflexivity|discriminate]. }
      unfold closer, n in H. rewrite Edv in H. apply Rltb_spec in H. assumption. }
    assert (Hvc : v <> cur). { intros ->. specialize (Hcl Scur). lra. }
    destruct (veqb_spec v cur) as [|_]; [contradiction|].
    assert (Hns : ~ In v start).
    { intros Hs. destruct (w_start s HW v Hs) as (Hv & Hd & _). specialize (Hcl Hv). rewrite (vdist_some _ _ _ Hd) in Hcl. pose proof (gsum_nonneg dc Hdc). lra. }
    set (h := new_h V P hval goals (inf s) v).
    set (f1 := vset (inf s) v (VI V P (Some (dc + c)) h (Some cur) true (nclosed n) (npay n))).
    set (f2 := vset f1 v (VI V P (Some (dc + c)) h (Some cur) true (nclosed n) p)).
    set (s' := VS V P f2 (push (vtotal f1) v (opn s))).
    assert (Fv : f2 v = VI V P (Some (dc + c)) h (Some cur) true (nclosed n) p) by (apply vset_same; assumption).
    assert (Fw : forall w, w <> v -> f2 w = inf s w).
    { intros w Hw. unfold f2, f1. rewrite !vset_other by assumption. reflexivity. }
    assert (Clo : forall u, nclosed (f2 u) = nclosed (inf s u)).
    { intros u. destruct (vdec u v) as [->|Hne]; [rewrite Fv; reflexivity|rewrite Fw by assumption; reflexivity]. }
    assert (Sv : vseen f2 v) by (left; rewrite Fv; reflexivity).
    assert (Sw : forall w, vseen (inf s) w -> vseen f2 w).
    { intros w Hw. destruct (vdec w v) as [->|Hne]; [assumption|]. unfold vseen. rewrite Fw by assumption. exact Hw. }
    assert (Sb : forall w, vseen f2 w -> w = v \/ vseen (inf s) w).
    { intros w Hw. destruct (vdec w v) as [->|Hne]; [left; reflexivity|right]. unfold vseen in Hw. rewrite Fw in Hw by assumption. exact Hw. }
    assert (Dv : vdist f2 v = dc + c) by (unfold VehicleSearch.vdist; rewrite Fv; reflexivity).
    assert (Dw : forall w, w <> v -> vdist f2 w = vdist (inf s) w).
    { intros w Hw. unfold VehicleSearch.vdist. rewrite Fw by assumption. reflexivity. }
    assert (Dle : forall w, vseen (inf s) w -> vdist f2 w <= vdist (inf s) w).
    { intros w Hw. destruct (vdec w v) as [->|Hne]; [rewrite Dv; specialize (Hcl Hw); lra|rewrite Dw by assumption; lra]. }
    assert (HG : gsum gens (dc + c)) by (constructor; assumption).
    assert (Hst : stepped cur v p c).
    { exists (npay (inf s cur)), (prevs reach (inf s) cur), m. split; [apply (w_rch s HW); assumption|]. split; [|split; assumption].
      intros Hs. apply (w_start s HW cur Hs). }
    exists s'. cbn [v_info s']. split; [reflexivity|]. split; [|split; [exact Clo|right]].
    - constructor; cbn [v_info s'].
      + intros w Hw. apply (proj2 (Hpush _ _ _)) in Hw. destruct Hw as [->|Hw]; [assumption|]. apply Sw, (w_list s HW), Hw.
      + intros w Hw. apply Sb in Hw. destruct Hw as [->|Hw]; [assumption|]. apply (w_all s HW). assumption.
      + intros w Hw. rewrite Fw by congruence. destruct (w_start s HW w Hw) as (A & B). split; [apply Sw; assumption|exact B].
      + intros w Hw. destruct (vdec w v) as [->|Hne]; [exists (dc + c); rewrite Fv; split; [reflexivity|assumption]|]. rewrite Fw by assumption.
        apply Sb in Hw. destruct Hw as [|Hw]; [contradiction|]. apply (w_dist s HW). assumption.
      + intros w Hw. destruct (vdec w v) as [->|Hne].
        * rewrite Fv. cbn [n_pay]. destruct Hst as (q & qs & m' & A & _ & B & D). apply (rch_move cur q qs m' v c p A B D).
        * rewrite Fw by assumption. apply Sb in Hw. destruct Hw as [|Hw]; [contradiction|]. apply (w_rch s HW). assumption.
      + intros w Hw Hws. destruct (vdec w v) as [->|Hne].
        * exists cur, c. rewrite Fv. cbn [n_prev n_pay]. split; [reflexivity|]. split; [rewrite Clo; assumption|]. split; [assumption|].
          split; [|assumption]. rewrite Dv, (Dw cur) by congruence. rewrite Ecur. lra.
        * apply Sb in Hw. destruct Hw as [|Hw]; [contradiction|]. destruct (w_prev s HW w Hw Hws) as (u & c' & A & B & D & F & G).
          exists u, c'. rewrite Fw, (Dw w), Clo by assumption. split; [assumption|]. split; [assumption|]. split; [assumption|]. split; [|assumption].
          specialize (Dle u (or_intror B)). lra.
      + intros w Hw. destruct (vdec w v) as [->|Hne]; [contradiction|]. rewrite Fw by assumption. apply (w_fresh s HW). intros X. apply Hw, Sw, X.
    - unfold below, unseen, ranks. cbn [v_info s']. destruct (vseen_dec (inf s) v) as [Hv|Hv].
      + right. specialize (Hcl Hv).
        assert (Esb : forall w, seenb f2 w = seenb (inf s) w).
        { intros w. destruct (seenb (inf s) w) eqn:X; [apply seenb_spec, Sw, seenb_spec, X|]. destruct (seenb f2 w) eqn:Y; [|reflexivity].
          apply seenb_spec, Sb in Y. destruct Y as [->|Y]; [apply seenb_spec in Hv|apply seenb_spec in Y]; congruence. }
        split; [f_equal; apply filter_ext; intros w; rewrite Esb; reflexivity|].
        destruct (w_pos s HW v Hv) as [_ Gv].
        apply (sum_lt _ _ _ v); [|assumption|].
        * intros w. rewrite Esb. destruct (seenb (inf s) w); [|apply Nat.le_refl]. destruct (vdec w v) as [->|Hne]; [|rewrite Dw by assumption; apply Nat.le_refl].
          rewrite Dv. apply Nat.lt_le_incl, rank_lt; assumption.
        * rewrite Esb, (proj2 (seenb_spec _ _) Hv), Dv. apply rank_lt; assumption.
      + left. apply (filter_lt _ _ v).
        * intros w Hw. destruct (seenb (inf s) w) eqn:X; [|reflexivity]. apply seenb_spec, Sw, seenb_spec in X. rewrite X in Hw. discriminate.
        * assumption.
        * destruct (seenb (inf s) v) eqn:X; [apply seenb_spec in X; contradiction|reflexivity].
        * apply seenb_spec in Sv. rewrite Sv. reflexivity.
  Qed.

  (** Some offer of contents a node can get, or some goal test, is undefined. *)
  Definition undef : Prop :=
    (exists v q qs m, rch v q /\ In m moves /\ offer q qs m = None) \/ (exists v q g o, rch v q /\ isgoal g q o = None).

  Lemma expand_W cur : forall ms s, W s -> incl ms moves -> nclosed (inf s cur) = true ->
    match vexpand cur ms s with
    | None => undef
    | Some s' => W s' /\ (forall u, nclosed (inf s' u) = nclosed (inf s u)) /\ (s' = s \/ below s' s)
    end.
  Proof using veqb_spec Hpush gens_pos offer_gen rank_lt.
    induction ms as [|m ms IH]; intros s HW Hi Hc; cbn [VehicleSearch.vexpand]; [split; [assumption|]; split; [reflexivity|left; reflexivity]|].
    destruct (offer (npay (inf s cur)) (prevs reach (inf s) cur) m) as [[[[v c] p]|]|] eqn:Eo; cbn [obind].
    - destruct (process_W s cur m v c p HW Hc (Hi m (or_introl eq_refl)) Eo) as (s1 & E1 & HW1 & Cl & Pr). rewrite E1. cbn [obind].
      specialize (IH s1 HW1 (fun x Hx => Hi x (or_intror Hx))). rewrite Cl in IH. specialize (IH Hc). destruct (vexpand cur ms s1) as [s2|]; [|assumption].
      destruct IH as (HW2 & Cl2 & Pr2). split; [assumption|]. split; [intros u; rewrite Cl2; apply Cl|].
      destruct Pr as [->|Pr]; [assumption|]. destruct Pr2 as [->|Pr2]; [right; assumption|right; apply (below_trans _ s1); assumption].
    - apply (IH s HW (fun x Hx => Hi x (or_intror Hx)) Hc).
    - left. exists cur, (npay (inf s cur)), (prevs reach (inf s) cur), m. split; [apply (w_rch s HW); right; assumption|]. split; [apply Hi; left; reflexivity|assumption].
  Qed.

  Lemma close_W s cur o : W s -> pop (vtotal (inf s)) (opn s) = Some (cur, o) ->
    W (vclose s cur o) /\ nclosed (inf (vclose s cur o) cur) = true /\ unseen (vclose s cur o) = unseen s /\ ranks (vclose s cur o) = ranks s /\ vseen (inf s) cur.
  Proof using veqb_spec Hpop.
    intros HW Ep. pose proof (Hpop (vtotal (inf s)) (opn s)) as Hp. rewrite Ep in Hp. destruct Hp as (Hin & _ & Hincl & _).
    assert (Hsc : vseen (inf s) cur) by (apply (w_list s HW); assumption).
    set (s1 := vclose s cur o).
    assert (Fc : inf s1 cur = VI V P (ndist (inf s cur)) (new_h V P hval goals (inf s) cur) (nprev (inf s cur)) false true (npay (inf s cur))) by (apply vset_same; assumption).
    assert (Fw : forall w, w <> cur -> inf s1 w = inf s w) by (intros w Hw; apply vset_other; assumption).
    assert (Ei : forall w, ndist (inf s1 w) = ndist (inf s w) /\ nprev (inf s1 w) = nprev (inf s w) /\ npay (inf s1 w) = npay (inf s w)).
    { intros w. destruct (vdec w cur) as [->|Hne]; [rewrite Fc; auto|rewrite Fw by assumption; auto]. }
    assert (Ed : forall w, vdist (inf s1) w = vdist (inf s) w).
    { intros w. unfold VehicleSearch.vdist. destruct (Ei w) as (-> & _). reflexivity. }
    assert (Es : forall w, vseen (inf s1) w <-> vseen (inf s) w).
    { intros w. destruct (vdec w cur) as [->|Hne]; [|unfold vseen; rewrite Fw by assumption; reflexivity].
      split; [intros _; assumption|]. intros _. right. rewrite Fc. reflexivity. }
    assert (Esb : forall w, seenb (inf s1) w = seenb (inf s) w).
    { intros w. apply Bool.eq_iff_eq_true. rewrite !seenb_spec. apply Es. }
    assert (Ecl : forall u, nclosed (inf s u) = true -> nclosed (inf s1 u) = true).
    { intros u Hu. destruct (vdec u cur) as [->|Hne]; [rewrite Fc; reflexivity|rewrite Fw by assumption; assumption]. }
    split; [|split; [rewrite Fc; reflexivity|split; [|split; [|exact Hsc]]]].
    - constructor.
      + intros w Hw. apply Es, (w_list s HW), Hincl, Hw.
      + intros w Hw. apply (w_all s HW), Es, Hw.
      + intros w Hw. destruct (Ei w) as (-> & -> & ->). destruct (w_start s HW w Hw) as (A & B). split; [apply Es; assumption|exact B].
      + intros w Hw. destruct (Ei w) as (-> & _ & _). apply (w_dist s HW), Es, Hw.
      + intros w Hw. destruct (Ei w) as (_ & _ & ->). apply (w_rch s HW), Es, Hw.
      + intros w Hw Hws. apply Es in Hw. destruct (w_prev s HW w Hw Hws) as (u & c & A & B & D & F). exists u, c.
        destruct (Ei w) as (_ & -> & ->). rewrite !Ed. split; [assumption|]. split; [apply Ecl; assumption|]. split; assumption.
      + intros w Hw. destruct (Ei w) as (_ & _ & ->). apply (w_fresh s HW). intros X. apply Hw, Es, X.
    - unfold unseen. f_equal. apply filter_ext. intros w. rewrite Esb. reflexivity.
    - unfold ranks. f_equal. apply map_ext. intros w. rewrite Esb, Ed. reflexivity.
  Qed.

  (** ** What is returned *)
  (** Newest node first: the last node in the list is a start node with its first
      contents; every other node is what its predecessor offered with some contents. *)
  Inductive weak_drive : list (V * P) -> Prop :=
  | wd_start v : In v start -> weak_drive [(v, pay0 v)]
  | wd_move v p u q l c : weak_drive ((u, q) :: l) -> ~ In v start -> rch u q -> stepped u v p c -> weak_drive ((v, p) :: (u, q) :: l).

  Lemma trace_weak s : W s -> forall v l, vtrace (inf s) v (v :: l) -> (forall x, In x l -> nclosed (inf s x) = true) -> vseen (inf s) v ->
    weak_drive (vcopy V P (inf s) (v :: l)).
  Proof using Type.
    intros HW v l. revert v. induction l as [|u l IH]; intros v H Hl Hv.
    - inversion H as [? Hs|? u' q Hs Ex Hq]; subst; [|inversion Hq].
      destruct (w_start s HW v Hs) as (_ & A & _ & B). cbn [vcopy map]. rewrite B. constructor. assumption.
    - inversion H as [|? u' q Hs Ex Hq]; subst. assert (u' = u) as -> by (inversion Hq; reflexivity).
      destruct (w_prev s HW v Hv Hs) as (u' & c & A & B & D & _). rewrite Ex in A. injection A as <-.
      assert (Hu : vseen (inf s) u) by (right; apply Hl; left; reflexivity).
      apply (wd_move v (npay (inf s v)) u (npay (inf s u)) (vcopy V P (inf s) l) c); [|assumption|apply (w_rch s HW); assumption|assumption].
      apply IH; [assumption|intros x Hx; apply Hl; right; assumption|assumption].
  Qed.

  Definition weakly_good (path : list (V * P)) : Prop :=
    exists v p l g gp, rev path = (v, p) :: l /\ weak_drive ((v, p) :: l) /\ rch v p /\ NoDup (map fst path) /\
      In g goals /\ isgoal gp p (hd_error (map snd l)) = Some true /\ (gp = pay0 g \/ rch g gp).

  Lemma return_W s cur bf l : W s -> vseen (inf s) cur -> vreached (inf s) cur goals = Some true ->
    vback bf (inf s) cur [] [] = Some l -> weakly_good (vcopy V P (inf s) l).
  Proof using veqb_spec.
    intros HW Hc Hr Hb. destruct (w_trace s HW cur Hc) as (t & Ht & Htc).
    assert (Hst : forall w, In w start -> nprev (inf s w) = None) by (intros w Hw; apply (w_start s HW w Hw)).
    rewrite (vback_some veqb veqb_spec start (inf s) cur (cur :: t)) with (fuel := bf) (l := l); [|intros w Hw; rewrite (Hst w Hw); discriminate|assumption|assumption].
    destruct (reached_spec _ _ _ _ Hr) as (g & Hg & Ht1).
    exists cur, (npay (inf s cur)), (vcopy V P (inf s) t), g, (npay (inf s g)).
    unfold vcopy. rewrite map_rev, rev_involutive. split; [reflexivity|].
    split; [apply (trace_weak s HW cur t Ht Htc Hc)|]. split; [apply (w_rch s HW); assumption|].
    split. { rewrite map_rev, map_map. cbn [fst]. rewrite map_id. apply NoDup_rev. apply (vtrace_nodup start (inf s) cur). assumption. }
    split; [assumption|]. split.
    - rewrite map_map. cbn [snd]. rewrite <- Ht1. f_equal.
      pose proof (prevs_trace start (inf s) Hst cur t Ht 1) as X. cbn [VehicleSearch.prevs] in X.
      destruct (nprev (inf s cur)) as [u|], t as [|x t]; cbn [map firstn hd_error] in *; congruence.
    - destruct (vseen_dec (inf s) g) as [Sg|Sg]; [right; apply (w_rch s HW); assumption|left; apply (w_fresh s HW); assumption].
  Qed.

  Lemma loop_weak timeout bf : forall fuel n s path s', W s -> vloop timeout bf fuel n s = (VPath V P path, s') -> path = [] \/ weakly_good path.
  Proof using veqb_spec Hpush Hpop gens_pos offer_gen rank_lt.
    induction fuel as [|k IH]; intros n s path s' HW E; [discriminate|]. cbn [VehicleSearch.vloop] in E.
    destruct (opn s) as [|w0 l0] eqn:Eo; [injection E as <- _; left; reflexivity|]. rewrite <- Eo in E.
    destruct (timeout n); [injection E as <- _; left; reflexivity|].
    destruct (pop (vtotal (inf s)) (opn s)) as [[cur o]|] eqn:Ep; [|discriminate].
    destruct (close_W s cur o HW Ep) as (HW1 & Hc & _). cbv zeta in E.
    destruct (vreached (inf (vclose s cur o)) cur goals) as [[|]|] eqn:Er; [| |discriminate].
    - destruct (vback bf (inf (vclose s cur o)) cur [] []) as [l|] eqn:Eb; [|discriminate]. injection E as <- _. right.
      apply (return_W _ cur bf l HW1); [right; assumption|assumption|assumption].
    - pose proof (expand_W cur moves (vclose s cur o) HW1 (incl_refl _) Hc) as X. destruct (vexpand cur moves (vclose s cur o)) as [s2|]; [|discriminate].
      destruct X as (HW2 & _). apply (IH (S n) s2 path s' HW2 E).
  Qed.

  Lemma below_acc : well_founded below.
  Proof using Type.
    assert (G : forall a b s, (unseen s <= a)%nat -> (unseen s = a -> (ranks s <= b)%nat) -> Acc below s).
    { induction a as [a IHa] using (well_founded_ind lt_wf). induction b as [b IHb] using (well_founded_ind lt_wf).
      intros s Ha Hb. constructor. intros s' [H|[H1 H2]].
      - apply (IHa (unseen s') (Nat.lt_le_trans _ _ _ H Ha) (ranks s')); [apply Nat.le_refl|intros _; apply Nat.le_refl].
      - apply Nat.le_lteq in Ha. destruct Ha as [Ha|Ha].
        + rewrite <- H1 in Ha. apply (IHa _ Ha (ranks s')); [apply Nat.le_refl|intros _; apply Nat.le_refl].
        + specialize (Hb Ha). apply (IHb (ranks s') (Nat.lt_le_trans _ _ _ H2 Hb)); [rewrite H1, Ha; apply Nat.le_refl|intros _; apply Nat.le_refl]. }
    intros s. apply (G (unseen s) (ranks s)); [apply Nat.le_refl|intros _; apply Nat.le_refl].
  Qed.

  Lemma reached_none0 f cur gs : vreached f cur gs = None -> exists g o, isgoal g (npay (f cur)) o = None.
  Proof using Type.
    induction gs as [|g gs IH]; cbn [VehicleSearch.vreached]; [discriminate|].
    destruct (isgoal (npay (f g)) (npay (f cur)) (match nprev (f cur) with Some u => Some (npay (f u)) | None => None end)) as [[|]|] eqn:Eg; cbn [obind]; [discriminate|exact IH|eauto].
  Qed.

  Lemma loop_weak_ends timeout bf : (length all <= bf)%nat -> forall s n, W s ->
    exists fuel, (exists path, fst (vloop timeout bf fuel n s) = VPath V P path) \/ (fst (vloop timeout bf fuel n s) = VUndef V P /\ undef).
  Proof using veqb_spec Hpush Hpop gens_pos offer_gen rank_lt.
    intros Hbf.
    assert (G : forall s0, Acc below s0 -> forall L s n, unseen s = unseen s0 -> ranks s = ranks s0 -> (length (opn s) <= L)%nat -> W s ->
      exists fuel, (exists path, fst (vloop timeout bf fuel n s) = VPath V P path) \/ (fst (vloop timeout bf fuel n s) = VUndef V P /\ undef)).
    { induction 1 as [s0 _ IHA]. induction L as [L IHL] using (well_founded_ind lt_wf). intros s n Hu Hr HL HW.
      destruct (opn s) as [|w0 l0] eqn:Eo.
      { exists 1%nat. left. exists []. cbn [VehicleSearch.vloop]. rewrite Eo. reflexivity. }
      destruct (timeout n) eqn:Et.
      { exists 1%nat. left. exists []. cbn [VehicleSearch.vloop]. rewrite Eo, Et. reflexivity. }
      pose proof (Hpop (vtotal (inf s)) (opn s)) as Hp.
      destruct (pop (vtotal (inf s)) (opn s)) as [[cur o]|] eqn:Ep; [|congruence]. destruct Hp as (_ & Hlen & _).
      destruct (close_W s cur o HW Ep) as (HW1 & Hc & U1 & R1 & Hsc).
      destruct (vreached (inf (vclose s cur o)) cur goals) as [[|]|] eqn:Er.
      - destruct (w_trace _ HW1 cur (or_intror Hc)) as (t & Ht & Htc).
        assert (Hb : vback bf (inf (vclose s cur o)) cur [] [] = Some (rev (cur :: t) ++ [])).
        { apply vback_trace; [assumption| |assumption| |intros x _ []].
          - intros w Hw. destruct (w_start _ HW1 w Hw) as (_ & _ & X & _). rewrite X. discriminate.
          - etransitivity; [|exact Hbf]. apply NoDup_incl_length; [apply (vtrace_nodup _ _ _ _ Ht)|]. intros x [<-|Hx]; apply (w_all _ HW1); right; auto. }
        exists 1%nat. left. eexists. cbn [VehicleSearch.vloop]. rewrite Eo, Et, <- Eo, Ep, Er, Hb. reflexivity.
      - pose proof (expand_W cur moves (vclose s cur o) HW1 (incl_refl _) Hc) as X. destruct (vexpand cur moves (vclose s cur o)) as [s2|] eqn:Ex.
        2:{ exists 1%nat. right. cbn [VehicleSearch.vloop]. rewrite Eo, Et, <- Eo, Ep, Er, Ex. split; [reflexivity|assumption]. }
        destruct X as (HW2 & _ & Pr).
        assert (Y : exists fuel, (exists path, fst (vloop timeout bf fuel (S n) s2) = VPath V P path) \/ (fst (vloop timeout bf fuel (S n) s2) = VUndef V P /\ undef)).
        { destruct Pr as [->|Pr].
          - apply (IHL (length (opn (vclose s cur o)))); [|congruence|congruence|apply Nat.le_refl|assumption].
            cbn [VehicleSearch.vclose v_open]. rewrite Eo in Hlen. cbn [length] in Hlen, HL. eapply Nat.lt_le_trans; [exact Hlen|exact HL].
          - apply (IHA s2) with (L := length (opn s2)); [|reflexivity|reflexivity|apply Nat.le_refl|assumption].
            unfold below in *. rewrite <- Hu, <- Hr, <- U1, <- R1. exact Pr. }
        destruct Y as (fuel & Y). exists (S fuel). cbn [VehicleSearch.vloop]. rewrite Eo, Et, <- Eo, Ep, Er, Ex. exact Y.
      - exists 1%nat. right. cbn [VehicleSearch.vloop]. rewrite Eo, Et, <- Eo, Ep, Er. split; [reflexivity|].
        right. destruct (reached_none0 _ _ _ Er) as (g & o' & X). exists cur, (npay (inf (vclose s cur o) cur)), g, o'. split; [apply (w_rch _ HW1); right; assumption|assumption]. }
    intros s n HW. apply (G s (below_acc s) (length (opn s)) s n); [reflexivity|reflexivity|apply Nat.le_refl|assumption].
  Qed.

  Lemma start_W : W (vstarts start (VS V P (vfresh V P pay0) [])).
  Proof using veqb_spec Hpush start_all.
    destruct (starts_spec veqb veqb_spec tot push Hpush start (VS V P (vfresh V P pay0) [])) as (A & B & D). cbn [v_open v_info] in *.
    set (s := vstarts start (VS V P (vfresh V P pay0) [])) in *.
    assert (Hs : forall v, vseen (inf s) v <-> In v start).
    { intros v. destruct (in_dec vdec v start) as [H|H].
      - destruct (D v H) as (h & E). split; [intros _; assumption|]. intros _. left. rewrite E. reflexivity.
      - split; [|contradiction]. unfold vseen. rewrite (B v H). unfold vfresh. cbn. intros [X|X]; discriminate. }
    constructor.
    - intros v Hv. apply A in Hv. destruct Hv as [[]|Hv]. apply Hs. assumption.
    - intros v Hv. apply start_all, Hs, Hv.
    - intros v Hv. destruct (D v Hv) as (h & E). rewrite E. split; [apply Hs; assumption|]. auto.
    - intros v Hv. apply Hs in Hv. destruct (D v Hv) as (h & ->). exists 0. split; [reflexivity|constructor].
    - intros v Hv. apply Hs in Hv. destruct (D v Hv) as (h & ->). cbn [n_pay]. constructor. assumption.
    - intros v Hv Hn. apply Hs in Hv. contradiction.
    - intros v Hv. rewrite B by (intros X; apply Hv, Hs, X). reflexivity.
  Qed.
End Any.

Section Run.
  Context {V P M : Type}.
  Variables (veqb : V -> V -> bool) (moves : list M) (reach : nat) (offer : P -> list P -> M -> option (option (V * R * P))).
  Variables (hval : P -> P -> R) (tot : R -> R -> R) (isgoal : P -> P -> option P -> option bool).
  Variables (push : (V -> R) -> V -> list V -> list V) (pop : (V -> R) -> list V -> option (V * list V)).
  Variables (start goals : list V) (pay0 : V -> P) (all : list V) (gens : list R).
  Hypothesis veqb_spec : forall a b, reflect (a = b) (veqb a b).
  Hypothesis Hpush : push_ok push.
  Hypothesis Hpop : pop_ok pop.
  Hypothesis gens_pos : forall c, In c gens -> 0 < c.
  Hypothesis start_all : incl start all.
  Hypothesis offer_gen : forall u q qs m v c p, rch moves offer start pay0 u q -> In m moves -> offer q qs m = Some (Some (v, c, p)) -> In v all /\ In c gens.

  Lemma weak_valid timeout bf fuel path s' : vrun V P M veqb moves reach offer hval tot isgoal push pop start goals timeout bf fuel pay0 = (VPath V P path, s') ->
    path = [] \/ weakly_good moves offer isgoal start goals pay0 path.
  Proof using All.
    destruct (rank_exists gens gens_pos) as (rank & Hr).
    eapply loop_weak; try eassumption. apply (start_W veqb veqb_spec moves offer tot push Hpush start pay0 all gens start_all).
  Qed.
  Lemma weak_ends timeout bf : (length all <= bf)%nat ->
    exists fuel, (exists path, fst (vrun V P M veqb moves reach offer hval tot isgoal push pop start goals timeout bf fuel pay0) = VPath V P path) \/
      (fst (vrun V P M veqb moves reach offer hval tot isgoal push pop start goals timeout bf fuel pay0) = VUndef V P /\ undef moves offer isgoal start pay0).
  Proof using All.
    destruct (rank_exists gens gens_pos) as (rank & Hr). intros Hbf.
    eapply loop_weak_ends; try eassumption. apply (start_W veqb veqb_spec moves offer tot push Hpush start pay0 all gens start_all).
  Qed.
End Run.
