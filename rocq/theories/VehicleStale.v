(** Invariants of the vehicle search on nodes that earlier searches have used
    (VehicleReuse.v): every heuristic, every order of the open list, every state of the
    nodes that a search can leave behind. *)
From Coq Require Import Reals Lra Permutation Sorted.
From Verif Require Import Base GeomR PathSpec GenericProofs VehicleSearch VehicleProofs VehicleAny VehicleTest VehicleTestProofs.
Local Open Scope R_scope.

Section Stale.
  Context {V P M T : Type}.
  Variable veqb : V -> V -> bool.
  Hypothesis veqb_spec : forall a b, reflect (a = b) (veqb a b).
  Variable moves : list M.
  Variable reach : nat.
  Variable offer : P -> list P -> M -> option (option (V * R * P)).
  Variable hval : P -> P -> R.
  Variable tot : R -> R -> R.
  Variable push : (V -> R) -> V -> list V -> list V.
  Variable pop : (V -> R) -> list V -> option (V * list V).
  Hypothesis Hpush : push_ok push.
  Hypothesis Hpop : pop_ok pop.
  Variable start goals : list V.
  Variable hgoal : option P.
  Variable osd : R.
  Variable queue : list (V * R) -> list (V * R).
  Hypothesis Hqueue : queue_ok queue.
  Variable term : T -> (V -> vinfo V P) -> V -> option (T * list R * vanswer).
  Variable timeout : nat -> bool.
  Variable bf : nat.
  Variable pay0 : V -> P.
  Variable all : list V.
  Variable gens : list R.
  Hypothesis gens_pos : forall c, In c gens -> 0 < c.
  Hypothesis start_all : incl start all.
  Notation rch := (rch moves offer start pay0).
  Hypothesis offer_gen : forall u q qs m v c p, rch u q -> In m moves -> offer q qs m = Some (Some (v, c, p)) -> In v all /\ In c gens.

  Notation vinfo := (vinfo V P).
  Notation vstate := (vstate V P).
  Notation inf := (v_info V P).
  Notation opn := (v_open V P).
  Notation ndist := (n_dist V P).
  Notation nprev := (n_prev V P).
  Notation nopen := (n_open V P).
  Notation nclosed := (n_closed V P).
  Notation npay := (n_pay V P).
  Notation vdist := (vdist V P).
  Notation vtotal := (vtotal V P tot).
  Notation prevs := (prevs V P).
  Notation vset := (vset V P veqb).
  Notation vprocess := (vprocess V P veqb hval tot push goals).
  Notation vexpand := (vexpand V P M veqb reach offer hval tot push goals).
  Notation vback := (vback V P veqb start).
  Notation vcopy := (vcopy V P).
  Notation vstarts := (vstarts V P veqb tot push).
  Notation vtrace := (vtrace start).
  Notation vdec := (vdec veqb veqb_spec).
  Notation stepped := (stepped moves offer start pay0).
  Notation weak_drive := (weak_drive moves offer start pay0).
  Notation wstate := (wstate V P).
  Notation wss := (ws_s V P).
  Notation wcand := (ws_cand V P).
  Notation wcall := (wcall V P).
  Notation cnode := (wc_node V P).
  Notation cpay := (wc_pay V P).
  Notation cans := (wc_ans V P).
  Notation wclose := (wclose V P veqb hval goals hgoal).
  Notation wadd := (wadd V P tot).
  Notation wfinish := (wfinish V P veqb start queue bf).
  Notation wloop := (wloop V P M T veqb moves reach offer hval tot push pop start goals hgoal osd queue term timeout bf).
  Notation arrived := (arrived moves offer start pay0).

  (** What every search leaves behind. *)
  Record fit (f : V -> vinfo) : Prop := {
    ft_all : forall v, vseen f v -> In v all;
    ft_dist : forall v, vseen f v -> exists d, ndist (f v) = Some d /\ gsum gens d;
    ft_loop : forall v, nprev (f v) <> Some v }.

  (** The nodes [L]: those this search reached. *)
  Record X (L : V -> Prop) (s : vstate) : Prop := {
    x_fit : fit (inf s);
    x_list : forall v, In v (opn s) -> L v;
    x_seen : forall v, L v -> vseen (inf s) v;
    x_start : forall v, In v start -> L v /\ ndist (inf s v) = Some 0 /\ npay (inf s v) = pay0 v;
    x_rch : forall v, L v -> rch v (npay (inf s v));
    x_prev : forall v, L v -> ~ In v start -> exists u c, nprev (inf s v) = Some u /\ L u /\ nclosed (inf s u) = true /\
      stepped u v (npay (inf s v)) c /\ vdist (inf s) u + c <= vdist (inf s) v /\ 0 < c;
    x_pay : forall v, npay (inf s v) = pay0 v \/ rch v (npay (inf s v)) }.

  Lemma gsum_nn d : gsum gens d -> 0 <= d.
  Proof using gens_pos. induction 1 as [|d c Hd IH Hc]; [lra|]. specialize (gens_pos c Hc). lra. Qed.

  (** Following the predecessors leads to a start node. *)
  Lemma x_trace L s : X L s -> forall v, L v -> exists l, vtrace (inf s) v (v :: l) /\ forall x, In x l -> L x /\ nclosed (inf s x) = true.
  Proof using veqb_spec.
    intros HX.
    set (low := fun v u => seenb (inf s) u && Rltb (vdist (inf s) u) (vdist (inf s) v)).
    assert (G : forall n v, (length (filter (low v) all) <= n)%nat -> L v -> exists l, vtrace (inf s) v (v :: l) /\ forall x, In x l -> L x /\ nclosed (inf s x) = true).
    { induction n as [n IH] using (well_founded_ind lt_wf). intros v Hn Hv. destruct (in_dec vdec v start) as [Hs|Hs].
      { exists []. split; [constructor; assumption|intros x []]. }
      destruct (x_prev L s HX v Hv Hs) as (u & c & A & Lu & B & _ & D & Hc0).
      assert (Hu : vseen (inf s) u) by (right; assumption).
      assert (Hlt : vdist (inf s) u < vdist (inf s) v) by lra.
      assert (Ln : (length (filter (low u) all) < length (filter (low v) all))%nat).
      { apply (filter_lt _ _ u).
        - intros x Hx. unfold low in *. apply andb_true_iff in Hx. destruct Hx as [Y1 Y2]. apply Rltb_spec in Y2. rewrite Y1. cbn [andb]. apply Rltb_spec. lra.
        - apply (ft_all _ (x_fit L s HX)). assumption.
        - unfold low. rewrite (proj2 (seenb_spec _ _) Hu). cbn [andb]. apply Rltb_spec. assumption.
        - unfold low. destruct (Rltb (vdist (inf s) u) (vdist (inf s) u)) eqn:Y; [apply Rltb_spec in Y; lra|]. apply andb_false_r. }
      destruct (IH (length (filter (low u) all)) (Nat.lt_le_trans _ _ _ Ln Hn) u (Nat.le_refl _) Lu) as (l & Ht & Hc).
      exists (u :: l). split; [apply (vt_step _ _ v u); assumption|]. intros x [<-|Hx]; [split; assumption|apply Hc; assumption]. }
    intros v Hv. apply (G _ v (Nat.le_refl _) Hv).
  Qed.

  Variable rank : R -> nat.
  Hypothesis rank_lt : forall d d', gsum gens d -> gsum gens d' -> d < d' -> (rank d < rank d')%nat.
  Notation unseen := (@VehicleAny.unseen V P all).
  Notation ranks := (@VehicleAny.ranks V P all rank).
  Notation below := (@VehicleAny.below V P all rank).

  Lemma process_X L s cur m v c p : X L s -> L cur -> nclosed (inf s cur) = true -> In m moves ->
    offer (npay (inf s cur)) (prevs reach (inf s) cur) m = Some (Some (v, c, p)) ->
    exists s' L', vprocess cur s (v, c, p) = Some s' /\ X L' s' /\ (forall u, L u -> L' u) /\ (forall u, nclosed (inf s' u) = nclosed (inf s u)) /\ (s' = s \/ below s' s).
  Proof using veqb_spec Hpush gens_pos offer_gen rank_lt.
    intros HX HL Hc Hm Ho. assert (Scur : vseen (inf s) cur) by (right; assumption). pose proof (x_fit L s HX) as HF.
    destruct (offer_gen cur _ _ m v c p (x_rch L s HX cur HL) Hm Ho) as [Hva Hcg].
    pose proof (gens_pos c Hcg) as Hc0.
    destruct (ft_dist _ HF cur Scur) as (dc & Edc & Hdc).
    assert (Ecur : vdist (inf s) cur = dc) by (apply vdist_some; assumption).
    unfold VehicleSearch.vprocess. rewrite Ecur.
    set (n := inf s v).
    set (closer := match ndist n with None => true | Some d' => Rltb (dc + c) d' end).
    destruct (nclosed n && negb closer) eqn:E1.
    { exists s, L. split; [reflexivity|]. split; [assumption|]. split; [auto|]. split; [reflexivity|left; reflexivity]. }
    destruct (negb (nopen n) || closer) eqn:E2.
    2:{ exists s, L. split; [reflexivity|]. split; [assumption|]. split; [auto|]. split; [reflexivity|left; reflexivity]. }
    assert (Hcl : vseen (inf s) v -> dc + c < vdist (inf s) v).
    { intros Hv. destruct (ft_dist _ HF v Hv) as (dv & Edv & _). rewrite (vdist_some _ _ _ Edv).
      assert (Y : closer = true).
      { destruct Hv as [Hv|Hv]; fold n in Hv; rewrite Hv in *; cbn [negb orb andb] in *; [assumption|]. destruct closer; [reflexivity|discriminate]. }
      unfold closer, n in Y. rewrite Edv in Y. apply Rltb_spec in Y. assumption. }
    assert (Hvc : v <> cur). { intros ->. specialize (Hcl Scur). lra. }
    destruct (veqb_spec v cur) as [|_]; [contradiction|].
    assert (Hns : ~ In v start).
    { intros Hs. destruct (x_start L s HX v Hs) as (Hv & Hd & _). specialize (Hcl (x_seen L s HX v Hv)). rewrite (vdist_some _ _ _ Hd) in Hcl. pose proof (gsum_nn dc Hdc). lra. }
    set (h := new_h V P hval goals (inf s) v).
    set (f1 := vset (inf s) v (VI V P (Some (dc + c)) h (Some cur) true (nclosed n) (npay n))).
    set (f2 := vset f1 v (VI V P (Some (dc + c)) h (Some cur) true (nclosed n) p)).
    set (s' := VS V P f2 (push (vtotal f1) v (opn s))).
    assert (Fv : f2 v = VI V P (Some (dc + c)) h (Some cur) true (nclosed n) p) by (apply vset_same; assumption).
    assert (Fw : forall w, w <> v -> f2 w = inf s w).
    { intros w Hw. unfold f2, f1. rewrite !vset_other by assumption. reflexivity. }
    assert (Clo : forall u, nclosed (f2 u) = nclosed (inf s u)).
    { intros u. destruct (vdec u v) as [->|Hne]; [rewrite Fv; reflexivity|rewrite Fw by assumption; reflexivity]. }
    assert (Sv : vseen f2 v) by (left; rewrite Fv; reflexivity).
    assert (Sw : forall w, vseen (inf s) w -> vseen f2 w).
    { intros w Hw. destruct (vdec w v) as [->|Hne]; [assumption|]. unfold vseen. rewrite Fw by assumption. exact Hw. }
    assert (Sb : forall w, vseen f2 w -> w = v \/ vseen (inf s) w).
    { intros w Hw. destruct (vdec w v) as [->|Hne]; [left; reflexivity|right]. unfold vseen in Hw. rewrite Fw in Hw by assumption. exact Hw. }
    assert (Dv : vdist f2 v = dc + c) by (unfold VehicleSearch.vdist; rewrite Fv; reflexivity).
    assert (Dw : forall w, w <> v -> vdist f2 w = vdist (inf s) w).
    { intros w Hw. unfold VehicleSearch.vdist. rewrite Fw by assumption. reflexivity. }
    assert (Dle : forall w, vseen (inf s) w -> vdist f2 w <= vdist (inf s) w).
    { intros w Hw. destruct (vdec w v) as [->|Hne]; [rewrite Dv; specialize (Hcl Hw); lra|rewrite Dw by assumption; lra]. }
    assert (HG : gsum gens (dc + c)) by (constructor; assumption).
    assert (Hst : stepped cur v p c).
    { exists (npay (inf s cur)), (prevs reach (inf s) cur), m. split; [apply (x_rch L s HX); assumption|]. split; [|split; assumption].
      intros Hs. apply (x_start L s HX cur Hs). }
    assert (Hrv : rch v p). { destruct Hst as (q & qs & m' & A & _ & B & D). apply (rch_move _ _ _ _ cur q qs m' v c p A B D). }
    exists s', (fun u => u = v \/ L u). cbn [v_info s']. split; [reflexivity|]. split; [|split; [right; assumption|split; [exact Clo|right]]].
    - constructor; cbn [v_info s'].
      + constructor.
        * intros w Hw. apply Sb in Hw. destruct Hw as [->|Hw]; [assumption|]. apply (ft_all _ HF). assumption.
        * intros w Hw. destruct (vdec w v) as [->|Hne]; [exists (dc + c); rewrite Fv; split; [reflexivity|assumption]|]. rewrite Fw by assumption.
          apply Sb in Hw. destruct Hw as [|Hw]; [contradiction|]. apply (ft_dist _ HF). assumption.
        * intros w. destruct (vdec w v) as [->|Hne]; [rewrite Fv; cbn [n_prev]; congruence|]. rewrite Fw by assumption. apply (ft_loop _ HF).
      + intros w Hw. apply (proj2 (Hpush _ _ _)) in Hw. destruct Hw as [->|Hw]; [left; reflexivity|]. right. apply (x_list L s HX), Hw.
      + intros w [->|Hw]; [assumption|]. apply Sw, (x_seen L s HX), Hw.
      + intros w Hw. rewrite Fw by congruence. destruct (x_start L s HX w Hw) as (A & B). split; [right; assumption|exact B].
      + intros w Hw. destruct (vdec w v) as [->|Hne].
        * rewrite Fv. exact Hrv.
        * rewrite Fw by assumption. destruct Hw as [|Hw]; [contradiction|]. apply (x_rch L s HX). assumption.
      + intros w Hw Hws. destruct (vdec w v) as [->|Hne].
        * exists cur, c. rewrite Fv. cbn [n_prev n_pay]. split; [reflexivity|]. split; [right; assumption|]. split; [rewrite Clo; assumption|]. split; [assumption|].
          split; [|assumption]. rewrite Dv, (Dw cur) by congruence. rewrite Ecur. lra.
        * destruct Hw as [|Hw]; [contradiction|]. destruct (x_prev L s HX w Hw Hws) as (u & c' & A & A' & B & D & F & G).
          exists u, c'. rewrite Fw, (Dw w), Clo by assumption. split; [assumption|]. split; [right; assumption|]. split; [assumption|]. split; [assumption|]. split; [|assumption].
          specialize (Dle u (or_intror B)). lra.
      + intros w. destruct (vdec w v) as [->|Hne]; [right; rewrite Fv; exact Hrv|]. rewrite Fw by assumption. apply (x_pay L s HX).
    - unfold VehicleAny.below, VehicleAny.unseen, VehicleAny.ranks. cbn [v_info s']. destruct (vseen_dec (inf s) v) as [Hv|Hv].
      + right. specialize (Hcl Hv).
        assert (Esb : forall w, seenb f2 w = seenb (inf s) w).
        { intros w. destruct (seenb (inf s) w) eqn:Y; [apply seenb_spec, Sw, seenb_spec, Y|]. destruct (seenb f2 w) eqn:Z; [|reflexivity].
          apply seenb_spec, Sb in Z. destruct Z as [->|Z]; [apply seenb_spec in Hv|apply seenb_spec in Z]; congruence. }
        split; [f_equal; apply filter_ext; intros w; rewrite Esb; reflexivity|].
        assert (Gv : gsum gens (vdist (inf s) v)) by (destruct (ft_dist _ HF v Hv) as (dv & E & G); rewrite (vdist_some _ _ _ E); exact G).
        apply (sum_lt _ _ _ v); [|assumption|].
        * intros w. rewrite Esb. destruct (seenb (inf s) w); [|apply Nat.le_refl]. destruct (vdec w v) as [->|Hne]; [|rewrite Dw by assumption; apply Nat.le_refl].
          rewrite Dv. apply Nat.lt_le_incl, rank_lt; assumption.
        * rewrite Esb, (proj2 (seenb_spec _ _) Hv), Dv. apply rank_lt; assumption.
      + left. apply (filter_lt _ _ v).
        * intros w Hw. destruct (seenb (inf s) w) eqn:Y; [|reflexivity]. apply seenb_spec, Sw, seenb_spec in Y. rewrite Y in Hw. discriminate.
        * assumption.
        * destruct (seenb (inf s) v) eqn:Y; [apply seenb_spec in Y; contradiction|reflexivity].
        * apply seenb_spec in Sv. rewrite Sv. reflexivity.
  Qed.

  Definition undef_offer : Prop := exists v q qs m, rch v q /\ In m moves /\ offer q qs m = None.

  Lemma expand_X cur : forall ms L s, X L s -> incl ms moves -> L cur -> nclosed (inf s cur) = true ->
    match vexpand cur ms s with
    | None => undef_offer
    | Some s' => (exists L', X L' s' /\ forall u, L u -> L' u) /\ (forall u, nclosed (inf s' u) = nclosed (inf s u)) /\ (s' = s \/ below s' s)
    end.
  Proof using veqb_spec Hpush gens_pos offer_gen rank_lt.
    induction ms as [|m ms IH]; intros L s HX Hi HL Hc; cbn [VehicleSearch.vexpand]; [split; [exists L; auto|]; split; [reflexivity|left; reflexivity]|].
    destruct (offer (npay (inf s cur)) (prevs reach (inf s) cur) m) as [[[[v c] p]|]|] eqn:Eo; cbn [obind].
    - destruct (process_X L s cur m v c p HX HL Hc (Hi m (or_introl eq_refl)) Eo) as (s1 & L1 & E1 & HX1 & Mo & Cl & Pr). rewrite E1. cbn [obind].
      specialize (IH L1 s1 HX1 (fun x Hx => Hi x (or_intror Hx)) (Mo cur HL)). rewrite Cl in IH. specialize (IH Hc). destruct (vexpand cur ms s1) as [s2|]; [|assumption].
      destruct IH as ((L2 & HX2 & Mo2) & Cl2 & Pr2). split; [exists L2; auto|]. split; [intros u; rewrite Cl2; apply Cl|].
      destruct Pr as [->|Pr]; [assumption|]. destruct Pr2 as [->|Pr2]; [right; assumption|right; apply (below_trans all rank _ s1); assumption].
    - apply (IH L s HX (fun x Hx => Hi x (or_intror Hx)) HL Hc).
    - exists cur, (npay (inf s cur)), (prevs reach (inf s) cur), m. split; [apply (x_rch L s HX); assumption|]. split; [apply Hi; left; reflexivity|assumption].
  Qed.

  Lemma close_X L s cur o : X L s -> pop (vtotal (inf s)) (opn s) = Some (cur, o) ->
    X L (wclose s cur o) /\ L cur /\ nclosed (inf (wclose s cur o) cur) = true /\ (forall u, nclosed (inf s u) = true -> nclosed (inf (wclose s cur o) u) = true) /\
    unseen (wclose s cur o) = unseen s /\ ranks (wclose s cur o) = ranks s.
  Proof using veqb_spec Hpop.
    intros HX Ep. pose proof (Hpop (vtotal (inf s)) (opn s)) as Hp. rewrite Ep in Hp. destruct Hp as (Hin & _ & Hincl & _).
    assert (HL : L cur) by (apply (x_list L s HX); assumption). assert (Hsc : vseen (inf s) cur) by (apply (x_seen L s HX); assumption).
    pose proof (x_fit L s HX) as HF.
    set (s1 := wclose s cur o).
    assert (Fc : inf s1 cur = VI V P (ndist (inf s cur)) (hclose V P hval goals hgoal (inf s) cur) (nprev (inf s cur)) false true (npay (inf s cur))) by (apply vset_same; assumption).
    assert (Fw : forall w, w <> cur -> inf s1 w = inf s w) by (intros w Hw; apply vset_other; assumption).
    assert (Ei : forall w, ndist (inf s1 w) = ndist (inf s w) /\ nprev (inf s1 w) = nprev (inf s w) /\ npay (inf s1 w) = npay (inf s w)).
    { intros w. destruct (vdec w cur) as [->|Hne]; [rewrite Fc; auto|rewrite Fw by assumption; auto]. }
    assert (Ed : forall w, vdist (inf s1) w = vdist (inf s) w).
    { intros w. unfold VehicleSearch.vdist. destruct (Ei w) as (-> & _). reflexivity. }
    assert (Es : forall w, vseen (inf s1) w <-> vseen (inf s) w).
    { intros w. destruct (vdec w cur) as [->|Hne]; [|unfold vseen; rewrite Fw by assumption; reflexivity].
      split; [intros _; assumption|]. intros _. right. rewrite Fc. reflexivity. }
    assert (Esb : forall w, seenb (inf s1) w = seenb (inf s) w).
    { intros w. apply Bool.eq_iff_eq_true. rewrite !seenb_spec. apply Es. }
    assert (Ecl : forall u, nclosed (inf s u) = true -> nclosed (inf s1 u) = true).
    { intros u Hu. destruct (vdec u cur) as [->|Hne]; [rewrite Fc; reflexivity|rewrite Fw by assumption; assumption]. }
    split; [|split; [exact HL|split; [rewrite Fc; reflexivity|split; [exact Ecl|split]]]].
    - constructor.
      + constructor.
        * intros w Hw. apply (ft_all _ HF), Es, Hw.
        * intros w Hw. destruct (Ei w) as (-> & _ & _). apply (ft_dist _ HF), Es, Hw.
        * intros w. destruct (Ei w) as (_ & -> & _). apply (ft_loop _ HF).
      + intros w Hw. apply (x_list L s HX), Hincl, Hw.
      + intros w Hw. apply Es, (x_seen L s HX), Hw.
      + intros w Hw. destruct (Ei w) as (-> & _ & ->). apply (x_start L s HX w Hw).
      + intros w Hw. destruct (Ei w) as (_ & _ & ->). apply (x_rch L s HX), Hw.
      + intros w Hw Hws. destruct (x_prev L s HX w Hw Hws) as (u & c & A & A' & B & D & F). exists u, c.
        destruct (Ei w) as (_ & -> & ->). rewrite !Ed. split; [assumption|]. split; [assumption|]. split; [apply Ecl; assumption|]. split; assumption.
      + intros w. destruct (Ei w) as (_ & _ & ->). apply (x_pay L s HX).
    - unfold VehicleAny.unseen. f_equal. apply filter_ext. intros w. rewrite Esb. reflexivity.
    - unfold VehicleAny.ranks. f_equal. apply map_ext. intros w. rewrite Esb, Ed. reflexivity.
  Qed.

  Lemma trace_X L s : X L s -> forall v l, vtrace (inf s) v (v :: l) -> (forall x, In x l -> L x /\ nclosed (inf s x) = true) -> L v -> weak_drive (vcopy (inf s) (v :: l)).
  Proof using Type.
    intros HX v l. revert v. induction l as [|u l IH]; intros v H Hl Hv.
    - inversion H as [? Hs|? u' q Hs Ex Hq]; subst; [|inversion Hq].
      destruct (x_start L s HX v Hs) as (_ & _ & B). unfold VehicleSearch.vcopy. cbn [map]. rewrite B. constructor. assumption.
    - inversion H as [|? u' q Hs Ex Hq]; subst. assert (u' = u) as -> by (inversion Hq; reflexivity).
      destruct (x_prev L s HX v Hv Hs) as (u' & c & A & A' & B & D & _). rewrite Ex in A. injection A as <-.
      apply (wd_move _ _ _ _ v (npay (inf s v)) u (npay (inf s u)) (vcopy (inf s) l) c); [|assumption|apply (x_rch L s HX); assumption|assumption].
      apply IH; [assumption|intros x Hx; apply Hl; right; assumption|assumption].
  Qed.
  Lemma back_X L s v l : X L s -> L v -> vback bf (inf s) v [] [] = Some l -> l <> [] /\ arrived (vcopy (inf s) l) v (npay (inf s v)).
  Proof using veqb_spec.
    intros HX HL Hb. destruct (x_trace L s HX v HL) as (t & Ht & Htc).
    rewrite (vback_some veqb veqb_spec start (inf s) v (v :: t)) with (fuel := bf) (l := l); [|intros w _; apply (ft_loop _ (x_fit L s HX))|assumption|assumption].
    split. { intros Y. apply (f_equal (@length V)) in Y. rewrite rev_length in Y. discriminate. }
    exists (vcopy (inf s) t). unfold VehicleSearch.vcopy. rewrite map_rev, rev_involutive. split; [reflexivity|].
    split; [apply (trace_X L s HX v t Ht Htc HL)|]. split; [apply (x_rch L s HX); assumption|].
    rewrite map_rev, map_map. cbn [fst]. rewrite map_id. apply NoDup_rev. apply (vtrace_nodup start (inf s) v). assumption.
  Qed.
  Lemma back_X_ok L s v : X L s -> L v -> (length all <= bf)%nat -> exists l, vback bf (inf s) v [] [] = Some l.
  Proof using veqb_spec.
    intros HX HL Hbf. destruct (x_trace L s HX v HL) as (t & Ht & Htc).
    exists (rev (v :: t) ++ []). apply vback_trace; [assumption| |assumption| |intros x _ []].
    - intros w _. apply (ft_loop _ (x_fit L s HX)).
    - etransitivity; [|exact Hbf]. apply NoDup_incl_length; [apply (vtrace_nodup _ _ _ _ Ht)|]. intros x [<-|Hx]; apply (ft_all _ (x_fit L s HX)); apply (x_seen L s HX); [exact HL|apply Htc, Hx].
  Qed.

  Definition known_cands (L : V -> Prop) (ws : wstate) : Prop := forall v c, In (v, c) (wcand ws) -> L v.
  Lemma finish_X L ws path : X L (wss ws) -> known_cands L ws -> wfinish ws = VPath V P path ->
    (path = [] /\ wcand ws = []) \/
    exists v c, In (v, c) (wcand ws) /\ (forall w d, In (w, d) (wcand ws) -> c <= d) /\ arrived path v (npay (inf (wss ws) v)).
  Proof using veqb_spec Hqueue.
    intros HX Hc E. unfold VehicleTest.wfinish in E. destruct (Hqueue (wcand ws)) as [Hp Hs].
    destruct (queue (wcand ws)) as [|[v c] r].
    - injection E as <-. left. split; [reflexivity|]. apply Permutation_nil, Permutation_sym, Hp.
    - right. assert (Hin : In (v, c) (wcand ws)) by (apply (Permutation_in _ (Permutation_sym Hp)); left; reflexivity).
      destruct (vback bf (inf (wss ws)) v [] []) as [l|] eqn:Eb; [|discriminate]. injection E as <-.
      exists v, c. split; [assumption|]. split; [|apply (back_X L _ _ _ HX (Hc v c Hin) Eb)].
      intros w d Hw. apply (Permutation_in _ Hp) in Hw. inversion Hs as [|? ? _ F]; subst.
      destruct Hw as [Y|Hw]; [injection Y as -> ->; lra|]. rewrite Forall_forall in F. apply (F (w, d) Hw).
  Qed.
  Lemma finish_X_ok L ws : X L (wss ws) -> known_cands L ws -> (length all <= bf)%nat -> exists path, wfinish ws = VPath V P path.
  Proof using veqb_spec Hqueue.
    intros HX Hc Hbf. unfold VehicleTest.wfinish. destruct (Hqueue (wcand ws)) as [Hp _]. destruct (queue (wcand ws)) as [|[v c] r]; [eauto|].
    destruct (back_X_ok L (wss ws) v HX) with (2 := Hbf) as [l ->]; [|eauto]. apply (Hc v c). apply (Permutation_in _ (Permutation_sym Hp)). left. reflexivity.
  Qed.

  (** A call of the goal test: about a node this search reached, with the state it left. *)
  Definition asked_ok (c : wcall) : Prop :=
    exists L s t t', X L s /\ L (cnode c) /\ nclosed (inf s (cnode c)) = true /\ cpay c = npay (inf s (cnode c)) /\ term t (inf s) (cnode c) = Some (t', wc_cands V P c, cans c).

  (** What holds at the end. *)
  Record ended_X (L : V -> Prop) (r : vres V P) (ws' : wstate) (log : list wcall) : Prop := {
    ex_X : X L (wss ws');
    ex_cands : known_cands L ws';
    ex_calls : forall c, In c log -> L (cnode c) /\ asked_ok c;
    ex_path : forall path, r = VPath V P path ->
      (exists l0 c, log = l0 ++ [c] /\ cans c = AReturn /\ path <> [] /\ arrived path (cnode c) (cpay c)) \/
      (r = wfinish ws' /\ forall c, In c log -> cans c <> AReturn) }.

  Lemma loop_X : forall fuel n t L ws r ws' log, X L (wss ws) -> known_cands L ws -> wloop fuel n t ws = (r, ws', log) ->
    exists L', ended_X L' r ws' log /\ wcand ws' = wcand ws ++ cands_of log /\ forall u, L u -> L' u.
  Proof using veqb_spec Hpush Hpop gens_pos offer_gen rank_lt.
    induction fuel as [|k IH]; intros n t L ws r ws' log HX Hcc E; cbn [VehicleTest.wloop] in E.
    { injection E as <- <- <-. exists L. split; [|split; [cbn [cands_of flat_map]; rewrite app_nil_r; reflexivity|auto]]. constructor; [assumption|assumption|intros c []|discriminate]. }
    assert (Fin : (wfinish ws, ws, []) = (r, ws', log) -> exists L', ended_X L' r ws' log /\ wcand ws' = wcand ws ++ cands_of log /\ forall u, L u -> L' u).
    { intros Y. injection Y as <- <- <-. exists L. split; [|split; [cbn [cands_of flat_map]; rewrite app_nil_r; reflexivity|auto]].
      constructor; [assumption|assumption|intros c []|]. intros path _. right. split; [reflexivity|intros c []]. }
    destruct (opn (wss ws)) as [|w0 l0] eqn:Eo; [exact (Fin E)|]. destruct (timeout n); [exact (Fin E)|]. clear Fin. rewrite <- Eo in E.
    destruct (pop (vtotal (inf (wss ws))) (opn (wss ws))) as [[cur o]|] eqn:Ep.
    2:{ injection E as <- <- <-. exists L. split; [|split; [cbn [cands_of flat_map]; rewrite app_nil_r; reflexivity|auto]]. constructor; [assumption|assumption|intros c []|discriminate]. }
    destruct (close_X L (wss ws) cur o HX Ep) as (HX1 & HL1 & Hc1 & _). cbv zeta in E. set (s1 := wclose (wss ws) cur o) in *.
    destruct (term t (inf s1) cur) as [[[t' cs] ans]|] eqn:Et.
    2:{ injection E as <- <- <-. cbn [ws_s]. exists L. split; [|split; [cbn [cands_of flat_map ws_cand]; rewrite app_nil_r; reflexivity|auto]].
        constructor; cbn [ws_s ws_cand]; [assumption|exact Hcc|intros c []|discriminate]. }
    destruct (wadd_spec tot cur cs (WS V P s1 (wcand ws) (ws_first V P ws))) as (A1 & A2 & _). cbn [ws_s ws_cand] in A1, A2.
    set (ws2 := wadd (WS V P s1 (wcand ws) (ws_first V P ws)) cur cs) in *.
    set (ev := WC V P cur (npay (inf s1 cur)) (vtotal (inf s1) cur) cs ans) in *.
    assert (Hcc2 : known_cands L ws2).
    { intros v c Hin. rewrite A2 in Hin. apply in_app_iff in Hin. destruct Hin as [Hin|Hin]; [apply (Hcc v c Hin)|].
      apply in_map_iff in Hin. destruct Hin as (w & Y & _). injection Y as <- _. exact HL1. }
    assert (Hev : asked_ok ev) by (exists L, s1, t, t'; split; [exact HX1|]; split; [exact HL1|]; split; [exact Hc1|]; split; [reflexivity|exact Et]).
    assert (Ecand : wcand ws2 = wcand ws ++ cands_of [ev]) by (rewrite A2; cbn [cands_of flat_map]; rewrite app_nil_r; reflexivity).
    assert (One : forall r0, (r0, ws2, [ev]) = (r, ws', log) -> (forall path, r0 = VPath V P path -> (ans = AReturn /\ path <> [] /\ arrived path cur (npay (inf s1 cur))) \/ (r0 = wfinish ws2 /\ ans <> AReturn)) ->
      exists L', ended_X L' r ws' log /\ wcand ws' = wcand ws ++ cands_of log /\ forall u, L u -> L' u).
    { intros r0 Y Hp. injection Y as <- <- <-. exists L. split; [|split; [exact Ecand|auto]]. constructor.
      - rewrite A1. exact HX1.
      - exact Hcc2.
      - intros c [<-|[]]. split; [exact HL1|exact Hev].
      - intros path Er. destruct (Hp path Er) as [(H1 & H2 & H3)|[H1 H2]].
        { left. exists [], ev. auto. }
        right. split; [assumption|]. intros c [<-|[]]. exact H2. }
    destruct ans.
    - destruct (wover V P tot osd ws2 cur); [apply (One _ E); intros path _; right; split; [reflexivity|discriminate]|].
      pose proof (expand_X cur moves L s1 HX1 (incl_refl _) HL1 Hc1) as Y.
      destruct (vexpand cur moves s1) as [s2|]; [|apply (One _ E); discriminate].
      destruct Y as ((L2 & HX2 & Mo) & _).
      destruct (wloop k (S n) t' (WS V P s2 (wcand ws2) (ws_first V P ws2))) as [[r1 w1] l1] eqn:E1. injection E as <- <- <-.
      assert (Hcc3 : known_cands L2 (WS V P s2 (wcand ws2) (ws_first V P ws2))) by (intros v c Hin; apply Mo; apply (Hcc2 v c Hin)).
      destruct (IH _ _ L2 (WS V P s2 (wcand ws2) (ws_first V P ws2)) _ _ _ HX2 Hcc3 E1) as (L3 & He & Hc' & Mo3).
      cbn [ws_s ws_cand] in Hc'. exists L3. split; [|split; [|auto]].
      + destruct He as [B1 B2 B3 B4]. constructor; [exact B1|exact B2| |].
        * intros c [<-|Hin]; [|apply B3; exact Hin]. split; [apply Mo3, Mo, HL1|exact Hev].
        * intros path Er. destruct (B4 path Er) as [(l2 & c & -> & H2)|[H1 H2]]; [left; exists (ev :: l2), c; split; [reflexivity|exact H2]|right; split; [exact H1|]].
          intros c [<-|Hin]; [discriminate|apply H2; exact Hin].
      + rewrite Hc', Ecand, <- app_assoc. cbn [cands_of flat_map]. rewrite app_nil_r. reflexivity.
    - apply (One _ E). intros path _. right. split; [reflexivity|discriminate].
    - destruct (vback bf (inf s1) cur [] []) as [l|] eqn:Eb; [|apply (One _ E); discriminate].
      destruct (back_X L s1 cur l HX1 HL1 Eb) as [Hne Harr].
      destruct l as [|x l]; [contradiction|]. apply (One _ E). intros path Er. left. injection Er as <-. split; [reflexivity|]. split; [discriminate|exact Harr].
  Qed.

  (** ** It ends *)
  Hypothesis term_ok : forall L t s cur, X L s -> L cur -> nclosed (inf s cur) = true -> term t (inf s) cur <> None.
  Lemma loop_X_ends : (length all <= bf)%nat -> forall L0 ws n t, X L0 (wss ws) -> known_cands L0 ws ->
    exists fuel, (exists path, fst (fst (wloop fuel n t ws)) = VPath V P path) \/ (fst (fst (wloop fuel n t ws)) = VUndef V P /\ undef_offer).
  Proof using veqb_spec Hpush Hpop gens_pos offer_gen Hqueue term_ok rank_lt.
    intros Hbf.
    assert (G : forall s0, Acc below s0 -> forall N L ws n t, unseen (wss ws) = unseen s0 -> ranks (wss ws) = ranks s0 -> (length (opn (wss ws)) <= N)%nat -> X L (wss ws) -> known_cands L ws ->
      exists fuel, (exists path, fst (fst (wloop fuel n t ws)) = VPath V P path) \/ (fst (fst (wloop fuel n t ws)) = VUndef V P /\ undef_offer)).
    { induction 1 as [s0 _ IHA]. induction N as [N IHN] using (well_founded_ind lt_wf). intros L ws n t Hu Hrk HN HX Hcc.
      destruct (finish_X_ok L ws HX Hcc Hbf) as [pf Ef].
      destruct (opn (wss ws)) as [|w1 l1] eqn:Eo.
      { exists 1%nat. left. exists pf. cbn [VehicleTest.wloop]. rewrite Eo. exact Ef. }
      destruct (timeout n) eqn:Et.
      { exists 1%nat. left. exists pf. cbn [VehicleTest.wloop]. rewrite Eo, Et. exact Ef. }
      pose proof (Hpop (vtotal (inf (wss ws))) (opn (wss ws))) as Hp.
      destruct (pop (vtotal (inf (wss ws))) (opn (wss ws))) as [[cur o]|] eqn:Ep; [|congruence]. destruct Hp as (_ & Hlen & _).
      destruct (close_X L (wss ws) cur o HX Ep) as (HX1 & HL1 & Hc1 & _ & U1 & R1). set (s1 := wclose (wss ws) cur o) in *.
      destruct (term t (inf s1) cur) as [[[t' cs] ans]|] eqn:Etm; [|exfalso; exact (term_ok L t s1 cur HX1 HL1 Hc1 Etm)].
      destruct (wadd_spec tot cur cs (WS V P s1 (wcand ws) (ws_first V P ws))) as (A1 & A2 & _). cbn [ws_s ws_cand] in A1, A2.
      set (ws2 := wadd (WS V P s1 (wcand ws) (ws_first V P ws)) cur cs) in *.
      assert (Hcc2 : known_cands L ws2).
      { intros v c Hin. rewrite A2 in Hin. apply in_app_iff in Hin. destruct Hin as [Hin|Hin]; [apply (Hcc v c Hin)|].
        apply in_map_iff in Hin. destruct Hin as (w & Y & _). injection Y as <- _. exact HL1. }
      destruct (finish_X_ok L ws2) as [pf2 Ef2]; [rewrite A1; exact HX1|exact Hcc2|exact Hbf|].
      destruct ans.
      - destruct (wover V P tot osd ws2 cur) eqn:Ew.
        { exists 1%nat. left. exists pf2. cbn [VehicleTest.wloop]. rewrite Eo, Et, <- Eo, Ep. cbv zeta. fold s1. rewrite Etm. fold ws2. rewrite Ew. exact Ef2. }
        pose proof (expand_X cur moves L s1 HX1 (incl_refl _) HL1 Hc1) as Y.
        destruct (vexpand cur moves s1) as [s2|] eqn:Ex.
        2:{ exists 1%nat. right. cbn [VehicleTest.wloop]. rewrite Eo, Et, <- Eo, Ep. cbv zeta. fold s1. rewrite Etm. fold ws2. rewrite Ew, Ex. split; [reflexivity|exact Y]. }
        destruct Y as ((L2 & HX2 & Mo) & _ & Pr).
        assert (Hcc3 : known_cands L2 (WS V P s2 (wcand ws2) (ws_first V P ws2))) by (intros v c Hin; apply Mo; apply (Hcc2 v c Hin)).
        assert (Y : exists fuel, (exists path, fst (fst (wloop fuel (S n) t' (WS V P s2 (wcand ws2) (ws_first V P ws2)))) = VPath V P path) \/
          (fst (fst (wloop fuel (S n) t' (WS V P s2 (wcand ws2) (ws_first V P ws2)))) = VUndef V P /\ undef_offer)).
        { destruct Pr as [->|Pr].
          - apply (IHN (length (opn s1)) ltac:(unfold s1; cbn [VehicleTest.wclose v_open]; rewrite Eo in Hlen; cbn [length] in Hlen, HN; eapply Nat.lt_le_trans; [exact Hlen|exact HN]) L2); cbn [ws_s]; [congruence|congruence|apply Nat.le_refl|assumption|assumption].
          - apply (IHA s2) with (N := length (opn s2)) (L := L2); cbn [ws_s]; [|reflexivity|reflexivity|apply Nat.le_refl|assumption|assumption].
            unfold VehicleAny.below in *. rewrite <- Hu, <- Hrk, <- U1, <- R1. exact Pr. }
        destruct Y as (fuel & Y). exists (S fuel). cbn [VehicleTest.wloop]. rewrite Eo, Et, <- Eo, Ep. cbv zeta. fold s1. rewrite Etm. fold ws2. rewrite Ew, Ex.
        destruct (wloop fuel (S n) t' (WS V P s2 (wcand ws2) (ws_first V P ws2))) as [[r1 w2] l2]. exact Y.
      - exists 1%nat. left. exists pf2. cbn [VehicleTest.wloop]. rewrite Eo, Et, <- Eo, Ep. cbv zeta. fold s1. rewrite Etm. exact Ef2.
      - destruct (back_X_ok L s1 cur HX1 HL1 Hbf) as [l El]. exists 1%nat. left. cbn [VehicleTest.wloop]. rewrite Eo, Et, <- Eo, Ep. cbv zeta. fold s1. rewrite Etm. fold ws2. rewrite El.
        destruct l as [|x l]; [exists pf2; exact Ef2|eexists; reflexivity]. }
    intros L0 ws n t HX Hcc. apply (G (wss ws) (below_acc all rank (wss ws)) (length (opn (wss ws))) L0 ws n t); [reflexivity|reflexivity|apply Nat.le_refl|assumption|assumption].
  Qed.

  (** ** How it begins *)
  Lemma starts_X f : fit f -> (forall v, npay (f v) = pay0 v) -> X (fun v => In v start) (vstarts start (VS V P f [])).
  Proof using veqb_spec Hpush start_all.
    intros HF Hp.
    assert (G : forall l s, incl l start -> fit (inf s) -> (forall v, npay (inf s v) = pay0 v) -> (forall v, In v (opn s) -> In v start) ->
      (forall v, In v start -> In v l \/ (vseen (inf s) v /\ ndist (inf s v) = Some 0)) ->
      let s' := vstarts l s in fit (inf s') /\ (forall v, npay (inf s' v) = pay0 v) /\ (forall v, In v (opn s') -> In v start) /\ forall v, In v start -> vseen (inf s' ) v /\ ndist (inf s' v) = Some 0).
    { induction l as [|w l IH]; intros s Hi F1 F2 F3 F4; cbn [VehicleSearch.vstarts].
      { split; [exact F1|]. split; [exact F2|]. split; [exact F3|]. intros v Hv. destruct (F4 v Hv) as [[]|Y]. exact Y. }
      set (n := inf s w). set (f1 := vset (inf s) w (VI V P (Some 0) (n_h V P n) (nprev n) true (nclosed n) (npay n))).
      assert (Fv : f1 w = VI V P (Some 0) (n_h V P n) (nprev n) true (nclosed n) (npay n)) by (apply vset_same; assumption).
      assert (Fo : forall v, v <> w -> f1 v = inf s v) by (intros v Hv; apply vset_other; assumption).
      assert (Hw : In w start) by (apply Hi; left; reflexivity).
      apply IH; cbn [v_info v_open].
      - intros v Hv. apply Hi. right. exact Hv.
      - constructor.
        + intros v Hv. destruct (vdec v w) as [->|Hne]; [apply start_all, Hw|]. apply (ft_all _ F1). unfold vseen in *. rewrite Fo in Hv by assumption. exact Hv.
        + intros v Hv. destruct (vdec v w) as [->|Hne]; [exists 0; rewrite Fv; split; [reflexivity|constructor]|]. unfold vseen in Hv. rewrite Fo in * by assumption. apply (ft_dist _ F1). exact Hv.
        + intros v. destruct (vdec v w) as [->|Hne]; [rewrite Fv; cbn [n_prev]; apply (ft_loop _ F1)|]. rewrite Fo by assumption. apply (ft_loop _ F1).
      - intros v. destruct (vdec v w) as [->|Hne]; [rewrite Fv; apply F2|rewrite Fo by assumption; apply F2].
      - intros v Hv. apply (proj2 (Hpush _ _ _)) in Hv. destruct Hv as [->|Hv]; [exact Hw|apply F3, Hv].
      - intros v Hv. destruct (vdec v w) as [->|Hne].
        + right. split; [left; rewrite Fv; reflexivity|rewrite Fv; reflexivity].
        + unfold vseen. rewrite Fo by assumption. destruct (F4 v Hv) as [[Y|Y]|Y]; [congruence|left; exact Y|right; exact Y]. }
    destruct (G start (VS V P f []) (incl_refl _) HF Hp ltac:(intros v []) ltac:(intros v Hv; left; exact Hv)) as (F1 & F2 & F3 & F4).
    constructor.
    - exact F1.
    - exact F3.
    - intros v Hv. apply F4, Hv.
    - intros v Hv. split; [exact Hv|]. split; [apply F4, Hv|apply F2].
    - intros v Hv. rewrite F2. constructor. exact Hv.
    - intros v Hv N. contradiction.
    - intros v. left. apply F2.
  Qed.
End Stale.
