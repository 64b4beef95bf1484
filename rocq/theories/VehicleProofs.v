(** Invariants of the search over slots with contents (VehicleSearch.v), when the nodes
    are handed out in the order of their distance (no heuristic). *)
From Coq Require Import Reals Lra.
From Verif Require Import Base GeomR PathSpec GenericProofs VehicleSearch.
Local Open Scope R_scope.

Section Proofs.
  Context {V P M : Type}.
  Variable veqb : V -> V -> bool.
  Hypothesis veqb_spec : forall a b, reflect (a = b) (veqb a b).
  Variable moves : list M.
  Variable reach : nat.
  Variable offer : P -> list P -> M -> option (option (V * R * P)).
  Variable hval : P -> P -> R.
  Variable tot : R -> R -> R.
  Variable isgoal : P -> P -> option P -> option bool.
  Variable push : (V -> R) -> V -> list V -> list V.
  Variable pop : (V -> R) -> list V -> option (V * list V).
  Hypothesis Hpush : push_ok push.
  Hypothesis Hpop : pop_ok pop.
  Variable start goals : list V.
  Variable pay0 : V -> P.
  Hypothesis offer_pos : forall q qs m v c p, offer q qs m = Some (Some (v, c, p)) -> 0 <= c.
  (** What holds of the contents of every node reached. *)
  Variable I : V -> P -> Prop.
  Hypothesis I_start : forall v, In v start -> I v (pay0 v).
  Hypothesis I_offer : forall u q qs m v c p, I u q -> In m moves -> offer q qs m = Some (Some (v, c, p)) -> I v p.

  Notation vinfo := (vinfo V P).
  Notation vstate := (vstate V P).
  Notation inf := (v_info V P).
  Notation opn := (v_open V P).
  Notation ndist := (n_dist V P).
  Notation nprev := (n_prev V P).
  Notation nopen := (n_open V P).
  Notation nclosed := (n_closed V P).
  Notation npay := (n_pay V P).
  Notation vset := (vset V P veqb).
  Notation vdist := (vdist V P).
  Notation vtotal := (vtotal V P tot).
  Notation prevs := (prevs V P).
  Notation vmem := (vmem V veqb).
  Notation vprocess := (vprocess V P veqb hval tot push goals).
  Notation vexpand := (vexpand V P M veqb reach offer hval tot push goals).
  Notation vback := (vback V P veqb start).
  Notation vclose := (vclose V P veqb hval goals).
  Notation vreached := (vreached V P isgoal).
  Notation vstarts := (vstarts V P veqb tot push).
  Notation vloop := (vloop V P M veqb moves reach offer hval tot isgoal push pop start goals).
  Notation vrun := (vrun V P M veqb moves reach offer hval tot isgoal push pop start goals).

  Lemma vset_same f v n : vset f v n v = n.
  Proof using veqb_spec. unfold VehicleSearch.vset. destruct (veqb_spec v v); [reflexivity|contradiction]. Qed.
  Lemma vset_other f v n w : w <> v -> vset f v n w = f w.
  Proof using veqb_spec. unfold VehicleSearch.vset. intros H. destruct (veqb_spec w v); [contradiction|reflexivity]. Qed.
  Lemma vmem_spec v l : vmem v l = true <-> In v l.
  Proof using veqb_spec.
    unfold VehicleSearch.vmem. rewrite existsb_exists. split.
    - intros (x & Hx & E). destruct (veqb_spec v x); [subst; assumption|discriminate].
    - intros H. exists v. split; [assumption|]. destruct (veqb_spec v v); [reflexivity|contradiction].
  Qed.
  Lemma vdec (a b : V) : {a = b} + {a <> b}.
  Proof using veqb_spec. destruct (veqb_spec a b); auto. Qed.

  Definition vseen (f : V -> vinfo) (v : V) : Prop := nopen (f v) = true \/ nclosed (f v) = true.
  Lemma vseen_dec f v : {vseen f v} + {~ vseen f v}.
  Proof using Type. unfold vseen. destruct (nopen (f v)), (nclosed (f v)); auto. right. intros [H|H]; discriminate. Qed.

  (** Following the predecessor pointers from a node to a start node. *)
  Inductive vtrace (f : V -> vinfo) : V -> list V -> Prop :=
  | vt_start v : In v start -> vtrace f v [v]
  | vt_step v u l : ~ In v start -> nprev (f v) = Some u -> vtrace f u l -> vtrace f v (v :: l).

  Lemma vtrace_fun f v p : vtrace f v p -> forall q, vtrace f v q -> p = q.
  Proof using Type.
    induction 1 as [v Hv|v u p Hv E H IH]; intros q Hq; inversion Hq; subst; try contradiction; [reflexivity|].
    f_equal. apply IH. congruence.
  Qed.
  Lemma vtrace_in f v p : vtrace f v p -> forall x, In x p -> exists q, vtrace f x q /\ (length q <= length p)%nat.
  Proof using Type.
    induction 1 as [v Hv|v u p Hv E H IH]; intros x Hx.
    - destruct Hx as [<-|[]]. exists [v]. split; [constructor; assumption|reflexivity].
    - destruct Hx as [<-|Hx].
      + exists (v :: p). split; [econstructor; eassumption|reflexivity].
      + destruct (IH x Hx) as (q & Hq & Hl). exists q. split; [assumption|]. cbn [length]. clear - Hl. lia.
  Qed.
  Lemma vtrace_nodup f v p : vtrace f v p -> NoDup p.
  Proof using Type.
    induction 1 as [v Hv|v u p Hv E H IH]; [repeat constructor; intros []|].
    constructor; [|assumption]. intros Hin. destruct (vtrace_in f u p H v Hin) as (q & Hq & Hl).
    assert (Ht : vtrace f v (v :: p)) by (econstructor; eassumption).
    rewrite (vtrace_fun f v q Hq _ Ht) in Hl. cbn [length] in Hl. clear - Hl. lia.
  Qed.

  (** Backtracking along a trace succeeds. *)
  Lemma vback_trace f v p : (forall w, In w start -> nprev (f w) <> Some w) -> vtrace f v p ->
    forall fuel sn acc, (length p <= fuel)%nat -> (forall x, In x p -> ~ In x sn) ->
    vback fuel f v sn acc = Some (rev p ++ acc).
  Proof using veqb_spec.
    intros Hst H. induction H as [v Hv|v u p Hv E H IH]; intros fuel sn acc Hf Hsn.
    - destruct fuel as [|k]; [simpl in Hf; clear - Hf; lia|]. cbn [VehicleSearch.vback].
      rewrite (proj2 (vmem_spec v start) Hv). reflexivity.
    - destruct fuel as [|k]; [simpl in Hf; clear - Hf; lia|]. cbn [VehicleSearch.vback].
      destruct (vmem v start) eqn:Em; [apply vmem_spec in Em; contradiction|].
      destruct (vmem v sn) eqn:Es; [apply vmem_spec in Es; exfalso; apply (Hsn v); [left; reflexivity|assumption]|].
      rewrite E.
      assert (Hnd : NoDup (v :: p)) by (apply (vtrace_nodup f v); econstructor; eassumption).
      assert (Hbt : vback k f u (v :: sn) (v :: acc) = Some (rev (v :: p) ++ acc)).
      { simpl rev. rewrite <- app_assoc. apply IH; [simpl in Hf; clear - Hf; lia|].
        intros x Hx [<-|Hin]; [inversion Hnd; contradiction|]. apply (Hsn x); [right; assumption|assumption]. }
      destruct (nprev (f u)) as [q|] eqn:Eq; [|exact Hbt].
      destruct (veqb_spec q u) as [->|]; [|exact Hbt]. exfalso.
      inversion H as [? Hu|? u' p' Hu E' H']; subst; [apply (Hst u Hu Eq)|].
      rewrite E' in Eq. injection Eq as ->.
      pose proof (vtrace_fun f u _ H _ H') as Ex. apply (f_equal (@length V)) in Ex. simpl in Ex. clear - Ex. lia.
  Qed.
  (** ... and returns the trace whenever it returns. *)
  Lemma vback_some f v p : (forall w, In w start -> nprev (f w) <> Some w) -> vtrace f v p ->
    forall fuel l, vback fuel f v [] [] = Some l -> l = rev p.
  Proof using veqb_spec.
    intros Hst Ht fuel l E.
    assert (G : forall fuel v sn acc l, vback fuel f v sn acc = Some l -> forall k, (fuel <= k)%nat -> vback k f v sn acc = Some l).
    { clear. induction fuel as [|k IH]; intros v sn acc l E j Hj; [discriminate|]. destruct j as [|j]; [lia|]. cbn [VehicleSearch.vback] in *.
      destruct (vmem v start); [assumption|]. destruct (vmem v sn); [assumption|]. destruct (nprev (f v)) as [u|]; [|assumption].
      destruct (nprev (f u)) as [q|]; [destruct (veqb q u); [assumption|]|]; apply IH; (assumption || lia). }
    pose proof (G _ _ _ _ _ E (fuel + length p)%nat (Nat.le_add_r _ _)) as E'.
    rewrite (vback_trace f v p Hst Ht) in E'; [|rewrite Nat.add_comm; apply Nat.le_add_r|intros x _ []]. rewrite app_nil_r in E'. congruence.
  Qed.

  (** ** Least distance first *)
  Variable all : list V.
  Hypothesis offer_all : forall u q qs m v c p, I u q -> In m moves -> offer q qs m = Some (Some (v, c, p)) -> In v all.
  Hypothesis start_all : incl start all.
  Hypothesis tot_dist : forall d h, tot d h = d.
  Hypothesis pop_least : forall f l v r, pop f l = Some (v, r) -> forall w, In w l -> f v <= f w.

  (** [E]: the nodes that are completely expanded. *)
  Record K (E : V -> Prop) (s : vstate) : Prop := {
    k_open : forall v, nopen (inf s v) = true -> In v (opn s);
    k_list : forall v, In v (opn s) -> vseen (inf s) v;
    k_all : forall v, vseen (inf s) v -> In v all;
    k_start : forall v, In v start -> vseen (inf s) v /\ ndist (inf s v) = Some 0 /\ nprev (inf s v) = None /\ npay (inf s v) = pay0 v;
    k_dist : forall v, vseen (inf s) v -> exists d, ndist (inf s v) = Some d /\ 0 <= d;
    k_front : forall u v, nclosed (inf s u) = true -> vseen (inf s) v -> nclosed (inf s v) = false -> vdist (inf s) u <= vdist (inf s) v;
    k_prev : forall v, vseen (inf s) v -> ~ In v start -> exists u m c, nprev (inf s v) = Some u /\ nclosed (inf s u) = true /\ In m moves /\
      offer (npay (inf s u)) (prevs reach (inf s) u) m = Some (Some (v, c, npay (inf s v))) /\ vdist (inf s) v = vdist (inf s) u + c;
    k_trace : forall v, vseen (inf s) v -> exists l, vtrace (inf s) v (v :: l) /\ forall x, In x l -> nclosed (inf s x) = true;
    k_I : forall v, vseen (inf s) v -> I v (npay (inf s v));
    k_fresh : forall v, ~ vseen (inf s) v -> npay (inf s v) = pay0 v;
    k_relax : forall u m v c p, nclosed (inf s u) = true -> E u -> In m moves ->
      offer (npay (inf s u)) (prevs reach (inf s) u) m = Some (Some (v, c, p)) -> vseen (inf s) v /\ vdist (inf s) v <= vdist (inf s) u + c }.

  Lemma prevs_frozen f g : (forall u, nclosed (f u) = true -> g u = f u) ->
    (forall u w, nclosed (f u) = true -> nprev (f u) = Some w -> nclosed (f w) = true) ->
    forall k u, nclosed (f u) = true -> prevs k g u = prevs k f u.
  Proof using Type.
    intros Hg Hp. induction k as [|k IH]; intros u Hu; [reflexivity|]. cbn [VehicleSearch.prevs]. rewrite (Hg u Hu).
    destruct (nprev (f u)) as [w|] eqn:Ew; [|reflexivity]. pose proof (Hp u w Hu Ew) as Hw. rewrite (Hg w Hw), (IH w Hw). reflexivity.
  Qed.
  Lemma closed_prev E s : K E s -> forall u w, nclosed (inf s u) = true -> nprev (inf s u) = Some w -> nclosed (inf s w) = true.
  Proof using veqb_spec.
    intros HK u w Hu Ew. destruct (in_dec vdec u start) as [Hs|Hs].
    - destruct (k_start _ _ HK u Hs) as (_ & _ & X & _). congruence.
    - destruct (k_prev _ _ HK u (or_intror Hu) Hs) as (u' & m & c & X & Y & _). congruence.
  Qed.

  Lemma vdist_some f v d : ndist (f v) = Some d -> vdist f v = d.
  Proof using Type. unfold VehicleSearch.vdist. intros ->. reflexivity. Qed.

  (** The state in which [cur], closed and at least as far as every closed node, offers
      a node. *)
  Lemma process_K E s cur m v c p : K E s -> nclosed (inf s cur) = true ->
    (forall u, nclosed (inf s u) = true -> vdist (inf s) u <= vdist (inf s) cur) -> In m moves ->
    offer (npay (inf s cur)) (prevs reach (inf s) cur) m = Some (Some (v, c, p)) ->
    exists s', vprocess cur s (v, c, p) = Some s' /\ K E s' /\
      (forall u, nclosed (inf s u) = true -> inf s' u = inf s u) /\ (forall u, nclosed (inf s' u) = nclosed (inf s u)) /\
      vseen (inf s') v /\ vdist (inf s') v <= vdist (inf s) cur + c /\
      (forall w, vseen (inf s) w -> vseen (inf s') w /\ vdist (inf s') w <= vdist (inf s) w).
  Proof using veqb_spec Hpush offer_pos I_offer offer_all.
    intros HK Hc Htop Hm Ho. pose proof (offer_pos _ _ _ _ _ _ Ho) as Hc0.
    destruct (k_dist _ _ HK cur (or_intror Hc)) as (dc & Edc & Hdc).
    assert (Ecur : vdist (inf s) cur = dc) by (apply vdist_some; assumption).
    unfold VehicleSearch.vprocess. rewrite Ecur.
    set (n := inf s v).
    assert (Stay : vseen (inf s) v -> match ndist n with None => true | Some d' => Rltb (dc + c) d' end = false ->
      exists s', Some s = Some s' /\ K E s' /\ (forall u, nclosed (inf s u) = true -> inf s' u = inf s u) /\ (forall u, nclosed (inf s' u) = nclosed (inf s u)) /\
      vseen (inf s') v /\ vdist (inf s') v <= dc + c /\ (forall w, vseen (inf s) w -> vseen (inf s') w /\ vdist (inf s') w <= vdist (inf s) w)).
    { intros Hs Hcl. exists s. split; [reflexivity|]. split; [assumption|]. split; [reflexivity|]. split; [reflexivity|]. split; [assumption|]. split.
      - unfold VehicleSearch.vdist. fold n. destruct (ndist n) as [d'|]; [|discriminate]. apply Rltb_false in Hcl. lra.
      - intros w Hw. split; [assumption|lra]. }
    destruct (nclosed n) eqn:Ecl.
    { (* closed nodes are never improved *)
      destruct (k_dist _ _ HK v (or_intror Ecl)) as (dv & Edv & _).
      assert (Hle : dv <= dc). { rewrite <- (vdist_some _ _ _ Edv), <- Ecur. apply Htop. exact Ecl. }
      assert (Hnc : match ndist n with None => true | Some d' => Rltb (dc + c) d' end = false).
      { unfold n. rewrite Edv. destruct (Rltb (dc + c) dv) eqn:X; [|reflexivity]. apply Rltb_spec in X. lra. }
      rewrite Hnc. cbn [negb andb]. apply Stay; [right; assumption|assumption]. }
    cbn [andb].
    destruct (negb (nopen n) || match ndist n with None => true | Some d' => Rltb (dc + c) d' end) eqn:Eadd.
    2:{ apply orb_false_iff in Eadd. destruct Eadd as [E1 E2]. apply negb_false_iff in E1. apply Stay; [left; assumption|assumption]. }
    assert (Hvc : v <> cur) by (intros ->; unfold n in Ecl; congruence).
    destruct (veqb_spec v cur) as [|_]; [contradiction|].
    assert (Hns : ~ In v start).
    { intros Hs. destruct (k_start _ _ HK v Hs) as (Hv & Hd & _). unfold n in Ecl, Eadd. destruct Hv as [Hv|Hv]; [|congruence].
      rewrite Hv, Hd in Eadd. cbn [negb orb] in Eadd. apply Rltb_spec in Eadd. lra. }
    assert (Hdec : vseen (inf s) v -> dc + c <= vdist (inf s) v).
    { intros [Hv|Hv]; [|unfold n in Ecl; congruence]. unfold n in Eadd. rewrite Hv in Eadd. cbn [negb orb] in Eadd.
      destruct (k_dist _ _ HK v (or_introl Hv)) as (dv & Edv & _). rewrite Edv in Eadd. apply Rltb_spec in Eadd. rewrite (vdist_some _ _ _ Edv). lra. }
    set (h := new_h V P hval goals (inf s) v).
    set (f1 := vset (inf s) v (VI V P (Some (dc + c)) h (Some cur) true false (npay n))).
    set (f2 := vset f1 v (VI V P (Some (dc + c)) h (Some cur) true false p)).
    set (s' := VS V P f2 (push (vtotal f1) v (opn s))).
    assert (Fv : f2 v = VI V P (Some (dc + c)) h (Some cur) true false p) by apply vset_same.
    assert (Fw : forall w, w <> v -> f2 w = inf s w).
    { intros w Hw. unfold f2, f1. rewrite !vset_other by assumption. reflexivity. }
    assert (Frozen : forall u, nclosed (inf s u) = true -> f2 u = inf s u).
    { intros u Hu. apply Fw. intros ->. unfold n in Ecl. congruence. }
    assert (Clo : forall u, nclosed (f2 u) = nclosed (inf s u)).
    { intros u. destruct (vdec u v) as [->|Hne]; [rewrite Fv; symmetry; exact Ecl|rewrite Fw by assumption; reflexivity]. }
    assert (Sv : vseen f2 v) by (left; rewrite Fv; reflexivity).
    assert (Sw : forall w, vseen (inf s) w -> vseen f2 w).
    { intros w Hw. destruct (vdec w v) as [->|Hne]; [assumption|]. unfold vseen. rewrite Fw by assumption. exact Hw. }
    assert (Sb : forall w, vseen f2 w -> w = v \/ vseen (inf s) w).
    { intros w Hw. destruct (vdec w v) as [->|Hne]; [left; reflexivity|right]. unfold vseen in Hw. rewrite Fw in Hw by assumption. exact Hw. }
    assert (Dv : vdist f2 v = dc + c) by (unfold VehicleSearch.vdist; rewrite Fv; reflexivity).
    assert (Dw : forall w, w <> v -> vdist f2 w = vdist (inf s) w).
    { intros w Hw. unfold VehicleSearch.vdist. rewrite Fw by assumption. reflexivity. }
    assert (Dc : forall u, nclosed (inf s u) = true -> vdist f2 u = vdist (inf s) u).
    { intros u Hu. unfold VehicleSearch.vdist. rewrite Frozen by assumption. reflexivity. }
    assert (Pc : forall k u, nclosed (inf s u) = true -> prevs k f2 u = prevs k (inf s) u).
    { intros k u Hu. apply prevs_frozen; [exact Frozen|apply (closed_prev E s HK)|assumption]. }
    exists s'. cbn [v_info s']. split; [reflexivity|]. split; [|split; [exact Frozen|split; [exact Clo|split; [exact Sv|split; [rewrite Dv; lra|]]]]].
    2:{ intros w Hw. split; [apply Sw; assumption|]. destruct (vdec w v) as [->|Hne]; [rewrite Dv; apply Hdec; assumption|rewrite Dw by assumption; lra]. }
    assert (Iv : I v p). { apply (I_offer cur (npay (inf s cur)) (prevs reach (inf s) cur) m v c p); [apply (k_I _ _ HK); right; assumption|assumption|assumption]. }
    assert (Lp : forall w, In w (opn s') <-> w = v \/ In w (opn s)) by (intros w; apply Hpush).
    constructor; cbn [v_info s'].
    - intros w Hw. apply Lp. destruct (vdec w v) as [->|Hne]; [left; reflexivity|right]. rewrite Fw in Hw by assumption. apply (k_open _ _ HK). assumption.
    - intros w Hw. apply Lp in Hw. destruct Hw as [->|Hw]; [assumption|]. apply Sw, (k_list _ _ HK), Hw.
    - intros w Hw. apply Sb in Hw. destruct Hw as [->|Hw]; [|apply (k_all _ _ HK); assumption].
      apply (offer_all cur (npay (inf s cur)) (prevs reach (inf s) cur) m v c p); [apply (k_I _ _ HK); right; assumption|assumption|assumption].
    - intros w Hw. rewrite Fw by congruence. destruct (k_start _ _ HK w Hw) as (A & B). split; [apply Sw; assumption|exact B].
    - intros w Hw. destruct (vdec w v) as [->|Hne]; [exists (dc + c); rewrite Fv; split; [reflexivity|lra]|]. rewrite Fw by assumption.
      apply Sb in Hw. destruct Hw as [|Hw]; [contradiction|]. apply (k_dist _ _ HK). assumption.
    - intros u w Hu Hw Hwc. rewrite Clo in Hu, Hwc. rewrite Dc by assumption. destruct (vdec w v) as [->|Hne].
      + rewrite Dv. specialize (Htop u Hu). lra.
      + rewrite Dw by assumption. apply Sb in Hw. destruct Hw as [|Hw]; [contradiction|]. apply (k_front _ _ HK); assumption.
    - intros w Hw Hws. destruct (vdec w v) as [->|Hne].
      + exists cur, m, c. rewrite Fv. cbn [n_prev n_pay]. split; [reflexivity|]. split; [rewrite Clo; assumption|]. split; [assumption|].
        rewrite Dv, Dc, Ecur, Pc, (Frozen cur Hc) by assumption. split; [exact Ho|reflexivity].
      + apply Sb in Hw. destruct Hw as [|Hw]; [contradiction|]. destruct (k_prev _ _ HK w Hw Hws) as (u & m' & c' & A & B & G & D & F).
        exists u, m', c'. rewrite Fw, Dw, Clo, Dc, Pc, (Frozen u B) by assumption. auto.
    - intros w Hw.
      assert (T : forall w l, vtrace (inf s) w l -> ~ In v l -> vtrace f2 w l).
      { induction 1 as [x Hx|x u l Hx Ex Hl IH]; intros Hn; [constructor; assumption|].
        apply (vt_step f2 x u); [assumption| |].
        - rewrite Fw; [assumption|]. intros ->. apply Hn. left. reflexivity.
        - apply IH. intros X. apply Hn. right. assumption. }
      destruct (vdec w v) as [->|Hne].
      + destruct (k_trace _ _ HK cur (or_intror Hc)) as (l & Hl & Hlc). exists (cur :: l). split.
        * apply (vt_step f2 v cur); [assumption|rewrite Fv; reflexivity|]. apply T; [assumption|].
          intros [X|X]; [congruence|]. specialize (Hlc v X). unfold n in Ecl. congruence.
        * intros x [<-|Hx]; rewrite Clo; [assumption|apply Hlc; assumption].
      + apply Sb in Hw. destruct Hw as [|Hw]; [contradiction|]. destruct (k_trace _ _ HK w Hw) as (l & Hl & Hlc). exists l. split.
        * apply T; [assumption|]. intros [X|X]; [congruence|]. specialize (Hlc v X). unfold n in Ecl. congruence.
        * intros x Hx. rewrite Clo. apply Hlc. assumption.
    - intros w Hw. destruct (vdec w v) as [->|Hne]; [rewrite Fv; exact Iv|]. rewrite Fw by assumption.
      apply Sb in Hw. destruct Hw as [|Hw]; [contradiction|]. apply (k_I _ _ HK). assumption.
    - intros w Hw. destruct (vdec w v) as [->|Hne]; [contradiction|]. rewrite Fw by assumption. apply (k_fresh _ _ HK). intros X. apply Hw, Sw, X.
    - intros u m' w c' p' Hu HE Hm' Hof. rewrite Clo in Hu. rewrite (Frozen u Hu), Pc in Hof by assumption. rewrite (Dc u Hu).
      destruct (k_relax _ _ HK u m' w c' p' Hu HE Hm' Hof) as [A B]. split; [apply Sw; assumption|].
      destruct (vdec w v) as [->|Hne]; [rewrite Dv; specialize (Hdec A); lra|rewrite Dw by assumption; assumption].
  Qed.

  (** Some offer of a reached state, or some goal test, is undefined. *)
  Definition undefined : Prop :=
    (exists v q qs m, I v q /\ In m moves /\ offer q qs m = None) \/ (exists g q o, isgoal g q o = None).

  Lemma expand_new E cur : forall ms s, K E s -> incl ms moves -> nclosed (inf s cur) = true ->
    (forall u, nclosed (inf s u) = true -> vdist (inf s) u <= vdist (inf s) cur) ->
    match vexpand cur ms s with
    | None => undefined
    | Some s' => K E s' /\ (forall u, nclosed (inf s u) = true -> inf s' u = inf s u) /\ (forall u, nclosed (inf s' u) = nclosed (inf s u)) /\
        (forall w, vseen (inf s) w -> vseen (inf s') w /\ vdist (inf s') w <= vdist (inf s) w) /\
        (forall m v c p, In m ms -> offer (npay (inf s cur)) (prevs reach (inf s) cur) m = Some (Some (v, c, p)) ->
           vseen (inf s') v /\ vdist (inf s') v <= vdist (inf s) cur + c)
    end.
  Proof using veqb_spec Hpush offer_pos I_offer offer_all.
    induction ms as [|m ms IH]; intros s HK Hi Hc Htop; cbn [VehicleSearch.vexpand].
    - split; [assumption|]. split; [reflexivity|]. split; [reflexivity|]. split; [intros w Hw; split; [assumption|lra]|intros m v c p []].
    - destruct (offer (npay (inf s cur)) (prevs reach (inf s) cur) m) as [[[[v c] p]|]|] eqn:Eo; cbn [obind].
      + destruct (process_K E s cur m v c p HK Hc Htop (Hi m (or_introl eq_refl)) Eo) as (s1 & E1 & HK1 & Fr & Cl & Sv & Dv & Mo).
        rewrite E1. cbn [obind].
        assert (Ec : inf s1 cur = inf s cur) by (apply Fr; assumption).
        assert (Dc : vdist (inf s1) cur = vdist (inf s) cur) by (unfold VehicleSearch.vdist; rewrite Ec; reflexivity).
        assert (Pc : prevs reach (inf s1) cur = prevs reach (inf s) cur).
        { apply prevs_frozen; [exact Fr|apply (closed_prev E s HK)|assumption]. }
        specialize (IH s1 HK1 (fun x Hx => Hi x (or_intror Hx))). rewrite Cl in IH. specialize (IH Hc). rewrite Dc, Pc, Ec in IH.
        destruct (vexpand cur ms s1) as [s2|].
        * destruct IH as (HK2 & Fr2 & Cl2 & Mo2 & Re2).
          { intros u Hu. rewrite Cl in Hu. unfold VehicleSearch.vdist. rewrite Fr by assumption. apply Htop. assumption. }
          split; [assumption|]. split; [|split; [|split]].
          -- intros u Hu. rewrite Fr2 by (rewrite Cl; assumption). apply Fr. assumption.
          -- intros u. rewrite Cl2. apply Cl.
          -- intros w Hw. destruct (Mo w Hw) as [A B]. destruct (Mo2 w A) as [A' B']. split; [assumption|lra].
          -- intros m' v' c' p' [<-|Hm'] Ho'.
             ++ rewrite Eo in Ho'. injection Ho' as <- <- <-. destruct (Mo2 v Sv) as [A B]. split; [assumption|lra].
             ++ apply (Re2 m' v' c' p' Hm' Ho').
        * apply IH. intros u Hu. rewrite Cl in Hu. unfold VehicleSearch.vdist. rewrite Fr by assumption. apply Htop. assumption.
      + specialize (IH s HK (fun x Hx => Hi x (or_intror Hx)) Hc Htop). destruct (vexpand cur ms s) as [s2|]; [|assumption].
        destruct IH as (A & B & C & D & F). split; [assumption|]. split; [assumption|]. split; [assumption|]. split; [assumption|].
        intros m' v' c' p' [<-|Hm'] Ho'; [congruence|]. apply (F m' v' c' p' Hm' Ho').
      + left. exists cur, (npay (inf s cur)), (prevs reach (inf s) cur), m.
        split; [apply (k_I _ _ HK); right; assumption|]. split; [apply Hi; left; reflexivity|assumption].
  Qed.

  (** A node that is expanded again changes nothing. *)
  Lemma expand_old (E : V -> Prop) cur s : K E s -> nclosed (inf s cur) = true -> E cur -> forall ms, incl ms moves ->
    match vexpand cur ms s with None => undefined | Some s' => s' = s end.
  Proof using Type.
    intros HK Hc HE. induction ms as [|m ms IH]; intros Hi; cbn [VehicleSearch.vexpand]; [reflexivity|].
    specialize (IH (fun x Hx => Hi x (or_intror Hx))).
    destruct (offer (npay (inf s cur)) (prevs reach (inf s) cur) m) as [[[[v c] p]|]|] eqn:Eo; cbn [obind].
    - assert (vprocess cur s (v, c, p) = Some s) as ->; [|exact IH].
      destruct (k_relax _ _ HK cur m v c p Hc HE (Hi m (or_introl eq_refl)) Eo) as [Sv Dv].
      destruct (k_dist _ _ HK v Sv) as (dv & Edv & _). rewrite (vdist_some _ _ _ Edv) in Dv.
      unfold VehicleSearch.vprocess. rewrite Edv.
      assert (Rltb (vdist (inf s) cur + c) dv = false) as ->.
      { destruct (Rltb (vdist (inf s) cur + c) dv) eqn:X; [|reflexivity]. apply Rltb_spec in X. lra. }
      destruct (nclosed (inf s v)) eqn:Ecl; [reflexivity|]. cbn [andb negb]. destruct Sv as [->|Sv]; [reflexivity|congruence].
    - exact IH.
    - left. exists cur, (npay (inf s cur)), (prevs reach (inf s) cur), m.
      split; [apply (k_I _ _ HK); right; assumption|]. split; [apply Hi; left; reflexivity|assumption].
  Qed.

  Lemma close_K s cur o : K (fun _ => True) s -> pop (vtotal (inf s)) (opn s) = Some (cur, o) ->
    let s1 := vclose s cur o in
    K (fun u => u <> cur \/ nclosed (inf s cur) = true) s1 /\ nclosed (inf s1 cur) = true /\
    (nclosed (inf s cur) = false -> forall u, nclosed (inf s1 u) = true -> vdist (inf s1) u <= vdist (inf s1) cur) /\
    (forall u, nclosed (inf s1 u) = true <-> u = cur \/ nclosed (inf s u) = true) /\ vseen (inf s) cur.
  Proof using veqb_spec Hpop tot_dist pop_least.
    intros HK Ep s1. pose proof (Hpop (vtotal (inf s)) (opn s)) as Hp. rewrite Ep in Hp. destruct Hp as (Hin & _ & Hincl & Hrest).
    assert (Least : forall w, In w (opn s) -> vdist (inf s) cur <= vdist (inf s) w).
    { intros w Hw. pose proof (pop_least _ _ _ _ Ep w Hw) as X. unfold VehicleSearch.vtotal in X. rewrite !tot_dist in X. exact X. }
    assert (Hsc : vseen (inf s) cur) by (apply (k_list _ _ HK); assumption).
    assert (Fc : inf s1 cur = VI V P (ndist (inf s cur)) (new_h V P hval goals (inf s) cur) (nprev (inf s cur)) false true (npay (inf s cur))) by apply vset_same.
    assert (Fw : forall w, w <> cur -> inf s1 w = inf s w) by (intros w Hw; apply vset_other; assumption).
    assert (Ei : forall w, ndist (inf s1 w) = ndist (inf s w) /\ nprev (inf s1 w) = nprev (inf s w) /\ npay (inf s1 w) = npay (inf s w)).
    { intros w. destruct (vdec w cur) as [->|Hne]; [rewrite Fc; auto|rewrite Fw by assumption; auto]. }
    assert (Ed : forall w, vdist (inf s1) w = vdist (inf s) w).
    { intros w. unfold VehicleSearch.vdist. destruct (Ei w) as (-> & _). reflexivity. }
    assert (Es : forall w, vseen (inf s1) w <-> vseen (inf s) w).
    { intros w. destruct (vdec w cur) as [->|Hne]; [|unfold vseen; rewrite Fw by assumption; reflexivity].
      split; [intros _; assumption|]. intros _. right. rewrite Fc. reflexivity. }
    assert (Ecl : forall u, nclosed (inf s1 u) = true <-> u = cur \/ nclosed (inf s u) = true).
    { intros u. destruct (vdec u cur) as [->|Hne]; [rewrite Fc; cbn [n_closed]; tauto|rewrite Fw by assumption; tauto]. }
    assert (Epr : forall k u, prevs k (inf s1) u = prevs k (inf s) u).
    { induction k as [|k IH]; intros u; [reflexivity|]. cbn [VehicleSearch.prevs]. destruct (Ei u) as (_ & -> & _). destruct (nprev (inf s u)) as [w|]; [|reflexivity].
      destruct (Ei w) as (_ & _ & ->). rewrite IH. reflexivity. }
    split; [|split; [rewrite Fc; reflexivity|split; [|split; [exact Ecl|exact Hsc]]]].
    - constructor.
      + intros w Hw. destruct (vdec w cur) as [->|Hne]; [rewrite Fc in Hw; discriminate|]. rewrite Fw in Hw by assumption.
        destruct (Hrest w (k_open _ _ HK w Hw)) as [X|X]; [contradiction|exact X].
      + intros w Hw. apply Es, (k_list _ _ HK), Hincl, Hw.
      + intros w Hw. apply (k_all _ _ HK), Es, Hw.
      + intros w Hw. destruct (Ei w) as (-> & -> & ->). destruct (k_start _ _ HK w Hw) as (A & B). split; [apply Es; assumption|exact B].
      + intros w Hw. destruct (Ei w) as (-> & _ & _). apply (k_dist _ _ HK), Es, Hw.
      + intros u w Hu Hw Hwc. rewrite !Ed. apply Ecl in Hu. apply Es in Hw.
        assert (Hne : w <> cur) by (intros ->; rewrite Fc in Hwc; discriminate). rewrite Fw in Hwc by assumption.
        assert (Hwo : In w (opn s)). { apply (k_open _ _ HK). destruct Hw as [Hw|Hw]; [assumption|congruence]. }
        destruct Hu as [->|Hu]; [apply Least; assumption|apply (k_front _ _ HK); assumption].
      + intros w Hw Hws. apply Es in Hw. destruct (k_prev _ _ HK w Hw Hws) as (u & m & c & A & B & D & F & G). exists u, m, c.
        destruct (Ei w) as (_ & -> & ->). destruct (Ei u) as (_ & _ & ->). rewrite !Ed, Epr.
        split; [assumption|]. split; [apply Ecl; right; assumption|]. auto.
      + intros w Hw. apply Es in Hw. destruct (k_trace _ _ HK w Hw) as (l & A & B). exists l. split.
        * clear B Hw. induction A as [x Hx|x u q Hx Ex Hq IH]; [constructor; assumption|]. apply (vt_step _ x u); [assumption| |exact IH].
          destruct (Ei x) as (_ & -> & _). assumption.
        * intros x Hx. apply Ecl. right. apply B. assumption.
      + intros w Hw. destruct (Ei w) as (_ & _ & ->). apply (k_I _ _ HK), Es, Hw.
      + intros w Hw. destruct (Ei w) as (_ & _ & ->). apply (k_fresh _ _ HK). intros X. apply Hw, Es, X.
      + intros u m v c p Hu HE Hm Ho. destruct (Ei u) as (_ & _ & X). rewrite X, Epr in Ho. rewrite !Ed.
        assert (Hu' : nclosed (inf s u) = true). { apply Ecl in Hu. destruct Hu as [->|Hu]; [|assumption]. destruct HE as [HE|HE]; [contradiction|assumption]. }
        destruct (k_relax _ _ HK u m v c p Hu' Logic.I Hm Ho) as [A B]. split; [apply Es; assumption|assumption].
    - intros Hnc u Hu. rewrite !Ed. apply Ecl in Hu. destruct Hu as [->|Hu]; [lra|]. apply (k_front _ _ HK); assumption.
  Qed.

  Lemma K_weaken (E E' : V -> Prop) s : K E s -> (forall u m v c p, nclosed (inf s u) = true -> ~ E u -> E' u -> In m moves ->
      offer (npay (inf s u)) (prevs reach (inf s) u) m = Some (Some (v, c, p)) -> vseen (inf s) v /\ vdist (inf s) v <= vdist (inf s) u + c) ->
    (forall u, E u \/ ~ E u) -> K E' s.
  Proof using Type.
    intros HK H D. destruct HK. constructor; auto. intros u m v c p Hu HE Hm Ho. destruct (D u) as [X|X]; [eapply k_relax0; eauto|eapply H; eauto].
  Qed.

  (** ** The drives of the search *)
  (** Newest node first: every node but the last in the list (a start node with its first
      contents) is what its predecessor offers. *)
  Inductive drive : list (V * P) -> R -> Prop :=
  | dr_start v : In v start -> drive [(v, pay0 v)] 0
  | dr_move v p u q l c m cost : drive ((u, q) :: l) cost -> In m moves ->
      offer q (firstn reach (map snd l)) m = Some (Some (v, c, p)) -> drive ((v, p) :: (u, q) :: l) (cost + c).

  Lemma prevs_trace f : (forall w, In w start -> nprev (f w) = None) -> forall v l, vtrace f v (v :: l) -> forall k,
    prevs k f v = firstn k (map (fun x => npay (f x)) l).
  Proof using Type.
    intros Hs v l. revert v. induction l as [|u l IH]; intros v H k.
    - inversion H as [? Hv|? u' q Hv E Hq]; subst; [|inversion Hq].
      destruct k as [|k]; [reflexivity|]. cbn [VehicleSearch.prevs map firstn]. rewrite (Hs v Hv). reflexivity.
    - inversion H as [|? u' q Hv E Hq]; subst. assert (u' = u) as -> by (inversion Hq; reflexivity).
      destruct k as [|k]; [reflexivity|]. cbn [VehicleSearch.prevs map firstn]. rewrite E, (IH u Hq k). reflexivity.
  Qed.

  Lemma trace_drive E s : K E s -> forall v l, vtrace (inf s) v (v :: l) -> vseen (inf s) v ->
    drive (vcopy V P (inf s) (v :: l)) (vdist (inf s) v).
  Proof using Type.
    intros HK v l. revert v. induction l as [|u l IH]; intros v H Hv.
    - inversion H as [? Hs|? u' q Hs Ex Hq]; subst; [|inversion Hq].
      destruct (k_start _ _ HK v Hs) as (_ & A & _ & B). cbn [vcopy map]. rewrite B, (vdist_some _ _ _ A). constructor. assumption.
    - inversion H as [|? u' q Hs Ex Hq]; subst. assert (u' = u) as -> by (inversion Hq; reflexivity).
      destruct (k_prev _ _ HK v Hv Hs) as (u' & m & c & A & B & D & F & G). rewrite Ex in A. injection A as <-.
      rewrite G. apply (dr_move v (npay (inf s v)) u (npay (inf s u)) (vcopy V P (inf s) l) c m).
      + apply IH; [assumption|right; assumption].
      + assumption.
      + rewrite (prevs_trace (inf s)) with (l := l) in F; [|intros w Hw; destruct (k_start _ _ HK w Hw) as (_ & _ & X & _); exact X|assumption].
        unfold vcopy. rewrite map_map. cbn [snd]. exact F.
  Qed.

  (** What is returned. The goal node that accepts the last state holds its first contents
      or those with which the search reached it last. *)
  Definition vgood (path : list (V * P)) : Prop :=
    exists v p l cost g gp, rev path = (v, p) :: l /\ drive ((v, p) :: l) cost /\ NoDup (map fst path) /\
      In g goals /\ isgoal gp p (hd_error (map snd l)) = Some true /\ (gp = pay0 g \/ exists l' c', drive ((g, gp) :: l') c').

  Lemma reached_spec f cur gs : vreached f cur gs = Some true ->
    exists g, In g gs /\ isgoal (npay (f g)) (npay (f cur)) (match nprev (f cur) with Some u => Some (npay (f u)) | None => None end) = Some true.
  Proof using Type.
    induction gs as [|g gs IH]; cbn [VehicleSearch.vreached]; [discriminate|].
    destruct (isgoal (npay (f g)) _ _) as [[|]|] eqn:Eg; cbn [obind]; [|intros H|discriminate].
    - intros _. exists g. split; [left; reflexivity|assumption].
    - destruct (IH H) as (g' & A & B). exists g'. split; [right; assumption|assumption].
  Qed.
  Lemma reached_none f cur gs : vreached f cur gs = None -> undefined.
  Proof using Type.
    induction gs as [|g gs IH]; cbn [VehicleSearch.vreached]; [discriminate|].
    destruct (isgoal (npay (f g)) _ _) as [[|]|] eqn:Eg; cbn [obind]; [discriminate|exact IH|].
    intros _. right. eauto.
  Qed.

  Lemma goal_return E s cur bf l : K E s -> vseen (inf s) cur -> vreached (inf s) cur goals = Some true ->
    vback bf (inf s) cur [] [] = Some l -> vgood (vcopy V P (inf s) l).
  Proof using veqb_spec.
    intros HK Hc Hr Hb. destruct (k_trace _ _ HK cur Hc) as (t & Ht & _).
    assert (Hst : forall w, In w start -> nprev (inf s w) = None) by (intros w Hw; apply (k_start _ _ HK w Hw)).
    rewrite (vback_some (inf s) cur (cur :: t)) with (fuel := bf) (l := l); [|intros w Hw; rewrite (Hst w Hw); discriminate|assumption|assumption].
    destruct (reached_spec _ _ _ Hr) as (g & Hg & Ht1).
    exists cur, (npay (inf s cur)), (vcopy V P (inf s) t), (vdist (inf s) cur), g, (npay (inf s g)).
    unfold vcopy. rewrite map_rev, rev_involutive. split; [reflexivity|].
    split; [apply (trace_drive E s HK cur t Ht Hc)|].
    split. { rewrite map_rev, map_map. cbn [fst]. rewrite map_id. apply NoDup_rev. apply (vtrace_nodup (inf s) cur). assumption. }
    split; [assumption|]. split.
    - rewrite map_map. cbn [snd]. rewrite <- Ht1. f_equal.
      pose proof (prevs_trace (inf s) Hst cur t Ht 1) as X. cbn [VehicleSearch.prevs] in X.
      destruct (nprev (inf s cur)) as [u|], t as [|x t]; cbn [map firstn hd_error] in *; congruence.
    - destruct (vseen_dec (inf s) g) as [Sg|Sg]; [right|left; apply (k_fresh _ _ HK); assumption].
      destruct (k_trace _ _ HK g Sg) as (t' & Ht' & _). exists (vcopy V P (inf s) t'), (vdist (inf s) g). apply (trace_drive E s HK g t' Ht' Sg).
  Qed.

  Lemma expand_K s cur o : K (fun _ => True) s -> pop (vtotal (inf s)) (opn s) = Some (cur, o) ->
    match vexpand cur moves (vclose s cur o) with
    | None => undefined
    | Some s2 => K (fun _ => True) s2 /\ (forall u, nclosed (inf s2 u) = true <-> u = cur \/ nclosed (inf s u) = true) /\
        (nclosed (inf s cur) = true -> opn s2 = o)
    end.
  Proof using veqb_spec Hpush Hpop offer_pos I_offer offer_all tot_dist pop_least.
    intros HK Ep. destruct (close_K s cur o HK Ep) as (HK1 & Hc & Htop & Hcl & _).
    destruct (nclosed (inf s cur)) eqn:Eold.
    - pose proof (expand_old _ cur (vclose s cur o) HK1 Hc (or_intror eq_refl) moves (incl_refl _)) as X.
      destruct (vexpand cur moves (vclose s cur o)) as [s2|]; [|exact X]. subst s2.
      split; [|split; [exact Hcl|reflexivity]]. apply (K_weaken _ _ _ HK1); [intros u m v c p _ H; exfalso; apply H; right; reflexivity|intros u; left; right; reflexivity].
    - pose proof (expand_new _ cur moves (vclose s cur o) HK1 (incl_refl _) Hc (Htop eq_refl)) as X.
      destruct (vexpand cur moves (vclose s cur o)) as [s2|]; [|exact X]. destruct X as (HK2 & Fr & Cl & Mo & Re).
      split; [|split; [intros u; rewrite Cl; apply Hcl|discriminate]].
      apply (K_weaken _ _ _ HK2).
      + intros u m v c p Hu HE _ Hm Ho.
        assert (u = cur) as -> by (destruct (vdec u cur) as [|H]; [assumption|exfalso; apply HE; left; assumption]).
        assert (Dc : vdist (inf s2) cur = vdist (inf (vclose s cur o)) cur) by (unfold VehicleSearch.vdist; rewrite Fr by assumption; reflexivity).
        rewrite Dc. rewrite Fr in Ho by assumption.
        rewrite (prevs_frozen (inf (vclose s cur o)) (inf s2) Fr (closed_prev _ _ HK1)) in Ho by assumption.
        apply (Re m v c p Hm Ho).
      + intros u. destruct (vdec u cur) as [->|H]; [right; intros [X|X]; [contradiction|discriminate]|left; left; assumption].
  Qed.

  Lemma loop_valid timeout bf : forall fuel n s path s', K (fun _ => True) s ->
    vloop timeout bf fuel n s = (VPath V P path, s') -> path = [] \/ vgood path.
  Proof using veqb_spec Hpush Hpop offer_pos I_offer offer_all tot_dist pop_least.
    induction fuel as [|k IH]; intros n s path s' HK E; [discriminate|]. cbn [VehicleSearch.vloop] in E.
    destruct (opn s) as [|w0 l0] eqn:Eo; [injection E as <- _; left; reflexivity|]. rewrite <- Eo in E.
    destruct (timeout n); [injection E as <- _; left; reflexivity|].
    destruct (pop (vtotal (inf s)) (opn s)) as [[cur o]|] eqn:Ep; [|discriminate].
    destruct (close_K s cur o HK Ep) as (HK1 & Hc & _). cbv zeta in E.
    destruct (vreached (inf (vclose s cur o)) cur goals) as [[|]|] eqn:Er; [| |discriminate].
    - destruct (vback bf (inf (vclose s cur o)) cur [] []) as [l|] eqn:Eb; [|discriminate]. injection E as <- _. right.
      apply (goal_return _ _ cur bf l HK1); [right; assumption|assumption|assumption].
    - pose proof (expand_K s cur o HK Ep) as X. destruct (vexpand cur moves (vclose s cur o)) as [s2|]; [|discriminate].
      destruct X as (HK2 & _). apply (IH (S n) s2 path s' HK2 E).
  Qed.

  Definition unclosed (s : vstate) : nat := length (filter (fun v => negb (nclosed (inf s v))) all).

  Lemma filter_lt (f g : V -> bool) x l : (forall v, g v = true -> f v = true) -> In x l -> f x = true -> g x = false ->
    (length (filter g l) < length (filter f l))%nat.
  Proof using Type.
    clear. intros Hfg Hx Hf Hg. induction l as [|y l IH]; [destruct Hx|]. cbn [filter].
    assert (L : (length (filter g l) <= length (filter f l))%nat).
    { clear - Hfg. induction l as [|z l IH]; [reflexivity|]. cbn [filter]. destruct (g z) eqn:Eg; [rewrite (Hfg z Eg); cbn [length]; lia|].
      destruct (f z); cbn [length]; lia. }
    destruct Hx as [->|Hx].
    - rewrite Hf, Hg. cbn [length]. lia.
    - specialize (IH Hx). destruct (g y) eqn:Eg; [rewrite (Hfg y Eg); cbn [length]; lia|]. destruct (f y); cbn [length]; lia.
  Qed.

  Lemma loop_ends timeout bf : (length all <= bf)%nat -> forall N L s n, (unclosed s <= N)%nat -> (length (opn s) <= L)%nat -> K (fun _ => True) s ->
    exists fuel, (exists path, fst (vloop timeout bf fuel n s) = VPath V P path) \/ (fst (vloop timeout bf fuel n s) = VUndef V P /\ undefined).
  Proof using veqb_spec Hpush Hpop offer_pos I_offer offer_all tot_dist pop_least.
    intros Hbf. induction N as [N IHN] using (well_founded_ind lt_wf). induction L as [L IHL] using (well_founded_ind lt_wf).
    intros s n HN HL HK.
    destruct (opn s) as [|w0 l0] eqn:Eo.
    { exists 1%nat. left. exists []. cbn [VehicleSearch.vloop]. rewrite Eo. reflexivity. }
    destruct (timeout n) eqn:Et.
    { exists 1%nat. left. exists []. cbn [VehicleSearch.vloop]. rewrite Eo, Et. reflexivity. }
    pose proof (Hpop (vtotal (inf s)) (opn s)) as Hp.
    destruct (pop (vtotal (inf s)) (opn s)) as [[cur o]|] eqn:Ep; [|congruence]. destruct Hp as (_ & Hlen & _).
    destruct (close_K s cur o HK Ep) as (HK1 & Hc & _ & _ & Hsc).
    destruct (vreached (inf (vclose s cur o)) cur goals) as [[|]|] eqn:Er.
    - destruct (k_trace _ _ HK1 cur (or_intror Hc)) as (t & Ht & Htc).
      assert (Hb : vback bf (inf (vclose s cur o)) cur [] [] = Some (rev (cur :: t) ++ [])).
      { apply vback_trace; [|assumption| |intros x _ []].
        - intros w Hw. destruct (k_start _ _ HK1 w Hw) as (_ & _ & X & _). rewrite X. discriminate.
        - etransitivity; [|exact Hbf]. apply NoDup_incl_length; [apply (vtrace_nodup _ _ _ Ht)|]. intros x [<-|Hx]; apply (k_all _ _ HK1); right; auto. }
      exists 1%nat. left. eexists. cbn [VehicleSearch.vloop]. rewrite Eo, Et, <- Eo, Ep, Er, Hb. reflexivity.
    - pose proof (expand_K s cur o HK Ep) as X. destruct (vexpand cur moves (vclose s cur o)) as [s2|] eqn:Ex.
      2:{ exists 1%nat. right. cbn [VehicleSearch.vloop]. rewrite Eo, Et, <- Eo, Ep, Er, Ex. split; [reflexivity|assumption]. }
      destruct X as (HK2 & Hcl2 & Hold).
      assert (Y : exists fuel, (exists path, fst (vloop timeout bf fuel (S n) s2) = VPath V P path) \/ (fst (vloop timeout bf fuel (S n) s2) = VUndef V P /\ undefined)).
      { destruct (nclosed (inf s cur)) eqn:Eold.
        - assert (Hu : (unclosed s2 <= N)%nat).
          { etransitivity; [|exact HN]. unfold unclosed. apply Nat.eq_le_incl. f_equal. apply filter_ext. intros v. f_equal.
            destruct (nclosed (inf s v)) eqn:E1; [apply Hcl2; right; assumption|]. destruct (nclosed (inf s2 v)) eqn:E2; [|reflexivity].
            apply Hcl2 in E2. destruct E2 as [->|E2]; congruence. }
          apply (IHL (length (opn s2))); [|exact Hu|apply Nat.le_refl|exact HK2].
          rewrite (Hold eq_refl). rewrite Eo in Hlen. cbn [length] in Hlen, HL. eapply Nat.lt_le_trans; [exact Hlen|exact HL].
        - assert (Hu : (unclosed s2 < unclosed s)%nat).
          { unfold unclosed. apply (filter_lt _ _ cur).
            - intros v Hv. destruct (nclosed (inf s v)) eqn:E1; [|reflexivity]. assert (nclosed (inf s2 v) = true) as E2 by (apply Hcl2; right; assumption). rewrite E2 in Hv. discriminate.
            - apply (k_all _ _ HK). assumption.
            - rewrite Eold. reflexivity.
            - assert (nclosed (inf s2 cur) = true) as -> by (apply Hcl2; left; reflexivity). reflexivity. }
          apply (IHN (unclosed s2)) with (L := length (opn s2)); [eapply Nat.lt_le_trans; [exact Hu|exact HN]|apply Nat.le_refl|apply Nat.le_refl|exact HK2]. }
      destruct Y as (fuel & Y). exists (S fuel). cbn [VehicleSearch.vloop]. rewrite Eo, Et, <- Eo, Ep, Er, Ex. exact Y.
    - exists 1%nat. right. cbn [VehicleSearch.vloop]. rewrite Eo, Et, <- Eo, Ep, Er. split; [reflexivity|]. apply (reached_none _ _ _ Er).
  Qed.

  (** The state after initStartPose on fresh nodes. *)
  Lemma starts_spec l : forall s,
    (forall v, In v (opn (vstarts l s)) <-> In v (opn s) \/ In v l) /\
    (forall v, ~ In v l -> inf (vstarts l s) v = inf s v) /\
    (forall v, In v l -> exists h, inf (vstarts l s) v = VI V P (Some 0) h (nprev (inf s v)) true (nclosed (inf s v)) (npay (inf s v))).
  Proof using veqb_spec Hpush.
    induction l as [|x l IH]; intros s; cbn [VehicleSearch.vstarts].
    - split; [intros v; cbn [In]; tauto|]. split; [reflexivity|intros v []].
    - match goal with |- context [vstarts l ?s0] => set (s1 := s0) end. destruct (IH s1) as (A & B & D).
      assert (Fx : inf s1 x = VI V P (Some 0) (n_h V P (inf s x)) (nprev (inf s x)) true (nclosed (inf s x)) (npay (inf s x))) by apply vset_same.
      assert (Fw : forall w, w <> x -> inf s1 w = inf s w) by (intros w Hw; apply vset_other; assumption).
      split; [|split].
      + intros v. rewrite A. cbn [In]. unfold s1 at 1. cbn [v_open]. rewrite (proj2 (Hpush _ _ _)). intuition congruence.
      + intros v Hv. rewrite B by (intros X; apply Hv; right; assumption). apply Fw. intros ->. apply Hv. left. reflexivity.
      + intros v Hv. destruct (in_dec vdec v l) as [Hl|Hl].
        * destruct (D v Hl) as (h & Eh). exists h. rewrite Eh. destruct (vdec v x) as [->|Hne]; [rewrite Fx; reflexivity|rewrite Fw by assumption; reflexivity].
        * destruct Hv as [<-|Hv]; [|contradiction]. rewrite B by assumption. exists (n_h V P (inf s x)). exact Fx.
  Qed.

  Lemma start_K : K (fun _ => True) (vstarts start (VS V P (vfresh V P pay0) [])).
  Proof using veqb_spec Hpush I_start start_all.
    destruct (starts_spec start (VS V P (vfresh V P pay0) [])) as (A & B & D). cbn [v_open v_info] in *.
    set (s := vstarts start (VS V P (vfresh V P pay0) [])) in *.
    assert (Hs : forall v, vseen (inf s) v <-> In v start).
    { intros v. destruct (in_dec vdec v start) as [H|H].
      - destruct (D v H) as (h & E). split; [intros _; assumption|]. intros _. left. rewrite E. reflexivity.
      - split; [|contradiction]. unfold vseen. rewrite (B v H). unfold vfresh. cbn. intros [X|X]; discriminate. }
    assert (Hcl : forall v, nclosed (inf s v) = false).
    { intros v. destruct (in_dec vdec v start) as [H|H]; [destruct (D v H) as (h & ->)|rewrite (B v H)]; reflexivity. }
    constructor.
    - intros v Hv. apply A. right. apply Hs. left. assumption.
    - intros v Hv. apply A in Hv. destruct Hv as [[]|Hv]. apply Hs. assumption.
    - intros v Hv. apply start_all, Hs, Hv.
    - intros v Hv. destruct (D v Hv) as (h & E). rewrite E. split; [apply Hs; assumption|]. auto.
    - intros v Hv. apply Hs in Hv. destruct (D v Hv) as (h & ->). exists 0. split; [reflexivity|lra].
    - intros u v Hu. rewrite Hcl in Hu. discriminate.
    - intros v Hv Hn. apply Hs in Hv. contradiction.
    - intros v Hv. apply Hs in Hv. exists []. split; [constructor; assumption|intros x []].
    - intros v Hv. apply Hs in Hv. destruct (D v Hv) as (h & ->). cbn [n_pay]. apply I_start. assumption.
    - intros v Hv. rewrite B by (intros X; apply Hv, Hs, X). reflexivity.
    - intros u m v c p Hu. rewrite Hcl in Hu. discriminate.
  Qed.

  Lemma run_valid timeout bf fuel path s' : vrun timeout bf fuel pay0 = (VPath V P path, s') -> path = [] \/ vgood path.
  Proof using veqb_spec Hpush Hpop offer_pos I_offer offer_all tot_dist pop_least I_start start_all.
    apply loop_valid. apply start_K.
  Qed.
  Lemma run_ends timeout bf : (length all <= bf)%nat ->
    exists fuel, (exists path, fst (vrun timeout bf fuel pay0) = VPath V P path) \/ (fst (vrun timeout bf fuel pay0) = VUndef V P /\ undefined).
  Proof using veqb_spec Hpush Hpop offer_pos I_offer offer_all tot_dist pop_least I_start start_all.
    intros Hbf. apply (loop_ends timeout bf Hbf _ _ _ 0%nat (Nat.le_refl _) (Nat.le_refl _) start_K).
  Qed.
End Proofs.
