(** The second search of a vehicle search object from the same pose: the nodes around the
    start are closed at their distance already. *)
From Coq Require Import Reals Lra Permutation.
From Verif Require Import Base GeomR GenericProofs VehicleSearch VehicleProofs VehicleTest VehicleTestProofs.
Local Open Scope R_scope.

Section Again.
  Context {V P M : Type}.
  Variable veqb : V -> V -> bool.
  Hypothesis veqb_spec : forall a b, reflect (a = b) (veqb a b).
  Variable moves : list M.
  Variable reach : nat.
  Variable offer : P -> list P -> M -> option (option (V * R * P)).
  Variable hval : P -> P -> R.
  Variable tot : R -> R -> R.
  Variable push : (V -> R) -> V -> list V -> list V.
  Variable pop : (V -> R) -> list V -> option (V * list V).
  Hypothesis Hpush : push_ok push.
  Hypothesis Hpop : pop_ok pop.
  Hypothesis offer_pos : forall q qs m v c p, offer q qs m = Some (Some (v, c, p)) -> 0 < c.
  (** Every node at a positive distance costs more than the start. *)
  Hypothesis tot_far : forall d a b, 0 < d -> tot 0 0 < tot d 0 /\ tot 0 0 < tot d (hval a b).
  Hypothesis pop_least : forall f l v r, pop f l = Some (v, r) -> forall w, In w l -> f v <= f w.
  Variable start : list V.
  Variable ps : V -> P.
  Variable queue : list (V * R) -> list (V * R).
  Hypothesis Hqueue : forall l, Permutation l (queue l).

  Notation vinfo := (vinfo V P).
  Notation vstate := (vstate V P).
  Notation inf := (v_info V P).
  Notation opn := (v_open V P).
  Notation ndist := (n_dist V P).
  Notation nh := (n_h V P).
  Notation nprev := (n_prev V P).
  Notation nopen := (n_open V P).
  Notation nclosed := (n_closed V P).
  Notation npay := (n_pay V P).
  Notation vset := (vset V P veqb).
  Notation vdist := (vdist V P).
  Notation vtotal := (vtotal V P tot).
  Notation prevs := (prevs V P).
  Notation vseen := (vseen (V := V) (P := P)).
  Notation vset_same := (vset_same veqb veqb_spec).
  Notation vset_other := (vset_other veqb veqb_spec).

  (** Every neighbour of the start node is known at its distance. *)
  Definition known (f : V -> vinfo) (r : option (V * R * P)) : Prop :=
    match r with None => True | Some (w, c, _) => exists d, ndist (f w) = Some d /\ d <= c /\ vseen f w end.
  Definition done (f : V -> vinfo) (ms : list M) (v : V) : Prop :=
    forall m, In m ms -> exists r, offer (ps v) [] m = Some r /\ known f r.
  Definition steady (f : V -> vinfo) : Prop :=
    (forall v, In v start -> ndist (f v) = Some 0 /\ nprev (f v) = None /\ npay (f v) = ps v /\ vseen f v) /\
    (forall w d, ndist (f w) = Some d -> 0 <= d /\ (~ In w start -> 0 < d) /\ vseen f w).
  Definition all_done (f : V -> vinfo) : Prop := forall v, In v start -> done f moves v.
  (** [f'] knows more. *)
  Definition lower (f f' : V -> vinfo) : Prop :=
    forall w, (forall d, ndist (f w) = Some d -> exists d', ndist (f' w) = Some d' /\ d' <= d) /\ (vseen f w -> vseen f' w).
  Lemma lower_refl f : lower f f.
  Proof using Type. intros w. split; [|auto]. intros d E. exists d. split; [assumption|lra]. Qed.
  Lemma lower_trans f g h : lower f g -> lower g h -> lower f h.
  Proof using Type.
    intros A B w. destruct (A w) as [A1 A2], (B w) as [B1 B2]. split; [|auto]. intros d E. destruct (A1 d E) as (d1 & E1 & L1).
    destruct (B1 d1 E1) as (d2 & E2 & L2). exists d2. split; [assumption|lra].
  Qed.
  Lemma known_lower f f' r : lower f f' -> known f r -> known f' r.
  Proof using Type.
    destruct r as [[[w c] p]|]; [|auto]. intros H (d & E & L & S). destruct (H w) as [A B]. destruct (A d E) as (d' & E' & L').
    exists d'. split; [assumption|]. split; [lra|auto].
  Qed.
  Lemma done_lower f f' ms v : lower f f' -> done f ms v -> done f' ms v.
  Proof using Type. intros H D m Hm. destruct (D m Hm) as (r & E & K). exists r. split; [assumption|]. eapply known_lower; eassumption. Qed.
  Lemma all_lower f f' : lower f f' -> all_done f -> all_done f'.
  Proof using Type. intros H A v Hv. eapply done_lower; [exact H|apply A; assumption]. Qed.

  Lemma vdist_nonneg f v : steady f -> 0 <= vdist f v.
  Proof using Type. intros [_ H]. unfold VehicleSearch.vdist. destruct (ndist (f v)) as [d|] eqn:E; [apply (H v d E)|lra]. Qed.
  Lemma vdist_start f v : steady f -> In v start -> vdist f v = 0.
  Proof using Type. intros [H _] Hv. unfold VehicleSearch.vdist. rewrite (proj1 (H v Hv)). reflexivity. Qed.

  Section Search.
  Variable goals : list V.
  Variable hgoal : option P.
  Notation vprocess := (vprocess V P veqb hval tot push goals).
  Notation vexpand := (vexpand V P M veqb reach offer hval tot push goals).
  Notation wclose := (wclose V P veqb hval goals hgoal).

  (** *** The first search *)
  Definition heur (h : R) : Prop := h = 0 \/ exists a b, h = hval a b.
  Record Q (x : list V) (s : vstate) : Prop := {
    q_h : forall w, heur (nh (inf s w));
    q_steady : steady (inf s);
    q_open : forall w, In w (opn s) -> ndist (inf s w) <> None;
    q_done : forall v, In v start -> (In v (opn s) /\ nh (inf s v) = 0) \/ done (inf s) moves v \/ In v x }.

  Lemma process_Q x cur s v c p s' : Q x s -> 0 < c -> vprocess cur s (v, c, p) = Some s' ->
    Q x s' /\ lower (inf s) (inf s') /\ vdist (inf s') cur = vdist (inf s) cur /\
    exists d, ndist (inf s' v) = Some d /\ d <= vdist (inf s) cur + c /\ vseen (inf s') v.
  Proof using veqb_spec Hpush.
    intros HQ Hc. pose proof (vdist_nonneg _ cur (q_steady _ _ HQ)) as Hn. unfold VehicleSearch.vprocess. set (n := inf s v).
    set (d := vdist (inf s) cur + c). set (closer := match ndist n with None => true | Some d' => Rltb d d' end).
    assert (Hstart : In v start -> closer = false).
    { intros Hv. destruct (q_steady _ _ HQ) as [A _]. unfold closer, n. rewrite (proj1 (A v Hv)). apply Rltb_false. unfold d. lra. }
    assert (Hold : closer = false -> nopen n = true \/ nclosed n = true -> Q x s /\ lower (inf s) (inf s) /\ vdist (inf s) cur = vdist (inf s) cur /\ exists d0, ndist (inf s v) = Some d0 /\ d0 <= d /\ vseen (inf s) v).
    { intros E S. split; [assumption|]. split; [apply lower_refl|]. split; [reflexivity|]. unfold closer in E. destruct (ndist n) as [d0|] eqn:E0; [|discriminate].
      exists d0. split; [exact E0|]. split; [apply Rltb_false in E; lra|exact S]. }
    destruct (nclosed n && negb closer) eqn:E1.
    { intros H. injection H as <-. apply andb_true_iff in E1. destruct E1 as [A B]. apply Hold; [destruct closer; [discriminate|reflexivity]|right; assumption]. }
    destruct (negb (nopen n) || closer) eqn:E2.
    2:{ intros H. injection H as <-. apply orb_false_iff in E2. destruct E2 as [A B]. apply Hold; [assumption|left; destruct (nopen n); [reflexivity|discriminate]]. }
    assert (Hns : ~ In v start).
    { intros Hv. pose proof (Hstart Hv) as E. rewrite E in E1, E2. cbn [negb] in E1. rewrite andb_true_r in E1. rewrite orb_false_r in E2.
      destruct (q_steady _ _ HQ) as [A _]. destruct (A v Hv) as (_ & _ & _ & [S|S]); fold n in S; rewrite S in *; discriminate. }
    destruct (veqb_spec v cur) as [_|Hvc]; [discriminate|]. intros H. injection H as <-. cbn [v_info v_open].
    set (nn := VI V P (Some d) _ (Some cur) true (nclosed n) p). match goal with |- context [vset (vset (inf s) v ?a) v nn] => set (na := a) end.
    set (f := vset (vset (inf s) v na) v nn).
    assert (Fv : f v = nn) by (unfold f; apply vset_same).
    assert (Fw : forall w, w <> v -> f w = inf s w) by (intros w Hw; unfold f; rewrite !vset_other by assumption; reflexivity).
    assert (Hlow : lower (inf s) f).
    { intros w. destruct (vdec veqb veqb_spec w v) as [->|Hw]; [|rewrite Fw by assumption; split; [intros d1 E; exists d1; split; [assumption|lra]|unfold VehicleProofs.vseen; rewrite Fw by assumption; auto]].
      unfold VehicleProofs.vseen. rewrite Fv. split; [|intros _; left; reflexivity]. intros d1 E. exists d. split; [reflexivity|].
      assert (S : nopen n = true \/ nclosed n = true) by (apply (proj2 (q_steady _ _ HQ) v d1 E)).
      assert (Ecl : closer = Rltb d d1) by (unfold closer, n; rewrite E; reflexivity).
      destruct (Rltb d d1) eqn:El; [apply Rltb_spec in El; lra|]. exfalso. rewrite Ecl in E1, E2. cbn [negb] in E1. rewrite andb_true_r in E1. rewrite orb_false_r in E2.
      destruct S as [S|S]; rewrite S in *; discriminate. }
    assert (Hd : 0 < d) by (unfold d; lra).
    split; [|split; [exact Hlow|split; [unfold VehicleSearch.vdist; rewrite Fw by congruence; reflexivity|]]].
    - constructor; cbn [v_info v_open].
      + intros w. destruct (vdec veqb veqb_spec w v) as [->|Hw]; [|rewrite Fw by assumption; apply (q_h _ _ HQ)].
        rewrite Fv. unfold nn. cbn [VehicleSearch.n_h]. unfold VehicleSearch.new_h. destruct goals as [|g gs]; [apply (q_h _ _ HQ)|right; eauto].
      + destruct (q_steady _ _ HQ) as [A B]. split.
        * intros w Hw. unfold VehicleProofs.vseen. rewrite Fw by (intros ->; contradiction). apply A. assumption.
        * intros w d1. unfold VehicleProofs.vseen. destruct (vdec veqb veqb_spec w v) as [->|Hw]; [|rewrite Fw by assumption; apply B].
          rewrite Fv. intros E. injection E as <-. split; [lra|]. split; [intros _; exact Hd|left; reflexivity].
      + intros w Hw. apply (proj2 (Hpush _ _ _)) in Hw. destruct (vdec veqb veqb_spec w v) as [->|Hn2]; [rewrite Fv; discriminate|].
        rewrite Fw by assumption. destruct Hw as [->|Hw]; [contradiction|]. apply (q_open _ _ HQ). assumption.
      + intros w Hw. destruct (q_done _ _ HQ w Hw) as [[X X2]|[X|X]]; [left; split; [apply (proj2 (Hpush _ _ _)); right; assumption|rewrite Fw by (intros ->; contradiction); exact X2]|right; left; eapply done_lower; eassumption|right; right; assumption].
    - exists d. rewrite Fv. split; [reflexivity|]. split; [unfold d; lra|]. unfold VehicleProofs.vseen. rewrite Fv. left. reflexivity.
  Qed.

  Lemma expand_Q x cur : forall ms s s', Q x s -> vexpand cur ms s = Some s' ->
    Q x s' /\ lower (inf s) (inf s') /\ (In cur start -> done (inf s') ms cur).
  Proof using veqb_spec Hpush offer_pos.
    induction ms as [|m ms IH]; intros s s' HQ H; cbn [VehicleSearch.vexpand] in H.
    { injection H as <-. split; [assumption|]. split; [apply lower_refl|]. intros _ m []. }
    destruct (offer (npay (inf s cur)) (prevs reach (inf s) cur) m) as [o|] eqn:Eo; [|discriminate]. cbn [obind] in H.
    assert (Hst : In cur start -> offer (ps cur) [] m = Some o).
    { intros Hc. destruct (proj1 (q_steady _ _ HQ) cur Hc) as (_ & A & B & _). rewrite <- Eo, B. f_equal. destruct reach; cbn [VehicleSearch.prevs]; [reflexivity|]. rewrite A. reflexivity. }
    destruct o as [[[v c] p]|].
    - destruct (vprocess cur s (v, c, p)) as [s1|] eqn:Ep; [|discriminate]. cbn [obind] in H.
      destruct (process_Q x cur s v c p s1 HQ (offer_pos _ _ _ _ _ _ Eo) Ep) as (HQ1 & L1 & Ed & K).
      destruct (IH s1 s' HQ1 H) as (HQ2 & L2 & D). split; [assumption|]. split; [eapply lower_trans; eassumption|].
      intros Hc m' [<-|Hm']; [|apply D; assumption]. exists (Some (v, c, p)). split; [apply Hst; assumption|].
      apply (known_lower (inf s1)); [assumption|]. destruct K as (d & E & L & S). rewrite (vdist_start _ _ (q_steady _ _ HQ) Hc) in L. exists d. split; [assumption|]. split; [lra|assumption].
    - destruct (IH s s' HQ H) as (HQ2 & L2 & D). split; [assumption|]. split; [assumption|].
      intros Hc m' [<-|Hm']; [|apply D; assumption]. exists None. split; [apply Hst; assumption|exact Logic.I].
  Qed.

  Lemma close_info s cur o : forall w, ndist (inf (wclose s cur o) w) = ndist (inf s w) /\ nprev (inf (wclose s cur o) w) = nprev (inf s w) /\
    npay (inf (wclose s cur o) w) = npay (inf s w) /\ (vseen (inf s) w -> vseen (inf (wclose s cur o)) w).
  Proof using veqb_spec.
    intros w. unfold VehicleTest.wclose, VehicleProofs.vseen. cbn [v_info]. destruct (vdec veqb veqb_spec w cur) as [->|Hw].
    - rewrite vset_same. cbn. auto.
    - rewrite vset_other by assumption. auto.
  Qed.
  Lemma close_lower s cur o : lower (inf s) (inf (wclose s cur o)).
  Proof using veqb_spec. intros w. destruct (close_info s cur o w) as (A & _ & _ & S). split; [|assumption]. intros d E. exists d. rewrite A. split; [assumption|lra]. Qed.
  Lemma close_steady s cur o : steady (inf s) -> steady (inf (wclose s cur o)).
  Proof using veqb_spec.
    intros [A B]. split.
    - intros v Hv. destruct (close_info s cur o v) as (E1 & E2 & E3 & E4). rewrite E1, E2, E3. destruct (A v Hv) as (X & Y & Z & W). auto.
    - intros w d. destruct (close_info s cur o w) as (E1 & _ & _ & E4). rewrite E1. intros E. destruct (B w d E) as (X & Y & Z). auto.
  Qed.

  Lemma close_Q s cur o : Q [] s -> pop (vtotal (inf s)) (opn s) = Some (cur, o) ->
    Q [cur] (wclose s cur o) /\ (~ In cur start -> all_done (inf (wclose s cur o))).
  Proof using veqb_spec Hpop tot_far pop_least.
    intros HQ Ep. pose proof (Hpop (vtotal (inf s)) (opn s)) as Hp. rewrite Ep in Hp. destruct Hp as (Hin & _ & Hincl & Hcase). split.
    - constructor.
      + intros w. unfold VehicleTest.wclose. cbn [v_info]. destruct (vdec veqb veqb_spec w cur) as [->|Hw]; [|rewrite vset_other by assumption; apply (q_h _ _ HQ)].
        rewrite vset_same. cbn [VehicleSearch.n_h]. unfold hclose. destruct goals as [|g gs]; [destruct hgoal as [g|]; [right; eauto|apply (q_h _ _ HQ)]|right; eauto].
      + apply close_steady, HQ.
      + intros w Hw. rewrite (proj1 (close_info s cur o w)). apply (q_open _ _ HQ), Hincl, Hw.
      + intros v Hv. destruct (q_done _ _ HQ v Hv) as [[X X2]|[X|[]]]; [|right; left; eapply done_lower; [apply close_lower|exact X]].
        destruct (vdec veqb veqb_spec v cur) as [->|Nv]; [right; right; left; reflexivity|].
        destruct (Hcase v X) as [E|Y]; [contradiction|]. left. split; [exact Y|]. unfold VehicleTest.wclose. cbn [v_info]. rewrite vset_other by assumption. exact X2.
    - intros Hn v Hv. apply (done_lower (inf s)); [apply close_lower|]. destruct (q_done _ _ HQ v Hv) as [[X X2]|[X|[]]]; [|assumption]. exfalso.
      pose proof (pop_least _ _ _ _ Ep v X) as L. unfold VehicleSearch.vtotal in L. rewrite X2, (vdist_start _ _ (q_steady _ _ HQ) Hv) in L.
      pose proof (q_open _ _ HQ cur Hin) as E. unfold VehicleSearch.vdist in L. destruct (ndist (inf s cur)) as [d|] eqn:Ed; [|congruence].
      pose proof (proj1 (proj2 (proj2 (q_steady _ _ HQ) cur d Ed)) Hn) as Hd. destruct (q_h _ _ HQ cur) as [E0|(a & b & E0)]; rewrite E0 in L.
      + pose proof (proj1 (tot_far d (npay (inf s cur)) (npay (inf s cur)) Hd)). lra.
      + pose proof (proj2 (tot_far d a b Hd)). lra.
  Qed.

  Variable T : Type.
  Variable term : T -> (V -> vinfo) -> V -> option (T * list R * vanswer).
  Variable osd : R.
  Variable timeout : nat -> bool.
  Variable bf : nat.
  Notation wstate := (wstate V P).
  Notation ws_s := (ws_s V P).
  Notation ws_cand := (ws_cand V P).
  Notation wadd := (wadd V P tot).
  Notation wfinish := (wfinish V P veqb start queue bf).
  Notation wloop := (wloop V P M T veqb moves reach offer hval tot push pop start goals hgoal osd queue term timeout bf).

  Lemma wadd_s cur : forall l ws, ws_s (wadd ws cur l) = ws_s ws.
  Proof using Type. induction l as [|c l IH]; intros ws; [reflexivity|]. cbn [VehicleTest.wadd]. rewrite IH. reflexivity. Qed.
  Lemma wadd_cand cur : forall l ws, ws_cand (wadd ws cur l) = ws_cand ws ++ map (fun c => (cur, c)) l.
  Proof using Type.
    induction l as [|c l IH]; intros ws; [cbn; rewrite app_nil_r; reflexivity|]. cbn [VehicleTest.wadd map]. rewrite IH. cbn [VehicleTest.ws_cand]. rewrite <- app_assoc. reflexivity.
  Qed.

  (** Once a node beyond the start has been looked at, the neighbours of the start are
      known. *)
  Lemma first_loop : forall fuel n t ws r ws' log, Q [] (ws_s ws) -> wloop fuel n t ws = (r, ws', log) ->
    steady (inf (ws_s ws')) /\ (all_done (inf (ws_s ws)) \/ (exists e, In e log /\ ~ In (wc_node V P e) start) -> all_done (inf (ws_s ws'))).
  Proof using veqb_spec Hpush Hpop offer_pos tot_far pop_least.
    induction fuel as [|k IH]; intros n t ws r ws' log HQ; cbn [VehicleTest.wloop].
    { intros H. injection H as <- <- <-. split; [apply HQ|]. intros [X|(e & [] & _)]. assumption. }
    destruct (opn (ws_s ws)) as [|v0 o0] eqn:Eo.
    { intros H. injection H as <- <- <-. split; [apply HQ|]. intros [X|(e & [] & _)]. assumption. }
    destruct (timeout n).
    { intros H. injection H as <- <- <-. split; [apply HQ|]. intros [X|(e & [] & _)]. assumption. }
    rewrite <- Eo. destruct (pop (vtotal (inf (ws_s ws))) (opn (ws_s ws))) as [[cur o]|] eqn:Ep.
    2:{ intros H. injection H as <- <- <-. split; [apply HQ|]. intros [X|(e & [] & _)]. assumption. }
    destruct (close_Q _ _ _ HQ Ep) as [HQ1 Hfar]. pose proof (close_lower (ws_s ws) cur o) as HL1. cbv zeta. set (s1 := wclose (ws_s ws) cur o) in *.
    assert (Hone : forall e, wc_node V P e = cur -> all_done (inf (ws_s ws)) \/ (exists e', In e' [e] /\ ~ In (wc_node V P e') start) -> all_done (inf s1)).
    { intros e Ee [X|(e' & [<-|[]] & X)]; [eapply all_lower; eassumption|]. apply Hfar. rewrite <- Ee. assumption. }
    destruct (term t (inf s1) cur) as [[[t' cs] ans]|].
    2:{ intros H. injection H as <- <- <-. cbn [VehicleTest.ws_s]. split; [apply HQ1|]. intros [X|(e & [] & _)]. eapply all_lower; eassumption. }
    set (ws2 := wadd _ cur cs). assert (E2 : ws_s ws2 = s1) by (unfold ws2; rewrite wadd_s; reflexivity).
    set (ev := WC V P cur _ _ cs ans).
    destruct ans.
    - destruct (wover _ _ _ _ _ _).
      { intros H. injection H as <- <- <-. rewrite E2. split; [apply HQ1|]. apply Hone. reflexivity. }
      destruct (vexpand cur moves s1) as [s2|] eqn:Ex.
      2:{ intros H. injection H as <- <- <-. rewrite E2. split; [apply HQ1|]. apply Hone. reflexivity. }
      destruct (expand_Q [cur] cur moves s1 s2 HQ1 Ex) as (HQ2 & HL2 & Hd).
      assert (HQ3 : Q [] s2).
      { constructor; [apply HQ2|apply HQ2|apply HQ2|]. intros v Hv. destruct (q_done _ _ HQ2 v Hv) as [X|[X|[->|[]]]]; auto. }
      destruct (wloop k (S n) t' _) as [[r0 w0] l0] eqn:El. intros H. injection H as <- <- <-.
      destruct (IH _ _ (WS V P s2 (ws_cand ws2) (ws_first V P ws2)) _ _ _ HQ3 El) as [A B]. split; [exact A|]. intros X. apply B. destruct X as [X|(e & [<-|He] & X)].
      + left. eapply all_lower; [|exact X]. eapply lower_trans; eassumption.
      + left. eapply all_lower; [exact HL2|]. apply Hfar. exact X.
      + right. eauto.
    - intros H. injection H as <- <- <-. rewrite E2. split; [apply HQ1|]. apply Hone. reflexivity.
    - destruct (vback _ _ _ _ _ _ _ _ _) as [[|a l]|]; intros H; injection H as <- <- <-; rewrite E2; (split; [apply HQ1|]; apply Hone; reflexivity).
  Qed.

  (** *** Later searches *)
  Lemma again_expand s cur : steady (inf s) -> all_done (inf s) -> In cur start -> forall ms, incl ms moves -> vexpand cur ms s = Some s.
  Proof using veqb_spec.
    intros HS HA Hc. induction ms as [|m ms IH]; intros Hi; [reflexivity|]. cbn [VehicleSearch.vexpand].
    destruct (proj1 HS cur Hc) as (E0 & E1 & E2 & _). destruct (HA cur Hc m (Hi m (or_introl eq_refl))) as (r & Er & K).
    assert (Ep : prevs reach (inf s) cur = []) by (destruct reach; cbn [VehicleSearch.prevs]; [reflexivity|rewrite E1; reflexivity]).
    rewrite E2, Ep, Er. cbn [obind]. assert (Hi' : incl ms moves) by (intros z Hz; apply Hi; right; assumption).
    destruct r as [[[v c] p]|]; [|apply IH; assumption]. destruct K as (d & Ed & L & Sn). unfold VehicleSearch.vprocess.
    rewrite (vdist_start _ _ HS Hc), Ed. replace (Rltb (0 + c) d) with false by (symmetry; apply Rltb_false; lra). cbn [negb]. rewrite andb_true_r, orb_false_r.
    destruct (nclosed (inf s v)) eqn:Ec; cbn [obind]; [apply IH; assumption|]. destruct Sn as [Sn|Sn]; [|congruence]. rewrite Sn. cbn [negb obind]. apply IH. assumption.
  Qed.

  Lemma back_start f cur : In cur start -> vback V P veqb start bf f cur [] [] = None \/ vback V P veqb start bf f cur [] [] = Some [cur].
  Proof using veqb_spec. intros Hc. destruct bf as [|k]; [left; reflexivity|right]. cbn [vback]. rewrite (proj2 (vmem_spec veqb veqb_spec cur start) Hc). reflexivity. Qed.
  Definition short (r : vres V P) : Prop := match r with VPath _ _ l => (length l <= 1)%nat | _ => True end.
  Definition cand_start (ws : wstate) : Prop := forall v w, In (v, w) (ws_cand ws) -> In v start.
  Lemma finish_short ws : cand_start ws -> short (wfinish ws) /\ wfinish ws <> VFuel V P.
  Proof using veqb_spec Hqueue.
    intros Hc. unfold VehicleTest.wfinish. pose proof (Hqueue (ws_cand ws)) as Hp. destruct (queue (ws_cand ws)) as [|[v w] l]; [split; [apply Nat.le_0_l|discriminate]|].
    assert (Hv : In v start) by (apply (Hc v w), (Permutation_in (v, w) (Permutation_sym Hp)); left; reflexivity).
    destruct (back_start (inf (ws_s ws)) v Hv) as [-> | ->]; (split; [first [apply Nat.le_refl|exact Logic.I]|discriminate]).
  Qed.

  Lemma again_loop : forall fuel n t ws r ws' log, steady (inf (ws_s ws)) -> all_done (inf (ws_s ws)) -> incl (opn (ws_s ws)) start -> cand_start ws ->
    wloop fuel n t ws = (r, ws', log) ->
    steady (inf (ws_s ws')) /\ all_done (inf (ws_s ws')) /\ cand_start ws' /\ (forall e, In e log -> In (wc_node V P e) start) /\ short r /\
    ((length (opn (ws_s ws)) < fuel)%nat -> r <> VFuel V P).
  Proof using veqb_spec Hpop Hqueue.
    induction fuel as [|k IH]; intros n t ws r ws' log HS HA Ho Hc; cbn [VehicleTest.wloop].
    { intros H. injection H as <- <- <-. repeat (split; [assumption|]). split; [intros e []|]. split; [exact Logic.I|]. intros X. inversion X. }
    destruct (finish_short ws Hc) as [F1 F2].
    destruct (opn (ws_s ws)) as [|v0 o0] eqn:Eo.
    { intros H. injection H as <- <- <-. repeat (split; [assumption|]). split; [intros e []|]. split; [exact F1|]. intros _. exact F2. }
    destruct (timeout n).
    { intros H. injection H as <- <- <-. repeat (split; [assumption|]). split; [intros e []|]. split; [exact F1|]. intros _. exact F2. }
    rewrite <- Eo in Ho |- *. pose proof (Hpop (vtotal (inf (ws_s ws))) (opn (ws_s ws))) as Hp.
    destruct (pop (vtotal (inf (ws_s ws))) (opn (ws_s ws))) as [[cur o]|] eqn:Ep.
    2:{ rewrite Hp in Eo. discriminate. }
    destruct Hp as (Hin & Hlen & Hincl & _). pose proof (Ho cur Hin) as Hcur.
    pose proof (close_steady (ws_s ws) cur o HS) as HS1. pose proof (all_lower _ _ (close_lower (ws_s ws) cur o) HA) as HA1. cbv zeta.
    assert (Eopn : opn (wclose (ws_s ws) cur o) = o) by reflexivity. set (s1 := wclose (ws_s ws) cur o) in *.
    destruct (term t (inf s1) cur) as [[[t' cs] ans]|].
    2:{ intros H. injection H as <- <- <-. cbn [VehicleTest.ws_s]. repeat (split; [assumption|]). split; [intros e []|]. split; [exact Logic.I|]. discriminate. }
    set (ws2 := wadd _ cur cs). assert (E2 : ws_s ws2 = s1) by (unfold ws2; rewrite wadd_s; reflexivity).
    assert (Hc2 : cand_start ws2).
    { intros v w. unfold ws2. rewrite wadd_cand. intros X. apply in_app_iff in X. destruct X as [X|X]; [exact (Hc v w X)|]. apply in_map_iff in X. destruct X as (c & X & _). injection X as <- _. exact Hcur. }
    destruct (finish_short ws2 Hc2) as [G1 G2].
    set (ev := WC V P cur _ _ cs ans).
    assert (He : forall e, In e [ev] -> In (wc_node V P e) start) by (intros e [<-|[]]; exact Hcur).
    destruct ans.
    - destruct (wover _ _ _ _ _ _).
      { intros H. injection H as <- <- <-. rewrite E2. repeat (split; [assumption|]). intros _. exact G2. }
      rewrite (again_expand s1 cur HS1 HA1 Hcur moves (incl_refl _)).
      destruct (wloop k (S n) t' _) as [[r0 w0] l0] eqn:El. intros H. injection H as <- <- <-.
      assert (Hi2 : incl o start) by (intros z Hz; apply Ho, Hincl, Hz). rewrite <- Eopn in Hi2.
      destruct (IH _ _ (WS V P s1 (ws_cand ws2) (ws_first V P ws2)) _ _ _ HS1 HA1 Hi2 Hc2 El) as (A1 & A2 & A3 & A4 & A5 & A6).
      repeat (split; [assumption|]). split; [intros e [<-|X]; [exact Hcur|apply A4; exact X]|]. split; [exact A5|].
      intros X. apply A6. cbn [VehicleTest.ws_s]. rewrite Eopn. clear - X Hlen. lia.
    - intros H. injection H as <- <- <-. rewrite E2. repeat (split; [assumption|]). intros _. exact G2.
    - destruct (back_start (inf s1) cur Hcur) as [-> | ->]; intros H; injection H as <- <- <-; rewrite E2; repeat (split; [assumption|]); (split; [first [apply Nat.le_refl|exact Logic.I]|discriminate]).
  Qed.

  (** A path with two nodes ends beyond the start. *)
  Lemma short_loop : forall fuel n t ws r ws' log, cand_start ws -> wloop fuel n t ws = (r, ws', log) ->
    (forall e, In e log -> In (wc_node V P e) start) -> short r.
  Proof using veqb_spec Hqueue.
    induction fuel as [|k IH]; intros n t ws r ws' log Hc; cbn [VehicleTest.wloop].
    { intros H. injection H as <- <- <-. intros _. exact Logic.I. }
    destruct (finish_short ws Hc) as [F1 _].
    destruct (opn (ws_s ws)) as [|v0 o0]; [intros H; injection H as <- <- <-; intros _; exact F1|].
    destruct (timeout n); [intros H; injection H as <- <- <-; intros _; exact F1|].
    destruct (pop _ _) as [[cur o]|]; [|intros H; injection H as <- <- <-; intros _; exact Logic.I]. cbv zeta.
    set (s1 := wclose (ws_s ws) cur o). destruct (term t (inf s1) cur) as [[[t' cs] ans]|]; [|intros H; injection H as <- <- <-; intros _; exact Logic.I].
    set (ws2 := wadd _ cur cs). set (ev := WC V P cur _ _ cs ans).
    assert (Hc2 : In cur start -> cand_start ws2).
    { intros Hcur v w. unfold ws2. rewrite wadd_cand. intros X. apply in_app_iff in X. destruct X as [X|X]; [exact (Hc v w X)|]. apply in_map_iff in X. destruct X as (c & X & _). injection X as <- _. exact Hcur. }
    destruct ans.
    - destruct (wover _ _ _ _ _ _).
      { intros H. injection H as <- <- <-. intros He. apply finish_short, Hc2. apply (He ev). left. reflexivity. }
      destruct (vexpand cur moves s1) as [s2|]; [|intros H; injection H as <- <- <-; intros _; exact Logic.I].
      destruct (wloop k (S n) t' _) as [[r0 w0] l0] eqn:El. intros H. injection H as <- <- <-. intros He.
      apply (IH _ _ (WS V P s2 (ws_cand ws2) (ws_first V P ws2)) _ _ _) with (2 := El); [|intros e X; apply He; right; exact X].
      exact (Hc2 (He ev (or_introl eq_refl))).
    - intros H. injection H as <- <- <-. intros He. apply finish_short, Hc2. apply (He ev). left. reflexivity.
    - destruct (vback _ _ _ _ _ _ _ _ _) as [[|a l]|] eqn:Eb; intros H; injection H as <- <- <-; intros He; try exact Logic.I.
      + apply finish_short, Hc2. apply (He ev). left. reflexivity.
      + destruct (back_start (inf s1) cur (He ev (or_introl eq_refl))) as [E|E]; rewrite E in Eb; [discriminate|]. injection Eb as <- <-. apply Nat.le_refl.
  Qed.
  End Search.

  (** *** The beginning of a search *)
  Notation vstarts := (vstarts V P veqb tot push).
  Definition with_pay (f : V -> vinfo) (pay : V -> P) (v : V) : vinfo :=
    let n := f v in VI V P (ndist n) (n_h V P n) (nprev n) (nopen n) (nclosed n) (pay v).
  Lemma starts_len l : forall s, (length (opn (vstarts l s)) <= length (opn s) + length l)%nat.
  Proof using Hpush.
    induction l as [|v l IH]; intros s; cbn [VehicleSearch.vstarts length]; [clear; lia|].
    eapply Nat.le_trans; [apply IH|]. cbn [v_open]. match goal with |- context [push ?f ?x ?y] => pose proof (proj1 (Hpush f x y)) as X; set (q := push f x y) in * end.
    clearbody q. clear - X. lia.
  Qed.
  Lemma starts_h l : forall s, (forall w, nh (inf s w) = 0) -> forall w, nh (inf (vstarts l s) w) = 0.
  Proof using veqb_spec.
    induction l as [|v l IH]; intros s H; cbn [VehicleSearch.vstarts]; [exact H|]. apply IH. intros w. cbn [v_info].
    destruct (vdec veqb veqb_spec w v) as [->|Hw]; [rewrite vset_same; apply H|rewrite vset_other by assumption; apply H].
  Qed.
  Lemma begin_Q pay : (forall v, In v start -> pay v = ps v) -> Q [] (vstarts start (VS V P (vfresh V P pay) [])).
  Proof using veqb_spec Hpush.
    intros Hp. destruct (starts_spec veqb veqb_spec tot push Hpush start (VS V P (vfresh V P pay) [])) as (A & B & D). cbn [v_open v_info] in *.
    assert (Hh : forall w, nh (inf (vstarts start (VS V P (vfresh V P pay) [])) w) = 0) by (apply starts_h; reflexivity).
    set (s := vstarts start _) in *. constructor.
    - intros w. left. apply Hh.
    - split.
      + intros v Hv. unfold VehicleProofs.vseen. destruct (D v Hv) as (h & ->). cbn. split; [reflexivity|]. split; [reflexivity|]. split; [apply Hp; assumption|left; reflexivity].
      + intros w d. unfold VehicleProofs.vseen. destruct (in_dec (vdec veqb veqb_spec) w start) as [Hw|Hw].
        * destruct (D w Hw) as (h & ->). cbn. intros E. injection E as <-. split; [lra|]. split; [contradiction|left; reflexivity].
        * rewrite (B w Hw). cbn. discriminate.
    - intros w Hw. apply A in Hw. destruct Hw as [[]|Hw]. destruct (D w Hw) as (h & ->). discriminate.
    - intros v Hv. left. split; [apply A; right; exact Hv|apply Hh].
  Qed.
  Lemma restart f pay : steady f -> all_done f -> (forall v, In v start -> pay v = ps v) ->
    let s := vstarts start (VS V P (with_pay f pay) []) in
    steady (inf s) /\ all_done (inf s) /\ incl (opn s) start /\ (length (opn s) <= length start)%nat.
  Proof using veqb_spec Hpush.
    intros HS HA Hp. destruct (starts_spec veqb veqb_spec tot push Hpush start (VS V P (with_pay f pay) [])) as (A & B & D). cbn [v_open v_info] in *.
    pose proof (starts_len start (VS V P (with_pay f pay) [])) as L. cbn zeta. set (s := vstarts start _) in *. cbn [v_open length] in L.
    assert (Hlow : lower f (inf s)).
    { intros w. unfold VehicleProofs.vseen. destruct (in_dec (vdec veqb veqb_spec) w start) as [Hw|Hw].
      - destruct (D w Hw) as (h & ->). cbn. split; [|auto]. intros d E. rewrite (proj1 (proj1 HS w Hw)) in E. injection E as <-. exists 0. split; [reflexivity|lra].
      - rewrite (B w Hw). cbn. split; [|auto]. intros d E. exists d. split; [assumption|lra]. }
    split; [split|split; [|split]].
    - intros v Hv. unfold VehicleProofs.vseen. destruct (D v Hv) as (h & ->). cbn. split; [reflexivity|]. split; [apply (proj1 HS v Hv)|]. split; [apply Hp; assumption|left; reflexivity].
    - intros w d. unfold VehicleProofs.vseen. destruct (in_dec (vdec veqb veqb_spec) w start) as [Hw|Hw].
      + destruct (D w Hw) as (h & ->). cbn. intros E. injection E as <-. split; [lra|]. split; [contradiction|left; reflexivity].
      + rewrite (B w Hw). cbn. apply (proj2 HS w d).
    - eapply all_lower; eassumption.
    - intros z Hz. apply A in Hz. destruct Hz as [[]|Hz]. exact Hz.
    - exact L.
  Qed.
End Again.
