(** Optimality of the generic search with exact (real) costs (C21). *)
From Coq Require Import Reals Lra.
From Verif Require Import Base PathSpec GenericSearch GenericProofs RealSums.
Local Open Scope R_scope.

(** [costs nbr p x]: the node sequence [p] follows offered steps whose costs sum to [x]. *)
Inductive costs {V} (nbr : V -> list (V * R)) : list V -> R -> Prop :=
| costs_one v : costs nbr [v] 0
| costs_step u v c p x : In (v, c) (nbr u) -> costs nbr (v :: p) x -> costs nbr (u :: v :: p) (c + x).

Section Opt.
  Context {V : Type}.
  Variable veqb : V -> V -> bool.
  Hypothesis veqb_spec : forall a b, reflect (a = b) (veqb a b).
  Variable all : list V.
  Variable inf : R.
  Variable nbr : V -> list (V * R).
  Variable hval : V -> R.
  Variable push : (V -> R) -> V -> list V -> list V.
  Variable pop : (V -> R) -> list V -> option (V * list V).
  Hypothesis Hpush : push_ok push.
  Hypothesis Hpop : pop_ok pop.
  (** PriorityQueueManager: next() hands out a node of least total cost. *)
  Hypothesis Hmin : forall f l v r, pop f l = Some (v, r) -> forall w, In w l -> f v <= f w.

  Variable s0 : V.
  Variable is_goal : V -> bool.
  Variable over : R -> R -> bool.
  Variable gdist : V -> R.
  Variable best : list (V * R) -> option V.
  Hypothesis Hbest : best_ok best.
  Hypothesis best_some : forall l, best l = None -> l = [].
  Hypothesis nbr_all : forall u v c, In u all -> In (v, c) (nbr u) -> In v all.
  Hypothesis s0_all : In s0 all.
  Hypothesis nbr_pos : forall u v c, In (v, c) (nbr u) -> 0 <= c.
  (** The heuristic is non-negative and never exceeds the cost of a way to an
      accepted node plus the heuristic value there. *)
  Hypothesis h_pos : forall v, 0 <= hval v.
  Hypothesis h_adm : forall p y v t, costs nbr p y -> hd_error p = Some v -> last p v = t -> is_goal t = true -> hval v <= y + hval t.

  Notation info := (info V R).
  Notation state := (state V R).
  Notation si := (s_info V R).
  Notation so := (s_open V R).
  Notation sc := (s_cand V R).
  Notation dist := (g_dist V R).
  Notation hh := (g_h V R).
  Notation prev := (g_prev V R).
  Notation isopen := (g_open V R).
  Notation isclosed := (g_closed V R).
  Notation setn := (setn V R veqb).
  Notation processNeighbor := (processNeighbor V R veqb Rplus Rltb Rplus hval push true).
  Notation process_all := (process_all V R veqb Rplus Rltb Rplus hval push true).
  Notation backtrack := (backtrack V R veqb all [s0]).
  Notation close := (close V R veqb hval true).
  Notation total := (total V R Rplus).
  Notation timeout := (fun _ : nat => false).
  Notation loop := (loop V R veqb all Rplus Rltb Rplus nbr hval push pop [s0] is_goal true false over gdist best timeout).
  Notation run := (run V R veqb all 0 Rplus Rltb Rplus nbr hval push pop [s0] is_goal true false over gdist best timeout).
  Notation seen := (@seen V R).
  Notation trace := (@trace V R [s0]).

  Definition all_costs : list R := flat_map (fun u => map snd (nbr u)) all.
  Definition ok : R -> Prop := gen (fun c => In c all_costs).

  Lemma in_costs u v c : In u all -> In (v, c) (nbr u) -> In c all_costs.
  Proof.
    intros Hu Hin. unfold all_costs. apply in_flat_map. exists u. split; [assumption|]. apply (in_map snd) in Hin. exact Hin.
  Qed.
  Lemma all_costs_pos c : In c all_costs -> 0 <= c.
  Proof.
    unfold all_costs. intros H. apply in_flat_map in H as (u & _ & H). apply in_map_iff in H as ([v c'] & <- & H).
    eapply nbr_pos. exact H.
  Qed.

  Lemma real_arith : arith_ok all 0 Rplus Rltb nbr ok.
  Proof.
    constructor.
    - apply gen_wf. apply all_costs_pos.
    - intros a. apply Rltb_false. lra.
    - constructor.
    - intros u v c a Hu Hin Ha. constructor; [assumption|]. eapply in_costs; eassumption.
    - intros u v c a Hu Hin _. apply Rltb_false. apply nbr_pos in Hin. lra.
    - intros a b c _ _ _ H1 H2. apply Rltb_false in H1, H2. apply Rltb_false. lra.
  Qed.

  Notation K := (K all 0 Rltb [s0] ok).

  Definition relaxed (s : state) (w : V) : Prop :=
    is_goal w = false /\ forall x c, In (x, c) (nbr w) -> seen s x /\ dist (si s x) <= dist (si s w) + c.

  Record M (ex : V -> Prop) (s : state) : Prop := {
    m_prev : forall v, seen s v -> v <> s0 ->
      exists u c, prev (si s v) = Some u /\ In (v, c) (nbr u) /\ dist (si s u) + c <= dist (si s v);
    m_exp : forall v, seen s v -> In v (so s) \/ ex v \/ relaxed s v;
    m_h : forall v, In v (so s) -> hh (si s v) = hval v \/ (v = s0 /\ hh (si s v) = 0) }.

  Let sdec (a b : V) : {a = b} + {a <> b}.
  Proof. destruct (veqb_spec a b); auto. Qed.

  Lemma process_M ex cur s v c s' : K s -> M ex s -> seen s cur -> In cur all -> In (v, c) (nbr cur) -> ex cur ->
    processNeighbor cur s (v, c) = Some s' ->
    M ex s' /\ dist (si s' cur) = dist (si s cur) /\ seen s' v /\ dist (si s' v) <= dist (si s cur) + c /\
    (forall w, seen s w -> seen s' w /\ dist (si s' w) <= dist (si s w)) /\ sc s' = sc s.
  Proof.
    intros HK [Mp Me Mh] Hcs Hca Hin Hex E. unfold GenericSearch.processNeighbor in E.
    set (n := si s v) in *. set (d := dist (si s cur) + c) in *.
    assert (Hc0 : 0 <= c) by (eapply nbr_pos; exact Hin).
    assert (Hd : dist (si s cur) <= d) by (unfold d; lra).
    set (s1 := State V R (setn (si s) v (Info V R (dist n) (hh n) (prev n) (isopen n) (isclosed n) true (g_expanded V R n)))
                 (so s) (sc s) (s_first V R s)) in *.
    assert (Hs1 : seen s v -> dist n <= d ->
      M ex s1 /\ dist (si s1 cur) = dist (si s cur) /\ seen s1 v /\ dist (si s1 v) <= d /\
      (forall w, seen s w -> seen s1 w /\ dist (si s1 w) <= dist (si s w)) /\ sc s1 = sc s).
    { intros Hsv Hle.
      assert (Ei : forall w, dist (si s1 w) = dist (si s w) /\ prev (si s1 w) = prev (si s w) /\ hh (si s1 w) = hh (si s w) /\
                  isopen (si s1 w) = isopen (si s w) /\ isclosed (si s1 w) = isclosed (si s w)).
      { intros w. unfold s1. cbn [s_info]. destruct (sdec w v) as [->|Hne];
          [rewrite setn_same by exact veqb_spec; auto|rewrite setn_other by (exact veqb_spec || assumption); auto 6]. }
      assert (Es : forall w, seen s1 w <-> seen s w).
      { intros w. unfold GenericProofs.seen. destruct (Ei w) as (_ & _ & _ & -> & ->). tauto. }
      split; [constructor|split; [apply Ei|split; [apply Es; assumption|split; [|split; [|reflexivity]]]]].
      - intros w Hw Hn. apply Es in Hw. destruct (Mp w Hw Hn) as (u & cu & A & B & D). exists u, cu.
        destruct (Ei w) as (-> & -> & _). destruct (Ei u) as (-> & _). auto.
      - intros w Hw. apply Es in Hw. destruct (Me w Hw) as [A|[A|[A B]]]; [left; exact A|auto|right; right].
        split; [assumption|]. intros x cx Hx. destruct (B x cx Hx) as [B1 B2]. destruct (Ei x) as (-> & _), (Ei w) as (-> & _).
        split; [apply Es; assumption|assumption].
      - intros w Hw. destruct (Ei w) as (_ & _ & -> & _). apply Mh. exact Hw.
      - destruct (Ei v) as (-> & _). exact Hle.
      - intros w Hw. split; [apply Es; assumption|]. destruct (Ei w) as (-> & _). lra. }
    destruct (isclosed n && negb (Rltb d (dist n))) eqn:E1.
    { injection E as <-. apply andb_prop in E1 as [E1 E1']. apply negb_true_iff, Rltb_false in E1'. apply Hs1; [right; exact E1|exact E1']. }
    destruct (negb (isopen n) || Rltb d (dist n)) eqn:E2.
    2:{ injection E as <-. apply orb_false_elim in E2 as [E2 E2']. apply negb_false_iff in E2. apply Rltb_false in E2'.
        apply Hs1; [left; exact E2|exact E2']. }
    destruct (veqb_spec v cur) as [|Hvc]; [discriminate|]. injection E as <-.
    assert (Hnew : seen s v -> d < dist n).
    { intros Hs. destruct (Rltb d (dist n)) eqn:El; [apply Rltb_true; assumption|].
      rewrite orb_false_r in E2. rewrite andb_true_r in E1. destruct Hs as [Hs|Hs]; fold n in Hs; rewrite Hs in *; discriminate. }
    match goal with |- M ex ?x /\ _ => set (s2 := x) end.
    assert (Ev : si s2 v = Info V R d (hval v) (Some cur) true (isclosed n) true (g_expanded V R n)).
    { unfold s2. cbn [s_info]. apply setn_same. exact veqb_spec. }
    assert (Ew : forall w, w <> v -> si s2 w = si s w).
    { intros w Hw. unfold s2. cbn [s_info]. apply setn_other; [exact veqb_spec|assumption]. }
    assert (Hso : forall w, In w (so s2) <-> w = v \/ In w (so s)).
    { intros w. unfold s2. cbn [s_open]. apply Hpush. }
    assert (Hsv : seen s2 v) by (left; rewrite Ev; reflexivity).
    assert (Hsw : forall w, seen s w -> seen s2 w /\ dist (si s2 w) <= dist (si s w)).
    { intros w Hw. destruct (sdec w v) as [->|Hne].
      - split; [assumption|]. rewrite Ev. cbn [g_dist]. apply Hnew in Hw. unfold n in Hw. lra.
      - unfold GenericProofs.seen. rewrite Ew by assumption. split; [exact Hw|lra]. }
    assert (Hsb : forall w, seen s2 w -> w <> v -> seen s w).
    { intros w Hw Hne. unfold GenericProofs.seen in Hw. rewrite Ew in Hw by assumption. exact Hw. }
    assert (Hvs0 : v <> s0).
    { intros ->. pose proof (k_starts _ _ _ _ _ _ HK s0 (or_introl eq_refl)) as Hs. apply Hnew in Hs.
      destruct (k_start _ _ _ _ _ _ HK s0 (or_introl eq_refl)) as [H0 _]. unfold n in Hs. rewrite H0 in Hs.
      destruct (k_ok _ _ _ _ _ _ HK cur Hcs) as [_ H1]. apply Rltb_false in H1. lra. }
    split; [constructor|split; [rewrite Ew by congruence; reflexivity|split; [assumption|split; [|split; [assumption|reflexivity]]]]].
    - intros w Hw Hn. destruct (sdec w v) as [->|Hne].
      + exists cur, c. rewrite Ev. cbn [g_prev g_dist]. split; [reflexivity|]. split; [assumption|].
        rewrite Ew by congruence. unfold d. lra.
      + rewrite Ew by assumption. pose proof (Hsb w Hw Hne) as Hw'. destruct (Mp w Hw' Hn) as (u & cu & A & B & D).
        exists u, cu. split; [assumption|]. split; [assumption|].
        destruct (k_prev _ _ _ _ _ _ HK w Hw') as (u' & A' & Hu & _); [intros [H|[]]; congruence|].
        rewrite A in A'. injection A' as <-. destruct (Hsw u Hu). lra.
    - intros w Hw. destruct (sdec w v) as [->|Hne]; [left; apply Hso; left; reflexivity|].
      destruct (Me w (Hsb w Hw Hne)) as [A|[A|[A B]]]; [left; apply Hso; right; exact A|auto|right; right].
      split; [assumption|]. intros x cx Hx. destruct (B x cx Hx) as [B1 B2]. destruct (Hsw x B1) as [B3 B4].
      split; [assumption|]. rewrite (Ew w Hne). lra.
    - intros w Hw. destruct (sdec w v) as [->|Hne]; [left; rewrite Ev; reflexivity|]. rewrite Ew by assumption.
      apply Hso in Hw as [|Hw]; [contradiction|]. apply Mh. exact Hw.
    - rewrite Ev. cbn [g_dist]. lra.
  Qed.

  Lemma process_all_M ex cur l : forall s s', K s -> M ex s -> seen s cur -> In cur all -> incl l (nbr cur) -> ex cur ->
    process_all cur l s = Some s' ->
    K s' /\ M ex s' /\ dist (si s' cur) = dist (si s cur) /\
    (forall v c, In (v, c) l -> seen s' v /\ dist (si s' v) <= dist (si s cur) + c) /\
    (forall w, seen s w -> seen s' w /\ dist (si s' w) <= dist (si s w)) /\ sc s' = sc s.
  Proof.
    induction l as [|[v c] l IH]; intros s s' HK HM Hcs Hca Hl Hex E; cbn [GenericSearch.process_all] in E.
    - injection E as <-. split; [assumption|]. split; [assumption|]. split; [reflexivity|]. split; [intros v c []|].
      split; [|reflexivity]. intros w Hw. split; [assumption|lra].
    - destruct (processNeighbor cur s (v, c)) as [s1|] eqn:E1; [|discriminate]. cbn [obind] in E.
      assert (Hin : In (v, c) (nbr cur)) by (apply Hl; left; reflexivity).
      destruct (process_M ex cur s v c s1 HK HM Hcs Hca Hin Hex E1) as (HM1 & D1 & S1 & L1 & W1 & C1).
      assert (HK1 : K s1).
      { destruct (process_K veqb veqb_spec all 0 Rplus Rltb Rplus nbr hval push Hpush [s0] true ok real_arith nbr_all
          cur s v c HK Hca Hcs Hin) as (s1' & E1' & HK1 & _). rewrite E1 in E1'. injection E1' as <-. exact HK1. }
      destruct (IH s1 s' HK1 HM1 (proj1 (W1 _ Hcs)) Hca) as (HK2 & HM2 & D2 & L2 & W2 & C2); auto.
      { intros x Hx. apply Hl. right. assumption. }
      split; [assumption|]. split; [assumption|]. split; [congruence|]. split; [|split; [|congruence]].
      + intros w cw [H|H].
        * injection H as <- <-. destruct (W2 v S1). split; [assumption|]. lra.
        * rewrite <- D1. apply L2. assumption.
      + intros w Hw. destruct (W1 w Hw) as [A B]. destruct (W2 w A). split; [assumption|lra].
  Qed.

  (** Some node of every path waits in the open list with a small enough total. *)
  Lemma frontier s p y : M (fun _ => False) s -> costs nbr p y -> forall v t a, hd_error p = Some v -> seen s v ->
    dist (si s v) <= a -> last p v = t -> is_goal t = true ->
    exists x, In x (so s) /\ dist (si s x) + hval x <= a + y + hval t.
  Proof.
    intros HM H. induction H as [w|u w c p y Hin H IH]; intros v t a Hh Hs Ha Hl Hg; injection Hh as ->.
    - simpl in Hl. subst t. exists v. destruct (m_exp _ _ HM v Hs) as [A|[[]|[A _]]]; [|congruence]. split; [assumption|lra].
    - destruct (m_exp _ _ HM v Hs) as [A|[[]|[A B]]].
      + exists v. split; [assumption|].
        assert (Hc : costs nbr (v :: w :: p) (c + y)) by (constructor; assumption).
        pose proof (h_adm _ _ v t Hc eq_refl Hl Hg). lra.
      + destruct (B w c Hin) as [B1 B2].
        destruct (IH w t (a + c) eq_refl B1 ltac:(lra)) as (x & X1 & X2); [|assumption|].
        * rewrite <- Hl. clear. change (last (v :: w :: p) v) with (last (w :: p) v).
          revert w. induction p as [|z p IH]; intros w; [reflexivity|]. change (last (z :: p) w = last (z :: p) v).
          clear IH. revert z. induction p as [|z' p IH]; intros z; [reflexivity|]. exact (IH z').
        * exists x. split; [assumption|lra].
  Qed.

  Lemma costs_snoc p x : costs nbr p x -> forall u v c d, last p d = u -> p <> [] -> In (v, c) (nbr u) -> costs nbr (p ++ [v]) (x + c).
  Proof.
    induction 1 as [w|w1 w2 c1 p x Hin H IH]; intros u v c d Hl Hne Hv.
    - simpl in Hl. subst u. simpl. replace (0 + c) with (c + 0) by lra. constructor; [assumption|constructor].
    - replace (c1 + x + c) with (c1 + (x + c)) by lra. simpl. constructor; [assumption|].
      apply (IH u v c d); [|discriminate|assumption]. exact Hl.
  Qed.

  (** The path read off the predecessor pointers costs at most the stored distance. *)
  Lemma trace_cost s v p : K s -> M (fun _ => False) s -> trace (si s) v p -> seen s v ->
    exists x, costs nbr (rev p) x /\ x <= dist (si s v) /\ last (rev p) v = v /\ rev p <> [].
  Proof.
    intros HK HM H. induction H as [v Hv|v u p Hv E H IH]; intros Hs.
    - exists 0. simpl. destruct Hv as [<-|[]]. split; [constructor|]. split; [|split; [reflexivity|discriminate]].
      rewrite (proj1 (k_start _ _ _ _ _ _ HK s0 (or_introl eq_refl))). lra.
    - destruct (m_prev _ _ HM v Hs) as (u' & c & A & B & D); [intros ->; apply Hv; left; reflexivity|].
      rewrite E in A. injection A as <-.
      destruct (k_prev _ _ _ _ _ _ HK v Hs Hv) as (u' & A' & Hu & _). rewrite E in A'. injection A' as <-.
      destruct (IH Hu) as (x & X1 & X2 & X3 & X4). exists (x + c). simpl rev.
      split; [eapply costs_snoc; eauto|]. split; [lra|]. split; [apply last_last|]. intros Hx. destruct (rev p); discriminate.
  Qed.

  Lemma trace_ext f g v p : (forall w, prev (g w) = prev (f w)) -> trace f v p -> trace g v p.
  Proof.
    intros Hg. induction 1 as [w Hw|w u q Hw Eq Hq IH]; [constructor; assumption|].
    apply (tr_step _ _ w u); [assumption|rewrite Hg; assumption|assumption].
  Qed.
  Lemma trace_head f v p : trace f v p -> hd_error (rev p) = Some s0.
  Proof.
    induction 1 as [w [<-|[]]|w u q' Hw Eq Hq IH]; [reflexivity|]. simpl. destruct (rev q') as [|b r]; [discriminate|]. exact IH.
  Qed.

  Definition optimal (p : list V) : Prop :=
    exists t x, last p s0 = t /\ is_goal t = true /\ hd_error p = Some s0 /\ costs nbr p x /\
    forall q y g, costs nbr q y -> hd_error q = Some s0 -> last q s0 = g -> is_goal g = true ->
    x + hval t <= y + hval g.

  Lemma last_indep {A} (l : list A) d d' : l <> [] -> last l d = last l d'.
  Proof. induction l as [|a [|b l] IH]; intros H; [congruence|reflexivity|]. apply IH. discriminate. Qed.

  Lemma loop_optimal fuel : forall n s p s', K s -> M (fun _ => False) s -> sc s = [] ->
    loop fuel n s = (GPath V p, s') -> p <> [] -> optimal p.
  Proof.
    induction fuel as [|k IH]; intros n s p s' HK HM Hc E Hne; [discriminate|]. cbn [GenericSearch.loop] in E.
    assert (Hfin : forall s x, sc s = [] -> (finish V R veqb all [s0] best s, s) = (GPath V p, x) -> False).
    { intros sx x Hsx Ex. unfold GenericSearch.finish in Ex. rewrite Hsx in Ex.
      destruct (best []) as [b|] eqn:Eb; [destruct (Hbest _ _ Eb) as (? & [])|]. injection Ex as <- _. congruence. }
    destruct (so s) as [|v0 o0] eqn:Eo; [destruct (Hfin _ _ Hc E)|].
    rewrite <- Eo in E. pose proof (Hpop (total (si s)) (so s)) as Hp. pose proof (Hmin (total (si s)) (so s)) as Hm.
    destruct (pop (total (si s)) (so s)) as [[cur o]|]; [|discriminate].
    destruct Hp as (Hp1 & _ & Hp3 & Hp4). specialize (Hm cur o eq_refl).
    assert (Hcs : seen s cur) by (apply (k_list _ _ _ _ _ _ HK); assumption).
    assert (Hca : In cur all) by (apply (k_all _ _ _ _ _ _ HK); assumption).
    destruct (close_K veqb veqb_spec all 0 Rltb hval [s0] true ok s cur o HK Hcs Hp4 Hp3) as (HK1 & _ & Hs1).
    set (s1 := close s cur o) in *.
    assert (Ei : forall w, dist (si s1 w) = dist (si s w) /\ prev (si s1 w) = prev (si s w)).
    { intros w. unfold s1, GenericSearch.close. cbn [s_info]. destruct (sdec w cur) as [->|Hn];
        [rewrite setn_same by exact veqb_spec; auto|rewrite setn_other by (exact veqb_spec || assumption); auto]. }
    assert (Hexp : forall ex : V -> Prop, (forall w, seen s w -> In w (so s) \/ relaxed s w -> In w o \/ ex w \/ relaxed s1 w) -> M ex s1).
    { intros ex Hx. constructor.
      - intros w Hw Hn. apply Hs1 in Hw. destruct (m_prev _ _ HM w Hw Hn) as (u & c & A & B & D). exists u, c.
        destruct (Ei w) as (-> & ->), (Ei u) as (-> & _). auto.
      - intros w Hw. apply Hs1 in Hw. apply Hx; [assumption|]. destruct (m_exp _ _ HM w Hw) as [|[[]|]]; auto.
      - intros w Hw. unfold s1, GenericSearch.close. cbn [s_info]. destruct (sdec w cur) as [->|Hn].
        + rewrite setn_same by exact veqb_spec. left. reflexivity.
        + rewrite setn_other by (exact veqb_spec || assumption). apply (m_h _ _ HM). apply Hp3. exact Hw. }
    assert (Hrel : forall w, relaxed s w -> relaxed s1 w).
    { intros w [A B]. split; [assumption|]. intros x c Hx. destruct (B x c Hx). destruct (Ei x) as (-> & _), (Ei w) as (-> & _).
      split; [apply Hs1; assumption|assumption]. }
    destruct (is_goal cur) eqn:Eg; cbn [negb andb] in E.
    - (* accepted *)
      destruct (k_trace _ _ _ _ _ _ HK1 cur) as (tr & Htr); [apply Hs1; assumption|].
      assert (Hlen : (length tr <= length all)%nat).
      { apply NoDup_incl_length; [eapply trace_nodup; eassumption|]. intros x Hx. apply (k_all _ _ _ _ _ _ HK1).
        apply (trace_seen all 0 Rplus Rltb nbr [s0] ok real_arith s1 cur tr HK1 Htr); [apply Hs1; assumption|assumption]. }
      assert (Eb : backtrack (si s1) cur = Some (rev tr)).
      { unfold GenericSearch.backtrack. rewrite (bt_trace veqb veqb_spec [s0] (si s1) cur tr).
        - rewrite app_nil_r. reflexivity.
        - intros w Hw. rewrite (proj2 (k_start _ _ _ _ _ _ HK1 w Hw)). discriminate.
        - assumption.
        - lia.
        - intros x _ []. }
      rewrite Eb in E.
      assert (Htr' : trace (si s) cur tr).
      { apply (trace_ext (si s1)); [|assumption]. intros w. symmetry. apply Ei. }
      destruct (trace_cost s cur tr HK HM Htr' Hcs) as (x & X1 & X2 & X3 & X4).
      destruct (rev tr) as [|a q] eqn:Er; [contradiction|]. injection E as <- <-.
      assert (Hhd : hd_error (a :: q) = Some s0).
      { rewrite <- Er. eapply trace_head. eassumption. }
      exists cur, x. split; [rewrite (last_indep _ s0 cur); [assumption|discriminate]|].
      split; [assumption|]. split; [assumption|]. split; [assumption|].
      intros q' y g Hq Hhq Hlq Hgq.
      assert (Hs0 : seen s s0) by (apply (k_starts _ _ _ _ _ _ HK); left; reflexivity).
      assert (Hd0 : dist (si s s0) = 0) by (apply (k_start _ _ _ _ _ _ HK s0); left; reflexivity).
      destruct (sdec cur s0) as [->|Hn].
      + pose proof (h_adm _ _ s0 g Hq Hhq Hlq Hgq). lra.
      + destruct (frontier s q' y HM Hq s0 g 0 Hhq Hs0 ltac:(lra) Hlq Hgq) as (z & Z1 & Z2).
        specialize (Hm z Z1). unfold GenericSearch.total in Hm.
        destruct (m_h _ _ HM cur Hp1) as [Hh|[Hh _]]; [|contradiction].
        assert (Hz : hh (si s z) <= hval z).
        { destruct (m_h _ _ HM z Z1) as [->|[_ ->]]; [lra|apply h_pos]. }
        rewrite Hh in Hm. lra.
    - destruct (process_all cur (nbr cur) s1) as [s3|] eqn:E3; [|discriminate].
      assert (HM1 : M (fun w => w = cur) s1).
      { apply Hexp. intros w Hw [A|A]; [|right; right; auto]. destruct (Hp4 w A); auto. }
      destruct (process_all_M _ cur (nbr cur) s1 s3 HK1 HM1) as (HK3 & HM3 & D3 & L3 & W3 & C3);
        [apply Hs1; assumption|assumption|apply incl_refl|reflexivity|exact E3|].
      apply (IH (S n) s3 p s' HK3); [|rewrite C3; exact Hc|exact E|assumption].
      destruct HM3 as [Mp Me Mh]. constructor; [assumption| |assumption].
      intros w Hw. destruct (Me w Hw) as [A|[->|A]]; [left; assumption| |right; right; assumption].
      right. right. split; [assumption|]. intros x c Hx. rewrite D3. apply L3. assumption.
  Qed.

  (** C21, with its termination. *)
  Lemma run_optimal first : exists fuel p s',
    run fuel (fun _ => fresh_info V R 0 inf) first = (GPath V p, s') /\
    (p = [] <-> ~ goal_reachable nbr [s0] is_goal) /\ (p <> [] -> optimal p).
  Proof.
    assert (Hst : incl [s0] all) by (intros x [<-|[]]; assumption).
    destruct (run_complete veqb veqb_spec all 0 inf Rplus Rltb Rplus nbr hval push pop Hpush Hpop [s0] is_goal true false over gdist best
      timeout Hbest ok real_arith nbr_all Hst best_some (fun _ => eq_refl) first) as (fuel & p & s' & E & Hp).
    exists fuel, p, s'. split; [assumption|]. split; [assumption|]. intros Hne.
    destruct (fresh_K veqb veqb_spec all 0 inf Rplus Rltb Rplus nbr push Hpush [s0] is_goal ok real_arith Hst first) as (HK & _ & _).
    unfold GenericSearch.run in E. eapply loop_optimal; [exact HK| |reflexivity|exact E|exact Hne].
    set (s := init_search _ _ _ _ _ _ _ _ _) in *.
    assert (Hseen : forall v, seen s v -> v = s0).
    { intros v Hv. unfold s, GenericSearch.init_search in Hv. cbn [add_starts] in Hv. unfold GenericProofs.seen in Hv. cbn [s_info] in Hv.
      destruct (sdec v s0) as [|Hn]; [assumption|]. rewrite setn_other in Hv by (exact veqb_spec || assumption). destruct Hv; discriminate. }
    constructor.
    - intros v Hv Hn. apply Hseen in Hv. contradiction.
    - intros v Hv. left. apply (k_open _ _ _ _ _ _ HK). apply Hseen in Hv. subst v. unfold s, GenericSearch.init_search.
      cbn [add_starts s_info]. rewrite setn_same by exact veqb_spec. reflexivity.
    - intros v Hv. right. apply (k_list _ _ _ _ _ _ HK), Hseen in Hv. subst v. split; [reflexivity|].
      unfold s, GenericSearch.init_search. cbn [add_starts s_info]. rewrite setn_same by exact veqb_spec. reflexivity.
  Qed.
End Opt.
