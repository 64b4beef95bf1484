(** With a caller's goal test the neighbours get no heuristic value, so nodes are
    taken out in the order of their distance from the start: the search is
    Dijkstra's whatever the heuristic (C68, second part). For every monotone
    cost arithmetic, rounding included. *)
From Verif Require Import Base PathSpec GenericSearch GenericProofs GoalTest GoalTestProofs.

Section Opt.
  Context {V C T : Type}.
  Variable veqb : V -> V -> bool.
  Hypothesis veqb_spec : forall a b, reflect (a = b) (veqb a b).
  Variable all : list V.
  Variable zero inf : C.
  Variable add : C -> C -> C.
  Variable lt : C -> C -> bool.
  Variable tot : C -> C -> C.
  Variable nbr : V -> list (V * C).
  Variable hval : V -> C.
  Variable hgoal : bool.
  Variable push : (V -> C) -> V -> list V -> list V.
  Variable pop : (V -> C) -> list V -> option (V * list V).
  Hypothesis Hpush : push_ok push.
  Hypothesis Hpop : pop_ok pop.
  Variable start : list V.
  Variable test : T -> V -> info V C -> T * option C * bool.
  Variable use_candidates : bool.
  Variable over : C -> C -> bool.
  Variable best : list (V * C) -> option V.
  Variable timeout : nat -> bool.
  Hypothesis Hbest : best_ok best.
  Variable ok okt : C -> Prop.
  Hypothesis Hao : arith_ok all zero add lt nbr ok.
  Hypothesis nbr_all : forall u v c, In u all -> In (v, c) (nbr u) -> In v all.
  Hypothesis start_all : incl start all.
  (** Adding the same cost keeps the order; a zero heuristic value changes nothing. *)
  Hypothesis add_mono : forall u v c a b, In u all -> In (v, c) (nbr u) -> ok a -> ok b -> lt b a = false -> lt (add b c) (add a c) = false.
  Hypothesis tot_zero : forall a, ok a -> tot a zero = a.
  (** [okt]: the totals that can be compared. *)
  Hypothesis okt_ok : forall a, ok a -> okt a.
  Hypothesis okt_tot : forall a v, ok a -> okt (tot a (hval v)).
  (** PriorityQueueManager::next hands out a node that no other one precedes. *)
  Hypothesis Hmin : forall f l v r, (forall w, In w l -> okt (f w)) -> pop f l = Some (v, r) -> forall w, In w l -> lt (f w) (f v) = false.

  Notation si := (s_info V C).
  Notation so := (s_open V C).
  Notation sc := (s_cand V C).
  Notation dist := (g_dist V C).
  Notation hh := (g_h V C).
  Notation prev := (g_prev V C).
  Notation isopen := (g_open V C).
  Notation isclosed := (g_closed V C).
  Notation setn := (setn V C veqb).
  Notation total := (total V C tot).
  Notation close := (close V C veqb hval hgoal).
  Notation processNeighbor := (processNeighbor V C veqb add lt tot hval push false).
  Notation process_all := (process_all V C veqb add lt tot hval push false).
  Notation finish := (finish V C veqb all start best).
  Notation backtrack := (backtrack V C veqb all start).
  Notation tloop := (tloop V C T veqb all add lt tot nbr hval hgoal push pop start test use_candidates over best timeout).
  Notation trun := (trun V C T veqb all zero add lt tot nbr hval hgoal push pop start test use_candidates over best timeout).
  Notation add_cand := (add_cand V C tot).
  Notation walk := (walk zero add nbr start).
  Notation seen := (@seen V C).
  Notation trace := (@trace V C start).
  Notation K := (K all zero lt start ok).
  Notation le a b := (lt b a = false).

  Let vdec (a b : V) : {a = b} + {a <> b}.
  Proof. destruct (veqb_spec a b); auto. Qed.
  Let le_trans a b c : ok a -> ok b -> ok c -> le a b -> le b c -> le a c.
  Proof. apply (ao_trans _ _ _ _ _ _ Hao). Qed.
  Let le_refl a : le a a.
  Proof. apply (ao_irrefl _ _ _ _ _ _ Hao). Qed.
  Let le_lt a b : ok a -> ok b -> lt a b = true -> le a b.
  Proof. apply (GenericProofs.lt_asym all zero add lt nbr ok Hao). Qed.

  (** [ex] is exempt from the fourth point while its neighbours are processed. *)
  Record J (ex : V -> Prop) (s : state V C) : Prop := {
    j_h0 : forall v, isclosed (si s v) = false -> hh (si s v) = zero;
    j_h1 : forall v, hh (si s v) = zero \/ hh (si s v) = hval v;
    j_prev : forall v, seen s v -> ~ In v start ->
      exists u c, prev (si s v) = Some u /\ isclosed (si s u) = true /\ In (v, c) (nbr u) /\ dist (si s v) = add (dist (si s u)) c;
    j_relax : forall v, isclosed (si s v) = true -> ex v \/ forall w c, In (w, c) (nbr v) -> seen s w /\ le (dist (si s w)) (add (dist (si s v)) c);
    j_order : forall v w, isclosed (si s v) = true -> seen s w -> isclosed (si s w) = false -> le (dist (si s v)) (dist (si s w)) }.

  Lemma J_same ex s s2 : (forall v, dist (si s2 v) = dist (si s v) /\ hh (si s2 v) = hh (si s v) /\ prev (si s2 v) = prev (si s v) /\
      isopen (si s2 v) = isopen (si s v) /\ isclosed (si s2 v) = isclosed (si s v)) -> J ex s -> J ex s2.
  Proof using Type.
    intros Ei [A B D F G].
    assert (Es : forall v, seen s2 v <-> seen s v) by (intros v; unfold GenericProofs.seen; destruct (Ei v) as (_ & _ & _ & -> & ->); reflexivity).
    constructor.
    - intros v. destruct (Ei v) as (_ & -> & _ & _ & ->). apply A.
    - intros v. destruct (Ei v) as (_ & -> & _). apply B.
    - intros v. rewrite Es. destruct (Ei v) as (-> & _ & -> & _). intros H1 H2. destruct (D v H1 H2) as (u & c & X & Y & Z & W). exists u, c.
      destruct (Ei u) as (-> & _ & _ & _ & ->). auto.
    - intros v. destruct (Ei v) as (-> & _ & _ & _ & ->). intros H. destruct (F v H) as [H1|H1]; [left; exact H1|right]. intros w c Hw.
      rewrite Es. destruct (Ei w) as (-> & _). apply (H1 w c Hw).
    - intros v w. rewrite Es. destruct (Ei v) as (-> & _ & _ & _ & ->). destruct (Ei w) as (-> & _ & _ & _ & ->). apply G.
  Qed.

  (** One neighbour of the node [cur] just closed, which no closed node exceeds. *)
  Lemma process_J cur s v c s' : K s -> J (fun x => x = cur) s -> In cur all -> isclosed (si s cur) = true ->
    (forall x, isclosed (si s x) = true -> le (dist (si s x)) (dist (si s cur))) -> In (v, c) (nbr cur) ->
    processNeighbor cur s (v, c) = Some s' ->
    J (fun x => x = cur) s' /\ (forall x, isclosed (si s' x) = isclosed (si s x)) /\
    (forall x, isclosed (si s x) = true -> dist (si s' x) = dist (si s x)) /\
    (forall x, seen s x -> seen s' x /\ le (dist (si s' x)) (dist (si s x))) /\
    seen s' v /\ le (dist (si s' v)) (add (dist (si s cur)) c).
  Proof.
    intros HK HJ Hca Hcc Hmax Hin E. unfold GenericSearch.processNeighbor in E.
    set (n := si s v) in *. set (d := add (dist (si s cur)) c) in *.
    set (s1 := State V C (setn (si s) v (Info V C (dist n) (hh n) (prev n) (isopen n) (isclosed n) true (g_expanded V C n))) (so s) (sc s) (s_first V C s)) in *.
    assert (Hcs : seen s cur) by (right; exact Hcc).
    destruct (k_ok _ _ _ _ _ s HK cur Hcs) as [Hokc _].
    assert (Hokd : ok d) by (apply (ao_add _ _ _ _ _ _ Hao cur v c); assumption).
    assert (Hgrow : le (dist (si s cur)) d) by (apply (ao_grow _ _ _ _ _ _ Hao cur v c); assumption).
    assert (Hs1 : seen s v -> le (dist n) d -> Some s1 = Some s' ->
      J (fun x => x = cur) s' /\ (forall x, isclosed (si s' x) = isclosed (si s x)) /\
      (forall x, isclosed (si s x) = true -> dist (si s' x) = dist (si s x)) /\
      (forall x, seen s x -> seen s' x /\ le (dist (si s' x)) (dist (si s x))) /\ seen s' v /\ le (dist (si s' v)) d).
    { intros Hsv Hle E1. injection E1 as <-.
      assert (Ei : forall w, dist (si s1 w) = dist (si s w) /\ hh (si s1 w) = hh (si s w) /\ prev (si s1 w) = prev (si s w) /\ isopen (si s1 w) = isopen (si s w) /\ isclosed (si s1 w) = isclosed (si s w)).
      { intros w. unfold s1. cbn [s_info]. destruct (vdec w v) as [->|Hne]; [rewrite (setn_same veqb veqb_spec); cbn; repeat split|rewrite (setn_other veqb veqb_spec) by assumption; repeat split]. }
      assert (Es : forall w, seen s1 w <-> seen s w) by (intros w; unfold GenericProofs.seen; destruct (Ei w) as (_ & _ & _ & -> & ->); reflexivity).
      split; [apply (J_same _ s); assumption|]. split; [intros x; apply Ei|]. split; [intros x _; apply Ei|]. split.
      - intros x Hx. split; [apply Es; exact Hx|]. rewrite (proj1 (Ei x)). apply le_refl.
      - split; [apply Es; exact Hsv|]. rewrite (proj1 (Ei v)). exact Hle. }
    destruct (isclosed n) eqn:Ecl.
    { assert (Hsv : seen s v) by (right; exact Ecl).
      assert (Hle : le (dist n) d).
      { apply (le_trans _ (dist (si s cur))); [apply (k_ok _ _ _ _ _ s HK); exact Hsv|assumption|assumption|apply Hmax; exact Ecl|exact Hgrow]. }
      rewrite Hle in E. cbn [andb negb] in E. apply Hs1; assumption. }
    cbn [andb] in E. destruct (isopen n) eqn:Eop; cbn [negb orb] in E.
    - assert (Hsv : seen s v) by (left; exact Eop). destruct (lt d (dist n)) eqn:Elt; [|apply Hs1; (assumption || reflexivity)].
      destruct (veqb_spec v cur) as [->|Hvc]; [unfold n in Ecl; congruence|]. injection E as <-.
      set (s2 := State V C _ _ _ _).
      assert (Ev : si s2 v = Info V C d (hh n) (Some cur) true false true (g_expanded V C n)) by (unfold s2; cbn [s_info]; apply (setn_same veqb veqb_spec)).
      assert (Ew : forall w, w <> v -> si s2 w = si s w) by (intros w Hw; unfold s2; cbn [s_info]; apply (setn_other veqb veqb_spec); exact Hw).
      assert (Ec : forall w, isclosed (si s2 w) = isclosed (si s w)).
      { intros w. destruct (vdec w v) as [->|Hne]; [rewrite Ev; symmetry; exact Ecl|rewrite Ew by exact Hne; reflexivity]. }
      assert (Hs : forall w, seen s2 w <-> seen s w).
      { intros w. destruct (vdec w v) as [->|Hne]; [|unfold GenericProofs.seen; rewrite Ew by exact Hne; reflexivity]. split; [intros _; exact Hsv|]. intros _. left. rewrite Ev. reflexivity. }
      assert (Hcv : forall x, isclosed (si s x) = true -> x <> v) by (intros x Hx ->; unfold n in Ecl; congruence).
      destruct HJ as [A B D F G].
      assert (Hvs : ~ In v start).
      { intros Hv. unfold n in Elt. rewrite (proj1 (k_start _ _ _ _ _ s HK v Hv)) in Elt.
        assert (X : lt d zero = false).
        { apply (le_trans zero (dist (si s cur)) d); auto using (ao_zero _ _ _ _ _ _ Hao). apply (k_ok _ _ _ _ _ s HK cur Hcs). }
        congruence. }
      assert (Hokv : ok (dist n)) by (apply (k_ok _ _ _ _ _ s HK); exact Hsv).
      split; [constructor|split; [exact Ec|split; [intros x Hx; rewrite Ew by (apply Hcv, Hx); reflexivity|split]]].
      + intros w. rewrite Ec. intros Hw. destruct (vdec w v) as [->|Hne]; [rewrite Ev; cbn [g_h]; apply A; exact Ecl|rewrite Ew by exact Hne; apply A; exact Hw].
      + intros w. destruct (vdec w v) as [->|Hne]; [rewrite Ev; cbn [g_h]; apply B|rewrite Ew by exact Hne; apply B].
      + intros w Hw Hns. apply Hs in Hw. destruct (vdec w v) as [->|Hne].
        * exists cur, c. rewrite Ev, Ec. rewrite (Ew cur) by congruence. cbn [g_prev g_dist]. auto.
        * destruct (D w Hw Hns) as (u & c' & X & Y & Z & W). exists u, c'. rewrite Ec, (Ew w) by exact Hne. rewrite (Ew u) by (apply Hcv; exact Y). auto.
      + intros x. rewrite Ec. intros Hx. destruct (F x Hx) as [H1|H1]; [left; exact H1|right]. intros w c' Hw.
        destruct (H1 w c' Hw) as [X Y]. rewrite Hs. split; [exact X|]. rewrite (Ew x) by (apply Hcv, Hx).
        destruct (vdec w v) as [->|Hne]; [|rewrite Ew by exact Hne; exact Y]. rewrite Ev. cbn [g_dist].
        assert (Hxa : In x all) by (apply (k_all _ _ _ _ _ s HK); right; exact Hx).
        assert (Hokx : ok (dist (si s x))) by (apply (k_ok _ _ _ _ _ s HK); right; exact Hx).
        apply (le_trans d (dist n)); [assumption|assumption|apply (ao_add _ _ _ _ _ _ Hao x v c'); assumption|apply le_lt; assumption|exact Y].
      + intros x w. rewrite !Ec. intros Hx Hw Hwc. apply Hs in Hw. rewrite (Ew x) by (apply Hcv, Hx).
        destruct (vdec w v) as [->|Hne]; [|rewrite Ew by exact Hne; apply G; assumption]. rewrite Ev. cbn [g_dist].
        apply (le_trans _ (dist (si s cur))); [apply (k_ok _ _ _ _ _ s HK); right; exact Hx|assumption|assumption|apply Hmax; exact Hx|exact Hgrow].
      + intros x Hx. split; [apply Hs; exact Hx|]. destruct (vdec x v) as [->|Hne]; [rewrite Ev; cbn [g_dist]; apply le_lt; assumption|rewrite Ew by exact Hne; apply le_refl].
      + split; [apply Hs; exact Hsv|]. rewrite Ev. cbn [g_dist]. apply le_refl.
    - destruct (veqb_spec v cur) as [->|Hvc]; [unfold n in Ecl; congruence|]. injection E as <-.
      set (s2 := State V C _ _ _ _).
      assert (Hns : ~ seen s v) by (intros [H|H]; unfold n in *; congruence).
      assert (Ev : si s2 v = Info V C d (hh n) (Some cur) true false true (g_expanded V C n)) by (unfold s2; cbn [s_info]; apply (setn_same veqb veqb_spec)).
      assert (Ew : forall w, w <> v -> si s2 w = si s w) by (intros w Hw; unfold s2; cbn [s_info]; apply (setn_other veqb veqb_spec); exact Hw).
      assert (Ec : forall w, isclosed (si s2 w) = isclosed (si s w)).
      { intros w. destruct (vdec w v) as [->|Hne]; [rewrite Ev; symmetry; exact Ecl|rewrite Ew by exact Hne; reflexivity]. }
      assert (Hs : forall w, seen s2 w <-> w = v \/ seen s w).
      { intros w. destruct (vdec w v) as [->|Hne].
        - split; [left; reflexivity|]. intros _. left. rewrite Ev. reflexivity.
        - unfold GenericProofs.seen. rewrite Ew by exact Hne. split; [right; exact H|]. intros [H|H]; [contradiction|exact H]. }
      assert (Hcv : forall x, isclosed (si s x) = true -> x <> v) by (intros x Hx ->; unfold n in Ecl; congruence).
      destruct HJ as [A B D F G].
      split; [constructor|split; [exact Ec|split; [intros x Hx; rewrite Ew by (apply Hcv, Hx); reflexivity|split]]].
      + intros w. rewrite Ec. intros Hw. destruct (vdec w v) as [->|Hne]; [rewrite Ev; cbn [g_h]; apply A; exact Ecl|rewrite Ew by exact Hne; apply A; exact Hw].
      + intros w. destruct (vdec w v) as [->|Hne]; [rewrite Ev; cbn [g_h]; apply B|rewrite Ew by exact Hne; apply B].
      + intros w Hw Hws. destruct (vdec w v) as [->|Hne].
        * exists cur, c. rewrite Ev, Ec. rewrite (Ew cur) by congruence. cbn [g_prev g_dist]. auto.
        * apply Hs in Hw as [|Hw]; [contradiction|]. destruct (D w Hw Hws) as (u & c' & X & Y & Z & W). exists u, c'. rewrite Ec, (Ew w) by exact Hne. rewrite (Ew u) by (apply Hcv; exact Y). auto.
      + intros x. rewrite Ec. intros Hx. destruct (F x Hx) as [H1|H1]; [left; exact H1|right]. intros w c' Hw.
        destruct (H1 w c' Hw) as [X Y]. rewrite Hs. split; [right; exact X|]. rewrite (Ew x) by (apply Hcv, Hx). rewrite Ew by (intros ->; contradiction). exact Y.
      + intros x w. rewrite !Ec. intros Hx Hw Hwc. rewrite (Ew x) by (apply Hcv, Hx).
        destruct (vdec w v) as [->|Hne]; [|apply Hs in Hw as [|Hw]; [contradiction|]; rewrite Ew by exact Hne; apply G; assumption]. rewrite Ev. cbn [g_dist].
        apply (le_trans _ (dist (si s cur))); [apply (k_ok _ _ _ _ _ s HK); right; exact Hx|assumption|assumption|apply Hmax; exact Hx|exact Hgrow].
      + intros x Hx. split; [apply Hs; right; exact Hx|]. rewrite Ew by (intros ->; contradiction). apply le_refl.
      + split; [apply Hs; left; reflexivity|]. rewrite Ev. cbn [g_dist]. apply le_refl.
  Qed.

  Lemma process_all_J cur l : forall s s', K s -> J (fun x => x = cur) s -> In cur all -> isclosed (si s cur) = true ->
    (forall x, isclosed (si s x) = true -> le (dist (si s x)) (dist (si s cur))) -> incl l (nbr cur) ->
    process_all cur l s = Some s' ->
    K s' /\ J (fun x => x = cur) s' /\ (forall x, isclosed (si s' x) = isclosed (si s x)) /\
    (forall x, isclosed (si s x) = true -> dist (si s' x) = dist (si s x)) /\
    (forall x, seen s x -> seen s' x /\ le (dist (si s' x)) (dist (si s x))) /\
    (forall w c, In (w, c) l -> seen s' w /\ le (dist (si s' w)) (add (dist (si s cur)) c)).
  Proof using veqb_spec Hpush Hao nbr_all.
    induction l as [|[v c] l IH]; intros s s' HK HJ Hca Hcc Hmax Hl E; cbn [GenericSearch.process_all] in E.
    { injection E as <-. split; [exact HK|]. split; [exact HJ|]. split; [reflexivity|]. split; [reflexivity|]. split; [intros x Hx; split; [exact Hx|apply le_refl]|intros w c []]. }
    destruct (processNeighbor cur s (v, c)) as [s1|] eqn:E1; [|discriminate]. cbn [obind] in E.
    assert (Hin : In (v, c) (nbr cur)) by (apply Hl; left; reflexivity).
    destruct (process_J cur s v c s1 HK HJ Hca Hcc Hmax Hin E1) as (HJ1 & Hc1 & Hd1 & Hs1 & Hv1 & Hle1).
    destruct (process_K veqb veqb_spec all zero add lt tot nbr hval push Hpush start false ok Hao nbr_all cur s v c HK Hca (or_intror Hcc) Hin) as (s1' & E1' & HK1 & _).
    rewrite E1 in E1'. injection E1' as <-.
    destruct (IH s1 s' HK1 HJ1 Hca) as (HK2 & HJ2 & Hc2 & Hd2 & Hs2 & Hl2); [rewrite Hc1; exact Hcc| |intros x Hx; apply Hl; right; exact Hx|exact E|].
    { intros x. rewrite Hc1. intros Hx. rewrite (Hd1 x Hx), (Hd1 cur Hcc). apply Hmax, Hx. }
    split; [exact HK2|]. split; [exact HJ2|]. split; [intros x; rewrite Hc2; apply Hc1|]. split; [|split].
    - intros x Hx. rewrite Hd2 by (rewrite Hc1; exact Hx). apply Hd1, Hx.
    - intros x Hx. destruct (Hs1 x Hx) as [A B]. destruct (Hs2 x A) as [A' B']. split; [exact A'|].
      apply (le_trans _ (dist (si s1 x))); [apply (k_ok _ _ _ _ _ s' HK2 x A')|apply (k_ok _ _ _ _ _ s1 HK1 x A)|apply (k_ok _ _ _ _ _ s HK x Hx)|exact B'|exact B].
    - intros w cw [H|H]; [injection H as <- <-|].
      + destruct (Hs2 v Hv1) as [A B]. split; [exact A|].
        apply (le_trans _ (dist (si s1 v))); [apply (k_ok _ _ _ _ _ s' HK2 v A)|apply (k_ok _ _ _ _ _ s1 HK1 v Hv1)| |exact B|exact Hle1].
        apply (ao_add _ _ _ _ _ _ Hao cur v c); [exact Hca|exact Hin|]. apply (k_ok _ _ _ _ _ s HK). right. exact Hcc.
      + rewrite <- (Hd1 cur Hcc). apply Hl2, H.
  Qed.

  (** A node taken out a second time changes nothing that matters. *)
  Definition same (s s2 : state V C) : Prop := (forall v, dist (si s2 v) = dist (si s v) /\ hh (si s2 v) = hh (si s v) /\ prev (si s2 v) = prev (si s v) /\
      isopen (si s2 v) = isopen (si s v) /\ isclosed (si s2 v) = isclosed (si s v)).
  Lemma process_all_same cur l : forall s s', (forall w c, In (w, c) l -> seen s w /\ le (dist (si s w)) (add (dist (si s cur)) c)) ->
    process_all cur l s = Some s' -> same s s'.
  Proof using veqb_spec.
    induction l as [|[v c] l IH]; intros s s' Hl E; cbn [GenericSearch.process_all] in E.
    { injection E as <-. intros v. auto. }
    destruct (processNeighbor cur s (v, c)) as [s1|] eqn:E1; [|discriminate]. cbn [obind] in E.
    assert (S1 : same s s1).
    { destruct (Hl v c (or_introl eq_refl)) as [Hv Hle]. unfold GenericSearch.processNeighbor in E1. rewrite Hle in E1. cbn [negb] in E1. rewrite andb_true_r, orb_false_r in E1.
      assert (E2 : Some (State V C (setn (si s) v (Info V C (dist (si s v)) (hh (si s v)) (prev (si s v)) (isopen (si s v)) (isclosed (si s v)) true (g_expanded V C (si s v)))) (so s) (sc s) (s_first V C s)) = Some s1).
      { destruct (isclosed (si s v)) eqn:E3; [exact E1|]. destruct Hv as [Hv|Hv]; [|congruence]. rewrite Hv in E1. cbn [negb] in E1. rewrite Hv. exact E1. }
      injection E2 as <-. intros w. cbn [s_info]. destruct (vdec w v) as [->|Hne]; [rewrite (setn_same veqb veqb_spec); cbn; repeat split|rewrite (setn_other veqb veqb_spec) by exact Hne; repeat split]. }
    assert (S2 : same s1 s').
    { apply (IH s1 s'); [|exact E]. intros w cw Hw. destruct (Hl w cw (or_intror Hw)) as [A B]. destruct (S1 w) as (-> & _ & _ & X & Y). destruct (S1 cur) as (-> & _).
      split; [|exact B]. unfold GenericProofs.seen. rewrite X, Y. exact A. }
    intros w. destruct (S1 w) as (A1 & A2 & A3 & A4 & A5). destruct (S2 w) as (B1 & B2 & B3 & B4 & B5). repeat split; congruence.
  Qed.

  Notation none := (fun _ : V => False).

  (** One turn of the loop. *)
  Lemma turn_J s cur o : K s -> J none s -> pop (total (si s)) (so s) = Some (cur, o) ->
    let s1 := close s cur o in
    K s1 /\ J (fun x => x = cur) s1 /\ isclosed (si s1 cur) = true /\ In cur all /\
    (forall x, dist (si s1 x) = dist (si s x)) /\ (forall x, isclosed (si s1 x) = true <-> x = cur \/ isclosed (si s x) = true) /\
    (forall s2, si s2 = si s1 -> K s2 -> forall s3, process_all cur (nbr cur) s2 = Some s3 -> K s3 /\ J none s3 /\ (forall x, isclosed (si s3 x) = isclosed (si s1 x))) /\
    (isclosed (si s cur) = false -> forall w, seen s w -> isclosed (si s w) = false -> le (dist (si s cur)) (dist (si s w))).
  Proof.
    intros HK HJ Ep s1. pose proof (Hpop (total (si s)) (so s)) as Hp. rewrite Ep in Hp. destruct Hp as (Hp1 & _ & Hp3 & Hp4).
    assert (Hcs : seen s cur) by (apply (k_list _ _ _ _ _ s HK); exact Hp1).
    assert (Hca : In cur all) by (apply (k_all _ _ _ _ _ s HK); exact Hcs).
    destruct (close_K veqb veqb_spec all zero lt hval start hgoal ok s cur o HK Hcs Hp4 Hp3) as (HK1 & _ & Hs1). fold s1 in HK1, Hs1.
    assert (Ed : forall x, dist (si s1 x) = dist (si s x)).
    { intros x. unfold s1, GenericSearch.close. cbn [s_info]. destruct (vdec x cur) as [->|Hne]; [rewrite (setn_same veqb veqb_spec)|rewrite (setn_other veqb veqb_spec) by exact Hne]; reflexivity. }
    assert (Epv : forall x, prev (si s1 x) = prev (si s x)).
    { intros x. unfold s1, GenericSearch.close. cbn [s_info]. destruct (vdec x cur) as [->|Hne]; [rewrite (setn_same veqb veqb_spec)|rewrite (setn_other veqb veqb_spec) by exact Hne]; reflexivity. }
    assert (Ec : forall x, isclosed (si s1 x) = true <-> x = cur \/ isclosed (si s x) = true).
    { intros x. unfold s1, GenericSearch.close. cbn [s_info]. destruct (vdec x cur) as [->|Hne]; [rewrite (setn_same veqb veqb_spec); cbn; split; auto|rewrite (setn_other veqb veqb_spec) by exact Hne].
      split; [right; exact H|]. intros [H|H]; [contradiction|exact H]. }
    assert (Hokt : forall w, In w (so s) -> okt (total (si s) w)).
    { intros w Hw. unfold GenericSearch.total. assert (Hok : ok (dist (si s w))) by (apply (k_ok _ _ _ _ _ s HK), (k_list _ _ _ _ _ s HK), Hw).
      destruct (j_h1 _ s HJ w) as [-> | ->]; [rewrite tot_zero by exact Hok; apply okt_ok, Hok|apply okt_tot, Hok]. }
    assert (Hmin1 : isclosed (si s cur) = false -> forall w, seen s w -> isclosed (si s w) = false -> le (dist (si s cur)) (dist (si s w))).
    { intros Hcc w Hw Hwc. assert (Hwo : isopen (si s w) = true) by (destruct Hw as [Hw|Hw]; [exact Hw|congruence]).
      pose proof (Hmin _ _ _ _ Hokt Ep w (k_open _ _ _ _ _ s HK w Hwo)) as H. unfold GenericSearch.total in H.
      rewrite (j_h0 _ s HJ w Hwc), (j_h0 _ s HJ cur Hcc) in H.
      rewrite !tot_zero in H by (apply (k_ok _ _ _ _ _ s HK); assumption). exact H. }
    assert (HJ1 : J (fun x => x = cur) s1).
    { destruct HJ as [A B D F G]. constructor.
      - intros v Hv. unfold s1, GenericSearch.close in *. cbn [s_info] in *. destruct (vdec v cur) as [->|Hne];
          [rewrite (setn_same veqb veqb_spec) in Hv; discriminate|rewrite (setn_other veqb veqb_spec) in Hv |- * by exact Hne; apply A, Hv].
      - intros v. unfold s1, GenericSearch.close. cbn [s_info]. destruct (vdec v cur) as [->|Hne];
          [rewrite (setn_same veqb veqb_spec); cbn [g_h]; destruct hgoal; [right; reflexivity|apply B]|rewrite (setn_other veqb veqb_spec) by exact Hne; apply B].
      - intros v Hv Hns. apply Hs1 in Hv. rewrite Epv, Ed. destruct (D v Hv Hns) as (u & c & X & Y & Z & W). exists u, c. rewrite Ed, Ec. auto.
      - intros v Hv. apply Ec in Hv as [->|Hv]; [left; reflexivity|right]. destruct (F v Hv) as [[]|H]. intros w c Hw. rewrite Hs1, !Ed. apply H, Hw.
      - intros v w Hv Hw Hwc. apply Hs1 in Hw. rewrite !Ed.
        assert (Hwc' : isclosed (si s w) = false /\ w <> cur).
        { split; [destruct (isclosed (si s w)) eqn:E; [|reflexivity]; assert (isclosed (si s1 w) = true) by (apply Ec; right; exact E); congruence|].
          intros ->. assert (isclosed (si s1 cur) = true) by (apply Ec; left; reflexivity). congruence. }
        apply Ec in Hv as [->|Hv]; [|apply G; [exact Hv|exact Hw|apply Hwc']].
        destruct (isclosed (si s cur)) eqn:Ecc; [apply G; [exact Ecc|exact Hw|apply Hwc']|]. apply Hmin1; [reflexivity|exact Hw|apply Hwc']. }
    split; [exact HK1|]. split; [exact HJ1|]. split; [apply Ec; left; reflexivity|]. split; [exact Hca|]. split; [exact Ed|]. split; [exact Ec|]. split; [|exact Hmin1].
    intros s2 Ei HK2 s3 E3.
    assert (HJ2 : J (fun x => x = cur) s2) by (apply (J_same _ s1); [intros v; rewrite Ei; auto|exact HJ1]).
    destruct (isclosed (si s cur)) eqn:Ecc.
    - (* taken out before *)
      assert (Hl : forall w c, In (w, c) (nbr cur) -> seen s2 w /\ le (dist (si s2 w)) (add (dist (si s2 cur)) c)).
      { intros w c Hw. destruct (j_relax _ s HJ cur Ecc) as [[]|H]. destruct (H w c Hw) as [X Y]. rewrite Ei, !Ed. split; [|exact Y].
        unfold GenericProofs.seen. rewrite Ei. apply Hs1, X. }
      pose proof (process_all_same cur (nbr cur) s2 s3 Hl E3) as Hsm.
      destruct (process_all_K veqb veqb_spec all zero add lt tot nbr hval push Hpush start false ok Hao nbr_all cur (nbr cur) s2 HK2 Hca) as (s3' & E3' & HK3 & _);
        [unfold GenericProofs.seen; rewrite Ei; apply Hs1, Hcs|apply incl_refl|]. rewrite E3 in E3'. injection E3' as <-.
      split; [exact HK3|]. pose proof (J_same _ s2 s3 Hsm HJ2) as HJ3. split; [|intros x; rewrite <- Ei; apply Hsm].
      destruct HJ3 as [A B D F G]. constructor; try assumption. intros v Hv. right. destruct (F v Hv) as [->|H]; [|exact H].
      intros w c Hw. destruct (Hl w c Hw) as [X Y]. destruct (Hsm w) as (-> & _ & _ & P & Q). destruct (Hsm cur) as (-> & _). split; [unfold GenericProofs.seen; rewrite P, Q; exact X|exact Y].
    - destruct (process_all_J cur (nbr cur) s2 s3 HK2 HJ2 Hca) as (HK3 & HJ3 & Hc3 & Hd3 & Hs3 & Hl3).
      + rewrite Ei. apply Ec. left. reflexivity.
      + rewrite Ei. intros x Hx. rewrite !Ed. apply Ec in Hx as [->|Hx]; [apply le_refl|]. apply (j_order _ s HJ); assumption.
      + apply incl_refl.
      + exact E3.
      + split; [exact HK3|]. split; [|intros x; rewrite <- Ei; apply Hc3].
        assert (Hcc2 : isclosed (si s2 cur) = true) by (rewrite Ei; apply Ec; left; reflexivity).
        destruct HJ3 as [A B D F G]. constructor; try assumption. intros v Hv. right. destruct (F v Hv) as [->|H]; [|exact H].
        intros w c Hw. rewrite (Hd3 cur Hcc2). apply Hl3, Hw.
  Qed.

  (** Every walk ends in a closed node that is not farther, or has passed an open one. *)
  Lemma walk_ok p x : walk p x -> ok x /\ forall v, In v p -> In v all.
  Proof using Hao nbr_all start_all.
    induction 1 as [s Hs|u v c p x _ [IH1 IH2] Hin].
    - split; [apply (ao_zero _ _ _ _ _ _ Hao)|]. intros v [<-|[]]. apply start_all, Hs.
    - assert (Hu : In u all) by (apply IH2; left; reflexivity). split; [apply (ao_add _ _ _ _ _ _ Hao u v c); assumption|].
      intros w [<-|Hw]; [eapply nbr_all; eassumption|apply IH2, Hw].
  Qed.
  Lemma walk_bound s p x : K s -> J none s -> walk p x -> forall v q, p = v :: q ->
    (isclosed (si s v) = true /\ le (dist (si s v)) x) \/ exists y, seen s y /\ isclosed (si s y) = false /\ le (dist (si s y)) x.
  Proof.
    intros HK HJ. induction 1 as [st Hst|u v c p x Hw IH Hin]; intros v' q E.
    - injection E as <- <-. assert (Hs : seen s st) by (apply (k_starts _ _ _ _ _ s HK), Hst).
      assert (Hle : le (dist (si s st)) zero) by (rewrite (proj1 (k_start _ _ _ _ _ s HK st Hst)); apply le_refl).
      destruct (isclosed (si s st)) eqn:Ec; [left; auto|right; exists st; auto].
    - injection E as <- <-. destruct (walk_ok _ _ Hw) as [Hokx Hall]. assert (Hua : In u all) by (apply Hall; left; reflexivity).
      assert (Hokv : ok (add x c)) by (apply (ao_add _ _ _ _ _ _ Hao u v c); assumption).
      destruct (IH u p eq_refl) as [[Hc Hle]|(y & Hy & Hyc & Hle)].
      + destruct (j_relax _ s HJ u Hc) as [[]|H]. destruct (H v c Hin) as [Hsv Hlv].
        assert (Hoku : ok (dist (si s u))) by (apply (k_ok _ _ _ _ _ s HK); right; exact Hc).
        assert (Hl2 : le (dist (si s v)) (add x c)).
        { apply (le_trans _ (add (dist (si s u)) c)); [apply (k_ok _ _ _ _ _ s HK), Hsv|apply (ao_add _ _ _ _ _ _ Hao u v c); assumption|exact Hokv|exact Hlv|].
          apply (add_mono u v); assumption. }
        destruct (isclosed (si s v)) eqn:Ec; [left; auto|right; exists v; auto].
      + right. exists y. split; [exact Hy|]. split; [exact Hyc|].
        apply (le_trans _ x); [apply (k_ok _ _ _ _ _ s HK), Hy|exact Hokx|exact Hokv|exact Hle|]. apply (ao_grow _ _ _ _ _ _ Hao u v c); assumption.
  Qed.

  (** The path read off at a closed node has its distance, and no walk to that node is cheaper. *)
  Lemma trace_walk ex s : K s -> J ex s -> forall v p, trace (si s) v p -> seen s v -> walk p (dist (si s v)).
  Proof using Type.
    intros HK HJ. induction 1 as [v Hv|v u p Hv E Ht IH]; intros Hs.
    - rewrite (proj1 (k_start _ _ _ _ _ s HK v Hv)). constructor. exact Hv.
    - destruct (j_prev _ s HJ v Hs Hv) as (u' & c & E' & Hc & Hin & ->). rewrite E in E'. injection E' as <-.
      assert (Hp : exists q, p = u :: q) by (inversion Ht; eauto). destruct Hp as [q ->].
      constructor; [apply IH; right; exact Hc|exact Hin].
  Qed.
  Lemma closed_best ex s v p : K s -> J ex s -> isclosed (si s v) = true -> backtrack (si s) v = Some p ->
    walk (rev p) (dist (si s v)) /\ exists q, rev p = v :: q.
  Proof.
    intros HK HJ Hc E. assert (Hs : seen s v) by (right; exact Hc). destruct (k_trace _ _ _ _ _ s HK v Hs) as (q & Hq).
    assert (Hlen : (length q <= length all)%nat).
    { apply NoDup_incl_length; [eapply trace_nodup; eassumption|]. intros x Hx. apply (k_all _ _ _ _ _ s HK).
      eapply (trace_seen all zero add lt nbr start ok Hao); eassumption. }
    unfold GenericSearch.backtrack in E. rewrite (bt_trace veqb veqb_spec start (si s) v q) in E.
    - injection E as <-. rewrite app_nil_r, rev_involutive. split; [eapply trace_walk; eassumption|]. inversion Hq; eauto.
    - intros w Hw. rewrite (proj2 (k_start _ _ _ _ _ s HK w Hw)). discriminate.
    - exact Hq.
    - clear - Hlen. lia.
    - intros x _ [].
  Qed.
  Lemma closed_min s v q x : K s -> J none s -> isclosed (si s v) = true -> walk (v :: q) x -> le (dist (si s v)) x.
  Proof.
    intros HK HJ Hc Hw. destruct (walk_ok _ _ Hw) as [Hokx _].
    destruct (walk_bound s _ _ HK HJ Hw v q eq_refl) as [[_ H]|(y & Hy & Hyc & Hle)]; [exact H|].
    apply (le_trans _ (dist (si s y))); [apply (k_ok _ _ _ _ _ s HK); right; exact Hc|apply (k_ok _ _ _ _ _ s HK), Hy|exact Hokx| |exact Hle].
    apply (j_order _ s HJ); assumption.
  Qed.

  (** What is known of the state in which the search stops. *)
  Record good (s : state V C) : Prop := {
    gd_K : K s;
    gd_J : exists ex, J ex s;
    gd_min : forall v q x, isclosed (si s v) = true -> walk (v :: q) x -> le (dist (si s v)) x;
    gd_cand : forall v c, In (v, c) (sc s) -> isclosed (si s v) = true }.

  Lemma good_none s : K s -> J none s -> (forall v c, In (v, c) (sc s) -> isclosed (si s v) = true) -> good s.
  Proof. intros HK HJ Hc. constructor; [exact HK|exists none; exact HJ| |exact Hc]. intros v q x. apply closed_min; assumption. Qed.

  Lemma good_turn s cur o s2 : K s -> J none s -> pop (total (si s)) (so s) = Some (cur, o) -> si s2 = si (close s cur o) -> so s2 = o ->
    (forall v c, In (v, c) (sc s2) -> v = cur \/ isclosed (si s v) = true) -> good s2.
  Proof.
    intros HK HJ Ep Ei Es Hc. destruct (turn_J s cur o HK HJ Ep) as (HK1 & HJ1 & Hcc & Hca & Ed & Ec & _ & Hm).
    constructor.
    - apply (K_cand all zero lt start ok (close s cur o)); [exact Ei|exact Es|exact HK1].
    - exists (fun x => x = cur). apply (J_same _ (close s cur o)); [intros v; rewrite Ei; auto|exact HJ1].
    - intros v q x. rewrite Ei, Ec, Ed. intros Hv Hw. destruct (isclosed (si s v)) eqn:Ev; [apply (closed_min s v q x HK HJ Ev Hw)|].
      destruct Hv as [->|]; [|discriminate]. destruct (walk_ok _ _ Hw) as [Hokx Hall].
      destruct (walk_bound s _ _ HK HJ Hw cur q eq_refl) as [[_ H]|(y & Hy & Hyc & Hle)]; [exact H|].
      apply (le_trans _ (dist (si s y))); [|apply (k_ok _ _ _ _ _ s HK), Hy|exact Hokx|apply Hm; assumption|exact Hle].
      rewrite <- Ed. apply (k_ok _ _ _ _ _ _ HK1). right. exact Hcc.
    - intros v c Hin. rewrite Ei. apply Ec. eapply Hc; exact Hin.
  Qed.

  Lemma tloop_good fuel : forall n t s r s' l, K s -> J none s -> (forall v c, In (v, c) (sc s) -> isclosed (si s v) = true) ->
    tloop fuel n t s = (r, s', l) -> good s'.
  Proof.
    induction fuel as [|k IH]; intros n t s r s' l HK HJ Hc E; cbn [GoalTest.tloop] in E; [injection E as _ <- _; apply good_none; assumption|].
    destruct (so s) as [|v0 o0] eqn:Eo; [injection E as _ <- _; apply good_none; assumption|].
    rewrite <- Eo in E. destruct (timeout n); [injection E as _ <- _; apply good_none; assumption|].
    destruct (pop (total (si s)) (so s)) as [[cur o]|] eqn:Ep; [|injection E as _ <- _; apply good_none; assumption].
    cbv zeta in E. destruct (test t cur (si (close s cur o) cur)) as [[t' cand] term].
    set (s2 := match cand with Some c => add_cand (close s cur o) cur c | None => close s cur o end) in *.
    assert (Ei : si s2 = si (close s cur o)) by (unfold s2; destruct cand; reflexivity).
    assert (Es : so s2 = o) by (unfold s2; destruct cand; reflexivity).
    assert (Hc2 : forall v c, In (v, c) (sc s2) -> v = cur \/ isclosed (si s v) = true).
    { intros v c H. unfold s2 in H. destruct cand as [c0|]; [|right; apply (Hc v c H)]. cbn [GoalTest.add_cand s_cand] in H.
      apply in_app_or in H as [H|[H|[]]]; [right; apply (Hc v c H)|]. injection H as <- _. left. reflexivity. }
    pose proof (good_turn s cur o s2 HK HJ Ep Ei Es Hc2) as HG.
    destruct term; [injection E as _ <- _; exact HG|]. destruct (_ && _ && _); [injection E as _ <- _; exact HG|].
    destruct (process_all cur (nbr cur) s2) as [s3|] eqn:E3; [|injection E as _ <- _; exact HG].
    destruct (turn_J s cur o HK HJ Ep) as (HK1 & HJ1 & Hcc & Hca & Ed & Ec & Ht & Hm).
    destruct (Ht s2 Ei (gd_K _ HG) s3 E3) as (HK3 & HJ3 & Hc3).
    destruct (tloop k (S n) t' s3) as [[r0 s0] l0] eqn:El. injection E as _ <- _.
    apply (IH _ _ _ _ _ _ HK3 HJ3) in El; [exact El|]. intros v c. rewrite (process_all_cand _ _ _ _ _ _ _ _ _ _ E3). intros H. rewrite Hc3. apply Ec. eapply Hc2; exact H.
  Qed.

  Lemma fresh_J first : J none (init_search V C veqb zero tot push start (fun _ => fresh_info V C zero inf) first).
  Proof using veqb_spec Hpush.
    unfold init_search. destruct (add_starts_spec veqb veqb_spec zero tot push Hpush start (State V C (fun _ => fresh_info V C zero inf) [] [] first)) as (A & B & D & F & G & Kc & Kh).
    match type of A with forall v, In v (so ?s0) <-> _ => set (s := s0) in * end.
    assert (Hh : forall v, hh (si s v) = zero) by (intros v; rewrite Kh; reflexivity).
    assert (Hc : forall v, isclosed (si s v) = false) by (intros v; rewrite Kc; reflexivity).
    constructor.
    - intros v _. apply Hh.
    - intros v. left. apply Hh.
    - intros v Hv Hn. unfold GenericProofs.seen in Hv. rewrite (F v Hn) in Hv. destruct Hv; discriminate.
    - intros v Hv. rewrite Hc in Hv. discriminate.
    - intros v w Hv. rewrite Hc in Hv. discriminate.
  Qed.

  (** Whatever the test does: the path returned is a cheapest one to its end. *)
  Lemma trun_shortest fuel t first p s' l : trun fuel t (fun _ => fresh_info V C zero inf) first = (GPath V p, s', l) -> p <> [] ->
    exists v x q0, rev p = v :: q0 /\ walk (rev p) x /\ best (cands l) = Some v /\ forall q y, walk (v :: q) y -> le x y.
  Proof.
    unfold GoalTest.trun. intros E Hne.
    destruct (fresh_K veqb veqb_spec all zero inf add lt tot nbr push Hpush start (fun _ => true) ok Hao start_all first) as (HK & _ & _).
    pose proof (start_cand veqb veqb_spec zero tot push Hpush start (fun _ => fresh_info V C zero inf) first) as Esc.
    destruct (tloop_shape veqb all add lt tot nbr hval hgoal push pop start test use_candidates over best timeout _ _ _ _ _ _ _ E) as [Ec Ha]. rewrite Esc in Ec. cbn [app] in Ec.
    apply tloop_good in E; [|exact HK|apply fresh_J|rewrite Esc; intros v c []].
    destruct E as [HK' [ex HJ'] Hmin' Hc']. destruct Ha as [Ha|[Ha|Ha]]; [|discriminate|discriminate]. unfold GenericSearch.finish in Ha. rewrite <- Ec.
    destruct (best (sc s')) as [v|] eqn:Eb; [|congruence]. destruct (Hbest _ _ Eb) as (c & Hin).
    destruct (backtrack (si s') v) as [p'|] eqn:Eq; [|discriminate]. cbn [of_bt] in Ha. injection Ha as <-.
    pose proof (Hc' v c Hin) as Hcl. destruct (closed_best ex s' v p HK' HJ' Hcl Eq) as (Hw & q0 & Eq0).
    exists v, (dist (si s' v)), q0. split; [exact Eq0|]. split; [exact Hw|]. split; [reflexivity|]. intros q y Hwq. apply (Hmin' v q y Hcl Hwq).
  Qed.

  (** A test that accepts the nodes of a fixed set, adding each as a candidate and stopping. *)
  Definition accepts (acc : V -> bool) : Prop := forall t v i, let '(_, cand, term) := test t v i in
    term = acc v /\ (acc v = true -> cand <> None) /\ (acc v = false -> cand = None).

  Lemma tloop_nearest acc fuel : accepts acc -> forall n t s p s' l, K s -> J none s -> sc s = [] -> (forall v, isclosed (si s v) = true -> acc v = false) ->
    tloop fuel n t s = (GPath V p, s', l) -> p <> [] ->
    exists v x q0, rev p = v :: q0 /\ walk (rev p) x /\ acc v = true /\ forall u q y, walk (u :: q) y -> acc u = true -> le x y.
  Proof.
    intros Hacc. induction fuel as [|k IH]; intros n t s p s' l HK HJ Hsc Hrej E Hne; cbn [GoalTest.tloop] in E; [discriminate|].
    assert (Hfin : finish s = GPath V [] \/ finish s = GUndef V).
    { unfold GenericSearch.finish. rewrite Hsc. destruct (best []) as [v|] eqn:Eb; [|left; reflexivity]. destruct (Hbest _ _ Eb) as (c & []). }
    destruct (so s) as [|v0 o0] eqn:Eo; [injection E as E _ _; destruct Hfin; congruence|].
    rewrite <- Eo in E. destruct (timeout n); [injection E as E _ _; destruct Hfin; congruence|].
    destruct (pop (total (si s)) (so s)) as [[cur o]|] eqn:Ep; [|discriminate].
    cbv zeta in E. specialize (Hacc t cur (si (close s cur o) cur)) as Ha. destruct (test t cur (si (close s cur o) cur)) as [[t' cand] term]. destruct Ha as (-> & Ha1 & Ha2).
    set (s2 := match cand with Some c => add_cand (close s cur o) cur c | None => close s cur o end) in *.
    assert (Ei : si s2 = si (close s cur o)) by (unfold s2; destruct cand; reflexivity).
    assert (Es : so s2 = o) by (unfold s2; destruct cand; reflexivity).
    destruct (turn_J s cur o HK HJ Ep) as (HK1 & HJ1 & Hcc & Hca & Ed & Ec & Ht & Hm).
    destruct (acc cur) eqn:Eacc.
    - injection E as E _ _. destruct cand as [c|]; [|destruct (Ha1 eq_refl); reflexivity].
      assert (Esc : sc s2 = [(cur, c)]) by (unfold s2; cbn [GoalTest.add_cand s_cand GenericSearch.close]; rewrite Hsc; reflexivity).
      unfold GenericSearch.finish in E. rewrite Esc in E. destruct (best [(cur, c)]) as [v|] eqn:Eb; [|congruence].
      destruct (Hbest _ _ Eb) as (c' & [Hin|[]]). injection Hin as <- <-.
      destruct (backtrack (si s2) cur) as [p'|] eqn:Eq; [|discriminate]. cbn [of_bt] in E. injection E as <-.
      rewrite Ei in Eq. destruct (closed_best _ _ cur p' HK1 HJ1 Hcc Eq) as (Hw & q0 & Eq0).
      exists cur, (dist (si (close s cur o) cur)), q0. split; [exact Eq0|]. split; [exact Hw|]. split; [exact Eacc|].
      intros u q y Hwu Hu. rewrite Ed. destruct (walk_ok _ _ Hwu) as [Hoky _].
      destruct (walk_bound s _ _ HK HJ Hwu u q eq_refl) as [[H _]|(z & Hz & Hzc & Hle)]; [rewrite (Hrej u H) in Hu; discriminate|].
      assert (Hcur : isclosed (si s cur) = false) by (destruct (isclosed (si s cur)) eqn:X; [rewrite (Hrej cur X) in Eacc; discriminate|reflexivity]).
      apply (le_trans _ (dist (si s z))); [|apply (k_ok _ _ _ _ _ s HK), Hz|exact Hoky|apply Hm; assumption|exact Hle].
      rewrite <- Ed. apply (k_ok _ _ _ _ _ _ HK1). right. exact Hcc.
    - assert (E2 : s2 = close s cur o) by (unfold s2; rewrite (Ha2 eq_refl); reflexivity). clearbody s2. subst s2. assert (Esc : sc (close s cur o) = []) by exact Hsc.
      rewrite Esc in E. cbn [negb] in E. rewrite andb_false_r in E. cbn [andb] in E.
      destruct (process_all cur (nbr cur) (close s cur o)) as [s3|] eqn:E3; [|discriminate].
      destruct (Ht (close s cur o) eq_refl HK1 s3 E3) as (HK3 & HJ3 & Hc3).
      destruct (tloop k (S n) t' s3) as [[r0 s0] l0] eqn:El. injection E as -> _ _.
      apply (IH _ _ _ _ _ _ HK3 HJ3) in El; [exact El|rewrite (process_all_cand _ _ _ _ _ _ _ _ _ _ E3); exact Hsc| |exact Hne].
      intros v. rewrite Hc3, Ec. intros [->|Hv]; [exact Eacc|apply Hrej, Hv].
  Qed.

  Lemma trun_nearest acc fuel t first p s' l : accepts acc ->
    trun fuel t (fun _ => fresh_info V C zero inf) first = (GPath V p, s', l) -> p <> [] ->
    exists v x q0, rev p = v :: q0 /\ walk (rev p) x /\ acc v = true /\ forall u q y, walk (u :: q) y -> acc u = true -> le x y.
  Proof.
    unfold GoalTest.trun. intros Hacc E Hne.
    destruct (fresh_K veqb veqb_spec all zero inf add lt tot nbr push Hpush start (fun _ => true) ok Hao start_all first) as (HK & _ & _).
    pose proof (start_cand veqb veqb_spec zero tot push Hpush start (fun _ => fresh_info V C zero inf) first) as Esc.
    apply (tloop_nearest acc) in E; [exact E|exact Hacc|exact HK|apply fresh_J|exact Esc| |exact Hne].
    intros v. unfold init_search. destruct (add_starts_spec veqb veqb_spec zero tot push Hpush start (State V C (fun _ => fresh_info V C zero inf) [] [] first)) as (_ & _ & _ & _ & _ & Kc & _).
    rewrite Kc. discriminate.
  Qed.
End Opt.
