(** Searches with a goal test supplied by the caller (C68): proofs about GoalTest.v. *)
From Coq Require Import Relations Wellfounded.
From Verif Require Import Base PathSpec GenericSearch GenericProofs GoalTest.

(** The walks from a start node over offered steps (newest node first) with
    their cost, added up from the start as the search does. *)
Inductive walk {V C} (zero : C) (add : C -> C -> C) (nbr : V -> list (V * C)) (start : list V) : list V -> C -> Prop :=
| walk_one s : In s start -> walk zero add nbr start [s] zero
| walk_step u v c p x : walk zero add nbr start (u :: p) x -> In (v, c) (nbr u) -> walk zero add nbr start (v :: u :: p) (add x c).

(** The candidates added during a list of calls. *)
Definition cands {V C} (l : list (call V C)) : list (V * C) :=
  flat_map (fun e => match c_cand e with Some c => [(c_node e, c)] | None => [] end) l.

Section Proofs.
  Context {V C T : Type}.
  Variable veqb : V -> V -> bool.
  Hypothesis veqb_spec : forall a b, reflect (a = b) (veqb a b).
  Variable all : list V.
  Variable zero inf : C.
  Variable add : C -> C -> C.
  Variable lt : C -> C -> bool.
  Variable tot : C -> C -> C.
  Variable nbr : V -> list (V * C).
  Variable hval : V -> C.
  Variable hgoal : bool.
  Variable push : (V -> C) -> V -> list V -> list V.
  Variable pop : (V -> C) -> list V -> option (V * list V).
  Hypothesis Hpush : push_ok push.
  Hypothesis Hpop : pop_ok pop.
  Variable start : list V.
  Variable test : T -> V -> info V C -> T * option C * bool.
  Variable use_candidates : bool.
  Variable over : C -> C -> bool.
  Variable best : list (V * C) -> option V.
  Variable timeout : nat -> bool.
  Hypothesis Hbest : best_ok best.

  Notation si := (s_info V C).
  Notation so := (s_open V C).
  Notation sc := (s_cand V C).
  Notation dist := (g_dist V C).
  Notation prev := (g_prev V C).
  Notation isopen := (g_open V C).
  Notation isclosed := (g_closed V C).
  Notation setn := (setn V C veqb).
  Notation total := (total V C tot).
  Notation close := (close V C veqb hval hgoal).
  Notation processNeighbor := (processNeighbor V C veqb add lt tot hval push false).
  Notation process_all := (process_all V C veqb add lt tot hval push false).
  Notation finish := (finish V C veqb all start best).
  Notation backtrack := (backtrack V C veqb all start).
  Notation tloop := (tloop V C T veqb all add lt tot nbr hval hgoal push pop start test use_candidates over best timeout).
  Notation trun := (trun V C T veqb all zero add lt tot nbr hval hgoal push pop start test use_candidates over best timeout).
  Notation add_cand := (add_cand V C tot).
  Notation any := (fun _ : V => true).
  Notation valid_inv := (valid_inv nbr start any).
  Notation edge := (edge nbr).
  Notation walk := (walk zero add nbr start).
  Notation seen := (@seen V C).

  Let vdec (a b : V) : {a = b} + {a <> b}.
  Proof. destruct (veqb_spec a b); auto. Qed.

  (** What a run does at one node, as a case distinction. *)
  Lemma process_all_cand cur l : forall s s', process_all cur l s = Some s' -> sc s' = sc s.
  Proof using Type.
    induction l as [|[v c] l IH]; intros s s' E; cbn [GenericSearch.process_all] in E; [injection E as <-; reflexivity|].
    destruct (processNeighbor cur s (v, c)) as [s1|] eqn:E1; [|discriminate]. cbn [obind] in E. rewrite (IH _ _ E).
    unfold GenericSearch.processNeighbor in E1.
    destruct (_ && _); [injection E1 as <-; reflexivity|]. destruct (_ || _); [|injection E1 as <-; reflexivity].
    destruct (veqb v cur); [discriminate|]. injection E1 as <-. reflexivity.
  Qed.

  (** ** Every node contents, every test: the path returned *)
  Definition reached (v : V) : Prop := exists p, hd_error p = Some v /\ chain (fun a b => edge b a) p /\ exists s, last p v = s /\ In s start.

  Definition answer (s : state V C) (r : gres V) : Prop :=
    r = finish s \/ r = GUndef V \/ r = GFuel V.

  Lemma tloop_shape fuel : forall n t s r s' l, tloop fuel n t s = (r, s', l) ->
    sc s' = sc s ++ cands l /\ answer s' r.
  Proof using Type.
    unfold answer. induction fuel as [|k IH]; intros n t s r s' l E; cbn [GoalTest.tloop] in E.
    { injection E as <- <- <-. cbn. rewrite app_nil_r. auto. }
    destruct (so s) as [|v0 o0] eqn:Eo.
    { injection E as <- <- <-. cbn. rewrite app_nil_r. auto. }
    rewrite <- Eo in E. destruct (timeout n).
    { injection E as <- <- <-. cbn. rewrite app_nil_r. auto. }
    destruct (pop (total (si s)) (so s)) as [[cur o]|].
    2:{ injection E as <- <- <-. cbn. rewrite app_nil_r. auto. }
    cbv zeta in E. destruct (test t cur (si (close s cur o) cur)) as [[t' cand] term].
    set (s2 := match cand with Some c => add_cand (close s cur o) cur c | None => close s cur o end) in *.
    assert (E2 : forall l', sc s2 ++ cands l' = sc s ++ cands (Call V C cur cand term :: l')).
    { intros l'. unfold s2, cands. cbn [flat_map c_cand c_node]. destruct cand; [|reflexivity]. cbn [GoalTest.add_cand s_cand app]. rewrite <- app_assoc. reflexivity. }
    destruct term.
    { injection E as <- <- <-. rewrite <- E2. cbn. rewrite app_nil_r. auto. }
    destruct (_ && _ && _).
    { injection E as <- <- <-. rewrite <- E2. cbn. rewrite app_nil_r. auto. }
    destruct (process_all cur (nbr cur) s2) as [s3|] eqn:E3.
    - destruct (tloop k (S n) t' s3) as [[r0 s0] l0] eqn:El. injection E as <- <- <-.
      destruct (IH _ _ _ _ _ _ El) as [A B]. split; [|exact B]. rewrite A, <- E2. f_equal. eapply process_all_cand; eassumption.
    - injection E as <- <- <-. rewrite <- E2. cbn. rewrite app_nil_r. auto.
  Qed.

  Lemma tloop_valid fuel : forall n T0 t s p s' l, valid_inv T0 s -> tloop fuel n t s = (GPath V p, s', l) ->
    exists T1, valid_inv T1 s'.
  Proof.
    induction fuel as [|k IH]; intros n T0 t s p s' l HV E; cbn [GoalTest.tloop] in E; [discriminate|].
    destruct (so s) as [|v0 o0] eqn:Eo.
    { injection E as _ <- _. exists T0. exact HV. }
    rewrite <- Eo in E. destruct (timeout n).
    { injection E as _ <- _. exists T0. exact HV. }
    pose proof (Hpop (total (si s)) (so s)) as Hp.
    destruct (pop (total (si s)) (so s)) as [[cur o]|]; [|discriminate].
    destruct HV as (HL & Ho & Hc). destruct Hp as (Hp1 & _ & Hp2 & _).
    assert (Hcur : In cur T0) by (apply Ho; exact Hp1).
    cbv zeta in E. destruct (test t cur (si (close s cur o) cur)) as [[t' cand] term].
    set (s2 := match cand with Some c => add_cand (close s cur o) cur c | None => close s cur o end) in *.
    assert (HV2 : valid_inv T0 s2).
    { assert (Hi : si s2 = si (close s cur o)) by (unfold s2; destruct cand; reflexivity).
      assert (Hos : so s2 = o) by (unfold s2; destruct cand; reflexivity).
      split; [|split].
      - rewrite Hi. apply (linked_same nbr start T0 (si s)); [|assumption]. intros w. apply close_prev. exact veqb_spec.
      - rewrite Hos. intros w Hw. apply Ho, Hp2, Hw.
      - intros v c Hv. unfold s2 in Hv. destruct cand as [c0|]; [|apply (Hc v c Hv)]. cbn [GoalTest.add_cand s_cand] in Hv.
        apply in_app_or in Hv as [Hv|[Hv|[]]]; [apply (Hc v c Hv)|]. injection Hv as <- <-. auto. }
    destruct term; [injection E as _ <- _; exists T0; exact HV2|].
    destruct (_ && _ && _); [injection E as _ <- _; exists T0; exact HV2|].
    destruct (process_all cur (nbr cur) s2) as [s3|] eqn:E3; [|discriminate].
    destruct (process_all_valid veqb veqb_spec add lt tot nbr hval push Hpush start any false cur (nbr cur) T0 s2 s3 HV2 Hcur) as (T' & _ & HV3); [|exact E3|].
    { intros [w c] Hw. exists c. exact Hw. }
    destruct (tloop k (S n) t' s3) as [[r0 s0] l0] eqn:El. injection E as -> -> <-. eapply IH; eassumption.
  Qed.

  Lemma start_valid f first : valid_inv start (init_search V C veqb zero tot push start f first).
  Proof using veqb_spec Hpush.
    unfold init_search. destruct (add_starts_spec veqb veqb_spec zero tot push Hpush start (State V C f [] [] first)) as (A & B & D & _).
    split; [|split].
    - intros v Hv Hs. contradiction.
    - intros v Hv. apply A in Hv as [[]|Hv]. exact Hv.
    - rewrite B. intros v c [].
  Qed.
  Lemma start_cand f first : sc (init_search V C veqb zero tot push start f first) = [].
  Proof using veqb_spec Hpush.
    unfold init_search. destruct (add_starts_spec veqb veqb_spec zero tot push Hpush start (State V C f [] [] first)) as (A & B & _). exact B.
  Qed.

  (** A non-empty answer leads from a start node over offered steps, without
      repetition, to the best candidate the test added. *)
  Lemma trun_valid fuel t f first p s' l : trun fuel t f first = (GPath V p, s', l) -> p <> [] ->
    exists st v, hd_error p = Some st /\ In st start /\ last p st = v /\ chain edge p /\ NoDup p /\ best (cands l) = Some v.
  Proof.
    unfold GoalTest.trun. intros E Hne. destruct (tloop_valid _ _ _ _ _ _ _ _ (start_valid f first) E) as (T1 & HL & _ & Hc).
    destruct (tloop_shape _ _ _ _ _ _ _ E) as [Ec Ha]. rewrite start_cand in Ec. cbn [app] in Ec.
    destruct Ha as [Ha|[Ha|Ha]]; [|discriminate|discriminate]. unfold GenericSearch.finish in Ha. rewrite <- Ec.
    destruct (best (sc s')) as [v|] eqn:Eb; [|congruence].
    destruct (Hbest _ _ Eb) as (c & Hin). destruct (Hc v c Hin) as [HvT _].
    destruct (backtrack (si s') v) as [q|] eqn:Eq; [|discriminate]. cbn [of_bt] in Ha. injection Ha as <-.
    destruct (backtrack_valid veqb veqb_spec all nbr start T1 (si s') v p HL HvT Eq Hne) as (st & H1 & H2 & H3 & H4 & H5).
    exists st, v. auto 8.
  Qed.

  (** ** From freshly initialised nodes *)
  Variable ok : C -> Prop.
  Hypothesis Hao : arith_ok all zero add lt nbr ok.
  Hypothesis nbr_all : forall u v c, In u all -> In (v, c) (nbr u) -> In v all.
  Hypothesis start_all : incl start all.
  Hypothesis best_some : forall l, best l = None -> l = [].
  Notation K := (K all zero lt start ok).
  Notation vec := (vec all).
  Notation vlt := (vlt lt ok).

  Lemma K_cand s s2 : si s2 = si s -> so s2 = so s -> K s -> K s2.
  Proof using Type.
    intros Ei Es [A1 A2 A3 A4 A5 A6 A7 A8]. constructor; unfold GenericProofs.seen in *; rewrite ?Ei, ?Es; auto.
  Qed.

  (** Which nodes the test gets to see: it terminates, and without an abort every
      node that can be reached has been asked about. *)
  Inductive reach : V -> Prop :=
  | reach_start v : In v start -> reach v
  | reach_step u v : reach u -> edge u v -> reach v.
  Definition stopped (l : list (call V C)) (cs : list (V * C)) : Prop :=
    (exists e, In e l /\ c_term e = true) \/ (use_candidates = true /\ cs <> []).

  Lemma tloop_complete (Hto : forall n, timeout n = false) : forall (vv : list (option C)) (m : nat) (asked : V -> Prop) (n : nat) t s,
    vec s = vv -> (length (so s) <= m)%nat -> K s ->
    (forall v, seen s v -> In v (so s) \/ (asked v /\ forall w c, In (w, c) (nbr v) -> seen s w)) ->
    (forall v c, In (v, c) (sc s) -> seen s v) ->
    exists fuel p s' l, tloop fuel n t s = (GPath V p, s', l) /\ (p = [] <-> sc s ++ cands l = []) /\
      ((forall v, reach v -> asked v \/ exists e, In e l /\ c_node e = v) \/ stopped l (sc s ++ cands l)).
  Proof using veqb_spec Hpush Hpop Hbest Hao nbr_all best_some.
    assert (Hfin : forall s, K s -> (forall v c, In (v, c) (sc s) -> seen s v) ->
      exists p, finish s = GPath V p /\ (p = [] <-> sc s = [])).
    { intros s HK Hc. unfold GenericSearch.finish. destruct (best (sc s)) as [v|] eqn:Eb.
      - destruct (Hbest _ _ Eb) as (c & Hin). destruct (backtrack_some veqb veqb_spec all zero add lt nbr start ok Hao s v HK (Hc v c Hin)) as (x & p & E).
        rewrite E. exists (x :: p). split; [reflexivity|]. split; [discriminate|]. intros H. rewrite H in Hin. destruct Hin.
      - exists []. split; [reflexivity|]. split; [|reflexivity]. intros _. apply best_some. assumption. }
    induction vv as [vv IHv] using (well_founded_ind (vlt_wf all zero add lt nbr ok Hao)).
    induction m as [m IHm] using (well_founded_ind lt_wf).
    intros asked n t s Hvec Hm HK Hd Hc.
    destruct (so s) as [|v0 o0] eqn:Eo.
    { destruct (Hfin s HK Hc) as (p & Ef & Hp). exists 1%nat, p, s, []. cbn [GoalTest.tloop cands flat_map]. rewrite Eo, Ef, app_nil_r.
      split; [reflexivity|]. split; [exact Hp|]. left. intros v Hv. left.
      assert (Hs : seen s v).
      { induction Hv as [v Hv|u v _ IH [c He]]; [apply (k_starts _ _ _ _ _ s HK), Hv|]. destruct (Hd u IH) as [[]|[_ H]]. eapply H; exact He. }
      destruct (Hd v Hs) as [[]|[Ha _]]. exact Ha. }
    pose proof (Hpop (total (si s)) (so s)) as Hp.
    destruct (pop (total (si s)) (so s)) as [[cur o]|] eqn:Ep; [|congruence].
    destruct Hp as (Hp1 & Hp2 & Hp3 & Hp4).
    assert (Hcs : seen s cur) by (apply (k_list _ _ _ _ _ s HK); assumption).
    assert (Hca : In cur all) by (apply (k_all _ _ _ _ _ s HK); assumption).
    destruct (close_K veqb veqb_spec all zero lt hval start hgoal ok s cur o HK Hcs Hp4 Hp3) as (HK1 & Hv1 & Hs1).
    destruct (test t cur (si (close s cur o) cur)) as [[t' cand] term] eqn:Et.
    set (s2 := match cand with Some c => add_cand (close s cur o) cur c | None => close s cur o end).
    assert (Ei : si s2 = si (close s cur o)) by (unfold s2; destruct cand; reflexivity).
    assert (Es : so s2 = o) by (unfold s2; destruct cand; reflexivity).
    assert (HK2 : K s2) by (apply (K_cand (close s cur o)); [exact Ei|exact Es|exact HK1]).
    assert (Hs2 : forall w, seen s2 w <-> seen s w) by (intros w; rewrite <- Hs1; unfold GenericProofs.seen; rewrite Ei; reflexivity).
    assert (E2 : forall l', sc s2 ++ cands l' = sc s ++ cands (Call V C cur cand term :: l')).
    { intros l'. unfold s2, cands. cbn [flat_map c_cand c_node]. destruct cand; [|reflexivity]. cbn [GoalTest.add_cand s_cand app]. rewrite <- app_assoc. reflexivity. }
    assert (E20 : sc s2 = sc s ++ cands [Call V C cur cand term]) by (rewrite <- E2; symmetry; apply app_nil_r).
    assert (Hc2 : forall v c, In (v, c) (sc s2) -> seen s2 v).
    { intros v c H. apply Hs2. unfold s2 in H. destruct cand as [c0|]; [|apply (Hc v c H)]. cbn [GoalTest.add_cand s_cand] in H.
      apply in_app_or in H as [H|[H|[]]]; [apply (Hc v c H)|]. injection H as <- _. exact Hcs. }
    destruct (Hfin s2 HK2 Hc2) as (p2 & Ef2 & Hp2').
    destruct term.
    { exists 1%nat, p2, s2, [Call V C cur cand true]. cbn [GoalTest.tloop]. rewrite Eo, Hto, <- Eo, Ep. cbv zeta. rewrite Et. fold s2. rewrite Ef2.
      split; [reflexivity|]. rewrite <- E20. split; [exact Hp2'|]. right. left. eexists. split; [left; reflexivity|reflexivity]. }
    destruct (use_candidates && negb (match sc s2 with [] => true | _ :: _ => false end) && over (total (si s2) cur) (s_first V C s2)) eqn:Ex.
    { exists 1%nat, p2, s2, [Call V C cur cand false]. cbn [GoalTest.tloop]. rewrite Eo, Hto, <- Eo, Ep. cbv zeta. rewrite Et. fold s2. rewrite Ex, Ef2.
      split; [reflexivity|]. rewrite <- E20. split; [exact Hp2'|]. right. right.
      destruct use_candidates; [|discriminate]. split; [reflexivity|]. destruct (sc s2); [discriminate|discriminate]. }
    destruct (process_all_K veqb veqb_spec all zero add lt tot nbr hval push Hpush start false ok Hao nbr_all cur (nbr cur) s2 HK2 Hca) as (s3 & E3 & HK3 & Hn3 & Ec3 & A3 & B3 & D3 & M3);
      [apply Hs2; assumption|apply incl_refl|].
    assert (Hd3 : forall v, seen s3 v -> In v (so s3) \/ ((asked v \/ v = cur) /\ forall w c, In (w, c) (nbr v) -> seen s3 w)).
    { intros v Hv. destruct (D3 v Hv) as [Hv2|Hv2]; [|left; assumption].
      destruct (vdec v cur) as [->|Hne]; [right; split; [right; reflexivity|exact Hn3]|].
      apply Hs2 in Hv2. destruct (Hd v Hv2) as [Hin|[Ha Hdn]].
      + left. apply B3. rewrite Es. destruct (Hp4 v) as [|Hin']; [rewrite Eo; exact Hin|contradiction|exact Hin'].
      + right. split; [left; exact Ha|]. intros w c Hw. apply A3, Hs2. eapply Hdn; eassumption. }
    assert (Hc3 : forall v c, In (v, c) (sc s3) -> seen s3 v).
    { intros v c. rewrite Ec3. intros H. apply A3. eapply Hc2; eassumption. }
    assert (Hv2 : vec s2 = vv).
    { rewrite <- Hvec, <- Hv1. unfold GenericProofs.vec, val_of. rewrite Ei. reflexivity. }
    assert (Hrec : exists fuel p s' l, tloop fuel (S n) t' s3 = (GPath V p, s', l) /\ (p = [] <-> sc s3 ++ cands l = []) /\
      ((forall v, reach v -> (asked v \/ v = cur) \/ exists e, In e l /\ c_node e = v) \/ stopped l (sc s3 ++ cands l))).
    { destruct M3 as [[M M']|M].
      - apply (IHm (length (so s3))); [|congruence|reflexivity| | |]; auto.
        rewrite M, Es. rewrite Eo in Hp2. cbn [length] in Hp2, Hm. clear - Hp2 Hm. cbn [length] in *. lia.
      - apply (IHv (vec s3)) with (m := length (so s3)); auto. rewrite <- Hv2. exact M. }
    destruct Hrec as (fuel & p & s' & l & El & Hpn & Hcov). rewrite Ec3, E2 in Hpn, Hcov.
    exists (S fuel), p, s', (Call V C cur cand false :: l). cbn [GoalTest.tloop]. rewrite Eo, Hto, <- Eo, Ep. cbv zeta. rewrite Et. fold s2. rewrite Ex, E3, El.
    split; [reflexivity|]. split; [exact Hpn|]. destruct Hcov as [Hcov|[(e & He & Ht)|Hcov]].
    - left. intros v Hv. destruct (Hcov v Hv) as [[Ha| ->]|(e & He & Hn)]; [left; exact Ha| |].
      + right. eexists. split; [left; reflexivity|reflexivity].
      + right. exists e. split; [right; exact He|exact Hn].
    - right. left. exists e. split; [right; exact He|exact Ht].
    - right. right. exact Hcov.
  Qed.

  Lemma trun_complete (Hto : forall n, timeout n = false) t first :
    exists fuel p s' l, trun fuel t (fun _ => fresh_info V C zero inf) first = (GPath V p, s', l) /\ (p = [] <-> cands l = []) /\
      ((forall v, reach v -> exists e, In e l /\ c_node e = v) \/ stopped l (cands l)).
  Proof using veqb_spec Hpush Hpop Hbest Hao nbr_all start_all best_some.
    destruct (fresh_K veqb veqb_spec all zero inf add lt tot nbr push Hpush start any ok Hao start_all first) as (HK & Hd & Hc).
    unfold GoalTest.trun. pose proof (start_cand (fun _ => fresh_info V C zero inf) first) as Ec.
    set (s := init_search V C veqb zero tot push start _ first) in *.
    destruct (tloop_complete Hto _ _ (fun _ => False) 0 t s eq_refl (le_n _) HK) as (fuel & p & s' & l & E & Hp & Hcov).
    - intros v Hv. left. assert (Hs : In v (so s)).
      { destruct (Hd v Hv) as [H|[_ H]]; [exact H|]. destruct (H eq_refl). exact Ec. }
      exact Hs.
    - exact Hc.
    - rewrite Ec in Hp, Hcov. cbn [app] in Hp, Hcov. exists fuel, p, s', l. split; [exact E|]. split; [exact Hp|].
      destruct Hcov as [Hcov|Hcov]; [left|right; exact Hcov]. intros v Hv. destruct (Hcov v Hv) as [[]|H]. exact H.
  Qed.

  (** The test is only asked about nodes that can be reached. *)
  Lemma process_all_reach cur l : forall s s', reach cur -> incl l (nbr cur) -> (forall w, In w (so s) -> reach w) ->
    process_all cur l s = Some s' -> forall w, In w (so s') -> reach w.
  Proof using Hpush.
    induction l as [|[v c] l IH]; intros s s' Hr Hl Ho E; cbn [GenericSearch.process_all] in E; [injection E as <-; exact Ho|].
    destruct (processNeighbor cur s (v, c)) as [s1|] eqn:E1; [|discriminate]. cbn [obind] in E.
    apply (IH s1 s' Hr); [intros x Hx; apply Hl; right; exact Hx| |exact E].
    unfold GenericSearch.processNeighbor in E1.
    destruct (_ && _); [injection E1 as <-; exact Ho|]. destruct (_ || _); [|injection E1 as <-; exact Ho].
    destruct (veqb v cur); [discriminate|]. injection E1 as <-. cbn [s_open]. intros w Hw. apply (proj2 (Hpush _ _ _)) in Hw as [->|Hw]; [|auto].
    apply (reach_step cur); [exact Hr|]. exists c. apply Hl. left. reflexivity.
  Qed.
  Lemma tloop_reach fuel : forall n t s r s' l, (forall w, In w (so s) -> reach w) -> tloop fuel n t s = (r, s', l) ->
    forall e, In e l -> reach (c_node e).
  Proof using Hpush Hpop.
    induction fuel as [|k IH]; intros n t s r s' l Ho E; cbn [GoalTest.tloop] in E; [injection E as <- <- <-; intros e []|].
    destruct (so s) as [|v0 o0] eqn:Eo; [injection E as <- <- <-; intros e []|].
    rewrite <- Eo in E, Ho. destruct (timeout n); [injection E as <- <- <-; intros e []|].
    pose proof (Hpop (total (si s)) (so s)) as Hp.
    destruct (pop (total (si s)) (so s)) as [[cur o]|]; [|injection E as <- <- <-; intros e []].
    destruct Hp as (Hp1 & _ & Hp2 & _). pose proof (Ho cur Hp1) as Hr.
    cbv zeta in E. destruct (test t cur (si (close s cur o) cur)) as [[t' cand] term].
    set (s2 := match cand with Some c => add_cand (close s cur o) cur c | None => close s cur o end) in *.
    assert (Hos : so s2 = o) by (unfold s2; destruct cand; reflexivity).
    assert (H1 : forall e, In e [Call V C cur cand term] -> reach (c_node e)) by (intros e [<-|[]]; exact Hr).
    destruct term; [injection E as <- <- <-; exact H1|]. destruct (_ && _ && _); [injection E as <- <- <-; exact H1|].
    destruct (process_all cur (nbr cur) s2) as [s3|] eqn:E3; [|injection E as <- <- <-; exact H1].
    destruct (tloop k (S n) t' s3) as [[r0 s0] l0] eqn:El. injection E as <- <- <-.
    intros e [<-|He]; [exact Hr|]. apply (IH _ _ _ _ _ _ (process_all_reach cur (nbr cur) s2 s3 Hr (incl_refl _) ltac:(rewrite Hos; intros w Hw; apply Ho, Hp2, Hw) E3) El e He).
  Qed.
  Lemma trun_reach fuel t f first r s' l : trun fuel t f first = (r, s', l) -> forall e, In e l -> reach (c_node e).
  Proof using veqb_spec Hpush Hpop.
    unfold GoalTest.trun. intros E. refine (tloop_reach _ _ _ _ _ _ _ _ E). intros w Hw.
    destruct (add_starts_spec veqb veqb_spec zero tot push Hpush start (State V C f [] [] first)) as (A & _).
    apply A in Hw as [[]|Hw]. apply reach_start, Hw.
  Qed.
End Proofs.
