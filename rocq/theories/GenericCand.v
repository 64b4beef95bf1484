(** Goal candidates of the generic search (C54). *)
From Verif Require Import Base PathSpec GenericSearch GenericProofs.

Section Cand.
  Context {V C : Type}.
  Variable veqb : V -> V -> bool.
  Hypothesis veqb_spec : forall a b, reflect (a = b) (veqb a b).
  Variable all : list V.
  Variable zero inf : C.
  Variable add : C -> C -> C.
  Variable lt : C -> C -> bool.
  Variable tot : C -> C -> C.
  Variable nbr : V -> list (V * C).
  Variable hval : V -> C.
  Variable push : (V -> C) -> V -> list V -> list V.
  Variable pop : (V -> C) -> list V -> option (V * list V).
  Hypothesis Hpush : push_ok push.
  Hypothesis Hpop : pop_ok pop.
  Variable start : list V.
  Variable is_goal : V -> bool.
  Variable has_goal : bool.
  Variable over : C -> C -> bool.
  Variable gdist : V -> C.
  Variable best : list (V * C) -> option V.
  Variable timeout : nat -> bool.
  (** std::priority_queue with PairDistance: top() is a candidate no other one is nearer than. *)
  Definition best_min : Prop := forall l v, best l = Some v ->
    exists c, In (v, c) l /\ forall w d, In (w, d) l -> lt d c = false.
  Hypothesis Hbest : best_min.

  Notation si := (s_info V C).
  Notation so := (s_open V C).
  Notation sc := (s_cand V C).
  Notation setn := (setn V C veqb).
  Notation expanded s v := (g_expanded V C (si s v) = true).
  Notation processNeighbor := (processNeighbor V C veqb add lt tot hval push has_goal).
  Notation process_all := (process_all V C veqb add lt tot hval push has_goal).
  Notation loop := (loop V C veqb all add lt tot nbr hval push pop start is_goal has_goal true over gdist best timeout).
  Notation run := (run V C veqb all zero add lt tot nbr hval push pop start is_goal has_goal true over gdist best timeout).
  Notation finish := (finish V C veqb all start best).
  Notation valid_inv := (valid_inv nbr start is_goal).

  (** The candidates are exactly the accepted nodes expanded so far. *)
  Definition cinv (s : state V C) : Prop :=
    (forall v c, In (v, c) (sc s) -> c = gdist v /\ expanded s v) /\
    (forall v, expanded s v -> is_goal v = true -> In (v, gdist v) (sc s)).

  Let vdec (a b : V) : {a = b} + {a <> b}.
  Proof. destruct (veqb_spec a b); auto. Qed.

  Lemma process_cinv cur s vc s' : processNeighbor cur s vc = Some s' ->
    sc s' = sc s /\ (forall v, g_expanded V C (si s' v) = g_expanded V C (si s v)).
  Proof using veqb_spec.
    destruct vc as [v c]. unfold GenericSearch.processNeighbor. intros E.
    assert (Hset : forall n w, g_expanded V C n = g_expanded V C (si s v) ->
      g_expanded V C (setn (si s) v n w) = g_expanded V C (si s w)).
    { intros n w Hn. destruct (vdec w v) as [->|Hne]; [rewrite setn_same by exact veqb_spec; exact Hn|].
      rewrite setn_other by (exact veqb_spec || exact Hne). reflexivity. }
    destruct (_ && _); [injection E as <-; split; [reflexivity|intros w; apply Hset; reflexivity]|].
    destruct (_ || _); [|injection E as <-; split; [reflexivity|intros w; apply Hset; reflexivity]].
    destruct (veqb v cur); [discriminate|]. injection E as <-. split; [reflexivity|]. intros w. apply Hset. reflexivity.
  Qed.

  Lemma process_all_cinv cur l : forall s s', process_all cur l s = Some s' ->
    sc s' = sc s /\ (forall v, g_expanded V C (si s' v) = g_expanded V C (si s v)).
  Proof using veqb_spec.
    induction l as [|vc l IH]; intros s s' E; cbn [GenericSearch.process_all] in E; [injection E as <-; auto|].
    destruct (processNeighbor cur s vc) as [s1|] eqn:E1; [|discriminate]. cbn [obind] in E.
    apply process_cinv in E1 as [A B]. apply IH in E as [A' B']. split; [congruence|]. intros v. rewrite B'. apply B.
  Qed.

  (** [p] ends in an expanded accepted node, and no expanded accepted node is nearer. *)
  Definition best_candidate (s : state V C) (p : list V) : Prop :=
    exists st t, hd_error p = Some st /\ last p st = t /\ is_goal t = true /\ expanded s t /\
      forall v, expanded s v -> is_goal v = true -> lt (gdist v) (gdist t) = false.

  Lemma finish_best T s p : valid_inv T s -> cinv s -> finish s = GPath V p -> p <> [] -> best_candidate s p.
  Proof.
    intros (HL & Ho & Hc) [C1 C2] E Hne. unfold GenericSearch.finish in E. destruct (best (sc s)) as [v|] eqn:Eb.
    - destruct (Hbest _ _ Eb) as (c & Hin & Hmin). destruct (Hc v c Hin) as [HvT Hg]. destruct (C1 v c Hin) as [-> Hx].
      destruct (GenericSearch.backtrack V C veqb all start (si s) v) as [q|] eqn:Eq; [|discriminate]. cbn [of_bt] in E. injection E as <-.
      destruct (backtrack_valid veqb veqb_spec all nbr start T (si s) v q HL HvT Eq Hne) as (st & H1 & _ & H3 & _).
      exists st, v. repeat (split; [assumption|]). intros w Hw Hwg. apply (Hmin w). apply C2; assumption.
    - injection E as <-. congruence.
  Qed.

  Lemma loop_best fuel : forall n T s p s', valid_inv T s -> cinv s -> loop fuel n s = (GPath V p, s') -> p <> [] ->
    best_candidate s' p.
  Proof.
    induction fuel as [|k IH]; intros n T s p s' HV HC E Hne; [discriminate|]. cbn [GenericSearch.loop] in E.
    destruct (so s) as [|v0 o0] eqn:Eo.
    { injection E as E <-. eapply finish_best; eauto. }
    rewrite <- Eo in E. destruct (timeout n).
    { injection E as E <-. eapply finish_best; eauto. }
    pose proof (Hpop (total V C tot (si s)) (so s)) as Hp.
    destruct (pop (total V C tot (si s)) (so s)) as [[cur o]|]; [|discriminate].
    destruct HV as (HL & Ho & Hc). destruct Hp as (Hp1 & _ & Hp2 & _).
    assert (Hcur : In cur T) by (apply Ho; exact Hp1).
    set (s1 := GenericSearch.close V C veqb hval has_goal s cur o) in *.
    assert (HV1 : valid_inv T s1).
    { split; [|split; [|exact Hc]].
      - apply (linked_same nbr start T (si s)); [|assumption]. intros w. apply close_prev. exact veqb_spec.
      - intros w Hw. apply Ho, Hp2, Hw. }
    rewrite andb_false_r in E. cbn [andb] in E.
    set (s2 := if is_goal cur then _ else s1) in *.
    assert (Hx1 : forall v, expanded s1 v <-> v = cur \/ expanded s v).
    { intros v. unfold s1, GenericSearch.close. cbn [s_info]. destruct (vdec v cur) as [->|Hn].
      - rewrite setn_same by exact veqb_spec. cbn. split; auto.
      - rewrite setn_other by (exact veqb_spec || exact Hn). split; [auto|]. intros [H|H]; [contradiction|exact H]. }
    assert (HV2 : valid_inv T s2).
    { unfold s2. destruct (is_goal cur) eqn:Eg; [|exact HV1]. destruct HV1 as (A & B & D). split; [exact A|]. split; [exact B|].
      cbn [s_cand]. intros w c Hw. apply in_app_or in Hw as [Hw|[Hw|[]]]; [eauto|]. injection Hw as <- <-. auto. }
    assert (HC2 : cinv s2).
    { destruct HC as [C1 C2]. unfold s2. destruct (is_goal cur) eqn:Eg; split; cbn [add_candidate s_cand s_info].
      - intros v c Hv. rewrite Hx1. apply in_app_or in Hv as [Hv|[Hv|[]]].
        + destruct (C1 v c Hv). auto.
        + injection Hv as <- <-. auto.
      - intros v Hv Hg. apply Hx1 in Hv as [->|Hv]; apply in_or_app; [right; left; reflexivity|left; apply C2; assumption].
      - intros v c Hv. rewrite Hx1. destruct (C1 v c Hv). auto.
      - intros v Hv Hg. apply Hx1 in Hv as [->|Hv]; [congruence|]. apply C2; assumption. }
    match type of E with (if ?b then _ else _) = _ => destruct b end.
    - injection E as E <-. eapply finish_best; eauto.
    - destruct (process_all cur (nbr cur) s2) as [s3|] eqn:E3; [|discriminate].
      destruct (process_all_valid veqb veqb_spec add lt tot nbr hval push Hpush start is_goal has_goal cur (nbr cur) T s2 s3 HV2 Hcur)
        as (T' & _ & HV3); [|exact E3|].
      { intros [w c] Hw. exists c. exact Hw. }
      apply process_all_cinv in E3 as [A B]. eapply IH; eauto.
      destruct HC2 as [C1 C2]. split.
      + intros v c. rewrite A. intros Hv. rewrite B. apply C1. exact Hv.
      + intros v. rewrite A, B. apply C2.
  Qed.

  Lemma run_best fuel first p s' : run fuel (fun _ => fresh_info V C zero inf) first = (GPath V p, s') -> p <> [] ->
    best_candidate s' p.
  Proof.
    unfold GenericSearch.run, GenericSearch.init_search. intros E Hne.
    assert (Hx : forall l s, (forall v, g_expanded V C (si s v) = false) ->
      forall v, g_expanded V C (si (add_starts V C veqb zero tot push l s) v) = false).
    { induction l as [|x l IH]; intros s Hs v; cbn [add_starts]; [apply Hs|]. apply IH. intros w. cbn [s_info].
      destruct (vdec w x) as [->|Hn]; [rewrite setn_same by exact veqb_spec; apply Hs|rewrite setn_other by (exact veqb_spec || exact Hn); apply Hs]. }
    destruct (add_starts_spec veqb veqb_spec zero tot push Hpush start (State V C (fun _ => fresh_info V C zero inf) [] [] first)) as (A & B & D & _).
    eapply (loop_best fuel 0 start); [| |exact E|exact Hne].
    - split; [|split].
      + intros v Hv Hs. contradiction.
      + intros v Hv. apply A in Hv as [[]|Hv]. exact Hv.
      + rewrite B. intros v c [].
    - split.
      + rewrite B. intros v c [].
      + intros v Hv. rewrite Hx in Hv; [discriminate|]. intros w. reflexivity.
  Qed.
End Cand.
