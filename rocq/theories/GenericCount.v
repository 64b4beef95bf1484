(** The statistics counters of GenericSearchAlgorithm (I/generic/SearchAlgorithm.hpp:176-188,
    733-738): expansions, multi_expansions, touched and updates.

    The functions below are those of GenericSearch.v with the counter updates
    put back in ([erase_*] state that nothing else changes), and a list of the
    nodes handed to the goal test, in order.  Simplification: the counters
    are unbounded integers, int in the code. *)
From Verif Require Import Base GenericSearch GenericProofs.

(** SearchAlgorithm.hpp:733-738. *)
Record cnt := Cnt { n_exp : Z; n_multi : Z; n_touched : Z; n_upd : Z }.

Section Count.
  Context {V C : Type}.
  Variable veqb : V -> V -> bool.
  Variable all : list V.
  Variable zero : C.
  Variable add : C -> C -> C.
  Variable lt : C -> C -> bool.
  Variable tot : C -> C -> C.
  Variable nbr : V -> list (V * C).
  Variable hval : V -> C.
  Variable push : (V -> C) -> V -> list V -> list V.
  Variable pop : (V -> C) -> list V -> option (V * list V).
  Variable start : list V.
  Variable is_goal : V -> bool.
  Variable has_goal : bool.
  Variable use_candidates : bool.
  Variable over : C -> C -> bool.
  Variable gdist : V -> C.
  Variable best : list (V * C) -> option V.
  Variable timeout : nat -> bool.

  Notation info := (info V C).
  Notation state := (state V C).
  Notation si := (s_info V C).
  Notation so := (s_open V C).
  Notation sc := (s_cand V C).
  Notation dist := (g_dist V C).
  Notation hh := (g_h V C).
  Notation prev := (g_prev V C).
  Notation isopen := (g_open V C).
  Notation isclosed := (g_closed V C).
  Notation expanded := (g_expanded V C).
  Notation setn := (setn V C veqb).
  Notation total := (total V C tot).
  Notation processNeighbor := (processNeighbor V C veqb add lt tot hval push has_goal).
  Notation process_all := (process_all V C veqb add lt tot hval push has_goal).
  Notation backtrack := (backtrack V C veqb all start).
  Notation finish := (finish V C veqb all start best).
  Notation close := (close V C veqb hval has_goal).
  Notation add_candidate := (add_candidate V C tot gdist).
  Notation loop := (loop V C veqb all add lt tot nbr hval push pop start is_goal has_goal use_candidates over gdist best timeout).
  Notation init_search := (init_search V C veqb zero tot push start).
  Notation run := (run V C veqb all zero add lt tot nbr hval push pop start is_goal has_goal use_candidates over gdist best timeout).

  (** SearchAlgorithm.hpp:629-669: [updates++] for a node that is still in the
      open list, [++touched] for every node added. *)
  Definition processNeighborN (cur : V) (s : state) (k : cnt) (vc : V * C) : option (state * cnt) :=
    let '(v, c) := vc in
    let n := si s v in
    let d := add (dist (si s cur)) c in
    let closer := lt d (dist n) in
    let n1 := Info V C (dist n) (hh n) (prev n) (isopen n) (isclosed n) true (expanded n) in
    let s1 := State V C (setn (si s) v n1) (so s) (sc s) (s_first V C s) in
    if isclosed n && negb closer then Some (s1, k)
    else if negb (isopen n) || closer then
      if veqb v cur then None else
      let k1 := if isopen n then Cnt (n_exp k) (n_multi k) (n_touched k) (n_upd k + 1) else k in
      let n2 := Info V C d (if has_goal then hval v else hh n) (Some cur) true (isclosed n) true (expanded n) in
      let f := setn (si s) v n2 in
      Some (State V C f (push (total f) v (so s)) (sc s) (s_first V C s),
            Cnt (n_exp k1) (n_multi k1) (n_touched k1 + 1) (n_upd k1))
    else Some (s1, k).

  Fixpoint process_allN (cur : V) (l : list (V * C)) (s : state) (k : cnt) : option (state * cnt) :=
    match l with
    | [] => Some (s, k)
    | vc :: r => sk <- processNeighborN cur s k vc ;; process_allN cur r (fst sk) (snd sk)
    end.

  (** SearchAlgorithm.hpp:401-405: counted before MARK_EXPANDED is set. *)
  Definition count_expansion (s : state) (k : cnt) (cur : V) : cnt :=
    Cnt (n_exp k + 1) (if expanded (si s cur) then n_multi k + 1 else n_multi k) (n_touched k) (n_upd k).

  (** SearchAlgorithm.hpp:383-444, findPathImp.  [log]: the nodes handed to the
      goal test so far. *)
  Fixpoint loopN (fuel : nat) (n : nat) (s : state) (k : cnt) (log : list V) : (gres V * state) * (cnt * list V) :=
    match fuel with
    | O => ((GFuel V, s), (k, log))
    | S f =>
        match so s with
        | [] => ((finish s, s), (k, log))
        | _ =>
            if timeout n then ((finish s, s), (k, log)) else
            match pop (total (si s)) (so s) with
            | None => ((GUndef V, s), (k, log))
            | Some (cur, o) =>
                let s1 := close s cur o in
                let k1 := count_expansion s k cur in
                let log1 := log ++ [cur] in
                if is_goal cur && negb use_candidates then
                  match backtrack (si s1) cur with
                  | None => ((GUndef V, s1), (k1, log1))
                  | Some [] => ((finish s1, s1), (k1, log1))
                  | Some p => ((GPath V p, s1), (k1, log1))
                  end
                else
                  let s2 := if is_goal cur then add_candidate s1 cur else s1 in
                  if use_candidates && negb (match sc s2 with [] => true | _ => false end)
                       && over (total (si s2) cur) (s_first V C s2)
                  then ((finish s2, s2), (k1, log1))
                  else match process_allN cur (nbr cur) s2 k1 with
                       | None => ((GUndef V, s2), (k1, log1))
                       | Some (s3, k3) => loopN f (S n) s3 k3 log1
                       end
            end
        end
    end.

  (** SearchAlgorithm.hpp:447-452, init: [touched] is not reset. *)
  Definition init_cnt (k : cnt) : cnt := Cnt 0 0 (n_touched k) 0.
  Definition runN (fuel : nat) (f : V -> info) (first : C) (k : cnt) : (gres V * state) * (cnt * list V) :=
    loopN fuel 0 (init_search f first) (init_cnt k) [].

  (** ** The counters change nothing else *)
  Lemma erase_process cur s k vc : processNeighbor cur s vc = option_map fst (processNeighborN cur s k vc).
  Proof using Type.
    destruct vc as [v c]. unfold GenericSearch.processNeighbor, processNeighborN.
    destruct (isclosed (si s v) && negb (lt (add (dist (si s cur)) c) (dist (si s v)))); [reflexivity|].
    destruct (negb (isopen (si s v)) || lt (add (dist (si s cur)) c) (dist (si s v))); [|reflexivity].
    destruct (veqb v cur); reflexivity.
  Qed.
  Lemma erase_process_all cur l : forall s k, process_all cur l s = option_map fst (process_allN cur l s k).
  Proof using Type.
    induction l as [|vc l IH]; intros s k; [reflexivity|]. cbn [GenericSearch.process_all process_allN].
    rewrite (erase_process cur s k vc). destruct (processNeighborN cur s k vc) as [[s1 k1]|]; [|reflexivity].
    cbn [option_map obind fst snd]. apply IH.
  Qed.
  Lemma erase_loop fuel : forall n s k log, fst (loopN fuel n s k log) = loop fuel n s.
  Proof using Type.
    induction fuel as [|f IH]; intros n s k log; [reflexivity|]. cbn [loopN GenericSearch.loop].
    destruct (so s) as [|v0 o0] eqn:Eo; [reflexivity|]. rewrite <- Eo.
    destruct (timeout n); [reflexivity|].
    destruct (pop (total (si s)) (so s)) as [[cur o]|]; [|reflexivity].
    destruct (is_goal cur && negb use_candidates).
    - destruct (backtrack (si (close s cur o)) cur) as [[|a p]|]; reflexivity.
    - destruct (use_candidates && _ && _); [reflexivity|].
      rewrite (erase_process_all cur (nbr cur) _ (count_expansion s k cur)).
      destruct (process_allN cur (nbr cur) _ _) as [[s3 k3]|]; [|reflexivity]. cbn [option_map fst]. apply IH.
  Qed.
  Lemma erase_run fuel f first k : fst (runN fuel f first k) = run fuel f first.
  Proof using Type. apply erase_loop. Qed.

  (** Earlier values of the counters matter only for [touched], which goes on from there. *)
  Definition shift (t : Z) (k : cnt) : cnt := Cnt (n_exp k) (n_multi k) (n_touched k + t) (n_upd k).
  Lemma shift_process t cur l : forall s k, process_allN cur l s (shift t k) =
    option_map (fun sk => (fst sk, shift t (snd sk))) (process_allN cur l s k).
  Proof using Type.
    induction l as [|[v c] l IH]; intros s k; [reflexivity|]. cbn [process_allN].
    assert (E : processNeighborN cur s (shift t k) (v, c) = option_map (fun sk => (fst sk, shift t (snd sk))) (processNeighborN cur s k (v, c))).
    { unfold processNeighborN.
      destruct (isclosed (si s v) && negb (lt (add (dist (si s cur)) c) (dist (si s v)))); [reflexivity|].
      destruct (negb (isopen (si s v)) || lt (add (dist (si s cur)) c) (dist (si s v))); [|reflexivity].
      destruct (veqb v cur); [reflexivity|]. cbn [option_map fst snd]. unfold shift. destruct (isopen (si s v)); cbn [n_exp n_multi n_touched n_upd];
        (replace (n_touched k + t + 1) with (n_touched k + 1 + t) by (clear; lia)); reflexivity. }
    rewrite E. destruct (processNeighborN cur s k (v, c)) as [[s1 k1]|]; [|reflexivity]. cbn [option_map obind fst snd]. apply IH.
  Qed.
  Lemma shift_loop t fuel : forall n s k log, loopN fuel n s (shift t k) log =
    (fst (loopN fuel n s k log), (shift t (fst (snd (loopN fuel n s k log))), snd (snd (loopN fuel n s k log)))).
  Proof using Type.
    induction fuel as [|f IH]; intros n s k log; cbn [loopN]; [reflexivity|].
    destruct (so s) as [|v0 o0] eqn:Eo; [reflexivity|]. rewrite <- Eo. destruct (timeout n); [reflexivity|].
    destruct (pop (total (si s)) (so s)) as [[cur o]|]; [|reflexivity].
    change (count_expansion s (shift t k) cur) with (shift t (count_expansion s k cur)).
    destruct (is_goal cur && negb use_candidates); [destruct (backtrack _ cur) as [[|a p]|]; reflexivity|].
    destruct (use_candidates && _ && _); [reflexivity|]. rewrite shift_process.
    destruct (process_allN cur (nbr cur) _ _) as [[s3 k3]|]; [|reflexivity]. cbn [option_map fst snd]. apply IH.
  Qed.
  Lemma run_shift fuel f first k : runN fuel f first k =
    (fst (runN fuel f first (Cnt 0 0 0 0)), (shift (n_touched k) (fst (snd (runN fuel f first (Cnt 0 0 0 0)))), snd (snd (runN fuel f first (Cnt 0 0 0 0))))).
  Proof using Type. unfold runN. rewrite <- shift_loop. reflexivity. Qed.

  (** ** What the counters count *)
  Hypothesis veqb_spec : forall a b, reflect (a = b) (veqb a b).
  Hypothesis Hpush : push_ok push.
  Hypothesis Hpop : pop_ok pop.
  #[local] Set Default Proof Using "All".

  Let vdec (a b : V) : {a = b} + {a <> b}.
  Proof. destruct (veqb_spec a b); auto. Qed.

  Lemma processN_cnt cur s k vc s' k' : processNeighborN cur s k vc = Some (s', k') ->
    n_exp k' = n_exp k /\ n_multi k' = n_multi k /\
    (forall w, expanded (si s' w) = expanded (si s w)) /\
    n_touched k <= n_touched k' /\ Z.of_nat (length (so s')) <= Z.of_nat (length (so s)) + (n_touched k' - n_touched k) /\
    n_upd k <= n_upd k' /\ n_upd k' - n_upd k <= n_touched k' - n_touched k /\
    ((forall f v l, length (push f v l) = S (length l)) ->
      Z.of_nat (length (so s')) = Z.of_nat (length (so s)) + (n_touched k' - n_touched k)).
  Proof.
    destruct vc as [v c]. unfold processNeighborN. set (n := si s v). set (d := add (dist (si s cur)) c).
    assert (Hs : forall n1, expanded n1 = expanded n -> forall w, expanded (setn (si s) v n1 w) = expanded (si s w)).
    { intros n1 H1 w. destruct (vdec w v) as [->|Hne]; [rewrite setn_same by exact veqb_spec; exact H1|
        rewrite setn_other by (exact veqb_spec || assumption); reflexivity]. }
    destruct (isclosed n && negb (lt d (dist n))).
    { intros E. injection E as <- <-. cbn [s_open s_info]. split; [reflexivity|]. split; [reflexivity|]. split; [apply Hs; reflexivity|]. lia. }
    destruct (negb (isopen n) || lt d (dist n)).
    2:{ intros E. injection E as <- <-. cbn [s_open s_info]. split; [reflexivity|]. split; [reflexivity|]. split; [apply Hs; reflexivity|]. lia. }
    destruct (veqb v cur); [discriminate|]. intros E. injection E as <- <-. cbn [s_open s_info n_exp n_multi n_touched n_upd].
    set (n2 := Info V C d _ _ _ _ _ _). set (f := total (setn (si s) v n2)).
    pose proof (proj1 (Hpush f v (so s))) as Hl.
    split; [destruct (isopen n); reflexivity|]. split; [destruct (isopen n); reflexivity|]. split; [apply Hs; reflexivity|].
    assert (Ht : n_touched (if isopen n then Cnt (n_exp k) (n_multi k) (n_touched k) (n_upd k + 1) else k) = n_touched k)
      by (destruct (isopen n); reflexivity).
    rewrite Ht. destruct (isopen n); cbn [n_upd]; repeat split; try lia; intros Hx; rewrite Hx; lia.
  Qed.

  Lemma process_allN_cnt cur l : forall s k s' k', process_allN cur l s k = Some (s', k') ->
    n_exp k' = n_exp k /\ n_multi k' = n_multi k /\
    (forall w, expanded (si s' w) = expanded (si s w)) /\
    n_touched k <= n_touched k' /\ Z.of_nat (length (so s')) <= Z.of_nat (length (so s)) + (n_touched k' - n_touched k) /\
    n_upd k <= n_upd k' /\ n_upd k' - n_upd k <= n_touched k' - n_touched k /\
    ((forall f v l, length (push f v l) = S (length l)) ->
      Z.of_nat (length (so s')) = Z.of_nat (length (so s)) + (n_touched k' - n_touched k)).
  Proof.
    induction l as [|vc l IH]; intros s k s' k' E; cbn [process_allN] in E.
    - injection E as <- <-. repeat split; try lia.
    - destruct (processNeighborN cur s k vc) as [[s1 k1]|] eqn:E1; [|discriminate]. cbn [obind fst snd] in E.
      destruct (processN_cnt cur s k vc s1 k1 E1) as (A1 & A2 & A3 & A4 & A5 & A6 & A7 & A8).
      destruct (IH s1 k1 s' k' E) as (B1 & B2 & B3 & B4 & B5 & B6 & B7 & B8). clear IH E E1.
      split; [congruence|]. split; [congruence|]. split; [intros w; rewrite B3; apply A3|].
      repeat split; try (clear A3 B3; lia). 
  Qed.

  (** What a history of expansions says about the counters: [old] is the set of
      nodes that were already marked before, [D] lists the nodes expanded for
      the first time. *)
  Record history (old : V -> bool) (k0 : cnt) (s : state) (k : cnt) (log : list V) : Prop := {
    hi_exp : n_exp k = Z.of_nat (length log);
    hi_mark : forall v, expanded (si s v) = true <-> old v = true \/ In v log;
    hi_first : exists D, NoDup D /\ (forall v, In v D <-> In v log /\ old v = false) /\
      n_exp k - n_multi k = Z.of_nat (length D);
    hi_touched : n_touched k0 <= n_touched k;
    hi_upd : 0 <= n_upd k <= n_touched k - n_touched k0;
    hi_open : n_exp k + Z.of_nat (length (so s)) <= Z.of_nat (length start) + (n_touched k - n_touched k0);
    hi_exact : (forall f v l, length (push f v l) = S (length l)) ->
      (forall f l v r, pop f l = Some (v, r) -> length l = S (length r)) ->
      n_exp k + Z.of_nat (length (so s)) = Z.of_nat (length start) + (n_touched k - n_touched k0) }.

  Lemma history_same old k0 s s' k log : so s' = so s -> si s' = si s -> history old k0 s k log -> history old k0 s' k log.
  Proof. intros E1 E2 [A B D F G H J]. constructor; rewrite ?E1, ?E2; auto. Qed.

  Lemma history_close old k0 s k log cur o : history old k0 s k log -> pop (total (si s)) (so s) = Some (cur, o) ->
    history old k0 (close s cur o) (count_expansion s k cur) (log ++ [cur]).
  Proof.
    intros [A B (D & D1 & D2 & D3) F G H J] E. pose proof (Hpop (total (si s)) (so s)) as Hp. rewrite E in Hp.
    destruct Hp as (_ & Hl & _ & _).
    constructor; unfold count_expansion, GenericSearch.close; cbn [n_exp n_multi n_touched n_upd s_info s_open]; auto.
    - rewrite app_length. cbn [length]. lia.
    - intros v. rewrite in_app_iff. cbn [In]. destruct (vdec v cur) as [->|Hne].
      + rewrite setn_same by exact veqb_spec. cbn [g_expanded]. intuition congruence.
      + rewrite setn_other by (exact veqb_spec || assumption). rewrite B. intuition congruence.
    - destruct (expanded (si s cur)) eqn:Ee.
      + exists D. split; [assumption|]. split; [|lia]. intros v. rewrite D2, in_app_iff. cbn [In].
        split; [tauto|]. intros [[Hv|[<-|[]]] Ho]; [tauto|]. split; [|assumption].
        apply B in Ee as [Ee|Ee]; [congruence|assumption].
      + assert (Hold : old cur = false) by (destruct (old cur) eqn:Eo; [|reflexivity]; apply Bool.not_true_iff_false in Ee; elim Ee; apply B; auto).
        assert (Hn : ~ In cur log) by (intros Hi; apply Bool.not_true_iff_false in Ee; elim Ee; apply B; auto).
        exists (cur :: D). split; [constructor; [rewrite D2; tauto|assumption]|]. split; [|cbn [length]; lia].
        intros v. cbn [In]. rewrite D2, in_app_iff. cbn [In]. split; [intros [<-|Hv]; tauto|]. tauto.
    - lia.
    - intros Hx Hy. specialize (J Hx Hy). specialize (Hy _ _ _ _ E). lia.
  Qed.

  Lemma history_process old k0 s k log cur l s' k' : history old k0 s k log -> process_allN cur l s k = Some (s', k') ->
    history old k0 s' k' log.
  Proof.
    intros [A B (D & D1 & D2 & D3) F G H J] E.
    destruct (process_allN_cnt cur l s k s' k' E) as (B1 & B2 & B3 & B4 & B5 & B6 & B7 & B8). clear E.
    constructor; rewrite ?B1, ?B2; auto; try lia.
    - intros v. rewrite B3. apply B.
    - exists D. auto.
  Qed.

  Lemma loop_history old k0 fuel : forall n s k log r s' k' log', history old k0 s k log ->
    loopN fuel n s k log = ((r, s'), (k', log')) ->
    history old k0 s' k' log' /\ (exists l, log' = log ++ l) /\ (r = GFuel V -> length log' = (length log + fuel)%nat) /\
    (n_exp k' - n_exp k <= Z.of_nat fuel).
  Proof.
    induction fuel as [|f IH]; intros n s k log r s' k' log' Hh E; cbn [loopN] in E.
    { injection E as <- <- <- <-. split; [assumption|]. split; [exists []; symmetry; apply app_nil_r|]. split; lia. }
    assert (Hfin : forall s, finish s <> GFuel V).
    { intros sx. unfold GenericSearch.finish. destruct (best (sc sx)); [destruct (backtrack (si sx) v)|]; discriminate. }
    destruct (so s) as [|v0 o0] eqn:Eo.
    { injection E as <- <- <- <-. split; [assumption|]. split; [exists []; symmetry; apply app_nil_r|].
      split; [intros H; destruct (Hfin _ H)|lia]. }
    rewrite <- Eo in E. destruct (timeout n).
    { injection E as <- <- <- <-. split; [assumption|]. split; [exists []; symmetry; apply app_nil_r|].
      split; [intros H; destruct (Hfin _ H)|lia]. }
    destruct (pop (total (si s)) (so s)) as [[cur o]|] eqn:Ep.
    2:{ injection E as <- <- <- <-. split; [assumption|]. split; [exists []; symmetry; apply app_nil_r|]. split; [discriminate|lia]. }
    pose proof (history_close old k0 s k log cur o Hh Ep) as H1.
    set (s1 := close s cur o) in *. set (k1 := count_expansion s k cur) in *.
    assert (Hk1 : n_exp k1 = n_exp k + 1) by reflexivity.
    destruct (is_goal cur && negb use_candidates).
    { destruct (backtrack (si s1) cur) as [[|a p]|]; injection E as <- <- <- <-;
        (split; [assumption|split; [exists [cur]; reflexivity|split; [|lia]]]); try discriminate.
      intros H; destruct (Hfin _ H). }
    set (s2 := if is_goal cur then add_candidate s1 cur else s1) in *.
    assert (H2 : history old k0 s2 k1 (log ++ [cur])).
    { apply (history_same old k0 s1); [| |assumption]; unfold s2; destruct (is_goal cur); reflexivity. }
    destruct (use_candidates && _ && _).
    { injection E as <- <- <- <-. split; [assumption|]. split; [exists [cur]; reflexivity|]. split; [intros H; destruct (Hfin _ H)|lia]. }
    destruct (process_allN cur (nbr cur) s2 k1) as [[s3 k3]|] eqn:E3.
    2:{ injection E as <- <- <- <-. split; [assumption|]. split; [exists [cur]; reflexivity|]. split; [discriminate|lia]. }
    pose proof (history_process old k0 s2 k1 _ cur _ s3 k3 H2 E3) as H3.
    destruct (process_allN_cnt cur _ s2 k1 s3 k3 E3) as (B1 & _).
    destruct (IH (S n) s3 k3 (log ++ [cur]) r s' k' log' H3 E) as (I1 & (l & I2) & I3 & I4).
    split; [assumption|]. split; [exists (cur :: l); rewrite I2, <- app_assoc; reflexivity|]. split; [|lia].
    intros Hr. rewrite (I3 Hr), app_length. cbn [length]. lia.
  Qed.

  Lemma add_starts_open (l : list V) : forall s : state,
    (forall w, expanded (si (add_starts V C veqb zero tot push l s) w) = expanded (si s w)) /\
    (length (so (add_starts V C veqb zero tot push l s)) <= length (so s) + length l)%nat /\
    ((forall f v l, length (push f v l) = S (length l)) ->
      length (so (add_starts V C veqb zero tot push l s)) = length (so s) + length l)%nat.
  Proof.
    induction l as [|v l IH]; intros s; cbn [add_starts length]; [split; [reflexivity|]; lia|].
    set (n := Info V C _ _ _ _ _ _ _). set (s1 := State V C _ _ _ _).
    destruct (IH s1) as (A & B & D). pose proof (proj1 (Hpush (total (setn (si s) v n)) v (so s))) as Hl.
    change (length (so s1) <= S (length (so s)))%nat in Hl. split; [|split; [lia|]].
    - intros w. rewrite A. unfold s1. cbn [s_info]. destruct (vdec w v) as [->|Hne];
        [rewrite setn_same by exact veqb_spec; reflexivity|rewrite setn_other by (exact veqb_spec || assumption); reflexivity].
    - intros Hx. rewrite (D Hx). unfold s1. cbn [s_open]. rewrite Hx. lia.
  Qed.

  (** C78: what the counters say after a search, whatever happened before it. *)
  Lemma run_history fuel f first k0 r s' k' log : runN fuel f first k0 = ((r, s'), (k', log)) ->
    history (fun v => expanded (f v)) k0 s' k' log /\ (r = GFuel V -> length log = fuel) /\ n_exp k' <= Z.of_nat fuel.
  Proof.
    intros E. unfold runN in E. destruct (add_starts_open start (State V C f [] [] first)) as (A & B & D).
    destruct (loop_history (fun v => expanded (f v)) k0 fuel 0 (init_search f first) (init_cnt k0) [] r s' k' log) as (H1 & _ & H3 & H4);
      [|exact E|].
    - constructor; unfold init_cnt; cbn [n_exp n_multi n_touched n_upd length]; try lia.
      + intros v. unfold GenericSearch.init_search. rewrite A. cbn [s_info In]. tauto.
      + exists []. split; [constructor|]. split; [intros v; cbn [In]; tauto|reflexivity].
      + unfold GenericSearch.init_search. cbn [s_open length] in B. lia.
      + intros Hx _. specialize (D Hx). unfold GenericSearch.init_search. cbn [s_open length] in D. lia.
    - split; [assumption|]. split; [exact H3|]. unfold init_cnt in H4. cbn [n_exp] in H4. lia.
  Qed.

  Lemma loop_prefix fuel : forall n s k log, exists l, snd (snd (loopN fuel n s k log)) = log ++ l.
  Proof.
    induction fuel as [|f IH]; intros n s k log; cbn [loopN]; [exists []; symmetry; apply app_nil_r|].
    destruct (so s) as [|v0 o0] eqn:Eo; [exists []; symmetry; apply app_nil_r|]. rewrite <- Eo.
    destruct (timeout n); [exists []; symmetry; apply app_nil_r|].
    destruct (pop (total (si s)) (so s)) as [[cur o]|]; [|exists []; symmetry; apply app_nil_r].
    destruct (is_goal cur && negb use_candidates).
    { exists [cur]. destruct (backtrack _ cur) as [[|a p]|]; reflexivity. }
    destruct (use_candidates && _ && _); [exists [cur]; reflexivity|].
    destruct (process_allN cur (nbr cur) _ _) as [[s3 k3]|]; [|exists [cur]; reflexivity].
    destruct (IH (S n) s3 k3 (log ++ [cur])) as (l & El). exists (cur :: l). rewrite El, <- app_assoc. reflexivity.
  Qed.

  (** A search without time limit that accepts no node goes on until the open
      list is empty. *)
  Lemma loop_exhausted fuel : forall n s k log p s' k' log', sc s = [] -> (forall n, timeout n = false) ->
    loopN fuel n s k log = ((GPath V p, s'), (k', log')) -> (forall v, In v log' -> is_goal v = false) -> so s' = [].
  Proof.
    induction fuel as [|f IH]; intros n s k log p s' k' log' Hc Ht E Hg; cbn [loopN] in E; [discriminate|].
    destruct (so s) as [|v0 o0] eqn:Eo; [injection E as _ <- _ _; exact Eo|].
    rewrite <- Eo, Ht in E. destruct (pop (total (si s)) (so s)) as [[cur o]|]; [|discriminate].
    destruct (is_goal cur) eqn:Eg.
    - exfalso. cbn [andb] in E.
      assert (Hin : In cur log' -> False) by (intros Hi; rewrite (Hg cur Hi) in Eg; discriminate).
      destruct (negb use_candidates).
      { destruct (backtrack _ cur) as [[|a q]|]; [| |discriminate]; injection E as _ _ _ E; apply Hin; rewrite <- E; apply in_app_iff; right; left; reflexivity. }
      destruct (use_candidates && _ && _); [injection E as _ _ _ E; apply Hin; rewrite <- E; apply in_app_iff; right; left; reflexivity|].
      destruct (process_allN cur (nbr cur) _ _) as [[s3 k3]|]; [|discriminate].
      destruct (loop_prefix f (S n) s3 k3 (log ++ [cur])) as (l & El). rewrite E in El. cbn [snd] in El. apply Hin. rewrite El.
      rewrite <- app_assoc. apply in_app_iff. right. left. reflexivity.
    - cbn [andb] in E. change (sc (close s cur o)) with (sc s) in E. rewrite Hc in E. cbn [negb andb] in E. rewrite andb_false_r in E.
      cbn [andb] in E.
      destruct (process_allN cur (nbr cur) (close s cur o) (count_expansion s k cur)) as [[s3 k3]|] eqn:E3; [|discriminate].
      apply (IH (S n) s3 k3 (log ++ [cur]) p s' k' log'); [|exact Ht|exact E|exact Hg].
      clear - E3 Hc. change (sc s) with (sc (close s cur o)) in Hc. revert E3 Hc. generalize (close s cur o) (count_expansion s k cur).
      induction (nbr cur) as [|[v c] l IHl]; intros s0 k0 E3 Hc; cbn [process_allN] in E3; [injection E3 as <- <-; exact Hc|].
      destruct (processNeighborN cur s0 k0 (v, c)) as [[s4 k4]|] eqn:E4; [|discriminate]. cbn [obind fst snd] in E3.
      apply (IHl s4 k4 E3). clear - E4 Hc. unfold processNeighborN in E4.
      destruct (_ && negb _); [injection E4 as <- _; exact Hc|]. destruct (negb _ || _); [|injection E4 as <- _; exact Hc].
      destruct (veqb v cur); [discriminate|]. injection E4 as <- _. exact Hc.
  Qed.
  Lemma run_exhausted fuel f first k0 p s' k' log : (forall n, timeout n = false) ->
    runN fuel f first k0 = ((GPath V p, s'), (k', log)) -> (forall v, In v log -> is_goal v = false) -> so s' = [].
  Proof.
    intros Ht E. unfold runN in E. eapply loop_exhausted; [|exact Ht|exact E].
    unfold GenericSearch.init_search. clear.
    assert (H : forall l (s : state), sc (add_starts V C veqb zero tot push l s) = sc s).
    { induction l as [|v l IH]; intros s; cbn [add_starts]; [reflexivity|]. rewrite IH. reflexivity. }
    rewrite H. reflexivity.
  Qed.
End Count.
