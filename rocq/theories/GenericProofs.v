(** Invariants of the generic search (GenericSearch.v). *)
From Coq Require Import Relations Wellfounded.
From Verif Require Import Base PathSpec GenericSearch.

(** ** Lexicographic order on lists of one length *)
Section Lex.
  Context {A : Type}.
  Variable R : A -> A -> Prop.
  Inductive lexlt : list A -> list A -> Prop :=
  | lex_hd x y l l' : R x y -> length l = length l' -> lexlt (x :: l) (y :: l')
  | lex_tl x l l' : lexlt l l' -> lexlt (x :: l) (x :: l').

  Lemma lexlt_length l l' : lexlt l l' -> length l = length l'.
  Proof. induction 1; simpl; congruence. Qed.

  Lemma lexlt_wf : well_founded R -> forall l, Acc lexlt l.
  Proof.
    intros W. assert (H : forall n l, length l = n -> Acc lexlt l).
    { induction n as [|n IH]; intros l Hl.
      - destruct l; [|discriminate]. constructor. intros l' H. inversion H.
      - destruct l as [|x l]; [discriminate|]. simpl in Hl. apply eq_add_S in Hl.
        revert l Hl. induction x as [x IHx] using (well_founded_ind W). intros l Hl.
        pose proof (IH l Hl) as Al. revert Hl. induction Al as [l _ IHl]. intros Hl.
        constructor. intros l' Hlt. inversion Hlt as [? ? ? ? Hr Hlen|? ? ? Hr]; subst.
        + apply IHx; [exact Hr|congruence].
        + apply IHl; [exact Hr|]. apply lexlt_length in Hr. congruence. }
    intros l. eapply H. reflexivity.
  Qed.

  Lemma pointwise_lex l l' : Forall2 (fun x y => x = y \/ R x y) l l' -> l = l' \/ lexlt l l'.
  Proof.
    induction 1 as [|x y l l' Hxy Hl IH]; [left; reflexivity|].
    destruct Hxy as [->|Hr].
    - destruct IH as [->|IH]; [left; reflexivity|right; constructor; assumption].
    - right. constructor; [assumption|]. clear - Hl. induction Hl; simpl; congruence.
  Qed.
End Lex.

Section Proofs.
  Context {V C : Type}.
  Variable veqb : V -> V -> bool.
  Hypothesis veqb_spec : forall a b, reflect (a = b) (veqb a b).
  Variable all : list V.
  Variable zero inf : C.
  Variable add : C -> C -> C.
  Variable lt : C -> C -> bool.
  Variable tot : C -> C -> C.
  Variable nbr : V -> list (V * C).
  Variable hval : V -> C.
  Variable push : (V -> C) -> V -> list V -> list V.
  Variable pop : (V -> C) -> list V -> option (V * list V).
  (** What is asked of an open-list policy: nothing is lost, nothing invented,
      and next() hands out an element while there is one. Sets, multisets,
      queues and stacks all satisfy it, whatever their order. *)
  Definition push_ok : Prop := forall f v l,
    (length (push f v l) <= S (length l))%nat /\ forall w, In w (push f v l) <-> w = v \/ In w l.
  Definition pop_ok : Prop := forall f l,
    match pop f l with
    | Some (v, r) => In v l /\ (length r < length l)%nat /\ incl r l /\ forall w, In w l -> w = v \/ In w r
    | None => l = []
    end.
  Hypothesis Hpush : push_ok.
  Hypothesis Hpop : pop_ok.

  Definition edge (u v : V) : Prop := exists c, In (v, c) (nbr u).

  Notation info := (info V C).
  Notation state := (state V C).
  Notation si := (s_info V C).
  Notation so := (s_open V C).
  Notation sc := (s_cand V C).
  Notation dist := (g_dist V C).
  Notation prev := (g_prev V C).
  Notation isopen := (g_open V C).
  Notation isclosed := (g_closed V C).
  Notation setn := (setn V C veqb).
  Notation mem := (mem V veqb).

  Lemma setn_same f v n : setn f v n v = n.
  Proof. unfold GenericSearch.setn. destruct (veqb_spec v v); [reflexivity|contradiction]. Qed.
  Lemma setn_other f v n w : w <> v -> setn f v n w = f w.
  Proof. unfold GenericSearch.setn. intros H. destruct (veqb_spec w v); [contradiction|reflexivity]. Qed.
  Lemma mem_spec v l : mem v l = true <-> In v l.
  Proof.
    unfold GenericSearch.mem. rewrite existsb_exists. split.
    - intros (x & Hx & E). destruct (veqb_spec v x); [subst; assumption|discriminate].
    - intros H. exists v. split; [assumption|]. destruct (veqb_spec v v); [reflexivity|contradiction].
  Qed.
  Lemma V_dec (a b : V) : {a = b} + {a <> b}.
  Proof. destruct (veqb_spec a b); auto. Qed.

  Section Run.
  Variable start : list V.
  Variable is_goal : V -> bool.
  Variable has_goal : bool.
  Variable use_candidates : bool.
  Variable over : C -> C -> bool.
  Variable gdist : V -> C.
  Variable best : list (V * C) -> option V.
  Variable timeout : nat -> bool.
  Notation processNeighbor := (processNeighbor V C veqb add lt tot hval push has_goal).
  Notation process_all := (process_all V C veqb add lt tot hval push has_goal).
  Notation bt := (bt V C veqb start).
  Notation backtrack := (backtrack V C veqb all start).
  Notation finish := (finish V C veqb all start best).
  Notation close := (close V C veqb hval has_goal).
  Notation add_candidate := (add_candidate V C tot gdist).
  Notation loop := (loop V C veqb all add lt tot nbr hval push pop start is_goal has_goal use_candidates over gdist best timeout).
  Notation init_search := (init_search V C veqb zero tot push start).
  Notation run := (run V C veqb all zero add lt tot nbr hval push pop start is_goal has_goal use_candidates over gdist best timeout).

  Definition best_ok : Prop := forall l v, best l = Some v -> exists c, In (v, c) l.
  Hypothesis Hbest : best_ok.

  (** ** Backtracking returns chains of offered steps without repetition *)
  (** [touched] nodes were put into the open list by this search. *)
  Definition linked (T : list V) (f : V -> info) : Prop :=
    forall v, In v T -> ~ In v start -> exists u, prev (f v) = Some u /\ In u T /\ edge u v.

  Lemma bt_valid T f : linked T f -> forall fuel v seen acc p t,
    In v T -> bt fuel f v seen acc = Some p -> p <> [] ->
    (seen = acc \/ True) ->
    chain edge (v :: acc) -> last (v :: acc) v = t -> NoDup acc -> incl acc seen -> incl seen acc ->
    (forall x, In x acc -> ~ In x start) ->
    exists s, hd_error p = Some s /\ In s start /\ last p s = t /\ chain edge p /\ NoDup p.
  Proof.
    intros HL. induction fuel as [|k IH]; intros v seen acc p t Hv E Hne _ Hch Hlast Hnd Hi1 Hi2 Hns; [discriminate|].
    cbn [GenericSearch.bt] in E.
    destruct (mem v start) eqn:Em.
    - injection E as <-. apply mem_spec in Em. exists v. split; [reflexivity|]. split; [assumption|].
      split; [assumption|]. split; [assumption|]. constructor; [|assumption]. intros H. apply (Hns v H Em).
    - assert (Hvs : ~ In v start) by (rewrite <- mem_spec; congruence).
      destruct (mem v seen) eqn:Es; [injection E as <-; congruence|].
      assert (Hvn : ~ In v seen) by (rewrite <- mem_spec; congruence).
      destruct (HL v Hv Hvs) as (u & Eu & HuT & He). rewrite Eu in E.
      assert (E' : bt k f u (v :: seen) (v :: acc) = Some p).
      { destruct (prev (f u)) as [q|]; [destruct (veqb q u); [discriminate|assumption]|assumption]. }
      apply (IH u (v :: seen) (v :: acc) p t); auto.
      + split; [assumption|]. exact Hch.
      + rewrite <- Hlast. clear. simpl. destruct acc; [reflexivity|]. clear.
        revert u v. revert v0. induction acc as [|x acc IH]; intros; [reflexivity|]. simpl in *. apply IH.
      + constructor; [|assumption]. intros H. apply Hvn, Hi1, H.
      + intros x [<-|H]; [left; reflexivity|right; auto].
      + intros x [<-|H]; [left; reflexivity|right; auto].
      + intros x [<-|H]; auto.
  Qed.

  Lemma backtrack_valid T f v p : linked T f -> In v T -> backtrack f v = Some p -> p <> [] ->
    exists s, hd_error p = Some s /\ In s start /\ last p s = v /\ chain edge p /\ NoDup p.
  Proof.
    intros HL Hv E Hne. apply (bt_valid T f HL _ v [] [] p v Hv E Hne (or_introl eq_refl)).
    - exact I.
    - reflexivity.
    - constructor.
    - apply incl_refl.
    - apply incl_refl.
    - intros x [].
  Qed.

  (** The invariant behind C19. *)
  Definition valid_inv (T : list V) (s : state) : Prop :=
    linked T (si s) /\ incl (so s) T /\ (forall v c, In (v, c) (sc s) -> In v T /\ is_goal v = true).

  Lemma linked_same T f g : (forall v, prev (g v) = prev (f v)) -> linked T f -> linked T g.
  Proof. intros H HL v Hv Hs. rewrite H. apply HL; assumption. Qed.

  Lemma setn_prev f v n : prev n = prev (f v) -> forall w, prev (setn f v n w) = prev (f w).
  Proof.
    intros H w. destruct (V_dec w v) as [->|Hne]; [rewrite setn_same; exact H|rewrite setn_other by exact Hne; reflexivity].
  Qed.

  Lemma process_valid T cur s vc s' : valid_inv T s -> In cur T -> edge cur (fst vc) ->
    processNeighbor cur s vc = Some s' -> exists T', incl T T' /\ valid_inv T' s'.
  Proof.
    intros (HL & Ho & Hc) Hcur He E. destruct vc as [v c]. cbn [fst] in He. unfold GenericSearch.processNeighbor in E.
    set (n := si s v) in *. set (d := add _ c) in *.
    destruct (_ && _).
    { injection E as <-. exists T. split; [apply incl_refl|]. split; [|split; assumption].
      apply (linked_same T (si s)); [|assumption]. apply setn_prev. reflexivity. }
    destruct (_ || _).
    2:{ injection E as <-. exists T. split; [apply incl_refl|]. split; [|split; assumption].
      apply (linked_same T (si s)); [|assumption]. apply setn_prev. reflexivity. }
    destruct (veqb_spec v cur) as [|Hvc]; [discriminate|]. injection E as <-.
    exists (v :: T). split; [apply incl_tl, incl_refl|]. split; [|split].
    - intros w Hw Hs. cbn [s_info]. destruct (V_dec w v) as [->|Hne].
      + rewrite setn_same. cbn [g_prev]. exists cur. split; [reflexivity|]. split; [right; assumption|assumption].
      + rewrite setn_other by assumption. destruct Hw as [Hw|Hw]; [congruence|].
        destruct (HL w Hw Hs) as (u & E & Hu & Hed). exists u. split; [assumption|]. split; [right; assumption|assumption].
    - cbn [s_open]. intros w Hw. apply (proj2 (Hpush _ _ _)) in Hw as [->|Hw]; [left; reflexivity|right; apply Ho; assumption].
    - cbn [s_cand]. intros w cw Hw. destruct (Hc w cw Hw). split; [right; assumption|assumption].
  Qed.

  Lemma process_all_valid cur l : forall T s s', valid_inv T s -> In cur T ->
    (forall vc, In vc l -> edge cur (fst vc)) ->
    process_all cur l s = Some s' -> exists T', incl T T' /\ valid_inv T' s'.
  Proof.
    induction l as [|vc l IH]; intros T s s' Hinv Hcur Hl E; cbn [GenericSearch.process_all] in E.
    - injection E as <-. exists T. split; [apply incl_refl|assumption].
    - destruct (processNeighbor cur s vc) as [s1|] eqn:E1; [|discriminate]. cbn [obind] in E.
      destruct (process_valid T cur s vc s1 Hinv Hcur (Hl vc (or_introl eq_refl)) E1) as (T1 & HT1 & Hinv1).
      destruct (IH T1 s1 s' Hinv1 (HT1 _ Hcur)) as (T2 & HT2 & Hinv2); [|exact E|].
      + intros vc' H. apply Hl. right. assumption.
      + exists T2. split; [eapply incl_tran; eauto|assumption].
  Qed.

  Definition good_path (p : list V) : Prop :=
    p = [] \/ exists s t, hd_error p = Some s /\ In s start /\ last p s = t /\ is_goal t = true /\ chain edge p /\ NoDup p.

  Lemma finish_valid T s p : valid_inv T s -> finish s = GPath V p -> good_path p.
  Proof.
    intros (HL & Ho & Hc) E. unfold GenericSearch.finish in E. destruct (best (sc s)) as [v|] eqn:Eb.
    - destruct (Hbest _ _ Eb) as (c & Hin). destruct (Hc v c Hin) as [HvT Hg].
      destruct (backtrack (si s) v) as [q|] eqn:Eq; [|discriminate]. cbn [of_bt] in E. injection E as <-.
      destruct q as [|x q]; [left; reflexivity|right].
      destruct (backtrack_valid T (si s) v (x :: q) HL HvT Eq) as (st & H1 & H2 & H3 & H4 & H5); [discriminate|].
      exists st, v. auto 7.
    - injection E as <-. left. reflexivity.
  Qed.

  Lemma close_prev s cur o w : prev (si (close s cur o) w) = prev (si s w).
  Proof. apply setn_prev. reflexivity. Qed.

  Lemma loop_valid fuel : forall n T s p s', valid_inv T s -> loop fuel n s = (GPath V p, s') -> good_path p.
  Proof.
    induction fuel as [|k IH]; intros n T s p s' Hinv E; [discriminate|]. cbn [GenericSearch.loop] in E.
    destruct (so s) as [|v0 o0] eqn:Eo.
    { injection E as E _. eapply finish_valid; eauto. }
    rewrite <- Eo in E. destruct (timeout n).
    { injection E as E _. eapply finish_valid; eauto. }
    pose proof (Hpop (total V C tot (si s)) (so s)) as Hp.
    destruct (pop (total V C tot (si s)) (so s)) as [[cur o]|]; [|discriminate].
    destruct Hinv as (HL & Ho & Hc). destruct Hp as (Hp1 & _ & Hp2 & _).
    assert (Hcur : In cur T) by (apply Ho; exact Hp1).
    assert (HoT : incl o T).
    { intros w Hw. apply Ho, Hp2, Hw. }
    set (s1 := close s cur o) in *.
    assert (Hinv1 : valid_inv T s1).
    { split; [|split; [exact HoT|exact Hc]]. apply (linked_same T (si s)); [|assumption]. intros w. apply close_prev. }
    destruct (is_goal cur) eqn:Eg; cbn [andb] in E.
    - destruct use_candidates eqn:Eu; cbn [negb andb] in E.
      + set (s2 := add_candidate s1 cur) in *.
        assert (Hinv2 : valid_inv T s2).
        { destruct Hinv1 as (A & B & D). split; [exact A|]. split; [exact B|]. cbn [s_cand].
          intros w c Hw. apply in_app_or in Hw as [Hw|[Hw|[]]]; [eauto|]. injection Hw as <- <-. auto. }
        destruct (negb (match sc s2 with [] => true | _ :: _ => false end) && over (total V C tot (si s2) cur) (s_first V C s2)).
        * injection E as E _. eapply finish_valid; eauto.
        * destruct (process_all cur (nbr cur) s2) as [s3|] eqn:E3; [|discriminate].
          destruct (process_all_valid cur (nbr cur) T s2 s3 Hinv2 Hcur) as (T' & _ & Hinv3); [|exact E3|].
          { intros [w c] Hw. exists c. exact Hw. }
          eapply IH; eauto.
      + destruct (backtrack (si s1) cur) as [[|x q]|] eqn:Eb; [| |discriminate].
        * injection E as E _. eapply finish_valid; eauto.
        * injection E as <- _. right.
          destruct (backtrack_valid T (si s1) cur (x :: q) (proj1 Hinv1) Hcur Eb) as (st & H1 & H2 & H3 & H4 & H5); [discriminate|].
          exists st, cur. auto 7.
    - destruct (_ && _ && _).
      + injection E as E _. eapply finish_valid; eauto.
      + destruct (process_all cur (nbr cur) s1) as [s3|] eqn:E3; [|discriminate].
        destruct (process_all_valid cur (nbr cur) T s1 s3 Hinv1 Hcur) as (T' & _ & Hinv3); [|exact E3|].
        { intros [w c] Hw. exists c. exact Hw. }
        eapply IH; eauto.
  Qed.

  Lemma add_starts_spec l : forall s,
    (forall v, In v (so (add_starts V C veqb zero tot push l s)) <-> In v (so s) \/ In v l) /\ sc (add_starts V C veqb zero tot push l s) = sc s /\
    (forall v, prev (si (add_starts V C veqb zero tot push l s) v) = prev (si s v)) /\
    (forall v, ~ In v l -> si (add_starts V C veqb zero tot push l s) v = si s v) /\
    (forall v, In v l -> dist (si (add_starts V C veqb zero tot push l s) v) = zero /\ isopen (si (add_starts V C veqb zero tot push l s) v) = true) /\
    (forall v, isclosed (si (add_starts V C veqb zero tot push l s) v) = isclosed (si s v)) /\
    (forall v, g_h V C (si (add_starts V C veqb zero tot push l s) v) = g_h V C (si s v)).
  Proof.
    induction l as [|x l IH]; intros s; cbn [add_starts].
    - split; [intros v; simpl; split; [auto|intros [H|[]]; exact H]|]. repeat split; try reflexivity; destruct H.
    - match goal with |- context [add_starts V C veqb zero tot push l ?s0] => set (s1 := s0) end.
      destruct (IH s1) as (A & B & D & F & G & K & L). split; [intros v; rewrite A; unfold s1; cbn [s_open]; rewrite (proj2 (Hpush _ _ _)); simpl; split; [intros [[->|H]|H]|intros [H|[->|H]]]; auto|].
      split; [exact B|]. split; [|split; [|split; [|split]]].
      + intros v. rewrite D. apply setn_prev. reflexivity.
      + intros v Hv. rewrite F by (intros H; apply Hv; right; assumption). apply setn_other. intros ->. apply Hv. left. reflexivity.
      + intros v Hv. destruct (in_dec V_dec v l) as [Hl|Hl]; [apply G; assumption|].
        rewrite F by assumption. destruct Hv as [->|Hv]; [|contradiction]. cbn [s_info s1]. rewrite setn_same. auto.
      + intros v. rewrite K. cbn [s_info s1]. destruct (V_dec v x) as [->|Hne]; [rewrite setn_same; reflexivity|rewrite setn_other by assumption; reflexivity].
      + intros v. rewrite L. cbn [s_info s1]. destruct (V_dec v x) as [->|Hne]; [rewrite setn_same; reflexivity|rewrite setn_other by assumption; reflexivity].
  Qed.

  (** C19 for any node contents left over from earlier searches. *)
  Lemma run_valid fuel f first p s' : run fuel f first = (GPath V p, s') -> good_path p.
  Proof.
    unfold GenericSearch.run, GenericSearch.init_search. intros E.
    destruct (add_starts_spec start (State V C f [] [] first)) as (A & B & D & _).
    eapply (loop_valid fuel 0 start); [|exact E]. split; [|split].
    - intros v Hv Hs. contradiction.
    - intros v Hv. apply A in Hv as [[]|Hv]. exact Hv.
    - rewrite B. intros v c [].
  Qed.

  Lemma loop_mono fuel : forall n s r s', loop fuel n s = (r, s') -> r <> GFuel V ->
    forall k, (fuel <= k)%nat -> loop k n s = (r, s').
  Proof.
    induction fuel as [|fuel IH]; intros n s r s' E Hr k Hk; [simpl in E; injection E as <- _; congruence|].
    destruct k as [|k]; [clear - Hk; lia|]. cbn [GenericSearch.loop] in *.
    destruct (so s); [exact E|]. destruct (timeout n); [exact E|].
    destruct (pop _ _) as [[cur o]|]; [|exact E].
    destruct (is_goal cur && negb use_candidates); [exact E|].
    destruct (_ && _ && _); [exact E|].
    destruct (process_all cur (nbr cur) _) as [s3|]; [|exact E].
    eapply IH; eauto. clear - Hk. lia.
  Qed.

  (** ** Termination and completeness (C20), from freshly initialised nodes *)
  (** What is asked of the cost arithmetic on the costs that occur ([ok]). *)
  Variable ok : C -> Prop.
  Record arith_ok : Prop := {
    ao_wf : well_founded (fun a b => ok a /\ ok b /\ lt a b = true);
    ao_irrefl : forall a, lt a a = false;
    ao_zero : ok zero;
    ao_add : forall u v c a, In u all -> In (v, c) (nbr u) -> ok a -> ok (add a c);
    ao_grow : forall u v c a, In u all -> In (v, c) (nbr u) -> ok a -> lt (add a c) a = false;
    ao_trans : forall a b c, ok a -> ok b -> ok c -> lt b a = false -> lt c b = false -> lt c a = false }.
  Hypothesis Hao : arith_ok.
  Hypothesis nbr_all : forall u v c, In u all -> In (v, c) (nbr u) -> In v all.
  Hypothesis start_all : incl start all.
  Hypothesis best_some : forall l, best l = None -> l = [].

  Lemma lt_irrefl a : lt a a = false.
  Proof. apply (ao_irrefl Hao). Qed.
  Lemma lt_asym a b : ok a -> ok b -> lt a b = true -> lt b a = false.
  Proof.
    intros Ha Hb E. destruct (lt b a) eqn:E'; [|reflexivity]. exfalso. revert b Ha Hb E E'.
    induction a as [a IH] using (well_founded_ind (ao_wf Hao)). intros b Ha Hb E E'. exact (IH b (conj Hb (conj Ha E')) a Hb Ha E' E).
  Qed.

  Definition seen (s : state) (v : V) : Prop := isopen (si s v) = true \/ isclosed (si s v) = true.

  (** Following the predecessor pointers from a node to a start node. *)
  Inductive trace (f : V -> info) : V -> list V -> Prop :=
  | tr_start v : In v start -> trace f v [v]
  | tr_step v u p : ~ In v start -> prev (f v) = Some u -> trace f u p -> trace f v (v :: p).

  Lemma trace_fun f v p : trace f v p -> forall q, trace f v q -> p = q.
  Proof using Type.
    induction 1 as [v Hv|v u p Hv E H IH]; intros q Hq; inversion Hq; subst; try contradiction; [reflexivity|].
    f_equal. apply IH. congruence.
  Qed.
  Lemma trace_in f v p : trace f v p -> forall x, In x p -> exists q, trace f x q /\ (length q <= length p)%nat.
  Proof using Type.
    induction 1 as [v Hv|v u p Hv E H IH]; intros x Hx.
    - destruct Hx as [<-|[]]. exists [v]. split; [constructor; assumption|reflexivity].
    - destruct Hx as [<-|Hx].
      + exists (v :: p). split; [econstructor; eassumption|reflexivity].
      + destruct (IH x Hx) as (q & Hq & Hl). exists q. split; [assumption|]. simpl. clear - Hl. lia.
  Qed.
  Lemma trace_nodup f v p : trace f v p -> NoDup p.
  Proof using Type.
    induction 1 as [v Hv|v u p Hv E H IH]; [repeat constructor; intros []|].
    constructor; [|assumption]. intros Hin. destruct (trace_in f u p H v Hin) as (q & Hq & Hl).
    assert (Ht : trace f v (v :: p)) by (econstructor; eassumption).
    rewrite (trace_fun f v q Hq _ Ht) in Hl. simpl in Hl. clear - Hl. lia.
  Qed.

  (** Updating one node that does not lie on the trace of its new predecessor. *)
  Lemma trace_update f g v cur pc : (forall w, w <> v -> prev (g w) = prev (f w)) -> prev (g v) = Some cur ->
    ~ In v start -> trace f cur pc -> ~ In v pc -> forall w p, trace f w p -> exists q, trace g w q.
  Proof using veqb_spec.
    intros Hg Hgv Hns Hc Hnc.
    assert (Hc' : forall w p, trace f w p -> ~ In v p -> trace g w p).
    { induction 1 as [w Hw|w u p Hw E H IH]; intros Hn; [constructor; assumption|].
      apply (tr_step g w u); [assumption| |].
      - rewrite Hg; [assumption|]. intros ->. apply Hn. left. reflexivity.
      - apply IH. intros Hin. apply Hn. right. assumption. }
    intros w p H. induction H as [w Hw|w u p Hw E H IH].
    - exists [w]. constructor; assumption.
    - destruct (V_dec w v) as [->|Hne].
      + exists (v :: pc). apply (tr_step g v cur); auto.
      + destruct IH as (q & Hq). exists (w :: q). apply (tr_step g w u); auto. rewrite Hg; assumption.
  Qed.

  (** Backtracking along a trace succeeds. *)
  Lemma bt_trace f v p : (forall w, In w start -> prev (f w) <> Some w) -> trace f v p ->
    forall fuel sn acc, (length p <= fuel)%nat -> (forall x, In x p -> ~ In x sn) ->
    bt fuel f v sn acc = Some (rev p ++ acc).
  Proof using veqb_spec.
    intros Hst H. induction H as [v Hv|v u p Hv E H IH]; intros fuel sn acc Hf Hsn.
    - destruct fuel as [|k]; [simpl in Hf; clear - Hf; lia|]. cbn [GenericSearch.bt].
      rewrite (proj2 (mem_spec v start) Hv). reflexivity.
    - destruct fuel as [|k]; [simpl in Hf; clear - Hf; lia|]. cbn [GenericSearch.bt].
      destruct (mem v start) eqn:Em; [apply mem_spec in Em; contradiction|].
      destruct (mem v sn) eqn:Es; [apply mem_spec in Es; exfalso; apply (Hsn v); [left; reflexivity|assumption]|].
      rewrite E.
      assert (Hnd : NoDup (v :: p)) by (apply (trace_nodup f v); econstructor; eassumption).
      assert (Hbt : bt k f u (v :: sn) (v :: acc) = Some (rev (v :: p) ++ acc)).
      { simpl rev. rewrite <- app_assoc. apply IH; [simpl in Hf; clear - Hf; lia|].
        intros x Hx [<-|Hin]; [inversion Hnd; contradiction|]. apply (Hsn x); [right; assumption|assumption]. }
      destruct (prev (f u)) as [q|] eqn:Eq; [|exact Hbt].
      destruct (veqb_spec q u) as [->|]; [|exact Hbt]. exfalso.
      inversion H as [? Hu|? u' p' Hu E' H']; subst; [apply (Hst u Hu Eq)|].
      rewrite E' in Eq. injection Eq as ->.
      pose proof (trace_fun f u _ H _ H') as Ex. apply (f_equal (@length V)) in Ex. simpl in Ex. clear - Ex. lia.
  Qed.

  Record K (s : state) : Prop := {
    k_open : forall v, isopen (si s v) = true -> In v (so s);
    k_list : forall v, In v (so s) -> seen s v;
    k_all : forall v, seen s v -> In v all;
    k_starts : forall v, In v start -> seen s v;
    k_start : forall v, In v start -> dist (si s v) = zero /\ prev (si s v) = None;
    k_ok : forall v, seen s v -> ok (dist (si s v)) /\ lt (dist (si s v)) zero = false;
    k_prev : forall v, seen s v -> ~ In v start ->
      exists u, prev (si s v) = Some u /\ seen s u /\ lt (dist (si s v)) (dist (si s u)) = false;
    k_trace : forall v, seen s v -> exists p, trace (si s) v p }.

  Lemma trace_seen s v p : K s -> trace (si s) v p -> seen s v -> forall x, In x p ->
    seen s x /\ lt (dist (si s v)) (dist (si s x)) = false.
  Proof using Hao.
    intros HK. induction 1 as [v Hv|v u p Hv E H IH]; intros Hs x Hx.
    - destruct Hx as [<-|[]]. split; [assumption|apply lt_irrefl].
    - destruct Hx as [<-|Hx]; [split; [assumption|apply lt_irrefl]|].
      destruct (k_prev s HK v Hs Hv) as (u' & E' & Hsu & Hle). rewrite E in E'. injection E' as <-.
      destruct (IH Hsu x Hx) as [Hsx Hlx]. split; [assumption|].
      apply (ao_trans Hao _ (dist (si s u)) _); try (apply (k_ok s HK); assumption); assumption.
  Qed.

  Lemma backtrack_some s v : K s -> seen s v -> exists x p, backtrack (si s) v = Some (x :: p).
  Proof using veqb_spec Hao.
    intros HK Hs. destruct (k_trace s HK v Hs) as (p & Hp).
    assert (Hlen : (length p <= length all)%nat).
    { apply NoDup_incl_length; [eapply trace_nodup; eassumption|]. intros x Hx.
      apply (k_all s HK). eapply trace_seen; eauto. }
    unfold GenericSearch.backtrack. rewrite (bt_trace (si s) v p).
    - rewrite app_nil_r. destruct (rev p) as [|x q] eqn:Er; [|eauto].
      apply (f_equal (@rev V)) in Er. rewrite rev_involutive in Er. simpl in Er. subst p. inversion Hp.
    - intros w Hw. rewrite (proj2 (k_start s HK w Hw)). discriminate.
    - assumption.
    - clear - Hlen. lia.
    - intros x _ [].
  Qed.

  (** What has been expanded so far. *)
  Definition done (s : state) (v : V) : Prop :=
    (forall w c, In (w, c) (nbr v) -> seen s w) /\ (is_goal v = true -> sc s <> []).

  Definition opt_lt (a b : option C) : Prop :=
    match a, b with
    | Some a, Some b => ok a /\ ok b /\ lt a b = true
    | Some _, None => True
    | None, _ => False
    end.
  Lemma opt_lt_wf : well_founded opt_lt.
  Proof.
    assert (H : forall a, Acc opt_lt (Some a)).
    { intros a. induction a as [a IH] using (well_founded_ind (ao_wf Hao)). constructor.
      intros [b|] Hb; [apply IH; exact Hb|destruct Hb]. }
    intros [a|]; [apply H|]. constructor. intros [b|] Hb; [apply H|destruct Hb].
  Qed.
  Definition val_of (s : state) (v : V) : option C :=
    if isopen (si s v) || isclosed (si s v) then Some (dist (si s v)) else None.
  Definition vec (s : state) : list (option C) := map (val_of s) all.
  Definition vlt := clos_trans _ (lexlt opt_lt).

  Lemma vlt_wf : well_founded vlt.
  Proof. apply wf_clos_trans. intros l. apply lexlt_wf. exact opt_lt_wf. Qed.

  Lemma seen_dec s v : {seen s v} + {~ seen s v}.
  Proof using Type. unfold seen. destruct (isopen (si s v)), (isclosed (si s v)); auto. right. intros [H|H]; discriminate. Qed.
  Lemma val_seen s v : seen s v -> val_of s v = Some (dist (si s v)).
  Proof using Type. unfold val_of, seen. intros [->| ->]; [reflexivity|rewrite orb_true_r; reflexivity]. Qed.
  Lemma val_unseen s v : ~ seen s v -> val_of s v = None.
  Proof using Type. intros H. unfold val_of. destruct (isopen (si s v)) eqn:E1; [destruct H; left; exact E1|].
    destruct (isclosed (si s v)) eqn:E2; [destruct H; right; exact E2|reflexivity]. Qed.

  Lemma vec_decrease s s' v : In v all -> (forall w, w <> v -> val_of s' w = val_of s w) ->
    opt_lt (val_of s' v) (val_of s v) -> vlt (vec s') (vec s).
  Proof using veqb_spec Hao.
    intros Hv Ho Hlt.
    assert (HF : Forall2 (fun x y => x = y \/ opt_lt x y) (vec s') (vec s)).
    { unfold vec. generalize all. intros L. induction L as [|x l IH]; simpl; [constructor|]. constructor; [|exact IH].
      destruct (V_dec x v) as [->|Hne]; [right; assumption|left; apply Ho; assumption]. }
    apply pointwise_lex in HF as [E|HF]; [|apply t_step; assumption]. exfalso.
    assert (Ev : val_of s' v = val_of s v).
    { unfold vec in E. clear - E Hv. revert E Hv. generalize all. intros L E Hv. induction L as [|x l IH]; [destruct Hv|]. simpl in E. injection E as E1 E2.
      destruct Hv as [->|Hv]; auto. }
    rewrite Ev in Hlt. destruct (val_of s v) as [a|]; [|exact Hlt]. destruct Hlt as (_ & _ & Hlt). rewrite lt_irrefl in Hlt. discriminate.
  Qed.

  (** One neighbour. *)
  Lemma process_K cur s v c : K s -> In cur all -> seen s cur -> In (v, c) (nbr cur) ->
    exists s', processNeighbor cur s (v, c) = Some s' /\ K s' /\ seen s' v /\ sc s' = sc s /\
      (forall w, seen s w -> seen s' w) /\ (forall w, In w (so s) -> In w (so s')) /\
      (forall w, seen s' w -> seen s w \/ In w (so s')) /\
      ((so s' = so s /\ vec s' = vec s) \/ vlt (vec s') (vec s)).
  Proof using veqb_spec Hpush Hao nbr_all.
    intros HK Hca Hcs Hin. unfold GenericSearch.processNeighbor.
    set (n := si s v). set (d := add (dist (si s cur)) c).
    assert (Hva : In v all) by (apply (nbr_all cur v c); assumption).
    destruct (k_ok s HK cur Hcs) as [Hok Hoz].
    assert (Hokd : ok d) by (apply (ao_add Hao cur v c); assumption).
    assert (Hgrow : lt d (dist (si s cur)) = false) by (apply (ao_grow Hao cur v c); assumption).
    assert (Hdz : lt d zero = false).
    { apply (ao_trans Hao zero (dist (si s cur)) d); auto using (ao_zero Hao). }
    set (s1 := State V C (setn (si s) v (Info V C (dist n) (g_h V C n) (prev n) (isopen n) (isclosed n) true (g_expanded V C n)))
                 (so s) (sc s) (s_first V C s)).
    assert (Hs1 : seen s v -> K s1 /\ seen s1 v /\ sc s1 = sc s /\
      (forall w, seen s w -> seen s1 w) /\ (forall w, In w (so s) -> In w (so s1)) /\
      (forall w, seen s1 w -> seen s w \/ In w (so s1)) /\
      ((so s1 = so s /\ vec s1 = vec s) \/ vlt (vec s1) (vec s))).
    { intros Hsv.
      assert (Ei : forall w, dist (si s1 w) = dist (si s w) /\ prev (si s1 w) = prev (si s w) /\
                  isopen (si s1 w) = isopen (si s w) /\ isclosed (si s1 w) = isclosed (si s w)).
      { intros w. unfold s1. cbn [s_info]. destruct (V_dec w v) as [->|Hne];
          [rewrite setn_same; auto|rewrite setn_other by assumption; auto]. }
      assert (Es : forall w, seen s1 w <-> seen s w).
      { intros w. unfold seen. destruct (Ei w) as (_ & _ & -> & ->). reflexivity. }
      split; [|split; [apply Es; assumption|split; [reflexivity|split; [intros w; apply Es|split; [auto|split]]]]].
      - destruct HK. constructor.
        + intros w. destruct (Ei w) as (_ & _ & -> & _). auto.
        + intros w Hw. apply Es. auto.
        + intros w Hw. apply Es in Hw. auto.
        + intros w Hw. apply Es. auto.
        + intros w Hw. destruct (Ei w) as (-> & -> & _ & _). auto.
        + intros w Hw. destruct (Ei w) as (-> & _). apply Es in Hw. auto.
        + intros w Hw Hns. apply Es in Hw. destruct (Ei w) as (-> & -> & _).
          destruct (k_prev0 w Hw Hns) as (u & A & B & D). exists u. destruct (Ei u) as (-> & _).
          split; [assumption|]. split; [apply Es; assumption|assumption].
        + intros w Hw. apply Es in Hw. destruct (k_trace0 w Hw) as (p & Hp). exists p.
          induction Hp as [w' Hw'|w' u p Hw' E Hp IH]; [constructor; assumption|].
          apply (tr_step (si s1) w' u); [assumption| |].
          * destruct (Ei w') as (_ & -> & _). assumption.
          * apply IH. destruct (k_prev0 w' Hw Hw') as (u' & E' & Hu & _). congruence.
      - intros w Hw. left. apply Es. assumption.
      - left. split; [reflexivity|]. unfold vec. apply map_ext. intros w. unfold val_of.
        destruct (Ei w) as (-> & _ & -> & ->). reflexivity. }
    destruct (isclosed n && negb (lt d (dist n))) eqn:E1.
    { exists s1. split; [reflexivity|]. apply Hs1. right. apply andb_prop in E1. apply E1. }
    destruct (negb (isopen n) || lt d (dist n)) eqn:E2.
    2:{ exists s1. split; [reflexivity|]. apply Hs1. left. apply orb_false_elim in E2.
        destruct E2 as [E2 _]. apply negb_false_iff in E2. exact E2. }
    (* either new, or strictly closer *)
    assert (Hnew : ~ seen s v \/ (seen s v /\ lt d (dist n) = true)).
    { destruct (seen_dec s v) as [Hs|Hs]; [right|left; assumption]. split; [assumption|].
      destruct (lt d (dist n)); [reflexivity|]. rewrite orb_false_r in E2. rewrite andb_true_r in E1.
      destruct Hs as [Hs|Hs]; fold n in Hs; rewrite Hs in *; discriminate. }
    assert (Hvns : ~ In v start).
    { intros Hvs. destruct Hnew as [H|[_ H]]; [apply H, (k_starts s HK), Hvs|].
      unfold n in H. rewrite (proj1 (k_start s HK v Hvs)), Hdz in H. discriminate. }
    assert (Hvc : v <> cur).
    { intros ->. destruct Hnew as [H|[_ H]]; [contradiction|]. unfold n in H. rewrite Hgrow in H. discriminate. }
    destruct (veqb_spec v cur) as [|_]; [contradiction|].
    set (s2 := State V C (setn (si s) v (Info V C d (if has_goal then hval v else g_h V C n) (Some cur) true (isclosed n) true (g_expanded V C n)))
       _ (sc s) (s_first V C s)).
    exists s2. split; [reflexivity|].
    assert (Hso : forall w, In w (so s2) <-> w = v \/ In w (so s)).
    { intros w. unfold s2. cbn [s_open]. apply Hpush. }
    assert (Ev : si s2 v = Info V C d (if has_goal then hval v else g_h V C n) (Some cur) true (isclosed n) true (g_expanded V C n)).
    { unfold s2. cbn [s_info]. apply setn_same. }
    assert (Ew : forall w, w <> v -> si s2 w = si s w).
    { intros w Hw. unfold s2. cbn [s_info]. apply setn_other. assumption. }
    assert (Hsv : seen s2 v) by (left; rewrite Ev; reflexivity).
    assert (Hsw : forall w, seen s w -> seen s2 w).
    { intros w Hw. destruct (V_dec w v) as [->|Hne]; [assumption|]. unfold seen. rewrite Ew by assumption. exact Hw. }
    assert (Hsb : forall w, seen s2 w -> w = v \/ seen s w).
    { intros w Hw. destruct (V_dec w v) as [->|Hne]; [left; reflexivity|right]. unfold seen in Hw. rewrite Ew in Hw by assumption. exact Hw. }
    assert (Hle : forall w, seen s w -> lt (dist (si s w)) (dist (si s2 w)) = false).
    { intros w Hw. destruct (V_dec w v) as [->|Hne]; [|rewrite Ew by assumption; apply lt_irrefl].
      rewrite Ev. cbn [g_dist]. destruct Hnew as [H|[_ H]]; [contradiction|]. apply lt_asym; [assumption|apply (k_ok s HK); assumption|exact H]. }
    assert (Hk2 : forall w, seen s2 w -> ok (dist (si s2 w)) /\ lt (dist (si s2 w)) zero = false).
    { intros w Hw. destruct (V_dec w v) as [->|Hne]; [rewrite Ev; auto|]. rewrite Ew by assumption.
      destruct (Hsb w Hw) as [|Hw']; [contradiction|]. apply (k_ok s HK). assumption. }
    assert (Hcs2 : si s2 cur = si s cur) by (apply Ew; congruence).
    destruct (k_trace s HK cur Hcs) as (pc & Hpc).
    assert (Hvpc : ~ In v pc).
    { intros Hv. destruct (trace_seen s cur pc HK Hpc Hcs v Hv) as [A B].
      destruct Hnew as [H|[_ H]]; [contradiction|].
      rewrite (ao_trans Hao (dist n) (dist (si s cur)) d) in H; try discriminate; auto.
      apply (k_ok s HK); assumption. }
    split; [|split; [assumption|split; [reflexivity|split; [assumption|split; [intros w Hw; apply Hso; right; assumption|split]]]]].
    - constructor.
      + intros w Hw. apply Hso. destruct (V_dec w v) as [->|Hne]; [left; reflexivity|right].
        rewrite Ew in Hw by assumption. apply (k_open s HK); assumption.
      + intros w Hw. apply Hso in Hw as [->|Hw]; [assumption|]. apply Hsw, (k_list s HK), Hw.
      + intros w Hw. apply Hsb in Hw as [->|Hw]; [assumption|]. apply (k_all s HK); assumption.
      + intros w Hw. apply Hsw, (k_starts s HK), Hw.
      + intros w Hw. rewrite Ew by congruence. apply (k_start s HK); assumption.
      + exact Hk2.
      + intros w Hw Hns. destruct (V_dec w v) as [->|Hne].
        * exists cur. rewrite Ev. cbn [g_prev g_dist]. split; [reflexivity|]. split; [auto|]. rewrite Hcs2. exact Hgrow.
        * apply Hsb in Hw as [|Hw]; [contradiction|]. rewrite Ew by assumption.
          destruct (k_prev s HK w Hw Hns) as (u & A & B & D). exists u. split; [assumption|]. split; [auto|].
          apply (ao_trans Hao _ (dist (si s u)) _); [apply Hk2; auto|apply (k_ok s HK); assumption|apply (k_ok s HK); assumption| |assumption].
          apply Hle; assumption.
      + assert (Hg : forall w p, trace (si s) w p -> exists q, trace (si s2) w q).
        { apply (trace_update (si s) (si s2) v cur pc).
          - intros w Hw. rewrite Ew by assumption. reflexivity.
          - rewrite Ev. reflexivity.
          - assumption.
          - assumption.
          - assumption. }
        intros w Hw. apply Hsb in Hw as [->|Hw].
        * destruct (Hg cur pc Hpc) as (q & Hq). exists (v :: q). apply (tr_step _ v cur); [assumption|rewrite Ev; reflexivity|assumption].
        * destruct (k_trace s HK w Hw) as (p & Hp). eapply Hg; eassumption.
    - intros w Hw. apply Hsb in Hw as [->|Hw]; [right; apply Hso; left; reflexivity|left; assumption].
    - right. apply (vec_decrease s s2 v Hva).
      + intros w Hw. unfold val_of. rewrite Ew by assumption. reflexivity.
      + rewrite (val_seen s2 v Hsv), Ev. cbn [g_dist].
        destruct Hnew as [H|[H H']]; [rewrite (val_unseen s v H); exact I|rewrite (val_seen s v H)].
        split; [assumption|]. split; [apply (k_ok s HK); assumption|exact H'].
  Qed.

  Lemma process_all_K cur l : forall s, K s -> In cur all -> seen s cur -> incl l (nbr cur) ->
    exists s', process_all cur l s = Some s' /\ K s' /\ (forall w c, In (w, c) l -> seen s' w) /\ sc s' = sc s /\
      (forall w, seen s w -> seen s' w) /\ (forall w, In w (so s) -> In w (so s')) /\
      (forall w, seen s' w -> seen s w \/ In w (so s')) /\
      ((so s' = so s /\ vec s' = vec s) \/ vlt (vec s') (vec s)).
  Proof using veqb_spec Hpush Hao nbr_all.
    induction l as [|[v c] l IH]; intros s HK Hca Hcs Hl; cbn [GenericSearch.process_all].
    - exists s. split; [reflexivity|]. split; [assumption|]. split; [intros w c []|]. repeat split; auto.
    - destruct (process_K cur s v c HK Hca Hcs (Hl _ (or_introl eq_refl))) as (s1 & E1 & HK1 & Hv & Ec & A & B & D & M).
      rewrite E1. cbn [obind].
      destruct (IH s1 HK1 Hca (A _ Hcs)) as (s2 & E2 & HK2 & Hl2 & Ec2 & A2 & B2 & D2 & M2).
      { intros x Hx. apply Hl. right. assumption. }
      exists s2. split; [assumption|]. split; [assumption|]. split.
      { intros w cw [H|H]; [injection H as -> ->; auto|eapply Hl2; eassumption]. }
      split; [congruence|]. split; [auto|]. split; [auto|]. split.
      { intros w Hw. destruct (D2 w Hw) as [Hw'|Hw']; [|right; assumption]. destruct (D w Hw') as [|Hw'']; [left; assumption|right; auto]. }
      destruct M as [[M M']|M], M2 as [[M2 M2']|M2].
      + left. split; congruence.
      + right. rewrite <- M'. assumption.
      + right. rewrite M2'. assumption.
      + right. eapply t_trans; eassumption.
  Qed.

  Lemma close_K s cur o : K s -> seen s cur -> (forall w, In w (so s) -> w = cur \/ In w o) -> incl o (so s) ->
    K (close s cur o) /\ vec (close s cur o) = vec s /\ (forall w, seen (close s cur o) w <-> seen s w).
  Proof using veqb_spec.
    intros HK Hcs Hl Hi. set (s1 := close s cur o).
    assert (Ei : forall w, dist (si s1 w) = dist (si s w) /\ prev (si s1 w) = prev (si s w)).
    { intros w. unfold s1, GenericSearch.close. cbn [s_info]. destruct (V_dec w cur) as [->|Hne];
        [rewrite setn_same; auto|rewrite setn_other by assumption; auto]. }
    assert (Ec : isclosed (si s1 cur) = true /\ isopen (si s1 cur) = false).
    { unfold s1, GenericSearch.close. cbn [s_info]. rewrite setn_same. auto. }
    assert (Ew : forall w, w <> cur -> si s1 w = si s w).
    { intros w Hw. unfold s1, GenericSearch.close. cbn [s_info]. apply setn_other. assumption. }
    assert (Es : forall w, seen s1 w <-> seen s w).
    { intros w. destruct (V_dec w cur) as [->|Hne]; [|unfold seen; rewrite Ew by assumption; reflexivity].
      split; [auto|]. intros _. right. apply Ec. }
    split; [|split; [|exact Es]].
    - destruct HK. constructor.
      + intros w Hw. destruct (V_dec w cur) as [->|Hne]; [rewrite (proj2 Ec) in Hw; discriminate|].
        rewrite Ew in Hw by assumption. destruct (Hl w (k_open0 w Hw)); [contradiction|assumption].
      + intros w Hw. apply Es, k_list0, Hi, Hw.
      + intros w Hw. apply Es in Hw. auto.
      + intros w Hw. apply Es. auto.
      + intros w Hw. destruct (Ei w) as (-> & ->). auto.
      + intros w Hw. destruct (Ei w) as (-> & _). apply Es in Hw. auto.
      + intros w Hw Hns. apply Es in Hw. destruct (Ei w) as (-> & ->).
        destruct (k_prev0 w Hw Hns) as (u & A & B & D). exists u. destruct (Ei u) as (-> & _).
        split; [assumption|]. split; [apply Es; assumption|assumption].
      + intros w Hw. apply Es in Hw. destruct (k_trace0 w Hw) as (p & Hp). exists p.
        clear - Hp Ei. induction Hp as [w' Hw'|w' u p Hw' E Hp IH]; [constructor; assumption|].
        apply (tr_step (si s1) w' u); [assumption| |assumption]. destruct (Ei w') as (_ & ->). assumption.
    - unfold vec. apply map_ext. intros w. destruct (seen_dec s w) as [Hw|Hw].
      + rewrite (val_seen s w Hw), (val_seen s1 w) by (apply Es; assumption). f_equal. apply Ei.
      + rewrite (val_unseen s w Hw), (val_unseen s1 w); [reflexivity|]. rewrite Es. assumption.
  Qed.

  (** ** Used search objects *)
  (** What every earlier use leaves behind: the nodes seen so far lie in the
      map with a distance that occurs, and no node is its own predecessor. *)
  Definition fit (f : V -> info) : Prop :=
    (forall v, isopen (f v) = true \/ isclosed (f v) = true -> In v all /\ ok (dist (f v)) /\ lt (dist (f v)) zero = false) /\
    (forall v, prev (f v) <> Some v).

  (** [T]: the nodes this search put into the open list. *)
  Record U (T : V -> Prop) (s : state) : Prop := {
    u_fit : fit (si s);
    u_list : forall v, In v (so s) -> T v;
    u_seen : forall v, T v -> seen s v;
    u_start : forall v, In v start -> T v /\ dist (si s v) = zero;
    u_prev : forall v, T v -> ~ In v start -> exists u, prev (si s v) = Some u /\ T u /\ lt (dist (si s v)) (dist (si s u)) = false;
    u_trace : forall v, T v -> exists p, trace (si s) v p;
    u_cand : forall v c, In (v, c) (sc s) -> T v }.

  (** Nothing seen is forgotten, no distance grows. *)
  Definition lower (f g : V -> info) : Prop := forall v,
    isopen (f v) = true \/ isclosed (f v) = true ->
    (isopen (g v) = true \/ isclosed (g v) = true) /\ lt (dist (f v)) (dist (g v)) = false.

  Lemma lower_refl f : lower f f.
  Proof using Hao. intros v H. split; [exact H|apply lt_irrefl]. Qed.
  Lemma lower_trans f g h : fit f -> fit g -> fit h -> lower f g -> lower g h -> lower f h.
  Proof using Hao.
    intros Ff Fg Fh A B v Hv. destruct (A v Hv) as [Hg Hl]. destruct (B v Hg) as [Hh Hl2]. split; [exact Hh|].
    apply (ao_trans Hao _ (dist (g v)) _); [apply (proj1 Fh), Hh|apply (proj1 Fg), Hg|apply (proj1 Ff), Hv|exact Hl2|exact Hl].
  Qed.

  Lemma u_ok T s v : U T s -> seen s v -> In v all /\ ok (dist (si s v)) /\ lt (dist (si s v)) zero = false.
  Proof using Type. intros HU Hv. apply (proj1 (u_fit T s HU) v Hv). Qed.

  Lemma trace_seenU (T : V -> Prop) s v p : U T s -> trace (si s) v p -> T v -> forall x, In x p ->
    T x /\ lt (dist (si s v)) (dist (si s x)) = false.
  Proof using Hao.
    intros HU. induction 1 as [v Hv|v u p Hv E H IH]; intros Ht x Hx.
    - destruct Hx as [<-|[]]. split; [assumption|apply lt_irrefl].
    - destruct Hx as [<-|Hx]; [split; [assumption|apply lt_irrefl]|].
      destruct (u_prev T s HU v Ht Hv) as (u' & E' & Htu & Hle). rewrite E in E'. injection E' as <-.
      destruct (IH Htu x Hx) as [Htx Hlx]. split; [assumption|].
      apply (ao_trans Hao _ (dist (si s u)) _); try assumption;
        apply (u_ok T s _ HU), (u_seen T s HU); assumption.
  Qed.

  Lemma backtrack_someU T s v : U T s -> T v -> exists x p, backtrack (si s) v = Some (x :: p).
  Proof using veqb_spec Hao.
    intros HU Ht. destruct (u_trace T s HU v Ht) as (p & Hp).
    assert (Hlen : (length p <= length all)%nat).
    { apply NoDup_incl_length; [eapply trace_nodup; eassumption|]. intros x Hx.
      apply (u_ok T s _ HU), (u_seen T s HU). eapply trace_seenU; eauto. }
    unfold GenericSearch.backtrack. rewrite (bt_trace (si s) v p).
    - rewrite app_nil_r. destruct (rev p) as [|x q] eqn:Er; [|eauto].
      apply (f_equal (@rev V)) in Er. rewrite rev_involutive in Er. simpl in Er. subst p. inversion Hp.
    - intros w _. apply (proj2 (u_fit T s HU)).
    - assumption.
    - clear - Hlen. lia.
    - intros x _ [].
  Qed.

  (** Changing nothing the invariant speaks of. *)
  Lemma U_same (T : V -> Prop) s s1 : (forall w, dist (si s1 w) = dist (si s w) /\ prev (si s1 w) = prev (si s w) /\
      (seen s1 w <-> seen s w)) -> incl (so s1) (so s) -> (forall v c, In (v, c) (sc s1) -> T v) -> U T s ->
    U T s1 /\ vec s1 = vec s /\ lower (si s) (si s1).
  Proof using Hao.
    intros Ei Ho Hc HU.
    assert (Hf : fit (si s1)).
    { destruct (u_fit T s HU) as [F1 F2]. split.
      - intros v Hv. destruct (Ei v) as (-> & _ & Es). apply F1. apply Es. exact Hv.
      - intros v. destruct (Ei v) as (_ & -> & _). apply F2. }
    split; [|split].
    - constructor.
      + exact Hf.
      + intros v Hv. apply (u_list T s HU), Ho, Hv.
      + intros v Hv. apply Ei. apply (u_seen T s HU), Hv.
      + intros v Hv. destruct (Ei v) as (-> & _). apply (u_start T s HU), Hv.
      + intros v Hv Hns. destruct (Ei v) as (-> & -> & _). destruct (u_prev T s HU v Hv Hns) as (u & A & B & D).
        exists u. destruct (Ei u) as (-> & _). auto.
      + intros v Hv. destruct (u_trace T s HU v Hv) as (p & Hp). exists p. clear - Hp Ei.
        induction Hp as [w Hw|w u p Hw E Hp IH]; [constructor; assumption|].
        apply (tr_step (si s1) w u); [assumption| |assumption]. destruct (Ei w) as (_ & -> & _). assumption.
      + exact Hc.
    - unfold vec. apply map_ext. intros w. destruct (seen_dec s w) as [Hw|Hw].
      + rewrite (val_seen s w Hw), (val_seen s1 w) by (apply Ei; assumption). f_equal. apply Ei.
      + rewrite (val_unseen s w Hw), (val_unseen s1 w); [reflexivity|]. intros H. apply Hw, Ei, H.
    - intros v Hv. split; [apply Ei; exact Hv|]. destruct (Ei v) as (-> & _). apply lt_irrefl.
  Qed.

  Lemma process_U T cur s v c : U T s -> T cur -> In (v, c) (nbr cur) ->
    exists s' (T' : V -> Prop), processNeighbor cur s (v, c) = Some s' /\ U T' s' /\ (forall w, T w -> T' w) /\ sc s' = sc s /\
      si s' cur = si s' cur /\ dist (si s' cur) = dist (si s cur) /\
      (seen s' v /\ lt (add (dist (si s cur)) c) (dist (si s' v)) = false) /\
      lower (si s) (si s') /\
      ((so s' = so s /\ vec s' = vec s) \/ vlt (vec s') (vec s)) /\
      (seen s v -> lt (add (dist (si s cur)) c) (dist (si s v)) = false -> so s' = so s).
  Proof using veqb_spec Hpush Hao nbr_all.
    intros HU Hct Hin. unfold GenericSearch.processNeighbor.
    set (n := si s v). set (d := add (dist (si s cur)) c).
    assert (Hcs : seen s cur) by (apply (u_seen T s HU); assumption).
    destruct (u_ok T s cur HU Hcs) as (Hca & Hok & Hoz).
    assert (Hva : In v all) by (apply (nbr_all cur v c); assumption).
    assert (Hokd : ok d) by (apply (ao_add Hao cur v c); assumption).
    assert (Hgrow : lt d (dist (si s cur)) = false) by (apply (ao_grow Hao cur v c); assumption).
    assert (Hdz : lt d zero = false).
    { apply (ao_trans Hao zero (dist (si s cur)) d); auto using (ao_zero Hao). }
    set (s1 := State V C (setn (si s) v (Info V C (dist n) (g_h V C n) (prev n) (isopen n) (isclosed n) true (g_expanded V C n)))
                 (so s) (sc s) (s_first V C s)).
    assert (Hs1 : seen s v -> lt d (dist n) = false -> U T s1 /\ (forall w, T w -> T w) /\ sc s1 = sc s /\
      si s1 cur = si s1 cur /\ dist (si s1 cur) = dist (si s cur) /\
      (seen s1 v /\ lt d (dist (si s1 v)) = false) /\ lower (si s) (si s1) /\
      ((so s1 = so s /\ vec s1 = vec s) \/ vlt (vec s1) (vec s)) /\
      (seen s v -> lt d (dist n) = false -> so s1 = so s)).
    { intros Hsv Hnl.
      assert (Ei : forall w, dist (si s1 w) = dist (si s w) /\ prev (si s1 w) = prev (si s w) /\ (seen s1 w <-> seen s w)).
      { intros w. unfold seen, s1. cbn [s_info]. destruct (V_dec w v) as [->|Hne];
          [rewrite setn_same|rewrite setn_other by assumption]; repeat split; auto. }
      destruct (U_same T s s1 Ei (incl_refl _) (u_cand T s HU) HU) as (A & B & D).
      split; [exact A|]. split; [auto|]. split; [reflexivity|]. split; [reflexivity|]. split; [apply Ei|].
      split; [split; [apply Ei; exact Hsv|destruct (Ei v) as (-> & _); exact Hnl]|]. split; [exact D|]. split; [left; split; [reflexivity|exact B]|].
      reflexivity. }
    destruct (isclosed n && negb (lt d (dist n))) eqn:E1.
    { exists s1, T. split; [reflexivity|]. apply andb_prop in E1 as [E1 E1']. apply Hs1; [right; exact E1|].
      apply negb_true_iff in E1'. exact E1'. }
    destruct (negb (isopen n) || lt d (dist n)) eqn:E2.
    2:{ exists s1, T. split; [reflexivity|]. apply orb_false_elim in E2. destruct E2 as [E2 E2']. apply Hs1; [left|exact E2'].
        apply negb_false_iff in E2. exact E2. }
    assert (Hnew : ~ seen s v \/ (seen s v /\ lt d (dist n) = true)).
    { destruct (seen_dec s v) as [Hs|Hs]; [right|left; assumption]. split; [assumption|].
      destruct (lt d (dist n)); [reflexivity|]. rewrite orb_false_r in E2. rewrite andb_true_r in E1.
      destruct Hs as [Hs|Hs]; fold n in Hs; rewrite Hs in *; discriminate. }
    assert (Hvns : ~ In v start).
    { intros Hvs. destruct (u_start T s HU v Hvs) as [Htv Hz].
      destruct Hnew as [H|[_ H]]; [apply H, (u_seen T s HU), Htv|].
      unfold n in H. rewrite Hz, Hdz in H. discriminate. }
    assert (Hvc : v <> cur).
    { intros ->. destruct Hnew as [H|[_ H]]; [contradiction|]. unfold n in H. rewrite Hgrow in H. discriminate. }
    destruct (veqb_spec v cur) as [|_]; [contradiction|].
    set (s2 := State V C (setn (si s) v (Info V C d (if has_goal then hval v else g_h V C n) (Some cur) true (isclosed n) true (g_expanded V C n)))
       _ (sc s) (s_first V C s)).
    exists s2, (fun w => w = v \/ T w). split; [reflexivity|].
    assert (Hso : forall w, In w (so s2) <-> w = v \/ In w (so s)).
    { intros w. unfold s2. cbn [s_open]. apply Hpush. }
    assert (Ev : si s2 v = Info V C d (if has_goal then hval v else g_h V C n) (Some cur) true (isclosed n) true (g_expanded V C n)).
    { unfold s2. cbn [s_info]. apply setn_same. }
    assert (Ew : forall w, w <> v -> si s2 w = si s w).
    { intros w Hw. unfold s2. cbn [s_info]. apply setn_other. assumption. }
    assert (Hsv : seen s2 v) by (left; rewrite Ev; reflexivity).
    assert (Hsw : forall w, seen s w -> seen s2 w).
    { intros w Hw. destruct (V_dec w v) as [->|Hne]; [assumption|]. unfold seen. rewrite Ew by assumption. exact Hw. }
    assert (Hsb : forall w, seen s2 w -> w = v \/ seen s w).
    { intros w Hw. destruct (V_dec w v) as [->|Hne]; [left; reflexivity|right]. unfold seen in Hw. rewrite Ew in Hw by assumption. exact Hw. }
    assert (Hle : forall w, seen s w -> lt (dist (si s w)) (dist (si s2 w)) = false).
    { intros w Hw. destruct (V_dec w v) as [->|Hne]; [|rewrite Ew by assumption; apply lt_irrefl].
      rewrite Ev. cbn [g_dist]. destruct Hnew as [H|[_ H]]; [contradiction|].
      apply lt_asym; [assumption|apply (u_ok T s v HU Hw)|exact H]. }
    assert (Hk2 : forall w, seen s2 w -> In w all /\ ok (dist (si s2 w)) /\ lt (dist (si s2 w)) zero = false).
    { intros w Hw. destruct (V_dec w v) as [->|Hne]; [rewrite Ev; auto|]. rewrite Ew by assumption.
      destruct (Hsb w Hw) as [|Hw']; [contradiction|]. apply (u_ok T s w HU). assumption. }
    assert (Hcs2 : si s2 cur = si s cur) by (apply Ew; congruence).
    destruct (u_trace T s HU cur Hct) as (pc & Hpc).
    assert (Hvpc : ~ In v pc).
    { intros Hv. destruct (trace_seenU T s cur pc HU Hpc Hct v Hv) as [A B].
      destruct Hnew as [H|[Hsn H]]; [apply H, (u_seen T s HU), A|].
      rewrite (ao_trans Hao (dist n) (dist (si s cur)) d) in H; try discriminate; auto.
      apply (u_ok T s v HU Hsn). }
    assert (Hf2 : fit (si s2)).
    { split; [exact Hk2|]. intros w. destruct (V_dec w v) as [->|Hne].
      - rewrite Ev. cbn [g_prev]. congruence.
      - rewrite Ew by assumption. apply (proj2 (u_fit T s HU)). }
    split; [|split; [intros w Hw; right; exact Hw|split; [reflexivity|split; [reflexivity|split; [rewrite Hcs2; reflexivity|split;
      [split; [exact Hsv|rewrite Ev; cbn [g_dist]; apply lt_irrefl]|split; [|split]]]]]]].
    - constructor.
      + exact Hf2.
      + intros w Hw. apply Hso in Hw as [->|Hw]; [left; reflexivity|right; apply (u_list T s HU), Hw].
      + intros w [->|Hw]; [exact Hsv|]. apply Hsw, (u_seen T s HU), Hw.
      + intros w Hw. destruct (u_start T s HU w Hw) as [A B]. split; [right; exact A|].
        rewrite Ew by congruence. exact B.
      + intros w Hw Hns. destruct (V_dec w v) as [->|Hne].
        * exists cur. rewrite Ev. cbn [g_prev g_dist]. split; [reflexivity|]. split; [auto|]. rewrite Hcs2. exact Hgrow.
        * destruct Hw as [|Hw]; [contradiction|]. rewrite Ew by assumption.
          destruct (u_prev T s HU w Hw Hns) as (u & A & B & D). exists u. split; [assumption|]. split; [auto|].
          pose proof (u_seen T s HU u B) as Hsu. pose proof (u_seen T s HU w Hw) as Hswn.
          apply (ao_trans Hao _ (dist (si s u)) _); [apply Hk2, Hsw, Hsu|apply (u_ok T s u HU Hsu)|apply (u_ok T s w HU Hswn)| |assumption].
          apply Hle; assumption.
      + assert (Hg : forall w p, trace (si s) w p -> exists q, trace (si s2) w q).
        { apply (trace_update (si s) (si s2) v cur pc).
          - intros w Hw. rewrite Ew by assumption. reflexivity.
          - rewrite Ev. reflexivity.
          - assumption.
          - assumption.
          - assumption. }
        intros w [->|Hw].
        * destruct (Hg cur pc Hpc) as (q & Hq). exists (v :: q). apply (tr_step _ v cur); [assumption|rewrite Ev; reflexivity|assumption].
        * destruct (u_trace T s HU w Hw) as (p & Hp). eapply Hg; eassumption.
      + intros w cw Hw. right. apply (u_cand T s HU w cw). exact Hw.
    - intros w Hw. split; [apply Hsw, Hw|apply Hle, Hw].
    - right. apply (vec_decrease s s2 v Hva).
      + intros w Hw. unfold val_of. rewrite Ew by assumption. reflexivity.
      + rewrite (val_seen s2 v Hsv), Ev. cbn [g_dist].
        destruct Hnew as [H|[H H']]; [rewrite (val_unseen s v H); exact I|rewrite (val_seen s v H)].
        split; [assumption|]. split; [apply (u_ok T s v HU H)|exact H'].
    - intros Hs H. destruct Hnew as [Hn|[_ Hn]]; [contradiction|congruence].
  Qed.

  Lemma process_all_U cur l : forall T s, U T s -> T cur -> incl l (nbr cur) ->
    exists s' (T' : V -> Prop), process_all cur l s = Some s' /\ U T' s' /\ (forall w, T w -> T' w) /\ sc s' = sc s /\
      dist (si s' cur) = dist (si s cur) /\
      (forall v c, In (v, c) l -> seen s' v /\ lt (add (dist (si s cur)) c) (dist (si s' v)) = false) /\
      lower (si s) (si s') /\
      ((so s' = so s /\ vec s' = vec s) \/ vlt (vec s') (vec s)) /\
      ((forall v c, In (v, c) l -> seen s v /\ lt (add (dist (si s cur)) c) (dist (si s v)) = false) -> so s' = so s).
  Proof using veqb_spec Hpush Hao nbr_all.
    induction l as [|[v c] l IH]; intros T s HU Hct Hl; cbn [GenericSearch.process_all].
    - exists s, T. split; [reflexivity|]. split; [exact HU|]. split; [auto|]. split; [reflexivity|]. split; [reflexivity|].
      split; [intros v c []|]. split; [apply lower_refl|]. split; [left; split; reflexivity|]. reflexivity.
    - pose proof (Hl (v, c) (or_introl eq_refl)) as Hin.
      destruct (process_U T cur s v c HU Hct Hin) as (s1 & T1 & E1 & HU1 & HT1 & Ec & _ & Ed & [Hv Hvl] & Lw & M & Q).
      rewrite E1. cbn [obind].
      destruct (IH T1 s1 HU1 (HT1 _ Hct)) as (s2 & T2 & E2 & HU2 & HT2 & Ec2 & Ed2 & Hl2 & Lw2 & M2 & Q2).
      { intros x Hx. apply Hl. right. assumption. }
      pose proof (lower_trans _ _ _ (u_fit _ _ HU) (u_fit _ _ HU1) (u_fit _ _ HU2) Lw Lw2) as Lw3.
      assert (Hokd : forall v' c', In (v', c') (nbr cur) -> ok (add (dist (si s cur)) c')).
      { intros v' c' H. destruct (u_ok T s cur HU (u_seen T s HU _ Hct)) as (X & Y & _). apply (ao_add Hao cur v' c'); assumption. }
      exists s2, T2. split; [exact E2|]. split; [exact HU2|]. split; [auto|]. split; [congruence|]. split; [congruence|]. split; [|split; [exact Lw3|split]].
      + intros w cw [H|H]; [injection H as -> ->|rewrite <- Ed; apply Hl2; exact H].
        destruct (Lw2 w Hv) as [Hw2 Hwl]. split; [exact Hw2|].
        apply (ao_trans Hao _ (dist (si s1 w)) _); [apply (u_ok _ _ w HU2 Hw2)|apply (u_ok _ _ w HU1 Hv)|apply (Hokd w cw Hin)|exact Hwl|exact Hvl].
      + destruct M as [[M M']|M], M2 as [[M2 M2']|M2].
        * left. split; congruence.
        * right. rewrite <- M'. assumption.
        * right. rewrite M2'. assumption.
        * right. eapply t_trans; eassumption.
      + intros Hs. destruct (Hs v c (or_introl eq_refl)) as [Hsv Hsl]. rewrite Q2; [apply Q; assumption|].
        intros w cw Hw. rewrite Ed. destruct (Hs w cw (or_intror Hw)) as [Hsw Hswl]. destruct (Lw w Hsw) as [X Y]. split; [exact X|].
        apply (ao_trans Hao _ (dist (si s w)) _); [apply (u_ok _ _ w HU1 X)|apply (u_ok _ _ w HU Hsw)|apply (Hokd w cw), Hl; right; exact Hw|exact Y|exact Hswl].
  Qed.

  Lemma close_U T s cur o : U T s -> T cur -> incl o (so s) ->
    U T (close s cur o) /\ vec (close s cur o) = vec s /\ lower (si s) (si (close s cur o)).
  Proof using veqb_spec Hao.
    intros HU Hct Hi. pose proof (u_seen T s HU cur Hct) as Hcs. set (s1 := close s cur o). apply U_same; [|exact Hi|apply (u_cand T s HU)|exact HU].
    intros w. destruct (V_dec w cur) as [->|Hne].
    - unfold seen, s1, GenericSearch.close. cbn [s_info]. rewrite setn_same. cbn [g_dist g_prev g_open g_closed]. split; [reflexivity|]. split; [reflexivity|].
      split; [intros _; exact Hcs|right; reflexivity].
    - unfold seen, s1, GenericSearch.close. cbn [s_info]. rewrite setn_other by assumption. split; [reflexivity|]. split; [reflexivity|]. reflexivity.
  Qed.

  Lemma finish_U T s : U T s -> exists p, finish s = GPath V p.
  Proof using veqb_spec Hao Hbest.
    intros HU. unfold GenericSearch.finish. destruct (best (sc s)) as [v|] eqn:Eb; [|eexists; reflexivity].
    destruct (Hbest _ _ Eb) as (c & Hin). destruct (backtrack_someU T s v HU (u_cand T s HU v c Hin)) as (x & p & E).
    rewrite E. exists (x :: p). reflexivity.
  Qed.

  Lemma candidate_U T s cur : U T s -> T cur -> U T (add_candidate s cur).
  Proof using Type.
    intros HU Hct. destruct HU. constructor; auto. unfold GenericSearch.add_candidate. cbn [s_cand]. intros v c H.
    apply in_app_or in H as [H|[H|[]]]; [eauto|]. injection H as <- _. exact Hct.
  Qed.

  (** One iteration: the call ends here, or the loop goes on with less left to do. *)
  Lemma loop_used : forall (vv : list (option C)) (m : nat) (n : nat) T s,
    vec s = vv -> (length (so s) <= m)%nat -> U T s ->
    (exists fuel p s', loop fuel n s = (GPath V p, s')) /\
    (forall fuel r s', loop fuel n s = (r, s') -> r <> GUndef V /\ fit (si s') /\ lower (si s) (si s')).
  Proof using veqb_spec Hpush Hpop Hbest Hao nbr_all.
    induction vv as [vv IHv] using (well_founded_ind vlt_wf).
    induction m as [m IHm] using (well_founded_ind lt_wf).
    intros n T s Hvec Hm HU.
    assert (Hend : forall r s', loop 0 n s = (r, s') -> r <> GUndef V /\ fit (si s') /\ lower (si s) (si s')).
    { intros r s' E. injection E as <- <-. split; [discriminate|]. split; [apply (u_fit T s HU)|apply lower_refl]. }
    assert (Hone : forall r1 s1, (forall k, loop (S k) n s = (r1, s1)) -> (exists p, r1 = GPath V p) -> fit (si s1) -> lower (si s) (si s1) ->
      (exists fuel p s', loop fuel n s = (GPath V p, s')) /\
      (forall fuel r s', loop fuel n s = (r, s') -> r <> GUndef V /\ fit (si s') /\ lower (si s) (si s'))).
    { intros r1 s1 Hl (p & ->) Hf Hlw. split; [exists 1%nat, p, s1; apply Hl|]. intros [|k] r s' E; [apply Hend; exact E|].
      rewrite Hl in E. injection E as <- <-. split; [discriminate|]. split; assumption. }
    destruct (finish_U T s HU) as (pf & Ef).
    destruct (so s) as [|v0 o0] eqn:Eo.
    { apply (Hone (GPath V pf) s); [|eauto|apply (u_fit T s HU)|apply lower_refl]. intros k. cbn [GenericSearch.loop]. rewrite Eo, Ef. reflexivity. }
    destruct (timeout n) eqn:Et.
    { apply (Hone (GPath V pf) s); [|eauto|apply (u_fit T s HU)|apply lower_refl]. intros k. cbn [GenericSearch.loop]. rewrite Eo, Et, Ef. reflexivity. }
    pose proof (Hpop (total V C tot (si s)) (so s)) as Hp.
    destruct (pop (total V C tot (si s)) (so s)) as [[cur o]|] eqn:Ep; [|congruence].
    destruct Hp as (Hp1 & Hp2 & Hp3 & Hp4).
    assert (Hct : T cur) by (apply (u_list T s HU); assumption).
    destruct (close_U T s cur o HU Hct Hp3) as (HU1 & Hv1 & Lw1).
    set (s1 := close s cur o) in *.
    assert (Hstep : forall s2, si s2 = si s1 -> so s2 = so s1 -> U T s2 ->
      (forall k, loop (S k) n s = match process_all cur (nbr cur) s2 with None => (GUndef V, s2) | Some s3 => loop k (S n) s3 end) ->
      (exists fuel p s', loop fuel n s = (GPath V p, s')) /\
      (forall fuel r s', loop fuel n s = (r, s') -> r <> GUndef V /\ fit (si s') /\ lower (si s) (si s'))).
    { intros s2 Ei Es HU2 Hl.
      destruct (process_all_U cur (nbr cur) T s2 HU2 Hct (incl_refl _)) as (s3 & T3 & E3 & HU3 & HT3 & Ec3 & _ & _ & Lw3 & M3 & _).
      rewrite E3 in Hl.
      assert (Hv2 : vec s2 = vv).
      { rewrite <- Hvec, <- Hv1. unfold vec, val_of. rewrite Ei. reflexivity. }
      assert (Hlw : lower (si s) (si s3)).
      { apply (lower_trans _ (si s2)); [apply (u_fit T s HU)|apply (u_fit _ _ HU2)|apply (u_fit _ _ HU3)| |exact Lw3]. rewrite Ei. exact Lw1. }
      assert (Hrec : (exists fuel p s', loop fuel (S n) s3 = (GPath V p, s')) /\
        (forall fuel r s', loop fuel (S n) s3 = (r, s') -> r <> GUndef V /\ fit (si s') /\ lower (si s3) (si s'))).
      { destruct M3 as [[M M']|M].
        - apply (IHm (length (so s3))) with (T := T3); [|congruence|reflexivity|exact HU3].
          rewrite M, Es. unfold s1, GenericSearch.close. cbn [s_open]. rewrite Eo in Hp2. simpl in Hp2, Hm. clear - Hp2 Hm. lia.
        - apply (IHv (vec s3)) with (m := length (so s3)) (T := T3); auto. rewrite <- Hv2. exact M. }
      destruct Hrec as [(fuel & p & s' & El) Hsafe]. split.
      - exists (S fuel), p, s'. rewrite Hl. exact El.
      - intros [|k] r s0 E; [apply Hend; exact E|]. rewrite Hl in E. destruct (Hsafe k r s0 E) as (A & B & D). split; [exact A|]. split; [exact B|].
        apply (lower_trans _ (si s3)); [apply (u_fit T s HU)|apply (u_fit _ _ HU3)|exact B|exact Hlw|exact D]. }
    assert (Hunf : forall k, loop (S k) n s =
      if is_goal cur && negb use_candidates then
        match backtrack (si s1) cur with None => (GUndef V, s1) | Some [] => (finish s1, s1) | Some p => (GPath V p, s1) end
      else
        let s2 := if is_goal cur then add_candidate s1 cur else s1 in
        if use_candidates && negb (match sc s2 with [] => true | _ => false end) && over (total V C tot (si s2) cur) (s_first V C s2)
        then (finish s2, s2)
        else match process_all cur (nbr cur) s2 with None => (GUndef V, s2) | Some s3 => loop k (S n) s3 end).
    { intros k. cbn [GenericSearch.loop]. rewrite Eo, Et, <- Eo, Ep. reflexivity. }
    destruct (is_goal cur && negb use_candidates).
    - destruct (backtrack_someU T s1 cur HU1 Hct) as (x & p & E). apply (Hone (GPath V (x :: p)) s1); [|eauto|apply (u_fit _ _ HU1)|exact Lw1].
      intros k. rewrite Hunf, E. reflexivity.
    - cbv zeta in Hunf. set (s2 := if is_goal cur then add_candidate s1 cur else s1) in *.
      assert (HU2 : U T s2) by (unfold s2; destruct (is_goal cur); [apply candidate_U; assumption|exact HU1]).
      assert (Ei : si s2 = si s1) by (unfold s2; destruct (is_goal cur); reflexivity).
      assert (Es : so s2 = so s1) by (unfold s2; destruct (is_goal cur); reflexivity).
      destruct (_ && _ && _).
      + destruct (finish_U T s2 HU2) as (p & E). apply (Hone (GPath V p) s2); [|eauto|rewrite Ei; apply (u_fit _ _ HU1)|rewrite Ei; exact Lw1].
        intros k. rewrite Hunf, E. reflexivity.
      + apply (Hstep s2 Ei Es HU2 Hunf).
  Qed.

  Lemma begin_U f first : fit f -> U (fun v => In v start) (init_search f first) /\ (forall v, isopen (f v) = true \/ isclosed (f v) = true ->
      seen (init_search f first) v /\ lt (dist (f v)) (dist (si (init_search f first) v)) = false).
  Proof using veqb_spec Hpush Hao start_all.
    intros [F1 F2]. unfold GenericSearch.init_search.
    destruct (add_starts_spec start (State V C f [] [] first)) as (A & B & D & F & G & K0 & _).
    match type of A with forall v, In v (so ?s0) <-> _ => set (s := s0) in * end. split.
    - constructor.
      + split.
        * intros v Hv. destruct (in_dec V_dec v start) as [Hs|Hn].
          -- rewrite (proj1 (G v Hs)). split; [apply start_all, Hs|]. split; [apply (ao_zero Hao)|apply lt_irrefl].
          -- rewrite (F v Hn) in *. apply F1. exact Hv.
        * intros v. rewrite D. apply F2.
      + intros v Hv. apply A in Hv as [[]|Hv]. exact Hv.
      + intros v Hv. left. apply G, Hv.
      + intros v Hv. split; [exact Hv|apply G, Hv].
      + intros v Hv Hn. contradiction.
      + intros v Hv. exists [v]. constructor. exact Hv.
      + rewrite B. intros v c [].
    - intros v Hv. destruct (in_dec V_dec v start) as [Hs|Hn].
      + split; [left; apply G, Hs|]. rewrite (proj1 (G v Hs)). apply F1. exact Hv.
      + unfold seen. rewrite (F v Hn). cbn [s_info]. split; [exact Hv|apply lt_irrefl].
  Qed.

  (** Every call on a used object ends, with a path or empty, and leaves a used object. *)
  Lemma run_used f first : fit f ->
    (exists fuel p s', run fuel f first = (GPath V p, s')) /\
    (forall fuel r s', run fuel f first = (r, s') -> r <> GUndef V /\ fit (si s') /\ lower f (si s')).
  Proof using veqb_spec Hpush Hpop Hbest Hao nbr_all start_all.
    intros Hf. destruct (begin_U f first Hf) as [HU Hl]. unfold GenericSearch.run.
    destruct (loop_used _ _ 0 _ _ eq_refl (le_n _) HU) as [He Hs]. split; [exact He|].
    intros fuel r s' E. destruct (Hs fuel r s' E) as (A & B & D). split; [exact A|]. split; [exact B|].
    apply (lower_trans _ (si (init_search f first))); [exact Hf|apply (u_fit _ _ HU)|exact B| |exact D].
    intros v Hv. apply Hl. exact Hv.
  Qed.

  (** The neighbours of [s] have been offered the step from it at distance 0. *)
  Definition sealed (f : V -> info) (s : V) : Prop := forall v c, In (v, c) (nbr s) ->
    (isopen (f v) = true \/ isclosed (f v) = true) /\ lt (add zero c) (dist (f v)) = false.

  Lemma sealed_lower f g s : In s all -> fit f -> fit g -> lower f g -> sealed f s -> sealed g s.
  Proof using Hao.
    intros Hs Ff Fg L H v c Hin. destruct (H v c Hin) as [A B]. destruct (L v A) as [X Y]. split; [exact X|].
    apply (ao_trans Hao _ (dist (f v)) _); [apply (proj1 Fg), X|apply (proj1 Ff), A|apply (ao_add Hao s v c zero Hs Hin (ao_zero Hao))|exact Y|exact B].
  Qed.

  (** The first iteration from the only start node, which is not accepted. *)
  Lemma first_round s f first : start = [s] -> is_goal s = false -> fit f -> timeout 0%nat = false ->
    exists s3, (forall k, run (S k) f first = loop k 1 s3) /\ (exists T, U T s3) /\ sealed (si s3) s /\
      (sealed f s -> so s3 = []) /\ sc s3 = [].
  Proof using veqb_spec Hpush Hpop Hao nbr_all start_all.
    intros Es Eg Hf Et. destruct (begin_U f first Hf) as [HU Hlow]. unfold GenericSearch.run.
    set (s0 := init_search f first) in *. rewrite Es in HU.
    assert (Hopen : forall v, In v (so s0) <-> v = s).
    { intros v. destruct (add_starts_spec start (State V C f [] [] first)) as (A & _). unfold s0, GenericSearch.init_search. rewrite A, Es. simpl.
      split; [intros [[]|[->|[]]]; reflexivity|intros ->; auto]. }
    assert (Hlen : (length (so s0) <= 1)%nat).
    { unfold s0, GenericSearch.init_search. rewrite Es. cbn [add_starts s_open]. eapply Nat.le_trans; [apply (proj1 (Hpush _ _ _))|cbn [s_open length]; clear; lia]. }
    assert (Hcand : sc s0 = []).
    { destruct (add_starts_spec start (State V C f [] [] first)) as (_ & B & _). exact B. }
    assert (Hne : so s0 <> []).
    { intros E. assert (H : In s (so s0)) by (apply Hopen; reflexivity). rewrite E in H. destruct H. }
    pose proof (Hpop (total V C tot (si s0)) (so s0)) as Hp.
    destruct (pop (total V C tot (si s0)) (so s0)) as [[cur o]|] eqn:Ep; [|congruence].
    destruct Hp as (Hp1 & Hp2 & Hp3 & _). apply Hopen in Hp1 as ->.
    assert (Ho : o = []) by (destruct o; [reflexivity|simpl in Hp2; clear - Hp2 Hlen; lia]).
    destruct (begin_U f first Hf) as [HU0 _]. fold s0 in HU0.
    assert (Hst : In s start) by (rewrite Es; left; reflexivity).
    destruct (close_U _ s0 s o HU0 Hst Hp3) as (HU1 & _ & Lw1).
    set (s1 := close s0 s o) in *.
    destruct (process_all_U s (nbr s) _ s1 HU1 Hst (incl_refl _)) as (s3 & T3 & E3 & HU3 & _ & Ec3 & _ & Hsl & _ & _ & Q).
    assert (Hz : dist (si s1 s) = zero).
    { apply (u_start _ _ HU1). exact Hst. }
    exists s3. split; [|split; [exists T3; exact HU3|split; [|split]]].
    - intros k. cbn [GenericSearch.loop]. destruct (so s0) as [|v0 o0] eqn:Eo; [congruence|]. rewrite Et.
      rewrite Ep. fold s1. rewrite Eg. cbn [andb]. replace (sc s1) with (@nil (V * C)) by (symmetry; exact Hcand).
      cbn [negb]. rewrite andb_false_r. cbn [andb]. rewrite E3. reflexivity.
    - rewrite Hz in Hsl. exact Hsl.
    - intros Hsealed. rewrite Q; [exact Ho|]. rewrite Hz. intros v c Hin. destruct (Hsealed v c Hin) as [A B].
      destruct (Hlow v A) as [X Y]. destruct (Lw1 v X) as [X1 Y1]. split; [exact X1|].
      assert (Hsa : In s all) by (apply start_all; exact Hst).
      assert (Hok : ok (add zero c)) by (apply (ao_add Hao s v c zero Hsa Hin (ao_zero Hao))).
      assert (O1 : ok (dist (f v))) by (apply (proj1 Hf v A)).
      assert (O2 : ok (dist (si s0 v))) by (apply (u_ok _ _ v HU0 X)).
      assert (O3 : ok (dist (si s1 v))) by (apply (u_ok _ _ v HU1 X1)).
      apply (ao_trans Hao _ (dist (si s0 v)) _); auto. apply (ao_trans Hao _ (dist (f v)) _); auto.
    - rewrite Ec3. exact Hcand.
  Qed.

  (** A call from [s] seals [s]. *)
  Lemma run_seals s f first fuel : start = [s] -> is_goal s = false -> fit f -> timeout 0%nat = false -> (0 < fuel)%nat ->
    sealed (si (snd (run fuel f first))) s.
  Proof using veqb_spec Hpush Hpop Hbest Hao nbr_all start_all.
    intros Es Eg Hf Et Hk. destruct fuel as [|k]; [clear - Hk; lia|].
    destruct (first_round s f first Es Eg Hf Et) as (s3 & E & (T & HU) & Hs & _). rewrite E.
    destruct (loop_used _ _ 1 T s3 eq_refl (le_n _) HU) as [_ Hsafe].
    destruct (loop k 1 s3) as [r s'] eqn:El. destruct (Hsafe k r s' El) as (_ & B & D). cbn [snd].
    apply (sealed_lower (si s3)); [apply start_all; rewrite Es; left; reflexivity|apply (u_fit _ _ HU)|exact B|exact D|exact Hs].
  Qed.

  (** From a sealed node nothing is found. *)
  Lemma run_sealed s f first fuel : start = [s] -> is_goal s = false -> fit f -> sealed f s -> (2 <= fuel)%nat ->
    fst (run fuel f first) = GPath V [].
  Proof using veqb_spec Hpush Hpop Hbest Hao nbr_all start_all.
    intros Es Eg Hf Hs Hk. destruct fuel as [|[|k]]; [clear - Hk; lia|clear - Hk; lia|].
    assert (Hb : best [] = None).
    { destruct (best []) as [v|] eqn:E; [|reflexivity]. destruct (Hbest _ _ E) as (c & []). }
    destruct (timeout 0%nat) eqn:Et.
    - unfold GenericSearch.run. cbn [GenericSearch.loop]. rewrite Et.
      destruct (add_starts_spec start (State V C f [] [] first)) as (_ & B & _).
      assert (Hfin : finish (init_search f first) = GPath V []).
      { unfold GenericSearch.finish, GenericSearch.init_search. rewrite B. cbn [s_cand]. rewrite Hb. reflexivity. }
      destruct (so (init_search f first)); cbn [fst]; exact Hfin.
    - destruct (first_round s f first Es Eg Hf Et) as (s3 & E & _ & _ & Ho & Hc). rewrite E. cbn [GenericSearch.loop].
      rewrite (Ho Hs). cbn [fst]. unfold GenericSearch.finish. rewrite Hc, Hb. reflexivity.
  Qed.

  (** An accepted node can be reached over offered steps. *)
  Definition goal_reachable : Prop :=
    exists p s t, hd_error p = Some s /\ In s start /\ chain edge p /\ last p s = t /\ is_goal t = true.

  Hypothesis no_timeout : forall n, timeout n = false.

  Lemma all_done_unreachable s : K s -> so s = [] -> sc s = [] ->
    (forall v, seen s v -> In v (so s) \/ done s v) -> ~ goal_reachable.
  Proof.
    intros HK Ho Hc Hd (p & st & t & Hh & Hst & Hch & Hl & Hg).
    assert (Hall : forall p x, hd_error p = Some x -> seen s x -> chain edge p -> forall y, last p y = t -> p <> [] -> is_goal t = true -> False).
    { clear p Hh Hch Hl. induction p as [|a p IH]; [discriminate|]. intros x Hx Hs Hch y Hl _ _.
      injection Hx as ->. destruct (Hd x Hs) as [H|[Hn Hgx]]; [rewrite Ho in H; destruct H|].
      destruct p as [|b p].
      - simpl in Hl. subst t. apply (Hgx Hg Hc).
      - destruct Hch as [[c He] Hch]. eapply (IH b); [reflexivity|eapply Hn; eassumption|exact Hch| |discriminate|exact Hg].
        simpl in Hl |- *. exact Hl. }
    destruct p as [|a p]; [discriminate|]. eapply (Hall (a :: p) st); eauto; [|discriminate]. apply (k_starts s HK); assumption.
  Qed.

  Lemma finish_K s : K s -> (forall v c, In (v, c) (sc s) -> seen s v) ->
    exists p, finish s = GPath V p /\ (p = [] -> sc s = []).
  Proof.
    intros HK Hc. unfold GenericSearch.finish. destruct (best (sc s)) as [v|] eqn:Eb.
    - destruct (Hbest _ _ Eb) as (c & Hin). destruct (backtrack_some s v HK (Hc v c Hin)) as (x & p & E).
      rewrite E. exists (x :: p). split; [reflexivity|discriminate].
    - exists []. split; [reflexivity|]. intros _. apply best_some. assumption.
  Qed.

  Lemma loop_complete : forall (vv : list (option C)) (m : nat) (n : nat) s,
    vec s = vv -> (length (so s) <= m)%nat -> K s ->
    (forall v, seen s v -> In v (so s) \/ done s v) ->
    (forall v c, In (v, c) (sc s) -> seen s v) ->
    exists fuel p s', loop fuel n s = (GPath V p, s') /\ (p = [] -> ~ goal_reachable).
  Proof.
    induction vv as [vv IHv] using (well_founded_ind vlt_wf).
    induction m as [m IHm] using (well_founded_ind lt_wf).
    intros n s Hvec Hm HK Hd Hc.
    destruct (so s) as [|v0 o0] eqn:Eo.
    { destruct (finish_K s HK Hc) as (p & Ef & Hp). exists 1%nat, p, s. cbn [GenericSearch.loop]. rewrite Eo, Ef.
      split; [reflexivity|]. intros ->. eapply all_done_unreachable; eauto. rewrite Eo. assumption. }
    pose proof (Hpop (total V C tot (si s)) (so s)) as Hp.
    destruct (pop (total V C tot (si s)) (so s)) as [[cur o]|] eqn:Ep; [|congruence].
    destruct Hp as (Hp1 & Hp2 & Hp3 & Hp4).
    assert (Hcs : seen s cur) by (apply (k_list s HK); assumption).
    assert (Hca : In cur all) by (apply (k_all s HK); assumption).
    destruct (close_K s cur o HK Hcs Hp4 Hp3) as (HK1 & Hv1 & Hs1).
    set (s1 := close s cur o) in *.
    (* the step common to both modes: expand the neighbours *)
    assert (Hstep : forall s2, si s2 = si s1 -> so s2 = so s1 -> (sc s2 = [] -> sc s = [] /\ is_goal cur = false) ->
      (forall v c, In (v, c) (sc s2) -> seen s2 v) ->
      exists s3, process_all cur (nbr cur) s2 = Some s3 /\
        exists fuel p s', loop fuel (S n) s3 = (GPath V p, s') /\ (p = [] -> ~ goal_reachable)).
    { intros s2 Ei Es Hsc Hc2.
      assert (Hseen2 : forall w, seen s2 w <-> seen s w) by (intros w; unfold seen; rewrite Ei; apply Hs1).
      assert (HK2 : K s2).
      { assert (Hx : forall w, seen s2 w <-> seen s1 w) by (intros w; unfold seen; rewrite Ei; reflexivity).
        destruct HK1. constructor.
        - intros w. rewrite Ei, Es. auto.
        - intros w. rewrite Es, Hx. auto.
        - intros w. rewrite Hx. auto.
        - intros w. rewrite Hx. auto.
        - intros w. rewrite Ei. auto.
        - intros w. rewrite Ei, Hx. auto.
        - intros w. rewrite Hx, Ei. intros A B. destruct (k_prev0 w A B) as (u & X & Y & Z). exists u. rewrite Hx. auto.
        - intros w. rewrite Hx, Ei. auto. }
      destruct (process_all_K cur (nbr cur) s2 HK2 Hca) as (s3 & E3 & HK3 & Hn3 & Ec3 & A3 & B3 & D3 & M3);
        [apply Hseen2; assumption|apply incl_refl|].
      exists s3. split; [exact E3|].
      assert (Hd3 : forall v, seen s3 v -> In v (so s3) \/ done s3 v).
      { intros v Hv. destruct (D3 v Hv) as [Hv2|Hv2]; [|left; assumption].
        destruct (V_dec v cur) as [->|Hne].
        - right. split; [exact Hn3|]. intros Hg. rewrite Ec3. intros H. destruct (Hsc H) as [_ H']. congruence.
        - apply Hseen2 in Hv2. destruct (Hd v Hv2) as [Hin|[Hdn Hdg]].
          + left. apply B3. rewrite Es. destruct (Hp4 v) as [|Hin']; [rewrite Eo; exact Hin|contradiction|exact Hin'].
          + right. split.
            * intros w c Hw. apply A3, Hseen2. eapply Hdn; eassumption.
            * intros Hg. rewrite Ec3. intros H. destruct (Hsc H) as [H' _]. exact (Hdg Hg H'). }
      assert (Hc3 : forall v c, In (v, c) (sc s3) -> seen s3 v).
      { intros v c. rewrite Ec3. intros H. apply A3. eapply Hc2; eassumption. }
      assert (Hv2 : vec s2 = vv).
      { rewrite <- Hvec, <- Hv1. unfold vec, val_of. rewrite Ei. reflexivity. }
      destruct M3 as [[M M']|M].
      - apply (IHm (length (so s3))); [|congruence|reflexivity| | |]; auto.
        rewrite M, Es. unfold s1, GenericSearch.close. cbn [s_open]. rewrite Eo in Hp2. simpl in Hp2, Hm. clear - Hp2 Hm. lia.
      - apply (IHv (vec s3)) with (m := length (so s3)); auto. rewrite <- Hv2. exact M. }
    assert (Hc1 : forall v c, In (v, c) (sc s1) -> seen s1 v).
    { intros v c H. apply Hs1. eapply Hc. exact H. }
    destruct (is_goal cur) eqn:Eg.
    - destruct use_candidates eqn:Eu.
      + set (s2 := add_candidate s1 cur).
        assert (Hc2 : forall v c, In (v, c) (sc s2) -> seen s2 v).
        { intros v c H. unfold s2, GenericSearch.add_candidate in H. cbn [s_cand] in H.
          apply in_app_or in H as [H|[H|[]]]; [exact (Hc1 v c H)|]. injection H as <- _. right.
          unfold s2, GenericSearch.add_candidate. cbn [s_info]. unfold s1, GenericSearch.close. cbn [s_info]. rewrite setn_same. reflexivity. }
        assert (Hne : sc s2 <> []).
        { unfold s2, GenericSearch.add_candidate. cbn [s_cand]. destruct (sc s1); discriminate. }
        destruct (true && negb (match sc s2 with [] => true | _ :: _ => false end) && over (total V C tot (si s2) cur) (s_first V C s2)) eqn:Ex.
        * assert (HK2 : K s2).
          { destruct HK1. constructor; auto. }
          destruct (finish_K s2 HK2 Hc2) as (p & Ef & Hpn). exists 1%nat, p, s2. cbn [GenericSearch.loop].
          rewrite Eo, no_timeout, <- Eo, Ep. fold s1. rewrite Eg. cbn [andb negb]. fold s2.
          cbn [andb] in Ex. rewrite Ex, Ef. split; [reflexivity|]. intros H. destruct (Hne (Hpn H)).
        * destruct (Hstep s2) as (s3 & E3 & fuel & p & s' & El & Hpn); [reflexivity|reflexivity|intros H; destruct (Hne H)|assumption|].
          exists (S fuel), p, s'. cbn [GenericSearch.loop].
          rewrite Eo, no_timeout, <- Eo, Ep. fold s1. rewrite Eg. cbn [andb negb]. fold s2. cbn [andb] in Ex.
          rewrite Ex, E3. auto.
      + destruct (backtrack_some s1 cur HK1) as (x & p & E); [apply Hs1; assumption|].
        exists 1%nat, (x :: p), s1. cbn [GenericSearch.loop]. rewrite Eo, no_timeout, <- Eo, Ep. fold s1.
        rewrite Eg. cbn [andb negb]. rewrite E. split; [reflexivity|discriminate].
    - destruct (use_candidates && negb (match sc s1 with [] => true | _ :: _ => false end) && over (total V C tot (si s1) cur) (s_first V C s1)) eqn:Ex.
      + destruct (finish_K s1 HK1 Hc1) as (p & Ef & Hpn). exists 1%nat, p, s1. cbn [GenericSearch.loop].
        rewrite Eo, no_timeout, <- Eo, Ep. fold s1. rewrite Eg. cbn [andb]. rewrite Ex, Ef. split; [reflexivity|].
        intros H. specialize (Hpn H). rewrite Hpn, andb_false_r in Ex. discriminate.
      + destruct (Hstep s1) as (s3 & E3 & fuel & p & s' & El & Hpn); [reflexivity|reflexivity|auto|assumption|].
        exists (S fuel), p, s'. cbn [GenericSearch.loop].
        rewrite Eo, no_timeout, <- Eo, Ep. fold s1. rewrite Eg. cbn [andb]. rewrite Ex, E3. auto.
  Qed.

  Lemma fresh_K first :
    let s := init_search (fun _ => fresh_info V C zero inf) first in
    K s /\ (forall v, seen s v -> In v (so s) \/ done s v) /\ (forall v c, In (v, c) (sc s) -> seen s v).
  Proof using veqb_spec Hpush Hao start_all.
    intros s. unfold s, GenericSearch.init_search. clear s.
    destruct (add_starts_spec start (State V C (fun _ => fresh_info V C zero inf) [] [] first)) as (A & B & D & F & G & K0 & _).
    match type of A with forall v, In v (so ?s0) <-> _ => set (s := s0) in * end.
    assert (Hseen : forall v, seen s v <-> In v start).
    { intros v. split.
      - intros Hv. destruct (in_dec V_dec v start) as [|Hn]; [assumption|]. unfold seen in Hv. rewrite (F v Hn) in Hv.
        destruct Hv; discriminate.
      - intros Hv. left. apply G. assumption. }
    split; [|split].
    - constructor.
      + intros v Hv. apply A. right. apply Hseen. left. assumption.
      + intros v Hv. apply A in Hv as [[]|Hv]. apply Hseen. assumption.
      + intros v Hv. apply start_all, Hseen, Hv.
      + intros v Hv. apply Hseen, Hv.
      + intros v Hv. split; [apply G; assumption|]. rewrite D. reflexivity.
      + intros v Hv. apply Hseen in Hv. rewrite (proj1 (G v Hv)). split; [apply (ao_zero Hao)|apply lt_irrefl].
      + intros v Hv Hn. apply Hseen in Hv. contradiction.
      + intros v Hv. apply Hseen in Hv. exists [v]. constructor. assumption.
    - intros v Hv. left. apply A. right. apply Hseen. assumption.
    - rewrite B. intros v c [].
  Qed.

  (** C20. *)
  Lemma run_complete first : exists fuel p s',
    run fuel (fun _ => fresh_info V C zero inf) first = (GPath V p, s') /\ (p = [] <-> ~ goal_reachable).
  Proof.
    destruct (fresh_K first) as (HK & Hd & Hc). unfold GenericSearch.run.
    destruct (loop_complete _ _ 0 _ eq_refl (le_n _) HK Hd Hc) as (fuel & p & s' & E & Hp).
    exists fuel, p, s'. split; [assumption|]. split; [assumption|]. intros Hn.
    destruct (run_valid fuel _ first p s' E) as [|(st & t & A & B & D & F & G & _)]; [assumption|].
    destruct Hn. exists p, st, t. auto.
  Qed.
  End Run.
End Proofs.
