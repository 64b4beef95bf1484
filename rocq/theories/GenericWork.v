(** How many nodes a search expands when the total cost never decreases along an
    offered step (consistent heuristic, or none): a closed node never becomes
    cheaper, so its offers are taken once.  Counters: GenericCount.v. *)
From Verif Require Import Base GenericSearch GenericProofs GenericCount.

Section Work.
  Context {V C : Type}.
  Variable veqb : V -> V -> bool.
  Hypothesis veqb_spec : forall a b, reflect (a = b) (veqb a b).
  Variable all : list V.
  Variable zero inf : C.
  Variable add : C -> C -> C.
  Variable lt : C -> C -> bool.
  Variable tot : C -> C -> C.
  Variable nbr : V -> list (V * C).
  Variable hval : V -> C.
  Variable push : (V -> C) -> V -> list V -> list V.
  Variable pop : (V -> C) -> list V -> option (V * list V).
  Hypothesis Hpush : push_ok push.
  Hypothesis Hpop : pop_ok pop.
  Variable s0 : V.
  Variable is_goal : V -> bool.
  Variable has_goal : bool.
  Variable use_candidates : bool.
  Variable over : C -> C -> bool.
  Variable gdist : V -> C.
  Variable best : list (V * C) -> option V.
  Variable timeout : nat -> bool.

  (** The heuristic value the search works with. *)
  Definition hused (v : V) : C := if has_goal then hval v else zero.

  (** The values that occur, their order, and the two conditions on the steps:
      the total cost does not decrease along a step, and of two distances to
      the same node the smaller one has the smaller total. *)
  Variable ok : C -> Prop.
  Record steady : Prop := {
    st_zero : ok zero;
    st_add : forall u v c a, In u all -> In (v, c) (nbr u) -> ok a -> ok (add a c);
    st_tot : forall a v, ok a -> ok (tot a (hused v));
    st_irrefl : forall a, ok a -> lt a a = false;
    st_asym : forall a b, ok a -> ok b -> lt a b = true -> lt b a = false;
    st_trans : forall a b c, ok a -> ok b -> ok c -> lt b a = false -> lt c b = false -> lt c a = false;
    st_step : forall u v c a, In u all -> In (v, c) (nbr u) -> ok a -> lt (tot (add a c) (hused v)) (tot a (hused u)) = false;
    st_mono : forall a b v, ok a -> ok b -> lt a b = true -> lt (tot a (hused v)) (tot b (hused v)) = true;
    st_min : forall f l v r, (forall w, In w l -> ok (f w)) -> pop f l = Some (v, r) -> forall w, In w l -> lt (f w) (f v) = false }.
  Hypothesis ST : steady.
  Hypothesis nbr_all : forall u v c, In u all -> In (v, c) (nbr u) -> In v all.
  Hypothesis s0_all : In s0 all.
  #[local] Set Default Proof Using "All".

  Notation info := (info V C).
  Notation state := (state V C).
  Notation si := (s_info V C).
  Notation so := (s_open V C).
  Notation sc := (s_cand V C).
  Notation dist := (g_dist V C).
  Notation hh := (g_h V C).
  Notation prev := (g_prev V C).
  Notation isopen := (g_open V C).
  Notation isclosed := (g_closed V C).
  Notation expanded := (g_expanded V C).
  Notation setn := (setn V C veqb).
  Notation total := (total V C tot).
  Notation seen := (@seen V C).
  Notation processNeighborN := (processNeighborN veqb add lt tot hval push has_goal).
  Notation process_allN := (process_allN veqb add lt tot hval push has_goal).
  Notation backtrack := (backtrack V C veqb all [s0]).
  Notation finish := (finish V C veqb all [s0] best).
  Notation close := (close V C veqb hval has_goal).
  Notation add_candidate := (add_candidate V C tot gdist).
  Notation loopN := (loopN veqb all add lt tot nbr hval push pop [s0] is_goal has_goal use_candidates over gdist best timeout).
  Notation init_search := (init_search V C veqb zero tot push [s0]).
  Notation runN := (runN veqb all zero add lt tot nbr hval push pop [s0] is_goal has_goal use_candidates over gdist best timeout).

  Let vdec (a b : V) : {a = b} + {a <> b}.
  Proof. destruct (veqb_spec a b); auto. Qed.

  Definition key (s : state) (v : V) : C := tot (dist (si s v)) (hused v).
  Definition relaxed (s : state) (w : V) : Prop :=
    forall v c, In (v, c) (nbr w) -> seen s v /\ lt (add (dist (si s w)) c) (dist (si s v)) = false.

  (** The invariant; [ex]: the node whose offers are being looked at. *)
  Record J (ex : V -> Prop) (s : state) (log : list V) : Prop := {
    j_all : forall v, seen s v -> In v all;
    j_list : forall v, In v (so s) -> seen s v;
    j_closed : forall v, isclosed (si s v) = true <-> In v log;
    j_ok : forall v, seen s v -> ok (dist (si s v));
    j_h : forall v, seen s v -> hh (si s v) = hused v \/ log = [] /\ hh (si s v) = zero;
    j_h0 : has_goal = false -> forall v, hh (si s v) = zero;
    j_0 : log = [] -> forall v, seen s v -> v = s0;
    j_min : forall w v, isclosed (si s w) = true -> In v (so s) -> lt (key s v) (key s w) = false;
    j_rel : forall w, In w log -> ex w \/ relaxed s w }.

  Lemma key_ok ex s log v : J ex s log -> seen s v -> ok (key s v).
  Proof. intros HJ Hv. apply (st_tot ST). apply (j_ok _ _ _ HJ). exact Hv. Qed.

  (** One offer of the node [cur], which has just been closed. *)
  Lemma processN_J ex cur s k v c s' k' log : J ex s log -> isclosed (si s cur) = true -> ex cur ->
    (forall w, isclosed (si s w) = true -> lt (key s cur) (key s w) = false) ->
    In (v, c) (nbr cur) -> processNeighborN cur s k (v, c) = Some (s', k') ->
    J ex s' log /\ dist (si s' cur) = dist (si s cur) /\ (forall w, isclosed (si s' w) = isclosed (si s w)) /\
    (forall w, isclosed (si s w) = true -> dist (si s' w) = dist (si s w)) /\
    (forall w, seen s w -> seen s' w /\ lt (dist (si s w)) (dist (si s' w)) = false) /\
    seen s' v /\ lt (add (dist (si s cur)) c) (dist (si s' v)) = false /\
    n_touched k' <= n_touched k + 1 /\
    (seen s v -> lt (add (dist (si s cur)) c) (dist (si s v)) = false -> n_touched k' = n_touched k).
  Proof.
    intros HJ Hcc Hex Hcm Hin E.
    assert (Hcs : seen s cur) by (right; exact Hcc).
    assert (Hca : In cur all) by (apply (j_all _ _ _ HJ); exact Hcs).
    assert (Hlog : log <> []) by (intros Hl; apply (j_closed _ _ _ HJ) in Hcc; rewrite Hl in Hcc; destruct Hcc).
    assert (Hcok : ok (dist (si s cur))) by (apply (j_ok _ _ _ HJ); exact Hcs).
    unfold GenericCount.processNeighborN in E. set (n := si s v) in *. set (d := add (dist (si s cur)) c) in *.
    assert (Hdok : ok d) by (apply (st_add ST cur v); assumption).
    (* a closed neighbour is never reached more cheaply *)
    assert (Hcl : isclosed n = true -> lt d (dist n) = false).
    { intros Hv. destruct (lt d (dist n)) eqn:El; [|reflexivity]. exfalso.
      assert (Hvs : seen s v) by (right; exact Hv).
      assert (Hvok : ok (dist n)) by (apply (j_ok _ _ _ HJ); exact Hvs).
      pose proof (st_mono ST d (dist n) v Hdok Hvok El) as H1.
      pose proof (st_step ST cur v c (dist (si s cur)) Hca Hin Hcok) as H2. fold d in H2.
      pose proof (Hcm v Hv) as H3.
      assert (H4 : lt (tot d (hused v)) (tot (dist n) (hused v)) = false).
      { apply (st_trans ST _ (key s cur)); [apply (st_tot ST); assumption|apply (key_ok ex s log cur HJ Hcs)|apply (st_tot ST); assumption|exact H3|exact H2]. }
      congruence. }
    set (s1 := State V C (setn (si s) v (Info V C (dist n) (hh n) (prev n) (isopen n) (isclosed n) true (expanded n)))
                 (so s) (sc s) (s_first V C s)) in *.
    assert (Hs1 : seen s v -> lt d (dist n) = false ->
      J ex s1 log /\ dist (si s1 cur) = dist (si s cur) /\ (forall w, isclosed (si s1 w) = isclosed (si s w)) /\
      (forall w, isclosed (si s w) = true -> dist (si s1 w) = dist (si s w)) /\
      (forall w, seen s w -> seen s1 w /\ lt (dist (si s w)) (dist (si s1 w)) = false) /\
      seen s1 v /\ lt d (dist (si s1 v)) = false).
    { intros Hsv Hle.
      assert (Ei : forall w, dist (si s1 w) = dist (si s w) /\ hh (si s1 w) = hh (si s w) /\
                  isopen (si s1 w) = isopen (si s w) /\ isclosed (si s1 w) = isclosed (si s w)).
      { intros w. unfold s1. cbn [s_info]. destruct (vdec w v) as [->|Hne];
          [rewrite setn_same by exact veqb_spec; auto|rewrite setn_other by (exact veqb_spec || assumption); auto 6]. }
      assert (Es : forall w, seen s1 w <-> seen s w).
      { intros w. unfold GenericProofs.seen. destruct (Ei w) as (_ & _ & -> & ->). tauto. }
      assert (Ek : forall w, key s1 w = key s w) by (intros w; unfold key; destruct (Ei w) as (-> & _); reflexivity).
      destruct HJ as [J1 J2 J3 J4 J5 J5' J6 J7 J8].
      split; [constructor|].
      - intros w Hw. apply J1, Es, Hw.
      - intros w Hw. apply Es, J2, Hw.
      - intros w. destruct (Ei w) as (_ & _ & _ & ->). apply J3.
      - intros w Hw. destruct (Ei w) as (-> & _). apply J4, Es, Hw.
      - intros w Hw. destruct (Ei w) as (_ & -> & _). apply J5, Es, Hw.
      - intros Hg w. destruct (Ei w) as (_ & -> & _). apply J5'. exact Hg.
      - intros Hl w Hw. apply J6; [exact Hl|apply Es, Hw].
      - intros w x Hw Hx. rewrite !Ek. apply J7; [destruct (Ei w) as (_ & _ & _ & <-); exact Hw|exact Hx].
      - intros w Hw. destruct (J8 w Hw) as [A|A]; [left; exact A|right]. intros x cx Hx. destruct (A x cx Hx) as [A1 A2].
        split; [apply Es; exact A1|]. destruct (Ei w) as (-> & _), (Ei x) as (-> & _). exact A2.
      - split; [apply Ei|]. split; [intros w; apply Ei|]. split; [intros w _; apply Ei|]. split; [|split; [apply Es; exact Hsv|]].
        + intros w Hw. split; [apply Es; exact Hw|]. destruct (Ei w) as (-> & _). apply (st_irrefl ST). apply J4. exact Hw.
        + destruct (Ei v) as (-> & _). exact Hle. }
    destruct (isclosed n && negb (lt d (dist n))) eqn:E1.
    { injection E as <- <-. apply andb_prop in E1 as [E1 E1']. apply negb_true_iff in E1'.
      destruct (Hs1 (or_intror E1) E1') as (A & B & D & F & G & H & I). repeat (split; [assumption|]). clear; split; [lia|reflexivity]. }
    destruct (negb (isopen n) || lt d (dist n)) eqn:E2.
    2:{ injection E as <- <-. apply orb_false_elim in E2 as [E2 E2']. apply negb_false_iff in E2.
        destruct (Hs1 (or_introl E2) E2') as (A & B & D & F & G & H & I). repeat (split; [assumption|]). clear; split; [lia|reflexivity]. }
    destruct (veqb_spec v cur) as [|Hvc]; [discriminate|]. injection E as <- <-. cbn [n_touched].
    assert (Hncl : isclosed n = false).
    { destruct (isclosed n) eqn:Ec; [|reflexivity]. rewrite (Hcl eq_refl) in E1. discriminate. }
    assert (Hnew : seen s v -> lt d (dist n) = true).
    { intros [Hs|Hs]; fold n in Hs; [|congruence]. rewrite Hs in E2. exact E2. }
    match goal with |- J ex ?x _ /\ _ => set (s2 := x) end.
    assert (Ev : si s2 v = Info V C d (if has_goal then hval v else hh n) (Some cur) true (isclosed n) true (expanded n)).
    { unfold s2. cbn [s_info]. apply setn_same. exact veqb_spec. }
    assert (Ew : forall w, w <> v -> si s2 w = si s w).
    { intros w Hw. unfold s2. cbn [s_info]. apply setn_other; [exact veqb_spec|assumption]. }
    assert (Hso : forall w, In w (so s2) <-> w = v \/ In w (so s)) by (intros w; unfold s2; cbn [s_open]; apply Hpush).
    clearbody s2.
    assert (Hva : In v all) by (eapply nbr_all; eassumption).
    assert (Hsv : seen s2 v) by (left; rewrite Ev; reflexivity).
    assert (Hsb : forall w, seen s2 w -> w <> v -> seen s w).
    { intros w Hw Hne. unfold GenericProofs.seen in Hw. rewrite Ew in Hw by assumption. exact Hw. }
    assert (Hsw : forall w, seen s w -> seen s2 w /\ lt (dist (si s w)) (dist (si s2 w)) = false).
    { intros w Hw. destruct (vdec w v) as [->|Hne].
      - split; [assumption|]. rewrite Ev. cbn [g_dist]. apply (st_asym ST); [exact Hdok|apply (j_ok _ _ _ HJ); exact Hw|].
        apply Hnew in Hw. exact Hw.
      - unfold GenericProofs.seen. rewrite Ew by assumption. split; [exact Hw|]. apply (st_irrefl ST). apply (j_ok _ _ _ HJ). exact Hw. }
    assert (Ec : forall w, isclosed (si s2 w) = isclosed (si s w)).
    { intros w. destruct (vdec w v) as [->|Hne]; [rewrite Ev; reflexivity|rewrite Ew by assumption; reflexivity]. }
    assert (Hd : forall w, isclosed (si s w) = true -> dist (si s2 w) = dist (si s w)).
    { intros w Hw. rewrite Ew; [reflexivity|]. intros ->. fold n in Hw. congruence. }
    assert (Hkc : forall w, isclosed (si s w) = true -> key s2 w = key s w) by (intros w Hw; unfold key; rewrite Hd by exact Hw; reflexivity).
    assert (Hkv : forall w, isclosed (si s w) = true -> lt (key s2 v) (key s w) = false).
    { intros w Hw. unfold key at 1. rewrite Ev. cbn [g_dist].
      apply (st_trans ST _ (key s cur)); [apply (key_ok ex s log w HJ); right; exact Hw|apply (key_ok ex s log cur HJ Hcs)|
        apply (st_tot ST); exact Hdok|apply Hcm; exact Hw|].
      apply (st_step ST); assumption. }
    destruct HJ as [J1 J2 J3 J4 J5 J5' J6 J7 J8].
    split; [constructor|].
    - intros w Hw. destruct (vdec w v) as [->|Hne]; [exact Hva|]. apply J1, Hsb; assumption.
    - intros w Hw. apply Hso in Hw as [->|Hw]; [exact Hsv|]. apply Hsw, J2, Hw.
    - intros w. rewrite Ec. apply J3.
    - intros w Hw. destruct (vdec w v) as [->|Hne]; [rewrite Ev; exact Hdok|]. rewrite Ew by assumption. apply J4, Hsb; assumption.
    - intros w Hw. destruct (vdec w v) as [->|Hne]; [left|].
      + rewrite Ev. cbn [g_h]. unfold hused. clear - J5'. destruct has_goal; [reflexivity|apply J5'; reflexivity].
      + rewrite Ew by assumption. apply J5, Hsb; assumption.
    - intros Hg w. destruct (vdec w v) as [->|Hne]; [|rewrite Ew by assumption; apply J5'; exact Hg].
      rewrite Ev. cbn [g_h]. rewrite Hg. apply J5'. exact Hg.
    - intros Hl. contradiction.
    - intros w x Hw Hx. rewrite Ec in Hw. rewrite (Hkc w Hw). destruct (vdec x v) as [->|Hne]; [apply Hkv; exact Hw|].
      unfold key at 1. rewrite Ew by assumption. apply J7; [exact Hw|]. apply Hso in Hx as [|Hx]; [contradiction|exact Hx].
    - intros w Hw. destruct (J8 w Hw) as [A|A]; [left; exact A|right]. intros x cx Hx. destruct (A x cx Hx) as [A1 A2].
      destruct (Hsw x A1) as [B1 B2]. split; [exact B1|].
      assert (Hwc : isclosed (si s w) = true) by (apply J3; exact Hw). rewrite (Hd w Hwc).
      assert (Hwa : In w all) by (apply J1; right; exact Hwc).
      assert (Hxok : ok (dist (si s2 x))).
      { destruct (vdec x v) as [->|Hne]; [rewrite Ev; exact Hdok|]. rewrite Ew by assumption. apply J4. exact A1. }
      apply (st_trans ST _ (dist (si s x))); [exact Hxok|apply J4; exact A1|apply (st_add ST w x); [exact Hwa|exact Hx|apply J4; right; exact Hwc]|exact B2|exact A2].
    - split; [rewrite Ew by congruence; reflexivity|]. split; [exact Ec|]. split; [exact Hd|]. split; [exact Hsw|]. split; [exact Hsv|].
      split; [rewrite Ev; cbn [g_dist]; apply (st_irrefl ST); exact Hdok|].
      assert (Ht : n_touched (if isopen n then Cnt (n_exp k) (n_multi k) (n_touched k) (n_upd k + 1) else k) = n_touched k)
        by (clear; destruct (isopen n); reflexivity).
      rewrite Ht. clear Ht. split; [clear; lia|]. intros Hs Hlt. rewrite (Hnew Hs) in Hlt. discriminate.
  Qed.

  Lemma process_allN_J ex cur l : forall s k s' k' log, J ex s log -> isclosed (si s cur) = true -> ex cur ->
    (forall w, isclosed (si s w) = true -> lt (key s cur) (key s w) = false) ->
    incl l (nbr cur) -> process_allN cur l s k = Some (s', k') ->
    J ex s' log /\ dist (si s' cur) = dist (si s cur) /\ (forall w, isclosed (si s' w) = isclosed (si s w)) /\
    (forall w, seen s w -> seen s' w /\ lt (dist (si s w)) (dist (si s' w)) = false) /\
    (forall v c, In (v, c) l -> seen s' v /\ lt (add (dist (si s cur)) c) (dist (si s' v)) = false) /\
    n_touched k' <= n_touched k + Z.of_nat (length l) /\
    ((forall v c, In (v, c) l -> seen s v /\ lt (add (dist (si s cur)) c) (dist (si s v)) = false) -> n_touched k' = n_touched k).
  Proof.
    induction l as [|[v c] l IH]; intros s k s' k' log HJ Hcc Hex Hcm Hl E; cbn [GenericCount.process_allN] in E.
    - injection E as <- <-. split; [assumption|]. split; [reflexivity|]. split; [reflexivity|]. split.
      { intros w Hw. split; [exact Hw|]. apply (st_irrefl ST). apply (j_ok _ _ _ HJ). exact Hw. }
      split; [intros v c []|]. split; [cbn [length]; clear; lia|reflexivity].
    - destruct (processNeighborN cur s k (v, c)) as [[s1 k1]|] eqn:E1; [|discriminate]. cbn [obind fst snd] in E.
      assert (Hin : In (v, c) (nbr cur)) by (apply Hl; left; reflexivity).
      destruct (processN_J ex cur s k v c s1 k1 log HJ Hcc Hex Hcm Hin E1) as (A1 & A2 & A3 & A4 & A5 & A6 & A7 & A8 & A9).
      assert (Hk : forall w, isclosed (si s w) = true -> key s1 w = key s w) by (intros w Hw; unfold key; rewrite A4 by exact Hw; reflexivity).
      destruct (IH s1 k1 s' k' log A1) as (B1 & B2 & B3 & B4 & B5 & B6 & B7); auto.
      { rewrite A3. exact Hcc. }
      { intros w Hw. rewrite A3 in Hw. rewrite (Hk w Hw), (Hk cur Hcc). apply Hcm. exact Hw. }
      { intros x Hx. apply Hl. right. exact Hx. }
      assert (Hca : In cur all) by (apply (j_all _ _ _ HJ); right; exact Hcc).
      assert (Hcok : ok (dist (si s cur))) by (apply (j_ok _ _ _ HJ); right; exact Hcc).
      rewrite A2 in B5, B7, B2.
      split; [assumption|]. split; [assumption|]. split; [intros w; rewrite B3; apply A3|]. split; [|split; [|split]].
      + intros w Hw. destruct (A5 w Hw) as [C1 C2]. destruct (B4 w C1) as [C3 C4]. split; [assumption|].
        apply (st_trans ST _ (dist (si s1 w))); [apply (j_ok _ _ _ B1); exact C3|apply (j_ok _ _ _ A1); exact C1|apply (j_ok _ _ _ HJ); exact Hw|exact C4|exact C2].
      + intros w cw [H|H]; [|apply B5; exact H]. injection H as <- <-. destruct (B4 v A6) as [C3 C4]. split; [assumption|].
        apply (st_trans ST _ (dist (si s1 v))); [apply (j_ok _ _ _ B1); exact C3|apply (j_ok _ _ _ A1); exact A6|
          apply (st_add ST cur v); assumption|exact C4|exact A7].
      + clear - A8 B6. cbn [length]. lia.
      + intros Hd. destruct (Hd v c (or_introl eq_refl)) as [D1 D2]. rewrite <- (A9 D1 D2). apply B7.
        intros w cw Hw. destruct (Hd w cw (or_intror Hw)) as [F1 F2]. destruct (A5 w F1) as [F3 F4]. split; [exact F3|].
        apply (st_trans ST _ (dist (si s w))); [apply (j_ok _ _ _ A1); exact F3|apply (j_ok _ _ _ HJ); exact F1|
          apply (st_add ST cur w); [exact Hca|apply Hl; right; exact Hw|exact Hcok]|exact F4|exact F2].
  Qed.

  (** Number of offers made by the nodes of a list. *)
  Definition offers (D : list V) : Z := fold_right (fun u n => Z.of_nat (length (nbr u)) + n) 0 D.
  Lemma offers_cons u D : offers (u :: D) = Z.of_nat (length (nbr u)) + offers D.
  Proof. reflexivity. Qed.

  Definition paid (t0 : Z) (k : cnt) (log : list V) : Prop :=
    exists D, NoDup D /\ (forall v, In v D <-> In v log) /\ n_touched k - t0 <= offers D.

  Lemma paid_le t0 k k' log cur : n_touched k' = n_touched k -> paid t0 k log -> paid t0 k' (log ++ [cur]).
  Proof.
    intros E (D & D1 & D2 & D3). destruct (in_dec vdec cur log) as [Hi|Hn].
    - exists D. split; [assumption|]. split; [|rewrite E; exact D3]. intros v. rewrite D2, in_app_iff. cbn [In].
      split; [tauto|]. intros [H|[<-|[]]]; assumption.
    - exists (cur :: D). split; [constructor; [rewrite D2; exact Hn|assumption]|]. split.
      + intros v. cbn [In]. rewrite D2, in_app_iff. cbn [In]. tauto.
      + rewrite offers_cons, E. clear - D3. lia.
  Qed.

  (** Taking the cheapest node out of the open list. *)
  Lemma close_J s log cur o : J (fun _ => False) s log -> pop (total (si s)) (so s) = Some (cur, o) ->
    let s1 := close s cur o in
    (seen s cur /\ In cur (so s) /\ incl o (so s) /\ (forall w, In w (so s) -> w = cur \/ In w o)) /\
    (forall w, In w (so s) -> lt (key s w) (key s cur) = false) /\
    (forall w, dist (si s1 w) = dist (si s w) /\ prev (si s1 w) = prev (si s w)) /\
    (forall w, seen s1 w <-> seen s w) /\
    (forall w, isclosed (si s1 w) = true <-> w = cur \/ isclosed (si s w) = true) /\
    (forall w, isclosed (si s1 w) = true -> lt (key s1 cur) (key s1 w) = false) /\
    J (fun w => w = cur) s1 (log ++ [cur]).
  Proof.
    intros HJ Ep. cbv zeta. pose proof (Hpop (total (si s)) (so s)) as Hp. pose proof (st_min ST (total (si s)) (so s)) as Hm.
    rewrite Ep in Hp, Hm.
    destruct Hp as (Hp1 & _ & Hp3 & Hp4).
    assert (Hcs : seen s cur) by (apply (j_list _ _ _ HJ); exact Hp1).
    (* cur has the least key of what waits *)
    assert (Hleast : forall w, In w (so s) -> lt (key s w) (key s cur) = false).
    { intros w Hw. pose proof (j_list _ _ _ HJ w Hw) as Hs. destruct log as [|x0 log0] eqn:Elog.
      - rewrite (j_0 _ _ _ HJ eq_refl w Hs), (j_0 _ _ _ HJ eq_refl cur Hcs). apply (st_irrefl ST). apply (st_tot ST).
        pose proof (j_ok _ _ _ HJ w Hs) as Hok. rewrite (j_0 _ _ _ HJ eq_refl w Hs) in Hok. exact Hok.
      - assert (Et : forall x, In x (so s) -> total (si s) x = key s x).
        { intros x Hx. unfold GenericSearch.total, key. destruct (j_h _ _ _ HJ x (j_list _ _ _ HJ x Hx)) as [->|[? _]]; [reflexivity|discriminate]. }
        rewrite <- (Et w Hw), <- (Et cur Hp1). apply (Hm cur o); [|reflexivity|exact Hw].
        intros x Hx. rewrite (Et x Hx). apply (key_ok (fun _ => False) s (x0 :: log0) x HJ). apply (j_list _ _ _ HJ). exact Hx. }
    clear Hm. set (s1 := close s cur o) in *.
    assert (Ei : forall w, dist (si s1 w) = dist (si s w)).
    { intros w. unfold s1, GenericSearch.close. cbn [s_info]. destruct (vdec w cur) as [->|Hn];
        [rewrite setn_same by exact veqb_spec; auto|rewrite setn_other by (exact veqb_spec || assumption); auto]. }
    assert (Ek : forall w, key s1 w = key s w) by (intros w; unfold key; rewrite Ei; reflexivity).
    assert (Ecur : si s1 cur = Info V C (dist (si s cur)) (if has_goal then hval cur else hh (si s cur)) (prev (si s cur)) false true
        (g_watched V C (si s cur)) true).
    { unfold s1, GenericSearch.close. cbn [s_info]. apply setn_same. exact veqb_spec. }
    assert (Ew : forall w, w <> cur -> si s1 w = si s w).
    { intros w Hw. unfold s1, GenericSearch.close. cbn [s_info]. apply setn_other; [exact veqb_spec|assumption]. }
    assert (Eso : so s1 = o) by reflexivity.
    assert (Es : forall w, seen s1 w <-> seen s w).
    { intros w. destruct (vdec w cur) as [->|Hn]; [|unfold GenericProofs.seen; rewrite Ew by assumption; reflexivity].
      split; [intros _; exact Hcs|]. intros _. right. rewrite Ecur. reflexivity. }
    assert (Ec : forall w, isclosed (si s1 w) = true <-> w = cur \/ isclosed (si s w) = true).
    { intros w. destruct (vdec w cur) as [->|Hn]; [rewrite Ecur; cbn [g_closed]; tauto|]. rewrite Ew by assumption. tauto. }
    assert (Hcl : forall w, isclosed (si s1 w) = true -> lt (key s1 cur) (key s1 w) = false).
    { intros w Hw. rewrite !Ek. apply Ec in Hw as [->|Hw]; [apply Hleast; exact Hp1|]. apply (j_min _ _ _ HJ); [exact Hw|exact Hp1]. }
    assert (HJ1 : J (fun w => w = cur) s1 (log ++ [cur])).
    { constructor.
      - intros w Hw. apply (j_all _ _ _ HJ), Es, Hw.
      - intros w Hw. rewrite Eso in Hw. apply Es, (j_list _ _ _ HJ), Hp3, Hw.
      - intros w. rewrite Ec, (j_closed _ _ _ HJ), in_app_iff. cbn [In]. intuition congruence.
      - intros w Hw. rewrite Ei. apply (j_ok _ _ _ HJ), Es, Hw.
      - intros w Hw. left. destruct (vdec w cur) as [->|Hn].
        + rewrite Ecur. cbn [g_h]. unfold hused. pose proof (j_h0 _ _ _ HJ) as Hz. clear - Hz. destruct has_goal; [reflexivity|apply Hz; reflexivity].
        + rewrite Ew by assumption. destruct (j_h _ _ _ HJ w (proj1 (Es w) Hw)) as [A|[Hl A]]; [exact A|]. exfalso. apply Hn.
          rewrite (j_0 _ _ _ HJ Hl w (proj1 (Es w) Hw)). symmetry. apply (j_0 _ _ _ HJ Hl). exact Hcs.
      - intros Hg w. destruct (vdec w cur) as [->|Hn]; [|rewrite Ew by assumption; apply (j_h0 _ _ _ HJ); exact Hg].
        rewrite Ecur. cbn [g_h]. rewrite Hg. apply (j_h0 _ _ _ HJ). exact Hg.
      - intros Hl. destruct log; discriminate.
      - intros w v Hw Hv. rewrite !Ek. rewrite Eso in Hv. apply Hp3 in Hv. apply Ec in Hw as [->|Hw]; [apply Hleast; exact Hv|].
        apply (j_min _ _ _ HJ); assumption.
      - intros w Hw. apply in_app_iff in Hw as [Hw|[<-|[]]]; [|left; reflexivity]. right.
        destruct (j_rel _ _ _ HJ w Hw) as [[]|A]. intros x c Hx. destruct (A x c Hx) as [A1 A2]. split; [apply Es; exact A1|].
        rewrite !Ei. exact A2. }
    split; [repeat split; assumption|]. split; [exact Hleast|]. split; [|split; [exact Es|split; [exact Ec|split; [exact Hcl|exact HJ1]]]].
    intros w. split; [apply Ei|]. destruct (vdec w cur) as [->|Hn]; [rewrite Ecur; reflexivity|rewrite Ew by assumption; reflexivity].
  Qed.

  Lemma loop_work t0 fuel : forall n s k log r s' k' log', J (fun _ => False) s log -> paid t0 k log ->
    loopN fuel n s k log = ((r, s'), (k', log')) -> paid t0 k' log' /\ forall v, In v log' -> In v all.
  Proof.
    induction fuel as [|f IH]; intros n s k log r s' k' log' HJ HP E; cbn [GenericCount.loopN] in E.
    { injection E as <- <- <- <-. split; [assumption|]. intros v Hv. apply (j_all _ _ _ HJ). right. apply (j_closed _ _ _ HJ). exact Hv. }
    assert (Hstop : paid t0 k log /\ forall v, In v log -> In v all).
    { split; [assumption|]. intros v Hv. apply (j_all _ _ _ HJ). right. apply (j_closed _ _ _ HJ). exact Hv. }
    destruct (so s) as [|v0 o0] eqn:Eo; [injection E as <- <- <- <-; exact Hstop|].
    rewrite <- Eo in E. destruct (timeout n); [injection E as <- <- <- <-; exact Hstop|].
    destruct (pop (total (si s)) (so s)) as [[cur o]|] eqn:Ep; [|injection E as <- <- <- <-; exact Hstop].
    destruct (close_J s log cur o HJ Ep) as ((Hcs & Hp1 & Hp3 & Hp4) & Hleast & Eip & Es & Ec & Hcl & HJ1).
    set (s1 := close s cur o) in *. set (k1 := count_expansion s k cur) in *.
    assert (Ht1 : n_touched k1 = n_touched k) by reflexivity.
    assert (Ei : forall w, dist (si s1 w) = dist (si s w)) by (intros w; apply Eip).
    assert (HP1 : paid t0 k1 (log ++ [cur])) by (apply (paid_le t0 k); [reflexivity|exact HP]).
    assert (Hstop1 : paid t0 k1 (log ++ [cur]) /\ forall v, In v (log ++ [cur]) -> In v all).
    { split; [assumption|]. intros v Hv. apply (j_all _ _ _ HJ1). right. apply (j_closed _ _ _ HJ1). exact Hv. }
    destruct (is_goal cur && negb use_candidates).
    { destruct (backtrack (si s1) cur) as [[|a p]|]; injection E as <- <- <- <-; exact Hstop1. }
    set (s2 := if is_goal cur then add_candidate s1 cur else s1) in *.
    assert (E2 : si s2 = si s1 /\ so s2 = so s1) by (unfold s2; clear; destruct (is_goal cur); split; reflexivity).
    destruct E2 as [E2 E2']. clearbody s2.
    destruct (use_candidates && _ && _); [injection E as <- <- <- <-; exact Hstop1|].
    destruct (process_allN cur (nbr cur) s2 k1) as [[s3 k3]|] eqn:E3; [|injection E as <- <- <- <-; exact Hstop1].
    assert (HJ2 : J (fun w => w = cur) s2 (log ++ [cur])).
    { destruct HJ1 as [J1 J2 J3 J4 J5 J5' J6 J7 J8].
      constructor; unfold key, relaxed, GenericProofs.seen in *; rewrite ?E2, ?E2'; assumption. }
    destruct (process_allN_J (fun w => w = cur) cur (nbr cur) s2 k1 s3 k3 (log ++ [cur]) HJ2) as (B1 & B2 & B3 & B4 & B5 & B6 & B7).
    { rewrite E2. apply Ec. left. reflexivity. }
    { reflexivity. }
    { unfold key in *. rewrite E2. exact Hcl. }
    { apply incl_refl. }
    { exact E3. }
    rewrite E2, Ei in B5, B7, B2.
    apply (IH (S n) s3 k3 (log ++ [cur]) r s' k' log'); [| |exact E].
    - destruct B1 as [J1 J2 J3 J4 J5 J5' J6 J7 J8]. constructor; try assumption.
      intros w Hw. right. destruct (J8 w Hw) as [->|A]; [|exact A]. intros x c Hx. destruct (B5 x c Hx) as [A1 A2].
      split; [exact A1|]. rewrite B2. exact A2.
    - destruct HP as (D & D1 & D2 & D3). destruct (in_dec vdec cur log) as [Hi|Hn].
      + exists D. split; [assumption|]. split.
        * intros v. rewrite D2, in_app_iff. cbn [In]. split; [tauto|]. intros [H|[<-|[]]]; assumption.
        * rewrite B7, Ht1; [exact D3|]. unfold GenericProofs.seen in *. rewrite E2. intros v c Hv.
          destruct (j_rel _ _ _ HJ cur Hi) as [[]|A]. destruct (A v c Hv) as [A1 A2]. rewrite Ei. split; [|exact A2].
          apply Es. exact A1.
      + exists (cur :: D). split; [constructor; [rewrite D2; exact Hn|assumption]|]. split.
        * intros v. cbn [In]. rewrite D2, in_app_iff. cbn [In]. tauto.
        * rewrite offers_cons. clear - D3 B6 Ht1. lia.
  Qed.

  (** Fresh nodes: the nodes put into the open list are paid for by the offers of
      different expanded nodes. *)
  Lemma run_work fuel first k0 r s' k' log : runN fuel (fun _ => fresh_info V C zero inf) first k0 = ((r, s'), (k', log)) ->
    exists D, NoDup D /\ (forall v, In v D <-> In v log) /\ incl D all /\ n_touched k' - n_touched k0 <= offers D.
  Proof.
    intros E. unfold GenericCount.runN in E.
    assert (Hi : forall v, seen (init_search (fun _ => fresh_info V C zero inf) first) v -> v = s0).
    { intros v Hv. unfold GenericSearch.init_search in Hv. cbn [add_starts] in Hv. unfold GenericProofs.seen in Hv. cbn [s_info] in Hv.
      destruct (vdec v s0) as [|Hn]; [assumption|]. rewrite setn_other in Hv by (exact veqb_spec || assumption). destruct Hv; discriminate. }
    assert (Hc : forall v, isclosed (si (init_search (fun _ => fresh_info V C zero inf) first) v) = false).
    { intros v. unfold GenericSearch.init_search. cbn [add_starts s_info]. destruct (vdec v s0) as [->|Hn];
        [rewrite setn_same by exact veqb_spec; reflexivity|rewrite setn_other by (exact veqb_spec || assumption); reflexivity]. }
    assert (Hz : forall v, hh (si (init_search (fun _ => fresh_info V C zero inf) first) v) = zero).
    { intros v. unfold GenericSearch.init_search. cbn [add_starts s_info]. destruct (vdec v s0) as [->|Hn];
        [rewrite setn_same by exact veqb_spec; reflexivity|rewrite setn_other by (exact veqb_spec || assumption); reflexivity]. }
    destruct (loop_work (n_touched k0) fuel 0 (init_search (fun _ => fresh_info V C zero inf) first) (init_cnt k0) [] r s' k' log)
      as ((D & D1 & D2 & D3) & Ha); [| |exact E|].
    - constructor.
      + intros v Hv. rewrite (Hi v Hv). exact s0_all.
      + intros v Hv. left. unfold GenericSearch.init_search in *. cbn [add_starts s_info s_open] in *.
        apply Hpush in Hv as [->|[]]. rewrite setn_same by exact veqb_spec. reflexivity.
      + intros v. rewrite Hc. cbn [In]. split; [discriminate|intros []].
      + intros v Hv. rewrite (Hi v Hv). unfold GenericSearch.init_search. cbn [add_starts s_info].
        rewrite setn_same by exact veqb_spec. apply (st_zero ST).
      + intros v _. right. split; [reflexivity|apply Hz].
      + intros _. exact Hz.
      + intros _ v Hv. apply Hi. exact Hv.
      + intros w v Hw. rewrite Hc in Hw. discriminate.
      + intros w [].
    - exists []. split; [constructor|]. split; [intros v; reflexivity|]. unfold init_cnt. cbn [n_touched offers fold_right]. clear. lia.
    - exists D. split; [assumption|]. split; [assumption|]. split; [|assumption]. intros v Hv. apply Ha, D2, Hv.
  Qed.
End Work.
