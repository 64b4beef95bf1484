(** Oversearch: which accepted nodes become candidates, and what their paths cost,
    when the total cost never decreases along an offered step (GenericWork.v). *)
From Verif Require Import Base PathSpec GenericSearch GenericProofs GenericCount GenericWork.

(** [pcost add nbr a p b]: following the offered steps of [p], an initial cost [a] grows to [b]. *)
Inductive pcost {V C} (add : C -> C -> C) (nbr : V -> list (V * C)) : C -> list V -> C -> Prop :=
| pc_one v a : pcost add nbr a [v] a
| pc_step u v c p a b : In (v, c) (nbr u) -> pcost add nbr (add a c) (v :: p) b -> pcost add nbr a (u :: v :: p) b.

Section Window.
  Context {V C : Type}.
  Variable veqb : V -> V -> bool.
  Hypothesis veqb_spec : forall a b, reflect (a = b) (veqb a b).
  Variable all : list V.
  Variable zero inf : C.
  Variable add : C -> C -> C.
  Variable lt : C -> C -> bool.
  Variable tot : C -> C -> C.
  Variable nbr : V -> list (V * C).
  Variable hval : V -> C.
  Variable push : (V -> C) -> V -> list V -> list V.
  Variable pop : (V -> C) -> list V -> option (V * list V).
  Hypothesis Hpush : push_ok push.
  Hypothesis Hpop : pop_ok pop.
  Variable s0 : V.
  Variable is_goal : V -> bool.
  Variable has_goal : bool.
  Variable over : C -> C -> bool.
  Variable gdist : V -> C.
  Variable best : list (V * C) -> option V.
  Variable timeout : nat -> bool.
  Variable ok : C -> Prop.
  Notation hused := (hused zero hval has_goal).
  Hypothesis ST : steady all zero add lt tot nbr hval pop has_goal ok.
  (** The distances alone, without the heuristic (GenericProofs.v). *)
  Variable okd : C -> Prop.
  Hypothesis AO : arith_ok all zero add lt nbr okd.
  (** Adding and totalling are monotone; the window test is monotone in both arguments. *)
  Record monotone : Prop := {
    mo_add : forall u v c a b, In u all -> In (v, c) (nbr u) -> ok a -> ok b -> lt b a = false -> lt (add b c) (add a c) = false;
    mo_tot : forall a b v, ok a -> ok b -> lt b a = false -> lt (tot b (hused v)) (tot a (hused v)) = false;
    mo_over : forall x y f, ok x -> ok y -> ok f -> lt y x = false -> over x f = true -> over y f = true;
    mo_first : forall x f g, ok x -> ok f -> ok g -> lt g f = false -> over x g = true -> over x f = true }.
  Hypothesis MO : monotone.
  Hypothesis nbr_all : forall u v c, In u all -> In (v, c) (nbr u) -> In v all.
  Hypothesis s0_all : In s0 all.
  #[local] Set Default Proof Using "All".

  Notation info := (info V C).
  Notation state := (state V C).
  Notation si := (s_info V C).
  Notation so := (s_open V C).
  Notation sc := (s_cand V C).
  Notation dist := (g_dist V C).
  Notation hh := (g_h V C).
  Notation prev := (g_prev V C).
  Notation isopen := (g_open V C).
  Notation isclosed := (g_closed V C).
  Notation expanded := (g_expanded V C).
  Notation setn := (setn V C veqb).
  Notation total := (total V C tot).
  Notation seen := (@seen V C).
  Notation trace := (@trace V C [s0]).
  Notation processNeighborN := (processNeighborN veqb add lt tot hval push has_goal).
  Notation process_allN := (process_allN veqb add lt tot hval push has_goal).
  Notation backtrack := (backtrack V C veqb all [s0]).
  Notation finish := (finish V C veqb all [s0] best).
  Notation close := (close V C veqb hval has_goal).
  Notation add_candidate := (add_candidate V C tot gdist).
  Notation loopN := (loopN veqb all add lt tot nbr hval push pop [s0] is_goal has_goal true over gdist best timeout).
  Notation init_search := (init_search V C veqb zero tot push [s0]).
  Notation runN := (runN veqb all zero add lt tot nbr hval push pop [s0] is_goal has_goal true over gdist best timeout).
  Notation key := (key zero tot hval has_goal).
  Notation J := (J all zero add lt tot nbr hval s0 has_goal ok).
  Notation K := (K all zero lt [s0] okd).
  Notation pcost := (pcost add nbr).

  Let vdec (a b : V) : {a = b} + {a <> b}.
  Proof. destruct (veqb_spec a b); auto. Qed.

  (** ** Costs of ways *)
  Lemma pcost_ok a p b : pcost a p b -> forall u, hd_error p = Some u -> In u all -> ok a -> ok b.
  Proof.
    induction 1 as [v a|u v c p a b Hin H IH]; intros x Hx Ha Hok; injection Hx as ->; [exact Hok|].
    apply (IH v eq_refl); [eapply nbr_all; eassumption|]. apply (st_add _ _ _ _ _ _ _ _ _ _ ST x v); assumption.
  Qed.
  (** The total cost does not decrease along a way. *)
  Lemma pcost_tot a p b : pcost a p b -> forall u t, hd_error p = Some u -> last p u = t -> In u all -> ok a ->
    lt (tot b (hused t)) (tot a (hused u)) = false.
  Proof.
    induction 1 as [v a|u v c p a b Hin H IH]; intros x t Hx Ht Ha Hok; injection Hx as ->.
    - cbn [last] in Ht. subst t. apply (st_irrefl _ _ _ _ _ _ _ _ _ _ ST). apply (st_tot _ _ _ _ _ _ _ _ _ _ ST). exact Hok.
    - assert (Hva : In v all) by (eapply nbr_all; eassumption).
      assert (Hok1 : ok (add a c)) by (apply (st_add _ _ _ _ _ _ _ _ _ _ ST x v); assumption).
      assert (Hb : ok b) by (apply (pcost_ok _ _ _ H v eq_refl Hva Hok1)).
      assert (Ht' : last (v :: p) v = t).
      { rewrite <- Ht. clear. change (last (x :: v :: p) x) with (last (v :: p) x). revert v.
        induction p as [|z p IHp]; intros v; [reflexivity|]. change (last (z :: p) v = last (z :: p) x). clear IHp. revert z.
        induction p as [|z' p IHp]; intros z; [reflexivity|exact (IHp z')]. }
      specialize (IH v t eq_refl Ht' Hva Hok1).
      apply (st_trans _ _ _ _ _ _ _ _ _ _ ST _ (tot (add a c) (hused v))); try (apply (st_tot _ _ _ _ _ _ _ _ _ _ ST); assumption); [|exact IH].
      apply (st_step _ _ _ _ _ _ _ _ _ _ ST); assumption.
  Qed.
  Lemma pcost_snoc a p b : pcost a p b -> forall u v c d, last p d = u -> In (v, c) (nbr u) -> pcost a (p ++ [v]) (add b c).
  Proof.
    induction 1 as [w a|u0 v0 c0 p a b Hin H IH]; intros u v c d Hl Hv.
    - cbn [last] in Hl. subst u. cbn [app]. econstructor; [exact Hv|constructor].
    - cbn [app]. econstructor; [exact Hin|]. exact (IH u v c d Hl Hv).
  Qed.

  (** ** Predecessors carry their costs *)
  Definition prevs (s : state) : Prop := forall v, seen s v -> v <> s0 ->
    exists u c, prev (si s v) = Some u /\ seen s u /\ In (v, c) (nbr u) /\ lt (dist (si s v)) (add (dist (si s u)) c) = false.

  Lemma processN_prevs ex cur s k v c s' k' log : J ex s log -> prevs s -> isclosed (si s cur) = true -> ex cur ->
    (forall w, isclosed (si s w) = true -> lt (key s cur) (key s w) = false) ->
    In (v, c) (nbr cur) -> processNeighborN cur s k (v, c) = Some (s', k') -> prevs s'.
  Proof.
    intros HJ HP Hcc Hex Hcm Hin E.
    destruct (processN_J veqb veqb_spec all zero inf add lt tot nbr hval push pop Hpush Hpop s0 is_goal has_goal true over gdist best timeout ok ST nbr_all s0_all
      ex cur s k v c s' k' log HJ Hcc Hex Hcm Hin E) as (HJ' & Hdc & _ & _ & Hmono & _).
    assert (Hcs : seen s cur) by (right; exact Hcc).
    assert (Hpw : forall w, prev (si s' w) = prev (si s w) /\ (seen s' w -> seen s w) /\ dist (si s' w) = dist (si s w) \/
       w = v /\ prev (si s' w) = Some cur /\ dist (si s' w) = add (dist (si s cur)) c).
    { intros w. unfold GenericCount.processNeighborN in E. unfold GenericProofs.seen.
      destruct (isclosed (si s v) && negb (lt (add (dist (si s cur)) c) (dist (si s v)))).
      { injection E as <- _. cbn [s_info]. left. destruct (vdec w v) as [->|Hn];
          [rewrite setn_same by exact veqb_spec; cbn; auto|rewrite setn_other by (exact veqb_spec || assumption); auto]. }
      destruct (negb (isopen (si s v)) || lt (add (dist (si s cur)) c) (dist (si s v))).
      2:{ injection E as <- _. cbn [s_info]. left. destruct (vdec w v) as [->|Hn];
          [rewrite setn_same by exact veqb_spec; cbn; auto|rewrite setn_other by (exact veqb_spec || assumption); auto]. }
      destruct (veqb v cur); [discriminate|]. injection E as <- _. cbn [s_info].
      destruct (vdec w v) as [->|Hn]; [right; rewrite setn_same by exact veqb_spec; cbn; auto|
        left; rewrite setn_other by (exact veqb_spec || assumption); auto]. }
    clear E. intros w Hw Hn.
    assert (Hca : In cur all) by (apply (j_all _ _ _ _ _ _ _ _ _ _ _ _ _ HJ); exact Hcs).
    destruct (Hpw w) as [(A & B & D)|(-> & A & D)].
    - destruct (HP w (B Hw) Hn) as (u & cu & P1 & P2 & P3 & P4). exists u, cu. rewrite A, D.
      destruct (Hmono u P2) as [M1 M2]. split; [exact P1|]. split; [exact M1|]. split; [exact P3|].
      assert (Hua : In u all) by (apply (j_all _ _ _ _ _ _ _ _ _ _ _ _ _ HJ); exact P2).
      pose proof (j_ok _ _ _ _ _ _ _ _ _ _ _ _ _ HJ u P2) as O1. pose proof (j_ok _ _ _ _ _ _ _ _ _ _ _ _ _ HJ' u M1) as O2.
      apply (st_trans _ _ _ _ _ _ _ _ _ _ ST _ (add (dist (si s u)) cu)).
      + apply (st_add _ _ _ _ _ _ _ _ _ _ ST u w); assumption.
      + apply (st_add _ _ _ _ _ _ _ _ _ _ ST u w); assumption.
      + apply (j_ok _ _ _ _ _ _ _ _ _ _ _ _ _ HJ). apply B. exact Hw.
      + apply (mo_add MO u w); assumption.
      + exact P4.
    - exists cur, c. split; [exact A|]. split; [apply Hmono; exact Hcs|]. split; [exact Hin|]. rewrite D, Hdc.
      apply (st_irrefl _ _ _ _ _ _ _ _ _ _ ST). apply (st_add _ _ _ _ _ _ _ _ _ _ ST cur v); [exact Hca|exact Hin|].
      apply (j_ok _ _ _ _ _ _ _ _ _ _ _ _ _ HJ). exact Hcs.
  Qed.

  Lemma process_allN_prevs ex cur l : forall s k s' k' log, J ex s log -> prevs s -> isclosed (si s cur) = true -> ex cur ->
    (forall w, isclosed (si s w) = true -> lt (key s cur) (key s w) = false) ->
    incl l (nbr cur) -> process_allN cur l s k = Some (s', k') ->
    prevs s' /\ (forall w, isclosed (si s w) = true -> dist (si s' w) = dist (si s w)) /\
    sc s' = sc s /\ s_first V C s' = s_first V C s.
  Proof.
    induction l as [|[v c] l IH]; intros s k s' k' log HJ HP Hcc Hex Hcm Hl E; cbn [GenericCount.process_allN] in E.
    - injection E as <- <-. auto.
    - destruct (processNeighborN cur s k (v, c)) as [[s1 k1]|] eqn:E1; [|discriminate]. cbn [obind fst snd] in E.
      assert (Hin : In (v, c) (nbr cur)) by (apply Hl; left; reflexivity).
      pose proof (processN_prevs ex cur s k v c s1 k1 log HJ HP Hcc Hex Hcm Hin E1) as HP1.
      destruct (processN_J veqb veqb_spec all zero inf add lt tot nbr hval push pop Hpush Hpop s0 is_goal has_goal true over gdist best timeout ok ST nbr_all s0_all
        ex cur s k v c s1 k1 log HJ Hcc Hex Hcm Hin E1) as (A1 & A2 & A3 & A4 & _).
      assert (Hk : forall w, isclosed (si s w) = true -> key s1 w = key s w) by (intros w Hw; unfold GenericWork.key; rewrite A4 by exact Hw; reflexivity).
      assert (Hsc : sc s1 = sc s /\ s_first V C s1 = s_first V C s).
      { clear - E1. unfold GenericCount.processNeighborN in E1.
        destruct (isclosed (si s v) && negb (lt (add (dist (si s cur)) c) (dist (si s v)))); [injection E1 as <- _; split; reflexivity|].
        destruct (negb (isopen (si s v)) || lt (add (dist (si s cur)) c) (dist (si s v))); [|injection E1 as <- _; split; reflexivity].
        destruct (veqb v cur); [discriminate|injection E1 as <- _; split; reflexivity]. }
      destruct (IH s1 k1 s' k' log A1 HP1) as (B1 & B2 & B3 & B4); auto.
      { rewrite A3. exact Hcc. }
      { intros w Hw. rewrite A3 in Hw. rewrite (Hk w Hw), (Hk cur Hcc). apply Hcm. exact Hw. }
      { intros x Hx. apply Hl. right. exact Hx. }
      split; [exact B1|]. split; [|destruct Hsc as [<- <-]; auto].
      intros w Hw. rewrite B2 by (rewrite A3; exact Hw). apply A4. exact Hw.
  Qed.

  (** ** Ways that have not been followed to their end pass through the open list *)
  Lemma frontier s log : J (fun _ => False) s log -> K s -> forall a p b, pcost a p b -> forall u t, hd_error p = Some u -> last p u = t ->
    seen s u -> ok a -> lt a (dist (si s u)) = false ->
    In t log /\ lt b (dist (si s t)) = false \/ exists x, In x (so s) /\ lt (tot b (hused t)) (key s x) = false.
  Proof.
    intros HJ HK a p b H. induction H as [v a|u v c p a b Hin H IH]; intros x t Hx Ht Hs Hok Hle; injection Hx as ->.
    - cbn [last] in Ht. subst t. destruct Hs as [Ho|Hc].
      + right. exists x. split; [apply (k_open _ _ _ _ _ _ HK); exact Ho|].
        unfold GenericWork.key. apply (mo_tot MO); [|exact Hok|exact Hle]. apply (j_ok _ _ _ _ _ _ _ _ _ _ _ _ _ HJ). left. exact Ho.
      + left. split; [|exact Hle]. apply (j_closed _ _ _ _ _ _ _ _ _ _ _ _ _ HJ). exact Hc.
    - assert (Hua : In x all) by (apply (j_all _ _ _ _ _ _ _ _ _ _ _ _ _ HJ); exact Hs).
      assert (Hva : In v all) by (eapply nbr_all; eassumption).
      assert (Hdu : ok (dist (si s x))) by (apply (j_ok _ _ _ _ _ _ _ _ _ _ _ _ _ HJ); exact Hs).
      destruct Hs as [Ho|Hc].
      + right. exists x. split; [apply (k_open _ _ _ _ _ _ HK); exact Ho|].
        assert (Hpc : pcost a (x :: v :: p) b) by (econstructor; eassumption).
        pose proof (pcost_tot a (x :: v :: p) b Hpc x t eq_refl Ht Hua Hok) as H1.
        pose proof (pcost_ok a (x :: v :: p) b Hpc x eq_refl Hua Hok) as Hb.
        apply (st_trans _ _ _ _ _ _ _ _ _ _ ST _ (tot a (hused x))); try (apply (st_tot _ _ _ _ _ _ _ _ _ _ ST); assumption); [|exact H1].
        unfold GenericWork.key. apply (mo_tot MO); assumption.
      + assert (Hlog : In x log) by (apply (j_closed _ _ _ _ _ _ _ _ _ _ _ _ _ HJ); exact Hc).
        destruct (j_rel _ _ _ _ _ _ _ _ _ _ _ _ _ HJ x Hlog) as [[]|Hr]. destruct (Hr v c Hin) as [Hsv Hlv].
        assert (Hok1 : ok (add a c)) by (apply (st_add _ _ _ _ _ _ _ _ _ _ ST x v); assumption).
        apply (IH v t eq_refl); auto.
        * rewrite <- Ht. clear. change (last (x :: v :: p) x) with (last (v :: p) x). revert v.
          induction p as [|z p IHp]; intros v; [reflexivity|]. change (last (z :: p) v = last (z :: p) x). clear IHp. revert z.
          induction p as [|z' p IHp]; intros z; [reflexivity|exact (IHp z')].
        * apply (st_trans _ _ _ _ _ _ _ _ _ _ ST _ (add (dist (si s x)) c)); auto.
          -- apply (j_ok _ _ _ _ _ _ _ _ _ _ _ _ _ HJ). exact Hsv.
          -- apply (st_add _ _ _ _ _ _ _ _ _ _ ST x v); assumption.
          -- apply (mo_add MO x v); assumption.
  Qed.

  (** A way from the start to [t], of cost [y]. *)
  Definition way (t : V) (p : list V) (y : C) : Prop := hd_error p = Some s0 /\ last p s0 = t /\ pcost zero p y.
  Lemma way_ok t p y : way t p y -> ok y.
  Proof. intros (A & _ & B). apply (pcost_ok _ _ _ B s0 A s0_all). apply (st_zero _ _ _ _ _ _ _ _ _ _ ST). Qed.
  Lemma frontier_way s log t p y : J (fun _ => False) s log -> K s -> way t p y ->
    In t log /\ lt y (dist (si s t)) = false \/ exists x, In x (so s) /\ lt (tot y (hused t)) (key s x) = false.
  Proof.
    intros HJ HK (A & B & D). apply (frontier s log HJ HK zero p y D s0 t A B).
    - apply (k_starts _ _ _ _ _ _ HK). left. reflexivity.
    - apply (st_zero _ _ _ _ _ _ _ _ _ _ ST).
    - rewrite (proj1 (k_start _ _ _ _ _ _ HK s0 (or_introl eq_refl))). apply (st_irrefl _ _ _ _ _ _ _ _ _ _ ST). apply (st_zero _ _ _ _ _ _ _ _ _ _ ST).
  Qed.

  (** A traced path costs no more than the distance written at its end. *)
  Lemma trace_way s log ex : J ex s log -> K s -> prevs s -> forall v q, trace (si s) v q -> seen s v ->
    exists y, way v (rev q) y /\ lt (dist (si s v)) y = false.
  Proof.
    intros HJ HK HP v q Hq. induction Hq as [v Hv|v u q Hv E Hq IH]; intros Hs.
    - destruct Hv as [<-|[]]. exists zero. split; [split; [reflexivity|]; split; [reflexivity|constructor]|].
      rewrite (proj1 (k_start _ _ _ _ _ _ HK s0 (or_introl eq_refl))). apply (st_irrefl _ _ _ _ _ _ _ _ _ _ ST). apply (st_zero _ _ _ _ _ _ _ _ _ _ ST).
    - destruct (HP v Hs) as (u' & c & P1 & P2 & P3 & P4); [intros ->; apply Hv; left; reflexivity|].
      rewrite E in P1. injection P1 as <-. destruct (IH P2) as (y & (W1 & W2 & W3) & Hy).
      assert (Hua : In u all) by (apply (j_all _ _ _ _ _ _ _ _ _ _ _ _ _ HJ); exact P2).
      assert (Oy : ok y) by (apply (way_ok u (rev q) y); split; [exact W1|split; assumption]).
      assert (Ou : ok (dist (si s u))) by (apply (j_ok _ _ _ _ _ _ _ _ _ _ _ _ _ HJ); exact P2).
      exists (add y c). split.
      + cbn [rev]. split; [|split].
        * destruct (rev q); [discriminate|exact W1].
        * apply last_last.
        * apply (pcost_snoc zero (rev q) y W3 u v c s0); assumption.
      + apply (st_trans _ _ _ _ _ _ _ _ _ _ ST _ (add (dist (si s u)) c)); [apply (st_add _ _ _ _ _ _ _ _ _ _ ST u v); assumption
          |apply (st_add _ _ _ _ _ _ _ _ _ _ ST u v); assumption| |apply (mo_add MO u v); assumption|exact P4].
        apply (j_ok _ _ _ _ _ _ _ _ _ _ _ _ _ HJ). exact Hs.
  Qed.

  (** ** The candidates *)
  Definition least (s : state) (log : list V) : Prop := forall v p y, In v log -> way v p y -> lt y (dist (si s v)) = false.
  Definition listed (s : state) (log : list V) : Prop :=
    forall v c, In (v, c) (sc s) <-> In v log /\ is_goal v = true /\ c = gdist v.
  Definition nearest (s : state) (log : list V) : Prop := sc s <> [] ->
    exists t0, In t0 log /\ is_goal t0 = true /\ s_first V C s = key s t0 /\
      forall t p y, is_goal t = true -> way t p y -> lt (tot y (hused t)) (s_first V C s) = false.
  Definition inside (s : state) (log : list V) (but : V -> Prop) : Prop :=
    sc s <> [] -> forall v, In v log -> is_goal v = true -> ~ but v -> over (key s v) (s_first V C s) = false.

  Record result (s : state) (log : list V) : Prop := {
    rs_all : forall v, In v log -> seen s v /\ In v all;
    rs_K : K s;
    rs_prevs : prevs s;
    rs_J : exists ex, J ex s log;
    rs_least : least s log;
    rs_listed : listed s log;
    rs_nearest : nearest s log;
    rs_inside : exists last, inside s log (fun v => v = last) }.
  Definition finished (s : state) (log : list V) : Prop := forall t p y, is_goal t = true -> way t p y ->
    In t log \/ sc s <> [] /\ over (tot y (hused t)) (s_first V C s) = true.

  Lemma K_same s s' : si s' = si s -> so s' = so s -> K s -> K s'.
  Proof using Type.
    intros E1 E2 [A1 A2 A3 A4 A5 A6 A7 A8]. constructor; unfold GenericProofs.seen in *; rewrite ?E1, ?E2; assumption.
  Qed.

  Lemma loop_window fuel : forall n s k log r s' k' log',
    J (fun _ => False) s log -> K s -> prevs s -> least s log -> listed s log -> nearest s log -> inside s log (fun _ => False) ->
    loopN fuel n s k log = ((r, s'), (k', log')) ->
    result s' log' /\ ((forall i, timeout i = false) -> r <> GFuel V -> finished s' log') /\ (r = GFuel V \/ r = finish s').
  Proof.
    induction fuel as [|f IH]; intros n s k log r s' k' log' HJ HK HP HL HC HN HI E; cbn [GenericCount.loopN] in E.
    { assert (Hres : result s log).
      { constructor; auto; [|exists (fun _ => False); exact HJ|exists s0; intros Hsc v Hv Hg _; apply HI; auto].
        intros v Hv. assert (Hs : seen s v) by (right; apply (j_closed _ _ _ _ _ _ _ _ _ _ _ _ _ HJ); exact Hv).
        split; [exact Hs|]. apply (j_all _ _ _ _ _ _ _ _ _ _ _ _ _ HJ). exact Hs. }
      injection E as <- <- <- <-. split; [exact Hres|]. split; [intros _ Hx; destruct Hx; reflexivity|left; reflexivity]. }
    assert (Hres : result s log).
    { constructor; auto; [|exists (fun _ => False); exact HJ|exists s0; intros Hsc v Hv Hg _; apply HI; auto].
      intros v Hv. assert (Hs : seen s v) by (right; apply (j_closed _ _ _ _ _ _ _ _ _ _ _ _ _ HJ); exact Hv).
      split; [exact Hs|]. apply (j_all _ _ _ _ _ _ _ _ _ _ _ _ _ HJ). exact Hs. }
    destruct (so s) as [|v0 o0] eqn:Eo.
    { injection E as <- <- <- <-. split; [exact Hres|]. split; [|right; reflexivity]. intros _ _ t p y Hg Hw.
      destruct (frontier_way s log t p y HJ HK Hw) as [[A _]|(x & Hx & _)]; [left; exact A|rewrite Eo in Hx; destruct Hx]. }
    assert (Hne : so s <> []) by (rewrite Eo; discriminate). rewrite <- Eo in E. clear v0 o0 Eo. destruct (timeout n) eqn:Et.
    { injection E as <- <- <- <-. split; [exact Hres|]. split; [|right; reflexivity]. intros Hto. rewrite Hto in Et. discriminate. }
    pose proof (Hpop (total (si s)) (so s)) as Hp.
    destruct (pop (total (si s)) (so s)) as [[cur o]|] eqn:Ep; [|contradiction]. clear Hp.
    destruct (close_J veqb veqb_spec all zero inf add lt tot nbr hval push pop Hpush Hpop s0 is_goal has_goal true over gdist best timeout ok ST nbr_all s0_all
      s log cur o HJ Ep) as ((Hcs & Hp1 & Hp3 & Hp4) & Hleast & Eip & Es & Ec & Hcl & HJ1).
    destruct (close_K veqb veqb_spec all zero lt hval [s0] has_goal okd s cur o HK Hcs Hp4 Hp3) as (HK1 & _ & _).
    set (s1 := close s cur o) in *. set (k1 := count_expansion s k cur) in *.
    assert (Ei : forall w, dist (si s1 w) = dist (si s w)) by (intros w; apply Eip).
    assert (Ek : forall w, key s1 w = key s w) by (intros w; unfold GenericWork.key; rewrite Ei; reflexivity).
    assert (Ocur : ok (dist (si s cur))) by (apply (j_ok _ _ _ _ _ _ _ _ _ _ _ _ _ HJ); exact Hcs).
    assert (Okey : forall w, seen s w -> ok (key s w)).
    { intros w Hw. apply (st_tot _ _ _ _ _ _ _ _ _ _ ST). apply (j_ok _ _ _ _ _ _ _ _ _ _ _ _ _ HJ). exact Hw. }
    (* everything not yet taken out costs at least as much as [cur] *)
    assert (Hlow : forall t p y, way t p y -> In t log /\ lt y (dist (si s t)) = false \/ lt (tot y (hused t)) (key s cur) = false).
    { intros t p y Hw. destruct (frontier_way s log t p y HJ HK Hw) as [A|(x & Hx & A)]; [left; exact A|right].
      assert (Hxs : seen s x) by (apply (j_list _ _ _ _ _ _ _ _ _ _ _ _ _ HJ); exact Hx).
      apply (st_trans _ _ _ _ _ _ _ _ _ _ ST _ (key s x)); [apply Okey; exact Hcs|apply Okey; exact Hxs| |apply Hleast; exact Hx|exact A].
      apply (st_tot _ _ _ _ _ _ _ _ _ _ ST). apply (way_ok t p y Hw). }
    assert (HP1 : prevs s1).
    { intros v Hv Hn. destruct (HP v (proj1 (Es v) Hv) Hn) as (u & c & P1 & P2 & P3 & P4). exists u, c.
      rewrite !Ei. destruct (Eip v) as [_ ->]. split; [exact P1|]. split; [apply Es; exact P2|]. split; assumption. }
    assert (HL1 : least s1 (log ++ [cur])).
    { intros v p y Hv Hw. rewrite Ei. apply in_app_iff in Hv as [Hv|[<-|[]]]; [apply (HL v p y Hv Hw)|].
      destruct (Hlow cur p y Hw) as [[_ A]|A]; [exact A|]. destruct (lt y (dist (si s cur))) eqn:El; [|reflexivity].
      pose proof (st_mono _ _ _ _ _ _ _ _ _ _ ST y (dist (si s cur)) cur (way_ok cur p y Hw) Ocur El) as El'.
      unfold GenericWork.key in A. rewrite A in El'. discriminate. }
    rewrite andb_false_r in E.
    set (s2 := if is_goal cur then add_candidate s1 cur else s1) in *.
    assert (E2 : si s2 = si s1 /\ so s2 = so s1) by (unfold s2; clear; destruct (is_goal cur); split; reflexivity).
    destruct E2 as [E2 E2'].
    assert (Etot : total (si s1) cur = key s1 cur).
    { unfold GenericSearch.total, GenericWork.key. destruct (j_h _ _ _ _ _ _ _ _ _ _ _ _ _ HJ1 cur (proj2 (Es cur) Hcs)) as [->|[? _]]; [reflexivity|].
      destruct log; discriminate. }
    assert (HC2 : listed s2 (log ++ [cur])).
    { intros v c. unfold s2. destruct (is_goal cur) eqn:Eg.
      - unfold GenericSearch.add_candidate. cbn [s_cand]. rewrite in_app_iff. change (sc s1) with (sc s). rewrite (HC v c).
        rewrite in_app_iff. cbn [In]. split.
        + intros [(A & B & D)|[H|[]]]; [auto|]. injection H as <- <-. auto.
        + intros ([A|[<-|[]]] & B & D); [left; auto|right; left; rewrite D; reflexivity].
      - change (sc s1) with (sc s). rewrite (HC v c), in_app_iff. cbn [In]. split; [tauto|].
        intros ([A|[<-|[]]] & B & D); [auto|congruence]. }
    assert (HN2 : nearest s2 (log ++ [cur])).
    { intros Hsc. destruct (sc s) as [|z zs] eqn:Esc.
      - (* the first candidate *)
        unfold s2 in *. destruct (is_goal cur) eqn:Eg; [|change (sc s1) with (sc s) in Hsc; rewrite Esc in Hsc; contradiction].
        unfold GenericSearch.add_candidate in *. cbn [s_first s_cand] in *. change (sc s1) with (sc s). rewrite Esc.
        exists cur. split; [apply in_app_iff; right; left; reflexivity|]. split; [exact Eg|]. split; [exact Etot|].
        intros t p y Hg Hw. rewrite Etot, Ek. destruct (Hlow t p y Hw) as [[A _]|A]; [|exact A]. exfalso.
        assert (Hin : In (t, gdist t) (sc s)) by (apply HC; auto). rewrite Esc in Hin. destruct Hin.
      - destruct HN as (t0 & A & B & D & F); [rewrite Esc; discriminate|].
        assert (Ef : s_first V C s2 = s_first V C s).
        { unfold s2. destruct (is_goal cur); [|reflexivity]. unfold GenericSearch.add_candidate. cbn [s_first]. change (sc s1) with (sc s). rewrite Esc. reflexivity. }
        exists t0. rewrite Ef. split; [apply in_app_iff; left; exact A|]. split; [exact B|]. split; [|exact F].
        rewrite D. unfold GenericWork.key. rewrite E2, Ei. reflexivity. }
    assert (Ek2 : forall w, key s2 w = key s w) by (intros w; unfold GenericWork.key; rewrite E2, Ei; reflexivity).
    assert (HI2 : inside s2 (log ++ [cur]) (fun v => v = cur)).
    { intros Hsc v Hv Hg Hn. apply in_app_iff in Hv as [Hv|[<-|[]]]; [|destruct Hn; reflexivity]. rewrite Ek2.
      assert (Hin : In (v, gdist v) (sc s)) by (apply HC; auto).
      assert (Hsc0 : sc s <> []) by (intros E0; rewrite E0 in Hin; destruct Hin).
      assert (Ef : s_first V C s2 = s_first V C s).
      { unfold s2. destruct (is_goal cur); [|reflexivity]. unfold GenericSearch.add_candidate. cbn [s_first]. change (sc s1) with (sc s).
        destruct (sc s); [contradiction|reflexivity]. }
      rewrite Ef. apply (HI Hsc0 v Hv Hg). tauto. }
    assert (HJ2 : J (fun w => w = cur) s2 (log ++ [cur])).
    { destruct HJ1 as [J1 J2 J3 J4 J5 J5' J6 J7 J8].
      constructor; unfold GenericWork.key, GenericWork.relaxed, GenericProofs.seen in *; rewrite ?E2, ?E2'; assumption. }
    assert (HK2 : K s2) by (apply (K_same s1); assumption).
    assert (HP2 : prevs s2) by (unfold prevs, GenericProofs.seen in *; rewrite E2; exact HP1).
    assert (HL2 : least s2 (log ++ [cur])) by (unfold least; rewrite E2; exact HL1).
    assert (Hlow2 : forall t p y, is_goal t = true -> way t p y -> In t (log ++ [cur]) \/ lt (tot y (hused t)) (key s cur) = false).
    { intros t p y Hg Hw. destruct (Hlow t p y Hw) as [[A _]|A]; [left; apply in_app_iff; left; exact A|right; exact A]. }
    clearbody s2. change (total (si s2) cur) with (tot (dist (si s2 cur)) (hh (si s2 cur))) in E. rewrite E2 in E.
    change (tot (dist (si s1 cur)) (hh (si s1 cur))) with (total (si s1) cur) in E. rewrite Etot in E. rewrite andb_true_l in E.
    destruct (negb match sc s2 with [] => true | _ => false end && over (key s1 cur) (s_first V C s2)) eqn:Eov.
    { injection E as <- <- <- <-. apply andb_true_iff in Eov as [Eov1 Eov2].
      assert (Hsc : sc s2 <> []) by (intros E0; rewrite E0 in Eov1; discriminate).
      split; [|split; [|right; reflexivity]].
      - constructor; auto; [|exists (fun w => w = cur); exact HJ2|exists cur; exact HI2].
        intros v Hv. assert (Hs : seen s2 v) by (right; apply (j_closed _ _ _ _ _ _ _ _ _ _ _ _ _ HJ2); exact Hv).
        split; [exact Hs|]. apply (j_all _ _ _ _ _ _ _ _ _ _ _ _ _ HJ2). exact Hs.
      - intros _ _ t p y Hg Hw. destruct (Hlow2 t p y Hg Hw) as [A|A]; [left; exact A|right]. split; [exact Hsc|].
        destruct (HN2 Hsc) as (t0 & T1 & _ & T3 & _).
        assert (Ht0 : seen s2 t0) by (right; apply (j_closed _ _ _ _ _ _ _ _ _ _ _ _ _ HJ2); exact T1).
        apply (mo_over MO (key s1 cur)); auto.
        + rewrite Ek. apply Okey. exact Hcs.
        + apply (st_tot _ _ _ _ _ _ _ _ _ _ ST). apply (way_ok t p y Hw).
        + rewrite T3. apply (st_tot _ _ _ _ _ _ _ _ _ _ ST). apply (j_ok _ _ _ _ _ _ _ _ _ _ _ _ _ HJ2). exact Ht0.
        + rewrite Ek. exact A. }
    assert (Hcur2 : seen s2 cur) by (right; apply (j_closed _ _ _ _ _ _ _ _ _ _ _ _ _ HJ2); apply in_app_iff; right; left; reflexivity).
    assert (Hca : In cur all) by (apply (j_all _ _ _ _ _ _ _ _ _ _ _ _ _ HJ2); exact Hcur2).
    assert (Hcc2 : isclosed (si s2 cur) = true) by (apply (j_closed _ _ _ _ _ _ _ _ _ _ _ _ _ HJ2); apply in_app_iff; right; left; reflexivity).
    assert (Hcl2 : forall w, isclosed (si s2 w) = true -> lt (key s2 cur) (key s2 w) = false).
    { unfold GenericWork.key in *. rewrite E2. exact Hcl. }
    destruct (process_all_K veqb veqb_spec all zero add lt tot nbr hval push Hpush [s0] has_goal okd AO nbr_all cur (nbr cur) s2 HK2 Hca Hcur2 (incl_refl _))
      as (s3 & Ep3 & HK3 & _).
    rewrite (erase_process_all veqb add lt tot hval push has_goal cur (nbr cur) s2 k1) in Ep3.
    destruct (process_allN cur (nbr cur) s2 k1) as [[s3' k3]|] eqn:E3; [|discriminate]. cbn [option_map fst] in Ep3. injection Ep3 as ->.
    destruct (process_allN_prevs (fun w => w = cur) cur (nbr cur) s2 k1 s3 k3 (log ++ [cur]) HJ2 HP2 Hcc2 eq_refl Hcl2 (incl_refl _) E3) as (HP3 & Hd3 & Hsc3 & Hf3).
    destruct (process_allN_J veqb veqb_spec all zero inf add lt tot nbr hval push pop Hpush Hpop s0 is_goal has_goal true over gdist best timeout ok ST nbr_all s0_all
      (fun w => w = cur) cur (nbr cur) s2 k1 s3 k3 (log ++ [cur]) HJ2 Hcc2 eq_refl Hcl2 (incl_refl _) E3) as (B1 & B2 & B3 & B4 & B5 & B6 & B7).
    assert (Hd3' : forall w, In w (log ++ [cur]) -> dist (si s3 w) = dist (si s2 w)).
    { intros w Hw. apply Hd3. apply (j_closed _ _ _ _ _ _ _ _ _ _ _ _ _ HJ2). exact Hw. }
    apply (IH (S n) s3 k3 (log ++ [cur]) r s' k' log'); auto.
    - destruct B1 as [J1 J2 J3 J4 J5 J5' J6 J7 J8]. constructor; try assumption.
      intros w Hw. right. destruct (J8 w Hw) as [->|A]; [|exact A]. intros x c Hx. destruct (B5 x c Hx) as [A1 A2].
      split; [exact A1|]. rewrite B2. exact A2.
    - intros v p y Hv Hw. rewrite Hd3' by exact Hv. apply (HL2 v p y Hv Hw).
    - intros v c. rewrite Hsc3. apply HC2.
    - intros Hsc. rewrite Hsc3 in Hsc. destruct (HN2 Hsc) as (t0 & T1 & T2 & T3 & T4). exists t0. rewrite Hf3.
      split; [exact T1|]. split; [exact T2|]. split; [|exact T4]. rewrite T3. unfold GenericWork.key. rewrite Hd3' by exact T1. reflexivity.
    - intros Hsc v Hv Hg _. rewrite Hsc3 in Hsc. rewrite Hf3.
      replace (key s3 v) with (key s2 v) by (unfold GenericWork.key; rewrite Hd3' by exact Hv; reflexivity).
      destruct (vdec v cur) as [->|Hn]; [|apply (HI2 Hsc v Hv Hg Hn)].
      rewrite Ek2, <- Ek. apply andb_false_iff in Eov as [Eov|Eov]; [|exact Eov].
      destruct (sc s2); [contradiction|discriminate].
  Qed.

  Lemma run_window fuel first k0 r s' k' log : runN fuel (fun _ => fresh_info V C zero inf) first k0 = ((r, s'), (k', log)) ->
    result s' log /\ ((forall i, timeout i = false) -> r <> GFuel V -> finished s' log) /\ (r = GFuel V \/ r = finish s').
  Proof.
    intros E. unfold GenericCount.runN in E.
    assert (Hi : forall v, seen (init_search (fun _ => fresh_info V C zero inf) first) v -> v = s0).
    { intros v Hv. unfold GenericSearch.init_search in Hv. cbn [add_starts] in Hv. unfold GenericProofs.seen in Hv. cbn [s_info] in Hv.
      destruct (vdec v s0) as [|Hn]; [assumption|]. rewrite setn_other in Hv by (exact veqb_spec || assumption). destruct Hv; discriminate. }
    assert (Hc : forall v, isclosed (si (init_search (fun _ => fresh_info V C zero inf) first) v) = false).
    { intros v. unfold GenericSearch.init_search. cbn [add_starts s_info]. destruct (vdec v s0) as [->|Hn];
        [rewrite setn_same by exact veqb_spec; reflexivity|rewrite setn_other by (exact veqb_spec || assumption); reflexivity]. }
    assert (Hz : forall v, hh (si (init_search (fun _ => fresh_info V C zero inf) first) v) = zero).
    { intros v. unfold GenericSearch.init_search. cbn [add_starts s_info]. destruct (vdec v s0) as [->|Hn];
        [rewrite setn_same by exact veqb_spec; reflexivity|rewrite setn_other by (exact veqb_spec || assumption); reflexivity]. }
    assert (Hk : K (init_search (fun _ => fresh_info V C zero inf) first)).
    { eapply (fresh_K veqb veqb_spec all zero inf add lt tot nbr push Hpush [s0]); eauto. intros v [<-|[]]. exact s0_all. }
    apply (loop_window fuel 0 (init_search (fun _ => fresh_info V C zero inf) first) (init_cnt k0) [] r s' k' log); auto.
    - constructor.
      + intros v Hv. rewrite (Hi v Hv). exact s0_all.
      + intros v Hv. left. unfold GenericSearch.init_search in *. cbn [add_starts s_info s_open] in *.
        apply Hpush in Hv as [->|[]]. rewrite setn_same by exact veqb_spec. reflexivity.
      + intros v. rewrite Hc. cbn [In]. split; [discriminate|intros []].
      + intros v Hv. rewrite (Hi v Hv). unfold GenericSearch.init_search. cbn [add_starts s_info].
        rewrite setn_same by exact veqb_spec. apply (st_zero _ _ _ _ _ _ _ _ _ _ ST).
      + intros v _. right. split; [reflexivity|apply Hz].
      + intros _. exact Hz.
      + intros _ v Hv. apply Hi. exact Hv.
      + intros w v Hw. rewrite Hc in Hw. discriminate.
      + intros w [].
    - intros v Hv Hn. destruct (Hn (Hi v Hv)).
    - intros v p y [].
    - intros v c. unfold GenericSearch.init_search. cbn [add_starts s_cand In]. tauto.
    - intros Hx. destruct Hx. reflexivity.
    - intros Hx. destruct Hx. reflexivity.
  Qed.

  (** The path of a logged node, as backtracking finds it at the end, is cheapest. *)
  Lemma result_path s log v : result s log -> In v log ->
    exists q y, backtrack (si s) v = Some q /\ way v q y /\ lt (dist (si s v)) y = false /\ lt y (dist (si s v)) = false /\
      forall p z, way v p z -> lt z y = false.
  Proof.
    intros [R1 R2 R3 (ex & R4) R5 R6 R7 R8] Hv. destruct (R1 v Hv) as [Hs Ha].
    destruct (k_trace _ _ _ _ _ _ R2 v Hs) as (q & Hq).
    destruct (trace_way s log ex R4 R2 R3 v q Hq Hs) as (y & Hw & Hy).
    assert (Hb : backtrack (si s) v = Some (rev q)).
    { destruct (backtrack_some veqb veqb_spec all zero add lt nbr [s0] okd AO s v R2 Hs) as (x & p & Eb).
      assert (Hlen : (length q <= length all)%nat).
      { apply NoDup_incl_length; [eapply trace_nodup; eassumption|]. intros z Hz. apply (k_all _ _ _ _ _ _ R2).
        eapply (trace_seen all zero add lt nbr [s0] okd AO); eauto. }
      unfold GenericSearch.backtrack. rewrite (bt_trace veqb veqb_spec [s0] (si s) v q).
      - rewrite app_nil_r. reflexivity.
      - intros w Hw'. rewrite (proj2 (k_start _ _ _ _ _ _ R2 w Hw')). discriminate.
      - exact Hq.
      - clear - Hlen. lia.
      - intros z _ []. }
    exists (rev q), y. split; [exact Hb|]. split; [exact Hw|]. split; [exact Hy|]. split; [apply (R5 v (rev q) y Hv Hw)|].
    intros p z Hz. apply (st_trans _ _ _ _ _ _ _ _ _ _ ST _ (dist (si s v))); [apply (way_ok v (rev q) y Hw)| |apply (way_ok v p z Hz)|exact Hy|].
    - apply (j_ok _ _ _ _ _ _ _ _ _ _ _ _ _ R4). exact Hs.
    - apply (R5 v p z Hv Hz).
  Qed.
End Window.
