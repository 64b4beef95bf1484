(** C21 with rounded costs: every operation errs by a factor of at most [H]. *)
From Coq Require Import Reals Lra.
From Verif Require Import Base PathSpec GenericSearch GenericProofs.
Local Open Scope R_scope.

(** Length of a node sequence, given the lengths of the steps. *)
Fixpoint plen {V} (elen : V -> V -> R) (p : list V) : R :=
  match p with a :: ((b :: _) as r) => elen a b + plen elen r | _ => 0 end.

Section Round.
  Context {V C : Type}.
  Variable veqb : V -> V -> bool.
  Hypothesis veqb_spec : forall a b, reflect (a = b) (veqb a b).
  Variable all : list V.
  Variables zero inf : C.
  Variable add : C -> C -> C.
  Variable lt : C -> C -> bool.
  Variable tot : C -> C -> C.
  Variable nbr : V -> list (V * C).
  Variable hval : V -> C.
  Variable push : (V -> C) -> V -> list V -> list V.
  Variable pop : (V -> C) -> list V -> option (V * list V).
  Hypothesis Hpush : push_ok push.
  Hypothesis Hpop : pop_ok pop.

  Variable s0 : V.
  Variable is_goal : V -> bool.
  Variable over : C -> C -> bool.
  Variable gdist : V -> C.
  Variable best : list (V * C) -> option V.
  Hypothesis Hbest : best_ok best.
  Hypothesis best_some : forall l, best l = None -> l = [].
  Hypothesis nbr_all : forall u v c, In u all -> In (v, c) (nbr u) -> In v all.
  Hypothesis s0_all : In s0 all.

  (** The numbers the costs stand for. *)
  Variable ok : C -> Prop.
  Variable key : C -> R.
  Variable okh : C -> Prop.
  Hypothesis okh_ok : forall a, okh a -> ok a.
  Hypothesis okh_zero : okh zero.
  Hypothesis Hao : arith_ok all zero add lt nbr ok.
  (** PriorityQueueManager: next() hands out a node that compares greater than no other. *)
  Hypothesis Hmin : forall f l v r, (forall w, In w l -> ok (f w)) -> pop f l = Some (v, r) ->
    forall w, In w l -> lt (f w) (f v) = false.
  Hypothesis key_lt : forall a b, ok a -> ok b -> lt a b = true <-> key a < key b.
  Hypothesis key_pos : forall a, ok a -> 0 <= key a.
  Hypothesis key_zero : key zero = 0.
  (** True lengths and heuristic values, and how far the computed ones are off. *)
  Variable elen : V -> V -> R.
  Variable hR : V -> R.
  Variable H : R.
  Hypothesis H1 : 1 <= H.
  Hypothesis elen_pos : forall u v, 0 <= elen u v.
  Hypothesis A_hi : forall u v c a, In u all -> In (v, c) (nbr u) -> ok a -> key (add a c) <= (key a + elen u v) * H.
  Hypothesis A_lo : forall u v c a, In u all -> In (v, c) (nbr u) -> ok a -> key a + elen u v <= key (add a c) * H.
  Hypothesis h_pos : forall v, 0 <= hR v.
  Hypothesis h_ok : forall v, In v all -> okh (hval v) /\ key (hval v) <= hR v * H /\ hR v <= key (hval v) * H.
  Hypothesis T_ok : forall a b, ok a -> okh b -> ok (tot a b).
  Hypothesis T_hi : forall a b, ok a -> okh b -> key (tot a b) <= (key a + key b) * H.
  Hypothesis T_lo : forall a b, ok a -> okh b -> key a + key b <= key (tot a b) * H.
  Notation edge := (edge nbr).

  Notation info := (info V C).
  Notation state := (state V C).
  Notation si := (s_info V C).
  Notation so := (s_open V C).
  Notation sc := (s_cand V C).
  Notation dist := (g_dist V C).
  Notation hh := (g_h V C).
  Notation prev := (g_prev V C).
  Notation isopen := (g_open V C).
  Notation isclosed := (g_closed V C).
  Notation setn := (setn V C veqb).
  Notation processNeighbor := (processNeighbor V C veqb add lt tot hval push true).
  Notation process_all := (process_all V C veqb add lt tot hval push true).
  Notation backtrack := (backtrack V C veqb all [s0]).
  Notation close := (close V C veqb hval true).
  Notation total := (total V C tot).
  Notation timeout := (fun _ : nat => false).
  Notation loop := (loop V C veqb all add lt tot nbr hval push pop [s0] is_goal true false over gdist best timeout).
  Notation run := (run V C veqb all zero add lt tot nbr hval push pop [s0] is_goal true false over gdist best timeout).
  Notation seen := (@seen V C).
  Notation trace := (@trace V C [s0]).

  Notation K := (K all zero lt [s0] ok).

  Definition relaxed (s : state) (w : V) : Prop :=
    is_goal w = false /\ forall x c, In (x, c) (nbr w) -> seen s x /\ key (dist (si s x)) <= (key (dist (si s w)) + elen w x) * H.

  Record M (ex : V -> Prop) (s : state) : Prop := {
    m_prev : forall v, seen s v -> v <> s0 ->
      exists u c, prev (si s v) = Some u /\ In (v, c) (nbr u) /\ key (dist (si s u)) + elen u v <= key (dist (si s v)) * H;
    m_exp : forall v, seen s v -> In v (so s) \/ ex v \/ relaxed s v;
    m_h : forall v, In v (so s) -> hh (si s v) = hval v \/ (v = s0 /\ hh (si s v) = zero) }.

  Let sdec (a b : V) : {a = b} + {a <> b}.
  Proof. destruct (veqb_spec a b); auto. Qed.

  Lemma process_M ex cur s v c s' : K s -> M ex s -> seen s cur -> In cur all -> In (v, c) (nbr cur) -> ex cur ->
    processNeighbor cur s (v, c) = Some s' ->
    M ex s' /\ dist (si s' cur) = dist (si s cur) /\ seen s' v /\ key (dist (si s' v)) <= (key (dist (si s cur)) + elen cur v) * H /\
    (forall w, seen s w -> seen s' w /\ key (dist (si s' w)) <= key (dist (si s w))) /\ sc s' = sc s.
  Proof.
    intros HK [Mp Me Mh] Hcs Hca Hin Hex E. unfold GenericSearch.processNeighbor in E.
    set (n := si s v) in *. set (d := add (dist (si s cur)) c) in *.
    destruct (k_ok _ _ _ _ _ _ HK cur Hcs) as [Okc Okc0].
    assert (Okd : ok d) by (unfold d; eapply (ao_add _ _ _ _ _ _ Hao); eassumption).
    assert (Hd : key (dist (si s cur)) <= key d).
    { pose proof (ao_grow _ _ _ _ _ _ Hao cur v c _ Hca Hin Okc) as G. apply Rnot_lt_le. intros G'.
      apply key_lt in G'; [|assumption|assumption]. unfold d in G'. congruence. }
    assert (Hdhi : key d <= (key (dist (si s cur)) + elen cur v) * H) by (apply A_hi with (c := c); assumption).
    assert (Hdlo : key (dist (si s cur)) + elen cur v <= key d * H) by (apply A_lo with (c := c); assumption).
    assert (Hge : seen s v -> lt d (dist n) = false -> key (dist n) <= key d).
    { intros Hs G. destruct (k_ok _ _ _ _ _ _ HK v Hs) as [Okv _]. apply Rnot_lt_le. intros G'.
      apply key_lt in G'; [|assumption|exact Okv]. congruence. }
    set (s1 := State V C (setn (si s) v (Info V C (dist n) (hh n) (prev n) (isopen n) (isclosed n) true (g_expanded V C n)))
                 (so s) (sc s) (s_first V C s)) in *.
    assert (Hs1 : seen s v -> lt d (dist n) = false ->
      M ex s1 /\ dist (si s1 cur) = dist (si s cur) /\ seen s1 v /\ key (dist (si s1 v)) <= (key (dist (si s cur)) + elen cur v) * H /\
      (forall w, seen s w -> seen s1 w /\ key (dist (si s1 w)) <= key (dist (si s w))) /\ sc s1 = sc s).
    { intros Hsv Hle. specialize (Hge Hsv Hle).
      assert (Ei : forall w, dist (si s1 w) = dist (si s w) /\ prev (si s1 w) = prev (si s w) /\ hh (si s1 w) = hh (si s w) /\
                  isopen (si s1 w) = isopen (si s w) /\ isclosed (si s1 w) = isclosed (si s w)).
      { intros w. unfold s1. cbn [s_info]. destruct (sdec w v) as [->|Hne];
          [rewrite setn_same by exact veqb_spec; auto|rewrite setn_other by (exact veqb_spec || assumption); auto 6]. }
      assert (Es : forall w, seen s1 w <-> seen s w).
      { intros w. unfold GenericProofs.seen. destruct (Ei w) as (_ & _ & _ & -> & ->). tauto. }
      split; [constructor|split; [apply Ei|split; [apply Es; assumption|split; [|split; [|reflexivity]]]]].
      - intros w Hw Hn. apply Es in Hw. destruct (Mp w Hw Hn) as (u & cu & A & B & D). exists u, cu.
        destruct (Ei w) as (-> & -> & _). destruct (Ei u) as (-> & _). auto.
      - intros w Hw. apply Es in Hw. destruct (Me w Hw) as [A|[A|[A B]]]; [left; exact A|auto|right; right].
        split; [assumption|]. intros x cx Hx. destruct (B x cx Hx) as [B1 B2]. destruct (Ei x) as (-> & _), (Ei w) as (-> & _).
        split; [apply Es; assumption|assumption].
      - intros w Hw. destruct (Ei w) as (_ & _ & -> & _). apply Mh. exact Hw.
      - destruct (Ei v) as (-> & _). fold n. lra.
      - intros w Hw. split; [apply Es; assumption|]. destruct (Ei w) as (-> & _). lra. }
    destruct (isclosed n && negb (lt d (dist n))) eqn:E1.
    { injection E as <-. apply andb_prop in E1 as [E1 E1']. apply negb_true_iff in E1'. apply Hs1; [right; exact E1|exact E1']. }
    destruct (negb (isopen n) || lt d (dist n)) eqn:E2.
    2:{ injection E as <-. apply orb_false_elim in E2 as [E2 E2']. apply negb_false_iff in E2.
        apply Hs1; [left; exact E2|exact E2']. }
    destruct (veqb_spec v cur) as [|Hvc]; [discriminate|]. injection E as <-.
    assert (Hnew : seen s v -> key d < key (dist n)).
    { intros Hs. destruct (lt d (dist n)) eqn:El; [apply key_lt; [assumption|apply (k_ok _ _ _ _ _ _ HK v Hs)|assumption]|].
      rewrite orb_false_r in E2. rewrite andb_true_r in E1. destruct Hs as [Hs|Hs]; fold n in Hs; rewrite Hs in *; discriminate. }
    match goal with |- M ex ?x /\ _ => set (s2 := x) end.
    assert (Ev : si s2 v = Info V C d (hval v) (Some cur) true (isclosed n) true (g_expanded V C n)).
    { unfold s2. cbn [s_info]. apply setn_same. exact veqb_spec. }
    assert (Ew : forall w, w <> v -> si s2 w = si s w).
    { intros w Hw. unfold s2. cbn [s_info]. apply setn_other; [exact veqb_spec|assumption]. }
    assert (Hso : forall w, In w (so s2) <-> w = v \/ In w (so s)).
    { intros w. unfold s2. cbn [s_open]. apply Hpush. }
    assert (Hsv : seen s2 v) by (left; rewrite Ev; reflexivity).
    assert (Hsw : forall w, seen s w -> seen s2 w /\ key (dist (si s2 w)) <= key (dist (si s w))).
    { intros w Hw. destruct (sdec w v) as [->|Hne].
      - split; [assumption|]. rewrite Ev. cbn [g_dist]. apply Hnew in Hw. unfold n in Hw. lra.
      - unfold GenericProofs.seen. rewrite Ew by assumption. split; [exact Hw|lra]. }
    assert (Hsb : forall w, seen s2 w -> w <> v -> seen s w).
    { intros w Hw Hne. unfold GenericProofs.seen in Hw. rewrite Ew in Hw by assumption. exact Hw. }
    assert (Hvs0 : v <> s0).
    { intros ->. pose proof (k_starts _ _ _ _ _ _ HK s0 (or_introl eq_refl)) as Hs. apply Hnew in Hs.
      destruct (k_start _ _ _ _ _ _ HK s0 (or_introl eq_refl)) as [H0 _]. unfold n in Hs. rewrite H0, key_zero in Hs.
      pose proof (key_pos _ Okd). lra. }
    split; [constructor|split; [rewrite Ew by congruence; reflexivity|split; [assumption|split; [|split; [assumption|reflexivity]]]]].
    - intros w Hw Hn. destruct (sdec w v) as [->|Hne].
      + exists cur, c. rewrite Ev. cbn [g_prev g_dist]. split; [reflexivity|]. split; [assumption|].
        rewrite Ew by congruence. exact Hdlo.
      + rewrite Ew by assumption. pose proof (Hsb w Hw Hne) as Hw'. destruct (Mp w Hw' Hn) as (u & cu & A & B & D).
        exists u, cu. split; [assumption|]. split; [assumption|].
        destruct (k_prev _ _ _ _ _ _ HK w Hw') as (u' & A' & Hu & _); [intros [Hz|[]]; congruence|].
        rewrite A in A'. injection A' as <-. destruct (Hsw u Hu). lra.
    - intros w Hw. destruct (sdec w v) as [->|Hne]; [left; apply Hso; left; reflexivity|].
      destruct (Me w (Hsb w Hw Hne)) as [A|[A|[A B]]]; [left; apply Hso; right; exact A|auto|right; right].
      split; [assumption|]. intros x cx Hx. destruct (B x cx Hx) as [B1 B2]. destruct (Hsw x B1) as [B3 B4].
      split; [assumption|]. rewrite (Ew w Hne). lra.
    - intros w Hw. destruct (sdec w v) as [->|Hne]; [left; rewrite Ev; reflexivity|]. rewrite Ew by assumption.
      apply Hso in Hw as [|Hw]; [contradiction|]. apply Mh. exact Hw.
    - rewrite Ev. cbn [g_dist]. exact Hdhi.
  Qed.

  Lemma process_all_M ex cur l : forall s s', K s -> M ex s -> seen s cur -> In cur all -> incl l (nbr cur) -> ex cur ->
    process_all cur l s = Some s' ->
    K s' /\ M ex s' /\ dist (si s' cur) = dist (si s cur) /\
    (forall v c, In (v, c) l -> seen s' v /\ key (dist (si s' v)) <= (key (dist (si s cur)) + elen cur v) * H) /\
    (forall w, seen s w -> seen s' w /\ key (dist (si s' w)) <= key (dist (si s w))) /\ sc s' = sc s.
  Proof.
    induction l as [|[v c] l IH]; intros s s' HK HM Hcs Hca Hl Hex E; cbn [GenericSearch.process_all] in E.
    - injection E as <-. split; [assumption|]. split; [assumption|]. split; [reflexivity|]. split; [intros v c []|].
      split; [|reflexivity]. intros w Hw. split; [assumption|lra].
    - destruct (processNeighbor cur s (v, c)) as [s1|] eqn:E1; [|discriminate]. cbn [obind] in E.
      assert (Hin : In (v, c) (nbr cur)) by (apply Hl; left; reflexivity).
      destruct (process_M ex cur s v c s1 HK HM Hcs Hca Hin Hex E1) as (HM1 & D1 & S1 & L1 & W1 & C1).
      assert (HK1 : K s1).
      { destruct (process_K veqb veqb_spec all zero add lt tot nbr hval push Hpush [s0] true ok Hao nbr_all
          cur s v c HK Hca Hcs Hin) as (s1' & E1' & HK1 & _). rewrite E1 in E1'. injection E1' as <-. exact HK1. }
      destruct (IH s1 s' HK1 HM1 (proj1 (W1 _ Hcs)) Hca) as (HK2 & HM2 & D2 & L2 & W2 & C2); auto.
      { intros x Hx. apply Hl. right. assumption. }
      split; [assumption|]. split; [assumption|]. split; [congruence|]. split; [|split; [|congruence]].
      + intros w cw [Hy|Hy].
        * injection Hy as <- <-. destruct (W2 v S1). split; [assumption|]. lra.
        * rewrite <- D1. apply (L2 w cw). assumption.
      + intros w Hw. destruct (W1 w Hw) as [A B]. destruct (W2 w A). split; [assumption|lra].
  Qed.

  Lemma pow_H_pos k : 0 < H ^ k.
  Proof. apply pow_lt. lra. Qed.
  Lemma pow_H_ge1 k : 1 <= H ^ k.
  Proof. apply pow_R1_Rle. exact H1. Qed.
  Lemma plen_pos p : 0 <= plen elen p.
  Proof. induction p as [|a [|b p] IH]; [cbn; lra|cbn; lra|]. pose proof (elen_pos a b). change (0 <= elen a b + plen elen (b :: p)). lra. Qed.
  Lemma last_indep {A} (l : list A) d d' : l <> [] -> last l d = last l d'.
  Proof using Type. induction l as [|a [|b l] IH]; intros Hn; [congruence|reflexivity|]. apply IH. discriminate. Qed.

  (** [below B a p]: on the way along [p], [a] already behind, length so far plus heuristic
      value never exceeds [B]. *)
  Fixpoint below (B a : R) (p : list V) : Prop :=
    match p with
    | [] => True
    | v :: r => a + hR v <= B /\ match r with w :: _ => below B (a + elen v w) r | [] => True end
    end.
  Lemma below_pos B a p : 0 <= a -> p <> [] -> below B a p -> 0 <= B.
  Proof. destruct p as [|v p]; [congruence|]. intros Ha _ [Hb _]. pose proof (h_pos v). lra. Qed.

  (** Some node of every path waits in the open list with a small enough distance. *)
  Lemma frontier s B p : K s -> M (fun _ => False) s -> chain edge p -> forall v t a k, hd_error p = Some v -> seen s v ->
    0 <= a -> key (dist (si s v)) <= a * H ^ k -> last p v = t -> is_goal t = true -> below B a p ->
    exists x, In x (so s) /\ key (dist (si s x)) + hR x <= B * H ^ (k + length p).
  Proof.
    intros HK HM. induction p as [|v0 p IH]; intros Hc v t a k Hh Hs Ha0 Ha Hl Hg Hb; [discriminate|]. injection Hh as ->.
    pose proof (pow_H_ge1 k) as HPk. pose proof (pow_H_ge1 (length (v :: p))) as HP.
    assert (HB : 0 <= B) by (apply (below_pos B a (v :: p)); [exact Ha0|discriminate|exact Hb]).
    destruct (m_exp _ _ HM v Hs) as [A|[[]|[A C0]]].
    - exists v. split; [assumption|]. destruct Hb as [Hb _]. pose proof (h_pos v) as Hv.
      rewrite pow_add. apply Rle_trans with (B * H ^ k); [nra|].
      rewrite <- Rmult_assoc. assert (0 <= B * H ^ k) by nra. nra.
    - destruct p as [|w p]; [cbn in Hl; congruence|]. destruct Hc as [[c Hin] Hc]. destruct (C0 w c Hin) as [B1 B2].
      pose proof (elen_pos v w) as He. destruct Hb as [_ Hb].
      destruct (IH Hc w t (a + elen v w) (k + 1)%nat eq_refl B1) as (x & X1 & X2).
      + lra.
      + eapply Rle_trans; [exact B2|]. rewrite pow_add, pow_1, <- Rmult_assoc. apply Rmult_le_compat_r; [lra|].
        rewrite Rmult_plus_distr_r. assert (elen v w <= elen v w * H ^ k) by nra. lra.
      + rewrite <- Hl. apply (last_indep (w :: p) w v). discriminate.
      + assumption.
      + exact Hb.
      + exists x. split; [assumption|]. eapply Rle_trans; [exact X2|].
        replace (k + 1 + length (w :: p))%nat with (k + length (v :: w :: p))%nat by (cbn [length]; lia). lra.
  Qed.

  Lemma plen_snoc p v d : p <> [] -> plen elen (p ++ [v]) = plen elen p + elen (last p d) v.
  Proof using Type.
    induction p as [|a [|b p] IH]; intros Hn; [congruence|cbn; lra|].
    change ((a :: b :: p) ++ [v]) with (a :: (b :: p) ++ [v]). specialize (IH ltac:(discriminate)).
    change (plen elen (a :: (b :: p) ++ [v])) with (elen a b + plen elen ((b :: p) ++ [v])).
    change (plen elen (a :: b :: p)) with (elen a b + plen elen (b :: p)). rewrite IH.
    change (last (a :: b :: p) d) with (last (b :: p) d). lra.
  Qed.
  Lemma chain_snoc (R : V -> V -> Prop) p v d : p <> [] -> chain R p -> R (last p d) v -> chain R (p ++ [v]).
  Proof using Type.
    induction p as [|a [|b p] IH]; intros Hn Hc Hv; [congruence|split; [exact Hv|exact I]|].
    destruct Hc as [Hab Hc]. change ((a :: b :: p) ++ [v]) with (a :: (b :: p) ++ [v]). split; [exact Hab|].
    apply IH; [discriminate|exact Hc|exact Hv].
  Qed.

  (** The path read off the predecessor pointers is hardly longer than the stored distance. *)
  Lemma trace_cost s v p : K s -> M (fun _ => False) s -> trace (si s) v p -> seen s v ->
    chain edge (rev p) /\ plen elen (rev p) <= key (dist (si s v)) * H ^ (length p) /\ last (rev p) v = v /\ rev p <> [].
  Proof.
    intros HK HM Ht. induction Ht as [v Hv|v u p Hv E Ht IH]; intros Hs.
    - cbn. pose proof (key_pos _ (proj1 (k_ok _ _ _ _ _ _ HK v Hs))).
      split; [exact I|]. split; [nra|split; [reflexivity|discriminate]].
    - destruct (m_prev _ _ HM v Hs) as (u' & c & A & B & D); [intros ->; apply Hv; left; reflexivity|].
      rewrite E in A. injection A as <-.
      destruct (k_prev _ _ _ _ _ _ HK v Hs Hv) as (u' & A' & Hu & _). rewrite E in A'. injection A' as <-.
      destruct (IH Hu) as (X1 & X2 & X3 & X4). simpl rev.
      split; [apply (chain_snoc _ _ _ u); [assumption|assumption|rewrite X3; exists c; assumption]|].
      split; [|split; [apply last_last|intros Hx; destruct (rev p); discriminate]].
      rewrite (plen_snoc _ _ u) by assumption. rewrite X3. cbn [length pow].
      pose proof (pow_H_ge1 (length p)) as Hq. pose proof (elen_pos u v).
      apply Rle_trans with ((key (dist (si s u)) + elen u v) * H ^ length p); [nra|].
      replace (key (dist (si s v)) * (H * H ^ length p)) with (key (dist (si s v)) * H * H ^ length p) by ring.
      apply Rmult_le_compat_r; lra.
  Qed.

  Lemma trace_ext f g v p : (forall w, prev (g w) = prev (f w)) -> trace f v p -> trace g v p.
  Proof.
    intros Hg. induction 1 as [w Hw|w u q Hw Eq Hq IH]; [constructor; assumption|].
    apply (tr_step _ _ w u); [assumption|rewrite Hg; assumption|assumption].
  Qed.
  Lemma trace_head f v p : trace f v p -> hd_error (rev p) = Some s0.
  Proof.
    induction 1 as [w [<-|[]]|w u q' Hw Eq Hq IH]; [reflexivity|]. simpl. destruct (rev q') as [|b r]; [discriminate|]. exact IH.
  Qed.

  (** The path found is hardly longer than the largest estimate along any other path. *)
  Definition bounded (p : list V) : Prop :=
    exists t, last p s0 = t /\ is_goal t = true /\ hd_error p = Some s0 /\ chain edge p /\ NoDup p /\
    forall q g B, chain edge q -> hd_error q = Some s0 -> last q s0 = g -> is_goal g = true -> below B 0 q ->
    plen elen p + hR t <= B * H ^ (length p + length q + 3).

  Lemma loop_bounded fuel : forall n s p s', K s -> M (fun _ => False) s -> sc s = [] ->
    loop fuel n s = (GPath V p, s') -> p <> [] -> bounded p.
  Proof.
    induction fuel as [|k IH]; intros n s p s' HK HM Hc E Hne; [discriminate|]. cbn [GenericSearch.loop] in E.
    assert (Hfin : forall s x, sc s = [] -> (finish V C veqb all [s0] best s, s) = (GPath V p, x) -> False).
    { intros sx x Hsx Ex. unfold GenericSearch.finish in Ex. rewrite Hsx in Ex.
      destruct (best []) as [b|] eqn:Eb; [destruct (Hbest _ _ Eb) as (? & [])|]. injection Ex as <- _. congruence. }
    destruct (so s) as [|v0 o0] eqn:Eo; [destruct (Hfin _ _ Hc E)|].
    rewrite <- Eo in E. pose proof (Hpop (total (si s)) (so s)) as Hp. pose proof (Hmin (total (si s)) (so s)) as Hm.
    destruct (pop (total (si s)) (so s)) as [[cur o]|]; [|discriminate].
    destruct Hp as (Hp1 & _ & Hp3 & Hp4).
    assert (Htot : forall w, In w (so s) -> ok (total (si s) w)).
    { intros w Hw. assert (Hsw : seen s w) by (apply (k_list _ _ _ _ _ _ HK); assumption).
      unfold GenericSearch.total. apply T_ok; [apply (k_ok _ _ _ _ _ _ HK w Hsw)|].
      destruct (m_h _ _ HM w Hw) as [->|[_ ->]]; [|exact okh_zero]. apply h_ok. apply (k_all _ _ _ _ _ _ HK). exact Hsw. }
    specialize (Hm cur o Htot eq_refl).
    assert (Hcs : seen s cur) by (apply (k_list _ _ _ _ _ _ HK); assumption).
    assert (Hca : In cur all) by (apply (k_all _ _ _ _ _ _ HK); assumption).
    destruct (close_K veqb veqb_spec all zero lt hval [s0] true ok s cur o HK Hcs Hp4 Hp3) as (HK1 & _ & Hs1).
    set (s1 := close s cur o) in *.
    assert (Ei : forall w, dist (si s1 w) = dist (si s w) /\ prev (si s1 w) = prev (si s w)).
    { intros w. unfold s1, GenericSearch.close. cbn [s_info]. destruct (sdec w cur) as [->|Hn];
        [rewrite setn_same by exact veqb_spec; auto|rewrite setn_other by (exact veqb_spec || assumption); auto]. }
    assert (Hexp : forall ex : V -> Prop, (forall w, seen s w -> In w (so s) \/ relaxed s w -> In w o \/ ex w \/ relaxed s1 w) -> M ex s1).
    { intros ex Hx. constructor.
      - intros w Hw Hn. apply Hs1 in Hw. destruct (m_prev _ _ HM w Hw Hn) as (u & c & A & B & D). exists u, c.
        destruct (Ei w) as (-> & ->), (Ei u) as (-> & _). auto.
      - intros w Hw. apply Hs1 in Hw. apply Hx; [assumption|]. destruct (m_exp _ _ HM w Hw) as [|[[]|]]; auto.
      - intros w Hw. unfold s1, GenericSearch.close. cbn [s_info]. destruct (sdec w cur) as [->|Hn].
        + rewrite setn_same by exact veqb_spec. left. reflexivity.
        + rewrite setn_other by (exact veqb_spec || assumption). apply (m_h _ _ HM). apply Hp3. exact Hw. }
    assert (Hrel : forall w, relaxed s w -> relaxed s1 w).
    { intros w [A B]. split; [assumption|]. intros x c Hx. destruct (B x c Hx). destruct (Ei x) as (-> & _), (Ei w) as (-> & _).
      split; [apply Hs1; assumption|assumption]. }
    destruct (is_goal cur) eqn:Eg; cbn [negb andb] in E.
    - (* accepted *)
      destruct (k_trace _ _ _ _ _ _ HK1 cur) as (tr & Htr); [apply Hs1; assumption|].
      assert (Hlen : (length tr <= length all)%nat).
      { apply NoDup_incl_length; [eapply trace_nodup; eassumption|]. intros x Hx. apply (k_all _ _ _ _ _ _ HK1).
        apply (trace_seen all zero add lt nbr [s0] ok Hao s1 cur tr HK1 Htr); [apply Hs1; assumption|assumption]. }
      assert (Eb : backtrack (si s1) cur = Some (rev tr)).
      { unfold GenericSearch.backtrack. rewrite (bt_trace veqb veqb_spec [s0] (si s1) cur tr).
        - rewrite app_nil_r. reflexivity.
        - intros w Hw. rewrite (proj2 (k_start _ _ _ _ _ _ HK1 w Hw)). discriminate.
        - assumption.
        - lia.
        - intros x _ []. }
      rewrite Eb in E.
      assert (Htr' : trace (si s) cur tr).
      { apply (trace_ext (si s1)); [|assumption]. intros w. symmetry. apply Ei. }
      destruct (trace_cost s cur tr HK HM Htr' Hcs) as (X1 & X2 & X3 & X4).
      assert (Hnd : NoDup (rev tr)) by (apply NoDup_rev; eapply trace_nodup; eassumption).
      assert (Hln : length tr = length (rev tr)) by (rewrite rev_length; reflexivity). rewrite Hln in X2. clear Hln.
      destruct (rev tr) as [|a q] eqn:Er; [contradiction|]. injection E as <- <-.
      assert (Hhd : hd_error (a :: q) = Some s0).
      { rewrite <- Er. eapply trace_head. eassumption. }
      exists cur. split; [rewrite (last_indep _ s0 cur); [assumption|discriminate]|].
      split; [assumption|]. split; [assumption|]. split; [assumption|]. split; [assumption|].
      intros q' g B Hq Hhq Hlq Hgq Hbl. assert (HL : 0 <= B).
      { apply (below_pos B 0 q'); [lra|intros ->; discriminate|exact Hbl]. }
      set (P := a :: q) in *. clearbody P.
      assert (Hs0 : seen s s0) by (apply (k_starts _ _ _ _ _ _ HK); left; reflexivity).
      assert (Hd0 : dist (si s s0) = zero) by (apply (k_start _ _ _ _ _ _ HK s0); left; reflexivity).
      pose proof (pow_H_ge1 (length P)) as HPp. pose proof (pow_H_ge1 (length q')) as HPq. pose proof (pow_H_ge1 3) as HP3.
      pose proof (pow_H_ge1 (length P + length q' + 3)) as HPn. pose proof (plen_pos q') as Lq.
      destruct (sdec cur s0) as [->|Hn].
      + destruct q' as [|b0 q']; [discriminate|]. injection Hhq as ->. destruct Hbl as [Hbl _]. rewrite Hd0, key_zero in X2. rewrite Rplus_0_l in Hbl. pose proof (h_pos s0). nra.
      + destruct (frontier s B q' HK HM Hq s0 g 0 0 Hhq Hs0 ltac:(lra) ltac:(rewrite Hd0, key_zero; lra) Hlq Hgq Hbl) as (z & Z1 & Z2).
        specialize (Hm z Z1). unfold GenericSearch.total in Hm.
        destruct (m_h _ _ HM cur Hp1) as [Hh|[Hh _]]; [|contradiction].
        assert (Hzs : seen s z) by (apply (k_list _ _ _ _ _ _ HK); exact Z1).
        assert (Hza : In z all) by (apply (k_all _ _ _ _ _ _ HK); exact Hzs).
        destruct (h_ok z Hza) as (Oz & Zhi & Zlo). destruct (h_ok cur Hca) as (Oc & Chi & Clo).
        assert (Okz : okh (hh (si s z)) /\ key (hh (si s z)) <= hR z * H).
        { destruct (m_h _ _ HM z Z1) as [->|[_ ->]]; [split; assumption|]. split; [exact okh_zero|].
          rewrite key_zero. pose proof (h_pos z). nra. }
        destruct Okz as [Okz Zh]. rewrite Hh in Hm.
        assert (Odz : ok (dist (si s z))) by apply (k_ok _ _ _ _ _ _ HK z Hzs).
        assert (Odc : ok (dist (si s cur))) by apply (k_ok _ _ _ _ _ _ HK cur Hcs).
        set (tz := tot (dist (si s z)) (hh (si s z))) in *. set (tc := tot (dist (si s cur)) (hval cur)) in *.
        assert (Hle : key tc <= key tz).
        { apply Rnot_lt_le. intros G. apply key_lt in G; [congruence|apply T_ok; assumption|apply T_ok; assumption]. }
        pose proof (T_hi _ _ Odz Okz) as Th. pose proof (T_lo _ _ Odc Oc) as Tl. fold tz in Th. fold tc in Tl.
        pose proof (key_pos _ Odc) as P1. pose proof (key_pos _ (okh_ok _ Oc)) as P2. pose proof (key_pos _ Odz) as P3. pose proof (h_pos z) as P4.
        change (0 + length q')%nat with (length q') in Z2. rename B into L.
        set (Qn := H ^ length q') in *. set (Pn := H ^ length P) in *.
        assert (E1 : key tz <= L * Qn * H * H).
        { apply Rle_trans with ((key (dist (si s z)) + hR z) * H * H); [|].
          - apply Rle_trans with ((key (dist (si s z)) + key (hh (si s z))) * H); [exact Th|]. apply Rmult_le_compat_r; nra.
          - apply Rmult_le_compat_r; [lra|]. apply Rmult_le_compat_r; lra. }
        assert (E2 : plen elen P + hR cur <= key tc * H * Pn).
        { apply Rle_trans with ((key (dist (si s cur)) + key (hval cur)) * Pn).
          - assert (hR cur <= key (hval cur) * Pn); [|nra]. eapply Rle_trans; [exact Clo|]. apply Rmult_le_compat_l; [exact P2|].
            unfold Pn. destruct P as [|p0 P']; [discriminate|]. cbn [length pow]. pose proof (pow_H_ge1 (length P')). nra.
          - apply Rmult_le_compat_r; [lra|exact Tl]. }
        eapply Rle_trans; [exact E2|]. rewrite !pow_add. fold Pn Qn. cbn [pow]. rewrite Rmult_1_r.
        replace (L * (Pn * Qn * (H * (H * H)))) with (L * Qn * H * H * H * Pn) by ring.
        apply Rmult_le_compat_r; [lra|]. apply Rmult_le_compat_r; lra.
    - destruct (process_all cur (nbr cur) s1) as [s3|] eqn:E3; [|discriminate].
      assert (HM1 : M (fun w => w = cur) s1).
      { apply Hexp. intros w Hw [A|A]; [|right; right; auto]. destruct (Hp4 w A); auto. }
      destruct (process_all_M _ cur (nbr cur) s1 s3 HK1 HM1) as (HK3 & HM3 & D3 & L3 & W3 & C3);
        [apply Hs1; assumption|assumption|apply incl_refl|reflexivity|exact E3|].
      apply (IH (S n) s3 p s' HK3); [|rewrite C3; exact Hc|exact E|assumption].
      destruct HM3 as [Mp Me Mh]. constructor; [assumption| |assumption].
      intros w Hw. destruct (Me w Hw) as [A|[->|A]]; [left; assumption| |right; right; assumption].
      right. right. split; [assumption|]. intros x c Hx. rewrite D3. apply (L3 x c). assumption.
  Qed.

  (** With its termination. *)
  Lemma run_bounded first : exists fuel p s',
    run fuel (fun _ => fresh_info V C zero inf) first = (GPath V p, s') /\
    (p = [] <-> ~ goal_reachable nbr [s0] is_goal) /\ (p <> [] -> bounded p).
  Proof.
    assert (Hst : incl [s0] all) by (intros x [<-|[]]; assumption).
    destruct (run_complete veqb veqb_spec all zero inf add lt tot nbr hval push pop Hpush Hpop [s0] is_goal true false over gdist best
      timeout Hbest ok Hao nbr_all Hst best_some (fun _ => eq_refl) first) as (fuel & p & s' & E & Hp).
    exists fuel, p, s'. split; [assumption|]. split; [assumption|]. intros Hne.
    destruct (fresh_K veqb veqb_spec all zero inf add lt tot nbr push Hpush [s0] is_goal ok Hao Hst first) as (HK & _ & _).
    unfold GenericSearch.run in E. eapply loop_bounded; [exact HK| |reflexivity|exact E|exact Hne].
    set (s := init_search _ _ _ _ _ _ _ _ _) in *.
    assert (Hseen : forall v, seen s v -> v = s0).
    { intros v Hv. unfold s, GenericSearch.init_search in Hv. cbn [add_starts] in Hv. unfold GenericProofs.seen in Hv. cbn [s_info] in Hv.
      destruct (sdec v s0) as [|Hn]; [assumption|]. rewrite setn_other in Hv by (exact veqb_spec || assumption). destruct Hv; discriminate. }
    constructor.
    - intros v Hv Hn. apply Hseen in Hv. contradiction.
    - intros v Hv. left. apply (k_open _ _ _ _ _ _ HK). apply Hseen in Hv. subst v. unfold s, GenericSearch.init_search.
      cbn [add_starts s_info]. rewrite setn_same by exact veqb_spec. reflexivity.
    - intros v Hv. right. apply (k_list _ _ _ _ _ _ HK), Hseen in Hv. subst v. split; [reflexivity|].
      unfold s, GenericSearch.init_search. cbn [add_starts s_info]. rewrite setn_same by exact veqb_spec. reflexivity.
  Qed.

  (** The heuristic never exceeds the length of a way to an accepted node plus its value there. *)
  Hypothesis h_adm : forall p v t, In v all -> chain edge p -> hd_error p = Some v -> last p v = t -> is_goal t = true -> hR v <= plen elen p + hR t.
  Definition optimal (p : list V) : Prop :=
    exists t, last p s0 = t /\ is_goal t = true /\ hd_error p = Some s0 /\ chain edge p /\ NoDup p /\
    forall q g, chain edge q -> hd_error q = Some s0 -> last q s0 = g -> is_goal g = true ->
    plen elen p + hR t <= (plen elen q + hR g) * H ^ (length p + length q + 3).
  Lemma adm_below g q : is_goal g = true -> forall v a, In v all -> chain edge q -> hd_error q = Some v -> last q v = g ->
    below (a + plen elen q + hR g) a q.
  Proof.
    intros Hg. induction q as [|v0 q IH]; intros v a Hva Hc Hh Hl; [discriminate|]. injection Hh as ->.
    pose proof (h_adm _ v g Hva Hc eq_refl Hl Hg) as G. split; [lra|]. destruct q as [|w q]; [exact Logic.I|].
    destruct Hc as [[c Hin] Hc]. change (plen elen (v :: w :: q)) with (elen v w + plen elen (w :: q)).
    replace (a + (elen v w + plen elen (w :: q)) + hR g) with (a + elen v w + plen elen (w :: q) + hR g) by ring.
    apply (IH w); [eapply nbr_all; eassumption|exact Hc|reflexivity|]. rewrite <- Hl. apply (last_indep (w :: q) w v). discriminate.
  Qed.
  (** C21, with its termination. *)
  Lemma run_optimal first : exists fuel p s',
    run fuel (fun _ => fresh_info V C zero inf) first = (GPath V p, s') /\
    (p = [] <-> ~ goal_reachable nbr [s0] is_goal) /\ (p <> [] -> optimal p).
  Proof.
    destruct (run_bounded first) as (fuel & p & s' & E & Hp & Hb). exists fuel, p, s'. split; [exact E|]. split; [exact Hp|].
    intros Hne. destruct (Hb Hne) as (t & A1 & A2 & A3 & A4 & A5 & A6). exists t.
    split; [exact A1|]. split; [exact A2|]. split; [exact A3|]. split; [exact A4|]. split; [exact A5|].
    intros q g Hq Hh Hl Hg. apply (A6 q g); try assumption. pose proof (adm_below g q Hg s0 0 s0_all Hq Hh Hl) as G.
    rewrite Rplus_0_l in G. exact G.
  Qed.
End Round.
