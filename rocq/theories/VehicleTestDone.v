(** When a vehicle search (VehicleTest.v) has no more to do: every node offered from a pose
    it asked about was asked about. *)
From Coq Require Import Reals Lra.
From Verif Require Import Base GeomR GenericProofs VehicleSearch VehicleProofs VehicleTest VehicleTestProofs.
Local Open Scope R_scope.

Section Done.
  Context {V P M T : Type}.
  Variable veqb : V -> V -> bool.
  Hypothesis veqb_spec : forall a b, reflect (a = b) (veqb a b).
  Variable moves : list M.
  Variable reach : nat.
  Variable offer : P -> list P -> M -> option (option (V * R * P)).
  Variable hval : P -> P -> R.
  Variable tot : R -> R -> R.
  Variable push : (V -> R) -> V -> list V -> list V.
  Variable pop : (V -> R) -> list V -> option (V * list V).
  Hypothesis Hpush : push_ok push.
  Hypothesis Hpop : pop_ok pop.
  Variable start goals : list V.
  Variable hgoal : option P.
  Variable osd : R.
  Variable queue : list (V * R) -> list (V * R).
  Variable term : T -> (V -> vinfo V P) -> V -> option (T * list R * vanswer).
  Variable timeout : nat -> bool.
  Hypothesis Htime : forall n, timeout n = false.
  Variable bf : nat.
  Notation wcall := (wcall V P).
  Notation inf := (v_info V P).
  Notation opn := (v_open V P).
  Notation npay := (n_pay V P).
  Notation wloop := (wloop V P M T veqb moves reach offer hval tot push pop start goals hgoal osd queue term timeout bf).
  Notation vexpand := (vexpand V P M veqb reach offer hval tot push goals).

  (** Open nodes are in the open list. *)
  Definition listed (s : vstate V P) : Prop := forall v, n_open V P (inf s v) = true -> In v (opn s).
  Definition met (s : vstate V P) (v : V) : Prop := n_open V P (inf s v) = true \/ n_closed V P (inf s v) = true.

  Lemma process_done cur s v c p s' : vprocess V P veqb hval tot push goals cur s (v, c, p) = Some s' -> listed s ->
    listed s' /\ npay (inf s' cur) = npay (inf s cur) /\ met s' v /\ (forall u, met s u -> met s' u) /\ (forall u, n_closed V P (inf s' u) = n_closed V P (inf s u)).
  Proof using veqb_spec Hpush.
    unfold vprocess. set (closer := match n_dist V P (inf s v) with None => true | Some d' => _ end). intros E HO.
    destruct (n_closed V P (inf s v)) eqn:Ec; cbn [andb] in E.
    - destruct closer; cbn [negb] in E; [|injection E as <-; split; [exact HO|]; split; [reflexivity|]; split; [right; exact Ec|]; split; auto].
      rewrite orb_true_r in E. destruct (veqb_spec v cur) as [->|N]; [discriminate|]. injection E as <-. cbn [v_info v_open].
      set (n := VI V P _ _ _ _ _ p). unfold listed, met. cbn [v_info v_open].
      assert (Fv : vset V P veqb (vset V P veqb (inf s) v (VI V P (Some (vdist V P (inf s) cur + c)) (new_h V P hval goals (inf s) v) (Some cur) true true (npay (inf s v)))) v n v = n) by (unfold vset; destruct (veqb_spec v v); [reflexivity|contradiction]).
      assert (Fw : forall w, w <> v -> vset V P veqb (vset V P veqb (inf s) v (VI V P (Some (vdist V P (inf s) cur + c)) (new_h V P hval goals (inf s) v) (Some cur) true true (npay (inf s v)))) v n w = inf s w) by (intros w Hw; unfold vset; destruct (veqb_spec w v); [contradiction|reflexivity]).
      split; [|split; [rewrite Fw by congruence; reflexivity|split; [left; rewrite Fv; reflexivity|split]]].
      + intros w Hw. apply (Hpush _ v (opn s)). destruct (veqb_spec w v) as [->|Hn]; [left; reflexivity|right]. rewrite Fw in Hw by exact Hn. apply HO. exact Hw.
      + intros u Hu. destruct (veqb_spec u v) as [->|Hn]; [left; rewrite Fv; reflexivity|rewrite Fw by exact Hn; exact Hu].
      + intros u. destruct (veqb_spec u v) as [->|Hn]; [rewrite Fv; symmetry; exact Ec|rewrite Fw by exact Hn; reflexivity].
    - destruct (negb (n_open V P (inf s v)) || closer) eqn:Eo.
      2:{ injection E as <-. split; [exact HO|]. split; [reflexivity|]. split; [|split; auto]. left. apply orb_false_iff in Eo. destruct Eo as [Eo _]. apply negb_false_iff. exact Eo. }
      destruct (veqb_spec v cur) as [->|N]; [discriminate|]. injection E as <-. cbn [v_info v_open].
      set (n := VI V P _ _ _ _ _ p). unfold listed, met. cbn [v_info v_open].
      assert (Fv : vset V P veqb (vset V P veqb (inf s) v (VI V P (Some (vdist V P (inf s) cur + c)) (new_h V P hval goals (inf s) v) (Some cur) true false (npay (inf s v)))) v n v = n) by (unfold vset; destruct (veqb_spec v v); [reflexivity|contradiction]).
      assert (Fw : forall w, w <> v -> vset V P veqb (vset V P veqb (inf s) v (VI V P (Some (vdist V P (inf s) cur + c)) (new_h V P hval goals (inf s) v) (Some cur) true false (npay (inf s v)))) v n w = inf s w) by (intros w Hw; unfold vset; destruct (veqb_spec w v); [contradiction|reflexivity]).
      split; [|split; [rewrite Fw by congruence; reflexivity|split; [left; rewrite Fv; reflexivity|split]]].
      + intros w Hw. apply (Hpush _ v (opn s)). destruct (veqb_spec w v) as [->|Hn]; [left; reflexivity|right]. rewrite Fw in Hw by exact Hn. apply HO. exact Hw.
      + intros u Hu. destruct (veqb_spec u v) as [->|Hn]; [left; rewrite Fv; reflexivity|rewrite Fw by exact Hn; exact Hu].
      + intros u. destruct (veqb_spec u v) as [->|Hn]; [rewrite Fv; symmetry; exact Ec|rewrite Fw by exact Hn; reflexivity].
  Qed.

  Lemma expand_done cur : forall ms s s', vexpand cur ms s = Some s' -> listed s ->
    listed s' /\ (forall u, met s u -> met s' u) /\ (forall u, n_closed V P (inf s' u) = n_closed V P (inf s u)) /\
    forall mv, In mv ms -> exists qs, forall v c n, offer (npay (inf s cur)) qs mv = Some (Some (v, c, n)) -> met s' v.
  Proof using veqb_spec Hpush.
    induction ms as [|mv ms IH]; intros s s' E HO; cbn [VehicleSearch.vexpand] in E.
    - injection E as <-. split; [exact HO|]. split; [auto|]. split; [auto|intros mv []].
    - destruct (offer (npay (inf s cur)) (prevs V P reach (inf s) cur) mv) as [[[[v c] p]|]|] eqn:Eo; cbn [obind] in E; [| |discriminate].
      + destruct (vprocess V P veqb hval tot push goals cur s (v, c, p)) as [s1|] eqn:Ep; [|discriminate]. cbn [obind] in E.
        destruct (process_done cur s v c p s1 Ep HO) as (H1 & H2 & H3 & H4 & H5). destruct (IH s1 s' E H1) as (K1 & K2 & K3 & K4).
        split; [exact K1|]. split; [intros u Hu; apply K2, H4, Hu|]. split; [intros u; rewrite K3; apply H5|].
        intros mv' [<-|Hin].
        * exists (prevs V P reach (inf s) cur). intros v' c' n' E'. rewrite Eo in E'. injection E' as <- <- <-. apply K2. exact H3.
        * destruct (K4 mv' Hin) as (qs & Hq). exists qs. rewrite H2 in Hq. exact Hq.
      + destruct (IH s s' E HO) as (K1 & K2 & K3 & K4). split; [exact K1|]. split; [exact K2|]. split; [exact K3|].
        intros mv' [<-|Hin]; [|apply K4; exact Hin]. exists (prevs V P reach (inf s) cur). intros v' c' n' E'. rewrite Eo in E'. discriminate.
  Qed.

  Lemma loop_done : forall fuel n t ws r ws' log prev, wloop fuel n t ws = (r, ws', log) -> (exists path, r = VPath V P path) ->
    listed (ws_s V P ws) -> (forall v, n_closed V P (inf (ws_s V P ws) v) = true -> In v prev) ->
    (forall c, In c log -> wc_ans V P c = AGo) ->
    (osd = 0 \/ forall l0 c F, log = l0 ++ [c] -> (match ws_cand V P ws with [] => first_total log | _ => Some (ws_first V P ws) end) = Some F -> wc_total V P c <= F + osd) ->
    (forall v, met (ws_s V P ws) v -> In v (prev ++ map (wc_node V P) log)) /\
    forall c mv, In c log -> In mv moves -> exists qs, forall v d n, offer (wc_pay V P c) qs mv = Some (Some (v, d, n)) -> In v (prev ++ map (wc_node V P) log).
  Proof using veqb_spec Hpush Hpop Htime.
    induction fuel as [|k IH]; intros n t ws r ws' log prev E [path ->] HO Hcl Hgo Hwin; cbn [VehicleTest.wloop] in E; [discriminate|].
    destruct (opn (ws_s V P ws)) as [|x0 o0] eqn:Eop.
    { injection E as _ _ <-. split; [|intros c mv []]. cbn [map]. rewrite app_nil_r. intros v [Hv|Hv]; [apply HO in Hv; rewrite Eop in Hv; destruct Hv|apply Hcl; exact Hv]. }
    rewrite Htime, <- Eop in E. pose proof (Hpop (vtotal V P tot (inf (ws_s V P ws))) (opn (ws_s V P ws))) as Hp.
    destruct (pop _ _) as [[cur o]|]; [|discriminate]. destruct Hp as (_ & _ & _ & Hrest). cbv zeta in E.
    set (s1 := wclose V P veqb hval goals hgoal (ws_s V P ws) cur o) in *.
    assert (Fw : forall w, w <> cur -> inf s1 w = inf (ws_s V P ws) w) by (intros w Hw; unfold s1, wclose, vset; cbn [v_info]; destruct (veqb_spec w cur); [contradiction|reflexivity]).
    assert (Fc : n_open V P (inf s1 cur) = false /\ n_closed V P (inf s1 cur) = true) by (unfold s1, wclose, vset; cbn [v_info]; destruct (veqb_spec cur cur); [split; reflexivity|contradiction]).
    assert (HO1 : listed s1).
    { intros w Hw. destruct (veqb_spec w cur) as [->|N]; [destruct Fc as [X _]; rewrite X in Hw; discriminate|]. rewrite (Fw w N) in Hw. apply HO in Hw. destruct (Hrest w Hw); [contradiction|]. exact H. }
    assert (Hm1 : forall u, met (ws_s V P ws) u -> met s1 u).
    { intros u Hu. destruct (veqb_spec u cur) as [->|N]; [right; apply Fc|unfold met; rewrite (Fw u N); exact Hu]. }
    assert (Hcl1 : forall v, n_closed V P (inf s1 v) = true -> In v (prev ++ [cur])).
    { intros v Hv. apply in_or_app. destruct (veqb_spec v cur) as [->|N]; [right; left; reflexivity|left]. rewrite (Fw v N) in Hv. apply Hcl. exact Hv. }
    destruct (term t (inf s1) cur) as [[[t' cs] ans]|]; [|discriminate].
    destruct (wadd_spec tot cur cs (WS V P s1 (ws_cand V P ws) (ws_first V P ws))) as (A1 & A2 & A3). cbn [ws_s ws_cand ws_first] in A1, A2, A3.
    set (ws2 := wadd V P tot (WS V P s1 (ws_cand V P ws) (ws_first V P ws)) cur cs) in *.
    set (ev := WC V P cur (npay (inf s1 cur)) (vtotal V P tot (inf s1) cur) cs ans) in *.
    destruct ans.
    2:{ exfalso. injection E as _ _ <-. specialize (Hgo ev (or_introl eq_refl)). discriminate. }
    2:{ exfalso. destruct (vback _ _ _ _ _ _ _ _) as [[|y l]|]; [| |discriminate]; injection E as _ _ <-; specialize (Hgo ev (or_introl eq_refl)); discriminate. }
    destruct (wover V P tot osd ws2 cur) eqn:Ew.
    { exfalso. injection E as _ _ <-. unfold wover in Ew. rewrite A1, A2, A3 in Ew. destruct (Req_EM_T osd 0) as [|No]; [discriminate|]. destruct Hwin as [|Hwin]; [contradiction|]. cbn [andb] in Ew.
      specialize (Hwin [] ev). cbn [app first_total wc_cands wc_total ev] in Hwin. destruct (ws_cand V P ws) as [|x l].
      - destruct cs as [|w cs']; [discriminate|]. cbn [map app] in Ew. cbn [andb] in Ew. apply Rltb_spec in Ew. specialize (Hwin _ eq_refl eq_refl). lra.
      - cbn [app andb] in Ew. apply Rltb_spec in Ew. specialize (Hwin _ eq_refl eq_refl). lra. }
    destruct (vexpand cur moves s1) as [s2|] eqn:Ee; [|discriminate].
    destruct (expand_done cur moves s1 s2 Ee HO1) as (K1 & K2 & K3 & K4).
    destruct (wloop k (S n) t' (WS V P s2 (ws_cand V P ws2) (ws_first V P ws2))) as [[r1 w1] l1] eqn:E1. injection E as -> <- <-.
    destruct (IH _ _ _ _ _ _ (prev ++ [cur]) E1 (ex_intro _ path eq_refl) K1) as [B1 B2].
    - intros v Hv. cbn [ws_s] in Hv. rewrite K3 in Hv. apply Hcl1. exact Hv.
    - intros c Hc. apply Hgo. right. exact Hc.
    - destruct Hwin as [Hz|Hwin]; [left; exact Hz|right]. intros l0 c F El EF. apply (Hwin (ev :: l0) c F); [cbn [app]; rewrite El; reflexivity|].
      cbn [ws_cand ws_first] in EF. rewrite A2, A3 in EF. cbn [first_total wc_cands wc_total ev]. destruct (ws_cand V P ws) as [|x l]; [|exact EF].
      destruct cs; [exact EF|]. exact EF.
    - cbn [ws_s] in B1. rewrite <- app_assoc in B1, B2. cbn [app map] in *. split; [intros v Hv; apply B1, K2, Hm1, Hv|].
      intros c mv [<-|Hc] Hmv; [|apply B2; assumption]. destruct (K4 mv Hmv) as (qs & Hq). exists qs. intros v d n0 Eq. apply B1. apply (Hq v d n0). exact Eq.
  Qed.

  Lemma run_done fuel t pay r ws' log : wrun V P M T veqb moves reach offer hval tot push pop start goals hgoal osd queue term timeout bf fuel t pay = (r, ws', log) -> (exists path, r = VPath V P path) ->
    (forall c, In c log -> wc_ans V P c = AGo) -> (osd = 0 \/ forall l0 c F, log = l0 ++ [c] -> first_total log = Some F -> wc_total V P c <= F + osd) ->
    (forall v, In v start -> In v (map (wc_node V P) log)) /\
    forall c mv, In c log -> In mv moves -> exists qs, forall v d n, offer (wc_pay V P c) qs mv = Some (Some (v, d, n)) -> In v (map (wc_node V P) log).
  Proof using veqb_spec Hpush Hpop Htime.
    unfold wrun. intros E Hr Hgo Hwin. destruct (starts_spec veqb veqb_spec tot push Hpush start (VS V P (vfresh V P pay) [])) as (A & B & D).
    set (s0 := vstarts _ _ _ _ _ _ _) in *. clearbody s0.
    assert (Din : forall v, In v start \/ inf s0 v = vfresh V P pay v).
    { intros v. destruct (existsb (veqb v) start) eqn:X.
      - left. apply existsb_exists in X. destruct X as (w & Hw & Y). destruct (veqb_spec v w) as [->|]; [exact Hw|discriminate].
      - right. apply B. intros Hv. assert (Y : existsb (veqb v) start = true) by (apply existsb_exists; exists v; split; [exact Hv|destruct (veqb_spec v v); [reflexivity|contradiction]]). congruence. }
    destruct (loop_done fuel 0 t (WS V P s0 [] 0) r ws' log [] E Hr) as [C1 C2]; cbn [ws_s ws_cand]; try assumption.
    - intros v Hv. destruct (Din v) as [Hs|Ef]; [apply A; right; exact Hs|rewrite Ef in Hv; discriminate].
    - intros v Hv. destruct (Din v) as [Hs|Ef]; [|rewrite Ef in Hv; discriminate]. destruct (D v Hs) as (h & Ef). rewrite Ef in Hv. discriminate.
    - cbn [app] in *. split; [|exact C2]. intros v Hv. apply C1. left. cbn [ws_s]. destruct (D v Hv) as (h & ->). reflexivity.
  Qed.
End Done.
