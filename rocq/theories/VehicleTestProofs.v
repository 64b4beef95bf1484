(** Invariants of the vehicle search with candidates and goal tests (VehicleTest.v). *)
From Coq Require Import Reals Lra Permutation Sorted.
From Verif Require Import Base GeomR PathSpec GenericProofs VehicleSearch VehicleProofs VehicleAny VehicleTest.
Local Open Scope R_scope.

(** A priority queue: the same candidates, the least weight first. *)
Definition queue_ok {V} (queue : list (V * R) -> list (V * R)) : Prop :=
  forall l, Permutation l (queue l) /\ StronglySorted (fun a b => snd a <= snd b) (queue l).

Section Common.
  Context {V P T : Type}.
  Notation wcall := (wcall V P).
  Notation wstate := (wstate V P).
  (** The candidates added by the calls. *)
  Definition cands_of (log : list wcall) : list (V * R) := flat_map (fun c => map (fun w => (wc_node V P c, w)) (wc_cands V P c)) log.
  Lemma wadd_spec tot cur : forall l (ws : wstate), ws_s V P (wadd V P tot ws cur l) = ws_s V P ws /\
    ws_cand V P (wadd V P tot ws cur l) = ws_cand V P ws ++ map (fun w => (cur, w)) l /\
    ws_first V P (wadd V P tot ws cur l) = (match ws_cand V P ws, l with [], _ :: _ => vtotal V P tot (v_info V P (ws_s V P ws)) cur | _, _ => ws_first V P ws end).
  Proof.
    induction l as [|c l IH]; intros ws; cbn [wadd map]; [rewrite app_nil_r; repeat split; destruct (ws_cand V P ws); reflexivity|].
    destruct (IH (WS V P (ws_s V P ws) (ws_cand V P ws ++ [(cur, c)]) (match ws_cand V P ws with [] => vtotal V P tot (v_info V P (ws_s V P ws)) cur | _ => ws_first V P ws end))) as (A & B & D).
    rewrite A, B, D. cbn [ws_s ws_cand ws_first]. rewrite <- app_assoc. repeat split. destruct (ws_cand V P ws); reflexivity.
  Qed.
End Common.

Section AnyTest.
  Context {V P M T : Type}.
  Variable veqb : V -> V -> bool.
  Hypothesis veqb_spec : forall a b, reflect (a = b) (veqb a b).
  Variable moves : list M.
  Variable reach : nat.
  Variable offer : P -> list P -> M -> option (option (V * R * P)).
  Variable hval : P -> P -> R.
  Variable tot : R -> R -> R.
  Variable push : (V -> R) -> V -> list V -> list V.
  Variable pop : (V -> R) -> list V -> option (V * list V).
  Hypothesis Hpush : push_ok push.
  Hypothesis Hpop : pop_ok pop.
  Variable start goals : list V.
  Variable hgoal : option P.
  Variable osd : R.
  Variable queue : list (V * R) -> list (V * R).
  Hypothesis Hqueue : queue_ok queue.
  Variable term : T -> (V -> vinfo V P) -> V -> option (T * list R * vanswer).
  Variable timeout : nat -> bool.
  Variable bf : nat.
  Variable pay0 : V -> P.
  Variable all : list V.
  Variable gens : list R.
  Hypothesis gens_pos : forall c, In c gens -> 0 < c.
  Hypothesis start_all : incl start all.
  Notation rch := (rch moves offer start pay0).
  Hypothesis offer_gen : forall u q qs m v c p, rch u q -> In m moves -> offer q qs m = Some (Some (v, c, p)) -> In v all /\ In c gens.

  Notation vinfo := (vinfo V P).
  Notation vstate := (vstate V P).
  Notation inf := (v_info V P).
  Notation opn := (v_open V P).
  Notation nprev := (n_prev V P).
  Notation nclosed := (n_closed V P).
  Notation npay := (n_pay V P).
  Notation vdist := (vdist V P).
  Notation vtotal := (vtotal V P tot).
  Notation vexpand := (vexpand V P M veqb reach offer hval tot push goals).
  Notation vback := (vback V P veqb start).
  Notation vcopy := (vcopy V P).
  Notation wstate := (wstate V P).
  Notation wss := (ws_s V P).
  Notation wcand := (ws_cand V P).
  Notation wcall := (wcall V P).
  Notation cnode := (wc_node V P).
  Notation cpay := (wc_pay V P).
  Notation cans := (wc_ans V P).
  Notation wclose := (wclose V P veqb hval goals hgoal).
  Notation wadd := (wadd V P tot).
  Notation wfinish := (wfinish V P veqb start queue bf).
  Notation wloop := (wloop V P M T veqb moves reach offer hval tot push pop start goals hgoal osd queue term timeout bf).
  Notation wrun := (wrun V P M T veqb moves reach offer hval tot push pop start goals hgoal osd queue term timeout bf).
  Notation W := (W moves offer start pay0 all gens).
  Notation weak_drive := (weak_drive moves offer start pay0).

  Lemma wclose_eq s cur o : wclose s cur o = vclose V P veqb (fun _ _ => hclose V P hval goals hgoal (inf s) cur) [cur] s cur o.
  Proof using Type. reflexivity. Qed.

  (** A path to the node [v] that ends with the contents [p]. *)
  Definition arrived (path : list (V * P)) (v : V) (p : P) : Prop :=
    exists l, rev path = (v, p) :: l /\ weak_drive ((v, p) :: l) /\ rch v p /\ NoDup (map fst path).

  Lemma back_W s v l : W s -> nclosed (inf s v) = true -> vback bf (inf s) v [] [] = Some l ->
    l <> [] /\ arrived (vcopy (inf s) l) v (npay (inf s v)).
  Proof using veqb_spec.
    intros HW Hc Hb. destruct (w_trace veqb veqb_spec moves offer start pay0 all gens s HW v (or_intror Hc)) as (t & Ht & Htc).
    assert (Hst : forall w, In w start -> nprev (inf s w) = None) by (intros w Hw; apply (w_start _ _ _ _ _ _ s HW w Hw)).
    rewrite (vback_some veqb veqb_spec start (inf s) v (v :: t)) with (fuel := bf) (l := l); [|intros w Hw; rewrite (Hst w Hw); discriminate|assumption|assumption].
    split. { intros X. apply (f_equal (@length V)) in X. rewrite rev_length in X. discriminate. }
    exists (vcopy (inf s) t). unfold VehicleSearch.vcopy. rewrite map_rev, rev_involutive. split; [reflexivity|].
    split; [apply (trace_weak moves offer start pay0 all gens s HW v t Ht Htc (or_intror Hc))|]. split; [apply (w_rch _ _ _ _ _ _ s HW); right; assumption|].
    rewrite map_rev, map_map. cbn [fst]. rewrite map_id. apply NoDup_rev. apply (vtrace_nodup start (inf s) v). assumption.
  Qed.
  Lemma back_ok s v : W s -> nclosed (inf s v) = true -> (length all <= bf)%nat -> exists l, vback bf (inf s) v [] [] = Some l.
  Proof using veqb_spec.
    intros HW Hc Hbf. destruct (w_trace veqb veqb_spec moves offer start pay0 all gens s HW v (or_intror Hc)) as (t & Ht & Htc).
    exists (rev (v :: t) ++ []). apply vback_trace; [assumption| |assumption| |intros x _ []].
    - intros w Hw. destruct (w_start _ _ _ _ _ _ s HW w Hw) as (_ & _ & X & _). rewrite X. discriminate.
    - etransitivity; [|exact Hbf]. apply NoDup_incl_length; [apply (vtrace_nodup _ _ _ _ Ht)|]. intros x [<-|Hx]; apply (w_all _ _ _ _ _ _ s HW); right; auto.
  Qed.

  Definition closed_cands (ws : wstate) : Prop := forall v c, In (v, c) (wcand ws) -> nclosed (inf (wss ws) v) = true.

  Lemma finish_W ws path : W (wss ws) -> closed_cands ws -> wfinish ws = VPath V P path ->
    (path = [] /\ wcand ws = []) \/
    exists v c, In (v, c) (wcand ws) /\ (forall w d, In (w, d) (wcand ws) -> c <= d) /\ arrived path v (npay (inf (wss ws) v)) /\
      exists r, queue (wcand ws) = (v, c) :: r.
  Proof using veqb_spec Hqueue.
    intros HW Hc E. unfold VehicleTest.wfinish in E. destruct (Hqueue (wcand ws)) as [Hp Hs].
    destruct (queue (wcand ws)) as [|[v c] r].
    - injection E as <-. left. split; [reflexivity|]. apply Permutation_nil, Permutation_sym, Hp.
    - right. assert (Hin : In (v, c) (wcand ws)) by (apply (Permutation_in _ (Permutation_sym Hp)); left; reflexivity).
      destruct (vback bf (inf (wss ws)) v [] []) as [l|] eqn:Eb; [|discriminate]. injection E as <-.
      exists v, c. split; [assumption|]. split; [|split; [apply (back_W _ _ _ HW (Hc v c Hin) Eb)|eauto]].
      intros w d Hw. apply (Permutation_in _ Hp) in Hw. inversion Hs as [|? ? _ F]; subst.
      destruct Hw as [X|Hw]; [injection X as -> ->; lra|]. rewrite Forall_forall in F. apply (F (w, d) Hw).
  Qed.

  (** What holds at the end. *)
  Record ended (r : vres V P) (ws' : wstate) (log : list wcall) : Prop := {
    e_W : W (wss ws');
    e_closed : closed_cands ws';
    e_calls : forall c, In c log -> nclosed (inf (wss ws') (cnode c)) = true /\ rch (cnode c) (cpay c) /\ (In (cnode c) start -> cpay c = pay0 (cnode c)) /\
      exists t t' s, W s /\ nclosed (inf s (cnode c)) = true /\ cpay c = npay (inf s (cnode c)) /\ term t (inf s) (cnode c) = Some (t', wc_cands V P c, cans c);
    e_path : forall path, r = VPath V P path ->
      (exists l0 c, log = l0 ++ [c] /\ cans c = AReturn /\ path <> [] /\ arrived path (cnode c) (cpay c) /\
        exists t t' s l, vback bf (inf s) (cnode c) [] [] = Some l /\ path = vcopy (inf s) l /\ term t (inf s) (cnode c) = Some (t', wc_cands V P c, AReturn)) \/
      (r = wfinish ws' /\ forall c, In c log -> cans c <> AReturn) }.

  Lemma expand_step s cur o : W s -> pop (vtotal (inf s)) (opn s) = Some (cur, o) ->
    W (wclose s cur o) /\ nclosed (inf (wclose s cur o) cur) = true /\ (forall u, nclosed (inf s u) = true -> nclosed (inf (wclose s cur o) u) = true) /\
    npay (inf (wclose s cur o) cur) = npay (inf s cur).
  Proof using veqb_spec Hpop.
    intros HW Ep. rewrite wclose_eq. set (h := fun _ _ => _).
    destruct (close_W veqb veqb_spec moves offer h tot pop Hpop start [cur] pay0 all gens (fun _ => O) s cur o HW Ep) as (A & B & _).
    split; [exact A|]. split; [exact B|]. cbn [VehicleSearch.vclose v_info]. unfold VehicleSearch.vset. destruct (veqb_spec cur cur) as [_|]; [|contradiction]. split; [|reflexivity].
    intros u Hu. destruct (veqb_spec u cur); [reflexivity|assumption].
  Qed.

  Lemma loop_test : forall fuel n t ws r ws' log, W (wss ws) -> closed_cands ws -> wloop fuel n t ws = (r, ws', log) ->
    ended r ws' log /\ wcand ws' = wcand ws ++ cands_of log /\ forall u, nclosed (inf (wss ws) u) = true -> nclosed (inf (wss ws') u) = true.
  Proof using veqb_spec Hpush Hpop gens_pos offer_gen.
    destruct (rank_exists gens gens_pos) as (rank & Hr).
    induction fuel as [|k IH]; intros n t ws r ws' log HW Hcc E; cbn [VehicleTest.wloop] in E.
    { injection E as <- <- <-. split; [|split; [cbn [cands_of flat_map]; rewrite app_nil_r; reflexivity|auto]]. constructor; [assumption|assumption|intros c []|discriminate]. }
    assert (Fin : (wfinish ws, ws, []) = (r, ws', log) -> ended r ws' log /\ wcand ws' = wcand ws ++ cands_of log /\ forall u, nclosed (inf (wss ws) u) = true -> nclosed (inf (wss ws') u) = true).
    { intros X. injection X as <- <- <-. split; [|split; [cbn [cands_of flat_map]; rewrite app_nil_r; reflexivity|auto]].
      constructor; [assumption|assumption|intros c []|]. intros path _. right. split; [reflexivity|intros c []]. }
    destruct (opn (wss ws)) as [|w0 l0] eqn:Eo; [exact (Fin E)|]. destruct (timeout n); [exact (Fin E)|]. clear Fin. rewrite <- Eo in E.
    destruct (pop (vtotal (inf (wss ws))) (opn (wss ws))) as [[cur o]|] eqn:Ep.
    2:{ injection E as <- <- <-. split; [|split; [cbn [cands_of flat_map]; rewrite app_nil_r; reflexivity|auto]]. constructor; [assumption|assumption|intros c []|discriminate]. }
    destruct (expand_step (wss ws) cur o HW Ep) as (HW1 & Hc1 & Hm1 & _). cbv zeta in E. set (s1 := wclose (wss ws) cur o) in *.
    destruct (term t (inf s1) cur) as [[[t' cs] ans]|] eqn:Et.
    2:{ injection E as <- <- <-. cbn [ws_s]. split; [|split; [cbn [cands_of flat_map ws_cand]; rewrite app_nil_r; reflexivity|exact Hm1]].
        constructor; cbn [ws_s ws_cand]; [assumption|intros v c Hin; apply Hm1; apply (Hcc v c Hin)|intros c []|discriminate]. }
    destruct (wadd_spec tot cur cs (WS V P s1 (wcand ws) (ws_first V P ws))) as (A1 & A2 & _). cbn [ws_s ws_cand] in A1, A2.
    set (ws2 := wadd (WS V P s1 (wcand ws) (ws_first V P ws)) cur cs) in *.
    set (ev := WC V P cur (npay (inf s1 cur)) (vtotal (inf s1) cur) cs ans) in *.
    assert (Hcc2 : closed_cands ws2).
    { intros v c Hin. rewrite A1. rewrite A2 in Hin. apply in_app_iff in Hin. destruct Hin as [Hin|Hin]; [apply Hm1; apply (Hcc v c Hin)|].
      apply in_map_iff in Hin. destruct Hin as (w & X & _). injection X as <- _. exact Hc1. }
    assert (Hev : nclosed (inf (wss ws2) (cnode ev)) = true /\ rch (cnode ev) (cpay ev) /\ (In (cnode ev) start -> cpay ev = pay0 (cnode ev)) /\
      exists t t' s, W s /\ nclosed (inf s (cnode ev)) = true /\ cpay ev = npay (inf s (cnode ev)) /\ term t (inf s) (cnode ev) = Some (t', wc_cands V P ev, cans ev)).
    { rewrite A1. split; [exact Hc1|]. split; [apply (w_rch _ _ _ _ _ _ s1 HW1); right; exact Hc1|].
      split; [intros Hs; apply (w_start _ _ _ _ _ _ s1 HW1 cur Hs)|]. exists t, t', s1. split; [exact HW1|]. split; [exact Hc1|]. split; [reflexivity|exact Et]. }
    assert (Ecand : wcand ws2 = wcand ws ++ cands_of [ev]) by (rewrite A2; cbn [cands_of flat_map]; rewrite app_nil_r; reflexivity).
    assert (Hmono : forall u, nclosed (inf (wss ws) u) = true -> nclosed (inf (wss ws2) u) = true) by (rewrite A1; exact Hm1).
    assert (One : forall r0, (r0, ws2, [ev]) = (r, ws', log) -> (forall path, r0 = VPath V P path -> (ans = AReturn /\ path <> [] /\ arrived path cur (npay (inf s1 cur)) /\ exists l, vback bf (inf s1) cur [] [] = Some l /\ path = vcopy (inf s1) l) \/ (r0 = wfinish ws2 /\ ans <> AReturn)) ->
      ended r ws' log /\ wcand ws' = wcand ws ++ cands_of log /\ forall u, nclosed (inf (wss ws) u) = true -> nclosed (inf (wss ws') u) = true).
    { intros r0 X Hp. injection X as <- <- <-. split; [|split; assumption]. constructor.
      - rewrite A1. exact HW1.
      - exact Hcc2.
      - intros c [<-|[]]. exact Hev.
      - intros path Er. destruct (Hp path Er) as [(H1 & H2 & H3 & l & H4 & H5)|[H1 H2]].
        { left. exists [], ev. split; [reflexivity|]. split; [exact H1|]. split; [exact H2|]. split; [exact H3|]. exists t, t', s1, l. split; [exact H4|]. split; [exact H5|]. rewrite <- H1. exact Et. }
        right. split; [assumption|]. intros c [<-|[]]. exact H2. }
    destruct ans.
    - destruct (wover V P tot osd ws2 cur); [apply (One _ E); intros path _; right; split; [reflexivity|discriminate]|].
      pose proof (expand_W veqb veqb_spec moves reach offer hval tot (fun _ _ _ => None) push Hpush start goals pay0 all gens gens_pos offer_gen rank Hr cur moves s1 HW1 (incl_refl _) Hc1) as X.
      destruct (vexpand cur moves s1) as [s2|]; [|apply (One _ E); discriminate].
      destruct X as (HW2 & Hcl & _).
      destruct (wloop k (S n) t' (WS V P s2 (wcand ws2) (ws_first V P ws2))) as [[r1 w1] l1] eqn:E1. injection E as <- <- <-.
      assert (Hcc3 : closed_cands (WS V P s2 (wcand ws2) (ws_first V P ws2))).
      { intros v c Hin. cbn [ws_s ws_cand] in *. rewrite Hcl. rewrite <- A1. apply (Hcc2 v c Hin). }
      destruct (IH _ _ (WS V P s2 (wcand ws2) (ws_first V P ws2)) _ _ _ HW2 Hcc3 E1) as (He & Hc' & Hm').
      cbn [ws_s ws_cand] in Hc', Hm'.
      assert (Hm'' : forall u, nclosed (inf (wss ws) u) = true -> nclosed (inf (wss w1) u) = true) by (intros u Hu; apply Hm'; rewrite Hcl; apply Hm1; exact Hu).
      split; [|split; [|exact Hm'']].
      + destruct He as [B1 B2 B3 B4]. constructor; [exact B1|exact B2| |].
        * intros c [<-|Hin]; [|apply B3; exact Hin]. destruct Hev as (_ & H2 & H3). split; [|split; assumption]. apply Hm'. rewrite Hcl. exact Hc1.
        * intros path Er. destruct (B4 path Er) as [(l2 & c & -> & H2)|[H1 H2]]; [left; exists (ev :: l2), c; split; [reflexivity|exact H2]|right; split; [exact H1|]].
          intros c [<-|Hin]; [discriminate|apply H2; exact Hin].
      + rewrite Hc', Ecand, <- app_assoc. cbn [cands_of flat_map]. rewrite app_nil_r. reflexivity.
    - apply (One _ E). intros path _. right. split; [reflexivity|discriminate].
    - destruct (vback bf (inf s1) cur [] []) as [l|] eqn:Eb; [|apply (One _ E); discriminate].
      destruct (back_W s1 cur l HW1 Hc1 Eb) as [Hne Harr].
      destruct l as [|x l]; [contradiction|]. apply (One _ E). intros path Er. left. injection Er as <-. split; [reflexivity|]. split; [discriminate|]. split; [exact Harr|]. exists (x :: l). split; reflexivity.
  Qed.

  Notation w0 := (WS V P (vstarts V P veqb tot push start (VS V P (vfresh V P pay0) [])) [] 0).
  Lemma run_test fuel t r ws' log : wrun fuel t pay0 = (r, ws', log) -> ended r ws' log /\ wcand ws' = cands_of log.
  Proof using veqb_spec Hpush Hpop gens_pos offer_gen start_all.
    intros E. destruct (loop_test fuel 0 t w0 r ws' log) as (A & B & _); [|intros v c []|exact E|split; assumption].
    apply (start_W veqb veqb_spec moves offer tot push Hpush start pay0 all gens start_all).
  Qed.

  (** ** The paths of the candidates *)
  Lemma paths_W s : W s -> forall l ps, (forall v c, In (v, c) l -> nclosed (inf s v) = true) -> wpaths V P veqb start bf (inf s) l = Some ps ->
    Forall2 (fun vc path => arrived path (fst vc) (npay (inf s (fst vc)))) l ps.
  Proof using veqb_spec.
    intros HW. induction l as [|[v c] l IH]; intros ps Hc E; cbn [wpaths] in E; [injection E as <-; constructor|].
    destruct (vback bf (inf s) v [] []) as [p|] eqn:Eb; cbn [obind] in E; [|discriminate].
    destruct (wpaths V P veqb start bf (inf s) l) as [ps'|] eqn:E'; cbn [obind] in E; [|discriminate]. injection E as <-.
    constructor; [|apply IH; [intros v' c' H; apply (Hc v' c'); right; exact H|reflexivity]].
    cbn [fst]. apply (back_W s v p HW (Hc v c (or_introl eq_refl)) Eb).
  Qed.
  Lemma paths_ok s : W s -> (length all <= bf)%nat -> forall l, (forall v c, In (v, c) l -> nclosed (inf s v) = true) -> exists ps, wpaths V P veqb start bf (inf s) l = Some ps.
  Proof using veqb_spec.
    intros HW Hbf. induction l as [|[v c] l IH]; intros Hc; cbn [wpaths]; [eauto|].
    destruct (back_ok s v HW (Hc v c (or_introl eq_refl)) Hbf) as [p ->]. cbn [obind].
    destruct IH as [ps ->]; [intros v' c' H; apply (Hc v' c'); right; exact H|]. cbn [obind]. eauto.
  Qed.

  (** ** It ends *)
  Hypothesis term_ok : forall t s cur, W s -> nclosed (inf s cur) = true -> term t (inf s) cur <> None.
  Definition undef_offer : Prop := exists v q qs m, rch v q /\ In m moves /\ offer q qs m = None.

  Lemma finish_ok ws : W (wss ws) -> closed_cands ws -> (length all <= bf)%nat -> exists path, wfinish ws = VPath V P path.
  Proof using veqb_spec Hqueue.
    intros HW Hc Hbf. unfold VehicleTest.wfinish. destruct (Hqueue (wcand ws)) as [Hp _]. destruct (queue (wcand ws)) as [|[v c] r]; [eauto|].
    destruct (back_ok (wss ws) v HW) with (2 := Hbf) as [l ->]; [|eauto]. apply (Hc v c). apply (Permutation_in _ (Permutation_sym Hp)). left. reflexivity.
  Qed.

  Lemma loop_test_ends : (length all <= bf)%nat -> forall ws n t, W (wss ws) -> closed_cands ws ->
    exists fuel, (exists path, fst (fst (wloop fuel n t ws)) = VPath V P path) \/ (fst (fst (wloop fuel n t ws)) = VUndef V P /\ undef_offer).
  Proof using veqb_spec Hpush Hpop gens_pos offer_gen Hqueue term_ok.
    destruct (rank_exists gens gens_pos) as (rank & Hr).
    intros Hbf. set (below := @VehicleAny.below V P all rank). set (unseen := @VehicleAny.unseen V P all). set (ranks := @VehicleAny.ranks V P all rank).
    assert (G : forall s0, Acc below s0 -> forall L ws n t, unseen (wss ws) = unseen s0 -> ranks (wss ws) = ranks s0 -> (length (opn (wss ws)) <= L)%nat -> W (wss ws) -> closed_cands ws ->
      exists fuel, (exists path, fst (fst (wloop fuel n t ws)) = VPath V P path) \/ (fst (fst (wloop fuel n t ws)) = VUndef V P /\ undef_offer)).
    { induction 1 as [s0 _ IHA]. induction L as [L IHL] using (well_founded_ind lt_wf). intros ws n t Hu Hrk HL HW Hcc.
      destruct (finish_ok ws HW Hcc Hbf) as [pf Ef].
      destruct (opn (wss ws)) as [|w1 l1] eqn:Eo.
      { exists 1%nat. left. exists pf. cbn [VehicleTest.wloop]. rewrite Eo. exact Ef. }
      destruct (timeout n) eqn:Et.
      { exists 1%nat. left. exists pf. cbn [VehicleTest.wloop]. rewrite Eo, Et. exact Ef. }
      pose proof (Hpop (vtotal (inf (wss ws))) (opn (wss ws))) as Hp.
      destruct (pop (vtotal (inf (wss ws))) (opn (wss ws))) as [[cur o]|] eqn:Ep; [|congruence]. destruct Hp as (_ & Hlen & _).
      destruct (expand_step (wss ws) cur o HW Ep) as (HW1 & Hc1 & Hm1 & _).
      assert (Hsame : unseen (wclose (wss ws) cur o) = unseen (wss ws) /\ ranks (wclose (wss ws) cur o) = ranks (wss ws)).
      { rewrite wclose_eq. set (h := fun _ _ => _). destruct (close_W veqb veqb_spec moves offer h tot pop Hpop start [cur] pay0 all gens rank (wss ws) cur o HW Ep) as (_ & _ & A & B & _). split; assumption. }
      destruct Hsame as [U1 R1]. set (s1 := wclose (wss ws) cur o) in *.
      destruct (term t (inf s1) cur) as [[[t' cs] ans]|] eqn:Etm; [|exfalso; exact (term_ok t s1 cur HW1 Hc1 Etm)].
      destruct (wadd_spec tot cur cs (WS V P s1 (wcand ws) (ws_first V P ws))) as (A1 & A2 & _). cbn [ws_s ws_cand] in A1, A2.
      set (ws2 := wadd (WS V P s1 (wcand ws) (ws_first V P ws)) cur cs) in *.
      assert (Hcc2 : closed_cands ws2).
      { intros v c Hin. rewrite A1. rewrite A2 in Hin. apply in_app_iff in Hin. destruct Hin as [Hin|Hin]; [apply Hm1; apply (Hcc v c Hin)|].
        apply in_map_iff in Hin. destruct Hin as (w & X & _). injection X as <- _. exact Hc1. }
      destruct (finish_ok ws2) as [pf2 Ef2]; [rewrite A1; exact HW1|exact Hcc2|exact Hbf|].
      destruct ans.
      - destruct (wover V P tot osd ws2 cur) eqn:Ew.
        { exists 1%nat. left. exists pf2. cbn [VehicleTest.wloop]. rewrite Eo, Et, <- Eo, Ep. cbv zeta. fold s1. rewrite Etm. fold ws2. rewrite Ew. exact Ef2. }
        pose proof (expand_W veqb veqb_spec moves reach offer hval tot (fun _ _ _ => Some false) push Hpush start goals pay0 all gens gens_pos offer_gen rank Hr cur moves s1 HW1 (incl_refl _) Hc1) as X.
        destruct (vexpand cur moves s1) as [s2|] eqn:Ex.
        2:{ exists 1%nat. right. cbn [VehicleTest.wloop]. rewrite Eo, Et, <- Eo, Ep. cbv zeta. fold s1. rewrite Etm. fold ws2. rewrite Ew, Ex. split; [reflexivity|].
            destruct X as [X|(v & q & g & o' & _ & X)]; [exact X|discriminate]. }
        destruct X as (HW2 & Hcl & Pr).
        assert (Hcc3 : closed_cands (WS V P s2 (wcand ws2) (ws_first V P ws2))).
        { intros v c Hin. cbn [ws_s ws_cand] in *. rewrite Hcl. rewrite <- A1. apply (Hcc2 v c Hin). }
        assert (Y : exists fuel, (exists path, fst (fst (wloop fuel (S n) t' (WS V P s2 (wcand ws2) (ws_first V P ws2)))) = VPath V P path) \/
          (fst (fst (wloop fuel (S n) t' (WS V P s2 (wcand ws2) (ws_first V P ws2)))) = VUndef V P /\ undef_offer)).
        { destruct Pr as [->|Pr].
          - apply (IHL (length (opn s1))); cbn [ws_s]; [|congruence|congruence|apply Nat.le_refl|assumption|assumption].
            unfold s1. cbn [VehicleTest.wclose v_open]. rewrite Eo in Hlen. cbn [length] in Hlen, HL. eapply Nat.lt_le_trans; [exact Hlen|exact HL].
          - apply (IHA s2) with (L := length (opn s2)); cbn [ws_s]; [|reflexivity|reflexivity|apply Nat.le_refl|assumption|assumption].
            unfold below, VehicleAny.below in *. fold unseen ranks in Pr |- *. rewrite <- Hu, <- Hrk, <- U1, <- R1. exact Pr. }
        destruct Y as (fuel & Y). exists (S fuel). cbn [VehicleTest.wloop]. rewrite Eo, Et, <- Eo, Ep. cbv zeta. fold s1. rewrite Etm. fold ws2. rewrite Ew, Ex.
        destruct (wloop fuel (S n) t' (WS V P s2 (wcand ws2) (ws_first V P ws2))) as [[r1 w2] l2]. exact Y.
      - exists 1%nat. left. exists pf2. cbn [VehicleTest.wloop]. rewrite Eo, Et, <- Eo, Ep. cbv zeta. fold s1. rewrite Etm. exact Ef2.
      - destruct (back_ok s1 cur HW1 Hc1 Hbf) as [l El]. exists 1%nat. left. cbn [VehicleTest.wloop]. rewrite Eo, Et, <- Eo, Ep. cbv zeta. fold s1. rewrite Etm. fold ws2. rewrite El.
        destruct l as [|x l]; [exists pf2; exact Ef2|eexists; reflexivity]. }
    intros ws n t HW Hcc. apply (G (wss ws) (below_acc all rank (wss ws)) (length (opn (wss ws))) ws n t); [reflexivity|reflexivity|apply Nat.le_refl|assumption|assumption].
  Qed.
  Lemma run_test_ends t : (length all <= bf)%nat ->
    exists fuel, (exists path, fst (fst (wrun fuel t pay0)) = VPath V P path) \/ (fst (fst (wrun fuel t pay0)) = VUndef V P /\ undef_offer).
  Proof using veqb_spec Hpush Hpop gens_pos offer_gen Hqueue term_ok start_all.
    intros Hbf. apply (loop_test_ends Hbf w0 0 t); [|intros v c []]. apply (start_W veqb veqb_spec moves offer tot push Hpush start pay0 all gens start_all).
  Qed.
End AnyTest.

(** ** Least distance first: the contents of closed nodes stay as they are. *)
Section LeastTest.
  Context {V P M T : Type}.
  Variable veqb : V -> V -> bool.
  Hypothesis veqb_spec : forall a b, reflect (a = b) (veqb a b).
  Variable moves : list M.
  Variable reach : nat.
  Variable offer : P -> list P -> M -> option (option (V * R * P)).
  Variable hval : P -> P -> R.
  Variable tot : R -> R -> R.
  Variable push : (V -> R) -> V -> list V -> list V.
  Variable pop : (V -> R) -> list V -> option (V * list V).
  Hypothesis Hpush : push_ok push.
  Hypothesis Hpop : pop_ok pop.
  Variable start goals : list V.
  Variable hgoal : option P.
  Variable osd : R.
  Variable queue : list (V * R) -> list (V * R).
  Variable term : T -> (V -> vinfo V P) -> V -> option (T * list R * vanswer).
  Variable timeout : nat -> bool.
  Variable bf : nat.
  Variable pay0 : V -> P.
  Variable all : list V.
  Hypothesis offer_pos : forall q qs m v c p, offer q qs m = Some (Some (v, c, p)) -> 0 <= c.
  Hypothesis offer_all : forall q qs m v c p, In m moves -> offer q qs m = Some (Some (v, c, p)) -> In v all.
  Hypothesis start_all : incl start all.
  Hypothesis tot_dist : forall d h, tot d h = d.
  Hypothesis pop_least : forall f l v r, pop f l = Some (v, r) -> forall w, In w l -> f v <= f w.

  Notation vinfo := (vinfo V P).
  Notation vstate := (vstate V P).
  Notation inf := (v_info V P).
  Notation opn := (v_open V P).
  Notation nprev := (n_prev V P).
  Notation nclosed := (n_closed V P).
  Notation npay := (n_pay V P).
  Notation vdist := (vdist V P).
  Notation vtotal := (vtotal V P tot).
  Notation vexpand := (vexpand V P M veqb reach offer hval tot push goals).
  Notation vback := (vback V P veqb start).
  Notation vcopy := (vcopy V P).
  Notation wstate := (wstate V P).
  Notation wss := (ws_s V P).
  Notation wcand := (ws_cand V P).
  Notation wcall := (wcall V P).
  Notation cnode := (wc_node V P).
  Notation cpay := (wc_pay V P).
  Notation cans := (wc_ans V P).
  Notation wclose := (wclose V P veqb hval goals hgoal).
  Notation wadd := (wadd V P tot).
  Notation wfinish := (wfinish V P veqb start queue bf).
  Notation wloop := (wloop V P M T veqb moves reach offer hval tot push pop start goals hgoal osd queue term timeout bf).
  Notation wrun := (wrun V P M T veqb moves reach offer hval tot push pop start goals hgoal osd queue term timeout bf).
  Notation any := (fun (_ : V) (_ : P) => True).
  Notation K := (K moves reach offer start pay0 any all).
  Notation drive := (drive moves reach offer start pay0).

  (** A path to [v] that ends with the contents [p], each node reached from the contents of the node before. *)
  Definition drove (path : list (V * P)) (v : V) (p : P) : Prop := exists l cost, rev path = (v, p) :: l /\ drive ((v, p) :: l) cost.

  Lemma back_K E s v l : K E s -> nclosed (inf s v) = true -> vback bf (inf s) v [] [] = Some l -> drove (vcopy (inf s) l) v (npay (inf s v)).
  Proof using veqb_spec.
    intros HK Hc Hb. destruct (k_trace _ _ _ _ _ _ _ _ _ HK v (or_intror Hc)) as (t & Ht & _).
    assert (Hst : forall w, In w start -> nprev (inf s w) = None) by (intros w Hw; apply (k_start _ _ _ _ _ _ _ _ _ HK w Hw)).
    rewrite (vback_some veqb veqb_spec start (inf s) v (v :: t)) with (fuel := bf) (l := l); [|intros w Hw; rewrite (Hst w Hw); discriminate|assumption|assumption].
    exists (vcopy (inf s) t), (vdist (inf s) v). unfold VehicleSearch.vcopy. rewrite map_rev, rev_involutive. split; [reflexivity|].
    apply (trace_drive moves reach offer start pay0 any all E s HK v t Ht (or_intror Hc)).
  Qed.

  Lemma step_K s cur o : K (fun _ => True) s -> pop (vtotal (inf s)) (opn s) = Some (cur, o) ->
    (exists E, K E (wclose s cur o)) /\ nclosed (inf (wclose s cur o) cur) = true /\
    (forall u, nclosed (inf s u) = true -> nclosed (inf (wclose s cur o) u) = true /\ npay (inf (wclose s cur o) u) = npay (inf s u)) /\
    match vexpand cur moves (wclose s cur o) with
    | None => True
    | Some s2 => K (fun _ => True) s2 /\ (forall u, nclosed (inf (wclose s cur o) u) = true -> nclosed (inf s2 u) = true /\ npay (inf s2 u) = npay (inf (wclose s cur o) u))
    end.
  Proof using veqb_spec Hpush Hpop offer_pos offer_all tot_dist pop_least.
    intros HK Ep. rewrite wclose_eq. set (h := fun _ _ : P => _).
    destruct (close_K veqb veqb_spec moves reach offer h tot pop Hpop start [cur] pay0 any all tot_dist pop_least s cur o HK Ep) as (HK1 & Hc & Htop & Hcl & _).
    set (s1 := vclose V P veqb h [cur] s cur o) in *.
    split; [eauto|]. split; [exact Hc|]. split.
    { intros u Hu. split; [apply Hcl; right; exact Hu|]. unfold s1. cbn [vclose v_info]. unfold vset. destruct (veqb_spec u cur) as [->|]; reflexivity. }
    destruct (nclosed (inf s cur)) eqn:Eold.
    - pose proof (expand_old veqb moves reach offer hval tot (fun _ _ _ => None) push start goals pay0 any all _ cur s1 HK1 Hc (or_intror eq_refl) moves (incl_refl _)) as X.
      destruct (vexpand cur moves s1) as [s2|]; [|exact Logic.I]. subst s2. split; [|auto].
      apply (K_weaken moves reach offer start pay0 any all _ _ _ HK1); [intros u m v c p _ H; exfalso; apply H; right; reflexivity|intros u; left; right; reflexivity].
    - pose proof (expand_new veqb veqb_spec moves reach offer hval tot (fun _ _ _ => None) push Hpush start goals pay0 offer_pos any (fun _ _ _ _ _ _ _ _ _ _ => Logic.I)
        all (fun _ q qs m v c p _ => offer_all q qs m v c p) _ cur moves s1 HK1 (incl_refl _) Hc (Htop eq_refl)) as X.
      destruct (vexpand cur moves s1) as [s2|]; [|exact Logic.I]. destruct X as (HK2 & Fr & Cl & Mo & Re). split.
      2:{ intros u Hu. rewrite Cl, (Fr u Hu). split; [exact Hu|reflexivity]. }
      apply (K_weaken moves reach offer start pay0 any all _ _ _ HK2).
      + intros u m v c p Hu HE _ Hm Ho.
        assert (u = cur) as -> by (destruct (vdec veqb veqb_spec u cur) as [|H]; [assumption|exfalso; apply HE; left; assumption]).
        assert (Dc : vdist (inf s2) cur = vdist (inf s1) cur) by (unfold VehicleSearch.vdist; rewrite Fr by assumption; reflexivity).
        rewrite Dc. rewrite Fr in Ho by assumption.
        rewrite (prevs_frozen (inf s1) (inf s2) Fr (closed_prev veqb veqb_spec moves reach offer start pay0 any all _ _ HK1)) in Ho by assumption.
        apply (Re m v c p Hm Ho).
      + intros u. destruct (vdec veqb veqb_spec u cur) as [->|H]; [right; intros [X|X]; [contradiction|discriminate]|left; left; assumption].
  Qed.

  Definition kept (s s' : vstate) : Prop := forall u, nclosed (inf s u) = true -> nclosed (inf s' u) = true /\ npay (inf s' u) = npay (inf s u).

  Lemma loop_least : forall fuel n t ws r ws' log, K (fun _ => True) (wss ws) -> wloop fuel n t ws = (r, ws', log) ->
    (exists E, K E (wss ws')) /\ kept (wss ws) (wss ws') /\
    (forall c, In c log -> nclosed (inf (wss ws') (cnode c)) = true /\ npay (inf (wss ws') (cnode c)) = cpay c) /\
    (forall path, r = VPath V P path -> (exists l0 c, log = l0 ++ [c] /\ cans c = AReturn /\ drove path (cnode c) (cpay c)) \/ r = wfinish ws').
  Proof using veqb_spec Hpush Hpop offer_pos offer_all tot_dist pop_least.
    induction fuel as [|k IH]; intros n t ws r ws' log HK E; cbn [VehicleTest.wloop] in E.
    { injection E as <- <- <-. split; [eauto|]. split; [intros u Hu; auto|]. split; [intros c []|discriminate]. }
    assert (Fin : (wfinish ws, ws, []) = (r, ws', log) -> (exists E, K E (wss ws')) /\ kept (wss ws) (wss ws') /\
      (forall c, In c log -> nclosed (inf (wss ws') (cnode c)) = true /\ npay (inf (wss ws') (cnode c)) = cpay c) /\
      (forall path, r = VPath V P path -> (exists l0 c, log = l0 ++ [c] /\ cans c = AReturn /\ drove path (cnode c) (cpay c)) \/ r = wfinish ws')).
    { intros X. injection X as <- <- <-. split; [eauto|]. split; [intros u Hu; auto|]. split; [intros c []|]. intros path _. right. reflexivity. }
    destruct (opn (wss ws)) as [|w0 l0] eqn:Eo; [exact (Fin E)|]. destruct (timeout n); [exact (Fin E)|]. clear Fin. rewrite <- Eo in E.
    destruct (pop (vtotal (inf (wss ws))) (opn (wss ws))) as [[cur o]|] eqn:Ep.
    2:{ injection E as <- <- <-. split; [eauto|]. split; [intros u Hu; auto|]. split; [intros c []|discriminate]. }
    destruct (step_K (wss ws) cur o HK Ep) as ((E1 & HK1) & Hc1 & Hm1 & Hex). cbv zeta in E. set (s1 := wclose (wss ws) cur o) in *.
    destruct (term t (inf s1) cur) as [[[t' cs] ans]|] eqn:Et.
    2:{ injection E as <- <- <-. cbn [ws_s]. split; [eauto|]. split; [exact Hm1|]. split; [intros c []|discriminate]. }
    destruct (wadd_spec tot cur cs (WS V P s1 (wcand ws) (ws_first V P ws))) as (A1 & A2 & _). cbn [ws_s ws_cand] in A1, A2.
    set (ws2 := wadd (WS V P s1 (wcand ws) (ws_first V P ws)) cur cs) in *.
    set (ev := WC V P cur (npay (inf s1 cur)) (vtotal (inf s1) cur) cs ans) in *.
    assert (One : forall r0, (r0, ws2, [ev]) = (r, ws', log) -> (forall path, r0 = VPath V P path -> (ans = AReturn /\ drove path cur (npay (inf s1 cur))) \/ r0 = wfinish ws2) ->
      (exists E, K E (wss ws')) /\ kept (wss ws) (wss ws') /\
      (forall c, In c log -> nclosed (inf (wss ws') (cnode c)) = true /\ npay (inf (wss ws') (cnode c)) = cpay c) /\
      (forall path, r = VPath V P path -> (exists l0 c, log = l0 ++ [c] /\ cans c = AReturn /\ drove path (cnode c) (cpay c)) \/ r = wfinish ws')).
    { intros r0 X Hp. injection X as <- <- <-. rewrite A1. split; [eauto|]. split; [exact Hm1|]. split.
      - intros c [<-|[]]. split; [exact Hc1|reflexivity].
      - intros path Er. destruct (Hp path Er) as [(H1 & H2)|H1]; [left; exists [], ev; auto|right; assumption]. }
    destruct ans.
    - destruct (wover V P tot osd ws2 cur); [apply (One _ E); intros path _; right; reflexivity|].
      destruct (vexpand cur moves s1) as [s2|]; [|apply (One _ E); discriminate]. destruct Hex as (HK2 & Hm2).
      destruct (wloop k (S n) t' (WS V P s2 (wcand ws2) (ws_first V P ws2))) as [[r1 w1] l1] eqn:E2. injection E as <- <- <-.
      destruct (IH _ _ (WS V P s2 (wcand ws2) (ws_first V P ws2)) _ _ _ HK2 E2) as (B1 & B2 & B3 & B4). cbn [ws_s] in B2.
      split; [exact B1|]. split; [|split].
      + intros u Hu. destruct (Hm1 u Hu) as [X1 X2]. destruct (Hm2 u X1) as [Y1 Y2]. destruct (B2 u Y1) as [Z1 Z2]. split; [exact Z1|congruence].
      + intros c [<-|Hin]; [|apply B3; exact Hin]. cbn [wc_node wc_pay ev]. destruct (Hm2 cur Hc1) as [Y1 Y2]. destruct (B2 cur Y1) as [Z1 Z2]. split; [exact Z1|congruence].
      + intros path Er. destruct (B4 path Er) as [(l2 & c & -> & H2)|H1]; [left; exists (ev :: l2), c; split; [reflexivity|exact H2]|right; exact H1].
    - apply (One _ E). intros path _. right. reflexivity.
    - destruct (vback bf (inf s1) cur [] []) as [l|] eqn:Eb; [|apply (One _ E); discriminate].
      pose proof (back_K _ s1 cur l HK1 Hc1 Eb) as Harr.
      destruct l as [|x l]; apply (One _ E); intros path Er; [right; reflexivity|]. left. injection Er as <-. split; [reflexivity|exact Harr].
  Qed.

  Lemma run_least fuel t r ws' log : wrun fuel t pay0 = (r, ws', log) ->
    (exists E, K E (wss ws')) /\
    (forall c, In c log -> nclosed (inf (wss ws') (cnode c)) = true /\ npay (inf (wss ws') (cnode c)) = cpay c) /\
    (forall path, r = VPath V P path -> (exists l0 c, log = l0 ++ [c] /\ cans c = AReturn /\ drove path (cnode c) (cpay c)) \/ r = wfinish ws').
  Proof using veqb_spec Hpush Hpop offer_pos offer_all tot_dist pop_least start_all.
    intros E. destruct (loop_least fuel 0 t (WS V P (vstarts V P veqb tot push start (VS V P (vfresh V P pay0) [])) [] 0) r ws' log) as (A & _ & B & D); [|exact E|auto].
    apply (start_K veqb veqb_spec moves reach offer tot push Hpush start pay0 any (fun _ _ => Logic.I) all start_all).
  Qed.
End LeastTest.

(** ** The window of the oversearch *)
Section Window.
  Context {V P M T : Type}.
  Variable veqb : V -> V -> bool.
  Variable moves : list M.
  Variable reach : nat.
  Variable offer : P -> list P -> M -> option (option (V * R * P)).
  Variable hval : P -> P -> R.
  Variable tot : R -> R -> R.
  Variable push : (V -> R) -> V -> list V -> list V.
  Variable pop : (V -> R) -> list V -> option (V * list V).
  Variable start goals : list V.
  Variable hgoal : option P.
  Variable osd : R.
  Variable queue : list (V * R) -> list (V * R).
  Variable term : T -> (V -> vinfo V P) -> V -> option (T * list R * vanswer).
  Variable timeout : nat -> bool.
  Variable bf : nat.
  Notation wcall := (wcall V P).
  Notation wloop := (wloop V P M T veqb moves reach offer hval tot push pop start goals hgoal osd queue term timeout bf).
  (** The total cost of the first call that added a candidate. *)
  Fixpoint first_total (log : list wcall) : option R :=
    match log with
    | [] => None
    | c :: r => match wc_cands V P c with [] => first_total r | _ => Some (wc_total V P c) end
    end.

  Lemma wloop_window : osd <> 0 -> forall fuel n t ws r ws' log, wloop fuel n t ws = (r, ws', log) ->
    forall a c b, log = a ++ c :: b -> b <> [] ->
    wc_ans V P c = AGo /\
    forall F, (match ws_cand V P ws with [] => first_total (a ++ [c]) | _ => Some (ws_first V P ws) end) = Some F -> wc_total V P c <= F + osd.
  Proof using Type.
    intros Ho. induction fuel as [|k IH]; intros n t ws r ws' log E a c b El Hb; cbn [VehicleTest.wloop] in E.
    { injection E as <- <- <-. destruct a; discriminate. }
    destruct (v_open V P (ws_s V P ws)) as [|w0 l0]; [injection E as <- <- <-; destruct a; discriminate|].
    destruct (timeout n); [injection E as <- <- <-; destruct a; discriminate|].
    destruct (pop _ _) as [[cur o]|]; [|injection E as <- <- <-; destruct a; discriminate]. cbv zeta in E.
    set (s1 := wclose V P veqb hval goals hgoal (ws_s V P ws) cur o) in *.
    destruct (term t (v_info V P s1) cur) as [[[t' cs] ans]|]; [|injection E as <- <- <-; destruct a; discriminate].
    destruct (wadd_spec tot cur cs (WS V P s1 (ws_cand V P ws) (ws_first V P ws))) as (A1 & A2 & A3). cbn [ws_s ws_cand ws_first] in A1, A2, A3.
    set (ws2 := wadd V P tot (WS V P s1 (ws_cand V P ws) (ws_first V P ws)) cur cs) in *.
    set (ev := WC V P cur (n_pay V P (v_info V P s1 cur)) (vtotal V P tot (v_info V P s1) cur) cs ans) in *.
    assert (Single : forall (r0 : vres V P) w, (r0, w, [ev]) = (r, ws', log) -> False).
    { intros r0 w X. injection X as _ _ X. rewrite <- X in El. destruct a as [|y a]; [injection El as _ El; congruence|]. injection El as _ El. destruct a; discriminate. }
    destruct ans.
    2:{ exfalso. exact (Single _ _ E). }
    2:{ exfalso. destruct (vback _ _ _ _ _ _ _ _) as [[|x l]|]; exact (Single _ _ E). }
    destruct (wover V P tot osd ws2 cur) eqn:Ew; [exfalso; exact (Single _ _ E)|].
    destruct (vexpand _ _ _ _ _ _ _ _ _ _ _ _ _) as [s2|]; [|exfalso; exact (Single _ _ E)].
    destruct (wloop k (S n) t' (WS V P s2 (ws_cand V P ws2) (ws_first V P ws2))) as [[r1 w1] l1] eqn:E1. injection E as <- <- <-.
    destruct a as [|y a].
    - injection El as <- <-. split; [reflexivity|]. intros F EF. cbn [wc_total ev app] in *.
      unfold wover in Ew. rewrite A1, A2, A3 in Ew. destruct (Req_EM_T osd 0) as [|_]; [contradiction|]. cbn [andb] in Ew.
      destruct (ws_cand V P ws) as [|x l] eqn:Ec.
      + cbn [first_total wc_cands wc_total ev] in EF. destruct cs as [|w cs]; [discriminate|]. cbn [map app andb] in Ew. apply Rltb_false in Ew. clearbody s1; injection EF as <-; lra.
      + cbn [app andb] in Ew. apply Rltb_false in Ew. injection EF as <-. lra.
    - injection El as <- ->. destruct (IH _ _ _ _ _ _ E1 a c b eq_refl Hb) as [Hg IHF]. split; [exact Hg|]. intros F EF. apply IHF. cbn [ws_cand ws_first]. rewrite A2, A3.
      destruct (ws_cand V P ws) as [|x l].
      + cbn [first_total wc_cands wc_total ev app] in EF. destruct cs as [|w cs]; [cbn [map app]; exact EF|]. cbn [map app]. exact EF.
      + cbn [app]. exact EF.
  Qed.
End Window.

(** ** hasPoseBeenReached *)
Section PoseSpec.
  Context {V P T : Type}.
  Variable veqb : V -> V -> bool.
  Variable start goals : list V.
  Variable isgoal : P -> P -> option P -> option bool.
  Variable gdist : P -> P -> R.
  Variable osd : R.
  Variable cb : option (T -> list (V * P) -> T * bool).
  Variable bf : nat.
  Notation npay := (n_pay V P).
  Notation before f cur := (match n_prev V P (f cur) with Some u => Some (npay (f u)) | None => None end).
  Lemma pose_goals_spec f cur : forall gs t t' cs ans, pose_goals V P T veqb start isgoal gdist osd cb bf f cur gs t = Some (t', cs, ans) ->
    ans <> AStop /\ (osd = 0 -> cs = []) /\
    (forall w, In w cs -> exists g, In g gs /\ isgoal (npay (f g)) (npay (f cur)) (before f cur) = Some true /\ w = gdist (npay (f g)) (npay (f cur))) /\
    (ans = AReturn -> exists g, In g gs /\ isgoal (npay (f g)) (npay (f cur)) (before f cur) = Some true) /\
    (osd <> 0 -> cb = None -> ans = AGo /\ cs = map (fun g => gdist (npay (f g)) (npay (f cur))) (filter (fun g => match isgoal (npay (f g)) (npay (f cur)) (before f cur) with Some b => b | None => false end) gs)).
  Proof.
    induction gs as [|g gs IH]; intros t t' cs ans E; cbn [pose_goals] in E.
    { injection E as <- <- <-. repeat split; (discriminate || auto). intros w []. }
    assert (Lift : forall t0, (forall w, In w cs -> exists g0, In g0 gs /\ isgoal (npay (f g0)) (npay (f cur)) (before f cur) = Some true /\ w = gdist (npay (f g0)) (npay (f cur))) ->
      (ans = AReturn -> exists g0, In g0 gs /\ isgoal (npay (f g0)) (npay (f cur)) (before f cur) = Some true) -> t0 = t ->
      (forall w, In w cs -> exists g0, In g0 (g :: gs) /\ isgoal (npay (f g0)) (npay (f cur)) (before f cur) = Some true /\ w = gdist (npay (f g0)) (npay (f cur))) /\
      (ans = AReturn -> exists g0, In g0 (g :: gs) /\ isgoal (npay (f g0)) (npay (f cur)) (before f cur) = Some true)).
    { intros _ H1 H2 _. split; [intros w Hw; destruct (H1 w Hw) as (g0 & X & Y); exists g0; split; [right; exact X|exact Y]|].
      intros Ha. destruct (H2 Ha) as (g0 & X & Y). exists g0. split; [right; exact X|exact Y]. }
    destruct (isgoal (npay (f g)) (npay (f cur)) (before f cur)) as [[|]|] eqn:Eg; cbn [obind negb] in E; [| |discriminate].
    - destruct (Req_EM_T osd 0) as [E0|E0].
      { injection E as <- <- <-. split; [discriminate|]. split; [reflexivity|]. split; [intros w []|]. split; [intros _; exists g; split; [left; reflexivity|exact Eg]|contradiction]. }
      assert (Cons : forall t1, (x <- pose_goals V P T veqb start isgoal gdist osd cb bf f cur gs t1 ;; Some (fst (fst x), gdist (npay (f g)) (npay (f cur)) :: snd (fst x), snd x)) = Some (t', cs, ans) ->
        ans <> AStop /\ (osd = 0 -> cs = []) /\
        (forall w, In w cs -> exists g0, In g0 (g :: gs) /\ isgoal (npay (f g0)) (npay (f cur)) (before f cur) = Some true /\ w = gdist (npay (f g0)) (npay (f cur))) /\
        (ans = AReturn -> exists g0, In g0 (g :: gs) /\ isgoal (npay (f g0)) (npay (f cur)) (before f cur) = Some true) /\
        (osd <> 0 -> cb = None -> ans = AGo /\ cs = map (fun g => gdist (npay (f g)) (npay (f cur))) (filter (fun g => match isgoal (npay (f g)) (npay (f cur)) (before f cur) with Some b => b | None => false end) (g :: gs)))).
      { intros t1 X. destruct (pose_goals V P T veqb start isgoal gdist osd cb bf f cur gs t1) as [[[t2 cs2] a2]|] eqn:E2; cbn [obind fst snd] in X; [|discriminate]. injection X as <- <- <-.
        destruct (IH _ _ _ _ E2) as (B1 & _ & B3 & B4 & B5). split; [exact B1|]. split; [contradiction|]. split; [|split].
        - intros w [<-|Hw]; [exists g; split; [left; reflexivity|split; [exact Eg|reflexivity]]|]. destruct (B3 w Hw) as (g0 & X & Y). exists g0. split; [right; exact X|exact Y].
        - intros Ha. destruct (B4 Ha) as (g0 & X & Y). exists g0. split; [right; exact X|exact Y].
        - intros Ho Hn. destruct (B5 Ho Hn) as [X1 X2]. split; [exact X1|]. cbn [filter]. rewrite Eg. cbn [map]. rewrite <- X2. reflexivity. }
      destruct cb as [c|] eqn:Ecb; [|apply (Cons t E)].
      destruct (vback V P veqb start bf f cur [] []) as [l|]; cbn [obind] in E; [|discriminate]. cbv zeta in E. destruct (snd (c t (vcopy V P f l))).
      + injection E as <- <- <-. split; [discriminate|]. split; [contradiction|]. split; [|split; [intros _; exists g; split; [left; reflexivity|exact Eg]|discriminate]].
        intros w [<-|[]]. exists g. split; [left; reflexivity|]. split; [exact Eg|reflexivity].
      + apply (Cons _ E).
    - destruct (IH _ _ _ _ E) as (B1 & B2 & B3 & B4 & B5). destruct (Lift t B3 B4 eq_refl) as [L1 L2]. split; [exact B1|]. split; [exact B2|]. split; [exact L1|]. split; [exact L2|].
      intros Ho Hn. destruct (B5 Ho Hn) as [X1 X2]. split; [exact X1|]. cbn [filter]. rewrite Eg. exact X2.
  Qed.
  (** It asks to return only if the function of the caller accepts the path. *)
  Lemma pose_goals_cb f cur : osd <> 0 -> forall gs t t' cs, pose_goals V P T veqb start isgoal gdist osd cb bf f cur gs t = Some (t', cs, AReturn) ->
    cs <> [] /\ exists c l t1, cb = Some c /\ vback V P veqb start bf f cur [] [] = Some l /\ c t1 (vcopy V P f l) = (t', true).
  Proof.
    intros Ho. induction gs as [|g gs IH]; intros t t' cs E; cbn [pose_goals] in E; [discriminate|].
    destruct (isgoal (npay (f g)) (npay (f cur)) (before f cur)) as [[|]|]; cbn [obind negb] in E; [|apply (IH _ _ _ E)|discriminate].
    destruct (Req_EM_T osd 0) as [|_]; [contradiction|]. cbv zeta in E. destruct cb as [c|].
    - destruct (vback V P veqb start bf f cur [] []) as [l|]; cbn [obind] in E; [|discriminate]. destruct (c t (vcopy V P f l)) as [t1 b] eqn:Ec. cbn [fst snd] in E. destruct b.
      + injection E as <- <-. split; [discriminate|]. exists c, l, t. auto.
      + destruct (pose_goals V P T veqb start isgoal gdist osd (Some c) bf f cur gs t1) as [[[t2 cs2] a2]|] eqn:E2; cbn [obind fst snd] in E; [|discriminate]. injection E as <- <- ->. split; [discriminate|]. apply (IH _ _ _ E2).
    - destruct (pose_goals V P T veqb start isgoal gdist osd None bf f cur gs t) as [[[t2 cs2] a2]|] eqn:E2; cbn [obind fst snd] in E; [|discriminate]. injection E as <- <- ->. split; [discriminate|]. apply (IH _ _ _ E2).
  Qed.
  Lemma pose_goals_ok f cur : (forall g o, isgoal (npay (f g)) (npay (f cur)) o <> None) -> vback V P veqb start bf f cur [] [] <> None ->
    forall gs t, pose_goals V P T veqb start isgoal gdist osd cb bf f cur gs t <> None.
  Proof.
    intros Hg Hb. induction gs as [|g gs IH]; intros t; cbn [pose_goals]; [discriminate|].
    destruct (isgoal (npay (f g)) (npay (f cur)) (before f cur)) as [[|]|] eqn:Eg; cbn [obind negb]; [| apply IH|exfalso; exact (Hg _ _ Eg)].
    destruct (Req_EM_T osd 0); [discriminate|]. cbv zeta. destruct cb as [c|].
    - destruct (vback V P veqb start bf f cur [] []) as [l|]; [|congruence]. cbn [obind]. destruct (snd (c t (vcopy V P f l))); [discriminate|].
      specialize (IH (fst (c t (vcopy V P f l)))). destruct (pose_goals V P T veqb start isgoal gdist osd (Some c) bf f cur gs _) as [x|]; [discriminate|congruence].
    - specialize (IH t). destruct (pose_goals V P T veqb start isgoal gdist osd None bf f cur gs _) as [x|]; [discriminate|congruence].
  Qed.
End PoseSpec.

(** ** More fuel *)
Lemma wloop_more V P M T veqb moves reach offer hval tot push pop start goals hgoal osd queue term timeout bf : forall k n (t : T) ws,
  fst (fst (wloop V P M T veqb moves reach offer hval tot push pop start goals hgoal osd queue term timeout bf k n t ws)) <> VFuel V P ->
  forall k', (k <= k')%nat -> wloop V P M T veqb moves reach offer hval tot push pop start goals hgoal osd queue term timeout bf k' n t ws =
    wloop V P M T veqb moves reach offer hval tot push pop start goals hgoal osd queue term timeout bf k n t ws.
Proof.
  induction k as [|k IH]; intros n t ws H k' Hk; [cbn [wloop fst] in H; congruence|]. destruct k' as [|k']; [lia|]. cbn [wloop] in *.
  destruct (v_open V P (ws_s V P ws)); [reflexivity|]. destruct (timeout n); [reflexivity|]. destruct (pop _ _) as [[cur o]|]; [|reflexivity]. cbv zeta in *.
  destruct (term _ _ _) as [[[t' cs] ans]|]; [|reflexivity]. destruct ans; [|reflexivity|reflexivity].
  destruct (wover _ _ _ _ _ _); [reflexivity|]. destruct (vexpand _ _ _ _ _ _ _ _ _ _ _ _ _) as [s2|]; [|reflexivity].
  rewrite (IH (S n) t' _) with (k' := k'); [reflexivity| |lia].
  destruct (wloop _ _ _ _ _ _ _ _ _ _ _ _ _ _ _ _ _ _ _ _ k _ _ _) as [[r w] lg]. exact H.
Qed.

(** ** No oversearch: the search of VehicleSearch.v *)
Section Plain.
  Context {V P M T : Type}.
  Variable veqb : V -> V -> bool.
  Variable moves : list M.
  Variable reach : nat.
  Variable offer : P -> list P -> M -> option (option (V * R * P)).
  Variable hval : P -> P -> R.
  Variable tot : R -> R -> R.
  Variable isgoal : P -> P -> option P -> option bool.
  Variable gdist : P -> P -> R.
  Variable push : (V -> R) -> V -> list V -> list V.
  Variable pop : (V -> R) -> list V -> option (V * list V).
  Variable start goals : list V.
  Variable queue : list (V * R) -> list (V * R).
  Hypothesis Hqueue : queue_ok queue.
  Variable cb : option (T -> list (V * P) -> T * bool).
  Variable timeout : nat -> bool.
  Variable bf : nat.
  Lemma pose_plain f cur : forall gs t, pose_goals V P T veqb start isgoal gdist 0 cb bf f cur gs t =
    match vreached V P isgoal f cur gs with None => None | Some b => Some (t, [], if (b : bool) then AReturn else AGo) end.
  Proof using Type.
    induction gs as [|g gs IH]; intros t; cbn [pose_goals vreached]; [reflexivity|].
    destruct (isgoal _ _ _) as [[|]|]; cbn [obind negb]; [|apply IH|reflexivity]. destruct (Req_EM_T 0 0) as [_|N]; [reflexivity|contradiction].
  Qed.
  Lemma loop_plain : forall fuel n t s x,
    fst (fst (wloop V P M T veqb moves reach offer hval tot push pop start goals None 0 queue (pose_term V P T veqb start goals isgoal gdist 0 cb bf) timeout bf fuel n t (WS V P s [] x))) =
    fst (vloop V P M veqb moves reach offer hval tot isgoal push pop start goals timeout bf fuel n s).
  Proof using Hqueue.
    assert (Q : queue [] = []) by (apply Permutation_nil, (Hqueue [])).
    induction fuel as [|k IH]; intros n t s x; [reflexivity|]. cbn [wloop vloop ws_s ws_cand ws_first].
    assert (F : forall s', wfinish V P veqb start queue bf (WS V P s' [] x) = VPath V P []) by (intros s'; unfold wfinish; cbn [ws_cand]; rewrite Q; reflexivity).
    destruct (v_open V P s); [rewrite F; reflexivity|]. destruct (timeout n); [rewrite F; reflexivity|].
    destruct (pop _ _) as [[cur o]|]; [|reflexivity]. cbv zeta.
    assert (Ew : wclose V P veqb hval goals None s cur o = vclose V P veqb hval goals s cur o).
    { unfold wclose, vclose, hclose, new_h. destruct goals; reflexivity. }
    rewrite Ew. set (s1 := vclose V P veqb hval goals s cur o). unfold pose_term. rewrite pose_plain.
    destruct (vreached V P isgoal (v_info V P s1) cur goals) as [[|]|]; [| |reflexivity].
    - cbn [wadd]. destruct (vback V P veqb start bf (v_info V P s1) cur [] []) as [[|y lb]|]; [rewrite F; reflexivity|reflexivity|reflexivity].
    - cbn [wadd]. unfold wover. destruct (Req_EM_T 0 0) as [_|N]; [|contradiction]. cbn [andb].
      destruct (vexpand _ _ _ _ _ _ _ _ _ _ _ _ _) as [s2|]; [|reflexivity]. cbn [ws_cand ws_first]. rewrite <- (IH (S n) t s2 x). unfold pose_term.
      destruct (wloop _ _ _ _ _ _ _ _ _ _ _ _ _ _ _ _ _ _ _ _ k _ _ _) as [[r w] l0]. reflexivity.
  Qed.
End Plain.
