(** C78: what the statistics of a grid search mean, and how much it does. *)
From Coq Require Import QArith Reals Lra.
From Flocq Require Import Core IEEE754.BinarySingleNaN IEEE754.Binary.
From Verif Require Import Base PathSpec GridMap GridMapProofs GenericSearch GenericProofs DirectSearch PropGeneric GenericCount GenericWork CountSearch.
From Verif Require Import DirectSpec RealSums Heuristics PropHeur GenericFloat AStarIeee GenericIeee OpenPolicies.
Open Scope Z_scope.

Section Count.
  Context {C : Type}.
  Variable zero inf : C.
  Variable add : C -> C -> C.
  Variable lt : C -> C -> bool.
  Variable tot : C -> C -> C.
  Variable cost : bool -> C.
  Variable heur : cell -> cell -> C.
  Variable hyp : cell -> cell -> C.
  Variable push : (cell -> C) -> cell -> list cell -> list cell.
  Variable pop : (cell -> C) -> list cell -> option (cell * list cell).
  Variable best : list (cell * C) -> option cell.
  Variable eight : bool.
  Variable D : Z.
  Notation findPath := (findPath C zero add lt tot cost heur hyp push pop best eight D).
  Notation findPathN := (findPathN zero add lt tot cost heur hyp push pop best eight D).
  Notation cobj := (@cobj C).
  Notation sobj := (sobj C).

  (** Counting changes neither the answer nor the object. *)
  Theorem C78_observer fuel op (o : cobj) from to :
    fst (fst (findPathN fuel op o from to)) = fst (findPath fuel op (co_obj o) from to) /\
    co_obj (snd (fst (findPathN fuel op o from to))) = snd (findPath fuel op (co_obj o) from to).
  Proof using Type.
    unfold CountSearch.findPathN, DirectSearch.findPath. set (ob := co_obj o). set (m := ob_map C ob).
    destruct (lookup_pose m from) as [s| |]; [|split; reflexivity|split; reflexivity].
    destruct (lookup_pose m to) as [g| |]; [|split; reflexivity|split; reflexivity]. cbv zeta.
    set (start := if is_occ_cell m s then [] else [s]). set (goal := if is_occ_cell m g then None else Some g).
    rewrite <- (erase_run ceqb (all_cells m) zero add lt tot (nbrs C cost eight D m) (goal_val C zero heur goal) push pop
      start (goal_test D goal) (somes goal) (op_cand C op) (op_over C op) (goal_val C zero hyp goal) best (op_timeout C op)
      fuel (ob_info C ob) (ob_first C ob) (co_cnt o)).
    split; reflexivity.
  Qed.

  (** What a search reports does not depend on the searches counted before,
      except that the touched nodes are added to those of all earlier searches. *)
  Theorem C78_per_search fuel op (ob : sobj) k from to :
    let r := findPathN fuel op (CObj ob k) from to in
    let r0 := findPathN fuel op (CObj ob (Cnt 0 0 0 0)) from to in
    fst (fst r) = fst (fst r0) /\ snd r = snd r0 /\
    getExpansions (snd (fst r)) = getExpansions (snd (fst r0)) /\
    getMultiExpansions (snd (fst r)) = getMultiExpansions (snd (fst r0)) /\
    getTouchedNodes (snd (fst r)) = n_touched k + getTouchedNodes (snd (fst r0)).
  Proof using Type.
    unfold CountSearch.findPathN, getExpansions, getMultiExpansions, getTouchedNodes. cbn [co_obj co_cnt].
    set (m := ob_map C ob).
    destruct (lookup_pose m from) as [s| |]; [|cbn; repeat split; lia..].
    destruct (lookup_pose m to) as [g| |]; [|cbn; repeat split; lia..]. cbv zeta. cbn [fst snd co_cnt].
    rewrite (run_shift ceqb _ zero add lt tot _ _ push pop _ _ _ _ _ _ best _ fuel _ _ k). cbn [fst snd shift n_exp n_multi n_touched].
    repeat split. lia.
  Qed.

  Hypothesis Hpush : push_ok push.
  Hypothesis Hpop : pop_ok pop.

  (** What the getters report after any search on any object (whatever was
      searched before): [log] are the cells handed to the goal test, in order. *)
  Theorem C78_counts fuel op (o o' : cobj) from to r log :
    findPathN fuel op o from to = ((r, o'), log) ->
    getExpansions o' = Z.of_nat (length log) /\
    (exists L, NoDup L /\ (forall v, In v L <-> In v log /\ g_expanded cell C (ob_info C (co_obj o) v) = false) /\
       getMultiExpansions o' = getExpansions o' - Z.of_nat (length L)) /\
    0 <= getMultiExpansions o' /\
    getTouchedNodes o <= getTouchedNodes o' /\
    getExpansions o' <= 1 + (getTouchedNodes o' - getTouchedNodes o) /\
    getExpansions o' <= Z.of_nat fuel.
  Proof using Hpush Hpop.
    unfold CountSearch.findPathN, getExpansions, getMultiExpansions, getTouchedNodes.
    set (ob := co_obj o). set (m := ob_map C ob). intros E.
    assert (Htriv : forall k, k = init_cnt (co_cnt o) -> n_exp k = Z.of_nat (@length cell []) /\
      (exists L, NoDup L /\ (forall v, In v L <-> In v [] /\ g_expanded cell C (ob_info C ob v) = false) /\
        n_multi k = n_exp k - Z.of_nat (length L)) /\ 0 <= n_multi k /\
      n_touched (co_cnt o) <= n_touched k /\ n_exp k <= 1 + (n_touched k - n_touched (co_cnt o)) /\ n_exp k <= Z.of_nat fuel).
    { intros k ->. unfold init_cnt. cbn [n_exp n_multi n_touched length]. split; [reflexivity|]. split; [|lia].
      exists []. split; [constructor|]. split; [cbn [In]; tauto|reflexivity]. }
    destruct (lookup_pose m from) as [s| |]; [|injection E as <- <- <-; cbn [co_cnt]; apply Htriv; reflexivity..].
    destruct (lookup_pose m to) as [g| |]; [|injection E as <- <- <-; cbn [co_cnt]; apply Htriv; reflexivity..].
    clear Htriv. cbv zeta in E.
    match type of E with context [runN ?a ?b ?c ?d ?e ?f ?g ?h ?i ?j ?k ?l ?mm ?n ?p ?q ?r ?s ?t ?u ?v ?w] =>
      set (rr := runN a b c d e f g h i j k l mm n p q r s t u v w) in *; assert (Er : rr = runN a b c d e f g h i j k l mm n p q r s t u v w) by reflexivity end.
    destruct rr as [[r0 s'] [k' log']]. cbn [fst snd] in E. injection E as <- <- <-. cbn [co_cnt]. symmetry in Er.
    eapply run_history in Er; [|exact ceqb_spec|exact Hpush|exact Hpop]. destruct Er as (H & _ & Hf).
    destruct H as [A B (L & L1 & L2 & L3) F G H J]. split; [exact A|]. split; [|split; [|split; [exact F|split; [|exact Hf]]]].
    - exists L. split; [exact L1|]. split; [exact L2|lia].
    - assert (Hl : (length L <= length log')%nat) by (apply NoDup_incl_length; [exact L1|intros v Hv; apply L2; exact Hv]). lia.
    - destruct (is_occ_cell m s); cbn [length] in H; lia.
  Qed.

  (** A search that accepts no cell takes everything out of the open list again:
      every cell put there is expanded, and the start. *)
  Theorem C78_exhausted fuel op (o o' : cobj) from to p log s g :
    let m := ob_map C (co_obj o) in
    (forall f v l, length (push f v l) = S (length l)) ->
    (forall f l v r, pop f l = Some (v, r) -> length l = S (length r)) ->
    gm_wf m -> in_cell from s -> in_cell to g ->
    cell_of (gm_w m) (gm_h m) (fst s) (snd s) -> cell_of (gm_w m) (gm_h m) (fst g) (snd g) ->
    ~ map_occupied m s -> (forall k, op_timeout C op k = false) ->
    findPathN fuel op o from to = ((FPath p, o'), log) -> (forall v, In v log -> ~ near D g v) ->
    getExpansions o' = 1 + (getTouchedNodes o' - getTouchedNodes o).
  Proof using Hpush Hpop.
    intros m Xpush Xpop Hwf Hs Hg Cs Cg Os Hto E Hlog.
    assert (Eos : is_occ_cell m s = false).
    { destruct (is_occ_cell m s) eqn:E'; [|reflexivity]. apply is_occ_cell_spec in E'. destruct Os. split; assumption. }
    unfold CountSearch.findPathN in E. fold m in E. unfold getExpansions, getTouchedNodes.
    rewrite (lookup_of_cell m from s Hwf Hs Cs), (lookup_of_cell m to g Hwf Hg Cg), Eos in E. cbv zeta in E.
    match type of E with context [runN ?a ?b ?c ?d ?e ?f ?g ?h ?i ?j ?k ?l ?mm ?n ?p ?q ?r ?s ?t ?u ?v ?w] =>
      set (rr := runN a b c d e f g h i j k l mm n p q r s t u v w) in *; assert (Er : rr = runN a b c d e f g h i j k l mm n p q r s t u v w) by reflexivity end.
    destruct rr as [[r0 s'] [k' log']]. cbn [fst snd] in E. injection E as E <- <-. cbn [co_cnt]. symmetry in Er.
    destruct r0 as [| |q]; try discriminate. pose proof Er as Er'.
    eapply run_history in Er'; [|exact ceqb_spec|exact Hpush|exact Hpop]. destruct Er' as (H & _ & _).
    eapply run_exhausted in Er; [|exact ceqb_spec|exact Hpush|exact Hpop|exact Hto|].
    - pose proof (hi_exact _ _ _ _ _ _ _ _ H Xpush Xpop) as Hx. rewrite Er in Hx. cbn [length] in Hx. lia.
    - intros v Hv. destruct (is_occ_cell m g); [reflexivity|]. cbn [goal_test]. destruct (isGoal D g v) eqn:Eg; [|reflexivity].
      apply C25_isGoal in Eg. destruct (Hlog v Hv Eg).
  Qed.

  (** Bounds, from conditions on the arithmetic and the policy. *)
  Variable ok : C -> Prop.
  Lemma count_bound fuel op m first k from to r (o' : cobj) log : gm_wf m -> 0 < D ->
    (forall goal, (forall g, goal = Some g -> is_occ_cell m g = false) ->
      steady (all_cells m) zero add lt tot (nbrs C cost eight D m) (goal_val C zero heur goal) pop (somes goal) ok) ->
    findPathN fuel op (CObj (new_sobj C zero inf m first) k) from to = ((r, o'), log) ->
    0 <= getExpansions o' - getMultiExpansions o' <= gm_w m * gm_h m /\
    getTouchedNodes o' - n_touched k <= Z.of_nat (nsize eight) * (getExpansions o' - getMultiExpansions o') /\
    (r = FFuel -> Z.of_nat fuel = getExpansions o').
  Proof using Hpush Hpop.
    intros Hwf HD ST E. unfold CountSearch.findPathN in E. cbn [co_obj co_cnt new_sobj ob_map ob_info ob_first] in E.
    unfold getExpansions, getMultiExpansions, getTouchedNodes.
    assert (Hsz : 0 <= gm_w m * gm_h m) by (destruct Hwf; nia).
    assert (Htriv : forall k', k' = init_cnt k -> 0 <= n_exp k' - n_multi k' <= gm_w m * gm_h m /\
      n_touched k' - n_touched k <= Z.of_nat (nsize eight) * (n_exp k' - n_multi k')).
    { intros k' ->. unfold init_cnt. cbn [n_exp n_multi n_touched]. lia. }
    destruct (lookup_pose m from) as [s| |] eqn:Es; [|injection E as <- <- <-; cbn [co_cnt];
      (destruct (Htriv _ eq_refl) as [A B]; split; [exact A|split; [exact B|discriminate]])..].
    destruct (lookup_pose m to) as [g| |] eqn:Eg; [|injection E as <- <- <-; cbn [co_cnt];
      (destruct (Htriv _ eq_refl) as [A B]; split; [exact A|split; [exact B|discriminate]])..].
    clear Htriv. cbv zeta in E.
    set (start := if is_occ_cell m s then [] else [s]) in *. set (goal := if is_occ_cell m g then None else Some g) in *.
    match type of E with context [runN ?a ?b ?c ?d ?e ?f ?g ?h ?i ?j ?k ?l ?mm ?n ?p ?q ?r ?s ?t ?u ?v ?w] =>
      set (rr := runN a b c d e f g h i j k l mm n p q r s t u v w) in *; assert (Er : rr = runN a b c d e f g h i j k l mm n p q r s t u v w) by reflexivity end.
    destruct rr as [[r0 s'] [k' log']]. cbn [fst snd] in E. injection E as E <- <-. cbn [co_cnt]. symmetry in Er.
    assert (Hlook : In s (all_cells m)) by (apply all_cells_spec; eapply lookup_cell; eassumption).
    pose proof Er as Er'. eapply run_history in Er'; [|exact ceqb_spec|exact Hpush|exact Hpop]. destruct Er' as (H & Hfu & _).
    destruct H as [A _ (L & L1 & L2 & L3) _ _ _ _]. cbn [fresh_info g_expanded] in L2.
    assert (HL : forall v, In v L <-> In v log') by (intros v; rewrite L2; tauto).
    assert (Hwork : exists L', NoDup L' /\ (forall v, In v L' <-> In v log') /\ incl L' (all_cells m) /\
      n_touched k' - n_touched k <= offers (nbrs C cost eight D m) L').
    { unfold start in Er. destruct (is_occ_cell m s).
      - (* nothing to start with *)
        assert (Ek : k' = init_cnt k /\ log' = []).
        { unfold runN in Er. destruct fuel as [|fu]; cbn in Er; injection Er as _ _ <- <-; split; reflexivity. }
        destruct Ek as [-> ->]. exists []. split; [constructor|]. split; [intros v; reflexivity|]. split; [intros v []|].
        unfold init_cnt. cbn [n_touched offers fold_right]. lia.
      - eapply run_work in Er; [exact Er|exact ceqb_spec|exact Hpush|exact Hpop| | |exact Hlook].
        + apply ST. intros g' Hg'. unfold goal in Hg'. destruct (is_occ_cell m g) eqn:Eo; [discriminate|]. injection Hg' as <-. exact Eo.
        + intros u v c _ Hin. apply nbrs_spec in Hin as (_ & [Hc _] & _); [|assumption..]. apply all_cells_spec. exact Hc. }
    destruct Hwork as (L' & L1' & HL' & Hincl & Hw).
    assert (Hlen : length L = length L').
    { apply Nat.le_antisymm; apply NoDup_incl_length; auto; intros v Hv; [apply HL', HL, Hv|apply HL, HL', Hv]. }
    assert (Hoff : offers (nbrs C cost eight D m) L' <= Z.of_nat (nsize eight) * Z.of_nat (length L')).
    { clear. induction L' as [|u L' IH]; [cbn [offers fold_right length]; lia|]. unfold offers in *. cbn [fold_right length].
      assert (Hn : (length (nbrs C cost eight D m u) <= nsize eight)%nat).
      { unfold nbrs. rewrite map_length. unfold offered. rewrite <- (seq_length (nsize eight) 0) at 2.
        induction (seq 0 (nsize eight)) as [|i l IHl]; [apply Nat.le_refl|]. cbn [flat_map length]. rewrite app_length.
        destruct (if isInMap m _ _ then _ else false); cbn [length]; lia. }
      lia. }
    assert (Hall : (length L' <= length (all_cells m))%nat) by (apply NoDup_incl_length; assumption).
    pose proof (all_cells_len m Hwf) as Hac. rewrite Hlen in L3.
    split; [lia|]. split; [rewrite L3; lia|]. intros ->. destruct r0 as [| |q]; try discriminate. rewrite A, (Hfu eq_refl). reflexivity.
  Qed.
End Count.

(** ** The bounds of the algorithms *)
(** Between the number of different expanded cells and the work done. *)
Definition work_bounded (eight : bool) (m : gridmap) (exp multi touched : Z) : Prop :=
  let n := if eight then 8 else 4 in
  0 <= exp - multi <= gm_w m * gm_h m /\
  touched <= n * (exp - multi) /\ exp <= 1 + n * (exp - multi) /\ exp <= 1 + n * (gm_w m * gm_h m).

Section Real.
  Variable push : (cell -> R) -> cell -> list cell -> list cell.
  Variable pop : (cell -> R) -> list cell -> option (cell * list cell).
  Variable best : list (cell * R) -> option cell.
  Variable hyp : cell -> cell -> R.
  Variable inf : R.
  Variable eight : bool.
  Variable D : Z.
  Variable n : norm.
  Variable res : R.
  Hypothesis Hpush : push_ok push.
  Hypothesis Hpop : pop_ok pop.
  Hypothesis Hmin : forall f l v r, pop f l = Some (v, r) -> forall w, In w l -> (f v <= f w)%R.
  Hypothesis HD : 0 < D.
  Hypothesis Hres : (0 <= res)%R.
  Hypothesis Hfit : norm_fits eight n.
  Notation findPathN := (findPathN 0%R Rplus Rltb Rplus (rcost D res) (hcompute n res) hyp push pop best eight D).

  Lemma real_steady m goal : gm_wf m ->
    steady (all_cells m) 0%R Rplus Rltb Rplus (nbrs R (rcost D res) eight D m) (goal_val R 0%R (hcompute n res) goal) pop (somes goal) (fun _ => True).
  Proof using Hmin HD Hres Hfit.
    intros Hwf. constructor; try (intros; exact Logic.I).
    - intros a _. apply Rltb_false. lra.
    - intros a b _ _ H. apply Rltb_true in H. apply Rltb_false. lra.
    - intros a b c _ _ _ H1 H2. apply Rltb_false in H1, H2. apply Rltb_false. lra.
    - intros u v c a _ Hin _. apply Rltb_false. apply (nbrs_iff eight D res HD m u v c Hwf) in Hin as (Hst & _ & ->).
      destruct goal as [g|]; unfold hused; cbn [somes goal_val].
      + pose proof (C32_consistent eight D n res u v g Hres HD Hfit Hst). lra.
      + assert (0 <= res * euclid u v)%R by (apply Rmult_le_pos; [exact Hres|apply sqrt_pos]). lra.
    - intros a b v _ _ H. apply Rltb_true in H. apply Rltb_true. lra.
    - intros f l v r _ H w Hw. apply Rltb_false. exact (Hmin f l v r H w Hw).
  Qed.

  (** Exact costs: A* with a norm that fits the neighbourhood, and Dijkstra. *)
  Theorem C78_work fuel op m first k from to r (o' : cobj) log : gm_wf m ->
    findPathN fuel op (CObj (new_sobj R 0%R inf m first) k) from to = ((r, o'), log) ->
    work_bounded eight m (getExpansions o') (getMultiExpansions o') (getTouchedNodes o' - n_touched k) /\
    (1 + (if eight then 8 else 4) * (gm_w m * gm_h m) < Z.of_nat fuel -> r <> FFuel).
  Proof using Hpush Hpop Hmin HD Hres Hfit.
    intros Hwf E.
    pose proof (count_bound 0%R inf Rplus Rltb Rplus (rcost D res) (hcompute n res) hyp push pop best eight D Hpush Hpop (fun _ => True)
      fuel op m first k from to r o' log Hwf HD (fun goal _ => real_steady m goal Hwf) E) as (A & B & F).
    apply (C78_counts 0%R Rplus Rltb Rplus (rcost D res) (hcompute n res) hyp push pop best eight D Hpush Hpop) in E as (_ & _ & _ & _ & G & _).
    unfold work_bounded. cbn [getTouchedNodes co_cnt] in G. change (getTouchedNodes (CObj (new_sobj R 0%R inf m first) k)) with (n_touched k) in G.
    assert (Hn : Z.of_nat (nsize eight) = if eight then 8 else 4) by (clear; destruct eight; reflexivity). rewrite Hn in B.
    assert (Hb : getExpansions o' <= 1 + (if eight then 8 else 4) * (getExpansions o' - getMultiExpansions o')) by (clear - B G; lia).
    assert (Hb' : getExpansions o' <= 1 + (if eight then 8 else 4) * (gm_w m * gm_h m)) by (clear - A Hb; destruct eight; lia).
    split; [split; [exact A|split; [exact B|split; [exact Hb|exact Hb']]]|]. intros Hf Hr. specialize (F Hr). clear - F Hf Hb'. lia.
  Qed.
End Real.

Section Ieee.
  Variable push : (cell -> b64) -> cell -> list cell -> list cell.
  Variable pop : (cell -> b64) -> list cell -> option (cell * list cell).
  Variable best : list (cell * b64) -> option cell.
  Variable hyp : cell -> cell -> b64.
  Variable eight : bool.
  Variable D : Z.
  Variable cost : bool -> b64.
  Hypothesis Hpush : push_ok push.
  Hypothesis Hpop : pop_ok pop.
  Hypothesis Hmin : forall f l v r, (forall w, In w l -> nonneg (f w)) -> pop f l = Some (v, r) ->
    forall w, In w l -> blt (f w) (f v) = false.
  Hypothesis HD : 0 < D.
  Hypothesis Hcost : forall d, nonneg (cost d).
  Notation findPathN := (findPathN bzero badd blt badd cost (fun _ _ => bzero) hyp push pop best eight D).

  Lemma badd_zero x : nonneg x -> badd x bzero = x.
  Proof using Type.
    intros [Hn Hs]. destruct x as [s|s| |s mm e He]; cbn in *; subst; try reflexivity; try discriminate.
  Qed.

  Lemma ieee_steady m goal : gm_wf m ->
    steady (all_cells m) bzero badd blt badd (nbrs b64 cost eight D m) (goal_val b64 bzero (fun _ _ => bzero) goal) pop (somes goal) nonneg.
  Proof using Hmin HD Hcost.
    intros Hwf.
    assert (K : forall a b, nonneg a -> nonneg b -> blt a b = false <-> (key b <= key a)%R).
    { intros a b Ha Hb. pose proof (blt_key a b Ha Hb). destruct (blt a b); split; intros G; try reflexivity; try discriminate.
      - destruct H as [H _]. specialize (H eq_refl). lra.
      - apply Rnot_lt_le. intros G'. apply H in G'. discriminate. }
    assert (Hz : nonneg bzero) by (split; reflexivity).
    assert (Hh : forall v, hused bzero (goal_val b64 bzero (fun _ _ => bzero) goal) (somes goal) v = bzero).
    { intros v. unfold hused. destruct goal; reflexivity. }
    assert (Hc : forall u v c, In (v, c) (nbrs b64 cost eight D m u) -> nonneg c).
    { intros u v c Hin. unfold nbrs in Hin. apply in_map_iff in Hin as ([w d] & Ed & _). injection Ed as _ <-. apply Hcost. }
    constructor.
    - exact Hz.
    - intros u v c a _ Hin Ha. apply badd_key; [exact Ha|]. eapply Hc. exact Hin.
    - intros a v Ha. rewrite Hh, badd_zero by exact Ha. exact Ha.
    - intros a Ha. apply K; [exact Ha|exact Ha|lra].
    - intros a b Ha Hb H. apply blt_key in H; [|assumption|assumption]. apply K; [assumption|assumption|lra].
    - intros a b c Ha Hb Hc' H1 H2. apply K in H1; [|assumption|assumption]. apply K in H2; [|assumption|assumption].
      apply K; [assumption|assumption|lra].
    - intros u v c a _ Hin Ha. destruct (badd_key a c Ha (Hc u v c Hin)) as [Hs Hk]. rewrite !Hh, !badd_zero by assumption.
      apply K; assumption.
    - intros a b v Ha Hb H. rewrite Hh, !badd_zero by assumption. exact H.
    - exact Hmin.
  Qed.

  (** Dijkstra in IEEE double arithmetic, whatever the rounding and even if
      distances overflow to infinity. *)
  Theorem C78_work_ieee fuel op m first k from to r (o' : cobj) log : gm_wf m ->
    findPathN fuel op (CObj (new_sobj b64 bzero binf m first) k) from to = ((r, o'), log) ->
    work_bounded eight m (getExpansions o') (getMultiExpansions o') (getTouchedNodes o' - n_touched k) /\
    (1 + (if eight then 8 else 4) * (gm_w m * gm_h m) < Z.of_nat fuel -> r <> FFuel).
  Proof using Hpush Hpop Hmin HD Hcost.
    intros Hwf E.
    pose proof (count_bound bzero binf badd blt badd cost (fun _ _ => bzero) hyp push pop best eight D Hpush Hpop nonneg
      fuel op m first k from to r o' log Hwf HD (fun goal _ => ieee_steady m goal Hwf) E) as (A & B & F).
    apply (C78_counts bzero badd blt badd cost (fun _ _ => bzero) hyp push pop best eight D Hpush Hpop) in E as (_ & _ & _ & _ & G & _).
    unfold work_bounded. change (getTouchedNodes (CObj (new_sobj b64 bzero binf m first) k)) with (n_touched k) in G.
    assert (Hn : Z.of_nat (nsize eight) = if eight then 8 else 4) by (clear; destruct eight; reflexivity). rewrite Hn in B.
    assert (Hb : getExpansions o' <= 1 + (if eight then 8 else 4) * (getExpansions o' - getMultiExpansions o')) by (clear - B G; lia).
    assert (Hb' : getExpansions o' <= 1 + (if eight then 8 else 4) * (gm_w m * gm_h m)) by (clear - A Hb; destruct eight; lia).
    split; [split; [exact A|split; [exact B|split; [exact Hb|exact Hb']]]|]. intros Hf Hr. specialize (F Hr). clear - F Hf Hb'. lia.
  Qed.
End Ieee.

(** ** Concrete searches *)
Notation plain := (Opts b64 false (fun _ _ => false) (fun _ => false)).
Notation astar := (findPathN bzero badd blt badd (d_cost 1 eighth) (d_heur d_hypot HeuristicL2 eighth)
  (fun c g => d_hypot (fst g - fst c) (snd g - snd c)) fifo_push (min_pop blt) (best_of blt) true 1).
(** Five rows of five cells; the goal in a corner is walled in. *)
Definition walled : gridmap :=
  gm_set [0;0;0;0;0; 0;0;0;0;0; 0;0;100;100;100; 0;0;100;100;100; 0;0;100;100;0] 5 5 (gm_new 5 5).
(** The wall leaves 16 cells to search; six of them are expanded twice although
    the heuristic is consistent: an improved cell is added again, and its old
    entry stays in the open list. *)
Example C78_example :
  let r := astar 100 plain (new_cobj bzero binf walled bzero) (0%Q, 0%Q) (4%Q, 4%Q) in
  fst (fst r) = FPath [] /\ getExpansions (snd (fst r)) = 22 /\ getMultiExpansions (snd (fst r)) = 6 /\
  getTouchedNodes (snd (fst r)) = 21 /\ length (snd r) = 22%nat.
Proof. vm_compute. repeat split. Qed.
Theorem C78_once_refuted : exists m from to r o' log,
  gm_wf m /\ astar 100 plain (new_cobj bzero binf m bzero) from to = ((r, o'), log) /\ ~ NoDup log /\ 0 < getMultiExpansions o'.
Proof.
  exists walled, (0%Q, 0%Q), (4%Q, 4%Q).
  destruct (astar 100 plain (new_cobj bzero binf walled bzero) (0%Q, 0%Q) (4%Q, 4%Q)) as [[r o'] log] eqn:E.
  exists r, o', log. split; [vm_compute; repeat split; discriminate || reflexivity|]. split; [reflexivity|].
  assert (El : snd (astar 100 plain (new_cobj bzero binf walled bzero) (0%Q, 0%Q) (4%Q, 4%Q)) = log) by (rewrite E; reflexivity).
  assert (Em : getMultiExpansions (snd (fst (astar 100 plain (new_cobj bzero binf walled bzero) (0%Q, 0%Q) (4%Q, 4%Q)))) = getMultiExpansions o') by (rewrite E; reflexivity).
  clear E. split.
  - rewrite <- El. clear. vm_compute. intros H. apply NoDup_cons_iff in H as [_ H]. do 5 (apply NoDup_cons_iff in H as [_ H]).
    apply NoDup_cons_iff in H as [H _]. apply H. right. left. reflexivity.
  - rewrite <- Em. clear. vm_compute. reflexivity.
Qed.
(** The touched nodes of earlier searches are still counted, also after setMap. *)
Theorem C78_touched_refuted : exists m from to,
  let o1 := snd (fst (astar 100 plain (new_cobj bzero binf m bzero) from to)) in
  let o2 := snd (fst (astar 100 plain (setMapN bzero binf o1 m) from to)) in
  gm_wf m /\ getExpansions o1 = 3 /\ getTouchedNodes o1 = 2 /\ getExpansions o2 = 3 /\ getTouchedNodes o2 = 4.
Proof. exists (gm_new 4 1), (0%Q, 0%Q), (3%Q, 0%Q). vm_compute. repeat split; discriminate || reflexivity. Qed.
Example C78_exhausted_met :
  let r := astar 100 plain (new_cobj bzero binf walled bzero) (0%Q, 0%Q) (4%Q, 4%Q) in
  getExpansions (snd (fst r)) = 1 + (getTouchedNodes (snd (fst r)) - 0).
Proof.
  destruct (astar 100 plain (new_cobj bzero binf walled bzero) (0%Q, 0%Q) (4%Q, 4%Q)) as [[r o'] log] eqn:E. cbn [fst snd].
  assert (El : forallb (fun v => negb (isGoal 1 (4, 4) v)) (snd (astar 100 plain (new_cobj bzero binf walled bzero) (0%Q, 0%Q) (4%Q, 4%Q))) = true)
    by (clear; vm_compute; reflexivity).
  assert (Er : fst (fst (astar 100 plain (new_cobj bzero binf walled bzero) (0%Q, 0%Q) (4%Q, 4%Q))) = FPath []) by (clear; vm_compute; reflexivity).
  rewrite E in El, Er. cbn [fst snd] in El, Er. subst r.
  refine (C78_exhausted _ _ _ _ _ _ _ _ _ _ _ _ (@fifo_push_ok _ _) (min_pop_ok blt) 100 plain (new_cobj bzero binf walled bzero) o'
    (0%Q, 0%Q) (4%Q, 4%Q) [] log (0, 0) (4, 4) _ _ _ _ _ _ _ _ _ E _).
  - intros f v l. unfold fifo_push. rewrite app_length. cbn [length]. lia.
  - clear. intros f l. induction l as [|x l IH]; intros v r H; [discriminate|]. cbn [min_pop] in H.
    destruct (min_pop blt f l) as [[m r']|] eqn:Em.
    + destruct (blt (f m) (f x)); injection H as <- <-; [cbn [length]; rewrite (IH m r' eq_refl); reflexivity|reflexivity].
    + injection H as <- <-. destruct l as [|y l]; [reflexivity|]. cbn [min_pop] in Em. destruct (min_pop blt f l) as [[m2 r2]|]; [destruct (blt _ _)|]; discriminate.
  - vm_compute; repeat split; discriminate || reflexivity.
  - split; split; vm_compute; (reflexivity || discriminate).
  - split; split; vm_compute; (reflexivity || discriminate).
  - vm_compute; repeat split; discriminate || reflexivity.
  - vm_compute; repeat split; discriminate || reflexivity.
  - intros [_ H]. vm_compute in H. discriminate.
  - reflexivity.
  - intros v Hv Hn. rewrite forallb_forall in El. specialize (El v Hv). apply C25_isGoal in Hn. rewrite Hn in El. discriminate.
Qed.
(** The bound of Dijkstra met by a concrete object. *)
Example C78_dijkstra_met r o' log :
  findPathN bzero badd blt badd (d_cost 1 eighth) (fun _ _ => bzero) (fun _ _ => bzero) fifo_push (min_pop blt) (best_of blt) true 1
    202 plain (new_cobj bzero binf walled bzero) (0%Q, 0%Q) (4%Q, 4%Q) = ((r, o'), log) ->
  work_bounded true walled (getExpansions o') (getMultiExpansions o') (getTouchedNodes o' - 0) /\ r <> FFuel.
Proof.
  intros E.
  assert (Hwf : gm_wf walled) by (vm_compute; repeat split; discriminate || reflexivity).
  destruct (C78_work_ieee fifo_push (min_pop blt) (best_of blt) (fun _ _ => bzero) true 1 (d_cost 1 eighth) (@fifo_push_ok _ _) (min_pop_ok blt)
    min_pop_ieee ltac:(lia) ltac:(intros []; vm_compute; split; reflexivity) 202 plain walled bzero (Cnt 0 0 0 0) (0%Q, 0%Q) (4%Q, 4%Q) r o' log Hwf E) as [A B].
  split; [exact A|]. apply B. vm_compute. reflexivity.
Qed.
Example C78_astar_met r o' log inf :
  findPathN 0%R Rplus Rltb Rplus (rcost 1 1) (hcompute HeuristicL2 1) (fun _ _ => 0%R) fifo_push (min_pop Rltb) (best_of Rltb) true 1
    202 (Opts R false (fun _ _ => false) (fun _ => false)) (new_cobj 0%R inf walled 0%R) (0%Q, 0%Q) (4%Q, 4%Q) = ((r, o'), log) ->
  work_bounded true walled (getExpansions o') (getMultiExpansions o') (getTouchedNodes o' - 0) /\ r <> FFuel.
Proof.
  intros E. destruct real_policy as (A & B & M & _).
  assert (Hwf : gm_wf walled) by (vm_compute; repeat split; discriminate || reflexivity).
  destruct (C78_work fifo_push (min_pop Rltb) (best_of Rltb) (fun _ _ => 0%R) inf true 1 HeuristicL2 1%R A B M ltac:(lia) ltac:(lra) Logic.I
    202 _ walled 0%R (Cnt 0 0 0 0) (0%Q, 0%Q) (4%Q, 4%Q) r o' log Hwf E) as [F G].
  split; [exact F|]. apply G. vm_compute. reflexivity.
Qed.
Print Assumptions C78_counts.
Print Assumptions C78_work.
Print Assumptions C78_work_ieee.
