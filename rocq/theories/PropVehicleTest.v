(** C74, C75: vehicle searches with candidates (oversearch), with a candidate callback and
    with the caller's own goal test; getPathCandidates. *)
From Coq Require Import Reals Lra Permutation Sorted.
From Flocq Require Import Core.Raux.
From Verif Require Import Base GridMap GridMapProofs GridSpec Bresenham BresenhamProofs GeomR PropGeom PropLine MapManagers SteerModel PropSteer PropSteerKin PropSteerCost PropSteerGoal
  GenericProofs OpenPolicies VehicleSearch VehicleProofs VehicleAny VehicleModel VehicleInst VehicleGen PropVehicle PropVehicleEnd VehicleTest VehicleTestProofs VehicleTestDone VehicleFind PropDynLine.
Local Open Scope R_scope.

(** ** Specification *)
(** One move of the vehicle. *)
Definition nb_move (clamp : R -> R) (p : sparams) (so : sopts) (b : nbh) : snode -> list snode -> R -> snode -> Prop :=
  match b with NDyn o => d_move clamp p so (Z.of_nat (do_steps o)) | NTmp _ steps _ => s_move clamp p so (Z.of_nat steps) end.
Definition nb_ok (b : nbh) : Prop := match b with NDyn _ => True | NTmp size _ _ => (size <= 6)%Z end.
(** The goal test was asked about the pose [q] and added it with the weight [w]. *)
Definition added (log : list (wcall vkey snode)) (q : snode) (w : R) : Prop := exists c, In c log /\ wc_pay _ _ c = q /\ In w (wc_cands _ _ c).
Definition best (log : list (wcall vkey snode)) (q : snode) (w : R) : Prop := added log q w /\ forall q' w', added log q' w' -> w <= w'.
(** All additions, in their order. *)
Definition additions (log : list (wcall vkey snode)) : list (snode * R) := flat_map (fun c => map (fun w => (wc_pay _ _ c, w)) (wc_cands _ _ c)) log.
(** What the goal test of the neighbourhood accepts: as in C60. [o]: the pose before. *)
Definition at_goal (p : sparams) (b : nbh) (goal : R * R * R) (o : option snode) (q : snode) : Prop :=
  match b with
  | NDyn d => world_dist (sp_res p) (spos q) (at_pt goal) < do_dist d + sqrt 2 * sp_res p /\
      (heading_within (sn_th q) (snd goal) (do_ang d) \/ heading_within (sn_th q) 0 (do_ang d + PI / 31))
  | NTmp _ _ _ => exists gp, dist (spos gp) (at_pt goal) <= sqrt 2 /\ (sn_th gp = snd goal \/ heading_within (sn_th gp) 0 (PI / 31)) /\ heading_within (sn_th gp) (sn_th q) (PI / 8) /\
      (world_dist (sp_res p) (eff_goal p gp q) (spos q) < 5 / 100 \/ exists o' t, o = Some o' /\ 0 <= t <= 1 /\ world_dist (sp_res p) (eff_goal p gp q) (between (spos o') (spos q) t) < / 10)
  end.
(** The pose [q] is accepted; the pose before is in the slot of one from which a move
    leads to [q]. *)
Definition accepted (clamp : R -> R) (p : sparams) (so : sopts) (b : nbh) (goal : R * R * R) (q : snode) : Prop :=
  exists o, at_goal p b goal o q /\ forall o', o = Some o' -> exists q' prevs c, slot_of clamp q' = slot_of clamp o' /\ nb_move clamp p so b q' prevs c q.
(** A path (newest pose first) that can be driven, for each order of the open list. *)
Definition drivable (clamp : R -> R) (m : gridmap) (skips : Z) (p : sparams) (so : sopts) (b : nbh) (a g : R * R * R) (l : list snode) : Prop :=
  exists s, start_node a g s /\ near_trip clamp (nb_move clamp p so b) s l /\ passable m skips l /\ (forall n, In n l -> has_nodes m (pcell n)).

(** Every call but the last: within the window of the oversearch behind the first
    addition. *)
Definition in_window (osd : R) (log : list (wcall vkey snode)) : Prop :=
  forall l1 c l2 c' l3, log = l1 ++ c :: l2 ++ c' :: l3 \/ (c = c' /\ log = l1 ++ c :: l3) -> wc_cands _ _ c <> [] -> l3 <> [] -> (forall e, In e l1 -> wc_cands _ _ e = []) ->
  wc_total _ _ c' <= wc_total _ _ c + osd.
(** Paths in the order of the search, one for each addition, the least weights first;
    each can be driven and ends in the slot of the pose that was added. *)
Definition candidate_paths (clamp : R -> R) (m : gridmap) (skips : Z) (p : sparams) (so : sopts) (b : nbh) (a g : R * R * R) (log : list (wcall vkey snode)) (ps : list (list (vkey * snode))) : Prop :=
  exists qs, Permutation (additions log) qs /\ StronglySorted (fun x y => snd x <= snd y) qs /\
    Forall2 (fun x path => exists n l, rev (map snd path) = n :: l /\ drivable clamp m skips p so b a g (n :: l) /\ slot_of clamp n = slot_of clamp (fst x)) qs ps.
(** The calls are those of the test, in this order, each with the state the one before
    left; nothing is asked after it said stop. *)
Inductive asked {T} (test : T -> (vkey -> vinfo vkey snode) -> vkey -> T * list R * bool) : T -> list (wcall vkey snode) -> Prop :=
| asked_none t : asked test t []
| asked_one t f c l t' stop : test t f (wc_node _ _ c) = (t', wc_cands _ _ c, stop) -> n_pay _ _ (f (wc_node _ _ c)) = wc_pay _ _ c ->
    (stop = true -> l = []) -> asked test t' l -> asked test t (c :: l).
(** No cell of the segment between two poses is occupied. *)
Definition free_way (m : gridmap) (q n : snode) : Prop :=
  ~ occupied m (Ztrunc (sn_x q)) (Ztrunc (sn_y q)) /\
  forall l, segment_cells (fst (pcell q)) (snd (pcell q)) (fst (pcell n)) (snd (pcell n)) l -> forall c, In c l -> ~ occupied m (fst c) (snd c).
(** Nobody stopped the search and its last node was within the window. *)
Definition ran_out (osd : R) (log : list (wcall vkey snode)) : Prop :=
  (forall c, In c log -> wc_ans _ _ c = AGo) /\
  (osd = 0 \/ forall l1 c l2 l0 c', log = l1 ++ c :: l2 -> wc_cands _ _ c <> [] -> (forall e, In e l1 -> wc_cands _ _ e = []) -> log = l0 ++ [c'] -> wc_total _ _ c' <= wc_total _ _ c + osd).
(** The start was asked about, and every move along free cells from a pose that was asked
    about leads to a slot that was asked about. *)
Definition exhaustive (clamp : R -> R) (m : gridmap) (p : sparams) (so : sopts) (b : nbh) (a g : R * R * R) (log : list (wcall vkey snode)) : Prop :=
  (~ occupied m (fst (cell_at a)) (snd (cell_at a)) -> forall f, exists c, In c log /\ start_node a g (wc_pay _ _ c) /\ sn_fwd (wc_pay _ _ c) = f) /\
  forall c i k, In c log -> In (i, k) (nb_moves b) -> exists prevs, forall cost n, nb_advance clamp p so b (wc_pay _ _ c) prevs i k = AMove cost n ->
    free_way m (wc_pay _ _ c) n -> has_nodes m (pcell n) ->
    exists c', In c' log /\ (slot_of clamp (wc_pay _ _ c') = slot_of clamp n \/ (start_node a g (wc_pay _ _ c') /\ pcell (wc_pay _ _ c') = pcell n)).
(** Sizes for which no conversion is undefined. *)
Definition nb_sized (p : sparams) (b : nbh) : Prop :=
  sp_step p / sp_res p <= 536870912 /\
  match b with
  | NDyn o => sp_la p / sp_res p <= 536870912 /\ Rabs (sp_delta p) * IZR (Z.of_nat (do_steps o)) < 2147483648
  | NTmp _ steps _ => sp_both p = true /\ Rabs (sp_delta p) * IZR (Z.of_nat steps) < 2147483648
  end.

(** ** Proofs *)
Section Props.
  Variable clamp : R -> R.
  Hypothesis Hclamp : AngleClamp_contract clamp.
  Variable m : gridmap.
  Hypothesis Hm : map_ok m.
  Variable skips : Z.
  Hypothesis Hskips : (0 <= skips)%Z.
  Variable p : sparams.
  Variable so : sopts.
  Hypothesis Hk : vehicle_ok p so.
  Variable b : nbh.
  Hypothesis Hb : nb_ok b.
  Variable hval : snode -> snode -> R.
  Variable tot : R -> R -> R.
  Variable push : (vkey -> R) -> vkey -> list vkey -> list vkey.
  Variable pop : (vkey -> R) -> list vkey -> option (vkey * list vkey).
  Hypothesis Hpush : push_ok push.
  Hypothesis Hpop : pop_ok pop.
  Variable queue : list (vkey * R) -> list (vkey * R).
  Hypothesis Hqueue : queue_ok queue.
  Variable timeout : nat -> bool.
  Variable bf : nat.
  Variable osd : R.

  Notation adv := (nb_advance clamp p so b).
  Notation moves := (nb_moves b).
  Notation reach := (nb_reach p b).
  Notation offer := (nb_offer clamp m skips p so b).
  Notation gens := (move_costs p so).
  Notation vmove := (vmove m skips adv moves).
  Notation starts_at := (starts_at m).
  Notation begun := (begun m).
  Notation rch start pay := (VehicleAny.rch moves offer start pay).
  Notation WW start pay := (VehicleAny.W moves offer start pay (all_keys m) gens).
  Notation inf := (v_info vkey snode).
  Notation npay := (n_pay vkey snode).

  Lemma nb_cost ref prevs i s c n : adv ref prevs i s = AMove c n -> In (c * sp_res p) gens.
  Proof using Hk. clear Hb. destruct b; cbn [nb_advance]; intros E; [apply (d_cost_in clamp p so ref prevs i s c n Hk E)|apply (s_cost_in clamp p so ref prevs i s c n E)]. Qed.
  Lemma nb_prev ref prevs i s : adv ref (firstn reach prevs) i s = adv ref prevs i s.
  Proof using Type. clear Hb. destruct b; cbn [nb_advance nb_reach]; [reflexivity|apply s_prevs]. Qed.
  Lemma vmove_move ref prevs c n : vmove ref prevs c n -> nb_move clamp p so b ref prevs c n.
  Proof using Hb.
    intros (([i k] & Hin & Ha) & _). destruct b as [o|size steps distance]; cbn [nb_moves nb_advance nb_move nb_ok fst snd] in *.
    - destruct (d_moves_in o i k Hin) as (A & B & _). exists i, k. auto.
    - apply v_moves_in in Hin. destruct Hin as (A & B). exists i, k. split; [clear - Hb A; lia|]. split; assumption.
  Qed.

  Let Hwf : gm_wf m := mk_wf m Hm.
  Let Hsm := mk_small m Hm.
  Let Hw := mk_w m Hm.
  Let Hh := mk_h m Hm.

  Lemma trip_drivable a g s l : starts_at a g s -> near_trip clamp vmove s l -> drivable clamp m skips p so b a g l.
  Proof using Hm Hskips Hb.
    intros Hs Ht. exists s. split; [apply (start_node_of m); exact Hs|]. split; [eapply near_mono; [|exact Ht]; intros; eapply vmove_move; eassumption|]. split.
    - eapply near_passable; [exact Hm|exact Hskips|exact Ht|]. intros r prevs c n (_ & H & _). exact H.
    - clear - Ht Hs. destruct Hs as (Hi & _ & f & Es). induction Ht as [|n0 r l0 r' prevs c H IH _ _ M]; intros x Hx.
      + destruct Hx as [<-|[]]. rewrite Es. unfold pcell, at_corner. cbn [sn_x sn_y]. rewrite !Zfloor_IZR. exact Hi.
      + destruct Hx as [<-|Hx]; [|apply IH; exact Hx]. destruct M as (_ & _ & M). exact M.
  Qed.

  Lemma begin1_ok from start pay : v_begin1 clamp m from = Some (start, pay) -> begun from from start [] pay.
  Proof using Hclamp Hm.
    destruct from as [[x y] th]. unfold v_begin1. destruct (v_poses clamp m x y v_node0) as [a|] eqn:Ea; [|discriminate]. cbn [obind]. intros E.
    assert (Hi : inner m (Zfloor x) (Zfloor y)).
    { unfold v_poses in Ea. destruct (v_lookup clamp m x y 0 true) as [v|] eqn:E1; [|discriminate]. apply (lookup_inv clamp Hclamp m Hsm Hw Hh _ _ _ _ _ E1). }
    destruct (poses_ok clamp Hclamp m Hsm Hw Hh x y v_node0 Hi) as (p1 & E1 & A1 & _). rewrite Ea in E1. injection E1 as ->. cbn [fst snd] in E.
    destruct (init_ok m Hwf Hsm th (Zfloor x) (Zfloor y) p1 Hi) as (o & Eo & X).
    { intros f. exists (- PI + 2 * PI / 32 * 15). rewrite A1. reflexivity. }
    destruct (occ1_spec m Hwf (Zfloor x) (Zfloor y)) as (o' & Eo' & Ho). rewrite Eo in Eo'. injection Eo' as <-.
    constructor; cbn [cell_at fst snd]; [exact Hi|exact Hi| |intros v []].
    rewrite !Z.eqb_refl. cbn [andb]. destruct o.
    - rewrite X in E. injection E as <- <-. intros v [].
    - destruct X as (pay' & X & A & _). rewrite X in E. injection E as <- <-. intros v Hv. split; [intros Y; apply Ho in Y; discriminate|].
      destruct Hv as [<-|[<-|[]]]; [exists true|exists false]; (split; [reflexivity|apply A]).
  Qed.

  (** ** What is known at the end of any run *)
  Section Run.
    Context {T : Type}.
    Variable a g : R * R * R.
    Variable start goals : list vkey.
    Variable pay : vkey -> snode.
    Hypothesis Hbeg : begun a g start goals pay.
    Variable hgoal : option snode.
    Variable term : T -> (vkey -> vinfo vkey snode) -> vkey -> option (T * list R * vanswer).
    Notation run := (wrun vkey snode (Z * Z) T vkey_eqb moves reach offer hval tot push pop start goals hgoal osd queue term timeout bf).
    Notation W := (WW start pay).

    Lemma keys0 u q qs mv v c n : rch start pay u q -> In mv moves -> offer q qs mv = Some (Some (v, c, n)) -> In v (all_keys m) /\ In c gens.
    Proof using Hclamp Hm Hk. intros _ H1 H2. apply (keys_offer clamp Hclamp m Hsm Hw Hh skips (sp_res p) adv moves gens nb_cost q qs mv v c n H1 H2). Qed.
    Lemma any_run fuel t r ws log : run fuel t pay = (r, ws, log) ->
      ended vkey_eqb moves offer start queue term bf pay (all_keys m) gens r ws log /\ ws_cand _ _ ws = cands_of log.
    Proof using Hclamp Hm Hk Hpush Hpop Hbeg.
      intros E. apply (run_test vkey_eqb vkey_eqb_spec moves reach offer hval tot push pop Hpush Hpop start goals hgoal osd queue term timeout bf pay (all_keys m) gens
        (costs_pos p so Hk) (keys_start m _ _ _ _ _ Hbeg) keys0 fuel t r ws log E).
    Qed.
    Lemma arrived_drive path v q : arrived moves offer start pay path v q -> exists l, rev (map snd path) = q :: l /\ drivable clamp m skips p so b a g (q :: l).
    Proof using Hclamp Hm Hk Hskips Hb Hbeg.
      intros (l & E & Hd & _ & _). destruct (weak_near clamp Hclamp m Hsm Hw Hh skips (sp_res p) adv moves gens nb_cost start goals pay a g Hbeg _ Hd) as (s & Hs & Ht & _).
      exists (map snd l). split; [rewrite <- map_rev, E; reflexivity|]. apply (trip_drivable a g s); assumption.
    Qed.
    (** Two contents of a node lie in the same slot. *)
    Lemma same_slot v q q' : rch start pay v q -> rch start pay v q' -> (In v start -> q = pay v) -> (In v start -> q' = pay v) -> slot_of clamp q = slot_of clamp q'.
    Proof using Hclamp Hm Hk.
      intros H1 H2 S1 S2.
      destruct (rch_slot clamp Hclamp m Hsm Hw Hh skips (sp_res p) adv moves gens nb_cost start pay v q H1) as [[Hv ->]|E1]; [rewrite (S2 Hv); reflexivity|].
      destruct (rch_slot clamp Hclamp m Hsm Hw Hh skips (sp_res p) adv moves gens nb_cost start pay v q' H2) as [[Hv ->]|E2]; [rewrite (S1 Hv); reflexivity|]. congruence.
    Qed.
    Lemma arrived_start path v q : arrived moves offer start pay path v q -> In v start -> q = pay v.
    Proof using Type. intros (l & _ & Hd & _) Hv. inversion Hd as [|? ? ? ? ? ? ? Hn]; [reflexivity|contradiction]. Qed.

    Lemma cands_in log v w : In (v, w) (cands_of log) <-> exists c, In c log /\ wc_node vkey snode c = v /\ In w (wc_cands _ _ c).
    Proof using Type.
      unfold cands_of. rewrite in_flat_map. split.
      - intros (c & Hc & Hi). apply in_map_iff in Hi. destruct Hi as (w' & E & Hw'). injection E as <- <-. eauto.
      - intros (c & Hc & <- & Hi). exists c. split; [exact Hc|]. apply in_map_iff. eauto.
    Qed.

    (** The path that is returned, unless the test asks for one. *)
    Lemma finish_best r ws log path : ended vkey_eqb moves offer start queue term bf pay (all_keys m) gens r ws log -> ws_cand _ _ ws = cands_of log ->
      wfinish vkey snode vkey_eqb start queue bf ws = VPath _ _ path ->
      (path = [] /\ forall q w, ~ added log q w) \/
      exists n l q w v, rev (map snd path) = n :: l /\ drivable clamp m skips p so b a g (n :: l) /\ best log q w /\ slot_of clamp n = slot_of clamp q /\
        n = npay (inf (ws_s _ _ ws) v) /\ (exists rest, queue (ws_cand _ _ ws) = (v, w) :: rest) /\
        (exists c, In c log /\ wc_node _ _ c = v /\ wc_pay _ _ c = q /\ In w (wc_cands _ _ c)).
    Proof using Hclamp Hm Hk Hskips Hb Hqueue Hbeg.
      intros He Ec Ef. destruct (finish_W vkey_eqb vkey_eqb_spec moves offer start queue Hqueue bf pay (all_keys m) gens ws path) as [[-> E0]|(v & w & Hin & Hle & Harr & Hq)].
      - apply (e_W _ _ _ _ _ _ _ _ _ _ _ _ _ He).
      - apply (e_closed _ _ _ _ _ _ _ _ _ _ _ _ _ He).
      - exact Ef.
      - left. split; [reflexivity|]. intros q w (c & Hc & _ & Hw'). rewrite Ec in E0. assert (X : In (wc_node _ _ c, w) (cands_of log)) by (apply cands_in; eauto). rewrite E0 in X. destruct X.
      - right. rewrite Ec in Hin, Hle. pose proof Hin as Hin'. apply cands_in in Hin'. destruct Hin' as (c & Hc & Hv & Hwc).
        destruct (e_calls _ _ _ _ _ _ _ _ _ _ _ _ _ He c Hc) as (_ & Hr & Hst & _). rewrite Hv in Hr, Hst.
        destruct (arrived_drive path v _ Harr) as (l & El & Hd).
        exists (npay (inf (ws_s _ _ ws) v)), l, (wc_pay _ _ c), w, v. split; [exact El|]. split; [exact Hd|]. split; [|split; [|split; [reflexivity|split; [exact Hq|eauto]]]].
        + split; [exists c; auto|]. intros q' w' (c' & Hc' & _ & Hw'). apply (Hle (wc_node _ _ c') w'). apply cands_in. eauto.
        + destruct Harr as (l0 & E0 & Hd0 & Hr0 & Hn0). apply (same_slot v); [exact Hr0|exact Hr| |exact Hst].
          apply (arrived_start path v). exists l0. split; [exact E0|]. split; [exact Hd0|]. split; [exact Hr0|exact Hn0].
    Qed.

    (** Least distance first. *)
    Hypothesis tot_dist : forall d h, tot d h = d.
    Hypothesis pop_least : least_first pop.
    Lemma drove_trip path v q : drove moves reach offer start pay path v q -> exists s c l, rev (map snd path) = q :: l /\ starts_at a g s /\ trip (nb_move clamp p so b) s (q :: l) c.
    Proof using Hclamp Hm Hk Hb Hbeg.
      intros (l & cost & E & Hd).
      destruct (drive_trip clamp Hclamp m Hsm Hw Hh skips (sp_res p) adv moves reach gens nb_cost nb_prev start goals pay a g Hbeg _ _ Hd) as (s & c & Hs & _ & Ht & _).
      exists s, c, (map snd l). split; [rewrite <- map_rev, E; reflexivity|]. split; [exact Hs|]. eapply trip_mono; [|exact Ht]. intros; eapply vmove_move; eassumption.
    Qed.
    Lemma least_run fuel t path ws log : run fuel t pay = (VPath _ _ path, ws, log) ->
      (path = [] /\ forall q w, ~ added log q w) \/
      exists s c n l, rev (map snd path) = n :: l /\ starts_at a g s /\ trip (nb_move clamp p so b) s (n :: l) c /\
        ((exists w, best log n w) \/ exists l0 e, log = l0 ++ [e] /\ wc_ans _ _ e = AReturn /\ wc_pay _ _ e = n).
    Proof using Hclamp Hm Hk Hskips Hb Hpush Hpop Hqueue Hbeg tot_dist pop_least.
      intros E. destruct (any_run fuel t _ ws log E) as [He Ec].
      destruct (fun A B => run_least vkey_eqb vkey_eqb_spec moves reach offer hval tot push pop Hpush Hpop start goals hgoal osd queue term timeout bf pay (all_keys m) A B
        (keys_start m _ _ _ _ _ Hbeg) tot_dist pop_least fuel t _ ws log E) as ((E0 & HK) & Hcalls & Hpath).
      - intros q qs mv v c n Ho. destruct (offer_inv clamp Hclamp m Hsm Hw Hh skips (sp_res p) adv _ _ _ _ _ _ Ho) as (cost & Ea & -> & _).
        apply Rlt_le, (costs_pos p so Hk), (nb_cost _ _ _ _ _ _ Ea).
      - intros q qs mv v c n Hmv Ho. apply (keys_offer clamp Hclamp m Hsm Hw Hh skips (sp_res p) adv moves gens nb_cost q qs mv v c n Hmv Ho).
      - destruct (Hpath path eq_refl) as [(l0 & e & El & Ea & Hd)|Ef].
        { right. destruct (drove_trip _ _ _ Hd) as (s & c & l & H1 & H2 & H3). exists s, c, (wc_pay _ _ e), l. split; [exact H1|]. split; [exact H2|]. split; [exact H3|]. right. eauto. }
        destruct (finish_best _ ws log path He Ec (eq_sym Ef)) as [X|(n & l & q & w & v & H1 & _ & H3 & _ & En & (rest & Erest) & (c & Hc & Hv & Hq & _))]; [left; exact X|right].
        destruct (Hcalls c Hc) as [Hcl Hpay]. rewrite Hv in Hcl, Hpay. rewrite Hq in Hpay.
        assert (Hd : drove moves reach offer start pay path v (npay (inf (ws_s _ _ ws) v))).
        { unfold wfinish in Ef. rewrite Erest in Ef. destruct (vback _ _ _ _ _ _ v _ _) as [lb|] eqn:Eb; [|discriminate]. injection Ef as ->.
          apply (back_K vkey_eqb vkey_eqb_spec moves reach offer start bf pay (all_keys m) E0 (ws_s _ _ ws) v lb HK Hcl Eb). }
        destruct (drove_trip _ _ _ Hd) as (s & cost & l' & G1 & G2 & G3). rewrite Hpay in *. subst n.
        exists s, cost, q, l'. split; [exact G1|]. split; [exact G2|]. split; [exact G3|]. left. exists w. exact H3.
    Qed.
  End Run.

  Notation findt fuel := (v_findt clamp m skips p so b hval tot push pop queue timeout bf fuel osd).
  Notation findo fuel := (v_findo clamp m skips p so b hval tot push pop queue timeout bf fuel osd).

  Lemma driven_of (path p0 : list (vkey * snode)) : path = (if sp_rev p then rev p0 else p0) -> driven (sp_rev p) path = rev (map snd p0).
  Proof using Type. intros ->. unfold driven. destruct (sp_rev p); [apply map_rev|reflexivity]. Qed.
  Lemma found_inv start x path cands log : vf_of p queue bf start x = VF (VPath _ _ path) cands log ->
    exists p0 ws, x = (VPath _ _ p0, ws, log) /\ path = (if sp_rev p then rev p0 else p0) /\ cands = wcandidates vkey snode vkey_eqb start queue bf ws.
  Proof using Type.
    unfold vf_of. destruct x as [[r ws] lg]. cbn [fst snd]. intros E. injection E as E1 E2 E3. destruct r as [| |p0]; try discriminate. injection E1 as <-. subst. eauto 6.
  Qed.
  Lemma rev_nil (p0 : list (vkey * snode)) : (if sp_rev p then rev p0 else p0) = [] -> p0 = [].
  Proof using Type. destruct (sp_rev p); [|auto]. intros E. apply (f_equal (@rev _)) in E. rewrite rev_involutive in E. exact E. Qed.

  (** *** The caller's own goal test *)
  Lemma test_any {T} fuel hgoal test (t : T) from path cands log : findt fuel hgoal test t from = VF (VPath _ _ path) cands log ->
    (path = [] /\ forall q w, ~ added log q w) \/
    exists n l q w, driven (sp_rev p) path = n :: l /\ drivable clamp m skips p so b from from (n :: l) /\ best log q w /\ slot_of clamp n = slot_of clamp q.
  Proof using Hclamp Hm Hskips Hk Hb Hpush Hpop Hqueue.
    unfold v_findt. destruct (v_begin1 clamp m from) as [[start pay]|] eqn:Eb; [|discriminate]. intros E. apply found_inv in E. destruct E as (p0 & ws & E & Ep & _).
    pose proof (begin1_ok _ _ _ Eb) as Hbeg. destruct (any_run from from start [] pay Hbeg _ _ _ _ _ _ _ E) as [He Ec]. rewrite (driven_of _ _ Ep).
    destruct (e_path _ _ _ _ _ _ _ _ _ _ _ _ _ He p0 eq_refl) as [(l0 & c & -> & Ea & _)|[Ef _]].
    - exfalso. destruct (e_calls _ _ _ _ _ _ _ _ _ _ _ _ _ He c) as (_ & _ & _ & t1 & t2 & s & _ & _ & _ & Et); [apply in_or_app; right; left; reflexivity|].
      rewrite Ea in Et. destruct (test t1 (inf s) (wc_node _ _ c)) as [[t3 cs] stop]. destruct stop; discriminate.
    - destruct (finish_best from from start [] pay Hbeg _ _ _ log p0 He Ec (eq_sym Ef)) as [[-> X]|(n & l & q & w & v & H1 & H2 & H3 & H4 & _)].
      + left. split; [rewrite Ep; destruct (sp_rev p); reflexivity|exact X].
      + right. exists n, l, q, w. auto.
  Qed.
  Lemma test_least {T} fuel hgoal test (t : T) from path cands log : (forall d h, tot d h = d) -> least_first pop -> findt fuel hgoal test t from = VF (VPath _ _ path) cands log ->
    (path = [] /\ forall q w, ~ added log q w) \/
    exists s c n l w, driven (sp_rev p) path = n :: l /\ start_node from from s /\ trip (nb_move clamp p so b) s (n :: l) c /\ best log n w.
  Proof using Hclamp Hm Hskips Hk Hb Hpush Hpop Hqueue.
    intros Htot Hleast. unfold v_findt. destruct (v_begin1 clamp m from) as [[start pay]|] eqn:Eb; [|discriminate]. intros E. apply found_inv in E. destruct E as (p0 & ws & E & Ep & _).
    pose proof (begin1_ok _ _ _ Eb) as Hbeg. destruct (any_run from from start [] pay Hbeg _ _ _ _ _ _ _ E) as [He _]. rewrite (driven_of _ _ Ep).
    destruct (least_run from from start [] pay Hbeg _ _ Htot Hleast _ _ _ _ _ E) as [[-> X]|(s & c & n & l & H1 & H2 & H3 & H4)].
    - left. split; [rewrite Ep; destruct (sp_rev p); reflexivity|exact X].
    - right. destruct H4 as [[w Hw']|(l0 & e & -> & Ea & _)].
      + exists s, c, n, l, w. split; [exact H1|]. split; [apply (start_node_of m); exact H2|]. split; [exact H3|exact Hw'].
      + exfalso. destruct (e_calls _ _ _ _ _ _ _ _ _ _ _ _ _ He e) as (_ & _ & _ & t1 & t2 & s0 & _ & _ & _ & Et); [apply in_or_app; right; left; reflexivity|].
        rewrite Ea in Et. destruct (test t1 (inf s0) (wc_node _ _ e)) as [[t3 cs] stop]. destruct stop; discriminate.
  Qed.

  (** *** The goal test of the neighbourhood *)
  Lemma accepts_goal g gp o q : goal_node clamp m g gp -> nb_isgoal p b gp q o = Some true -> at_goal p b g o q.
  Proof using Hclamp Hk.
    clear Hb. intros Hg Hi. destruct b as [d|size steps distance]; cbn [nb_isgoal at_goal] in *.
    - injection Hi as Hi. apply C57_dynamic in Hi. destruct Hi as [Ha Hd]. split.
      + pose proof (goal_close clamp m _ gp Hg) as Hcl. unfold world_dist in *. pose proof (dist_tri (spos q) (spos gp) (at_pt g)) as T. destruct Hk as [_ B _ _ _ _].
        assert (S1 : dist (spos q) (spos gp) = dist (spos gp) (spos q)) by (rewrite !dist_hyp; unfold hyp; f_equal; ring). rewrite S1 in T.
        assert (dist (spos q) (at_pt g) * sp_res p <= (dist (spos gp) (spos q) + sqrt 2) * sp_res p) by (apply Rmult_le_compat_r; lra). lra.
      + destruct Hg as (_ & _ & [(f & ->)|(_ & E15)]).
        * left. apply heading_sym. exact Ha.
        * right. eapply heading_tri; [apply heading_sym; exact Ha|apply (slot15 clamp); assumption].
    - exists gp. split; [apply (goal_close clamp m); exact Hg|]. split; [destruct Hg as (_ & _ & [(f & ->)|(_ & E15)]); [left; reflexivity|right; apply (slot15 clamp); assumption]|].
      destruct (C57_template_sound p distance gp q o (vk_res _ _ Hk) Hi) as (A & _ & B). split; [exact A|]. destruct B as [B|(q' & t & -> & B)]; [left; exact B|right]. exists q', t. split; [reflexivity|exact B].
  Qed.

  Section Pose.
    Context {T : Type}.
    Variable a g : R * R * R.
    Variable start goals : list vkey.
    Variable pay : vkey -> snode.
    Hypothesis Hbeg : begun a g start goals pay.
    Variable cb : option (T -> list (vkey * snode) -> T * bool).
    Notation term := (pose_term vkey snode T vkey_eqb start goals (nb_isgoal p b) goal_dist osd cb bf).
    Notation before f cur := (match n_prev vkey snode (f cur) with Some u => Some (npay (f u)) | None => None end).

    Lemma goal_pay s v : WW start pay s -> In v goals -> goal_node clamp m g (npay (inf s v)).
    Proof using Hclamp Hm Hk Hbeg.
      intros HW Hv. apply (goal_of clamp Hclamp m Hsm Hw Hh skips (sp_res p) adv moves gens nb_cost a g start goals pay v _ Hbeg Hv).
      destruct (vseen_dec (inf s) v) as [H|H]; [right; apply (w_rch _ _ _ _ _ _ s HW); exact H|left; apply (w_fresh _ _ _ _ _ _ s HW); exact H].
    Qed.
    Lemma before_ok s v : WW start pay s -> n_closed _ _ (inf s v) = true -> forall o, before (inf s) v = Some o ->
      exists q' prevs c, slot_of clamp q' = slot_of clamp o /\ nb_move clamp p so b q' prevs c (npay (inf s v)).
    Proof using Hclamp Hm Hk Hb Hbeg.
      intros HW Hc o E. destruct (vmem vkey vkey_eqb v start) eqn:Em.
      - apply (vmem_spec vkey_eqb vkey_eqb_spec) in Em. destruct (w_start _ _ _ _ _ _ s HW v Em) as (_ & _ & X & _). rewrite X in E. discriminate.
      - assert (Hns : ~ In v start) by (intros X; apply (vmem_spec vkey_eqb vkey_eqb_spec) in X; congruence).
        destruct (w_prev _ _ _ _ _ _ s HW v (or_intror Hc) Hns) as (u & c & Ex & Hu & (q' & qs & mv & Hr & Hst & Hmv & Ho) & _). rewrite Ex in E. injection E as <-.
        destruct (offer_move clamp Hclamp m Hsm Hw Hh skips (sp_res p) adv moves gens nb_cost _ _ _ _ _ _ Hmv Ho) as (cost & _ & Hvm & _).
        exists q', qs, cost. split; [|apply vmove_move; exact Hvm].
        apply (same_slot start pay u); [exact Hr|apply (w_rch _ _ _ _ _ _ s HW); right; exact Hu|exact Hst|]. intros Hs. apply (w_start _ _ _ _ _ _ s HW u Hs).
    Qed.
    Lemma accepted_of s v gv : WW start pay s -> n_closed _ _ (inf s v) = true -> In gv goals ->
      nb_isgoal p b (npay (inf s gv)) (npay (inf s v)) (before (inf s) v) = Some true -> accepted clamp p so b g (npay (inf s v)).
    Proof using Hclamp Hm Hk Hb Hbeg.
      intros HW Hc Hg Hi. exists (before (inf s) v). split; [eapply accepts_goal; [apply (goal_pay s gv HW Hg)|exact Hi]|]. apply (before_ok s v HW Hc).
    Qed.
    Lemma near_weight s gv q : WW start pay s -> In gv goals -> Rabs (goal_dist (npay (inf s gv)) q - dist (spos q) (at_pt g)) <= sqrt 2.
    Proof using Hclamp Hm Hk Hbeg.
      intros HW Hg. pose proof (goal_close clamp m g _ (goal_pay s gv HW Hg)) as Hcl. set (gp := npay (inf s gv)) in *. clearbody gp.
      assert (E : goal_dist gp q = dist (spos q) (spos gp)) by (unfold goal_dist; rewrite dist_hyp; unfold hyp; cbn [spos px py]; f_equal; ring).
      pose proof (dist_tri (spos q) (spos gp) (at_pt g)) as T1. pose proof (dist_tri (spos q) (at_pt g) (spos gp)) as T2.
      assert (S2 : dist (at_pt g) (spos gp) = dist (spos gp) (at_pt g)) by (rewrite !dist_hyp; unfold hyp; f_equal; ring).
      rewrite E. apply Rabs_le. clear - Hcl T1 T2 S2. lra.
    Qed.
  End Pose.

  Notation a_of from to := (search_from (sp_rev p) from to).
  Notation g_of from to := (search_to (sp_rev p) from to).

  (** What was added. *)
  Lemma pose_added {T} fuel cb (t : T) from to q w : added (vf_calls (findo fuel cb t from to)) q w ->
    accepted clamp p so b (g_of from to) q /\ Rabs (w - dist (spos q) (at_pt (g_of from to))) <= sqrt 2.
  Proof using Hclamp Hm Hk Hb Hpush Hpop.
    unfold v_findo. change (if sp_rev p then to else from) with (a_of from to). change (if sp_rev p then from else to) with (g_of from to).
    destruct (v_begin clamp m _ _) as [[[start goals] pay]|] eqn:Eb; [|intros (c & [] & _)].
    pose proof (begun_ok clamp Hclamp m Hwf Hsm Hw Hh _ _ _ _ _ Eb) as Hbeg. cbn [vf_calls vf_of].
    destruct (wrun _ _ _ _ _ _ _ _ _ _ _ _ _ _ _ _ _ _ _ _ _ _ _) as [[r ws] log] eqn:E. cbn [snd].
    destruct (any_run _ _ start goals pay Hbeg _ _ _ _ _ _ _ E) as [He _]. intros (c & Hc & <- & Hin).
    destruct (e_calls _ _ _ _ _ _ _ _ _ _ _ _ _ He c Hc) as (_ & _ & _ & t1 & t2 & s & HW & Hcl & Ep & Et). unfold pose_term in Et.
    apply pose_goals_spec in Et. destruct Et as (_ & _ & Hcs & _). destruct (Hcs w Hin) as (gv & Hg & Hi & ->). rewrite Ep. split.
    - eapply accepted_of; eassumption.
    - eapply near_weight; eassumption.
  Qed.
  (** Without a callback the test goes through all goal nodes. *)
  Lemma pose_asked {T} fuel (t : T) from to c : osd <> 0 -> In c (vf_calls (findo fuel None t from to)) ->
    wc_ans _ _ c = AGo /\ exists gs o, (forall gp, In gp gs -> goal_node clamp m (g_of from to) gp) /\
      (~ occupied m (fst (cell_at (g_of from to))) (snd (cell_at (g_of from to))) -> length gs = 2%nat) /\
      wc_cands _ _ c = map (fun gp => dist (spos gp) (spos (wc_pay _ _ c))) (filter (fun gp => match nb_isgoal p b gp (wc_pay _ _ c) o with Some x => x | None => false end) gs).
  Proof using Hclamp Hm Hk Hb Hpush Hpop.
    intros Ho. unfold v_findo. change (if sp_rev p then to else from) with (a_of from to). change (if sp_rev p then from else to) with (g_of from to).
    destruct (v_begin clamp m _ _) as [[[start goals] pay]|] eqn:Eb; [|intros []].
    pose proof (begun_ok clamp Hclamp m Hwf Hsm Hw Hh _ _ _ _ _ Eb) as Hbeg. cbn [vf_calls vf_of].
    destruct (wrun _ _ _ _ _ _ _ _ _ _ _ _ _ _ _ _ _ _ _ _ _ _ _) as [[r ws] log] eqn:E. cbn [snd].
    destruct (any_run _ _ start goals pay Hbeg _ _ _ _ _ _ _ E) as [He _]. intros Hc.
    destruct (e_calls _ _ _ _ _ _ _ _ _ _ _ _ _ He c Hc) as (_ & _ & _ & t1 & t2 & s & HW & Hcl & Ep & Et). unfold pose_term in Et.
    apply pose_goals_spec in Et. destruct Et as (_ & _ & _ & _ & X). destruct (X Ho eq_refl) as [Ea Ecs]. split; [exact Ea|].
    exists (map (fun v => npay (inf s v)) goals), (match n_prev vkey snode (inf s (wc_node _ _ c)) with Some u => Some (npay (inf s u)) | None => None end). split; [|split].
    - intros gp Hgp. apply in_map_iff in Hgp. destruct Hgp as (v & <- & Hv). eapply goal_pay; eassumption.
    - intros Hocc. rewrite map_length. destruct (a_of from to) as [[x y] th] eqn:Ea'. destruct (g_of from to) as [[gx gy] gth] eqn:Eg'. cbn [cell_at fst snd] in Hocc.
      destruct (begin_ok clamp Hclamp m Hwf Hsm Hw Hh x y th gx gy gth (bg_from m _ _ _ _ _ Hbeg) (bg_to m _ _ _ _ _ Hbeg)) as (os & og & pay' & E' & _ & Hog & _).
      rewrite Eb in E'. injection E' as _ -> _. destruct og; [exfalso; apply Hocc; apply Hog; reflexivity|reflexivity].
    - rewrite Ecs, Ep. set (o := match n_prev vkey snode (inf s (wc_node _ _ c)) with Some u => Some (npay (inf s u)) | None => None end). clearbody o. clear. induction goals as [|v l IH]; [reflexivity|]. cbn [map filter]. destruct (nb_isgoal _ _ _ _ _) as [[|]|]; [cbn [map]; f_equal; exact IH|exact IH|exact IH].
  Qed.
  (** The returned path. *)
  Lemma pose_any {T} fuel cb (t : T) from to path cands log : osd <> 0 -> findo fuel cb t from to = VF (VPath _ _ path) cands log ->
    (path = [] /\ forall q w, ~ added log q w) \/
    exists n l q w, driven (sp_rev p) path = n :: l /\ drivable clamp m skips p so b (a_of from to) (g_of from to) (n :: l) /\ slot_of clamp n = slot_of clamp q /\ added log q w /\
      (best log q w \/ (n = q /\ exists c t1 t2, cb = Some c /\ c t1 (if sp_rev p then rev path else path) = (t2, true))).
  Proof using Hclamp Hm Hskips Hk Hb Hpush Hpop Hqueue.
    intros Ho. unfold v_findo. change (if sp_rev p then to else from) with (a_of from to). change (if sp_rev p then from else to) with (g_of from to).
    destruct (v_begin clamp m _ _) as [[[start goals] pay]|] eqn:Eb; [|discriminate]. intros E. apply found_inv in E. destruct E as (p0 & ws & E & Ep & _).
    pose proof (begun_ok clamp Hclamp m Hwf Hsm Hw Hh _ _ _ _ _ Eb) as Hbeg. destruct (any_run _ _ start goals pay Hbeg _ _ _ _ _ _ _ E) as [He Ec]. rewrite (driven_of _ _ Ep).
    destruct (e_path _ _ _ _ _ _ _ _ _ _ _ _ _ He p0 eq_refl) as [(l0 & c & -> & Ea & _ & Harr & t1 & t2 & s & lb & Eb' & Ep' & Et)|[Ef _]].
    - right. destruct (arrived_drive _ _ start goals pay Hbeg _ _ _ Harr) as (l & El & Hd). unfold pose_term in Et. destruct (pose_goals_cb _ _ _ _ _ _ _ _ _ Ho _ _ _ _ Et) as (Hne & cf & lb' & t3 & Ecb & Eb2 & Ecf).
      destruct (wc_cands _ _ c) as [|w ws'] eqn:Ew; [contradiction|]. exists (wc_pay _ _ c), l, (wc_pay _ _ c), w.
      split; [exact El|]. split; [exact Hd|]. split; [reflexivity|]. split.
      { exists c. split; [apply in_or_app; right; left; reflexivity|]. split; [reflexivity|]. rewrite Ew. left. reflexivity. }
      right. split; [reflexivity|]. exists cf, t3, t2. split; [exact Ecb|]. rewrite Eb' in Eb2. injection Eb2 as <-. rewrite <- Ep' in Ecf.
      replace (if sp_rev p then rev path else path) with p0; [exact Ecf|]. rewrite Ep. destruct (sp_rev p); [symmetry; apply rev_involutive|reflexivity].
    - destruct (finish_best _ _ start goals pay Hbeg _ _ _ log p0 He Ec (eq_sym Ef)) as [[-> X]|(n & l & q & w & v & H1 & H2 & H3 & H4 & _)].
      + left. split; [rewrite Ep; destruct (sp_rev p); reflexivity|exact X].
      + right. exists n, l, q, w. split; [exact H1|]. split; [exact H2|]. split; [exact H4|]. split; [apply H3|left; exact H3].
  Qed.
  Lemma pose_least {T} fuel cb (t : T) from to path cands log : (forall d h, tot d h = d) -> least_first pop -> osd <> 0 -> findo fuel cb t from to = VF (VPath _ _ path) cands log ->
    (path = [] /\ forall q w, ~ added log q w) \/
    exists s c n l w, driven (sp_rev p) path = n :: l /\ start_node (a_of from to) (g_of from to) s /\ trip (nb_move clamp p so b) s (n :: l) c /\ added log n w /\
      (cb = None -> best log n w).
  Proof using Hclamp Hm Hskips Hk Hb Hpush Hpop Hqueue.
    intros Htot Hleast Ho. unfold v_findo. change (if sp_rev p then to else from) with (a_of from to). change (if sp_rev p then from else to) with (g_of from to).
    destruct (v_begin clamp m _ _) as [[[start goals] pay]|] eqn:Eb; [|discriminate]. intros E. apply found_inv in E. destruct E as (p0 & ws & E & Ep & _).
    pose proof (begun_ok clamp Hclamp m Hwf Hsm Hw Hh _ _ _ _ _ Eb) as Hbeg. destruct (any_run _ _ start goals pay Hbeg _ _ _ _ _ _ _ E) as [He Ec]. rewrite (driven_of _ _ Ep).
    destruct (least_run _ _ start goals pay Hbeg _ _ Htot Hleast _ _ _ _ _ E) as [[-> X]|(s & c & n & l & H1 & H2 & H3 & H4)].
    - left. split; [rewrite Ep; destruct (sp_rev p); reflexivity|exact X].
    - right. destruct H4 as [[w Hw']|(l0 & e & -> & Ea & <-)].
      + exists s, c, n, l, w. split; [exact H1|]. split; [apply (start_node_of m); exact H2|]. split; [exact H3|]. split; [apply Hw'|intros _; exact Hw'].
      + destruct (e_calls _ _ _ _ _ _ _ _ _ _ _ _ _ He e) as (_ & _ & _ & t1 & t2 & s0 & _ & _ & _ & Et); [apply in_or_app; right; left; reflexivity|].
        rewrite Ea in Et. unfold pose_term in Et. destruct (pose_goals_cb _ _ _ _ _ _ _ _ _ Ho _ _ _ _ Et) as (Hne & cf & lb' & t3 & Ecb & _).
        destruct (wc_cands _ _ e) as [|w ws'] eqn:Ew; [contradiction|]. exists s, c, (wc_pay _ _ e), l, w. split; [exact H1|]. split; [apply (start_node_of m); exact H2|]. split; [exact H3|]. split.
        { exists e. split; [apply in_or_app; right; left; reflexivity|]. split; [reflexivity|]. rewrite Ew. left. reflexivity. }
        rewrite Ecb. discriminate.
  Qed.

  (** ** getPathCandidates *)
  Lemma ssorted_map {A B} (f : A -> B) (R1 : B -> B -> Prop) (R2 : A -> A -> Prop) l : (forall x y, R1 (f x) (f y) -> R2 x y) -> StronglySorted R1 (map f l) -> StronglySorted R2 l.
  Proof using Type.
    clear. intros H. induction l as [|x l IH]; cbn [map]; intros S0; [constructor|]. inversion S0 as [|? ? H1 H2]; subst. constructor; [apply IH; exact H1|].
    rewrite Forall_forall in *. intros y Hy. apply H, H2. apply in_map. exact Hy.
  Qed.
  Definition pairs (log : list (wcall vkey snode)) : list (wcall vkey snode * R) := flat_map (fun c => map (pair c) (wc_cands _ _ c)) log.
  Lemma pairs_map {B} (f : wcall vkey snode * R -> B) log : map f (pairs log) = flat_map (fun c => map (fun w => f (c, w)) (wc_cands _ _ c)) log.
  Proof using Type. clear. induction log as [|c log IH]; [reflexivity|]. unfold pairs in *. cbn [flat_map]. rewrite map_app, map_map, IH. reflexivity. Qed.
  Lemma cand_run {T} a g start goals pay hgoal (term : T -> (vkey -> vinfo vkey snode) -> vkey -> option (T * list R * vanswer)) fuel t r ws log ps : begun a g start goals pay ->
    wrun vkey snode (Z * Z) T vkey_eqb moves reach offer hval tot push pop start goals hgoal osd queue term timeout bf fuel t pay = (r, ws, log) ->
    wcandidates vkey snode vkey_eqb start queue bf ws = Some ps ->
    candidate_paths clamp m skips p so b a g log ps /\
    (forall path, r = VPath _ _ path -> (forall c, In c log -> wc_ans _ _ c <> AReturn) -> path = hd [] ps).
  Proof using Hclamp Hm Hskips Hk Hb Hpush Hpop Hqueue.
    intros Hbeg E Ew. destruct (any_run a g start goals pay Hbeg _ _ _ _ _ _ _ E) as [He Ec]. unfold wcandidates in Ew. rewrite Ec in Ew.
    destruct (Hqueue (cands_of log)) as [Hp Hs].
    set (f1 := fun x : wcall vkey snode * R => (wc_node _ _ (fst x), snd x)). set (f2 := fun x : wcall vkey snode * R => (wc_pay _ _ (fst x), snd x)).
    assert (E1 : cands_of log = map f1 (pairs log)) by (rewrite pairs_map; reflexivity).
    assert (E2 : additions log = map f2 (pairs log)) by (rewrite pairs_map; reflexivity).
    rewrite E1 in Hp, Ew, Hs. apply Permutation_sym, Permutation_map_inv in Hp. destruct Hp as (L & EL & HL). rewrite EL in Ew, Hs.
    assert (HinL : forall x, In x L -> In (fst x) log /\ In (snd x) (wc_cands _ _ (fst x))).
    { intros x Hx. apply (Permutation_in _ (Permutation_sym HL)) in Hx. unfold pairs in Hx. apply in_flat_map in Hx. destruct Hx as (c & Hc & Hx). apply in_map_iff in Hx. destruct Hx as (w & <- & Hw'). split; assumption. }
    assert (Hcl : forall v c, In (v, c) (map f1 L) -> n_closed _ _ (inf (ws_s _ _ ws) v) = true).
    { intros v w Hv. apply in_map_iff in Hv. destruct Hv as (x & Ex & Hx). injection Ex as <- _. apply (e_calls _ _ _ _ _ _ _ _ _ _ _ _ _ He (fst x)). apply HinL. exact Hx. }
    split.
    - exists (map f2 L). split; [rewrite E2; apply Permutation_map; exact HL|]. split.
      { clear - Hs. induction L as [|x L IH]; cbn [map] in *; [constructor|]. inversion Hs as [|? ? H1 H2]; subst. constructor; [apply IH; exact H1|].
        rewrite Forall_forall in *. intros y Hy. apply in_map_iff in Hy. destruct Hy as (z & <- & Hz). apply (H2 (f1 z)). apply in_map. exact Hz. }
      pose proof (paths_W vkey_eqb vkey_eqb_spec moves offer start bf pay (all_keys m) gens (ws_s _ _ ws) (e_W _ _ _ _ _ _ _ _ _ _ _ _ _ He) _ ps Hcl Ew) as F.
      clear Ew Hs EL HL. revert ps F. induction L as [|x L IH]; intros ps F; cbn [map] in *; inversion F as [|? path ? ps' Harr F']; subst; [constructor|].
      constructor; [|apply IH; [intros y Hy; apply HinL; right; exact Hy|intros v c Hv; apply (Hcl v c); right; exact Hv|exact F']].
      cbn [fst f1 f2] in *. destruct (arrived_drive a g start goals pay Hbeg path _ _ Harr) as (l & El & Hd). exists (npay (inf (ws_s _ _ ws) (wc_node _ _ (fst x)))), l.
      split; [exact El|]. split; [exact Hd|]. destruct (HinL x (or_introl eq_refl)) as [Hx _].
      destruct (e_calls _ _ _ _ _ _ _ _ _ _ _ _ _ He (fst x) Hx) as (_ & Hr & Hst & _).
      apply (same_slot start pay (wc_node _ _ (fst x))); [|exact Hr| |exact Hst].
      + destruct Harr as (l0 & _ & _ & X & _). exact X.
      + apply (arrived_start start pay path). exact Harr.
    - intros path Er Hno. destruct (e_path _ _ _ _ _ _ _ _ _ _ _ _ _ He path Er) as [(l0 & c & -> & Ea & _)|[Ef _]].
      { exfalso. apply (Hno c); [apply in_or_app; right; left; reflexivity|exact Ea]. }
      rewrite Er in Ef. unfold wfinish in Ef. rewrite Ec, E1, EL in Ef. destruct L as [|x L]; cbn [map] in *; [injection Ef as ->; cbn [wpaths] in Ew; injection Ew as <-; reflexivity|].
      destruct (f1 x) as [v w]. cbn [wpaths] in Ew. destruct (vback _ _ _ _ _ _ v _ _) as [lb|]; [|discriminate]. injection Ef as ->. cbn [obind] in Ew.
      destruct (wpaths _ _ _ _ _ _ (map f1 L)) as [ps'|]; [|discriminate]. injection Ew as <-. reflexivity.
  Qed.
  Lemma cand_defined {T} a g start goals pay hgoal (term : T -> (vkey -> vinfo vkey snode) -> vkey -> option (T * list R * vanswer)) fuel t r ws log : begun a g start goals pay ->
    ((gm_w m + 64) * (gm_h m + 64) * 64 <= Z.of_nat bf)%Z ->
    wrun vkey snode (Z * Z) T vkey_eqb moves reach offer hval tot push pop start goals hgoal osd queue term timeout bf fuel t pay = (r, ws, log) ->
    wcandidates vkey snode vkey_eqb start queue bf ws <> None.
  Proof using Hclamp Hm Hk Hpush Hpop Hqueue.
    intros Hbeg Hbf0 E. destruct (any_run a g start goals pay Hbeg _ _ _ _ _ _ _ E) as [He Ec]. unfold wcandidates. rewrite Ec. destruct (Hqueue (cands_of log)) as [Hp _].
    destruct (paths_ok vkey_eqb vkey_eqb_spec moves offer start bf pay (all_keys m) gens (ws_s _ _ ws) (e_W _ _ _ _ _ _ _ _ _ _ _ _ _ He)) with (l := queue (cands_of log)) as [ps ->]; [| |discriminate].
    - pose proof (all_keys_len m Hw Hh) as L. clear - L Hbf0. lia.
    - intros v c Hv. apply (e_closed _ _ _ _ _ _ _ _ _ _ _ _ _ He v c). rewrite Ec. apply (Permutation_in _ (Permutation_sym Hp)). exact Hv.
  Qed.
  Lemma test_cands {T} fuel hgoal test (t : T) from path ps log : findt fuel hgoal test t from = VF (VPath _ _ path) (Some ps) log ->
    candidate_paths clamp m skips p so b from from log ps /\ path = (if sp_rev p then rev (hd [] ps) else hd [] ps).
  Proof using Hclamp Hm Hskips Hk Hb Hpush Hpop Hqueue.
    unfold v_findt. destruct (v_begin1 clamp m from) as [[start pay]|] eqn:Eb; [|discriminate]. intros E. apply found_inv in E. destruct E as (p0 & ws & E & Ep & Ew).
    pose proof (begin1_ok _ _ _ Eb) as Hbeg. destruct (cand_run from from start [] pay _ _ _ _ _ _ _ ps Hbeg E (eq_sym Ew)) as [A B]. split; [exact A|].
    rewrite Ep, <- (B p0 eq_refl); [reflexivity|]. intros c Hc Ea. destruct (any_run from from start [] pay Hbeg _ _ _ _ _ _ _ E) as [He _].
    destruct (e_calls _ _ _ _ _ _ _ _ _ _ _ _ _ He c Hc) as (_ & _ & _ & t1 & t2 & s & _ & _ & _ & Et).
    rewrite Ea in Et. destruct (test t1 (inf s) (wc_node _ _ c)) as [[t3 cs] stop]. destruct stop; discriminate.
  Qed.
  Lemma pose_cands {T} fuel cb (t : T) from to path ps log : findo fuel cb t from to = VF (VPath _ _ path) (Some ps) log ->
    candidate_paths clamp m skips p so b (a_of from to) (g_of from to) log ps /\
    (osd <> 0 -> cb = None -> path = (if sp_rev p then rev (hd [] ps) else hd [] ps)).
  Proof using Hclamp Hm Hskips Hk Hb Hpush Hpop Hqueue.
    unfold v_findo. change (if sp_rev p then to else from) with (a_of from to). change (if sp_rev p then from else to) with (g_of from to).
    destruct (v_begin clamp m _ _) as [[[start goals] pay]|] eqn:Eb; [|discriminate]. intros E. apply found_inv in E. destruct E as (p0 & ws & E & Ep & Ew).
    pose proof (begun_ok clamp Hclamp m Hwf Hsm Hw Hh _ _ _ _ _ Eb) as Hbeg. destruct (cand_run _ _ start goals pay _ _ _ _ _ _ _ ps Hbeg E (eq_sym Ew)) as [A B]. split; [exact A|].
    intros Ho Hcb. rewrite Ep, <- (B p0 eq_refl); [reflexivity|]. intros c Hc Ea. destruct (any_run _ _ start goals pay Hbeg _ _ _ _ _ _ _ E) as [He _].
    destruct (e_calls _ _ _ _ _ _ _ _ _ _ _ _ _ He c Hc) as (_ & _ & _ & t1 & t2 & s & _ & _ & _ & Et).
    rewrite Ea in Et. unfold pose_term in Et. destruct (pose_goals_cb _ _ _ _ _ _ _ _ _ Ho _ _ _ _ Et) as (_ & cf & _ & _ & Ecb & _). congruence.
  Qed.
  Lemma test_cands_defined {T} fuel hgoal test (t : T) from path : ((gm_w m + 64) * (gm_h m + 64) * 64 <= Z.of_nat bf)%Z ->
    vf_path (findt fuel hgoal test t from) = VPath _ _ path -> vf_cands (findt fuel hgoal test t from) <> None.
  Proof using Hclamp Hm Hk Hpush Hpop Hqueue.
    intros Hbf0. unfold v_findt. destruct (v_begin1 clamp m from) as [[start pay]|] eqn:Eb; [|discriminate]. pose proof (begin1_ok _ _ _ Eb) as Hbeg. intros _. cbn [vf_cands vf_of].
    destruct (wrun _ _ _ _ _ _ _ _ _ _ _ _ _ _ _ _ _ _ _ _ _ _ _) as [[r ws] log] eqn:E. cbn [fst snd]. eapply cand_defined; eassumption.
  Qed.
  Lemma pose_cands_defined {T} fuel cb (t : T) from to path : ((gm_w m + 64) * (gm_h m + 64) * 64 <= Z.of_nat bf)%Z ->
    vf_path (findo fuel cb t from to) = VPath _ _ path -> vf_cands (findo fuel cb t from to) <> None.
  Proof using Hclamp Hm Hk Hpush Hpop Hqueue.
    intros Hbf0. unfold v_findo. destruct (v_begin clamp m _ _) as [[[start goals] pay]|] eqn:Eb; [|discriminate].
    pose proof (begun_ok clamp Hclamp m Hwf Hsm Hw Hh _ _ _ _ _ Eb) as Hbeg. intros _. cbn [vf_cands vf_of].
    destruct (wrun _ _ _ _ _ _ _ _ _ _ _ _ _ _ _ _ _ _ _ _ _ _ _) as [[r ws] log] eqn:E. cbn [fst snd]. eapply cand_defined; eassumption.
  Qed.

  (** ** The window *)
  Lemma first_total_at : forall l1 (c : wcall vkey snode) l2, (forall e, In e l1 -> wc_cands _ _ e = []) -> wc_cands _ _ c <> [] -> first_total (l1 ++ c :: l2) = Some (wc_total _ _ c).
  Proof using Type.
    clear. induction l1 as [|e l1 IH]; intros c l2 H Hc; cbn [app first_total].
    - destruct (wc_cands _ _ c); [contradiction|reflexivity].
    - rewrite (H e (or_introl eq_refl)). apply IH; [intros e' He; apply H; right; exact He|exact Hc].
  Qed.
  Lemma window_log {T} start goals pay hgoal (term : T -> (vkey -> vinfo vkey snode) -> vkey -> option (T * list R * vanswer)) fuel t r ws log : osd <> 0 ->
    wrun vkey snode (Z * Z) T vkey_eqb moves reach offer hval tot push pop start goals hgoal osd queue term timeout bf fuel t pay = (r, ws, log) -> in_window osd log.
  Proof using Type.
    intros Ho E l1 c l2 c' l3 El Hc Hl3 Hl1. unfold wrun in E.
    assert (X : exists l0, log = l0 ++ c' :: l3 /\ first_total (l0 ++ [c']) = Some (wc_total _ _ c)).
    { destruct El as [->|[-> ->]].
      - exists (l1 ++ c :: l2). rewrite <- !app_assoc. split; [reflexivity|]. cbn [app]. apply first_total_at; assumption.
      - exists l1. split; [reflexivity|]. apply first_total_at; assumption. }
    destruct X as (l0 & -> & Ef).
    destruct (wloop_window vkey_eqb moves reach offer hval tot push pop start goals hgoal osd queue term timeout bf Ho fuel 0 t _ _ _ _ E l0 c' l3 eq_refl Hl3) as [_ H].
    apply H. exact Ef.
  Qed.

  (** ** The calls of the caller's test *)
  Lemma loop_asked {T} start goals hgoal (test : T -> (vkey -> vinfo vkey snode) -> vkey -> T * list R * bool) : forall fuel n t ws r ws' log,
    wloop vkey snode (Z * Z) T vkey_eqb moves reach offer hval tot push pop start goals hgoal osd queue
      (fun t f v => let '(t', cs, stop) := test t f v in Some (t', cs, if (stop : bool) then AStop else AGo)) timeout bf fuel n t ws = (r, ws', log) -> asked test t log.
  Proof using Type.
    induction fuel as [|k IH]; intros n t ws r ws' log E; cbn [wloop] in E; [injection E as _ _ <-; constructor|].
    destruct (v_open _ _ (ws_s _ _ ws)) as [|x0 o0]; [injection E as _ _ <-; constructor|]. destruct (timeout n); [injection E as _ _ <-; constructor|].
    destruct (pop _ _) as [[cur o]|]; [|injection E as _ _ <-; constructor]. cbv zeta in E. set (s1 := wclose _ _ _ _ _ _ _ _ _) in *.
    destruct (test t (inf s1) cur) as [[t' cs] stop] eqn:Et.
    assert (One : forall l, (stop = true -> l = []) -> asked test t' l -> asked test t (WC _ _ cur (npay (inf s1 cur)) (vtotal _ _ tot (inf s1) cur) cs (if stop then AStop else AGo) :: l)).
    { intros l H1 H2. eapply asked_one; cbn [wc_node wc_cands wc_pay]; [exact Et|reflexivity|exact H1|exact H2]. }
    destruct stop; [injection E as _ _ <-; apply One; [reflexivity|constructor]|].
    destruct (wover _ _ _ _ _ _); [injection E as _ _ <-; apply One; [reflexivity|constructor]|].
    destruct (vexpand _ _ _ _ _ _ _ _ _ _ _ _ _) as [s2|]; [|injection E as _ _ <-; apply One; [reflexivity|constructor]].
    destruct (wloop _ _ _ _ _ _ _ _ _ _ _ _ _ _ _ _ _ _ _ _ k _ _ _) as [[r1 w1] l1] eqn:E1. injection E as _ _ <-.
    apply One; [discriminate|]. apply (IH _ _ _ _ _ _ E1).
  Qed.
  Lemma test_asked {T} fuel hgoal test (t : T) from : asked test t (vf_calls (findt fuel hgoal test t from)).
  Proof using Type.
    unfold v_findt. destruct (v_begin1 clamp m from) as [[start pay]|]; [|constructor]. cbn [vf_calls vf_of].
    destruct (wrun _ _ _ _ _ _ _ _ _ _ _ _ _ _ _ _ _ _ _ _ _ _ _) as [[r ws] log] eqn:E. cbn [snd]. eapply loop_asked. exact E.
  Qed.
  Lemma calls_reached {T} a g start goals pay hgoal (term : T -> (vkey -> vinfo vkey snode) -> vkey -> option (T * list R * vanswer)) fuel t r ws log c : begun a g start goals pay ->
    wrun vkey snode (Z * Z) T vkey_eqb moves reach offer hval tot push pop start goals hgoal osd queue term timeout bf fuel t pay = (r, ws, log) -> In c log ->
    exists s, start_node a g s /\ drives_to (nb_move clamp p so b) s (wc_pay _ _ c).
  Proof using Hclamp Hm Hk Hb Hpush Hpop.
    intros Hbeg E Hc. destruct (any_run a g start goals pay Hbeg _ _ _ _ _ _ _ E) as [He _]. destruct (e_calls _ _ _ _ _ _ _ _ _ _ _ _ _ He c Hc) as (_ & Hr & _).
    destruct (rch_rpose clamp Hclamp m Hsm Hw Hh skips (sp_res p) adv moves gens nb_cost start goals pay a g Hbeg _ _ Hr) as (s & Hs & Hq).
    exists s. split; [apply (start_node_of m); exact Hs|]. clear - Hq Hb. apply (rpose_drives m skips adv moves); [|exact Hq].
    intros q0 prevs i k c0 n0 Hin Ha0. destruct b as [o|size steps distance]; cbn [nb_moves nb_advance nb_move nb_ok] in *.
    - destruct (d_moves_in o i k Hin) as (A & B & _). exists i, k. auto.
    - apply v_moves_in in Hin. destruct Hin as (A & B). exists i, k. split; [clear - Hb A; lia|]. split; assumption.
  Qed.
  Lemma test_reached {T} fuel hgoal test (t : T) from c : In c (vf_calls (findt fuel hgoal test t from)) -> exists s, start_node from from s /\ drives_to (nb_move clamp p so b) s (wc_pay _ _ c).
  Proof using Hclamp Hm Hk Hb Hpush Hpop.
    unfold v_findt. destruct (v_begin1 clamp m from) as [[start pay]|] eqn:Eb; [|intros []]. cbn [vf_calls vf_of]. pose proof (begin1_ok _ _ _ Eb) as Hbeg.
    destruct (wrun _ _ _ _ _ _ _ _ _ _ _ _ _ _ _ _ _ _ _ _ _ _ _) as [[r ws] log] eqn:E. cbn [snd]. eapply calls_reached; eassumption.
  Qed.
  Lemma test_window {T} fuel hgoal test (t : T) from : osd <> 0 -> in_window osd (vf_calls (findt fuel hgoal test t from)).
  Proof using Type.
    intros Ho. unfold v_findt. destruct (v_begin1 clamp m from) as [[start pay]|] eqn:Eb.
    2:{ intros l1 c l2 c' l3 [E|[_ E]]; destruct l1; discriminate. }
    cbn [vf_calls vf_of]. destruct (wrun _ _ _ _ _ _ _ _ _ _ _ _ _ _ _ _ _ _ _ _ _ _ _) as [[r ws] log] eqn:E. cbn [snd]. eapply window_log; eassumption.
  Qed.
  Lemma pose_window {T} fuel cb (t : T) from to : osd <> 0 -> in_window osd (vf_calls (findo fuel cb t from to)).
  Proof using Type.
    intros Ho. unfold v_findo. destruct (v_begin clamp m _ _) as [[[start goals] pay]|] eqn:Eb.
    2:{ intros l1 c l2 c' l3 [E|[_ E]]; destruct l1; discriminate. }
    cbn [vf_calls vf_of]. destruct (wrun _ _ _ _ _ _ _ _ _ _ _ _ _ _ _ _ _ _ _ _ _ _ _) as [[r ws] log] eqn:E. cbn [snd]. eapply window_log; eassumption.
  Qed.

  (** ** Nothing is left out *)
  Lemma inner_fits x y : inner m (Zfloor x) (Zfloor y) -> fits x y.
  Proof using Hm. pose proof (mk_small m Hm) as S0. unfold inner, fits, gm_small in *. clear - S0. lia. Qed.
  Lemma way_line q n : inner m (Zfloor (sn_x q)) (Zfloor (sn_y q)) -> inner m (Zfloor (sn_x n)) (Zfloor (sn_y n)) -> free_way m q n ->
    v_line m skips (sn_x q) (sn_y q) (sn_x n) (sn_y n) = Some true.
  Proof using Hm Hskips.
    intros Hq Hn [Hf Hl]. apply inner_fits in Hq, Hn. unfold pcell in Hl. cbn [fst snd] in Hl.
    set (sx := sn_x q) in *. set (sy := sn_y q) in *. set (ex := sn_x n) in *. set (ey := sn_y n) in *.
    destruct (isInMap m (Zfloor sx + 32) (Zfloor sy + 32)) eqn:E1.
    2:{ apply (line_unchecked m Hwf skips); [exact Hq|exact Hn| |exact Hf]. left. intros X. apply isInMap_spec in X; congruence. }
    destruct (isInMap m (Zfloor ex + 32) (Zfloor ey + 32)) eqn:E2.
    2:{ apply (line_unchecked m Hwf skips); [exact Hq|exact Hn| |exact Hf]. right. intros X. apply isInMap_spec in X; congruence. }
    apply isInMap_spec in E1, E2; [|exact Hwf|exact Hwf].
    destruct (walk_cells m Hwf Hsm _ _ _ _ E1 E2) as (b1 & l & Eg & El & Hseg & Hsh). destruct Hq as [A B], Hn as [C D]. unfold v_line.
    rewrite (floor_int_ok (sx + 32)), (floor_int_ok (sy + 32)), (floor_int_ok (ex + 32)), (floor_int_ok (ey + 32)) by (rewrite floor_plus; clear - A B C D; lia).
    rewrite !floor_plus. cbn [obind]. rewrite Eg. cbn [obind]. rewrite El. cbn [obind]. fold (test m).
    destruct (skip_scan_exact (test m) skips Hskips l 0 (conj (Z.le_refl 0) Hskips)) as (r & Er & Hr); [intros; apply (test_some m Hwf)|]. rewrite Er. cbn [obind].
    destruct r.
    - exfalso. destruct (proj1 Hr eq_refl) as (k & c & Hn & _ & Ht). apply nth_error_In in Hn. destruct (Hsh c Hn) as [X1 X2]. rewrite X1, X2 in Ht. unfold test in Ht.
      destruct (fou1_spec m Hwf (b_x c - 32) (b_y c - 32)) as (o & Eo & Ho). rewrite Eo in Ht. cbn [obind] in Ht. destruct o; [discriminate|].
      apply (Bool.diff_false_true). apply Ho. apply (Hl _ Hseg (b_x c - 32, b_y c - 32)%Z). apply in_map_iff. exists c. split; [reflexivity|exact Hn].
    - rewrite (cast_i32_fits sx A), (cast_i32_fits sy B). cbn [obind]. destruct (fou1_spec m Hwf (Ztrunc sx) (Ztrunc sy)) as (o & -> & Ho). f_equal. apply Ho. exact Hf.
  Qed.
  Lemma offer_all q qs i k c n : inner m (Zfloor (sn_x q)) (Zfloor (sn_y q)) -> adv q qs i k = AMove c n -> free_way m q n -> has_nodes m (pcell n) ->
    exists v, offer q qs (i, k) = Some (Some (v, c * sp_res p, n)) /\ slot_key v = slot_of clamp n.
  Proof using Hclamp Hm Hskips Hk.
    intros Hq Ea Hf Hn. change (inner m (Zfloor (sn_x n)) (Zfloor (sn_y n))) in Hn. unfold nb_offer, v_offer. cbn [fst snd]. rewrite Ea.
    pose proof (costs_pos p so Hk _ (nb_cost _ _ _ _ _ _ Ea)) as Hpos. assert (Hres : 0 < sp_res p) by (clear - Hk; destruct Hk; assumption).
    assert (Hc : Rltb c 0 = false). { apply Rltb_false. apply Rnot_lt_le. intros X. assert (Y : c * sp_res p < 0 * sp_res p) by (apply Rmult_lt_compat_r; assumption). clear - Y Hpos. lra. }
    rewrite Hc. rewrite (contains_ok m Hsm (sn_x n) (sn_y n) Hn). cbn [obind negb]. rewrite (way_line q n Hq Hn Hf). cbn [obind negb].
    destruct (lookup_some clamp Hclamp m Hsm Hw Hh (sn_x n) (sn_y n) (sn_th n) (sn_fwd n) Hn) as (t & Et & _ & ->). cbn [obind]. eexists. split; [reflexivity|].
    unfold slot_key, slot_of, pcell. rewrite Et. reflexivity.
  Qed.
  Lemma run_all {T} a g start goals pay hgoal (term : T -> (vkey -> vinfo vkey snode) -> vkey -> option (T * list R * vanswer)) fuel t path ws log : begun a g start goals pay ->
    (forall n, timeout n = false) -> (~ occupied m (fst (cell_at a)) (snd (cell_at a)) -> forall f, In (fst (cell_at a), snd (cell_at a), 15%Z, f) start) ->
    wrun vkey snode (Z * Z) T vkey_eqb moves reach offer hval tot push pop start goals hgoal osd queue term timeout bf fuel t pay = (VPath _ _ path, ws, log) -> ran_out osd log ->
    exhaustive clamp m p so b a g log.
  Proof using Hclamp Hm Hskips Hk Hpush Hpop.
    intros Hbeg Ht Hst E [Hgo Hwin].
    destruct (any_run a g start goals pay Hbeg _ _ _ _ _ _ _ E) as [He _].
    destruct (run_done vkey_eqb vkey_eqb_spec moves reach offer hval tot push pop Hpush Hpop start goals hgoal osd queue term timeout Ht bf fuel t pay _ _ _ E (ex_intro _ path eq_refl) Hgo) as [R1 R2].
    { destruct Hwin as [|Hwin]; [left; assumption|right]. intros l0 c F El EF.
      assert (X : forall l, first_total l = Some F -> exists l1 e l2, l = l1 ++ e :: l2 /\ wc_cands _ _ e <> [] /\ (forall e', In e' l1 -> wc_cands _ _ e' = []) /\ wc_total vkey snode e = F).
      { clear. induction l as [|e l IH]; cbn [first_total]; [discriminate|]. destruct (wc_cands _ _ e) as [|w ws] eqn:Ew.
        - intros EF. destruct (IH EF) as (l1 & e1 & l2 & -> & H1 & H2 & H3). exists (e :: l1), e1, l2. split; [reflexivity|]. split; [exact H1|]. split; [|exact H3]. intros e' [<-|He]; [exact Ew|apply H2; exact He].
        - intros EF. injection EF as <-. exists [], e, l. split; [reflexivity|]. split; [rewrite Ew; discriminate|]. split; [intros e' []|reflexivity]. }
      destruct (X log EF) as (l1 & e & l2 & E1 & H1 & H2 & <-). apply (Hwin l1 e l2 l0 c E1 H1 H2 El). }
    assert (Nd : forall v, In v (map (wc_node _ _) log) -> exists c, In c log /\ wc_node _ _ c = v /\ rch start pay v (wc_pay _ _ c) /\ (In v start -> wc_pay _ _ c = pay v)).
    { intros v Hv. apply in_map_iff in Hv. destruct Hv as (c & <- & Hc). exists c. split; [exact Hc|]. split; [reflexivity|].
      destruct (e_calls _ _ _ _ _ _ _ _ _ _ _ _ _ He c Hc) as (_ & H1 & H2 & _). split; assumption. }
    split.
    - intros Hno f. pose proof (Hst Hno f) as Hs. destruct (Nd _ (R1 _ Hs)) as (c & Hc & _ & _ & Hp). exists c. split; [exact Hc|]. rewrite (Hp Hs).
      destruct (bg_start _ _ _ _ _ _ Hbeg _ Hs) as (Hno' & f' & Ef & Ep). injection Ef as <-. rewrite Ep. split; [|reflexivity].
      apply (start_node_of m). split; [exact (bg_from _ _ _ _ _ _ Hbeg)|]. split; [exact Hno|]. exists f. reflexivity.
    - intros c i k Hc Hmv. destruct (R2 c (i, k) Hc Hmv) as (qs & Hq). exists qs. intros cost n Ea Hf Hn.
      destruct (Nd _ (in_map (wc_node _ _) _ _ Hc)) as (_ & _ & _ & _ & _). destruct (e_calls _ _ _ _ _ _ _ _ _ _ _ _ _ He c Hc) as (_ & Hr & _).
      destruct (rch_rpose clamp Hclamp m Hsm Hw Hh skips (sp_res p) adv moves gens nb_cost start goals pay a g Hbeg _ _ Hr) as (s & Hs & Hqr).
      destruct (offer_all (wc_pay _ _ c) qs i k cost n) as (v & Eo & Ev); [apply (rpose_inner m skips adv moves _ _ _ _ Hs Hqr)|exact Ea|exact Hf|exact Hn|].
      destruct (Nd _ (Hq _ _ _ Eo)) as (c' & Hc' & _ & Hr' & Hp'). exists c'. split; [exact Hc'|].
      destruct (rch_slot clamp Hclamp m Hsm Hw Hh skips (sp_res p) adv moves gens nb_cost start pay v _ Hr') as [[Hv Ep]|Es].
      + right. destruct (bg_start _ _ _ _ _ _ Hbeg _ Hv) as (Hno' & f' & Ef & Ep'). rewrite Ep, Ep'. split.
        * apply (start_node_of m). split; [exact (bg_from _ _ _ _ _ _ Hbeg)|]. split; [exact Hno'|]. exists f'. reflexivity.
        * rewrite Ef in Ev. unfold slot_key, slot_of in Ev. injection Ev as E1 E2 _ _. unfold pcell, at_corner. cbn [sn_x sn_y]. rewrite !Zfloor_IZR, <- E1, <- E2. reflexivity.
      + left. rewrite Es. exact Ev.
  Qed.
  Lemma test_all {T} fuel hgoal test (t : T) from path cands log : (forall n, timeout n = false) -> findt fuel hgoal test t from = VF (VPath _ _ path) cands log -> ran_out osd log -> exhaustive clamp m p so b from from log.
  Proof using Hclamp Hm Hskips Hk Hpush Hpop.
    intros Ht. unfold v_findt. destruct (v_begin1 clamp m from) as [[start pay]|] eqn:Eb; [|discriminate]. intros E. apply found_inv in E. destruct E as (p0 & ws & E & _ & _).
    pose proof (begin1_ok _ _ _ Eb) as Hbeg. eapply run_all; [exact Hbeg|exact Ht| |exact E].
    intros Hno f. destruct from as [[x y] th]. unfold v_begin1 in Eb. pose proof (bg_from _ _ _ _ _ _ Hbeg) as Hi. cbn [cell_at fst snd] in *.
    destruct (poses_ok clamp Hclamp m Hsm Hw Hh x y v_node0 Hi) as (p1 & E1 & A1 & _). rewrite E1 in Eb. cbn [obind fst snd] in Eb.
    destruct (init_ok m Hwf Hsm th (Zfloor x) (Zfloor y) p1 Hi) as (o & Eo & X).
    { intros f0. exists (- PI + 2 * PI / 32 * 15). rewrite A1. reflexivity. }
    destruct (occ1_spec m Hwf (Zfloor x) (Zfloor y)) as (o' & Eo' & Ho). rewrite Eo in Eo'. injection Eo' as <-.
    destruct o; [exfalso; apply Hno, Ho; reflexivity|]. destruct X as (pay' & X & _). rewrite X in Eb. injection Eb as <- _. destruct f; [left|right; left]; reflexivity.
  Qed.
  Lemma pose_all {T} fuel cb (t : T) from to path cands log : (forall n, timeout n = false) -> findo fuel cb t from to = VF (VPath _ _ path) cands log -> ran_out osd log -> exhaustive clamp m p so b (a_of from to) (g_of from to) log.
  Proof using Hclamp Hm Hskips Hk Hpush Hpop.
    intros Ht. unfold v_findo. change (if sp_rev p then to else from) with (a_of from to). change (if sp_rev p then from else to) with (g_of from to).
    destruct (v_begin clamp m _ _) as [[[start goals] pay]|] eqn:Eb; [|discriminate]. intros E. apply found_inv in E. destruct E as (p0 & ws & E & _ & _).
    pose proof (begun_ok clamp Hclamp m Hwf Hsm Hw Hh _ _ _ _ _ Eb) as Hbeg. eapply run_all; [exact Hbeg|exact Ht| |exact E].
    intros Hno f. pose proof (bg_from _ _ _ _ _ _ Hbeg) as Hi. pose proof (bg_to _ _ _ _ _ _ Hbeg) as Hi2. destruct (a_of from to) as [[x y] th], (g_of from to) as [[gx gy] gth]. cbn [cell_at fst snd] in *.
    destruct (begin_ok clamp Hclamp m Hwf Hsm Hw Hh x y th gx gy gth Hi Hi2) as (os & og & pay' & E1 & Hos & _). rewrite Eb in E1.
    destruct os; [exfalso; apply Hno, Hos; reflexivity|]. injection E1 as -> _ _. destruct f; [left|right; left]; reflexivity.
  Qed.

  (** ** An empty result *)
  Lemma goals_false {T} f cur (start : list vkey) cb gs : forall (t t' : T) cs,
    pose_goals vkey snode T vkey_eqb start (nb_isgoal p b) goal_dist 0 cb bf f cur gs t = Some (t', cs, AGo) ->
    forall gv, In gv gs -> nb_isgoal p b (npay (f gv)) (npay (f cur)) (match n_prev vkey snode (f cur) with Some u => Some (npay (f u)) | None => None end) = Some false.
  Proof using Type.
    clear. induction gs as [|g gs IH]; intros t t' cs E gv Hg; [destruct Hg|]. cbn [pose_goals] in E. set (o := match n_prev vkey snode (f cur) with Some u => _ | None => None end) in *.
    destruct (nb_isgoal p b (npay (f g)) (npay (f cur)) o) as [[|]|] eqn:Ei; cbn [obind negb] in E; [|  |discriminate].
    - destruct (Req_EM_T 0 0) as [_|N]; [discriminate|contradiction].
    - destruct Hg as [<-|Hg]; [exact Ei|]. apply (IH _ _ _ E gv Hg).
  Qed.
  Lemma pose_empty {T} fuel cb (t : T) from to cands log : osd = 0 -> (forall n, timeout n = false) -> findo fuel cb t from to = VF (VPath _ _ []) cands log ->
    exhaustive clamp m p so b (a_of from to) (g_of from to) log /\
    forall c, In c log -> exists gs o, (forall gp, In gp gs -> goal_node clamp m (g_of from to) gp) /\
      (~ occupied m (fst (cell_at (g_of from to))) (snd (cell_at (g_of from to))) -> length gs = 2%nat) /\
      forall gp, In gp gs -> nb_isgoal p b gp (wc_pay _ _ c) o = Some false.
  Proof using Hclamp Hm Hskips Hk Hpush Hpop Hb.
    intros Ho Ht E0. pose proof E0 as E. unfold v_findo in E. change (if sp_rev p then to else from) with (a_of from to) in E. change (if sp_rev p then from else to) with (g_of from to) in E.
    destruct (v_begin clamp m _ _) as [[[start goals] pay]|] eqn:Eb; [|discriminate]. apply found_inv in E. destruct E as (p0 & ws & E & Ep & _).
    assert (p0 = []) as ->. { destruct (sp_rev p); [|congruence]. apply (f_equal (@rev _)) in Ep. rewrite rev_involutive in Ep. symmetry. exact Ep. }
    pose proof (begun_ok clamp Hclamp m Hwf Hsm Hw Hh _ _ _ _ _ Eb) as Hbeg.
    destruct (any_run _ _ start goals pay Hbeg _ _ _ _ _ _ _ E) as [He _].
    assert (Hgo : forall c, In c log -> wc_ans _ _ c = AGo).
    { destruct (e_path _ _ _ _ _ _ _ _ _ _ _ _ _ He [] eq_refl) as [(l0 & c & _ & _ & X & _)|[_ Hno]]; [contradiction|]. intros c Hc. specialize (Hno c Hc).
      destruct (e_calls _ _ _ _ _ _ _ _ _ _ _ _ _ He c Hc) as (_ & _ & _ & t1 & t2 & s & _ & _ & _ & Et). apply pose_goals_spec in Et. destruct Et as (Hs & _). destruct (wc_ans _ _ c); [reflexivity|contradiction|contradiction]. }
    split; [apply (pose_all _ _ _ _ _ _ _ _ Ht E0); split; [exact Hgo|left; exact Ho]|]. intros c Hc.
    destruct (e_calls _ _ _ _ _ _ _ _ _ _ _ _ _ He c Hc) as (_ & _ & _ & t1 & t2 & s & HW & Hcl & Epay & Et). rewrite (Hgo c Hc), Ho in Et.
    exists (map (fun v => npay (inf s v)) goals), (match n_prev vkey snode (inf s (wc_node _ _ c)) with Some u => Some (npay (inf s u)) | None => None end). split; [|split].
    - intros gp Hgp. apply in_map_iff in Hgp. destruct Hgp as (v & <- & Hv). eapply goal_pay; eassumption.
    - intros Hocc. rewrite map_length. destruct (a_of from to) as [[x y] th] eqn:Ea'. destruct (g_of from to) as [[gx gy] gth] eqn:Eg'. cbn [cell_at fst snd] in Hocc.
      destruct (begin_ok clamp Hclamp m Hwf Hsm Hw Hh x y th gx gy gth (bg_from m _ _ _ _ _ Hbeg) (bg_to m _ _ _ _ _ Hbeg)) as (os & og & pay' & E' & _ & Hog & _).
      rewrite Eb in E'. injection E' as _ -> _. destruct og; [exfalso; apply Hocc; apply Hog; reflexivity|reflexivity].
    - intros gp Hgp. apply in_map_iff in Hgp. destruct Hgp as (v & <- & Hv). rewrite Epay. apply (goals_false _ _ _ _ _ _ _ _ Et v Hv).
  Qed.

  (** ** Without oversearch *)
  Lemma pose_plain_eq {T} fuel cb (t : T) from to : osd = 0 -> vf_path (findo fuel cb t from to) =
    v_find clamp m skips (sp_res p) adv moves reach hval tot (nb_isgoal p b) push pop (sp_rev p) timeout bf fuel from to.
  Proof using Hqueue.
    intros Ho. unfold v_findo, v_find. rewrite Ho. destruct (v_begin clamp m _ _) as [[[start goals] pay]|]; [|reflexivity]. cbn [vf_path vf_of]. unfold wrun, vrun.
    rewrite (loop_plain vkey_eqb moves reach offer hval tot (nb_isgoal p b) goal_dist push pop start goals queue Hqueue cb timeout bf fuel 0 t _ 0). reflexivity.
  Qed.

  (** ** It ends *)
  Hypothesis Hsz : nb_sized p b.
  Hypothesis Hbf : ((gm_w m + 64) * (gm_h m + 64) * 64 <= Z.of_nat bf)%Z.
  Lemma nb_far ref prevs i s c n : adv ref prevs i s = AMove c n -> Rabs (sn_x n - sn_x ref) <= far /\ Rabs (sn_y n - sn_y ref) <= far.
  Proof using Hk Hsz.
    clear Hb. destruct Hsz as [H1 H2]. clear Hsz. destruct b as [o|size steps distance]; cbn [nb_advance]; intros E.
    - destruct H2 as [H2 _]. apply (d_far clamp p so ref prevs i s c n Hk H1 H2 E).
    - destruct H2 as [H2 _]. apply (s_far clamp p so ref prevs i s c n Hk H2 H1 E).
  Qed.
  Lemma nb_custom a g s q : starts_at a g s -> rpose m skips adv moves s q -> sn_custom q <> None.
  Proof using Hsz.
    intros (_ & _ & f & ->) Hr. clear Hb. destruct Hsz as [_ H2]. clear Hsz. destruct b as [o|size steps distance]; cbn [nb_advance nb_moves] in Hr.
    - apply (custom_some_d clamp m skips p so o _ q) with (2 := Hr). discriminate.
    - apply (custom_some_s clamp m skips p so _ _ q) with (3 := Hr); [apply H2|discriminate].
  Qed.
  Lemma nb_def q prevs i k : sn_custom q <> None -> In (i, k) moves -> adv q prevs i k <> AUndef.
  Proof using Hsz.
    clear Hb. destruct Hsz as [_ H2]. clear Hsz. destruct b as [o|size steps distance]; cbn [nb_advance nb_moves]; intros Hc Hi.
    - apply (d_defined clamp p so o prevs q i k); [apply H2|assumption|assumption].
    - apply (s_defined clamp p so 0 size steps prevs q i k); [apply H2|assumption|assumption].
  Qed.
  Lemma nb_goal gp q o : sn_custom q <> None -> nb_isgoal p b gp q o <> None.
  Proof using Type.
    clear. destruct b as [d|size steps distance]; cbn [nb_isgoal]; intros Hq; [discriminate|]. unfold s_isGoal.
    destruct (Rlt_dec _ _); [discriminate|]. destruct (sn_custom q) as [cu|]; [|congruence]. destruct (sp_rev p); cbn [obind];
    repeat match goal with |- context [if ?b then _ else _] => destruct b end; try discriminate; destruct o; discriminate.
  Qed.
  Lemma undef_edge a g start goals pay : begun a g start goals pay -> undef_offer moves offer start pay -> enters_edge (nb_move clamp p so b) a g.
  Proof using Hclamp Hm Hk Hb Hsz.
    intros Hbeg (v & q & qs & mv & Hr & Hi & Ho).
    destruct (rch_rpose clamp Hclamp m Hsm Hw Hh skips (sp_res p) adv moves gens nb_cost start goals pay a g Hbeg v q Hr) as (s & Hs & Hq).
    destruct (offer_undef clamp Hclamp m Hwf Hsm Hw Hh skips (sp_res p) adv nb_far q qs mv (rpose_inner m skips adv moves _ _ _ _ Hs Hq)) as (c & n & Ha & Hl & Hc & He); [|exact Ho|].
    { apply nb_def; [apply (nb_custom a g s q Hs Hq)|destruct mv; exact Hi]. }
    apply (leaves_edge m skips adv moves).
    - intros q0 prevs i k c0 n0 Hin Ha0. destruct mv. clear - Hb Hin Ha0. destruct b as [o|size steps distance]; cbn [nb_moves nb_advance nb_move nb_ok] in *.
      + destruct (d_moves_in o i k Hin) as (A & B & _). exists i, k. auto.
      + apply v_moves_in in Hin. destruct Hin as (A & B). exists i, k. split; [clear - Hb A; lia|]. split; assumption.
    - exists s, q, qs, (fst mv), (snd mv), c, n. split; [exact Hs|]. split; [exact Hq|]. split; [destruct mv; exact Hi|]. auto.
  Qed.
  Lemma keys_bf : (length (all_keys m) <= bf)%nat.
  Proof using Hm Hbf. pose proof (all_keys_len m Hw Hh) as L. clear - L Hbf. lia. Qed.
  Lemma run_ends {T} a g start goals pay hgoal (term : T -> (vkey -> vinfo vkey snode) -> vkey -> option (T * list R * vanswer)) t : begun a g start goals pay ->
    (forall t s cur, WW start pay s -> n_closed _ _ (inf s cur) = true -> term t (inf s) cur <> None) ->
    finally (fun fuel => wrun vkey snode (Z * Z) T vkey_eqb moves reach offer hval tot push pop start goals hgoal osd queue term timeout bf fuel t pay) (fun x =>
      (exists path, fst (fst x) = VPath _ _ path) \/ (fst (fst x) = VUndef _ _ /\ enters_edge (nb_move clamp p so b) a g)).
  Proof using Hclamp Hm Hk Hb Hpush Hpop Hqueue Hsz Hbf.
    intros Hbeg Ht.
    destruct (run_test_ends vkey_eqb vkey_eqb_spec moves reach offer hval tot push pop Hpush Hpop start goals hgoal osd queue Hqueue term timeout bf pay (all_keys m) gens
      (costs_pos p so Hk) (keys_start m _ _ _ _ _ Hbeg) (keys0 start pay) Ht t keys_bf) as (fuel & X).
    exists fuel. split.
    - intros k Hkf. apply wloop_more; [|exact Hkf]. unfold wrun in X. intros Y. destruct X as [[path X]|[X _]]; rewrite Y in X; discriminate.
    - destruct X as [X|[X Y]]; [left; exact X|right]. split; [exact X|]. eapply undef_edge; eassumption.
  Qed.
  Lemma test_ends {T} hgoal test (t : T) from :
    finally (fun fuel => findt fuel hgoal test t from) (fun r =>
      (exists path, vf_path r = VPath _ _ path) \/ (vf_path r = VUndef _ _ /\ (~ has_nodes m (cell_at from) \/ enters_edge (nb_move clamp p so b) from from))).
  Proof using Hclamp Hm Hk Hb Hpush Hpop Hqueue Hsz Hbf.
    unfold v_findt. destruct (v_begin1 clamp m from) as [[start pay]|] eqn:Eb.
    - pose proof (begin1_ok _ _ _ Eb) as Hbeg.
      destruct (run_ends from from start [] pay hgoal (fun t f v => let '(t', cs, stop) := test t f v in Some (t', cs, if (stop : bool) then AStop else AGo)) t Hbeg) as (fuel & Hmore & Hres).
      { intros t0 s cur _ _. destruct (test t0 (inf s) cur) as [[t1 cs] stop]. discriminate. }
      exists fuel. split; [intros k Hkf; rewrite (Hmore k Hkf); reflexivity|]. cbn [vf_path vf_of]. destruct Hres as [[path ->]|[-> X]]; [left; eauto|right; auto].
    - exists O. split; [reflexivity|]. right. split; [reflexivity|]. left. intros Hi. destruct from as [[x y] th]. unfold v_begin1 in Eb.
      destruct (poses_ok clamp Hclamp m Hsm Hw Hh x y v_node0 Hi) as (p1 & E1 & A1 & _). rewrite E1 in Eb. cbn [obind fst snd] in Eb.
      destruct (init_ok m Hwf Hsm th (Zfloor x) (Zfloor y) p1 Hi) as (o & _ & X).
      { intros f. exists (- PI + 2 * PI / 32 * 15). rewrite A1. reflexivity. }
      destruct o; [rewrite X in Eb; discriminate|]. destruct X as (pay' & X & _). rewrite X in Eb. discriminate.
  Qed.
  Lemma pose_ends {T} cb (t : T) from to :
    finally (fun fuel => findo fuel cb t from to) (fun r =>
      (exists path, vf_path r = VPath _ _ path) \/
      (vf_path r = VUndef _ _ /\ (~ has_nodes m (cell_at from) \/ ~ has_nodes m (cell_at to) \/ enters_edge (nb_move clamp p so b) (a_of from to) (g_of from to)))).
  Proof using Hclamp Hm Hk Hb Hpush Hpop Hqueue Hsz Hbf.
    unfold v_findo. change (if sp_rev p then to else from) with (a_of from to). change (if sp_rev p then from else to) with (g_of from to).
    destruct (v_begin clamp m _ _) as [[[start goals] pay]|] eqn:Eb.
    - pose proof (begun_ok clamp Hclamp m Hwf Hsm Hw Hh _ _ _ _ _ Eb) as Hbeg.
      destruct (run_ends _ _ start goals pay None (pose_term vkey snode T vkey_eqb start goals (nb_isgoal p b) goal_dist osd cb bf) t Hbeg) as (fuel & Hmore & Hres).
      { intros t0 s cur HW Hc. apply pose_goals_ok.
        - intros gv o. apply nb_goal. destruct (rch_rpose clamp Hclamp m Hsm Hw Hh skips (sp_res p) adv moves gens nb_cost start goals pay _ _ Hbeg cur (npay (inf s cur))) as (s0 & Hs0 & Hq).
          { apply (w_rch _ _ _ _ _ _ s HW). right. exact Hc. }
          apply (nb_custom _ _ s0 _ Hs0 Hq).
        - destruct (back_ok vkey_eqb vkey_eqb_spec moves offer start bf pay (all_keys m) gens s cur HW Hc keys_bf) as [l ->]. discriminate. }
      exists fuel. split; [intros k Hkf; rewrite (Hmore k Hkf); reflexivity|]. cbn [vf_path vf_of]. destruct Hres as [[path ->]|[-> X]]; [left; eauto|right; auto].
    - exists O. split; [reflexivity|]. right. split; [reflexivity|].
      assert (X : ~ inner m (fst (cell_at (a_of from to))) (snd (cell_at (a_of from to))) \/ ~ inner m (fst (cell_at (g_of from to))) (snd (cell_at (g_of from to)))).
      { destruct (innerb m (fst (cell_at (a_of from to))) (snd (cell_at (a_of from to)))) eqn:Ea; [|left; intros X; apply innerb_spec in X; congruence].
        destruct (innerb m (fst (cell_at (g_of from to))) (snd (cell_at (g_of from to)))) eqn:Eb'; [|right; intros X; apply innerb_spec in X; congruence].
        exfalso. apply innerb_spec in Ea, Eb'. destruct (a_of from to) as [[x y] th], (g_of from to) as [[gx gy] gth].
        destruct (begin_ok clamp Hclamp m Hwf Hsm Hw Hh x y th gx gy gth Ea Eb') as (os & og & pay & E & _). congruence. }
      clear - X. unfold search_from, search_to in X. change (inner m) with (fun x y => has_nodes m (x, y)) in X. destruct (sp_rev p), (cell_at from), (cell_at to); cbn [fst snd] in X; tauto.
  Qed.
End Props.

(** ** C74 *)
(** The caller's goal test, any open list: its calls ... *)
Theorem C74_own_test_calls : forall clamp m skips p so b hval tot push pop queue timeout bf fuel osd T hgoal test (t : T) from c,
  AngleClamp_contract clamp -> map_ok m -> vehicle_ok p so -> nb_ok b -> push_ok push -> pop_ok pop ->
  let r := v_findt clamp m skips p so b hval tot push pop queue timeout bf fuel osd hgoal test t from in
  asked test t (vf_calls r) /\ (In c (vf_calls r) -> exists s, start_node from from s /\ drives_to (nb_move clamp p so b) s (wc_pay _ _ c)) /\
  (osd <> 0 -> in_window osd (vf_calls r)).
Proof. intros. split; [apply test_asked|]. split; [apply test_reached; assumption|apply test_window]. Qed.
(** ... and the result: a path to the slot of an added pose of least weight, which can be
    driven as in C59; empty exactly if nothing was added. *)
Theorem C74_own_test : forall clamp m skips p so b hval tot push pop queue timeout bf fuel osd T hgoal test (t : T) from path cands log,
  AngleClamp_contract clamp -> map_ok m -> (0 <= skips)%Z -> vehicle_ok p so -> nb_ok b -> push_ok push -> pop_ok pop -> queue_ok queue ->
  v_findt clamp m skips p so b hval tot push pop queue timeout bf fuel osd hgoal test t from = VF (VPath _ _ path) cands log ->
  (path = [] /\ forall q w, ~ added log q w) \/
  exists n l q w, driven (sp_rev p) path = n :: l /\ drivable clamp m skips p so b from from (n :: l) /\ best log q w /\ slot_of clamp n = slot_of clamp q.
Proof. intros clamp m skips p so b hval tot push pop queue timeout bf fuel osd T hgoal test t from path cands log Hc Hm Hs Hk Hb Hpush Hpop Hq E. eapply test_any; eassumption. Qed.
(** Least distance first: the path ends in the added pose itself and is a drive. *)
Theorem C74_own_test_least : forall clamp m skips p so b hval tot push pop queue timeout bf fuel osd T hgoal test (t : T) from path cands log,
  AngleClamp_contract clamp -> map_ok m -> (0 <= skips)%Z -> vehicle_ok p so -> nb_ok b -> push_ok push -> pop_ok pop -> queue_ok queue ->
  (forall d h, tot d h = d) -> least_first pop ->
  v_findt clamp m skips p so b hval tot push pop queue timeout bf fuel osd hgoal test t from = VF (VPath _ _ path) cands log ->
  (path = [] /\ forall q w, ~ added log q w) \/
  exists s c n l w, driven (sp_rev p) path = n :: l /\ start_node from from s /\ trip (nb_move clamp p so b) s (n :: l) c /\ best log n w.
Proof. intros clamp m skips p so b hval tot push pop queue timeout bf fuel osd T hgoal test t from path cands log Hc Hm Hs Hk Hb Hpush Hpop Hq Ht Hl E. eapply test_least; eassumption. Qed.
(** Nothing is left out: if the search ran out of nodes, nobody having stopped it, it has
    asked about everything that can be driven to (up to the slot). *)
Theorem C74_own_test_exhaustive : forall clamp m skips p so b hval tot push pop queue bf fuel osd T hgoal test (t : T) from path cands log,
  AngleClamp_contract clamp -> map_ok m -> (0 <= skips)%Z -> vehicle_ok p so -> push_ok push -> pop_ok pop ->
  v_findt clamp m skips p so b hval tot push pop queue (fun _ => false) bf fuel osd hgoal test t from = VF (VPath _ _ path) cands log ->
  ran_out osd log -> exhaustive clamp m p so b from from log.
Proof. intros clamp m skips p so b hval tot push pop queue bf fuel osd T hgoal test t from path cands log Hc Hm Hs Hk Hpush Hpop E Hr. eapply test_all; try eassumption. reflexivity. Qed.
Theorem C74_own_test_ends : forall clamp m skips p so b hval tot push pop queue timeout bf osd T hgoal test (t : T) from,
  AngleClamp_contract clamp -> map_ok m -> vehicle_ok p so -> nb_ok b -> push_ok push -> pop_ok pop -> queue_ok queue ->
  nb_sized p b -> ((gm_w m + 64) * (gm_h m + 64) * 64 <= Z.of_nat bf)%Z ->
  finally (fun fuel => v_findt clamp m skips p so b hval tot push pop queue timeout bf fuel osd hgoal test t from) (fun r =>
    (exists path, vf_path r = VPath _ _ path) \/ (vf_path r = VUndef _ _ /\ (~ has_nodes m (cell_at from) \/ enters_edge (nb_move clamp p so b) from from))).
Proof. intros. apply test_ends; assumption. Qed.

(** Goal pose with oversearch: what is added, with which weight, ... *)
Theorem C74_oversearch_adds : forall clamp m skips p so b hval tot push pop queue timeout bf fuel osd T cb (t : T) from to q w,
  AngleClamp_contract clamp -> map_ok m -> vehicle_ok p so -> nb_ok b -> push_ok push -> pop_ok pop ->
  let r := v_findo clamp m skips p so b hval tot push pop queue timeout bf fuel osd cb t from to in
  let g := search_to (sp_rev p) from to in
  added (vf_calls r) q w -> accepted clamp p so b g q /\ Rabs (w - dist (spos q) (at_pt g)) <= sqrt 2.
Proof.
  intros clamp m skips p so b hval tot push pop queue timeout bf fuel osd T cb t from to q w Hc Hm Hk Hb Hpush Hpop r g Ha.
  apply (pose_added clamp Hc m Hm skips p so Hk b Hb hval tot push pop Hpush Hpop queue timeout bf osd fuel cb t from to q w Ha).
Qed.
(** ... nothing that the neighbourhood accepts is left out (no candidate callback), ... *)
Theorem C74_oversearch_all : forall clamp m skips p so b hval tot push pop queue timeout bf fuel osd T (t : T) from to c,
  AngleClamp_contract clamp -> map_ok m -> vehicle_ok p so -> nb_ok b -> push_ok push -> pop_ok pop -> osd <> 0 ->
  let g := search_to (sp_rev p) from to in
  In c (vf_calls (v_findo clamp m skips p so b hval tot push pop queue timeout bf fuel osd None t from to)) ->
  wc_ans _ _ c = AGo /\ exists gs o, (forall gp, In gp gs -> goal_node clamp m g gp) /\ (~ occupied m (fst (cell_at g)) (snd (cell_at g)) -> length gs = 2%nat) /\
    wc_cands _ _ c = map (fun gp => dist (spos gp) (spos (wc_pay _ _ c))) (filter (fun gp => match nb_isgoal p b gp (wc_pay _ _ c) o with Some x => x | None => false end) gs).
Proof. intros clamp m skips p so b hval tot push pop queue timeout bf fuel osd T t from to c Hc Hm Hk Hb Hpush Hpop Ho g Hin. apply (pose_asked _ Hc _ Hm _ _ _ Hk _ Hb _ _ _ _ Hpush Hpop _ _ _ _ _ _ _ _ _ Ho Hin). Qed.
(** ... how far the search goes on, ... *)
Theorem C74_window : forall clamp m skips p so b hval tot push pop queue timeout bf fuel osd T cb (t : T) from to, osd <> 0 ->
  in_window osd (vf_calls (v_findo clamp m skips p so b hval tot push pop queue timeout bf fuel osd cb t from to)).
Proof. intros. apply pose_window. assumption. Qed.
(** ... and the result: a path to the slot of an added pose of least weight, or the path
    for which the callback said that it is enough. *)
Theorem C74_oversearch : forall clamp m skips p so b hval tot push pop queue timeout bf fuel osd T cb (t : T) from to path cands log,
  AngleClamp_contract clamp -> map_ok m -> (0 <= skips)%Z -> vehicle_ok p so -> nb_ok b -> push_ok push -> pop_ok pop -> queue_ok queue -> osd <> 0 ->
  v_findo clamp m skips p so b hval tot push pop queue timeout bf fuel osd cb t from to = VF (VPath _ _ path) cands log ->
  (path = [] /\ forall q w, ~ added log q w) \/
  exists n l q w, driven (sp_rev p) path = n :: l /\ drivable clamp m skips p so b (search_from (sp_rev p) from to) (search_to (sp_rev p) from to) (n :: l) /\
    slot_of clamp n = slot_of clamp q /\ added log q w /\
    (best log q w \/ (n = q /\ exists c t1 t2, cb = Some c /\ c t1 (if sp_rev p then rev path else path) = (t2, true))).
Proof. intros clamp m skips p so b hval tot push pop queue timeout bf fuel osd T cb t from to path cands log Hc Hm Hs Hk Hb Hpush Hpop Hq Ho E. eapply pose_any; eassumption. Qed.
Theorem C74_oversearch_least : forall clamp m skips p so b hval tot push pop queue timeout bf fuel osd T cb (t : T) from to path cands log,
  AngleClamp_contract clamp -> map_ok m -> (0 <= skips)%Z -> vehicle_ok p so -> nb_ok b -> push_ok push -> pop_ok pop -> queue_ok queue ->
  (forall d h, tot d h = d) -> least_first pop -> osd <> 0 ->
  v_findo clamp m skips p so b hval tot push pop queue timeout bf fuel osd cb t from to = VF (VPath _ _ path) cands log ->
  (path = [] /\ forall q w, ~ added log q w) \/
  exists s c n l w, driven (sp_rev p) path = n :: l /\ start_node (search_from (sp_rev p) from to) (search_to (sp_rev p) from to) s /\
    trip (nb_move clamp p so b) s (n :: l) c /\ added log n w /\ (cb = None -> best log n w).
Proof. intros clamp m skips p so b hval tot push pop queue timeout bf fuel osd T cb t from to path cands log Hc Hm Hs Hk Hb Hpush Hpop Hq Ht Hl Ho E. eapply pose_least; eassumption. Qed.
Theorem C74_exhaustive : forall clamp m skips p so b hval tot push pop queue bf fuel osd T cb (t : T) from to path cands log,
  AngleClamp_contract clamp -> map_ok m -> (0 <= skips)%Z -> vehicle_ok p so -> push_ok push -> pop_ok pop ->
  v_findo clamp m skips p so b hval tot push pop queue (fun _ => false) bf fuel osd cb t from to = VF (VPath _ _ path) cands log ->
  ran_out osd log -> exhaustive clamp m p so b (search_from (sp_rev p) from to) (search_to (sp_rev p) from to) log.
Proof. intros clamp m skips p so b hval tot push pop queue bf fuel osd T cb t from to path cands log Hc Hm Hs Hk Hpush Hpop E Hr. eapply pose_all; try eassumption. reflexivity. Qed.
Theorem C74_ends : forall clamp m skips p so b hval tot push pop queue timeout bf osd T cb (t : T) from to,
  AngleClamp_contract clamp -> map_ok m -> vehicle_ok p so -> nb_ok b -> push_ok push -> pop_ok pop -> queue_ok queue ->
  nb_sized p b -> ((gm_w m + 64) * (gm_h m + 64) * 64 <= Z.of_nat bf)%Z ->
  finally (fun fuel => v_findo clamp m skips p so b hval tot push pop queue timeout bf fuel osd cb t from to) (fun r =>
    (exists path, vf_path r = VPath _ _ path) \/
    (vf_path r = VUndef _ _ /\ (~ has_nodes m (cell_at from) \/ ~ has_nodes m (cell_at to) \/
      enters_edge (nb_move clamp p so b) (search_from (sp_rev p) from to) (search_to (sp_rev p) from to)))).
Proof. intros. apply pose_ends; assumption. Qed.
(** With an oversearch distance of 0 the candidate function is never used: the search of
    C59-C63. *)
Theorem C74_plain : forall clamp m skips p so hval tot push pop queue timeout bf fuel T cb (t : T) from to, queue_ok queue ->
  (forall o, vf_path (v_findo clamp m skips p so (NDyn o) hval tot push pop queue timeout bf fuel 0 cb t from to) = d_find clamp m skips p so o hval tot push pop timeout bf fuel from to) /\
  (forall size steps distance, vf_path (v_findo clamp m skips p so (NTmp size steps distance) hval tot push pop queue timeout bf fuel 0 cb t from to) =
    s_find clamp m skips p so size steps distance hval tot push pop timeout bf fuel from to).
Proof. intros clamp m skips p so hval tot push pop queue timeout bf fuel T cb t from to Hq. split; intros; apply pose_plain_eq; auto. Qed.

(** ** C75: getPathCandidates after the search *)
(** One path for each addition, the least weights first, each drivable (in the order of
    the search, also for a reversed neighbourhood); the first is the returned path. *)
Theorem C75_own_test : forall clamp m skips p so b hval tot push pop queue timeout bf fuel osd T hgoal test (t : T) from path ps log,
  AngleClamp_contract clamp -> map_ok m -> (0 <= skips)%Z -> vehicle_ok p so -> nb_ok b -> push_ok push -> pop_ok pop -> queue_ok queue ->
  v_findt clamp m skips p so b hval tot push pop queue timeout bf fuel osd hgoal test t from = VF (VPath _ _ path) (Some ps) log ->
  candidate_paths clamp m skips p so b from from log ps /\ path = (if sp_rev p then rev (hd [] ps) else hd [] ps).
Proof. intros clamp m skips p so b hval tot push pop queue timeout bf fuel osd T hgoal test t from path ps log Hc Hm Hs Hk Hb Hpush Hpop Hq E. eapply test_cands; eassumption. Qed.
Theorem C75_oversearch : forall clamp m skips p so b hval tot push pop queue timeout bf fuel osd T cb (t : T) from to path ps log,
  AngleClamp_contract clamp -> map_ok m -> (0 <= skips)%Z -> vehicle_ok p so -> nb_ok b -> push_ok push -> pop_ok pop -> queue_ok queue ->
  v_findo clamp m skips p so b hval tot push pop queue timeout bf fuel osd cb t from to = VF (VPath _ _ path) (Some ps) log ->
  candidate_paths clamp m skips p so b (search_from (sp_rev p) from to) (search_to (sp_rev p) from to) log ps /\
  (osd <> 0 -> cb = None -> path = (if sp_rev p then rev (hd [] ps) else hd [] ps)).
Proof. intros clamp m skips p so b hval tot push pop queue timeout bf fuel osd T cb t from to path ps log Hc Hm Hs Hk Hb Hpush Hpop Hq E. eapply pose_cands; eassumption. Qed.
(** It never reads a node without predecessor. *)
Theorem C75_defined : forall clamp m skips p so b hval tot push pop queue timeout bf fuel osd T hgoal test cb (t : T) from to path,
  AngleClamp_contract clamp -> map_ok m -> vehicle_ok p so -> push_ok push -> pop_ok pop -> queue_ok queue ->
  ((gm_w m + 64) * (gm_h m + 64) * 64 <= Z.of_nat bf)%Z ->
  let r1 := v_findt clamp m skips p so b hval tot push pop queue timeout bf fuel osd hgoal test t from in
  let r2 := v_findo clamp m skips p so b hval tot push pop queue timeout bf fuel osd cb t from to in
  (vf_path r1 = VPath _ _ path -> vf_cands r1 <> None) /\ (vf_path r2 = VPath _ _ path -> vf_cands r2 <> None).
Proof.
  intros clamp m skips p so b hval tot push pop queue timeout bf fuel osd T hgoal test cb t from to path Hc Hm Hk Hpush Hpop Hq Hbf r1 r2. split; intros E.
  - eapply test_cands_defined; eassumption.
  - eapply pose_cands_defined; eassumption.
Qed.

(** A priority queue. *)
Fixpoint q_insert {V} (x : V * R) (l : list (V * R)) : list (V * R) :=
  match l with [] => [x] | y :: r => if Rle_dec (snd x) (snd y) then x :: l else y :: q_insert x r end.
Definition q_sort {V} (l : list (V * R)) : list (V * R) := fold_right q_insert [] l.
Lemma q_sort_ok {V} : queue_ok (@q_sort V).
Proof.
  assert (Hp : forall (x : V * R) l, Permutation (x :: l) (q_insert x l)).
  { intros x l. induction l as [|y l IH]; cbn [q_insert]; [reflexivity|]. destruct (Rle_dec _ _); [reflexivity|]. rewrite perm_swap. constructor. exact IH. }
  assert (Hs : forall (x : V * R) l, StronglySorted (fun a b => snd a <= snd b) l -> StronglySorted (fun a b => snd a <= snd b) (q_insert x l)).
  { intros x l. induction l as [|y l IH]; cbn [q_insert]; intros H; [repeat constructor|]. inversion H as [|? ? H1 H2]; subst. destruct (Rle_dec _ _) as [L|L].
    - constructor; [exact H|]. constructor; [exact L|]. rewrite Forall_forall in *. intros z Hz. specialize (H2 z Hz). lra.
    - constructor; [apply IH; exact H1|]. rewrite Forall_forall in *. intros z Hz. apply (Permutation_in _ (Permutation_sym (Hp x l))) in Hz. destruct Hz as [<-|Hz]; [lra|apply H2; exact Hz]. }
  intros l. induction l as [|x l [IH1 IH2]]; cbn [q_sort fold_right]; [split; constructor|]. split.
  - rewrite <- Hp. constructor. exact IH1.
  - apply Hs. exact IH2.
Qed.

(** ** C76: an empty result *)
(** A set of poses that contains the start and which no move along free cells leaves
    (up to the cell, heading slot and direction). *)
Definition closed_set (clamp : R -> R) (m : gridmap) (advance : snode -> list snode -> Z -> Z -> adv) (moves : list (Z * Z)) (a g : R * R * R) (qs : list snode) : Prop :=
  (~ occupied m (fst (cell_at a)) (snd (cell_at a)) -> forall f, exists q, In q qs /\ start_node a g q /\ sn_fwd q = f) /\
  forall q i k, In q qs -> In (i, k) moves -> exists prevs, forall cost n, advance q prevs i k = AMove cost n -> free_way m q n -> has_nodes m (pcell n) ->
    exists q', In q' qs /\ (slot_of clamp q' = slot_of clamp n \/ (start_node a g q' /\ pcell q' = pcell n)).
Lemma closed_of clamp m p so b a g log : exhaustive clamp m p so b a g log -> closed_set clamp m (nb_advance clamp p so b) (nb_moves b) a g (map (wc_pay _ _) log).
Proof.
  intros [H1 H2]. split.
  - intros Hno f. destruct (H1 Hno f) as (c & Hc & H). exists (wc_pay _ _ c). split; [apply in_map; exact Hc|exact H].
  - intros q i k Hq Hi. apply in_map_iff in Hq. destruct Hq as (c & <- & Hc). destruct (H2 c i k Hc Hi) as (qs & Hqs). exists qs. intros cost n E F N.
    destruct (Hqs cost n E F N) as (c' & Hc' & H). exists (wc_pay _ _ c'). split; [apply in_map; exact Hc'|exact H].
Qed.
(** The nodes of the goal: both directions, at the goal or overwritten by the search. *)
Definition goal_pair (clamp : R -> R) (m : gridmap) (g : R * R * R) (gs : list snode) : Prop :=
  (forall gp, In gp gs -> goal_node clamp m g gp) /\ (~ occupied m (fst (cell_at g)) (snd (cell_at g)) -> length gs = 2%nat).
Theorem C76_dynamic_empty : forall clamp m skips p so o hval tot push pop bf fuel from to,
  AngleClamp_contract clamp -> map_ok m -> (0 <= skips)%Z -> vehicle_ok p so -> push_ok push -> pop_ok pop ->
  d_find clamp m skips p so o hval tot push pop (fun _ => false) bf fuel from to = VPath _ _ [] ->
  let g := search_to (sp_rev p) from to in
  exists qs, closed_set clamp m (d_advance clamp p so) (d_moves o) (search_from (sp_rev p) from to) g qs /\
    forall q, In q qs -> exists gs, goal_pair clamp m g gs /\
      forall gp, In gp gs -> ~ (heading_within (sn_th gp) (sn_th q) (do_ang o) /\ world_dist (sp_res p) (spos gp) (spos q) < do_dist o).
Proof.
  intros clamp m skips p so o hval tot push pop bf fuel from to Hc Hm Hs Hk Hpush Hpop E g.
  destruct (v_findo clamp m skips p so (NDyn o) hval tot push pop q_sort (fun _ => false) bf fuel 0 None tt from to) as [r cands log] eqn:Ef.
  destruct (C74_plain clamp m skips p so hval tot push pop q_sort (fun _ => false) bf fuel unit None tt from to q_sort_ok) as [X _]. specialize (X o). rewrite Ef in X. cbn [vf_path] in X. rewrite E in X. subst r.
  destruct (pose_empty clamp Hc m Hm skips Hs p so Hk (NDyn o) Logic.I hval tot push pop Hpush Hpop q_sort (fun _ => false) bf 0 fuel None tt from to cands log eq_refl (fun _ => eq_refl) Ef) as [A B].
  exists (map (wc_pay _ _) log). split; [apply (closed_of clamp m p so (NDyn o)); exact A|].
  intros q Hq. apply in_map_iff in Hq. destruct Hq as (c & <- & Hin). destruct (B c Hin) as (gs & o0 & H1 & H2 & H3). exists gs. split; [split; assumption|].
  intros gp Hgp Hd. apply C57_dynamic in Hd. specialize (H3 gp Hgp). cbn [nb_isgoal] in H3. congruence.
Qed.
Theorem C76_template_empty : forall clamp m skips p so size steps distance hval tot push pop bf fuel from to,
  AngleClamp_contract clamp -> map_ok m -> (0 <= skips)%Z -> vehicle_ok p so -> (size <= 6)%Z -> push_ok push -> pop_ok pop ->
  s_find clamp m skips p so size steps distance hval tot push pop (fun _ => false) bf fuel from to = VPath _ _ [] ->
  let g := search_to (sp_rev p) from to in
  exists qs, closed_set clamp m (s_advance clamp p so) (v_moves 0 size steps) (search_from (sp_rev p) from to) g qs /\
    forall q, In q qs -> exists gs, goal_pair clamp m g gs /\
      forall gp, In gp gs -> (sp_rev p = true -> exists cu, sn_custom q = Some cu /\ (cu <= 0)%Z) ->
        Rabs (px (eff_goal p gp q) - sn_x q) <= 4 * IZR distance -> Rabs (py (eff_goal p gp q) - sn_y q) <= 4 * IZR distance ->
        ~ (heading_within (sn_th gp) (sn_th q) (PI / 8) /\ world_dist (sp_res p) (eff_goal p gp q) (spos q) < 5 / 100).
Proof.
  intros clamp m skips p so size steps distance hval tot push pop bf fuel from to Hc Hm Hs Hk Hsz Hpush Hpop E g.
  destruct (v_findo clamp m skips p so (NTmp size steps distance) hval tot push pop q_sort (fun _ => false) bf fuel 0 None tt from to) as [r cands log] eqn:Ef.
  destruct (C74_plain clamp m skips p so hval tot push pop q_sort (fun _ => false) bf fuel unit None tt from to q_sort_ok) as [_ X]. specialize (X size steps distance). rewrite Ef in X. cbn [vf_path] in X. rewrite E in X. subst r.
  destruct (pose_empty clamp Hc m Hm skips Hs p so Hk (NTmp size steps distance) Hsz hval tot push pop Hpush Hpop q_sort (fun _ => false) bf 0 fuel None tt from to cands log eq_refl (fun _ => eq_refl) Ef) as [A B].
  exists (map (wc_pay _ _) log). split; [apply (closed_of clamp m p so (NTmp size steps distance)); exact A|].
  intros q Hq. apply in_map_iff in Hq. destruct Hq as (c & <- & Hin). destruct (B c Hin) as (gs & o0 & H1 & H2 & H3). exists gs. split; [split; assumption|].
  intros gp Hgp Hcu Hx Hy [Hd1 Hd2]. specialize (H3 gp Hgp). cbn [nb_isgoal] in H3.
  assert (Hres : 0 < sp_res p) by (clear - Hk; destruct Hk; assumption).
  rewrite (C57_template_complete p distance gp (wc_pay _ _ c) o0 Hres Hd1 Hcu Hx Hy (or_introl Hd2)) in H3. discriminate.
Qed.

(** ** A case *)
(** The first pose the test is asked about is added twice, then it says stop: every map
    and vehicle, start on a cell that is not occupied. *)
Lemma first_asked clamp m skips p so b hval tot push pop bf fuel osd x y th hgoal :
  AngleClamp_contract clamp -> map_ok m -> push_ok push -> pop_ok pop -> has_nodes m (Zfloor x, Zfloor y) -> ~ occupied m (Zfloor x) (Zfloor y) -> sp_rev p = false ->
  (1 <= fuel)%nat -> (1 <= bf)%nat ->
  exists f log, let path := [((Zfloor x, Zfloor y, 15%Z, f), at_corner (Zfloor x) (Zfloor y) th f)] in
    v_findt clamp m skips p so b hval tot push pop q_sort (fun _ => false) bf fuel osd hgoal (fun (t : unit) _ _ => (t, [5; 3], true)) tt (x, y, th) = VF (VPath _ _ path) (Some [path; path]) log /\
    best log (at_corner (Zfloor x) (Zfloor y) th f) 3.
Proof.
  intros Hc [Hwf Hsm Hw Hh] Hpush Hpop Hi Hno Hrev Hfu Hbf. unfold v_findt, v_begin1.
  destruct (poses_ok clamp Hc m Hsm Hw Hh x y v_node0 Hi) as (p1 & E1 & A1 & _). rewrite E1. cbn [obind fst snd].
  destruct (init_ok m Hwf Hsm th (Zfloor x) (Zfloor y) p1 Hi) as (o & Eo & X).
  { intros f. exists (- PI + 2 * PI / 32 * 15). rewrite A1. reflexivity. }
  destruct (occ1_spec m Hwf (Zfloor x) (Zfloor y)) as (o' & Eo' & Ho). rewrite Eo in Eo'. injection Eo' as <-.
  destruct o; [exfalso; apply Hno, Ho; reflexivity|]. destruct X as (pay & X & A & _). rewrite X. clear E1 A1 Eo Ho X.
  set (cx := Zfloor x) in *. set (cy := Zfloor y) in *. clearbody cx cy. unfold wrun, keys_of.
  set (start := [(cx, cy, 15%Z, true); (cx, cy, 15%Z, false)] : list vkey).
  destruct (starts_spec vkey_eqb vkey_eqb_spec tot push Hpush start (VS vkey snode (vfresh vkey snode pay) [])) as (A0 & _ & B).
  set (s0 := vstarts _ _ _ _ _ _ _) in *. clearbody s0. destruct fuel as [|fuel]; [lia|]. cbn [wloop ws_s].
  assert (Hne : v_open vkey snode s0 <> []). { intros Y. assert (Z : In (cx, cy, 15%Z, true) (v_open vkey snode s0)) by (apply A0; right; left; reflexivity). rewrite Y in Z. exact Z. }
  destruct (v_open vkey snode s0) as [|a0 l0] eqn:Eo; [congruence|]. rewrite <- Eo in *.
  pose proof (Hpop (vtotal vkey snode tot (v_info vkey snode s0)) (v_open vkey snode s0)) as Hp. destruct (pop _ _) as [[cur l]|]; [|congruence].
  destruct Hp as (Hin & _). apply A0 in Hin. destruct Hin as [[]|Hin]. destruct (B cur Hin) as (h & Ecur).
  assert (Hcur : exists f, cur = (cx, cy, 15%Z, f)) by (destruct Hin as [<-|[<-|[]]]; eauto). destruct Hcur as [f ->].
  cbn [v_info vfresh n_prev n_closed n_pay] in Ecur. rewrite A in Ecur. cbv zeta.
  set (s1 := wclose _ _ _ _ _ _ _ _ _).
  assert (Epay : n_pay _ _ (v_info _ _ s1 (cx, cy, 15%Z, f)) = at_corner cx cy th f).
  { unfold s1, wclose. cbn [v_info]. unfold vset. destruct (vkey_eqb_spec (cx, cy, 15%Z, f) (cx, cy, 15%Z, f)) as [_|N]; [|contradiction]. cbn [n_pay]. rewrite Ecur. reflexivity. }
  clearbody s1. destruct bf as [|bf]; [lia|].
  assert (Eb : vback vkey snode vkey_eqb start (S bf) (v_info vkey snode s1) (cx, cy, 15%Z, f) [] [] = Some [(cx, cy, 15%Z, f)]).
  { cbn [vback]. replace (vmem vkey vkey_eqb (cx, cy, 15%Z, f) start) with true; [reflexivity|]. symmetry. apply (vmem_spec vkey_eqb vkey_eqb_spec). exact Hin. }
  exists f. eexists. unfold vf_of, wfinish, wcandidates. cbn [wadd fst snd ws_s ws_cand app q_sort fold_right q_insert].
  destruct (Rle_dec 5 3) as [L|_]; [exfalso; lra|]. cbn [wpaths]. rewrite Eb. cbn [obind vcopy map]. rewrite Epay, Hrev. cbv zeta. split; [reflexivity|].
  split.
  - eexists. split; [left; reflexivity|]. split; [reflexivity|right; left; reflexivity].
  - intros q w (c & [<-|[]] & _ & [<-|[<-|[]]]); lra.
Qed.
From Verif Require Import PropVehicleJump PropVehicleStart.
Example C74_case : forall clamp th, AngleClamp_contract clamp ->
  exists n log, let r := v_findt clamp walled 0 def_p def_so (NDyn def_o) (l2 (/ 20)) Rplus fifo_push (min_pop Rltb) q_sort (fun _ => false) 1 1 1 None (fun (t : unit) _ _ => (t, [5; 3], true)) tt (2, 3, th) in
    r = VF (VPath _ _ [n]) (Some [[n]; [n]]) log /\ best log (snd n) 3 /\ map_ok walled /\ vehicle_ok def_p def_so /\ push_ok (@fifo_push vkey R) /\ pop_ok (@min_pop vkey R Rltb) /\ queue_ok (@q_sort vkey).
Proof.
  intros clamp th Hc.
  destruct (first_asked clamp walled 0 def_p def_so (NDyn def_o) (l2 (/ 20)) Rplus fifo_push (min_pop Rltb) 1 1 1 2 3 th None Hc walled_ok fifo_push_ok (min_pop_ok Rltb)) as (f & log & E & Hb).
  - unfold has_nodes. rewrite !Zfloor_IZR. cbn [fst snd walled gm_w gm_h]. lia.
  - rewrite !Zfloor_IZR. apply walled_free. vm_compute. reflexivity.
  - reflexivity.
  - lia.
  - lia.
  - eexists _, log. cbv zeta. split; [exact E|]. split; [exact Hb|]. split; [exact walled_ok|]. split; [exact def_ok|]. split; [exact fifo_push_ok|]. split; [exact (min_pop_ok Rltb)|exact q_sort_ok].
Qed.

(** C76: a vehicle that may drive neither forwards nor backwards asks about its start in
    both directions and returns the empty path. *)
Lemma no_moves clamp m skips p so hval tot bf x y th gx gy gth :
  AngleClamp_contract clamp -> map_ok m -> has_nodes m (Zfloor x, Zfloor y) -> has_nodes m (Zfloor gx, Zfloor gy) -> ~ occupied m (Zfloor x) (Zfloor y) -> sp_rev p = false ->
  / 20 <= world_dist (sp_res p) (Pt (IZR (Zfloor gx)) (IZR (Zfloor gy))) (Pt (IZR (Zfloor x)) (IZR (Zfloor y))) ->
  d_find clamp m skips p so (DO false false 2 (/ 20) (PI / 8)) hval tot fifo_push fifo_pop (fun _ => false) bf 3 (x, y, th) (gx, gy, gth) = VPath _ _ [].
Proof.
  intros Hc [Hwf Hsm Hw Hh] Hn Hng Hno Hrev Hd. unfold d_find, v_find. rewrite Hrev.
  destruct (begin_ok clamp Hc m Hwf Hsm Hw Hh x y th gx gy gth Hn Hng) as (os & og & pay & E & Hos & Hog & P1 & P2 & _).
  rewrite E. destruct os; [exfalso; apply Hno, Hos; reflexivity|]. clear E Hos.
  set (isg := fun (g r : snode) (_ : option snode) => Some (d_isGoal (sp_res p) (do_dist (DO false false 2 (/ 20) (PI / 8))) (do_ang (DO false false 2 (/ 20) (PI / 8))) g r)).
  set (cx := Zfloor x) in *. set (cy := Zfloor y) in *. set (dx := Zfloor gx) in *. set (dy := Zfloor gy) in *. clearbody cx cy dx dy.
  assert (Ps : forall f, exists tt, pay (cx, cy, 15%Z, f) = at_corner cx cy tt f).
  { intros f. eexists. apply P1. reflexivity. }
  unfold vrun, keys_of. set (goals := if og then [] else _ : list vkey).
  assert (Hgo : forall g, In g goals -> exists f tt, g = (dx, dy, 15%Z, f) /\ pay g = at_corner dx dy tt f).
  { intros g Hg. unfold goals in Hg. destruct og; [destruct Hg|]. destruct Hg as [<-|[<-|[]]]; eexists _, _; (split; [reflexivity|]); apply P2; reflexivity. }
  clearbody goals.
  assert (NR : forall f s, (forall v, n_pay vkey snode (f v) = pay v) -> vreached vkey snode isg f (cx, cy, 15%Z, s) goals = Some false).
  { intros f s Hf. assert (G : forall gs, incl gs goals -> vreached vkey snode isg f (cx, cy, 15%Z, s) gs = Some false); [|apply G, incl_refl].
    induction gs as [|g gs IH]; intros Hi; [reflexivity|]. cbn [vreached]. rewrite !Hf. destruct (Ps s) as (t1 & ->). destruct (Hgo g (Hi g (or_introl eq_refl))) as (f' & t2 & _ & ->).
    assert (Ed : d_isGoal (sp_res p) (/ 20) (PI / 8) (at_corner dx dy t2 f') (at_corner cx cy t1 s) = false).
    { apply not_true_is_false. intros Y. apply C57_dynamic in Y. destruct Y as [_ Y]. unfold spos, at_corner in Y. cbn [sn_x sn_y] in Y. lra. }
    unfold isg at 1. cbn [do_dist do_ang]. rewrite Ed. cbn [obind]. apply IH. intros z Hz. apply Hi. right. exact Hz. }
  assert (Kp : forall f w a1 a2 a3 a4 a5, (forall v, n_pay vkey snode (f v) = pay v) -> forall v, n_pay vkey snode (vset vkey snode vkey_eqb f w (VI vkey snode a1 a2 a3 a4 a5 (n_pay vkey snode (f w))) v) = pay v).
  { intros f w a1 a2 a3 a4 a5 Hf v. unfold vset. destruct (vkey_eqb_spec v w) as [->|_]; apply Hf. }
  cbn [vstarts v_open fifo_push app]. change (d_moves (DO false false 2 (/ 20) (PI / 8))) with (@nil (Z * Z)).
  cbn [vloop v_open fifo_pop vexpand vclose fst].
  rewrite NR by (repeat apply Kp; intros v; reflexivity).
  cbn [v_open vclose].
  rewrite NR by (repeat apply Kp; intros v; reflexivity).
  reflexivity.
Qed.

Example C76_case : forall clamp th gth, AngleClamp_contract clamp ->
  d_find clamp walled 0 def_p def_so (DO false false 2 (/ 20) (PI / 8)) (l2 (/ 20)) Rplus fifo_push fifo_pop (fun _ => false) 0 3 (2, 3, th) (10, 3, gth) = VPath _ _ [].
Proof.
  intros clamp th gth Hc. apply no_moves; try assumption; try exact walled_ok; try reflexivity.
  - unfold has_nodes. rewrite !Zfloor_IZR. cbn [fst snd walled gm_w gm_h]. lia.
  - unfold has_nodes. rewrite !Zfloor_IZR. cbn [fst snd walled gm_w gm_h]. lia.
  - rewrite !Zfloor_IZR. apply walled_free. vm_compute. reflexivity.
  - rewrite !Zfloor_IZR. unfold world_dist. rewrite dist_hyp. cbn [px py sp_res def_p]. unfold hyp. replace ((10 - 2) * (10 - 2) + (3 - 3) * (3 - 3)) with (8 * 8) by ring. rewrite sqrt_square by lra. lra.
Qed.
