(** C83: whatever a vehicle search object was used for before, a path it returns can be
    driven, and every call ends. *)
From Coq Require Import Reals Lra Permutation Sorted.
From Flocq Require Import Core.Raux.
From Verif Require Import Base GridMap GridMapProofs GridSpec Bresenham BresenhamProofs GeomR PropGeom PropLine MapManagers SteerModel PropSteer PropSteerKin PropSteerCost PropSteerGoal
  GenericProofs OpenPolicies VehicleSearch VehicleProofs VehicleAny VehicleModel VehicleInst VehicleGen PropVehicle PropVehicleEnd VehicleTest VehicleTestProofs VehicleFind
  PropVehicleTest PropVehicleJump PropVehicleStart PropVehicleCase VehicleReuse PropVehicleReuse VehicleStale.
Local Open Scope R_scope.

(** ** Specification *)
Section Spec.
  Variable clamp : R -> R.
  Variable p : sparams.
  Variable so : sopts.
  Variable b : nbh.
  Variable hval : snode -> snode -> R.
  Variable tot : R -> R -> R.
  Variable push : (vkey -> R) -> vkey -> list vkey -> list vkey.
  Variable pop : (vkey -> R) -> list vkey -> option (vkey * list vkey).
  Variable queue : list (vkey * R) -> list (vkey * R).
  Variable bf : nat.

  (** Search objects with any history: maps, calls with any poses, goal tests, callbacks,
      timeouts and oversearch distances, calls that were cut off. *)
  Inductive used : vobj -> Prop :=
  | used_new m skips first : map_ok m -> (0 <= skips)%Z -> used (vo_new m skips first)
  | used_map o m skips : used o -> map_ok m -> (0 <= skips)%Z -> used (vo_setMap o m skips)
  | used_pose o T cb (t : T) osd timeout fuel from to : used o -> used (snd (vo_findo clamp p so b hval tot push pop queue timeout bf fuel osd cb t o from to))
  | used_test o T hgoal test (t : T) osd timeout fuel from : used o -> used (snd (vo_findt clamp p so b hval tot push pop queue timeout bf fuel osd hgoal test t o from)).
End Spec.
(** A pose in the cell of the pose from which is searched, which is free and has nodes,
    with the heading that was asked for (that of the goal if the cells are the same). *)
Definition in_start_cell (m : gridmap) (a g : R * R * R) (s : snode) : Prop :=
  pcell s = cell_at a /\ has_nodes m (cell_at a) /\ ~ occupied m (fst (cell_at a)) (snd (cell_at a)) /\
  (cell_at a <> cell_at g -> sn_th s = snd a) /\ (cell_at a = cell_at g -> sn_th s = snd g).
(** A path (newest pose first) that can be driven, for each order of the open list, from
    some pose in the start cell; no slot is visited twice. *)
Definition drivable_from_cell (clamp : R -> R) (m : gridmap) (skips : Z) (p : sparams) (so : sopts) (b : nbh) (a g : R * R * R) (l : list snode) : Prop :=
  exists s, in_start_cell m a g s /\ near_trip clamp (nb_move clamp p so b) s l /\ passable m skips l /\ (forall n, In n l -> has_nodes m (pcell n)) /\
    NoDup (map (slot_of clamp) (removelast l)).
(** As [accepted] (PropVehicleTest.v), except that nothing is known about the pose before
    a start pose. *)
Definition accepted_last (clamp : R -> R) (p : sparams) (so : sopts) (b : nbh) (goal : R * R * R) (q : snode) (rest : list snode) : Prop :=
  exists o, at_goal p b goal o q /\ (rest <> [] -> forall o', o = Some o' -> exists q' prevs c, slot_of clamp q' = slot_of clamp o' /\ nb_move clamp p so b q' prevs c q).
(** As [candidate_paths] (PropVehicleTest.v): one path for each addition, the least weights
    first. *)
Definition candidates_from_cell (clamp : R -> R) (m : gridmap) (skips : Z) (p : sparams) (so : sopts) (b : nbh) (a g : R * R * R) (log : list (wcall vkey snode)) (ps : list (list (vkey * snode))) : Prop :=
  exists qs, Permutation (additions log) qs /\ StronglySorted (fun x y => snd x <= snd y) qs /\
    Forall2 (fun x path => exists n l, rev (map snd path) = n :: l /\ drivable_from_cell clamp m skips p so b a g (n :: l) /\ slot_of clamp n = slot_of clamp (fst x)) qs ps.
(** Some drive from a pose in the start cell enters row or column -32. *)
Definition enters_edge_from_cell (m : gridmap) (move : snode -> list snode -> R -> snode -> Prop) (a g : R * R * R) : Prop :=
  exists s q prevs c n, in_start_cell m a g s /\ drives_to move s q /\ move q prevs c n /\ (fst (pcell n) = -32 \/ snd (pcell n) = -32)%Z.

(** ** Proofs *)
Lemma trunc_cell m n c : pcell n = c -> occupied m (fst c) (snd c) -> occupied m (Ztrunc (sn_x n)) (Ztrunc (sn_y n)).
Proof.
  intros <- X. pose proof X as [Y _]. unfold pcell, cell_of in Y. cbn [fst snd] in Y.
  rewrite !trunc_nonneg by lia. exact X.
Qed.

Section Stale.
  Variable clamp : R -> R.
  Hypothesis Hclamp : AngleClamp_contract clamp.
  Variable p : sparams.
  Variable so : sopts.
  Hypothesis Hk : vehicle_ok p so.
  Variable b : nbh.
  Hypothesis Hb : nb_ok b.
  Variable hval : snode -> snode -> R.
  Variable tot : R -> R -> R.
  Variable push : (vkey -> R) -> vkey -> list vkey -> list vkey.
  Variable pop : (vkey -> R) -> list vkey -> option (vkey * list vkey).
  Hypothesis Hpush : push_ok push.
  Hypothesis Hpop : pop_ok pop.
  Variable queue : list (vkey * R) -> list (vkey * R).
  Hypothesis Hqueue : queue_ok queue.
  Variable bf : nat.

  Notation adv := (nb_advance clamp p so b).
  Notation moves := (nb_moves b).
  Notation reach := (nb_reach p b).
  Notation gens := (move_costs p so).
  Notation inf := (v_info vkey snode).
  Notation npay := (n_pay vkey snode).
  Notation starts := (vstarts vkey snode vkey_eqb tot push).

  (** The contents of a node. *)
  Definition good (v : vkey) (n : snode) : Prop := pcell n = fst (fst v) /\ (nb_sized p b -> sn_custom n <> None).
  Lemma good_th v n th : good v n -> good v (set_th th n).
  Proof using Type. intros H. exact H. Qed.
  Lemma good_fwd v n f : good v n -> good v (set_fwd f n).
  Proof using Type. intros H. exact H. Qed.
  Lemma good_node0 v : good v (v_node0 v).
  Proof using Type.
    destruct v as [[[x y] t] f]. split; [|discriminate]. unfold pcell, v_node0. cbn [sn_x sn_y fst]. rewrite !Zfloor_IZR. reflexivity.
  Qed.
  Lemma custom_move q qs i k c n : adv q qs i k = AMove c n -> nb_sized p b -> sn_custom n <> None.
  Proof using Type.
    clear. intros Ha [_ H2]. destruct b as [o|size steps distance]; cbn [nb_advance] in Ha.
    - apply d_advance_inv in Ha. destruct Ha as (cu & _ & _ & _ & _ & _ & [(_ & _ & _ & _ & _ & -> & _)|(delta & s0 & _ & _ & _ & _ & [(_ & _ & _ & _ & -> & _)|(_ & -> & _)])]); discriminate.
    - apply s_advance_inv in Ha. destruct Ha as (cu & delta & s0 & _ & _ & _ & _ & _ & _ & _ & _ & _ & F). destruct H2 as [H2 _]. rewrite H2 in F.
      destruct F as [(_ & _ & _ & _ & -> & _)|(_ & -> & _)]; discriminate.
  Qed.

  (** init on any contents. *)
  Lemma init_gen m th : forall l pay l' pay', NoDup l -> v_init m th l pay = Some (l', pay') ->
    (forall v, In v l' <-> In v l /\ v_occupied m (pay v) = Some false) /\
    (forall v, In v l' -> pay' v = set_th th (pay v)) /\ (forall v, ~ In v l' -> pay' v = pay v).
  Proof using Type.
    clear. induction l as [|v l IH]; intros pay l' pay' Hn; cbn [v_init].
    - intros E. injection E as <- <-. split; [intros v; split; [intros []|intros [[] _]]|]. split; [intros v []|reflexivity].
    - inversion Hn as [|? ? H1 H2]; subst. destruct (v_occupied m (pay v)) as [[|]|] eqn:Eo; cbn [obind]; [| |discriminate].
      + intros E. destruct (IH _ _ _ H2 E) as (A & B & C). split; [|split; [exact B|exact C]]. intros w. rewrite A. cbn [In]. split; [intros [X Y]; auto|].
        intros [[<-|X] Y]; [congruence|auto].
      + destruct (v_init m th l _) as [[l1 p1]|] eqn:E1; cbn [obind fst snd]; [|discriminate]. intros E. injection E as <- <-.
        destruct (IH _ _ _ H2 E1) as (A & B & C).
        assert (U : forall w, In w l -> v_upd pay v (set_th th (pay v)) w = pay w) by (intros w Hw; apply upd_other; intros ->; contradiction).
        assert (Nv : ~ In v l1) by (intros X; apply A in X; destruct X as [X _]; contradiction).
        split; [|split].
        * intros w. cbn [In]. rewrite A. split; [intros [<-|[X Y]]; [auto|rewrite U in Y by exact X; auto]|]. intros [[<-|X] Y]; [auto|]. right. rewrite U by exact X. auto.
        * intros w [<-|Hw]; [rewrite C by exact Nv; apply upd_same|]. rewrite B by exact Hw. apply A in Hw. rewrite U by apply Hw. reflexivity.
        * intros w Hw. rewrite C by (intros X; apply Hw; right; exact X). apply upd_other. intros ->. apply Hw. left. reflexivity.
  Qed.
  Lemma keys_nodup x y : NoDup (keys_of x y).
  Proof using Type. unfold keys_of. constructor; [intros [E|[]]; discriminate|]. constructor; [intros []|constructor]. Qed.

  (** start_at on any contents. *)
  Record started (m : gridmap) (pay : vkey -> snode) (pose : R * R * R) (l : list vkey) (pay' : vkey -> snode) : Prop := {
    sd_inner : inner m (fst (cell_at pose)) (snd (cell_at pose));
    sd_in : forall v, In v l <-> at_start pose v /\ v_occupied m (pay v) = Some false;
    sd_pay : forall v, In v l -> pay' v = set_th (snd pose) (set_fwd (snd v) (pay v));
    sd_out : forall v, ~ In v l -> pay' v = pay v \/ pay' v = set_fwd (snd v) (pay v);
    sd_far : forall v, ~ at_start pose v -> pay' v = pay v }.
  Lemma started_ok m pay pose l pay' : map_ok m -> start_at clamp m pay pose = Some (l, pay') -> started m pay pose l pay'.
  Proof using Hclamp.
    intros Hm E. pose proof (start_inner clamp Hclamp m Hm _ _ _ E) as Hi. pose proof (start_frame clamp Hclamp m Hm _ _ _ _ E) as Hf.
    destruct pose as [[x y] th]. unfold start_at in E. unfold cell_at in Hi. cbn [fst snd] in Hi.
    destruct (poses_ok clamp Hclamp m (mk_small m Hm) (mk_w m Hm) (mk_h m Hm) x y pay Hi) as (p1 & E1 & A1 & B1). rewrite E1 in E. cbn [obind fst snd] in E.
    destruct (init_gen m th _ _ _ _ (keys_nodup _ _) E) as (A & B & C).
    assert (P1 : forall v, In v (keys_of (Zfloor x) (Zfloor y)) -> p1 v = set_fwd (snd v) (pay v)) by (intros v [<-|[<-|[]]]; apply A1).
    constructor.
    - exact Hi.
    - intros v. rewrite A, at_start_keys. unfold cell_at. cbn [fst snd]. split; intros [X Y]; (split; [exact X|]); rewrite (P1 v X) in *; exact Y.
    - intros v Hv. cbn [snd]. rewrite (B v Hv). apply A in Hv. rewrite (P1 v) by apply Hv. reflexivity.
    - intros v Hv. rewrite (C v Hv). destruct (in_dec (fun a c => match vkey_eqb_spec a c with ReflectT _ e => left e | ReflectF _ n => right n end) v (keys_of (Zfloor x) (Zfloor y))) as [Hin|Hn].
      + right. apply P1, Hin.
      + left. apply B1, Hn.
    - exact Hf.
  Qed.
  Lemma started_good m pay pose l pay' : started m pay pose l pay' -> (forall v, good v (pay v)) -> forall v, good v (pay' v).
  Proof using Type.
    intros H Hp v. destruct (in_dec (fun a c => match vkey_eqb_spec a c with ReflectT _ e => left e | ReflectF _ n => right n end) v l) as [Hv|Hv].
    - rewrite (sd_pay _ _ _ _ _ H v Hv). apply good_th, good_fwd, Hp.
    - destruct (sd_out _ _ _ _ _ H v Hv) as [->| ->]; [apply Hp|apply good_fwd, Hp].
  Qed.
  Lemma started_free m pay pose l pay' : map_ok m -> started m pay pose l pay' -> (forall v, good v (pay v)) -> forall v, In v l -> ~ occupied m (fst (cell_at pose)) (snd (cell_at pose)).
  Proof using Type.
    intros Hm H Hp v Hv Ho. apply (sd_in _ _ _ _ _ H) in Hv. destruct Hv as [Ha Hv]. unfold at_start in Ha.
    destruct (Hp v) as [E _]. rewrite Ha in E. cbn [fst] in E. pose proof (trunc_cell m _ _ E Ho) as X. unfold v_occupied in Hv.
    destruct (cast_i32 (sn_x (pay v))) as [tx|] eqn:Ex; [|discriminate]. destruct (cast_i32 (sn_y (pay v))) as [ty|] eqn:Ey; [|discriminate]. cbn [obind] in Hv.
    apply cast_i32_trunc in Ex, Ey. destruct Ex as [-> _], Ey as [-> _]. destruct (occ1_spec m (mk_wf m Hm) (Ztrunc (sn_x (pay v))) (Ztrunc (sn_y (pay v)))) as (q & Eq & Hq).
    rewrite Hv in Eq. injection Eq as <-. apply Hq in X. discriminate.
  Qed.
  Lemma started_some m pay pose : map_ok m -> inner m (fst (cell_at pose)) (snd (cell_at pose)) -> (forall v, good v (pay v)) -> start_at clamp m pay pose <> None.
  Proof using Hclamp.
    intros Hm Hi Hp. destruct pose as [[x y] th]. unfold cell_at in Hi. cbn [fst snd] in Hi. unfold start_at.
    destruct (poses_ok clamp Hclamp m (mk_small m Hm) (mk_w m Hm) (mk_h m Hm) x y pay Hi) as (p1 & -> & A1 & B1). cbn [obind fst snd].
    assert (P1 : forall v, In v (keys_of (Zfloor x) (Zfloor y)) -> pcell (p1 v) = (Zfloor x, Zfloor y)).
    { intros v Hv. assert (Y : p1 v = set_fwd (snd v) (pay v)) by (destruct Hv as [<-|[<-|[]]]; apply A1). rewrite Y. destruct (Hp v) as [E _]. change (pcell (set_fwd (snd v) (pay v))) with (pcell (pay v)). rewrite E.
      destruct Hv as [<-|[<-|[]]]; reflexivity. }
    clear A1 B1. revert P1. generalize (keys_nodup (Zfloor x) (Zfloor y)). generalize p1. generalize (keys_of (Zfloor x) (Zfloor y)).
    induction l as [|v l IH]; intros pay1 Hn P1; cbn [v_init]; [discriminate|]. inversion Hn as [|? ? H1 H2]; subst.
    assert (Ho : v_occupied m (pay1 v) <> None).
    { pose proof (P1 v (or_introl eq_refl)) as E. unfold pcell in E. injection E as E1 E2. unfold v_occupied.
      assert (Hfit : fits (sn_x (pay1 v)) (sn_y (pay1 v))) by (apply (VehicleGen.inner_fits m (mk_small m Hm)); rewrite E1, E2; exact Hi). destruct Hfit as [F1 F2].
      rewrite (cast_i32_fits _ F1), (cast_i32_fits _ F2). cbn [obind]. destruct (occ1_spec m (mk_wf m Hm) (Ztrunc (sn_x (pay1 v))) (Ztrunc (sn_y (pay1 v)))) as (q & -> & _). discriminate. }
    destruct (v_occupied m (pay1 v)) as [[|]|]; [| |congruence]; cbn [obind].
    - apply IH; [exact H2|]. intros w Hw. apply P1. right. exact Hw.
    - specialize (IH (v_upd pay1 v (set_th th (pay1 v))) H2). destruct (v_init m th l _) as [r|]; [discriminate|]. exfalso. apply IH; [|reflexivity].
      intros w Hw. rewrite upd_other by (intros ->; contradiction). apply P1. right. exact Hw.
  Qed.

  (** ** One map *)
  Section Map.
    Variable m : gridmap.
    Hypothesis Hm : map_ok m.
    Variable skips : Z.
    Hypothesis Hskips : (0 <= skips)%Z.
    Let Hwf : gm_wf m := mk_wf m Hm.
    Let Hsm := mk_small m Hm.
    Let Hw := mk_w m Hm.
    Let Hh := mk_h m Hm.
    Notation offer := (nb_offer clamp m skips p so b).
    Notation vmove := (vmove m skips adv moves).
    Notation fit := (@fit vkey snode (all_keys m) gens).
    Notation nbc := (nb_cost clamp p so Hk b).

    (** What is known about the start. *)
    Section Start.
      Variable a g : R * R * R.
      Variable start : list vkey.
      Variable pay : vkey -> snode.
      Notation rch := (VehicleAny.rch moves offer start pay).
      Notation XX := (@X vkey snode (Z * Z) moves offer start pay (all_keys m) gens).
      Record ready_to : Prop := {
        rt_start : forall v, In v start -> at_start a v;
        rt_pay : forall v, In v start -> in_start_cell m a g (pay v);
        rt_good : forall v, good v (pay v) }.
      Hypothesis HR : ready_to.

      Lemma all_start : incl start (all_keys m).
      Proof using HR.
        intros v Hv. pose proof (rt_start HR v Hv) as E. destruct (rt_pay HR v Hv) as (_ & Hi & _). unfold at_start in E. destruct v as [[[x y] t] f]. cbn [fst] in E.
        destruct (cell_at a) as [cx cy]. injection E as -> -> ->. apply all_keys_in; [exact Hi|clear; lia].
      Qed.
      Lemma gen_offer u q qs mv v c n : rch u q -> In mv moves -> offer q qs mv = Some (Some (v, c, n)) -> In v (all_keys m) /\ In c gens.
      Proof using Hclamp Hm Hk. intros _ H1 H2. apply (keys_offer clamp Hclamp m Hsm Hw Hh skips (sp_res p) adv moves gens nbc q qs mv v c n H1 H2). Qed.
      Lemma rch_good v q : rch v q -> good v q.
      Proof using Hclamp Hm Hk HR.
        intros H. destruct H as [v Hv|u q qs mv v c n Hr Hi Ho]; [apply (rt_good HR)|].
        destruct (offer_inv clamp Hclamp m Hsm Hw Hh skips (sp_res p) adv _ _ _ _ _ _ Ho) as (cost & Ea & _ & _ & _ & _ & t & _ & _ & ->). split; [reflexivity|].
        apply (custom_move _ _ _ _ _ _ Ea).
      Qed.
      Lemma near_of l : VehicleAny.weak_drive moves offer start pay l -> exists v, In v start /\ near_trip clamp vmove (pay v) (map snd l) /\ (forall w n, In (w, n) (removelast l) -> slot_of clamp n = slot_key w).
      Proof using Hclamp Hm Hk.
        intros H. induction H as [v Hv|v n u q l c H IH Hns Hu Hst].
        - exists v. split; [exact Hv|]. split; [cbn [map snd]; constructor|intros w n []].
        - destruct IH as (v0 & Hs & Hn & Hsl). exists v0. split; [exact Hs|].
          destruct Hst as (q' & qs & mv & Hr & Hq & Hmv & Ho). destruct (offer_move clamp Hclamp m Hsm Hw Hh skips (sp_res p) adv moves gens nbc _ _ _ _ _ _ Hmv Ho) as (cost & -> & Hvm & _ & t & Et & _ & ->).
          assert (Hsv : slot_of clamp n = slot_key (Zfloor (sn_x n), Zfloor (sn_y n), t, sn_fwd n)) by (unfold slot_of, pcell; rewrite Et; reflexivity).
          split.
          + cbn [map snd] in *. apply (nt_move clamp vmove (pay v0) n q (map snd l) q' qs cost Hn); [| |assumption].
            * intros El. destruct l as [|x l]; [|discriminate]. inversion H as [u' Hu'|]; subst. apply Hq. assumption.
            * inversion H as [u' Hu' E|? ? ? ? ? ? ? Hnu _ _ E]; subst.
              -- rewrite (Hq Hu'). reflexivity.
              -- rewrite (rch_nonstart clamp Hclamp m Hsm Hw Hh skips (sp_res p) adv moves gens nbc start pay _ _ Hr Hnu),
                   (rch_nonstart clamp Hclamp m Hsm Hw Hh skips (sp_res p) adv moves gens nbc start pay _ _ Hu Hnu). reflexivity.
          + intros w k Hin. cbn [removelast] in Hin. destruct Hin as [E|Hin]; [injection E as <- <-; assumption|]. apply Hsl. exact Hin.
      Qed.
      Lemma arrived_from path v q : arrived moves offer start pay path v q -> exists l, rev (map snd path) = q :: l /\ drivable_from_cell clamp m skips p so b a g (q :: l) /\ (l <> [] -> ~ In v start).
      Proof using Hclamp Hm Hskips Hk Hb HR.
        intros (l & E & Hd & _ & Hn). destruct (near_of _ Hd) as (v0 & Hv0 & Ht & Hsl). exists (map snd l). split; [rewrite <- map_rev, E; reflexivity|].
        cbn [map snd] in Ht. split; [|].
        - exists (pay v0). split; [apply (rt_pay HR v0 Hv0)|]. split; [eapply near_mono; [|exact Ht]; intros; eapply vmove_move; eassumption|]. split; [|split].
          + eapply near_passable; [exact Hm|exact Hskips|exact Ht|]. intros r prevs c n (_ & H & _). exact H.
          + pose proof (rt_pay HR v0 Hv0) as (Ec & Hi & _). clear - Ht Ec Hi. remember (q :: map snd l) as ll eqn:Ell. clear Ell. induction Ht as [|n0 r l0 r' prevs c H IH _ _ M]; intros x Hx.
            * destruct Hx as [<-|[]]. rewrite Ec. exact Hi.
            * destruct Hx as [<-|Hx]; [|apply IH; exact Hx]. destruct M as (_ & _ & M). exact M.
          + change (q :: map snd l) with (map snd ((v, q) :: l)). rewrite removelast_map, map_map. apply nodup_slots; [|exact Hsl].
            rewrite <- E, map_rev. apply NoDup_rev. exact Hn.
        - intros Hl Hv. inversion Hd; subst; [apply Hl; reflexivity|contradiction].
      Qed.
      Lemma arrived_first path v q : arrived moves offer start pay path v q -> In v start -> q = pay v.
      Proof using Type. intros (l & _ & Hd & _) Hv. inversion Hd as [|? ? ? ? ? ? ? Hn]; [reflexivity|contradiction]. Qed.
      Lemma X_start L s v : XX L s -> In v start -> npay (inf s v) = pay v.
      Proof using Type. intros HX Hv. apply (x_start _ _ _ _ _ _ _ _ HX v Hv). Qed.
      Lemma slots_same v q q' : rch v q -> rch v q' -> (In v start -> q = pay v) -> (In v start -> q' = pay v) -> slot_of clamp q = slot_of clamp q'.
      Proof using Hclamp Hm Hk.
        intros H1 H2 S1 S2.
        destruct (rch_slot clamp Hclamp m Hsm Hw Hh skips (sp_res p) adv moves gens nbc start pay v q H1) as [[Hv ->]|E1]; [rewrite (S2 Hv); reflexivity|].
        destruct (rch_slot clamp Hclamp m Hsm Hw Hh skips (sp_res p) adv moves gens nbc start pay v q' H2) as [[Hv ->]|E2]; [rewrite (S1 Hv); reflexivity|]. congruence.
      Qed.

      Lemma X_kept L s : XX L s -> fit (inf s) /\ forall v, good v (npay (inf s v)).
      Proof using Hclamp Hm Hk HR.
        intros HX. split; [apply (x_fit _ _ _ _ _ _ _ _ HX)|]. intros v.
        destruct (x_pay _ _ _ _ _ _ _ _ HX v) as [->|Hr]; [apply (rt_good HR)|apply (rch_good _ _ Hr)].
      Qed.

      (** A search. *)
      Context {T : Type}.
      Variable goals : list vkey.
      Variable hgoal : option snode.
      Variable osd : R.
      Variable term : T -> (vkey -> vinfo vkey snode) -> vkey -> option (T * list R * vanswer).
      Variable timeout : nat -> bool.
      Notation loop fuel t ws := (wloop vkey snode (Z * Z) T vkey_eqb moves reach offer hval tot push pop start goals hgoal osd queue term timeout bf fuel 0 t ws).
      Notation ended := (@ended_X vkey snode (Z * Z) T vkey_eqb moves offer start queue term bf pay (all_keys m) gens).
      Notation asked_ok := (@asked_ok vkey snode (Z * Z) T moves offer start term pay (all_keys m) gens).

      Lemma search_X f fuel first t r ws log : fit f -> (forall v, npay (f v) = pay v) -> loop fuel t (WS _ _ (starts start (VS _ _ f [])) [] first) = (r, ws, log) ->
        exists L, ended L r ws log /\ ws_cand _ _ ws = cands_of log.
      Proof using Hclamp Hm Hk Hpush Hpop HR.
        intros Hf Hp E. destruct (rank_exists gens (costs_pos p so Hk)) as (rank & Hrk).
        pose proof (starts_X vkey_eqb vkey_eqb_spec moves offer tot push Hpush start pay (all_keys m) gens all_start f Hf Hp) as HX.
        destruct (loop_X vkey_eqb vkey_eqb_spec moves reach offer hval tot push pop Hpush Hpop start goals hgoal osd queue term timeout bf pay (all_keys m) gens (costs_pos p so Hk) gen_offer rank Hrk
          fuel 0 t (fun v => In v start) (WS _ _ (starts start (VS _ _ f [])) [] first) r ws log HX ltac:(intros v c []) E) as (L & He & Hc & _).
        exists L. split; [exact He|exact Hc].
      Qed.

      Lemma cands_at log v w : In (v, w) (cands_of log) <-> exists c, In c log /\ wc_node vkey snode c = v /\ In w (wc_cands _ _ c).
      Proof using Type. apply cands_in. Qed.
      Lemma finish_from L r ws log path : ended L r ws log -> ws_cand _ _ ws = cands_of log -> wfinish vkey snode vkey_eqb start queue bf ws = VPath _ _ path ->
        (path = [] /\ forall q w, ~ added log q w) \/
        exists n l q w, rev (map snd path) = n :: l /\ drivable_from_cell clamp m skips p so b a g (n :: l) /\ best log q w /\ slot_of clamp n = slot_of clamp q.
      Proof using Hclamp Hm Hskips Hk Hb HR Hqueue.
        intros He Ec Ef. pose proof (ex_X _ _ _ _ _ _ _ _ _ _ _ _ _ _ He) as HX.
        destruct (finish_X vkey_eqb vkey_eqb_spec moves offer start queue Hqueue bf pay (all_keys m) gens L ws path HX (ex_cands _ _ _ _ _ _ _ _ _ _ _ _ _ _ He) Ef) as [[-> E0]|(v & w & Hin & Hle & Harr)].
        - left. split; [reflexivity|]. intros q w (c & Hc & _ & Hw'). rewrite Ec in E0. assert (Y : In (wc_node _ _ c, w) (cands_of log)) by (apply cands_at; eauto). rewrite E0 in Y. destruct Y.
        - right. rewrite Ec in Hin, Hle. apply cands_at in Hin. destruct Hin as (c & Hc & Hv & Hwc).
          destruct (ex_calls _ _ _ _ _ _ _ _ _ _ _ _ _ _ He c Hc) as (HL & L1 & s1 & t1 & t2 & HX1 & HL1 & _ & Ep & _).
          destruct (arrived_from path v _ Harr) as (l & El & Hd & _). exists (npay (inf (ws_s _ _ ws) v)), l, (wc_pay _ _ c), w.
          split; [exact El|]. split; [exact Hd|]. split.
          + split; [exists c; auto|]. intros q' w' (c' & Hc' & _ & Hw'). apply (Hle (wc_node _ _ c') w'). apply cands_at. eauto.
          + rewrite Ep, Hv. rewrite Hv in HL, HL1. apply (slots_same v); [apply (x_rch _ _ _ _ _ _ _ _ HX v HL)|apply (x_rch _ _ _ _ _ _ _ _ HX1 v HL1)|apply (X_start _ _ _ HX)|apply (X_start _ _ _ HX1)].
      Qed.

      (** It ends. *)
      Hypothesis Hsz : nb_sized p b.
      Hypothesis Hbf : ((gm_w m + 64) * (gm_h m + 64) * 64 <= Z.of_nat bf)%Z.
      Lemma rpose_from v q : rch v q -> exists v0, In v0 start /\ rpose m skips adv moves (pay v0) q.
      Proof using Hclamp Hm Hk.
        intros H. induction H as [v Hv|u q qs mv v c n _ IH Hmv Ho]; [exists v; split; [exact Hv|constructor]|].
        destruct IH as (v0 & Hv0 & Hr). exists v0. split; [exact Hv0|].
        destruct (offer_move clamp Hclamp m Hsm Hw Hh skips (sp_res p) adv moves gens nbc _ _ _ _ _ _ Hmv Ho) as (cost & _ & Hvm & _). econstructor; eassumption.
      Qed.
      Lemma moves_move q prevs i k c n : In (i, k) moves -> adv q prevs i k = AMove c n -> nb_move clamp p so b q prevs c n.
      Proof using Hb.
        clear - Hb. intros Hin Ha0. destruct b as [o|size steps distance]; cbn [nb_moves nb_advance nb_move nb_ok] in *.
        - destruct (d_moves_in o i k Hin) as (A & B & _). exists i, k. auto.
        - apply v_moves_in in Hin. destruct Hin as (A & B). exists i, k. split; [clear - Hb A; lia|]. split; assumption.
      Qed.
      Lemma stuck_edge : undef_offer moves offer start pay -> enters_edge_from_cell m (nb_move clamp p so b) a g.
      Proof using Hclamp Hm Hk Hb HR Hsz.
        intros (v & q & qs & mv & Hr & Hi & Ho). destruct (rpose_from v q Hr) as (v0 & Hv0 & Hq). pose proof (rt_pay HR v0 Hv0) as Hs.
        assert (Hin : inner m (Zfloor (sn_x q)) (Zfloor (sn_y q))).
        { destruct Hq as [|q' prevs c n _ (_ & _ & Y)]; [|exact Y]. destruct Hs as (Ec & Hn & _). unfold pcell in Ec. rewrite <- Ec in Hn. exact Hn. }
        destruct mv as [i k].
        destruct (offer_undef clamp Hclamp m Hwf Hsm Hw Hh skips (sp_res p) adv (nb_far clamp p so Hk b Hsz) q qs (i, k) Hin) as (c & n & Ha & Hl & Hc & He); [|exact Ho|].
        { apply (nb_def clamp p so b Hsz); [apply (rch_good _ _ Hr); exact Hsz|exact Hi]. }
        exists (pay v0), q, qs, c, n. split; [exact Hs|]. split; [apply (rpose_drives m skips adv moves); [intros; eapply moves_move; eassumption|exact Hq]|].
        split; [eapply moves_move; [exact Hi|exact Ha]|exact He].
      Qed.
      Lemma keys_in_bf : (length (all_keys m) <= bf)%nat.
      Proof using Hm Hbf. pose proof (all_keys_len m Hw Hh) as L. clear - L Hbf. lia. Qed.
      Lemma search_ends f first t : fit f -> (forall v, npay (f v) = pay v) ->
        (forall L t s cur, XX L s -> L cur -> n_closed _ _ (inf s cur) = true -> term t (inf s) cur <> None) ->
        finally (fun fuel => loop fuel t (WS _ _ (starts start (VS _ _ f [])) [] first)) (fun x =>
          (exists path, fst (fst x) = VPath _ _ path) \/ (fst (fst x) = VUndef _ _ /\ enters_edge_from_cell m (nb_move clamp p so b) a g)).
      Proof using Hclamp Hm Hk Hb Hpush Hpop Hqueue HR Hsz Hbf.
        intros Hf Hp Ht. destruct (rank_exists gens (costs_pos p so Hk)) as (rank & Hrk).
        pose proof (starts_X vkey_eqb vkey_eqb_spec moves offer tot push Hpush start pay (all_keys m) gens all_start f Hf Hp) as HX.
        destruct (loop_X_ends vkey_eqb vkey_eqb_spec moves reach offer hval tot push pop Hpush Hpop start goals hgoal osd queue Hqueue term timeout bf pay (all_keys m) gens (costs_pos p so Hk) gen_offer rank Hrk
          Ht keys_in_bf (fun v => In v start) (WS _ _ (starts start (VS _ _ f [])) [] first) 0%nat t HX ltac:(intros v c [])) as (fuel & Y).
        exists fuel. split.
        - intros k Hkf. apply wloop_more; [|exact Hkf]. intros Z. destruct Y as [[path Y]|[Y _]]; rewrite Z in Y; discriminate.
        - destruct Y as [Y|[Y Z]]; [left; exact Y|right]. split; [exact Y|]. apply stuck_edge, Z.
      Qed.
    End Start.
  End Map.

  (** ** What every history leaves *)
  Record kept (o : vobj) : Prop := {
    kp_map : map_ok (vo_map o);
    kp_skips : (0 <= vo_skips o)%Z;
    kp_fit : @fit vkey snode (all_keys (vo_map o)) gens (vo_info o);
    kp_good : forall v, good v (pays (vo_info o) v) }.
  Lemma fit_attach m f pay : @fit vkey snode (all_keys m) gens f -> @fit vkey snode (all_keys m) gens (attach f pay).
  Proof using Type. intros [A B C]. constructor; assumption. Qed.
  Lemma kept_fresh m skips first hg st cd al : map_ok m -> (0 <= skips)%Z -> kept (VO m skips (vfresh vkey snode v_node0) hg st cd first al).
  Proof using Type.
    intros Hm Hs. constructor; cbn [vo_map vo_skips vo_info]; [exact Hm|exact Hs| |intros v; apply good_node0].
    constructor; [intros v [H|H]; discriminate|intros v [H|H]; discriminate|intros v; discriminate].
  Qed.

  Lemma started_cell m pay pose l pay' v : started m pay pose l pay' -> In v l -> fst (fst v) = cell_at pose.
  Proof using Type. intros H Hv. apply (sd_in _ _ _ _ _ H) in Hv. destruct Hv as [Hv _]. unfold at_start in Hv. rewrite Hv. reflexivity. Qed.
  Lemma ready_one m pay0 from start pay : map_ok m -> started m pay0 from start pay -> (forall v, good v (pay0 v)) -> ready_to m from from start pay.
  Proof using Type.
    intros Hm H Hg. pose proof (started_good _ _ _ _ _ H Hg) as Hg1. constructor.
    - intros v Hv. apply (sd_in _ _ _ _ _ H v), Hv.
    - intros v Hv. split; [destruct (Hg1 v) as [-> _]; apply (started_cell _ _ _ _ _ _ H Hv)|]. split; [exact (sd_inner _ _ _ _ _ H)|].
      split; [apply (started_free _ _ _ _ _ Hm H Hg v Hv)|]. rewrite (sd_pay _ _ _ _ _ H v Hv). split; intros _; reflexivity.
    - exact Hg1.
  Qed.
  Lemma ready_two m pay0 a g start p1 goals pay : map_ok m -> started m pay0 a start p1 -> started m p1 g goals pay -> (forall v, good v (pay0 v)) -> ready_to m a g start pay.
  Proof using Type.
    intros Hm H1 H2 Hg. pose proof (started_good _ _ _ _ _ H1 Hg) as Hg1. pose proof (started_good _ _ _ _ _ H2 Hg1) as Hg2. constructor.
    - intros v Hv. apply (sd_in _ _ _ _ _ H1 v), Hv.
    - intros v Hv. split; [destruct (Hg2 v) as [-> _]; apply (started_cell _ _ _ _ _ _ H1 Hv)|]. split; [exact (sd_inner _ _ _ _ _ H1)|].
      split; [apply (started_free _ _ _ _ _ Hm H1 Hg v Hv)|]. pose proof (sd_pay _ _ _ _ _ H1 v Hv) as E1. apply (sd_in _ _ _ _ _ H1) in Hv. destruct Hv as [Ha Hf]. split; intros Hc.
      + rewrite (sd_far _ _ _ _ _ H2); [rewrite E1; reflexivity|]. intros Y. unfold at_start in Ha, Y. rewrite Ha in Y. apply Hc. apply (f_equal fst) in Y. exact Y.
      + rewrite (sd_pay _ _ _ _ _ H2); [reflexivity|]. apply (sd_in _ _ _ _ _ H2). split; [unfold at_start in *; rewrite <- Hc; exact Ha|]. rewrite E1. exact Hf.
    - exact Hg2.
  Qed.

  Lemma searched_kept {T} o a g start goals pay hgoal osd timeout fuel (term : T -> (vkey -> vinfo vkey snode) -> vkey -> option (T * list R * vanswer)) t :
    kept o -> ready_to (vo_map o) a g start pay ->
    kept (snd (searched clamp p so b hval tot push pop queue timeout bf fuel osd o start goals hgoal term t (starts start (VS _ _ (attach (vo_info o) pay) [])))).
  Proof using Hclamp Hk Hpush Hpop.
    intros [Hm Hs Hf Hg] HR. unfold searched. set (x := wloop _ _ _ _ _ _ _ _ _ _ _ _ _ _ _ _ _ _ _ _ _ _ _ _). cbv zeta. destruct x as [[r ws] log] eqn:E. unfold x in E. clear x.
    destruct (search_X (vo_map o) Hm (vo_skips o) a g start pay HR goals hgoal osd term timeout (attach (vo_info o) pay) fuel _ t r ws log (fit_attach _ _ _ Hf) (fun v => eq_refl) E) as (L & He & _).
    destruct (X_kept (vo_map o) Hm (vo_skips o) a g start pay HR L (ws_s _ _ ws) (ex_X _ _ _ _ _ _ _ _ _ _ _ _ _ _ He)) as [A B].
    constructor; cbn [snd fst vo_map vo_skips vo_info]; [exact Hm|exact Hs|exact A|exact B].
  Qed.
  Lemma threw_kept o f st : kept o -> @fit vkey snode (all_keys (vo_map o)) gens f -> (forall v, good v (pays f v)) -> kept (snd (threw o f st)).
  Proof using Type. intros [Hm Hs _ _] Hf Hg. constructor; assumption. Qed.
  Lemma used_kept o : used clamp p so b hval tot push pop queue bf o -> kept o.
  Proof using Hclamp Hk Hpush Hpop.
    intros H. induction H as [m skips first Hm Hs|o m skips _ IH Hm Hs|o T cb t osd timeout fuel from to _ IH|o T hgoal test t osd timeout fuel from _ IH].
    - apply kept_fresh; assumption.
    - apply kept_fresh; assumption.
    - pose proof (kp_map o IH) as Hm. unfold vo_findo. destruct (start_at clamp (vo_map o) (pays (vo_info o)) _) as [[start p1]|] eqn:E1.
      2:{ apply threw_kept; [exact IH|exact (kp_fit o IH)|exact (kp_good o IH)]. }
      pose proof (started_ok _ _ _ _ _ Hm E1) as S1. destruct (start_at clamp (vo_map o) p1 _) as [[goals pay]|] eqn:E2.
      + pose proof (started_ok _ _ _ _ _ Hm E2) as S2. eapply searched_kept; [exact IH|]. apply (ready_two _ _ _ _ _ _ _ _ Hm S1 S2 (kp_good o IH)).
      + pose proof (ready_one _ _ _ _ _ Hm S1 (kp_good o IH)) as HR.
        pose proof (starts_X vkey_eqb vkey_eqb_spec moves (nb_offer clamp (vo_map o) (vo_skips o) p so b) tot push Hpush start p1 (all_keys (vo_map o)) gens (all_start (vo_map o) _ _ start p1 HR)
          (attach (vo_info o) p1) (fit_attach _ _ _ (kp_fit o IH)) (fun v => eq_refl)) as HX.
        destruct (X_kept (vo_map o) Hm (vo_skips o) _ _ start p1 HR _ _ HX) as [A B]. apply threw_kept; [exact IH|exact A|exact B].
    - pose proof (kp_map o IH) as Hm. unfold vo_findt. destruct (start_at clamp (vo_map o) (pays (vo_info o)) from) as [[start pay]|] eqn:E1.
      2:{ apply threw_kept; [exact IH|exact (kp_fit o IH)|exact (kp_good o IH)]. }
      pose proof (started_ok _ _ _ _ _ Hm E1) as S1. eapply searched_kept; [exact IH|]. apply (ready_one _ _ _ _ _ Hm S1 (kp_good o IH)).
  Qed.

  (** ** The goal *)
  (** The contents of a goal node while the search runs. *)
  Definition goal_like (g : R * R * R) (gp : snode) : Prop := pcell gp = cell_at g /\ (sn_th gp = snd g \/ angle2index clamp (sn_th gp) = Some 15%Z).
  Lemma like_close g gp : goal_like g gp -> dist (spos gp) (at_pt g) <= sqrt 2.
  Proof using Type. intros [E _]. unfold spos, at_pt. unfold pcell, cell_at in E. apply same_cell_near; congruence. Qed.
  Lemma like_goal g gp o q : goal_like g gp -> nb_isgoal p b gp q o = Some true -> at_goal p b g o q.
  Proof using Hclamp Hk.
    clear Hb. intros Hg Hi. pose proof (like_close _ _ Hg) as Hcl. destruct Hg as [_ Hth]. destruct b as [d|size steps distance]; cbn [nb_isgoal at_goal] in *.
    - injection Hi as Hi. apply C57_dynamic in Hi. destruct Hi as [Ha Hd]. split.
      + unfold world_dist in *. pose proof (dist_tri (spos q) (spos gp) (at_pt g)) as T. destruct Hk as [_ B _ _ _ _].
        assert (S1 : dist (spos q) (spos gp) = dist (spos gp) (spos q)) by (rewrite !dist_hyp; unfold hyp; f_equal; ring). rewrite S1 in T.
        assert (dist (spos q) (at_pt g) * sp_res p <= (dist (spos gp) (spos q) + sqrt 2) * sp_res p) by (apply Rmult_le_compat_r; lra). lra.
      + destruct Hth as [<-|E15].
        * left. apply heading_sym. exact Ha.
        * right. eapply heading_tri; [apply heading_sym; exact Ha|apply (slot15 clamp); assumption].
    - exists gp. split; [exact Hcl|]. split; [destruct Hth as [Hth|E15]; [left; exact Hth|right; apply (slot15 clamp); assumption]|].
      destruct (C57_template_sound p distance gp q o (vk_res _ _ Hk) Hi) as (A & _ & B). split; [exact A|]. destruct B as [B|(q' & t & -> & B)]; [left; exact B|right]. exists q', t. split; [reflexivity|exact B].
  Qed.

  (** *** One call *)
  Notation used := (used clamp p so b hval tot push pop queue bf).
  Notation searched o start goals hgoal osd timeout fuel term t pay :=
    (searched clamp p so b hval tot push pop queue timeout bf fuel osd o start goals hgoal term t (starts start (VS _ _ (attach (vo_info o) pay) []))).

  (** The state when the goal test is asked. *)
  Section Call.
    Context {T : Type}.
    Variable o : vobj.
    Hypothesis HK : kept o.
    Variable a g : R * R * R.
    Variable start goals : list vkey.
    Variable pay : vkey -> snode.
    Hypothesis HR : ready_to (vo_map o) a g start pay.
    Hypothesis Hgoals : forall gv, In gv goals -> at_start g gv /\ goal_like g (pay gv).
    Variable hgoal : option snode.
    Variable osd : R.
    Variable timeout : nat -> bool.
    Let m := vo_map o.
    Let skips := vo_skips o.
    Let Hm : map_ok m := kp_map o HK.
    Let Hskips : (0 <= skips)%Z := kp_skips o HK.
    Notation offer := (nb_offer clamp m skips p so b).
    Notation XX := (@X vkey snode (Z * Z) moves offer start pay (all_keys m) gens).
    Notation before f cur := (match n_prev vkey snode (f cur) with Some u => Some (npay (f u)) | None => None end).

    Lemma X_goal L s gv : XX L s -> In gv goals -> goal_like g (npay (inf s gv)).
    Proof using Hclamp Hk HK HR Hgoals.
      intros HX Hg. destruct (Hgoals gv Hg) as [Ha Hl]. destruct (x_pay _ _ _ _ _ _ _ _ HX gv) as [->|Hr]; [exact Hl|].
      destruct (rch_slot clamp Hclamp m (mk_small m Hm) (mk_w m Hm) (mk_h m Hm) skips (sp_res p) adv moves gens (nb_cost clamp p so Hk b) start pay gv _ Hr) as [[_ ->]|E]; [exact Hl|].
      unfold at_start in Ha. destruct gv as [[[x y] t] f]. cbn [fst] in Ha. unfold slot_of, slot_key in E. injection E as E1 E2 E3 E4. apply (f_equal fst) in Ha as Ha1. cbn [fst] in Ha1. apply (f_equal snd) in Ha. cbn [snd] in Ha. subst t.
      split; [|right; exact E3]. unfold pcell. rewrite E1, E2. exact Ha1.
    Qed.
    Lemma X_before L s v : XX L s -> L v -> ~ In v start -> forall o', before (inf s) v = Some o' ->
      exists q' prevs c, slot_of clamp q' = slot_of clamp o' /\ nb_move clamp p so b q' prevs c (npay (inf s v)).
    Proof using Hclamp Hk Hb HK HR.
      intros HX HL Hns o' E. destruct (x_prev _ _ _ _ _ _ _ _ HX v HL Hns) as (u & c & Ex & Lu & Hu & (q' & qs & mv & Hr & Hst & Hmv & Ho) & _). rewrite Ex in E. injection E as <-.
      destruct (offer_move clamp Hclamp m (mk_small m Hm) (mk_w m Hm) (mk_h m Hm) skips (sp_res p) adv moves gens (nb_cost clamp p so Hk b) _ _ _ _ _ _ Hmv Ho) as (cost & _ & Hvm & _).
      exists q', qs, cost. split; [|eapply vmove_move; [exact Hb|exact Hvm]].
      apply (slots_same m Hm skips start pay u); [exact Hr|apply (x_rch _ _ _ _ _ _ _ _ HX); exact Lu|exact Hst|]. intros Hs. apply (x_start _ _ _ _ _ _ _ _ HX u Hs).
    Qed.

    (** The path of a call. *)
    Lemma call_path (term : T -> (vkey -> vinfo vkey snode) -> vkey -> option (T * list R * vanswer)) fuel t path cands log :
      fst (searched o start goals hgoal osd timeout fuel term t pay) = VF (VPath _ _ path) cands log ->
      (driven (sp_rev p) path = [] /\ forall q w, ~ added log q w) \/
      exists n l, driven (sp_rev p) path = n :: l /\ drivable_from_cell clamp m skips p so b a g (n :: l) /\
        ((exists q w, best log q w /\ slot_of clamp n = slot_of clamp q) \/
         exists c L s t1 t2, In c log /\ XX L s /\ L (wc_node _ _ c) /\ wc_ans _ _ c = AReturn /\ n = npay (inf s (wc_node _ _ c)) /\
           term t1 (inf s) (wc_node _ _ c) = Some (t2, wc_cands _ _ c, AReturn) /\ (l <> [] -> ~ In (wc_node _ _ c) start)).
    Proof using Hclamp Hk Hb Hpush Hpop Hqueue HK HR.
      intros E. unfold VehicleReuse.searched in E. set (x := wloop _ _ _ _ _ _ _ _ _ _ _ _ _ _ _ _ _ _ _ _ _ _ _ _) in E. cbv zeta in E. cbn [fst] in E.
      apply found_inv in E. destruct E as (p0 & ws & E & Ep & _). unfold x in E. clear x. rewrite (driven_of p _ _ Ep).
      destruct (search_X m Hm skips a g start pay HR goals hgoal osd term timeout (attach (vo_info o) pay) fuel _ t _ ws log (fit_attach _ _ _ (kp_fit o HK)) (fun v => eq_refl) E) as (L & He & Ec).
      destruct (ex_path _ _ _ _ _ _ _ _ _ _ _ _ _ _ He p0 eq_refl) as [(l0 & c & El & Ea & Hne & Harr)|[Ef _]].
      - right. destruct (arrived_from m Hm skips Hskips a g start pay HR _ _ _ Harr) as (l & E1 & Hd & Hs).
        assert (Hc : In c log) by (rewrite El; apply in_or_app; right; left; reflexivity).
        destruct (ex_calls _ _ _ _ _ _ _ _ _ _ _ _ _ _ He c Hc) as (_ & L1 & s1 & t1 & t2 & HX1 & HL1 & _ & Epay & Et).
        exists (wc_pay _ _ c), l. split; [exact E1|]. split; [exact Hd|]. right. exists c, L1, s1, t1, t2. rewrite <- Ea. repeat (split; [assumption || reflexivity|]). exact Hs.
      - destruct (finish_from m Hm skips Hskips a g start pay HR term L _ ws log p0 He Ec (eq_sym Ef)) as [[-> X0]|(n & l & q & w & E1 & Hd & Hb1 & Hs)].
        + left. split; [reflexivity|exact X0].
        + right. exists n, l. split; [exact E1|]. split; [exact Hd|]. left. exists q, w. split; assumption.
    Qed.

    Lemma call_added (term : T -> (vkey -> vinfo vkey snode) -> vkey -> option (T * list R * vanswer)) fuel t q w :
      added (vf_calls (fst (searched o start goals hgoal osd timeout fuel term t pay))) q w ->
      exists (c : wcall vkey snode) L s t1 t2, XX L s /\ L (wc_node _ _ c) /\ q = npay (inf s (wc_node _ _ c)) /\ In w (wc_cands _ _ c) /\ term t1 (inf s) (wc_node _ _ c) = Some (t2, wc_cands _ _ c, wc_ans _ _ c).
    Proof using Hclamp Hk Hpush Hpop HK HR.
      unfold VehicleReuse.searched. set (x := wloop _ _ _ _ _ _ _ _ _ _ _ _ _ _ _ _ _ _ _ _ _ _ _ _). cbv zeta. cbn [fst vf_calls vf_of]. destruct x as [[r ws] log] eqn:E. unfold x in E. clear x. cbn [snd].
      destruct (search_X m Hm skips a g start pay HR goals hgoal osd term timeout (attach (vo_info o) pay) fuel _ t _ ws log (fit_attach _ _ _ (kp_fit o HK)) (fun v => eq_refl) E) as (L & He & _).
      intros (c & Hc & Hq & Hw). destruct (ex_calls _ _ _ _ _ _ _ _ _ _ _ _ _ _ He c Hc) as (_ & L1 & s1 & t1 & t2 & HX1 & HL1 & _ & Epay & Et).
      exists c, L1, s1, t1, t2. rewrite <- Epay. repeat (split; [assumption || (symmetry; assumption)|]). exact Et.
    Qed.

    (** The candidates after a call. *)
    Lemma paths_X L s : XX L s -> forall l ps, (forall v w, In (v, w) l -> L v) -> wpaths vkey snode vkey_eqb start bf (inf s) l = Some ps ->
      Forall2 (fun x path => arrived moves offer start pay path (fst x) (npay (inf s (fst x)))) l ps.
    Proof using Type.
      intros HX. induction l as [|[v w] l IH]; intros ps Hl E; cbn [wpaths] in E; [injection E as <-; constructor|].
      destruct (vback vkey snode vkey_eqb start bf (inf s) v [] []) as [t|] eqn:Eb; cbn [obind] in E; [|discriminate].
      destruct (wpaths vkey snode vkey_eqb start bf (inf s) l) as [ps'|]; cbn [obind] in E; [|discriminate]. injection E as <-. constructor.
      - cbn [fst]. apply (back_X vkey_eqb vkey_eqb_spec moves offer start bf pay (all_keys m) gens L s v t HX (Hl v w (or_introl eq_refl)) Eb).
      - apply IH; [intros v' w' H; apply (Hl v' w'); right; exact H|reflexivity].
    Qed.
    Lemma call_cands (term : T -> (vkey -> vinfo vkey snode) -> vkey -> option (T * list R * vanswer)) fuel t r ps log :
      fst (searched o start goals hgoal osd timeout fuel term t pay) = VF r (Some ps) log -> candidates_from_cell clamp m skips p so b a g log ps.
    Proof using Hclamp Hk Hb Hpush Hpop Hqueue HK HR.
      intros E. unfold VehicleReuse.searched in E. set (x := wloop _ _ _ _ _ _ _ _ _ _ _ _ _ _ _ _ _ _ _ _ _ _ _ _) in E. cbv zeta in E. cbn [fst] in E.
      unfold vf_of in E. destruct x as [[r0 ws] lg] eqn:E0. cbn [fst snd] in E. injection E as _ Ew ->. unfold x in E0. clear x.
      destruct (search_X m Hm skips a g start pay HR goals hgoal osd term timeout (attach (vo_info o) pay) fuel _ t _ ws log (fit_attach _ _ _ (kp_fit o HK)) (fun v => eq_refl) E0) as (L & He & Ec).
      unfold wcandidates in Ew. rewrite Ec in Ew. destruct (Hqueue (cands_of log)) as [Hp Hs].
      set (f1 := fun x : wcall vkey snode * R => (wc_node _ _ (fst x), snd x)). set (f2 := fun x : wcall vkey snode * R => (wc_pay _ _ (fst x), snd x)).
      assert (F1 : cands_of log = map f1 (pairs log)) by (rewrite pairs_map; reflexivity).
      assert (F2 : additions log = map f2 (pairs log)) by (rewrite pairs_map; reflexivity).
      rewrite F1 in Hp, Ew, Hs. apply Permutation_sym, Permutation_map_inv in Hp. destruct Hp as (l & El & Hl). rewrite El in Ew, Hs.
      assert (Hin : forall x, In x l -> In (fst x) log).
      { intros x Hx. apply (Permutation_in _ (Permutation_sym Hl)) in Hx. unfold pairs in Hx. apply in_flat_map in Hx. destruct Hx as (c & Hc & Hx). apply in_map_iff in Hx. destruct Hx as (w & <- & _). exact Hc. }
      pose proof (ex_X _ _ _ _ _ _ _ _ _ _ _ _ _ _ He) as HX.
      exists (map f2 l). split; [rewrite F2; apply Permutation_map; exact Hl|]. split.
      { clear - Hs. induction l as [|x l IH]; cbn [map] in *; [constructor|]. inversion Hs as [|? ? H1 H2]; subst. constructor; [apply IH; exact H1|].
        rewrite Forall_forall in *. intros y Hy. apply in_map_iff in Hy. destruct Hy as (z & <- & Hz). apply (H2 (f1 z)). apply in_map. exact Hz. }
      assert (F : Forall2 (fun x path => arrived moves offer start pay path (fst x) (npay (inf (ws_s _ _ ws) (fst x)))) (map f1 l) ps).
      { apply (paths_X L (ws_s _ _ ws) HX); [|exact Ew]. intros v w Hv. apply in_map_iff in Hv. destruct Hv as (x & Ex & Hx). injection Ex as <- _.
        apply (ex_calls _ _ _ _ _ _ _ _ _ _ _ _ _ _ He (fst x) (Hin x Hx)). }
      clear Ew Hs El Hl. revert ps F. induction l as [|x l IH]; intros ps F; cbn [map] in *; inversion F as [|? path ? ps' Harr F']; subst; [constructor|].
      constructor; [|apply IH; [intros y Hy; apply Hin; right; exact Hy|exact F']]. cbn [fst f1 f2] in *.
      destruct (arrived_from m Hm skips Hskips a g start pay HR _ _ _ Harr) as (l1 & E1 & Hd & _). exists (npay (inf (ws_s _ _ ws) (wc_node _ _ (fst x)))), l1. split; [exact E1|]. split; [exact Hd|].
      destruct (ex_calls _ _ _ _ _ _ _ _ _ _ _ _ _ _ He (fst x) (Hin x (or_introl eq_refl))) as (HL & L1 & s1 & t1 & t2 & HX1 & HL1 & _ & Ep & _). rewrite Ep.
      apply (slots_same m Hm skips start pay (wc_node _ _ (fst x))); [apply (x_rch _ _ _ _ _ _ _ _ HX); exact HL|apply (x_rch _ _ _ _ _ _ _ _ HX1); exact HL1| |]; intros Hst.
      + apply (x_start _ _ _ _ _ _ _ _ HX _ Hst).
      + apply (x_start _ _ _ _ _ _ _ _ HX1 _ Hst).
    Qed.

    (** A call ends. *)
    Hypothesis Hsz : nb_sized p b.
    Hypothesis Hbf : ((gm_w m + 64) * (gm_h m + 64) * 64 <= Z.of_nat bf)%Z.
    Lemma call_ends (term : T -> (vkey -> vinfo vkey snode) -> vkey -> option (T * list R * vanswer)) t :
      (forall L t s cur, XX L s -> L cur -> n_closed _ _ (inf s cur) = true -> term t (inf s) cur <> None) ->
      finally (fun fuel => searched o start goals hgoal osd timeout fuel term t pay) (fun r =>
        (exists path, vf_path (fst r) = VPath _ _ path) \/ (vf_path (fst r) = VUndef _ _ /\ enters_edge_from_cell m (nb_move clamp p so b) a g)).
    Proof using Hclamp Hk Hb Hpush Hpop Hqueue HK HR Hsz Hbf.
      intros Ht. destruct (search_ends m Hm skips a g start pay HR goals hgoal osd term timeout Hsz Hbf (attach (vo_info o) pay) (vo_first o) t (fit_attach _ _ _ (kp_fit o HK)) (fun v => eq_refl) Ht) as (fuel & Hmore & Hres).
      exists fuel. split.
      - intros k Hkf. unfold VehicleReuse.searched. fold m skips. rewrite (Hmore k Hkf). reflexivity.
      - unfold VehicleReuse.searched. fold m skips. cbn [fst vf_path vf_of]. destruct Hres as [[path ->]|[-> X0]]; [left; eauto|right; auto].
    Qed.
  End Call.

  Lemma goals_like m p0 g goals pay : started m p0 g goals pay -> (forall v, good v (p0 v)) -> forall gv, In gv goals -> at_start g gv /\ goal_like g (pay gv).
  Proof using Type.
    intros H Hg gv Hv. pose proof (started_good _ _ _ _ _ H Hg gv) as [E _]. split; [apply (sd_in _ _ _ _ _ H gv), Hv|]. split; [rewrite E; apply (started_cell _ _ _ _ _ _ H Hv)|].
    left. rewrite (sd_pay _ _ _ _ _ H gv Hv). reflexivity.
  Qed.
  Lemma driven_nil (path : list (vkey * snode)) : driven (sp_rev p) path = [] -> path = [].
  Proof using Type.
    unfold driven. destruct (sp_rev p); intros E.
    - apply map_eq_nil in E. exact E.
    - apply (f_equal (@rev _)) in E. rewrite rev_involutive in E. apply map_eq_nil in E. exact E.
  Qed.
  Lemma pose_call T (cb : option (T -> list (vkey * snode) -> T * bool)) t osd timeout fuel o from to : used o ->
    let a := search_from (sp_rev p) from to in let g := search_to (sp_rev p) from to in
    let r := vo_findo clamp p so b hval tot push pop queue timeout bf fuel osd cb t o from to in
    (vf_calls (fst r) = [] /\ forall path, vf_path (fst r) <> VPath _ _ path) \/
    exists start goals pay, ready_to (vo_map o) a g start pay /\ (forall gv, In gv goals -> at_start g gv /\ goal_like g (pay gv)) /\
      r = searched o start goals (vo_hgoal o) osd timeout fuel (pose_term vkey snode T vkey_eqb start goals (nb_isgoal p b) goal_dist osd cb bf) t pay.
  Proof using Hclamp Hk Hpush Hpop.
    intros Hu a g r. pose proof (used_kept o Hu) as HK. pose proof (kp_map o HK) as Hm. unfold r, vo_findo. fold (search_from (sp_rev p) from to) (search_to (sp_rev p) from to). fold a g.
    destruct (start_at clamp (vo_map o) (pays (vo_info o)) a) as [[start p1]|] eqn:E1; [|left; split; [reflexivity|discriminate]].
    pose proof (started_ok _ _ _ _ _ Hm E1) as S1. destruct (start_at clamp (vo_map o) p1 g) as [[goals pay]|] eqn:E2; [|left; split; [reflexivity|discriminate]].
    pose proof (started_ok _ _ _ _ _ Hm E2) as S2. right. exists start, goals, pay. split; [|split; [|reflexivity]].
    - apply (ready_two _ _ _ _ _ _ _ _ Hm S1 S2 (kp_good o HK)).
    - apply (goals_like _ _ _ _ _ S2). apply (started_good _ _ _ _ _ S1 (kp_good o HK)).
  Qed.

  Lemma stale_pose T (cb : option (T -> list (vkey * snode) -> T * bool)) t osd timeout fuel o from to path cands log : used o ->
    let a := search_from (sp_rev p) from to in let g := search_to (sp_rev p) from to in
    fst (vo_findo clamp p so b hval tot push pop queue timeout bf fuel osd cb t o from to) = VF (VPath _ _ path) cands log ->
    (path = [] /\ forall q w, ~ added log q w) \/
    exists n l, driven (sp_rev p) path = n :: l /\ drivable_from_cell clamp (vo_map o) (vo_skips o) p so b a g (n :: l) /\
      (accepted_last clamp p so b g n l \/ (osd <> 0 /\ exists q w, best log q w /\ slot_of clamp n = slot_of clamp q)).
  Proof using Hclamp Hk Hb Hpush Hpop Hqueue.
    intros Hu a g E. pose proof (used_kept o Hu) as HK. destruct (pose_call T cb t osd timeout fuel o from to Hu) as [[_ X0]|(start & goals & pay & HR & Hg & Er)].
    { exfalso. apply (X0 path). rewrite E. reflexivity. }
    fold a g in HR, Hg. rewrite Er in E.
    destruct (call_path o HK a g start goals pay HR (vo_hgoal o) osd timeout _ fuel t path cands log E) as [[X1 X2]|(n & l & E1 & Hd & Y)].
    - left. split; [apply driven_nil, X1|exact X2].
    - right. exists n, l. split; [exact E1|]. split; [exact Hd|]. destruct Y as [(q & w & Hbest & Hs)|(c & L & s & t1 & t2 & Hc & HX & HL & Ea & En & Et & Hns)].
      + right. split; [|exists q, w; split; assumption]. intros Ho. destruct Hbest as [Hadd _].
        assert (Hadd' : added (vf_calls (fst (searched o start goals (vo_hgoal o) osd timeout fuel (pose_term vkey snode T vkey_eqb start goals (nb_isgoal p b) goal_dist osd cb bf) t pay))) q w)
          by (rewrite E; exact Hadd).
        destruct (call_added o HK a g start goals pay HR (vo_hgoal o) osd timeout _ fuel t q w Hadd') as (c & L & s & t1 & t2 & _ & _ & _ & Hin & Et).
        apply pose_goals_spec in Et. destruct Et as (_ & X & _). rewrite (X Ho) in Hin. destruct Hin.
      + left. apply pose_goals_spec in Et. destruct Et as (_ & _ & _ & X & _). destruct (X eq_refl) as (gv & Hgv & Hi). subst n.
        eexists. split; [eapply like_goal; [apply (X_goal o HK a g start goals pay HR Hg L s gv HX Hgv)|exact Hi]|].
        intros Hl o' Eo. apply (X_before o HK a g start pay HR L s _ HX HL (Hns Hl) o' Eo).
  Qed.
  Lemma stale_added T (cb : option (T -> list (vkey * snode) -> T * bool)) t osd timeout fuel o from to q w : used o ->
    let g := search_to (sp_rev p) from to in
    added (vf_calls (fst (vo_findo clamp p so b hval tot push pop queue timeout bf fuel osd cb t o from to))) q w ->
    (exists o', at_goal p b g o' q) /\ Rabs (w - dist (spos q) (at_pt g)) <= sqrt 2.
  Proof using Hclamp Hk Hpush Hpop.
    intros Hu g. pose proof (used_kept o Hu) as HK. destruct (pose_call T cb t osd timeout fuel o from to Hu) as [[X0 _]|(start & goals & pay & HR & Hg & Er)].
    { rewrite X0. intros (c & [] & _). }
    fold g in HR, Hg. rewrite Er. intros H.
    destruct (call_added o HK _ g start goals pay HR (vo_hgoal o) osd timeout _ fuel t q w H) as (c & L & s & t1 & t2 & HX & HL & -> & Hin & Et).
    apply pose_goals_spec in Et. destruct Et as (_ & _ & X & _). destruct (X w Hin) as (gv & Hgv & Hi & ->).
    pose proof (X_goal o HK _ g start goals pay HR Hg L s gv HX Hgv) as Hl. split; [eexists; eapply like_goal; eassumption|].
    pose proof (like_close _ _ Hl) as Hcl. set (gp := npay (inf s gv)) in *. set (q := npay (inf s (wc_node _ _ c))). clearbody gp q.
    assert (E : goal_dist gp q = dist (spos q) (spos gp)) by (unfold goal_dist; rewrite dist_hyp; unfold hyp; cbn [spos px py]; f_equal; ring).
    pose proof (dist_tri (spos q) (spos gp) (at_pt g)) as T1. pose proof (dist_tri (spos q) (at_pt g) (spos gp)) as T2.
    assert (S2 : dist (at_pt g) (spos gp) = dist (spos gp) (at_pt g)) by (rewrite !dist_hyp; unfold hyp; f_equal; ring).
    rewrite E. apply Rabs_le. clear - Hcl T1 T2 S2. lra.
  Qed.

  Notation test_term test := (fun t f v => let '(t', cs, stop) := test t f v in Some (t', cs, if (stop : bool) then AStop else AGo)).
  Lemma stale_test T hgoal (test : T -> (vkey -> vinfo vkey snode) -> vkey -> T * list R * bool) t osd timeout fuel o from path cands log : used o ->
    fst (vo_findt clamp p so b hval tot push pop queue timeout bf fuel osd hgoal test t o from) = VF (VPath _ _ path) cands log ->
    (path = [] /\ forall q w, ~ added log q w) \/
    exists n l, driven (sp_rev p) path = n :: l /\ drivable_from_cell clamp (vo_map o) (vo_skips o) p so b from from (n :: l) /\ exists q w, best log q w /\ slot_of clamp n = slot_of clamp q.
  Proof using Hclamp Hk Hb Hpush Hpop Hqueue.
    intros Hu. pose proof (used_kept o Hu) as HK. pose proof (kp_map o HK) as Hm. unfold vo_findt.
    destruct (start_at clamp (vo_map o) (pays (vo_info o)) from) as [[start pay]|] eqn:E1; [|discriminate]. pose proof (started_ok _ _ _ _ _ Hm E1) as S1.
    pose proof (ready_one _ _ _ _ _ Hm S1 (kp_good o HK)) as HR. intros E.
    destruct (call_path o HK from from start [] pay HR hgoal osd timeout _ fuel t path cands log E) as [[X1 X2]|(n & l & E2 & Hd & Y)].
    - left. split; [apply driven_nil, X1|exact X2].
    - right. exists n, l. split; [exact E2|]. split; [exact Hd|]. destruct Y as [(q & w & Hbest & Hs)|(c & L & s & t1 & t2 & _ & _ & _ & _ & _ & Et & _)]; [exists q, w; split; assumption|].
      exfalso. destruct (test t1 (inf s) (wc_node _ _ c)) as [[t3 cs] stop]. destruct stop; discriminate.
  Qed.

  Lemma stale_cands T (cb : option (T -> list (vkey * snode) -> T * bool)) t osd timeout fuel o from to r ps log : used o ->
    fst (vo_findo clamp p so b hval tot push pop queue timeout bf fuel osd cb t o from to) = VF r (Some ps) log ->
    candidates_from_cell clamp (vo_map o) (vo_skips o) p so b (search_from (sp_rev p) from to) (search_to (sp_rev p) from to) log ps.
  Proof using Hclamp Hk Hb Hpush Hpop Hqueue.
    intros Hu E. pose proof (used_kept o Hu) as HK. pose proof (kp_map o HK) as Hm. unfold vo_findo in E. fold (search_from (sp_rev p) from to) (search_to (sp_rev p) from to) in E.
    destruct (start_at clamp (vo_map o) (pays (vo_info o)) _) as [[start p1]|] eqn:E1; [|discriminate].
    pose proof (started_ok _ _ _ _ _ Hm E1) as S1. destruct (start_at clamp (vo_map o) p1 _) as [[goals pay]|] eqn:E2; [|discriminate].
    pose proof (ready_two _ _ _ _ _ _ _ _ Hm S1 (started_ok _ _ _ _ _ Hm E2) (kp_good o HK)) as HR. eapply (call_cands o HK); [exact HR|exact E].
  Qed.
  Lemma stale_test_cands T hgoal (test : T -> (vkey -> vinfo vkey snode) -> vkey -> T * list R * bool) t osd timeout fuel o from r ps log : used o ->
    fst (vo_findt clamp p so b hval tot push pop queue timeout bf fuel osd hgoal test t o from) = VF r (Some ps) log ->
    candidates_from_cell clamp (vo_map o) (vo_skips o) p so b from from log ps.
  Proof using Hclamp Hk Hb Hpush Hpop Hqueue.
    intros Hu E. pose proof (used_kept o Hu) as HK. pose proof (kp_map o HK) as Hm. unfold vo_findt in E.
    destruct (start_at clamp (vo_map o) (pays (vo_info o)) from) as [[start pay]|] eqn:E1; [|discriminate].
    pose proof (ready_one _ _ _ _ _ Hm (started_ok _ _ _ _ _ Hm E1) (kp_good o HK)) as HR. eapply (call_cands o HK); [exact HR|exact E].
  Qed.

  (** *** A call that returns a path *)
  Lemma starts_open l : forall s, l <> [] \/ v_open _ _ s <> [] -> v_open _ _ (starts l s) <> [].
  Proof using Hpush.
    clear - Hpush. induction l as [|v l IH]; intros s [H|H]; cbn [vstarts]; [contradiction|exact H| |]; apply IH; right; cbn [v_open];
      (intros E; assert (X : In v []) by (rewrite <- E; apply (proj2 (Hpush _ _ _)); left; reflexivity); destruct X).
  Qed.
  Lemma free_start m p0 pose l pay : map_ok m -> started m p0 pose l pay -> (forall v, good v (p0 v)) -> (0 <= fst (cell_at pose) /\ 0 <= snd (cell_at pose))%Z ->
    ~ occupied m (fst (cell_at pose)) (snd (cell_at pose)) -> forall f, In (cell_at pose, 15%Z, f) l.
  Proof using Type.
    intros Hm H Hg Hnn Ho f. apply (sd_in _ _ _ _ _ H). split; [reflexivity|]. destruct (Hg (cell_at pose, 15%Z, f)) as [E _]. cbn [fst] in E.
    pose proof (sd_inner _ _ _ _ _ H) as Hi. set (n := p0 (cell_at pose, 15%Z, f)) in *. clearbody n. unfold v_occupied. unfold pcell in E. rewrite <- E in Hi, Ho, Hnn. cbn [fst snd] in Hi, Ho, Hnn.
    destruct (VehicleGen.inner_fits m (mk_small m Hm) _ _ Hi) as [F1 F2]. rewrite (cast_i32_fits _ F1), (cast_i32_fits _ F2). cbn [obind].
    rewrite !trunc_nonneg by apply Hnn. destruct (occ1_spec m (mk_wf m Hm) (Zfloor (sn_x n)) (Zfloor (sn_y n))) as (q & -> & Hq). destruct q; [|reflexivity]. exfalso. apply Ho, Hq. reflexivity.
  Qed.
  Lemma stale_first o osd timeout fuel from : used o -> ((gm_w (vo_map o) + 64) * (gm_h (vo_map o) + 64) * 64 <= Z.of_nat bf)%Z ->
    has_nodes (vo_map o) (cell_at from) -> (0 <= fst (cell_at from) /\ 0 <= snd (cell_at from))%Z -> ~ occupied (vo_map o) (fst (cell_at from)) (snd (cell_at from)) -> timeout 0%nat = false ->
    exists path, path <> [] /\ vf_path (fst (vo_findt clamp p so b hval tot push pop queue timeout bf (S fuel) osd None (fun (_ : unit) _ _ => (tt, [0], true)) tt o from)) = VPath _ _ path.
  Proof using Hclamp Hk Hpush Hpop Hqueue.
    intros Hu Hbf Hi Hnn Ho Ht. pose proof (used_kept o Hu) as HK. pose proof (kp_map o HK) as Hm. unfold vo_findt.
    destruct (start_at clamp (vo_map o) (pays (vo_info o)) from) as [[start pay]|] eqn:E1; [|exfalso; exact (started_some _ _ _ Hm Hi (kp_good o HK) E1)].
    pose proof (started_ok _ _ _ _ _ Hm E1) as S1. pose proof (ready_one _ _ _ _ _ Hm S1 (kp_good o HK)) as HR.
    pose proof (free_start _ _ _ _ _ Hm S1 (kp_good o HK) Hnn Ho true) as Hin.
    pose proof (starts_X vkey_eqb vkey_eqb_spec moves (nb_offer clamp (vo_map o) (vo_skips o) p so b) tot push Hpush start pay (all_keys (vo_map o)) gens (all_start (vo_map o) _ _ start pay HR)
      (attach (vo_info o) pay) (fit_attach _ _ _ (kp_fit o HK)) (fun v => eq_refl)) as HX.
    pose proof (starts_open start (VS _ _ (attach (vo_info o) pay) []) ltac:(left; intros X0; rewrite X0 in Hin; destruct Hin)) as Hne.
    set (s0 := starts start (VS _ _ (attach (vo_info o) pay) [])) in *. unfold VehicleReuse.searched. cbv zeta. cbn [fst vf_path vf_of wloop ws_s ws_cand ws_first].
    pose proof (Hpop (vtotal _ _ tot (inf s0)) (v_open _ _ s0)) as Hp. destruct (v_open _ _ s0) as [|v0 l0] eqn:Eo; [contradiction|]. rewrite Ht.
    destruct (pop _ _) as [[cur ol]|] eqn:Ep; [|discriminate Hp]. rewrite <- Eo in Ep.
    destruct (close_X vkey_eqb vkey_eqb_spec moves (nb_offer clamp (vo_map o) (vo_skips o) p so b) hval tot pop Hpop start [] None pay (all_keys (vo_map o)) gens (fun _ => 0%nat) _ s0 cur ol HX Ep) as (HX1 & HL & _).
    cbv zeta. cbn [wadd ws_s ws_cand fst]. set (ws2 := WS _ _ _ _ _).
    destruct (finish_X_ok vkey_eqb vkey_eqb_spec moves (nb_offer clamp (vo_map o) (vo_skips o) p so b) start queue Hqueue bf pay (all_keys (vo_map o)) gens _ ws2 HX1) as [path Ef].
    { intros v c [Y|[]]. injection Y as <- _. exact HL. }
    { apply (keys_in_bf (vo_map o) Hm Hbf). }
    rewrite Ef. cbn [fst]. eexists. split; [|reflexivity].
    destruct (finish_X vkey_eqb vkey_eqb_spec moves (nb_offer clamp (vo_map o) (vo_skips o) p so b) start queue Hqueue bf pay (all_keys (vo_map o)) gens _ ws2 path HX1) as [[_ Y]|(v & c & _ & _ & (l & Er & _))].
    { intros v c [Y|[]]. injection Y as <- _. exact HL. }
    { exact Ef. }
    - discriminate Y.
    - intros X0. assert (Z : path = []) by (destruct (sp_rev p); [apply (f_equal (@rev _)) in X0; rewrite rev_involutive in X0; exact X0|exact X0]). subst path. discriminate Er.
  Qed.

  (** *** It ends *)
  Hypothesis Hsz : nb_sized p b.
  Lemma stale_test_ends T hgoal (test : T -> (vkey -> vinfo vkey snode) -> vkey -> T * list R * bool) t osd timeout o from : used o -> ((gm_w (vo_map o) + 64) * (gm_h (vo_map o) + 64) * 64 <= Z.of_nat bf)%Z ->
    finally (fun fuel => vo_findt clamp p so b hval tot push pop queue timeout bf fuel osd hgoal test t o from) (fun r =>
      (exists path, vf_path (fst r) = VPath _ _ path) \/
      (vf_path (fst r) = VUndef _ _ /\ (~ has_nodes (vo_map o) (cell_at from) \/ enters_edge_from_cell (vo_map o) (nb_move clamp p so b) from from))).
  Proof using Hclamp Hk Hb Hpush Hpop Hqueue Hsz.
    intros Hu Hbf. pose proof (used_kept o Hu) as HK. pose proof (kp_map o HK) as Hm. unfold vo_findt.
    destruct (start_at clamp (vo_map o) (pays (vo_info o)) from) as [[start pay]|] eqn:E1.
    - pose proof (ready_one _ _ _ _ _ Hm (started_ok _ _ _ _ _ Hm E1) (kp_good o HK)) as HR.
      destruct (call_ends o HK from from start [] pay HR hgoal osd timeout Hsz Hbf (test_term test) t) as (fuel & H1 & H2).
      { intros L t0 s cur _ _ _. destruct (test t0 (inf s) cur) as [[t1 cs] stop]. discriminate. }
      exists fuel. split; [exact H1|]. destruct H2 as [H2|[H2 H3]]; [left; exact H2|right; auto].
    - exists O. split; [reflexivity|]. right. split; [reflexivity|]. left. intros Hi. exact (started_some _ _ _ Hm Hi (kp_good o HK) E1).
  Qed.
  Lemma stale_pose_ends T (cb : option (T -> list (vkey * snode) -> T * bool)) t osd timeout o from to : used o -> ((gm_w (vo_map o) + 64) * (gm_h (vo_map o) + 64) * 64 <= Z.of_nat bf)%Z ->
    finally (fun fuel => vo_findo clamp p so b hval tot push pop queue timeout bf fuel osd cb t o from to) (fun r =>
      (exists path, vf_path (fst r) = VPath _ _ path) \/
      (vf_path (fst r) = VUndef _ _ /\ (~ has_nodes (vo_map o) (cell_at from) \/ ~ has_nodes (vo_map o) (cell_at to) \/
        enters_edge_from_cell (vo_map o) (nb_move clamp p so b) (search_from (sp_rev p) from to) (search_to (sp_rev p) from to)))).
  Proof using Hclamp Hk Hb Hpush Hpop Hqueue Hsz.
    intros Hu Hbf. pose proof (used_kept o Hu) as HK. pose proof (kp_map o HK) as Hm. unfold vo_findo. fold (search_from (sp_rev p) from to) (search_to (sp_rev p) from to).
    assert (Out : forall x, (x = search_from (sp_rev p) from to \/ x = search_to (sp_rev p) from to) -> ~ has_nodes (vo_map o) (cell_at x) -> ~ has_nodes (vo_map o) (cell_at from) \/ ~ has_nodes (vo_map o) (cell_at to)).
    { intros x Hx Hn. unfold search_from, search_to in Hx. destruct (sp_rev p), Hx as [->| ->]; auto. }
    destruct (start_at clamp (vo_map o) (pays (vo_info o)) (search_from (sp_rev p) from to)) as [[start p1]|] eqn:E1.
    - pose proof (started_ok _ _ _ _ _ Hm E1) as S1. pose proof (started_good _ _ _ _ _ S1 (kp_good o HK)) as Hg1.
      destruct (start_at clamp (vo_map o) p1 (search_to (sp_rev p) from to)) as [[goals pay]|] eqn:E2.
      + pose proof (ready_two _ _ _ _ _ _ _ _ Hm S1 (started_ok _ _ _ _ _ Hm E2) (kp_good o HK)) as HR.
        destruct (call_ends o HK _ _ start goals pay HR (vo_hgoal o) osd timeout Hsz Hbf (pose_term vkey snode T vkey_eqb start goals (nb_isgoal p b) goal_dist osd cb bf) t) as (fuel & H1 & H2).
        { intros L t0 s cur HX HL Hc. apply pose_goals_ok.
          - intros gv o'. apply nb_goal. apply (rch_good (vo_map o) Hm (vo_skips o) _ _ start pay HR cur); [apply (x_rch _ _ _ _ _ _ _ _ HX); exact HL|exact Hsz].
          - destruct (back_X_ok vkey_eqb vkey_eqb_spec moves (nb_offer clamp (vo_map o) (vo_skips o) p so b) start bf pay (all_keys (vo_map o)) gens L s cur HX HL (keys_in_bf (vo_map o) Hm Hbf)) as [l ->]. discriminate. }
        exists fuel. split; [exact H1|]. destruct H2 as [H2|[H2 H3]]; [left; exact H2|right; auto].
      + exists O. split; [reflexivity|]. right. split; [reflexivity|]. destruct (Out _ (or_intror eq_refl)) as [X|X]; [|left; exact X|right; left; exact X].
        intros Hi. exact (started_some _ _ _ Hm Hi Hg1 E2).
    - exists O. split; [reflexivity|]. right. split; [reflexivity|]. destruct (Out _ (or_introl eq_refl)) as [X|X]; [|left; exact X|right; left; exact X].
      intros Hi. exact (started_some _ _ _ Hm Hi (kp_good o HK) E1).
  Qed.
End Stale.

(** ** C83 *)
(** After any history of the search object, a path can be driven from a pose in the start
    cell, and leads to the goal (or, with an oversearch, to the best pose that was added). *)
Theorem C83_path : forall clamp p so b hval tot push pop queue bf (o : vobj) osd timeout fuel T (cb : option (T -> list (vkey * snode) -> T * bool)) t from to path cands log,
  AngleClamp_contract clamp -> vehicle_ok p so -> nb_ok b -> push_ok push -> pop_ok pop -> queue_ok queue -> used clamp p so b hval tot push pop queue bf o ->
  fst (vo_findo clamp p so b hval tot push pop queue timeout bf fuel osd cb t o from to) = VF (VPath _ _ path) cands log ->
  let a := search_from (sp_rev p) from to in let goal := search_to (sp_rev p) from to in
  (path = [] /\ forall q w, ~ added log q w) \/
  exists n l, driven (sp_rev p) path = n :: l /\ drivable_from_cell clamp (vo_map o) (vo_skips o) p so b a goal (n :: l) /\
    (accepted_last clamp p so b goal n l \/ (osd <> 0 /\ exists q w, best log q w /\ slot_of clamp n = slot_of clamp q)).
Proof.
  intros clamp p so b hval tot push pop queue bf o osd timeout fuel T cb t from to path cands log Hc Hk Hb Hpush Hpop Hq Hu E.
  exact (stale_pose clamp Hc p so Hk b Hb hval tot push pop Hpush Hpop queue Hq bf T cb t osd timeout fuel o from to path cands log Hu E).
Qed.
(** What is added is at the goal, with its distance as weight. *)
Theorem C83_added : forall clamp p so b hval tot push pop queue bf (o : vobj) osd timeout fuel T (cb : option (T -> list (vkey * snode) -> T * bool)) t from to q w,
  AngleClamp_contract clamp -> vehicle_ok p so -> push_ok push -> pop_ok pop -> used clamp p so b hval tot push pop queue bf o ->
  let goal := search_to (sp_rev p) from to in
  added (vf_calls (fst (vo_findo clamp p so b hval tot push pop queue timeout bf fuel osd cb t o from to))) q w ->
  (exists o', at_goal p b goal o' q) /\ Rabs (w - dist (spos q) (at_pt goal)) <= sqrt 2.
Proof.
  intros clamp p so b hval tot push pop queue bf o osd timeout fuel T cb t from to q w Hc Hk Hpush Hpop Hu goal H.
  exact (stale_added clamp Hc p so Hk b hval tot push pop Hpush Hpop queue bf T cb t osd timeout fuel o from to q w Hu H).
Qed.
(** With the caller's own goal test: the path leads to the best pose it added. *)
Theorem C83_test : forall clamp p so b hval tot push pop queue bf (o : vobj) osd timeout fuel T hgoal (test : T -> (vkey -> vinfo vkey snode) -> vkey -> T * list R * bool) t from path cands log,
  AngleClamp_contract clamp -> vehicle_ok p so -> nb_ok b -> push_ok push -> pop_ok pop -> queue_ok queue -> used clamp p so b hval tot push pop queue bf o ->
  fst (vo_findt clamp p so b hval tot push pop queue timeout bf fuel osd hgoal test t o from) = VF (VPath _ _ path) cands log ->
  (path = [] /\ forall q w, ~ added log q w) \/
  exists n l, driven (sp_rev p) path = n :: l /\ drivable_from_cell clamp (vo_map o) (vo_skips o) p so b from from (n :: l) /\ exists q w, best log q w /\ slot_of clamp n = slot_of clamp q.
Proof.
  intros clamp p so b hval tot push pop queue bf o osd timeout fuel T hgoal test t from path cands log Hc Hk Hb Hpush Hpop Hq Hu E.
  exact (stale_test clamp Hc p so Hk b Hb hval tot push pop Hpush Hpop queue Hq bf T hgoal test t osd timeout fuel o from path cands log Hu E).
Qed.
(** getPathCandidates after the call: one path for each addition, the best first. *)
Theorem C83_candidates : forall clamp p so b hval tot push pop queue bf (o : vobj) osd timeout fuel T (cb : option (T -> list (vkey * snode) -> T * bool)) t from to r ps log,
  AngleClamp_contract clamp -> vehicle_ok p so -> nb_ok b -> push_ok push -> pop_ok pop -> queue_ok queue -> used clamp p so b hval tot push pop queue bf o ->
  fst (vo_findo clamp p so b hval tot push pop queue timeout bf fuel osd cb t o from to) = VF r (Some ps) log ->
  candidates_from_cell clamp (vo_map o) (vo_skips o) p so b (search_from (sp_rev p) from to) (search_to (sp_rev p) from to) log ps.
Proof.
  intros clamp p so b hval tot push pop queue bf o osd timeout fuel T cb t from to r ps log Hc Hk Hb Hpush Hpop Hq Hu E.
  exact (stale_cands clamp Hc p so Hk b Hb hval tot push pop Hpush Hpop queue Hq bf T cb t osd timeout fuel o from to r ps log Hu E).
Qed.
Theorem C83_test_candidates : forall clamp p so b hval tot push pop queue bf (o : vobj) osd timeout fuel T hgoal (test : T -> (vkey -> vinfo vkey snode) -> vkey -> T * list R * bool) t from r ps log,
  AngleClamp_contract clamp -> vehicle_ok p so -> nb_ok b -> push_ok push -> pop_ok pop -> queue_ok queue -> used clamp p so b hval tot push pop queue bf o ->
  fst (vo_findt clamp p so b hval tot push pop queue timeout bf fuel osd hgoal test t o from) = VF r (Some ps) log ->
  candidates_from_cell clamp (vo_map o) (vo_skips o) p so b from from log ps.
Proof.
  intros clamp p so b hval tot push pop queue bf o osd timeout fuel T hgoal test t from r ps log Hc Hk Hb Hpush Hpop Hq Hu E.
  exact (stale_test_cands clamp Hc p so Hk b Hb hval tot push pop Hpush Hpop queue Hq bf T hgoal test t osd timeout fuel o from r ps log Hu E).
Qed.
(** Every call ends; it throws only if a pose has no node or some drive enters row or
    column -32. *)
Theorem C83_ends : forall clamp p so b hval tot push pop queue bf (o : vobj) osd timeout T (cb : option (T -> list (vkey * snode) -> T * bool)) t from to,
  AngleClamp_contract clamp -> vehicle_ok p so -> nb_ok b -> push_ok push -> pop_ok pop -> queue_ok queue -> nb_sized p b -> used clamp p so b hval tot push pop queue bf o ->
  ((gm_w (vo_map o) + 64) * (gm_h (vo_map o) + 64) * 64 <= Z.of_nat bf)%Z ->
  finally (fun fuel => vo_findo clamp p so b hval tot push pop queue timeout bf fuel osd cb t o from to) (fun r =>
    (exists path, vf_path (fst r) = VPath _ _ path) \/
    (vf_path (fst r) = VUndef _ _ /\ (~ has_nodes (vo_map o) (cell_at from) \/ ~ has_nodes (vo_map o) (cell_at to) \/
      enters_edge_from_cell (vo_map o) (nb_move clamp p so b) (search_from (sp_rev p) from to) (search_to (sp_rev p) from to)))).
Proof.
  intros clamp p so b hval tot push pop queue bf o osd timeout T cb t from to Hc Hk Hb Hpush Hpop Hq Hsz Hu Hbf.
  exact (stale_pose_ends clamp Hc p so Hk b Hb hval tot push pop Hpush Hpop queue Hq bf Hsz T cb t osd timeout o from to Hu Hbf).
Qed.
Theorem C83_test_ends : forall clamp p so b hval tot push pop queue bf (o : vobj) osd timeout T hgoal (test : T -> (vkey -> vinfo vkey snode) -> vkey -> T * list R * bool) t from,
  AngleClamp_contract clamp -> vehicle_ok p so -> nb_ok b -> push_ok push -> pop_ok pop -> queue_ok queue -> nb_sized p b -> used clamp p so b hval tot push pop queue bf o ->
  ((gm_w (vo_map o) + 64) * (gm_h (vo_map o) + 64) * 64 <= Z.of_nat bf)%Z ->
  finally (fun fuel => vo_findt clamp p so b hval tot push pop queue timeout bf fuel osd hgoal test t o from) (fun r =>
    (exists path, vf_path (fst r) = VPath _ _ path) \/
    (vf_path (fst r) = VUndef _ _ /\ (~ has_nodes (vo_map o) (cell_at from) \/ enters_edge_from_cell (vo_map o) (nb_move clamp p so b) from from))).
Proof.
  intros clamp p so b hval tot push pop queue bf o osd timeout T hgoal test t from Hc Hk Hb Hpush Hpop Hq Hsz Hu Hbf.
  exact (stale_test_ends clamp Hc p so Hk b Hb hval tot push pop Hpush Hpop queue Hq bf Hsz T hgoal test t osd timeout o from Hu Hbf).
Qed.

(** On every object, also after an exception or after a search that was cut off: a goal
    test that accepts its first pose gets a path. *)
Theorem C83_first : forall clamp p so b hval tot push pop queue bf (o : vobj) osd timeout fuel from,
  AngleClamp_contract clamp -> vehicle_ok p so -> push_ok push -> pop_ok pop -> queue_ok queue -> used clamp p so b hval tot push pop queue bf o ->
  ((gm_w (vo_map o) + 64) * (gm_h (vo_map o) + 64) * 64 <= Z.of_nat bf)%Z ->
  has_nodes (vo_map o) (cell_at from) -> (0 <= fst (cell_at from) /\ 0 <= snd (cell_at from))%Z -> ~ occupied (vo_map o) (fst (cell_at from)) (snd (cell_at from)) -> timeout 0%nat = false ->
  exists path, path <> [] /\ vf_path (fst (vo_findt clamp p so b hval tot push pop queue timeout bf (S fuel) osd None (fun (_ : unit) _ _ => (tt, [0], true)) tt o from)) = VPath _ _ path.
Proof.
  intros clamp p so b hval tot push pop queue bf o osd timeout fuel from Hc Hk Hpush Hpop Hq Hu Hbf Hi Hnn Ho Ht.
  exact (stale_first clamp Hc p so Hk b hval tot push pop Hpush Hpop queue Hq bf o osd timeout fuel from Hu Hbf Hi Hnn Ho Ht).
Qed.

(** ** A case for the hypotheses *)
(** The object of C82_case after its drive: the nodes of the drive are not reset, and the
    next search, from another pose, returns a path. *)
Section Case83.
  Variable clamp : R -> R.
  Hypothesis Hclamp : AngleClamp_contract clamp.
  Variable bf : nat.
  Hypothesis Hbf : ((gm_w walled + 64) * (gm_h walled + 64) * 64 <= Z.of_nat bf)%Z.
  Example C83_case : forall first fuel,
    let o := snd (vo_findo clamp stiff_p def_so (NDyn def_o) (l2 (/ 20)) Rplus fifo_push (min_pop Rltb) q_sort (fun _ => false) bf 3 0 None tt (vo_new walled 0 first) (7, 3, 0) (15, 3, 0)) in
    used clamp stiff_p def_so (NDyn def_o) (l2 (/ 20)) Rplus fifo_push (min_pop Rltb) q_sort bf o /\
    exists path, path <> [] /\ vf_path (fst (vo_findt clamp stiff_p def_so (NDyn def_o) (l2 (/ 20)) Rplus fifo_push (min_pop Rltb) q_sort (fun _ => false) bf (S fuel) 0 None (fun (_ : unit) _ _ => (tt, [0], true)) tt o (15, 3, 0))) = VPath _ _ path.
  Proof using Hclamp Hbf.
    intros first fuel o. assert (Hu : used clamp stiff_p def_so (NDyn def_o) (l2 (/ 20)) Rplus fifo_push (min_pop Rltb) q_sort bf o).
    { apply used_pose. apply used_new; [exact walled_ok|apply Z.le_refl]. }
    split; [exact Hu|]. assert (Em : vo_map o = walled).
    { unfold o, vo_findo. destruct (start_at _ _ _ _) as [[l1 p1]|]; [|reflexivity]. destruct (start_at _ _ p1 _) as [[l2' p2]|]; reflexivity. }
    apply C83_first; [exact Hclamp|exact stiff_ok|exact fifo_push_ok|exact (min_pop_ok Rltb)|exact q_sort_ok|exact Hu|rewrite Em; exact Hbf| | | |reflexivity];
      rewrite ?Em; unfold cell_at; cbn [fst snd]; rewrite (Zfloor_IZR 15), (Zfloor_IZR 3).
    - unfold has_nodes. cbn [fst snd]. change (gm_w walled) with 16%Z. change (gm_h walled) with 16%Z. lia.
    - lia.
    - apply walled_free. vm_compute. reflexivity.
  Qed.
End Case83.
