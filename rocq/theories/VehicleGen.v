(** What v_find returns, for both neighbourhoods and every order of the open list. *)
From Coq Require Import Reals Lra FinFun.
From Flocq Require Import Core.Raux.
From Verif Require Import Base GridMap GridMapProofs GridSpec BresenhamProofs GeomR MapManagers SteerModel PropSteer GenericProofs
  VehicleSearch VehicleProofs VehicleAny VehicleModel VehicleInst.
Local Open Scope R_scope.

(** ** Specification *)
(** The cell of a pose; cell, heading slot and driving direction. *)
Definition pcell (n : snode) : Z * Z := (Zfloor (sn_x n), Zfloor (sn_y n)).
Definition slot_of (clamp : R -> R) (n : snode) : Z * Z * option Z * bool := (pcell n, angle2index clamp (sn_th n), sn_fwd n).
(** A drive (newest pose first) in which every move starts at some pose in the same cell
    and heading slot and with the same direction as the pose before; the first one starts
    exactly at the start. *)
Inductive near_trip (clamp : R -> R) (move : snode -> list snode -> R -> snode -> Prop) (s : snode) : list snode -> Prop :=
| nt_start : near_trip clamp move s [s]
| nt_move n r l r' prevs c : near_trip clamp move s (r :: l) -> (l = [] -> r' = r) -> slot_of clamp r' = slot_of clamp r ->
    move r' prevs c n -> near_trip clamp move s (n :: r :: l).
Definition cell_at (pose : R * R * R) : Z * Z := (Zfloor (fst (fst pose)), Zfloor (snd (fst pose))).
(** The poses of a returned path, newest first in the direction of the search. *)
Definition driven (rev_search : bool) (path : list (vkey * snode)) : list snode :=
  if rev_search then map snd path else rev (map snd path).

Lemma trip_near clamp move s l c : trip move s l c -> near_trip clamp move s l.
Proof. induction 1 as [|n r prevs c cost H IH M]; [constructor|]. apply (nt_move clamp move s n r prevs r prevs c IH); auto. Qed.
Lemma trip_mono (P Q : snode -> list snode -> R -> snode -> Prop) s l c : (forall r prevs c n, P r prevs c n -> Q r prevs c n) -> trip P s l c -> trip Q s l c.
Proof. intros H. induction 1; constructor; auto. Qed.
Lemma near_mono clamp (P Q : snode -> list snode -> R -> snode -> Prop) s l : (forall r prevs c n, P r prevs c n -> Q r prevs c n) -> near_trip clamp P s l -> near_trip clamp Q s l.
Proof. intros H. induction 1; econstructor; eauto. Qed.

Lemma vloop_more V P M veqb moves reach offer hval tot isgoal push pop start goals timeout bf : forall k n s,
  fst (vloop V P M veqb moves reach offer hval tot isgoal push pop start goals timeout bf k n s) <> VFuel V P ->
  forall k', (k <= k')%nat -> vloop V P M veqb moves reach offer hval tot isgoal push pop start goals timeout bf k' n s =
    vloop V P M veqb moves reach offer hval tot isgoal push pop start goals timeout bf k n s.
Proof.
  induction k as [|k IH]; intros n s H k' Hk; [cbn [vloop fst] in H; congruence|]. destruct k' as [|k']; [lia|]. cbn [vloop] in *.
  destruct (v_open V P s); [reflexivity|]. destruct (timeout n); [reflexivity|]. destruct (pop _ _) as [[cur o]|]; [|reflexivity]. cbv zeta in *.
  destruct (vreached _ _ _ _ _ _) as [[|]|]; [reflexivity| |reflexivity].
  destruct (vexpand _ _ _ _ _ _ _ _ _ _ _ _) as [s2|]; [|reflexivity]. apply IH; [assumption|lia].
Qed.

Section Gen.
  Variable clamp : R -> R.
  Hypothesis Hclamp : AngleClamp_contract clamp.
  Variable m : gridmap.
  Hypothesis Hwf : gm_wf m.
  Hypothesis Hsm : gm_small m.
  Hypothesis Hw : (0 < gm_w m)%Z.
  Hypothesis Hh : (0 < gm_h m)%Z.
  Variable skips : Z.
  Hypothesis Hskips : (0 <= skips)%Z.
  Variable res : R.
  Variable advance : snode -> list snode -> Z -> Z -> adv.
  Variable moves : list (Z * Z).
  Variable reach : nat.
  Variable hval : snode -> snode -> R.
  Variable tot : R -> R -> R.
  Variable isgoal : snode -> snode -> option snode -> option bool.
  Variable push : (vkey -> R) -> vkey -> list vkey -> list vkey.
  Variable pop : (vkey -> R) -> list vkey -> option (vkey * list vkey).
  Hypothesis Hpush : push_ok push.
  Hypothesis Hpop : pop_ok pop.
  Variable gens : list R.
  Hypothesis Hgens : forall c, In c gens -> 0 < c.
  Hypothesis Hcost : forall ref prevs i s c n, advance ref prevs i s = AMove c n -> In (c * res) gens.
  Hypothesis Hprevs : forall ref prevs i s, advance ref (firstn reach prevs) i s = advance ref prevs i s.

  Notation offer := (v_offer clamp m skips res advance).
  Notation find := (v_find clamp m skips res advance moves reach hval tot isgoal push pop).
  Notation inner := (inner m).

  (** A move of the list, ending at a cell with nodes, whose line check succeeded. *)
  Definition vmove (ref : snode) (prevs : list snode) (c : R) (n : snode) : Prop :=
    (exists mv, In mv moves /\ advance ref prevs (fst mv) (snd mv) = AMove c n) /\
    v_line m skips (sn_x ref) (sn_y ref) (sn_x n) (sn_y n) = Some true /\ inner (Zfloor (sn_x n)) (Zfloor (sn_y n)).

  Lemma offer_move ref prevs mv v c n : In mv moves -> offer ref prevs mv = Some (Some (v, c, n)) ->
    exists cost, c = cost * res /\ vmove ref prevs cost n /\ In c gens /\
      exists t, angle2index clamp (sn_th n) = Some t /\ (0 <= t < 32)%Z /\ v = (Zfloor (sn_x n), Zfloor (sn_y n), t, sn_fwd n).
  Proof using Hclamp Hsm Hw Hh Hcost.
    intros Hm H. destruct (offer_inv clamp Hclamp m Hsm Hw Hh skips res advance ref prevs mv v c n H) as (cost & Ea & -> & _ & El & Hi & Ht).
    exists cost. split; [reflexivity|]. split; [|split; [eapply Hcost; eassumption|assumption]]. split; [eauto|]. split; assumption.
  Qed.

  (** How the search starts. *)
  Record begun (from to : R * R * R) (start goals : list vkey) (pay : vkey -> snode) : Prop := {
    bg_from : inner (fst (cell_at from)) (snd (cell_at from));
    bg_to : inner (fst (cell_at to)) (snd (cell_at to));
    bg_start : forall v, In v start -> ~ occupied m (fst (cell_at from)) (snd (cell_at from)) /\
      exists f, v = (fst (cell_at from), snd (cell_at from), 15%Z, f) /\
        pay v = at_corner (fst (cell_at from)) (snd (cell_at from)) (if ((fst (cell_at from) =? fst (cell_at to)) && (snd (cell_at from) =? snd (cell_at to)))%Z then snd to else snd from) f;
    bg_goal : forall v, In v goals -> ~ occupied m (fst (cell_at to)) (snd (cell_at to)) /\
      exists f, v = (fst (cell_at to), snd (cell_at to), 15%Z, f) /\ pay v = at_corner (fst (cell_at to)) (snd (cell_at to)) (snd to) f }.
  Lemma begun_ok from to start goals pay : v_begin clamp m from to = Some (start, goals, pay) -> begun from to start goals pay.
  Proof using Hclamp Hwf Hsm Hw Hh.
    intros E. destruct (begin_inner clamp Hclamp m Hsm Hw Hh from to _ E) as [A B].
    destruct from as [[x y] th], to as [[gx gy] gth]. cbn [fst snd] in A, B.
    destruct (begin_ok clamp Hclamp m Hwf Hsm Hw Hh x y th gx gy gth A B) as (os & og & pay' & E' & Hos & Hog & P1 & P2 & _).
    rewrite E in E'. injection E' as -> -> <-. constructor; cbn [cell_at fst snd]; [assumption|assumption| |].
    - destruct os; [intros v []|]. intros v Hv. split; [intros X; apply Hos in X; discriminate|].
      destruct Hv as [<-|[<-|[]]]; [exists true|exists false]; (split; [reflexivity|apply P1; reflexivity]).
    - destruct og; [intros v []|]. intros v Hv. split; [intros X; apply Hog in X; discriminate|].
      destruct Hv as [<-|[<-|[]]]; [exists true|exists false]; (split; [reflexivity|apply P2; reflexivity]).
  Qed.

  (** Contents of a node that the search reached by a move lie in its slot. *)
  Definition slot_key (v : vkey) : Z * Z * option Z * bool := let '(x, y, t, f) := v in ((x, y), Some t, f).
  Lemma rch_slot start pay v p : rch moves offer start pay v p -> (In v start /\ p = pay v) \/ slot_of clamp p = slot_key v.
  Proof using Hclamp Hsm Hw Hh Hcost.
    intros H. destruct H as [v Hv|u q qs mv v c p _ Hm Ho]; [left; auto|right].
    destruct (offer_move _ _ _ _ _ _ Hm Ho) as (cost & _ & _ & _ & t & Et & _ & ->). unfold slot_of, pcell. rewrite Et. reflexivity.
  Qed.
  Lemma rch_nonstart start pay v p : rch moves offer start pay v p -> ~ In v start -> slot_of clamp p = slot_key v.
  Proof using Hclamp Hsm Hw Hh Hcost. intros H N. destruct (rch_slot _ _ _ _ H) as [[X _]|X]; [contradiction|assumption]. Qed.

  (** The start of the drive. *)
  Definition starts_at (from to : R * R * R) (s : snode) : Prop :=
    inner (fst (cell_at from)) (snd (cell_at from)) /\ ~ occupied m (fst (cell_at from)) (snd (cell_at from)) /\
    exists f, s = at_corner (fst (cell_at from)) (snd (cell_at from)) (if ((fst (cell_at from) =? fst (cell_at to)) && (snd (cell_at from) =? snd (cell_at to)))%Z then snd to else snd from) f.
  (** The node compared with the goal: as requested, or overwritten by the search. *)
  Definition goal_node (to : R * R * R) (gp : snode) : Prop :=
    inner (fst (cell_at to)) (snd (cell_at to)) /\ ~ occupied m (fst (cell_at to)) (snd (cell_at to)) /\
    ((exists f, gp = at_corner (fst (cell_at to)) (snd (cell_at to)) (snd to) f) \/ (pcell gp = cell_at to /\ angle2index clamp (sn_th gp) = Some 15%Z)).

  Lemma weak_near start goals pay from to : begun from to start goals pay -> forall l, weak_drive moves offer start pay l ->
    exists s, starts_at from to s /\ near_trip clamp vmove s (map snd l) /\ (forall v p, In (v, p) (removelast l) -> slot_of clamp p = slot_key v).
  Proof using Hclamp Hsm Hw Hh Hcost.
    intros Hb l H. induction H as [v Hv|v p u q l c H IH Hns Hu Hst].
    - destruct (bg_start _ _ _ _ _ Hb v Hv) as (Ho & f & Ev & Ep). exists (pay v). split; [|split].
      + split; [apply (bg_from _ _ _ _ _ Hb)|]. split; [assumption|]. exists f. assumption.
      + cbn [map snd]. constructor.
      + intros v0 p0 [].
    - destruct IH as (s & Hs & Hn & Hsl). exists s. split; [assumption|].
      destruct Hst as (q' & qs & mv & Hr & Hq & Hm & Ho). destruct (offer_move _ _ _ _ _ _ Hm Ho) as (cost & -> & Hmv & _ & t & Et & _ & ->).
      assert (Hsv : slot_of clamp p = slot_key (Zfloor (sn_x p), Zfloor (sn_y p), t, sn_fwd p)) by (unfold slot_of, pcell; rewrite Et; reflexivity).
      split.
      + cbn [map snd] in *. apply (nt_move clamp vmove s p q (map snd l) q' qs cost Hn); [| |assumption].
        * intros El. destruct l as [|x l]; [|discriminate]. inversion H as [u' Hu'|]; subst. apply Hq. assumption.
        * inversion H as [u' Hu' E|? ? ? ? ? ? ? Hnu _ _ E]; subst.
          -- rewrite (Hq Hu'). reflexivity.
          -- rewrite (rch_nonstart _ _ _ _ Hr Hnu), (rch_nonstart _ _ _ _ Hu Hnu). reflexivity.
      + intros v0 p0 Hin. cbn [removelast] in Hin. destruct Hin as [E|Hin]; [injection E as <- <-; assumption|]. apply Hsl. exact Hin.
  Qed.
  Lemma drive_trip start goals pay from to : begun from to start goals pay -> forall l cost, drive moves reach offer start pay l cost ->
    exists s c, starts_at from to s /\ cost = c * res /\ trip vmove s (map snd l) c /\ (forall v p, In (v, p) (removelast l) -> slot_of clamp p = slot_key v).
  Proof using Hclamp Hsm Hw Hh Hcost Hprevs.
    intros Hb l cost H. induction H as [v Hv|v p u q l c mv cost H IH Hm Ho].
    - destruct (bg_start _ _ _ _ _ Hb v Hv) as (Hno & f & Ev & Ep). exists (pay v), 0. split; [|split; [ring|split]].
      + split; [apply (bg_from _ _ _ _ _ Hb)|]. split; [assumption|]. exists f. assumption.
      + cbn [map snd]. constructor.
      + intros v0 p0 [].
    - destruct IH as (s & c0 & Hs & -> & Ht & Hsl). destruct (offer_move _ _ _ _ _ _ Hm Ho) as (c' & -> & Hmv & _ & t & Et & _ & ->).
      exists s, (c0 + c'). split; [assumption|]. split; [ring|]. split.
      + cbn [map snd] in *. apply trip_move; [assumption|]. destruct Hmv as ((mv' & A & B) & D). split; [|assumption]. exists mv'. split; [assumption|]. rewrite <- B. symmetry. apply Hprevs.
      + intros v0 p0 Hin. cbn [removelast] in Hin. destruct Hin as [E|Hin]; [|apply Hsl; exact Hin]. injection E as <- <-. unfold slot_of, pcell. rewrite Et. reflexivity.
  Qed.

  Lemma keys_start from to start goals pay : begun from to start goals pay -> incl start (all_keys m).
  Proof using Type.
    intros Hb v Hv. destruct (bg_start _ _ _ _ _ Hb v Hv) as (_ & f & -> & _). apply all_keys_in; [apply (bg_from _ _ _ _ _ Hb)|clear; lia].
  Qed.
  Lemma keys_offer ref prevs mv v c n : In mv moves -> offer ref prevs mv = Some (Some (v, c, n)) -> In v (all_keys m) /\ In c gens.
  Proof using Hclamp Hsm Hw Hh Hcost.
    intros Hm Ho. destruct (offer_move _ _ _ _ _ _ Hm Ho) as (cost & _ & (_ & _ & Hi) & Hg & t & _ & Ht & ->). split; [|assumption]. apply all_keys_in; assumption.
  Qed.

  Lemma goal_of from to start goals pay g gp : begun from to start goals pay -> In g goals -> (gp = pay g \/ rch moves offer start pay g gp) -> goal_node to gp.
  Proof using Hclamp Hsm Hw Hh Hcost.
    intros Hb Hg Hgp. destruct (bg_goal _ _ _ _ _ Hb g Hg) as (Ho & f & Eg & Ep). split; [apply (bg_to _ _ _ _ _ Hb)|]. split; [assumption|].
    destruct Hgp as [->|Hr]; [left; eauto|]. destruct (rch_slot _ _ _ _ Hr) as [[_ ->]|E]; [left; eauto|right]. subst g.
    unfold slot_of, slot_key in E. injection E as E1 E2 E3 E4. split; [|assumption]. unfold pcell. rewrite E1, E2. reflexivity.
  Qed.

  Lemma nodup_slots l : NoDup (map fst l) -> (forall v p, In (v, p) (removelast l) -> slot_of clamp p = slot_key v) -> NoDup (map (fun q => slot_of clamp (snd q)) (removelast l)).
  Proof using Type.
    clear. intros Hn Hs.
    replace (map (fun q => slot_of clamp (snd q)) (removelast l)) with (map slot_key (map fst (removelast l))).
    2:{ rewrite map_map. apply map_ext_in. intros [v p] Hin. symmetry. apply Hs. assumption. }
    apply Injective_map_NoDup.
    - intros [[[x y] t] f] [[[x' y'] t'] f'] E. cbn in E. congruence.
    - clear Hs. induction l as [|a l IH]; [constructor|]. destruct l as [|b l]; [constructor|]. cbn [removelast map] in *. inversion Hn as [|? ? H1 H2]; subst.
      constructor; [|apply IH; assumption]. intros X. apply H1. apply in_map_iff in X. destruct X as (z & <- & Hz). change (In (fst z) (map fst (b :: l))). apply in_map.
      assert (L : forall (A : Type) (x : A) l0, In x (removelast l0) -> In x l0).
      { clear. intros A x l0. induction l0 as [|y l0 IH]; [intros []|]. destruct l0 as [|z l0]; [intros []|]. intros [->|H]; [left; reflexivity|right; apply IH; exact H]. }
      apply (L _ _ (b :: l)). exact Hz.
  Qed.
  Lemma removelast_map {A B} (f : A -> B) l : removelast (map f l) = map f (removelast l).
  Proof using Type. clear. induction l as [|a l IH]; [reflexivity|]. destruct l as [|b l]; [reflexivity|]. cbn [map removelast] in *. f_equal. exact IH. Qed.

  Lemma find_inv rv timeout bf fuel from to path : find rv timeout bf fuel from to = VPath _ _ path ->
    exists start goals pay s' p, v_begin clamp m (if rv then to else from) (if rv then from else to) = Some (start, goals, pay) /\
      vrun vkey snode (Z * Z) vkey_eqb moves reach offer hval tot isgoal push pop start goals timeout bf fuel pay = (VPath _ _ p, s') /\
      path = (if rv then rev p else p) /\ driven rv path = map snd (rev p).
  Proof using Type.
    unfold v_find. destruct (v_begin _ _ _ _) as [[[start goals] pay]|]; [|discriminate].
    destruct (vrun _ _ _ _ _ _ _ _ _ _ _ _ _ _ _ _ _ _) as [r s'] eqn:E. cbn [fst]. destruct r as [| |p]; try discriminate.
    intros H. injection H as <-. exists start, goals, pay, s', p. split; [reflexivity|]. split; [assumption|]. split; [reflexivity|]. unfold driven. destruct rv; [reflexivity|].
    rewrite map_rev. reflexivity.
  Qed.

  (** Every order of the open list. *)
  Theorem gen_weak rv timeout bf fuel from to path : find rv timeout bf fuel from to = VPath _ _ path -> path <> [] ->
    exists s n l gp, driven rv path = n :: l /\ near_trip clamp vmove s (n :: l) /\ starts_at (if rv then to else from) (if rv then from else to) s /\
      NoDup (map (slot_of clamp) (removelast (n :: l))) /\ goal_node (if rv then from else to) gp /\ isgoal gp n (hd_error l) = Some true.
  Proof using Hclamp Hwf Hsm Hw Hh Hcost Hpush Hpop Hgens.
    intros H Hne. destruct (find_inv _ _ _ _ _ _ _ H) as (start & goals & pay & s' & p & Eb & Er & Ep & Ed).
    pose proof (begun_ok _ _ _ _ _ Eb) as Hb. rewrite Ed.
    destruct (weak_valid vkey_eqb moves reach offer hval tot isgoal push pop start goals pay (all_keys m) gens vkey_eqb_spec Hpush Hpop Hgens (keys_start _ _ _ _ _ Hb)
      (fun u q qs mv v c p0 _ Hm Ho => keys_offer q qs mv v c p0 Hm Ho) timeout bf fuel p s' Er) as [X|X].
    { exfalso. apply Hne. rewrite Ep, X. destruct rv; reflexivity. }
    destruct X as (v & q & l & g & gp & E & Hd & Hr & Hn & Hg & Hi & Hgp).
    destruct (weak_near _ _ _ _ _ Hb _ Hd) as (s & Hs & Ht & Hsl). rewrite E. cbn [map snd].
    exists s, q, (map snd l), gp. split; [reflexivity|]. split; [exact Ht|]. split; [assumption|]. split; [|split; [|assumption]].
    - change (q :: map snd l) with (map snd ((v, q) :: l)). rewrite removelast_map, map_map. apply nodup_slots; [|assumption].
      rewrite <- E, map_rev. apply NoDup_rev. assumption.
    - apply (goal_of _ _ _ _ _ g gp Hb Hg Hgp).
  Qed.

  (** Poses reached by moves. *)
  Inductive rpose (s : snode) : snode -> Prop :=
  | rp_start : rpose s s
  | rp_move q prevs c n : rpose s q -> vmove q prevs c n -> rpose s n.
  Lemma rch_rpose start goals pay from to : begun from to start goals pay -> forall v q, rch moves offer start pay v q -> exists s, starts_at from to s /\ rpose s q.
  Proof using Hclamp Hsm Hw Hh Hcost.
    intros Hb v q H. induction H as [v Hv|u q qs mv v c p _ IH Hm Ho].
    - destruct (bg_start _ _ _ _ _ Hb v Hv) as (Hno & f & Ev & Ep). exists (pay v). split; [|constructor]. split; [apply (bg_from _ _ _ _ _ Hb)|]. split; [assumption|]. eauto.
    - destruct IH as (s & Hs & Hr). exists s. split; [assumption|]. destruct (offer_move _ _ _ _ _ _ Hm Ho) as (cost & _ & Hmv & _). econstructor; eassumption.
  Qed.
  Lemma rpose_inner from to s q : starts_at from to s -> rpose s q -> inner (Zfloor (sn_x q)) (Zfloor (sn_y q)).
  Proof using Type.
    intros (Hi & _ & f & ->) H. destruct H as [|q prevs c n _ (_ & _ & X)]; [|assumption]. cbn [at_corner sn_x sn_y]. rewrite !Zfloor_IZR. assumption.
  Qed.

  (** The search ends; if not with a path then the poses are outside or some move ends in
      the row or the column below the padding. *)
  Definition far : R := 536870912.
  Hypothesis Hfar : forall ref prevs i s c n, advance ref prevs i s = AMove c n -> Rabs (sn_x n - sn_x ref) <= far /\ Rabs (sn_y n - sn_y ref) <= far.
  Lemma near_fits x y x' y' : inner (Zfloor x) (Zfloor y) -> Rabs (x' - x) <= far -> Rabs (y' - y) <= far -> fits x' y'.
  Proof using Hsm.
    intros [A B] Dx Dy. unfold gm_small in Hsm. unfold far in *. apply Rabs_le_inv in Dx, Dy.
    assert (G : forall z z', (-32 < Zfloor z < 536870944)%Z -> -536870912 <= z' - z <= 536870912 -> (-2147483648 <= Zfloor z' < 2147483616)%Z).
    { clear. intros z z' H D. pose proof (Zfloor_lb z). pose proof (Zfloor_ub z). assert (L : IZR (Zfloor z) < 536870944) by (apply IZR_lt; lia). assert (L2 : -32 < IZR (Zfloor z)) by (apply IZR_lt; lia).
      split; [apply Zfloor_lub; lra|]. apply lt_IZR. eapply Rle_lt_trans; [apply Zfloor_lb|]. lra. }
    split; [apply (G x)|apply (G y)]; clear - A B Dx Dy Hsm; lra || lia.
  Qed.
  Lemma inner_fits x y : inner (Zfloor x) (Zfloor y) -> fits x y.
  Proof using Hsm. intros H. apply (near_fits x y x y H); unfold far; rewrite Rminus_diag_eq, Rabs_R0 by reflexivity; lra. Qed.

  Lemma offer_undef ref prevs mv : inner (Zfloor (sn_x ref)) (Zfloor (sn_y ref)) -> advance ref prevs (fst mv) (snd mv) <> AUndef -> offer ref prevs mv = None ->
    exists c n, advance ref prevs (fst mv) (snd mv) = AMove c n /\ v_line m skips (sn_x ref) (sn_y ref) (sn_x n) (sn_y n) = Some true /\ v_contains m (sn_x n) (sn_y n) = Some true /\
      (Zfloor (sn_x n) = -32 \/ Zfloor (sn_y n) = -32)%Z.
  Proof using Hclamp Hwf Hsm Hw Hh Hfar.
    intros Hi Hu. unfold v_offer. destruct (advance ref prevs (fst mv) (snd mv)) as [| |c n] eqn:Ea; [discriminate|contradiction|].
    destruct (Hfar _ _ _ _ _ _ Ea) as [Dx Dy]. pose proof (near_fits _ _ _ _ Hi Dx Dy) as Hf.
    destruct (Rltb c 0); [discriminate|]. destruct (v_contains m (sn_x n) (sn_y n)) as [[|]|] eqn:Ec; cbn [obind negb]; [|discriminate|].
    2:{ intros _. exfalso. destruct Hf as [F1 F2]. apply (contains_some m (sn_x n) (sn_y n)); [clear - F1; lia|clear - F2; lia|assumption]. }
    destruct (v_line m skips (sn_x ref) (sn_y ref) (sn_x n) (sn_y n)) as [[|]|] eqn:El; cbn [obind negb]; [|discriminate|].
    2:{ intros _. exfalso. apply (line_some m Hwf Hsm skips _ _ _ _ (inner_fits _ _ Hi) Hf El). }
    destruct (v_lookup clamp m (sn_x n) (sn_y n) (sn_th n) (sn_fwd n)) as [v|] eqn:Ev; cbn [obind]; [discriminate|]. intros _. exists c, n. repeat (split; [reflexivity||assumption|]).
    apply contains_inv in Ec. destruct (innerb m (Zfloor (sn_x n)) (Zfloor (sn_y n))) eqn:Ei.
    - apply innerb_spec in Ei. destruct (lookup_some clamp Hclamp m Hsm Hw Hh _ _ (sn_th n) (sn_fwd n) Ei) as (t & _ & _ & X). congruence.
    - unfold innerb in Ei. clear - Ec Ei. lia.
  Qed.

  Hypothesis Hdef : forall from to s q prevs i k, starts_at from to s -> rpose s q -> In (i, k) moves -> advance q prevs i k <> AUndef.
  Hypothesis Hgdef : forall from to s q g o, starts_at from to s -> rpose s q -> isgoal g q o <> None.
  (** Some move leads to the row or column -32, which has no nodes. *)
  Definition leaves (from to : R * R * R) : Prop :=
    exists s q prevs i k c n, starts_at from to s /\ rpose s q /\ In (i, k) moves /\ advance q prevs i k = AMove c n /\
      v_line m skips (sn_x q) (sn_y q) (sn_x n) (sn_y n) = Some true /\ v_contains m (sn_x n) (sn_y n) = Some true /\ (Zfloor (sn_x n) = -32 \/ Zfloor (sn_y n) = -32)%Z.
  Theorem gen_ends rv timeout bf from to : ((gm_w m + 64) * (gm_h m + 64) * 64 <= Z.of_nat bf)%Z ->
    exists fuel, (forall k, (fuel <= k)%nat -> find rv timeout bf k from to = find rv timeout bf fuel from to) /\
      ((exists path, find rv timeout bf fuel from to = VPath _ _ path) \/
       (find rv timeout bf fuel from to = VUndef _ _ /\
        (~ inner (fst (cell_at from)) (snd (cell_at from)) \/ ~ inner (fst (cell_at to)) (snd (cell_at to)) \/ leaves (if rv then to else from) (if rv then from else to)))).
  Proof using Hclamp Hwf Hsm Hw Hh Hcost Hpush Hpop Hgens Hfar Hdef Hgdef.
    intros Hbf. destruct (v_begin clamp m (if rv then to else from) (if rv then from else to)) as [[[start goals] pay]|] eqn:Eb.
    2:{ exists O. unfold v_find. rewrite Eb. split; [reflexivity|]. right. split; [reflexivity|].
        set (a := if rv then to else from) in *. set (b := if rv then from else to) in *.
        assert (X : ~ inner (fst (cell_at a)) (snd (cell_at a)) \/ ~ inner (fst (cell_at b)) (snd (cell_at b))).
        { destruct (innerb m (fst (cell_at a)) (snd (cell_at a))) eqn:Ea; [|left; intros X; apply innerb_spec in X; congruence].
          destruct (innerb m (fst (cell_at b)) (snd (cell_at b))) eqn:Eb'; [|right; intros X; apply innerb_spec in X; congruence].
          exfalso. apply innerb_spec in Ea, Eb'. destruct a as [[x y] th], b as [[gx gy] gth].
          destruct (begin_ok clamp Hclamp m Hwf Hsm Hw Hh x y th gx gy gth Ea Eb') as (os & og & pay & E & _). congruence. }
        clear - X. unfold a, b in X. destruct rv; tauto. }
    pose proof (begun_ok _ _ _ _ _ Eb) as Hb.
    destruct (weak_ends vkey_eqb moves reach offer hval tot isgoal push pop start goals pay (all_keys m) gens vkey_eqb_spec Hpush Hpop Hgens (keys_start _ _ _ _ _ Hb)
      (fun u q qs mv v c p0 _ Hm Ho => keys_offer q qs mv v c p0 Hm Ho) timeout bf) as (fuel & X).
    { pose proof (all_keys_len m Hw Hh) as L. clear - L Hbf. lia. }
    exists fuel. set (run := fun k => vrun vkey snode (Z * Z) vkey_eqb moves reach offer hval tot isgoal push pop start goals timeout bf k pay) in *.
    assert (Hmore : forall k, (fuel <= k)%nat -> run k = run fuel).
    { intros k Hk. unfold run, vrun. apply vloop_more; [|assumption]. change (fst (run fuel) <> VFuel vkey snode). destruct X as [[p X]|[X _]]; cbv beta in X; fold (run fuel) in X; rewrite X; discriminate. }
    assert (Ef : forall k, find rv timeout bf k from to = match fst (run k) with VPath _ _ p => VPath _ _ (if rv then rev p else p) | r => r end).
    { intros k. unfold v_find. rewrite Eb. reflexivity. }
    split; [intros k Hk; rewrite !Ef, (Hmore k Hk); reflexivity|]. rewrite Ef.
    destruct X as [[p X]|[X Y]]; change (vrun vkey snode (Z * Z) vkey_eqb moves reach offer hval tot isgoal push pop start goals timeout bf fuel pay) with (run fuel) in X; rewrite X.
    - left. eauto.
    - right. split; [reflexivity|]. right. right. destruct Y as [(v & q & qs & mv & Hr & Hm & Ho)|(v & q & g & o & Hr & Hg)].
      + destruct (rch_rpose _ _ _ _ _ Hb v q Hr) as (s & Hs & Hq).
        destruct (offer_undef q qs mv (rpose_inner _ _ _ _ Hs Hq)) as (c & n & E); [|assumption|].
        { apply (Hdef _ _ s q qs (fst mv) (snd mv) Hs Hq). destruct mv; exact Hm. }
        exists s, q, qs, (fst mv), (snd mv), c, n. split; [assumption|]. split; [assumption|]. split; [destruct mv; exact Hm|]. exact E.
      + exfalso. destruct (rch_rpose _ _ _ _ _ Hb v q Hr) as (s & Hs & Hq). exact (Hgdef _ _ s q g o Hs Hq Hg).
  Qed.

  (** Least distance first. *)
  Hypothesis tot_dist : forall d h, tot d h = d.
  Hypothesis pop_least : forall f l v r, pop f l = Some (v, r) -> forall w, In w l -> f v <= f w.
  Theorem gen_least rv timeout bf fuel from to path : find rv timeout bf fuel from to = VPath _ _ path -> path <> [] ->
    exists s n l c, driven rv path = n :: l /\ trip vmove s (n :: l) c /\ starts_at (if rv then to else from) (if rv then from else to) s.
  Proof using Hclamp Hwf Hsm Hw Hh Hcost Hpush Hpop Hgens Hprevs tot_dist pop_least.
    intros H Hne. destruct (find_inv _ _ _ _ _ _ _ H) as (start & goals & pay & s' & p & Eb & Er & Ep & Ed).
    pose proof (begun_ok _ _ _ _ _ Eb) as Hb. rewrite Ed.
    destruct (fun A B D => run_valid vkey_eqb vkey_eqb_spec moves reach offer hval tot isgoal push pop Hpush Hpop start goals pay A (fun _ _ => True) (fun _ _ => Logic.I) (fun _ _ _ _ _ _ _ _ _ _ => Logic.I)
      (all_keys m) B D tot_dist pop_least timeout bf fuel p s' Er) as [X|X].
    - intros q qs mv v c p0 Ho. destruct (offer_inv clamp Hclamp m Hsm Hw Hh skips res advance _ _ _ _ _ _ Ho) as (cost & Ea & -> & _). pose proof (Hgens _ (Hcost _ _ _ _ _ _ Ea)). lra.
    - intros u q qs mv v c p0 _ Hm Ho. apply (keys_offer q qs mv v c p0 Hm Ho).
    - apply (keys_start _ _ _ _ _ Hb).
    - exfalso. apply Hne. rewrite Ep, X. destruct rv; reflexivity.
    - destruct X as (v & q & l & cost & g & gp & E & Hd & _).
      destruct (drive_trip _ _ _ _ _ Hb _ _ Hd) as (s & c & Hs & _ & Ht & _). rewrite E. cbn [map snd] in *. exists s, q, (map snd l), c. auto.
  Qed.
End Gen.
