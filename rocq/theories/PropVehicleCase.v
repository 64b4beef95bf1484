(** C59, C60, C62, C63: concrete searches that meet the hypotheses, for both
    neighbourhoods and every open list: a vehicle that cannot steer drives one step. *)
From Coq Require Import Reals Lra.
From Flocq Require Import Core.Raux.
From Verif Require Import Base GridMap GridMapProofs GridSpec BresenhamProofs GeomR PropGeom PropLine MapManagers SteerModel PropSteer PropSteerKin PropSteerCost PropSteerGoal
  GenericProofs OpenPolicies VehicleSearch VehicleProofs VehicleAny VehicleModel VehicleInst VehicleGen PropVehicle PropVehicleEnd PropVehicleJump PropVehicleStart.
Local Open Scope R_scope.

Section Case.
  Variable clamp : R -> R.
  Hypothesis Hclamp : AngleClamp_contract clamp.
  Variable m : gridmap.
  Hypothesis Hmap : map_ok m.
  Variable skips : Z.
  Variable res : R.
  Variable advance : snode -> list snode -> Z -> Z -> adv.
  Variable mvs : list (Z * Z).
  Variable reach : nat.
  Variable hval : snode -> snode -> R.
  Variable tot : R -> R -> R.
  Variable isg : snode -> snode -> option snode -> option bool.
  Variable push : (vkey -> R) -> vkey -> list vkey -> list vkey.
  Variable pop : (vkey -> R) -> list vkey -> option (vkey * list vkey).
  Hypothesis Hpush : push_ok push.
  Hypothesis Hpop : pop_ok pop.
  Variable D : Z.
  Hypothesis HD : (1 <= D <= 31)%Z.
  Variables x y : Z.
  Hypothesis Hx : (0 <= x /\ x + D < gm_w m)%Z.
  Hypothesis Hy : (0 <= y < gm_h m)%Z.
  Variable gth : R.
  Hypothesis Hs_free : ~ occupied m x y.
  Hypothesis Hg_free : ~ occupied m (x + D) y.
  Variable cst : R.
  Variable pg : snode.

  Notation offer := (v_offer clamp m skips res advance).
  Notation sf := (x, y, 15%Z, true).
  Notation sr := (x, y, 15%Z, false).
  Notation gf := ((x + D)%Z, y, 15%Z, true).
  Notation gr := ((x + D)%Z, y, 15%Z, false).
  Notation qsf := (at_corner x y 0 true).
  Notation qsr := (at_corner x y 0 false).
  Notation qgf := (at_corner (x + D) y gth true).
  Notation qgr := (at_corner (x + D) y gth false).
  Hypothesis Ho1 : forall rest, mvs = (0, 0)%Z :: rest -> forall prevs, offer qsf prevs (0, 0)%Z = Some (Some (gf, cst, pg)).
  Hypothesis Ho2 : forall rest, mvs = (0, 0)%Z :: rest -> forall prevs mv, In mv rest -> offer qsf prevs mv = Some None.
  Hypothesis Ho3 : forall prevs mv, In mv mvs -> offer qsr prevs mv = Some None.
  Hypothesis Hmv : exists rest, mvs = (0, 0)%Z :: rest.
  Hypothesis Hg1 : forall b, isg qgf (at_corner x y 0 b) None = Some false.
  Hypothesis Hg2 : forall b, isg qgr (at_corner x y 0 b) None = Some false.
  Hypothesis Hg3 : forall b, isg pg (at_corner x y 0 b) None = Some false.
  Hypothesis Hg4 : isg pg pg (Some qsf) = Some true.

  Notation VI := (VI vkey snode).
  Notation vst := (vstate vkey snode).
  Notation inf := (v_info vkey snode).
  Notation opn := (v_open vkey snode).
  Notation goals := [gf; gr].
  Notation start := [sf; sr].
  Notation expand := (vexpand vkey snode (Z * Z) vkey_eqb reach offer hval tot push goals).
  Notation close := (vclose vkey snode vkey_eqb hval goals).
  Notation total := (vtotal vkey snode tot).
  Notation reached := (vreached vkey snode isg).
  Notation loop := (vloop vkey snode (Z * Z) vkey_eqb mvs reach offer hval tot isg push pop start goals (fun _ => false)).
  Notation back := (vback vkey snode vkey_eqb start).
  Notation answer := (VPath vkey snode [(sf, qsf); (gf, pg)]).

  Lemma nesg : forall a b : bool, (x, y, 15%Z, a) <> ((x + D)%Z, y, 15%Z, b).
  Proof using HD. intros a b E. assert (x = x + D)%Z by congruence. clear - H HD. lia. Qed.
  Lemma nesg' : forall a b : bool, ((x + D)%Z, y, 15%Z, b) <> (x, y, 15%Z, a).
  Proof using HD. intros a b E. symmetry in E. revert E. apply nesg. Qed.

  (** [a]: the forward start node was expanded, [b]: the reverse one. *)
  Record inv (a b : bool) (s : vst) : Prop := {
    iv_sf : exists d h oo c, inf s sf = VI (Some d) h None oo c qsf;
    iv_sr : exists d h oo c, inf s sr = VI (Some d) h None oo c qsr;
    iv_gf : if a then exists d h, inf s gf = VI (Some d) h (Some sf) true false pg else inf s gf = VI None 0 None false false qgf;
    iv_gr : n_pay _ _ (inf s gr) = qgr;
    iv_open : forall w, In w (opn s) <-> (w = sf /\ a = false) \/ (w = sr /\ b = false) \/ (w = gf /\ a = true);
    iv_nodup : NoDup (opn s) }.

  Lemma pushnd f v l : NoDup l -> ~ In v l -> NoDup (push f v l).
  Proof using Hpush.
    intros Hn Hv. destruct (Hpush f v l) as [Hl Hi]. apply (@NoDup_incl_NoDup _ (v :: l)); [constructor; assumption|assumption|]. intros w Hw. apply Hi. destruct Hw as [<-|Hw]; [left; reflexivity|right; assumption].
  Qed.
  Lemma popnd f l v r : NoDup l -> pop f l = Some (v, r) -> NoDup (v :: r) /\ (forall w, In w l <-> w = v \/ In w r).
  Proof using Hpop.
    intros Hn E. pose proof (Hpop f l) as H. rewrite E in H. destruct H as (Hv & Hl & Hi & Hc). split.
    - apply (@NoDup_incl_NoDup _ l); [assumption|cbn [length]; clear - Hl; lia|]. intros w Hw. destruct (Hc w Hw) as [->|X]; [left; reflexivity|right; assumption].
    - intros w. split; [apply Hc|]. intros [->|X]; [assumption|apply Hi; assumption].
  Qed.
  Lemma cl_other s v l w : w <> v -> inf (close s v l) w = inf s w.
  Proof using Type. intros H. unfold vclose. cbn [v_info]. apply (vset_other vkey_eqb vkey_eqb_spec). assumption. Qed.
  Lemma cl_same s v l : exists h, inf (close s v l) v = VI (n_dist _ _ (inf s v)) h (n_prev _ _ (inf s v)) false true (n_pay _ _ (inf s v)).
  Proof using Type. unfold vclose. cbn [v_info]. eexists. apply (vset_same vkey_eqb vkey_eqb_spec). Qed.
  Lemma cl_pay s v l w : n_pay _ _ (inf (close s v l) w) = n_pay _ _ (inf s w).
  Proof using Type. destruct (vkey_eqb_spec w v) as [->|N]; [destruct (cl_same s v l) as (h & ->); reflexivity|rewrite cl_other by assumption; reflexivity]. Qed.

  Lemma expand_none cur ms s q : n_pay _ _ (inf s cur) = q -> (forall prevs mv, In mv ms -> offer q prevs mv = Some None) -> expand cur ms s = Some s.
  Proof using Type.
    intros Hp Hi. induction ms as [|mv ms IH]; [reflexivity|]. cbn [vexpand]. rewrite Hp. rewrite Hi by (left; reflexivity). cbn [obind]. apply IH. intros prevs z Hz. apply Hi. right. assumption.
  Qed.

  Lemma expand_start b s l : inv false b s -> NoDup (sf :: l) -> (forall w, In w (opn s) <-> w = sf \/ In w l) -> exists s', expand sf mvs (close s sf l) = Some s' /\ inv true b s'.
  Proof using HD Hpush Ho1 Ho2 Hmv.
    intros H Hn Hl. pose proof nesg as NE. pose proof nesg' as NE'. inversion Hn as [|? ? N1 N2]; subst. destruct Hmv as (rest & Em). rewrite Em. cbn [vexpand].
    destruct (iv_sf _ _ _ H) as (d & h & oo & c & Es). destruct (cl_same s sf l) as (h1 & Ec). rewrite Es in Ec. cbn [n_dist n_prev n_pay] in Ec.
    rewrite Ec. cbn [n_pay]. rewrite (Ho1 rest Em). cbn [obind].
    assert (Ngf : gf <> sf) by apply NE'.
    unfold vprocess. cbv zeta. rewrite (cl_other s sf l gf Ngf), (iv_gf _ _ _ H). cbn [n_dist n_closed n_open n_pay negb andb orb].
    destruct (vkey_eqb_spec gf sf) as [X|_]; [contradiction|]. cbn [obind].
    match goal with |- context [expand sf rest ?s2] => set (s2' := s2) end.
    assert (Same : forall w, w <> gf -> inf s2' w = inf (close s sf l) w).
    { intros w Hw. unfold s2'. cbn [v_info]. rewrite !(vset_other vkey_eqb vkey_eqb_spec) by assumption. reflexivity. }
    assert (Hgl : ~ In gf l).
    { intros X. assert (Y : In gf (opn s)) by (apply Hl; right; assumption). apply (iv_open _ _ _ H) in Y. destruct Y as [[Y _]|[[Y _]|[_ Y]]]; [contradiction| |discriminate]. revert Y. apply NE'. }
    exists s2'. split.
    - apply (expand_none sf rest s2' qsf); [rewrite Same by apply NE; rewrite Ec; reflexivity|]. intros prevs mv Hin. apply (Ho2 rest Em). assumption.
    - constructor.
      + rewrite Same by apply NE. rewrite Ec. eauto.
      + rewrite Same by apply NE. rewrite cl_other by congruence. apply (iv_sr _ _ _ H).
      + unfold s2'. cbn [v_info]. rewrite (vset_same vkey_eqb vkey_eqb_spec). eauto.
      + rewrite Same by congruence. rewrite cl_other by apply NE'. apply (iv_gr _ _ _ H).
      + intros w. unfold s2'. cbn [v_open]. rewrite (proj2 (Hpush _ _ _)). change (w = gf \/ In w l <-> w = sf /\ true = false \/ w = sr /\ b = false \/ w = gf /\ true = true). split.
        * intros [X|X]; [auto|]. assert (Y : In w (opn s)) by (apply Hl; right; assumption). apply (iv_open _ _ _ H) in Y. destruct Y as [[Y _]|[Y|[_ Y]]]; [subst w; contradiction|auto|discriminate].
        * intros [[_ X]|[[X Y]|[X _]]]; [discriminate| |auto]. right. assert (Z : In w (opn s)) by (apply (iv_open _ _ _ H); auto). apply Hl in Z. destruct Z as [Z|Z]; [exfalso; congruence|assumption].
      + unfold s2'. cbn [v_open]. apply pushnd; assumption.
  Qed.
  Lemma close_rev a s l : inv a false s -> NoDup (sr :: l) -> (forall w, In w (opn s) <-> w = sr \/ In w l) -> inv a true (close s sr l).
  Proof using HD.
    intros H Hn Hl. pose proof nesg as NE. pose proof nesg' as NE'. inversion Hn as [|? ? N1 N2]; subst.
    destruct (iv_sr _ _ _ H) as (d & h & oo & c & Es). destruct (cl_same s sr l) as (h1 & Ec). rewrite Es in Ec. cbn [n_dist n_prev n_pay] in Ec. constructor.
    - rewrite cl_other by congruence. apply (iv_sf _ _ _ H).
    - rewrite Ec. eauto.
    - rewrite cl_other by apply NE'. apply (iv_gf _ _ _ H).
    - rewrite cl_other by apply NE'. apply (iv_gr _ _ _ H).
    - cbn [vclose v_open]. intros w. split.
      + intros X. assert (Y : In w (opn s)) by (apply Hl; right; assumption). apply (iv_open _ _ _ H) in Y. destruct Y as [Y|[[Y _]|Y]]; [auto|subst w; contradiction|auto].
      + intros X. assert (Y : In w (opn s)) by (apply (iv_open _ _ _ H); destruct X as [X|[[_ X]|X]]; [auto|discriminate|auto]). apply Hl in Y. destruct Y as [Y|Y]; [|assumption].
        exfalso. subst w. destruct X as [[X _]|[[_ X]|[X _]]]; [congruence|discriminate|]. revert X. apply NE.
    - cbn [vclose v_open]. assumption.
  Qed.
  Lemma no_goal a b s cur f l : inv a b s -> inf s cur = inf s (x, y, 15%Z, f) -> cur = (x, y, 15%Z, f) -> reached (inf (close s cur l)) cur goals = Some false.
  Proof using Hg1 Hg2 Hg3 HD.
    intros H _ ->. cbn [vreached]. rewrite !cl_pay. rewrite (iv_gr _ _ _ H).
    assert (Ep : n_prev _ _ (inf (close s (x, y, 15%Z, f) l) (x, y, 15%Z, f)) = None /\ n_pay _ _ (inf s (x, y, 15%Z, f)) = at_corner x y 0 f).
    { destruct (cl_same s (x, y, 15%Z, f) l) as (h & ->). cbn [n_prev]. destruct f; [destruct (iv_sf _ _ _ H) as (? & ? & ? & ? & E)|destruct (iv_sr _ _ _ H) as (? & ? & ? & ? & E)]; rewrite E; auto. }
    destruct Ep as [-> ->].
    assert (Eg : isg (n_pay _ _ (inf s gf)) (at_corner x y 0 f) None = Some false).
    { pose proof (iv_gf _ _ _ H) as G. destruct a; [destruct G as (? & ? & ->)|rewrite G]; cbn [n_pay]; auto. }
    rewrite Eg. cbn [obind]. rewrite Hg2. reflexivity.
  Qed.
  Lemma loop_inv : forall (a b : bool) bf fuel n s, inv a b s -> (2 <= bf)%nat -> ((if a then 0 else 1) + (if b then 0 else 1) < fuel)%nat -> fst (loop bf fuel n s) = answer.
  Proof using HD Hpush Hpop Ho1 Ho2 Ho3 Hmv Hg1 Hg2 Hg3 Hg4.
    assert (Goal1 : forall b bf fuel n s, (forall fuel n s, inv true true s -> (0 < fuel)%nat -> fst (loop bf fuel n s) = answer) \/ b = true ->
      inv true b s -> (2 <= bf)%nat -> ((if b then 0 else 1) < fuel)%nat -> fst (loop bf fuel n s) = answer).
    { intros b bf fuel n s IH H Hbf Hfu. pose proof nesg as NE. pose proof nesg' as NE'. destruct fuel as [|fuel]; [exfalso; clear - Hfu; destruct b; lia|].
      assert (Hin : In gf (opn s)) by (apply (iv_open _ _ _ H); auto). cbn [vloop]. destruct (opn s) as [|z zs] eqn:Eo; [destruct Hin|]. rewrite <- Eo in *.
      destruct (pop (total (inf s)) (opn s)) as [[cur l]|] eqn:Ep.
      2:{ pose proof (Hpop (total (inf s)) (opn s)) as X. rewrite Ep in X. rewrite X in Hin. destruct Hin. }
      destruct (popnd _ _ _ _ (iv_nodup _ _ _ H) Ep) as (Hn & Hl). assert (Hc : In cur (opn s)) by (apply Hl; left; reflexivity).
      apply (iv_open _ _ _ H) in Hc. destruct Hc as [[_ X]|[[-> ->]|[-> _]]]; [discriminate| |].
      - destruct IH as [IH|IH]; [|discriminate]. rewrite (no_goal true false s sr false l H) by reflexivity.
        rewrite (expand_none sr mvs _ qsr); [|rewrite cl_pay; destruct (iv_sr _ _ _ H) as (? & ? & ? & ? & ->); reflexivity|exact Ho3].
        apply IH; [apply close_rev; assumption|clear - Hfu; lia].
      - destruct (iv_gf _ _ _ H) as (d & h & Eg). destruct (cl_same s gf l) as (h1 & Ec). rewrite Eg in Ec. cbn [n_dist n_prev n_pay] in Ec.
        destruct (iv_sf _ _ _ H) as (d0 & h0 & oo & c & Es). assert (Es' : inf (close s gf l) sf = VI (Some d0) h0 None oo c qsf) by (rewrite cl_other by apply NE; assumption).
        assert (Er : reached (inf (close s gf l)) gf goals = Some true) by (cbn [vreached]; rewrite Ec; cbn [n_pay n_prev]; rewrite Es'; cbn [n_pay]; rewrite Hg4; reflexivity).
        rewrite Er. destruct bf as [|[|bf]]; [exfalso; clear - Hbf; lia|exfalso; clear - Hbf; lia|].
        assert (Eb : back (S (S bf)) (inf (close s gf l)) gf [] [] = Some [sf; gf]).
        { cbn [vback vmem existsb]. destruct (vkey_eqb_spec gf sf) as [X|_]; [exfalso; revert X; apply NE'|]. destruct (vkey_eqb_spec gf sr) as [X|_]; [exfalso; revert X; apply NE'|].
          cbn [orb]. rewrite Ec. cbn [n_prev]. rewrite Es'. cbn [n_prev]. destruct (vkey_eqb_spec sf sf) as [_|X]; [|congruence]. reflexivity. }
        rewrite Eb. cbn [fst vcopy map]. rewrite Ec, Es'. reflexivity. }
    assert (Goal2 : forall b bf fuel n s, inv true b s -> (2 <= bf)%nat -> ((if b then 0 else 1) < fuel)%nat -> fst (loop bf fuel n s) = answer).
    { intros b bf fuel n s H Hbf Hfu. apply (Goal1 b); try assumption. left. intros fuel' n' s' H' Hf. apply (Goal1 true); try assumption. right. reflexivity. }
    assert (Goal3 : forall b bf fuel n s, (forall fuel n s, inv false true s -> (1 < fuel)%nat -> fst (loop bf fuel n s) = answer) \/ b = true ->
      inv false b s -> (2 <= bf)%nat -> (1 + (if b then 0 else 1) < fuel)%nat -> fst (loop bf fuel n s) = answer).
    { intros b bf fuel n s IH H Hbf Hfu. destruct fuel as [|fuel]; [exfalso; clear - Hfu; lia|].
      assert (Hin : In sf (opn s)) by (apply (iv_open _ _ _ H); auto). cbn [vloop]. destruct (opn s) as [|z zs] eqn:Eo; [destruct Hin|]. rewrite <- Eo in *.
      destruct (pop (total (inf s)) (opn s)) as [[cur l]|] eqn:Ep.
      2:{ pose proof (Hpop (total (inf s)) (opn s)) as X. rewrite Ep in X. rewrite X in Hin. destruct Hin. }
      destruct (popnd _ _ _ _ (iv_nodup _ _ _ H) Ep) as (Hn & Hl). assert (Hc : In cur (opn s)) by (apply Hl; left; reflexivity).
      apply (iv_open _ _ _ H) in Hc. destruct Hc as [[-> _]|[[-> ->]|[_ X]]]; [| |discriminate].
      - rewrite (no_goal false b s sf true l H) by reflexivity. destruct (expand_start b s l H Hn Hl) as (s' & -> & H'). apply (Goal2 b); [assumption|assumption|clear - Hfu; lia].
      - destruct IH as [IH|IH]; [|discriminate]. rewrite (no_goal false false s sr false l H) by reflexivity.
        rewrite (expand_none sr mvs _ qsr); [|rewrite cl_pay; destruct (iv_sr _ _ _ H) as (? & ? & ? & ? & ->); reflexivity|exact Ho3].
        apply IH; [apply close_rev; assumption|clear - Hfu; lia]. }
    intros [|] b bf fuel n s H Hbf Hfu; [apply (Goal2 b); assumption|].
    apply (Goal3 b); [|assumption|assumption|exact Hfu]. left. intros fuel' n' s' H' Hf. apply (Goal3 true); [right; reflexivity|assumption|assumption|exact Hf].
  Qed.

  Theorem one_step bf fuel : (2 <= bf)%nat -> (3 <= fuel)%nat ->
    v_find clamp m skips res advance mvs reach hval tot isg push pop false (fun _ => false) bf fuel (IZR x, IZR y, 0) (IZR (x + D), IZR y, gth) = answer.
  Proof using Hclamp Hmap HD Hx Hy Hs_free Hg_free Hpush Hpop Ho1 Ho2 Ho3 Hmv Hg1 Hg2 Hg3 Hg4.
    intros Hbf Hfu. pose proof nesg' as NE. unfold v_find. destruct (Hmap) as [Hwf Hsm Hw Hh].
    assert (Hi1 : inner m (Zfloor (IZR x)) (Zfloor (IZR y))) by (rewrite !Zfloor_IZR; unfold inner; clear - Hx Hy HD; lia).
    assert (Hi2 : inner m (Zfloor (IZR (x + D))) (Zfloor (IZR y))) by (rewrite !Zfloor_IZR; unfold inner; clear - Hx Hy HD; lia).
    destruct (begin_ok clamp Hclamp m Hwf Hsm Hw Hh (IZR x) (IZR y) 0 (IZR (x + D)) (IZR y) gth Hi1 Hi2) as (os & og & pay & Eb & Hq1 & Hq2 & P1 & P2 & _).
    rewrite !Zfloor_IZR in *. destruct os; [exfalso; apply Hs_free, Hq1; reflexivity|]. destruct og; [exfalso; apply Hg_free, Hq2; reflexivity|].
    unfold keys_of in *. rewrite Eb. replace ((x =? x + D)%Z) with false in P1 by (symmetry; apply Z.eqb_neq; clear - HD; lia). cbn [andb] in P1. specialize (P1 eq_refl). specialize (P2 eq_refl).
    unfold vrun. set (s0 := vstarts vkey snode vkey_eqb tot push start _).
    assert (Hinv : inv false false s0).
    { assert (Nfr : sr <> sf) by congruence.
      assert (Es : inf s0 = vset vkey snode vkey_eqb (vset vkey snode vkey_eqb (vfresh vkey snode pay) sf (VI (Some 0) 0 None true false (pay sf))) sr (VI (Some 0) 0 None true false (pay sr))).
      { unfold s0. cbn [vstarts v_info v_open]. rewrite (vset_other vkey_eqb vkey_eqb_spec) by assumption. reflexivity. }
      constructor.
      - rewrite Es. rewrite (vset_other vkey_eqb vkey_eqb_spec) by congruence. rewrite (vset_same vkey_eqb vkey_eqb_spec), P1. eauto.
      - rewrite Es. rewrite (vset_same vkey_eqb vkey_eqb_spec), P1. eauto.
      - rewrite Es. rewrite !(vset_other vkey_eqb vkey_eqb_spec) by apply NE. unfold vfresh. rewrite P2. reflexivity.
      - rewrite Es. rewrite !(vset_other vkey_eqb vkey_eqb_spec) by apply NE. unfold vfresh. cbn [n_pay]. rewrite P2. reflexivity.
      - intros w. unfold s0. cbn [vstarts v_info v_open]. rewrite !(proj2 (Hpush _ _ _)). cbn [In]. clear. intuition congruence.
      - unfold s0. cbn [vstarts v_info v_open]. apply pushnd; [apply pushnd; [constructor|intros []]|]. intros X. apply Hpush in X. destruct X as [X|[]]. congruence. }
    pose proof (loop_inv false false bf fuel 0 s0 Hinv Hbf ltac:(clear - Hfu; cbn; lia)) as E. rewrite E. reflexivity.
  Qed.
End Case.

(** ** The two neighbourhoods *)
(** A vehicle that cannot steer; a step is 8 cells. *)
Definition stiff_p : sparams := SP (2 / 5) (/ 20) 0 15 (6 / 5) false false 1.
Lemma stiff_ok : vehicle_ok stiff_p def_so.
Proof. constructor; cbn [stiff_p def_so sp_step sp_res sp_la sp_max so_back so_turn]; lra || lia. Qed.
Lemma stiff_pixel : sp_pixel stiff_p = IZR 8.
Proof. unfold sp_pixel, stiff_p. cbn. lra. Qed.
(** The pose one step ahead. *)
Definition ahead (cu : option Z) : snode := SN 15 3 0 true 0 cu 1.

Section Stiff.
  Variable clamp : R -> R.
  Hypothesis Hclamp : AngleClamp_contract clamp.
  Notation qs b := (at_corner 7 3 0 b).
  Lemma offer_ahead advance res c prevs cu : advance (qs true) prevs 0%Z 0%Z = AMove c (ahead cu) -> 0 <= c ->
    v_offer clamp walled 0 res advance (qs true) prevs (0, 0)%Z = Some (Some ((15, 3, 15, true)%Z, c * res, ahead cu)).
  Proof using Hclamp.
    intros E Hc. unfold v_offer. cbn [fst snd]. rewrite E. replace (Rltb c 0) with false by (symmetry; apply Rltb_false; lra).
    destruct walled_ok as [Hwf Hsm Hw Hh].
    assert (E15 : Zfloor (sn_x (ahead cu)) = 15%Z) by (unfold ahead; cbn [sn_x]; apply (Zfloor_IZR 15)). assert (E3 : Zfloor (sn_y (ahead cu)) = 3%Z) by (unfold ahead; cbn [sn_y]; apply (Zfloor_IZR 3)).
    assert (Hi : inner walled (Zfloor (sn_x (ahead cu))) (Zfloor (sn_y (ahead cu)))) by (rewrite E15, E3; unfold inner; cbn; lia).
    rewrite (contains_ok walled Hsm _ _ Hi). cbn [obind negb].
    assert (Hl : v_line walled 0 (sn_x (qs true)) (sn_y (qs true)) (sn_x (ahead cu)) (sn_y (ahead cu)) = Some true).
    { apply line_unchecked; [assumption| | | |].
      - apply (inner_fits walled Hsm). unfold at_corner. cbn [sn_x sn_y]. rewrite !Zfloor_IZR. unfold inner. cbn. lia.
      - apply (inner_fits walled Hsm). assumption.
      - left. unfold cell_of, at_corner. cbn [sn_x sn_y]. rewrite !Zfloor_IZR. cbn. lia.
      - unfold at_corner. cbn [sn_x sn_y]. rewrite !Ztrunc_IZR. apply walled_free. vm_compute. reflexivity. }
    rewrite Hl. cbn [obind negb].
    destruct (lookup_some clamp Hclamp walled Hsm Hw Hh (sn_x (ahead cu)) (sn_y (ahead cu)) (sn_th (ahead cu)) (sn_fwd (ahead cu)) Hi) as (t & Et & _ & ->). cbn [obind].
    rewrite E15, E3. unfold ahead in Et |- *. cbn [sn_th sn_fwd] in *. rewrite (slot_0 clamp Hclamp) in Et. injection Et as <-. reflexivity.
  Qed.
  Lemma stiff_pose q : q = s_pose clamp stiff_p (limit_steer 0 0) (drive_dir stiff_p true) 7 3 0 -> (fst (fst q), snd (fst q), snd q) = (15, 3, 0).
  Proof using Hclamp.
    intros ->. unfold s_pose. cbv zeta. change (limit_steer 0 0) with 0%Z. change (0 =? 0)%Z with true. cbv iota. cbn [fst snd]. rewrite stiff_pixel. unfold drive_dir, stiff_p. cbn [sp_rev].
    rewrite cos_0, sin_0, Rplus_0_r, (clamp_0 clamp Hclamp). f_equal. f_equal; lra.
  Qed.
  Lemma cast_delta k : (0 <= k <= 2)%Z -> exists d, cast_i32 (15 * IZR k) = Some d.
  Proof using Type. intros H. exists (15 * k)%Z. rewrite <- mult_IZR. apply cast_i32_IZR. lia. Qed.
  Lemma stiff_cmd d i k : (0 <= i < 3)%Z -> (0 <= k)%Z -> (i, k) <> (0, 0)%Z -> steer_cmd 0 0 d i k = None.
  Proof using Type.
    intros Hi Hk N. unfold steer_cmd. assert (C : (i = 0 \/ i = 1 \/ i = 2)%Z) by lia. destruct C as [-> |[-> | ->]]; cbn [Z.eqb orb Pos.eqb Z.leb Z.compare Z.opp].
    - destruct (0 <? k)%Z eqn:E; [reflexivity|]. exfalso. apply N. f_equal. lia.
    - destruct (k =? 0)%Z; reflexivity.
    - destruct (k =? 0)%Z; reflexivity.
  Qed.
  Lemma d_ahead prevs : d_advance clamp stiff_p def_so (qs true) prevs 0 0 = AMove (sp_pixel stiff_p) (ahead (Some 0%Z)).
  Proof using Hclamp.
    unfold d_advance. cbv zeta. cbn [at_corner sn_depth sn_fwd sn_custom sn_steer sn_x sn_y sn_th]. change (sp_rev stiff_p) with false. change (sp_delta stiff_p) with 15. change (sp_max stiff_p) with 0%Z. change (sp_both stiff_p) with false.
    change (0 <? 1)%Z with true. change (0 <? 3)%Z with true. cbn [xorb andb negb]. change (0 <? 0)%Z with false. change (3 <? 0)%Z with false. change (0 =? 3)%Z with false. cbn [andb].
    rewrite Rmult_0_r. change 0 with (IZR 0) at 1. rewrite cast_i32_IZR by lia. change (steer_cmd 0 0 0 0 0) with (Some 0%Z). cbv iota.
    pose proof (stiff_pose _ eq_refl) as E. destruct (s_pose clamp stiff_p (limit_steer 0 0) (drive_dir stiff_p true) 7 3 0) as [[a b] c]. cbn [fst snd] in E |- *. injection E as -> -> ->. reflexivity.
  Qed.
  Lemma s_ahead prevs : s_advance clamp stiff_p def_so (qs true) prevs 0 0 = AMove (sp_pixel stiff_p) (ahead None).
  Proof using Hclamp.
    unfold s_advance. cbv zeta. cbn [at_corner sn_depth sn_fwd sn_custom sn_steer sn_x sn_y sn_th]. change (sp_rev stiff_p) with false. change (sp_delta stiff_p) with 15. change (sp_max stiff_p) with 0%Z. change (sp_both stiff_p) with false.
    change (0 <? 1)%Z with true. change (0 <? 3)%Z with true. cbn [xorb andb negb]. change (0 <? 0)%Z with false. cbn [andb].
    rewrite Rmult_0_r. change 0 with (IZR 0) at 1. rewrite cast_i32_IZR by lia. change (steer_cmd 0 0 0 0 0) with (Some 0%Z). cbv iota.
    pose proof (stiff_pose _ eq_refl) as E. destruct (s_pose clamp stiff_p (limit_steer 0 0) (drive_dir stiff_p true) 7 3 0) as [[a b] c]. cbn [fst snd] in E |- *. injection E as -> -> ->. reflexivity.
  Qed.
  Lemma d_stuck prevs b i k : (0 <= i < 3)%Z -> (0 <= k <= 2)%Z -> (b = true -> (i, k) <> (0, 0)%Z) -> v_offer clamp walled 0 (/ 20) (d_advance clamp stiff_p def_so) (qs b) prevs (i, k) = Some None.
  Proof using Type.
    intros Hi Hk N. unfold v_offer. cbn [fst snd]. assert (E : d_advance clamp stiff_p def_so (qs b) prevs i k = AReject); [|rewrite E; reflexivity].
    unfold d_advance. cbv zeta. cbn [at_corner sn_depth sn_fwd sn_custom sn_steer sn_x sn_y sn_th]. change (sp_rev stiff_p) with false. change (sp_delta stiff_p) with 15. change (sp_max stiff_p) with 0%Z. change (sp_both stiff_p) with false. change (0 <? 1)%Z with true. replace (i <? 3)%Z with true by lia.
    destruct b; cbn [xorb andb negb]; [|reflexivity]. change (0 <? 0)%Z with false. cbn [andb]. replace (3 <? i)%Z with false by lia. replace (i =? 3)%Z with false by lia.
    destruct (cast_delta k Hk) as (d & ->). rewrite stiff_cmd; [reflexivity|lia|lia|auto].
  Qed.
  Lemma s_stuck prevs b i k : (0 <= i < 3)%Z -> (0 <= k <= 2)%Z -> (b = true -> (i, k) <> (0, 0)%Z) ->
    v_offer clamp walled 0 (/ 20) (s_advance clamp stiff_p def_so) (qs b) prevs (i, k) = Some None.
  Proof using Type.
    intros Hi Hk N. unfold v_offer. cbn [fst snd]. assert (E : s_advance clamp stiff_p def_so (qs b) prevs i k = AReject); [|rewrite E; reflexivity].
    unfold s_advance. cbv zeta. cbn [at_corner sn_depth sn_fwd sn_custom sn_steer sn_x sn_y sn_th]. change (sp_rev stiff_p) with false. change (sp_delta stiff_p) with 15. change (sp_max stiff_p) with 0%Z. change (sp_both stiff_p) with false. change (0 <? 1)%Z with true. replace (i <? 3)%Z with true by lia.
    destruct b; cbn [xorb andb negb]; [|reflexivity].
    change (0 <? 0)%Z with false. cbn [andb]. destruct (cast_delta k Hk) as (d & ->). rewrite stiff_cmd; [reflexivity|lia|lia|auto].
  Qed.

  Lemma moves_3 i k : In (i, k) (v_moves 0 3 2) -> (0 <= i < 3)%Z /\ (0 <= k <= 2)%Z.
  Proof using Type. intros H. apply v_moves_in in H. lia. Qed.
  Lemma moves_rest i k rest : v_moves 0 3 2 = (0, 0)%Z :: rest -> In (i, k) rest -> (i, k) <> (0, 0)%Z.
  Proof using Type. intros E. change (v_moves 0 3 2) with ((0, 0) :: tl (v_moves 0 3 2))%Z in E. injection E as <-. cbn. intros H. intuition congruence. Qed.

  Lemma hyp_8 : hyp (IZR (7 + 8) - IZR 7) (IZR 3 - IZR 3) = 8.
  Proof using Type. unfold hyp. replace (_ + _) with (8 * 8) by (cbn; lra). apply sqrt_square. lra. Qed.
  Lemma hyp_00 a b : hyp (a - a) (b - b) = 0.
  Proof using Type. unfold hyp. rewrite !Rminus_diag_eq by reflexivity. rewrite Rmult_0_l, Rplus_0_l. apply sqrt_0. Qed.
  Lemma diff_0 a : atan2 (sin (a - a)) (cos (a - a)) = 0.
  Proof using Type. rewrite Rminus_diag_eq by reflexivity. rewrite sin_0, cos_0. unfold atan2. destruct (Rlt_dec 0 1) as [_|N]; [|lra]. replace (0 / 1) with 0 by lra. apply atan_0. Qed.
  Lemma d_far_case g b : sn_x g = IZR (7 + 8) -> sn_y g = IZR 3 -> d_isGoal (/ 20) (do_dist def_o) (do_ang def_o) g (qs b) = false.
  Proof using Type.
    intros E1 E2. unfold d_isGoal. destruct (Rlt_dec _ _); [reflexivity|]. apply Rltb_false. cbn [at_corner sn_x sn_y]. rewrite E1, E2, hyp_8. cbn [def_o do_dist]. lra.
  Qed.
  Lemma d_near_case cu : d_isGoal (/ 20) (do_dist def_o) (do_ang def_o) (ahead cu) (ahead cu) = true.
  Proof using Type.
    unfold d_isGoal. rewrite diff_0, Rabs_R0, hyp_00. pose proof PI_RGT_0. destruct (Rlt_dec _ _) as [L|_]; [exfalso; cbn [def_o do_ang] in L; lra|]. apply Rltb_spec. cbn [def_o do_dist]. lra.
  Qed.
  Lemma s_far_case g b : sn_x g = IZR (7 + 8) -> sn_y g = IZR 3 -> s_isGoal stiff_p 1 g (qs b) None = Some false.
  Proof using Type.
    intros E1 E2. unfold s_isGoal. destruct (Rlt_dec _ _); [reflexivity|]. change (sp_rev stiff_p) with false. cbn [obind andb]. cbv zeta. cbn [at_corner sn_x sn_y].
    rewrite E1, E2. destruct (Rltb _ _ || Rltb _ _)%bool; [reflexivity|]. destruct (Rlt_dec _ _) as [L|_]; [|reflexivity]. exfalso.
    rewrite !Rplus_0_r in L. rewrite hyp_8 in L. cbn [stiff_p sp_res] in L. lra.
  Qed.
  Lemma s_near_case cu q : s_isGoal stiff_p 1 (ahead cu) (ahead cu) q = Some true.
  Proof using Type.
    unfold s_isGoal. rewrite diff_0, Rabs_R0. pose proof PI_RGT_0. destruct (Rlt_dec _ _) as [L|_]; [exfalso; lra|]. change (sp_rev stiff_p) with false. cbn [obind andb]. cbv zeta.
    rewrite !Rplus_0_r. rewrite hyp_00, !Rminus_diag_eq by reflexivity. rewrite Rabs_R0. replace (Rltb (IZR (4 * 1)) 0) with false by (symmetry; apply Rltb_false; cbn; lra). cbn [orb].
    destruct (Rlt_dec _ _) as [_|L]; [reflexivity|]. exfalso. lra.
  Qed.

  (** For every heuristic, total cost, open list and requested heading: the returned path. *)
  Theorem C59_dynamic_case : forall hval tot push pop gth, push_ok push -> pop_ok pop ->
    d_find clamp walled 0 stiff_p def_so def_o hval tot push pop (fun _ => false) 2 3 (7, 3, 0) (15, 3, gth) =
      VPath _ _ [((7, 3, 15, true)%Z, SN 7 3 0 true 0 (Some 0%Z) 0); ((15, 3, 15, true)%Z, ahead (Some 0%Z))].
  Proof using Hclamp.
    intros hval tot push pop gth Hpush Hpop. unfold d_find. change (sp_rev stiff_p) with false. change (d_moves def_o) with (v_moves 0 3 2). change (sp_res stiff_p) with (/ 20).
    apply (one_step clamp Hclamp walled walled_ok 0 (/ 20) _ _ 0 hval tot _ push pop Hpush Hpop 8 ltac:(lia) 7 3 ltac:(cbn; lia) ltac:(cbn; lia) gth) with (cst := sp_pixel stiff_p * / 20).
    - apply walled_free. vm_compute. reflexivity.
    - apply walled_free. vm_compute. reflexivity.
    - intros _ _ prevs. apply offer_ahead; [apply d_ahead|rewrite stiff_pixel; lra].
    - intros rest E prevs [i k] H. assert (Hin : In (i, k) (v_moves 0 3 2)) by (rewrite E; right; assumption). apply moves_3 in Hin. apply d_stuck; [lia|lia|]. intros _. exact (moves_rest i k rest E H).
    - intros prevs [i k] H. apply moves_3 in H. apply d_stuck; [lia|lia|discriminate].
    - eexists. reflexivity.
    - intros b. rewrite d_far_case; reflexivity.
    - intros b. rewrite d_far_case; reflexivity.
    - intros b. rewrite d_far_case; reflexivity.
    - rewrite d_near_case. reflexivity.
    - lia.
    - lia.
  Qed.
  (** SteeringNeighborhood, forward only. *)
  Theorem C59_template_case : forall hval tot push pop gth, push_ok push -> pop_ok pop ->
    s_find clamp walled 0 stiff_p def_so 3 2 1 hval tot push pop (fun _ => false) 2 3 (7, 3, 0) (15, 3, gth) =
      VPath _ _ [((7, 3, 15, true)%Z, SN 7 3 0 true 0 (Some 0%Z) 0); ((15, 3, 15, true)%Z, ahead None)].
  Proof using Hclamp.
    intros hval tot push pop gth Hpush Hpop. unfold s_find. change (sp_rev stiff_p) with false. change (sp_res stiff_p) with (/ 20).
    apply (one_step clamp Hclamp walled walled_ok 0 (/ 20) _ _ _ hval tot _ push pop Hpush Hpop 8 ltac:(lia) 7 3 ltac:(cbn; lia) ltac:(cbn; lia) gth) with (cst := sp_pixel stiff_p * / 20).
    - apply walled_free. vm_compute. reflexivity.
    - apply walled_free. vm_compute. reflexivity.
    - intros _ _ prevs. apply offer_ahead; [apply s_ahead|rewrite stiff_pixel; lra].
    - intros rest E prevs [i k] H. assert (Hin : In (i, k) (v_moves 0 3 2)) by (rewrite E; right; assumption). apply moves_3 in Hin. apply s_stuck; [lia|lia|]. intros _. exact (moves_rest i k rest E H).
    - intros prevs [i k] H. apply moves_3 in H. apply s_stuck; [lia|lia|discriminate].
    - eexists. reflexivity.
    - intros b. apply s_far_case; reflexivity.
    - intros b. apply s_far_case; reflexivity.
    - intros b. apply s_far_case; reflexivity.
    - apply s_near_case.
    - lia.
    - lia.
  Qed.

  (** Least cost first, no heuristic (C59_dynamic_least_first, C59_template_least_first). *)
  Lemma min_least : least_first (min_pop Rltb).
  Proof using Type.
    intros f l v q E w Hw. pose proof (@min_pop_min vkey R Rltb) as M.
    assert (H0 : Rltb (f w) (f v) = false).
    { eapply M; try eassumption; intros; repeat match goal with H : Rltb _ _ = true |- _ => apply Rltb_spec in H | H : Rltb _ _ = false |- _ => apply Rltb_false in H | |- Rltb _ _ = true => apply Rltb_spec | |- Rltb _ _ = false => apply Rltb_false end; lra. }
    apply Rltb_false in H0. lra.
  Qed.
  Example C59_dynamic_drive : exists s c, start_node (7, 3, 0) (15, 3, 0) s /\
    trip (d_move clamp stiff_p def_so 2) s [ahead (Some 0%Z); SN 7 3 0 true 0 (Some 0%Z) 0] c.
  Proof using Hclamp.
    pose proof (C59_dynamic_least_first clamp walled 0 stiff_p def_so def_o (fun _ _ => 0) (fun d _ => d) fifo_push (min_pop Rltb) (fun _ => false) 2 3 (7, 3, 0) (15, 3, 0) _
      Hclamp walled_ok (Z.le_refl 0) stiff_ok fifo_push_ok (min_pop_ok Rltb) (fun _ _ => eq_refl) min_least (C59_dynamic_case _ _ _ _ 0 fifo_push_ok (min_pop_ok Rltb)) ltac:(discriminate)) as (s & c & H1 & H2).
    exists s, c. split; [exact H1|exact H2].
  Qed.
  Example C59_template_drive : exists s c, start_node (7, 3, 0) (15, 3, 0) s /\
    trip (s_move clamp stiff_p def_so 2) s [ahead None; SN 7 3 0 true 0 (Some 0%Z) 0] c.
  Proof using Hclamp.
    pose proof (C59_template_least_first clamp walled 0 stiff_p def_so 3 2 1 (fun _ _ => 0) (fun d _ => d) fifo_push (min_pop Rltb) (fun _ => false) 2 3 (7, 3, 0) (15, 3, 0) _
      Hclamp walled_ok (Z.le_refl 0) stiff_ok ltac:(lia) fifo_push_ok (min_pop_ok Rltb) (fun _ _ => eq_refl) min_least (C59_template_case _ _ _ _ 0 fifo_push_ok (min_pop_ok Rltb)) ltac:(discriminate)) as (s & c & H1 & H2).
    exists s, c. split; [exact H1|exact H2].
  Qed.
End Stiff.
Print Assumptions C59_dynamic_case.
