(** C60, C62, refuted: for every vehicle, option and open list a search on a map of at most
    32 x 32 cells drives through walls and ignores the requested heading. *)
From Coq Require Import Reals Lra.
From Flocq Require Import Core.Raux.
From Verif Require Import Base GridMap GridMapProofs GridSpec BresenhamProofs GeomR PropGeom PropLine MapManagers SteerModel PropSteer PropSteerKin PropSteerCost PropSteerGoal
  GenericProofs OpenPolicies VehicleSearch VehicleProofs VehicleAny VehicleModel VehicleInst VehicleGen PropVehicle PropVehicleEnd.
Local Open Scope R_scope.

(** Heuristics.hpp:192-201, HeuristicL2, and the total cost of Heuristics.hpp:27-65. *)
Definition l2 (res : R) (a b : snode) : R := res * hyp (sn_x a - sn_x b) (sn_y a - sn_y b).

Section Jump.
  Variable clamp : R -> R.
  Hypothesis Hclamp : AngleClamp_contract clamp.
  Variable m : gridmap.
  Hypothesis Hmap : map_ok m.
  Hypothesis Hw32 : (gm_w m <= 32)%Z.
  Variable skips : Z.
  Variable p : sparams.
  Variable so : sopts.
  Variable o : dopts.
  Hypothesis Hk : vehicle_ok p so.
  Variable push : (vkey -> R) -> vkey -> list vkey -> list vkey.
  Variable pop : (vkey -> R) -> list vkey -> option (vkey * list vkey).
  Hypothesis Hpush : push_ok push.
  Hypothesis Hpop : pop_ok pop.
  Hypothesis Hleast : least_first pop.
  Hypothesis Hrev : sp_rev p = false.
  Hypothesis Hfwd : do_fwd o = true.
  Hypothesis Hback : do_back o = false.
  Variable D : Z.
  Hypothesis HD : (1 <= D <= 31)%Z.
  Hypothesis HpD : sp_pixel p = IZR D.
  Hypothesis Hdist : 0 < do_dist o <= sp_step p.
  Hypothesis Hang : 0 <= do_ang o.
  Hypothesis Hdelta : Rabs (sp_delta p) * IZR (Z.of_nat (do_steps o)) < 2147483648.
  Variables x y : Z.
  Hypothesis Hx : (0 <= x /\ x + D < gm_w m)%Z.
  Hypothesis Hy : (0 <= y < gm_h m)%Z.
  Variable gth : R.
  Hypothesis Hs_free : ~ occupied m x y.
  Hypothesis Hg_free : ~ occupied m (x + D) y.

  Notation res := (sp_res p).
  Notation offer := (v_offer clamp m skips res (d_advance clamp p so)).
  Notation sf := (x, y, 15%Z, true).
  Notation sr := (x, y, 15%Z, false).
  Notation gf := ((x + D)%Z, y, 15%Z, true).
  Notation gr := ((x + D)%Z, y, 15%Z, false).
  Definition psf := at_corner x y 0 true.
  Definition psr := at_corner x y 0 false.
  (** The pose at the end of the straight move. *)
  Definition pg1 : snode := SN (IZR (x + D)) (IZR y) 0 true 0 (Some 0%Z) 1.

  Lemma step_eq : sp_pixel p * res = sp_step p.
  Proof using Hk. destruct Hk as [_ B _ _ _ _]. unfold sp_pixel. field. lra. Qed.
  Lemma steps_eq : IZR D * res = sp_step p.
  Proof using Hk HpD. rewrite <- HpD. exact step_eq. Qed.

  (** No move looks at the cells between its ends. *)
  Lemma no_line r n : inner m (Zfloor (sn_x r)) (Zfloor (sn_y r)) -> (0 <= Zfloor (sn_x r))%Z -> fits (sn_x n) (sn_y n) -> ~ occupied m (Ztrunc (sn_x r)) (Ztrunc (sn_y r)) ->
    v_line m skips (sn_x r) (sn_y r) (sn_x n) (sn_y n) = Some true.
  Proof using Hmap Hw32.
    intros Hi H0 Hf Ho. destruct Hmap as [Hwf Hsm Hw Hh]. apply line_unchecked; [assumption|apply (inner_fits m Hsm); assumption|assumption| |assumption].
    left. unfold cell_of. clear - Hw32 H0. lia.
  Qed.

  (** The straight move leads to the goal cell, at heading 0. *)
  Lemma straight_move prevs : d_advance clamp p so psf prevs 0 0 = AMove (sp_pixel p) pg1.
  Proof using Hclamp Hrev HpD Hk Hmap.
    unfold d_advance, psf, at_corner. cbv zeta. cbn [sn_depth sn_fwd sn_custom sn_steer sn_x sn_y sn_th].
    rewrite Hrev. change (0 <? 1)%Z with true. change (0 <? 3)%Z with true. cbn [xorb andb negb]. change (0 <? 0)%Z with false. change (3 <? 0)%Z with false. change (0 =? 3)%Z with false. cbn [andb].
    rewrite Rmult_0_r. change 0 with (IZR 0) at 1. rewrite cast_i32_IZR by (clear; lia).
    unfold steer_cmd. change ((0 =? 1) || (0 =? 4))%Z with false. change ((0 =? 2) || (0 =? 5))%Z with false. change (0 <? 0)%Z with false. cbv iota.
    assert (E : limit_steer (sp_max p) 0 = 0%Z).
    { destruct Hk as [_ _ _ F _ _]. unfold limit_steer. clear - F. destruct (sp_max p <? 0)%Z eqn:E; [lia|]. destruct (0 <? - sp_max p)%Z eqn:E2; lia. }
    rewrite E. unfold s_pose. cbv zeta. change (0 =? 0)%Z with true. cbv iota. cbn [fst snd]. unfold drive_dir. rewrite Hrev, HpD. unfold pg1.
    rewrite cos_0, sin_0, Rplus_0_r, (clamp_0 clamp Hclamp). f_equal. f_equal; [rewrite plus_IZR; ring|ring].
  Qed.
  Lemma straight_offer prevs : offer psf prevs (0, 0)%Z = Some (Some (gf, sp_step p, pg1)).
  Proof using Hclamp Hrev HpD Hk Hmap Hw32 HD Hx Hy Hs_free.
    unfold v_offer. cbn [fst snd]. rewrite straight_move. pose proof (pixel_pos p so Hk) as Pp.
    replace (Rltb (sp_pixel p) 0) with false by (symmetry; apply Rltb_false; lra).
    destruct (Hmap) as [Hwf Hsm Hw Hh].
    assert (Hi : inner m (Zfloor (sn_x pg1)) (Zfloor (sn_y pg1))).
    { unfold pg1. cbn [sn_x sn_y]. rewrite !Zfloor_IZR. unfold inner. clear - Hx Hy HD. lia. }
    rewrite (contains_ok m Hsm _ _ Hi). cbn [obind negb].
    rewrite no_line.
    - cbn [obind negb]. destruct (lookup_some clamp Hclamp m Hsm Hw Hh (sn_x pg1) (sn_y pg1) (sn_th pg1) (sn_fwd pg1) Hi) as (t & Et & _ & ->). cbn [obind].
      unfold pg1 in Et |- *. cbn [sn_x sn_y sn_th sn_fwd] in *. rewrite (slot_0 clamp Hclamp) in Et. injection Et as <-. rewrite !Zfloor_IZR, step_eq. reflexivity.
    - unfold psf, at_corner. cbn [sn_x sn_y]. rewrite !Zfloor_IZR. unfold inner. clear - Hx Hy HD. lia.
    - unfold psf, at_corner. cbn [sn_x sn_y]. rewrite !Zfloor_IZR. clear - Hx. lia.
    - apply (inner_fits m Hsm). assumption.
    - unfold psf, at_corner. cbn [sn_x sn_y]. rewrite !Ztrunc_IZR. assumption.
  Qed.

  Lemma arc_short s : (-90 < s < 90)%Z -> s <> 0%Z -> sp_la p / tan (rad s) * sin (sp_step p / (sp_la p / tan (rad s))) < sp_step p.
  Proof using Hk.
    intros Hs Hn. destruct Hk as [A B C _ _ _]. pose proof (tan_steer s Hs) as HT. assert (N : tan (rad s) <> 0) by (intros N; apply HT in N; clear - N Hn; lia).
    set (r := sp_la p / tan (rad s)). assert (Nr : r <> 0). { unfold r. intros X. apply Rmult_integral in X. destruct X as [X|X]; [lra|]. exact (Rinv_neq_0_compat _ N X). }
    clearbody r. destruct (Rtotal_order r 0) as [L|[L|L]]; [|contradiction|].
    - assert (U : 0 < sp_step p / - r) by (apply Rdiv_lt_0_compat; lra). pose proof (sin_lt_x _ U) as Q.
      replace (sp_step p / r) with (- (sp_step p / - r)) by (field; assumption). rewrite sin_neg.
      assert (E : sp_step p = - r * (sp_step p / - r)) by (field; lra). rewrite E at 2. nra.
    - assert (U : 0 < sp_step p / r) by (apply Rdiv_lt_0_compat; lra). pose proof (sin_lt_x _ U) as Q.
      assert (E : sp_step p = r * (sp_step p / r)) by (field; lra). rewrite E at 2. nra.
  Qed.

  (** Every move from the start ends at the goal slot or left of the goal. *)
  Lemma turn_offer prevs i k : In (i, k) (d_moves o) -> offer psf prevs (i, k) = Some None \/
    exists (v : vkey) n, offer psf prevs (i, k) = Some (Some (v, sp_step p, n)) /\ (v = gf \/ (fst (fst (fst v)) < x + D)%Z) /\ snd v = true.
  Proof using Hclamp Hrev HpD Hk Hmap Hw32 HD Hx Hy Hs_free Hback Hdelta.
    intros Hm. destruct (d_moves_in o i k Hm) as (Hi0 & Hk0 & Hi3 & _). specialize (Hi3 Hback). destruct (Hmap) as [Hwf Hsm Hw Hh].
    assert (Hfar : forall c n, d_advance clamp p so psf prevs i k = AMove c n -> c = sp_pixel p /\ Rabs (sn_x n - IZR x) <= IZR D /\ Rabs (sn_y n - IZR y) <= IZR D /\ sn_fwd n = true /\
      ((sn_x n = IZR (x + D) /\ sn_y n = IZR y /\ sn_th n = 0) \/ sn_x n < IZR (x + D))).
    { intros c n Ha. pose proof Ha as Ha'. destruct Hk as [A B C F _ _]. apply d_advance_inv in Ha'.
      destruct Ha' as (cu & Ecu & _ & _ & Ef & _ & Hr). assert (Efw : sn_fwd n = true) by (rewrite Ef; apply Z.ltb_lt; assumption).
      destruct (C36_cost_dynamic clamp p so psf prevs i k c n C B ltac:(lra) F Ha) as (Ec & L & _). rewrite Efw in Ec, L.
      rewrite andb_false_r in Ec, L. fold (sp_pixel p) in Ec, L. rewrite dist_hyp in L. cbn [spos px py psf at_corner sn_x sn_y] in L. apply coord_le in L. rewrite HpD in L.
      split; [rewrite Ec; cbn [psf at_corner sn_fwd Bool.eqb]; ring|]. destruct L as [L1 L2]. split; [assumption|]. split; [assumption|]. split; [assumption|].
      destruct Hr as [(E3 & _)|(delta & s0 & _ & _ & Es & Ep & _)]; [exfalso; clear - E3 Hi3; lia|].
      pose proof (limit_range (sp_max p) s0 ltac:(clear - F; lia)) as Hlim. rewrite <- Es in Hlim. rewrite Efw in Ep. unfold s_pose, drive_dir in Ep. cbv zeta in Ep. rewrite Hrev in Ep.
      cbn [psf at_corner sn_x sn_y sn_th] in Ep. rewrite !Rmult_1_r in Ep. destruct (sn_steer n =? 0)%Z eqn:E0.
      - left. rewrite Rplus_0_r, (clamp_0 clamp Hclamp), cos_0, sin_0, HpD in Ep. injection Ep as E1 E2 E4. split; [rewrite E1, plus_IZR; ring|]. split; [rewrite E2; ring|assumption].
      - right. apply Z.eqb_neq in E0. injection Ep as E1 _ _. rewrite E1, plus_IZR, sin_0, Rplus_0_l, Rminus_0_r.
        pose proof (arc_short (sn_steer n) ltac:(clear - Hlim F; lia) E0) as Q. rewrite <- steps_eq in Q at 2.
        apply Rplus_lt_compat_l. apply (Rmult_lt_reg_r res); [assumption|]. eapply Rle_lt_trans; [|exact Q]. right. unfold Rdiv at 1. rewrite <- steps_eq. field. split; [|lra].
        intros X. pose proof (tan_steer (sn_steer n) ltac:(clear - Hlim F; lia)) as HT. apply HT in X. contradiction. }
    destruct (offer psf prevs (i, k)) as [[[[v c] n]|]|] eqn:Eo; [right|left; reflexivity|exfalso].
    - destruct (offer_inv clamp Hclamp m Hsm Hw Hh skips res (d_advance clamp p so) _ _ _ _ _ _ Eo) as (cost & Ea & -> & _ & _ & _ & t & Et & _ & ->). cbn [fst snd] in *.
      destruct (Hfar _ _ Ea) as (-> & _ & _ & Ef & Hend). rewrite step_eq. eexists _, n. split; [reflexivity|]. cbn [fst snd]. split; [|assumption].
      destruct Hend as [(E1 & E2 & E3)|E]; [left|right].
      + rewrite E1, E2, Ef, !Zfloor_IZR. rewrite E3, (slot_0 clamp Hclamp) in Et. injection Et as <-. reflexivity.
      + apply lt_IZR. eapply Rle_lt_trans; [apply Zfloor_lb|assumption].
    - pose proof HD as HD'. assert (Far : forall (z z' : R) (zz : Z), z = IZR zz -> (0 <= zz)%Z -> Rabs (z' - z) <= IZR D -> Zfloor z' <> (-32)%Z).
      { clear - HD. intros z z' zz -> H0 H E. apply Rabs_le_inv in H. pose proof (Zfloor_ub z') as U. rewrite E in U. assert (IZR D <= 31) by (apply IZR_le; lia). assert (0 <= IZR zz) by (apply IZR_le; lia). lra. }
      unfold v_offer in Eo. cbn [fst snd] in Eo. pose proof (d_defined clamp p so o prevs psf i k Hdelta ltac:(discriminate) Hm) as Hu.
      destruct (d_advance clamp p so psf prevs i k) as [| |c n] eqn:Ea; [discriminate|contradiction|]. destruct (Hfar _ _ eq_refl) as (-> & D1 & D2 & _).
      destruct (Rltb (sp_pixel p) 0); [discriminate|].
      assert (Hf : fits (sn_x n) (sn_y n)).
      { apply (near_fits m Hsm (IZR x) (IZR y)); [rewrite !Zfloor_IZR; unfold inner; clear - Hx Hy HD; lia| |]; (eapply Rle_trans; [eassumption|]; unfold far; apply IZR_le; clear - HD; lia). }
      destruct (v_contains m (sn_x n) (sn_y n)) as [[|]|] eqn:Ec; cbn [obind negb] in Eo; [|discriminate|].
      2:{ destruct Hf as [F1 F2]. apply (contains_some m (sn_x n) (sn_y n)); [clear - F1; lia|clear - F2; lia|assumption]. }
      rewrite no_line in Eo; [|unfold psf, at_corner; cbn [sn_x sn_y]; rewrite !Zfloor_IZR; unfold inner; clear - Hx Hy HD; lia|unfold psf, at_corner; cbn [sn_x sn_y]; rewrite !Zfloor_IZR; clear - Hx; lia|assumption|
        unfold psf, at_corner; cbn [sn_x sn_y]; rewrite !Ztrunc_IZR; assumption].
      cbn [obind negb] in Eo. apply contains_inv in Ec. pose proof (Far (IZR x) (sn_x n) x eq_refl ltac:(clear - Hx; lia) D1) as X1. pose proof (Far (IZR y) (sn_y n) y eq_refl ltac:(clear - Hy; lia) D2) as X2.
      assert (Hin : inner m (Zfloor (sn_x n)) (Zfloor (sn_y n))) by (unfold inner; clear - Ec X1 X2; lia).
      destruct (lookup_some clamp Hclamp m Hsm Hw Hh (sn_x n) (sn_y n) (sn_th n) (sn_fwd n) Hin) as (t & _ & _ & El). rewrite El in Eo. discriminate.
  Qed.

  (** ** The search *)
  Notation VI := (VI vkey snode).
  Notation vst := (vstate vkey snode).
  Notation inf := (v_info vkey snode).
  Notation opn := (v_open vkey snode).
  Notation goals := [gf; gr].
  Notation start := [sf; sr].
  Notation isg := (fun g r (_ : option snode) => Some (d_isGoal res (do_dist o) (do_ang o) g r)).
  Notation expand := (vexpand vkey snode (Z * Z) vkey_eqb 0 offer (l2 res) Rplus push goals).
  Notation process := (vprocess vkey snode vkey_eqb (l2 res) Rplus push goals).
  Notation close := (vclose vkey snode vkey_eqb (l2 res) goals).
  Notation total := (vtotal vkey snode Rplus).
  Notation reached := (vreached vkey snode isg).
  Notation loop := (vloop vkey snode (Z * Z) vkey_eqb (d_moves o) 0 offer (l2 res) Rplus isg push pop start goals (fun _ => false)).
  Notation back := (vback vkey snode vkey_eqb start).

  Lemma pos_step : 0 < sp_step p.
  Proof using Hk. apply Hk. Qed.
  Lemma moves_split : exists rest, d_moves o = (0, 0)%Z :: rest.
  Proof using Hfwd Hback. unfold d_moves. rewrite Hfwd, Hback. unfold v_moves. cbn [seq flat_map map app Z.to_nat Z.sub Z.add Z.opp Z.pos_sub Pos.to_nat]. eexists. reflexivity. Qed.

  Lemma expand_sr ms s : n_pay _ _ (inf s sr) = psr -> incl ms (d_moves o) -> expand sr ms s = Some s.
  Proof using Hback.
    intros Hp Hi. induction ms as [|[i k] ms IH]; [reflexivity|]. cbn [vexpand prevs]. rewrite Hp.
    assert (E : offer psr [] (i, k) = Some None).
    { assert (Hm : In (i, k) (d_moves o)) by (apply Hi; left; reflexivity). destruct (d_moves_in o i k Hm) as (_ & _ & H3 & _). specialize (H3 Hback).
      unfold v_offer. cbn [fst snd]. unfold d_advance. cbv zeta. unfold psr, at_corner. cbn [sn_depth sn_fwd]. change (0 <? 1)%Z with true.
      replace (i <? 3)%Z with true by (symmetry; apply Z.ltb_lt; assumption). reflexivity. }
    rewrite E. cbn [obind]. apply IH. intros z Hz. apply Hi. right. assumption.
  Qed.

  (** The nodes of start and goal are four different ones. *)
  Lemma ne_sg : forall a b : bool, (x, y, 15%Z, a) <> ((x + D)%Z, y, 15%Z, b).
  Proof using HD. intros a b E. assert (x = x + D)%Z by congruence. clear - H HD. lia. Qed.

  Lemma push_nodup f v l : NoDup l -> ~ In v l -> NoDup (push f v l).
  Proof using Hpush.
    intros Hn Hv. destruct (Hpush f v l) as [Hl Hi]. apply (@NoDup_incl_NoDup _ (v :: l)); [constructor; assumption|assumption|]. intros w Hw. apply Hi. destruct Hw as [<-|Hw]; [left; reflexivity|right; assumption].
  Qed.
  Lemma pop_nodup f l v r : NoDup l -> pop f l = Some (v, r) -> NoDup (v :: r) /\ (forall w, In w l <-> w = v \/ In w r) /\ (forall w, In w l -> f v <= f w).
  Proof using Hpop Hleast.
    intros Hn E. pose proof (Hpop f l) as H. rewrite E in H. destruct H as (Hv & Hl & Hi & Hc). split; [|split].
    - apply (@NoDup_incl_NoDup _ l); [assumption|cbn [length]; clear - Hl; lia|]. intros w Hw. destruct (Hc w Hw) as [->|X]; [left; reflexivity|right; assumption].
    - intros w. split; [apply Hc|]. intros [->|X]; [assumption|apply Hi; assumption].
    - apply (Hleast f l v r E).
  Qed.

  (** Between the start of the expansion of the forward start node and the end. *)
  Record mid (cr : bool) (s : vst) : Prop := {
    md_sf : exists h, inf s sf = VI (Some 0) h None false true psf;
    md_sr : exists h, inf s sr = VI (Some 0) h None (negb cr) cr psr /\ (cr = false -> h = 0);
    md_gf : inf s gf = VI (Some (sp_step p)) 0 (Some sf) true false pg1;
    md_other : forall w, w <> sf -> w <> sr -> w <> gf ->
      (exists q, inf s w = VI None 0 None false false q /\ (w <> gr -> q = v_node0 w)) \/ (exists h q, inf s w = VI (Some (sp_step p)) h (Some sf) true false q /\ 0 < h);
    md_open : forall w, In w (opn s) -> w = sf \/ (cr = false /\ w = sr) \/ w = gf \/ (w <> sf /\ w <> sr /\ w <> gf /\ exists h q, inf s w = VI (Some (sp_step p)) h (Some sf) true false q /\ 0 < h);
    md_gf_open : In gf (opn s);
    md_sr_open : cr = false -> In sr (opn s);
    md_sf_closed : ~ In sf (opn s);
    md_gr : n_pay _ _ (inf s gr) = at_corner (x + D) y gth false;
    md_nodup : NoDup (opn s) }.

  Lemma process_turn cr s (v : vkey) n : mid cr s -> (v = gf \/ (fst (fst (fst v)) < x + D)%Z) -> snd v = true -> exists s', process sf s (v, sp_step p, n) = Some s' /\ mid cr s'.
  Proof using Hk HD Hpush.
    intros Hm Hv Hf. pose proof pos_step as Ps. destruct (md_sf _ _ Hm) as (h0 & E0).
    assert (Ed : vdist vkey snode (inf s) sf + sp_step p = sp_step p) by (unfold vdist; rewrite E0; cbn [n_dist]; ring).
    unfold vprocess. cbv zeta. rewrite !Ed.
    destruct (vkey_eqb_spec v sf) as [->|N1].
    - rewrite E0. cbn [n_dist n_closed n_open]. replace (Rltb (sp_step p) 0) with false by (symmetry; apply Rltb_false; lra). cbn [negb andb]. eauto.
    - destruct (vkey_eqb_spec v gf) as [->|N2].
      + rewrite (md_gf _ _ Hm). cbn [n_dist n_closed n_open]. replace (Rltb (sp_step p) (sp_step p)) with false by (symmetry; apply Rltb_false; lra). cbn [negb andb orb]. eauto.
      + assert (N3 : v <> sr) by (intros ->; discriminate). assert (N4 : v <> gr) by (intros ->; discriminate).
        destruct (md_other _ _ Hm v N1 N3 N2) as [(q & Ev & Hq)|(h & q & Ev & Hh)].
        2:{ rewrite Ev. cbn [n_dist n_closed n_open]. replace (Rltb (sp_step p) (sp_step p)) with false by (symmetry; apply Rltb_false; lra). cbn [negb andb orb]. eauto. }
        rewrite Ev. cbn [n_dist n_closed n_open n_pay]. cbn [negb andb orb]. eexists. split; [reflexivity|]. specialize (Hq N4). subst q.
        assert (Hh : 0 < new_h vkey snode (l2 res) goals (inf s) v).
        { unfold new_h. rewrite Ev, (md_gf _ _ Hm). cbn [n_pay]. unfold l2. apply Rmult_lt_0_compat; [apply Hk|]. destruct v as [[[vx vy] vt] vf]. cbn [v_node0 pg1 sn_x sn_y].
          destruct Hv as [Hv|Hv]; [contradiction|]. cbn [fst] in Hv. assert (L : IZR vx - IZR (x + D) < 0) by (apply IZR_lt in Hv; lra).
          pose proof (hyp_sq (IZR vx - IZR (x + D)) (IZR vy - IZR y)) as Q. pose proof (hyp_nonneg (IZR vx - IZR (x + D)) (IZR vy - IZR y)) as Q2.
          destruct Q2 as [Q2|Q2]; [assumption|]. exfalso. rewrite <- Q2 in Q. clear - Q L. set (a := IZR vx - IZR (x + D)) in *. set (b := IZR vy - IZR y) in *. clearbody a b. pose proof (Rle_0_sqr b) as B. unfold Rsqr in B. assert (0 < a * a) by nra. lra. }
        set (h := new_h _ _ _ _ _ _) in *. clearbody h.
        assert (Same : forall w, w <> v -> forall a b, vset vkey snode vkey_eqb (vset vkey snode vkey_eqb (inf s) v a) v b w = inf s w).
        { intros w Hw a b. rewrite !(vset_other vkey_eqb vkey_eqb_spec) by assumption. reflexivity. }
        constructor; cbn [v_info v_open].
        * rewrite Same by congruence. exists h0. assumption.
        * rewrite Same by congruence. apply (md_sr _ _ Hm).
        * rewrite Same by congruence. apply (md_gf _ _ Hm).
        * intros w W1 W2 W3. destruct (vkey_eqb_spec w v) as [->|Nw]; [right|rewrite Same by assumption; apply (md_other _ _ Hm); assumption].
          rewrite (vset_same vkey_eqb vkey_eqb_spec). eauto.
        * intros w Hw. apply Hpush in Hw. destruct Hw as [->|Hw].
          -- right. right. right. repeat (split; [assumption|]). rewrite (vset_same vkey_eqb vkey_eqb_spec). eauto.
          -- destruct (vkey_eqb_spec w v) as [->|Nw]; [right; right; right; repeat (split; [assumption|]); rewrite (vset_same vkey_eqb vkey_eqb_spec); eauto|].
             rewrite Same by assumption. apply (md_open _ _ Hm); assumption.
        * apply Hpush. right. apply (md_gf_open _ _ Hm).
        * intros X. apply Hpush. right. apply (md_sr_open _ _ Hm X).
        * intros X. apply Hpush in X. destruct X as [X|X]; [congruence|]. exact (md_sf_closed _ _ Hm X).
        * rewrite Same by congruence. apply (md_gr _ _ Hm).
        * apply push_nodup; [apply (md_nodup _ _ Hm)|]. intros X. destruct (md_open _ _ Hm v X) as [Y|[[_ Y]|[Y|(_ & _ & _ & h1 & q & Y & _)]]]; [contradiction|contradiction|contradiction|]. rewrite Ev in Y. discriminate.
  Qed.
  Lemma expand_rest cr ms : forall s, mid cr s -> incl ms (d_moves o) -> exists s', expand sf ms s = Some s' /\ mid cr s'.
  Proof using Hclamp Hrev HpD Hk Hmap Hw32 HD Hx Hy Hs_free Hback Hdelta Hpush.
    induction ms as [|[i k] ms IH]; intros s Hm Hi; [cbn [vexpand]; eauto|]. cbn [vexpand prevs]. destruct (md_sf _ _ Hm) as (h0 & E0). rewrite E0. cbn [n_pay].
    assert (Hi' : incl ms (d_moves o)) by (intros z Hz; apply Hi; right; assumption).
    destruct (turn_offer [] i k (Hi _ (or_introl eq_refl))) as [E|(v & n & E & Hv & Hf)]; rewrite E; cbn [obind].
    - apply IH; assumption.
    - destruct (process_turn cr s v n Hm Hv Hf) as (s' & Es & Hm'). rewrite Es. cbn [obind]. apply IH; assumption.
  Qed.

  (** Before the expansion of the forward start node. *)
  Record pre (cr : bool) (s : vst) : Prop := {
    pr_sf : inf s sf = VI (Some 0) 0 None true false psf;
    pr_sr : exists h, inf s sr = VI (Some 0) h None (negb cr) cr psr /\ (cr = false -> h = 0);
    pr_gf : inf s gf = VI None 0 None false false (at_corner (x + D) y gth true);
    pr_gr : inf s gr = VI None 0 None false false (at_corner (x + D) y gth false);
    pr_other : forall w, w <> sf -> w <> sr -> w <> gf -> w <> gr -> inf s w = VI None 0 None false false (v_node0 w);
    pr_open : forall w, In w (opn s) <-> w = sf \/ (cr = false /\ w = sr);
    pr_nodup : NoDup (opn s) }.

  Lemma far_goal g : sn_x g = IZR (x + D) -> sn_y g = IZR y -> forall f, d_isGoal res (do_dist o) (do_ang o) g (at_corner x y 0 f) = false.
  Proof using Hk HpD HD Hdist.
    intros E1 E2 f. unfold d_isGoal. destruct (Rlt_dec _ _); [reflexivity|]. apply Rltb_false. cbn [at_corner sn_x sn_y]. rewrite E1, E2.
    replace (IZR (x + D) - IZR x) with (IZR D) by (rewrite plus_IZR; ring). replace (IZR y - IZR y) with 0 by ring.
    assert (P : 0 <= IZR D) by (apply IZR_le; clear - HD; lia).
    assert (E : hyp (IZR D) 0 = IZR D). { unfold hyp. replace (IZR D * IZR D + 0 * 0) with (IZR D * IZR D) by ring. apply sqrt_square. assumption. }
    rewrite E, steps_eq. lra.
  Qed.
  Lemma close_other s v l w : w <> v -> inf (close s v l) w = inf s w.
  Proof using Type. intros H. unfold vclose. cbn [v_info]. apply (vset_other vkey_eqb vkey_eqb_spec). assumption. Qed.
  Lemma close_same s v l : exists h, inf (close s v l) v = VI (n_dist _ _ (inf s v)) h (n_prev _ _ (inf s v)) false true (n_pay _ _ (inf s v)).
  Proof using Type. unfold vclose. cbn [v_info]. eexists. apply (vset_same vkey_eqb vkey_eqb_spec). Qed.
  Lemma close_pay s v l w : n_pay _ _ (inf (close s v l) w) = n_pay _ _ (inf s w).
  Proof using Type. destruct (vkey_eqb_spec w v) as [->|N]; [destruct (close_same s v l) as (h & ->); reflexivity|rewrite close_other by assumption; reflexivity]. Qed.

  Lemma not_goal f cur b : n_pay _ _ (f cur) = at_corner x y 0 b -> sn_x (n_pay _ _ (f gf)) = IZR (x + D) -> sn_y (n_pay _ _ (f gf)) = IZR y ->
    sn_x (n_pay _ _ (f gr)) = IZR (x + D) -> sn_y (n_pay _ _ (f gr)) = IZR y -> reached f cur goals = Some false.
  Proof using Hk HpD HD Hdist. intros E A1 A2 A3 A4. cbn [vreached]. rewrite E. rewrite !far_goal by assumption. reflexivity. Qed.

  (** The reverse start node leads nowhere. *)
  Lemma close_sr_pre s l : pre false s -> NoDup (sr :: l) -> (forall w, In w (opn s) <-> w = sr \/ In w l) -> pre true (close s sr l).
  Proof using HD.
    intros H Hn Hl. pose proof ne_sg as NE. destruct (pr_sr _ _ H) as (h0 & Es & _). destruct (close_same s sr l) as (h & Ec). rewrite Es in Ec. cbn [n_dist n_prev n_pay] in Ec.
    constructor.
    - rewrite close_other by congruence. apply (pr_sf _ _ H).
    - exists h. split; [exact Ec|discriminate].
    - rewrite close_other by (intros E; symmetry in E; revert E; apply NE). apply (pr_gf _ _ H).
    - rewrite close_other by (intros E; symmetry in E; revert E; apply NE). apply (pr_gr _ _ H).
    - intros w W1 W2 W3 W4. rewrite close_other by assumption. apply (pr_other _ _ H); assumption.
    - cbn [vclose v_open]. inversion Hn as [|? ? N1 N2]; subst. intros w. split.
      + intros Hw. assert (X : In w (opn s)) by (apply Hl; right; assumption). apply (pr_open _ _ H) in X. destruct X as [X|[_ X]]; [left; assumption|]. subst w. contradiction.
      + intros [->|[X _]]; [|discriminate]. assert (X : In sf (opn s)) by (apply (pr_open _ _ H); left; reflexivity). apply Hl in X. destruct X as [X|X]; [discriminate|assumption].
    - cbn [vclose v_open]. inversion Hn; assumption.
  Qed.
  Lemma close_sr_mid s l : mid false s -> NoDup (sr :: l) -> (forall w, In w (opn s) <-> w = sr \/ In w l) -> mid true (close s sr l).
  Proof using HD.
    intros H Hn Hl. pose proof ne_sg as NE. destruct (md_sr _ _ H) as (h0 & Es & _). destruct (close_same s sr l) as (h & Ec). rewrite Es in Ec. cbn [n_dist n_prev n_pay] in Ec.
    inversion Hn as [|? ? N1 N2]; subst. constructor.
    - rewrite close_other by congruence. apply (md_sf _ _ H).
    - exists h. split; [exact Ec|discriminate].
    - rewrite close_other by (intros E; symmetry in E; revert E; apply NE). apply (md_gf _ _ H).
    - intros w W1 W2 W3. rewrite close_other by assumption. apply (md_other _ _ H); assumption.
    - cbn [vclose v_open]. intros w Hw. assert (X : In w (opn s)) by (apply Hl; right; assumption). apply (md_open _ _ H) in X.
      destruct X as [X|[[_ X]|[X|X]]]; [auto|subst w; contradiction|auto|].
      assert (W2 : w <> sr) by (apply X). rewrite close_other by assumption. auto.
    - cbn [vclose v_open]. pose proof (md_gf_open _ _ H) as X. apply Hl in X. destruct X as [X|X]; [exfalso; symmetry in X; revert X; apply NE|assumption].
    - discriminate.
    - cbn [vclose v_open]. intros X. apply (md_sf_closed _ _ H). apply Hl. right. assumption.
    - rewrite close_pay. apply (md_gr _ _ H).
    - assumption.
  Qed.

  (** The expansion of the forward start node. *)
  Lemma expand_sf cr s l : pre cr s -> NoDup (sf :: l) -> (forall w, In w (opn s) <-> w = sf \/ In w l) -> exists s', expand sf (d_moves o) (close s sf l) = Some s' /\ mid cr s'.
  Proof using Hclamp Hrev HpD Hk Hmap Hw32 HD Hx Hy Hs_free Hfwd Hback Hdelta Hpush.
    intros H Hn Hl. pose proof ne_sg as NE. pose proof pos_step as Ps. inversion Hn as [|? ? N1 N2]; subst. set (s1 := close s sf l).
    destruct (close_same s sf l) as (h & Ec). fold s1 in Ec. rewrite (pr_sf _ _ H) in Ec. cbn [n_dist n_prev n_pay] in Ec.
    assert (Oth : forall w, w <> sf -> inf s1 w = inf s w) by (intros w Hw; apply close_other; assumption).
    destruct moves_split as (rest & Em). rewrite Em. cbn [vexpand prevs]. rewrite Ec. cbn [n_pay]. rewrite straight_offer. cbn [obind].
    assert (Ngf : gf <> sf) by (intros E; symmetry in E; revert E; apply NE).
    assert (Ep : exists s2, process sf s1 (gf, sp_step p, pg1) = Some s2 /\ mid cr s2).
    { assert (Ed : vdist vkey snode (inf s1) sf + sp_step p = sp_step p) by (unfold vdist; rewrite Ec; cbn [n_dist]; ring).
      unfold vprocess. cbv zeta. rewrite !Ed. rewrite (Oth gf Ngf), (pr_gf _ _ H). cbn [n_dist n_closed n_open n_pay]. cbn [negb andb orb].
      destruct (vkey_eqb_spec gf sf) as [X|_]; [contradiction|].
      assert (Hh : new_h vkey snode (l2 res) goals (inf s1) gf = 0).
      { unfold new_h, l2. rewrite !Rminus_diag_eq by reflexivity. unfold hyp. rewrite Rmult_0_l, Rplus_0_l, sqrt_0. ring. }
      rewrite Hh. eexists. split; [reflexivity|].
      assert (Same : forall w, w <> gf -> forall a b, vset vkey snode vkey_eqb (vset vkey snode vkey_eqb (inf s1) gf a) gf b w = inf s1 w).
      { intros w Hw a b. rewrite !(vset_other vkey_eqb vkey_eqb_spec) by assumption. reflexivity. }
      assert (Nsr : sr <> gf) by apply NE. assert (Hgl : ~ In gf l).
      { intros X. assert (Y : In gf (opn s)) by (apply Hl; right; assumption). apply (pr_open _ _ H) in Y. destruct Y as [Y|[_ Y]]; [contradiction|symmetry in Y; contradiction]. }
      constructor; cbn [v_info v_open].
      - rewrite Same by congruence. exists h. assumption.
      - rewrite Same by assumption. rewrite Oth by congruence. apply (pr_sr _ _ H).
      - apply (vset_same vkey_eqb vkey_eqb_spec).
      - intros w W1 W2 W3. left. rewrite Same by assumption. rewrite Oth by assumption. destruct (vkey_eqb_spec w gr) as [->|N].
        + rewrite (pr_gr _ _ H). eexists. split; [reflexivity|]. congruence.
        + rewrite (pr_other _ _ H) by assumption. eexists. split; reflexivity.
      - intros w Hw. apply Hpush in Hw. destruct Hw as [->|Hw]; [auto|]. change (In w l) in Hw. assert (X : In w (opn s)) by (apply Hl; right; assumption).
        apply (pr_open _ _ H) in X. destruct X as [->|[X1 X2]]; [contradiction|auto].
      - apply Hpush. left. reflexivity.
      - intros Ecr. apply Hpush. right. change (In sr l). assert (X : In sr (opn s)) by (apply (pr_open _ _ H); right; auto). apply Hl in X. destruct X as [X|X]; [congruence|assumption].
      - intros X. apply Hpush in X. destruct X as [X|X]; [congruence|]. contradiction.
      - rewrite Same by congruence. rewrite Oth by (intros E; symmetry in E; revert E; apply NE). rewrite (pr_gr _ _ H). reflexivity.
      - apply push_nodup; assumption. }
    destruct Ep as (s2 & Ep & Hm). unfold vkey in Ep |- *. rewrite Ep. cbn [obind]. apply (expand_rest cr rest s2 Hm). intros z Hz. rewrite Em. right. assumption.
  Qed.

  Notation answer := (VPath vkey snode [(sf, psf); (gf, pg1)]).
  Lemma total_val s w d h pv a b q : inf s w = VI (Some d) h pv a b q -> total (inf s) w = d + h.
  Proof using Type. intros E. unfold vtotal, vdist. rewrite E. reflexivity. Qed.
  Lemma pop_some s v : In v (opn s) -> NoDup (opn s) -> exists cur l, opn s <> [] /\ pop (total (inf s)) (opn s) = Some (cur, l) /\
    NoDup (cur :: l) /\ (forall w, In w (opn s) <-> w = cur \/ In w l) /\ In cur (opn s) /\ total (inf s) cur <= total (inf s) v.
  Proof using Hpop Hleast.
    intros Hv Hn. destruct (pop (total (inf s)) (opn s)) as [[cur l]|] eqn:E.
    - destruct (pop_nodup _ _ _ _ Hn E) as (A & B & C). exists cur, l. split; [intros X; rewrite X in Hv; exact Hv|]. split; [reflexivity|]. split; [assumption|]. split; [assumption|].
      split; [apply B; left; reflexivity|]. apply C. assumption.
    - pose proof (Hpop (total (inf s)) (opn s)) as H. rewrite E in H. exfalso. rewrite H in Hv. exact Hv.
  Qed.
  Lemma loop_step bf fuel n s cur l : opn s <> [] -> pop (total (inf s)) (opn s) = Some (cur, l) ->
    loop bf (S fuel) n s =
      match reached (inf (close s cur l)) cur goals with
      | None => (VUndef _ _, close s cur l)
      | Some true => match back bf (inf (close s cur l)) cur [] [] with None => (VUndef _ _, close s cur l) | Some p => (VPath _ _ (vcopy _ _ (inf (close s cur l)) p), close s cur l) end
      | Some false => match expand cur (d_moves o) (close s cur l) with None => (VUndef _ _, close s cur l) | Some s2 => loop bf fuel (S n) s2 end
      end.
  Proof using Type. intros Hne E. cbn [vloop]. destruct (opn s) as [|a b] eqn:Eo; [congruence|]. rewrite <- Eo in *. rewrite E. reflexivity. Qed.

  Lemma loop_mid_true bf fuel n s : mid true s -> (2 <= bf)%nat -> (1 <= fuel)%nat -> fst (loop bf fuel n s) = answer.
  Proof using Hk HD Hpop Hleast Hdist Hang.
    intros H Hbf Hfu. pose proof ne_sg as NE. pose proof pos_step as Ps. destruct fuel as [|fuel]; [exfalso; clear - Hfu; lia|].
    destruct (pop_some s gf (md_gf_open _ _ H) (md_nodup _ _ H)) as (cur & l & Hne & Ep & Hn & Hl & Hin & Hle).
    assert (cur = gf) as ->.
    { destruct (md_open _ _ H cur Hin) as [X|[[X _]|[X|(_ & _ & _ & h & q & X & Hh)]]]; [subst cur; exfalso; exact (md_sf_closed _ _ H Hin)|discriminate|assumption|].
      exfalso. rewrite (total_val _ _ _ _ _ _ _ _ X), (total_val _ _ _ _ _ _ _ _ (md_gf _ _ H)) in Hle. lra. }
    rewrite (loop_step bf fuel n s gf l Hne Ep). destruct (close_same s gf l) as (h & Ec). rewrite (md_gf _ _ H) in Ec. cbn [n_dist n_prev n_pay] in Ec.
    assert (Er : reached (inf (close s gf l)) gf goals = Some true).
    { cbn [vreached]. rewrite Ec. cbn [n_pay obind]. assert (E : d_isGoal res (do_dist o) (do_ang o) pg1 pg1 = true); [|rewrite E; reflexivity].
      unfold d_isGoal. rewrite !Rminus_diag_eq by reflexivity. rewrite sin_0, cos_0. assert (A0 : atan2 0 1 = 0). { unfold atan2. destruct (Rlt_dec 0 1) as [_|N]; [|lra]. replace (0 / 1) with 0 by lra. apply atan_0. }
      rewrite A0, Rabs_R0. destruct (Rlt_dec (do_ang o) 0) as [L|_]; [exfalso; lra|]. apply Rltb_spec. unfold hyp. rewrite Rmult_0_l, Rplus_0_l, sqrt_0. lra. }
    rewrite Er. destruct bf as [|[|bf]]; [exfalso; clear - Hbf; lia|exfalso; clear - Hbf; lia|].
    destruct (md_sf _ _ H) as (h0 & E0). assert (Esf : inf (close s gf l) sf = VI (Some 0) h0 None false true psf) by (rewrite close_other by apply NE; assumption).
    assert (Eb : back (S (S bf)) (inf (close s gf l)) gf [] [] = Some [sf; gf]).
    { cbn [vback vmem existsb]. destruct (vkey_eqb_spec gf sf) as [X|_]; [exfalso; symmetry in X; revert X; apply NE|]. destruct (vkey_eqb_spec gf sr) as [X|_]; [exfalso; symmetry in X; revert X; apply NE|].
      cbn [orb]. rewrite Ec. cbn [n_prev]. rewrite Esf. cbn [n_prev]. destruct (vkey_eqb_spec sf sf) as [_|X]; [|congruence]. reflexivity. }
    rewrite Eb. cbn [fst vcopy map]. rewrite Ec, Esf. reflexivity.
  Qed.
  Lemma loop_mid_false bf fuel n s : mid false s -> (2 <= bf)%nat -> (2 <= fuel)%nat -> fst (loop bf fuel n s) = answer.
  Proof using Hk HD Hpop Hleast Hdist Hang HpD Hback.
    intros H Hbf Hfu. pose proof ne_sg as NE. pose proof pos_step as Ps. destruct fuel as [|fuel]; [exfalso; clear - Hfu; lia|].
    destruct (pop_some s sr (md_sr_open _ _ H eq_refl) (md_nodup _ _ H)) as (cur & l & Hne & Ep & Hn & Hl & Hin & Hle).
    destruct (md_sr _ _ H) as (h0 & E0 & Z0). specialize (Z0 eq_refl). subst h0.
    assert (cur = sr) as ->.
    { rewrite (total_val _ _ _ _ _ _ _ _ E0) in Hle. destruct (md_open _ _ H cur Hin) as [X|[[_ X]|[X|(_ & _ & _ & h & q & X & Hh)]]]; [subst cur; exfalso; exact (md_sf_closed _ _ H Hin)|assumption| |].
      - exfalso. subst cur. rewrite (total_val _ _ _ _ _ _ _ _ (md_gf _ _ H)) in Hle. lra.
      - exfalso. rewrite (total_val _ _ _ _ _ _ _ _ X) in Hle. lra. }
    rewrite (loop_step bf fuel n s sr l Hne Ep). rewrite (not_goal _ _ false).
    - rewrite expand_sr; [|rewrite close_pay, E0; reflexivity|apply incl_refl]. apply loop_mid_true; [|assumption|clear - Hfu; lia]. apply close_sr_mid; assumption.
    - rewrite close_pay, E0. reflexivity.
    - rewrite close_pay, (md_gf _ _ H). reflexivity.
    - rewrite close_pay, (md_gf _ _ H). reflexivity.
    - rewrite close_pay, (md_gr _ _ H). reflexivity.
    - rewrite close_pay, (md_gr _ _ H). reflexivity.
  Qed.
  Lemma pre_far cr s cur l b : pre cr s -> n_pay _ _ (inf s cur) = at_corner x y 0 b -> reached (inf (close s cur l)) cur goals = Some false.
  Proof using Hk HpD HD Hdist.
    intros H E. apply (not_goal _ _ b); rewrite close_pay; [assumption| | | |]; rewrite ?(pr_gf _ _ H), ?(pr_gr _ _ H); reflexivity.
  Qed.
  Lemma loop_pre_true bf fuel n s : pre true s -> (2 <= bf)%nat -> (2 <= fuel)%nat -> fst (loop bf fuel n s) = answer.
  Proof using Hclamp Hrev HpD Hk Hmap Hw32 HD Hx Hy Hs_free Hfwd Hback Hdelta Hpush Hpop Hleast Hdist Hang.
    intros H Hbf Hfu. destruct fuel as [|fuel]; [exfalso; clear - Hfu; lia|].
    destruct (pop_some s sf) as (cur & l & Hne & Ep & Hn & Hl & Hin & _); [apply (pr_open _ _ H); left; reflexivity|apply (pr_nodup _ _ H)|].
    assert (cur = sf) as -> by (apply (pr_open _ _ H) in Hin; destruct Hin as [X|[X _]]; [assumption|discriminate]).
    rewrite (loop_step bf fuel n s sf l Hne Ep). rewrite (pre_far true s sf l true H) by (rewrite (pr_sf _ _ H); reflexivity).
    destruct (expand_sf true s l H Hn Hl) as (s' & -> & Hm). apply loop_mid_true; [assumption|assumption|clear - Hfu; lia].
  Qed.
  Lemma loop_pre_false bf fuel n s : pre false s -> (2 <= bf)%nat -> (3 <= fuel)%nat -> fst (loop bf fuel n s) = answer.
  Proof using Hclamp Hrev HpD Hk Hmap Hw32 HD Hx Hy Hs_free Hfwd Hback Hdelta Hpush Hpop Hleast Hdist Hang.
    intros H Hbf Hfu. destruct fuel as [|fuel]; [exfalso; clear - Hfu; lia|].
    destruct (pop_some s sf) as (cur & l & Hne & Ep & Hn & Hl & Hin & _); [apply (pr_open _ _ H); left; reflexivity|apply (pr_nodup _ _ H)|].
    rewrite (loop_step bf fuel n s cur l Hne Ep). apply (pr_open _ _ H) in Hin. destruct Hin as [->|[_ ->]].
    - rewrite (pre_far false s sf l true H) by (rewrite (pr_sf _ _ H); reflexivity).
      destruct (expand_sf false s l H Hn Hl) as (s' & -> & Hm). apply loop_mid_false; [assumption|assumption|clear - Hfu; lia].
    - destruct (pr_sr _ _ H) as (h0 & E0 & _). rewrite (pre_far false s sr l false H) by (rewrite E0; reflexivity).
      rewrite expand_sr; [|rewrite close_pay, E0; reflexivity|apply incl_refl]. apply loop_pre_true; [|assumption|clear - Hfu; lia]. apply close_sr_pre; assumption.
  Qed.

  Theorem jump bf fuel : (2 <= bf)%nat -> (3 <= fuel)%nat ->
    d_find clamp m skips p so o (l2 res) Rplus push pop (fun _ => false) bf fuel (IZR x, IZR y, 0) (IZR (x + D), IZR y, gth) = answer.
  Proof using Hclamp Hrev HpD Hk Hmap Hw32 HD Hx Hy Hs_free Hg_free Hfwd Hback Hdelta Hpush Hpop Hleast Hdist Hang.
    intros Hbf Hfu. pose proof ne_sg as NE. unfold d_find, v_find. rewrite Hrev. cbv iota. destruct (Hmap) as [Hwf Hsm Hw Hh].
    assert (Hi1 : inner m (Zfloor (IZR x)) (Zfloor (IZR y))) by (rewrite !Zfloor_IZR; unfold inner; clear - Hx Hy HD; lia).
    assert (Hi2 : inner m (Zfloor (IZR (x + D))) (Zfloor (IZR y))) by (rewrite !Zfloor_IZR; unfold inner; clear - Hx Hy HD; lia).
    destruct (begin_ok clamp Hclamp m Hwf Hsm Hw Hh (IZR x) (IZR y) 0 (IZR (x + D)) (IZR y) gth Hi1 Hi2) as (os & og & pay & Eb & Ho1 & Ho2 & P1 & P2 & P3).
    rewrite !Zfloor_IZR in *. destruct os; [exfalso; apply Hs_free, Ho1; reflexivity|]. destruct og; [exfalso; apply Hg_free, Ho2; reflexivity|].
    unfold keys_of in *. rewrite Eb. replace ((x =? x + D)%Z) with false in P1 by (symmetry; apply Z.eqb_neq; clear - HD; lia). cbn [andb] in P1. specialize (P1 eq_refl). specialize (P2 eq_refl).
    unfold vrun. set (s0 := vstarts vkey snode vkey_eqb Rplus push start _).
    assert (Hpre : pre false s0).
    { assert (Nfr : sr <> sf) by congruence.
      assert (Es : s0 = VS vkey snode (vset vkey snode vkey_eqb (vset vkey snode vkey_eqb (vfresh vkey snode pay) sf (VI (Some 0) 0 None true false (pay sf))) sr (VI (Some 0) 0 None true false (pay sr)))
        (opn s0)).
      { unfold s0. cbn [vstarts v_info v_open]. rewrite (vset_other vkey_eqb vkey_eqb_spec) by assumption. reflexivity. }
      assert (Eo : forall w, In w (opn s0) <-> w = sf \/ w = sr).
      { intros w. unfold s0. cbn [vstarts v_info v_open]. rewrite !(proj2 (Hpush _ _ _)). cbn [In]. clear. tauto. }
      assert (Eo2 : NoDup (opn s0)).
      { unfold s0. cbn [vstarts v_info v_open]. apply push_nodup; [apply push_nodup; [constructor|intros []]|]. intros X. apply Hpush in X. destruct X as [X|[]]. congruence. }
      clearbody s0. revert Es. generalize (opn s0) Eo Eo2. intros ol Ho Hn ->. constructor; cbn [v_info v_open].
      - rewrite (vset_other vkey_eqb vkey_eqb_spec) by congruence. rewrite (vset_same vkey_eqb vkey_eqb_spec). rewrite P1. reflexivity.
      - exists 0. rewrite (vset_same vkey_eqb vkey_eqb_spec), P1. auto.
      - rewrite !(vset_other vkey_eqb vkey_eqb_spec) by (intros E; symmetry in E; revert E; apply NE). unfold vfresh. rewrite P2. reflexivity.
      - rewrite !(vset_other vkey_eqb vkey_eqb_spec) by (intros E; symmetry in E; revert E; apply NE). unfold vfresh. rewrite P2. reflexivity.
      - intros w W1 W2 W3 W4. rewrite !(vset_other vkey_eqb vkey_eqb_spec) by assumption. unfold vfresh. rewrite P3; [reflexivity| |]; intros [X|[X|[]]]; congruence.
      - intros w. rewrite Ho. clear. split; [intros [H|H]; auto|intros [H|[_ H]]; auto].
      - assumption. }
    pose proof (loop_pre_false bf fuel 0 s0 Hpre Hbf Hfu) as E. rewrite E. reflexivity.
  Qed.
End Jump.
