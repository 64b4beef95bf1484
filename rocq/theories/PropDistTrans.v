(** C33 (obstacle distance heuristic), C34 (distance transformation planner). *)
From Coq Require Import Reals Lra NArith QArith.
From Flocq Require Import BinarySingleNaN.
From Verif Require Import Base GridMap GridMapProofs PathSpec DirectSpec DirectSearch PropGeneric MapManagers GenericFloat PropHeur
  DistTransModel DistTransProofs DistTransExact DistTransFloat DistTransPath.
Open Scope Z_scope.

(** ** Specification vocabulary *)

(** Cells the table takes paths through: not occupied, not on the border of the map. *)
Definition passable (m : gridmap) (c : cell) : Prop := inside_border m c /\ isOccupied m (fst c) (snd c) = Some false.

(** Values of the heuristic: a real number or +infinity ([None]). *)
Definition hval := option R.
Definition hmul (h : dnum) (res : hval) : hval :=
  match h, res with
  | Fin a b, Some r => Some (dval a b * r)%R
  | Infty, Some _ => None
  | _, _ => res
  end.

(** The heuristic of a GridMapManager (no padding), exact arithmetic. *)
Notation hol_table := (hol_setMap dnum d0 Big Infty dadd dlt d_inf d1 dsqrt2).
Notation hol := (hol_compute dnum d_max (Some 0%R) hmul).

Section C33.
  Variable m : gridmap.
  Hypothesis Hm : gm_wf m.
  Variable g : cell.
  Hypothesis Hg : cell_of (gm_w m) (gm_h m) (fst g) (snd g).

  Lemma hol_goal (C : Type) (zero maxv inf : C) pad occ : hol_init C zero maxv inf pad occ g (fst g + pad, snd g + pad) = zero.
  Proof. clear. unfold hol_init, tset. destruct (ceqb_spec (fst g + pad, snd g + pad) (fst g + pad, snd g + pad)); congruence. Qed.
  Lemma hol_other (C : Type) (zero maxv inf : C) pad occ c : c <> (fst g + pad, snd g + pad) ->
    hol_init C zero maxv inf pad occ g c = if occ (fst c) (snd c) then inf else maxv.
  Proof. clear. intros H. unfold hol_init, tset. destruct (ceqb_spec c (fst g + pad, snd g + pad)); congruence. Qed.
  Lemma hol_cases (C : Type) (zero maxv inf : C) pad occ c : c <> (fst g + pad, snd g + pad) ->
    hol_init C zero maxv inf pad occ g c = maxv \/ hol_init C zero maxv inf pad occ g c = inf.
  Proof. clear. intros H. rewrite hol_other by assumption. destruct (occ _ _); auto. Qed.

  Lemma occ_known c : cell_of (gm_w m) (gm_h m) (fst c) (snd c) -> exists b, isOccupied m (fst c) (snd c) = Some b /\ grid_occ m (fst c) (snd c) = b.
  Proof using Hm.
    clear Hg. intros Hc. unfold grid_occ. destruct (isOccupied m (fst c) (snd c)) as [b|] eqn:E; [exists b; destruct b; auto|].
    exfalso. unfold isOccupied in E. destruct (getValue_some m (fst c) (snd c) Hm Hc) as [v Ev]. rewrite Ev in E. discriminate.
  Qed.

  Lemma passable_usable (C : Type) (zero maxv inf : C) add lt is_inf horiz diag ok fin
      (A : dist_arith zero maxv inf add lt is_inf horiz diag ok fin) c : c <> g ->
    usable C is_inf (gm_w m + 2 * 0) (gm_h m + 2 * 0) (hol_init C zero maxv inf 0 (grid_occ m) g) c <-> passable m c.
  Proof using Hm.
    clear Hg. intros Hc. unfold usable, inner, passable, inside_border.
    assert (Hc' : c <> (fst g + 0, snd g + 0)) by (rewrite !Z.add_0_r; destruct g; exact Hc).
    rewrite hol_other by assumption. rewrite !Z.mul_0_r, !Z.add_0_r. split.
    - intros [H1 H2]. split; [assumption|]. destruct (occ_known c) as (b & E1 & E2); [unfold cell_of; lia|].
      rewrite E2 in H2. rewrite E1. destruct b; [|reflexivity]. rewrite (inf_is_inf _ _ _ _ _ _ _ _ _ _ _ A) in H2. discriminate.
    - intros [H1 H2]. split; [assumption|]. unfold grid_occ. rewrite H2. apply (max_not_inf _ _ _ _ _ _ _ _ _ _ _ A).
  Qed.

  Lemma goal_shift : (fst g + 0, snd g + 0) = g.
  Proof. clear. rewrite !Z.add_0_r. destruct g; reflexivity. Qed.

  Lemma grid_path_iff (f1 f2 : cell -> Prop) a b p : (forall c, c <> b -> f1 c <-> f2 c) -> grid_path f1 a b p <-> grid_path f2 a b p.
  Proof.
    clear. intros H. unfold grid_path. split; intros (H1 & H2 & H3); (split; [assumption|split; [assumption|]]); intros c Hc Hne; apply (H c Hne); auto.
  Qed.

  (** The table for any arithmetic. *)
  Lemma hol_any (C : Type) (zero maxv inf : C) add lt is_inf horiz diag ok fin
      (A : dist_arith zero maxv inf add lt is_inf horiz diag ok fin) fuel t :
    hol_setMap C zero maxv inf add lt is_inf horiz diag fuel 0 (gm_w m) (gm_h m) (grid_occ m) g = Some t ->
    t g = zero /\
    (forall c, c <> g -> ~ passable m c -> t c = if grid_occ m (fst c) (snd c) then inf else maxv) /\
    (forall c, c <> g -> passable m c ->
       (t c = maxv /\ forall p, ~ grid_path (passable m) c g p) \/
       (exists p, grid_path (passable m) c g p /\ t c = pcost zero add horiz diag p /\
                  forall q, grid_path (passable m) c g q -> lt (pcost zero add horiz diag q) (pcost zero add horiz diag p) = false)).
  Proof using Hm.
    clear Hg. intros E. unfold hol_setMap in E.
    pose proof (hol_goal C zero maxv inf 0 (grid_occ m)) as T0. rewrite goal_shift in T0.
    pose proof (fun c => hol_cases C zero maxv inf 0 (grid_occ m) c) as T1. rewrite goal_shift in T1.
    destruct (final_table _ _ _ _ _ _ _ _ _ _ _ A _ _ g _ T0 T1 fuel t E) as (F1 & F2 & F3).
    assert (U : forall c, c <> g -> usable C is_inf (gm_w m + 2 * 0) (gm_h m + 2 * 0) (hol_init C zero maxv inf 0 (grid_occ m) g) c <-> passable m c)
      by (intros c Hc; apply (passable_usable _ _ _ _ _ _ _ _ _ _ _ A); assumption).
    assert (P : forall c p, grid_path (usable C is_inf (gm_w m + 2 * 0) (gm_h m + 2 * 0) (hol_init C zero maxv inf 0 (grid_occ m) g)) c g p <-> grid_path (passable m) c g p)
      by (intros c p; apply grid_path_iff, U).
    split; [assumption|]. split.
    - intros c Hc Hn. rewrite (F2 c Hc) by (rewrite U by assumption; assumption). apply hol_other. rewrite goal_shift. assumption.
    - intros c Hc Hp. destruct (F3 c Hc (proj2 (U c Hc) Hp)) as [(E1 & N)|(p & Hp1 & E1 & L)].
      + left. split; [assumption|]. intros p Hq. apply (N p), P, Hq.
      + right. exists p. split; [apply P, Hp1|]. split; [assumption|]. intros q Hq. apply L, P, Hq.
  Qed.

  (** C33: setMap terminates. *)
  Theorem C33_terminates : exists fuel t, hol_table fuel 0 (gm_w m) (gm_h m) (grid_occ m) g = Some t.
  Proof using.
    unfold hol_setMap. eapply (table_exists _ _ _ _ _ _ _ _ _ _ _ exact_arith _ _ (fst g + 0, snd g + 0)); [apply hol_goal|apply hol_cases].
  Qed.

  (** C33 (exact arithmetic): for every cell inside the border the heuristic is the
      length of the shortest way to the goal over cells that are not occupied and
      not on the border; 0 if there is none; occupied cells are infinitely far
      away, and the cells of the border get 0. *)
  Theorem C33_table fuel t (res : R) :
    hol_table fuel 0 (gm_w m) (gm_h m) (grid_occ m) g = Some t -> (0 < res)%R ->
    hol 0 (Some t) g (Some res) = Some 0%R /\
    (forall c, cell_of (gm_w m) (gm_h m) (fst c) (snd c) -> c <> g ->
      (isOccupied m (fst c) (snd c) = Some true -> hol 0 (Some t) c (Some res) = None) /\
      (isOccupied m (fst c) (snd c) = Some false -> ~ inside_border m c -> hol 0 (Some t) c (Some res) = Some 0%R) /\
      (passable m c ->
        (exists p, grid_path (passable m) c g p /\ hol 0 (Some t) c (Some res) = Some (path_length p * res)%R /\
                   forall q, grid_path (passable m) c g q -> (path_length p <= path_length q)%R) \/
        ((forall p, ~ grid_path (passable m) c g p) /\ hol 0 (Some t) c (Some res) = Some 0%R))).
  Proof using Hm.
    intros E _. destruct (hol_any _ _ _ _ _ _ _ _ _ _ _ exact_arith fuel t E) as (F1 & F2 & F3).
    assert (Hs : forall c : cell, (fst c + 0, snd c + 0) = c) by (intros [x y]; cbn [fst snd]; rewrite !Z.add_0_r; reflexivity).
    unfold hol_compute. split.
    - rewrite Hs, F1. cbn [d_max d0 hmul]. f_equal. unfold dval. cbn. ring.
    - intros c Hc Hne. rewrite Hs. destruct (occ_known c Hc) as (b & E1 & E2). split; [|split].
      + intros Ho. rewrite F2; [|assumption|intros [_ X]; congruence]. rewrite E2. assert (b = true) as -> by congruence. reflexivity.
      + intros Ho Hb. rewrite F2; [|assumption|intros [X _]; contradiction]. rewrite E2. assert (b = false) as -> by congruence. reflexivity.
      + intros Hp. destruct (F3 c Hne Hp) as [(Em & N)|(p & P1 & Ep & L)].
        * right. split; [assumption|]. rewrite Em. reflexivity.
        * left. exists p. destruct (pcost_length p) as (x & y & Ex & Lx); [apply P1|].
          split; [assumption|]. split; [rewrite Ep, Ex; cbn [d_max hmul]; rewrite Lx; reflexivity|].
          intros q Hq. specialize (L q Hq). destruct (pcost_length q) as (u & v & Eu & Lu); [apply Hq|].
          rewrite Ex, Eu in L. apply dlt_fin_false in L. lra.
  Qed.

  (** C33 in IEEE binary64 (rounding included): the table holds the smallest
      rounded sum of steps, added up from the goal outwards. *)
  Theorem C33_ieee :
    exists fuel t, hol_setMap b64 bzero b_max binf badd blt b_isinf b_one b_sqrt2 fuel 0 (gm_w m) (gm_h m) (grid_occ m) g = Some t /\
    t g = bzero /\
    forall c, c <> g -> passable m c ->
      (t c = b_max /\ forall p, ~ grid_path (passable m) c g p) \/
      (exists p, grid_path (passable m) c g p /\ t c = bcost p /\
                 forall q, grid_path (passable m) c g q -> blt (bcost q) (bcost p) = false).
  Proof using Hm.
    assert (X : exists fuel t, hol_setMap b64 bzero b_max binf badd blt b_isinf b_one b_sqrt2 fuel 0 (gm_w m) (gm_h m) (grid_occ m) g = Some t).
    { unfold hol_setMap. eapply (table_exists _ _ _ _ _ _ _ _ _ _ _ ieee_dist_arith _ _ (fst g + 0, snd g + 0)); [apply hol_goal|apply hol_cases]. }
    destruct X as (fuel & t & E). exists fuel, t. split; [assumption|].
    destruct (hol_any _ _ _ _ _ _ _ _ _ _ _ ieee_dist_arith fuel t E) as (F1 & F2 & F3). auto.
  Qed.

  (** Before setMap (the searches never call it: SearchAlgorithm.hpp:535 is
      commented out) the heuristic is 0. *)
  Theorem C33_unset pad c res : hol pad None c res = Some 0%R.
  Proof. reflexivity. Qed.
End C33.

(** C33 refuted for managers with padding (DynamicDirectionalStateSpaceManager):
    obstacles are looked up in the wrong place.  A cell is infinitely far away
    exactly if the cell [padding] further to the right and below is occupied. *)
Theorem C33_padding fuel t m g c res :
  hol_table fuel padding (gm_w m) (gm_h m) (dyn_occ m) g = Some t -> c <> g ->
  hol padding (Some t) c (Some res) = None <-> dyn_occ m (fst c + padding) (snd c + padding) = true.
Proof.
  intros E Hc. unfold hol_setMap in E.
  assert (Hs : (fst c + padding, snd c + padding) <> (fst g + padding, snd g + padding)).
  { intros X. injection X as X1 X2. apply Hc. destruct c, g. cbn [fst snd] in *. f_equal; lia. }
  destruct (final_table _ _ _ _ _ _ _ _ _ _ _ exact_arith _ _ (fst g + padding, snd g + padding) _ (hol_goal g dnum d0 Big Infty padding (dyn_occ m)) (hol_cases g dnum d0 Big Infty padding (dyn_occ m)) fuel t E) as (F1 & F2 & F3).
  unfold hol_compute. specialize (F2 _ Hs). specialize (F3 _ Hs).
  destruct (usable_dec dnum d_inf (gm_w m + 2 * padding) (gm_h m + 2 * padding) (hol_init dnum d0 Big Infty padding (dyn_occ m) g) (fst c + padding, snd c + padding)) as [Hu|Hu].
  - assert (Ho : dyn_occ m (fst c + padding) (snd c + padding) = false).
    { destruct Hu as [_ Hi]. rewrite (hol_other g) in Hi by assumption. cbn [fst snd] in Hi. destruct (dyn_occ _ _ _); [discriminate|reflexivity]. }
    rewrite Ho. split; [|discriminate]. destruct (F3 Hu) as [(-> & _)|(p & Hp & -> & _)]; [cbn; discriminate|].
    destruct (pcost_length p) as (a & b & Ea & _); [apply Hp|]. rewrite Ea. cbn. discriminate.
  - rewrite (F2 Hu), (hol_other g) by assumption. cbn [fst snd]. destruct (dyn_occ _ _ _); cbn; split; try reflexivity; discriminate.
Qed.

(** ... where "occupied" means: a cell of the map with an occupied value. *)
Theorem C33_padding_cells fuel t m g c res : gm_wf m ->
  hol_table fuel padding (gm_w m) (gm_h m) (dyn_occ m) g = Some t -> c <> g ->
  hol padding (Some t) c (Some res) = None <->
  (cell_of (gm_w m) (gm_h m) (fst c + 32) (snd c + 32) /\ isOccupied m (fst c + 32) (snd c + 32) = Some true).
Proof.
  intros Hwf E Hc. rewrite (C33_padding fuel t m g c res E Hc). change padding with 32. generalize (fst c + 32) (snd c + 32). intros x y.
  destruct Hwf as (Ww & Wh & Wp & Wd). unfold dyn_occ, dyn_isOccupied1, dyn_out. rewrite !i32_id by lia.
  destruct ((x <? 0) || (y <? 0) || (x >=? gm_w m) || (y >=? gm_h m)) eqn:O.
  - split; [discriminate|]. intros [[Cx Cy] _]. exfalso. lia.
  - assert (C : cell_of (gm_w m) (gm_h m) x y) by (unfold cell_of; lia).
    destruct (isOccupied m x y) as [[|]|]; split; try tauto; try discriminate; intros [_ X]; discriminate.
Qed.

(** ** C34 *)

Section C34.
  Variable C : Type.
  Variable zero maxv inf : C.
  Variable add : C -> C -> C.
  Variable lt : C -> C -> bool.
  Variable is_inf : C -> bool.
  Variable horiz diag : C.
  Variable ok fin : C -> Prop.
  Hypothesis A : dist_arith zero maxv inf add lt is_inf horiz diag ok fin.
  Hypothesis infl : forall a w, w = horiz \/ w = diag -> ok a -> lt (add a w) a = false.
  Variable m : gridmap.
  Hypothesis Hm : gm_wf m.
  Hypothesis strict : forall p w, NoDup p -> (forall c, In c p -> cell_of (gm_w m) (gm_h m) (fst c) (snd c)) ->
    w = horiz \/ w = diag -> lt (pcost zero add horiz diag p) (add (pcost zero add horiz diag p) w) = true.
  Variable s g : cell.
  Hypothesis Hs : cell_of (gm_w m) (gm_h m) (fst s) (snd s).
  Hypothesis Hg : cell_of (gm_w m) (gm_h m) (fst g) (snd g).
  Variable from to : Q * Q.
  Hypothesis Hfrom : in_cell from s.
  Hypothesis Hto : in_cell to g.

  Notation find := (dt_findPath C zero maxv inf add lt is_inf horiz diag).

  Lemma find_unfold fuel : find fuel m from to =
    match sweeps C add lt is_inf horiz diag fuel (gm_w m) (gm_h m) (dt_init C zero maxv inf m g) with
    | None => DFuel
    | Some t => match dt_backtrack C lt fuel m t g s with Some p => DPath p | None => DFuel end
    end.
  Proof using Hm Hs Hg Hfrom Hto.
    clear A infl strict ok fin. unfold dt_findPath. rewrite (lookup_of_cell m from s Hm Hfrom Hs), (lookup_of_cell m to g Hm Hto Hg).
    assert (E : Qle_bool 0 (fst to) && Qle_bool 0 (snd to) = true).
    { destruct Hto as [[H1 _] [H2 _]]. apply andb_true_iff. split; apply Qle_bool_iff.
      - eapply Qle_trans; [|exact H1]. change 0%Q with (inject_Z 0). rewrite <- Zle_Qle. unfold cell_of in Hg. lia.
      - eapply Qle_trans; [|exact H2]. change 0%Q with (inject_Z 0). rewrite <- Zle_Qle. unfold cell_of in Hg. lia. }
    rewrite E. reflexivity.
  Qed.

  Lemma find_terminates : exists fuel p, find fuel m from to = DPath p.
  Proof using A Hm Hs Hg Hfrom Hto.
    destruct (table_exists _ _ _ _ _ _ _ _ _ _ _ A (gm_w m) (gm_h m) g (dt_init C zero maxv inf m g)
      (t0_goal C zero maxv inf m g) (t0_cases C zero maxv inf m g)) as (f1 & t & E1).
    destruct (bt_terminates _ _ _ _ _ _ _ _ _ _ _ A m g f1 t E1 s) as (f2 & p & E2).
    exists (Nat.max f1 f2), p. rewrite find_unfold.
    rewrite (sweeps_mono _ _ _ _ _ _ _ _ f1 (Nat.max f1 f2) (Nat.le_max_l _ _) _ _ E1).
    rewrite (bt_mono _ _ _ _ _ f2 (Nat.max f1 f2) s p (Nat.le_max_r _ _) E2). reflexivity.
  Qed.

  Lemma chain_weaken {X} (R S : X -> X -> Prop) l : (forall a b, R a b -> S a b) -> chain R l -> chain S l.
  Proof. clear. intros H. induction l as [|a [|b l] IH]; [auto..|]. rewrite !chain_cons. intros [H1 H2]. auto. Qed.

  Lemma chain_tail_all {X} (P : X -> Prop) (R : X -> X -> Prop) a l : chain (fun a b => R a b /\ P b) (a :: l) -> forall c, In c l -> P c.
  Proof.
    clear. revert a. induction l as [|b l IH]; intros a H c Hc; [destruct Hc|]. apply chain_cons in H. destruct H as [[_ H1] H2].
    destruct Hc as [<-|Hc]; [assumption|]. apply (IH b H2 c Hc).
  Qed.

  Lemma find_path fuel p : find fuel m from to = DPath p ->
    hd_error p = Some s /\ chain adjacent8 p /\ (forall c, In c (tl p) -> c = g \/ map_free m c) /\ NoDup p /\
    ((exists q, dt_route m s g q) -> last p s = g) /\
    (map_free m s -> last p s = g -> exists q, dt_route m s g q).
  Proof using A infl strict Hm Hs Hg Hfrom Hto.
    rewrite find_unfold. destruct (sweeps _ _ _ _ _ _ _ _ _ _) as [t|] eqn:Et; [|discriminate].
    destruct (dt_backtrack C lt fuel m t g s) as [p'|] eqn:Eb; [|discriminate]. intros E. injection E as <-.
    destruct (bt_shape _ _ _ _ _ _ _ _ _ _ _ A m g fuel t Et fuel s p' Eb) as (S1 & S2 & S3).
    destruct p' as [|s' r]; [discriminate|]. injection S1 as ->.
    split; [reflexivity|]. split; [eapply chain_weaken; [|exact S2]; intros a b H; apply H|]. split; [|split; [|split]].
    - cbn [tl]. eapply (chain_tail_all _ (fun _ _ => True)). eapply chain_weaken; [|exact S2]. cbv beta. intros a b H. split; [exact Logic.I|apply H].
    - assert (S4 : chain (fun a b => lt (t b) (t a) = true) (s :: r)) by (eapply chain_weaken; [|exact S2]; intros a b H; apply H).
      assert (Hok : forall c, ok (t c)) by (intros c; apply (t_ok _ _ _ _ _ _ _ _ _ _ _ A m g fuel t Et)).
      clear - S4 A Hok. revert S4. generalize s. induction r as [|b r IH]; intros a H; [constructor; [intros []|constructor]|].
      apply chain_cons in H. destruct H as [H1 H2]. constructor; [|apply IH; assumption].
      assert (X : forall l x y, lt (t x) (t y) = true -> chain (fun a b => lt (t b) (t a) = true) (x :: l) -> forall c, In c (x :: l) -> lt (t c) (t y) = true).
      { induction l as [|z l IHl]; intros x y Hxy Hch c [<-|Hc]; try assumption; [destruct Hc|].
        apply chain_cons in Hch. destruct Hch as [Hzx Hch]. apply (IHl z y); [|assumption|assumption].
        apply (da_lt_trans _ _ _ _ _ _ _ _ _ _ A _ (t x)); auto. }
      intros Hin. pose proof (X r b a H1 H2 a Hin) as Y. rewrite (da_irr _ _ _ _ _ _ _ _ _ _ A) in Y. discriminate.
    - intros [q Hq]. destruct (route_simple m s g q Hq) as (r' & Hr & Hns & _).
      destruct (ceqb_spec s g) as [->|Hsg].
      { rewrite bt_unfold in Eb. destruct (ceqb_spec g g); [injection Eb as <-; reflexivity|contradiction]. }
      destruct r' as [|n r']; [destruct Hr as [[_ X] _]; cbn in X; contradiction|].
      pose proof (route_tail _ _ _ _ _ _ _ _ _ _ _ A m Hm g s n r' Hr Hns) as Hn.
      assert (Hadj : adjacent8 s n) by (destruct Hr as (_ & Hch & _); apply chain_cons in Hch; apply Hch).
      pose proof (least _ _ _ _ _ _ _ _ _ _ _ A m g fuel t Et _ _ Hn) as Ln.
      assert (Lm : lt (pcost zero add horiz diag (n :: r')) maxv = true) by (apply (da_fin_lt _ _ _ _ _ _ _ _ _ _ A), (pc_fin _ _ _ _ _ _ _ _ _ _ _ A)).
      assert (Hok : forall c, ok (t c)) by (intros c; apply (t_ok _ _ _ _ _ _ _ _ _ _ _ A m g fuel t Et)).
      assert (Hpo : ok (pcost zero add horiz diag (n :: r'))) by apply (pc_ok _ _ _ _ _ _ _ _ _ _ _ A).
      pose proof (da_ok _ _ _ _ _ _ _ _ _ _ A) as (O0 & O1 & O2).
      assert (Hlm : lt (t n) maxv = true).
      { destruct (lt (t n) maxv) eqn:E; [reflexivity|]. exfalso.
        pose proof (le_trans _ _ _ _ _ _ _ _ _ _ _ A _ _ _ O1 (Hok n) Hpo E Ln). congruence. }
      assert (Hnin : cell_of (gm_w m) (gm_h m) (fst n) (snd n)).
      { destruct (ceqb_spec n g) as [->|Hng]; [assumption|]. destruct Hn as (_ & _ & F). destruct (F n (or_introl eq_refl) Hng) as [Hi _].
        unfold inner in Hi. unfold cell_of. clear - Hi. lia. }
      destruct (lt (t s) maxv) eqn:Ls; [apply (bt_reaches _ _ _ _ _ _ _ _ _ _ _ A infl m g Hg strict fuel t Et fuel s (s :: r) Eb Ls)|].
      (* the start is on the border or not free: one step, then descend *)
      rewrite bt_unfold in Eb. destruct (ceqb_spec s g) as [|_]; [contradiction|].
      destruct (best_spec _ _ _ _ _ _ _ _ _ _ _ A m g fuel t Et s) as [B1 B2]. specialize (B2 n Hadj Hnin).
      assert (Lb : lt (t (dt_best C lt m t s)) maxv = true).
      { destruct (lt (t (dt_best C lt m t s)) maxv) eqn:E; [reflexivity|]. exfalso.
        pose proof (le_trans _ _ _ _ _ _ _ _ _ _ _ A _ _ _ O1 (Hok _) (Hok n) E B2). congruence. }
      destruct (ceqb_spec (dt_best C lt m t s) s) as [X|X]; [rewrite X in Lb; congruence|].
      destruct fuel as [|f]; [discriminate|]. destruct (dt_backtrack C lt f m t g (dt_best C lt m t s)) as [l|] eqn:El; [|discriminate].
      injection Eb as <-. pose proof (bt_reaches _ _ _ _ _ _ _ _ _ _ _ A infl m g Hg strict (S f) t Et f _ l El Lb) as R.
      destruct (bt_shape _ _ _ _ _ _ _ _ _ _ _ A m g (S f) t Et f _ l El) as (Hh & _). destruct l as [|b l]; [discriminate|].
      change (last (s :: b :: l) s) with (last (b :: l) s). rewrite (last_default l b s (dt_best C lt m t s)). exact R.
    - intros Hfs HL. destruct r as [|b r].
      { cbn in HL. subst g. exists [s]. split; [split; reflexivity|]. split; [exact Logic.I|]. intros c [<-|[]] X. contradiction. }
      apply chain_cons in S2. destruct S2 as [(Hadj & Hbin & Hbf & Hlt) _].
      assert (Hok : forall c, ok (t c)) by (intros c; apply (t_ok _ _ _ _ _ _ _ _ _ _ _ A m g fuel t Et)).
      pose proof (da_ok _ _ _ _ _ _ _ _ _ _ A) as (O0 & O1 & O2).
      destruct (ceqb_spec s g) as [->|Hsg]; [exists [g]; split; [split; reflexivity|]; split; [exact Logic.I|]; intros c [<-|[]] X; contradiction|].
      assert (Hsm : lt maxv (t s) = false).
      { destruct (t_cases _ _ _ _ _ _ _ _ _ _ _ A m g fuel t Et s) as [->|[Ei|(q & _ & ->)]].
        - apply (da_irr _ _ _ _ _ _ _ _ _ _ A).
        - exfalso. assert (Hnu : ~ usable C is_inf (gm_w m) (gm_h m) (dt_init C zero maxv inf m g) s \/ usable C is_inf (gm_w m) (gm_h m) (dt_init C zero maxv inf m g) s)
            by (destruct (usable_dec C is_inf (gm_w m) (gm_h m) (dt_init C zero maxv inf m g) s); auto).
          destruct (t_inv _ _ _ _ _ _ _ _ _ _ _ A m g fuel t Et) as [I _].
          assert (Hfs' : is_free_cell m s = true) by (apply is_free_cell_spec, Hfs).
          assert (Hmi : maxv <> inf) by (intros X; pose proof (da_max_inf _ _ _ _ _ _ _ _ _ _ A) as Y; rewrite X, (da_irr _ _ _ _ _ _ _ _ _ _ A) in Y; discriminate).
          destruct Hnu as [Hnu|Hu].
          + rewrite (i_keep _ _ _ _ _ _ _ _ _ _ _ _ I s Hsg Hnu), t0_other, Hfs' in Ei by assumption. contradiction.
          + destruct (i_in _ _ _ _ _ _ _ _ _ _ _ _ I s Hsg Hu) as [E|(q & _ & E)]; rewrite E in Ei; [contradiction|].
            pose proof (fin_not_inf _ _ _ _ _ _ _ _ _ _ _ A _ (pc_fin _ _ _ _ _ _ _ _ _ _ _ A q)) as Y. rewrite Ei, (inf_is_inf _ _ _ _ _ _ _ _ _ _ _ A) in Y. discriminate.
        - apply (asym _ _ _ _ _ _ _ _ _ _ _ A); [apply (pc_ok _ _ _ _ _ _ _ _ _ _ _ A)|assumption|].
          apply (da_fin_lt _ _ _ _ _ _ _ _ _ _ A), (pc_fin _ _ _ _ _ _ _ _ _ _ _ A). }
      assert (Hbm : lt (t b) maxv = true).
      { destruct (lt (t b) maxv) eqn:E; [reflexivity|]. exfalso. pose proof (le_trans _ _ _ _ _ _ _ _ _ _ _ A _ _ _ (Hok s) O1 (Hok b) Hsm E). congruence. }
      destruct (below_max _ _ _ _ _ _ _ _ _ _ _ A m g fuel t Et b Hbm) as (q & Hq & _). exists (s :: q).
      destruct Hq as ((Hh & Hl) & Hch & Hf). destruct q as [|b' q]; [discriminate|]. injection Hh as ->.
      split; [split; [reflexivity|]|split].
      + change (last (b :: q) s = g). rewrite (last_default q b s b). exact Hl.
      + apply chain_cons. split; assumption.
      + intros c [<-|Hc] H1 H2; [contradiction|]. apply (usable_free _ _ _ _ _ _ _ _ _ _ _ A m Hm g c H2). apply Hf; assumption.
  Qed.
End C34.

Notation dt_exact := (dt_findPath dnum d0 Big Infty dadd dlt d_inf d1 dsqrt2).
Notation dt_ieee := (dt_findPath b64 bzero b_max binf badd blt b_isinf b_one b_sqrt2).

Lemma exact_infl a w : w = d1 \/ w = dsqrt2 -> True -> dlt (dadd a w) a = false.
Proof.
  intros Hw _. assert (X : exists p q, w = Fin p q) by (destruct Hw as [-> | ->]; do 2 eexists; reflexivity). destruct X as (p & q & ->).
  destruct a as [x y| |]; [|reflexivity..]. cbn [dadd]. apply dlt_fin_false. rewrite dval_add. pose proof (dval_nonneg p q). lra.
Qed.
Lemma exact_strict m p w : NoDup p -> (forall c, In c p -> cell_of (gm_w m) (gm_h m) (fst c) (snd c)) ->
  w = d1 \/ w = dsqrt2 -> dlt (pcost d0 dadd d1 dsqrt2 p) (dadd (pcost d0 dadd d1 dsqrt2 p) w) = true.
Proof.
  intros _ _ Hw. pose proof (pc_fin _ _ _ _ _ _ _ _ _ _ _ exact_arith p) as F. destruct (pcost d0 dadd d1 dsqrt2 p) as [a b| |]; try destruct F.
  pose proof sqrt2_bounds. destruct Hw as [-> | ->]; cbn [dadd d1 dsqrt2]; apply dlt_fin; rewrite dval_add; unfold dval; cbn [Z.of_N]; lra.
Qed.

(** C34, both in exact arithmetic and in binary64: the search terminates, and the
    result starts at the start cell, makes king's moves, visits no cell twice and
    enters only free cells (or the goal).  It ends at the goal whenever there is a
    way over free cells that does not touch the border of the map; for a free
    start cell it ends at the goal only then. *)
Definition C34_claim (run : nat -> gridmap -> Q * Q -> Q * Q -> dres) : Prop :=
  forall m s g from to, gm_wf m ->
    cell_of (gm_w m) (gm_h m) (fst s) (snd s) -> cell_of (gm_w m) (gm_h m) (fst g) (snd g) ->
    in_cell from s -> in_cell to g ->
    (exists fuel p, run fuel m from to = DPath p) /\
    forall fuel p, run fuel m from to = DPath p ->
      hd_error p = Some s /\ chain adjacent8 p /\ (forall c, In c (tl p) -> c = g \/ map_free m c) /\ NoDup p /\
      ((exists q, dt_route m s g q) -> last p s = g) /\
      (map_free m s -> last p s = g -> exists q, dt_route m s g q).

Theorem C34_valid : C34_claim dt_exact.
Proof.
  intros m s g from to Hm Hs Hg H1 H2. split.
  - apply (find_terminates _ _ _ _ _ _ _ _ _ _ _ exact_arith m Hm s g); assumption.
  - intros fuel p. apply (find_path _ _ _ _ _ _ _ _ _ _ _ exact_arith exact_infl m Hm (exact_strict m) s g); assumption.
Qed.

Theorem C34_valid_ieee : C34_claim dt_ieee.
Proof.
  intros m s g from to Hm Hs Hg H1 H2. split.
  - apply (find_terminates _ _ _ _ _ _ _ _ _ _ _ ieee_dist_arith m Hm s g); assumption.
  - intros fuel p. apply (find_path _ _ _ _ _ _ _ _ _ _ _ ieee_dist_arith ieee_infl m Hm (fun p w => ieee_strict m p w Hm) s g); assumption.
Qed.

(** A pose to the right of or above the map (as start or, for a start in the map, as
    goal) is refused with OutsideMapException, whatever the arithmetic. *)
Definition beyond (m : gridmap) (p : Q * Q) : Prop :=
  exists c, in_cell p c /\ 0 <= fst c < 4294967296 /\ 0 <= snd c < 4294967296 /\ (gm_w m <= fst c \/ gm_h m <= snd c).
Lemma lookup_beyond m p : beyond m p -> lookup_pose m p = LOutside.
Proof.
  intros ([x y] & (Hx & Hy) & H1 & H2 & H). cbn [fst snd] in *.
  assert (T : forall q z, 0 <= z < 4294967296 -> (inject_Z z <= q)%Q /\ (q < inject_Z (z + 1))%Q -> to_unsigned q = Some z).
  { intros q z Hz [A B]. unfold to_unsigned. destruct q as [n d]. unfold Qle, Qlt in A, B. cbn [Qnum Qden inject_Z] in *.
    assert (n ÷ Z.pos d = z) as ->.
    { rewrite Z.quot_div_nonneg by lia. symmetry. apply Z.div_unique with (n - z * Z.pos d); lia. }
    assert ((0 <=? z) && (z <? 4294967296) = true) as -> by lia. reflexivity. }
  unfold lookup_pose. rewrite (T _ y), (T _ x) by assumption.
  assert ((x >=? gm_w m) || (y >=? gm_h m) = true) as -> by lia. reflexivity.
Qed.
Theorem C34_outside : forall C zero maxv inf add lt is_inf horiz diag fuel m from to,
  beyond m from \/ (exists s, gm_wf m /\ cell_of (gm_w m) (gm_h m) (fst s) (snd s) /\ in_cell from s) /\ beyond m to ->
  dt_findPath C zero maxv inf add lt is_inf horiz diag fuel m from to = DOutside.
Proof.
  intros C zero maxv inf add lt is_inf horiz diag fuel m from to [H|[(s & Hm & Hs & Hf) H]]; unfold dt_findPath.
  - rewrite (lookup_beyond m from H). reflexivity.
  - rewrite (lookup_of_cell m from s Hm Hf Hs), (lookup_beyond m to H). reflexivity.
Qed.
