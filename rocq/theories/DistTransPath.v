(** Backtracking along the distances (DistanceTransformationSearch), for any cost
    arithmetic of DistTransProofs.v. *)
From Coq Require Import QArith.
From Verif Require Import Base GridMap GridMapProofs PathSpec DirectSpec DirectSearch PropGeneric DistTransModel DistTransProofs.
Open Scope Z_scope.

(** Between start and goal only free cells that do not touch the border of the map. *)
Definition inside_border (m : gridmap) (c : cell) : Prop :=
  1 <= fst c <= gm_w m - 2 /\ 1 <= snd c <= gm_h m - 2.
Definition dt_route (m : gridmap) (s g : cell) (q : list cell) : Prop :=
  from_to s g q /\ chain adjacent8 q /\ (forall c, In c q -> c <> s -> c <> g -> inside_border m c /\ map_free m c).

Section Path.
  Variable C : Type.
  Variable zero maxv inf : C.
  Variable add : C -> C -> C.
  Variable lt : C -> C -> bool.
  Variable is_inf : C -> bool.
  Variable horiz diag : C.
  Variable ok fin : C -> Prop.
  Hypothesis A : dist_arith zero maxv inf add lt is_inf horiz diag ok fin.
  Hypothesis infl : forall a w, w = horiz \/ w = diag -> ok a -> lt (add a w) a = false.

  Variable m : gridmap.
  Hypothesis Hm : gm_wf m.
  Variable goal : cell.
  Hypothesis Hg : cell_of (gm_w m) (gm_h m) (fst goal) (snd goal).
  (** Adding a step to a path without repetition makes it longer. *)
  Hypothesis strict : forall p w, NoDup p -> (forall c, In c p -> cell_of (gm_w m) (gm_h m) (fst c) (snd c)) ->
    w = horiz \/ w = diag -> lt (pcost zero add horiz diag p) (add (pcost zero add horiz diag p) w) = true.

  Notation pc := (pcost zero add horiz diag).
  Notation wgt := (weight C horiz diag).
  Notation t0 := (dt_init C zero maxv inf m goal).
  Notation usable := (usable C is_inf (gm_w m) (gm_h m) t0).

  Lemma t0_goal : t0 goal = zero.
  Proof. unfold dt_init, tset. destruct (ceqb_spec goal goal); congruence. Qed.
  Lemma t0_other c : c <> goal -> t0 c = if is_free_cell m c then maxv else inf.
  Proof. intros H. unfold dt_init, tset. destruct (ceqb_spec c goal); congruence. Qed.
  Lemma t0_cases c : c <> goal -> t0 c = maxv \/ t0 c = inf.
  Proof. intros H. rewrite t0_other by assumption. destruct (is_free_cell m c); auto. Qed.

  Lemma usable_free c : c <> goal -> usable c <-> inside_border m c /\ map_free m c.
  Proof using A Hm.
    clear infl strict Hg. intros H. unfold DistTransProofs.usable, inner, inside_border, map_free, cell_of. rewrite t0_other by assumption.
    rewrite <- is_free_cell_spec. destruct (is_free_cell m c).
    - rewrite (max_not_inf _ _ _ _ _ _ _ _ _ _ _ A). intuition lia.
    - rewrite (inf_is_inf _ _ _ _ _ _ _ _ _ _ _ A). intuition discriminate.
  Qed.
  Lemma usable_in c : usable c -> cell_of (gm_w m) (gm_h m) (fst c) (snd c).
  Proof. clear infl strict Hg Hm A. intros [H _]. unfold inner in H. unfold cell_of. lia. Qed.

  (** ** Paths without repetition *)
  Lemma last_default {X} (l : list X) a d e : last (a :: l) d = last (a :: l) e.
  Proof. revert a. induction l as [|b l IH]; intros a; [reflexivity|exact (IH b)]. Qed.

  Lemma pc_suffix a b : b <> [] -> ok (pc b) /\ lt (pc (a ++ b)) (pc b) = false.
  Proof using A infl.
    intros Hb. split; [apply (pc_ok _ _ _ _ _ _ _ _ _ _ _ A)|]. induction a as [|x a IH]; [apply (da_irr _ _ _ _ _ _ _ _ _ _ A)|].
    cbn [app]. destruct (a ++ b) as [|y r] eqn:E; [destruct a; [contradiction|discriminate]|].
    rewrite (pc_cons C zero add horiz diag x y r). eapply (le_trans _ _ _ _ _ _ _ _ _ _ _ A); [| | |exact IH|apply infl; [apply weight_cases|]];
      try apply (pc_ok _ _ _ _ _ _ _ _ _ _ _ A). apply (da_add_ok _ _ _ _ _ _ _ _ _ _ A); [apply weight_cases|apply (pc_ok _ _ _ _ _ _ _ _ _ _ _ A)].
  Qed.

  Lemma chain_suffix {X} (R : X -> X -> Prop) a b : chain R (a ++ b) -> chain R b.
  Proof.
    induction a as [|x a IH]; [auto|]. intros H. apply IH. cbn [app] in H. destruct (a ++ b) as [|y r]; [exact Logic.I|].
    apply chain_cons in H. apply H.
  Qed.

  Lemma simple_path p : forall c, grid_path usable c goal p ->
    exists q, grid_path usable c goal q /\ NoDup q /\ lt (pc p) (pc q) = false.
  Proof using A infl.
    induction p as [|x r IH]; intros c Hp; [destruct Hp as [[X _] _]; discriminate|].
    assert (x = c) as -> by (destruct Hp as [[X _] _]; injection X; auto).
    destruct r as [|n r].
    - exists [c]. split; [assumption|]. split; [constructor; [intros []|constructor]|]. apply (da_irr _ _ _ _ _ _ _ _ _ _ A).
    - destruct (grid_path_tail C is_inf (gm_w m) (gm_h m) goal t0 c n r Hp) as [Hadj Hp2].
      destruct (IH n Hp2) as (q & Hq & Hnd & Hle).
      assert (Hle2 : lt (pc (c :: n :: r)) (pc q) = false).
      { rewrite pc_cons. eapply (le_trans _ _ _ _ _ _ _ _ _ _ _ A); [| | |exact Hle|apply infl; [apply weight_cases|]]; try apply (pc_ok _ _ _ _ _ _ _ _ _ _ _ A).
        apply (da_add_ok _ _ _ _ _ _ _ _ _ _ A); [apply weight_cases|apply (pc_ok _ _ _ _ _ _ _ _ _ _ _ A)]. }
      destruct (in_dec (fun a b : cell => ltac:(decide equality; apply Z.eq_dec) : {a = b} + {a <> b}) c q) as [Hc|Hc].
      + apply in_split in Hc. destruct Hc as (a & b & ->). exists (c :: b).
        destruct Hq as ((Hh & Hl) & Hch & Hf). split; [split; [split; [reflexivity|]|split]|split].
        * clear - Hl. revert Hl. generalize n. induction a as [|y a IHa]; intros k Hl; cbn [app] in Hl; [rewrite (last_default b c c k); exact Hl|].
          destruct a as [|z a]; cbn [app] in *; [apply (IHa k Hl)|apply (IHa k Hl)].
        * eapply chain_suffix; exact Hch.
        * intros y Hy. apply Hf. apply in_or_app. right. assumption.
        * clear - Hnd. induction a as [|y a IHa]; [assumption|]. apply IHa. inversion Hnd; assumption.
        * destruct (pc_suffix a (c :: b)) as [_ L]; [discriminate|].
          eapply (le_trans _ _ _ _ _ _ _ _ _ _ _ A); [| | |exact L|exact Hle2]; apply (pc_ok _ _ _ _ _ _ _ _ _ _ _ A).
      + exists (c :: q). assert (Hp' : grid_path usable c goal (c :: n :: r)) by assumption.
        destruct Hp' as ((_ & HL) & _ & Hf). destruct Hq as ((Hh & Hl) & Hch & Hf2). destruct q as [|n' q]; [discriminate|]. injection Hh as ->.
        split; [split; [split; [reflexivity|]|split]|split].
        * change (last (n :: q) c = goal). rewrite (last_default q n c n). exact Hl.
        * apply chain_cons. split; assumption.
        * intros y [<-|Hy]; [apply Hf; left; reflexivity|apply Hf2; assumption].
        * constructor; assumption.
        * rewrite !pc_cons. apply (da_mono _ _ _ _ _ _ _ _ _ _ A); [apply weight_cases|apply (pc_ok _ _ _ _ _ _ _ _ _ _ _ A)..|exact Hle].
  Qed.

  (** ** The table *)
  Variable fuel0 : nat.
  Variable t : DistTransModel.table C.
  Hypothesis Ht : sweeps C add lt is_inf horiz diag fuel0 (gm_w m) (gm_h m) t0 = Some t.

  Lemma t_inv : inv C zero maxv add is_inf horiz diag (gm_w m) (gm_h m) goal t0 t /\ stable C add lt is_inf horiz diag (gm_w m) (gm_h m) t.
  Proof using A Ht.
    eapply (sweeps_stable _ _ _ _ _ _ _ _ _ _ _ A (gm_w m) (gm_h m) goal t0 t0_cases fuel0 t0 t); [|exact Ht].
    apply (inv_t0 _ _ _ _ _ _ _ _ _ _ _ A); [apply t0_goal|apply t0_cases].
  Qed.
  Lemma t_ok c : ok (t c).
  Proof using A Ht. apply (inv_ok _ _ _ _ _ _ _ _ _ _ _ A (gm_w m) (gm_h m) goal t0 t0_cases), t_inv. Qed.

  Lemma t_cases c : t c = maxv \/ t c = inf \/ (exists p, grid_path usable c goal p /\ t c = pc p).
  Proof using A Ht.
    destruct t_inv as [I _]. destruct (ceqb_spec c goal) as [->|Hc].
    - right. right. exists [goal]. split; [|rewrite (i_goal _ _ _ _ _ _ _ _ _ _ _ _ I); reflexivity].
      split; [split; reflexivity|]. split; [exact Logic.I|]. intros x [<-|[]] X. contradiction.
    - destruct (usable_dec C is_inf (gm_w m) (gm_h m) t0 c) as [Hu|Hu].
      + destruct (i_in _ _ _ _ _ _ _ _ _ _ _ _ I c Hc Hu) as [E|E]; auto.
      + rewrite (i_keep _ _ _ _ _ _ _ _ _ _ _ _ I c Hc Hu). destruct (t0_cases c Hc); auto.
  Qed.

  Lemma top_inf a c : a = t c -> lt inf a = false.
  Proof using A Ht.
    intros ->. pose proof (da_ok _ _ _ _ _ _ _ _ _ _ A) as (O0 & O1 & O2). pose proof (da_max_inf _ _ _ _ _ _ _ _ _ _ A) as Hmi.
    destruct (t_cases c) as [->|[->|(p & _ & ->)]].
    - apply (asym _ _ _ _ _ _ _ _ _ _ _ A); assumption.
    - apply (da_irr _ _ _ _ _ _ _ _ _ _ A).
    - apply (asym _ _ _ _ _ _ _ _ _ _ _ A); [apply (pc_ok _ _ _ _ _ _ _ _ _ _ _ A)|assumption|].
      eapply (da_lt_trans _ _ _ _ _ _ _ _ _ _ A _ maxv); [apply (pc_ok _ _ _ _ _ _ _ _ _ _ _ A)|assumption|assumption| |assumption].
      apply (da_fin_lt _ _ _ _ _ _ _ _ _ _ A), (pc_fin _ _ _ _ _ _ _ _ _ _ _ A).
  Qed.

  (** A cell whose distance is smaller than another's is free or the goal. *)
  Lemma below_free b c : lt (t b) (t c) = true -> cell_of (gm_w m) (gm_h m) (fst b) (snd b) -> b = goal \/ map_free m b.
  Proof using A Ht.
    intros H Hb. destruct (ceqb_spec b goal) as [|Hne]; [left; assumption|]. right. split; [assumption|].
    destruct (is_free_cell m b) eqn:E; [apply is_free_cell_spec; assumption|]. exfalso.
    assert (Hnu : ~ usable b). { intros [_ Hi]. rewrite t0_other, E, (inf_is_inf _ _ _ _ _ _ _ _ _ _ _ A) in Hi by assumption. discriminate. }
    rewrite (i_keep _ _ _ _ _ _ _ _ _ _ _ _ (proj1 t_inv) b Hne Hnu), t0_other, E, (top_inf _ c eq_refl) in H by assumption. discriminate.
  Qed.

  (** Below the largest double: usable (or the goal), with a cheapest path. *)
  Lemma below_max b : lt (t b) maxv = true -> exists p, grid_path usable b goal p /\ t b = pc p.
  Proof using A Ht.
    intros H. destruct (t_cases b) as [E|[E|E]]; [| |assumption]; rewrite E in H.
    - rewrite (da_irr _ _ _ _ _ _ _ _ _ _ A) in H. discriminate.
    - pose proof (da_ok _ _ _ _ _ _ _ _ _ _ A) as (O0 & O1 & O2). rewrite (asym _ _ _ _ _ _ _ _ _ _ _ A maxv inf) in H; auto; [discriminate|apply (da_max_inf _ _ _ _ _ _ _ _ _ _ A)].
  Qed.

  Lemma least p c : grid_path usable c goal p -> lt (pc p) (t c) = false.
  Proof using A Ht. apply (stable_least _ _ _ _ _ _ _ _ _ _ _ A (gm_w m) (gm_h m) goal t0 t0_cases); apply t_inv. Qed.

  (** Every cell with a path, except the goal, has a neighbour with a smaller distance. *)
  Lemma descent c p : c <> goal -> grid_path usable c goal p -> t c = pc p ->
    exists n, adjacent8 c n /\ cell_of (gm_w m) (gm_h m) (fst n) (snd n) /\ lt (add (t n) (wgt c n)) (t c) = false /\
              lt (t c) (add (t n) (wgt c n)) = false /\ lt (t n) (t c) = true.
  Proof using A Hg Ht infl strict.
    intros Hc Hp E. destruct (simple_path p c Hp) as (q & Hq & Hnd & Hle).
    assert (Hin : forall x, In x q -> cell_of (gm_w m) (gm_h m) (fst x) (snd x)).
    { intros x Hx. destruct (ceqb_spec x goal) as [->|Hxg]; [assumption|]. apply usable_in. destruct Hq as (_ & _ & F). apply F; assumption. }
    destruct q as [|c' [|n r]]; [destruct Hq as [[X _] _]; discriminate|destruct Hq as [[X Y] _]; cbn in X, Y; congruence|].
    assert (c' = c) as -> by (destruct Hq as [[X _] _]; injection X; auto).
    destruct (grid_path_tail C is_inf (gm_w m) (gm_h m) goal t0 c n r Hq) as [Hadj Hq2].
    assert (Hu : usable c) by (destruct Hp as ((X & _) & _ & F); apply F; [|assumption]; destruct p; [discriminate|]; injection X as ->; left; reflexivity).
    assert (Hi : is_inf (t c) = false) by (rewrite E; apply (fin_not_inf _ _ _ _ _ _ _ _ _ _ _ A), (pc_fin _ _ _ _ _ _ _ _ _ _ _ A)).
    pose proof (proj2 t_inv c n (proj1 Hu) Hi Hadj) as L1.
    pose proof (least _ _ Hq2) as L2. rewrite <- E in Hle.
    assert (Hpo : ok (pc (n :: r))) by apply (pc_ok _ _ _ _ _ _ _ _ _ _ _ A).
    assert (Hpo2 : ok (pc (c :: n :: r))) by apply (pc_ok _ _ _ _ _ _ _ _ _ _ _ A).
    assert (Hao : ok (add (t n) (wgt c n))) by (apply (da_add_ok _ _ _ _ _ _ _ _ _ _ A); [apply weight_cases|apply t_ok]).
    assert (L3 : lt (t c) (add (t n) (wgt c n)) = false).
    { eapply (le_trans _ _ _ _ _ _ _ _ _ _ _ A); [exact Hao|exact Hpo2|apply t_ok| |exact Hle].
      rewrite pc_cons. apply (da_mono _ _ _ _ _ _ _ _ _ _ A); [apply weight_cases|apply t_ok|assumption|assumption]. }
    exists n. split; [assumption|]. split; [apply Hin; right; left; reflexivity|]. split; [assumption|]. split; [assumption|].
    (* t n <= pc (n::r) < pc (n::r) + w = pc q <= t c *)
    assert (Hnd2 : NoDup (n :: r)) by (inversion Hnd; assumption).
    pose proof (strict (n :: r) (wgt c n) Hnd2 (fun x Hx => Hin x (or_intror Hx)) (weight_cases C horiz diag c n)) as L4.
    rewrite <- (pc_cons C zero add horiz diag c n r) in L4.
    destruct (lt (t n) (t c)) eqn:El; [reflexivity|]. exfalso.
    assert (X : lt (pc (n :: r)) (pc (c :: n :: r)) = false).
    { eapply (le_trans _ _ _ _ _ _ _ _ _ _ _ A); [exact Hpo2|apply (t_ok c)|assumption|exact Hle|].
      eapply (le_trans _ _ _ _ _ _ _ _ _ _ _ A); [apply t_ok|apply (t_ok n)|assumption|exact El|exact L2]. }
    congruence.
  Qed.

  (** ** The best neighbour *)
  Notation best := (dt_best C lt m t).
  Definition in_map (c : cell) : bool := (0 <=? fst c) && (0 <=? snd c) && (fst c <? gm_w m) && (snd c <? gm_h m).
  Lemma in_map_spec c : in_map c = true <-> cell_of (gm_w m) (gm_h m) (fst c) (snd c).
  Proof. clear. unfold in_map, cell_of. lia. Qed.

  Lemma best_fold cur l : forall b0,
    let b := fold_left (fun best i => let c := ncell true 1 cur i in
        if in_map c then if lt (t c) (t best) then c else best else best) l b0 in
    (b = b0 \/ (lt (t b) (t b0) = true /\ in_map b = true /\ exists i, In i l /\ b = ncell true 1 cur i)) /\
    lt (t b0) (t b) = false /\
    (forall i, In i l -> in_map (ncell true 1 cur i) = true -> lt (t (ncell true 1 cur i)) (t b) = false).
  Proof using A Ht.
    induction l as [|i l IH]; intros b0; cbn [fold_left].
    - cbv zeta. split; [left; reflexivity|]. split; [apply (da_irr _ _ _ _ _ _ _ _ _ _ A)|intros i []].
    - cbv zeta in *. destruct (in_map (ncell true 1 cur i)) eqn:Em.
      + destruct (lt (t (ncell true 1 cur i)) (t b0)) eqn:El.
        * specialize (IH (ncell true 1 cur i)). set (b := fold_left _ l (ncell true 1 cur i)) in *.
          destruct IH as (I1 & I2 & I3). split; [|split].
          -- right. destruct I1 as [->|(L1 & M1 & k & Hk & E)]; [split; [assumption|split; [assumption|exists i; split; [left; reflexivity|reflexivity]]]|].
             split; [eapply (da_lt_trans _ _ _ _ _ _ _ _ _ _ A); [apply t_ok| |apply t_ok|exact L1|exact El]; apply t_ok|]. split; [assumption|exists k; split; [right; assumption|assumption]].
          -- eapply (le_trans _ _ _ _ _ _ _ _ _ _ _ A); [apply t_ok| |apply t_ok|exact I2|]; [apply t_ok|]. apply (asym _ _ _ _ _ _ _ _ _ _ _ A); [apply t_ok..|exact El].
          -- intros k [<-|Hk] Hmk; [exact I2|apply I3; assumption].
        * specialize (IH b0). set (b := fold_left _ l b0) in *. destruct IH as (I1 & I2 & I3). split; [|split; [assumption|]].
          -- destruct I1 as [->|(L1 & M1 & k & Hk & E)]; [left; reflexivity|right; split; [assumption|split; [assumption|exists k; split; [right; assumption|assumption]]]].
          -- intros k [<-|Hk] Hmk; [|apply I3; assumption]. eapply (le_trans _ _ _ _ _ _ _ _ _ _ _ A); [apply t_ok| |apply t_ok|exact I2|exact El]; apply t_ok.
      + specialize (IH b0). set (b := fold_left _ l b0) in *. destruct IH as (I1 & I2 & I3). split; [|split; [assumption|]].
        * destruct I1 as [->|(L1 & M1 & k & Hk & E)]; [left; reflexivity|right; split; [assumption|split; [assumption|exists k; split; [right; assumption|assumption]]]].
        * intros k [<-|Hk] Hmk; [congruence|apply I3; assumption].
  Qed.

  Lemma adj_direct a b : adjacent8 a b <-> direct_step true 1 a b.
  Proof. clear. unfold adjacent8, direct_step. cbv zeta. split; intros H; intuition lia. Qed.

  Lemma best_spec cur :
    (best cur = cur \/ (adjacent8 cur (best cur) /\ cell_of (gm_w m) (gm_h m) (fst (best cur)) (snd (best cur)) /\ lt (t (best cur)) (t cur) = true)) /\
    (forall n, adjacent8 cur n -> cell_of (gm_w m) (gm_h m) (fst n) (snd n) -> lt (t n) (t (best cur)) = false).
  Proof using A Ht.
    clear infl strict. destruct (best_fold cur (seq 0 8) cur) as (I1 & I2 & I3). cbv zeta in *. fold (in_map) in *.
    change (fold_left _ (seq 0 8) cur) with (best cur) in *. split.
    - destruct I1 as [E|(L & M & i & Hi & E)]; [left; exact E|right]. split; [|split; [apply in_map_spec, M|exact L]].
      apply adj_direct. rewrite E. apply ncell_step; [lia|exact Hi].
    - intros n Hn Hc. apply adj_direct in Hn. destruct (step_ncell true 1 cur n ltac:(lia) Hn) as (i & Hi & E). rewrite <- E. apply I3; [exact Hi|]. rewrite E. apply in_map_spec, Hc.
  Qed.

  Notation bt := (dt_backtrack C lt).

  Lemma bt_unfold fuel cur : bt fuel m t goal cur =
    if ceqb cur goal then Some [cur] else if ceqb (best cur) cur then Some [cur]
    else match fuel with O => None | S f => match bt f m t goal (best cur) with Some l => Some (cur :: l) | None => None end end.
  Proof. destruct fuel; reflexivity. Qed.

  Lemma bt_terminates cur : exists fuel p, bt fuel m t goal cur = Some p.
  Proof using A Ht.
    remember (t cur) as v eqn:Ev. revert cur Ev.
    induction v as [v IH] using (well_founded_induction (da_wf _ _ _ _ _ _ _ _ _ _ A)). intros cur ->.
    destruct (ceqb cur goal) eqn:E1; [exists O, [cur]; rewrite bt_unfold, E1; reflexivity|].
    destruct (ceqb_spec (best cur) cur) as [E2|E2]; [exists O, [cur]; rewrite bt_unfold, E1; destruct (ceqb_spec (best cur) cur); [reflexivity|contradiction]|].
    destruct (best_spec cur) as [[X|(_ & _ & L)] _]; [contradiction|].
    destruct (IH (t (best cur)) (conj (t_ok _) (conj (t_ok _) L)) (best cur) eq_refl) as (f & p & Ef).
    exists (S f), (cur :: p). rewrite bt_unfold, E1. destruct (ceqb_spec (best cur) cur); [contradiction|]. rewrite Ef. reflexivity.
  Qed.

  Lemma bt_mono f1 : forall f2 cur p, (f1 <= f2)%nat -> bt f1 m t goal cur = Some p -> bt f2 m t goal cur = Some p.
  Proof.
    clear Ht strict infl Hg Hm A ok fin fuel0 zero maxv inf add is_inf horiz diag. induction f1 as [|f1 IH]; intros f2 cur p Hle H; rewrite bt_unfold in *;
      (destruct (ceqb cur goal); [assumption|]; destruct (ceqb (best cur) cur); [assumption|]); [discriminate|].
    destruct f2 as [|f2]; [lia|]. destruct (bt f1 m t goal (best cur)) as [l|] eqn:E; [|discriminate].
    rewrite (IH f2 _ l ltac:(lia) E). assumption.
  Qed.

  (** Shape of the result: it starts at [cur], makes king's moves onto cells of the
      map that are free or the goal, with strictly decreasing distances. *)
  Lemma bt_shape fuel : forall cur p, bt fuel m t goal cur = Some p ->
    hd_error p = Some cur /\
    chain (fun a b => adjacent8 a b /\ cell_of (gm_w m) (gm_h m) (fst b) (snd b) /\ (b = goal \/ map_free m b) /\ lt (t b) (t a) = true) p /\
    (last p cur = goal \/ (last p cur <> goal /\ best (last p cur) = last p cur)).
  Proof using A Ht.
    induction fuel as [|f IH]; intros cur p H; rewrite bt_unfold in H;
      (destruct (ceqb_spec cur goal) as [->|Hc];
       [injection H as <-; split; [reflexivity|split; [exact Logic.I|left; reflexivity]]|]);
      (destruct (ceqb_spec (best cur) cur) as [Hb|Hb];
       [injection H as <-; split; [reflexivity|split; [exact Logic.I|right; split; assumption]]|]).
    - discriminate.
    - destruct (bt f m t goal (best cur)) as [l|] eqn:E; [|discriminate]. injection H as <-.
      destruct (IH _ _ E) as (H1 & H2 & H3). destruct l as [|b l]; [discriminate|]. injection H1 as ->.
      destruct (best_spec cur) as [[X|(Ha & Hi & L)] _]; [contradiction|].
      split; [reflexivity|]. split.
      + apply chain_cons. split; [|exact H2]. split; [assumption|split; [assumption|split; [|assumption]]]. eapply below_free; eassumption.
      + change (last (cur :: best cur :: l) cur) with (last (best cur :: l) cur). rewrite (last_default l (best cur) cur (best cur)). exact H3.
  Qed.

  (** From a cell that has a path the goal is found. *)
  Lemma bt_reaches fuel : forall cur p, bt fuel m t goal cur = Some p -> lt (t cur) maxv = true -> last p cur = goal.
  Proof using A Hg Ht infl strict.
    induction fuel as [|f IH]; intros cur p H Hl; rewrite bt_unfold in H;
      (destruct (ceqb_spec cur goal) as [->|Hc]; [injection H as <-; reflexivity|]);
      (destruct (below_max cur Hl) as (q & Hq & Eq));
      (destruct (descent cur q Hc Hq Eq) as (n & Hadj & Hin & _ & _ & Hlt));
      (destruct (best_spec cur) as [Hb1 Hb2]; pose proof (Hb2 n Hadj Hin) as Hbn);
      (destruct (ceqb_spec (best cur) cur) as [Hb|Hb]; [exfalso; rewrite Hb in Hbn; congruence|]).
    - discriminate.
    - destruct (bt f m t goal (best cur)) as [l|] eqn:E; [|discriminate]. injection H as <-.
      destruct Hb1 as [X|(_ & _ & L)]; [contradiction|].
      destruct (bt_shape f _ _ E) as (H1 & _). destruct l as [|b l]; [discriminate|]. injection H1 as ->.
      change (last (cur :: best cur :: l) cur) with (last (best cur :: l) cur). rewrite (last_default l (best cur) cur (best cur)).
      apply (IH _ _ E). eapply (da_lt_trans _ _ _ _ _ _ _ _ _ _ A); [apply t_ok|apply (t_ok cur)|apply (da_ok _ _ _ _ _ _ _ _ _ _ A)|exact L|exact Hl].
  Qed.

  (** A route of free cells inside the border gives the first cell after the start
      a finite distance. *)
  Lemma route_tail s n r : dt_route m s goal (s :: n :: r) -> ~ In s (n :: r) -> grid_path usable n goal (n :: r).
  Proof using A Hm.
    intros ((_ & Hl) & Hch & Hf) Hs. apply chain_cons in Hch. split; [split; [reflexivity|]|split; [apply Hch|]].
    - change (last (n :: r) s = goal) in Hl. rewrite (last_default r n n s). exact Hl.
    - intros c Hc Hcg. apply usable_free; [assumption|]. apply Hf; [right; assumption|intros ->; contradiction|assumption].
  Qed.
End Path.

(** Cutting a route at the last visit of the start. *)
Lemma route_simple m s g q : dt_route m s g q -> exists r, dt_route m s g (s :: r) /\ ~ In s r /\ (exists a, q = a ++ s :: r).
Proof.
  intros H. assert (X : forall n q, (length q < n)%nat -> dt_route m s g q -> exists r, dt_route m s g (s :: r) /\ ~ In s r /\ (exists a, q = a ++ s :: r)).
  { induction n as [|n IH]; intros p Hn Hp; [lia|].
    destruct p as [|s' r]; [destruct Hp as [[X _] _]; discriminate|]. assert (s' = s) as -> by (destruct Hp as [[X _] _]; injection X; auto).
    destruct (in_dec (fun a b : cell => ltac:(decide equality; apply Z.eq_dec) : {a = b} + {a <> b}) s r) as [Hs|Hs].
    - apply in_split in Hs. destruct Hs as (a & b & ->).
      destruct (IH (s :: b)) as (r & H1 & H2 & a' & E).
      + cbn [length] in *. rewrite app_length in Hn. cbn [length] in Hn. lia.
      + destruct Hp as ((_ & Hl) & Hch & Hf). split; [split; [reflexivity|]|split].
        * change (last ((s :: a) ++ s :: b) s = g) in Hl. clear - Hl. revert Hl. generalize (s :: a). intros l. induction l as [|y l IHl]; intros Hl; cbn [app] in Hl; [exact Hl|].
          destruct l as [|z l]; cbn [app] in *; apply (IHl Hl).
        * change (s :: a ++ s :: b) with ((s :: a) ++ s :: b) in Hch. eapply (chain_suffix _ (s :: a)). exact Hch.
        * intros c Hc. apply Hf. right. apply in_or_app. right. assumption.
      + exists r. split; [assumption|split; [assumption|]]. exists (s :: a ++ a'). cbn [app]. rewrite E, app_assoc. reflexivity.
    - exists r. split; [assumption|split; [assumption|exists []; reflexivity]]. }
  apply (X (S (length q))); [lia|assumption].
Qed.
