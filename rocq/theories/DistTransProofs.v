(** The two sweeps compute least path costs: proofs for any cost arithmetic with
    a monotone, non-decreasing addition (in particular for rounded doubles). *)
From Coq Require Import QArith.
From Verif Require Import Base GridMap PathSpec DirectSearch PropGeneric DistTransModel.
Open Scope Z_scope.

(** The cost of a path towards the goal, added up from the goal outwards. *)
Fixpoint pcost {C} (zero : C) (add : C -> C -> C) (horiz diag : C) (p : list cell) : C :=
  match p with
  | a :: ((b :: _) as r) =>
      add (pcost zero add horiz diag r) (if (fst a =? fst b) || (snd a =? snd b) then horiz else diag)
  | _ => zero
  end.

(** What is asked of the numbers. *)
Record dist_arith {C} (zero maxv inf : C) (add : C -> C -> C) (lt : C -> C -> bool) (is_inf : C -> bool)
    (horiz diag : C) (ok fin : C -> Prop) : Prop := DistArith {
  da_wf : well_founded (fun a b => ok a /\ ok b /\ lt a b = true);
  da_irr : forall a, lt a a = false;
  da_le_trans : forall a b c, ok a -> ok b -> ok c -> lt b a = false -> lt c b = false -> lt c a = false;
  da_lt_trans : forall a b c, ok a -> ok b -> ok c -> lt a b = true -> lt b c = true -> lt a c = true;
  da_ok : ok zero /\ ok maxv /\ ok inf;
  da_add_ok : forall a w, w = horiz \/ w = diag -> ok a -> ok (add a w);
  da_zero : forall a, ok a -> lt a zero = false;
  da_mono : forall a b w, w = horiz \/ w = diag -> ok a -> ok b -> lt b a = false -> lt (add b w) (add a w) = false;
  da_max : forall w, w = horiz \/ w = diag -> lt (add maxv w) maxv = false /\ lt (add inf w) maxv = false;
  da_inf : forall a, ok a -> is_inf a = true <-> a = inf;
  da_fin : fin zero /\ forall a w, w = horiz \/ w = diag -> fin a -> fin (add a w);
  da_fin_lt : forall a, fin a -> ok a /\ lt a maxv = true;
  da_max_inf : lt maxv inf = true }.

Section Proofs.
  Variable C : Type.
  Variable zero maxv inf : C.
  Variable add : C -> C -> C.
  Variable lt : C -> C -> bool.
  Variable is_inf : C -> bool.
  Variable horiz diag : C.
  Variable ok fin : C -> Prop.
  Hypothesis A : dist_arith zero maxv inf add lt is_inf horiz diag ok fin.

  Notation pc := (pcost zero add horiz diag).
  Notation table := (DistTransModel.table C).

  Definition weight (a b : cell) : C := if (fst a =? fst b) || (snd a =? snd b) then horiz else diag.
  Lemma weight_cases a b : weight a b = horiz \/ weight a b = diag.
  Proof. unfold weight. destruct (_ || _); auto. Qed.
  Lemma pc_cons a b r : pc (a :: b :: r) = add (pc (b :: r)) (weight a b).
  Proof. reflexivity. Qed.

  Lemma pc_fin p : fin (pc p).
  Proof using A.
    induction p as [|a [|b r] IH]; [apply (da_fin _ _ _ _ _ _ _ _ _ _ A)..|].
    rewrite pc_cons. apply (proj2 (da_fin _ _ _ _ _ _ _ _ _ _ A)); [apply weight_cases|exact IH].
  Qed.
  Lemma pc_ok p : ok (pc p).
  Proof using A. apply (da_fin_lt _ _ _ _ _ _ _ _ _ _ A), pc_fin. Qed.

  Lemma le_trans a b c : ok a -> ok b -> ok c -> lt b a = false -> lt c b = false -> lt c a = false.
  Proof using A. apply (da_le_trans _ _ _ _ _ _ _ _ _ _ A). Qed.

  Lemma asym a b : ok a -> ok b -> lt a b = true -> lt b a = false.
  Proof using A.
    intros Ha Hb H. destruct (lt b a) eqn:E; [|reflexivity].
    pose proof (da_lt_trans _ _ _ _ _ _ _ _ _ _ A a b a Ha Hb Ha H E) as K. rewrite (da_irr _ _ _ _ _ _ _ _ _ _ A) in K. discriminate.
  Qed.

  Lemma fin_not_inf a : fin a -> is_inf a = false.
  Proof using A.
    intros H. destruct (is_inf a) eqn:E; [|reflexivity]. destruct (da_fin_lt _ _ _ _ _ _ _ _ _ _ A a H) as [Ho Hl].
    apply (da_inf _ _ _ _ _ _ _ _ _ _ A) in E; [|assumption]. subst a.
    pose proof (asym _ _ (proj2 (proj2 (da_ok _ _ _ _ _ _ _ _ _ _ A))) (proj1 (proj2 (da_ok _ _ _ _ _ _ _ _ _ _ A))) Hl) as K.
    rewrite (da_max_inf _ _ _ _ _ _ _ _ _ _ A) in K. discriminate.
  Qed.
  Lemma max_not_inf : is_inf maxv = false.
  Proof using A.
    destruct (is_inf maxv) eqn:E; [|reflexivity]. apply (da_inf _ _ _ _ _ _ _ _ _ _ A) in E; [|apply (da_ok _ _ _ _ _ _ _ _ _ _ A)].
    pose proof (da_max_inf _ _ _ _ _ _ _ _ _ _ A) as K. rewrite E in K at 1. rewrite (da_irr _ _ _ _ _ _ _ _ _ _ A) in K. discriminate.
  Qed.
  Lemma inf_is_inf : is_inf inf = true.
  Proof using A. apply (da_inf _ _ _ _ _ _ _ _ _ _ A); [apply (da_ok _ _ _ _ _ _ _ _ _ _ A)|reflexivity]. Qed.

  (** ** The minimum of four candidates *)
  Lemma cmin_cases a b : cmin C lt a b = a \/ cmin C lt a b = b.
  Proof. unfold cmin. destruct (lt b a); auto. Qed.
  Lemma cmin_le a b : ok a -> ok b -> ok (cmin C lt a b) /\ lt a (cmin C lt a b) = false /\ lt b (cmin C lt a b) = false.
  Proof using A.
    intros Ha Hb. unfold cmin. destruct (lt b a) eqn:E.
    - split; [assumption|]. split; [apply asym; assumption|apply (da_irr _ _ _ _ _ _ _ _ _ _ A)].
    - split; [assumption|]. split; [apply (da_irr _ _ _ _ _ _ _ _ _ _ A)|assumption].
  Qed.

  Definition fwd_nbrs (c : cell) : list cell :=
    [(fst c - 1, snd c); (fst c - 1, snd c - 1); (fst c, snd c - 1); (fst c + 1, snd c - 1)].
  Definition bwd_nbrs (c : cell) : list cell :=
    [(fst c + 1, snd c); (fst c - 1, snd c + 1); (fst c, snd c + 1); (fst c + 1, snd c + 1)].

  Definition min_of (nb : cell -> list cell) (dmin : table -> Z -> Z -> C) : Prop :=
    forall t c, (forall n, In n (nb c) -> ok (t n)) ->
      ok (dmin t (fst c) (snd c)) /\
      (exists n, In n (nb c) /\ dmin t (fst c) (snd c) = add (t n) (weight c n)) /\
      (forall n, In n (nb c) -> lt (add (t n) (weight c n)) (dmin t (fst c) (snd c)) = false).

  Lemma min_four a b c d : ok a -> ok b -> ok c -> ok d ->
    let m := cmin C lt a (cmin C lt b (cmin C lt c d)) in
    ok m /\ (m = a \/ m = b \/ m = c \/ m = d) /\ lt a m = false /\ lt b m = false /\ lt c m = false /\ lt d m = false.
  Proof using A.
    intros Ha Hb Hc Hd m. unfold m.
    destruct (cmin_le c d Hc Hd) as (O1 & L1 & L2). set (m1 := cmin C lt c d) in *.
    destruct (cmin_le b m1 Hb O1) as (O2 & L3 & L4). set (m2 := cmin C lt b m1) in *.
    destruct (cmin_le a m2 Ha O2) as (O3 & L5 & L6). set (m3 := cmin C lt a m2) in *.
    assert (M1 : m1 = c \/ m1 = d) by apply cmin_cases.
    assert (M2 : m2 = b \/ m2 = m1) by apply cmin_cases.
    assert (M3 : m3 = a \/ m3 = m2) by apply cmin_cases.
    split; [assumption|]. split; [intuition congruence|]. split; [assumption|].
    assert (L7 : lt m1 m3 = false) by (eapply (le_trans m3 m2 m1); assumption).
    repeat split.
    - apply (le_trans m3 m2 b); assumption.
    - apply (le_trans m3 m1 c); assumption.
    - apply (le_trans m3 m1 d); assumption.
  Qed.

  Lemma weight_straight a b : fst a = fst b \/ snd a = snd b -> weight a b = horiz.
  Proof. intros H. unfold weight. destruct (Z.eqb_spec (fst a) (fst b)), (Z.eqb_spec (snd a) (snd b)); try reflexivity. lia. Qed.
  Lemma weight_diag a b : fst a <> fst b -> snd a <> snd b -> weight a b = diag.
  Proof. intros H K. unfold weight. destruct (Z.eqb_spec (fst a) (fst b)), (Z.eqb_spec (snd a) (snd b)); try contradiction. reflexivity. Qed.

  Lemma fwd_is_min : min_of fwd_nbrs (fwd_min C add lt horiz diag).
  Proof using A.
    intros t c Hok. destruct c as [x y]. cbn [fst snd] in *.
    assert (H : forall n, In n (fwd_nbrs (x, y)) -> ok (add (t n) (weight (x, y) n))).
    { intros n Hn. apply (da_add_ok _ _ _ _ _ _ _ _ _ _ A); [apply weight_cases|apply Hok, Hn]. }
    pose proof (H (x - 1, y) ltac:(cbn; auto)) as H1. pose proof (H (x - 1, y - 1) ltac:(cbn; auto)) as H2.
    pose proof (H (x, y - 1) ltac:(cbn; auto)) as H3. pose proof (H (x + 1, y - 1) ltac:(cbn; auto)) as H4.
    rewrite weight_straight in H1, H3 by (cbn; lia). rewrite weight_diag in H2, H4 by (cbn; lia).
    destruct (min_four _ _ _ _ H1 H2 H3 H4) as (O & M & L1 & L2 & L3 & L4).
    unfold fwd_min. cbv zeta. split; [exact O|]. split.
    - destruct M as [M|[M|[M|M]]]; rewrite M; eexists; (split; [|f_equal; symmetry; (apply weight_straight; cbn; lia) || (apply weight_diag; cbn; lia)]); cbn; auto.
    - intros n [<-|[<-|[<-|[<-|[]]]]];
        [rewrite weight_straight by (cbn; lia)|rewrite weight_diag by (cbn; lia)|rewrite weight_straight by (cbn; lia)|rewrite weight_diag by (cbn; lia)]; assumption.
  Qed.

  Lemma bwd_is_min : min_of bwd_nbrs (bwd_min C add lt horiz diag).
  Proof using A.
    intros t c Hok. destruct c as [x y]. cbn [fst snd] in *.
    assert (H : forall n, In n (bwd_nbrs (x, y)) -> ok (add (t n) (weight (x, y) n))).
    { intros n Hn. apply (da_add_ok _ _ _ _ _ _ _ _ _ _ A); [apply weight_cases|apply Hok, Hn]. }
    pose proof (H (x + 1, y) ltac:(cbn; auto)) as H1. pose proof (H (x - 1, y + 1) ltac:(cbn; auto)) as H2.
    pose proof (H (x, y + 1) ltac:(cbn; auto)) as H3. pose proof (H (x + 1, y + 1) ltac:(cbn; auto)) as H4.
    rewrite weight_straight in H1, H3 by (cbn; lia). rewrite weight_diag in H2, H4 by (cbn; lia).
    destruct (min_four _ _ _ _ H1 H2 H3 H4) as (O & M & L1 & L2 & L3 & L4).
    unfold bwd_min. cbv zeta. split; [exact O|]. split.
    - destruct M as [M|[M|[M|M]]]; rewrite M; eexists; (split; [|f_equal; symmetry; (apply weight_straight; cbn; lia) || (apply weight_diag; cbn; lia)]); cbn; auto.
    - intros n [<-|[<-|[<-|[<-|[]]]]];
        [rewrite weight_straight by (cbn; lia)|rewrite weight_diag by (cbn; lia)|rewrite weight_straight by (cbn; lia)|rewrite weight_diag by (cbn; lia)]; assumption.
  Qed.

  Lemma nbrs_adjacent c n : adjacent8 c n <-> In n (fwd_nbrs c ++ bwd_nbrs c).
  Proof.
    destruct c as [x y], n as [u v]. unfold adjacent8, fwd_nbrs, bwd_nbrs. cbn [fst snd app In]. split.
    - intros (H & H1 & H2). assert (~ (x = u /\ y = v)) by (intros [-> ->]; apply H; reflexivity).
      assert (Hx : u = x - 1 \/ u = x \/ u = x + 1) by lia. assert (Hy : v = y - 1 \/ v = y \/ v = y + 1) by lia.
      destruct Hx as [->|[->| ->]], Hy as [->|[->| ->]]; auto 10; lia.
    - intros H. repeat match goal with K : _ \/ _ |- _ => destruct K as [K|K] end; try contradiction; injection H as <- <-; (split; [intros E; injection E; lia|lia]).
  Qed.

  (** ** The invariant *)
  Variable w h : Z.
  Variable goal : cell.
  Variable t0 : table.
  Definition inner (c : cell) : Prop := 1 <= fst c <= w - 2 /\ 1 <= snd c <= h - 2.
  (** Cells a path may use: inside the border, not infinitely expensive. *)
  Definition usable (c : cell) : Prop := inner c /\ is_inf (t0 c) = false.

  Record inv (t : table) : Prop := Inv {
    i_goal : t goal = zero;
    i_keep : forall c, c <> goal -> ~ usable c -> t c = t0 c;
    i_in : forall c, c <> goal -> usable c -> t c = maxv \/ exists p, grid_path usable c goal p /\ t c = pc p }.

  Hypothesis T0 : t0 goal = zero.
  Hypothesis T0v : forall c, c <> goal -> t0 c = maxv \/ t0 c = inf.

  Lemma usable_max c : c <> goal -> usable c -> t0 c = maxv.
  Proof using A T0v. intros H [_ Hu]. destruct (T0v c H) as [E|E]; [assumption|]. rewrite E, inf_is_inf in Hu. discriminate. Qed.

  Lemma inv_t0 : inv t0.
  Proof using A T0 T0v. constructor; auto. intros c H Hu. left. apply usable_max; assumption. Qed.

  Lemma inv_ok t : inv t -> forall c, ok (t c).
  Proof using A T0v.
    intros I c. destruct (ceqb_spec c goal) as [->|Hg]; [rewrite (i_goal t I); apply (da_ok _ _ _ _ _ _ _ _ _ _ A)|].
    assert (Hd : usable c \/ ~ usable c).
    { unfold usable, inner. destruct (is_inf (t0 c)); [right; intros [_ X]; discriminate|].
      destruct (Z_le_dec 1 (fst c)), (Z_le_dec (fst c) (w - 2)), (Z_le_dec 1 (snd c)), (Z_le_dec (snd c) (h - 2)); try (left; split; [lia|reflexivity]); right; intros [X _]; lia. }
    destruct Hd as [Hu|Hu].
    - destruct (i_in t I c Hg Hu) as [->|(p & _ & ->)]; [apply (da_ok _ _ _ _ _ _ _ _ _ _ A)|apply pc_ok].
    - rewrite (i_keep t I c Hg Hu). destruct (T0v c Hg) as [-> | ->]; apply (da_ok _ _ _ _ _ _ _ _ _ _ A).
  Qed.

  Lemma usable_dec c : usable c \/ ~ usable c.
  Proof using.
    clear - is_inf w h t0 c.
    unfold usable, inner. destruct (is_inf (t0 c)); [right; intros [_ X]; discriminate|].
    destruct (Z_le_dec 1 (fst c)), (Z_le_dec (fst c) (w - 2)), (Z_le_dec 1 (snd c)), (Z_le_dec (snd c) (h - 2)); try (left; split; [lia|reflexivity]); right; intros [X _]; lia.
  Qed.

  (** A relaxed value is the cost of a path. *)
  Lemma path_extend c n p : c <> goal -> usable c -> adjacent8 c n -> grid_path usable n goal p ->
    grid_path usable c goal (c :: p) /\ pc (c :: p) = add (pc p) (weight c n).
  Proof.
    intros Hc Hu Hadj ((Hh & Hl) & Hch & Hf). destruct p as [|n' r]; [discriminate|]. injection Hh as ->.
    split; [|apply pc_cons]. split; [split; [reflexivity|]|split].
    - assert (X : forall (l : list cell) a d e, last (a :: l) d = last (a :: l) e) by (induction l as [|b l IH]; intros a d e; [reflexivity|exact (IH b d e)]).
      change (last (n :: r) c = goal). rewrite (X r n c n). exact Hl.
    - apply chain_cons. split; assumption.
    - intros x [<-|Hx] Hne; [assumption|]. apply Hf; assumption.
  Qed.

  Lemma relax_inv nb dmin : min_of nb dmin -> (forall c n, In n (nb c) -> adjacent8 c n) ->
    forall t ch c, inner c -> inv t -> inv (fst (relax C lt is_inf dmin (t, ch) c)).
  Proof using A T0v.
    intros Hm Ha t ch c Hin I. unfold relax. destruct (is_inf (t c)) eqn:Ei; [exact I|].
    destruct (lt (dmin t (fst c) (snd c)) (t c)) eqn:El; [|exact I]. cbn [fst].
    destruct (Hm t c (fun n _ => inv_ok t I n)) as (Hok & (n & Hn & He) & _).
    assert (Hc : c <> goal). { intros ->. rewrite (i_goal t I) in El. rewrite (da_zero _ _ _ _ _ _ _ _ _ _ A) in El by assumption. discriminate. }
    assert (Hu : usable c).
    { destruct (usable_dec c) as [|Hu]; [assumption|]. exfalso. rewrite (i_keep t I c Hc Hu) in Ei. apply Hu. split; assumption. }
    assert (Hlt : lt (dmin t (fst c) (snd c)) maxv = true).
    { destruct (i_in t I c Hc Hu) as [E|(p & _ & E)]; rewrite E in El; [assumption|].
      destruct (da_fin_lt _ _ _ _ _ _ _ _ _ _ A (pc p) (pc_fin p)) as [_ F].
      apply (da_lt_trans _ _ _ _ _ _ _ _ _ _ A _ (pc p)); [assumption|apply pc_ok|apply (da_ok _ _ _ _ _ _ _ _ _ _ A)|assumption|assumption]. }
    destruct (da_max _ _ _ _ _ _ _ _ _ _ A (weight c n) (weight_cases c n)) as [M1 M2].
    assert (Hp : exists p, grid_path usable c goal p /\ dmin t (fst c) (snd c) = pc p).
    { destruct (ceqb_spec n goal) as [->|Hng].
      - destruct (path_extend c goal [goal] Hc Hu (Ha _ _ Hn)) as [P1 P2].
        { split; [split; reflexivity|]. split; [exact Logic.I|]. intros x [<-|[]] X. contradiction. }
        exists [c; goal]. split; [exact P1|]. rewrite P2, He, (i_goal t I). reflexivity.
      - destruct (usable_dec n) as [Hun|Hun].
        + destruct (i_in t I n Hng Hun) as [E|(p & Hp & E)].
          * rewrite He, E, M1 in Hlt. discriminate.
          * destruct (path_extend c n p Hc Hu (Ha _ _ Hn) Hp) as [P1 P2]. exists (c :: p). split; [exact P1|]. rewrite P2, He, E. reflexivity.
        + rewrite He, (i_keep t I n Hng Hun) in Hlt. destruct (T0v n Hng) as [E|E]; rewrite E in Hlt; congruence. }
    unfold tset. constructor.
    - destruct (ceqb_spec goal c); [congruence|apply (i_goal t I)].
    - intros x Hx Hux. destruct (ceqb_spec x c) as [->|]; [contradiction|]. apply (i_keep t I); assumption.
    - intros x Hx Hux. destruct (ceqb_spec x c) as [->|]; [right; exact Hp|apply (i_in t I); assumption].
  Qed.

  (** ** Progress: a table only gets better *)
  Definition better_eq (t' t : table) : Prop := forall c, t' c = t c \/ (ok (t' c) /\ ok (t c) /\ lt (t' c) (t c) = true).

  Lemma better_refl t : better_eq t t.
  Proof. intros c. left. reflexivity. Qed.
  Lemma better_trans a b c : better_eq a b -> better_eq b c -> better_eq a c.
  Proof using A.
    intros H K x. destruct (H x) as [->|(O1 & O2 & L1)]; [apply K|]. destruct (K x) as [E|(O3 & O4 & L2)]; right.
    - rewrite <- E. auto.
    - split; [assumption|split; [assumption|]]. eapply (da_lt_trans _ _ _ _ _ _ _ _ _ _ A _ (b x)); assumption.
  Qed.

  Lemma relax_better nb dmin : min_of nb dmin -> (forall c n, In n (nb c) -> adjacent8 c n) ->
    forall t ch c, inv t ->
      let r := relax C lt is_inf dmin (t, ch) c in
      (snd r = ch /\ fst r = t /\ (is_inf (t c) = false -> lt (dmin t (fst c) (snd c)) (t c) = false)) \/
      (snd r = true /\ better_eq (fst r) t /\ ok (fst r c) /\ ok (t c) /\ lt (fst r c) (t c) = true).
  Proof using A T0v.
    intros Hm Ha t ch c I. unfold relax. destruct (is_inf (t c)) eqn:Ei; [left; auto using eq_refl; split; [reflexivity|split; [reflexivity|discriminate]]|].
    destruct (lt (dmin t (fst c) (snd c)) (t c)) eqn:El; [|left; auto].
    right. cbn [fst snd]. destruct (Hm t c (fun n _ => inv_ok t I n)) as (Hok & _).
    assert (E : tset C t c (dmin t (fst c) (snd c)) c = dmin t (fst c) (snd c)) by (unfold tset; destruct (ceqb_spec c c); congruence).
    rewrite E. split; [reflexivity|]. split; [|split; [assumption|split; [apply inv_ok, I|assumption]]].
    intros x. unfold tset. destruct (ceqb_spec x c) as [->|]; [right; split; [assumption|split; [apply inv_ok, I|assumption]]|left; reflexivity].
  Qed.

  Definition improved (l : list cell) (t' t : table) : Prop :=
    better_eq t' t /\ exists c, In c l /\ ok (t' c) /\ ok (t c) /\ lt (t' c) (t c) = true.

  Lemma fold_relax nb dmin : min_of nb dmin -> (forall c n, In n (nb c) -> adjacent8 c n) ->
    forall l, (forall c, In c l -> inner c) -> forall t ch, inv t ->
      let r := fold_left (relax C lt is_inf dmin) l (t, ch) in
      inv (fst r) /\
      ((snd r = ch /\ fst r = t /\ forall c, In c l -> is_inf (t c) = false -> lt (dmin t (fst c) (snd c)) (t c) = false) \/
       (snd r = true /\ improved l (fst r) t)).
  Proof using A T0v.
    intros Hm Ha l. induction l as [|c l IH]; intros Hl t ch I.
    - cbn. split; [assumption|]. left. split; [reflexivity|split; [reflexivity|intros c []]].
    - cbn [fold_left]. pose proof (relax_inv nb dmin Hm Ha t ch c (Hl c (or_introl eq_refl)) I) as I1.
      pose proof (relax_better nb dmin Hm Ha t ch c I) as B. cbv zeta in B.
      destruct (relax C lt is_inf dmin (t, ch) c) as [t1 ch1] eqn:E. cbn [fst snd] in *.
      specialize (IH (fun x Hx => Hl x (or_intror Hx)) t1 ch1 I1). cbv zeta in IH.
      cbv zeta. destruct IH as [I2 IH]. split; [exact I2|].
      destruct B as [(-> & -> & Hc)|(-> & Hb & O1 & O2 & L1)], IH as [(E1 & E2 & Hn)|(E1 & Hi)].
      + left. split; [assumption|split; [assumption|]]. intros x [<-|Hx]; auto.
      + right. split; [assumption|]. destruct Hi as [B (x & Hx & R)]. split; [assumption|]. exists x. split; [right; assumption|assumption].
      + right. split; [assumption|]. rewrite E2. split; [assumption|]. exists c. split; [left; reflexivity|auto].
      + right. split; [assumption|]. destruct Hi as [B (x & Hx & R1 & R2 & R3)]. split; [eapply better_trans; eassumption|].
        exists x. split; [right; assumption|]. destruct (Hb x) as [Ex|(O3 & O4 & L2)]; [rewrite <- Ex; auto|].
        split; [assumption|split; [assumption|]]. eapply (da_lt_trans _ _ _ _ _ _ _ _ _ _ A _ (t1 x)); assumption.
  Qed.

  Lemma interior_spec c : In c (interior w h) <-> inner c.
  Proof.
    unfold interior, inner. destruct c as [x y]. cbn [fst snd]. rewrite in_flat_map. split.
    - intros (r & Hr & Hc). apply in_map_iff in Hc. destruct Hc as (q & Eq & Hq). injection Eq as -> ->.
      apply in_map_iff in Hr. destruct Hr as (r & <- & Hr). apply in_map_iff in Hq. destruct Hq as (q & <- & Hq).
      apply zrange_spec in Hr, Hq. lia.
    - intros [Hx Hy]. exists y. split; [apply in_map_iff; exists (y - 1); split; [lia|apply zrange_spec; lia]|].
      apply in_map_iff. exists x. split; [reflexivity|]. apply in_map_iff. exists (x - 1). split; [lia|apply zrange_spec; lia].
  Qed.

  Notation turn := (turn C add lt is_inf horiz diag).
  Notation sweeps := (sweeps C add lt is_inf horiz diag).

  Lemma fwd_adj c n : In n (fwd_nbrs c) -> adjacent8 c n.
  Proof. intros H. apply nbrs_adjacent, in_or_app. left. exact H. Qed.
  Lemma bwd_adj c n : In n (bwd_nbrs c) -> adjacent8 c n.
  Proof. intros H. apply nbrs_adjacent, in_or_app. right. exact H. Qed.

  (** No cell can be improved by a neighbour. *)
  Definition stable (t : table) : Prop :=
    forall c n, inner c -> is_inf (t c) = false -> adjacent8 c n -> lt (add (t n) (weight c n)) (t c) = false.

  Lemma turn_spec t : inv t ->
    let r := turn w h t in
    inv (fst r) /\ ((snd r = false /\ fst r = t /\ stable t) \/ (snd r = true /\ improved (interior w h) (fst r) t)).
  Proof using A T0v.
    intros I. unfold DistTransModel.turn.
    destruct (fold_relax fwd_nbrs _ fwd_is_min fwd_adj (interior w h) (fun c Hc => proj1 (interior_spec c) Hc) t false I) as [I1 B1].
    destruct (fold_left (relax C lt is_inf (fwd_min C add lt horiz diag)) (interior w h) (t, false)) as [t1 ch1] eqn:E1. cbn [fst snd] in *.
    assert (Hr : forall c, In c (rev (interior w h)) -> inner c) by (intros c Hc; apply in_rev in Hc; apply interior_spec; assumption).
    destruct (fold_relax bwd_nbrs _ bwd_is_min bwd_adj (rev (interior w h)) Hr t1 ch1 I1) as [I2 B2]. cbv zeta. split; [exact I2|].
    destruct B1 as [(-> & -> & N1)|(-> & Im1)], B2 as [(E2 & E3 & N2)|(E2 & Im2)].
    - left. split; [assumption|split; [assumption|]]. intros c n Hc Hi Hadj.
      apply nbrs_adjacent, in_app_or in Hadj. destruct Hadj as [Hn|Hn].
      + destruct (fwd_is_min t c (fun n _ => inv_ok t I n)) as (O & _ & L).
        eapply le_trans; [apply inv_ok, I|exact O| |apply N1; [apply interior_spec; assumption|assumption]|apply L, Hn].
        apply (da_add_ok _ _ _ _ _ _ _ _ _ _ A); [apply weight_cases|apply inv_ok, I].
      + destruct (bwd_is_min t c (fun n _ => inv_ok t I n)) as (O & _ & L).
        eapply le_trans; [apply inv_ok, I|exact O| |apply N2; [rewrite <- in_rev; apply interior_spec; assumption|assumption]|apply L, Hn].
        apply (da_add_ok _ _ _ _ _ _ _ _ _ _ A); [apply weight_cases|apply inv_ok, I].
    - right. split; [assumption|]. destruct Im2 as [B (x & Hx & R)]. split; [assumption|]. exists x. split; [apply in_rev; assumption|assumption].
    - right. split; [assumption|]. rewrite E3. assumption.
    - right. split; [assumption|]. destruct Im1 as [B1 (x & Hx & O1 & O2 & L)], Im2 as [B2 _]. split; [eapply better_trans; eassumption|].
      exists x. split; [assumption|]. destruct (B2 x) as [->|(O3 & O4 & L2)]; [auto|]. split; [assumption|split; [assumption|]].
      eapply (da_lt_trans _ _ _ _ _ _ _ _ _ _ A _ (t1 x)); assumption.
  Qed.

  Lemma sweeps_stable fuel : forall t t', inv t -> sweeps fuel w h t = Some t' -> inv t' /\ stable t'.
  Proof using A T0v.
    induction fuel as [|f IH]; intros t t' I E; [discriminate|]. cbn [DistTransModel.sweeps] in E.
    destruct (turn_spec t I) as [I1 B]. destruct (turn w h t) as [t1 ch] eqn:E1. cbn [fst snd] in *.
    destruct ch; [apply (IH t1 t' I1 E)|]. injection E as <-. destruct B as [(_ & -> & S)|(X & _)]; [auto|discriminate].
  Qed.

  (** ** Termination *)
  Lemma improved_wf l : well_founded (improved l).
  Proof using A.
    induction l as [|a l IH].
    - intros t. constructor. intros t' [_ (c & [] & _)].
    - intros t. remember (t a) as v eqn:Ev. revert t Ev.
      induction v as [v IHv] using (well_founded_induction (da_wf _ _ _ _ _ _ _ _ _ _ A)). intros t.
      induction t as [t IHt] using (well_founded_induction IH). intros Ev. constructor. intros t' [B (c & Hc & O1 & O2 & L)].
      destruct (B a) as [Ea|(Oa1 & Oa2 & La)].
      + destruct Hc as [<-|Hc]; [rewrite Ea, (da_irr _ _ _ _ _ _ _ _ _ _ A) in L; discriminate|].
        apply IHt; [|congruence]. split; [assumption|]. exists c. auto.
      + apply (IHv (t' a)); [subst v; auto|reflexivity].
  Qed.

  Lemma sweeps_mono f1 f2 : (f1 <= f2)%nat -> forall t t', sweeps f1 w h t = Some t' -> sweeps f2 w h t = Some t'.
  Proof.
    clear T0 T0v A t0 goal ok fin zero maxv inf. revert f2. induction f1 as [|f1 IH]; intros f2 Hle t t' E; [discriminate|]. destruct f2 as [|f2]; [lia|].
    cbn [DistTransModel.sweeps] in *. destruct (turn w h t) as [t1 ch]. destruct ch; [|assumption]. apply (IH f2); [lia|assumption].
  Qed.

  Lemma sweeps_terminate t : inv t -> exists fuel t', sweeps fuel w h t = Some t'.
  Proof using A T0v.
    induction t as [t IH] using (well_founded_induction (improved_wf (interior w h))). intros I.
    destruct (turn_spec t I) as [I1 B]. destruct (turn w h t) as [t1 ch] eqn:E1. cbn [fst snd] in *.
    destruct B as [(-> & -> & S)|(-> & Im)].
    - exists 1%nat, t. cbn [DistTransModel.sweeps]. rewrite E1. reflexivity.
    - destruct (IH t1 Im I1) as (f & t' & E). exists (S f), t'. cbn [DistTransModel.sweeps]. rewrite E1. exact E.
  Qed.

  (** ** Least cost *)
  Lemma grid_path_tail c n r : grid_path usable c goal (c :: n :: r) -> adjacent8 c n /\ grid_path usable n goal (n :: r).
  Proof.
    intros ((Hh & Hl) & Hch & Hf). apply chain_cons in Hch. destruct Hch as [H1 H2]. split; [assumption|].
    split; [split; [reflexivity|]|split; [assumption|intros x Hx; apply Hf; right; assumption]].
    assert (X : forall (l : list cell) a d e, last (a :: l) d = last (a :: l) e) by (induction l as [|b l IH]; intros a d e; [reflexivity|exact (IH b d e)]).
    change (last (n :: r) c = goal) in Hl. rewrite (X r n n c). exact Hl.
  Qed.

  Lemma stable_least t : inv t -> stable t -> forall p c, grid_path usable c goal p -> lt (pc p) (t c) = false.
  Proof using A T0v.
    intros I S. induction p as [|a r IH]; intros c Hp; [destruct Hp as [[X _] _]; discriminate|].
    assert (a = c) as -> by (destruct Hp as [[X _] _]; injection X; auto).
    destruct (ceqb_spec c goal) as [->|Hc]; [rewrite (i_goal t I); apply (da_zero _ _ _ _ _ _ _ _ _ _ A), pc_ok|].
    destruct r as [|n r]; [destruct Hp as [[_ X] _]; cbn in X; contradiction|].
    destruct (grid_path_tail c n r Hp) as [Hadj Hp2].
    assert (Hu : usable c) by (destruct Hp as (_ & _ & X); apply X; [left; reflexivity|assumption]).
    specialize (IH n Hp2). rewrite pc_cons.
    assert (Hi : is_inf (t c) = false).
    { destruct (i_in t I c Hc Hu) as [->|(q & _ & ->)]; [apply max_not_inf|apply fin_not_inf, pc_fin]. }
    pose proof (S c n (proj1 Hu) Hi Hadj) as L1.
    pose proof (da_mono _ _ _ _ _ _ _ _ _ _ A (t n) (pc (n :: r)) (weight c n) (weight_cases c n) (inv_ok t I n) (pc_ok _) IH) as L2.
    eapply le_trans; [| | |exact L1|exact L2]; [apply inv_ok, I| |];
      apply (da_add_ok _ _ _ _ _ _ _ _ _ _ A); auto using weight_cases, pc_ok, (inv_ok t I).
  Qed.

  (** The final table: the cost of the cheapest path, [maxv] if there is none;
      cells that are not usable keep their initial value. *)
  Lemma final_table fuel t : sweeps fuel w h t0 = Some t ->
    t goal = zero /\
    (forall c, c <> goal -> ~ usable c -> t c = t0 c) /\
    (forall c, c <> goal -> usable c ->
       (t c = maxv /\ forall p, ~ grid_path usable c goal p) \/
       (exists p, grid_path usable c goal p /\ t c = pc p /\ forall q, grid_path usable c goal q -> lt (pc q) (pc p) = false)).
  Proof using A T0 T0v.
    intros E. destruct (sweeps_stable fuel t0 t inv_t0 E) as [I S].
    split; [apply (i_goal t I)|]. split; [apply (i_keep t I)|]. intros c Hc Hu.
    destruct (i_in t I c Hc Hu) as [Em|(p & Hp & Ep)].
    - left. split; [assumption|]. intros p Hp. pose proof (stable_least t I S p c Hp) as L. rewrite Em in L.
      rewrite (proj2 (da_fin_lt _ _ _ _ _ _ _ _ _ _ A (pc p) (pc_fin p))) in L. discriminate.
    - right. exists p. split; [assumption|]. split; [assumption|]. intros q Hq. rewrite <- Ep. apply stable_least; assumption.
  Qed.

  Lemma table_exists : exists fuel t, sweeps fuel w h t0 = Some t.
  Proof using A T0 T0v. apply sweeps_terminate, inv_t0. Qed.
End Proofs.
