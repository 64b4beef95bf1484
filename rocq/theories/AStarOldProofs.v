(** Invariants of the grid A* (AStarOld.v), for arbitrary cost arithmetic. *)
From Coq Require Import Sorted Permutation.
From Verif Require Import Base GridMap GridMapProofs AStarOld PathSpec.

(** A cell of the map that the map reports free. *)
Definition free_cell (m : gridmap) (c : Z * Z) : Prop :=
  cell_of (gm_w m) (gm_h m) (fst c) (snd c) /\ isFree m (fst c) (snd c) = Some true.

Lemma last_default {A} (l : list A) d d' : l <> [] -> last l d = last l d'.
Proof.
  induction l as [|a l IH]; intros H; [congruence|]. destruct l as [|b l]; [reflexivity|].
  change (last (b :: l) d = last (b :: l) d'). apply IH. discriminate.
Qed.

Section Proofs.
  Set Default Proof Using "Type".
  Context {Dd Df : Type}.
  Variable tofloat : Dd -> Df.
  Variable zero : Dd.
  Variable step : Df -> bool -> Dd.
  Variable predict : Z * Z -> Z * Z -> Dd.
  Variable value : Df -> Df -> Z.
  Variable gt_value : Dd -> Dd -> Z -> bool.
  (* forget the arithmetic where a lemma does not mention it *)
  Ltac clr := try clear zero; try clear step; try clear tofloat; try clear predict; try clear value; try clear gt_value.

  Notation node := (node Df).
  Notation olist := (olist Df).
  Notation nvalue := (nvalue Df value).
  Notation nodes := (o_nodes Df).
  Notation opn := (o_open Df).
  Notation pos := (n_pos Df).
  Notation ini := (n_init Df).
  Notation vis := (n_visited Df).
  Notation par := (n_parent Df).
  Notation addNode := (addNode Dd Df tofloat value gt_value).
  Notation expand := (expand Dd Df tofloat step predict value gt_value).
  Notation loop := (loop Dd Df tofloat step predict value gt_value).
  Notation search := (search Dd Df tofloat zero step predict value gt_value).
  Notation planPath := (planPath Dd Df tofloat zero step predict value gt_value).
  Notation lower_bound := (lower_bound Df value).
  Notation insert_node := (insert_node Df value).
  Notation erase_node := (erase_node Df value).

  Definition le_val (ns : Z -> node) (i j : Z) : Prop := nvalue (ns i) <= nvalue (ns j).
  Notation sorted ns := (StronglySorted (le_val ns)).

  Lemma lower_bound_spec ns k l a b : lower_bound ns k l = (a, b) ->
    l = a ++ b /\ (forall i, In i a -> nvalue (ns i) < k) /\
    (forall i r, b = i :: r -> k <= nvalue (ns i)).
  Proof. clr.
    revert a b. induction l as [|i r IH]; intros a b H; simpl in H.
    - injection H as <- <-. repeat split; simpl; [tauto|discriminate].
    - destruct (Z.ltb_spec (nvalue (ns i)) k).
      + destruct (lower_bound ns k r) as [a' b'] eqn:E. injection H as <- <-.
        destruct (IH _ _ eq_refl) as (-> & Ha & Hb). repeat split; [|exact Hb].
        intros j [<-|Hj]; [assumption|auto].
      + injection H as <- <-. repeat split; simpl; [tauto|]. intros j r' Hj. injection Hj as -> ->. assumption.
  Qed.

  Lemma sorted_app_inv ns a b : sorted ns (a ++ b) ->
    sorted ns a /\ sorted ns b /\ forall i j, In i a -> In j b -> le_val ns i j.
  Proof. clr.
    induction a as [|x a IH]; simpl; intros H.
    - repeat split; [constructor|assumption|simpl; tauto].
    - inversion H as [|? ? H1 H2]; subst. destruct (IH H1) as (Ha & Hb & Hab).
      rewrite Forall_forall in H2. split; [|split].
      + constructor; [assumption|]. rewrite Forall_forall. intros y Hy. apply H2, in_or_app; auto.
      + assumption.
      + intros i j [<-|Hi] Hj; [apply H2, in_or_app; auto|auto].
  Qed.

  Lemma sorted_app ns a b : sorted ns a -> sorted ns b ->
    (forall i j, In i a -> In j b -> le_val ns i j) -> sorted ns (a ++ b).
  Proof. clr.
    induction a as [|x a IH]; simpl; intros Ha Hb Hab; [assumption|].
    inversion Ha as [|? ? H1 H2]; subst. constructor.
    - apply IH; auto.
    - rewrite Forall_forall in *. intros y Hy. apply in_app_or in Hy as [Hy|Hy]; auto.
  Qed.

  Lemma sorted_ext ns ns' l : (forall i, In i l -> nvalue (ns i) = nvalue (ns' i)) ->
    sorted ns l -> sorted ns' l.
  Proof. clr.
    induction l as [|x l IH]; intros He Hs; [constructor|].
    inversion Hs as [|? ? H1 H2]; subst. constructor.
    - apply IH; [|assumption]. intros; apply He; simpl; auto.
    - rewrite Forall_forall in *. intros y Hy. unfold le_val in *.
      rewrite <- (He x), <- (He y) by (simpl; auto). auto.
  Qed.

  Lemma insert_spec ns i l : sorted ns l ->
    sorted ns (insert_node ns i l) /\ Permutation (insert_node ns i l) (i :: l).
  Proof. clr.
    intros Hs. unfold AStarOld.insert_node.
    destruct (lower_bound ns (nvalue (ns i)) l) as [a b] eqn:E.
    destruct (lower_bound_spec _ _ _ _ _ E) as (-> & Ha & Hb).
    apply sorted_app_inv in Hs as (Sa & Sb & Sab).
    split; [|apply Permutation_sym, Permutation_middle].
    apply sorted_app; [assumption| |].
    - constructor; [assumption|]. rewrite Forall_forall. intros y Hy.
      destruct b as [|z b]; [destruct Hy|]. specialize (Hb z b eq_refl).
      unfold le_val. destruct Hy as [<-|Hy]; [assumption|].
      inversion Sb as [|? ? _ H2]; subst. rewrite Forall_forall in H2. specialize (H2 y Hy).
      unfold le_val in H2. lia.
    - intros p q Hp [<-|Hq]; [|auto]. unfold le_val. specialize (Ha _ Hp). lia.
  Qed.

  Lemma erase_from_spec i l : In i l ->
    exists l', erase_from i l = Some l' /\ Permutation l (i :: l') /\
      exists a b, l = a ++ i :: b /\ l' = a ++ b.
  Proof. clr.
    induction l as [|j r IH]; intros H; [destruct H|]. simpl.
    destruct (Z.eqb_spec j i) as [->|Hne].
    - exists r. split; [reflexivity|]. split; [reflexivity|]. exists [], r. auto.
    - destruct H as [H|H]; [congruence|]. destruct (IH H) as (l' & -> & Hp & a & b & -> & ->).
      simpl. exists (j :: a ++ b). split; [reflexivity|]. split.
      + rewrite Hp. apply perm_swap.
      + exists (j :: a), b. auto.
  Qed.

  Lemma erase_spec ns i l : sorted ns l -> In i l ->
    exists l', erase_node ns i l = Some l' /\ Permutation l (i :: l') /\ sorted ns l'.
  Proof. clr.
    intros Hs Hi. unfold AStarOld.erase_node.
    destruct (lower_bound ns (nvalue (ns i)) l) as [a b] eqn:E.
    destruct (lower_bound_spec _ _ _ _ _ E) as (-> & Ha & Hb).
    assert (Hib : In i b).
    { apply in_app_or in Hi as [Hi|Hi]; [|assumption]. specialize (Ha _ Hi). lia. }
    destruct (erase_from_spec i b Hib) as (b' & -> & Hp & x & y & -> & ->). simpl.
    exists (a ++ x ++ y). split; [reflexivity|]. split.
    - rewrite Hp. apply Permutation_sym, Permutation_middle.
    - rewrite app_assoc in Hs |- *. apply sorted_app_inv in Hs as (S1 & S2 & S3).
      inversion S2; subst. apply sorted_app; auto. intros; apply S3; simpl; auto.
  Qed.

  (** ** The invariant of one search *)
  Section Search.
    Variable m : gridmap.
    Variables start goal : Z * Z.
    Ltac clr2 := clr; try clear start; try clear goal.
    Hypothesis Hwf : gm_wf m.
    Hypothesis Hsize : gm_w m * gm_h m < 2147483648.
    Hypothesis Hgoal : cell_of (gm_w m) (gm_h m) (fst goal) (snd goal).

    Notation w := (gm_w m).
    Notation h := (gm_h m).
    Definition inside (c : Z * Z) : Prop := cell_of w h (fst c) (snd c).
    Definition idx (c : Z * Z) : Z := fst c + snd c * w.

    Lemma idx_range c : inside c -> 0 <= idx c < w * h.
    Proof. clr. unfold inside, cell_of, idx. intros [H1 H2]. nia. Qed.

    Lemma idx_inj c d : inside c -> inside d -> idx c = idx d -> c = d.
    Proof. clr2.
      unfold inside, cell_of, idx. destruct c as [x y], d as [x' y']. cbn [fst snd].
      intros [H1 H2] [H3 H4] E. assert (y = y') by nia. subst. f_equal. lia.
    Qed.

    Record inv (closed : list Z) (o : olist) : Prop := {
      i_w : o_w Df o = w; i_h : o_h Df o = h;
      i_node : forall i, ini (nodes o i) = true ->
        0 <= i < w * h /\ inside (pos (nodes o i)) /\ idx (pos (nodes o i)) = i /\
        (pos (nodes o i) = goal \/ free_cell m (pos (nodes o i)));
      i_open : forall i, In i (opn o) <-> ini (nodes o i) = true /\ vis (nodes o i) = false;
      i_nodup : NoDup (opn o);
      i_sorted : sorted (nodes o) (opn o);
      i_closed : forall i, In i closed <-> ini (nodes o i) = true /\ vis (nodes o i) = true;
      i_cnodup : NoDup closed;
      i_par : forall i, ini (nodes o i) = true ->
        match par (nodes o i) with
        | None => pos (nodes o i) = goal
        | Some k => In k closed /\ adjacent8 (pos (nodes o i)) (pos (nodes o k))
        end;
      i_order : forall a i b k, closed = a ++ i :: b -> par (nodes o i) = Some k -> In k b;
      i_goal : ini (nodes o (idx goal)) = true
    }.

    (** All free neighbours of node [i] are known. *)
    Definition expanded (o : olist) (i : Z) : Prop :=
      forall c, adjacent8 c (pos (nodes o i)) -> free_cell m c -> ini (nodes o (idx c)) = true.

    (** [o'] extends [o]: nothing forgotten, closed nodes unchanged. *)
    Definition grows (closed : list Z) (o o' : olist) : Prop :=
      (forall i, ini (nodes o i) = true -> ini (nodes o' i) = true) /\
      (forall i, In i closed -> nodes o' i = nodes o i).

    Lemma expanded_grows closed o o' i : grows closed o o' -> In i closed -> expanded o i -> expanded o' i.
    Proof. clr.
      intros [G1 G2] Hi He c Hc Hf. rewrite (G2 i Hi) in Hc. auto.
    Qed.

    Lemma upd_same {A} (f : Z -> A) i a : upd f i a i = a.
    Proof. clr. unfold upd. rewrite Z.eqb_refl. reflexivity. Qed.
    Lemma upd_other {A} (f : Z -> A) i a j : j <> i -> upd f i a j = f j.
    Proof. clr. unfold upd. intros H. destruct (Z.eqb_spec j i); [contradiction|reflexivity]. Qed.

    Lemma pos_index_idx o p : o_w Df o = w -> pos_index Df o p = idx p.
    Proof. clr. intros E. unfold pos_index, idx. rewrite E. reflexivity. Qed.

    Lemma range_checks o p : o_w Df o = w -> o_h Df o = h -> inside p ->
      in_i32 (snd p * o_w Df o) && in_i32 (pos_index Df o p) = true /\
      (pos_index Df o p >=? o_w Df o * o_h Df o) || (pos_index Df o p <? 0) = false.
    Proof using Type Hsize. clr2.
      intros Ew Eh Hp. rewrite (pos_index_idx o p Ew), Ew, Eh. pose proof (idx_range p Hp) as Hr.
      assert (0 <= snd p * w <= idx p). { unfold inside, cell_of in Hp. unfold idx. nia. }
      unfold in_i32. split; lia.
    Qed.

    Lemma addNode_spec closed o p dist pred k :
      inv closed o -> free_cell m p -> In k closed -> adjacent8 p (pos (nodes o k)) ->
      exists o', addNode o p dist pred (Some k) = Some o' /\ inv closed o' /\
        ini (nodes o' (idx p)) = true /\ grows closed o o'.
    Proof using Type Hsize. clr.
      intros I Hf Hk Hadj. pose proof (proj1 Hf) as Hp. fold (inside p) in Hp.
      pose proof (idx_range p Hp) as Hr.
      destruct (range_checks o p (i_w _ _ I) (i_h _ _ I) Hp) as [R1 R2].
      unfold AStarOld.addNode. rewrite R1, R2. cbn [negb]. rewrite (pos_index_idx o p (i_w _ _ I)).
      set (i := idx p) in *.
      destruct (ini (nodes o i)) eqn:Ei; cbn [negb].
      - (* known *)
        destruct (vis (nodes o i)) eqn:Ev; cbn [orb].
        { exists o. split; [reflexivity|]. split; [assumption|]. split; [assumption|split; auto]. }
        destruct (gt_value dist pred (nvalue (nodes o i))).
        { exists o. split; [reflexivity|]. split; [assumption|]. split; [assumption|split; auto]. }
        assert (Hin : In i (opn o)) by (apply (i_open _ _ I); auto).
        destruct (erase_spec (nodes o) i (opn o) (i_sorted _ _ I) Hin) as (l' & -> & Hp' & Hs').
        cbn [obind].
        assert (Hnd : NoDup (i :: l')) by (eapply Permutation_NoDup; [exact Hp'|apply (i_nodup _ _ I)]).
        inversion Hnd as [|? ? Hni Hnd']; subst.
        destruct (i_node _ _ I i Ei) as (N1 & N2 & N3 & N4).
        match goal with |- context [upd (nodes o) i ?n] => set (nd := n) end.
        assert (Hs2 : sorted (upd (nodes o) i nd) l').
        { apply (sorted_ext (nodes o)); [|assumption]. intros j Hj. rewrite upd_other; [reflexivity|congruence]. }
        destruct (insert_spec (upd (nodes o) i nd) i l' Hs2) as [Hs3 Hp3].
        assert (Hkn : k <> i).
        { intros ->. apply (i_closed _ _ I) in Hk as [_ Hk]. congruence. }
        assert (Hfix : forall j, ini (upd (nodes o) i nd j) = ini (nodes o j) /\
                       vis (upd (nodes o) i nd j) = vis (nodes o j) /\
                       pos (upd (nodes o) i nd j) = pos (nodes o j)).
        { intros j. destruct (Z.eq_dec j i) as [->|Hj]; [rewrite upd_same|rewrite upd_other by assumption; auto].
          unfold nd; cbn. auto. }
        eexists. split; [reflexivity|].
        split; [|split].
        + split; cbn [o_w o_h o_nodes o_open].
          * apply (i_w _ _ I).
          * apply (i_h _ _ I).
          * intros j. destruct (Hfix j) as (-> & _ & ->). apply (i_node _ _ I).
          * intros j. destruct (Hfix j) as (-> & -> & _). rewrite <- (i_open _ _ I).
            split; intros H.
            -- eapply Permutation_in; [apply Permutation_sym; exact Hp'|]. eapply Permutation_in; [exact Hp3|exact H].
            -- eapply Permutation_in; [apply Permutation_sym; exact Hp3|]. eapply Permutation_in; [exact Hp'|exact H].
          * eapply Permutation_NoDup; [apply Permutation_sym; exact Hp3|exact Hnd].
          * exact Hs3.
          * intros j. destruct (Hfix j) as (-> & -> & _). apply (i_closed _ _ I).
          * apply (i_cnodup _ _ I).
          * intros j Hj. destruct (Hfix j) as (E1 & _ & ->). rewrite E1 in Hj.
            destruct (Z.eq_dec j i) as [->|Hji].
            -- rewrite upd_same. unfold nd; cbn [n_parent]. split; [assumption|].
               rewrite upd_other by assumption.
               assert (pos (nodes o i) = p) as -> by (apply idx_inj; auto). assumption.
            -- rewrite upd_other by assumption. pose proof (i_par _ _ I j Hj) as Hpj.
               destruct (par (nodes o j)) as [q|]; [|assumption]. destruct (Hfix q) as (_ & _ & ->). assumption.
          * intros a j b q E Hq.
            assert (Hj : In j closed) by (rewrite E; apply in_or_app; simpl; auto).
            assert (j <> i). { intros ->. apply (i_closed _ _ I) in Hj as [_ Hj]. congruence. }
            rewrite upd_other in Hq by assumption. eapply (i_order _ _ I); eauto.
          * destruct (Hfix (idx goal)) as (-> & _). apply (i_goal _ _ I).
        + cbn [o_nodes]. destruct (Hfix i) as (-> & _). assumption.
        + split; cbn [o_nodes].
          * intros j. destruct (Hfix j) as (-> & _). auto.
          * intros j Hj. apply upd_other. intros ->. apply (i_closed _ _ I) in Hj as [_ Hj]. congruence.
      - (* new *)
        assert (Hni : ~ In i (opn o)) by (intros H; apply (i_open _ _ I) in H as [H _]; congruence).
        assert (Hnc : ~ In i closed) by (intros H; apply (i_closed _ _ I) in H as [H _]; congruence).
        match goal with |- context [upd (nodes o) i ?n] => set (nd := n) end.
        assert (Hs2 : sorted (upd (nodes o) i nd) (opn o)).
        { apply (sorted_ext (nodes o)); [|apply (i_sorted _ _ I)]. intros j Hj. rewrite upd_other; [reflexivity|congruence]. }
        destruct (insert_spec (upd (nodes o) i nd) i (opn o) Hs2) as [Hs3 Hp3].
        assert (Hkn : k <> i) by congruence.
        eexists. split; [reflexivity|].
        split; [|split].
        + split; cbn [o_w o_h o_nodes o_open].
          * apply (i_w _ _ I).
          * apply (i_h _ _ I).
          * intros j Hj. destruct (Z.eq_dec j i) as [->|Hji].
            -- rewrite upd_same. unfold nd; cbn [n_pos]. auto 6.
            -- rewrite upd_other in * by assumption. apply (i_node _ _ I); assumption.
          * intros j. split; intros H.
            -- apply (Permutation_in _ Hp3) in H as [<-|H].
               ++ rewrite upd_same. unfold nd; cbn. auto.
               ++ rewrite upd_other by congruence. apply (i_open _ _ I). assumption.
            -- apply (Permutation_in _ (Permutation_sym Hp3)). destruct (Z.eq_dec j i) as [->|Hji]; [left; reflexivity|].
               rewrite upd_other in H by assumption. right. apply (i_open _ _ I). assumption.
          * eapply Permutation_NoDup; [apply Permutation_sym; exact Hp3|]. constructor; [assumption|apply (i_nodup _ _ I)].
          * exact Hs3.
          * intros j. destruct (Z.eq_dec j i) as [->|Hji].
            -- rewrite upd_same. unfold nd; cbn. split; [contradiction|intros [_ H]; discriminate].
            -- rewrite upd_other by assumption. apply (i_closed _ _ I).
          * apply (i_cnodup _ _ I).
          * intros j Hj. destruct (Z.eq_dec j i) as [->|Hji].
            -- rewrite upd_same. unfold nd; cbn [n_parent n_pos]. split; [assumption|].
               rewrite upd_other by assumption. assumption.
            -- rewrite upd_other in * by assumption. pose proof (i_par _ _ I j Hj) as Hpj.
               destruct (par (nodes o j)) as [q|]; [|assumption]. destruct Hpj as [Hq Hq'].
               rewrite upd_other by congruence. auto.
          * intros a j b q E Hq.
            assert (Hj : In j closed) by (rewrite E; apply in_or_app; simpl; auto).
            rewrite upd_other in Hq by congruence. eapply (i_order _ _ I); eauto.
          * destruct (Z.eq_dec (idx goal) i) as [->|Hji]; [rewrite upd_same; reflexivity|].
            rewrite upd_other by assumption. apply (i_goal _ _ I).
        + cbn [o_nodes]. rewrite upd_same. reflexivity.
        + split; cbn [o_nodes].
          * intros j Hj. destruct (Z.eq_dec j i) as [->|Hji]; [rewrite upd_same; reflexivity|].
            rewrite upd_other by assumption. assumption.
          * intros j Hj. apply upd_other. congruence.
    Qed.

    Lemma isFreeWay_spec p : exists b, isFreeWay m p = Some b /\ (b = true <-> free_cell m p).
    Proof using Type Hwf. clr.
      unfold isFreeWay, free_cell. destruct (isInMap m (fst p) (snd p)) eqn:E; cbn [negb].
      - apply isInMap_spec in E; [|assumption].
        destruct (classify m _ _ Hwf E) as (v & _ & _ & _ & _ & Hn & _).
        destruct (isFree m (fst p) (snd p)) as [b|]; [|congruence].
        exists b. split; [reflexivity|]. split; [intros ->; auto|intros [_ H]; congruence].
      - exists false. split; [reflexivity|]. split; [discriminate|].
        intros [H _]. apply isInMap_spec in H; [congruence|assumption].
    Qed.

    Definition nb_ok (nb : list (Z * Z * bool)) : Prop :=
      forall dx dy d, In (dx, dy, d) nb -> (dx, dy) <> (0, 0) /\ Z.abs dx <= 1 /\ Z.abs dy <= 1.

    Lemma expand_spec closed k nb : nb_ok nb -> In k closed -> forall o, inv closed o ->
      exists o', expand m start k nb o = Some o' /\ inv closed o' /\ grows closed o o' /\
        forall dx dy d, In (dx, dy, d) nb ->
          let c := (fst (pos (nodes o k)) + dx, snd (pos (nodes o k)) + dy) in
          free_cell m c -> ini (nodes o' (idx c)) = true.
    Proof using Type Hwf Hsize. clr.
      intros Hnb Hk. induction nb as [|[[dx dy] d] r IH]; intros o I.
      - exists o. split; [reflexivity|]. split; [assumption|]. split; [split; auto|intros ? ? ? []].
      - cbn [AStarOld.expand]. set (p := (fst (pos (nodes o k)) + dx, snd (pos (nodes o k)) + dy)).
        destruct (isFreeWay_spec p) as (b & -> & Hb). cbn [obind].
        assert (Hr : nb_ok r) by (intros ? ? ? ?; eapply Hnb; right; eauto).
        assert (Hadj : adjacent8 p (pos (nodes o k))).
        { destruct (Hnb dx dy d (or_introl eq_refl)) as (N1 & N2 & N3). unfold adjacent8, p.
          destruct (pos (nodes o k)) as [x y]; cbn [fst snd]. split; [|lia].
          intros E. apply N1. injection E as E1 E2. f_equal; lia. }
        assert (Hstep : exists o1, (if b then addNode o p (step (n_dist Df (nodes o k)) d) (predict start p) (Some k) else Some o) = Some o1
                  /\ inv closed o1 /\ (free_cell m p -> ini (nodes o1 (idx p)) = true) /\ grows closed o o1).
        { destruct b.
          - destruct (addNode_spec closed o p (step (n_dist Df (nodes o k)) d) (predict start p) k I (proj1 Hb eq_refl) Hk Hadj)
              as (o1 & H1 & H2 & H3 & H4). exists o1; auto.
          - exists o. split; [reflexivity|]. split; [assumption|]. split; [|repeat split; auto].
            intros H. apply Hb in H. discriminate. }
        destruct Hstep as (o1 & -> & I1 & Hp1 & [G1 G1']). cbn [obind].
        destruct (IH Hr o1 I1) as (o' & E' & I' & [G2 G2'] & Hall).
        exists o'. split; [exact E'|]. split; [exact I'|]. split.
        { split; [auto|]. intros j Hj. rewrite G2', G1' by assumption. reflexivity. }
        intros dx' dy' d' [E|Hin].
        + injection E as <- <- <-. cbv zeta. fold p. intros Hf. auto.
        + specialize (Hall dx' dy' d' Hin). rewrite (G1' k Hk) in Hall. exact Hall.
    Qed.

    Lemma neighbors_ok : nb_ok neighbors.
    Proof. clr2.
      intros dx dy d H. unfold neighbors in H.
      repeat (destruct H as [H|H]; [injection H as <- <- <-; repeat split; [congruence|lia|lia]|]). destruct H.
    Qed.

    Lemma neighbors_complete dx dy : (dx, dy) <> (0, 0) -> Z.abs dx <= 1 -> Z.abs dy <= 1 ->
      exists d, In (dx, dy, d) neighbors.
    Proof. clr2.
      intros Hne Hx Hy.
      assert (Ex : dx = -1 \/ dx = 0 \/ dx = 1) by lia.
      assert (Ey : dy = -1 \/ dy = 0 \/ dy = 1) by lia.
      destruct Ex as [->|[->| ->]], Ey as [->|[->| ->]];
        solve [congruence | eexists; unfold neighbors; simpl; tauto | exists true; unfold neighbors; simpl; tauto
              | exists false; unfold neighbors; simpl; tauto].
    Qed.

    Lemma expand_expanded closed k o : inv closed o -> In k closed ->
      exists o', expand m start k neighbors o = Some o' /\ inv closed o' /\ grows closed o o' /\ expanded o' k.
    Proof using Type Hwf Hsize. clr.
      intros I Hk. destruct (expand_spec closed k neighbors neighbors_ok Hk o I) as (o' & E & I' & G & Hall).
      exists o'. split; [assumption|]. split; [assumption|]. split; [assumption|].
      intros c [Hne [Hx Hy]] Hf. destruct G as [_ G]. rewrite (G k Hk) in Hne, Hx, Hy.
      destruct c as [x y]. cbn [fst snd] in *.
      destruct (pos (nodes o k)) as [px py] eqn:Ep. cbn [fst snd] in *.
      destruct (neighbors_complete (x - px) (y - py)) as [d Hd]; try lia.
      { intros E1. apply Hne. injection E1 as E1 E2. f_equal; lia. }
      specialize (Hall _ _ _ Hd). cbv zeta in Hall.
      replace (px + (x - px)) with x in Hall by lia. replace (py + (y - py)) with y in Hall by lia.
      apply Hall. exact Hf.
    Qed.

    Lemma getFirst_spec closed o i r : inv closed o -> opn o = i :: r ->
      exists o', getFirst Df o = (Some i, o') /\ inv (i :: closed) o' /\
        (forall j, pos (nodes o' j) = pos (nodes o j)) /\ (forall j, ini (nodes o' j) = ini (nodes o j)).
    Proof. clr2.
      intros I E. unfold getFirst. rewrite E. eexists. split; [reflexivity|].
      set (ns' := upd (nodes o) i (nvisit Df (nodes o i))).
      assert (Hi : ini (nodes o i) = true /\ vis (nodes o i) = false) by (apply (i_open _ _ I); rewrite E; left; auto).
      destruct Hi as [Hi Hv].
      assert (Hnd := i_nodup _ _ I). rewrite E in Hnd. inversion Hnd as [|? ? Hni Hnd']; subst.
      assert (Hfix : forall j, ini (ns' j) = ini (nodes o j) /\ pos (ns' j) = pos (nodes o j) /\
                 par (ns' j) = par (nodes o j) /\ nvalue (ns' j) = nvalue (nodes o j)).
      { intros j. unfold ns'. destruct (Z.eq_dec j i) as [->|Hj]; [rewrite upd_same|rewrite upd_other by assumption; auto].
        cbn. auto. }
      assert (Hvis : forall j, vis (ns' j) = if Z.eqb j i then true else vis (nodes o j)).
      { intros j. unfold ns', upd. destruct (Z.eqb j i); reflexivity. }
      assert (Hnc : ~ In i closed) by (intros H; apply (i_closed _ _ I) in H as [_ H]; congruence).
      split; [|cbn [o_nodes]; split; intros j; destruct (Hfix j) as (F1 & F2 & _); assumption].
      split; cbn [o_w o_h o_nodes o_open]; fold ns'.
      - apply (i_w _ _ I).
      - apply (i_h _ _ I).
      - intros j. destruct (Hfix j) as (-> & -> & _). apply (i_node _ _ I).
      - intros j. destruct (Hfix j) as (-> & _). rewrite Hvis.
        destruct (Z.eqb_spec j i) as [->|Hj].
        + split; [contradiction|intros [_ H]; discriminate].
        + rewrite <- (i_open _ _ I), E. simpl. split; [tauto|intros [H|H]; [congruence|assumption]].
      - assumption.
      - assert (Hs := i_sorted _ _ I). rewrite E in Hs. inversion Hs; subst.
        apply (sorted_ext (nodes o)); [|assumption]. intros j _. destruct (Hfix j) as (_ & _ & _ & ->). reflexivity.
      - intros j. destruct (Hfix j) as (-> & _). rewrite Hvis. simpl.
        destruct (Z.eqb_spec j i) as [->|Hj].
        + split; [auto|intros _; left; reflexivity].
        + rewrite <- (i_closed _ _ I). split; [intros [H|H]; [congruence|assumption]|tauto].
      - constructor; [assumption|apply (i_cnodup _ _ I)].
      - intros j. destruct (Hfix j) as (-> & -> & -> & _). intros Hj. pose proof (i_par _ _ I j Hj) as Hp.
        destruct (par (nodes o j)) as [k|]; [|assumption]. destruct (Hfix k) as (_ & -> & _).
        destruct Hp. split; [right; assumption|assumption].
      - intros a j b k Ec Hk. destruct (Hfix j) as (_ & _ & Ej & _). rewrite Ej in Hk.
        destruct a as [|a0 a]; simpl in Ec; injection Ec as -> Ec.
        + subst b. pose proof (i_par _ _ I j Hi) as Hp. rewrite Hk in Hp. apply Hp.
        + eapply (i_order _ _ I); eauto.
      - destruct (Hfix (idx goal)) as (-> & _). apply (i_goal _ _ I).
    Qed.

    (** Backtracking from a closed node. *)
    Lemma backtrack_spec closed o : inv closed o -> forall n b a i fuel,
      closed = a ++ i :: b -> length b = n -> (n < fuel)%nat ->
      exists p, backtrack Df fuel (nodes o) (Some i) = Some p /\
        hd_error p = Some (pos (nodes o i)) /\ last p (pos (nodes o i)) = goal /\
        chain adjacent8 p /\ NoDup p /\
        (forall c, In c p -> exists j, In j (i :: b) /\ c = pos (nodes o j)).
    Proof. clr.
      intros I n. induction n as [n IHn] using lt_wf_ind. intros b a i fuel Ec Hl Hf.
      destruct fuel as [|fuel]; [lia|]. cbn [backtrack].
      assert (Hin : In i closed) by (rewrite Ec; apply in_or_app; simpl; auto).
      assert (Hini : ini (nodes o i) = true) by (apply (i_closed _ _ I); assumption).
      pose proof (i_par _ _ I i Hini) as Hp.
      destruct (par (nodes o i)) as [k|] eqn:Ek.
      - destruct Hp as [Hkc Hadj]. pose proof (i_order _ _ I a i b k Ec Ek) as Hkb.
        apply in_split in Hkb as (b1 & b2 & ->).
        destruct (IHn (length b2)) with (b := b2) (a := a ++ i :: b1) (i := k) (fuel := fuel)
          as (p & E & Hhd & Hlast & Hch & Hnd & Hmem).
        { rewrite app_length in Hl. simpl in Hl. lia. }
        { rewrite Ec, <- app_assoc. reflexivity. }
        { reflexivity. }
        { rewrite app_length in Hl. simpl in Hl. lia. }
        exists (pos (nodes o i) :: p). rewrite E. split; [reflexivity|]. split; [reflexivity|].
        destruct p as [|q p]; [discriminate|]. cbn [hd_error] in Hhd. injection Hhd as ->.
        split; [|split; [|split]].
        + change (last (pos (nodes o k) :: p) (pos (nodes o i)) = goal).
          rewrite (last_default _ _ (pos (nodes o k))) by discriminate. exact Hlast.
        + split; assumption.
        + constructor; [|assumption]. intros H. destruct (Hmem _ H) as (j & Hj & Ej).
          assert (Hjc : In j closed).
          { rewrite Ec. apply in_or_app. right. right. apply in_or_app. right. exact Hj. }
          assert (Hjini : ini (nodes o j) = true) by (apply (i_closed _ _ I); assumption).
          destruct (i_node _ _ I i Hini) as (_ & _ & Ei & _).
          destruct (i_node _ _ I j Hjini) as (_ & _ & Ej' & _).
          assert (j = i) by congruence. subst j.
          pose proof (i_cnodup _ _ I) as Hn. rewrite Ec in Hn. apply NoDup_remove_2 in Hn.
          apply Hn. apply in_or_app. right. apply in_or_app. right. exact Hj.
        + intros c [<-|Hc].
          * exists i. split; [left; reflexivity|reflexivity].
          * destruct (Hmem c Hc) as (j & Hj & ->). exists j. split; [|reflexivity]. right.
            apply in_or_app. right. exact Hj.
      - exists [pos (nodes o i)]. destruct fuel; cbn [backtrack obind].
        all: repeat split; auto; [constructor; [intros []|constructor]|].
        all: intros c [<-|[]]; exists i; split; [left; reflexivity|reflexivity].
    Qed.

    Lemma closed_length closed o : inv closed o -> (length closed <= Z.to_nat (w * h))%nat.
    Proof. clr.
      intros I.
      rewrite <- (map_length Z.to_nat closed).
      change (length (map Z.to_nat closed) <= Z.to_nat (w * h))%nat.
      assert (Hnd : NoDup (map Z.to_nat closed)).
      { assert (Hr : forall i, In i closed -> 0 <= i).
        { intros i Hi. apply (i_closed _ _ I) in Hi as [Hi _]. apply (i_node _ _ I) in Hi. lia. }
        pose proof (i_cnodup _ _ I) as Hn. clear - Hn Hr. induction closed as [|x l IH]; [constructor|].
        simpl. inversion Hn; subst. constructor.
        - intros Hin. apply in_map_iff in Hin as (y & Ey & Hy).
          assert (y = x) by (pose proof (Hr x (or_introl eq_refl)); pose proof (Hr y (or_intror Hy)); lia).
          subst; contradiction.
        - apply IH; [intros; apply Hr; right; assumption|assumption]. }
      rewrite <- (seq_length (Z.to_nat (w * h)) 0).
      apply NoDup_incl_length; [exact Hnd|]. intros n Hin. apply in_map_iff in Hin as (i & <- & Hi).
      apply (i_closed _ _ I) in Hi as [Hi _]. apply (i_node _ _ I) in Hi. apply in_seq. lia.
    Qed.

    Definition path_exists : Prop := exists l, grid_path (free_cell m) start goal l.

    Definition good (r : result) : Prop :=
      match r with
      | Undefined => False
      | Path p => grid_path (free_cell m) start goal p /\ NoDup p
      | NoPath => ~ path_exists
      end.

    (** A set of known nodes closed under free neighbours contains every cell
        from which the goal can be reached. *)
    Lemma reach_known o closed : inv closed o -> (forall i, ini (nodes o i) = true -> expanded o i) ->
      forall l s, grid_path (free_cell m) s goal l -> ini (nodes o (idx s)) = true.
    Proof using Type Hgoal. clr.
      intros I He l. induction l as [|a l IH]; intros s ((Hhd & Hlast) & Hch & Hfree); [discriminate|].
      cbn [hd_error] in Hhd. injection Hhd as ->.
      destruct l as [|b l].
      - cbn in Hlast. subst s. apply (i_goal _ _ I).
      - destruct Hch as [Hab Hch].
        assert (Hb : ini (nodes o (idx b)) = true).
        { apply IH. split; [split; [reflexivity|]|split; [assumption|]].
          - rewrite (last_default _ _ s) by discriminate. exact Hlast.
          - intros c Hc. apply Hfree. right. assumption. }
        destruct (Z.eq_dec (idx s) (idx goal)) as [E|E]; [rewrite E; apply (i_goal _ _ I)|].
        apply (He _ Hb).
        + assert (Hbin : inside b).
          { destruct (Z.eq_dec (idx b) (idx goal)) as [Eb|Eb].
            - destruct (i_node _ _ I _ Hb) as (_ & Hin & Ex & _).
              destruct (list_eq_dec Z.eq_dec [fst b; snd b] [fst goal; snd goal]) as [El|El].
              + assert (b = goal) as -> by (destruct b, goal; cbn in El; congruence). exact Hgoal.
              + apply Hfree; [right; left; reflexivity|]. intros ->. congruence.
            - apply Hfree; [right; left; reflexivity|]. intros ->. congruence. }
          destruct (i_node _ _ I _ Hb) as (_ & Hin & Ex & _).
          rewrite (idx_inj _ _ Hin Hbin Ex). assumption.
        + apply Hfree; [left; reflexivity|]. intros ->. congruence.
    Qed.

    Definition loop_inv (k : Z) (tail : list Z) (o : olist) : Prop :=
      inv (k :: tail) o /\
      (forall i, In i tail -> expanded o i /\ pos (nodes o i) <> start).

    Lemma loop_good fuel : forall k tail o, loop_inv k tail o ->
      (Z.to_nat (w * h) < fuel + length (k :: tail))%nat ->
      good (fst (loop fuel m start k o)).
    Proof using Type Hwf Hsize Hgoal. clr.
      induction fuel as [|fuel IH]; intros k tail o [I Htail] Hfuel.
      { pose proof (closed_length _ _ I). lia. }
      cbn [AStarOld.loop].
      assert (Hini : ini (nodes o k) = true) by (apply (i_closed _ _ I); left; reflexivity).
      destruct (cell_eqb (pos (nodes o k)) start) eqn:Es.
      - assert (Hs : pos (nodes o k) = start).
        { unfold cell_eqb in Es. destruct (pos (nodes o k)), start; cbn [fst snd] in Es. f_equal; lia. }
        destruct (backtrack_spec _ _ I (length tail) tail [] k (S (Z.to_nat (o_w Df o * o_h Df o))) eq_refl eq_refl)
          as (p & E & Hhd & Hlast & Hch & Hnd & Hmem).
        { rewrite (i_w _ _ I), (i_h _ _ I). pose proof (closed_length _ _ I). simpl in *. lia. }
        rewrite E. cbn [fst good]. split; [|assumption]. rewrite Hs in *.
        split; [split; assumption|]. split; [assumption|].
        intros c Hc Hne. destruct (Hmem c Hc) as (j & Hj & ->).
        assert (Hji : ini (nodes o j) = true) by (apply (i_closed _ _ I); exact Hj).
        destruct (i_node _ _ I j Hji) as (_ & _ & _ & [H|H]); [contradiction|assumption].
      - destruct (expand_expanded _ k o I (or_introl eq_refl)) as (o1 & E1 & I1 & G & Hexp).
        rewrite E1.
        assert (Hk : pos (nodes o1 k) <> start).
        { destruct G as [_ G]. rewrite G by (left; reflexivity). intros Ek. unfold cell_eqb in Es. rewrite Ek in Es. lia. }
        assert (Hall : forall i, In i (k :: tail) -> expanded o1 i /\ pos (nodes o1 i) <> start).
        { intros i [<-|Hi]; [auto|]. destruct (Htail i Hi) as [H1 H2]. split.
          - eapply expanded_grows; eauto. right; assumption.
          - destruct G as [_ G]. rewrite G by (right; assumption). assumption. }
        destruct (opn o1) as [|q r] eqn:Eo.
        + unfold getFirst. rewrite Eo. cbn [fst good].
          intros (l & Hl).
          assert (Hcl : forall i, ini (nodes o1 i) = true -> In i (k :: tail)).
          { intros i Hi. apply (i_closed _ _ I1). split; [assumption|].
            destruct (vis (nodes o1 i)) eqn:Ev; [reflexivity|].
            assert (In i (opn o1)) as Hc by (apply (i_open _ _ I1); auto). rewrite Eo in Hc. destruct Hc. }
          assert (Hst : ini (nodes o1 (idx start)) = true).
          { eapply reach_known; eauto. intros i Hi. apply Hall, Hcl, Hi. }
          destruct (i_node _ _ I1 _ Hst) as (_ & Hin & Ex & _).
          destruct (Hall _ (Hcl _ Hst)) as [_ Hne]. apply Hne.
          assert (Hsin : inside start).
          { destruct (list_eq_dec Z.eq_dec [fst start; snd start] [fst goal; snd goal]) as [El|El].
            - assert (start = goal) as -> by (destruct start, goal; cbn in El; congruence). exact Hgoal.
            - destruct Hl as ((Hhd & _) & _ & Hfree). apply Hfree.
              + destruct l; [discriminate|]. injection Hhd as ->. left; reflexivity.
              + intros ->. congruence. }
          apply idx_inj; assumption.
        + destruct (getFirst_spec _ _ _ _ I1 Eo) as (o2 & -> & I2 & Hp2 & Hi2).
          apply (IH q (k :: tail)).
          * split; [assumption|]. intros i Hi. destruct (Hall i Hi) as [H1 H2]. split.
            -- intros c Hc Hf. rewrite Hp2 in Hc. rewrite Hi2. auto.
            -- rewrite Hp2. assumption.
          * simpl in *. lia.
    Qed.

    Definition fresh (o : olist) : Prop :=
      o_w Df o = w /\ o_h Df o = h /\ opn o = [] /\
      forall i, ini (nodes o i) = false.

    (** Adding the goal to an empty list and taking it off again. *)
    Lemma first_spec o : fresh o -> exists o2,
      (exists o1, addNode o goal zero (predict start goal) None = Some o1 /\ getFirst Df o1 = (Some (idx goal), o2)) /\
      loop_inv (idx goal) [] o2.
    Proof using Type Hsize Hgoal. clr.
      intros (Ew & Eh & Eo & Ei).
      destruct (range_checks o goal Ew Eh Hgoal) as [R1 R2].
      unfold AStarOld.addNode. rewrite R1, R2. cbn [negb]. rewrite (pos_index_idx o goal Ew).
      rewrite Ei, Eo. cbn [negb]. unfold AStarOld.insert_node. cbn [AStarOld.lower_bound app].
      eexists. split; [eexists; split; [reflexivity|unfold getFirst; cbn [o_open]; reflexivity]|].
      cbn [o_w o_h o_nodes o_open o_used].
      set (nd := Node goal _ _ _ _ _). rewrite upd_same.
      set (ns := upd (upd (nodes o) (idx goal) nd) (idx goal) (nvisit Df nd)).
      assert (Hns : forall j, ini (ns j) = true -> j = idx goal).
      { intros j Hj. destruct (Z.eq_dec j (idx goal)) as [E|E]; [assumption|].
        unfold ns in Hj. rewrite !upd_other, Ei in Hj by assumption. discriminate. }
      assert (Hg : ns (idx goal) = nvisit Df nd) by (unfold ns; apply upd_same).
      split; [|intros i []].
      split; cbn [o_w o_h o_nodes o_open]; fold ns.
      - assumption.
      - assumption.
      - intros i Hi. apply Hns in Hi as ->. rewrite Hg. unfold nd; cbn.
        split; [apply idx_range; exact Hgoal|]. split; [exact Hgoal|auto].
      - intros i. split; [intros []|]. intros [Hi Hv]. apply Hns in Hi as ->. rewrite Hg in Hv. discriminate.
      - constructor.
      - constructor.
      - intros i. split; [intros [<-|[]]; rewrite Hg; unfold nd; cbn; auto|].
        intros [Hi _]. apply Hns in Hi as ->. left; reflexivity.
      - constructor; [intros []|constructor].
      - intros i Hi. apply Hns in Hi as ->. rewrite Hg. reflexivity.
      - intros a i b k E Hk. destruct a as [|a0 a]; [|destruct a; discriminate].
        injection E as <- <-. rewrite Hg in Hk. discriminate.
      - rewrite Hg. reflexivity.
    Qed.
  End Search.

  (** ** Between searches *)
  (** Every initialised node is recorded for reset. *)
  Definition tracked (o : olist) : Prop := forall i, ini (nodes o i) = true -> In i (o_used Df o).

  Lemma reset_all_spec l : forall ns i,
    (In i l -> ini (reset_all Df l ns i) = false) /\
    (ini (ns i) = false -> ini (reset_all Df l ns i) = false).
  Proof. clr.
    induction l as [|j r IH]; intros ns i; [split; [intros []|auto]|]. simpl.
    destruct (IH (upd ns j (nreset Df (ns j))) i) as [H1 H2].
    assert (Hj : ini (upd ns j (nreset Df (ns j)) j) = false) by (unfold upd; rewrite Z.eqb_refl; reflexivity).
    split.
    - intros [->|H]; auto.
    - intros H. apply H2. unfold upd. destruct (Z.eqb i j); [reflexivity|assumption].
  Qed.

  Lemma prepare_fresh o : tracked o -> opn (prepare Df o) = [] /\ o_used Df (prepare Df o) = [] /\
    o_w Df (prepare Df o) = o_w Df o /\ o_h Df (prepare Df o) = o_h Df o /\
    forall i, ini (nodes (prepare Df o) i) = false.
  Proof. clr.
    intros Ht. cbn. repeat split. intros i.
    destruct (reset_all_spec (o_used Df o) (nodes o) i) as [H1 H2].
    destruct (ini (nodes o i)) eqn:E; [apply H1, Ht, E|apply H2; reflexivity].
  Qed.

  Lemma search_good m start goal o : gm_wf m -> gm_w m * gm_h m < 2147483648 ->
    cell_of (gm_w m) (gm_h m) (fst goal) (snd goal) ->
    o_w Df o = gm_w m -> o_h Df o = gm_h m -> tracked o ->
    good m start goal (fst (search m start goal o)).
  Proof. clr.
    intros Hwf Hs Hg Ew Eh Ht. destruct (prepare_fresh o Ht) as (P1 & P2 & P3 & P4 & P5).
    destruct (first_spec m start goal Hs Hg (prepare Df o)) as (o2 & (o1 & E1 & E2) & HI).
    { repeat split; congruence || auto. }
    unfold AStarOld.search. rewrite E1, E2. apply (loop_good m start goal Hwf Hs Hg _ _ []); [assumption|].
    rewrite Ew, Eh. simpl. lia.
  Qed.

  Lemma planPath_good m start goal o : gm_wf m -> gm_w m * gm_h m < 2147483648 ->
    o_w Df o = gm_w m -> o_h Df o = gm_h m -> tracked o ->
    match fst (planPath m o start goal) with
    | Undefined => False
    | Path p => grid_path (free_cell m) start goal p /\ NoDup p /\
                cell_of (gm_w m) (gm_h m) (fst start) (snd start) /\
                cell_of (gm_w m) (gm_h m) (fst goal) (snd goal)
    | NoPath => cell_of (gm_w m) (gm_h m) (fst start) (snd start) ->
                cell_of (gm_w m) (gm_h m) (fst goal) (snd goal) ->
                ~ exists l, grid_path (free_cell m) start goal l
    end.
  Proof. clr.
    intros Hwf Hs Ew Eh Ht. unfold AStarOld.planPath.
    destruct (isInMap m (fst start) (snd start)) eqn:E1; cbn [negb fst].
    2:{ intros H. apply isInMap_spec in H; [congruence|assumption]. }
    destruct (isInMap m (fst goal) (snd goal)) eqn:E2; cbn [negb fst].
    2:{ intros _ H. apply isInMap_spec in H; [congruence|assumption]. }
    apply isInMap_spec in E1; [|assumption]. apply isInMap_spec in E2; [|assumption].
    pose proof (search_good m start goal o Hwf Hs E2 Ew Eh Ht) as H.
    destruct (fst (search m start goal o)); cbn [good] in H; auto. tauto.
  Qed.

  (** ** [tracked] and the sizes survive any search *)
  Lemma addNode_tracked o p d pr k o' : tracked o -> addNode o p d pr k = Some o' ->
    tracked o' /\ o_w Df o' = o_w Df o /\ o_h Df o' = o_h Df o.
  Proof. clr.
    unfold AStarOld.addNode. intros Ht. destruct (negb _); [discriminate|].
    destruct (_ || _); [intros H; injection H as <-; auto|].
    set (i := pos_index Df o p).
    destruct (ini (nodes o i)) eqn:Ei; cbn [negb].
    - destruct (_ || _); [intros H; injection H as <-; auto|].
      destruct (erase_node (nodes o) i (opn o)) as [l|]; [|discriminate]. cbn [obind].
      intros H; injection H as <-. cbn [o_w o_h]. split; [|auto]. intros j. cbn [o_nodes o_used].
      unfold upd. destruct (Z.eqb_spec j i) as [->|Hj]; cbn [n_init]; intros Hi; apply Ht; assumption.
    - intros H; injection H as <-. cbn [o_w o_h]. split; [|auto]. intros j. cbn [o_nodes o_used].
      unfold upd. destruct (Z.eqb_spec j i) as [->|Hj]; cbn [n_init]; intros Hi; [left; reflexivity|right; apply Ht; assumption].
  Qed.

  Lemma getFirst_tracked o : tracked o -> tracked (snd (getFirst Df o)) /\
    o_w Df (snd (getFirst Df o)) = o_w Df o /\ o_h Df (snd (getFirst Df o)) = o_h Df o.
  Proof. clr.
    unfold getFirst. intros Ht. destruct (opn o) as [|i r]; cbn [snd]; [auto|]. cbn [o_w o_h]. split; [|auto].
    intros j. cbn [o_nodes o_used]. unfold upd. destruct (Z.eqb_spec j i) as [->|Hj]; cbn [n_init nvisit]; apply Ht.
  Qed.

  Lemma expand_tracked m s k nb : forall o o', tracked o -> expand m s k nb o = Some o' ->
    tracked o' /\ o_w Df o' = o_w Df o /\ o_h Df o' = o_h Df o.
  Proof. clr.
    induction nb as [|[[dx dy] d] r IH]; intros o o' Ht; cbn [AStarOld.expand].
    - intros H; injection H as <-; auto.
    - set (p := (fst (pos (nodes o k)) + dx, snd (pos (nodes o k)) + dy)).
      destruct (isFreeWay m p) as [b|]; [|discriminate]. cbn [obind].
      destruct b.
      + destruct (addNode o p (step (n_dist Df (nodes o k)) d) (predict s p) (Some k)) as [o1|] eqn:E; [|discriminate].
        cbn [obind]. intros H. destruct (addNode_tracked _ _ _ _ _ _ Ht E) as (T1 & T2 & T3).
        destruct (IH _ _ T1 H) as (T4 & T5 & T6). repeat split; congruence || auto.
      + cbn [obind]. intros H. apply IH; assumption.
  Qed.

  Lemma loop_tracked fuel : forall m s k o, tracked o -> tracked (snd (loop fuel m s k o)) /\
    o_w Df (snd (loop fuel m s k o)) = o_w Df o /\ o_h Df (snd (loop fuel m s k o)) = o_h Df o.
  Proof. clr.
    induction fuel as [|fuel IH]; intros m s k o Ht; cbn [AStarOld.loop]; [auto|].
    destruct (cell_eqb _ _); [destruct (backtrack _ _ _ _); auto|].
    destruct (expand m s k neighbors o) as [o1|] eqn:E; [|auto].
    destruct (expand_tracked _ _ _ _ _ _ Ht E) as (T1 & T2 & T3).
    destruct (getFirst_tracked o1 T1) as (T4 & T5 & T6).
    destruct (getFirst Df o1) as [[q|] o2]; cbn [snd] in *.
    - destruct (IH m s q o2 T4) as (T7 & T8 & T9). repeat split; congruence || auto.
    - repeat split; congruence || auto.
  Qed.

  Lemma planPath_tracked m o s g : tracked o -> tracked (snd (planPath m o s g)) /\
    o_w Df (snd (planPath m o s g)) = o_w Df o /\ o_h Df (snd (planPath m o s g)) = o_h Df o.
  Proof. clr.
    intros Ht. unfold AStarOld.planPath. destruct (isInMap m (fst s) (snd s)); cbn [negb snd]; [|auto].
    destruct (isInMap m (fst g) (snd g)); cbn [negb snd]; [|auto].
    unfold AStarOld.search. destruct (prepare_fresh o Ht) as (P1 & P2 & P3 & P4 & P5).
    assert (Tp : tracked (prepare Df o)) by (intros i Hi; congruence).
    destruct (addNode (prepare Df o) g zero (predict s g) None) as [o1|] eqn:E; [|cbn [snd]; auto].
    destruct (addNode_tracked _ _ _ _ _ _ Tp E) as (T1 & T2 & T3).
    destruct (getFirst_tracked o1 T1) as (T4 & T5 & T6).
    destruct (getFirst Df o1) as [[q|] o2]; cbn [snd] in *; [|repeat split; congruence || auto].
    destruct (loop_tracked (S (Z.to_nat (o_w Df o * o_h Df o))) m s q o2 T4) as (T7 & T8 & T9).
    repeat split; congruence || auto.
  Qed.

  (** ** The outcome does not depend on the contents of unused nodes *)
  Definition same_nodes (f g : Z -> node) : Prop :=
    forall i, ini (f i) = ini (g i) /\ (ini (f i) = true -> f i = g i).
  Definition same (o o' : olist) : Prop :=
    o_w Df o = o_w Df o' /\ o_h Df o = o_h Df o' /\ opn o = opn o' /\ same_nodes (nodes o) (nodes o').

  Lemma lower_bound_same f g k l : (forall i, In i l -> f i = g i) -> lower_bound f k l = lower_bound g k l.
  Proof. clr.
    induction l as [|i r IH]; intros H; [reflexivity|]. simpl. rewrite (H i) by (left; reflexivity).
    rewrite IH by (intros; apply H; right; assumption). reflexivity.
  Qed.

  Definition open_ini (o : olist) : Prop := forall i, In i (opn o) -> ini (nodes o i) = true.

  Definition osame (a b : option olist) : Prop :=
    match a, b with Some o, Some o' => same o o' | None, None => True | _, _ => False end.

  Lemma same_upd f g i n : same_nodes f g -> same_nodes (upd f i n) (upd g i n).
  Proof. clr. intros H j. unfold upd. destruct (Z.eqb j i); [auto|apply H]. Qed.

  Lemma addNode_same o o' p d pr k : same o o' -> open_ini o ->
    osame (addNode o p d pr k) (addNode o' p d pr k).
  Proof. clr.
    intros (Ew & Eh & Eo & Hn) Hopen. unfold AStarOld.addNode, pos_index. rewrite <- Ew, <- Eh.
    destruct (negb _); [exact I|].
    destruct (_ || _); [repeat split; auto; apply Hn|].
    set (i := fst p + snd p * o_w Df o).
    destruct (Hn i) as [Hi Hii].
    destruct (ini (nodes o i)) eqn:Ei; rewrite <- Hi; cbn [negb].
    - rewrite <- Hii by reflexivity. destruct (_ || _); [repeat split; auto; apply Hn|].
      rewrite <- Eo. unfold AStarOld.erase_node. rewrite <- Hii by reflexivity.
      rewrite (lower_bound_same (nodes o) (nodes o')).
      2:{ intros j Hj. apply Hn, Hopen, Hj. }
      destruct (lower_bound (nodes o') (nvalue (nodes o i)) (opn o)) as [a b] eqn:Elb.
      pose proof (lower_bound_spec _ _ _ _ _ Elb) as (Esp & _).
      destruct (erase_from i b) as [b'|] eqn:Eer; [|exact I]. cbn [obind osame].
      assert (Hsub : forall j, In j (a ++ b') -> In j (opn o)).
      { rewrite Esp. clear - Eer. intros j Hj. apply in_app_or in Hj as [Hj|Hj]; apply in_or_app; [auto|right].
        revert b' Eer Hj. induction b as [|q r IH]; intros b' E Hj; [discriminate|]. simpl in E.
        destruct (Z.eqb q i); [injection E as <-; right; assumption|].
        destruct (erase_from i r) as [r'|]; [|discriminate]. cbn [obind] in E. injection E as <-.
        destruct Hj as [->|Hj]; [left; reflexivity|right; eapply IH; eauto]. }
      split; [cbn; auto|]. split; [cbn; auto|]. cbn [o_open o_nodes]. split; [|apply same_upd, Hn].
      unfold AStarOld.insert_node.
      match goal with |- context [upd (nodes o) i ?n] => set (nd := n) end.
      rewrite (lower_bound_same (upd (nodes o) i nd) (upd (nodes o') i nd)).
      { rewrite !upd_same. reflexivity. }
      intros j Hj. unfold upd. destruct (Z.eqb j i); [reflexivity|]. apply Hn, Hopen, Hsub, Hj.
    - split; [cbn; auto|]. split; [cbn; auto|]. cbn [o_open o_nodes]. split; [|apply same_upd, Hn].
      unfold AStarOld.insert_node. rewrite <- Eo.
      match goal with |- context [upd (nodes o) i ?n] => set (nd := n) end.
      rewrite (lower_bound_same (upd (nodes o) i nd) (upd (nodes o') i nd)).
      { rewrite !upd_same. reflexivity. }
      intros j Hj. unfold upd. destruct (Z.eqb j i); [reflexivity|]. apply Hn, Hopen, Hj.
  Qed.

  Section Same.
    Variable m : gridmap.
    Variables start goal : Z * Z.
    Hypothesis Hwf : gm_wf m.
    Hypothesis Hsize : gm_w m * gm_h m < 2147483648.
    Hypothesis Hgoal : cell_of (gm_w m) (gm_h m) (fst goal) (snd goal).
    Notation inv := (inv m goal).

    Lemma inv_open_ini closed o : inv closed o -> open_ini o.
    Proof. clr. intros I i Hi. apply (i_open _ _ _ _ I) in Hi. apply Hi. Qed.

    Lemma expand_same closed k nb : nb_ok nb -> In k closed -> forall o o', inv closed o -> same o o' ->
      osame (expand m start k nb o) (expand m start k nb o').
    Proof using Type Hwf Hsize. clr.
      intros Hnb Hk. induction nb as [|[[dx dy] d] r IH]; intros o o' I HS; [exact HS|].
      cbn [AStarOld.expand].
      assert (Ek : nodes o' k = nodes o k).
      { symmetry. apply HS. apply (i_closed _ _ _ _ I). assumption. }
      rewrite Ek. set (p := (fst (pos (nodes o k)) + dx, snd (pos (nodes o k)) + dy)).
      destruct (isFreeWay_spec m Hwf p) as (b & -> & Hb). cbn [obind].
      assert (Hr : nb_ok r) by (intros ? ? ? ?; eapply Hnb; right; eauto).
      assert (Hadj : adjacent8 p (pos (nodes o k))).
      { destruct (Hnb dx dy d (or_introl eq_refl)) as (N1 & N2 & N3). unfold adjacent8, p.
        destruct (pos (nodes o k)) as [x y]; cbn [fst snd]. split; [|lia].
        intros E. apply N1. injection E as E1 E2. f_equal; lia. }
      destruct b.
      - destruct (addNode_spec m goal Hsize closed o p (step (n_dist Df (nodes o k)) d) (predict start p) k I
                   (proj1 Hb eq_refl) Hk Hadj) as (o1 & E1 & I1 & _ & _).
        pose proof (addNode_same o o' p (step (n_dist Df (nodes o k)) d) (predict start p) (Some k) HS (inv_open_ini _ _ I)) as HA.
        rewrite E1 in *. destruct (addNode o' p _ _ _) as [o1'|]; [|destruct HA]. cbn [obind]. apply IH; assumption.
      - cbn [obind]. apply IH; assumption.
    Qed.

    Lemma backtrack_same closed o o' : inv closed o -> same o o' -> forall fuel i,
      (forall k, i = Some k -> In k closed) -> backtrack Df fuel (nodes o) i = backtrack Df fuel (nodes o') i.
    Proof. clr.
      intros I HS fuel. induction fuel as [|fuel IH]; intros [k|] Hi; try reflexivity. cbn [backtrack].
      specialize (Hi k eq_refl).
      assert (Hk : ini (nodes o k) = true) by (apply (i_closed _ _ _ _ I); assumption).
      assert (Ek : nodes o k = nodes o' k) by (apply HS; assumption).
      rewrite <- Ek. rewrite IH; [reflexivity|]. intros q Hq. pose proof (i_par _ _ _ _ I k Hk) as Hp.
      rewrite Hq in Hp. apply Hp.
    Qed.

    Lemma loop_same fuel : forall k closed o o', inv closed o -> In k closed -> same o o' ->
      fst (loop fuel m start k o) = fst (loop fuel m start k o').
    Proof using Type Hwf Hsize. clr.
      induction fuel as [|fuel IH]; intros k closed o o' I Hk HS; [reflexivity|]. cbn [AStarOld.loop].
      assert (Ek : nodes o' k = nodes o k).
      { symmetry. apply HS. apply (i_closed _ _ _ _ I). assumption. }
      assert (Ew : o_w Df o' = o_w Df o) by (symmetry; apply HS).
      assert (Eh : o_h Df o' = o_h Df o) by (symmetry; apply HS).
      rewrite Ek, Ew, Eh. destruct (cell_eqb _ _).
      - rewrite (backtrack_same closed o o' I HS) by (intros q Hq; injection Hq as <-; assumption).
        destruct (backtrack _ _ _ _); reflexivity.
      - destruct (expand_expanded m start goal Hwf Hsize closed k o I Hk) as (o1 & E1 & I1 & _ & _).
        pose proof (expand_same closed k neighbors neighbors_ok Hk o o' I HS) as HE.
        rewrite E1 in *. destruct (expand m start k neighbors o') as [o1'|]; [|destruct HE].
        cbn [osame] in HE.
        assert (Eo : opn o1' = opn o1) by (symmetry; apply HE).
        destruct (opn o1) as [|q r] eqn:Eopen.
        + unfold getFirst. rewrite Eopen, Eo. reflexivity.
        + destruct (getFirst_spec m goal closed o1 q r I1 Eopen) as (o2 & Eg & I2 & _).
          rewrite Eg. unfold getFirst in Eg. rewrite Eopen in Eg.
          unfold getFirst. rewrite Eo. injection Eg as <-.
          apply (IH q (q :: closed)); [exact I2|left; reflexivity|].
          assert (Hq : nodes o1 q = nodes o1' q).
          { apply HE. apply (i_open _ _ _ _ I1). rewrite Eopen. left; reflexivity. }
          split; [cbn; apply HE|]. split; [cbn; apply HE|]. split; [reflexivity|].
          cbn [o_nodes]. rewrite <- Hq. apply same_upd, HE.
    Qed.
  End Same.

  Lemma planPath_same m o o' s g : gm_wf m -> gm_w m * gm_h m < 2147483648 ->
    o_w Df o = gm_w m -> o_h Df o = gm_h m -> o_w Df o' = gm_w m -> o_h Df o' = gm_h m ->
    tracked o -> tracked o' -> fst (planPath m o s g) = fst (planPath m o' s g).
  Proof. clr.
    intros Hwf Hs Ew Eh Ew' Eh' Ht Ht'. unfold AStarOld.planPath.
    destruct (isInMap m (fst s) (snd s)); cbn [negb]; [|reflexivity].
    destruct (isInMap m (fst g) (snd g)) eqn:E2; cbn [negb]; [|reflexivity].
    apply isInMap_spec in E2; [|assumption].
    destruct (prepare_fresh o Ht) as (P1 & P2 & P3 & P4 & P5).
    destruct (prepare_fresh o' Ht') as (Q1 & Q2 & Q3 & Q4 & Q5).
    destruct (first_spec m s g Hs E2 (prepare Df o)) as (o2 & (o1 & F1 & F2) & HI).
    { repeat split; congruence || auto. }
    assert (HS : same (prepare Df o) (prepare Df o')).
    { split; [congruence|]. split; [congruence|]. split; [congruence|].
      intros i. rewrite P5, Q5. split; [reflexivity|discriminate]. }
    assert (Hop : open_ini (prepare Df o)) by (intros i Hi; rewrite P1 in Hi; destruct Hi).
    pose proof (addNode_same _ _ g zero (predict s g) None HS Hop) as HA.
    unfold AStarOld.search. rewrite F1 in *.
    destruct (addNode (prepare Df o') g zero (predict s g) None) as [o1'|] eqn:F1'; [|destruct HA].
    cbn [osame] in HA. rewrite F2.
    unfold getFirst in F2. destruct (opn o1) as [|q r] eqn:Eopen; [discriminate|]. injection F2 as Eq <-.
    unfold getFirst. assert (opn o1' = q :: r) as -> by (rewrite <- Eopen; symmetry; apply HA).
    rewrite Ew, Eh, Ew', Eh'. destruct HI as [HI _]. rewrite <- Eq in HI |- *.
    apply (loop_same m s g Hwf Hs _ q [q]); [exact HI|left; reflexivity|].
    assert (Hq : nodes o1 q = nodes o1' q).
    { apply HA. pose proof (i_goal _ _ _ _ HI) as H. cbn [o_nodes] in H. rewrite <- Eq in H.
      unfold upd in H. rewrite Z.eqb_refl in H. exact H. }
    rewrite <- Hq.
    split; [cbn; apply HA|]. split; [cbn; apply HA|]. split; [reflexivity|].
    cbn [o_nodes]. apply same_upd, HA.
  Qed.
End Proofs.
