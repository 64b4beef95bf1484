(** Properties C19, C20, C22-C25, C54 of findPath on a grid with the direct
    neighbourhood, for arbitrary cost arithmetic. *)
From Coq Require Import QArith Lqa.
From Verif Require Import Base GridMap GridMapProofs PathSpec GenericSearch GenericProofs GenericCand GenericReuse DirectSpec DirectSearch.
Open Scope Z_scope.

Lemma ceqb_spec a b : reflect (a = b) (ceqb a b).
Proof.
  destruct a as [a1 a2], b as [b1 b2]. unfold ceqb. cbn [fst snd].
  destruct (Z.eqb_spec a1 b1), (Z.eqb_spec a2 b2); cbn [andb]; constructor; congruence.
Qed.

Lemma zrange_spec n x : In x (zrange n) <-> 0 <= x < n.
Proof.
  unfold zrange. rewrite in_map_iff. split.
  - intros (k & <- & H). apply in_seq in H. lia.
  - intros H. exists (Z.to_nat x). split; [lia|]. apply in_seq. lia.
Qed.
Lemma all_cells_spec m c : In c (all_cells m) <-> cell_of (gm_w m) (gm_h m) (fst c) (snd c).
Proof. destruct c as [x y]. unfold all_cells, cell_of. rewrite in_prod_iff, !zrange_spec. reflexivity. Qed.

Lemma is_free_cell_spec m c : is_free_cell m c = true <-> isFree m (fst c) (snd c) = Some true.
Proof. unfold is_free_cell. destruct (isFree m (fst c) (snd c)) as [[|]|]; split; congruence. Qed.
Lemma is_occ_cell_spec m c : is_occ_cell m c = true <-> isOccupied m (fst c) (snd c) = Some true.
Proof. unfold is_occ_cell. destruct (isOccupied m (fst c) (snd c)) as [[|]|]; split; congruence. Qed.

(** ** C25: the direct neighbourhood *)
Lemma nsize_cases eight i : In i (seq 0 (nsize eight)) ->
  In i [0; 1; 2; 3]%nat \/ (eight = true /\ In i [4; 5; 6; 7]%nat).
Proof. destruct eight; simpl; intros H; intuition auto. Qed.

Lemma ncell_step eight D u i : 0 < D -> In i (seq 0 (nsize eight)) ->
  direct_step eight D u (ncell eight D u i) /\
  ndiag eight i = negb ((fst u =? fst (ncell eight D u i)) || (snd u =? snd (ncell eight D u i))).
Proof.
  intros HD Hi. destruct u as [x y]. unfold direct_step, ncell, ndiag. cbn [fst snd].
  destruct eight; cbn [nsize seq In] in Hi;
    repeat match type of Hi with _ \/ _ => destruct Hi as [<-|Hi] end; try destruct Hi;
    cbn [dx8 dy8 dx4 dy4 diag8 fst snd]; (split; [|lia]);
    first [split; [lia|split; [lia|intros H; injection H; lia]]|lia].
Qed.

Lemma step_ncell eight D u v : 0 < D -> direct_step eight D u v ->
  exists i, In i (seq 0 (nsize eight)) /\ ncell eight D u i = v.
Proof.
  intros HD. destruct u as [x y], v as [x' y']. unfold direct_step, ncell. cbn [fst snd].
  assert (Habs : forall a b, Z.abs (a - b) = 0 \/ Z.abs (a - b) = D -> b = a - D \/ b = a \/ b = a + D) by lia.
  destruct eight; intros H.
  - destruct H as (Hx & Hy & Hne). apply Habs in Hx, Hy.
    destruct Hx as [->|[->| ->]], Hy as [->|[->| ->]]; try (exfalso; apply Hne; reflexivity).
    + exists 0%nat. split; [simpl; tauto|reflexivity].
    + exists 3%nat. split; [simpl; tauto|reflexivity].
    + exists 5%nat. split; [simpl; tauto|reflexivity].
    + exists 1%nat. split; [simpl; tauto|reflexivity].
    + exists 6%nat. split; [simpl; tauto|reflexivity].
    + exists 2%nat. split; [simpl; tauto|reflexivity].
    + exists 4%nat. split; [simpl; tauto|reflexivity].
    + exists 7%nat. split; [simpl; tauto|reflexivity].
  - assert (Hc : (x' = x - D /\ y' = y) \/ (x' = x /\ y' = y - D) \/ (x' = x + D /\ y' = y) \/ (x' = x /\ y' = y + D)) by lia.
    destruct Hc as [[-> ->]|[[-> ->]|[[-> ->]|[-> ->]]]].
    + exists 0%nat. split; [simpl; tauto|reflexivity].
    + exists 1%nat. split; [simpl; tauto|reflexivity].
    + exists 2%nat. split; [simpl; tauto|reflexivity].
    + exists 3%nat. split; [simpl; tauto|reflexivity].
Qed.

(** Exactly the free neighbours inside the map, with the right kind of step. *)
Theorem C25_offered eight D m u v d : gm_wf m -> 0 < D ->
  In (v, d) (offered eight D m u) <->
  direct_step eight D u v /\ map_free m v /\ d = negb ((fst u =? fst v) || (snd u =? snd v)).
Proof.
  intros Hwf HD. unfold offered. rewrite in_flat_map. split.
  - intros (i & Hi & Hin). cbv zeta in Hin. destruct (ncell_step eight D u i HD Hi) as [Hs Hd].
    destruct (isInMap m _ _) eqn:Em; [|destruct Hin]. destruct (is_free_cell m _) eqn:Ef; [|destruct Hin].
    destruct Hin as [Hin|[]]. injection Hin as <- <-. split; [exact Hs|]. split; [|exact Hd].
    split; [apply isInMap_spec; assumption|apply is_free_cell_spec; assumption].
  - intros (Hs & [Hc Hf] & ->). destruct (step_ncell eight D u v HD Hs) as (i & Hi & <-). exists i. split; [exact Hi|].
    cbv zeta. rewrite (proj2 (isInMap_spec m _ _ Hwf) Hc), (proj2 (is_free_cell_spec m _) Hf). cbn [andb].
    left. f_equal. apply ncell_step; assumption.
Qed.

(** Each neighbour is offered once, and a cell is never its own neighbour. *)
Theorem C25_offered_once eight D m u : 0 < D ->
  NoDup (map fst (offered eight D m u)) /\ ~ In u (map fst (offered eight D m u)).
Proof.
  intros HD. unfold offered.
  assert (Hin : forall l v, incl l (seq 0 (nsize eight)) ->
    In v (map fst (flat_map (fun i => let c := ncell eight D u i in
       if (if isInMap m (fst c) (snd c) then is_free_cell m c else false) then [(c, ndiag eight i)] else []) l)) ->
    exists i, In i l /\ v = ncell eight D u i).
  { intros l v _ H. apply in_map_iff in H as ([w d] & <- & H). apply in_flat_map in H as (i & Hi & H). exists i. split; [exact Hi|].
    cbv zeta in H. destruct (if isInMap _ _ _ then _ else _); [|destruct H]. destruct H as [H|[]]. injection H as <- _. reflexivity. }
  assert (Hinj : forall i j, In i (seq 0 (nsize eight)) -> In j (seq 0 (nsize eight)) ->
    ncell eight D u i = ncell eight D u j -> i = j).
  { intros i j Hi Hj. destruct u as [x y]. unfold ncell. cbn [fst snd].
    destruct eight; cbn [nsize seq In] in Hi, Hj;
    repeat match type of Hi with _ \/ _ => destruct Hi as [<-|Hi] end; try destruct Hi;
    repeat match type of Hj with _ \/ _ => destruct Hj as [<-|Hj] end; try destruct Hj;
    cbn [dx8 dy8 dx4 dy4]; intros H; try reflexivity; exfalso; injection H; lia. }
  split.
  - assert (Hgen : forall l, NoDup l -> incl l (seq 0 (nsize eight)) ->
      NoDup (map fst (flat_map (fun i => let c := ncell eight D u i in
       if (if isInMap m (fst c) (snd c) then is_free_cell m c else false) then [(c, ndiag eight i)] else []) l))).
    { intros l Hnd. induction Hnd as [|i l Hi Hnd IH]; intros Hsub; [constructor|]. cbn [flat_map]. rewrite map_app.
      assert (Hsub' : incl l (seq 0 (nsize eight))) by (intros x Hx; apply Hsub; right; exact Hx).
      cbv zeta in *. destruct (if isInMap _ _ _ then _ else _); cbn [map app]; [|apply IH; exact Hsub'].
      constructor; [|apply IH; exact Hsub']. intros H. apply (Hin l _ Hsub') in H as (j & Hj & E). cbn [fst] in E.
      apply Hinj in E; [subst j; contradiction|apply Hsub; left; reflexivity|apply Hsub'; exact Hj]. }
    apply Hgen; [apply seq_NoDup|apply incl_refl].
  - intros H. apply (Hin _ _ (incl_refl _)) in H as (i & Hi & E). destruct (ncell_step eight D u i HD Hi) as [Hs _].
    rewrite <- E in Hs. unfold direct_step in Hs. destruct eight; [destruct Hs as (_ & _ & Hs); congruence|]. lia.
Qed.

Theorem C25_isGoal D g c : isGoal D g c = true <-> near D g c.
Proof. unfold isGoal, near. rewrite andb_true_iff, !Z.leb_le. reflexivity. Qed.

(** ** findPath *)
Lemma to_unsigned_spec q z : (0 <= q)%Q -> to_unsigned q = Some z -> (inject_Z z <= q < inject_Z (z + 1))%Q.
Proof.
  intros Hq H. unfold to_unsigned in H. destruct (_ && _); [|discriminate]. injection H as <-.
  destruct q as [n d]. cbn [Qnum Qden] in *. unfold Qle, Qlt, inject_Z in *. cbn [Qnum Qden] in *.
  assert (0 <= n) by lia. rewrite Z.quot_div_nonneg by lia.
  pose proof (Z.div_mod n (Zpos d) ltac:(lia)). pose proof (Z.mod_pos_bound n (Zpos d) ltac:(lia)). nia.
Qed.

Lemma lookup_cell m p c : gm_wf m -> lookup_pose m p = LCell c -> cell_of (gm_w m) (gm_h m) (fst c) (snd c).
Proof.
  intros Hwf. unfold lookup_pose. destruct (to_unsigned (snd p)) as [y|] eqn:Ey; [|discriminate].
  destruct (to_unsigned (fst p)) as [x|] eqn:Ex; [|discriminate].
  destruct (x >=? gm_w m) eqn:E1; [discriminate|]. destruct (y >=? gm_h m) eqn:E2; [discriminate|]. cbn [orb]. intros H. injection H as <-.
  unfold to_unsigned in Ex, Ey. destruct (_ && _) eqn:F1 in Ex; [|discriminate]. destruct (_ && _) eqn:F2 in Ey; [|discriminate].
  injection Ex as <-. injection Ey as <-. unfold cell_of. cbn [fst snd]. lia.
Qed.

Lemma lookup_in_cell m p c : (0 <= fst p)%Q -> (0 <= snd p)%Q -> lookup_pose m p = LCell c -> in_cell p c.
Proof.
  intros Hx Hy. unfold lookup_pose. destruct (to_unsigned (snd p)) as [y|] eqn:Ey; [|discriminate].
  destruct (to_unsigned (fst p)) as [x|] eqn:Ex; [|discriminate]. destruct (_ || _); [discriminate|]. intros H. injection H as <-.
  split; cbn [fst snd]; apply to_unsigned_spec; assumption.
Qed.

Lemma lookup_of_cell m p c : gm_wf m -> in_cell p c -> cell_of (gm_w m) (gm_h m) (fst c) (snd c) -> lookup_pose m p = LCell c.
Proof.
  intros Hwf [Hx Hy] Hc. destruct c as [cx cy], p as [px py]. cbn [fst snd] in *.
  assert (Hq : forall q z, (inject_Z z <= q < inject_Z (z + 1))%Q -> 0 <= z < 2147483648 -> to_unsigned q = Some z).
  { intros [n d] z Hz Hb. unfold to_unsigned. cbn [Qnum Qden]. unfold Qle, Qlt, inject_Z in Hz. cbn [Qnum Qden] in Hz.
    assert (E : Z.quot n (Zpos d) = z).
    { rewrite Z.quot_div_nonneg by nia. symmetry. apply (Z.div_unique_pos n (Zpos d) z (n - z * Zpos d)); nia. }
    rewrite E. destruct ((0 <=? z) && (z <? 4294967296)) eqn:E2; [reflexivity|lia]. }
  unfold cell_of, gm_wf in *. unfold lookup_pose. cbn [fst snd].
  rewrite (Hq py cy Hy ltac:(lia)), (Hq px cx Hx ltac:(lia)).
  destruct (_ || _) eqn:E; [lia|reflexivity].
Qed.

Section Props.
  Context {C : Type}.
  Variable zero inf : C.
  Variable add : C -> C -> C.
  Variable lt : C -> C -> bool.
  Variable tot : C -> C -> C.
  Variable cost : bool -> C.
  Variable heur hyp : cell -> cell -> C.
  Variable push : (cell -> C) -> cell -> list cell -> list cell.
  Variable pop : (cell -> C) -> list cell -> option (cell * list cell).
  Variable best : list (cell * C) -> option cell.
  Variable eight : bool.
  Variable D : Z.
  Hypothesis Hpush : push_ok push.
  Hypothesis Hpop : pop_ok pop.
  Hypothesis HD : 0 < D.

  Notation sobj := (sobj C).
  Notation omap := (ob_map C).
  Notation findPath := (findPath C zero add lt tot cost heur hyp push pop best eight D).
  Notation findPath_dir := (findPath_dir C zero add lt tot cost heur hyp push pop best eight D).
  Notation new_sobj := (new_sobj C zero inf).
  Notation nbrs := (nbrs C cost eight D).

  Lemma nbrs_spec m u v c : gm_wf m -> In (v, c) (nbrs m u) ->
    direct_step eight D u v /\ map_free m v /\ c = cost (negb ((fst u =? fst v) || (snd u =? snd v))).
  Proof using HD.
    intros Hwf H. unfold DirectSearch.nbrs in H. apply in_map_iff in H as ([w d] & E & H). cbn [fst snd] in E. injection E as <- <-.
    apply C25_offered in H as (A & B & ->); auto.
  Qed.
  Lemma edge_spec m u v : gm_wf m -> edge (nbrs m) u v <-> direct_step eight D u v /\ map_free m v.
  Proof using HD.
    intros Hwf. split.
    - intros (c & H). apply nbrs_spec in H as (A & B & _); auto.
    - intros [A B]. exists (cost (negb ((fst u =? fst v) || (snd u =? snd v)))). unfold DirectSearch.nbrs.
      apply in_map_iff. eexists (v, _). split; [|apply C25_offered; [assumption|assumption|split; [exact A|split; [exact B|reflexivity]]]]. reflexivity.
  Qed.
  Lemma chain_impl {A} (R S : A -> A -> Prop) : (forall a b, R a b -> S a b) -> forall l, chain R l -> chain S l.
  Proof using Type.
    intros H l. induction l as [|a [|b l] IH]; intros Hc; [exact I|exact I|]. destruct Hc as [Hab Hc]. split; [auto|]. apply IH. exact Hc.
  Qed.

  (** C19: whatever state earlier calls left the object in, whatever the
      arithmetic, the open list policy, the options and the clock. *)
  Theorem C19_path_valid fuel op (o o' : sobj) from to p :
    best_ok best -> gm_wf (omap o) ->
    (0 <= fst from)%Q -> (0 <= snd from)%Q -> (0 <= fst to)%Q -> (0 <= snd to)%Q ->
    findPath fuel op o from to = (FPath p, o') -> p <> [] ->
    exists s g t, in_cell from s /\ in_cell to g /\ near D g t /\
      direct_path eight D (omap o) s t p /\ NoDup p /\ ~ map_occupied (omap o) s /\ ~ map_occupied (omap o) g.
  Proof using Hpush Hpop HD.
    intros Hbest Hwf F1 F2 T1 T2 E Hne. unfold DirectSearch.findPath in E.
    destruct (lookup_pose (omap o) from) as [s| |] eqn:Es; [|discriminate|discriminate].
    destruct (lookup_pose (omap o) to) as [g| |] eqn:Eg; [|discriminate|discriminate].
    cbv zeta in E. match type of E with (to_fres (fst ?x), _) = _ => destruct x as [r s'] eqn:Er end. cbn [fst snd] in E.
    injection E as E _. destruct r as [| |q]; try discriminate. cbn [to_fres] in E. injection E as ->.
    apply (run_valid ceqb ceqb_spec _ _ _ _ _ _ _ _ _ Hpush Hpop _ _ _ _ _ _ _ _ Hbest) in Er.
    destruct Er as [->|(st & t & A & B & L & G & Ch & Nd)]; [congruence|].
    destruct (is_occ_cell (omap o) s) eqn:Eo; [destruct B|]. destruct B as [<-|[]].
    destruct (is_occ_cell (omap o) g) eqn:Eo2; [discriminate|]. cbn [goal_test] in G.
    exists s, g, t. split; [eapply lookup_in_cell; eassumption|]. split; [eapply lookup_in_cell; eassumption|].
    split; [apply C25_isGoal; exact G|]. split; [split; [split; assumption|]|].
    - eapply chain_impl; [|exact Ch]. intros a b H. apply edge_spec in H; assumption.
    - split; [exact Nd|]. split; intros [_ H]; apply is_occ_cell_spec in H; congruence.
  Qed.

  (** What C20 asks of the cost arithmetic on the costs that occur. *)
  Record cost_arith (ok : C -> Prop) : Prop := {
    ca_wf : well_founded (fun a b => ok a /\ ok b /\ lt a b = true);
    ca_irrefl : forall a, lt a a = false;
    ca_zero : ok zero;
    ca_add : forall d a, ok a -> ok (add a (cost d));
    ca_grow : forall d a, ok a -> lt (add a (cost d)) a = false;
    ca_trans : forall a b c, ok a -> ok b -> ok c -> lt b a = false -> lt c b = false -> lt c a = false }.

  (** C20: on a new object (or after setMap), without time limit: findPath
      terminates, with a path iff there is one from the start cell to a cell
      within the goal tolerance. *)
  Theorem C20_complete ok op m first from to s g :
    best_ok best -> (forall l, best l = None -> l = []) -> cost_arith ok -> gm_wf m ->
    (forall n, op_timeout C op n = false) ->
    in_cell from s -> in_cell to g ->
    cell_of (gm_w m) (gm_h m) (fst s) (snd s) -> cell_of (gm_w m) (gm_h m) (fst g) (snd g) ->
    ~ map_occupied m s -> ~ map_occupied m g ->
    exists fuel p o', findPath fuel op (new_sobj m first) from to = (FPath p, o') /\
      (p = [] <-> ~ exists t q, near D g t /\ direct_path eight D m s t q).
  Proof using Hpush Hpop HD.
    intros Hbest Hbs Har Hwf Hto Hs Hg Cs Cg Os Og.
    assert (Eos : is_occ_cell m s = false).
    { destruct (is_occ_cell m s) eqn:E; [|reflexivity]. apply is_occ_cell_spec in E. destruct Os. split; assumption. }
    assert (Eog : is_occ_cell m g = false).
    { destruct (is_occ_cell m g) eqn:E; [|reflexivity]. apply is_occ_cell_spec in E. destruct Og. split; assumption. }
    assert (Hao : arith_ok (all_cells m) zero add lt (nbrs m) ok).
    { constructor.
      - apply (ca_wf _ Har).
      - apply (ca_irrefl _ Har).
      - apply (ca_zero _ Har).
      - intros u v c a _ Hin Ha. apply nbrs_spec in Hin as (_ & _ & ->); [|assumption]. apply (ca_add _ Har). assumption.
      - intros u v c a _ Hin Ha. apply nbrs_spec in Hin as (_ & _ & ->); [|assumption]. apply (ca_grow _ Har). assumption.
      - apply (ca_trans _ Har). }
    assert (Hall : forall u v c, In u (all_cells m) -> In (v, c) (nbrs m u) -> In v (all_cells m)).
    { intros u v c _ Hin. apply nbrs_spec in Hin as (_ & [Hc _] & _); [|assumption]. apply all_cells_spec. exact Hc. }
    destruct (run_complete ceqb ceqb_spec (all_cells m) zero inf add lt tot (nbrs m) (goal_val C zero heur (Some g)) push pop Hpush Hpop [s]
      (goal_test D (Some g)) true (op_cand C op) (op_over C op) (goal_val C zero hyp (Some g)) best (op_timeout C op) Hbest ok Hao Hall
      ltac:(intros x [<-|[]]; apply all_cells_spec; exact Cs) Hbs Hto first) as (fuel & p & s' & Er & Hp).
    exists fuel, p. eexists. split.
    { unfold DirectSearch.findPath. cbn [ob_map ob_info ob_first DirectSearch.new_sobj].
      rewrite (lookup_of_cell m from s Hwf Hs Cs), (lookup_of_cell m to g Hwf Hg Cg), Eos, Eog. cbv zeta. cbn [somes].
      rewrite Er. cbn [fst snd to_fres]. reflexivity. }
    rewrite Hp. split; intros H H'; apply H.
    - destruct H' as (t & q & Hn & [[A B] Ch]). exists q, s, t. split; [exact A|]. split; [left; reflexivity|].
      split; [|split; [exact B|apply C25_isGoal; exact Hn]].
      eapply chain_impl; [|exact Ch]. intros a b Hab. apply edge_spec; assumption.
    - destruct H' as (q & st & t & A & [<-|[]] & Ch & L & G). exists t, q. split; [apply C25_isGoal; exact G|].
      split; [split; assumption|]. eapply chain_impl; [|exact Ch]. intros a b Hab. apply edge_spec in Hab; assumption.
  Qed.

  (** C23: reversed search. The path is in start-to-goal order; its last cell is
      the goal cell, its first one within the tolerance of the start. *)
  Theorem C23_reversed_order fuel op (o o' : sobj) from to p :
    best_ok best -> gm_wf (omap o) ->
    (0 <= fst from)%Q -> (0 <= snd from)%Q -> (0 <= fst to)%Q -> (0 <= snd to)%Q ->
    findPath_dir true fuel op o from to = (FPath p, o') -> p <> [] ->
    exists s g t, in_cell from s /\ in_cell to g /\ near D s t /\ from_to t g p /\
      chain (fun a b => direct_step eight D a b /\ map_free (omap o) a) p /\ NoDup p /\ ~ map_occupied (omap o) g.
  Proof using Hpush Hpop HD.
    intros Hbest Hwf F1 F2 T1 T2 E Hne. unfold DirectSearch.findPath_dir in E. cbv zeta in E.
    destruct (findPath fuel op o to from) as [r o1] eqn:Ef. cbn [fst snd] in E. injection E as E _.
    destruct r as [q| | |]; try discriminate. cbn [rev_fres] in E. injection E as <-.
    assert (Hq : q <> []) by (intros ->; apply Hne; reflexivity).
    destruct (C19_path_valid fuel op o o1 to from q Hbest Hwf T1 T2 F1 F2 Ef Hq) as (g & s & t & A & B & Hn & [[H1 H2] Hch] & Hnd & Hocc & _).
    assert (Hrc : forall (R S : cell -> cell -> Prop) l, (forall a b, R a b -> S b a) -> chain R l -> chain S (rev l) /\
      (forall d, last (rev l) d = hd d l) /\ hd_error (rev l) = match l with [] => None | x :: _ => Some (last l x) end).
    { clear. intros R S l HRS. induction l as [|a l IH]; intros Hc; [split; [exact I|split; reflexivity]|].
      assert (Hc' : chain R l) by (destruct l; [exact I|apply Hc]). destruct (IH Hc') as (I1 & I2 & I3). simpl rev. split; [|split].
      - assert (Hap : forall l' x, chain S l' -> (l' <> [] -> S (last l' x) x) -> chain S (l' ++ [x])).
        { clear. induction l' as [|b [|c l'] IH]; intros x H H'; [exact I|split; [apply H'; discriminate|exact I]|].
          destruct H as [Hbc H]. split; [exact Hbc|]. apply IH; [exact H|]. intros _. apply H'. discriminate. }
        apply Hap; [exact I1|]. intros Hn. rewrite I2. destruct l as [|b l]; [exfalso; apply Hn; reflexivity|]. apply HRS. apply Hc.
      - intros d. rewrite last_last. reflexivity.
      - destruct l as [|b l]; [reflexivity|]. simpl rev in I3 |- *. rewrite <- app_assoc. destruct (rev l ++ [b]) as [|z zs] eqn:Ez.
        { apply app_eq_nil in Ez as [_ Ez]. discriminate. }
        change (a :: b :: l) with ([a] ++ b :: l).
        assert (Hx : hd_error (rev l ++ [b] ++ [a]) = Some z).
        { rewrite app_assoc, Ez. reflexivity. }
        rewrite Hx. injection I3 as ->. f_equal. clear. revert b. induction l as [|c l IH]; intros b; [reflexivity|].
        simpl in *. destruct l; [reflexivity|]. apply IH. }
    destruct (Hrc (fun a b => direct_step eight D a b /\ map_free (omap o) b) (fun a b => direct_step eight D a b /\ map_free (omap o) a) q) as (R1 & R2 & R3); [|exact Hch|].
    { intros a b [Hs Hf]. split; [|exact Hf]. revert Hs. clear. destruct a as [a1 a2], b as [b1 b2]. unfold direct_step. cbn [fst snd].
      destruct eight; [|lia]. intros (X & Y & Z). split; [lia|split; [lia|congruence]]. }
    exists s, g, t. split; [exact B|]. split; [exact A|]. split; [exact Hn|]. split; [|split; [exact R1|split; [apply NoDup_rev; exact Hnd|exact Hocc]]].
    split.
    - rewrite R3. destruct q as [|x q]; [congruence|]. injection H1 as ->. rewrite H2. reflexivity.
    - rewrite R2. destruct q as [|x q]; [congruence|]. injection H1 as ->. reflexivity.
  Qed.

  (** C24: an occupied start or goal yields the empty path (no exception). *)
  Theorem C24_not_free ok op m first from to s g :
    best_ok best -> (forall l, best l = None -> l = []) -> cost_arith ok -> gm_wf m ->
    (forall n, op_timeout C op n = false) ->
    in_cell from s -> in_cell to g ->
    cell_of (gm_w m) (gm_h m) (fst s) (snd s) -> cell_of (gm_w m) (gm_h m) (fst g) (snd g) ->
    map_occupied m s \/ map_occupied m g ->
    exists fuel o', findPath fuel op (new_sobj m first) from to = (FPath [], o').
  Proof using Hpush Hpop HD.
    intros Hbest Hbs Har Hwf Hto Hs Hg Cs Cg Ho.
    assert (Hao : arith_ok (all_cells m) zero add lt (nbrs m) ok).
    { constructor.
      - apply (ca_wf _ Har).
      - apply (ca_irrefl _ Har).
      - apply (ca_zero _ Har).
      - intros u v c a _ Hin Ha. apply nbrs_spec in Hin as (_ & _ & ->); [|assumption]. apply (ca_add _ Har). assumption.
      - intros u v c a _ Hin Ha. apply nbrs_spec in Hin as (_ & _ & ->); [|assumption]. apply (ca_grow _ Har). assumption.
      - apply (ca_trans _ Har). }
    assert (Hall : forall u v c, In u (all_cells m) -> In (v, c) (nbrs m u) -> In v (all_cells m)).
    { intros u v c _ Hin. apply nbrs_spec in Hin as (_ & [Hc _] & _); [|assumption]. apply all_cells_spec. exact Hc. }
    set (start := if is_occ_cell m s then [] else [s]). set (goal := if is_occ_cell m g then None else Some g).
    assert (Hst : incl start (all_cells m)).
    { unfold start. destruct (is_occ_cell m s); intros x Hx; [destruct Hx|]. destruct Hx as [<-|[]]. apply all_cells_spec. exact Cs. }
    destruct (run_complete ceqb ceqb_spec (all_cells m) zero inf add lt tot (nbrs m) (goal_val C zero heur goal) push pop Hpush Hpop start
      (goal_test D goal) (somes goal) (op_cand C op) (op_over C op) (goal_val C zero hyp goal) best (op_timeout C op) Hbest ok Hao Hall
      Hst Hbs Hto first) as (fuel & p & s' & Er & Hp).
    assert (p = []) as ->.
    { apply Hp. intros (q & st & t & _ & Hin & _ & _ & G). destruct Ho as [[_ Ho]|[_ Ho]]; apply is_occ_cell_spec in Ho.
      - unfold start in Hin. rewrite Ho in Hin. destruct Hin.
      - unfold goal in G. rewrite Ho in G. discriminate. }
    exists fuel. eexists. unfold DirectSearch.findPath. cbn [ob_map ob_info ob_first DirectSearch.new_sobj].
    rewrite (lookup_of_cell m from s Hwf Hs Cs), (lookup_of_cell m to g Hwf Hg Cg). cbv zeta. fold start. fold goal.
    rewrite Er. cbn [fst snd to_fres]. reflexivity.
  Qed.

  (** C54: with oversearch, the path ends in a candidate nearest to the goal
      among all accepted cells that were expanded before the search stopped. *)
  Theorem C54_best_candidate fuel op m first from to p o' g :
    best_min lt best -> gm_wf m -> op_cand C op = true ->
    in_cell to g -> cell_of (gm_w m) (gm_h m) (fst g) (snd g) ->
    findPath fuel op (new_sobj m first) from to = (FPath p, o') -> p <> [] ->
    exists s t, from_to s t p /\ near D g t /\ g_expanded cell C (ob_info C o' t) = true /\
      forall v, g_expanded cell C (ob_info C o' v) = true -> near D g v -> lt (hyp v g) (hyp t g) = false.
  Proof using Hpush Hpop HD.
    intros Hbest Hwf Hcand Hg Cg E Hne. unfold DirectSearch.findPath in E. cbn [ob_map ob_info ob_first DirectSearch.new_sobj] in E.
    destruct (lookup_pose m from) as [s| |] eqn:Es; [|discriminate|discriminate].
    rewrite (lookup_of_cell m to g Hwf Hg Cg) in E.
    cbv zeta in E. rewrite Hcand in E. match type of E with (to_fres (fst ?x), _) = _ => destruct x as [r s'] eqn:Er end. cbn [fst snd] in E.
    injection E as E Eo'. destruct r as [| |q]; try discriminate. cbn [to_fres] in E. injection E as ->. subst o'. cbn [ob_info].
    apply (run_best ceqb ceqb_spec _ _ inf _ _ _ _ _ _ _ Hpush Hpop _ _ _ _ _ _ _ Hbest) in Er; [|exact Hne].
    destruct Er as (st & t & A & B & G & X & H). destruct (is_occ_cell m g); [discriminate|]. cbn [goal_test] in G, H.
    exists st, t. split; [split; assumption|]. split; [apply C25_isGoal; exact G|]. split; [exact X|].
    intros v Hv Hn. cbn [goal_val] in H. apply (H v Hv). apply C25_isGoal. exact Hn.
  Qed.

  (** C22, the part that holds: after setMap, whatever object (whatever history)
      it was called on, findPath answers as on a new object, whatever the
      uninitialised first_candidate_weight of either holds. *)
  Theorem C22_setMap_resets fuel op (o : sobj) m first from to :
    fst (findPath fuel op (setMap C zero inf o m) from to) = fst (findPath fuel op (new_sobj m first) from to).
  Proof using Type.
    unfold DirectSearch.findPath. cbn [ob_map ob_info ob_first DirectSearch.setMap DirectSearch.new_sobj].
    destruct (lookup_pose m from) as [s| |]; [|reflexivity|reflexivity].
    destruct (lookup_pose m to) as [g| |]; [|reflexivity|reflexivity].
    cbv zeta. cbn [fst]. f_equal. apply run_first.
  Qed.
End Props.
