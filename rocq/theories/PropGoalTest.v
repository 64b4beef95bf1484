(** Property C68: findPath with a goal test supplied by the caller, on a grid. *)
From Coq Require Import QArith Lqa.
From Verif Require Import Base GridMap GridMapProofs PathSpec GenericSearch GenericProofs GenericCand OpenPolicies DirectSpec DirectSearch PropGeneric
  GoalTest GoalTestProofs GoalTestOpt.
Open Scope Z_scope.

(** The cost of a cell sequence, added up from its start in the arithmetic of the search. *)
Definition diagonal (u v : cell) : bool := negb ((fst u =? fst v) || (snd u =? snd v)).
Fixpoint travelled {C} (add : C -> C -> C) (cost : bool -> C) (a : C) (p : list cell) : C :=
  match p with
  | u :: ((v :: _) as r) => travelled add cost (add a (cost (diagonal u v))) r
  | _ => a
  end.
(** The cell [t] can be reached from [s]. *)
Definition reachable (eight : bool) (D : Z) (m : gridmap) (s t : cell) : Prop := exists q, direct_path eight D m s t q.

Lemma travelled_snoc {C} add (cost : bool -> C) p : forall a u v, travelled add cost a (p ++ [u; v]) = add (travelled add cost a (p ++ [u])) (cost (diagonal u v)).
Proof.
  induction p as [|x p IH]; intros a u v; [reflexivity|]. destruct p as [|y p]; [reflexivity|].
  change ((x :: y :: p) ++ [u; v]) with (x :: ((y :: p) ++ [u; v])). change ((x :: y :: p) ++ [u]) with (x :: ((y :: p) ++ [u])).
  cbn [app travelled]. apply (IH _ u v).
Qed.
Lemma chain_snoc {A} (R : A -> A -> Prop) p : forall u v, chain R (p ++ [u; v]) <-> chain R (p ++ [u]) /\ R u v.
Proof.
  induction p as [|x p IH]; intros u v; [cbn; tauto|]. destruct p as [|y p]; [cbn; tauto|].
  cbn [app]. rewrite !chain_cons. specialize (IH u v). cbn [app] in IH. rewrite IH. tauto.
Qed.
Lemma last_snoc {A} (p : list A) x d : last (p ++ [x]) d = x.
Proof. apply last_last. Qed.

Section Props.
  Context {C T : Type}.
  Variable zero inf : C.
  Variable add : C -> C -> C.
  Variable lt : C -> C -> bool.
  Variable tot : C -> C -> C.
  Variable cost : bool -> C.
  Variable hval : cell -> C.
  Variable hgoal : bool.
  Variable push : (cell -> C) -> cell -> list cell -> list cell.
  Variable pop : (cell -> C) -> list cell -> option (cell * list cell).
  Variable best : list (cell * C) -> option cell.
  Variable eight : bool.
  Variable D : Z.
  Variable test : T -> cell -> info cell C -> T * option C * bool.
  Hypothesis Hpush : push_ok push.
  Hypothesis Hpop : pop_ok pop.
  Hypothesis HD : 0 < D.

  Notation sobj := (sobj C).
  Notation omap := (ob_map C).
  Notation findPathTest := (findPathTest C T zero add lt tot cost hval hgoal push pop best eight D test).
  Notation new_sobj := (new_sobj C zero inf).
  Notation nbrs := (nbrs C cost eight D).

  Lemma walk_travelled m s l x : gm_wf m -> walk zero add (nbrs m) [s] l x ->
    x = travelled add cost zero (rev l) /\ hd_error (rev l) = Some s /\ chain (fun a b => direct_step eight D a b /\ map_free m b) (rev l).
  Proof using HD.
    intros Hwf. induction 1 as [st Hst|u v c p x Hw (IH1 & IH2 & IH3) Hin].
    - destruct Hst as [<-|[]]. cbn. auto.
    - destruct (nbrs_spec cost eight D HD m u v c Hwf Hin) as (A & B & ->). cbn [rev] in *. rewrite <- app_assoc. cbn [app].
      rewrite travelled_snoc, <- IH1. split; [reflexivity|]. split.
      + destruct (rev p) as [|y r]; exact IH2.
      + apply chain_snoc. split; [exact IH3|]. split; assumption.
  Qed.
  Lemma travelled_walk m s : gm_wf m -> forall q t, direct_path eight D m s t q -> exists l, rev q = t :: l /\ walk zero add (nbrs m) [s] (rev q) (travelled add cost zero q).
  Proof using HD.
    intros Hwf. induction q as [|v q IH] using rev_ind; intros t [[Hh Hl] Hc]; [discriminate|].
    rewrite last_snoc in Hl. subst v. rewrite rev_unit. exists (rev q). split; [reflexivity|].
    destruct q as [|u q _] using rev_ind.
    - cbn [app] in *. injection Hh as ->. cbn. constructor. left. reflexivity.
    - rewrite <- app_assoc in Hc, Hh |- *. cbn [app] in Hc, Hh |- *. apply chain_snoc in Hc as [Hc Hs].
      destruct (IH u) as (l & El & Hw).
      { split; [split; [|apply last_snoc]|exact Hc]. destruct q as [|y q]; exact Hh. }
      rewrite travelled_snoc. rewrite El in Hw |- *. constructor; [exact Hw|].
      destruct (proj2 (edge_spec cost eight D HD m u t Hwf) Hs) as [c Hin]. destruct (nbrs_spec cost eight D HD m u t c Hwf Hin) as (_ & _ & Ec).
      unfold diagonal. rewrite <- Ec. exact Hin.
  Qed.

  (** C68, whatever state earlier calls left the object in, whatever the
      arithmetic, the policies, the options, the clock, the heuristic and the
      test: a non-empty path leads from the cell of the start pose over free
      cells, without repetition, to a cell for which the test added a candidate. *)
  Theorem C68_path_valid fuel op (o o' : sobj) from t p l :
    best_ok best -> gm_wf (omap o) -> (0 <= fst from)%Q -> (0 <= snd from)%Q ->
    findPathTest fuel op o from t = (FPath p, o', l) -> p <> [] ->
    exists s e, in_cell from s /\ ~ map_occupied (omap o) s /\ In e l /\ c_cand e <> None /\
      direct_path eight D (omap o) s (c_node e) p /\ NoDup p.
  Proof using Hpush Hpop HD.
    intros Hbo Hwf F1 F2 E Hne.
    unfold GoalTest.findPathTest in E.
    destruct (lookup_pose (omap o) from) as [s| |] eqn:Es; [|discriminate|discriminate].
    cbv zeta in E. destruct (trun _ _ _ _ _ _ _ _ _ _ _ _ _ _ _ _ _ _ _ _ _ _ _ _) as [[r s'] l'] eqn:Er.
    injection E as E _ <-. destruct r as [| |q]; try discriminate. cbn [to_fres] in E. injection E as ->.
    apply (trun_valid ceqb ceqb_spec _ _ _ _ _ _ _ _ _ _ Hpush Hpop _ _ _ _ _ _ Hbo) in Er; [|exact Hne].
    destruct Er as (st & v & A & B & L & Ch & Nd & Eb).
    destruct (is_occ_cell (omap o) s) eqn:Eo; [destruct B|]. destruct B as [<-|[]].
    destruct (Hbo _ _ Eb) as (c & Hin).
    apply in_flat_map in Hin as (e & He & Hin). destruct (c_cand e) as [c0|] eqn:Ee; [|destruct Hin]. destruct Hin as [Hin|[]]. injection Hin as <- <-.
    exists s, e. split; [eapply lookup_in_cell; eassumption|]. split; [intros [_ H]; apply is_occ_cell_spec in H; congruence|].
    split; [exact He|]. split; [congruence|]. split; [split; [split; assumption|]|exact Nd].
    eapply chain_impl; [|exact Ch]. intros a b H. apply (edge_spec cost eight D HD) in H; assumption.
  Qed.

  (** No candidate added during the search was given a smaller cost, if the
      costs given are comparable ([okc]: for doubles, not NaN). *)
  Theorem C68_least_candidate (okc : C -> Prop) fuel op (o o' : sobj) from t p l :
    best_ok best -> (forall l v, (forall x d, In (x, d) l -> okc d) -> best l = Some v -> exists c, In (v, c) l /\ forall x d, In (x, d) l -> lt d c = false) ->
    findPathTest fuel op o from t = (FPath p, o', l) -> p <> [] -> (forall e c, In e l -> c_cand e = Some c -> okc c) ->
    exists e c, In e l /\ c_cand e = Some c /\ (forall d, last p d = c_node e) /\ forall e' c', In e' l -> c_cand e' = Some c' -> lt c' c = false.
  Proof using Hpush Hpop HD.
    intros Hbo Hbest E Hne Hokc.
    unfold GoalTest.findPathTest in E.
    destruct (lookup_pose (omap o) from) as [s| |] eqn:Es; [|discriminate|discriminate].
    cbv zeta in E. destruct (trun _ _ _ _ _ _ _ _ _ _ _ _ _ _ _ _ _ _ _ _ _ _ _ _) as [[r s'] l'] eqn:Er.
    injection E as E _ <-. destruct r as [| |q]; try discriminate. cbn [to_fres] in E. injection E as ->.
    apply (trun_valid ceqb ceqb_spec _ _ _ _ _ _ _ _ _ _ Hpush Hpop _ _ _ _ _ _ Hbo) in Er; [|exact Hne].
    destruct Er as (st & v & A & B & L & Ch & Nd & Eb).
    destruct (Hbest (cands l') v) as (c & Hin & Hm); [|exact Eb|].
    { intros x d Hin. apply in_flat_map in Hin as (e & He & Hin). destruct (c_cand e) as [c0|] eqn:Ee; [|destruct Hin]. destruct Hin as [Hin|[]]. injection Hin as <- <-. eapply Hokc; eassumption. }
    apply in_flat_map in Hin as (e & He & Hin). destruct (c_cand e) as [c0|] eqn:Ee; [|destruct Hin]. destruct Hin as [Hin|[]]. injection Hin as <- <-.
    exists e, c0. split; [exact He|]. split; [exact Ee|]. split.
    - intros d. rewrite <- L. destruct p as [|x p]; [congruence|]. clear. revert x. induction p as [|y p IH]; intros x; [reflexivity|]. apply (IH y).
    - intros e' c' He' Hc'. apply (Hm (c_node e')). apply in_flat_map. exists e'. split; [exact He'|]. rewrite Hc'. left. reflexivity.
  Qed.

  (** A test that only answers true, without adding a candidate, always gets the empty path. *)
  Theorem C68_answer_alone fuel op (o o' : sobj) from t p l :
    best_ok best -> gm_wf (omap o) -> (0 <= fst from)%Q -> (0 <= snd from)%Q ->
    (forall t v i, snd (fst (test t v i)) = None) ->
    findPathTest fuel op o from t = (FPath p, o', l) -> p = [].
  Proof using Hpush Hpop HD.
    intros Hbest Hwf F1 F2 Hn E. destruct p as [|x p]; [reflexivity|]. exfalso.
    destruct (C68_path_valid fuel op o o' from t (x :: p) l Hbest Hwf F1 F2 E) as (s & e & _ & _ & He & Hc & _); [discriminate|].
    unfold GoalTest.findPathTest in E. destruct (lookup_pose (omap o) from) as [s0| |]; [|discriminate|discriminate].
    cbv zeta in E. destruct (trun _ _ _ _ _ _ _ _ _ _ _ _ _ _ _ _ _ _ _ _ _ _ _ _) as [[r s'] l'] eqn:Er. injection E as _ _ ->.
    unfold trun in Er. revert He Er. generalize (init_search cell C ceqb zero tot push (if is_occ_cell (omap o) s0 then [] else [s0]) (ob_info C o) (ob_first C o)).
    generalize 0%nat. clear - Hn Hc. revert t l r s'. induction fuel as [|k IH]; intros t l r s' n s He E; cbn [tloop] in E; [injection E as _ _ <-; destruct He|].
    destruct (s_open cell C s) as [|hd0 tl0]; [injection E as _ _ <-; destruct He|]. destruct (op_timeout C op n); [injection E as _ _ <-; destruct He|].
    destruct (pop _ _) as [[cur o1]|]; [|injection E as _ _ <-; destruct He]. cbv zeta in E.
    match type of E with context [test ?a ?b ?i] => specialize (Hn a b i) as Hn'; destruct (test a b i) as [[t' cand] term] end. cbn [fst snd] in Hn'. subst cand.
    assert (H1 : forall l0, In e [Call cell C cur None term] -> l0 = l -> False) by (intros l0 [<-|[]] _; apply Hc; reflexivity).
    destruct term; [injection E as _ _ <-; eapply H1; [exact He|reflexivity]|]. destruct (_ && _ && _); [injection E as _ _ <-; eapply H1; [exact He|reflexivity]|].
    destruct (process_all _ _ _ _ _ _ _ _ _ _ _ _) as [s3|]; [|injection E as _ _ <-; eapply H1; [exact He|reflexivity]].
    match type of E with context [tloop ?a1 ?a2 ?a3 ?a4 ?a5 ?a6 ?a7 ?a8 ?a9 ?b1 ?b2 ?b3 ?b4 ?b5 ?b6 ?b7 ?b8 ?b9 ?c1 k ?c2 t' s3] =>
      destruct (tloop a1 a2 a3 a4 a5 a6 a7 a8 a9 b1 b2 b3 b4 b5 b6 b7 b8 b9 c1 k c2 t' s3) as [[r0 s0'] l0] eqn:El end.
    injection E as _ _ <-. destruct He as [<-|He]; [apply Hc; reflexivity|]. eapply IH; [exact He|exact El].
  Qed.

  Lemma reach_path m s v : gm_wf m -> reach (nbrs m) [s] v -> reachable eight D m s v.
  Proof using HD.
    intros Hwf. induction 1 as [v [<-|[]]|u v _ (q & [Hh Hl] & Hc) He]; [exists [s]; repeat split|].
    apply (edge_spec cost eight D HD) in He; [|assumption]. exists (q ++ [v]).
    destruct q as [|x q] using rev_ind; [discriminate|]. clear IHq. rewrite last_snoc in Hl. subst x.
    split; [split; [|apply last_snoc]|].
    - destruct q; exact Hh.
    - rewrite <- app_assoc. cbn [app]. apply chain_snoc. split; assumption.
  Qed.
  Lemma path_reach m s v : gm_wf m -> reachable eight D m s v -> reach (nbrs m) [s] v.
  Proof using HD.
    intros Hwf (q & Hq). revert v Hq. induction q as [|x q IH] using rev_ind; intros v [[Hh Hl] Hc]; [discriminate|].
    rewrite last_snoc in Hl. subst x. destruct q as [|u q _] using rev_ind.
    - injection Hh as ->. constructor. left. reflexivity.
    - rewrite <- app_assoc in Hc, Hh. cbn [app] in Hc, Hh. apply chain_snoc in Hc as [Hc Hs]. apply (reach_step _ _ u).
      + apply IH. split; [split; [|apply last_snoc]|exact Hc]. destruct q; exact Hh.
      + apply (edge_spec cost eight D HD); assumption.
  Qed.

  (** The test is asked about cells reachable from the cell of the start pose
      only, and not at all if that cell is occupied. *)
  Theorem C68_asked fuel op (o o' : sobj) from t r l :
    gm_wf (omap o) -> (0 <= fst from)%Q -> (0 <= snd from)%Q ->
    findPathTest fuel op o from t = (r, o', l) -> forall e, In e l ->
    exists s, in_cell from s /\ ~ map_occupied (omap o) s /\ reachable eight D (omap o) s (c_node e).
  Proof using Hpush Hpop HD.
    intros Hwf F1 F2 E e He. unfold GoalTest.findPathTest in E.
    destruct (lookup_pose (omap o) from) as [s| |] eqn:Es; [|injection E as _ _ <-; destruct He..].
    cbv zeta in E. destruct (trun _ _ _ _ _ _ _ _ _ _ _ _ _ _ _ _ _ _ _ _ _ _ _ _) as [[r' s'] l'] eqn:Er.
    injection E as _ _ ->. pose proof (trun_reach ceqb ceqb_spec _ _ _ _ _ _ _ _ _ _ Hpush Hpop _ _ _ _ _ _ _ _ _ _ _ _ _ Er e He) as Hr.
    exists s. split; [eapply lookup_in_cell; eassumption|].
    destruct (is_occ_cell (omap o) s) eqn:Eo.
    - exfalso. clear - Hr. induction Hr as [v []|]; assumption.
    - split; [intros [_ H]; apply is_occ_cell_spec in H; congruence|]. apply reach_path; assumption.
  Qed.

  (** The call a search object makes of the test, seen from outside, is recorded
      faithfully: the reactions recorded are those of the test to the cells
      recorded, in the states they led to. *)
  Fixpoint reacts (t : T) (l : list (call cell C)) : Prop :=
    match l with
    | [] => True
    | e :: r => exists i t', test t (c_node e) i = (t', c_cand e, c_term e) /\ reacts t' r
    end.
  Theorem C68_reactions fuel op (o o' : sobj) from t r l : findPathTest fuel op o from t = (r, o', l) -> reacts t l /\
    (forall e l1 l2, l = l1 ++ e :: l2 -> c_term e = true -> l2 = []).
  Proof using Type.
    unfold GoalTest.findPathTest. intros E. assert (Hnil : reacts t [] /\ (forall e l1 l2, @nil (call cell C) = l1 ++ e :: l2 -> c_term e = true -> l2 = []))
      by (split; [exact Logic.I|intros e l1 l2 X; destruct l1; discriminate]).
    destruct (lookup_pose (omap o) from) as [s0| |]; [|injection E as _ _ <-; exact Hnil..].
    cbv zeta in E. destruct (trun _ _ _ _ _ _ _ _ _ _ _ _ _ _ _ _ _ _ _ _ _ _ _ _) as [[r' s'] l'] eqn:Er. injection E as _ _ ->.
    clear Hnil. unfold trun in Er. revert Er. generalize (init_search cell C ceqb zero tot push (if is_occ_cell (omap o) s0 then [] else [s0]) (ob_info C o) (ob_first C o)).
    generalize 0%nat. revert t l r' s'. induction fuel as [|k IH]; intros t l r0 s' n s E; cbn [tloop] in E.
    all: assert (Hnil : reacts t [] /\ (forall e l1 l2, @nil (call cell C) = l1 ++ e :: l2 -> c_term e = true -> l2 = []))
      by (split; [exact Logic.I|intros e l1 l2 X; destruct l1; discriminate]).
    { injection E as _ _ <-; exact Hnil. }
    destruct (s_open cell C s) as [|hd0 tl0]; [injection E as _ _ <-; exact Hnil|]. destruct (op_timeout C op n); [injection E as _ _ <-; exact Hnil|].
    destruct (pop _ _) as [[cur o1]|]; [|injection E as _ _ <-; exact Hnil]. cbv zeta in E.
    match type of E with context [test ?a ?b ?i] => destruct (test a b i) as [[t' cand] term] eqn:Et; set (ii := i) in * end.
    assert (H1 : reacts t [Call cell C cur cand term] /\ (forall e l1 l2, [Call cell C cur cand term] = l1 ++ e :: l2 -> c_term e = true -> l2 = [])).
    { split; [exists ii, t'; split; [exact Et|exact Logic.I]|]. intros e l1 l2 X _. destruct l1 as [|x [|y l1]]; cbn [app] in X; [injection X as X1 X2; symmetry; exact X2|discriminate|discriminate]. }
    destruct term; [injection E as _ _ <-; exact H1|]. destruct (_ && _ && _); [injection E as _ _ <-; exact H1|].
    destruct (process_all _ _ _ _ _ _ _ _ _ _ _ _) as [s3|]; [|injection E as _ _ <-; exact H1].
    match type of E with context [tloop ?a1 ?a2 ?a3 ?a4 ?a5 ?a6 ?a7 ?a8 ?a9 ?b1 ?b2 ?b3 ?b4 ?b5 ?b6 ?b7 ?b8 ?b9 ?c1 k ?c2 t' s3] =>
      destruct (tloop a1 a2 a3 a4 a5 a6 a7 a8 a9 b1 b2 b3 b4 b5 b6 b7 b8 b9 c1 k c2 t' s3) as [[r1 s1'] l0] eqn:El end.
    injection E as _ _ <-. destruct (IH _ _ _ _ _ _ El) as [IH1 IH2]. split; [exists ii, t'; split; [exact Et|exact IH1]|].
    intros e l1 l2 X Hte. destruct l1 as [|x l1]; injection X as X1 X2; [subst e; discriminate|]. eapply IH2; eassumption.
  Qed.

  Lemma grid_arith ok m : cost_arith zero add lt cost ok -> gm_wf m -> arith_ok (all_cells m) zero add lt (nbrs m) ok.
  Proof using HD.
    intros Har Hwf. constructor.
    - apply (ca_wf _ _ _ _ _ Har).
    - apply (ca_irrefl _ _ _ _ _ Har).
    - apply (ca_zero _ _ _ _ _ Har).
    - intros u v c a _ Hin Ha. apply (nbrs_spec cost eight D HD) in Hin as (_ & _ & ->); [|assumption]. apply (ca_add _ _ _ _ _ Har). assumption.
    - intros u v c a _ Hin Ha. apply (nbrs_spec cost eight D HD) in Hin as (_ & _ & ->); [|assumption]. apply (ca_grow _ _ _ _ _ Har). assumption.
    - apply (ca_trans _ _ _ _ _ Har).
  Qed.
  Lemma grid_nbr_all m : gm_wf m -> forall u v c, In u (all_cells m) -> In (v, c) (nbrs m u) -> In v (all_cells m).
  Proof using HD. intros Hwf u v c _ Hin. apply (nbrs_spec cost eight D HD) in Hin as (_ & [H _] & _); [|assumption]. apply all_cells_spec. exact H. Qed.

  (** On a new object (or after setMap), without time limit: findPath terminates;
      it returns the empty path exactly if the test added no candidate; and the
      test was asked about every cell reachable from the start, unless it
      answered true or, with an oversearch distance, added a candidate. *)
  Theorem C68_complete ok op m first from t s :
    best_ok best -> (forall l, best l = None -> l = []) -> cost_arith zero add lt cost ok -> gm_wf m ->
    (forall n, op_timeout C op n = false) ->
    in_cell from s -> cell_of (gm_w m) (gm_h m) (fst s) (snd s) -> ~ map_occupied m s ->
    exists fuel p o' l, findPathTest fuel op (new_sobj m first) from t = (FPath p, o', l) /\
      (p = [] <-> forall e, In e l -> c_cand e = None) /\
      ((forall v, reachable eight D m s v -> exists e, In e l /\ c_node e = v) \/
       (exists e, In e l /\ c_term e = true) \/ (op_cand C op = true /\ exists e, In e l /\ c_cand e <> None)).
  Proof using Hpush Hpop HD.
    intros Hbest Hbs Har Hwf Hto Hs Cs Os.
    assert (Eos : is_occ_cell m s = false).
    { destruct (is_occ_cell m s) eqn:E; [|reflexivity]. apply is_occ_cell_spec in E. destruct Os. split; assumption. }
    destruct (trun_complete ceqb ceqb_spec (all_cells m) zero inf add lt tot (nbrs m) hval hgoal push pop Hpush Hpop [s]
      test (op_cand C op) (op_over C op) best (op_timeout C op) Hbest ok (grid_arith ok m Har Hwf) (grid_nbr_all m Hwf)
      ltac:(intros x [<-|[]]; apply all_cells_spec; exact Cs) Hbs Hto t first) as (fuel & p & s' & l & Er & Hp & Hcov).
    assert (Hc : cands l = [] <-> forall e, In e l -> c_cand e = None).
    { clear. unfold cands. induction l as [|e l IH]; cbn; [tauto|]. destruct (c_cand e) as [c|] eqn:E.
      - split; [discriminate|]. intros X. specialize (X e (or_introl eq_refl)). congruence.
      - cbn [app]. rewrite IH. split; [intros X y [<-|Hy]; auto|auto]. }
    exists fuel, p. eexists. exists l. split; [|split; [rewrite <- Hc; exact Hp|]].
    { unfold GoalTest.findPathTest. cbn [ob_map ob_info ob_first DirectSearch.new_sobj].
      rewrite (lookup_of_cell m from s Hwf Hs Cs), Eos. cbv zeta. rewrite Er. cbn [to_fres]. reflexivity. }
    destruct Hcov as [Hcov|[Hcov|[H1 H2]]]; [left|right; left; exact Hcov|right; right].
    - intros v Hv. apply Hcov. apply path_reach; assumption.
    - split; [exact H1|]. clear - H2 Hc. destruct l as [|e l]; [destruct H2; reflexivity|].
      destruct (existsb (fun e => match c_cand e with Some _ => true | None => false end) (e :: l)) eqn:E.
      + apply existsb_exists in E as (y & Hy & E). exists y. split; [exact Hy|]. destruct (c_cand y); [discriminate|discriminate].
      + destruct H2. apply Hc. intros y Hy. destruct (c_cand y) eqn:Ey; [|reflexivity]. exfalso.
        assert (existsb (fun e => match c_cand e with Some _ => true | None => false end) (e :: l) = true); [|congruence].
        apply existsb_exists. exists y. rewrite Ey. auto.
  Qed.

  (** Optimality: what is asked of the arithmetic on the costs that occur
      ([ok]) and on the values the queue compares ([okt]). *)
  Variables ok okt : C -> Prop.
  Hypothesis Har : cost_arith zero add lt cost ok.
  Hypothesis Hmono : forall d a b, ok a -> ok b -> lt b a = false -> lt (add b (cost d)) (add a (cost d)) = false.
  Hypothesis Hzero : forall a, ok a -> tot a zero = a.
  Hypothesis Hokt : forall a, ok a -> okt a.
  Hypothesis Htot : forall a v, ok a -> okt (tot a (hval v)).
  Hypothesis Hmin : forall f l v r, (forall w, In w l -> okt (f w)) -> pop f l = Some (v, r) -> forall w, In w l -> lt (f w) (f v) = false.

  Lemma grid_mono m : gm_wf m -> forall u v c a b, In u (all_cells m) -> In (v, c) (nbrs m u) -> ok a -> ok b -> lt b a = false -> lt (add b c) (add a c) = false.
  Proof using HD Hmono. intros Hwf u v c a b _ Hin. apply (nbrs_spec cost eight D HD) in Hin as (_ & _ & ->); [|assumption]. apply Hmono. Qed.

  (** Whatever the test and the heuristic do: the path returned is a cheapest one
      among all the paths with the same ends. *)
  Theorem C68_shortest fuel op m first from t p o' l :
    best_ok best -> gm_wf m -> (0 <= fst from)%Q -> (0 <= snd from)%Q ->
    findPathTest fuel op (new_sobj m first) from t = (FPath p, o', l) -> p <> [] ->
    exists s v, in_cell from s /\ cell_of (gm_w m) (gm_h m) (fst s) (snd s) /\ direct_path eight D m s v p /\
      forall q, direct_path eight D m s v q -> lt (travelled add cost zero q) (travelled add cost zero p) = false.
  Proof using Hpush Hpop HD Har Hmono Hzero Hokt Htot Hmin.
    intros Hbest Hwf F1 F2 E Hne. unfold GoalTest.findPathTest in E. cbn [ob_map ob_info ob_first DirectSearch.new_sobj] in E.
    destruct (lookup_pose m from) as [s| |] eqn:Es; [|discriminate|discriminate].
    cbv zeta in E. destruct (trun _ _ _ _ _ _ _ _ _ _ _ _ _ _ _ _ _ _ _ _ _ _ _ _) as [[r s'] l'] eqn:Er.
    injection E as E _ <-. destruct r as [| |q]; try discriminate. cbn [to_fres] in E. injection E as ->.
    pose proof (lookup_cell m from s Hwf Es) as Cs.
    assert (Hst : incl (if is_occ_cell m s then [] else [s]) (all_cells m)).
    { destruct (is_occ_cell m s); [intros x []|intros x [<-|[]]; apply all_cells_spec; exact Cs]. }
    apply (trun_shortest ceqb ceqb_spec (all_cells m) zero inf add lt tot (nbrs m) hval hgoal push pop Hpush Hpop _ test _ _ best _ Hbest ok okt
      (grid_arith ok m Har Hwf) (grid_nbr_all m Hwf) Hst (grid_mono m Hwf) Hzero Hokt Htot Hmin) in Er; [|exact Hne].
    destruct Er as (v & x & q0 & Eq & Hw & _ & Hle).
    assert (Hin : is_occ_cell m s = false).
    { destruct (is_occ_cell m s); [|reflexivity]. clear - Hw. exfalso. induction Hw as [st []|]; assumption. }
    rewrite Hin in *. destruct (walk_travelled m s _ _ Hwf Hw) as (Ex & Hh & Hc). rewrite rev_involutive in Ex, Hh, Hc.
    assert (El : p = rev q0 ++ [v]) by (rewrite <- (rev_involutive p), Eq; reflexivity).
    exists s, v. split; [eapply lookup_in_cell; eassumption|]. split; [exact Cs|]. split.
    - split; [split; [exact Hh|rewrite El; apply last_snoc]|exact Hc].
    - intros q Hq. rewrite <- Ex. destruct (travelled_walk m s Hwf q v Hq) as (l0 & Erq & Hwq). rewrite Erq in Hwq. apply (Hle l0 _ Hwq).
  Qed.

  (** A test that recognises the cells of a fixed set, whatever it remembers:
      it adds the cells of the set, and only those, and stops at the first one. *)
  Definition recognises (acc : cell -> bool) : Prop := forall t v i, let '(_, cand, term) := test t v i in
    term = acc v /\ (acc v = true -> cand <> None) /\ (acc v = false -> cand = None).

  (** Then the path leads to a nearest cell of the set: no path to any cell of
      the set is cheaper. *)
  Theorem C68_nearest acc fuel op m first from t p o' l :
    best_ok best -> recognises acc -> gm_wf m -> (0 <= fst from)%Q -> (0 <= snd from)%Q ->
    findPathTest fuel op (new_sobj m first) from t = (FPath p, o', l) -> p <> [] ->
    exists s v, in_cell from s /\ cell_of (gm_w m) (gm_h m) (fst s) (snd s) /\ acc v = true /\ direct_path eight D m s v p /\
      forall u q, acc u = true -> direct_path eight D m s u q -> lt (travelled add cost zero q) (travelled add cost zero p) = false.
  Proof using Hpush Hpop HD Har Hmono Hzero Hokt Htot Hmin.
    intros Hbest Hacc Hwf F1 F2 E Hne. unfold GoalTest.findPathTest in E. cbn [ob_map ob_info ob_first DirectSearch.new_sobj] in E.
    destruct (lookup_pose m from) as [s| |] eqn:Es; [|discriminate|discriminate].
    cbv zeta in E. destruct (trun _ _ _ _ _ _ _ _ _ _ _ _ _ _ _ _ _ _ _ _ _ _ _ _) as [[r s'] l'] eqn:Er.
    injection E as E _ <-. destruct r as [| |q]; try discriminate. cbn [to_fres] in E. injection E as ->.
    pose proof (lookup_cell m from s Hwf Es) as Cs.
    assert (Hst : incl (if is_occ_cell m s then [] else [s]) (all_cells m)).
    { destruct (is_occ_cell m s); [intros x []|intros x [<-|[]]; apply all_cells_spec; exact Cs]. }
    apply (trun_nearest ceqb ceqb_spec (all_cells m) zero inf add lt tot (nbrs m) hval hgoal push pop Hpush Hpop _ test _ _ best _ Hbest ok okt
      (grid_arith ok m Har Hwf) (grid_nbr_all m Hwf) Hst (grid_mono m Hwf) Hzero Hokt Htot Hmin acc) in Er; [|exact Hacc|exact Hne].
    destruct Er as (v & x & q0 & Eq & Hw & Hv & Hle).
    assert (Hin : is_occ_cell m s = false).
    { destruct (is_occ_cell m s); [|reflexivity]. clear - Hw. exfalso. induction Hw as [st []|]; assumption. }
    rewrite Hin in *. destruct (walk_travelled m s _ _ Hwf Hw) as (Ex & Hh & Hc). rewrite rev_involutive in Ex, Hh, Hc.
    assert (El : p = rev q0 ++ [v]) by (rewrite <- (rev_involutive p), Eq; reflexivity).
    exists s, v. split; [eapply lookup_in_cell; eassumption|]. split; [exact Cs|]. split; [exact Hv|]. split.
    - split; [split; [exact Hh|rewrite El; apply last_snoc]|exact Hc].
    - intros u q Hu Hq. rewrite <- Ex. destruct (travelled_walk m s Hwf q u Hq) as (l0 & Erq & Hwq). rewrite Erq in Hwq. apply (Hle u l0 _ Hwq Hu).
  Qed.
End Props.
