(** C79: what an oversearch on the grid collects (findPath with an oversearch
    distance, then getPathCandidates). *)
From Coq Require Import QArith Reals Lra Permutation Sorted.
From Flocq Require Import Core IEEE754.BinarySingleNaN.
From Verif Require Import Base PathSpec GridMap GridMapProofs GenericSearch GenericProofs DirectSearch PropGeneric GenericCount GenericWork GenericWindow CountSearch PropCount CandModel.
From Verif Require Import DirectSpec RealSums Heuristics PropHeur GenericOpt GenericFloat AStarFloat AStarIeee GenericIeee OpenPolicies PropOver PropGoalTest PropGoalTestIeee.
Open Scope Z_scope.

(** A priority queue of candidates: what was pushed, the least value first ([P]: the values that occur). *)
Definition cand_queue {C} (P : C -> Prop) (lt : C -> C -> bool) (queue : list (cell * C) -> list (cell * C)) : Prop :=
  forall l, (forall x, In x l -> P (snd x)) -> Permutation l (queue l) /\ StronglySorted (fun a b => lt (snd b) (snd a) = false) (queue l).

Section Spec.
  Context {C : Type}.
  Variable zero inf : C.
  Variable add : C -> C -> C.
  Variable lt : C -> C -> bool.
  Variable tot : C -> C -> C.
  Variable cost : bool -> C.
  Variable heur : cell -> cell -> C.
  Variable hyp : cell -> cell -> C.
  Variable push : (cell -> C) -> cell -> list cell -> list cell.
  Variable pop : (cell -> C) -> list cell -> option (cell * list cell).
  Variable queue : list (cell * C) -> list (cell * C).
  Variable eight : bool.
  Variable D : Z.
  Hypothesis Hpush : push_ok push.
  Hypothesis Hpop : pop_ok pop.
  Variable P : C -> Prop.
  Hypothesis Hqueue : cand_queue P lt queue.
  Hypothesis Hhyp : forall v g, P (hyp v g).
  Hypothesis HD : 0 < D.
  Variable ok okd : C -> Prop.
  Notation findPathC := (findPathC zero add lt tot cost heur hyp push pop queue eight D).

  Definition cheapest (W : cell -> list cell -> C -> Prop) (t : cell) (y : C) : Prop := forall p z, W t p z -> lt z y = false.

  Lemma backtracks_spec (good : cell -> list cell -> Prop) back l :
    (forall v c, In (v, c) l -> exists q, back v = Some q /\ good v q) ->
    exists paths, @backtracks C back l = Some paths /\ Forall2 good (map fst l) paths.
  Proof using Type.
    induction l as [|[v c] l IH]; intros H; [exists []; split; [reflexivity|constructor]|].
    destruct (H v c (or_introl eq_refl)) as (q & E1 & Hq). destruct IH as (ps & E2 & Hps).
    { intros w d Hw. apply (H w d). right. exact Hw. }
    exists (q :: ps). cbn [backtracks map fst]. rewrite E1. cbn [obind]. rewrite E2. split; [reflexivity|constructor; assumption].
  Qed.

  Lemma cand_spec fuel osd timeout m o from to s g r o' : gm_wf m ->
    in_cell from s -> in_cell to g ->
    cell_of (gm_w m) (gm_h m) (fst s) (snd s) -> cell_of (gm_w m) (gm_h m) (fst g) (snd g) ->
    ~ map_occupied m s -> ~ map_occupied m g ->
    steady (all_cells m) zero add lt tot (nbrs C cost eight D m) (goal_val C zero heur (Some g)) pop true ok ->
    arith_ok (all_cells m) zero add lt (nbrs C cost eight D m) okd ->
    monotone (all_cells m) zero add lt tot (nbrs C cost eight D m) (goal_val C zero heur (Some g)) true (fun x f => lt (add f osd) x) ok ->
    findPathC fuel (oversearch add lt osd timeout) (setMapC zero inf o m) from to = (r, o') ->
    let W := way zero add (nbrs C cost eight D m) s in
    exists ends paths,
      getPathCandidates queue o' = Some paths /\
      Forall2 (fun t q => near D g t /\ exists y, W t q y /\ cheapest W t y) ends paths /\
      StronglySorted (fun a b => lt (hyp b g) (hyp a g) = false) ends /\
      (r = FFuel \/ r = FPath (hd [] paths)) /\
      (ends <> [] -> exists t0 q0 y0, In t0 ends /\ W t0 q0 y0 /\
        (forall t p y, near D g t -> W t p y -> lt (tot y (heur t g)) (tot y0 (heur t0 g)) = false) /\
        ((forall i, timeout i = false) -> r <> FFuel -> forall t p y, near D g t -> W t p y ->
          lt (add (tot y0 (heur t0 g)) osd) (tot y (heur t g)) = false -> In t ends) /\
        exists last, forall t q y, In t ends -> t <> last -> W t q y -> cheapest W t y ->
          lt (add (tot y0 (heur t0 g)) osd) (tot y (heur t g)) = false) /\
      ((forall i, timeout i = false) -> r <> FFuel -> ends = [] -> forall t p y, near D g t -> ~ W t p y).
  Proof using Hpush Hpop Hqueue Hhyp HD.
    intros Hwf Hs Hg Cs Cg Os Og ST AO MO E W.
    assert (Eos : is_occ_cell m s = false).
    { destruct (is_occ_cell m s) eqn:E'; [|reflexivity]. apply is_occ_cell_spec in E'. destruct Os. split; assumption. }
    assert (Eog : is_occ_cell m g = false).
    { destruct (is_occ_cell m g) eqn:E'; [|reflexivity]. apply is_occ_cell_spec in E'. destruct Og. split; assumption. }
    unfold CandModel.findPathC in E. cbn [ko_obj ob_map ob_info ob_first setMapC setMap] in E.
    rewrite (lookup_of_cell m from s Hwf Hs Cs), (lookup_of_cell m to g Hwf Hg Cg), Eos, Eog in E. cbv zeta in E. cbn [somes] in E.
    assert (Hnb : forall u v c, In u (all_cells m) -> In (v, c) (nbrs C cost eight D m u) -> In v (all_cells m)).
    { intros u v c _ Hin. apply nbrs_spec in Hin as (_ & [Hc _] & _); [|assumption..]. apply all_cells_spec. exact Hc. }
    assert (Hsa : In s (all_cells m)) by (apply all_cells_spec; exact Cs).
    rewrite <- (erase_run ceqb (all_cells m) zero add lt tot (nbrs C cost eight D m) (goal_val C zero heur (Some g)) push pop
      [s] (goal_test D (Some g)) true (op_cand C (oversearch add lt osd timeout)) (op_over C (oversearch add lt osd timeout)) (goal_val C zero hyp (Some g)) (top queue)
      (op_timeout C (oversearch add lt osd timeout)) fuel (fun _ => fresh_info cell C zero inf) (ob_first _ (ko_obj o)) (Cnt 0 0 0 0)) in E.
    cbn [oversearch op_cand op_over op_timeout] in E.
    match type of E with context [runN ?a ?b ?c ?d ?e ?f ?g ?h ?i ?j ?k ?l ?mm ?n ?p ?q ?r ?s ?t ?u ?v ?w] =>
      set (rr := runN a b c d e f g h i j k l mm n p q r s t u v w) in *; assert (Er : rr = runN a b c d e f g h i j k l mm n p q r s t u v w) by reflexivity end.
    destruct rr as [[r0 s'] [k' log]]. cbn [fst snd] in E. injection E as <- <-. symmetry in Er.
    destruct (run_window ceqb ceqb_spec (all_cells m) zero inf add lt tot (nbrs C cost eight D m) (goal_val C zero heur (Some g)) push pop Hpush Hpop
      s (goal_test D (Some g)) true (fun x f => lt (add f osd) x) (goal_val C zero hyp (Some g)) (top queue) timeout ok ST okd AO MO Hnb Hsa
      fuel (ob_first _ (ko_obj o)) (Cnt 0 0 0 0) r0 s' k' log Er) as (Hres & Hfin & Hr). clear Er.
    assert (Hpath := result_path ceqb ceqb_spec (all_cells m) zero inf add lt tot (nbrs C cost eight D m) (goal_val C zero heur (Some g)) push pop Hpush Hpop
      s (goal_test D (Some g)) true (fun x f => lt (add f osd) x) (goal_val C zero hyp (Some g)) (top queue) timeout ok ST okd AO MO Hnb Hsa s' log).
    pose proof Hres as [R1 _ _ (ex & HJ) Hleast Hlist HNr HIn].
    destruct (Hqueue (s_cand cell C s')) as [Hperm Hsort].
    { intros [v c] Hv. apply Hlist in Hv as (_ & _ & ->). apply Hhyp. }
    assert (Hin : forall v c, In (v, c) (queue (s_cand cell C s')) <-> In v log /\ near D g v /\ c = hyp v g).
    { intros v c. transitivity (In (v, c) (s_cand cell C s')); [split; apply Permutation_in; [apply Permutation_sym; exact Hperm|exact Hperm]|].
      rewrite (Hlist v c). cbn [goal_test goal_val]. rewrite C25_isGoal. reflexivity. }
    set (Q := queue (s_cand cell C s')) in *.
    set (hl := goal_val C zero heur (Some g)) in *.
    assert (Hkey : forall v, GenericWork.key zero tot hl true s' v = tot (g_dist cell C (s_info cell C s' v)) (heur v g)) by reflexivity.
    assert (Oway : forall t p y, W t p y -> ok y).
    { intros t p y Hw. exact (way_ok ceqb ceqb_spec (all_cells m) zero inf add lt tot (nbrs C cost eight D m) hl push pop Hpush Hpop
        s (goal_test D (Some g)) true (fun x f => lt (add f osd) x) (goal_val C zero hyp (Some g)) (top queue) timeout ok ST okd AO MO Hnb Hsa t p y Hw). }
    assert (Odist : forall v, In v log -> ok (g_dist cell C (s_info cell C s' v))).
    { intros v Hv. apply (j_ok _ _ _ _ _ _ _ _ _ _ _ _ _ HJ). apply R1. exact Hv. }
    assert (Otot : forall a v, ok a -> ok (tot a (heur v g))).
    { intros a v Ha. exact (st_tot _ _ _ _ _ _ _ _ _ _ ST a v Ha). }
    assert (Mtot : forall a b v, ok a -> ok b -> lt b a = false -> lt (tot b (heur v g)) (tot a (heur v g)) = false).
    { intros a b v. exact (mo_tot _ _ _ _ _ _ _ _ _ _ MO a b v). }
    change (forall v p y, In v log -> W v p y -> lt y (g_dist cell C (s_info cell C s' v)) = false) in Hleast.
    (* the paths *)
    destruct (backtracks_spec (fun t q => near D g t /\ exists y, W t q y /\ cheapest W t y)
      (backtrack cell C ceqb (all_cells m) [s] (s_info cell C s')) Q) as (paths & Ebt & Hpaths).
    { intros v c Hv. apply Hin in Hv as (Hl & Hn & _). destruct (Hpath v Hres Hl) as (q & y & E1 & E2 & _ & _ & E3).
      exists q. split; [exact E1|]. split; [exact Hn|]. exists y. split; [exact E2|exact E3]. }
    assert (Hends : forall t, In t (map fst Q) <-> In t log /\ near D g t).
    { intros t. rewrite in_map_iff. split.
      - intros ([v c] & <- & Hv). apply Hin in Hv as (A & B & _). split; assumption.
      - intros [A B]. exists (t, hyp t g). split; [reflexivity|]. apply Hin. auto. }
    assert (Hcand0 : s_cand cell C s' = [] <-> map fst Q = []).
    { split; intros E0.
      - rewrite E0 in Hperm. apply Permutation_nil in Hperm. rewrite Hperm. reflexivity.
      - apply map_eq_nil in E0. rewrite E0 in Hperm. apply Permutation_sym, Permutation_nil in Hperm. exact Hperm. }
    exists (map fst Q), paths. split; [exact Ebt|]. split; [exact Hpaths|]. split; [|split; [|split]].
    - assert (Hsnd : forall x, In x Q -> snd x = hyp (fst x) g) by (intros [v c] Hx; apply Hin in Hx; apply Hx).
      clear - Hsort Hsnd. clearbody Q. induction Hsort as [|x l Hl IH Hx]; cbn [map]; constructor.
      + apply IH. intros y Hy. apply Hsnd. right. exact Hy.
      + apply Forall_forall. intros z Hz. apply in_map_iff in Hz as (y & <- & Hy). rewrite Forall_forall in Hx. specialize (Hx y Hy).
        rewrite (Hsnd x (or_introl eq_refl)), (Hsnd y (or_intror Hy)) in Hx. exact Hx.
    - destruct Hr as [-> | ->]; [left; reflexivity|right]. unfold GenericSearch.finish, top. fold Q.
      destruct Q as [|[v c] Q'].
      + injection Ebt as <-. reflexivity.
      + cbn [backtracks] in Ebt. cbn [hd_error option_map fst]. destruct (backtrack cell C ceqb (all_cells m) [s] (s_info cell C s') v) as [q|]; [|discriminate].
        cbn [obind] in Ebt. destruct (backtracks _ Q') as [ps|]; [|discriminate]. injection Ebt as <-. reflexivity.
    - intros Hne.
      assert (Hc : s_cand cell C s' <> []) by (intros E0; apply Hne, Hcand0; exact E0).
      destruct (HNr Hc) as (t0 & T1 & T2 & T3 & T4).
      apply C25_isGoal in T2. destruct (Hpath t0 Hres T1) as (q0 & y0 & _ & W0 & L1 & L2 & Hmin0).
      rewrite Hkey in T3.
      assert (O0 : ok y0) by (eapply Oway; exact W0). pose proof (Odist t0 T1) as Od0.
      exists t0, q0, y0. split; [apply Hends; split; assumption|]. split; [exact W0|]. split; [|split].
      + intros t p y Hn Hw. specialize (T4 t p y (proj2 (C25_isGoal D g t) Hn) Hw). rewrite T3 in T4.
        apply (st_trans _ _ _ _ _ _ _ _ _ _ ST _ (tot (g_dist cell C (s_info cell C s' t0)) (heur t0 g))); auto.
        apply Otot. eapply Oway. exact Hw.
      + intros Hto Hf t p y Hn Hw Hov. apply Hends. split; [|exact Hn].
        assert (Hf' : r0 <> GFuel cell) by (intros ->; apply Hf; reflexivity).
        destruct (Hfin Hto Hf' t p y (proj2 (C25_isGoal D g t) Hn) Hw) as [A|[_ A]]; [exact A|]. exfalso.
        rewrite T3 in A. pose proof (mo_first _ _ _ _ _ _ _ _ _ _ MO (tot y (heur t g)) (tot y0 (heur t0 g)) (tot (g_dist cell C (s_info cell C s' t0)) (heur t0 g))) as M.
        cbv beta in M. unfold hused in A. cbn [goal_val] in A. rewrite M in Hov; auto; [discriminate|]. apply Otot. eapply Oway. exact Hw.
      + destruct HIn as (la & Hla). exists la. intros t q y Ht Hnl Hw Hch.
        apply Hends in Ht as [Ht1 Ht2].
        specialize (Hla Hc t Ht1 (proj2 (C25_isGoal D g t) Ht2) Hnl). rewrite Hkey, T3 in Hla.
        assert (Oy : ok y) by (eapply Oway; exact Hw). pose proof (Odist t Ht1) as Od.
        assert (Hyd : lt (g_dist cell C (s_info cell C s' t)) y = false).
        { destruct (Hpath t Hres Ht1) as (q' & y' & _ & W' & L1' & _ & _).
          apply (st_trans _ _ _ _ _ _ _ _ _ _ ST _ y'); [exact Oy|eapply Oway; exact W'|exact Od|apply (Hch q' y' W')|exact L1']. }
        destruct (lt (add (tot y0 (heur t0 g)) osd) (tot y (heur t g))) eqn:Eo; [|reflexivity]. exfalso.
        pose proof (mo_over _ _ _ _ _ _ _ _ _ _ MO (tot y (heur t g)) (tot (g_dist cell C (s_info cell C s' t)) (heur t g)) (tot y0 (heur t0 g))) as M1.
        pose proof (mo_first _ _ _ _ _ _ _ _ _ _ MO (tot (g_dist cell C (s_info cell C s' t)) (heur t g)) (tot (g_dist cell C (s_info cell C s' t0)) (heur t0 g)) (tot y0 (heur t0 g))) as M2.
        cbv beta in M1, M2. rewrite M2 in Hla; auto; discriminate.
    - intros Hto Hf Hne t p y Hn Hw.
      assert (Hf' : r0 <> GFuel cell) by (intros ->; apply Hf; reflexivity).
      destruct (Hfin Hto Hf' t p y (proj2 (C25_isGoal D g t) Hn) Hw) as [A|[A _]]; [|apply A, Hcand0, Hne].
      assert (Ht : In t (map fst Q)) by (apply Hends; split; assumption). rewrite Hne in Ht. destruct Ht.
  Qed.

  (** Keeping the candidates changes neither the answer nor the object. *)
  Theorem C79_observer fuel op (o : kobj) from to :
    fst (findPathC fuel op o from to) = fst (findPath C zero add lt tot cost heur hyp push pop (top queue) eight D fuel op (ko_obj o) from to) /\
    ko_obj (snd (findPathC fuel op o from to)) = snd (findPath C zero add lt tot cost heur hyp push pop (top queue) eight D fuel op (ko_obj o) from to).
  Proof using Type.
    unfold CandModel.findPathC, findPath. destruct (lookup_pose (ob_map C (ko_obj o)) from) as [s| |]; [|split; reflexivity..].
    destruct (lookup_pose (ob_map C (ko_obj o)) to) as [g| |]; split; reflexivity.
  Qed.
End Spec.

(** ** Exact costs *)
Lemma euclid_zero a b : (euclid a b <= 0)%R -> a = b.
Proof.
  intros H. pose proof (euclid_ge_max a b) as Hm. pose proof (Rmax_l (Rabs (dxR a b)) (Rabs (dyR a b))) as H1. pose proof (Rmax_r (Rabs (dxR a b)) (Rabs (dyR a b))) as H2.
  assert (Hx : dxR a b = 0%R) by (destruct (Req_dec (dxR a b) 0) as [|Hn]; [assumption|apply Rabs_pos_lt in Hn; lra]).
  assert (Hy : dyR a b = 0%R) by (destruct (Req_dec (dyR a b) 0) as [|Hn]; [assumption|apply Rabs_pos_lt in Hn; lra]).
  unfold dxR, dyR in Hx, Hy. apply eq_IZR in Hx, Hy. destruct a as [a1 a2], b as [b1 b2]. cbn [fst snd] in *. f_equal; lia.
Qed.

(** [q] is a shortest path from [s] to [t]. *)
Definition shortest (eight : bool) (D : Z) (m : gridmap) (s t : cell) (q : list cell) : Prop :=
  direct_path eight D m s t q /\ forall q', direct_path eight D m s t q' -> (path_length q <= path_length q')%R.

Section Real.
  Variable push : (cell -> R) -> cell -> list cell -> list cell.
  Variable pop : (cell -> R) -> list cell -> option (cell * list cell).
  Variable queue : list (cell * R) -> list (cell * R).
  Variable inf : R.
  Variable eight : bool.
  Variable D : Z.
  Variable n : norm.
  Variable res : R.
  Hypothesis Hpush : push_ok push.
  Hypothesis Hpop : pop_ok pop.
  Hypothesis Hmin : forall f l v r, pop f l = Some (v, r) -> forall w, In w l -> (f v <= f w)%R.
  Hypothesis Hqueue : cand_queue (fun _ => True) Rltb queue.
  Hypothesis HD : 0 < D.
  Hypothesis Hres : (0 < res)%R.
  Hypothesis Hfit : norm_fits eight n.
  Notation findPathC := (findPathC 0%R Rplus Rltb Rplus (rcost D res) (hcompute n res) euclid push pop queue eight D).
  Notation nbrs := (nbrs R (rcost D res) eight D).
  (** What the search compares: the length of a path and the estimate of the rest. *)
  Definition rated (g t : cell) (q : list cell) : R := (res * path_length q + hcompute n res t g)%R.

  Lemma pcost_length m a p b : gm_wf m -> pcost Rplus (nbrs m) a p b ->
    b = (a + res * path_length p)%R /\ chain (fun u v => direct_step eight D u v /\ map_free m v) p.
  Proof using HD.
    intros Hwf H. induction H as [v a|u v c p a b Hin _ IH]; [split; [cbn; ring|exact Logic.I]|].
    apply (nbrs_iff eight D res HD m u v c Hwf) in Hin as (A & B & ->). destruct IH as [-> IH]. split; [|split; [split; assumption|exact IH]].
    change (path_length (u :: v :: p)) with (euclid u v + path_length (v :: p))%R. ring.
  Qed.
  Lemma length_pcost m p : gm_wf m -> p <> [] -> chain (fun u v => direct_step eight D u v /\ map_free m v) p ->
    forall a, pcost Rplus (nbrs m) a p (a + res * path_length p)%R.
  Proof using HD.
    intros Hwf Hne H. induction p as [|u [|v p] IH]; intros a; [congruence| |].
    - replace (a + res * path_length [u])%R with a by (cbn; ring). constructor.
    - destruct H as [[A B] H]. apply (pc_step _ _ u v (res * euclid u v)%R).
      + apply (nbrs_iff eight D res HD m u v _ Hwf). auto.
      + change (path_length (u :: v :: p)) with (euclid u v + path_length (v :: p))%R.
        replace (a + res * (euclid u v + path_length (v :: p)))%R with ((a + res * euclid u v) + res * path_length (v :: p))%R by ring.
        apply IH; [discriminate|exact H].
  Qed.
  Lemma way_path m s t p y : gm_wf m -> way 0%R Rplus (nbrs m) s t p y <-> direct_path eight D m s t p /\ y = (res * path_length p)%R.
  Proof using HD.
    intros Hwf. split.
    - intros (A & B & H). apply pcost_length in H as [-> H]; [|exact Hwf]. split; [split; [split; assumption|exact H]|ring].
    - intros [[[A B] H] ->]. split; [exact A|]. split; [exact B|].
      replace (res * path_length p)%R with (0 + res * path_length p)%R by ring. apply length_pcost; [exact Hwf| |exact H]. intros ->. discriminate.
  Qed.

  Lemma real_monotone m g osd :
    monotone (all_cells m) 0%R Rplus Rltb Rplus (nbrs m) (goal_val R 0%R (hcompute n res) (Some g)) true (fun x f => Rltb (f + osd) x) (fun _ => True).
  Proof using Type.
    constructor.
    - intros u v c a b _ _ _ _ H. apply Rltb_false in H. apply Rltb_false. lra.
    - intros a b v _ _ H. apply Rltb_false in H. apply Rltb_false. lra.
    - intros x y f _ _ _ H H'. apply Rltb_false in H. apply Rltb_true in H'. apply Rltb_true. lra.
    - intros x f h _ _ _ H H'. apply Rltb_false in H. apply Rltb_true in H'. apply Rltb_true. lra.
  Qed.

  Lemma real_spec fuel osd timeout m o from to s g r o' : gm_wf m ->
    in_cell from s -> in_cell to g ->
    cell_of (gm_w m) (gm_h m) (fst s) (snd s) -> cell_of (gm_w m) (gm_h m) (fst g) (snd g) ->
    ~ map_occupied m s -> ~ map_occupied m g ->
    findPathC fuel (oversearch Rplus Rltb osd timeout) (setMapC 0%R inf o m) from to = (r, o') ->
    exists ends paths,
      getPathCandidates queue o' = Some paths /\
      Forall2 (fun t q => near D g t /\ shortest eight D m s t q) ends paths /\
      StronglySorted (fun a b => (euclid a g <= euclid b g)%R) ends /\
      (r = FFuel \/ r = FPath (hd [] paths)) /\
      (ends <> [] -> exists t0 q0, In t0 ends /\ direct_path eight D m s t0 q0 /\
        (forall t q, near D g t -> direct_path eight D m s t q -> (rated g t0 q0 <= rated g t q)%R) /\
        ((forall i, timeout i = false) -> r <> FFuel -> forall t q, near D g t -> direct_path eight D m s t q ->
          (rated g t q <= rated g t0 q0 + osd)%R -> In t ends) /\
        exists last, forall t q, In t ends -> t <> last -> shortest eight D m s t q -> (rated g t q <= rated g t0 q0 + osd)%R) /\
      ((forall i, timeout i = false) -> r <> FFuel -> ends = [] -> forall t q, near D g t -> ~ direct_path eight D m s t q).
  Proof using Hpush Hpop Hmin Hqueue HD Hres Hfit.
    intros Hwf Hs Hg Cs Cg Os Og E.
    assert (Hres' : (0 <= res)%R) by lra.
    assert (Hpos : forall u v c, In (v, c) (nbrs m u) -> (0 <= c)%R).
    { intros u v c Hin. apply (nbrs_iff eight D res HD m u v c Hwf) in Hin as (_ & _ & ->). apply Rmult_le_pos; [exact Hres'|apply sqrt_pos]. }
    destruct (cand_spec 0%R inf Rplus Rltb Rplus (rcost D res) (hcompute n res) euclid push pop queue eight D Hpush Hpop (fun _ => True) Hqueue (fun _ _ => Logic.I) HD (fun _ => True)
      (GenericOpt.ok (all_cells m) (nbrs m)) fuel osd timeout m o from to s g r o' Hwf Hs Hg Cs Cg Os Og
      (real_steady pop eight D n res Hmin HD Hres' Hfit m (Some g) Hwf) (real_arith (all_cells m) (nbrs m) Hpos) (real_monotone m g osd) E)
      as (ends & paths & E1 & E2 & E3 & E4 & E5 & E6).
    exists ends, paths. split; [exact E1|].
    assert (Hsh : forall t q y, way 0%R Rplus (nbrs m) s t q y -> cheapest Rltb (way 0%R Rplus (nbrs m) s) t y <-> shortest eight D m s t q).
    { intros t q y Hw. apply way_path in Hw as [Hq ->]; [|exact Hwf]. split.
      - intros Hc. split; [exact Hq|]. intros q' Hq'. specialize (Hc q' (res * path_length q')%R). rewrite way_path in Hc by exact Hwf.
        specialize (Hc (conj Hq' eq_refl)). apply Rltb_false in Hc. apply (Rmult_le_reg_l res); assumption.
      - intros [_ Hc] q' z Hz. apply way_path in Hz as [Hq' ->]; [|exact Hwf]. apply Rltb_false. apply Rmult_le_compat_l; [exact Hres'|]. apply Hc. exact Hq'. }
    split; [|split; [|split; [exact E4|split]]].
    - clear - E2 Hsh. induction E2 as [|t q ts qs [Hn (y & Hw & Hc)] _ IH]; constructor; [|exact IH]. split; [exact Hn|]. apply (Hsh t q y Hw). exact Hc.
    - clear - E3. induction E3 as [|a l _ IH H]; constructor; [exact IH|]. eapply Forall_impl; [|exact H]. intros b Hb. apply Rltb_false in Hb. exact Hb.
    - intros Hne. destruct (E5 Hne) as (t0 & q0 & y0 & F1 & F2 & F3 & F4 & la & F5). exists t0, q0.
      apply way_path in F2 as [F2 ->]; [|exact Hwf]. split; [exact F1|]. split; [exact F2|]. split; [|split].
      + intros t q Hn Hq. specialize (F3 t q (res * path_length q)%R Hn). rewrite way_path in F3 by exact Hwf.
        specialize (F3 (conj Hq eq_refl)). apply Rltb_false in F3. exact F3.
      + intros Hto Hf t q Hn Hq Hle. apply (F4 Hto Hf t q (res * path_length q)%R Hn); [apply way_path; auto|]. apply Rltb_false. exact Hle.
      + exists la. intros t q Ht Hnl Hq. specialize (F5 t q (res * path_length q)%R Ht Hnl).
        assert (Hw : way 0%R Rplus (nbrs m) s t q (res * path_length q)%R) by (apply way_path; [exact Hwf|]; split; [apply Hq|reflexivity]).
        specialize (F5 Hw (proj2 (Hsh t q _ Hw) Hq)). apply Rltb_false in F5. exact F5.
    - intros Hto Hf He t q Hn Hq. apply (E6 Hto Hf He t q (res * path_length q)%R Hn). apply way_path; auto.
  Qed.

  (** ** User theorems *)
  Definition enough (m : gridmap) (fuel : nat) : Prop := 1 + (if eight then 8 else 4) * (gm_w m * gm_h m) < Z.of_nat fuel.
  Lemma enough_fuel fuel op m o from to : gm_wf m -> enough m fuel -> fst (findPathC fuel op (setMapC 0%R inf o m) from to) <> FFuel.
  Proof using Hpush Hpop Hmin HD Hres Hfit.
    intros Hwf Hf. rewrite (proj1 (C79_observer 0%R Rplus Rltb Rplus (rcost D res) (hcompute n res) euclid push pop queue eight D fuel op (setMapC 0%R inf o m) from to)). cbn [ko_obj setMapC]; unfold setMap; fold (new_sobj _ 0%R inf m (ob_first _ (ko_obj o))).
    pose proof (C78_observer 0%R Rplus Rltb Rplus (rcost D res) (hcompute n res) euclid push pop (top queue) eight D fuel op (CObj (new_sobj R 0%R inf m (ob_first _ (ko_obj o))) (Cnt 0 0 0 0)) from to) as [E _].
    cbn [co_obj] in E. rewrite <- E. clear E.
    destruct (findPathN 0%R Rplus Rltb Rplus (rcost D res) (hcompute n res) euclid push pop (top queue) eight D fuel op (CObj (new_sobj R 0%R inf m (ob_first _ (ko_obj o))) (Cnt 0 0 0 0)) from to) as [[r o'] log] eqn:E.
    cbn [fst]. assert (Hres' : (0 <= res)%R) by lra.
    apply (C78_work push pop (top queue) euclid inf eight D n res Hpush Hpop Hmin HD Hres' Hfit fuel op m (ob_first _ (ko_obj o)) (Cnt 0 0 0 0) from to r o' log Hwf) in E as [_ E].
    apply E. exact Hf.
  Qed.

  (** Whatever the clock says: every candidate is a shortest path to an accepted
      cell, the nearest to the goal comes first, and it is the path returned. *)
  Theorem C79_candidates fuel osd timeout m o from to s g r o' : gm_wf m ->
    in_cell from s -> in_cell to g ->
    cell_of (gm_w m) (gm_h m) (fst s) (snd s) -> cell_of (gm_w m) (gm_h m) (fst g) (snd g) ->
    ~ map_occupied m s -> ~ map_occupied m g ->
    findPathC fuel (oversearch Rplus Rltb osd timeout) (setMapC 0%R inf o m) from to = (r, o') ->
    exists paths, getPathCandidates queue o' = Some paths /\
      (forall q, In q paths -> exists t, near D g t /\ shortest eight D m s t q) /\
      StronglySorted (fun p q => (euclid (last p s) g <= euclid (last q s) g)%R) paths /\
      (r = FFuel \/ r = FPath (hd [] paths)) /\ (enough m fuel -> r <> FFuel).
  Proof using Hpush Hpop Hmin Hqueue HD Hres Hfit.
    intros Hwf Hs Hg Cs Cg Os Og E.
    destruct (real_spec fuel osd timeout m o from to s g r o' Hwf Hs Hg Cs Cg Os Og E) as (ends & paths & E1 & E2 & E3 & E4 & _).
    exists paths. split; [exact E1|]. split; [|split; [|split; [exact E4|]]].
    - clear - E2. induction E2 as [|t q ts qs H _ IH]; [intros x []|]. intros x [ <- |Hx]; [exists t; exact H|apply IH; exact Hx].
    - clear - E2 E3. induction E2 as [|t q ts qs [_ [[[_ Hl] _] _]] H2 IH]; [constructor|].
      inversion E3 as [|a l S1 S2]; subst. constructor; [apply IH; exact S1|]. clear IH E3 S1.
      induction H2 as [|t' q' ts' qs' [_ [[[_ Hl'] _] _]] _ IH']; [constructor|]. inversion S2 as [|b l' B1 B2]; subst.
      constructor; [exact B1|apply IH'; exact B2].
    - intros Hf. pose proof (enough_fuel fuel (oversearch Rplus Rltb osd timeout) m o from to Hwf Hf) as Hx. rewrite E in Hx. exact Hx.
  Qed.

  (** Without a time limit: every accepted cell with a path within the oversearch
      distance of all others is among them, and all but one end are. *)
  Theorem C79_complete fuel osd timeout m o from to s g r o' : gm_wf m ->
    in_cell from s -> in_cell to g ->
    cell_of (gm_w m) (gm_h m) (fst s) (snd s) -> cell_of (gm_w m) (gm_h m) (fst g) (snd g) ->
    ~ map_occupied m s -> ~ map_occupied m g -> (forall i, timeout i = false) -> enough m fuel ->
    findPathC fuel (oversearch Rplus Rltb osd timeout) (setMapC 0%R inf o m) from to = (r, o') ->
    exists paths, getPathCandidates queue o' = Some paths /\ r = FPath (hd [] paths) /\
      (paths = [] <-> ~ exists t q, near D g t /\ direct_path eight D m s t q) /\
      (forall t q, near D g t -> direct_path eight D m s t q ->
        (forall t' q', near D g t' -> direct_path eight D m s t' q' -> (rated g t q <= rated g t' q' + osd)%R) ->
        exists q', In q' paths /\ from_to s t q') /\
      (exists extra, forall t q, In q paths -> from_to s t q -> t <> extra ->
        forall t' q', near D g t' -> direct_path eight D m s t' q' -> (rated g t q <= rated g t' q' + osd)%R).
  Proof using Hpush Hpop Hmin Hqueue HD Hres Hfit.
    intros Hwf Hs Hg Cs Cg Os Og Hto Hf E.
    assert (Hr : r <> FFuel).
    { pose proof (enough_fuel fuel (oversearch Rplus Rltb osd timeout) m o from to Hwf Hf) as Hx. rewrite E in Hx. exact Hx. }
    destruct (real_spec fuel osd timeout m o from to s g r o' Hwf Hs Hg Cs Cg Os Og E) as (ends & paths & E1 & E2 & _ & E4 & E5 & E6).
    exists paths. split; [exact E1|]. split; [destruct E4 as [E4|E4]; [contradiction|exact E4]|].
    assert (Hnil : ends = [] <-> paths = []) by (clear - E2; destruct E2; split; congruence).
    assert (Hends : forall t, In t ends -> exists q, In q paths /\ shortest eight D m s t q).
    { clear - E2. induction E2 as [|t q ts qs [_ H] _ IH]; [intros x []|]. intros x [ <- |Hx]; [exists q; split; [left; reflexivity|exact H]|].
      destruct (IH x Hx) as (q' & A & B). exists q'. split; [right; exact A|exact B]. }
    assert (Hpaths : forall q, In q paths -> exists t, In t ends /\ near D g t /\ shortest eight D m s t q).
    { clear - E2. induction E2 as [|t q ts qs H _ IH]; [intros x []|]. intros x [ <- |Hx]; [exists t; split; [left; reflexivity|exact H]|].
      destruct (IH x Hx) as (t' & A & B). exists t'. split; [right; exact A|exact B]. }
    split; [|split].
    - split; intros H.
      + intros (t & q & Hn & Hq). apply (E6 Hto Hr (proj2 Hnil H) t q Hn Hq).
      + destruct paths as [|q qs]; [reflexivity|]. exfalso. apply H. destruct (Hpaths q (or_introl eq_refl)) as (t & _ & Hn & Hq & _). exists t, q. split; assumption.
    - intros t q Hn Hq Hle.
      assert (Hne : ends <> []) by (intros He; apply (E6 Hto Hr He t q Hn Hq)).
      destruct (E5 Hne) as (t0 & q0 & F1 & F2 & F3 & F4 & _). destruct (Hends t0 F1) as (q0' & G1 & G2).
      assert (Hn0 : near D g t0).
      { destruct (Hpaths q0' G1) as (t1 & _ & N1 & [[H1 _] _]). destruct G2 as [[H2 _] _].
        replace t0 with t1; [exact N1|]. destruct H1 as [_ <-], H2 as [_ <-]. reflexivity. }
      destruct (Hends t (F4 Hto Hr t q Hn Hq (Hle t0 q0 Hn0 F2))) as (q' & A & [[B _] _]). exists q'. split; assumption.
    - destruct ends as [|e ends']; [exists (0, 0); intros t q Hq; rewrite (proj1 Hnil eq_refl) in Hq; destruct Hq|].
      destruct (E5 ltac:(discriminate)) as (t0 & q0 & F1 & F2 & F3 & _ & la & F5). exists la. intros t q Hq Ht Hnl t' q' Hn' Hq'.
      destruct (Hpaths q Hq) as (t1 & A & _ & B). assert (t1 = t) by (destruct B as [[[_ <-] _] _], Ht as [_ <-]; reflexivity). subst t1.
      specialize (F5 t q A Hnl B). specialize (F3 t' q' Hn' Hq'). lra.
  Qed.

  (** If the goal cell itself lies in the window, the path returned ends there and is a shortest one. *)
  Theorem C79_goal_cell fuel osd timeout m o from to s g q r o' : gm_wf m ->
    in_cell from s -> in_cell to g ->
    cell_of (gm_w m) (gm_h m) (fst s) (snd s) -> cell_of (gm_w m) (gm_h m) (fst g) (snd g) ->
    ~ map_occupied m s -> ~ map_occupied m g -> (forall i, timeout i = false) -> enough m fuel ->
    direct_path eight D m s g q ->
    (forall t' q', near D g t' -> direct_path eight D m s t' q' -> (res * path_length q <= rated g t' q' + osd)%R) ->
    findPathC fuel (oversearch Rplus Rltb osd timeout) (setMapC 0%R inf o m) from to = (r, o') ->
    exists p, r = FPath p /\ shortest eight D m s g p.
  Proof using Hpush Hpop Hmin Hqueue HD Hres Hfit.
    intros Hwf Hs Hg Cs Cg Os Og Hto Hf Hq Hle E.
    assert (Hn : near D g g) by (unfold near; rewrite !Z.sub_diag; cbn; lia).
    destruct (C79_complete fuel osd timeout m o from to s g r o' Hwf Hs Hg Cs Cg Os Og Hto Hf E) as (paths & E1 & E2 & _ & E3 & _).
    destruct (C79_candidates fuel osd timeout m o from to s g r o' Hwf Hs Hg Cs Cg Os Og E) as (paths' & E1' & E4 & E5 & _).
    rewrite E1 in E1'. injection E1' as <-.
    destruct (E3 g q Hn Hq) as (q1 & Hin & Hft).
    { intros t' q' Hn' Hq'. unfold rated at 1. rewrite h_goal. specialize (Hle t' q' Hn' Hq'). lra. }
    destruct paths as [|p ps]; [destruct Hin|]. exists p. split; [exact E2|].
    destruct (E4 p (or_introl eq_refl)) as (t & _ & Hp).
    assert (Hd : (euclid (last p s) g <= euclid (last q1 s) g)%R).
    { destruct Hin as [->|Hin]; [lra|]. inversion E5 as [|a l _ S2]; subst. rewrite Forall_forall in S2. apply S2. exact Hin. }
    destruct Hft as [_ Hft]. rewrite Hft, euclid_refl in Hd. apply euclid_zero in Hd.
    assert (t = g) by (destruct Hp as [[[_ <-] _] _]; exact Hd). subst t. exact Hp.
  Qed.

End Real.

Lemma path_length_snoc p v : forall d, p <> [] -> path_length (p ++ [v]) = (path_length p + euclid (last p d) v)%R.
Proof.
  induction p as [|a [|b p] IH]; intros d Hne; [congruence|cbn; ring|].
  change (path_length ((a :: b :: p) ++ [v])) with (euclid a b + path_length ((b :: p) ++ [v]))%R.
  change (path_length (a :: b :: p)) with (euclid a b + path_length (b :: p))%R.
  rewrite (IH d) by discriminate. change (last (a :: b :: p) d) with (last (b :: p) d). ring.
Qed.
Lemma near_euclid t g : near 1 g t -> (euclid t g <= sqrt 2)%R.
Proof.
  intros [A B]. unfold euclid. apply sqrt_le_1_alt. assert (H : forall z, Z.abs z <= 1 -> (IZR z ^ 2 <= 1)%R).
  { intros z Hz. replace (IZR z ^ 2)%R with (IZR (z * z)) by (rewrite mult_IZR; ring). apply IZR_le. nia. }
  pose proof (H (fst t - fst g) ltac:(lia)). pose proof (H (snd t - snd g) ltac:(lia)). lra.
Qed.

(** On the ordinary eight-neighbour grid an oversearch of one diagonal step is
    enough to be led to the goal cell itself, on a shortest path. *)
Theorem C79_exact_goal push pop queue inf n res fuel osd timeout m o from to s g t q r o' :
  push_ok push -> pop_ok pop -> (forall f l v r, pop f l = Some (v, r) -> forall w, In w l -> (f v <= f w)%R) -> cand_queue (fun _ => True) Rltb queue ->
  (0 < res)%R -> norm_fits true n -> gm_wf m -> in_cell from s -> in_cell to g ->
  cell_of (gm_w m) (gm_h m) (fst s) (snd s) -> ~ map_occupied m s -> map_free m g -> ~ map_occupied m g ->
  (forall i, timeout i = false) -> enough true m fuel ->
  near 1 g t -> direct_path true 1 m s t q -> (sqrt 2 * res <= osd)%R ->
  findPathC 0%R Rplus Rltb Rplus (rcost 1 res) (hcompute n res) euclid push pop queue true 1 fuel (oversearch Rplus Rltb osd timeout) (setMapC 0%R inf o m) from to = (r, o') ->
  exists p, r = FPath p /\ shortest true 1 m s g p.
Proof.
  intros Hpush Hpop Hmin Hqueue Hres Hfit Hwf Hs Hg Cs Os Fg Og Hto Hf Hn Hq Hosd E.
  pose proof (proj1 Fg) as Cg.
  assert (Hr : r <> FFuel).
  { pose proof (enough_fuel push pop queue inf true 1 n res Hpush Hpop Hmin eq_refl Hres Hfit fuel (oversearch Rplus Rltb osd timeout) m o from to Hwf Hf) as Hx.
    rewrite E in Hx. exact Hx. }
  destruct (real_spec push pop queue inf true 1 n res Hpush Hpop Hmin Hqueue eq_refl Hres Hfit fuel osd timeout m o from to s g r o' Hwf Hs Hg Cs Cg Os Og E)
    as (ends & paths & _ & E2 & _ & _ & E5 & E6).
  destruct (E5 (fun He => E6 Hto Hr He t q Hn Hq)) as (t0 & q0 & F1 & F2 & F3 & _ & _).
  assert (Hn0 : near 1 g t0).
  { clear - E2 F1. induction E2 as [|a b l1 l2 [H _] _ IH]; [destruct F1|]. destruct F1 as [<-|F1]; [exact H|apply IH; exact F1]. }
  assert (Hh : (0 <= hcompute n res t0 g)%R) by (apply C32_nonneg; lra).
  assert (Hs2 : (0 <= sqrt 2)%R) by apply sqrt_pos.
  assert (Hex : exists q1, direct_path true 1 m s g q1 /\ (path_length q1 <= path_length q0 + sqrt 2)%R).
  { destruct (ceqb_spec t0 g) as [->|Hne]; [exists q0; split; [exact F2|lra]|].
    exists (q0 ++ [g]). destruct F2 as [[A B] Ch].
    assert (Hq0 : q0 <> []) by (intros ->; discriminate). split.
    - split; [split|].
      + destruct q0; [congruence|exact A].
      + apply last_last.
      + destruct (exists_last Hq0) as (q' & z & ->). rewrite last_last in B. subst z. rewrite <- app_assoc. cbn [app].
        apply PropGoalTest.chain_snoc. split; [exact Ch|]. split; [|exact Fg].
        destruct Hn0 as [N1 N2]. split; [clear - N1; lia|]. split; [clear - N2; lia|exact Hne].
    - rewrite (path_length_snoc q0 g s Hq0), B. pose proof (near_euclid t0 g Hn0). lra. }
  destruct Hex as (q1 & Hq1 & Hl1).
  apply (C79_goal_cell push pop queue inf true 1 n res Hpush Hpop Hmin Hqueue eq_refl Hres Hfit fuel osd timeout m o from to s g q1 r o'); auto.
  intros t' q' Hn' Hq'. specialize (F3 t' q' Hn' Hq'). unfold rated in F3 at 1.
  assert (res * path_length q1 <= res * path_length q0 + sqrt 2 * res)%R.
  { apply (Rmult_le_compat_l res) in Hl1; lra. }
  lra.
Qed.

(** ** IEEE double arithmetic *)
Section Ieee.
  Variable push : (cell -> b64) -> cell -> list cell -> list cell.
  Variable pop : (cell -> b64) -> list cell -> option (cell * list cell).
  Variable queue : list (cell * b64) -> list (cell * b64).
  Variable hyp : cell -> cell -> b64.
  Variable eight : bool.
  Variable D : Z.
  Variable cost : bool -> b64.
  Hypothesis Hpush : push_ok push.
  Hypothesis Hpop : pop_ok pop.
  Hypothesis Hmin : forall f l v r, (forall w, In w l -> nonneg (f w)) -> pop f l = Some (v, r) ->
    forall w, In w l -> blt (f w) (f v) = false.
  Hypothesis Hqueue : cand_queue nonneg blt queue.
  Hypothesis Hhyp : forall v g, nonneg (hyp v g).
  Hypothesis HD : 0 < D.
  Hypothesis Hcost : forall d, nonneg (cost d).
  Notation findPathC := (findPathC bzero badd blt badd cost (fun _ _ => bzero) hyp push pop queue eight D).
  Notation nbrs := (nbrs b64 cost eight D).
  (** The length of a path as the search adds it up. *)
  Notation rounded := (travelled badd cost bzero).

  Lemma nbrs_cost m u v : gm_wf m -> direct_step eight D u v -> map_free m v -> In (v, cost (diagonal u v)) (nbrs m u).
  Proof using HD.
    intros Hwf A B. destruct (proj2 (edge_spec cost eight D HD m u v Hwf) (conj A B)) as [c Hin].
    destruct (nbrs_spec cost eight D HD m u v c Hwf Hin) as (_ & _ & Ec). unfold diagonal. rewrite <- Ec. exact Hin.
  Qed.
  Lemma pcost_travelled m a p b : gm_wf m -> pcost badd (nbrs m) a p b ->
    b = travelled badd cost a p /\ chain (fun u v => direct_step eight D u v /\ map_free m v) p.
  Proof using HD.
    intros Hwf H. induction H as [v a|u v c p a b Hin _ IH]; [split; [reflexivity|exact Logic.I]|].
    destruct (nbrs_spec cost eight D HD m u v c Hwf Hin) as (A & B & ->). destruct IH as [IH1 IH2].
    split; [exact IH1|]. split; [split; assumption|exact IH2].
  Qed.
  Lemma travelled_pcost m p : gm_wf m -> p <> [] -> chain (fun u v => direct_step eight D u v /\ map_free m v) p ->
    forall a, pcost badd (nbrs m) a p (travelled badd cost a p).
  Proof using HD.
    intros Hwf Hne H. induction p as [|u [|v p] IH]; intros a; [congruence|constructor|].
    destruct H as [[A B] H]. apply (pc_step _ _ u v (cost (diagonal u v))); [apply nbrs_cost; assumption|].
    apply IH; [discriminate|exact H].
  Qed.
  Lemma way_travelled m s t p y : gm_wf m -> way bzero badd (nbrs m) s t p y <-> direct_path eight D m s t p /\ y = rounded p.
  Proof using HD.
    intros Hwf. split.
    - intros (A & B & H). apply pcost_travelled in H as [-> H]; [|exact Hwf]. split; [split; [split; assumption|exact H]|reflexivity].
    - intros [[[A B] H] ->]. split; [exact A|]. split; [exact B|]. apply travelled_pcost; [exact Hwf| |exact H]. intros ->. discriminate.
  Qed.

  Lemma ieee_monotone m g osd : nonneg osd ->
    monotone (all_cells m) bzero badd blt badd (nbrs m) (goal_val b64 bzero (fun _ _ => bzero) (Some g)) true (fun x f => blt (badd f osd) x) nonneg.
  Proof using Hcost.
    intros Hosd.
    assert (Hc : forall u v c, In (v, c) (nbrs m u) -> nonneg c).
    { intros u v c Hin. unfold DirectSearch.nbrs in Hin. apply in_map_iff in Hin as ([w d] & Ed & _). injection Ed as _ <-. apply Hcost. }
    constructor.
    - intros u v c a b _ Hin Ha Hb H. pose proof (Hc u v c Hin) as Hcc. apply blt_false in H; [|assumption..].
      apply blt_false; [apply badd_key; assumption..|]. apply badd_mono; assumption.
    - intros a b v Ha Hb H. unfold hused. cbn [goal_val]. rewrite !badd_zero by assumption. exact H.
    - intros x y f Hx Hy Hf H H'. apply blt_false in H; [|assumption..].
      assert (Hfo : nonneg (badd f osd)) by (apply badd_key; assumption). apply blt_key in H'; [|assumption..]. apply blt_key; [assumption..|]. lra.
    - intros x f h Hx Hf Hh H H'. apply blt_false in H; [|assumption..].
      assert (Hfo : nonneg (badd f osd)) by (apply badd_key; assumption). assert (Hho : nonneg (badd h osd)) by (apply badd_key; assumption).
      apply blt_key in H'; [|assumption..]. apply blt_key; [assumption..|]. pose proof (badd_mono f h osd Hf Hh Hosd H). lra.
  Qed.

  Lemma enough_fuel_ieee fuel op m o from to : gm_wf m -> enough eight m fuel -> fst (findPathC fuel op (setMapC bzero binf o m) from to) <> FFuel.
  Proof using Hpush Hpop Hmin HD Hcost.
    intros Hwf Hf. rewrite (proj1 (C79_observer bzero badd blt badd cost (fun _ _ => bzero) hyp push pop queue eight D fuel op (setMapC bzero binf o m) from to)). cbn [ko_obj setMapC]; unfold setMap; fold (new_sobj _ bzero binf m (ob_first _ (ko_obj o))).
    pose proof (C78_observer bzero badd blt badd cost (fun _ _ => bzero) hyp push pop (top queue) eight D fuel op (CObj (new_sobj b64 bzero binf m (ob_first _ (ko_obj o))) (Cnt 0 0 0 0)) from to) as [E _].
    cbn [co_obj] in E. rewrite <- E. clear E.
    destruct (findPathN bzero badd blt badd cost (fun _ _ => bzero) hyp push pop (top queue) eight D fuel op (CObj (new_sobj b64 bzero binf m (ob_first _ (ko_obj o))) (Cnt 0 0 0 0)) from to) as [[r o'] log] eqn:E.
    cbn [fst].
    apply (C78_work_ieee push pop (top queue) hyp eight D cost Hpush Hpop Hmin HD Hcost fuel op m (ob_first _ (ko_obj o)) (Cnt 0 0 0 0) from to r o' log Hwf) in E as [_ E].
    apply E. exact Hf.
  Qed.

  (** Dijkstra with an oversearch distance, whatever the rounding does. *)
  Theorem C79_ieee fuel osd timeout m o from to s g r o' : gm_wf m -> nonneg osd ->
    in_cell from s -> in_cell to g ->
    cell_of (gm_w m) (gm_h m) (fst s) (snd s) -> cell_of (gm_w m) (gm_h m) (fst g) (snd g) ->
    ~ map_occupied m s -> ~ map_occupied m g ->
    findPathC fuel (oversearch badd blt osd timeout) (setMapC bzero binf o m) from to = (r, o') ->
    exists paths, getPathCandidates queue o' = Some paths /\
      (forall q, In q paths -> exists t, near D g t /\ direct_path eight D m s t q /\
        forall q', direct_path eight D m s t q' -> blt (rounded q') (rounded q) = false) /\
      StronglySorted (fun p q => blt (hyp (last q s) g) (hyp (last p s) g) = false) paths /\
      (r = FFuel \/ r = FPath (hd [] paths)) /\
      (enough eight m fuel -> r <> FFuel) /\
      ((forall i, timeout i = false) -> r <> FFuel ->
        (paths = [] <-> ~ exists t q, near D g t /\ direct_path eight D m s t q) /\
        forall t q, near D g t -> direct_path eight D m s t q ->
          (forall t' q', near D g t' -> direct_path eight D m s t' q' -> blt (badd (rounded q') osd) (rounded q) = false) ->
          exists q', In q' paths /\ from_to s t q').
  Proof using Hpush Hpop Hmin Hqueue Hhyp HD Hcost.
    intros Hwf Hosd Hs Hg Cs Cg Os Og E.
    assert (Har : cost_arith bzero badd blt cost nonneg) by (apply ieee_cost_arith; exact Hcost).
    assert (Hao : arith_ok (all_cells m) bzero badd blt (nbrs m) nonneg).
    { constructor.
      - apply (ca_wf _ _ _ _ _ Har).
      - apply (ca_irrefl _ _ _ _ _ Har).
      - apply (ca_zero _ _ _ _ _ Har).
      - intros u v c a _ Hin Ha. apply nbrs_spec in Hin as (_ & _ & ->); [|assumption..]. apply (ca_add _ _ _ _ _ Har). assumption.
      - intros u v c a _ Hin Ha. apply nbrs_spec in Hin as (_ & _ & ->); [|assumption..]. apply (ca_grow _ _ _ _ _ Har). assumption.
      - apply (ca_trans _ _ _ _ _ Har). }
    destruct (cand_spec bzero binf badd blt badd cost (fun _ _ => bzero) hyp push pop queue eight D Hpush Hpop nonneg Hqueue Hhyp HD nonneg nonneg
      fuel osd timeout m o from to s g r o' Hwf Hs Hg Cs Cg Os Og
      (ieee_steady pop eight D cost Hmin HD Hcost m (Some g) Hwf) Hao (ieee_monotone m g osd Hosd) E)
      as (ends & paths & E1 & E2 & E3 & E4 & E5 & E6).
    exists paths. split; [exact E1|].
    assert (Hz : forall t q y, way bzero badd (nbrs m) s t q y -> nonneg y).
    { intros t q y Hw. apply way_travelled in Hw as [_ ->]; [|exact Hwf]. clear - Hcost. assert (H : forall a, nonneg a -> nonneg (travelled badd cost a q)).
      { induction q as [|u [|v q] IH]; intros a Ha; [exact Ha|exact Ha|]. apply IH. apply badd_key; [exact Ha|apply Hcost]. }
      apply H. split; reflexivity. }
    assert (Hnil : ends = [] <-> paths = []) by (clear - E2; destruct E2; split; congruence).
    assert (Hends : forall t, In t ends -> near D g t /\ exists q, In q paths /\ direct_path eight D m s t q).
    { clear - E2 Hwf HD. induction E2 as [|t q ts qs [N (y & Hw & _)] _ IH]; [intros x []|]. intros x [ <- |Hx].
      - split; [exact N|]. exists q. split; [left; reflexivity|]. apply way_travelled in Hw as [Hw _]; assumption.
      - destruct (IH x Hx) as (A & q' & B & F). split; [exact A|]. exists q'. split; [right; exact B|exact F]. }
    split; [|split; [|split; [exact E4|split; [intros Hf; pose proof (enough_fuel_ieee fuel (oversearch badd blt osd timeout) m o from to Hwf Hf) as Hx; rewrite E in Hx; exact Hx|]]]].
    - clear - E2 Hwf HD. induction E2 as [|t q ts qs [N (y & Hw & Hc)] _ IH]; [intros x []|]. intros x [ <- |Hx]; [|apply IH; exact Hx].
      apply way_travelled in Hw as [Hw ->]; [|exact Hwf]. exists t. split; [exact N|]. split; [exact Hw|]. intros q' Hq'.
      apply (Hc q' (rounded q')). apply way_travelled; [exact Hwf|]. split; [exact Hq'|reflexivity].
    - clear - E2 E3. induction E2 as [|t q ts qs [_ (y & (_ & Hl & _) & _)] H2 IH]; [constructor|].
      inversion E3 as [|a l S1 S2]; subst. constructor; [apply IH; exact S1|]. clear IH E3 S1.
      induction H2 as [|t' q' ts' qs' [_ (y' & (_ & Hl' & _) & _)] _ IH']; [constructor|]. inversion S2 as [|b l' B1 B2]; subst.
      constructor; [exact B1|apply IH'; exact B2].
    - intros Hto Hr. split.
      + split; intros H.
        * intros (t & q & Hn & Hq). apply (E6 Hto Hr (proj2 Hnil H) t q (rounded q) Hn). apply way_travelled; auto.
        * destruct ends as [|e es]; [apply Hnil; reflexivity|]. exfalso. apply H. destruct (Hends e (or_introl eq_refl)) as (A & q & _ & B). exists e, q. split; assumption.
      + intros t q Hn Hq Hle.
        assert (Hw : way bzero badd (nbrs m) s t q (rounded q)) by (apply way_travelled; auto).
        destruct (E5 (fun He => E6 Hto Hr He t q (rounded q) Hn Hw)) as (t0 & q0 & y0 & F1 & F2 & F3 & F4 & _).
        pose proof (Hz t0 q0 y0 F2) as Hy0.
        destruct (Hends t0 F1) as (N0 & _).
        destruct (Hends t) as (_ & q' & A & [B _]); [|exists q'; split; assumption].
        apply (F4 Hto Hr t q (rounded q) Hn Hw). rewrite (badd_zero y0 Hy0). rewrite (badd_zero (rounded q) (Hz t q (rounded q) Hw)).
        apply way_travelled in F2 as [F2 ->]; [|exact Hwf]. apply (Hle t0 q0 N0 F2).
  Qed.
End Ieee.

(** ** Concrete searches *)
(** An insertion sort is a queue. *)
Fixpoint ins {C} (lt : C -> C -> bool) (x : cell * C) (l : list (cell * C)) : list (cell * C) :=
  match l with
  | [] => [x]
  | y :: r => if lt (snd y) (snd x) then y :: ins lt x r else x :: l
  end.
Definition sorted_queue {C} (lt : C -> C -> bool) (l : list (cell * C)) : list (cell * C) := fold_right (ins lt) [] l.
Lemma sorted_queue_ok {C} (P : C -> Prop) (lt : C -> C -> bool) :
  (forall a b, P a -> P b -> lt a b = true -> lt b a = false) ->
  (forall a b c, P a -> P b -> P c -> lt b a = false -> lt c b = false -> lt c a = false) ->
  cand_queue P lt (sorted_queue lt).
Proof.
  intros Has Htr.
  assert (Hins : forall x l, Permutation (x :: l) (ins lt x l)).
  { intros x l. induction l as [|y l IH]; [reflexivity|]. cbn [ins]. destruct (lt (snd y) (snd x)); [|reflexivity].
    rewrite perm_swap. constructor. exact IH. }
  assert (Hs : forall x l, P (snd x) -> (forall y, In y l -> P (snd y)) -> StronglySorted (fun a b => lt (snd b) (snd a) = false) l ->
    StronglySorted (fun a b => lt (snd b) (snd a) = false) (ins lt x l)).
  { intros x l Hx Hl H. induction H as [|y l H IH Hy]; [constructor; constructor|]. cbn [ins]. destruct (lt (snd y) (snd x)) eqn:E.
    - constructor; [apply IH; intros z Hz; apply Hl; right; exact Hz|]. apply Forall_forall. intros z Hz.
      apply (Permutation_in _ (Permutation_sym (Hins x l))) in Hz as [<-|Hz]; [apply Has; [apply Hl; left; reflexivity|exact Hx|exact E]|].
      rewrite Forall_forall in Hy. apply Hy. exact Hz.
    - constructor; [constructor; assumption|]. constructor; [exact E|]. rewrite Forall_forall in *. intros z Hz.
      apply (Htr _ (snd y)); [exact Hx|apply Hl; left; reflexivity|apply Hl; right; exact Hz|exact E|apply Hy; exact Hz]. }
  intros l Hl. unfold sorted_queue. induction l as [|x l IH]; [split; constructor|]. cbn [fold_right].
  destruct IH as [I1 I2]; [intros y Hy; apply Hl; right; exact Hy|]. split.
  - rewrite <- Hins. constructor. exact I1.
  - apply Hs; [apply Hl; left; reflexivity| |exact I2]. intros y Hy. apply Hl. right. apply (Permutation_in _ (Permutation_sym I1)). exact Hy.
Qed.
Notation d_hyp := (fun c g : cell => d_hypot (fst g - fst c) (snd g - snd c)).
Notation over_find := (findPathC bzero badd blt badd (d_cost 1 eighth) (fun _ _ => bzero) d_hyp fifo_push (min_pop blt) (sorted_queue blt) true 1).
Notation cands m osd from to := (let r := over_find 1000 (oversearch badd blt osd (fun _ => false)) (new_kobj bzero binf m bzero) from to in
  (fst r, getPathCandidates (sorted_queue blt) (snd r))).
Definition field : gridmap := gm_set [0;0;0;0;0; 0;0;0;0;0; 0;0;0;0;0; 0;0;100;0;0; 0;0;0;0;0] 5 5 (gm_new 5 5).
Lemma nonneg_sqrt x : nonneg x -> nonneg (dsqrt x).
Proof.
  intros [N Sg]. destruct (@Bsqrt_correct 53 1024 p64 l64 mode_NE x) as (_ & C2 & C3). fold (dsqrt x) in C2, C3.
  destruct x as [b|b| |b m e Hm]; cbn [is_nan Bsign] in N, Sg; try discriminate; subst b; [split; reflexivity..|].
  assert (Hn : is_nan (dsqrt (B754_finite false m e Hm)) = false)
    by (destruct (dsqrt (B754_finite false m e Hm)) as [b|b| |b m' e' Hm']; [reflexivity|reflexivity|discriminate C2|reflexivity]).
  split; [exact Hn|]. rewrite C3 by exact Hn. reflexivity.
Qed.
Lemma nonneg_of_Z z : 0 <= z -> nonneg (d_of_Z z).
Proof.
  intros Hz. pose proof (@binary_normalize_correct 53 1024 p64 l64 mode_NE z 0 false) as C. cbv zeta in C. fold (d_of_Z z) in C.
  assert (E : F2R (Float radix2 z 0) = IZR z) by (unfold F2R; cbn; lra). rewrite E in C.
  assert (B : (0 <= IZR z)%R) by (apply IZR_le; exact Hz).
  destruct (Rlt_bool _ _) in C.
  - destruct C as (_ & F & Sg). split; [destruct (d_of_Z z) as [b|b| |b m' e' Hm']; [reflexivity|reflexivity|discriminate F|reflexivity]|]. rewrite Sg.
    destruct (Rcompare_spec (IZR z) 0) as [H|H|H]; [exfalso; clear - B H; lra|reflexivity|reflexivity].
  - rewrite Rlt_bool_false in C by exact B. cbn in C. destruct (d_of_Z z) as [b|b| |b m e Hm]; cbn in C; try discriminate. injection C as ->. split; reflexivity.
Qed.
Lemma nonneg_hyp (c g : cell) : nonneg (d_hyp c g).
Proof. apply nonneg_sqrt, nonneg_of_Z. apply Z.add_nonneg_nonneg; apply Z.square_nonneg. Qed.
Lemma queue_ieee : cand_queue nonneg blt (sorted_queue blt).
Proof.
  apply sorted_queue_ok.
  - intros a b Ha Hb H. apply blt_key in H; [|assumption..]. apply blt_false; [assumption..|]. lra.
  - intros a b c Ha Hb Hc H1 H2. apply blt_false in H1, H2; try assumption. apply blt_false; [assumption..|]. lra.
Qed.
Lemma queue_real : cand_queue (fun _ => True) Rltb (sorted_queue Rltb).
Proof.
  apply sorted_queue_ok.
  - intros a b _ _ H. apply Rltb_true in H. apply Rltb_false. lra.
  - intros a b c _ _ _ H1 H2. apply Rltb_false in H1, H2. apply Rltb_false. lra.
Qed.
Lemma field_wf : gm_wf field.
Proof. vm_compute. repeat split; discriminate || reflexivity. Qed.

(** The path returned need not lie in the window: with an eighth of oversearch the
    first candidate costs three diagonal steps, the returned one four. *)
Theorem C79_window_refuted : exists p rest,
  cands field eighth (0%Q, 0%Q) (4%Q, 4%Q) = (FPath p, Some (p :: rest)) /\
  exists q, In q rest /\ blt (badd (travelled badd (d_cost 1 eighth) bzero q) eighth) (travelled badd (d_cost 1 eighth) bzero p) = true.
Proof.
  exists [(0, 0); (1, 1); (2, 2); (3, 3); (4, 4)],
    [[(0, 0); (1, 0); (2, 1); (3, 2); (4, 3)]; [(0, 0); (1, 1); (2, 2); (3, 3); (3, 4)]; [(0, 0); (1, 1); (2, 2); (3, 3)]].
  split; [vm_compute; reflexivity|]. exists [(0, 0); (1, 1); (2, 2); (3, 3)]. split; [right; right; left; reflexivity|vm_compute; reflexivity].
Qed.
(** The same path can be listed twice. *)
Definition twice_map : gridmap :=
  gm_set [0;0;100;100;100; 0;100;100;0;100; 0;100;0;100;0; 0;100;0;0;0; 0;0;100;0;0] 5 5 (gm_new 5 5).
Theorem C79_twice_refuted : exists before q after,
  snd (cands twice_map (badd eighth (badd eighth eighth)) (0%Q, 0%Q) (3%Q, 3%Q)) = Some (before ++ q :: q :: after).
Proof.
  exists [[(0, 0); (0, 1); (0, 2); (0, 3); (1, 4); (2, 3); (3, 3)]; [(0, 0); (0, 1); (0, 2); (0, 3); (1, 4); (2, 3)];
    [(0, 0); (0, 1); (0, 2); (0, 3); (1, 4); (2, 3); (3, 4)]; [(0, 0); (0, 1); (0, 2); (0, 3); (1, 4); (2, 3); (3, 3); (4, 3)];
    [(0, 0); (0, 1); (0, 2); (0, 3); (1, 4); (2, 3); (2, 2)]],
    [(0, 0); (0, 1); (0, 2); (0, 3); (1, 4); (2, 3); (3, 4); (4, 4)], [[(0, 0); (0, 1); (0, 2); (0, 3); (1, 4); (2, 3); (3, 3); (4, 2)]].
  vm_compute. reflexivity.
Qed.
(** Concrete searches meeting the hypotheses. *)
Example C79_ieee_met r o' :
  over_find 1000 (oversearch badd blt eighth (fun _ => false)) (new_kobj bzero binf field bzero) (0%Q, 0%Q) (4%Q, 4%Q) = (r, o') ->
  exists paths, getPathCandidates (sorted_queue blt) o' = Some paths /\ r = FPath (hd [] paths) /\ paths <> [].
Proof.
  intros E.
  assert (Hlook : map_free field (1, 1) /\ map_free field (2, 2) /\ map_free field (3, 3)) by (vm_compute; repeat split; discriminate || reflexivity).
  destruct (C79_ieee fifo_push (min_pop blt) (sorted_queue blt) d_hyp true 1 (d_cost 1 eighth) (@fifo_push_ok _ _) (min_pop_ok blt)
    min_pop_ieee queue_ieee nonneg_hyp ltac:(lia) ltac:(intros []; vm_compute; split; reflexivity)
    1000 eighth (fun _ => false) field (new_kobj bzero binf field bzero) (0%Q, 0%Q) (4%Q, 4%Q) (0, 0) (4, 4) r o' field_wf) as (paths & E1 & _ & _ & E4 & E5 & E6).
  - split; reflexivity.
  - split; split; vm_compute; (reflexivity || discriminate).
  - split; split; vm_compute; (reflexivity || discriminate).
  - vm_compute; repeat split; discriminate || reflexivity.
  - vm_compute; repeat split; discriminate || reflexivity.
  - intros [_ H]. vm_compute in H. discriminate.
  - intros [_ H]. vm_compute in H. discriminate.
  - exact E.
  - assert (Hr : r <> FFuel) by (apply E5; vm_compute; reflexivity).
    exists paths. split; [exact E1|]. split; [destruct E4 as [E4|E4]; [contradiction|exact E4]|].
    destruct (E6 (fun _ => eq_refl) Hr) as [[E7 _] _]. intros Hn. apply (E7 Hn). exists (3, 3), [(0, 0); (1, 1); (2, 2); (3, 3)].
    clear - Hlook. destruct Hlook as (A & B & F). split; [vm_compute; split; discriminate|]. split; [split; reflexivity|].
    repeat split; try assumption; try (vm_compute; discriminate); vm_compute; right; reflexivity.
Qed.
Example C79_exact_goal_met r o' inf :
  findPathC 0%R Rplus Rltb Rplus (rcost 1 (/ 20)%R) (hcompute HeuristicL2 (/ 20)%R) euclid fifo_push (min_pop Rltb) (sorted_queue Rltb) true 1
    1000 (oversearch Rplus Rltb (/ 10)%R (fun _ => false)) (new_kobj 0%R inf field 0%R) (0%Q, 0%Q) (4%Q, 4%Q) = (r, o') ->
  exists p, r = FPath p /\ shortest true 1 field (0, 0) (4, 4) p.
Proof.
  intros E. destruct real_policy as (A & B & M & _).
  assert (Hlook : map_free field (1, 1) /\ map_free field (2, 2) /\ map_free field (3, 3)) by (vm_compute; repeat split; discriminate || reflexivity).
  refine (C79_exact_goal fifo_push (min_pop Rltb) (sorted_queue Rltb) inf HeuristicL2 (/ 20)%R 1000 (/ 10)%R (fun _ => false) field (new_kobj 0%R inf field 0%R) (0%Q, 0%Q) (4%Q, 4%Q)
    (0, 0) (4, 4) (3, 3) [(0, 0); (1, 1); (2, 2); (3, 3)] r o' A B M queue_real ltac:(lra) Logic.I field_wf _ _ _ _ _ _ (fun _ => eq_refl) _ _ _ _ E).
  - split; split; vm_compute; (reflexivity || discriminate).
  - split; split; vm_compute; (reflexivity || discriminate).
  - vm_compute; repeat split; discriminate || reflexivity.
  - intros [_ H]. vm_compute in H. discriminate.
  - vm_compute; repeat split; discriminate || reflexivity.
  - intros [_ H]. vm_compute in H. discriminate.
  - vm_compute. reflexivity.
  - vm_compute; split; discriminate.
  - split; [split; reflexivity|]. clear - Hlook. destruct Hlook as (A & B & F).
    repeat split; try assumption; try (vm_compute; discriminate); vm_compute; right; reflexivity.
  - assert (H : (sqrt 2 <= 2)%R) by (rewrite <- (sqrt_square 2) at 2 by lra; apply sqrt_le_1_alt; lra). lra.
Qed.
Print Assumptions C79_candidates.
Print Assumptions C79_complete.
Print Assumptions C79_exact_goal.
Print Assumptions C79_ieee.
