(** Property C70: the search without a heuristic is cheapest in the arithmetic it computes
    with; the breadth-first search of the evaluation tool takes the fewest steps. *)
From Coq Require Import Reals Lra QArith.
From Flocq Require Import Core BinarySingleNaN.
From Verif Require Import Base GridMap GridMapProofs PathSpec GenericSearch GenericProofs OpenPolicies DirectSpec DirectSearch PropGeneric PropGenericEx
  AStarFloat AStarIeee GenericFloat Heuristics PropHeur GenericIeee GoalTest GoalTestProofs GoalTestOpt PropGoalTest PropGoalTestIeee BfsModel.
Open Scope Z_scope.

(** ** A goal node and a goal test that recognises it *)
Section Sim.
  #[local] Set Default Proof Using "All".
  Context {V C : Type}.
  Variable veqb : V -> V -> bool.
  Variable all : list V.
  Variable zero : C.
  Variable add : C -> C -> C.
  Variable lt : C -> C -> bool.
  Variable tot : C -> C -> C.
  Variable nbr : V -> list (V * C).
  Variable push : (V -> C) -> V -> list V -> list V.
  Variable pop : (V -> C) -> list V -> option (V * list V).
  Variable start : list V.
  Variable is_goal : V -> bool.
  Variable over over' : C -> C -> bool.
  Variable gdist : V -> C.
  Variable best : list (V * C) -> option V.
  Variable timeout : nat -> bool.
  Hypothesis Hbest : best_ok best.
  Hypothesis best_some : forall l, best l = None -> l = [].
  Notation si := (s_info V C).
  Notation hh := (g_h V C).
  Definition atest (t : unit) (v : V) (i : info V C) : unit * option C * bool := (t, if is_goal v then Some zero else None, is_goal v).
  Notation proc g := (processNeighbor V C veqb add lt tot (fun _ => zero) push g).
  Notation procs g := (process_all V C veqb add lt tot (fun _ => zero) push g).
  Notation loop := (loop V C veqb all add lt tot nbr (fun _ => zero) push pop start is_goal true false over gdist best timeout).
  Notation tloop := (tloop V C unit veqb all add lt tot nbr (fun _ => zero) true push pop start atest false over' best timeout).

  Lemma proc_same cur s vc : (forall v, hh (si s v) = zero) -> proc true cur s vc = proc false cur s vc /\
    forall s', proc false cur s vc = Some s' -> s_cand V C s' = s_cand V C s /\ forall v, hh (si s' v) = zero.
  Proof.
    intros Hh. destruct vc as [v c]. unfold processNeighbor. rewrite (Hh v).
    destruct (g_closed V C (si s v) && _); [|destruct (negb _ || _); [destruct (veqb v cur)|]]; (split; [reflexivity|]); intros s' E; try discriminate; injection E as <-;
      (split; [reflexivity|]); intros w; cbn [s_info]; unfold setn; (destruct (veqb w v); [reflexivity|apply Hh]).
  Qed.
  Lemma procs_same cur l : forall s, (forall v, hh (si s v) = zero) -> procs true cur l s = procs false cur l s /\
    forall s', procs false cur l s = Some s' -> s_cand V C s' = s_cand V C s /\ forall v, hh (si s' v) = zero.
  Proof.
    induction l as [|vc l IH]; intros s Hh; cbn [process_all].
    - split; [reflexivity|]. intros s' E. injection E as <-. auto.
    - destruct (proc_same cur s vc Hh) as [-> Hp]. destruct (proc false cur s vc) as [s1|]; cbn [obind]; [|split; [reflexivity|discriminate]].
      destruct (Hp s1 eq_refl) as [Ec Hh1]. destruct (IH s1 Hh1) as [-> Hs]. split; [reflexivity|]. intros s' E. destruct (Hs s' E) as [A B]. split; [congruence|exact B].
  Qed.
  Lemma loop_same fuel : forall n t s, s_cand V C s = [] -> (forall v, hh (si s v) = zero) -> fst (loop fuel n s) = fst (fst (tloop fuel n t s)).
  Proof.
    assert (Hfin : forall s, s_cand V C s = [] -> finish V C veqb all start best s = GPath V []).
    { intros s Hs. unfold finish. rewrite Hs. destruct (best []) as [v|] eqn:Eb; [|reflexivity]. destruct (Hbest _ _ Eb) as (c & []). }
    induction fuel as [|k IH]; intros n t s Hsc Hh; [reflexivity|]. cbn [GenericSearch.loop GoalTest.tloop].
    destruct (s_open V C s) as [|hd0 tl0]; [reflexivity|]. destruct (timeout n); [reflexivity|].
    destruct (pop _ _) as [[cur o]|]; [|reflexivity]. cbv zeta. unfold atest at 1.
    set (s1 := close V C veqb (fun _ => zero) true s cur o). assert (Hs1 : s_cand V C s1 = []) by exact Hsc.
    assert (Hh1 : forall v, hh (si s1 v) = zero).
    { intros v. unfold s1, close. cbn [s_info]. unfold setn. destruct (veqb v cur); [reflexivity|apply Hh]. }
    clearbody s1. destruct (is_goal cur) eqn:Eg; cbn [andb negb].
    - cbn [fst]. unfold finish at 2. cbn [add_cand s_cand s_info]. rewrite Hs1. cbn [app].
      destruct (best [(cur, zero)]) as [v|] eqn:Eb; [|apply best_some in Eb; discriminate]. destruct (Hbest _ _ Eb) as (c & [Hin|[]]). injection Hin as <- <-.
      destruct (backtrack V C veqb all start (si s1) cur) as [[|x p]|]; [|reflexivity|reflexivity]. cbn [of_bt fst]. apply Hfin, Hs1.
    - destruct (procs_same cur (nbr cur) s1 Hh1) as [-> Hs]. destruct (procs false cur (nbr cur) s1) as [s3|]; [|reflexivity].
      destruct (Hs s3 eq_refl) as [Ec Hh3]. rewrite (IH (S n) t s3 (eq_trans Ec Hs1) Hh3).
      destruct (tloop k (S n) t s3) as [[r s'] l]. reflexivity.
  Qed.
  Lemma starts_h l : forall s, (forall v, hh (si s v) = zero) -> s_cand V C s = [] ->
    s_cand V C (add_starts V C veqb zero tot push l s) = [] /\ forall v, hh (si (add_starts V C veqb zero tot push l s) v) = zero.
  Proof.
    induction l as [|x l IH]; intros s Hh Hc; cbn [add_starts]; [auto|]. apply IH; [|exact Hc].
    intros v. cbn [s_info]. unfold setn. destruct (veqb v x); [apply Hh|apply Hh].
  Qed.
  Lemma run_same inf fuel t first :
    fst (run V C veqb all zero add lt tot nbr (fun _ => zero) push pop start is_goal true false over gdist best timeout fuel (fun _ => fresh_info V C zero inf) first) =
    fst (fst (trun V C unit veqb all zero add lt tot nbr (fun _ => zero) true push pop start atest false over' best timeout fuel t (fun _ => fresh_info V C zero inf) first)).
  Proof.
    unfold run, trun. destruct (starts_h start (State V C (fun _ => fresh_info V C zero inf) [] [] first)) as [A B]; [reflexivity|reflexivity|].
    apply loop_same; assumption.
  Qed.
End Sim.

(** ** The search without a heuristic, in any arithmetic that keeps the order *)
Section Cheapest.
  Context {C : Type}.
  Variable zero inf : C.
  Variable add : C -> C -> C.
  Variable lt : C -> C -> bool.
  Variable cost : bool -> C.
  Variable hyp : cell -> cell -> C.
  Variable push : (cell -> C) -> cell -> list cell -> list cell.
  Variable pop : (cell -> C) -> list cell -> option (cell * list cell).
  Variable best : list (cell * C) -> option cell.
  Variable eight : bool.
  Variable D : Z.
  Hypothesis Hpush : push_ok push.
  Hypothesis Hpop : pop_ok pop.
  Hypothesis HD : 0 < D.
  Variable ok : C -> Prop.
  Hypothesis Har : cost_arith zero add lt cost ok.
  Hypothesis Hmono : forall d a b, ok a -> ok b -> lt b a = false -> lt (add b (cost d)) (add a (cost d)) = false.
  Hypothesis Hzero : forall a, ok a -> add a zero = a.
  (** PriorityQueueManager: no waiting node compares smaller than the one handed out. *)
  Hypothesis Hmin : forall f l v r, (forall w, In w l -> ok (f w)) -> pop f l = Some (v, r) -> forall w, In w l -> lt (f w) (f v) = false.
  Hypothesis Hbest : best_ok best.
  Hypothesis Hbs : forall l, best l = None -> l = [].
  Notation findPath := (findPath C zero add lt add cost (fun _ _ => zero) hyp push pop best eight D).
  Notation new_sobj := (new_sobj C zero inf).

  (** On a new object (or after setMap) and without oversearch, with or without a
      time limit: a path that is returned is one of the cheapest among all the
      paths to cells within the goal tolerance, in the search's own arithmetic. *)
  Theorem C70_cheapest fuel op m first from to p o' :
    gm_wf m -> op_cand C op = false -> (0 <= fst from)%Q -> (0 <= snd from)%Q -> (0 <= fst to)%Q -> (0 <= snd to)%Q ->
    findPath fuel op (new_sobj m first) from to = (FPath p, o') -> p <> [] ->
    exists s g t, in_cell from s /\ in_cell to g /\ near D g t /\ direct_path eight D m s t p /\ NoDup p /\
      cell_of (gm_w m) (gm_h m) (fst s) (snd s) /\
      forall t' q, near D g t' -> direct_path eight D m s t' q -> lt (travelled add cost zero q) (travelled add cost zero p) = false.
  Proof using Hpush Hpop HD Har Hmono Hzero Hmin Hbest Hbs.
    intros Hwf Hcand F1 F2 T1 T2 E Hne.
    destruct (C19_path_valid zero add lt add cost (fun _ _ => zero) hyp push pop best eight D Hpush Hpop HD fuel op (new_sobj m first) o' from to p Hbest Hwf F1 F2 T1 T2 E Hne)
      as (s' & g' & t' & Is & Ig & Hn & Hp & Nd & Os & Og). cbn [ob_map DirectSearch.new_sobj] in *.
    unfold DirectSearch.findPath in E. cbn [ob_map ob_info ob_first DirectSearch.new_sobj] in E.
    destruct (lookup_pose m from) as [s| |] eqn:Es; [|discriminate|discriminate].
    destruct (lookup_pose m to) as [g| |] eqn:Eg; [|discriminate|discriminate].
    pose proof (lookup_cell m from s Hwf Es) as Cs. pose proof (lookup_in_cell m from s F1 F2 Es) as Is2.
    pose proof (lookup_in_cell m to g T1 T2 Eg) as Ig2.
    assert (Uq : forall (po : Q * Q) (a b : cell), in_cell po a -> in_cell po b -> a = b).
    { clear. intros [x y] [a1 a2] [b1 b2] [[A1 A2] [A3 A4]] [[B1 B2] [B3 B4]]. cbn [fst snd] in *.
      pose proof (Qle_lt_trans _ _ _ A1 B2) as X1. pose proof (Qle_lt_trans _ _ _ B1 A2) as X2.
      pose proof (Qle_lt_trans _ _ _ A3 B4) as X3. pose proof (Qle_lt_trans _ _ _ B3 A4) as X4.
      rewrite <- Zlt_Qlt in X1, X2, X3, X4. f_equal; lia. }
    assert (s' = s) as -> by (eapply Uq; eassumption). assert (g' = g) as -> by (eapply Uq; eassumption).
    assert (Eos : is_occ_cell m s = false).
    { destruct (is_occ_cell m s) eqn:X; [|reflexivity]. apply is_occ_cell_spec in X. destruct Os. split; [exact Cs|exact X]. }
    assert (Eog : is_occ_cell m g = false).
    { destruct (is_occ_cell m g) eqn:X; [|reflexivity]. apply is_occ_cell_spec in X. destruct Og. split; [apply (lookup_cell m to g Hwf Eg)|exact X]. }
    rewrite Eos, Eog in E. cbv zeta in E. cbn [somes] in E. rewrite Hcand in E.
    match type of E with (to_fres (fst ?x), _) = _ => assert (Ef : to_fres (fst x) = FPath p) by (injection E; auto) end. clear E.
    change (goal_val C zero (fun _ _ : cell => zero) (Some g)) with (fun _ : cell => zero) in Ef.
    rewrite (run_same ceqb (all_cells m) zero add lt add (nbrs C cost eight D m) push pop [s] (goal_test D (Some g)) (op_over C op) (op_over C op) _ best (op_timeout C op) Hbest Hbs inf fuel tt first) in Ef.
    match type of Ef with to_fres (fst (fst ?x)) = _ => destruct x as [[r st] l] eqn:Er end. cbn [fst] in Ef.
    destruct r as [| |q]; try discriminate. cbn [to_fres] in Ef. injection Ef as ->.
    apply (trun_nearest ceqb ceqb_spec (all_cells m) zero inf add lt add (nbrs C cost eight D m) (fun _ => zero) true push pop Hpush Hpop [s] (atest zero (goal_test D (Some g))) _ _ best _ Hbest ok ok
      (grid_arith zero add lt cost eight D HD ok m Har Hwf) (grid_nbr_all cost eight D HD m Hwf) ltac:(intros x [<-|[]]; apply all_cells_spec; exact Cs)
      (grid_mono add lt cost eight D HD ok Hmono m Hwf) Hzero (fun a H => H) ltac:(intros a v Ha; rewrite Hzero; exact Ha) Hmin (goal_test D (Some g))) in Er; [|intros [] v i; unfold atest; destruct (goal_test D (Some g) v); repeat split; congruence|exact Hne].
    destruct Er as (v & x & q0 & Eq & Hw & Hv & Hle).
    destruct (walk_travelled zero add cost eight D HD m s _ _ Hwf Hw) as (Ex & _ & _). rewrite rev_involutive in Ex.
    exists s, g, t'. repeat (split; [assumption|]). intros u q Hu Hq. rewrite <- Ex.
    destruct (travelled_walk zero add cost eight D HD m s Hwf q u Hq) as (l0 & Erq & Hwq). rewrite Erq in Hwq. apply (Hle u l0 _ Hwq).
    apply C25_isGoal. exact Hu.
  Qed.
End Cheapest.

(** ** Steps of equal cost *)
(** The cost after [k] steps of cost [c]. *)
Fixpoint steps_cost {C} (add : C -> C -> C) (c a : C) (k : nat) : C := match k with O => a | S k => steps_cost add c (add a c) k end.
Lemma travelled_steps {C} (add : C -> C -> C) c p : forall a, travelled add (fun _ => c) a p = steps_cost add c a (length p - 1).
Proof.
  induction p as [|u [|v p] IH]; intros a; [reflexivity|reflexivity|].
  change (travelled add (fun _ => c) a (u :: v :: p)) with (travelled add (fun _ => c) (add a c) (v :: p)). rewrite IH.
  cbn [length]. replace (S (S (length p)) - 1)%nat with (S (S (length p) - 1)) by lia. reflexivity.
Qed.
Lemma steps_cost_S {C} (add : C -> C -> C) c k : forall a, steps_cost add c a (S k) = add (steps_cost add c a k) c.
Proof. induction k as [|k IH]; intros a; [reflexivity|]. cbn [steps_cost] in *. apply IH. Qed.

Local Open Scope R_scope.
Lemma bfs_cost_small res d : ordinary res -> small (bfs_cost res d) /\ key (bfs_cost res d) = B2R res.
Proof.
  intros Hres. pose proof (res_pos res Hres) as Pr. pose proof Hres as (Fr & R1 & R2). unfold bfs_cost, bfs_delta.
  assert (F1 : fin (d_of_Z 1) /\ B2R (d_of_Z 1) = 1) by (split; [reflexivity|cbn; unfold F2R; cbn; lra]). destruct F1 as [F1 E1].
  assert (B9 : bpow radix2 900 <= bpow radix2 960) by (apply bpow_le; lia). assert (B10 : bpow radix2 960 <= bpow radix2 1000) by (apply bpow_le; lia).
  destruct (dmul_spec (d_of_Z 1) res F1 Fr) as [Fm Em]; [rewrite E1; lra|]. change (dmul (d_of_Z 1) res) with (bmul (d_of_Z 1) res) in *.
  rewrite E1, Rmult_1_l, r64_id in Em by apply generic_format_B2R.
  rewrite key_finite by exact Fm. split; [|exact Em]. split; [|rewrite key_finite by exact Fm; lra].
  split; [|apply pos_sign; [exact Fm|lra]]. destruct (bmul (d_of_Z 1) res); try discriminate; reflexivity.
Qed.
Section Steps.
  Variable res : b64.
  Hypothesis Hres : ordinary res.
  Let c := bfs_cost res true.
  Let f (k : nat) : b64 := steps_cost badd c bzero k.
  Lemma f_S k : f (S k) = badd (f k) c. Proof using Type. apply steps_cost_S. Qed.
  Lemma f_nonneg k : nonneg (f k).
  Proof using Hres.
    induction k as [|k IH]; [split; reflexivity|]. rewrite f_S. apply badd_key; [exact IH|]. apply (bfs_cost_small res true Hres).
  Qed.
  Lemma f_upper k : key (f k) <= B2R res * INR k * U ^ k.
  Proof using Hres.
    pose proof (res_pos res Hres) as Pr. pose proof U1 as HU. induction k as [|k IH]; [cbn; lra|].
    rewrite f_S. destruct (bfs_cost_small res true Hres) as [Sc Kc]. fold c in Sc, Kc. destruct (badd_rel (f k) c (f_nonneg k) Sc) as [B _]. rewrite Kc in B.
    rewrite S_INR. cbn [pow]. pose proof (pos_INR k). assert (1 <= U ^ k) by (apply pow_R1_Rle; exact HU).
    eapply Rle_trans; [exact B|]. replace (B2R res * (INR k + 1) * (U * U ^ k)) with ((B2R res * INR k * U ^ k + B2R res * U ^ k) * U) by ring.
    apply Rmult_le_compat_r; [lra|]. assert (B2R res * 1 <= B2R res * U ^ k) by (apply Rmult_le_compat_l; lra). lra.
  Qed.
  (** One more step costs strictly more, as long as there are at most 2^32 of them. *)
  Lemma f_grow k : (Z.of_nat k <= 4294967296)%Z -> key (f k) < key (f (S k)).
  Proof using Hres.
    intros Hk. pose proof (res_pos res Hres) as Pr. pose proof U1 as HU. pose proof (f_upper k) as Up.
    destruct (bfs_cost_small res true Hres) as [Sc Kc]. fold c in Sc, Kc. destruct (badd_rel (f k) c (f_nonneg k) Sc) as [_ B]. rewrite Kc in B.
    rewrite f_S. set (x := key (f k)) in *. set (y := key (badd (f k) c)) in *.
    assert (Ik : 0 <= INR k <= 4294967296) by (split; [apply pos_INR|]; rewrite INR_IZR_INZ; apply IZR_le; exact Hk).
    assert (E52 : bpow radix2 (-52) = / 4503599627370496) by reflexivity.
    assert (U2 : U ^ k <= 2).
    { unfold U. eapply Rle_trans; [apply pow_small; [apply bpow_ge_0|]|]; rewrite E52; lra. }
    assert (X : x <= B2R res * 8589934592).
    { eapply Rle_trans; [exact Up|]. rewrite Rmult_assoc. apply Rmult_le_compat_l; [lra|]. replace 8589934592 with (4294967296 * 2) by lra.
      apply Rmult_le_compat; [lra|apply pow_le; lra|lra|exact U2]. }
    assert (X0 : 0 <= x) by (apply (key_range (f k)), f_nonneg).
    apply Rnot_le_lt. intros G. assert (y * U <= x * U) by (apply Rmult_le_compat_r; lra).
    unfold U in *. rewrite E52 in *. lra.
  Qed.
  Lemma f_mono j k : (j <= k)%nat -> key (f j) <= key (f k).
  Proof using Hres.
    induction 1 as [|k H IH]; [lra|]. rewrite f_S. destruct (badd_key (f k) c (f_nonneg k)) as [_ B]; [apply (bfs_cost_small res true Hres)|]. lra.
  Qed.
  Lemma f_order j k : (Z.of_nat k <= 4294967296)%Z -> blt (f j) (f k) = false -> (k <= j)%nat.
  Proof using Hres.
    intros Hk H. apply blt_false in H; [|apply f_nonneg|apply f_nonneg]. apply Nat.nlt_ge. intros G.
    pose proof (f_grow j ltac:(lia)) as A. pose proof (f_mono (S j) k ltac:(lia)). lra.
  Qed.
End Steps.

(** ** The breadth-first search *)
Section Bfs.
  Variable res : b64.
  Variable hyp : cell -> cell -> b64.
  Variable push : (cell -> b64) -> cell -> list cell -> list cell.
  Variable pop : (cell -> b64) -> list cell -> option (cell * list cell).
  Variable best : list (cell * b64) -> option cell.
  Variable eight : bool.
  Variable D : Z.
  Hypothesis Hpush : push_ok push.
  Hypothesis Hpop : pop_ok pop.
  (** PriorityQueueManager: no waiting node compares smaller than the one handed out. *)
  Hypothesis Hmin : forall f l v r, (forall w, In w l -> nonneg (f w)) -> pop f l = Some (v, r) ->
    forall w, In w l -> blt (f w) (f v) = false.
  Hypothesis Hbest : best_ok best.
  Hypothesis Hbs : forall l, best l = None -> l = [].
  Hypothesis HD : (0 < D)%Z.
  Hypothesis Hres : ordinary res.
  Notation find := (bfs_find res hyp push pop best eight D).
  Notation new_sobj := (new_sobj b64 bzero binf).

  Lemma bfs_arith : cost_arith bzero badd blt (bfs_cost res) nonneg.
  Proof using Hres. apply ieee_cost_arith. intros d. apply (bfs_cost_small res d Hres). Qed.
  Lemma bfs_mono d a b : nonneg a -> nonneg b -> blt b a = false -> blt (badd b (bfs_cost res d)) (badd a (bfs_cost res d)) = false.
  Proof using Hres.
    intros Ha Hb E. destruct (bfs_cost_small res d Hres) as [[Hc _] _]. apply blt_false in E; [|assumption|assumption].
    apply blt_false; [apply badd_key; assumption|apply badd_key; assumption|]. apply badd_mono; assumption.
  Qed.

  (** Whenever the breadth-first search returns a path, no path to the accepted region
      has fewer steps - exactly, although the costs are added up in rounded doubles. *)
  Theorem C70_fewest_steps fuel op m first from to p o' :
    gm_wf m -> op_cand b64 op = false -> (0 <= fst from)%Q -> (0 <= snd from)%Q -> (0 <= fst to)%Q -> (0 <= snd to)%Q ->
    find fuel op (new_sobj m first) from to = (FPath p, o') -> p <> [] ->
    exists s g t, in_cell from s /\ in_cell to g /\ near D g t /\ direct_path eight D m s t p /\ NoDup p /\
      forall t' q, near D g t' -> direct_path eight D m s t' q -> (length p <= length q)%nat.
  Proof using Hpush Hpop Hmin Hbest Hbs HD Hres.
    intros Hwf Hcand F1 F2 T1 T2 E Hne.
    destruct (C70_cheapest bzero binf badd blt (bfs_cost res) hyp push pop best eight D Hpush Hpop HD nonneg bfs_arith bfs_mono badd_zero Hmin Hbest Hbs
      fuel op m first from to p o' Hwf Hcand F1 F2 T1 T2 E Hne) as (s & g & t & Is & Ig & Hn & Hp & Nd & Cs & Hle).
    exists s, g, t. repeat (split; [assumption|]). intros t' q Hn' Hq. specialize (Hle t' q Hn' Hq).
    change (bfs_cost res) with (fun _ : bool => bfs_cost res true) in Hle. rewrite !travelled_steps in Hle.
    assert (Lp : (Z.of_nat (length p) <= 4294967296)%Z).
    { destruct Hp as [[Hd _] Hc]. pose proof (NoDup_incl_length Nd (path_cells eight D m s p Cs Hd Hc)) as L. pose proof (all_cells_len m Hwf) as A.
      destruct Hwf as (Hw & Hh & Hwh & _). nia. }
    apply (f_order res Hres) in Hle; [|lia]. destruct Hp as [[Hd _] _], Hq as [[Hd' _] _]. destruct p; [discriminate|]. destruct q; [discriminate|]. cbn [length] in *. lia.
  Qed.

  (** And it terminates, with an empty path only if there is no way at all. *)
  Theorem C70_complete op m first from to s g :
    gm_wf m -> op_cand b64 op = false -> (forall k, op_timeout b64 op k = false) ->
    in_cell from s -> in_cell to g ->
    cell_of (gm_w m) (gm_h m) (fst s) (snd s) -> cell_of (gm_w m) (gm_h m) (fst g) (snd g) ->
    ~ map_occupied m s -> ~ map_occupied m g ->
    exists fuel p o', find fuel op (new_sobj m first) from to = (FPath p, o') /\
      (p = [] <-> ~ exists t q, near D g t /\ direct_path eight D m s t q) /\
      (p <> [] -> exists t, near D g t /\ direct_path eight D m s t p /\
         forall t' q, near D g t' -> direct_path eight D m s t' q -> (length p <= length q)%nat).
  Proof using Hpush Hpop Hmin Hbest Hbs HD Hres.
    intros Hwf Hcand Hto Hs Hg Cs Cg Os Og.
    destruct (C20_complete bzero binf badd blt badd (bfs_cost res) no_heur hyp push pop best eight D Hpush Hpop HD nonneg op m first from to s g Hbest Hbs bfs_arith Hwf Hto Hs Hg Cs Cg Os Og)
      as (fuel & p & o' & E & Hp).
    exists fuel, p, o'. split; [exact E|]. split; [exact Hp|]. intros Hne.
    assert (P : forall z (c : Z), (0 <= c)%Z -> (inject_Z c <= z)%Q -> (0 <= z)%Q).
    { intros z c0 Hc0 Hz. eapply Qle_trans; [|exact Hz]. change 0%Q with (inject_Z 0). rewrite <- Zle_Qle. exact Hc0. }
    unfold cell_of in Cs, Cg. destruct Hs as [[S1 S2] [S3 S4]], Hg as [[G1 G2] [G3 G4]].
    destruct (C70_fewest_steps fuel op m first from to p o' Hwf Hcand) as (s' & g' & t & Is & Ig & Hn & Hd & _ & Hle);
      [eapply P; [|exact S1]; lia|eapply P; [|exact S3]; lia|eapply P; [|exact G1]; lia|eapply P; [|exact G3]; lia|exact E|exact Hne|].
    assert (Uq : forall (po : Q * Q) (a b : cell), in_cell po a -> in_cell po b -> a = b).
    { clear. intros [x y] [a1 a2] [b1 b2] [[A1 A2] [A3 A4]] [[B1 B2] [B3 B4]]. cbn [fst snd] in *.
      pose proof (Qle_lt_trans _ _ _ A1 B2) as X1. pose proof (Qle_lt_trans _ _ _ B1 A2) as X2.
      pose proof (Qle_lt_trans _ _ _ A3 B4) as X3. pose proof (Qle_lt_trans _ _ _ B3 A4) as X4.
      rewrite <- Zlt_Qlt in X1, X2, X3, X4. f_equal; lia. }
    assert (s' = s) as -> by (eapply Uq; [exact Is|]; repeat split; assumption). assert (g' = g) as -> by (eapply Uq; [exact Ig|]; repeat split; assumption).
    exists t. auto.
  Qed.
End Bfs.

(** ** The hypotheses are met, and runs *)
Definition bfs_plain : opts b64 := Opts b64 false (fun _ _ => false) (fun _ => false).
Notation ex_bfs m from to :=
  (fst (bfs_find eighth (fun _ _ => bzero) fifo_push (min_pop blt) (best_of blt) true 1 200 bfs_plain (new_sobj b64 bzero binf m bzero) from to)).
Example C70_example : exists fuel p o',
  bfs_find eighth (fun _ _ => bzero) fifo_push (min_pop blt) (best_of blt) true 1 fuel bfs_plain (new_sobj b64 bzero binf wall_map bzero) (at_ 0 0) (at_ 4 0) = (FPath p, o') /\
  (p = [] <-> ~ exists t q, near 1 (4, 0)%Z t /\ direct_path true 1 wall_map (0, 0)%Z t q) /\
  (p <> [] -> exists t, near 1 (4, 0)%Z t /\ direct_path true 1 wall_map (0, 0)%Z t p /\
     forall t' q, near 1 (4, 0)%Z t' -> direct_path true 1 wall_map (0, 0)%Z t' q -> (length p <= length q)%nat).
Proof.
  destruct C20_hypotheses as (_ & _ & _ & _ & _ & Hwf & I1 & I2 & C1 & C2 & O1 & O2).
  apply (C70_complete eighth (fun _ _ => bzero) fifo_push (min_pop blt) (best_of blt) true 1 (@fifo_push_ok _ _) (min_pop_ok blt)
    min_pop_ieee (best_of_ok blt) (best_of_some blt) ltac:(lia) eighth_ordinary); try assumption; reflexivity.
Qed.
Example C70_run : ex_bfs wall_map (at_ 0 0) (at_ 4 0) = FPath [(0, 0); (0, 1); (1, 2); (2, 3); (3, 2); (3, 1)]%Z.
Proof. vm_compute. reflexivity. Qed.
(** The fewest steps, not the shortest way: on a free 7x3 map the path dips to the
    other edge and comes back although it could go straight. *)
Theorem C70_not_shortest_refuted : exists p q t,
  ex_bfs (gm_new 7 3) (at_ 6 2) (at_ 0 2) = FPath p /\ near 1 (0, 2)%Z t /\ direct_path true 1 (gm_new 7 3) (6, 2)%Z t q /\
  length p = length q /\ path_length q + 1 <= path_length p.
Proof.
  exists [(6, 2); (5, 1); (4, 0); (3, 0); (2, 0); (1, 1)]%Z, [(6, 2); (5, 2); (4, 2); (3, 2); (2, 2); (1, 2)]%Z, (1, 2)%Z.
  split; [vm_compute; reflexivity|]. split; [vm_compute; split; congruence|].
  split.
  { split; [split; reflexivity|].
    assert (Hf : forall x, (0 <= x < 7)%Z -> map_free (gm_new 7 3) (x, 2%Z)).
    { intros x Hx. assert (x = 0 \/ x = 1 \/ x = 2 \/ x = 3 \/ x = 4 \/ x = 5 \/ x = 6)%Z as [->|[->|[->|[->|[->|[->| ->]]]]]] by lia;
        (split; [vm_compute; repeat split; discriminate || reflexivity|vm_compute; reflexivity]). }
    cbn [chain]. repeat split; try (apply Hf; lia); cbn; try lia; congruence. }
  split; [reflexivity|].
  assert (Es : forall a b, euclid a b = sqrt (IZR ((fst a - fst b) * (fst a - fst b) + (snd a - snd b) * (snd a - snd b)))).
  { intros a b. unfold euclid. f_equal. rewrite plus_IZR, !mult_IZR. ring. }
  cbn [path_length]. rewrite !Es. cbn [fst snd]. repeat (match goal with |- context [IZR ?e] => let v := eval vm_compute in e in progress change (IZR e) with (IZR v) end).
  rewrite sqrt_1. assert (S2 : 4 / 3 <= sqrt 2).
  { rewrite <- (sqrt_square (4 / 3)) by lra. apply sqrt_le_1_alt. lra. }
  lra.
Qed.
Print Assumptions C70_fewest_steps.
Print Assumptions C70_complete.
