(** Property C84: using a search object on a grid again without setMap.
    The search is DirectSearch.v (AStar2d, AStar2dTaxi, AStar2dInf): init
    (I/generic/SearchAlgorithm.hpp:447-460) clears the open list and the goal
    candidates but not the nodes, so distances, predecessors and marks of all
    earlier calls are read by the next one. *)
From Coq Require Import QArith.
From Verif Require Import Base GridSpec GridMap GridMapProofs PathSpec GenericSearch GenericProofs OpenPolicies DirectSpec DirectSearch PropGeneric GenericFloat.
Open Scope Z_scope.

Section Used.
  Context {C : Type}.
  Variable zero inf : C.
  Variable add : C -> C -> C.
  Variable lt : C -> C -> bool.
  Variable tot : C -> C -> C.
  Variable cost : bool -> C.
  Variable heur hyp : cell -> cell -> C.
  Variable push : (cell -> C) -> cell -> list cell -> list cell.
  Variable pop : (cell -> C) -> list cell -> option (cell * list cell).
  Variable best : list (cell * C) -> option cell.
  Variable eight : bool.
  Variable D : Z.

  Notation sobj := (sobj C).
  Notation omap := (ob_map C).
  Notation findPath := (findPath C zero add lt tot cost heur hyp push pop best eight D).

  (** [later o o']: [o'] is [o] after any number of further calls of findPath,
      with any poses, options, clocks and outcomes (none of them setMap). *)
  Inductive later (o : sobj) : sobj -> Prop :=
  | la_same : later o o
  | la_find o1 fuel op from to : later o o1 -> later o (snd (findPath fuel op o1 from to)).

  (** A search object with map [m] as a program can have it: new or after
      setMap (of an object in any state), and then any calls of findPath. *)
  Definition in_use (m : gridmap) (o : sobj) : Prop :=
    exists o0, ((exists first, o0 = new_sobj C zero inf m first) \/ (exists o1, o0 = setMap C zero inf o1 m)) /\ later o0 o.

  Hypothesis Hpush : push_ok push.
  Hypothesis Hpop : pop_ok pop.
  Hypothesis HD : 0 < D.
  Hypothesis Hbest : best_ok best.
  Variable ok : C -> Prop.
  Hypothesis Har : cost_arith zero add lt cost ok.

  Notation nbrs := (nbrs C cost eight D).
  Notation fit := (fit all_cells zero lt ok).

  Lemma used_arith m : gm_wf m -> arith_ok (all_cells m) zero add lt (nbrs m) ok.
  Proof using HD Har.
    intros Hwf. constructor.
    - apply (ca_wf _ _ _ _ _ Har).
    - apply (ca_irrefl _ _ _ _ _ Har).
    - apply (ca_zero _ _ _ _ _ Har).
    - intros u v c a _ Hin Ha. apply (nbrs_spec cost eight D HD) in Hin as (_ & _ & ->); [|assumption]. apply (ca_add _ _ _ _ _ Har). assumption.
    - intros u v c a _ Hin Ha. apply (nbrs_spec cost eight D HD) in Hin as (_ & _ & ->); [|assumption]. apply (ca_grow _ _ _ _ _ Har). assumption.
    - apply (ca_trans _ _ _ _ _ Har).
  Qed.
  Lemma used_nbr_all m : gm_wf m -> forall u v c, In u (all_cells m) -> In (v, c) (nbrs m u) -> In v (all_cells m).
  Proof using HD. intros Hwf u v c _ Hin. apply (nbrs_spec cost eight D HD) in Hin as (_ & [H _] & _); [|assumption]. apply all_cells_spec. exact H. Qed.

  Definition ofit (o : sobj) : Prop := GenericProofs.fit (all_cells (omap o)) zero lt ok (ob_info C o).
  Definition olower (o o' : sobj) : Prop := lower lt (ob_info C o) (ob_info C o').

  Definition starts (m : gridmap) (s : cell) : list cell := if is_occ_cell m s then [] else [s].
  Lemma starts_all m s : cell_of (gm_w m) (gm_h m) (fst s) (snd s) -> incl (starts m s) (all_cells m).
  Proof using Type. intros Cs x. unfold starts. destruct (is_occ_cell m s); [intros []|intros [<-|[]]]. apply all_cells_spec. exact Cs. Qed.

  Lemma find_used fuel op o from to : gm_wf (omap o) -> ofit o ->
    omap (snd (findPath fuel op o from to)) = omap o /\ ofit (snd (findPath fuel op o from to)) /\ olower o (snd (findPath fuel op o from to)).
  Proof using Hpush Hpop HD Hbest Har.
    intros Hwf Hf. pose proof (used_arith _ Hwf) as Hao. pose proof (used_nbr_all _ Hwf) as Hall.
    assert (Hrefl : olower o o) by (apply (lower_refl _ _ _ _ _ _ Hao)).
    unfold DirectSearch.findPath. destruct (lookup_pose (omap o) from) as [s| |] eqn:Es; [|auto|auto].
    pose proof (starts_all _ s (lookup_cell _ _ _ Hwf Es)) as Hst. cbv zeta. fold (starts (omap o) s).
    destruct (lookup_pose (omap o) to) as [g| |]; [| |auto].
    - match goal with |- context [run ?a1 ?a2 ?a3 ?a4 ?a5 ?a6 ?a7 ?a8 ?a9 ?b1 ?b2 ?b3 ?b4 ?b5 ?b6 ?b7 ?b8 ?b9 ?c1 ?c2 ?c3 ?c4 ?c5] =>
        destruct (run a1 a2 a3 a4 a5 a6 a7 a8 a9 b1 b2 b3 b4 b5 b6 b7 b8 b9 c1 c2 c3 c4 c5) as [r s'] eqn:Er end.
      cbn [fst snd ob_map]. split; [reflexivity|].
      eapply (run_used ceqb ceqb_spec) in Er; [|exact Hpush|exact Hpop|exact Hbest|exact Hao|exact Hall|exact Hst|exact Hf].
      destruct Er as (_ & A & B). split; [exact A|exact B].
    - cbn [fst snd ob_map]. split; [reflexivity|].
      destruct (begin_U ceqb ceqb_spec (all_cells (omap o)) zero add lt tot (nbrs (omap o)) push Hpush (starts (omap o) s) ok Hao Hst _ (ob_first C o) Hf) as [HU Hl].
      split; [apply (u_fit _ _ _ _ _ _ _ HU)|exact Hl].
  Qed.

  Lemma later_used o o' : gm_wf (omap o) -> ofit o -> later o o' -> omap o' = omap o /\ ofit o' /\ olower o o'.
  Proof using Hpush Hpop HD Hbest Har.
    intros Hwf Hf. induction 1 as [|o1 fuel op from to H (IH1 & IH2 & IH3)].
    - split; [reflexivity|]. split; [exact Hf|]. apply (lower_refl _ _ _ _ _ _ (used_arith _ Hwf)).
    - destruct (find_used fuel op o1 from to) as (A & B & E); [congruence|exact IH2|]. split; [congruence|]. split; [exact B|].
      pose proof (used_arith _ Hwf) as Hao. unfold ofit in IH2, B. rewrite A in B. rewrite IH1 in IH2, B.
      apply (lower_trans _ _ _ _ _ _ Hao _ (ob_info C o1) _ Hf IH2 B IH3 E).
  Qed.

  Lemma in_use_fit m o : gm_wf m -> in_use m o -> omap o = m /\ ofit o.
  Proof using Hpush Hpop HD Hbest Har.
    intros Hwf (o0 & Ho & Hl).
    assert (Hb : omap o0 = m /\ ofit o0).
    { assert (Hfr : GenericProofs.fit (all_cells m) zero lt ok (fun _ => fresh_info cell C zero inf)).
      { split; [intros v [H|H]; discriminate|intros v; discriminate]. }
      destruct Ho as [(first & ->)|(o1 & ->)]; (split; [reflexivity|exact Hfr]). }
    destruct Hb as [E Hf]. destruct (later_used o0 o) as (A & B & _); [congruence|exact Hf|exact Hl|]. split; [congruence|exact B].
  Qed.

  (** (a) Whatever was searched before, with whatever options, clocks and
      outcomes: a call with both poses in the map ends, returns a path (or the
      empty path), and never dereferences NULL or fails an assertion - with or
      without a time limit. *)
  Theorem C84_ends m o op from to s g :
    gm_wf m -> in_use m o -> in_cell from s -> in_cell to g ->
    cell_of (gm_w m) (gm_h m) (fst s) (snd s) -> cell_of (gm_w m) (gm_h m) (fst g) (snd g) ->
    (exists fuel p o', forall k, (fuel <= k)%nat -> findPath k op o from to = (FPath p, o')) /\
    (forall k, fst (findPath k op o from to) = FFuel \/ exists p, fst (findPath k op o from to) = FPath p).
  Proof using Hpush Hpop HD Hbest Har.
    intros Hwf Hu Hs Hg Cs Cg. destruct (in_use_fit m o Hwf Hu) as [Em Hf]. subst m.
    pose proof (used_arith _ Hwf) as Hao. pose proof (used_nbr_all _ Hwf) as Hall. pose proof (starts_all _ s Cs) as Hst.
    set (goal := if is_occ_cell (omap o) g then None else Some g).
    set (rn := fun k => run cell C ceqb (all_cells (omap o)) zero add lt tot (nbrs (omap o)) (goal_val C zero heur goal) push pop (starts (omap o) s)
                 (goal_test D goal) (somes goal) (op_cand C op) (op_over C op) (goal_val C zero hyp goal) best (op_timeout C op) k (ob_info C o) (ob_first C o)).
    assert (Ef : forall k, findPath k op o from to = (to_fres (fst (rn k)), SObj C (omap o) (s_info cell C (snd (rn k))) (s_first cell C (snd (rn k))))).
    { intros k. unfold DirectSearch.findPath. rewrite (lookup_of_cell _ from s Hwf Hs Cs), (lookup_of_cell _ to g Hwf Hg Cg). reflexivity. }
    destruct (run_used ceqb ceqb_spec (all_cells (omap o)) zero add lt tot (nbrs (omap o)) (goal_val C zero heur goal) push pop Hpush Hpop (starts (omap o) s)
      (goal_test D goal) (somes goal) (op_cand C op) (op_over C op) (goal_val C zero hyp goal) best (op_timeout C op) Hbest ok Hao Hall Hst _ (ob_first C o) Hf)
      as [(fuel & p & s' & Er) Hsafe]. split.
    - exists fuel, p. eexists. intros k Hk. rewrite Ef.
      assert (Ek : rn k = (GPath cell p, s')).
      { unfold rn, GenericSearch.run in *. eapply loop_mono; [exact Er|discriminate|exact Hk]. }
      rewrite Ek. reflexivity.
    - intros k. rewrite Ef. cbn [fst]. destruct (rn k) as [r sr] eqn:Ek. destruct (Hsafe k r sr Ek) as (A & _). cbn [fst].
      destruct r as [| |q]; [congruence|left; reflexivity|right; exists q; reflexivity].
  Qed.

  Lemma not_near_goal m g s : (map_occupied m g \/ ~ near D g s) -> cell_of (gm_w m) (gm_h m) (fst g) (snd g) ->
    goal_test D (if is_occ_cell m g then None else Some g) s = false.
  Proof using Type.
    intros H Cg. destruct (is_occ_cell m g) eqn:E; [reflexivity|]. cbn [goal_test]. destruct (isGoal D g s) eqn:E2; [|reflexivity].
    apply C25_isGoal in E2. destruct H as [[_ H]|H]; [apply is_occ_cell_spec in H; congruence|contradiction].
  Qed.

  (** (b) After one call from a free start cell that was not near its goal,
      every later call from that cell returns the empty path - whatever its
      goal (outside the tolerance) and although there may be a way - until
      setMap is called.  The first call may have failed, been interrupted by
      the time limit later, or found a path. *)
  Theorem C84_same_start m o op from to s g fuel :
    gm_wf m -> in_use m o -> in_cell from s -> in_cell to g ->
    cell_of (gm_w m) (gm_h m) (fst s) (snd s) -> cell_of (gm_w m) (gm_h m) (fst g) (snd g) ->
    ~ map_occupied m s -> map_occupied m g \/ ~ near D g s ->
    op_timeout C op 0%nat = false -> (0 < fuel)%nat ->
    forall o2, later (snd (findPath fuel op o from to)) o2 ->
    forall op2 from2 to2 g2 k, in_cell from2 s -> in_cell to2 g2 -> cell_of (gm_w m) (gm_h m) (fst g2) (snd g2) ->
      map_occupied m g2 \/ ~ near D g2 s -> (2 <= k)%nat ->
      fst (findPath k op2 o2 from2 to2) = FPath [].
  Proof using Hpush Hpop HD Hbest Har.
    intros Hwf Hu Hs Hg Cs Cg Hos Hn Ht Hk o2 Hl op2 from2 to2 g2 k Hs2 Hg2 Cg2 Hn2 Hk2.
    destruct (in_use_fit m o Hwf Hu) as [Em Hf]. subst m.
    pose proof (used_arith _ Hwf) as Hao. pose proof (used_nbr_all _ Hwf) as Hall.
    assert (Hocc : is_occ_cell (omap o) s = false).
    { destruct (is_occ_cell (omap o) s) eqn:E; [|reflexivity]. apply is_occ_cell_spec in E. destruct Hos. split; assumption. }
    assert (Hsa : In s (all_cells (omap o))) by (apply all_cells_spec; exact Cs).
    assert (Hst : incl [s] (all_cells (omap o))) by (intros x [<-|[]]; exact Hsa).
    set (o1 := snd (findPath fuel op o from to)) in *.
    destruct (find_used fuel op o from to Hwf Hf) as (Em1 & Hf1 & _). fold o1 in Em1, Hf1.
    assert (Hsl : sealed zero add lt (nbrs (omap o)) (ob_info C o1) s).
    { unfold o1, DirectSearch.findPath. rewrite (lookup_of_cell _ from s Hwf Hs Cs), (lookup_of_cell _ to g Hwf Hg Cg), Hocc. cbn [snd ob_info].
      apply (run_seals ceqb ceqb_spec (all_cells (omap o)) zero add lt tot (nbrs (omap o)) _ push pop Hpush Hpop [s] _ _ _ _ _ best _ Hbest ok Hao Hall Hst s);
        [reflexivity|apply not_near_goal; assumption|exact Hf|exact Ht|exact Hk]. }
    destruct (later_used o1 o2) as (Em2 & Hf2 & Hlow); [congruence|exact Hf1|exact Hl|].
    unfold ofit in Hf1, Hf2. rewrite Em1 in Em2. rewrite Em1 in Hf1. rewrite Em2 in Hf2.
    pose proof (sealed_lower _ _ _ _ _ _ Hao _ _ s Hsa Hf1 Hf2 Hlow Hsl) as Hsl2.
    unfold DirectSearch.findPath. rewrite Em2, (lookup_of_cell _ from2 s Hwf Hs2 Cs), (lookup_of_cell _ to2 g2 Hwf Hg2 Cg2), Hocc. cbn [fst].
    rewrite (run_sealed ceqb ceqb_spec (all_cells (omap o)) zero add lt tot (nbrs (omap o)) _ push pop Hpush Hpop [s] _ _ _ _ _ best _ Hbest ok Hao Hall Hst s);
      [reflexivity|reflexivity|apply not_near_goal; assumption|exact Hf2|exact Hsl2|exact Hk2].
  Qed.
End Used.
Print Assumptions C84_ends.
Print Assumptions C84_same_start.

From Flocq Require Import BinarySingleNaN.
Open Scope Z_scope.
(** The same in the arithmetic of the hardware: costs delta * res in binary64,
    any non-negative finite resolution, any heuristic and total cost. *)
Theorem C84_ends_ieee tot heur hyp push pop best eight D (delta : bool -> b64) res m o op from to s g :
  push_ok push -> pop_ok pop -> best_ok best -> 0 < D ->
  (forall d, is_finite (delta d) = true /\ Bsign (delta d) = false) -> is_finite res = true -> Bsign res = false ->
  gm_wf m -> in_use bzero binf badd blt tot (fun d => bmul (delta d) res) heur hyp push pop best eight D m o ->
  in_cell from s -> in_cell to g ->
  cell_of (gm_w m) (gm_h m) (fst s) (snd s) -> cell_of (gm_w m) (gm_h m) (fst g) (snd g) ->
  let find := findPath b64 bzero badd blt tot (fun d => bmul (delta d) res) heur hyp push pop best eight D in
  (exists fuel p o', forall k, (fuel <= k)%nat -> find k op o from to = (FPath p, o')) /\
  (forall k, fst (find k op o from to) = FFuel \/ exists p, fst (find k op o from to) = FPath p).
Proof.
  intros Hpush Hpop Hbest HD Hdel Fr Sr Hwf Hu Hs Hg Cs Cg find. unfold find. eapply C84_ends; try eassumption.
  apply ieee_cost_arith. intros d. apply bmul_nonneg; try assumption; apply Hdel.
Qed.
Print Assumptions C84_ends_ieee.

Theorem C84_same_start_ieee tot heur hyp push pop best eight D (delta : bool -> b64) res m o op from to s g fuel :
  push_ok push -> pop_ok pop -> best_ok best -> 0 < D ->
  (forall d, is_finite (delta d) = true /\ Bsign (delta d) = false) -> is_finite res = true -> Bsign res = false ->
  gm_wf m -> in_use bzero binf badd blt tot (fun d => bmul (delta d) res) heur hyp push pop best eight D m o ->
  in_cell from s -> in_cell to g ->
  cell_of (gm_w m) (gm_h m) (fst s) (snd s) -> cell_of (gm_w m) (gm_h m) (fst g) (snd g) ->
  ~ map_occupied m s -> map_occupied m g \/ ~ near D g s ->
  op_timeout b64 op 0%nat = false -> (0 < fuel)%nat ->
  let find := findPath b64 bzero badd blt tot (fun d => bmul (delta d) res) heur hyp push pop best eight D in
  forall o2, later bzero badd blt tot (fun d => bmul (delta d) res) heur hyp push pop best eight D (snd (find fuel op o from to)) o2 ->
  forall op2 from2 to2 g2 k, in_cell from2 s -> in_cell to2 g2 -> cell_of (gm_w m) (gm_h m) (fst g2) (snd g2) ->
    map_occupied m g2 \/ ~ near D g2 s -> (2 <= k)%nat ->
    fst (find k op2 o2 from2 to2) = FPath [].
Proof.
  intros Hpush Hpop Hbest HD Hdel Fr Sr Hwf Hu Hs Hg Cs Cg Hos Hn Ht Hk find o2 Hl op2 from2 to2 g2 k Hs2 Hg2 Cg2 Hn2 Hk2.
  unfold find in *. eapply (C84_same_start _ _ _ _ _ _ _ _ _ _ _ _ _ Hpush Hpop HD Hbest nonneg _ m o op from to s g fuel); eassumption.
  Unshelve.
  apply ieee_cost_arith. intros d. apply bmul_nonneg; try assumption; apply Hdel.
Qed.
Print Assumptions C84_same_start_ieee.

From Verif Require Import PropGenericEx.
(** An object in use: a search across the wall, one interrupted by the clock,
    one from an occupied cell. *)
Definition stopped (n : nat) : opts Z := Opts Z false (fun _ _ => false) (fun i => Nat.leb n i).
Notation zlater := (later 0 Z.add Z.ltb Z.add zcost zheur zhyp fifo_push (min_pop Z.ltb) (best_of Z.ltb) true 1).
Notation zin_use := (in_use 0 zinf Z.add Z.ltb Z.add zcost zheur zhyp fifo_push (min_pop Z.ltb) (best_of Z.ltb) true 1).
Definition ex84_o1 := snd (zfind true 100 plain (znew wall_map) (at_ 0 0) (at_ 4 0)).
Definition ex84_o2 := snd (zfind true 100 (stopped 2) ex84_o1 (at_ 4 3) (at_ 0 3)).
Definition ex84_o3 := snd (zfind true 100 over5 ex84_o2 (at_ 2 0) (at_ 0 0)).
Example ex84_in_use : zin_use wall_map ex84_o3 /\ zlater ex84_o1 ex84_o3.
Proof.
  split; [|unfold ex84_o3, ex84_o2; apply la_find, la_find, la_same].
  exists (znew wall_map). split; [left; exists 0; reflexivity|]. unfold ex84_o3, ex84_o2, ex84_o1. apply la_find, la_find, la_find, la_same.
Qed.
(** The hypotheses of both theorems are met; the second call from (0, 0) returns
    the empty path although the first one returned a path for the same query. *)
Example ex84_runs :
  fst (zfind true 100 plain (znew wall_map) (at_ 0 0) (at_ 4 0)) = FPath [(0, 0); (1, 1); (1, 2); (2, 3); (3, 2); (3, 1)] /\
  fst (zfind true 100 plain ex84_o3 (at_ 0 0) (at_ 4 0)) = FPath [] /\
  fst (zfind true 100 plain ex84_o3 (at_ 0 3) (at_ 4 0)) = FPath [] /\
  fst (zfind true 100 plain ex84_o3 (at_ 3 3) (at_ 4 0)) = FPath [(3, 3); (3, 2); (3, 1)] /\
  near 1 (1, 1) (0, 0) /\ fst (zfind true 100 plain ex84_o3 (at_ 0 0) (at_ 1 1)) = FPath [(0, 0)] /\
  ~ near 1 (4, 0) (0, 0) /\ ~ map_occupied wall_map (0, 0).
Proof.
  split; [vm_compute; reflexivity|]. split; [vm_compute; reflexivity|]. split; [vm_compute; reflexivity|]. split; [vm_compute; reflexivity|].
  split; [split; vm_compute; discriminate|]. split; [vm_compute; reflexivity|].
  split; [intros [H _]; vm_compute in H; apply H; reflexivity|]. intros [_ H]. vm_compute in H. discriminate.
Qed.
(** By the theorem, and not by running it: any later state, any goal. *)
Corollary ex84_forever : forall o2, zlater ex84_o1 o2 -> forall op2 k, (2 <= k)%nat ->
  fst (zfind true k op2 o2 (at_ 0 0) (at_ 4 0)) = FPath [].
Proof.
  intros o2 Hl op2 k Hk. destruct C20_hypotheses as (H1 & H2 & H3 & _ & H5 & H6 & H7 & H8 & H9 & H10 & H11 & _).
  destruct ex84_runs as (_ & _ & _ & _ & _ & _ & Hn & _).
  apply (C84_same_start 0 zinf Z.add Z.ltb Z.add zcost zheur zhyp fifo_push (min_pop Z.ltb) (best_of Z.ltb) true 1 H1 H2 ltac:(lia) H3 _ H5
    wall_map (znew wall_map) plain (at_ 0 0) (at_ 4 0) (0, 0) (4, 0) 100) with (g2 := (4, 0)); try assumption; try lia; try (right; exact Hn); try reflexivity.
  exists (znew wall_map). split; [left; exists 0; reflexivity|apply la_same].
Qed.
Print Assumptions ex84_forever.
