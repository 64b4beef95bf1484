(** C68 with the arithmetic of the hardware, and concrete runs. *)
From Coq Require Import Reals Lra QArith.
From Flocq Require Import Core BinarySingleNaN.
From Verif Require Import Base GridMap GridMapProofs PathSpec GenericSearch GenericProofs OpenPolicies DirectSpec DirectSearch PropGeneric PropGenericEx
  GenericFloat AStarIeee Heuristics PropHeur GenericIeee GoalTest GoalTestProofs GoalTestOpt PropGoalTest.
Local Open Scope R_scope.

Lemma blt_false x y : nonneg x -> nonneg y -> blt x y = false <-> key y <= key x.
Proof.
  intros Hx Hy. pose proof (blt_key x y Hx Hy). destruct (blt x y); split; intros G; try reflexivity; try discriminate.
  - destruct H as [H _]. specialize (H eq_refl). lra.
  - apply Rnot_lt_le. intros G'. apply H in G'. discriminate.
Qed.
Lemma not_finite x : nonneg x -> is_finite x = false -> x = binf.
Proof. intros [A B] F. destruct x as [s|s| |s m e P]; try discriminate. cbn in B. subst s. reflexivity. Qed.
(** Rounded addition keeps the order. *)
Lemma badd_mono a b c : nonneg a -> nonneg b -> nonneg c -> key a <= key b -> key (badd a c) <= key (badd b c).
Proof.
  intros Ha Hb Hc H. destruct (is_finite c) eqn:Fc.
  2:{ rewrite (not_finite c Hc Fc). assert (E : badd b binf = binf) by (destruct Hb; destruct b as [s|s| |s m e P]; try discriminate; try reflexivity; destruct s; [discriminate|reflexivity]).
      rewrite E. apply key_range. apply badd_key; [exact Ha|split; reflexivity]. }
  destruct (is_finite b) eqn:Fb.
  2:{ rewrite (not_finite b Hb Fb). assert (E : badd binf c = binf) by (destruct c; try discriminate; reflexivity).
      rewrite E. apply key_range. apply badd_key; assumption. }
  destruct (is_finite a) eqn:Fa.
  2:{ rewrite (not_finite a Ha Fa) in H. cbn [key binf] in H. pose proof (abs_B2R_lt_emax 53 1024 b) as X. rewrite (key_finite b Fb) in H. pose proof (Rle_abs (B2R b)). lra. }
  pose proof (@Bplus_correct 53 1024 prec_gt0 prec_lt mode_NE a c Fa Fc) as Ca. fold (badd a c) in Ca.
  pose proof (@Bplus_correct 53 1024 prec_gt0 prec_lt mode_NE b c Fb Fc) as Cb. fold (badd b c) in Cb.
  change (round radix2 _ _ (B2R a + B2R c)) with (r64 (B2R a + B2R c)) in Ca. change (round radix2 _ _ (B2R b + B2R c)) with (r64 (B2R b + B2R c)) in Cb.
  pose proof (key_range a Ha) as Ra. pose proof (key_range c Hc) as Rc. rewrite (key_finite a Fa) in *. rewrite (key_finite b Fb) in *. rewrite (key_finite c Fc) in *.
  assert (M : r64 (B2R a + B2R c) <= r64 (B2R b + B2R c)) by (apply r64_mono; lra).
  assert (Pa : 0 <= r64 (B2R a + B2R c)) by (apply r64_ge0; lra).
  revert Cb. case Rlt_bool_spec; intros Hov Cb.
  - destruct Cb as (B1 & B2 & _). rewrite (key_finite (badd b c)), B1 by assumption.
    rewrite Rlt_bool_true in Ca; [|rewrite Rabs_pos_eq in * by lra; lra]. destruct Ca as (A1 & A2 & _). rewrite (key_finite (badd a c)), A1 by assumption. exact M.
  - destruct Cb as [Cb _]. destruct Hb as [_ Sb]. rewrite Sb in Cb. cbn in Cb.
    assert (EB : key (badd b c) = bpow radix2 1024) by (destruct (badd b c) as [s|s| |s m e P]; try discriminate; reflexivity).
    rewrite EB. apply key_range. apply badd_key; assumption.
Qed.
Lemma badd_zero a : nonneg a -> badd a bzero = a.
Proof. intros [N B]. destruct a as [s|s| |s m e P]; try discriminate; cbn in B; subst s; reflexivity. Qed.
(** The candidate of least cost, for costs that are not NaN and not negative. *)
Lemma best_of_ieee (l : list (cell * b64)) v : (forall x d, In (x, d) l -> nonneg d) -> best_of blt l = Some v ->
  exists c, In (v, c) l /\ forall x d, In (x, d) l -> blt d c = false.
Proof.
  intros Hn H. unfold best_of in H. destruct (min_cand blt l) as [[w c]|] eqn:E; [|discriminate]. injection H as ->. exists c.
  enough (G : forall m, min_cand blt l = Some m -> In m l /\ forall x, In x l -> blt (snd x) (snd m) = false).
  { destruct (G _ E) as [A B]. split; [exact A|]. intros x d Hx. apply (B (x, d) Hx). }
  clear E. induction l as [|x r IH]; intros m H; [discriminate|]. cbn [min_cand] in H.
  assert (Hn' : forall x d, In (x, d) r -> nonneg d) by (intros y d Hy; apply (Hn y); right; exact Hy). specialize (IH Hn').
  assert (Nx : nonneg (snd x)) by (destruct x as [x d]; apply (Hn x); left; reflexivity).
  assert (Nr : forall y, In y r -> nonneg (snd y)) by (intros [y d] Hy; apply (Hn' y d Hy)).
  destruct (min_cand blt r) as [m'|] eqn:E.
  - destruct (IH m' eq_refl) as [I1 I2]. pose proof (Nr _ I1) as Nm. destruct (blt (snd m') (snd x)) eqn:El; injection H as <-.
    + split; [right; exact I1|]. intros y [<-|Hy]; [|apply I2; exact Hy]. apply blt_false; [exact Nx|exact Nm|]. apply blt_key in El; [lra|exact Nm|exact Nx].
    + apply blt_false in El; [|exact Nm|exact Nx]. split; [left; reflexivity|]. intros y [<-|Hy]; [apply blt_false; [exact Nx|exact Nx|lra]|].
      specialize (I2 y Hy). apply blt_false in I2; [|apply Nr, Hy|exact Nm]. apply blt_false; [apply Nr, Hy|exact Nx|lra].
  - assert (r = []) as -> by (destruct r as [|y r]; [reflexivity|]; cbn [min_cand] in E; destruct (min_cand blt r); [destruct (blt _ _)|]; discriminate).
    injection H as <-. split; [left; reflexivity|]. intros y [<-|[]]. apply blt_false; [exact Nx|exact Nx|lra].
Qed.

Section Search.
  Context {T : Type}.
  Variable push : (cell -> b64) -> cell -> list cell -> list cell.
  Variable pop : (cell -> b64) -> list cell -> option (cell * list cell).
  Variable best : list (cell * b64) -> option cell.
  Variable hval : cell -> b64.
  Variable hgoal : bool.
  Variable eight : bool.
  Variable D : Z.
  Variable res : b64.
  Variable test : T -> cell -> info cell b64 -> T * option b64 * bool.
  Hypothesis Hpush : push_ok push.
  Hypothesis Hpop : pop_ok pop.
  Hypothesis Hmin : forall f l v r, (forall w, In w l -> nonneg (f w)) -> pop f l = Some (v, r) ->
    forall w, In w l -> blt (f w) (f v) = false.
  Hypothesis Hbest : best_ok best.
  Hypothesis HD : (0 < D < 2147483648)%Z.
  Hypothesis Hres : ordinary res.
  Hypothesis Hh : forall v, nonneg (hval v).
  Notation findPathTest := (findPathTest b64 T bzero badd blt badd (d_cost D res) hval hgoal push pop best eight D test).
  Notation new_sobj := (new_sobj b64 bzero binf).
  Notation step := (fun a b => direct_step eight D a b).
  Notation H := (U * (U * (U * U))).

  Lemma H1 : 1 <= H. Proof using Type. pose proof U1. assert (1 <= U * U) by nra. nra. Qed.
  Lemma travelled_rel p : forall a, nonneg a -> chain step p ->
    nonneg (travelled badd (d_cost D res) a p) /\ rel (H ^ length p) (key (travelled badd (d_cost D res) a p)) (key a + B2R res * path_length p).
  Proof using HD Hres.
    clear - HD Hres. pose proof H1 as H1. pose proof (res_pos res Hres) as Pr. pose proof U1 as HU. assert (HU3 : 1 <= U * (U * U)) by (assert (1 <= U * U) by nra; nra).
    induction p as [|u [|v p] IH]; intros a Ha Hc.
    - cbn [travelled length path_length pow]. split; [exact Ha|]. rewrite Rmult_0_r, Rplus_0_r. apply rel_refl; [lra|apply key_range, Ha].
    - cbn [travelled length path_length pow]. split; [exact Ha|]. rewrite Rmult_0_r, Rplus_0_r. apply rel_refl; [lra|apply key_range, Ha].
    - destruct Hc as [Hs Hc]. change (travelled badd (d_cost D res) a (u :: v :: p)) with (travelled badd (d_cost D res) (badd a (d_cost D res (diagonal u v))) (v :: p)).
      change (path_length (u :: v :: p)) with (euclid u v + path_length (v :: p)).
      destruct (cost_rel D res (diagonal u v) HD Hres) as [Sc Rc].
      pose proof (badd_key a (d_cost D res (diagonal u v)) Ha (proj1 Sc)) as [Na _].
      destruct (IH _ Na Hc) as [A B]. split; [exact A|].
      assert (Ee : rcost D (B2R res) (diagonal u v) = B2R res * euclid u v).
      { rewrite <- (step_euclid eight D u v ltac:(lia) Hs). unfold rcost, diagonal. ring. }
      rewrite Ee in Rc.
      assert (R1 : rel H (key (badd a (d_cost D res (diagonal u v)))) (key a + B2R res * euclid u v)).
      { eapply rel_trans; [lra|lra|apply badd_rel; assumption|]. apply rel_add; [lra|apply (key_range a Ha)|exact Rc]. }
      pose proof (path_length_pos (v :: p)) as P0. cbn [length] in B |- *. change (H ^ S (S (length p))) with (H * H ^ S (length p)). rewrite Rmult_comm.
      eapply rel_trans; [apply pow_R1_Rle; exact H1|exact H1|exact B|].
      rewrite !(Rplus_comm _ (B2R res * path_length (v :: p))). replace (key a + B2R res * (euclid u v + path_length (v :: p))) with (B2R res * path_length (v :: p) + (key a + B2R res * euclid u v)) by ring.
      apply rel_add; [exact H1|apply Rmult_le_pos; lra|exact R1].
  Qed.

  Lemma ieee_mono : forall d a b, nonneg a -> nonneg b -> blt b a = false -> blt (badd b (d_cost D res d)) (badd a (d_cost D res d)) = false.
  Proof using HD Hres.
    clear - HD Hres. intros d a b Ha Hb E. destruct (cost_rel D res d HD Hres) as [[Hc _] _]. apply blt_false in E; [|assumption|assumption].
    apply blt_false; [apply badd_key; assumption|apply badd_key; assumption|]. apply badd_mono; assumption.
  Qed.

  Lemma ieee_shorter m s p q u v : gm_wf m -> cell_of (gm_w m) (gm_h m) (fst s) (snd s) -> direct_path eight D m s u p -> NoDup p -> direct_path eight D m s v q ->
    (forall q', direct_path eight D m s v q' -> blt (travelled badd (d_cost D res) bzero q') (travelled badd (d_cost D res) bzero p) = false) ->
    path_length p <= slack m * path_length q.
  Proof using HD Hres.
    clear - HD Hres. intros Hwf Cs [Fp Cp] Np [Fq Cq] Hle. destruct (simple_path _ q s v Fq Cq) as (q' & Fq' & Cq' & Nq' & Lq & _).
    specialize (Hle q' (conj Fq' Cq')). assert (N0 : nonneg bzero) by (split; reflexivity).
    destruct (travelled_rel p bzero N0) as [A1 [_ A2]]; [eapply chain_weaken; [|exact Cp]; intros a b X; apply X|].
    destruct (travelled_rel q' bzero N0) as [B1 [B2 _]]; [eapply chain_weaken; [|exact Cq']; intros a b X; apply X|].
    apply blt_false in Hle; [|assumption|assumption]. change (key bzero) with 0 in *. rewrite Rplus_0_l in *.
    pose proof (slack_pow m p q' Hwf (NoDup_incl_length Np (path_cells eight D m s p Cs (proj1 Fp) Cp)) (NoDup_incl_length Nq' (path_cells eight D m s q' Cs (proj1 Fq') Cq'))) as SP.
    pose proof (res_pos res Hres) as Pr. pose proof H1 as G1. pose proof (path_length_pos q') as Pq. pose proof (path_length_pos p) as Pp.
    set (kp := key (travelled _ _ _ p)) in *. set (kq := key (travelled _ _ _ q')) in *.
    assert (X1 : B2R res * path_length p <= B2R res * path_length q' * (H ^ length p * H ^ length q')).
    { eapply Rle_trans; [exact A2|]. replace (B2R res * path_length q' * (H ^ length p * H ^ length q')) with ((B2R res * path_length q' * H ^ length q') * H ^ length p) by ring.
      apply Rmult_le_compat_r; [apply pow_le; lra|lra]. }
    rewrite <- pow_add in X1.
    assert (X2 : H ^ (length p + length q') <= slack m).
    { eapply Rle_trans; [|exact SP]. apply Rle_pow; [exact G1|lia]. }
    apply Rmult_le_reg_l with (B2R res); [exact Pr|]. eapply Rle_trans; [exact X1|].
    replace (B2R res * (slack m * path_length q)) with (B2R res * path_length q * slack m) by ring.
    apply Rmult_le_compat; [apply Rmult_le_pos; lra|apply pow_le; lra|apply Rmult_le_compat_l; lra|exact X2].
  Qed.

  (** With the hardware's doubles: the path returned is at most the factor
      [slack] longer than any path with the same ends ... *)
  Theorem C68_shortest_ieee fuel op m first from t p o' l :
    gm_wf m -> (0 <= fst from)%Q -> (0 <= snd from)%Q ->
    findPathTest fuel op (new_sobj m first) from t = (FPath p, o', l) -> p <> [] ->
    exists s v, in_cell from s /\ cell_of (gm_w m) (gm_h m) (fst s) (snd s) /\ direct_path eight D m s v p /\
      forall q, direct_path eight D m s v q -> path_length p <= slack m * path_length q.
  Proof using Hpush Hpop Hmin Hbest HD Hres Hh.
    intros Hwf F1 F2 E Hne. assert (HD0 : (0 < D)%Z) by lia.
    assert (Har : cost_arith bzero badd blt (d_cost D res) nonneg) by (apply ieee_cost_arith; intros d; apply (cost_rel D res d HD Hres)).
    destruct (C68_path_valid bzero badd blt badd (d_cost D res) hval hgoal push pop best eight D test Hpush Hpop HD0 fuel op (new_sobj m first) _ from t p l Hbest Hwf F1 F2 E Hne)
      as (_ & _ & _ & _ & _ & _ & _ & Nd).
    destruct (C68_shortest bzero binf badd blt badd (d_cost D res) hval hgoal push pop best eight D test Hpush Hpop HD0 nonneg nonneg Har ieee_mono badd_zero
      (fun a H => H) (fun a v Ha => proj1 (badd_key a (hval v) Ha (Hh v))) Hmin fuel op m first from t p o' l Hbest Hwf F1 F2 E Hne) as (s & v & S2 & Cs & Hp & Hle).
    exists s, v. split; [exact S2|]. split; [exact Cs|]. split; [exact Hp|]. intros q Hq. apply (ieee_shorter m s p q v v Hwf); assumption.
  Qed.

  (** ... and with a test that recognises a set of cells, than any path to any of them. *)
  Theorem C68_nearest_ieee acc fuel op m first from t p o' l :
    recognises test acc -> gm_wf m -> (0 <= fst from)%Q -> (0 <= snd from)%Q ->
    findPathTest fuel op (new_sobj m first) from t = (FPath p, o', l) -> p <> [] ->
    exists s v, in_cell from s /\ cell_of (gm_w m) (gm_h m) (fst s) (snd s) /\ acc v = true /\ direct_path eight D m s v p /\
      forall u q, acc u = true -> direct_path eight D m s u q -> path_length p <= slack m * path_length q.
  Proof using Hpush Hpop Hmin Hbest HD Hres Hh.
    intros Hacc Hwf F1 F2 E Hne. assert (HD0 : (0 < D)%Z) by lia.
    assert (Har : cost_arith bzero badd blt (d_cost D res) nonneg) by (apply ieee_cost_arith; intros d; apply (cost_rel D res d HD Hres)).
    destruct (C68_path_valid bzero badd blt badd (d_cost D res) hval hgoal push pop best eight D test Hpush Hpop HD0 fuel op (new_sobj m first) _ from t p l Hbest Hwf F1 F2 E Hne)
      as (_ & _ & _ & _ & _ & _ & _ & Nd).
    destruct (C68_nearest bzero binf badd blt badd (d_cost D res) hval hgoal push pop best eight D test Hpush Hpop HD0 nonneg nonneg Har ieee_mono badd_zero
      (fun a H => H) (fun a v Ha => proj1 (badd_key a (hval v) Ha (Hh v))) Hmin acc fuel op m first from t p o' l Hbest Hacc Hwf F1 F2 E Hne) as (s & v & S2 & Cs & Hv & Hp & Hle).
    exists s, v. split; [exact S2|]. split; [exact Cs|]. split; [exact Hv|]. split; [exact Hp|]. intros u q Hu Hq.
    apply (ieee_shorter m s p q v u Hwf); try assumption. intros q' Hq'. apply (Hle u q' Hu Hq').
  Qed.
End Search.

(** ** Concrete runs *)
(** Integer costs as in PropGenericEx. A test that looks for cells in the last
    column of the map, adds them with the cost 0 and stops. *)
Definition ztest (t : nat) (v : cell) (i : info cell Z) : nat * option Z * bool :=
  if (fst v =? 4)%Z then (S t, Some 0%Z, true) else (S t, None, false).
Definition zfindTest (test : nat -> cell -> info cell Z -> nat * option Z * bool) :=
  findPathTest Z nat 0%Z Z.add Z.ltb Z.add zcost (fun _ => 7%Z) true fifo_push (min_pop Z.ltb) (best_of Z.ltb) true 1 test.
Example C68_run : fst (fst (zfindTest ztest 100 plain (znew wall_map) (at_ 0 0) 0%nat)) = FPath [(0, 0); (0, 1); (1, 2); (2, 3); (3, 3); (4, 3)]%Z.
Proof. vm_compute. reflexivity. Qed.
(** The same test without addGoalCandidate: the empty path, although a cell was accepted. *)
Definition ztest_only (t : nat) (v : cell) (i : info cell Z) : nat * option Z * bool := (S t, None, (fst v =? 4)%Z).
Example C68_answer_only_run : let r := zfindTest ztest_only 100 plain (znew wall_map) (at_ 0 0) 0%nat in
  fst (fst r) = FPath [] /\ existsb c_term (snd r) = true.
Proof. vm_compute. split; reflexivity. Qed.
(** A test that adds every cell with its distance to (3,0) and never stops: all
    17 free cells are asked about, the path leads to the nearest to (3,0). *)
Definition ztest_all (t : nat) (v : cell) (i : info cell Z) : nat * option Z * bool := (S t, Some (zhyp v (3, 0)%Z), false).
Example C68_all_run : let r := zfindTest ztest_all 100 plain (znew wall_map) (at_ 0 0) 0%nat in
  fst (fst r) = FPath [(0, 0); (0, 1); (1, 2); (2, 3); (3, 2); (3, 1); (3, 0)]%Z /\ forallb (fun v => is_occ_cell wall_map v || existsb (fun e => ceqb (c_node e) v) (snd r)) (all_cells wall_map) = true.
Proof. vm_compute. split; reflexivity. Qed.

(** The hypotheses of C68_nearest_ieee are met: a run in binary64 with the resolution 1/8. *)
Definition dtest (t : unit) (v : cell) (i : info cell b64) : unit * option b64 * bool :=
  if (fst v =? 3)%Z then (tt, Some bzero, true) else (tt, None, false).
Notation dfindTest := (findPathTest b64 unit bzero badd blt badd (d_cost 1 eighth) (fun _ => eighth) true fifo_push (min_pop blt) (best_of blt) true 1 dtest).
Definition dplain : opts b64 := Opts b64 false (fun _ _ => false) (fun _ => false).
Example C68_ieee_example : exists p o' l, dfindTest 100 dplain (new_sobj b64 bzero binf (gm_new 4 3) bzero) (at_ 0 0) tt = (FPath p, o', l) /\ length p = 4%nat /\
  exists s v, in_cell (at_ 0 0) s /\ cell_of 4 3 (fst s) (snd s) /\ (fst v =? 3)%Z = true /\ direct_path true 1 (gm_new 4 3) s v p /\
    forall u q, (fst u =? 3)%Z = true -> direct_path true 1 (gm_new 4 3) s u q -> path_length p <= slack (gm_new 4 3) * path_length q.
Proof.
  assert (E : fst (fst (dfindTest 100 dplain (new_sobj b64 bzero binf (gm_new 4 3) bzero) (at_ 0 0) tt)) = FPath [(0, 0); (1, 0); (2, 0); (3, 0)]%Z) by (vm_compute; reflexivity).
  destruct (dfindTest 100 dplain (new_sobj b64 bzero binf (gm_new 4 3) bzero) (at_ 0 0) tt) as [[r o'] l] eqn:E1. cbn [fst] in E. subst r.
  exists [(0, 0); (1, 0); (2, 0); (3, 0)]%Z, o', l. split; [reflexivity|]. split; [reflexivity|].
  refine (C68_nearest_ieee fifo_push (min_pop blt) (best_of blt) (fun _ => eighth) true true 1 eighth dtest (@fifo_push_ok _ _) (min_pop_ok blt) min_pop_ieee (best_of_ok blt)
    ltac:(lia) eighth_ordinary _ (fun v => (fst v =? 3)%Z) 100 dplain (gm_new 4 3) bzero (at_ 0 0) tt _ o' l _ _ _ _ E1 _).
  - intros _. split; reflexivity.
  - clear. intros t v i. unfold dtest. destruct (fst v =? 3)%Z; repeat split; congruence.
  - vm_compute. repeat split; discriminate || reflexivity.
  - vm_compute. discriminate.
  - vm_compute. discriminate.
  - discriminate.
Qed.
(** ... and of C68_complete, C68_least_candidate, C68_shortest with integer costs. *)
Example C68_hypotheses :
  push_ok (V := cell) (C := Z) fifo_push /\ pop_ok (V := cell) (min_pop Z.ltb) /\ best_ok (V := cell) (best_of Z.ltb) /\
  (forall l : list (cell * Z), best_of Z.ltb l = None -> l = []) /\ cost_arith 0%Z Z.add Z.ltb zcost (fun a => (0 <= a)%Z) /\
  (forall d a b, (0 <= a -> 0 <= b -> (b <? a) = false -> (b + zcost d <? a + zcost d) = false)%Z) /\ (forall a, (0 <= a -> a + 0 = a)%Z) /\
  (forall f l (v : cell) r, min_pop Z.ltb f l = Some (v, r) -> forall w, In w l -> (f w <? f v)%Z = false) /\
  GenericCand.best_min (V := cell) Z.ltb (best_of Z.ltb).
Proof.
  split; [apply fifo_push_ok|]. split; [apply min_pop_ok|]. split; [apply best_of_ok|]. split; [apply best_of_some|]. split; [exact zarith|].
  split; [intros d a b; lia|]. split; [intros; lia|]. split; [|exact zbest_min]. intros f l v r. apply (min_pop_min Z.ltb zirr ztr zas).
Qed.
Print Assumptions C68_nearest_ieee.
