(** C77: what a heuristic that overestimates may cost. *)
From Coq Require Import Reals Lra QArith.
From Flocq Require Import Core BinarySingleNaN Relative Plus_error.
From Verif Require Import Base GridMap PathSpec GenericSearch GenericProofs OpenPolicies DirectSpec DirectSearch PropGeneric.
From Verif Require Import AStarFloat AStarIeee GenericFloat Heuristics PropHeur GenericRound GenericIeee OverModel.
Local Open Scope R_scope.

(** What is lost by rounding: a relative 2^-47 per cell of the map. *)
Definition slack2 (m : gridmap) : R := 1 + IZR (gm_w m * gm_h m + 2) / bpow radix2 47.
Lemma slack2_pow m (a b : list cell) : gm_wf m -> (length a <= length (all_cells m))%nat -> (length b <= length (all_cells m))%nat ->
  (U ^ 6) ^ (length a + length b + 3) <= slack2 m.
Proof.
  intros Hwf Ha Hb. pose proof (all_cells_len m Hwf) as EL. destruct Hwf as (Hw & Hh & Hwh & _).
  set (k := (length a + length b + 3)%nat). assert (Hk : (Z.of_nat k <= 2 * (gm_w m * gm_h m) + 3)%Z) by (unfold k; lia).
  rewrite <- pow_mult. unfold U.
  set (e := bpow radix2 (-52)). assert (He : 0 <= e) by apply bpow_ge_0.
  assert (E48 : / bpow radix2 47 = 32 * e).
  { unfold e. change 32 with (bpow radix2 5). rewrite <- bpow_plus. symmetry. apply (bpow_opp radix2 47). }
  assert (IK : INR (6 * k) <= 6 * (2 * IZR (gm_w m * gm_h m) + 3)).
  { rewrite INR_IZR_INZ. rewrite <- mult_IZR, <- plus_IZR, <- mult_IZR. apply IZR_le. lia. }
  assert (BM : 0 <= IZR (gm_w m * gm_h m) <= 4294967296) by (split; apply IZR_le; nia).
  assert (Es : e <= / 281474976710656) by (change (/ 281474976710656) with (bpow radix2 (-48)); apply bpow_le; lia).
  assert (P0 : 0 <= INR (6 * k)) by apply pos_INR.
  eapply Rle_trans; [apply pow_small; [exact He|]|].
  - apply Rle_trans with (2 * (6 * (2 * 4294967296 + 3)) * / 281474976710656); [|lra]. apply Rmult_le_compat; lra.
  - unfold slack2. rewrite plus_IZR. unfold Rdiv. rewrite E48. apply Rplus_le_compat_l.
    replace ((IZR (gm_w m * gm_h m) + 2) * (32 * e)) with (32 * (IZR (gm_w m * gm_h m) + 2) * e) by ring.
    apply Rmult_le_compat_r; [exact He|]. lra.
Qed.

(** A heuristic as the search calls it, and the number it stands for. *)
Definition estimates (res : b64) (dh : cell -> cell -> b64) (hr : cell -> cell -> R) : Prop := forall c g,
  (Z.abs (fst c - fst g) < 2147483648)%Z -> (Z.abs (snd c - snd g) < 2147483648)%Z ->
  0 <= hr c g /\ small (dh c g) /\ rel (U ^ 6) (key (dh c g)) (B2R res * hr c g).

Lemma euclid_sym a b : euclid a b = euclid b a.
Proof. unfold euclid. f_equal. replace (fst b - fst a)%Z with (- (fst a - fst b))%Z by lia. replace (snd b - snd a)%Z with (- (snd a - snd b))%Z by lia. rewrite !opp_IZR. ring. Qed.
Lemma euclid_tri a b c : euclid a c <= euclid a b + euclid b c.
Proof. rewrite !euclid_hypot. destruct (dR_add a b c) as [-> ->]. apply hypot_tri. Qed.
Lemma euclid_refl a : euclid a a = 0.
Proof. unfold euclid. rewrite !Z.sub_diag. replace (IZR 0 ^ 2 + IZR 0 ^ 2) with 0 by (cbn; ring). apply sqrt_0. Qed.
Lemma euclid_int a b : euclid a b = 0 \/ 1 <= euclid a b.
Proof.
  unfold euclid. set (x := (fst a - fst b)%Z). set (y := (snd a - snd b)%Z).
  replace (IZR x ^ 2 + IZR y ^ 2) with (IZR (x * x + y * y)) by (rewrite plus_IZR, !mult_IZR; ring).
  destruct (Z.eq_dec (x * x + y * y) 0) as [->|Hn]; [left; apply sqrt_0|right].
  rewrite <- sqrt_1 at 1. apply sqrt_le_1_alt. apply IZR_le. nia.
Qed.
Lemma path_length_dist p : forall s t, from_to s t p -> euclid s t <= path_length p.
Proof.
  induction p as [|a [|b p] IH]; intros s t [H1 H2]; [discriminate| |]; injection H1 as ->.
  - cbn in H2. subst t. rewrite euclid_refl. cbn. lra.
  - change (path_length (s :: b :: p)) with (euclid s b + path_length (b :: p)). pose proof (euclid_tri s b t).
    specialize (IH b t). assert (from_to b t (b :: p)).
    { split; [reflexivity|]. rewrite <- H2. apply (last_any (b :: p) b s). discriminate. }
    specialize (IH H0). lra.
Qed.

Section Search.
  Variable push : (cell -> b64) -> cell -> list cell -> list cell.
  Variable pop : (cell -> b64) -> list cell -> option (cell * list cell).
  Variable best : list (cell * b64) -> option cell.
  Variable d_hyp : cell -> cell -> b64.
  Variable eight : bool.
  Variable D : Z.
  Variable res : b64.
  Variable dh : cell -> cell -> b64.
  Variable hr : cell -> cell -> R.
  Hypothesis Hpush : push_ok push.
  Hypothesis Hpop : pop_ok pop.
  (** PriorityQueueManager: no waiting node compares smaller than the one handed out. *)
  Hypothesis Hmin : forall f l v r, (forall w, In w l -> nonneg (f w)) -> pop f l = Some (v, r) ->
    forall w, In w l -> blt (f w) (f v) = false.
  Hypothesis Hbest : best_ok best.
  Hypothesis Hbs : forall l, best l = None -> l = [].
  Hypothesis HD : (0 < D < 2147483648)%Z.
  Hypothesis Hres : ordinary res.
  Hypothesis Hest : estimates res dh hr.
  Notation findPath := (findPath b64 bzero badd blt badd (d_cost D res) dh d_hyp push pop best eight D).
  Notation new_sobj := (new_sobj b64 bzero binf).
  Notation nbrs := (nbrs b64 (d_cost D res) eight D).
  Let r : R := B2R res.
  Let el (u v : cell) : R := r * euclid u v.

  Lemma rpos : 0 < r.
  Proof using Hres. apply res_pos. exact Hres. Qed.
  Lemma plen_el p : plen el p = r * path_length p.
  Proof using Type.
    induction p as [|a [|b p] IH]; [cbn; lra|cbn; lra|]. change (plen el (a :: b :: p)) with (el a b + plen el (b :: p)).
    rewrite IH. change (path_length (a :: b :: p)) with (euclid a b + path_length (b :: p)). unfold el. lra.
  Qed.

  (** For every way [q] on which the length so far plus the estimate stays below [B]: what is
      returned is no longer than [B]. *)
  Lemma search_bounded op m first from to s g :
    gm_wf m -> op_cand b64 op = false -> (forall k, op_timeout b64 op k = false) ->
    in_cell from s -> in_cell to g ->
    cell_of (gm_w m) (gm_h m) (fst s) (snd s) -> cell_of (gm_w m) (gm_h m) (fst g) (snd g) ->
    ~ map_occupied m s -> ~ map_occupied m g ->
    exists fuel p o', findPath fuel op (new_sobj m first) from to = (FPath p, o') /\
      (p = [] <-> ~ exists t q, near D g t /\ direct_path eight D m s t q) /\
      (p <> [] -> exists t, near D g t /\ direct_path eight D m s t p /\
         forall t' q B, near D g t' -> direct_path eight D m s t' q ->
           (forall q1 x q2, q = q1 ++ x :: q2 -> path_length (q1 ++ [x]) + hr x g <= B) -> NoDup q ->
           path_length p + hr t g <= slack2 m * B).
  Proof using Hpush Hpop Hmin Hbest Hbs HD Hres Hest.
    intros Hwf Hcand Hto Hs Hg Cs Cg Os Og. assert (HD0 : (0 < D)%Z) by lia. pose proof rpos as Pr. pose proof U1 as HU.
    assert (HU2 : 1 <= U * U) by nra. assert (HU3 : 1 <= U * (U * U)) by nra.
    assert (E6 : U ^ 6 = U * (U * U) * (U * (U * U))) by ring.
    assert (HU6 : U <= U ^ 6 /\ 1 <= U ^ 6 /\ U * (U * (U * U)) <= U ^ 6) by (rewrite E6; nra).
    assert (Eos : is_occ_cell m s = false).
    { destruct (is_occ_cell m s) eqn:E; [|reflexivity]. apply is_occ_cell_spec in E. destruct Os. split; assumption. }
    assert (Eog : is_occ_cell m g = false).
    { destruct (is_occ_cell m g) eqn:E; [|reflexivity]. apply is_occ_cell_spec in E. destruct Og. split; assumption. }
    assert (Hnb : forall u v c, In (v, c) (nbrs m u) -> direct_step eight D u v /\ map_free m v /\
                   c = d_cost D res (negb ((fst u =? fst v)%Z || (snd u =? snd v)%Z))).
    { intros u v c Hin. eapply nbrs_spec; eassumption. }
    assert (Hall : forall u v c, In u (all_cells m) -> In (v, c) (nbrs m u) -> In v (all_cells m)).
    { intros u v c _ Hin. apply Hnb in Hin as (_ & [Hc _] & _). apply all_cells_spec. exact Hc. }
    assert (Har : cost_arith bzero badd blt (d_cost D res) nonneg).
    { apply ieee_cost_arith. intros d. apply (cost_rel D res d HD Hres). }
    assert (Hao : arith_ok (all_cells m) bzero badd blt (nbrs m) nonneg).
    { constructor.
      - apply (ca_wf _ _ _ _ _ Har).
      - apply (ca_irrefl _ _ _ _ _ Har).
      - apply (ca_zero _ _ _ _ _ Har).
      - intros u v c a _ Hin Ha. apply Hnb in Hin as (_ & _ & ->). apply (ca_add _ _ _ _ _ Har). assumption.
      - intros u v c a _ Hin Ha. apply Hnb in Hin as (_ & _ & ->). apply (ca_grow _ _ _ _ _ Har). assumption.
      - apply (ca_trans _ _ _ _ _ Har). }
    assert (Hstep : forall u v c a, In (v, c) (nbrs m u) -> nonneg a -> rel (U ^ 6) (key (badd a c)) (key a + el u v)).
    { intros u v c a Hin Ha. apply Hnb in Hin as (St & _ & ->). destruct (cost_rel D res (negb ((fst u =? fst v)%Z || (snd u =? snd v)%Z)) HD Hres) as [Sc Rc].
      pose proof (step_euclid eight D u v HD0 St) as Eu.
      assert (Ee : rcost D (B2R res) (negb ((fst u =? fst v)%Z || (snd u =? snd v)%Z)) = el u v).
      { unfold el, r. rewrite <- Eu. unfold rcost. ring. }
      rewrite Ee in Rc.
      assert (Na : nonneg (badd a (d_cost D res (negb ((fst u =? fst v)%Z || (snd u =? snd v)%Z))))) by (apply badd_key; [exact Ha|apply Sc]).
      apply (rel_le (U * (U * (U * U)))); [apply HU6|apply (key_range _ Na)| |].
      - pose proof (key_range a Ha). assert (0 <= el u v) by (apply Rmult_le_pos; [lra|apply sqrt_pos]). lra.
      - eapply rel_trans; [lra|lra|apply badd_rel; assumption|]. apply rel_add; [lra|apply (key_range a Ha)|exact Rc]. }
    assert (Hhv : forall v, In v (all_cells m) -> 0 <= hr v g /\ small (dh v g) /\ rel (U ^ 6) (key (dh v g)) (r * hr v g)).
    { intros v Hv. apply all_cells_spec in Hv. destruct Hwf as (Hw & Hh & _). unfold cell_of in Hv, Cg.
      apply (Hest v g); lia. }
    destruct (GenericRound.run_bounded ceqb ceqb_spec (all_cells m) bzero binf badd blt badd (nbrs m) (goal_val b64 bzero dh (Some g))
      push pop Hpush Hpop s (goal_test D (Some g)) (op_over b64 op) (goal_val b64 bzero d_hyp (Some g)) best Hbest Hbs Hall
      ltac:(apply all_cells_spec; exact Cs) nonneg key small) with (elen := el) (hR := fun v => r * Rmax 0 (hr v g)) (H := U ^ 6) (first := first)
      as (fuel & p & s' & Er & Hp & Ho).
    - intros a [A _]. exact A.
    - split; [split; reflexivity|]. apply bpow_ge_0.
    - exact Hao.
    - exact Hmin.
    - intros a b Ha Hb. apply blt_key; assumption.
    - intros a Ha. apply (key_range a Ha).
    - reflexivity.
    - apply HU6.
    - intros u v. unfold el. apply Rmult_le_pos; [lra|apply sqrt_pos].
    - intros u v c a _ Hin Ha. apply (Hstep u v c a Hin Ha).
    - intros u v c a _ Hin Ha. apply (Hstep u v c a Hin Ha).
    - intros v. apply Rmult_le_pos; [lra|apply Rmax_l].
    - intros v Hv. cbn [goal_val]. destruct (Hhv v Hv) as [A0 [A [B1 B2]]]. rewrite Rmax_right by exact A0. auto.
    - intros a b Ha [Hb _]. apply badd_key; assumption.
    - intros a b Ha Hb. destruct (badd_rel a b Ha Hb) as [B _]. pose proof (key_range a Ha). pose proof (key_range b (proj1 Hb)).
      eapply Rle_trans; [exact B|]. apply Rmult_le_compat_l; lra.
    - intros a b Ha Hb. destruct (badd_rel a b Ha Hb) as [_ B]. assert (Hn : nonneg (badd a b)) by (apply badd_key; [assumption|apply Hb]).
      pose proof (key_range _ Hn). eapply Rle_trans; [exact B|]. apply Rmult_le_compat_l; lra.
    - assert (Eto : forall fu st, run cell b64 ceqb (all_cells m) bzero badd blt badd (nbrs m) (goal_val b64 bzero dh (Some g)) push pop
                       [s] (goal_test D (Some g)) true false (op_over b64 op) (goal_val b64 bzero d_hyp (Some g)) best (op_timeout b64 op) fu st first
                = run cell b64 ceqb (all_cells m) bzero badd blt badd (nbrs m) (goal_val b64 bzero dh (Some g)) push pop
                       [s] (goal_test D (Some g)) true false (op_over b64 op) (goal_val b64 bzero d_hyp (Some g)) best (fun _ => false) fu st first).
      { intros fu st. unfold run. generalize 0%nat. generalize (init_search cell b64 ceqb bzero badd push [s] st first). clear - Hto.
        induction fu as [|k IH]; intros s0 i; cbn [loop]; [reflexivity|]. destruct (s_open _ _ s0); [reflexivity|]. rewrite Hto.
        destruct (pop _ _) as [[cur o]|]; [|reflexivity]. destruct (_ && negb false); [reflexivity|]. cbn [andb].
        destruct (process_all _ _ _ _ _ _ _ _ _ _ _ _) as [s3|]; [apply IH|reflexivity]. }
      exists fuel, p. eexists. split.
      { unfold DirectSearch.findPath. cbn [ob_map ob_info ob_first DirectSearch.new_sobj].
        rewrite (lookup_of_cell m from s Hwf Hs Cs), (lookup_of_cell m to g Hwf Hg Cg), Eos, Eog. cbv zeta. cbn [somes].
        rewrite Hcand, Eto, Er. cbn [fst snd to_fres]. reflexivity. }
      assert (Hedge : forall a b, edge (nbrs m) a b <-> direct_step eight D a b /\ map_free m b) by (intros a b; apply edge_spec; assumption).
      split.
      + rewrite Hp. split; intros H H'; apply H.
        * destruct H' as (t & q & Hn & [[A B] Ch]). exists q, s, t. split; [exact A|]. split; [left; reflexivity|].
          split; [|split; [exact B|apply C25_isGoal; exact Hn]].
          eapply chain_weaken; [|exact Ch]. intros a b Hab. apply Hedge. exact Hab.
        * destruct H' as (q & st & t & A & [<-|[]] & Ch & L & G). exists t, q. split; [apply C25_isGoal; exact G|].
          split; [split; assumption|]. eapply chain_weaken; [|exact Ch]. intros a b Hab. apply Hedge. exact Hab.
      + intros Hne. destruct (Ho Hne) as (t & L & G & Hd & Hc & Hnd & Hopt). exists t. split; [apply C25_isGoal; exact G|].
        assert (Hc' : chain (fun a b => direct_step eight D a b /\ map_free m b) p).
        { eapply chain_weaken; [|exact Hc]. intros a b Hab. apply Hedge. exact Hab. }
        split; [split; [split; assumption|exact Hc']|].
        intros t' q B Hn [[A A'] Ch] HB Nq.
        assert (Ch2 : chain (edge (nbrs m)) q).
        { eapply chain_weaken; [|exact Ch]. intros a b Hab. apply Hedge. exact Hab. }
        assert (Hin : incl q (all_cells m)) by (apply (path_cells eight D m s q Cs A Ch)).
        assert (Hbel : below (el) (fun v => r * Rmax 0 (hr v g)) (r * B) 0 q).
        { assert (Gen : forall q2 q1 x, incl (x :: q2) (all_cells m) ->
                    (forall k1 y k2, q1 ++ x :: q2 = k1 ++ y :: k2 -> path_length (k1 ++ [y]) + hr y g <= B) ->
                    below el (fun v => r * Rmax 0 (hr v g)) (r * B) (r * path_length (q1 ++ [x])) (x :: q2)).
          { clear - Pr Hhv. induction q2 as [|y q2 IH]; intros q1 x Hi HB; (split; [|]).
            - pose proof (HB q1 x [] eq_refl) as F. destruct (Hhv x (Hi x (or_introl eq_refl))) as [F0 _]. rewrite Rmax_right by exact F0.
              rewrite <- Rmult_plus_distr_l. apply Rmult_le_compat_l; lra.
            - exact I.
            - pose proof (HB q1 x (y :: q2) eq_refl) as F. destruct (Hhv x (Hi x (or_introl eq_refl))) as [F0 _]. rewrite Rmax_right by exact F0.
              rewrite <- Rmult_plus_distr_l. apply Rmult_le_compat_l; lra.
            - replace (r * path_length (q1 ++ [x]) + el x y) with (r * path_length ((q1 ++ [x]) ++ [y])).
              + apply IH; [intros z Hz; apply Hi; right; exact Hz|]. intros k1 z k2 E. apply (HB k1 z k2). rewrite <- E, <- app_assoc. reflexivity.
              + unfold el. rewrite <- Rmult_plus_distr_l. f_equal. clear.
                induction q1 as [|a [|b q1] IH]; [cbn; lra|cbn; lra|].
                change (((a :: b :: q1) ++ [x]) ++ [y]) with (a :: ((b :: q1) ++ [x]) ++ [y]).
                change ((a :: b :: q1) ++ [x]) with (a :: (b :: q1) ++ [x]).
                change (path_length (a :: ((b :: q1) ++ [x]) ++ [y])) with (euclid a b + path_length (((b :: q1) ++ [x]) ++ [y])).
                change (path_length (a :: (b :: q1) ++ [x])) with (euclid a b + path_length ((b :: q1) ++ [x])). rewrite IH. lra. }
          destruct q as [|a q]; [discriminate|]. pose proof (Gen q [] a Hin HB) as G0. cbn [app path_length] in G0. rewrite Rmult_0_r in G0. exact G0. }
        pose proof (Hopt q t' (r * B) Ch2 A A' ltac:(apply C25_isGoal; exact Hn) Hbel) as F. rewrite !plen_el in F.
        pose proof (slack2_pow m p q Hwf (NoDup_incl_length Hnd (path_cells eight D m s p Cs Hd Hc')) (NoDup_incl_length Nq Hin)) as SP.
        assert (B0 : 0 <= B).
        { destruct q as [|a q]; [discriminate|]. pose proof (HB [] a q eq_refl) as F0. cbn [app path_length] in F0.
          destruct (Hhv a (Hin a (or_introl eq_refl))) as [F1 _]. lra. }
        pose proof (Rmax_r 0 (hr t g)) as Fm. apply Rmult_le_reg_l with r; [exact Pr|].
        apply Rle_trans with (r * path_length p + r * Rmax 0 (hr t g)); [rewrite Rmult_plus_distr_l; apply Rplus_le_compat_l; apply Rmult_le_compat_l; lra|].
        eapply Rle_trans; [exact F|]. replace (r * (slack2 m * B)) with (r * B * slack2 m) by ring. apply Rmult_le_compat_l; [nra|exact SP].
  Qed.
End Search.

(** ** Paths of at least one step are at least one cell long *)
Lemma step_one eight D a b : (0 < D)%Z -> direct_step eight D a b -> 1 <= euclid a b.
Proof.
  intros HD H. rewrite <- (step_euclid eight D a b HD H). unfold rcost. rewrite Rmult_1_r.
  assert (1 <= IZR D) by (apply IZR_le; lia). assert (1 <= sqrt 2) by (rewrite <- sqrt_1 at 1; apply sqrt_le_1_alt; lra).
  destruct (negb _); nra.
Qed.
Lemma path_one eight D q : (0 < D)%Z -> chain (direct_step eight D) q -> (length q <= 1)%nat \/ 1 <= path_length q.
Proof.
  intros HD. destruct q as [|a [|b q]]; intros Hc; [left; cbn; lia|left; cbn; lia|right]. destruct Hc as [Hs _].
  apply (step_one eight D a b HD) in Hs. change (path_length (a :: b :: q)) with (euclid a b + path_length (b :: q)).
  pose proof (path_length_pos (b :: q)). lra.
Qed.
Lemma path_cut q1 (x : cell) q2 : path_length (q1 ++ x :: q2) = path_length (q1 ++ [x]) + path_length (x :: q2).
Proof.
  induction q1 as [|a [|b q1] IH]; [cbn [app path_length]; lra| |].
  - change (path_length ([a] ++ x :: q2)) with (euclid a x + path_length (x :: q2)).
    change (path_length ([a] ++ [x])) with (euclid a x + 0). lra.
  - change ((a :: b :: q1) ++ x :: q2) with (a :: b :: q1 ++ x :: q2). change ((a :: b :: q1) ++ [x]) with (a :: b :: q1 ++ [x]).
    change (path_length (a :: b :: q1 ++ x :: q2)) with (euclid a b + path_length ((b :: q1) ++ x :: q2)).
    change (path_length (a :: b :: q1 ++ [x])) with (euclid a b + path_length ((b :: q1) ++ [x])). rewrite IH. lra.
Qed.
Lemma chain_prefix {A} (P : A -> A -> Prop) l1 : forall l2, chain P (l1 ++ l2) -> chain P l1.
Proof.
  induction l1 as [|a [|b l1] IH]; intros l2 Hc; [exact Logic.I|exact Logic.I|]. destruct Hc as [Hab Hc]. split; [exact Hab|].
  apply (IH l2). exact Hc.
Qed.
Lemma rest_dist q1 (x : cell) q2 s t g : from_to s t (q1 ++ x :: q2) -> euclid x g <= path_length (x :: q2) + euclid t g.
Proof.
  intros [_ Hl]. assert (from_to x t (x :: q2)) as Hf.
  { split; [reflexivity|]. rewrite <- Hl. rewrite (last_any (x :: q2) x s) by discriminate. clear. induction q1 as [|y q1 IH]; [reflexivity|].
    cbn [app]. rewrite IH. destruct q1; reflexivity. }
  pose proof (path_length_dist _ _ _ Hf). pose proof (euclid_tri x t g). lra.
Qed.

(** ** Powers *)
Lemma powR_pos x e : 0 <= powR x e.
Proof. unfold powR. destruct (Req_EM_T x 0); [lra|]. left. apply exp_pos. Qed.
Lemma powR_mono x y e : 0 <= e -> 0 <= x <= y -> powR x e <= powR y e.
Proof.
  intros He [Hx Hy]. unfold powR at 1. destruct (Req_EM_T x 0) as [|Hn]; [apply powR_pos|].
  unfold powR. destruct (Req_EM_T y 0); [lra|]. apply Rle_Rpower_l; lra.
Qed.
Lemma powR_exp x e f : x = 0 \/ 1 <= x -> e <= f -> powR x e <= powR x f.
Proof.
  intros Hx Hef. unfold powR. destruct (Req_EM_T x 0) as [|Hn]; [lra|]. destruct Hx as [|Hx]; [contradiction|].
  apply Rle_Rpower; assumption.
Qed.
Lemma powR_1 x : 0 <= x -> powR x 1 = x.
Proof. intros Hx. unfold powR. destruct (Req_EM_T x 0); [lra|]. apply Rpower_1. lra. Qed.
Lemma powR_super a d e : 1 <= e -> a = 0 \/ 1 <= a -> d = 0 \/ 1 <= d -> a + powR d e <= powR (a + d) e.
Proof.
  intros He [->|Ha] Hd; [rewrite !Rplus_0_l; lra|]. destruct Hd as [->|Hd].
  - rewrite Rplus_0_r. replace (powR 0 e) with 0 by (unfold powR; destruct (Req_EM_T 0 0); lra). rewrite Rplus_0_r.
    rewrite <- (powR_1 a) at 1 by lra. apply powR_exp; lra.
  - unfold powR. destruct (Req_EM_T d 0); [lra|]. destruct (Req_EM_T (a + d) 0); [lra|].
    replace e with (1 + (e - 1)) by lra. rewrite !Rpower_plus, !Rpower_1 by lra.
    assert (G1 : 1 <= Rpower (a + d) (e - 1)).
    { rewrite <- (Rpower_O (a + d)) at 1 by lra. apply Rle_Rpower; lra. }
    assert (G2 : Rpower d (e - 1) <= Rpower (a + d) (e - 1)) by (apply Rle_Rpower_l; lra).
    rewrite Rmult_plus_distr_r. apply Rplus_le_compat; [nra|]. apply Rmult_le_compat_l; lra.
Qed.
Lemma powR_rel x y e : 0 <= x -> 0 <= y -> 1 <= e <= 3 / 2 -> rel (U * U) x y -> rel (U ^ 3) (powR x e) (powR y e).
Proof.
  intros Hx Hy He. pose proof U1 as HU.
  assert (G : forall x y, 0 <= x -> 0 <= y -> x <= y * (U * U) -> powR x e <= powR y e * U ^ 3).
  { clear x y Hx Hy. intros x y Hx Hy H. apply Rle_trans with (powR (y * (U * U)) e); [apply powR_mono; lra|].
    unfold powR. destruct (Req_EM_T y 0) as [->|Hn].
    - rewrite Rmult_0_l. destruct (Req_EM_T 0 0); lra.
    - destruct (Req_EM_T (y * (U * U)) 0) as [E0|_].
      + exfalso. assert (0 < y * (U * U)) by (apply Rmult_lt_0_compat; nra). lra.
      + rewrite <- Rpower_mult_distr by nra. apply Rmult_le_compat_l; [left; apply exp_pos|].
        replace (U * U) with (Rpower U 2) by (change 2 with (INR 2); rewrite Rpower_pow by lra; ring).
        rewrite Rpower_mult. rewrite <- (Rpower_pow 3) by lra. apply Rle_Rpower; [exact HU|]. cbn. lra. }
  intros [A B]. split; apply G; assumption.
Qed.

(** ** C77 *)
(** pow with exponent 1.2 is accurate to two units in the last place (the GNU library promises
    less than one). *)
Definition pow_accurate (pw : b64 -> b64 -> b64) : Prop := forall x, fin x -> Bsign x = false ->
  (B2R x = 0 \/ / 2 <= B2R x <= bpow radix2 34) ->
  fin (pw x e12) /\ Bsign (pw x e12) = false /\ rel (U * U) (B2R (pw x e12)) (powR (B2R x) (B2R e12)).

Lemma e12_val : B2R e12 = 5404319552844595 / 4503599627370496.
Proof. cbn. unfold F2R. cbn. lra. Qed.
Lemma e12_range : 1 <= B2R e12 <= 12 / 10.
Proof. rewrite e12_val. lra. Qed.

Lemma over_estimates hyp pw res : hypot_accurate hyp -> pow_accurate pw -> ordinary res ->
  estimates res (d_over hyp pw res) (fun c g => powR (euclid c g) (B2R e12)).
Proof.
  intros Hh Hp Or c g Hx Hy. pose proof U1 as HU. pose proof U_le2 as U2. pose proof (res_pos res Or) as Pr.
  split; [apply powR_pos|]. destruct (Hh _ _ Hx Hy) as (F & S0 & Rr). unfold d_over.
  set (y := hyp (fst c - fst g)%Z (snd c - snd g)%Z) in *.
  assert (Ee : sqrt (IZR (fst c - fst g) * IZR (fst c - fst g) + IZR (snd c - snd g) * IZR (snd c - snd g)) = euclid c g).
  { unfold euclid. f_equal. ring. }
  rewrite Ee in Rr. pose proof (euclid_int c g) as He.
  assert (Hub : euclid c g <= 4294967296).
  { rewrite <- Ee. rewrite <- (sqrt_square 4294967296) by lra. apply sqrt_le_1_alt. rewrite <- !mult_IZR, <- plus_IZR. apply IZR_le.
    rewrite <- (Z.abs_square (fst c - fst g)), <- (Z.abs_square (snd c - snd g)). nia. }
  assert (Y0 : 0 <= B2R y). { destruct y as [sg|sg| |sg mm ee Bd]; try discriminate; cbn [B2R]; [lra|]. cbn in S0. subst sg. apply F2R_ge_0. cbn. lia. }
  assert (HU2 : 1 <= U * U <= 25 / 16) by nra.
  assert (Yb : B2R y = 0 \/ / 2 <= B2R y <= bpow radix2 34).
  { change (bpow radix2 34) with 17179869184. destruct Rr as [R1 R2]. set (k := U * U) in *. clearbody k. destruct He as [He|He]; [left; rewrite He in *; nra|right; split; nra]. }
  destruct (Hp y F S0 Yb) as (Fp & Sp & Rp).
  pose proof (powR_rel (B2R y) (euclid c g) (B2R e12) Y0 ltac:(destruct He; lra) ltac:(pose proof e12_range; lra) Rr) as Rq.
  pose proof e12_range as Ge. set (e := B2R e12) in *. set (v := powR (euclid c g) e) in *.
  assert (HU3 : 1 <= U ^ 3 <= 2) by (replace (U ^ 3) with (U * U * U) by ring; nra).
  assert (Rv : rel (U ^ 5) (B2R (pw y e12)) v).
  { replace (U ^ 5) with (U * U * U ^ 3) by ring. eapply rel_trans; [lra|lra|exact Rp|exact Rq]. }
  assert (HU5 : 1 <= U ^ 5 <= 4) by (replace (U ^ 5) with (U * U * U ^ 3) by ring; nra).
  (* the power is zero or between 1 and 2^39 *)
  assert (Vb : v = 0 \/ 1 <= v <= 549755813888).
  { unfold v. destruct He as [->|He]; [left; unfold powR; destruct (Req_EM_T 0 0); lra|right]. split.
    - rewrite <- (powR_1 1) at 1 by lra. apply Rle_trans with (powR (euclid c g) 1); [apply powR_mono; lra|apply powR_exp; lra].
    - apply Rle_trans with (powR 4294967296 (12 / 10)).
      + apply Rle_trans with (powR (euclid c g) (12 / 10)); [apply powR_exp; lra|apply powR_mono; lra].
      + unfold powR. destruct (Req_EM_T 4294967296 0); [lra|].
        replace 4294967296 with (Rpower 2 32).
        2:{ replace 32 with (INR 32) by (rewrite INR_IZR_INZ; reflexivity). rewrite Rpower_pow by lra. rewrite pow_IZR. reflexivity. }
        rewrite Rpower_mult. replace 549755813888 with (Rpower 2 39).
        * apply Rle_Rpower; lra.
        * replace 39 with (INR 39) by (rewrite INR_IZR_INZ; reflexivity). rewrite Rpower_pow by lra. rewrite pow_IZR. reflexivity. }
  assert (Or' := Or). destruct Or' as (Fr & X1 & X2).
  assert (Hmul : small (bmul res (pw y e12)) /\ rel U (key (bmul res (pw y e12))) (B2R res * B2R (pw y e12))).
  { destruct Vb as [V0|[V1 V2]].
    - apply mul_res; try assumption. left. destruct Rv as [R1 R2]. rewrite V0 in *.
      assert (0 <= B2R (pw y e12)).
      { destruct (pw y e12) as [sg|sg| |sg mm ee Bd]; try discriminate; cbn [B2R]; [lra|]. cbn in Sp. subst sg. apply F2R_ge_0. cbn. lia. }
      lra.
    - destruct Rv as [R1 R2]. assert (W : / 4 <= B2R (pw y e12) <= bpow radix2 41).
      { change (bpow radix2 41) with 2199023255552. set (z := B2R (pw y e12)) in *. set (k := U ^ 5) in *. clearbody z k. split; [nra|]. nra. }
      destruct (bmul_rel res (pw y e12) (-902) 941 Fr Fp) as (A & B & _); try lia; try lra; [|split; assumption].
      split.
      + change (-902)%Z with (-900 + -2)%Z. rewrite bpow_plus. change (bpow radix2 (-2)) with (/ 4). apply Rmult_le_compat; try lra; apply bpow_ge_0.
      + change 941%Z with (900 + 41)%Z. rewrite bpow_plus. apply Rmult_le_compat; lra. }
  destruct Hmul as [A B]. split; [exact A|]. replace (U ^ 6) with (U * U ^ 5) by ring.
  eapply rel_trans; [exact HU|lra|exact B|]. rewrite (Rmult_comm _ (B2R (pw y e12))), (Rmult_comm _ v). apply rel_mul; [lra|exact Rv].
Qed.

Lemma norm_estimates hyp n res : hypot_accurate hyp -> ordinary res -> estimates res (d_heur hyp n res) (hcompute n 1).
Proof.
  intros Hh Or c g Hx Hy. pose proof U1 as HU. pose proof (res_pos res Or) as Pr. destruct (heur_rel hyp n res c g Hh Or Hx Hy) as [A B].
  split; [apply C32_nonneg; lra|]. split; [exact A|].
  assert (E : hcompute n (B2R res) c g = B2R res * hcompute n 1 c g) by (destruct n; cbn [hcompute]; ring).
  rewrite <- E. assert (1 <= U * U) by nra. assert (1 <= U * (U * U)) by nra.
  apply (rel_le (U * (U * U))); [replace (U ^ 6) with (U * (U * U) * (U * (U * U))) by ring; nra|apply (key_range _ (proj1 A))|apply C32_nonneg; lra|exact B].
Qed.

Section Claims.
  Variable push : (cell -> b64) -> cell -> list cell -> list cell.
  Variable pop : (cell -> b64) -> list cell -> option (cell * list cell).
  Variable best : list (cell * b64) -> option cell.
  Variable hyp : Z -> Z -> b64.
  Variable eight : bool.
  Variable D : Z.
  Variable res : b64.
  Hypothesis Hpush : push_ok push.
  Hypothesis Hpop : pop_ok pop.
  (** PriorityQueueManager: no waiting node compares smaller than the one handed out. *)
  Hypothesis Hmin : forall f l v r, (forall w, In w l -> nonneg (f w)) -> pop f l = Some (v, r) ->
    forall w, In w l -> blt (f w) (f v) = false.
  Hypothesis Hbest : best_ok best.
  Hypothesis Hbs : forall l, best l = None -> l = [].
  Hypothesis HD : (0 < D < 2147483648)%Z.
  Hypothesis Hres : ordinary res.
  Hypothesis Hhyp : hypot_accurate hyp.
  Notation d_hyp := (fun c g : cell => hyp (fst g - fst c)%Z (snd g - snd c)%Z).
  (** findPath with the heuristic [dh] on a new object. *)
  Notation find dh := (findPath b64 bzero badd blt badd (d_cost D res) dh d_hyp push pop best eight D).
  Notation new_sobj := (new_sobj b64 bzero binf).

  (** [p] is found from cell s for goal cell g iff there is a way, and is bounded by [bd]
      applied to the length of any other way that may be continued straight to the goal. *)
  Definition finds_within (dh : cell -> cell -> b64) (bd : R -> R) : Prop := forall op m first from to s g,
    gm_wf m -> op_cand b64 op = false -> (forall k, op_timeout b64 op k = false) ->
    in_cell from s -> in_cell to g ->
    cell_of (gm_w m) (gm_h m) (fst s) (snd s) -> cell_of (gm_w m) (gm_h m) (fst g) (snd g) ->
    ~ map_occupied m s -> ~ map_occupied m g ->
    exists fuel p o', find dh fuel op (new_sobj m first) from to = (FPath p, o') /\
      (p = [] <-> ~ exists t q, near D g t /\ direct_path eight D m s t q) /\
      (p <> [] -> exists t, near D g t /\ direct_path eight D m s t p /\
         (forall t' q, near D g t' -> direct_path eight D m s t' q ->
            path_length p + euclid t g <= slack2 m * bd (path_length q + euclid t' g)) /\
         (forall q, direct_path eight D m s g q -> path_length p <= slack2 m * bd (path_length q))).

  Lemma within dh hr bd : estimates res dh hr -> (forall c g, euclid c g <= hr c g) ->
    (forall x y, 0 <= x <= y -> bd x <= bd y) ->
    (forall a d x g, a = 0 \/ 1 <= a -> euclid x g <= d -> a + hr x g <= bd (a + d)) ->
    finds_within dh bd.
  Proof using Hpush Hpop Hmin Hbest Hbs HD Hres.
    intros Hest Hge Hmono Hbd op m first from to s g Hwf Hcand Hto Hs Hg Cs Cg Os Og. assert (HD0 : (0 < D)%Z) by lia.
    destruct (search_bounded push pop best d_hyp eight D res dh hr Hpush Hpop Hmin Hbest Hbs HD Hres Hest op m first from to s g
      Hwf Hcand Hto Hs Hg Cs Cg Os Og) as (fuel & p & o' & E & Hp & Ho).
    exists fuel, p, o'. split; [exact E|]. split; [exact Hp|]. intros Hne. destruct (Ho Hne) as (t & Hn & Hd & HB). exists t.
    split; [exact Hn|]. split; [exact Hd|].
    assert (S0 : 0 <= slack2 m).
    { unfold slack2. destruct Hwf as (Hw & Hh & _). assert (0 <= IZR (gm_w m * gm_h m + 2)) by (apply IZR_le; nia).
      assert (0 < bpow radix2 47) by apply bpow_gt_0. assert (0 <= IZR (gm_w m * gm_h m + 2) / bpow radix2 47); [|lra].
      apply Rmult_le_pos; [assumption|]. left. apply Rinv_0_lt_compat. assumption. }
    assert (Main : forall t' q, near D g t' -> direct_path eight D m s t' q ->
              path_length p + euclid t g <= slack2 m * bd (path_length q + euclid t' g)).
    { intros t' q Hn' [Hft Ch]. destruct (simple_path _ q s t' Hft Ch) as (q' & Hft' & Ch' & Nq & Lq & _).
      pose proof (path_length_pos q') as P0. assert (E0 : 0 <= euclid t' g) by apply sqrt_pos.
      apply Rle_trans with (path_length p + hr t g); [pose proof (Hge t g); lra|].
      apply Rle_trans with (slack2 m * bd (path_length q' + euclid t' g)); [|apply Rmult_le_compat_l; [exact S0|apply Hmono; lra]].
      apply (HB t' q' _ Hn'); [split; assumption| |exact Nq].
      intros q1 x q2 Eq. subst q'. rewrite (path_cut q1 x q2), Rplus_assoc. apply Hbd; [|apply (rest_dist q1 x q2 s t' g Hft')].
      assert (Ch0 : chain (direct_step eight D) (q1 ++ [x])).
      { apply (chain_prefix _ (q1 ++ [x]) q2). rewrite <- app_assoc. cbn [app]. eapply chain_weaken; [|exact Ch']. intros a b [A _]. exact A. }
      destruct (path_one eight D _ HD0 Ch0) as [L|L]; [left|right; exact L].
      rewrite app_length in L. destruct q1 as [|y q1]; [reflexivity|]. cbn in L. lia. }
    split; [exact Main|]. intros q Hq. assert (Hnear : near D g g) by (unfold near; rewrite !Z.sub_diag; cbn; lia).
    specialize (Main g q Hnear Hq). rewrite euclid_refl, Rplus_0_r in Main. assert (0 <= euclid t g) by apply sqrt_pos. lra.
  Qed.

  (** Any heuristic between the straight distance and [w] times the straight distance: the path
      is at most [w] times as long as any other. *)
  Theorem C77_weighted dh hr w : estimates res dh hr -> 1 <= w -> (forall c g, euclid c g <= hr c g <= w * euclid c g) ->
    finds_within dh (fun l => w * l).
  Proof using Hpush Hpop Hmin Hbest Hbs HD Hres.
    intros Hest Hw Hb. apply (within dh hr); [exact Hest|intros c g; apply Hb|intros x y H; apply Rmult_le_compat_l; lra|].
    intros a d x g Ha Hd. destruct (Hb x g) as [_ B]. assert (0 <= euclid x g) by apply sqrt_pos. assert (0 <= a) by (destruct Ha; lra). nra.
  Qed.
  (** AStar2dTaxi: L1 with eight neighbours costs at most a factor of the square root of two. *)
  Theorem C77_taxi : finds_within (d_heur hyp HeuristicL1 res) (fun l => sqrt 2 * l).
  Proof using Hpush Hpop Hmin Hbest Hbs HD Hres Hhyp.
    apply (C77_weighted _ (hcompute HeuristicL1 1)); [apply norm_estimates; assumption| |].
    - rewrite <- sqrt_1 at 1. apply sqrt_le_1_alt. lra.
    - intros c g. destruct (C32_norms 1 c g ltac:(lra)) as (E2 & _ & _ & [_ A] & _). rewrite E2, Rmult_1_l in A. split; [exact A|].
      rewrite euclid_hypot. cbn [hcompute]. rewrite Rmult_1_l. unfold hypotR. set (x := dxR c g). set (y := dyR c g).
      rewrite <- sqrt_mult by nra. rewrite <- (sqrt_square (Rabs x + Rabs y)) by (pose proof (Rabs_pos x); pose proof (Rabs_pos y); lra).
      apply sqrt_le_1_alt. pose proof (Rsqr_abs x) as A1. pose proof (Rsqr_abs y) as A2. unfold Rsqr in *. rewrite A1, A2.
      pose proof (Rle_0_sqr (Rabs x - Rabs y)) as A3. unfold Rsqr in A3. lra.
  Qed.
  (** AStarOverEstimate's heuristic: the length in cells is at most the 1.2-th power of the length
      of any other path. *)
  Theorem C77_over pw : pow_accurate pw -> finds_within (d_over hyp pw res) (fun l => if Rle_dec 1 l then Rpower l (12 / 10) else l).
  Proof using Hpush Hpop Hmin Hbest Hbs HD Hres Hhyp.
    intros Hp. pose proof e12_range as Ge.
    assert (Gb : forall l, l = 0 \/ 1 <= l -> powR l (12 / 10) <= (if Rle_dec 1 l then Rpower l (12 / 10) else l)).
    { intros l [->|Hl]; (destruct (Rle_dec _ _) as [H|H]; [|]); unfold powR; destruct (Req_EM_T _ 0); lra. }
    apply (within _ (fun c g => powR (euclid c g) (B2R e12))); [apply over_estimates; assumption| | |].
    - intros c g. assert (0 <= euclid c g) by apply sqrt_pos. rewrite <- (powR_1 (euclid c g)) at 1 by assumption.
      apply powR_exp; [apply euclid_int|lra].
    - intros x y H. destruct (Rle_dec 1 x) as [Hx|Hx], (Rle_dec 1 y) as [Hy|Hy]; try lra.
      + apply Rle_Rpower_l; lra.
      + rewrite <- (Rpower_1 y) in H by lra. apply Rle_trans with (Rpower y 1); [lra|]. apply Rle_Rpower; lra.
    - intros a d x g Ha Hd. pose proof (euclid_int x g) as Hi.
      assert (Hmono : (if Rle_dec 1 (a + euclid x g) then Rpower (a + euclid x g) (12 / 10) else a + euclid x g)
                      <= (if Rle_dec 1 (a + d) then Rpower (a + d) (12 / 10) else a + d)).
      { assert (H : 0 <= a + euclid x g <= a + d) by (destruct Ha, Hi; lra). revert H. generalize (a + euclid x g) (a + d). clear. intros x y H.
        destruct (Rle_dec 1 x) as [Hx|Hx], (Rle_dec 1 y) as [Hy|Hy]; try lra.
        + apply Rle_Rpower_l; lra.
        + rewrite <- (Rpower_1 y) in H by lra. apply Rle_trans with (Rpower y 1); [lra|]. apply Rle_Rpower; lra. }
      eapply Rle_trans; [|exact Hmono].
      apply Rle_trans with (powR (a + euclid x g) (12 / 10)); [|apply Gb; destruct Ha, Hi; lra].
      apply Rle_trans with (powR (a + euclid x g) (B2R e12)); [apply powR_super; lra|]. apply powR_exp; [destruct Ha, Hi; lra|lra].
  Qed.
End Claims.
Print Assumptions C77_taxi.
Print Assumptions C77_over.
Theorem C77_slack m : gm_wf m -> (gm_w m * gm_h m <= 134217728)%Z -> 1 <= slack2 m <= 1 + / 1000000.
Proof.
  intros (Hw & Hh & _) H. unfold slack2. rewrite plus_IZR. assert (BM : 0 <= IZR (gm_w m * gm_h m) <= 134217728) by (split; apply IZR_le; nia).
  change (bpow radix2 47) with 140737488355328. lra.
Qed.

(** ** The hypotheses are met *)
(** The correctly rounded power. *)
Definition fe : Z -> Z := FLT_exp (-1074) 53.
Definition near_b64 (x : R) : b64 :=
  @binary_normalize 53 1024 p64 l64 mode_NE (Ztrunc (scaled_mantissa radix2 fe (r64 x))) (cexp radix2 fe (r64 x)) false.
Definition d_pow (x y : b64) : b64 := near_b64 (powR (B2R x) (B2R y)).
Lemma near_b64_spec x : 0 <= x <= bpow radix2 1000 -> fin (near_b64 x) /\ Bsign (near_b64 x) = false /\ B2R (near_b64 x) = r64 x.
Proof.
  intros Hx. assert (Fx : generic_format radix2 fe (r64 x)) by (apply generic_format_round; [apply FLT_exp_valid; reflexivity|apply valid_rnd_N]).
  pose proof (@binary_normalize_correct 53 1024 p64 l64 mode_NE (Ztrunc (scaled_mantissa radix2 fe (r64 x))) (cexp radix2 fe (r64 x)) false) as C.
  cbv zeta in C. fold (near_b64 x) in C. rewrite <- Fx in C.
  change (round radix2 _ _ (r64 x)) with (r64 (r64 x)) in C. rewrite (r64_id (r64 x)) in C by exact Fx.
  pose proof (r64_ge0 x (proj1 Hx)) as R0.
  assert (R1 : r64 x <= bpow radix2 1000) by (rewrite <- (r64_id (bpow radix2 1000)) by (apply F64_bpow; lia); apply r64_mono; lra).
  rewrite Rlt_bool_true in C.
  - destruct C as (C1 & C2 & C3). split; [exact C2|]. split; [|exact C1]. rewrite C3. destruct R0 as [R0|R0].
    + rewrite Rcompare_Gt by exact R0. reflexivity.
    + rewrite Rcompare_Eq by (symmetry; exact R0). reflexivity.
  - rewrite Rabs_pos_eq by exact R0. eapply Rle_lt_trans; [exact R1|]. apply bpow_lt. lia.
Qed.

Lemma d_pow_accurate : pow_accurate d_pow.
Proof.
  intros x Fx Sx Hx. pose proof e12_range as Ge. pose proof U1 as HU. set (e := B2R e12) in *. set (v := powR (B2R x) e) in *.
  assert (Hv : v = 0 \/ / 4 <= v <= bpow radix2 60).
  { unfold v. destruct Hx as [->|[H1 H2]]; [left; unfold powR; destruct (Req_EM_T 0 0); lra|right].
    unfold powR. destruct (Req_EM_T (B2R x) 0) as [H0|_]; [lra|]. split.
    - apply Rle_trans with (Rpower (/ 2) 2).
      + replace 2 with (INR 2) at 2 by (cbn; lra). rewrite Rpower_pow by lra. lra.
      + apply Rle_trans with (Rpower (/ 2) e); [|apply Rle_Rpower_l; lra].
        unfold Rpower.
        assert (Hl : ln (/ 2) < 0) by (rewrite <- ln_1; apply ln_increasing; lra).
        destruct (Rle_lt_or_eq_dec (2 * ln (/ 2)) (e * ln (/ 2))) as [L|L]; [nra|left; apply exp_increasing; exact L|rewrite L; lra].
    - apply Rle_trans with (Rpower (bpow radix2 34) (12 / 10)).
      + apply Rle_trans with (Rpower (bpow radix2 34) e); [apply Rle_Rpower_l; lra|]. apply Rle_Rpower; [change 1 with (bpow radix2 0); apply bpow_le; lia|lra].
      + change (bpow radix2 34) with 17179869184. change (bpow radix2 60) with 1152921504606846976.
        replace 17179869184 with (Rpower 2 34).
        2:{ replace 34 with (INR 34) by (rewrite INR_IZR_INZ; reflexivity). rewrite Rpower_pow by lra. rewrite pow_IZR. reflexivity. }
        rewrite Rpower_mult. replace 1152921504606846976 with (Rpower 2 60).
        * apply Rle_Rpower; lra.
        * replace 60 with (INR 60) by (rewrite INR_IZR_INZ; reflexivity). rewrite Rpower_pow by lra. rewrite pow_IZR. reflexivity. }
  assert (G : bpow radix2 60 <= bpow radix2 1000) by (apply bpow_le; lia). pose proof (bpow_ge_0 radix2 1000) as G0.
  destruct (near_b64_spec v) as (F & S0 & E); [destruct Hv; lra|]. unfold d_pow. fold e v.
  split; [exact F|]. split; [exact S0|]. rewrite E. destruct Hv as [->|Hv].
  - rewrite r64_id by apply generic_format_0. unfold rel. lra.
  - apply (rel_le U); [nra|apply r64_ge0; lra|lra|]. apply r64_rel. assert (bpow radix2 (-1000) <= bpow radix2 (-2)) by (apply bpow_le; lia).
    change (bpow radix2 (-2)) with (/ 4) in H. lra.
Qed.

(** The priority set, hypot and pow above, resolution 1/8, any neighbourhood. *)
Example C77_met eight :
  finds_within fifo_push (min_pop blt) (best_of blt) d_hypot eight 1 eighth (d_heur d_hypot HeuristicL1 eighth) (fun l => sqrt 2 * l) /\
  finds_within fifo_push (min_pop blt) (best_of blt) d_hypot eight 1 eighth (d_over d_hypot d_pow eighth)
    (fun l => if Rle_dec 1 l then Rpower l (12 / 10) else l).
Proof.
  split.
  - apply C77_taxi; [apply fifo_push_ok|apply min_pop_ok|apply min_pop_ieee|apply best_of_ok|apply best_of_some|lia|apply eighth_ordinary|apply d_hypot_accurate].
  - apply C77_over; [apply fifo_push_ok|apply min_pop_ok|apply min_pop_ieee|apply best_of_ok|apply best_of_some|lia|apply eighth_ordinary|apply d_hypot_accurate|apply d_pow_accurate].
Qed.

(** The path of AStar2dTaxi need not be a shortest one: start (5, 1), goal (0, 4), five diagonal
    steps would do. *)
Definition detour : gridmap := GridMap 6 5
  [255; 0; 0; 0; 0; 255;  0; 0; 255; 0; 255; 0;  255; 255; 0; 255; 255; 0;  0; 0; 0; 0; 255; 0;  0; 0; 255; 255; 0; 255]%Z 50 200 (-1).
Example C77_run : fst (findPath b64 bzero badd blt badd (d_cost 1 eighth) (d_heur d_hypot HeuristicL1 eighth) (fun c g => d_hypot (fst g - fst c) (snd g - snd c))
    fifo_push (min_pop blt) (best_of blt) true 1 200 (Opts b64 false (fun _ _ => false) (fun _ => false)) (new_sobj b64 bzero binf detour bzero) (5%Q, 1%Q) (0%Q, 4%Q))
  = FPath [(5, 1); (5, 2); (5, 3); (4, 4); (3, 3); (2, 3); (1, 4)]%Z.
Proof. vm_compute. reflexivity. Qed.
Theorem C77_taxi_shortest_refuted : exists m from to s g p q,
  fst (findPath b64 bzero badd blt badd (d_cost 1 eighth) (d_heur d_hypot HeuristicL1 eighth) (fun c g => d_hypot (fst g - fst c) (snd g - snd c))
    fifo_push (min_pop blt) (best_of blt) true 1 200 (Opts b64 false (fun _ _ => false) (fun _ => false)) (new_sobj b64 bzero binf m bzero) from to) = FPath p /\
  in_cell from s /\ in_cell to g /\ direct_path true 1 m s g q /\ path_length q < path_length p.
Proof.
  exists detour, (5%Q, 1%Q), (0%Q, 4%Q), (5, 1)%Z, (0, 4)%Z, [(5, 1); (5, 2); (5, 3); (4, 4); (3, 3); (2, 3); (1, 4)]%Z,
    [(5, 1); (4, 0); (3, 1); (2, 2); (1, 3); (0, 4)]%Z.
  split; [exact C77_run|]. split; [split; split; vm_compute; (reflexivity || discriminate)|].
  split; [split; split; vm_compute; (reflexivity || discriminate)|]. split.
  - split; [split; reflexivity|]. cbn [chain].
    repeat split; try (vm_compute; (reflexivity || discriminate || (split; (reflexivity || discriminate)))); try (cbn; lia); try congruence.
  - cbn [path_length]. unfold euclid. cbn [fst snd]. 
    repeat match goal with |- context [IZR (?a - ?b)] => let v := eval compute in (a - b)%Z in change (a - b)%Z with v end.
    replace ((1) ^ 2 + (1) ^ 2) with 2 by ring. replace ((1) ^ 2 + (-1) ^ 2) with 2 by ring. replace (0 ^ 2 + (-1) ^ 2) with 1 by ring.
    replace (1 ^ 2 + 0 ^ 2) with 1 by ring.
    rewrite sqrt_1. assert (sqrt 2 < 3 / 2); [|lra]. rewrite <- (sqrt_square (3 / 2)) by lra. apply sqrt_lt_1_alt. lra.
Qed.
