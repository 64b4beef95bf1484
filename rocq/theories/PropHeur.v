(** C32 (heuristics), C25 (step cost), C21 (optimality of findPath on a grid),
    exact arithmetic. *)
From Coq Require Import Reals Lra QArith Qreals.
From Verif Require Import Base GridMap GridMapProofs PathSpec GenericSearch GenericProofs RealSums GenericOpt OpenPolicies DirectSpec DirectSearch PropGeneric Heuristics.
Local Open Scope R_scope.

(** ** Specification: Euclidean lengths *)
Definition euclid (a b : Z * Z) : R := sqrt (IZR (fst a - fst b) ^ 2 + IZR (snd a - snd b) ^ 2).
Fixpoint path_length (l : list (Z * Z)) : R :=
  match l with
  | a :: ((b :: _) as r) => euclid a b + path_length r
  | _ => 0
  end.

(** ** Facts about the norms *)
Lemma hypot_tri a b c d : hypotR (a + c) (b + d) <= hypotR a b + hypotR c d.
Proof.
  unfold hypotR. set (x := a * a + b * b). set (y := c * c + d * d).
  assert (Hx : 0 <= x) by (unfold x; nra). assert (Hy : 0 <= y) by (unfold y; nra).
  pose proof (sqrt_pos x). pose proof (sqrt_pos y).
  rewrite <- (sqrt_square (sqrt x + sqrt y)) by lra. apply sqrt_le_1_alt.
  assert (Ex : sqrt x * sqrt x = x) by (apply sqrt_sqrt; exact Hx).
  assert (Ey : sqrt y * sqrt y = y) by (apply sqrt_sqrt; exact Hy).
  assert (Hc : a * c + b * d <= sqrt x * sqrt y).
  { rewrite <- sqrt_mult by assumption. apply Rle_trans with (Rabs (a * c + b * d)); [apply Rle_abs|].
    rewrite <- sqrt_Rsqr_abs. apply sqrt_le_1_alt. unfold Rsqr, x, y. pose proof (Rle_0_sqr (a * d - b * c)) as Hq. unfold Rsqr in Hq. nra. }
  unfold x, y in *. nra.
Qed.

Lemma euclid_hypot a b : euclid a b = hypotR (dxR a b) (dyR a b).
Proof. unfold euclid, hypotR, dxR, dyR. f_equal. ring. Qed.

Lemma abs_le_hypot x y : Rabs x <= hypotR x y /\ Rabs y <= hypotR x y.
Proof.
  unfold hypotR. split.
  - rewrite <- sqrt_Rsqr_abs. apply sqrt_le_1_alt. unfold Rsqr. nra.
  - rewrite <- sqrt_Rsqr_abs. apply sqrt_le_1_alt. unfold Rsqr. nra.
Qed.

(** C25: the cost of an offered step is the Euclidean length of the offset
    times the resolution. *)
Lemma step_euclid eight (D : Z) u v : (0 < D)%Z -> direct_step eight D u v ->
  rcost D 1 (negb ((fst u =? fst v) || (snd u =? snd v))) = euclid u v.
Proof.
  intros HD Hs. destruct u as [ux uy], v as [vx vy]. unfold direct_step in Hs. unfold rcost, euclid. cbn [fst snd] in *.
  assert (HDR : 0 < IZR D) by (apply IZR_lt; exact HD).
  assert (Hsq : forall z, (Z.abs z = D)%Z -> IZR z ^ 2 = IZR D * IZR D).
  { intros z Hz. replace (IZR z ^ 2) with (IZR (z * z)) by (rewrite mult_IZR; ring).
    rewrite <- mult_IZR. f_equal. rewrite <- (Z.abs_square z), Hz. reflexivity. }
  assert (H0 : forall z, (Z.abs z = 0)%Z -> IZR z ^ 2 = 0).
  { intros z Hz. assert (z = 0)%Z as -> by lia. cbn. ring. }
  assert (Hdx : (Z.abs (ux - vx) = 0 \/ Z.abs (ux - vx) = D)%Z) by (destruct eight; lia).
  assert (Hdy : (Z.abs (uy - vy) = 0 \/ Z.abs (uy - vy) = D)%Z) by (destruct eight; lia).
  destruct Hdx as [Hx|Hx], Hdy as [Hy|Hy].
  - exfalso. destruct eight; [|lia]. destruct Hs as (_ & _ & Hn). apply Hn. f_equal; lia.
  - rewrite (H0 _ Hx), (Hsq _ Hy). replace ((ux =? vx)%Z) with true by lia. cbn [orb negb].
    rewrite Rplus_0_l, sqrt_square by lra. ring.
  - rewrite (H0 _ Hy), (Hsq _ Hx). replace ((uy =? vy)%Z) with true by lia. rewrite orb_true_r. cbn [negb].
    rewrite Rplus_0_r, sqrt_square by lra. ring.
  - rewrite (Hsq _ Hx), (Hsq _ Hy). replace ((ux =? vx)%Z) with false by lia. replace ((uy =? vy)%Z) with false by lia. cbn [orb negb].
    replace (IZR D * IZR D + IZR D * IZR D) with (2 * (IZR D * IZR D)) by ring.
    rewrite sqrt_mult by nra. rewrite sqrt_square by lra. ring.
Qed.

Theorem C25_delta_euclid eight D m u v d : gm_wf m -> (0 < D)%Z ->
  In (v, d) (offered eight D m u) -> forall res, rcost D res d = res * euclid u v.
Proof.
  intros Hwf HD H res. apply C25_offered in H as (Hs & _ & ->); [|assumption|assumption].
  rewrite <- (step_euclid eight D u v HD Hs). unfold rcost. ring.
Qed.

(** Which norms go with which neighbourhood. *)
Definition norm_fits (eight : bool) (n : norm) : Prop := match n with HeuristicL1 => eight = false | _ => True end.

Lemma euclid_ge_max u v : Rmax (Rabs (dxR u v)) (Rabs (dyR u v)) <= euclid u v.
Proof. rewrite euclid_hypot. destruct (abs_le_hypot (dxR u v) (dyR u v)). apply Rmax_lub; assumption. Qed.

Lemma dR_add u v g : dxR u g = dxR u v + dxR v g /\ dyR u g = dyR u v + dyR v g.
Proof. unfold dxR, dyR. rewrite <- !plus_IZR. split; f_equal; lia. Qed.

(** C32, consistency: along a step the heuristic drops by at most the step's cost. *)
Theorem C32_consistent eight D n res u v g : 0 <= res -> (0 < D)%Z -> norm_fits eight n -> direct_step eight D u v ->
  hcompute n res u g <= res * euclid u v + hcompute n res v g.
Proof.
  intros Hr HD Hf Hs. assert (He : 0 <= euclid u v) by apply sqrt_pos.
  assert (Hscale : forall a b c, a <= b + c -> res * a <= res * b + res * c) by (intros; nra).
  destruct (dR_add u v g) as [Ex Ey]. destruct n; cbn [hcompute].
  - nra.
  - apply Hscale. rewrite Ex, Ey, euclid_hypot. apply hypot_tri.
  - apply Hscale. cbn [norm_fits] in Hf. subst eight.
    assert (Hm : Rabs (dxR u v) + Rabs (dyR u v) <= euclid u v).
    { unfold direct_step in Hs. unfold euclid, dxR, dyR. destruct Hs as [[A B]|[A B]].
      - assert ((snd u - snd v)%Z = 0%Z) as -> by lia. rewrite Rabs_R0. rewrite <- Rsqr_pow2, <- Rsqr_pow2. rewrite Rsqr_0, !Rplus_0_r, sqrt_Rsqr_abs. lra.
      - assert ((fst u - fst v)%Z = 0%Z) as -> by lia. rewrite Rabs_R0. rewrite <- Rsqr_pow2, <- Rsqr_pow2. rewrite Rsqr_0, !Rplus_0_l, sqrt_Rsqr_abs. lra. }
    rewrite Ex, Ey. pose proof (Rabs_triang (dxR u v) (dxR v g)). pose proof (Rabs_triang (dyR u v) (dyR v g)). lra.
  - apply Hscale. pose proof (euclid_ge_max u v) as Hm. rewrite Ex, Ey.
    pose proof (Rabs_triang (dxR u v) (dxR v g)). pose proof (Rabs_triang (dyR u v) (dyR v g)).
    pose proof (Rmax_l (Rabs (dxR u v)) (Rabs (dyR u v))). pose proof (Rmax_r (Rabs (dxR u v)) (Rabs (dyR u v))).
    pose proof (Rmax_l (Rabs (dxR v g)) (Rabs (dyR v g))). pose proof (Rmax_r (Rabs (dxR v g)) (Rabs (dyR v g))).
    apply Rmax_lub; lra.
Qed.

Lemma h_goal n res g : hcompute n res g g = 0.
Proof.
  assert (dxR g g = 0 /\ dyR g g = 0) as [Ex Ey] by (unfold dxR, dyR; rewrite !Z.sub_diag; split; reflexivity).
  destruct n; cbn [hcompute]; rewrite ?Ex, ?Ey; [reflexivity| | |].
  - unfold hypotR. rewrite Rmult_0_l, Rplus_0_l, sqrt_0. ring.
  - rewrite Rabs_R0. ring.
  - rewrite Rabs_R0. rewrite Rmax_left by lra. ring.
Qed.

Lemma last_any {A} (l : list A) d d' : l <> [] -> last l d = last l d'.
Proof. induction l as [|a [|b l] IH]; intros H; [congruence|reflexivity|]. apply IH. discriminate. Qed.

(** C32, along a whole path of neighbourhood steps; in particular (t = g) the
    heuristic never exceeds the cost of a path to the goal. *)
Theorem C32_path_bound eight D n res s t g p : 0 <= res -> (0 < D)%Z -> norm_fits eight n ->
  from_to s t p -> chain (direct_step eight D) p ->
  hcompute n res s g <= res * path_length p + hcompute n res t g.
Proof.
  intros Hr HD Hf [H1 H2] Hc. revert s H1 H2. induction p as [|a [|b p] IH]; intros s H1 H2; [discriminate| |].
  - injection H1 as ->. cbn [last] in H2. subst t. cbn [path_length]. lra.
  - injection H1 as ->. destruct Hc as [Hs Hc]. specialize (IH Hc b eq_refl).
    assert (Hl : last (b :: p) b = t).
    { rewrite <- H2. apply (last_any (b :: p) b s). discriminate. }
    specialize (IH Hl). pose proof (C32_consistent eight D n res s b g Hr HD Hf Hs).
    change (path_length (s :: b :: p)) with (euclid s b + path_length (b :: p)). lra.
Qed.
Theorem C32_admissible eight D n res s g p : 0 <= res -> (0 < D)%Z -> norm_fits eight n ->
  from_to s g p -> chain (direct_step eight D) p -> hcompute n res s g <= res * path_length p.
Proof.
  intros Hr HD Hf Hp Hc. pose proof (C32_path_bound eight D n res s g g p Hr HD Hf Hp Hc) as H. rewrite h_goal in H. lra.
Qed.
(** The three norms are what their names say, and are ordered: LInf <= L2 <= L1 <=
    2 LInf (so none of them degenerates). *)
Theorem C32_norms res (u g : cell) : 0 <= res ->
  hcompute HeuristicL2 res u g = res * euclid u g /\
  hcompute HeuristicL1 res u g = res * IZR (Z.abs (fst u - fst g) + Z.abs (snd u - snd g)) /\
  hcompute HeuristicLInf res u g = res * IZR (Z.max (Z.abs (fst u - fst g)) (Z.abs (snd u - snd g))) /\
  hcompute HeuristicLInf res u g <= hcompute HeuristicL2 res u g <= hcompute HeuristicL1 res u g /\
  hcompute HeuristicL1 res u g <= 2 * hcompute HeuristicLInf res u g.
Proof.
  intros Hr. cbn [hcompute]. rewrite euclid_hypot. unfold dxR, dyR.
  set (a := (fst u - fst g)%Z). set (b := (snd u - snd g)%Z).
  assert (Hm : Rmax (Rabs (IZR a)) (Rabs (IZR b)) = IZR (Z.max (Z.abs a) (Z.abs b))).
  { rewrite <- !abs_IZR. destruct (Z.max_spec (Z.abs a) (Z.abs b)) as [[H ->]|[H ->]].
    - apply Rmax_right. apply IZR_le. lia.
    - apply Rmax_left. apply IZR_le. lia. }
  split; [reflexivity|]. split; [rewrite plus_IZR, !abs_IZR; reflexivity|]. split; [rewrite Hm; reflexivity|].
  destruct (abs_le_hypot (IZR a) (IZR b)) as [H1 H2].
  assert (Hl : Rmax (Rabs (IZR a)) (Rabs (IZR b)) <= hypotR (IZR a) (IZR b)) by (apply Rmax_lub; assumption).
  assert (Hu : hypotR (IZR a) (IZR b) <= Rabs (IZR a) + Rabs (IZR b)).
  { pose proof (Rabs_pos (IZR a)). pose proof (Rabs_pos (IZR b)). unfold hypotR.
    rewrite <- (sqrt_square (Rabs (IZR a) + Rabs (IZR b))) by lra. apply sqrt_le_1_alt.
    pose proof (Rsqr_abs (IZR a)) as E1. pose proof (Rsqr_abs (IZR b)) as E2. unfold Rsqr in *. nra. }
  assert (H3 : Rabs (IZR a) + Rabs (IZR b) <= 2 * Rmax (Rabs (IZR a)) (Rabs (IZR b))).
  { pose proof (Rmax_l (Rabs (IZR a)) (Rabs (IZR b))). pose proof (Rmax_r (Rabs (IZR a)) (Rabs (IZR b))). lra. }
  split; [split; apply Rmult_le_compat_l; assumption|].
  replace (2 * (res * Rmax (Rabs (IZR a)) (Rabs (IZR b)))) with (res * (2 * Rmax (Rabs (IZR a)) (Rabs (IZR b)))) by ring.
  apply Rmult_le_compat_l; assumption.
Qed.

Theorem C32_nonneg n res u g : 0 <= res -> 0 <= hcompute n res u g.
Proof.
  intros Hr. destruct n; cbn [hcompute]; [lra| | |]; apply Rmult_le_pos; try assumption.
  - apply sqrt_pos.
  - pose proof (Rabs_pos (dxR u g)). pose proof (Rabs_pos (dyR u g)). lra.
  - eapply Rle_trans; [apply Rabs_pos|apply Rmax_l].
Qed.
(** MaxHeuristic (Heuristics.hpp:585-592): the maximum of two heuristics that
    drop by at most c along a step (resp. are at most c) does so, too. *)
Theorem C32_max (h1 h2 : cell -> cell -> R) u v g c :
  (h1 u g <= c + h1 v g -> h2 u g <= c + h2 v g -> Rmax (h2 u g) (h1 u g) <= c + Rmax (h2 v g) (h1 v g)) /\
  (h1 u g <= c -> h2 u g <= c -> Rmax (h2 u g) (h1 u g) <= c).
Proof.
  split; intros A B; apply Rmax_lub; try assumption.
  - pose proof (Rmax_l (h2 v g) (h1 v g)). lra.
  - pose proof (Rmax_r (h2 v g) (h1 v g)). lra.
Qed.

(** L1 overestimates diagonal moves; the "over estimate" heuristic overestimates. *)
Theorem C32_L1_eight_refuted : exists s g p,
  from_to s g p /\ chain (direct_step true 1) p /\ 1 * path_length p < hcompute HeuristicL1 1 s g.
Proof.
  exists (0, 0)%Z, (1, 1)%Z, [(0, 0); (1, 1)]%Z. split; [split; reflexivity|].
  split; [split; [|exact I]; unfold direct_step; cbn; repeat split; try lia; congruence|].
  cbn [path_length hcompute]. unfold euclid, dxR, dyR. cbn [fst snd]. change (0 - 1)%Z with (-1)%Z.
  rewrite Rabs_left by lra. assert (sqrt ((-1) ^ 2 + (-1) ^ 2) < 2); [|lra].
  rewrite <- (sqrt_square 2) by lra. apply sqrt_lt_1_alt. lra.
Qed.
Theorem C32_L2_over_refuted : exists s g p,
  from_to s g p /\ chain (direct_step true 1) p /\ 1 * path_length p < hL2Over 1 s g.
Proof.
  exists (0, 0)%Z, (2, 0)%Z, [(0, 0); (1, 0); (2, 0)]%Z. split; [split; reflexivity|].
  split; [split; [|split; [|exact I]]; unfold direct_step; cbn; repeat split; try lia; congruence|].
  cbn [path_length]. unfold euclid, hL2Over, powR, hypotR, dxR, dyR. cbn [fst snd].
  change (0 - 1)%Z with (-1)%Z. change (0 - 2)%Z with (-2)%Z. change (0 - 0)%Z with 0%Z. change (1 - 2)%Z with (-1)%Z.
  replace ((-1) ^ 2 + 0 ^ 2) with (1 * 1) by ring. rewrite sqrt_square by lra.
  replace (-2 * -2 + 0 * 0) with (2 * 2) by ring. rewrite sqrt_square by lra. destruct (Req_EM_T 2 0) as [Hz|_]; [lra|].
  assert (H : Rpower 2 1 < Rpower 2 (12 / 10)) by (apply Rpower_lt; lra). rewrite Rpower_1 in H by lra. lra.
Qed.

(** ** C21 *)
Section Opt.
  Variable push : (cell -> R) -> cell -> list cell -> list cell.
  Variable pop : (cell -> R) -> list cell -> option (cell * list cell).
  Variable best : list (cell * R) -> option cell.
  Variable hyp : cell -> cell -> R.
  Variable inf : R.
  Variable eight : bool.
  Variable D : Z.
  Variable n : norm.
  Variable res : R.
  Hypothesis Hpush : push_ok push.
  Hypothesis Hpop : pop_ok pop.
  (** PriorityQueueManager hands out a node of least total cost. *)
  Hypothesis Hmin : forall f l v r, pop f l = Some (v, r) -> forall w, In w l -> f v <= f w.
  Hypothesis Hbest : best_ok best.
  Hypothesis Hbs : forall l, best l = None -> l = [].
  Hypothesis HD : (0 < D)%Z.
  Hypothesis Hres : 0 <= res.
  Hypothesis Hfit : norm_fits eight n.

  Notation findPath := (findPath R 0 Rplus Rltb Rplus (rcost D res) (hcompute n res) hyp push pop best eight D).
  Notation new_sobj := (new_sobj R 0 inf).
  Notation nbrs := (nbrs R (rcost D res) eight D).

  Lemma nbrs_iff m u v c : gm_wf m ->
    In (v, c) (nbrs m u) <-> direct_step eight D u v /\ map_free m v /\ c = res * euclid u v.
  Proof using HD.
    intros Hwf. unfold DirectSearch.nbrs. rewrite in_map_iff. split.
    - intros ([w d] & E & H). cbn [fst snd] in E. injection E as -> <-.
      rewrite (C25_delta_euclid eight D m u v d Hwf HD H). apply C25_offered in H as (A & B & _); auto.
    - intros (A & B & ->). exists (v, negb ((fst u =? fst v)%Z || (snd u =? snd v)%Z)). split.
      + cbn [fst snd]. f_equal. rewrite <- (step_euclid eight D u v HD A). unfold rcost. ring.
      + apply C25_offered; auto.
  Qed.

  Lemma costs_length m p x : gm_wf m -> costs (nbrs m) p x ->
    x = res * path_length p /\ chain (fun a b => direct_step eight D a b /\ map_free m b) p.
  Proof using HD.
    intros Hwf H. induction H as [v|u v c p x Hin _ IH]; [split; [cbn; ring|exact I]|].
    apply nbrs_iff in Hin as (A & B & ->); [|exact Hwf]. destruct IH as [-> IH]. split; [|split; [split; assumption|exact IH]].
    change (path_length (u :: v :: p)) with (euclid u v + path_length (v :: p)). ring.
  Qed.
  Lemma length_costs m p : gm_wf m -> p <> [] -> chain (fun a b => direct_step eight D a b /\ map_free m b) p ->
    costs (nbrs m) p (res * path_length p).
  Proof using HD.
    intros Hwf Hne H. induction p as [|u [|v p] IH]; [congruence| |].
    - cbn [path_length]. rewrite Rmult_0_r. constructor.
    - destruct H as [[A B] H]. change (path_length (u :: v :: p)) with (euclid u v + path_length (v :: p)).
      rewrite Rmult_plus_distr_l. constructor; [apply nbrs_iff; auto|]. apply IH; [discriminate|exact H].
  Qed.
  Lemma chain_weaken {A} (P Q : A -> A -> Prop) : (forall a b, P a b -> Q a b) -> forall l, chain P l -> chain Q l.
  Proof using Type. intros H l. induction l as [|a [|b l] IH]; intros Hc; [exact I|exact I|]. destruct Hc as [Hab Hc]. split; [auto|]. apply IH. exact Hc. Qed.

  (** On a new object without time limit or oversearch: a path is found iff there
      is one, and its length plus the heuristic value where it ends is least
      among all paths to cells within the goal tolerance. *)
  Theorem C21_optimal op m first from to s g :
    gm_wf m -> op_cand R op = false -> (forall k, op_timeout R op k = false) ->
    in_cell from s -> in_cell to g ->
    cell_of (gm_w m) (gm_h m) (fst s) (snd s) -> cell_of (gm_w m) (gm_h m) (fst g) (snd g) ->
    ~ map_occupied m s -> ~ map_occupied m g ->
    exists fuel p o', findPath fuel op (new_sobj m first) from to = (FPath p, o') /\
      (p = [] <-> ~ exists t q, near D g t /\ direct_path eight D m s t q) /\
      (p <> [] -> exists t, near D g t /\ direct_path eight D m s t p /\
         forall t' q, near D g t' -> direct_path eight D m s t' q ->
           res * path_length p + hcompute n res t g <= res * path_length q + hcompute n res t' g).
  Proof using Hpush Hpop Hmin Hbest Hbs HD Hres Hfit.
    intros Hwf Hcand Hto Hs Hg Cs Cg Os Og.
    assert (Eos : is_occ_cell m s = false).
    { destruct (is_occ_cell m s) eqn:E; [|reflexivity]. apply is_occ_cell_spec in E. destruct Os. split; assumption. }
    assert (Eog : is_occ_cell m g = false).
    { destruct (is_occ_cell m g) eqn:E; [|reflexivity]. apply is_occ_cell_spec in E. destruct Og. split; assumption. }
    assert (Hall : forall u v c, In u (all_cells m) -> In (v, c) (nbrs m u) -> In v (all_cells m)).
    { intros u v c _ Hin. apply nbrs_iff in Hin as (_ & [Hc _] & _); [|assumption]. apply all_cells_spec. exact Hc. }
    assert (Hpos : forall u v c, In (v, c) (nbrs m u) -> 0 <= c).
    { intros u v c Hin. apply nbrs_iff in Hin as (_ & _ & ->); [|assumption]. apply Rmult_le_pos; [exact Hres|apply sqrt_pos]. }
    destruct (run_optimal ceqb ceqb_spec (all_cells m) inf (nbrs m) (goal_val R 0 (hcompute n res) (Some g)) push pop Hpush Hpop Hmin s
      (goal_test D (Some g)) (op_over R op) (goal_val R 0 hyp (Some g)) best Hbest Hbs Hall ltac:(apply all_cells_spec; exact Cs) Hpos
      ltac:(intros v; apply C32_nonneg; exact Hres)) with (first := first) as (fuel & p & s' & Er & Hp & Ho).
    { intros p y v t Hc H1 H2 _. cbn [goal_val]. apply costs_length in Hc as [-> Hc]; [|exact Hwf].
      apply (C32_path_bound eight D n res v t g p Hres HD Hfit); [split; assumption|].
      eapply chain_weaken; [|exact Hc]. intros a b [A _]. exact A. }
    assert (Eto : forall fu st, run cell R ceqb (all_cells m) 0 Rplus Rltb Rplus (nbrs m) (goal_val R 0 (hcompute n res) (Some g)) push pop
                       [s] (goal_test D (Some g)) true false (op_over R op) (goal_val R 0 hyp (Some g)) best (op_timeout R op) fu st first
                = run cell R ceqb (all_cells m) 0 Rplus Rltb Rplus (nbrs m) (goal_val R 0 (hcompute n res) (Some g)) push pop
                       [s] (goal_test D (Some g)) true false (op_over R op) (goal_val R 0 hyp (Some g)) best (fun _ => false) fu st first).
    { intros fu st. unfold run. generalize 0%nat. generalize (init_search cell R ceqb 0 Rplus push [s] st first). clear - Hto.
      induction fu as [|k IH]; intros s0 i; cbn [loop]; [reflexivity|]. destruct (s_open _ _ s0); [reflexivity|]. rewrite Hto.
      destruct (pop _ _) as [[cur o]|]; [|reflexivity]. destruct (_ && negb false); [reflexivity|]. cbn [andb].
      destruct (process_all _ _ _ _ _ _ _ _ _ _ _ _) as [s3|]; [apply IH|reflexivity]. }
    exists fuel, p. eexists. split.
    { unfold DirectSearch.findPath. cbn [ob_map ob_info ob_first DirectSearch.new_sobj].
      rewrite (lookup_of_cell m from s Hwf Hs Cs), (lookup_of_cell m to g Hwf Hg Cg), Eos, Eog. cbv zeta. cbn [somes].
      rewrite Hcand, Eto, Er. cbn [fst snd to_fres]. reflexivity. }
    split.
    - rewrite Hp. split; intros H H'; apply H.
      + destruct H' as (t & q & Hn & [[A B] Ch]). exists q, s, t. split; [exact A|]. split; [left; reflexivity|].
        split; [|split; [exact B|apply C25_isGoal; exact Hn]].
        eapply chain_weaken; [|exact Ch]. intros a b [Ha Hb]. exists (res * euclid a b). apply nbrs_iff; auto.
      + destruct H' as (q & st & t & A & [<-|[]] & Ch & L & G). exists t, q. split; [apply C25_isGoal; exact G|].
        split; [split; assumption|]. eapply chain_weaken; [|exact Ch]. intros a b [c Hab]. apply nbrs_iff in Hab as (A1 & A2 & _); auto.
    - intros Hne. destruct (Ho Hne) as (t & x & L & G & Hd & Hc & Hopt). exists t. split; [apply C25_isGoal; exact G|].
      apply costs_length in Hc as [-> Hch]; [|exact Hwf]. split; [split; [split; assumption|exact Hch]|].
      intros t' q Hn [[A B] Ch]. apply (Hopt q (res * path_length q) t'); [|exact A|exact B|apply C25_isGoal; exact Hn].
      apply length_costs; [exact Hwf| |exact Ch]. intros ->. discriminate.
  Qed.

  (** Corollaries in the user's words: Dijkstra returns a shortest path to the
      goal region; A* one that is no longer than any path to the goal cell, and
      longer than the best one to the region by at most the heuristic's value
      over the tolerance. *)
  Theorem C21_dijkstra_shortest op m first from to s g :
    n = NoHeuristic -> gm_wf m -> op_cand R op = false -> (forall k, op_timeout R op k = false) ->
    in_cell from s -> in_cell to g ->
    cell_of (gm_w m) (gm_h m) (fst s) (snd s) -> cell_of (gm_w m) (gm_h m) (fst g) (snd g) ->
    ~ map_occupied m s -> ~ map_occupied m g ->
    exists fuel p o', findPath fuel op (new_sobj m first) from to = (FPath p, o') /\
      (p = [] <-> ~ exists t q, near D g t /\ direct_path eight D m s t q) /\
      (p <> [] -> exists t, near D g t /\ direct_path eight D m s t p /\
         forall t' q, near D g t' -> direct_path eight D m s t' q -> res * path_length p <= res * path_length q).
  Proof using Hpush Hpop Hmin Hbest Hbs HD Hres Hfit.
    intros Hn Hwf Hcand Hto Hs Hg Cs Cg Os Og.
    destruct (C21_optimal op m first from to s g Hwf Hcand Hto Hs Hg Cs Cg Os Og) as (fuel & p & o' & E & Hp & Ho).
    exists fuel, p, o'. split; [exact E|]. split; [exact Hp|]. intros Hne. destruct (Ho Hne) as (t & A & B & F).
    exists t. split; [exact A|]. split; [exact B|]. intros t' q H1 H2. specialize (F t' q H1 H2). subst n. cbn [hcompute] in F. lra.
  Qed.
  Theorem C21_astar_goal_cell op m first from to s g q :
    gm_wf m -> op_cand R op = false -> (forall k, op_timeout R op k = false) ->
    in_cell from s -> in_cell to g ->
    cell_of (gm_w m) (gm_h m) (fst s) (snd s) -> cell_of (gm_w m) (gm_h m) (fst g) (snd g) ->
    ~ map_occupied m s -> ~ map_occupied m g -> direct_path eight D m s g q ->
    exists fuel p o', findPath fuel op (new_sobj m first) from to = (FPath p, o') /\ p <> [] /\
      res * path_length p <= res * path_length q.
  Proof using Hpush Hpop Hmin Hbest Hbs HD Hres Hfit.
    intros Hwf Hcand Hto Hs Hg Cs Cg Os Og Hq.
    destruct (C21_optimal op m first from to s g Hwf Hcand Hto Hs Hg Cs Cg Os Og) as (fuel & p & o' & E & Hp & Ho).
    assert (Hnear : near D g g) by (unfold near; rewrite !Z.sub_diag; cbn; lia).
    assert (Hne : p <> []).
    { intros H. apply Hp in H. apply H. exists g, q. split; assumption. }
    exists fuel, p, o'. split; [exact E|]. split; [exact Hne|]. destruct (Ho Hne) as (t & A & B & F).
    specialize (F g q Hnear Hq). rewrite h_goal in F. pose proof (C32_nonneg n res t g Hres). lra.
  Qed.
End Opt.
Print Assumptions C21_optimal.
Print Assumptions C32_path_bound.

(** The hypotheses are met: the priority queue of OpenPolicies over the reals. *)
Lemma real_policy : push_ok (V := cell) (C := R) fifo_push /\ pop_ok (V := cell) (min_pop Rltb) /\
  (forall f l (v : cell) r, min_pop Rltb f l = Some (v, r) -> forall w, In w l -> f v <= f w) /\
  best_ok (V := cell) (best_of Rltb) /\ (forall l : list (cell * R), best_of Rltb l = None -> l = []).
Proof.
  split; [apply fifo_push_ok|]. split; [apply min_pop_ok|]. split; [|split; [apply best_of_ok|apply best_of_some]].
  intros f l v r H w Hw. apply Rltb_false. eapply (min_pop_min Rltb); [| | |exact H|exact Hw].
  - intros a. apply Rltb_false. lra.
  - intros a b c H1 H2. apply Rltb_false in H1, H2. apply Rltb_false. lra.
  - intros a b H1. apply Rltb_true in H1. apply Rltb_false. lra.
Qed.
Example C21_example : exists fuel p o',
  findPath R 0 Rplus Rltb Rplus (rcost 1 1) (hcompute HeuristicL2 1) (fun _ _ => 0) fifo_push (min_pop Rltb) (best_of Rltb) true 1
    fuel (Opts R false (fun _ _ => false) (fun _ => false)) (new_sobj R 0 0 (gm_new 4 1) 0) (0%Q, 0%Q) (3%Q, 0%Q) = (FPath p, o') /\
  p <> [] /\ 1 * path_length p <= 1 * path_length [(0, 0); (1, 0); (2, 0); (3, 0)]%Z.
Proof.
  destruct real_policy as (A & B & M & E & F).
  apply (C21_astar_goal_cell fifo_push (min_pop Rltb) (best_of Rltb) (fun _ _ => 0) 0 true 1 HeuristicL2 1 A B M E F
    ltac:(lia) ltac:(lra) I (Opts R false (fun _ _ => false) (fun _ => false)) (gm_new 4 1) 0 (0%Q, 0%Q) (3%Q, 0%Q) (0, 0)%Z (3, 0)%Z).
  - vm_compute. repeat split; discriminate || reflexivity.
  - reflexivity.
  - reflexivity.
  - split; split; vm_compute; (reflexivity || discriminate).
  - split; split; vm_compute; (reflexivity || discriminate).
  - vm_compute. repeat split; discriminate || reflexivity.
  - vm_compute. repeat split; discriminate || reflexivity.
  - intros [_ H]. vm_compute in H. discriminate.
  - intros [_ H]. vm_compute in H. discriminate.
  - split; [split; reflexivity|].
    assert (Hf : forall x, (0 <= x < 4)%Z -> map_free (gm_new 4 1) (x, 0%Z)).
    { intros x Hx. assert (x = 0 \/ x = 1 \/ x = 2 \/ x = 3)%Z as [->|[->|[->| ->]]] by lia;
        (split; [vm_compute; repeat split; discriminate || reflexivity|vm_compute; reflexivity]). }
    cbn [chain]. repeat split; try (apply Hf; lia); cbn; try lia; congruence.
Qed.
