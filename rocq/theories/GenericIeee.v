(** C21 with the arithmetic of the hardware: costs, heuristics and sums in IEEE-754
    binary64 (Flocq). *)
From Coq Require Import Reals Lra QArith.
From Flocq Require Import Core BinarySingleNaN Relative Plus_error.
From Verif Require Import Base GridMap PathSpec GenericSearch GenericProofs OpenPolicies DirectSpec DirectSearch PropGeneric.
From Verif Require Import AStarFloat AStarIeee GenericFloat Heuristics PropHeur GenericRound.
Local Open Scope R_scope.

(** ** The code's expressions in binary64 *)
(** DirectNeighborhood.hpp:130-131: M_SQRT2 * DISTANCE and DISTANCE. *)
Definition d_delta (D : Z) (diag : bool) : b64 := if diag then bmul (dsqrt (d_of_Z 2)) (d_of_Z D) else d_of_Z D.
(** SearchAlgorithm.hpp:632-633: delta * res. *)
Definition d_cost (D : Z) (res : b64) (diag : bool) : b64 := bmul (d_delta D diag) res.
(** Heuristics.hpp:167-282; [hyp]: the library's hypot of two integers. *)
Definition d_heur (hyp : Z -> Z -> b64) (n : norm) (res : b64) (c g : cell) : b64 :=
  match n with
  | NoHeuristic => bzero
  | HeuristicL2 => bmul res (hyp (fst c - fst g) (snd c - snd g))%Z
  | HeuristicL1 => bmul res (d_of_Z (Z.abs (fst c - fst g) + Z.abs (snd c - snd g)))
  | HeuristicLInf => bmul res (d_of_Z (Z.max (Z.abs (fst c - fst g)) (Z.abs (snd c - snd g))))
  end.

(** ** Relative errors *)
Definition U : R := 1 + bpow radix2 (-52).
Definition rel (h x y : R) : Prop := x <= y * h /\ y <= x * h.
Lemma U1 : 1 <= U. Proof. unfold U. pose proof (bpow_gt_0 radix2 (-52)). lra. Qed.
Lemma rel_refl h x : 1 <= h -> 0 <= x -> rel h x x.
Proof. unfold rel. intros. split; nra. Qed.
Lemma rel_trans a b x y z : 1 <= a -> 1 <= b -> rel a x y -> rel b y z -> rel (a * b) x z.
Proof.
  intros Ha Hb [A B] [A' B']. split.
  - eapply Rle_trans; [exact A|]. replace (z * (a * b)) with (z * b * a) by ring. apply Rmult_le_compat_r; lra.
  - eapply Rle_trans; [exact B'|]. replace (x * (a * b)) with (x * a * b) by ring. apply Rmult_le_compat_r; lra.
Qed.
Lemma rel_mul h x y c : 0 <= c -> rel h x y -> rel h (x * c) (y * c).
Proof.
  intros Hc [A B]. split; [replace (y * c * h) with (y * h * c) by ring|replace (x * c * h) with (x * h * c) by ring]; apply Rmult_le_compat_r; assumption.
Qed.
Lemma rel_add h x y a : 1 <= h -> 0 <= a -> rel h x y -> rel h (a + x) (a + y).
Proof. unfold rel. intros. nra. Qed.
Lemma rel_le h h' x y : h <= h' -> 0 <= x -> 0 <= y -> rel h x y -> rel h' x y.
Proof. unfold rel. intros. nra. Qed.

Lemma rel_of_eps r x : 0 <= x -> Rabs (r - x) <= bpow radix2 (-53) * x -> rel U r x.
Proof.
  intros Hx H. apply Rabs_le_inv in H. unfold rel, U.
  assert (E : bpow radix2 (-52) = 2 * bpow radix2 (-53)) by (change (-52)%Z with (1 + -53)%Z; rewrite bpow_plus; reflexivity).
  assert (P : 0 < bpow radix2 (-53)) by apply bpow_gt_0.
  assert (S : bpow radix2 (-53) <= / 4) by (change (/ 4) with (bpow radix2 (-2)); apply bpow_le; lia).
  rewrite E. set (u := bpow radix2 (-53)) in *. split; [nra|].
  assert (x * (1 - u) * (1 + 2 * u) <= r * (1 + 2 * u)) by (apply Rmult_le_compat_r; lra).
  assert (x <= x * (1 - u) * (1 + 2 * u)); [|lra].
  replace (x * (1 - u) * (1 + 2 * u)) with (x + x * (u * (1 - 2 * u))) by ring.
  assert (0 <= x * (u * (1 - 2 * u))); [|lra]. apply Rmult_le_pos; [exact Hx|]. apply Rmult_le_pos; lra.
Qed.
Lemma u64 : / 2 * bpow radix2 (- (53) + 1) = bpow radix2 (-53).
Proof. change (/ 2) with (bpow radix2 (-1)). rewrite <- bpow_plus. reflexivity. Qed.
Lemma r64_rel x : bpow radix2 (-1000) <= x -> rel U (r64 x) x.
Proof.
  intros H. pose proof (bpow_gt_0 radix2 (-1000)). apply rel_of_eps; [lra|].
  assert (H' : bpow radix2 (-1074 + 53 - 1) <= Rabs x).
  { rewrite Rabs_pos_eq by lra. eapply Rle_trans; [|exact H]. apply bpow_le. lia. }
  pose proof (relative_error_N_FLT radix2 (-1074) 53 ltac:(lia) (fun z => negb (Z.even z)) x H') as E.
  rewrite u64, (Rabs_pos_eq x) in E by lra. exact E.
Qed.
Lemma r64_sum_rel x y : F64 x -> F64 y -> 0 <= x -> 0 <= y -> rel U (r64 (x + y)) (x + y).
Proof.
  intros Fx Fy Hx Hy. destruct (@FLT_plus_error_N_ex radix2 (-1074) 53 p64 (fun z => negb (Z.even z)) x y Fx Fy) as (e & He & Er).
  apply rel_of_eps; [lra|]. change (ZnearestE) with (Znearest (fun z => negb (Z.even z))). rewrite Er.
  replace ((x + y) * (1 + e) - (x + y)) with (e * (x + y)) by ring. rewrite Rabs_mult, (Rabs_pos_eq (x + y)) by lra.
  apply Rmult_le_compat_r; [lra|]. eapply Rle_trans; [exact He|].
  assert (EU : u_ro radix2 53 = bpow radix2 (-53)) by (unfold u_ro; apply u64). rewrite EU.
  assert (P : 0 < bpow radix2 (-53)) by apply bpow_gt_0. apply Rmult_le_reg_r with (1 + bpow radix2 (-53)); [lra|].
  unfold Rdiv. rewrite Rmult_assoc, Rinv_l by lra. nra.
Qed.

(** Sums of non-negative costs, infinity included, with a second summand that is not huge. *)
Definition small (x : b64) : Prop := nonneg x /\ key x <= bpow radix2 960.
Lemma small_fin x : small x -> is_finite x = true.
Proof.
  intros [[N S] K]. destruct x as [s|s| |s m e B]; try discriminate; try reflexivity. cbn [key] in K.
  assert (bpow radix2 960 < bpow radix2 1024) by (apply bpow_lt; lia). lra.
Qed.
Lemma badd_rel x y : nonneg x -> small y -> rel U (key (badd x y)) (key x + key y).
Proof.
  intros Hx Sy. pose proof (small_fin y Sy) as Fy. destruct Sy as [Hy Ky]. pose proof (key_range x Hx) as Rx. pose proof (key_range y Hy) as Ry.
  pose proof U1. assert (P52 : bpow radix2 1024 * U = bpow radix2 1024 + bpow radix2 972).
  { unfold U. rewrite Rmult_plus_distr_l, Rmult_1_r, <- bpow_plus. reflexivity. }
  assert (G : bpow radix2 960 <= bpow radix2 972) by (apply bpow_le; lia).
  destruct (is_finite x) eqn:Fx.
  - pose proof (@Bplus_correct 53 1024 prec_gt0 prec_lt mode_NE x y Fx Fy) as C. fold (badd x y) in C.
    pose proof (r64_sum_rel (B2R x) (B2R y) (generic_format_B2R 53 1024 x) (generic_format_B2R 53 1024 y)) as E.
    rewrite (key_finite x Fx) in *. rewrite (key_finite y Fy) in *. specialize (E ltac:(lra) ltac:(lra)).
    change (round radix2 _ _ _) with (r64 (B2R x + B2R y)) in C. revert C. case Rlt_bool_spec; intros Hov C.
    + destruct C as (C1 & C2 & _). rewrite key_finite, C1 by assumption. exact E.
    + destruct C as [C _]. destruct Hx as [_ Sx]. rewrite Sx in C. cbn in C.
      assert (EB : key (badd x y) = bpow radix2 1024) by (destruct (badd x y) as [s|s| |s m e P]; try discriminate; reflexivity).
      rewrite EB. rewrite Rabs_pos_eq in Hov by (apply r64_ge0; lra). destruct E as [E1 E2]. split; [lra|]. rewrite P52.
      pose proof (key_range x). lra.
  - assert (x = binf) as ->. { destruct Hx as [A B]. destruct x as [s|s| |s m e P]; try discriminate. cbn in B. subst s. reflexivity. }
    assert (badd binf y = binf) as ->. { destruct y; try discriminate; reflexivity. }
    cbn [key binf] in *. split; [nra|]. rewrite P52. lra.
Qed.
(** Products of ordinary numbers. *)
Lemma bmul_rel x y a b : fin x -> fin y -> 0 <= B2R x -> 0 <= B2R y -> bpow radix2 a <= B2R x * B2R y <= bpow radix2 b -> (-1000 <= a)%Z -> (b <= 960)%Z ->
  small (bmul x y) /\ rel U (key (bmul x y)) (B2R x * B2R y) /\ B2R (bmul x y) = key (bmul x y) /\ fin (bmul x y).
Proof.
  intros Fx Fy Px Py [H1 H2] Ha Hb. assert (G : bpow radix2 (-1000) <= B2R x * B2R y) by (eapply Rle_trans; [apply bpow_le; exact Ha|exact H1]).
  assert (G2 : B2R x * B2R y <= bpow radix2 960) by (eapply Rle_trans; [exact H2|apply bpow_le; exact Hb]).
  pose proof (bpow_gt_0 radix2 (-1000)) as P0. assert (G3 : bpow radix2 960 <= bpow radix2 1000) by (apply bpow_le; lia).
  destruct (dmul_spec x y Fx Fy) as [Fm Em]; [lra|]. change (dmul x y) with (bmul x y) in *.
  pose proof (r64_rel _ G) as E. rewrite key_finite by exact Fm. rewrite Em. split; [|split; [exact E|split; [reflexivity|exact Fm]]].
  assert (Pm : 0 < r64 (B2R x * B2R y)).
  { pose proof U1. destruct E as [_ E]. assert (0 < r64 (B2R x * B2R y) * U) by lra. nra. }
  split; [split|].
  - destruct (bmul x y); try discriminate; reflexivity.
  - rewrite <- Em in Pm. destruct (bmul x y) as [s|s| |s m e B]; try discriminate; cbn [B2R] in Pm; [lra|].
    destruct s; [|reflexivity]. exfalso. cbn [cond_Zopp] in Pm. assert (F2R (Float radix2 (- Z.pos m) e) < 0) by (apply F2R_lt_0; reflexivity).
    cbn in Pm, H. lra.
  - rewrite key_finite, Em by exact Fm. rewrite <- (r64_id (bpow radix2 960)) by (apply F64_bpow; lia). apply r64_mono. exact G2.
Qed.

(** ** Costs and heuristics *)
(** The resolution is an ordinary positive number; hypot is accurate to two units in the last place (the GNU
    library promises one). *)
Definition ordinary (res : b64) : Prop := fin res /\ bpow radix2 (-900) <= B2R res <= bpow radix2 900.
Definition hypot_accurate (hyp : Z -> Z -> b64) : Prop := forall a b, (Z.abs a < 2147483648)%Z -> (Z.abs b < 2147483648)%Z ->
  fin (hyp a b) /\ Bsign (hyp a b) = false /\ rel (U * U) (B2R (hyp a b)) (sqrt (IZR a * IZR a + IZR b * IZR b)).

Lemma U_le2 : U <= 5 / 4.
Proof. unfold U. assert (bpow radix2 (-52) <= bpow radix2 (-2)) by (apply bpow_le; lia). change (bpow radix2 (-2)) with (/ 4) in H. lra. Qed.
Lemma pos_sign (x : b64) : fin x -> 0 < B2R x -> Bsign x = false.
Proof.
  intros F P. destruct x as [s|s| |s m e B]; try discriminate; cbn [B2R] in P; [lra|]. destruct s; [|reflexivity].
  exfalso. cbn [cond_Zopp] in P. assert (F2R (Float radix2 (- Z.pos m) e) < 0) by (apply F2R_lt_0; reflexivity). cbn in P, H. lra.
Qed.
Lemma res_pos res : ordinary res -> 0 < B2R res.
Proof. intros (F & A & _). pose proof (bpow_gt_0 radix2 (-900)). lra. Qed.

Lemma mul_res x y : ordinary x -> fin y -> Bsign y = false -> (B2R y = 0 \/ / 2 <= B2R y <= bpow radix2 34) ->
  small (bmul x y) /\ rel U (key (bmul x y)) (B2R x * B2R y).
Proof.
  intros Ox Fy Sy Hy. pose proof (res_pos x Ox) as Px. destruct Ox as (Fx & X1 & X2). destruct Hy as [E|[Y1 Y2]].
  - destruct (dmul_spec x y Fx Fy) as [Fm Em]; [rewrite E, Rmult_0_r; split; [lra|apply bpow_ge_0]|]. change (dmul x y) with (bmul x y) in *.
    rewrite E, Rmult_0_r, r64_id in Em by apply generic_format_0. unfold small. rewrite key_finite, Em, E by exact Fm. split; [split|].
    + apply bmul_nonneg; try assumption. apply pos_sign; assumption.
    + apply bpow_ge_0.
    + rewrite Rmult_0_r. unfold rel. lra.
  - destruct (bmul_rel x y (-901) 934 Fx Fy) as (A & B & _); try lia; try lra; [|split; assumption].
    split.
    + change (-901)%Z with (-900 + -1)%Z. rewrite bpow_plus. change (bpow radix2 (-1)) with (/ 2). apply Rmult_le_compat; try lra; apply bpow_ge_0.
    + change 934%Z with (900 + 34)%Z. rewrite bpow_plus. apply Rmult_le_compat; lra.
Qed.

Lemma sqrt2_rel : fin (dsqrt (d_of_Z 2)) /\ rel U (B2R (dsqrt (d_of_Z 2))) (sqrt 2) /\ 1 <= B2R (dsqrt (d_of_Z 2)) <= 2.
Proof.
  destruct (d_of_Z_spec 2 ltac:(cbn; lia)) as [F E]. destruct (dsqrt_spec _ F) as [Fs Es]; [rewrite E; lra|]. rewrite E in Es.
  split; [exact Fs|]. rewrite Es. split.
  - apply r64_rel. apply Rle_trans with 1; [change 1 with (bpow radix2 0); apply bpow_le; lia|]. rewrite <- sqrt_1 at 1. apply sqrt_le_1_alt. lra.
  - assert (S : 1 <= sqrt 2 <= 2) by (pose proof sqrt2_bounds; lra). split.
    + rewrite <- (r64_id 1) by (apply (F64_bpow 0); lia). apply r64_mono. lra.
    + rewrite <- (r64_id 2) at 2 by (apply (F64_bpow 1); lia). apply r64_mono. lra.
Qed.
Lemma pow31 : bpow radix2 31 = 2147483648. Proof. reflexivity. Qed.

Lemma cost_rel D res d : (0 < D < 2147483648)%Z -> ordinary res ->
  small (d_cost D res d) /\ rel (U * (U * U)) (key (d_cost D res d)) (rcost D (B2R res) d).
Proof.
  intros HD Or. pose proof (res_pos res Or) as Pr. pose proof U1 as HU. destruct (d_of_Z_spec D) as [FD ED]; [lia|].
  assert (BD : 1 <= IZR D <= 2147483648) by (split; apply IZR_le; lia).
  assert (Hd : fin (d_delta D d) /\ rel (U * U) (B2R (d_delta D d)) (if d then sqrt 2 * IZR D else IZR D) /\ / 2 <= B2R (d_delta D d) <= bpow radix2 33).
  { assert (B33 : bpow radix2 33 = 8589934592) by reflexivity. destruct d; cbn [d_delta].
    - destruct sqrt2_rel as (Fs & Rs & Bs). set (q := B2R (dsqrt (d_of_Z 2))) in *.
      destruct (bmul_rel (dsqrt (d_of_Z 2)) (d_of_Z D) 0 32 Fs FD) as (_ & B & E & F); try lia; try (fold q; lra); try (rewrite ED; lra).
      { rewrite ED. fold q. change (bpow radix2 0) with 1. change (bpow radix2 32) with 4294967296. nra. }
      rewrite E. fold q in B. rewrite ED in B. split; [exact F|]. split.
      + apply rel_trans with (y := q * IZR D); try lra; [exact B|]. apply rel_mul; [lra|exact Rs].
      + destruct B as [B1 B2]. pose proof U_le2. assert (1 <= q * IZR D <= 4294967296) by nra. split; [nra|]. rewrite B33. nra.
    - rewrite ED. split; [exact FD|]. split; [apply rel_refl; [nra|lra]|]. rewrite B33. lra. }
  destruct Hd as (Fd & Rd & Bd). unfold d_cost. destruct Or as (Fr & Br).
  destruct (bmul_rel (d_delta D d) res (-901) 934 Fd Fr) as (S & B & _); try lia; try lra.
  { split.
    - change (-901)%Z with (-1 + -900)%Z. rewrite bpow_plus. change (bpow radix2 (-1)) with (/ 2). apply Rmult_le_compat; try lra; apply bpow_ge_0.
    - change 934%Z with (34 + 900)%Z. rewrite bpow_plus. apply Rmult_le_compat; try lra.
      apply Rle_trans with (bpow radix2 33); [lra|apply bpow_le; lia]. }
  split; [exact S|]. apply rel_trans with (y := B2R (d_delta D d) * B2R res); try nra; [exact B|].
  unfold rcost. apply rel_mul; [lra|exact Rd].
Qed.

Lemma heur_rel hyp n res c g : hypot_accurate hyp -> ordinary res ->
  (Z.abs (fst c - fst g) < 2147483648)%Z -> (Z.abs (snd c - snd g) < 2147483648)%Z ->
  small (d_heur hyp n res c g) /\ rel (U * (U * U)) (key (d_heur hyp n res c g)) (hcompute n (B2R res) c g).
Proof.
  intros Hh Or Hx Hy. pose proof U1 as HU. pose proof (res_pos res Or) as Pr.
  assert (B34 : bpow radix2 34 = 17179869184) by reflexivity.
  assert (Hint : forall z, (0 <= z <= 4294967296)%Z -> small (bmul res (d_of_Z z)) /\ rel (U * (U * U)) (key (bmul res (d_of_Z z))) (B2R res * IZR z)).
  { intros z Hz. destruct (d_of_Z_spec z) as [F E]; [lia|]. assert (Bz : 0 <= IZR z <= 4294967296) by (split; apply IZR_le; lia).
    assert (Sz : Bsign (d_of_Z z) = false).
    { destruct (Z.eq_dec z 0) as [->|Hn]; [reflexivity|]. apply pos_sign; [exact F|]. rewrite E. apply IZR_lt. lia. }
    destruct (mul_res res (d_of_Z z) Or F Sz) as [A B].
    { rewrite E. destruct (Z.eq_dec z 0) as [->|Hn]; [left; reflexivity|right]. assert (1 <= IZR z) by (apply IZR_le; lia). lra. }
    split; [exact A|]. rewrite E in B. apply (rel_le U); [nra|destruct A as [A _]; apply (key_range _ A)|apply Rmult_le_pos; lra|exact B]. }
  destruct n; cbn [d_heur hcompute].
  - split; [split; [split; reflexivity|apply bpow_ge_0]|]. cbn [key bzero B2R]. unfold rel. lra.
  - destruct (Hh _ _ Hx Hy) as (F & S & Rr). set (y := hyp (fst c - fst g)%Z (snd c - snd g)%Z) in *.
    set (e := sqrt (IZR (fst c - fst g) * IZR (fst c - fst g) + IZR (snd c - snd g) * IZR (snd c - snd g))) in *.
    change (hypotR (dxR c g) (dyR c g)) with e.
    assert (HU2 : 1 <= U * U <= 2) by (pose proof U_le2; nra).
    assert (He : e = 0 \/ 1 <= e <= 8589934592).
    { unfold e. set (a := (fst c - fst g)%Z) in *. set (b := (snd c - snd g)%Z) in *. rewrite <- !mult_IZR, <- plus_IZR.
      destruct (Z.eq_dec (a * a + b * b) 0) as [->|Hn]; [left; apply sqrt_0|right]. split.
      - rewrite <- sqrt_1 at 1. apply sqrt_le_1_alt. apply IZR_le. nia.
      - rewrite <- (sqrt_square 8589934592) by lra. apply sqrt_le_1_alt. rewrite <- mult_IZR. apply IZR_le.
        assert (a * a <= 2147483648 * 2147483648)%Z by (rewrite <- (Z.abs_square a); nia).
        assert (b * b <= 2147483648 * 2147483648)%Z by (rewrite <- (Z.abs_square b); nia). nia. }
    destruct Rr as [R1 R2]. pose proof U_le2 as U2. destruct (mul_res res y Or F S) as [A B].
    { destruct He as [-> | He]; [left; nra|right]. rewrite B34. set (UU := U * U) in *. clearbody UU. split; [nra|]. nra. }
    split; [exact A|]. apply rel_trans with (y := B2R res * B2R y); try lra; [exact B|].
    rewrite (Rmult_comm _ (B2R y)), (Rmult_comm _ e). apply rel_mul; [lra|]. split; assumption.
  - destruct (Hint (Z.abs (fst c - fst g) + Z.abs (snd c - snd g))%Z) as [A B]; [lia|]. split; [exact A|].
    rewrite plus_IZR, !abs_IZR in B. exact B.
  - destruct (Hint (Z.max (Z.abs (fst c - fst g)) (Z.abs (snd c - snd g)))%Z) as [A B]; [lia|]. split; [exact A|].
    destruct (C32_norms (B2R res) c g) as (_ & _ & E & _); [lra|]. cbn [hcompute] in E. rewrite E. exact B.
Qed.

(** C32 in binary64: the computed estimate exceeds the length of a path to the goal by at most
    a factor of 1 + 2^-50. *)
Theorem C32_admissible_ieee hyp eight D n res s g p : hypot_accurate hyp -> ordinary res -> (0 < D)%Z -> norm_fits eight n ->
  (Z.abs (fst s - fst g) < 2147483648)%Z -> (Z.abs (snd s - snd g) < 2147483648)%Z ->
  from_to s g p -> chain (direct_step eight D) p ->
  fin (d_heur hyp n res s g) /\ 0 <= B2R (d_heur hyp n res s g) <= B2R res * path_length p * (1 + bpow radix2 (-50)).
Proof.
  intros Hh Or HD Hf Hx Hy Hp Hc. destruct (heur_rel hyp n res s g Hh Or Hx Hy) as [A [B _]]. pose proof (res_pos res Or) as Pr.
  pose proof (small_fin _ A) as F. split; [exact F|]. rewrite <- (key_finite _ F). split; [apply (key_range _ (proj1 A))|].
  eapply Rle_trans; [exact B|]. pose proof (C32_admissible eight D n (B2R res) s g p ltac:(lra) HD Hf Hp Hc) as Q.
  pose proof (C32_nonneg n (B2R res) s g ltac:(lra)) as N. pose proof U1 as HU.
  assert (E : U * (U * U) <= 1 + bpow radix2 (-50)).
  { unfold U. assert (E4 : bpow radix2 (-50) = 4 * bpow radix2 (-52)) by (change (-50)%Z with (2 + -52)%Z; rewrite bpow_plus; reflexivity).
    rewrite E4. assert (P : 0 < bpow radix2 (-52)) by apply bpow_gt_0.
    assert (S : bpow radix2 (-52) <= / 4) by (change (/ 4) with (bpow radix2 (-2)); apply bpow_le; lia).
    set (e := bpow radix2 (-52)) in *. replace ((1 + e) * ((1 + e) * (1 + e))) with (1 + 3 * e + e * (e * (3 + e))) by ring.
    assert (e * (e * (3 + e)) <= e * 1) by (apply Rmult_le_compat_l; nra). lra. }
  assert (N1 : 1 <= U * U) by nra. apply Rmult_le_compat; [exact N|nra|exact Q|exact E].
Qed.

(** ** Simple paths *)
Lemma path_length_pos p : 0 <= path_length p.
Proof.
  induction p as [|a [|b p] IH]; [cbn; lra|cbn; lra|]. change (path_length (a :: b :: p)) with (euclid a b + path_length (b :: p)).
  assert (0 <= euclid a b) by apply sqrt_pos. lra.
Qed.
Lemma path_length_suffix l1 : forall l2, path_length l2 <= path_length (l1 ++ l2).
Proof.
  induction l1 as [|a l1 IH]; intros l2; [cbn [app]; lra|]. specialize (IH l2). cbn [app]. destruct (l1 ++ l2) as [|b r]; [|].
  - pose proof (path_length_pos [a]). pose proof (path_length_pos l2). cbn in *. lra.
  - change (path_length (a :: b :: r)) with (euclid a b + path_length (b :: r)). assert (0 <= euclid a b) by apply sqrt_pos. lra.
Qed.
Lemma chain_suffix {A} (P : A -> A -> Prop) l1 : forall l2, chain P (l1 ++ l2) -> chain P l2.
Proof.
  induction l1 as [|a l1 IH]; intros l2 Hc; [exact Hc|]. apply IH. cbn [app] in Hc. destruct (l1 ++ l2) as [|b r]; [exact I|apply Hc].
Qed.
Lemma simple_path (P : Z * Z -> Z * Z -> Prop) q : forall s t, from_to s t q -> chain P q ->
  exists q', from_to s t q' /\ chain P q' /\ NoDup q' /\ path_length q' <= path_length q /\ incl q' q.
Proof.
  induction q as [|a q IH]; intros s t [Hh Hl] Hc; [discriminate|]. injection Hh as ->. destruct q as [|b q].
  - exists [s]. split; [split; [reflexivity|exact Hl]|]. split; [exact I|]. split; [constructor; [intros []|constructor]|].
    split; [lra|intros x Hx; exact Hx].
  - destruct Hc as [Hab Hc].
    destruct (IH b t) as (r & [Rh Rl] & Rc & Rn & RL & Ri); [split; [reflexivity|]|exact Hc|].
    { rewrite <- Hl. apply (last_any (b :: q) b s). discriminate. }
    change (path_length (s :: b :: q)) with (euclid s b + path_length (b :: q)).
    assert (E0 : 0 <= euclid s b) by apply sqrt_pos.
    assert (Hdec : {In s r} + {~ In s r}).
    { apply in_dec. intros x y. destruct (ceqb_spec x y); auto. }
    destruct Hdec as [Hin|Hin].
    + apply in_split in Hin as (r1 & r2 & ->). exists (s :: r2). split; [split; [reflexivity|]|].
      { rewrite <- Rl. rewrite (last_any (s :: r2) s b) by discriminate. clear. induction r1 as [|x r1 IH]; [reflexivity|].
        cbn [app]. rewrite IH. destruct r1; reflexivity. }
      split; [apply (chain_suffix _ r1); exact Rc|]. split.
      { clear - Rn. induction r1 as [|x r1 IH]; [exact Rn|]. apply IH. cbn in Rn. apply NoDup_cons_iff in Rn. apply Rn. }
      split; [pose proof (path_length_suffix r1 (s :: r2)); lra|].
      intros x Hx. right. apply Ri. apply in_or_app. right. exact Hx.
    + destruct r as [|b' r]; [discriminate|]. injection Rh as ->. exists (s :: b :: r). split; [split; [reflexivity|]|].
      { rewrite <- Rl. change (last (s :: b :: r) s) with (last (b :: r) s). apply last_any. discriminate. }
      split; [split; assumption|]. split; [constructor; assumption|].
      split; [change (path_length (s :: b :: r)) with (euclid s b + path_length (b :: r)); lra|].
      intros x [<-|Hx]; [left; reflexivity|right; apply Ri; exact Hx].
Qed.
Lemma all_cells_len m : gm_wf m -> Z.of_nat (length (all_cells m)) = (gm_w m * gm_h m)%Z.
Proof.
  intros (Hw & Hh & _). unfold all_cells, zrange. rewrite prod_length, !map_length, !seq_length. rewrite Nat2Z.inj_mul, !Z2Nat.id; lia.
Qed.
Lemma path_cells eight D m s q : cell_of (gm_w m) (gm_h m) (fst s) (snd s) -> hd_error q = Some s ->
  chain (fun a b => direct_step eight D a b /\ map_free m b) q -> incl q (all_cells m).
Proof.
  revert s. induction q as [|a q IH]; intros s Cs Hh Hc x Hx; [destruct Hx|]. injection Hh as ->.
  destruct Hx as [<-|Hx]; [apply all_cells_spec; exact Cs|]. destruct q as [|b q]; [destruct Hx|]. destruct Hc as [[_ [Cb _]] Hc].
  apply (IH b Cb eq_refl Hc x Hx).
Qed.
Lemma pow_small e n : 0 <= e -> 2 * INR n * e <= 1 -> (1 + e) ^ n <= 1 + 2 * INR n * e.
Proof.
  intros He. induction n as [|n IH]; intros Hn; [cbn; lra|]. rewrite S_INR in *. cbn [pow].
  assert (Hp : 0 <= INR n) by apply pos_INR. assert (Hn' : 2 * INR n * e <= 1) by nra. specialize (IH Hn').
  apply Rle_trans with ((1 + e) * (1 + 2 * INR n * e)); [apply Rmult_le_compat_l; lra|]. nra.
Qed.

(** ** The search *)
(** What is lost by rounding on a map of that size: a relative 2^-48 per cell. *)
Definition slack (m : gridmap) : R := 1 + IZR (gm_w m * gm_h m + 2) / bpow radix2 48.
Lemma slack_pow m (a b : list cell) : gm_wf m -> (length a <= length (all_cells m))%nat -> (length b <= length (all_cells m))%nat ->
  (U * (U * (U * U))) ^ (length a + length b + 3) <= slack m.
Proof.
  intros Hwf Ha Hb. pose proof (all_cells_len m Hwf) as EL. destruct Hwf as (Hw & Hh & Hwh & _).
  set (k := (length a + length b + 3)%nat). assert (Hk : (Z.of_nat k <= 2 * (gm_w m * gm_h m) + 3)%Z) by (unfold k; lia).
  replace (U * (U * (U * U))) with (U ^ 4) by ring. rewrite <- pow_mult. unfold U.
  set (e := bpow radix2 (-52)). assert (He : 0 <= e) by apply bpow_ge_0.
  assert (E48 : / bpow radix2 48 = 16 * e).
  { unfold e. change 16 with (bpow radix2 4). rewrite <- bpow_plus. symmetry. apply (bpow_opp radix2 48). }
  assert (IK : INR (4 * k) <= 4 * (2 * IZR (gm_w m * gm_h m) + 3)).
  { rewrite INR_IZR_INZ. rewrite <- mult_IZR, <- plus_IZR, <- mult_IZR. apply IZR_le. lia. }
  assert (BM : 0 <= IZR (gm_w m * gm_h m) <= 4294967296) by (split; apply IZR_le; nia).
  assert (Es : e <= / 70368744177664) by (change (/ 70368744177664) with (bpow radix2 (-46)); apply bpow_le; lia).
  assert (P0 : 0 <= INR (4 * k)) by apply pos_INR.
  eapply Rle_trans; [apply pow_small; [exact He|]|].
  - apply Rle_trans with (2 * (4 * (2 * 4294967296 + 3)) * / 70368744177664); [|lra]. apply Rmult_le_compat; lra.
  - unfold slack. rewrite plus_IZR. unfold Rdiv. rewrite E48. apply Rplus_le_compat_l.
    replace ((IZR (gm_w m * gm_h m) + 2) * (16 * e)) with (16 * (IZR (gm_w m * gm_h m) + 2) * e) by ring.
    apply Rmult_le_compat_r; [exact He|]. lra.
Qed.

Section Search.
  Variable push : (cell -> b64) -> cell -> list cell -> list cell.
  Variable pop : (cell -> b64) -> list cell -> option (cell * list cell).
  Variable best : list (cell * b64) -> option cell.
  Variable hyp : Z -> Z -> b64.
  Variable eight : bool.
  Variable D : Z.
  Variable n : norm.
  Variable res : b64.
  Hypothesis Hpush : push_ok push.
  Hypothesis Hpop : pop_ok pop.
  (** PriorityQueueManager: no waiting node compares smaller than the one handed out. *)
  Hypothesis Hmin : forall f l v r, (forall w, In w l -> nonneg (f w)) -> pop f l = Some (v, r) ->
    forall w, In w l -> blt (f w) (f v) = false.
  Hypothesis Hbest : best_ok best.
  Hypothesis Hbs : forall l, best l = None -> l = [].
  Hypothesis HD : (0 < D < 2147483648)%Z.
  Hypothesis Hres : ordinary res.
  Hypothesis Hhyp : hypot_accurate hyp.
  Hypothesis Hfit : norm_fits eight n.
  Notation d_hyp := (fun c g : cell => hyp (fst g - fst c)%Z (snd g - snd c)%Z).
  Notation findPath := (findPath b64 bzero badd blt badd (d_cost D res) (d_heur hyp n res) d_hyp push pop best eight D).
  Notation new_sobj := (new_sobj b64 bzero binf).
  Notation nbrs := (nbrs b64 (d_cost D res) eight D).
  Let r : R := B2R res.
  Let el (u v : cell) : R := r * euclid u v.

  Lemma rpos : 0 < r.
  Proof using Hres. apply res_pos. exact Hres. Qed.
  Lemma plen_el p : plen el p = r * path_length p.
  Proof using Type.
    induction p as [|a [|b p] IH]; [cbn; lra|cbn; lra|]. change (plen el (a :: b :: p)) with (el a b + plen el (b :: p)).
    rewrite IH. change (path_length (a :: b :: p)) with (euclid a b + path_length (b :: p)). unfold el. lra.
  Qed.

  Theorem C21_optimal_ieee op m first from to s g :
    gm_wf m -> op_cand b64 op = false -> (forall k, op_timeout b64 op k = false) ->
    in_cell from s -> in_cell to g ->
    cell_of (gm_w m) (gm_h m) (fst s) (snd s) -> cell_of (gm_w m) (gm_h m) (fst g) (snd g) ->
    ~ map_occupied m s -> ~ map_occupied m g ->
    exists fuel p o', findPath fuel op (new_sobj m first) from to = (FPath p, o') /\
      (p = [] <-> ~ exists t q, near D g t /\ direct_path eight D m s t q) /\
      (p <> [] -> exists t, near D g t /\ direct_path eight D m s t p /\
         forall t' q, near D g t' -> direct_path eight D m s t' q ->
           B2R res * path_length p + hcompute n (B2R res) t g
           <= slack m * (B2R res * path_length q + hcompute n (B2R res) t' g)).
  Proof using Hpush Hpop Hmin Hbest Hbs HD Hres Hfit Hhyp.
    intros Hwf Hcand Hto Hs Hg Cs Cg Os Og. assert (HD0 : (0 < D)%Z) by lia. pose proof rpos as Pr. pose proof U1 as HU.
    assert (HU2 : 1 <= U * U) by nra. assert (HU3 : 1 <= U * (U * U)) by nra. assert (HU4 : U <= U * (U * (U * U)) /\ 1 <= U * (U * (U * U))) by nra.
    assert (Eos : is_occ_cell m s = false).
    { destruct (is_occ_cell m s) eqn:E; [|reflexivity]. apply is_occ_cell_spec in E. destruct Os. split; assumption. }
    assert (Eog : is_occ_cell m g = false).
    { destruct (is_occ_cell m g) eqn:E; [|reflexivity]. apply is_occ_cell_spec in E. destruct Og. split; assumption. }
    assert (Hnb : forall u v c, In (v, c) (nbrs m u) -> direct_step eight D u v /\ map_free m v /\
                   c = d_cost D res (negb ((fst u =? fst v)%Z || (snd u =? snd v)%Z))).
    { intros u v c Hin. eapply nbrs_spec; eassumption. }
    assert (Hall : forall u v c, In u (all_cells m) -> In (v, c) (nbrs m u) -> In v (all_cells m)).
    { intros u v c _ Hin. apply Hnb in Hin as (_ & [Hc _] & _). apply all_cells_spec. exact Hc. }
    assert (Har : cost_arith bzero badd blt (d_cost D res) nonneg).
    { apply ieee_cost_arith. intros d. apply (cost_rel D res d HD Hres). }
    assert (Hao : arith_ok (all_cells m) bzero badd blt (nbrs m) nonneg).
    { constructor.
      - apply (ca_wf _ _ _ _ _ Har).
      - apply (ca_irrefl _ _ _ _ _ Har).
      - apply (ca_zero _ _ _ _ _ Har).
      - intros u v c a _ Hin Ha. apply Hnb in Hin as (_ & _ & ->). apply (ca_add _ _ _ _ _ Har). assumption.
      - intros u v c a _ Hin Ha. apply Hnb in Hin as (_ & _ & ->). apply (ca_grow _ _ _ _ _ Har). assumption.
      - apply (ca_trans _ _ _ _ _ Har). }
    assert (Hstep : forall u v c a, In (v, c) (nbrs m u) -> nonneg a -> rel (U * (U * (U * U))) (key (badd a c)) (key a + el u v)).
    { intros u v c a Hin Ha. apply Hnb in Hin as (St & _ & ->). destruct (cost_rel D res (negb ((fst u =? fst v)%Z || (snd u =? snd v)%Z)) HD Hres) as [Sc Rc].
      pose proof (step_euclid eight D u v HD0 St) as Eu.
      assert (Ee : rcost D (B2R res) (negb ((fst u =? fst v)%Z || (snd u =? snd v)%Z)) = el u v).
      { unfold el, r. rewrite <- Eu. unfold rcost. ring. }
      rewrite Ee in Rc. eapply rel_trans; [lra|lra|apply badd_rel; assumption|]. apply rel_add; [lra|apply (key_range a Ha)|exact Rc]. }
    assert (Hhv : forall v, In v (all_cells m) -> small (d_heur hyp n res v g) /\ rel (U * (U * (U * U))) (key (d_heur hyp n res v g)) (hcompute n r v g)).
    { intros v Hv. apply all_cells_spec in Hv. destruct Hwf as (Hw & Hh & _). unfold cell_of in Hv, Cg.
      destruct (heur_rel hyp n res v g Hhyp Hres) as [A B]; [lia|lia|]. split; [exact A|].
      apply (rel_le (U * (U * U))); [nra|apply (key_range _ (proj1 A))|apply C32_nonneg; unfold r in *; lra|exact B]. }
    destruct (GenericRound.run_optimal ceqb ceqb_spec (all_cells m) bzero binf badd blt badd (nbrs m) (goal_val b64 bzero (d_heur hyp n res) (Some g))
      push pop Hpush Hpop s (goal_test D (Some g)) (op_over b64 op) (goal_val b64 bzero d_hyp (Some g)) best Hbest Hbs Hall
      ltac:(apply all_cells_spec; exact Cs) nonneg key small) with (elen := el) (hR := fun v => hcompute n r v g) (H := U * (U * (U * U))) (first := first)
      as (fuel & p & s' & Er & Hp & Ho).
    - intros a [A _]. exact A.
    - split; [split; reflexivity|]. apply bpow_ge_0.
    - exact Hao.
    - exact Hmin.
    - intros a b Ha Hb. apply blt_key; assumption.
    - intros a Ha. apply (key_range a Ha).
    - reflexivity.
    - lra.
    - intros u v. unfold el. apply Rmult_le_pos; [lra|apply sqrt_pos].
    - intros u v c a _ Hin Ha. apply (Hstep u v c a Hin Ha).
    - intros u v c a _ Hin Ha. apply (Hstep u v c a Hin Ha).
    - intros v. apply C32_nonneg. lra.
    - intros v Hv. cbn [goal_val]. destruct (Hhv v Hv) as [A [B1 B2]]. auto.
    - intros a b Ha [Hb _]. apply badd_key; assumption.
    - intros a b Ha Hb. destruct (badd_rel a b Ha Hb) as [B _]. pose proof (key_range a Ha). pose proof (key_range b (proj1 Hb)).
      eapply Rle_trans; [exact B|]. apply Rmult_le_compat_l; lra.
    - intros a b Ha Hb. destruct (badd_rel a b Ha Hb) as [_ B]. assert (Hn : nonneg (badd a b)) by (apply badd_key; [assumption|apply Hb]).
      pose proof (key_range _ Hn). eapply Rle_trans; [exact B|]. apply Rmult_le_compat_l; lra.
    - intros q v t _ Hc H1 H2 _. rewrite plen_el. apply (C32_path_bound eight D n r v t g q); [lra|exact HD0|exact Hfit|split; assumption|].
      eapply chain_weaken; [|exact Hc]. intros a b [c Hab]. apply Hnb in Hab. apply Hab.
    - assert (Eto : forall fu st, run cell b64 ceqb (all_cells m) bzero badd blt badd (nbrs m) (goal_val b64 bzero (d_heur hyp n res) (Some g)) push pop
                       [s] (goal_test D (Some g)) true false (op_over b64 op) (goal_val b64 bzero d_hyp (Some g)) best (op_timeout b64 op) fu st first
                = run cell b64 ceqb (all_cells m) bzero badd blt badd (nbrs m) (goal_val b64 bzero (d_heur hyp n res) (Some g)) push pop
                       [s] (goal_test D (Some g)) true false (op_over b64 op) (goal_val b64 bzero d_hyp (Some g)) best (fun _ => false) fu st first).
      { intros fu st. unfold run. generalize 0%nat. generalize (init_search cell b64 ceqb bzero badd push [s] st first). clear - Hto.
        induction fu as [|k IH]; intros s0 i; cbn [loop]; [reflexivity|]. destruct (s_open _ _ s0); [reflexivity|]. rewrite Hto.
        destruct (pop _ _) as [[cur o]|]; [|reflexivity]. destruct (_ && negb false); [reflexivity|]. cbn [andb].
        destruct (process_all _ _ _ _ _ _ _ _ _ _ _ _) as [s3|]; [apply IH|reflexivity]. }
      exists fuel, p. eexists. split.
      { unfold DirectSearch.findPath. cbn [ob_map ob_info ob_first DirectSearch.new_sobj].
        rewrite (lookup_of_cell m from s Hwf Hs Cs), (lookup_of_cell m to g Hwf Hg Cg), Eos, Eog. cbv zeta. cbn [somes].
        rewrite Hcand, Eto, Er. cbn [fst snd to_fres]. reflexivity. }
      assert (Hedge : forall a b, edge (nbrs m) a b <-> direct_step eight D a b /\ map_free m b) by (intros a b; apply edge_spec; assumption).
      split.
      + rewrite Hp. split; intros H H'; apply H.
        * destruct H' as (t & q & Hn & [[A B] Ch]). exists q, s, t. split; [exact A|]. split; [left; reflexivity|].
          split; [|split; [exact B|apply C25_isGoal; exact Hn]].
          eapply chain_weaken; [|exact Ch]. intros a b Hab. apply Hedge. exact Hab.
        * destruct H' as (q & st & t & A & [<-|[]] & Ch & L & G). exists t, q. split; [apply C25_isGoal; exact G|].
          split; [split; assumption|]. eapply chain_weaken; [|exact Ch]. intros a b Hab. apply Hedge. exact Hab.
      + intros Hne. destruct (Ho Hne) as (t & L & G & Hd & Hc & Hnd & Hopt). exists t. split; [apply C25_isGoal; exact G|].
        assert (Hc' : chain (fun a b => direct_step eight D a b /\ map_free m b) p).
        { eapply chain_weaken; [|exact Hc]. intros a b Hab. apply Hedge. exact Hab. }
        split; [split; [split; assumption|exact Hc']|].
        intros t' q Hn [Hft Ch]. destruct (simple_path _ q s t' Hft Ch) as (q' & [A B] & Ch' & Nq & Lq & _).
        assert (Ch2 : chain (edge (nbrs m)) q').
        { eapply chain_weaken; [|exact Ch']. intros a b Hab. apply Hedge. exact Hab. }
        pose proof (Hopt q' t' Ch2 A B ltac:(apply C25_isGoal; exact Hn)) as F. rewrite !plen_el in F.
        pose proof (slack_pow m p q' Hwf (NoDup_incl_length Hnd (path_cells eight D m s p Cs Hd Hc')) (NoDup_incl_length Nq (path_cells eight D m s q' Cs A Ch'))) as SP.
        pose proof (C32_nonneg n r t' g ltac:(lra)) as Hh0. pose proof (path_length_pos q') as P0.
        change (B2R res) with r. eapply Rle_trans; [exact F|]. rewrite Rmult_comm.
        assert (S0 : 0 <= slack m).
        { eapply Rle_trans; [|exact SP]. apply pow_le. lra. }
        apply Rmult_le_compat; [apply pow_le; lra|assert (0 <= r * path_length q') by (apply Rmult_le_pos; lra); lra|exact SP|].
        assert (r * path_length q' <= r * path_length q) by (apply Rmult_le_compat_l; lra). lra.
  Qed.

  (** In the user's words: Dijkstra's path is at most that factor longer than a shortest one to
      the accepted region, the path of A* than any path to the goal cell. *)
  Theorem C21_dijkstra_ieee op m first from to s g :
    n = NoHeuristic -> gm_wf m -> op_cand b64 op = false -> (forall k, op_timeout b64 op k = false) ->
    in_cell from s -> in_cell to g ->
    cell_of (gm_w m) (gm_h m) (fst s) (snd s) -> cell_of (gm_w m) (gm_h m) (fst g) (snd g) ->
    ~ map_occupied m s -> ~ map_occupied m g ->
    exists fuel p o', findPath fuel op (new_sobj m first) from to = (FPath p, o') /\
      (p = [] <-> ~ exists t q, near D g t /\ direct_path eight D m s t q) /\
      (p <> [] -> exists t, near D g t /\ direct_path eight D m s t p /\
         forall t' q, near D g t' -> direct_path eight D m s t' q -> path_length p <= slack m * path_length q).
  Proof using Hpush Hpop Hmin Hbest Hbs HD Hres Hfit Hhyp.
    intros Hn Hwf Hcand Hto Hs Hg Cs Cg Os Og.
    destruct (C21_optimal_ieee op m first from to s g Hwf Hcand Hto Hs Hg Cs Cg Os Og) as (fuel & p & o' & E & Hp & Ho).
    exists fuel, p, o'. split; [exact E|]. split; [exact Hp|]. intros Hne. destruct (Ho Hne) as (t & A & B & F).
    exists t. split; [exact A|]. split; [exact B|]. intros t' q H1 H2. specialize (F t' q H1 H2).
    assert (En : forall c, hcompute n (B2R res) c g = 0) by (intros c; rewrite Hn; reflexivity). rewrite !En, !Rplus_0_r in F.
    pose proof rpos as Pr. unfold r in Pr. apply Rmult_le_reg_l with (B2R res); [exact Pr|].
    replace (B2R res * (slack m * path_length q)) with (slack m * (B2R res * path_length q)) by ring. exact F.
  Qed.
  Theorem C21_astar_ieee op m first from to s g q :
    gm_wf m -> op_cand b64 op = false -> (forall k, op_timeout b64 op k = false) ->
    in_cell from s -> in_cell to g ->
    cell_of (gm_w m) (gm_h m) (fst s) (snd s) -> cell_of (gm_w m) (gm_h m) (fst g) (snd g) ->
    ~ map_occupied m s -> ~ map_occupied m g -> direct_path eight D m s g q ->
    exists fuel p o', findPath fuel op (new_sobj m first) from to = (FPath p, o') /\ p <> [] /\
      path_length p <= slack m * path_length q.
  Proof using Hpush Hpop Hmin Hbest Hbs HD Hres Hfit Hhyp.
    intros Hwf Hcand Hto Hs Hg Cs Cg Os Og Hq.
    destruct (C21_optimal_ieee op m first from to s g Hwf Hcand Hto Hs Hg Cs Cg Os Og) as (fuel & p & o' & E & Hp & Ho).
    assert (Hnear : near D g g) by (unfold near; rewrite !Z.sub_diag; cbn; lia).
    assert (Hne : p <> []).
    { intros H. apply Hp in H. apply H. exists g, q. split; assumption. }
    exists fuel, p, o'. split; [exact E|]. split; [exact Hne|]. destruct (Ho Hne) as (t & A & B & F).
    specialize (F g q Hnear Hq). pose proof rpos as Pr. unfold r in Pr. rewrite h_goal, Rplus_0_r in F.
    pose proof (C32_nonneg n (B2R res) t g ltac:(lra)). apply Rmult_le_reg_l with (B2R res); [exact Pr|].
    replace (B2R res * (slack m * path_length q)) with (slack m * (B2R res * path_length q)) by ring. lra.
  Qed.
End Search.
Print Assumptions C21_optimal_ieee.

(** On a map of up to 2^28 cells (16384 x 16384) that is less than one part in a million. *)
Theorem C21_slack m : gm_wf m -> (gm_w m * gm_h m <= 268435456)%Z -> 1 <= slack m <= 1 + / 1000000.
Proof.
  intros (Hw & Hh & _) H. unfold slack. rewrite plus_IZR. assert (BM : 0 <= IZR (gm_w m * gm_h m) <= 268435456) by (split; apply IZR_le; nia).
  change (bpow radix2 48) with 281474976710656. lra.
Qed.

(** ** The hypotheses are met *)
(** The square root of the rounded sum of squares is accurate enough. *)
Definition d_hypot (a b : Z) : b64 := dsqrt (d_of_Z (a * a + b * b)).
Lemma d_of_Z_round z : (0 <= z <= 2 ^ 63)%Z -> fin (d_of_Z z) /\ B2R (d_of_Z z) = r64 (IZR z).
Proof.
  intros Hz. pose proof (@binary_normalize_correct 53 1024 p64 l64 mode_NE z 0 false) as C. cbv zeta in C. fold (d_of_Z z) in C.
  assert (E : F2R (Float radix2 z 0) = IZR z) by (unfold F2R; cbn; lra). rewrite E in C.
  change (round radix2 _ _ (IZR z)) with (r64 (IZR z)) in C.
  assert (B : 0 <= IZR z <= bpow radix2 63) by (change (bpow radix2 63) with (IZR (2 ^ 63)); split; apply IZR_le; lia).
  rewrite Rlt_bool_true in C; [destruct C as (C1 & C2 & _); split; assumption|].
  rewrite Rabs_pos_eq by (apply r64_ge0; lra). apply (Rle_lt_trans _ (bpow radix2 63)); [|apply bpow_lt; lia].
  rewrite <- (r64_id (bpow radix2 63)) by (apply F64_bpow; lia). apply r64_mono. lra.
Qed.
Lemma rel_sqrt h x y : 1 <= h -> 0 <= x -> 0 <= y -> rel h x y -> rel h (sqrt x) (sqrt y).
Proof.
  assert (G : forall h x y, 1 <= h -> 0 <= x -> 0 <= y -> x <= y * h -> sqrt x <= sqrt y * h).
  { intros h' a b H1 Ha Hb H. rewrite <- (sqrt_square h') by lra. rewrite <- sqrt_mult by nra. apply sqrt_le_1_alt. nra. }
  intros H1 Hx Hy [A B]. split; apply G; assumption.
Qed.
Lemma d_hypot_accurate : hypot_accurate d_hypot.
Proof.
  intros a b Ha Hb. pose proof U1 as HU.
  assert (Hs : (0 <= a * a + b * b <= 2 ^ 63)%Z).
  { assert (a * a <= 2147483648 * 2147483648)%Z by (rewrite <- (Z.abs_square a); nia).
    assert (b * b <= 2147483648 * 2147483648)%Z by (rewrite <- (Z.abs_square b); nia). nia. }
  destruct (d_of_Z_round _ Hs) as [F E]. set (z := (a * a + b * b)%Z) in *.
  assert (Z0 : 0 <= IZR z) by (apply IZR_le; lia). pose proof (r64_ge0 _ Z0) as R0.
  destruct (dsqrt_spec _ F) as [Fs Es]; [rewrite E; exact R0|]. rewrite E in Es. fold z in Es.
  assert (Ez : IZR a * IZR a + IZR b * IZR b = IZR z) by (unfold z; rewrite plus_IZR, !mult_IZR; reflexivity). rewrite Ez.
  unfold d_hypot. fold z. split; [exact Fs|].
  destruct (Z.eq_dec z 0) as [Hz|Hz].
  - rewrite Hz. split; [reflexivity|]. change (B2R (dsqrt (d_of_Z 0))) with 0. rewrite sqrt_0. unfold rel. lra.
  - assert (Z1 : 1 <= IZR z) by (apply IZR_le; lia).
    assert (S1 : bpow radix2 (-1000) <= 1) by (change 1 with (bpow radix2 0); apply bpow_le; lia).
    assert (R1 : 1 <= r64 (IZR z)).
    { rewrite <- (r64_id 1) at 1 by (apply (F64_bpow 0); lia). apply r64_mono. exact Z1. }
    assert (Q1 : 1 <= sqrt (r64 (IZR z))) by (rewrite <- sqrt_1 at 1; apply sqrt_le_1_alt; exact R1).
    assert (Q2 : 1 <= r64 (sqrt (r64 (IZR z)))).
    { rewrite <- (r64_id 1) at 1 by (apply (F64_bpow 0); lia). apply r64_mono. exact Q1. }
    split; [apply pos_sign; [exact Fs|rewrite Es; lra]|]. rewrite Es.
    apply rel_trans with (y := sqrt (r64 (IZR z))); [exact HU|exact HU|apply r64_rel; lra|].
    apply rel_sqrt; [exact HU|lra|exact Z0|]. apply r64_rel. lra.
Qed.
Lemma min_pop_ieee f l : forall (v : cell) r, (forall w, In w l -> nonneg (f w)) -> min_pop blt f l = Some (v, r) ->
  forall w, In w l -> blt (f w) (f v) = false.
Proof.
  assert (K : forall a b, nonneg a -> nonneg b -> blt a b = false <-> key b <= key a).
  { intros a b Ha Hb. pose proof (blt_key a b Ha Hb). destruct (blt a b); split; intros G; try reflexivity; try discriminate.
    - destruct H as [H _]. specialize (H eq_refl). lra.
    - apply Rnot_lt_le. intros G'. apply H in G'. discriminate. }
  induction l as [|x l IH]; intros v r Hn H w Hw; [discriminate|]. cbn [min_pop] in H.
  assert (Hn' : forall w, In w l -> nonneg (f w)) by (intros w' Hw'; apply Hn; right; exact Hw').
  assert (Hx : nonneg (f x)) by (apply Hn; left; reflexivity). pose proof (min_pop_ok blt f l) as Ok.
  destruct (min_pop blt f l) as [[m l']|] eqn:E.
  - destruct Ok as (Hm & _). specialize (IH m l' Hn' eq_refl). assert (Nm : nonneg (f m)) by (apply Hn'; exact Hm).
    destruct (blt (f m) (f x)) eqn:El; injection H as <- <-.
    + destruct Hw as [<-|Hw]; [|apply IH; exact Hw]. apply K; [exact Hx|exact Nm|]. apply blt_key in El; [lra|exact Nm|exact Hx].
    + apply K in El; [|exact Nm|exact Hx]. destruct Hw as [<-|Hw]; [apply K; [exact Hx|exact Hx|lra]|].
      specialize (IH w Hw). apply K in IH; [|apply Hn'; exact Hw|exact Nm]. apply K; [apply Hn'; exact Hw|exact Hx|lra].
  - subst l. injection H as <- <-. destruct Hw as [<-|[]]. apply K; [exact Hx|exact Hx|lra].
Qed.
(** A resolution of 1/8 (exact) or any other ordinary number. *)
Definition eighth : b64 := @binary_normalize 53 1024 p64 l64 mode_NE 1 (-3) false.
Lemma eighth_ordinary : ordinary eighth.
Proof.
  assert (E : B2R eighth = bpow radix2 (-3)) by (cbn; unfold F2R; cbn; lra). split; [reflexivity|]. rewrite E. split; apply bpow_le; lia.
Qed.
Example C21_ieee_example : exists fuel p o',
  findPath b64 bzero badd blt badd (d_cost 1 eighth) (d_heur d_hypot HeuristicL2 eighth) (fun c g => d_hypot (fst g - fst c) (snd g - snd c))
    fifo_push (min_pop blt) (best_of blt) true 1
    fuel (Opts b64 false (fun _ _ => false) (fun _ => false)) (new_sobj b64 bzero binf (gm_new 4 1) bzero) (0%Q, 0%Q) (3%Q, 0%Q) = (FPath p, o') /\
  p <> [] /\ path_length p <= slack (gm_new 4 1) * path_length [(0, 0); (1, 0); (2, 0); (3, 0)]%Z.
Proof.
  apply (C21_astar_ieee fifo_push (min_pop blt) (best_of blt) d_hypot true 1 HeuristicL2 eighth (@fifo_push_ok _ _) (min_pop_ok blt)
    min_pop_ieee (best_of_ok blt) (best_of_some blt) ltac:(lia) eighth_ordinary d_hypot_accurate I
    (Opts b64 false (fun _ _ => false) (fun _ => false)) (gm_new 4 1) bzero (0%Q, 0%Q) (3%Q, 0%Q) (0, 0)%Z (3, 0)%Z).
  - vm_compute. repeat split; discriminate || reflexivity.
  - reflexivity.
  - reflexivity.
  - split; split; vm_compute; (reflexivity || discriminate).
  - split; split; vm_compute; (reflexivity || discriminate).
  - vm_compute. repeat split; discriminate || reflexivity.
  - vm_compute. repeat split; discriminate || reflexivity.
  - intros [_ H]. vm_compute in H. discriminate.
  - intros [_ H]. vm_compute in H. discriminate.
  - split; [split; reflexivity|].
    assert (Hf : forall x, (0 <= x < 4)%Z -> map_free (gm_new 4 1) (x, 0%Z)).
    { intros x Hx. assert (x = 0 \/ x = 1 \/ x = 2 \/ x = 3)%Z as [->|[->|[->| ->]]] by lia;
        (split; [vm_compute; repeat split; discriminate || reflexivity|vm_compute; reflexivity]). }
    cbn [chain]. repeat split; try (apply Hf; lia); cbn; try lia; congruence.
Qed.
