(** The arithmetic of the distance transformation in IEEE-754 binary64. *)
From Coq Require Import Reals Lra.
From Flocq Require Import Core BinarySingleNaN.
From Verif Require Import Base GridMap GridMapProofs PathSpec DirectSearch PropGeneric GenericFloat DistTransModel DistTransProofs.
Local Open Scope R_scope.

(** 1.0, std::sqrt(2.0) = 0x3FF6A09E667F3BCD, the largest finite double. *)
Definition b_one : b64 := @B754_finite 53 1024 false 4503599627370496 (-52) eq_refl.
Definition b_sqrt2 : b64 := @B754_finite 53 1024 false 6369051672525773 (-52) eq_refl.
Definition b_max : b64 := @B754_finite 53 1024 false 9007199254740991 971 eq_refl.
(** [d == INFINITY] *)
Definition b_isinf (x : b64) : bool := Beqb x binf.
Definition b_ismax (x : b64) : bool := Beqb x b_max.

Lemma b_sqrt2_correct : b_sqrt2 = @Bsqrt 53 1024 prec_gt0 prec_lt mode_NE (@B754_finite 53 1024 false 4503599627370496 (-51) eq_refl).
Proof.
  apply B2SF_inj. vm_compute. reflexivity.
Qed.

Definition bit (w : b64) : Prop := w = b_one \/ w = b_sqrt2.
Lemma bit_nonneg w : bit w -> nonneg w /\ is_finite w = true.
Proof. intros [-> | ->]; repeat split; reflexivity. Qed.
Lemma bit_range w : bit w -> 1 <= B2R w <= 3 / 2.
Proof. intros [-> | ->]; unfold B2R, F2R, b_one, b_sqrt2; cbn; lra. Qed.

Lemma nonneg_cases x : nonneg x -> x = binf \/ is_finite x = true.
Proof. intros [H1 H2]. destruct x as [s|s| |s m e P]; try discriminate; auto. cbn in H2. subst s. left. reflexivity. Qed.
Lemma finite_range x : nonneg x -> is_finite x = true -> 0 <= B2R x < bpow radix2 1024.
Proof.
  intros H F. pose proof (key_range x H) as R. rewrite key_finite in R by assumption. split; [apply R|].
  pose proof (abs_B2R_lt_emax 53 1024 x) as H1. rewrite Rabs_pos_eq in H1 by apply R. exact H1.
Qed.

(** The sum of finite numbers: rounded, or infinite. *)
Lemma badd_round x y : nonneg x -> nonneg y -> is_finite x = true -> is_finite y = true ->
  key (badd x y) = Rmin (rnd (B2R x + B2R y)) (bpow radix2 1024).
Proof.
  intros Hx Hy Fx Fy. pose proof (@Bplus_correct 53 1024 prec_gt0 prec_lt mode_NE x y Fx Fy) as H. fold (badd x y) in H.
  pose proof (finite_range x Hx Fx) as Rx. pose proof (finite_range y Hy Fy) as Ry.
  assert (Hr : 0 <= rnd (B2R x + B2R y)).
  { rewrite <- (round_0 radix2 (FLT_exp (-1074) 53) (round_mode mode_NE)). apply round_le; [apply FLT_exp_valid; exact prec_gt0|apply valid_rnd_round_mode|lra]. }
  revert H. case Rlt_bool_spec; intros Hov H.
  - destruct H as (H1 & H2 & _). rewrite key_finite, H1 by assumption. change (SpecFloat.emin 53 1024) with (-1074)%Z in *. rewrite Rabs_pos_eq in Hov by exact Hr.
    rewrite Rmin_left; [reflexivity|apply Rlt_le, Hov].
  - destruct H as [H _]. destruct Hx as [_ Sx]. rewrite Sx in H. cbn in H. destruct (badd x y) as [s|s| |s m e P]; try discriminate.
    cbn [key]. change (SpecFloat.emin 53 1024) with (-1074)%Z in Hov. rewrite Rabs_pos_eq in Hov by exact Hr. rewrite Rmin_right; [reflexivity|exact Hov].
Qed.

Lemma badd_inf w : bit w -> badd binf w = binf.
Proof. intros [-> | ->]; reflexivity. Qed.

Lemma badd_mono a b w : bit w -> nonneg a -> nonneg b -> key a <= key b -> key (badd a w) <= key (badd b w).
Proof.
  intros Hw Ha Hb H. destruct (bit_nonneg w Hw) as [Nw Fw].
  destruct (nonneg_cases b Hb) as [->|Fb].
  - rewrite badd_inf by assumption. pose proof (key_range _ (proj1 (badd_key a w Ha Nw))). cbn [key binf]. lra.
  - destruct (nonneg_cases a Ha) as [->|Fa].
    + rewrite (key_finite b Fb) in H. pose proof (finite_range b Hb Fb). cbn [key binf] in H. lra.
    + rewrite !badd_round by assumption. rewrite !key_finite in H by assumption.
      apply Rle_min_compat_r. apply round_le; [apply FLT_exp_valid; exact prec_gt0|apply valid_rnd_round_mode|lra].
Qed.

(** Numbers up to 2^60: closed under adding a step. *)
Definition b_top : b64 := @B754_finite 53 1024 false 4503599627370496 8 eq_refl.
Definition small (x : b64) : Prop := nonneg x /\ key x <= key b_top.

Lemma top_step w : bit w -> key (badd b_top w) = key b_top.
Proof. intros [-> | ->]; (replace (badd b_top _) with b_top; [reflexivity|]); apply B2SF_inj; vm_compute; reflexivity. Qed.

Lemma max_step w : bit w -> badd b_max w = b_max.
Proof. intros [-> | ->]; apply B2SF_inj; vm_compute; reflexivity. Qed.

Lemma blt_false x y : nonneg x -> nonneg y -> blt x y = false <-> key y <= key x.
Proof.
  intros Hx Hy. destruct (blt x y) eqn:E.
  - apply blt_key in E; [|assumption..]. split; [discriminate|lra].
  - split; [intros _|reflexivity]. destruct (Rle_or_lt (key y) (key x)) as [|L]; [assumption|]. apply blt_key in L; [|assumption..]. congruence.
Qed.

Lemma max_nonneg : nonneg b_max.
Proof. split; reflexivity. Qed.
Lemma inf_nonneg : nonneg binf.
Proof. split; reflexivity. Qed.
Lemma zero_nonneg : nonneg bzero.
Proof. split; reflexivity. Qed.

Lemma blt_irr a : blt a a = false.
Proof.
  destruct a as [s|s| |s m e P]; try reflexivity; [destruct s; reflexivity|].
  unfold blt. rewrite Bltb_correct by reflexivity. apply Rlt_bool_false. lra.
Qed.

Lemma ieee_dist_arith : dist_arith bzero b_max binf badd blt b_isinf b_one b_sqrt2 nonneg small.
Proof.
  constructor.
  - apply (well_founded_lt_compat _ rank). intros x y (Hx & Hy & H). apply rank_lt; assumption.
  - exact blt_irr.
  - intros a b c Ha Hb Hc H1 H2. apply blt_false in H1, H2; try assumption. apply blt_false; [assumption..|]. lra.
  - intros a b c Ha Hb Hc H1 H2. apply blt_key in H1, H2; try assumption. apply blt_key; [assumption..|]. lra.
  - auto using zero_nonneg, max_nonneg, inf_nonneg.
  - intros a w Hw Ha. apply badd_key; [assumption|apply (bit_nonneg w Hw)].
  - intros a Ha. apply blt_false; [assumption|apply zero_nonneg|]. apply key_range in Ha. cbn [key bzero B2R]. lra.
  - intros a b w Hw Ha Hb H. apply blt_false in H; [|assumption..]. destruct (bit_nonneg w Hw) as [Nw _].
    apply blt_false; [apply badd_key; assumption..|]. apply badd_mono; assumption.
  - intros w Hw. rewrite max_step, badd_inf by assumption. split; [apply blt_irr|reflexivity].
  - intros a Ha. unfold b_isinf. destruct (nonneg_cases a Ha) as [->|F]; [split; reflexivity|].
    split; [|intros ->; discriminate]. destruct a as [s|s| |s m e P]; try discriminate; destruct s; discriminate.
  - split.
    + split; [apply zero_nonneg|]. unfold key, b_top, bzero, B2R, F2R; cbn. lra.
    + intros a w Hw [Ha H]. destruct (bit_nonneg w Hw) as [Nw _]. split; [apply badd_key; assumption|].
      rewrite <- (top_step w Hw). apply badd_mono; try assumption. split; reflexivity.
  - intros a [Ha H]. split; [assumption|]. apply blt_key; [assumption|apply max_nonneg|].
    eapply Rle_lt_trans; [exact H|]. apply (blt_key b_top b_max); [split; reflexivity|apply max_nonneg|reflexivity].
  - reflexivity.
Qed.

Lemma ieee_infl a w : w = b_one \/ w = b_sqrt2 -> nonneg a -> blt (badd a w) a = false.
Proof.
  intros Hw Ha. destruct (bit_nonneg w Hw) as [Nw _]. destruct (badd_key a w Ha Nw) as [N H]. apply blt_false; assumption.
Qed.

(** Rounding errors below 2^41 are tiny. *)
Lemma round_err z : 0 <= z <= bpow radix2 41 -> Rabs (rnd z - z) <= / 1024.
Proof.
  intros Hz. assert (V : Valid_exp (FLT_exp (-1074) 53)) by (apply FLT_exp_valid; exact prec_gt0).
  assert (H : Rabs (rnd z - z) <= ulp radix2 (FLT_exp (-1074) 53) z).
  { apply (error_le_ulp radix2 (FLT_exp (-1074) 53) (round_mode mode_NE)). }
  assert (H2 : ulp radix2 (FLT_exp (-1074) 53) z <= ulp radix2 (FLT_exp (-1074) 53) (bpow radix2 41)).
  { apply ulp_le_pos; [exact V|apply FLT_exp_monotone|apply Hz|apply Hz]. }
  rewrite ulp_bpow in H2. change (FLT_exp (-1074) 53 (41 + 1)) with (-11)%Z in H2.
  assert (H3 : bpow radix2 (-11) = / 2048) by (cbn; reflexivity). lra.
Qed.

Lemma pow_top : bpow radix2 41 = 2199023255552 /\ 2199023255552 < bpow radix2 1024.
Proof. split; [reflexivity|]. change 2199023255552 with (bpow radix2 41). apply bpow_lt. lia. Qed.

Lemma step_bounds x w : bit w -> nonneg x -> key x <= 2199023255550 ->
  key x < key (badd x w) <= key x + 2.
Proof.
  intros Hw Hx Hk. destruct (bit_nonneg w Hw) as [Nw Fw]. pose proof (bit_range w Hw) as Rw. destruct pow_top as [P1 P2].
  destruct (nonneg_cases x Hx) as [->|Fx]; [cbn [key binf] in Hk; lra|].
  rewrite badd_round by assumption. rewrite key_finite in * by assumption. pose proof (finite_range x Hx Fx) as Rx.
  pose proof (round_err (B2R x + B2R w)) as E. rewrite P1 in E. specialize (E ltac:(lra)).
  apply Rabs_le_inv in E. rewrite Rmin_left by lra. lra.
Qed.

Notation bcost := (pcost bzero badd b_one b_sqrt2).
Lemma bcost_bound p : (Z.of_nat (length p) <= 1099511627775)%Z -> key (bcost p) <= 2 * IZR (Z.of_nat (length p)).
Proof.
  induction p as [|a [|b r] IH]; intros H.
  - cbn. lra.
  - cbn [pcost key bzero B2R length]. cbn. lra.
  - assert (H' : (Z.of_nat (length (b :: r)) <= 1099511627774)%Z) by (clear - H; cbn [length] in *; lia).
    assert (H2 : (Z.of_nat (length (b :: r)) <= 1099511627775)%Z) by (clear - H'; lia).
    specialize (IH H2). apply IZR_le in H'.
    change (bcost (a :: b :: r)) with (badd (bcost (b :: r)) (weight b64 b_one b_sqrt2 a b)).
    pose proof (weight_cases b64 b_one b_sqrt2 a b) as Hw.
    destruct (step_bounds (bcost (b :: r)) _ Hw) as [_ U].
    + apply (pc_ok _ _ _ _ _ _ _ _ _ _ _ ieee_dist_arith).
    + lra.
    + change (length (a :: b :: r)) with (S (length (b :: r))). rewrite Nat2Z.inj_succ, succ_IZR. lra.
Qed.

Lemma ieee_strict m p w : gm_wf m -> NoDup p -> (forall c, In c p -> cell_of (gm_w m) (gm_h m) (fst c) (snd c)) ->
  w = b_one \/ w = b_sqrt2 -> blt (bcost p) (badd (bcost p) w) = true.
Proof.
  intros Hm Hnd Hin Hw.
  assert (HL : (length p <= length (all_cells m))%nat) by (apply NoDup_incl_length; [assumption|intros c Hc; apply all_cells_spec, Hin, Hc]).
  unfold all_cells in HL. rewrite prod_length in HL. unfold zrange in HL. rewrite !map_length, !seq_length in HL.
  destruct Hm as (Hw' & Hh' & Hp & _).
  assert (HL2 : (Z.of_nat (length p) <= gm_w m * gm_h m)%Z) by (clear - HL Hw' Hh'; nia).
  assert (H2 : (Z.of_nat (length p) <= 4294967296)%Z) by (clear - HL2 Hp; lia).
  assert (H3 : (Z.of_nat (length p) <= 1099511627775)%Z) by (clear - H2; lia).
  pose proof (bcost_bound p H3) as B. apply IZR_le in H2.
  destruct (step_bounds (bcost p) w Hw) as [L _]; [apply (pc_ok _ _ _ _ _ _ _ _ _ _ _ ieee_dist_arith)|lra|].
  apply blt_key; [apply (pc_ok _ _ _ _ _ _ _ _ _ _ _ ieee_dist_arith)| |exact L].
  apply badd_key; [apply (pc_ok _ _ _ _ _ _ _ _ _ _ _ ieee_dist_arith)|apply (bit_nonneg w Hw)].
Qed.
