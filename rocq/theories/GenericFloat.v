(** The cost arithmetic of the code is IEEE-754 binary64, round to nearest even:
    it meets what C20 asks for (rounding included). Flocq's formalisation. *)
From Coq Require Import Reals Lra.
From Flocq Require Import Core BinarySingleNaN.
From Verif Require Import Base.
Local Open Scope R_scope.

Notation b64 := (binary_float 53 1024).
Definition prec_gt0 : Prec_gt_0 53 := eq_refl.
Definition prec_lt : Prec_lt_emax 53 1024 := eq_refl.
Definition badd (x y : b64) : b64 := @Bplus 53 1024 prec_gt0 prec_lt mode_NE x y.
Definition bmul (x y : b64) : b64 := @Bmult 53 1024 prec_gt0 prec_lt mode_NE x y.
Definition blt (x y : b64) : bool := Bltb x y.
Definition bzero : b64 := B754_zero false.
Definition binf : b64 := B754_infinity false.

(** A non-negative double, possibly +infinity, not NaN. *)
Definition nonneg (x : b64) : Prop := is_nan x = false /\ Bsign x = false.
Definition key (x : b64) : R := match x with B754_infinity _ => bpow radix2 1024 | x => B2R x end.

Lemma key_finite x : is_finite x = true -> key x = B2R x.
Proof. destruct x; try discriminate; reflexivity. Qed.

Lemma key_range x : nonneg x -> 0 <= key x <= bpow radix2 1024.
Proof.
  intros [Hn Hs]. pose proof (bpow_gt_0 radix2 1024). destruct x as [s|s| |s m e B]; try discriminate; cbn [Bsign] in Hs; subst s.
  - cbn [key B2R]. lra.
  - cbn [key]. lra.
  - pose proof (abs_B2R_lt_emax 53 1024 (B754_finite false m e B)) as H1. cbn [key].
    assert (0 <= B2R (B754_finite false m e B)) by (apply F2R_ge_0; discriminate).
    rewrite Rabs_pos_eq in H1 by assumption. lra.
Qed.

Lemma blt_key x y : nonneg x -> nonneg y -> blt x y = true <-> key x < key y.
Proof.
  intros Hx Hy. destruct (is_finite x) eqn:Fx, (is_finite y) eqn:Fy.
  - unfold blt. rewrite Bltb_correct by assumption. rewrite !key_finite by assumption. case Rlt_bool_spec; intros H; split; intros H'; (lra || discriminate || reflexivity || assumption).
  - assert (y = binf) as ->. { destruct Hy as [A B]. destruct y as [s|s| |s m e P]; try discriminate. cbn in B. subst s. reflexivity. }
    pose proof (abs_B2R_lt_emax 53 1024 x) as H1. rewrite (key_finite x Fx). cbn [key binf].
    pose proof (Rle_abs (B2R x)). split; [intros _; lra|intros _]. destruct Hx as [_ B]. destruct x as [s|s| |s m e P]; try discriminate; cbn in B; subst s; reflexivity.
  - assert (x = binf) as ->. { destruct Hx as [A B]. destruct x as [s|s| |s m e P]; try discriminate. cbn in B. subst s. reflexivity. }
    pose proof (key_range y Hy) as H1. cbn [key binf]. split; [|intros; lra]. intros H. exfalso.
    destruct Hy as [_ B]. destruct y as [s|s| |s m e P]; try discriminate; cbn in B; subst s; discriminate.
  - assert (x = binf) as ->. { destruct Hx as [A B]. destruct x as [s|s| |s m e P]; try discriminate. cbn in B. subst s. reflexivity. }
    assert (y = binf) as ->. { destruct Hy as [A B]. destruct y as [s|s| |s m e P]; try discriminate. cbn in B. subst s. reflexivity. }
    split; [discriminate|intros; lra].
Qed.

Notation rnd := (round radix2 (FLT_exp (-1074) 53) (round_mode mode_NE)).

Lemma badd_key x y : nonneg x -> nonneg y -> nonneg (badd x y) /\ key x <= key (badd x y).
Proof.
  intros Hx Hy. destruct (is_finite x) eqn:Fx, (is_finite y) eqn:Fy.
  - pose proof (key_range x Hx) as Rx. pose proof (key_range y Hy) as Ry. rewrite (key_finite x Fx) in *. rewrite (key_finite y Fy) in Ry.
    pose proof (@Bplus_correct 53 1024 prec_gt0 prec_lt mode_NE x y Fx Fy) as H. fold (badd x y) in H.
    destruct Hx as [Nx Sx], Hy as [Ny Sy].
    revert H. case Rlt_bool_spec; intros Hov H.
    + destruct H as (H1 & H2 & H3). split; [split|].
      * destruct (badd x y); try discriminate; reflexivity.
      * rewrite H3, Sx, Sy. case Rcompare_spec; intros Hc; [lra|reflexivity|reflexivity].
      * rewrite key_finite, H1 by assumption. apply round_ge_generic.
        -- apply FLT_exp_valid. exact prec_gt0.
        -- apply valid_rnd_round_mode.
        -- apply (generic_format_B2R 53 1024).
        -- lra.
    + destruct H as [H _]. rewrite Sx in H. cbn in H. destruct (badd x y) as [s|s| |s m e P]; try discriminate. cbn in H. injection H as ->.
      split; [split; reflexivity|]. cbn [key]. lra.
  - assert (y = binf) as ->. { destruct Hy as [A B]. destruct y as [s|s| |s m e P]; try discriminate. cbn in B. subst s. reflexivity. }
    assert (badd x binf = binf) as ->. { destruct x; try discriminate; reflexivity. }
    split; [split; reflexivity|]. apply key_range in Hx. cbn [key binf]. lra.
  - assert (x = binf) as ->. { destruct Hx as [A B]. destruct x as [s|s| |s m e P]; try discriminate. cbn in B. subst s. reflexivity. }
    assert (badd binf y = binf) as ->. { destruct y; try discriminate; reflexivity. }
    split; [split; reflexivity|]. lra.
  - assert (x = binf) as ->. { destruct Hx as [A B]. destruct x as [s|s| |s m e P]; try discriminate. cbn in B. subst s. reflexivity. }
    assert (y = binf) as ->. { destruct Hy as [A B]. destruct y as [s|s| |s m e P]; try discriminate. cbn in B. subst s. reflexivity. }
    split; [split; reflexivity|]. cbn. lra.
Qed.

(** A product of finite non-negative doubles is non-negative (or overflows to +infinity). *)
Lemma bmul_nonneg x y : is_finite x = true -> is_finite y = true -> Bsign x = false -> Bsign y = false -> nonneg (bmul x y).
Proof.
  intros Fx Fy Sx Sy. pose proof (@Bmult_correct 53 1024 prec_gt0 prec_lt mode_NE x y) as H. fold (bmul x y) in H.
  revert H. case Rlt_bool_spec; intros Hov H.
  - destruct H as (_ & H2 & H3). rewrite Fx, Fy in H2. cbn [andb] in H2.
    assert (Hn : is_nan (bmul x y) = false) by (destruct (bmul x y); try discriminate; reflexivity).
    split; [exact Hn|]. rewrite (H3 Hn), Sx, Sy. reflexivity.
  - rewrite Sx, Sy in H. cbn in H. destruct (bmul x y) as [s|s| |s m e P]; try discriminate. cbn in H. injection H as ->. split; reflexivity.
Qed.

(** Every double is an integer multiple of 2^-1074, so [<] is well founded on the
    non-negative ones. *)
Lemma key_int x : exists z, key x * bpow radix2 1074 = IZR z.
Proof.
  assert (H : forall r, generic_format radix2 (FLT_exp (-1074) 53) r -> exists z, r * bpow radix2 1074 = IZR z).
  { intros r Hr. apply FLT_format_generic in Hr; [|exact prec_gt0]. destruct Hr as [f -> _ He].
    exists (Fnum f * Zpower radix2 (Fexp f + 1074))%Z. unfold F2R. rewrite mult_IZR, IZR_Zpower by lia.
    rewrite Rmult_assoc, <- bpow_plus. reflexivity. }
  destruct x as [s|s| |s m e P].
  - apply H. apply generic_format_0.
  - cbn [key]. rewrite <- bpow_plus. exists (Zpower radix2 (1024 + 1074)). symmetry. apply IZR_Zpower. lia.
  - apply H. apply generic_format_0.
  - apply H. apply (generic_format_B2R 53 1024 (B754_finite s m e P)).
Qed.

Definition rank (x : b64) : nat := Z.to_nat (Zfloor (key x * bpow radix2 1074)).
Lemma rank_lt x y : nonneg x -> nonneg y -> blt x y = true -> (rank x < rank y)%nat.
Proof.
  intros Hx Hy H. apply blt_key in H; [|assumption|assumption]. unfold rank.
  destruct (key_int x) as [a Ea], (key_int y) as [b Eb]. rewrite Ea, Eb, !Zfloor_IZR.
  pose proof (bpow_gt_0 radix2 1074) as Hp. apply key_range in Hx, Hy.
  assert (0 <= a)%Z by (apply le_IZR; rewrite <- Ea; nra).
  assert (a < b)%Z by (apply lt_IZR; rewrite <- Ea, <- Eb; nra). lia.
Qed.

From Verif Require Import GridMap PathSpec GenericSearch GenericProofs OpenPolicies DirectSpec DirectSearch PropGeneric.

Lemma ieee_cost_arith (cost : bool -> b64) : (forall d, nonneg (cost d)) -> cost_arith bzero badd blt cost nonneg.
Proof.
  intros Hc. constructor.
  - apply (well_founded_lt_compat _ rank). intros x y (Hx & Hy & H). apply rank_lt; assumption.
  - intros a. destruct a as [s|s| |s m e P]; try reflexivity; [destruct s; reflexivity|].
    unfold blt. rewrite Bltb_correct by reflexivity. apply Rlt_bool_false. lra.
  - split; reflexivity.
  - intros d a Ha. apply badd_key; auto.
  - intros d a Ha. destruct (badd_key a (cost d) Ha (Hc d)) as [A B]. destruct (blt (badd a (cost d)) a) eqn:E; [|reflexivity].
    apply blt_key in E; [lra|assumption|assumption].
  - intros a b c Ha Hb Hcc H1 H2. destruct (blt c a) eqn:E; [|reflexivity]. apply blt_key in E; [|assumption|assumption].
    assert (H1' : ~ (key b < key a)%R) by (rewrite <- blt_key by assumption; congruence).
    assert (H2' : ~ (key c < key b)%R) by (rewrite <- blt_key by assumption; congruence). lra.
Qed.

(** C20 with the arithmetic of the hardware: costs are delta * res in binary64
    for any non-negative finite resolution, sums are rounded, the heuristic and
    the total cost are arbitrary doubles. *)
Theorem C20_complete_ieee tot heur hyp push pop best eight D (delta : bool -> b64) res op m first from to s g :
  push_ok push -> pop_ok pop -> best_ok best -> (forall l, best l = None -> l = []) -> (0 < D)%Z ->
  (forall d, is_finite (delta d) = true /\ Bsign (delta d) = false) -> is_finite res = true -> Bsign res = false ->
  gm_wf m -> (forall n, op_timeout b64 op n = false) ->
  in_cell from s -> in_cell to g ->
  cell_of (gm_w m) (gm_h m) (fst s) (snd s) -> cell_of (gm_w m) (gm_h m) (fst g) (snd g) ->
  ~ map_occupied m s -> ~ map_occupied m g ->
  exists fuel p o',
    findPath b64 bzero badd blt tot (fun d => bmul (delta d) res) heur hyp push pop best eight D fuel op
      (new_sobj b64 bzero binf m first) from to = (FPath p, o') /\
    (p = [] <-> ~ exists t q, near D g t /\ direct_path eight D m s t q).
Proof.
  intros Hpush Hpop Hbest Hbs HD Hdel Fr Sr. intros Hwf Hto Hs Hg Cs Cg Os Og.
  eapply C20_complete; try eassumption. apply ieee_cost_arith. intros d. apply bmul_nonneg; try assumption; apply Hdel.
Qed.
Print Assumptions C20_complete_ieee.
Example C20_ieee_costs : let one : b64 := @Bone 53 1024 prec_gt0 prec_lt in
  forall d : bool, is_finite (if d then badd one one else one) = true /\ Bsign (if d then badd one one else one) = false.
Proof. intros one [|]; vm_compute; split; reflexivity. Qed.
