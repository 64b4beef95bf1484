(** C50: tmpmath::round (I/common/TmpMath.hpp:8-11), in exact arithmetic and in
    IEEE-754 binary64 with round to nearest even (Flocq). *)
From Coq Require Import Reals Lra.
From Flocq Require Import Core BinarySingleNaN.
From Verif Require Import Base GeomR GenericFloat.
Local Open Scope R_scope.

(** TmpMath.hpp:10 over the reals; the return converts to [int]. *)
Definition tmp_round (x : R) : option Z :=
  cast_i32 (if Rle_dec 0 x then x + / 2 else x - / 2).

(** TmpMath.hpp:10 as compiled: [x >= 0] is false for NaN and true for -0.0;
    conversion of a non-finite value to [int] is undefined. *)
Definition bhalf : b64 := @B754_finite 53 1024 false 4503599627370496 (-53) eq_refl.
Definition tmp_round_ieee (x : b64) : option Z :=
  let s := if Bleb bzero x then badd x bhalf
           else @Bminus 53 1024 prec_gt0 prec_lt mode_NE x bhalf in
  if is_finite s then cast_i32 (B2R s) else None.

(** ** Specification: nearest integer, halves away from zero *)
Definition nearest_away (x : R) (z : Z) : Prop :=
  Rabs (IZR z - x) <= / 2 /\ (Rabs (IZR z - x) = / 2 -> Rabs x < Rabs (IZR z)).

Lemma nearest_away_pos x z : 0 <= x -> (IZR z <= x + / 2 < IZR z + 1) -> nearest_away x z.
Proof.
  intros Hx H. assert (Hz : (0 <= z)%Z).
  { assert (-1 < z)%Z; [|lia]. apply lt_IZR. lra. }
  apply IZR_le in Hz. split.
  - apply Rabs_le. lra.
  - intros E. rewrite !Rabs_pos_eq by lra. unfold Rabs in E. destruct (Rcase_abs (IZR z - x)); lra.
Qed.
Lemma nearest_away_opp x z : nearest_away x z -> nearest_away (- x) (- z).
Proof.
  unfold nearest_away. rewrite opp_IZR. replace (- IZR z - - x) with (- (IZR z - x)) by ring. rewrite !Rabs_Ropp. tauto.
Qed.
Lemma nearest_away_unique x z z' : nearest_away x z -> nearest_away x z' -> z = z'.
Proof.
  intros [A1 A2] [B1 B2].
  destruct (Z_lt_le_dec z z') as [H|H]; [exfalso|destruct (Z_lt_le_dec z' z) as [H'|H']; [exfalso|lia]].
  - assert (IZR z + 1 <= IZR z') by (rewrite <- plus_IZR; apply IZR_le; lia).
    apply Rabs_le_inv in A1. apply Rabs_le_inv in B1.
    assert (IZR z - x = - / 2) as E1 by lra. assert (IZR z' - x = / 2) as E2 by lra.
    rewrite E1, Rabs_Ropp, Rabs_pos_eq in A2 by lra. rewrite E2, Rabs_pos_eq in B2 by lra.
    specialize (A2 eq_refl). specialize (B2 eq_refl).
    replace (IZR z) with (x - / 2) in A2 by lra. replace (IZR z') with (x + / 2) in B2 by lra.
    unfold Rabs in A2, B2. repeat destruct (Rcase_abs _); try lra.
    (* 0 between: z < x < z' with |z| > |x| and |z'| > |x| cannot both hold for integers one apart *)
    all: assert (IZR z' = IZR z + 1) as E3 by lra;
         assert (z' = z + 1)%Z as E4 by (apply eq_IZR; rewrite plus_IZR; lra);
         destruct (Z_le_gt_dec 0 z) as [Hz|Hz]; [apply IZR_le in Hz; lra|];
         assert (IZR z' <= 0) by (apply IZR_le; lia); lra.
  - assert (IZR z' + 1 <= IZR z) by (rewrite <- plus_IZR; apply IZR_le; lia).
    apply Rabs_le_inv in A1. apply Rabs_le_inv in B1.
    assert (IZR z' - x = - / 2) as E1 by lra. assert (IZR z - x = / 2) as E2 by lra.
    rewrite E1, Rabs_Ropp, Rabs_pos_eq in B2 by lra. rewrite E2, Rabs_pos_eq in A2 by lra.
    specialize (A2 eq_refl). specialize (B2 eq_refl).
    replace (IZR z') with (x - / 2) in B2 by lra. replace (IZR z) with (x + / 2) in A2 by lra.
    unfold Rabs in A2, B2. repeat destruct (Rcase_abs _); try lra.
    all: assert (IZR z = IZR z' + 1) as E3 by lra;
         assert (z = z' + 1)%Z as E4 by (apply eq_IZR; rewrite plus_IZR; lra);
         destruct (Z_le_gt_dec 0 z') as [Hz|Hz]; [apply IZR_le in Hz; lra|];
         assert (IZR z <= 0) by (apply IZR_le; lia); lra.
Qed.

Lemma trunc_pos_near s x : 0 <= x -> 0 <= s -> IZR (Zfloor (x + / 2)) <= s < IZR (Zfloor (x + / 2)) + 1 ->
  nearest_away x (Ztrunc s).
Proof.
  intros Hx Hs H. rewrite Ztrunc_floor by assumption. rewrite (Zfloor_imp (Zfloor (x + / 2)) s) by (rewrite plus_IZR; assumption).
  apply nearest_away_pos; [assumption|]. split; [apply Zfloor_lb|apply Zfloor_ub].
Qed.

Lemma cast_ok s : Rabs s < 2147483648 -> cast_i32 s = Some (Ztrunc s).
Proof.
  intros H. apply Rabs_def2 in H. unfold cast_i32, in_i32. cbv zeta. destruct (_ && _)%Z eqn:E; [reflexivity|exfalso].
  apply andb_false_iff in E. rewrite Z.leb_gt, Z.ltb_ge in E. destruct (Rle_or_lt 0 s).
  - rewrite Ztrunc_floor in E by assumption. pose proof (Zfloor_lb s). pose proof (Zfloor_lub 0 s ltac:(assumption)).
    destruct E as [E|E]; [lia|]. apply IZR_le in E. lra.
  - rewrite Ztrunc_ceil in E by lra. pose proof (Zceil_ub s). pose proof (Zceil_glb 0 s ltac:(lra)).
    destruct E as [E|E]; [|lia]. apply IZR_lt in E. lra.
Qed.

(** ** Exact arithmetic *)
Theorem C50_exact : forall x, Rabs x < 2147483647 ->
  exists z, tmp_round x = Some z /\ nearest_away x z /\ forall z', nearest_away x z' -> z' = z.
Proof.
  intros x Hx. unfold tmp_round. destruct (Rle_dec 0 x) as [H|H].
  - rewrite Rabs_pos_eq in Hx by assumption. exists (Ztrunc (x + / 2)).
    split; [apply cast_ok; rewrite Rabs_pos_eq; lra|].
    assert (N : nearest_away x (Ztrunc (x + / 2))).
    { apply trunc_pos_near; [assumption|lra|]. split; [apply Zfloor_lb|apply Zfloor_ub]. }
    split; [exact N|]. intros z' Hz'. apply (nearest_away_unique x); assumption.
  - rewrite Rabs_left in Hx by lra. exists (Ztrunc (x - / 2)).
    split; [apply cast_ok; rewrite Rabs_left; lra|].
    assert (N : nearest_away x (Ztrunc (x - / 2))).
    { replace (x - / 2) with (- (- x + / 2)) by ring. rewrite Ztrunc_opp. rewrite <- (Ropp_involutive x) at 1. apply nearest_away_opp.
      apply trunc_pos_near; [lra|lra|]. split; [apply Zfloor_lb|apply Zfloor_ub]. }
    split; [exact N|]. intros z' Hz'. apply (nearest_away_unique x); assumption.
Qed.

(** ** IEEE-754 binary64 *)
Notation fmt := (generic_format radix2 (FLT_exp (-1074) 53)).

Lemma fmt_ZE m e : (Z.abs m <= 9007199254740992)%Z -> (-1074 <= e)%Z -> fmt (F2R (Float radix2 m e)).
Proof.
  intros Hm He. destruct (Z.eq_dec (Z.abs m) 9007199254740992) as [E|E].
  - assert (F2R (Float radix2 m e) = F2R (Float radix2 (Z.sgn m) (e + 53))) as ->.
    { unfold F2R. cbn [Fnum Fexp]. rewrite bpow_plus. change (bpow radix2 53) with 9007199254740992.
      assert (m = Z.sgn m * 9007199254740992)%Z as Hm' by lia. rewrite Hm' at 1. rewrite mult_IZR. ring. }
    apply generic_format_FLT. exists (Float radix2 (Z.sgn m) (e + 53)); [reflexivity| |cbn; lia]. cbn. lia.
  - apply generic_format_FLT. exists (Float radix2 m e); [reflexivity| |assumption]. cbn. lia.
Qed.
Lemma fmt_Z m : (Z.abs m <= 9007199254740992)%Z -> fmt (IZR m).
Proof. intros H. replace (IZR m) with (F2R (Float radix2 m 0)) by (unfold F2R; cbn; ring). apply fmt_ZE; [assumption|lia]. Qed.
Lemma fmt_half m : (Z.abs m <= 9007199254740992)%Z -> fmt (IZR m / 2).
Proof. intros H. replace (IZR m / 2) with (F2R (Float radix2 m (-1))) by (unfold F2R; cbn; field). apply fmt_ZE; [assumption|lia]. Qed.

(** A binary64 number x in [2^(e-1), 2^e) is a multiple of 2^(e-53). *)
Lemma fmt_multiple x e : fmt x -> bpow radix2 (e - 1) <= x < bpow radix2 e -> (-1020 <= e)%Z ->
  exists m, x = F2R (Float radix2 m (e - 53)).
Proof.
  intros Hf Hx He. exists (Ztrunc (scaled_mantissa radix2 (FLT_exp (-1074) 53) x)).
  assert (Hm : cexp radix2 (FLT_exp (-1074) 53) x = (e - 53)%Z).
  { unfold cexp, FLT_exp. rewrite (mag_unique_pos radix2 x e Hx). lia. }
  rewrite <- Hm. exact Hf.
Qed.

Notation rn := (round radix2 (FLT_exp (-1074) 53) ZnearestE).
Local Instance v64 : Valid_exp (FLT_exp (-1074) 53).
Proof. apply FLT_exp_valid. reflexivity. Qed.

Lemma round_half_near X : fmt X -> 0 <= X < 2147483647 -> X <> / 2 - bpow radix2 (-54) ->
  IZR (Zfloor (X + / 2)) <= rn (X + / 2) < IZR (Zfloor (X + / 2)) + 1.
Proof.
  intros Hf HX Hne. set (n := Zfloor (X + / 2)).
  assert (Hn : IZR n <= X + / 2 < IZR n + 1) by (split; [apply Zfloor_lb|apply Zfloor_ub]).
  assert (Hn0 : (0 <= n)%Z) by (apply Zfloor_lub; lra).
  assert (Hn1 : (n <= 2147483647)%Z) by (assert (n < 2147483648)%Z by (apply lt_IZR; lra); lia).
  split.
  { apply round_ge_generic; [typeclasses eauto|typeclasses eauto| |apply Hn]. apply fmt_Z. lia. }
  destruct (Z.eq_dec n 0) as [E0|E0].
  - (* X < 1/2 *)
    rewrite E0 in *. destruct (Rlt_or_le X (/ 4)) as [Hs|Hs].
    + apply Rle_lt_trans with (3 / 4); [|lra]. apply round_le_generic; [typeclasses eauto|typeclasses eauto| |lra].
      replace (3 / 4) with (F2R (Float radix2 3 (-2))) by (unfold F2R; cbn; field). apply fmt_ZE; lia.
    + destruct (fmt_multiple X (-1) Hf) as [m Hm]; [cbn; lra|lia|].
      change (-1 - 53)%Z with (-54)%Z in Hm. unfold F2R in Hm. cbn [Fnum Fexp] in Hm.
      assert (B54 : bpow radix2 (-54) = / 18014398509481984) by reflexivity. rewrite B54 in *.
      assert (m < 9007199254740992)%Z by (apply lt_IZR; lra).
      assert (m <> 9007199254740991)%Z by (intros ->; apply Hne; lra).
      assert (IZR m <= 9007199254740990) by (apply IZR_le; lia).
      apply Rle_lt_trans with (F2R (Float radix2 9007199254740991 (-53))).
      * apply round_le_generic; [typeclasses eauto|typeclasses eauto|apply fmt_ZE; lia|].
        unfold F2R. cbn [Fnum Fexp]. replace (bpow radix2 (-53)) with (/ 9007199254740992) by reflexivity. lra.
      * unfold F2R. cbn [Fnum Fexp]. replace (bpow radix2 (-53)) with (/ 9007199254740992) by reflexivity. lra.
  - (* X >= 1/2 *)
    assert (H1n : 1 <= IZR n) by (apply IZR_le; lia).
    assert (HXp : 0 < X) by lra.
    destruct (mag radix2 X) as [e He]. specialize (He ltac:(lra)). rewrite Rabs_pos_eq in He by lra.
    assert (He0 : (0 <= e)%Z).
    { destruct (Z_lt_le_dec e 0); [|assumption]. exfalso. assert (bpow radix2 e <= bpow radix2 (-1)) by (apply bpow_le; lia).
      change (bpow radix2 (-1)) with (/ 2) in *. lra. }
    assert (He1 : (e <= 31)%Z).
    { destruct (Z_le_gt_dec e 31); [assumption|]. exfalso. assert (bpow radix2 31 <= bpow radix2 (e - 1)) by (apply bpow_le; lia).
      change (bpow radix2 31) with 2147483648 in *. lra. }
    destruct (fmt_multiple X e Hf He) as [m Hm]; [lia|].
    assert (Pe : bpow radix2 e = IZR (2 ^ e)) by (rewrite <- (IZR_Zpower radix2) by assumption; reflexivity).
    assert (Hpe : (0 < 2 ^ e <= 2147483648)%Z).
    { split; [apply Z.pow_pos_nonneg; lia|]. change 2147483648%Z with (2 ^ 31)%Z. apply Z.pow_le_mono_r; lia. }
    destruct (Rlt_or_le (X + / 2) (bpow radix2 e)) as [Hl|Hl].
    + assert (Hf2 : fmt (X + / 2)).
      { assert (E : X + / 2 = F2R (Float radix2 (m + 2 ^ (52 - e)) (e - 53))).
        { rewrite Hm. unfold F2R. cbn [Fnum Fexp]. rewrite plus_IZR, Rmult_plus_distr_r. f_equal.
          change 2%Z with (radix_val radix2). rewrite IZR_Zpower by lia. rewrite <- bpow_plus.
          replace (52 - e + (e - 53))%Z with (-1)%Z by lia. reflexivity. }
        rewrite E. apply fmt_ZE; [|lia].
        assert (Hb : F2R (Float radix2 (m + 2 ^ (52 - e)) (e - 53)) < bpow radix2 e) by (rewrite <- E; assumption).
        assert (Hb0 : 0 < F2R (Float radix2 (m + 2 ^ (52 - e)) (e - 53))) by (rewrite <- E; lra).
        unfold F2R in Hb, Hb0. cbn [Fnum Fexp] in Hb, Hb0. pose proof (bpow_gt_0 radix2 (e - 53)) as Hp.
        assert (0 < IZR (m + 2 ^ (52 - e))) as G1 by nra. apply lt_IZR in G1.
        assert (IZR (m + 2 ^ (52 - e)) < 9007199254740992) as G2.
        { apply (Rmult_lt_reg_r (bpow radix2 (e - 53))); [assumption|]. eapply Rlt_le_trans; [exact Hb|].
          change 9007199254740992 with (bpow radix2 53). rewrite <- bpow_plus. replace (53 + (e - 53))%Z with e by lia. lra. }
        apply lt_IZR in G2. lia. }
      rewrite round_generic by (typeclasses eauto || assumption). apply Hn.
    + assert (Hnn : (2 ^ e <= n)%Z) by (apply Zfloor_lub; rewrite <- Pe; assumption). apply IZR_le in Hnn.
      apply Rle_lt_trans with (IZR (2 * 2 ^ e + 1) / 2).
      * apply round_le_generic; [typeclasses eauto|typeclasses eauto|apply fmt_half; lia|].
        rewrite plus_IZR, mult_IZR, <- Pe. lra.
      * rewrite plus_IZR, mult_IZR. lra.
Qed.

Lemma rn_bound X : 0 <= X < 2147483647 -> 0 <= rn (X + / 2) <= 2147483647 + / 2.
Proof.
  intros H. split.
  - apply round_ge_generic; [typeclasses eauto|typeclasses eauto|apply generic_format_0|lra].
  - apply round_le_generic; [typeclasses eauto|typeclasses eauto| |lra].
    replace (2147483647 + / 2) with (IZR 4294967295 / 2) by (cbn; field). apply fmt_half. lia.
Qed.

Lemma bhalf_val : B2R bhalf = / 2.
Proof. cbn. unfold F2R. cbn. field. Qed.

(** In binary64 the helper rounds every value to the nearest integer, halves away
    from zero, except the two values next to +-1/2 towards zero. *)
Theorem C50_ieee : forall x : b64, is_finite x = true -> Rabs (B2R x) < 2147483647 ->
  Rabs (B2R x) <> / 2 - bpow radix2 (-54) ->
  exists z, tmp_round_ieee x = Some z /\ nearest_away (B2R x) z.
Proof.
  intros x Fx Hx Hne. unfold tmp_round_ieee. cbv zeta.
  assert (Hf : fmt (B2R x)) by (apply generic_format_B2R).
  assert (Hov : bpow radix2 1024 > 2147483648).
  { apply Rlt_gt. change 2147483648 with (bpow radix2 31). apply bpow_lt. reflexivity. }
  rewrite Bleb_correct by (assumption || reflexivity).
  change (B2R bzero) with 0. case Rle_bool_spec; intros Hs.
  - rewrite Rabs_pos_eq in Hx, Hne by assumption.
    pose proof (@Bplus_correct 53 1024 prec_gt0 prec_lt mode_NE x bhalf Fx eq_refl) as H. fold (badd x bhalf) in H.
    rewrite bhalf_val in H. change (round radix2 (SpecFloat.fexp 53 1024) (round_mode mode_NE) (B2R x + / 2)) with (rn (B2R x + / 2)) in H.
    pose proof (rn_bound (B2R x) ltac:(lra)) as Hb. revert H. rewrite Rlt_bool_true by (rewrite Rabs_pos_eq; lra).
    intros (E & F & _). rewrite F, E. exists (Ztrunc (rn (B2R x + / 2))).
    split; [apply cast_ok; rewrite Rabs_pos_eq; lra|].
    apply trunc_pos_near; [assumption|lra|]. apply round_half_near; [assumption|lra|assumption].
  - rewrite Rabs_left in Hx, Hne by assumption.
    pose proof (@Bminus_correct 53 1024 prec_gt0 prec_lt mode_NE x bhalf Fx eq_refl) as H.
    rewrite bhalf_val in H. change (round radix2 (SpecFloat.fexp 53 1024) (round_mode mode_NE) (B2R x - / 2)) with (rn (B2R x - / 2)) in H.
    replace (B2R x - / 2) with (- (- B2R x + / 2)) in H by ring. rewrite round_NE_opp in H.
    pose proof (rn_bound (- B2R x) ltac:(lra)) as Hb. revert H. rewrite Rlt_bool_true by (rewrite Rabs_Ropp, Rabs_pos_eq; lra).
    intros (E & F & _). rewrite F, E. exists (Ztrunc (- rn (- B2R x + / 2))).
    split; [apply cast_ok; rewrite Rabs_Ropp, Rabs_pos_eq; lra|].
    rewrite Ztrunc_opp. rewrite <- (Ropp_involutive (B2R x)) at 1. apply nearest_away_opp.
    apply trunc_pos_near; [lra|lra|]. apply round_half_near; [apply generic_format_opp; assumption|lra|assumption].
Qed.

(** 0.49999999999999994 (the double just below one half) is rounded up to 1. *)
Definition bpred_half : b64 := @B754_finite 53 1024 false 9007199254740991 (-54) eq_refl.
Theorem C50_ieee_refuted :
  B2R bpred_half = / 2 - bpow radix2 (-54) /\
  tmp_round_ieee bpred_half = Some 1%Z /\ ~ nearest_away (B2R bpred_half) 1.
Proof.
  assert (E : B2R bpred_half = / 2 - bpow radix2 (-54)) by (cbn; unfold F2R; cbn; lra).
  split; [exact E|]. split.
  - unfold tmp_round_ieee. cbv zeta.
    replace (Bleb bzero bpred_half) with true by (vm_compute; reflexivity).
    assert (V : B2SF (badd bpred_half bhalf) = SpecFloat.S754_finite false 4503599627370496 (-52)) by (vm_compute; reflexivity).
    destruct (badd bpred_half bhalf) as [s|s| |s m e P]; try discriminate. cbn in V. injection V as -> -> ->.
    cbn [is_finite B2R]. unfold F2R. cbn.
    replace (4503599627370496 * / 4503599627370496) with 1 by field.
    unfold cast_i32. rewrite (Ztrunc_IZR 1). reflexivity.
  - rewrite E. intros [H _]. change (bpow radix2 (-54)) with (/ 18014398509481984) in H. apply Rabs_le_inv in H. lra.
Qed.

(** Non-vacuity: 2.5 rounds to 3, -2.5 to -3. *)
Example C50_example : nearest_away (25 / 10) 3 /\ nearest_away (- (25 / 10)) (-3) /\ ~ nearest_away (25 / 10) 2.
Proof.
  assert (nearest_away (25 / 10) 3) by (apply nearest_away_pos; lra).
  split; [assumption|]. split; [apply (nearest_away_opp _ 3); assumption|].
  intros H1. pose proof (nearest_away_unique _ _ _ H H1). discriminate.
Qed.

Print Assumptions C50_exact.
Print Assumptions C50_ieee.
