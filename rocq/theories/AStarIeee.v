(** C17: the arithmetic of AStarFloat.v meets the assumptions of AStarRound.v. *)
From Coq Require Import Reals Lra.
From Flocq Require Import Core BinarySingleNaN.
From Verif Require Import Base GridMap GridMapProofs PathSpec PathLen AStarOld AStarOldProofs AStarFloat AStarRound PropAStar.
Local Open Scope R_scope.

Notation r64 := (round radix2 (FLT_exp (-1074) 53) ZnearestE).
Notation r32 := (round radix2 (FLT_exp (-149) 24) ZnearestE).
Notation F64 := (generic_format radix2 (FLT_exp (-1074) 53)).
Notation F32 := (generic_format radix2 (FLT_exp (-149) 24)).
#[local] Instance i64 : Prec_gt_0 53 := p64.
#[local] Instance i32 : Prec_gt_0 24 := p32.
#[local] Instance v64 : Valid_exp (FLT_exp (-1074) 53) := FLT_exp_valid (-1074) 53.
#[local] Instance v32 : Valid_exp (FLT_exp (-149) 24) := FLT_exp_valid (-149) 24.

(** ** Rounding *)
Lemma rnd_err prec emin k x : Prec_gt_0 prec -> (emin + prec <= k)%Z -> 0 <= x <= bpow radix2 k ->
  Rabs (round radix2 (FLT_exp emin prec) ZnearestE x - x) <= bpow radix2 (k - prec - 1).
Proof.
  intros Hp Hk [H0 H1]. pose proof (FLT_exp_valid emin prec) as V. unfold Prec_gt_0 in Hp.
  assert (P : 0 <= bpow radix2 (k - prec - 1)) by apply bpow_ge_0.
  destruct (Req_dec x 0) as [->|Hx].
  { rewrite round_0 by apply valid_rnd_N. rewrite Rminus_0_r, Rabs_R0. exact P. }
  destruct (Req_dec x (bpow radix2 k)) as [->|Hk1].
  { rewrite round_generic; [rewrite Rminus_diag_eq by reflexivity; rewrite Rabs_R0; exact P|apply valid_rnd_N|]. apply generic_format_bpow. unfold FLT_exp. lia. }
  eapply Rle_trans; [apply error_le_half_ulp; exact V|]. rewrite ulp_neq_0 by exact Hx. unfold cexp.
  assert (Mg : (mag radix2 x <= k)%Z).
  { apply mag_le_bpow; [exact Hx|]. rewrite Rabs_pos_eq by lra. lra. }
  replace (bpow radix2 (k - prec - 1)) with (/ 2 * bpow radix2 (k - prec)).
  - apply Rmult_le_compat_l; [lra|]. apply bpow_le. unfold FLT_exp. lia.
  - replace (k - prec - 1)%Z with (-1 + (k - prec))%Z by lia. rewrite bpow_plus. f_equal.
Qed.
Lemma r64_mono x y : x <= y -> r64 x <= r64 y.
Proof. apply round_le; [exact v64|apply valid_rnd_N]. Qed.
Lemma r32_mono x y : x <= y -> r32 x <= r32 y.
Proof. apply round_le; [exact v32|apply valid_rnd_N]. Qed.
Lemma r64_id x : F64 x -> r64 x = x.
Proof. intros H. apply round_generic; [apply valid_rnd_N|exact H]. Qed.
Lemma r32_id x : F32 x -> r32 x = x.
Proof. intros H. apply round_generic; [apply valid_rnd_N|exact H]. Qed.
Lemma F64_bpow k : (-1074 <= k)%Z -> F64 (bpow radix2 k).
Proof. intros H. apply generic_format_bpow. unfold FLT_exp. lia. Qed.
Lemma F32_bpow k : (-149 <= k)%Z -> F32 (bpow radix2 k).
Proof. intros H. apply generic_format_bpow. unfold FLT_exp. lia. Qed.
Lemma F32_F64 x : F32 x -> F64 x.
Proof. intros H. apply (generic_inclusion_mag radix2 (FLT_exp (-149) 24)); [|exact H]. intros _. unfold FLT_exp. lia. Qed.
Lemma F64_IZR z : (Z.abs z <= 2 ^ 53)%Z -> F64 (IZR z).
Proof.
  intros H. destruct (Z.eq_dec (Z.abs z) (2 ^ 53)) as [E|E].
  - assert (z = 2 ^ 53 \/ z = - 2 ^ 53)%Z as [-> | ->] by lia.
    + apply (F64_bpow 53). lia.
    + rewrite opp_IZR. apply generic_format_opp. apply (F64_bpow 53). lia.
  - apply generic_format_FLT. exists (Float radix2 z 0); [unfold F2R; cbn; lra|cbn [Fnum]; change (radix2 ^ 53)%Z with (2 ^ 53)%Z; lia|cbn; lia].
Qed.
Lemma r64_ge0 x : 0 <= x -> 0 <= r64 x.
Proof. intros H. rewrite <- (r64_id 0) by apply generic_format_0. apply r64_mono. exact H. Qed.
Lemma r32_ge0 x : 0 <= x -> 0 <= r32 x.
Proof. intros H. rewrite <- (r32_id 0) by apply generic_format_0. apply r32_mono. exact H. Qed.

(** ** Operations *)
Notation fin x := (is_finite x = true).
Lemma dadd_spec x y : fin x -> fin y -> 0 <= B2R x + B2R y <= bpow radix2 1000 ->
  fin (dadd x y) /\ B2R (dadd x y) = r64 (B2R x + B2R y).
Proof.
  intros Fx Fy [B0 B1]. pose proof (@Bplus_correct 53 1024 p64 l64 mode_NE x y Fx Fy) as C. fold (dadd x y) in C.
  rewrite Rlt_bool_true in C; [destruct C as (C1 & C2 & _); split; assumption|].
  change (round radix2 _ _ _) with (r64 (B2R x + B2R y)). rewrite Rabs_pos_eq by (apply r64_ge0; exact B0).
  eapply Rle_lt_trans; [apply r64_mono; exact B1|]. rewrite r64_id by (apply F64_bpow; lia). apply bpow_lt. lia.
Qed.
Lemma fadd_spec x y : fin x -> fin y -> 0 <= B2R x + B2R y <= bpow radix2 100 ->
  fin (fadd x y) /\ B2R (fadd x y) = r32 (B2R x + B2R y).
Proof.
  intros Fx Fy [B0 B1]. pose proof (@Bplus_correct 24 128 p32 l32 mode_NE x y Fx Fy) as C. fold (fadd x y) in C.
  rewrite Rlt_bool_true in C; [destruct C as (C1 & C2 & _); split; assumption|].
  change (round radix2 _ _ _) with (r32 (B2R x + B2R y)). rewrite Rabs_pos_eq by (apply r32_ge0; exact B0).
  eapply Rle_lt_trans; [apply r32_mono; exact B1|]. rewrite r32_id by (apply F32_bpow; lia). apply bpow_lt. lia.
Qed.
Lemma dmul_spec x y : fin x -> fin y -> 0 <= B2R x * B2R y <= bpow radix2 1000 ->
  fin (dmul x y) /\ B2R (dmul x y) = r64 (B2R x * B2R y).
Proof.
  intros Fx Fy [B0 B1]. pose proof (@Bmult_correct 53 1024 p64 l64 mode_NE x y) as C. fold (dmul x y) in C.
  rewrite Rlt_bool_true in C; [destruct C as (C1 & C2 & _); rewrite Fx, Fy in C2; split; assumption|].
  change (round radix2 _ _ _) with (r64 (B2R x * B2R y)). rewrite Rabs_pos_eq by (apply r64_ge0; exact B0).
  eapply Rle_lt_trans; [apply r64_mono; exact B1|]. rewrite r64_id by (apply F64_bpow; lia). apply bpow_lt. lia.
Qed.
Lemma dsqrt_spec x : fin x -> 0 <= B2R x -> fin (dsqrt x) /\ B2R (dsqrt x) = r64 (sqrt (B2R x)).
Proof.
  intros Fx B0. destruct (@Bsqrt_correct 53 1024 p64 l64 mode_NE x) as (C1 & C2 & _). fold (dsqrt x) in C1, C2.
  split; [|exact C1]. rewrite C2. destruct x as [s|s| |s m e H]; try discriminate; [reflexivity|]. destruct s; [|reflexivity].
  exfalso. cbn [B2R cond_Zopp] in B0. assert (F2R (Float radix2 (- Z.pos m) e) < 0) by (apply F2R_lt_0; reflexivity). cbn in B0, H0. lra.
Qed.
Lemma d_of_Z_spec z : (Z.abs z <= 2 ^ 53)%Z -> fin (d_of_Z z) /\ B2R (d_of_Z z) = IZR z.
Proof.
  intros Hz. pose proof (@binary_normalize_correct 53 1024 p64 l64 mode_NE z 0 false) as C. cbv zeta in C. fold (d_of_Z z) in C.
  assert (E : F2R (Float radix2 z 0) = IZR z) by (unfold F2R; cbn; lra). rewrite E in C.
  change (round radix2 _ _ (IZR z)) with (r64 (IZR z)) in C. rewrite r64_id in C by (apply F64_IZR; exact Hz).
  rewrite Rlt_bool_true in C; [destruct C as (C1 & C2 & _); split; assumption|].
  rewrite <- abs_IZR. apply (Rle_lt_trans _ (bpow radix2 53)); [|apply bpow_lt; lia]. change (bpow radix2 53) with (IZR (2 ^ 53)). apply IZR_le. exact Hz.
Qed.
Lemma to_f32_spec x : fin x -> 0 <= B2R x <= bpow radix2 100 -> fin (to_f32 x) /\ B2R (to_f32 x) = r32 (B2R x).
Proof.
  intros Fx [B0 B1]. destruct x as [s|s| |s m e H]; try discriminate.
  - cbn [to_f32 B2R is_finite]. split; [reflexivity|]. symmetry. apply r32_id. apply generic_format_0.
  - cbn [to_f32]. pose proof (@binary_normalize_correct 24 128 p32 l32 mode_NE (cond_Zopp s (Z.pos m)) e s) as C. cbv zeta in C.
    change (F2R (Float radix2 (cond_Zopp s (Z.pos m)) e)) with (B2R (B754_finite s m e H)) in C. set (x := B754_finite s m e H) in *. clearbody x.
    change (round radix2 _ _ (B2R x)) with (r32 (B2R x)) in C.
    rewrite Rlt_bool_true in C; [destruct C as (C1 & C2 & _); split; assumption|].
    rewrite Rabs_pos_eq by (apply r32_ge0; exact B0).
    eapply Rle_lt_trans; [apply r32_mono; exact B1|]. rewrite r32_id by (apply F32_bpow; lia). apply bpow_lt. lia.
Qed.
Lemma B2R_F32 (x : b32) : F32 (B2R x).
Proof. apply (generic_format_B2R 24 128). Qed.
Lemma to_f64_spec x : fin x -> 0 <= B2R x -> fin (to_f64 x) /\ B2R (to_f64 x) = B2R x.
Proof.
  intros Fx B0. destruct x as [s|s| |s m e H]; try discriminate; [split; reflexivity|].
  cbn [to_f64]. pose proof (@binary_normalize_correct 53 1024 p64 l64 mode_NE (cond_Zopp s (Z.pos m)) e s) as C. cbv zeta in C.
  change (F2R (Float radix2 (cond_Zopp s (Z.pos m)) e)) with (B2R (B754_finite s m e H)) in C. set (x := B754_finite s m e H) in *. clearbody x.
  change (round radix2 _ _ (B2R x)) with (r64 (B2R x)) in C. rewrite r64_id in C by (apply F32_F64, B2R_F32).
  rewrite Rlt_bool_true in C; [destruct C as (C1 & C2 & _); split; assumption|].
  eapply Rlt_trans; [apply abs_B2R_lt_emax|]. apply bpow_lt. lia.
Qed.
Lemma trunc_spec (x : b32) : fin x -> 0 <= B2R x < 2147483648 ->
  (0 <= trunc_int x < 2147483648)%Z /\ IZR (trunc_int x) <= B2R x < IZR (trunc_int x) + 1.
Proof.
  intros Fx [B0 B1]. assert (E : Btrunc x = Zfloor (B2R x)).
  { apply eq_IZR. rewrite (@Btrunc_correct 24 128 l32 x). unfold round, F2R, scaled_mantissa, cexp, FIX_exp. cbn [Fnum Fexp Z.opp bpow]. rewrite !Rmult_1_r. rewrite Ztrunc_floor by exact B0. reflexivity. }
  pose proof (Zfloor_lb (B2R x)). pose proof (Zfloor_ub (B2R x)).
  assert (0 <= Zfloor (B2R x))%Z by (apply Zfloor_lub; exact B0).
  assert (Zfloor (B2R x) < 2147483648)%Z by (apply lt_IZR; lra).
  unfold trunc_int. cbv zeta. rewrite Fx, E. cbn [andb]. replace (in_i32 (Zfloor (B2R x))) with true; [|unfold in_i32; lia]. split; [lia|lra].
Qed.

(** ** The operations of the search *)
Definition good32 (d : b32) : Prop := fin d /\ 0 <= B2R d <= 33554432.
Lemma b25 : bpow radix2 25 = 33554432. Proof. reflexivity. Qed.
Lemma b26 : bpow radix2 26 = 67108864. Proof. reflexivity. Qed.
Lemma sqrt2_bounds : 14 / 10 <= sqrt 2 <= 15 / 10.
Proof.
  split.
  - rewrite <- (sqrt_pow2 (14 / 10)) by lra. apply sqrt_le_1_alt. lra.
  - rewrite <- (sqrt_pow2 (15 / 10)) by lra. apply sqrt_le_1_alt. lra.
Qed.
Definition tiny : R := / 134217728. (* 2^-27 *)

Lemma step_spec d b : good32 d -> fin (fl_step d b) /\ Rabs (B2R (fl_step d b) - (B2R d + len b)) <= tiny /\ B2R d <= B2R (fl_step d b).
Proof.
  intros [Fd Bd]. destruct (to_f64_spec d Fd (proj1 Bd)) as [Fd' Ed].
  pose proof sqrt2_bounds as S2.
  assert (L : exists l : b64, l = (if b then dsqrt (d_of_Z 2) else d_of_Z 1) /\ fin l /\ Rabs (B2R l - len b) <= / 1125899906842624 /\ 0 <= B2R l <= 2).
  { eexists. split; [reflexivity|]. unfold len. destruct b.
    - destruct (d_of_Z_spec 2 ltac:(lia)) as [F2 E2]. destruct (dsqrt_spec (d_of_Z 2) F2 ltac:(rewrite E2; lra)) as [Fs Es].
      split; [exact Fs|]. rewrite Es, E2.
      pose proof (rnd_err 53 (-1074) 1 (sqrt 2) p64 ltac:(lia) ltac:(change (bpow radix2 1) with 2; lra)) as Er.
      change (bpow radix2 (1 - 53 - 1)) with (/ 9007199254740992) in Er. split; [lra|]. apply Rabs_le_inv in Er. lra.
    - destruct (d_of_Z_spec 1 ltac:(lia)) as [F1 E1]. split; [exact F1|]. rewrite E1. rewrite Rminus_diag_eq by reflexivity. rewrite Rabs_R0. lra. }
  destruct L as (l & El & Fl & Hl & Bl). unfold fl_step. rewrite <- El.
  destruct (dadd_spec (to_f64 d) l Fd' Fl) as [Fa Ea].
  { rewrite Ed. split; [lra|]. apply (Rle_trans _ (bpow radix2 26)); [rewrite b26; lra|apply bpow_le; lia]. }
  rewrite Ed in Ea. split; [exact Fa|]. rewrite Ea.
  pose proof (rnd_err 53 (-1074) 26 (B2R d + B2R l) p64 ltac:(lia) ltac:(rewrite b26; lra)) as Er.
  change (bpow radix2 (26 - 53 - 1)) with (/ 268435456) in Er. split.
  - apply Rabs_le_inv in Er, Hl. apply Rabs_le. unfold tiny. lra.
  - rewrite <- (r64_id (B2R d)) at 1 by (apply F32_F64, B2R_F32). apply r64_mono. lra.
Qed.
Lemma stored_spec d b : good32 d -> good32 (to_f32 (fl_step d b)) /\ B2R (to_f32 (fl_step d b)) = r32 (B2R (fl_step d b)) /\ B2R d <= B2R (to_f32 (fl_step d b)).
Proof.
  intros Gd. destruct (step_spec d b Gd) as (Fs & Es & Ms). destruct Gd as [Fd Bd]. apply Rabs_le_inv in Es. pose proof sqrt2_bounds as S2.
  assert (Hlen : len b <= 3 / 2) by (unfold len; destruct b; lra). unfold tiny in Es.
  destruct (to_f32_spec (fl_step d b) Fs) as [Ft Et].
  { split; [lra|]. apply (Rle_trans _ (bpow radix2 26)); [rewrite b26; lra|apply bpow_le; lia]. }
  assert (Hm : B2R d <= B2R (to_f32 (fl_step d b))).
  { rewrite Et, <- (r32_id (B2R d)) at 1 by apply B2R_F32. apply r32_mono. exact Ms. }
  split; [split; [exact Ft|split; [lra|]]|split; [exact Et|exact Hm]].
  rewrite Et, <- b25. apply round_N_le_midp; [exact v32|apply F32_bpow; lia|].
  rewrite succ_eq_pos by apply bpow_ge_0. rewrite ulp_bpow. change (FLT_exp (-149) 24 (25 + 1)) with 2%Z. rewrite b25. change (bpow radix2 2) with 4. lra.
Qed.

Lemma sq_exact z : (Z.abs z <= 2 ^ 26)%Z -> r64 (IZR z * IZR z) = IZR (z * z).
Proof. intros H. rewrite <- mult_IZR. apply r64_id. apply F64_IZR. rewrite Z.abs_mul. nia. Qed.
Lemma sq_large z : (2 ^ 26 <= Z.abs z)%Z -> bpow radix2 52 <= r64 (IZR z * IZR z).
Proof.
  intros H. rewrite <- (r64_id (bpow radix2 52)) by (apply F64_bpow; lia). apply r64_mono. rewrite <- mult_IZR.
  change (bpow radix2 52) with (IZR (2 ^ 52)). apply IZR_le. replace (z * z)%Z with (Z.abs z * Z.abs z)%Z by (rewrite <- Z.abs_mul; nia). nia.
Qed.
Lemma sq_bound z : (Z.abs z <= 2 ^ 29)%Z -> 0 <= IZR z * IZR z <= bpow radix2 58 /\ 0 <= r64 (IZR z * IZR z) <= bpow radix2 58.
Proof.
  intros H. assert (A : 0 <= IZR z * IZR z <= bpow radix2 58).
  { rewrite <- mult_IZR. change (bpow radix2 58) with (IZR (2 ^ 58)). split; apply IZR_le; [nia|].
    replace (z * z)%Z with (Z.abs z * Z.abs z)%Z by (rewrite <- Z.abs_mul; nia). nia. }
  split; [exact A|]. split; [apply r64_ge0, A|]. rewrite <- (r64_id (bpow radix2 58)) by (apply F64_bpow; lia). apply r64_mono, A.
Qed.
Lemma predict_spec s p : (Z.abs (fst p - fst s) <= 2 ^ 29)%Z -> (Z.abs (snd p - snd s) <= 2 ^ 29)%Z ->
  let Q := B2R (fl_predict s p) in
  fin (fl_predict s p) /\ 0 <= Q <= 1073741824 /\ (euclid s p <= 33554432 -> Rabs (Q - euclid s p) <= tiny) /\
  (forall k, (0 <= k <= 25)%Z -> bpow radix2 k <= euclid s p -> bpow radix2 k <= Q).
Proof.
  intros Hx Hy Q. set (dx := (fst p - fst s)%Z) in *. set (dy := (snd p - snd s)%Z) in *.
  destruct (d_of_Z_spec dx ltac:(lia)) as [Fx Ex]. destruct (d_of_Z_spec dy ltac:(lia)) as [Fy Ey].
  destruct (sq_bound dx Hx) as [Bx Bx']. destruct (sq_bound dy Hy) as [By By'].
  assert (G58 : bpow radix2 58 <= bpow radix2 1000) by (apply bpow_le; lia).
  assert (E59 : bpow radix2 58 + bpow radix2 58 = bpow radix2 59) by (change (bpow radix2 59) with (IZR 576460752303423488); change (bpow radix2 58) with (IZR 288230376151711744); lra).
  destruct (dmul_spec (d_of_Z dx) (d_of_Z dx) Fx Fx) as [Fm Em]; [rewrite Ex; lra|]. rewrite Ex in Em.
  destruct (dmul_spec (d_of_Z dy) (d_of_Z dy) Fy Fy) as [Fn En]; [rewrite Ey; lra|]. rewrite Ey in En.
  set (X := r64 (IZR dx * IZR dx)) in *. set (Y := r64 (IZR dy * IZR dy)) in *.
  assert (G59 : bpow radix2 59 <= bpow radix2 1000) by (apply bpow_le; lia).
  destruct (dadd_spec _ _ Fm Fn) as [Fa Ea]; [rewrite Em, En; lra|]. rewrite Em, En in Ea.
  assert (Ba : 0 <= r64 (X + Y) <= bpow radix2 59).
  { split; [apply r64_ge0; lra|]. rewrite <- (r64_id (bpow radix2 59)) by (apply F64_bpow; lia). apply r64_mono. lra. }
  destruct (dsqrt_spec _ Fa) as [Fs Es]; [rewrite Ea; lra|]. rewrite Ea in Es.
  assert (EQ : Q = r64 (sqrt (r64 (X + Y)))) by exact Es.
  split; [exact Fs|].
  assert (S60 : forall k, (0 <= k)%Z -> sqrt (bpow radix2 (2 * k)) = bpow radix2 k).
  { intros k _. replace (2 * k)%Z with (k + k)%Z by lia. rewrite bpow_plus. apply sqrt_square. apply bpow_ge_0. }
  split; [split; [rewrite EQ; apply r64_ge0, sqrt_pos|]|].
  { rewrite EQ. change 1073741824 with (bpow radix2 30). rewrite <- (r64_id (bpow radix2 30)) by (apply F64_bpow; lia). apply r64_mono.
    rewrite <- (S60 30%Z) by lia. apply sqrt_le_1_alt. assert (bpow radix2 59 <= bpow radix2 (2 * 30)) by (apply bpow_le; lia). lra. }
  assert (EX : (Z.abs dx <= 2 ^ 26)%Z -> (Z.abs dy <= 2 ^ 26)%Z -> r64 (X + Y) = IZR dx * IZR dx + IZR dy * IZR dy).
  { intros Ax Ay. unfold X, Y. rewrite !sq_exact by assumption. rewrite <- plus_IZR. rewrite r64_id; [rewrite plus_IZR, !mult_IZR; reflexivity|].
    apply F64_IZR. assert (0 <= dx * dx <= 2 ^ 52)%Z by (replace (dx * dx)%Z with (Z.abs dx * Z.abs dx)%Z by (rewrite <- Z.abs_mul; nia); nia).
    assert (0 <= dy * dy <= 2 ^ 52)%Z by (replace (dy * dy)%Z with (Z.abs dy * Z.abs dy)%Z by (rewrite <- Z.abs_mul; nia); nia). lia. }
  assert (EU : euclid s p = sqrt (IZR dx * IZR dx + IZR dy * IZR dy)) by reflexivity.
  split.
  - intros HE. assert (HS : IZR dx * IZR dx + IZR dy * IZR dy <= IZR (2 ^ 50)).
    { rewrite <- (sqrt_def (IZR dx * IZR dx + IZR dy * IZR dy)) by lra. rewrite <- EU. assert (0 <= euclid s p) by apply sqrt_pos.
      replace (IZR (2 ^ 50)) with (33554432 * 33554432) by lra. apply Rmult_le_compat; lra. }
    assert (SM : forall z, IZR z * IZR z <= IZR (2 ^ 50) -> (Z.abs z <= 2 ^ 26)%Z).
    { intros z Hz. rewrite <- mult_IZR in Hz. apply le_IZR in Hz. replace (z * z)%Z with (Z.abs z * Z.abs z)%Z in Hz by (rewrite <- Z.abs_mul; nia). nia. }
    rewrite EQ, (EX (SM dx ltac:(lra)) (SM dy ltac:(lra))), <- EU.
    pose proof (rnd_err 53 (-1074) 25 (euclid s p) p64 ltac:(lia) ltac:(rewrite b25; split; [apply sqrt_pos|exact HE])) as Er.
    change (bpow radix2 (25 - 53 - 1)) with (/ 536870912) in Er. unfold tiny. lra.
  - intros k Hk HE. rewrite EQ. rewrite <- (r64_id (bpow radix2 k)) by (apply F64_bpow; lia). apply r64_mono.
    destruct (Z_le_gt_dec (Z.abs dx) (2 ^ 26)) as [Ax|Ax]; [destruct (Z_le_gt_dec (Z.abs dy) (2 ^ 26)) as [Ay|Ay]|].
    + rewrite (EX Ax Ay), <- EU. exact HE.
    + rewrite <- (S60 k) by lia. apply sqrt_le_1_alt. apply (Rle_trans _ (bpow radix2 52)); [apply bpow_le; lia|].
      rewrite <- (r64_id (bpow radix2 52)) by (apply F64_bpow; lia). apply r64_mono. pose proof (sq_large dy ltac:(lia)) as L. fold Y in L. lra.
    + rewrite <- (S60 k) by lia. apply sqrt_le_1_alt. apply (Rle_trans _ (bpow radix2 52)); [apply bpow_le; lia|].
      rewrite <- (r64_id (bpow radix2 52)) by (apply F64_bpow; lia). apply r64_mono. pose proof (sq_large dx ltac:(lia)) as L. fold X in L. lra.
Qed.

Section Ieee.
  Variable k : Z.
  Hypothesis Hk : (8 <= k <= 20)%Z.
  Variable m : gridmap.
  Variable start : Z * Z.
  Hypothesis Hw : (gm_w m <= 2 ^ 29)%Z.
  Hypothesis Hh : (gm_h m <= 2 ^ 29)%Z.
  Hypothesis Hs : inside m start.
  Let B := bpow radix2 k.
  Let e := bpow radix2 (k - 24).

  Lemma e_half : bpow radix2 (k - 24 - 1) = e / 2.
  Proof. unfold e. replace (k - 24 - 1)%Z with (-1 + (k - 24))%Z by lia. rewrite bpow_plus. change (bpow radix2 (-1)) with (/ 2). lra. Qed.
  Lemma e_bounds : 8 * tiny <= e <= / 16.
  Proof.
    split.
    - apply (Rle_trans _ (bpow radix2 (-24))); [change (bpow radix2 (-24)) with (/ 16777216); unfold tiny; lra|apply bpow_le; lia].
    - apply (Rle_trans _ (bpow radix2 (-4))); [apply bpow_le; lia|]. change (bpow radix2 (-4)) with (/ 16). lra.
  Qed.
  Lemma B_bounds : 256 <= B <= 1048576.
  Proof. split; [change 256 with (bpow radix2 8)|change 1048576 with (bpow radix2 20)]; apply bpow_le; lia. Qed.
  Lemma r32_B x : B <= x -> B <= r32 x.
  Proof. intros H. rewrite <- (r32_id B) by (apply F32_bpow; lia). apply r32_mono. exact H. Qed.
  Lemma r64_B x : B <= x -> B <= r64 x.
  Proof. intros H. rewrite <- (r64_id B) by (apply F64_bpow; lia). apply r64_mono. exact H. Qed.
  Lemma r32_err x : 0 <= x <= B -> Rabs (r32 x - x) <= e / 2.
  Proof. intros H. rewrite <- e_half. apply rnd_err; [exact p32|lia|exact H]. Qed.
  Lemma r64_err x : 0 <= x <= B -> Rabs (r64 x - x) <= tiny.
  Proof.
    intros H. eapply Rle_trans; [apply (rnd_err 53 (-1074) k); [exact p64|lia|exact H]|].
    apply (Rle_trans _ (bpow radix2 (-34))); [apply bpow_le; lia|]. change (bpow radix2 (-34)) with (/ 17179869184). unfold tiny. lra.
  Qed.

  Lemma pred_spec p : inside m p -> let Q := B2R (fl_predict start p) in let P := to_f32 (fl_predict start p) in
    fin (fl_predict start p) /\ fin P /\ B2R P = r32 Q /\ 0 <= Q <= 1073741824 /\ 0 <= B2R P <= 1073741824 /\
    (euclid start p <= B -> Rabs (Q - euclid start p) <= tiny) /\ (Q < B -> euclid start p < B).
  Proof.
    intros [Ip1 Ip2]. destruct Hs as [Is1 Is2]. cbv zeta.
    destruct (predict_spec start p) as (F & Bq & E1 & E2); [lia|lia|]. cbv zeta in *.
    assert (G : 1073741824 <= bpow radix2 100) by (change 1073741824 with (bpow radix2 30); apply bpow_le; lia).
    destruct (to_f32_spec _ F ltac:(lra)) as [Ft Et]. split; [exact F|]. split; [exact Ft|]. split; [exact Et|]. split; [exact Bq|]. split; [|split].
    - rewrite Et. split; [apply r32_ge0; lra|]. change 1073741824 with (bpow radix2 30). rewrite <- (r32_id (bpow radix2 30)) by (apply F32_bpow; lia). apply r32_mono. exact (proj2 Bq).
    - intros HE. apply E1. pose proof B_bounds. lra.
    - intros HQ. apply Rnot_le_lt. intros HE. specialize (E2 k ltac:(lia) HE). fold B in E2. lra.
  Qed.
  Lemma value_spec d p : good32 d -> inside m p -> let P := to_f32 (fl_predict start p) in let v := fl_value d P in
    (0 <= v < 2147483648)%Z /\ IZR v <= r32 (B2R d + B2R P) < IZR v + 1.
  Proof.
    intros [Fd Bd] Hp. cbv zeta. destruct (pred_spec p Hp) as (_ & FP & _ & _ & BP & _).
    set (P := to_f32 (fl_predict start p)) in *.
    destruct (fadd_spec d P Fd FP) as [Fa Ea].
    { split; [lra|]. apply (Rle_trans _ (bpow radix2 31)); [change (bpow radix2 31) with 2147483648; lra|apply bpow_le; lia]. }
    pose proof (rnd_err 24 (-149) 31 (B2R d + B2R P) p32 ltac:(lia) ltac:(change (bpow radix2 31) with 2147483648; lra)) as Er.
    change (bpow radix2 (31 - 24 - 1)) with 64 in Er. apply Rabs_le_inv in Er.
    unfold fl_value. rewrite <- Ea. apply trunc_spec; [exact Fa|]. rewrite Ea. split; [apply r32_ge0; lra|lra].
  Qed.

  Lemma ax_val_lo d p : good32 d -> inside m p -> let v := fl_value d (to_f32 (fl_predict start p)) in
    IZR v <= B - 1 - 4 -> B2R d + euclid start p < IZR v + 1 + 2 * e.
  Proof.
    intros Gd Hp v Hv. destruct (value_spec d p Gd Hp) as [_ V]. fold v in V. destruct (pred_spec p Hp) as (_ & _ & EP & BQ & BP & EQ & LQ).
    destruct Gd as [_ Bd]. pose proof e_bounds as Be.
    set (P := B2R (to_f32 (fl_predict start p))) in *. set (Q := B2R (fl_predict start p)) in *.
    assert (S1 : B2R d + P < B) by (apply Rnot_le_lt; intros H; apply r32_B in H; lra).
    assert (S2 : Q < B) by (apply Rnot_le_lt; intros H; apply r32_B in H; lra).
    specialize (LQ S2). specialize (EQ ltac:(lra)).
    pose proof (r32_err (B2R d + P) ltac:(lra)) as R1. pose proof (r32_err Q ltac:(lra)) as R2. rewrite <- EP in R2.
    apply Rabs_le_inv in R1, R2, EQ. lra.
  Qed.
  Lemma ax_val_hi d p : good32 d -> inside m p -> let v := fl_value d (to_f32 (fl_predict start p)) in
    B2R d + euclid start p <= B - 1 - 4 -> IZR v <= B2R d + euclid start p + 2 * e.
  Proof.
    intros Gd Hp v HS. destruct (value_spec d p Gd Hp) as [_ V]. fold v in V. destruct (pred_spec p Hp) as (_ & _ & EP & BQ & BP & EQ & _).
    destruct Gd as [_ Bd]. pose proof e_bounds as Be.
    set (P := B2R (to_f32 (fl_predict start p))) in *. set (Q := B2R (fl_predict start p)) in *.
    specialize (EQ ltac:(lra)). apply Rabs_le_inv in EQ.
    pose proof (r32_err Q ltac:(lra)) as R2. rewrite <- EP in R2. apply Rabs_le_inv in R2.
    pose proof (r32_err (B2R d + P) ltac:(lra)) as R1. apply Rabs_le_inv in R1. lra.
  Qed.
  Lemma gt_spec d b p v : good32 d -> inside m p -> (0 <= v < 2147483648)%Z ->
    let W := r64 (B2R (fl_step d b) + B2R (fl_predict start p)) in
    (fl_gt (fl_step d b) (fl_predict start p) v = true -> IZR v < W) /\ (fl_gt (fl_step d b) (fl_predict start p) v = false -> W <= IZR v).
  Proof.
    intros Gd Hp Hv W. destruct (step_spec d b Gd) as (Fs & Es & Ms). destruct (pred_spec p Hp) as (FQ & _ & _ & BQ & _).
    apply Rabs_le_inv in Es. destruct Gd as [_ Bd]. assert (Hlen : len b <= 3 / 2) by (pose proof sqrt2_bounds; unfold len; destruct b; lra). unfold tiny in Es.
    destruct (dadd_spec (fl_step d b) (fl_predict start p) Fs FQ) as [Fa Ea].
    { split; [lra|]. apply (Rle_trans _ (bpow radix2 31)); [change (bpow radix2 31) with 2147483648; lra|apply bpow_le; lia]. }
    fold W in Ea. destruct (d_of_Z_spec v ltac:(lia)) as [Fv Ev].
    unfold fl_gt. rewrite Bcompare_correct by assumption. rewrite Ea, Ev.
    destruct (Rcompare_spec W (IZR v)); split; intros X; try discriminate; lra.
  Qed.
  Lemma ax_gt_true d b p d' p' v : good32 d' -> inside m p' -> v = fl_value d' (to_f32 (fl_predict start p')) -> good32 d -> inside m p ->
    B2R d + len b + euclid start p <= B - 1 - 4 -> fl_gt (fl_step d b) (fl_predict start p) v = true -> IZR v < B2R d + len b + euclid start p + e.
  Proof.
    intros Gd' Hp' -> Gd Hp HS HG. destruct (value_spec d' p' Gd' Hp') as [Bv _]. cbv zeta in Bv.
    destruct (gt_spec d b p _ Gd Hp Bv) as [T _]. specialize (T HG). destruct (step_spec d b Gd) as (_ & Es & _). destruct (pred_spec p Hp) as (_ & _ & _ & BQ & _ & EQ & _).
    destruct Gd as [_ Bd]. pose proof e_bounds as Be. assert (Hlen : 1 <= len b) by (pose proof sqrt2_bounds; unfold len; destruct b; lra).
    assert (0 <= euclid start p) by apply sqrt_pos.
    specialize (EQ ltac:(lra)). apply Rabs_le_inv in EQ, Es. assert (0 < tiny) by (unfold tiny; lra).
    pose proof (r64_err (B2R (fl_step d b) + B2R (fl_predict start p)) ltac:(lra)) as R1. apply Rabs_le_inv in R1. lra.
  Qed.
  Lemma ax_gt_false d b p d' p' v : good32 d' -> inside m p' -> v = fl_value d' (to_f32 (fl_predict start p')) -> good32 d -> inside m p ->
    IZR v <= B - 1 - 4 -> fl_gt (fl_step d b) (fl_predict start p) v = false -> B2R d + len b + euclid start p <= IZR v + e.
  Proof.
    intros Gd' Hp' -> Gd Hp HS HG. destruct (value_spec d' p' Gd' Hp') as [Bv _]. cbv zeta in Bv.
    destruct (gt_spec d b p _ Gd Hp Bv) as [_ T]. specialize (T HG). destruct (step_spec d b Gd) as (_ & Es & Ms). destruct (pred_spec p Hp) as (_ & _ & _ & BQ & _ & EQ & LQ).
    destruct Gd as [_ Bd]. pose proof e_bounds as Be.
    set (v := fl_value d' (to_f32 (fl_predict start p'))) in *.
    assert (S1 : B2R (fl_step d b) + B2R (fl_predict start p) < B) by (apply Rnot_le_lt; intros H; apply r64_B in H; lra).
    specialize (LQ ltac:(lra)). specialize (EQ ltac:(lra)). apply Rabs_le_inv in EQ, Es.
    pose proof (r64_err (B2R (fl_step d b) + B2R (fl_predict start p)) ltac:(lra)) as R1. apply Rabs_le_inv in R1. lra.
  Qed.
  Lemma ax_step d b : good32 d -> B2R d + len b <= B - 1 -> Rabs (B2R (to_f32 (fl_step d b)) - (B2R d + len b)) <= e.
  Proof.
    intros Gd HS. destruct (step_spec d b Gd) as (_ & Es & Ms). destruct (stored_spec d b Gd) as (_ & Et & _). destruct Gd as [_ Bd].
    apply Rabs_le_inv in Es. pose proof e_bounds as Be. assert (tiny <= 1) by (unfold tiny; lra).
    pose proof (r32_err (B2R (fl_step d b)) ltac:(lra)) as R1. rewrite <- Et in R1. apply Rabs_le_inv in R1. apply Rabs_le. lra.
  Qed.
  Lemma ax_zero : good32 (to_f32 (d_of_Z 0)) /\ B2R (to_f32 (d_of_Z 0)) = 0.
  Proof. assert (E : to_f32 (d_of_Z 0) = B754_zero false) by reflexivity. rewrite E. split; [split; [reflexivity|cbn; lra]|reflexivity]. Qed.

  Lemma ieee_opt goal o p : gm_wf m -> (gm_w m * gm_h m < 2147483648)%Z -> inside m goal ->
    o_w b32 o = gm_w m -> o_h b32 o = gm_h m -> tracked o ->
    fst (search b64 b32 to_f32 (d_of_Z 0) fl_step fl_predict fl_value fl_gt m start goal o) = Path p ->
    forall q, grid_path (free_cell m) start goal q -> euclid start goal + 5 * INR (steps q) + 16 <= B - 1 ->
    path_len p <= path_len q + (1 + 8 * e) * INR (steps q).
  Proof.
    intros Hwf Hsz Hg. apply (search_opt b64 b32 to_f32 (d_of_Z 0) fl_step fl_predict fl_value fl_gt B2R good32 (B - 1) e m start goal Hwf Hsz Hg).
    - pose proof e_bounds. assert (0 < tiny) by (unfold tiny; lra). lra.
    - exact ax_zero.
    - intros d b Gd. apply (stored_spec d b Gd).
    - exact ax_step.
    - intros d b Gd. apply (stored_spec d b Gd).
    - exact ax_val_lo.
    - exact ax_val_hi.
    - exact ax_gt_true.
    - exact ax_gt_false.
  Qed.
End Ieee.

(** ** C17 *)
(** With the arithmetic of the hardware, after any history of the search object: the path
    returned is longer than any other path by at most one unit per step of the other path,
    plus the rounding errors (2^(k-21) per step if the other path has up to 2^k / 7 steps). *)
Theorem C17_bounded_ieee a start goal p q k :
  reachable to_f32 (d_of_Z 0) fl_step fl_predict fl_value fl_gt a -> usable (a_map b32 a) ->
  (gm_w (a_map b32 a) <= 2 ^ 29)%Z -> (gm_h (a_map b32 a) <= 2 ^ 29)%Z ->
  fl_aplan a start goal = Path p ->
  grid_path (free_cell (a_map b32 a)) start goal q ->
  (8 <= k <= 20)%Z -> 13 / 2 * INR (length q - 1) + 17 <= bpow radix2 k ->
  path_len p <= path_len q + (1 + bpow radix2 (k - 21)) * INR (length q - 1).
Proof.
  intros Hr Hu Hw Hh E Hq Hk Hn. set (junk := fun _ : Z => Node (0, 0)%Z (B754_zero false : b32) (B754_zero false : b32) None false false).
  unfold fl_aplan in E. rewrite (C15_history_independent _ _ _ _ _ _ a junk start goal Hr Hu) in E.
  destruct Hu as [Hwf Hsz]. set (m := a_map b32 a) in *.
  unfold aplan, planPath in E. cbn [astar_new a_map a_ol] in E.
  destruct (isInMap m (fst start) (snd start)) eqn:E1; cbn [negb] in E; [|discriminate].
  destruct (isInMap m (fst goal) (snd goal)) eqn:E2; cbn [negb] in E; [|discriminate].
  apply isInMap_spec in E1; [|assumption]. apply isInMap_spec in E2; [|assumption].
  assert (ES : (length q - 1)%nat = steps q) by (destruct q; simpl; [reflexivity|rewrite Nat.sub_0_r; reflexivity]). rewrite ES in *.
  replace (bpow radix2 (k - 21)) with (8 * bpow radix2 (k - 24)).
  2:{ replace (k - 21)%Z with (3 + (k - 24))%Z by lia. rewrite bpow_plus. reflexivity. }
  eapply (ieee_opt k Hk m start Hw Hh E1 goal _ p Hwf Hsz E2); [| | |exact E|exact Hq|]; try reflexivity.
  - intros i. cbn. discriminate.
  - pose proof (steps_len q (proj1 (proj2 Hq))) as Hsl.
    assert (Hg : euclid start goal <= path_len q).
    { pose proof (euclid_far goal goal q start (proj1 Hq) (proj1 (proj2 Hq))) as Hf.
      assert (Z0 : euclid goal goal = 0) by (unfold euclid; rewrite !Z.sub_diag; rewrite Rmult_0_l, Rplus_0_l; apply sqrt_0).
      assert (Sy : euclid goal start = euclid start goal) by (unfold euclid; f_equal; rewrite !minus_IZR; ring). lra. }
    lra.
Qed.

(** In numbers: up to 10 000 steps the loss is below 33/32 per step (a bit more than twice
    as long at worst), up to 160 000 steps below 3/2 per step. *)
Theorem C17_bounded_ieee_numbers a start goal p q :
  reachable to_f32 (d_of_Z 0) fl_step fl_predict fl_value fl_gt a -> usable (a_map b32 a) ->
  (gm_w (a_map b32 a) <= 2 ^ 29)%Z -> (gm_h (a_map b32 a) <= 2 ^ 29)%Z ->
  fl_aplan a start goal = Path p ->
  grid_path (free_cell (a_map b32 a)) start goal q ->
  ((Z.of_nat (length q) <= 10001)%Z -> path_len p <= path_len q + 33 / 32 * INR (length q - 1) /\ path_len p <= 65 / 32 * path_len q) /\
  ((Z.of_nat (length q) <= 160001)%Z -> path_len p <= path_len q + 3 / 2 * INR (length q - 1) /\ path_len p <= 5 / 2 * path_len q).
Proof.
  intros Hr Hu Hw Hh E Hq.
  assert (Hl : INR (length q - 1) <= path_len q).
  { replace (length q - 1)%nat with (steps q) by (destruct q; simpl; [reflexivity|rewrite Nat.sub_0_r; reflexivity]). apply steps_len. apply Hq. }
  split; intros Hn.
  - assert (Hn' : INR (length q - 1) <= 10000) by (rewrite INR_IZR_INZ; apply IZR_le; lia).
    pose proof (C17_bounded_ieee a start goal p q 16 Hr Hu Hw Hh E Hq ltac:(lia) ltac:(change (bpow radix2 16) with 65536; lra)) as H.
    change (bpow radix2 (16 - 21)) with (/ 32) in H. split; lra.
  - assert (Hn' : INR (length q - 1) <= 160000) by (rewrite INR_IZR_INZ; apply IZR_le; lia).
    pose proof (C17_bounded_ieee a start goal p q 20 Hr Hu Hw Hh E Hq ltac:(lia) ltac:(change (bpow radix2 20) with 1048576; lra)) as H.
    change (bpow radix2 (20 - 21)) with (/ 2) in H. split; lra.
Qed.

(** The hypotheses are met: the 3x2 map of the counterexample, where the loss is real. *)
Example C17_ieee_example : exists p q,
  fl_aplan (astar_new b32 fl_junk open_map) (2, 0)%Z (0, 0)%Z = Path p /\
  grid_path (free_cell open_map) (2, 0)%Z (0, 0)%Z q /\ path_len q = 2 /\ path_len q < path_len p <= 65 / 32 * path_len q.
Proof.
  set (q := [(2, 0); (1, 0); (0, 0)]%Z). set (p := [(2, 0); (1, 1); (0, 0)]%Z).
  assert (Hq : grid_path (free_cell open_map) (2, 0)%Z (0, 0)%Z q).
  { split; [split; reflexivity|]. split.
    - split; [split; [congruence|cbn; lia]|]. split; [split; [congruence|cbn; lia]|exact I].
    - intros c [<-|[<-|[<-|[]]]] _; (split; [vm_compute; repeat split; discriminate || reflexivity|vm_compute; reflexivity]). }
  assert (Hu : usable open_map) by (vm_compute; repeat split; discriminate || reflexivity).
  exists p, q. split; [apply C17_search_result|]. split; [exact Hq|]. split; [cbn; lra|].
  split; [cbn; pose proof sqrt2_bounds; lra|].
  apply (C17_bounded_ieee_numbers (astar_new b32 fl_junk open_map) (2, 0)%Z (0, 0)%Z p q).
  - exists fl_junk, open_map, []. split; [exact I|reflexivity].
  - exact Hu.
  - vm_compute. discriminate.
  - vm_compute. discriminate.
  - apply C17_search_result.
  - exact Hq.
  - cbn. lia.
Qed.
