(** C03, C04, C51 for the arithmetic of the code, IEEE binary64. *)
From Coq Require Import Reals Lra.
From Flocq Require Import Core BinarySingleNaN Relative Plus_error.
From Verif Require Import Base GeomR PropGeom AStarFloat AStarIeee GenericIeee GridGeomIeee.
Local Open Scope R_scope.

(** ** Rounding errors *)
Definition u : R := bpow radix2 (-53).
Definition eta : R := bpow radix2 (-1075).
Lemma u_val : u = / 9007199254740992. Proof. unfold u. cbn. lra. Qed.
Lemma eta_pos : 0 < eta. Proof. apply bpow_gt_0. Qed.
Lemma eta_small k : (-1075 <= k)%Z -> eta <= bpow radix2 k. Proof. intros H. apply bpow_le. exact H. Qed.

Lemma err_add x y : F64 x -> F64 y -> Rabs (r64 (x + y) - (x + y)) <= u * Rabs (x + y).
Proof.
  intros Fx Fy. destruct (@FLT_plus_error_N_ex radix2 (-1074) 53 p64 (fun z => negb (Z.even z)) x y Fx Fy) as (e & He & Er).
  change (ZnearestE) with (Znearest (fun z => negb (Z.even z))). rewrite Er.
  replace ((x + y) * (1 + e) - (x + y)) with (e * (x + y)) by ring. rewrite Rabs_mult.
  apply Rmult_le_compat_r; [apply Rabs_pos|]. eapply Rle_trans; [exact He|].
  assert (EU : u_ro radix2 53 = u) by (unfold u_ro; apply u64). rewrite EU.
  assert (P : 0 < u) by apply bpow_gt_0. apply Rmult_le_reg_r with (1 + u); [lra|].
  unfold Rdiv. rewrite Rmult_assoc, Rinv_l by lra. nra.
Qed.
Lemma err_any x : Rabs (r64 x - x) <= u * Rabs x + eta.
Proof.
  destruct (@error_N_FLT radix2 (-1074) 53 p64 (fun z => negb (Z.even z)) x) as (e & h & He & Hh & _ & Er).
  change (ZnearestE) with (Znearest (fun z => negb (Z.even z))). rewrite Er.
  replace (x * (1 + e) + h - x) with (e * x + h) by ring.
  eapply Rle_trans; [apply Rabs_triang|]. rewrite Rabs_mult. apply Rplus_le_compat.
  - apply Rmult_le_compat_r; [apply Rabs_pos|]. eapply Rle_trans; [exact He|]. right. apply u64.
  - eapply Rle_trans; [exact Hh|]. right. unfold eta. replace (-1075)%Z with (-1 + -1074)%Z by reflexivity. rewrite bpow_plus. reflexivity.
Qed.
Lemma r64_abs x k : (-1074 <= k)%Z -> Rabs x <= bpow radix2 k -> Rabs (r64 x) <= bpow radix2 k.
Proof.
  intros Hk H. apply Rabs_le_inv in H. apply Rabs_le. rewrite <- (r64_id (bpow radix2 k)) by (apply F64_bpow; exact Hk).
  split; [|apply r64_mono; lra]. rewrite <- (round_NE_opp radix2). apply r64_mono. lra.
Qed.

(** ** Operations *)
Lemma badd_spec x y : fin x -> fin y -> Rabs (B2R x + B2R y) <= bpow radix2 1000 ->
  fin (dadd x y) /\ B2R (dadd x y) = r64 (B2R x + B2R y).
Proof.
  intros Fx Fy B. pose proof (@Bplus_correct 53 1024 p64 l64 mode_NE x y Fx Fy) as C. fold (dadd x y) in C.
  rewrite Rlt_bool_true in C; [destruct C as (C1 & C2 & _); split; assumption|].
  change (round radix2 _ _ _) with (r64 (B2R x + B2R y)).
  eapply Rle_lt_trans; [apply (r64_abs _ 1000); [lia|exact B]|]. apply bpow_lt. lia.
Qed.
Lemma bsub_spec x y : fin x -> fin y -> Rabs (B2R x - B2R y) <= bpow radix2 1000 ->
  fin (dsub x y) /\ B2R (dsub x y) = r64 (B2R x - B2R y).
Proof.
  intros Fx Fy B. pose proof (@Bminus_correct 53 1024 p64 l64 mode_NE x y Fx Fy) as C. fold (dsub x y) in C.
  rewrite Rlt_bool_true in C; [destruct C as (C1 & C2 & _); split; assumption|].
  change (round radix2 _ _ _) with (r64 (B2R x - B2R y)).
  eapply Rle_lt_trans; [apply (r64_abs _ 1000); [lia|exact B]|]. apply bpow_lt. lia.
Qed.
Lemma bmul_spec x y : fin x -> fin y -> Rabs (B2R x * B2R y) <= bpow radix2 1000 ->
  fin (dmul x y) /\ B2R (dmul x y) = r64 (B2R x * B2R y).
Proof.
  intros Fx Fy B. pose proof (@Bmult_correct 53 1024 p64 l64 mode_NE x y) as C. fold (dmul x y) in C.
  rewrite Rlt_bool_true in C; [destruct C as (C1 & C2 & _); split; [rewrite C2, Fx, Fy; reflexivity|assumption]|].
  change (round radix2 _ _ _) with (r64 (B2R x * B2R y)).
  eapply Rle_lt_trans; [apply (r64_abs _ 1000); [lia|exact B]|]. apply bpow_lt. lia.
Qed.
Lemma bdiv_spec x y : fin x -> B2R y <> 0 -> Rabs (B2R x / B2R y) <= bpow radix2 1000 ->
  fin (ddiv x y) /\ B2R (ddiv x y) = r64 (B2R x / B2R y).
Proof.
  intros Fx Hy B. pose proof (@Bdiv_correct 53 1024 p64 l64 mode_NE x y Hy) as C. fold (ddiv x y) in C.
  rewrite Rlt_bool_true in C; [destruct C as (C1 & C2 & _); split; [rewrite C2, Fx; reflexivity|assumption]|].
  change (round radix2 _ _ _) with (r64 (B2R x / B2R y)).
  eapply Rle_lt_trans; [apply (r64_abs _ 1000); [lia|exact B]|]. apply bpow_lt. lia.
Qed.
Lemma dhalf_spec : fin dhalf /\ B2R dhalf = / 2.
Proof.
  destruct (d_of_Z_spec 1 ltac:(cbn; lia)) as [F1 E1]. destruct (d_of_Z_spec 2 ltac:(cbn; lia)) as [F2 E2].
  assert (H2 : / 2 = bpow radix2 (-1)) by reflexivity.
  destruct (bdiv_spec (d_of_Z 1) (d_of_Z 2)) as [F E]; [exact F1|rewrite E2; lra| |].
  - rewrite E1, E2. unfold Rdiv. rewrite Rmult_1_l, H2, Rabs_pos_eq by apply bpow_ge_0. apply bpow_le. lia.
  - fold dhalf in F, E. split; [exact F|]. rewrite E, E1, E2. unfold Rdiv. rewrite Rmult_1_l, H2. apply r64_id. apply F64_bpow. lia.
Qed.
Lemma F64_B2R (x : b64) : F64 (B2R x). Proof. apply generic_format_B2R. Qed.

(** ** One coordinate *)
Lemma eta_res res : ordinary res -> eta <= B2R res * / 1267650600228229401496703205376.
Proof.
  intros [_ [H _]]. replace (/ 1267650600228229401496703205376) with (bpow radix2 (-100)) by (cbn; lra).
  apply Rle_trans with (bpow radix2 (-900) * bpow radix2 (-100)); [rewrite <- bpow_plus; apply eta_small; lia|].
  apply Rmult_le_compat_r; [apply bpow_ge_0|exact H].
Qed.
Lemma res_big res k : ordinary res -> (k <= 90)%Z -> forall x, Rabs x <= B2R res * bpow radix2 k -> Rabs x <= bpow radix2 1000 /\ Rabs (x / B2R res) <= bpow radix2 k.
Proof.
  intros Hr Hk x H. pose proof (res_pos res Hr) as P. destruct Hr as [_ [_ Hr]]. split.
  - eapply Rle_trans; [exact H|]. eapply Rle_trans; [apply Rmult_le_compat_r; [apply bpow_ge_0|exact Hr]|]. rewrite <- bpow_plus. apply bpow_le. lia.
  - unfold Rdiv. rewrite Rabs_mult, (Rabs_pos_eq (/ B2R res)) by (left; apply Rinv_0_lt_compat; exact P).
    apply (Rmult_le_reg_r (B2R res)); [exact P|]. rewrite Rmult_assoc, Rinv_l by lra. lra.
Qed.
Lemma to_map_err o res p : fin o -> fin p -> ordinary res -> Rabs (B2R p - B2R o) <= B2R res * bpow radix2 80 ->
  fin (d_to_map o res p) /\
  Rabs (B2R (d_to_map o res p) - (B2R p - B2R o) / B2R res) <= 3 * u * (Rabs (B2R p - B2R o) / B2R res) + eta.
Proof.
  intros Fo Fp Hr B. pose proof (res_pos res Hr) as P. unfold d_to_map.
  destruct (res_big res 80 Hr ltac:(lia) _ B) as [B1 _].
  destruct (bsub_spec p o Fp Fo B1) as [Fd Ed].
  pose proof (err_add (B2R p) (- B2R o) (F64_B2R p) (generic_format_opp _ _ _ (F64_B2R o))) as X1. fold (B2R p - B2R o) in X1. rewrite <- Ed in X1.
  set (d := dsub p o) in *. set (q := B2R p - B2R o) in *. pose proof u_val as Uv. pose proof (Rabs_pos q) as Pq.
  assert (D : Rabs (B2R d) <= 2 * Rabs q).
  { replace (B2R d) with (q + (B2R d - q)) by ring. eapply Rle_trans; [apply Rabs_triang|]. rewrite Uv in X1. lra. }
  destruct (res_big res 81 Hr ltac:(lia) (B2R d)) as [_ B2].
  { eapply Rle_trans; [exact D|]. change 81%Z with (1 + 80)%Z. rewrite bpow_plus. change (bpow radix2 1) with 2. nra. }
  destruct (bdiv_spec d res Fd ltac:(lra)) as [Fe Ee]; [eapply Rle_trans; [exact B2|apply bpow_le; lia]|].
  split; [exact Fe|]. rewrite Ee. pose proof (err_any (B2R d / B2R res)) as X2.
  set (i := / B2R res) in *. assert (Pi : 0 < i) by (apply Rinv_0_lt_compat; exact P). unfold Rdiv in *. fold i in X2 |- *.
  rewrite Rabs_mult, (Rabs_pos_eq i) in X2 by lra.
  replace (r64 (B2R d * i) - q * i) with ((r64 (B2R d * i) - B2R d * i) + (B2R d - q) * i) by ring.
  eapply Rle_trans; [apply Rabs_triang|]. rewrite Rabs_mult, (Rabs_pos_eq i) by lra.
  assert (D' : Rabs (B2R d) * i <= 2 * (Rabs q * i)) by (clear - D Pi; nra).
  assert (X1' : Rabs (B2R d - q) * i <= u * (Rabs q * i)) by (clear - X1 Pi; nra).
  rewrite Uv in *. pose proof (Rmult_le_pos _ _ Pq (Rlt_le _ _ Pi)). lra.
Qed.
Lemma to_pos_err o res m : fin o -> fin m -> ordinary res -> Rabs (B2R m) <= bpow radix2 80 -> Rabs (B2R o) <= B2R res * bpow radix2 80 ->
  fin (d_to_pos o res m) /\
  Rabs (B2R (d_to_pos o res m) - (B2R res * B2R m + B2R o)) <= 3 * u * (B2R res * Rabs (B2R m)) + 2 * u * Rabs (B2R o) + 2 * eta.
Proof.
  intros Fo Fm Hr Bm Bo. pose proof (res_pos res Hr) as P. unfold d_to_pos. pose proof u_val as Uv.
  assert (Fr : fin res) by apply Hr. pose proof (eta_res res Hr) as He. pose proof eta_pos as Hp.
  assert (A1 : Rabs (B2R res * B2R m) = B2R res * Rabs (B2R m)) by (rewrite Rabs_mult, (Rabs_pos_eq (B2R res)) by lra; reflexivity).
  assert (A2 : Rabs (B2R res * B2R m) <= B2R res * bpow radix2 80) by (rewrite A1; apply Rmult_le_compat_l; lra).
  destruct (res_big res 80 Hr ltac:(lia) _ A2) as [A3 _].
  destruct (bmul_spec res m Fr Fm A3) as [Fb Eb]. pose proof (err_any (B2R res * B2R m)) as X1. rewrite <- Eb in X1.
  set (b := dmul res m) in *. rewrite A1 in X1. set (q := B2R res * B2R m) in *. set (t := B2R res * Rabs (B2R m)) in *.
  assert (Ht : 0 <= t) by (apply Rmult_le_pos; [lra|apply Rabs_pos]). pose proof (Rabs_pos (B2R o)) as Po.
  assert (A4 : Rabs (B2R b + B2R o) <= 2 * t + eta + Rabs (B2R o)).
  { replace (B2R b + B2R o) with (q + (B2R b - q) + B2R o) by ring.
    eapply Rle_trans; [apply Rabs_triang|]. apply Rplus_le_compat_r. eapply Rle_trans; [apply Rabs_triang|]. rewrite A1. rewrite Uv in X1. lra. }
  assert (A5 : Rabs (B2R b + B2R o) <= B2R res * bpow radix2 84).
  { eapply Rle_trans; [exact A4|]. change 84%Z with (4 + 80)%Z. rewrite bpow_plus. change (bpow radix2 4) with 16. rewrite A1 in A2.
    assert (1 <= bpow radix2 80) by (apply (bpow_le radix2 0); lia). nra. }
  destruct (res_big res 84 Hr ltac:(lia) _ A5) as [A6 _].
  destruct (badd_spec b o Fb Fo A6) as [Fc Ec]. split; [exact Fc|].
  pose proof (err_add (B2R b) (B2R o) (F64_B2R b) (F64_B2R o)) as X2. rewrite <- Ec in X2.
  replace (B2R (dadd b o) - (q + B2R o)) with ((B2R (dadd b o) - (B2R b + B2R o)) + (B2R b - q)) by ring.
  eapply Rle_trans; [apply Rabs_triang|]. rewrite Uv in *. lra.
Qed.

Lemma to_u32_cast d : fin d -> d_to_u32 d = cast_u32 (B2R d).
Proof.
  intros Fd. assert (E : Btrunc d = Ztrunc (B2R d)).
  { apply eq_IZR. rewrite (@Btrunc_correct 53 1024 l64 d). unfold round, F2R, scaled_mantissa, cexp, FIX_exp. cbn [Fnum Fexp Z.opp bpow]. rewrite !Rmult_1_r. reflexivity. }
  unfold d_to_u32, cast_u32. cbv zeta. rewrite E, Fd. reflexivity.
Qed.
Lemma to_u32_inf d z : d_to_u32 d = Some z -> fin d.
Proof. unfold d_to_u32. cbv zeta. destruct (is_finite d); [reflexivity|discriminate]. Qed.

(** ** Specification *)
(** A map whose origin is less than 2^48 cells away from the zero of the coordinates. *)
Record fits (g : dgeo) : Prop := {
  ft_w : (0 <= dg_w g < 2147483648)%Z; ft_h : (0 <= dg_h g < 2147483648)%Z; ft_res : ordinary (dg_res g);
  ft_ox : is_finite (dg_ox g) = true; ft_oy : is_finite (dg_oy g) = true;
  ft_near : Rabs (B2R (dg_ox g)) <= B2R (dg_res g) * 281474976710656 /\ Rabs (B2R (dg_oy g)) <= B2R (dg_res g) * 281474976710656 }.
Definition cell_at (g : dgeo) (x y : Z) : Prop := (0 <= x < dg_w g)%Z /\ (0 <= y < dg_h g)%Z.

Lemma inMap_u32 g x y : fits g -> (0 <= x < 4294967296)%Z -> (0 <= y < 4294967296)%Z ->
  d_inMapI g (Base.i32 x) (Base.i32 y) = true <-> cell_at g x y.
Proof.
  intros [Hw Hh _ _ _ _] Hx Hy. unfold d_inMapI, cell_at. rewrite !(i32_id (dg_w g)), !(i32_id (dg_h g)) by lia.
  unfold Base.i32. cbv zeta. rewrite !Z.mod_small by lia.
  destruct (Z.ltb_spec x 2147483648); destruct (Z.ltb_spec y 2147483648); lia.
Qed.

Lemma b80 : 1208925819614629174706176 = bpow radix2 80. Proof. reflexivity. Qed.
Lemma centre_arg x : (0 <= x < 2147483648)%Z -> fin (dadd (d_of_Z x) dhalf) /\ B2R (dadd (d_of_Z x) dhalf) = IZR x + / 2.
Proof.
  intros Hx. destruct (d_of_Z_spec x ltac:(cbn; lia)) as [F E]. destruct dhalf_spec as [Fh Eh].
  assert (X : 0 <= IZR x <= 2147483648) by (split; apply IZR_le; lia).
  destruct (badd_spec (d_of_Z x) dhalf F Fh) as [Fs Es].
  - rewrite E, Eh, Rabs_pos_eq by lra. apply Rle_trans with (bpow radix2 32); [cbn; lra|apply bpow_le; lia].
  - split; [exact Fs|]. rewrite Es, E, Eh. apply r64_id. apply generic_format_FLT.
    exists (Float radix2 (2 * x + 1) (-1)); cbn [Fnum Fexp]; [|change (radix2 ^ 53)%Z with 9007199254740992%Z; lia|lia].
    unfold F2R. cbn [Fnum Fexp]. rewrite plus_IZR, mult_IZR. change (bpow radix2 (-1)) with (/ 2). lra.
Qed.
Lemma centre_err o res x : fin o -> ordinary res -> Rabs (B2R o) <= B2R res * 281474976710656 -> (0 <= x < 2147483648)%Z ->
  fin (d_centre o res x) /\
  Rabs (B2R (d_centre o res x) - (B2R res * (IZR x + / 2) + B2R o)) <= 3 * u * (B2R res * (IZR x + / 2)) + 2 * u * Rabs (B2R o) + 2 * eta.
Proof.
  intros Fo Hr Ho Hx. destruct (centre_arg x Hx) as [Fa Ea]. pose proof (res_pos res Hr) as P.
  assert (X : 0 <= IZR x <= 2147483648) by (split; apply IZR_le; lia).
  destruct (to_pos_err o res _ Fo Fa Hr) as [Fc Ec].
  - rewrite Ea, Rabs_pos_eq, <- b80 by lra. lra.
  - rewrite <- b80. nra.
  - rewrite Ea in Ec. rewrite (Rabs_pos_eq (IZR x + / 2)) in Ec by lra. split; [exact Fc|exact Ec].
Qed.
Lemma roundtrip1 o res x : fin o -> ordinary res -> Rabs (B2R o) <= B2R res * 281474976710656 -> (0 <= x < 2147483648)%Z ->
  d_to_u32 (d_to_map o res (d_centre o res x)) = Some x.
Proof.
  intros Fo Hr Ho Hx. destruct (centre_err o res x Fo Hr Ho Hx) as [Fc Ec]. pose proof (res_pos res Hr) as P. pose proof (eta_res res Hr) as He. pose proof eta_pos as Hp. pose proof u_val as Uv.
  assert (X : 0 <= IZR x <= 2147483647) by (split; apply IZR_le; lia).
  set (c := d_centre o res x) in *. set (r := B2R res) in *. set (a := IZR x + / 2) in *.
  assert (Ra : 0 <= r * a <= r * 2147483648) by (unfold a; split; [apply Rmult_le_pos; lra|apply Rmult_le_compat_l; lra]).
  set (er := B2R c - (r * a + B2R o)) in *.
  assert (E1 : Rabs er <= r * / 10) by (eapply Rle_trans; [exact Ec|]; rewrite Uv; lra).
  assert (Q : B2R c - B2R o = r * a + er) by (unfold er; ring).
  assert (E2 : Rabs (B2R c - B2R o) <= r * 2147483649).
  { rewrite Q. eapply Rle_trans; [apply Rabs_triang|]. rewrite (Rabs_pos_eq (r * a)) by lra. lra. }
  destruct (to_map_err o res c Fo Fc Hr) as [Fe Ee]; [fold r; rewrite <- b80; lra|]. fold r in Ee.
  assert (E3 : Rabs (B2R c - B2R o) / r <= 2147483649) by (apply (Rmult_le_reg_r r); [exact P|]; unfold Rdiv; rewrite Rmult_assoc, Rinv_l by lra; lra).
  assert (E4 : (B2R c - B2R o) / r = a + er / r) by (rewrite Q; field; lra).
  assert (E5 : Rabs (er / r) <= / 10).
  { unfold Rdiv. rewrite Rabs_mult, (Rabs_pos_eq (/ r)) by (left; apply Rinv_0_lt_compat; exact P). apply (Rmult_le_reg_r r); [exact P|]. rewrite Rmult_assoc, Rinv_l by lra. lra. }
  assert (E6 : eta <= / 10) by (eapply Rle_trans; [apply (eta_small (-10)); lia|]; cbn; lra).
  rewrite E4 in Ee. apply Rabs_le_inv in E5. rewrite Uv in Ee.
  assert (E7 : Rabs (B2R (d_to_map o res c) - (a + er / r)) <= / 5) by lra. apply Rabs_le_inv in E7. unfold a in *.
  rewrite (to_u32_cast _ Fe). apply cast_u32_some; [lra|]. split; [lra|lia].
Qed.

(** ** C03 *)
(** The centre of a cell is always converted back to that cell. *)
Theorem C03_roundtrip_ieee : forall g x y, fits g -> cell_at g x y ->
  d_point2cell g (d_cell2point g x y) = Some (x, y, true).
Proof.
  intros g x y Hf Hc. pose proof Hf as [Hw Hh Hr Fx Fy [Nx Ny]]. pose proof Hc as [Cx Cy]. unfold d_point2cell, d_cell2point. cbn [fst snd].
  rewrite !roundtrip1 by (assumption || lia). cbn [obind]. do 2 f_equal. apply (inMap_u32 g x y Hf); [lia|lia|exact Hc].
Qed.

Lemma to_map_ge0 (o res p : b64) : fin o -> fin p -> ordinary res -> Rabs (B2R p - B2R o) <= B2R res * bpow radix2 80 -> B2R o <= B2R p -> 0 <= B2R (d_to_map o res p).
Proof.
  intros Fo Fp Hr B L. pose proof (res_pos res Hr) as P. pose proof u_val as Uv. unfold d_to_map. set (q := B2R p - B2R o) in *. assert (Hq : 0 <= q) by (unfold q; lra).
  destruct (res_big res 80 Hr ltac:(lia) q B) as [B1 _]. rewrite (Rabs_pos_eq q Hq) in B.
  destruct (bsub_spec p o Fp Fo B1) as [Fd Ed]. fold q in Ed.
  assert (D0 : 0 <= B2R (dsub p o)) by (rewrite Ed; apply r64_ge0; exact Hq).
  assert (D1 : B2R (dsub p o) <= 2 * q).
  { rewrite Ed. pose proof (err_add (B2R p) (- B2R o) (F64_B2R p) (generic_format_opp _ _ _ (F64_B2R o))) as X1. fold (B2R p - B2R o) in X1. fold q in X1. rewrite (Rabs_pos_eq q Hq), Uv in X1. apply Rabs_le_inv in X1. lra. }
  destruct (bdiv_spec (dsub p o) res Fd ltac:(lra)) as [_ Ed2].
  { destruct (res_big res 81 Hr ltac:(lia) (B2R (dsub p o))) as [_ Z].
    - rewrite Rabs_pos_eq by lra. change 81%Z with (1 + 80)%Z. rewrite bpow_plus. change (bpow radix2 1) with 2. lra.
    - eapply Rle_trans; [exact Z|apply bpow_le; lia]. }
  rewrite Ed2. apply r64_ge0. apply Rmult_le_pos; [exact D0|left; apply Rinv_0_lt_compat; exact P].
Qed.
Lemma cell_err o res p x : fin o -> fin p -> ordinary res -> Rabs (B2R o) <= B2R res * 281474976710656 -> Rabs (B2R p) <= B2R res * 281474976710656 ->
  B2R o <= B2R p -> (0 <= x < 2147483648)%Z -> d_to_u32 (d_to_map o res p) = Some x ->
  Rabs (B2R (d_centre o res x) - B2R p) <= B2R res / 2 + (Rabs (B2R p) + Rabs (B2R o) + B2R res) / 562949953421312.
Proof.
  intros Fo Fp Hr Ho Hpp L Hx Ex. destruct (centre_err o res x Fo Hr Ho Hx) as [Fc Ec]. pose proof (res_pos res Hr) as P. pose proof (eta_res res Hr) as He. pose proof eta_pos as Hp. pose proof u_val as Uv.
  set (r := B2R res) in *. set (q := B2R p - B2R o) in *. assert (Hq : 0 <= q) by (unfold q; lra).
  assert (Q1 : q <= Rabs (B2R p) + Rabs (B2R o)) by (unfold q; pose proof (Rle_abs (B2R p)); pose proof (Rle_abs (- B2R o)) as Z; rewrite Rabs_Ropp in Z; lra).
  destruct (to_map_err o res p Fo Fp Hr) as [Fe Ee]; [fold r q; rewrite <- b80, Rabs_pos_eq by lra; lra|]. fold r q in Ee. rewrite (Rabs_pos_eq q Hq) in Ee.
  set (e := B2R (d_to_map o res p)) in *. rewrite (to_u32_cast _ Fe) in Ex. fold e in Ex.
  assert (Re : 0 <= e) by (apply to_map_ge0; try assumption; fold r q; rewrite <- b80, Rabs_pos_eq by lra; lra).
  apply cast_u32_some in Ex; [|exact Re]. destruct Ex as [[X1 X2] _].
  assert (E1 : r * Rabs (e - q / r) <= 3 * u * q + r * eta).
  { apply (Rmult_le_compat_l r) in Ee; [|lra]. replace (r * (3 * u * (q / r) + eta)) with (3 * u * q + r * eta) in Ee by (field; lra). exact Ee. }
  assert (E2 : Rabs (r * e - q) <= 3 * u * q + r * eta).
  { replace (r * e - q) with (r * (e - q / r)) by (field; lra). rewrite Rabs_mult, (Rabs_pos_eq r) by lra. exact E1. }
  assert (E3 : eta <= / 1267650600228229401496703205376) by (eapply Rle_trans; [apply (eta_small (-100)); lia|]; cbn; lra).
  assert (E4 : r * eta <= r * / 1267650600228229401496703205376) by (apply Rmult_le_compat_l; lra).
  set (X := IZR x) in *. assert (HX : 0 <= X) by (apply (IZR_le 0); lia).
  assert (M1 : r * X <= r * e) by (apply Rmult_le_compat_l; lra). assert (M2 : r * e <= r * X + r) by (replace (r * X + r) with (r * (X + 1)) by ring; apply Rmult_le_compat_l; lra).
  replace (r * (X + / 2)) with (r * X + r / 2) in Ec by field. set (rX := r * X) in *. set (re := r * e) in *.
  assert (0 <= rX) by (apply Rmult_le_pos; lra).
  apply Rabs_le_inv in E2. apply Rabs_le_inv in Ec. unfold q in *. rewrite Uv in *. pose proof (Rabs_pos (B2R p)). pose proof (Rabs_pos (B2R o)). apply Rabs_le. clear Ee E1 Ho Hpp X1 X2. split; lra.
Qed.
(** The centre of the cell of a point is at most half a cell away in each coordinate, but
    for a rounding error of 2^-49 of the coordinates. *)
Theorem C03_half_cell_ieee : forall g p x y, fits g -> is_finite (fst p) = true -> is_finite (snd p) = true ->
  Rabs (B2R (fst p)) <= B2R (dg_res g) * 281474976710656 -> Rabs (B2R (snd p)) <= B2R (dg_res g) * 281474976710656 ->
  B2R (dg_ox g) <= B2R (fst p) -> B2R (dg_oy g) <= B2R (snd p) ->
  d_point2cell g p = Some (x, y, true) -> cell_at g x y /\
  Rabs (B2R (fst (d_cell2point g x y)) - B2R (fst p)) <= B2R (dg_res g) / 2 + (Rabs (B2R (fst p)) + Rabs (B2R (dg_ox g)) + B2R (dg_res g)) / 562949953421312 /\
  Rabs (B2R (snd (d_cell2point g x y)) - B2R (snd p)) <= B2R (dg_res g) / 2 + (Rabs (B2R (snd p)) + Rabs (B2R (dg_oy g)) + B2R (dg_res g)) / 562949953421312.
Proof.
  intros g p x y Hf F1 F2 B1 B2 L1 L2 E. pose proof Hf as [Hw Hh Hr Fx Fy [Nx Ny]]. unfold d_point2cell in E.
  destruct (d_to_u32 (d_to_map (dg_ox g) _ _)) as [x'|] eqn:E1; [|discriminate]. cbn [obind] in E.
  destruct (d_to_u32 (d_to_map (dg_oy g) _ _)) as [y'|] eqn:E2; [|discriminate]. cbn [obind] in E.
  injection E as -> -> Hc.
  assert (Bx : (0 <= x < 4294967296)%Z) by (rewrite (to_u32_cast _ (to_u32_inf _ _ E1)) in E1; apply (cast_u32_trunc _ _ E1)).
  assert (By : (0 <= y < 4294967296)%Z) by (rewrite (to_u32_cast _ (to_u32_inf _ _ E2)) in E2; apply (cast_u32_trunc _ _ E2)).
  apply (inMap_u32 g x y Hf Bx By) in Hc. split; [exact Hc|]. destruct Hc as [Cx Cy]. cbn [d_cell2point fst snd].
  split; [apply cell_err|apply cell_err]; (assumption || lia).
Qed.

(** ** C04 *)
(** A point less than 2^48 cells away from the zero of the coordinates. *)
Definition near_by (g : dgeo) (p : b64 * b64) : Prop :=
  is_finite (fst p) = true /\ is_finite (snd p) = true /\
  Rabs (B2R (fst p)) <= B2R (dg_res g) * 281474976710656 /\ Rabs (B2R (snd p)) <= B2R (dg_res g) * 281474976710656.
Lemma diff_bound (o res p : b64) : ordinary res -> Rabs (B2R o) <= B2R res * 281474976710656 -> Rabs (B2R p) <= B2R res * 281474976710656 ->
  Rabs (B2R p - B2R o) <= Rabs (B2R p) + Rabs (B2R o) /\ Rabs (B2R p - B2R o) <= B2R res * bpow radix2 80.
Proof.
  intros Hr Ho Hp. pose proof (res_pos res Hr) as P.
  assert (X : Rabs (B2R p - B2R o) <= Rabs (B2R p) + Rabs (B2R o)) by (unfold Rminus; eapply Rle_trans; [apply Rabs_triang|]; rewrite Rabs_Ropp; lra).
  split; [exact X|]. rewrite <- b80. lra.
Qed.
(** What the inside test and the conversion compute, in one coordinate. *)
Lemma inside1 o res p w : fin o -> fin p -> ordinary res -> Rabs (B2R o) <= B2R res * 281474976710656 -> Rabs (B2R p) <= B2R res * 281474976710656 ->
  (0 <= w < 2147483648)%Z -> B2R o <= B2R p ->
  Bltb (d_to_map o res p) (d_of_Z w) = true <-> exists x, d_to_u32 (d_to_map o res p) = Some x /\ (0 <= x < w)%Z.
Proof.
  intros Fo Fp Hr Ho Hp Hw L. destruct (diff_bound o res p Hr Ho Hp) as [_ B]. destruct (to_map_err o res p Fo Fp Hr B) as [Fe _].
  pose proof (to_map_ge0 o res p Fo Fp Hr B L) as Re. destruct (d_of_Z_spec w ltac:(cbn; lia)) as [Fw Ew].
  rewrite (Bltb_correct _ _ _ _ Fe Fw), Ew, (to_u32_cast _ Fe). set (e := B2R (d_to_map o res p)) in *.
  case Rlt_bool_spec; intros H; (split; [intros E; try discriminate|]).
  - assert (He : e < 4294967296) by (eapply Rlt_trans; [exact H|]; apply IZR_lt; lia).
    destruct (cast_quot e Re He) as (z & Ez & Iz & Bz). exists z. split; [exact Ez|]. split; [lia|]. apply lt_IZR. lra.
  - reflexivity.
  - intros (z & Ez & Bz). exfalso. apply cast_u32_some in Ez; [|exact Re]. destruct Ez as [[_ X] _].
    assert (IZR z + 1 <= IZR w) by (rewrite <- plus_IZR; apply IZR_le; lia). lra.
Qed.
(** A point that is not left of or below the origin is reported inside exactly if it has
    a cell in the map: the two answers never contradict each other. *)
Theorem C04_inside_ieee : forall g p, fits g -> near_by g p -> B2R (dg_ox g) <= B2R (fst p) -> B2R (dg_oy g) <= B2R (snd p) ->
  d_isInMap g p = true <-> exists x y, d_point2cell g p = Some (x, y, true) /\ cell_at g x y.
Proof.
  intros g p Hf (F1 & F2 & N1 & N2) L1 L2. pose proof Hf as [Hw Hh Hr Fx Fy [Nx Ny]]. unfold d_isInMap.
  rewrite andb_true_iff, (inside1 _ _ _ _ Fx F1 Hr Nx N1 Hw L1), (inside1 _ _ _ _ Fy F2 Hr Ny N2 Hh L2). unfold d_point2cell. split.
  - intros [(x & Ex & Bx) (y & Ey & By)]. exists x, y. rewrite Ex, Ey. cbn [obind]. split; [|split; assumption]. do 2 f_equal.
    apply (inMap_u32 g x y Hf); [lia|lia|split; assumption].
  - intros (x & y & E & [Bx By]).
    destruct (d_to_u32 (d_to_map (dg_ox g) _ _)) as [x'|] eqn:E1; [|discriminate]. cbn [obind] in E.
    destruct (d_to_u32 (d_to_map (dg_oy g) _ _)) as [y'|] eqn:E2; [|discriminate]. cbn [obind] in E. injection E as -> -> _.
    split; eexists; (split; [reflexivity|assumption]).
Qed.
(** The border: up to a rounding error the test is the comparison with the border. *)
Definition rounding (g : dgeo) (o p : b64) : R := (Rabs (B2R p) + Rabs (B2R o) + B2R (dg_res g)) / 562949953421312.
Lemma border1 o res p w : fin o -> fin p -> ordinary res -> Rabs (B2R o) <= B2R res * 281474976710656 -> Rabs (B2R p) <= B2R res * 281474976710656 ->
  (0 <= w < 2147483648)%Z ->
  (Bltb (d_to_map o res p) (d_of_Z w) = true -> B2R p < B2R o + B2R res * IZR w + (Rabs (B2R p) + Rabs (B2R o) + B2R res) / 562949953421312) /\
  (B2R p < B2R o + B2R res * IZR w - (Rabs (B2R p) + Rabs (B2R o) + B2R res) / 562949953421312 -> Bltb (d_to_map o res p) (d_of_Z w) = true).
Proof.
  intros Fo Fp Hr Ho Hpp Hw. destruct (diff_bound o res p Hr Ho Hpp) as [Q1 B]. destruct (to_map_err o res p Fo Fp Hr B) as [Fe Ee].
  destruct (d_of_Z_spec w ltac:(cbn; lia)) as [Fw Ew]. pose proof (res_pos res Hr) as P. pose proof u_val as Uv. pose proof eta_pos as Hp.
  rewrite (Bltb_correct _ _ _ _ Fe Fw), Ew. set (e := B2R (d_to_map o res p)) in *. set (r := B2R res) in *. set (q := B2R p - B2R o) in *.
  assert (E1 : Rabs (r * e - q) <= 3 * u * Rabs q + r * eta).
  { replace (r * e - q) with (r * (e - q / r)) by (field; lra). rewrite Rabs_mult, (Rabs_pos_eq r) by lra.
    apply (Rmult_le_compat_l r) in Ee; [|lra]. replace (r * (3 * u * (Rabs q / r) + eta)) with (3 * u * Rabs q + r * eta) in Ee by (field; lra). exact Ee. }
  assert (E3 : eta <= / 1267650600228229401496703205376) by (eapply Rle_trans; [apply (eta_small (-100)); lia|]; cbn; lra).
  assert (E4 : r * eta <= r * / 1267650600228229401496703205376) by (apply Rmult_le_compat_l; lra).
  pose proof (Rabs_pos (B2R p)). pose proof (Rabs_pos (B2R o)). apply Rabs_le_inv in E1. rewrite Uv in E1. clear Ee. split; intros H1.
  - case (Rlt_bool_spec e (IZR w)) in H1; [|discriminate]. assert (r * e < r * IZR w) by (apply Rmult_lt_compat_l; assumption). unfold q in *. lra.
  - apply Rlt_bool_true. apply (Rmult_lt_reg_l r); [exact P|]. unfold q in *. lra.
Qed.
Theorem C04_border_ieee : forall g p, fits g -> near_by g p ->
  (d_isInMap g p = true -> B2R (fst p) < B2R (dg_ox g) + B2R (dg_res g) * IZR (dg_w g) + rounding g (dg_ox g) (fst p) /\
                           B2R (snd p) < B2R (dg_oy g) + B2R (dg_res g) * IZR (dg_h g) + rounding g (dg_oy g) (snd p)) /\
  (B2R (fst p) < B2R (dg_ox g) + B2R (dg_res g) * IZR (dg_w g) - rounding g (dg_ox g) (fst p) ->
   B2R (snd p) < B2R (dg_oy g) + B2R (dg_res g) * IZR (dg_h g) - rounding g (dg_oy g) (snd p) -> d_isInMap g p = true).
Proof.
  intros g p Hf (F1 & F2 & N1 & N2). pose proof Hf as [Hw Hh Hr Fx Fy [Nx Ny]]. unfold d_isInMap, rounding. rewrite andb_true_iff.
  destruct (border1 _ _ _ _ Fx F1 Hr Nx N1 Hw) as [A1 A2]. destruct (border1 _ _ _ _ Fy F2 Hr Ny N2 Hh) as [B1 B2]. split; [tauto|]. intros X Y. split; auto.
Qed.
(** Two cells or more left of the origin: reported inside (as far as x is concerned), and
    the conversion is undefined. *)
Theorem C04_left_ieee_refuted : forall g p, fits g -> near_by g p -> B2R (fst p) <= B2R (dg_ox g) - 2 * B2R (dg_res g) ->
  Bltb (d_to_map (dg_ox g) (dg_res g) (fst p)) (d_of_Z (dg_w g)) = true /\ d_point2cell g p = None.
Proof.
  intros g p Hf (F1 & F2 & N1 & N2) L. pose proof Hf as [Hw Hh Hr Fx Fy [Nx Ny]].
  destruct (diff_bound _ _ _ Hr Nx N1) as [Q1 B]. destruct (to_map_err _ _ _ Fx F1 Hr B) as [Fe Ee]. pose proof (res_pos _ Hr) as P.
  set (o := B2R (dg_ox g)) in *. set (q := B2R (fst p) - o) in *. set (r := B2R (dg_res g)) in *. set (e := B2R (d_to_map (dg_ox g) (dg_res g) (fst p))) in *.
  assert (A1 : q / r <= -2) by (apply (Rmult_le_reg_r r); [exact P|]; unfold Rdiv; rewrite Rmult_assoc, Rinv_l by lra; unfold q; lra).
  assert (A2 : Rabs q / r <= 562949953421312) by (apply (Rmult_le_reg_r r); [exact P|]; unfold Rdiv; rewrite Rmult_assoc, Rinv_l by lra; lra).
  assert (E3 : eta <= / 10) by (eapply Rle_trans; [apply (eta_small (-10)); lia|]; cbn; lra).
  apply Rabs_le_inv in Ee. rewrite u_val in Ee. assert (E : e < -1) by lra.
  split.
  - destruct (d_of_Z_spec (dg_w g) ltac:(cbn; lia)) as [Fw Ew]. rewrite (Bltb_correct _ _ _ _ Fe Fw), Ew. fold e. apply Rlt_bool_true.
    assert (0 <= IZR (dg_w g)) by (apply (IZR_le 0); lia). lra.
  - unfold d_point2cell. rewrite (to_u32_cast _ Fe). fold e. assert (cast_u32 e = None) as -> by (apply cast_u32_none; lra). reflexivity.
Qed.

(** ** C51 *)
(** pos2map and map2pos are inverse up to a rounding error of 2^-49 of the coordinates. *)
Lemma there_and_back o res p : fin o -> fin p -> ordinary res -> Rabs (B2R o) <= B2R res * 281474976710656 -> Rabs (B2R p) <= B2R res * 281474976710656 ->
  Rabs (B2R (d_to_pos o res (d_to_map o res p)) - B2R p) <= (Rabs (B2R p) + Rabs (B2R o) + B2R res) / 562949953421312.
Proof.
  intros Fo Fp Hr Ho Hpp. destruct (diff_bound o res p Hr Ho Hpp) as [Q1 B]. destruct (to_map_err o res p Fo Fp Hr B) as [Fe Ee].
  pose proof (res_pos res Hr) as P. pose proof u_val as Uv. pose proof eta_pos as Hp. pose proof (eta_res res Hr) as He.
  set (m := d_to_map o res p) in *. set (e := B2R m) in *. set (r := B2R res) in *. set (q := B2R p - B2R o) in *.
  assert (E1 : Rabs (r * e - q) <= 3 * u * Rabs q + r * eta).
  { replace (r * e - q) with (r * (e - q / r)) by (field; lra). rewrite Rabs_mult, (Rabs_pos_eq r) by lra.
    apply (Rmult_le_compat_l r) in Ee; [|lra]. replace (r * (3 * u * (Rabs q / r) + eta)) with (3 * u * Rabs q + r * eta) in Ee by (field; lra). exact Ee. }
  assert (E3 : eta <= / 1267650600228229401496703205376) by (eapply Rle_trans; [apply (eta_small (-100)); lia|]; cbn; lra).
  assert (E4 : r * eta <= r * / 1267650600228229401496703205376) by (apply Rmult_le_compat_l; lra).
  pose proof (Rabs_pos (B2R p)) as Z1. pose proof (Rabs_pos (B2R o)) as Z2. pose proof (Rabs_pos q) as Z3. rewrite Uv in E1.
  assert (E5 : r * Rabs e <= 2 * (Rabs (B2R p) + Rabs (B2R o)) + r).
  { rewrite <- (Rabs_pos_eq r) at 1 by lra. rewrite <- Rabs_mult. replace (r * e) with (q + (r * e - q)) by ring. eapply Rle_trans; [apply Rabs_triang|]. lra. }
  assert (E6 : Rabs e <= 1125899906842625).
  { apply (Rmult_le_reg_l r); [exact P|]. lra. }
  destruct (to_pos_err o res m Fo Fe Hr) as [Fc Ec]; [fold e; rewrite <- b80; lra|fold r; rewrite <- b80; lra|]. fold r e in Ec.
  replace (B2R (d_to_pos o res m) - B2R p) with ((B2R (d_to_pos o res m) - (r * e + B2R o)) + (r * e - q)) by (unfold q; ring).
  assert (E7 : r * Rabs e <= Rabs q + (3 * / 9007199254740992 * Rabs q + r * eta)).
  { rewrite <- (Rabs_pos_eq r) at 1 by lra. rewrite <- Rabs_mult. replace (r * e) with (q + (r * e - q)) by ring. eapply Rle_trans; [apply Rabs_triang|]. lra. }
  eapply Rle_trans; [apply Rabs_triang|]. rewrite Uv in Ec. lra.
Qed.
Lemma back_and_there o res m : fin o -> fin m -> ordinary res -> Rabs (B2R o) <= B2R res * 281474976710656 -> Rabs (B2R m) <= 281474976710656 ->
  Rabs (B2R (d_to_map o res (d_to_pos o res m)) - B2R m) <= (Rabs (B2R m) + Rabs (B2R o) / B2R res + 1) / 562949953421312.
Proof.
  intros Fo Fm Hr Ho Hm. pose proof (res_pos res Hr) as P. pose proof u_val as Uv. pose proof eta_pos as Hp. pose proof (eta_res res Hr) as He.
  set (r := B2R res) in *. destruct (to_pos_err o res m Fo Fm Hr) as [Fc Ec]; [rewrite <- b80; lra|fold r; rewrite <- b80; lra|]. fold r in Ec.
  set (c := d_to_pos o res m) in *. set (M := B2R m) in *. set (er := B2R c - (r * M + B2R o)) in *.
  set (on := Rabs (B2R o) / r). assert (On : 0 <= on <= 281474976710656).
  { unfold on. split; [apply Rmult_le_pos; [apply Rabs_pos|left; apply Rinv_0_lt_compat; exact P]|]. apply (Rmult_le_reg_r r); [exact P|]. unfold Rdiv. rewrite Rmult_assoc, Rinv_l by lra. lra. }
  assert (Er : Rabs (er / r) <= 3 * u * Rabs M + 2 * u * on + 2 * / 1267650600228229401496703205376).
  { unfold Rdiv. rewrite Rabs_mult, (Rabs_pos_eq (/ r)) by (left; apply Rinv_0_lt_compat; exact P). apply (Rmult_le_reg_r r); [exact P|]. rewrite Rmult_assoc, Rinv_l by lra. rewrite Rmult_1_r.
    eapply Rle_trans; [exact Ec|]. replace (Rabs (B2R o)) with (on * r) by (unfold on; field; lra). nra. }
  pose proof (Rabs_pos M) as Z1. rewrite Uv in Er.
  assert (Q : (B2R c - B2R o) / r = M + er / r) by (unfold er; field; lra).
  assert (Qa : Rabs (B2R c - B2R o) / r = Rabs (M + er / r)). { rewrite <- Q. unfold Rdiv. rewrite Rabs_mult, (Rabs_pos_eq (/ r)) by (left; apply Rinv_0_lt_compat; exact P). reflexivity. }
  assert (Qb : Rabs (M + er / r) <= Rabs M + (3 * / 9007199254740992 * Rabs M + 2 * / 9007199254740992 * on + 2 * / 1267650600228229401496703205376)) by (eapply Rle_trans; [apply Rabs_triang|]; lra).
  destruct (to_map_err o res c Fo Fc Hr) as [Fe Ee].
  { fold r. replace (Rabs (B2R c - B2R o)) with (Rabs (B2R c - B2R o) / r * r) by (field; lra). rewrite Qa, Rmult_comm. apply Rmult_le_compat_l; [lra|]. rewrite <- b80. lra. }
  fold r in Ee. rewrite Q, Qa in Ee.
  assert (E3 : eta <= / 1267650600228229401496703205376) by (eapply Rle_trans; [apply (eta_small (-100)); lia|]; cbn; lra).
  set (e := B2R (d_to_map o res c)) in *. replace (e - M) with ((e - (M + er / r)) + er / r) by ring.
  eapply Rle_trans; [apply Rabs_triang|]. rewrite Uv in Ee. lra.
Qed.
Theorem C51_inverse_ieee : forall g p, fits g -> near_by g p ->
  Rabs (B2R (fst (d_map2pos g (d_pos2map g p))) - B2R (fst p)) <= rounding g (dg_ox g) (fst p) /\
  Rabs (B2R (snd (d_map2pos g (d_pos2map g p))) - B2R (snd p)) <= rounding g (dg_oy g) (snd p).
Proof.
  intros g p Hf (F1 & F2 & N1 & N2). pose proof Hf as [Hw Hh Hr Fx Fy [Nx Ny]]. unfold d_map2pos, d_pos2map, rounding. cbn [fst snd].
  split; apply there_and_back; assumption.
Qed.
Theorem C51_inverse_map_ieee : forall g m, fits g -> is_finite (fst m) = true -> is_finite (snd m) = true ->
  Rabs (B2R (fst m)) <= 281474976710656 -> Rabs (B2R (snd m)) <= 281474976710656 ->
  Rabs (B2R (fst (d_pos2map g (d_map2pos g m))) - B2R (fst m)) <= (Rabs (B2R (fst m)) + Rabs (B2R (dg_ox g)) / B2R (dg_res g) + 1) / 562949953421312 /\
  Rabs (B2R (snd (d_pos2map g (d_map2pos g m))) - B2R (snd m)) <= (Rabs (B2R (snd m)) + Rabs (B2R (dg_oy g)) / B2R (dg_res g) + 1) / 562949953421312.
Proof.
  intros g m Hf F1 F2 N1 N2. pose proof Hf as [Hw Hh Hr Fx Fy [Nx Ny]]. unfold d_map2pos, d_pos2map. cbn [fst snd].
  split; apply back_and_there; assumption.
Qed.

(** Not vacuous: a map of 4x3 cells of the size the binary64 number nearest to 1/20, its
    outer corner at (-1/2, 3); the point (-7/16, 49/16) lies in its cell (1,1), the point
    (-1, 3) two cells and more left of it. *)
Definition g_ex : dgeo := DGeo 4 3 (ddiv (d_of_Z 1) (d_of_Z 20)) (dsub (d_of_Z 0) dhalf) (d_of_Z 3).
Definition p_ex : b64 * b64 := (ddiv (d_of_Z (-7)) (d_of_Z 16), ddiv (d_of_Z 49) (d_of_Z 16)).
Definition q_ex : b64 * b64 := (d_of_Z (-1), d_of_Z 3).
Lemma ex_num : B2R (dg_res g_ex) = IZR 7205759403792794 * bpow radix2 (-57) /\ B2R (dg_ox g_ex) = - / 2 /\ B2R (dg_oy g_ex) = 3 /\
  B2R (fst p_ex) = - 7 / 16 /\ B2R (snd p_ex) = 49 / 16 /\ B2R (fst q_ex) = -1 /\ B2R (snd q_ex) = 3.
Proof. repeat split; vm_compute; lra. Qed.
Example C03_ieee_example : fits g_ex /\ near_by g_ex p_ex /\ near_by g_ex q_ex /\
  d_point2cell g_ex p_ex = Some (1, 1, true)%Z /\ d_isInMap g_ex p_ex = true /\
  B2R (fst q_ex) <= B2R (dg_ox g_ex) - 2 * B2R (dg_res g_ex).
Proof.
  destruct ex_num as (Er & Ex & Ey & P1 & P2 & Q1 & Q2).
  assert (B : / 100 <= B2R (dg_res g_ex) <= / 10). { rewrite Er. cbn. lra. }
  assert (N : 1 <= B2R (dg_res g_ex) * 281474976710656 / 100). { lra. }
  assert (S1 : bpow radix2 (-900) <= / 100). { apply Rle_trans with (bpow radix2 (-10)); [apply bpow_le; lia|cbn; lra]. }
  assert (S2 : / 10 <= bpow radix2 900). { apply Rle_trans with (bpow radix2 0); [cbn; lra|apply bpow_le; lia]. }
  split; [|split; [|split; [|split; [|split]]]].
  - split; try (cbn; lia); try reflexivity.
    + split; [reflexivity|]. lra.
    + rewrite Ex, Ey. split; apply Rabs_le; lra.
  - unfold near_by. rewrite P1, P2. repeat split; try reflexivity; apply Rabs_le; lra.
  - unfold near_by. rewrite Q1, Q2. repeat split; try reflexivity; apply Rabs_le; lra.
  - vm_compute. reflexivity.
  - vm_compute. reflexivity.
  - rewrite Q1, Ex. lra.
Qed.
