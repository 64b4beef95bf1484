(** C85: the overload of cell2point that writes floats (I/common/SimpleGridMap2d.h:94-97). *)
From Coq Require Import Reals Lra.
From Flocq Require Import Core BinarySingleNaN Relative Plus_error.
From Verif Require Import Base GeomR PropGeom AStarFloat AStarIeee GenericIeee GridGeomIeee PropGeomIeee.
Local Open Scope R_scope.

(** ** Model *)
(** SimpleGridMap2d.h:94-97: the double of the other overload, converted to float.  [x + 0.5]
    is a double and (double) a no-op. *)
Definition f_cell2point (g : dgeo) (x y : Z) : b32 * b32 :=
  (to_f32 (d_centre (dg_ox g) (dg_res g) x), to_f32 (d_centre (dg_oy g) (dg_res g) y)).
(** Passing floats where doubles are expected. *)
Definition widen (p : b32 * b32) : b64 * b64 := (to_f64 (fst p), to_f64 (snd p)).

(** ** Specification *)
(** Coordinates that floats can hold: cells between 2^-100 and 2^30. *)
Definition float_sized (g : dgeo) : Prop := bpow radix2 (-100) <= B2R (dg_res g) <= bpow radix2 30.
(** The map lies within four million cells of the zero of the coordinates. *)
Definition near_zero (g : dgeo) : Prop :=
  Rabs (B2R (dg_ox g)) + B2R (dg_res g) * IZR (dg_w g) <= B2R (dg_res g) * 4000000 /\
  Rabs (B2R (dg_oy g)) + B2R (dg_res g) * IZR (dg_h g) <= B2R (dg_res g) * 4000000.

(** ** Rounding to float *)
Lemma r32_abs x k : (-149 <= k)%Z -> Rabs x <= bpow radix2 k -> Rabs (r32 x) <= bpow radix2 k.
Proof.
  intros Hk H. apply abs_round_le_generic; [exact v32|apply valid_rnd_N|apply F32_bpow; exact Hk|exact H].
Qed.
Lemma err32 x : Rabs (r32 x - x) <= bpow radix2 (-24) * Rabs x + bpow radix2 (-150).
Proof.
  destruct (@error_N_FLT radix2 (-149) 24 p32 (fun z => negb (Z.even z)) x) as (e & h & He & Hh & _ & Er).
  change (ZnearestE) with (Znearest (fun z => negb (Z.even z))). rewrite Er.
  replace (x * (1 + e) + h - x) with (e * x + h) by ring.
  eapply Rle_trans; [apply Rabs_triang|]. rewrite Rabs_mult. apply Rplus_le_compat.
  - apply Rmult_le_compat_r; [apply Rabs_pos|]. eapply Rle_trans; [exact He|]. right. unfold u_ro. cbn. lra.
  - eapply Rle_trans; [exact Hh|]. right. replace (-150)%Z with (-1 + -149)%Z by reflexivity. rewrite bpow_plus. reflexivity.
Qed.
Lemma to_f32_any x : fin x -> Rabs (B2R x) <= bpow radix2 100 -> fin (to_f32 x) /\ B2R (to_f32 x) = r32 (B2R x).
Proof.
  intros Fx B1. destruct x as [s|s| |s m e H]; try discriminate.
  - cbn [to_f32 B2R is_finite]. split; [reflexivity|]. symmetry. apply r32_id. apply generic_format_0.
  - cbn [to_f32]. pose proof (@binary_normalize_correct 24 128 p32 l32 mode_NE (cond_Zopp s (Z.pos m)) e s) as C. cbv zeta in C.
    change (F2R (Float radix2 (cond_Zopp s (Z.pos m)) e)) with (B2R (B754_finite s m e H)) in C. set (x := B754_finite s m e H) in *. clearbody x.
    change (round radix2 _ _ (B2R x)) with (r32 (B2R x)) in C.
    rewrite Rlt_bool_true in C; [destruct C as (C1 & C2 & _); split; assumption|].
    eapply Rle_lt_trans; [apply (r32_abs _ 100); [lia|exact B1]|]. apply bpow_lt. lia.
Qed.
Lemma to_f64_any x : fin x -> fin (to_f64 x) /\ B2R (to_f64 x) = B2R x.
Proof.
  intros Fx. destruct x as [s|s| |s m e H]; try discriminate; [split; reflexivity|].
  cbn [to_f64]. pose proof (@binary_normalize_correct 53 1024 p64 l64 mode_NE (cond_Zopp s (Z.pos m)) e s) as C. cbv zeta in C.
  change (F2R (Float radix2 (cond_Zopp s (Z.pos m)) e)) with (B2R (B754_finite s m e H)) in C. set (x := B754_finite s m e H) in *. clearbody x.
  change (round radix2 _ _ (B2R x)) with (r64 (B2R x)) in C. rewrite r64_id in C by (apply F32_F64, B2R_F32).
  rewrite Rlt_bool_true in C; [destruct C as (C1 & C2 & _); split; assumption|].
  eapply Rlt_trans; [apply abs_B2R_lt_emax|]. apply bpow_lt. lia.
Qed.

(** ** One coordinate *)
Lemma centre32 o res x : fin o -> ordinary res -> bpow radix2 (-100) <= B2R res <= bpow radix2 30 ->
  Rabs (B2R o) <= B2R res * 281474976710656 -> (0 <= x < 2147483648)%Z ->
  let p := to_f64 (to_f32 (d_centre o res x)) in
  fin (to_f32 (d_centre o res x)) /\ fin p /\ B2R p = B2R (to_f32 (d_centre o res x)) /\
  Rabs (B2R p - (B2R res * (IZR x + / 2) + B2R o)) <= (Rabs (B2R o) + B2R res * (IZR x + 1)) / 16000000.
Proof.
  intros Fo Hr Hs Ho Hx p. destruct (centre_err o res x Fo Hr Ho Hx) as [Fc Ec]. pose proof (res_pos res Hr) as P. pose proof (eta_res res Hr) as He. pose proof eta_pos as Hp. pose proof u_val as Uv.
  assert (X : 0 <= IZR x <= 2147483647) by (split; apply IZR_le; lia).
  set (c := d_centre o res x) in *. set (r := B2R res) in *. set (ao := Rabs (B2R o)) in *. assert (Ao : 0 <= ao) by apply Rabs_pos.
  set (ra := r * (IZR x + / 2)) in *.
  assert (Ra : 0 <= ra <= r * 2147483648) by (unfold ra; split; [apply Rmult_le_pos; lra|apply Rmult_le_compat_l; lra]).
  assert (Rx : r * (IZR x + 1) = ra + r / 2) by (unfold ra; field).
  assert (Vb : Rabs (ra + B2R o) <= ra + ao) by (eapply Rle_trans; [apply Rabs_triang|]; rewrite (Rabs_pos_eq ra) by lra; unfold ao; lra).
  assert (E0 : Rabs (B2R c - (ra + B2R o)) <= (ra + ao) / 1000000000000 + 2 * eta) by (rewrite Uv in Ec; lra).
  assert (E0' : 2 * eta <= r / 1000000000000) by lra.
  assert (Cb : Rabs (B2R c) <= (ra + ao) * (1 + / 1000000000000) + r / 1000000000000).
  { replace (B2R c) with ((B2R c - (ra + B2R o)) + (ra + B2R o)) by ring. eapply Rle_trans; [apply Rabs_triang|]. lra. }
  assert (Cb2 : Rabs (B2R c) <= bpow radix2 100).
  { apply Rle_trans with (r * bpow radix2 60).
    - change (bpow radix2 60) with 1152921504606846976. lra.
    - apply Rle_trans with (bpow radix2 30 * bpow radix2 60); [apply Rmult_le_compat_r; [apply bpow_ge_0|apply Hs]|]. rewrite <- bpow_plus. apply bpow_le. lia. }
  destruct (to_f32_any c Fc Cb2) as [Ff Ef]. destruct (to_f64_any (to_f32 c) Ff) as [Fp Ep]. fold p in Fp, Ep.
  split; [exact Ff|]. split; [exact Fp|]. split; [exact Ep|].
  pose proof (err32 (B2R c)) as E1. rewrite <- Ef, <- Ep in E1.
  assert (T : bpow radix2 (-150) <= r * / 1125899906842624).
  { replace (/ 1125899906842624) with (bpow radix2 (-50)) by (cbn; lra).
    apply Rle_trans with (bpow radix2 (-100) * bpow radix2 (-50)); [rewrite <- bpow_plus; apply bpow_le; lia|]. apply Rmult_le_compat_r; [apply bpow_ge_0|apply Hs]. }
  assert (T2 : bpow radix2 (-24) = / 16777216) by (cbn; lra). rewrite T2 in E1.
  replace (B2R p - (ra + B2R o)) with ((B2R p - B2R c) + (B2R c - (ra + B2R o))) by ring.
  eapply Rle_trans; [apply Rabs_triang|]. rewrite Rx. clear - E1 E0 E0' Cb T Ra Ao P. lra.
Qed.

(** Any double close to the centre is converted to the cell. *)
Lemma roundtrip_near o res x c : fin o -> fin c -> ordinary res -> (0 <= x < 2147483648)%Z ->
  Rabs (B2R c - (B2R res * (IZR x + / 2) + B2R o)) <= B2R res * / 4 -> d_to_u32 (d_to_map o res c) = Some x.
Proof.
  intros Fo Fc Hr Hx E1. pose proof (res_pos res Hr) as P. pose proof eta_pos as Hp. pose proof u_val as Uv.
  assert (X : 0 <= IZR x <= 2147483647) by (split; apply IZR_le; lia).
  set (r := B2R res) in *. set (a := IZR x + / 2) in *.
  assert (Ra : 0 <= r * a <= r * 2147483648) by (unfold a; split; [apply Rmult_le_pos; lra|apply Rmult_le_compat_l; lra]).
  set (er := B2R c - (r * a + B2R o)) in *.
  assert (Q : B2R c - B2R o = r * a + er) by (unfold er; ring).
  assert (E2 : Rabs (B2R c - B2R o) <= r * 2147483649).
  { rewrite Q. eapply Rle_trans; [apply Rabs_triang|]. rewrite (Rabs_pos_eq (r * a)) by lra. lra. }
  destruct (to_map_err o res c Fo Fc Hr) as [Fe Ee]; [fold r; rewrite <- b80; lra|]. fold r in Ee.
  assert (E3 : Rabs (B2R c - B2R o) / r <= 2147483649) by (apply (Rmult_le_reg_r r); [exact P|]; unfold Rdiv; rewrite Rmult_assoc, Rinv_l by lra; lra).
  assert (E4 : (B2R c - B2R o) / r = a + er / r) by (rewrite Q; field; lra).
  assert (E5 : Rabs (er / r) <= / 4).
  { unfold Rdiv. rewrite Rabs_mult, (Rabs_pos_eq (/ r)) by (left; apply Rinv_0_lt_compat; exact P). apply (Rmult_le_reg_r r); [exact P|]. rewrite Rmult_assoc, Rinv_l by lra. lra. }
  assert (E6 : eta <= / 10) by (eapply Rle_trans; [apply (eta_small (-10)); lia|]; cbn; lra).
  rewrite E4 in Ee. apply Rabs_le_inv in E5. rewrite Uv in Ee.
  assert (E7 : Rabs (B2R (d_to_map o res c) - (a + er / r)) <= / 8) by lra. apply Rabs_le_inv in E7. unfold a in *.
  rewrite (to_u32_cast _ Fe). apply cast_u32_some; [lra|]. split; [lra|lia].
Qed.

(** ** C85 *)
(** The point lies within 1/16000000 of the distance from zero of the cell's centre
    (and is never NaN or infinite). *)
Theorem C85_close : forall g x y, fits g -> float_sized g -> cell_at g x y ->
  let p := f_cell2point g x y in let r := B2R (dg_res g) in
  is_finite (fst p) = true /\ is_finite (snd p) = true /\
  Rabs (B2R (fst p) - (B2R (dg_ox g) + r * (IZR x + / 2))) <= (Rabs (B2R (dg_ox g)) + r * (IZR x + 1)) / 16000000 /\
  Rabs (B2R (snd p) - (B2R (dg_oy g) + r * (IZR y + / 2))) <= (Rabs (B2R (dg_oy g)) + r * (IZR y + 1)) / 16000000.
Proof.
  intros g x y [Hw Hh Hr Fx Fy [Nx Ny]] Hs [Cx Cy] p r. unfold p, f_cell2point. cbn [fst snd].
  destruct (centre32 _ _ x Fx Hr Hs Nx ltac:(lia)) as (A1 & _ & A2 & A3). destruct (centre32 _ _ y Fy Hr Hs Ny ltac:(lia)) as (B1 & _ & B2 & B3).
  rewrite A2 in A3. rewrite B2 in B3. fold r in A3, B3. rewrite (Rplus_comm (r * _)) in A3. rewrite (Rplus_comm (r * _)) in B3. auto.
Qed.

(** On a map within four million cells of zero the point is converted back to the cell,
    and lies inside it. *)
Theorem C85_roundtrip : forall g x y, fits g -> float_sized g -> near_zero g -> cell_at g x y ->
  d_point2cell g (widen (f_cell2point g x y)) = Some (x, y, true) /\
  let p := f_cell2point g x y in let r := B2R (dg_res g) in
  B2R (dg_ox g) + r * IZR x < B2R (fst p) < B2R (dg_ox g) + r * (IZR x + 1) /\
  B2R (dg_oy g) + r * IZR y < B2R (snd p) < B2R (dg_oy g) + r * (IZR y + 1).
Proof.
  intros g x y Hf Hs [Zx Zy] Hc. pose proof Hf as [Hw Hh Hr Fx Fy [Nx Ny]]. pose proof Hc as [Cx Cy]. pose proof (res_pos _ Hr) as P.
  destruct (centre32 _ _ x Fx Hr Hs Nx ltac:(lia)) as (A1 & A0 & A2 & A3). destruct (centre32 _ _ y Fy Hr Hs Ny ltac:(lia)) as (B1 & B0 & B2 & B3).
  set (r := B2R (dg_res g)) in *.
  assert (X : r * (IZR x + 1) <= r * IZR (dg_w g)) by (apply Rmult_le_compat_l; [lra|]; rewrite <- plus_IZR; apply IZR_le; lia).
  assert (Y : r * (IZR y + 1) <= r * IZR (dg_h g)) by (apply Rmult_le_compat_l; [lra|]; rewrite <- plus_IZR; apply IZR_le; lia).
  assert (A4 : (Rabs (B2R (dg_ox g)) + r * (IZR x + 1)) / 16000000 <= r * / 4) by lra.
  assert (B4 : (Rabs (B2R (dg_oy g)) + r * (IZR y + 1)) / 16000000 <= r * / 4) by lra.
  split.
  - unfold d_point2cell, widen, f_cell2point. cbn [fst snd].
    rewrite (roundtrip_near (dg_ox g) (dg_res g) x _ Fx A0 Hr ltac:(lia)) by (fold r; lra).
    rewrite (roundtrip_near (dg_oy g) (dg_res g) y _ Fy B0 Hr ltac:(lia)) by (fold r; lra). cbn [obind]. do 2 f_equal. apply (inMap_u32 g x y Hf); [lia|lia|exact Hc].
  - unfold f_cell2point. cbn [fst snd]. rewrite <- A2, <- B2. apply Rabs_le_inv in A3. apply Rabs_le_inv in B3.
    replace (r * (IZR x + 1)) with (r * (IZR x + / 2) + r / 2) by field. replace (r * (IZR y + 1)) with (r * (IZR y + / 2) + r / 2) by field.
    replace (r * IZR x) with (r * (IZR x + / 2) - r / 2) by field. replace (r * IZR y) with (r * (IZR y + / 2) - r / 2) by field.
    split; split; lra.
Qed.

(** Farther away it need not: with an origin in UTM coordinates (a northing of 5376000 m)
    and cells of 5 cm, the point of a cell lies in another one, although the double of the
    other overload does not. *)
Definition utm : dgeo := DGeo 1000 1000 (ddiv (d_of_Z 1) (d_of_Z 20)) (d_of_Z 500000) (d_of_Z 5376000).
Lemma utm_num : B2R (dg_res utm) = IZR 7205759403792794 * bpow radix2 (-57) /\ B2R (dg_ox utm) = 500000 /\ B2R (dg_oy utm) = 5376000.
Proof. repeat split; vm_compute; lra. Qed.
Lemma utm_fits : fits utm /\ float_sized utm.
Proof.
  destruct utm_num as (Er & Ex & Ey).
  assert (B : / 100 <= B2R (dg_res utm) <= / 10). { rewrite Er. cbn. lra. }
  assert (S1 : forall k, (k <= -10)%Z -> bpow radix2 k <= / 100). { intros k Hk. apply Rle_trans with (bpow radix2 (-10)); [apply bpow_le; exact Hk|cbn; lra]. }
  assert (S2 : forall k, (0 <= k)%Z -> / 10 <= bpow radix2 k). { intros k Hk. apply Rle_trans with (bpow radix2 0); [cbn; lra|apply bpow_le; exact Hk]. }
  split.
  - split; try (cbn; lia); try reflexivity.
    + split; [reflexivity|]. split; [apply Rle_trans with (/ 100); [apply S1; lia|apply B]|apply Rle_trans with (/ 10); [apply B|apply S2; lia]].
    + rewrite Ex, Ey. split; apply Rabs_le; lra.
  - split; [apply Rle_trans with (/ 100); [apply S1; lia|apply B]|apply Rle_trans with (/ 10); [apply B|apply S2; lia]].
Qed.
Theorem C85_far_refuted : exists g x y x' y', fits g /\ float_sized g /\ cell_at g x y /\
  d_point2cell g (d_cell2point g x y) = Some (x, y, true) /\
  d_point2cell g (widen (f_cell2point g x y)) = Some (x', y', true) /\ (x', y') <> (x, y).
Proof.
  exists utm, 10%Z, 13%Z, 10%Z, 10%Z. destruct utm_fits as [F1 F2]. split; [exact F1|]. split; [exact F2|].
  split; [split; cbn; lia|]. split; [vm_compute; reflexivity|]. split; [vm_compute; reflexivity|]. discriminate.
Qed.

(** The hypotheses of the positive theorems are met. *)
Example C85_example : fits g_ex /\ float_sized g_ex /\ near_zero g_ex /\ cell_at g_ex 1 2 /\
  d_point2cell g_ex (widen (f_cell2point g_ex 1 2)) = Some (1, 2, true)%Z /\
  B2R (fst (f_cell2point g_ex 1 2)) <> B2R (fst (d_cell2point g_ex 1 2)).
Proof.
  destruct C03_ieee_example as (F & _). destruct ex_num as (Er & Ex & Ey & _).
  assert (B : / 100 <= B2R (dg_res g_ex) <= / 10). { rewrite Er. cbn. lra. }
  split; [exact F|]. split; [|split; [|split; [split; cbn; lia|split; [vm_compute; reflexivity|]]]].
  - split; [apply Rle_trans with (bpow radix2 (-10)); [apply bpow_le; lia|apply Rle_trans with (/ 100); [cbn; lra|apply B]]|].
    apply Rle_trans with (bpow radix2 0); [apply Rle_trans with (/ 10); [apply B|cbn; lra]|apply bpow_le; lia].
  - unfold near_zero. rewrite Ex, Ey. cbn [dg_w dg_h g_ex]. rewrite Rabs_left, Rabs_pos_eq by lra. split; lra.
  - vm_compute. lra.
Qed.

