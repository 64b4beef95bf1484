(** C55: the spacing of the way-points of a curve. *)
From Coq Require Import Reals Lra.
From Flocq Require Import Core.Raux.
From Verif Require Import Base GeomR PropGeom RSParse RSModel PropLine PropRSArc.
Local Open Scope R_scope.

(** The points of a line of length [d]: n = floor (d / maxd) of them, the k-th after the
    k-th n-th of the way, with the heading along the line (against it, backwards);
    neighbours are d / n apart, and so is the last point and the end of the line. *)
Theorem C55_line : forall maxd l ps, 0 < maxd -> line_points maxd l = Some ps ->
  let d := dist (ls_a l) (ls_b l) in let n := length ps in
  INR n * maxd <= d < (INR n + 1) * maxd /\
  (forall k q, nth_error ps k = Some q ->
     pt_of_pose q = Pt (px (ls_a l) + INR k / INR n * (px (ls_b l) - px (ls_a l))) (py (ls_a l) + INR k / INR n * (py (ls_b l) - py (ls_a l))) /\
     dist (ls_a l) (pt_of_pose q) = INR k / INR n * d /\
     let s := match ls_dir l with Forward => d | Backward => - d end in
     px (ls_b l) - px (ls_a l) = s * cos (po_th q) /\ py (ls_b l) - py (ls_a l) = s * sin (po_th q)) /\
  (forall k q q', nth_error ps k = Some q -> nth_error ps (S k) = Some q' -> dist (pt_of_pose q) (pt_of_pose q') = d / INR n) /\
  (forall q, nth_error ps (n - 1) = Some q -> dist (pt_of_pose q) (ls_b l) = d / INR n).
Proof.
  intros maxd l ps Hm H d n. unfold line_points, line_count in H. destruct (Req_EM_T maxd 0); [lra|].
  assert (LD : ls_length l = d) by (unfold ls_length, d; rewrite len_hyp, dist_hyp; reflexivity). rewrite LD in H.
  destruct (cast_i32 (d / maxd)) as [z|] eqn:C; [|discriminate]. cbn [obind] in H. match type of H with Some ?x = Some _ => assert (E : ps = x) by congruence end. clear H.
  assert (D0 : 0 <= d) by (unfold d; rewrite dist_hyp; apply hyp_nonneg).
  assert (Q0 : 0 <= d / maxd) by (apply Rle_mult_inv_pos; lra).
  apply cast_i32_trunc in C. destruct C as [C _]. symmetry in C. apply trunc_floor in C; [|exact Q0].
  assert (Z0 : (0 <= z)%Z) by (apply Z.lt_succ_r, lt_IZR; rewrite succ_IZR; lra).
  assert (N : n = Z.to_nat z) by (unfold n; rewrite E, map_length, seq_length; reflexivity). assert (NZ : INR n = IZR z) by (rewrite N, INR_IZR_INZ, Z2Nat.id by exact Z0; reflexivity).
  assert (ED : d = d / maxd * maxd) by (field; lra).
  split; [rewrite NZ, ED; split; [apply Rmult_le_compat_r; lra|apply Rmult_lt_compat_r; lra]|].
  assert (NTH : forall k q, nth_error ps k = Some q -> q = line_pose l z (Z.of_nat k) /\ (k < n)%nat).
  { intros k q Hk. assert (KN : (k < n)%nat) by (apply nth_error_Some; congruence). split; [|exact KN]. rewrite E, nth_error_map in Hk.
    rewrite (nth_error_nth' _ 0%nat) in Hk by (rewrite seq_length; lia). rewrite seq_nth in Hk by lia. cbn in Hk. congruence. }
  assert (POS : forall k, pt_of_pose (line_pose l z (Z.of_nat k)) = Pt (px (ls_a l) + INR k / INR n * (px (ls_b l) - px (ls_a l))) (py (ls_a l) + INR k / INR n * (py (ls_b l) - py (ls_a l)))).
  { intros k. unfold line_pose, pt_of_pose, padd, pmul, psub. cbn [po_x po_y px py]. rewrite NZ, <- INR_IZR_INZ. f_equal; ring. }
  assert (DP : forall s t : R, s <= t -> dist (Pt (px (ls_a l) + s * (px (ls_b l) - px (ls_a l))) (py (ls_a l) + s * (py (ls_b l) - py (ls_a l)))) (Pt (px (ls_a l) + t * (px (ls_b l) - px (ls_a l))) (py (ls_a l) + t * (py (ls_b l) - py (ls_a l)))) = (t - s) * d).
  { intros s t Hst. rewrite dist_hyp. cbn [px py]. apply hyp_unique; [apply Rmult_le_pos; lra|]. assert (DD := hyp_sq (px (ls_a l) - px (ls_b l)) (py (ls_a l) - py (ls_b l))). rewrite <- dist_hyp in DD. fold d in DD.
    replace ((t - s) * d * ((t - s) * d)) with ((t - s) * (t - s) * (d * d)) by ring. rewrite DD. ring. }
  assert (A0 : Pt (px (ls_a l) + 0 * (px (ls_b l) - px (ls_a l))) (py (ls_a l) + 0 * (py (ls_b l) - py (ls_a l))) = ls_a l) by (destruct (ls_a l) as [u v]; cbn [px py]; f_equal; ring).
  assert (B1 : Pt (px (ls_a l) + 1 * (px (ls_b l) - px (ls_a l))) (py (ls_a l) + 1 * (py (ls_b l) - py (ls_a l))) = ls_b l) by (destruct (ls_b l) as [u v]; cbn [px py]; f_equal; ring).
  assert (FR : forall k, (k < n)%nat -> 0 <= INR k / INR n <= 1).
  { intros k Hk. assert (0 < INR n) by (apply lt_0_INR; lia). pose proof (pos_INR k). assert (INR k <= INR n) by (apply le_INR; lia).
    split; [apply Rle_mult_inv_pos; lra|]. apply (Rmult_le_reg_r (INR n)); [lra|]. unfold Rdiv. rewrite Rmult_assoc, Rinv_l by lra. lra. }
  split; [|split].
  - intros k q Hq. apply NTH in Hq. destruct Hq as [-> Hk]. rewrite POS. split; [reflexivity|]. split.
    + rewrite <- A0 at 1. rewrite DP by (apply FR; exact Hk). ring.
    + unfold line_pose. cbn [po_th]. unfold ls_theta, angle. destruct (atan2_polar (py (psub (ls_b l) (ls_a l))) (px (psub (ls_b l) (ls_a l)))) as [P1 P2].
      assert (HD : hyp (px (psub (ls_b l) (ls_a l))) (py (psub (ls_b l) (ls_a l))) = d) by (unfold d; rewrite dist_hyp; unfold psub; cbn [px py]; unfold hyp; f_equal; ring).
      rewrite HD in P1, P2. set (th := atan2 _ _) in *. unfold psub in P1, P2. cbn [px py] in P1, P2.
      destruct (ls_dir l); cbn [isBwd].
      * rewrite Rplus_0_r. split; symmetry; assumption.
      * rewrite neg_cos, neg_sin. split; lra.
  - intros k q q' Hq Hq'. apply NTH in Hq. apply NTH in Hq'. destruct Hq as [-> Hk]. destruct Hq' as [-> Hk']. rewrite !POS.
    assert (0 < INR n) by (apply lt_0_INR; lia). rewrite DP; [rewrite S_INR; field; lra|]. rewrite S_INR. apply Rmult_le_compat_r; [left; apply Rinv_0_lt_compat; assumption|lra].
  - intros q Hq. apply NTH in Hq. destruct Hq as [-> Hk]. rewrite POS. rewrite <- B1 at 3. assert (0 < INR n) by (apply lt_0_INR; lia). rewrite DP by (apply FR; exact Hk).
    rewrite minus_INR by lia. cbn [INR]. field. lra.
Qed.

(** Refuted: except for multiples of the way-point distance, the points of a line are
    further apart than it - up to twice as far. *)
Theorem C55_line_refuted : forall maxd l ps k q q', 0 < maxd -> line_points maxd l = Some ps ->
  nth_error ps k = Some q -> nth_error ps (S k) = Some q' ->
  dist (ls_a l) (ls_b l) <> INR (length ps) * maxd -> maxd < dist (pt_of_pose q) (pt_of_pose q').
Proof.
  intros maxd l ps k q q' Hm H Hq Hq' Hne. destruct (C55_line maxd l ps Hm H) as (B & _ & SP & _). cbv zeta in *. rewrite (SP k q q' Hq Hq').
  assert (KN : (S k < length ps)%nat) by (apply nth_error_Some; congruence).
  assert (N0 : 0 < INR (length ps)) by (apply lt_0_INR; lia). apply (Rmult_lt_reg_r (INR (length ps))); [exact N0|]. unfold Rdiv. rewrite Rmult_assoc, Rinv_l by lra. lra.
Qed.
(** A line of length 5 with way-point distance 2: two points, 2.5 apart. *)
Example C55_example : exists p q, line_points 2 (LS Forward (Pt 0 0) (Pt 5 0)) = Some [p; q] /\ dist (pt_of_pose p) (pt_of_pose q) = 25 / 10.
Proof.
  assert (L : ls_length (LS Forward (Pt 0 0) (Pt 5 0)) = 5) by (unfold ls_length; cbn [ls_a ls_b]; rewrite len_hyp; unfold psub; cbn [px py]; apply hyp_unique; lra).
  assert (E : line_points 2 (LS Forward (Pt 0 0) (Pt 5 0)) = Some (map (fun k => line_pose (LS Forward (Pt 0 0) (Pt 5 0)) 2 (Z.of_nat k)) (seq 0 2))).
  { unfold line_points, line_count. destruct (Req_EM_T 2 0); [lra|]. rewrite L. unfold cast_i32. assert (Ztrunc (5 / 2) = 2%Z) as -> by (apply trunc_floor; cbn; lra). reflexivity. }
  eexists _, _. split; [exact E|]. destruct (C55_line 2 _ _ ltac:(lra) E) as (_ & _ & S & _). cbv zeta in S. rewrite (S 0%nat _ _ eq_refl eq_refl).
  unfold ls_length in L. rewrite len_hyp in L. rewrite dist_hyp. unfold psub in L. cbn [ls_a ls_b px py] in L |- *. rewrite L. cbn [seq map length INR]. lra.
Qed.
