(** C05 for the arithmetic of the code, IEEE binary64. *)
From Coq Require Import Reals Lra.
From Flocq Require Import Core BinarySingleNaN.
From Verif Require Import Base GeomR GridGeom PropGeom AStarFloat AStarIeee GenericIeee GridGeomIeee PropGeomIeee RotGeomIeee.
Local Open Scope R_scope.

(** std::cos and std::sin are accurate to 2^-52 (the GNU C library: one unit in the last place). *)
Definition trig_accurate (dcos dsin : b64 -> b64) : Prop := forall a, is_finite a = true ->
  (is_finite (dcos a) = true /\ Rabs (B2R (dcos a) - cos (B2R a)) <= / 4503599627370496) /\
  (is_finite (dsin a) = true /\ Rabs (B2R (dsin a) - sin (B2R a)) <= / 4503599627370496).

(** ** A sum of two products *)
Lemma prod_err (c x : b64) (C X M d : R) : fin c -> fin x -> Rabs (B2R c - C) <= 2 * u -> Rabs C <= 1 ->
  Rabs (B2R x - X) <= d -> Rabs X <= M -> 0 <= d <= M -> eta <= u * M -> M <= bpow radix2 990 ->
  fin (dmul c x) /\ Rabs (B2R (dmul c x) - C * X) <= d + 8 * u * M /\ Rabs (B2R (dmul c x)) <= 3 * M.
Proof.
  intros Fc Fx Ec HC Ex HX Hd He HM. pose proof u_val as Uv. pose proof eta_pos as Hp.
  assert (M0 : 0 <= M) by lra.
  assert (Bx : Rabs (B2R x) <= 2 * M).
  { replace (B2R x) with (X + (B2R x - X)) by ring. eapply Rle_trans; [apply Rabs_triang|]. lra. }
  assert (Bc : Rabs (B2R c) <= 1 + 2 * u).
  { replace (B2R c) with (C + (B2R c - C)) by ring. eapply Rle_trans; [apply Rabs_triang|]. lra. }
  pose proof (Rabs_pos (B2R x)) as Px. pose proof (Rabs_pos (B2R c)) as Pc.
  assert (Bp : Rabs (B2R c * B2R x) <= (1 + 2 * u) * (2 * M)) by (rewrite Rabs_mult; apply Rmult_le_compat; assumption).
  destruct (bmul_spec c x Fc Fx) as [Fm Em].
  { eapply Rle_trans; [exact Bp|]. apply Rle_trans with (4 * bpow radix2 990); [rewrite Uv; lra|].
    change 4 with (bpow radix2 2). rewrite <- bpow_plus. apply bpow_le. lia. }
  split; [exact Fm|]. pose proof (err_any (B2R c * B2R x)) as X1. rewrite <- Em in X1. set (m := B2R (dmul c x)) in *.
  assert (X2 : Rabs (B2R c * B2R x - C * X) <= 2 * u * (2 * M) + d).
  { replace (B2R c * B2R x - C * X) with ((B2R c - C) * B2R x + C * (B2R x - X)) by ring.
    eapply Rle_trans; [apply Rabs_triang|]. rewrite !Rabs_mult. pose proof (Rabs_pos (B2R c - C)). pose proof (Rabs_pos (B2R x - X)). pose proof (Rabs_pos C).
    apply Rplus_le_compat; [apply Rmult_le_compat; assumption|]. replace d with (1 * d) by ring. apply Rmult_le_compat; assumption. }
  assert (X3 : Rabs (m - C * X) <= d + 8 * u * M).
  { replace (m - C * X) with ((m - B2R c * B2R x) + (B2R c * B2R x - C * X)) by ring. eapply Rle_trans; [apply Rabs_triang|].
    rewrite Uv in *. lra. }
  split; [exact X3|]. replace m with ((m - B2R c * B2R x) + B2R c * B2R x) by ring. eapply Rle_trans; [apply Rabs_triang|]. rewrite Uv in *. lra.
Qed.
Lemma mix_sub c s x y C S X Y M d : fin c -> fin s -> fin x -> fin y ->
  Rabs (B2R c - C) <= 2 * u -> Rabs (B2R s - S) <= 2 * u -> Rabs C <= 1 -> Rabs S <= 1 ->
  Rabs (B2R x - X) <= d -> Rabs (B2R y - Y) <= d -> Rabs X <= M -> Rabs Y <= M -> 0 <= d <= M -> eta <= u * M -> M <= bpow radix2 990 ->
  fin (dsub (dmul c x) (dmul s y)) /\ Rabs (B2R (dsub (dmul c x) (dmul s y)) - (C * X - S * Y)) <= 2 * d + 22 * u * M.
Proof.
  intros Fc Fs Fx Fy Ec Es HC HS Ex Ey HX HY Hd He HM. pose proof u_val as Uv.
  destruct (prod_err c x C X M d) as (F1 & E1 & B1); try assumption. destruct (prod_err s y S Y M d) as (F2 & E2 & B2); try assumption.
  assert (B : Rabs (B2R (dmul c x) - B2R (dmul s y)) <= 6 * M).
  { unfold Rminus. eapply Rle_trans; [apply Rabs_triang|]. rewrite Rabs_Ropp. lra. }
  destruct (bsub_spec (dmul c x) (dmul s y) F1 F2) as [F E].
  { eapply Rle_trans; [exact B|]. apply Rle_trans with (8 * bpow radix2 990); [pose proof (bpow_gt_0 radix2 990); lra|].
    change 8 with (bpow radix2 3). rewrite <- bpow_plus. apply bpow_le. lia. }
  split; [exact F|].
  pose proof (err_add (B2R (dmul c x)) (- B2R (dmul s y)) (F64_B2R _) (generic_format_opp _ _ _ (F64_B2R _))) as X1.
  fold (B2R (dmul c x) - B2R (dmul s y)) in X1. rewrite <- E in X1.
  set (p := B2R (dmul c x)) in *. set (q := B2R (dmul s y)) in *. set (r := B2R (dsub (dmul c x) (dmul s y))) in *.
  replace (r - (C * X - S * Y)) with ((r - (p - q)) + ((p - C * X) + - (q - S * Y))) by ring.
  eapply Rle_trans; [apply Rabs_triang|]. pose proof (Rabs_triang (p - C * X) (- (q - S * Y))) as T. rewrite Rabs_Ropp in T.
  rewrite Uv in *. lra.
Qed.
Lemma mix_add c s x y C S X Y M d : fin c -> fin s -> fin x -> fin y ->
  Rabs (B2R c - C) <= 2 * u -> Rabs (B2R s - S) <= 2 * u -> Rabs C <= 1 -> Rabs S <= 1 ->
  Rabs (B2R x - X) <= d -> Rabs (B2R y - Y) <= d -> Rabs X <= M -> Rabs Y <= M -> 0 <= d <= M -> eta <= u * M -> M <= bpow radix2 990 ->
  fin (dadd (dmul s x) (dmul c y)) /\ Rabs (B2R (dadd (dmul s x) (dmul c y)) - (S * X + C * Y)) <= 2 * d + 22 * u * M.
Proof.
  intros Fc Fs Fx Fy Ec Es HC HS Ex Ey HX HY Hd He HM. pose proof u_val as Uv.
  destruct (prod_err s x S X M d) as (F1 & E1 & B1); try assumption. destruct (prod_err c y C Y M d) as (F2 & E2 & B2); try assumption.
  assert (B : Rabs (B2R (dmul s x) + B2R (dmul c y)) <= 6 * M) by (eapply Rle_trans; [apply Rabs_triang|]; lra).
  destruct (badd_spec (dmul s x) (dmul c y) F1 F2) as [F E].
  { eapply Rle_trans; [exact B|]. apply Rle_trans with (8 * bpow radix2 990); [pose proof (bpow_gt_0 radix2 990); lra|].
    change 8 with (bpow radix2 3). rewrite <- bpow_plus. apply bpow_le. lia. }
  split; [exact F|].
  pose proof (err_add (B2R (dmul s x)) (B2R (dmul c y)) (F64_B2R _) (F64_B2R _)) as X1. rewrite <- E in X1.
  set (p := B2R (dmul s x)) in *. set (q := B2R (dmul c y)) in *. set (r := B2R (dadd (dmul s x) (dmul c y))) in *.
  replace (r - (S * X + C * Y)) with ((r - (p + q)) + ((p - S * X) + (q - C * Y))) by ring.
  eapply Rle_trans; [apply Rabs_triang|]. pose proof (Rabs_triang (p - S * X) (q - C * Y)) as T.
  rewrite Uv in *. lra.
Qed.

Definition exact (p : b64 * b64) : pt := Pt (B2R (fst p)) (B2R (snd p)).
Definition finite2 (p : b64 * b64) : Prop := is_finite (fst p) = true /\ is_finite (snd p) = true.
(** [p] and [q] differ by at most [d] in each coordinate. *)
Definition within (d : R) (p q : pt) : Prop := Rabs (px p - px q) <= d /\ Rabs (py p - py q) <= d.
(** [p] is at most [d] away from zero in each coordinate. *)
Definition bounded (d : R) (p : pt) : Prop := Rabs (px p) <= d /\ Rabs (py p) <= d.

Lemma COS1 a : Rabs (cos a) <= 1. Proof. apply Rabs_le. pose proof (COS_bound a). lra. Qed.
Lemma SIN1 a : Rabs (sin a) <= 1. Proof. apply Rabs_le. pose proof (SIN_bound a). lra. Qed.
Lemma rotate_bounded M p a : bounded M p -> bounded (2 * M) (rotate p a).
Proof.
  intros [A B]. pose proof (COS1 a). pose proof (SIN1 a). pose proof (Rabs_pos (px p)). pose proof (Rabs_pos (py p)). pose proof (Rabs_pos (cos a)). pose proof (Rabs_pos (sin a)).
  unfold rotate, bounded. cbn [px py]. split.
  - unfold Rminus. eapply Rle_trans; [apply Rabs_triang|]. rewrite Rabs_Ropp, !Rabs_mult. nra.
  - eapply Rle_trans; [apply Rabs_triang|]. rewrite !Rabs_mult. nra.
Qed.

Section Rot.
  Variables dcos dsin : b64 -> b64.
  Hypothesis Htrig : trig_accurate dcos dsin.

  Lemma rot_err p a P A M d : finite2 p -> is_finite a = true -> B2R a = A -> within d (exact p) P -> bounded M P -> 0 <= d <= M -> eta <= u * M -> M <= bpow radix2 990 ->
    finite2 (d_rotate dcos dsin p a) /\ within (2 * d + 22 * u * M) (exact (d_rotate dcos dsin p a)) (rotate P A).
  Proof using Htrig.
    intros [Fx Fy] Fa <- [Ex Ey] [Bx By] Hd He HM. destruct (Htrig a Fa) as [[Fc Ec] [Fs Es]].
    assert (Hu : / 4503599627370496 = 2 * u) by (rewrite u_val; lra). rewrite Hu in Ec, Es. cbn [exact px py fst snd] in Ex, Ey.
    destruct (mix_sub (dcos a) (dsin a) (fst p) (snd p) _ _ (px P) (py P) M d Fc Fs Fx Fy Ec Es (COS1 _) (SIN1 _)) as [F1 E1]; try assumption.
    destruct (mix_add (dcos a) (dsin a) (fst p) (snd p) _ _ (px P) (py P) M d Fc Fs Fx Fy Ec Es (COS1 _) (SIN1 _)) as [F2 E2]; try assumption.
    split; split; assumption.
  Qed.

  Variable g : drgeo.
  Variable P : b64 * b64.
  Notation res := (dg_res (dr_map g)).
  Notation yaw := (B2R (dr_yaw g)).
  Notation g' := (dr_setOrigin dcos dsin g P).
  Hypothesis Hres : ordinary res.
  Hypothesis Hyaw : is_finite (dr_yaw g) = true.
  Hypothesis HP : finite2 P.
  Hypothesis BP : bounded (B2R res * 4294967296) (exact P).
  Notation o := (d_rotate dcos dsin P (Bopp (dr_yaw g))).
  Notation oE := (rotate (exact P) (- yaw)).

  Lemma size k : 1 <= k <= 1099511627776 -> eta <= u * (B2R res * k) /\ B2R res * k <= bpow radix2 990 /\ 0 <= B2R res * k.
  Proof using Hres.
    intros Hk. pose proof (res_pos _ Hres) as Pr. pose proof (eta_res _ Hres) as He. pose proof u_val as Uv. split; [|split].
    - eapply Rle_trans; [exact He|]. rewrite Uv. apply Rle_trans with (/ 9007199254740992 * (B2R res * 1)); [lra|].
      apply Rmult_le_compat_l; [lra|]. apply Rmult_le_compat_l; lra.
    - destruct Hres as [_ [_ Hr]]. apply Rle_trans with (bpow radix2 900 * bpow radix2 40).
      + apply Rmult_le_compat; [lra|lra|exact Hr|]. change (bpow radix2 40) with 1099511627776. lra.
      + rewrite <- bpow_plus. apply bpow_le. lia.
    - apply Rmult_le_pos; lra.
  Qed.
  Lemma neg_yaw : is_finite (Bopp (dr_yaw g)) = true /\ B2R (Bopp (dr_yaw g)) = - yaw.
  Proof using Hyaw. rewrite is_finite_Bopp, B2R_Bopp. split; [exact Hyaw|reflexivity]. Qed.

  Lemma origin_err : finite2 o /\ within (22 * u * (B2R res * 4294967296)) (exact o) oE.
  Proof using Htrig Hres Hyaw HP BP.
    destruct (size 4294967296 ltac:(lra)) as (S1 & S2 & S3). destruct neg_yaw as [Fn En].
    destruct (rot_err P (Bopp (dr_yaw g)) (exact P) (- yaw) (B2R res * 4294967296) 0) as [F W]; try assumption; try lra.
    - split; rewrite Rminus_diag_eq, Rabs_R0 by reflexivity; lra.
    - split; [exact F|]. rewrite Rmult_0_r, Rplus_0_l in W. exact W.
  Qed.

  (** One coordinate of the inner frame. *)
  Lemma inner1 (m oo : b64) (O : R) : fin m -> fin oo -> Rabs (B2R m) <= 4294967296 -> Rabs (B2R oo - O) <= 22 * u * (B2R res * 4294967296) ->
    Rabs O <= 2 * (B2R res * 4294967296) ->
    fin (d_to_pos oo res m) /\ Rabs (B2R (d_to_pos oo res m) - (B2R res * B2R m + O)) <= 32 * u * (B2R res * 4294967296) /\
    Rabs (B2R res * B2R m + O) <= 3 * (B2R res * 4294967296).
  Proof using Hres.
    intros Fm Fo Bm Eo BO. pose proof (res_pos _ Hres) as Pr. pose proof (eta_res _ Hres) as He. pose proof eta_pos as Hp. pose proof u_val as Uv.
    set (r := B2R res) in *. set (N := r * 4294967296) in *. assert (N1 : r <= N) by (unfold N; lra).
    assert (Bo : Rabs (B2R oo) <= 3 * N).
    { replace (B2R oo) with (O + (B2R oo - O)) by ring. eapply Rle_trans; [apply Rabs_triang|]. rewrite Uv in *. lra. }
    assert (Bp : r * Rabs (B2R m) <= N) by (unfold N; apply Rmult_le_compat_l; lra).
    destruct (to_pos_err oo res m Fo Fm Hres) as [F E].
    - rewrite <- b80. lra.
    - fold r. rewrite <- b80. eapply Rle_trans; [exact Bo|]. unfold N. lra.
    - fold r in E. split; [exact F|]. split.
      + set (v := B2R (d_to_pos oo res m)) in *. replace (v - (r * B2R m + O)) with ((v - (r * B2R m + B2R oo)) + (B2R oo - O)) by ring.
        eapply Rle_trans; [apply Rabs_triang|]. rewrite Uv in *. lra.
      + eapply Rle_trans; [apply Rabs_triang|]. rewrite Rabs_mult, (Rabs_pos_eq r) by lra. lra.
  Qed.

  Lemma frame_err (c : b64 * b64) : finite2 c -> bounded 4294967296 (exact c) ->
    finite2 (dr_cell2pointSubPixel dcos dsin g' c) /\
    within (B2R res / 1024) (exact (dr_cell2pointSubPixel dcos dsin g' c))
      (rotate (Pt (B2R res * B2R (fst c) + px oE) (B2R res * B2R (snd c) + py oE)) yaw).
  Proof using Htrig Hres Hyaw HP BP.
    intros [Fx Fy] [Bx By]. destruct origin_err as [[Fo1 Fo2] [Eo1 Eo2]]. cbn [exact px py] in Bx, By, Eo1, Eo2.
    pose proof (rotate_bounded _ _ (- yaw) BP) as [BO1 BO2]. pose proof (res_pos _ Hres) as Pr. pose proof u_val as Uv.
    destruct (inner1 (fst c) (fst o) (px oE) Fx Fo1 Bx Eo1 BO1) as (A1 & A2 & A3).
    destruct (inner1 (snd c) (snd o) (py oE) Fy Fo2 By Eo2 BO2) as (B1 & B2 & B3).
    destruct (size 12884901888 ltac:(lra)) as (S1 & S2 & S3).
    replace (3 * (B2R res * 4294967296)) with (B2R res * 12884901888) in A3, B3 by ring.
    destruct (rot_err (d_to_pos (fst o) res (fst c), d_to_pos (snd o) res (snd c)) (dr_yaw g)
      (Pt (B2R res * B2R (fst c) + px oE) (B2R res * B2R (snd c) + py oE)) yaw (B2R res * 12884901888) (32 * u * (B2R res * 4294967296))) as [F [W1 W2]];
      try assumption; try reflexivity.
    - split; assumption.
    - split; assumption.
    - split; assumption.
    - rewrite Uv. split; lra.
    - split; [exact F|]. split; (eapply Rle_trans; [eassumption|]; rewrite Uv; lra).
  Qed.

  (** *** What the user sees *)
  (** The point at [a] cells along the first and [b] along the second axis of the map from its corner. *)
  Definition at_cells (a b : R) : pt :=
    padd (exact P) (padd (pmul (axis_u yaw) (B2R res * a)) (pmul (axis_v yaw) (B2R res * b))).
  Lemma at_cells_eq a b : at_cells a b = rotate (Pt (B2R res * a + px oE) (B2R res * b + py oE)) yaw.
  Proof using Type.
    unfold at_cells. pose proof (C05_frame (Geo 0 0 (B2R res) (Pt 0 0) yaw) (exact P) (Pt a b)) as H. cbn [g_yaw g_res px py] in H. rewrite <- H. reflexivity.
  Qed.

  (** Sub-pixel coordinates lead to the right point. *)
  Theorem C05_frame_ieee (c : b64 * b64) : finite2 c -> bounded 4294967296 (exact c) ->
    within (B2R res / 1024) (exact (dr_cell2pointSubPixel dcos dsin g' c)) (at_cells (B2R (fst c)) (B2R (snd c))).
  Proof using Htrig Hres Hyaw HP BP. intros Fc Bc. rewrite at_cells_eq. apply frame_err; assumption. Qed.
  (** getOrigin returns the corner given to setOrigin, turned by minus the yaw: the point
      that, turned by the yaw, is the corner. *)
  Theorem C05_origin_ieee : finite2 (dr_getOrigin g') /\ exists Q, rotate Q yaw = exact P /\ within (B2R res / 1024) (exact (dr_getOrigin g')) Q.
  Proof using Htrig Hres Hyaw HP BP.
    destruct origin_err as [F W]. assert (E : dr_getOrigin g' = o) by (unfold dr_getOrigin, dr_setOrigin; cbn [dr_map dg_ox dg_oy]; symmetry; apply surjective_pairing).
    rewrite E. split; [exact F|]. exists oE. split.
    - rewrite <- (rotate_inv (exact P) (- yaw)) at 2. rewrite Ropp_involutive. reflexivity.
    - pose proof u_val as Uv. pose proof (res_pos _ Hres) as Pr. assert (L : 22 * u * (B2R res * 4294967296) <= B2R res / 1024).
      { rewrite Uv. clear - Pr. lra. }
      destruct W as [W1 W2]. split; eapply Rle_trans; eassumption.
  Qed.
  Lemma cell2point_sub x y : dr_cell2point dcos dsin g' x y = dr_cell2pointSubPixel dcos dsin g' (dadd (d_of_Z x) dhalf, dadd (d_of_Z y) dhalf).
  Proof using Type. reflexivity. Qed.
  Theorem C05_centre_ieee x y : (0 <= x < 2147483648)%Z -> (0 <= y < 2147483648)%Z ->
    finite2 (dr_cell2point dcos dsin g' x y) /\
    within (B2R res / 1024) (exact (dr_cell2point dcos dsin g' x y)) (at_cells (IZR x + / 2) (IZR y + / 2)).
  Proof using Htrig Hres Hyaw HP BP.
    intros Hx Hy. rewrite cell2point_sub, at_cells_eq. destruct (centre_arg x Hx) as [Fx Ex]. destruct (centre_arg y Hy) as [Fy Ey].
    assert (X : 0 <= IZR x <= 2147483648) by (split; apply IZR_le; lia). assert (Y : 0 <= IZR y <= 2147483648) by (split; apply IZR_le; lia).
    rewrite <- Ex, <- Ey. apply (frame_err (dadd (d_of_Z x) dhalf, dadd (d_of_Z y) dhalf)); [split; assumption|].
    split; cbn [exact px py fst snd]; [rewrite Ex|rewrite Ey]; rewrite Rabs_pos_eq; lra.
  Qed.

  (** What point2cell truncates is off by less than a thousandth of a cell. *)
  Lemma scaled1 (v oo : b64) (V O T : R) : fin v -> fin oo -> Rabs (B2R v - V) <= 176 * u * (B2R res * 4294967296) ->
    Rabs (B2R oo - O) <= 22 * u * (B2R res * 4294967296) -> Rabs V <= 16 * (B2R res * 4294967296) -> Rabs O <= 2 * (B2R res * 4294967296) ->
    V - O = B2R res * T -> fin (ddiv (dsub v oo) res) /\ Rabs (B2R (ddiv (dsub v oo) res) - T) <= / 1024.
  Proof using Hres.
    intros Fv Fo Ev Eo BV BO ET. pose proof (res_pos _ Hres) as Pr. pose proof (eta_res _ Hres) as He. pose proof eta_pos as Hp. pose proof u_val as Uv.
    set (r := B2R res) in *. set (N := r * 4294967296) in *.
    assert (BD : Rabs (B2R v - B2R oo) <= 19 * N).
    { replace (B2R v - B2R oo) with ((B2R v - V) + V + (- (B2R oo - O)) + - O) by ring.
      eapply Rle_trans; [apply Rabs_triang|]. eapply Rle_trans; [apply Rplus_le_compat_r, Rabs_triang|].
      eapply Rle_trans; [apply Rplus_le_compat_r, Rplus_le_compat_r, Rabs_triang|]. rewrite !Rabs_Ropp. rewrite Uv in *. unfold N in *. lra. }
    destruct (to_map_err oo res v Fo Fv Hres) as [F E]; [fold r; rewrite <- b80; eapply Rle_trans; [exact BD|]; unfold N; lra|].
    unfold d_to_map in F, E. fold r in E. split; [exact F|].
    assert (E1 : (B2R v - B2R oo) / r - T = ((B2R v - V) - (B2R oo - O)) / r).
    { replace (B2R v - B2R oo) with ((B2R v - V) - (B2R oo - O) + (V - O)) by ring. rewrite ET. field. lra. }
    assert (E2 : Rabs ((B2R v - B2R oo) / r - T) <= 198 * u * 4294967296).
    { rewrite E1. unfold Rdiv. rewrite Rabs_mult, (Rabs_pos_eq (/ r)) by (left; apply Rinv_0_lt_compat; exact Pr).
      apply (Rmult_le_reg_r r); [exact Pr|]. rewrite Rmult_assoc, Rinv_l, Rmult_1_r by lra.
      unfold Rminus. eapply Rle_trans; [apply Rabs_triang|]. rewrite Rabs_Ropp. fold (B2R v - V). fold (B2R oo - O). unfold N in *. lra. }
    assert (E3 : Rabs (B2R v - B2R oo) / r <= 19 * 4294967296).
    { apply (Rmult_le_reg_r r); [exact Pr|]. unfold Rdiv. rewrite Rmult_assoc, Rinv_l, Rmult_1_r by lra. unfold N in BD. lra. }
    assert (E4 : eta <= / 1000000) by (eapply Rle_trans; [apply (eta_small (-30)); lia|]; cbn; lra).
    set (w := B2R (ddiv (dsub v oo) res)) in *. set (z := (B2R v - B2R oo) / r) in *.
    replace (w - T) with ((w - z) + (z - T)) by ring. eapply Rle_trans; [apply Rabs_triang|].
    set (k := Rabs (B2R v - B2R oo) / r) in *. rewrite Uv in *. lra.
  Qed.
  Lemma scaled q a b : finite2 q -> bounded (8 * (B2R res * 4294967296)) (exact q) -> exact q = at_cells a b ->
    let v := d_rotate dcos dsin q (Bopp (dr_yaw g)) in
    (fin (ddiv (dsub (fst v) (fst o)) res) /\ Rabs (B2R (ddiv (dsub (fst v) (fst o)) res) - a) <= / 1024) /\
    (fin (ddiv (dsub (snd v) (snd o)) res) /\ Rabs (B2R (ddiv (dsub (snd v) (snd o)) res) - b) <= / 1024).
  Proof using Htrig Hres Hyaw HP BP.
    intros Fq Bq Eq v. destruct origin_err as [[Fo1 Fo2] [Eo1 Eo2]]. pose proof (rotate_bounded _ _ (- yaw) BP) as [BO1 BO2].
    destruct (size 34359738368 ltac:(lra)) as (S1 & S2 & S3). destruct neg_yaw as [Fn En].
    replace (8 * (B2R res * 4294967296)) with (B2R res * 34359738368) in Bq by ring.
    destruct (rot_err q (Bopp (dr_yaw g)) (exact q) (- yaw) (B2R res * 34359738368) 0) as [[F1 F2] [W1 W2]]; try assumption; try lra.
    { split; rewrite Rminus_diag_eq, Rabs_R0 by reflexivity; lra. }
    fold v in F1, F2, W1, W2. pose proof (rotate_bounded _ _ (- yaw) Bq) as [BV1 BV2].
    assert (Ei : rotate (exact q) (- yaw) = Pt (B2R res * a + px oE) (B2R res * b + py oE)) by (rewrite Eq, at_cells_eq; apply rotate_inv).
    cbn [exact px py] in W1, W2, Eo1, Eo2.
    split.
    - apply (scaled1 (fst v) (fst o) (px (rotate (exact q) (- yaw))) (px oE)); try assumption.
      + eapply Rle_trans; [exact W1|]. lra.
      + lra.
      + rewrite Ei. cbn [px]. ring.
    - apply (scaled1 (snd v) (snd o) (py (rotate (exact q) (- yaw))) (py oE)); try assumption.
      + eapply Rle_trans; [exact W2|]. lra.
      + lra.
      + rewrite Ei. cbn [py]. ring.
  Qed.

  Hypothesis Hw : (0 <= dg_w (dr_map g) < 2147483648)%Z.
  Hypothesis Hh : (0 <= dg_h (dr_map g) < 2147483648)%Z.
  Lemma in_map x y : (0 <= x < 4294967296)%Z -> (0 <= y < 4294967296)%Z ->
    d_inMapI (dr_map g') (Base.i32 x) (Base.i32 y) = true <-> cell_at (dr_map g) x y.
  Proof using Hw Hh.
    intros Hx Hy. unfold d_inMapI, cell_at. cbn [dr_map dr_setOrigin dg_w dg_h]. rewrite !(i32_id (dg_w (dr_map g))), !(i32_id (dg_h (dr_map g))) by lia.
    unfold Base.i32. cbv zeta. rewrite !Z.mod_small by lia.
    destruct (Z.ltb_spec x 2147483648); destruct (Z.ltb_spec y 2147483648); lia.
  Qed.

  (** Every point of the square of an in-map cell, except for a rim of a thousandth
      of a cell, is converted to that cell. *)
  Theorem C05_square_ieee q x y a b : finite2 q -> cell_at (dr_map g) x y -> exact q = at_cells a b ->
    IZR x + / 1024 <= a < IZR x + 1 - / 1024 -> IZR y + / 1024 <= b < IZR y + 1 - / 1024 ->
    dr_point2cell dcos dsin g' q = Some (x, y, true).
  Proof using Htrig Hres Hyaw HP BP Hw Hh.
    intros Fq Hc Eq Ha Hb. pose proof Hc as [Cx Cy]. pose proof (res_pos _ Hres) as Pr.
    assert (X : 0 <= IZR x <= 2147483647) by (split; apply IZR_le; lia). assert (Y : 0 <= IZR y <= 2147483647) by (split; apply IZR_le; lia).
    assert (Bq : bounded (8 * (B2R res * 4294967296)) (exact q)).
    { rewrite Eq. destruct BP as [B1 B2]. unfold at_cells, bounded, padd, pmul, axis_u, axis_v. cbn [px py].
      pose proof (COS1 yaw) as C1. pose proof (SIN1 yaw) as S1. set (r := B2R res) in *. set (N := r * 4294967296) in *.
      assert (A1 : Rabs (r * a) <= N) by (rewrite Rabs_pos_eq by (apply Rmult_le_pos; lra); unfold N; apply Rmult_le_compat_l; lra).
      assert (A2 : Rabs (r * b) <= N) by (rewrite Rabs_pos_eq by (apply Rmult_le_pos; lra); unfold N; apply Rmult_le_compat_l; lra).
      assert (Pm : forall e z, Rabs e <= 1 -> Rabs z <= N -> Rabs (e * z) <= N).
      { intros e z He Hz. rewrite Rabs_mult. pose proof (Rabs_pos e). pose proof (Rabs_pos z). replace N with (1 * N) by ring. apply Rmult_le_compat; assumption. }
      assert (Nn : Rabs (- sin yaw) <= 1) by (rewrite Rabs_Ropp; exact S1).
      assert (N0 : 0 <= N) by (unfold N; lra).
      split; (eapply Rle_trans; [apply Rabs_triang|]; eapply Rle_trans; [apply Rplus_le_compat_l, Rabs_triang|];
        eapply Rle_trans; [apply Rplus_le_compat; [eassumption|apply Rplus_le_compat; apply Pm; eassumption]|lra]). }
    destruct (scaled q a b Fq Bq Eq) as [[F1 E1] [F2 E2]]. unfold dr_point2cell. cbv zeta. cbn [dr_map dr_yaw dr_setOrigin dg_ox dg_oy dg_res].
    apply Rabs_le_inv in E1, E2.
    rewrite (to_u32_cast _ F1), (to_u32_cast _ F2).
    set (s := B2R (ddiv (dsub (fst (d_rotate dcos dsin q (Bopp (dr_yaw g)))) (fst o)) res)) in *.
    set (t := B2R (ddiv (dsub (snd (d_rotate dcos dsin q (Bopp (dr_yaw g)))) (snd o)) res)) in *.
    assert (Es : cast_u32 s = Some x) by (apply cast_u32_some; [lra|split; [lra|lia]]).
    assert (Et : cast_u32 t = Some y) by (apply cast_u32_some; [lra|split; [lra|lia]]). rewrite Es, Et. cbn [obind].
    do 2 f_equal. apply in_map; [lia|lia|exact Hc].
  Qed.

  (** Whatever point2cell answers, the point lies in that square or in its rim; in
      the first row and column also up to one cell in front of it. *)
  Theorem C05_answer_ieee q x y ok a b : finite2 q -> bounded (8 * (B2R res * 4294967296)) (exact q) -> exact q = at_cells a b ->
    dr_point2cell dcos dsin g' q = Some (x, y, ok) ->
    (IZR x - / 1024 <= a \/ (x = 0%Z /\ - 1 - / 1024 < a)) /\ a < IZR x + 1 + / 1024 /\
    (IZR y - / 1024 <= b \/ (y = 0%Z /\ - 1 - / 1024 < b)) /\ b < IZR y + 1 + / 1024 /\
    (ok = true <-> cell_at (dr_map g) x y).
  Proof using Htrig Hres Hyaw HP BP Hw Hh.
    intros Fq Bq Eq E. destruct (scaled q a b Fq Bq Eq) as [[F1 E1] [F2 E2]]. unfold dr_point2cell in E. cbv zeta in E. cbn [dr_map dr_yaw dr_setOrigin dg_ox dg_oy dg_res] in E.
    rewrite (to_u32_cast _ F1), (to_u32_cast _ F2) in E. apply Rabs_le_inv in E1, E2.
    set (s := B2R (ddiv (dsub (fst (d_rotate dcos dsin q (Bopp (dr_yaw g)))) (fst o)) res)) in *.
    set (t := B2R (ddiv (dsub (snd (d_rotate dcos dsin q (Bopp (dr_yaw g)))) (snd o)) res)) in *.
    destruct (cast_u32 s) as [x'|] eqn:Ex; [|discriminate]. cbn [obind] in E. destruct (cast_u32 t) as [y'|] eqn:Ey; [|discriminate]. cbn [obind] in E.
    injection E as <- <- <-.
    assert (T : forall w z, cast_u32 w = Some z -> (IZR z <= w \/ (z = 0%Z /\ -1 < w)) /\ w < IZR z + 1 /\ (0 <= z < 4294967296)%Z).
    { clear. intros w z H. unfold cast_u32 in H. destruct ((0 <=? Ztrunc w)%Z && (Ztrunc w <? 4294967296)%Z) eqn:B; [|discriminate]. injection H as <-.
      apply andb_prop in B as [B1 B2]. apply Z.leb_le in B1. apply Z.ltb_lt in B2. destruct (Rle_or_lt 0 w) as [Hw|Hw].
      - rewrite Ztrunc_floor in * by exact Hw. pose proof (Zfloor_lb w). pose proof (Zfloor_ub w). split; [left; assumption|]. split; [assumption|lia].
      - rewrite Ztrunc_ceil in * by lra. pose proof (Zceil_ub w). assert (Zceil w <= 0)%Z by (apply Zceil_glb; lra).
        assert (Z0 : Zceil w = 0%Z) by lia. rewrite Z0 in *. split; [right; split; [reflexivity|]|split; [lra|lia]].
        assert (H3 := Zceil_lb w). rewrite Z0 in H3. lra. }
    destruct (T s x' Ex) as (X1 & X2 & X3). destruct (T t y' Ey) as (Y1 & Y2 & Y3).
    split; [destruct X1 as [X1|[X0 X1]]; [left; lra|right; split; [exact X0|lra]]|]. split; [lra|].
    split; [destruct Y1 as [Y1|[Y0 Y1]]; [left; lra|right; split; [exact Y0|lra]]|]. split; [lra|]. apply in_map; assumption.
  Qed.

  (** Every point has cell coordinates. *)
  Theorem C05_coordinates p : exists a b, p = at_cells a b.
  Proof using Hres.
    pose proof (res_pos _ Hres) as Pr.
    exists ((px (rotate p (- yaw)) - px oE) / B2R res), ((py (rotate p (- yaw)) - py oE) / B2R res). rewrite at_cells_eq.
    assert (E : forall v w, B2R res * ((v - w) / B2R res) + w = v) by (intros v w; field; lra). rewrite !E.
    destruct (rotate p (- yaw)) as [v w] eqn:R. cbn [px py]. rewrite <- R. rewrite <- (rotate_inv p (- yaw)) at 1. rewrite Ropp_involutive. reflexivity.
  Qed.
  Lemma at_cells_close d a b a0 b0 : within d (at_cells a b) (at_cells a0 b0) -> Rabs (B2R res * (a - a0)) <= 2 * d /\ Rabs (B2R res * (b - b0)) <= 2 * d.
  Proof using Type.
    intros [W1 W2]. unfold at_cells, padd, pmul, axis_u, axis_v in W1, W2. cbn [px py] in W1, W2.
    set (r := B2R res) in *. pose proof (COS1 yaw) as C1. pose proof (SIN1 yaw) as S1. pose proof (cs1 yaw) as H1. set (c := cos yaw) in *. set (s := sin yaw) in *.
    match type of W1 with Rabs ?e <= _ => set (dx := e) in * end. match type of W2 with Rabs ?e <= _ => set (dy := e) in * end.
    assert (Ea : r * (a - a0) = c * dx + s * dy).
    { transitivity ((c * c + s * s) * (r * (a - a0))); [rewrite H1; ring|unfold dx, dy; ring]. }
    assert (Eb : r * (b - b0) = - s * dx + c * dy).
    { transitivity ((c * c + s * s) * (r * (b - b0))); [rewrite H1; ring|unfold dx, dy; ring]. }
    assert (Nn : Rabs (- s) <= 1) by (rewrite Rabs_Ropp; exact S1).
    assert (Pm : forall e z, Rabs e <= 1 -> Rabs z <= d -> Rabs (e * z) <= d).
    { intros e z He Hz. rewrite Rabs_mult. pose proof (Rabs_pos e). pose proof (Rabs_pos z). replace d with (1 * d) by ring. apply Rmult_le_compat; assumption. }
    rewrite Ea, Eb. clearbody dx dy. split; (eapply Rle_trans; [apply Rabs_triang|]).
    - pose proof (Pm c dx C1 W1). pose proof (Pm s dy S1 W2). lra.
    - pose proof (Pm (- s) dx Nn W1). pose proof (Pm c dy C1 W2). lra.
  Qed.

  (** point2cell(cell2point(x, y)) is (x, y). *)
  Theorem C05_roundtrip_ieee x y : cell_at (dr_map g) x y ->
    dr_point2cell dcos dsin g' (dr_cell2point dcos dsin g' x y) = Some (x, y, true).
  Proof using Htrig Hres Hyaw HP BP Hw Hh.
    intros Hc. pose proof Hc as [Cx Cy]. pose proof (res_pos _ Hres) as Pr.
    destruct (C05_centre_ieee x y ltac:(lia) ltac:(lia)) as [F W].
    destruct (C05_coordinates (exact (dr_cell2point dcos dsin g' x y))) as (a & b & Eq). rewrite Eq in W.
    apply at_cells_close in W as [Wa Wb].
    assert (K : forall z, Rabs (B2R res * z) <= 2 * (B2R res / 1024) -> - / 512 <= z <= / 512).
    { intros z Hz. rewrite Rabs_mult, (Rabs_pos_eq (B2R res)) in Hz by lra. apply Rabs_le_inv. apply (Rmult_le_reg_l (B2R res)); [exact Pr|lra]. }
    apply K in Wa, Wb. apply (C05_square_ieee _ x y a b F Hc Eq); lra.
  Qed.
End Rot.

(** ** The hypotheses are met *)
From Verif Require PropOver.
(** The correctly rounded functions. *)
Definition nearest (x : R) : b64 := if Rle_dec 0 x then PropOver.near_b64 x else Bopp (PropOver.near_b64 (- x)).
Lemma nearest_spec x : Rabs x <= 1 -> fin (nearest x) /\ Rabs (B2R (nearest x) - x) <= / 4503599627370496.
Proof.
  intros Hx. apply Rabs_le_inv in Hx. assert (B : 1 <= bpow radix2 1000) by (change 1 with (bpow radix2 0); apply bpow_le; lia).
  assert (E4 : eta <= / 1267650600228229401496703205376) by (eapply Rle_trans; [apply (eta_small (-100)); lia|]; cbn; lra).
  assert (G : forall y, 0 <= y <= 1 -> fin (PropOver.near_b64 y) /\ Rabs (B2R (PropOver.near_b64 y) - y) <= / 4503599627370496).
  { intros y Hy. destruct (PropOver.near_b64_spec y) as (F & _ & E); [lra|]. split; [exact F|]. rewrite E. eapply Rle_trans; [apply err_any|].
    rewrite u_val, Rabs_pos_eq by lra. lra. }
  unfold nearest. destruct (Rle_dec 0 x) as [H|H].
  - apply G. lra.
  - destruct (G (- x)) as [F E]; [lra|]. split; [rewrite is_finite_Bopp; exact F|]. rewrite B2R_Bopp.
    replace (- B2R (PropOver.near_b64 (- x)) - x) with (- (B2R (PropOver.near_b64 (- x)) - - x)) by ring. rewrite Rabs_Ropp. exact E.
Qed.
Lemma trig_met : trig_accurate (fun a => nearest (cos (B2R a))) (fun a => nearest (sin (B2R a))).
Proof. intros a _. split; apply nearest_spec; [apply COS1|apply SIN1]. Qed.

(** A map of 4 x 3 cells of 5 cm, turned by half a radian, its corner at (-0.5, 3). *)
Definition rot_ex : drgeo := DRGeo (DGeo 4 3 (ddiv (d_of_Z 1) (d_of_Z 20)) (d_of_Z 0) (d_of_Z 0)) dhalf.
Example C05_roundtrip_ieee_met :
  let dcos := fun a => nearest (cos (B2R a)) in let dsin := fun a => nearest (sin (B2R a)) in
  let g := dr_setOrigin dcos dsin rot_ex (dsub (d_of_Z 0) dhalf, d_of_Z 3) in
  dr_point2cell dcos dsin g (dr_cell2point dcos dsin g 2 1) = Some (2%Z, 1%Z, true).
Proof.
  intros dcos dsin g. destruct ex_num as (En & E1 & E2 & _). cbn [dg_res dg_ox dg_oy g_ex] in En, E1, E2.
  apply C05_roundtrip_ieee.
  - apply trig_met.
  - split; [reflexivity|]. cbn [dr_map rot_ex dg_res]. rewrite En. split.
    + apply Rle_trans with (1 * bpow radix2 (-57)); [rewrite Rmult_1_l; apply bpow_le; lia|]. apply Rmult_le_compat_r; [apply bpow_ge_0|lra].
    + apply Rle_trans with (bpow radix2 57 * bpow radix2 (-57)); [apply Rmult_le_compat_r; [apply bpow_ge_0|cbn; lra]|]. rewrite <- bpow_plus. apply bpow_le. lia.
  - reflexivity.
  - split; reflexivity.
  - cbn [dr_map rot_ex dg_res]. rewrite En. change (bpow radix2 (-57)) with (/ 144115188075855872).
    split; cbn [exact px py fst snd]; [rewrite E1|rewrite E2]; apply Rabs_le; lra.
  - cbn. lia.
  - cbn. lia.
  - split; cbn; lia.
Qed.
Print Assumptions C05_origin_ieee.
Print Assumptions C05_frame_ieee.
Print Assumptions C05_centre_ieee.
Print Assumptions C05_square_ieee.
Print Assumptions C05_answer_ieee.
Print Assumptions C05_roundtrip_ieee.
