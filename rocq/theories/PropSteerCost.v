(** C36, continued: moves in opposite directions undo each other, and a drive costs at
    least the distance covered; the simple non-holonomic neighbourhood. *)
From Coq Require Import Reals Lra.
From Flocq Require Import Core.Raux.
From Verif Require Import Base GeomR PropGeom LineModel PropLine PropRSArc SteerModel PropSteer PropSteerKin.
Local Open Scope R_scope.

Definition spos (n : snode) : pt := Pt (sn_x n) (sn_y n).

(** ** Opposite moves *)
Lemma s_pose_back clamp p s dir x y th x1 y1 t1 : AngleClamp_contract clamp -> 0 < sp_la p -> 0 < sp_res p -> (-90 < s < 90)%Z ->
  x1 = fst (fst (s_pose clamp p s dir x y th)) -> y1 = snd (fst (s_pose clamp p s dir x y th)) -> angle_eq t1 (snd (s_pose clamp p s dir x y th)) ->
  fst (fst (s_pose clamp p s (- dir) x1 y1 t1)) = x /\ snd (fst (s_pose clamp p s (- dir) x1 y1 t1)) = y /\ angle_eq (snd (s_pose clamp p s (- dir) x1 y1 t1)) th.
Proof.
  intros Hc Hla Hres Hs -> -> Ht. pose proof (tan_steer s Hs) as HT. revert Ht. unfold s_pose. cbv zeta. destruct (s =? 0)%Z eqn:E; cbn [fst snd]; intros Ht.
  - assert (A : angle_eq t1 th). { eapply angle_eq_trans; [exact Ht|]. eapply angle_eq_trans; [apply Hc|]. exists 0%Z. cbn. lra. }
    rewrite (angle_eq_cos _ _ A), (angle_eq_sin _ _ A). split; [ring|]. split; [ring|]. eapply angle_eq_trans; [apply Hc|]. rewrite Rplus_0_r. exact A.
  - assert (N : tan (rad s) <> 0) by (intros N; apply HT in N; lia).
    set (d := sp_step p * dir / (sp_la p / tan (rad s))) in *.
    assert (D : sp_step p * - dir / (sp_la p / tan (rad s)) = - d) by (unfold d; field; lra). rewrite D.
    assert (A : angle_eq t1 (th + d)) by (eapply angle_eq_trans; [exact Ht|apply Hc]).
    assert (B : angle_eq (t1 + - d) th). { replace th with ((th + d) + - d) by ring. apply angle_eq_plus; [assumption|apply angle_eq_refl]. }
    rewrite (angle_eq_cos _ _ A), (angle_eq_sin _ _ A), (angle_eq_cos _ _ B), (angle_eq_sin _ _ B).
    split; [ring|]. split; [ring|]. eapply angle_eq_trans; [apply Hc|exact B].
Qed.

(** A move undone: with the same steering angle and the opposite driving direction
    (because of the gear, or because the one search runs from the goal) it leads back. *)
Theorem C36_inverse : forall clamp p p' so so' ref ref' prevs prevs' i i' step step' c c' n n', AngleClamp_contract clamp ->
  0 < sp_la p -> 0 < sp_res p -> (0 <= sp_max p < 90)%Z -> sp_la p' = sp_la p -> sp_res p' = sp_res p -> sp_step p' = sp_step p ->
  s_advance clamp p so ref prevs i step = AMove c n -> s_advance clamp p' so' ref' prevs' i' step' = AMove c' n' ->
  spos ref' = spos n -> angle_eq (sn_th ref') (sn_th n) -> sn_steer n' = sn_steer n -> xorb (sn_fwd n') (sn_fwd n) = negb (xorb (sp_rev p') (sp_rev p)) ->
  spos n' = spos ref /\ angle_eq (sn_th n') (sn_th ref).
Proof.
  intros clamp p p' so so' ref ref' prevs prevs' i i' step step' c c' n n' Hc Hla Hres Hm El Er Es E E' Hp Ht Hs Hd.
  pose proof (C35_limit clamp p so ref prevs i step c n ltac:(lia) (or_introl E)) as HS.
  apply s_advance_inv in E. destruct E as (_ & _ & _ & _ & _ & _ & _ & _ & _ & _ & _ & E & _).
  apply s_advance_inv in E'. destruct E' as (_ & _ & _ & _ & _ & _ & _ & _ & _ & _ & _ & E' & _).
  assert (D : drive_dir p' (sn_fwd n') = - drive_dir p (sn_fwd n)).
  { unfold drive_dir. destruct (sn_fwd n'), (sn_fwd n), (sp_rev p'), (sp_rev p); cbn in Hd; try discriminate; lra. }
  assert (P : s_pose clamp p' = s_pose clamp p). { unfold s_pose, sp_pixel. rewrite El, Er, Es. reflexivity. }
  rewrite P, D, Hs in E'. unfold spos in Hp. injection Hp as Hx Hy. rewrite Hx, Hy in E'.
  destruct (s_pose_back clamp p (sn_steer n) (drive_dir p (sn_fwd n)) (sn_x ref) (sn_y ref) (sn_th ref) (sn_x n) (sn_y n) (sn_th ref') Hc Hla Hres ltac:(lia)) as (B1 & B2 & B3).
  - rewrite <- E. reflexivity.
  - rewrite <- E. reflexivity.
  - rewrite <- E. exact Ht.
  - rewrite <- E' in B1, B2, B3. cbn [fst snd] in *. unfold spos. rewrite B1, B2. auto.
Qed.

(** ** The cost of a move *)
Lemma dir_abs p f : Rabs (drive_dir p f) = 1.
Proof. unfold drive_dir. destruct f, (sp_rev p); unfold Rabs; destruct (Rcase_abs _); lra. Qed.
Lemma dist_scale_straight x y k th : dist (Pt x y) (Pt (x + k * cos th) (y + k * sin th)) = Rabs k.
Proof.
  rewrite dist_hyp. cbn [px py]. unfold hyp. replace ((x - (x + k * cos th)) * (x - (x + k * cos th)) + (y - (y + k * sin th)) * (y - (y + k * sin th))) with (k * k * (cos th * cos th + sin th * sin th)) by ring.
  pose proof (sin2_cos2 th) as S1. unfold Rsqr in S1. replace (cos th * cos th + sin th * sin th) with 1 by lra. rewrite Rmult_1_r. apply sqrt_Rsqr_abs.
Qed.
Lemma s_pose_dist clamp p s dir x y th : 0 < sp_la p -> 0 < sp_res p -> 0 <= sp_step p -> (-90 < s < 90)%Z -> Rabs dir = 1 ->
  dist (Pt x y) (Pt (fst (fst (s_pose clamp p s dir x y th))) (snd (fst (s_pose clamp p s dir x y th)))) <= sp_step p / sp_res p /\
  (s = 0%Z -> dist (Pt x y) (Pt (fst (fst (s_pose clamp p s dir x y th))) (snd (fst (s_pose clamp p s dir x y th)))) = sp_step p / sp_res p).
Proof.
  intros Hla Hres Hst Hs Hd. pose proof (tan_steer s Hs) as HT. unfold s_pose, sp_pixel. cbv zeta.
  assert (Q : 0 <= sp_step p / sp_res p) by (apply Rmult_le_pos; [assumption|left; apply Rinv_0_lt_compat; assumption]).
  destruct (s =? 0)%Z eqn:E; cbn [fst snd].
  - rewrite dist_scale_straight, Rabs_mult, Hd, Rmult_1_r, Rabs_pos_eq by assumption. split; [lra|reflexivity].
  - split; [|intros ->; discriminate]. assert (N : tan (rad s) <> 0) by (intros N; apply HT in N; lia).
    set (r := sp_la p / tan (rad s) / sp_res p). set (t := th + sp_step p * dir / (sp_la p / tan (rad s))).
    assert (Er : Rabs (t - th) * Rabs r = sp_step p / sp_res p).
    { rewrite <- Rabs_mult. unfold t, r. replace ((th + sp_step p * dir / (sp_la p / tan (rad s)) - th) * (sp_la p / tan (rad s) / sp_res p)) with (sp_step p / sp_res p * dir) by (field; lra).
      rewrite Rabs_mult, Hd, Rmult_1_r. apply Rabs_pos_eq. assumption. }
    pose proof (chord_le (Rabs r) (sp_step p / sp_res p) th t (Rabs_pos r) ltac:(lra)) as C.
    eapply Rle_trans; [|exact C]. right. rewrite !dist_hyp. cbn [px py]. unfold hyp. f_equal.
    assert (A : Rabs r * Rabs r = r * r) by (rewrite <- Rabs_mult; apply Rabs_pos_eq; apply Rle_0_sqr).
    replace ((Rabs r * cos th - Rabs r * cos t) * (Rabs r * cos th - Rabs r * cos t) + (Rabs r * sin th - Rabs r * sin t) * (Rabs r * sin th - Rabs r * sin t))
      with (Rabs r * Rabs r * ((cos th - cos t) * (cos th - cos t) + (sin th - sin t) * (sin th - sin t))) by ring.
    rewrite A. ring.
Qed.

(** The cost is the length of the driven arc in cells, times the backward penalty and
    times the penalty for a change of direction; the straight-line distance covered is
    at most the length of the arc, and equal to it for a straight move. *)
Theorem C36_cost : forall clamp p so ref prevs i step c n, 0 < sp_la p -> 0 < sp_res p -> 0 <= sp_step p -> (0 <= sp_max p < 90)%Z -> sp_both p = true ->
  s_advance clamp p so ref prevs i step = AMove c n ->
  c = sp_step p / sp_res p * (if sn_fwd n then 1 else so_back so) * (if Bool.eqb (sn_fwd n) (sn_fwd ref) then 1 else so_turn so) /\
  dist (spos ref) (spos n) <= sp_step p / sp_res p /\ (straight n -> dist (spos ref) (spos n) = sp_step p / sp_res p).
Proof.
  intros clamp p so ref prevs i step c n Hla Hres Hst Hm Hb E.
  pose proof (C35_limit clamp p so ref prevs i step c n ltac:(lia) (or_introl E)) as HS.
  apply s_advance_inv in E. destruct E as (cu & d0 & s0 & _ & _ & _ & _ & _ & _ & _ & _ & E & F). rewrite Hb in F. split.
  - destruct F as [(F1 & _ & _ & _ & _ & ->)|(F1 & _ & ->)].
    + destruct (Bool.eqb (sn_fwd n) (sn_fwd ref)) eqn:B; [apply Bool.eqb_prop in B; contradiction|]. unfold sp_pixel. ring.
    + rewrite F1, Bool.eqb_reflx. unfold sp_pixel. ring.
  - destruct (s_pose_dist clamp p (sn_steer n) (drive_dir p (sn_fwd n)) (sn_x ref) (sn_y ref) (sn_th ref) Hla Hres Hst ltac:(lia) (dir_abs _ _)) as [D1 D2].
    rewrite <- E in D1, D2. cbn [fst snd] in D1, D2. split; [exact D1|]. intros Hn. apply D2. exact Hn.
Qed.
Theorem C36_cost_dynamic : forall clamp p so ref prevs i step c n, 0 < sp_la p -> 0 < sp_res p -> 0 <= sp_step p -> (0 <= sp_max p < 90)%Z ->
  d_advance clamp p so ref prevs i step = AMove c n ->
  let L := if negb (sp_rev p) && (sn_depth ref <? 1)%Z && negb (sn_fwd n) then sp_la p else sp_step p in
  c = L / sp_res p * (if sn_fwd n then 1 else so_back so) * (if Bool.eqb (sn_fwd n) (sn_fwd ref) then 1 else so_turn so) /\
  dist (spos ref) (spos n) <= L / sp_res p /\ (straight n -> dist (spos ref) (spos n) = L / sp_res p).
Proof.
  intros clamp p so ref prevs i step c n Hla Hres Hst Hm E L.
  pose proof (C35_limit clamp p so ref prevs i step c n ltac:(lia) (or_intror E)) as HS.
  assert (Q : 0 < sp_la p / sp_res p) by (apply Rdiv_lt_0_compat; assumption).
  destruct (negb (sp_rev p) && (sn_depth ref <? 1)%Z && negb (sn_fwd n)) eqn:EL; unfold L.
  - apply andb_prop in EL. destruct EL as [EL En]. apply andb_prop in EL. destruct EL as [Er Ed].
    assert (Hr : sp_rev p = false) by (destruct (sp_rev p); [discriminate|reflexivity]). assert (Hf : sn_fwd n = false) by (destruct (sn_fwd n); [discriminate|reflexivity]).
    destruct (d_first_back _ _ _ _ _ _ _ _ _ E Hr ltac:(lia) Hf) as (Hn & F3 & F1 & F2 & Fc).
    apply d_advance_inv in E. destruct E as (cu & _ & _ & Hd0 & Hi & _). rewrite Hf in Hi. rewrite <- Hi in Hd0. specialize (Hd0 ltac:(lia)).
    replace (- sp_la p / sp_res p) with (- (sp_la p / sp_res p)) in * by (unfold Rdiv; ring).
    split; [rewrite Fc, Hf, Hd0; cbn; rewrite Rabs_Ropp, Rabs_pos_eq by lra; ring|].
    unfold spos. rewrite F1, F2, dist_scale_straight, Rabs_Ropp, Rabs_pos_eq by lra. split; [lra|reflexivity].
  - apply d_advance_inv in E. destruct E as (cu & _ & _ & _ & Hf & _ & [(-> & -> & Hr & Hd & Hn & _)|(d0 & s0 & _ & _ & _ & E & F)]).
    { exfalso. rewrite Hr, Hf in EL. assert ((sn_depth ref <? 1)%Z = true) as X1 by lia. rewrite X1 in EL. discriminate. }
    split.
    + destruct F as [(F1 & _ & _ & _ & _ & ->)|(F1 & _ & ->)].
      * destruct (Bool.eqb (sn_fwd n) (sn_fwd ref)) eqn:B; [apply Bool.eqb_prop in B; contradiction|]. unfold sp_pixel. ring.
      * rewrite F1, Bool.eqb_reflx. unfold sp_pixel. ring.
    + destruct (s_pose_dist clamp p (sn_steer n) (drive_dir p (sn_fwd n)) (sn_x ref) (sn_y ref) (sn_th ref) Hla Hres Hst ltac:(lia) (dir_abs _ _)) as [D1 D2].
      rewrite <- E in D1, D2. cbn [fst snd] in D1, D2. split; [exact D1|]. intros Hn. apply D2. exact Hn.
Qed.

(** A whole drive costs at least the straight-line distance (in cells) between any two
    of its poses, if no penalty is below one: with the Euclidean heuristic the
    remaining cost is never overestimated. *)
Theorem C36_trip_cost : forall clamp p so steps s l c, 0 < sp_la p -> 0 < sp_res p -> 0 <= sp_step p -> (0 <= sp_max p < 90)%Z ->
  1 <= so_back so -> 1 <= so_turn so ->
  (sp_both p = true /\ trip (s_move clamp p so steps) s l c) \/ trip (d_move clamp p so steps) s l c ->
  forall n, In n l -> dist (spos s) (spos n) <= c /\ dist (spos n) (spos (hd s l)) <= c.
Proof.
  intros clamp p so steps s l c Hla Hres Hst Hm Hb1 Ht1 H.
  assert (G : exists move, trip move s l c /\ forall r prevs c n, move r prevs c n -> dist (spos r) (spos n) <= c).
  { assert (K : forall L c d b t, 0 <= L -> c = L / sp_res p * (if b : bool then 1 else so_back so) * (if t : bool then 1 else so_turn so) -> d <= L / sp_res p -> d <= c).
    { intros L c0 d b t HL -> Hd. assert (0 <= L / sp_res p) by (apply Rmult_le_pos; [assumption|left; apply Rinv_0_lt_compat; assumption]).
      eapply Rle_trans; [exact Hd|]. assert (1 <= (if b then 1 else so_back so)) by (destruct b; lra). assert (1 <= (if t then 1 else so_turn so)) by (destruct t; lra).
      assert (L / sp_res p * 1 <= L / sp_res p * (if b then 1 else so_back so)) by (apply Rmult_le_compat_l; assumption).
      assert (L / sp_res p * (if b then 1 else so_back so) * 1 <= L / sp_res p * (if b then 1 else so_back so) * (if t then 1 else so_turn so)) by (apply Rmult_le_compat_l; [nra|assumption]). lra. }
    destruct H as [[Hb H]|H].
    - exists (s_move clamp p so steps). split; [exact H|]. intros r prevs c0 n (i & step & _ & _ & E).
      destruct (C36_cost _ _ _ _ _ _ _ _ _ Hla Hres Hst Hm Hb E) as (E1 & E2 & _). eapply K; eassumption.
    - exists (d_move clamp p so steps). split; [exact H|]. intros r prevs c0 n (i & step & _ & _ & E).
      destruct (C36_cost_dynamic _ _ _ _ _ _ _ _ _ Hla Hres Hst Hm E) as (E1 & E2 & _). eapply K; [|exact E1|exact E2].
      destruct (_ && _); lra. }
  clear H. destruct G as (move & H & K).
  assert (Z0 : forall q, dist q q = 0). { intros q. rewrite dist_hyp. unfold hyp. rewrite !Rminus_diag_eq by reflexivity. replace (0 * 0 + 0 * 0) with 0 by ring. apply sqrt_0. }
  induction H as [|n r prevs c' cost H IH M].
  - intros n [<-|[]]. cbn [hd]. rewrite Z0. lra.
  - cbn [hd] in *. specialize (K _ _ _ _ M).
    assert (P0 : 0 <= dist (spos r) (spos n)) by (rewrite dist_hyp; apply sqrt_pos).
    destruct (IH r (or_introl eq_refl)) as [I1 _].
    intros x [<-|Hx].
    + rewrite Z0. assert (0 <= dist (spos s) (spos r)) by (rewrite dist_hyp; apply sqrt_pos). pose proof (dist_tri (spos s) (spos r) (spos n)). lra.
    + destruct (IH x Hx) as [J1 J2]. pose proof (dist_tri (spos x) (spos r) (spos n)). lra.
Qed.

(** The hypotheses are met by the drive of [C35_after_switch_refuted], with turned
    wheels and a change of direction. *)
Example C36_trip_case : exists s l c n sw r, trip (s_move clamp_ref ex_params ex_so 1) s (n :: sw :: r :: l) c /\ sn_fwd sw <> sn_fwd r /\ sn_steer n = (-15)%Z /\
  AngleClamp_contract clamp_ref /\ 0 < sp_la ex_params /\ 0 < sp_res ex_params /\ 0 <= sp_step ex_params /\ (0 <= sp_max ex_params < 90)%Z /\ sp_both ex_params = true /\ 1 <= so_back ex_so /\ 1 <= so_turn ex_so.
Proof.
  destruct (C35_after_switch_refuted clamp_ref) as (s & l & c & sw & r & n & T & _ & Hf & _ & Hs & _).
  exists s, l, c, n, sw, r. split; [exact T|]. split; [assumption|]. split; [assumption|]. split; [apply clamp_ref_ok|]. cbn. repeat split; try lra; lia.
Qed.

(** ** The simple non-holonomic neighbourhood *)
Lemma rot_back clamp a rot : AngleClamp_contract clamp -> angle_eq (clamp (clamp (a + rot) - rot)) a.
Proof.
  intros Hc. eapply angle_eq_trans; [apply Hc|]. assert (E : angle_eq (clamp (a + rot)) (a + rot)) by apply Hc.
  destruct E as [k E]. exists k. rewrite E. ring.
Qed.
Lemma n_advance_inv clamp p rot initial ref prevs i c n : n_advance clamp p rot initial ref prevs i = AMove c n ->
  exists cu, sn_custom ref = Some cu /\ (initial = true -> i = 0%Z \/ i = 3%Z) /\ ((0 < cu)%Z -> Z.rem i 3 = 0%Z) /\
    sn_fwd n = n_forward i /\
    (let t := clamp (sn_th ref + n_turn p i + rot) in let dir := (if sn_fwd n then 1 else -1) * (if np_rev p then -1 else 1) in
     sn_x n = sn_x ref + dir * cos t * np_pixel p /\ sn_y n = sn_y ref + dir * sin t * np_pixel p /\ sn_th n = clamp (t - rot)) /\
    ((xorb (sn_fwd ref) (sn_fwd n) && negb initial = true /\ (cu <= 0)%Z /\ i = (if sn_fwd n then 0 else 3)%Z /\
      all_prev (Z.to_nat (np_sds p - 1)) (fun q => if Req_EM_T (sn_th q) (sn_th ref) then true else false) prevs = true /\
      sn_custom n = Some (np_sds p - 1)%Z /\ c = np_pixel p * (if sn_fwd n then 1 else 3 / 2) * 4) \/
     (xorb (sn_fwd ref) (sn_fwd n) && negb initial = false /\ sn_custom n = Some (Z.max 0 (cu - 1)) /\ c = np_pixel p * (if sn_fwd n then 1 else 3 / 2) * 1)).
Proof.
  unfold n_advance. cbv zeta.
  destruct (initial && negb ((i =? 0) || (i =? 3))%Z) eqn:E1; [discriminate|].
  destruct (sn_custom ref) as [cu|]; [|discriminate]. destruct ((0 <? cu)%Z && negb (Z.rem i 3 =? 0)%Z) eqn:E2; [discriminate|].
  intros E. exists cu. split; [reflexivity|].
  split. { intros ->. cbn in E1. lia. } split. { intros H. assert ((0 <? cu)%Z = true) as X by lia. rewrite X in E2. cbn in E2. lia. }
  destruct (xorb (sn_fwd ref) (n_forward i) && negb initial) eqn:E3.
  - destruct (0 <? cu)%Z eqn:E4; [discriminate|]. destruct (negb (i =? (if n_forward i then 0 else 3))%Z) eqn:E5; [discriminate|].
    destruct (all_prev _ _ prevs) eqn:E6; [|discriminate]. cbn [negb] in E. injection E as <- <-. cbn [sn_fwd sn_x sn_y sn_th sn_custom].
    split; [reflexivity|]. split; [repeat split|]. left. split; [assumption|]. split; [lia|]. split; [lia|]. split; [reflexivity|]. split; [reflexivity|]. destruct (n_forward i); ring.
  - injection E as <- <-. cbn [sn_fwd sn_x sn_y sn_th sn_custom].
    split; [reflexivity|]. split; [repeat split|]. right. split; [assumption|]. split; [f_equal; destruct (0 <? cu)%Z eqn:E4; lia|]. destruct (n_forward i); ring.
Qed.

(** Every move turns the vehicle by at most DELTA_THETA and then drives exactly one
    step along the new heading, in the driving direction (mirrored for a search from
    the goal); it costs its length, half as much again backward, four times as much
    with a change of direction. *)
Theorem C36_nonholonomic : forall clamp p rot initial ref prevs i c n, AngleClamp_contract clamp -> (0 <= np_steer p)%Z -> 0 <= np_step p -> 0 < np_res p ->
  n_advance clamp p rot initial ref prevs i = AMove c n ->
  let len := np_step p / np_res p in
  let dir := (if sn_fwd n then 1 else -1) * (if np_rev p then -1 else 1) in
  (exists turn, Rabs turn <= IZR (np_steer p) / 10 * PI / 180 /\ angle_eq (sn_th n) (sn_th ref + turn) /\
     sn_x n = sn_x ref + dir * len * cos (sn_th ref + turn + rot) /\ sn_y n = sn_y ref + dir * len * sin (sn_th ref + turn + rot)) /\
  dist (spos ref) (spos n) = len /\
  c = len * (if sn_fwd n then 1 else 3 / 2) * (if xorb (sn_fwd ref) (sn_fwd n) && negb initial then 4 else 1).
Proof.
  intros clamp p rot initial ref prevs i c n Hc Hs Hst Hres E. cbv zeta. apply n_advance_inv in E. cbv zeta in E. unfold np_pixel in E.
  destruct E as (cu & _ & _ & _ & Hf & (Hx & Hy & Ht) & F).
  set (D := (if sn_fwd n then 1 else -1) * (if np_rev p then -1 else 1)) in *.
  assert (A : angle_eq (clamp (sn_th ref + n_turn p i + rot)) (sn_th ref + n_turn p i + rot)) by apply Hc.
  rewrite (angle_eq_cos _ _ A) in Hx. rewrite (angle_eq_sin _ _ A) in Hy.
  assert (Q : 0 <= np_step p / np_res p) by (apply Rmult_le_pos; [assumption|left; apply Rinv_0_lt_compat; assumption]).
  split; [|split].
  - exists (n_turn p i). split; [|split; [|split; [rewrite Hx; ring|rewrite Hy; ring]]].
    + apply IZR_le in Hs. pose proof PI_RGT_0. assert (HD : 0 <= np_delta p) by (unfold np_delta; nra).
      change (Rabs (n_turn p i) <= np_delta p). unfold n_turn.
      repeat match goal with |- context [if ?b then _ else _] => destruct b end; unfold Rabs; destruct (Rcase_abs _); lra.
    + rewrite Ht. apply rot_back. assumption.
  - unfold spos. rewrite Hx, Hy. replace (D * cos (sn_th ref + n_turn p i + rot) * (np_step p / np_res p)) with ((D * (np_step p / np_res p)) * cos (sn_th ref + n_turn p i + rot)) by ring.
    replace (D * sin (sn_th ref + n_turn p i + rot) * (np_step p / np_res p)) with ((D * (np_step p / np_res p)) * sin (sn_th ref + n_turn p i + rot)) by ring.
    rewrite dist_scale_straight, Rabs_mult, (Rabs_pos_eq (np_step p / np_res p)) by assumption.
    assert (Rabs D = 1) as -> by (unfold D; destruct (sn_fwd n), (np_rev p); unfold Rabs; destruct (Rcase_abs _); lra). ring.
  - destruct F as [(-> & _ & _ & _ & _ & ->)|(-> & _ & ->)]; reflexivity.
Qed.

(** Which way the moves go: the ten moves turn by these multiples of DELTA_THETA (the
    last four are the half steps) and drive in these directions. *)
Definition n_table : list (R * bool) :=
  [(0, true); (-1, true); (1, true); (0, false); (-1, false); (1, false); (- / 2, true); (/ 2, true); (- / 2, false); (/ 2, false)].
Theorem C36_nonholonomic_moves : forall clamp p rot initial ref prevs k turn fwd c n, AngleClamp_contract clamp ->
  nth_error n_table k = Some (turn, fwd) -> n_advance clamp p rot initial ref prevs (Z.of_nat k) = AMove c n ->
  angle_eq (sn_th n) (sn_th ref + turn * (IZR (np_steer p) / 10 * PI / 180)) /\ sn_fwd n = fwd.
Proof.
  intros clamp p rot initial ref prevs k turn fwd c n Hc Hk E. apply n_advance_inv in E. cbv zeta in E.
  destruct E as (cu & _ & _ & _ & Hf & (_ & _ & Ht) & _).
  assert (X : n_turn p (Z.of_nat k) = turn * (IZR (np_steer p) / 10 * PI / 180) /\ n_forward (Z.of_nat k) = fwd).
  { change (IZR (np_steer p) / 10 * PI / 180) with (np_delta p).
    do 10 (destruct k as [|k]; [injection Hk as <- <-; split; [unfold n_turn; cbn; lra|reflexivity]|]). destruct k; discriminate. }
  destruct X as [X1 X2]. split; [|congruence]. rewrite Ht, X1. apply rot_back. assumption.
Qed.

(** A change of direction keeps the heading, and so did the [straight_dir_switch - 1]
    moves before it: those predecessors exist and have the same heading. The moves of a
    start or goal node are straight. *)
Theorem C35_nonholonomic_switch : forall clamp p rot initial ref prevs i c n, AngleClamp_contract clamp ->
  n_advance clamp p rot initial ref prevs i = AMove c n -> sn_fwd n <> sn_fwd ref \/ initial = true ->
  angle_eq (sn_th n) (sn_th ref) /\
  (initial = false -> (Z.to_nat (np_sds p - 1) <= length prevs)%nat /\
    forall k t, (k < Z.to_nat (np_sds p - 1))%nat -> nth_error prevs k = Some t -> sn_th t = sn_th ref).
Proof.
  intros clamp p rot initial ref prevs i c n Hc E H. apply n_advance_inv in E. cbv zeta in E.
  destruct E as (cu & _ & Hi & _ & Hf & (_ & _ & Ht) & F).
  assert (I : i = 0%Z \/ i = 3%Z).
  { destruct initial; [auto|]. destruct H as [H|H]; [|discriminate]. destruct F as [(_ & _ & F & _)|(F & _)]; [destruct (sn_fwd n); auto|].
    exfalso. rewrite andb_true_r in F. apply H. destruct (sn_fwd n), (sn_fwd ref); cbn in F; congruence. }
  split.
  - assert (n_turn p i = 0) as T0 by (destruct I as [-> | ->]; reflexivity). rewrite Ht, T0, Rplus_0_r. apply rot_back. assumption.
  - intros ->. destruct H as [H|H]; [|discriminate]. destruct F as [(_ & _ & _ & F & _)|(F & _)].
    + apply all_prev_spec in F. destruct F as [L K]. split; [assumption|]. intros k t Hk Et. specialize (K k t Hk Et). cbv beta in K. destruct (Req_EM_T (sn_th t) (sn_th ref)); [assumption|discriminate].
    + exfalso. rewrite andb_true_r in F. apply H. destruct (sn_fwd n), (sn_fwd ref); cbn in F; congruence.
Qed.

(** With the six moves of FORWARD_BACKWARD the moves made while the flag set by a
    change of direction is positive go straight on ... *)
Theorem C35_nonholonomic_after : forall clamp p rot ref prevs i c n cu, AngleClamp_contract clamp -> (0 <= i < 6)%Z ->
  n_advance clamp p rot false ref prevs i = AMove c n -> sn_custom ref = Some cu -> (0 < cu)%Z ->
  angle_eq (sn_th n) (sn_th ref) /\ sn_fwd n = sn_fwd ref /\ sn_custom n = Some (cu - 1)%Z.
Proof.
  intros clamp p rot ref prevs i c n cu Hc Hi E Hcu Hpos. apply n_advance_inv in E. cbv zeta in E.
  destruct E as (cu' & E0 & _ & Hr & Hf & (_ & _ & Ht) & F). rewrite Hcu in E0. injection E0 as <-. specialize (Hr Hpos).
  assert (I : i = 0%Z \/ i = 3%Z). { assert (Z.rem i 3 = i mod 3)%Z as X by (apply Z.rem_mod_nonneg; lia). rewrite X in Hr. pose proof (Z.div_mod i 3 ltac:(lia)). lia. }
  split; [|split].
  - assert (n_turn p i = 0) as T0 by (destruct I as [-> | ->]; reflexivity). rewrite Ht, T0, Rplus_0_r. apply rot_back. assumption.
  - destruct F as [(_ & F & _)|(F & _)]; [lia|]. rewrite andb_true_r in F. destruct (sn_fwd n), (sn_fwd ref); cbn in F; congruence.
  - destruct F as [(_ & F & _)|(_ & -> & _)]; [lia|]. f_equal. lia.
Qed.
(** ... but not with the ten moves of FORWARD_BACKWARD_HALFSTEPS: the test [i % 3]
    takes the half turns 6 and 9 for straight ones. *)
Theorem C35_halfsteps_refuted : forall clamp p rot x y th cu prevs, AngleClamp_contract clamp -> (0 < np_steer p <= 1800)%Z -> (0 < cu)%Z ->
  exists c n, n_advance clamp p rot false (SN x y th true 0 (Some cu) 0) prevs 6 = AMove c n /\ ~ angle_eq (sn_th n) th.
Proof.
  intros clamp p rot x y th cu prevs Hc Hs Hcu. unfold n_advance. cbv zeta. cbn [sn_x sn_y sn_th sn_fwd sn_steer sn_custom sn_depth andb].
  assert ((0 <? cu)%Z = true) as -> by lia. change (Z.rem 6 3 =? 0)%Z with true. cbn [negb andb]. change (n_forward 6) with true. cbn [xorb andb].
  eexists _, _. split; [reflexivity|]. cbn [sn_th]. intros A.
  assert (B : angle_eq (th + n_turn p 6) th).
  { eapply angle_eq_trans; [|exact A]. apply angle_eq_sym. apply rot_back. assumption. }
  pose proof PI_RGT_0. destruct Hs as [S1 S2]. apply IZR_lt in S1. apply IZR_le in S2.
  assert (HD : 0 < np_delta p <= PI) by (unfold np_delta; split; nra). change (n_turn p 6) with (- (np_delta p / 2)) in B.
  apply angle_eq_unique in B; lra.
Qed.
