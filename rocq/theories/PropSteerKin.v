(** C36: steering moves are arcs of the modelled vehicle; C35 for the simple
    non-holonomic neighbourhood. *)
From Coq Require Import Reals Lra.
From Flocq Require Import Core.Raux.
From Verif Require Import Base GeomR PropGeom LineModel PropLine PropRSArc SteerModel PropSteer.
Local Open Scope R_scope.

(** ** Specification: the kinematic bicycle *)
(** [X], [Y] (cells) and the heading [T] as functions of the distance driven (world
    units), of a vehicle with wheel base [la] whose front wheel is turned by [delta],
    driving forward ([dir = 1]) or backward ([dir = -1]) on a map with cell size [res]. *)
Definition bicycle (la delta dir res : R) (X Y T : R -> R) : Prop :=
  forall s, derivable_pt_lim X s (dir * cos (T s) / res) /\ derivable_pt_lim Y s (dir * sin (T s) / res) /\
    derivable_pt_lim T s (dir * tan delta / la).

(** ** Proofs *)
Lemma eq_of_deriv (f g d : R -> R) : (forall s, derivable_pt_lim f s (d s)) -> (forall s, derivable_pt_lim g s (d s)) -> f 0 = g 0 -> forall s, f s = g s.
Proof.
  intros Hf Hg H0 s.
  assert (D : forall c, derivable_pt_lim (f - g)%F c 0).
  { intros c. replace 0 with (d c - d c) by ring. apply derivable_pt_lim_minus; auto. }
  assert (E : (f - g)%F s = (f - g)%F 0).
  { destruct (Rtotal_order 0 s) as [H|[H|H]].
    - destruct (MVT_cor2 (f - g)%F (fun _ => 0) 0 s H (fun c _ => D c)) as (c & E & _). lra.
    - subst. reflexivity.
    - destruct (MVT_cor2 (f - g)%F (fun _ => 0) s 0 H (fun c _ => D c)) as (c & E & _). lra. }
  unfold minus_fct in E. lra.
Qed.
Lemma deriv_ext f g s l : (forall x, f x = g x) -> derivable_pt_lim f s l -> derivable_pt_lim g s l.
Proof. intros E H eps He. destruct (H eps He) as (d & Hd). exists d. intros h Hh Hl. rewrite <- !E. apply Hd; assumption. Qed.
Lemma deriv_affine a b s : derivable_pt_lim (fun u => a + u * b) s b.
Proof.
  assert (H : derivable_pt_lim (fct_cte a + id * fct_cte b)%F s (0 + (1 * fct_cte b s + id s * 0))).
  { apply derivable_pt_lim_plus; [apply derivable_pt_lim_const|]. apply derivable_pt_lim_mult; [apply derivable_pt_lim_id|apply derivable_pt_lim_const]. }
  unfold fct_cte at 3 in H. replace (0 + (1 * b + id s * 0)) with b in H by ring. apply (deriv_ext _ _ _ _ (fun x => eq_refl) H).
Qed.

(** The solution of the equations. *)
Definition head_at (la delta dir th s : R) : R := th + s * (dir * tan delta / la).
Definition traj_x (la delta dir res x th s : R) : R :=
  if Req_EM_T (tan delta) 0 then x + s * (dir * cos th / res) else x + (la / tan delta / res) * (sin (head_at la delta dir th s) - sin th).
Definition traj_y (la delta dir res y th s : R) : R :=
  if Req_EM_T (tan delta) 0 then y + s * (dir * sin th / res) else y + (la / tan delta / res) * (- cos (head_at la delta dir th s) + cos th).
Lemma traj_ok la delta dir res x y th : 0 < la -> 0 < res ->
  bicycle la delta dir res (traj_x la delta dir res x th) (traj_y la delta dir res y th) (head_at la delta dir th) /\
  traj_x la delta dir res x th 0 = x /\ traj_y la delta dir res y th 0 = y /\ head_at la delta dir th 0 = th.
Proof.
  intros Hla Hres. split; [|unfold traj_x, traj_y, head_at; rewrite !Rmult_0_l; destruct (Req_EM_T (tan delta) 0); rewrite ?Rplus_0_r; repeat split; ring].
  intros s. assert (DT : derivable_pt_lim (head_at la delta dir th) s (dir * tan delta / la)) by apply deriv_affine.
  split; [|split; [|exact DT]].
  - unfold traj_x. destruct (Req_EM_T (tan delta) 0) as [E|E].
    + unfold head_at. rewrite E. replace (th + s * (dir * 0 / la)) with th by (field; lra). apply deriv_affine.
    + pose proof (derivable_pt_lim_comp _ _ s _ _ DT (derivable_pt_lim_sin (head_at la delta dir th s))) as D1.
      apply (deriv_ext (fun u => (x - la / tan delta / res * sin th) + la / tan delta / res * comp sin (head_at la delta dir th) u)); [intros u; unfold comp; ring|].
      replace (dir * cos (head_at la delta dir th s) / res) with (0 + la / tan delta / res * (cos (head_at la delta dir th s) * (dir * tan delta / la))) by (field; lra).
      apply (derivable_pt_lim_plus (fct_cte (x - la / tan delta / res * sin th)) (mult_real_fct (la / tan delta / res) (comp sin (head_at la delta dir th))) s); [apply derivable_pt_lim_const|].
      apply derivable_pt_lim_scal. exact D1.
  - unfold traj_y. destruct (Req_EM_T (tan delta) 0) as [E|E].
    + unfold head_at. rewrite E. replace (th + s * (dir * 0 / la)) with th by (field; lra). apply deriv_affine.
    + pose proof (derivable_pt_lim_comp _ _ s _ _ DT (derivable_pt_lim_cos (head_at la delta dir th s))) as D1.
      apply (deriv_ext (fun u => (y + la / tan delta / res * cos th) + - (la / tan delta / res) * comp cos (head_at la delta dir th) u)); [intros u; unfold comp; ring|].
      replace (dir * sin (head_at la delta dir th s) / res) with (0 + - (la / tan delta / res) * (- sin (head_at la delta dir th s) * (dir * tan delta / la))) by (field; lra).
      apply (derivable_pt_lim_plus (fct_cte (y + la / tan delta / res * cos th)) (mult_real_fct (- (la / tan delta / res)) (comp cos (head_at la delta dir th))) s); [apply derivable_pt_lim_const|].
      apply derivable_pt_lim_scal. exact D1.
Qed.
Lemma bicycle_unique la delta dir res X Y T X' Y' T' : bicycle la delta dir res X Y T -> bicycle la delta dir res X' Y' T' ->
  X 0 = X' 0 -> Y 0 = Y' 0 -> T 0 = T' 0 -> forall s, X s = X' s /\ Y s = Y' s /\ T s = T' s.
Proof.
  intros H H' EX EY ET.
  assert (Et : forall s, T s = T' s). { apply (eq_of_deriv _ _ (fun _ => dir * tan delta / la)); [intros; apply H|intros; apply H'|assumption]. }
  intros s. split; [|split; [|apply Et]].
  - apply (eq_of_deriv X X' (fun s => dir * cos (T s) / res)); [intros; apply H|intros; rewrite Et; apply H'|assumption].
  - apply (eq_of_deriv Y Y' (fun s => dir * sin (T s) / res)); [intros; apply H|intros; rewrite Et; apply H'|assumption].
Qed.

Lemma tan_steer s : (-90 < s < 90)%Z -> tan (rad s) = 0 <-> s = 0%Z.
Proof.
  intros H. pose proof PI_RGT_0 as HP. split.
  - intros E. destruct (Z.eq_dec s 0) as [|N]; [assumption|exfalso].
    assert (B : - (PI / 2) < rad s < PI / 2).
    { destruct H as [A B]. apply IZR_lt in A, B. unfold rad. split; nra. }
    assert (Hc : 0 < cos (rad s)) by (apply cos_gt_0; lra).
    unfold tan in E. assert (Hs : sin (rad s) = 0). { unfold Rdiv in E. apply Rmult_integral in E. destruct E as [E|E]; [assumption|]. exfalso. apply (Rinv_neq_0_compat (cos (rad s))); lra. }
    assert (rad s <> 0). { unfold rad. apply not_0_IZR in N. assert (IZR s / 180 <> 0) by (unfold Rdiv; apply Rmult_integral_contrapositive; split; lra). apply Rmult_integral_contrapositive. split; lra. }
    destruct (Rlt_or_le 0 (rad s)) as [P|P].
    + pose proof (sin_gt_0 (rad s) P ltac:(lra)). lra.
    + assert (0 < - rad s) as P1 by lra. pose proof (sin_gt_0 (- rad s) P1 ltac:(lra)) as Q. rewrite sin_neg in Q. lra.
  - intros ->. unfold rad. replace (0 / 180 * PI) with 0 by (field). apply tan_0.
Qed.

(** The pose computed by the code is the pose of the bicycle after [distance_step]. *)
Lemma s_pose_traj clamp p s dir x y th : AngleClamp_contract clamp -> 0 < sp_la p -> 0 < sp_res p -> (-90 < s < 90)%Z ->
  fst (fst (s_pose clamp p s dir x y th)) = traj_x (sp_la p) (rad s) dir (sp_res p) x th (sp_step p) /\
  snd (fst (s_pose clamp p s dir x y th)) = traj_y (sp_la p) (rad s) dir (sp_res p) y th (sp_step p) /\
  angle_eq (snd (s_pose clamp p s dir x y th)) (head_at (sp_la p) (rad s) dir th (sp_step p)).
Proof.
  intros Hc Hla Hres Hs. pose proof (tan_steer s Hs) as HT. unfold s_pose, sp_pixel, traj_x, traj_y. cbv zeta.
  destruct (s =? 0)%Z eqn:E.
  - assert (s = 0%Z) by lia. destruct HT as [_ HT]. destruct (Req_EM_T (tan (rad s)) 0) as [_|N]; [|tauto]. cbn [fst snd].
    split; [field; lra|]. split; [field; lra|]. eapply angle_eq_trans; [apply Hc|]. unfold head_at. rewrite HT by assumption. exists 0%Z. field. lra.
  - destruct (Req_EM_T (tan (rad s)) 0) as [N|N]; [apply HT in N; lia|]. cbn [fst snd].
    assert (EH : th + sp_step p * dir / (sp_la p / tan (rad s)) = head_at (sp_la p) (rad s) dir th (sp_step p)) by (unfold head_at; field; lra).
    rewrite EH. split; [reflexivity|]. split; [reflexivity|]. apply Hc.
Qed.

(** ** C36: every move of the template neighbourhood is a bicycle motion *)
(** ... of length distance_step with the steering angle stored in the node reached, in
    its driving direction (reversed for a search from the goal); there is such a
    motion and it is the only one. *)
Theorem C36_bicycle : forall clamp p so ref prevs i step c n, AngleClamp_contract clamp ->
  0 < sp_la p -> 0 < sp_res p -> (0 <= sp_max p < 90)%Z -> s_advance clamp p so ref prevs i step = AMove c n ->
  let dir := (if sn_fwd n then 1 else -1) * (if sp_rev p then -1 else 1) in
  let delta := IZR (sn_steer n) / 180 * PI in
  (exists X Y T, bicycle (sp_la p) delta dir (sp_res p) X Y T /\ X 0 = sn_x ref /\ Y 0 = sn_y ref /\ T 0 = sn_th ref) /\
  (forall X Y T, bicycle (sp_la p) delta dir (sp_res p) X Y T -> X 0 = sn_x ref -> Y 0 = sn_y ref -> T 0 = sn_th ref ->
     sn_x n = X (sp_step p) /\ sn_y n = Y (sp_step p) /\ angle_eq (sn_th n) (T (sp_step p))).
Proof.
  intros clamp p so ref prevs i step c n Hc Hla Hres Hm E dir delta.
  pose proof (C35_limit clamp p so ref prevs i step c n ltac:(lia) (or_introl E)) as HS.
  destruct (traj_ok (sp_la p) delta dir (sp_res p) (sn_x ref) (sn_y ref) (sn_th ref) Hla Hres) as (B & X0 & Y0 & T0).
  split; [eauto 10|]. intros X Y T H EX EY ET.
  destruct (bicycle_unique _ _ _ _ _ _ _ _ _ _ H B ltac:(congruence) ltac:(congruence) ltac:(congruence) (sp_step p)) as (-> & -> & ->).
  apply s_advance_inv in E. destruct E as (cu & d0 & s0 & _ & _ & _ & _ & _ & _ & _ & _ & E & _).
  destruct (s_pose_traj clamp p (sn_steer n) (drive_dir p (sn_fwd n)) (sn_x ref) (sn_y ref) (sn_th ref) Hc Hla Hres ltac:(lia)) as (P1 & P2 & P3).
  destruct (s_pose _ _ _ _ _ _ _) as [[qx qy] qt]. cbn [fst snd] in *. injection E as -> -> ->. auto.
Qed.
Lemma d_first_back clamp p so ref prevs i step c n : d_advance clamp p so ref prevs i step = AMove c n ->
  sp_rev p = false -> (sn_depth ref < 1)%Z -> sn_fwd n = false ->
  straight n /\ sn_th n = sn_th ref /\ sn_x n = sn_x ref + - sp_la p / sp_res p * cos (sn_th ref) /\ sn_y n = sn_y ref + - sp_la p / sp_res p * sin (sn_th ref) /\
  c = Rabs (- sp_la p / sp_res p) * so_back so.
Proof.
  intros E Hr Hd Hf. pose proof E as E'. apply d_advance_inv in E'. destruct E' as (cu & _ & _ & _ & Hi & _). rewrite Hf in Hi.
  unfold d_advance in E. cbv zeta in E. destruct (_ && _) in E; [discriminate|]. destruct (sn_custom ref); [|discriminate]. destruct (_ && _) in E; [discriminate|].
  rewrite Hr in E. assert ((sn_depth ref <? 1)%Z = true) as E1 by lia. rewrite E1 in E. cbn [negb andb] in E.
  destruct (3 <? i)%Z eqn:I1; [discriminate|]. assert ((i =? 3)%Z = true) as I2 by lia. rewrite I2 in E. destruct (negb (step =? 0)%Z); [discriminate|].
  injection E as <- <-. repeat split.
Qed.
(** The dynamic neighbourhood: the same, except for the first move backward, which is
    straight and as long as the wheel base. *)
Theorem C36_bicycle_dynamic : forall clamp p so ref prevs i step c n, AngleClamp_contract clamp ->
  0 < sp_la p -> 0 < sp_res p -> (0 <= sp_max p < 90)%Z -> d_advance clamp p so ref prevs i step = AMove c n ->
  let dir := (if sn_fwd n then 1 else -1) * (if sp_rev p then -1 else 1) in
  let delta := IZR (sn_steer n) / 180 * PI in
  let L := if negb (sp_rev p) && (sn_depth ref <? 1)%Z && negb (sn_fwd n) then sp_la p else sp_step p in
  (exists X Y T, bicycle (sp_la p) delta dir (sp_res p) X Y T /\ X 0 = sn_x ref /\ Y 0 = sn_y ref /\ T 0 = sn_th ref) /\
  (forall X Y T, bicycle (sp_la p) delta dir (sp_res p) X Y T -> X 0 = sn_x ref -> Y 0 = sn_y ref -> T 0 = sn_th ref ->
     sn_x n = X L /\ sn_y n = Y L /\ angle_eq (sn_th n) (T L)).
Proof.
  intros clamp p so ref prevs i step c n Hc Hla Hres Hm E dir delta L.
  pose proof (C35_limit clamp p so ref prevs i step c n ltac:(lia) (or_intror E)) as HS.
  destruct (traj_ok (sp_la p) delta dir (sp_res p) (sn_x ref) (sn_y ref) (sn_th ref) Hla Hres) as (B & X0 & Y0 & T0).
  split; [eauto 10|]. intros X Y T H EX EY ET.
  destruct (bicycle_unique _ _ _ _ _ _ _ _ _ _ H B ltac:(congruence) ltac:(congruence) ltac:(congruence) L) as (-> & -> & ->).
  destruct (negb (sp_rev p) && (sn_depth ref <? 1)%Z && negb (sn_fwd n)) eqn:EL.
  - apply andb_prop in EL. destruct EL as [EL En]. apply andb_prop in EL. destruct EL as [Er Ed].
    assert (Hr : sp_rev p = false) by (destruct (sp_rev p); [discriminate|reflexivity]). assert (Hf : sn_fwd n = false) by (destruct (sn_fwd n); [discriminate|reflexivity]).
    destruct (d_first_back _ _ _ _ _ _ _ _ _ E Hr ltac:(lia) Hf) as (Hn & F3 & F1 & F2 & _).
    assert (dir = -1) as Edir by (unfold dir; rewrite Hf, Hr; lra).
    assert (tan delta = 0) as Et. { unfold delta. fold (rad (sn_steer n)). apply tan_steer; [lia|exact Hn]. }
    unfold L, traj_x, traj_y, head_at. rewrite Et, Edir, F1, F2, F3. destruct (Req_EM_T 0 0) as [_|N]; [|congruence].
    split; [field; lra|]. split; [field; lra|]. exists 0%Z. field. lra.
  - unfold L. apply d_advance_inv in E. destruct E as (cu & _ & _ & _ & Hf & _ & [(-> & -> & Hr & Hd & Hn & _)|(d0 & s0 & _ & _ & _ & E & _)]).
    { exfalso. rewrite Hr, Hf in EL. assert ((sn_depth ref <? 1)%Z = true) as X1 by lia. rewrite X1 in EL. discriminate. }
    destruct (s_pose_traj clamp p (sn_steer n) (drive_dir p (sn_fwd n)) (sn_x ref) (sn_y ref) (sn_th ref) Hc Hla Hres ltac:(lia)) as (P1 & P2 & P3).
    destruct (s_pose _ _ _ _ _ _ _) as [[qx qy] qt]. cbn [fst snd] in *. injection E as -> -> ->. auto.
Qed.
