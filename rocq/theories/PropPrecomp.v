(** C67: the precomputed vehicle heuristic. *)
From Coq Require Import Reals Lra ZArith.
From Flocq Require Import Core.Raux.
From Verif Require Import Base GeomR RSModel PrecompModel.
Local Open Scope R_scope.

(** ** Specification *)
(** [p] has the coordinates (u,v) in the frame of [g]: u ahead, v to the left. *)
Definition in_frame (g p : pose) (u v : R) : Prop :=
  po_x p = po_x g + u * cos (po_th g) - v * sin (po_th g) /\ po_y p = po_y g + u * sin (po_th g) + v * cos (po_th g).
(** A table with a value for every cell of a square and every layer. *)
Definition good_file (f : pfile) : Prop :=
  (0 < pf_dim f)%Z /\ (0 < pf_angles f)%Z /\ 0 < pf_res f /\ length (pf_layers f) = Z.to_nat (pf_angles f) /\
  forall l, In l (pf_layers f) -> length (snd l) = Z.to_nat (pf_dim f * pf_dim f).
(** The value the file holds for layer a, column x, row y. *)
Definition stored (f : pfile) (a x y : Z) : option R :=
  l <- nth_error (pf_layers f) (Z.to_nat a) ;; nth_error (snd l) (Z.to_nat (y * pf_dim f + x)).
(** The layer looked up for a heading t in [0,2 PI) relative to the goal. *)
Definition slot67 (angles : Z) (t : R) : Z := Zfloor (t / (2 * PI + / 1000) * IZR (angles - 1)).

(** ** The file *)
Lemma seqZ_len n : length (seqZ n) = Z.to_nat n.
Proof. unfold seqZ. rewrite map_length, seq_length. reflexivity. Qed.
Lemma seqZ_nth n k : (k < Z.to_nat n)%nat -> nth_error (seqZ n) k = Some (Z.of_nat k).
Proof. intros H. unfold seqZ. rewrite nth_error_map, (nth_error_nth' _ 0%nat) by (rewrite seq_length; assumption). rewrite seq_nth by assumption. reflexivity. Qed.
Lemma all_some_spec {A} (l : list (option A)) r : all_some l = Some r -> length r = length l /\ forall k, nth_error l k = option_map Some (nth_error r k).
Proof.
  revert r. induction l as [|o l IH]; intros r E; cbn [all_some] in E.
  - injection E as <-. split; [reflexivity|]. intros [|k]; reflexivity.
  - destruct o as [a|]; [|discriminate]. cbn [obind] in E. destruct (all_some l) as [r0|]; [|discriminate]. cbn [obind] in E. injection E as <-.
    destruct (IH r0 eq_refl) as [L K]. split; [cbn; congruence|]. intros [|k]; [reflexivity|]. cbn [nth_error]. apply K.
Qed.
Lemma flat_nth {A B} (f : A -> list B) n : forall l, (forall a, In a l -> length (f a) = n) -> 
  length (flat_map f l) = (length l * n)%nat /\
  forall i j a, nth_error l i = Some a -> (j < n)%nat -> nth_error (flat_map f l) (i * n + j) = nth_error (f a) j.
Proof.
  induction l as [|b l IH]; intros H; [split; [reflexivity|intros [|i] j a E; discriminate]|].
  destruct IH as [L K]; [intros a Ha; apply H; right; exact Ha|]. pose proof (H b (or_introl eq_refl)) as Hb. cbn [flat_map].
  split; [rewrite app_length, Hb, L; cbn; reflexivity|]. intros [|i] j a E Hj; cbn [nth_error] in E.
  - assert (b = a) by congruence. subst b. rewrite nth_error_app1 by (cbn; lia). reflexivity.
  - rewrite nth_error_app2 by (rewrite Hb; cbn; lia). rewrite Hb. replace (S i * n + j - n)%nat with (i * n + j)%nat by (cbn; lia). apply K; assumption.
Qed.

(** The table written by the tool: row y, column x of layer a holds the cost of the start
    pose (x, y, 2 PI a / angles), or 0 if there is no valid curve. *)
Theorem C67_file : forall cost dim angles res f, (0 < dim)%Z -> (0 < angles)%Z -> 0 < res -> precompute cost dim angles res = Some f ->
  good_file f /\ pf_dim f = dim /\ pf_angles f = angles /\ pf_res f = res /\
  forall a x y, (0 <= a < angles)%Z -> (0 <= x < dim)%Z -> (0 <= y < dim)%Z ->
    exists w, cost x y (2 * PI * IZR a / IZR angles) = Some w /\
      ((w < NOT_FREE /\ stored f a x y = Some w) \/ (NOT_FREE <= w /\ stored f a x y = Some 0)).
Proof.
  intros cost dim angles res f Hd Ha Hr E. unfold precompute in E.
  destruct (all_some _) as [ls|] eqn:El; [|discriminate]. cbn [obind] in E. injection E as <-. cbn [pf_dim pf_angles pf_res].
  destruct (all_some_spec _ _ El) as [L K]. rewrite map_length, seqZ_len in L.
  set (body := fun y th => map (fun x => pc_value (cost x y th)) (seqZ dim)).
  assert (BL : forall y th, length (body y th) = Z.to_nat dim) by (intros; unfold body; rewrite map_length, seqZ_len; reflexivity).
  assert (LAY : forall k l, nth_error ls k = Some l -> (k < Z.to_nat angles)%nat /\ pc_layer cost dim (pc_angle angles (Z.of_nat k)) = Some (snd l)).
  { intros k l Hl. assert (Hk : (k < Z.to_nat angles)%nat) by (rewrite <- L; apply nth_error_Some; congruence). split; [exact Hk|].
    specialize (K k). rewrite Hl in K. cbn [option_map] in K. rewrite nth_error_map, (seqZ_nth _ _ Hk) in K. cbn [option_map] in K.
    destruct (pc_layer cost dim (pc_angle angles (Z.of_nat k))) as [d|]; [|discriminate]. cbn [obind] in K. injection K as <-. reflexivity. }
  assert (DAT : forall th d, pc_layer cost dim th = Some d -> length d = Z.to_nat (dim * dim) /\
    forall x y, (0 <= x < dim)%Z -> (0 <= y < dim)%Z -> option_map Some (nth_error d (Z.to_nat (y * dim + x))) = Some (pc_value (cost x y th))).
  { intros th d Hd'. unfold pc_layer in Hd'. destruct (all_some_spec _ _ Hd') as [L1 K1].
    destruct (flat_nth (fun y => body y th) (Z.to_nat dim) (seqZ dim)) as [FL FN]; [intros; apply BL|].
    change (flat_map (fun y => map (fun x => pc_value (cost x y th)) (seqZ dim)) (seqZ dim)) with (flat_map (fun y => body y th) (seqZ dim)) in L1, K1.
    split; [rewrite L1, FL, seqZ_len; nia|]. intros x y Hx Hy. rewrite <- K1.
    replace (Z.to_nat (y * dim + x)) with (Z.to_nat y * Z.to_nat dim + Z.to_nat x)%nat by nia.
    rewrite (FN (Z.to_nat y) (Z.to_nat x) y); [|rewrite seqZ_nth by lia; rewrite Z2Nat.id by lia; reflexivity|lia].
    unfold body. rewrite nth_error_map, seqZ_nth by lia. rewrite Z2Nat.id by lia. reflexivity. }
  split; [|split; [reflexivity|split; [reflexivity|split; [reflexivity|]]]].
  - unfold good_file. cbn [pf_dim pf_angles pf_res pf_layers]. split; [assumption|]. split; [assumption|]. split; [assumption|]. split; [assumption|].
    intros l Hl. apply In_nth_error in Hl. destruct Hl as [k Hk]. destruct (LAY k l Hk) as [_ P]. apply (DAT _ _ P).
  - intros a x y Ra Rx Ry. unfold stored. cbn [pf_layers pf_dim].
    destruct (nth_error ls (Z.to_nat a)) as [l|] eqn:En; [|apply nth_error_None in En; lia]. cbn [obind].
    destruct (LAY _ _ En) as [_ P]. rewrite Z2Nat.id in P by lia. destruct (DAT _ _ P) as [_ Q]. specialize (Q x y Rx Ry).
    replace (2 * PI * IZR a / IZR angles) with (pc_angle angles a) by (unfold pc_angle, Rdiv; ring).
    unfold pc_value in Q. destruct (nth_error (snd l) _) as [v|]; [|discriminate]. cbn [option_map] in Q.
    destruct (cost x y (pc_angle angles a)) as [w|]; [|discriminate]. cbn [obind] in Q. exists w. split; [reflexivity|].
    unfold Rltb in Q. destruct (Rlt_dec w NOT_FREE); [left|right]; (split; [lra|]); congruence.
Qed.

(** ** The lookup *)
Lemma frame_coords g p u v : in_frame g p u v ->
  (po_x p - po_x g) * cos (- po_th g) - (po_y p - po_y g) * sin (- po_th g) = u /\
  (po_x p - po_x g) * sin (- po_th g) + (po_y p - po_y g) * cos (- po_th g) = v.
Proof.
  intros [H1 H2]. rewrite cos_neg, sin_neg, H1, H2. pose proof (sin2_cos2 (po_th g)) as S. unfold Rsqr in S.
  set (c := cos (po_th g)) in *. set (s := sin (po_th g)) in *. clearbody c s. split.
  - replace ((po_x g + u * c - v * s - po_x g) * c - (po_y g + u * s + v * c - po_y g) * - s) with (u * (s * s + c * c)) by ring. rewrite S. ring.
  - replace ((po_x g + u * c - v * s - po_x g) * - s + (po_y g + u * s + v * c - po_y g) * c) with (v * (s * s + c * c)) by ring. rewrite S. ring.
Qed.
Lemma slot67_range angles t : (0 < angles)%Z -> 0 <= t < 2 * PI -> (0 <= slot67 angles t < angles)%Z /\ (2 <= angles -> slot67 angles t <= angles - 2)%Z.
Proof.
  intros Ha Ht. pose proof PI_RGT_0 as HP. unfold slot67. assert (HA : 0 <= IZR (angles - 1)) by (apply IZR_le; lia).
  set (q := t / (2 * PI + / 1000)). assert (Q : 0 <= q < 1).
  { unfold q. split; [apply Rmult_le_pos; [lra|left; apply Rinv_0_lt_compat; lra]|]. apply (Rmult_lt_reg_r (2 * PI + / 1000)); [lra|]. unfold Rdiv. rewrite Rmult_assoc, Rinv_l, Rmult_1_r by lra. lra. }
  assert (Z0 : (0 <= Zfloor (q * IZR (angles - 1)))%Z) by (apply Zfloor_lub; apply Rmult_le_pos; lra).
  split.
  - split; [exact Z0|]. assert (Zfloor (q * IZR (angles - 1)) <= angles - 1)%Z; [|lia].
    apply le_IZR. eapply Rle_trans; [apply Zfloor_lb|]. nra.
  - intros H2. assert (0 < IZR (angles - 1)) by (apply IZR_lt; lia). assert (Zfloor (q * IZR (angles - 1)) < angles - 1)%Z; [|lia].
    apply lt_IZR. eapply Rle_lt_trans; [apply Zfloor_lb|]. nra.
Qed.

(** The heading relative to the goal, in [0, 2 PI). *)
Definition rel_heading (clamp : R -> R) (cur goal : pose) : R :=
  let t := clamp (po_th cur + - po_th goal) in if Rltb t 0 then t + 2 * PI else t.
Lemma rel_heading_spec clamp cur goal : AngleClamp_contract clamp -> clamp (po_th cur + - po_th goal) <> PI ->
  0 <= rel_heading clamp cur goal < 2 * PI /\ angle_eq (rel_heading clamp cur goal) (po_th cur - po_th goal).
Proof.
  intros HC Hn. pose proof PI_RGT_0 as HP. destruct (HC (po_th cur + - po_th goal)) as [R0 E0]. unfold rel_heading. cbv zeta.
  assert (E1 : angle_eq (clamp (po_th cur + - po_th goal)) (po_th cur - po_th goal)) by exact E0.
  unfold Rltb. destruct (Rlt_dec _ 0).
  - split; [lra|]. destruct E1 as [k ->]. exists (k + 1)%Z. rewrite plus_IZR. ring.
  - split; [lra|exact E1].
Qed.

(** With the map set: inside the square and off its first row the value of the mirrored
    row of the layer is used; outside the square 0; in the first row the read is beyond
    the layer. *)
Theorem C67_value : forall clamp f rm cur goal res u v, AngleClamp_contract clamp -> good_file f -> 0 < rm ->
  in_frame goal cur u v -> clamp (po_th cur + - po_th goal) <> PI ->
  let d := pf_dim f in let rf := pf_res f / rm in
  let X := u / rf + IZR (d / 2) in let Y := v / rf + IZR (d / 2) in
  -2147483648 < X < 2147483647 -> -2147483648 < Y < 2147483647 ->
  exists t, 0 <= t < 2 * PI /\ angle_eq t (po_th cur - po_th goal) /\
  let r := p_compute clamp (p_setMap rm (p_new f)) cur goal res in
  ((X <= -1 \/ IZR d <= X \/ Y <= -1 \/ IZR d <= Y) -> r = PVal 0) /\
  (-1 < X < IZR d -> -1 < Y < 1 -> r = PUndef) /\
  (-1 < X < IZR d -> 1 <= Y < IZR d -> exists w, stored f (slot67 (pf_angles f) t) (Ztrunc X) (d - Ztrunc Y) = Some w /\ r = PVal (res * w * rf)).
Proof.
  intros clamp f rm cur goal res u v HC (Hd & Ha & Hres & HL & HD) Hrm HF Hn d rf X Y HX HY. pose proof PI_RGT_0 as HP.
  destruct (rel_heading_spec clamp cur goal HC Hn) as [Rt At]. set (t := rel_heading clamp cur goal) in *.
  exists t. split; [exact Rt|]. split; [exact At|]. cbv zeta.
  destruct (slot67_range (pf_angles f) t Ha Rt) as [Sa _].
  assert (TR : forall z, -2147483648 < z < 2147483647 -> cast_i32 z = Some (Ztrunc z)).
  { intros z Hz. unfold cast_i32. cbv zeta. assert (B : (-2147483648 <= Ztrunc z < 2147483648)%Z).
    { destruct (Rle_dec 0 z) as [P|P].
      - rewrite Ztrunc_floor by assumption. split; [apply Zfloor_lub; lra|]. apply lt_IZR. eapply Rle_lt_trans; [apply Zfloor_lb|lra].
      - rewrite Ztrunc_ceil by lra. split; [|].
        + apply le_IZR. eapply Rle_trans; [|apply Zceil_ub]. lra.
        + assert (Zceil z <= 0)%Z by (apply Zceil_glb; lra). lia. }
    unfold in_i32. destruct (_ && _)%Z eqn:EE; [reflexivity|lia]. }
  assert (COMP : p_compute clamp (p_setMap rm (p_new f)) cur goal res =
     (if ((Ztrunc X <? 0) || (Ztrunc X >=? d))%Z then PVal 0 else if ((Ztrunc Y <? 0) || (Ztrunc Y >=? d))%Z then PVal 0 else
      match nth_error (pf_layers f) (Z.to_nat (slot67 (pf_angles f) t)) with None => PUndef | Some l =>
        match nth_error (snd l) (Z.to_nat ((d - Ztrunc Y) * d + Ztrunc X)) with None => PUndef | Some c => PVal (res * c * rf) end end)).
  { unfold p_compute, p_setMap, p_new, p_read. cbn [ps_dim ps_angles ps_res ps_map ps_costs app].
    destruct (pf_angles f =? 0)%Z eqn:E0; [lia|]. cbv zeta. destruct (frame_coords goal cur u v HF) as [F1 F2]. rewrite F1, F2.
    rewrite Z.quot_div_nonneg by lia. fold d. fold rf. fold X Y. rewrite (TR X HX), (TR Y HY).
    destruct (HC (po_th cur + - po_th goal)) as [R0 _].
    assert (B : Rltb (clamp (po_th cur + - po_th goal)) (- PI) || negb (Rltb (clamp (po_th cur + - po_th goal)) PI) = false).
    { unfold Rltb. destruct (Rlt_dec _ (- PI)); [lra|]. destruct (Rlt_dec _ PI); [reflexivity|lra]. }
    rewrite B. fold (rel_heading clamp cur goal). fold t. fold (slot67 (pf_angles f) t).
    assert (B2 : negb ((0 <=? slot67 (pf_angles f) t) && (slot67 (pf_angles f) t <? pf_angles f))%Z = false) by lia. rewrite B2. reflexivity. }
  rewrite COMP. clear COMP TR.
  assert (D0 : 0 < IZR d) by (apply IZR_lt; assumption).
  assert (NEG : forall z, z <= -1 -> (Ztrunc z <? 0)%Z = true).
  { intros z Hz. rewrite Ztrunc_ceil by lra. assert (Zceil z <= -1)%Z by (apply Zceil_glb; lra). lia. }
  assert (BIG : forall z, IZR d <= z -> (Ztrunc z >=? d)%Z = true).
  { intros z Hz. rewrite Ztrunc_floor by lra. assert (d <= Zfloor z)%Z by (apply Zfloor_lub; lra). lia. }
  assert (INS : forall z, -1 < z < IZR d -> (0 <= Ztrunc z < d)%Z).
  { intros z Hz. destruct (Rle_dec 0 z).
    - rewrite Ztrunc_floor by lra. split; [apply Zfloor_lub; lra|]. apply lt_IZR. eapply Rle_lt_trans; [apply Zfloor_lb|lra].
    - rewrite Ztrunc_ceil by lra. assert (Zceil z <= 0)%Z by (apply Zceil_glb; lra). assert (-1 < Zceil z)%Z by (apply lt_IZR; eapply Rlt_le_trans; [|apply Zceil_ub]; lra). lia. }
  destruct (nth_error (pf_layers f) (Z.to_nat (slot67 (pf_angles f) t))) as [l|] eqn:En; [|apply nth_error_None in En; lia].
  pose proof (HD l (nth_error_In _ _ En)) as Hl. fold d in Hl.
  split; [|split].
  - intros H. destruct ((Ztrunc X <? 0) || (Ztrunc X >=? d))%Z eqn:E1; [reflexivity|]. destruct ((Ztrunc Y <? 0) || (Ztrunc Y >=? d))%Z eqn:E2; [reflexivity|]. exfalso.
    apply orb_false_iff in E1, E2. destruct H as [H|[H|[H|H]]]; [rewrite (NEG X H) in E1|rewrite (BIG X H) in E1|rewrite (NEG Y H) in E2|rewrite (BIG Y H) in E2]; destruct E1, E2; discriminate.
  - intros H1 H2. pose proof (INS X H1) as I1.
    assert (Y0 : Ztrunc Y = 0%Z).
    { destruct (Rle_dec 0 Y). - rewrite Ztrunc_floor by lra. apply Zfloor_imp. rewrite plus_IZR. lra. - rewrite Ztrunc_ceil by lra. apply Zceil_imp. cbn. lra. }
    rewrite Y0. replace ((Ztrunc X <? 0) || (Ztrunc X >=? d))%Z with false by lia. replace ((0 <? 0) || (0 >=? d))%Z with false by lia.
    destruct (nth_error (snd l) _) eqn:Ex; [|reflexivity]. exfalso. assert (LT : (Z.to_nat ((d - 0) * d + Ztrunc X) < length (snd l))%nat) by (apply nth_error_Some; congruence).
    rewrite Hl in LT. nia.
  - intros H1 H2. pose proof (INS X H1) as I1. pose proof (INS Y ltac:(lra)) as I2.
    assert (Y1 : (1 <= Ztrunc Y)%Z) by (rewrite Ztrunc_floor by lra; apply Zfloor_lub; lra).
    replace ((Ztrunc X <? 0) || (Ztrunc X >=? d))%Z with false by lia. replace ((Ztrunc Y <? 0) || (Ztrunc Y >=? d))%Z with false by lia.
    unfold stored. rewrite En. cbn [obind]. fold d.
    destruct (nth_error (snd l) _) as [w|] eqn:Ex; [exists w; split; reflexivity|]. exfalso. apply nth_error_None in Ex. rewrite Hl in Ex.
    assert ((d - Ztrunc Y) * d + Ztrunc X < d * d)%Z by nia. assert (0 <= (d - Ztrunc Y) * d + Ztrunc X)%Z by nia. lia.
Qed.

(** The value depends on the two poses only through the pose of one in the frame of the
    other: moving both does not change it. *)
Definition moved (dx dy phi : R) (p : pose) : pose :=
  Pose (dx + po_x p * cos phi - po_y p * sin phi) (dy + po_x p * sin phi + po_y p * cos phi) (po_th p + phi).
Theorem C67_rigid : forall clamp s cur goal res dx dy phi,
  p_compute clamp s (moved dx dy phi cur) (moved dx dy phi goal) res = p_compute clamp s cur goal res.
Proof.
  intros clamp s cur goal res dx dy phi. unfold p_compute. destruct (_ =? 0)%Z; [reflexivity|]. destruct (ps_map s) as [rm|]; [|reflexivity]. cbv zeta.
  unfold moved. cbn [po_x po_y po_th].
  pose proof (sin2_cos2 phi) as S. unfold Rsqr in S.
  replace (po_th cur + phi + - (po_th goal + phi)) with (po_th cur + - po_th goal) by ring.
  rewrite !cos_neg, !sin_neg, cos_plus, sin_plus.
  set (c := cos (po_th goal)). set (n := sin (po_th goal)). set (C := cos phi) in *. set (N := sin phi) in *. set (x := po_x cur - po_x goal). set (y := po_y cur - po_y goal).
  assert (E1 : (dx + po_x cur * C - po_y cur * N - (dx + po_x goal * C - po_y goal * N)) * (c * C - n * N) - (dy + po_x cur * N + po_y cur * C - (dy + po_x goal * N + po_y goal * C)) * - (n * C + c * N) = x * c - y * - n).
  { transitivity ((x * c + y * n) * (N * N + C * C)); [unfold x, y; ring|]. rewrite S. ring. }
  assert (E2 : (dx + po_x cur * C - po_y cur * N - (dx + po_x goal * C - po_y goal * N)) * - (n * C + c * N) + (dy + po_x cur * N + po_y cur * C - (dy + po_x goal * N + po_y goal * C)) * (c * C - n * N) = x * - n + y * c).
  { transitivity ((x * - n + y * c) * (N * N + C * C)); [unfold x, y; ring|]. rewrite S. ring. }
  rewrite E1, E2. reflexivity.
Qed.

(** The layers of the tool (at most 36) are looked up one too low: the heading of layer
    k > 0 is looked up in layer k - 1, and the last layer is never used. *)
Theorem C67_layer_refuted : forall angles, (2 <= angles <= 36)%Z ->
  (forall k, (1 <= k < angles)%Z -> slot67 angles (2 * PI * IZR k / IZR angles) = (k - 1)%Z) /\
  (forall t, 0 <= t < 2 * PI -> slot67 angles t <> (angles - 1)%Z).
Proof.
  intros n Hn. pose proof PI_RGT_0 as HP. split.
  - intros k Hk. unfold slot67. apply Zfloor_imp.
    assert (PI3 : 3 < PI) by (pose proof PI2_3_2; lra).
    assert (Hn' : 2 <= IZR n <= 36) by (split; apply IZR_le; lia). assert (Hk' : 1 <= IZR k <= IZR n - 1) by (split; [apply IZR_le; lia|rewrite <- minus_IZR; apply IZR_le; lia]).
    rewrite !minus_IZR. rewrite plus_IZR, minus_IZR. set (N := IZR n) in *. set (K := IZR k) in *.
    assert (E : 2 * PI * K / N / (2 * PI + / 1000) * (N - 1) = 2 * PI * K * (N - 1) / (N * (2 * PI + / 1000))) by (field; split; lra). rewrite E.
    assert (DP : 0 < N * (2 * PI + / 1000)) by (apply Rmult_lt_0_compat; lra).
    split.
    + apply (Rmult_le_reg_r (N * (2 * PI + / 1000))); [assumption|]. unfold Rdiv. rewrite Rmult_assoc, Rinv_l, Rmult_1_r by lra.
      assert (A1 : (K - 1) * N <= K * (N - 1) - 1) by lra.
      assert (A2 : 0 <= (K - 1) * N <= 35 * 36) by nra.
      replace (2 * PI * K * (N - 1)) with (2 * PI * (K * (N - 1))) by ring. replace ((K - 1) * (N * (2 * PI + / 1000))) with (2 * PI * ((K - 1) * N) + / 1000 * ((K - 1) * N)) by ring.
      nra.
    + apply (Rmult_lt_reg_r (N * (2 * PI + / 1000))); [assumption|]. unfold Rdiv. rewrite Rmult_assoc, Rinv_l, Rmult_1_r by lra. nra.
  - intros t Ht E. destruct (slot67_range n t ltac:(lia) Ht) as [_ H]. specialize (H ltac:(lia)). lia.
Qed.

(** The row is mirrored: a pose exactly in the middle of the stored cell (x,y) gets the
    value stored for (x, dim - y), on the other side of the goal axis.  So every table
    whose values differ there gives a wrong value. *)
Theorem C67_mirrored_refuted : forall clamp f rm res x y th, AngleClamp_contract clamp -> good_file f -> 0 < rm -> 0 < res ->
  (pf_dim f < 1000000)%Z -> (0 <= x < pf_dim f)%Z -> (1 <= y < pf_dim f)%Z -> clamp (th + - 0) <> PI ->
  let rf := pf_res f / rm in
  let cur := Pose (rf * (IZR x + / 2 - IZR (pf_dim f / 2))) (rf * (IZR y + / 2 - IZR (pf_dim f / 2))) th in
  exists a w, (0 <= a < pf_angles f)%Z /\ stored f a x (pf_dim f - y) = Some w /\
    p_compute clamp (p_setMap rm (p_new f)) cur (Pose 0 0 0) res = PVal (res * w * rf) /\
    (stored f a x y <> stored f a x (pf_dim f - y) -> forall w', stored f a x y = Some w' ->
      p_compute clamp (p_setMap rm (p_new f)) cur (Pose 0 0 0) res <> PVal (res * w' * rf)).
Proof.
  intros clamp f rm res x y th HC HG Hrm Hres Hdim Hx Hy Hn rf cur. pose proof HG as (Hd & Ha & Hr & _).
  assert (Hrf : 0 < rf) by (unfold rf; apply Rdiv_lt_0_compat; assumption).
  set (h := (pf_dim f / 2)%Z) in *. assert (Bh : (0 <= h < 1000000)%Z) by (unfold h; lia).
  assert (E : forall z, rf * (IZR z + / 2 - IZR h) / rf + IZR h = IZR z + / 2) by (intros; field; lra).
  assert (Bd : IZR (pf_dim f) <= 1000000) by (apply IZR_le; lia).
  assert (BX : 0 <= IZR x /\ IZR x + 1 <= IZR (pf_dim f)) by (split; [apply IZR_le; lia|rewrite <- plus_IZR; apply IZR_le; lia]).
  assert (BY : 1 <= IZR y /\ IZR y + 1 <= IZR (pf_dim f)) by (split; [apply IZR_le; lia|rewrite <- plus_IZR; apply IZR_le; lia]).
  destruct (C67_value clamp f rm cur (Pose 0 0 0) res (rf * (IZR x + / 2 - IZR h)) (rf * (IZR y + / 2 - IZR h)) HC HG Hrm) as (t & Ht & _ & _ & _ & V).
  - unfold in_frame, cur. cbn [po_x po_y po_th]. rewrite cos_0, sin_0. split; ring.
  - exact Hn.
  - fold rf h. rewrite E. lra.
  - fold rf h. rewrite E. lra.
  - fold rf h in V. rewrite !E in V. destruct V as (w & S & V); [lra|lra|].
    assert (T : forall z, (0 <= z)%Z -> Ztrunc (IZR z + / 2) = z).
    { intros z Hz. assert (0 <= IZR z) by (apply IZR_le; lia). rewrite Ztrunc_floor by lra. apply Zfloor_imp. rewrite plus_IZR. lra. }
    rewrite !T in S by lia. exists (slot67 (pf_angles f) t), w. split; [apply slot67_range; assumption|]. split; [exact S|]. split; [exact V|].
    intros D w' S' X. rewrite V in X. injection X as X. apply D. rewrite S, S'. f_equal. apply (Rmult_eq_reg_r (res * rf)); [lra|]. apply Rgt_not_eq. apply Rmult_lt_0_compat; lra.
Qed.

(** Without setMap (the call is commented out in the search, SearchAlgorithm.hpp:566)
    the value is indeterminate, whatever was read. *)
Theorem C67_unset_refuted : forall clamp f fs cur goal res, (forall g, In g (f :: fs) -> good_file g) ->
  p_compute clamp (fold_left (fun s g => p_init g s) fs (p_new f)) cur goal res = PUndef.
Proof.
  intros clamp f fs cur goal res HG.
  assert (K : forall l s, ps_map s = None -> (0 < ps_angles s)%Z -> (forall g, In g l -> good_file g) ->
     ps_map (fold_left (fun s g => p_init g s) l s) = None /\ (0 < ps_angles (fold_left (fun s g => p_init g s) l s))%Z).
  { induction l as [|g l IH]; intros s H1 H2 H3; [auto|]. cbn [fold_left]. apply IH; [exact H1|cbn; apply (H3 g (or_introl eq_refl))|intros g' Hg; apply H3; right; exact Hg]. }
  destruct (K fs (p_new f)) as [K1 K2]; [reflexivity|cbn; apply (HG f (or_introl eq_refl))|intros g Hg; apply HG; right; exact Hg|].
  unfold p_compute. rewrite K1. replace (_ =? 0)%Z with false by lia. reflexivity.
Qed.

(** init with another file appends: the layers of the first file stay in use. *)
Theorem C67_init_refuted : forall f g rm, good_file f -> good_file g ->
  let s := p_init g (p_setMap rm (p_new f)) in
  ps_dim s = pf_dim g /\ ps_angles s = pf_angles g /\
  forall a, (0 <= a < pf_angles f)%Z -> nth_error (ps_costs s) (Z.to_nat a) = nth_error (pf_layers f) (Z.to_nat a).
Proof.
  intros f g rm (_ & _ & _ & Lf & _) _ s. split; [reflexivity|]. split; [reflexivity|]. intros a Ha. unfold s, p_init, p_read, p_setMap, p_new, p_read. cbn [ps_costs app].
  apply nth_error_app1. lia.
Qed.
(** A heading opposite to the goal's aborts if the angle function gives PI for it. *)
Theorem C67_opposite_refuted : forall clamp f rm cur goal res, AngleClamp_contract clamp -> good_file f -> 0 < rm ->
  (exists x, cast_i32 (((po_x cur - po_x goal) * cos (- po_th goal) - (po_y cur - po_y goal) * sin (- po_th goal)) / (pf_res f / rm) + IZR (Z.quot (pf_dim f) 2)) = Some x) ->
  (exists y, cast_i32 (((po_x cur - po_x goal) * sin (- po_th goal) + (po_y cur - po_y goal) * cos (- po_th goal)) / (pf_res f / rm) + IZR (Z.quot (pf_dim f) 2)) = Some y) ->
  clamp (po_th cur + - po_th goal) = PI ->
  p_compute clamp (p_setMap rm (p_new f)) cur goal res = PAbort.
Proof.
  intros clamp f rm cur goal res HC (Hd & Ha & _) Hrm [x Ex] [y Ey] Hpi. unfold p_compute, p_setMap, p_new, p_read. cbn [ps_dim ps_angles ps_res ps_map ps_costs app].
  destruct (_ =? 0)%Z eqn:E0; [lia|]. cbv zeta. rewrite Ex, Ey, Hpi. pose proof PI_RGT_0. unfold Rltb. destruct (Rlt_dec PI (- PI)); [lra|]. destruct (Rlt_dec PI PI); [lra|]. reflexivity.
Qed.

Lemma clamp67_0 : clamp_ref 0 = 0.
Proof.
  destruct (clamp_ref_ok 0) as [R E]. pose proof PI_RGT_0. apply angle_eq_unique; [exact E|lra].
Qed.
(** A concrete table: cost = row number + 1, dimension 4, 16 layers, resolution 1/2. *)
Definition ex67_cost (x y : Z) (th : R) : option R := Some (IZR y + 1).
Lemma all_some_total {A} (l : list (option A)) : (forall o, In o l -> o <> None) -> exists r, all_some l = Some r.
Proof.
  induction l as [|o l IH]; intros H; [exists []; reflexivity|]. destruct IH as [r Er]; [intros x Hx; apply H; right; exact Hx|].
  destruct o as [a|]; [|exfalso; apply (H None); [left; reflexivity|reflexivity]]. exists (a :: r). cbn [all_some obind]. rewrite Er. reflexivity.
Qed.
Example C67_example : exists f, precompute ex67_cost 4 16 (/ 2) = Some f /\ good_file f /\
  (forall a, (0 <= a < 16)%Z -> stored f a 2 1 = Some 2 /\ stored f a 2 3 = Some 4) /\
  (** the pose half a cell ahead of the goal and 3/2 cells to its left, same heading: row 3
      holds 4, the value of row 1 is returned *)
  exists w, p_compute clamp_ref (p_setMap (/ 2) (p_new f)) (Pose (/ 2) (3 / 2) 0) (Pose 0 0 0) 1 = PVal w /\ w = 2.
Proof.
  destruct (all_some_total (map (fun a => l <- pc_layer ex67_cost 4 (pc_angle 16 a) ;; Some (pc_angle 16 a, l)) (seqZ 16))) as [ls E].
  { intros o Ho. apply in_map_iff in Ho. destruct Ho as (a & <- & _).
    destruct (all_some_total (flat_map (fun y => map (fun x => pc_value (ex67_cost x y (pc_angle 16 a))) (seqZ 4)) (seqZ 4))) as [r Er].
    { intros o Ho. apply in_flat_map in Ho. destruct Ho as (y & _ & Ho). apply in_map_iff in Ho. destruct Ho as (x & <- & _). discriminate. }
    unfold pc_layer. rewrite Er. discriminate. }
  exists (PF 4 16 (/ 2) ls). assert (EP : precompute ex67_cost 4 16 (/ 2) = Some (PF 4 16 (/ 2) ls)) by (unfold precompute; rewrite E; reflexivity).
  split; [exact EP|]. destruct (C67_file ex67_cost 4 16 (/ 2) _ ltac:(lia) ltac:(lia) ltac:(lra) EP) as (G & _ & _ & _ & ST). split; [exact G|].
  assert (SV : forall a y, (0 <= a < 16)%Z -> (0 <= y < 4)%Z -> stored (PF 4 16 (/ 2) ls) a 2 y = Some (IZR y + 1)).
  { intros a y Hy Hyy. destruct (ST a 2%Z y Hy ltac:(lia) Hyy) as (w & Ew & S). unfold ex67_cost in Ew. assert (w = IZR y + 1) by congruence. subst w.
    destruct S as [[_ S]|[S _]]; [exact S|]. exfalso. unfold NOT_FREE in S. assert (IZR y <= 4) by (apply IZR_le; lia). lra. }
  split; [intros a Hr; rewrite !SV by lia; split; f_equal; lra|].
  destruct (C67_mirrored_refuted clamp_ref (PF 4 16 (/ 2) ls) (/ 2) 1 2 3 0 clamp_ref_ok G ltac:(lra) ltac:(lra)) as (a & w & Hr & S & V & _); cbn [pf_dim]; try lia.
  { replace (0 + - 0) with 0 by ring. rewrite clamp67_0. pose proof PI_RGT_0. lra. }
  exists w. cbn [pf_res] in V. split.
  - cbn [pf_dim] in V. replace (Pose (/ 2) (3 / 2) 0) with (Pose (/ 2 / / 2 * (IZR 2 + / 2 - IZR (4 / 2))) (/ 2 / / 2 * (IZR 3 + / 2 - IZR (4 / 2))) 0).
    + rewrite V. f_equal. field.
    + change (4 / 2)%Z with 2%Z. f_equal; field.
  - cbn [pf_dim] in S. change (4 - 3)%Z with 1%Z in S. cbn [pf_angles] in Hr. rewrite SV in S by lia. assert (W : w = 1 + 1) by congruence. lra.
Qed.
