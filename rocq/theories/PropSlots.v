(** C29: lookups by pose. *)
From Coq Require Import Reals Lra.
From Flocq Require Import Core.Raux.
From Verif Require Import Base GridMap GridSpec GeomR MapManagers MapManagersProofs SlotModel.
Local Open Scope R_scope.

(** The angle between two headings, modulo full turns, is less than [d]. *)
Definition headings_closer (a b d : R) : Prop := exists k : Z, Rabs (a - b + 2 * IZR k * PI) < d.

Lemma cast_whole z : (-2147483648 <= z < 2147483648)%Z -> cast_i32 (IZR z) = Some z.
Proof.
  intros H. unfold cast_i32. cbv zeta. rewrite Ztrunc_IZR. unfold in_i32.
  destruct (_ && _)%Z eqn:E; [reflexivity|lia].
Qed.

Section Slots.
  Variable clamp : R -> R.
  Hypothesis Hc : AngleClamp_contract clamp.
  Variable n : Z.
  Hypothesis Hn : (2 <= n < 4294967296)%Z.
  Lemma slot_width : 0 < 2 * PI / IZR (n - 1).
  Proof using Hn. assert (1 <= IZR (n - 1)) by (apply IZR_le; lia). pose proof PI_RGT_0. apply Rdiv_lt_0_compat; lra. Qed.
  Lemma slot_of_range th : exists t, slot_of clamp n th = Some t /\ (0 <= t < n)%Z /\
    - PI + 2 * PI / IZR (n - 1) * IZR t <= clamp th < - PI + 2 * PI / IZR (n - 1) * (IZR t + 1) /\ (t = n - 1 <-> clamp th = PI)%Z.
  Proof using Hc Hn.
    destruct (Hc th) as [Hr _]. pose proof PI_RGT_0 as HP. assert (N1 : 1 <= IZR (n - 1)) by (apply IZR_le; lia). unfold slot_of.
    set (k := IZR (n - 1)) in *. set (u := (clamp th + PI) / (2 * PI) * k).
    assert (Eu : u * (2 * PI) = (clamp th + PI) * k) by (unfold u; field; lra).
    assert (Hu : 0 <= u <= k) by (split; nra).
    exists (Zfloor u). assert (Hz : (0 <= Zfloor u)%Z) by (apply Zfloor_lub; lra).
    assert (Hz2 : (Zfloor u < n)%Z). { apply lt_IZR. pose proof (Zfloor_lb u). assert (IZR n = k + 1) by (unfold k; rewrite minus_IZR; lra). lra. }
    pose proof (Zfloor_lb u) as F1. pose proof (Zfloor_ub u) as F2. pose proof slot_width as W. fold k in W.
    assert (E1 : clamp th = - PI + 2 * PI / k * u) by (unfold u; field; lra).
    split; [|split; [lia|split]].
    - apply (cast_u32_some u); [lra|]. split; [|lia]. lra.
    - rewrite E1. split; [apply Rplus_le_compat_l, Rmult_le_compat_l; lra|apply Rplus_lt_compat_l, Rmult_lt_compat_l; lra].
    - split; intros E.
      + rewrite E in F1. fold k in F1. assert (u = k) by lra. rewrite E1, H. field. lra.
      + assert (u = k). { rewrite E in Eu. nra. } apply eq_IZR. rewrite H. unfold k. rewrite Zfloor_IZR. reflexivity.
  Qed.
End Slots.

Section Find.
  Variable clamp : R -> R.
  Hypothesis Hc : AngleClamp_contract clamp.
  Variables w h : Z.
  Hypothesis Hw : (0 <= w < 2147483648)%Z.
  Hypothesis Hh : (0 <= h < 2147483648)%Z.
  Definition on_map (x y : R) : Prop := 0 <= x < IZR w /\ 0 <= y < IZR h.

  Lemma off_test x y : (Rltb x 0 || Rltb y 0 || Rleb (IZR w) x || Rleb (IZR h) y)%bool = false <-> on_map x y.
  Proof using Type.
    unfold on_map. rewrite !orb_false_iff, !Rltb_false, !Rleb_false. clear. split; intros; repeat split; try lra; tauto.
  Qed.
  Lemma on_cell x y : on_map x y -> cell_of w h (Zfloor x) (Zfloor y) /\ cast_i32 (IZR (Zfloor x)) = Some (Zfloor x) /\ cast_i32 (IZR (Zfloor y)) = Some (Zfloor y).
  Proof using Hw Hh.
    intros [[X1 X2] [Y1 Y2]]. assert (C : cell_of w h (Zfloor x) (Zfloor y)).
    { unfold cell_of. repeat split; [apply Zfloor_lub; assumption| |apply Zfloor_lub; assumption|]; apply lt_IZR.
      - pose proof (Zfloor_lb x). lra.
      - pose proof (Zfloor_lb y). lra. }
    unfold cell_of in C. split; [exact C|]. split; apply cast_whole; lia.
  Qed.
  Lemma node_cell slots x y t z : (0 < slots)%Z -> cell_of w h x y -> (0 <= t < slots)%Z -> (0 <= z)%Z ->
    init_cell w h slots (y * w + x + t * w * h + z * (w * h * slots)) = (x, y, slot_heading slots t).
  Proof using Hw Hh.
    intros Hs C Ht Hz. unfold cell_of in C.
    assert (E : (y * w + x + t * w * h + z * (w * h * slots) = (y * w + x) + (t + z * slots) * (w * h))%Z) by ring.
    unfold init_cell. rewrite E. clear E. set (N := (w * h)%Z). assert (HN : (0 < N)%Z) by (unfold N; nia). assert (HB : (0 <= y * w + x < N)%Z) by (unfold N; nia).
    clearbody N. assert (M : ((y * w + x + (t + z * slots) * N) mod N = y * w + x)%Z) by (rewrite Z_mod_plus_full; apply Z.mod_small; lia).
    assert (D : ((y * w + x + (t + z * slots) * N) / N = t + z * slots)%Z) by (rewrite Z.div_add by lia; rewrite (Z.div_small (y * w + x) N) by lia; lia).
    assert (R : ((t + z * slots) mod slots = t)%Z) by (rewrite Z_mod_plus_full; apply Z.mod_small; lia).
    rewrite M, D, R.
    assert (E1 : ((y * w + x) mod w = x)%Z) by (rewrite Z.add_comm, Z_mod_plus_full; apply Z.mod_small; lia).
    assert (E2 : ((y * w + x) / w = y)%Z) by (rewrite Z.add_comm, Z_div_plus_full by lia; rewrite Z.div_small by lia; lia).
    rewrite E1, E2. reflexivity.
  Qed.
  Lemma near_heading n t th : (2 <= n)%Z -> (0 <= t < n)%Z -> - PI + 2 * PI / IZR (n - 1) * IZR t <= clamp th < - PI + 2 * PI / IZR (n - 1) * (IZR t + 1) ->
    headings_closer (slot_heading n t) th (2 * PI / IZR (n - 1) + 2 * PI / IZR n).
  Proof using Hc.
    intros Hn Ht [B1 B2]. destruct (Hc th) as [_ [k E]]. exists (- k)%Z. unfold slot_heading. pose proof PI_RGT_0 as HP.
    assert (En : IZR (n - 1) = IZR n - 1) by (rewrite minus_IZR; ring). assert (N2 : 2 <= IZR n) by (apply IZR_le; lia). rewrite En in *.
    set (a := 2 * PI / (IZR n - 1)) in *. set (b := 2 * PI / IZR n) in *.
    assert (Ea : a * (IZR n - 1) = 2 * PI) by (unfold a; field; lra). assert (Eb : b * IZR n = 2 * PI) by (unfold b; field; lra).
    assert (Pb : 0 < b) by (unfold b; apply Rdiv_lt_0_compat; lra). assert (Pa : 0 < a) by (unfold a; apply Rdiv_lt_0_compat; lra).
    assert (T0 : 0 <= IZR t) by (apply IZR_le; lia). assert (T1 : IZR t <= IZR n - 1) by (rewrite <- minus_IZR; apply IZR_le; lia).
    clearbody a b. assert (Eab : (a - b) * (IZR n - 1) = b) by lra.
    assert (G : 0 <= (a - b) * IZR t <= b). { assert (0 <= a - b) by nra. split; [apply Rmult_le_pos; assumption|]. rewrite <- Eab at 2. apply Rmult_le_compat_l; assumption. }
    rewrite opp_IZR. replace (- PI + b * IZR t - th + 2 * - IZR k * PI) with (- PI + b * IZR t - clamp th) by (rewrite E; ring).
    apply Rabs_def1; lra.
  Qed.
  Lemma same_slot n t a b : (2 <= n)%Z -> slot_of clamp n a = Some t -> slot_of clamp n b = Some t -> (n < 4294967296)%Z -> headings_closer a b (2 * PI / IZR (n - 1)).
  Proof using Hc.
    intros Hn Ea Eb Hb. destruct (slot_of_range clamp Hc n ltac:(lia) a) as (t1 & E1 & _ & [L1 U1] & _). destruct (slot_of_range clamp Hc n ltac:(lia) b) as (t2 & E2 & _ & [L2 U2] & _).
    assert (t1 = t) as -> by congruence. assert (t2 = t) as -> by congruence. destruct (Hc a) as [_ [j Ej]]. destruct (Hc b) as [_ [k Ek]].
    exists (j - k)%Z. rewrite minus_IZR. replace (a - b + 2 * (IZR j - IZR k) * PI) with (clamp a - clamp b) by (rewrite Ej, Ek; ring). apply Rabs_def1; lra.
  Qed.

  (** ** DirectionalStateSpaceManager *)
  Hypothesis Hd : (2 * (w * h * 32) < 4294967296)%Z.
  Lemma dir_find_on x y th f : on_map x y -> exists t, slot_of clamp 32 th = Some t /\ (0 <= t < 32)%Z /\
    dir_find clamp w h x y th f = Found (Zfloor y * w + Zfloor x + t * w * h + (if f then 0 else w * h * 32))%Z.
  Proof using Hc Hw Hh Hd.
    intros Hm. destruct (slot_of_range clamp Hc 32 ltac:(lia) th) as (t & Et & Ht & _). exists t. split; [assumption|]. split; [assumption|].
    destruct (on_cell x y Hm) as (C & E1 & E2). unfold dir_find. rewrite (proj2 (off_test x y) Hm), E1, E2, Et. cbn [as_lres].
    rewrite i32_id by lia. apply (dir_lookup_spec w h (Zfloor x) (Zfloor y) t f Hw Hh Hd C Ht).
  Qed.

  (** ** StateSpaceManager *)
  Lemma ss_find_on x y th : (w * h * 36 < 4294967296)%Z -> on_map x y -> exists t, slot_of clamp 36 th = Some t /\ (0 <= t < 36)%Z /\
    ss_find clamp w h x y th = Found (Zfloor y * w + Zfloor x + t * w * h)%Z.
  Proof using Hc Hw Hh.
    clear Hd. intros Hs Hm. destruct (slot_of_range clamp Hc 36 ltac:(lia) th) as (t & Et & Ht & _). exists t. split; [assumption|]. split; [assumption|].
    destruct (on_cell x y Hm) as (C & E1 & E2). unfold ss_find. rewrite (proj2 (off_test x y) Hm), E1, E2, Et. cbn [as_lres]. unfold cell_of in C.
    rewrite !u32_id by lia. replace ((Zfloor x <? 0) || (Zfloor y <? 0) || (Zfloor x >=? w) || (Zfloor y >=? h))%Z%bool with false by lia.
    unfold ss_index. replace ((Zfloor x >=? w) || (Zfloor y >=? h) || (t >=? 36))%Z%bool with false by lia.
    assert (B : (0 <= Zfloor y * w + Zfloor x + t * w * h < w * h * 36)%Z). { assert (0 <= Zfloor y * w + Zfloor x < w * h)%Z by nia. nia. }
    rewrite u32_id by lia. replace (_ <? w * h * 36)%Z with true by lia. reflexivity.
  Qed.
End Find.

(** ** C29: the theorems *)
(** A pose on the map has a node inside the array; it was created for the cell of the pose
    and with a heading near the one asked for. Off the map an exception is thrown. *)
Theorem C29_pose_directional : forall clamp w h x y th f, AngleClamp_contract clamp -> (0 <= w < 2147483648)%Z -> (0 <= h < 2147483648)%Z ->
  (2 * (w * h * 32) < 4294967296)%Z ->
  (on_map w h x y -> exists i head, dir_find clamp w h x y th f = Found i /\ (0 <= i < 2 * (w * h * 32))%Z /\
     init_cell w h 32 i = (Zfloor x, Zfloor y, head) /\ headings_closer head th (2 * PI / 31 + 2 * PI / 32)) /\
  (~ on_map w h x y -> dir_find clamp w h x y th f = Outside).
Proof.
  intros clamp w h x y th f Hc Hw Hh Hd. split; intros Hm.
  - destruct (dir_find_on clamp Hc w h Hw Hh Hd x y th f Hm) as (t & Et & Ht & E). destruct (on_cell w h Hw Hh x y Hm) as (C & _ & _).
    eexists _, _. split; [exact E|]. split; [apply (dir_lookup_spec w h _ _ t f Hw Hh Hd C Ht)|]. split.
    + replace (Zfloor y * w + Zfloor x + t * w * h + (if f then 0 else w * h * 32))%Z with (Zfloor y * w + Zfloor x + t * w * h + (if f then 0 else 1) * (w * h * 32))%Z by (destruct f; ring).
      apply node_cell; [assumption|assumption|lia|assumption|assumption|destruct f; lia].
    + destruct (slot_of_range clamp Hc 32 ltac:(lia) th) as (t' & Et' & _ & B & _). assert (t' = t) as -> by congruence. exact (near_heading clamp Hc 32 t th ltac:(lia) Ht B).
  - unfold dir_find. destruct (_ || _)%bool eqn:E; [reflexivity|]. exfalso. apply Hm. apply off_test. assumption.
Qed.
Print Assumptions C29_pose_directional.
(** Poses with the same node are in the same cell and direction, and their headings
    differ by less than one slot. *)
Theorem C29_pose_separate : forall clamp w h x y th f x' y' th' f' i, AngleClamp_contract clamp -> (0 <= w < 2147483648)%Z -> (0 <= h < 2147483648)%Z ->
  (2 * (w * h * 32) < 4294967296)%Z -> dir_find clamp w h x y th f = Found i -> dir_find clamp w h x' y' th' f' = Found i ->
  Zfloor x = Zfloor x' /\ Zfloor y = Zfloor y' /\ f = f' /\ headings_closer th th' (2 * PI / 31).
Proof.
  intros clamp w h x y th f x' y' th' f' i Hc Hw Hh Hd E E'.
  assert (On : forall x y th f, dir_find clamp w h x y th f = Found i -> on_map w h x y).
  { intros a b c d X. apply off_test. unfold dir_find in X. destruct (_ || _)%bool; [discriminate|reflexivity]. }
  pose proof (On _ _ _ _ E) as M. pose proof (On _ _ _ _ E') as M'.
  destruct (dir_find_on clamp Hc w h Hw Hh Hd x y th f M) as (t & Et & Ht & F). destruct (dir_find_on clamp Hc w h Hw Hh Hd x' y' th' f' M') as (t' & Et' & Ht' & F').
  destruct (on_cell w h Hw Hh x y M) as (C & _ & _). destruct (on_cell w h Hw Hh x' y' M') as (C' & _ & _).
  destruct (dir_lookup_inj w h _ _ t f _ _ t' f' Hw Hh Hd C C' Ht Ht') as (G1 & G2 & G3 & G4).
  { rewrite (proj1 (dir_lookup_spec w h _ _ t f Hw Hh Hd C Ht)), (proj1 (dir_lookup_spec w h _ _ t' f' Hw Hh Hd C' Ht')). rewrite <- F, <- F'. congruence. }
  repeat split; try assumption. subst t'. exact (same_slot clamp Hc 32 t th th' ltac:(lia) Et Et' ltac:(lia)).
Qed.
Print Assumptions C29_pose_separate.
(** The same for StateSpaceManager with its 36 slots. *)
Theorem C29_pose_statespace : forall clamp w h x y th, AngleClamp_contract clamp -> (0 <= w < 2147483648)%Z -> (0 <= h < 2147483648)%Z ->
  (w * h * 36 < 4294967296)%Z ->
  (on_map w h x y -> exists i head, ss_find clamp w h x y th = Found i /\ (0 <= i < w * h * 36)%Z /\
     init_cell w h 36 i = (Zfloor x, Zfloor y, head) /\ headings_closer head th (2 * PI / 35 + 2 * PI / 36)) /\
  (~ on_map w h x y -> ss_find clamp w h x y th = Outside) /\
  (forall x' y' th' i, ss_find clamp w h x y th = Found i -> ss_find clamp w h x' y' th' = Found i ->
     Zfloor x = Zfloor x' /\ Zfloor y = Zfloor y' /\ headings_closer th th' (2 * PI / 35)).
Proof.
  intros clamp w h x y th Hc Hw Hh Hs. split; [|split].
  - intros Hm. destruct (ss_find_on clamp Hc w h Hw Hh x y th Hs Hm) as (t & Et & Ht & E). destruct (on_cell w h Hw Hh x y Hm) as (C & _ & _).
    eexists _, _. split; [exact E|]. split; [unfold cell_of in C; assert (0 <= Zfloor y * w + Zfloor x < w * h)%Z by nia; nia|]. split.
    + replace (Zfloor y * w + Zfloor x + t * w * h)%Z with (Zfloor y * w + Zfloor x + t * w * h + 0 * (w * h * 36))%Z by ring. apply node_cell; [assumption|assumption|lia|assumption|assumption|lia].
    + destruct (slot_of_range clamp Hc 36 ltac:(lia) th) as (t' & Et' & _ & B & _). assert (t' = t) as -> by congruence. exact (near_heading clamp Hc 36 t th ltac:(lia) Ht B).
  - intros Hm. unfold ss_find. destruct (_ || _)%bool eqn:E; [reflexivity|]. exfalso. apply Hm. apply off_test. assumption.
  - intros x' y' th' i E E'.
    assert (On : forall x y th, ss_find clamp w h x y th = Found i -> on_map w h x y).
    { intros a b c X. apply off_test. unfold ss_find in X. destruct (_ || _)%bool; [discriminate|reflexivity]. }
    pose proof (On _ _ _ E) as M. pose proof (On _ _ _ E') as M'.
    destruct (ss_find_on clamp Hc w h Hw Hh x y th Hs M) as (t & Et & Ht & F). destruct (ss_find_on clamp Hc w h Hw Hh x' y' th' Hs M') as (t' & Et' & Ht' & F').
    destruct (on_cell w h Hw Hh x y M) as (C & _ & _). destruct (on_cell w h Hw Hh x' y' M') as (C' & _ & _).
    pose proof (node_cell w h Hw Hh 36 _ _ t 0 ltac:(lia) C Ht ltac:(lia)) as G. pose proof (node_cell w h Hw Hh 36 _ _ t' 0 ltac:(lia) C' Ht' ltac:(lia)) as G'.
    assert (X : (Zfloor y * w + Zfloor x + t * w * h = Zfloor y' * w + Zfloor x' + t' * w * h)%Z) by congruence. rewrite <- X in G'. rewrite G in G'. injection G' as G1 G2 _.
    split; [assumption|]. split; [assumption|]. assert (t' = t) as ->. { rewrite G1, G2 in X. unfold cell_of in C. assert (0 < w * h)%Z by nia. nia. }
    exact (same_slot clamp Hc 36 t th th' ltac:(lia) Et Et' ltac:(lia)).
Qed.
Print Assumptions C29_pose_statespace.

(** Refuted: a node is not found under the heading it was created with; looking up the
    heading of slot [t] gives slot [t - 1]. *)
Theorem C29_own_heading_refuted : forall clamp w h x y t f, AngleClamp_contract clamp -> (0 <= w < 2147483648)%Z -> (0 <= h < 2147483648)%Z ->
  (2 * (w * h * 32) < 4294967296)%Z -> cell_of w h x y -> (1 <= t < 32)%Z ->
  exists i, dir_find clamp w h (IZR x) (IZR y) (slot_heading 32 t) f = Found i /\ init_cell w h 32 i = (x, y, slot_heading 32 (t - 1)) /\
    slot_heading 32 (t - 1) <> slot_heading 32 t.
Proof.
  intros clamp w h x y t f Hc Hw Hh Hd C Ht. pose proof PI_RGT_0 as HP.
  assert (T1 : 1 <= IZR t) by (apply IZR_le; lia). assert (T2 : IZR t <= 31) by (apply IZR_le; lia).
  assert (Ec : clamp (slot_heading 32 t) = slot_heading 32 t).
  { destruct (Hc (slot_heading 32 t)) as [Hr He]. apply angle_eq_unique; [assumption|]. unfold slot_heading in *. set (q := IZR t) in *. clearbody q. clear -T1 T2 Hr HP. nra. }
  assert (Es : slot_of clamp 32 (slot_heading 32 t) = Some (t - 1)%Z).
  { unfold slot_of. rewrite Ec. unfold slot_heading. replace ((- PI + 2 * PI / 32 * IZR t + PI) / (2 * PI) * IZR (32 - 1)) with (IZR t * (31 / 32)) by (cbn; field; lra).
    apply cast_u32_some; [lra|]. rewrite minus_IZR. split; [lra|lia]. }
  assert (M : on_map w h (IZR x) (IZR y)) by (unfold cell_of in C; split; split; [apply IZR_le; lia|apply IZR_lt; lia|apply IZR_le; lia|apply IZR_lt; lia]).
  destruct (dir_find_on clamp Hc w h Hw Hh Hd (IZR x) (IZR y) (slot_heading 32 t) f M) as (t' & Et & Ht' & E). assert (t' = (t - 1)%Z) as -> by congruence. rewrite !Zfloor_IZR in E.
  eexists. split; [exact E|]. split.
  - replace (y * w + x + (t - 1) * w * h + (if f then 0 else w * h * 32))%Z with (y * w + x + (t - 1) * w * h + (if f then 0 else 1) * (w * h * 32))%Z by (destruct f; ring).
    apply node_cell; [assumption|assumption|lia|assumption|assumption|destruct f; lia].
  - unfold slot_heading. rewrite minus_IZR. intros X. lra.
Qed.
Print Assumptions C29_own_heading_refuted.
Example C29_pose_case : forall clamp, AngleClamp_contract clamp -> exists i, dir_find clamp 10 7 (95 / 10) (62 / 10) 0 true = Found i /\ i = (69 + 15 * 70)%Z.
Proof.
  intros clamp Hc. assert (Ex : Zfloor (95 / 10) = 9%Z) by (apply Zfloor_imp; cbn; lra). assert (Ey : Zfloor (62 / 10) = 6%Z) by (apply Zfloor_imp; cbn; lra).
  destruct (dir_find_on clamp Hc 10 7 ltac:(lia) ltac:(lia) ltac:(lia) (95 / 10) (62 / 10) 0 true ltac:(unfold on_map; lra)) as (t & Et & _ & E). rewrite Ex, Ey in E.
  assert (t = 15%Z) as ->.
  { unfold slot_of in Et. pose proof PI_RGT_0. destruct (Hc 0) as [Hr He]. rewrite (angle_eq_unique _ _ He ltac:(lra)) in Et.
    replace ((0 + PI) / (2 * PI) * IZR (32 - 1)) with (31 / 2) in Et by (cbn; field; lra). assert (Q : cast_u32 (31 / 2) = Some 15%Z) by (apply cast_u32_some; [lra|split; [lra|lia]]). congruence. }
  eexists. split; [exact E|reflexivity].
Qed.
