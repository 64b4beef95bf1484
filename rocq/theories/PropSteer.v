(** C35: steering moves respect the steering limit and the straight-switch rule. *)
From Coq Require Import Reals Lra.
From Flocq Require Import Core.Raux.
From Verif Require Import Base GeomR SteerModel.
Local Open Scope R_scope.

(** ** Specification *)
(** A drive: the visited nodes, newest first, each reached from the one before by a
    move offered there ([move ref prevs cost new]); the total cost. *)
Inductive trip (move : snode -> list snode -> R -> snode -> Prop) (s : snode) : list snode -> R -> Prop :=
| trip_start : trip move s [s] 0
| trip_move n r prevs c cost : trip move s (r :: prevs) cost -> move r prevs c n -> trip move s (n :: r :: prevs) (cost + c).

(** The moves the neighbourhoods try: all six primitives at all steering steps. *)
Definition s_move (clamp : R -> R) (p : sparams) (so : sopts) (steps : Z) (ref : snode) (prevs : list snode) (c : R) (n : snode) : Prop :=
  exists i step, (0 <= i < 6)%Z /\ (0 <= step <= steps)%Z /\ s_advance clamp p so ref prevs i step = AMove c n.
Definition d_move (clamp : R -> R) (p : sparams) (so : sopts) (steps : Z) (ref : snode) (prevs : list snode) (c : R) (n : snode) : Prop :=
  exists i step, (0 <= i < 6)%Z /\ (0 <= step <= steps)%Z /\ d_advance clamp p so ref prevs i step = AMove c n.

(** A start node as the search prepares it (SteeringNode::init, Common.hpp:84-102). *)
Definition at_rest (s : snode) : Prop := sn_steer s = 0%Z /\ sn_custom s = Some 0%Z /\ sn_depth s = 0%Z.
Definition straight (s : snode) : Prop := sn_steer s = 0%Z.

(** ** Proofs *)
Lemma limit_range m s : (0 <= m)%Z -> (- m <= limit_steer m s <= m)%Z.
Proof. intros. unfold limit_steer. destruct (m <? s)%Z eqn:E1; [lia|]. destruct (s <? - m)%Z eqn:E2; lia. Qed.
Lemma limit_near m s c : (- m <= c <= m)%Z -> (Z.abs (limit_steer m s - c) <= Z.abs (s - c))%Z.
Proof. intros. unfold limit_steer. destruct (m <? s)%Z eqn:E1; [lia|]. destruct (s <? - m)%Z eqn:E2; lia. Qed.
Lemma cmd_near m cur delta i step s : steer_cmd m cur delta i step = Some s -> (Z.abs (s - cur) <= Z.abs delta)%Z.
Proof.
  unfold steer_cmd. repeat match goal with |- context [if ?b then _ else _] => destruct b end; intros E; inversion E; lia.
Qed.
Lemma trunc_abs d : IZR (Z.abs (Ztrunc d)) <= Rabs d.
Proof.
  rewrite abs_IZR. destruct (Rle_or_lt 0 d) as [H|H].
  - rewrite (Rabs_pos_eq d) by assumption. rewrite Ztrunc_floor by assumption. pose proof (Zfloor_lb d). pose proof (Zfloor_lub 0 d H) as H1.
    apply IZR_le in H1. rewrite Rabs_pos_eq; lra.
  - rewrite (Rabs_left d) by assumption. rewrite Ztrunc_ceil by lra. pose proof (Zceil_ub d). pose proof (Zceil_glb 0 d ltac:(lra)) as H1.
    apply IZR_le in H1. rewrite Rabs_left1; lra.
Qed.

(** What an accepted move of the template neighbourhood looks like. *)
Lemma s_advance_inv clamp p so ref prevs i step c n : s_advance clamp p so ref prevs i step = AMove c n ->
  exists cu delta s0, sn_custom ref = Some cu /\ cast_i32 (sp_delta p * IZR step) = Some delta /\
    steer_cmd (sp_max p) (sn_steer ref) delta i step = Some s0 /\
    ((0 < cu)%Z -> straight ref) /\ ((sn_depth ref < 1)%Z -> sn_fwd ref = (i <? 3)%Z) /\
    sn_fwd n = (i <? 3)%Z /\ sn_steer n = limit_steer (sp_max p) s0 /\ sn_depth n = (sn_depth ref + 1)%Z /\
    (sn_x n, sn_y n, sn_th n) = s_pose clamp p (sn_steer n) (drive_dir p (sn_fwd n)) (sn_x ref) (sn_y ref) (sn_th ref) /\
    (if sp_both p then
       (sn_fwd n <> sn_fwd ref /\ (cu <= 0)%Z /\ straight n /\
        all_prev (Z.to_nat (sp_sds p - 1)) (fun t => negb (0 <? Z.abs (sn_steer t))%Z) prevs = true /\
        sn_custom n = Some (sp_sds p - 1)%Z /\ c = (if sn_fwd n then 1 else so_back so) * so_turn so * sp_pixel p) \/
       (sn_fwd n = sn_fwd ref /\ sn_custom n = Some (Z.max 0 (cu - 1)) /\ c = (if sn_fwd n then 1 else so_back so) * sp_pixel p)
     else sn_custom n = None /\ c = (if sn_fwd n then 1 else so_back so) * sp_pixel p).
Proof.
  unfold s_advance. cbv zeta.
  destruct ((sn_depth ref <? 1)%Z && xorb (sn_fwd ref) (i <? 3)%Z) eqn:E1; [discriminate|].
  destruct (sn_custom ref) as [cu|]; [|discriminate].
  destruct ((0 <? cu)%Z && (0 <? Z.abs (sn_steer ref))%Z) eqn:E2; [discriminate|].
  destruct (cast_i32 (sp_delta p * IZR step)) as [delta|]; [|discriminate].
  destruct (steer_cmd _ _ _ _ _) as [s0|] eqn:E3; [|discriminate].
  assert (H2 : (0 < cu)%Z -> straight ref) by (unfold straight; lia).
  assert (H1 : (sn_depth ref < 1)%Z -> sn_fwd ref = (i <? 3)%Z).
  { intros H. assert ((sn_depth ref <? 1)%Z = true) as E by lia. rewrite E in E1. cbn in E1. destruct (sn_fwd ref), (i <? 3)%Z; cbn in E1; congruence. }
  assert (P : forall cost cust,
    AMove (if (i <? 3)%Z then cost else cost * so_back so)
      (let q := s_pose clamp p (limit_steer (sp_max p) s0) (drive_dir p (i <? 3)%Z) (sn_x ref) (sn_y ref) (sn_th ref) in
       SN (fst (fst q)) (snd (fst q)) (snd q) (i <? 3)%Z (limit_steer (sp_max p) s0) cust (sn_depth ref + 1)) = AMove c n ->
    sn_fwd n = (i <? 3)%Z /\ sn_steer n = limit_steer (sp_max p) s0 /\ sn_depth n = (sn_depth ref + 1)%Z /\
    (sn_x n, sn_y n, sn_th n) = s_pose clamp p (sn_steer n) (drive_dir p (sn_fwd n)) (sn_x ref) (sn_y ref) (sn_th ref) /\
    sn_custom n = cust /\ c = (if sn_fwd n then 1 else so_back so) * cost).
  { intros cost cust. cbv zeta. set (q := s_pose _ _ _ _ _ _ _). intros E. injection E as <- <-. cbn [sn_fwd sn_steer sn_depth sn_x sn_y sn_th sn_custom]. fold q.
    split; [reflexivity|]. split; [reflexivity|]. split; [reflexivity|]. split; [destruct q as [[a b] d]; reflexivity|]. split; [reflexivity|]. destruct (i <? 3)%Z; ring. }
  intros E. exists cu, delta, s0.
  destruct (sp_both p); [destruct (xorb (sn_fwd ref) (i <? 3)%Z) eqn:Ex|].
  - destruct (0 <? cu)%Z eqn:E4; [discriminate|]. destruct (0 <? Z.abs (limit_steer (sp_max p) s0))%Z eqn:E5; [discriminate|].
    destruct (all_prev _ _ prevs) eqn:E6; [|discriminate]. cbn [negb] in E. apply P in E. destruct E as (F1 & F2 & F3 & F4 & F5 & F6).
    repeat (split; [assumption || reflexivity|]). left. rewrite F1 in *. split; [destruct (sn_fwd ref), (i <? 3)%Z; cbn in Ex; congruence|].
    split; [lia|]. split; [unfold straight; rewrite F2; lia|]. split; [reflexivity|]. split; [assumption|]. rewrite F6. ring.
  - apply P in E. destruct E as (F1 & F2 & F3 & F4 & F5 & F6). repeat (split; [assumption || reflexivity|]). right. rewrite F1 in *.
    split; [destruct (sn_fwd ref), (i <? 3)%Z; cbn in Ex; congruence|]. split; [|assumption]. rewrite F5. f_equal. destruct (0 <? cu)%Z eqn:E4; lia.
  - apply P in E. destruct E as (F1 & F2 & F3 & F4 & F5 & F6). repeat (split; [assumption || reflexivity|]). assumption.
Qed.

(** The same for the dynamic neighbourhood. *)
Lemma d_advance_inv clamp p so ref prevs i step c n : d_advance clamp p so ref prevs i step = AMove c n ->
  exists cu, sn_custom ref = Some cu /\
    ((0 < cu)%Z -> straight ref) /\ ((sn_depth ref < 1)%Z -> sn_fwd ref = (i <? 3)%Z) /\
    sn_fwd n = (i <? 3)%Z /\ sn_depth n = (sn_depth ref + 1)%Z /\
    ((i = 3%Z /\ step = 0%Z /\ sp_rev p = false /\ (sn_depth ref < 1)%Z /\ straight n /\ sn_custom n = Some 0%Z /\ sn_th n = sn_th ref /\
      sn_x n = sn_x ref + - sp_la p / sp_res p * cos (sn_th ref) /\ sn_y n = sn_y ref + - sp_la p / sp_res p * sin (sn_th ref) /\
      c = Rabs (sp_la p / sp_res p) * so_back so) \/
     (exists delta s0, cast_i32 (sp_delta p * IZR step) = Some delta /\ steer_cmd (sp_max p) (sn_steer ref) delta i step = Some s0 /\
      sn_steer n = limit_steer (sp_max p) s0 /\
      (sn_x n, sn_y n, sn_th n) = s_pose clamp p (sn_steer n) (drive_dir p (sn_fwd n)) (sn_x ref) (sn_y ref) (sn_th ref) /\
      ((sn_fwd n <> sn_fwd ref /\ sp_both p = true /\ (cu <= 0)%Z /\ straight n /\ sn_custom n = Some 0%Z /\
        c = (if sn_fwd n then 1 else so_back so) * so_turn so * sp_pixel p) \/
       (sn_fwd n = sn_fwd ref /\ sn_custom n = Some (Z.max 0 (cu - 1)) /\ c = (if sn_fwd n then 1 else so_back so) * sp_pixel p)))).
Proof.
  unfold d_advance. cbv zeta.
  destruct ((sn_depth ref <? 1)%Z && xorb (sn_fwd ref) (i <? 3)%Z) eqn:E1; [discriminate|].
  destruct (sn_custom ref) as [cu|]; [|discriminate].
  destruct ((0 <? cu)%Z && (0 <? Z.abs (sn_steer ref))%Z) eqn:E2; [discriminate|].
  destruct (negb (sp_rev p) && (sn_depth ref <? 1)%Z && (3 <? i)%Z) eqn:Ea; [discriminate|].
  assert (H2 : (0 < cu)%Z -> straight ref) by (unfold straight; lia).
  assert (H1 : (sn_depth ref < 1)%Z -> sn_fwd ref = (i <? 3)%Z).
  { intros H. assert ((sn_depth ref <? 1)%Z = true) as E by lia. rewrite E in E1. cbn in E1. destruct (sn_fwd ref), (i <? 3)%Z; cbn in E1; congruence. }
  intros E. exists cu. split; [reflexivity|]. split; [assumption|]. split; [assumption|].
  destruct (negb (sp_rev p) && (sn_depth ref <? 1)%Z && (i =? 3)%Z) eqn:Eb.
  { destruct (step =? 0)%Z eqn:Es; [|discriminate]. cbn [negb] in E.
    apply andb_prop in Eb. destruct Eb as [Eb Ei]. apply andb_prop in Eb. destruct Eb as [Er Ed].
    injection E as <- <-. cbn [sn_fwd sn_steer sn_depth sn_x sn_y sn_th sn_custom]. assert (i = 3%Z) as -> by lia.
    split; [reflexivity|]. split; [reflexivity|]. left. split; [reflexivity|]. split; [lia|]. split; [destruct (sp_rev p); [discriminate|reflexivity]|].
    split; [lia|]. split; [reflexivity|]. repeat (split; [reflexivity|]).
    f_equal. replace (- sp_la p / sp_res p) with (- (sp_la p / sp_res p)) by (unfold Rdiv; ring). apply Rabs_Ropp. }
  destruct (cast_i32 (sp_delta p * IZR step)) as [delta|] eqn:Ec; [|discriminate].
  destruct (steer_cmd _ _ _ _ _) as [s0|] eqn:E3; [|discriminate].
  assert (P : forall cost cust,
    AMove (if (i <? 3)%Z then cost else cost * so_back so)
      (let q := s_pose clamp p (limit_steer (sp_max p) s0) (drive_dir p (i <? 3)%Z) (sn_x ref) (sn_y ref) (sn_th ref) in
       SN (fst (fst q)) (snd (fst q)) (snd q) (i <? 3)%Z (limit_steer (sp_max p) s0) cust (sn_depth ref + 1)) = AMove c n ->
    sn_fwd n = (i <? 3)%Z /\ sn_depth n = (sn_depth ref + 1)%Z /\ sn_steer n = limit_steer (sp_max p) s0 /\
    (sn_x n, sn_y n, sn_th n) = s_pose clamp p (sn_steer n) (drive_dir p (sn_fwd n)) (sn_x ref) (sn_y ref) (sn_th ref) /\
    sn_custom n = cust /\ c = (if sn_fwd n then 1 else so_back so) * cost).
  { intros cost cust. cbv zeta. set (q := s_pose _ _ _ _ _ _ _). intros E0. injection E0 as <- <-. cbn [sn_fwd sn_steer sn_depth sn_x sn_y sn_th sn_custom]. fold q.
    split; [reflexivity|]. split; [reflexivity|]. split; [reflexivity|]. split; [destruct q as [[a b] d]; reflexivity|]. split; [reflexivity|]. destruct (i <? 3)%Z; ring. }
  destruct (xorb (sn_fwd ref) (i <? 3)%Z && negb (sn_depth ref <? 1)%Z) eqn:Ex.
  - destruct (sp_both p); [|discriminate]. cbn [negb] in E.
    destruct (0 <? cu)%Z eqn:E4; [discriminate|]. destruct (0 <? Z.abs (limit_steer (sp_max p) s0))%Z eqn:E5; [discriminate|].
    apply P in E. destruct E as (F1 & F2 & F3 & F4 & F5 & F6). split; [assumption|]. split; [assumption|]. right. exists delta, s0.
    repeat (split; [assumption || reflexivity|]). left. rewrite F1 in *. apply andb_prop in Ex. destruct Ex as [Ex _].
    split; [destruct (sn_fwd ref), (i <? 3)%Z; cbn in Ex; congruence|]. split; [reflexivity|]. split; [lia|]. split; [unfold straight; rewrite F3; lia|]. split; [assumption|]. rewrite F6. ring.
  - apply P in E. destruct E as (F1 & F2 & F3 & F4 & F5 & F6). split; [assumption|]. split; [assumption|]. right. exists delta, s0.
    repeat (split; [assumption || reflexivity|]). right. rewrite F1 in *.
    split; [|split; [rewrite F5; f_equal; destruct (0 <? cu)%Z eqn:E4; lia|assumption]].
    destruct (sn_depth ref <? 1)%Z eqn:Ed; [symmetry; apply H1; lia|]. rewrite andb_true_r in Ex. destruct (sn_fwd ref), (i <? 3)%Z; cbn in Ex; congruence.
Qed.

(** ** C35: one move *)
(** The steering angle of every offered move is within the limit, and it differs from
    the one before by at most [step] increments; primitives 0 and 3 keep it, 1 and 4
    steer to the right, 2 and 5 to the left. *)
Theorem C35_limit : forall clamp p so ref prevs i step c n, (0 <= sp_max p)%Z ->
  s_advance clamp p so ref prevs i step = AMove c n \/ d_advance clamp p so ref prevs i step = AMove c n ->
  (- sp_max p <= sn_steer n <= sp_max p)%Z.
Proof.
  intros clamp p so ref prevs i step c n Hm [E|E].
  - apply s_advance_inv in E. destruct E as (cu & delta & s0 & _ & _ & _ & _ & _ & _ & -> & _). apply limit_range. assumption.
  - apply d_advance_inv in E. destruct E as (cu & _ & _ & _ & _ & _ & [(_ & _ & _ & _ & -> & _)|(delta & s0 & _ & _ & -> & _)]); [lia|]. apply limit_range. assumption.
Qed.
Theorem C35_increment : forall clamp p so ref prevs i step c n, (- sp_max p <= sn_steer ref <= sp_max p)%Z ->
  s_advance clamp p so ref prevs i step = AMove c n \/ (at_rest ref \/ ~ (sn_depth ref < 1)%Z) /\ d_advance clamp p so ref prevs i step = AMove c n ->
  IZR (Z.abs (sn_steer n - sn_steer ref)) <= Rabs (sp_delta p * IZR step) /\ (i = 0%Z \/ i = 3%Z -> sn_steer n = sn_steer ref).
Proof.
  intros clamp p so ref prevs i step c n Hr H.
  assert (G : forall delta s0, cast_i32 (sp_delta p * IZR step) = Some delta -> steer_cmd (sp_max p) (sn_steer ref) delta i step = Some s0 ->
    sn_steer n = limit_steer (sp_max p) s0 -> IZR (Z.abs (sn_steer n - sn_steer ref)) <= Rabs (sp_delta p * IZR step) /\ (i = 0%Z \/ i = 3%Z -> sn_steer n = sn_steer ref)).
  { intros delta s0 E1 E2 ->. split.
    - apply cast_i32_trunc in E1. destruct E1 as [-> _]. eapply Rle_trans; [|apply trunc_abs]. apply IZR_le.
      pose proof (limit_near (sp_max p) s0 (sn_steer ref) Hr). pose proof (cmd_near _ _ _ _ _ _ E2). lia.
    - intros Hi. unfold steer_cmd in E2. assert (((i =? 1) || (i =? 4))%Z = false) as X by lia. assert (((i =? 2) || (i =? 5))%Z = false) as Y by lia.
      rewrite X, Y in E2. destruct (0 <? step)%Z; [discriminate|]. injection E2 as <-. unfold limit_steer.
      destruct (sp_max p <? sn_steer ref)%Z eqn:L1; [lia|]. destruct (sn_steer ref <? - sp_max p)%Z eqn:L2; lia. }
  destruct H as [E|[Hd E]].
  - apply s_advance_inv in E. destruct E as (cu & delta & s0 & _ & E1 & E2 & _ & _ & _ & E3 & _). apply (G delta s0); assumption.
  - apply d_advance_inv in E. destruct E as (cu & _ & _ & _ & _ & _ & [(-> & -> & _ & Hd0 & Hn & _)|(delta & s0 & E1 & E2 & E3 & _)]); [|apply (G delta s0); assumption].
    destruct Hd as [(Hs & _)|Hd]; [|contradiction]. rewrite Hn, Hs. rewrite Rmult_0_r, Rabs_R0. split; [cbn; lra|auto].
Qed.
Theorem C35_side : forall clamp p so ref prevs i step c n, 0 <= sp_delta p * IZR step -> (- sp_max p <= sn_steer ref <= sp_max p)%Z ->
  s_advance clamp p so ref prevs i step = AMove c n \/ d_advance clamp p so ref prevs i step = AMove c n ->
  ((i = 1 \/ i = 4) -> sn_steer n <= sn_steer ref)%Z /\ ((i = 2 \/ i = 5) -> sn_steer ref <= sn_steer n)%Z.
Proof.
  intros clamp p so ref prevs i step c n Hd Hr H.
  destruct (Z.eq_dec i 3) as [->|Hi]; [lia|].
  assert (G : exists delta s0, cast_i32 (sp_delta p * IZR step) = Some delta /\ steer_cmd (sp_max p) (sn_steer ref) delta i step = Some s0 /\ sn_steer n = limit_steer (sp_max p) s0).
  { destruct H as [E|E].
    - apply s_advance_inv in E. destruct E as (cu & delta & s0 & _ & E1 & E2 & _ & _ & _ & E3 & _). exists delta, s0. auto.
    - apply d_advance_inv in E. destruct E as (cu & _ & _ & _ & _ & _ & [(-> & _)|(delta & s0 & E1 & E2 & E3 & _)]); [congruence|]. exists delta, s0. auto. }
  destruct G as (delta & s0 & E1 & E2 & E3). apply cast_i32_trunc in E1. destruct E1 as [-> _].
  assert (Hz : (0 <= Ztrunc (sp_delta p * IZR step)%R)%Z) by (rewrite Ztrunc_floor by assumption; apply Zfloor_lub; assumption).
  set (dz := Ztrunc (sp_delta p * IZR step)) in *. clearbody dz. clear H.
  unfold steer_cmd in E2. split; intros Hi'; rewrite E3; unfold limit_steer.
  - assert (((i =? 1) || (i =? 4))%Z = true) as X by lia. rewrite X in E2. destruct (step =? 0)%Z; [discriminate|]. destruct (sn_steer ref <=? - sp_max p)%Z; [discriminate|]. injection E2 as <-.
    repeat match goal with |- context [if ?b then _ else _] => destruct b eqn:? end; lia.
  - assert (((i =? 1) || (i =? 4))%Z = false) as X by lia. assert (((i =? 2) || (i =? 5))%Z = true) as Y by lia. rewrite X, Y in E2. destruct (step =? 0)%Z; [discriminate|]. destruct (sp_max p <=? sn_steer ref)%Z; [discriminate|]. injection E2 as <-.
    repeat match goal with |- context [if ?b then _ else _] => destruct b eqn:? end; lia.
Qed.

Lemma all_prev_spec n ok prevs : all_prev n ok prevs = true -> (n <= length prevs)%nat /\ forall k t, (k < n)%nat -> nth_error prevs k = Some t -> ok t = true.
Proof.
  revert prevs. induction n as [|n IH]; intros [|t r] H; cbn in *; try discriminate; try (split; [lia|intros; lia]).
  apply andb_prop in H. destruct H as [H1 H2]. destruct (IH r H2) as [L K]. split; [lia|]. intros [|k] u Hk E; cbn in E; [injection E as <-; assumption|]. apply (K k); [lia|assumption].
Qed.

(** ** C35: whole drives *)
Lemma trip_nonempty move s l c : trip move s l c -> exists h t, l = h :: t.
Proof. intros H. destruct H; eauto. Qed.
Lemma trip_tail move s a b c : trip move s (a ++ b) c -> b <> [] -> exists c', trip move s b c'.
Proof.
  revert c. induction a as [|x a IH]; intros c H Hb; [eauto|]. cbn in H. inversion H; subst.
  - destruct a; destruct b; try discriminate; congruence.
  - apply (IH cost); [|assumption]. match goal with E : _ :: _ = a ++ b |- _ => rewrite <- E end. assumption.
Qed.
Lemma trip_last move s l c : trip move s l c -> last l s = s.
Proof. induction 1; [reflexivity|]. cbn [last] in *. exact IHtrip. Qed.

(** In every drive from a start at rest the steering angle stays within the limit. *)
Theorem C35_trip_limit : forall clamp p so steps s l c, (0 <= sp_max p)%Z -> at_rest s ->
  trip (s_move clamp p so steps) s l c \/ trip (d_move clamp p so steps) s l c ->
  forall n, In n l -> (- sp_max p <= sn_steer n <= sp_max p)%Z.
Proof.
  intros clamp p so steps s l c Hm (H0 & _) [H|H]; induction H as [|n r prevs c' cost H IH M]; intros x [<-|Hx]; try (rewrite H0; lia); try contradiction; try (apply IH; assumption);
  destruct M as (i & step & _ & _ & E); eapply C35_limit; eauto.
Qed.

(** The first move of a drive keeps the driving direction of the start. *)
Theorem C35_first_move : forall clamp p so steps s n c prevs, at_rest s ->
  s_move clamp p so steps s prevs c n \/ d_move clamp p so steps s prevs c n -> sn_fwd n = sn_fwd s.
Proof.
  intros clamp p so steps s n c prevs (_ & _ & Hd) [(i & step & _ & _ & E)|(i & step & _ & _ & E)].
  - apply s_advance_inv in E. destruct E as (cu & delta & s0 & _ & _ & _ & _ & H & -> & _). rewrite H by lia. reflexivity.
  - apply d_advance_inv in E. destruct E as (cu & _ & _ & H & -> & _). rewrite H by lia. reflexivity.
Qed.

(** Change of direction: it happens on straight wheels. In the template neighbourhood
    the [straight_dir_switch - 1] nodes before the reversing point exist and have
    straight wheels, too; the next [straight_dir_switch - 1] moves go on in the new
    direction, and all of them but the newest have straight wheels. *)
Theorem C35_switch : forall clamp p so steps s a sw r b c,
  trip (s_move clamp p so steps) s (a ++ sw :: r :: b) c -> sp_both p = true -> sn_fwd sw <> sn_fwd r ->
  straight sw /\
  (Z.to_nat (sp_sds p - 1) <= length b)%nat /\
  (forall k t, (k < Z.to_nat (sp_sds p - 1))%nat -> nth_error b k = Some t -> straight t) /\
  (forall k t, (Z.of_nat k < sp_sds p - 1)%Z -> nth_error (rev a) k = Some t -> sn_fwd t = sn_fwd sw) /\
  (forall k t, (Z.of_nat k < sp_sds p - 1)%Z -> (S k < length a)%nat -> nth_error (rev a) k = Some t -> straight t \/ (Z.of_nat k = sp_sds p - 2)%Z).
Proof.
  intros clamp p so steps s a sw r b c H Hb Hsw.
  assert (T : exists c', trip (s_move clamp p so steps) s (sw :: r :: b) c') by (apply (trip_tail _ _ a _ c H); discriminate).
  destruct T as (c' & T). inversion T as [|n0 r0 prevs0 c0 cost0 T1 M]; subst. destruct M as (i & step & _ & _ & E). apply s_advance_inv in E.
  destruct E as (cu & delta & s0 & _ & _ & _ & _ & _ & _ & _ & _ & _ & E). rewrite Hb in E.
  destruct E as [(_ & _ & E1 & E2 & E3 & _)|(E1 & _)]; [|congruence].
  split; [assumption|]. apply all_prev_spec in E2. destruct E2 as [L K]. split; [assumption|].
  split. { intros k t Hk Et. specialize (K k t Hk Et). unfold straight. lia. }
  (* the nodes after the reversing point *)
  assert (G : forall a c, trip (s_move clamp p so steps) s (a ++ sw :: r :: b) c ->
    ((Z.of_nat (length a) <= sp_sds p - 1)%Z -> Forall (fun t => sn_fwd t = sn_fwd sw) a /\ Forall straight (tl a) /\
       sn_custom (hd sw a) = Some (sp_sds p - 1 - Z.of_nat (length a))%Z) \/ (sp_sds p <= 0)%Z).
  { clear -Hb E1 E3. intros a. induction a as [|n a IH]; intros c H.
    - left. intros _. cbn. split; [constructor|]. split; [constructor|]. rewrite E3. f_equal. lia.
    - destruct (Z_le_gt_dec (sp_sds p) 0) as [|Hs]; [right; assumption|left]. intros Hl. cbn [length] in Hl.
      cbn [app] in H. inversion H as [|n0 r0 prevs0 c0 cost0 T1 M X1 X2]; subst; [destruct a; discriminate|].
      assert (Hp : r0 :: prevs0 = a ++ sw :: r :: b) by assumption.
      assert (Hr0 : r0 = hd sw a) by (destruct a; cbn in Hp |- *; congruence).
      rewrite Hp in T1. destruct (IH cost0 T1) as [IH1|]; [|lia]. destruct IH1 as (I1 & I2 & I3); [lia|].
      destruct M as (i & step & _ & _ & E). apply s_advance_inv in E.
      destruct E as (cu & delta & s0 & F1 & _ & _ & F2 & _ & _ & _ & _ & _ & E). rewrite Hb in E. rewrite <- Hr0, F1 in I3. injection I3 as I3.
      assert (Hcu : (0 < cu)%Z) by lia. specialize (F2 Hcu).
      destruct E as [(_ & E & _)|(E & E4 & _)]; [lia|].
      assert (Hw : sn_fwd r0 = sn_fwd sw). { rewrite Hr0. destruct a as [|z a]; [reflexivity|]. inversion I1; assumption. }
      split; [constructor; [congruence|assumption]|]. split.
      + cbn [tl]. destruct a as [|z a]; [constructor|]. cbn in Hr0, I2. subst z. constructor; assumption.
      + cbn [hd length]. rewrite E4. f_equal. lia. }
  assert (Hsub : forall m, exists c', trip (s_move clamp p so steps) s (skipn m a ++ sw :: r :: b) c').
  { intros m. rewrite <- (firstn_skipn m a), <- app_assoc in H. apply (trip_tail _ _ _ _ _ H). destruct (skipn m a); discriminate. }
  assert (Hrev : forall k t, nth_error (rev a) k = Some t -> exists a1 a2, a = a1 ++ t :: a2 /\ length a2 = k).
  { intros k t Et. apply nth_error_split in Et. destruct Et as (l1 & l2 & El & Lk). exists (rev l2), (rev l1).
    split; [|rewrite rev_length; assumption]. rewrite <- (rev_involutive a), El, rev_app_distr. cbn. rewrite <- app_assoc. reflexivity. }
  split.
  - intros k t Hk Et. destruct (Hrev k t Et) as (a1 & a2 & Ea & La).
    destruct (Hsub (length a1)) as (c1 & H1). rewrite Ea, skipn_app, skipn_all, Nat.sub_diag in H1. cbn [skipn app] in H1.
    destruct (G (t :: a2) c1 H1) as [G1|]; [|lia]. cbn [length] in G1. destruct G1 as (G1 & _); [lia|]. inversion G1; assumption.
  - intros k t Hk Hl Et. destruct (Hrev k t Et) as (a1 & a2 & Ea & La).
    destruct (Z.eq_dec (Z.of_nat k) (sp_sds p - 2)) as [|Hne]; [right; assumption|left].
    destruct a1 as [|u a1] using rev_ind. { exfalso. rewrite Ea in Hl. cbn in Hl. lia. }
    rewrite <- app_assoc in Ea. cbn [app] in Ea. destruct (Hsub (length a1)) as (c1 & H1). rewrite Ea, skipn_app, skipn_all, Nat.sub_diag in H1. cbn [skipn app] in H1.
    destruct (G (u :: t :: a2) c1 H1) as [G1|]; [|lia]. cbn [length] in G1. destruct G1 as (_ & G1 & _); [lia|]. cbn in G1. inversion G1; assumption.
Qed.

(** In the dynamic neighbourhood a change of direction needs both directions to be
    allowed and straight wheels; the very first move never changes it. *)
Theorem C35_dynamic_switch : forall clamp p so steps ref prevs c n, d_move clamp p so steps ref prevs c n -> sn_fwd n <> sn_fwd ref ->
  sp_both p = true /\ straight n /\ (1 <= sn_depth ref)%Z.
Proof.
  intros clamp p so steps ref prevs c n (i & step & _ & _ & E) H. apply d_advance_inv in E.
  destruct E as (cu & _ & _ & H1 & H2 & _ & [(-> & _ & _ & Hd & _)|(delta & s0 & _ & _ & _ & _ & [(_ & E1 & _ & E2 & _)|(E1 & _)])]).
  - rewrite H1 in H by assumption. congruence.
  - split; [assumption|]. split; [assumption|]. destruct (Z_lt_le_dec (sn_depth ref) 1); [|assumption]. exfalso. apply H. rewrite H2, H1 by assumption. reflexivity.
  - congruence.
Qed.

(** Forward-only vehicles of the template neighbourhood: the flag [custom] of every
    reached node is indeterminate, and no move can be made from it without reading it. *)
Theorem C35_forward_only_refuted : forall clamp p so steps ref prevs c n, sp_both p = false -> s_move clamp p so steps ref prevs c n ->
  forall prevs' c' n', ~ s_move clamp p so steps n prevs' c' n'.
Proof.
  intros clamp p so steps ref prevs c n Hb (i & step & _ & _ & E) prevs' c' n' (i' & step' & _ & _ & E').
  apply s_advance_inv in E. destruct E as (cu & delta & s0 & _ & _ & _ & _ & _ & _ & _ & _ & _ & E). rewrite Hb in E. destruct E as [E _].
  apply s_advance_inv in E'. destruct E' as (cu' & delta' & s0' & E' & _). congruence.
Qed.

(** The last of the [straight_dir_switch - 1] moves after a reversal need not be
    straight: with straight_dir_switch = 2 the move right after it may already steer,
    although the flag is still positive. And the reversing node itself may have been
    reached with turned wheels: only the nodes before it are checked. *)
Definition ex_params : sparams := SP 1 1 60 15 1 false true 2.
Definition ex_so : sopts := SO (5 / 2) 4.
Lemma cast_small z : (-2147483648 <= z < 2147483648)%Z -> cast_i32 (IZR z) = Some z.
Proof. intros H. unfold cast_i32, in_i32. rewrite Ztrunc_IZR. cbv zeta. destruct (_ && _)%Z eqn:E; [reflexivity|lia]. Qed.
Theorem C35_after_switch_refuted : forall clamp,
  exists s l c sw r n, trip (s_move clamp ex_params ex_so 1) s (n :: sw :: r :: l) c /\ at_rest s /\
    sn_fwd sw <> sn_fwd r /\ sn_custom sw = Some 1%Z /\ sn_steer n = (-15)%Z /\ sn_steer r = 15%Z.
Proof.
  intros clamp.
  set (s := SN 0 0 0 true 0 (Some 0%Z) 0).
  assert (D0 : cast_i32 (sp_delta ex_params * 0) = Some 0%Z) by (replace (sp_delta ex_params * 0) with (IZR 0) by (cbn; lra); apply cast_small; lia).
  assert (D1 : cast_i32 (sp_delta ex_params * 1) = Some 15%Z) by (replace (sp_delta ex_params * 1) with (IZR 15) by (cbn; lra); apply cast_small; lia).
  assert (M1 : exists c n, s_advance clamp ex_params ex_so s [] 0 0 = AMove c n /\ sn_steer n = 0%Z /\ sn_fwd n = true /\ sn_custom n = Some 0%Z /\ sn_depth n = 1%Z).
  { unfold s_advance. cbn [sn_depth sn_fwd sn_custom sn_steer s]. cbn [Z.ltb Z.compare xorb andb Z.abs]. rewrite D0. eexists _, _. split; [reflexivity|]. repeat split. }
  destruct M1 as (c1 & n1 & E1 & S1 & F1 & C1 & P1).
  assert (M2 : exists c n, s_advance clamp ex_params ex_so n1 [s] 2 1 = AMove c n /\ sn_steer n = 15%Z /\ sn_fwd n = true /\ sn_custom n = Some 0%Z /\ sn_depth n = 2%Z).
  { unfold s_advance. rewrite S1, F1, C1, P1. cbn [Z.ltb Z.compare Pos.compare Pos.compare_cont xorb andb Z.abs]. rewrite D1. eexists _, _. split; [reflexivity|]. repeat split. }
  destruct M2 as (c2 & r & E2 & S2 & F2 & C2 & P2).
  assert (M3 : exists c n, s_advance clamp ex_params ex_so r [n1; s] 4 1 = AMove c n /\ sn_steer n = 0%Z /\ sn_fwd n = false /\ sn_custom n = Some 1%Z /\ sn_depth n = 3%Z).
  { unfold s_advance. rewrite S2, F2, C2, P2. cbn [Z.ltb Z.compare Pos.compare Pos.compare_cont xorb andb Z.abs]. rewrite D1.
    assert (A : all_prev (Z.to_nat (sp_sds ex_params - 1)) (fun t => negb (0 <? Z.abs (sn_steer t))%Z) [n1; s] = true) by (change (Z.to_nat (sp_sds ex_params - 1)) with 1%nat; unfold all_prev; cbv beta iota; rewrite S1; reflexivity). rewrite A.
    eexists _, _. split; [reflexivity|]. repeat split. }
  destruct M3 as (c3 & sw & E3 & S3 & F3 & C3 & P3).
  assert (M4 : exists c n, s_advance clamp ex_params ex_so sw [r; n1; s] 4 1 = AMove c n /\ sn_steer n = (-15)%Z).
  { unfold s_advance. rewrite S3, F3, C3, P3. cbn [Z.ltb Z.compare Pos.compare Pos.compare_cont xorb andb Z.abs]. rewrite D1. eexists _, _. split; reflexivity. }
  destruct M4 as (c4 & n & E4 & S4).
  exists s, [n1; s], (0 + c1 + c2 + c3 + c4), sw, r, n.
  split; [|split; [repeat split|split; [congruence|auto]]].
  apply trip_move; [|exists 4%Z, 1%Z; split; [lia|split; [lia|assumption]]]. apply trip_move; [|exists 4%Z, 1%Z; split; [lia|split; [lia|assumption]]].
  apply trip_move; [|exists 2%Z, 1%Z; split; [lia|split; [lia|assumption]]]. apply trip_move; [|exists 0%Z, 0%Z; split; [lia|split; [lia|assumption]]]. apply trip_start.
Qed.
