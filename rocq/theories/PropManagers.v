(** Properties C26 (marks), C27 (open lists), C28 (intermission). *)
From Coq Require Import Permutation.
From Verif Require Import Base NodeManagers.
Open Scope Z_scope.

(** ** C26.  What a user expects of flags: the last operation that names a flag
    decides.  [k] is the bit number of the flag; an operation may name several
    flags at once. *)
Definition names (m : Z) (k : Z) : bool := Z.testbit m k.
Definition flag_after (k : Z) (h : list mark_op) : bool :=
  fold_left (fun b o => match o with
                        | Mark m => if names m k then true else b
                        | UnMark m => if names m k then false else b
                        end) h false.
Definition op_mark (o : mark_op) : Z := match o with Mark m => m | UnMark m => m end.

Lemma small_bits a : 0 <= a < 128 <-> 0 <= a /\ forall k, 7 <= k -> Z.testbit a k = false.
Proof.
  split.
  - intros [H0 H1]. split; [exact H0|]. intros k Hk. destruct (Z.eq_dec a 0) as [->|Hn]; [apply Z.bits_0|].
    apply Z.bits_above_log2; [lia|]. apply Z.log2_lt_pow2; [lia|]. apply Z.lt_le_trans with (2 ^ 7); [exact H1|].
    apply Z.pow_le_mono_r; lia.
  - intros [H0 H]. split; [exact H0|]. destruct (Z.eq_dec a 0) as [->|Hn]; [lia|].
    change 128 with (2 ^ 7). apply Z.log2_lt_pow2; [lia|].
    destruct (Z.lt_ge_cases (Z.log2 a) 7) as [Hl|Hl]; [exact Hl|].
    pose proof (H _ Hl) as H1. rewrite Z.bit_log2 in H1; [discriminate|lia].
Qed.

Lemma to_char_small a : 0 <= a < 128 -> to_char a = a.
Proof. unfold to_char. intros H. rewrite Z.mod_small by lia. lia. Qed.

Lemma mark_small a m : 0 <= a < 128 -> 0 <= m < 128 -> mark a m = Z.lor a m /\ 0 <= mark a m < 128.
Proof.
  intros Ha Hm. assert (H : 0 <= Z.lor a m < 128).
  { apply small_bits in Ha as [A1 A2], Hm as [M1 M2]. apply small_bits. split; [apply Z.lor_nonneg; auto|].
    intros k Hk. rewrite Z.lor_spec, A2, M2 by exact Hk. reflexivity. }
  unfold mark. rewrite to_char_small by exact H. split; [reflexivity|exact H].
Qed.

Lemma unMark_small a m : 0 <= a < 128 -> 0 <= m < 128 -> unMark a m = Z.land a (Z.lnot m) /\ 0 <= unMark a m < 128.
Proof.
  intros Ha Hm. assert (H : 0 <= Z.land a (Z.lnot m) < 128).
  { apply small_bits in Ha as [A1 A2]. apply small_bits. split; [apply Z.land_nonneg; auto|].
    intros k Hk. rewrite Z.land_spec, A2 by exact Hk. reflexivity. }
  unfold unMark. rewrite to_char_small by exact H. split; [reflexivity|exact H].
Qed.

Lemma isMarked_bit a k : 0 <= k -> isMarked a (2 ^ k) = Z.testbit a k.
Proof.
  intros Hk. unfold isMarked. destruct (Z.testbit a k) eqn:E.
  - apply Z.eqb_eq. apply Z.bits_inj'. intros n Hn. rewrite Z.land_spec, Z.pow2_bits_eqb by exact Hk.
    destruct (Z.eqb_spec k n) as [->|]; [rewrite E; reflexivity|apply andb_false_r].
  - apply Z.eqb_neq. intros H. assert (Hb : Z.testbit (Z.land a (2 ^ k)) k = Z.testbit (2 ^ k) k) by (rewrite H; reflexivity).
    rewrite Z.land_spec, Z.pow2_bits_true, E in Hb by exact Hk. discriminate.
Qed.

Lemma mark_run_bits h : (forall o, In o h -> 0 <= op_mark o < 128) -> forall a, 0 <= a < 128 ->
  0 <= fold_left mark_step h a < 128 /\
  forall k, 0 <= k -> Z.testbit (fold_left mark_step h a) k =
    fold_left (fun b o => match o with
                        | Mark m => if names m k then true else b
                        | UnMark m => if names m k then false else b
                        end) h (Z.testbit a k).
Proof.
  induction h as [|o h IH]; intros Hh a Ha; [split; [exact Ha|reflexivity]|].
  assert (Ho : 0 <= op_mark o < 128) by (apply Hh; left; reflexivity).
  assert (Hh' : forall o', In o' h -> 0 <= op_mark o' < 128) by (intros o' Ho'; apply Hh; right; exact Ho').
  cbn [fold_left]. assert (Hs : 0 <= mark_step a o < 128).
  { destruct o as [m|m]; cbn [mark_step op_mark] in *; [apply mark_small|apply unMark_small]; assumption. }
  destruct (IH Hh' _ Hs) as [I1 I2]. split; [exact I1|]. intros k Hk. rewrite I2 by exact Hk. f_equal.
  destruct o as [m|m]; cbn [mark_step op_mark] in *.
  - rewrite (proj1 (mark_small a m Ha Ho)), Z.lor_spec. unfold names. destruct (Z.testbit m k); [apply orb_true_r|apply orb_false_r].
  - rewrite (proj1 (unMark_small a m Ha Ho)), Z.land_spec, Z.lnot_spec by exact Hk. unfold names.
    destruct (Z.testbit m k); [apply andb_false_r|apply andb_true_r].
Qed.

(** After every history of mark/unMark calls on a new node, each flag (bits 0 to
    6; the library uses bits 0 to 3) has the value its own last operation gave it. *)
Theorem C26_marks_independent h k : (forall o, In o h -> 0 <= op_mark o < 128) -> 0 <= k <= 6 ->
  isMarked (mark_run h) (2 ^ k) = flag_after k h.
Proof.
  intros Hh Hk. destruct (mark_run_bits h Hh 0 ltac:(lia)) as [_ H]. rewrite isMarked_bit by lia.
  unfold mark_run, flag_after. rewrite (H k) by lia. rewrite Z.bits_0. reflexivity.
Qed.
(** The four library marks are four different flags. *)
Theorem C26_mark_constants : MARK_OPEN = 2 ^ 0 /\ MARK_CLOSED = 2 ^ 1 /\ MARK_WATCHED = 2 ^ 2 /\ MARK_EXPANDED = 2 ^ 3.
Proof. repeat split. Qed.
Print Assumptions C26_marks_independent.
Example C26_example : let h := [Mark MARK_OPEN; Mark MARK_WATCHED; UnMark MARK_OPEN; Mark MARK_CLOSED] in
  isMarked (mark_run h) MARK_CLOSED = true /\ isMarked (mark_run h) MARK_WATCHED = true /\
  isMarked (mark_run h) MARK_OPEN = false /\ isMarked (mark_run h) MARK_EXPANDED = false.
Proof. repeat split. Qed.

(** ** C27 *)
Section Managers.
  Context {N : Type}.
  Implicit Types (h : list (mgr_op N)) (l : list N).
  (** What was added, in order. *)
  Definition added h : list N := flat_map (fun o => match o with Add n => [n] | _ => [] end) h.
  Definition no_clear h : Prop := ~ In Clear h.
  Definition nexts h : nat := length (filter (fun o => match o with Next => true | _ => false end) h).

  (** The queue hands out the nodes in the order they were added, each once;
      what is left is exactly what was added and not yet handed out. *)
  Theorem C27_queue_fifo h l outs : no_clear h -> m_run q_step h [] = Some (l, outs) -> added h = outs ++ l.
  Proof.
    assert (G : forall h l0 l outs, no_clear h -> m_run q_step h l0 = Some (l, outs) -> l0 ++ added h = outs ++ l).
    { clear. induction h as [|o h IH]; intros l0 l outs Hc H; cbn [m_run] in H.
      - injection H as <- <-. cbn [added flat_map app]. rewrite app_nil_r. reflexivity.
      - destruct (q_step l0 o) as [[l1 out]|] eqn:E1; [|discriminate].
        destruct (m_run q_step h l1) as [[l2 outs2]|] eqn:E2; [|discriminate]. injection H as <- <-.
        assert (Hc' : no_clear h) by (intros Hi; apply Hc; right; exact Hi).
        specialize (IH _ _ _ Hc' E2). destruct o as [n| |]; cbn [q_step] in E1.
        + injection E1 as <- <-. cbn [added flat_map]. rewrite <- app_assoc in IH. exact IH.
        + destruct l0 as [|n r]; [discriminate|]. injection E1 as <- <-. cbn [added flat_map app]. f_equal. exact IH.
        + exfalso. apply Hc. left. reflexivity. }
    intros Hc H. apply (G _ [] _ _ Hc H).
  Qed.

  (** next() is defined exactly when something is there; size() is the number of
      nodes added and not yet handed out. *)
  Theorem C27_queue_defined h : (m_run q_step h [] = None <->
    exists h1 h2 l, h = h1 ++ Next :: h2 /\ exists outs, m_run q_step h1 [] = Some (l, outs) /\ q_empty l = true).
  Proof.
    assert (G : forall h l0, m_run q_step h l0 = None <->
      exists h1 h2 l, h = h1 ++ Next :: h2 /\ exists outs, m_run q_step h1 l0 = Some (l, outs) /\ q_empty l = true).
    { clear. induction h as [|o h IH]; intros l0; cbn [m_run].
      - split; [discriminate|]. intros (h1 & h2 & l & E & _). destruct h1; discriminate.
      - split.
        + destruct (q_step l0 o) as [[l1 out]|] eqn:E1.
          * destruct (m_run q_step h l1) as [[l2 outs2]|] eqn:E2; [discriminate|]. intros _. apply IH in E2 as (h1 & h2 & l & -> & outs & E & Hl).
            exists (o :: h1), h2, l. split; [reflexivity|]. cbn [m_run]. rewrite E1, E. eexists. split; [reflexivity|exact Hl].
          * intros _. destruct o as [n| |]; try discriminate E1. destruct l0; [|discriminate]. exists [], h, []. split; [reflexivity|].
            exists []. split; reflexivity.
        + intros (h1 & h2 & l & E & outs & Hr & Hl). destruct h1 as [|o1 h1].
          * injection E as -> ->. cbn [m_run] in Hr. injection Hr as <- <-. destruct l0; [reflexivity|discriminate].
          * injection E as <- ->. cbn [m_run] in Hr. destruct (q_step l0 o) as [[l1 out]|]; [|reflexivity].
            destruct (m_run q_step h1 l1) as [[l2 outs2]|] eqn:E2; [|discriminate]. injection Hr as <- <-.
            assert (H : m_run q_step (h1 ++ Next :: h2) l1 = None) by (apply IH; exists h1, h2, l2; split; [reflexivity|]; exists outs2; split; assumption).
            rewrite H. reflexivity. }
    apply G.
  Qed.
  Theorem C27_queue_size h l outs : no_clear h -> m_run q_step h [] = Some (l, outs) -> (q_size l + nexts h = length (added h))%nat.
  Proof.
    intros Hc H. rewrite (C27_queue_fifo _ _ _ Hc H), app_length. unfold q_size.
    assert (G : forall h l0 l outs, m_run q_step h l0 = Some (l, outs) -> length outs = nexts h).
    { clear. induction h as [|o h IH]; intros l0 l outs H; cbn [m_run] in H; [injection H as <- <-; reflexivity|].
      destruct (q_step l0 o) as [[l1 out]|] eqn:E1; [|discriminate].
      destruct (m_run q_step h l1) as [[l2 outs2]|] eqn:E2; [|discriminate]. injection H as <- <-. apply IH in E2.
      destruct o as [n| |]; cbn [q_step] in E1.
      - injection E1 as <- <-. exact E2.
      - destruct l0; [discriminate|]. injection E1 as <- <-. cbn [length nexts filter]. f_equal. exact E2.
      - injection E1 as <- <-. exact E2. }
    rewrite (G _ _ _ _ H). lia.
  Qed.
  Theorem C27_clear l : (exists o, q_step l Clear = Some ([], o)) /\ (exists o, st_step l Clear = Some ([], o)).
  Proof.
    split; [eexists; reflexivity|]. cbn [st_step]. assert (H : clear_loop (length l) l = Some []).
    { induction l as [|n l IH]; [reflexivity|exact IH]. }
    rewrite H. eexists. reflexivity.
  Qed.

  (** The stack: a node is handed out when everything added after it has been;
      nothing is lost or duplicated. *)
  Theorem C27_stack_lifo h n l outs : m_run st_step h [] = Some ([], outs) -> no_clear h ->
    m_run st_step (Add n :: h ++ [Next]) l = Some (l, outs ++ [n]).
  Proof.
    assert (G : forall h l0 l1 outs, no_clear h -> m_run st_step h l0 = Some (l1, outs) ->
      forall k l', m_run st_step k (l1 ++ l') = None \/ True -> forall r o, m_run st_step k (l1 ++ l') = Some (r, o) -> m_run st_step (h ++ k) (l0 ++ l') = Some (r, outs ++ o)).
    { clear. induction h as [|o h IH]; intros l0 l1 outs Hc H k l' Hk r q Hr; cbn [m_run app] in *.
      - injection H as <- <-. exact Hr.
      - assert (Hc' : no_clear h) by (intros Hi; apply Hc; right; exact Hi).
        destruct (st_step l0 o) as [[l2 out]|] eqn:E1; [|discriminate].
        destruct (m_run st_step h l2) as [[l3 outs3]|] eqn:E2; [|discriminate]. injection H as <- <-.
        assert (E1' : st_step (l0 ++ l') o = Some (l2 ++ l', out)).
        { destruct o as [n| |]; cbn [st_step] in E1 |- *.
          - injection E1 as <- <-. reflexivity.
          - destruct l0; [discriminate|]. injection E1 as <- <-. reflexivity.
          - exfalso. apply Hc. left. reflexivity. }
        rewrite E1', (IH _ _ _ Hc' E2 k l' Hk r q Hr). destruct out; reflexivity. }
    intros H Hc. cbn [m_run st_step]. change (n :: l) with ([] ++ n :: l).
    rewrite (G _ _ _ _ Hc H [Next] (n :: l) (or_intror I) l [n]); reflexivity.
  Qed.
  Theorem C27_stack_once h l outs : no_clear h -> m_run st_step h [] = Some (l, outs) -> Permutation (added h) (outs ++ l).
  Proof.
    assert (G : forall h l0 l outs, no_clear h -> m_run st_step h l0 = Some (l, outs) -> Permutation (l0 ++ added h) (outs ++ l)).
    { clear. induction h as [|o h IH]; intros l0 l outs Hc H; cbn [m_run] in H.
      - injection H as <- <-. cbn [added flat_map app]. rewrite app_nil_r. reflexivity.
      - assert (Hc' : no_clear h) by (intros Hi; apply Hc; right; exact Hi).
        destruct (st_step l0 o) as [[l1 out]|] eqn:E1; [|discriminate].
        destruct (m_run st_step h l1) as [[l2 outs2]|] eqn:E2; [|discriminate]. injection H as <- <-.
        specialize (IH _ _ _ Hc' E2). destruct o as [n| |]; cbn [st_step] in E1.
        + injection E1 as <- <-. cbn [added flat_map app] in *. rewrite <- IH. symmetry. apply Permutation_middle.
        + destruct l0 as [|n r]; [discriminate|]. injection E1 as <- <-. cbn [added flat_map app]. apply perm_skip. exact IH.
        + exfalso. apply Hc. left. reflexivity. }
    intros Hc H. apply (G _ [] _ _ Hc H).
  Qed.

  (** The priority queue hands out a node of minimal total cost (costs at the
      time of the call), given a container that keeps its contract. *)
  Theorem C27_priority_minimal {C} (lt : C -> C -> bool) top cost l t : top_ok lt top -> top cost l = Some t ->
    In t l /\ forall x, In x l -> lt (cost x) (cost t) = false.
  Proof. intros H E. specialize (H cost l). rewrite E in H. exact H. Qed.
End Managers.
Print Assumptions C27_queue_fifo.

(** QueueManager::remove leaves the element in. *)
Theorem C27_queue_remove_refuted : exists (l : list Z) n, In n l /\ In n (q_remove l n).
Proof. exists [1], 1. split; left; reflexivity. Qed.
Example C27_example : m_run q_step [Add 5; Add 3; Next; Add 9; Next] [] = Some ([9], [5; 3]) /\
  m_run st_step [Add 5; Add 3; Next; Add 9; Next] [] = Some ([5], [3; 9]).
Proof. split; reflexivity. Qed.

(** ** C28 *)
Definition im_called (steps start_step : Z) (n : nat) : list bool := snd (im_run steps n (im_init start_step)).

Lemma im_run_length steps n : forall s, length (snd (im_run steps n s)) = n.
Proof.
  induction n as [|n IH]; intros s; [reflexivity|]. cbn [im_run]. destruct (im_call steps s) as [s1 b].
  specialize (IH s1). destruct (im_run steps n s1) as [s2 l]. cbn [snd length] in *. lia.
Qed.

(** Once started: the call number k (from 1) with [next] left fires iff ... *)
Lemma im_run_started steps n : 0 < steps -> forall next, 1 <= next <= steps -> forall i, (i < n)%nat ->
  nth i (snd (im_run steps n (IM next false))) false = ((Z.of_nat i + 1 - next) mod steps =? 0).
Proof.
  intros Hs. induction n as [|n IH]; intros next Hn i Hi; [lia|]. cbn [im_run].
  unfold im_call. cbn [im_next im_start]. rewrite orb_false_r.
  destruct (Z.leb_spec (next - 1) 0) as [H|H].
  - assert (next = 1) as -> by lia. cbn [Z.gtb Z.compare Z.sub]. specialize (IH steps ltac:(lia)).
    change (1 - 1 >? 0) with false. cbn iota.
    destruct (im_run steps n (IM steps false)) as [s2 l] eqn:E. cbn [snd] in *. destruct i as [|i].
    + cbn [nth]. change (Z.of_nat 0 + 1 - 1) with 0. rewrite Z.mod_0_l by lia. reflexivity.
    + cbn [nth]. rewrite IH by lia. replace (Z.of_nat (S i) + 1 - 1) with (Z.of_nat i + 1 - steps + 1 * steps) by lia.
      rewrite Z.mod_add by lia. reflexivity.
  - specialize (IH (next - 1) ltac:(lia)). destruct (im_run steps n (IM (next - 1) false)) as [s2 l] eqn:E. cbn [snd] in *. destruct i as [|i].
    + cbn [nth]. symmetry. apply Z.eqb_neq. change (Z.of_nat 0) with 0.
      replace (0 + 1 - next) with (steps + 1 - next + (-1) * steps) by lia. rewrite Z.mod_add by lia.
      rewrite Z.mod_small by lia. lia.
    + cbn [nth]. rewrite IH by lia. f_equal. f_equal. lia.
Qed.

(** The callback fires at step i (counted from 1 over the life of the program)
    iff i <= first, or i - first is a multiple of [steps], where first =
    max(1, start_step). *)
Theorem C28_intermission_steps steps start_step n i : 0 < steps -> (i < n)%nat ->
  let step := Z.of_nat i + 1 in
  let first := Z.max 1 start_step in
  nth i (im_called steps start_step n) false = ((step <=? first) || ((step - first) mod steps =? 0)).
Proof.
  intros Hs Hi. cbv zeta. unfold im_called, im_init. revert start_step i Hi.
  induction n as [|n IH]; intros st i Hi; [lia|]. cbn [im_run]. unfold im_call. cbn [im_next im_start]. rewrite orb_true_r.
  destruct (Z.gtb_spec (st - 1) 0) as [H|H].
  - specialize (IH (st - 1)). destruct (im_run steps n (IM (st - 1) true)) as [s2 l] eqn:E. cbn [snd] in *. destruct i as [|i].
    + cbn [nth]. symmetry. apply orb_true_iff. left. lia.
    + cbn [nth]. rewrite IH by lia. f_equal; [lia|]. f_equal. f_equal. lia.
  - pose proof (im_run_started steps n Hs steps ltac:(lia)) as G. destruct (im_run steps n (IM steps false)) as [s2 l] eqn:E. cbn [snd] in *.
    destruct i as [|i].
    + cbn [nth]. symmetry. apply orb_true_iff. left. lia.
    + cbn [nth]. rewrite G by lia. replace (Z.max 1 st) with 1 by lia.
      replace (Z.of_nat (S i) + 1 - 1) with (Z.of_nat i + 1 - steps + 1 * steps) by lia. rewrite Z.mod_add by lia.
      destruct (Z.leb_spec (Z.of_nat (S i) + 1) 1); [lia|]. reflexivity.
Qed.
(** Exactly one answer per step: never twice. *)
Theorem C28_once_per_step steps start_step n : length (im_called steps start_step n) = n.
Proof. apply im_run_length. Qed.

(** Without intermission (steps = 0) no step of any search calls it. *)
Theorem C28_never : forall n s, fst (Nat.iter n (fun '(s, l) => let '(s', b) := im0_call s in (s', b :: l)) (s, [])) = s /\
  forall b, In b (snd (Nat.iter n (fun '(s, l) => let '(s', b) := im0_call s in (s', b :: l)) (s, []))) -> b = false.
Proof.
  intros n s. induction n as [|n [IH1 IH2]]; [split; [reflexivity|intros b []]|]. cbn [Nat.iter nat_rect].
  unfold Nat.iter in *. destruct (nat_rect _ _ _ n) as [s1 l]. cbn [fst snd im0_call] in *. split; [exact IH1|].
  intros b [<- | Hb]; [reflexivity|apply IH2; exact Hb].
Qed.

(** The counters are static: a second search continues the count of the first.
    (steps = 3: the first search makes 2 steps, firing at its first one; the
    second search does not fire at its first step.) *)
Theorem C28_second_search_refuted : exists steps start_step,
  let '(s, first_search) := im_run steps 2 (im_init start_step) in
  nth 0 first_search false = true /\ nth 0 (snd (im_run steps 2 s)) true = false.
Proof. exists 3, 0. vm_compute. split; reflexivity. Qed.
Print Assumptions C28_intermission_steps.
Example C28_example : im_called 3 2 9 = [true; true; false; false; true; false; false; true; false].
Proof. reflexivity. Qed.
