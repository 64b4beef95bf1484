(** C39: iterating over a Reeds-Shepp curve. *)
From Verif Require Import Base RSModel.
Local Open Scope nat_scope.

(** What a user expects: the points of the segments one after the other. *)
Section Iter.
  Context {A : Type} (dflt : A).
  (** A curve whose segments have the points [ls], in any iteration state. *)
  Definition curve_of (ls : list (list A)) (c : citer A) : Prop := map (@si_pts A) (ci_segs A c) = ls.
  (** Segments with points, at least in the end. *)
  Definition ends_with_points (ls : list (list A)) : Prop := ls = [] \/ exists r l, ls = r ++ [l] /\ l <> [].

  Definition fresh (l : list A) : siter A := SI A l 0 true.
  Definition rep (c : citer A) (pre : list (siter A)) (cur : list A) (k : nat) (rest : list (list A)) : Prop :=
    c = CI A (pre ++ SI A cur k true :: map fresh rest) (length pre) true.
  Fixpoint last_empty (ls : list (list A)) : bool := match ls with [] => false | [l] => match l with [] => true | _ => false end | _ :: t => last_empty t end.
  Definition tail (rest : list (list A)) : list A := concat rest ++ if last_empty rest then [dflt] else [].

  Lemma nth_mid (pre : list (siter A)) s r : nth_error (pre ++ s :: r) (length pre) = Some s.
  Proof. rewrite nth_error_app2, Nat.sub_diag by lia. reflexivity. Qed.
  Lemma set_mid (pre : list (siter A)) s s' r : list_set (pre ++ s :: r) (length pre) s' = Some (pre ++ s' :: r).
  Proof. induction pre as [|x pre IH]; cbn; [reflexivity|]. rewrite IH. reflexivity. Qed.
  Lemma rep_has_next c pre cur k rest : rep c pre cur k rest ->
    c_has_next A c = Some ((k <? length cur) || negb (match rest with [] => true | _ => false end), c).
  Proof.
    intros ->. unfold c_has_next. cbn [ci_segs ci_out]. rewrite nth_mid. cbn [s_has_next si_on si_out si_pts]. cbn [obind].
    do 2 f_equal. f_equal. rewrite app_length. cbn [length]. rewrite map_length. destruct rest; cbn [length negb].
    - apply Nat.ltb_ge. lia.
    - apply Nat.ltb_lt. lia.
  Qed.
  Lemma rep_next_here c pre cur k rest f a : rep c pre cur k rest -> nth_error cur k = Some a ->
    exists c', c_next A dflt (S f) c = Some (a, c') /\ rep c' pre cur (S k) rest.
  Proof.
    intros -> E. cbn [c_next ci_segs ci_out ci_on]. rewrite nth_mid. cbn [obind s_has_next si_on si_out si_pts].
    assert (k < length cur) by (apply nth_error_Some; congruence). assert (k <? length cur = true) as -> by (apply Nat.ltb_lt; assumption).
    unfold s_next. cbn [si_on si_pts si_out]. rewrite E. cbn [obind fst snd]. rewrite set_mid. cbn [obind]. eexists. split; [reflexivity|]. reflexivity.
  Qed.
  Lemma rep_next_over : forall rest c pre cur f, rep c pre cur (length cur) rest -> rest <> [] -> length rest < f ->
    exists a c' pre' cur' k' rest', c_next A dflt f c = Some (a, c') /\ rep c' pre' cur' k' rest' /\ k' <= length cur' /\
      length (ci_segs A c') = length (ci_segs A c) /\ tail rest = a :: skipn k' cur' ++ tail rest'.
  Proof.
    induction rest as [|l rest IH]; intros c pre cur f Hr Hne Hf; [contradiction|]. destruct f as [|f]; [cbn in Hf; lia|]. cbn in Hf.
    pose proof (rep_has_next _ _ _ _ _ Hr) as Hn. rewrite Hr in Hn |- *. cbn [c_next ci_segs ci_out]. rewrite nth_mid. cbn [obind s_has_next si_on si_out si_pts].
    rewrite Nat.ltb_irrefl in Hn |- *. rewrite Hn. cbn [obind fst snd orb negb ci_segs ci_out ci_on].
    set (pre1 := pre ++ [SI A cur (length cur) true]).
    assert (Es : pre ++ SI A cur (length cur) true :: map fresh (l :: rest) = pre1 ++ fresh l :: map fresh rest) by (unfold pre1; rewrite <- app_assoc; reflexivity).
    assert (El : S (length pre) = length pre1) by (unfold pre1; rewrite app_length; cbn; lia).
    rewrite Es, El, nth_mid. cbn [obind]. rewrite set_mid. cbn [obind]. change (s_reset A (fresh l)) with (SI A l 0 true).
    assert (R1 : rep (CI A (pre1 ++ SI A l 0 true :: map fresh rest) (length pre1) true) pre1 l 0 rest) by reflexivity.
    destruct l as [|a l].
    - destruct rest as [|l2 rest].
      + destruct f as [|f]; [lia|]. cbn [c_next ci_segs ci_out]. rewrite nth_mid. cbn [obind s_has_next si_on si_out si_pts length Nat.ltb Nat.leb].
        pose proof (rep_has_next _ _ _ _ _ R1) as Hn1. rewrite Hn1. cbn [obind fst snd orb negb Nat.ltb Nat.leb length].
        exists dflt, (CI A (pre1 ++ [SI A [] 0 true]) (length pre1) true), pre1, [], 0, []. split; [reflexivity|]. split; [reflexivity|]. split; [cbn; lia|]. split; [reflexivity|reflexivity].
      + destruct (IH _ pre1 [] f R1) as (a & c' & pre' & cur' & k' & rest' & E & Rr & Hk & Hl & T); [discriminate|cbn; cbn in Hf; lia|].
        exists a, c', pre', cur', k', rest'. split; [exact E|]. split; [exact Rr|]. split; [exact Hk|]. split; [|exact T]. rewrite Hl. reflexivity.
    - destruct f as [|f]; [lia|]. destruct (rep_next_here _ pre1 (a :: l) 0 rest f a R1 eq_refl) as (c' & E & Rr).
      exists a, c', pre1, (a :: l), 1, rest. split; [exact E|]. split; [exact Rr|]. split; [cbn; lia|]. split; [rewrite Rr; cbn; rewrite !app_length; reflexivity|].
      unfold tail. cbn [concat skipn]. cbn [app]. f_equal. rewrite <- app_assoc. f_equal. f_equal. cbn [last_empty]. destruct rest; reflexivity.
  Qed.

  Lemma drain_rep : forall n c pre cur k rest, rep c pre cur k rest -> k <= length cur -> length (skipn k cur ++ tail rest) <= n ->
    drain A dflt n c = Some (skipn k cur ++ tail rest, true).
  Proof.
    induction n as [|n IH]; intros c pre cur k rest Hr Hk Hn.
    - destruct (skipn k cur ++ tail rest) as [|x xs] eqn:E; [|cbn in Hn; lia]. apply app_eq_nil in E. destruct E as [E1 E2].
      cbn [drain]. rewrite (rep_has_next _ _ _ _ _ Hr). cbn [obind fst].
      assert (length (skipn k cur) = 0) by (rewrite E1; reflexivity). rewrite skipn_length in H. assert (k <? length cur = false) as -> by (apply Nat.ltb_ge; lia).
      destruct rest as [|l rest]; [reflexivity|]. exfalso. unfold tail in E2. apply app_eq_nil in E2. destruct E2 as [E2 E3].
      clear - E2 E3. revert l E2 E3. induction rest as [|l2 rest IH]; intros l E2 E3.
      + cbn in E2. rewrite app_nil_r in E2. subst l. discriminate.
      + cbn [concat] in E2. apply app_eq_nil in E2. destruct E2 as [_ E2]. apply (IH l2); assumption.
    - cbn [drain]. rewrite (rep_has_next _ _ _ _ _ Hr). cbn [obind fst snd].
      destruct (k <? length cur) eqn:Ek.
      + apply Nat.ltb_lt in Ek. cbn [orb]. destruct (nth_error cur k) as [a|] eqn:Ea; [|apply nth_error_None in Ea; lia].
        destruct (rep_next_here c pre cur k rest (length (ci_segs A c)) a Hr Ea) as (c' & E & Rr). rewrite E. cbn [obind fst snd].
        assert (Sk : skipn k cur = a :: skipn (S k) cur).
        { clear - Ea. revert cur Ea. induction k as [|k IHk]; intros [|x cur] Ea; cbn in *; try discriminate; [congruence|apply IHk; assumption]. }
        rewrite Sk in Hn |- *. cbn in Hn. rewrite (IH c' pre cur (S k) rest Rr); [reflexivity|lia|cbn; lia].
      + apply Nat.ltb_ge in Ek. assert (k = length cur) as -> by lia. rewrite skipn_all in Hn |- *. cbn [app orb] in *. destruct rest as [|l rest]; [reflexivity|].
        cbn [negb]. destruct (rep_next_over (l :: rest) c pre cur (S (length (ci_segs A c))) Hr) as (a & c' & pre' & cur' & k' & rest' & E & Rr & Hk' & Hl & T); [discriminate| |].
        { rewrite Hr. cbn [ci_segs]. rewrite app_length. cbn. rewrite map_length. lia. }
        rewrite E. cbn [obind fst snd]. rewrite T in Hn |- *. cbn in Hn. rewrite (IH c' pre' cur' k' rest' Rr Hk'); [reflexivity|lia].
  Qed.

  Lemma reset_rep ls c : curve_of ls c -> ls <> [] -> exists l rest, ls = l :: rest /\ rep (c_reset A c) [] l 0 rest.
  Proof.
    unfold curve_of. intros E Hne. destruct c as [segs o on]. cbn [ci_segs] in E. destruct segs as [|s segs]; cbn in E; [congruence|].
    subst ls. exists (si_pts A s), (map (@si_pts A) segs). split; [reflexivity|]. unfold rep, c_reset. cbn. f_equal. f_equal. rewrite map_map. reflexivity.
  Qed.

  (** From the beginning, has_next/next deliver the points of the segments in order,
      then stop, if the last segment has points; if it has none, and another segment
      stands before it, one default pose follows. *)
  Theorem C39_iterate : forall ls c n, curve_of ls c -> ends_with_points ls -> length (concat ls) <= n ->
    drain A dflt n (c_reset A c) = Some (concat ls, true).
  Proof.
    intros ls c n Hc He Hn. destruct ls as [|l0 ls0].
    - unfold curve_of in Hc. apply map_eq_nil in Hc. destruct c as [segs o on]. cbn in Hc. subst segs. unfold c_reset. cbn [ci_segs map ci_out ci_on].
      assert (H : c_has_next A (CI A [] o true) = Some (false, CI A [] o false)) by (unfold c_has_next; cbn; destruct o; reflexivity).
      destruct n; cbn [drain]; rewrite H; reflexivity.
    - destruct (reset_rep _ c Hc) as (l & rest & E & Hr); [discriminate|]. rewrite E in *. clear l0 ls0 E.
      assert (T : tail rest = concat rest).
      { unfold tail. assert (last_empty rest = false) as ->; [|apply app_nil_r]. destruct He as [He|(r & z & He & Hz)]; [discriminate|].
        clear - He Hz. revert r l He. induction rest as [|a rest IH]; intros r l He; [reflexivity|].
        destruct r as [|x r]; [destruct rest; discriminate|]. cbn in He. injection He as -> He. specialize (IH r a He).
        destruct rest as [|b rest]; [destruct r as [|y r]; [injection He as ->; cbn; destruct z; [contradiction|reflexivity]|destruct r; discriminate]|exact IH]. }
      rewrite (drain_rep n _ [] l 0 rest Hr) by (rewrite ?T; cbn in *; lia || (cbn; rewrite T; exact Hn)). cbn. rewrite T. reflexivity.
  Qed.
  Theorem C39_iterate_refuted : forall ls l c n, curve_of (l :: ls ++ [[]]) c -> length (concat (l :: ls)) < n ->
    drain A dflt n (c_reset A c) = Some (concat (l :: ls) ++ [dflt], true).
  Proof.
    intros ls l c n Hc Hn. destruct (reset_rep _ c Hc) as (l' & rest & E & Hr); [discriminate|]. injection E as <- <-.
    assert (T : tail (ls ++ [[]]) = concat ls ++ [dflt]).
    { unfold tail. rewrite concat_app. cbn [concat]. rewrite !app_nil_r. f_equal. assert (last_empty (ls ++ [[]]) = true) as ->; [|reflexivity].
      clear. induction ls as [|a ls IH]; [reflexivity|]. cbn. destruct (ls ++ [[]]) eqn:E; [destruct ls; discriminate|exact IH]. }
    rewrite (drain_rep n _ [] l 0 _ Hr).
    - cbn [skipn]. rewrite T. cbn [concat]. rewrite <- app_assoc. reflexivity.
    - lia.
    - cbn [skipn]. rewrite T, !app_length. cbn in *. rewrite app_length in Hn. lia.
  Qed.
End Iter.

Example C39_example : curve_of [[1; 2]; []; [3]] (CI nat [SI nat [1; 2] 7 false; SI nat [] 0 false; SI nat [3] 1 true] 2 false) /\
  ends_with_points [[1; 2]; []; [3]] /\ drain nat 0 3 (c_reset nat (CI nat [SI nat [1; 2] 7 false; SI nat [] 0 false; SI nat [3] 1 true] 2 false)) = Some ([1; 2; 3], true).
Proof. split; [reflexivity|]. split; [|reflexivity]. right. exists [[1; 2]; []], [3]. split; [reflexivity|discriminate]. Qed.
