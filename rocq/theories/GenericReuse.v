(** The uninitialised member first_candidate_weight never influences a search. *)
From Verif Require Import Base GenericSearch.

Section Reuse.
  Context {V C : Type}.
  Variable veqb : V -> V -> bool.
  Variable all : list V.
  Variable zero : C.
  Variable add : C -> C -> C.
  Variable lt : C -> C -> bool.
  Variable tot : C -> C -> C.
  Variable nbr : V -> list (V * C).
  Variable hval : V -> C.
  Variable push : (V -> C) -> V -> list V -> list V.
  Variable pop : (V -> C) -> list V -> option (V * list V).
  Variable start : list V.
  Variable is_goal : V -> bool.
  Variable has_goal use_candidates : bool.
  Variable over : C -> C -> bool.
  Variable gdist : V -> C.
  Variable best : list (V * C) -> option V.
  Variable timeout : nat -> bool.
  Notation process_all := (process_all V C veqb add lt tot hval push has_goal).
  Notation loop := (loop V C veqb all add lt tot nbr hval push pop start is_goal has_goal use_candidates over gdist best timeout).
  Notation run := (run V C veqb all zero add lt tot nbr hval push pop start is_goal has_goal use_candidates over gdist best timeout).

  (** Equal up to first_candidate_weight while there is no candidate. *)
  Definition same (s t : state V C) : Prop :=
    s_info V C s = s_info V C t /\ s_open V C s = s_open V C t /\ s_cand V C s = s_cand V C t /\
    (s_cand V C s = [] \/ s_first V C s = s_first V C t).

  Lemma process_same cur l : forall s t, same s t ->
    match process_all cur l s, process_all cur l t with
    | Some s', Some t' => same s' t'
    | None, None => True
    | _, _ => False
    end.
  Proof.
    induction l as [|[v c] l IH]; intros [si so sc sf] [ti to tc tf] H; [exact H|]. cbn [GenericSearch.process_all].
    destruct H as (A & B & D & F). cbn [s_info s_open s_cand s_first] in *. subst ti to tc.
    unfold processNeighbor. cbn [s_info s_open s_cand s_first].
    destruct (_ && _); cbn [obind]; [apply IH; repeat split; assumption|].
    destruct (_ || _); cbn [obind]; [|apply IH; repeat split; assumption].
    destruct (veqb v cur); cbn [obind]; [exact I|apply IH; repeat split; assumption].
  Qed.

  Lemma loop_same fuel : forall n s t, same s t ->
    fst (loop fuel n s) = fst (loop fuel n t) /\ s_info V C (snd (loop fuel n s)) = s_info V C (snd (loop fuel n t)).
  Proof.
    induction fuel as [|k IH]; intros n s t H; cbn [GenericSearch.loop]; [split; [reflexivity|apply H]|].
    assert (Hfin : forall s t, same s t -> finish V C veqb all start best s = finish V C veqb all start best t).
    { intros a b (A & B & D & _). unfold finish. rewrite A, D. reflexivity. }
    pose proof H as (A & B & D & F). rewrite B. destruct (s_open V C t) as [|v0 o0]; [split; [apply Hfin; assumption|assumption]|].
    destruct (timeout n); [split; [apply Hfin; assumption|assumption]|]. rewrite A.
    destruct (pop _ _) as [[cur o]|]; [|split; [reflexivity|assumption]].
    assert (H1 : same (close V C veqb hval has_goal s cur o) (close V C veqb hval has_goal t cur o)).
    { unfold close. rewrite A. repeat split; assumption. }
    set (s1 := close V C veqb hval has_goal s cur o) in *. set (t1 := close V C veqb hval has_goal t cur o) in *.
    pose proof H1 as (A1 & _ & _ & _).
    destruct (is_goal cur && negb use_candidates).
    { rewrite A1. destruct (backtrack _ _ _ _ _ _ _) as [[|x q]|]; cbn [fst snd]; auto. }
    assert (H2 : same (if is_goal cur then add_candidate V C tot gdist s1 cur else s1) (if is_goal cur then add_candidate V C tot gdist t1 cur else t1)).
    { destruct (is_goal cur); [|exact H1]. destruct H1 as (P & Q & R & S). unfold add_candidate.
      cbn [s_info s_open s_cand s_first]. unfold same. cbn [s_info s_open s_cand s_first]. rewrite P, Q, R.
      repeat split. right. destruct (s_cand V C t1) eqn:E; [reflexivity|]. destruct S as [S|S]; [congruence|exact S]. }
    set (s2 := if is_goal cur then _ else s1) in *. set (t2 := if is_goal cur then _ else t1) in *.
    assert (Ex : use_candidates && negb (match s_cand V C s2 with [] => true | _ :: _ => false end) && over (total V C tot (s_info V C s2) cur) (s_first V C s2)
      = use_candidates && negb (match s_cand V C t2 with [] => true | _ :: _ => false end) && over (total V C tot (s_info V C t2) cur) (s_first V C t2)).
    { destruct H2 as (P & Q & R & S). rewrite P, <- R. destruct S as [S|S]; rewrite S; [|reflexivity].
      cbn [negb]. rewrite andb_false_r. reflexivity. }
    rewrite Ex. clear Ex. match goal with |- context [if ?b then _ else _] => destruct b end; [split; [apply Hfin; assumption|apply H2]|].
    pose proof (process_same cur (nbr cur) s2 t2 H2) as Hp.
    destruct (process_all cur (nbr cur) s2) as [s3|], (process_all cur (nbr cur) t2) as [t3|]; try destruct Hp.
    - apply IH. split; assumption.
    - split; [reflexivity|apply H2].
  Qed.

  Lemma run_first fuel f x y : fst (run fuel f x) = fst (run fuel f y).
  Proof.
    unfold GenericSearch.run, init_search. apply loop_same.
    assert (Hs : forall l s t, same s t -> same (add_starts V C veqb zero tot push l s) (add_starts V C veqb zero tot push l t)).
    { induction l as [|v l IH]; intros s t H; [exact H|]. cbn [add_starts]. destruct H as (P & Q & R & S).
      rewrite P, Q. apply IH. repeat split; assumption. }
    apply Hs. repeat split. left. reflexivity.
  Qed.
End Reuse.
