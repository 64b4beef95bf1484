(** Open-list policies as search parameters: QueueManager (NodeManager.hpp:26-66)
    and a priority queue that keeps the contract of PriorityQueueManager. *)
From Verif Require Import Base GenericSearch GenericProofs.

Section Policies.
  Context {V C : Type}.
  (** add: push_back (also push of the priority queue; its order does not matter). *)
  Definition fifo_push (f : V -> C) (v : V) (l : list V) : list V := l ++ [v].
  (** next: front, pop_front. *)
  Definition fifo_pop (f : V -> C) (l : list V) : option (V * list V) :=
    match l with [] => None | v :: r => Some (v, r) end.

  Lemma fifo_push_ok : push_ok fifo_push.
  Proof using Type.
    intros f v l. unfold fifo_push. rewrite app_length. cbn [length]. split; [lia|]. intros w. rewrite in_app_iff.
    cbn [In]. intuition congruence.
  Qed.
  Lemma fifo_pop_ok : pop_ok fifo_pop.
  Proof using Type.
    intros f [|v l]; [reflexivity|]. cbn [fifo_pop length In]. split; [left; reflexivity|]. split; [lia|].
    split; [intros x Hx; right; exact Hx|]. intuition congruence.
  Qed.

  Variable lt : C -> C -> bool.
  (** next: a node that no other one compares better to (Common.hpp:172-177);
      the first such in insertion order. *)
  Fixpoint min_pop (f : V -> C) (l : list V) : option (V * list V) :=
    match l with
    | [] => None
    | x :: r => match min_pop f r with
                | None => Some (x, [])
                | Some (m, r') => if lt (f m) (f x) then Some (m, x :: r') else Some (x, r)
                end
    end.

  (** goal_candidates.top(): the first candidate of least distance. *)
  Fixpoint min_cand (l : list (V * C)) : option (V * C) :=
    match l with
    | [] => None
    | x :: r => match min_cand r with
                | None => Some x
                | Some m => if lt (snd m) (snd x) then Some m else Some x
                end
    end.
  Definition best_of (l : list (V * C)) : option V := match min_cand l with Some (v, _) => Some v | None => None end.

  Lemma min_pop_ok : pop_ok min_pop.
  Proof using Type.
    intros f l. induction l as [|x r IH]; [reflexivity|]. cbn [min_pop]. destruct (min_pop f r) as [[m r']|] eqn:E.
    - destruct IH as (A & B & D & F). destruct (lt (f m) (f x)).
      + cbn [In length]. split; [right; exact A|]. split; [lia|]. split.
        * intros y [<-|Hy]; [left; reflexivity|right; apply D; exact Hy].
        * intros w [<-|Hw]; [right; left; reflexivity|]. destruct (F w Hw); [left|right; right]; assumption.
      + cbn [In length]. split; [left; reflexivity|]. split; [lia|]. split; [intros y Hy; right; exact Hy|].
        intros w [<-|Hw]; [left; reflexivity|right; exact Hw].
    - subst r. cbn [In length]. split; [left; reflexivity|]. split; [lia|]. split; [intros y []|].
      intros w [<-|[]]. left. reflexivity.
  Qed.

  Hypothesis lt_irrefl : forall a, lt a a = false.
  Hypothesis lt_trans : forall a b c, lt a b = false -> lt b c = false -> lt a c = false.
  Hypothesis lt_asym : forall a b, lt a b = true -> lt b a = false.
  Lemma min_pop_min f l : forall v r, min_pop f l = Some (v, r) -> forall w, In w l -> lt (f w) (f v) = false.
  Proof using lt_irrefl lt_trans lt_asym.
    induction l as [|x r IH]; intros v r0 H w Hw; [discriminate|]. cbn [min_pop] in H.
    destruct (min_pop f r) as [[m r']|] eqn:E.
    - specialize (IH m r' eq_refl). destruct (lt (f m) (f x)) eqn:El; injection H as <- <-.
      + destruct Hw as [<-|Hw]; [apply lt_asym; exact El|apply IH; exact Hw].
      + destruct Hw as [<-|Hw]; [apply lt_irrefl|]. apply (lt_trans _ (f m)); [apply IH; exact Hw|exact El].
    - assert (r = []) as ->. { pose proof (min_pop_ok f r) as H'. rewrite E in H'. exact H'. }
      injection H as <- <-. destruct Hw as [<-|[]]. apply lt_irrefl.
  Qed.
  Lemma min_cand_min l : forall m, min_cand l = Some m -> In m l /\ forall x, In x l -> lt (snd x) (snd m) = false.
  Proof using lt_irrefl lt_trans lt_asym.
    induction l as [|x r IH]; intros m H; [discriminate|]. cbn [min_cand] in H.
    destruct (min_cand r) as [m'|] eqn:E.
    - destruct (IH m' eq_refl) as [I1 I2]. destruct (lt (snd m') (snd x)) eqn:El; injection H as <-.
      + split; [right; exact I1|]. intros y [<-|Hy]; [apply lt_asym; exact El|apply I2; exact Hy].
      + split; [left; reflexivity|]. intros y [<-|Hy]; [apply lt_irrefl|]. apply (lt_trans _ (snd m')); [apply I2; exact Hy|exact El].
    - assert (r = []) as -> by (destruct r as [|y r]; [reflexivity|]; cbn [min_cand] in E; destruct (min_cand r); [destruct (lt _ _)|]; discriminate).
      injection H as <-. split; [left; reflexivity|]. intros y [<-|[]]. apply lt_irrefl.
  Qed.
  Lemma best_of_ok : best_ok best_of.
  Proof using Type.
    intros l v H. unfold best_of in H. destruct (min_cand l) as [[w c]|] eqn:E; [|discriminate]. injection H as ->. exists c.
    revert E. generalize (v, c). induction l as [|x r IH]; intros m H; [discriminate|]. cbn [min_cand] in H.
    destruct (min_cand r) as [m'|]; [|injection H as <-; left; reflexivity].
    destruct (lt _ _); injection H as <-; [right; apply IH; reflexivity|left; reflexivity].
  Qed.
  Lemma best_of_some l : best_of l = None -> l = [].
  Proof using Type.
    destruct l as [|x r]; [reflexivity|]. unfold best_of. cbn [min_cand]. destruct (min_cand r) as [[a b]|]; [destruct (lt _ _)|]; destruct x; discriminate.
  Qed.
End Policies.
