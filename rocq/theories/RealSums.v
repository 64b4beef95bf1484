(** Sums of finitely many non-negative reals: below any bound there are only
    finitely many of them, so "<" is well-founded on them.  Used to show that
    the searches terminate with exact costs. *)
From Coq Require Import Reals Lra.
From Verif Require Import Base.
Local Open Scope R_scope.

Definition Rltb (a b : R) : bool := if Rlt_dec a b then true else false.
Lemma Rltb_true a b : Rltb a b = true <-> a < b.
Proof. unfold Rltb. destruct (Rlt_dec a b); split; auto; discriminate. Qed.
Lemma Rltb_false a b : Rltb a b = false <-> b <= a.
Proof. unfold Rltb. destruct (Rlt_dec a b); split; auto; try discriminate; lra. Qed.

(** [gen P x]: x is a finite sum of elements of [P]. *)
Inductive gen (P : R -> Prop) : R -> Prop :=
| gen_0 : gen P 0
| gen_add x c : gen P x -> P c -> gen P (x + c).

Fixpoint sums (cs : list R) (n : nat) : list R :=
  match n with
  | O => [0]
  | S k => sums cs k ++ flat_map (fun x => map (fun c => x + c) cs) (sums cs k)
  end.

Lemma sums_mono cs n m x : (n <= m)%nat -> In x (sums cs n) -> In x (sums cs m).
Proof. induction 1; [auto|]. intros H'. simpl. apply in_or_app. left. auto. Qed.
Lemma sums_add cs n x c : In x (sums cs n) -> In c cs -> In (x + c) (sums cs (S n)).
Proof.
  intros Hx Hc. simpl. apply in_or_app. right. apply in_flat_map. exists x. split; [assumption|].
  apply (in_map (fun c => x + c)). assumption.
Qed.

Section Gen.
  Variable cs : list R.
  Hypothesis Hcs : forall c, In c cs -> 0 <= c.

  Lemma gen_nonneg x : gen (fun c => In c cs) x -> 0 <= x.
  Proof. induction 1 as [|x c H IH Hc]; [lra|]. apply Hcs in Hc. lra. Qed.

  Lemma pos_min : exists m, 0 < m /\ forall c, In c cs -> c = 0 \/ m <= c.
  Proof using Hcs.
    induction cs as [|a l IH]; [exists 1; split; [lra|intros c []]|].
    destruct IH as (m & Hm & H); [intros c Hc; apply Hcs; right; assumption|].
    destruct (Rle_lt_or_eq_dec 0 a (Hcs a (or_introl eq_refl))) as [Ha|Ha].
    - exists (Rmin m a). split; [apply Rmin_glb_lt; assumption|]. intros c [<-|Hc]; [right; apply Rmin_r|].
      destruct (H c Hc); [left; assumption|right]. eapply Rle_trans; [apply Rmin_l|assumption].
    - exists m. split; [assumption|]. intros c [<-|Hc]; [left; congruence|apply H; assumption].
  Qed.

  Lemma gen_counted m : 0 < m -> (forall c, In c cs -> c = 0 \/ m <= c) ->
    forall x, gen (fun c => In c cs) x -> exists n, In x (sums cs n) /\ INR n * m <= x.
  Proof.
    intros Hm H x Hx. induction Hx as [|x c Hx (n & IH1 & IH2) Hc].
    - exists O. simpl. split; [left; reflexivity|lra].
    - destruct (H c Hc) as [->|Hle].
      + exists n. rewrite Rplus_0_r. auto.
      + exists (S n). split; [apply sums_add; assumption|]. rewrite S_INR. lra.
  Qed.

  Lemma gen_finite B : exists L, forall x, gen (fun c => In c cs) x -> x <= B -> In x L.
  Proof using Hcs.
    destruct pos_min as (m & Hm & H). exists (sums cs (Z.to_nat (up (B / m)))). intros x Hx Hle.
    destruct (gen_counted m Hm H x Hx) as (n & Hin & Hn). eapply sums_mono; [|exact Hin].
    assert (Hq : INR n <= B / m).
    { apply (Rmult_le_reg_r m); [assumption|]. unfold Rdiv. rewrite Rmult_assoc, Rinv_l by lra. lra. }
    destruct (archimed (B / m)) as [Hup _]. rewrite INR_IZR_INZ in Hq.
    assert (Hlt : IZR (Z.of_nat n) < IZR (up (B / m))) by lra. apply lt_IZR in Hlt. lia.
  Qed.

  Definition below (L : list R) (a : R) : nat := length (filter (fun x => Rltb x a) L).

  Lemma below_lt L a b : In b L -> b < a -> (below L b < below L a)%nat.
  Proof.
    intros Hin Hlt. unfold below.
    assert (Hle : forall L, (length (filter (fun x => Rltb x b) L) <= length (filter (fun x => Rltb x a) L))%nat).
    { induction L0 as [|x l IH]; [simpl; lia|]. simpl. destruct (Rltb x b) eqn:E1, (Rltb x a) eqn:E2; simpl; try lia.
      apply Rltb_true in E1. apply Rltb_false in E2. lra. }
    induction L as [|x l IH]; [destruct Hin|]. simpl. destruct Hin as [->|Hin].
    - assert (E1 : Rltb b b = false) by (apply Rltb_false; lra). assert (E2 : Rltb b a = true) by (apply Rltb_true; assumption).
      rewrite E1, E2. simpl. specialize (Hle l). lia.
    - specialize (IH Hin). destruct (Rltb x b) eqn:E1, (Rltb x a) eqn:E2; simpl; try lia.
      apply Rltb_true in E1. apply Rltb_false in E2. lra.
  Qed.

  Lemma gen_wf : well_founded (fun a b => gen (fun c => In c cs) a /\ gen (fun c => In c cs) b /\ Rltb a b = true).
  Proof using Hcs.
    intros B. constructor. intros a (Ha & _ & Hlt). apply Rltb_true in Hlt.
    destruct (gen_finite B) as (L & HL).
    assert (H : forall n a, gen (fun c => In c cs) a -> a <= B -> (below L a < n)%nat ->
      Acc (fun a b => gen (fun c => In c cs) a /\ gen (fun c => In c cs) b /\ Rltb a b = true) a).
    { induction n as [|n IH]; [lia|]. intros x Hx Hle Hn. constructor. intros y (Hy & _ & Hyx). apply Rltb_true in Hyx.
      apply IH; [assumption|lra|]. pose proof (below_lt L x y (HL y Hy ltac:(lra)) Hyx). lia. }
    eapply H; [assumption|lra|apply Nat.lt_succ_diag_r].
  Qed.
End Gen.
