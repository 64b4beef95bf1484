(** Common vocabulary of the models: C++ integer conversions and
    undefined-behaviour outcomes. *)
From Coq Require Export List ZArith Lia Bool.
From Coq Require Export ZifyBool ZifyNat ZifyN.
Export ListNotations.
Open Scope Z_scope.

Ltac Zify.zify_post_hook ::= Z.div_mod_to_equations.

(** Conversion of an integer to [unsigned int] (32 bit, wraps). *)
Definition u32 (z : Z) : Z := z mod 4294967296.

(** Conversion to [int] (32 bit two's complement, as gcc defines it). *)
Definition i32 (z : Z) : Z :=
  let m := z mod 4294967296 in
  if m <? 2147483648 then m else m - 4294967296.

(** The value is representable as [int]: arithmetic on [int] whose exact
    result is not [in_i32] is undefined behaviour in C++. *)
Definition in_i32 (z : Z) : bool := (-2147483648 <=? z) && (z <? 2147483648).

Lemma u32_id z : 0 <= z < 4294967296 -> u32 z = z.
Proof. intros H. unfold u32. apply Z.mod_small; lia. Qed.

Lemma i32_id z : -2147483648 <= z < 2147483648 -> i32 z = z.
Proof.
  intros H. unfold i32. cbv zeta. destruct (Z.ltb_spec (z mod 4294967296) 2147483648); lia.
Qed.

(** Outcome of an operation that may be undefined behaviour. *)
Notation UB := None (only parsing).

Definition obind {A B} (o : option A) (f : A -> option B) : option B :=
  match o with Some a => f a | None => None end.
Notation "x <- o ;; k" := (obind o (fun x => k))
  (at level 61, o at next level, right associativity).

(** Replace the [n]-th element of a list; [None] if out of bounds. *)
Fixpoint list_set {A} (l : list A) (n : nat) (a : A) : option (list A) :=
  match l, n with
  | [], _ => None
  | _ :: t, O => Some (a :: t)
  | h :: t, S n' => match list_set t n' a with Some t' => Some (h :: t') | None => None end
  end.

Lemma list_set_some {A} (l : list A) n a :
  (n < length l)%nat -> exists l', list_set l n a = Some l'.
Proof.
  revert n; induction l as [|h t IH]; intros n Hn; simpl in *; [lia|].
  destruct n as [|n]; [eauto|].
  destruct (IH n) as [l' Hl']; [lia|]. rewrite Hl'. eauto.
Qed.

Lemma list_set_none {A} (l : list A) n a :
  (length l <= n)%nat -> list_set l n a = None.
Proof.
  revert n; induction l as [|h t IH]; intros n Hn; simpl in *; [reflexivity|].
  destruct n as [|n]; [lia|]. rewrite IH by lia. reflexivity.
Qed.

Lemma list_set_length {A} (l l' : list A) n a :
  list_set l n a = Some l' -> length l' = length l.
Proof.
  revert n l'; induction l as [|h t IH]; intros n l' H; simpl in *; [discriminate|].
  destruct n as [|n].
  - injection H as <-. reflexivity.
  - destruct (list_set t n a) as [t'|] eqn:E; [|discriminate].
    injection H as <-. simpl. rewrite (IH _ _ E). reflexivity.
Qed.

Lemma list_set_nth {A} (l l' : list A) n a :
  list_set l n a = Some l' ->
  forall k, nth_error l' k = if Nat.eqb k n then Some a else nth_error l k.
Proof.
  revert n l'; induction l as [|h t IH]; intros n l' H k; simpl in *; [discriminate|].
  destruct n as [|n].
  - injection H as <-. destruct k; reflexivity.
  - destruct (list_set t n a) as [t'|] eqn:E; [|discriminate].
    injection H as <-. destruct k as [|k]; simpl; [reflexivity|]. apply (IH _ _ E).
Qed.
