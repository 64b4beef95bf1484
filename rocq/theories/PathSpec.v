(** Specification vocabulary for paths on a grid, independent of any search. *)
From Verif Require Import Base.

(** 8-neighbourhood. *)
Definition adjacent8 (a b : Z * Z) : Prop :=
  a <> b /\ Z.abs (fst a - fst b) <= 1 /\ Z.abs (snd a - snd b) <= 1.

(** Consecutive elements are related. *)
Fixpoint chain {A} (R : A -> A -> Prop) (l : list A) : Prop :=
  match l with
  | a :: ((b :: _) as r) => R a b /\ chain R r
  | _ => True
  end.

(** [l] goes from [start] to [goal]. *)
Definition from_to {A} (start goal : A) (l : list A) : Prop :=
  hd_error l = Some start /\ last l start = goal.

(** A legal cell path from [start] to [goal]: 8-connected and every cell other
    than the goal satisfies [free]. *)
Definition grid_path (free : Z * Z -> Prop) (start goal : Z * Z) (l : list (Z * Z)) : Prop :=
  from_to start goal l /\ chain adjacent8 l /\ (forall c, In c l -> c <> goal -> free c).

Lemma chain_cons {A} (R : A -> A -> Prop) a b l : chain R (a :: b :: l) <-> R a b /\ chain R (b :: l).
Proof. reflexivity. Qed.
