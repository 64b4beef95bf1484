(** Model of the heuristics of I/generic/Heuristics.hpp that may exceed the remaining length,
    in binary64: HeuristicL2OverEstimate (HeuristicL1 is in GenericIeee.v). *)
From Coq Require Import Reals Lra.
From Flocq Require Import Core BinarySingleNaN.
From Verif Require Import Base DirectSearch AStarFloat AStarIeee GenericFloat Heuristics.
Local Open Scope R_scope.

(** The literal 1.2 as a double: 5404319552844595 / 2^52. *)
Definition e12 : b64 := @binary_normalize 53 1024 p64 l64 mode_NE 5404319552844595 (-52) false.

(** Heuristics.hpp:239-241: res * std::pow(hypot(dx, dy), 1.2); [hyp], [pw]: the library's functions. *)
Definition d_over (hyp : Z -> Z -> b64) (pw : b64 -> b64 -> b64) (res : b64) (c g : cell) : b64 :=
  bmul res (pw (hyp (fst c - fst g) (snd c - snd g))%Z e12).
