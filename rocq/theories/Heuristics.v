(** Model of I/generic/Heuristics.hpp (norm heuristics) and of the step costs of
    I/generic/DirectNeighborhood.hpp, over the reals. *)
From Coq Require Import Reals Lra.
From Verif Require Import Base PathSpec DirectSpec DirectSearch.
Local Open Scope R_scope.

(** std::hypot. *)
Definition hypotR (x y : R) : R := sqrt (x * x + y * y).
Definition dxR (a b : cell) : R := IZR (fst a - fst b).
Definition dyR (a b : cell) : R := IZR (snd a - snd b).

Inductive norm := NoHeuristic | HeuristicL2 | HeuristicL1 | HeuristicLInf.
(** Heuristics.hpp:167-282, compute(current, goal, res); NoHeuristic leaves the
    total cost equal to the distance. *)
Definition hcompute (n : norm) (res : R) (current goal : cell) : R :=
  match n with
  | NoHeuristic => 0
  | HeuristicL2 => res * hypotR (dxR current goal) (dyR current goal)
  | HeuristicL1 => res * (Rabs (dxR current goal) + Rabs (dyR current goal))
  | HeuristicLInf => res * Rmax (Rabs (dxR current goal)) (Rabs (dyR current goal))
  end.

(** DirectNeighborhood.hpp:114-116, 130-131: delta; SearchAlgorithm.hpp:632-633:
    cost = delta * res. *)
Definition rcost (D : Z) (res : R) (diag : bool) : R :=
  (if diag then sqrt 2 * IZR D else IZR D) * res.

(** std::pow of a non-negative base. *)
Definition powR (x y : R) : R := if Req_EM_T x 0 then 0 else Rpower x y.
(** Heuristics.hpp:240, HeuristicL2OverEstimate: pow(hypot, 1.2). *)
Definition hL2Over (res : R) (current goal : cell) : R :=
  res * powR (hypotR (dxR current goal) (dyR current goal)) (12 / 10).
