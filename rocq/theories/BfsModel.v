(** Model of the breadth-first search of the evaluation tool
    (I/evaluation/evaluator.h:31-50, 83-85): the search of DirectSearch.v with
    another cost of a step and without a heuristic. *)
From Flocq Require Import BinarySingleNaN.
From Verif Require Import Base DirectSearch AStarFloat AStarIeee GenericFloat.

(** evaluator.h:47-49, BFSNeighborhood::delta: 1 for every direction (dx and dy, 41-46,
    are those of DirectNeighborhood, isGoal that of DirectNeighborhoodBase). *)
Definition bfs_delta : b64 := d_of_Z 1.
(** SearchAlgorithm.hpp:632-633: delta * res. *)
Definition bfs_cost (res : b64) (diag : bool) : b64 := bmul bfs_delta res.
(** Heuristics.hpp:65-108, NoHeuristic::compute. *)
Definition no_heur (c g : cell) : b64 := bzero.

(** evaluator.h:83-85: BreadthFirst = GridMap2d, BFSNeighborhood, NoExpansion, NoHeuristic,
    GridMapManager, PriorityQueueManager; [hyp] is only used for goal candidates. *)
Definition bfs_find (res : b64) (hyp : cell -> cell -> b64) push pop best (eight : bool) (D : Z) :=
  findPath b64 bzero badd blt badd (bfs_cost res) no_heur hyp push pop best eight D.
