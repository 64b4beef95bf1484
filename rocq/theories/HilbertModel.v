(** Model of map_generator::HilbertCurve (I/evaluation/MapGenerators.hpp:193-322).
    Simplification: recursion depth and coordinates do not exceed the machine's limits (run()
    uses level 8 only). *)
From Verif Require Import Base MazeModel.

(** MapGenerators.hpp:221-226, DIR. *)
Inductive hdir := UP | LEFT | DOWN | RIGHT.

(** MapGenerators.hpp:230-245: the cell after move(d). *)
Definition h_next (c : room) (d : hdir) : room :=
  match d with LEFT => (fst c - 1, snd c) | RIGHT => (fst c + 1, snd c) | UP => (fst c, snd c - 1) | DOWN => (fst c, snd c + 1) end.

(** The member current and the pairs handed to removeWallsBetween, newest first. *)
Record hstate := { hs_cur : room; hs_joined : list (room * room) }.
(** MapGenerators.hpp:228-249, move. *)
Definition h_move (st : hstate) (d : hdir) : hstate :=
  let nx := h_next (hs_cur st) d in {| hs_cur := nx; hs_joined := (hs_cur st, nx) :: hs_joined st |}.

(** MapGenerators.hpp:251-316, hilbert_level(n + 1, d). *)
Fixpoint h_level (n : nat) (d : hdir) (st : hstate) : hstate :=
  match n with
  | O => match d with
         | LEFT => h_move (h_move (h_move st RIGHT) DOWN) LEFT
         | RIGHT => h_move (h_move (h_move st LEFT) UP) RIGHT
         | UP => h_move (h_move (h_move st DOWN) RIGHT) UP
         | DOWN => h_move (h_move (h_move st UP) LEFT) DOWN
         end
  | S n => match d with
           | LEFT => h_level n DOWN (h_move (h_level n LEFT (h_move (h_level n LEFT (h_move (h_level n UP st) RIGHT)) DOWN)) LEFT)
           | RIGHT => h_level n UP (h_move (h_level n RIGHT (h_move (h_level n RIGHT (h_move (h_level n DOWN st) LEFT)) UP)) RIGHT)
           | UP => h_level n RIGHT (h_move (h_level n UP (h_move (h_level n UP (h_move (h_level n LEFT st) DOWN)) RIGHT)) UP)
           | DOWN => h_level n LEFT (h_move (h_level n DOWN (h_move (h_level n DOWN (h_move (h_level n RIGHT st) UP)) LEFT)) DOWN)
           end
  end.

(** MapGenerators.hpp:206-216, run: level 8, from (1, 1), border 1. *)
Definition h_run : hstate := h_level 7 UP {| hs_cur := (1, 1); hs_joined := [] |}.
Definition h_image (m : maze) (i : img) : img := carve (mz_rows m) (mz_cols m) (mz_width m) 1 i (hs_joined h_run).
