(** Model of the precomputed vehicle heuristic: the table writer
    S/ReedsShepp/CostPrecomputation.cpp:36-199 (precompute) and the table reader
    I/generic/Heuristics.hpp:420-560 (HeuristicNonHolonomicNoObstacles), over exact reals. *)
From Coq Require Import Reals Lra ZArith.
From Flocq Require Import Core.Raux.
From Verif Require Import Base GeomR RSModel.
Local Open Scope R_scope.

(** The text file: dimension, angles, resolution, then the layers (angle, values).
    Simplified: numbers are written exactly (the stream prints six digits). *)
Record pfile := PF { pf_dim : Z; pf_angles : Z; pf_res : R; pf_layers : list (R * list R) }.

Definition seqZ (n : Z) : list Z := map Z.of_nat (seq 0 (Z.to_nat n)).
Fixpoint all_some {A} (l : list (option A)) : option (list A) :=
  match l with [] => Some [] | o :: t => a <- o ;; r <- all_some t ;; Some (a :: r) end.

(** CostPrecomputation.cpp:136-176, the loops over y and x: [cost x y th] is the weight of the
    curve from (x,y,th) to the target in the middle, [None] if the generator finds none
    (a null pointer is dereferenced). *)
Definition pc_value (o : option R) : option R := v <- o ;; Some (if Rltb v NOT_FREE then v else 0).
Definition pc_layer (cost : Z -> Z -> R -> option R) (dim : Z) (th : R) : option (list R) :=
  all_some (flat_map (fun y => map (fun x => pc_value (cost x y th)) (seqZ dim)) (seqZ dim)).
(** Lines 120-121 and 176-199: the loop over the angles, and the file. *)
Definition pc_angle (angles a : Z) : R := IZR a * (2 * PI / IZR angles).
Definition precompute (cost : Z -> Z -> R -> option R) (dim angles : Z) (res : R) : option pfile :=
  ls <- all_some (map (fun a => l <- pc_layer cost dim (pc_angle angles a) ;; Some (pc_angle angles a, l)) (seqZ angles)) ;;
  Some (PF dim angles res ls).

(** Heuristics.hpp:541-560, the instance; [ps_map]: resolution_map, indeterminate until
    setMap. *)
Record pstate := PS { ps_dim : Z; ps_angles : Z; ps_res : R; ps_map : option R; ps_costs : list (R * list R) }.
(** Lines 516-539, read: the layers are appended to the ones already there. *)
Definition p_read (f : pfile) (s : pstate) : pstate :=
  PS (pf_dim f) (pf_angles f) (pf_res f) (ps_map s) (ps_costs s ++ pf_layers f).
(** Lines 455-459, the constructor. *)
Definition p_new (f : pfile) : pstate := p_read f (PS 0 0 0 None []).
(** Lines 444-452, setMap and init. *)
Definition p_setMap (r : R) (s : pstate) : pstate := PS (ps_dim s) (ps_angles s) (ps_res s) (Some r) (ps_costs s).
Definition p_init (f : pfile) (s : pstate) : pstate := p_read f s.

(** [PVal h]: the value; [PAbort]: an assertion fails; [PUndef]: undefined (indeterminate
    factor, a conversion or an index out of range). *)
Inductive pres := PVal (h : R) | PAbort | PUndef.

(** Lines 462-514, computeImp.  [updateResolutionFactor] (516-518) is inlined. *)
Definition p_compute (clamp : R -> R) (s : pstate) (cur goal : pose) (res : R) : pres :=
  if (ps_angles s =? 0)%Z then PAbort else
  match ps_map s with
  | None => PUndef
  | Some rm =>
      let rf := ps_res s / rm in
      let x := po_x cur - po_x goal in
      let y := po_y cur - po_y goal in
      let gt := - po_th goal in
      let xr := x * cos gt - y * sin gt in
      let yr := x * sin gt + y * cos gt in
      match cast_i32 (xr / rf + IZR (Z.quot (ps_dim s) 2)), cast_i32 (yr / rf + IZR (Z.quot (ps_dim s) 2)) with
      | Some xp, Some yp =>
          let t := clamp (po_th cur + gt) in
          if Rltb t (- PI) || negb (Rltb t PI) then PAbort else
          let t := if Rltb t 0 then t + 2 * PI else t in
          let a := Zfloor (t / (2 * PI + / 1000) * IZR (ps_angles s - 1)) in
          if negb ((0 <=? a) && (a <? ps_angles s))%Z then PAbort else
          if ((xp <? 0) || (xp >=? ps_dim s))%Z then PVal 0 else
          if ((yp <? 0) || (yp >=? ps_dim s))%Z then PVal 0 else
          let idx := ((ps_dim s - yp) * ps_dim s + xp)%Z in
          match nth_error (ps_costs s) (Z.to_nat a) with
          | None => PUndef
          | Some l => match nth_error (snd l) (Z.to_nat idx) with None => PUndef | Some c => PVal (res * c * rf) end
          end
      | _, _ => PUndef
      end
  end.
