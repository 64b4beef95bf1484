(** Model of findPathWithStartConfiguration (I/generic/SearchAlgorithm.hpp:283-297,
    359-370, 495-524): a vehicle search with the caller's goal test that starts from a
    node, for the first search after setMap on a new object.

    Simplifications: those of VehicleFind.v. *)
From Coq Require Import Reals.
From Verif Require Import Base GridMap GeomR SteerModel VehicleSearch VehicleModel VehicleTest VehicleFind.
Local Open Scope R_scope.

(** SearchAlgorithm.hpp:505-508 (the assignment of the whole node is commented out, 504). *)
Definition set_start (th : R) (n : snode) : snode := SN (sn_x n) (sn_y n) th (sn_fwd n) (sn_steer n) (sn_custom n) 0.

Section Start.
  Variable clamp : R -> R.
  Variable m : gridmap.
  Variable skips : Z.
  Variable p : sparams.
  Variable so : sopts.
  Variable b : nbh.

  (** SearchAlgorithm.hpp:500-517. *)
  Fixpoint v_initn (th : R) (l : list vkey) (pay : vkey -> snode) : option (list vkey * (vkey -> snode)) :=
    match l with
    | [] => Some ([], pay)
    | v :: r =>
        occ <- v_occupied m (pay v) ;;
        if (occ : bool) then v_initn th r pay
        else
          q <- v_initn th r (v_upd pay v (set_start th (pay v))) ;; Some (v :: fst q, snd q)
    end.
  (** SearchAlgorithm.hpp:360-363, 499: getPoses reads the position of the node and
      SteeringNode::init sets the heading of the temporary nodes to 0, as for a pose. *)
  Definition v_beginn (node : snode) : option (list vkey * (vkey -> snode)) :=
    a <- v_poses clamp m (sn_x node) (sn_y node) v_node0 ;; v_initn (sn_th node) (fst a) (snd a).

  Variable hval : snode -> snode -> R.
  Variable tot : R -> R -> R.
  Variable push : (vkey -> R) -> vkey -> list vkey -> list vkey.
  Variable pop : (vkey -> R) -> list vkey -> option (vkey * list vkey).
  Variable queue : list (vkey * R) -> list (vkey * R).
  Variable timeout : nat -> bool.
  Variables bf fuel : nat.
  Variable osd : R.

  (** SearchAlgorithm.hpp:283-297, 359-370. *)
  Definition v_findn {T : Type} (hgoal : option snode) (test : T -> (vkey -> vinfo vkey snode) -> vkey -> T * list R * bool) (t : T) (node : snode) : vfound :=
    match v_beginn node with
    | None => vf_fail
    | Some (start, pay) =>
        vf_of p queue bf start (wrun vkey snode (Z * Z) T vkey_eqb (nb_moves b) (nb_reach p b) (nb_offer clamp m skips p so b) hval tot push pop start [] hgoal osd queue
          (fun t f v => let '(t', cs, stop) := test t f v in Some (t', cs, if (stop : bool) then AStop else AGo)) timeout bf fuel t pay)
    end.
End Start.
