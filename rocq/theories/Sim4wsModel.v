(** Model of the simulator of a swarm of four-wheel-steering robots
    (I/common/path4ws_simulator.h, S/common/path4ws_simulator.cpp).  Exact real
    arithmetic instead of float; atan, tan, sin, cos are the real functions. *)
From Coq Require Import Reals.
From Flocq Require Import Core.
From Verif Require Import Base.
Local Open Scope R_scope.

(** path4ws_simulator.h:15-26. *)
Record bot := Bot { b_x : R; b_y : R; b_theta : R; b_beta : R; b_df : R; b_dr : R; b_l : R }.
(** path4ws_simulator.h:17-18. *)
Definition new_bot : bot := Bot 0 0 0 0 0 0 (/ 2).

(** path4ws_simulator.cpp:15-23, Bot4ws::update. *)
Definition update (d : R) (b : bot) : bot :=
  let nbeta := atan (/ 2 * (tan (b_df b) + tan (b_dr b))) in
  let dtheta := cos (b_beta b) * (tan (b_df b) - tan (b_dr b)) * d / b_l b in
  Bot (b_x b + d * cos (b_theta b + dtheta / 2 + (b_beta b + nbeta) / 2))
      (b_y b + d * sin (b_theta b + dtheta / 2 + (b_beta b + nbeta) / 2))
      (b_theta b + dtheta) nbeta (b_df b) (b_dr b) (b_l b).

(** path4ws_simulator.h:28-53 without the members that keep the constants of the
    constructor (cpp 29-38, below), and without n_, which is the length of bots_.  The picture is a function of row and column. *)
Record sim := Sim { s_bots : list bot; s_t : R; s_count : nat; s_pic : Z -> Z -> Z }.
(** cpp 30-38. *)
Definition t_step : R := / 10.
Definition t_change : R := 1.
Definition speed : R := 1.
Definition delta_max : R := 20 * PI / 180.
Definition delta_steps : nat := 10.
Definition delta_step : R := delta_max * 2 / INR delta_steps.
Definition map_size : Z := 1000.
Definition map_res : R := / 10.

(** cpp 44-48 with std::vector::resize. *)
Definition setNumBots (n : nat) (s : sim) : sim :=
  Sim (firstn n (s_bots s) ++ repeat new_bot (n - length (s_bots s))) (s_t s) (s_count s) (s_pic s).
(** cpp 51-56. *)
Definition reset (s : sim) : sim := Sim (s_bots s) 0 0 (fun _ _ => 255%Z).

Section Random.
  (** The values of rand() after srand(seed), in order. *)
  Variable rnd : Z -> nat -> nat.

  (** cpp 96-108, randomizeSteerAngles; [sec]: what time() returns. *)
  Fixpoint randomize (sec : Z) (i : nat) (l : list bot) : list bot :=
    match l with
    | [] => []
    | b :: r =>
        let sf := (rnd sec (2 * i) mod (delta_steps + 1))%nat in
        let sr := (rnd sec (2 * i + 1) mod (delta_steps + 1))%nat in
        Bot (b_x b) (b_y b) (b_theta b) (b_beta b) (INR sf * delta_step - delta_max) (INR sr * delta_step - delta_max) (b_l b)
        :: randomize sec (S i) r
    end.

  (** cpp 82-83: the conversion to int truncates.  (C71_defined: it does not overflow.) *)
  Definition cell_index (x : R) : Z := Ztrunc (x / map_res + IZR (map_size / 2)).
  (** cpp 76-93, updateMap: cvGet2D and cvSet2D take the row first. *)
  Definition mark (p : Z -> Z -> Z) (b : bot) : Z -> Z -> Z :=
    let x := cell_index (b_x b) in
    let y := cell_index (b_y b) in
    if ((x >=? 0) && (x <? map_size) && (y >=? 0) && (y <? map_size))%Z then
      if (p x y >? 0)%Z then fun i j => if ((i =? x) && (j =? y))%Z then 0%Z else p i j else p
    else p.

  (** cpp 59-73, step; the comparison 63 is with t_change / t_step = 10. *)
  Definition changes (count : nat) : bool := if Rlt_dec (t_change / t_step) (INR count) then true else false.
  Definition step (sec : Z) (s : sim) : sim :=
    let count := S (s_count s) in
    let bots := if changes count then randomize sec 0 (s_bots s) else s_bots s in
    let count' := if changes count then 0%nat else count in
    let bots' := map (update (speed * t_step)) bots in
    Sim bots' (s_t s + t_step) count' (fold_left mark bots' (s_pic s)).

  (** cpp 26-41, the constructor. *)
  Definition init : sim := reset (setNumBots 1000 (Sim [] 0 0 (fun _ _ => 0%Z))).

  (** What a program may do with the object. *)
  Inductive event := EStep (sec : Z) | EReset | EBots (n : nat).
  Definition apply (s : sim) (e : event) : sim :=
    match e with EStep sec => step sec s | EReset => reset s | EBots n => setNumBots n s end.
  Definition run (l : list event) : sim := fold_left apply l init.
End Random.
