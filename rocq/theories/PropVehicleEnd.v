(** C61, C62: vehicle searches end; what is known about the cells they drive through. *)
From Coq Require Import Reals Lra.
From Flocq Require Import Core.Raux.
From Verif Require Import Base GridMap GridMapProofs GridSpec BresenhamProofs GeomR PropGeom PropLine MapManagers SteerModel PropSteer PropSteerKin PropSteerCost PropSteerGoal
  GenericProofs OpenPolicies VehicleSearch VehicleModel VehicleInst VehicleGen PropVehicle.
Local Open Scope R_scope.

(** ** Specification *)
(** The manager has nodes for the cells of the map and 31 (right and above: 32) cells
    around it. *)
Definition has_nodes (m : gridmap) (c : Z * Z) : Prop := (-32 < fst c < gm_w m + 32 /\ -32 < snd c < gm_h m + 32)%Z.
(** Poses to which the vehicle can drive, whatever the map. *)
Inductive drives_to (move : snode -> list snode -> R -> snode -> Prop) (s : snode) : snode -> Prop :=
| dt_start : drives_to move s s
| dt_move q prevs c n : drives_to move s q -> move q prevs c n -> drives_to move s n.
(** Some drive from the start enters row or column -32: 32 cells outside of the map. *)
Definition enters_edge (move : snode -> list snode -> R -> snode -> Prop) (a b : R * R * R) : Prop :=
  exists s q prevs c n, start_node a b s /\ drives_to move s q /\ move q prevs c n /\ (fst (pcell n) = -32 \/ snd (pcell n) = -32)%Z.
(** The call returns with some fuel, and the result does not depend on it. *)
Definition finally {A} (f : nat -> A) (P : A -> Prop) : Prop := exists fuel, (forall k, (fuel <= k)%nat -> f k = f fuel) /\ P (f fuel).

Lemma rpose_drives m skips adv moves (move : snode -> list snode -> R -> snode -> Prop) s q :
  (forall q prevs i k c n, In (i, k) moves -> adv q prevs i k = AMove c n -> move q prevs c n) ->
  rpose m skips adv moves s q -> drives_to move s q.
Proof. intros H. induction 1 as [|q prevs c n _ IH M]; [constructor|]. destruct M as (([i k] & Hm & Ha) & _). econstructor; [exact IH|]. eapply H; [exact Hm|exact Ha]. Qed.
Lemma leaves_edge m skips adv moves (move : snode -> list snode -> R -> snode -> Prop) a b :
  (forall q prevs i k c n, In (i, k) moves -> adv q prevs i k = AMove c n -> move q prevs c n) ->
  leaves m skips adv moves a b -> enters_edge move a b.
Proof.
  intros H (s & q & prevs & i & k & c & n & Hs & Hq & Hm & Ha & _ & _ & He). exists s, q, prevs, c, n.
  split; [apply (start_node_of m); exact Hs|]. split; [apply (rpose_drives m skips adv moves); assumption|]. split; [eapply H; eassumption|]. exact He.
Qed.

(** ** C61: the search ends *)
(** With a path (possibly empty), or with an exception: because one of the poses has no
    node, or because some drive enters row or column -32, which the manager counts as
    inside but for which it has no nodes. *)
Theorem C61_dynamic_ends : forall clamp m skips p so o hval tot push pop timeout bf from to,
  AngleClamp_contract clamp -> map_ok m -> (0 <= skips)%Z -> vehicle_ok p so -> push_ok push -> pop_ok pop ->
  sp_step p / sp_res p <= 536870912 -> sp_la p / sp_res p <= 536870912 -> Rabs (sp_delta p) * IZR (Z.of_nat (do_steps o)) < 2147483648 ->
  ((gm_w m + 64) * (gm_h m + 64) * 64 <= Z.of_nat bf)%Z ->
  finally (fun fuel => d_find clamp m skips p so o hval tot push pop timeout bf fuel from to) (fun r =>
    (exists path, r = VPath _ _ path) \/
    (r = VUndef _ _ /\ (~ has_nodes m (cell_at from) \/ ~ has_nodes m (cell_at to) \/
      enters_edge (d_move clamp p so (Z.of_nat (do_steps o))) (search_from (sp_rev p) from to) (search_to (sp_rev p) from to)))).
Proof.
  intros clamp m skips p so o hval tot push pop timeout bf from to Hc [Hwf Hsm Hw Hh] Hs Hk Hpush Hpop H1 H2 H3 Hbf.
  assert (Hdm : forall q prevs i k c n, In (i, k) (d_moves o) -> d_advance clamp p so q prevs i k = AMove c n -> d_move clamp p so (Z.of_nat (do_steps o)) q prevs c n).
  { intros q prevs i k c n Hm Ha. destruct (d_moves_in o i k Hm) as (A & B & _). exists i, k. auto. }
  assert (Hcu : forall a b s, starts_at m a b s -> sn_custom s <> None).
  { intros a b s (_ & _ & f & ->). discriminate. }
  destruct (gen_ends clamp Hc m Hwf Hsm Hw Hh skips (sp_res p) (d_advance clamp p so) (d_moves o) 0 hval tot
    (fun g r _ => Some (d_isGoal (sp_res p) (do_dist o) (do_ang o) g r)) push pop Hpush Hpop (move_costs p so) (costs_pos p so Hk)
    (fun ref prevs i s c n H => d_cost_in clamp p so ref prevs i s c n Hk H)
    (fun ref prevs i s c n H => d_far clamp p so ref prevs i s c n Hk H1 H2 H)
    (fun a b s q prevs i k Hst Hr Hm => d_defined clamp p so o prevs q i k H3 (custom_some_d clamp m skips p so o s q (Hcu a b s Hst) Hr) Hm)
    (fun a b s q g o0 _ _ => ltac:(discriminate)) (sp_rev p) timeout bf from to Hbf) as (fuel & Hmore & Hres).
  exists fuel. split; [exact Hmore|]. destruct Hres as [X|[X Y]]; [left; exact X|right]. split; [exact X|].
  destruct Y as [Y|[Y|Y]]; [left; exact Y|right; left; exact Y|right; right]. eapply leaves_edge; [exact Hdm|exact Y].
Qed.

Theorem C61_template_ends : forall clamp m skips p so size steps distance hval tot push pop timeout bf from to,
  AngleClamp_contract clamp -> map_ok m -> (0 <= skips)%Z -> vehicle_ok p so -> (size <= 6)%Z -> sp_both p = true -> push_ok push -> pop_ok pop ->
  sp_step p / sp_res p <= 536870912 -> Rabs (sp_delta p) * IZR (Z.of_nat steps) < 2147483648 ->
  ((gm_w m + 64) * (gm_h m + 64) * 64 <= Z.of_nat bf)%Z ->
  finally (fun fuel => s_find clamp m skips p so size steps distance hval tot push pop timeout bf fuel from to) (fun r =>
    (exists path, r = VPath _ _ path) \/
    (r = VUndef _ _ /\ (~ has_nodes m (cell_at from) \/ ~ has_nodes m (cell_at to) \/
      enters_edge (s_move clamp p so (Z.of_nat steps)) (search_from (sp_rev p) from to) (search_to (sp_rev p) from to)))).
Proof.
  intros clamp m skips p so size steps distance hval tot push pop timeout bf from to Hc [Hwf Hsm Hw Hh] Hs Hk Hsz Hb Hpush Hpop H1 H3 Hbf.
  assert (Hdm : forall q prevs i k c n, In (i, k) (v_moves 0 size steps) -> s_advance clamp p so q prevs i k = AMove c n -> s_move clamp p so (Z.of_nat steps) q prevs c n).
  { intros q prevs i k c n Hm Ha. apply v_moves_in in Hm. destruct Hm as (A & B). exists i, k. split; [lia|]. split; assumption. }
  assert (Hcu : forall a b s, starts_at m a b s -> sn_custom s <> None).
  { intros a b s (_ & _ & f & ->). discriminate. }
  destruct (gen_ends clamp Hc m Hwf Hsm Hw Hh skips (sp_res p) (s_advance clamp p so) (v_moves 0 size steps) (Z.to_nat (sp_sds p - 1)) hval tot
    (s_isGoal p distance) push pop Hpush Hpop (move_costs p so) (costs_pos p so Hk)
    (fun ref prevs i s c n H => s_cost_in clamp p so ref prevs i s c n H)
    (fun ref prevs i s c n H => s_far clamp p so ref prevs i s c n Hk Hb H1 H)
    (fun a b s q prevs i k Hst Hr Hm => s_defined clamp p so 0 size steps prevs q i k H3 (custom_some_s clamp m skips p so _ s q Hb (Hcu a b s Hst) Hr) Hm)
    ) with (rv := sp_rev p) (timeout := timeout) (bf := bf) (from := from) (to := to) as (fuel & Hmore & Hres).
  { intros a b s q g o0 Hst Hr. pose proof (custom_some_s clamp m skips p so _ s q Hb (Hcu a b s Hst) Hr) as Hq. unfold s_isGoal.
    destruct (Rlt_dec _ _); [discriminate|]. destruct (sn_custom q) as [cu|]; [|congruence]. destruct (sp_rev p); cbn [obind];
    repeat match goal with |- context [if ?b then _ else _] => destruct b end; try discriminate; destruct o0; discriminate. }
  { exact Hbf. }
  exists fuel. split; [exact Hmore|]. destruct Hres as [X|[X Y]]; [left; exact X|right]. split; [exact X|].
  destruct Y as [Y|[Y|Y]]; [left; exact Y|right; left; exact Y|right; right]. eapply leaves_edge; [exact Hdm|exact Y].
Qed.

(** ** C62: the cells of the path *)
(** For neighbouring poses of a returned path, in the direction of the search: the cell of
    the earlier one is not occupied; if both cells, moved by 32 cells up and to the right, are
    in the map, then a line of cells joins them of which every (skips + 1)-th is not
    occupied. *)
Definition passable (m : gridmap) (skips : Z) (path : list snode) : Prop :=
  forall a n r b, path = a ++ n :: r :: b ->
    ~ occupied m (fst (pcell r)) (snd (pcell r)) /\ line_clear m skips (fst (pcell r)) (snd (pcell r)) (fst (pcell n)) (snd (pcell n)).
Lemma near_passable clamp m skips move s l : map_ok m -> (0 <= skips)%Z -> near_trip clamp move s l ->
  (forall r prevs c n, move r prevs c n -> v_line m skips (sn_x r) (sn_y r) (sn_x n) (sn_y n) = Some true) -> passable m skips l.
Proof.
  intros Hm Hs Ht Hl a n r b E. destruct (near_line clamp m skips move s l Ht Hl a n r b E) as (r' & Er & H). apply (line_cells m skips r' n _ Hm Hs Er H).
Qed.
Theorem C62_dynamic_cells : forall clamp m skips p so o hval tot push pop timeout bf fuel from to path,
  AngleClamp_contract clamp -> map_ok m -> (0 <= skips)%Z -> vehicle_ok p so -> push_ok push -> pop_ok pop ->
  d_find clamp m skips p so o hval tot push pop timeout bf fuel from to = VPath _ _ path ->
  passable m skips (driven (sp_rev p) path) /\ (forall n, In n (driven (sp_rev p) path) -> has_nodes m (pcell n)).
Proof.
  intros clamp m skips p so o hval tot push pop timeout bf fuel from to path Hc [Hwf Hsm Hw Hh] Hs Hk Hpush Hpop E.
  destruct path as [|x path]; [unfold driven; destruct (sp_rev p); cbn; (split; [intros [|? ?] ? ? ? ?; discriminate|intros n []])|].
  destruct (gen_weak clamp Hc m Hwf Hsm Hw Hh skips (sp_res p) (d_advance clamp p so) (d_moves o) 0 hval tot _ push pop Hpush Hpop (move_costs p so) (costs_pos p so Hk)
    (fun ref prevs i s c n H => d_cost_in clamp p so ref prevs i s c n Hk H) _ _ _ _ _ _ _ E ltac:(discriminate)) as (s & n & l & gp & Ed & Ht & Hst & _).
  rewrite Ed. split; [eapply near_passable; [constructor; assumption|assumption|exact Ht|]; intros r prevs c n0 (_ & H & _); exact H|].
  clear - Ht Hst. destruct Hst as (Hi & _ & f & Es). induction Ht as [|n0 r l0 r' prevs c H IH _ _ M]; intros x Hx.
  - destruct Hx as [<-|[]]. rewrite Es. unfold pcell, at_corner. cbn [sn_x sn_y]. rewrite !Zfloor_IZR. exact Hi.
  - destruct Hx as [<-|Hx]; [|apply IH; exact Hx]. destruct M as (_ & _ & M). exact M.
Qed.
Theorem C62_template_cells : forall clamp m skips p so size steps distance hval tot push pop timeout bf fuel from to path,
  AngleClamp_contract clamp -> map_ok m -> (0 <= skips)%Z -> vehicle_ok p so -> push_ok push -> pop_ok pop ->
  s_find clamp m skips p so size steps distance hval tot push pop timeout bf fuel from to = VPath _ _ path ->
  passable m skips (driven (sp_rev p) path) /\ (forall n, In n (driven (sp_rev p) path) -> has_nodes m (pcell n)).
Proof.
  intros clamp m skips p so size steps distance hval tot push pop timeout bf fuel from to path Hc [Hwf Hsm Hw Hh] Hs Hk Hpush Hpop E.
  destruct path as [|x path]; [unfold driven; destruct (sp_rev p); cbn; (split; [intros [|? ?] ? ? ? ?; discriminate|intros n []])|].
  destruct (gen_weak clamp Hc m Hwf Hsm Hw Hh skips (sp_res p) (s_advance clamp p so) (v_moves 0 size steps) _ hval tot _ push pop Hpush Hpop (move_costs p so) (costs_pos p so Hk)
    (fun ref prevs i s c n H => s_cost_in clamp p so ref prevs i s c n H) _ _ _ _ _ _ _ E ltac:(discriminate)) as (s & n & l & gp & Ed & Ht & Hst & _).
  rewrite Ed. split; [eapply near_passable; [constructor; assumption|assumption|exact Ht|]; intros r prevs c n0 (_ & H & _); exact H|].
  clear - Ht Hst. destruct Hst as (Hi & _ & f & Es). induction Ht as [|n0 r l0 r' prevs c H IH _ _ M]; intros x Hx.
  - destruct Hx as [<-|[]]. rewrite Es. unfold pcell, at_corner. cbn [sn_x sn_y]. rewrite !Zfloor_IZR. exact Hi.
  - destruct Hx as [<-|Hx]; [|apply IH; exact Hx]. destruct M as (_ & _ & M). exact M.
Qed.
