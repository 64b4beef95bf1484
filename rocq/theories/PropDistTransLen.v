(** C34: length of the path of the distance transformation; counterexamples for
    C33 and C34. *)
From Coq Require Import Reals Lra NArith QArith.
From Verif Require Import Base GridMap GridMapProofs PathSpec DirectSpec DirectSearch PropGeneric PropGenericEx MapManagers PropHeur
  DistTransModel DistTransProofs DistTransExact DistTransPath PropDistTrans.
Open Scope Z_scope.

Lemma euclid_pos a b : (0 <= euclid a b)%R.
Proof. apply sqrt_pos. Qed.
Lemma path_length_cons a b r : path_length (a :: b :: r) = (euclid a b + path_length (b :: r))%R.
Proof. reflexivity. Qed.
Lemma path_length_pos p : (0 <= path_length p)%R.
Proof. induction p as [|a [|b r] IH]; [cbn; lra..|]. rewrite path_length_cons. pose proof (euclid_pos a b). lra. Qed.
Lemma path_length_suffix a b : (path_length b <= path_length (a ++ b))%R.
Proof.
  induction a as [|x a IH]; [cbn; lra|]. cbn [app]. destruct (a ++ b) as [|y r] eqn:E.
  - destruct a; [cbn in E; subst b; cbn; lra|discriminate].
  - rewrite path_length_cons. pose proof (euclid_pos x y). lra.
Qed.
Lemma euclid_adj_range a b : adjacent8 a b -> (1 <= euclid a b <= sqrt 2)%R.
Proof. intros H. rewrite euclid_adjacent by assumption. pose proof sqrt2_bounds. destruct (_ || _); lra. Qed.

Section Len.
  Variable m : gridmap.
  Hypothesis Hm : gm_wf m.
  Variable g : cell.
  Hypothesis Hg : cell_of (gm_w m) (gm_h m) (fst g) (snd g).
  Variable fuel0 : nat.
  Variable t : DistTransModel.table dnum.
  Notation t0 := (dt_init dnum d0 Big Infty m g).
  Hypothesis Ht : sweeps dnum dadd dlt d_inf d1 dsqrt2 fuel0 (gm_w m) (gm_h m) t0 = Some t.

  Lemma bt_length fuel : forall cur p a b, dt_backtrack dnum dlt fuel m t g cur = Some p -> t cur = Fin a b ->
    (path_length p <= sqrt 2 * dval a b)%R.
  Proof using Hg Ht.
    pose proof sqrt2_bounds as S2. induction fuel as [|f IH]; intros cur p a b H E; rewrite bt_unfold in H.
    - destruct (ceqb cur g); [injection H as <-|destruct (ceqb _ cur); [injection H as <-|discriminate]];
        cbn [path_length]; pose proof (dval_nonneg a b); nra.
    - destruct (ceqb_spec cur g) as [->|Hc]; [injection H as <-; cbn [path_length]; pose proof (dval_nonneg a b); nra|].
      destruct (ceqb_spec (dt_best dnum dlt m t cur) cur) as [Hb|Hb]; [injection H as <-; cbn [path_length]; pose proof (dval_nonneg a b); nra|].
      destruct (dt_backtrack dnum dlt f m t g (dt_best dnum dlt m t cur)) as [l|] eqn:El; [|discriminate]. injection H as <-.
      assert (Hmax : dlt (t cur) Big = true) by (rewrite E; reflexivity).
      destruct (below_max _ _ _ _ _ _ _ _ _ _ _ exact_arith m g fuel0 t Ht cur Hmax) as (q & Hq & Eq).
      destruct (descent _ _ _ _ _ _ _ _ _ _ _ exact_arith exact_infl m g Hg (exact_strict m) fuel0 t Ht cur q Hc Hq Eq) as (n & Hadj & Hin & L1 & L2 & L3).
      destruct (best_spec _ _ _ _ _ _ _ _ _ _ _ exact_arith m g fuel0 t Ht cur) as [[X|(Ba & Bi & Bl)] B2]; [contradiction|]. specialize (B2 n Hadj Hin).
      destruct (t (dt_best dnum dlt m t cur)) as [c d| |] eqn:Eb; [|rewrite E in Bl; discriminate..].
      destruct (t n) as [u v| |] eqn:En; [|rewrite E in L3; discriminate..].
      specialize (IH _ _ _ _ El Eb). rewrite E in L2.
      assert (Hw : exists x y, weight dnum d1 dsqrt2 cur n = Fin x y /\ (1 <= dval x y)%R).
      { destruct (weight_cases dnum d1 dsqrt2 cur n) as [-> | ->]; do 2 eexists; (split; [reflexivity|]); unfold dval; cbn; lra. }
      destruct Hw as (x & y & Ew & Hxy). rewrite Ew in L2. cbn [dadd] in L2. apply dlt_fin_false in L2. rewrite dval_add in L2. apply dlt_fin_false in B2.
      destruct (bt_shape _ _ _ _ _ _ _ _ _ _ _ exact_arith m g fuel0 t Ht f _ l El) as (Hh & _). destruct l as [|b' l]; [discriminate|]. injection Hh as ->.
      rewrite path_length_cons. pose proof (euclid_adj_range _ _ Ba). nra.
  Qed.
End Len.

(** C34 (exact arithmetic): the path is at most sqrt 2 times as long as the
    shortest way over free cells inside the border. *)
Theorem C34_length m s g from to fuel p q : gm_wf m ->
  cell_of (gm_w m) (gm_h m) (fst s) (snd s) -> cell_of (gm_w m) (gm_h m) (fst g) (snd g) ->
  in_cell from s -> in_cell to g ->
  dt_exact fuel m from to = DPath p -> dt_route m s g q ->
  (path_length p <= sqrt 2 * path_length q)%R.
Proof.
  intros Hm Hs Hg H1 H2 E Hq. pose proof sqrt2_bounds as S2.
  rewrite (find_unfold dnum d0 Big Infty dadd dlt d_inf d1 dsqrt2 m Hm s g Hs Hg from to H1 H2) in E.
  destruct (sweeps _ _ _ _ _ _ _ _ _ _) as [t|] eqn:Et; [|discriminate].
  destruct (dt_backtrack dnum dlt fuel m t g s) as [p'|] eqn:Eb; [|discriminate]. injection E as ->.
  destruct (route_simple m s g q Hq) as (r & Hr & Hns & a & ->). pose proof (path_length_suffix a (s :: r)) as Hsuf.
  enough (G : (path_length p <= sqrt 2 * path_length (s :: r))%R) by (eapply Rle_trans; [exact G|apply Rmult_le_compat_l; lra]).
  rewrite bt_unfold in Eb. destruct (ceqb_spec s g) as [->|Hsg].
  { injection Eb as <-. change (path_length [g]) with 0%R. apply Rmult_le_pos; [lra|apply path_length_pos]. }
  destruct r as [|n r]; [destruct Hr as [[_ X] _]; cbn in X; contradiction|].
  destruct (ceqb_spec (dt_best dnum dlt m t s) s) as [Hb|Hb].
  { injection Eb as <-. change (path_length [s]) with 0%R. apply Rmult_le_pos; [lra|apply path_length_pos]. }
  destruct fuel as [|f]; [discriminate|]. destruct (dt_backtrack dnum dlt f m t g (dt_best dnum dlt m t s)) as [l|] eqn:El; [|discriminate]. injection Eb as <-.
  pose proof (route_tail _ _ _ _ _ _ _ _ _ _ _ exact_arith m Hm g s n r Hr Hns) as Hn.
  assert (Hadj : adjacent8 s n) by (destruct Hr as (_ & Hch & _); apply chain_cons in Hch; apply Hch).
  pose proof (least _ _ _ _ _ _ _ _ _ _ _ exact_arith m g (S f) t Et _ _ Hn) as Ln.
  destruct (pcost_length (n :: r)) as (u & v & Eu & Lu); [apply Hn|]. rewrite Eu in Ln.
  assert (Hnin : cell_of (gm_w m) (gm_h m) (fst n) (snd n)).
  { destruct (ceqb_spec n g) as [->|Hng]; [assumption|]. destruct Hn as (_ & _ & F). destruct (F n (or_introl eq_refl) Hng) as [Hi _].
    unfold inner in Hi. unfold cell_of. clear - Hi. lia. }
  destruct (best_spec _ _ _ _ _ _ _ _ _ _ _ exact_arith m g (S f) t Et s) as [[X|(Ba & Bi & Bl)] B2]; [contradiction|]. specialize (B2 n Hadj Hnin).
  destruct (t n) as [c d| |] eqn:En; [|discriminate..]. apply dlt_fin_false in Ln.
  destruct (t (dt_best dnum dlt m t s)) as [c' d'| |] eqn:Eb'; [|discriminate..]. apply dlt_fin_false in B2.
  pose proof (bt_length m g Hg (S f) t Et f _ l c' d' El Eb') as HL.
  destruct (bt_shape _ _ _ _ _ _ _ _ _ _ _ exact_arith m g (S f) t Et f _ l El) as (Hh & _). destruct l as [|b' l]; [discriminate|]. injection Hh as ->.
  rewrite !path_length_cons. pose proof (euclid_adj_range _ _ Ba). pose proof (euclid_adj_range _ _ Hadj). nra.
Qed.

(** ** Counterexamples *)

Definition map_of (w h : Z) (d : list Z) : gridmap := GridMap w h d 50 200 (-1).
Ltac wf_map := vm_compute; repeat split; discriminate || reflexivity.
Ltac incell := split; split; vm_compute; (reflexivity || discriminate).

(** 6x7, occupied: (1,1), (2,2), (3,2), (3,3), (2,5). *)
Definition greedy_map : gridmap := map_of 6 7
  [0;0;0;0;0;0;  0;255;0;0;0;0;  0;0;255;255;0;0;  0;0;0;255;0;0;  0;0;0;0;0;0;  0;0;255;0;0;0;  0;0;0;0;0;0].

Ltac lens := unfold path_length, euclid; cbn [fst snd Z.sub Z.add Z.opp Pos.add Z.pos_sub Pos.pred_double Pos.succ Z.succ_double Z.pred_double Z.double].

Lemma euclid_straight a b : (fst a =? fst b) && (Z.abs (snd a - snd b) =? 1) || (snd a =? snd b) && (Z.abs (fst a - fst b) =? 1) = true -> euclid a b = 1%R.
Proof.
  intros H. rewrite euclid_adjacent.
  - assert (E : (fst a =? fst b) || (snd a =? snd b) = true) by lia. rewrite E. reflexivity.
  - split; [intros ->; lia|lia].
Qed.
Lemma euclid_diagonal a b : (Z.abs (fst a - fst b) =? 1) && (Z.abs (snd a - snd b) =? 1) = true -> euclid a b = sqrt 2.
Proof.
  intros H. rewrite euclid_adjacent.
  - assert (E : (fst a =? fst b) || (snd a =? snd b) = false) by lia. rewrite E. reflexivity.
  - split; [intros ->; lia|lia].
Qed.
Ltac plen := repeat (rewrite path_length_cons; first [rewrite euclid_straight by reflexivity | rewrite euclid_diagonal by reflexivity]).

(** C34 refuted: the path need not be shortest (backtracking goes to the nearest
    neighbour without counting the step). *)
Theorem C34_shortest_refuted : exists m s g from to fuel p q,
  gm_wf m /\ in_cell from s /\ in_cell to g /\ map_free m s /\ map_free m g /\
  dt_exact fuel m from to = DPath p /\ last p s = g /\ dt_route m s g q /\ (path_length q < path_length p)%R.
Proof.
  exists greedy_map, (4, 5), (2, 1), (at_ 4 5), (at_ 2 1), 10%nat, [(4, 5); (3, 4); (2, 3); (1, 2); (2, 1)], [(4, 5); (4, 4); (4, 3); (4, 2); (3, 1); (2, 1)].
  split; [wf_map|]. split; [incell|]. split; [incell|].
  split; [split; [wf_map|reflexivity]|]. split; [split; [wf_map|reflexivity]|]. split; [vm_compute; reflexivity|]. split; [reflexivity|]. split.
  - split; [split; reflexivity|]. split; [repeat (apply chain_cons; split; [split; [discriminate|vm_compute; split; discriminate]|]); exact Logic.I|].
    intros c Hc _ _. cbn [In] in Hc.
    repeat match goal with K : _ \/ _ |- _ => destruct K as [K|K] end; try contradiction; subst c; (split; [wf_map|split; [wf_map|reflexivity]]).
  - plen. change (path_length [(2, 1)]) with 0%R. pose proof sqrt2_bounds. lra.
Qed.

(** C34 refuted: an unreachable goal is not reported by an empty path: the result
    is a path that ends somewhere else. *)
Theorem C34_failure_refuted : exists m s g from to fuel p,
  gm_wf m /\ in_cell from s /\ in_cell to g /\ map_free m s /\ map_free m g /\
  dt_exact fuel m from to = DPath p /\ p <> [] /\ last p s <> g /\
  (forall q, from_to s g q -> chain adjacent8 q -> ~ (forall c, In c q -> map_free m c)).
Proof.
  set (m := map_of 5 3 [0;0;255;0;0; 0;0;255;0;0; 0;0;255;0;0]).
  exists m, (1, 1), (3, 1), (at_ 1 1), (at_ 3 1), 10%nat, [(1, 1)].
  split; [wf_map|]. split; [incell|]. split; [incell|].
  split; [split; [wf_map|reflexivity]|]. split; [split; [wf_map|reflexivity]|]. split; [vm_compute; reflexivity|]. split; [discriminate|]. split; [discriminate|].
  intros q [Hh Hl] Hch Hf.
  assert (Hcol : forall c, map_free m c -> fst c <> 2).
  { intros [x y] [[Hx Hy] H] E. cbn [fst snd] in *. subst x. change (gm_h m) with 3 in Hy.
    assert (Ey : y = 0 \/ y = 1 \/ y = 2) by lia. destruct Ey as [->|[->| ->]]; vm_compute in H; discriminate. }
  assert (X : forall q a d, chain adjacent8 (a :: q) -> (forall c, In c (a :: q) -> map_free m c) -> fst a < 2 -> fst (last (a :: q) d) < 2).
  { clear - Hcol. induction q as [|b q IH]; intros a d Hch Hf Ha; [exact Ha|]. apply chain_cons in Hch. destruct Hch as [(_ & H1 & _) H2].
    assert (Hb : fst b < 2) by (pose proof (Hcol b (Hf b (or_intror (or_introl eq_refl)))); lia).
    apply (IH b d H2); [intros c Hc; apply Hf; right; exact Hc|assumption]. }
  destruct q as [|a q]; [discriminate|]. injection Hh as ->.
  specialize (X q (1, 1) (1, 1) Hch Hf ltac:(cbn; lia)). rewrite Hl in X. cbn in X. lia.
Qed.

Ltac free_cells := let c := fresh "c" in let Hc := fresh "Hc" in intros c Hc; cbn [In] in Hc;
    repeat match goal with K : _ \/ _ |- _ => destruct K as [K|K] end; try contradiction; subst c; (split; [wf_map|reflexivity]).
Ltac king := repeat (apply chain_cons; split; [split; [discriminate|vm_compute; split; discriminate]|]); exact Logic.I.

(** 5x5, occupied: (2,1), (2,2), (2,3): the only way past the wall is along the border. *)
Definition border_map : gridmap := map_of 5 5 [0;0;0;0;0; 0;0;255;0;0; 0;0;255;0;0; 0;0;255;0;0; 0;0;0;0;0].

(** C34 refuted: cells of the border are never used, a free way along it is missed. *)
Theorem C34_border_refuted : exists m s g from to fuel p q,
  gm_wf m /\ in_cell from s /\ in_cell to g /\
  dt_exact fuel m from to = DPath p /\ last p s <> g /\
  from_to s g q /\ chain adjacent8 q /\ (forall c, In c q -> map_free m c).
Proof.
  exists border_map, (3, 2), (1, 2), (at_ 3 2), (at_ 1 2), 10%nat, [(3, 2)], [(3, 2); (3, 1); (2, 0); (1, 1); (1, 2)].
  split; [wf_map|]. split; [incell|]. split; [incell|]. split; [vm_compute; reflexivity|]. split; [discriminate|].
  split; [split; reflexivity|]. split; [king|free_cells].
Qed.

(** 5x5, occupied: (2,1), (2,2). *)
Definition detour_map : gridmap := map_of 5 5 [0;0;0;0;0; 0;0;255;0;0; 0;0;255;0;0; 0;0;0;0;0; 0;0;0;0;0].

(** C33 refuted: ways along the border are ignored, so the value can exceed the
    length of the shortest free way (the heuristic is not admissible). *)
Theorem C33_border_refuted : exists m g c fuel t v q,
  gm_wf m /\ hol_table fuel 0 (gm_w m) (gm_h m) (grid_occ m) g = Some t /\
  from_to c g q /\ chain adjacent8 q /\ (forall x, In x q -> map_free m x) /\
  hol 0 (Some t) c (Some 1%R) = Some v /\ (path_length q < v)%R.
Proof.
  assert (X : match hol_table 10 0 5 5 (grid_occ detour_map) (1, 1) with Some t => t (3, 1) = Fin 2 2 | None => False end) by (vm_compute; reflexivity).
  destruct (hol_table 10 0 5 5 (grid_occ detour_map) (1, 1)) as [t|] eqn:E; [|destruct X].
  exists detour_map, (1, 1), (3, 1), 10%nat, t, (dval 2 2 * 1)%R, [(3, 1); (2, 0); (1, 1)].
  split; [wf_map|]. split; [exact E|]. split; [split; reflexivity|]. split; [king|]. split; [free_cells|]. split.
  - unfold hol_compute. change (fst (3, 1) + 0, snd (3, 1) + 0) with (3, 1). rewrite X. reflexivity.
  - plen. change (path_length [(1, 1)]) with 0%R. unfold dval. cbn [Z.of_N]. pose proof sqrt2_bounds. lra.
Qed.

(** C33 refuted: with padding a free cell is reported infinitely far away because
    another cell is occupied. *)
Theorem C33_padding_refuted : exists m g c fuel t,
  gm_wf m /\ map_free m g /\ map_free m c /\ c <> g /\
  hol_table fuel padding (gm_w m) (gm_h m) (dyn_occ m) g = Some t /\ hol padding (Some t) c (Some 1%R) = None.
Proof.
  set (m := map_of 40 40 (map (fun i => if Nat.eqb i 1312 then 255 else 0) (seq 0 1600))).
  assert (X : exists fuel t, hol_table fuel padding (gm_w m) (gm_h m) (dyn_occ m) (5, 5) = Some t).
  { unfold hol_setMap. eapply (table_exists _ _ _ _ _ _ _ _ _ _ _ exact_arith _ _ (fst (5, 5) + padding, snd (5, 5) + padding)); [apply hol_goal|apply hol_cases]. }
  destruct X as (fuel & t & E). exists m, (5, 5), (0, 0), fuel, t.
  split; [vm_compute; repeat split; discriminate || reflexivity|].
  split; [split; [wf_map|vm_compute; reflexivity]|]. split; [split; [wf_map|vm_compute; reflexivity]|]. split; [discriminate|]. split; [exact E|].
  apply (C33_padding fuel t m (5, 5) (0, 0) 1%R E); [discriminate|]. vm_compute. reflexivity.
Qed.

(** A map for the positive theorems: in [detour_map] the way from (3,1) to (1,1)
    inside the border leads around the wall. *)
Example C33_run : match hol_table 10 0 5 5 (grid_occ detour_map) (1, 1) with
  | Some t => t (3, 1) = Fin 2 2 /\ t (3, 3) = Fin 2 1 /\ t (2, 1) = Infty /\ t (4, 1) = Big | None => False end.
Proof. vm_compute. auto. Qed.
Example C33_hypotheses : gm_wf detour_map /\ cell_of (gm_w detour_map) (gm_h detour_map) 1 1 /\ passable detour_map (3, 1).
Proof. split; [wf_map|]. split; [wf_map|]. split; [wf_map|reflexivity]. Qed.
Example C34_run : dt_exact 10 detour_map (at_ 3 1) (at_ 1 1) = DPath [(3, 1); (3, 2); (2, 3); (1, 2); (1, 1)].
Proof. vm_compute. reflexivity. Qed.
Example C34_hypotheses : in_cell (at_ 3 1) (3, 1) /\ in_cell (at_ 1 1) (1, 1) /\ dt_route detour_map (3, 1) (1, 1) [(3, 1); (3, 2); (2, 3); (1, 2); (1, 1)].
Proof.
  split; [incell|]. split; [incell|]. split; [split; reflexivity|]. split; [king|].
  intros c Hc _ _. cbn [In] in Hc.
  repeat match goal with K : _ \/ _ |- _ => destruct K as [K|K] end; try contradiction; subst c; (split; [wf_map|split; [wf_map|reflexivity]]).
Qed.
