(** C24: start and goal poses outside the map (SearchAlgorithm.hpp:317-329,462-570,
    MapManager.hpp:202-210). *)
From Coq Require Import ZArith List Bool Lia QArith.
From Verif Require Import Base GridMap GenericSearch DirectSearch.
Import ListNotations.
Local Open Scope Z_scope.

(** A pose (in cell units) that the node lookup takes as coordinates at all: more than
    one cell below zero the conversion to an unsigned number is undefined. *)
Definition convertible (p : Q * Q) : Prop :=
  (-1 < fst p)%Q /\ (-1 < snd p)%Q /\ (fst p < inject_Z 4294967296)%Q /\ (snd p < inject_Z 4294967296)%Q.
(** Right of or above the map. *)
Definition beyond (m : gridmap) (p : Q * Q) : Prop := (inject_Z (gm_w m) <= fst p)%Q \/ (inject_Z (gm_h m) <= snd p)%Q.

Lemma to_unsigned_spec q : 
  ((-1 < q)%Q -> (q < inject_Z 4294967296)%Q -> exists z, to_unsigned q = Some z /\ 0 <= z < 4294967296 /\ (q < inject_Z (z + 1))%Q /\ (inject_Z z <= q \/ (q < 0 /\ z = 0%Z))%Q) /\
  (~ (-1 < q)%Q \/ ~ (q < inject_Z 4294967296)%Q -> to_unsigned q = None).
Proof.
  destruct q as [n d]. unfold to_unsigned, Qlt, Qle, inject_Z. cbn [Qnum Qden Qopp]. 
  pose proof (Z.quot_rem' n (Zpos d)) as E. pose proof (Pos2Z.is_pos d) as Hd.
  set (z := Z.quot n (Zpos d)) in *. set (r := Z.rem n (Zpos d)) in *.
  assert (Hr : (0 <= n -> 0 <= r < Zpos d) /\ (n <= 0 -> - Zpos d < r <= 0)).
  { split; intros Hn; unfold r; [apply Z.rem_bound_pos; lia|]. pose proof (Z.rem_bound_neg_pos n (Zpos d)). lia. }
  destruct Hr as [Hr1 Hr2].
  split.
  - intros H1 H2. assert (0 <= z < 4294967296). { destruct (Z_le_dec 0 n); [specialize (Hr1 ltac:(lia))|specialize (Hr2 ltac:(lia))]; nia. }
    exists z. replace ((0 <=? z) && (z <? 4294967296)) with true by lia. split; [reflexivity|]. split; [assumption|].
    destruct (Z_le_dec 0 n); [specialize (Hr1 ltac:(lia)); split; [nia|left; nia]|]. specialize (Hr2 ltac:(lia)). split; [nia|right; split; nia].
  - intros H. assert (~ (0 <= z < 4294967296)); [|replace ((0 <=? z) && (z <? 4294967296)) with false by lia; reflexivity].
    intros Hz. destruct H as [H|H]; apply H; clear H; (destruct (Z_le_dec 0 n); [specialize (Hr1 ltac:(lia))|specialize (Hr2 ltac:(lia))]; nia).
Qed.
Lemma to_unsigned_beyond q z k : to_unsigned q = Some z -> 0 < k -> (k <= z <-> (inject_Z k <= q)%Q).
Proof.
  intros E Hk. destruct (to_unsigned_spec q) as [A B].
  destruct (Qlt_le_dec (-1) q) as [H1|H1]; [|rewrite B in E; [discriminate|left; apply Qle_not_lt; exact H1]].
  destruct (Qlt_le_dec q (inject_Z 4294967296)) as [H2|H2]; [|rewrite B in E; [discriminate|right; apply Qle_not_lt; exact H2]].
  destruct (A H1 H2) as (z' & E' & Hz & L & G). assert (z' = z) by congruence. subst z'. split; intros H.
  - destruct G as [G|[_ G]]; [|lia]. eapply Qle_trans; [|exact G]. rewrite <- Zle_Qle. exact H.
  - assert (X : (inject_Z k < inject_Z (z + 1))%Q) by (eapply Qle_lt_trans; [exact H|exact L]). rewrite <- Zlt_Qlt in X. lia.
Qed.

(** The node found for a pose: the cell it lies in, where a coordinate less than one
    cell below zero counts as zero. *)
Definition taken_as (q : Q) (z : Z) : Prop := ((inject_Z z <= q /\ q < inject_Z (z + 1)) \/ (-1 < q /\ q < 0 /\ z = 0%Z))%Q.
Lemma lookup_cases m p : 0 < gm_w m -> 0 < gm_h m ->
  (~ convertible p -> lookup_pose m p = LUndef) /\
  (convertible p -> beyond m p -> lookup_pose m p = LOutside) /\
  (convertible p -> ~ beyond m p -> exists c, lookup_pose m p = LCell c /\ cell_of (gm_w m) (gm_h m) (fst c) (snd c) /\ taken_as (fst p) (fst c) /\ taken_as (snd p) (snd c)).
Proof.
  intros Hw Hh. destruct p as [x y]. unfold convertible, beyond, lookup_pose. cbn [fst snd].
  destruct (to_unsigned_spec x) as [Ax Bx]. destruct (to_unsigned_spec y) as [Ay By].
  split; [|split].
  - intros N. destruct (Qlt_le_dec (-1) x) as [X1|X1]; [|rewrite (Bx (or_introl (Qle_not_lt _ _ X1))); destruct (to_unsigned y); reflexivity].
    destruct (Qlt_le_dec x (inject_Z 4294967296)) as [X2|X2]; [|rewrite (Bx (or_intror (Qle_not_lt _ _ X2))); destruct (to_unsigned y); reflexivity].
    destruct (Qlt_le_dec (-1) y) as [Y1|Y1]; [|rewrite (By (or_introl (Qle_not_lt _ _ Y1))); reflexivity].
    destruct (Qlt_le_dec y (inject_Z 4294967296)) as [Y2|Y2]; [|rewrite (By (or_intror (Qle_not_lt _ _ Y2))); reflexivity].
    exfalso. apply N. auto.
  - intros (X1 & Y1 & X2 & Y2) HB. destruct (Ax X1 X2) as (zx & Ex & _). destruct (Ay Y1 Y2) as (zy & Ey & _). rewrite Ex, Ey.
    destruct HB as [HB|HB]; [apply (to_unsigned_beyond x zx (gm_w m) Ex Hw) in HB|apply (to_unsigned_beyond y zy (gm_h m) Ey Hh) in HB];
      replace ((zx >=? gm_w m) || (zy >=? gm_h m)) with true by lia; reflexivity.
  - intros (X1 & Y1 & X2 & Y2) HB. destruct (Ax X1 X2) as (zx & Ex & Rx & Lx & Gx). destruct (Ay Y1 Y2) as (zy & Ey & Ry & Ly & Gy). rewrite Ex, Ey.
    assert (zx < gm_w m). { destruct (Z_lt_dec zx (gm_w m)); [assumption|]. exfalso. apply HB. left. apply (to_unsigned_beyond x zx _ Ex Hw). lia. }
    assert (zy < gm_h m). { destruct (Z_lt_dec zy (gm_h m)); [assumption|]. exfalso. apply HB. right. apply (to_unsigned_beyond y zy _ Ey Hh). lia. }
    replace ((zx >=? gm_w m) || (zy >=? gm_h m)) with false by lia. exists (zx, zy). cbn [fst snd].
    split; [reflexivity|]. split; [unfold cell_of; lia|]. unfold taken_as. split; [destruct Gx as [Gx|[Gx Gx']]|destruct Gy as [Gy|[Gy Gy']]]; auto.
Qed.

(** For every arithmetic, heuristic, open list, neighbourhood and history: a pose right of
    or above the map makes OutsideMapException escape; a pose one cell or more left of or
    below it (or beyond the range of unsigned) is undefined behaviour; and a coordinate
    less than one cell below zero counts as zero. *)
Theorem C24_outside : forall C zero add lt tot cost heur hyp push pop best eight D fuel (op : opts C) (o : sobj C) from to,
  0 < gm_w (ob_map C o) -> 0 < gm_h (ob_map C o) ->
  let result := fst (findPath C zero add lt tot cost heur hyp push pop best eight D fuel op o from to) in
  let m := ob_map C o in
  (~ convertible from -> result = FUndef) /\
  (convertible from -> beyond m from -> result = FOutside) /\
  (convertible from -> ~ beyond m from -> ~ convertible to -> result = FUndef) /\
  (convertible from -> ~ beyond m from -> convertible to -> beyond m to -> result = FOutside).
Proof.
  intros C zero add lt tot cost heur hyp push pop best eight D fuel op o from to Hw Hh result m.
  destruct (lookup_cases m from Hw Hh) as (A1 & A2 & A3). destruct (lookup_cases m to Hw Hh) as (B1 & B2 & _).
  unfold result, findPath. cbv zeta. fold m. split; [|split; [|split]].
  - intros N. rewrite (A1 N). reflexivity.
  - intros Y B. rewrite (A2 Y B). reflexivity.
  - intros Y B N. destruct (A3 Y B) as (c & -> & _). rewrite (B1 N). reflexivity.
  - intros Y B Y' B'. destruct (A3 Y B) as (c & -> & _). rewrite (B2 Y' B'). reflexivity.
Qed.
Definition snap (q q' : Q) : Prop := q' = q \/ ((-1 < q)%Q /\ (q < 0)%Q /\ q' = 0%Q).
Theorem C24_just_below_zero : forall C zero add lt tot cost heur hyp push pop best eight D fuel (op : opts C) (o : sobj C) from to from' to',
  snap (fst from) (fst from') -> snap (snd from) (snd from') -> snap (fst to) (fst to') -> snap (snd to) (snd to') ->
  findPath C zero add lt tot cost heur hyp push pop best eight D fuel op o from to =
  findPath C zero add lt tot cost heur hyp push pop best eight D fuel op o from' to'.
Proof.
  intros C zero add lt tot cost heur hyp push pop best eight D fuel op o [x y] [x2 y2] [x' y'] [x2' y2']. cbn [fst snd]. intros H1 H2 H3 H4.
  assert (E : forall q q', snap q q' -> to_unsigned q' = to_unsigned q).
  { intros q q' [->|(A & B & ->)]; [reflexivity|]. destruct (to_unsigned_spec q) as [S _].
    destruct S as (z & -> & Hz & _ & G); [exact A|eapply Qlt_trans; [exact B|reflexivity]|].
    destruct G as [G|[_ ->]]; [|reflexivity]. exfalso. assert ((inject_Z z < inject_Z 0)%Q) by (eapply Qle_lt_trans; [exact G|exact B]). rewrite <- Zlt_Qlt in H. lia. }
  assert (L : forall m u v u' v', snap u u' -> snap v v' -> lookup_pose m (u', v') = lookup_pose m (u, v)).
  { intros m u v u' v' Hu Hv. unfold lookup_pose. cbn [fst snd]. rewrite (E _ _ Hu), (E _ _ Hv). reflexivity. }
  unfold findPath. cbv zeta. rewrite (L _ x y x' y' H1 H2), (L _ x2 y2 x2' y2' H3 H4). reflexivity.
Qed.
(** The hypotheses are met: poses of each kind for a 4x2 map. *)
Example C24_poses : let m := gm_new 4 2 in convertible (9 # 1, 0)%Q /\ beyond m (9 # 1, 0)%Q /\ ~ convertible (-3 # 2, 0)%Q /\ snap (-1 # 2) 0 /\
  convertible (0, 0)%Q /\ ~ beyond m (0, 0)%Q.
Proof.
  unfold convertible, beyond, snap. cbn [fst snd]. unfold Qlt, Qle, inject_Z. cbn. repeat split; try lia; auto.
  right. repeat split; lia.
Qed.
