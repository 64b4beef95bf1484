(** Properties C13-C16 and C18: the grid A* search object.

    Everything is stated for arbitrary cost arithmetic: [Dd]/[Df] are the
    double/float types and [tofloat], [zero], [step], [predict], [value],
    [gt_value] the operations on them (AStarOld.v). *)
From Verif Require Import Base GridMap GridMapProofs PathSpec AStarOld AStarOldProofs.

Section Props.
  Context {Dd Df : Type}.
  Variable tofloat : Dd -> Df.
  Variable zero : Dd.
  Variable step : Df -> bool -> Dd.
  Variable predict : Z * Z -> Z * Z -> Dd.
  Variable value : Df -> Df -> Z.
  Variable gt_value : Dd -> Dd -> Z -> bool.
  Notation astep := (astep Dd Df tofloat zero step predict value gt_value).
  Notation aplan := (aplan Dd Df tofloat zero step predict value gt_value).
  Notation planPath := (planPath Dd Df tofloat zero step predict value gt_value).
  Notation amap := (a_map Df).

  (** A client history in which map objects are usable when planning and are
      never resized behind the back of the search object. *)
  Fixpoint same_size_history (a : astar Df) (ops : list (aop Df)) : Prop :=
    match ops with
    | [] => True
    | op :: r =>
        match op with
        | OpMutate _ m => gm_w m = gm_w (amap a) /\ gm_h m = gm_h (amap a)
        | _ => True
        end /\ same_size_history (astep a op) r
    end.

  (** The states a client can bring a search object into. *)
  Definition reachable (a : astar Df) : Prop :=
    exists junk m0 ops, same_size_history (astar_new Df junk m0) ops /\
      a = fold_left astep ops (astar_new Df junk m0).

  Definition usable (m : gridmap) : Prop := gm_wf m /\ gm_w m * gm_h m < 2147483648.

  Lemma reachable_inv a : reachable a ->
    o_w Df (a_ol Df a) = gm_w (amap a) /\ o_h Df (a_ol Df a) = gm_h (amap a) /\ tracked (a_ol Df a).
  Proof.
    intros (junk & m0 & ops & Hs & ->).
    assert (H0 : o_w Df (a_ol Df (astar_new Df junk m0)) = gm_w (amap (astar_new Df junk m0)) /\
                 o_h Df (a_ol Df (astar_new Df junk m0)) = gm_h (amap (astar_new Df junk m0)) /\
                 tracked (a_ol Df (astar_new Df junk m0))).
    { cbn. repeat split. intros i. cbn. discriminate. }
    revert Hs H0. generalize (astar_new Df junk m0) as a. clear junk m0.
    induction ops as [|op r IH]; intros a Hs (Hw & Hh & Ht); [auto|].
    cbn [fold_left]. destruct Hs as [Hop Hs]. apply IH; [exact Hs|]. destruct op as [s g|junk m|m]; cbn [AStarOld.astep a_map a_ol].
    - destruct (planPath_tracked tofloat zero step predict value gt_value (amap a) (a_ol Df a) s g Ht) as (T & E1 & E2).
      repeat split; [congruence|congruence|exact T].
    - unfold setNewMap. destruct (Z.eqb_spec (gm_w (amap a)) (gm_w m)); cbn [negb orb].
      2:{ cbn. repeat split. intros i. cbn. discriminate. }
      destruct (Z.eqb_spec (gm_h (amap a)) (gm_h m)); cbn [negb].
      2:{ cbn. repeat split. intros i. cbn. discriminate. }
      cbn [a_ol a_map]. repeat split; [congruence|congruence|exact Ht].
    - destruct Hop. repeat split; [congruence|congruence|exact Ht].
  Qed.

  (** C13: whatever happened before, a returned path is a legal path from start
      to goal through free map cells that visits no cell twice.  (A failing
      planPath is [NoPath], which carries no path: mPath is cleared first.) *)
  Theorem C13_path_valid a start goal p :
    reachable a -> usable (amap a) -> aplan a start goal = Path p ->
    hd_error p = Some start /\ last p start = goal /\ chain adjacent8 p /\ NoDup p /\
    forall c, In c p -> cell_of (gm_w (amap a)) (gm_h (amap a)) (fst c) (snd c) /\
                        (c <> goal -> isFree (amap a) (fst c) (snd c) = Some true).
  Proof.
    intros Hr [Hwf Hsz] E. destruct (reachable_inv a Hr) as (Hw & Hh & Ht).
    pose proof (planPath_good tofloat zero step predict value gt_value (amap a) start goal _ Hwf Hsz Hw Hh Ht) as H.
    unfold AStarOld.aplan in E. rewrite E in H. destruct H as (((H1 & H2) & H3 & H4) & H5 & H6 & H7).
    split; [exact H1|]. split; [exact H2|]. split; [exact H3|]. split; [exact H5|].
    intros c Hc. split; [|intros Hne; apply H4; assumption].
    destruct (list_eq_dec Z.eq_dec [fst c; snd c] [fst goal; snd goal]) as [El|El].
    - assert (c = goal) as -> by (destruct c, goal; cbn in El; congruence). exact H7.
    - apply H4; [exact Hc|]. intros ->. congruence.
  Qed.

  (** C14: planPath always terminates, and finds a path exactly when there is
      one; a start or goal outside the map is answered by failure. *)
  Theorem C14_complete a start goal :
    reachable a -> usable (amap a) ->
    (exists p, aplan a start goal = Path p) <->
    (cell_of (gm_w (amap a)) (gm_h (amap a)) (fst start) (snd start) /\
     cell_of (gm_w (amap a)) (gm_h (amap a)) (fst goal) (snd goal) /\
     exists l, grid_path (free_cell (amap a)) start goal l).
  Proof.
    intros Hr [Hwf Hsz]. destruct (reachable_inv a Hr) as (Hw & Hh & Ht).
    pose proof (planPath_good tofloat zero step predict value gt_value (amap a) start goal _ Hwf Hsz Hw Hh Ht) as H.
    unfold AStarOld.aplan. destruct (fst (planPath (amap a) (a_ol Df a) start goal)) as [|p|].
    - destruct H.
    - destruct H as (H1 & _ & H3 & H4). split; [intros _; eauto|intros _; eauto].
    - split; [intros (p & E); discriminate|]. intros (H1 & H2 & H3). exfalso. apply (H H1 H2 H3).
  Qed.

  Theorem C14_failure a start goal :
    reachable a -> usable (amap a) ->
    aplan a start goal = NoPath <-> ~ exists p, aplan a start goal = Path p.
  Proof.
    intros Hr [Hwf Hsz]. destruct (reachable_inv a Hr) as (Hw & Hh & Ht).
    pose proof (planPath_good tofloat zero step predict value gt_value (amap a) start goal _ Hwf Hsz Hw Hh Ht) as H.
    unfold AStarOld.aplan. destruct (fst (planPath (amap a) (a_ol Df a) start goal)) as [|p|].
    - destruct H.
    - split; [discriminate|]. intros E. exfalso. apply E. eauto.
    - split; [|reflexivity]. intros _ (p & E). discriminate.
  Qed.

  (** C15: the answer is the one a new search object for the current map gives. *)
  Theorem C15_history_independent a junk start goal :
    reachable a -> usable (amap a) ->
    aplan a start goal = aplan (astar_new Df junk (amap a)) start goal.
  Proof.
    intros Hr [Hwf Hsz]. destruct (reachable_inv a Hr) as (Hw & Hh & Ht).
    apply planPath_same; auto. intros i. cbn. discriminate.
  Qed.

  (** C16: no undefined behaviour (node array index, null first node, end
      iterator, int overflow, non-terminating parent chain). *)
  Theorem C16_no_ub a start goal :
    reachable a -> usable (amap a) -> aplan a start goal <> Undefined.
  Proof.
    intros Hr [Hwf Hsz]. destruct (reachable_inv a Hr) as (Hw & Hh & Ht).
    pose proof (planPath_good tofloat zero step predict value gt_value (amap a) start goal _ Hwf Hsz Hw Hh Ht) as H.
    unfold AStarOld.aplan. intros E. rewrite E in H. exact H.
  Qed.

  (** C18, the part that holds: a new map of any size, as long as the map object
      in use before was not resized in place. *)
  Theorem C18_setNewMap a junk junk' m start goal :
    reachable a -> usable m ->
    aplan (setNewMap Df junk a m) start goal = aplan (astar_new Df junk' m) start goal.
  Proof.
    intros Hr Hu.
    assert (Hr' : reachable (setNewMap Df junk a m)).
    { destruct Hr as (j0 & m0 & ops & Hs & ->). exists j0, m0, (ops ++ [OpSetMap Df junk m]). split.
      - clear Hu. revert Hs. generalize (astar_new Df j0 m0) as a. induction ops as [|op r IH]; intros a Hs; cbn in *; [auto|].
        destruct Hs; split; auto.
      - rewrite fold_left_app. reflexivity. }
    assert (Em : amap (setNewMap Df junk a m) = m).
    { unfold setNewMap. destruct (_ || _); reflexivity. }
    rewrite (C15_history_independent _ junk' start goal Hr'); rewrite Em; auto.
  Qed.
End Props.

(** Concrete arithmetic for the examples: distances in tenths of a cell. *)
Definition ex_step (d : Z) (diag : bool) : Z := d + (if diag then 14 else 10).
Definition ex_predict (s p : Z * Z) : Z := 10 * Z.max (Z.abs (fst p - fst s)) (Z.abs (snd p - snd s)).
Definition ex_value (d p : Z) : Z := (d + p) / 10.
Definition ex_gt (d p v : Z) : bool := (d + p) >? v * 10.
Definition ex_junk : Z -> node Z := fun _ => Node (7, 7) 3 3 (Some 12345) true true.
Definition ex_aplan := aplan Z Z (fun x => x) 0 ex_step ex_predict ex_value ex_gt.
Definition ex_astep := astep Z Z (fun x => x) 0 ex_step ex_predict ex_value ex_gt.

(** A 4x3 map with a wall that has a hole. *)
Definition ex_map : gridmap := GridMap 4 3 [0;0;255;0; 0;0;255;0; 0;0;0;0] 50 200 (-1).
Definition ex_map2 : gridmap := GridMap 2 5 [0;0; 0;0; 255;0; 0;0; 0;0] 50 200 (-1).
Definition ex_ops : list (aop Z) :=
  [OpPlan Z (0, 0) (3, 0); OpMutate Z (GridMap 4 3 [0;0;255;0; 0;0;255;0; 0;0;255;0] 50 200 (-1));
   OpPlan Z (0, 0) (3, 0); OpSetMap Z ex_junk ex_map2; OpPlan Z (0, 0) (1, 4); OpSetMap Z ex_junk ex_map].
Definition ex_obj := fold_left ex_astep ex_ops (astar_new Z ex_junk ex_map).

Example ex_reachable : reachable (fun x => x) 0 ex_step ex_predict ex_value ex_gt ex_obj.
Proof. exists ex_junk, ex_map, ex_ops. split; [|reflexivity]. vm_compute. repeat split. Qed.
Example ex_usable : usable (a_map Z ex_obj).
Proof. vm_compute. repeat split; discriminate || reflexivity. Qed.
Example ex_result : ex_aplan ex_obj (0, 0) (3, 0) = Path [(0, 0); (1, 1); (2, 2); (3, 1); (3, 0)].
Proof. reflexivity. Qed.
Example ex_result_none : ex_aplan ex_obj (0, 0) (4, 0) = NoPath.
Proof. reflexivity. Qed.

(** C18 as documented is false: shrink the map object in use in place, then
    hand the same object (or one of the new size) to setNewMap.  The size
    comparison sees equal sizes, the node list keeps its old size, and the
    search dereferences a null node when the map has grown. *)
Theorem C18_setNewMap_inplace_refuted :
  exists (ops : list (aop Z)) (m : gridmap) (start goal : Z * Z),
    let a := fold_left ex_astep ops (astar_new Z ex_junk ex_map) in
    usable m /\
    ex_aplan (setNewMap Z ex_junk a m) start goal = Undefined /\
    ex_aplan (astar_new Z ex_junk m) start goal <> Undefined.
Proof.
  exists [OpMutate Z (gm_set (repeat 0 30) 5 6 ex_map)], (gm_set (repeat 0 30) 5 6 ex_map), (0, 0), (4, 5).
  cbv zeta. split; [vm_compute; repeat split; discriminate || reflexivity|].
  split; vm_compute; [reflexivity|discriminate].
Qed.
