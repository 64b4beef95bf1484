(** Facts about the evaluation tool's model used by PropEvaluator.v. *)
From Verif Require Import Base GridMap GridMapProofs EvaluatorModel.

(** The map as the tool keeps it: as large as said, its thresholds 20 and 50. *)
Definition kept (w h : Z) (m : gridmap) : Prop :=
  gm_wf m /\ gm_w m = w /\ gm_h m = h /\ gm_lo m = 20 /\ gm_up m = 50 /\ gm_ni m = -1.

Lemma upto_spec n z : In z (upto n) <-> 0 <= z < n.
Proof.
  unfold upto. rewrite in_map_iff. split.
  - intros (k & <- & Hk). apply in_seq in Hk. lia.
  - intros Hz. exists (Z.to_nat z). split; [lia|]. apply in_seq. lia.
Qed.
Lemma scan_spec w h x y : In (x, y) (scan w h) <-> cell_of w h x y.
Proof.
  unfold scan. rewrite in_flat_map. unfold cell_of. split.
  - intros (y' & Hy & Hx). apply in_map_iff in Hx. destruct Hx as (x' & E & Hx). injection E as -> ->.
    apply upto_spec in Hx. apply upto_spec in Hy. lia.
  - intros [Hx Hy]. exists y. split; [apply upto_spec; lia|]. apply in_map_iff. exists x. split; [reflexivity|]. apply upto_spec; lia.
Qed.

Definition want (i : image) (x y : Z) : Z := if i x y =? 0 then 255 else 0.

Lemma kept_free w h m x y i : kept w h m -> getValue m x y = Some (want i x y) ->
  isFree m x y = Some (negb (i x y =? 0)) /\ isOccupied m x y = Some (i x y =? 0).
Proof.
  intros (_ & _ & _ & Hl & Hu & Hn) G. destruct (classify_spec _ _ _ _ G) as (-> & -> & _).
  unfold is_ni_value. rewrite Hn, Hl, Hu. cbn [negb andb Z.eqb]. unfold want. destruct (i x y =? 0); auto.
Qed.

Lemma generate_spec w h i cells : forall m, kept w h m -> (forall x y, In (x, y) cells -> cell_of w h x y) ->
  exists m', generate i cells m = Some m' /\ kept w h m' /\
    forall x y, cell_of w h x y -> In (x, y) cells \/ getValue m x y = Some (want i x y) -> getValue m' x y = Some (want i x y).
Proof.
  induction cells as [|[x y] r IH]; intros m Hk Hin.
  - exists m. split; [reflexivity|]. split; [exact Hk|]. intros x y _ [[]|H]. exact H.
  - cbn [generate]. pose proof Hk as (Hwf & Hw & Hh & Hl & Hu & Hn).
    assert (Hc : cell_of (gm_w m) (gm_h m) x y) by (rewrite Hw, Hh; apply Hin; left; reflexivity).
    destruct (setValue_spec m x y (if i x y =? 0 then 255 else 0) Hwf Hc) as (m1 & E & Hwf1 & A1 & A2 & A3 & A4 & A5 & _ & G).
    assert (Hk1 : kept w h m1) by (unfold kept; rewrite A1, A2, A3, A4, A5; tauto).
    rewrite E. cbn [obind].
    assert (G0 : getValue m1 x y = Some (want i x y)) by (rewrite (G x y Hc), !Z.eqb_refl; reflexivity).
    destruct (kept_free w h m1 x y i Hk1 G0) as [-> _]. cbn [obind].
    replace (if i x y =? 0 then negb (negb (i x y =? 0)) else negb (i x y =? 0)) with true by (destruct (i x y =? 0); reflexivity).
    destruct (IH m1 Hk1) as (m2 & E2 & Hk2 & G2); [intros; apply Hin; right; assumption|].
    exists m2. split; [exact E2|]. split; [exact Hk2|]. intros x' y' Hc' Hor. apply G2; [exact Hc'|].
    rewrite <- Hw, <- Hh in Hc'. rewrite (G x' y' Hc').
    destruct ((x' =? x) && (y' =? y)) eqn:Exy.
    + right. apply andb_prop in Exy. destruct Exy as [Ex Ey]. apply Z.eqb_eq in Ex, Ey. subst. reflexivity.
    + destruct Hor as [[Eq|Hr]|Hv]; [|left; exact Hr|right; exact Hv].
      injection Eq as -> ->. rewrite !Z.eqb_refl in Exy. discriminate.
Qed.

Section Eval.
  #[local] Set Default Proof Using "All".
  Variable T : Type.
  Variable teqb : T -> T -> bool.
  Variable through : T -> T.
  Variable half_pi nil : T.
  Variable atan2 : Z -> Z -> T.
  Variable generator : bool -> Z -> image -> Z * Z * T -> Z * Z * T -> option image.
  Notation construct := (construct T teqb through half_pi nil).
  Notation step := (step T through atan2 generator).
  Notation session := (session T through atan2 generator).
  Notation generateMap := (generateMap T through).
  Notation saveMap := (saveMap T through).
  Notation do_writes := (do_writes T).
  Notation make := (make T through generator).

  (** What always holds of the tool. *)
  Record inv (w h : Z) (e : evaluator T) : Prop := Inv {
    i_w : e_w _ e = w; i_h : e_h _ e = h; i_kept : kept w h (e_map _ e);
    i_pic : forall x y, cell_of w h x y -> getValue (e_map _ e) x y = Some (want (e_orig _ e) x y) }.

  (** Everything but map and picture. *)
  Definition same_rest (a b : evaluator T) : Prop :=
    e_w _ a = e_w _ b /\ e_h _ a = e_h _ b /\ e_res _ a = e_res _ b /\ e_start _ a = e_start _ b /\ e_goal _ a = e_goal _ b /\
    e_drag _ a = e_drag _ b /\ e_mode _ a = e_mode _ b /\ e_from _ a = e_from _ b /\ e_sel _ a = e_sel _ b.

  Lemma generateMap_spec w h save e i : e_w _ e = w -> e_h _ e = h -> kept w h (e_map _ e) ->
    exists e', generateMap save e i = Some (e', if save then saveMap e' else []) /\ inv w h e' /\ e_orig _ e' = i /\ same_rest e' e.
  Proof.
    intros Hw Hh Hk. unfold EvaluatorModel.generateMap. rewrite Hw, Hh.
    destruct (generate_spec w h i (scan w h) (e_map _ e) Hk) as (m & -> & Hk' & G); [intros x y; apply scan_spec|].
    cbn [obind]. eexists. split; [reflexivity|]. split; [|split; [reflexivity|unfold same_rest, with_map; cbn; tauto]].
    split; cbn; try assumption. intros x y Hc. apply G; [exact Hc|]. left. apply scan_spec. exact Hc.
  Qed.

  Lemma blank_kept w h res s g : 0 <= w < 2147483648 -> 0 <= h < 2147483648 -> w * h < 4294967296 ->
    kept w h (e_map _ (blank T w h res s g)).
  Proof.
    intros A B C. pose proof (gm_new_wf w h A B C) as (W1 & W2 & W3 & W4). unfold kept, gm_wf; cbn in *. tauto.
  Qed.

  Lemma make_spec w h curve width e : e_w _ e = w -> e_h _ e = h -> kept w h (e_map _ e) ->
    match generator curve (Z.max 1 (Z.quot width SCALE)) (inverted w h (cleared w h (e_orig _ e))) (e_start _ e) (e_goal _ e) with
    | None => make curve width e = None
    | Some i => exists e', make curve width e = Some (e', saveMap e') /\ inv w h e' /\ e_orig _ e' = i /\ same_rest e' e
    end.
  Proof.
    intros Hw Hh Hk. unfold EvaluatorModel.make. rewrite Hw, Hh.
    destruct (generateMap_spec w h false e (cleared w h (e_orig _ e)) Hw Hh Hk) as (e1 & -> & I1 & _ & R1). cbn [obind fst].
    destruct (generateMap_spec w h false e1 (inverted w h (cleared w h (e_orig _ e))) (i_w _ _ _ I1) (i_h _ _ _ I1) (i_kept _ _ _ I1)) as (e2 & -> & I2 & _ & R2).
    cbn [obind fst].
    destruct (generator _ _ _ _ _) as [i|]; [|reflexivity]. cbn [obind].
    destruct (generateMap_spec w h true e2 i (i_w _ _ _ I2) (i_h _ _ _ I2) (i_kept _ _ _ I2)) as (e3 & E3 & I3 & O3 & R3).
    exists e3. split; [exact E3|]. split; [exact I3|]. split; [exact O3|].
    unfold same_rest in *. intuition congruence.
  Qed.

  Lemma inv_rest w h a b : inv w h a -> e_w _ b = e_w _ a -> e_h _ b = e_h _ a -> e_map _ b = e_map _ a -> e_orig _ b = e_orig _ a -> inv w h b.
  Proof. intros [A B C D] E F G H. split; [congruence|congruence|rewrite G; exact C|]. intros x y Hc. rewrite G, H. apply D, Hc. Qed.

  (** What one event does: either nothing is written and the picture stays, or the
      new state is saved.  [None] only if the generator fails. *)
  Definition pressed_after (v : event) (b : bool) : bool :=
    match v with Mouse LDown _ _ | Mouse RDown _ _ => true | Mouse LUp _ _ | Mouse RUp _ _ => false | _ => b end.
  Definition down (e : evaluator T) : bool := match e_drag _ e with DRAG_NONE => false | _ => true end.
  Definition making (k : mode_t) : bool := match k with MAKE_MAZE | MAKE_FILLING_CURVE => true | _ => false end.

  Lemma step_spec w h e v : inv w h e ->
    (step e v = None -> making (e_mode _ e) = true /\ exists c k i s g, generator c k i s g = None) /\
    forall e' l, step e v = Some (e', l) ->
      inv w h e' /\ e_res _ e' = e_res _ e /\ down e' = pressed_after v (down e) /\
      (l = [] /\ e_orig _ e' = e_orig _ e \/ l = saveMap e') /\
      (e_start _ e' = e_start _ e /\ e_goal _ e' = e_goal _ e \/ l = saveMap e' \/ down e = true /\ down e' = true /\ (e_mode _ e' = SET_START \/ e_mode _ e' = SET_GOAL)) /\
      (down e = true -> down e' = false -> e_mode _ e <> SET_FOCUS -> l = saveMap e') /\
      (e_mode _ e' = e_mode _ e \/ l = [] /\ exists k, v = Key k /\ (k = 102 <-> e_mode _ e' = SET_FOCUS) /\ (k = 109 \/ k = 110 <-> making (e_mode _ e') = true)).
  Proof.
    intros I. pose proof I as [Iw Ih Ik Ip]. destruct v as [k x y|k]; cbn [EvaluatorModel.step].
    - destruct k; cbn [mouseCallback pressed_after].
      + split; [discriminate|]. intros e' l [= <- <-]. split; [eapply inv_rest; [exact I|reflexivity..]|].
        unfold down; cbn. intuition congruence.
      + split; [discriminate|]. intros e' l [= <- <-]. split; [eapply inv_rest; [exact I|reflexivity..]|].
        unfold down; cbn. intuition congruence.
      + unfold released. destruct (e_mode _ e) eqn:Em; cbn [obind fst snd];
          [split; [discriminate|]; intros e' l [= <- <-]; unfold dragging; cbn [set_drag e_mode]; rewrite Em; cbn [fst snd app];
           (split; [eapply inv_rest; [exact I|reflexivity..]|]; unfold down; cbn; intuition congruence) ..| | |].
        * destruct (generateMap_spec w h true (set_sel T e (-1)) (rectangle (e_orig _ e) (corner T e (fst (e_from _ e)) (snd (e_from _ e))) (corner T e x y)
             match e_drag _ e with DRAG_LEFT => 0 | _ => 255 end) Iw Ih Ik) as (e1 & -> & I1 & O1 & R1). cbn [obind fst snd].
          split; [discriminate|]. intros e' l [= <- <-]. destruct R1 as (R1 & R2 & R3 & R4 & R5 & R6 & R7 & R8 & R9).
          unfold dragging. cbn [set_drag e_mode]. rewrite R7. cbn [set_sel e_mode]. rewrite Em. cbn [fst snd app]; unfold EvaluatorModel.saveMap.
          rewrite ?app_nil_r.
          split; [eapply inv_rest; [exact I1|reflexivity..]|]. unfold down. cbn in *. rewrite R7. intuition congruence.
        * pose proof (make_spec w h false (e_sel _ e) e Iw Ih Ik) as M.
          destruct (generator _ _ _ _ _) as [i|] eqn:Eg; [|rewrite M; cbn [obind]; split; [intros _; split; [reflexivity|eauto 8]|discriminate]].
          destruct M as (e1 & -> & I1 & O1 & R1). cbn [obind fst snd].
          split; [discriminate|]. intros e' l [= <- <-]. destruct R1 as (R1 & R2 & R3 & R4 & R5 & R6 & R7 & R8 & R9).
          unfold dragging. cbn [set_drag set_sel e_mode]. rewrite R7, Em. cbn [fst snd app]; unfold EvaluatorModel.saveMap. rewrite ?app_nil_r.
          split; [eapply inv_rest; [exact I1|reflexivity..]|]. unfold down. cbn in *. rewrite R7. intuition congruence.
        * pose proof (make_spec w h true (e_sel _ e) e Iw Ih Ik) as M.
          destruct (generator _ _ _ _ _) as [i|] eqn:Eg; [|rewrite M; cbn [obind]; split; [intros _; split; [reflexivity|eauto 8]|discriminate]].
          destruct M as (e1 & -> & I1 & O1 & R1). cbn [obind fst snd].
          split; [discriminate|]. intros e' l [= <- <-]. destruct R1 as (R1 & R2 & R3 & R4 & R5 & R6 & R7 & R8 & R9).
          unfold dragging. cbn [set_drag set_sel e_mode]. rewrite R7, Em. cbn [fst snd app]; unfold EvaluatorModel.saveMap. rewrite ?app_nil_r.
          split; [eapply inv_rest; [exact I1|reflexivity..]|]. unfold down. cbn in *. rewrite R7. intuition congruence.
      + unfold released. destruct (e_mode _ e) eqn:Em; cbn [obind fst snd];
          [split; [discriminate|]; intros e' l [= <- <-]; unfold dragging; cbn [set_drag e_mode]; rewrite Em; cbn [fst snd app];
           (split; [eapply inv_rest; [exact I|reflexivity..]|]; unfold down; cbn; intuition congruence) ..| | |].
        * destruct (generateMap_spec w h true (set_sel T e (-1)) (rectangle (e_orig _ e) (corner T e (fst (e_from _ e)) (snd (e_from _ e))) (corner T e x y)
             match e_drag _ e with DRAG_LEFT => 0 | _ => 255 end) Iw Ih Ik) as (e1 & -> & I1 & O1 & R1). cbn [obind fst snd].
          split; [discriminate|]. intros e' l [= <- <-]. destruct R1 as (R1 & R2 & R3 & R4 & R5 & R6 & R7 & R8 & R9).
          unfold dragging. cbn [set_drag e_mode]. rewrite R7. cbn [set_sel e_mode]. rewrite Em. cbn [fst snd app]; unfold EvaluatorModel.saveMap.
          rewrite ?app_nil_r.
          split; [eapply inv_rest; [exact I1|reflexivity..]|]. unfold down. cbn in *. rewrite R7. intuition congruence.
        * pose proof (make_spec w h false (e_sel _ e) e Iw Ih Ik) as M.
          destruct (generator _ _ _ _ _) as [i|] eqn:Eg; [|rewrite M; cbn [obind]; split; [intros _; split; [reflexivity|eauto 8]|discriminate]].
          destruct M as (e1 & -> & I1 & O1 & R1). cbn [obind fst snd].
          split; [discriminate|]. intros e' l [= <- <-]. destruct R1 as (R1 & R2 & R3 & R4 & R5 & R6 & R7 & R8 & R9).
          unfold dragging. cbn [set_drag set_sel e_mode]. rewrite R7, Em. cbn [fst snd app]; unfold EvaluatorModel.saveMap. rewrite ?app_nil_r.
          split; [eapply inv_rest; [exact I1|reflexivity..]|]. unfold down. cbn in *. rewrite R7. intuition congruence.
        * pose proof (make_spec w h true (e_sel _ e) e Iw Ih Ik) as M.
          destruct (generator _ _ _ _ _) as [i|] eqn:Eg; [|rewrite M; cbn [obind]; split; [intros _; split; [reflexivity|eauto 8]|discriminate]].
          destruct M as (e1 & -> & I1 & O1 & R1). cbn [obind fst snd].
          split; [discriminate|]. intros e' l [= <- <-]. destruct R1 as (R1 & R2 & R3 & R4 & R5 & R6 & R7 & R8 & R9).
          unfold dragging. cbn [set_drag set_sel e_mode]. rewrite R7, Em. cbn [fst snd app]; unfold EvaluatorModel.saveMap. rewrite ?app_nil_r.
          split; [eapply inv_rest; [exact I1|reflexivity..]|]. unfold down. cbn in *. rewrite R7. intuition congruence.
      + destruct (e_drag _ e) eqn:Ed;
          [split; [discriminate|]; intros e' l [= E]; unfold dragging in E; destruct (e_mode _ e) eqn:Em; injection E as <- <-;
           (split; [eapply inv_rest; [exact I|reflexivity..]|]; unfold down; cbn; rewrite ?Ed, ?Em; intuition congruence) ..|].
        split; [discriminate|]. intros e' l [= <- <-]. split; [exact I|]. unfold down; rewrite ?Ed. intuition congruence.
      + split; [discriminate|]. intros e' l [= <- <-]. split; [exact I|]. unfold down. intuition congruence.
    - cbn [pressed_after]. unfold keyCallback.
      repeat match goal with
      | |- context [if k =? ?c then Some (?s, []) else _] => destruct (Z.eqb_spec k c) as [->|?];
          [split; [discriminate|]; intros e' l [= <- <-]; split; [eapply inv_rest; [exact I|reflexivity..]|]; unfold down; cbn;
           repeat split; auto; try tauto; try (right; split; [reflexivity|]; eexists; split; [reflexivity|]; cbn; intuition congruence); try congruence|]
      end.
      destruct (Z.eqb_spec k 99) as [->|?].
      { rewrite Iw, Ih. destruct (generateMap_spec w h true e (cleared w h (e_orig _ e)) Iw Ih Ik) as (e1 & -> & I1 & O1 & R1).
        split; [discriminate|]. intros e' l [= <- <-]. split; [exact I1|]. destruct R1 as (R1 & R2 & R3 & R4 & R5 & R6 & R7 & R8 & R9).
        unfold down. rewrite R6, R7. intuition congruence. }
      destruct (Z.eqb_spec k 105) as [->|?].
      { rewrite Iw, Ih. destruct (generateMap_spec w h true e (inverted w h (e_orig _ e)) Iw Ih Ik) as (e1 & -> & I1 & O1 & R1).
        split; [discriminate|]. intros e' l [= <- <-]. split; [exact I1|]. destruct R1 as (R1 & R2 & R3 & R4 & R5 & R6 & R7 & R8 & R9).
        unfold down. rewrite R6, R7. intuition congruence. }
      split; [discriminate|]. intros e' l [= <- <-]. split; [exact I|]. unfold down. intuition congruence.
  Qed.
End Eval.
