(** C72, C73: the picture of the map and of the search space, and the video. *)
From Coq Require Import Reals Lra.
From Flocq Require Import Raux.
From Verif Require Import Base GridMap GridMapProofs GeomR EvaluatorModel EvaluatorProofs RenderModel.
Local Open Scope Z_scope.

(** ** Specification *)
(** The cell a pixel belongs to: cells are [S] pixels wide and high, row 0 of the map at
    the bottom of the picture. *)
Definition pixel_of (S rows c r x y : Z) : Prop := c / S = x /\ (rows - 1 - r) / S = y.
Definition in_pic (i : canvas) (c r : Z) : Prop := 0 <= c < cv_cols i /\ 0 <= r < cv_rows i.
(** With more than two pixels per cell its left column and bottom row are a line. *)
Definition on_line (S rows c r : Z) : Prop := S > 2 /\ (c mod S = 0 \/ (rows - 1 - r) mod S = 0).
(** The lines every metre, and the pixels next to them. *)
Definition near_metre (metre c r : Z) : Prop :=
  metre > 2 /\ exists k, Z.abs (c - k * metre) <= 1 \/ Z.abs (r - k * metre) <= 1.
Definition thick_ok (thick : Z -> Z -> Z -> Z -> Z -> Z -> bool) : Prop := forall x1 y1 x2 y2 c r,
  thick x1 y1 x2 y2 c r = true -> exists c' r', outline x1 y1 x2 y2 c' r' = true /\ Z.abs (c - c') <= 1 /\ Z.abs (r - r') <= 1.
(** A picture for a map of [w] x [h] cells. *)
Definition picture (S w h : Z) (i : canvas) : Prop :=
  1 <= S /\ 0 <= w /\ 0 <= h /\ cv_cols i = S * w /\ cv_rows i = S * h /\ S * w < 2147483648 /\ S * h < 2147483648.

(** ** Folds *)
Lemma ofold_app {A B} (f : A -> B -> option B) l1 : forall l2 b, ofold f (l1 ++ l2) b = (b' <- ofold f l1 b ;; ofold f l2 b').
Proof. induction l1 as [|a l1 IH]; intros l2 b; cbn [ofold app obind]; [reflexivity|]. destruct (f a b); cbn [obind]; [apply IH|reflexivity]. Qed.
Lemma ofold_nest {A B C} (f : A -> B -> C -> option C) ys xs : forall c,
  ofold (fun y => ofold (fun x => f x y) xs) ys c = ofold (fun p => f (fst p) (snd p)) (flat_map (fun y => map (fun x => (x, y)) xs) ys) c.
Proof.
  assert (K : forall y l c, ofold (fun x => f x y) l c = ofold (fun p => f (fst p) (snd p)) (map (fun x => (x, y)) l) c).
  { intros y l. induction l as [|x l IH]; intros c; cbn [ofold map fst snd obind]; [reflexivity|]. destruct (f x y c); cbn [obind]; [apply IH|reflexivity]. }
  induction ys as [|y ys IH]; intros c; [reflexivity|]. cbn [flat_map]. rewrite ofold_app, <- K. cbn [ofold].
  destruct (ofold (fun x => f x y) xs c); cbn [obind]; [apply IH|reflexivity].
Qed.
Lemma pairs_in {A B} (xs : list A) (ys : list B) x y : In (x, y) (flat_map (fun y => map (fun x => (x, y)) xs) ys) <-> In x xs /\ In y ys.
Proof.
  rewrite in_flat_map. split.
  - intros (y' & Hy & Hx). apply in_map_iff in Hx. destruct Hx as (x' & E & Hx). injection E as -> ->. tauto.
  - intros [Hx Hy]. exists y. split; [exact Hy|]. apply in_map_iff. exists x. tauto.
Qed.
(** A fold whose steps all succeed and keep the size. *)
Definition same_size (i j : canvas) : Prop := cv_rows j = cv_rows i /\ cv_cols j = cv_cols i.
Lemma ofold_pix {A} (f : A -> canvas -> option canvas) (i0 : canvas) (c r : Z) (hit : A -> Prop) (good : colour -> Prop) l :
  (forall a i, In a l -> same_size i0 i -> exists j, f a i = Some j /\ same_size i0 j /\
     (good (cv_pix j c r) \/ cv_pix j c r = cv_pix i c r /\ ~ hit a)) ->
  forall i, same_size i0 i -> exists j, ofold f l i = Some j /\ same_size i0 j /\
    (good (cv_pix j c r) \/ cv_pix j c r = cv_pix i c r /\ forall a, In a l -> ~ hit a).
Proof.
  induction l as [|a l IH]; intros H i Hi.
  - exists i. split; [reflexivity|]. split; [exact Hi|]. right. split; [reflexivity|intros a []].
  - destruct (H a i (or_introl eq_refl) Hi) as (j & E & Hj & P). cbn [ofold]. rewrite E. cbn [obind].
    destruct (IH (fun a' i' Ha => H a' i' (or_intror Ha)) j Hj) as (k & E' & Hk & P'). exists k. split; [exact E'|]. split; [exact Hk|].
    destruct P' as [P'|[P' N']]; [left; exact P'|]. rewrite P'. destruct P as [P|[P N]]; [left; exact P|].
    right. split; [exact P|]. intros a' [<-|Ha]; [exact N|apply N'; exact Ha].
Qed.

(** ** renderMap *)
Lemma i32_u32 z : -2147483648 <= z < 2147483648 -> Base.i32 (Base.u32 z) = z.
Proof.
  intros H. unfold Base.i32, Base.u32. cbv zeta. rewrite Z.mod_mod by lia. destruct (Z.ltb_spec z 0).
  - rewrite <- (Z.mod_add z 1) by lia. rewrite Z.mod_small by lia. destruct (Z.ltb_spec (z + 1 * 4294967296) 2147483648); lia.
  - rewrite Z.mod_small by lia. destruct (Z.ltb_spec z 2147483648); lia.
Qed.
Lemma div_block S x c : 1 <= S -> c / S = x <-> S * x <= c < S * x + S.
Proof.
  intros H. split; intros E.
  - subst x. pose proof (Z.div_mod c S ltac:(lia)). pose proof (Z.mod_pos_bound c S ltac:(lia)). lia.
  - symmetry. apply (Z.div_unique_pos c S x (c - S * x)); lia.
Qed.

Section Map.
  Variables (S : Z) (anth : colour) (w h : Z) (i0 : canvas) (col : Z -> Z -> colour).
  Hypothesis P0 : picture S w h i0.
  Definition final (c r : Z) (v : colour) : Prop :=
    (on_line S (cv_rows i0) c r /\ v = anth) \/ (~ on_line S (cv_rows i0) c r /\ v = col (c / S) ((cv_rows i0 - 1 - r) / S)).

  Lemma put_ok c r v i : same_size i0 i -> in_pic i0 c r ->
    exists j, put c r v i = Some j /\ same_size i0 j /\ (forall c' r', cv_pix j c' r' = if (c' =? c) && (r' =? r) then v else cv_pix i c' r').
  Proof.
    intros [R1 R2] [Hc Hr]. unfold put. rewrite R1, R2.
    destruct (Z.leb_spec 0 c); [|lia]. destruct (Z.ltb_spec c (cv_cols i0)); [|lia]. destruct (Z.leb_spec 0 r); [|lia]. destruct (Z.ltb_spec r (cv_rows i0)); [|lia].
    cbn [andb]. eexists. split; [reflexivity|]. split; [split; [exact R1|exact R2]|]. reflexivity.
  Qed.
  Lemma cell_small x y : 0 <= x < w -> 0 <= y < h -> Base.u32 (S * x) = S * x /\ Base.u32 (S * y) = S * y /\ S * x + S <= S * w /\ S * y + S <= S * h.
  Proof.
    destruct P0 as (A1 & A2 & A3 & A4 & A5 & A6 & A7). intros Hx Hy. unfold Base.u32. repeat split; try (apply Z.mod_small); nia.
  Qed.
  Lemma block_ok x y v i c r : 0 <= x < w -> 0 <= y < h -> same_size i0 i -> in_pic i0 c r ->
    exists j, ofold (fun dy => ofold (fun dx => fill_pixel (S * w) (S * h) v (S * x + dx) (S * y + dy)) (upto S)) (upto S) i = Some j /\ same_size i0 j /\
      cv_pix j c r = if (c / S =? x) && ((cv_rows i0 - 1 - r) / S =? y) then v else cv_pix i c r.
  Proof.
    intros Hx Hy Hi Hp. destruct (cell_small x y Hx Hy) as (E1 & E2 & L1 & L2). pose proof P0 as (A1 & A2 & A3 & A4 & A5 & A6 & A7).
    rewrite (ofold_nest (fun dx dy => fill_pixel (S * w) (S * h) v (S * x + dx) (S * y + dy))).
    set (l := flat_map _ _).
    assert (St : forall a i, In a l -> same_size i0 i -> exists j, fill_pixel (S * w) (S * h) v (S * x + fst a) (S * y + snd a) i = Some j /\ same_size i0 j /\
      (cv_pix j c r = if (c =? S * x + fst a) && (cv_rows i0 - 1 - r =? S * y + snd a) then v else cv_pix i c r)).
    { intros [dx dy] i' Ha Hi'. unfold l in Ha. apply pairs_in in Ha. destruct Ha as [Hdx Hdy]. apply upto_spec in Hdx. apply upto_spec in Hdy. cbn [fst snd].
      unfold fill_pixel. cbv zeta. destruct Hi' as [R1 R2]. rewrite R1, A5, !i32_u32 by lia.
      destruct (Z.ltb_spec (S * h - 1 - (S * y + dy)) 0); [lia|]. destruct (Z.ltb_spec (S * x + dx) 0); [lia|].
      destruct (Z.geb_spec (S * h - 1 - (S * y + dy)) (S * h)); [lia|]. destruct (Z.geb_spec (S * x + dx) (S * w)); [lia|]. cbn [orb].
      destruct (put_ok (S * x + dx) (S * h - 1 - (S * y + dy)) v i' (conj R1 R2)) as (j & E & Hj & Pj); [unfold in_pic; lia|].
      exists j. split; [exact E|]. split; [exact Hj|]. rewrite Pj.
      assert ((r =? S * h - 1 - (S * y + dy)) = (S * h - 1 - r =? S * y + dy)) as -> by (destruct (Z.eqb_spec r (S * h - 1 - (S * y + dy))); destruct (Z.eqb_spec (S * h - 1 - r) (S * y + dy)); lia). reflexivity. }
    destruct ((c / S =? x) && ((cv_rows i0 - 1 - r) / S =? y)) eqn:B.
    - apply andb_true_iff in B. destruct B as [B1 B2]. apply Z.eqb_eq in B1. apply Z.eqb_eq in B2. apply div_block in B1; [|lia]. apply div_block in B2; [|lia].
      destruct (ofold_pix (fun p => fill_pixel (S * w) (S * h) v (S * x + fst p) (S * y + snd p)) i0 c r
        (fun p => c = S * x + fst p /\ cv_rows i0 - 1 - r = S * y + snd p) (fun u => u = v) l) with (i := i) as (j & E & Hj & G); [|exact Hi|].
      + intros a i' Ha Hi'. destruct (St a i' Ha Hi') as (j & E & Hj & G). exists j. split; [exact E|]. split; [exact Hj|]. rewrite G.
        destruct (Z.eqb_spec c (S * x + fst a)); destruct (Z.eqb_spec (cv_rows i0 - 1 - r) (S * y + snd a)); cbn [andb]; [left; reflexivity|right; split; [reflexivity|intros [? ?]; lia]..].
      + exists j. split; [exact E|]. split; [exact Hj|]. destruct G as [G|[_ N]]; [exact G|].
        exfalso. apply (N (c - S * x, cv_rows i0 - 1 - r - S * y)); [|cbn [fst snd]; lia]. apply pairs_in. rewrite !upto_spec. lia.
    - destruct (ofold_pix (fun p => fill_pixel (S * w) (S * h) v (S * x + fst p) (S * y + snd p)) i0 c r
        (fun _ => False) (fun _ => False) l) with (i := i) as (j & E & Hj & G); [|exact Hi|].
      + intros a i' Ha Hi'. destruct (St a i' Ha Hi') as (j & E & Hj & G). exists j. split; [exact E|]. split; [exact Hj|]. right. split; [|tauto]. rewrite G.
        destruct (Z.eqb_spec c (S * x + fst a)) as [C1|]; [|reflexivity]. destruct (Z.eqb_spec (cv_rows i0 - 1 - r) (S * y + snd a)) as [C2|]; [|reflexivity].
        exfalso. destruct a as [dx dy]. apply pairs_in in Ha. destruct Ha as [Hdx Hdy]. apply upto_spec in Hdx. apply upto_spec in Hdy. cbn [fst snd] in *.
        assert (c / S = x) by (apply div_block; lia). assert ((cv_rows i0 - 1 - r) / S = y) by (apply div_block; lia). lia.
      + exists j. split; [exact E|]. split; [exact Hj|]. destruct G as [[]|[G _]]. exact G.
  Qed.

  Lemma fill_ok x y i c r : 0 <= x < w -> 0 <= y < h -> same_size i0 i -> in_pic i0 c r ->
    exists j, fill S anth (S * w) (S * h) x y (col x y) i = Some j /\ same_size i0 j /\      (final c r (cv_pix j c r) \/ cv_pix j c r = cv_pix i c r /\ ~ pixel_of S (cv_rows i0) c r x y).
  Proof.
    intros Hx Hy Hi Hp. destruct (cell_small x y Hx Hy) as (E1 & E2 & L1 & L2). pose proof P0 as (A1 & A2 & A3 & A4 & A5 & A6 & A7). unfold fill, pixel_of.
    destruct (Z.eqb_spec S 1) as [E|E].
    - unfold fill1. destruct (put_ok x (cv_rows i - 1 - y) (col x y) i Hi) as (j & Ej & Hj & Pj).
      { destruct Hi as [R1 R2]. rewrite R1. unfold in_pic. rewrite A4, A5, E. lia. }
      exists j. split; [exact Ej|]. split; [exact Hj|]. rewrite Pj. destruct Hi as [R1 R2]. rewrite R1.
      assert (NL : ~ on_line S (cv_rows i0) c r) by (unfold on_line; lia). unfold final. rewrite !E, !Z.div_1_r in *.
      destruct (Z.eqb_spec c x) as [C1|C1]; [|right; split; [reflexivity|lia]].
      destruct (Z.eqb_spec r (cv_rows i0 - 1 - y)) as [C2|C2]; [|right; split; [reflexivity|lia]].
      left. right. split; [exact NL|]. cbn [andb]. f_equal; lia.
    - unfold fillN. cbv zeta. rewrite E1, E2. destruct (block_ok x y (col x y) i c r Hx Hy Hi Hp) as (j & Ej & Hj & Pj). rewrite Ej. cbn [obind].
      destruct (Z.gtb_spec S 2) as [L|L].
      + eexists. split; [reflexivity|]. split; [exact Hj|]. cbn [paint cv_pix]. destruct Hi as [R1 R2]. rewrite R1, A5.
        rewrite i32_u32 by nia. set (q := S * h - 1 - r).
        destruct (outline _ _ _ _ c r) eqn:O.
        * left. left. split; [|reflexivity]. unfold on_line. split; [lia|]. rewrite A5. fold q. unfold outline, inside in O.
          assert (D : c = S * x \/ c = S * (x + 1) \/ q = S * y \/ q = S * (y + 1)).
          { rewrite !andb_true_iff, !orb_true_iff, !Z.eqb_eq in O. unfold q. lia. }
          destruct D as [-> | [-> | [-> | ->]]]; rewrite !(Z.mul_comm S), Z.mod_mul by lia; tauto.
        * rewrite Pj, A5. fold q. destruct (Z.eqb_spec (c / S) x) as [C1|C1]; [|right; split; [reflexivity|lia]].
          destruct (Z.eqb_spec (q / S) y) as [C2|C2]; [|right; split; [reflexivity|lia]]. cbn [andb].
          left. right. rewrite A5. fold q. rewrite C1, C2. split; [|reflexivity]. unfold on_line. fold q.
          rewrite (Z.mod_eq c), (Z.mod_eq q) by lia. rewrite C1, C2. apply div_block in C1; [|lia]. apply div_block in C2; [|lia].
          intros [_ D]. unfold outline, inside in O.
          assert (outline (S * x) (S * h - 1 - S * y - S) (S * x + S) (S * h - 1 - S * y - S + S) c r = true); [|unfold outline, inside in *; congruence].
          unfold outline, inside. rewrite !andb_true_iff, !orb_true_iff, !Z.eqb_eq, !Z.leb_le. unfold q in *. lia.
      + eexists. split; [reflexivity|]. split; [exact Hj|]. rewrite Pj.
        assert (NL : ~ on_line S (cv_rows i0) c r) by (unfold on_line; lia).
        destruct (Z.eqb_spec (c / S) x) as [C1|C1]; [|right; split; [reflexivity|lia]].
        destruct (Z.eqb_spec ((cv_rows i0 - 1 - r) / S) y) as [C2|C2]; [|right; split; [reflexivity|lia]]. cbn [andb].
        left. right. split; [exact NL|]. rewrite C1, C2. reflexivity.
  Qed.

  Lemma cells_ok c r (colo : Z -> Z -> option colour) : (forall x y, 0 <= x < w -> 0 <= y < h -> colo x y = Some (col x y)) -> in_pic i0 c r ->
    exists j, ofold (fun y => ofold (fun x j => v <- colo x y ;; fill S anth (S * w) (S * h) x y v j) (upto w)) (upto h) i0 = Some j /\ same_size i0 j /\ final c r (cv_pix j c r).
  Proof.
    intros Hc Hp. pose proof P0 as (A1 & A2 & A3 & A4 & A5 & A6 & A7).
    rewrite (ofold_nest (fun x y j => v <- colo x y ;; fill S anth (S * w) (S * h) x y v j)).
    destruct (ofold_pix (fun p j => v <- colo (fst p) (snd p) ;; fill S anth (S * w) (S * h) (fst p) (snd p) v j) i0 c r
      (fun p => pixel_of S (cv_rows i0) c r (fst p) (snd p)) (final c r) (flat_map (fun y => map (fun x => (x, y)) (upto w)) (upto h))) with (i := i0) as (j & E & Hj & G).
    - intros [x y] i Ha Hi. apply pairs_in in Ha. rewrite !upto_spec in Ha. destruct Ha as [Hx Hy]. cbn [fst snd]. rewrite (Hc x y Hx Hy). cbn [obind]. apply fill_ok; assumption.
    - split; reflexivity.
    - exists j. split; [exact E|]. split; [exact Hj|]. destruct G as [G|[_ N]]; [exact G|]. exfalso. destruct Hp as [Hp1 Hp2].
      apply (N (c / S, (cv_rows i0 - 1 - r) / S)); [|split; reflexivity]. apply pairs_in. rewrite !upto_spec.
      split; (split; [apply Z.div_pos; lia|apply Z.div_lt_upper_bound; lia]).
  Qed.
End Map.

Lemma multiples_in m n z : In z (multiples m n) -> exists k, z = k * m.
Proof. unfold multiples. intros H. apply in_map_iff in H. destruct H as (k & <- & _). exists k. reflexivity. Qed.
Lemma fold_paint {A} (s : A -> Z -> Z -> bool) v l c r : (forall a, In a l -> s a c r = false) ->
  forall i, same_size i (fold_left (fun j a => paint (s a) v j) l i) /\ cv_pix (fold_left (fun j a => paint (s a) v j) l i) c r = cv_pix i c r.
Proof.
  induction l as [|a l IH]; intros H i; [split; [split|]; reflexivity|]. cbn [fold_left].
  destruct (IH (fun a' Ha => H a' (or_intror Ha)) (paint (s a) v i)) as [I1 I2]. split; [exact I1|]. rewrite I2. cbn [paint cv_pix]. rewrite (H a (or_introl eq_refl)). reflexivity.
Qed.
Lemma metre_ok thick anth metre i c r : thick_ok thick -> metre > 2 -> ~ near_metre metre c r ->
  same_size i (metre_lines anth thick metre i) /\ cv_pix (metre_lines anth thick metre i) c r = cv_pix i c r.
Proof.
  intros Ht Hm Hn. unfold metre_lines.
  assert (K : forall ys j, (forall y, In y ys -> exists k, y = k * metre) ->
    same_size j (fold_left (fun j y => fold_left (fun j x => paint (thick x y (x + metre) (y + metre)) anth j) (multiples metre (cv_cols i)) j) ys j) /\
    cv_pix (fold_left (fun j y => fold_left (fun j x => paint (thick x y (x + metre) (y + metre)) anth j) (multiples metre (cv_cols i)) j) ys j) c r = cv_pix j c r).
  { induction ys as [|y ys IH]; intros j Hy; [split; [split|]; reflexivity|]. cbn [fold_left].
    destruct (IH (fold_left (fun j x => paint (thick x y (x + metre) (y + metre)) anth j) (multiples metre (cv_cols i)) j) (fun y' H => Hy y' (or_intror H))) as [[I1 I1'] I2].
    destruct (fold_paint (fun x => thick x y (x + metre) (y + metre)) anth (multiples metre (cv_cols i)) c r) with (i := j) as [[J1 J1'] J2].
    - intros x Hx. destruct (multiples_in _ _ _ Hx) as [kx ->]. destruct (Hy y (or_introl eq_refl)) as [ky ->].
      destruct (thick _ _ _ _ c r) eqn:T; [|reflexivity]. exfalso. apply Hn. split; [exact Hm|]. destruct (Ht _ _ _ _ _ _ T) as (c' & r' & O & N1 & N2).
      unfold outline in O. rewrite andb_true_iff, !orb_true_iff, !Z.eqb_eq in O. destruct O as [_ [[[-> | ->] | ->] | ->]];
        [exists kx|exists (kx + 1)|exists ky|exists (ky + 1)]; lia.
    - unfold same_size. rewrite I1, I1', I2, J1, J1', J2. auto. }
  apply K. intros y Hy. exact (multiples_in _ _ _ Hy).
Qed.

(** ** C72 *)
(** Every pixel of the map's picture shows the cell it belongs to, but for the lines
    between cells and every metre. *)
Theorem C72_map : forall S anth thick w h col metre i, picture S w h i -> thick_ok thick ->
  (forall x y, 0 <= x < w -> 0 <= y < h -> col x y <> None) ->
  exists j, renderMap S anth thick (S * w) (S * h) w h col metre i = Some j /\ cv_rows j = cv_rows i /\ cv_cols j = cv_cols i /\
    forall c r x y, in_pic i c r -> pixel_of S (cv_rows i) c r x y -> ~ near_metre metre c r ->
      (on_line S (cv_rows i) c r -> cv_pix j c r = anth) /\ (~ on_line S (cv_rows i) c r -> Some (cv_pix j c r) = col x y).
Proof.
  intros S anth thick w h col metre i HP Ht Hc. set (cl := fun x y => match col x y with Some v => v | None => anth end).
  assert (Hcl : forall x y, 0 <= x < w -> 0 <= y < h -> col x y = Some (cl x y)).
  { intros x y Hx Hy. unfold cl. specialize (Hc x y Hx Hy). destruct (col x y); [reflexivity|congruence]. }
  unfold renderMap.
  assert (exists j, ofold (fun y => ofold (fun x j => v <- col x y ;; fill S anth (S * w) (S * h) x y v j) (upto w)) (upto h) i = Some j /\ same_size i j) as (j & Ej & Hj).
  { rewrite (ofold_nest (fun x y j => v <- col x y ;; fill S anth (S * w) (S * h) x y v j)).
    pose proof HP as (A1 & A2 & A3 & A4 & A5 & A6 & A7).
    destruct (Z_lt_dec 0 (w * h)) as [L|L].
    - destruct (cells_ok S anth w h i cl HP 0 0 col Hcl) as (j & E & Hj & _); [unfold in_pic; nia|].
      rewrite (ofold_nest (fun x y j => v <- col x y ;; fill S anth (S * w) (S * h) x y v j)) in E. exists j. tauto.
    - exists i. split; [|split; reflexivity]. assert (flat_map (fun y => map (fun x => (x, y)) (upto w)) (upto h) = []) as ->; [|reflexivity].
      destruct (flat_map _ _) as [|[x y] l] eqn:F; [reflexivity|]. exfalso. assert (In (x, y) ((x, y) :: l)) as Hin by (left; reflexivity). rewrite <- F in Hin.
      apply pairs_in in Hin. rewrite !upto_spec in Hin. nia. }
  assert (Hpix : forall c r, in_pic i c r -> final S anth i cl c r (cv_pix j c r)).
  { intros c r Hp. destruct (cells_ok S anth w h i cl HP c r col Hcl Hp) as (j' & E & _ & G). rewrite Ej in E. injection E as <-. exact G. }
  assert (Hend : forall c r x y, in_pic i c r -> pixel_of S (cv_rows i) c r x y ->
      (on_line S (cv_rows i) c r -> cv_pix j c r = anth) /\ (~ on_line S (cv_rows i) c r -> Some (cv_pix j c r) = col x y)).
  { intros c r x y Hp [<- <-]. pose proof HP as (A1 & A2 & A3 & A4 & A5 & A6 & A7). destruct Hp as [Hp1 Hp2].
    rewrite Hcl by (split; [apply Z.div_pos; lia|apply Z.div_lt_upper_bound; lia]).
    destruct (Hpix c r (conj Hp1 Hp2)) as [[L ->]|[L ->]]; split; intros Q; tauto || reflexivity. }
  rewrite Ej. cbn [obind]. eexists. split; [reflexivity|]. destruct (Z.gtb_spec metre 2) as [M|M].
  - destruct (Z_lt_dec 0 0) as [Q|_]; [lia|].
    assert (SZ : same_size j (metre_lines anth thick metre j)).
    { unfold metre_lines. generalize (multiples metre (cv_rows j)). intros ys. generalize (multiples metre (cv_cols j)). intros xs. 
      assert (forall j', same_size j' (fold_left (fun j y => fold_left (fun j x => paint (thick x y (x + metre) (y + metre)) anth j) xs j) ys j')) as X; [|apply X].
      induction ys as [|y ys IH]; intros j'; [split; reflexivity|]. cbn [fold_left].
      assert (Y : forall k, same_size k (fold_left (fun j x => paint (thick x y (x + metre) (y + metre)) anth j) xs k)).
      { clear. induction xs as [|x xs IHx]; intros k; [split; reflexivity|]. cbn [fold_left]. specialize (IHx (paint (thick x y (x + metre) (y + metre)) anth k)). exact IHx. }
      specialize (IH (fold_left (fun j x => paint (thick x y (x + metre) (y + metre)) anth j) xs j')). destruct IH as [I1 I2]. destruct (Y j') as [Y1 Y2].
      split; congruence. }
    destruct SZ as [S1 S2]. destruct Hj as [J1 J2]. rewrite S1, S2. split; [exact J1|]. split; [exact J2|].
    intros c r x y Hp Hx Hn. destruct (metre_ok thick anth metre j c r Ht ltac:(lia) Hn) as [_ ->]. apply Hend; assumption.
  - destruct Hj as [J1 J2]. split; [exact J1|]. split; [exact J2|]. intros c r x y Hp Hx _. apply Hend; assumption.
Qed.

(** *** The shades *)
Local Open Scope R_scope.
Lemma grey_range ro rf h : exists v, grey ro rf h = Some v /\ (100 <= v <= 255)%Z /\
  IZR v <= 255 - Rmin 155 (Rmax 0 ((h + ro) * rf / 255 * 155)) < IZR v + 1.
Proof.
  unfold grey. set (t := Rmin 155 (Rmax 0 ((h + ro) * rf / 255 * 155))).
  assert (T : 0 <= t <= 155). { unfold t. split; [apply Rmin_glb; [lra|apply Rmax_l]|apply Rmin_l]. }
  destruct (archimed (255 - t)) as [A1 A2]. set (v := (up (255 - t) - 1)%Z).
  assert (Hv : IZR v <= 255 - t < IZR v + 1) by (unfold v; rewrite minus_IZR; lra).
  assert (v <= 255)%Z by (apply le_IZR; lra). assert (100 < v + 1)%Z by (apply lt_IZR; rewrite plus_IZR; lra).
  exists v. split; [|split; [lia|exact Hv]]. apply cast_u32_some; [lra|]. split; [exact Hv|lia].
Qed.
(** Shades are between 100 and 255, and a cell with a larger estimate is never lighter. *)
Theorem C72_shades : forall ro rf h, (exists v, grey ro rf h = Some v /\ (100 <= v <= 255)%Z) /\
  (0 <= rf -> forall h' v v', h <= h' -> grey ro rf h = Some v -> grey ro rf h' = Some v' -> (v' <= v)%Z).
Proof.
  intros ro rf h. split; [destruct (grey_range ro rf h) as (v & E & B & _); exists v; tauto|].
  intros Hf h' v v' Hh E E'. destruct (grey_range ro rf h) as (u & Eu & _ & Bu). destruct (grey_range ro rf h') as (u' & Eu' & _ & Bu').
  rewrite E in Eu. rewrite E' in Eu'. injection Eu as <-. injection Eu' as <-.
  assert (M : Rmin 155 (Rmax 0 ((h + ro) * rf / 255 * 155)) <= Rmin 155 (Rmax 0 ((h' + ro) * rf / 255 * 155))).
  { apply Rle_min_compat_l, Rle_max_compat_l. apply Rmult_le_compat_r; [lra|]. apply Rmult_le_compat_r; [lra|]. apply Rmult_le_compat_r; lra. }
  assert (v' < v + 1)%Z by (apply lt_IZR; rewrite plus_IZR; lra). lia.
Qed.

(** The focus found for a new renderer. *)
Definition estimate (m : gridmap) (heur : Z -> Z -> option R) (e : R) : Prop :=
  exists x y, isInMap m x y = true /\ isFree m x y = Some true /\ heur x y = Some e.
Lemma around_in r z : In z (around r) <-> (- r <= z <= r)%Z.
Proof.
  unfold around. rewrite in_map_iff. split.
  - intros (k & <- & Hk). apply upto_spec in Hk. lia.
  - intros H. exists (z + r)%Z. split; [lia|]. apply upto_spec. lia.
Qed.
Lemma free_def m x y : gm_wf m -> isInMap m x y = true -> exists b, isFree m x y = Some b.
Proof.
  intros Hw Hi. apply isInMap_spec in Hi; [|exact Hw]. destruct (getValue_some m x y Hw Hi) as [v Hv].
  destruct (classify_spec m x y v Hv) as (Hf & _). eexists. exact Hf.
Qed.
Definition focus_inv (m : gridmap) (heur : Z -> Z -> option R) (seen : Z * Z -> Prop) (s : R * R) : Prop :=
  (fst s = dbl_max \/ estimate m heur (fst s)) /\ (snd s = dbl_min \/ estimate m heur (snd s)) /\
  forall p e, seen p -> isInMap m (fst p) (snd p) = true -> isFree m (fst p) (snd p) = Some true -> heur (fst p) (snd p) = Some e -> fst s <= e <= snd s.
Lemma focus_step_inv m heur seen p s : gm_wf m -> focus_inv m heur seen s ->
  exists s', focus_step m heur (fst p) (snd p) s = Some s' /\ focus_inv m heur (fun q => q = p \/ seen q) s'.
Proof.
  intros Hw (I1 & I2 & I3). unfold focus_step. destruct (isInMap m (fst p) (snd p)) eqn:Hi.
  2:{ exists s. split; [reflexivity|]. split; [exact I1|]. split; [exact I2|]. intros q e [-> | Hq] H1 H2 H3; [congruence|]. exact (I3 q e Hq H1 H2 H3). }
  destruct (free_def m _ _ Hw Hi) as [b Hb]. rewrite Hb. cbn [obind]. destruct b.
  2:{ exists s. split; [reflexivity|]. split; [exact I1|]. split; [exact I2|]. intros q e [-> | Hq] H1 H2 H3; [congruence|]. exact (I3 q e Hq H1 H2 H3). }
  destruct (heur (fst p) (snd p)) as [v|] eqn:Hv.
  2:{ exists s. split; [reflexivity|]. split; [exact I1|]. split; [exact I2|]. intros q e [-> | Hq] H1 H2 H3; [congruence|]. exact (I3 q e Hq H1 H2 H3). }
  assert (Ev : estimate m heur v) by (exists (fst p), (snd p); auto).
  eexists. split; [reflexivity|]. unfold focus_inv. cbn [fst snd]. split; [|split].
  - destruct (Rlt_bool v (fst s)); [right; exact Ev|exact I1].
  - destruct (Rlt_bool (snd s) v); [right; exact Ev|exact I2].
  - intros q e [-> | Hq] H1 H2 H3.
    + rewrite Hv in H3. injection H3 as <-. split; [case Rlt_bool_spec; lra|case Rlt_bool_spec; lra].
    + specialize (I3 q e Hq H1 H2 H3). split; [case Rlt_bool_spec; lra|case Rlt_bool_spec; lra].
Qed.
Lemma focus_fold_inv m heur (l : list (Z * Z)) : gm_wf m -> forall seen s, focus_inv m heur seen s ->
  exists s', ofold (fun p => focus_step m heur (fst p) (snd p)) l s = Some s' /\ focus_inv m heur (fun q => In q l \/ seen q) s'.
Proof.
  intros Hw. induction l as [|p l IH]; intros seen s Hs.
  - exists s. split; [reflexivity|]. destruct Hs as (I1 & I2 & I3). split; [exact I1|]. split; [exact I2|]. intros q e [[]|Hq]. exact (I3 q e Hq).
  - destruct (focus_step_inv m heur seen p s Hw Hs) as (s1 & E1 & H1). destruct (IH _ _ H1) as (s2 & E2 & I1 & I2 & I3).
    exists s2. cbn [ofold]. rewrite E1. cbn [obind]. split; [exact E2|]. split; [exact I1|]. split; [exact I2|].
    intros q e Hq. apply I3. cbn [In] in Hq. destruct Hq as [[<-|Hq]|Hq]; tauto.
Qed.
Lemma ofold_map {A B C} (g : A -> B) (f : B -> C -> option C) l : forall c, ofold f (map g l) c = ofold (fun a => f (g a)) l c.
Proof. induction l as [|a l IH]; intros c; [reflexivity|]. cbn [map ofold]. destruct (f (g a) c); cbn [obind]; [apply IH|reflexivity]. Qed.

(** A new renderer spreads the shades over the map: the smallest estimate of a free cell
    is white, the largest is the darkest shade. *)
Theorem C72_focus : forall S m heur, gm_wf m -> (2 <= S)%Z ->
  (forall e, estimate m heur e -> 0 <= e < dbl_max) -> (exists e1 e2, estimate m heur e1 /\ estimate m heur e2 /\ e1 < e2 /\ dbl_min <= e2) ->
  exists ro rf, findFocus S (S * gm_w m) (S * gm_h m) m heur (S * gm_h m) = Some (ro, rf) /\ 0 < rf /\
    forall e, estimate m heur e ->
      ((forall e', estimate m heur e' -> e <= e') -> grey ro rf e = Some 255%Z) /\
      ((forall e', estimate m heur e' -> e' <= e) -> grey ro rf e = Some 100%Z).
Proof.
  intros S m heur Hw HS Hr (e1 & e2 & H1 & H2 & L12 & Lm). unfold findFocus, setFocus. cbv zeta.
  set (rd := Z.max (S * gm_w m / 2) (S * gm_h m / 2)). set (x0 := Z.quot (S * gm_w m / 2) S). set (y0 := Z.quot (S * gm_h m - S * gm_h m / 2) S).
  rewrite (ofold_nest (fun dx dy => focus_step m heur (x0 + dx) (y0 + dy))).
  assert (E0 : forall s, ofold (fun p => focus_step m heur (x0 + fst p) (y0 + snd p)) (flat_map (fun y => map (fun x => (x, y)) (around rd)) (around rd)) s =
    ofold (fun p => focus_step m heur (fst p) (snd p)) (map (fun p => (x0 + fst p, y0 + snd p)%Z) (flat_map (fun y => map (fun x => (x, y)) (around rd)) (around rd))) s).
  { intros s. rewrite ofold_map. reflexivity. }
  rewrite E0. clear E0. set (l := map _ _).
  destruct (focus_fold_inv m heur l Hw (fun _ => False) (dbl_max, dbl_min)) as ([mn mx] & E & I1 & I2 & I3).
  { split; [left; reflexivity|]. split; [left; reflexivity|]. intros p e []. }
  rewrite E. cbn [obind fst snd] in *.
  assert (All : forall e, estimate m heur e -> mn <= e <= mx).
  { intros e (x & y & Hi & Hf & He). apply (I3 (x, y) e); try assumption. left. unfold l. apply in_map_iff. exists (x - x0, y - y0)%Z. cbn [fst snd].
    split; [f_equal; lia|]. apply pairs_in. rewrite !around_in. apply isInMap_spec in Hi; [|exact Hw]. destruct Hi as [Hx Hy].
    assert (X0 : (0 <= x0 <= gm_w m)%Z).
    { unfold x0. rewrite Z.quot_div_nonneg by (try apply Z.div_pos; nia). split; [apply Z.div_pos; [apply Z.div_pos; nia|lia]|].
      apply Z.div_le_upper_bound; [lia|]. apply Z.div_le_upper_bound; nia. }
    assert (Hh : (0 <= S * gm_h m / 2 <= S * gm_h m)%Z) by (split; [apply Z.div_pos; nia|apply Z.div_le_upper_bound; nia]).
    assert (Y0 : (0 <= y0 <= gm_h m)%Z).
    { unfold y0. rewrite Z.quot_div_nonneg by lia. split; [apply Z.div_pos; lia|]. apply Z.div_le_upper_bound; lia. }
    assert (gm_w m <= S * gm_w m / 2)%Z by (apply Z.div_le_lower_bound; nia). assert (gm_h m <= S * gm_h m / 2)%Z by (apply Z.div_le_lower_bound; nia). unfold rd. lia. }
  pose proof (All e1 H1) as B1. pose proof (All e2 H2) as B2.
  assert (Hmn : estimate m heur mn). { destruct I1 as [-> | I1]; [|exact I1]. specialize (Hr e1 H1). lra. }
  assert (Hmx : exists e, estimate m heur e /\ e = mx). { destruct I2 as [E2 | I2]; [|exists mx; auto]. exists e2. split; [exact H2|]. lra. }
  destruct Hmx as (mx' & Hmx & ->).
  assert (D : 0 < mx - mn) by lra. eexists _, _. split; [reflexivity|]. split; [apply Rdiv_lt_0_compat; lra|].
  intros e He. pose proof (All e He) as Be. split; intros Hm.
  - assert (e = mn) by (specialize (Hm mn Hmn); lra). subst e. unfold grey. replace ((mn + - mn) * (255 / (mx - mn)) / 255 * 155) with 0 by (field; lra).
    rewrite Rmax_left by lra. rewrite Rmin_right by lra. apply cast_u32_some; [lra|]. split; [lra|lia].
  - assert (e = mx) by (specialize (Hm mx Hmx); lra). subst e. unfold grey. replace ((mx + - mn) * (255 / (mx - mn)) / 255 * 155) with 155 by (field; lra).
    rewrite Rmax_right by lra. rewrite Rmin_left by lra. apply cast_u32_some; [lra|]. split; [lra|lia].
Qed.
(** The whole picture: occupied and unknown cells in the colour of the lines, cells without
    estimate in light blue, the others in their shade. *)
Theorem C72_colours : forall m heur ro rf anth x y b, isFree m x y = Some b ->
  exists v, cell_colour anth m heur ro rf x y = Some v /\
    (b = false -> v = anth) /\ (b = true -> heur x y < 0 -> v = (220, 200, 200)%Z) /\
    (b = true -> 0 <= heur x y -> exists g, grey ro rf (heur x y) = Some g /\ v = (g, g, g)).
Proof.
  intros m heur ro rf anth x y b Hb. unfold cell_colour. rewrite Hb. cbn [obind]. destruct b.
  - destruct (Rlt_bool_spec (heur x y) 0).
    + eexists. split; [reflexivity|]. split; [discriminate|]. split; [auto|]. intros _ ?. lra.
    + destruct (grey_range ro rf (heur x y)) as (g & -> & _). cbn [obind]. eexists. split; [reflexivity|]. split; [discriminate|]. split; [intros; lra|]. intros _ _. exists g. auto.
  - eexists. split; [reflexivity|]. split; [auto|]. split; discriminate.
Qed.

(** *** The search space *)
(** The five colours by the way from the start: [d] is mixed from the neighbouring stages
    [a] and [b], at the position 4 * d / max. *)
Theorem C72_stage : forall d mx, 0 < mx -> mx / 10000 <= d <= mx ->
  exists a fa fb, shade d mx = (a, (a + 1)%Z, fa, fb) /\ (0 <= a <= 3)%Z /\ 0 <= fb < 1 /\ fa + fb = 1 /\
    fa * IZR a + fb * IZR (a + 1) = 4 * (d / mx) - 4 / 10000.
Proof.
  intros d mx Hm Hd. unfold shade, stage_count. cbv zeta. set (idx := (d / mx - / 10000) * IZR (5 - 1)).
  assert (Q : / 10000 <= d / mx <= 1). { split; [apply (Rmult_le_reg_r mx)|apply (Rmult_le_reg_r mx)]; try lra; unfold Rdiv; rewrite Rmult_assoc, Rinv_l by lra; lra. }
  assert (Hi : 0 <= idx < 4) by (unfold idx; simpl; lra). pose proof (Zfloor_lb idx) as F1. pose proof (Zfloor_ub idx) as F2.
  set (a := Zfloor idx) in *.
  assert (A1 : (a < 4)%Z) by (apply lt_IZR; lra). assert (A2 : (0 < a + 1)%Z) by (apply lt_IZR; rewrite plus_IZR; lra).
  rewrite Z.min_r by lia. eexists a, _, _. split; [reflexivity|]. split; [lia|].
  rewrite (Rabs_left1 (idx - IZR (a + 1))) by (rewrite plus_IZR; lra). rewrite (Rabs_pos_eq (idx - IZR a)) by lra.
  rewrite plus_IZR. split; [lra|]. split; [lra|]. replace (4 * (d / mx) - 4 / 10000) with idx by (unfold idx; simpl; lra). ring.
Qed.
(** Nearer to the start than a ten thousandth of the largest distance: the colour is read
    from in front of the table. *)
Theorem C72_stage_refuted : forall d mx, 0 < mx -> 0 <= d < mx / 10000 -> exists fa fb, shade d mx = ((-1)%Z, 0%Z, fa, fb).
Proof.
  intros d mx Hm Hd. unfold shade. cbv zeta. set (idx := (d / mx - / 10000) * IZR (stage_count - 1)).
  assert (Q : 0 <= d / mx < / 10000). { split; [apply Rmult_le_pos; [lra|left; apply Rinv_0_lt_compat; lra]|]. apply (Rmult_lt_reg_r mx); [lra|]. unfold Rdiv. rewrite Rmult_assoc, Rinv_l by lra. lra. }
  assert (Hi : -1 < idx < 0) by (unfold idx, stage_count; simpl; lra).
  assert (A : Zfloor idx = (-1)%Z) by (apply Zfloor_imp; simpl; lra). rewrite A. eexists _, _. reflexivity.
Qed.

Lemma nodes_in w h slots dist x y d : In (x, y, d) (nodes w h slots dist) <->
  exists t, (0 <= t < slots)%Z /\ (0 <= x < w)%Z /\ (0 <= y < h)%Z /\ dist x y t = Some d.
Proof.
  unfold nodes. rewrite in_flat_map. split.
  - intros (t & Ht & H). apply in_flat_map in H. destruct H as (y' & Hy & H). apply in_flat_map in H. destruct H as (x' & Hx & H).
    apply upto_spec in Ht, Hy, Hx. destruct (dist x' y' t) as [d'|] eqn:E; [|destruct H]. destruct H as [H|[]]. injection H as -> -> ->. exists t. tauto.
  - intros (t & Ht & Hx & Hy & E). exists t. split; [apply upto_spec; exact Ht|]. apply in_flat_map. exists y. split; [apply upto_spec; exact Hy|].
    apply in_flat_map. exists x. split; [apply upto_spec; exact Hx|]. rewrite E. left. reflexivity.
Qed.
Lemma upto_app a b : (0 <= a)%Z -> (0 <= b)%Z -> upto (a + b) = upto a ++ map (fun k => (a + k)%Z) (upto b).
Proof.
  intros Ha Hb. unfold upto. rewrite Z2Nat.inj_add by assumption. rewrite seq_app, map_app. f_equal. cbn [Nat.add].
  rewrite map_map. rewrite <- (Nat.add_0_r (Z.to_nat a)) at 1. generalize 0%nat. generalize (Z.to_nat b). clear Hb.
  intros n. induction n as [|n IH]; intros k; [reflexivity|]. cbn [seq map]. f_equal; [lia|]. rewrite <- IH. f_equal. f_equal. lia.
Qed.
(** The nodes from slot [t] on. *)
Lemma nodes_split w h slots dist t : (0 <= t <= slots)%Z -> exists l1 l2, nodes w h slots dist = l1 ++ l2 /\
  forall x y d, In (x, y, d) l2 <-> exists t', (t <= t' < slots)%Z /\ (0 <= x < w)%Z /\ (0 <= y < h)%Z /\ dist x y t' = Some d.
Proof.
  intros Ht. unfold nodes. replace slots with (t + (slots - t))%Z by ring. rewrite upto_app by lia. rewrite flat_map_app. eexists _, _. split; [reflexivity|].
  intros x y d. rewrite in_flat_map. split.
  - intros (t' & Ht' & H). apply in_map_iff in Ht'. destruct Ht' as (k & <- & Hk). apply in_flat_map in H. destruct H as (y' & Hy & H). apply in_flat_map in H. destruct H as (x' & Hx & H).
    apply upto_spec in Hk, Hy, Hx. destruct (dist x' y' (t + k)%Z) as [d'|] eqn:E; [|destruct H]. destruct H as [H|[]]. injection H as -> -> ->. exists (t + k)%Z. split; [lia|tauto].
  - intros (t' & Ht' & Hx & Hy & E). exists t'. split; [apply in_map_iff; exists (t' - t)%Z; split; [lia|apply upto_spec; lia]|]. apply in_flat_map. exists y. split; [apply upto_spec; exact Hy|].
    apply in_flat_map. exists x. split; [apply upto_spec; exact Hx|]. rewrite E. left. reflexivity.
Qed.
Lemma analyze_spec ds : 1 <= analyze ds /\ (forall d, In d ds -> d <= analyze ds) /\ (analyze ds = 1 \/ In (analyze ds) ds).
Proof.
  unfold analyze. assert (K : forall l m, m <= fold_left (fun m d => if Rlt_bool m d then d else m) l m /\
    (forall d, In d l -> d <= fold_left (fun m d => if Rlt_bool m d then d else m) l m) /\
    (fold_left (fun m d => if Rlt_bool m d then d else m) l m = m \/ In (fold_left (fun m d => if Rlt_bool m d then d else m) l m) l)).
  { induction l as [|d l IH]; intros m; cbn [fold_left].
    - split; [lra|]. split; [intros d []|left; reflexivity].
    - destruct (IH (if Rlt_bool m d then d else m)) as (I1 & I2 & I3). set (r := fold_left _ l _) in *. clearbody r.
      destruct (Rlt_bool_spec m d) as [L|L].
      + split; [lra|]. split; [intros d' [<-|Hd]; [lra|exact (I2 d' Hd)]|]. right. destruct I3 as [-> |I3]; [left; reflexivity|right; exact I3].
      + split; [lra|]. split; [intros d' [<-|Hd]; [lra|exact (I2 d' Hd)]|]. destruct I3 as [-> |I3]; [left; reflexivity|right; right; exact I3]. }
  apply K.
Qed.

Section Grid.
  Variables (S : Z) (mix : Z -> Z -> R -> R -> colour) (map_h : Z) (mx : R) (c r : Z).
  Notation step := (fun (s : canvas * bool) (n : Z * Z * R) =>
    let '(a, b, fa, fb) := shade (snd n) mx in
    (paint (node_rect S map_h (fst (fst n)) (snd (fst n))) (mix a b fa fb) (fst s), snd s && in_table a && in_table b)).
  Notation hit := (fun n : Z * Z * R => node_rect S map_h (fst (fst n)) (snd (fst n)) c r).
  Definition node_ok (n : Z * Z * R) : bool := let '(a, b, fa, fb) := shade (snd n) mx in in_table a && in_table b.
  Definition node_colour (n : Z * Z * R) : colour := let '(a, b, fa, fb) := shade (snd n) mx in mix a b fa fb.
  Lemma grid_flag l : forall s, snd (fold_left step l s) = (snd s && forallb node_ok l).
  Proof.
    induction l as [|n l IH]; intros s; cbn [fold_left forallb]; [rewrite andb_true_r; reflexivity|]. rewrite IH. unfold node_ok at 2.
    destruct (shade (snd n) mx) as [[[a b] fa] fb]. cbn [snd]. rewrite !andb_assoc. reflexivity.
  Qed.
  Lemma grid_size l : forall s, same_size (fst s) (fst (fold_left step l s)).
  Proof.
    induction l as [|n l IH]; intros s; [split; reflexivity|]. cbn [fold_left]. destruct (shade (snd n) mx) as [[[a b] fa] fb]. specialize (IH (paint (node_rect S map_h (fst (fst n)) (snd (fst n))) (mix a b fa fb) (fst s), snd s && in_table a && in_table b)).
    exact IH.
  Qed.
  Lemma grid_untouched l : (forall n, In n l -> hit n = false) -> forall s, cv_pix (fst (fold_left step l s)) c r = cv_pix (fst s) c r.
  Proof.
    induction l as [|n l IH]; intros H s; [reflexivity|]. cbn [fold_left]. rewrite (IH (fun n' Hn => H n' (or_intror Hn))).
    destruct (shade (snd n) mx) as [[[a b] fa] fb]. cbn [fst paint cv_pix]. specialize (H n (or_introl eq_refl)). cbv beta in H. rewrite H. reflexivity.
  Qed.
  Lemma grid_last l n0 : (forall n, In n l -> hit n = true -> n = n0) -> In n0 l -> hit n0 = true ->
    forall s, cv_pix (fst (fold_left step l s)) c r = node_colour n0.
  Proof.
    assert (K : forall l, (forall n, In n l -> hit n = true -> n = n0) -> hit n0 = true -> forall s,
      (cv_pix (fst s) c r = node_colour n0 \/ In n0 l) -> cv_pix (fst (fold_left step l s)) c r = node_colour n0).
    { clear l. induction l as [|n l IH]; intros H H0 s D; [destruct D as [D|[]]; exact D|]. cbn [fold_left].
      apply (IH (fun n' Hn => H n' (or_intror Hn)) H0). destruct (shade (snd n) mx) as [[[a b] fa] fb] eqn:Es.
      cbn [paint cv_pix fst]. destruct (node_rect S map_h (fst (fst n)) (snd (fst n)) c r) eqn:Hn.
      - left. assert (n = n0) by (apply H; [left; reflexivity|exact Hn]). subst n. unfold node_colour. rewrite Es. reflexivity.
      - destruct D as [D|[D|D]]; [left; exact D| |right; exact D]. subst n. cbv beta in H0. congruence. }
    intros H Hin H0 s. apply (K l H H0 s). right. exact Hin.
  Qed.
End Grid.
Lemma node_rect_spec S h i c r x y : (1 <= S)%Z -> cv_rows i = (S * h)%Z -> node_rect S h x y c r = true <-> pixel_of S (cv_rows i) c r x y.
Proof.
  intros HS Hr. unfold node_rect, pixel_of, inside. cbv zeta. rewrite !andb_true_iff, !Z.leb_le, !div_block by lia. rewrite Hr. nia.
Qed.

(** The search space: a cell with nodes is painted in the colour of its last heading's
    node (in relation to the largest distance [mx]), the others stay; all reads of the
    table of colours are inside it exactly if no node is nearer than mx / 10000. *)
Theorem C72_search : forall S mix w h slots dist i mx, picture S w h i ->
  1 <= mx -> (forall x y t d, (0 <= x < w)%Z -> (0 <= y < h)%Z -> (0 <= t < slots)%Z -> dist x y t = Some d -> 0 <= d <= mx) ->
  (mx = 1 \/ exists x y t, (0 <= x < w)%Z /\ (0 <= y < h)%Z /\ (0 <= t < slots)%Z /\ dist x y t = Some mx) ->
  exists j ok, visualizeSearchSpaceGrid S mix w h slots dist i = (j, ok) /\ cv_rows j = cv_rows i /\ cv_cols j = cv_cols i /\
    (ok = true <-> forall x y t d, (0 <= x < w)%Z -> (0 <= y < h)%Z -> (0 <= t < slots)%Z -> dist x y t = Some d -> mx / 10000 <= d) /\
    forall c r x y, in_pic i c r -> pixel_of S (cv_rows i) c r x y ->
      ((forall t, (0 <= t < slots)%Z -> dist x y t = None) -> cv_pix j c r = cv_pix i c r) /\
      (forall t d, (0 <= t < slots)%Z -> dist x y t = Some d -> (forall t', (t < t' < slots)%Z -> dist x y t' = None) ->
         exists a b fa fb, shade d mx = (a, b, fa, fb) /\ cv_pix j c r = mix a b fa fb).
Proof.
  intros S mix w h slots dist i mx HP H1 Hup Hmx. pose proof HP as (A1 & A2 & A3 & A4 & A5 & A6 & A7).
  assert (Emx : analyze (map snd (nodes w h slots dist)) = mx).
  { destruct (analyze_spec (map snd (nodes w h slots dist))) as (B1 & B2 & B3). apply Rle_antisym.
    - destruct B3 as [-> | B3]; [exact H1|]. apply in_map_iff in B3. destruct B3 as ([[x y] d] & E & Hin). cbn [snd] in E. apply nodes_in in Hin. destruct Hin as (t & Ht & Hx & Hy & Hd).
      rewrite <- E. exact (proj2 (Hup x y t d Hx Hy Ht Hd)).
    - destruct Hmx as [-> | (x & y & t & Hx & Hy & Ht & Hd)]; [exact B1|]. apply B2. apply in_map_iff. exists (x, y, mx). split; [reflexivity|]. apply nodes_in. exists t. tauto. }
  unfold visualizeSearchSpaceGrid. cbv zeta. rewrite Emx. 
  set (res := fold_left _ (nodes w h slots dist) (i, true)). exists (fst res), (snd res). split; [apply surjective_pairing|].
  destruct (grid_size S mix h mx (nodes w h slots dist) (i, true)) as [Z1 Z2]. split; [exact Z1|]. split; [exact Z2|]. split.
  { unfold res. rewrite grid_flag. cbn [snd andb]. rewrite forallb_forall. split.
    - intros H x y t d Hx Hy Ht Hd. specialize (H (x, y, d) ltac:(apply nodes_in; exists t; tauto)). unfold node_ok in H. cbn [snd] in H.
      destruct (Rle_lt_dec (mx / 10000) d) as [L|L]; [exact L|]. destruct (C72_stage_refuted d mx) as (fa & fb & E); [lra|destruct (Hup x y t d Hx Hy Ht Hd); lra|]. rewrite E in H. discriminate.
    - intros H [[x y] d] Hin. apply nodes_in in Hin. destruct Hin as (t & Ht & Hx & Hy & Hd). unfold node_ok. cbn [snd].
      destruct (C72_stage d mx) as (a & fa & fb & E & Ha & _); [lra|split; [exact (H x y t d Hx Hy Ht Hd)|exact (proj2 (Hup x y t d Hx Hy Ht Hd))]|]. rewrite E. unfold in_table, stage_count. lia. }
  intros c r x y [Hc Hr] Hp.
  assert (Hxy : (0 <= x < w)%Z /\ (0 <= y < h)%Z).
  { destruct Hp as [<- <-]. split; (split; [apply Z.div_pos; lia|apply Z.div_lt_upper_bound; lia]). }
  assert (Huniq : forall x' y', node_rect S h x' y' c r = true <-> x' = x /\ y' = y).
  { intros x' y'. rewrite (node_rect_spec S h i c r x' y' A1 A5). unfold pixel_of in *. destruct Hp as [<- <-]. split; intros [E1 E2]; split; congruence. }
  unfold res. split.
  - intros Hno. rewrite (grid_untouched S mix h mx c r (nodes w h slots dist)); [reflexivity|]. intros [[x' y'] d] Hin. apply nodes_in in Hin. destruct Hin as (t & Ht & Hx & Hy & Hd). cbn [fst snd].
    destruct (node_rect S h x' y' c r) eqn:Q; [|reflexivity]. apply Huniq in Q. destruct Q as [-> ->]. rewrite (Hno t Ht) in Hd. discriminate.
  - intros t d Ht Hd Hlast. destruct (shade d mx) as [[[a b] fa] fb] eqn:Es. exists a, b, fa, fb. split; [reflexivity|].
    destruct (nodes_split w h slots dist t ltac:(lia)) as (l1 & l2 & El & H2). rewrite El, fold_left_app.
    rewrite (grid_last S mix h mx c r l2 (x, y, d)).
    + unfold node_colour. cbn [snd]. rewrite Es. reflexivity.
    + intros [[x' y'] d'] Hin Q. cbn [fst snd] in Q. apply Huniq in Q. destruct Q as [-> ->]. apply H2 in Hin. destruct Hin as (t' & Ht' & _ & _ & Hd').
      destruct (Z.eq_dec t' t) as [-> | Ne]; [congruence|]. rewrite Hlast in Hd' by lia. discriminate.
    + apply H2. exists t. split; [lia|tauto].
    + cbn [fst snd]. apply Huniq. tauto.
Qed.
(** A node at distance 0, as the start of every search is: a read in front of the table. *)
Theorem C72_search_refuted : forall S mix w h slots dist i x y t, (0 <= x < w)%Z -> (0 <= y < h)%Z -> (0 <= t < slots)%Z -> dist x y t = Some 0 ->
  snd (visualizeSearchSpaceGrid S mix w h slots dist i) = false.
Proof.
  intros S mix w h slots dist i x y t Hx Hy Ht Hd. unfold visualizeSearchSpaceGrid. cbv zeta. rewrite grid_flag. cbn [snd andb].
  destruct (analyze_spec (map snd (nodes w h slots dist))) as (B1 & _). set (mx := analyze _) in *.
  destruct (forallb _ _) eqn:F; [|reflexivity]. exfalso. rewrite forallb_forall in F. specialize (F (x, y, 0) ltac:(apply nodes_in; exists t; tauto)).
  unfold node_ok in F. cbn [snd] in F. destruct (C72_stage_refuted 0 mx) as (fa & fb & E); [lra|lra|]. rewrite E in F. discriminate.
Qed.

Local Open Scope Z_scope.
(** *** Markers and paths *)
(** The marker of a start or goal without heading: inside the border the cell has its
    colour, and from two pixels outside the cell on nothing is changed. *)
Theorem C72_marker : forall S border w h x y v bv i c r, picture S w h i -> thick_ok border -> in_pic i c r ->
  (pixel_of S (cv_rows i) c r x y -> pixel_of S (cv_rows i) (c + 1) (r + 1) x y -> pixel_of S (cv_rows i) (c - 2) (r - 2) x y ->
     cv_pix (fillCell S border h x y v bv i) c r = v) /\
  ((forall dc dr, -2 <= dc <= 2 -> -2 <= dr <= 2 -> ~ pixel_of S (cv_rows i) (c + dc) (r + dr) x y) ->
     cv_pix (fillCell S border h x y v bv i) c r = cv_pix i c r).
Proof.
  intros S border w h x y v bv i c r HP Hb Hin. pose proof HP as (A1 & A2 & A3 & A4 & A5 & A6 & A7).
  unfold fillCell, p2cv. cbn [cv_pix paint]. unfold pixel_of. setoid_rewrite div_block; [|lia..]. rewrite A5.
  set (tx := x * S). set (ty := (h - (y + 1)) * S).
  assert (Ey : S * h - S * y - S = ty) by (unfold ty; ring). assert (Ex : S * x = tx) by (unfold tx; ring). rewrite !Ex.
  assert (Nb : (tx + 2 <= c <= tx + S - 2 /\ ty + 2 <= r <= ty + S - 2) \/ c < tx - 1 \/ c > tx + S + 1 \/ r < ty - 1 \/ r > ty + S + 1 -> border tx ty (tx + S) (ty + S) c r = false).
  { intros D. destruct (border tx ty (tx + S) (ty + S) c r) eqn:B; [|reflexivity]. exfalso. destruct (Hb _ _ _ _ _ _ B) as (c' & r' & O & N1 & N2).
    unfold outline, inside in O. rewrite !andb_true_iff, !orb_true_iff, !Z.eqb_eq, !Z.leb_le in O. lia. }
  split.
  - intros H1 H2 H3. rewrite Nb by (unfold tx, ty in *; lia). unfold inside. assert (tx <= c <= tx + S /\ ty <= r <= ty + S) as [C R] by (unfold tx, ty in *; lia).
    destruct (Z.leb_spec tx c); [|lia]. destruct (Z.leb_spec c (tx + S)); [|lia]. destruct (Z.leb_spec ty r); [|lia]. destruct (Z.leb_spec r (ty + S)); [|lia]. reflexivity.
  - intros H. assert (D : c < tx - 1 \/ c > tx + S + 1 \/ r < ty - 1 \/ r > ty + S + 1).
    { destruct (Z_lt_dec c (tx - 1)); [lia|]. destruct (Z_gt_dec c (tx + S + 1)); [lia|]. destruct (Z_lt_dec r (ty - 1)); [lia|]. destruct (Z_gt_dec r (ty + S + 1)); [lia|]. exfalso.
      apply (H (Z.max (-2) (Z.min 2 (Z.max (tx - c) (Z.min (tx + S - 1 - c) 0)))) (Z.max (-2) (Z.min 2 (Z.max (ty - r) (Z.min (ty + S - 1 - r) 0))))); lia. }
    rewrite Nb by tauto. unfold inside. destruct (Z.leb_spec tx c); [|reflexivity]. destruct (Z.leb_spec c (tx + S)); [|reflexivity].
    destruct (Z.leb_spec ty r); [|reflexivity]. destruct (Z.leb_spec r (ty + S)); [|reflexivity]. cbn [andb]. lia.
Qed.
(** But it is a pixel too wide and too high: it covers a column of the cell to the right. *)
Theorem C72_marker_refuted : forall S border w h x y v bv i, picture S w h i -> 0 <= x < w - 1 -> 0 <= y < h ->
  (forall x1 y1 x2 y2 c r, border x1 y1 x2 y2 c r = false) ->
  exists c r, in_pic i c r /\ pixel_of S (cv_rows i) c r (x + 1) y /\ cv_pix (fillCell S border h x y v bv i) c r = v.
Proof.
  intros S border w h x y v bv i HP Hx Hy Hb. pose proof HP as (A1 & A2 & A3 & A4 & A5 & A6 & A7).
  exists (S * (x + 1)), (S * h - 1 - S * y). unfold in_pic, pixel_of. rewrite !div_block by lia. rewrite A4, A5. split; [nia|]. split; [lia|].
  unfold fillCell, p2cv. cbn [cv_pix paint]. rewrite Hb. unfold inside.
  destruct (Z.leb_spec (x * S) (S * (x + 1))); [|lia]. destruct (Z.leb_spec (S * (x + 1)) (x * S + S)); [|lia].
  destruct (Z.leb_spec ((h - (y + 1)) * S) (S * h - 1 - S * y)); [|lia]. destruct (Z.leb_spec (S * h - 1 - S * y) ((h - (y + 1)) * S + S)); [|lia]. reflexivity.
Qed.
(** The points of a path of cells are drawn in the cells below them. *)
Theorem C72_path_refuted : forall S w h i x y c r, picture S w h i -> 0 <= x < w -> 0 <= y < h -> p2cv S h x y = (c, r) ->
  pixel_of S (cv_rows i) c r x (y - 1) /\ (y = 0 -> ~ in_pic i c r).
Proof.
  intros S w h i x y c r (A1 & A2 & A3 & A4 & A5 & A6 & A7) Hx Hy E. unfold p2cv in E. injection E as <- <-. unfold pixel_of, in_pic. rewrite !div_block by lia. rewrite A5. lia.
Qed.

(** ** C73 *)
(** Specification: the frames of a video whose search was drawn [n] times, [k] of them for
    every frame written: the first picture for four seconds, every k-th of those that
    follow, the last picture for four seconds. *)
Fixpoint every (k : nat) (wait : nat) (l : list nat) : list nat :=
  match l with
  | [] => []
  | a :: l' => match wait with O => a :: every k (k - 1) l' | S w => every k w l' end
  end.
Definition hold (fps n : nat) : list nat := repeat n (4 * fps).
Lemma draw_first fps k : draw fps k new_video = Video 2 false 0 1 (hold fps 1).
Proof. unfold draw. cbn [v_image v_draws v_skipped new_video v_frames Z.eqb Pos.eqb]. unfold hold. rewrite app_nil_r. reflexivity. Qed.
(** The state while the search runs: [wt] calls until the next frame. *)
Definition waiting (k : Z) (s : Z) (wt : nat) : Prop := Z.of_nat wt = Z.max 0 (s - 1).
Lemma iter_shift {A} (f : A -> A) n a : Nat.iter n f (f a) = f (Nat.iter n f a).
Proof. induction n as [|n IH]; [reflexivity|]. cbn [Nat.iter nat_rect]. f_equal. exact IH. Qed.
Lemma draws_later fps k n : 0 <= k -> forall im s d fr wt, 1 < im -> waiting k s wt ->
  exists im' s', Nat.iter n (draw fps k) (Video im false s d fr) = Video im' false s' (d + n) (rev (every (Z.to_nat (Z.max 1 k)) wt (seq (d + 1) n)) ++ fr) /\ 1 < im'.
Proof.
  intros Hk. induction n as [|n IH]; intros im s d fr wt Him Hw.
  - exists im, s. cbn [Nat.iter nat_rect seq every rev app]. rewrite Nat.add_0_r. split; [reflexivity|exact Him].
  - cbn [Nat.iter nat_rect]. fold (Nat.iter n (draw fps k) (Video im false s d fr)). rewrite <- iter_shift. unfold draw at 2. cbn [v_image v_draws v_skipped v_flag v_frames]. cbv zeta.
    destruct (Z.eqb_spec im 1); [lia|]. cbn [seq every]. replace (d + 1)%nat with (Datatypes.S d) by lia. unfold waiting in Hw.
    destruct (Z.leb_spec (s - 1) 0) as [L|L].
    + destruct wt as [|wt]; [|lia]. destruct (IH (im + 1) k (Datatypes.S d) (Datatypes.S d :: fr) (Z.to_nat (Z.max 1 k) - 1)%nat) as (im' & s' & E & Hi); [lia|unfold waiting; lia|].
      exists im', s'. rewrite E. split; [|exact Hi]. replace (Datatypes.S d + n)%nat with (d + Datatypes.S n)%nat by lia. f_equal.
      replace (Datatypes.S d + 1)%nat with (Datatypes.S (Datatypes.S d)) by lia. cbn [rev]. rewrite <- app_assoc. reflexivity.
    + destruct wt as [|wt]; [lia|]. destruct (IH (im + 1) (s - 1) (Datatypes.S d) fr wt) as (im' & s' & E & Hi); [lia|unfold waiting; lia|].
      exists im', s'. rewrite E. split; [|exact Hi]. replace (Datatypes.S d + n)%nat with (d + Datatypes.S n)%nat by lia. f_equal.
      replace (Datatypes.S d + 1)%nat with (Datatypes.S (Datatypes.S d)) by lia. reflexivity.
Qed.
(** render with [skip_images] = k: frames are dropped as for the factor max 1 k. *)
Theorem C73_frames : forall fps k n, 0 <= k ->
  record fps k n = hold fps 1 ++ every (Z.to_nat (Z.max 1 k)) 0 (seq 2 n) ++ hold fps (n + 2).
Proof.
  intros fps k n Hk. unfold record.
  assert (E : exists im s, draw fps k (Nat.iter n (draw fps k) new_video) = Video im false s (n + 1) (rev (every (Z.to_nat (Z.max 1 k)) 0 (seq 2 n)) ++ hold fps 1) /\ 1 < im).
  { rewrite <- iter_shift, draw_first. destruct (draws_later fps k n Hk 2 0 1 (hold fps 1) 0) as (im & s & E & Hi); [lia|unfold waiting; lia|].
    exists im, s. rewrite E. split; [|exact Hi]. f_equal. lia. }
  destruct E as (im & s & -> & Hi). unfold set_flag, draw. cbn [v_image v_draws v_skipped v_flag v_frames]. cbv zeta.
  destruct (Z.eqb_spec im 1); [lia|]. cbn [v_frames]. rewrite !rev_app_distr, rev_involutive. unfold hold.
  assert (Rr : forall a m, rev (repeat a m) = @repeat nat a m).
  { intros a m. induction m as [|m IH]; [reflexivity|]. cbn [repeat rev]. rewrite IH. clear. induction m as [|m IH]; [reflexivity|]. cbn [repeat app]. f_equal. exact IH. }
  rewrite !Rr, <- app_assoc. do 3 f_equal. f_equal. lia.
Qed.

Lemma every_one l : every 1 0 l = l.
Proof. induction l as [|a l IH]; [reflexivity|]. cbn [every]. f_equal. exact IH. Qed.
Lemma every_length k : (0 < k)%nat -> forall l wt, (wt < k)%nat -> (length (every k wt l) = (length l + (k - 1) - wt) / k)%nat.
Proof.
  intros Hk. induction l as [|a l IH]; intros wt Hw; cbn [every length].
  - symmetry. apply Nat.div_small. lia.
  - destruct wt as [|wt].
    + cbn [length]. rewrite IH by lia. replace (Datatypes.S (length l) + (k - 1) - 0)%nat with (length l + 1 * k)%nat by lia. rewrite Nat.div_add by lia.
      replace (length l + (k - 1) - (k - 1))%nat with (length l) by lia. lia.
    + rewrite IH by lia. f_equal; lia.
Qed.
(** The number of frames. *)
Theorem C73_count : forall fps k n, 0 <= k ->
  length (record fps k n) = (8 * fps + (n + (Z.to_nat (Z.max 1 k) - 1)) / Z.to_nat (Z.max 1 k))%nat.
Proof.
  intros fps k n Hk. rewrite C73_frames by exact Hk. unfold hold. rewrite !app_length, !repeat_length, every_length by lia. rewrite seq_length, Nat.sub_0_r. lia.
Qed.
(** The picture says (k+1)x: a video announced as twice as fast is as long as the normal
    one, and one announced as three times as fast is twice as fast. *)
Theorem C73_speed_refuted : forall fps n, record fps 1 n = record fps 0 n /\
  length (record fps 2 n) = (8 * fps + (n + 1) / 2)%nat.
Proof. intros fps n. split; [rewrite !C73_frames by lia; reflexivity|rewrite C73_count by lia; reflexivity]. Qed.

(** ** Not vacuous *)
Definition pic_ex : canvas := Canvas 16 24 (fun _ _ => (127, 127, 127)).
Definition map_ex : option gridmap := setValue (gm_new 3 2) 1 0 255.
Example C72_example : picture 8 3 2 pic_ex /\ thick_ok outline /\
  match map_ex with
  | Some m => gm_wf m /\ (forall x y, 0 <= x < 3 -> 0 <= y < 2 -> cell_colour (1, 2, 3) m (fun x y => (-1)%R) 0 1 x y <> None)
  | None => False end.
Proof.
  split; [unfold picture, pic_ex; cbn [cv_rows cv_cols]; lia|]. split.
  - intros x1 y1 x2 y2 c r H. exists c, r. split; [exact H|]. rewrite !Z.sub_diag. lia.
  - assert (Hw : gm_wf (gm_new 3 2)) by (apply gm_new_wf; lia). unfold map_ex. destruct (setValue (gm_new 3 2) 1 0 255) as [m|] eqn:E; [|vm_compute in E; discriminate].
    assert (Hm : gm_wf m). { vm_compute in E. injection E as <-. vm_compute. repeat split; discriminate || reflexivity. }
    split; [exact Hm|]. intros x y Hx Hy. assert (isInMap m x y = true) as Hi.
    { apply isInMap_spec; [exact Hm|]. vm_compute in E. injection E as <-. unfold cell_of. cbn [gm_w gm_h]. lia. }
    destruct (free_def m x y Hm Hi) as [b Hb]. destruct (C72_colours m (fun _ _ => (-1)%R) 0 1 (1, 2, 3) x y b Hb) as (v & -> & _). discriminate.
Qed.
(** Estimates 0, 1, 2 along a row of free cells; the search from the left cell. *)
Example C72_focus_example :
  (forall e, estimate (gm_new 3 1) (fun x _ => Some (IZR x)) e -> 0 <= e < dbl_max)%R /\
  (exists e1 e2, estimate (gm_new 3 1) (fun x _ => Some (IZR x)) e1 /\ estimate (gm_new 3 1) (fun x _ => Some (IZR x)) e2 /\ e1 < e2 /\ dbl_min <= e2)%R.
Proof.
  assert (Hw : gm_wf (gm_new 3 1)) by (apply gm_new_wf; lia). split.
  - intros e (x & y & Hi & _ & E). apply isInMap_spec in Hi; [|exact Hw]. injection E as <-. destruct Hi as [Hx _]. cbn [gm_w gm_new] in Hx.
    split; [apply IZR_le; lia|]. unfold dbl_max. apply IZR_lt. assert (4 < 2 ^ 1024 - 2 ^ 971) by (vm_compute; reflexivity). lia.
  - exists 0%R, 2%R. split; [exists 0, 0; repeat split; vm_compute; reflexivity|]. split; [exists 2, 0; repeat split; vm_compute; reflexivity|]. split; [lra|].
    unfold dbl_min. apply Rle_trans with 1%R; [|lra]. rewrite <- Rinv_1. apply Rinv_le; [lra|]. apply IZR_le. vm_compute. discriminate.
Qed.
