(** C49: the sampling planner returns the cheapest goal's path. *)
From Coq Require Import Reals Lra.
From Verif Require Import Base GeomR PropGeom GridGeom RSParse RSModel PropRSArc PropRSRing PropRSFind SamplingModel PropSampling.
Local Open Scope R_scope.

(** ** Specification *)
(** The curve the generator finds to a goal of the region, in cell coordinates; the
    goal lies in the map and the curve is usable. *)
Definition candidate (clamp : R -> R) (c : planner) (cs : list (list seg)) (start goal : pose) (sq : list seg) (w : R) : Prop :=
  s_isInMap (pc_geo c) (Pt (po_x goal) (po_y goal)) = true /\
  result (find_path clamp (pc_map c) (pc_par c) false (pos2map (pc_geo c) start) (pos2map (pc_geo c) goal) (pc_maxarc c) cs) = Some (Some sq, w) /\
  1 / 1000 <= w < 999999.

Theorem C49_valid_curve : forall w, is_valid w = true <-> 1 / 1000 <= w < 999999.
Proof. intros w. unfold is_valid, NOT_FREE. destruct (Rlt_dec w (1 / 1000)); [split; [discriminate|lra]|]. rewrite Rltb_spec. lra. Qed.

(** ** Proofs *)
Lemma find_keeps clamp m p ignore start goal maxarc cs cs' b w :
  find_path clamp m p ignore start goal maxarc cs = Some (cs', b, w) -> map (map pattern) cs' = map (map pattern) cs.
Proof.
  assert (L : forall cs best bw cs' b w, find_loop clamp m p ignore start goal maxarc cs best bw = Some (cs', b, w) -> map (map pattern) cs' = map (map pattern) cs).
  { clear. induction cs as [|c cs IH]; intros best bw cs' b w; cbn [find_loop].
    - intros E. injection E as <- <- <-. reflexivity.
    - destruct (admissible clamp m p ignore start goal c) as [[c' w']|] eqn:A; [|discriminate]. cbn [obind fst snd].
      destruct (if Rltb w' bw then _ else _) as [u|]; [|discriminate]. cbn [obind].
      destruct (find_loop clamp m p ignore start goal maxarc cs (fst u) (snd u)) as [[[cs1 b1] w1]|] eqn:F; [|discriminate]. cbn [obind fst snd].
      intros E. injection E as <- <- <-. cbn [map]. f_equal; [eapply C38_keeps_patterns; exact A|eapply IH; exact F]. }
  unfold find_path. destruct cs as [|c cs]; [discriminate|]. apply L.
Qed.

Definition heap_ok (h : heap) : Prop := forall x, In x (hp_live h) -> (x < hp_next h)%nat.

(** ** The theorem *)
(** Suppose the region delivers the goals [l] and none of the searches is undefined.
    Then the planner terminates. It returns nothing exactly if no goal in the map has a
    usable curve with gain * weight below 999999. Otherwise it returns the curve of the
    first goal with least gain * weight. All other curves have been released, each
    exactly once; the returned one is new and still there. *)
Theorem C49_best : forall St (rg : region St) clamp c st cs h start samples l,
  s_isInMap (pc_geo c) (Pt (po_x start) (po_y start)) = true -> offers rg (rg_init rg st (u32 samples)) 1 l -> heap_ok h ->
  (forall o, In o l -> s_isInMap (pc_geo c) (Pt (po_x (fst o)) (po_y (fst o))) = true ->
     find_path clamp (pc_map c) (pc_par c) false (pos2map (pc_geo c) start) (pos2map (pc_geo c) (fst o)) (pc_maxarc c) cs <> None) ->
  exists res h', (forall fuel, (length l < fuel)%nat -> createPath rg clamp c fuel st cs h start samples = Some (Some (res, h'))) /\ heap_ok h' /\
  match res with
  | None => hp_live h' = hp_live h /\ forall o sq w, In o l -> candidate clamp c cs start (fst o) sq w -> 999999 <= snd o * w
  | Some b => ~ In (hc_id b) (hp_live h) /\ hp_live h' = hc_id b :: hp_live h /\ exists i o, nth_error l i = Some o /\
      candidate clamp c cs start (fst o) (hc_sq b) (hc_w b) /\ snd o * hc_w b < 999999 /\
      forall j o' sq' w', nth_error l j = Some o' -> candidate clamp c cs start (fst o') sq' w' ->
        snd o * hc_w b <= snd o' * w' /\ ((j < i)%nat -> snd o * hc_w b < snd o' * w')
  end.
Proof.
  intros St rg clamp c st cs0 h0 start samples l Hin Hoff Hok Hdef.
  assert (RUN : forall st g l, offers rg st g l ->
    (forall o, In o l -> s_isInMap (pc_geo c) (Pt (po_x (fst o)) (po_y (fst o))) = true ->
     find_path clamp (pc_map c) (pc_par c) false (pos2map (pc_geo c) start) (pos2map (pc_geo c) (fst o)) (pc_maxarc c) cs0 <> None) ->
    forall cs h best mc, map (map pattern) cs = map (map pattern) cs0 -> heap_ok h ->
      hp_live h = match best with Some b => [hc_id b] | None => [] end ++ hp_live h0 ->
      match best with Some b => ~ In (hc_id b) (hp_live h0) | None => True end -> (hp_next h0 <= hp_next h)%nat ->
    exists res h', (forall fuel, (length l < fuel)%nat -> cp_loop rg clamp c (pos2map (pc_geo c) start) fuel st cs h g best mc = Some (Some (res, h'))) /\ heap_ok h' /\
      hp_live h' = match res with Some b => [hc_id b] | None => [] end ++ hp_live h0 /\
      match res with Some b => ~ In (hc_id b) (hp_live h0) | None => True end /\
      ((res = best /\ forall o sq w, In o l -> candidate clamp c cs0 start (fst o) sq w -> mc <= snd o * w) \/
       exists b i o, res = Some b /\ nth_error l i = Some o /\ candidate clamp c cs0 start (fst o) (hc_sq b) (hc_w b) /\ snd o * hc_w b < mc /\
         forall j o' sq' w', nth_error l j = Some o' -> candidate clamp c cs0 start (fst o') sq' w' ->
           snd o * hc_w b <= snd o' * w' /\ ((j < i)%nat -> snd o * hc_w b < snd o' * w'))).
  { clear Hoff Hdef. intros st1 g l1 H. induction H as [st1 g st' E|st1 g st' p g' l1 E H IH]; intros Hdef cs h best mc Hcs Hh Hl Hb Hnx.
    - exists best, h. split; [|split; [exact Hh|split; [exact Hl|split; [exact Hb|left; split; [reflexivity|intros o sq w []]]]]].
      intros [|fuel] Hf; [cbn in Hf; lia|]. cbn [cp_loop]. rewrite E. reflexivity.
    - assert (Hdef' := fun o Ho => Hdef o (or_intror Ho)). specialize (IH Hdef').
      (* the first goal of the list brings nothing new *)
      assert (SKIP : forall cs' h', map (map pattern) cs' = map (map pattern) cs0 -> heap_ok h' -> hp_live h' = hp_live h -> (hp_next h0 <= hp_next h')%nat ->
        (forall sq w, candidate clamp c cs0 start p sq w -> mc <= g' * w) ->
        (forall fuel, cp_loop rg clamp c (pos2map (pc_geo c) start) (S fuel) st1 cs h g best mc = cp_loop rg clamp c (pos2map (pc_geo c) start) fuel st' cs' h' g' best mc) ->
        exists res h', (forall fuel, (length ((p, g') :: l1) < fuel)%nat -> cp_loop rg clamp c (pos2map (pc_geo c) start) fuel st1 cs h g best mc = Some (Some (res, h'))) /\ heap_ok h' /\
          hp_live h' = match res with Some b => [hc_id b] | None => [] end ++ hp_live h0 /\
          match res with Some b => ~ In (hc_id b) (hp_live h0) | None => True end /\
          ((res = best /\ forall o sq w, In o ((p, g') :: l1) -> candidate clamp c cs0 start (fst o) sq w -> mc <= snd o * w) \/
           exists b i o, res = Some b /\ nth_error ((p, g') :: l1) i = Some o /\ candidate clamp c cs0 start (fst o) (hc_sq b) (hc_w b) /\ snd o * hc_w b < mc /\
             forall j o' sq' w', nth_error ((p, g') :: l1) j = Some o' -> candidate clamp c cs0 start (fst o') sq' w' ->
               snd o * hc_w b <= snd o' * w' /\ ((j < i)%nat -> snd o * hc_w b < snd o' * w'))).
      { intros cs' h' A1 A2 A3 A4 A5 A6. destruct (IH cs' h' best mc A1 A2 ltac:(congruence) Hb A4) as (res & h2 & B1 & B2 & B3 & B4 & B5).
        exists res, h2. split; [|split; [exact B2|split; [exact B3|split; [exact B4|]]]].
        { intros [|fuel] Hf; [cbn in Hf; lia|]. rewrite A6. apply B1. cbn in Hf. lia. }
        destruct B5 as [[-> B5]|(b & i & o & -> & B6 & B7 & B8 & B9)]; [left|right].
        - split; [reflexivity|]. intros o sq w [<-|Ho]; [apply A5|apply B5; exact Ho].
        - exists b, (S i), o. split; [reflexivity|]. split; [exact B6|]. split; [exact B7|]. split; [exact B8|].
          intros [|j] o' sq' w' Ho Hc; cbn in Ho; [injection Ho as <-; specialize (A5 _ _ Hc); cbn [snd] in *; lra|]. destruct (B9 j o' sq' w' Ho Hc) as [C1 C2]. split; [exact C1|]. intros; apply C2; lia. }
      destruct (s_isInMap (pc_geo c) (pose_pt p)) eqn:M.
      2: { apply (SKIP cs h Hcs Hh eq_refl Hnx); [intros sq w [X _]; unfold pose_pt in M; cbn [fst] in X; congruence|]. intros fuel. cbn [cp_loop]. rewrite E. cbn [obind fst snd]. rewrite M. reflexivity. }
      pose proof (C38_stateless clamp (pc_map c) (pc_par c) false (pos2map (pc_geo c) start) (pos2map (pc_geo c) p) (pc_maxarc c) cs cs0 Hcs) as RS.
      assert (FD := Hdef (p, g') (or_introl eq_refl) M). cbn [fst] in FD.
      destruct (find_path clamp (pc_map c) (pc_par c) false (pos2map (pc_geo c) start) (pos2map (pc_geo c) p) (pc_maxarc c) cs) as [[[cs1 b1] w1]|] eqn:F.
      2: { exfalso. apply FD. destruct (find_path clamp (pc_map c) (pc_par c) false (pos2map (pc_geo c) start) (pos2map (pc_geo c) p) (pc_maxarc c) cs0) as [[[x y] z]|]; [discriminate RS|reflexivity]. }
      pose proof (find_keeps _ _ _ _ _ _ _ _ _ _ _ F) as K. rewrite Hcs in K. cbn [result] in RS. symmetry in RS.
      destruct b1 as [sq1|].
      2: { apply (SKIP cs1 h K Hh eq_refl Hnx); [intros sq w (_ & X & _); rewrite RS in X; discriminate|]. intros fuel. cbn [cp_loop]. rewrite E. cbn [obind fst snd]. rewrite M. cbn [negb]. rewrite F. cbn [obind fst snd halloc]. reflexivity. }
      set (h1 := HP (hp_next h :: hp_live h) (S (hp_next h))). set (cv := HC (hp_next h) sq1 w1).
      assert (H1ok : heap_ok h1). { intros x [<-|X]; cbn; [lia|]. specialize (Hh x X). lia. }
      assert (FR : ~ In (hp_next h) (hp_live h)). { intros X. specialize (Hh _ X). lia. }
      assert (DEL : exists h2, hdelete h1 cv = Some h2 /\ heap_ok h2 /\ hp_live h2 = hp_live h /\ hp_next h2 = S (hp_next h)).
      { unfold hdelete. cbn [cv hc_id h1 hp_live hp_next]. destruct (in_dec _ _ _) as [_|N]; [|exfalso; apply N; left; reflexivity]. eexists. split; [reflexivity|]. cbn [hp_live hp_next remove].
        destruct (Nat.eq_dec (hp_next h) (hp_next h)); [|congruence]. rewrite notin_remove by exact FR. split; [|auto]. intros x X. cbn in *. specialize (Hh x X). lia. }
      destruct DEL as (h2 & D1 & D2 & D3 & D4).
      assert (STEP : forall fuel, cp_loop rg clamp c (pos2map (pc_geo c) start) (S fuel) st1 cs h g best mc =
        if is_valid w1 then if Rltb (g' * w1) mc then
            x <- match best with Some b => hdelete h1 b | None => Some h1 end ;; cp_loop rg clamp c (pos2map (pc_geo c) start) fuel st' cs1 x g' (Some cv) (g' * w1)
          else cp_loop rg clamp c (pos2map (pc_geo c) start) fuel st' cs1 h2 g' best mc
        else cp_loop rg clamp c (pos2map (pc_geo c) start) fuel st' cs1 h2 g' best mc).
      { intros fuel. cbn [cp_loop]. rewrite E. cbn [obind fst snd]. rewrite M. cbn [negb]. rewrite F. cbn [obind fst snd halloc]. fold h1 cv. change (hc_w cv) with w1. rewrite D1. reflexivity. }
      destruct (is_valid w1) eqn:V.
      2: { apply (SKIP cs1 h2 K D2 D3 ltac:(lia)); [|exact STEP]. intros sq w (_ & X & Y). rewrite RS in X. injection X as <- <-. apply C49_valid_curve in Y. congruence. }
      apply C49_valid_curve in V.
      destruct (Rltb (g' * w1) mc) eqn:Q.
      2: { apply (SKIP cs1 h2 K D2 D3 ltac:(lia)); [|exact STEP]. intros sq w (_ & X & _). rewrite RS in X. injection X as <- <-. apply Rltb_false. exact Q. }
      apply Rltb_spec in Q.
      assert (CC : candidate clamp c cs0 start p sq1 w1) by (split; [exact M|split; [exact RS|exact V]]).
      assert (DB : exists h3, match best with Some b => hdelete h1 b | None => Some h1 end = Some h3 /\ heap_ok h3 /\ hp_live h3 = hp_next h :: hp_live h0 /\ (hp_next h0 <= hp_next h3)%nat).
      { destruct best as [b|].
        - assert (Bl : In (hc_id b) (hp_live h)) by (rewrite Hl; left; reflexivity). assert (Bn := Hh _ Bl).
          unfold hdelete. cbn [h1 hp_live hp_next]. destruct (in_dec _ _ _) as [_|N]; [|exfalso; apply N; right; exact Bl]. eexists. split; [reflexivity|].
          assert (RL : remove Nat.eq_dec (hc_id b) (hp_next h :: hp_live h) = hp_next h :: hp_live h0).
          { cbn [remove]. destruct (Nat.eq_dec (hc_id b) (hp_next h)); [lia|]. f_equal. rewrite Hl. cbn [app remove]. destruct (Nat.eq_dec (hc_id b) (hc_id b)); [|congruence]. apply notin_remove. exact Hb. }
          rewrite RL. cbn [hp_live hp_next]. split; [|split; [reflexivity|lia]]. intros x [<-|X]; cbn; [lia|]. specialize (Hok x X). lia.
        - exists h1. split; [reflexivity|]. split; [exact H1ok|]. cbn [h1 hp_live hp_next]. rewrite Hl. split; [reflexivity|lia]. }
      destruct DB as (h3 & B1 & B2 & B3 & B4).
      assert (NEW : ~ In (hc_id cv) (hp_live h0)). { cbn. intros X. specialize (Hok _ X). lia. }
      destruct (IH cs1 h3 (Some cv) (g' * w1) K B2 B3 NEW B4) as (res & h4 & R1 & R2 & R3 & R4 & R5).
      exists res, h4. split; [|split; [exact R2|split; [exact R3|split; [exact R4|right]]]].
      { intros [|fuel] Hf; [cbn in Hf; lia|]. rewrite STEP, B1. cbn [obind]. apply R1. cbn in Hf. lia. }
      destruct R5 as [[-> R5]|(b & i & o & -> & R6 & R7 & R8 & R9)].
      + exists cv, 0%nat, (p, g'). split; [reflexivity|]. split; [reflexivity|]. split; [exact CC|]. split; [exact Q|].
        intros [|j] o' sq' w' Ho Hc; cbn in Ho.
        * injection Ho as <-. destruct Hc as (_ & X & _). cbn [fst snd] in *. rewrite RS in X. injection X as <- <-. cbn [cv hc_w]. split; [lra|lia].
        * apply nth_error_In in Ho. split; [apply (R5 _ _ _ Ho Hc)|lia].
      + exists b, (S i), o. split; [reflexivity|]. split; [exact R6|]. split; [exact R7|]. split; [lra|].
        intros [|j] o' sq' w' Ho Hc; cbn in Ho.
        * injection Ho as <-. destruct Hc as (_ & X & _). cbn [fst snd] in *. rewrite RS in X. injection X as <- <-. split; lra.
        * destruct (R9 j o' sq' w' Ho Hc) as [C1 C2]. split; [exact C1|]. intros; apply C2; lia. }
  destruct (RUN _ _ _ Hoff Hdef cs0 h0 None 999999 eq_refl Hok eq_refl I ltac:(lia)) as (res & h' & A1 & A2 & A3 & A4 & A5).
  exists res, h'. split; [|split; [exact A2|]].
  { intros fuel Hf. unfold createPath, pose_pt. rewrite Hin. apply A1. exact Hf. }
  destruct A5 as [[-> A5]|(b & i & o & -> & A6 & A7 & A8 & A9)].
  - split; [exact A3|exact A5].
  - split; [exact A4|]. split; [exact A3|]. exists i, o. auto.
Qed.

(** A start outside the map: nothing is done. *)
Theorem C49_outside : forall St (rg : region St) clamp c fuel st cs h start samples, s_isInMap (pc_geo c) (Pt (po_x start) (po_y start)) = false ->
  createPath rg clamp c fuel st cs h start samples = Some (Some (None, h)).
Proof. intros. unfold createPath, pose_pt. rewrite H. reflexivity. Qed.

(** ** Examples *)
Definition ex_plan : planner := PlanCfg (Geo 40 40 1 (Pt 0 0) 0) (free_rmap 40 40) ex_par (Some 1).
Definition ex_list (g : R) : plst := pl_new (Some ([Pose 20 10 0; Pose 50 10 0], [g; g], true)).
Lemma ex_find : exists sq cs', find_path clamp_ref (pc_map ex_plan) (pc_par ex_plan) false (pos2map (pc_geo ex_plan) (Pose 10 10 0)) (pos2map (pc_geo ex_plan) (Pose 20 10 0)) (pc_maxarc ex_plan) [ex_seg] = Some (cs', Some sq, 10).
Proof.
  destruct (ex_curve false) as (sq & A & V).
  assert (P : forall x, pos2map (pc_geo ex_plan) (Pose x 10 0) = Pose x 10 0) by (intros x; unfold pos2map; cbn; f_equal; lra).
  rewrite !P. exists sq, [sq]. unfold find_path. cbn [find_loop pc_map pc_par pc_maxarc ex_plan]. rewrite A. cbn [obind fst snd].
  destruct V as [V1 V2]. cbn [fst snd] in *. rewrite turning_ok in V2.
  assert (Rltb 10 NOT_FREE = true) as -> by (apply Rltb_spec; exact V1). assert (Rltb (curve_arc clamp_ref sq) 1 = true) as -> by (apply Rltb_spec; exact V2). reflexivity.
Qed.
Lemma ex_inmap x : 0 <= x < 40 -> s_isInMap (pc_geo ex_plan) (pose_pt (Pose x 10 0)) = true.
Proof. intros H. unfold s_isInMap. cbn. apply andb_true_intro. split; apply Rltb_spec; lra. Qed.
Lemma ex_outmap : s_isInMap (pc_geo ex_plan) (pose_pt (Pose 50 10 0)) = false.
Proof. unfold s_isInMap. cbn. apply andb_false_iff. left. apply Rltb_false. lra. Qed.
(** A list of two poses, the second one outside the map: the path of the first. *)
Lemma ex_plan_run gain : exists sq, forall fuel, (2 < fuel)%nat ->
  createPath poselist_region clamp_ref ex_plan fuel (ex_list gain) [ex_seg] (HP [] 0) (Pose 10 10 0) 5 =
  if Rlt_dec (gain * 10) 999999 then Some (Some (Some (HC 0 sq 10), HP [0%nat] 1)) else Some (Some (None, HP [] 1)).
Proof.
  destruct ex_find as (sq & cs' & F). exists sq. intros [|[|[|fuel]]] Hf; try lia.
  unfold createPath. rewrite ex_inmap by lra. cbn [negb].
  cbn [poselist_region rg_init rg_next ex_list pl_new pl_init pl_poses pl_next cp_loop pl_use pl_counter nth_error obind length Nat.eqb andb fst snd].
  rewrite ex_inmap by lra. cbn [negb]. rewrite F. cbn [obind fst snd halloc hp_next hp_live hc_w].
  assert (is_valid 10 = true) as -> by (apply C49_valid_curve; lra). rewrite ex_outmap. cbn [negb].
  destruct (Rlt_dec (gain * 10) 999999) as [L|L].
  - assert (Rltb (gain * 10) 999999 = true) as -> by (apply Rltb_spec; exact L). reflexivity.
  - assert (Rltb (gain * 10) 999999 = false) as -> by (apply Rltb_false; lra). reflexivity.
Qed.
Example C49_case : exists sq, forall fuel, (2 < fuel)%nat ->
  createPath poselist_region clamp_ref ex_plan fuel (ex_list 2) [ex_seg] (HP [] 0) (Pose 10 10 0) 5 = Some (Some (Some (HC 0 sq 10), HP [0%nat] 1)).
Proof. destruct (ex_plan_run 2) as [sq H]. exists sq. intros fuel Hf. rewrite H by exact Hf. destruct (Rlt_dec _ _); [reflexivity|lra]. Qed.
(** "A path iff some goal is reachable" fails: a large gain hides a reachable goal. *)
Theorem C49_expensive_refuted : exists gain sq, candidate clamp_ref ex_plan [ex_seg] (Pose 10 10 0) (Pose 20 10 0) sq 10 /\
  forall fuel, (2 < fuel)%nat -> createPath poselist_region clamp_ref ex_plan fuel (ex_list gain) [ex_seg] (HP [] 0) (Pose 10 10 0) 5 = Some (Some (None, HP [] 1)).
Proof.
  destruct ex_find as (sq & cs' & F). exists 100000, sq. split; [split; [apply ex_inmap; lra|split; [rewrite F; reflexivity|lra]]|].
  destruct (ex_plan_run 100000) as [sq2 H]. intros fuel Hf. rewrite H by exact Hf. destruct (Rlt_dec _ _); [lra|reflexivity].
Qed.
