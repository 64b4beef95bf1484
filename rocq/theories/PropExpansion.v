(** C66: analytic expansion with Reeds-Shepp curves - when it is tried, and what a
    success means. *)
From Coq Require Import Reals Lra Ascii String.
From Flocq Require Import Core.Raux.
From Verif Require Import Base GeomR PropGeom PropLine RSParse RSModel PropRSArc PropRSRing PropRSLine PropRSFind PropRSIter PropRSDrive ExpansionModel.
Local Open Scope R_scope.

(** ** Specification of the schedule *)
(** A call that counts: the direction of the node is one the expansion is made for. *)
Definition counts (expf expb : bool) (a : xnode) : Prop := (if xn_fwd a then expf else expb) = true.
Definition countsb (expf expb : bool) (a : xnode) : bool := if xn_fwd a then expf else expb.
(** A history: the calls (map, node, goal) with (attempt made, answer), oldest first. *)
Definition history := list ((rmap * xnode * pose) * (bool * bool)).
Definition h_node (e : (rmap * xnode * pose) * (bool * bool)) : xnode := snd (fst (fst e)).
Definition tried (e : (rmap * xnode * pose) * (bool * bool)) : Prop := fst (snd e) = true.
(** The calls that count, and their heuristic values. *)
Definition counted (expf expb : bool) (h : history) : history := filter (fun e => countsb expf expb (h_node e)) h.
Definition values (expf expb : bool) (h : history) : list R := map (fun e => xn_h (h_node e)) (counted expf expb h).
Definition least (hs : list R) (m : R) : Prop := In m hs /\ forall x, In x hs -> m <= x.
(** The number of calls between two attempts: N, scaled by the least heuristic value
    seen so far relative to the first one. *)
Definition pause (N : Z) (hs : list R) (n : Z) : Prop :=
  exists first rest m, hs = first :: rest /\ least hs m /\ ((m < first /\ n = Ztrunc (IZR N * (m / first))) \/ (m = first /\ n = N)).
(** When an attempt is due. *)
Definition due (N : Z) (expf expb : bool) (h : history) (a : xnode) : Prop :=
  counts expf expb a /\ values expf expb h <> [] /\
  ((forall e, In e h -> ~ tried e) \/
   exists before last after n, h = before ++ last :: after /\ tried last /\ (forall e, In e after -> ~ tried e) /\
     pause N (values expf expb h ++ [xn_h a]) n /\ (n <= Z.of_nat (S (length (counted expf expb after))))%Z).

(** ** Proof *)
Lemma countsb_spec expf expb a : countsb expf expb a = true <-> counts expf expb a.
Proof. reflexivity. Qed.
Lemma counted_app expf expb h1 h2 : counted expf expb (h1 ++ h2) = counted expf expb h1 ++ counted expf expb h2.
Proof. apply filter_app. Qed.
Lemma values_app expf expb h1 h2 : values expf expb (h1 ++ h2) = values expf expb h1 ++ values expf expb h2.
Proof. unfold values. rewrite counted_app, map_app. reflexivity. Qed.
Lemma values_one expf expb e : values expf expb [e] = if countsb expf expb (h_node e) then [xn_h (h_node e)] else [].
Proof. unfold values, counted. cbn [filter]. destruct (countsb _ _ _); reflexivity. Qed.

Definition patterns4 (cs : list (list seg)) (expf : bool) : Prop := map (map pattern) cs = if expf then
  [[PCirc LeftC Forward; PLine Forward; PCirc LeftC Forward]; [PCirc LeftC Forward; PLine Forward; PCirc RightC Forward];
   [PCirc RightC Forward; PLine Forward; PCirc LeftC Forward]; [PCirc RightC Forward; PLine Forward; PCirc RightC Forward]] else [].

Record inv (N : Z) (expf expb : bool) (h : history) (s : xstate) : Prop := {
  i_pat : patterns4 (x_curves s) expf;
  i_none : values expf expb h = [] -> x_initial s = -1 /\ x_n s = N /\ x_cur s = N /\ (forall e, In e h -> ~ tried e);
  i_some : forall f r, values expf expb h = f :: r -> x_initial s = f /\ exists m, x_min s = Some m /\ least (f :: r) m /\
    ((m < f /\ x_n s = Ztrunc (IZR N * (m / f))) \/ (m = f /\ x_n s = N)) /\ (0 <= x_n s <= N)%Z /\
    (((forall e, In e h -> ~ tried e) /\ r = [] /\ x_cur s = (N + 1)%Z) \/
     exists before last after, h = before ++ last :: after /\ tried last /\ (forall e, In e after -> ~ tried e) /\
       x_cur s = Z.of_nat (length (counted expf expb after)) /\ (x_cur s = 0%Z \/ (x_cur s < x_n s)%Z)) }.

Lemma new_inv N expf expb s0 : x_new N expf = Some s0 -> inv N expf expb [] s0.
Proof.
  intros H. unfold x_new in H. destruct expf; vm_compute parse_all in H; cbn [obind] in H; injection H as <-; (constructor; [reflexivity|intros _; repeat split; intros ? []|intros f r X; discriminate]).
Qed.

Lemma least_snoc hs m h : least hs m -> least (hs ++ [h]) (if Rltb h m then h else m).
Proof.
  intros [L1 L2]. destruct (Rltb h m) eqn:Q; [apply Rltb_spec in Q|apply Rltb_false in Q]; split.
  - apply in_or_app. right. left. reflexivity.
  - intros x X. apply in_app_or in X. destruct X as [X|[<-|[]]]; [specialize (L2 x X); lra|lra].
  - apply in_or_app. left. exact L1.
  - intros x X. apply in_app_or in X. destruct X as [X|[<-|[]]]; [apply L2, X|lra].
Qed.
Lemma least_one h : least [h] h.
Proof. split; [left; reflexivity|]. intros x [<-|[]]. lra. Qed.
Lemma least_unique hs a b : least hs a -> least hs b -> a = b.
Proof. intros [A1 A2] [B1 B2]. specialize (A2 b B1). specialize (B2 a A1). lra. Qed.

Lemma pause_cast N c f : (0 <= N <= 2147483645)%Z -> 0 <= c < f -> cast_i32 (IZR N * (c / f)) = Some (Ztrunc (IZR N * (c / f))) /\ (0 <= Ztrunc (IZR N * (c / f)) <= N)%Z.
Proof.
  intros HN H. assert (N0 : 0 <= IZR N) by (apply IZR_le; lia).
  assert (Q : 0 <= c / f <= 1) by (split; [apply Rmult_le_pos; [lra|left; apply Rinv_0_lt_compat; lra]|apply (Rmult_le_reg_r f); [lra|]; unfold Rdiv; rewrite Rmult_assoc, Rinv_l by lra; lra]).
  assert (B : 0 <= IZR N * (c / f) <= IZR N) by (split; [apply Rmult_le_pos; lra|rewrite <- (Rmult_1_r (IZR N)) at 2; apply Rmult_le_compat_l; lra]).
  assert (T : (0 <= Ztrunc (IZR N * (c / f)) <= N)%Z) by (rewrite Ztrunc_floor by lra; split; [apply Zfloor_lub; lra|apply le_IZR; pose proof (Zfloor_lb (IZR N * (c / f))); lra]).
  split; [|exact T]. unfold cast_i32, in_i32. cbv zeta. replace ((-2147483648 <=? _)%Z && (_ <? 2147483648)%Z) with true by lia. reflexivity.
Qed.

(** What the gate does in a reachable state. *)
Lemma gate_spec N expf expb h s a : (0 <= N <= 2147483645)%Z -> inv N expf expb h s -> (forall x, In x (values expf expb h) -> 0 <= x) -> 0 <= xn_h a ->
  exists b s', x_gate N expf expb s a = Some (b, s') /\ x_fwd s' = xn_fwd a /\ x_poses s' = x_poses s /\ x_curves s' = x_curves s /\
    (b = true <-> due N expf expb h a) /\
    forall m g res, inv N expf expb (h ++ [((m, a, g), (b, res))]) s'.
Proof.
  intros HN I Hpos Ha. destruct I as [Ip In_ Is].
  assert (EL : (if countsb expf expb a then x_gate N expf expb s a else Some (false, XS (x_initial s) (x_min s) (x_n s) (x_cur s) (xn_fwd a) (x_curves s) (x_poses s))) = x_gate N expf expb s a).
  { unfold countsb, x_gate. destruct (xn_fwd a), expf, expb; reflexivity. }
  rewrite <- EL. clear EL. destruct (countsb expf expb a) eqn:C.
  2: { exists false. eexists. split; [reflexivity|]. split; [reflexivity|]. split; [reflexivity|]. split; [reflexivity|]. split; [split; [discriminate|intros [D _]; unfold counts in D; unfold countsb in C; congruence]|].
    intros m g res. assert (V : values expf expb (h ++ [(m, a, g, (false, res))]) = values expf expb h) by (rewrite values_app, values_one; unfold h_node; cbn [fst snd]; rewrite C; apply app_nil_r).
    constructor; cbn [x_curves x_initial x_n x_cur x_min]; [exact Ip| |]; rewrite V.
    - intros X. destruct (In_ X) as (A1 & A2 & A3 & A4). repeat (split; [assumption|]). intros e E. apply in_app_or in E. destruct E as [E|[<-|[]]]; [apply A4, E|]. unfold tried. cbn. discriminate.
    - intros f r X. destruct (Is f r X) as (B1 & mm & B2 & B3 & B4 & B5 & B6). split; [exact B1|]. exists mm. repeat (split; [assumption|]). destruct B6 as [(B6 & B7 & B8)|(bf & l & af & B6 & B7 & B8 & B9 & B10)]; [left|right].
      + split; [|split; assumption]. intros e E. apply in_app_or in E. destruct E as [E|[<-|[]]]; [apply B6, E|]. unfold tried. cbn. discriminate.
      + exists bf, l, (af ++ [(m, a, g, (false, res))]). split; [rewrite B6, <- app_assoc; reflexivity|]. split; [exact B7|]. split; [intros e E; apply in_app_or in E; destruct E as [E|[<-|[]]]; [apply B8, E|unfold tried; cbn; discriminate]|].
        split; [|exact B10]. rewrite counted_app, app_length. unfold counted at 2. cbn [filter]. unfold h_node. cbn [fst snd]. rewrite C. cbn [length]. rewrite Nat.add_0_r. exact B9. }
  assert (CUR : (-1 <= x_cur s <= N + 1)%Z).
  { destruct (values expf expb h) as [|f r] eqn:V; [destruct (In_ eq_refl) as (_ & _ & A3 & _); lia|]. destruct (Is f r eq_refl) as (_ & mm & _ & _ & _ & B5 & [(_ & _ & B8)|(bf & l & af & _ & _ & _ & B9 & B10)]); lia. }
  unfold x_gate. cbn [x_initial x_min x_n x_cur x_fwd x_curves x_poses].
  assert (negb expf && xn_fwd a = false) as -> by (unfold countsb in C; destruct (xn_fwd a); [rewrite C|]; rewrite ?andb_false_r; reflexivity).
  assert (negb expb && negb (xn_fwd a) = false) as -> by (unfold countsb in C; destruct (xn_fwd a); [rewrite andb_false_r; reflexivity|rewrite C; reflexivity]).
  assert (in_i32 (x_cur s + 1) = true) as -> by (unfold in_i32; lia). cbn [negb].
  destruct (values expf expb h) as [|f r] eqn:V.
  - destruct (In_ eq_refl) as (A1 & A2 & A3 & A4). rewrite A1. assert (Rltb (-1) 0 = true) as -> by (apply Rltb_spec; lra).
    exists false. eexists. split; [reflexivity|]. do 3 (split; [reflexivity|]). split; [split; [discriminate|intros (_ & D & _); rewrite V in D; congruence]|].
    intros m g res. assert (V2 : values expf expb (h ++ [(m, a, g, (false, res))]) = [xn_h a]) by (rewrite values_app, V, values_one; unfold h_node; cbn [fst snd]; rewrite C; reflexivity).
    constructor; cbn [x_curves x_initial x_n x_cur x_min]; [exact Ip|rewrite V2; discriminate|]. rewrite V2. intros f r X. injection X as <- <-. split; [reflexivity|]. exists (xn_h a).
    split; [reflexivity|]. split; [apply least_one|]. split; [right; split; [reflexivity|exact A2]|]. split; [lia|]. left. split; [|split; [reflexivity|lia]].
    intros e E. apply in_app_or in E. destruct E as [E|[<-|[]]]; [apply A4, E|]. unfold tried. cbn. discriminate.
  - destruct (Is f r eq_refl) as (B1 & mm & B2 & B3 & B4 & B5 & B6). rewrite B1. assert (F0 : 0 <= f) by (apply Hpos; left; reflexivity).
    assert (Rltb f 0 = false) as -> by (apply Rltb_false; lra). rewrite B2. cbn [obind].
    assert (MF : 0 <= mm <= f) by (destruct B3 as [M1 M2]; split; [apply Hpos, M1|apply M2; left; reflexivity]).
    set (m' := if Rltb (xn_h a) mm then xn_h a else mm). assert (L' : least ((f :: r) ++ [xn_h a]) m') by (apply least_snoc, B3).
    assert (NN : exists n', (if Rltb (xn_h a) mm then if Req_EM_T f 0 then None else cast_i32 (IZR N * (xn_h a / f)) else Some (x_n s)) = Some n' /\ (0 <= n' <= N)%Z /\
       ((m' < f /\ n' = Ztrunc (IZR N * (m' / f))) \/ (m' = f /\ n' = N))).
    { unfold m'. destruct (Rltb (xn_h a) mm) eqn:Q; [apply Rltb_spec in Q|].
      - destruct (Req_EM_T f 0); [lra|]. destruct (pause_cast N (xn_h a) f HN ltac:(lra)) as [P1 P2]. rewrite P1. eexists. split; [reflexivity|]. split; [exact P2|]. left. split; [lra|reflexivity].
      - exists (x_n s). split; [reflexivity|]. split; [exact B5|]. exact B4. }
    destruct NN as (n' & -> & NB & NC). cbn [obind].
    assert (V2 : forall m g b res, values expf expb (h ++ [(m, a, g, (b, res))]) = (f :: r) ++ [xn_h a]) by (intros; rewrite values_app, V, values_one; unfold h_node; cbn [fst snd]; rewrite C; reflexivity).
    assert (PA : pause N ((f :: r) ++ [xn_h a]) n') by (exists f, (r ++ [xn_h a]), m'; split; [reflexivity|]; split; [exact L'|exact NC]).
    assert (PU : forall n2, pause N ((f :: r) ++ [xn_h a]) n2 -> n2 = n').
    { intros n2 (f2 & r2 & m2 & E2 & L2 & C2). injection E2 as <- _. pose proof (least_unique _ _ _ L2 L') as ->. destruct C2 as [[? ->]|[? ->]]; destruct NC as [[? ->]|[? ->]]; (reflexivity || lra). }
    destruct (Z.ltb_spec (x_cur s + 1) n') as [LT|GE].
    + assert (SPL : exists bf l af, h = bf ++ l :: af /\ tried l /\ (forall e, In e af -> ~ tried e) /\ x_cur s = Z.of_nat (length (counted expf expb af))).
      { destruct B6 as [(_ & _ & B8)|(bf & l & af & B6 & B7 & B8 & B9 & _)]; [lia|]. exists bf, l, af. tauto. }
      destruct SPL as (bf & l & af & S1 & S2 & S3 & S4).
      exists false. eexists. split; [reflexivity|]. do 3 (split; [reflexivity|]). split.
      * split; [discriminate|]. intros (_ & _ & [D|(bf2 & l2 & af2 & n2 & D1 & D2 & D3 & D4 & D5)]); [exfalso; apply (D l); [rewrite S1; apply in_or_app; right; left; reflexivity|exact S2]|].
        rewrite V in D4. apply PU in D4. subst n2. exfalso.
        assert (af2 = af) as ->. { clear - S1 S2 S3 D1 D2 D3. rewrite S1 in D1. clear S1. revert bf2 D1. induction bf as [|x bf IH]; intros [|y bf2] D1; cbn in D1.
          - injection D1 as _ ->. reflexivity.
          - injection D1 as -> ->. exfalso. apply (S3 l2); [apply in_or_app; right; left; reflexivity|exact D2].
          - injection D1 as -> <-. exfalso. apply (D3 l); [apply in_or_app; right; left; reflexivity|exact S2].
          - injection D1 as -> D1. apply (IH bf2 D1). }
        lia.
      * intros m g res. constructor; cbn [x_curves x_initial x_n x_cur x_min]; [exact Ip|rewrite V2; discriminate|]. rewrite V2. intros f2 r2 X. injection X as <- <-. split; [reflexivity|]. exists m'.
        split; [reflexivity|]. split; [exact L'|]. split; [exact NC|]. split; [exact NB|]. right. exists bf, l, (af ++ [(m, a, g, (false, res))]). split; [rewrite S1, <- app_assoc; reflexivity|]. split; [exact S2|].
        split; [intros e E; apply in_app_or in E; destruct E as [E|[<-|[]]]; [apply S3, E|unfold tried; cbn; discriminate]|].
        split; [|right; exact LT]. rewrite counted_app, app_length. unfold counted at 2. cbn [filter]. unfold h_node. cbn [fst snd]. rewrite C. cbn [length]. lia.
    + exists true. eexists. split; [reflexivity|]. do 3 (split; [reflexivity|]). split.
      * split; [|reflexivity]. intros _. split; [apply countsb_spec, C|]. split; [rewrite V; discriminate|]. destruct B6 as [(B6 & _)|(bf & l & af & B6 & B7 & B8 & B9 & _)]; [left; exact B6|right].
        exists bf, l, af, n'. rewrite V. repeat (split; [assumption|]). lia.
      * intros m g res. constructor; cbn [x_curves x_initial x_n x_cur x_min]; [exact Ip|rewrite V2; discriminate|]. rewrite V2. intros f2 r2 X. injection X as <- <-. split; [reflexivity|]. exists m'.
        split; [reflexivity|]. split; [exact L'|]. split; [exact NC|]. split; [exact NB|]. right. exists h, (m, a, g, (true, res)), []. split; [reflexivity|]. split; [reflexivity|]. split; [intros e []|]. split; [reflexivity|]. left. reflexivity.
Qed.

Lemma find_loop_cands clamp m p ignore start goal maxarc : forall cs best bw cs' b w, find_loop clamp m p ignore start goal maxarc cs best bw = Some (cs', b, w) ->
  exists cands, candidates clamp m p ignore start goal cs cands /\ cs' = map fst cands.
Proof.
  induction cs as [|c cs IH]; intros best bw cs' b w H; cbn [find_loop] in H.
  - exists []. split; [constructor|]. cbn [map]; congruence.
  - destruct (admissible clamp m p ignore start goal c) as [r|] eqn:A; [|discriminate]. cbn [obind] in H.
    match type of H with obind ?o _ = _ => destruct o as [[b1 w1]|]; [|discriminate] end. cbn [obind fst snd] in H.
    destruct (find_loop _ _ _ _ _ _ _ cs b1 w1) as [[[cs1 b2] w2]|] eqn:E; [|discriminate]. cbn [obind fst snd] in H.
    destruct (IH _ _ _ _ _ E) as (cands & HC & ->). exists (r :: cands). split; [constructor; assumption|]. cbn [map]. congruence.
Qed.
Lemma cands_patterns clamp m p ignore start goal : forall cs cands, candidates clamp m p ignore start goal cs cands -> map (map pattern) (map fst cands) = map (map pattern) cs.
Proof.
  induction 1 as [|c r cs cands H _ IH]; [reflexivity|]. cbn [map]. rewrite IH. f_equal. destruct r as [sq w]. eapply C38_keeps_patterns, H.
Qed.
Lemma find_patterns clamp m p ignore start goal maxarc cs cs' b w : find_path clamp m p ignore start goal maxarc cs = Some (cs', b, w) -> map (map pattern) cs' = map (map pattern) cs.
Proof.
  intros H. unfold find_path in H. destruct cs as [|c cs]; [discriminate|]. destruct (find_loop_cands _ _ _ _ _ _ _ _ _ _ _ _ _ H) as (cands & HC & ->). eapply cands_patterns, HC.
Qed.
Lemma x_find_keeps clamp m s start goal res s' : x_find clamp m s start goal = Some (res, s') ->
  x_initial s' = x_initial s /\ x_min s' = x_min s /\ x_n s' = x_n s /\ x_cur s' = x_cur s /\ x_fwd s' = x_fwd s /\ map (map pattern) (x_curves s') = map (map pattern) (x_curves s).
Proof.
  intros H. unfold x_find in H. destruct (find_path _ _ _ _ _ _ _ _) as [[[cs b] w]|] eqn:F; [|discriminate]. cbn [obind fst snd] in H. apply find_patterns in F.
  destruct b as [b|]; [destruct (x_walk _ _ b) as [ps|]; [|discriminate]; cbn [obind] in H|]; injection H as _ <-; cbn; repeat split; exact F.
Qed.
Lemma inv_same N expf expb h s s' : inv N expf expb h s -> x_initial s' = x_initial s -> x_min s' = x_min s -> x_n s' = x_n s -> x_cur s' = x_cur s ->
  map (map pattern) (x_curves s') = map (map pattern) (x_curves s) -> inv N expf expb h s'.
Proof.
  intros [A B C] E1 E2 E3 E4 E5. constructor; [unfold patterns4 in *; congruence| |]; rewrite E1, ?E2, E3, E4; assumption.
Qed.
Lemma expand_spec N expf expb clamp m h s a goal att res s' : (0 <= N <= 2147483645)%Z -> inv N expf expb h s -> (forall x, In x (values expf expb h) -> 0 <= x) -> 0 <= xn_h a ->
  x_expand N expf expb clamp m s a goal = Some (att, res, s') ->
  (att = true <-> due N expf expb h a) /\ inv N expf expb (h ++ [((m, a, goal), (att, res))]) s' /\ x_fwd s' = xn_fwd a /\
  (res = true -> att = true /\ xn_fwd a = true /\ exists s1, x_find clamp m s1 (xn_pose a) goal = Some (true, s') /\ patterns4 (x_curves s1) expf) /\
  (att = true -> xn_fwd a = true -> exists s1, x_find clamp m s1 (xn_pose a) goal = Some (res, s') /\ patterns4 (x_curves s1) expf) /\
  (res = false -> xn_fwd a = false -> x_poses s' = x_poses s).
Proof.
  intros HN I Hpos Ha H. destruct (gate_spec N expf expb h s a HN I Hpos Ha) as (b & s1 & G & F & P & Cu & D & I'). unfold x_expand in H. rewrite G in H. cbn [obind fst snd] in H.
  destruct b.
  - rewrite F in H. destruct (xn_fwd a) eqn:FW.
    + destruct (x_find clamp m s1 (xn_pose a) goal) as [[r s2]|] eqn:X; [|discriminate]. cbn [obind fst snd] in H. injection H as <- <- <-.
      destruct (x_find_keeps _ _ _ _ _ _ _ X) as (K1 & K2 & K3 & K4 & K5 & K6). split; [exact D|]. split; [eapply inv_same; [apply I'|assumption..]|]. split; [congruence|].
      assert (PT : patterns4 (x_curves s1) expf) by (unfold patterns4; rewrite Cu; apply (i_pat _ _ _ _ _ I)).
      split; [intros ->; split; [reflexivity|]; split; [reflexivity|]; exists s1; split; assumption|]. split; [intros _ _; exists s1; split; assumption|]. discriminate.
    + injection H as <- <- <-. split; [exact D|]. split; [apply I'|]. split; [exact F|]. split; [discriminate|]. split; [discriminate|]. intros _ _. exact P.
  - injection H as <- <- <-. split; [exact D|]. split; [apply I'|]. split; [exact F|]. split; [discriminate|]. split; [discriminate|]. intros _ _. exact P.
Qed.
(** A history: calls of one instance from its construction on. *)
Definition nonneg (calls : list (rmap * xnode * pose)) : Prop := forall c, In c calls -> 0 <= xn_h (snd (fst c)).
Lemma values_pos expf expb (h : history) : (forall e, In e h -> 0 <= xn_h (h_node e)) -> forall x, In x (values expf expb h) -> 0 <= x.
Proof. intros H x X. unfold values in X. apply in_map_iff in X. destruct X as (e & <- & E). apply filter_In in E. apply H, E. Qed.
Lemma run_inv N expf expb clamp : (0 <= N <= 2147483645)%Z -> forall calls h s rs s', inv N expf expb h s -> (forall e, In e h -> 0 <= xn_h (h_node e)) -> nonneg calls ->
  x_run N expf expb clamp calls s = Some (rs, s') -> length rs = length calls /\ inv N expf expb (h ++ combine calls rs) s' /\ (forall e, In e (h ++ combine calls rs) -> 0 <= xn_h (h_node e)).
Proof.
  intros HN. induction calls as [|[[m a] g] calls IH]; intros h s rs s' I Hh Hc H; cbn [x_run] in H.
  - injection H as <- <-. cbn [combine]. rewrite app_nil_r. split; [reflexivity|]. split; assumption.
  - destruct (x_expand N expf expb clamp m s a g) as [[[att res] s1]|] eqn:E; [|discriminate]. cbn [obind fst snd] in H.
    destruct (x_run N expf expb clamp calls s1) as [[u s2]|] eqn:R; [|discriminate]. cbn [obind fst snd] in H. injection H as <- <-.
    assert (A0 : 0 <= xn_h a) by (apply (Hc (m, a, g)); left; reflexivity).
    destruct (expand_spec N expf expb clamp m h s a g att res s1 HN I (values_pos _ _ _ Hh) A0 E) as (_ & I1 & _).
    destruct (IH (h ++ [((m, a, g), (att, res))]) s1 u s2 I1) as (L & I2 & H2); [|intros c Hc2; apply Hc; right; exact Hc2|exact R|].
    { intros e Ee. apply in_app_or in Ee. destruct Ee as [Ee|[<-|[]]]; [apply Hh, Ee|exact A0]. }
    cbn [length combine]. split; [congruence|]. rewrite <- app_assoc in I2, H2. split; assumption.
Qed.

(** ** The schedule *)
(** In every history of calls (with heuristic values that are not negative) a further
    call that returns makes an attempt exactly if one is due. *)
Theorem C66_schedule : forall N expf expb clamp calls rs s0 s m a goal att res s', (0 <= N <= 2147483645)%Z -> nonneg calls -> 0 <= xn_h a ->
  x_new N expf = Some s0 -> x_run N expf expb clamp calls s0 = Some (rs, s) -> x_expand N expf expb clamp m s a goal = Some (att, res, s') ->
  (att = true <-> due N expf expb (combine calls rs) a) /\ (res = true -> att = true /\ xn_fwd a = true).
Proof.
  intros N expf expb clamp calls rs s0 s m a goal att res s' HN Hc Ha Hn Hr He.
  destruct (run_inv N expf expb clamp HN calls [] s0 rs s (new_inv _ _ _ _ Hn) ltac:(intros e []) Hc Hr) as (_ & I & Hh). cbn [app] in I, Hh.
  destruct (expand_spec N expf expb clamp m _ s a goal att res s' HN I (values_pos _ _ _ Hh) Ha He) as (D & _ & _ & R & _). split; [exact D|]. intros E. destruct (R E) as (R1 & R2 & _). tauto.
Qed.
(** The bookkeeping is always defined: no overflow, no division by zero. *)
Theorem C66_gate_defined : forall N expf expb clamp calls rs s0 s a, (0 <= N <= 2147483645)%Z -> nonneg calls -> 0 <= xn_h a ->
  x_new N expf = Some s0 -> x_run N expf expb clamp calls s0 = Some (rs, s) -> x_gate N expf expb s a <> None.
Proof.
  intros N expf expb clamp calls rs s0 s a HN Hc Ha Hn Hr.
  destruct (run_inv N expf expb clamp HN calls [] s0 rs s (new_inv _ _ _ _ Hn) ltac:(intros e []) Hc Hr) as (_ & I & Hh). cbn [app] in I, Hh.
  destruct (gate_spec N expf expb _ s a HN I (values_pos _ _ _ Hh) Ha) as (b & s1 & G & _). congruence.
Qed.
(** Never starved: after the first call that counts, any N (at least one) consecutive
    calls that count contain an attempt. *)
Theorem C66_regular : forall N expf expb clamp calls window rs rw s0 s, (0 <= N <= 2147483645)%Z -> nonneg (calls ++ window) ->
  x_new N expf = Some s0 -> x_run N expf expb clamp (calls ++ window) s0 = Some (rs ++ rw, s) -> length rs = length calls ->
  values expf expb (combine calls rs) <> [] -> (Z.max 1 N <= Z.of_nat (length (counted expf expb (combine window rw))))%Z ->
  exists e, In e (combine window rw) /\ tried e.
Proof.
  intros N expf expb clamp calls window rs rw s0 s HN Hc Hn Hr Hl Hv Hw.
  destruct (run_inv N expf expb clamp HN (calls ++ window) [] s0 (rs ++ rw) s (new_inv _ _ _ _ Hn) ltac:(intros e []) Hc Hr) as (_ & I & Hh). cbn [app] in I.
  assert (CB : combine (calls ++ window) (rs ++ rw) = combine calls rs ++ combine window rw).
  { clear - Hl. revert rs Hl. induction calls as [|c calls IH]; intros [|r rs] Hl; try discriminate; [reflexivity|]. cbn. f_equal. apply IH. cbn in Hl. lia. }
  rewrite CB in I. set (h1 := combine calls rs) in *. set (h2 := combine window rw) in *. clearbody h1 h2.
  destruct (existsb (fun e => fst (snd e)) h2) eqn:X; [apply existsb_exists in X; destruct X as (e & E1 & E2); exists e; split; assumption|]. exfalso.
  assert (NT : forall e, In e h2 -> ~ tried e). { intros e E T. assert (existsb (fun e => fst (snd e)) h2 = true) by (apply existsb_exists; exists e; split; assumption). congruence. }
  destruct I as [_ _ Is]. rewrite values_app in Is. destruct (values expf expb h1) as [|f r] eqn:V; [congruence|].
  destruct (Is f (r ++ values expf expb h2) eq_refl) as (_ & mm & _ & _ & _ & NB & [(_ & R & _)|(bf & l & af & E & T & NA & CU & LT)]).
  - apply app_eq_nil in R. destruct R as [_ R]. unfold values in R. apply map_eq_nil in R. rewrite R in Hw. cbn in Hw. lia.
  - assert (SUF : exists pre, af = pre ++ h2).
    { clear - E T NT. revert bf E. induction h1 as [|x h1 IH]; intros bf E; cbn [app] in E.
      - exfalso. apply (NT l); [rewrite E; apply in_or_app; right; left; reflexivity|exact T].
      - destruct bf as [|y bf]; cbn in E; [injection E as -> <-; exists h1; reflexivity|injection E as -> E; apply (IH bf E)]. }
    destruct SUF as [pre ->]. rewrite counted_app, app_length in CU. lia.
Qed.

(** ** What a success means *)
Lemma line_length_weight m p l ignore w : rp_use_map p = false -> line_weight m p l ignore = Some w -> w < NOT_FREE -> w = ls_length l * dir_cost p (ls_dir l) * rp_straight p.
Proof.
  intros U H L. unfold line_weight in H.
  destruct (cast_i32 _); [|discriminate]. destruct (cast_i32 _); [|discriminate]. destruct (cast_i32 _); [|discriminate]. destruct (cast_i32 _); [|discriminate]. cbn [obind] in H.
  destruct (_ && _); [injection H as <-; lra|]. cbv zeta in H. destruct (line_loop _ _ _ _ _ _ _ _ _ _ _ _ _ _) as [r|]; [|discriminate]. cbn [obind] in H.
  destruct (_ || _); [|injection H as <-; lra]. rewrite U in H. congruence.
Qed.
Lemma circle_length_weight clamp m p c ignore w : rp_use_map p = false -> circle_weight clamp m p c ignore = Some w -> w < NOT_FREE -> w = cs_length clamp c * dir_cost p (cs_dir c) * rp_curve p.
Proof.
  intros U H L. unfold circle_weight in H.
  destruct (cast_i32 _) as [cx|]; [|discriminate]. destruct (cast_i32 _) as [cy|]; [|discriminate]. destruct (cast_i32 _) as [r|]; [|discriminate]. cbn [obind] in H.
  destruct (check_circle _ _ _ _ _ _ _ _) as [f|]; [|discriminate]. cbn [obind] in H.
  destruct (_ || _); [|injection H as <-; lra]. rewrite U in H. congruence.
Qed.
Definition seg_length (clamp : R -> R) (s : seg) : R := match s with SegL l => ls_length l | SegC c => cs_length clamp c end.
(** A drive is at least as long as the distance of its ends. *)
Lemma on_dist c a b d : 0 <= cs_r c -> Rabs (b - a) * cs_r c <= d -> dist (pt_of_pose (vehicle_on c a)) (pt_of_pose (vehicle_on c b)) <= d.
Proof.
  intros Hr H. pose proof (chord_le (cs_r c) d a b Hr H) as C. rewrite dist_hyp in *. unfold pt_of_pose, vehicle_on. cbn [px py po_x po_y] in *.
  replace (px (cs_c c) + cs_r c * cos a - (px (cs_c c) + cs_r c * cos b)) with (cs_r c * cos a - cs_r c * cos b) by ring.
  replace (py (cs_c c) + cs_r c * sin a - (py (cs_c c) + cs_r c * sin b)) with (cs_r c * sin a - cs_r c * sin b) by ring. exact C.
Qed.
Lemma drive_length clamp p sq q : drive clamp p sq q -> radii_ok sq -> dist (pt_of_pose p) (pt_of_pose q) <= fold_right (fun s a => seg_length clamp s + a) 0 sq.
Proof.
  induction 1 as [p q S|p c t q S D IH|p l t q th s S0 Sa Sth Sb D IH]; intros Hr; cbn [fold_right seg_length].
  - destruct S as [-> _]. rewrite dist_hyp, !Rminus_diag_eq by reflexivity. assert (hyp 0 0 = 0) as -> by (apply hyp_unique; lra). lra.
  - destruct S as [-> _]. specialize (IH ltac:(intros x X; apply Hr; right; exact X)).
    pose proof (on_dist c (cs_a0 c) (cs_a0 c + arc_len clamp c) (cs_length clamp c) (Hr c (or_introl eq_refl))) as O.
    pose proof (dist_tri (pt_of_pose (vehicle_on c (cs_a0 c))) (pt_of_pose (vehicle_on c (cs_a0 c + arc_len clamp c))) (pt_of_pose q)) as T.
    assert (Rabs (cs_a0 c + arc_len clamp c - cs_a0 c) * cs_r c <= cs_length clamp c) as A by (unfold cs_length, cs_arc; replace (cs_a0 c + arc_len clamp c - cs_a0 c) with (arc_len clamp c) by ring; lra). specialize (O A). lra.
  - specialize (IH ltac:(intros x X; apply Hr; right; exact X)). rewrite Sa.
    pose proof (dist_tri (ls_a l) (ls_b l) (pt_of_pose q)) as T. assert (dist (ls_a l) (ls_b l) = ls_length l) as E by (unfold ls_length; apply dist_len).
    change (pt_of_pose (Pose (px (ls_b l)) (py (ls_b l)) th)) with (Pt (px (ls_b l)) (py (ls_b l))) in IH. destruct (ls_b l) as [u v]. cbn [px py] in IH. lra.
Qed.

Definition csc (o1 o2 : rori) : list seg := [SegC (CSeg o1 Forward (Pt 0 0) 0 0 0); SegL (LS Forward (Pt 0 0) (Pt 0 0)); SegC (CSeg o2 Forward (Pt 0 0) 0 0 0)].
Lemma csc_pattern o1 o2 sq : map pattern sq = map pattern (csc o1 o2) -> exists a l b, sq = [SegC a; SegL l; SegC b] /\ cs_ori a = o1 /\ cs_dir a = Forward /\ ls_dir l = Forward /\ cs_ori b = o2 /\ cs_dir b = Forward.
Proof.
  intros H. destruct sq as [|s1 [|s2 [|s3 [|? ?]]]]; cbn in H; try discriminate. destruct s1 as [|a]; [discriminate|]. destruct s2 as [l|]; [|discriminate]. destruct s3 as [|b]; [discriminate|].
  cbn in H. injection H as H1 H2 H3 H4 H5. exists a, l, b. repeat split; assumption.
Qed.
Lemma patterns4_in cs : patterns4 cs true -> forall c, In c cs -> exists o1 o2, map pattern c = map pattern (csc o1 o2).
Proof.
  intros H c Hc. assert (I : In (map pattern c) (map (map pattern) cs)) by (apply in_map, Hc). rewrite H in I.
  destruct I as [<-|[<-|[<-|[<-|[]]]]]; eexists _, _; reflexivity.
Qed.
Lemma patterns4_all cs o1 o2 : patterns4 cs true -> exists c, In c cs /\ map pattern c = map pattern (csc o1 o2).
Proof.
  intros H. assert (I : In (map pattern (csc o1 o2)) (map (map pattern) cs)) by (rewrite H; destruct o1, o2; cbn; tauto).
  apply in_map_iff in I. destruct I as (c & E & I). exists c. split; assumption.
Qed.
Lemma outcome_open clamp m p ignore start goal sq sq2 r : map pattern sq = map pattern sq2 -> snd r < NOT_FREE -> admissible clamp m p ignore start goal sq = Some r -> admissible clamp m p ignore start goal sq2 = Some r.
Proof.
  intros H L E. pose proof (admissible_pattern clamp m p ignore start goal sq sq2 H) as A. rewrite E in A. destruct r as [c w]. cbn [outcome snd] in *.
  destruct (admissible clamp m p ignore start goal sq2) as [[c2 w2]|]; [|discriminate]. cbn [outcome] in A. assert (W : w = w2) by congruence. subst w2. apply Rltb_spec in L. rewrite L in A. congruence.
Qed.

(** A valid curve for an attempt: an arc, a straight line and an arc, turning in all by
    less than half a circle, not blocked. *)
Definition x_valid (clamp : R -> R) (m : rmap) (start goal : pose) (sq : list seg) (w : R) : Prop :=
  exists o1 o2, admissible clamp m (x_params m) false start goal (csc o1 o2) = Some (sq, w) /\ w < NOT_FREE /\ turning clamp sq < PI.

Lemma way_pos m : 0 < rm_res m -> 0 < rp_maxd (x_params m).
Proof. intros H. cbn [x_params rp_maxd]. unfold way_m. apply Rdiv_lt_0_compat; lra. Qed.
Lemma radius_pos m : 0 < rm_res m -> 0 < rp_radius (x_params m).
Proof. intros H. cbn [x_params rp_radius]. unfold radius_m. apply Rdiv_lt_0_compat; lra. Qed.
Lemma x_sane m : 0 < rm_res m -> sane m (x_params m).
Proof. intros H. pose proof (way_pos m H). unfold sane. cbn [x_params rp_fwd rp_bwd rp_curve rp_straight rp_min_cell rp_maxd] in *. repeat split; (lra || lia). Qed.

Lemma csc_drive clamp m start goal o1 o2 sq w : AngleClamp_contract clamp -> 0 < rm_res m -> admissible clamp m (x_params m) false start goal (csc o1 o2) = Some (sq, w) -> w < NOT_FREE ->
  drive clamp start sq goal /\ all_radius (radius_m / rm_res m) sq /\ (forall s, In s sq -> exists ws, seg_weight clamp m (x_params m) false s = Some ws /\ 0 <= ws < NOT_FREE) /\
  2 <= fold_right (fun s a => seg_length clamp s + a) 0 sq <= w /\ sum_weights clamp m (x_params m) false sq = Some w /\
  (exists a l b, sq = [SegC a; SegL l; SegC b] /\ cs_ori a = o1 /\ cs_dir a = Forward /\ ls_dir l = Forward /\ cs_ori b = o2 /\ cs_dir b = Forward).
Proof.
  intros Hcl Hm H L. assert (RP : 0 < rp_radius (x_params m)) by (apply radius_pos, Hm).
  assert (D : drive clamp start sq goal) by (eapply C56_drive; [exact Hcl|exact RP| |exact H|exact L]; exact Logic.I).
  assert (PT : exists a l b, sq = [SegC a; SegL l; SegC b] /\ cs_ori a = o1 /\ cs_dir a = Forward /\ ls_dir l = Forward /\ cs_ori b = o2 /\ cs_dir b = Forward) by (apply csc_pattern; eapply C38_keeps_patterns, H).
  pose proof (proj1 (C38_candidate _ _ _ _ _ _ _ _ _ L) H) as OC. pose proof (open_radius _ _ _ _ _ _ _ _ _ OC) as RR. destruct OC as (FAR & SW & _).
  assert (RO : radii_ok sq) by (intros c Hc; rewrite (RR c Hc); lra).
  destruct (sum_weights_spec clamp m (x_params m) false (x_sane m Hm) sq w RO SW) as [W0 WS].
  split; [exact D|]. split; [exact RR|]. split; [intros s Hs; destruct (WS s Hs) as (ws & E & B); exists ws; split; [exact E|lra]|]. split; [|split; [exact SW|exact PT]]. split.
  - pose proof (drive_length clamp start sq goal D RO) as DL. assert (PD : pose_dist start goal = dist (pt_of_pose start) (pt_of_pose goal)) by (rewrite dist_hyp; reflexivity). lra.
  - clear - PT SW L WS RO Hm. destruct PT as (a & l & b & -> & _ & Da & Dl & _ & Db). destruct (WS (SegC a)) as (wa & Ea & Ba); [cbn; tauto|]. destruct (WS (SegL l)) as (wl & El & Bl); [cbn; tauto|]. destruct (WS (SegC b)) as (wb & Eb & Bb); [cbn; tauto|].
    cbn [seg_weight] in *. cbn [sum_weights] in SW. rewrite Ea, El, Eb in SW. cbn [obind] in SW. assert (w = wa + (wl + (wb + 0))) as -> by congruence.
    apply circle_length_weight in Ea; [|reflexivity|lra]. apply circle_length_weight in Eb; [|reflexivity|lra]. apply line_length_weight in El; [|reflexivity|lra].
    rewrite Da in Ea. rewrite Db in Eb. rewrite Dl in El. cbn [x_params dir_cost rp_fwd rp_curve rp_straight] in *. cbn [fold_right seg_length].
    assert (0 <= cs_length clamp a) by (unfold cs_length, cs_arc; apply Rmult_le_pos; [apply Rabs_pos|apply RO; left; reflexivity]).
    assert (0 <= cs_length clamp b) by (unfold cs_length, cs_arc; apply Rmult_le_pos; [apply Rabs_pos|apply RO; right; right; left; reflexivity]). lra.
Qed.

(** The points of an arc. *)
Lemma arc_first clamp maxd c ps : circle_points clamp maxd c = Some ps -> exists q t, ps = q :: t /\ same_pose q (vehicle_on c (cs_a0 c)).
Proof.
  intros H. unfold circle_points in H. destruct (arc_steps clamp maxd c) as [n|]; [|discriminate]. cbn [obind] in H. cbn [seq map] in H.
  match type of H with Some (?x :: ?y) = Some _ => exists x, y end. split; [congruence|]. cbn [INR]. rewrite Rmult_0_r, Rplus_0_r.
  split; [unfold pt_of_pose, cs_pose, vehicle_on, padd, rotate; cbn [px py po_x po_y]; f_equal; ring|]. cbn [cs_pose po_th vehicle_on]. unfold heading_of. destruct (cs_ori c); exists 0%Z; ring.
Qed.
Lemma arc_last clamp maxd c ps : AngleClamp_contract clamp -> 0 < maxd -> 0 < cs_r c -> circle_points clamp maxd c = Some ps ->
  exists q r, ps = r ++ [q] /\ dist (pt_of_pose q) (pt_of_pose (vehicle_on c (cs_a0 c + arc_len clamp c))) <= maxd.
Proof.
  intros Hcl Hm Hr H. destruct (C42_points clamp maxd c ps Hcl Hm Hr H) as (L2 & P & _).
  destruct (@exists_last _ ps) as (r & q & ->); [intros ->; cbn in L2; lia|]. exists q, r. split; [reflexivity|].
  destruct (P (length r) q) as (s & Sk & S1 & S2 & PT & _ & S4 & S5); [rewrite nth_error_app2, Nat.sub_diag by lia; reflexivity|]. rewrite PT.
  assert (E : on_circ c (cs_a0 c + s) = pt_of_pose (vehicle_on c (cs_a0 c + s))) by reflexivity. rewrite E. apply on_dist; [lra|].
  replace (cs_a0 c + arc_len clamp c - (cs_a0 c + s)) with (arc_len clamp c - s) by ring.
  assert (SG : Rabs (arc_len clamp c - s) = Rabs (Rabs (arc_len clamp c) - Rabs s)).
  { destruct (arc_len_cases clamp c Hcl) as [[A B]|[A B]]; [specialize (S1 A)|specialize (S2 A)].
    - rewrite (Rabs_pos_eq (arc_len clamp c)), (Rabs_pos_eq s) by lra. reflexivity.
    - rewrite (Rabs_left (arc_len clamp c)) by lra. rewrite (Rabs_left1 s) by lra. rewrite <- Rabs_Ropp. f_equal. ring. }
  rewrite SG. destruct (Rle_or_lt maxd (cs_length clamp c)) as [LE|GT].
  - specialize (S4 LE). rewrite app_length in S5. cbn [length] in S5. specialize (S5 ltac:(lia) LE). rewrite Rabs_pos_eq by lra. lra.
  - destruct (C42_overshoot_refuted clamp maxd c Hcl Hm Hr GT) as (p1 & p2 & _ & E2 & _). rewrite H in E2. assert (LR : length r = 1%nat) by (assert (X : r ++ [q] = [p1; p2]) by congruence; apply (f_equal (@length pose)) in X; rewrite app_length in X; cbn in X; lia).
    rewrite LR in Sk. cbn [INR] in Sk. unfold cs_length, cs_arc in GT. pose proof (Rabs_pos (arc_len clamp c)).
    assert (Rabs (arc_len clamp c) < Rabs s) by (apply (Rmult_lt_reg_r (cs_r c)); lra). rewrite Rabs_left by lra.
    replace (- (Rabs (arc_len clamp c) - Rabs s) * cs_r c) with (Rabs s * cs_r c - Rabs (arc_len clamp c) * cs_r c) by ring. assert (0 <= Rabs (arc_len clamp c) * cs_r c) by (apply Rmult_le_pos; lra). lra.
Qed.
(** The way points of an arc, a line and an arc. *)
Lemma walk_spec clamp m start goal a l b ps : AngleClamp_contract clamp -> 0 < rm_res m -> 0 < cs_r a -> 0 < cs_r b -> drive clamp start [SegC a; SegL l; SegC b] goal ->
  x_walk clamp (rp_maxd (x_params m)) [SegC a; SegL l; SegC b] = Some ps ->
  exists pa pl pb, circle_points clamp (rp_maxd (x_params m)) a = Some pa /\ line_points (rp_maxd (x_params m)) l = Some pl /\ circle_points clamp (rp_maxd (x_params m)) b = Some pb /\ ps = pa ++ pl ++ pb /\
    (exists q t, ps = q :: t /\ same_pose q start) /\ (exists q r, ps = r ++ [q] /\ dist (pt_of_pose q) (pt_of_pose goal) <= way_m / rm_res m).
Proof.
  intros Hcl Hm Ra Rb D H. unfold x_walk in H. cbn [seg_lists seg_points] in H.
  destruct (circle_points clamp _ a) as [pa|] eqn:Ea; [|discriminate]. cbn [obind] in H. destruct (line_points _ l) as [pl|] eqn:El; [|discriminate]. cbn [obind] in H.
  destruct (circle_points clamp _ b) as [pb|] eqn:Eb; [|discriminate]. cbn [obind] in H.
  destruct (arc_last clamp _ b pb Hcl (way_pos m Hm) Rb Eb) as (qb & rb & Lb & Db). destruct (arc_first clamp _ a pa Ea) as (qa & ta & Fa & Sa).
  rewrite (C39_iterate (Pose 0 0 0) [pa; pl; pb]) in H.
  2: reflexivity. 2: { right. exists [pa; pl], pb. split; [reflexivity|]. rewrite Lb. destruct rb; discriminate. } 2: lia.
  cbn [obind fst] in H. injection H as <-. exists pa, pl, pb. do 3 (split; [reflexivity|]). split; [cbn [concat]; rewrite app_nil_r; reflexivity|].
  inversion D as [|? ? ? ? S1 D1|]; subst. inversion D1 as [| |? ? ? ? th s S0 A1 A2 A3 D2]; subst. inversion D2 as [|? ? ? ? S2 D3|]; subst. inversion D3 as [? ? S3| |]; subst. split.
  - eexists _, _. split; [cbn [concat app]; reflexivity|]. eapply same_pose_trans; [exact Sa|apply same_pose_sym, S1].
  - exists qb, (qa :: ta ++ pl ++ rb). split; [cbn [concat app]; rewrite app_nil_r, <- !app_assoc; reflexivity|]. destruct S3 as [S3 _]. rewrite <- S3. exact Db.
Qed.

(** The attempt of a forward node: it succeeds exactly if a valid curve exists; the
    stored poses are the way points of the cheapest one. *)
Lemma attempt_spec clamp m s start goal res s' : AngleClamp_contract clamp -> 0 < rm_res m -> patterns4 (x_curves s) true -> x_find clamp m s start goal = Some (res, s') ->
  (res = true <-> exists sq w, x_valid clamp m start goal sq w) /\
  (res = true -> exists sq w, x_valid clamp m start goal sq w /\ (forall sq2 w2, x_valid clamp m start goal sq2 w2 -> w <= w2) /\ x_walk clamp (rp_maxd (x_params m)) sq = Some (x_poses s')).
Proof.
  intros Hcl Hm Hp H. unfold x_find in H. destruct (find_path _ _ _ _ _ _ _ _) as [[[cs b] w]|] eqn:F; [|discriminate]. cbn [obind fst snd] in H.
  assert (NE : x_curves s <> []) by (intros E; rewrite E in Hp; discriminate).
  assert (C : exists cands, candidates clamp m (x_params m) false start goal (x_curves s) cands).
  { unfold find_path in F. destruct (x_curves s); [congruence|]. destruct (find_loop_cands _ _ _ _ _ _ _ _ _ _ _ _ _ F) as (cands & HC & _). exists cands. exact HC. }
  destruct C as [cands HC]. destruct (C38_best _ _ _ _ _ _ PI _ cands NE HC) as (best & bw & E & B1 & B2 & B3). rewrite F in E. assert (b = best /\ w = bw) as [-> ->] by (split; congruence). clear E.
  assert (TO : forall r, In r cands -> valid clamp PI r -> x_valid clamp m start goal (fst r) (snd r)).
  { intros r Hr [V1 V2]. assert (X : exists c, In c (x_curves s) /\ admissible clamp m (x_params m) false start goal c = Some r).
    { clear - HC Hr. induction HC as [|cc rr csx candsx Hx HCx IHx]; [destruct Hr|]. destruct Hr as [<-|Hr]; [exists cc; split; [left; reflexivity|exact Hx]|]. destruct (IHx Hr) as (c & I & A). exists c. split; [right; exact I|exact A]. }
    destruct X as (c & Ic & A). destruct (patterns4_in _ Hp c Ic) as (o1 & o2 & PE). exists o1, o2. split; [|split; assumption]. pose proof (outcome_open _ _ _ _ _ _ _ _ _ PE V1 A) as A2. destruct r. exact A2. }
  assert (FROM : forall sq w, x_valid clamp m start goal sq w -> In (sq, w) cands /\ valid clamp PI (sq, w)).
  { intros sq w (o1 & o2 & A & V1 & V2). split; [|split; assumption]. destruct (patterns4_all _ o1 o2 Hp) as (c & Ic & PE). symmetry in PE. apply (outcome_open _ _ _ _ _ _ _ _ (sq, w) PE V1) in A.
    clear - HC Ic A. induction HC as [|cc rr csx candsx Hx HCx IHx]; [destruct Ic|]. destruct Ic as [<-|Ic]; [left; congruence|right; apply IHx, Ic]. }
  destruct best as [bc|].
  - destruct (x_walk _ _ bc) as [ps|] eqn:WK; [|discriminate]. cbn [obind] in H. assert (R : res = is_valid bw) by congruence. assert (P : x_poses s' = ps) by (assert (X : s' = XS (x_initial s) (x_min s) (x_n s) (x_cur s) (x_fwd s) cs ps) by congruence; rewrite X; reflexivity).
    destruct (proj1 (B2 bc) eq_refl) as (i & r & (Ir & Vr & Mr) & Er). 
    assert (SW : snd r = bw).
    { pose proof F as F2. unfold find_path in F2. destruct (x_curves s) as [|c0 cs0] eqn:CS; [congruence|]. destruct (find_loop_spec clamp m (x_params m) false start goal PI (c0 :: cs0) cands None NOT_FREE HC ltac:(lra)) as (b' & bw' & E' & [(X1 & _)|(i' & r' & I' & V' & E1' & E2' & _ & M')]).
      - rewrite F2 in E'. congruence.
      - rewrite F2 in E'. assert (b' = Some bc /\ bw' = bw) as [-> ->] by (split; congruence). destruct (M' i r Ir Vr) as [Q1 _]. destruct (Mr i' r' I' V') as [Q2 _]. lra. }
    pose proof (TO r (nth_error_In _ _ Ir) Vr) as XV. rewrite <- Er in XV. 
    assert (IV : is_valid bw = true).
    { destruct XV as (o1 & o2 & A & V1 & V2). destruct (csc_drive clamp m start goal o1 o2 bc (snd r) Hcl Hm A V1) as (_ & _ & _ & LB & _). unfold is_valid. rewrite <- SW. destruct (Rlt_dec (snd r) (1 / 1000)); [lra|]. apply Rltb_spec, V1. }
    rewrite R, IV. split; [split; [intros _; exists bc, (snd r); exact XV|reflexivity]|]. intros _. exists bc, (snd r). split; [exact XV|]. split; [|rewrite P; exact WK].
    intros sq2 w2 X2. destruct (FROM sq2 w2 X2) as [I2 V2]. apply In_nth_error in I2. destruct I2 as [j J]. apply (Mr j (sq2, w2) J V2).
  - assert (R : res = false) by congruence. rewrite R. split; [|discriminate]. split; [discriminate|]. intros (sq & w' & X). destruct (FROM sq w' X) as [I V]. exfalso. exact (proj1 B1 eq_refl _ I V).
Qed.

(** A success in any history: the node drives forward; there is a collision free curve
    of an arc, a line and an arc, all driven forward with the radius of 1.3 m, from the
    node to the goal, turning by less than half a circle in all, the cheapest of its
    kind; its way points are the poses handed out, all marked forward; the first is the
    pose of the node, the last at most 15 cm from the goal. *)
Theorem C66_success : forall N expf expb clamp calls rs s0 s m a goal att s', (0 <= N <= 2147483645)%Z -> nonneg calls -> 0 <= xn_h a ->
  AngleClamp_contract clamp -> 0 < rm_res m ->
  x_new N expf = Some s0 -> x_run N expf expb clamp calls s0 = Some (rs, s) -> x_expand N expf expb clamp m s a goal = Some (att, true, s') ->
  xn_fwd a = true /\ expf = true /\ att = true /\
  exists c1 l c2 w, x_valid clamp m (xn_pose a) goal [SegC c1; SegL l; SegC c2] w /\
    (forall sq2 w2, x_valid clamp m (xn_pose a) goal sq2 w2 -> w <= w2) /\
    drive clamp (xn_pose a) [SegC c1; SegL l; SegC c2] goal /\ cs_dir c1 = Forward /\ ls_dir l = Forward /\ cs_dir c2 = Forward /\
    Rabs (cs_r c1 * rm_res m - 13 / 10) <= / 10000000 /\ cs_r c2 = cs_r c1 /\
    (forall s, In s [SegC c1; SegL l; SegC c2] -> exists ws, seg_weight clamp m (x_params m) false s = Some ws /\ 0 <= ws < NOT_FREE) /\
    (exists p1 p2 p3 step, Rabs (step * rm_res m - 15 / 100) <= / 10000000 /\ seg_points clamp step (SegC c1) = Some p1 /\ seg_points clamp step (SegL l) = Some p2 /\ seg_points clamp step (SegC c2) = Some p3 /\
       x_get s' = map (fun q => (q, true)) (p1 ++ p2 ++ p3)) /\
    (exists q t, x_get s' = (q, true) :: t /\ same_pose q (xn_pose a)) /\
    (exists q r, x_get s' = r ++ [(q, true)] /\ dist (pt_of_pose q) (pt_of_pose goal) * rm_res m <= 15 / 100 + / 10000000).
Proof.
  intros N expf expb clamp calls rs s0 s m a goal att s' HN Hc Ha Hcl Hm Hn Hr He.
  destruct (run_inv N expf expb clamp HN calls [] s0 rs s (new_inv _ _ _ _ Hn) ltac:(intros e []) Hc Hr) as (_ & I & Hh). cbn [app] in I, Hh.
  destruct (expand_spec N expf expb clamp m _ s a goal att true s' HN I (values_pos _ _ _ Hh) Ha He) as (D & _ & FW & R & _). destruct (R eq_refl) as (-> & FA & s1 & F & PT).
  assert (EF : expf = true). { destruct (proj1 D eq_refl) as (C & _). unfold counts in C. rewrite FA in C. exact C. } subst expf.
  split; [exact FA|]. split; [reflexivity|]. split; [reflexivity|].
  destruct (attempt_spec clamp m s1 (xn_pose a) goal true s' Hcl Hm PT F) as (_ & S). destruct (S eq_refl) as (sq & w & V & MIN & WK). pose proof V as V'. destruct V' as (o1 & o2 & A & V1 & V2).
  destruct (csc_drive clamp m (xn_pose a) goal o1 o2 sq w Hcl Hm A V1) as (DR & RR & FREE & _ & _ & c1 & l & c2 & -> & _ & D1 & D2 & _ & D3).
  assert (R1 : cs_r c1 = radius_m / rm_res m) by (apply RR; cbn; tauto). assert (R2 : cs_r c2 = radius_m / rm_res m) by (apply RR; cbn; tauto). pose proof (radius_pos m Hm) as RP. cbn [x_params rp_radius] in RP.
  destruct (walk_spec clamp m (xn_pose a) goal c1 l c2 _ Hcl Hm ltac:(lra) ltac:(lra) DR WK) as (pa & pl & pb & Ea & El & Eb & EP & (q0 & t0 & F0 & S0) & (q1 & r1 & F1 & S1)).
  exists c1, l, c2, w. split; [exact V|]. split; [exact MIN|]. split; [exact DR|]. do 3 (split; [assumption|]).
  assert (NM : forall x, x / rm_res m * rm_res m = x) by (intros x; unfold Rdiv; rewrite Rmult_assoc, Rinv_l by lra; ring).
  split; [rewrite R1, NM; unfold radius_m; apply Rabs_le; lra|]. split; [rewrite R1, R2; reflexivity|]. split; [exact FREE|].
  assert (G : x_get s' = map (fun q => (q, true)) (x_poses s')) by (unfold x_get; rewrite FW, FA; reflexivity).
  split; [exists pa, pl, pb, (way_m / rm_res m); split; [rewrite NM; unfold way_m; apply Rabs_le; lra|]; repeat (split; [assumption|]); rewrite G, EP; reflexivity|]. split.
  - exists q0, (map (fun q => (q, true)) t0). split; [rewrite G, F0; reflexivity|exact S0].
  - exists q1, (map (fun q => (q, true)) r1). split; [rewrite G, F1, map_app; reflexivity|]. apply Rmult_le_compat_r with (r := rm_res m) in S1; [|lra]. rewrite NM in S1. eapply Rle_trans; [exact S1|]. unfold way_m. lra.
Qed.
(** No curve is missed: an attempt of a forward node succeeds exactly if there is one. *)
Theorem C66_complete : forall N expf expb clamp calls rs s0 s m a goal res s', (0 <= N <= 2147483645)%Z -> nonneg calls -> 0 <= xn_h a ->
  AngleClamp_contract clamp -> 0 < rm_res m -> xn_fwd a = true ->
  x_new N expf = Some s0 -> x_run N expf expb clamp calls s0 = Some (rs, s) -> x_expand N expf expb clamp m s a goal = Some (true, res, s') ->
  (res = true <-> exists sq w, x_valid clamp m (xn_pose a) goal sq w).
Proof.
  intros N expf expb clamp calls rs s0 s m a goal res s' HN Hc Ha Hcl Hm FA Hn Hr He.
  destruct (run_inv N expf expb clamp HN calls [] s0 rs s (new_inv _ _ _ _ Hn) ltac:(intros e []) Hc Hr) as (_ & I & Hh). cbn [app] in I, Hh.
  destruct (expand_spec N expf expb clamp m _ s a goal true res s' HN I (values_pos _ _ _ Hh) Ha He) as (D & _ & _ & _ & R & _). destruct (R eq_refl FA) as (s1 & F & PT).
  assert (EF : expf = true). { destruct (proj1 D eq_refl) as (C & _). unfold counts in C. rewrite FA in C. exact C. } subst expf.
  apply (attempt_spec clamp m s1 (xn_pose a) goal res s' Hcl Hm PT F).
Qed.
(** Refuted: switching on the expansion of nodes that drive backward. The calls count
    and use up attempts, but never succeed. *)
Theorem C66_backward_refuted : forall N expf expb clamp m s a goal att res s', xn_fwd a = false -> x_expand N expf expb clamp m s a goal = Some (att, res, s') -> res = false /\ x_poses s' = x_poses s.
Proof.
  intros N expf expb clamp m s a goal att res s' FA H. unfold x_expand in H. destruct (x_gate N expf expb s a) as [[b s1]|] eqn:G; [|discriminate]. cbn [obind fst snd] in H.
  assert (K : x_fwd s1 = false /\ x_poses s1 = x_poses s).
  { unfold x_gate in G. rewrite FA in G. cbv zeta in G. cbn [x_initial x_min x_n x_cur x_fwd x_curves x_poses negb] in G.
    repeat match type of G with context [if ?b then _ else _] => destruct b; try discriminate end; try (injection G as _ <-; split; reflexivity);
    (destruct (x_min s); [|discriminate]; cbn [obind] in G; repeat match type of G with context [if ?b then _ else _] => destruct b; try discriminate end; cbn [obind] in G;
     try (match type of G with context [cast_i32 ?d] => destruct (cast_i32 d); [|discriminate] end; cbn [obind] in G); repeat match type of G with context [if ?b then _ else _] => destruct b; try discriminate end; injection G as _ <-; split; reflexivity). }
  destruct K as [K1 K2]. destruct b; [rewrite K1 in H|]; injection H as _ <- <-; split; (reflexivity || exact K2).
Qed.

(** ** No attempt is undefined *)
Lemma cast_defined x : Rabs x <= 2000000000 -> exists z, cast_i32 x = Some z.
Proof.
  intros H. exists (Ztrunc x). unfold cast_i32. cbv zeta. apply Rabs_le_inv in H.
  assert (B : (-2000000000 <= Ztrunc x <= 2000000000)%Z).
  { destruct (Rle_or_lt 0 x).
    - rewrite Ztrunc_floor by lra. split; [apply Z.le_trans with 0%Z; [lia|apply Zfloor_lub; lra]|]. apply le_IZR. pose proof (Zfloor_lb x). lra.
    - rewrite Ztrunc_ceil by lra. split; [|apply Z.le_trans with 0%Z; [apply Zceil_glb; lra|lia]]. apply le_IZR. pose proof (Zceil_ub x). lra. }
  unfold in_i32. replace ((-2147483648 <=? _)%Z && (_ <? 2147483648)%Z) with true by lia. reflexivity.
Qed.
Definition bounded (B : R) (p : pt) : Prop := Rabs (px p) <= B /\ Rabs (py p) <= B.
Lemma on_bounded B c a : 0 <= cs_r c -> bounded B (cs_c c) -> bounded (B + cs_r c) (pt_of_pose (vehicle_on c a)).
Proof.
  intros Hr [H1 H2]. unfold bounded, pt_of_pose, vehicle_on. cbn [px py po_x po_y]. pose proof (COS_bound a). pose proof (SIN_bound a). apply Rabs_le_inv in H1, H2. split; apply Rabs_le; nra.
Qed.
Lemma center_bounded B o q r : 0 <= r -> bounded B (pt_of_pose q) -> bounded (B + r) (center_for o q r).
Proof.
  intros Hr [H1 H2]. unfold pt_of_pose in *. cbn [px py] in *. apply Rabs_le_inv in H1, H2. pose proof (COS_bound (po_th q + PI / 2)). pose proof (SIN_bound (po_th q + PI / 2)).
  unfold bounded, center_for, center_left, center_right, from_polar. destruct o; cbn [px py]; split; apply Rabs_le; nra.
Qed.
Lemma circle_defined clamp m p c ignore B : bounded B (cs_c c) -> B <= 2000000000 -> 1 <= cs_r c <= 2000000000 -> exists w, circle_weight clamp m p c ignore = Some w.
Proof.
  intros [B1 B2] HB Hr. unfold circle_weight. destruct (cast_defined (px (cs_c c)) ltac:(lra)) as [cx ->]. destruct (cast_defined (py (cs_c c)) ltac:(lra)) as [cy ->].
  destruct (cast_defined (cs_r c)) as [r Er]; [rewrite Rabs_pos_eq; lra|]. rewrite Er. cbn [obind].
  assert (R1 : (1 <= r)%Z) by (apply cast_i32_trunc in Er; destruct Er as [-> _]; rewrite Ztrunc_floor by lra; apply Zfloor_lub; lra).
  destruct (C41_ring cx cy r R1) as (l & El & _). unfold check_circle. rewrite El. cbn [obind]. destruct (_ || _); [destruct (rp_use_map p)|]; eexists; reflexivity.
Qed.
Lemma line_defined m p l ignore B : bounded B (ls_a l) -> bounded B (ls_b l) -> B <= 2000000000 -> exists w, line_weight m p l ignore = Some w.
Proof.
  intros [A1 A2] [B1 B2] HB. destruct (cast_defined (px (ls_a l)) ltac:(lra)) as [x0 E0]. destruct (cast_defined (py (ls_a l)) ltac:(lra)) as [y0 F0].
  destruct (cast_defined (px (ls_b l)) ltac:(lra)) as [x1 E1]. destruct (cast_defined (py (ls_b l)) ltac:(lra)) as [y1 F1].
  destruct (C40_weight m p l ignore x0 y0 x1 y1 E0 F0 E1 F1) as (w & E & _). exists w. exact E.
Qed.
Lemma same_pt p q : same_pose p q -> pt_of_pose p = pt_of_pose q.
Proof. intros [H _]. exact H. Qed.
(** The end points of the line of a tangent lie on the circles. *)
Lemma tangent_bounded clamp f dir t f' l t' B : AngleClamp_contract clamp -> cs_r f = cs_r t -> 0 < cs_r f -> bounded B (cs_c f) -> bounded B (cs_c t) ->
  common_tangent clamp f dir t = Some (f', l, t') -> cs_c f' = cs_c f /\ cs_c t' = cs_c t /\ cs_r f' = cs_r f /\ cs_r t' = cs_r f /\ bounded (B + cs_r f) (ls_a l) /\ bounded (B + cs_r f) (ls_b l).
Proof.
  intros Hcl Hr Hr0 Bf Bt H. destruct (C46_helper_line clamp f dir t f' l t' Hcl Hr Hr0 H) as [[_ (th & s & _ & J1 & _ & J2)] _].
  assert (K : cs_c f' = cs_c f /\ cs_c t' = cs_c t /\ cs_r f' = cs_r f /\ cs_r t' = cs_r t).
  { unfold common_tangent in H. destruct (Rlt_dec _ _); [discriminate|]. destruct (ori_eqb _ _).
    - unfold external_tangent in H. match type of H with Some (?x, _, ?y) = _ => assert (Q : f' = x /\ t' = y) by (split; congruence) end. destruct Q as [-> ->]. repeat split.
    - unfold internal_tangent in H. match type of H with Some (?x, _, ?y) = _ => assert (Q : f' = x /\ t' = y) by (split; congruence) end. destruct Q as [-> ->]. repeat split. }
  destruct K as (K1 & K2 & K3 & K4). repeat (split; [congruence|]). apply same_pt in J1, J2. split.
  - assert (ls_a l = pt_of_pose (vehicle_on f' (cs_a1 f'))) as -> by (rewrite J1; unfold pt_of_pose; cbn [po_x po_y]; destruct (ls_a l) as [u v]; reflexivity). rewrite <- K3. apply on_bounded; [lra|rewrite K1; exact Bf].
  - assert (ls_b l = pt_of_pose (vehicle_on t' (cs_a0 t'))) as -> by (rewrite <- J2; unfold pt_of_pose; cbn [po_x po_y]; destruct (ls_b l) as [u v]; reflexivity). rewrite Hr, <- K4. apply on_bounded; [lra|rewrite K2; exact Bt].
Qed.
Definition sizes (m : rmap) (start goal : pose) : Prop :=
  1 / 100000 <= rm_res m <= 1 /\ bounded 1000000 (pt_of_pose start) /\ bounded 1000000 (pt_of_pose goal).
Lemma radius_sizes m : 1 / 100000 <= rm_res m <= 1 -> 1 <= radius_m / rm_res m <= 200000 /\ 0 < way_m / rm_res m.
Proof.
  intros H. unfold radius_m, way_m. assert (I : 0 < / rm_res m) by (apply Rinv_0_lt_compat; lra). assert (M : rm_res m * / rm_res m = 1) by (apply Rinv_r; lra).
  assert (1 <= / rm_res m <= 100000) by (split; [apply (Rmult_le_reg_l (rm_res m)); lra|apply (Rmult_le_reg_l (rm_res m)); [lra|]; rewrite M; lra]). unfold Rdiv. split; [split; lra|apply Rmult_lt_0_compat; lra].
Qed.
Lemma csc_defined clamp m start goal sq o1 o2 : AngleClamp_contract clamp -> sizes m start goal -> map pattern sq = map pattern (csc o1 o2) ->
  exists sq' w, admissible clamp m (x_params m) false start goal sq = Some (sq', w).
Proof.
  intros Hcl (Hm & Bs & Bg) PT. destruct (csc_pattern _ _ _ PT) as (a & l & b & -> & _). destruct (radius_sizes m Hm) as [RS _].
  destruct (Rlt_le_dec (pose_dist start goal) 2) as [D|D]; [rewrite C38_never by (right; exact D); eexists _, _; reflexivity|]. rewrite admissible_csc by assumption.
  destruct (common_tangent _ _ _ _) as [[[f' l'] t']|] eqn:T; [|eexists _, _; reflexivity].
  assert (Bf : bounded 1200000 (cs_c (init_first clamp (x_params m) start a))). { replace 1200000 with (1000000 + 200000) by lra. destruct (center_bounded 1000000 (cs_ori a) start (radius_m / rm_res m) ltac:(lra) Bs) as [C1 C2]. split; (eapply Rle_trans; [|apply Rplus_le_compat_l; apply RS]); assumption. }
  assert (Bt : bounded 1200000 (cs_c (init_last clamp (x_params m) goal b))). { replace 1200000 with (1000000 + 200000) by lra. destruct (center_bounded 1000000 (cs_ori b) goal (radius_m / rm_res m) ltac:(lra) Bg) as [C1 C2]. split; (eapply Rle_trans; [|apply Rplus_le_compat_l; apply RS]); assumption. }
  assert (R0 : 0 < cs_r (init_first clamp (x_params m) start a)) by (change (0 < radius_m / rm_res m); lra).
  destruct (tangent_bounded clamp (init_first clamp (x_params m) start a) _ (init_last clamp (x_params m) goal b) f' l' t' 1200000 Hcl eq_refl R0 Bf Bt T) as (C1 & C2 & R1 & R2 & L1 & L2).
  change (cs_r (init_first clamp (x_params m) start a)) with (radius_m / rm_res m) in *.
  destruct (circle_defined clamp m (x_params m) f' false 1200000) as [w1 E1]; [rewrite C1; exact Bf|lra|lra|]. destruct (circle_defined clamp m (x_params m) t' false 1200000) as [w3 E3]; [rewrite C2; exact Bt|lra|lra|].
  destruct (line_defined m (x_params m) l' false (1200000 + radius_m / rm_res m) L1 L2 ltac:(lra)) as [w2 E2]. cbn [sum_weights]. rewrite E1, E2, E3. cbn [obind]. eexists _, _. reflexivity.
Qed.
Lemma arc_points_defined clamp maxd c : AngleClamp_contract clamp -> 0 < maxd -> 0 < cs_r c -> cs_r c <= 1000000 * maxd -> exists ps, circle_points clamp maxd c = Some ps.
Proof.
  intros Hcl Hm Hr Hx. unfold circle_points, arc_steps. destruct (arc_step_sign clamp maxd c Hcl Hm Hr) as [Sa _]. assert (P0 : 0 < maxd / cs_r c) by (apply Rdiv_lt_0_compat; assumption).
  destruct (Req_EM_T (arc_step clamp maxd c) 0) as [E|NE]; [rewrite E, Rabs_R0 in Sa; lra|].
  assert (AB : Rabs (arc_len clamp c / arc_step clamp maxd c) <= 8000000).
  { unfold Rdiv. rewrite Rabs_mult, Rabs_inv. rewrite Sa. assert (Rabs (arc_len clamp c) <= 8).
    { pose proof PI_4. apply Rabs_le. destruct (arc_len_cases clamp c Hcl) as [[_ ?]|[_ ?]]; lra. }
    pose proof (Rabs_pos (arc_len clamp c)). assert (I : 0 < / (maxd / cs_r c) <= 1000000).
    { split; [apply Rinv_0_lt_compat, P0|]. apply (Rmult_le_reg_l (maxd / cs_r c)); [exact P0|]. rewrite Rinv_r by lra. apply (Rmult_le_reg_l (cs_r c)); [exact Hr|]. unfold Rdiv. field_simplify; lra. }
    replace 8000000 with (8 * 1000000) by lra. apply Rmult_le_compat; lra. }
  apply Rabs_le_inv in AB. set (q := arc_len clamp c / arc_step clamp maxd c) in *. pose proof (Zfloor_lb q). pose proof (Zfloor_ub q).
  destruct (cast_defined (Rabs (IZR (Zfloor q)))) as [z ->]; [rewrite Rabs_Rabsolu; apply Rabs_le; lra|]. cbn [obind]. eexists. reflexivity.
Qed.
Lemma line_points_defined maxd l B : 0 < maxd -> bounded B (ls_a l) -> bounded B (ls_b l) -> 4 * B <= 2000000000 * maxd -> exists ps, line_points maxd l = Some ps.
Proof.
  intros Hm [A1 A2] [B1 B2] HB. unfold line_points, line_count. destruct (Req_EM_T maxd 0); [lra|]. apply Rabs_le_inv in A1, A2, B1, B2.
  assert (L : 0 <= ls_length l <= 4 * B). { unfold ls_length. rewrite len_hyp. unfold psub. cbn [px py]. split; [apply hyp_nonneg|]. apply hyp_le; [lra|]. nra. }
  destruct (cast_defined (ls_length l / maxd)) as [z ->].
  { rewrite Rabs_pos_eq by (apply Rmult_le_pos; [lra|left; apply Rinv_0_lt_compat; lra]). apply (Rmult_le_reg_r maxd); [exact Hm|]. unfold Rdiv. rewrite Rmult_assoc, Rinv_l by lra. lra. }
  cbn [obind]. eexists. reflexivity.
Qed.
(** On a map of up to a million cells per side, at resolutions between 0.01 mm and 1 m
    per cell, every call in every history is defined. *)
Theorem C66_defined : forall N expf expb clamp calls rs s0 s m a goal, (0 <= N <= 2147483645)%Z -> nonneg calls -> 0 <= xn_h a ->
  AngleClamp_contract clamp -> sizes m (xn_pose a) goal ->
  x_new N expf = Some s0 -> x_run N expf expb clamp calls s0 = Some (rs, s) -> x_expand N expf expb clamp m s a goal <> None.
Proof.
  intros N expf expb clamp calls rs s0 s m a goal HN Hc Ha Hcl Hz Hn Hr.
  destruct (run_inv N expf expb clamp HN calls [] s0 rs s (new_inv _ _ _ _ Hn) ltac:(intros e []) Hc Hr) as (_ & I & Hh). cbn [app] in I, Hh.
  destruct (gate_spec N expf expb _ s a HN I (values_pos _ _ _ Hh) Ha) as (b & s1 & G & F & _ & Cu & D & _). unfold x_expand. rewrite G. cbn [obind fst snd]. destruct b; [|discriminate]. rewrite F. destruct (xn_fwd a) eqn:FA; [|discriminate].
  assert (EF : expf = true). { destruct (proj1 D eq_refl) as (C & _). unfold counts in C. rewrite FA in C. exact C. } subst expf.
  assert (PT : patterns4 (x_curves s1) true) by (unfold patterns4; rewrite Cu; apply (i_pat _ _ _ _ _ I)).
  assert (X : exists r, x_find clamp m s1 (xn_pose a) goal = Some r); [|destruct X as [r ->]; discriminate].
  assert (Hm : 0 < rm_res m) by (destruct Hz as (Hz & _); lra).
  assert (C : exists cands, candidates clamp m (x_params m) false (xn_pose a) goal (x_curves s1) cands).
  { pose proof (patterns4_in _ PT) as P. clear - Hcl Hz P. induction (x_curves s1) as [|c cs IH]; [exists []; constructor|]. destruct IH as [cands HC]; [intros; apply P; right; assumption|].
    destruct (P c (or_introl eq_refl)) as (o1 & o2 & PE). destruct (csc_defined clamp m (xn_pose a) goal c o1 o2 Hcl Hz PE) as (sq' & w & E). exists ((sq', w) :: cands). constructor; assumption. }
  destruct C as [cands HC]. assert (NE : x_curves s1 <> []) by (intros E; rewrite E in PT; discriminate).
  destruct (C38_best _ _ _ _ _ _ PI _ cands NE HC) as (best & bw & E & _ & B2 & B3). unfold x_find. rewrite E. cbn [obind fst snd]. destruct best as [bc|]; [|eexists; reflexivity].
  destruct (proj1 (B2 bc) eq_refl) as (i & r & (Ir & [V1 V2] & _) & ->).
  assert (A : exists c, In c (x_curves s1) /\ admissible clamp m (x_params m) false (xn_pose a) goal c = Some r).
  { apply nth_error_In in Ir. clear - HC Ir. induction HC as [|cc rr csx candsx Hx HCx IHx]; [destruct Ir|]. destruct Ir as [<-|Ir]; [exists cc; split; [left; reflexivity|exact Hx]|]. destruct (IHx Ir) as (c & I & A). exists c. split; [right; exact I|exact A]. }
  destruct A as (c & Ic & A). destruct (patterns4_in _ PT c Ic) as (o1 & o2 & PE). apply (outcome_open _ _ _ _ _ _ _ _ _ PE V1) in A. destruct r as [sq w]. cbn [fst snd] in *.
  destruct (csc_drive clamp m (xn_pose a) goal o1 o2 sq w Hcl Hm A V1) as (DR & RR & _ & _ & _ & c1 & l & c2 & -> & O1 & _ & _ & O2 & _).
  assert (R1 : cs_r c1 = radius_m / rm_res m) by (apply RR; cbn; tauto). assert (R2 : cs_r c2 = radius_m / rm_res m) by (apply RR; cbn; tauto).
  destruct Hz as (Hm2 & Bs & Bg). destruct (radius_sizes m Hm2) as [RS WS].
  assert (RW : radius_m / rm_res m <= 1000000 * (way_m / rm_res m)) by (unfold Rdiv; rewrite <- Rmult_assoc; apply Rmult_le_compat_r; [left; apply Rinv_0_lt_compat; lra|unfold radius_m, way_m; lra]).
  inversion DR as [|? ? ? ? S1 D1|]; subst. inversion D1 as [| |? ? ? ? th sl S0 A1 A2 A3 D2]; subst. inversion D2 as [|? ? ? ? S2 D3|]; subst. inversion D3 as [? ? S3| |]; subst.
  assert (CB : forall c q al, same_pose q (vehicle_on c al) -> cs_r c = radius_m / rm_res m -> bounded 1000000 (pt_of_pose q) -> forall be, bounded 1400000 (pt_of_pose (vehicle_on c be))).
  { intros c' q al Sq Rc [Q1 Q2] be. apply same_pt in Sq. rewrite Sq in Q1, Q2. unfold bounded, pt_of_pose, vehicle_on in *. cbn [px py po_x po_y] in *. rewrite Rc in *.
    pose proof (COS_bound al). pose proof (SIN_bound al). pose proof (COS_bound be). pose proof (SIN_bound be). apply Rabs_le_inv in Q1, Q2. clear - RS Q1 Q2 H H0 H1 H2. split; apply Rabs_le; nra. }
  assert (LA : bounded 1400000 (ls_a l)) by (rewrite <- A1; apply (CB c1 (xn_pose a) (cs_a0 c1) S1 R1 Bs)).
  assert (LB : bounded 1400000 (ls_b l)).
  { apply same_pt in S2. assert (ls_b l = pt_of_pose (vehicle_on c2 (cs_a0 c2))) as -> by (rewrite <- S2; unfold pt_of_pose; cbn [po_x po_y]; destruct (ls_b l) as [u v]; reflexivity). apply (CB c2 goal (cs_a0 c2 + arc_len clamp c2) (same_pose_sym _ _ S3) R2 Bg). }
  destruct (arc_points_defined clamp (way_m / rm_res m) c1 Hcl WS ltac:(lra) ltac:(lra)) as [pa Ea]. destruct (arc_points_defined clamp (way_m / rm_res m) c2 Hcl WS ltac:(lra) ltac:(lra)) as [pb Eb].
  assert (WM : 15 / 100 <= way_m / rm_res m) by (unfold way_m; unfold Rdiv in *; assert (1 <= / rm_res m) by (apply (Rmult_le_reg_l (rm_res m)); [lra|]; rewrite Rinv_r by lra; lra); lra).
  destruct (line_points_defined (way_m / rm_res m) l 1400000 WS LA LB ltac:(lra)) as [pl El].
  unfold x_walk. cbn [seg_lists seg_points]. change (rp_maxd (x_params m)) with (way_m / rm_res m). rewrite Ea, El, Eb. cbn [obind].
  destruct (arc_last clamp _ c2 pb Hcl WS ltac:(lra) Eb) as (qb & rb & Lb & _).
  rewrite (C39_iterate (Pose 0 0 0) [pa; pl; pb]). 2: reflexivity. 2: { right. exists [pa; pl], pb. split; [reflexivity|]. rewrite Lb. destruct rb; discriminate. } 2: lia.
  cbn [obind]. eexists. reflexivity.
Qed.

(** ** The singleton *)
(** Refuted: every search starts with a fresh schedule. The one instance is never reset:
    once the heuristic value has fallen far enough below the first one ever seen, every
    later call that counts, in this and in all later searches, makes an attempt. *)
Theorem C66_stale_refuted : forall N expf expb clamp calls rs s0 s first rest low m a goal att res s', (0 <= N <= 2147483645)%Z -> nonneg calls -> 0 <= xn_h a ->
  x_new N expf = Some s0 -> x_run N expf expb clamp calls s0 = Some (rs, s) ->
  values expf expb (combine calls rs) = first :: rest -> In low (first :: rest) -> low < first -> IZR N * (low / first) < 2 ->
  counts expf expb a -> x_expand N expf expb clamp m s a goal = Some (att, res, s') -> att = true.
Proof.
  intros N expf expb clamp calls rs s0 s first rest low m a goal att res s' HN Hc Ha Hn Hr V Hi Hlt Hlow Ca He.
  destruct (C66_schedule N expf expb clamp calls rs s0 s m a goal att res s' HN Hc Ha Hn Hr He) as [D _]. apply D. clear D.
  destruct (run_inv N expf expb clamp HN calls [] s0 rs s (new_inv _ _ _ _ Hn) ltac:(intros e []) Hc Hr) as (_ & I & Hh). cbn [app] in I, Hh.
  split; [exact Ca|]. split; [rewrite V; discriminate|]. destruct (i_some _ _ _ _ _ I first rest V) as (_ & mm & _ & LE & _ & _ & [(NT & _)|(bf & l & af & E & T & NA & _)]); [left; exact NT|right].
  pose proof (least_snoc _ _ (xn_h a) LE) as L'. set (m' := if Rltb (xn_h a) mm then xn_h a else mm) in *.
  assert (M0 : 0 <= m'). { unfold m'. destruct (Rltb _ _); [exact Ha|]. apply (values_pos expf expb _ Hh). rewrite V. apply LE. }
  assert (ML : m' <= low) by (apply L'; apply in_or_app; left; exact Hi). assert (F0 : 0 < first) by lra.
  exists bf, l, af, (Ztrunc (IZR N * (m' / first))). split; [exact E|]. split; [exact T|]. split; [exact NA|]. rewrite V.
  split; [exists first, (rest ++ [xn_h a]), m'; split; [reflexivity|]; split; [exact L'|left; split; [lra|reflexivity]]|].
  assert (N0 : 0 <= IZR N) by (apply IZR_le; lia). assert (Q : m' / first <= low / first) by (apply Rmult_le_compat_r; [left; apply Rinv_0_lt_compat; exact F0|exact ML]).
  assert (Q0 : 0 <= m' / first) by (apply Rmult_le_pos; [exact M0|left; apply Rinv_0_lt_compat; exact F0]).
  assert (B : 0 <= IZR N * (m' / first) < 2) by (split; [apply Rmult_le_pos; assumption|]; eapply Rle_lt_trans; [apply Rmult_le_compat_l; [exact N0|exact Q]|exact Hlow]).
  rewrite Ztrunc_floor by lra. assert (Zfloor (IZR N * (m' / first)) < 2)%Z by (apply lt_IZR; pose proof (Zfloor_lb (IZR N * (m' / first))); lra). lia.
Qed.
(** A fresh instance makes no attempt at the first call. *)
Theorem C66_first : forall N expf expb clamp m s0 a goal att res s', x_new N expf = Some s0 -> (0 <= N <= 2147483645)%Z -> 0 <= xn_h a ->
  x_expand N expf expb clamp m s0 a goal = Some (att, res, s') -> att = false /\ res = false.
Proof.
  intros N expf expb clamp m s0 a goal att res s' Hn HN Ha He.
  destruct (C66_schedule N expf expb clamp [] [] s0 s0 m a goal att res s' HN ltac:(intros c []) Ha Hn eq_refl He) as [D R].
  destruct att; [exfalso; destruct (proj1 D eq_refl) as (_ & V & _); apply V; reflexivity|]. split; [reflexivity|]. destruct res; [destruct (R eq_refl); discriminate|reflexivity].
Qed.

(** ** The path handed out by the search *)
(** The nodes from a start node along the stored predecessors (start first). *)
Inductive trace {V : Type} (prev : V -> option V) (is_start : V -> bool) : V -> list V -> Prop :=
| trace_start v : is_start v = true -> trace prev is_start v [v]
| trace_step v p l : is_start v = false -> prev v = Some p -> trace prev is_start p l -> trace prev is_start v (l ++ [v]).
(** A node reached over its predecessors: the path is the one to the node, at the node
    with the heading of the first pose of the expansion, then the expansion. *)
Theorem C66_joined : forall (V : Type) (veqb : V -> V -> bool) prev is_start pose_of cur p l e t fuel,
  (forall u v, veqb u v = true <-> u = v) -> prev cur = Some p -> trace prev is_start p l -> NoDup l ->
  (forall v, In v l -> prev v <> Some v) -> (length l <= fuel)%nat ->
  joined veqb prev is_start pose_of fuel cur (e :: t) = Some (map pose_of l ++ Pose (po_x (pose_of cur)) (po_y (pose_of cur)) (po_th e) :: e :: t).
Proof.
  intros V veqb prev is_start pose_of cur p l e t fuel Hv Hp Ht Hn Hs Hf. unfold joined. rewrite Hp. cbn [obind].
  assert (SELF : forall v, prev v <> Some v -> match prev v with Some q => veqb q v | None => false end = false).
  { intros v Hne. destruct (prev v) as [q|]; [|reflexivity]. destruct (veqb q v) eqn:Q; [apply Hv in Q; congruence|reflexivity]. }
  assert (INp : In p l) by (destruct Ht; apply in_or_app || idtac; [left; reflexivity|right; left; reflexivity]).
  rewrite SELF by (apply Hs, INp).
  assert (B : forall l v, trace prev is_start v l -> forall fuel seen path, NoDup l -> (forall u, In u l -> prev u <> Some u) -> (length l <= fuel)%nat -> (forall u, In u l -> ~ In u seen) ->
    exists r, l = r ++ [v] /\ back veqb prev is_start fuel v seen path = Some (r ++ rev path)).
  { clear - Hv SELF. intros l v T. induction T as [v Sv|v p l Sv Pv T IH]; intros fuel seen path ND NS LF NI.
    - destruct fuel as [|k]; [cbn in LF; lia|]. exists []. split; [reflexivity|]. cbn [back]. rewrite Sv. reflexivity.
    - rewrite app_length in LF. cbn [length] in LF. destruct fuel as [|k]; [lia|]. exists l. split; [reflexivity|]. cbn [back]. rewrite Sv.
      assert (existsb (veqb v) seen = false) as ->.
      { destruct (existsb (veqb v) seen) eqn:X; [|reflexivity]. apply existsb_exists in X. destruct X as (u & U1 & U2). apply Hv in U2. subst u. exfalso. apply (NI v); [apply in_or_app; right; left; reflexivity|exact U1]. }
      rewrite Pv. cbn [obind]. assert (Ip : In p l) by (destruct T; [left; reflexivity|apply in_or_app; right; left; reflexivity]).
      rewrite SELF by (apply NS, in_or_app; left; exact Ip).
      assert (ND' : NoDup l /\ ~ In v l) by (apply NoDup_remove in ND; rewrite app_nil_r in ND; exact ND).
      destruct (IH k (v :: seen) (path ++ [p])) as (r & Er & Eb); [apply ND'|intros u U; apply NS, in_or_app; left; exact U|lia| |].
      { intros u U [<-|W]; [apply (proj2 ND'), U|]. apply (NI u); [apply in_or_app; left; exact U|exact W]. }
      rewrite Eb, Er. f_equal. rewrite rev_app_distr, <- app_assoc. reflexivity. }
  destruct (B l p Ht fuel [] [p] Hn Hs Hf ltac:(intros u _ [])) as (r & Er & Eb). rewrite Eb. cbn [obind rev app]. rewrite <- Er.
  destruct l as [|x l']; [destruct r; discriminate|]. f_equal. rewrite <- app_assoc. reflexivity.
Qed.
(** Refuted: an expansion from a start node. Its copy is not recognised as a start node
    and it has no predecessor: an assertion fails. *)
Theorem C66_start_refuted : forall (V : Type) (veqb : V -> V -> bool) prev is_start pose_of cur fuel expansion,
  prev cur = None -> joined veqb prev is_start pose_of fuel cur expansion = None.
Proof. intros V veqb prev is_start pose_of cur fuel [|e t] H; [reflexivity|]. unfold joined. rewrite H. reflexivity. Qed.

(** ** Examples *)
Definition ex_map : rmap := RM 40 40 (fun _ _ => 0%Z) (fun _ _ => true) (radius_m / 2).
Lemma ex_valid : exists sq, x_valid clamp_ref ex_map (Pose 10 10 0) (Pose 20 10 0) sq 10.
Proof.
  pose proof PI_RGT_0 as HP. assert (RAD : radius_m / (radius_m / 2) = 2) by (unfold radius_m; lra).
  assert (Cz : forall z, (-2147483648 <= z < 2147483648)%Z -> cast_i32 (IZR z) = Some z).
  { intros z Hz. unfold cast_i32. cbv zeta. rewrite Ztrunc_IZR. unfold in_i32. replace ((-2147483648 <=? z)%Z && (z <? 2147483648)%Z) with true by lia. reflexivity. }
  set (q := clamp_ref (0 - PI / 2)).
  set (a := CSeg LeftC Forward (Pt 10 12) 2 q q). set (c := CSeg LeftC Forward (Pt 20 12) 2 q q). set (b := LS Forward (Pt 10 10) (Pt 20 10)).
  assert (CL : forall k, center_for LeftC (Pose (IZR k) 10 0) 2 = Pt (IZR k) 12).
  { intros k. unfold center_for, center_left, from_polar. cbn [po_th po_x po_y px py]. rewrite Rplus_0_l, cos_PI2, sin_PI2. f_equal; lra. }
  assert (F1 : init_first clamp_ref (x_params ex_map) (Pose 10 10 0) (CSeg LeftC Forward (Pt 0 0) 0 0 0) = CSeg LeftC Forward (Pt 10 12) 2 q 0).
  { unfold init_first. cbn [cs_with_r cs_ori cs_dir cs_c cs_r cs_a0 cs_a1 x_params ex_map rm_res rp_radius]. rewrite RAD, (CL 10%Z). reflexivity. }
  assert (F2 : init_last clamp_ref (x_params ex_map) (Pose 20 10 0) (CSeg LeftC Forward (Pt 0 0) 0 0 0) = CSeg LeftC Forward (Pt 20 12) 2 0 q).
  { unfold init_last. cbn [cs_with_r cs_ori cs_dir cs_c cs_r cs_a0 cs_a1 x_params ex_map rm_res rp_radius]. rewrite RAD, (CL 20%Z). reflexivity. }
  assert (AN : angle (psub (Pt 20 12) (Pt 10 12)) = 0).
  { unfold angle, psub. cbn [px py]. replace (20 - 10) with (10 * cos 0) by (rewrite cos_0; lra). replace (12 - 12) with (10 * sin 0) by (rewrite sin_0; lra). apply polar_atan2; lra. }
  assert (HL : len (psub (Pt 10 12) (Pt 20 12)) = 10) by (rewrite len_hyp; unfold psub; cbn [px py]; apply hyp_unique; lra).
  assert (T : common_tangent clamp_ref (init_first clamp_ref (x_params ex_map) (Pose 10 10 0) (CSeg LeftC Forward (Pt 0 0) 0 0 0)) Forward (init_last clamp_ref (x_params ex_map) (Pose 20 10 0) (CSeg LeftC Forward (Pt 0 0) 0 0 0)) = Some (a, b, c)).
  { rewrite F1, F2. unfold common_tangent. cbn [cs_c cs_r cs_ori ori_eqb]. rewrite HL. destruct (Rlt_dec 10 (2 + 2)); [lra|]. unfold external_tangent. cbn [cs_c cs_r cs_ori cs_dir isBwd]. rewrite AN.
    cbn [xorb]. assert (O : pmul (normalize (ortho (psub (Pt 20 12) (Pt 10 12)))) 2 = Pt 0 (-2)).
    { unfold normalize, resize. assert (LO : len (ortho (psub (Pt 20 12) (Pt 10 12))) = 10) by (rewrite len_hyp; unfold ortho, psub; cbn [px py]; apply hyp_unique; lra). rewrite LO. unfold pmul, pdiv, ortho, psub. cbn [px py]. f_equal; lra. }
    unfold set_end_for, set_start_for, set_end, set_start, angle_for, a, b, c. cbn [cs_ori cs_dir cs_c cs_r cs_a0 cs_a1]. replace (0 - 0 - PI / 2) with (0 - PI / 2) by ring. fold q. rewrite O. unfold padd. cbn [px py].
    repeat f_equal; lra. }
  assert (Z0 : forall k, arc_len clamp_ref (CSeg LeftC Forward k 2 q q) = 0) by (intros k; apply (C42_empty_refuted clamp_ref Forward k 2 q clamp_ref_halfopen)).
  assert (WC : forall k, (2 <= k < 30)%Z -> circle_weight clamp_ref ex_map (x_params ex_map) (CSeg LeftC Forward (Pt (IZR k) 12) 2 q q) false = Some 0).
  { intros k Hk. destruct (C41_weight clamp_ref ex_map (x_params ex_map) (CSeg LeftC Forward (Pt (IZR k) 12) 2 q q) false k 12 2 clamp_ref_halfopen) as (w & cells & E & _ & _ & _ & F); [apply way_pos; cbn [ex_map rm_res]; unfold radius_m; lra|apply Cz; lia|apply (Cz 12%Z); lia|apply (Cz 2%Z); lia|lia|].
    rewrite E. f_equal. rewrite F.
    2: { right. split; [|reflexivity]. intros [u v] Hq. cbn [fst snd] in Hq |- *. destruct (C41_ring_near 2 (u - k) (v - 12) ltac:(lia) Hq) as [[_ N] _].
      pose proof (small_sq _ _ N) as N1. rewrite Z.add_comm in N. pose proof (small_sq _ _ N) as N2. unfold rm_in, ex_map. cbn [rm_w rm_h]. lia. }
    cbn [x_params rp_use_map]. unfold cs_length, cs_arc. rewrite Z0, Rabs_R0. ring. }
  assert (WL : line_weight ex_map (x_params ex_map) b false = Some 10).
  { destruct (C40_weight ex_map (x_params ex_map) b false 10 10 20 10) as (w & E & _ & F); try (apply Cz; lia). rewrite E. f_equal. rewrite F by (right; split; [reflexivity|intros; reflexivity]). cbn [x_params rp_use_map].
    assert (ls_length b = 10) as -> by (unfold ls_length, b; cbn [ls_a ls_b]; rewrite len_hyp; unfold psub; cbn [px py]; apply hyp_unique; lra). unfold dir_cost, x_params, b. cbn [ls_dir rp_fwd rp_straight]. ring. }
  assert (S : sum_weights clamp_ref ex_map (x_params ex_map) false [SegC a; SegL b; SegC c] = Some 10).
  { cbn [sum_weights]. unfold a, c. rewrite (WC 10%Z), (WC 20%Z), WL by lia. cbn [obind]. f_equal. ring. }
  exists [SegC a; SegL b; SegC c], LeftC, LeftC. split; [|split; [unfold NOT_FREE; lra|]].
  - apply C38_candidate; [unfold NOT_FREE; lra|]. split; [unfold pose_dist; cbn [po_x po_y]; apply Rsqr_incr_0_var; [unfold Rsqr; rewrite sqrt_sqrt; lra|apply sqrt_pos]|]. split; [exact S|].
    left. eexists _, _, _, a, b, c. split; [reflexivity|]. split; [exact T|reflexivity].
  - cbn [turning]. unfold a, c. rewrite !Z0, Rabs_R0. lra.
Qed.
(** Two calls of a fresh instance with N = 250 for a node ten cells in front of the
    goal: no attempt, then an attempt that succeeds. *)
Example C66_example : let call := (ex_map, XN (Pose 10 10 0) true 10, Pose 20 10 0) in
  exists s0 s1 s2, x_new 250 true = Some s0 /\ x_run 250 true false clamp_ref [call] s0 = Some ([(false, false)], s1) /\
    x_expand 250 true false clamp_ref ex_map s1 (XN (Pose 10 10 0) true 10) (Pose 20 10 0) = Some (true, true, s2).
Proof.
  intros call. assert (HN : (0 <= 250 <= 2147483645)%Z) by lia. assert (Ha : 0 <= xn_h (XN (Pose 10 10 0) true 10)) by (cbn; lra).
  assert (Hz : sizes ex_map (Pose 10 10 0) (Pose 20 10 0)).
  { split; [cbn [ex_map rm_res]; unfold radius_m; lra|]. unfold bounded, pt_of_pose. cbn [px py po_x po_y]. rewrite !Rabs_pos_eq by lra. lra. }
  destruct (x_new 250 true) as [s0|] eqn:E0; [|vm_compute in E0; discriminate]. exists s0.
  destruct (x_expand 250 true false clamp_ref ex_map s0 (XN (Pose 10 10 0) true 10) (Pose 20 10 0)) as [[[at1 r1] s1]|] eqn:E1.
  2: { exfalso. exact (C66_defined 250 true false clamp_ref [] [] s0 s0 ex_map (XN (Pose 10 10 0) true 10) (Pose 20 10 0) HN ltac:(intros c []) Ha clamp_ref_ok Hz E0 eq_refl E1). }
  destruct (C66_first _ _ _ _ _ _ _ _ _ _ _ E0 HN Ha E1) as [-> ->].
  assert (R1 : x_run 250 true false clamp_ref [call] s0 = Some ([(false, false)], s1)) by (unfold call; cbn [x_run]; rewrite E1; reflexivity).
  assert (HM : 0 < rm_res ex_map) by (cbn [ex_map rm_res]; unfold radius_m; lra).
  assert (NN : nonneg [call]) by (intros c [<-|[]]; exact Ha).
  destruct (x_expand 250 true false clamp_ref ex_map s1 (XN (Pose 10 10 0) true 10) (Pose 20 10 0)) as [[[at2 r2] s2]|] eqn:E2.
  2: { exfalso. exact (C66_defined 250 true false clamp_ref [call] _ s0 s1 ex_map (XN (Pose 10 10 0) true 10) (Pose 20 10 0) HN NN Ha clamp_ref_ok Hz E0 R1 E2). }
  exists s1, s2. split; [reflexivity|]. split; [exact R1|].
  destruct (C66_schedule _ _ _ _ _ _ _ _ _ _ _ _ _ _ HN NN Ha E0 R1 E2) as [D _].
  assert (at2 = true) as ->. { apply D. split; [reflexivity|]. split; [discriminate|]. left. intros e [<-|[]]. unfold tried. cbn. discriminate. }
  assert (r2 = true) as ->; [|exact E2]. apply (C66_complete _ _ _ _ _ _ _ _ _ _ _ _ _ HN NN Ha clamp_ref_ok HM eq_refl E0 R1 E2).
  destruct ex_valid as [sq V]. exists sq, 10. exact V.
Qed.
(** A chain of three nodes: start, predecessor, current node. *)
Example C66_joined_example : joined Nat.eqb (fun v => match v with 2 => Some 1 | 1 => Some 0 | _ => None end)%nat (Nat.eqb 0) (fun v => Pose (INR v) 0 7) 2 2%nat [Pose 5 5 3] =
  Some [Pose 0 0 7; Pose 1 0 7; Pose (INR 2) 0 3; Pose 5 5 3].
Proof. reflexivity. Qed.
