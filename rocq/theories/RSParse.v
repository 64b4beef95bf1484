(** The pattern language of the Reeds-Shepp CurveGenerator: model of
    S/ReedsShepp/CurveGenerator.cpp:76-178 and property C37. *)
From Coq Require Import List Bool Ascii Arith Lia.
Import ListNotations.
Local Open Scope char_scope.

(** CurveSegment.h:29-32, CircleSegment.h:29-32. *)
Inductive rdir := Forward | Backward.
Inductive rori := LeftC | RightC.
(** Segments as the parser creates them (the geometry is filled in later). *)
Inductive pseg := PLine (d : rdir) | PCirc (o : rori) (d : rdir).

(** CurveGenerator.cpp:148-151. *)
Definition flip (d : rdir) : rdir := match d with Forward => Backward | Backward => Forward end.

(** The loop state: direction, is_sub_pattern, new_curve. *)
Record pstate := PS { ps_dir : rdir; ps_sub : bool; ps_curve : list pseg }.
(** One character. [Abort]: the assertion in Curve::get_segment (Curve.cpp:79) fails. *)
Inductive step_result := Go (s : pstate) | Err | Abort.

(** CurveGenerator.cpp:97-107: the last segment decides. *)
Definition sub_b (s : pstate) : step_result :=
  match rev (ps_curve s) with
  | [] => Abort
  | PCirc _ _ :: _ => Go s
  | PLine _ :: _ => Err
  end.
(** CurveGenerator.cpp:88-162. *)
Definition pstep (s : pstate) (c : ascii) : step_result :=
  if ps_sub s then
    match c with
    | "(" => Err
    | "b" => sub_b s
    | "p" => Go s
    | ")" => Go (PS (ps_dir s) false (ps_curve s))
    | _ => Err
    end
  else
    match c with
    | "(" => Go (PS (ps_dir s) true (ps_curve s))
    | ")" => Err
    | "S" => Go (PS (ps_dir s) (ps_sub s) (ps_curve s ++ [PLine (ps_dir s)]))
    | "R" => Go (PS (ps_dir s) (ps_sub s) (ps_curve s ++ [PCirc RightC (ps_dir s)]))
    | "L" => Go (PS (ps_dir s) (ps_sub s) (ps_curve s ++ [PCirc LeftC (ps_dir s)]))
    | "|" => Go (PS (flip (ps_dir s)) (ps_sub s) (ps_curve s))
    | _ => Err
    end.
Fixpoint prun (s : pstate) (w : list ascii) : step_result :=
  match w with
  | [] => Go s
  | c :: r => match pstep s c with Go s' => prun s' r | e => e end
  end.
(** CurveGenerator.cpp:76-178 on the generator's list of curves: [Some (returned
    value, m_curves afterwards)], [None] if an assertion fails. The messages
    written to the stream are not modelled. *)
Definition parse (curves : list (list pseg)) (w : list ascii) : option (bool * list (list pseg)) :=
  match prun (PS Forward false []) w with
  | Abort => None
  | Err => Some (true, curves)
  | Go s => if ps_sub s then Some (true, curves) else Some (false, curves ++ [ps_curve s])
  end.

(** ** Specification: the pattern language *)
(** The segments a string denotes: every S, R, L in turn, driven backward if an odd
    number of bars stands before it. *)
Fixpoint bars (w : list ascii) : nat :=
  match w with [] => 0 | c :: r => (if ascii_dec c "|" then 1 else 0) + bars r end.
Definition dir_after (w : list ascii) : rdir := if Nat.even (bars w) then Forward else Backward.
(** [pre]: what has been read. *)
Fixpoint denoted (pre w : list ascii) : list pseg :=
  match w with
  | [] => []
  | c :: r =>
      (if ascii_dec c "S" then [PLine (dir_after pre)]
       else if ascii_dec c "R" then [PCirc RightC (dir_after pre)]
       else if ascii_dec c "L" then [PCirc LeftC (dir_after pre)] else [])
      ++ denoted (pre ++ [c]) r
  end.

(** A string is well formed if it is a sequence of S, R, L, | and groups in
    parentheses; a group consists of b and p, and b needs a curve before the group. *)
Definition is_item (c : ascii) : Prop := c = "S" \/ c = "R" \/ c = "L" \/ c = "|".
Definition ends_in_curve (w : list ascii) : Prop :=
  exists o d r, denoted [] w = r ++ [PCirc o d].
Inductive well_formed : list ascii -> Prop :=
| wf_nil : well_formed []
| wf_item w c : well_formed w -> is_item c -> well_formed (w ++ [c])
| wf_group w g : well_formed w -> (forall c, In c g -> c = "b" \/ c = "p") ->
    (In "b" g -> ends_in_curve w) -> well_formed (w ++ "(" :: g ++ [")"]).

(** The documented language (CurveGenerator.h:38-43) has no groups. *)
Definition documented (w : list ascii) : Prop := forall c, In c w -> is_item c.

(** ** Proofs *)
Lemma bars_app a b : bars (a ++ b) = bars a + bars b.
Proof. induction a as [|c a IH]; cbn; [reflexivity|]. rewrite IH. lia. Qed.
Lemma denoted_app w : forall pre v, denoted pre (w ++ v) = denoted pre w ++ denoted (pre ++ w) v.
Proof.
  induction w as [|c w IH]; intros pre v; cbn [denoted app].
  - rewrite app_nil_r. reflexivity.
  - rewrite IH, <- app_assoc. cbn. rewrite <- !app_assoc. reflexivity.
Qed.
Lemma dir_snoc w c : dir_after (w ++ [c]) = if ascii_dec c "|" then flip (dir_after w) else dir_after w.
Proof.
  unfold dir_after. rewrite bars_app. cbn [bars]. destruct (ascii_dec c "|").
  - replace (bars w + (1 + 0)) with (S (bars w)) by lia. rewrite Nat.even_succ, <- Nat.negb_even. destruct (Nat.even (bars w)); reflexivity.
  - replace (bars w + (0 + 0)) with (bars w) by lia. reflexivity.
Qed.
Lemma denoted_snoc w c : denoted [] (w ++ [c]) = denoted [] w ++
  (if ascii_dec c "S" then [PLine (dir_after w)] else if ascii_dec c "R" then [PCirc RightC (dir_after w)]
   else if ascii_dec c "L" then [PCirc LeftC (dir_after w)] else []).
Proof. rewrite denoted_app. cbn [denoted]. cbn [app]. rewrite app_nil_r. reflexivity. Qed.

(** What the scanner has reached after reading [w]: outside a group, or inside one. *)
Inductive inside : list ascii -> Prop :=
| in_group w g : well_formed w -> (forall c, In c g -> c = "b" \/ c = "p") -> (In "b" g -> ends_in_curve w) -> inside (w ++ "(" :: g).
Definition reached (w : list ascii) (s : pstate) : Prop :=
  ps_dir s = dir_after w /\ ps_curve s = denoted [] w /\ (if ps_sub s then inside w else well_formed w).

Lemma group_silent g : forall pre, (forall c, In c g -> c = "b" \/ c = "p" \/ c = "(" \/ c = ")") -> denoted pre g = [] /\ bars g = 0.
Proof.
  induction g as [|c g IH]; intros pre H; cbn [denoted bars]; [auto|].
  destruct (IH (pre ++ [c])) as [E1 E2]; [intros x Hx; apply H; right; assumption|]. rewrite E1, E2.
  destruct (H c (or_introl eq_refl)) as [-> | [-> | [-> | ->]]]; cbn; auto.
Qed.
Lemma denoted_group w g : (forall c, In c g -> c = "b" \/ c = "p") -> denoted [] (w ++ "(" :: g) = denoted [] w.
Proof.
  intros H. rewrite denoted_app. destruct (group_silent ("(" :: g) ([] ++ w)) as [E _]; [|rewrite E; apply app_nil_r].
  intros c [<-|Hc]; [auto|]. destruct (H c Hc); auto.
Qed.

Lemma ascii_match {A} (c k : ascii) (x y : A) : c = k \/ c <> k.
Proof. destruct (ascii_dec c k); auto. Qed.

(** All characters the scanner looks at. *)
Ltac char_cases c :=
  destruct (ascii_dec c "(") as [?|?]; [subst c|destruct (ascii_dec c ")") as [?|?]; [subst c|
  destruct (ascii_dec c "S") as [?|?]; [subst c|destruct (ascii_dec c "R") as [?|?]; [subst c|
  destruct (ascii_dec c "L") as [?|?]; [subst c|destruct (ascii_dec c "|") as [?|?]; [subst c|
  destruct (ascii_dec c "b") as [?|?]; [subst c|destruct (ascii_dec c "p") as [?|?]; [subst c|]]]]]]]].

Lemma pstep_other s c : c <> "(" -> c <> ")" -> c <> "S" -> c <> "R" -> c <> "L" -> c <> "|" -> c <> "b" -> c <> "p" -> pstep s c = Err.
Proof.
  intros. unfold pstep. destruct (ps_sub s); destruct c as [[] [] [] [] [] [] [] []]; try reflexivity; exfalso; congruence.
Qed.
Lemma prun_app w v : forall s, prun s (w ++ v) = match prun s w with Go s' => prun s' v | e => e end.
Proof. induction w as [|c w IH]; intros s; cbn [prun app]; [reflexivity|]. destruct (pstep s c); auto. Qed.
Definition init : pstate := PS Forward false [].

Lemma denoted_open w : denoted [] (w ++ ["("]) = denoted [] w /\ dir_after (w ++ ["("]) = dir_after w.
Proof. rewrite denoted_snoc, dir_snoc. cbn. rewrite app_nil_r. auto. Qed.
Lemma inside_close w : inside w -> well_formed (w ++ [")"]).
Proof. intros [v g H1 H2 H3]. replace ((v ++ "(" :: g) ++ [")"]) with (v ++ "(" :: g ++ [")"]) by (rewrite <- app_assoc; reflexivity). apply wf_group; assumption. Qed.

Lemma reached_step w s c s' : reached w s -> pstep s c = Go s' -> reached (w ++ [c]) s'.
Proof.
  intros (Hd & Hc & Hw) E. unfold reached. rewrite dir_snoc, denoted_snoc.
  destruct s as [d sub cv]. cbn [ps_dir ps_sub ps_curve] in *. destruct sub.
  - (* in a group *)
    char_cases c; try (rewrite pstep_other in E by assumption; discriminate E); cbn in E; try discriminate.
    + injection E as <-. cbn. rewrite app_nil_r. split; [assumption|]. split; [assumption|]. apply inside_close. assumption.
    + unfold sub_b in E. cbn [ps_curve] in E. destruct (rev cv) as [|[d'|o d'] r] eqn:Er; try discriminate. injection E as <-. cbn. rewrite app_nil_r.
      split; [assumption|]. split; [assumption|]. destruct Hw as [v g H1 H2 H3]. rewrite <- app_assoc. cbn. apply in_group; [assumption| |].
      * intros x Hx. apply in_app_or in Hx. destruct Hx as [Hx|[<-|[]]]; auto.
      * intros _. exists o, d', (rev r). rewrite <- (denoted_group v g H2), <- Hc. rewrite <- (rev_involutive cv), Er. reflexivity.
    + injection E as <-. cbn. rewrite app_nil_r. split; [assumption|]. split; [assumption|]. destruct Hw as [v g H1 H2 H3]. rewrite <- app_assoc. cbn. apply in_group; [assumption| |].
      * intros x Hx. apply in_app_or in Hx. destruct Hx as [Hx|[<-|[]]]; auto.
      * intros Hb. apply H3. apply in_app_or in Hb. destruct Hb as [Hb|[Hb|[]]]; [assumption|discriminate].
  - char_cases c; try (rewrite pstep_other in E by assumption; discriminate E); cbn in E; try discriminate; try (injection E as <-; cbn; rewrite ?app_nil_r; subst; split; [reflexivity|]; split; [reflexivity|]).
    + replace (w ++ ["("]) with (w ++ "(" :: []) by reflexivity. apply in_group; [assumption|intros x []|intros []].
    + apply wf_item; [assumption|unfold is_item; auto].
    + apply wf_item; [assumption|unfold is_item; auto].
    + apply wf_item; [assumption|unfold is_item; auto].
    + apply wf_item; [assumption|unfold is_item; auto].
Qed.
Lemma reached_init : reached [] init.
Proof. split; [reflexivity|]. split; [reflexivity|]. apply wf_nil. Qed.
Lemma run_reached v : forall w s s', reached w s -> prun s v = Go s' -> reached (w ++ v) s'.
Proof.
  induction v as [|c v IH]; intros w s s' H E; cbn [prun] in E.
  - injection E as <-. rewrite app_nil_r. assumption.
  - destruct (pstep s c) as [s1| |] eqn:E1; try discriminate. replace (w ++ c :: v) with ((w ++ [c]) ++ v) by (rewrite <- app_assoc; reflexivity).
    apply (IH _ s1); [|assumption]. apply (reached_step _ s); assumption.
Qed.

Lemma run_group g cv d : (forall c, In c g -> c = "b" \/ c = "p") -> (In "b" g -> exists o d' r, cv = r ++ [PCirc o d']) ->
  prun (PS d true cv) g = Go (PS d true cv).
Proof.
  induction g as [|c g IH]; intros H1 H2; cbn [prun]; [reflexivity|].
  assert (E : pstep (PS d true cv) c = Go (PS d true cv)).
  { destruct (H1 c (or_introl eq_refl)) as [-> | ->]; [|reflexivity]. cbn. unfold sub_b. cbn [ps_curve].
    destruct (H2 (or_introl eq_refl)) as (o & d' & r & ->). rewrite rev_app_distr. reflexivity. }
  rewrite E. apply IH; [intros x Hx; apply H1; right; assumption|intros Hb; apply H2; right; assumption].
Qed.
Lemma well_formed_runs w : well_formed w -> prun init w = Go (PS (dir_after w) false (denoted [] w)).
Proof.
  induction 1 as [|w c Hw IH Hc|w g Hw IH Hg Hb].
  - reflexivity.
  - rewrite prun_app, IH. cbn [prun]. rewrite dir_snoc, denoted_snoc.
    destruct Hc as [-> | [-> | [-> | ->]]]; cbn; rewrite ?app_nil_r; reflexivity.
  - rewrite prun_app, IH. cbn [prun]. cbn [pstep ps_sub ps_dir ps_curve]. change (match prun ?s ?v with Go s' => Go s' | Err => Err | Abort => Abort end) with (prun s v).
    rewrite prun_app, run_group; [|assumption|].
    + cbn. f_equal.
      assert (S : forall x, In x ("(" :: g ++ [")"]) -> x = "b" \/ x = "p" \/ x = "(" \/ x = ")").
      { intros x [<-|Hx]; [auto|]. apply in_app_or in Hx. destruct Hx as [Hx|[<-|[]]]; [destruct (Hg x Hx); auto|auto]. }
      destruct (group_silent _ ([] ++ w) S) as [E1 E2]. rewrite denoted_app, E1, app_nil_r. unfold dir_after. rewrite bars_app, E2, Nat.add_0_r. reflexivity.
    + intros Hin. destruct (Hb Hin) as (o & d' & r & E). exists o, d', r. assumption.
Qed.

(** Exactly the well formed strings are accepted (the function then returns [false]);
    the curve appended is the one the string denotes. *)
Theorem C37_accepts : forall curves w,
  (well_formed w -> parse curves w = Some (false, curves ++ [denoted [] w])) /\
  (forall curves', parse curves w = Some (false, curves') -> well_formed w /\ curves' = curves ++ [denoted [] w]).
Proof.
  intros curves w. split.
  - intros H. unfold parse. fold init. rewrite (well_formed_runs w H). reflexivity.
  - intros curves' E. unfold parse in E. fold init in E. destruct (prun init w) as [s| |] eqn:Er; try discriminate.
    pose proof (run_reached w [] init s reached_init Er) as (_ & Hc & Hw). cbn [app] in *. destruct (ps_sub s); [discriminate|]. injection E as <-. rewrite Hc. auto.
Qed.
(** A rejected string leaves the generator unchanged and makes the function return [true]. *)
Theorem C37_rejects : forall curves w b curves', ~ well_formed w -> parse curves w = Some (b, curves') -> b = true /\ curves' = curves.
Proof.
  intros curves w b curves' H E. unfold parse in E. fold init in E. destruct (prun init w) as [s| |] eqn:Er; try discriminate.
  - pose proof (run_reached w [] init s reached_init Er) as (_ & _ & Hw). cbn [app] in *. destruct (ps_sub s); [|contradiction]. injection E as <- <-. auto.
  - injection E as <- <-. auto.
Qed.
(** The call aborts exactly if a b stands in a group before the first segment. *)
Theorem C37_aborts : forall curves w, parse curves w = None <->
  exists v g r, w = v ++ "(" :: g ++ "b" :: r /\ well_formed v /\ denoted [] v = [] /\ forall c, In c g -> c = "p".
Proof.
  intros curves w. assert (N : parse curves w = None <-> prun init w = Abort).
  { unfold parse. fold init. destruct (prun init w) as [s| |]; [destruct (ps_sub s)| |]; split; congruence. }
  rewrite N. clear N. split.
  - intros E. assert (G : forall u s v, reached v s -> prun s u = Abort -> exists x y s', u = x ++ "b" :: y /\ reached (v ++ x) s' /\ ps_sub s' = true /\ ps_curve s' = []).
    { induction u as [|c u IH]; intros s v Hr Eu; cbn [prun] in Eu; [discriminate|].
      destruct (pstep s c) as [s1| |] eqn:E1; [|discriminate|].
      - destruct (IH s1 (v ++ [c])) as (x & y & s' & -> & H1 & H2 & H3); [apply (reached_step _ s); assumption|assumption|].
        exists (c :: x), y, s'. rewrite <- app_assoc in H1. auto.
      - exists [], u, s. rewrite app_nil_r. destruct (ps_sub s) eqn:Es; destruct (ascii_dec c "b") as [->|Hc].
        + split; [reflexivity|]. split; [assumption|]. split; [reflexivity|]. unfold pstep in E1. rewrite Es in E1. unfold sub_b in E1.
          destruct (rev (ps_curve s)) as [|[]] eqn:Er; try discriminate. rewrite <- (rev_involutive (ps_curve s)), Er. reflexivity.
        + exfalso. unfold pstep in E1. rewrite Es in E1. char_cases c; try discriminate; try congruence. destruct c as [[] [] [] [] [] [] [] []]; discriminate || congruence.
        + exfalso. unfold pstep in E1. rewrite Es in E1. discriminate.
        + exfalso. unfold pstep in E1. rewrite Es in E1. char_cases c; try discriminate; try congruence. destruct c as [[] [] [] [] [] [] [] []]; discriminate || congruence. }
    destruct (G w init [] reached_init E) as (x & y & s' & -> & (_ & H1 & H2) & H3 & H4). cbn [app] in *. rewrite H3 in H2.
    destruct H2 as [v g W Hg Hb]. rewrite denoted_group in H1 by assumption. exists v, g, y. split; [rewrite <- app_assoc; reflexivity|]. split; [assumption|]. split; [congruence|].
    intros c Hc. destruct (Hg c Hc) as [-> | ->]; [|reflexivity]. destruct (Hb Hc) as (o & d & r & Er). rewrite H4 in H1. rewrite Er in H1. destruct r; discriminate.
  - intros (v & g & r & -> & W & D & Hg). rewrite prun_app, (well_formed_runs v W). cbn [prun pstep ps_sub ps_dir ps_curve].
    change (match prun ?s ?v with Go s' => Go s' | Err => Err | Abort => Abort end) with (prun s v).
    rewrite prun_app, run_group.
    + cbn. unfold sub_b. cbn [ps_curve]. rewrite D. reflexivity.
    + intros c Hc. right. apply Hg. assumption.
    + intros Hb. specialize (Hg _ Hb). discriminate.
Qed.
(** Documented strings (S, R, L, | only) are always accepted. *)
Theorem C37_documented : forall curves w, documented w -> parse curves w = Some (false, curves ++ [denoted [] w]).
Proof.
  intros curves w H. apply C37_accepts. induction w as [|c w IH] using rev_ind; [constructor|].
  apply wf_item; [apply IH; intros x Hx|]; apply H; apply in_or_app; [left; assumption|right; left; reflexivity].
Qed.
(** The i-th segment character is the i-th segment; bars decide its direction. *)
Theorem C37_denoted_nth : forall u c v, is_item c -> c <> "|" ->
  nth_error (denoted [] (u ++ c :: v)) (length (denoted [] u)) =
  Some (if ascii_dec c "S" then PLine (dir_after u) else PCirc (if ascii_dec c "R" then RightC else LeftC) (dir_after u)).
Proof.
  intros u c v Hi Hn. rewrite denoted_app, nth_error_app2, Nat.sub_diag by apply le_n. cbn [denoted app].
  destruct Hi as [-> | [-> | [-> | ->]]]; [reflexivity|reflexivity|reflexivity|congruence].
Qed.
(** CurveGenerator.h:44 promises [true] for correct sequences: it is the other way round. *)
Theorem C37_return_inverted_refuted : forall curves w, documented w -> exists curves', parse curves w = Some (false, curves').
Proof. intros curves w H. eexists. apply C37_documented. assumption. Qed.
(** ... and an empty string or one without segments is accepted, too. *)
Example C37_example : parse [] ["L"; "|"; "R"; "("; "b"; "p"; ")"; "|"; "S"] = Some (false, [[PCirc LeftC Forward; PCirc RightC Backward; PLine Forward]]) /\
  well_formed ["L"; "|"; "R"; "("; "b"; "p"; ")"; "|"; "S"] /\
  parse [] ["L"; "("; "S"; ")"] = Some (true, []) /\ parse [] ["("; "b"; ")"] = None.
Proof.
  split; [reflexivity|]. split; [|split; reflexivity]. apply (C37_accepts [] _) with [[PCirc LeftC Forward; PCirc RightC Backward; PLine Forward]]. reflexivity.
Qed.
