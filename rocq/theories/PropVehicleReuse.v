(** C82: a vehicle search object that is used again. *)
From Coq Require Import Reals Lra Permutation.
From Flocq Require Import Core.Raux.
From Verif Require Import Base GridMap GridMapProofs GridSpec BresenhamProofs GeomR PropGeom MapManagers SteerModel PropSteer PropSteerCost
  GenericProofs OpenPolicies VehicleSearch VehicleProofs VehicleAny VehicleModel VehicleInst VehicleGen PropVehicle PropVehicleEnd VehicleTest VehicleTestProofs VehicleFind
  PropVehicleTest PropVehicleJump PropVehicleStart PropVehicleCase VehicleReuse VehicleReuseProofs.
Local Open Scope R_scope.

(** ** Specification *)
(** A call of findPath with a goal pose (with a candidate callback and an oversearch
    distance, if any) or with the caller's own goal test. *)
Inductive request : Type :=
| AskPose (T : Type) (cb : option (T -> list (vkey * snode) -> T * bool)) (t : T) (osd : R) (timeout : nat -> bool) (other : R * R * R)
| AskTest (T : Type) (hgoal : option snode) (test : T -> (vkey -> vinfo vkey snode) -> vkey -> T * list R * bool) (t : T) (osd : R) (timeout : nat -> bool).
(** The goal lies in another cell than the pose from which is searched. *)
Definition elsewhere (pose : R * R * R) (q : request) : Prop :=
  match q with AskPose _ _ _ _ _ other => cell_at other <> cell_at pose | AskTest _ _ _ _ _ _ => True end.
(** The slots of the start: the cell of the pose, heading 0, forwards and backwards. *)
Definition at_start (pose : R * R * R) (v : vkey) : Prop := fst v = (cell_at pose, 15%Z).
(** The search looked at a node that is no start node. *)
Definition looked_beyond (pose : R * R * R) (r : vfound) : Prop := exists c, In c (vf_calls r) /\ ~ at_start pose (wc_node _ _ c).
(** The search looked at start nodes only, and returned at most one pose or threw. *)
Definition only_start (pose : R * R * R) (r : vfound) : Prop :=
  (forall c, In c (vf_calls r) -> at_start pose (wc_node _ _ c)) /\
  match vf_path r with VPath _ _ l => (length l <= 1)%nat | VUndef _ _ => True | VFuel _ _ => False end.

(** Every node at a positive distance costs more than the start. *)
Definition farther (hval : snode -> snode -> R) (tot : R -> R -> R) : Prop := forall d a b, 0 < d -> tot 0 0 < tot d 0 /\ tot 0 0 < tot d (hval a b).

Section Calls.
  Variable clamp : R -> R.
  Variable p : sparams.
  Variable so : sopts.
  Variable b : nbh.
  Variable hval : snode -> snode -> R.
  Variable tot : R -> R -> R.
  Variable push : (vkey -> R) -> vkey -> list vkey -> list vkey.
  Variable pop : (vkey -> R) -> list vkey -> option (vkey * list vkey).
  Variable queue : list (vkey * R) -> list (vkey * R).
  Variables bf fuel : nat.

  (** One call, searching from [pose]: a reversed neighbourhood searches from the second
      pose of findPath(from, to). *)
  Definition call (pose : R * R * R) (q : request) (o : vobj) : vfound * vobj :=
    match q with
    | AskPose T cb t osd timeout other => vo_findo clamp p so b hval tot push pop queue timeout bf fuel osd cb t o (if sp_rev p then other else pose) (if sp_rev p then pose else other)
    | AskTest T hgoal test t osd timeout => vo_findt clamp p so b hval tot push pop queue timeout bf fuel osd hgoal test t o pose
    end.
  (** One call after the other on the same object. *)
  Fixpoint calls (pose : R * R * R) (qs : list request) (o : vobj) : list vfound :=
    match qs with [] => [] | q :: r => let '(x, o') := call pose q o in x :: calls pose r o' end.
End Calls.

(** ** Proofs *)
Lemma set_fwd_corner x y th f : set_fwd f (at_corner x y th f) = at_corner x y th f.
Proof. reflexivity. Qed.
Lemma at_start_keys pose v : at_start pose v <-> In v (keys_of (fst (cell_at pose)) (snd (cell_at pose))).
Proof.
  unfold at_start, keys_of. destruct v as [[[x y] t] f], (cell_at pose) as [cx cy]. cbn [fst snd In]. split.
  - intros E. injection E as -> -> ->. destruct f; auto.
  - intros [E|[E|[]]]; injection E as -> -> -> _; reflexivity.
Qed.

Section Reuse.
  Variable clamp : R -> R.
  Hypothesis Hclamp : AngleClamp_contract clamp.
  Variable m : gridmap.
  Hypothesis Hm : map_ok m.
  Let Hwf : gm_wf m := mk_wf m Hm.
  Let Hsm := mk_small m Hm.
  Let Hw := mk_w m Hm.
  Let Hh := mk_h m Hm.

  Lemma init_frame th : forall l pay l' pay', v_init m th l pay = Some (l', pay') -> forall w, ~ In w l -> pay' w = pay w.
  Proof using Type.
    clear. induction l as [|v l IH]; intros pay l' pay'; cbn [v_init]; [intros E; injection E as _ <-; reflexivity|].
    destruct (v_occupied m (pay v)) as [[|]|]; cbn [obind]; [| |discriminate].
    - intros E w Hn. apply (IH _ _ _ E). intros X. apply Hn. right. exact X.
    - destruct (v_init m th l _) as [[l1 p1]|] eqn:E1; cbn [obind fst snd]; [|discriminate]. intros E w Hn. injection E as _ <-.
      rewrite (IH _ _ _ E1) by (intros X; apply Hn; right; exact X). apply upd_other. intros ->. apply Hn. left. reflexivity.
  Qed.
  Lemma start_inner pay pose r : start_at clamp m pay pose = Some r -> inner m (fst (cell_at pose)) (snd (cell_at pose)).
  Proof using Hclamp Hm.
    destruct pose as [[x y] th]. unfold start_at, cell_at. cbn [fst snd]. destruct (v_poses clamp m x y pay) as [a|] eqn:Ea; [|discriminate]. intros _.
    unfold v_poses in Ea. destruct (v_lookup clamp m x y 0 true) as [v|] eqn:E1; [|discriminate]. apply (lookup_inv clamp Hclamp m Hsm Hw Hh _ _ _ _ _ E1).
  Qed.
  Lemma start_frame pay pose l pay' : start_at clamp m pay pose = Some (l, pay') -> forall w, ~ at_start pose w -> pay' w = pay w.
  Proof using Hclamp Hm.
    intros E w Hn. pose proof (start_inner _ _ _ E) as Hi. rewrite at_start_keys in Hn. destruct pose as [[x y] th]. unfold start_at in E. unfold cell_at in Hi, Hn. cbn [fst snd] in Hi, Hn.
    destruct (poses_ok clamp Hclamp m Hsm Hw Hh x y pay Hi) as (p1 & E1 & _ & B1). rewrite E1 in E. cbn [obind fst snd] in E.
    rewrite (init_frame _ _ _ _ _ E w Hn). apply B1. exact Hn.
  Qed.
  Lemma start_some pay pose : inner m (fst (cell_at pose)) (snd (cell_at pose)) -> 
    (forall f, exists th, set_fwd f (pay (fst (cell_at pose), snd (cell_at pose), 15%Z, f)) = at_corner (fst (cell_at pose)) (snd (cell_at pose)) th f) ->
    exists o l pay', dyn_isOccupied1 m (fst (cell_at pose)) (snd (cell_at pose)) = Some o /\ start_at clamp m pay pose = Some (l, pay') /\
      l = (if (o : bool) then [] else keys_of (fst (cell_at pose)) (snd (cell_at pose))) /\
      (o = false -> forall v, at_start pose v -> pay' v = at_corner (fst (cell_at pose)) (snd (cell_at pose)) (snd pose) (snd v)).
  Proof using Hclamp Hm.
    destruct pose as [[x y] th]. unfold start_at, cell_at. cbn [fst snd]. intros Hi Hp.
    destruct (poses_ok clamp Hclamp m Hsm Hw Hh x y pay Hi) as (p1 & E1 & A1 & _). rewrite E1. cbn [obind fst snd].
    destruct (init_ok m Hwf Hsm th (Zfloor x) (Zfloor y) p1 Hi) as (o & Eo & X).
    { intros f. rewrite A1. apply Hp. }
    exists o. destruct o.
    - exists [], p1. split; [exact Eo|]. split; [exact X|]. split; [reflexivity|discriminate].
    - destruct X as (pay' & X & A & _). exists (keys_of (Zfloor x) (Zfloor y)), pay'. split; [exact Eo|]. split; [exact X|]. split; [reflexivity|].
      intros _ v Hv. apply at_start_keys in Hv. unfold cell_at in Hv. cbn [fst snd] in Hv. destruct Hv as [<-|[<-|[]]]; apply A.
  Qed.

  Variable skips : Z.
  Variable p : sparams.
  Variable so : sopts.
  Hypothesis Hk : vehicle_ok p so.
  Variable b : nbh.
  Variable hval : snode -> snode -> R.
  Variable tot : R -> R -> R.
  Variable push : (vkey -> R) -> vkey -> list vkey -> list vkey.
  Variable pop : (vkey -> R) -> list vkey -> option (vkey * list vkey).
  Hypothesis Hpush : push_ok push.
  Hypothesis Hpop : pop_ok pop.
  Hypothesis Htot : farther hval tot.
  Hypothesis Hleast : least_first pop.
  Variable queue : list (vkey * R) -> list (vkey * R).
  Hypothesis Hqueue : forall l, Permutation l (queue l).
  Variables bf fuel : nat.

  Notation offer := (nb_offer clamp m skips p so b).
  Notation moves := (nb_moves b).
  Lemma offer_pos q qs mv v c n : offer q qs mv = Some (Some (v, c, n)) -> 0 < c.
  Proof using Hclamp Hm Hk.
    intros E. destruct (offer_inv clamp Hclamp m Hsm Hw Hh skips (sp_res p) _ q qs mv v c n E) as (cost & E1 & -> & _).
    apply (costs_pos p so Hk). apply (nb_cost clamp p so Hk b) in E1. exact E1.
  Qed.

  Variable pose : R * R * R.
  Notation cx := (fst (cell_at pose)).
  Notation cy := (snd (cell_at pose)).
  Notation keys := (keys_of cx cy).
  Definition ps (v : vkey) : snode := at_corner cx cy (snd pose) (snd v).
  Notation inf := (v_info vkey snode).
  Notation steady := (steady keys ps).
  Notation all_done := (all_done moves offer keys ps).
  Notation Q := (Q moves offer hval keys ps []).
  Notation starts := (vstarts vkey snode vkey_eqb tot push).
  Notation call := (call clamp p so b hval tot push pop queue bf fuel pose).

  (** The object knows the neighbours of the start. *)
  Record ready (o : vobj) : Prop := {
    rd_map : vo_map o = m; rd_skips : vo_skips o = skips; rd_inner : inner m cx cy; rd_free : dyn_isOccupied1 m cx cy = Some false;
    rd_steady : steady (vo_info o); rd_done : all_done (vo_info o) }.

  Lemma searched_first T o start goals hgoal (term : T -> _) osd timeout t s r o' :
    vo_map o = m -> vo_skips o = skips -> inner m cx cy -> (exists oc, dyn_isOccupied1 m cx cy = Some oc /\ start = if (oc : bool) then [] else keys) ->
    (start = keys -> Q s) -> (start = [] -> v_open _ _ s = []) ->
    searched clamp p so b hval tot push pop queue timeout bf fuel osd o start goals hgoal term t s = (r, o') -> looked_beyond pose r -> ready o'.
  Proof using Hclamp Hm Hk Hpush Hpop Htot Hleast.
    intros E1 E2 Hi (oc & Eoc & Es) HQ Hn. unfold searched. rewrite E1, E2. cbv zeta. destruct (wloop _ _ _ _ _ _ _ _ _ _ _ _ _ _ _ _ _ _ _ _ _ _ _ _) as [[r0 w0] log] eqn:El. cbn [fst snd].
    intros E (c & Hc & Hb). injection E as <- <-. cbn [vf_of vf_calls snd] in Hc. destruct oc.
    { exfalso. specialize (Hn Es). destruct fuel as [|k]; cbn [wloop ws_s] in El; [injection El as _ _ <-; exact Hc|]. rewrite Hn in El. injection El as _ _ <-. exact Hc. }
    subst start. specialize (HQ eq_refl).
    destruct (first_loop vkey_eqb vkey_eqb_spec moves (nb_reach p b) offer hval tot push pop Hpush Hpop offer_pos Htot Hleast keys ps queue goals hgoal T term osd timeout bf fuel 0 t
      (WS _ _ s [] (vo_first o)) r0 w0 log HQ El) as [A B].
    constructor; cbn [vo_map vo_skips vo_info]; [reflexivity|reflexivity|exact Hi|exact Eoc|exact A|].
    apply B. right. exists c. split; [exact Hc|]. rewrite <- at_start_keys. exact Hb.
  Qed.
  Lemma searched_again T o goals hgoal (term : T -> _) osd timeout t s r o' : ready o -> steady (inf s) -> all_done (inf s) -> incl (v_open _ _ s) keys -> (length (v_open _ _ s) < fuel)%nat ->
    searched clamp p so b hval tot push pop queue timeout bf fuel osd o keys goals hgoal term t s = (r, o') -> only_start pose r /\ ready o'.
  Proof using Hpop Hqueue.
    intros [E1 E2 Hi Eoc _ _] HS HA Ho Hf. unfold searched. rewrite E1, E2. cbv zeta. destruct (wloop _ _ _ _ _ _ _ _ _ _ _ _ _ _ _ _ _ _ _ _ _ _ _ _) as [[r0 w0] log] eqn:El. cbn [fst snd].
    intros E. injection E as <- <-.
    destruct (again_loop vkey_eqb vkey_eqb_spec moves (nb_reach p b) offer hval tot push pop Hpop keys ps queue Hqueue goals hgoal T term osd timeout bf fuel 0 t
      (WS _ _ s [] (vo_first o)) r0 w0 log HS HA Ho ltac:(intros v w []) El) as (A1 & A2 & A3 & A4 & A5 & A6). cbn [ws_s] in A6. specialize (A6 Hf).
    split; [split|].
    - cbn [vf_of vf_calls snd]. intros c Hc. apply at_start_keys, A4, Hc.
    - cbn [vf_of vf_path fst snd]. destruct r0 as [| |l0]; cbn [short] in A5; [first [exact Logic.I|apply A6; reflexivity]|first [exact Logic.I|apply A6; reflexivity]|]. destruct (sp_rev p); [rewrite rev_length|]; exact A5.
    - constructor; cbn [vo_map vo_skips vo_info]; [reflexivity|reflexivity|exact Hi|exact Eoc|exact A1|exact A2].
  Qed.

  (** The nodes when the search begins. *)
  Lemma ready_pays o : ready o -> forall f, exists th, set_fwd f (pays (vo_info o) (cx, cy, 15%Z, f)) = at_corner cx cy th f.
  Proof using Type.
    intros H f. exists (snd pose). destruct (proj1 (rd_steady o H) (cx, cy, 15%Z, f)) as (_ & _ & E & _); [destruct f; [left|right; left]; reflexivity|].
    unfold pays. rewrite E. reflexivity.
  Qed.
  Lemma ready_start o : ready o -> exists pay, start_at clamp m (pays (vo_info o)) pose = Some (keys, pay) /\ forall v, In v keys -> pay v = ps v.
  Proof using Hclamp Hm.
    intros H. destruct (start_some _ pose (rd_inner o H) (ready_pays o H)) as (oc & l & pay & Eo & E & El & Hp). rewrite (rd_free o H) in Eo. injection Eo as <-.
    exists pay. rewrite <- El. split; [exact E|]. intros v Hv. apply Hp; [reflexivity|]. apply at_start_keys. rewrite <- El. exact Hv.
  Qed.
  Lemma begin_again o pay : ready o -> (forall v, In v keys -> pay v = ps v) ->
    let s := starts keys (VS _ _ (attach (vo_info o) pay) []) in steady (inf s) /\ all_done (inf s) /\ incl (v_open _ _ s) keys /\ (length (v_open _ _ s) <= 2)%nat.
  Proof using Hpush.
    intros H Hp. apply (restart vkey_eqb vkey_eqb_spec moves offer tot push Hpush keys ps (vo_info o) pay (rd_steady o H) (rd_done o H) Hp).
  Qed.
  Lemma not_here other v : cell_at other <> cell_at pose -> In v keys -> ~ at_start other v.
  Proof using Type. intros N Hv X. apply at_start_keys in Hv. unfold at_start in *. rewrite X in Hv. apply (f_equal fst) in Hv. exact (N Hv). Qed.

  Lemma call_again q o : elsewhere pose q -> (3 <= fuel)%nat -> ready o -> only_start pose (fst (call q o)) /\ ready (snd (call q o)).
  Proof using Hclamp Hm Hpush Hpop Hqueue.
    intros He Hf H. destruct (call q o) as [r o'] eqn:E. cbn [fst snd]. destruct (ready_start o H) as (pay & Es & Hp). pose proof (rd_map o H) as Emap.
    destruct q as [T cb t osd timeout other|T hgoal test t osd timeout]; cbn [PropVehicleReuse.call elsewhere] in E, He.
    - unfold vo_findo in E. rewrite Emap in E.
      replace (if sp_rev p then if sp_rev p then pose else other else if sp_rev p then other else pose) with pose in E by (destruct (sp_rev p); reflexivity).
      replace (if sp_rev p then if sp_rev p then other else pose else if sp_rev p then pose else other) with other in E by (destruct (sp_rev p); reflexivity).
      rewrite Es in E. destruct (start_at clamp m pay other) as [[goals pay2]|] eqn:Eg.
      + assert (Hp2 : forall v, In v keys -> pay2 v = ps v) by (intros v Hv; rewrite (start_frame _ _ _ _ Eg v (not_here other v He Hv)); apply Hp, Hv).
        destruct (begin_again o pay2 H Hp2) as (A1 & A2 & A3 & A4). eapply searched_again; [exact H|exact A1|exact A2|exact A3| |exact E]. clear - A4 Hf. lia.
      + destruct (begin_again o pay H Hp) as (A1 & A2 & A3 & A4). unfold threw in E. injection E as <- <-. split; [split; [intros c []|exact Logic.I]|].
        constructor; cbn [vo_map vo_skips vo_info]; [exact Emap|apply (rd_skips o H)|apply (rd_inner o H)|apply (rd_free o H)|exact A1|exact A2].
    - unfold vo_findt in E. rewrite Emap, Es in E. destruct (begin_again o pay H Hp) as (A1 & A2 & A3 & A4).
      eapply searched_again; [exact H|exact A1|exact A2|exact A3| |exact E]. clear - A4 Hf. lia.
  Qed.
  Lemma calls_again qs : (3 <= fuel)%nat -> Forall (elsewhere pose) qs -> forall o, ready o -> Forall (only_start pose) (calls clamp p so b hval tot push pop queue bf fuel pose qs o).
  Proof using Hclamp Hm Hpush Hpop Hqueue.
    intros Hf. induction qs as [|q qs IH]; intros He o H; cbn [calls]; [constructor|]. inversion He as [|q0 qs0 He1 He2]; subst.
    pose proof (call_again q o He1 Hf H) as [A B]. destruct (call q o) as [r o']. cbn [fst snd] in A, B. constructor; [exact A|]. apply IH; assumption.
  Qed.

  (** The first search after setMap. *)
  Lemma first_start : inner m cx cy -> exists oc l pay, dyn_isOccupied1 m cx cy = Some oc /\ start_at clamp m v_node0 pose = Some (l, pay) /\ l = (if (oc : bool) then [] else keys) /\
      (oc = false -> forall v, In v keys -> pay v = ps v).
  Proof using Hclamp Hm.
    intros Hi. destruct (start_some v_node0 pose Hi) as (oc & l & pay & A & B & C & D).
    { intros f. exists (- PI + 2 * PI / 32 * 15). reflexivity. }
    exists oc, l, pay. repeat (split; [assumption|]). intros Ho v Hv. apply D; [exact Ho|]. apply at_start_keys. exact Hv.
  Qed.
  Lemma keys_nil : keys <> [].
  Proof using Type. discriminate. Qed.
  Lemma call_first q o : elsewhere pose q -> vo_map o = m -> vo_skips o = skips -> vo_info o = vfresh vkey snode v_node0 -> looked_beyond pose (fst (call q o)) -> ready (snd (call q o)).
  Proof using Hclamp Hm Hk Hpush Hpop Htot Hleast.
    intros He Emap Esk Einfo. destruct (call q o) as [r o'] eqn:E. cbn [fst snd]. intros Hb.
    assert (Hfail : forall r0 o0, threw o r0 o0 = (r, o') -> False).
    { intros r0 o0 X. unfold threw in X. injection X as <- _. destruct Hb as (c & [] & _). }
    destruct q as [T cb t osd timeout other|T hgoal test t osd timeout]; cbn [PropVehicleReuse.call elsewhere] in E, He.
    - unfold vo_findo in E. rewrite Emap, Einfo in E.
      replace (if sp_rev p then if sp_rev p then pose else other else if sp_rev p then other else pose) with pose in E by (destruct (sp_rev p); reflexivity).
      replace (if sp_rev p then if sp_rev p then other else pose else if sp_rev p then pose else other) with other in E by (destruct (sp_rev p); reflexivity).
      change (pays (vfresh vkey snode v_node0)) with v_node0 in E.
      destruct (start_at clamp m v_node0 pose) as [[l pay]|] eqn:Es; [|destruct (Hfail _ _ E)]. destruct (first_start (start_inner _ _ _ Es)) as (oc & l0 & pay0 & Eo & Es0 & El & Hp).
      rewrite Es in Es0. injection Es0 as <- <-.
      destruct (start_at clamp m pay other) as [[goals pay2]|] eqn:Eg; [|destruct (Hfail _ _ E)].
      eapply (searched_first T o); [exact Emap|exact Esk|exact (start_inner _ _ _ Es)|exists oc; split; [exact Eo|exact El]| | |exact E|exact Hb].
      + intros El2. destruct oc; [rewrite El in El2; destruct (keys_nil (eq_sym El2))|]. rewrite El2.
        apply (begin_Q vkey_eqb vkey_eqb_spec moves offer hval tot push Hpush keys ps pay2). intros v Hv. rewrite (start_frame _ _ _ _ Eg v (not_here other v He Hv)). apply Hp; [reflexivity|exact Hv].
      + intros ->. reflexivity.
    - unfold vo_findt in E. rewrite Emap, Einfo in E. change (pays (vfresh vkey snode v_node0)) with v_node0 in E.
      destruct (start_at clamp m v_node0 pose) as [[l pay]|] eqn:Es; [|destruct (Hfail _ _ E)]. destruct (first_start (start_inner _ _ _ Es)) as (oc & l0 & pay0 & Eo & Es0 & El & Hp).
      rewrite Es in Es0. injection Es0 as <- <-.
      eapply (searched_first T o); [exact Emap|exact Esk|exact (start_inner _ _ _ Es)|exists oc; split; [exact Eo|exact El]| | |exact E|exact Hb].
      + intros El2. destruct oc; [rewrite El in El2; destruct (keys_nil (eq_sym El2))|]. rewrite El2.
        apply (begin_Q vkey_eqb vkey_eqb_spec moves offer hval tot push Hpush keys ps pay). intros v Hv. apply Hp; [reflexivity|exact Hv].
      + intros ->. reflexivity.
  Qed.

  (** A path with two poses ends beyond the start. *)
  Lemma searched_long T o start goals hgoal (term : T -> _) osd timeout t s r o' l : (start = [] /\ v_open _ _ s = []) \/ start = keys ->
    searched clamp p so b hval tot push pop queue timeout bf fuel osd o start goals hgoal term t s = (r, o') -> vf_path r = VPath _ _ l -> (2 <= length l)%nat -> looked_beyond pose r.
  Proof using Hqueue.
    intros Hs. unfold searched. cbv zeta. destruct (wloop _ _ _ _ _ _ _ _ _ _ _ _ _ _ _ _ _ _ _ _ _ _ _ _) as [[r0 w0] log] eqn:El. cbn [fst snd]. intros E Hl H2. injection E as <- _.
    destruct (Exists_dec (fun c : wcall vkey snode => ~ In (wc_node _ _ c) keys) log) as [D|D].
    { intros c. destruct (in_dec (vdec vkey_eqb vkey_eqb_spec) (wc_node _ _ c) keys) as [X|X]; [right; intros Y; exact (Y X)|left; exact X]. }
    - apply Exists_exists in D. destruct D as (c & Hc & X). exists c. split; [exact Hc|]. rewrite at_start_keys. exact X.
    - exfalso. assert (HL : forall e, In e log -> In (wc_node _ _ e) start).
      { destruct Hs as [[_ Ho]|Hs].
        - destruct fuel as [|k]; cbn [wloop ws_s] in El; [injection El as _ _ <-; intros e []|]. rewrite Ho in El. injection El as _ _ <-. intros e [].
        - intros e He. rewrite Hs. destruct (in_dec (vdec vkey_eqb vkey_eqb_spec) (wc_node _ _ e) keys) as [X|X]; [exact X|]. exfalso. apply D, Exists_exists. eauto. }
      assert (Hsh : short r0).
      { refine (short_loop vkey_eqb vkey_eqb_spec moves (nb_reach p b) _ hval tot push pop start queue Hqueue goals hgoal T term osd timeout bf fuel 0%nat t _ r0 w0 log _ El HL). intros v w []. }
      cbn [vf_of vf_path fst snd] in Hl. destruct r0 as [| |l0]; [discriminate|discriminate|]. cbn [short] in Hsh. injection Hl as <-.
      destruct (sp_rev p); [rewrite rev_length in H2|]; clear - Hsh H2; lia.
  Qed.
  Lemma call_long q o l : elsewhere pose q -> vo_map o = m -> vo_info o = vfresh vkey snode v_node0 -> vf_path (fst (call q o)) = VPath _ _ l -> (2 <= length l)%nat -> looked_beyond pose (fst (call q o)).
  Proof using Hclamp Hm Hqueue.
    intros He Emap Einfo. destruct (call q o) as [r o'] eqn:E. cbn [fst]. intros Hl H2.
    assert (Hfail : forall r0 o0, threw o r0 o0 = (r, o') -> False).
    { intros r0 o0 X. unfold threw in X. injection X as <- _. discriminate. }
    destruct q as [T cb t osd timeout other|T hgoal test t osd timeout]; cbn [PropVehicleReuse.call elsewhere] in E, He.
    - unfold vo_findo in E. rewrite Emap, Einfo in E.
      replace (if sp_rev p then if sp_rev p then pose else other else if sp_rev p then other else pose) with pose in E by (destruct (sp_rev p); reflexivity).
      replace (if sp_rev p then if sp_rev p then other else pose else if sp_rev p then pose else other) with other in E by (destruct (sp_rev p); reflexivity).
      change (pays (vfresh vkey snode v_node0)) with v_node0 in E.
      destruct (start_at clamp m v_node0 pose) as [[l0 pay]|] eqn:Es; [|destruct (Hfail _ _ E)]. destruct (first_start (start_inner _ _ _ Es)) as (oc & l1 & pay0 & Eo & Es0 & El & _).
      rewrite Es in Es0. injection Es0 as <- <-. destruct (start_at clamp m pay other) as [[goals pay2]|] eqn:Eg; [|destruct (Hfail _ _ E)].
      eapply (searched_long T o); [|exact E|exact Hl|exact H2]. destruct oc; [left; rewrite El; split; reflexivity|right; exact El].
    - unfold vo_findt in E. rewrite Emap, Einfo in E. change (pays (vfresh vkey snode v_node0)) with v_node0 in E.
      destruct (start_at clamp m v_node0 pose) as [[l0 pay]|] eqn:Es; [|destruct (Hfail _ _ E)]. destruct (first_start (start_inner _ _ _ Es)) as (oc & l1 & pay0 & Eo & Es0 & El & _).
      rewrite Es in Es0. injection Es0 as <- <-. eapply (searched_long T o); [|exact E|exact Hl|exact H2]. destruct oc; [left; rewrite El; split; reflexivity|right; exact El].
  Qed.
End Reuse.

(** ** C82: after setMap everything is new *)
(** first_candidate_weight of an earlier search is never read. *)
Section Window.
  Context {V P M T : Type}.
  Variable veqb : V -> V -> bool.
  Variable moves : list M.
  Variable reach : nat.
  Variable offer : P -> list P -> M -> option (option (V * R * P)).
  Variable hval : P -> P -> R.
  Variable tot : R -> R -> R.
  Variable push : (V -> R) -> V -> list V -> list V.
  Variable pop : (V -> R) -> list V -> option (V * list V).
  Variable start goals : list V.
  Variable hgoal : option P.
  Variable osd : R.
  Variable queue : list (V * R) -> list (V * R).
  Variable term : T -> (V -> vinfo V P) -> V -> option (T * list R * vanswer).
  Variable timeout : nat -> bool.
  Variable bf : nat.
  Definition same_w (a b : wstate V P) : Prop := ws_s _ _ a = ws_s _ _ b /\ ws_cand _ _ a = ws_cand _ _ b /\ (ws_cand _ _ a <> [] -> ws_first _ _ a = ws_first _ _ b).
  Lemma same_add cur : forall l a b, same_w a b -> same_w (wadd V P tot a cur l) (wadd V P tot b cur l).
  Proof using Type.
    induction l as [|c l IH]; intros a b H; [exact H|]. cbn [wadd]. apply IH. destruct H as (A & B & C). split; [exact A|]. cbn [ws_s ws_cand ws_first]. rewrite A, B. split; [reflexivity|].
    intros _. destruct (ws_cand V P b) as [|x y] eqn:E; [reflexivity|]. apply C. rewrite B. discriminate.
  Qed.
  Lemma same_finish a b : same_w a b -> wfinish V P veqb start queue bf a = wfinish V P veqb start queue bf b.
  Proof using Type. intros (A & B & _). unfold wfinish. rewrite A, B. reflexivity. Qed.
  Lemma same_over cur a b : same_w a b -> wover V P tot osd a cur = wover V P tot osd b cur.
  Proof using Type.
    intros (A & B & C). unfold wover. rewrite A, B. destruct (ws_cand V P b) as [|x y] eqn:E; [rewrite !andb_false_r; reflexivity|]. rewrite C; [reflexivity|]. rewrite B. discriminate.
  Qed.
  Notation loop := (wloop V P M T veqb moves reach offer hval tot push pop start goals hgoal osd queue term timeout bf).
  Lemma same_loop : forall fuel n t a b, same_w a b -> let '(r, w, l) := loop fuel n t a in let '(r', w', l') := loop fuel n t b in r = r' /\ l = l' /\ same_w w w'.
  Proof using Type.
    induction fuel as [|k IH]; intros n t a b H; cbn [wloop]; [auto|]. pose proof H as (A & B & C). rewrite (same_finish _ _ H), A.
    destruct (v_open V P (ws_s V P b)) as [|v0 o0] eqn:Eo; [auto|]. destruct (timeout n); [auto|]. destruct (pop _ _) as [[cur o]|]; [|auto]. cbv zeta.
    set (s1 := wclose _ _ _ _ _ _ (ws_s V P b) cur o). assert (H1 : same_w (WS V P s1 (ws_cand V P a) (ws_first V P a)) (WS V P s1 (ws_cand V P b) (ws_first V P b))) by (split; [reflexivity|split; assumption]).
    destruct (term t (v_info V P s1) cur) as [[[t' cs] ans]|]; [|auto]. pose proof (same_add cur cs _ _ H1) as H2. set (a2 := wadd V P tot (WS V P s1 (ws_cand V P a) (ws_first V P a)) cur cs) in *. set (b2 := wadd V P tot (WS V P s1 (ws_cand V P b) (ws_first V P b)) cur cs) in *.
    rewrite (same_finish _ _ H2), (same_over cur _ _ H2). destruct ans; [|auto|destruct (vback _ _ _ _ _ _ _ _ _) as [[|x l]|]; auto].
    destruct (wover V P tot osd b2 cur); [auto|]. destruct (vexpand _ _ _ _ _ _ _ _ _ _ cur moves s1) as [s2|]; [|auto].
    assert (H3 : same_w (WS V P s2 (ws_cand V P a2) (ws_first V P a2)) (WS V P s2 (ws_cand V P b2) (ws_first V P b2))) by (split; [reflexivity|split; apply H2]).
    specialize (IH (S n) t' _ _ H3). destruct (loop k (S n) t' (WS V P s2 (ws_cand V P a2) (ws_first V P a2))) as [[r w] l], (loop k (S n) t' (WS V P s2 (ws_cand V P b2) (ws_first V P b2))) as [[r' w'] l'].
    destruct IH as (-> & -> & X). auto.
  Qed.
End Window.

(** Whatever the object was used for before: after setMap, findPath with the caller's own
    goal test answers as on a new object. *)
Theorem C82_setMap_test : forall clamp m skips p so b hval tot push pop queue timeout bf fuel osd T hgoal test (t : T) (o : vobj) from,
  fst (vo_findt clamp p so b hval tot push pop queue timeout bf fuel osd hgoal test t (vo_setMap o m skips) from) =
  v_findt clamp m skips p so b hval tot push pop queue timeout bf fuel osd hgoal test t from.
Proof.
  intros. destruct from as [[x y] th]. unfold vo_findt, v_findt, v_begin1. cbn [vo_setMap vo_map vo_info]. change (start_at clamp m (pays (vfresh vkey snode v_node0)) (x, y, th)) with
    (a <- v_poses clamp m x y v_node0 ;; v_init m th (fst a) (snd a)).
  destruct (a <- v_poses clamp m x y v_node0 ;; v_init m th (fst a) (snd a)) as [[start pay]|]; [|reflexivity].
  unfold searched, wrun. cbn [vo_setMap vo_map vo_skips vo_first fst].
  set (term := fun (t : T) f v => let '(t', cs, stop) := test t f v in Some (t', cs, if (stop : bool) then AStop else AGo)).
  change (attach (vfresh vkey snode v_node0) pay) with (vfresh vkey snode pay).
  match goal with |- vf_of _ _ _ _ (wloop _ _ _ _ _ _ _ _ _ _ _ _ _ _ _ _ _ _ _ _ _ _ _ ?wa) = vf_of _ _ _ _ (wloop _ _ _ _ _ _ _ _ _ _ _ _ _ _ _ _ _ _ _ _ _ _ _ ?wb) =>
    pose proof (same_loop vkey_eqb (nb_moves b) (nb_reach p b) (nb_offer clamp m skips p so b) hval tot push pop start [] hgoal osd queue term timeout bf fuel 0 t wa wb
      (conj eq_refl (conj eq_refl (fun X => False_ind _ (X eq_refl))))) as HS end.
  destruct (wloop _ _ _ _ _ _ _ _ _ _ _ _ _ _ _ _ _ _ _ _ _ _ _ _) as [[r w] l]. destruct (wloop _ _ _ _ _ _ _ _ _ _ _ _ _ _ _ _ _ _ _ _ _ _ _ _) as [[r' w'] l'].
  destruct HS as (-> & -> & A & B & _). unfold vf_of, wcandidates. cbn [fst snd]. rewrite A, B. reflexivity.
Qed.

(** The nodes of the second pose, on new nodes. *)
Lemma second_start clamp m a g start pay1 goals pay : AngleClamp_contract clamp -> map_ok m -> start_at clamp m v_node0 a = Some (start, pay1) -> start_at clamp m pay1 g = Some (goals, pay) ->
  (~ occupied m (fst (cell_at g)) (snd (cell_at g)) -> goals = keys_of (fst (cell_at g)) (snd (cell_at g))) /\ (occupied m (fst (cell_at g)) (snd (cell_at g)) -> goals = []).
Proof.
  intros Hc Hm Ea Eg.
  pose proof (start_inner clamp Hc m Hm _ _ _ Eg) as Hi.
    destruct (start_some clamp Hc m Hm pay1 g Hi) as (oc & l & pay' & Eo & E & El & _).
    { intros f. destruct (start_some clamp Hc m Hm v_node0 a (start_inner clamp Hc m Hm _ _ _ Ea)) as (oa & la & paya & Eoa & Ea' & Ela & Hpa).
      { intros f0. exists (- PI + 2 * PI / 32 * 15). reflexivity. }
      rewrite Ea in Ea'. injection Ea' as <- <-. set (v := (fst (cell_at g), snd (cell_at g), 15%Z, f)).
      destruct (in_dec (vdec vkey_eqb vkey_eqb_spec) v (keys_of (fst (cell_at a)) (snd (cell_at a)))) as [D|D].
      - apply at_start_keys in D. assert (Ec : cell_at g = cell_at a). { unfold at_start, v in D. cbn [fst] in D. apply (f_equal fst) in D. cbn [fst] in D. rewrite <- D. destruct (cell_at g). reflexivity. }
        destruct oa.
        + destruct a as [[ax ay] ath]. unfold start_at in Ea. destruct (poses_ok clamp Hc m (mk_small m Hm) (mk_w m Hm) (mk_h m Hm) ax ay v_node0 (start_inner clamp Hc m Hm v_node0 (ax, ay, ath) (start, pay1) Ea)) as (p1 & E1 & A1 & _).
          rewrite E1 in Ea. cbn [obind fst snd] in Ea. destruct (init_ok m (mk_wf m Hm) (mk_small m Hm) ath (Zfloor ax) (Zfloor ay) p1 (start_inner clamp Hc m Hm v_node0 (ax, ay, ath) (start, pay1) ltac:(unfold start_at; rewrite E1; exact Ea))) as (o2 & Eo2 & X2).
          { intros f0. exists (- PI + 2 * PI / 32 * 15). rewrite A1. reflexivity. }
          unfold cell_at in Eoa. cbn [fst snd] in Eoa. rewrite Eoa in Eo2. injection Eo2 as <-. rewrite X2 in Ea. injection Ea as _ <-.
          exists (- PI + 2 * PI / 32 * 15). unfold v. rewrite Ec. unfold cell_at. cbn [fst snd]. rewrite A1. reflexivity.
        + exists (snd a). rewrite Hpa; [|reflexivity|exact D]. rewrite Ec. reflexivity.
      - exists (- PI + 2 * PI / 32 * 15). rewrite <- at_start_keys in D. rewrite (start_frame clamp Hc m Hm _ _ _ _ Ea v D). reflexivity. }
  rewrite Eg in E. injection E as -> _. destruct (occ1_spec m (mk_wf m Hm) (fst (cell_at g)) (snd (cell_at g))) as (q & Eq & Hq). rewrite Eo in Eq. injection Eq as <-.
  rewrite El. destruct oc; split; intros X; try reflexivity; exfalso; [apply X, Hq; reflexivity|apply Hq in X; discriminate].
Qed.

(** The same for findPath with a goal pose, unless the goal is occupied and an earlier
    search had a heuristic goal. *)
Theorem C82_setMap_pose : forall clamp m skips p so b hval tot push pop queue timeout bf fuel osd T cb (t : T) (o : vobj) from to,
  AngleClamp_contract clamp -> map_ok m ->
  vo_hgoal o = None \/ ~ occupied m (fst (cell_at (search_to (sp_rev p) from to))) (snd (cell_at (search_to (sp_rev p) from to))) ->
  fst (vo_findo clamp p so b hval tot push pop queue timeout bf fuel osd cb t (vo_setMap o m skips) from to) =
  v_findo clamp m skips p so b hval tot push pop queue timeout bf fuel osd cb t from to.
Proof.
  intros clamp m skips p so b hval tot push pop queue timeout bf fuel osd T cb t o from to Hc Hm Hg.
  unfold vo_findo, v_findo. cbn [vo_setMap vo_map vo_info vo_hgoal]. unfold search_to in Hg. set (a := if sp_rev p then to else from). set (g := if sp_rev p then from else to) in *. clearbody a g.
  change (pays (vfresh vkey snode v_node0)) with v_node0.
  assert (Eb : v_begin clamp m a g = match start_at clamp m v_node0 a with None => None | Some (start, pay1) => match start_at clamp m pay1 g with None => None | Some (goals, pay) => Some (start, goals, pay) end end).
  { unfold v_begin, start_at. destruct a as [[x y] th], g as [[gx gy] gth]. destruct (v_poses clamp m x y v_node0) as [a1|]; cbn [obind]; [|reflexivity].
    destruct (v_init m th (fst a1) (snd a1)) as [[l1 p1]|]; cbn [obind fst snd]; [|reflexivity].
    destruct (v_poses clamp m gx gy p1) as [a2|]; cbn [obind]; [|reflexivity]. destruct (v_init m gth (fst a2) (snd a2)) as [[l2 p2]|]; reflexivity. }
  rewrite Eb. clear Eb. destruct (start_at clamp m v_node0 a) as [[start pay1]|] eqn:Ea; [|reflexivity].
  destruct (start_at clamp m pay1 g) as [[goals pay]|] eqn:Eg; [|reflexivity].
  assert (Hgoal : vo_hgoal o = None \/ goals <> []).
  { destruct Hg as [Hg|Hg]; [left; exact Hg|right]. destruct (second_start clamp m a g start pay1 goals pay Hc Hm Ea Eg) as [A _]. rewrite (A Hg). discriminate. }
  unfold searched, wrun. cbn [vo_setMap vo_map vo_skips vo_first fst]. set (term := pose_term _ _ _ _ _ _ _ _ _ _ _).
  change (attach (vfresh vkey snode v_node0) pay) with (vfresh vkey snode pay).
  assert (Eh : forall fu n t0 ws, wloop vkey snode (Z * Z) T vkey_eqb (nb_moves b) (nb_reach p b) (nb_offer clamp m skips p so b) hval tot push pop start goals (vo_hgoal o) osd queue term timeout bf fu n t0 ws =
    wloop vkey snode (Z * Z) T vkey_eqb (nb_moves b) (nb_reach p b) (nb_offer clamp m skips p so b) hval tot push pop start goals None osd queue term timeout bf fu n t0 ws).
  { intros. destruct Hgoal as [-> |Hn]; [reflexivity|]. destruct goals as [|g0 gs]; [contradiction|reflexivity]. }
  rewrite Eh.
  match goal with |- vf_of _ _ _ _ (wloop _ _ _ _ _ _ _ _ _ _ _ _ _ _ _ _ _ _ _ _ _ _ _ ?wa) = vf_of _ _ _ _ (wloop _ _ _ _ _ _ _ _ _ _ _ _ _ _ _ _ _ _ _ _ _ _ _ ?wb) =>
    pose proof (same_loop vkey_eqb (nb_moves b) (nb_reach p b) (nb_offer clamp m skips p so b) hval tot push pop start goals None osd queue term timeout bf fuel 0 t wa wb
      (conj eq_refl (conj eq_refl (fun X => False_ind _ (X eq_refl))))) as HS end.
  destruct (wloop _ _ _ _ _ _ _ _ _ _ _ _ _ _ _ _ _ _ _ _ _ _ _ _) as [[r w] l]. destruct (wloop _ _ _ _ _ _ _ _ _ _ _ _ _ _ _ _ _ _ _ _ _ _ _ _) as [[r' w'] l'].
  destruct HS as (-> & -> & A & B & _). unfold vf_of, wcandidates. cbn [fst snd]. rewrite A, B. reflexivity.
Qed.

(** ** C82: without setMap *)
(** [farther] holds for the distance alone and for distance and heuristic together. *)
Lemma farther_dist hval : farther hval (fun d _ => d).
Proof. intros d a b H. split; exact H. Qed.
Lemma farther_sum hval : (forall a b, 0 <= hval a b) -> farther hval Rplus.
Proof. intros Hv d a b H. pose proof (Hv a b). lra. Qed.
Lemma farther_l2 res : 0 < res -> farther (l2 res) Rplus.
Proof. intros Hr. apply farther_sum. intros a b. unfold l2. apply Rmult_le_pos; [lra|apply hyp_nonneg]. Qed.
(** After setMap and a search that looked beyond the start, every later search from
    the same pose ends at the start, whatever it looks for. *)
Theorem C82_again : forall clamp m skips p so b hval tot push pop queue bf fuel pose first qs (o : vobj),
  AngleClamp_contract clamp -> map_ok m -> vehicle_ok p so -> push_ok push -> pop_ok pop -> queue_ok queue -> farther hval tot -> least_first pop -> (3 <= fuel)%nat ->
  elsewhere pose first -> Forall (elsewhere pose) qs ->
  let r := call clamp p so b hval tot push pop queue bf fuel pose first (vo_setMap o m skips) in
  looked_beyond pose (fst r) -> Forall (only_start pose) (calls clamp p so b hval tot push pop queue bf fuel pose qs (snd r)).
Proof.
  intros clamp m skips p so b hval tot push pop queue bf fuel pose first qs o Hc Hm Hk Hpush Hpop Hq Htot Hleast Hf H1 H2 r Hb.
  assert (Hp : forall l, Permutation l (queue l)) by (intros l; apply Hq).
  apply (calls_again clamp Hc m Hm skips p so b hval tot push pop Hpush Hpop queue Hp bf fuel pose qs Hf H2).
  apply (call_first clamp Hc m Hm skips p so Hk b hval tot push pop Hpush Hpop Htot Hleast queue bf fuel pose first (vo_setMap o m skips) H1 eq_refl eq_refl eq_refl Hb).
Qed.
(** In particular a search that found a path of two or more poses does not find it again. *)
Theorem C82_same : forall clamp m skips p so b hval tot push pop queue bf fuel pose q l (o : vobj),
  AngleClamp_contract clamp -> map_ok m -> vehicle_ok p so -> push_ok push -> pop_ok pop -> queue_ok queue -> farther hval tot -> least_first pop -> (3 <= fuel)%nat ->
  elsewhere pose q ->
  let r := call clamp p so b hval tot push pop queue bf fuel pose q (vo_setMap o m skips) in
  vf_path (fst r) = VPath _ _ l -> (2 <= length l)%nat -> only_start pose (fst (call clamp p so b hval tot push pop queue bf fuel pose q (snd r))).
Proof.
  intros clamp m skips p so b hval tot push pop queue bf fuel pose q l o Hc Hm Hk Hpush Hpop Hq Htot Hleast Hf H1 r Hl H2.
  assert (Hp : forall l, Permutation l (queue l)) by (intros l0; apply Hq).
  assert (Hb : looked_beyond pose (fst r)) by (apply (call_long clamp Hc m Hm p so b hval tot push pop queue Hp bf fuel pose q (vo_setMap o m skips) l H1 eq_refl eq_refl Hl H2)).
  apply (call_again clamp Hc m Hm skips p so b hval tot push pop Hpush Hpop queue Hp bf fuel pose q _ H1 Hf).
  apply (call_first clamp Hc m Hm skips p so Hk b hval tot push pop Hpush Hpop Htot Hleast queue bf fuel pose q (vo_setMap o m skips) H1 eq_refl eq_refl eq_refl Hb).
Qed.

(** getPathCandidates straight after a search gives the paths of C75. *)
Lemma searched_cands clamp p so b hval tot push pop queue timeout bf fuel osd o start goals hgoal T (term : T -> _) t s :
  let r := searched clamp p so b hval tot push pop queue timeout bf fuel osd o start goals hgoal term t s in vo_candidates queue bf (snd r) = vf_cands (fst r).
Proof.
  cbv zeta. unfold searched. cbv zeta. destruct (wloop _ _ _ _ _ _ _ _ _ _ _ _ _ _ _ _ _ _ _ _ _ _ _ _) as [[r0 w0] log]. cbn [fst snd vf_of vf_cands].
  unfold vo_candidates, wcandidates. cbn [vo_cand vo_start vo_info vo_alive]. destruct (ws_cand vkey snode w0); reflexivity.
Qed.
(** getPathCandidates after any call on any object: the paths of that call; none if
    the call threw before its search began (never those of a search before). *)
Lemma threw_cands (queue : list (vkey * R) -> list (vkey * R)) bf o f start : (forall l, Permutation l (queue l)) ->
  vo_candidates queue bf (snd (threw o f start)) = Some [].
Proof.
  intros Hq. unfold threw, vo_candidates. cbn [snd vo_cand vo_start vo_info]. rewrite (Permutation_nil (Hq [])). reflexivity.
Qed.
Theorem C82_candidates : forall clamp p so b hval tot push pop queue timeout bf fuel osd T (cb : option (T -> list (vkey * snode) -> T * bool)) t o from to,
  queue_ok queue ->
  let r := vo_findo clamp p so b hval tot push pop queue timeout bf fuel osd cb t o from to in
  vo_candidates queue bf (snd r) = vf_cands (fst r) \/
  (vf_path (fst r) = VUndef _ _ /\ vf_calls (fst r) = [] /\ vo_candidates queue bf (snd r) = Some []).
Proof.
  intros clamp p so b hval tot push pop queue timeout bf fuel osd T cb t o from to Hq r.
  assert (Hp : forall l, Permutation l (queue l)) by (intros l0; apply Hq). unfold r, vo_findo.
  destruct (start_at _ _ _ _) as [[start p1]|]; [|right; split; [reflexivity|split; [reflexivity|apply threw_cands; exact Hp]]].
  destruct (start_at _ _ _ _) as [[goals pay]|]; [|right; split; [reflexivity|split; [reflexivity|apply threw_cands; exact Hp]]].
  left. apply searched_cands.
Qed.
Theorem C82_test_candidates : forall clamp p so b hval tot push pop queue timeout bf fuel osd T hgoal (test : T -> (vkey -> vinfo vkey snode) -> vkey -> T * list R * bool) t o from,
  queue_ok queue ->
  let r := vo_findt clamp p so b hval tot push pop queue timeout bf fuel osd hgoal test t o from in
  vo_candidates queue bf (snd r) = vf_cands (fst r) \/
  (vf_path (fst r) = VUndef _ _ /\ vf_calls (fst r) = [] /\ vo_candidates queue bf (snd r) = Some []).
Proof.
  intros clamp p so b hval tot push pop queue timeout bf fuel osd T hgoal test t o from Hq r.
  assert (Hp : forall l, Permutation l (queue l)) by (intros l0; apply Hq). unfold r, vo_findt.
  destruct (start_at _ _ _ _) as [[start p1]|]; [|right; split; [reflexivity|split; [reflexivity|apply threw_cands; exact Hp]]].
  left. apply searched_cands.
Qed.
(** After another setMap it reads nodes that do not exist any more. *)
Theorem C82_candidates_refuted : forall clamp m skips p so b hval tot push pop bf fuel osd x y th hgoal (o : vobj) m' skips',
  AngleClamp_contract clamp -> map_ok m -> push_ok push -> pop_ok pop -> has_nodes m (Zfloor x, Zfloor y) -> ~ occupied m (Zfloor x) (Zfloor y) -> sp_rev p = false ->
  (1 <= fuel)%nat -> (1 <= bf)%nat ->
  let o1 := snd (vo_findt clamp p so b hval tot push pop q_sort (fun _ => false) bf fuel osd hgoal (fun (t : unit) _ _ => (t, [5; 3], true)) tt (vo_setMap o m skips) (x, y, th)) in
  (exists f, let path := [((Zfloor x, Zfloor y, 15%Z, f), at_corner (Zfloor x) (Zfloor y) th f)] in vo_candidates q_sort bf o1 = Some [path; path]) /\
  vo_candidates q_sort bf (vo_setMap o1 m' skips') = None.
Proof.
  intros clamp m skips p so b hval tot push pop bf fuel osd x y th hgoal o m' skips' Hc Hm Hpush Hpop Hn Hfree Hrev Hfu Hbf o1.
  destruct (first_asked clamp m skips p so b hval tot push pop bf fuel osd x y th hgoal Hc Hm Hpush Hpop Hn Hfree Hrev Hfu Hbf) as (f & log & E & _). cbv zeta in E.
  rewrite <- (C82_setMap_test clamp m skips p so b hval tot push pop q_sort (fun _ => false) bf fuel osd unit hgoal (fun t _ _ => (t, [5; 3], true)) tt o (x, y, th)) in E.
  set (r := vo_findt _ _ _ _ _ _ _ _ _ _ _ _ _ _ _ _ (vo_setMap o m skips) _) in E. change o1 with (snd r).
  assert (Ec : vo_candidates q_sort bf (snd r) = Some [[((Zfloor x, Zfloor y, 15%Z, f), at_corner (Zfloor x) (Zfloor y) th f)]; [((Zfloor x, Zfloor y, 15%Z, f), at_corner (Zfloor x) (Zfloor y) th f)]]).
  { transitivity (vf_cands (fst r)); [|rewrite E; reflexivity]. assert (Hx : vf_path (fst r) <> VUndef _ _) by (rewrite E; discriminate). clear E. unfold r in *. unfold vo_findt in *.
    destruct (start_at _ _ _ _) as [[start pay]|]; [|exfalso; apply Hx; reflexivity]. apply searched_cands. }
  split; [exists f; exact Ec|]. clearbody r. destruct (snd r) as [mm ss ii hh st ca fi al]. unfold vo_candidates, vo_setMap in *. cbn [vo_cand vo_start vo_info vo_alive] in *.
  destruct ca as [|c ca]; [discriminate|reflexivity].
Qed.

(** In the case left open by C82_setMap_pose (an occupied goal) there is no path in any
    case. *)
Lemma loop_no_goal {V P M T : Type} veqb moves reach offer hval tot push pop start goals hgoal osd queue (term : T -> (V -> vinfo V P) -> V -> option (T * list R * vanswer)) timeout bf :
  (forall l, Permutation l (queue l)) -> (forall t f v, exists t', term t f v = Some (t', [], AGo)) ->
  forall fuel n t ws, ws_cand _ _ ws = [] -> forall l, fst (fst (wloop V P M T veqb moves reach offer hval tot push pop start goals hgoal osd queue term timeout bf fuel n t ws)) = VPath _ _ l -> l = [].
Proof.
  intros Hq Ht. assert (Hf : forall ws l, ws_cand V P ws = [] -> wfinish V P veqb start queue bf ws = VPath _ _ l -> l = []).
  { intros ws l E. unfold wfinish. rewrite E. rewrite (Permutation_nil (Hq [])). intros X. injection X as <-. reflexivity. }
  induction fuel as [|k IH]; intros n t ws Hw l; cbn [wloop]; [discriminate|].
  destruct (v_open V P (ws_s V P ws)) as [|v0 o0]; [apply Hf; exact Hw|]. destruct (timeout n); [apply Hf; exact Hw|]. destruct (pop _ _) as [[cur o]|]; [|discriminate]. cbv zeta.
  set (s1 := wclose _ _ _ _ _ _ _ cur o). destruct (Ht t (v_info V P s1) cur) as (t' & ->). cbn [wadd].
  destruct (wover _ _ _ _ _ cur); [apply Hf; exact Hw|]. destruct (vexpand _ _ _ _ _ _ _ _ _ _ cur moves s1) as [s2|]; [|discriminate].
  specialize (IH (S n) t' (WS V P s2 (ws_cand V P ws) (ws_first V P ws)) Hw l). cbn [ws_cand ws_first]. destruct (wloop _ _ _ _ _ _ _ _ _ _ _ _ _ _ _ _ _ _ _ _ k (S n) t' _) as [[r w] log]. exact IH.
Qed.
Theorem C82_occupied_goal : forall clamp m skips p so b hval tot push pop queue timeout bf fuel osd T cb (t : T) (o : vobj) from to l,
  AngleClamp_contract clamp -> map_ok m -> queue_ok queue ->
  occupied m (fst (cell_at (search_to (sp_rev p) from to))) (snd (cell_at (search_to (sp_rev p) from to))) ->
  vf_path (fst (vo_findo clamp p so b hval tot push pop queue timeout bf fuel osd cb t (vo_setMap o m skips) from to)) = VPath _ _ l -> l = [].
Proof.
  intros clamp m skips p so b hval tot push pop queue timeout bf fuel osd T cb t o from to l Hc Hm Hq Ho. assert (Hp : forall l, Permutation l (queue l)) by (intros l0; apply Hq).
  unfold vo_findo. cbn [vo_setMap vo_map vo_info vo_hgoal]. unfold search_to in Ho. set (a := if sp_rev p then to else from). set (g := if sp_rev p then from else to) in *. clearbody a g.
  change (pays (vfresh vkey snode v_node0)) with v_node0. destruct (start_at clamp m v_node0 a) as [[start pay1]|] eqn:Ea; [|discriminate].
  destruct (start_at clamp m pay1 g) as [[goals pay]|] eqn:Eg; [|discriminate]. destruct (second_start clamp m a g start pay1 goals pay Hc Hm Ea Eg) as [_ B]. rewrite (B Ho). clear B.
  unfold searched. cbn [vo_setMap vo_map vo_skips vo_first fst]. set (term := pose_term _ _ _ _ _ _ _ _ _ _ _). cbv zeta. cbn [fst vf_of vf_path].
  assert (Ht : forall t f v, exists t', term t f v = Some (t', [], AGo)) by (intros t0 f v; exists t0; reflexivity).
  match goal with |- context [wloop ?A ?B ?C ?D ?E0 ?F ?G ?H ?I0 ?J ?K ?L ?M ?N ?O0 ?P0 ?Q0 ?R0 ?S0 ?T0 ?U ?V0 ?W0 ?X0] =>
    pose proof (loop_no_goal E0 F G H I0 J K L M N O0 P0 Q0 R0 S0 T0 Hp Ht U V0 W0 X0 eq_refl) as X end.
  destruct (wloop _ _ _ _ _ _ _ _ _ _ _ _ _ _ _ _ _ _ _ _ _ _ _ _) as [[r w] log]. cbn [fst] in X |- *. destruct r as [| |l0]; [discriminate|discriminate|]. rewrite (X l0 eq_refl).
  intros E. injection E as <-. destruct (sp_rev p); reflexivity.
Qed.

(** ** A case for the hypotheses *)
(** The drive of PropVehicleCase.v is found once: with the second call on the same object
    it is not. *)
Section Case82.
  Variable clamp : R -> R.
  Hypothesis Hclamp : AngleClamp_contract clamp.
  Definition drive_q (gth : R) : request := AskPose unit None tt 0 (fun _ => false) (15, 3, gth).
  Notation drive_call := (call clamp stiff_p def_so (NDyn def_o) (l2 (/ 20)) Rplus fifo_push (min_pop Rltb) q_sort 2 3 (7, 3, 0)).
  Lemma drive_apart gth : elsewhere (7, 3, 0) (drive_q gth).
  Proof using Type. cbn [drive_q elsewhere]. unfold cell_at. cbn [fst snd]. rewrite (Zfloor_IZR 15), (Zfloor_IZR 7). discriminate. Qed.
  Example C82_case : forall gth skips0 first m0,
    let o := vo_setMap (vo_new m0 skips0 first) walled 0 in
    vf_path (fst (drive_call (drive_q gth) o)) = VPath _ _ [((7, 3, 15, true)%Z, SN 7 3 0 true 0 (Some 0%Z) 0); ((15, 3, 15, true)%Z, ahead (Some 0%Z))] /\
    only_start (7, 3, 0) (fst (drive_call (drive_q gth) (snd (drive_call (drive_q gth) o)))) /\
    fst (drive_call (drive_q gth) (vo_setMap (snd (drive_call (drive_q gth) o)) walled 0)) = fst (drive_call (drive_q gth) o).
  Proof using Hclamp.
    intros gth skips0 first m0 o. assert (E : vf_path (fst (drive_call (drive_q gth) o)) = VPath _ _ [((7, 3, 15, true)%Z, SN 7 3 0 true 0 (Some 0%Z) 0); ((15, 3, 15, true)%Z, ahead (Some 0%Z))]).
    { unfold drive_q, o. cbn [call]. change (sp_rev stiff_p) with false. cbv iota. rewrite (C82_setMap_pose clamp walled 0 stiff_p); [|exact Hclamp|exact walled_ok|left; reflexivity].
      destruct (C74_plain clamp walled 0 stiff_p def_so (l2 (/ 20)) Rplus fifo_push (min_pop Rltb) q_sort (fun _ => false) 2 3 unit None tt (7, 3, 0) (15, 3, gth) q_sort_ok) as [X _].
      rewrite X. apply (C59_dynamic_case clamp Hclamp); [exact fifo_push_ok|exact (min_pop_ok Rltb)]. }
    split; [exact E|]. split.
    { apply (C82_same clamp walled 0 stiff_p def_so (NDyn def_o) (l2 (/ 20)) Rplus fifo_push (min_pop Rltb) q_sort 2 3 (7, 3, 0) (drive_q gth) _ (vo_new m0 skips0 first)
      Hclamp walled_ok stiff_ok fifo_push_ok (min_pop_ok Rltb) q_sort_ok (farther_l2 (/ 20) ltac:(lra)) min_least (le_n 3) (drive_apart gth) E). cbn. lia. }
    assert (H : forall o', fst (drive_call (drive_q gth) (vo_setMap o' walled 0)) =
      v_findo clamp walled 0 stiff_p def_so (NDyn def_o) (l2 (/ 20)) Rplus fifo_push (min_pop Rltb) q_sort (fun _ => false) 2 3 0 None tt (7, 3, 0) (15, 3, gth)).
    { intros o'. unfold drive_q. cbn [call]. change (sp_rev stiff_p) with false. cbv iota. apply C82_setMap_pose; [exact Hclamp|exact walled_ok|].
      right. change (sp_rev stiff_p) with false. cbn [search_to]. unfold cell_at. cbn [fst snd]. rewrite (Zfloor_IZR 15), (Zfloor_IZR 3). apply walled_free. vm_compute. reflexivity. }
    rewrite H. symmetry. apply H.
  Qed.
End Case82.
