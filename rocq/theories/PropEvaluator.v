(** C69: the evaluation tool keeps its map, its picture and its two files in
    step, over every history of mouse and key events, and what a restart
    finds after every point at which the program may be stopped. *)
From Verif Require Import Base GridMap GridMapProofs EvaluatorModel EvaluatorProofs.

(** ** Specification *)
(** Sizes a map can have. *)
Definition sane (w h : Z) : Prop := 0 < w < 2147483648 /\ 0 < h < 2147483648 /\ w * h < 4294967296.
(** The map says of every cell what the picture shows: black is occupied, all else free. *)
Definition pictured (w h : Z) (i : image) (m : gridmap) : Prop := forall x y, cell_of w h x y ->
  isOccupied m x y = Some (i x y =? 0) /\ isFree m x y = Some (negb (i x y =? 0)).
(** Is a button down after these events? *)
Fixpoint held (b : bool) (l : list event) : bool :=
  match l with
  | [] => b
  | Mouse LDown _ _ :: r | Mouse RDown _ _ :: r => held true r
  | Mouse LUp _ _ :: r | Mouse RUp _ _ :: r => held false r
  | _ :: r => held b r
  end.
(** 'f' (key 102) is not pressed while a button is down. *)
Fixpoint no_f (b : bool) (l : list event) : Prop :=
  match l with
  | [] => True
  | Mouse LDown _ _ :: r | Mouse RDown _ _ :: r => no_f true r
  | Mouse LUp _ _ :: r | Mouse RUp _ _ :: r => no_f false r
  | Key k :: r => (k = 102 -> b = false) /\ no_f b r
  | _ :: r => no_f b r
  end.

Lemma sane_wf w h : sane w h -> 0 <= w < 2147483648 /\ 0 <= h < 2147483648 /\ w * h < 4294967296.
Proof. unfold sane. lia. Qed.

Section Eval.
  #[local] Set Default Proof Using "All".
  Variable T : Type.
  Variable teqb : T -> T -> bool.
  Variable through : T -> T.
  Variable half_pi nil : T.
  Variable atan2 : Z -> Z -> T.
  Variable generator : bool -> Z -> image -> Z * Z * T -> Z * Z * T -> option image.
  Notation construct := (construct T teqb through half_pi nil).
  Notation step := (step T through atan2 generator).
  Notation session := (session T through atan2 generator).
  Notation do_writes := (do_writes T).
  Notation pose := (Z * Z * T)%type.

  (** A number and what is in the file for it; a pose likewise. *)
  Definition stored (a b : T) : Prop := b = a \/ b = through a.
  Definition stored_pose (p q : pose) : Prop := fst q = fst p /\ stored (snd p) (snd q).

  (** The program was started on [d0], saw [ev] and is now [e], the files are [d]. *)
  Definition reached (w h : Z) (res : T) (d0 : disk T) (ev : list event) (e : evaluator T) (d : disk T) : Prop :=
    exists e0 l0, construct w h res d0 = Running T e0 l0 /\ session e0 (do_writes d0 l0) ev = Some (e, d).

  (** ** Lemmas *)
  Lemma inv_pictured w h e : inv T w h e -> pictured w h (e_orig _ e) (e_map _ e).
  Proof.
    intros [A B C D] x y Hc. destruct (kept_free _ _ _ _ _ _ C (D x y Hc)) as [-> ->]. auto.
  Qed.

  (** Every case of the start. *)
  Lemma construct_spec w h res d : sane w h ->
    match d_ppm _ d, d_yaml _ d with
    | Some (w', h', i), y =>
        if (w =? w') && (h =? h') then
          match y with
          | None | Some (Empty _) => construct w h res d = Throws T
          | Some (Doc _ r s g) =>
              if teqb r res then exists e, construct w h res d = Running T e [] /\ inv T w h e /\ e_orig _ e = i /\
                 same_rest T e (blank T w h r s g)
              else exists e, construct w h res d = Running T e (saveMap T through e) /\ inv T w h e /\ e_orig _ e = (fun _ _ => 255) /\
                 same_rest T e (blank T w h res (1, 1, half_pi) (w - 1, h - 1, nil))
          end
        else exists e, construct w h res d = Running T e (saveMap T through e) /\ inv T w h e /\ e_orig _ e = (fun _ _ => 255) /\
                 same_rest T e (blank T w h res (1, 1, half_pi) (w - 1, h - 1, nil))
    | None, _ => exists e, construct w h res d = Running T e (saveMap T through e) /\ inv T w h e /\ e_orig _ e = (fun _ _ => 255) /\
                 same_rest T e (blank T w h res (1, 1, half_pi) (w - 1, h - 1, nil))
    end.
  Proof.
    intros Hs. destruct (sane_wf w h Hs) as (A & B & C).
    assert (D : exists e, start_of T (initDefaultMap T through half_pi nil w h res) = Running T e (saveMap T through e) /\ inv T w h e /\ e_orig _ e = (fun _ _ => 255) /\
                 same_rest T e (blank T w h res (1, 1, half_pi) (w - 1, h - 1, nil))).
    { unfold initDefaultMap.
      destruct (generateMap_spec T teqb through half_pi nil atan2 generator w h true (blank T w h res (1, 1, half_pi) (w - 1, h - 1, nil)) (fun _ _ => 255)
        eq_refl eq_refl (blank_kept T teqb through half_pi nil atan2 generator w h _ _ _ A B C)) as (e & E & I & O & R).
      rewrite E. exists e. cbn [start_of]. auto. }
    unfold EvaluatorModel.construct, loadMap. destruct (d_ppm _ d) as [[[w' h'] i]|]; [|exact D].
    destruct (Z.eqb_spec w w') as [<-|N1]; [|cbn [negb orb andb]; exact D].
    destruct (Z.eqb_spec h h') as [<-|N2]; [|cbn [negb orb andb]; exact D].
    cbn [negb orb andb]. destruct (d_yaml _ d) as [[|r s g]|]; try reflexivity.
    destruct (teqb r res); cbn [negb]; [|exact D].
    destruct (generateMap_spec T teqb through half_pi nil atan2 generator w h false (blank T w h r s g) i eq_refl eq_refl (blank_kept T teqb through half_pi nil atan2 generator w h _ _ _ A B C)) as (e & E & I & O & R).
    rewrite E. exists e. cbn [start_of]. auto.
  Qed.

  (** What the files hold of a running program. *)
  Definition filed (w h : Z) (e : evaluator T) (d : disk T) : Prop :=
    d_ppm _ d = Some (w, h, e_orig _ e) /\ exists r s g, d_yaml _ d = Some (Doc T r s g) /\ stored (e_res _ e) r.
  Definition posed (e : evaluator T) (d : disk T) : Prop :=
    exists r s g, d_yaml _ d = Some (Doc T r s g) /\ stored_pose (e_start _ e) s /\ stored_pose (e_goal _ e) g.

  Lemma save_filed w h e d : e_w _ e = w -> e_h _ e = h -> filed w h e (do_writes d (saveMap T through e)) /\ posed e (do_writes d (saveMap T through e)).
  Proof.
    intros <- <-. split.
    - split; [reflexivity|]. eexists _, _, _. split; [reflexivity|]. right. reflexivity.
    - eexists _, _, _. split; [reflexivity|]. unfold stored_pose, stored, file_pose. cbn. auto.
  Qed.

  Lemma start_inv w h res d e l : sane w h -> construct w h res d = Running T e l ->
    inv T w h e /\ (e_res _ e = res \/ teqb (e_res _ e) res = true) /\ down T e = false /\ e_mode _ e = SET_FOCUS /\
    filed w h e (do_writes d l) /\ posed e (do_writes d l).
  Proof.
    intros Hs E. pose proof (construct_spec w h res d Hs) as C.
    assert (D : (exists e, construct w h res d = Running T e (saveMap T through e) /\ inv T w h e /\ e_orig _ e = (fun _ _ => 255) /\
                 same_rest T e (blank T w h res (1, 1, half_pi) (w - 1, h - 1, nil))) ->
        inv T w h e /\ (e_res _ e = res \/ teqb (e_res _ e) res = true) /\ down T e = false /\ e_mode _ e = SET_FOCUS /\
        filed w h e (do_writes d l) /\ posed e (do_writes d l)).
    { intros (e1 & E1 & I & O & R). rewrite E in E1. injection E1 as <- ->. destruct R as (R1 & R2 & R3 & R4 & R5 & R6 & R7 & R8 & R9).
      split; [exact I|]. split; [left; exact R3|]. split; [unfold down; rewrite R6; reflexivity|]. split; [exact R7|].
      apply save_filed; [exact R1|exact R2]. }
    destruct (d_ppm _ d) as [[[w' h'] i]|] eqn:Ep; [|apply D, C].
    destruct ((w =? w') && (h =? h')) eqn:Ew; [|apply D, C].
    destruct (d_yaml _ d) as [[|r s g]|] eqn:Ey; try congruence.
    destruct (teqb r res) eqn:Er; [|apply D, C].
    destruct C as (e1 & E1 & I & O & R). rewrite E in E1. injection E1 as <- ->. destruct R as (R1 & R2 & R3 & R4 & R5 & R6 & R7 & R8 & R9).
    cbn in R1, R2, R3, R4, R5. apply andb_prop in Ew. destruct Ew as [Ew Eh]. apply Z.eqb_eq in Ew, Eh. subst w' h'.
    split; [exact I|]. split; [right; rewrite R3; exact Er|]. split; [unfold down; rewrite R6; reflexivity|]. split; [exact R7|].
    split; [split; [cbn; rewrite Ep, O; reflexivity|]|]; eexists r, s, g; (split; [exact Ey|]).
    - rewrite R3. left. reflexivity.
    - rewrite R4, R5. unfold stored_pose, stored. auto.
  Qed.

  Lemma session_cons e d v l : session e d (v :: l) = obind (step e v) (fun s => session (fst s) (do_writes d (snd s)) l).
  Proof. reflexivity. Qed.

  Lemma held_cons b v l : held b (v :: l) = held (pressed_after v b) l.
  Proof. destruct v as [[] x y|k]; reflexivity. Qed.

  Lemma no_f_cons b v l : no_f b (v :: l) -> (v = Key 102 -> b = false) /\ no_f (pressed_after v b) l.
  Proof.
    destruct v as [[] x y|k]; cbn; [intros H; (split; [discriminate|exact H]) ..|]. intros [A B]. split; [|exact B]. intros [= ->]. apply A. reflexivity.
  Qed.

  Lemma session_inv w h ev : forall e d e' d', inv T w h e -> filed w h e d -> session e d ev = Some (e', d') ->
    inv T w h e' /\ e_res _ e' = e_res _ e /\ filed w h e' d' /\ down T e' = held (down T e) ev /\
    (no_f (down T e) ev -> posed e d \/ down T e = true /\ e_mode _ e <> SET_FOCUS -> posed e' d' \/ down T e' = true /\ e_mode _ e' <> SET_FOCUS).
  Proof.
    induction ev as [|v ev IH]; intros e d e' d' I F E.
    - injection E as <- <-. cbn [held]. auto.
    - rewrite session_cons in E. destruct (step_spec T teqb through half_pi nil atan2 generator w h e v I) as [_ S].
      destruct (step e v) as [[e1 l]|] eqn:E1; [|discriminate]. cbn [obind fst snd] in E.
      destruct (S e1 l eq_refl) as (I1 & R1 & D1 & L1 & P1 & U1 & M1). clear S.
      assert (F1 : filed w h e1 (do_writes d l)).
      { destruct L1 as [[-> O]| ->]; [|apply save_filed; [apply I1|apply I1]]. cbn. destruct F as [F1 F2]. split; [rewrite O; exact F1|rewrite R1; exact F2]. }
      destruct (IH e1 (do_writes d l) e' d' I1 F1 E) as (I2 & R2 & F2 & D2 & P2).
      split; [exact I2|]. split; [congruence|]. split; [exact F2|]. split; [rewrite held_cons, <- D1; exact D2|].
      intros Hn HP. apply no_f_cons in Hn. destruct Hn as [Hn1 Hn2]. rewrite <- D1 in Hn2. apply P2; [exact Hn2|].
      assert (Sv : l = saveMap T through e1 -> posed e1 (do_writes d l)) by (intros ->; apply save_filed with (w := w) (h := h); [apply I1|apply I1]).
      assert (Same : e_start _ e1 = e_start _ e /\ e_goal _ e1 = e_goal _ e -> posed e d -> posed e1 (do_writes d l)).
      { intros [A B] P. destruct L1 as [[-> O]|L1]; [|apply Sv, L1]. cbn. unfold posed. rewrite A, B. exact P. }
      destruct HP as [HP|[HD HM]].
      + destruct P1 as [P1|[P1|(P1 & P1' & P1'')]]; [left; apply Same; assumption|left; apply Sv, P1|].
        right. split; [exact P1'|]. destruct P1'' as [-> | ->]; discriminate.
      + destruct (down T e1) eqn:Ed1.
        * destruct M1 as [M1|[-> (k & -> & K1 & K2)]]; [right; split; [reflexivity|congruence]|].
          right. split; [reflexivity|]. intros Hm. apply K1 in Hm. subst k. specialize (Hn1 eq_refl). congruence.
        * left. apply Sv, U1; [exact HD|reflexivity|exact HM].
  Qed.

  Lemma session_total w h ev : forall e d, inv T w h e ->
    (forall c k i s g, generator c k i s g <> None) \/ making (e_mode _ e) = false /\ ~ In (Key 109) ev /\ ~ In (Key 110) ev ->
    session e d ev <> None.
  Proof.
    induction ev as [|v ev IH]; intros e d I HG; [discriminate|].
    rewrite session_cons. destruct (step_spec T teqb through half_pi nil atan2 generator w h e v I) as [N S].
    destruct (step e v) as [[e1 l]|] eqn:E1.
    - cbn [obind fst snd]. destruct (S e1 l eq_refl) as (I1 & _ & _ & _ & _ & _ & M1). apply IH; [exact I1|].
      destruct HG as [HG|(HG & K1 & K2)]; [left; exact HG|]. right. cbn [In] in K1, K2. split; [|tauto].
      destruct M1 as [M1|[_ (k & -> & _ & K3)]]; [congruence|].
      destruct (making (e_mode _ e1)) eqn:Em; [|reflexivity]. exfalso.
      destruct (proj2 K3 eq_refl) as [-> | ->]; [apply K1; left; reflexivity|apply K2; left; reflexivity].
    - destruct (N eq_refl) as [N1 (c & k & i & s & g & N2)]. exfalso. destruct HG as [HG|(HG & _)]; [apply (HG _ _ _ _ _ N2)|congruence].
  Qed.

  (** ** C69: map and picture agree, and the program does not fail, after every history *)
  Theorem C69_in_step w h res d0 : sane w h ->
    (construct w h res d0 <> Stuck T) /\
    (forall ev e d, reached w h res d0 ev e d ->
       e_w _ e = w /\ e_h _ e = h /\ gm_w (e_map _ e) = w /\ gm_h (e_map _ e) = h /\ pictured w h (e_orig _ e) (e_map _ e)) /\
    (forall ev e0 l0, construct w h res d0 = Running T e0 l0 ->
       (forall c k i s g, generator c k i s g <> None) \/ ~ In (Key 109) ev /\ ~ In (Key 110) ev ->
       exists e d, reached w h res d0 ev e d).
  Proof.
    intros Hs. split; [|split].
    - pose proof (construct_spec w h res d0 Hs) as C. intros E. rewrite E in C.
      destruct (d_ppm _ d0) as [[[w' h'] i]|]; [|destruct C as (? & C & _); discriminate].
      destruct (_ && _); [|destruct C as (? & C & _); discriminate].
      destruct (d_yaml _ d0) as [[|r s g]|]; try discriminate.
      destruct (teqb r res); destruct C as (? & C & _); discriminate.
    - intros ev e d (e0 & l0 & E0 & E). destruct (start_inv w h res d0 e0 l0 Hs E0) as (I & _ & _ & _ & F & _).
      destruct (session_inv w h ev e0 _ e d I F E) as (I1 & _).
      destruct (inv_pictured w h e I1) with (x := 0) (y := 0) as [_ _]; [unfold cell_of; destruct Hs; lia|].
      pose proof I1 as [A B (C1 & C2 & C3 & _) _]. repeat split; auto; apply (inv_pictured w h e I1); assumption.
    - intros ev e0 l0 E0 HG. destruct (start_inv w h res d0 e0 l0 Hs E0) as (I & _ & _ & M & _ & _).
      pose proof (session_total w h ev e0 (do_writes d0 l0) I) as Ht.
      destruct (session e0 (do_writes d0 l0) ev) as [[e d]|] eqn:E.
      + exists e, d, e0, l0. auto.
      + exfalso. apply Ht; [|reflexivity]. destruct HG as [HG|HG]; [left; exact HG|right]. rewrite M. cbn. tauto.
  Qed.

  (** ** C69: the picture is on the disk after every event, start and goal whenever
      no button is down - unless 'f' was pressed while one was *)
  Theorem C69_saved w h res d0 ev e d : sane w h -> reached w h res d0 ev e d ->
    d_ppm _ d = Some (w, h, e_orig _ e) /\
    exists r s g, d_yaml _ d = Some (Doc T r s g) /\ stored (e_res _ e) r /\
      (no_f false ev -> held false ev = false -> stored_pose (e_start _ e) s /\ stored_pose (e_goal _ e) g).
  Proof.
    intros Hs (e0 & l0 & E0 & E). destruct (start_inv w h res d0 e0 l0 Hs E0) as (I & _ & D0 & _ & F & P).
    destruct (session_inv w h ev e0 _ e d I F E) as (I1 & R1 & [F1 (r & s & g & F2 & F3)] & D1 & P1). rewrite D0 in *.
    split; [exact F1|]. exists r, s, g. split; [exact F2|]. split; [exact F3|].
    intros Hn Hh. destruct (P1 Hn (or_introl P)) as [(r' & s' & g' & Y & S1 & S2)|[X _]]; [|congruence].
    rewrite F2 in Y. injection Y as <- <- <-. auto.
  Qed.

  (** ** C69: a new start with the same size and resolution finds everything again
      (provided the resolution is a number and survives the text file) *)
  Theorem C69_restart w h res d0 ev e d : sane w h -> reached w h res d0 ev e d ->
    teqb res res = true -> (forall r, teqb r res = true -> teqb (through r) res = true) ->
    no_f false ev -> held false ev = false ->
    exists e', construct w h res d = Running T e' [] /\ e_orig _ e' = e_orig _ e /\ pictured w h (e_orig _ e) (e_map _ e') /\
      stored_pose (e_start _ e) (e_start _ e') /\ stored_pose (e_goal _ e) (e_goal _ e').
  Proof.
    intros Hs HR Hnn Ht Hn Hh. destruct (C69_saved w h res d0 ev e d Hs HR) as (Y1 & r & s & g & Y2 & Y3 & Y4).
    specialize (Y4 Hn Hh). pose proof HR as (e0 & l0 & E0 & E). destruct (start_inv w h res d0 e0 l0 Hs E0) as (I & R0 & D0 & _ & F & P).
    destruct (session_inv w h ev e0 _ e d I F E) as (I1 & R1 & _).
    assert (Er : teqb r res = true).
    { assert (teqb (e_res _ e) res = true) by (rewrite R1; destruct R0 as [-> |R0]; assumption).
      destruct Y3 as [-> | ->]; [assumption|apply Ht; assumption]. }
    pose proof (construct_spec w h res d Hs) as C. rewrite Y1, Y2, !Z.eqb_refl, Er in C. cbn [andb] in C.
    destruct C as (e' & C1 & C2 & C3 & C4). exists e'. split; [exact C1|]. split; [exact C3|].
    split; [rewrite <- C3; apply inv_pictured, C2|]. destruct C4 as (_ & _ & _ & -> & -> & _). exact Y4.
  Qed.

  (** ** C69: what a start finds, in every case: a picture of another size, or a text
      with another resolution, is not kept aside but replaced by a white map *)
  Definition fresh (w h : Z) (res : T) (d : disk T) : Prop := exists e l, construct w h res d = Running T e l /\
    (forall x y, cell_of w h x y -> isFree (e_map _ e) x y = Some true) /\
    e_start _ e = (1, 1, half_pi) /\ e_goal _ e = (w - 1, h - 1, nil) /\
    exists i, d_ppm _ (do_writes d l) = Some (w, h, i) /\ (forall x y, i x y = 255) /\
      d_yaml _ (do_writes d l) = Some (Doc T (through res) (1, 1, through half_pi) (w - 1, h - 1, through nil)).
  Theorem C69_start w h res d : sane w h ->
    (d_ppm _ d = None -> fresh w h res d) /\
    (forall w' h' i, d_ppm _ d = Some (w', h', i) ->
       ((w', h') <> (w, h) -> fresh w h res d) /\
       ((w', h') = (w, h) ->
          (d_yaml _ d = None \/ d_yaml _ d = Some (Empty T) -> construct w h res d = Throws T) /\
          (forall r s g, d_yaml _ d = Some (Doc T r s g) ->
             (teqb r res = false -> fresh w h res d) /\
             (teqb r res = true -> exists e, construct w h res d = Running T e [] /\
                e_orig _ e = i /\ pictured w h i (e_map _ e) /\ e_start _ e = s /\ e_goal _ e = g)))).
  Proof.
    intros Hs. pose proof (construct_spec w h res d Hs) as C.
    assert (D : (exists e, construct w h res d = Running T e (saveMap T through e) /\ inv T w h e /\ e_orig _ e = (fun _ _ => 255) /\
                 same_rest T e (blank T w h res (1, 1, half_pi) (w - 1, h - 1, nil))) -> fresh w h res d).
    { intros (e & E & I & O & R). exists e, (saveMap T through e). destruct R as (R1 & R2 & R3 & R4 & R5 & _). cbn in R1, R2, R3, R4, R5.
      split; [exact E|]. split.
      { intros x y Hc. destruct (inv_pictured w h e I x y Hc) as [_ ->]. rewrite O. reflexivity. }
      split; [exact R4|]. split; [exact R5|]. exists (e_orig _ e). cbn. rewrite R1, R2, R3, R4, R5.
      split; [reflexivity|]. split; [intros; rewrite O; reflexivity|]. reflexivity. }
    split.
    - intros E. rewrite E in C. apply D, C.
    - intros w' h' i E. rewrite E in C. split.
      + intros N. destruct (Z.eqb_spec w w') as [<-|N1]; [|apply D, C]. destruct (Z.eqb_spec h h') as [<-|N2]; [congruence|apply D, C].
      + intros [= -> ->]. rewrite !Z.eqb_refl in C. cbn [andb] in C. split.
        * intros [Y|Y]; rewrite Y in C; exact C.
        * intros r s g Y. rewrite Y in C. split; intros Q; rewrite Q in C; [apply D, C|].
          destruct C as (e & C1 & C2 & C3 & C4). exists e. split; [exact C1|]. split; [exact C3|].
          split; [rewrite <- C3; apply inv_pictured, C2|]. destruct C4 as (_ & _ & _ & R4 & R5 & _). auto.
  Qed.

  (** ** C69: every crash point. A program stopped inside an event has done some first part of
      that event's writes. *)
  Theorem C69_crash w h res d0 ev e d v e' l l1 l2 : sane w h -> reached w h res d0 ev e d ->
    teqb res res = true -> (forall r, teqb r res = true -> teqb (through r) res = true) ->
    step e v = Some (e', l) -> l = l1 ++ l2 ->
    exists s g, (exists r, d_yaml _ d = Some (Doc T r s g)) /\
      (** nothing written yet: the picture before and the text before *)
      (l1 = [] -> exists e1, construct w h res (do_writes d l1) = Running T e1 [] /\
          e_orig _ e1 = e_orig _ e /\ e_start _ e1 = s /\ e_goal _ e1 = g) /\
      (** stopped after the picture: the new picture with the old text *)
      (length l1 = 1%nat -> exists e1, construct w h res (do_writes d l1) = Running T e1 [] /\
          e_orig _ e1 = e_orig _ e' /\ e_start _ e1 = s /\ e_goal _ e1 = g) /\
      (** stopped after opening the text: the program starts no more with this size, whatever the resolution *)
      (length l1 = 2%nat -> forall res', construct w h res' (do_writes d l1) = Throws T) /\
      (** all written *)
      (length l1 = 3%nat -> exists e1, construct w h res (do_writes d l1) = Running T e1 [] /\
          e_orig _ e1 = e_orig _ e' /\ stored_pose (e_start _ e') (e_start _ e1) /\ stored_pose (e_goal _ e') (e_goal _ e1)) /\
      (length l1 <= 3)%nat /\ (l = [] \/ length l = 3%nat).
  Proof.
    intros Hs HR Hnn Ht E El. destruct (C69_saved w h res d0 ev e d Hs HR) as (Y1 & r & s & g & Y2 & Y3 & _).
    pose proof HR as (e0 & l0 & E0 & Es). destruct (start_inv w h res d0 e0 l0 Hs E0) as (I & R0 & _ & _ & F & P).
    destruct (session_inv w h ev e0 _ e d I F Es) as (I1 & R1 & _).
    assert (Tr : teqb (e_res _ e) res = true) by (rewrite R1; destruct R0 as [-> |R0]; assumption).
    assert (Er : teqb r res = true) by (destruct Y3 as [-> | ->]; [assumption|apply Ht; assumption]).
    destruct (step_spec T teqb through half_pi nil atan2 generator w h e v I1) as [_ S].
    destruct (S e' l E) as (I2 & R2 & _ & L & _). clear S.
    assert (Go : forall d1 i r1 s1 g1, d_ppm _ d1 = Some (w, h, i) -> d_yaml _ d1 = Some (Doc T r1 s1 g1) -> teqb r1 res = true ->
       exists e1, construct w h res d1 = Running T e1 [] /\ e_orig _ e1 = i /\ e_start _ e1 = s1 /\ e_goal _ e1 = g1).
    { intros d1 i r1 s1 g1 A B Q. destruct (proj2 (C69_start w h res d1 Hs) w h i A) as [_ G]. destruct (G eq_refl) as [_ G2].
      destruct (G2 r1 s1 g1 B) as [_ G3]. destruct (G3 Q) as (e1 & Q1 & Q2 & _ & Q3 & Q4). exists e1. auto. }
    exists s, g. split; [exists r; exact Y2|]. split; [intros ->; apply Go with r; assumption|].
    assert (Hw : e_w _ e' = w) by apply I2. assert (Hh : e_h _ e' = h) by apply I2.
    destruct L as [[-> _]| ->].
    - symmetry in El. apply app_eq_nil in El. destruct El as [-> _]. cbn [length]. repeat split; try lia; try discriminate. left; reflexivity.
    - destruct l1 as [|a1 [|a2 [|a3 [|a4 l1]]]]; cbn [app EvaluatorModel.saveMap] in El.
      + cbn [length]. repeat split; try discriminate; try lia. right. reflexivity.
      + injection El as <- _. cbn [length]. split; [intros _; apply Go with r; [cbn; rewrite Hw, Hh; reflexivity|exact Y2|exact Er]|].
        repeat split; try discriminate; try lia. right. reflexivity.
      + injection El as <- <- _. cbn [length]. split; [discriminate|]. split.
        { intros _ res'. destruct (proj2 (C69_start w h res' (do_writes d [WriteImage T (e_w T e') (e_h T e') (e_orig T e'); OpenText T]) Hs) w h (e_orig _ e')) as [_ G];
            [cbn; rewrite Hw, Hh; reflexivity|]. apply (G eq_refl). right. reflexivity. }
        split; [discriminate|]. split; [lia|]. right. reflexivity.
      + injection El as <- <- <- _. cbn [length]. split; [discriminate|]. split; [discriminate|]. split.
        { intros _. destruct (Go (do_writes d (saveMap T through e')) (e_orig _ e') (through (e_res _ e')) (file_pose T through (e_start _ e')) (file_pose T through (e_goal _ e'))) as (e1 & G1 & G2 & G3 & G4);
            [cbn; rewrite Hw, Hh; reflexivity|cbn; reflexivity|apply Ht; rewrite R2; exact Tr|].
          exists e1. split; [exact G1|]. split; [exact G2|]. rewrite G3, G4. unfold stored_pose, stored, file_pose. cbn. auto. }
        split; [lia|]. right. reflexivity.
      + discriminate.
  Qed.

  (** The very first start, stopped before its text is written: no later start gets past it. *)
  Theorem C69_first_crash w h res d e l l1 l2 : sane w h -> d_ppm _ d = None -> d_yaml _ d = None ->
    construct w h res d = Running T e l -> l = l1 ++ l2 ->
    (length l1 = 1%nat \/ length l1 = 2%nat) -> forall res', construct w h res' (do_writes d l1) = Throws T.
  Proof.
    intros Hs Hp Hy E El Hl res'. pose proof (construct_spec w h res d Hs) as C. rewrite Hp in C.
    destruct C as (e1 & C1 & C2 & C3 & C4). rewrite E in C1. injection C1 as <- ->.
    assert (Hw : e_w _ e = w) by apply C2. assert (Hh : e_h _ e = h) by apply C2.
    destruct l1 as [|a1 [|a2 [|a3 l1]]]; cbn [app EvaluatorModel.saveMap length] in El, Hl; try lia.
    - injection El as <- _. destruct (proj2 (C69_start w h res' (do_writes d [WriteImage T (e_w T e) (e_h T e) (e_orig T e)]) Hs) w h (e_orig _ e)) as [_ G];
        [cbn; rewrite Hw, Hh; reflexivity|]. apply (G eq_refl). left. exact Hy.
    - injection El as <- <- _. destruct (proj2 (C69_start w h res' (do_writes d [WriteImage T (e_w T e) (e_h T e) (e_orig T e); OpenText T]) Hs) w h (e_orig _ e)) as [_ G];
        [cbn; rewrite Hw, Hh; reflexivity|]. apply (G eq_refl). right. reflexivity.
  Qed.

  (** ** C69: where a click lands. The window shows map row [shown_row e py] in its row [py]. *)
  Theorem C69_row w h res d0 ev e d px py qx qy : sane w h -> reached w h res d0 ev e d ->
    0 <= px < SCALE * w -> 0 <= py < SCALE * h ->
    let r := shown_row T e py in
    let c := shown_col px in
    cell_of w h c r /\
    (** start and goal are put one row above the row clicked *)
    (exists e' d', session e d [Key 115; Mouse LDown px py; Mouse LUp qx qy] = Some (e', d') /\
       e_start _ e' = (c, r + 1, atan2 (py - qy) (qx - px))) /\
    (exists e' d', session e d [Key 103; Mouse LDown px py; Mouse LUp qx qy] = Some (e', d') /\
       e_goal _ e' = (c, r + 1, atan2 (py - qy) (qx - px))) /\
    (** so outside the map for the top row, and never in the bottom row *)
    (py < SCALE -> ~ cell_of w h c (r + 1)) /\ r + 1 <> 0.
  Proof.
    intros Hs HR Hx Hy r c. destruct HR as (e0 & l0 & E0 & Es). destruct (start_inv w h res d0 e0 l0 Hs E0) as (I & _ & _ & _ & F & _).
    destruct (session_inv w h ev e0 _ e d I F Es) as (I1 & _). pose proof (i_h _ _ _ _ I1) as Hh. unfold SCALE in Hx, Hy.
    assert (Er : r = h - 1 - py / 8).
    { unfold r, shown_row, SCALE. rewrite Hh. symmetry. apply Z.div_unique with (r := 7 - py mod 8); [left; pose proof (Z.mod_pos_bound py 8); lia|].
      pose proof (Z.div_mod py 8). lia. }
    assert (Ec : c = px / 8) by reflexivity.
    assert (Bx : 0 <= px / 8 < w) by (split; [apply Z.div_pos; lia|apply Z.div_lt_upper_bound; lia]).
    assert (By : 0 <= py / 8 < h) by (split; [apply Z.div_pos; lia|apply Z.div_lt_upper_bound; lia]).
    assert (Q1 : Z.quot px SCALE = c) by (rewrite Ec; unfold SCALE; apply Z.quot_div_nonneg; lia).
    assert (Q2 : e_h _ e - Z.quot py SCALE = r + 1) by (rewrite Er, Hh; unfold SCALE; rewrite Z.quot_div_nonneg by lia; lia).
    clearbody r c. assert (Hcell : cell_of w h c r) by (clear - Er Ec Bx By; unfold cell_of; lia).
    assert (H0 : r + 1 <> 0) by (clear - Er By; lia). split; [exact Hcell|]. split.
    { exists (set_poses T (set_drag T (set_drag T (set_mode T e SET_START) DRAG_LEFT (px, py)) DRAG_NONE (px, py)) (drag_pose T atan2 (set_drag T (set_drag T (set_mode T e SET_START) DRAG_LEFT (px, py)) DRAG_NONE (px, py)) qx qy) (e_goal _ e)). eexists. split; [reflexivity|].
      cbn [set_poses e_start]. unfold drag_pose. cbn [set_drag set_mode e_from e_h fst snd]. rewrite Q1, Q2. reflexivity. }
    split.
    { exists (set_poses T (set_drag T (set_drag T (set_mode T e SET_GOAL) DRAG_LEFT (px, py)) DRAG_NONE (px, py)) (e_start _ e) (drag_pose T atan2 (set_drag T (set_drag T (set_mode T e SET_GOAL) DRAG_LEFT (px, py)) DRAG_NONE (px, py)) qx qy)). eexists. split; [reflexivity|].
      cbn [set_poses e_goal]. unfold drag_pose. cbn [set_drag set_mode e_from e_h fst snd]. rewrite Q1, Q2. reflexivity. }
    split; [|exact H0]. unfold SCALE. intros Hp. assert (Ez : py / 8 = 0) by (apply Z.div_small; lia). clear - Er Ez. unfold cell_of. lia.
  Qed.

  (** Obstacles: with the left button a box of cells becomes occupied, with the right one free, and all
      other cells stay. A corner's row is the one shown, except on a cell's uppermost window row. *)
  Definition hit_row (e : evaluator T) (py : Z) : Z := shown_row T e py + (if py mod SCALE =? 0 then 1 else 0).
  Definition in_box (e : evaluator T) (px py qx qy x y : Z) : Prop :=
    Z.min (shown_col px) (shown_col qx) <= x <= Z.max (shown_col px) (shown_col qx) /\
    Z.min (hit_row e py) (hit_row e qy) <= y <= Z.max (hit_row e py) (hit_row e qy).
  Lemma corner_hit w h (e : evaluator T) px py : e_w _ e = w -> e_h _ e = h -> 0 <= px < SCALE * w -> 0 <= py < SCALE * h ->
    corner T e px py = (shown_col px, hit_row e py).
  Proof.
    intros Hw Hh Hx Hy. unfold corner, hit_row, shown_row, shown_col. unfold SCALE in *. f_equal; [apply Z.quot_div_nonneg; lia|].
    rewrite Z.quot_div_nonneg by lia. rewrite Hh.
    pose proof (Z.div_mod py 8 ltac:(lia)) as D. pose proof (Z.mod_pos_bound py 8 ltac:(lia)) as M.
    replace (h * 8 - 1 - py) with (7 - py mod 8 + (h - 1 - py / 8) * 8) by lia. rewrite Z.div_add by lia.
    rewrite (Z.div_small (7 - py mod 8)) by lia.
    destruct (Z.eqb_spec (py mod 8) 0) as [E|N].
    - replace (h * 8 - py) with ((h - py / 8) * 8) by lia. rewrite Z.div_mul by lia. lia.
    - replace (h * 8 - py) with (8 - py mod 8 + (h - 1 - py / 8) * 8) by lia. rewrite Z.div_add by lia. rewrite (Z.div_small (8 - py mod 8)) by lia. lia.
  Qed.
  Theorem C69_obstacle w h res d0 ev e d px py qx qy (left : bool) : sane w h -> reached w h res d0 ev e d ->
    0 <= px < SCALE * w -> 0 <= py < SCALE * h -> 0 <= qx < SCALE * w -> 0 <= qy < SCALE * h ->
    exists e' d', session e d [Key 111; Mouse (if left then LDown else RDown) px py; Mouse (if left then LUp else RUp) qx qy] = Some (e', d') /\
      forall x y, cell_of w h x y ->
        (in_box e px py qx qy x y -> isOccupied (e_map _ e') x y = Some left /\ isFree (e_map _ e') x y = Some (negb left)) /\
        (~ in_box e px py qx qy x y -> isOccupied (e_map _ e') x y = isOccupied (e_map _ e) x y /\ isFree (e_map _ e') x y = isFree (e_map _ e) x y).
  Proof.
    intros Hs HR Hx Hy Kx Ky. destruct HR as (e0 & l0 & E0 & Es). destruct (start_inv w h res d0 e0 l0 Hs E0) as (I & _ & _ & _ & F & _).
    destruct (session_inv w h ev e0 _ e d I F Es) as (I1 & _). pose proof I1 as [Hw Hh Hk _].
    set (e2 := set_drag T (set_mode T e SET_OBSTACLE) (if left then DRAG_LEFT else DRAG_RIGHT) (px, py)).
    set (i' := rectangle (e_orig _ e) (shown_col px, hit_row e py) (shown_col qx, hit_row e qy) (if left then 0 else 255)).
    destruct (generateMap_spec T teqb through half_pi nil atan2 generator w h true (set_sel T e2 (-1)) i' Hw Hh Hk) as (e3 & E3 & I3 & O3 & R3).
    assert (Rl : released T through generator e2 qx qy = Some (e3, saveMap T through e3)).
    { unfold released. change (e_mode T e2) with SET_OBSTACLE. cbv iota. rewrite <- E3. f_equal. unfold i', e2; cbn [set_drag set_mode e_orig e_from e_drag fst snd].
      rewrite <- (corner_hit w h e px py Hw Hh Hx Hy), <- (corner_hit w h e qx qy Hw Hh Kx Ky). destruct left; reflexivity. }
    assert (Em : e_mode _ e3 = SET_OBSTACLE) by (destruct R3 as (_ & _ & _ & _ & _ & _ & -> & _); reflexivity).
    set (e4 := set_sel T (set_drag T e3 DRAG_NONE (e_from _ e3)) (Z.abs (qx - fst (e_from _ e3)))).
    exists e4, (do_writes d (saveMap T through e3)). split.
    { rewrite session_cons. change (step e (Key 111)) with (Some (set_mode T e SET_OBSTACLE, @Datatypes.nil (write T))). cbn [obind fst snd].
      rewrite session_cons. unfold EvaluatorModel.step at 1.
      assert (D : mouseCallback T through atan2 generator (set_mode T e SET_OBSTACLE) (if left then LDown else RDown) px py = Some (e2, []))
        by (destruct left; reflexivity).
      rewrite D. cbn [obind fst snd]. rewrite session_cons. unfold EvaluatorModel.step at 1.
      assert (U : mouseCallback T through atan2 generator e2 (if left then LUp else RUp) qx qy = Some (e4, saveMap T through e3)).
      { assert (U0 : (r <- released T through generator e2 qx qy ;;
           Some (fst (dragging T through atan2 (set_drag T (fst r) DRAG_NONE (e_from T (fst r))) true qx qy),
                 snd r ++ snd (dragging T through atan2 (set_drag T (fst r) DRAG_NONE (e_from T (fst r))) true qx qy))) = Some (e4, saveMap T through e3)).
        { rewrite Rl. cbn [obind fst snd]. unfold dragging. cbn [set_drag e_mode]. rewrite Em. cbn [fst snd]. rewrite app_nil_r. reflexivity. }
        destruct left; exact U0. }
      rewrite U. reflexivity. }
    intros x y Hc. assert (P3 := inv_pictured w h e3 I3 x y Hc). rewrite O3 in P3. assert (P := inv_pictured w h e I1 x y Hc).
    change (e_map T e4) with (e_map T e3). destruct P3 as [-> ->]. destruct P as [-> ->]. unfold i', rectangle, in_box. cbn [fst snd].
    match goal with |- context [if ?b then _ else _] => destruct b eqn:Eb end.
    - split; [intros _; destruct left; auto|intros N; exfalso; apply N; lia].
    - split; [intros N; exfalso; lia|auto].
  Qed.

  (** ** C69: clearing and inverting *)
  Theorem C69_keys w h res d0 ev e d : sane w h -> reached w h res d0 ev e d ->
    (exists e' d', session e d [Key 99] = Some (e', d') /\ forall x y, cell_of w h x y -> isFree (e_map _ e') x y = Some true) /\
    (exists e' d', session e d [Key 105] = Some (e', d') /\ forall x y, cell_of w h x y ->
       (e_orig _ e x y = 0 \/ e_orig _ e x y = 255 -> isFree (e_map _ e') x y = isOccupied (e_map _ e) x y) /\
       (e_orig _ e x y <> 0 -> e_orig _ e x y <> 255 -> isFree (e_map _ e') x y = Some true)) /\
    (exists e' d', session e d [Key 105; Key 105] = Some (e', d') /\ forall x y, cell_of w h x y ->
       e_orig _ e' x y = e_orig _ e x y /\ isFree (e_map _ e') x y = isFree (e_map _ e) x y).
  Proof.
    intros Hs HR. destruct HR as (e0 & l0 & E0 & Es). destruct (start_inv w h res d0 e0 l0 Hs E0) as (I & _ & _ & _ & F & _).
    destruct (session_inv w h ev e0 _ e d I F Es) as (I1 & _). pose proof I1 as [Hw Hh Hk _].
    destruct (generateMap_spec T teqb through half_pi nil atan2 generator w h true e (cleared w h (e_orig _ e)) Hw Hh Hk) as (ec & Ec & Ic & Oc & _).
    destruct (generateMap_spec T teqb through half_pi nil atan2 generator w h true e (inverted w h (e_orig _ e)) Hw Hh Hk) as (ei & Ei & Ii & Oi & _).
    pose proof Ii as [Hw1 Hh1 Hk1 _].
    destruct (generateMap_spec T teqb through half_pi nil atan2 generator w h true ei (inverted w h (e_orig _ ei)) Hw1 Hh1 Hk1) as (ej & Ej & Ij & Oj & _).
    assert (Inv : forall i x y, cell_of w h x y -> inverted w h i x y = 255 - i x y).
    { intros i x y [Hx Hy]. unfold inverted. replace ((0 <=? x) && (x <? w) && (0 <=? y) && (y <? h)) with true by lia. reflexivity. }
    split; [|split].
    - exists ec. eexists. split; [rewrite session_cons; cbn [EvaluatorModel.step keyCallback Z.eqb Pos.eqb]; rewrite Hw, Hh, Ec; cbn [obind fst snd EvaluatorModel.session]; reflexivity|].
      intros x y Hc. destruct (inv_pictured w h ec Ic x y Hc) as [_ ->]. rewrite Oc. unfold cleared, rectangle, SCALE. cbn [fst snd].
      destruct Hc as [Hx Hy]. replace (_ && _ && _ && _) with true by lia. reflexivity.
    - exists ei. eexists. split; [rewrite session_cons; cbn [EvaluatorModel.step keyCallback Z.eqb Pos.eqb]; rewrite Hw, Hh, Ei; cbn [obind fst snd EvaluatorModel.session]; reflexivity|].
      intros x y Hc. destruct (inv_pictured w h ei Ii x y Hc) as [_ ->]. destruct (inv_pictured w h e I1 x y Hc) as [-> _]. rewrite Oi, (Inv _ _ _ Hc).
      split; [intros [-> | ->]; reflexivity|]. intros A B. destruct (Z.eqb_spec (255 - e_orig _ e x y) 0); [lia|reflexivity].
    - exists ej. eexists. split.
      { rewrite session_cons. cbn [EvaluatorModel.step keyCallback Z.eqb Pos.eqb]. rewrite Hw, Hh, Ei. cbn [obind fst snd]. rewrite session_cons.
        cbn [EvaluatorModel.step keyCallback Z.eqb Pos.eqb]. rewrite Hw1, Hh1, Ej. cbn [obind fst snd EvaluatorModel.session]. reflexivity. }
      intros x y Hc. destruct (inv_pictured w h ej Ij x y Hc) as [_ ->]. destruct (inv_pictured w h e I1 x y Hc) as [_ ->].
      rewrite Oj, (Inv _ _ _ Hc), Oi, (Inv _ _ _ Hc). replace (255 - (255 - e_orig _ e x y)) with (e_orig _ e x y) by lia. auto.
  Qed.

  (** ** C69: mazes and filling curves.  [l] brings up what the generator makes, at width W
      (in pixels of the window; at least one cell), of an all black picture. *)
  Definition made (w h : Z) (curve : bool) (W : Z) (e : evaluator T) (d : disk T) (l : list event) : Prop :=
    exists i1 : image, (forall x y, cell_of w h x y -> i1 x y = 0) /\
      match generator curve (Z.max 1 (W / 8)) i1 (e_start _ e) (e_goal _ e) with
      | None => session e d l = None
      | Some i2 => exists e' d', session e d l = Some (e', d') /\
          (forall x y, cell_of w h x y -> isOccupied (e_map _ e') x y = Some (i2 x y =? 0) /\ isFree (e_map _ e') x y = Some (negb (i2 x y =? 0))) /\
          e_start _ e' = e_start _ e /\ e_goal _ e' = e_goal _ e
      end.
  Definition press (left : bool) : mouse := if left then LDown else RDown.
  Definition let_go (left : bool) : mouse := if left then LUp else RUp.
  Definition drag (left : bool) (p : Z * Z) (ms : list (Z * Z)) (r : Z * Z) : list event :=
    Mouse (press left) (fst p) (snd p) :: map (fun m => Mouse Move (fst m) (snd m)) ms ++ [Mouse (let_go left) (fst r) (snd r)].

  Lemma moves_sel px py : forall ms e d l, e_mode _ e = MAKE_MAZE \/ e_mode _ e = MAKE_FILLING_CURVE -> e_drag _ e <> DRAG_NONE -> e_from _ e = (px, py) ->
    session e d (map (fun m => Mouse Move (fst m) (snd m)) ms ++ l) =
    session (set_sel T e (match ms with [] => e_sel _ e | _ => Z.abs (fst (last ms (0, 0)) - px) end)) d l.
  Proof.
    induction ms as [|q ms IH]; intros e d l Hm Hd Hf; cbn [map app].
    - f_equal. destruct e; reflexivity.
    - rewrite session_cons. change (step e (Mouse Move (fst q) (snd q))) with
        (match e_drag T e with DRAG_NONE => Some (e, []) | _ => Some (dragging T through atan2 e false (fst q) (snd q)) end).
      assert (E : dragging T through atan2 e false (fst q) (snd q) = (set_sel T e (Z.abs (fst q - px)), [])).
      { unfold dragging. rewrite Hf. destruct Hm as [-> | ->]; reflexivity. }
      replace (match e_drag T e with DRAG_NONE => Some (e, []) | _ => Some (dragging T through atan2 e false (fst q) (snd q)) end)
        with (Some (set_sel T e (Z.abs (fst q - px)), @Datatypes.nil (write T))) by (rewrite E; destruct (e_drag T e); congruence).
      cbn [obind fst snd]. change (do_writes d []) with d. rewrite IH; [|exact Hm|exact Hd|exact Hf].
      f_equal. destruct ms as [|q' ms]; reflexivity.
  Qed.

  Lemma drag_made w h (curve left : bool) p ms r e d : inv T w h e -> e_mode _ e = (if curve then MAKE_FILLING_CURVE else MAKE_MAZE) ->
    0 <= e_sel _ e ->
    made w h curve (match ms with [] => e_sel _ e | _ => Z.abs (fst (last ms (0, 0)) - fst p) end) e d (drag left p ms r) /\
    forall e' d', session e d (drag left p ms r) = Some (e', d') ->
      inv T w h e' /\ e_mode _ e' = e_mode _ e /\ e_sel _ e' = Z.abs (fst r - fst p).
  Proof.
    intros I Hm Hs. set (W := match ms with [] => e_sel _ e | _ => _ end).
    set (e1 := set_drag T e (if left then DRAG_LEFT else DRAG_RIGHT) p). set (e2 := set_sel T e1 W).
    assert (HW : 0 <= W) by (unfold W; destruct ms; lia).
    assert (S2 : session e d (drag left p ms r) = session e2 d [Mouse (let_go left) (fst r) (snd r)]).
    { unfold drag. rewrite session_cons.
      assert (D : step e (Mouse (press left) (fst p) (snd p)) = Some (e1, [])) by (unfold e1; destruct left, p; reflexivity).
      rewrite D. cbn [obind fst snd]. change (do_writes d []) with d.
      rewrite (moves_sel (fst p) (snd p)); [reflexivity|cbn; rewrite Hm; destruct curve; auto|unfold e1; cbn; destruct left; discriminate|cbn; destruct p; reflexivity]. }
    pose proof I as [Hw Hh Hk _].
    pose proof (make_spec T teqb through half_pi nil atan2 generator w h curve W e2 Hw Hh Hk) as M.
    set (i1 := inverted w h (cleared w h (e_orig T e2))) in *.
    assert (Ei : forall x y, cell_of w h x y -> i1 x y = 0).
    { intros x y [Hx Hy]. unfold i1, inverted, cleared, rectangle, SCALE. cbn [fst snd].
      replace ((0 <=? x) && (x <? w) && (0 <=? y) && (y <? h)) with true by lia. replace (_ && _ && _ && _) with true by lia. reflexivity. }
    assert (Eq : Z.quot W SCALE = W / 8) by (apply Z.quot_div_nonneg; unfold SCALE; lia). rewrite Eq in M.
    change (e_start T e2) with (e_start T e) in M. change (e_goal T e2) with (e_goal T e) in M.
    assert (U : step e2 (Mouse (let_go left) (fst r) (snd r)) =
      (r0 <- released T through generator e2 (fst r) (snd r) ;;
       Some (fst (dragging T through atan2 (set_drag T (fst r0) DRAG_NONE (e_from T (fst r0))) true (fst r) (snd r)),
             snd r0 ++ snd (dragging T through atan2 (set_drag T (fst r0) DRAG_NONE (e_from T (fst r0))) true (fst r) (snd r))))).
    { destruct left; reflexivity. }
    assert (Rl : released T through generator e2 (fst r) (snd r) = (r0 <- make T through generator curve W e2 ;; Some (set_sel T (fst r0) (-1), snd r0))).
    { unfold released. change (e_mode T e2) with (e_mode T e). rewrite Hm. destruct curve; reflexivity. }
    rewrite Rl in U. unfold made. rewrite S2. cbn [EvaluatorModel.session]. rewrite U.
    destruct (generator curve (Z.max 1 (W / 8)) i1 (e_start T e) (e_goal T e)) as [i2|] eqn:Eg.
    - destruct M as (e3 & -> & I3 & O3 & R3). cbn [obind fst snd].
      destruct R3 as (R1 & R2 & Rr & R4 & R5 & R6 & R7 & R8 & R9).
      set (e4 := set_sel T (set_drag T (set_sel T e3 (-1)) DRAG_NONE (e_from T e3)) (Z.abs (fst r - fst p))).
      assert (E4 : dragging T through atan2 (set_drag T (set_sel T e3 (-1)) DRAG_NONE (e_from T (set_sel T e3 (-1)))) true (fst r) (snd r) = (e4, [])).
      { unfold dragging. cbn [set_drag set_sel e_mode e_from]. rewrite R7, R8. cbn [e2 e1 set_sel set_drag e_mode e_from]. rewrite Hm.
        unfold e4. rewrite R8. destruct curve; reflexivity. }
      rewrite E4. cbn [fst snd]. split.
      + exists i1. split; [exact Ei|]. rewrite Eg. eexists e4, _. split; [reflexivity|]. split; [|split; [exact R4|exact R5]].
        intros x y Hc. pose proof (inv_pictured w h e3 I3 x y Hc) as P. rewrite O3 in P. exact P.
      + intros e' d' E. apply (f_equal (option_map fst)) in E. cbn [option_map fst] in E. injection E as <-.
        split; [|split; [cbn; rewrite R7; reflexivity|reflexivity]]. destruct I3 as [J1 J2 J3 J4]. split; assumption.
    - rewrite M. cbn [obind]. split; [|discriminate].
      exists i1. split; [exact Ei|]. rewrite Eg. reflexivity.
  Qed.

  (** The width is that of the last mouse move before the button comes up; a click without
      a move takes the width at which the drag before ended. *)
  Theorem C69_maze w h res d0 ev e d (curve left : bool) p ms r : sane w h -> reached w h res d0 ev e d -> ms <> [] ->
    made w h curve (Z.abs (fst (last ms (0, 0)) - fst p)) e d (Key (if curve then 110 else 109) :: drag left p ms r) /\
    forall e1 d1 left2 p2 r2, session e d (Key (if curve then 110 else 109) :: drag left p ms r) = Some (e1, d1) ->
      made w h curve (Z.abs (fst r - fst p)) e1 d1 (drag left2 p2 [] r2).
  Proof.
    intros Hs HR Hne. destruct HR as (e0 & l0 & E0 & Es). destruct (start_inv w h res d0 e0 l0 Hs E0) as (I & _ & _ & _ & F & _).
    destruct (session_inv w h ev e0 _ e d I F Es) as (I1 & _).
    set (em := set_mode T e (if curve then MAKE_FILLING_CURVE else MAKE_MAZE)).
    set (en := set_sel T em 0).
    assert (Im : inv T w h en) by (destruct I1 as [J1 J2 J3 J4]; split; assumption).
    assert (Ek : step e (Key (if curve then 110 else 109)) = Some (em, [])) by (destruct curve; reflexivity).
    (* the selection left by earlier drags does not matter when the mouse moves *)
    assert (Ed : session em d (drag left p ms r) = session en d (drag left p ms r)).
    { unfold drag. rewrite !session_cons.
      assert (D : forall e', step e' (Mouse (press left) (fst p) (snd p)) = Some (set_drag T e' (if left then DRAG_LEFT else DRAG_RIGHT) p, []))
        by (intros e'; destruct left, p; reflexivity).
      rewrite !D. cbn [obind fst snd]. change (do_writes d []) with d.
      rewrite !(moves_sel (fst p) (snd p)); try (cbn; destruct curve; auto; fail); try (cbn; destruct left; discriminate); try (cbn; destruct p; reflexivity).
      destruct ms; [contradiction|reflexivity]. }
    destruct (drag_made w h curve left p ms r en d Im) as [M1 M2]; [destruct curve; reflexivity|cbn; lia|].
    assert (Ec : session e d (Key (if curve then 110 else 109) :: drag left p ms r) = session en d (drag left p ms r)).
    { rewrite session_cons, Ek. cbn [obind fst snd]. change (do_writes d []) with d. exact Ed. }
    split.
    - unfold made in M1 |- *. rewrite Ec. destruct ms as [|m ms]; [contradiction|]. exact M1.
    - intros e1 d1 left2 p2 r2 E1. rewrite Ec in E1. destruct (M2 e1 d1 E1) as (I2 & Hm2 & Hs2).
      destruct (drag_made w h curve left2 p2 [] r2 e1 d1 I2) as [M3 _]; [rewrite Hm2; destruct curve; reflexivity|lia|].
      cbn match in M3. rewrite Hs2 in M3. exact M3.
  Qed.

  (** ** C69, refuted without its condition: drag a new start, press 'f', let go: the start is set, no file is written *)
  Theorem C69_unsaved_refuted w h res d0 ev e d px py mx my qx qy : sane w h -> reached w h res d0 ev e d ->
    0 <= px < SCALE * w -> 0 <= py < SCALE * h ->
    exists e', session e d [Key 115; Mouse LDown px py; Mouse Move mx my; Key 102; Mouse LUp qx qy] = Some (e', d) /\
      e_start _ e' = (shown_col px, shown_row T e py + 1, atan2 (py - my) (mx - px)).
  Proof.
    intros Hs HR Hx Hy. destruct (C69_row w h res d0 ev e d px py mx my Hs HR Hx Hy) as (_ & (e1 & d1 & A & B) & _).
    exists (set_drag T (set_mode T (set_poses T (set_drag T (set_mode T e SET_START) DRAG_LEFT (px, py))
        (drag_pose T atan2 (set_drag T (set_mode T e SET_START) DRAG_LEFT (px, py)) mx my) (e_goal _ e)) SET_FOCUS) DRAG_NONE (px, py)).
    split; [reflexivity|]. rewrite <- B.
    assert (A' : Some (e1, d1) = session e d [Key 115; Mouse LDown px py; Mouse LUp mx my]) by (symmetry; exact A).
    match type of A' with _ = ?b => let b' := eval cbv [EvaluatorModel.session EvaluatorModel.step keyCallback mouseCallback released dragging set_mode e_mode set_drag obind fst snd e_from e_drag Z.eqb Pos.eqb] in b in change b with b' in A' end.
    injection A' as -> _. reflexivity.
  Qed.
End Eval.

(** ** Concrete runs: headings and resolution are whole numbers, the text keeps tens only. *)
Definition ex_th (z : Z) : Z := z / 10 * 10.
Definition ex_at2 (a b : Z) : Z := 100 * a + b.
Definition ex_gen (c : bool) (k : Z) (i : image) (s g : Z * Z * Z) : option image := if c then None else Some (fun x y => if x =? k then 255 else i x y).
Notation nothing := (Disk Z None None).
Notation ev1 := [Key 115; Mouse LDown 10 3; Mouse Move 14 5; Mouse LUp 20 9; Key 111; Mouse LDown 0 15; Mouse LUp 9 9; Key 109; Key 102].

Definition ex_go (res : Z) (ev : list event) : option (evaluator Z * disk Z) :=
  match construct Z Z.eqb ex_th 157 0 3 2 res nothing with
  | Running _ e l => session Z ex_th ex_at2 ex_gen e (do_writes Z nothing l) ev
  | _ => None
  end.
Lemma ex_go_reached res ev e d : ex_go res ev = Some (e, d) -> reached Z Z.eqb ex_th 157 0 ex_at2 ex_gen 3 2 res nothing ev e d.
Proof.
  unfold ex_go. intros H. destruct (construct _ _ _ _ _ _ _ _ _) as [| |e0 l0] eqn:E; try discriminate. exists e0, l0. auto.
Qed.
Lemma ex_go_check res ev (P : evaluator Z -> disk Z -> Prop) :
  match ex_go res ev with Some (e, d) => P e d | None => False end ->
  exists e d, reached Z Z.eqb ex_th 157 0 ex_at2 ex_gen 3 2 res nothing ev e d /\ P e d.
Proof.
  intros H. destruct (ex_go res ev) as [[e d]|] eqn:E; [|contradiction]. exists e, d. split; [apply ex_go_reached, E|exact H].
Qed.
Notation again res d := (construct Z Z.eqb ex_th 157 0 3 2 res d).

(** A history whose states meet the hypotheses: a new start, a wall, both saved and found again. *)
Example ex69_run1 : exists e d, reached Z Z.eqb ex_th 157 0 ex_at2 ex_gen 3 2 20 nothing ev1 e d /\
  e_start _ e = (1, 2, -590) /\ isOccupied (e_map _ e) 1 0 = Some true /\ isOccupied (e_map _ e) 2 0 = Some false /\
  d_yaml _ d = Some (Doc Z 20 (1, 2, -590) (2, 1, 0)) /\
  match again 20 d with Running _ e' [] => isOccupied (e_map _ e') 1 0 = Some true | _ => False end.
Proof. apply ex_go_check. vm_compute. repeat split. Qed.
Example ex69_hyps1 : sane 3 2 /\ Z.eqb 20 20 = true /\ (forall r, Z.eqb r 20 = true -> Z.eqb (ex_th r) 20 = true) /\ no_f false ev1 /\ held false ev1 = false.
Proof.
  split; [unfold sane; lia|]. split; [reflexivity|]. split; [intros r H; apply Z.eqb_eq in H; subst; reflexivity|].
  split; [|reflexivity]. cbn. repeat split; discriminate || auto.
Qed.
(** A resolution that does not survive the text: the second start wipes the map. *)
Example ex69_run2 : exists e d, reached Z Z.eqb ex_th 157 0 ex_at2 ex_gen 3 2 25 nothing ev1 e d /\ isOccupied (e_map _ e) 1 0 = Some true /\
  match again 25 d with Running _ e' _ => isOccupied (e_map _ e') 1 0 = Some false | _ => False end.
Proof. apply ex_go_check. vm_compute. repeat split. Qed.
(** An event that writes, stopped after its second write. *)
Example ex69_run3 : exists e d, reached Z Z.eqb ex_th 157 0 ex_at2 ex_gen 3 2 20 nothing ev1 e d /\
  match step Z ex_th ex_at2 ex_gen e (Key 99) with
  | Some (e', l) => length l = 3%nat /\ again 20 (do_writes Z d (firstn 2 l)) = Throws Z
  | None => False
  end.
Proof. apply ex_go_check. vm_compute. repeat split. Qed.
(** The maze key with a generator that comes back, and the curve key with one that does not. *)
Example ex69_run4 : exists e d, reached Z Z.eqb ex_th 157 0 ex_at2 ex_gen 3 2 20 nothing [Key 109; Mouse LUp 0 0] e d /\
  isOccupied (e_map _ e) 0 0 = Some true /\ isFree (e_map _ e) 1 1 = Some true.
Proof. apply ex_go_check. vm_compute. repeat split. Qed.
Example ex69_run5 : ex_go 20 [Key 110; Mouse LUp 0 0] = None.
Proof. vm_compute. reflexivity. Qed.
(** Pressed at column 0, last moved to 23, let go at 8: width 23 / 8 = 2 cells.  A click later uses 8 / 8 = 1. *)
Notation maze1 := [Key 109; Mouse LDown 0 0; Mouse Move 5 0; Mouse Move 23 0; Mouse LUp 8 0].
Example ex69_run6 : exists e d, reached Z Z.eqb ex_th 157 0 ex_at2 ex_gen 3 2 20 nothing maze1 e d /\
  isOccupied (e_map _ e) 1 0 = Some true /\ isFree (e_map _ e) 2 0 = Some true.
Proof. apply ex_go_check. vm_compute. repeat split. Qed.
Example ex69_run7 : exists e d, reached Z Z.eqb ex_th 157 0 ex_at2 ex_gen 3 2 20 nothing (maze1 ++ [Mouse LDown 0 0; Mouse LUp 0 0]) e d /\
  isOccupied (e_map _ e) 2 0 = Some true /\ isFree (e_map _ e) 1 0 = Some true.
Proof. apply ex_go_check. vm_compute. repeat split. Qed.
