(** Trees of rooms: specification of a perfect maze and the facts about grown trees. *)
From Verif Require Import Base MazeModel.

(** Two rooms are joined: their walls were removed, in either order. *)
Definition joined (E : list (room * room)) (a b : room) : Prop := In (a, b) E \/ In (b, a) E.
(** [route E a l b]: going from room to joined room, from [a] to [b], the rooms are [l]. *)
Inductive route (E : list (room * room)) : room -> list room -> room -> Prop :=
| route_here a : route E a [a] a
| route_go a b l c : joined E a b -> route E b l c -> route E a (a :: l) c.

Lemma room_dec : forall a b : room, {a = b} + {a <> b}.
Proof. decide equality; apply Z.eq_dec. Defined.

Lemma joined_sym E a b : joined E a b -> joined E b a.
Proof. intros [H|H]; [right|left]; exact H. Qed.
Lemma route_head E a l b : route E a l b -> exists t, l = a :: t.
Proof. intros [x|x y t z _ _]; eexists; reflexivity. Qed.
Lemma route_in E a l b : route E a l b -> In a l /\ In b l.
Proof. induction 1 as [a|a b l c J R IH]; [split; left; reflexivity|]. split; [left; reflexivity|right; apply IH]. Qed.
Lemma route_snoc E a l b c : route E a l b -> joined E b c -> route E a (l ++ [c]) c.
Proof.
  induction 1 as [a|a b l d J R IH]; intros K; cbn.
  - eapply route_go; [exact K|apply route_here].
  - eapply route_go; [exact J|apply IH, K].
Qed.
Lemma route_rev E a l b : route E a l b -> route E b (rev l) a.
Proof.
  induction 1 as [a|a b l c J R IH]; cbn; [apply route_here|]. eapply route_snoc; [exact IH|apply joined_sym, J].
Qed.
Lemma route_more E e a l b : route E a l b -> route (e :: E) a l b.
Proof.
  induction 1 as [a|a b l c J R IH]; [apply route_here|]. eapply route_go; [|exact IH].
  destruct J as [J|J]; [left|right]; right; exact J.
Qed.
Lemma route_app E a l b k c : route E a l b -> route E b k c -> exists m, route E a m c.
Proof.
  induction 1 as [a|a b l d J R IH]; intros K; [exists k; exact K|]. destruct (IH K) as [m M].
  exists (a :: m). eapply route_go; [exact J|exact M].
Qed.

(** A set of rooms and connections that grew from one room, each time by a new room. *)
Inductive grown : list room -> list (room * room) -> Prop :=
| grown_root r : grown [r] []
| grown_add u v V E : grown V E -> In u V -> ~ In v V -> grown (v :: V) ((u, v) :: E).

Lemma grown_nodup V E : grown V E -> NoDup V.
Proof. induction 1 as [r|u v V E G IH U N]; repeat constructor; try assumption. intros []. Qed.
Lemma grown_in V E : grown V E -> forall a b, joined E a b -> In a V /\ In b V.
Proof.
  induction 1 as [r|u v V E G IH U N]; intros a b J; [destruct J as [[]|[]]|].
  destruct J as [[J|J]|[J|J]].
  - injection J as <- <-. split; [right; exact U|left; reflexivity].
  - destruct (IH a b (or_introl J)) as [A B]. split; right; assumption.
  - injection J as <- <-. split; [left; reflexivity|right; exact U].
  - destruct (IH a b (or_intror J)) as [A B]. split; right; assumption.
Qed.
Lemma grown_length V E : grown V E -> length V = S (length E).
Proof. induction 1 as [r|u v V E G IH U N]; [reflexivity|]. cbn. rewrite IH. reflexivity. Qed.
Lemma route_inside V E : grown V E -> forall a l b, route E a l b -> In a V -> forall x, In x l -> In x V.
Proof.
  intros G a l b R. induction R as [a|a b l c J R IH]; intros A x X.
  - destruct X as [<-|[]]. exact A.
  - destruct X as [<-|X]; [exact A|]. apply IH; [|exact X]. apply (grown_in _ _ G _ _ J).
Qed.

Section Leaf.
  Variables (V : list room) (E : list (room * room)) (u v : room).
  Hypothesis G : grown V E.
  Hypothesis U : In u V.
  Hypothesis N : ~ In v V.
  Let E' := (u, v) :: E.
  Lemma leaf_old a b : joined E' a b -> a <> v -> b <> v -> joined E a b.
  Proof using Type. intros [[J|J]|[J|J]] A B; try (injection J as <- <-; contradiction); [left|right]; exact J. Qed.
  Lemma leaf_only b : joined E' v b -> b = u.
  Proof using G N U.
    intros [[J|J]|[J|J]].
    - injection J as J1 J2. subst. contradiction.
    - exfalso. apply N. apply (grown_in _ _ G v b). left. exact J.
    - injection J as J1. congruence.
    - exfalso. apply N. apply (grown_in _ _ G v b). right. exact J.
  Qed.
  Lemma leaf_avoid a l b : route E' a l b -> NoDup l -> a <> v -> b <> v -> ~ In v l.
  Proof using G N U.
    induction 1 as [a|a b l c J R IH]; intros D A B X.
    - destruct X as [X|[]]. contradiction.
    - apply NoDup_cons_iff in D as [D1 D2]. destruct X as [X|X]; [contradiction|].
      destruct (room_dec b v) as [->|Hb]; [|apply (IH D2 Hb B X)].
      apply joined_sym, leaf_only in J. clear IH X. inversion R as [v' E1 E2 E3|v' y k c' J' R' E1 E2 E3]; [congruence|].
      apply leaf_only in J'. destruct (route_in _ _ _ _ R') as [Y _]. apply D1. rewrite <- E2. right. congruence.
  Qed.
  Lemma leaf_route a l b : route E' a l b -> ~ In v l -> route E a l b.
  Proof using Type.
    induction 1 as [a|a b l c J R IH]; intros X; [apply route_here|].
    destruct (route_in _ _ _ _ R) as [Y _]. eapply route_go; [|apply IH; intros Z; apply X; right; exact Z].
    apply leaf_old; [exact J|intros ->; apply X; left; reflexivity|intros ->; apply X; right; exact Y].
  Qed.
  Lemma leaf_from l b : route E' v l b -> NoDup l -> b <> v -> exists t, l = v :: t /\ route E u t b.
  Proof using G N U.
    intros R D B. inversion R as [v' E1 E2 E3|v' y k c' J' R' E1 E2 E3]; [congruence|]. subst v' c' l.
    apply leaf_only in J'. subst y. apply NoDup_cons_iff in D as [D1 D2]. exists k. split; [reflexivity|].
    apply leaf_route; assumption.
  Qed.
  Lemma leaf_loop l : route E' v l v -> NoDup l -> l = [v].
  Proof using Type.
    intros R D. inversion R as [v' E1 E2 E3|v' y k c' J' R' E1 E2 E3]; [reflexivity|]. subst v' c' l.
    exfalso. apply NoDup_cons_iff in D as [D1 D2]. apply D1. apply (route_in _ _ _ _ R').
  Qed.
End Leaf.

(** In a grown tree there is exactly one route without repetition between any two rooms. *)
Theorem grown_unique : forall V E, grown V E -> forall a b, In a V -> In b V ->
  exists l, route E a l b /\ NoDup l /\ forall l', route E a l' b -> NoDup l' -> l' = l.
Proof.
  induction 1 as [r|u v V E G IH U N]; intros a b A B.
  - destruct A as [<-|[]], B as [<-|[]]. exists [r]. split; [apply route_here|]. split; [repeat constructor; intros []|].
    intros l R D. apply leaf_loop with (E := []) (u := r); [apply route_more, R|exact D].
  - assert (From : forall b, In b V -> exists l, route ((u, v) :: E) v l b /\ NoDup l /\ forall l', route ((u, v) :: E) v l' b -> NoDup l' -> l' = l).
    { clear a b A B. intros b B. destruct (IH u b U B) as (l & R & D & Q). exists (v :: l). split; [|split].
      - eapply route_go; [right; left; reflexivity|apply route_more, R].
      - constructor; [|exact D]. intros X. apply N. apply (route_inside _ _ G _ _ _ R U _ X).
      - intros l' R' D'. destruct (leaf_from V E u v G U N l' b R' D') as (t & -> & T); [intros ->; contradiction|].
        rewrite (Q t T); [reflexivity|]. apply NoDup_cons_iff in D' as [_ D']. exact D'. }
    destruct A as [<-|A], B as [<-|B].
    + exists [v]. split; [apply route_here|]. split; [repeat constructor; intros []|]. intros l R D. exact (leaf_loop E u v l R D).
    + apply From, B.
    + destruct (From a A) as (l & R & D & Q). exists (rev l). split; [apply route_rev, R|]. split; [apply NoDup_rev, D|].
      intros l' R' D'. rewrite <- (rev_involutive l'). f_equal. apply Q; [apply route_rev, R'|apply NoDup_rev, D'].
    + destruct (IH a b A B) as (l & R & D & Q). exists l. split; [apply route_more, R|]. split; [exact D|].
      intros l' R' D'. apply Q; [|exact D']. apply leaf_route with (u := u) (v := v); [exact R'|].
      apply (leaf_avoid V E u v G U N a l' b R' D'); intros ->; contradiction.
Qed.

(** Removing one connection splits the rooms into two sides. *)
Theorem grown_sides : forall V E, grown V E -> forall a b, In (a, b) E ->
  exists side : room -> bool, side a = true /\ side b = false /\ forall c d, In (c, d) E -> (c, d) <> (a, b) -> side c = side d.
Proof.
  induction 1 as [r|u v V E G IH U N]; intros a b H; [destruct H|].
  assert (Old : forall c d, In (c, d) E -> c <> v /\ d <> v).
  { intros c d C. destruct (grown_in _ _ G c d (or_introl C)) as [X Y]. split; intros ->; contradiction. }
  destruct H as [H|H].
  - injection H as -> ->. exists (fun x => if room_dec x b then false else true). split; [|split].
    + destruct (room_dec a b) as [->|_]; [contradiction|reflexivity].
    + destruct (room_dec b b) as [_|X]; [reflexivity|contradiction].
    + intros c d [C|C] X; [congruence|]. destruct (Old c d C) as [X1 X2].
      destruct (room_dec c b), (room_dec d b); try contradiction. reflexivity.
  - destruct (IH a b H) as (side & S1 & S2 & S3). destruct (Old a b H) as [A B].
    exists (fun x => if room_dec x v then side u else side x). split; [|split].
    + destruct (room_dec a v); [contradiction|exact S1].
    + destruct (room_dec b v); [contradiction|exact S2].
    + intros c d [C|C] X.
      * injection C as <- <-. destruct (room_dec v v) as [_|Y]; [|contradiction]. destruct (room_dec u v); reflexivity.
      * destruct (Old c d C) as [X1 X2]. destruct (room_dec c v), (room_dec d v); try contradiction. apply S3; assumption.
Qed.
