(** Exact arithmetic for the distance transformation: numbers a + b*sqrt 2 with
    natural a, b, the largest double and infinity.  (max + 1 = max, as in
    binary64.)  Comparisons are decided with integers. *)
From Coq Require Import Reals Lra NArith.
From Verif Require Import Base RealSums GridMap PathSpec DirectSearch PropGeneric PropHeur DistTransModel DistTransProofs.
Open Scope Z_scope.

Inductive dnum := Fin (a b : N) | Big | Infty.

(** p < q * sqrt 2 *)
Definition below_sqrt2 (p q : Z) : bool :=
  if 0 <=? q then (p <? 0) || (p * p <? 2 * (q * q)) else (p <? 0) && (2 * (q * q) <? p * p).

Definition dlt (x y : dnum) : bool :=
  match x, y with
  | Infty, _ => false
  | _, Infty => true
  | Big, _ => false
  | _, Big => true
  | Fin a b, Fin c d => below_sqrt2 (Z.of_N a - Z.of_N c) (Z.of_N d - Z.of_N b)
  end.
Definition dadd (x y : dnum) : dnum :=
  match x, y with
  | Fin a b, Fin c d => Fin (a + c) (b + d)
  | Big, Fin _ _ => Big
  | Fin _ _, Big => Big
  | _, _ => Infty
  end.
Definition d_inf (x : dnum) : bool := match x with Infty => true | _ => false end.
Definition d_max (x : dnum) : bool := match x with Big => true | _ => false end.
Definition d0 : dnum := Fin 0 0.
Definition d1 : dnum := Fin 1 0.
Definition dsqrt2 : dnum := Fin 0 1.

Definition dval (a b : N) : R := (IZR (Z.of_N a) + IZR (Z.of_N b) * sqrt 2)%R.

Lemma sqrt2_sq : (sqrt 2 * sqrt 2 = 2)%R.
Proof. apply sqrt_sqrt. lra. Qed.
Lemma sqrt2_bounds : (1.4 < sqrt 2 < 1.5)%R.
Proof. pose proof sqrt2_sq. pose proof (sqrt_pos 2). split; nra. Qed.

Lemma below_sqrt2_spec p q : below_sqrt2 p q = true <-> (IZR p < IZR q * sqrt 2)%R.
Proof.
  pose proof sqrt2_sq as H2. pose proof sqrt2_bounds as Hb. unfold below_sqrt2.
  assert (E : (p * p <? 2 * (q * q)) = true <-> (IZR p * IZR p < 2 * (IZR q * IZR q))%R).
  { rewrite Z.ltb_lt, <- !mult_IZR. split; [apply IZR_lt|apply lt_IZR]. }
  assert (E' : (2 * (q * q) <? p * p) = true <-> (2 * (IZR q * IZR q) < IZR p * IZR p)%R).
  { rewrite Z.ltb_lt, <- !mult_IZR. split; [apply IZR_lt|apply lt_IZR]. }
  destruct (Z.leb_spec 0 q) as [Hq|Hq].
  - apply IZR_le in Hq. destruct (Z.ltb_spec p 0) as [Hp|Hp]; cbn [orb].
    + apply IZR_lt in Hp. split; [intros _; nra|reflexivity].
    + apply IZR_le in Hp. rewrite E. split; intros H; [|nra].
      destruct (Rlt_or_le (IZR p) (IZR q * sqrt 2)) as [|L]; [assumption|]. exfalso.
      assert (IZR q * sqrt 2 * (IZR q * sqrt 2) <= IZR p * IZR p)%R by (apply Rmult_le_compat; nra). nra.
  - apply IZR_lt in Hq. destruct (Z.ltb_spec p 0) as [Hp|Hp]; cbn [andb].
    + apply IZR_lt in Hp. rewrite E'. split; intros H.
      * destruct (Rlt_or_le (IZR p) (IZR q * sqrt 2)) as [|L]; [assumption|]. exfalso.
        assert (- IZR p * - IZR p <= - (IZR q * sqrt 2) * - (IZR q * sqrt 2))%R by (apply Rmult_le_compat; nra). nra.
      * assert (- (IZR q * sqrt 2) * - (IZR q * sqrt 2) < - IZR p * - IZR p)%R by (apply Rmult_le_0_lt_compat; nra). nra.
    + apply IZR_le in Hp. split; [discriminate|intros H; nra].
Qed.

Lemma dlt_fin a b c d : dlt (Fin a b) (Fin c d) = true <-> (dval a b < dval c d)%R.
Proof.
  cbn [dlt]. rewrite below_sqrt2_spec, !minus_IZR. unfold dval. split; intros H; nra.
Qed.
Lemma dlt_fin_false a b c d : dlt (Fin a b) (Fin c d) = false <-> (dval c d <= dval a b)%R.
Proof.
  destruct (dlt (Fin a b) (Fin c d)) eqn:E.
  - apply dlt_fin in E. split; [discriminate|lra].
  - split; [intros _|reflexivity]. destruct (Rle_or_lt (dval c d) (dval a b)) as [|L]; [assumption|]. apply dlt_fin in L. congruence.
Qed.
Lemma dval_add a b c d : dval (a + c) (b + d) = (dval a b + dval c d)%R.
Proof. unfold dval. rewrite !N2Z.inj_add, !plus_IZR. ring. Qed.
Lemma dval_nonneg a b : (0 <= dval a b)%R.
Proof. unfold dval. pose proof sqrt2_bounds. assert (0 <= IZR (Z.of_N a))%R by (apply IZR_le; lia). assert (0 <= IZR (Z.of_N b))%R by (apply IZR_le; lia). nra. Qed.

Lemma dval_gen a b : gen (fun c => In c [1%R; sqrt 2]) (dval a b).
Proof.
  unfold dval. induction b as [|b IH] using N.peano_ind.
  - induction a as [|a IH] using N.peano_ind.
    + replace (IZR (Z.of_N 0) + IZR (Z.of_N 0) * sqrt 2)%R with 0%R by (cbn; ring). constructor.
    + replace (IZR (Z.of_N (N.succ a)) + IZR (Z.of_N 0) * sqrt 2)%R with (IZR (Z.of_N a) + IZR (Z.of_N 0) * sqrt 2 + 1)%R
        by (rewrite N2Z.inj_succ, succ_IZR; ring).
      constructor; [assumption|left; reflexivity].
  - replace (IZR (Z.of_N a) + IZR (Z.of_N (N.succ b)) * sqrt 2)%R with (IZR (Z.of_N a) + IZR (Z.of_N b) * sqrt 2 + sqrt 2)%R
      by (rewrite N2Z.inj_succ, succ_IZR; ring).
    constructor; [assumption|right; left; reflexivity].
Qed.

Lemma dlt_wf : well_founded (fun x y => True /\ True /\ dlt x y = true).
Proof.
  assert (Hcs : forall c, In c [1%R; sqrt 2] -> (0 <= c)%R).
  { pose proof sqrt2_bounds. intros c [<-|[<-|[]]]; lra. }
  assert (H1 : forall a b, Acc (fun x y => True /\ True /\ dlt x y = true) (Fin a b)).
  { intros a b. remember (dval a b) as v eqn:Ev. revert a b Ev.
    induction v as [v IH] using (well_founded_induction (gen_wf _ Hcs)). intros a b ->. constructor.
    intros [c d| |] (_ & _ & H); [|discriminate..]. apply (IH (dval c d)); [|reflexivity].
    split; [apply dval_gen|split; [apply dval_gen|]]. apply Rltb_true, dlt_fin, H. }
  assert (H2 : Acc (fun x y => True /\ True /\ dlt x y = true) Big).
  { constructor. intros [c d| |] (_ & _ & H); [apply H1|discriminate..]. }
  intros [a b| |]; [apply H1|apply H2|]. constructor. intros [c d| |] (_ & _ & H); [apply H1|apply H2|discriminate].
Qed.

Definition is_fin (x : dnum) : Prop := match x with Fin _ _ => True | _ => False end.

Lemma exact_arith : dist_arith d0 Big Infty dadd dlt d_inf d1 dsqrt2 (fun _ => True) is_fin.
Proof.
  constructor.
  - exact dlt_wf.
  - intros [a b| |]; [|reflexivity..]. apply dlt_fin_false. lra.
  - intros [a b| |] [c d| |] [e f| |] _ _ _ H1 H2; try reflexivity; try discriminate.
    apply dlt_fin_false in H1, H2. apply dlt_fin_false. lra.
  - intros [a b| |] [c d| |] [e f| |] _ _ _ H1 H2; try reflexivity; try discriminate.
    apply dlt_fin in H1, H2. apply dlt_fin. lra.
  - auto.
  - auto.
  - intros [a b| |] _; [|reflexivity..]. apply dlt_fin_false. change (dval 0 0 <= dval a b)%R. pose proof (dval_nonneg a b).
    replace (dval 0 0) with 0%R by (unfold dval; cbn; ring). assumption.
  - intros [a b| |] [c d| |] w Hw _ _ H; destruct Hw as [-> | ->]; try reflexivity; try discriminate;
      cbn [dadd d1 dsqrt2]; apply dlt_fin_false; rewrite !dval_add; apply dlt_fin_false in H; lra.
  - intros w [-> | ->]; split; reflexivity.
  - intros [a b| |] _; split; intros H; try reflexivity; discriminate.
  - split; [exact Logic.I|]. intros [a b| |] w [-> | ->] H; try destruct H; exact Logic.I.
  - intros [a b| |] H; try destruct H. split; [exact Logic.I|reflexivity].
  - reflexivity.
Qed.

(** In exact arithmetic the cost of a king's path is its Euclidean length. *)
Lemma euclid_adjacent a b : adjacent8 a b -> euclid a b = (if (fst a =? fst b) || (snd a =? snd b) then 1 else sqrt 2)%R.
Proof.
  intros (Hne & Hx & Hy). unfold euclid. destruct a as [x y], b as [u v]. cbn [fst snd] in *.
  assert (Hd : ~ (x = u /\ y = v)) by (intros [-> ->]; apply Hne; reflexivity).
  assert (Ex : x - u = -1 \/ x - u = 0 \/ x - u = 1) by lia. assert (Ey : y - v = -1 \/ y - v = 0 \/ y - v = 1) by lia.
  assert (S1 : forall r, (r = 1)%R -> sqrt r = 1%R) by (intros r ->; apply sqrt_1).
  assert (S2 : forall r, (r = 2)%R -> sqrt r = sqrt 2) by (intros r ->; reflexivity).
  destruct (Z.eqb_spec x u), (Z.eqb_spec y v); cbn [orb];
    destruct Ex as [Ex|[Ex|Ex]], Ey as [Ey|[Ey|Ey]]; try lia; rewrite Ex, Ey; first [apply S1; lra | apply S2; lra].
Qed.

Definition dreal (x : dnum) : R := match x with Fin a b => dval a b | _ => 0%R end.

Lemma pcost_length p : chain adjacent8 p ->
  exists a b, pcost d0 dadd d1 dsqrt2 p = Fin a b /\ dval a b = path_length p.
Proof.
  induction p as [|x [|y r] IH]; intros H.
  - exists 0%N, 0%N. split; [reflexivity|]. unfold dval. cbn. ring.
  - exists 0%N, 0%N. split; [reflexivity|]. unfold dval. cbn. ring.
  - apply chain_cons in H. destruct H as [H1 H2]. destruct (IH H2) as (a & b & E & L).
    change (path_length (x :: y :: r)) with (euclid x y + path_length (y :: r))%R.
    rewrite (euclid_adjacent x y H1), <- L.
    change (pcost d0 dadd d1 dsqrt2 (x :: y :: r)) with
      (dadd (pcost d0 dadd d1 dsqrt2 (y :: r)) (if (fst x =? fst y) || (snd x =? snd y) then d1 else dsqrt2)).
    rewrite E. destruct (_ || _); cbn [dadd d1 dsqrt2]; do 2 eexists; (split; [reflexivity|]); rewrite dval_add; unfold dval; cbn; ring.
Qed.
