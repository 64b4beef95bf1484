(** Lengths of cell paths (specification of C17) and the straight-line distance. *)
From Coq Require Import Reals Lra.
From Verif Require Import Base PathSpec.

(** The length of a cell path: straight steps 1, diagonal steps sqrt 2. *)
Definition step_len (a b : Z * Z) : R :=
  if (fst a =? fst b) || (snd a =? snd b) then 1%R else sqrt 2.
Fixpoint path_len (l : list (Z * Z)) : R :=
  match l with
  | a :: ((b :: _) as r) => (step_len a b + path_len r)%R
  | _ => 0%R
  end.

Definition euclid (s p : Z * Z) : R :=
  sqrt (IZR (fst p - fst s) * IZR (fst p - fst s) + IZR (snd p - snd s) * IZR (snd p - snd s)).
Local Open Scope R_scope.

Lemma step_len_sym a b : step_len a b = step_len b a.
Proof. unfold step_len. rewrite (Z.eqb_sym (fst a)), (Z.eqb_sym (snd a)). reflexivity. Qed.

Lemma step_len_pos a b : 0 < step_len a b.
Proof. unfold step_len. destruct (_ || _); [lra|]. apply sqrt_lt_R0. lra. Qed.

Lemma IZR_small x : (Z.abs x <= 1)%Z -> IZR x = -1 \/ IZR x = 0 \/ IZR x = 1.
Proof. intros H. assert (x = -1 \/ x = 0 \/ x = 1)%Z as [->|[->| ->]] by lia; auto. Qed.

(** Triangle inequality along one step of the grid. *)
Lemma euclid_step s a b : adjacent8 a b -> euclid s b <= euclid s a + step_len a b.
Proof.
  intros (Hne & Hx & Hy).
  assert (Hd : euclid a b = step_len a b).
  { unfold euclid, step_len. destruct a as [ax ay], b as [bx by']. cbn [fst snd] in *.
    destruct (Z.eqb_spec ax bx) as [->|Ex]; cbn [orb].
    - assert (IZR (by' - ay) * IZR (by' - ay) = 1) as E.
      { assert (by' - ay = 1 \/ by' - ay = -1)%Z as [->| ->]; [|lra|lra].
        assert (ay <> by') by congruence. lia. }
      rewrite E, Z.sub_diag, Rmult_0_l, Rplus_0_l, sqrt_1. reflexivity.
    - assert (IZR (bx - ax) * IZR (bx - ax) = 1) as E.
      { assert (bx - ax = 1 \/ bx - ax = -1)%Z as [->| ->]; [lia|lra|lra]. }
      rewrite E. destruct (Z.eqb_spec ay by') as [->|Ey].
      + rewrite Z.sub_diag, Rmult_0_l, Rplus_0_r, sqrt_1. reflexivity.
      + assert (IZR (by' - ay) * IZR (by' - ay) = 1) as ->.
        { assert (by' - ay = 1 \/ by' - ay = -1)%Z as [->| ->]; [lia|lra|lra]. }
        replace (1 + 1) with 2 by lra. reflexivity. }
  rewrite <- Hd. clear Hd Hne Hx Hy.
  pose proof (Rgeom.triangle (IZR (fst s)) (IZR (snd s)) (IZR (fst b)) (IZR (snd b)) (IZR (fst a)) (IZR (snd a))) as T.
  assert (E : forall p q, euclid p q = Rgeom.dist_euc (IZR (fst p)) (IZR (snd p)) (IZR (fst q)) (IZR (snd q))).
  { intros p q. unfold euclid, Rgeom.dist_euc. f_equal. rewrite !minus_IZR. unfold Rsqr. ring. }
  rewrite !E. exact T.
Qed.

Definition steps {A} (l : list A) : nat := match l with [] => O | _ :: r => length r end.

