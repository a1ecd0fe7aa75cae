(** Polynomial pieces of B-splines.

    [B U k q i u] is the polynomial which the i-th B-spline of degree q equals on knot
    span k, evaluated at an arbitrary u.  Auxiliary theory for the proofs; the link with
    the Cox-de Boor recursion of Spec.v is [Nbasis_piece]. *)
From Coq Require Import ZArith Reals Lia Lra.
From Verif Require Import Spec SumZ.
Local Open Scope R_scope.

Fixpoint B (U : Z -> R) (k : Z) (q : nat) (i : Z) (u : R) : R :=
  match q with
  | O => if (i =? k)%Z then 1 else 0
  | S q' =>
      (u - U i) / (U (i + Z.of_nat q)%Z - U i) * B U k q' i u
      + (U (i + Z.of_nat q + 1)%Z - u) / (U (i + Z.of_nat q + 1)%Z - U (i + 1)%Z) * B U k q' (i + 1) u
  end.

Lemma B_S U k q i u :
  B U k (S q) i u =
  (u - U i) / (U (i + Z.of_nat q + 1)%Z - U i) * B U k q i u
  + (U (i + Z.of_nat q + 2)%Z - u) / (U (i + Z.of_nat q + 2)%Z - U (i + 1)%Z) * B U k q (i + 1) u.
Proof.
  simpl B. rewrite Zpos_P_of_succ_nat.
  replace (i + Z.succ (Z.of_nat q))%Z with (i + Z.of_nat q + 1)%Z by lia.
  replace (i + Z.of_nat q + 1 + 1)%Z with (i + Z.of_nat q + 2)%Z by lia. reflexivity.
Qed.

Lemma B_zero U k q : forall i u, (i < k - Z.of_nat q \/ k < i)%Z -> B U k q i u = 0.
Proof.
  induction q; intros.
  - simpl. destruct (Z.eqb_spec i k); [lia|reflexivity].
  - rewrite B_S. rewrite (IHq i) by lia. rewrite (IHq (i + 1)%Z) by lia. lra.
Qed.

(** A piece depends only on the 2q knots around its span. *)
Lemma B_ext U U' k q : forall i u,
  (forall j, (k - Z.of_nat q + 1 <= j <= k + Z.of_nat q)%Z -> U j = U' j) ->
  B U k q i u = B U' k q i u.
Proof.
  induction q; intros.
  - reflexivity.
  - rewrite !B_S.
    assert (E : forall i, B U k q i u = B U' k q i u) by (intros; apply IHq; intros; apply H; lia).
    rewrite !E. f_equal.
    + destruct (Z_lt_le_dec i (k - Z.of_nat q)); [rewrite B_zero by lia; lra|].
      destruct (Z_lt_le_dec k i); [rewrite B_zero by lia; lra|].
      rewrite !H by lia. reflexivity.
    + destruct (Z_lt_le_dec (i + 1) (k - Z.of_nat q)); [rewrite B_zero by lia; lra|].
      destruct (Z_lt_le_dec k (i + 1)); [rewrite B_zero by lia; lra|].
      rewrite !H by lia. reflexivity.
Qed.

(** Translation of indices. *)
Lemma B_shift U k q d : forall i u,
  B (fun j => U (j + d)%Z) k q i u = B U (k + d) q (i + d) u.
Proof.
  induction q; intros.
  - simpl. destruct (Z.eqb_spec i k), (Z.eqb_spec (i + d) (k + d)); auto; lia.
  - rewrite !B_S. rewrite !IHq.
    replace (i + Z.of_nat q + 1 + d)%Z with (i + d + Z.of_nat q + 1)%Z by lia.
    replace (i + Z.of_nat q + 2 + d)%Z with (i + d + Z.of_nat q + 2)%Z by lia.
    replace (i + 1 + d)%Z with (i + d + 1)%Z by lia. reflexivity.
Qed.

(** Span k is nonempty and the knots around it are nondecreasing. *)
Definition span_ok (U : Z -> R) (k : Z) (q : nat) : Prop :=
  nondecreasing U (k - Z.of_nat q + 1) (k + Z.of_nat q) /\ U k < U (k + 1)%Z.

Lemma span_ok_less U k q q' : (q' <= q)%nat -> span_ok U k q -> span_ok U k q'.
Proof.
  intros H [H1 H2]. split; auto. intros i j Hi Hij Hj. apply H1; lia.
Qed.

Lemma span_ok_den U k q i : span_ok U k (S q) -> (k - Z.of_nat q <= i <= k)%Z ->
  U i < U (i + Z.of_nat q + 1)%Z.
Proof.
  intros [H1 H2] Hi.
  assert (U i <= U k) by (apply H1; lia).
  assert (U (k + 1)%Z <= U (i + Z.of_nat q + 1)%Z) by (apply H1; lia). lra.
Qed.

(** De Boor step: a combination of degree q+1 pieces as a combination of degree q pieces. *)
Definition om (U : Z -> R) (q : nat) (i : Z) (u : R) : R :=
  (u - U i) / (U (i + Z.of_nat q + 1)%Z - U i).

Lemma om_compl U q i u : U (i + Z.of_nat q + 1)%Z <> U i ->
  (U (i + Z.of_nat q + 1)%Z - u) / (U (i + Z.of_nat q + 1)%Z - U i) = 1 - om U q i u.
Proof. intros. unfold om. field. lra. Qed.

Lemma deboor_step U k q c u : span_ok U k (S q) ->
  sumZ (k - Z.of_nat (S q)) k (fun i => B U k (S q) i u * c i) =
  sumZ (k - Z.of_nat q) k (fun i => B U k q i u * (om U q i u * c i + (1 - om U q i u) * c (i - 1)%Z)).
Proof.
  intros Hok.
  transitivity (sumZ (k - Z.of_nat (S q)) k (fun i => om U q i u * B U k q i u * c i) +
                sumZ (k - Z.of_nat (S q)) k (fun i =>
                  (U (i + Z.of_nat q + 2)%Z - u) / (U (i + Z.of_nat q + 2)%Z - U (i + 1)%Z) * B U k q (i + 1) u * c i)).
  { rewrite <- sumZ_plus. apply sumZ_ext. intros. rewrite B_S. unfold om. lra. }
  rewrite (sumZ_restrict (k - Z.of_nat (S q)) k (k - Z.of_nat q) k (fun i => om U q i u * B U k q i u * c i));
    [ | lia | lia | lia | intros; rewrite B_zero by lia; lra ].
  rewrite (sumZ_restrict (k - Z.of_nat (S q)) k (k - Z.of_nat (S q)) (k - 1));
    [ | lia | lia | lia | intros; rewrite B_zero by lia; lra ].
  rewrite (sumZ_shift' (k - Z.of_nat (S q)) (k - 1) (-1)).
  replace (k - Z.of_nat (S q) - -1)%Z with (k - Z.of_nat q)%Z by lia.
  replace (k - 1 - -1)%Z with k by lia.
  rewrite <- sumZ_plus. apply sumZ_ext. intros.
  replace (j + -1 + Z.of_nat q + 2)%Z with (j + Z.of_nat q + 1)%Z by lia.
  replace (j + -1 + 1)%Z with j by lia.
  rewrite om_compl.
  - replace (j + -1)%Z with (j - 1)%Z by lia. lra.
  - pose proof (span_ok_den U k q j Hok ltac:(lia)). lra.
Qed.

(** Partition of unity. *)
Lemma B_sum_one U k q u : span_ok U k q -> sumZ (k - Z.of_nat q) k (fun i => B U k q i u) = 1.
Proof.
  induction q; intros.
  - simpl. replace (k - 0)%Z with k by lia. rewrite sumZ_single. rewrite Z.eqb_refl. reflexivity.
  - rewrite <- IHq by (eapply span_ok_less; [|eauto]; lia).
    transitivity (sumZ (k - Z.of_nat (S q)) k (fun i => B U k (S q) i u * 1)).
    { apply sumZ_ext; intros; lra. }
    rewrite (deboor_step U k q (fun _ => 1)) by auto.
    apply sumZ_ext. intros; lra.
Qed.

(** Nonnegativity on the span. *)
Lemma B_nonneg U k q i u : span_ok U k q -> U k <= u <= U (k + 1)%Z -> 0 <= B U k q i u.
Proof.
  revert i. induction q; intros i Hok Hu.
  - simpl. destruct (i =? k)%Z; lra.
  - rewrite B_S.
    assert (Hok' : span_ok U k q) by (eapply span_ok_less; [|eauto]; lia).
    assert (0 <= B U k q i u) by auto. assert (0 <= B U k q (i + 1) u) by auto.
    assert (forall a b c, 0 <= a -> 0 < b -> 0 <= c -> 0 <= a / b * c) as A.
    { intros. apply Rmult_le_pos; auto. apply Rmult_le_pos; auto. left. apply Rinv_0_lt_compat; auto. }
    apply Rplus_le_le_0_compat.
    + destruct (Z_lt_le_dec i (k - Z.of_nat q)); [rewrite B_zero by lia; lra|].
      destruct (Z_lt_le_dec k i); [rewrite B_zero by lia; lra|].
      pose proof (span_ok_den U k q i Hok ltac:(lia)).
      apply A; auto; try lra. destruct Hok as [M1 _].
      assert (U i <= U k) by (apply M1; lia). lra.
    + destruct (Z_lt_le_dec (i + 1) (k - Z.of_nat q)); [rewrite (B_zero U k q (i+1)) by lia; lra|].
      destruct (Z_lt_le_dec k (i + 1)); [rewrite (B_zero U k q (i+1)) by lia; lra|].
      pose proof (span_ok_den U k q (i + 1) Hok ltac:(lia)) as D.
      replace (i + 1 + Z.of_nat q + 1)%Z with (i + Z.of_nat q + 2)%Z in D by lia.
      apply A; auto; try lra. destruct Hok as [M1 _].
      assert (U (k + 1)%Z <= U (i + Z.of_nat q + 2)%Z) by (apply M1; lia). lra.
Qed.

(** Affine change of parameter. *)
Lemma B_affine U k q a b : b <> 0 -> forall i u,
  B (fun j => a + b * U j) k q i (a + b * u) = B U k q i u.
Proof.
  intros Hb. induction q; intros.
  - reflexivity.
  - rewrite !B_S. rewrite !IHq.
    assert (forall x y z w, (a + b * x - (a + b * y)) / (a + b * z - (a + b * w)) = (x - y) / (z - w)) as A.
    { intros. replace (a + b * x - (a + b * y)) with (b * (x - y)) by lra.
      replace (a + b * z - (a + b * w)) with (b * (z - w)) by lra.
      unfold Rdiv. destruct (Req_dec (z - w) 0) as [E|E].
      - rewrite E, Rmult_0_r. rewrite Rinv_0. lra.
      - field. auto. }
    rewrite !A. reflexivity.
Qed.
