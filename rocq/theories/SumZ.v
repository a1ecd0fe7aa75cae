(** Finite sums: lemmas. *)
From Coq Require Import ZArith Reals Lia Lra.
From Verif Require Import Spec Loop Num.
Local Open Scope R_scope.

Lemma sumN_ext n : forall i f g, (forall j, (i <= j < i + Z.of_nat n)%Z -> f j = g j) ->
  sumN n i f = sumN n i g.
Proof.
  induction n; intros; simpl; auto. rewrite H by lia. f_equal. apply IHn. intros; apply H; lia.
Qed.
Lemma sumN_plus n : forall i f g, sumN n i (fun j => f j + g j) = sumN n i f + sumN n i g.
Proof. induction n; intros; simpl; [lra|]. rewrite IHn. lra. Qed.
Lemma sumN_scal n : forall i c f, sumN n i (fun j => c * f j) = c * sumN n i f.
Proof. induction n; intros; simpl; [lra|]. rewrite IHn. lra. Qed.
Lemma sumN_zero n : forall i f, (forall j, (i <= j < i + Z.of_nat n)%Z -> f j = 0) -> sumN n i f = 0.
Proof.
  induction n; intros; simpl; auto. rewrite H by lia. rewrite IHn; [lra|]. intros; apply H; lia.
Qed.
Lemma sumN_split a b : forall i f, sumN (a + b) i f = sumN a i f + sumN b (i + Z.of_nat a) f.
Proof.
  induction a; intros.
  - simpl. replace (i + 0)%Z with i by lia. lra.
  - change (sumN (S a + b) i f) with (f i + sumN (a + b) (i + 1) f).
    change (sumN (S a) i f) with (f i + sumN a (i + 1) f). rewrite IHa.
    replace (i + 1 + Z.of_nat a)%Z with (i + Z.of_nat (S a))%Z by lia. lra.
Qed.
Lemma sumN_shift n : forall i d f, sumN n (i + d) f = sumN n i (fun j => f (j + d)%Z).
Proof.
  induction n; intros; simpl; auto. f_equal. rewrite <- IHn. f_equal. lia.
Qed.

Lemma sumZ_empty lo hi f : (hi < lo)%Z -> sumZ lo hi f = 0.
Proof. intros. unfold sumZ. replace (Z.to_nat (hi + 1 - lo)) with O by lia. reflexivity. Qed.
Lemma sumZ_ext lo hi f g : (forall j, (lo <= j <= hi)%Z -> f j = g j) -> sumZ lo hi f = sumZ lo hi g.
Proof. intros. apply sumN_ext. intros; apply H; lia. Qed.
Lemma sumZ_zero lo hi f : (forall j, (lo <= j <= hi)%Z -> f j = 0) -> sumZ lo hi f = 0.
Proof. intros. apply sumN_zero. intros; apply H; lia. Qed.
Lemma sumZ_plus lo hi f g : sumZ lo hi (fun j => f j + g j) = sumZ lo hi f + sumZ lo hi g.
Proof. apply sumN_plus. Qed.
Lemma sumZ_scal lo hi c f : sumZ lo hi (fun j => c * f j) = c * sumZ lo hi f.
Proof. apply sumN_scal. Qed.
Lemma sumZ_minus lo hi f g : sumZ lo hi (fun j => f j - g j) = sumZ lo hi f - sumZ lo hi g.
Proof.
  replace (sumZ lo hi f - sumZ lo hi g) with (sumZ lo hi f + (-1) * sumZ lo hi g) by lra.
  rewrite <- sumZ_scal, <- sumZ_plus. apply sumZ_ext. intros; lra.
Qed.
Lemma sumZ_scal_r lo hi c f : sumZ lo hi (fun j => f j * c) = sumZ lo hi f * c.
Proof. rewrite Rmult_comm, <- sumZ_scal. apply sumZ_ext. intros; lra. Qed.
Lemma sumZ_split lo mid hi f : (lo <= mid + 1)%Z -> (mid <= hi)%Z ->
  sumZ lo hi f = sumZ lo mid f + sumZ (mid + 1) hi f.
Proof.
  intros. unfold sumZ.
  replace (Z.to_nat (hi + 1 - lo)) with (Z.to_nat (mid + 1 - lo) + Z.to_nat (hi + 1 - (mid + 1)))%nat by lia.
  rewrite sumN_split. f_equal. f_equal. lia.
Qed.
Lemma sumZ_first lo hi f : (lo <= hi)%Z -> sumZ lo hi f = f lo + sumZ (lo + 1) hi f.
Proof.
  intros. unfold sumZ. replace (Z.to_nat (hi + 1 - lo)) with (S (Z.to_nat (hi + 1 - (lo + 1)))) by lia.
  reflexivity.
Qed.
Lemma sumZ_single lo f : sumZ lo lo f = f lo.
Proof. rewrite sumZ_first by lia. rewrite sumZ_empty by lia. lra. Qed.
Lemma sumZ_last lo hi f : (lo <= hi)%Z -> sumZ lo hi f = sumZ lo (hi - 1) f + f hi.
Proof.
  intros. rewrite (sumZ_split lo (hi - 1) hi) by lia. f_equal.
  replace (hi - 1 + 1)%Z with hi by lia. apply sumZ_single.
Qed.
Lemma sumZ_shift lo hi d f : sumZ (lo + d) (hi + d) f = sumZ lo hi (fun j => f (j + d)%Z).
Proof.
  unfold sumZ. replace (Z.to_nat (hi + d + 1 - (lo + d))) with (Z.to_nat (hi + 1 - lo)) by lia.
  apply sumN_shift.
Qed.
Lemma sumZ_shift' lo hi d f : sumZ lo hi f = sumZ (lo - d) (hi - d) (fun j => f (j + d)%Z).
Proof. rewrite <- (sumZ_shift (lo - d)). f_equal; lia. Qed.

(** A sum restricted to a subrange when the terms vanish outside. *)
Lemma sumZ_restrict lo hi lo' hi' f :
  (lo <= lo')%Z -> (hi' <= hi)%Z -> (lo' <= hi' + 1)%Z ->
  (forall j, (lo <= j <= hi)%Z -> (j < lo' \/ hi' < j)%Z -> f j = 0) ->
  sumZ lo hi f = sumZ lo' hi' f.
Proof.
  intros. rewrite (sumZ_split lo (lo' - 1) hi) by lia.
  rewrite (sumZ_zero lo (lo' - 1)) by (intros; apply H2; lia).
  replace (lo' - 1 + 1)%Z with lo' by lia.
  rewrite (sumZ_split lo' hi' hi) by lia.
  rewrite (sumZ_zero (hi' + 1) hi) by (intros; apply H2; lia). lra.
Qed.

Lemma sumZ_swap lo hi lo' hi' f :
  sumZ lo hi (fun i => sumZ lo' hi' (fun j => f i j)) = sumZ lo' hi' (fun j => sumZ lo hi (fun i => f i j)).
Proof.
  assert (forall n lo, sumN n lo (fun i => sumZ lo' hi' (fun j => f i j)) =
                       sumZ lo' hi' (fun j => sumN n lo (fun i => f i j))) as A.
  { induction n; intros; simpl.
    - symmetry. apply sumZ_zero. intros; reflexivity.
    - rewrite IHn. rewrite <- sumZ_plus. reflexivity. }
  unfold sumZ at 1. rewrite A. reflexivity.
Qed.

Lemma sumZ_nonneg lo hi f : (forall j, (lo <= j <= hi)%Z -> 0 <= f j) -> 0 <= sumZ lo hi f.
Proof.
  unfold sumZ. intros.
  assert (forall n i, (forall j, (i <= j < i + Z.of_nat n)%Z -> 0 <= f j) -> 0 <= sumN n i f) as A.
  { induction n; intros; simpl; [lra|]. assert (0 <= f i) by (apply H0; lia).
    assert (0 <= sumN n (i + 1) f) by (apply IHn; intros; apply H0; lia). lra. }
  apply A. intros; apply H; lia.
Qed.
Lemma sumZ_le lo hi f g : (forall j, (lo <= j <= hi)%Z -> f j <= g j) -> sumZ lo hi f <= sumZ lo hi g.
Proof.
  intros. assert (0 <= sumZ lo hi (fun j => g j - f j)).
  { apply sumZ_nonneg. intros; specialize (H j H0); lra. }
  rewrite sumZ_minus in H0. lra.
Qed.

Lemma sumZ_kron lo hi k f : (lo <= k <= hi)%Z ->
  sumZ lo hi (fun j => (if (j =? k)%Z then 1 else 0) * f j) = f k.
Proof.
  intros. rewrite (sumZ_restrict lo hi k k); [ | lia | lia | lia | ].
  - rewrite sumZ_single, Z.eqb_refl. lra.
  - intros j Hj Hk. destruct (Z.eqb_spec j k); [lia|lra].
Qed.

(** Reversing the order of summation. *)
Lemma sumZ_rev lo hi f : sumZ lo hi f = sumZ lo hi (fun j => f (lo + hi - j)%Z).
Proof.
  assert (forall n lo f, sumZ lo (lo + Z.of_nat n - 1) f =
     sumZ lo (lo + Z.of_nat n - 1) (fun j => f (lo + (lo + Z.of_nat n - 1) - j)%Z)) as A.
  { induction n; intros.
    - rewrite !sumZ_empty by lia. reflexivity.
    - rewrite (sumZ_last _ _ f0) by lia.
      rewrite (sumZ_first lo0 (lo0 + Z.of_nat (S n) - 1) (fun j => f0 (lo0 + (lo0 + Z.of_nat (S n) - 1) - j)%Z)) by lia.
      replace (lo0 + (lo0 + Z.of_nat (S n) - 1) - lo0)%Z with (lo0 + Z.of_nat (S n) - 1)%Z by lia.
      rewrite Rplus_comm. f_equal.
      replace (lo0 + Z.of_nat (S n) - 1 - 1)%Z with (lo0 + Z.of_nat n - 1)%Z by lia.
      rewrite IHn.
      replace (lo0 + Z.of_nat (S n) - 1)%Z with ((lo0 + Z.of_nat n - 1) + 1)%Z by lia.
      rewrite (sumZ_shift lo0). apply sumZ_ext. intros. f_equal. lia. }
  destruct (Z_le_gt_dec lo hi).
  - specialize (A (Z.to_nat (hi + 1 - lo)) lo f).
    replace (lo + Z.of_nat (Z.to_nat (hi + 1 - lo)) - 1)%Z with hi in A by lia. exact A.
  - rewrite !sumZ_empty by lia. reflexivity.
Qed.

(** Loops that accumulate a sum. *)
Lemma for_up_sum lo hi (f : Z -> R) c :
  for_up lo hi (fun j C => C + f j) c = c + sumZ lo hi f.
Proof.
  destruct (Z_le_gt_dec lo (hi + 1)).
  - pose proof (for_up_ind (fun j s => s = c + sumZ lo (j - 1) f) lo hi
      (fun j C => C + f j) c) as H.
    cbv beta in H. replace (hi + 1 - 1)%Z with hi in H by lia. apply H; auto.
    + rewrite sumZ_empty by lia. lra.
    + intros j s Hj ->. replace (j + 1 - 1)%Z with j by lia.
      rewrite (sumZ_last lo j) by lia. lra.
  - rewrite for_up_empty by lia. rewrite sumZ_empty by lia. lra.
Qed.
