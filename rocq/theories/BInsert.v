(** Boehm's relation: removing one knot from a knot vector expresses each piece of the
    coarse basis through two pieces of the fine basis. *)
From Coq Require Import ZArith Reals Lia Lra.
From Verif Require Import Spec SumZ BPiece BLink.
Local Open Scope R_scope.

(** Knot vector V without its entry m. *)
Definition del (V : Z -> R) (m : Z) : Z -> R := fun i => if (i <? m)%Z then V i else V (i + 1)%Z.

(** Span of [del V m] that contains span k of V. *)
Definition sig (m k : Z) : Z := if (k <? m)%Z then k else (k - 1)%Z.

(** Boehm coefficients. *)
Definition al (V : Z -> R) (m : Z) (q : nat) (i : Z) : R :=
  if (i + Z.of_nat q <? m)%Z then 1
  else if (i <? m)%Z then (V m - V i) / (V (i + Z.of_nat q + 1)%Z - V i) else 0.

Definition co (U : Z -> R) (q : nat) (i : Z) (u : R) : R :=
  (U (i + Z.of_nat q + 1)%Z - u) / (U (i + Z.of_nat q + 1)%Z - U i).

Lemma B_S' U k q i u :
  B U k (S q) i u = om U q i u * B U k q i u + co U q (i + 1) u * B U k q (i + 1) u.
Proof.
  rewrite B_S. unfold om, co. replace (i + 1 + Z.of_nat q + 1)%Z with (i + Z.of_nat q + 2)%Z by lia.
  reflexivity.
Qed.

Ltac zcase a b := destruct (Z.ltb_spec a b); try lia.

Lemma L1 V m q j u : V j < V (j + Z.of_nat q + 1)%Z -> V (j + Z.of_nat q + 1)%Z <= V (j + Z.of_nat q + 2)%Z ->
  om (del V m) q j u * al V m q j = al V m (S q) j * om V q j u.
Proof.
  intros H1 H2. unfold om, al, del. rewrite Nat2Z.inj_succ.
  replace (j + Z.succ (Z.of_nat q))%Z with (j + Z.of_nat q + 1)%Z by lia.
  replace (j + Z.of_nat q + 1 + 1)%Z with (j + Z.of_nat q + 2)%Z by lia.
  zcase (j + Z.of_nat q + 1)%Z m.
  - zcase (j + Z.of_nat q)%Z m. zcase j m. lra.
  - zcase (j + Z.of_nat q)%Z m.
    + assert (m = j + Z.of_nat q + 1)%Z as -> by lia. zcase j (j + Z.of_nat q + 1)%Z. field. lra.
    + zcase j m; unfold Rdiv; try lra.
Qed.

Lemma L3 V m q j u : V j < V (j + Z.of_nat q + 1)%Z -> V (j - 1)%Z <= V j ->
  co (del V m) q (j - 1) u * (1 - al V m q j) = (1 - al V m (S q) (j - 1)) * co V q j u.
Proof.
  intros H1 H2. unfold co, al, del. rewrite Nat2Z.inj_succ.
  replace (j - 1 + Z.succ (Z.of_nat q))%Z with (j + Z.of_nat q)%Z by lia.
  replace (j - 1 + Z.of_nat q + 1)%Z with (j + Z.of_nat q)%Z by lia.
  replace (j - 1 + 1)%Z with j by lia.
  zcase (j + Z.of_nat q)%Z m; [lra|].
  zcase j m; zcase (j - 1)%Z m.
  - field. lra.
  - assert (j = m) by lia. subst m. field. lra.
  - lra.
Qed.

Lemma L2 V m q j u : V j < V (j + Z.of_nat q + 1)%Z -> V (j - 1)%Z <= V j ->
  V (j + Z.of_nat q + 1)%Z <= V (j + Z.of_nat q + 2)%Z ->
  om (del V m) q (j - 1) u * (1 - al V m q j) + co (del V m) q j u * al V m q j =
  al V m (S q) (j - 1) * co V q j u + (1 - al V m (S q) j) * om V q j u.
Proof.
  intros H1 H2 H3. unfold om, co, al, del. rewrite Nat2Z.inj_succ.
  replace (j - 1 + Z.succ (Z.of_nat q))%Z with (j + Z.of_nat q)%Z by lia.
  replace (j + Z.succ (Z.of_nat q))%Z with (j + Z.of_nat q + 1)%Z by lia.
  replace (j - 1 + Z.of_nat q + 1)%Z with (j + Z.of_nat q)%Z by lia.
  replace (j + Z.of_nat q + 1 + 1)%Z with (j + Z.of_nat q + 2)%Z by lia.
  replace (j - 1 + 1)%Z with j by lia.
  zcase (j + Z.of_nat q)%Z m.
  - zcase j m. zcase (j + Z.of_nat q + 1)%Z m; [lra|].
    assert (m = j + Z.of_nat q + 1)%Z as -> by lia.
    zcase (j - 1)%Z (j + Z.of_nat q + 1)%Z. rewrite (Rminus_diag_eq 1 1) by reflexivity. rewrite Rmult_0_r, Rplus_0_l. field. lra.
  - zcase (j + Z.of_nat q + 1)%Z m. zcase j m; zcase (j - 1)%Z m.
    + field. lra.
    + assert (j = m) by lia. subst m. rewrite !Rmult_0_r, Rplus_0_r. field. lra.
    + lra.
Qed.

Lemma boehm V m k u q : V k < V (k + 1)%Z ->
  nondecreasing V (k - Z.of_nat q) (k + Z.of_nat q + 1) ->
  forall i, B (del V m) (sig m k) q i u =
    al V m q i * B V k q i u + (1 - al V m q (i + 1)) * B V k q (i + 1) u.
Proof.
  intros Hlt. induction q; intros M i.
  - simpl. unfold al, sig. rewrite !Z.add_0_r.
    destruct (Z.eqb_spec i k), (Z.eqb_spec (i + 1) k), (Z.ltb_spec k m); try lia;
    zcase i m; zcase (i+1)%Z m; destruct (Z.eqb_spec i k), (Z.eqb_spec i (k - 1)); try lia; lra.
  - assert (IH : forall i, B (del V m) (sig m k) q i u =
       al V m q i * B V k q i u + (1 - al V m q (i + 1)) * B V k q (i + 1) u).
    { apply IHq. intros x y Hx Hxy Hy. apply M; lia. }
    rewrite B_S', !IH, (B_S' V k q i), (B_S' V k q (i + 1)).
    assert (Den : forall j, (k - Z.of_nat q <= j <= k)%Z -> V j < V (j + Z.of_nat q + 1)%Z).
    { intros j Hj. assert (V j <= V k) by (apply M; lia).
      assert (V (k + 1)%Z <= V (j + Z.of_nat q + 1)%Z) by (apply M; lia). lra. }
    assert (A1 : om (del V m) q i u * al V m q i * B V k q i u = al V m (S q) i * om V q i u * B V k q i u).
    { destruct (Z_lt_le_dec i (k - Z.of_nat q)); [rewrite B_zero by lia; lra|].
      destruct (Z_lt_le_dec k i); [rewrite B_zero by lia; lra|].
      rewrite L1; [ reflexivity | apply Den; lia | apply M; lia ]. }
    assert (A2 : (om (del V m) q i u * (1 - al V m q (i + 1)) + co (del V m) q (i + 1) u * al V m q (i + 1)) * B V k q (i + 1) u
               = (al V m (S q) i * co V q (i + 1) u + (1 - al V m (S q) (i + 1)) * om V q (i + 1) u) * B V k q (i + 1) u).
    { destruct (Z_lt_le_dec (i + 1) (k - Z.of_nat q)); [rewrite B_zero by lia; lra|].
      destruct (Z_lt_le_dec k (i + 1)); [rewrite B_zero by lia; lra|].
      pose proof (L2 V m q (i + 1) u) as L. replace (i + 1 - 1)%Z with i in L by lia.
      rewrite L; [ reflexivity | apply Den; lia | apply M; lia | apply M; lia ]. }
    assert (A3 : co (del V m) q (i + 1) u * (1 - al V m q (i + 1 + 1)) * B V k q (i + 1 + 1) u
               = (1 - al V m (S q) (i + 1)) * co V q (i + 1 + 1) u * B V k q (i + 1 + 1) u).
    { destruct (Z_lt_le_dec (i + 1 + 1) (k - Z.of_nat q)); [rewrite B_zero by lia; lra|].
      destruct (Z_lt_le_dec k (i + 1 + 1)); [rewrite B_zero by lia; lra|].
      pose proof (L3 V m q (i + 1 + 1) u) as L. replace (i + 1 + 1 - 1)%Z with (i + 1)%Z in L by lia.
      rewrite L; [ reflexivity | apply Den; lia | apply M; lia ]. }
    lra.
Qed.

(** One insertion does not change the piece: control points Q of the fine vector. *)
Definition boehm_pts (V : Z -> R) (m p : Z) (P : Z -> R) : Z -> R :=
  fun i => al V m (Z.to_nat p) i * P i + (1 - al V m (Z.to_nat p) i) * P (i - 1)%Z.

Lemma pc_insert V m k p P u : (0 <= p)%Z -> V k < V (k + 1)%Z -> nondecreasing V (k - p) (k + p + 1) ->
  pc (del V m) (sig m k) p P u = pc V k p (boehm_pts V m p P) u.
Proof.
  intros Hp Hlt M. unfold pc, boehm_pts. set (q := Z.to_nat p).
  assert (Eq : Z.of_nat q = p) by (unfold q; lia).
  assert (Hb := boehm V m k u q Hlt). rewrite Eq in Hb. specialize (Hb M).
  transitivity (sumZ (k - p - 1) k (fun i => B (del V m) (sig m k) q i u * P i)).
  { symmetry. apply sumZ_restrict; unfold sig; zcase k m; try lia; intros; rewrite B_zero by lia; lra. }
  rewrite (sumZ_ext _ _ _ (fun i => al V m q i * B V k q i u * P i + (1 - al V m q (i + 1)) * B V k q (i + 1) u * P i))
    by (intros; rewrite Hb; lra).
  rewrite sumZ_plus.
  rewrite (sumZ_restrict (k - p - 1) k (k - p) k (fun i => al V m q i * B V k q i u * P i));
    [ | lia | lia | lia | intros; rewrite B_zero by lia; lra ].
  rewrite (sumZ_restrict (k - p - 1) k (k - p - 1) (k - 1));
    [ | lia | lia | lia | intros; rewrite (B_zero V k q (j + 1)) by lia; lra ].
  rewrite (sumZ_shift' (k - p - 1) (k - 1) (-1)).
  replace (k - p - 1 - -1)%Z with (k - p)%Z by lia. replace (k - 1 - -1)%Z with k by lia.
  rewrite <- sumZ_plus. apply sumZ_ext. intros.
  replace (j + -1 + 1)%Z with j by lia. replace (j + -1)%Z with (j - 1)%Z by lia. lra.
Qed.
