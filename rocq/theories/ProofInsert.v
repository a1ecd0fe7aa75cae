(** InsertKnot is iterated Boehm insertion. *)
From Coq Require Import ZArith Reals Lia Lra Bool FunctionalExtensionality.
From Verif Require Import Num Loop ModelBspline ModelBSp Spec SumZ BPiece BLink BInsert BRep ProofSpan ProofEval.
Local Open Scope R_scope.

(** U with j copies of u inserted after index k. *)
Definition insV (U : Z -> R) (k : Z) (u : R) (j : Z) : Z -> R :=
  fun i => if (i <=? k)%Z then U i else if (i <=? k + j)%Z then u else U (i - j)%Z.

Ltac lcase a b := destruct (Z.leb_spec a b); try lia.

Lemma insV_0 U k u : insV U k u 0 = U.
Proof.
  apply functional_extensionality. intros i. unfold insV. lcase i k; auto. lcase i (k + 0)%Z.
  f_equal. lia.
Qed.

Section Ins.
Variables (U P : Z -> R) (k s p : Z) (u : R) (m : Z).
Hypothesis Hs0 : (0 <= s)%Z.
Hypothesis Hsp : (s <= p)%Z.
Hypothesis Hp0 : (0 <= p)%Z.
Hypothesis Hblock : forall i, (k - s + 1 <= i <= k)%Z -> U i = u.
Hypothesis Hless : forall i, (m - p <= i <= k - s)%Z -> U i < u.
Hypothesis Hm : (k - s + 1 <= m <= k + 1)%Z.

Lemma insV_u j i : (k - s + 1 <= i <= k + j)%Z -> insV U k u j i = u.
Proof. intros. unfold insV. lcase i k; [apply Hblock; lia|]. lcase i (k + j)%Z. reflexivity. Qed.

Lemma insV_del j : (0 <= j)%Z -> del (insV U k u (j + 1)) m = insV U k u j.
Proof.
  intros Hj. apply functional_extensionality. intros i. unfold del. zcase i m.
  - unfold insV. lcase i k. reflexivity.
  - destruct (Z_le_gt_dec i k).
    + rewrite insV_u by lia. rewrite insV_u by lia. reflexivity.
    + unfold insV. lcase (i + 1)%Z k. lcase i k. lcase (i + 1)%Z (k + (j + 1))%Z; lcase i (k + j)%Z; auto.
      f_equal. lia.
Qed.

Fixpoint insQ (j : nat) : Z -> R :=
  match j with
  | O => P
  | S j' => boehm_pts (insV U k u (Z.of_nat (S j'))) m p (insQ j')
  end.
Definition iQ (j : Z) : Z -> R := insQ (Z.to_nat j).

Lemma iQ_0 : iQ 0 = P. Proof. reflexivity. Qed.
Lemma iQ_S j : (1 <= j)%Z -> iQ j = boehm_pts (insV U k u j) m p (iQ (j - 1)).
Proof.
  intros Hj. unfold iQ. replace (Z.to_nat j) with (S (Z.to_nat (j - 1))) by lia.
  cbn [insQ]. replace (Z.of_nat (S (Z.to_nat (j - 1)))) with j by lia. reflexivity.
Qed.

Lemma iQ_low j i : (1 <= j)%Z -> (j + s <= p)%Z -> (i <= k - p + j - 1)%Z -> iQ j i = iQ (j - 1) i.
Proof.
  intros Hj Hjs Hi. rewrite iQ_S by auto. unfold boehm_pts, al. replace (Z.of_nat (Z.to_nat p)) with p by lia.
  zcase (i + p)%Z m; [lra|]. zcase i m.
  rewrite (insV_u j m) by lia. rewrite (insV_u j (i + p + 1)) by lia.
  assert (E : insV U k u j i = U i) by (unfold insV; lcase i k; reflexivity). rewrite E.
  assert (U i < u) by (apply Hless; lia).
  replace ((u - U i) / (u - U i)) with 1 by (field; lra). lra.
Qed.

Lemma iQ_high j i : (1 <= j)%Z -> (k - s + 1 <= i)%Z -> iQ j i = iQ (j - 1) (i - 1).
Proof.
  intros Hj Hi. rewrite iQ_S by auto. unfold boehm_pts, al. replace (Z.of_nat (Z.to_nat p)) with p by lia.
  assert (A : (if (i <? m)%Z then (insV U k u j m - insV U k u j i) / (insV U k u j (i + p + 1) - insV U k u j i) else 0) = 0).
  { zcase i m; auto. rewrite !(insV_u j) by lia. unfold Rdiv. lra. }
  rewrite A. zcase (i + p)%Z m. lra.
Qed.

Lemma iQ_mid j i : (1 <= j)%Z -> (k - p + j <= i <= k - s)%Z ->
  iQ j i = (u - U i) / (U (i + p + 1 - j)%Z - U i) * iQ (j - 1) i
         + (1 - (u - U i) / (U (i + p + 1 - j)%Z - U i)) * iQ (j - 1) (i - 1).
Proof.
  intros Hj Hi. rewrite iQ_S by auto. unfold boehm_pts, al. replace (Z.of_nat (Z.to_nat p)) with p by lia.
  zcase (i + p)%Z m. zcase i m. rewrite (insV_u j m) by lia.
  assert (E : insV U k u j i = U i) by (unfold insV; lcase i k; reflexivity). rewrite E.
  assert (E2 : insV U k u j (i + p + 1) = U (i + p + 1 - j)%Z).
  { unfold insV. lcase (i + p + 1)%Z k. lcase (i + p + 1)%Z (k + j)%Z. reflexivity. }
  rewrite E2. reflexivity.
Qed.

Lemma iQ_keep r j i : (0 <= j <= r)%Z -> (r + s <= p)%Z -> (i <= k - p + j)%Z -> iQ r i = iQ j i.
Proof.
  intros Hj Hr Hi. replace r with (j + Z.of_nat (Z.to_nat (r - j)))%Z by lia.
  assert (Hb : (Z.of_nat (Z.to_nat (r - j)) <= r - j)%Z) by lia. revert Hb.
  generalize (Z.to_nat (r - j)) as d. induction d; intros Hb.
  - f_equal. lia.
  - rewrite iQ_low by lia. rewrite <- IHd by lia. f_equal. lia.
Qed.

Lemma iQ_move r j i : (0 <= j <= r)%Z -> (k - s <= i)%Z -> iQ r (i + (r - j)) = iQ j i.
Proof.
  intros Hj Hi. replace r with (j + Z.of_nat (Z.to_nat (r - j)))%Z by lia.
  generalize (Z.to_nat (r - j)) as d. induction d.
  - replace (i + (j + Z.of_nat 0 - j))%Z with i by lia. f_equal. lia.
  - rewrite iQ_high by lia. rewrite <- IHd. f_equal; lia.
Qed.

(** One round of the triangular scheme. *)
Lemma inner_spec j Rw : (1 <= j)%Z -> (j + s <= p)%Z ->
  (forall i, (0 <= i <= p - (j - 1) - s)%Z -> Rw i = iQ (j - 1) (k - p + (j - 1) + i)) ->
  forall i, (0 <= i <= p - j - s)%Z ->
    InsertKnot_inner (N:=Rn) k p j (p - j - s) U u Rw i = iQ j (k - p + j + i).
Proof.
  intros Hj Hjs HR i Hi. unfold InsertKnot_inner. cbv zeta.
  floop (fun i (Rw' : Z -> R) => (forall x, (0 <= x < i)%Z -> Rw' x = iQ j (k - p + j + x)) /\
                   (forall x, (i <= x)%Z -> Rw' x = Rw x)).
  - split; [intros; lia|auto].
  - intros i' R' Hi' [H1 H2]. rn. split.
    + intros x Hx. destruct (Z.eq_dec x i') as [->|Hne].
      * rewrite upd_same. rewrite !H2 by lia. rewrite !HR by lia. rewrite (iQ_mid j) by lia.
        replace (k - p + j + i' + p + 1 - j)%Z with (i' + k + 1)%Z by lia.
        replace (k - p + (j - 1) + (i' + 1))%Z with (k - p + j + i')%Z by lia.
        replace (k - p + (j - 1) + i')%Z with (k - p + j + i' - 1)%Z by lia. reflexivity.
      * rewrite upd_diff by auto. apply H1. lia.
    + intros x Hx. rewrite upd_diff by lia. apply H2. lia.
  - intros R' [H1 H2]. apply H1. lia.
Qed.

(** The output points of InsertKnot. *)
Lemma InsertKnot_Q_spec n r junk : (0 <= r)%Z -> (r + s <= p)%Z ->
  forall x, (0 <= x <= n + r)%Z -> InsertKnot_Q (N:=Rn) n p U P u k s r junk x = iQ r x.
Proof.
  intros Hr Hrs. unfold InsertKnot_Q. cbv zeta.
  match goal with |- context [for_up 1 r ?body ?init] =>
    assert (A : let st := for_up 1 r body init in
      (forall x, (0 <= x <= n + r)%Z -> (x <= k - p + r \/ k - s <= x)%Z -> fst st x = iQ r x) /\
      (forall i, (0 <= i <= p - r - s)%Z -> snd st i = iQ r (k - p + r + i))) end.
  { floop (fun j (st : (Z -> R) * (Z -> R)) =>
      (forall x, (0 <= x <= n + r)%Z -> (x <= k - p + j - 1 \/ k - s + r - (j - 1) <= x)%Z -> fst st x = iQ r x) /\
      (forall i, (0 <= i <= p - (j - 1) - s)%Z -> snd st i = iQ (j - 1) (k - p + (j - 1) + i))).
    - cbn [fst snd]. split.
      + intros x Hx Hc. destruct (Z_le_gt_dec (k - s + r) x).
        * rewrite fill_in by lia. replace x with (x - r + (r - 0))%Z at 2 by lia.
          rewrite iQ_move by lia. reflexivity.
        * rewrite fill_out by lia. rewrite fill_in by lia. rewrite (iQ_keep r 0) by lia. reflexivity.
      + intros i Hi. rewrite fill_in by lia. replace (1 - 1)%Z with 0%Z by lia. rewrite iQ_0. f_equal. lia.
    - intros j [Q R'] Hj [H1 H2]. cbn [fst snd] in *.
      assert (H3 := inner_spec j R' ltac:(lia) ltac:(lia) H2). split.
      + intros x Hx Hc. rewrite (H3 0%Z) by lia. rewrite (H3 (p - j - s)%Z) by lia.
        replace (k - p + j + 0)%Z with (k - p + j)%Z by lia.
        replace (k - p + j + (p - j - s))%Z with (k - s)%Z by lia.
        unfold upd. destruct (Z.eqb_spec x (k + r - j - s)) as [->|Hne].
        * replace (k + r - j - s)%Z with (k - s + (r - j))%Z by lia. rewrite iQ_move by lia. reflexivity.
        * destruct (Z.eqb_spec x (k - p + j)) as [->|Hne'].
          -- rewrite (iQ_keep r j) by lia. reflexivity.
          -- apply H1; lia.
      + intros i Hi. replace (j + 1 - 1)%Z with j in * by lia. apply H3. lia.
    - intros [Q R'] [H1 H2]. cbn [fst snd] in *. replace (r + 1 - 1)%Z with r in * by lia.
      replace (k - p + (r + 1) - 1)%Z with (k - p + r)%Z in * by lia.
      replace (k - s + r - r)%Z with (k - s)%Z in * by lia. auto. }
  destruct (for_up 1 r _ _) as [Q R']. cbn [fst snd] in A. destruct A as [A1 A2].
  intros x Hx.
  destruct (Z_le_gt_dec (k - p + r + 1) (k - s - 1 + 1)).
  - floop (fun i (Q' : Z -> R) => forall x, (0 <= x <= n + r)%Z -> (x < i \/ k - s <= x)%Z -> Q' x = iQ r x).
    + intros y Hy Hc. apply A1; lia.
    + intros i Q' Hi IH y Hy Hc. unfold upd. destruct (Z.eqb_spec y i) as [->|Hne].
      * rewrite A2 by lia. f_equal. lia.
      * apply IH; lia.
    + intros Q' H. apply H; lia.
  - rewrite for_up_empty by lia. apply A1; lia.
Qed.

Lemma Sub_iQ n r : (p + 1 <= m <= n + 1)%Z -> (0 <= r)%Z ->
  (forall j, (0 <= j <= r)%Z -> nondecreasing (insV U k u j) 0 (n + j + p + 1)) ->
  Sub (n + r) p (insV U k u r) (iQ r) n p U P.
Proof.
  intros Hmn Hr M.
  assert (forall d, (Z.of_nat d <= r)%Z -> Sub (n + Z.of_nat d) p (insV U k u (Z.of_nat d)) (iQ (Z.of_nat d)) n p U P) as A.
  { induction d; intros Hd.
    - change (Z.of_nat 0) with 0%Z. rewrite insV_0, iQ_0. replace (n + 0)%Z with n by lia. apply Sub_refl.
    - eapply Sub_trans; [|apply IHd; lia].
      rewrite <- (insV_del (Z.of_nat d)) by lia.
      replace (Z.of_nat (S d)) with (Z.of_nat d + 1)%Z by lia.
      replace (n + (Z.of_nat d + 1))%Z with (n + Z.of_nat d + 1)%Z by lia.
      apply Sub_insert; try lia.
      + replace (n + Z.of_nat d + p + 2)%Z with (n + (Z.of_nat d + 1) + p + 1)%Z by lia. apply M. lia.
      + intros i Hi _. rewrite iQ_S by lia. replace (Z.of_nat d + 1 - 1)%Z with (Z.of_nat d) by lia. reflexivity. }
  replace r with (Z.of_nat (Z.to_nat r)) by lia. apply A. lia.
Qed.
End Ins.

Lemma insV_mono U k u j hi : nondecreasing U 0 hi -> (0 <= k < hi)%Z -> (0 <= j)%Z -> U k <= u <= U (k + 1)%Z ->
  nondecreasing (insV U k u j) 0 (hi + j).
Proof.
  intros M Hk Hj Hu a b Ha Hab Hb. unfold insV.
  lcase a k; lcase b k; try (apply M; lia).
  - lcase b (k + j)%Z.
    + assert (U a <= U k) by (apply M; lia). lra.
    + apply M; lia.
  - lcase a (k + j)%Z; lcase b (k + j)%Z; try lra.
    + assert (U (k + 1)%Z <= U (b - j)%Z) by (apply M; lia). lra.
    + apply M; lia.
Qed.

Lemma InsertKnot_V_spec n p U u k r junk i : (0 <= r)%Z -> (k <= n + p + 1)%Z -> (0 <= i <= n + p + 1 + r)%Z ->
  InsertKnot_V (N:=Rn) n p U u k r junk i = insV U k u r i.
Proof.
  intros Hr Hk Hi. unfold InsertKnot_V, insV. lcase i k.
  - rewrite !fill_out by lia. rewrite fill_in by lia. reflexivity.
  - lcase i (k + r)%Z.
    + rewrite fill_out by lia. rewrite fill_in by lia. reflexivity.
    + rewrite fill_in by lia. reflexivity.
Qed.

Lemma multiplicity_ext U V lo hi v : (forall i, (lo <= i <= hi)%Z -> U i = V i) -> multiplicity U lo hi v = multiplicity V lo hi v.
Proof.
  intros H. unfold multiplicity.
  assert (forall c i, (lo <= i)%Z -> (i + Z.of_nat c <= hi + 1)%Z -> countN c i U v = countN c i V v) as A.
  { induction c; intros i Hi Hc; auto. cbn [countN]. rewrite (H i) by lia. rewrite IHc by lia. reflexivity. }
  destruct (Z_le_gt_dec lo (hi + 1)); [apply A; lia|]. replace (Z.to_nat (hi + 1 - lo)) with O by lia. reflexivity.
Qed.

Lemma multiplicity_shift U lo hi d v : multiplicity (fun i => U (i + d)%Z) lo hi v = multiplicity U (lo + d) (hi + d) v.
Proof.
  unfold multiplicity. replace (hi + d + 1 - (lo + d))%Z with (hi + 1 - lo)%Z by lia.
  generalize (Z.to_nat (hi + 1 - lo)) as c. revert lo. intros lo c. revert lo.
  induction c; intros lo; auto. cbn [countN]. rewrite IHc. replace (lo + 1 + d)%Z with (lo + d + 1)%Z by lia. reflexivity.
Qed.

(** The inserted knot vector has exactly j more copies of u. *)
Lemma multiplicity_insV U k u j hi v : (0 <= k <= hi)%Z -> (0 <= j)%Z ->
  multiplicity (insV U k u j) 0 (hi + j) v =
  (multiplicity U 0 hi v + (if Req_EM_T u v then j else 0))%Z.
Proof.
  intros Hk Hj. rewrite (multiplicity_split _ 0 k (hi + j)) by lia.
  rewrite (multiplicity_split _ (k + 1) (k + j) (hi + j)) by lia.
  rewrite (multiplicity_split U 0 k hi) by lia.
  rewrite (multiplicity_ext (insV U k u j) U 0 k) by (intros i Hi; unfold insV; lcase i k; auto).
  rewrite (multiplicity_ext (insV U k u j) (fun i => U (i + - j)%Z) (k + j + 1) (hi + j)).
  2:{ intros i Hi; unfold insV; lcase i k. lcase i (k + j)%Z. f_equal; lia. }
  rewrite multiplicity_shift. replace (k + j + 1 + - j)%Z with (k + 1)%Z by lia. replace (hi + j + - j)%Z with hi by lia.
  assert (E : multiplicity (insV U k u j) (k + 1) (k + j) v = if Req_EM_T u v then j else 0%Z).
  { destruct (Req_EM_T u v) as [Ev|Ev].
    - rewrite multiplicity_all; [lia|lia|]. intros i Hi. unfold insV. lcase i k. lcase i (k + j)%Z. auto.
    - apply multiplicity_none. intros i Hi. unfold insV. lcase i k. lcase i (k + j)%Z. auto. }
  rewrite E. lia.
Qed.

(** Interior insertion: the new knot vector is well formed and the curve is the same. *)
Lemma insert_wf n p U u k r : wf_knots n p U -> (p <= k <= n)%Z -> (0 <= r)%Z ->
  U p < u -> u < U (n + 1)%Z -> U k <= u <= U (k + 1)%Z -> wf_knots (n + r) p (insV U k u r).
Proof.
  intros W Hk Hr Hu1 Hu2 Hu. destruct W as [W1 W2 W3 W4 W5]. constructor; try lia.
  - replace (n + r + p + 1)%Z with (n + p + 1 + r)%Z by lia. apply insV_mono; auto; try lia; lra.
  - unfold insV. lcase p k. lcase (p + 1)%Z k; auto. lcase (p + 1)%Z (k + r)%Z; auto.
    replace (p + 1 - r)%Z with (p + 1)%Z by lia. auto.
  - unfold insV. lcase (n + r + 1)%Z k. lcase (n + r + 1)%Z (k + r)%Z.
    replace (n + r + 1 - r)%Z with (n + 1)%Z by lia.
    lcase (n + r)%Z k. { assert (U (n + r)%Z <= U k) by (apply W3; lia). lra. }
    lcase (n + r)%Z (k + r)%Z; [lra|]. replace (n + r - r)%Z with n by lia. auto.
Qed.

Theorem insert_curve n p U P u r junk x : wf_knots n p U -> (1 <= r)%Z ->
  U p < u < U (n + 1)%Z -> separated U 0 (n + p + 1) u -> (multiplicity U 0 (n + p + 1) u + r <= p)%Z ->
  in_domain n p U x ->
  let VQ := bsp_InsertKnot (N:=Rn) n p U P u r junk in
  wf_knots (n + r) p (insV U (FindSpan n p u U) u r) /\
  (forall i, (0 <= i <= n + p + 1 + r)%Z -> fst VQ i = insV U (FindSpan n p u U) u r i) /\
  curve (n + r) p (fst VQ) (snd VQ) x = curve n p U P x.
Proof.
  intros W Hr Hu Hsep Hmul D VQ.
  pose proof (wf_p _ _ _ W) as Hp. pose proof (wf_n _ _ _ W) as Hn. pose proof (wf_mono _ _ _ W) as M.
  assert (Du : in_domain n p U u) by (unfold in_domain; lra).
  pose proof (FindSpan_active n p U u W Du) as A. set (k := FindSpan n p u U) in *.
  assert (Hk : (p <= k <= n)%Z) by (destruct A; lia).
  assert (Hku : U k <= u < U (k + 1)%Z) by (destruct A as [_ [A|[_ A]]]; lra).
  destruct (FindMult_span n p U u k W Hk Hku) as [s [Es [Hs [Hb Hl]]]].
  { intros j Hj. apply Hsep. lia. }
  assert (Em : FindMult k u p U = multiplicity U 0 (n + p + 1) u).
  { apply FindMult_exact; auto. lia. }
  assert (Hsr : (s + r <= p)%Z) by lia.
  assert (W' := insert_wf n p U u k r W Hk ltac:(lia) ltac:(lra) ltac:(lra) ltac:(lra)).
  assert (EV : forall i, (0 <= i <= n + p + 1 + r)%Z -> fst VQ i = insV U k u r i).
  { intros i Hi. unfold VQ, bsp_InsertKnot. destruct (Z.eqb_spec r 0); [lia|].
    unfold FindSpanMult. fold k. cbv zeta. cbn [fst snd]. apply InsertKnot_V_spec; lia. }
  split; auto. split; auto.
  assert (W'' : wf_knots (n + r) p (fst VQ)).
  { destruct W' as [w1 w2 w3 w4 w5]. constructor; try lia.
    - intros a b Ha Hab Hb'. rewrite !EV by lia. apply w3; lia.
    - rewrite !EV by lia. auto.
    - rewrite !EV by lia. auto. }
  assert (Hlow : forall i, (k - s + 1 - p <= i <= k - s)%Z -> (0 <= i)%Z -> U i < u).
  { intros i Hi Hi0. destruct (Z_le_gt_dec (k - p) i); [apply Hl; lia|].
    assert (U i <= U (k - p)%Z) by (apply M; lia). assert (U (k - p)%Z < u) by (apply Hl; lia). lra. }
  assert (Hpk : (p <= k - s)%Z).
  { destruct (Z_le_gt_dec p (k - s)); auto. assert (U p = u) by (apply Hb; lia). lra. }
  apply Sub_curve; auto.
  - eapply Sub_trans.
    + apply (Sub_ext (n + r) p (fst VQ) (snd VQ) (insV U k u r) (iQ U P k p u (k - s + 1) r)); try lia.
      * intros i Hi. apply EV. lia.
      * intros i Hi. unfold VQ, bsp_InsertKnot. destruct (Z.eqb_spec r 0); [lia|].
        unfold FindSpanMult. fold k. cbv zeta. cbn [fst snd].
        assert (Es' : FindMult (N:=Rn) k u p U = s) by exact Es. 
        match goal with |- context[InsertKnot _ _ _ _ _ _ ?x _ _] => replace x with s by (symmetry; exact Es') end.
        unfold InsertKnot. cbn [snd]. apply InsertKnot_Q_spec; auto; try lia.
        intros y Hy. apply Hlow; lia.
    + apply (Sub_iQ U P k s p u); auto; try lia.
      * intros j Hj. replace (n + j + p + 1)%Z with (n + p + 1 + j)%Z by lia. apply insV_mono; auto; try lia; lra.
  - left. rewrite EV by lia. unfold insV. lcase (n + r + 1)%Z k. lcase (n + r + 1)%Z (k + r)%Z. f_equal. lia.
  - destruct D as [D1 D2]. split.
    + rewrite EV by lia. unfold insV. lcase p k. auto.
    + rewrite EV by lia. unfold insV. lcase (n + r + 1)%Z k. lcase (n + r + 1)%Z (k + r)%Z.
      replace (n + r + 1 - r)%Z with (n + 1)%Z by lia. auto.
Qed.
