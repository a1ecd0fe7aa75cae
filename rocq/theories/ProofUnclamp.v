(** UnclampKnot: each pass inverts one Boehm insertion of the end knot. *)
From Coq Require Import ZArith Reals Lia Lra Bool FunctionalExtensionality.
From Verif Require Import Num Loop ModelBspline ModelBSp Spec SumZ BPiece BLink BInsert BRep ProofSpan ProofEval ProofInsert ProofCut ProofClamp ExTac.
Local Open Scope R_scope.

Definition periodicL (n p C : Z) (U U' : Z -> R) : Prop :=
  (forall x, (C < x)%Z -> U' x = U x) /\
  (forall j, (0 <= j <= C)%Z -> U' j = U p - U (n + 1)%Z + U' (j + (n - C))%Z).

Lemma Unclamp_left_U_spec n p C U : (0 <= C < p)%Z -> (p <= n)%Z ->
  periodicL n p C U (Unclamp_left_U (N:=Rn) n p C U).
Proof.
  intros HC Hn. unfold Unclamp_left_U.
  floop (fun i (U' : Z -> R) => (forall x, (C < x)%Z -> U' x = U x) /\ (forall x, (x <= C - i)%Z -> U' x = U x) /\
     (forall j, (C - i < j <= C)%Z -> U' j = U p - U (n + 1)%Z + U' (j + (n - C))%Z)).
  - repeat split; auto. intros; lia.
  - intros i U' Hi [H1 [H2 H3]]. rn. repeat split.
    + intros x Hx. rewrite upd_diff by lia. auto.
    + intros x Hx. rewrite upd_diff by lia. apply H2. lia.
    + intros j Hj. destruct (Z.eq_dec j (C - i)) as [->|Hne].
      * rewrite upd_same. rewrite upd_diff by lia. rewrite (H1 p) by lia. rewrite (H1 (n + 1)%Z) by lia.
        f_equal. f_equal. lia.
      * rewrite !upd_diff by lia. apply H3. lia.
  - intros U' [H1 [H2 H3]]. split; auto. intros j Hj. apply H3. lia.
Qed.


Lemma periodicL_mono n p C U U' : wf_knots n p U -> (0 <= C < p)%Z -> (forall i, (0 <= i <= p)%Z -> U i = U p) ->
  periodicL n p C U U' ->
  nondecreasing U' 0 (n + p + 1) /\ (forall j, (0 <= j <= C)%Z -> U' j < U p) /\ wf_knots n p U'.
Proof.
  intros W HC Hcl [H1 H2]. pose proof (wf_n _ _ _ W). pose proof (wf_mono _ _ _ W) as M.
  pose proof (wf_last _ _ _ W) as Wl. pose proof (wf_first _ _ _ W) as Wf.
  assert (HCl : U' C < U p).
  { rewrite H2 by lia. rewrite H1 by lia. replace (C + (n - C))%Z with n by lia. lra. }
  assert (A : forall d i, (0 <= i < n + p + 1)%Z -> (n + p + 1 - i <= Z.of_nat d)%Z -> U' i <= U' (i + 1)%Z).
  { induction d; intros i Hi Hd; [lia|]. destruct (Z_le_gt_dec (C + 1) i).
    - rewrite !H1 by lia. apply M; lia.
    - destruct (Z.eq_dec i C) as [->|Hne].
      + rewrite (H1 (C + 1)%Z) by lia. rewrite (Hcl (C + 1)%Z) by lia. lra.
      + rewrite (H2 i), (H2 (i + 1)%Z) by lia.
        replace (i + 1 + (n - C))%Z with (i + (n - C) + 1)%Z by lia.
        assert (U' (i + (n - C))%Z <= U' (i + (n - C) + 1)%Z) by (apply IHd; lia). lra. }
  assert (MU : nondecreasing U' 0 (n + p + 1)).
  { apply nondecreasing_adjacent. intros i Hi. apply (A (Z.to_nat (n + p + 1 - i))); lia. }
  split; auto. split.
  - intros j Hj. assert (U' j <= U' C) by (apply MU; lia). lra.
  - constructor; auto; try lia.
    + rewrite !H1 by lia. auto.
    + rewrite !H1 by lia. auto.
Qed.

(** Knot vector with t of the unclamped knots pushed out on the left. *)
Definition VL (p C t : Z) (U' : Z -> R) (u : R) : Z -> R :=
  fun x => if (x <=? C - t)%Z then U' (x + t)%Z else if (x <=? p)%Z then u else U' x.

Section Left.
Variables (n p C : Z) (U' : Z -> R).
Let u := U' p.
Hypothesis W : wf_knots n p U'.
Hypothesis HC : (0 <= C < p)%Z.
Hypothesis Hblock : forall i, (C + 1 <= i <= p)%Z -> U' i = u.
Hypothesis Hlow : forall j, (0 <= j <= C)%Z -> U' j < u.

Lemma VL_mono t : (0 <= t <= C)%Z -> nondecreasing (VL p C t U' u) 0 (n + p + 1).
Proof.
  intros Ht a b Ha Hab Hb. pose proof (wf_mono _ _ _ W) as M. pose proof (wf_n _ _ _ W). pose proof (wf_first _ _ _ W). unfold VL.
  lcase a (C - t)%Z; lcase b (C - t)%Z.
  - apply M; lia.
  - assert (U' (a + t)%Z < u) by (apply Hlow; lia). lcase b p; [lra|].
    assert (HH : U' p <= U' b) by (apply M; lia). fold u in HH. lra.
  - lcase a p; lcase b p; try lra.
    + unfold u. apply M; lia.
    + apply M; lia.
Qed.

(** One pass. *)
Definition passL (i : Z) (Pw : Z -> R) : Z -> R :=
  for_down i 0 (fun j Pw =>
      let alpha := (U' p - U' (p + j - i - 1)%Z) / (U' (p + j + 1)%Z - U' (p + j - i - 1)%Z) in
      upd Pw j ((Pw j - alpha * Pw (j + 1)%Z) / (1 - alpha))) Pw.

Lemma passL_spec i Pw : (0 <= i <= p - 2)%Z ->
  (forall j, (i < j)%Z -> passL i Pw j = Pw j) /\
  (forall j, (0 <= j <= i)%Z ->
    let alpha := (U' p - U' (p + j - i - 1)%Z) / (U' (p + j + 1)%Z - U' (p + j - i - 1)%Z) in
    passL i Pw j = (Pw j - alpha * passL i Pw (j + 1)%Z) / (1 - alpha)).
Proof.
  intros Hi. unfold passL.
  dloop (fun j (P' : Z -> R) => (forall x, (i < x)%Z -> P' x = Pw x) /\ (forall x, (x <= j)%Z -> P' x = Pw x) /\
    (forall x, (j < x <= i)%Z -> 
    let alpha := (U' p - U' (p + x - i - 1)%Z) / (U' (p + x + 1)%Z - U' (p + x - i - 1)%Z) in
    P' x = (Pw x - alpha * P' (x + 1)%Z) / (1 - alpha))).
  - repeat split; auto. intros; lia.
  - intros j P' Hj [H1 [H2 H3]]. cbv zeta. repeat split.
    + intros x Hx. rewrite upd_diff by lia. auto.
    + intros x Hx. rewrite upd_diff by lia. apply H2. lia.
    + intros x Hx. destruct (Z.eq_dec x j) as [->|Hne].
      * rewrite upd_same. rewrite upd_diff by lia. rewrite (H2 j) by lia. reflexivity.
      * rewrite !upd_diff by lia. apply H3. lia.
  - intros P' [H1 [H2 H3]]. split; auto. intros j Hj. apply H3. lia.
Qed.

Lemma passL_Sub t Pw : (1 <= t <= C)%Z ->
  Sub n p (VL p C t U' u) Pw n p (VL p C (t - 1) U' u) (passL (p - 1 - t) Pw).
Proof.
  intros Ht. pose proof (wf_n _ _ _ W). pose proof (wf_first _ _ _ W) as Wf. pose proof (wf_mono _ _ _ W) as M.
  destruct (passL_spec (p - 1 - t) Pw ltac:(lia)) as [P1 P2].
  set (P' := passL (p - 1 - t) Pw) in *. set (V := VL p C (t - 1) U' u).
  assert (Vp : V p = u) by (unfold V, VL; lcase p (C - (t - 1))%Z; lcase p p; auto).
  assert (Vp1 : V (p + 1)%Z = U' (p + 1)%Z) by (unfold V, VL; lcase (p + 1)%Z (C - (t - 1))%Z; lcase (p + 1)%Z p; auto).
  assert (MV : nondecreasing (insV V p u 1) 0 (n + p + 2)).
  { replace (n + p + 2)%Z with (n + p + 1 + 1)%Z by lia. apply insV_mono; try lia. apply VL_mono; lia. rewrite Vp, Vp1. unfold u. lra. }
  assert (ED : del (insV V p u 1) (p + 1) = V).
  { pose proof (insV_del V p 0 u (p + 1)) as D. specialize (D ltac:(lia)).
    replace 1%Z with (0 + 1)%Z at 1 by lia. rewrite D; try lia; apply insV_0. }
  set (Q := boehm_pts (insV V p u 1) (p + 1) p P').
  eapply Sub_trans; [|eapply Sub_trans].
  - apply (Sub_ext n p _ _ (fun x => insV V p u 1 (x + 1)%Z) (fun x => Q (x + 1)%Z)); try lia.
    + intros x Hx. unfold insV. lcase (x + 1)%Z p.
      * unfold V, VL. lcase x (C - t)%Z; lcase (x + 1)%Z (C - (t - 1))%Z.
        -- f_equal. lia.
        -- lcase x p. lcase (x + 1)%Z p. auto.
      * lcase (x + 1)%Z (p + 1)%Z.
        -- unfold VL. lcase x (C - t)%Z. lcase x p. auto.
        -- unfold V, VL. lcase (x + 1 - 1)%Z (C - (t - 1))%Z. lcase (x + 1 - 1)%Z p. lcase x (C - t)%Z. lcase x p. f_equal. lia.
    + intros x Hx. unfold Q, boehm_pts, al. replace (Z.of_nat (Z.to_nat p)) with p by lia.
      zcase (x + 1 + p)%Z (p + 1)%Z. replace (x + 1 - 1)%Z with x by lia. zcase (x + 1)%Z (p + 1)%Z.
      * assert (E1 : insV V p u 1 (p + 1) = u) by (unfold insV; lcase (p + 1)%Z p; lcase (p + 1)%Z (p + 1)%Z; auto).
        assert (E2 : insV V p u 1 (x + 1 + p + 1) = U' (p + x + 1)%Z).
        { unfold insV. lcase (x + 1 + p + 1)%Z p. lcase (x + 1 + p + 1)%Z (p + 1)%Z. unfold V, VL.
          lcase (x + 1 + p + 1 - 1)%Z (C - (t - 1))%Z. lcase (x + 1 + p + 1 - 1)%Z p. f_equal. lia. }
        assert (E3 : insV V p u 1 (x + 1) = V (x + 1)%Z) by (unfold insV; lcase (x + 1)%Z p; auto).
        rewrite E1, E2, E3. clear E1 E2 E3.
        assert (Hbig : u < U' (p + x + 1)%Z).
        { assert (U' (p + 1)%Z <= U' (p + x + 1)%Z) by (apply M; lia). unfold u. lra. }
        destruct (Z_le_gt_dec x (p - 1 - t)) as [L|L].
        -- specialize (P2 x ltac:(lia)). cbv zeta in P2. replace (p + x - (p - 1 - t) - 1)%Z with (x + t)%Z in P2 by lia.
           assert (EV : V (x + 1)%Z = U' (x + t)%Z).
           { unfold V, VL. lcase (x + 1)%Z (C - (t - 1))%Z; [f_equal; lia|]. lcase (x + 1)%Z p. symmetry. apply Hblock. lia. }
           rewrite EV. fold u in P2.
           assert (Hle : U' (x + t)%Z <= u) by (unfold u; apply M; lia).
           rewrite P2. field. split; [lra|]. lra.
        -- rewrite (P1 x) by lia.
           assert (EV : V (x + 1)%Z = u) by (unfold V, VL; lcase (x + 1)%Z (C - (t - 1))%Z; lcase (x + 1)%Z p; auto).
           rewrite EV. unfold Rdiv. ring.
      * rewrite <- (P1 x) by lia. lra.
  - apply Sub_shift with (N := (n + 1)%Z); lia.
  - pose proof (Sub_insert n p (insV V p u 1) (p + 1) Q P' ltac:(lia) ltac:(lia) MV ltac:(auto)) as S. rewrite ED in S. exact S.
Qed.

Lemma Unclamp_left_Sub P :
  Sub n p (VL p C C U' u) P n p U' (Unclamp_left_P (N:=Rn) p C U' P).
Proof.
  pose proof (wf_n _ _ _ W).
  assert (E0 : forall P', Sub n p (VL p C 0 U' u) P' n p U' P').
  { intros P'. apply Sub_ext; try lia; auto. intros i Hi. unfold VL. lcase i (C - 0)%Z; [f_equal; lia|]. lcase i p; auto.
    symmetry. apply Hblock. lia. }
  unfold Unclamp_left_P.
  floop (fun i (P' : Z -> R) => Sub n p (VL p C C U' u) P n p (VL p C (p - 1 - i) U' u) P').
  - replace (p - 1 - (p - C - 1))%Z with C by lia. apply Sub_refl.
  - intros i P' Hi IH. eapply Sub_trans; [exact IH|].
    pose proof (passL_Sub (p - 1 - i) P' ltac:(lia)) as S.
    replace (p - 1 - (p - 1 - i))%Z with i in S by lia. replace (p - 1 - i - 1)%Z with (p - 1 - (i + 1))%Z in S by lia.
    exact S.
  - intros P' H'. eapply Sub_trans; [exact H'|]. replace (p - 1 - (p - 2 + 1))%Z with 0%Z by lia. apply E0.
Qed.
End Left.

(** ** Right end *)
Definition periodicR (n p C : Z) (U U' : Z -> R) : Prop :=
  (forall x, (x < n + p + 1 - C)%Z -> U' x = U x) /\
  (forall j, (n + p + 1 - C <= j <= n + p + 1)%Z -> U' j = U (n + 1)%Z - U p + U' (j - (n - C))%Z).

Lemma Unclamp_right_U_spec n p C U : (0 <= C < p)%Z -> (p <= n)%Z ->
  periodicR n p C U (Unclamp_right_U (N:=Rn) n p C U).
Proof.
  intros HC Hn. unfold Unclamp_right_U. cbv zeta.
  floop (fun i (U' : Z -> R) => (forall x, (x < n + p + 1 - C)%Z -> U' x = U x) /\
     (forall x, (n + p + 1 - C + i <= x)%Z -> U' x = U x) /\
     (forall j, (n + p + 1 - C <= j < n + p + 1 - C + i)%Z -> U' j = U (n + 1)%Z - U p + U' (j - (n - C))%Z)).
  - repeat split; auto. intros; lia.
  - intros i U' Hi [H1 [H2 H3]]. rn. repeat split.
    + intros x Hx. rewrite upd_diff by lia. auto.
    + intros x Hx. rewrite upd_diff by lia. apply H2. lia.
    + intros j Hj. destruct (Z.eq_dec j (n + p + 1 - C + i)) as [->|Hne].
      * rewrite upd_same. rewrite upd_diff by lia. rewrite (H1 p) by lia. rewrite (H1 (n + 1)%Z) by lia.
        f_equal. f_equal. lia.
      * rewrite !upd_diff by lia. apply H3. lia.
  - intros U' [H1 [H2 H3]]. split; auto. intros j Hj. apply H3. lia.
Qed.

Lemma periodicR_mono n p C U U' : wf_knots n p U -> (0 <= C < p)%Z ->
  (forall i, (n + 1 <= i <= n + p + 1)%Z -> U i = U (n + 1)%Z) ->
  periodicR n p C U U' ->
  nondecreasing U' 0 (n + p + 1) /\ (forall j, (n + p + 1 - C <= j <= n + p + 1)%Z -> U (n + 1)%Z < U' j) /\ wf_knots n p U'.
Proof.
  intros W HC Hcl [H1 H2]. pose proof (wf_n _ _ _ W). pose proof (wf_mono _ _ _ W) as M.
  pose proof (wf_last _ _ _ W) as Wl. pose proof (wf_first _ _ _ W) as Wf.
  assert (HCl : U (n + 1)%Z < U' (n + p + 1 - C)%Z).
  { rewrite H2 by lia. rewrite H1 by lia. replace (n + p + 1 - C - (n - C))%Z with (p + 1)%Z by lia. lra. }
  assert (A : forall d i, (0 <= i < n + p + 1)%Z -> (i <= Z.of_nat d)%Z -> U' i <= U' (i + 1)%Z).
  { induction d; intros i Hi Hd.
    { rewrite !H1 by lia. apply M; lia. }
    destruct (Z_le_gt_dec (i + 1) (n + p - C)).
    - rewrite !H1 by lia. apply M; lia.
    - destruct (Z.eq_dec i (n + p - C)) as [->|Hne].
      + rewrite (H1 (n + p - C)%Z) by lia. rewrite (Hcl (n + p - C)%Z) by lia.
        replace (n + p - C + 1)%Z with (n + p + 1 - C)%Z by lia. lra.
      + rewrite (H2 i), (H2 (i + 1)%Z) by lia.
        replace (i + 1 - (n - C))%Z with (i - (n - C) + 1)%Z by lia.
        assert (U' (i - (n - C))%Z <= U' (i - (n - C) + 1)%Z) by (apply IHd; lia). lra. }
  assert (MU : nondecreasing U' 0 (n + p + 1)).
  { apply nondecreasing_adjacent. intros i Hi. apply (A (Z.to_nat i)); lia. }
  split; auto. split.
  - intros j Hj. assert (U' (n + p + 1 - C)%Z <= U' j) by (apply MU; lia). lra.
  - constructor; auto; try lia.
    + rewrite !H1 by lia. auto.
    + rewrite !H1 by lia. auto.
Qed.

Definition VR (n p C t : Z) (U' : Z -> R) (u : R) : Z -> R :=
  fun x => if (x <=? n)%Z then U' x else if (x <=? n + p - C + t)%Z then u else U' (x - t)%Z.

Section Right.
Variables (n p C : Z) (U' : Z -> R).
Let u := U' (n + 1)%Z.
Hypothesis W : wf_knots n p U'.
Hypothesis HC : (0 <= C < p)%Z.
Hypothesis Hblock : forall i, (n + 1 <= i <= n + p - C)%Z -> U' i = u.
Hypothesis Hhigh : forall j, (n + p + 1 - C <= j <= n + p + 1)%Z -> u < U' j.

Lemma VR_mono t : (0 <= t <= C)%Z -> nondecreasing (VR n p C t U' u) 0 (n + p + 1).
Proof.
  intros Ht a b Ha Hab Hb. pose proof (wf_mono _ _ _ W) as M. pose proof (wf_n _ _ _ W). pose proof (wf_last _ _ _ W) as Wl. unfold VR.
  fold u in Wl. lcase a n; lcase b n.
  - apply M; lia.
  - assert (U' a <= U' n) by (apply M; lia). lcase b (n + p - C + t)%Z; [lra|].
    assert (HH : U' (n + 1)%Z <= U' (b - t)%Z) by (apply M; lia). fold u in HH. lra.
  - lcase a (n + p - C + t)%Z; lcase b (n + p - C + t)%Z; try lra.
    + assert (u < U' (b - t)%Z) by (apply Hhigh; lia). lra.
    + apply M; lia.
Qed.

Definition passR (i : Z) (Pw : Z -> R) : Z -> R :=
  for_down i 0 (fun j Pw =>
      let alpha := (U' (n + 1)%Z - U' (n - j)%Z) / (U' (n - j + i + 2)%Z - U' (n - j)%Z) in
      upd Pw (n - j)%Z ((Pw (n - j)%Z - (1 - alpha) * Pw (n - j - 1)%Z) / alpha)) Pw.

Lemma passR_spec i Pw : (0 <= i <= p - 2)%Z ->
  (forall x, (x < n - i \/ n < x)%Z -> passR i Pw x = Pw x) /\
  (forall j, (0 <= j <= i)%Z ->
    let alpha := (U' (n + 1)%Z - U' (n - j)%Z) / (U' (n - j + i + 2)%Z - U' (n - j)%Z) in
    passR i Pw (n - j)%Z = (Pw (n - j)%Z - (1 - alpha) * passR i Pw (n - j - 1)%Z) / alpha).
Proof.
  intros Hi. unfold passR.
  dloop (fun j (P' : Z -> R) => (forall x, (x < n - i)%Z -> P' x = Pw x) /\ (forall x, (n - j <= x)%Z -> P' x = Pw x) /\
    (forall x, (j < x <= i)%Z -> 
    let alpha := (U' (n + 1)%Z - U' (n - x)%Z) / (U' (n - x + i + 2)%Z - U' (n - x)%Z) in
    P' (n - x)%Z = (Pw (n - x)%Z - (1 - alpha) * P' (n - x - 1)%Z) / alpha)).
  - repeat split; auto. intros; lia.
  - intros j P' Hj [H1 [H2 H3]]. cbv zeta. repeat split.
    + intros x Hx. rewrite upd_diff by lia. auto.
    + intros x Hx. rewrite upd_diff by lia. apply H2. lia.
    + intros x Hx. destruct (Z.eq_dec x j) as [->|Hne].
      * rewrite upd_same. rewrite upd_diff by lia. rewrite (H2 (n - j)%Z) by lia. reflexivity.
      * rewrite !upd_diff by lia. apply H3. lia.
  - intros P' [H1 [H2 H3]]. split.
    + intros x Hx. destruct Hx; [auto|]. apply H2. lia.
    + intros j Hj. apply H3. lia.
Qed.

Lemma passR_Sub t Pw : (1 <= t <= C)%Z ->
  Sub n p (VR n p C t U' u) Pw n p (VR n p C (t - 1) U' u) (passR (p - 1 - t) Pw).
Proof.
  intros Ht. pose proof (wf_n _ _ _ W). pose proof (wf_last _ _ _ W) as Wl. pose proof (wf_mono _ _ _ W) as M.
  fold u in Wl.
  destruct (passR_spec (p - 1 - t) Pw ltac:(lia)) as [P1 P2].
  set (P' := passR (p - 1 - t) Pw) in *. set (V := VR n p C (t - 1) U' u).
  assert (Vn : V n = U' n) by (unfold V, VR; lcase n n; auto).
  assert (Vn1 : V (n + 1)%Z = u) by (unfold V, VR; lcase (n + 1)%Z n; lcase (n + 1)%Z (n + p - C + (t - 1))%Z; auto).
  assert (MV : nondecreasing (insV V n u 1) 0 (n + p + 2)).
  { replace (n + p + 2)%Z with (n + p + 1 + 1)%Z by lia. apply insV_mono; try lia. apply VR_mono; lia. rewrite Vn, Vn1. lra. }
  assert (ED : del (insV V n u 1) (n + 1) = V).
  { pose proof (insV_del V n 0 u (n + 1)) as D. specialize (D ltac:(lia)).
    replace 1%Z with (0 + 1)%Z at 1 by lia. rewrite D; try lia; apply insV_0. }
  set (Q := boehm_pts (insV V n u 1) (n + 1) p P').
  eapply Sub_trans; [|eapply Sub_trans].
  - apply (Sub_ext n p _ _ (fun x => insV V n u 1 (x + 0)%Z) (fun x => Q (x + 0)%Z)); try lia.
    + intros x Hx. replace (x + 0)%Z with x by lia. unfold insV. lcase x n.
      * unfold V, VR. lcase x n. auto.
      * lcase x (n + 1)%Z.
        -- unfold VR. lcase x n. lcase x (n + p - C + t)%Z. auto.
        -- unfold V, VR. lcase x n. lcase (x - 1)%Z n. lcase x (n + p - C + t)%Z; lcase (x - 1)%Z (n + p - C + (t - 1))%Z; auto.
           f_equal. lia.
    + intros x Hx. replace (x + 0)%Z with x by lia. unfold Q, boehm_pts, al. replace (Z.of_nat (Z.to_nat p)) with p by lia.
      zcase (x + p)%Z (n + 1)%Z.
      { rewrite (P1 x) by lia. lra. }
      zcase x (n + 1)%Z.
      assert (E1 : insV V n u 1 (n + 1) = u) by (unfold insV; lcase (n + 1)%Z n; lcase (n + 1)%Z (n + 1)%Z; auto).
      assert (E2 : insV V n u 1 (x + p + 1) = V (x + p)%Z).
      { unfold insV. lcase (x + p + 1)%Z n. lcase (x + p + 1)%Z (n + 1)%Z. f_equal. lia. }
      assert (E3 : insV V n u 1 x = U' x) by (unfold insV; lcase x n; unfold V, VR; lcase x n; auto).
      rewrite E1, E2, E3. clear E1 E2 E3.
      assert (Hsm : U' x < u) by (assert (U' x <= U' n) by (apply M; lia); lra).
      destruct (Z_le_gt_dec (n - (p - 1 - t)) x) as [L|L].
      * specialize (P2 (n - x)%Z ltac:(lia)). cbv zeta in P2. replace (n - (n - x))%Z with x in P2 by lia.
        replace (x + (p - 1 - t) + 2)%Z with (x + p + 1 - t)%Z in P2 by lia. fold u in P2.
        assert (EV : V (x + p)%Z = U' (x + p + 1 - t)%Z).
        { unfold V, VR. lcase (x + p)%Z n. lcase (x + p)%Z (n + p - C + (t - 1))%Z; [symmetry; apply Hblock; lia|]. f_equal. lia. }
        rewrite EV.
        assert (Hle : u <= U' (x + p + 1 - t)%Z) by (unfold u; apply M; lia).
        rewrite P2. field. split; lra.
      * rewrite (P1 x) by lia.
        assert (EV : V (x + p)%Z = u).
        { unfold V, VR. lcase (x + p)%Z n. lcase (x + p)%Z (n + p - C + (t - 1))%Z. auto. }
        rewrite EV. replace ((u - U' x) / (u - U' x)) with 1 by (field; lra). lra.
  - apply Sub_shift with (N := (n + 1)%Z); lia.
  - pose proof (Sub_insert n p (insV V n u 1) (n + 1) Q P' ltac:(lia) ltac:(lia) MV ltac:(auto)) as S. rewrite ED in S. exact S.
Qed.

Lemma Unclamp_right_Sub P :
  Sub n p (VR n p C C U' u) P n p U' (Unclamp_right_P (N:=Rn) n p C U' P).
Proof.
  pose proof (wf_n _ _ _ W).
  assert (E0 : forall P', Sub n p (VR n p C 0 U' u) P' n p U' P').
  { intros P'. apply Sub_ext; try lia; auto. intros i Hi. unfold VR. lcase i n; auto.
    lcase i (n + p - C + 0)%Z; [symmetry; apply Hblock; lia|]. f_equal. lia. }
  unfold Unclamp_right_P.
  floop (fun i (P' : Z -> R) => Sub n p (VR n p C C U' u) P n p (VR n p C (p - 1 - i) U' u) P').
  - replace (p - 1 - (p - C - 1))%Z with C by lia. apply Sub_refl.
  - intros i P' Hi IH. eapply Sub_trans; [exact IH|].
    pose proof (passR_Sub (p - 1 - i) P' ltac:(lia)) as S.
    replace (p - 1 - (p - 1 - i))%Z with i in S by lia. replace (p - 1 - i - 1)%Z with (p - 1 - (i + 1))%Z in S by lia.
    exact S.
  - intros P' H'. eapply Sub_trans; [exact H'|]. replace (p - 1 - (p - 2 + 1))%Z with 0%Z by lia. apply E0.
Qed.
End Right.

(** ** Both ends, from clamped input *)
Definition clampedL (p : Z) (U : Z -> R) : Prop := forall i, (0 <= i <= p)%Z -> U i = U p.
Definition clampedR (n p : Z) (U : Z -> R) : Prop := forall i, (n + 1 <= i <= n + p + 1)%Z -> U i = U (n + 1)%Z.

Lemma UnL n p C U P : wf_knots n p U -> (0 <= C < p)%Z -> clampedL p U ->
  let U' := Unclamp_left_U (N:=Rn) n p C U in
  periodicL n p C U U' /\ wf_knots n p U' /\ Sub n p U P n p U' (Unclamp_left_P (N:=Rn) p C U' P).
Proof.
  intros W HC Hcl U'. pose proof (wf_n _ _ _ W).
  pose proof (Unclamp_left_U_spec n p C U HC ltac:(lia)) as Hp. fold U' in Hp.
  destruct (periodicL_mono n p C U U' W HC Hcl Hp) as [M' [Hlow W']].
  destruct Hp as [H1 H2]. split; [split; auto|]. split; auto.
  eapply Sub_trans; [|apply (Unclamp_left_Sub n p C U' W' HC)].
  - apply Sub_ext; try lia; auto. intros i Hi. unfold VL. lcase i (C - C)%Z. lcase i p.
    + rewrite (H1 p) by lia. apply Hcl. lia.
    + symmetry. apply H1. lia.
  - intros i Hi. rewrite !H1 by lia. apply Hcl. lia.
  - intros j Hj. rewrite (H1 p) by lia. auto.
Qed.

Lemma UnR n p C U P : wf_knots n p U -> (0 <= C < p)%Z -> clampedR n p U ->
  let U' := Unclamp_right_U (N:=Rn) n p C U in
  periodicR n p C U U' /\ wf_knots n p U' /\ Sub n p U P n p U' (Unclamp_right_P (N:=Rn) n p C U' P).
Proof.
  intros W HC Hcl U'. pose proof (wf_n _ _ _ W).
  pose proof (Unclamp_right_U_spec n p C U HC ltac:(lia)) as Hp. fold U' in Hp.
  destruct (periodicR_mono n p C U U' W HC Hcl Hp) as [M' [Hhi W']].
  destruct Hp as [H1 H2]. split; [split; auto|]. split; auto.
  eapply Sub_trans; [|apply (Unclamp_right_Sub n p C U' W' HC)].
  - apply Sub_ext; try lia; auto. intros i Hi. unfold VR. lcase i n.
    + symmetry. apply H1. lia.
    + lcase i (n + p - C + C)%Z. rewrite (H1 (n + 1)%Z) by lia. apply Hcl. lia.
  - intros i Hi. rewrite !H1 by lia. apply Hcl. lia.
  - intros j Hj. rewrite (H1 (n + 1)%Z) by lia. auto.
Qed.

Lemma clampLR_L n p r U : wf_knots n p U -> clampedL p (clampLR n p true r U).
Proof.
  intros W i Hi. pose proof (wf_n _ _ _ W). pose proof (wf_p _ _ _ W). unfold clampLR, clampL, clampR.
  destruct r; cbn [andb];
  repeat match goal with |- context[(?a <=? ?b)%Z] => destruct (Z.leb_spec a b); try lia; cbn [andb] end; auto.
  - replace i with p by lia. auto.
  - replace i with p by lia. auto.
Qed.
Lemma clampLR_R n p l U : wf_knots n p U -> clampedR n p (clampLR n p l true U).
Proof.
  intros W i Hi. pose proof (wf_n _ _ _ W). pose proof (wf_p _ _ _ W). unfold clampLR, clampL, clampR.
  destruct l; cbn [andb];
  repeat match goal with |- context[(?a <=? ?b)%Z] => destruct (Z.leb_spec a b); try lia; cbn [andb] end; auto;
  replace i with (n + 1)%Z by lia; auto.
Qed.

(** What bsp.Unclamp does to the knots, and that the curve of the clamped input is a
    restriction of both input and output. *)
Theorem Unclamp_spec n p U P C l r junk : wf_knots n p U -> (0 <= C < p)%Z ->
  separated U 0 (n + p + 1) (U p) -> separated U 0 (n + p + 1) (U (n + 1)%Z) ->
  let VQ := bsp_Unclamp (N:=Rn) n p U P C l r junk in
  let V := fst VQ in
  wf_knots n p V /\ V p = U p /\ V (n + 1)%Z = U (n + 1)%Z /\
  (forall i, (p + 1 <= i <= n)%Z -> V i = U i) /\
  (l = true -> (forall i, (C + 1 <= i <= p)%Z -> V i = U p) /\
               forall j, (0 <= j <= C)%Z -> V j = V (j + (n - C))%Z - (V (n + 1)%Z - V p)) /\
  (r = true -> (forall i, (n + 1 <= i <= n + p - C)%Z -> V i = U (n + 1)%Z) /\
               forall j, (n + p + 1 - C <= j <= n + p + 1)%Z -> V j = V (j - (n - C))%Z + (V (n + 1)%Z - V p)) /\
  (l = false -> forall i, (0 <= i <= p)%Z -> V i = U i) /\
  (r = false -> forall i, (n + 1 <= i <= n + p + 1)%Z -> V i = U i) /\
  exists U1 P1, wf_knots n p U1 /\ U1 p = U p /\ U1 (n + 1)%Z = U (n + 1)%Z /\
    Sub n p U1 P1 n p U P /\ Sub n p U1 P1 n p V (snd VQ).
Proof.
  intros W HC S1 S2. cbv zeta. pose proof (wf_n _ _ _ W).
  destruct (Clamp_spec n p U P l r junk W ltac:(lia) S1 S2) as [E [W1 Sb]].
  destruct (clampLR_ends n p l r U W) as [E1 E2].
  unfold bsp_Unclamp. destruct (ClampKnot n p U P l r junk) as [U1 P1]. cbn [fst snd] in E, Sb. 
  assert (E' : U1 = clampLR n p l r U) by exact E. clear E.
  assert (KM : forall i, (p + 1 <= i <= n)%Z -> U1 i = U i).
  { intros i Hi. rewrite E'. unfold clampLR, clampL, clampR. destruct l, r; cbn [andb];
    repeat match goal with |- context[(?a <=? ?b)%Z] => destruct (Z.leb_spec a b); try lia; cbn [andb] end; auto. }
  assert (KL : l = true -> clampedL p U1) by (intros ->; rewrite E'; apply clampLR_L; auto).
  assert (KR : r = true -> clampedR n p U1) by (intros ->; rewrite E'; apply clampLR_R; auto).
  assert (KNL : l = false -> forall i, (0 <= i <= p)%Z -> U1 i = U i).
  { intros -> i Hi. rewrite E'. unfold clampLR, clampR. destruct r; cbn [andb];
    repeat match goal with |- context[(?a <=? ?b)%Z] => destruct (Z.leb_spec a b); try lia; cbn [andb] end; auto. }
  assert (KNR : r = false -> forall i, (n + 1 <= i <= n + p + 1)%Z -> U1 i = U i).
  { intros -> i Hi. rewrite E'. unfold clampLR, clampL. destruct l; cbn [andb];
    repeat match goal with |- context[(?a <=? ?b)%Z] => destruct (Z.leb_spec a b); try lia; cbn [andb] end; auto. }
  rewrite <- E' in *. clear E'.
  assert (Eq : exists U2 P2, wf_knots n p U2 /\ Sub n p U1 P1 n p U2 P2 /\
     (l = true -> periodicL n p C U1 U2) /\ (l = false -> U2 = U1) /\
     (if l then let U := Unclamp_left_U (N:=Rn) n p C U1 in (U, Unclamp_left_P (N:=Rn) p C U P1) else (U1, P1)) = (U2, P2)).
  { destruct l.
    - do 2 eexists. destruct (UnL n p C U1 P1 W1 HC (KL eq_refl)) as [A1 [A2 A3]].
      split; [exact A2|]. split; [exact A3|]. split; [intros _; exact A1|]. split; [discriminate|reflexivity].
    - exists U1, P1. split; [auto|]. split; [apply Sub_refl|]. split; [discriminate|]. split; auto. }
  destruct Eq as [U2 [P2 [W2 [S12 [PL [NL Eq]]]]]].
  unfold UnclampKnot.
  match type of Eq with ?x = _ => match goal with |- context[if l then ?c else ?d] => change (if l then c else d) with x end end.
  rewrite Eq. clear Eq.
  assert (K2 : forall i, (C < i)%Z -> U2 i = U1 i).
  { intros i Hi. destruct l; [apply (proj1 (PL eq_refl)); lia|rewrite NL; auto]. }
  assert (KR2 : r = true -> clampedR n p U2).
  { intros Hr i Hi. rewrite !K2 by lia. apply KR; auto. }
  assert (Eq : exists U3 P3, wf_knots n p U3 /\ Sub n p U1 P1 n p U3 P3 /\
     (r = true -> periodicR n p C U2 U3) /\ (r = false -> U3 = U2) /\
     (if r then let U := Unclamp_right_U (N:=Rn) n p C U2 in (U, Unclamp_right_P (N:=Rn) n p C U P2) else (U2, P2)) = (U3, P3)).
  { destruct r.
    - do 2 eexists. destruct (UnR n p C U2 P2 W2 HC (KR2 eq_refl)) as [A1 [A2 A3]].
      split; [exact A2|]. split; [eapply Sub_trans; [exact S12|exact A3]|]. split; [intros _; exact A1|]. split; [discriminate|reflexivity].
    - exists U2, P2. split; [auto|]. split; [exact S12|]. split; [discriminate|]. split; auto. }
  destruct Eq as [U3 [P3 [W3 [S13 [PR [NR Eq]]]]]].
  match type of Eq with ?x = _ => match goal with |- context[if r then ?c else ?d] => change (if r then c else d) with x end end.
  rewrite Eq. clear Eq. cbn [fst snd].
  assert (K3 : forall i, (i < n + p + 1 - C)%Z -> U3 i = U2 i).
  { intros i Hi. destruct r; [apply (proj1 (PR eq_refl)); lia|rewrite NR; auto]. }
  assert (F1 : U3 p = U p) by (rewrite K3, K2 by lia; auto).
  assert (F2 : U3 (n + 1)%Z = U (n + 1)%Z) by (rewrite K3, K2 by lia; auto).
  split; auto. split; auto. split; auto.
  split. { intros i Hi. rewrite K3, K2 by lia. apply KM. lia. }
  split.
  { intros Hl. split.
    - intros i Hi. rewrite K3, K2 by lia. rewrite (KL Hl) by lia. exact E1.
    - intros j Hj. destruct (PL Hl) as [_ Q]. rewrite F1, F2. rewrite !K3 by lia. rewrite Q by lia. rewrite E1, E2. lra. }
  split.
  { intros Hr. split.
    - intros i Hi. rewrite K3, K2 by lia. rewrite (KR Hr) by lia. exact E2.
    - intros j Hj. destruct (PR Hr) as [_ Q]. rewrite F1, F2. rewrite Q by lia. rewrite !K2 by lia. rewrite E1, E2. lra. }
  split.
  { intros Hl i Hi. rewrite K3 by lia. rewrite (NL Hl). auto. }
  split.
  { intros Hr i Hi. rewrite (NR Hr). rewrite K2 by lia. auto. }
  exists U1, P1. repeat (split; auto).
Qed.

Theorem Unclamp_curve n p U P C l r junk x : wf_knots n p U -> (0 <= C < p)%Z ->
  separated U 0 (n + p + 1) (U p) -> separated U 0 (n + p + 1) (U (n + 1)%Z) -> in_domain n p U x ->
  let VQ := bsp_Unclamp (N:=Rn) n p U P C l r junk in
  curve n p (fst VQ) (snd VQ) x = curve n p U P x.
Proof.
  intros W HC S1 S2 D. cbv zeta.
  destruct (Unclamp_spec n p U P C l r junk W HC S1 S2) as [W' [E1 [E2 [_ [_ [_ [_ [_ [U1 [P1 [W1 [F1 [F2 [A B]]]]]]]]]]]]]].
  destruct D as [D1 D2]. assert (D' : in_domain n p U1 x) by (split; lra).
  transitivity (curve n p U1 P1 x).
  - symmetry. eapply Sub_curve; [exact W1|exact W'|exact B| |exact D']. left. rewrite F2, E2. reflexivity.
  - eapply Sub_curve; [exact W1|exact W|exact A| |exact D']. left. exact F2.
Qed.
