(** Corner cutting (CurvePntByCornerCut) is de Boor's algorithm. *)
From Coq Require Import ZArith Reals Lia Lra Bool.
From Verif Require Import Num Loop ModelBspline Spec SumZ BPiece BLink BInsert BRep ProofSpan ProofEval ProofInsert.
Local Open Scope R_scope.

(** De Boor points. *)
Fixpoint dbN (U P : Z -> R) (p : Z) (u : R) (j : nat) : Z -> R :=
  match j with
  | O => P
  | S j' => fun i => (u - U i) / (U (i + p - Z.of_nat j')%Z - U i) * dbN U P p u j' i
                     + (1 - (u - U i) / (U (i + p - Z.of_nat j')%Z - U i)) * dbN U P p u j' (i - 1)%Z
  end.
Definition db (U P : Z -> R) (p : Z) (u : R) (j : Z) : Z -> R := dbN U P p u (Z.to_nat j).

Lemma db_S U P p u j i : (1 <= j)%Z -> db U P p u j i =
  (u - U i) / (U (i + p - j + 1)%Z - U i) * db U P p u (j - 1) i
  + (1 - (u - U i) / (U (i + p - j + 1)%Z - U i)) * db U P p u (j - 1) (i - 1).
Proof.
  intros Hj. unfold db. replace (Z.to_nat j) with (S (Z.to_nat (j - 1))) by lia. cbn [dbN].
  replace (i + p - Z.of_nat (Z.to_nat (j - 1)))%Z with (i + p - j + 1)%Z by lia. reflexivity.
Qed.

Lemma pc_db U P p u k j : (0 <= j <= p)%Z -> span_ok U k (Z.to_nat p) ->
  pc U k p P u = sumZ (k - (p - j)) k (fun i => B U k (Z.to_nat (p - j)) i u * db U P p u j i).
Proof.
  intros Hj Hok.
  assert (forall d, (Z.of_nat d <= p)%Z -> pc U k p P u =
    sumZ (k - (p - Z.of_nat d)) k (fun i => B U k (Z.to_nat (p - Z.of_nat d)) i u * dbN U P p u d i)) as A.
  { induction d; intros Hd.
    - unfold pc. replace (p - Z.of_nat 0)%Z with p by lia. reflexivity.
    - rewrite IHd by lia.
      replace (Z.to_nat (p - Z.of_nat d)) with (S (Z.to_nat (p - Z.of_nat (S d)))) by lia.
      replace (k - (p - Z.of_nat d))%Z with (k - Z.of_nat (S (Z.to_nat (p - Z.of_nat (S d)))))%Z by lia.
      rewrite deboor_step by (eapply span_ok_less; [|eauto]; lia).
      replace (k - Z.of_nat (Z.to_nat (p - Z.of_nat (S d))))%Z with (k - (p - Z.of_nat (S d)))%Z by lia.
      apply sumZ_ext. intros i Hi. f_equal. cbn [dbN]. unfold om.
      replace (i + Z.of_nat (Z.to_nat (p - Z.of_nat (S d))) + 1)%Z with (i + p - Z.of_nat d)%Z by lia. reflexivity. }
  unfold db. rewrite (A (Z.to_nat j)) by lia. replace (Z.of_nat (Z.to_nat j)) with j by lia. reflexivity.
Qed.

Lemma CornerCut_db U P p u k r Rw : (0 <= r <= p)%Z ->
  (forall i, (0 <= i <= r)%Z -> Rw i = P (k - p + i)%Z) ->
  CornerCut_loops (N:=Rn) k p r U u Rw 0%Z = db U P p u r (k - p + r)%Z.
Proof.
  intros Hr HR. unfold CornerCut_loops.
  floop (fun j (R' : Z -> R) => forall i, (0 <= i <= r - (j - 1))%Z -> R' i = db U P p u (j - 1) (k - p + (j - 1) + i)%Z).
  - intros i Hi. rewrite HR by lia. unfold db. replace (Z.to_nat (1 - 1)) with O by lia. cbn [dbN]. f_equal. lia.
  - intros j R' Hj IH i0 Hi0. replace (j + 1 - 1)%Z with j in * by lia.
    floop (fun i (R'' : Z -> R) => (forall x, (0 <= x < i)%Z -> R'' x = db U P p u j (k - p + j + x)%Z) /\
                     (forall x, (i <= x)%Z -> R'' x = R' x)).
    + split; [intros; lia|auto].
    + intros i R'' Hi [H1 H2]. rn. split.
      * intros x Hx. destruct (Z.eq_dec x i) as [->|Hne].
        -- rewrite upd_same. rewrite !H2 by lia. rewrite !IH by lia. rewrite (db_S U P p u j) by lia.
           replace (k - p + j + i + p - j + 1)%Z with (i + k + 1)%Z by lia.
           replace (k - p + (j - 1) + (i + 1))%Z with (k - p + j + i)%Z by lia.
           replace (k - p + (j - 1) + i)%Z with (k - p + j + i - 1)%Z by lia. reflexivity.
        -- rewrite upd_diff by auto. apply H1. lia.
      * intros x Hx. rewrite upd_diff by lia. apply H2. lia.
    + intros R'' [H1 H2]. apply H1. lia.
  - intros R' H. replace (r + 1 - 1)%Z with r in H by lia. rewrite H by lia. f_equal. lia.
Qed.

(** The scheme run for p-s rounds from span k gives the value, if u is the s-fold left end of
    the span (or s = 0 and u arbitrary). *)
Lemma CornerCut_pc U P p u k s Rw : (0 <= s <= p)%Z -> span_ok U k (Z.to_nat p) -> u < U (k + 1)%Z ->
  (forall j, (k - s + 1 <= j <= k)%Z -> U j = u) ->
  (forall i, (0 <= i <= p - s)%Z -> Rw i = P (k - p + i)%Z) ->
  CornerCut_loops (N:=Rn) k p (p - s) U u Rw 0%Z = pc U k p P u.
Proof.
  intros Hs Hok Hu Hb HR. rewrite (CornerCut_db U P p u k (p - s)) by (auto; lia).
  rewrite (pc_db U P p u k (p - s)) by (auto; lia). replace (p - (p - s))%Z with s by lia.
  rewrite (sumZ_ext _ _ _ (fun i => (if (i =? k - s)%Z then 1 else 0) * db U P p u (p - s) i)).
  - rewrite sumZ_kron by lia. f_equal. lia.
  - intros i Hi. rewrite (B_right_end U k (Z.to_nat s) u (Z.to_nat s)); auto.
    + replace (k - Z.of_nat (Z.to_nat s))%Z with (k - s)%Z by lia. destruct (i =? k - s)%Z; lra.
    + intros j Hj. apply Hb. lia.
Qed.

Lemma pc_right_end U P p u k : (0 <= p)%Z -> u < U (k + 1)%Z ->
  (forall j, (k - p + 1 <= j <= k)%Z -> U j = u) -> pc U k p P u = P (k - p)%Z.
Proof.
  intros Hp Hu Hb. unfold pc.
  rewrite (sumZ_ext _ _ _ (fun i => (if (i =? k - p)%Z then 1 else 0) * P i)).
  - rewrite sumZ_kron by lia. reflexivity.
  - intros i Hi. rewrite (B_right_end U k (Z.to_nat p) u (Z.to_nat p)); auto.
    + replace (k - Z.of_nat (Z.to_nat p))%Z with (k - p)%Z by lia. destruct (i =? k - p)%Z; lra.
    + intros j Hj. apply Hb. lia.
Qed.

Lemma pc_left_end U P p u k : (0 <= p)%Z -> U k < u ->
  (forall j, (k + 1 <= j <= k + p)%Z -> U j = u) -> pc U k p P u = P k.
Proof.
  intros Hp Hu Hb. unfold pc.
  rewrite (sumZ_ext _ _ _ (fun i => (if (i =? k)%Z then 1 else 0) * P i)).
  - rewrite sumZ_kron by lia. reflexivity.
  - intros i Hi. rewrite (B_left_end U k (Z.to_nat p) u (Z.to_nat p)); [reflexivity|lia|auto|].
    intros j Hj. apply Hb. lia.
Qed.

(** Block of knots equal to u starting at k+1. *)
Lemma block_right (U : Z -> R) k hi u : (k <= hi)%Z -> nondecreasing U (k + 1) hi ->
  (forall j, (k + 1 <= j <= hi)%Z -> u <= U j) ->
  exists s, (0 <= s <= hi - k)%Z /\ (forall j, (k + 1 <= j <= k + s)%Z -> U j = u) /\
            (forall j, (k + s + 1 <= j <= hi)%Z -> u < U j).
Proof.
  intros Hlo M Hle.
  destruct (block_left (fun j => - U (- j)%Z) (- hi) (- (k + 1)) (- u)) as [s [H1 [H2 H3]]].
  - lia.
  - intros i j Hi Hij Hj. assert (U (- j)%Z <= U (- i)%Z) by (apply M; lia). lra.
  - intros j Hj. assert (u <= U (- j)%Z) by (apply Hle; lia). lra.
  - exists s. split; [lia|]. split.
    + intros j Hj. specialize (H2 (- j)%Z ltac:(lia)). replace (- - j)%Z with j in H2 by lia. lra.
    + intros j Hj. specialize (H3 (- j)%Z ltac:(lia)). replace (- - j)%Z with j in H3 by lia. lra.
Qed.

Lemma FindMult_right n p U : wf_knots n p U -> separated U 0 (n + p + 1) (U (n + 1)%Z) ->
  exists s, FindMult (N:=Rn) n (U (n + 1)%Z) p U = s /\ (1 <= s <= p + 1)%Z /\
    (forall j, (n + 1 <= j <= n + s)%Z -> U j = U (n + 1)%Z) /\
    (forall j, (n + s + 1 <= j <= n + p + 1)%Z -> U (n + 1)%Z < U j).
Proof.
  intros W Hs. pose proof (wf_p _ _ _ W). pose proof (wf_n _ _ _ W). pose proof (wf_mono _ _ _ W) as M. pose proof (wf_last _ _ _ W).
  destruct (block_right U n (n + p + 1) (U (n + 1)%Z)) as [s [K1 [K2 K3]]].
  - lia.
  - intros i j Hi Hij Hj. apply M; lia.
  - intros. apply M; lia.
  - exists s. split; [|repeat split; auto; try lia].
    + rewrite (FindMult_block n (U (n + 1)%Z) p U (n + 1) (n + s)); try lia; auto.
      intros j Hj Hout. destruct (Hs j ltac:(lia)) as [E|E]; auto. exfalso.
      destruct Hout as [Hout|Hout].
      * assert (U j <= U n) by (apply M; lia). lra.
      * specialize (K3 j ltac:(lia)). lra.
    + destruct (Z_le_gt_dec 1 s); auto. specialize (K3 (n + 1)%Z ltac:(lia)). lra.
Qed.

Theorem CornerCut_curve n p U P x junk : wf_knots n p U -> (1 <= p)%Z -> in_domain n p U x ->
  separated U 0 (n + p + 1) x ->
  (x < U (n + 1)%Z \/ multiplicity U 0 (n + p + 1) x = 1%Z \/ (p <= multiplicity U 0 (n + p + 1) x)%Z) ->
  CurvePntByCornerCut (N:=Rn) n p U P x junk = curve n p U P x.
Proof.
  intros W Hp D Hsep Hm. pose proof (wf_n _ _ _ W). pose proof (wf_mono _ _ _ W) as M.
  pose proof (wf_first _ _ _ W) as Wf. pose proof (wf_last _ _ _ W) as Wl.
  assert (MID : forall k, active n p U x k -> x < U (k + 1)%Z ->
    (let s := FindMult (N:=Rn) k x p U in
    if (p <=? s)%Z then P (k - p)%Z else CornerCut_loops (N:=Rn) k p (p - s) U x (fill 0 (p - s) (fun i => P (k - p + i)%Z) junk) 0%Z)
     = curve n p U P x).
  { intros k A Hx. rewrite (curve_piece n p U P x k W A). cbv zeta.
    assert (Hk : (p <= k <= n)%Z) by (destruct A; lia).
    pose proof (active_lt _ _ _ _ _ W A) as Hlt. pose proof (active_in _ _ _ _ _ W A) as Hin.
    destruct (FindMult_span n p U x k W Hk ltac:(lra)) as [s [Es [Hs [Hb Hl]]]].
    { intros j Hj. apply Hsep. lia. }
    rewrite Es. lcase p s.
    - symmetry. apply pc_right_end; auto; try lia. intros j Hj. apply Hb. lia.
    - apply CornerCut_pc; auto; try lia. eapply wf_span_ok; eauto. intros i Hi. rewrite fill_in by lia. reflexivity. }
  unfold CurvePntByCornerCut. rn.
  destruct (Rleb x (U p)) eqn:E1; [apply Rleb_true in E1|apply Rleb_false in E1].
  - assert (x = U p) by (destruct D; lra). subst x.
    assert (A : active n p U (U p) p) by (split; [lia|left; lra]).
    specialize (MID p A Wf). replace (p - p)%Z with 0%Z in MID |- * by lia. exact MID.
  - destruct (Rleb (U (n + 1)%Z) x) eqn:E2; [apply Rleb_true in E2|apply Rleb_false in E2].
    + assert (x = U (n + 1)%Z) by (destruct D; lra). subst x.
      assert (A : active n p U (U (n + 1)%Z) n) by (split; [lia|right; auto]).
      rewrite (curve_piece n p U P _ n W A).
      destruct (FindMult_right n p U W Hsep) as [s [Es [Hs [Hb Hl]]]].
      assert (Em : multiplicity U 0 (n + p + 1) (U (n + 1)%Z) = s).
      { rewrite (multiplicity_split U 0 n) by lia. rewrite (multiplicity_split U (n + 1) (n + s)) by lia.
        rewrite multiplicity_none. rewrite multiplicity_all by (auto; lia). rewrite multiplicity_none. lia.
        - intros j Hj. specialize (Hl j ltac:(lia)). lra.
        - intros j Hj. assert (U j <= U n) by (apply M; lia). lra. }
      rewrite Em in Hm. match goal with |- context[FindMult ?a ?b ?c ?d] => replace (FindMult a b c d) with s by (symmetry; exact Es) end.
      lcase p s.
      * symmetry. apply pc_left_end; auto; try lia. intros j Hj. apply Hb. lia.
      * assert (s = 1%Z) by (destruct Hm as [Hm|[Hm|Hm]]; [lra|auto|lia]). subst s.
        assert (H2 : U (n + 1)%Z < U (n + 1 + 1)%Z) by (apply Hl; lia).
        transitivity (pc U (n + 1) p P (U (n + 1)%Z)).
        { apply CornerCut_pc; auto; try lia.
          - split; auto. intros i j Hi Hij Hj. apply M; lia.
          - intros j Hj. f_equal. lia.
          - intros i Hi. rewrite fill_in by lia. reflexivity. }
        -- unfold pc.
           assert (EB : forall i, B U (n + 1) (Z.to_nat p) i (U (n + 1)%Z) = B U n (Z.to_nat p) i (U (n + 1)%Z)).
           { intros i. symmetry. apply B_cont; auto; try lia. intros j Hj. f_equal. lia. }
           rewrite (sumZ_last (n + 1 - p) (n + 1)) by lia. rewrite (sumZ_first (n - p) n) by lia.
           rewrite EB. rewrite (B_zero U n (Z.to_nat p) (n + 1)) by lia.
           rewrite <- (EB (n - p)%Z). rewrite (B_zero U (n + 1) (Z.to_nat p) (n - p)) by lia.
           replace (n + 1 - 1)%Z with n by lia. replace (n - p + 1)%Z with (n + 1 - p)%Z by lia.
           rewrite (sumZ_ext (n + 1 - p) n _ (fun i => B U n (Z.to_nat p) i (U (n + 1)%Z) * P i)).
           lra. intros j Hj. rewrite EB. reflexivity.
    + assert (A : active n p U x (FindSpan n p x U)) by (apply FindSpan_active; auto).
      apply MID; auto. destruct A as [_ [A|[-> A]]]; lra.
Qed.
