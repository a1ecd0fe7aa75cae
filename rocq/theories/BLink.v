(** Link between the Cox-de Boor recursion of Spec.v and the pieces of BPiece.v;
    continuity at knots. *)
From Coq Require Import ZArith Reals Lia Lra.
From Verif Require Import Spec SumZ BPiece.
Local Open Scope R_scope.

(** Span [k] is the one in which [u] is evaluated: half-open spans, last one closed. *)
Definition active (n p : Z) (U : Z -> R) (u : R) (k : Z) : Prop :=
  (p <= k <= n)%Z /\ ((U k <= u < U (k + 1)%Z) \/ (k = n /\ u = U (n + 1)%Z)).

Lemma ratio_div a b : ratio a b = a / b.
Proof.
  unfold ratio. destruct (Req_EM_T b 0); auto. subst. unfold Rdiv. rewrite Rinv_0. lra.
Qed.

Lemma wf_span_ok n p U k : wf_knots n p U -> (p <= k <= n)%Z -> U k < U (k + 1)%Z ->
  span_ok U k (Z.to_nat p).
Proof.
  intros W Hk Hlt. split; auto. intros i j Hi Hij Hj. apply (wf_mono _ _ _ W); lia.
Qed.

Lemma active_lt n p U u k : wf_knots n p U -> active n p U u k -> U k < U (k + 1)%Z.
Proof.
  intros W [Hk [H|[-> _]]]; [lra|]. apply (wf_last _ _ _ W).
Qed.

Lemma active_in n p U u k : wf_knots n p U -> active n p U u k -> U k <= u <= U (k + 1)%Z.
Proof.
  intros W [Hk [H|[-> ->]]]; [lra|]. pose proof (wf_last _ _ _ W). lra.
Qed.

Lemma active_domain n p U u k : wf_knots n p U -> active n p U u k -> in_domain n p U u.
Proof.
  intros W A. pose proof (active_in _ _ _ _ _ W A). destruct A as [Hk _].
  pose proof (wf_mono _ _ _ W) as M. pose proof (wf_p _ _ _ W).
  assert (U p <= U k) by (apply M; lia). assert (U (k+1)%Z <= U (n+1)%Z) by (apply M; lia).
  unfold in_domain. lra.
Qed.

Lemma indicator_active n p U u k i : wf_knots n p U -> active n p U u k ->
  (0 <= i <= n + p)%Z -> indicator n U i u = if (i =? k)%Z then 1 else 0.
Proof.
  intros W A Hi. unfold indicator.
  pose proof (wf_mono _ _ _ W) as M. pose proof (wf_p _ _ _ W). pose proof (wf_last _ _ _ W).
  destruct A as [Hk [Hu|[-> ->]]].
  - destruct (Req_EM_T u (U (n + 1)%Z)) as [E|E].
    + exfalso. assert (U (k + 1)%Z <= U (n + 1)%Z) by (apply M; lia). lra.
    + destruct (Z.eqb_spec i k) as [->|Hne].
      * destruct (Rle_dec (U k) u); [|lra]. destruct (Rlt_dec u (U (k+1)%Z)); lra.
      * destruct (Rle_dec (U i) u); auto. destruct (Rlt_dec u (U (i+1)%Z)); auto. exfalso.
        destruct (Z_lt_le_dec i k).
        -- assert (U (i + 1)%Z <= U k) by (apply M; lia). lra.
        -- assert (U (k + 1)%Z <= U i) by (apply M; lia). lra.
  - destruct (Req_EM_T (U (n + 1)%Z) (U (n + 1)%Z)); [|congruence].
    destruct (Z.eq_dec i n), (Z.eqb_spec i n); auto; lia.
Qed.

Lemma Nbasis_piece n p U u k : wf_knots n p U -> active n p U u k ->
  forall q i, (0 <= i)%Z -> (i + Z.of_nat q <= n + p)%Z -> Nbasis n U q i u = B U k q i u.
Proof.
  intros W A. induction q; intros.
  - simpl. eapply indicator_active; eauto. lia.
  - simpl Nbasis. rewrite !ratio_div. rewrite !IHq by lia. reflexivity.
Qed.

Lemma Nb_piece n p U u k i : wf_knots n p U -> active n p U u k -> (0 <= i <= n)%Z ->
  Nb n p U i u = B U k (Z.to_nat p) i u.
Proof. 
  intros W A Hi. pose proof (wf_p _ _ _ W). unfold Nb. eapply Nbasis_piece; eauto; lia.
Qed.

(** Value of the curve through the piece of span [k]. *)
Definition pc (U : Z -> R) (k p : Z) (P : Z -> R) (u : R) : R :=
  sumZ (k - p) k (fun i => B U k (Z.to_nat p) i u * P i).

Lemma curve_piece n p U P u k : wf_knots n p U -> active n p U u k ->
  curve n p U P u = pc U k p P u.
Proof.
  intros W A. pose proof (wf_p _ _ _ W). destruct A as [Hk A'] eqn:EA.
  unfold curve, pc. rewrite (sumZ_restrict 0 n (k - p) k).
  - apply sumZ_ext. intros. f_equal. eapply Nb_piece; eauto. lia.
  - lia.
  - lia.
  - lia.
  - intros. rewrite (Nb_piece n p U u k); auto. rewrite B_zero by lia. lra.
Qed.

(** ** Values at a multiple knot *)

(** Left piece at the right end of the span: u = U(k+1) = ... = U(k+s). *)
Lemma B_left_end U k s u q : (q <= s)%nat -> U k < u ->
  (forall j, (k + 1 <= j <= k + Z.of_nat s)%Z -> U j = u) ->
  forall i, B U k q i u = if (i =? k)%Z then 1 else 0.
Proof.
  induction q; intros Hq Hlt Hs i.
  - reflexivity.
  - rewrite B_S. rewrite !IHq by (auto; lia).
    destruct (Z.eqb_spec i k) as [->|Hne].
    + destruct (Z.eqb_spec (k + 1) k); [lia|]. rewrite (Hs (k + Z.of_nat q + 1)%Z) by lia. rewrite Rmult_0_r. field. lra.
    + destruct (Z.eqb_spec (i + 1) k) as [E|].
      * rewrite (Hs (i + Z.of_nat q + 2)%Z) by lia. unfold Rdiv. lra.
      * lra.
Qed.

(** Right piece at the left end of the span: u = U(k-s+1) = ... = U(k). *)
Lemma B_right_end U k s u q : (q <= s)%nat -> u < U (k + 1)%Z ->
  (forall j, (k - Z.of_nat s + 1 <= j <= k)%Z -> U j = u) ->
  forall i, B U k q i u = if (i =? k - Z.of_nat q)%Z then 1 else 0.
Proof.
  induction q; intros Hq Hlt Hs i.
  - simpl. replace (k - 0)%Z with k by lia. reflexivity.
  - rewrite B_S. rewrite !IHq by (auto; lia).
    destruct (Z.eqb_spec i (k - Z.of_nat q)) as [->|Hne].
    + rewrite (Hs (k - Z.of_nat q)%Z) by lia.
      destruct (Z.eqb_spec (k - Z.of_nat q + 1) (k - Z.of_nat q)); [lia|].
      destruct (Z.eqb_spec (k - Z.of_nat q) (k - Z.of_nat (S q))); [lia|]. unfold Rdiv; lra.
    + destruct (Z.eqb_spec (i + 1) (k - Z.of_nat q)) as [E|].
      * destruct (Z.eqb_spec i (k - Z.of_nat (S q))); [|lia].
        rewrite (Hs (i + 1)%Z) by lia.
        replace (i + Z.of_nat q + 2)%Z with (k + 1)%Z by lia. rewrite Rmult_0_r. field. lra.
      * destruct (Z.eqb_spec i (k - Z.of_nat (S q))); [lia|]. lra.
Qed.

(** Continuity: adjacent nonempty spans k and k' agree at their common knot of
    multiplicity k'-k, for degrees at least that multiplicity. *)
Lemma B_cont U k k' u q : (k < k')%Z -> (k' - k <= Z.of_nat q)%Z ->
  U k < u -> u < U (k' + 1)%Z -> (forall j, (k + 1 <= j <= k')%Z -> U j = u) ->
  forall i, B U k q i u = B U k' q i u.
Proof.
  intros Hkk Hq H1 H2 Hs.
  assert (exists s d, (s = Z.to_nat (k' - k))%nat /\ q = (s + d)%nat) as [s [d [Es ->]]].
  { exists (Z.to_nat (k' - k)), (q - Z.to_nat (k' - k))%nat. lia. }
  clear Hq. induction d; intros i.
  - replace (s + 0)%nat with s by lia.
    rewrite (B_left_end U k s u) by (auto; intros; apply Hs; lia).
    rewrite (B_right_end U k' s u) by (auto; intros; apply Hs; lia).
    replace (k' - Z.of_nat s)%Z with k by lia. reflexivity.
  - replace (s + S d)%nat with (S (s + d)) by lia. rewrite !B_S. rewrite !IHd. reflexivity.
Qed.

(** Interior knots have multiplicity at most p. *)
Definition mult_le (n p : Z) (U : Z -> R) : Prop :=
  forall i, (p + 1 <= i <= n)%Z -> U i < U (i + p)%Z.

(** Next nonempty span to the right. *)
Lemma next_span n p U k : wf_knots n p U -> (p <= k < n)%Z ->
  exists k', (k < k' <= n)%Z /\ U k' < U (k' + 1)%Z /\
             (forall j, (k + 1 <= j <= k')%Z -> U j = U (k + 1)%Z).
Proof.
  intros W Hk.
  assert (forall d, (Z.of_nat d <= n - (k + 1))%Z ->
     (exists k', (k < k' <= n)%Z /\ U k' < U (k' + 1)%Z /\ (forall j, (k + 1 <= j <= k')%Z -> U j = U (k + 1)%Z))
     \/ (forall j, (k + 1 <= j <= k + 1 + Z.of_nat d)%Z -> U j = U (k + 1)%Z)) as A.
  { induction d; intros Hd.
    - right. intros. f_equal. lia.
    - destruct IHd as [L|IH]; [lia|left; exact L|].
      pose proof (wf_mono _ _ _ W) as M. pose proof (wf_p _ _ _ W).
      destruct (Rlt_dec (U (k + 1 + Z.of_nat d)%Z) (U (k + 1 + Z.of_nat d + 1)%Z)) as [L|L].
      + left. exists (k + 1 + Z.of_nat d)%Z. repeat split; try lia; auto.
      + right. intros j Hj. destruct (Z.eq_dec j (k + 1 + Z.of_nat (S d))) as [->|].
        * rewrite <- (IH (k + 1 + Z.of_nat d)%Z) by lia.
          replace (k + 1 + Z.of_nat (S d))%Z with (k + 1 + Z.of_nat d + 1)%Z by lia.
          assert (U (k + 1 + Z.of_nat d)%Z <= U (k + 1 + Z.of_nat d + 1)%Z) by (apply M; lia). lra.
        * apply IH. lia. }
  destruct (A (Z.to_nat (n - (k + 1)))) as [L|R]; [lia|exact L|].
  exists n. repeat split; try lia.
  - apply (wf_last _ _ _ W).
  - intros. apply R. lia.
Qed.

Lemma pc_cont n p U P k k' u : wf_knots n p U -> (1 <= p)%Z -> (p <= k)%Z -> (k < k' <= n)%Z ->
  (k' - k <= p)%Z -> U k < u -> u < U (k' + 1)%Z -> (forall j, (k + 1 <= j <= k')%Z -> U j = u) ->
  pc U k p P u = pc U k' p P u.
Proof.
  intros W Hp Hk Hk' Hd H1 H2 Hs. unfold pc.
  assert (E : forall i, B U k (Z.to_nat p) i u = B U k' (Z.to_nat p) i u).
  { apply B_cont; auto; lia. }
  rewrite (sumZ_restrict (k - p) k (k' - p) k); [ | lia | lia | lia | ].
  - symmetry. rewrite (sumZ_restrict (k' - p) k' (k' - p) k); [ | lia | lia | lia | ].
    + apply sumZ_ext. intros. rewrite E. reflexivity.
    + intros. rewrite <- E. rewrite B_zero by lia. lra.
  - intros. rewrite E. rewrite B_zero by lia. lra.
Qed.

(** With interior multiplicities at most p, the closed span may be used. *)
Lemma curve_closed n p U P u k : wf_knots n p U -> (1 <= p)%Z -> mult_le n p U ->
  (p <= k <= n)%Z -> U k < U (k + 1)%Z -> U k <= u <= U (k + 1)%Z ->
  curve n p U P u = pc U k p P u.
Proof.
  intros W Hp Hm Hk Hlt Hu.
  destruct (Rlt_dec u (U (k + 1)%Z)) as [L|L].
  - apply curve_piece; auto. split; auto. left; lra.
  - assert (u = U (k + 1)%Z) as -> by lra.
    destruct (Z.eq_dec k n) as [->|Hne].
    + apply curve_piece; auto. split; auto.
    + destruct (next_span n p U k W) as [k' [H1 [H2 H3]]]; [lia|].
      assert (k' - k <= p)%Z.
      { destruct (Z_le_gt_dec (k' - k) p); auto. exfalso.
        pose proof (Hm (k + 1)%Z ltac:(lia)). rewrite (H3 (k + 1 + p)%Z) in H by lia. lra. }
      rewrite (curve_piece n p U P _ k');
        [ | exact W | split; [lia|left; rewrite <- (H3 k') by lia; lra] ].
      apply eq_sym, (pc_cont n p U P k k'); auto; try lia.
      rewrite <- (H3 k') by lia. auto.
Qed.

Lemma active_exists n p U u : wf_knots n p U -> in_domain n p U u -> exists k, active n p U u k.
Proof.
  intros W [H1 H2]. pose proof (wf_p _ _ _ W). pose proof (wf_n _ _ _ W).
  destruct (Req_dec u (U (n + 1)%Z)) as [->|Hne].
  - exists n. split; [lia|right; auto].
  - assert (forall d, (Z.of_nat d <= n + 1 - p)%Z -> U (n + 1 - Z.of_nat d)%Z <= u ->
       exists k, (p <= k <= n)%Z /\ U k <= u < U (k + 1)%Z) as A.
    { induction d; intros Hd Hu.
      - replace (n + 1 - Z.of_nat 0)%Z with (n + 1)%Z in Hu by lia. lra.
      - destruct (Rle_dec (U (n + 1 - Z.of_nat d)%Z) u) as [L|L].
        + apply IHd; auto. lia.
        + exists (n + 1 - Z.of_nat (S d))%Z. repeat split; try lia; auto.
          replace (n + 1 - Z.of_nat (S d) + 1)%Z with (n + 1 - Z.of_nat d)%Z by lia. lra. }
    destruct (A (Z.to_nat (n + 1 - p))) as [k [Hk1 Hk2]]; [lia| |].
    + replace (n + 1 - Z.of_nat (Z.to_nat (n + 1 - p)))%Z with p by lia. auto.
    + exists k. split; auto.
Qed.

Lemma active_unique n p U u k k' : wf_knots n p U -> active n p U u k -> active n p U u k' -> k = k'.
Proof.
  intros W A A'. pose proof (wf_mono _ _ _ W) as M. pose proof (wf_p _ _ _ W).
  pose proof (active_lt _ _ _ _ _ W A). pose proof (active_lt _ _ _ _ _ W A').
  destruct A as [Hk [Hu|[-> E]]], A' as [Hk' [Hu'|[-> E']]]; auto.
  - destruct (Z.lt_trichotomy k k') as [L|[L|L]]; auto.
    + assert (U (k + 1)%Z <= U k') by (apply M; lia). lra.
    + assert (U (k' + 1)%Z <= U k) by (apply M; lia). lra.
  - exfalso. assert (U (k + 1)%Z <= U (n + 1)%Z) by (apply M; lia). lra.
  - exfalso. assert (U (k' + 1)%Z <= U (n + 1)%Z) by (apply M; lia). lra.
Qed.
