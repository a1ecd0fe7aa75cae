(** The variation of a spline is at most that of its coefficients. *)
From Coq Require Import ZArith Reals List Lia Lra Bool.
From Verif Require Import Spec SumZ BPiece BLink BInsert BRep BDer SpecNurbs ProofInsert SpecShape.
Import ListNotations.
Local Open Scope R_scope.

(** Increasing parameters with values of alternating signs. *)
Definition alt_at (k : nat) (g : R -> R) (t : nat -> R) : Prop :=
  (forall j, (j < k)%nat -> t j < t (S j)) /\ (forall j, (j < k)%nat -> g (t j) * g (t (S j)) < 0).

Lemma sign_ne x y z w : x * y < 0 -> 0 < x * z -> 0 < y * w -> z * w < 0.
Proof.
  intros A B C.
  destruct (Rtotal_order x 0) as [N|[N|N]].
  - assert (0 < y) by nra. assert (z < 0) by nra. assert (0 < w) by nra. nra.
  - rewrite N in A. lra.
  - assert (y < 0) by nra. assert (0 < z) by nra. assert (w < 0) by nra. nra.
Qed.
(** A convex combination of two numbers has the sign of one of them. *)
Lemma comb_sign q a x y : q <> 0 -> 0 <= a <= 1 -> q = a * x + (1 - a) * y -> 0 < q * x \/ 0 < q * y.
Proof.
  intros Hq Ha E. destruct (Rlt_dec 0 (q * x)); [left; auto|]. destruct (Rlt_dec 0 (q * y)); [right; auto|]. exfalso.
  assert (0 < q * q) by nra. assert (q * q = a * (q * x) + (1 - a) * (q * y)) by (rewrite E at 2; ring). nra.
Qed.

Section Step.
Variables (n p : Z) (U P : Z -> R) (u : R) (k : Z).
Hypothesis W : wf_knots n p U.
Hypothesis Hk : (p <= k <= n)%Z.
Hypothesis Hu : U k <= u < U (k + 1)%Z.
Let V := insV U k u 1.
Let Q := boehm_pts V (k + 1) p P.
Lemma V_lo i : (i <= k)%Z -> V i = U i.
Proof. intros H. unfold V, insV. destruct (Z.leb_spec i k); auto; lia. Qed.
Lemma V_mid : V (k + 1)%Z = u.
Proof. unfold V, insV. destruct (Z.leb_spec (k + 1) k); [lia|]. destruct (Z.leb_spec (k + 1) (k + 1)); auto; lia. Qed.
Lemma V_hi i : (k + 2 <= i)%Z -> V i = U (i - 1)%Z.
Proof. intros H. unfold V, insV. destruct (Z.leb_spec i k); [lia|]. destruct (Z.leb_spec i (k + 1)); auto; lia. Qed.
Lemma V_mono : nondecreasing V 0 (n + 1 + p + 1).
Proof.
  pose proof (wf_p _ _ _ W). replace (n + 1 + p + 1)%Z with (n + p + 1 + 1)%Z by lia. apply insV_mono; [apply W|lia|lia|lra].
Qed.
Lemma V_wf : U p < u -> wf_knots (n + 1) p V.
Proof.
  intros H. apply insert_wf; auto; try lia; try lra.
  assert (U (k + 1)%Z <= U (n + 1)%Z) by (apply (wf_mono _ _ _ W); pose proof (wf_p _ _ _ W); lia). lra.
Qed.
Lemma V_sub : Sub (n + 1) p V Q n p U P.
Proof.
  pose proof (wf_p _ _ _ W). eapply Sub_trans; [apply (Sub_insert n p V (k + 1) Q P); try lia|].
  - replace (n + p + 2)%Z with (n + 1 + p + 1)%Z by lia. apply V_mono.
  - intros i Hi _. reflexivity.
  - assert (E : forall i, del V (k + 1) i = U i).
    { intros i. unfold del. destruct (Z.ltb_spec i (k + 1)); [apply V_lo; lia|rewrite V_hi by lia; f_equal; lia]. }
    intros k' Hk' Hlt. exists k'. rewrite !E. split; auto. split; [lra|]. split; [lra|]. intros x.
    apply pc_ext_knots; auto.
Qed.
Lemma Q_coef i : (0 <= i <= n + 1)%Z -> exists a, 0 <= a <= 1 /\ Q i = a * P i + (1 - a) * P (i - 1)%Z /\ (i = 0%Z -> a = 1) /\ (i = (n + 1)%Z -> a = 0).
Proof.
  intros Hi. pose proof (wf_p _ _ _ W). unfold Q, boehm_pts. exists (al V (k + 1) (Z.to_nat p) i). split; [|split; [reflexivity|]].
  - unfold al. rewrite Z2Nat.id by lia. destruct (Z.ltb_spec (i + p) (k + 1)); [lra|]. destruct (Z.ltb_spec i (k + 1)); [|lra].
    rewrite V_mid, V_lo by lia. rewrite V_hi by lia. replace (i + p + 1 - 1)%Z with (i + p)%Z by lia.
    assert (U i <= U k) by (apply (wf_mono _ _ _ W); lia). assert (U (k + 1)%Z <= U (i + p)%Z) by (apply (wf_mono _ _ _ W); lia).
    split.
    + apply Rmult_le_pos; [lra|]. left. apply Rinv_0_lt_compat. lra.
    + apply Rmult_le_reg_r with (U (i + p)%Z - U i); [lra|]. unfold Rdiv. rewrite Rmult_assoc, Rinv_l by lra. lra.
  - unfold al. rewrite Z2Nat.id by lia. split; intros ->.
    + destruct (Z.ltb_spec (0 + p) (k + 1)); [auto|lia].
    + destruct (Z.ltb_spec (n + 1 + p) (k + 1)); [lia|]. destruct (Z.ltb_spec (n + 1) (k + 1)); [lia|auto].
Qed.
(** Alternating coefficients after an insertion come from alternating coefficients before. *)
Lemma step_alt m s : chosen m 0 (n + 1) s -> alternate m Q s -> (forall j, (j <= m)%nat -> Q (s j) <> 0) ->
  exists r, chosen m 0 n r /\ forall j, (j <= m)%nat -> 0 < Q (s j) * P (r j).
Proof.
  intros [C1 C2] A NZ.
  assert (Ch : forall j, (j <= m)%nat -> exists i, (i = s j \/ i = s j - 1)%Z /\ (0 <= i <= n)%Z /\ 0 < Q (s j) * P i).
  { intros j Hj. specialize (C1 j Hj). destruct (Q_coef (s j) C1) as (a & Ha & E & E0 & E1).
    destruct (Z.eq_dec (s j) 0) as [Z0|]; [|destruct (Z.eq_dec (s j) (n + 1)) as [Z1|]].
    - exists 0%Z. pose proof (wf_n _ _ _ W). pose proof (wf_p _ _ _ W). split; [lia|]. split; [lia|]. rewrite (E0 Z0), Z0 in E. rewrite Z0. specialize (NZ j Hj). rewrite Z0 in NZ.
      assert (Q 0%Z = P 0%Z) by lra. rewrite H1 in *. nra.
    - exists n. pose proof (wf_n _ _ _ W). pose proof (wf_p _ _ _ W). split; [lia|]. split; [lia|]. rewrite (E1 Z1), Z1 in E. rewrite Z1. specialize (NZ j Hj). rewrite Z1 in NZ.
      replace (n + 1 - 1)%Z with n in E by lia. assert (Q (n + 1)%Z = P n) by lra. rewrite H1 in *. nra.
    - destruct (comb_sign _ _ _ _ (NZ j Hj) Ha E) as [H|H]; [exists (s j)|exists (s j - 1)%Z]; split; auto; split; auto; lia. }
  assert (exists r : nat -> Z, forall j, (j <= m)%nat -> (r j = s j \/ r j = s j - 1)%Z /\ (0 <= r j <= n)%Z /\ 0 < Q (s j) * P (r j)) as [r Hr].
  { clear -Ch. induction m as [|m IH].
    - destruct (Ch O ltac:(lia)) as [i Hi]. exists (fun _ => i). intros j Hj. replace j with O by lia. auto.
    - destruct IH as [r Hr]; [intros; apply Ch; lia|]. destruct (Ch (S m) ltac:(lia)) as [i Hi].
      exists (fun j => if Nat.eq_dec j (S m) then i else r j). intros j Hj. destruct (Nat.eq_dec j (S m)) as [->|]; auto. apply Hr. lia. }
  exists r. split; [split|].
  - intros j Hj. apply Hr; auto.
  - intros j Hj. destruct (Hr j ltac:(lia)) as (H1 & H2 & H3). destruct (Hr (S j) ltac:(lia)) as (K1 & K2 & K3). specialize (C2 j Hj).
    assert (r j <> r (S j)); [|lia]. intros E. rewrite E in H3. specialize (A j Hj).
    pose proof (sign_ne _ _ _ _ A H3 K3). nra.
  - intros j Hj. apply Hr; auto.
Qed.
End Step.

Lemma same_alt m f g (s r : nat -> Z) : alternate m f s -> (forall j, (j <= m)%nat -> 0 < f (s j) * g (r j)) ->
  alternate m g r /\ forall j, (j <= m)%nat -> g (r j) <> 0.
Proof.
  intros A H. split.
  - intros j Hj. eapply sign_ne; [apply (A j Hj)| |]; apply H; lia.
  - intros j Hj E. specialize (H j Hj). rewrite E in H. lra.
Qed.
Lemma sign_trans x y z : 0 < x * y -> 0 < y * z -> 0 < x * z.
Proof.
  intros A B. destruct (Rtotal_order y 0) as [N|[N|N]].
  - assert (x < 0) by nra. assert (z < 0) by nra. nra.
  - rewrite N in A. lra.
  - assert (0 < x) by nra. assert (0 < z) by nra. nra.
Qed.

(** ** Many insertions *)
Definition reach (p n' : Z) (V Q : Z -> R) (n : Z) (U P : Z -> R) : Prop :=
  wf_knots n' p V /\ V p = U p /\ V (n' + 1)%Z = U (n + 1)%Z /\ Sub n' p V Q n p U P /\
  forall m s, chosen m 0 n' s -> alternate m Q s -> (forall j, (j <= m)%nat -> Q (s j) <> 0) ->
    exists r, chosen m 0 n r /\ forall j, (j <= m)%nat -> 0 < Q (s j) * P (r j).
Lemma reach_refl p n U P : wf_knots n p U -> reach p n U P n U P.
Proof.
  intros W. split; auto. split; auto. split; auto. split; [apply Sub_refl|]. intros m s C A N. exists s. split; auto.
  intros j Hj. specialize (N j Hj). nra.
Qed.
Lemma reach_trans p n2 U2 P2 n1 U1 P1 n0 U0 P0 : reach p n2 U2 P2 n1 U1 P1 -> reach p n1 U1 P1 n0 U0 P0 -> reach p n2 U2 P2 n0 U0 P0.
Proof.
  intros (W2 & A2 & B2 & S2 & H2) (W1 & A1 & B1 & S1 & H1). split; auto. split; [congruence|]. split; [congruence|].
  split; [eapply Sub_trans; eauto|]. intros m s C A N. destruct (H2 m s C A N) as (r & Cr & Hr).
  destruct (same_alt m P2 P1 s r A Hr) as [Ar Nr]. destruct (H1 m r Cr Ar Nr) as (q & Cq & Hq). exists q. split; auto.
  intros j Hj. eapply sign_trans; [apply Hr|apply Hq]; auto.
Qed.
Lemma reach_curve p n' V Q n U P x : wf_knots n p U -> reach p n' V Q n U P -> in_domain n p U x -> curve n' p V Q x = curve n p U P x.
Proof.
  intros W (W' & A & B & S & _) D. apply Sub_curve; auto. unfold in_domain in *. rewrite A, B. auto.
Qed.
(** t occurs c times, and is the last knot of its value. *)
Definition full (p : Z) (c : nat) (n : Z) (U : Z -> R) (t : R) : Prop :=
  exists k, (p <= k <= n)%Z /\ U k <= t < U (k + 1)%Z /\ forall i, (k - Z.of_nat c + 1 <= i <= k)%Z -> U i = t.
Lemma full_0 p n U t : wf_knots n p U -> U p < t < U (n + 1)%Z -> full p 0 n U t.
Proof.
  intros W H. destruct (active_exists n p U t W) as [k A]; [split; lra|]. exists k. destruct A as [Hk [A|[_ A]]]; [|lra].
  split; auto. split; [lra|]. intros; lia.
Qed.
Lemma insert_one p c n U P t : wf_knots n p U -> U p < t < U (n + 1)%Z -> full p c n U t ->
  exists n' V Q, reach p n' V Q n U P /\ full p (S c) n' V t /\ forall c' t', full p c' n U t' -> full p c' n' V t'.
Proof.
  intros W Ht (k & Hk & Hu & F). pose proof (wf_p _ _ _ W) as Hp. pose proof (wf_mono _ _ _ W) as M.
  pose proof (V_lo U t k) as L. pose proof (V_mid U t k) as Mi. pose proof (V_hi U t k) as Hh.
  exists (n + 1)%Z, (insV U k t 1), (boehm_pts (insV U k t 1) (k + 1) p P). split; [|split].
  - split; [apply V_wf; auto; lra|]. split; [apply L; lia|]. split; [rewrite Hh by lia; f_equal; lia|]. split; [apply V_sub; auto|].
    intros m s C A N. apply step_alt; auto.
  - exists (k + 1)%Z. split; [lia|]. rewrite Mi, Hh by lia. replace (k + 1 + 1 - 1)%Z with (k + 1)%Z by lia. split; [lra|].
    intros i Hi. destruct (Z.eq_dec i (k + 1)) as [->|]; [apply Mi|]. rewrite L by lia. apply F. lia.
  - intros c' t' (k' & Hk' & Hu' & F'). destruct (Rlt_le_dec t t') as [Hlt|Hle].
    + assert (Hkk : (k <= k')%Z). { destruct (Z_le_gt_dec k k'); auto. assert (U (k' + 1)%Z <= U k) by (apply M; lia). lra. }
      exists (k' + 1)%Z. split; [lia|]. rewrite (Hh (k' + 1 + 1)%Z) by lia. replace (k' + 1 + 1 - 1)%Z with (k' + 1)%Z by lia. split.
      * destruct (Z.eq_dec k k') as [<-|]; [rewrite Mi; lra|]. rewrite Hh by lia. replace (k' + 1 - 1)%Z with k' by lia. lra.
      * intros i Hi. destruct (Z_le_gt_dec (k + 2) i); [rewrite Hh by lia; apply F'; lia|]. exfalso.
        assert (U (i - 1)%Z = t') by (apply F'; lia). destruct (Z_le_gt_dec 0 (i - 1)).
        { assert (U (i - 1)%Z <= U k) by (apply M; lia). lra. }
        assert (U 0%Z = t') by (apply F'; lia). assert (U 0%Z <= U p) by (apply M; lia). lra.
    + destruct (Req_dec t t') as [<-|Hne].
      * assert (E : k = k'). { destruct (Z.lt_trichotomy k k') as [K|[K|K]]; auto; exfalso.
          - assert (U (k + 1)%Z <= U k') by (apply M; lia). lra.
          - assert (U (k' + 1)%Z <= U k) by (apply M; lia). lra. }
        subst k'. exists (k + 1)%Z. split; [lia|]. rewrite Mi, Hh by lia. replace (k + 1 + 1 - 1)%Z with (k + 1)%Z by lia. split; [lra|].
        intros i Hi. destruct (Z.eq_dec i (k + 1)) as [->|]; [apply Mi|]. rewrite L by lia. apply F'. lia.
      * assert (Hkk : (k' <= k)%Z). { destruct (Z_le_gt_dec k' k); auto. assert (U (k + 1)%Z <= U k') by (apply M; lia). lra. }
        exists k'. split; [lia|]. split; [|intros i Hi; rewrite L by lia; apply F'; lia]. rewrite L by lia. split; [lra|].
        destruct (Z.eq_dec k' k) as [->|]; [rewrite Mi; lra|]. rewrite L by lia. lra.
Qed.
Lemma insert_many p c n U P t : wf_knots n p U -> U p < t < U (n + 1)%Z ->
  exists n' V Q, reach p n' V Q n U P /\ full p c n' V t /\ forall c' t', full p c' n U t' -> full p c' n' V t'.
Proof.
  intros W Ht. induction c as [|c IH].
  - exists n, U, P. split; [apply reach_refl; auto|]. split; auto. apply full_0; auto.
  - destruct IH as (n1 & V1 & Q1 & R1 & F1 & K1). destruct R1 as (W1 & A1 & B1 & R1).
    destruct (insert_one p c n1 V1 Q1 t W1 ltac:(lra) F1) as (n2 & V2 & Q2 & R2 & F2 & K2).
    exists n2, V2, Q2. split; [eapply reach_trans; [exact R2|split; auto]|]. split; auto.
Qed.
Lemma insert_all p c n U P (t : nat -> R) m : wf_knots n p U -> (forall j, (j <= m)%nat -> U p < t j < U (n + 1)%Z) ->
  exists n' V Q, reach p n' V Q n U P /\ forall j, (j <= m)%nat -> full p c n' V (t j).
Proof.
  intros W Ht. induction m as [|m IH].
  - destruct (insert_many p c n U P (t O) W (Ht O ltac:(lia))) as (n1 & V1 & Q1 & R1 & F1 & _). exists n1, V1, Q1. split; auto.
    intros j Hj. replace j with O by lia. auto.
  - destruct IH as (n1 & V1 & Q1 & R1 & F1); [intros; apply Ht; lia|]. destruct R1 as (W1 & A1 & B1 & R1).
    destruct (insert_many p c n1 V1 Q1 (t (S m)) W1) as (n2 & V2 & Q2 & R2 & F2 & K2); [rewrite A1, B1; apply Ht; lia|].
    exists n2, V2, Q2. split; [eapply reach_trans; [exact R2|split; auto]|].
    intros j Hj. destruct (Nat.eq_dec j (S m)) as [->|]; auto. apply K2, F1. lia.
Qed.
Lemma full_value p n U P t k : wf_knots n p U -> (p <= k <= n)%Z -> U k <= t < U (k + 1)%Z ->
  (forall i, (k - p + 1 <= i <= k)%Z -> U i = t) -> curve n p U P t = P (k - p)%Z.
Proof.
  intros W Hk Hu F. pose proof (wf_p _ _ _ W) as Hp. rewrite (curve_piece n p U P t k W) by (split; [auto|left; lra]). unfold pc.
  rewrite (sumZ_ext _ _ _ (fun i => if (i =? k - p)%Z then P i else 0)).
  - assert (E : sumZ (k - p) (k - p) (fun i => if (i =? k - p)%Z then P i else 0) = P (k - p)%Z).
    { unfold sumZ. replace (k - p + 1 - (k - p))%Z with 1%Z by lia. simpl. rewrite Z.eqb_refl. lra. }
    rewrite <- E. apply sumZ_restrict; try lia. intros j Hj HH. destruct (Z.eqb_spec j (k - p)); auto. lia.
  - intros i Hi. rewrite (B_right_end U k (Z.to_nat p) t (Z.to_nat p)); auto; [|lra|intros j Hj; apply F; lia].
    rewrite Z2Nat.id by lia. destruct (i =? k - p)%Z; lra.
Qed.

(** The coefficients follow the signs of the spline at interior parameters. *)
Lemma vd_inside p n U P m t : wf_knots n p U -> (1 <= p)%Z -> (forall j, (j <= m)%nat -> U p < t j < U (n + 1)%Z) ->
  alt_at m (curve n p U P) t -> (forall j, (j <= m)%nat -> curve n p U P (t j) <> 0) ->
  exists r, chosen m 0 n r /\ forall j, (j <= m)%nat -> 0 < curve n p U P (t j) * P (r j).
Proof.
  intros W Hp Ht [A1 A2] NZ. destruct (insert_all p (Z.to_nat p) n U P t m W Ht) as (n' & V & Q & R & F).
  pose proof R as (W' & EA & EB & _ & HR). pose proof (wf_mono _ _ _ W') as M.
  assert (exists s : nat -> Z, forall j, (j <= m)%nat -> (p <= s j <= n')%Z /\ V (s j) = t j /\ curve n p U P (t j) = Q (s j - p)%Z) as [s Hs].
  { assert (Ch : forall j, (j <= m)%nat -> exists k, (p <= k <= n')%Z /\ V k = t j /\ curve n p U P (t j) = Q (k - p)%Z).
    { intros j Hj. destruct (F j Hj) as (k & Hk & Hu & Fk). rewrite Z2Nat.id in Fk by lia. exists k. split; auto. split; [apply Fk; lia|].
      rewrite <- (full_value p n' V Q (t j) k); auto. symmetry. apply reach_curve; auto. specialize (Ht j Hj). split; lra. }
    clear -Ch. induction m as [|m IH].
    - destruct (Ch O ltac:(lia)) as [i Hi]. exists (fun _ => i). intros j Hj. replace j with O by lia. auto.
    - destruct IH as [r Hr]; [intros; apply Ch; lia|]. destruct (Ch (S m) ltac:(lia)) as [i Hi].
      exists (fun j => if Nat.eq_dec j (S m) then i else r j). intros j Hj. destruct (Nat.eq_dec j (S m)) as [->|]; auto. apply Hr. lia. }
  destruct (HR m (fun j => (s j - p)%Z)) as (r & Cr & Hr).
  - split; [intros j Hj; destruct (Hs j Hj); lia|]. intros j Hj. destruct (Hs j ltac:(lia)) as (H1 & H2 & _). destruct (Hs (S j) ltac:(lia)) as (K1 & K2 & _).
    destruct (Z_lt_le_dec (s j) (s (S j))); [lia|]. assert (V (s (S j)) <= V (s j)) by (apply M; lia). specialize (A1 j Hj). lra.
  - intros j Hj. cbv beta. destruct (Hs j ltac:(lia)) as (_ & _ & <-). destruct (Hs (S j) ltac:(lia)) as (_ & _ & <-). apply A2; auto.
  - intros j Hj. destruct (Hs j Hj) as (_ & _ & <-). auto.
  - exists r. split; auto. intros j Hj. destruct (Hs j Hj) as (_ & _ & ->). apply Hr; auto.
Qed.
