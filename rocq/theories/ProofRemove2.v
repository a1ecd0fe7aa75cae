(** What RemoveKnot does to any curve: every round moves it by at most the tolerance. *)
From Coq Require Import ZArith Reals List Lia Lra Bool FunctionalExtensionality.
From Verif Require Import Num Loop ModelBspline ModelBSp Spec SumZ BPiece BLink BInsert BRep ProofSpan ProofEval ProofInsert ProofRemove.
Local Open Scope R_scope.
Local Arguments Z.add : simpl never.
Local Arguments Z.sub : simpl never.
Local Arguments Z.mul : simpl never.

Lemma Rabs_le_inv (a b : R) : Rabs a <= b -> - b <= a <= b.
Proof. unfold Rabs. destruct (Rcase_abs a); lra. Qed.

Lemma pc_close U k p P Q x e : span_ok U k (Z.to_nat p) -> (0 <= p)%Z -> U k <= x <= U (k + 1)%Z ->
  (forall i, (k - p <= i <= k)%Z -> Rabs (P i - Q i) <= e) -> Rabs (pc U k p P x - pc U k p Q x) <= e.
Proof.
  intros Hok Hp Hx H. unfold pc. rewrite <- sumZ_minus.
  pose proof (B_sum_one U k (Z.to_nat p) x Hok) as E1. rewrite Z2Nat.id in E1 by auto.
  assert (Hb : forall i, 0 <= B U k (Z.to_nat p) i x) by (intros i; apply B_nonneg; auto).
  apply Rabs_le. split.
  - apply Rle_trans with (sumZ (k - p) k (fun i => (- e) * B U k (Z.to_nat p) i x)).
    + rewrite sumZ_scal, E1. lra.
    + apply sumZ_le. intros j Hj. specialize (H j Hj). apply Rabs_le_inv in H. specialize (Hb j). nra.
  - apply Rle_trans with (sumZ (k - p) k (fun i => e * B U k (Z.to_nat p) i x)).
    + apply sumZ_le. intros j Hj. specialize (H j Hj). apply Rabs_le_inv in H. specialize (Hb j). nra.
    + rewrite sumZ_scal, E1. lra.
Qed.

Lemma curve_close n p U P Q x e : wf_knots n p U -> in_domain n p U x ->
  (forall i, (0 <= i <= n)%Z -> Rabs (P i - Q i) <= e) -> Rabs (curve n p U P x - curve n p U Q x) <= e.
Proof.
  intros W D H. destruct (active_exists _ _ _ _ W D) as [k A]. rewrite !(curve_piece _ _ _ _ _ _ W A).
  pose proof (active_lt _ _ _ _ _ W A) as Hlt. pose proof (active_in _ _ _ _ _ W A) as Hin. pose proof (wf_p _ _ _ W).
  assert (Hk : (p <= k <= n)%Z) by (destruct A; lia).
  apply pc_close; auto.
  - apply (wf_span_ok n p U k); auto.
  - intros i Hi. apply H. lia.
Qed.

Lemma Distance_le_inv d (A B : Z -> R) TOL : Distance_le (N:=Rn) d A B TOL = true ->
  0 <= TOL /\ forall c, (1 <= c <= d)%Z -> Rabs (A c - B c) <= TOL.
Proof.
  unfold Distance_le. intros E. apply andb_true_iff in E. destruct E as [E1 E2]. apply Rleb_true in E1. apply Rleb_true in E2.
  split; [exact E1|]. intros c Hc.
  assert (G : (A c - B c) * (A c - B c) <= Distance2 (N:=Rn) d A B).
  { unfold Distance2. floop (fun i (s : R) => 0 <= s /\ ((c < i)%Z -> (A c - B c) * (A c - B c) <= s)).
    - split; [apply Rle_refl|intros; lia].
    - intros i s Hi [H1 H2]. rn. assert (H0 : 0 <= (A i - B i) * (A i - B i)) by apply (Rle_0_sqr (A i - B i)). split; [lra|]. intros Hci.
      destruct (Z.eq_dec c i) as [->|]; [lra|]. specialize (H2 ltac:(lia)). lra.
    - intros s [_ H]. apply H. lia. }
  cbn in E1, E2. change (T Rn) with R in *.
  assert (G2 : (A c - B c) * (A c - B c) <= TOL * TOL) by (eapply Rle_trans; [exact G|exact E2]).
  clear - E1 G2. assert (0 <= TOL) by exact E1. apply Rabs_le. split; nra.
Qed.

Section Gen.
Variables (n p : Z) (U : Z -> R) (u : R) (K S : Z).
Hypothesis W : wf_knots n p U.
Hypothesis Hp : (1 <= p)%Z.
Hypothesis HK : (p <= K <= n)%Z.
Hypothesis HS : (0 <= S <= p + 1)%Z.
Hypothesis HKS : (p <= K - S)%Z.
Hypothesis Hu : U K <= u < U (K + 1)%Z.
Hypothesis Hblock : forall i, (K - S + 1 <= i <= K)%Z -> U i = u.
Hypothesis Hless : forall i, (0 <= i <= K - S)%Z -> U i < u.
Let m := (K - S + 1)%Z.

(** Knots after t removals. *)
Definition Vt (t i : Z) : R := if (i <=? K - t)%Z then U i else U (i + t)%Z.
Definition co_ (t i : Z) : R := (u - U i) / (U (i + (p + 1) + t)%Z - U i).
(** Closing the gap of t entries at g. *)
Definition QG (g t : Z) (A : Z -> Z -> R) (i c : Z) : R := if (i <? g)%Z then A i c else A (i + t)%Z c.

Lemma Vt_del t : (0 <= t < S)%Z -> del (Vt t) m = Vt (t + 1).
Proof.
  intros Ht. apply functional_extensionality. intros i. unfold del, Vt, m. zcase i (K - S + 1)%Z.
  - lcase i (K - t)%Z. lcase i (K - (t + 1))%Z. reflexivity.
  - lcase (i + 1)%Z (K - t)%Z; lcase i (K - (t + 1))%Z.
    + rewrite !Hblock by lia. reflexivity.
    + f_equal. lia.
Qed.
Lemma Vt_wf t : (0 <= t <= S)%Z -> wf_knots (n - t) p (Vt t).
Proof.
  intros Ht. destruct W as [w1 w2 w3 w4 w5]. constructor; try lia.
  - intros a b Ha Hab Hb. unfold Vt. lcase a (K - t)%Z; lcase b (K - t)%Z; apply w3; lia.
  - unfold Vt. lcase p (K - t)%Z. lcase (p + 1)%Z (K - t)%Z; auto.
    assert (U (p + 1 + t)%Z >= U (K + 1)%Z) by (apply Rle_ge, w3; lia). assert (U p < u) by (apply Hless; lia). lra.
  - unfold Vt. lcase (n - t + 1)%Z (K - t)%Z. replace (n - t + 1 + t)%Z with (n + 1)%Z by lia. lcase (n - t)%Z (K - t)%Z.
    + assert (U (n - t)%Z <= U K) by (apply w3; lia). assert (U (K + 1)%Z <= U (n + 1)%Z) by (apply w3; lia). lra.
    + replace (n - t + t)%Z with n by lia. auto.
Qed.
Lemma Vt_lo t : (0 <= t <= S)%Z -> Vt t p = U p.
Proof. intros. unfold Vt. lcase p (K - t)%Z. reflexivity. Qed.
Lemma Vt_hi t : (0 <= t <= S)%Z -> Vt t (n - t + 1)%Z = U (n + 1)%Z.
Proof. intros. unfold Vt. lcase (n - t + 1)%Z (K - t)%Z. f_equal. lia. Qed.
Lemma Vt_dom t x : (0 <= t <= S)%Z -> in_domain n p U x -> in_domain (n - t) p (Vt t) x.
Proof. intros Ht D. unfold in_domain. rewrite Vt_lo, Vt_hi by auto. auto. Qed.

Lemma step_curve t Q x : (0 <= t < S)%Z -> in_domain n p U x ->
  curve (n - t) p (Vt t) (boehm_pts (Vt t) m p Q) x = curve (n - (t + 1)) p (Vt (t + 1)) Q x.
Proof.
  intros Ht D. apply Sub_curve.
  - apply Vt_wf. lia.
  - apply Vt_wf. lia.
  - rewrite <- Vt_del by auto. replace (n - t)%Z with (n - (t + 1) + 1)%Z by lia. apply Sub_insert; auto; try (unfold m; lia).
    replace (n - (t + 1) + p + 2)%Z with (n - t + p + 1)%Z by lia. apply (wf_mono _ _ _ (Vt_wf t ltac:(lia))).
  - left. rewrite !Vt_hi by lia. reflexivity.
  - apply Vt_dom; auto; lia.
Qed.

Lemma co_range t i : (0 <= t < S)%Z -> (K - p - t <= i <= K - S)%Z -> 0 < co_ t i < 1.
Proof.
  intros Ht Hi. unfold co_. assert (U i < u) by (apply Hless; lia).
  assert (U (K + 1)%Z <= U (i + (p + 1) + t)%Z) by (apply (wf_mono _ _ _ W); lia).
  assert (D : 0 < U (i + (p + 1) + t)%Z - U i) by lra. split.
  - apply Rdiv_lt_0_compat; lra.
  - apply (Rmult_lt_reg_r (U (i + (p + 1) + t)%Z - U i)); auto. unfold Rdiv. rewrite Rmult_assoc, Rinv_l by lra. lra.
Qed.
Lemma bo_low t Q i : (0 <= t < S)%Z -> (0 <= i < K - p - t)%Z -> boehm_pts (Vt t) m p Q i = Q i.
Proof.
  intros Ht Hi. unfold boehm_pts, al. replace (Z.of_nat (Z.to_nat p)) with p by lia. unfold m.
  zcase (i + p)%Z (K - S + 1)%Z; [lra|]. zcase i (K - S + 1)%Z.
  unfold Vt. lcase (K - S + 1)%Z (K - t)%Z. lcase i (K - t)%Z. lcase (i + p + 1)%Z (K - t)%Z.
  rewrite (Hblock (K - S + 1)%Z), (Hblock (i + p + 1)%Z) by lia. assert (U i < u) by (apply Hless; lia).
  replace ((u - U i) / (u - U i)) with 1 by (field; lra). lra.
Qed.
Lemma bo_mid t Q i : (0 <= t < S)%Z -> (K - p - t <= i <= K - S)%Z ->
  boehm_pts (Vt t) m p Q i = co_ t i * Q i + (1 - co_ t i) * Q (i - 1)%Z.
Proof.
  intros Ht Hi. unfold boehm_pts, al. replace (Z.of_nat (Z.to_nat p)) with p by lia. unfold m.
  zcase (i + p)%Z (K - S + 1)%Z. zcase i (K - S + 1)%Z.
  unfold Vt. lcase (K - S + 1)%Z (K - t)%Z. lcase i (K - t)%Z. lcase (i + p + 1)%Z (K - t)%Z.
  rewrite (Hblock (K - S + 1)%Z) by lia. unfold co_. replace (i + p + 1 + t)%Z with (i + (p + 1) + t)%Z by lia. reflexivity.
Qed.
Lemma bo_high t Q i : (0 <= t < S)%Z -> (K - S + 1 <= i)%Z -> boehm_pts (Vt t) m p Q i = Q (i - 1)%Z.
Proof.
  intros Ht Hi. unfold boehm_pts, al. replace (Z.of_nat (Z.to_nat p)) with p by lia. unfold m.
  zcase (i + p)%Z (K - S + 1)%Z. zcase i (K - S + 1)%Z. lra.
Qed.

Definition Rp (t : Z) (A Q : Z -> Z -> R) : Prop :=
  (forall i c, (0 <= i)%Z -> (2 * (i - (K - p - t)) <= p - S + t)%Z -> A i c = Q i c) /\
  (forall i c, (i <= n)%Z -> (2 * (K - S + t - i) < p - S + t)%Z -> A i c = Q (i - t)%Z c).

Lemma solve_gen t A (temp0 : Z -> Z -> R) : (0 <= t < S)%Z ->
  let first := (K - p - t)%Z in let last := (K - S + t)%Z in let off := (first - 1)%Z in
  (forall c, temp0 0%Z c = A off c) -> (forall c, temp0 (last + 1 - off)%Z c = A (last + 1)%Z c) ->
  exists temp q, Remove_solve (N:=Rn) p U A u t (temp0, first, 1%Z, last, (last - off)%Z) =
    (temp, (first + q)%Z, (1 + q)%Z, (last - q)%Z, (last - off - q)%Z) /\ (0 <= q)%Z /\ (p - S + t <= 2 * q <= p - S + t + 1)%Z /\
    (forall c, temp 0%Z c = A off c) /\ (forall c, temp (last + 1 - off)%Z c = A (last + 1)%Z c) /\
    (forall i c, (first <= i < first + q)%Z -> A i c = co_ t i * temp (i - off)%Z c + (1 - co_ t i) * temp (i - 1 - off)%Z c) /\
    (forall i c, (last - t - q < i <= last - t)%Z -> A (i + t)%Z c = co_ t i * temp (i + t + 1 - off)%Z c + (1 - co_ t i) * temp (i + t - off)%Z c).
Proof.
  intros Ht first last off E0 E1. unfold Remove_solve. cbv beta iota.
  set (I := fun st : (Z -> Z -> R) * Z * Z * Z * Z => let '(temp, i, ii, j, jj) := st in
    exists q, (0 <= q)%Z /\ i = (first + q)%Z /\ ii = (1 + q)%Z /\ j = (last - q)%Z /\ jj = (last - off - q)%Z /\ (2 * q <= p - S + t + 1)%Z /\
    (forall c, temp 0%Z c = A off c) /\ (forall c, temp (last + 1 - off)%Z c = A (last + 1)%Z c) /\
    (forall i c, (first <= i < first + q)%Z -> A i c = co_ t i * temp (i - off)%Z c + (1 - co_ t i) * temp (i - 1 - off)%Z c) /\
    (forall i c, (last - t - q < i <= last - t)%Z -> A (i + t)%Z c = co_ t i * temp (i + t + 1 - off)%Z c + (1 - co_ t i) * temp (i + t - off)%Z c)).
  match goal with |- context [whileD ?f ?c ?b ?s0] =>
    assert (G : I (whileD f c b s0) /\ c (whileD f c b s0) = false);
    [apply (whileD_inv I (fun '(_, i, _, j, _) => Z.to_nat (j - i - t)) c b f s0)|destruct (whileD f c b s0) as [[[[temp i] ii] j] jj]] end.
  - intros [[[[temp i] ii] j] jj] (q & H1 & -> & -> & -> & -> & H2 & G0 & G1 & H3 & H4) Cd. apply Z.ltb_lt in Cd. split; [|lia].
    assert (Hq : (2 * q < p - S + t)%Z) by (unfold first, last in Cd; lia).
    exists (q + 1)%Z. repeat (split; [unfold first, last, off; lia|]).
    rn. split; [|split; [|split]].
    + intros c. rewrite !upd_diff by (unfold first, last, off in *; lia). apply G0.
    + intros c. rewrite !upd_diff by (unfold first, last, off in *; lia). apply G1.
    + intros i c Hi. destruct (Z.eq_dec i (first + q)) as [->|Hne].
      * replace (first + q - off)%Z with (1 + q)%Z by (unfold off; lia). replace (first + q - 1 - off)%Z with q by (unfold off; lia).
        rewrite upd_diff by (unfold first, last, off in *; lia). rewrite upd_same.
        rewrite !upd_diff by (unfold first, last, off in *; lia).
        destruct (co_range t (first + q) Ht ltac:(unfold first; lia)) as [N1 _]. change ((u - U (first + q)%Z) / (U (first + q + (p + 1) + t)%Z - U (first + q)%Z)) with (co_ t (first + q)).
        replace (1 + q - 1)%Z with q by lia. field. lra.
      * rewrite !upd_diff by (unfold first, last, off in *; lia). apply H3. lia.
    + intros i c Hi. destruct (Z.eq_dec i (last - t - q)) as [->|Hne].
      * replace (last - t - q + t)%Z with (last - q)%Z by lia. replace (last - q - off)%Z with (last - off - q)%Z by lia.
        replace (last - q + 1 - off)%Z with (last - off - q + 1)%Z by lia.
        rewrite (upd_diff _ (last - off - q)%Z (last - off - q + 1)%Z) by lia. rewrite upd_same.
        rewrite !upd_diff by (unfold first, last, off in *; lia).
        destruct (co_range t (last - t - q) Ht ltac:(unfold last; lia)) as [_ N2].
        replace ((u - U (last - q - t)%Z) / (U (last - q + (p + 1))%Z - U (last - q - t)%Z)) with (co_ t (last - t - q))
          by (unfold co_; replace (last - t - q + (p + 1) + t)%Z with (last - q + (p + 1))%Z by lia; replace (last - t - q)%Z with (last - q - t)%Z by lia; reflexivity).
        field. lra.
      * rewrite !upd_diff by (unfold first, last, off in *; lia). apply H4. lia.
  - exists 0%Z. repeat (split; [unfold first, last, off in *; intros; auto; lia|]). intros; lia.
  - unfold first, last. lia.
  - destruct G as [G Cd]. cbn in G. destruct G as (q & H1 & -> & -> & -> & -> & H2 & G0 & G1 & H3 & H4). apply Z.ltb_ge in Cd. exists temp, q.
    split; auto. split; auto. split; [unfold first, last in *; lia|]. auto.
Qed.

Lemma store_gen t A (temp : Z -> Z -> R) : (0 <= t < S)%Z ->
  let first := (K - p - t)%Z in let last := (K - S + t)%Z in let off := (first - 1)%Z in
  forall q, (p - S + t <= 2 * q <= p - S + t + 1)%Z ->
  let A' := Remove_store (N:=Rn) t off first last temp A in
  (forall x c, (first <= x < first + q \/ last - q < x <= last)%Z -> A' x c = temp (x - off)%Z c) /\
  (forall x c, (x < first \/ last < x)%Z -> A' x c = A x c).
Proof.
  intros Ht first last off q Hq A'. unfold A', Remove_store. clear A'.
  set (I := fun st : (Z -> Z -> R) * Z * Z => let '(A', i, j) := st in
    exists y, (0 <= y)%Z /\ i = (first + y)%Z /\ j = (last - y)%Z /\ (2 * y <= p - S + t + 1)%Z /\
    (forall x c, (first <= x < first + y \/ last - y < x <= last)%Z -> A' x c = temp (x - off)%Z c) /\
    (forall x c, (x < first \/ last < x)%Z -> A' x c = A x c)).
  match goal with |- context [whileD ?f ?c ?b ?s0] =>
    assert (G : I (whileD f c b s0) /\ c (whileD f c b s0) = false);
    [apply (whileD_inv I (fun '(_, i, j) => Z.to_nat (j - i - t)) c b f s0)|destruct (whileD f c b s0) as [[A' i] j]] end.
  - intros [[A' i] j] (y & H1 & -> & -> & H2 & G1 & G3) Cd. apply Z.ltb_lt in Cd. split; [|lia].
    assert (Hy : (2 * y < p - S + t)%Z) by (unfold first, last in Cd; lia).
    exists (y + 1)%Z. repeat (split; [unfold first, last; lia|]). split.
    + intros x c Hx. unfold upd. destruct (Z.eqb_spec x (last - y)) as [->|]; auto. destruct (Z.eqb_spec x (first + y)) as [->|]; auto.
      apply G1. lia.
    + intros x c Hx. rewrite !upd_diff by (unfold first, last in *; lia). apply G3. auto.
  - exists 0%Z. repeat (split; [unfold first, last in *; intros; lia|]). auto.
  - unfold first, last. lia.
  - destruct G as [G Cd]. cbn in G. destruct G as (y & H1 & -> & -> & H2 & G1 & G3). apply Z.ltb_ge in Cd.
    assert (Hy : (p - S + t <= 2 * y)%Z) by (unfold first, last in Cd; lia).
    assert (y = q) as -> by lia. auto.
Qed.

Lemma cmb_close a x y z e : 0 < a < 1 -> 0 <= e -> Rabs (x - y) <= e -> Rabs (a * x + (1 - a) * z - (a * y + (1 - a) * z)) <= e.
Proof. intros Ha He H. apply Rabs_le_inv in H. apply Rabs_le. nra. Qed.
Lemma cmb_close' a x y z e : 0 < a < 1 -> 0 <= e -> Rabs (x - y) <= e -> Rabs (a * z + (1 - a) * x - (a * z + (1 - a) * y)) <= e.
Proof. intros Ha He H. apply Rabs_le_inv in H. apply Rabs_le. nra. Qed.
Lemma diff0 (x y e : R) : 0 <= e -> x = y -> Rabs (x - y) <= e.
Proof. intros He ->. replace (y - y) with 0 by ring. rewrite Rabs_R0. auto. Qed.

Lemma round_gen d t A Q TOL junk2 A' : (0 <= t < S)%Z -> Rp t A Q ->
  Remove_try (N:=Rn) d p U A u TOL (K - p - t) (K - S + t) t junk2 = Some A' ->
  0 <= TOL /\
  (exists g, (2 * K - p - S - (t + 1) <= 2 * g <= 2 * K - p - S - (t + 1) + 2)%Z /\ Rp (t + 1) A' (QG g (t + 1) A')) /\
  forall g, (2 * K - p - S - (t + 1) <= 2 * g <= 2 * K - p - S - (t + 1) + 2)%Z ->
  forall i c, (0 <= i <= n - t)%Z -> (1 <= c <= d)%Z ->
    Rabs (Q i c - boehm_pts (Vt t) m p (fun i => QG g (t + 1) A' i c) i) <= TOL.
Proof.
  intros Ht [RL RR] E. unfold Remove_try in E. cbv zeta in E.
  set (first := (K - p - t)%Z) in *. set (last := (K - S + t)%Z) in *. set (off := (first - 1)%Z) in *. set (w := (p - S + t)%Z) in *.
  match type of E with context [Remove_solve _ _ _ _ _ (?x, _, _, _, _)] => set (temp0 := x) in * end.
  destruct (solve_gen t A temp0 Ht) as (temp & q & Es & Hq0 & Hq & T0 & T1 & TL & TR).
  { intros c. unfold temp0. rewrite upd_diff by (unfold off, first, last in *; lia). rewrite upd_same. reflexivity. }
  { intros c. unfold temp0. fold first last off. rewrite upd_same. reflexivity. }
  fold first last off w in Es, T0, T1, TL, TR, Hq.
  match type of E with context [Remove_solve ?a ?b ?cc ?dd ?e ?f] =>
    replace (Remove_solve a b cc dd e f) with (temp, (first + q)%Z, (1 + q)%Z, (last - q)%Z, (last - off - q)%Z) in E by (symmetry; exact Es) end.
  cbv iota beta in E.
  match type of E with (if ?b then _ else _) = _ => destruct b eqn:Eb; [|discriminate] end. injection E as E.
  destruct (store_gen t A temp Ht q Hq) as [S1 S2]. fold first last off in S1, S2.
  assert (E' : Remove_store (N:=Rn) t off first last temp A = A') by exact E. rewrite E' in S1, S2. clear E E'.
  assert (Hl : (last = first + w + t)%Z) by (unfold last, first, w; lia).
  assert (SL : forall i c, (off <= i <= off + q)%Z -> A' i c = temp (i - off)%Z c).
  { intros i c Hi. destruct (Z.eq_dec i off) as [->|]; [|apply S1; unfold off in *; lia].
    rewrite S2 by (unfold off; lia). rewrite Z.sub_diag, T0. reflexivity. }
  assert (SR : forall i c, (last - q + 1 <= i <= last + 1)%Z -> A' i c = temp (i - off)%Z c).
  { intros i c Hi. destruct (Z.eq_dec i (last + 1)) as [->|]; [|apply S1; lia].
    rewrite S2 by lia. rewrite T1. reflexivity. }
  assert (HT : 0 <= TOL /\ ((w = 2 * q - 1)%Z -> forall c, (1 <= c <= d)%Z -> Rabs (temp q c - temp (last + 1 - off - q)%Z c) <= TOL) /\
     ((w = 2 * q)%Z -> forall c, (1 <= c <= d)%Z -> Rabs (A (first + q)%Z c - (co_ t (first + q) * temp (q + t + 2)%Z c + (1 - co_ t (first + q)) * temp q c)) <= TOL)).
  { destruct (Z.ltb_spec (last - q - (first + q)) t) as [Hlt|Hge]; apply Distance_le_inv in Eb; destruct Eb as [Eb1 Eb2]; split; auto; split; intros Ew c Hc; try lia.
    - specialize (Eb2 c Hc). cbn beta in Eb2. replace (1 + q - 1)%Z with q in Eb2 by lia. replace (last - off - q + 1)%Z with (last + 1 - off - q)%Z in Eb2 by lia. exact Eb2.
    - specialize (Eb2 c Hc). cbn beta in Eb2. replace (1 + q - 1)%Z with q in Eb2 by lia. replace (1 + q + t + 1)%Z with (q + t + 2)%Z in Eb2 by lia. exact Eb2. }
  destruct HT as (HT & Hodd & Heven). split; auto. split.
  - exists (first + q)%Z. split; [unfold first, w in *; lia|]. split.
    + intros i c Hi Hi'. unfold QG. destruct (Z.ltb_spec i (first + q)); [reflexivity|exfalso; unfold first, w in *; lia].
    + intros i c Hi Hi'. unfold QG. destruct (Z.ltb_spec (i - (t + 1)) (first + q)); [exfalso; unfold first, w in *; lia|]. f_equal. lia.
  - intros g Hg i c Hi Hc.
    assert (Hgq : (first + w - q <= g <= first + q)%Z) by (unfold first, w in *; lia). clear Hg.
    assert (QL : forall i, (off <= i)%Z -> (i < g)%Z -> QG g (t + 1) A' i c = temp (i - off)%Z c).
    { intros i' H1 H2. unfold QG. zcase i' g. apply SL. unfold off in *. lia. }
    assert (QR : forall i, (g <= i)%Z -> (i + t <= last)%Z -> QG g (t + 1) A' i c = temp (i + t + 1 - off)%Z c).
    { intros i' H1 H2. unfold QG. zcase i' g. rewrite SR by lia. f_equal. lia. }
    destruct (Z.lt_ge_cases i first) as [Hif|Hif]; [|destruct (Z.le_gt_cases i (K - S)) as [Him|Him]].
    + rewrite bo_low by (auto; unfold first in *; lia). 
      destruct (Z.lt_ge_cases i g) as [Hig|Hig].
      * apply diff0; auto. unfold QG. zcase i g. rewrite S2 by lia. symmetry. apply RL; unfold first, w in *; lia.
      * assert (q = 0%Z) by (unfold off, first, w in *; lia). assert (i = off) by (unfold off in *; lia). subst i.
        rewrite QR by (unfold off in *; lia). assert (Ew : (w = 2 * q - 1)%Z) by (unfold off in *; lia).
        assert (EQ : Q off c = temp q c). { rewrite H, T0. symmetry. apply RL; unfold off, first, w in *; lia. }
        rewrite EQ. specialize (Hodd Ew c Hc). replace (off + t + 1 - off)%Z with (last + 1 - off - q)%Z by (unfold off in *; lia). exact Hodd.
    + rewrite bo_mid by (auto; unfold first in *; lia). pose proof (co_range t i Ht ltac:(unfold first in *; lia)) as Hco.
      assert (Hw : (i <= first + w)%Z) by (unfold first, w in *; lia).
      destruct (Z.lt_ge_cases i (first + q)) as [Hiq|Hiq].
      * (* solved from the left *)
        assert (EQ : Q i c = A i c) by (symmetry; apply RL; unfold first, w in *; lia).
        rewrite EQ, TL by lia. rewrite (QL (i - 1)%Z) by (unfold off; lia).
        destruct (Z.lt_ge_cases i g) as [Hig|Hig].
        -- rewrite QL by (unfold off; lia). apply diff0; auto.
        -- assert (Ei : i = (first + q - 1)%Z) by lia. assert (Ew : (w = 2 * q - 1)%Z) by lia.
           rewrite QR by lia. apply cmb_close; auto. specialize (Hodd Ew c Hc).
           replace (i - off)%Z with q by (unfold off; lia). replace (i + t + 1 - off)%Z with (last + 1 - off - q)%Z by lia. exact Hodd.
      * destruct (Z.eq_dec w (2 * q)) as [Ew|Ew]; [destruct (Z.eq_dec i (first + q)) as [Ei|Ei]|].
        -- (* the tested equation *)
           subst i. assert (EQ : Q (first + q)%Z c = A (first + q)%Z c) by (symmetry; apply RL; unfold first, w in *; lia).
           rewrite EQ. rewrite QR by lia. rewrite QL by (unfold off; lia). specialize (Heven Ew c Hc).
           replace (first + q + t + 1 - off)%Z with (q + t + 2)%Z by (unfold off; lia). replace (first + q - 1 - off)%Z with q by (unfold off; lia). exact Heven.
        -- assert (EQ : Q i c = A (i + t)%Z c). { rewrite RR by (unfold last, first, w in *; lia). f_equal. lia. }
           rewrite EQ, TR by lia. rewrite !QR by lia. apply diff0; auto. replace (i - 1 + t + 1 - off)%Z with (i + t - off)%Z by lia. reflexivity.
        -- assert (EQ : Q i c = A (i + t)%Z c). { rewrite RR by (unfold last, first, w in *; lia). f_equal. lia. }
           rewrite EQ, TR by lia. rewrite (QR i) by lia. destruct (Z.lt_ge_cases (i - 1) g) as [Hig|Hig].
           ++ rewrite QL by (unfold off in *; lia). apply cmb_close'; auto. assert (Ei : i = (first + q)%Z) by lia.
              assert (Ew' : (w = 2 * q - 1)%Z) by lia. specialize (Hodd Ew' c Hc).
              replace (i + t - off)%Z with (last + 1 - off - q)%Z by lia. replace (i - 1 - off)%Z with q by (unfold off; lia).
              rewrite Rabs_minus_sym. exact Hodd.
           ++ rewrite QR by lia. apply diff0; auto. replace (i - 1 + t + 1 - off)%Z with (i + t - off)%Z by lia. reflexivity.
    + rewrite bo_high by (auto; unfold first in *; lia). assert (Hw : (first + w + 1 <= i)%Z) by (unfold first, w in *; lia).
      assert (EQ : Q i c = A (i + t)%Z c). { rewrite RR by (unfold last, first, w in *; lia). f_equal. lia. } rewrite EQ.
      destruct (Z.lt_ge_cases (i - 1) g) as [Hig|Hig].
      * assert (q = 0%Z) by lia. assert (Ew : (w = 2 * q - 1)%Z) by lia. rewrite QL by (unfold off; lia).
        assert (Ei : i = first) by lia. specialize (Hodd Ew c Hc). rewrite H in Hodd.
        replace (i - 1 - off)%Z with 0%Z by (unfold off; lia). replace (i + t)%Z with (last + 1)%Z by lia. rewrite <- T1.
        rewrite Z.sub_0_r in Hodd. rewrite Rabs_minus_sym. exact Hodd.
      * unfold QG. zcase (i - 1)%Z g. apply diff0; auto. rewrite S2 by lia. f_equal. lia.
Qed.
End Gen.
