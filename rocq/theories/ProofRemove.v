(** RemoveKnot undoes InsertKnot. *)
From Coq Require Import ZArith Reals List Lia Lra Bool.
From Verif Require Import Num Loop ModelBspline ModelBSp Spec SumZ BPiece BLink BInsert BRep ProofSpan ProofEval ProofInsert.
Local Open Scope R_scope.
Local Arguments Z.add : simpl never.
Local Arguments Z.sub : simpl never.
Local Arguments Z.mul : simpl never.

Lemma whileD_inv {S : Type} (I : S -> Prop) (m : S -> nat) (c : S -> bool) (body : S -> S) fuel s :
  (forall s, I s -> c s = true -> I (body s) /\ (m (body s) < m s)%nat) -> I s -> (m s < fuel)%nat ->
  I (whileD fuel c body s) /\ c (whileD fuel c body s) = false.
Proof.
  intros H I0 Hm. destruct (while_total I m c body H fuel s I0 Hm) as (s' & E & I1 & C). unfold whileD. rewrite E. auto.
Qed.

Lemma Distance2_zero d (A B : Z -> R) : (forall c, A c = B c) -> Distance2 (N:=Rn) d A B = 0.
Proof.
  intros E. unfold Distance2. destruct (Z.le_gt_cases 1 d).
  - floop (fun (_ : Z) (x : R) => x = 0); auto. intros i x Hi ->. rn. rewrite E. ring.
  - rewrite for_up_empty by lia. reflexivity.
Qed.
Lemma Distance_le_zero d (A B : Z -> R) TOL : (forall c, A c = B c) -> 0 <= TOL -> Distance_le (N:=Rn) d A B TOL = true.
Proof.
  intros E Ht. unfold Distance_le. rewrite Distance2_zero by auto. rn. apply andb_true_iff. split; apply Rleb_true; auto. nra.
Qed.

Lemma solve_left (a X Y : R) : a <> 0 -> (a * X + (1 - a) * Y - (1 - a) * Y) / a = X.
Proof. intros. field. auto. Qed.
Lemma solve_right (a X Y : R) : 1 - a <> 0 -> (a * X + (1 - a) * Y - a * X) / (1 - a) = Y.
Proof. intros. field. auto. Qed.

(** Compaction. *)
Lemma shiftU_ok mm r t (X : Z -> R) : (1 <= t)%Z -> forall i, (i <= mm - t)%Z ->
  Remove_shiftU (N:=Rn) mm r t X i = if (i <=? r - t)%Z then X i else X (i + t)%Z.
Proof.
  intros Ht. unfold Remove_shiftU. destruct (Z.le_gt_cases (r + 1) (mm + 1)) as [Hr|Hr].
  - floop (fun k (Y : Z -> R) => (forall i, (i <= r - t \/ k <= i)%Z -> Y i = X i) /\ (forall i, (r - t < i < k - t)%Z -> Y i = X (i + t)%Z)).
    + split; auto. intros; lia.
    + intros x Y Hx [H1 H2]. split.
      * intros i Hi. rewrite upd_diff by lia. apply H1. lia.
      * intros i Hi. destruct (Z.eq_dec i (x - t)) as [->|]; [|rewrite upd_diff by lia; apply H2; lia].
        rewrite upd_same. rewrite H1 by lia. f_equal. lia.
    + intros Y [H1 H2] i Hi. lcase i (r - t)%Z; [apply H1; lia|apply H2; lia].
  - rewrite for_up_empty by lia. intros i Hi. lcase i (r - t)%Z. reflexivity.
Qed.
Lemma shiftP_ok nn F t (X : Z -> Z -> R) : (1 <= t)%Z -> (F <= nn)%Z -> exists g, (g = F - (t - 1) / 2)%Z /\
  forall i, (i <= nn - t)%Z -> Remove_shiftP (N:=Rn) nn F t X i = if (i <? g)%Z then X i else X (i + t)%Z.
Proof.
  intros Ht HF. unfold Remove_shiftP.
  assert (G : for_up 1 (t - 1) (fun k (s : Z * Z) => let '(i, j) := s in if (k mod 2 =? 1)%Z then ((i + 1)%Z, j) else (i, (j - 1)%Z)) (F, F)
              = ((F + t / 2)%Z, (F - (t - 1) / 2)%Z)).
  { floop (fun k (s : Z * Z) => s = ((F + k / 2)%Z, (F - (k - 1) / 2)%Z)).
    - change (1 / 2)%Z with 0%Z; change ((1 - 1) / 2)%Z with 0%Z; f_equal; lia.
    - intros x s0 Hx ->. pose proof (Z.div_mod x 2 ltac:(lia)). pose proof (Z.mod_pos_bound x 2 ltac:(lia)).
      pose proof (Z.div_mod (x + 1) 2 ltac:(lia)). pose proof (Z.mod_pos_bound (x + 1) 2 ltac:(lia)).
      pose proof (Z.div_mod (x - 1) 2 ltac:(lia)). pose proof (Z.mod_pos_bound (x - 1) 2 ltac:(lia)).
      replace (x + 1 - 1)%Z with x by lia.
      destruct (Z.eqb_spec (x mod 2) 1); f_equal; lia.
    - intros s0 ->. replace (t - 1 + 1)%Z with t by lia. reflexivity. }
  rewrite G. exists (F - (t - 1) / 2)%Z. split; auto. set (g := (F - (t - 1) / 2)%Z).
  assert (Eg : (F + t / 2 + 1 = g + t)%Z).
  { unfold g. pose proof (Z.div_mod t 2 ltac:(lia)). pose proof (Z.mod_pos_bound t 2 ltac:(lia)).
    pose proof (Z.div_mod (t - 1) 2 ltac:(lia)). pose proof (Z.mod_pos_bound (t - 1) 2 ltac:(lia)). lia. }
  rewrite Eg. destruct (Z.le_gt_cases (g + t) (nn + 1)) as [Hc|Hc].
  - floop (fun k (s : (Z -> Z -> R) * Z) => snd s = (k - t)%Z /\ (forall i, (i < g \/ k <= i)%Z -> fst s i = X i) /\ (forall i, (g <= i < k - t)%Z -> fst s i = X (i + t)%Z)).
    + cbn [fst snd]. split; [lia|]. split; auto. intros; lia.
    + intros x [Y j] Hx (E & H1 & H2). cbn [fst snd] in *. subst j. split; [lia|]. split.
      * intros i Hi. rewrite upd_diff by lia. apply H1. lia.
      * intros i Hi. destruct (Z.eq_dec i (x - t)) as [->|]; [|rewrite upd_diff by lia; apply H2; lia].
        rewrite upd_same. rewrite H1 by lia. f_equal. lia.
    + intros [Y j] (E & H1 & H2) i Hi. cbn [fst snd] in *. zcase i g; [apply H1; lia|apply H2; lia].
  - rewrite for_up_empty by lia. intros i Hi. cbn [fst]. zcase i g. reflexivity.
Qed.

Section Rem.
Variables (U : Z -> R) (P : Z -> Z -> R) (n k s p : Z) (u : R) (R0 : Z).
Hypothesis Hs0 : (0 <= s)%Z.
Hypothesis Hp0 : (1 <= p)%Z.
Hypothesis HR : (s + R0 <= p)%Z.
Hypothesis Hblock : forall i, (k - s + 1 <= i <= k)%Z -> U i = u.
Hypothesis Hless : forall i, (k - s + 1 - p <= i <= k - s)%Z -> (0 <= i)%Z -> U i < u.
Hypothesis Hgt : forall i, (k + 1 <= i <= k + p)%Z -> u < U i.
Hypothesis Hk : (p <= k <= n)%Z.
Hypothesis Hks : (p <= k - s)%Z.
Let m := (k - s + 1)%Z.
Definition C (j i c : Z) : R := iQ U (fun i => P i c) k p u m j i.
Variable V : Z -> R.
Hypothesis HV : forall i, (0 <= i <= n + p + 1 + R0)%Z -> V i = insV U k u R0 i.
Let K := (k + R0)%Z.
Let S := (s + R0)%Z.

(** The insertion relation with the ratio read off the refined knots, round t. *)
Lemma C_rel t i c : (0 <= t < R0)%Z -> (k - p + (R0 - t) <= i <= k - s)%Z ->
  let a := (u - V i) / (V (i + (p + 1) + t)%Z - V i) in
  a <> 0 /\ 1 - a <> 0 /\ C (R0 - t) i c = a * C (R0 - t - 1) i c + (1 - a) * C (R0 - t - 1) (i - 1) c.
Proof.
  intros Ht Hi. cbv zeta.
  assert (E1 : V i = U i) by (rewrite HV by lia; unfold insV; lcase i k; auto).
  assert (E2 : V (i + (p + 1) + t)%Z = U (i + p + 1 - (R0 - t))%Z).
  { rewrite HV by lia. unfold insV. lcase (i + (p + 1) + t)%Z k. lcase (i + (p + 1) + t)%Z (k + R0)%Z. f_equal. lia. }
  rewrite E1, E2. assert (L1 : U i < u) by (apply Hless; lia). assert (L2 : u < U (i + p + 1 - (R0 - t))%Z) by (apply Hgt; lia).
  assert (D : U (i + p + 1 - (R0 - t))%Z - U i <> 0) by lra.
  split; [|split].
  - unfold Rdiv. apply Rmult_integral_contrapositive. split; [lra|]. apply Rinv_neq_0_compat. auto.
  - replace (1 - (u - U i) / (U (i + p + 1 - (R0 - t))%Z - U i)) with ((U (i + p + 1 - (R0 - t))%Z - u) / (U (i + p + 1 - (R0 - t))%Z - U i)) by (field; auto).
    unfold Rdiv. apply Rmult_integral_contrapositive. split; [lra|]. apply Rinv_neq_0_compat. auto.
  - unfold C. rewrite (iQ_mid U (fun i => P i c) k s p u m Hs0 Hblock ltac:(unfold m; lia) (R0 - t) i) by lia. reflexivity.
Qed.
Lemma C_left t c i : (0 <= t < R0)%Z -> (0 <= i)%Z -> (i <= k - p + (R0 - t) - 1)%Z -> C (R0 - t) i c = C (R0 - t - 1) i c.
Proof.
  intros Ht Hi0 Hi. unfold C. rewrite iQ_S by lia. unfold boehm_pts, al. replace (Z.of_nat (Z.to_nat p)) with p by lia. unfold m.
  zcase (i + p)%Z (k - s + 1)%Z; [lra|]. zcase i (k - s + 1)%Z.
  rewrite (insV_u U k s u Hblock (R0 - t) (k - s + 1)) by lia. rewrite (insV_u U k s u Hblock (R0 - t) (i + p + 1)) by lia.
  assert (E : insV U k u (R0 - t) i = U i) by (unfold insV; lcase i k; reflexivity). rewrite E.
  assert (U i < u) by (apply Hless; lia).
  replace ((u - U i) / (u - U i)) with 1 by (field; lra). lra.
Qed.
Lemma C_right t c i : (0 <= t < R0)%Z -> (k - s + 1 <= i)%Z -> C (R0 - t) i c = C (R0 - t - 1) (i - 1) c.
Proof.
  intros Ht Hi. unfold C. apply (iQ_high U (fun i => P i c) k s p u m); auto; try lia.
Qed.

(** The control points of round t, with a gap of t entries. *)
Definition Rep (t : Z) (A : Z -> Z -> R) : Prop :=
  (forall i c, (0 <= i)%Z -> (2 * (i - (K - p - t)) <= p - S + t)%Z -> A i c = C (R0 - t) i c) /\
  (forall i c, (i <= n + R0)%Z -> (2 * (K - S + t - i) <= p - S + t)%Z -> A i c = C (R0 - t) (i - t) c).

Lemma solve_ok t A (temp0 : Z -> Z -> R) : (0 <= t < R0)%Z -> Rep t A ->
  let first := (K - p - t)%Z in let last := (K - S + t)%Z in let off := (first - 1)%Z in
  (forall c, temp0 0%Z c = A off c) -> (forall c, temp0 (last + 1 - off)%Z c = A (last + 1)%Z c) ->
  exists temp q, Remove_solve (N:=Rn) p V A u t (temp0, first, 1%Z, last, (last - off)%Z) =
    (temp, (first + q)%Z, (1 + q)%Z, (last - q)%Z, (last - off - q)%Z) /\ (p - S + t <= 2 * q <= p - S + t + 1)%Z /\
    (forall x c, (0 <= x <= q)%Z -> temp x c = C (R0 - t - 1) (off + x) c) /\
    (forall x c, (last + 1 - off - q <= x <= last + 1 - off)%Z -> temp x c = C (R0 - t - 1) (off + x - (t + 1)) c).
Proof.
  intros Ht [RL RR] first last off E0 E1. unfold Remove_solve. cbv beta iota.
  set (I := fun st : (Z -> Z -> R) * Z * Z * Z * Z => let '(temp, i, ii, j, jj) := st in
    exists q, (0 <= q)%Z /\ i = (first + q)%Z /\ ii = (1 + q)%Z /\ j = (last - q)%Z /\ jj = (last - off - q)%Z /\ (2 * q <= p - S + t + 1)%Z /\
    (forall x c, (0 <= x <= q)%Z -> temp x c = C (R0 - t - 1) (off + x) c) /\
    (forall x c, (last + 1 - off - q <= x <= last + 1 - off)%Z -> temp x c = C (R0 - t - 1) (off + x - (t + 1)) c)).
  match goal with |- context [whileD ?f ?c ?b ?s0] =>
    assert (G : I (whileD f c b s0) /\ c (whileD f c b s0) = false);
    [apply (whileD_inv I (fun '(_, i, _, j, _) => Z.to_nat (j - i - t)) c b f s0)|destruct (whileD f c b s0) as [[[[temp i] ii] j] jj]] end.
  - intros [[[[temp i] ii] j] jj] (q & H1 & -> & -> & -> & -> & H2 & H3 & H4) Cd. apply Z.ltb_lt in Cd. split; [|lia].
    assert (Hq : (2 * q < p - S + t)%Z) by (unfold first, last in Cd; lia).
    exists (q + 1)%Z. repeat (split; [unfold first, last, off; lia|]).
    assert (EA : forall c, A (first + q)%Z c = C (R0 - t) (first + q) c) by (intros; apply RL; unfold first, K, S in *; lia).
    assert (EB : forall c, A (last - q)%Z c = C (R0 - t) (last - q - t) c) by (intros; apply RR; unfold last, K, S in *; lia).
    rn. split.
    + intros x c Hx. rewrite upd_diff by (unfold first, last, off, K, S in *; lia).
      destruct (Z.eq_dec x (1 + q)) as [->|Hne]; [|rewrite upd_diff by lia; apply H3; lia].
      rewrite upd_same. rewrite EA. rewrite H3 by lia.
      destruct (C_rel t (first + q) c Ht ltac:(unfold first, K, S in *; lia)) as (N1 & _ & ->).
      replace (off + (1 + q - 1))%Z with (first + q - 1)%Z by (unfold off; lia). replace (off + (1 + q))%Z with (first + q)%Z by (unfold off; lia).
      apply solve_left; auto.
    + intros x c Hx. destruct (Z.eq_dec x (last - off - q)) as [->|Hne].
      * rewrite upd_same. rewrite EB. rewrite upd_diff by (unfold first, last, off, K, S in *; lia). rewrite H4 by (unfold first, last, off, K, S in *; lia).
        destruct (C_rel t (last - q - t) c Ht ltac:(unfold last, K, S in *; lia)) as (_ & N2 & ->).
        replace (last - q - t + (p + 1) + t)%Z with (last - q + (p + 1))%Z in * by lia.
        replace (off + (last - off - q + 1) - (t + 1))%Z with (last - q - t)%Z by lia. replace (off + (last - off - q) - (t + 1))%Z with (last - q - t - 1)%Z by lia.
        apply solve_right; auto.
      * rewrite upd_diff by lia. rewrite upd_diff by (unfold first, last, off, K, S in *; lia). apply H4. lia.
  - exists 0%Z. repeat (split; [unfold first, last, off, K, S in *; lia|]). split.
    + intros x c Hx. assert (x = 0%Z) as -> by lia. rewrite E0. rewrite (proj1 (conj RL RR)) by (unfold off, first, K, S in *; lia).
      rewrite C_left by (unfold off, first, K, S in *; lia). f_equal. lia.
    + intros x c Hx. assert (x = (last + 1 - off)%Z) as -> by lia. rewrite E1. rewrite RR by (unfold last, K, S in *; lia).
      rewrite C_right by (unfold last, K, S in *; lia). f_equal. lia.
  - unfold first, last. lia.
  - destruct G as [G Cd]. cbn in G. destruct G as (q & H1 & -> & -> & -> & -> & H2 & H3 & H4). apply Z.ltb_ge in Cd. exists temp, q. split; auto. split; [unfold first, last in *; lia|]. auto.
Qed.

Lemma store_ok t A (temp : Z -> Z -> R) : (0 <= t < R0)%Z -> Rep t A ->
  let first := (K - p - t)%Z in let last := (K - S + t)%Z in let off := (first - 1)%Z in
  forall q, (p - S + t <= 2 * q <= p - S + t + 1)%Z ->
    (forall x c, (0 <= x <= q)%Z -> temp x c = C (R0 - t - 1) (off + x) c) ->
    (forall x c, (last + 1 - off - q <= x <= last + 1 - off)%Z -> temp x c = C (R0 - t - 1) (off + x - (t + 1)) c) ->
  Rep (t + 1) (Remove_store (N:=Rn) t off first last temp A).
Proof.
  intros Ht [RL RR] first last off q Hq H3 H4. unfold Remove_store.
  set (I := fun st : (Z -> Z -> R) * Z * Z => let '(A', i, j) := st in
    exists y, (0 <= y)%Z /\ i = (first + y)%Z /\ j = (last - y)%Z /\ (2 * y <= p - S + t + 1)%Z /\
    (forall x c, (first <= x < first + y)%Z -> A' x c = C (R0 - t - 1) x c) /\
    (forall x c, (last - y < x <= last)%Z -> A' x c = C (R0 - t - 1) (x - (t + 1)) c) /\
    (forall x c, (x < first \/ last < x)%Z -> A' x c = A x c)).
  match goal with |- context [whileD ?f ?c ?b ?s0] =>
    assert (G : I (whileD f c b s0) /\ c (whileD f c b s0) = false);
    [apply (whileD_inv I (fun '(_, i, j) => Z.to_nat (j - i - t)) c b f s0)|destruct (whileD f c b s0) as [[A' i] j]] end.
  - intros [[A' i] j] (y & H1 & -> & -> & H2 & G1 & G2 & G3) Cd. apply Z.ltb_lt in Cd. split; [|lia].
    assert (Hy : (2 * y < p - S + t)%Z) by (unfold first, last in Cd; lia).
    exists (y + 1)%Z. repeat (split; [unfold first, last; lia|]). split; [|split].
    + intros x c Hx. rewrite upd_diff by (unfold first, last in *; lia). destruct (Z.eq_dec x (first + y)) as [->|]; [|rewrite upd_diff by lia; apply G1; lia].
      rewrite upd_same. rewrite H3 by (unfold off; lia). f_equal. lia.
    + intros x c Hx. destruct (Z.eq_dec x (last - y)) as [->|].
      * rewrite upd_same. rewrite H4 by (unfold off, first, last in *; lia). f_equal. lia.
      * rewrite upd_diff by lia. rewrite upd_diff by (unfold first, last in *; lia). apply G2. lia.
    + intros x c Hx. rewrite !upd_diff by (unfold first, last in *; lia). apply G3. auto.
  - exists 0%Z. repeat (split; [unfold first, last, K, S in *; intros; lia|]). auto.
  - unfold first, last. lia.
  - destruct G as [G Cd]. cbn in G. destruct G as (y & H1 & -> & -> & H2 & G1 & G2 & G3). apply Z.ltb_ge in Cd. assert (Hy : (p - S + t <= 2 * y)%Z) by (unfold first, last in Cd; lia). split.
    + intros i c Hi Hi'. replace (R0 - (t + 1))%Z with (R0 - t - 1)%Z by lia. destruct (Z.le_gt_cases first i).
      * apply G1. unfold first, K, S in *. lia.
      * rewrite G3 by lia. rewrite RL by (unfold first, K, S in *; lia). apply C_left; unfold first, K, S in *; lia.
    + intros i c Hi Hi'. replace (R0 - (t + 1))%Z with (R0 - t - 1)%Z by lia. destruct (Z.le_gt_cases i last).
      * apply G2. unfold last, K, S in *. lia.
      * rewrite G3 by lia. rewrite RR by (unfold last, K, S in *; lia). rewrite C_right by (unfold last, K, S in *; lia). f_equal. lia.
Qed.

Lemma try_ok d t A TOL junk2 : 0 <= TOL -> (0 <= t < R0)%Z -> Rep t A ->
  exists A', Remove_try (N:=Rn) d p V A u TOL (K - p - t) (K - S + t) t junk2 = Some A' /\ Rep (t + 1) A'.
Proof.
  intros HT Ht HRp. unfold Remove_try. cbv zeta.
  set (first := (K - p - t)%Z). set (last := (K - S + t)%Z). set (off := (first - 1)%Z).
  match goal with |- context [Remove_solve _ _ _ _ _ (?x, _, _, _, _)] => set (temp0 := x) end.
  destruct (solve_ok t A temp0 Ht HRp) as (temp & q & E & Hq & H3 & H4).
  { intros c. unfold temp0. rewrite upd_diff by (unfold off, first, last, K, S in *; lia). rewrite upd_same. reflexivity. }
  { intros c. unfold temp0. fold first last off. rewrite upd_same. reflexivity. }
  fold first last off in E.
  match goal with |- context [Remove_solve ?a ?b ?cc ?dd ?e ?f] => replace (Remove_solve a b cc dd e f) with (temp, (first + q)%Z, (1 + q)%Z, (last - q)%Z, (last - off - q)%Z) by (symmetry; exact E) end.
  cbv iota beta.
  fold first last off in H3, H4.
  match goal with |- context [if ?b then Some _ else None] => assert (Eb : b = true) end.
  { destruct (Z.ltb_spec (last - q - (first + q)) t) as [Hlt|Hge].
    - apply Distance_le_zero; auto. intros c. rewrite H3 by lia. rewrite H4 by lia. f_equal. unfold off, first, last, K, S in *. lia.
    - assert (Eq : (2 * q = p - S + t)%Z) by (unfold first, last in Hge; lia).
      apply Distance_le_zero; auto. intros c. rn. destruct HRp as [RL RR].
      rewrite RL by (unfold first, K, S in *; lia). rewrite H4 by (unfold off, first, last, K, S in *; lia). rewrite H3 by lia.
      destruct (C_rel t (first + q) c Ht ltac:(unfold first, K, S in *; lia)) as (_ & _ & ->).
      f_equal; f_equal; f_equal; unfold off, first, last, K, S in *; lia. }
  rewrite Eb. eexists. split; [reflexivity|]. apply (store_ok t A temp Ht HRp q); auto.
Qed.

Lemma rounds_ok d TOL junk2 num : 0 <= TOL -> (num <= R0)%Z -> forall fuel t A, (0 <= t <= num)%Z -> Z.to_nat (num - t) = fuel -> Rep t A ->
  exists A', Remove_rounds (N:=Rn) fuel d p V A u TOL (K - p - t) (K - S + t) t num junk2 = (A', num) /\ Rep num A'.
Proof.
  intros HT Hn. induction fuel; intros t A Ht Ef HRp.
  - assert (t = num) as -> by lia. exists A. split; auto.
  - cbn [Remove_rounds]. destruct (Z.ltb_spec t num); [|lia].
    destruct (try_ok d t A TOL junk2 HT ltac:(lia) HRp) as (A' & -> & HRp').
    replace (K - p - t - 1)%Z with (K - p - (t + 1))%Z by lia. replace (K - S + t + 1)%Z with (K - S + (t + 1))%Z by lia.
    apply IHfuel; auto; lia.
Qed.

Theorem RemoveKnot_undo d TOL junk2 num A : 0 <= TOL -> (1 <= num <= R0)%Z -> Rep 0 A ->
  exists V' Q, RemoveKnot (N:=Rn) d (n + R0) p V A u K S num TOL junk2 = (V', Q, num) /\
    (forall i, (0 <= i <= n + R0 - num + p + 1)%Z -> V' i = insV U k u (R0 - num) i) /\
    (forall i c, (0 <= i <= n + R0 - num)%Z -> Q i c = C (R0 - num) i c).
Proof.
  intros HT Hn HRp. unfold RemoveKnot. cbv zeta.
  destruct (rounds_ok d TOL junk2 num HT ltac:(lia) (Z.to_nat num) 0%Z A ltac:(lia) ltac:(lia) HRp) as (A' & E & [RL RR]).
  rewrite !Z.sub_0_r, !Z.add_0_r in E. rewrite E. destruct (Z.eqb_spec num 0); [lia|].
  do 2 eexists. split; [reflexivity|]. split.
  - intros i Hi. rewrite (shiftU_ok (n + R0 + p + 1) K num V) by lia. unfold K. lcase i (k + R0 - num)%Z.
    + rewrite HV by lia. unfold insV. lcase i k; auto. lcase i (k + R0)%Z. lcase i (k + (R0 - num))%Z. reflexivity.
    + rewrite HV by lia. unfold insV. lcase (i + num)%Z k. lcase (i + num)%Z (k + R0)%Z. lcase i k. lcase i (k + (R0 - num))%Z. f_equal. lia.
  - intros i c Hi. rewrite (Z.quot_div_nonneg (2 * K - S - p) 2) by (unfold K, S in *; lia).
    assert (HF : ((2 * K - S - p) / 2 <= n + R0)%Z) by (apply Z.div_le_upper_bound; unfold K, S; lia).
    destruct (shiftP_ok (n + R0) ((2 * K - S - p) / 2) num A' ltac:(lia) HF) as (g & Eg & HQ). rewrite HQ by lia.
    pose proof (Z.div_mod (2 * K - S - p) 2 ltac:(lia)). pose proof (Z.mod_pos_bound (2 * K - S - p) 2 ltac:(lia)).
    pose proof (Z.div_mod (num - 1) 2 ltac:(lia)). pose proof (Z.mod_pos_bound (num - 1) 2 ltac:(lia)).
    zcase i g.
    + apply RL; unfold K, S in *; lia.
    + rewrite RR by (unfold K, S in *; lia). f_equal. lia.
Qed.
End Rem.
