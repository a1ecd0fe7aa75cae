(** Integer overflow (C37, C73). *)
From Coq Require Import ZArith Reals QArith List Bool Lia.
From Verif Require Import Num Loop ModelBspline ModelBSp ModelInt32.
Import ListNotations.
Local Open Scope Z_scope.

Lemma i32_id z : -2147483648 <= z <= 2147483647 -> i32 z = z.
Proof. intros. unfold i32. rewrite Z.mod_small; lia. Qed.
(** The descending product p (p-1) ... (p-k). *)
Fixpoint ffact (p : Z) (k : nat) : Z := match k with O => p | S k' => ffact p k' * (p - Z.of_nat k) end.

Lemma scale_agree (N : Num) p n (ders : Z -> Z -> N) : (forall k, Z.of_nat k <= n -> -2147483648 <= ffact p k <= 2147483647) ->
  0 <= n -> Ders_scale32 p n ders = Ders_scale p n ders.
Proof.
  intros H Hn. unfold Ders_scale32, Ders_scale. rewrite i32_id by (apply (H O); lia).
  assert (G : forall c k d, (Z.of_nat c + k = n + 1) -> 1 <= k ->
    fst (iter_up c k (fun k (s : (Z -> Z -> N) * Z) => let '(ders, r) := s in
       ((fun x y => if (y =? k) && (0 <=? x) && (x <=? p) then nmul N (ders x y) (nofZ N r) else ders x y), i32 (r * (p - k)))) (d, ffact p (Z.to_nat (k - 1))))
    = fst (iter_up c k (fun k (s : (Z -> Z -> N) * Z) => let '(ders, r) := s in
       ((fun x y => if (y =? k) && (0 <=? x) && (x <=? p) then nmul N (ders x y) (nofZ N r) else ders x y), r * (p - k))) (d, ffact p (Z.to_nat (k - 1))))).
  { induction c; intros k d Hc Hk; [reflexivity|]. cbn [iter_up].
    assert (E : ffact p (Z.to_nat (k - 1)) * (p - k) = ffact p (Z.to_nat (k + 1 - 1))).
    { replace (Z.to_nat (k + 1 - 1)) with (S (Z.to_nat (k - 1))) by lia. cbn [ffact]. f_equal. lia. }
    rewrite E. rewrite i32_id by (apply H; lia). apply IHc; lia. }
  unfold for_up. apply (G (Z.to_nat (n + 1 - 1)) 1 ders); lia.
Qed.
Lemma ffact_pos p k : Z.of_nat k < p -> 0 < ffact p k.
Proof. induction k; cbn [ffact]; intros; [lia|]. assert (0 < ffact p k) by (apply IHk; lia). nia. Qed.
Lemma ffact_mono p q k : 0 <= p <= q -> Z.of_nat k <= p -> 0 <= ffact p k <= ffact q k.
Proof.
  intros Hp. induction k; cbn [ffact]; intros; [lia|]. assert (0 <= ffact p k <= ffact q k) by (apply IHk; lia). split; [nia|].
  apply Z.mul_le_mono_nonneg; lia.
Qed.
Lemma ffact12 k : Z.of_nat k <= 12 -> ffact 12 k <= 2147483647.
Proof. intros H. do 13 (destruct k; [vm_compute; discriminate|]). lia. Qed.
Lemma ffact75 k : Z.of_nat k <= 4 -> ffact 75 k <= 2147483647.
Proof. intros H. do 5 (destruct k; [vm_compute; discriminate|]). lia. Qed.

(** ** C37: up to degree 12 for any order, and up to degree 75 for orders up to four (the orders
    used by gradient, hessian and derivative), every intermediate factor fits and the result is
    that of exact integer arithmetic. *)
Theorem C37_no_overflow : forall (N : Num) p m (U : Z -> N) u d junk junk2, 1 <= p -> 0 <= d <= p -> p <= 12 \/ (p <= 75 /\ d <= 4) ->
  (forall k, Z.of_nat k <= d -> -2147483648 <= ffact p k <= 2147483647) /\
  bsp_EvalBasisFunsDers32 p m U u d junk junk2 = bsp_EvalBasisFunsDers p m U u d (-1) junk junk2.
Proof.
  intros N p m U u d junk junk2 Hp Hd Hc.
  assert (H : forall k, Z.of_nat k <= d -> -2147483648 <= ffact p k <= 2147483647).
  { intros k Hk. destruct Hc as [Hc|[Hc Hd4]].
    - pose proof (ffact_mono p 12 k ltac:(lia) ltac:(lia)). pose proof (ffact12 k ltac:(lia)). lia.
    - pose proof (ffact_mono p 75 k ltac:(lia) ltac:(lia)). pose proof (ffact75 k ltac:(lia)). lia. }
  split; auto. unfold bsp_EvalBasisFunsDers32, bsp_EvalBasisFunsDers. cbn [Z.leb Z.compare].
  destruct ((1 <=? p) && (2 * p + 1 <=? m) && (0 <=? d) && (d <=? p)); auto. f_equal.
  unfold DersBasisFuns32, DersBasisFuns. destruct (for_up 0 p _ _) as [a ders]. rewrite scale_agree; auto. lia.
Qed.
Print Assumptions C37_no_overflow.
Example C37_example : 1 <= 12 /\ 0 <= 12 <= 12 /\ ffact 12 11 = 479001600.
Proof. repeat split; try lia; vm_compute; reflexivity. Qed.

(** Degree 13 (27 knots plus one, all legal): the factor of the 12th derivative is 13!/1! =
    6227020800, which does not fit; the 12th derivative of the last Bernstein polynomial at 1/2 is
    returned with the factor 1932053504 instead (half of each is what the table holds). *)
Definition bez13 : Z -> Q := fun i => if i <? 14 then 0%Q else 1%Q.
Theorem C37_overflow_refuted : exists p m (U : Z -> Q) u d, 1 <= p /\ 2 * p + 1 <= m /\ 0 <= d <= p /\ (0 <= u <= 1)%Q /\
  exists T T', bsp_EvalBasisFunsDers32 (N:=Qn) p m U u d (fun _ => 0%Q) (fun _ _ => 0%Q) = Some T /\
    bsp_EvalBasisFunsDers (N:=Qn) p m U u d (-1) (fun _ => 0%Q) (fun _ _ => 0%Q) = Some T' /\
    T' 12 13 = 3113510400%Q /\ T 12 13 = 966026752%Q.
Proof.
  exists 13, 27, bez13, (1 # 2)%Q, 13. split; [lia|]. split; [lia|]. split; [lia|]. split; [split; vm_compute; discriminate|].
  do 2 eexists. split; [reflexivity|]. split; [reflexivity|]. split; vm_compute; reflexivity.
Qed.
Print Assumptions C37_overflow_refuted.

(** ** C73: the binomial coefficients of degree elevation. *)
Theorem C73_no_overflow : forall n k, 0 <= n <= 29 -> 0 <= k <= n -> Bin32 n k = Bin n k.
Proof.
  intros n k Hn Hk.
  assert (G : forallb (fun n => forallb (fun k => Bin32 (Z.of_nat n) (Z.of_nat k) =? Bin (Z.of_nat n) (Z.of_nat k)) (seq 0 (S n))) (seq 0 30) = true)
    by (vm_compute; reflexivity).
  rewrite forallb_forall in G. specialize (G (Z.to_nat n)). rewrite in_seq in G. specialize (G ltac:(lia)).
  rewrite forallb_forall in G. specialize (G (Z.to_nat k)). rewrite in_seq in G. specialize (G ltac:(lia)).
  apply Z.eqb_eq in G. rewrite !Z2Nat.id in G by lia. exact G.
Qed.
Print Assumptions C73_no_overflow.
Example C73_example : 0 <= 29 <= 29 /\ 0 <= 14 <= 29 /\ Bin32 29 14 = 77558760.
Proof. split; [lia|]. split; [lia|]. vm_compute. reflexivity. Qed.
Theorem C73_overflow_refuted : exists n k, 0 <= k <= n /\ n = 30 /\ Bin n k = 155117520 /\ Bin32 n k = -131213633.
Proof. exists 30, 15. repeat split; try lia; vm_compute; reflexivity. Qed.
Print Assumptions C73_overflow_refuted.
