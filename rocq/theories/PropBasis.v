(** Properties of span search, multiplicities, basis functions and evaluation:
    C01-C06 at the level of the compiled interface. *)
From Coq Require Import ZArith Reals QArith Lia Lra List Bool.
From Verif Require Import Num Loop ModelBspline ModelBSp Spec SumZ BPiece BLink ProofSpan ProofEval ExTac.
Import ListNotations.
Local Open Scope R_scope.

(** ** C01: bsp.FindSpan(p,U,u) always terminates with the right span.
    No assumption on the array: it may be unsorted. *)
Theorem C01_FindSpan_terminates_and_correct : forall (p m : Z) (U : Z -> R) (u : R),
  (1 <= p)%Z -> (2 * p + 1 <= m)%Z ->
  exists k, bsp_FindSpan p m U u = Some k /\ (p <= k <= m - p - 1)%Z /\
    (U k <= u < U (k + 1)%Z \/ (U (m - p)%Z <= u /\ k = (m - p - 1)%Z) \/ (u <= U p /\ k = p)).
Proof.
  intros p m U u Hp Hm. unfold bsp_FindSpan.
  destruct (Z.leb_spec 1 p); [|lia]. destruct (Z.leb_spec (2 * p + 1) m); [|lia]. simpl.
  destruct (FindSpan_generic Rn Rn_weak_order (m - (p + 1)) p u U ltac:(lia)) as [k [E [Hk C]]].
  exists k. split; [exact E|]. split; [lia|]. rn.
  replace (m - (p + 1) + 1)%Z with (m - p)%Z in C by lia.
  destruct C as [[E1 C]|[[E1 [C1 C2]]|[C1 [C2 [C3 C4]]]]].
  - right; left. apply Rleb_true in C. split; [lra|lia].
  - right; right. apply Rleb_true in C2. auto.
  - left. apply Rltb_false in C3. apply Rleb_false in C4. lra.
Qed.
Print Assumptions C01_FindSpan_terminates_and_correct.

(** The same for every carrier whose < and <= satisfy two laws (both hold for IEEE doubles,
    NaN included), in terms of the comparisons themselves. *)
Theorem C01_FindSpan_any_order : forall (N : Num), weak_order N -> forall (p m : Z) (U : Z -> N) (u : N),
  (1 <= p)%Z -> (2 * p + 1 <= m)%Z ->
  exists k, bsp_FindSpan p m U u = Some k /\ (p <= k <= m - p - 1)%Z /\
    ((k = (m - p - 1)%Z /\ nleb N (U (m - p)%Z) u = true) \/ (k = p /\ nleb N u (U p) = true) \/
     (nltb N u (U k) = false /\ nleb N (U (k + 1)%Z) u = false)).
Proof.
  intros N W p m U u Hp Hm. unfold bsp_FindSpan.
  destruct (Z.leb_spec 1 p); [|lia]. destruct (Z.leb_spec (2 * p + 1) m); [|lia]. simpl.
  destruct (FindSpan_generic N W (m - (p + 1)) p u U ltac:(lia)) as [k [E [Hk C]]].
  exists k. split; [exact E|]. split; [lia|].
  replace (m - (p + 1) + 1)%Z with (m - p)%Z in C by lia.
  destruct C as [[E1 C]|[[E1 [C1 C2]]|[C1 [C2 [C3 C4]]]]]; auto.
  left. split; [lia|auto].
Qed.
Print Assumptions C01_FindSpan_any_order.

(** Non-vacuity: an unsorted array and an interior parameter. *)
Example C01_example : bsp_FindSpan (N:=Qn) 2 7 (fun i => nth (Z.to_nat i) [0;0;0;5;1;2;2;2]%Q 0%Q) (1#2)%Q = Some 2%Z.
Proof. vm_compute. reflexivity. Qed.

(** ** C02: bsp.FindMult(p,U,u) is the number of knots equal to u. *)
Theorem C02_FindMult_exact : forall (p m : Z) (U : Z -> R) (u : R),
  (1 <= p)%Z -> (2 * p + 1 <= m)%Z -> nondecreasing U 0 m -> separated U 0 m u ->
  (multiplicity U 0 m u <= p + 1)%Z ->
  bsp_FindMult p m U u (-1) = Some (multiplicity U 0 m u).
Proof.
  intros p m U u Hp Hm M Hs Hc. unfold bsp_FindMult.
  destruct (Z.leb_spec 1 p); [|lia]. destruct (Z.leb_spec (2 * p + 1) m); [|lia]. simpl. f_equal.
  replace m with ((m - (p + 1)) + p + 1)%Z at 2 by lia.
  apply FindMult_exact; try lia; replace (m - (p + 1) + p + 1)%Z with m by lia; auto.
Qed.
Print Assumptions C02_FindMult_exact.

Example C02_example : nondecreasing exU 0 6 /\ separated exU 0 6 1 /\ multiplicity exU 0 6 1 = 1%Z
  /\ separated exU 0 6 2 /\ multiplicity exU 0 6 2 = 3%Z.
Proof.
  split; [apply (wf_mono _ _ _ exU_wf)|].
  assert (E : forall u, (u = 1 \/ u = 2) -> separated exU 0 6 u).
  { intros u Hu j Hj. unfold exU. destruct Hu as [-> | ->];
    enumz j 0%Z 6%Z; cbv [arr nth Z.to_nat Pos.to_nat Pos.iter_op Init.Nat.add];
    ((left; lra) || (right; unfold Rabs; destruct (Rcase_abs _); lra)). }
  split; [apply E; auto|]. split.
  { unfold multiplicity. simpl. unfold exU; cbv [arr nth Z.to_nat Pos.to_nat Pos.iter_op Init.Nat.add].
    repeat (destruct (Req_EM_T _ _); [try (exfalso; lra)|try (exfalso; lra)]). reflexivity. }
  split; [apply E; auto|].
  unfold multiplicity. simpl. unfold exU; cbv [arr nth Z.to_nat Pos.to_nat Pos.iter_op Init.Nat.add].
  repeat (destruct (Req_EM_T _ _); [try (exfalso; lra)|try (exfalso; lra)]). reflexivity.
Qed.

(** ** C03: bsp.EvalBasisFuns(p,U,u) returns the nonzero Cox-de Boor basis functions, whatever
    the output array contained before. *)
Theorem C03_EvalBasisFuns_is_CoxDeBoor : forall (n p : Z) (U : Z -> R) (u : R) (junk : Z -> R),
  (1 <= p)%Z -> wf_knots n p U -> in_domain n p U u ->
  exists k Nf, bsp_FindSpan p (n + p + 1) U u = Some k /\
    bsp_EvalBasisFuns p (n + p + 1) U u (-1) junk = Some Nf /\
    (forall r, (0 <= r <= p)%Z -> Nf r = Nb n p U (k - p + r) u) /\
    (forall i, (0 <= i <= n)%Z -> (i < k - p \/ k < i)%Z -> Nb n p U i u = 0).
Proof.
  intros n p U u junk Hp W D. pose proof (wf_n _ _ _ W).
  unfold bsp_FindSpan, bsp_EvalBasisFuns.
  destruct (Z.leb_spec 1 p); [|lia]. destruct (Z.leb_spec (2 * p + 1) (n + p + 1)); [|lia]. simpl.
  replace (n + p + 1 - (p + 1))%Z with n by lia.
  destruct (FindSpan_generic Rn Rn_weak_order n p u U ltac:(lia)) as [k [E _]].
  assert (Ek : FindSpan n p u U = k) by (unfold FindSpan; rewrite E; reflexivity).
  pose proof (FindSpan_active n p U u W D) as A. rewrite Ek in *.
  exists k, (BasisFuns k u p U junk). split; [exact E|]. split; [reflexivity|]. split.
  - intros r Hr. rewrite BasisFuns_piece by lia. symmetry. eapply Nb_piece; eauto. destruct A; lia.
  - intros i Hi Ho. rewrite (Nb_piece n p U u k i W A Hi). apply B_zero. lia.
Qed.
Print Assumptions C03_EvalBasisFuns_is_CoxDeBoor.

(** The values of the B-spline basis agree with the executable model on a concrete case. *)
Example C03_example : wf_knots 3 2 exU /\ in_domain 3 2 exU (3/2).
Proof. split; [apply exU_wf|]. unfold in_domain, exU. split; arr_lra. Qed.
Example C03_example_value :
  option_map (fun f => (f 0%Z, f 1%Z, f 2%Z))
    (bsp_EvalBasisFuns (N:=Qn) 2 6 (fun i => nth (Z.to_nat i) [0;0;0;1;2;2;2]%Q 0%Q) (3#2)%Q (-1) (fun _ => 77%Q))
  = Some (1#8, 5#8, 1#4)%Q.
Proof. vm_compute. reflexivity. Qed.

(** ** C04: the values returned by EvalBasisFuns sum to one. *)
Theorem C04_partition_of_unity : forall (n p : Z) (U : Z -> R) (u : R) (junk : Z -> R),
  (1 <= p)%Z -> wf_knots n p U -> in_domain n p U u ->
  exists Nf, bsp_EvalBasisFuns p (n + p + 1) U u (-1) junk = Some Nf /\ sumZ 0 p Nf = 1.
Proof.
  intros n p U u junk Hp W D. pose proof (wf_n _ _ _ W).
  unfold bsp_EvalBasisFuns.
  destruct (Z.leb_spec 1 p); [|lia]. destruct (Z.leb_spec (2 * p + 1) (n + p + 1)); [|lia]. simpl.
  replace (n + p + 1 - (p + 1))%Z with n by lia. eexists; split; [reflexivity|].
  pose proof (FindSpan_active n p U u W D) as A. set (k := FindSpan n p u U) in *.
  rewrite (sumZ_ext 0 p _ (fun r => B U k (Z.to_nat p) (r + (k - p)) u)).
  - rewrite <- (sumZ_shift 0 p (k - p) (fun i => B U k (Z.to_nat p) i u)).
    replace (0 + (k - p))%Z with (k - Z.of_nat (Z.to_nat p))%Z by lia. replace (p + (k - p))%Z with k by lia.
    apply B_sum_one. eapply wf_span_ok; eauto. destruct A; lia. eapply active_lt; eauto.
  - intros j Hj. rewrite BasisFuns_piece by lia. f_equal. lia.
Qed.
Print Assumptions C04_partition_of_unity.

(** ** C05: they are nonnegative. *)
Theorem C05_basis_nonnegative : forall (n p : Z) (U : Z -> R) (u : R) (junk : Z -> R),
  (1 <= p)%Z -> wf_knots n p U -> in_domain n p U u ->
  exists Nf, bsp_EvalBasisFuns p (n + p + 1) U u (-1) junk = Some Nf /\
    forall r, (0 <= r <= p)%Z -> 0 <= Nf r.
Proof.
  intros n p U u junk Hp W D. pose proof (wf_n _ _ _ W).
  unfold bsp_EvalBasisFuns.
  destruct (Z.leb_spec 1 p); [|lia]. destruct (Z.leb_spec (2 * p + 1) (n + p + 1)); [|lia]. simpl.
  replace (n + p + 1 - (p + 1))%Z with n by lia. eexists; split; [reflexivity|].
  pose proof (FindSpan_active n p U u W D) as A. set (k := FindSpan n p u U) in *.
  intros r Hr. rewrite BasisFuns_piece by lia. apply B_nonneg.
  - eapply wf_span_ok; eauto. destruct A; lia. eapply active_lt; eauto.
  - eapply active_in; eauto.
Qed.
Print Assumptions C05_basis_nonnegative.
(** The hypotheses of C04 and C05, at the right end of the domain, where the spans are chosen specially. *)
Example C04_C05_example : (1 <= 2)%Z /\ wf_knots 3 2 exU /\ in_domain 3 2 exU 2.
Proof. split; [lia|]. split; [apply exU_wf|]. unfold in_domain, exU. split; arr_lra. Qed.

(** ** C06: the compiled evaluators return the full tensor-product sums.
    Index (j,i) of the result is the point with parameters (X i, Y j): Fortran storage order. *)
Theorem C06_Evaluate1 : forall n p U P r X junk junkC i,
  wf_knots n p U -> (0 <= i <= r)%Z -> in_domain n p U (X i) ->
  Evaluate1 (N:=Rn) n p U P r X junk junkC i = curve n p U P (X i).
Proof.
  intros n p U P r X junk junkC i W Hi D. pose proof (wf_p _ _ _ W).
  rewrite Evaluate1_point by auto. symmetry. apply curve_piece; auto. apply FindSpan_active; auto.
Qed.
Print Assumptions C06_Evaluate1.

Theorem C06_Evaluate2 : forall nx px Ux ny py Uy P rx X ry Y junk sj bj junkC i j,
  wf_knots nx px Ux -> wf_knots ny py Uy -> (0 <= i <= rx)%Z -> (0 <= j <= ry)%Z ->
  in_domain nx px Ux (X i) -> in_domain ny py Uy (Y j) ->
  Evaluate2 (N:=Rn) nx px Ux ny py Uy P rx X ry Y junk sj bj junkC j i =
  surface nx px Ux ny py Uy (fun a b => P b a) (X i) (Y j).
Proof.
  intros. rewrite Evaluate2_point by (auto; eapply wf_p; eauto). rewrite surface_nested. unfold pc2.
  erewrite <- curve_piece; eauto using FindSpan_active.
  unfold curve at 1 2. apply sumZ_ext. intros. f_equal.
  symmetry. apply curve_piece; auto. apply FindSpan_active; auto.
Qed.
Print Assumptions C06_Evaluate2.

Theorem C06_Evaluate3 : forall nx px Ux ny py Uy nz pz Uz P rx X ry Y rz Zs junk sj bj junkC i j k,
  wf_knots nx px Ux -> wf_knots ny py Uy -> wf_knots nz pz Uz ->
  (0 <= i <= rx)%Z -> (0 <= j <= ry)%Z -> (0 <= k <= rz)%Z ->
  in_domain nx px Ux (X i) -> in_domain ny py Uy (Y j) -> in_domain nz pz Uz (Zs k) ->
  Evaluate3 (N:=Rn) nx px Ux ny py Uy nz pz Uz P rx X ry Y rz Zs junk sj bj junkC k j i =
  volume nx px Ux ny py Uy nz pz Uz (fun a b c => P c b a) (X i) (Y j) (Zs k).
Proof.
  intros. rewrite Evaluate3_point by (auto; eapply wf_p; eauto). rewrite volume_nested. unfold pc3.
  erewrite <- curve_piece; eauto using FindSpan_active.
  unfold curve at 1 2. apply sumZ_ext. intros. f_equal. rewrite surface_nested. unfold pc2.
  erewrite <- curve_piece; eauto using FindSpan_active.
  unfold curve at 1 2. apply sumZ_ext. intros. f_equal.
  symmetry. apply curve_piece; auto. apply FindSpan_active; auto.
Qed.
Print Assumptions C06_Evaluate3.

Example C06_example : wf_knots 3 2 exU /\ wf_knots 4 2 exV /\ in_domain 3 2 exU 2 /\ in_domain 4 2 exV (5/2).
Proof.
  split; [apply exU_wf|]. split; [apply exV_wf|]. unfold in_domain, exU, exV. repeat split; arr_lra.
Qed.
