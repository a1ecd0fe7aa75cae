(** Spans given by the caller, and the kernel SurfacePoint. *)
From Coq Require Import ZArith Reals List Bool Lia Lra.
From Verif Require Import Num Loop ModelBspline ModelBSp Spec SumZ BPiece ProofSpan ProofEval.
Local Open Scope R_scope.

Lemma span_unique n p U u k : (1 <= p)%Z -> wf_knots n p U -> (p <= k <= n)%Z -> U k <= u < U (k + 1)%Z \/ (k = n /\ u = U (n + 1)%Z) ->
  FindSpan (N:=Rn) n p u U = k.
Proof.
  intros Hp W Hk Hu. pose proof (wf_n _ _ _ W) as Hn. pose proof (wf_last _ _ _ W) as L.
  destruct (FindSpan_R n p u U ltac:(lia)) as [Q1 Q2]. set (s := FindSpan (N:=Rn) n p u U) in *.
  assert (M : forall i j, (0 <= i)%Z -> (i <= j)%Z -> (j <= n + p + 1)%Z -> U i <= U j) by (intros; apply (wf_mono _ _ _ W); auto).
  destruct (Z.lt_trichotomy s k) as [C|[C|C]]; auto; exfalso.
  - pose proof (M (s + 1)%Z k ltac:(lia) ltac:(lia) ltac:(lia)). pose proof (M k (n + 1)%Z ltac:(lia) ltac:(lia) ltac:(lia)).
    pose proof (M k n ltac:(lia) ltac:(lia) ltac:(lia)). pose proof (wf_first _ _ _ W). pose proof (M (p + 1)%Z (s + 1)%Z ltac:(lia) ltac:(lia) ltac:(lia)).
    destruct Q2 as [[E _]|[[E [G1 G2]]|G2]]; [lia| |]; destruct Hu as [[G3 G4]|[G3 G4]]; rewrite ?E in *; rewrite ?G3 in *; lra.
  - pose proof (M (k + 1)%Z s ltac:(lia) ltac:(lia) ltac:(lia)). pose proof (M (k + 1)%Z (n + 1)%Z ltac:(lia) ltac:(lia) ltac:(lia)).
    destruct Hu as [[G3 G4]|[G3 G4]]; [|lia]. destruct Q2 as [[E G1]|[[E _]|G2]]; [lra|lia|lra].
Qed.

Theorem given_span n p U u k : (1 <= p)%Z -> wf_knots n p U -> (p <= k <= n)%Z -> U k <= u < U (k + 1)%Z \/ (k = n /\ u = U (n + 1)%Z) ->
  bsp_FindMult (N:=Rn) p (n + p + 1) U u k = bsp_FindMult p (n + p + 1) U u (-1) /\
  (forall junk, bsp_EvalBasisFuns (N:=Rn) p (n + p + 1) U u k junk = bsp_EvalBasisFuns p (n + p + 1) U u (-1) junk) /\
  (forall d junk junk2, bsp_EvalBasisFunsDers (N:=Rn) p (n + p + 1) U u d k junk junk2 = bsp_EvalBasisFunsDers p (n + p + 1) U u d (-1) junk junk2).
Proof.
  intros Hp W Hk Hu. pose proof (span_unique n p U u k Hp W Hk Hu) as E.
  unfold bsp_FindMult, bsp_EvalBasisFuns, bsp_EvalBasisFunsDers. replace (n + p + 1 - (p + 1))%Z with n by lia.
  assert (H0 : (0 <=? k)%Z = true) by (apply Z.leb_le; lia). rewrite H0. change (0 <=? -1)%Z with false. cbv iota. rewrite E. repeat split.
Qed.

Theorem surface_point n p U m q V (Pw : Z -> Z -> R) u v junk : (1 <= p)%Z -> (1 <= q)%Z -> wf_knots n p U -> wf_knots m q V -> in_domain n p U u -> in_domain m q V v ->
  SurfacePoint (N:=Rn) n p U m q V Pw u v junk = surface n p U m q V (fun i j => Pw j i) u v.
Proof.
  intros Hp Hq WU WV DU DV.
  transitivity (CurvePoint (N:=Rn) n p U (fun i => CurvePoint (N:=Rn) m q V (fun j => Pw j i) v junk) u junk).
  - unfold SurfacePoint, CurvePoint. rn. rewrite for_up_sum2, for_up_sum. f_equal. apply sumZ_ext. intros i Hi.
    rewrite for_up_sum, Rplus_0_l, <- sumZ_scal. apply sumZ_ext. intros j Hj. ring.
  - rewrite CurvePoint_curve by auto. unfold curve, surface. apply sumZ_ext. intros i Hi. rewrite CurvePoint_curve by auto. unfold curve.
    rewrite <- sumZ_scal. apply sumZ_ext. intros j Hj. ring.
Qed.
