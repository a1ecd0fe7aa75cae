(** Spans given by the caller (C03), the kernels for one point of a curve and of a surface (C06). *)
From Coq Require Import ZArith Reals List Lia Lra.
From Verif Require Import Num Loop ModelBspline ModelBSp Spec ExTac ProofSpan ProofGiven.
Local Open Scope R_scope.

(** ** C03: passing the span that contains the parameter changes nothing. *)
Theorem C03_given_span : forall n p U u k, (1 <= p)%Z -> wf_knots n p U -> (p <= k <= n)%Z -> U k <= u < U (k + 1)%Z \/ (k = n /\ u = U (n + 1)%Z) ->
  bsp_FindMult (N:=Rn) p (n + p + 1) U u k = bsp_FindMult p (n + p + 1) U u (-1) /\
  (forall junk, bsp_EvalBasisFuns (N:=Rn) p (n + p + 1) U u k junk = bsp_EvalBasisFuns p (n + p + 1) U u (-1) junk) /\
  (forall d junk junk2, bsp_EvalBasisFunsDers (N:=Rn) p (n + p + 1) U u d k junk junk2 = bsp_EvalBasisFunsDers p (n + p + 1) U u d (-1) junk junk2).
Proof. exact given_span. Qed.
Print Assumptions C03_given_span.
Example C03_given_example : wf_knots 3 2 exU /\ (2 <= 3 <= 3)%Z /\ exU 3%Z <= 3 / 2 < exU 4%Z.
Proof. split; [apply exU_wf|]. split; [lia|]. unfold exU. split; arr_lra. Qed.

(** ** C06: the point of a curve. *)
Theorem C06_CurvePoint : forall n p U (P : Z -> R) u junk, wf_knots n p U -> in_domain n p U u -> CurvePoint (N:=Rn) n p U P u junk = curve n p U P u.
Proof. exact ProofSpan.CurvePoint_curve. Qed.
Print Assumptions C06_CurvePoint.
Example C06_CurvePoint_example : wf_knots 3 2 exU /\ in_domain 3 2 exU (3 / 2).
Proof. split; [apply exU_wf|]. unfold in_domain, exU. split; arr_lra. Qed.
(** ** C06: the point of a surface.  The control net is stored transposed. *)
Theorem C06_SurfacePoint : forall n p U m q V (Pw : Z -> Z -> R) u v junk, (1 <= p)%Z -> (1 <= q)%Z -> wf_knots n p U -> wf_knots m q V ->
  in_domain n p U u -> in_domain m q V v ->
  SurfacePoint (N:=Rn) n p U m q V Pw u v junk = surface n p U m q V (fun i j => Pw j i) u v.
Proof. exact surface_point. Qed.
Print Assumptions C06_SurfacePoint.
Example C06_SurfacePoint_example : wf_knots 3 2 exU /\ wf_knots 4 2 exV /\ in_domain 3 2 exU (3 / 2) /\ in_domain 4 2 exV (5 / 2).
Proof. split; [apply exU_wf|]. split; [apply exV_wf|]. unfold in_domain, exU, exV. repeat split; arr_lra. Qed.
