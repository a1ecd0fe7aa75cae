(** Refining the control net does not make it oscillate more.
    Code: igakit/nurbs.py:721-795 (insert), 887-940 (clamp), 1013-1087 (refine), 1168-1266 (slice), with
    the Fortran behind them.  Specification: [no_new_crossings] (ProofVar.v), about planes and control
    points of the two objects. *)
From Coq Require Import ZArith Reals QArith List Bool Lia Lra.
From Verif Require Import Num Loop ModelBspline ModelBSp ModelNurbs Spec SpecNurbs SumZ ProofSpan ProofNet ProofCall ProofNurbs ProofMethods ProofMethods2 ProofGeom ProofGeom2
  ProofOk ProofSlice ProofIga ProofRemove4 ProofCompat1 ExTac PropNurbs ProofUniq ProofUniq2 ProofAvg ProofAvg2 ProofAvg4 PropUniq PropRefuted PropAvg ProofVar.
Import ListNotations.
Local Open Scope R_scope.

(** ** C116 *)
Theorem C116_insert : forall x ax a u times junk y, wf_nurbs x -> bounded_knots x -> positive_weights x -> py_axis (n_dim x) ax = Ok a ->
  op_ok (Insert u times) (get_axis x a) -> insert (N:=Rn) junk x ax u times = Ok y -> no_new_crossings a x y.
Proof. exact insert_crossings. Qed.
Print Assumptions C116_insert.
Theorem C116_refine : forall x ax a values junk y, wf_nurbs x -> bounded_knots x -> positive_weights x -> py_axis (n_dim x) ax = Ok a ->
  op_ok (Refine values) (get_axis x a) -> refine (N:=Rn) junk x ax values = Ok y -> no_new_crossings a x y.
Proof. exact refine_crossings. Qed.
Print Assumptions C116_refine.
Theorem C116_clamp : forall x ax a side junk y, wf_nurbs x -> bounded_knots x -> positive_weights x -> py_axis (n_dim x) ax = Ok a ->
  ends_separated (get_axis x a) -> clamp (N:=Rn) junk x ax side = Ok y -> no_new_crossings a x y.
Proof. exact clamp_crossings. Qed.
Print Assumptions C116_clamp.
Theorem C116_slice : forall x ax a start end_ junk y, wf_nurbs x -> bounded_knots x -> positive_weights x -> py_axis (n_dim x) ax = Ok a ->
  let A := get_axis x a in let n := (a_size A - 1)%Z in let p := a_deg A in let U := a_knots A in
  let u0 := match start with Some v => v | None => U p end in
  let u1 := match end_ with Some v => v | None => U (n + 1)%Z end in
  continuous_axis A -> separated_list U (n + p + 1) [u0; u1] ->
  slice (N:=Rn) junk x ax start end_ = Ok y -> no_new_crossings a x y.
Proof. exact slice_crossings. Qed.
Print Assumptions C116_slice.

(** The surface exS meets the assumptions, and a plane crosses a line of its control points: the
    coordinates of the control points on the line with second index 0 are (1 + 2 i) / (4 + 2 i). *)
Example C116_example : wf_nurbs exS /\ bounded_knots exS /\ positive_weights exS /\ op_ok (Insert (1 / 2) (Some 1%Z)) (get_axis exS 0) /\
  (forall junk, exists y, insert (N:=Rn) junk exS 0 (1 / 2) (Some 1%Z) = Ok y) /\
  let h := fun k : Z => if (k =? 0)%Z then 2 else if (k =? 3)%Z then - 1 else 0 in side_of exS h [0; 0]%Z * side_of exS h [3; 0]%Z < 0.
Proof.
  destruct C114_example as (H1 & H2 & H3 & H4 & _). split; auto. split; auto. split; auto. split; auto.
  split; [intros junk; destruct (C114_example_calls junk) as (y & E & _); exists y; auto|].
  cbv zeta. unfold side_of. change (n_comp exS - 1)%Z with 4%Z. rewrite !(sumZ_first 0 4), !(sumZ_first (0 + 1) 4), !(sumZ_first (0 + 1 + 1) 4), !(sumZ_first (0 + 1 + 1 + 1) 4), !(sumZ_first (0 + 1 + 1 + 1 + 1) 4), !sumZ_empty by lia.
  assert (Ar : forall i k, n_arr exS [i; 0]%Z k = IZR (1 + i * 2 + k)%Z) by (intros i k; cbn [n_arr exS nth]; f_equal; lia). rewrite !Ar.
  repeat match goal with |- context[IZR ?z] => let v := eval vm_compute in z in progress change (IZR z) with (IZR v) end.
  cbv [Z.add Z.eqb Pos.add Pos.eqb Pos.succ]. lra.
Qed.
(** Unclamping is different: here all control points of the old polygon lie on one side of the plane
    10 X = 9, and the plane crosses the new polygon twice. *)
Definition exPar : nurbs Qn := mkNurbs (N:=Qn) [mkAxis (N:=Qn) 3 6 (ql [0;0;0;1;1;1]%Q)] 4
  (fun idx c => if (c =? 0)%Z then ql [1;3#2;1]%Q (nth 0%nat idx 0%Z) else if (c =? 3)%Z then 1%Q else 0%Q).
Theorem C116_unclamp_refuted : exists x y, wfQ x = true /\ (forall i, (0 <= i <= 2)%Z -> Qle_bool (n_points (N:=Qn) x [i] 0) (9 # 10) = false) /\
  unclamp (N:=Qn) zj x 0 None None = Ok y /\ a_size (get_axis y 0) = 3%Z /\ Qle_bool (9 # 10) (n_points (N:=Qn) y [0%Z] 0) = false /\
  Qle_bool (n_points (N:=Qn) y [1%Z] 0) (9 # 10) = false /\ Qle_bool (9 # 10) (n_points (N:=Qn) y [2%Z] 0) = false.
Proof.
  exists exPar. eexists. split; [vm_compute; reflexivity|]. split; [intros i Hi; enumz i 0%Z 2%Z; vm_compute; reflexivity|]. split; [reflexivity|].
  repeat split; vm_compute; reflexivity.
Qed.
Print Assumptions C116_unclamp_refuted.
