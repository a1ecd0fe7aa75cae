(** Refining an object replaces its control points by averages of control points.
    The results concern insert, clamp, refine and elevate (igakit/nurbs.py:721-796, 887-1167) and slice
    (igakit/nurbs.py:1168-1266), with the Fortran behind them. Specification: [averages] (ProofAvg.v; the
    control points of the result along one axis are combinations of those of the argument, with
    nonnegative coefficients of sum 1, the same for all lines and all homogeneous components),
    [positive_weights], and half-spaces of Cartesian control points and fields ([net_within]). *)
From Coq Require Import ZArith Reals QArith List Bool Lia Lra.
From Verif Require Import Num Loop ModelBspline ModelBSp ModelNurbs Spec SpecNurbs SpecElev SumZ BLink ProofSpan ProofNet ProofCall ProofNurbs ProofMethods ProofMethods2 ProofGeom ProofGeom2
  ProofOk ProofSlice ProofMethods2 ProofIga ProofRemove4 ProofCompat1 ExTac PropNurbs BIndep ProofUniq ProofUniq2 ProofAvg ProofAvg2 ProofAvg3 ProofAvg4 PropUniq PropRefuted.
Import ListNotations.
Local Open Scope R_scope.

(** ** C114 *)
Theorem C114_insert : forall x ax a u times junk y, wf_nurbs x -> bounded_knots x -> py_axis (n_dim x) ax = Ok a ->
  op_ok (Insert u times) (get_axis x a) -> insert (N:=Rn) junk x ax u times = Ok y -> averages a x y /\ bounded_knots y.
Proof. exact insert_averages. Qed.
Print Assumptions C114_insert.
Theorem C114_refine : forall x ax a values junk y, wf_nurbs x -> bounded_knots x -> py_axis (n_dim x) ax = Ok a ->
  op_ok (Refine values) (get_axis x a) -> refine (N:=Rn) junk x ax values = Ok y -> averages a x y /\ bounded_knots y.
Proof. exact refine_averages. Qed.
Print Assumptions C114_refine.
Theorem C114_clamp : forall x ax a side junk y, wf_nurbs x -> bounded_knots x -> py_axis (n_dim x) ax = Ok a ->
  ends_separated (get_axis x a) -> clamp (N:=Rn) junk x ax side = Ok y -> averages a x y /\ bounded_knots y.
Proof. exact clamp_averages. Qed.
Print Assumptions C114_clamp.
Theorem C114_elevate : forall x ax a t junk junk2 y, wf_nurbs x -> bounded_knots x -> py_axis (n_dim x) ax = Ok a ->
  op_ok (Elevate t) (get_axis x a) -> elevate (N:=Rn) junk junk2 x ax t = Ok y -> averages a x y /\ bounded_knots y.
Proof. exact elevate_averages. Qed.
Print Assumptions C114_elevate.
Theorem C114_slice : forall x ax a start end_ junk y, wf_nurbs x -> bounded_knots x -> py_axis (n_dim x) ax = Ok a ->
  let A := get_axis x a in let n := (a_size A - 1)%Z in let p := a_deg A in let U := a_knots A in
  let u0 := match start with Some v => v | None => U p end in
  let u1 := match end_ with Some v => v | None => U (n + 1)%Z end in
  continuous_axis A -> separated_list U (n + p + 1) [u0; u1] ->
  slice (N:=Rn) junk x ax start end_ = Ok y -> averages a x y /\ bounded_knots y.
Proof. exact slice_averages. Qed.
Print Assumptions C114_slice.

(** Any sequence of such calls keeps positive weights positive, and keeps the control points, in
    Cartesian coordinates and with their fields, in every half-space that holds them: their convex
    hull and their bounding box do not grow. *)
Theorem C114_hull : forall x y, wf_nurbs x -> bounded_knots x -> positive_weights x -> averaging_calls x y ->
  positive_weights y /\ forall h b, net_within x h b -> net_within y h b.
Proof. exact calls_keep. Qed.
Print Assumptions C114_hull.

Example C114_example : wf_nurbs exS /\ bounded_knots exS /\ positive_weights exS /\ op_ok (Insert (1 / 2) (Some 1%Z)) (get_axis exS 0) /\
  op_ok (Elevate 2) (get_axis exS 0) /\ ends_separated (get_axis exS 0) /\ continuous_axis (get_axis exS 0) /\ separated_list exU 6 [1 / 2; 2].
Proof.
  split; [exact exS_wf|]. split; [exact exS_bounded|]. split; [exact exS_pos|].
  destruct C102_example as (_ & I1 & _ & Cl & Nt & Ml & Es). destruct C25_example as (Cn & Sp & _).
  split; [|split; [|auto]].
  - destruct I1 as [_ I2]. split; [apply exU_sep; auto|]. destruct I2 as [I2|I2]; [left; rewrite a_hi_eq, a_lo_eq in I2; exact I2|right; exact I2].
  - split; [exact Cl|]. split; [exact Nt|]. split; [exact Ml|]. left. change (a_deg (get_axis exS 0)) with 2%Z. lia.
Qed.
(** The calls of the example are accepted, one after the other, and lead away from the object. *)
Example C114_example_calls : forall junk, exists y, insert (N:=Rn) junk exS 0 (1 / 2) (Some 1%Z) = Ok y /\ averaging_calls exS y /\ a_size (get_axis y 0) = 5%Z.
Proof.
  intros junk. destruct (C102_example_paths junk junk junk junk) as (x1 & _ & _ & _ & E & _).
  destruct C114_example as (_ & _ & _ & Hok & _).
  exists x1. split; auto. split; [apply (more_calls _ x1); [|apply no_calls]; apply (by_insert exS x1 0 0%nat (1 / 2) (Some 1%Z) junk); auto|].
  destruct Hok as [S1 S2].
  destruct (insert_spec exS 0 0%nat (1 / 2) (Some 1%Z) junk x1 exS_wf eq_refl S1 S2 E) as (_ & _ & _ & _ & V & EX & _). unfold get_axis. rewrite EX. reflexivity.
Qed.
(** Unclamping does not average: control points leave the range of the old ones, and a positive
    weight becomes negative. *)
Definition exW : nurbs Qn := mkNurbs (N:=Qn) [mkAxis (N:=Qn) 3 6 (ql [0;0;0;1;1;1]%Q)] 4
  (fun idx c => if (c =? 0)%Z then ql [0;1;2]%Q (nth 0%nat idx 0%Z) else if (c =? 3)%Z then ql [1;4;1]%Q (nth 0%nat idx 0%Z) else 0%Q).
Theorem C114_unclamp_refuted : exists x y, wfQ x = true /\ (forall i, (0 <= i <= 2)%Z -> Qle_bool (n_arr x [i] 3) 0 = false) /\
  unclamp (N:=Qn) zj x 0 None None = Ok y /\ Qle_bool 0 (n_arr y [0%Z] 3) = false.
Proof.
  exists exW. eexists. split; [vm_compute; reflexivity|]. split; [intros i Hi; enumz i 0%Z 2%Z; vm_compute; reflexivity|]. split; [reflexivity|]. vm_compute. reflexivity.
Qed.
Print Assumptions C114_unclamp_refuted.
