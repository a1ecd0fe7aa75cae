(** Refining and renumbering the axes commute.
    The results concern igakit/nurbs.py:721-796 and 887-1167 (insert, clamp, unclamp, refine, elevate)
    and igakit/nurbs.py:513-606 (transpose, swap).  Specification: equality of the stored knots and
    control points ([same_data]); sequences of calls that meet the conditions of C11, C13, C17, C18
    and C19 ([all_ok]); the same calls with the axis arguments renumbered ([same_call]). *)
From Coq Require Import ZArith Reals List Bool Lia Lra.
From Verif Require Import Num Loop ModelBspline ModelBSp ModelNurbs Spec SpecNurbs ProofNet ProofCall ProofNurbs ProofOk ProofPerm ProofGeom
  ProofRemove4 ExTac PropNurbs ProofUniq PropUniq ProofEquiv PropEquiv ProofTurn.
Import ListNotations.
Local Open Scope R_scope.

(** ** C121: refining an object with exchanged or transposed axes. *)
(** [same_call d tau c c']: the same method with the same arguments; the axis of [c] is the one that
    became the axis of [c'] ([tau b] is the old number of the new axis [b]).  Axis arguments may be
    negative in either list. *)
Theorem C121_swap : forall l l' x y ax1 ax2 i j x', wf_nurbs x -> all_ok l x y -> bounded_knots y ->
  py_axis (n_dim x) ax1 = Ok i -> py_axis (n_dim x) ax2 = Ok j -> swap (N:=Rn) x ax1 ax2 = Ok x' ->
  Forall2 (same_call (n_dim x) (fun b => if Nat.eqb b i then j else if Nat.eqb b j then i else b)) l l' ->
  forall junk junk2, exists y' z, swap (N:=Rn) y ax1 ax2 = Ok y' /\ run_all junk junk2 l' x' = Ok z /\ same_data y' z.
Proof. exact swap_commutes. Qed.
Print Assumptions C121_swap.
Theorem C121_transpose : forall l l' x y axes x', wf_nurbs x -> all_ok l x y -> bounded_knots y ->
  permutes (length (n_axes x)) axes -> transpose (N:=Rn) x (Some axes) = Ok x' ->
  Forall2 (same_call (n_dim x) (fun b => Z.to_nat (nth b axes 0%Z))) l l' ->
  forall junk junk2, exists y' z, transpose (N:=Rn) y (Some axes) = Ok y' /\ run_all junk junk2 l' x' = Ok z /\ same_data y' z.
Proof. exact transpose_commutes. Qed.
Print Assumptions C121_transpose.

(** Inserting 1/2 along the first axis of exS is inserting it along the last axis of the swapped
    surface; the two axes differ. *)
Example C121_example : exists y x' x2, all_ok [(Insert (1 / 2) (Some 1%Z), 0%Z)] exS y /\ bounded_knots y /\ ~ same_knots exS y /\
  swap (N:=Rn) exS 0 1 = Ok x' /\ ~ same_knots exS x' /\ permutes (length (n_axes exS)) [1%Z; 0%Z] /\ transpose (N:=Rn) exS (Some [1; 0]%Z) = Ok x2 /\
  Forall2 (same_call (n_dim exS) (fun b => if Nat.eqb b 0 then 1%nat else if Nat.eqb b 1 then 0%nat else b))
    [(Insert (1 / 2) (Some 1%Z), 0%Z)] [(Insert (1 / 2) (Some 1%Z), (-1)%Z)].
Proof.
  destruct C119_example as (y & _ & H & B & K & _). eexists y, _, _. split; [exact H|]. split; [exact B|]. split; [exact K|]. split; [reflexivity|].
  split; [|split; [|split; [|]]].
  - intros F. pose proof (same_knots_get _ _ 0 F ltac:(cbn; lia)) as (E & _). cbn in E. discriminate E.
  - split; [reflexivity|]. split; [repeat constructor; cbn; intuition lia|]. cbn. intuition lia.
  - reflexivity.
  - constructor; [|constructor]. split; [reflexivity|]. exists 1%nat. split; reflexivity.
Qed.
