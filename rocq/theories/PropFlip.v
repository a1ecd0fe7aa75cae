(** Refining and reversing commute.
    The results concern igakit/nurbs.py:721-796 and 887-1167 (insert, clamp, unclamp, refine, elevate)
    and igakit/nurbs.py:608-657 (reverse).  Specification: equality of the stored knots and control
    points ([same_data]); calls that meet the conditions of C11, C13, C17, C18 and C19 ([op_ok],
    [all_ok]); the same calls made at the other end of the reversed axis ([op_flipped],
    [flipped_call]): a knot u becomes lo + hi - u and side 0 becomes side 1. *)
From Coq Require Import ZArith Reals List Bool Lia Lra.
From Verif Require Import Num Loop ModelBspline ModelBSp ModelNurbs ModelTransform Spec SpecNurbs BLink ProofNet ProofCall ProofNurbs ProofMethods ProofOk ProofGeom ProofGeom2
  ProofRemove4 ProofCompat1 ProofCompat3 ProofRuled ExTac PropNurbs ProofUniq PropUniq ProofUniq2 ProofEquiv PropEquiv ProofTurn ProofMove ProofFlip.
Import ListNotations.
Local Open Scope R_scope.

(** ** C123: refining a reversed object. *)
(** The calls at the other end are accepted and give the reversed result, for degrees up to 9. *)
Theorem C123_calls : forall l l' x y ax a x', wf_nurbs x -> all_ok l x y -> bounded_knots y -> py_axis (n_dim x) ax = Ok a ->
  continuous_axis (get_axis x a) -> continuous_axis (get_axis y a) -> (a_deg (get_axis y a) <= 9)%Z -> reverse (N:=Rn) x [ax] = Ok x' ->
  Forall2 (flipped_call (n_dim x) a (a_lo (get_axis x a) + a_hi (get_axis x a))) l l' ->
  exists y' z, reverse (N:=Rn) y [ax] = Ok y' /\ all_ok l' x' z /\ same_data y' z.
Proof. exact reverse_accepts. Qed.
Print Assumptions C123_calls.
(** For any degree, if the calls at the other end are accepted and meet their conditions as well. *)
Theorem C123_any_degree : forall l l' x y ax a x' z, wf_nurbs x -> all_ok l x y -> bounded_knots y -> py_axis (n_dim x) ax = Ok a ->
  continuous_axis (get_axis x a) -> continuous_axis (get_axis y a) -> reverse (N:=Rn) x [ax] = Ok x' ->
  Forall2 (flipped_call (n_dim x) a (a_lo (get_axis x a) + a_hi (get_axis x a))) l l' -> all_ok l' x' z ->
  exists y', reverse (N:=Rn) y [ax] = Ok y' /\ same_data y' z.
Proof. exact reverse_commutes. Qed.
Print Assumptions C123_any_degree.

(** exS over [0,2] along the first axis: inserting 1/2 and reversing is reversing and inserting 3/2. *)
Example C123_example : exists y x' z, all_ok [(Insert (1 / 2) (Some 1%Z), 0%Z)] exS y /\ bounded_knots y /\ ~ same_knots exS y /\
  continuous_axis (get_axis exS 0) /\ continuous_axis (get_axis y 0) /\ a_deg (get_axis y 0) = 2%Z /\ reverse (N:=Rn) exS [(-2)%Z] = Ok x' /\
  Forall2 (flipped_call (n_dim exS) 0 (a_lo (get_axis exS 0) + a_hi (get_axis exS 0))) [(Insert (1 / 2) (Some 1%Z), 0%Z)] [(Insert (3 / 2) (Some 1%Z), (-2)%Z)] /\
  all_ok [(Insert (3 / 2) (Some 1%Z), (-2)%Z)] x' z.
Proof.
  destruct C119_example as (y & _ & H & B & K & _).
  assert (Lo : a_lo (get_axis exS 0) = 0) by (rewrite a_lo_eq; change (exU 2 = 0); unfold exU; arr_lra).
  assert (Hi : a_hi (get_axis exS 0) = 2) by (rewrite a_hi_eq; change (exU 4 = 2); unfold exU; arr_lra).
  assert (Cx : continuous_axis (get_axis exS 0)) by (change (mult_le 3 2 exU); intros i Hj; enumz i 3%Z 3%Z; unfold exU; arr_lra).
  destruct (all_ok_ends _ _ _ 0%nat H exS_wf ltac:(cbn; lia)) as [LoY HiY].
  destruct (all_ok_cons _ _ _ _ _ H) as (a0 & j & j2 & y0 & Ea & Hh & E & Hy). injection Ea as <-. inversion Hy; subst.
  destruct (op_spec _ exS 0 0%nat j j2 y exS_wf eq_refl Hh E) as (P & A & X & Af).
  assert (EA : get_axis y 0 = A) by (rewrite (get_lset exS y 0 A 0 X ltac:(cbn; lia)); reflexivity).
  destruct Af as (_ & _ & Dg & Mu). change (a_deg (get_axis exS 0)) with 2%Z in Dg.
  assert (Cy : continuous_axis (get_axis y 0)).
  { apply mults_continuous; [apply wf_get_axis; [apply P|rewrite X, lset_length; cbn; lia]|]. rewrite LoY, HiY, Lo, Hi, EA, Dg. intros v Hv. rewrite Mu.
    assert (mulA (get_axis exS 0) v <= 1)%Z by (unfold mulA; change (multiplicity exU 0 6 v <= 1)%Z; unfold multiplicity, exU; simpl; cbv [arr nth Z.to_nat Pos.to_nat Pos.iter_op Init.Nat.add]; destruct (Req_EM_T 0 v); [lra|]; destruct (Req_EM_T 2 v); [lra|]; destruct (Req_EM_T 1 v); lia). destruct (Req_EM_T v (1 / 2)); lia. }
  destruct (reverse_one exS (-2) 0%nat eq_refl) as [x' Ex].
  assert (F : Forall2 (flipped_call (n_dim exS) 0 (a_lo (get_axis exS 0) + a_hi (get_axis exS 0))) [(Insert (1 / 2) (Some 1%Z), 0%Z)] [(Insert (3 / 2) (Some 1%Z), (-2)%Z)]).
  { constructor; [|constructor]. exists 0%nat. cbn [fst snd Nat.eqb op_flipped]. split; [reflexivity|]. split; [reflexivity|]. rewrite Lo, Hi. f_equal. lra. }
  destruct (C123_calls _ _ exS y (-2) 0%nat x' exS_wf H B eq_refl Cx Cy ltac:(rewrite EA, Dg; lia) Ex F) as (y' & z & _ & Hz & _).
  exists y, x', z. split; [exact H|]. split; [exact B|]. split; [exact K|]. split; [exact Cx|]. split; [exact Cy|]. split; [rewrite EA; exact Dg|]. split; [exact Ex|]. split; [exact F|exact Hz].
Qed.
