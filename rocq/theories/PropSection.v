(** Refining and taking a section commute.
    The results concern igakit/nurbs.py:721-796 and 887-1167 (insert, clamp, unclamp, refine, elevate),
    igakit/nurbs.py:1268-1341 (extract) and igakit/nurbs.py:1343-1364 (boundary).  Specification:
    equality of the stored knots and control points ([same_data]); calls that meet the conditions of
    C11, C13, C17, C18 and C19 ([all_ok]); the calls that remain for the section ([section_calls]);
    the condition of C15 for the value of the section ([cut_ok]). *)
From Coq Require Import ZArith Reals List Bool Lia Lra.
From Verif Require Import Num Loop ModelBspline ModelBSp ModelNurbs ModelTransform Spec SpecNurbs BLink ProofNet ProofCall ProofNurbs ProofMethods ProofOk ProofGeom ProofGeom2
  ProofRemove4 ProofCompat1 ProofCompat3 ProofRuled ExTac PropNurbs ProofUniq PropUniq ProofEquiv PropEquiv ProofTurn ProofMove ProofFlip ProofSection.
Import ListNotations.
Local Open Scope R_scope.

(** ** C124: sections of a refined object. *)
Theorem C124_extract : forall l l' x y ax a u junk x', wf_nurbs x -> all_ok l x y -> bounded_knots y -> py_axis (n_dim x) ax = Ok a ->
  cut_ok (get_axis x a) u -> cut_ok (get_axis y a) u -> extract (N:=Rn) junk x ax u = Ok x' -> section_calls (n_dim x) a l l' ->
  forall junk' k k2, exists y' z, extract (N:=Rn) junk' y ax u = Ok y' /\ run_all k k2 l' x' = Ok z /\ same_data y' z.
Proof. exact extract_commutes. Qed.
Print Assumptions C124_extract.
Theorem C124_boundary : forall l l' x y ax a side junk x', wf_nurbs x -> all_ok l x y -> bounded_knots y -> py_axis (n_dim x) ax = Ok a ->
  let u := if (side =? 0)%Z then a_lo (get_axis x a) else a_hi (get_axis x a) in
  cut_ok (get_axis x a) u -> cut_ok (get_axis y a) u -> boundary (N:=Rn) junk x ax side = Ok x' -> section_calls (n_dim x) a l l' ->
  forall junk' k k2, exists y' z, boundary (N:=Rn) junk' y ax side = Ok y' /\ run_all k k2 l' x' = Ok z /\ same_data y' z.
Proof. exact boundary_commutes. Qed.
Print Assumptions C124_boundary.

(** exS refined along its first axis, cut along the second: inside at 1/2 and at the right end 3.
    The section is a curve, whose only axis may be called -1. *)
Example C124_example : exists y x' x'', all_ok [(Insert (1 / 2) (Some 1%Z), 0%Z)] exS y /\ bounded_knots y /\ ~ same_knots exS y /\
  cut_ok (get_axis exS 1) (1 / 2) /\ cut_ok (get_axis y 1) (1 / 2) /\ extract (N:=Rn) (fun _ => 77) exS (-1) (1 / 2) = Ok x' /\
  a_hi (get_axis exS 1) = 3 /\ cut_ok (get_axis exS 1) 3 /\ cut_ok (get_axis y 1) 3 /\ boundary (N:=Rn) (fun _ => 77) exS 1 1 = Ok x'' /\
  section_calls (n_dim exS) 1 [(Insert (1 / 2) (Some 1%Z), 0%Z)] [(Insert (1 / 2) (Some 1%Z), (-1)%Z)] /\
  section_calls (n_dim exS) 0 [(Insert (1 / 2) (Some 1%Z), 0%Z)] [].
Proof.
  destruct C119_example as (y & _ & H & B & K & _). exists y.
  destruct (all_ok_cons _ _ _ _ _ H) as (a0 & j & j2 & y0 & Ea & Hh & E & Hy). injection Ea as <-. inversion Hy; subst.
  destruct (op_spec _ exS 0 0%nat j j2 y exS_wf eq_refl Hh E) as (P & A & X & _).
  assert (E1 : get_axis y 1 = get_axis exS 1) by (rewrite (get_lset exS y 0 A 1 X ltac:(cbn; lia)); reflexivity).
  assert (C1 : cut_ok (get_axis exS 1) (1 / 2)).
  { split; [|split]; [change (in_domain 4 2 exV (1 / 2)); split; unfold exV; arr_lra|apply (exV_sep (1 / 2)); auto|left; change (1 / 2 < exV 5%Z); unfold exV; arr_lra]. }
  assert (C2 : cut_ok (get_axis exS 1) 3).
  { split; [|split]; [change (in_domain 4 2 exV 3); split; unfold exV; arr_lra|apply (exV_sep 3); auto|right; left; change (multiplicity exV 0 7 3 = 1%Z); multz]. }
  destruct (extract_ok exS (-1) 1%nat (1 / 2) (fun _ => 77) exS_wf eq_refl (proj1 C1)) as [x' Ex]. destruct C16_example as [x'' Eb]. exists x', x''.
  split; [exact H|]. split; [exact B|]. split; [exact K|]. split; [exact C1|]. split; [rewrite E1; exact C1|]. split; [exact Ex|].
  split; [rewrite a_hi_eq; change (exV 5%Z = 3); unfold exV; arr_lra|]. split; [exact C2|]. split; [rewrite E1; exact C2|]. split; [exact Eb|]. split.
  - apply (sc_keep _ _ _ 0 (-1) 0%nat); [reflexivity|reflexivity|constructor].
  - apply sc_cut; [reflexivity|constructor].
Qed.
