(** Refining and changing the parameter commute.
    The results concern igakit/nurbs.py:721-796 and 887-1167 (insert, clamp, unclamp, refine, elevate)
    and igakit/nurbs.py:660-719 (remap).  Specification: equality of the stored knots and control
    points ([same_data]); calls that meet the conditions of C11, C13, C17, C18 and C19 ([op_ok],
    [all_ok]), which are asked for before and after the change of parameter, because the kernels
    compare knots with a fixed tolerance that does not scale; the same calls with the parameters they
    are given changed like the knots ([op_moved], [moved_call]). *)
From Coq Require Import ZArith Reals List Bool Lia Lra.
From Verif Require Import Num Loop ModelBspline ModelBSp ModelNurbs Spec SpecNurbs ProofNet ProofCall ProofNurbs ProofMethods ProofOk ProofGeom
  ProofRemove4 ProofCompat1 ExTac PropNurbs ProofUniq PropUniq ProofEquiv PropEquiv ProofTurn ProofMove.
Import ListNotations.
Local Open Scope R_scope.

(** ** C122: refining a remapped object. *)
(** One call on the axis that is remapped; the axis may be given by different (negative) numbers. *)
Theorem C122_call : forall o x y ax ax' a j j2 start end_ x', wf_nurbs x -> py_axis (n_dim x) ax = Ok a -> py_axis (n_dim x) ax' = Ok a ->
  op_ok o (get_axis x a) -> run o j j2 x ax' = Ok y -> bounded_knots y -> remap (N:=Rn) x ax start end_ = Ok x' ->
  let lo := a_lo (get_axis x a) in let hi := a_hi (get_axis x a) in
  let c := match start with Some c => c | None => lo end in let d := match end_ with Some d => d | None => hi end in
  let g := fun u => c + (u - lo) * (d - c) / (hi - lo) in
  op_ok (op_moved g o) (get_axis x' a) ->
  forall k k2, exists y' z, remap (N:=Rn) y ax start end_ = Ok y' /\ run (op_moved g o) k k2 x' ax' = Ok z /\ same_data y' z.
Proof. exact remap_call. Qed.
Print Assumptions C122_call.
(** A sequence of calls on any axes. *)
Theorem C122_calls : forall l l' x y ax a start end_ x' z, wf_nurbs x -> all_ok l x y -> bounded_knots y -> py_axis (n_dim x) ax = Ok a ->
  remap (N:=Rn) x ax start end_ = Ok x' ->
  let lo := a_lo (get_axis x a) in let hi := a_hi (get_axis x a) in
  let c := match start with Some c => c | None => lo end in let d := match end_ with Some d => d | None => hi end in
  Forall2 (moved_call (n_dim x) a (fun u => c + (u - lo) * (d - c) / (hi - lo))) l l' -> all_ok l' x' z ->
  exists y', remap (N:=Rn) y ax start end_ = Ok y' /\ same_data y' z.
Proof. exact remap_commutes. Qed.
Print Assumptions C122_calls.

(** exS over [10,14] instead of [0,2] along the first axis: 1/2 becomes 11. *)
Example C122_example : exists y x' z, all_ok [(Insert (1 / 2) (Some 1%Z), 0%Z)] exS y /\ bounded_knots y /\ ~ same_knots exS y /\
  remap (N:=Rn) exS (-2) (Some 10) (Some 14) = Ok x' /\ 10 + (1 / 2 - a_lo (get_axis exS 0)) * (14 - 10) / (a_hi (get_axis exS 0) - a_lo (get_axis exS 0)) = 11 /\
  op_ok (Insert 11 (Some 1%Z)) (get_axis x' 0) /\ all_ok [(Insert 11 (Some 1%Z), 0%Z)] x' z /\
  Forall2 (moved_call (n_dim exS) 0 (fun u => 10 + (u - a_lo (get_axis exS 0)) * (14 - 10) / (a_hi (get_axis exS 0) - a_lo (get_axis exS 0))))
    [(Insert (1 / 2) (Some 1%Z), 0%Z)] [(Insert 11 (Some 1%Z), 0%Z)].
Proof.
  destruct C119_example as (y & _ & H & B & K & _). exists y.
  assert (Lo : a_lo (get_axis exS 0) = 0) by (rewrite a_lo_eq; change (exU 2 = 0); unfold exU; arr_lra).
  assert (Hi : a_hi (get_axis exS 0) = 2) by (rewrite a_hi_eq; change (exU 4 = 2); unfold exU; arr_lra).
  assert (G : 10 + (1 / 2 - a_lo (get_axis exS 0)) * (14 - 10) / (a_hi (get_axis exS 0) - a_lo (get_axis exS 0)) = 11) by (rewrite Lo, Hi; field).
  destruct (remap_ok exS (-2) 0%nat (Some 10) (Some 14) exS_wf eq_refl) as [x' Ex]; [lra|].
  destruct (remap_moved exS (-2) 0%nat (Some 10) (Some 14) x' exS_wf eq_refl Ex) as [Hal M]. cbv zeta in M. rewrite Lo, Hi in M.
  assert (Hal' : 0 < (14 - 10) / (2 - 0)) by lra.
  pose proof (mo_axes _ _ _ _ _ M 0%nat ltac:(cbn; lia)) as A. cbn [Nat.eqb] in A.
  assert (OK : op_ok (Insert 11 (Some 1%Z)) (get_axis x' 0)).
  { apply (eq_op_ok _ _ (mvax_wf _ _ Hal' _ (wf_get_axis exS 0 exS_wf ltac:(cbn; lia))) A).
    split.
    - change (separated (fun i => 10 - 0 * ((14 - 10) / (2 - 0)) + (14 - 10) / (2 - 0) * exU i) 0 6 11). sepz 0%Z 6%Z.
    - left. change (10 - 0 * ((14 - 10) / (2 - 0)) + (14 - 10) / (2 - 0) * exU 2 < 11 < 10 - 0 * ((14 - 10) / (2 - 0)) + (14 - 10) / (2 - 0) * exU 4). unfold exU. split; arr_lra. }
  destruct (all_ok_cons _ _ _ _ _ H) as (a0 & j & j2 & y0 & Ea & Hh & E & Hy). injection Ea as <-. inversion Hy; subst.
  destruct (C122_call (Insert (1 / 2) (Some 1%Z)) exS y (-2) 0 0%nat j j2 (Some 10) (Some 14) x' exS_wf eq_refl eq_refl Hh E B Ex) with (k := fun _ : Z => 0) (k2 := fun _ _ : Z => 0) as (y' & z & Ey & Ez & _).
  { cbv zeta. cbn [op_moved]. rewrite G. exact OK. }
  cbn [op_moved] in Ez. rewrite G in Ez. exists x', z.
  split; [exact H|]. split; [exact B|]. split; [exact K|]. split; [exact Ex|]. split; [exact G|]. split; [exact OK|]. split.
  - apply (ok_more (Insert 11 (Some 1%Z)) 0 0%nat (fun _ => 0) (fun _ _ => 0) [] x' z z); [|exact OK|exact Ez|constructor].
    unfold n_dim. rewrite (mo_len _ _ _ _ _ M). reflexivity.
  - constructor; [|constructor]. exists 0%nat. cbn [fst snd Nat.eqb op_moved]. rewrite G. split; [reflexivity|]. split; reflexivity.
Qed.
