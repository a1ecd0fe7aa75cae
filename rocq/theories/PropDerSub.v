(** Derivatives of parts of an object.
    Code: igakit/nurbs.py:1512-1717 (gradient, hessian, derivative) after igakit/nurbs.py:1168-1266 (slice)
    and igakit/nurbs.py:1268-1364 (extract, boundary), with the Fortran behind them.  The statements
    compare results of [derivative] for the part with results of [derivative] for the whole object. *)
From Coq Require Import ZArith Reals QArith List Lia Lra Bool.
From Verif Require Import Num Loop ModelBspline ModelBSp ModelNurbs ModelDer Spec SpecNurbs SpecDer ProofNet ProofCall ProofNurbs ProofGeom ProofGeom2 ProofDerApi
  ProofSpan ProofOk ProofSlice ProofMethods ProofMethods2 ProofIga ProofRemove4 ProofCompat1 ExTac PropNurbs PropDer ProofUniq ProofUniq2 PropUniq ProofAvg4 PropAvg ProofDerSub PropRefuted.
Import ListNotations.
Local Open Scope R_scope.

(** ** C115: a slice has the derivatives of the whole object, along every direction and mapped or
    not, except perhaps at its right end: there the slice only knows the left side. *)
Theorem C115_slice : forall x ax a start end_ junk y, wf_nurbs x -> (1 <= length (n_axes x))%nat -> bounded_knots x -> positive_weights x -> py_axis (n_dim x) ax = Ok a ->
  let A := get_axis x a in let n := (a_size A - 1)%Z in let p := a_deg A in let U := a_knots A in
  let u0 := match start with Some v => v | None => U p end in
  let u1 := match end_ with Some v => v | None => U (n + 1)%Z end in
  continuous_axis A -> separated_list U (n + p + 1) [u0; u1] -> slice (N:=Rn) junk x ax start end_ = Ok y ->
  forall xs order mapped, good_args (spec_axes y) xs -> (1 <= order <= 3)%Z -> (mapped = true -> order = 1%Z) ->
  forall j j2 k k2, exists G G', derivative (N:=Rn) j j2 x order None (map Some xs) mapped = Ok G /\ derivative (N:=Rn) k k2 y order None (map Some xs) mapped = Ok G' /\
  forall idx c D, in_range xs idx -> nth a (params xs idx) 0 < u1 \/ u1 = U (n + 1)%Z ->
    (0 <= c < (if n_comp x =? 4 then 3 else n_comp x - 4))%Z -> Z.of_nat (length D) = order -> dirs (length (n_axes x)) D ->
    G' idx c D = G idx c D.
Proof. exact derivatives_slice. Qed.
Print Assumptions C115_slice.
(** The derivatives of a section are the derivatives of the whole object at the fixed parameter,
    along the remaining directions: direction d of the section is direction d of the object, or
    d + 1 from the removed axis on. *)
Theorem C115_extract : forall x ax a u junk y, wf_nurbs x -> (2 <= length (n_axes x))%nat -> positive_weights x -> py_axis (n_dim x) ax = Ok a ->
  let A := get_axis x a in let n := (a_size A - 1)%Z in let p := a_deg A in let U := a_knots A in
  separated U 0 (n + p + 1) u ->
  (u < U (n + 1)%Z \/ multiplicity U 0 (n + p + 1) u = 1%Z \/ (p <= multiplicity U 0 (n + p + 1) u)%Z) ->
  extract (N:=Rn) junk x ax u = Ok y ->
  forall xs order, good_args (spec_axes y) xs -> (1 <= order <= 3)%Z ->
  forall j j2 k k2, exists G G', derivative (N:=Rn) j j2 x order None (map Some (fix_arg a u xs)) false = Ok G /\ derivative (N:=Rn) k k2 y order None (map Some xs) false = Ok G' /\
  forall idx c D, in_range xs idx -> (0 <= c < (if n_comp x =? 4 then 3 else n_comp x - 4))%Z -> Z.of_nat (length D) = order -> dirs (length (n_axes y)) D ->
    G' idx c D = G (lins a 0%Z idx) c (map (fun d => if (d <? Z.of_nat a)%Z then d else (d + 1)%Z) D).
Proof. exact derivatives_extract. Qed.
Print Assumptions C115_extract.
(** The same of boundaries; sections and boundaries of an object with positive weights have positive
    weights. *)
Theorem C115_boundary : forall x ax a side junk y, wf_nurbs x -> (2 <= length (n_axes x))%nat -> positive_weights x -> py_axis (n_dim x) ax = Ok a ->
  let A := get_axis x a in let n := (a_size A - 1)%Z in let p := a_deg A in let U := a_knots A in
  let u := if (side =? 0)%Z then U p else U (n + 1)%Z in
  separated U 0 (n + p + 1) u ->
  (side = 0%Z \/ multiplicity U 0 (n + p + 1) u = 1%Z \/ (p <= multiplicity U 0 (n + p + 1) u)%Z) ->
  boundary (N:=Rn) junk x ax side = Ok y ->
  positive_weights y /\
  forall xs order, good_args (spec_axes y) xs -> (1 <= order <= 3)%Z ->
  forall j j2 k k2, exists G G', derivative (N:=Rn) j j2 x order None (map Some (fix_arg a u xs)) false = Ok G /\ derivative (N:=Rn) k k2 y order None (map Some xs) false = Ok G' /\
  forall idx c D, in_range xs idx -> (0 <= c < (if n_comp x =? 4 then 3 else n_comp x - 4))%Z -> Z.of_nat (length D) = order -> dirs (length (n_axes y)) D ->
    G' idx c D = G (lins a 0%Z idx) c (map (fun d => if (d <? Z.of_nat a)%Z then d else (d + 1)%Z) D).
Proof. exact derivatives_boundary. Qed.
Print Assumptions C115_boundary.

(** Insertion, refinement, clamping and elevation keep derivatives; nothing has to be known about
    the weights of the result (compare C107_refinement). *)
Theorem C107_calls : forall x y, wf_nurbs x -> (1 <= length (n_axes x))%nat -> bounded_knots x -> positive_weights x -> refinements x y -> averaging_calls x y ->
  forall xs order mapped, good_args (spec_axes x) xs -> (1 <= order <= 3)%Z -> (mapped = true -> order = 1%Z) ->
  forall j j2 k k2, exists G G', derivative (N:=Rn) j j2 x order None (map Some xs) mapped = Ok G /\ derivative (N:=Rn) k k2 y order None (map Some xs) mapped = Ok G' /\
  forall idx c D, in_range xs idx -> (0 <= c < (if n_comp x =? 4 then 3 else n_comp x - 4))%Z -> Z.of_nat (length D) = order -> dirs (length (n_axes x)) D ->
    G' idx c D = G idx c D.
Proof. exact derivatives_calls. Qed.
Print Assumptions C107_calls.
Example C107_example_calls : forall junk, exists y, insert (N:=Rn) junk exS 0 (1 / 2) (Some 1%Z) = Ok y /\ refinements exS y /\ averaging_calls exS y.
Proof.
  intros junk. destruct (C114_example_calls junk) as (y & E & Av & _). exists y. split; auto. split; auto.
  destruct (insert_effect exS 0 0%nat (1 / 2) 1 junk y exS_wf eq_refl (exS_ins (1 / 2) (or_introl eq_refl)) E) as (R1 & _). apply step1; auto.
Qed.

(** The part of exS with first parameter in [1/2, 2], the section at the second parameter 5/2, and
    the boundary at the right end of the second axis. *)
Definition exArgs1 : list (vec Rn) := [mkVec (N:=Rn) 2 (fun i => (IZR i + 1) / 2); mkVec (N:=Rn) 1 (fun _ => 5 / 2)].
Example C115_example : forall junk, exists y, slice (N:=Rn) junk exS 0 (Some (1 / 2)) None = Ok y /\ good_args (spec_axes y) exArgs1 /\
  continuous_axis (get_axis exS 0) /\ separated_list exU 6 [1 / 2; 2] /\ bounded_knots exS /\ positive_weights exS.
Proof.
  intros junk. destruct C25_example as (Cn & Sp & _).
  assert (Sp' : separated_list (a_knots (get_axis exS 0)) 6 [1 / 2; a_knots (get_axis exS 0) 4%Z]) by (replace (a_knots (get_axis exS 0) 4%Z) with 2 by (cbn; unfold exU; arr_lra); exact Sp).
  destruct (slice_ok exS 0 0%nat (Some (1 / 2)) None junk exS_wf eq_refl Cn Sp') as [y E]; try (cbn; unfold exU; arr_lra).
  exists y. split; auto. split; [|split; auto; split; auto; split; [exact exS_bounded|exact exS_pos]].
  destruct (slice_spec exS 0 0%nat (Some (1 / 2)) None junk y exS_wf eq_refl Cn Sp' E) as (_ & _ & _ & _ & _ & (B & EX & D0 & B0 & B1) & _).
  unfold good_args, spec_axes. rewrite EX. cbn [n_axes exS lset map]. constructor; [|constructor; [|constructor]]; cbn [v_len v_get]; (split; [lia|]); intros i Hi; unfold in_domain; cbn [spec_ax x_n x_p x_U].
  - rewrite D0, B0, B1. change (a_knots (get_axis exS 0) (a_size (get_axis exS 0) - 1 + 1)%Z) with (exU 4). replace (exU 4) with 2 by (unfold exU; arr_lra). assert (C : i = 0%Z \/ i = 1%Z) by lia. destruct C as [-> | ->]; lra.
  - cbn. unfold exV. split; arr_lra.
Qed.
Example C115_example_section : forall junk, exists y, extract (N:=Rn) junk exS 1 (5 / 2) = Ok y /\ separated exV 0 7 (5 / 2) /\ 5 / 2 < exV 5 /\
  separated exV 0 7 (exV 5) /\ multiplicity exV 0 7 (exV 5) = 1%Z /\ exists z, boundary (N:=Rn) junk exS 1 1 = Ok z.
Proof.
  intros junk. destruct (extract_ok exS 1 1%nat (5 / 2) junk exS_wf eq_refl) as [y E]; [split; cbn; unfold exV; arr_lra|].
  exists y. split; auto. split; [sepz 0%Z 7%Z|]. assert (E5 : exV 5 = 3) by (unfold exV; arr_lra). rewrite E5. split; [lra|].
  split; [apply exV_sep; auto|]. split; [multz|].
  unfold boundary. cbn [bind assert orb Z.eqb py_axis n_dim].
  destruct (extract_ok exS 1 1%nat 3 junk exS_wf eq_refl) as [r E2]; [split; cbn; unfold exV; arr_lra|]. exists r. exact E2.
Qed.
(** At its right end, when that is a kink of the whole curve, the slice has the other one-sided
    derivative. *)
Definition exKink : nurbs Qn := mkNurbs (N:=Qn) [mkAxis (N:=Qn) 5 8 (ql [0;0;0;1;1;2;2;2]%Q)] 4
  (fun idx c => if (c =? 0)%Z then ql [0;1;2;1;0]%Q (nth 0%nat idx 0%Z) else if (c =? 3)%Z then 1%Q else 0%Q).
Theorem C115_end_refuted : exists x y G G', wfQ x = true /\ slice (N:=Qn) zj x 0 (Some 0%Q) (Some 1%Q) = Ok y /\
  derivative (N:=Qn) zj (fun _ _ => 0%Q) x 1 None [Some (mkVec (N:=Qn) 1 (fun _ => 1%Q))] false = Ok G /\
  derivative (N:=Qn) zj (fun _ _ => 0%Q) y 1 None [Some (mkVec (N:=Qn) 1 (fun _ => 1%Q))] false = Ok G' /\
  G [0%Z] 0%Z [0%Z] = (-2)%Q /\ G' [0%Z] 0%Z [0%Z] = 2%Q.
Proof.
  exists exKink. do 3 eexists. split; [vm_compute; reflexivity|]. split; [reflexivity|]. split; [reflexivity|]. split; [reflexivity|]. split; vm_compute; reflexivity.
Qed.
Print Assumptions C115_end_refuted.
