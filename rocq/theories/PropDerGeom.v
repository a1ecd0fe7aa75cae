(** Derivatives depend on the geometry, not on how it is represented.
    Code: igakit/nurbs.py:1512-1717 (gradient, hessian, derivative) after igakit/nurbs.py:721-796 and
    887-1167 (insert, clamp, unclamp, refine, elevate) and 660-719 (remap).  The statements compare
    results of the methods with each other ([evaluate_alike], [same_dom], [refinements] of PropUniq.v). *)
From Coq Require Import ZArith Reals List Lia Lra Bool.
From Verif Require Import Num Loop ModelBspline ModelBSp ModelNurbs ModelDer Spec SpecNurbs SpecDer ProofNet ProofCall ProofNurbs ProofGeom ProofGeom2 ProofDerApi
  ProofSpan ProofMethods ProofMethods2 ProofRemove4 ProofCompat1 ExTac PropNurbs PropDer ProofUniq ProofUniq2 PropUniq ProofDerGeom ProofDerGeom2.
Import ListNotations.
Local Open Scope R_scope.

(** ** C107: objects over the same domain that evaluate alike have the same derivatives, also at
    knots of one of them which are no knots of the other. *)
Theorem C107_evaluation : forall x y, wf_nurbs x -> wf_nurbs y -> (1 <= length (n_axes x))%nat -> n_comp y = n_comp x ->
  Forall2 same_dom (spec_axes x) (spec_axes y) -> positive_weights x -> positive_weights y -> evaluate_alike x y ->
  forall xs order mapped, good_args (spec_axes x) xs -> (1 <= order <= 3)%Z -> (mapped = true -> order = 1%Z) ->
  forall j j2 k k2, exists G G', derivative (N:=Rn) j j2 x order None (map Some xs) mapped = Ok G /\ derivative (N:=Rn) k k2 y order None (map Some xs) mapped = Ok G' /\
  forall idx c D, in_range xs idx -> (0 <= c < (if n_comp x =? 4 then 3 else n_comp x - 4))%Z -> Z.of_nat (length D) = order -> dirs (length (n_axes x)) D ->
    G' idx c D = G idx c D.
Proof. exact derivatives_follow_evaluation. Qed.
Print Assumptions C107_evaluation.
(** Insertion, refinement, clamping, unclamping and elevation do not change derivatives. *)
Theorem C107_refinement : forall x y, wf_nurbs x -> (1 <= length (n_axes x))%nat -> refinements x y -> positive_weights x -> nonzero_weights y ->
  forall xs order mapped, good_args (spec_axes x) xs -> (1 <= order <= 3)%Z -> (mapped = true -> order = 1%Z) ->
  forall j j2 k k2, exists G G', derivative (N:=Rn) j j2 x order None (map Some xs) mapped = Ok G /\ derivative (N:=Rn) k k2 y order None (map Some xs) mapped = Ok G' /\
  forall idx c D, in_range xs idx -> (0 <= c < (if n_comp x =? 4 then 3 else n_comp x - 4))%Z -> Z.of_nat (length D) = order -> dirs (length (n_axes x)) D ->
    G' idx c D = G idx c D.
Proof. exact derivatives_refinement. Qed.
Print Assumptions C107_refinement.
(** A component with equal control values, such as the weights of a polynomial object, keeps them. *)
Theorem C107_constant : forall x y q v, wf_nurbs x -> refinements x y -> bounded_knots y -> (0 <= q < n_comp x)%Z ->
  (forall i, in_net (spec_axes x) i -> n_arr x i q = v) -> forall i, in_net (spec_axes y) i -> n_arr y i q = v.
Proof. exact constant_component. Qed.
Print Assumptions C107_constant.
(** Remapping scales derivatives by the ratio of the lengths of the domains, once for each
    differentiation along the remapped axis. *)
Theorem C107_remap : forall nrb ax a start end_ nrb', wf_nurbs nrb -> py_axis (n_dim nrb) ax = Ok a -> positive_weights nrb ->
  let A := get_axis nrb a in let lo := a_lo A in let hi := a_hi A in
  let c := match start with Some c => c | None => lo end in
  let d := match end_ with Some d => d | None => hi end in
  let g := fun x => c + (x - lo) * (d - c) / (hi - lo) in
  remap (N:=Rn) nrb ax start end_ = Ok nrb' ->
  forall xs order, good_args (spec_axes nrb) xs -> (1 <= order <= 3)%Z ->
  forall j j2 k k2, exists G G', derivative (N:=Rn) j j2 nrb order None (map Some xs) false = Ok G /\
    derivative (N:=Rn) k k2 nrb' order None (map Some (map_arg a g xs)) false = Ok G' /\
  forall idx q D, in_range xs idx -> Z.of_nat (length D) = order -> dirs (length (n_axes nrb)) D ->
    G idx q D = ((d - c) / (hi - lo)) ^ count_occ Z.eq_dec D (Z.of_nat a) * G' idx q D.
Proof. exact derivatives_remap. Qed.
Print Assumptions C107_remap.

(** The surface exS and the same surface with all homogeneous coordinates doubled. *)
Definition exS2 : nurbs Rn := mkNurbs (n_axes exS) 5 (fun idx c => 2 * n_arr exS idx c).
Lemma exS2_hom c us : in_box (spec_axes exS) us -> hom exS2 c us = 2 * hom exS c us.
Proof. intros I. unfold hom. apply (tsum_scal (spec_axes exS) (fun i => n_arr exS i c) 2). clear - I. revert us I. generalize (spec_axes exS). intros l us I. induction I; cbn; auto. Qed.
Example C107_example : wf_nurbs exS2 /\ Forall2 same_dom (spec_axes exS) (spec_axes exS2) /\ positive_weights exS /\ positive_weights exS2 /\ evaluate_alike exS exS2 /\
  good_args (spec_axes exS) exArgs /\ n_arr exS2 [0; 0]%Z 0%Z <> n_arr exS [0; 0]%Z 0%Z /\ exists nrb', remap (N:=Rn) exS 1 (Some (-5)) None = Ok nrb'.
Proof.
  assert (W : wf_nurbs exS2) by exact exS_wf. split; [exact W|]. split; [apply ProofNurbs.Forall2_refl; split; reflexivity|]. split; [exact exS_pos|].
  split. { intros i I. pose proof (exS_pos i I) as H. unfold n_weights in *. cbn [n_arr exS2]. change (T Rn) with R in *. lra. }
  split.
  { intros xs j j2 j3 jS k k2 k3 kS C F C' F' G E E' idx c Rg.
    destruct (call_pt exS xs exS_wf G j j2 j3 jS) as (C1 & F1 & E1 & H1). rewrite E in E1. injection E1 as <- <-.
    destruct (call_pt exS2 xs W G k k2 k3 kS) as (C2 & F2 & E2 & H2). rewrite E' in E2. injection E2 as <- <-.
    pose proof (params_box _ _ _ G Rg) as I. pose proof (weight_pos exS _ exS_wf exS_pos I) as P3.
    assert (P : forall c, pt exS2 c (params xs idx) = pt exS c (params xs idx)).
    { intros c'. unfold pt. rewrite !exS2_hom by auto. field. lra. }
    split; intros _; [rewrite (proj1 (H1 idx c Rg)), (proj1 (H2 idx c Rg))|rewrite (proj2 (H1 idx c Rg)), (proj2 (H2 idx c Rg))]; apply P. }
  split; [exact exArgs_good|]. split; [simpl; lra|]. exact (proj2 C27_example).
Qed.
(** A polynomial curve and a knot inserted into it. *)
Definition exPoly : nurbs Rn := mkNurbs [mkAxis (N:=Rn) 4 7 exU] 4 (fun idx c => if (c =? 3)%Z then 1 else IZR (nth 0 idx 0 * (c + 1))%Z).
Example C107_example_refinement : forall junk, exists y, insert (N:=Rn) junk exPoly 0 (1 / 2) (Some 1%Z) = Ok y /\ refinements exPoly y /\ bounded_knots y /\
  positive_weights exPoly /\ nonzero_weights y.
Proof.
  intros junk. assert (W : wf_nurbs exPoly).
  { split; [simpl; lia|]. split; [|simpl; lia]. constructor; [|constructor]. split; simpl; try (unfold a_deg; simpl; lia). exact exU_wf. }
  assert (I1 : ins_ok (get_axis exPoly 0) (1 / 2)) by exact (exS_ins (1 / 2) (or_introl eq_refl)).
  assert (A0 : mulA (get_axis exPoly 0) (1 / 2) = 0%Z) by (unfold mulA; change (multiplicity exU 0 6 (1 / 2) = 0%Z); multz).
  assert (L : a_lo (get_axis exPoly 0) <= 1 / 2 <= a_hi (get_axis exPoly 0)) by (destruct I1 as [_ [I|I]]; [lra|rewrite A0 in I; cbn in I; lia]).
  destruct (insert_accepts exPoly 0 0%nat (1 / 2) 1 junk W eq_refl I1 L) as [y E]; [lia|rewrite A0; cbn; lia|].
  destruct (insert_effect exPoly 0 0%nat (1 / 2) 1 junk y W eq_refl I1 E) as (R1 & _ & _ & Ef). exists y. split; auto.
  assert (Rf : refinements exPoly y) by (apply step1; auto). split; auto.
  pose proof (refinement_preserves _ _ W R1) as P. pose proof (preserves_dim _ _ P) as D.
  assert (Bx : bounded_knots exPoly) by (pose proof exS_bounded as B; inversion B; subst; constructor; auto).
  assert (B : bounded_knots y).
  { apply bounded_of. intros b Hb v. rewrite D in Hb. cbn in Hb. replace b with 0%nat by lia. destruct (Ef 0%nat ltac:(cbn; lia)) as [G M].
    rewrite G, M. pose proof (bounded_at exPoly 0 Bx ltac:(cbn; lia) v) as Bv. cbn [Nat.eqb]. destruct (Req_EM_T v (1 / 2)) as [->|]; [rewrite A0; cbn; lia|lia]. }
  split; auto. assert (W1 : forall i, in_net (spec_axes exPoly) i -> n_arr exPoly i 3%Z = 1) by reflexivity.
  split; [intros i Hi; unfold n_weights; rewrite W1 by auto; apply Rlt_0_1|].
  intros i Hi. unfold n_weights. rewrite (C107_constant exPoly y 3 1 W Rf B ltac:(cbn; lia) W1 i Hi). apply R1_neq_R0.
Qed.
