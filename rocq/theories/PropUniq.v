(** The control net is determined by the geometry, and the order of refinements does not matter.
    The results concern igakit/nurbs.py:721-796 and 887-1167 (insert, clamp, unclamp, refine, elevate) and
    igakit/nurbs.py:1368-1452 (evaluation). Specification: the tensor-product spline of SpecNurbs.v
    ([hom]), equality of the stored knots and control points ([same_data]), sequences of operations
    ([refinements], with the conditions [op_ok] of C11, C13, C17, C18 and C19). *)
From Coq Require Import ZArith Reals List Bool Lia Lra.
From Verif Require Import Num Loop ModelBspline ModelBSp ModelNurbs Spec SpecNurbs SpecElev BLink ProofSpan ProofNet ProofCall ProofNurbs ProofMethods ProofMethods2 ProofGeom ProofGeom2
  ProofIga ProofRemove4 ProofCompat1 ExTac PropNurbs BIndep ProofUniq ProofUniq2.
Import ListNotations.
Local Open Scope R_scope.

(** ** C101: equal geometry means equal control points.
    Over the same knots, no knot more than degree+1 times, the control points are determined by the
    homogeneous spline ... *)
Theorem C101_homogeneous : forall x y, wf_nurbs x -> wf_nurbs y -> same_knots x y -> n_comp y = n_comp x -> bounded_knots x ->
  (forall us c, in_box (spec_axes x) us -> (0 <= c < n_comp x)%Z -> hom y c us = hom x c us) -> same_data x y.
Proof. exact net_unique. Qed.
Print Assumptions C101_homogeneous.
(** ... and, given the weights, by the values which evaluation returns. *)
Theorem C101_evaluation : forall x y, wf_nurbs x -> wf_nurbs y -> same_knots x y -> n_comp y = n_comp x -> bounded_knots x ->
  positive_weights x -> (forall idx, in_net (spec_axes x) idx -> n_arr y idx 3%Z = n_arr x idx 3%Z) ->
  evaluate_alike x y -> same_data x y.
Proof. exact evaluation_determines. Qed.
Print Assumptions C101_evaluation.

Lemma exS_bounded : bounded_knots exS.
Proof.
  constructor; [|constructor; [|constructor]]; intros v; cbn [a_knots a_len]; change (a_deg _) with 2%Z;
    [change (7 - 1)%Z with 6%Z|change (8 - 1)%Z with 7%Z].
  all: unfold multiplicity; simpl; unfold exU, exV; cbv [arr nth Z.to_nat Pos.to_nat Pos.iter_op Init.Nat.add];
    repeat match goal with |- context[Req_EM_T ?a ?b] => destruct (Req_EM_T a b) end; try lia; exfalso; lra.
Qed.
(** Moving one control point of exS moves a point of it: there are objects over the same knots
    which differ, and the hypotheses hold of every such pair. *)
Definition exS_moved : nurbs Rn := mkNurbs (n_axes exS) 5
  (fun idx c => if ((nth 0 idx 0 =? 1) && (nth 1 idx 0 =? 2) && (c =? 0))%Z then n_arr exS idx c + 1 else n_arr exS idx c).
Example C101_example : wf_nurbs exS_moved /\ same_knots exS exS_moved /\ bounded_knots exS /\ positive_weights exS /\
  (forall idx, n_arr exS_moved idx 3%Z = n_arr exS idx 3%Z) /\ ~ same_data exS exS_moved /\ ~ evaluate_alike exS exS_moved.
Proof.
  assert (W : wf_nurbs exS_moved) by (destruct exS_wf as (W1 & W2 & W3); split; [exact W1|split; [exact W2|exact W3]]).
  assert (K : same_knots exS exS_moved) by (unfold same_knots; apply Forall2_refl; auto).
  assert (E3 : forall idx, n_arr exS_moved idx 3%Z = n_arr exS idx 3%Z) by (intros idx; cbn [n_arr exS_moved]; rewrite Bool.andb_false_r; reflexivity).
  assert (N : ~ same_data exS exS_moved).
  { intros (_ & _ & H). specialize (H [1%Z; 2%Z] 0%Z).
    assert (I : in_net (spec_axes exS) [1%Z; 2%Z]) by (repeat constructor; cbn; lia). specialize (H I ltac:(cbn; lia)).
    cbn [n_arr exS_moved nth Z.eqb andb] in H. simpl in H. lra. }
  split; auto. split; auto. split; [exact exS_bounded|]. split; [exact exS_pos|]. split; auto. split; auto.
  intros H. apply N. exact (C101_evaluation exS exS_moved exS_wf W K eq_refl exS_bounded exS_pos (fun idx _ => E3 idx) H).
Qed.

(** ** C102: the order of refinements does not matter.
    Two sequences of insertions, refinements, clampings, unclampings and elevations which end in the
    same knots end in the same control points. *)
Theorem C102_path_independent : forall nrb x y, wf_nurbs nrb -> refinements nrb x -> refinements nrb y ->
  same_knots x y -> bounded_knots x -> same_data x y.
Proof. exact path_independent. Qed.
Print Assumptions C102_path_independent.
(** Operations along different axes commute, and one order is accepted if the other is. *)
Theorem C102_different_axes : forall o1 o2 x ax1 ax2 a b x1 x2 j1 j1' j2 j2', wf_nurbs x ->
  py_axis (n_dim x) ax1 = Ok a -> py_axis (n_dim x) ax2 = Ok b -> a <> b ->
  op_ok o1 (get_axis x a) -> op_ok o2 (get_axis x b) ->
  run o1 j1 j1' x ax1 = Ok x1 -> run o2 j2 j2' x1 ax2 = Ok x2 -> bounded_knots x2 ->
  forall k1 k1' k2 k2', exists y1 y2, run o2 k2 k2' x ax2 = Ok y1 /\ run o1 k1 k1' y1 ax1 = Ok y2 /\ same_data x2 y2.
Proof. exact ops_commute. Qed.
Print Assumptions C102_different_axes.
(** Knot insertions commute along the same axis too. *)
Theorem C102_insert_order : forall x ax1 ax2 a b u v r s j1 j2 x1 x2, wf_nurbs x -> bounded_knots x ->
  py_axis (n_dim x) ax1 = Ok a -> py_axis (n_dim x) ax2 = Ok b -> ins_ok (get_axis x a) u -> ins_ok (get_axis x b) v ->
  (a = b -> u = v \/ / 4503599627370496 <= Rabs (u - v)) ->
  insert (N:=Rn) j1 x ax1 u (Some r) = Ok x1 -> insert (N:=Rn) j2 x1 ax2 v (Some s) = Ok x2 ->
  forall j3 j4, exists y1 y2, insert (N:=Rn) j3 x ax2 v (Some s) = Ok y1 /\ insert (N:=Rn) j4 y1 ax1 u (Some r) = Ok y2 /\ same_data x2 y2.
Proof. exact inserts_commute. Qed.
Print Assumptions C102_insert_order.
(** Inserting a knot r times and then s times is inserting it r+s times. *)
Theorem C102_insert_splits : forall x ax a u r s j1 j2 x1 x2, wf_nurbs x -> bounded_knots x -> py_axis (n_dim x) ax = Ok a -> ins_ok (get_axis x a) u ->
  insert (N:=Rn) j1 x ax u (Some r) = Ok x1 -> insert (N:=Rn) j2 x1 ax u (Some s) = Ok x2 ->
  forall j3, exists y, insert (N:=Rn) j3 x ax u (Some (r + s)%Z) = Ok y /\ same_data x2 y.
Proof. exact insert_splits. Qed.
Print Assumptions C102_insert_splits.
(** Refining by a list of values is inserting them one after the other. *)
Theorem C102_refine_is_inserts : forall x ax a values junk y, wf_nurbs x -> bounded_knots x -> py_axis (n_dim x) ax = Ok a ->
  separated_list (a_knots (get_axis x a)) (a_len (get_axis x a) - 1) values ->
  (forall v, In v values -> a_lo (get_axis x a) < v < a_hi (get_axis x a)) ->
  refine (N:=Rn) junk x ax values = Ok y ->
  forall junk', exists z, insert_each junk' x ax values = Ok z /\ same_data y z.
Proof. exact refine_is_inserts. Qed.
Print Assumptions C102_refine_is_inserts.
(** Clamping undoes unclamping: knots and control points come back. *)
Theorem C102_clamp_undoes_unclamp : forall x ax a cont j1 j2 y z, wf_nurbs x -> bounded_knots x -> py_axis (n_dim x) ax = Ok a ->
  clamped (a_size (get_axis x a) - 1) (a_deg (get_axis x a)) (a_knots (get_axis x a)) ->
  ends_separated (get_axis x a) -> unclamp (N:=Rn) j1 x ax None cont = Ok y -> ends_separated (get_axis y a) ->
  clamp (N:=Rn) j2 y ax None = Ok z -> same_data x z.
Proof. exact clamp_undoes_unclamp. Qed.
Print Assumptions C102_clamp_undoes_unclamp.
(** Elevating by s and then by t is elevating by s+t; both are accepted. *)
Theorem C102_elevate_splits : forall x ax a s t junk junk2, wf_nurbs x -> bounded_knots x -> py_axis (n_dim x) ax = Ok a -> (0 <= s)%Z -> (0 <= t)%Z ->
  let A := get_axis x a in let n := (a_size A - 1)%Z in let p := a_deg A in let U := a_knots A in
  clamped n p U -> no_tiny_span U p n -> mult_le n p U -> (p + s <= 9)%Z ->
  forall k k2 l l2, exists x1 x2 y, elevate (N:=Rn) junk junk2 x ax s = Ok x1 /\ elevate (N:=Rn) k k2 x1 ax t = Ok x2 /\
    elevate (N:=Rn) l l2 x ax (s + t) = Ok y /\ same_data x2 y.
Proof. exact elevate_twice. Qed.
Print Assumptions C102_elevate_splits.

Lemma exS_ins u : u = 1 / 2 \/ u = 3 / 2 -> ins_ok (get_axis exS 0) u.
Proof.
  intros H. split.
  - apply (sep_iff (get_axis exS 0) u); [apply (wf_get_axis exS 0 exS_wf); cbn; lia|]. change (a_len (get_axis exS 0) - 1)%Z with 6%Z. change (a_knots (get_axis exS 0)) with exU.
    destruct H as [->| ->]; sepz 0%Z 6%Z.
  - left. change (get_axis exS 0) with (mkAxis (N:=Rn) 4 7 exU). rewrite a_hi_eq, a_lo_eq. cbn [a_knots a_size]. change (a_deg _) with 2%Z. change (4 - 1 + 1)%Z with 4%Z.
    unfold exU. destruct H as [->| ->]; split; arr_lra.
Qed.
Example C102_example : bounded_knots exS /\ ins_ok (get_axis exS 0) (1 / 2) /\ ins_ok (get_axis exS 0) (3 / 2) /\
  clamped 3 2 exU /\ no_tiny_span exU 2 3 /\ mult_le 3 2 exU /\ ends_separated (get_axis exS 0).
Proof.
  split; [exact exS_bounded|]. split; [apply exS_ins; auto|]. split; [apply exS_ins; auto|].
  split; [split; intros i Hi; [enumz i 0%Z 2%Z|enumz i 4%Z 6%Z]; unfold exU; arr_lra|].
  split; [intros i Hi; right; enumz i 2%Z 3%Z; unfold exU; cbv [arr nth Z.to_nat Pos.to_nat Pos.iter_op Init.Nat.add]; simpl; unfold Rabs; destruct (Rcase_abs _); lra|].
  split; [intros i Hi; enumz i 3%Z 3%Z; unfold exU; arr_lra|]. apply exS_ends; lia.
Qed.
(** A concrete pair of paths: 1/2 and then 3/2, or 3/2 and then 1/2. *)
Example C102_example_paths : forall j1 j2 j3 j4, exists x1 x2 y1 y2,
  insert (N:=Rn) j1 exS 0 (1 / 2) (Some 1%Z) = Ok x1 /\ insert (N:=Rn) j2 x1 0 (3 / 2) (Some 2%Z) = Ok x2 /\
  insert (N:=Rn) j3 exS 0 (3 / 2) (Some 2%Z) = Ok y1 /\ insert (N:=Rn) j4 y1 0 (1 / 2) (Some 1%Z) = Ok y2 /\ same_data x2 y2.
Proof.
  intros. pose proof (exS_ins (1 / 2) (or_introl eq_refl)) as I1. pose proof (exS_ins (3 / 2) (or_intror eq_refl)) as I2.
  assert (S : 1 / 2 = 3 / 2 \/ / 4503599627370496 <= Rabs (1 / 2 - 3 / 2)) by (right; rewrite Rabs_left; lra).
  assert (S' : 3 / 2 = 1 / 2 \/ / 4503599627370496 <= Rabs (3 / 2 - 1 / 2)) by (right; rewrite Rabs_right; lra).
  assert (A0 : mulA (get_axis exS 0) (1 / 2) = 0%Z) by (unfold mulA; change (multiplicity exU 0 6 (1 / 2) = 0%Z); multz).
  assert (A1 : mulA (get_axis exS 0) (3 / 2) = 0%Z) by (unfold mulA; change (multiplicity exU 0 6 (3 / 2) = 0%Z); multz).
  assert (L : a_lo (get_axis exS 0) <= 1 / 2 <= a_hi (get_axis exS 0)) by (destruct I1 as [_ [I|I]]; [lra|rewrite A0 in I; cbn in I; lia]).
  assert (L2 : a_lo (get_axis exS 0) <= 3 / 2 <= a_hi (get_axis exS 0)) by (destruct I2 as [_ [I|I]]; [lra|rewrite A1 in I; cbn in I; lia]).
  destruct (insert_accepts exS 0 0%nat (1 / 2) 1 j1 exS_wf eq_refl I1 L) as [x1 E1]; [lia|rewrite A0; cbn; lia|].
  destruct (insert_effect exS 0 0%nat (1 / 2) 1 j1 x1 exS_wf eq_refl I1 E1) as (R1 & _ & _ & Ef). destruct (Ef 0%nat ltac:(cbn; lia)) as [G M].
  pose proof (refinement_preserves exS x1 exS_wf R1) as P. destruct (dom_ends _ _ 0%nat P ltac:(cbn; lia)) as [Lo Hi].
  destruct (insert_accepts x1 0 0%nat (3 / 2) 2 j2 (pr_wf _ _ P)) as [x2 E2].
  - apply (dim_py exS x1); [apply (preserves_dim _ _ P)|reflexivity].
  - apply (ins_ok_after exS 0 0%nat (1 / 2) 1 j1 x1 0%nat (3 / 2) exS_wf eq_refl I1 E1); [cbn; lia|exact I2|auto].
  - rewrite Lo, Hi. exact L2.
  - lia.
  - rewrite M, G, A1. cbn [Nat.eqb]. destruct (Req_EM_T (3 / 2) (1 / 2)); [lra|]. cbn. lia.
  - destruct (inserts_commute exS 0 0 0%nat 0%nat (1 / 2) (3 / 2) 1 2 j1 j2 x1 x2 exS_wf exS_bounded eq_refl eq_refl I1 I2 (fun _ => S) E1 E2 j3 j4) as (y1 & y2 & F1 & F2 & D).
    exists x1, x2, y1, y2. auto.
Qed.
