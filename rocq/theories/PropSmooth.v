(** Smoothness of evaluated objects and of their computed derivatives (igakit/nurbs.py:1368-1452
    and 1512-1717).  Specification in SpecSmooth.v: [smooth m a] says that no knot inside the domain
    occurs more than p-m times, [der_interior] is the mixed partial derivative of the function itself
    at points strictly inside the domain, knots included, [close] is nearness in every coordinate. *)
From Coq Require Import ZArith Reals List Lia Lra Bool.
From Verif Require Import Num Loop ModelBspline ModelBSp ModelNurbs ModelDer Spec SpecNurbs SpecDer SpecSmooth ProofNet ProofCall ProofNurbs ProofGeom ProofGeom2
  ProofDerApi ExTac PropNurbs PropDer ProofSmooth4.
Import ListNotations.
Local Open Scope R_scope.

(** ** C103: evaluation is continuous if no knot inside the domain occurs more than p times. *)
Theorem C103_continuous : forall nrb xs j j2 j3 jS C F, wf_nurbs nrb -> good_args (spec_axes nrb) xs ->
  call (N:=Rn) j j2 j3 jS nrb (map Some xs) FYes = Ok (C, Some F) ->
  smooth_for (spec_axes nrb) [] -> forall idx c, in_range xs idx -> hom nrb 3 (params xs idx) <> 0 ->
  forall eps, 0 < eps -> exists d, 0 < d /\ forall ys idx' k k2 k3 kS C' F', good_args (spec_axes nrb) ys -> in_range ys idx' ->
    call (N:=Rn) k k2 k3 kS nrb (map Some ys) FYes = Ok (C', Some F') ->
    close d (params xs idx) (params ys idx') -> Rabs (C' idx' c - C idx c) < eps /\ Rabs (F' idx' c - F idx c) < eps.
Proof. exact call_continuous. Qed.
Print Assumptions C103_continuous.
(** Computed derivatives are continuous if along each axis no knot inside the domain occurs more than
    p-m times, where m is the number of differentiations along that axis. *)
Theorem C103_derivatives_continuous : forall nrb xs fields nc F order junk junk2 G, wf_nurbs nrb -> (1 <= length (n_axes nrb))%nat ->
  good_args (spec_axes nrb) xs -> field_of nrb fields nc F -> (1 <= order <= 3)%Z ->
  derivative (N:=Rn) junk junk2 nrb order fields (map Some xs) false = Ok G ->
  forall idx c D, in_range xs idx -> Z.of_nat (length D) = order -> dirs (length (n_axes nrb)) D ->
    smooth_for (spec_axes nrb) (map Z.to_nat D) -> weightfn nrb (params xs idx) <> 0 ->
  forall eps, 0 < eps -> exists d, 0 < d /\ forall ys idx' k k2 G', good_args (spec_axes nrb) ys -> in_range ys idx' ->
    derivative (N:=Rn) k k2 nrb order fields (map Some ys) false = Ok G' ->
    close d (params xs idx) (params ys idx') -> Rabs (G' idx' c D - G idx c D) < eps.
Proof. exact derivative_continuous. Qed.
Print Assumptions C103_derivatives_continuous.
(** Under the same condition what is returned, also at knots, is the derivative of the object itself,
    not only of the piece to the right of the knot. *)
Theorem C103_derivatives_at_knots : forall nrb xs fields nc F order, wf_nurbs nrb -> (1 <= length (n_axes nrb))%nat ->
  good_args (spec_axes nrb) xs -> field_of nrb fields nc F -> (1 <= order <= 3)%Z ->
  forall junk junk2, exists G, derivative (N:=Rn) junk junk2 nrb order fields (map Some xs) false = Ok G /\
  forall idx c D, in_range xs idx -> Z.of_nat (length D) = order -> dirs (length (n_axes nrb)) D ->
    interior (spec_axes nrb) (params xs idx) -> smooth_for (spec_axes nrb) (map Z.to_nat D) ->
    der_interior (spec_axes nrb) (fieldfn nrb F c) (weightfn nrb) (params xs idx) (map Z.to_nat D) (G idx c D).
Proof. exact derivative_at_knots. Qed.
Print Assumptions C103_derivatives_at_knots.

(** The surface exS (quadratic, simple knots) at the point (1,1), which is a knot of both axes: one
    derivative along each axis. *)
Definition exK : list (vec Rn) := [mkVec 1 (fun _ => 1); mkVec 1 (fun _ => 1)].
Example C103_example : good_args (spec_axes exS) exK /\ in_range exK [0%Z; 0%Z] /\ interior (spec_axes exS) (params exK [0%Z; 0%Z]) /\
  smooth_for (spec_axes exS) [0%nat; 1%nat] /\ smooth_for (spec_axes exS) [] /\ exU 3%Z = 1 /\ exV 3%Z = 1 /\ hom exS 3 (params exK [0%Z; 0%Z]) <> 0 /\
  field_of exS None 1 (fun i c => n_arr exS i (4 + c)%Z / n_arr exS i 3%Z).
Proof.
  assert (G : good_args (spec_axes exS) exK).
  { constructor; [|constructor; [|constructor]]; (split; [cbn; lia|]); intros i Hi; cbn in *; unfold a_deg; cbn; split; unfold exU, exV; arr_lra. }
  assert (I : in_range exK [0%Z; 0%Z]) by (repeat constructor; cbn; lia).
  assert (S : smooth_for (spec_axes exS) [0%nat; 1%nat]).
  { intros k Hk. destruct k as [|[|k]]; [| |cbn in Hk; lia]; intros v Hv; cbn [nth map spec_axes n_axes exS spec_ax x_n x_p x_U a_knots a_size] in *; change (a_deg _) with 2%Z in *;
      [change (4 - 1 + 1)%Z with 4%Z in *; change (4 - 1 + 2 + 1)%Z with 6%Z|change (5 - 1 + 1)%Z with 5%Z in *; change (5 - 1 + 2 + 1)%Z with 7%Z];
      revert Hv; unfold multiplicity; simpl; unfold exU, exV; cbv [arr nth Z.to_nat Pos.to_nat Pos.iter_op Init.Nat.add]; intros Hv; 
      repeat match goal with |- context[Req_EM_T ?a ?b] => destruct (Req_EM_T a b) end; try (left; reflexivity); try (right; lia); exfalso; lra. }
  split; auto. split; auto. split; [|split; [auto|split; [|split; [|split; [|split]]]]].
  - constructor; [|constructor; [|constructor]]; cbn; unfold a_deg; cbn; unfold exU, exV; split; arr_lra.
  - intros k Hk v Hv. destruct (S k Hk v Hv) as [H|H]; [left; auto|right; cbn [count_occ]; lia].
  - unfold exU. arr_lra.
  - unfold exV. arr_lra.
  - assert (0 < hom exS 3 (params exK [0%Z; 0%Z])); [|lra]. apply weight_pos; [exact exS_wf|exact exS_pos|]. eapply params_box; eauto.
  - right. split; [cbn; lia|]. split; reflexivity.
Qed.
