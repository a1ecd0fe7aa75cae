(** Derivatives of reversed and transposed objects.
    Code: igakit/nurbs.py:1512-1717 (gradient, hessian, derivative) after igakit/nurbs.py:540-606
    (transpose, swap) and 608-658 (reverse).  The statements compare results of the methods with
    each other; [mulA A u] (ProofCompat1.v) counts how often u occurs among the knots of A. *)
From Coq Require Import ZArith Reals QArith List Lia Lra Bool.
From Verif Require Import Num Loop ModelBspline ModelBSp ModelNurbs ModelDer Spec SpecNurbs SpecDer ProofNet ProofCall ProofNurbs ProofGeom ProofGeom2 ProofPerm ProofOk ProofDerApi
  ProofCompat1 ExTac PropNurbs PropDer PropRefuted ProofDerGeom ProofDerGeom2 ProofDerMove ProofDerMove2 ProofDerMove3.
Import ListNotations.
Local Open Scope R_scope.

(** ** C109: transposing an object permutes the directions of differentiation and nothing else. *)
Theorem C109_transpose : forall nrb axes nrb', wf_nurbs nrb -> (1 <= length (n_axes nrb))%nat -> positive_weights nrb -> permutes (length (n_axes nrb)) axes ->
  transpose (N:=Rn) nrb (Some axes) = Ok nrb' ->
  forall xs order, good_args (spec_axes nrb) xs -> (1 <= order <= 3)%Z ->
  forall j j2 k k2, exists G G', derivative (N:=Rn) j j2 nrb order None (map Some xs) false = Ok G /\
    derivative (N:=Rn) k k2 nrb' order None (map Some (pick (mkVec (N:=Rn) 0 (fun _ => 0)) axes xs)) false = Ok G' /\
  forall idx q D, in_range (pick (mkVec (N:=Rn) 0 (fun _ => 0)) axes xs) idx -> Z.of_nat (length D) = order -> dirs (length (n_axes nrb)) D ->
    G' idx q D = G (unpermute axes idx) q (map (fun d => nth (Z.to_nat d) axes 0%Z) D).
Proof. exact derivatives_transpose. Qed.
Print Assumptions C109_transpose.
(** Likewise for the exchange of two axes. *)
Theorem C109_swap : forall nrb ax1 ax2 i j nrb', wf_nurbs nrb -> positive_weights nrb -> py_axis (n_dim nrb) ax1 = Ok i -> py_axis (n_dim nrb) ax2 = Ok j ->
  swap (N:=Rn) nrb ax1 ax2 = Ok nrb' ->
  forall xs order, good_args (spec_axes nrb) xs -> (1 <= order <= 3)%Z ->
  forall j1 j2 k1 k2, exists G G', derivative (N:=Rn) j1 j2 nrb order None (map Some xs) false = Ok G /\
    derivative (N:=Rn) k1 k2 nrb' order None (map Some (lswap i j (mkVec (N:=Rn) 0 (fun _ => 0)) xs)) false = Ok G' /\
  forall idx q D, in_range (lswap i j (mkVec (N:=Rn) 0 (fun _ => 0)) xs) idx -> Z.of_nat (length D) = order -> dirs (length (n_axes nrb)) D ->
    G' idx q D = G (lswap i j 0%Z idx) q (map (turn i j) D).
Proof. exact derivatives_swap. Qed.
Print Assumptions C109_swap.
(** Reversing an axis changes the sign of a derivative once for each differentiation along that axis:
    at every parameter that is no knot inside the domain, and at knots across which the object is
    differentiable so many times. *)
Theorem C109_reverse : forall nrb ax a nrb', wf_nurbs nrb -> py_axis (n_dim nrb) ax = Ok a -> positive_weights nrb ->
  let A := get_axis nrb a in let lo := a_lo A in let hi := a_hi A in
  continuous_axis A -> reverse (N:=Rn) nrb [ax] = Ok nrb' ->
  forall xs order, good_args (spec_axes nrb) xs -> (1 <= order <= 3)%Z ->
  forall j j2 k k2, exists G G', derivative (N:=Rn) j j2 nrb order None (map Some xs) false = Ok G /\
    derivative (N:=Rn) k k2 nrb' order None (map Some (map_arg a (fun u => lo + hi - u) xs)) false = Ok G' /\
  forall idx q D, in_range xs idx -> Z.of_nat (length D) = order -> dirs (length (n_axes nrb)) D ->
    let u := nth a (params xs idx) 0 in let m := count_occ Z.eq_dec D (Z.of_nat a) in
    (lo < u < hi -> mulA A u = 0%Z \/ (mulA A u + Z.of_nat m <= a_deg A)%Z) ->
    G' idx q D = (-1) ^ m * G idx q D.
Proof. exact derivatives_reverse. Qed.
Print Assumptions C109_reverse.
(** The last condition cannot be dropped: the gradient at a vertex of a polygon is the one of the edge
    after it, and reversal makes the other edge the one after it.  (Edges of lengths 1 and 2: the
    gradient at the vertex is 2, and 1, not 2, downwards after reversal.) *)
Theorem C109_knot_refuted : exists (nrb nrb' : nurbs Qn) x G G', wfQ nrb = true /\ reverse (N:=Qn) nrb [0%Z] = Ok nrb' /\
  derivative (N:=Qn) zj (fun _ _ => 0%Q) nrb 1 None [Some (mkVec (N:=Qn) 1 (fun _ => x))] false = Ok G /\
  derivative (N:=Qn) zj (fun _ _ => 0%Q) nrb' 1 None [Some (mkVec (N:=Qn) 1 (fun _ => (a_lo (get_axis nrb 0) + a_hi (get_axis nrb 0) - x)%Q))] false = Ok G' /\
  (G [0%Z] 0%Z [0%Z] == 2 /\ G' [0%Z] 0%Z [0%Z] == -1)%Q.
Proof.
  exists (crv 3 [0;0;1;2;2]%Q [0;1;3]%Q), (match reverse (N:=Qn) (crv 3 [0;0;1;2;2]%Q [0;1;3]%Q) [0%Z] with Ok n => n | Raise _ => crv 0 [] [] end), 1%Q.
  eexists. eexists. split; [vm_compute; reflexivity|]. split; [reflexivity|]. split; [reflexivity|]. split; [reflexivity|]. split; vm_compute; reflexivity.
Qed.
Print Assumptions C109_knot_refuted.

(** The surface exS, differentiated along its first axis at a point, and at its simple knot 1 (degree 2). *)
Example C109_example : permutes (length (n_axes exS)) [1; 0]%Z /\ positive_weights exS /\ good_args (spec_axes exS) exArgs /\ continuous_axis (get_axis exS 0) /\
  (exists nrb', reverse (N:=Rn) exS [0%Z] = Ok nrb') /\ (exists nrb', transpose (N:=Rn) exS (Some [1; 0]%Z) = Ok nrb') /\ (exists nrb', swap (N:=Rn) exS 0 (-1) = Ok nrb') /\
  in_range exArgs [1; 0]%Z /\ nth 0 (params exArgs [1; 0]%Z) 0 = 1 / 2 /\ mulA (get_axis exS 0) (1 / 2) = 0%Z /\
  mulA (get_axis exS 0) 1 = 1%Z /\ (1 + 1 <= a_deg (get_axis exS 0))%Z.
Proof.
  destruct C28_example as [P _]. split; [exact P|]. split; [exact exS_pos|]. split; [exact exArgs_good|].
  split; [exact (Forall_inv exS_cont)|]. split; [eexists; reflexivity|]. split; [eexists; reflexivity|]. split; [eexists; reflexivity|].
  split; [repeat constructor; cbn; lia|]. split; [cbn; lra|].
  split; [unfold mulA; change (multiplicity exU 0 6 (1 / 2) = 0%Z); multz|]. split; [unfold mulA; change (multiplicity exU 0 6 1 = 1%Z); multz|]. cbn. lia.
Qed.
