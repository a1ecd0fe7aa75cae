(** C95, C96: the basis functions, and what the constructor stores, in IEEE double precision.  Vocabulary: SpecDouble.v
    ([dval], [finite], [b2]), SpecRound.v ([mild_axis]), SpecRound3.v ([sized], [reads], [two_power]), Spec.v ([Nb]). *)
From Coq Require Import ZArith Reals List Bool SpecFloat Lia Lra.
From Verif Require Import Num Loop Spec ModelBspline ModelBSp ModelNurbs ModelFloat SpecNurbs SpecDouble SpecRound SpecRound3 ProofRound ProofRound2 ProofRound3 ProofRound4 ProofRound8
  ProofRound15 ProofRound16 ExTac PropDouble PropRound.
Import ListNotations.
Local Open Scope R_scope.

(** ** C95: every value is nonnegative and close to the exact one, relative to it; the sum is close to 1 *)
Theorem C95_basis : forall n p (U : Z -> Dn) (u : Dn) (junk : Z -> Dn), let rU := (fun i => dval (U i)) in
  mild_axis (mkAxis (N:=Dn) (n + 1) (n + p + 2) U) -> finite u -> in_domain n p rU (dval u) ->
  exists k Nf, bsp_FindSpan (N:=Dn) p (n + p + 1) U u = Some k /\ bsp_EvalBasisFuns (N:=Dn) p (n + p + 1) U u (-1) junk = Some Nf /\
    (p <= k <= n)%Z /\ rU k < rU (k + 1)%Z /\ rU k <= dval u <= rU (k + 1)%Z /\
    (forall r, (0 <= r <= p)%Z -> finite (Nf r) /\ 0 <= dval (Nf r) /\
       Rabs (dval (Nf r) - Nb n p rU (k - p + r) (dval u)) <= IZR p * b2 (-48) * Nb n p rU (k - p + r) (dval u) + b2 (-369)) /\
    Rabs (sumZ 0 p (fun r => dval (Nf r)) - 1) <= IZR p * b2 (-48) + b2 (-362).
Proof. exact basis_values. Qed.
Print Assumptions C95_basis.
(** Quadratic basis functions on [0, 1] at 0.3. *)
Example C95_example : let U := dl (ints [0; 0; 0; 1; 1; 1]%Z) in
  mild_axis (mkAxis (N:=Dn) (2 + 1) (2 + 2 + 2) U) /\ finite (dec 3 1) /\ in_domain 2 2 (fun i => dval (U i)) (dval (dec 3 1)) /\
  match bsp_EvalBasisFuns (N:=Dn) 2 5 U (dec 3 1) (-1) dj with Some Nf => SFltb (n0 Dn) (Nf 1%Z) | None => false end = true.
Proof.
  split; [exact arc_axis|]. split; [fin|]. split; [|vm_compute; reflexivity].
  split; (apply (le_by); [fin|fin|vm_compute; reflexivity]).
Qed.

(** ** The values need not add up to 1 exactly: quadratic functions on [0, 1] at 0.3 *)
Theorem C95_sum_refuted : exists (U : Z -> Dn) (u : Dn) (Nf : Z -> Dn), mild_axis (mkAxis (N:=Dn) (2 + 1) (2 + 2 + 2) U) /\ finite u /\ in_domain 2 2 (fun i => dval (U i)) (dval u) /\
  bsp_EvalBasisFuns (N:=Dn) 2 5 U u (-1) dj = Some Nf /\ SFeqb (nadd Dn (nadd Dn (Nf 0%Z) (Nf 1%Z)) (Nf 2%Z)) (n1 Dn) = false.
Proof.
  exists (dl (ints [0; 0; 0; 1; 1; 1]%Z)), (dec 3 1). eexists. destruct C95_example as (A & B & C & _). split; [exact A|]. split; [exact B|]. split; [exact C|].
  split; [reflexivity|]. vm_compute. reflexivity.
Qed.
Print Assumptions C95_sum_refuted.

(** ** C96: the weights come back bit for bit *)
Theorem C96_weights : forall (junk : Z -> Dn) knots c fields weights (nrb : nurbs Dn) idx, init (N:=Dn) junk knots (Some c) fields weights = Ok nrb -> (last (nd_shape c) 0 < 4)%Z ->
  n_weights nrb idx = match weights with Some w => nd_get w idx | None => dbl_of_Z 1 end.
Proof. exact (@stored_weights Dn). Qed.
Print Assumptions C96_weights.

(** ** Points given with weights need not come back as given: the point 0.1 with the weight 3 comes back as 0.10000000000000002 *)
Theorem C96_points_refuted : exists (knots : list (vec Dn)) (c w : nd Dn) (nrb : nurbs Dn), init (N:=Dn) dj knots (Some c) None (Some w) = Ok nrb /\
  (last (nd_shape c) 0 = 2)%Z /\ sized (nd_get w [0%Z]) /\ sized (nd_get c [0%Z; 0%Z]) /\
  SFeqb (n_points nrb [0%Z] 0%Z) (nd_get c [0%Z; 0%Z]) = false.
Proof.
  exists [mkVec (N:=Dn) 4 (dl (ints [0; 0; 1; 1]%Z))], (mkNd (N:=Dn) [2; 2]%Z (fun _ => dec 1 1)), (mkNd (N:=Dn) [2]%Z (fun _ => dbl_of_Z 3)).
  eexists. split; [reflexivity|]. split; [reflexivity|]. 
  assert (V3 : dval (dbl_of_Z 3) = 3).
  { replace (dbl_of_Z 3) with (S754_finite false 6755399441055744 (-51)) by (vm_compute; reflexivity). cbn [dval]. change (-51)%Z with (2 + -53)%Z. rewrite b2_add. change (b2 (-53)) with uu. rewrite uu_val. unfold b2; simpl. lra. }
  split.
  { split; [fin|]. right. cbn [nd_get]. rewrite V3, Rabs_right by lra. split; [apply Rle_trans with (b2 0); [apply b2_le; lia|rewrite b2_0; lra]|].
    apply Rle_trans with (b2 2); [unfold b2; simpl; lra|apply b2_le; lia]. }
  split.
  { split; [fin|]. right. cbn [nd_get]. assert (L : dval (dec 625 4) <= dval (dec 1 1) <= dval (dec 5 1)) by (split; apply le_by; try fin; vm_compute; reflexivity).
    assert (H1 : dval (dec 5 1) = / 2).
    { replace (dec 5 1) with (S754_finite false 4503599627370496 (-53)) by (vm_compute; reflexivity). cbn [dval]. change (b2 (-53)) with uu. rewrite uu_val. lra. }
    assert (H2 : dval (dec 625 4) = / 16).
    { replace (dec 625 4) with (S754_finite false 4503599627370496 (-56)) by (vm_compute; reflexivity). cbn [dval]. replace (b2 (-56)) with (uu / 8) by (rewrite uu_val; unfold b2; simpl; lra). rewrite uu_val. lra. }
    rewrite H1, H2 in L. rewrite Rabs_right by lra. split; [apply Rle_trans with (b2 (-4)); [apply b2_le; lia|unfold b2; simpl; lra]|apply Rle_trans with (b2 0); [rewrite b2_0; lra|apply b2_le; lia]]. }
  vm_compute. reflexivity.
Qed.
Print Assumptions C96_points_refuted.

(** ** They come back within a relative error of 2^-51, and without error for weights that are powers of two *)
Theorem C96_points : forall (junk : Z -> Dn) knots c fields w (nrb : nurbs Dn) idx k, init (N:=Dn) junk knots (Some c) fields (Some w) = Ok nrb ->
  let sdim := last (nd_shape c) 0%Z in (sdim < 4)%Z -> sized (nd_get w idx) -> dval (nd_get w idx) <> 0 -> (0 <= k < 3)%Z ->
  ((k < sdim)%Z -> sized (nd_get c (idx ++ [k])) -> reads (n_points nrb idx k) (nd_get c (idx ++ [k])) (b2 (-51)) /\
     (two_power (nd_get w idx) -> dval (n_points nrb idx k) = dval (nd_get c (idx ++ [k])))) /\
  ((sdim <= k)%Z -> finite (n_points nrb idx k) /\ dval (n_points nrb idx k) = 0).
Proof. exact read_points. Qed.
Print Assumptions C96_points.

(** ** Without weights they come back without error *)
Theorem C96_points_unweighted : forall (junk : Z -> Dn) knots c fields (nrb : nurbs Dn) idx k, init (N:=Dn) junk knots (Some c) fields None = Ok nrb ->
  let sdim := last (nd_shape c) 0%Z in (sdim < 4)%Z -> (0 <= k < 3)%Z ->
  ((k < sdim)%Z -> sized (nd_get c (idx ++ [k])) -> finite (n_points nrb idx k) /\ dval (n_points nrb idx k) = dval (nd_get c (idx ++ [k]))) /\
  ((sdim <= k)%Z -> finite (n_points nrb idx k) /\ dval (n_points nrb idx k) = 0).
Proof. exact read_points_none. Qed.
Print Assumptions C96_points_unweighted.

(** ** Fields *)
(** A field array has the shape of the net (one field), or one axis more. *)
Theorem C96_fields : forall (junk : Z -> Dn) knots c f weights (nrb : nurbs Dn), init (N:=Dn) junk knots (Some c) (Some f) weights = Ok nrb -> (4 < n_comp nrb)%Z ->
  exists g, n_fields nrb = Some g /\ forall idx k, (0 <= k < n_comp nrb - 4)%Z ->
    let v := if shape_eqb (nd_shape f) (removelast (nd_shape c)) then nd_get f idx else nd_get f (idx ++ [k]) in
    sized v -> sized (n_weights nrb idx) -> dval (n_weights nrb idx) <> 0 ->
    reads (g idx k) v (b2 (-51)) /\ (two_power (n_weights nrb idx) -> dval (g idx k) = dval v).
Proof. exact read_fields. Qed.
Print Assumptions C96_fields.

(** A segment from (1, 1) to (1, 1) in the plane with a field of value 1, weights 1; the hypotheses hold everywhere. *)
Example C96_example : let one := dbl_of_Z 1 in let knots := [mkVec (N:=Dn) 4 (dl (ints [0; 0; 1; 1]%Z))] in
  let c := mkNd (N:=Dn) [2; 2]%Z (fun _ => one) in let f := mkNd (N:=Dn) [2; 1]%Z (fun _ => one) in let w := mkNd (N:=Dn) [2]%Z (fun _ => one) in
  is_ok (init (N:=Dn) dj knots (Some c) (Some f) (Some w)) = true /\ is_ok (init (N:=Dn) dj knots (Some c) (Some f) None) = true /\
  sized one /\ two_power one /\ dval one <> 0 /\
  match init (N:=Dn) dj knots (Some c) (Some f) (Some w) with Ok nrb => (4 <? n_comp nrb)%Z | _ => false end = true.
Proof.
  cbv zeta. assert (V : dval (dbl_of_Z 1) = 1) by exact dval_one.
  split; [vm_compute; reflexivity|]. split; [vm_compute; reflexivity|].
  split; [split; [fin|right; rewrite V, Rabs_R1, <- b2_0; split; apply b2_le; lia]|].
  split; [split; [fin|exists 0%Z; split; [lia|rewrite V, b2_0; reflexivity]]|]. split; [rewrite V; lra|]. vm_compute. reflexivity.
Qed.
