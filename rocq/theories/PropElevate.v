(** Degree elevation (C19-C21).  Vocabulary (SpecElev.v): [clamped], [nonempty_spans] and the
    condition [elev_guard] on the multiplicities of neighbouring knots; [mult_le n p U]: every
    interior knot has multiplicity at most p; [no_tiny_span]: neighbouring knots are equal or
    more than machine epsilon apart. *)
From Coq Require Import ZArith Reals QArith List Lia Lra Bool.
From Verif Require Import Num Loop ModelBspline ModelBSp ModelNurbs Spec SpecElev SumZ BPiece BLink ProofSpan ExTac
  SpecNurbs ProofNet ProofCall ProofNurbs ProofIga ProofElev3 ProofElev4 ProofElev5 PropNurbs PropRefuted.
Import ListNotations.
Local Open Scope R_scope.

(** ** C19: for degrees up to 9, and for every degree if the multiplicity grows by at most one
    from one interior knot to the next. *)
Theorem C19_elevate_keeps_geometry : forall nrb ax a times junk junk2, wf_nurbs nrb -> py_axis (n_dim nrb) ax = Ok a -> (0 <= times)%Z ->
  let A := get_axis nrb a in let n := (a_size A - 1)%Z in let p := a_deg A in let U := a_knots A in
  clamped n p U -> no_tiny_span U p n -> mult_le n p U ->
  ((p <= 9)%Z \/ elev_guard n p times U) ->
  exists nrb', elevate (N:=Rn) junk junk2 nrb ax times = Ok nrb' /\ wf_nurbs nrb' /\ same_evaluation nrb nrb'.
Proof. exact elevate_geometry. Qed.
Print Assumptions C19_elevate_keeps_geometry.
Example C19_example : wf_nurbs exS /\ py_axis (n_dim exS) (-2) = Ok 0%nat /\ a_deg (get_axis exS 0) = 2%Z /\
  clamped 3 2 exU /\ no_tiny_span exU 2 3 /\ mult_le 3 2 exU.
Proof.
  split; [exact exS_wf|]. split; [reflexivity|]. split; [reflexivity|]. split; [|split].
  - split; intros j Hj; [enumz j 0%Z 2%Z|enumz j 4%Z 6%Z]; unfold exU; arr_lra.
  - intros k Hk. enumz k 2%Z 3%Z; right; unfold exU; rewrite Rabs_left; arr_lra.
  - intros i Hi. enumz i 3%Z 3%Z; unfold exU; arr_lra.
Qed.
(** The guard is met at degree 12 by an interior knot of multiplicity 3 followed by one of
    multiplicity 4. *)
Definition exHi : Z -> R := fun j => if (j <=? 12)%Z then 0 else if (j <=? 15)%Z then 1 else if (j <=? 19)%Z then 2 else 3.
Example C19_example_guard : elev_guard 19 12 1 exHi.
Proof.
  assert (S : forall k, sp 19 12 exHi k -> k = 12%Z \/ k = 15%Z \/ k = 19%Z).
  { intros k [Hk L]. enumz k 12%Z 19%Z; auto; exfalso; unfold exHi in L; simpl in L; lra. }
  intros k k' k'' (S1 & S2 & L1 & _) (_ & S3 & L2 & _). left. apply S in S1, S2, S3. lia.
Qed.

(** ** C19 is false of the code from degree 10 on: a simple interior knot followed by a triple one. *)
Definition exK : list Q := [0;0;0;0;0;0;0;0;0;0;0; 1; 2;2;2; 3;3;3;3;3;3;3;3;3;3;3]%Q.
Definition exP : list Q := [0;1;1;6;1;6;6;0;1;1;6;1;6;6;0]%Q.
Theorem C19_elevate_high_degree_refuted : exists nrb nrb1,
  wfQ nrb = true /\ map (@a_deg Qn) (n_axes nrb) = [10%Z] /\
  elevate (N:=Qn) zj (fun _ _ => 0%Q) nrb 0 1 = Ok nrb1 /\ wfQ nrb1 = true /\
  value nrb [1 # 2]%Q 0 <> value nrb1 [1 # 2]%Q 0.
Proof.
  exists (crv 15 exK exP). eexists. split; [|split; [|split; [|split]]]; [| |reflexivity| |]; vm_compute; [reflexivity|reflexivity|reflexivity|discriminate].
Qed.
Print Assumptions C19_elevate_high_degree_refuted.

(** ** C20: the new knot vector, for every degree and all multiplicities. *)
Theorem C20_elevate_bookkeeping : forall nrb ax a times junk junk2, wf_nurbs nrb -> py_axis (n_dim nrb) ax = Ok a -> (0 <= times)%Z ->
  let A := get_axis nrb a in let n := (a_size A - 1)%Z in let p := a_deg A in let U := a_knots A in
  clamped n p U -> no_tiny_span U p n ->
  let s := nonempty_spans U p n in
  exists nrb', elevate (N:=Rn) junk junk2 nrb ax times = Ok nrb' /\
    n_comp nrb' = n_comp nrb /\ n_dim nrb' = n_dim nrb /\ (forall b, b <> a -> get_axis nrb' b = get_axis nrb b) /\
    let A' := get_axis nrb' a in let V := a_knots A' in let last := (a_len A' - 1)%Z in
    a_deg A' = (p + times)%Z /\ a_size A' = (a_size A + times * s)%Z /\
    nondecreasing V 0 last /\
    (forall j, (0 <= j <= n + p + 1)%Z -> multiplicity V 0 last (U j) = (multiplicity U 0 (n + p + 1) (U j) + times)%Z) /\
    (forall x, (forall j, (0 <= j <= n + p + 1)%Z -> U j <> x) -> forall i, (0 <= i <= last)%Z -> V i <> x).
Proof. exact elevate_bookkeeping. Qed.
Print Assumptions C20_elevate_bookkeeping.
Example C20_example : clamped 3 2 exU /\ no_tiny_span exU 2 3 /\ nonempty_spans exU 2 3 = 2%Z /\
  match elevate (N:=Qn) zj (fun _ _ => 0%Q) (crv 5 [0;0;0;1;1;2;2;2]%Q [0;1;2;3;4]%Q) 0 2 with
  | Ok r => map (a_knots (get_axis r 0)) (zseq (Z.to_nat (a_len (get_axis r 0))) 0) = [0;0;0;0;0;1;1;1;1;2;2;2;2;2]%Q /\ n_shape r = [9]%Z
  | Raise _ => False end.
Proof.
  split; [|split; [|split; [|vm_compute; auto]]].
  - apply C19_example.
  - apply C19_example.
  - unfold nonempty_spans. simpl. unfold exU. cbv [arr nth Z.to_nat Pos.to_nat Pos.iter_op Init.Nat.add]. rdec. reflexivity.
Qed.

(** ** C21 is false of the code: a curve with uniform unclamped knots changes, the last two entries
    of its new knot vector are never written, and a control point is stored past the end of the
    new array (entry 8 of an array of 8). *)
Theorem C21_elevate_out_of_bounds_refuted : exists nrb,
  wfQ nrb = true /\ n_shape nrb = [5]%Z /\ value nrb [2%Q] 0 = Some (1 # 2)%Q /\
  forall junk junk2, exists nrb', elevate (N:=Qn) junk junk2 nrb 0 1 = Ok nrb' /\
    n_shape nrb' = [8]%Z /\ a_len (get_axis nrb' 0) = 12%Z /\
    a_knots (get_axis nrb' 0) 10%Z = junk 10%Z /\ a_knots (get_axis nrb' 0) 11%Z = junk 11%Z /\
    n_arr nrb' [8]%Z 0%Z = (25 # 6)%Q /\
    value nrb' [2%Q] 0 = Some 0%Q.
Proof.
  exists (crv 5 [0;1;2;3;4;5;6;7]%Q [0;1;3;2;5]%Q). split; [vm_compute; reflexivity|]. split; [vm_compute; reflexivity|].
  split; [vm_compute; reflexivity|]. intros. eexists. split; [reflexivity|].
  repeat split; vm_compute; reflexivity.
Qed.
Print Assumptions C21_elevate_out_of_bounds_refuted.
