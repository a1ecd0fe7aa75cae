(** What the control net says about the shape (igakit/nurbs.py:1368-1452, 1512-1594; kernels
    igakit/igalib.f90:54-153).  Specification in SpecShape.v. *)
From Coq Require Import ZArith Reals List Lia Lra Bool.
From Verif Require Import Num Loop ModelBspline ModelBSp ModelNurbs ModelDer Spec SpecNurbs SpecDer SpecShape ProofNet ProofCall ProofNurbs ProofGeom ProofGeom2 ProofInit
  ExTac PropDer ProofShape ProofShape2 ProofShape3.
Import ListNotations.
Local Open Scope R_scope.

(** ** C104: every point, with its field values, is a convex combination of the control points that
    have influence there. *)
Theorem C104_convex_hull : forall nrb xs j j2 j3 jS C F, wf_nurbs nrb -> positive_weights nrb -> good_args (spec_axes nrb) xs ->
  call (N:=Rn) j j2 j3 jS nrb (map Some xs) FYes = Ok (C, Some F) ->
  forall idx, in_range xs idx -> exists L, convex_near (spec_axes nrb) (params xs idx) L /\
    (forall c, C idx c = nsum (spec_axes nrb) (fun i => L i * n_points (N:=Rn) nrb i c)) /\
    (forall c, F idx c = nsum (spec_axes nrb) (fun i => L i * (n_arr nrb i (4 + c)%Z / n_weights (N:=Rn) nrb i))).
Proof. exact call_hull. Qed.
Print Assumptions C104_convex_hull.

(** ** C105: a plane does not separate points of a curve more often than it separates control points:
    points at increasing parameters that lie alternately on the two sides have counterparts among the
    control points, in the same order and on the same sides. *)
Theorem C105_variation : forall nrb x j j2 j3 jS C F, wf_nurbs nrb -> length (n_axes nrb) = 1%nat -> positive_weights nrb ->
  good_args (spec_axes nrb) [x] -> (forall i i', (0 <= i < i')%Z -> (i' < v_len x)%Z -> v_get x i < v_get x i') ->
  call (N:=Rn) j j2 j3 jS nrb [Some x] FYes = Ok (C, Some F) ->
  forall a b c d k s, chosen k 0 (v_len x - 1) s ->
    (forall j, (j <= k)%nat -> side a b c d (C [s j] 0%Z) (C [s j] 1%Z) (C [s j] 2%Z) <> 0) ->
    alternate k (fun i => side a b c d (C [i] 0%Z) (C [i] 1%Z) (C [i] 2%Z)) s ->
  exists r, chosen k 0 (nth 0 (n_shape nrb) 0%Z - 1) r /\
    forall j, (j <= k)%nat -> 0 < side a b c d (C [s j] 0%Z) (C [s j] 1%Z) (C [s j] 2%Z) *
      side a b c d (n_points (N:=Rn) nrb [r j] 0) (n_points (N:=Rn) nrb [r j] 1) (n_points (N:=Rn) nrb [r j] 2).
Proof. exact curve_variation. Qed.
Print Assumptions C105_variation.
(** If the control points advance in some direction, so does the curve. *)
Theorem C105_monotone : forall nrb x j j2 j3 jS C F a b c, wf_nurbs nrb -> length (n_axes nrb) = 1%nat -> positive_weights nrb ->
  good_args (spec_axes nrb) [x] -> (forall i i', (0 <= i < i')%Z -> (i' < v_len x)%Z -> v_get x i < v_get x i') ->
  call (N:=Rn) j j2 j3 jS nrb [Some x] FYes = Ok (C, Some F) ->
  (forall i i', (0 <= i < i')%Z -> (i' < nth 0 (n_shape nrb) 0%Z)%Z ->
    side a b c 0 (n_points (N:=Rn) nrb [i] 0) (n_points (N:=Rn) nrb [i] 1) (n_points (N:=Rn) nrb [i] 2) <=
    side a b c 0 (n_points (N:=Rn) nrb [i'] 0) (n_points (N:=Rn) nrb [i'] 1) (n_points (N:=Rn) nrb [i'] 2)) ->
  forall i i', (0 <= i < i')%Z -> (i' < v_len x)%Z ->
    side a b c 0 (C [i] 0%Z) (C [i] 1%Z) (C [i] 2%Z) <= side a b c 0 (C [i'] 0%Z) (C [i'] 1%Z) (C [i'] 2%Z).
Proof. exact curve_monotone. Qed.
Print Assumptions C105_monotone.

(** ** C106: the derivative at the ends of a clamped curve points along the first and the last leg of
    the control polygon; F i c is the value of the differentiated field at control point i (for objects
    without fields its coordinate c). *)
Theorem C106_start : forall nrb A x fields nc F, wf_nurbs nrb -> n_axes nrb = [A] -> good_args (spec_axes nrb) [x] -> field_of nrb fields nc F ->
  let U := a_knots A in let p := a_deg A in
  (forall j, (1 <= j <= p)%Z -> U j = U p) -> n_weights (N:=Rn) nrb [0%Z] <> 0 ->
  forall junk junk2, exists G, gradient (N:=Rn) junk junk2 nrb fields [Some x] false = Ok G /\
  forall i c, (0 <= i < v_len x)%Z -> v_get x i = U p ->
    G [i] c [0%Z] = IZR p / (U (p + 1)%Z - U p) * (n_weights (N:=Rn) nrb [1%Z] / n_weights (N:=Rn) nrb [0%Z]) * (F [1%Z] c - F [0%Z] c).
Proof. exact start_tangent. Qed.
Print Assumptions C106_start.
Theorem C106_end : forall nrb A x fields nc F, wf_nurbs nrb -> n_axes nrb = [A] -> good_args (spec_axes nrb) [x] -> field_of nrb fields nc F ->
  let U := a_knots A in let p := a_deg A in let n := (a_size A - 1)%Z in
  (forall j, (n + 1 <= j <= n + p)%Z -> U j = U (n + 1)%Z) -> n_weights (N:=Rn) nrb [n] <> 0 ->
  forall junk junk2, exists G, gradient (N:=Rn) junk junk2 nrb fields [Some x] false = Ok G /\
  forall i c, (0 <= i < v_len x)%Z -> v_get x i = U (n + 1)%Z ->
    G [i] c [0%Z] = IZR p / (U (n + 1)%Z - U n) * (n_weights (N:=Rn) nrb [n - 1]%Z / n_weights (N:=Rn) nrb [n]) * (F [n] c - F [n - 1]%Z c).
Proof. exact end_tangent. Qed.
Print Assumptions C106_end.

(** A curve of degree 2 with weights 1,...,5 that crosses the plane y=0 twice between the parameters
    0, 1 and 2, advances in x, and is clamped. *)
Definition exZU : Z -> R := arr [0; 0; 0; 1; 1; 2; 2; 2].
Definition exZ : nurbs Rn := mkNurbs [mkAxis (N:=Rn) 5 8 exZU] 4
  (fun idx c => let i := nth 0 idx 0%Z in IZR (1 + i) * (if (c =? 3)%Z then 1 else if (c =? 0)%Z then IZR i else if (c =? 1)%Z then arr [1; 5; -1; -7; 1] i else 0)).
Definition exZx : vec Rn := mkVec (N:=Rn) 3 (fun i => IZR i).
Lemma exZU_wf : wf_knots 4 2 exZU.
Proof. unfold exZU. wf_list 0%Z 6%Z. Qed.
Lemma exZ_wf : wf_nurbs exZ.
Proof. split; [simpl; lia|]. split; [|simpl; lia]. constructor; [|constructor]. split; simpl; try (unfold a_deg; simpl; lia); exact exZU_wf. Qed.
Lemma exZ_pos : positive_weights exZ.
Proof.
  intros idx H. inversion H as [|? i ? l Hi H1]; subst. inversion H1; subst. unfold n_weights, exZ. cbn [n_arr nth Z.eqb Pos.eqb].
  cbn in Hi. change (T Rn) with R. rewrite Rmult_1_r. apply IZR_lt. lia.
Qed.
Lemma exZ_good : good_args (spec_axes exZ) [exZx].
Proof.
  constructor; [|constructor]. split; [cbn; lia|]. cbn [v_len exZx v_get]. intros i Hi. unfold in_domain. cbn. unfold a_deg. cbn. unfold exZU.
  assert (0 <= IZR i <= 2) by (split; apply IZR_le; lia). cbv [arr nth Z.to_nat Pos.to_nat Pos.iter_op Init.Nat.add]. lra.
Qed.
Lemma exZ_value P i : (0 <= i < 3)%Z -> curve 4 2 exZU P (IZR i) = P (2 * i)%Z.
Proof.
  intros Hi. pose proof exZU_wf as W. enumz i 0%Z 2%Z.
  - rewrite (full_value 2 4 exZU P 0 2 W ltac:(lia)); [reflexivity|unfold exZU; split; arr_lra|]. intros j Hj. unfold exZU. enumz j 1%Z 2%Z; arr_lra.
  - rewrite (full_value 2 4 exZU P 1 4 W ltac:(lia)); [reflexivity|unfold exZU; split; arr_lra|]. intros j Hj. unfold exZU. enumz j 3%Z 4%Z; arr_lra.
  - transitivity (curve 4 2 exZU P (exZU 5%Z)); [f_equal; unfold exZU; arr_lra|].
    apply (curve_right_end 4 2 exZU P W). intros j Hj. unfold exZU. enumz j 5%Z 6%Z; arr_lra.
Qed.
Example C105_example : forall j j2 j3 jS, exists C F, call (N:=Rn) j j2 j3 jS exZ [Some exZx] FYes = Ok (C, Some F) /\
  chosen 2 0 (v_len exZx - 1) Z.of_nat /\ alternate 2 (fun i => side 0 1 0 0 (C [i] 0%Z) (C [i] 1%Z) (C [i] 2%Z)) Z.of_nat /\
  (forall q, (q <= 2)%nat -> side 0 1 0 0 (C [Z.of_nat q] 0%Z) (C [Z.of_nat q] 1%Z) (C [Z.of_nat q] 2%Z) <> 0) /\
  (forall i i', (0 <= i < i')%Z -> (i' < 5)%Z -> side 1 0 0 0 (n_points (N:=Rn) exZ [i] 0) (n_points (N:=Rn) exZ [i] 1) (n_points (N:=Rn) exZ [i] 2) <=
    side 1 0 0 0 (n_points (N:=Rn) exZ [i'] 0) (n_points (N:=Rn) exZ [i'] 1) (n_points (N:=Rn) exZ [i'] 2)).
Proof.
  intros j j2 j3 jS. destruct (call_pt exZ [exZx] exZ_wf exZ_good j j2 j3 jS) as (C & F & E & H). exists C, F. split; [exact E|].
  assert (V : forall i, (0 <= i < 3)%Z -> C [i] 1%Z = arr [1; 5; -1; -7; 1] (2 * i)%Z).
  { intros i Hi. rewrite (proj1 (H [i] 1%Z ltac:(constructor; [cbn; lia|constructor]))). unfold pt, hom.
    change (tsum (spec_axes exZ) (fun idx => n_arr exZ idx 1%Z) (params [exZx] [i])) with (curve 4 2 exZU (fun i => n_arr exZ [i] 1%Z) (IZR i)).
    change (tsum (spec_axes exZ) (fun idx => n_arr exZ idx 3%Z) (params [exZx] [i])) with (curve 4 2 exZU (fun i => n_arr exZ [i] 3%Z) (IZR i)).
    rewrite !exZ_value by auto. cbn [exZ n_arr nth Z.eqb Pos.eqb]. change (T Rn) with R. field. assert (0 < IZR (1 + 2 * i)) by (apply IZR_lt; lia). lra. }
  assert (V0 : C [0%Z] 1%Z = 1) by (rewrite V by lia; reflexivity). assert (V1 : C [1%Z] 1%Z = -1) by (rewrite V by lia; reflexivity).
  assert (V2 : C [2%Z] 1%Z = 1) by (rewrite V by lia; reflexivity).
  assert (Sd : forall x y z : R, side 0 1 0 0 x y z = y) by (intros; unfold side; ring).
  split; [split; [intros q Hq; cbn [v_len exZx]; lia|intros; lia]|]. split; [|split].
  - intros q Hq. rewrite !Sd. destruct q as [|[|q]]; [| |lia]; cbn [Z.of_nat Pos.of_succ_nat Pos.succ]; change (T Rn) with R in *; rewrite ?V0, ?V1, ?V2; lra.
  - intros q Hq. rewrite Sd. destruct q as [|[|[|q]]]; [| | |lia]; cbn [Z.of_nat Pos.of_succ_nat Pos.succ]; change (T Rn) with R in *; rewrite ?V0, ?V1, ?V2; lra.
  - assert (Px : forall i, (0 <= i)%Z -> n_points (N:=Rn) exZ [i] 0 = IZR i).
    { intros i Hi. unfold n_points, exZ. cbn [n_arr nth Z.eqb Pos.eqb]. change (ndiv Rn) with Rdiv. change (T Rn) with R.
      field. assert (0 < IZR (1 + i)) by (apply IZR_lt; lia). lra. }
    intros i i' Hi Hi'. unfold side. rewrite !Px by lia. assert (IZR i <= IZR i') by (apply IZR_le; lia). change (T Rn) with R in *. lra.
Qed.
Example C104_C106_example : wf_nurbs exZ /\ positive_weights exZ /\ good_args (spec_axes exZ) [exZx] /\
  field_of exZ None 3 (fun i c => n_arr exZ i c / n_arr exZ i 3%Z) /\
  (forall j, (1 <= j <= 2)%Z -> exZU j = exZU 2%Z) /\ (forall j, (4 + 1 <= j <= 4 + 2)%Z -> exZU j = exZU 5%Z) /\
  n_weights (N:=Rn) exZ [0%Z] <> 0 /\ n_weights (N:=Rn) exZ [4%Z] <> 0.
Proof.
  split; [exact exZ_wf|]. split; [exact exZ_pos|]. split; [exact exZ_good|]. split; [left; auto|].
  split; [intros j Hj; unfold exZU; enumz j 1%Z 2%Z; arr_lra|]. split; [intros j Hj; unfold exZU; enumz j 5%Z 6%Z; arr_lra|].
  unfold n_weights, exZ. cbn [n_arr nth Z.eqb Pos.eqb]. change (T Rn) with R. rewrite !Rmult_1_r. split; [apply (not_0_IZR 1); lia|apply (not_0_IZR 5); lia].
Qed.
