(** C88, C89: interpolated control points and the bounding box in IEEE double precision.  Vocabulary: SpecDouble.v
    ([dval], [finite], [b2]), SpecRound.v ([mild_axis], [mild_arg], [mild_weights], [real_pt], [effort]), PropDouble.v. *)
From Coq Require Import ZArith Reals List Bool SpecFloat Lia Lra.
From Verif Require Import Num Loop Spec ModelBspline ModelBSp ModelNurbs ModelFloat SpecNurbs SpecDouble SpecRound ProofRound ProofRound2 ProofRound3 ProofRound4 ProofRound7
  ProofRound10 ProofRound11 ExTac PropDouble PropRound.
Import ListNotations.
Local Open Scope R_scope.

(** ** C88, curves: at a knot of multiplicity p (and at the ends) the control point comes back without any error *)
(** k is the index of the control point, whose weight is 1; the other weights are arbitrary. *)
Theorem C88_curve_exact : forall junk junk2 junk3 junkS (nrb : nurbs Dn) A x (fields : bool), n_axes nrb = [A] -> mild_axis A -> mild_arg A x ->
  exists C F, call (N:=Dn) junk junk2 junk3 junkS nrb [Some x] (if fields then FYes else FNo) = Ok (C, F) /\
    (if fields then F = Some (fun idx c => C idx (4 + c)%Z) else F = None) /\
    forall i k c, let u := dval (v_get x i) in let U := fun j => dval (a_knots A j) in let p := a_deg A in
      (0 <= i < v_len x)%Z -> (0 <= k < a_size A)%Z -> (forall j, (k + 1 <= j <= k + p)%Z -> U j = u) -> (k = (a_size A - 1)%Z \/ u < U (k + p + 1)%Z) ->
      (forall j, (0 <= j < a_size A)%Z -> finite (n_arr nrb [j] c) /\ finite (n_arr nrb [j] 3%Z)) -> dval (n_arr nrb [k] 3%Z) = 1 ->
      (dval (n_arr nrb [k] c) = 0 \/ b2 (-900) <= Rabs (dval (n_arr nrb [k] c)) <= b2 900) ->
      finite (C [i] c) /\ dval (C [i] c) = dval (n_arr nrb [k] c).
Proof. exact call_exact. Qed.
Print Assumptions C88_curve_exact.
(** The curve of C85 at both ends: control points 0 and 2, with coordinates 0.1 and 0.7. *)
Definition arc_ends : vec Dn := mkVec (N:=Dn) 2 (dl (ints [0; 1]%Z)).
Example C88_curve_example : exists A, n_axes arc = [A] /\ mild_axis A /\ mild_arg A arc_ends /\
  (forall j, (0 + 1 <= j <= 0 + a_deg A)%Z -> dval (a_knots A j) = dval (v_get arc_ends 0)) /\ dval (v_get arc_ends 0) < dval (a_knots A (0 + a_deg A + 1)%Z) /\
  (forall j, (2 + 1 <= j <= 2 + a_deg A)%Z -> dval (a_knots A j) = dval (v_get arc_ends 1)) /\ (2 = a_size A - 1)%Z /\
  (forall j, (0 <= j < a_size A)%Z -> finite (n_arr arc [j] 0%Z) /\ finite (n_arr arc [j] 3%Z)) /\
  forall k, k = 0%Z \/ k = 2%Z -> dval (n_arr arc [k] 3%Z) = 1 /\ b2 (-900) <= Rabs (dval (n_arr arc [k] 0%Z)) <= b2 900.
Proof.
  exists (mkAxis (N:=Dn) 3 6 (dl (ints [0; 0; 0; 1; 1; 1]%Z))). cbn [a_knots a_size]. change (a_deg _) with 2%Z.
  assert (K : forall i, (0 <= i < 6)%Z -> dval (dl (ints [0; 0; 0; 1; 1; 1]%Z) i) = if (i <? 3)%Z then 0 else 1).
  { intros i Hi. rewrite arc_knot by auto. destruct (i <? 3)%Z; [apply dv0|apply dv1]. }
  assert (E0 : dval (v_get arc_ends 0) = 0) by exact dv0. assert (E1 : dval (v_get arc_ends 1) = 1) by exact dv1. rewrite E0, E1.
  split; [reflexivity|]. split; [exact arc_axis|]. split.
  { split; [cbn; lia|]. intros i Hi. change (0 <= i < 2)%Z in Hi. enumz i 0%Z 1%Z; (split; [fin|]); unfold in_domain; rewrite ?E0, ?E1; cbn [a_knots a_size]; change (a_deg _) with 2%Z;
    change (3 - 1 + 1)%Z with 3%Z; rewrite !K by lia; cbn [Z.ltb Z.compare Pos.compare Pos.compare_cont]; lra. }
  split; [intros j Hj; rewrite K by lia; replace (j <? 3)%Z with true by (symmetry; apply Z.ltb_lt; lia); reflexivity|].
  split; [rewrite K by lia; cbn [Z.ltb Z.compare Pos.compare Pos.compare_cont Z.add Pos.add Pos.succ]; lra|].
  split; [intros j Hj; rewrite K by lia; replace (j <? 3)%Z with false by (symmetry; apply Z.ltb_ge; lia); reflexivity|].
  split; [reflexivity|]. split.
  { intros j Hj. enumz j 0%Z 2%Z; split; fin. }
  assert (B9 : b2 (-900) <= b2 (-4) /\ b2 0 <= b2 900) by (split; apply b2_le; lia).
  intros k [-> | ->]; (split; [exact dv1|]).
  - assert (L : dval (dbl_of_Z 0) <= dval (dec 1 1)) by (apply le_by; [fin|fin|vm_compute; reflexivity]). rewrite dv0 in L.
    assert (L2 : dval (dec 1 1) <= dval (dbl_of_Z 1)) by (apply le_by; [fin|fin|vm_compute; reflexivity]). rewrite dv1 in L2.
    assert (L3 : dval (S754_finite false 4503599627370496 (-56)) <= dval (dec 1 1)) by (apply le_by; [fin|fin|vm_compute; reflexivity]).
    assert (L4 : dval (S754_finite false 4503599627370496 (-56)) = b2 (-4)) by (cbn [dval]; change 4503599627370496%positive with (2 ^ 52)%positive; unfold b2; rewrite Pos2Z.inj_pow; simpl; lra).
    change (n_arr arc [0%Z] 0%Z) with (dec 1 1). rewrite Rabs_right by lra. rewrite b2_0 in B9. lra.
  - assert (L2 : dval (dec 7 1) <= dval (dbl_of_Z 1)) by (apply le_by; [fin|fin|vm_compute; reflexivity]). rewrite dv1 in L2.
    assert (L3 : dval (S754_finite false 4503599627370496 (-56)) <= dval (dec 7 1)) by (apply le_by; [fin|fin|vm_compute; reflexivity]).
    assert (L4 : dval (S754_finite false 4503599627370496 (-56)) = b2 (-4)) by (cbn [dval]; change 4503599627370496%positive with (2 ^ 52)%positive; unfold b2; rewrite Pos2Z.inj_pow; simpl; lra).
    change (n_arr arc [2%Z] 0%Z) with (dec 7 1). pose proof (b2_pos (-4)). rewrite Rabs_right by lra. rewrite b2_0 in B9. lra.
Qed.

(** ** C88, false of weighted end points: x/w rounded is not what comes back *)
(** A straight line over [0, 49], from homogeneous (1, 0, 0, 3), i.e. the point 1/3, to (1, 0, 0, 1). *)
Definition thirds : nurbs Dn :=
  mkNurbs (N:=Dn) [mkAxis (N:=Dn) 2 4 (dl (ints [0; 0; 49; 49]%Z))] 4
    (fun idx c => if (c =? 0)%Z then n1 Dn else if (c =? 3)%Z then dl (ints [3; 1]%Z) (nth 0%nat idx 0%Z) else n0 Dn).
Theorem C88_weighted_refuted : exists (nrb : nurbs Dn) C, wfD nrb = true /\ at_ nrb (dbl_of_Z 0) = Ok (C, None) /\
  n_arr nrb [0%Z] 0%Z = dbl_of_Z 1 /\ n_arr nrb [0%Z] 3%Z = dbl_of_Z 3 /\ neqb Dn (C [0%Z] 0%Z) (ndiv Dn (n_arr nrb [0%Z] 0%Z) (n_arr nrb [0%Z] 3%Z)) = false.
Proof.
  exists thirds. destruct (at_ thirds (dbl_of_Z 0)) as [[C F]|e] eqn:E.
  2: { exfalso. assert (H : is_ok (at_ thirds (dbl_of_Z 0)) = true) by (vm_compute; reflexivity). rewrite E in H. discriminate. }
  exists C. split; [vm_compute; reflexivity|].
  assert (H : match at_ thirds (dbl_of_Z 0) with Ok (C, None) => negb (neqb Dn (C [0%Z] 0%Z) (ndiv Dn (n_arr thirds [0%Z] 0%Z) (n_arr thirds [0%Z] 3%Z))) | _ => false end = true) by (vm_compute; reflexivity).
  rewrite E in H. destruct F as [F|]; [discriminate|]. apply negb_true_iff in H. split; [reflexivity|]. split; [reflexivity|]. split; [reflexivity|exact H].
Qed.
Print Assumptions C88_weighted_refuted.

(** ** C88 and C89, false of surfaces: every control point is (3, 0, 0) with weight 1, the corner comes back as another point *)
Definition flat3 : nurbs Dn :=
  let A := mkAxis (N:=Dn) 2 4 (dl (ints [0; 0; 49; 49]%Z)) in
  mkNurbs (N:=Dn) [A; A] 4 (fun idx c => if (c =? 0)%Z then dbl_of_Z 3 else if (c =? 3)%Z then n1 Dn else n0 Dn).
Definition at2 (nrb : nurbs Dn) (u v : Dn) := call (N:=Dn) dj dj2 dj3 (fun _ => 0%Z) nrb [Some (mkVec (N:=Dn) 1 (fun _ => u)); Some (mkVec (N:=Dn) 1 (fun _ => v))] FNo.
Theorem C88_surface_refuted : exists (nrb : nurbs Dn) C, wfD nrb = true /\ at2 nrb (dbl_of_Z 0) (dbl_of_Z 0) = Ok (C, None) /\
  (forall idx, n_arr nrb idx 3%Z = dbl_of_Z 1) /\ (forall idx, n_arr nrb idx 0%Z = dbl_of_Z 3) /\ nltb Dn (C [0; 0]%Z 0%Z) (dbl_of_Z 3) || nltb Dn (dbl_of_Z 3) (C [0; 0]%Z 0%Z) = true.
Proof.
  exists flat3. destruct (at2 flat3 (dbl_of_Z 0) (dbl_of_Z 0)) as [[C F]|e] eqn:E.
  2: { exfalso. assert (H : is_ok (at2 flat3 (dbl_of_Z 0) (dbl_of_Z 0)) = true) by (vm_compute; reflexivity). rewrite E in H. discriminate. }
  exists C. split; [vm_compute; reflexivity|].
  assert (H : match at2 flat3 (dbl_of_Z 0) (dbl_of_Z 0) with Ok (C, None) => nltb Dn (C [0; 0]%Z 0%Z) (dbl_of_Z 3) || nltb Dn (dbl_of_Z 3) (C [0; 0]%Z 0%Z) | _ => false end = true) by (vm_compute; reflexivity).
  rewrite E in H. destruct F as [F|]; [discriminate|]. split; [reflexivity|]. split; [reflexivity|]. split; [reflexivity|exact H].
Qed.
Print Assumptions C88_surface_refuted.

(** ** C89, false: the box of the control points is the single number 3, and the computed coordinate lies below or above it *)
Theorem C89_box_refuted : exists (nrb : nurbs Dn) C, wfD nrb = true /\ at2 nrb (dbl_of_Z 0) (dbl_of_Z 0) = Ok (C, None) /\
  (forall idx, n_arr nrb idx 3%Z = dbl_of_Z 1) /\ (forall idx, n_arr nrb idx 0%Z = dbl_of_Z 3) /\ nltb Dn (C [0; 0]%Z 0%Z) (dbl_of_Z 3) || nltb Dn (dbl_of_Z 3) (C [0; 0]%Z 0%Z) = true.
Proof. exact C88_surface_refuted. Qed.
Print Assumptions C89_box_refuted.

(** ** C89: the computed point leaves the box of the control points by no more than the error bound *)
Theorem C89_box_close : forall junk junk2 junk3 junkS (nrb : nurbs Dn) xs (fields : bool),
  (length (n_axes nrb) <= 3)%nat -> Forall mild_axis (n_axes nrb) -> Forall2 mild_arg (n_axes nrb) xs -> mild_weights nrb ->
  exists C F, call (N:=Dn) junk junk2 junk3 junkS nrb (map Some xs) (if fields then FYes else FNo) = Ok (C, F) /\
    forall idx c lo hi, Forall2 (fun x i => (0 <= i < v_len x)%Z) xs idx -> - b2 500 <= lo -> hi <= b2 500 ->
      (forall i, in_net (map real_ax (n_axes nrb)) i -> finite (n_arr nrb i c) /\ lo <= dval (n_arr nrb i c) / dval (n_arr nrb i 3%Z) <= hi) ->
      let err := b2 (-49) * effort (n_axes nrb) * Rmax (- lo) hi + b2 (-900) in
      finite (C idx c) /\ lo - err <= dval (C idx c) <= hi + err.
Proof. exact box_close. Qed.
Print Assumptions C89_box_close.
(** The curve of C85, with coordinates between 0 and 1. *)
Example C89_example : (length (n_axes arc) <= 3)%nat /\ Forall mild_axis (n_axes arc) /\ Forall2 mild_arg (n_axes arc) [arc_at] /\ mild_weights arc /\
  forall c, (0 <= c < 3)%Z -> forall i, in_net (map real_ax (n_axes arc)) i -> finite (n_arr arc i c) /\ -1 <= dval (n_arr arc i c) / dval (n_arr arc i 3%Z) <= 1.
Proof.
  destruct C85_example as (H1 & H2 & H3 & H4 & H5 & _). repeat (split; [assumption|]). intros c Hc i Hi. destruct (H5 c Hc i Hi) as [F B]. destruct (H4 i Hi) as [_ W].
  split; [exact F|]. assert (P : 0 < dval (n_arr arc i 3%Z)) by (pose proof (b2_pos (-100)); lra). rewrite Rmult_1_l in B. apply Rabs_def2_le in B.
  split; (apply Rmult_le_reg_r with (dval (n_arr arc i 3%Z)); [exact P|]; unfold Rdiv; rewrite Rmult_assoc, Rinv_l by lra; lra).
Qed.
