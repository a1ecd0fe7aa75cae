(** C120: sections (extract, boundary) in IEEE double precision, and bit for bit in any arithmetic.
    The results concern igakit/nurbs.py:1268-1364 and igakit/igalib.f90:179-225.  Vocabulary: SpecDouble.v ([dval],
    [finite], [b2]), SpecRound.v ([mild_axis], [mild_comp], [real_pt]), SpecRound2.v ([new_knot], [times_in], [within],
    [weights_in], [real_hom]), SpecElev.v ([clamped]), ProofSpan.v ([weak_order]: the two comparisons fit together). *)
From Coq Require Import ZArith Reals List Bool SpecFloat Lia Lra.
From Verif Require Import Num Loop Spec ModelBspline ModelBSp ModelNurbs ModelFloat SpecNurbs SpecElev SpecDouble SpecRound SpecRound2 ProofNet ProofSpan ProofRound ProofRound2 ProofRound3 ProofRound4
  ProofRound8 ProofRound14 ProofRound17 ProofLayer ExTac PropDouble PropRound PropRound4.
Import ListNotations.
Local Open Scope R_scope.

(** ** In any arithmetic the section at an inner parameter is a layer of the net with the knot inserted as often as possible *)
Theorem C120_layer : forall (N : Num) (nrb nrb' sec : nurbs N) ax a (u : N) junk junk', weak_order N -> py_axis (n_dim nrb) ax = Ok a ->
  nleb N u (a_lo (get_axis nrb a)) = false -> nleb N (a_hi (get_axis nrb a)) u = false ->
  insert junk nrb ax u None = Ok nrb' -> extract junk' nrb ax u = Ok sec ->
  n_axes sec = lrem a (n_axes nrb) /\ n_comp sec = n_comp nrb /\
  exists j, (0 <= j < a_size (get_axis nrb' a))%Z /\ forall idx c, (a <= length idx)%nat -> n_arr sec idx c = n_arr nrb' (lins a j idx) c.
Proof. exact @extract_layer. Qed.
Print Assumptions C120_layer.

(** ** Inner parameters are accepted *)
Theorem C120_accepts : forall (dj : Z -> Dn) (nrb : nurbs Dn) ax a (u : Dn), Forall mild_axis (n_axes nrb) -> py_axis (n_dim nrb) ax = Ok a ->
  new_knot (get_axis nrb a) u -> exists sec, extract (N:=Dn) dj nrb ax u = Ok sec.
Proof. exact section_accepts. Qed.
Print Assumptions C120_accepts.

(** ** The control points of the section are finite and hardly larger than those of the object *)
Theorem C120_net : forall (dj : Z -> Dn) (nrb sec : nurbs Dn) ax a (u : Dn), (length (n_axes nrb) <= 3)%nat -> (4 <= n_comp nrb)%Z ->
  Forall mild_axis (n_axes nrb) -> py_axis (n_dim nrb) ax = Ok a -> let A := get_axis nrb a in new_knot A u ->
  extract (N:=Dn) dj nrb ax u = Ok sec ->
  forall c M, M <= b2 500 -> within nrb c M -> within sec c ((1 + IZR (a_deg A) * b2 (-48)) * M + IZR (a_deg A) * b2 (-1073)).
Proof. exact section_net. Qed.
Print Assumptions C120_net.

(** ** The homogeneous spline of the section is that of the object at u, within (p-s)(2^-48 M + 2^-1073) *)
Theorem C120_spline : forall (dj : Z -> Dn) (nrb sec : nurbs Dn) ax a (u : Dn), (length (n_axes nrb) <= 3)%nat -> (4 <= n_comp nrb)%Z ->
  Forall mild_axis (n_axes nrb) -> py_axis (n_dim nrb) ax = Ok a -> let A := get_axis nrb a in new_knot A u ->
  extract (N:=Dn) dj nrb ax u = Ok sec ->
  n_axes sec = lrem a (n_axes nrb) /\ n_comp sec = n_comp nrb /\
  forall c M, M <= b2 500 -> within nrb c M -> forall us, in_box (map real_ax (n_axes sec)) us ->
    Rabs (real_hom sec c us - real_hom nrb c (lins a (dval u) us)) <= IZR (a_deg A - Z.min (times_in A u) (a_deg A)) * (b2 (-48) * M + b2 (-1073)).
Proof. exact section_spline. Qed.
Print Assumptions C120_spline.

(** ** The points of the section: coordinate or field c, within M over the control points *)
Theorem C120_points : forall (dj : Z -> Dn) (nrb sec : nurbs Dn) ax a (u : Dn), (length (n_axes nrb) <= 3)%nat -> (4 <= n_comp nrb)%Z ->
  Forall mild_axis (n_axes nrb) -> py_axis (n_dim nrb) ax = Ok a -> let A := get_axis nrb a in new_knot A u ->
  extract (N:=Dn) dj nrb ax u = Ok sec -> forall w0 w1, weights_in nrb w0 w1 ->
  forall c M, 0 <= M <= b2 400 -> mild_comp nrb c M -> forall us, in_box (map real_ax (n_axes sec)) us ->
    Rabs (real_pt sec c us - real_pt nrb c (lins a (dval u) us)) <= IZR (a_deg A) * b2 (-46) * (w1 / w0) * M + b2 (-960).
Proof. exact section_pt. Qed.
Print Assumptions C120_points.

(** ** The ends of a clamped axis: the boundary is the first or last layer of the net, bit for bit *)
Theorem C120_boundary : forall (dj : Z -> Dn) (nrb sec : nurbs Dn) ax a side, Forall mild_axis (n_axes nrb) -> py_axis (n_dim nrb) ax = Ok a ->
  let A := get_axis nrb a in clamped (a_size A - 1) (a_deg A) (fun i => dval (a_knots A i)) ->
  boundary (N:=Dn) dj nrb ax side = Ok sec ->
  n_axes sec = lrem a (n_axes nrb) /\ n_comp sec = n_comp nrb /\ (side = 0 \/ side = 1)%Z /\
  forall idx c, n_arr sec idx c = n_arr nrb (lins a (if side =? 0 then 0 else a_size A - 1)%Z idx) c.
Proof. exact boundary_layer. Qed.
Print Assumptions C120_boundary.

(** A surface with the arc of C85 along the first axis, the same along the whole second one, cut at 0.3. *)
Definition sheet : nurbs Dn := mkNurbs (N:=Dn) (n_axes arc ++ n_axes arc) (n_comp arc) (fun idx c => n_arr arc [nth 0 idx 0%Z] c).
Example C120_example : py_axis (n_dim sheet) (-1) = Ok 1%nat /\ (length (n_axes sheet) <= 3)%nat /\ (4 <= n_comp sheet)%Z /\ Forall mild_axis (n_axes sheet) /\
  new_knot (get_axis sheet 1) (dec 3 1) /\ weights_in sheet (/ 2) 1 /\ (forall c, (0 <= c < 3)%Z -> mild_comp sheet c 1 /\ within sheet c 1) /\
  (let A := get_axis sheet 1 in clamped (a_size A - 1) (a_deg A) (fun i => dval (a_knots A i))) /\
  nleb Dn (dec 3 1) (a_lo (get_axis sheet 1)) = false /\ nleb Dn (a_hi (get_axis sheet 1)) (dec 3 1) = false /\
  is_ok (extract (N:=Dn) dj sheet (-1) (dec 3 1)) = true /\ is_ok (insert (N:=Dn) dj sheet (-1) (dec 3 1) None) = true /\ is_ok (boundary (N:=Dn) dj sheet (-1) 1) = true.
Proof.
  destruct C94_example as (_ & _ & H3 & H4 & _ & H6 & _ & _ & (W1 & W2 & W3 & W4) & H10 & _).
  assert (NET : forall idx, in_net (map real_ax (n_axes sheet)) idx -> in_net (map real_ax (n_axes arc)) [nth 0 idx 0%Z]).
  { intros idx I. inversion I as [|? i ? l Hi Hl]; subst. constructor; [exact Hi|constructor]. }
  split; [reflexivity|]. split; [cbn; lia|]. split; [exact H3|]. split; [apply Forall_app; auto|]. split; [exact H6|].
  split. { split; [exact W1|]. split; [exact W2|]. split; [exact W3|]. intros idx I. apply (W4 _ (NET idx I)). }
  split. { intros c Hc. destruct (H10 c Hc) as [Q1 Q2]. split; intros idx I; [apply (Q1 _ (NET idx I))|apply (Q2 _ (NET idx I))]. }
  split. { cbv zeta. change (a_size (get_axis sheet 1) - 1)%Z with 2%Z. change (a_deg (get_axis sheet 1)) with 2%Z. change (a_knots (get_axis sheet 1)) with (dl (ints [0; 0; 0; 1; 1; 1]%Z)).
    split; intros j Hj; [enumz j 0%Z 2%Z|enumz j 3%Z 5%Z]; reflexivity. }
  repeat split; vm_compute; reflexivity.
Qed.
