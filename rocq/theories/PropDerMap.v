(** Mapped gradients of reparametrised objects.
    Code: igakit/nurbs.py:1512-1578 (gradient with mapped=True), igakit/igalib.f90 (Gradient1..3,
    Inverse), after igakit/nurbs.py:540-606 (transpose, swap), 608-658 (reverse), 690-719 (remap).
    The statements compare results of the methods with each other; [det] is the determinant
    (SpecDer.v), applied to the unmapped gradient of the points, the Jacobian matrix. *)
From Coq Require Import ZArith Reals QArith List Lia Lra Bool.
From Verif Require Import Num Loop ModelBspline ModelBSp ModelNurbs ModelDer Spec SpecNurbs SpecDer ProofNet ProofCall ProofNurbs ProofGeom ProofGeom2 ProofPerm ProofOk ProofDerApi
  ProofCompat1 ExTac PropNurbs PropDer PropRefuted ProofDerGeom ProofDerGeom2 ProofDerMove ProofDerMove2 ProofDerMove3 ProofDerMap.
Import ListNotations.
Local Open Scope R_scope.

(** ** C110: the mapped gradient belongs to the physical point, not to the parametrisation. *)
Theorem C110_transpose : forall nrb axes nrb', wf_nurbs nrb -> (1 <= length (n_axes nrb))%nat -> positive_weights nrb -> permutes (length (n_axes nrb)) axes ->
  transpose (N:=Rn) nrb (Some axes) = Ok nrb' ->
  forall xs, good_args (spec_axes nrb) xs ->
  forall j j2 k k2, exists G G' J, gradient (N:=Rn) j j2 nrb None (map Some xs) true = Ok G /\
    gradient (N:=Rn) k k2 nrb' None (map Some (pick (mkVec (N:=Rn) 0 (fun _ => 0)) axes xs)) true = Ok G' /\
    gradient (N:=Rn) j j2 nrb (Some (points_nd nrb)) (map Some xs) false = Ok J /\
  forall idx q i, in_range (pick (mkVec (N:=Rn) 0 (fun _ => 0)) axes xs) idx -> (0 <= i < Z.of_nat (length (n_axes nrb)))%Z ->
    det (length (n_axes nrb)) (fun a b => J (unpermute axes idx) a [b]) <> 0 ->
    G' idx q [i] = G (unpermute axes idx) q [i].
Proof. exact mapped_transpose. Qed.
Print Assumptions C110_transpose.
Theorem C110_swap : forall nrb ax1 ax2 i j nrb', wf_nurbs nrb -> positive_weights nrb -> py_axis (n_dim nrb) ax1 = Ok i -> py_axis (n_dim nrb) ax2 = Ok j ->
  swap (N:=Rn) nrb ax1 ax2 = Ok nrb' ->
  forall xs, good_args (spec_axes nrb) xs ->
  forall j1 j2 k1 k2, exists G G' J, gradient (N:=Rn) j1 j2 nrb None (map Some xs) true = Ok G /\
    gradient (N:=Rn) k1 k2 nrb' None (map Some (lswap i j (mkVec (N:=Rn) 0 (fun _ => 0)) xs)) true = Ok G' /\
    gradient (N:=Rn) j1 j2 nrb (Some (points_nd nrb)) (map Some xs) false = Ok J /\
  forall idx q c, in_range (lswap i j (mkVec (N:=Rn) 0 (fun _ => 0)) xs) idx -> (0 <= c < Z.of_nat (length (n_axes nrb)))%Z ->
    det (length (n_axes nrb)) (fun a b => J (lswap i j 0%Z idx) a [b]) <> 0 ->
    G' idx q [c] = G (lswap i j 0%Z idx) q [c].
Proof. exact mapped_swap. Qed.
Print Assumptions C110_swap.
(** Reversal: at parameters that are no knots of full multiplicity inside the domain. *)
Theorem C110_reverse : forall nrb ax a nrb', wf_nurbs nrb -> py_axis (n_dim nrb) ax = Ok a -> positive_weights nrb ->
  let A := get_axis nrb a in let lo := a_lo A in let hi := a_hi A in
  continuous_axis A -> reverse (N:=Rn) nrb [ax] = Ok nrb' ->
  forall xs, good_args (spec_axes nrb) xs ->
  forall j j2 k k2, exists G G' J, gradient (N:=Rn) j j2 nrb None (map Some xs) true = Ok G /\
    gradient (N:=Rn) k k2 nrb' None (map Some (map_arg a (fun u => lo + hi - u) xs)) true = Ok G' /\
    gradient (N:=Rn) j j2 nrb (Some (points_nd nrb)) (map Some xs) false = Ok J /\
  forall idx q i, in_range xs idx -> (0 <= i < Z.of_nat (length (n_axes nrb)))%Z ->
    let u := nth a (params xs idx) 0 in
    (lo < u < hi -> (mulA A u < a_deg A)%Z) ->
    det (length (n_axes nrb)) (fun a b => J idx a [b]) <> 0 ->
    G' idx q [i] = G idx q [i].
Proof. exact mapped_reverse. Qed.
Print Assumptions C110_reverse.
Theorem C110_remap : forall nrb ax a start end_ nrb', wf_nurbs nrb -> py_axis (n_dim nrb) ax = Ok a -> positive_weights nrb ->
  let A := get_axis nrb a in let lo := a_lo A in let hi := a_hi A in
  let c := match start with Some c => c | None => lo end in
  let d := match end_ with Some d => d | None => hi end in
  let g := fun x => c + (x - lo) * (d - c) / (hi - lo) in
  remap (N:=Rn) nrb ax start end_ = Ok nrb' ->
  forall xs, good_args (spec_axes nrb) xs ->
  forall j j2 k k2, exists G G' J, gradient (N:=Rn) j j2 nrb None (map Some xs) true = Ok G /\
    gradient (N:=Rn) k k2 nrb' None (map Some (map_arg a g xs)) true = Ok G' /\
    gradient (N:=Rn) j j2 nrb (Some (points_nd nrb)) (map Some xs) false = Ok J /\
  forall idx q i, in_range xs idx -> (0 <= i < Z.of_nat (length (n_axes nrb)))%Z ->
    det (length (n_axes nrb)) (fun a b => J idx a [b]) <> 0 ->
    G' idx q [i] = G idx q [i].
Proof. exact mapped_remap. Qed.
Print Assumptions C110_remap.

(** The surface exS (hypotheses), and, over the rationals, a rational surface with a field: the
    determinant at u = 1/2, v = 1/4 is 8/9; the mapped gradient of its field there is the same
    before and after each operation. *)
Definition exMq : nurbs Qn := mkNurbs (n_axes exRq) 5
  (fun idx c => if (c =? 4)%Z then inject_Z (3 + nth 0 idx 0 * 2 - 5 * nth 1 idx 0)%Z else n_arr exRq idx c).
Definition mgrad (r : res (nurbs Qn)) (us : list Q) (i : Z) : option Q :=
  match r with Raise _ => None | Ok nrb =>
  match gradient (N:=Qn) (fun _ => 7%Q) (fun _ _ => 9%Q) nrb None (map (fun u => Some (mkVec (N:=Qn) 1 (fun _ => u))) us) true with
  | Ok G => Some (G (map (fun _ => 0%Z) us) 0%Z [i]) | Raise _ => None end end.
Definition jacq (us : list Q) (a b : Z) : Q :=
  match gradient (N:=Qn) (fun _ => 7%Q) (fun _ _ => 9%Q) exRq None (map (fun u => Some (mkVec (N:=Qn) 1 (fun _ => u))) us) false with
  | Ok G => G (map (fun _ => 0%Z) us) a [b] | Raise _ => 0%Q end.
Example C110_example : permutes (length (n_axes exS)) [1; 0]%Z /\ positive_weights exS /\ good_args (spec_axes exS) exArgs /\ continuous_axis (get_axis exS 0) /\
  (exists nrb', reverse (N:=Rn) exS [0%Z] = Ok nrb') /\ (exists nrb', transpose (N:=Rn) exS (Some [1; 0]%Z) = Ok nrb') /\ (exists nrb', swap (N:=Rn) exS 0 (-1) = Ok nrb') /\
  (exists nrb', remap (N:=Rn) exS 1 (Some (-5)) None = Ok nrb') /\
  (jacq [1 # 2; 1 # 4] 0 0 * jacq [1 # 2; 1 # 4] 1 1 - jacq [1 # 2; 1 # 4] 0 1 * jacq [1 # 2; 1 # 4] 1 0 == 8 # 9)%Q /\
  map (mgrad (Ok exMq) [1 # 2; 1 # 4]%Q) [0; 1]%Z = [Some (1 # 8); Some (-10 # 3)]%Q /\
  map (mgrad (transpose (N:=Qn) exMq (Some [1; 0]%Z)) [1 # 4; 1 # 2]%Q) [0; 1]%Z = [Some (1 # 8); Some (-10 # 3)]%Q /\
  map (mgrad (swap (N:=Qn) exMq 0 1) [1 # 4; 1 # 2]%Q) [0; 1]%Z = [Some (1 # 8); Some (-10 # 3)]%Q /\
  map (mgrad (reverse (N:=Qn) exMq [1%Z]) [1 # 2; 3 # 4]%Q) [0; 1]%Z = [Some (1 # 8); Some (-10 # 3)]%Q /\
  map (mgrad (remap (N:=Qn) exMq 1 (Some (-4)%Q) None) [1 # 2; -11 # 4]%Q) [0; 1]%Z = [Some (1 # 8); Some (-10 # 3)]%Q.
Proof.
  destruct C28_example as [P _]. split; [exact P|]. split; [exact exS_pos|]. split; [exact exArgs_good|].
  split; [exact (Forall_inv exS_cont)|]. split; [eexists; reflexivity|]. split; [eexists; reflexivity|]. split; [eexists; reflexivity|].
  split; [exact (proj2 C27_example)|]. vm_compute. repeat split; reflexivity.
Qed.
