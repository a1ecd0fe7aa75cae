(** Derivatives of moved, scaled and turned objects.
    Code: igakit/nurbs.py:1512-1717 (gradient, hessian, derivative) after igakit/nurbs.py:472-509
    (transform, translate, move, scale, rotate) and igakit/transform.py.  [differentiates_points] and
    [differentiates_fields] say what the argument fields selects; [keeps] that the map acts on the
    first d coordinates (ProofDerTrans.v); [rodrigues] is the rotation (SpecTransform.v). *)
From Coq Require Import ZArith Reals QArith List Lia Lra Bool.
From Verif Require Import Num Loop ModelBspline ModelBSp ModelNurbs ModelDer ModelTransform Spec SumZ SpecNurbs SpecTransform SpecDer ProofNet ProofCall ProofNurbs ProofGeom ProofGeom2 ProofTransform ProofTransform2
  ProofDerApi ExTac PropNurbs PropTransform2 PropDer PropRefuted ProofDerMap PropDerMap ProofDerTrans.
Import ListNotations.
Local Open Scope R_scope.
Notation det := SpecDer.det.

(** ** C113: derivatives of the points are mapped by the linear part of the transform. *)
Theorem C113_points : forall nrb M xs order f f', wf_nurbs nrb -> (1 <= length (n_axes nrb))%nat -> positive_weights nrb -> affine M ->
  good_args (spec_axes nrb) xs -> (1 <= order <= 4)%Z -> differentiates_points nrb f -> differentiates_points (transform nrb M) f' ->
  forall j j2, exists G G', derivative (N:=Rn) j j2 nrb order f (map Some xs) false = Ok G /\ derivative (N:=Rn) j j2 (transform nrb M) order f' (map Some xs) false = Ok G' /\
  forall idx c D, in_range xs idx -> (0 <= c < 3)%Z -> Z.of_nat (length D) = order ->
    G' idx c D = M c 0%Z * G idx 0%Z D + M c 1%Z * G idx 1%Z D + M c 2%Z * G idx 2%Z D.
Proof. exact points_transform. Qed.
Print Assumptions C113_points.
(** Derivatives of fields with respect to the parameters stay. *)
Theorem C113_fields : forall nrb M xs order f nc, wf_nurbs nrb -> affine M ->
  good_args (spec_axes nrb) xs -> (1 <= order <= 4)%Z -> differentiates_fields nrb f nc ->
  forall j j2, exists G G', derivative (N:=Rn) j j2 nrb order f (map Some xs) false = Ok G /\ derivative (N:=Rn) j j2 (transform nrb M) order f (map Some xs) false = Ok G' /\
  forall idx c D, (0 <= c)%Z -> G' idx c D = G idx c D.
Proof. exact fields_transform. Qed.
Print Assumptions C113_fields.
(** Mapped gradients are mapped by the inverse of the transpose of the linear part. *)
Theorem C113_mapped : forall nrb M xs f nc, wf_nurbs nrb -> (1 <= length (n_axes nrb))%nat -> positive_weights nrb -> affine M ->
  keeps (Z.of_nat (length (n_axes nrb))) M -> det (length (n_axes nrb)) M <> 0 ->
  good_args (spec_axes nrb) xs -> differentiates_fields nrb f nc ->
  forall j j2, exists G G' J, gradient (N:=Rn) j j2 nrb f (map Some xs) true = Ok G /\ gradient (N:=Rn) j j2 (transform nrb M) f (map Some xs) true = Ok G' /\
    gradient (N:=Rn) j j2 nrb (Some (points_nd nrb)) (map Some xs) false = Ok J /\
  forall idx q i, in_range xs idx -> (0 <= q)%Z -> (0 <= i < Z.of_nat (length (n_axes nrb)))%Z ->
    det (length (n_axes nrb)) (fun a b => J idx a [b]) <> 0 ->
    sumZ 0 (Z.of_nat (length (n_axes nrb)) - 1) (fun r => M r i * G' idx q [r]) = G idx q [i].
Proof. exact mapped_transform. Qed.
Print Assumptions C113_mapped.
(** Moving changes no derivative. *)
Theorem C113_translate : forall nrb d axis nrb' xs, n_translate nrb d axis = Ok nrb' -> wf_nurbs nrb -> (1 <= length (n_axes nrb))%nat -> positive_weights nrb -> good_args (spec_axes nrb) xs ->
  (forall order f f', (1 <= order <= 4)%Z -> differentiates_points nrb f -> differentiates_points nrb' f' -> forall j j2, exists G G',
     derivative (N:=Rn) j j2 nrb order f (map Some xs) false = Ok G /\ derivative (N:=Rn) j j2 nrb' order f' (map Some xs) false = Ok G' /\
     forall idx c D, in_range xs idx -> (0 <= c < 3)%Z -> Z.of_nat (length D) = order -> G' idx c D = G idx c D) /\
  (forall f nc, differentiates_fields nrb f nc -> forall j j2, exists G G' J,
     gradient (N:=Rn) j j2 nrb f (map Some xs) true = Ok G /\ gradient (N:=Rn) j j2 nrb' f (map Some xs) true = Ok G' /\ gradient (N:=Rn) j j2 nrb (Some (points_nd nrb)) (map Some xs) false = Ok J /\
     forall idx q i, in_range xs idx -> (0 <= q)%Z -> (0 <= i < Z.of_nat (length (n_axes nrb)))%Z -> det (length (n_axes nrb)) (fun a b => J idx a [b]) <> 0 -> G' idx q [i] = G idx q [i]).
Proof. exact translate_derivatives. Qed.
Print Assumptions C113_translate.
(** Scaling multiplies derivatives of the points and divides mapped gradients by the factors. *)
Theorem C113_scale : forall nrb d axis nrb' xs, n_scale nrb d axis = Ok nrb' -> wf_nurbs nrb -> (1 <= length (n_axes nrb))%nat -> positive_weights nrb -> good_args (spec_axes nrb) xs ->
  exists v, meant 1 (fun x i => x) d axis v /\
  (forall order f f', (1 <= order <= 4)%Z -> differentiates_points nrb f -> differentiates_points nrb' f' -> forall j j2, exists G G',
     derivative (N:=Rn) j j2 nrb order f (map Some xs) false = Ok G /\ derivative (N:=Rn) j j2 nrb' order f' (map Some xs) false = Ok G' /\
     forall idx c D, in_range xs idx -> (0 <= c < 3)%Z -> Z.of_nat (length D) = order -> G' idx c D = v c * G idx c D) /\
  (forall f nc, differentiates_fields nrb f nc -> (forall i, (0 <= i < Z.of_nat (length (n_axes nrb)))%Z -> v i <> 0) -> forall j j2, exists G G' J,
     gradient (N:=Rn) j j2 nrb f (map Some xs) true = Ok G /\ gradient (N:=Rn) j j2 nrb' f (map Some xs) true = Ok G' /\ gradient (N:=Rn) j j2 nrb (Some (points_nd nrb)) (map Some xs) false = Ok J /\
     forall idx q i, in_range xs idx -> (0 <= q)%Z -> (0 <= i < Z.of_nat (length (n_axes nrb)))%Z -> det (length (n_axes nrb)) (fun a b => J idx a [b]) <> 0 -> G' idx q [i] = G idx q [i] / v i).
Proof. exact scale_derivatives. Qed.
Print Assumptions C113_scale.
(** Turning turns derivatives of the points and mapped gradients; for surfaces in the plane the axis
    is normal to the plane. *)
Theorem C113_rotate : forall nrb a ax nrb' xs, n_rotate (N:=Rn) sin cos sqrt nrb a ax = Ok nrb' -> a <> 0 -> wf_nurbs nrb -> (1 <= length (n_axes nrb))%nat -> positive_weights nrb -> good_args (spec_axes nrb) xs ->
  exists u, axis_meant ax u /\ dot3 u u = 1 /\
  (forall order f f', (1 <= order <= 4)%Z -> differentiates_points nrb f -> differentiates_points nrb' f' -> forall j j2, exists G G',
     derivative (N:=Rn) j j2 nrb order f (map Some xs) false = Ok G /\ derivative (N:=Rn) j j2 nrb' order f' (map Some xs) false = Ok G' /\
     forall idx c D, in_range xs idx -> (0 <= c < 3)%Z -> Z.of_nat (length D) = order -> G' idx c D = rodrigues u a (fun k => G idx k D) c) /\
  (forall f nc, differentiates_fields nrb f nc -> length (n_axes nrb) = 3%nat \/ (length (n_axes nrb) = 2%nat /\ u 0%Z = 0 /\ u 1%Z = 0) -> forall j j2, exists G G' J,
     gradient (N:=Rn) j j2 nrb f (map Some xs) true = Ok G /\ gradient (N:=Rn) j j2 nrb' f (map Some xs) true = Ok G' /\ gradient (N:=Rn) j j2 nrb (Some (points_nd nrb)) (map Some xs) false = Ok J /\
     forall idx q i, in_range xs idx -> (0 <= q)%Z -> (0 <= i < Z.of_nat (length (n_axes nrb)))%Z -> det (length (n_axes nrb)) (fun a b => J idx a [b]) <> 0 ->
       G' idx q [i] = rodrigues u a (in_space (length (n_axes nrb)) (fun k => G idx q [k])) i).
Proof. exact rotate_derivatives. Qed.
Print Assumptions C113_rotate.

(** The surface exS meets the hypotheses; over the rationals, the mapped gradient of the field of
    exMq at u = 1/2, v = 1/4 is (1/8, -10/3); it stays when the surface is moved, and is divided by
    (2, -4) when the surface is scaled by (2, -4). *)
Example C113_example : wf_nurbs exS /\ positive_weights exS /\ good_args (spec_axes exS) exArgs /\
  (let M := fun r c => if (r =? 3)%Z then (if (c =? 3)%Z then 1 else 0) else if (r =? c)%Z then 2 else if (c =? 2)%Z then 0 else IZR (r + 5) in affine M /\ keeps 2 M /\ det 2 M <> 0) /\
  differentiates_points exS (Some (points_nd exS)) /\ differentiates_fields exS None 1 /\
  (exists nrb', n_rotate (N:=Rn) sin cos sqrt exS 1 (AxNum 2) = Ok nrb') /\ (forall u, axis_meant (AxNum 2) u -> u 0%Z = 0 /\ u 1%Z = 0) /\
  (exists nrb', n_translate exS (Scal 5) (Some (-1)%Z) = Ok nrb') /\ (exists nrb', n_scale exS (Vect (mkVec (N:=Rn) 2 (fun i => IZR (i + 2)))) None = Ok nrb') /\
  map (mgrad (Ok exMq) [1 # 2; 1 # 4]%Q) [0; 1]%Z = [Some (1 # 8); Some (-10 # 3)]%Q /\
  map (mgrad (n_translate (N:=Qn) exMq (Vect (mkVec (N:=Qn) 2 (fun i => (3 # 7)%Q))) None) [1 # 2; 1 # 4]%Q) [0; 1]%Z = [Some (1 # 8); Some (-10 # 3)]%Q /\
  map (mgrad (n_scale (N:=Qn) exMq (Vect (mkVec (N:=Qn) 2 (fun i => if (i =? 0)%Z then 2%Q else (-4)%Q))) None) [1 # 2; 1 # 4]%Q) [0; 1]%Z = [Some (1 # 16); Some (5 # 6)]%Q.
Proof.
  split; [exact exS_wf|]. split; [exact exS_pos|]. split; [exact exArgs_good|].
  split; [cbv zeta; split; [repeat split; reflexivity|split; [intros r c Hr Hc; enumz r 0%Z 1%Z; replace c with 2%Z by lia; reflexivity|cbn; lra]]|].
  split; [left; reflexivity|]. split; [split; [cbn; lia|reflexivity]|].
  destruct C10_methods_example as (n1 & n2 & _ & E1 & E2 & _).
  split. { apply methods_accept. exists (e3 2). split; [lia|]. reflexivity. }
  split. { intros u [_ Hu]. rewrite !Hu by lia. split; reflexivity. }
  split; [exists n1; exact E1|]. split; [exists n2; exact E2|]. vm_compute. repeat split; reflexivity.
Qed.
