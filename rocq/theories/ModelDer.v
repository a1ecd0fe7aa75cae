(** Model of the derivative kernels (module bspeval and subroutines Gradient1..3, Hessian1..3,
    ThirdDer1..3, FourthDer1..3 of igakit/igalib.f90) and of the methods gradient, hessian and
    derivative of class NURBS.

    Simplifications, common to the whole file:
    - The optional arrays N0, N1, ..., N4 (and R0..R4) are one function whose first argument is
      the list of derivative directions (1-based, in the order of the Fortran subscripts); the
      second argument is the list of local node indices (ia,ja,ka), counted from 0.
    - The local arrays are recomputed for every evaluation point by the source; here the result
      is a function of the evaluation point instead of an array filled in a loop.
    - One field component at a time.
    - Numbers are exact (record [Num]). *)
From Coq Require Import ZArith Bool List Lia.
From Verif Require Import Num Loop ModelBspline ModelBSp ModelNurbs.
Import ListNotations.
Local Open Scope Z_scope.

Section Model.
Context {N : Num}.
Notation "x +! y" := (nadd N x y) (at level 50, left associativity).
Notation "x -! y" := (nsub N x y) (at level 50, left associativity).
Notation "x *! y" := (nmul N x y) (at level 40, left associativity).
Notation "x /! y" := (ndiv N x y) (at level 40, left associativity).
Notation "'0!'" := (n0 N).
Notation "'1!'" := (n1 N).

(** ** Module bspeval *)

(** igakit/igalib.f90:661-689; the last line reads iN(ia,3) in the source (line 687). *)
Definition TensorProd1 (iN : Z -> Z -> N) (D : list Z) (ia : Z) : N :=
  match D with
  | [] => iN ia 0
  | [1] => iN ia 1
  | [1; 1] => iN ia 2
  | [1; 1; 1] => iN ia 3
  | [1; 1; 1; 1] => iN ia 3
  | _ => 0!
  end.

(** igakit/igalib.f90:690-745 *)
Definition TensorProd2 (iN jN : Z -> Z -> N) (D : list Z) (ia ja : Z) : N :=
  match D with
  | [] => iN ia 0 *! jN ja 0
  | [1] => iN ia 1 *! jN ja 0
  | [2] => iN ia 0 *! jN ja 1
  | [1; 1] => iN ia 2 *! jN ja 0
  | [2; 1] => iN ia 1 *! jN ja 1
  | [1; 2] => iN ia 1 *! jN ja 1
  | [2; 2] => iN ia 0 *! jN ja 2
  | [1; 1; 1] => iN ia 3 *! jN ja 0
  | [2; 1; 1] => iN ia 2 *! jN ja 1
  | [1; 2; 1] => iN ia 2 *! jN ja 1
  | [2; 2; 1] => iN ia 1 *! jN ja 2
  | [1; 1; 2] => iN ia 2 *! jN ja 1
  | [2; 1; 2] => iN ia 1 *! jN ja 2
  | [1; 2; 2] => iN ia 1 *! jN ja 2
  | [2; 2; 2] => iN ia 0 *! jN ja 3
  | [1; 1; 1; 1] => iN ia 4 *! jN ja 0
  | [2; 1; 1; 1] => iN ia 3 *! jN ja 1
  | [1; 2; 1; 1] => iN ia 3 *! jN ja 1
  | [2; 2; 1; 1] => iN ia 2 *! jN ja 2
  | [1; 1; 2; 1] => iN ia 3 *! jN ja 1
  | [2; 1; 2; 1] => iN ia 2 *! jN ja 2
  | [1; 2; 2; 1] => iN ia 2 *! jN ja 2
  | [2; 2; 2; 1] => iN ia 1 *! jN ja 3
  | [1; 1; 1; 2] => iN ia 3 *! jN ja 1
  | [2; 1; 1; 2] => iN ia 2 *! jN ja 2
  | [1; 2; 1; 2] => iN ia 2 *! jN ja 2
  | [2; 2; 1; 2] => iN ia 1 *! jN ja 3
  | [1; 1; 2; 2] => iN ia 2 *! jN ja 2
  | [2; 1; 2; 2] => iN ia 1 *! jN ja 3
  | [1; 2; 2; 2] => iN ia 1 *! jN ja 3
  | [2; 2; 2; 2] => iN ia 0 *! jN ja 4
  | _ => 0!
  end.

(** igakit/igalib.f90:746-892 *)
Definition TensorProd3 (iN jN kN : Z -> Z -> N) (D : list Z) (ia ja ka : Z) : N :=
  match D with
  | [] => iN ia 0 *! jN ja 0 *! kN ka 0
  | [1] => iN ia 1 *! jN ja 0 *! kN ka 0
  | [2] => iN ia 0 *! jN ja 1 *! kN ka 0
  | [3] => iN ia 0 *! jN ja 0 *! kN ka 1
  | [1; 1] => iN ia 2 *! jN ja 0 *! kN ka 0
  | [2; 1] => iN ia 1 *! jN ja 1 *! kN ka 0
  | [3; 1] => iN ia 1 *! jN ja 0 *! kN ka 1
  | [1; 2] => iN ia 1 *! jN ja 1 *! kN ka 0
  | [2; 2] => iN ia 0 *! jN ja 2 *! kN ka 0
  | [3; 2] => iN ia 0 *! jN ja 1 *! kN ka 1
  | [1; 3] => iN ia 1 *! jN ja 0 *! kN ka 1
  | [2; 3] => iN ia 0 *! jN ja 1 *! kN ka 1
  | [3; 3] => iN ia 0 *! jN ja 0 *! kN ka 2
  | [1; 1; 1] => iN ia 3 *! jN ja 0 *! kN ka 0
  | [2; 1; 1] => iN ia 2 *! jN ja 1 *! kN ka 0
  | [3; 1; 1] => iN ia 2 *! jN ja 0 *! kN ka 1
  | [1; 2; 1] => iN ia 2 *! jN ja 1 *! kN ka 0
  | [2; 2; 1] => iN ia 1 *! jN ja 2 *! kN ka 0
  | [3; 2; 1] => iN ia 1 *! jN ja 1 *! kN ka 1
  | [1; 3; 1] => iN ia 2 *! jN ja 0 *! kN ka 1
  | [2; 3; 1] => iN ia 1 *! jN ja 1 *! kN ka 1
  | [3; 3; 1] => iN ia 1 *! jN ja 0 *! kN ka 2
  | [1; 1; 2] => iN ia 2 *! jN ja 1 *! kN ka 0
  | [2; 1; 2] => iN ia 1 *! jN ja 2 *! kN ka 0
  | [3; 1; 2] => iN ia 1 *! jN ja 1 *! kN ka 1
  | [1; 2; 2] => iN ia 1 *! jN ja 2 *! kN ka 0
  | [2; 2; 2] => iN ia 0 *! jN ja 3 *! kN ka 0
  | [3; 2; 2] => iN ia 0 *! jN ja 2 *! kN ka 1
  | [1; 3; 2] => iN ia 1 *! jN ja 1 *! kN ka 1
  | [2; 3; 2] => iN ia 0 *! jN ja 2 *! kN ka 1
  | [3; 3; 2] => iN ia 0 *! jN ja 1 *! kN ka 2
  | [1; 1; 3] => iN ia 2 *! jN ja 0 *! kN ka 1
  | [2; 1; 3] => iN ia 1 *! jN ja 1 *! kN ka 1
  | [3; 1; 3] => iN ia 1 *! jN ja 0 *! kN ka 2
  | [1; 2; 3] => iN ia 1 *! jN ja 1 *! kN ka 1
  | [2; 2; 3] => iN ia 0 *! jN ja 2 *! kN ka 1
  | [3; 2; 3] => iN ia 0 *! jN ja 1 *! kN ka 2
  | [1; 3; 3] => iN ia 1 *! jN ja 0 *! kN ka 2
  | [2; 3; 3] => iN ia 0 *! jN ja 1 *! kN ka 2
  | [3; 3; 3] => iN ia 0 *! jN ja 0 *! kN ka 3
  | [1; 1; 1; 1] => iN ia 4 *! jN ja 0 *! kN ka 0
  | [2; 1; 1; 1] => iN ia 3 *! jN ja 1 *! kN ka 0
  | [3; 1; 1; 1] => iN ia 3 *! jN ja 0 *! kN ka 1
  | [1; 2; 1; 1] => iN ia 3 *! jN ja 1 *! kN ka 0
  | [2; 2; 1; 1] => iN ia 2 *! jN ja 2 *! kN ka 0
  | [3; 2; 1; 1] => iN ia 2 *! jN ja 1 *! kN ka 1
  | [1; 3; 1; 1] => iN ia 3 *! jN ja 0 *! kN ka 1
  | [2; 3; 1; 1] => iN ia 2 *! jN ja 1 *! kN ka 1
  | [3; 3; 1; 1] => iN ia 2 *! jN ja 0 *! kN ka 2
  | [1; 1; 2; 1] => iN ia 3 *! jN ja 1 *! kN ka 0
  | [2; 1; 2; 1] => iN ia 2 *! jN ja 2 *! kN ka 0
  | [3; 1; 2; 1] => iN ia 2 *! jN ja 1 *! kN ka 1
  | [1; 2; 2; 1] => iN ia 2 *! jN ja 2 *! kN ka 0
  | [2; 2; 2; 1] => iN ia 1 *! jN ja 3 *! kN ka 0
  | [3; 2; 2; 1] => iN ia 1 *! jN ja 2 *! kN ka 1
  | [1; 3; 2; 1] => iN ia 2 *! jN ja 1 *! kN ka 1
  | [2; 3; 2; 1] => iN ia 1 *! jN ja 2 *! kN ka 1
  | [3; 3; 2; 1] => iN ia 1 *! jN ja 1 *! kN ka 2
  | [1; 1; 3; 1] => iN ia 3 *! jN ja 0 *! kN ka 1
  | [2; 1; 3; 1] => iN ia 2 *! jN ja 1 *! kN ka 1
  | [3; 1; 3; 1] => iN ia 2 *! jN ja 0 *! kN ka 2
  | [1; 2; 3; 1] => iN ia 2 *! jN ja 1 *! kN ka 1
  | [2; 2; 3; 1] => iN ia 1 *! jN ja 2 *! kN ka 1
  | [3; 2; 3; 1] => iN ia 1 *! jN ja 1 *! kN ka 2
  | [1; 3; 3; 1] => iN ia 2 *! jN ja 0 *! kN ka 2
  | [2; 3; 3; 1] => iN ia 1 *! jN ja 1 *! kN ka 2
  | [3; 3; 3; 1] => iN ia 1 *! jN ja 0 *! kN ka 3
  | [1; 1; 1; 2] => iN ia 3 *! jN ja 1 *! kN ka 0
  | [2; 1; 1; 2] => iN ia 2 *! jN ja 2 *! kN ka 0
  | [3; 1; 1; 2] => iN ia 2 *! jN ja 1 *! kN ka 1
  | [1; 2; 1; 2] => iN ia 2 *! jN ja 2 *! kN ka 0
  | [2; 2; 1; 2] => iN ia 1 *! jN ja 3 *! kN ka 0
  | [3; 2; 1; 2] => iN ia 1 *! jN ja 2 *! kN ka 1
  | [1; 3; 1; 2] => iN ia 2 *! jN ja 1 *! kN ka 1
  | [2; 3; 1; 2] => iN ia 1 *! jN ja 2 *! kN ka 1
  | [3; 3; 1; 2] => iN ia 1 *! jN ja 1 *! kN ka 2
  | [1; 1; 2; 2] => iN ia 2 *! jN ja 2 *! kN ka 0
  | [2; 1; 2; 2] => iN ia 1 *! jN ja 3 *! kN ka 0
  | [3; 1; 2; 2] => iN ia 1 *! jN ja 2 *! kN ka 1
  | [1; 2; 2; 2] => iN ia 1 *! jN ja 3 *! kN ka 0
  | [2; 2; 2; 2] => iN ia 0 *! jN ja 4 *! kN ka 0
  | [3; 2; 2; 2] => iN ia 0 *! jN ja 3 *! kN ka 1
  | [1; 3; 2; 2] => iN ia 1 *! jN ja 2 *! kN ka 1
  | [2; 3; 2; 2] => iN ia 0 *! jN ja 3 *! kN ka 1
  | [3; 3; 2; 2] => iN ia 0 *! jN ja 2 *! kN ka 2
  | [1; 1; 3; 2] => iN ia 2 *! jN ja 1 *! kN ka 1
  | [2; 1; 3; 2] => iN ia 1 *! jN ja 2 *! kN ka 1
  | [3; 1; 3; 2] => iN ia 1 *! jN ja 1 *! kN ka 2
  | [1; 2; 3; 2] => iN ia 1 *! jN ja 2 *! kN ka 1
  | [2; 2; 3; 2] => iN ia 0 *! jN ja 3 *! kN ka 1
  | [3; 2; 3; 2] => iN ia 0 *! jN ja 2 *! kN ka 2
  | [1; 3; 3; 2] => iN ia 1 *! jN ja 1 *! kN ka 2
  | [2; 3; 3; 2] => iN ia 0 *! jN ja 2 *! kN ka 2
  | [3; 3; 3; 2] => iN ia 0 *! jN ja 1 *! kN ka 3
  | [1; 1; 1; 3] => iN ia 3 *! jN ja 0 *! kN ka 1
  | [2; 1; 1; 3] => iN ia 2 *! jN ja 1 *! kN ka 1
  | [3; 1; 1; 3] => iN ia 2 *! jN ja 0 *! kN ka 2
  | [1; 2; 1; 3] => iN ia 2 *! jN ja 1 *! kN ka 1
  | [2; 2; 1; 3] => iN ia 1 *! jN ja 2 *! kN ka 1
  | [3; 2; 1; 3] => iN ia 1 *! jN ja 1 *! kN ka 2
  | [1; 3; 1; 3] => iN ia 2 *! jN ja 0 *! kN ka 2
  | [2; 3; 1; 3] => iN ia 1 *! jN ja 1 *! kN ka 2
  | [3; 3; 1; 3] => iN ia 1 *! jN ja 0 *! kN ka 3
  | [1; 1; 2; 3] => iN ia 2 *! jN ja 1 *! kN ka 1
  | [2; 1; 2; 3] => iN ia 1 *! jN ja 2 *! kN ka 1
  | [3; 1; 2; 3] => iN ia 1 *! jN ja 1 *! kN ka 2
  | [1; 2; 2; 3] => iN ia 1 *! jN ja 2 *! kN ka 1
  | [2; 2; 2; 3] => iN ia 0 *! jN ja 3 *! kN ka 1
  | [3; 2; 2; 3] => iN ia 0 *! jN ja 2 *! kN ka 2
  | [1; 3; 2; 3] => iN ia 1 *! jN ja 1 *! kN ka 2
  | [2; 3; 2; 3] => iN ia 0 *! jN ja 2 *! kN ka 2
  | [3; 3; 2; 3] => iN ia 0 *! jN ja 1 *! kN ka 3
  | [1; 1; 3; 3] => iN ia 2 *! jN ja 0 *! kN ka 2
  | [2; 1; 3; 3] => iN ia 1 *! jN ja 1 *! kN ka 2
  | [3; 1; 3; 3] => iN ia 1 *! jN ja 0 *! kN ka 3
  | [1; 2; 3; 3] => iN ia 1 *! jN ja 1 *! kN ka 2
  | [2; 2; 3; 3] => iN ia 0 *! jN ja 2 *! kN ka 2
  | [3; 2; 3; 3] => iN ia 0 *! jN ja 1 *! kN ka 3
  | [1; 3; 3; 3] => iN ia 1 *! jN ja 0 *! kN ka 3
  | [2; 3; 3; 3] => iN ia 0 *! jN ja 1 *! kN ka 3
  | [3; 3; 3; 3] => iN ia 0 *! jN ja 0 *! kN ka 4
  | _ => 0!
  end.

(** The call of the TensorProd routine of the right dimension.
    igakit/igalib.f90:1401, 1463, 1538, ... *)
Definition TensorProd (Ms : list (Z -> Z -> N)) (D a : list Z) : N :=
  match Ms, a with
  | [iN], [ia] => TensorProd1 iN D ia
  | [iN; jN], [ia; ja] => TensorProd2 iN jN D ia ja
  | [iN; jN; kN], [ia; ja; ka] => TensorProd3 iN jN kN D ia ja ka
  | _, _ => 0!
  end.

(** The local nodes (0:px,0:py,0:pz) in array element order, first index fastest.
    igakit/igalib.f90:1376-1402, 1453-1464, 1528-1541 *)
Fixpoint nodes (ps : list Z) : list (list Z) :=
  match ps with
  | [] => [[]]
  | p :: ps' => flat_map (fun t => map (fun ia => ia :: t) (zseq (Z.to_nat (p + 1)) 0)) (nodes ps')
  end.

(** The intrinsic sum over the nodes.  igakit/igalib.f90:907, 910, ... *)
Definition asum (ns : list (list Z)) (f : list Z -> N) : N := fold_left (fun s a => s +! f a) ns 0!.

(** igakit/igalib.f90:893-944.  [R] holds N0..N4 on entry; the result holds R0..R4.  The loops
    over i, j, k, l only write the entry they read, so each entry is a function of the input. *)
Definition Rationalize (ns : list (list Z)) (W : list Z -> N) (R : list Z -> list Z -> N)
  : list Z -> list Z -> N :=
  let W0 := asum ns (fun a => W a *! R [] a) in
  let R0 := fun a => (W a *! R [] a) /! W0 in
  let W1 := fun i => asum ns (fun a => W a *! R [i] a) in
  let R1 := fun i a => (W a *! R [i] a -! R0 a *! W1 i) /! W0 in
  let W2 := fun i j => asum ns (fun a => W a *! R [i; j] a) in
  let R2 := fun i j a => (W a *! R [i; j] a -! R0 a *! W2 i j
                          -! R1 i a *! W1 j -! R1 j a *! W1 i) /! W0 in
  let W3 := fun i j k => asum ns (fun a => W a *! R [i; j; k] a) in
  let R3 := fun i j k a => (W a *! R [i; j; k] a -! R0 a *! W3 i j k
                            -! R1 i a *! W2 j k -! R1 j a *! W2 i k -! R1 k a *! W2 i j
                            -! R2 j k a *! W1 i -! R2 i k a *! W1 j -! R2 i j a *! W1 k) /! W0 in
  let W4 := fun i j k l => asum ns (fun a => W a *! R [i; j; k; l] a) in
  let R4 := fun i j k l a => (W a *! R [i; j; k; l] a
                              -! R0 a *! W4 i j k l -! R1 l a *! W3 i j k
                              -! R1 k a *! W3 i j l -! R2 k l a *! W2 i j
                              -! R1 j a *! W3 i k l -! R2 j l a *! W2 i k
                              -! R2 j k a *! W2 i l -! R3 j k l a *! W1 i
                              -! R1 i a *! W3 j k l -! R2 i l a *! W2 j k
                              -! R2 i k a *! W2 j l -! R3 i k l a *! W1 j
                              -! R2 i j a *! W2 k l -! R3 i j l a *! W1 k) /! W0 in
  fun D a =>
    match D with
    | [] => R0 a
    | [i] => R1 i a
    | [i; j] => R2 i j a
    | [i; j; k] => R3 i j k a
    | [i; j; k; l] => R4 i j k l a
    | _ => 0!
    end.

(** One entry of V = matmul(N,transpose(U)).  igakit/igalib.f90:959-966 *)
Definition Interpolate (ns : list (list Z)) (Nd U : list Z -> N) : N :=
  asum ns (fun a => Nd a *! U a).

(** igakit/igalib.f90:967-984 *)
Definition Determinant (dim : Z) (A : Z -> Z -> N) : N :=
  match dim with
  | 1 => A 1 1
  | 2 => A 1 1 *! A 2 2 -! A 2 1 *! A 1 2
  | 3 => A 1 1 *! (A 2 2 *! A 3 3 -! A 3 2 *! A 2 3)
         -! A 2 1 *! (A 1 2 *! A 3 3 -! A 3 2 *! A 1 3)
         +! A 3 1 *! (A 1 2 *! A 2 3 -! A 2 2 *! A 1 3)
  | _ => 0!
  end.

(** igakit/igalib.f90:985-1015; a leading minus sign is a subtraction from zero. *)
Definition Inverse (dim : Z) (A : Z -> Z -> N) (i j : Z) : N :=
  let detA := Determinant dim A in
  match dim with
  | 1 => 1! /! detA
  | 2 =>
      match i, j with
      | 1, 1 => A 2 2
      | 2, 1 => 0! -! A 2 1
      | 1, 2 => 0! -! A 1 2
      | 2, 2 => A 1 1
      | _, _ => 0!
      end /! detA
  | 3 =>
      match i, j with
      | 1, 1 => A 2 2 *! A 3 3 -! A 2 3 *! A 3 2
      | 2, 1 => A 2 3 *! A 3 1 -! A 2 1 *! A 3 3
      | 3, 1 => A 2 1 *! A 3 2 -! A 2 2 *! A 3 1
      | 1, 2 => A 1 3 *! A 3 2 -! A 1 2 *! A 3 3
      | 2, 2 => A 1 1 *! A 3 3 -! A 1 3 *! A 3 1
      | 3, 2 => A 1 2 *! A 3 1 -! A 1 1 *! A 3 2
      | 1, 3 => A 1 2 *! A 2 3 -! A 1 3 *! A 2 2
      | 2, 3 => A 1 3 *! A 2 1 -! A 1 1 *! A 2 3
      | 3, 3 => A 1 1 *! A 2 2 -! A 1 2 *! A 2 1
      | _, _ => 0!
      end /! detA
  | _ => 0!
  end.

(** Entry (i,f) of G = matmul(transpose(E1),G), where E1 is the inverse of
    X1 = matmul(X,transpose(N1)); [X i] is the i-th coordinate of the nodes, [G k] the k-th
    parametric derivative.  igakit/igalib.f90:945-958 *)
Definition GeometryMap (ns : list (list Z)) (dim : Z) (N1 X : Z -> list Z -> N) (G : Z -> N) (i : Z) : N :=
  let X1 := fun i j => asum ns (fun a => X i a *! N1 j a) in
  let E1 := Inverse dim X1 in
  for_up 1 dim (fun k s => s +! E1 k i *! G k) 0!.

(** ** Gradient1..3, Hessian1..3, ThirdDer1..3, FourthDer1..3 at one evaluation point *)

(** An axis of a kernel call together with one entry of the array of parameters.
    igakit/igalib.f90:1360-1375 *)
Record dax := mkDax { d_n : Z; d_p : Z; d_U : Z -> N; d_x : N }.

(** Uninitialised work arrays. *)
Variable junk : Z -> N.
Variable junk2 : Z -> Z -> N.

(** [spanx(ix) = FindSpan(nx,px,X(ix),Ux)].  igakit/igalib.f90:1385 *)
Definition d_span (a : dax) : Z := FindSpan (d_n a) (d_p a) (d_x a) (d_U a).
(** [call DersBasisFuns(spanx(ix),X(ix),px,order,Ux,Mx(:,:,ix))].  igakit/igalib.f90:1386 *)
Definition d_table (order : Z) (a : dax) : Z -> Z -> N :=
  DersBasisFuns (d_span a) (d_x a) (d_p a) order (d_U a) junk junk2.
(** Global index of a local node: ox+jx, oy+jy, oz+jz.  igakit/igalib.f90:1390-1398 *)
Fixpoint d_global (axs : list dax) (a : list Z) : list Z :=
  match axs, a with
  | A :: axs', j :: a' => (d_span A - d_p A + j) :: d_global axs' a'
  | _, _ => []
  end.
Definition d_nodes (axs : list dax) : list (list Z) := nodes (map d_p axs).
(** Rational basis functions and their derivatives: TensorProd followed by Rationalize with the
    weights of the local nodes.  igakit/igalib.f90:1389-1402 *)
Definition d_rational (order : Z) (axs : list dax) (Pw : list Z -> Z -> N) : list Z -> list Z -> N :=
  Rationalize (d_nodes axs) (fun a => Pw (d_global axs a) 3) (TensorProd (map (d_table order) axs)).
(** [call Interpolate(nen,dim**order,d,N,FF,DD)], entry D of one component of the field.
    igakit/igalib.f90:1403, 1597, 1798, 2002 and the same lines for dimensions 2 and 3.
    The routines as a whole: Gradient1-3 at igakit/igalib.f90:1360-1553, Hessian1-3 at 1555-1754,
    ThirdDer1-3 at 1756-1958, FourthDer1-3 at 1960-2162; they differ in the order and in the loops
    over the nodes of one, two or three axes, which are one fold over [d_nodes] here. *)
Definition d_interp (order : Z) (axs : list dax) (Pw : list Z -> Z -> N) (F : list Z -> N) (D : list Z) : N :=
  Interpolate (d_nodes axs) (d_rational order axs Pw D) (fun a => F (d_global axs a)).
(** The same with the geometry mapping of the gradient.
    igakit/igalib.f90:1390-1404 (map /= 0), 1446-1466, 1520-1541 *)
Definition d_mapped (axs : list dax) (Pw : list Z -> Z -> N) (F : list Z -> N) (i : Z) : N :=
  GeometryMap (d_nodes axs) (Z.of_nat (length axs)) (fun k => d_rational 1 axs Pw [k])
    (fun c a => Pw (d_global axs a) (c - 1) /! Pw (d_global axs a) 3)
    (fun k => d_interp 1 axs Pw F [k]) i.

(** ** The methods of class NURBS *)

(** Choice of the field array: the argument, else the fields of the object, else the Cartesian
    control points; and its shape check.  Result: number of components and access function.
    igakit/nurbs.py:1541-1553, 1609-1621, 1678-1690 *)
Definition der_fields (nrb : nurbs N) (fields : option (nd N)) : res (Z * (list Z -> Z -> N)) :=
  match fields with
  | Some F =>
      let shape := n_shape nrb in
      if shape_eqb (nd_shape F) shape then Ok (1, fun idx _ => nd_get F idx)
      else
        assert (Z.of_nat (length (nd_shape F)) - 1 =? Z.of_nat (length shape)) ;;;
        assert (shape_eqb (removelast (nd_shape F)) shape) ;;;
        Ok (last (nd_shape F) 0, fun idx c => nd_get F (idx ++ [c]))
  | None =>
      match n_fields nrb with
      | Some F => Ok (n_comp nrb - 4, F)
      | None => Ok (3, n_points nrb)
      end
  end.

(** The kernel axes at evaluation point [idx].  igakit/nurbs.py:1561-1567, 1629-1635 *)
Fixpoint d_axes (axs : list (axis N)) (xs : list (vec N)) (idx : list Z) : list dax :=
  match axs, xs, idx with
  | A :: axs', x :: xs', i :: idx' =>
      mkDax (a_size A - 1) (a_deg A) (a_knots A) (v_get x i) :: d_axes axs' xs' idx'
  | _, _, _ => []
  end.

(** Derivatives of order 1..4: result indexed by evaluation point, field component and the list
    of directions (0-based, as the last subscripts of the returned array).  The C-ordered
    interface reverses the Fortran subscripts.  [map /= 0] with order above one executes the
    Fortran statement stop.
    igakit/nurbs.py:1526-1578, 1594-1646, 1663-1717; igakit/igalib.pyf:233-460;
    igakit/igalib.f90:1360-2162 *)
Definition der_core (nrb : nurbs N) (order : Z) (fields : option (nd N)) (args : list (option (vec N))) (mapped : bool)
  : res (list Z -> Z -> list Z -> N) :=
  let* xs := eval_args junk (n_axes nrb) args in
  let* F := der_fields nrb fields in
  assert ((1 <=? order) && (order <=? 4)) ;;;
  check (1 <=? fst F) ;;;
  check (forallb (fun A => (2 <=? a_size A) && (1 <=? a_deg A)) (n_axes nrb)) ;;;
  if mapped && (2 <=? order) then Raise ProcessStop
  else
    Ok (fun idx c D =>
          let axs := d_axes (n_axes nrb) xs idx in
          let Df := map (fun d => d + 1) (rev D) in
          if mapped then d_mapped axs (n_arr nrb) (fun idx => snd F idx c) (nth 0 Df 0)
          else d_interp order axs (n_arr nrb) (fun idx => snd F idx c) Df).

(** [nrb.gradient(fields,u,v,w,mapped)].  igakit/nurbs.py:1512-1578 *)
Definition gradient (nrb : nurbs N) := der_core nrb 1.
(** [nrb.hessian(fields,u,v,w,mapped)].  igakit/nurbs.py:1580-1646 *)
Definition hessian (nrb : nurbs N) := der_core nrb 2.
(** [nrb.derivative(order,fields,u,v,w,mapped)].  igakit/nurbs.py:1648-1717 *)
Definition derivative (nrb : nurbs N) (order : Z) := der_core nrb order.

End Model.
Arguments dax N : clear implicits.
