(** The integer factors the Fortran code keeps in [integer(kind=4)], with wrap-around on
    overflow (what the compiled code does; the Fortran standard leaves overflow undefined).
    Everything else is as in ModelBspline.v. *)
From Coq Require Import ZArith Bool.
From Verif Require Import Num Loop ModelBspline.
Local Open Scope Z_scope.

(** Reduction of an integer to [integer(kind=4)].  igakit/igalib.f90:8, 130-134 *)
Definition i32 (z : Z) : Z := (z + 2147483648) mod 4294967296 - 2147483648.

Section Int32.
Context {N : Num}.

(** Final scaling of DersBasisFuns, factor r in integer(kind=4).  igakit/igalib.f90:130-134 *)
Definition Ders_scale32 (p n : Z) (ders : Z -> Z -> N) : Z -> Z -> N :=
  fst (for_up 1 n
    (fun k (s : (Z -> Z -> N) * Z) =>
       let '(ders, r) := s in
       ((fun x y => if (y =? k) && (0 <=? x) && (x <=? p) then nmul N (ders x y) (nofZ N r) else ders x y),
        i32 (r * (p - k))))
    (ders, i32 p)).
(** igakit/igalib.f90:75-135 *)
Definition DersBasisFuns32 (i : Z) (uu : N) (p n : Z) (U : Z -> N) (junk : Z -> N) (junk2 : Z -> Z -> N)
  : Z -> Z -> N :=
  let ndu := Ders_ndu i uu p U junk junk2 in
  let ders := fun x y => if (y =? 0) && (0 <=? x) && (x <=? p) then ndu x p else junk2 x y in
  let '(_, ders) := for_up 0 p (Ders_rloop p n ndu) (junk2, ders) in
  Ders_scale32 p n ders.
(** [bsp.EvalBasisFunsDers(p,U,u,d,span=-1)].  igakit/igalib.f90:1071-1084; igakit/igalib.pyf:55-64 *)
Definition bsp_EvalBasisFunsDers32 (p m : Z) (U : Z -> N) (u : N) (d : Z)
    (junk : Z -> N) (junk2 : Z -> Z -> N) : option (Z -> Z -> N) :=
  if (1 <=? p) && (2 * p + 1 <=? m) && (0 <=? d) && (d <=? p) then
    let i := FindSpan (m - (p + 1)) p u U in
    let dN := DersBasisFuns32 i u p d U junk junk2 in
    Some (fun k r => dN r k)
  else None.

End Int32.

(** Bin of DegreeElevate; every product in integer(kind=4).  igakit/igalib.f90:641-650 *)
Definition Bin32 (n k : Z) : Z :=
  for_up 0 (Z.min k (n - k) - 1) (fun i C => Z.quot (i32 (C * (n - i))) (i + 1)) 1.
