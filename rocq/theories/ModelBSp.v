(** Model of the first part of Fortran module [BSp] (igakit/igalib.f90:1018-1358), the layer
    that f2py exposes as [igakit.igalib.bsp], and of the checks of igakit/igalib.pyf. *)
From Coq Require Import ZArith Bool List Lia.
From Verif Require Import Num Loop ModelBspline.
Local Open Scope Z_scope.

Section Model.
Context {N : Num}.
Notation "x +! y" := (nadd N x y) (at level 50, left associativity).
Notation "x -! y" := (nsub N x y) (at level 50, left associativity).
Notation "x *! y" := (nmul N x y) (at level 40, left associativity).
Notation "x /! y" := (ndiv N x y) (at level 40, left associativity).
Notation "x <=! y" := (nleb N x y) (at level 70).
Notation "x <! y" := (nltb N x y) (at level 70).
Notation "'0!'" := (n0 N).
Notation "'1!'" := (n1 N).

(** [bsp.FindSpan(p,U,u)]; the array U has m+1 entries.
    igakit/igalib.f90:1021-1028; checks p>=1, m>=2p+1: igakit/igalib.pyf:20-26 *)
Definition bsp_FindSpan (p m : Z) (U : Z -> N) (u : N) : option Z :=
  if (1 <=? p) && (2 * p + 1 <=? m) then FindSpan_opt (m - (p + 1)) p u U else None.

(** [bsp.FindMult(p,U,u,span=-1)].
    igakit/igalib.f90:1030-1045; igakit/igalib.pyf:28-35 *)
Definition bsp_FindMult (p m : Z) (U : Z -> N) (u : N) (span : Z) : option Z :=
  if (1 <=? p) && (2 * p + 1 <=? m) then
    let k := if 0 <=? span then span else FindSpan (m - (p + 1)) p u U in
    Some (FindMult k u p U)
  else None.

(** [bsp.EvalBasisFuns(p,U,u,span=-1)]; [junk] = initial contents of the output array.
    igakit/igalib.f90:1056-1069; igakit/igalib.pyf:46-53 *)
Definition bsp_EvalBasisFuns (p m : Z) (U : Z -> N) (u : N) (span : Z) (junk : Z -> N) : option (Z -> N) :=
  if (1 <=? p) && (2 * p + 1 <=? m) then
    let i := if 0 <=? span then span else FindSpan (m - (p + 1)) p u U in
    Some (BasisFuns i u p U junk)
  else None.

(** [bsp.EvalBasisFunsDers(p,U,u,d=p,span=-1)]; result indexed (derivative, function) as the
    C-ordered output array of the interface.
    igakit/igalib.f90:1071-1084; igakit/igalib.pyf:55-64 *)
Definition bsp_EvalBasisFunsDers (p m : Z) (U : Z -> N) (u : N) (d span : Z)
    (junk : Z -> N) (junk2 : Z -> Z -> N) : option (Z -> Z -> N) :=
  if (1 <=? p) && (2 * p + 1 <=? m) && (0 <=? d) && (d <=? p) then
    let i := if 0 <=? span then span else FindSpan (m - (p + 1)) p u U in
    Some (fun k j => DersBasisFuns i u p d U junk junk2 j k)
  else None.

(** [bsp.Greville(p,U)]; [sum(U(i+1:i+p))/p] is an accumulation loop from 0.
    igakit/igalib.f90:1100-1109 *)
Definition Greville_sum (U : Z -> N) (lo hi : Z) : N := for_up lo hi (fun j s => s +! U j) 0!.
Definition bsp_Greville (p m : Z) (U : Z -> N) (junk : Z -> N) : Z -> N :=
  for_up 0 (m - (p + 1)) (fun i X => upd X i (Greville_sum U (i + 1) (i + p) /! nofZ N p)) junk.

(** CountSpans of the f2py user code: the outer loop [for (i=p; i<=n; i++)] with the inner
    [while (i<=n && U[i]==U[i+1]) i++; spans++].  [None] = fuel exhausted.
    igakit/igalib.pyf:5-13 *)
Definition CountSpans_inner (n : Z) (U : Z -> N) (i : Z) : option Z :=
  while (Z.to_nat (n + 2 - i)) (fun i => (i <=? n) && neqb N (U i) (U (i + 1))) (fun i => i + 1) i.
Fixpoint CountSpans_outer (fuel : nat) (n : Z) (U : Z -> N) (i spans : Z) : option Z :=
  match fuel with
  | O => None
  | S f => if i <=? n then
             match CountSpans_inner n U i with
             | Some i' => CountSpans_outer f n U (i' + 1) (spans + 1)
             | None => None
             end
           else Some spans
  end.
Definition CountSpans (n p : Z) (U : Z -> N) : option Z :=
  CountSpans_outer (Z.to_nat (n + 2 - p)) n U p 0.

(** SpanIndex: the loop with [exit] when the output is full; state (I, s, stopped).
    igakit/igalib.f90:1085-1098 *)
Definition SpanIndex_body (r : Z) (U : Z -> N) (k : Z) (st : (Z -> Z) * Z * bool) : (Z -> Z) * Z * bool :=
  let '(Ix, s, stop) := st in
  if stop then st
  else if nltb N (neps N) (nabs N (U k -! U (k + 1)))
       then let Ix := upd Ix s k in let s := s + 1 in (Ix, s, r <? s)
       else st.
Definition SpanIndex (p m : Z) (U : Z -> N) (r : Z) (junk : Z -> Z) : Z -> Z :=
  let '(Ix, _, _) := for_up p (m - (p + 1)) (SpanIndex_body r U) (junk, 1, false) in Ix.

(** [bsp.InsertKnot].  The real(8)/integer checks on u and r are modelled in the caller.
    igakit/igalib.f90:1111-1128 *)
Definition bsp_InsertKnot (n p : Z) (U Pw : Z -> N) (uu : N) (r : Z) (junk : Z -> N)
  : (Z -> N) * (Z -> N) :=
  if r =? 0 then (U, Pw)
  else let '(k, s) := FindSpanMult n p uu U in InsertKnot n p U Pw uu k s r junk.

(** [bsp.RemoveKnot]: new knots, new control points, number of removals.  Points have all
    their d components here because the tolerance test uses the distance.
    igakit/igalib.f90:1130-1152 *)
Definition bsp_RemoveKnot (d n p : Z) (U : Z -> N) (Pw : Z -> Z -> N) (uu : N) (r : Z) (TOL : N)
    (junk2 : Z -> Z -> N) : (Z -> N) * (Z -> Z -> N) * Z :=
  if r =? 0 then (U, Pw, 0)
  else if uu <=! U p then (U, Pw, 0)
  else if U (n + 1) <=! uu then (U, Pw, 0)
  else let '(k, s) := FindSpanMult n p uu U in RemoveKnot d n p U Pw uu k s r TOL junk2.

(** [bsp.Clamp].  igakit/igalib.f90:1154-1167 *)
Definition bsp_Clamp (n p : Z) (U Pw : Z -> N) (l r : bool) (junk : Z -> N) : (Z -> N) * (Z -> N) :=
  ClampKnot n p U Pw l r junk.

(** [bsp.Unclamp]: clamps first, then unclamps.  igakit/igalib.f90:1169-1184 *)
Definition bsp_Unclamp (n p : Z) (U Pw : Z -> N) (C : Z) (l r : bool) (junk : Z -> N) : (Z -> N) * (Z -> N) :=
  let '(V, Qw) := ClampKnot n p U Pw l r junk in
  UnclampKnot n p V Qw C l r.

(** [bsp.RefineKnotVector].  igakit/igalib.f90:1186-1198 *)
Definition bsp_Refine (n p : Z) (U Pw : Z -> N) (r : Z) (X : Z -> N) (junk : Z -> N) : (Z -> N) * (Z -> N) :=
  RefineKnotVector n p U Pw r X junk.

(** [bsp.DegreeElevate].  igakit/igalib.f90:1200-1212 *)
Definition bsp_Elevate (n p : Z) (U Pw : Z -> N) (t : Z) (junk : Z -> N) (junk2 : Z -> Z -> N)
  : (Z -> N) * (Z -> N) := DegreeElevate n p U Pw t junk junk2.

(** [bsp.Extract].  igakit/igalib.f90:1214-1224 *)
Definition bsp_Extract (n p : Z) (U Pw : Z -> N) (x : N) (junk : Z -> N) : N :=
  CurvePntByCornerCut n p U Pw x junk.

(** [bsp.Evaluate1]: one component.  igakit/igalib.f90:1232-1259 *)
Definition Evaluate1 (n p : Z) (U Pw : Z -> N) (r : Z) (X : Z -> N) (junk junkC : Z -> N) : Z -> N :=
  for_up 0 r (fun i Cw =>
    let span := FindSpan n p (X i) U in
    let basis := BasisFuns span (X i) p U junk in
    let C := for_up 0 p (fun j C => C +! basis j *! Pw (span - p + j)) 0! in
    upd Cw i C) junkC.

(** The two table-filling loops [do ix = 0, rx] of Evaluate2 and Evaluate3.
    igakit/igalib.f90:1280-1287, 1330-1341 *)
Definition tables (n p : Z) (U : Z -> N) (r : Z) (X : Z -> N) (junk : Z -> N)
    (spanj : Z -> Z) (basisj : Z -> Z -> N) : (Z -> Z) * (Z -> Z -> N) :=
  for_up 0 r (fun i st =>
    let '(span, basis) := st in
    let span := upd span i (FindSpan n p (X i) U) in
    let b := BasisFuns (span i) (X i) p U junk in
    (span, upd basis i b)) (spanj, basisj).

(** [bsp.Evaluate2]: one component; Pw and Cw indexed (y,x) as in the Fortran source.
    igakit/igalib.f90:1261-1306 *)
Definition Evaluate2 (nx px : Z) (Ux : Z -> N) (ny py : Z) (Uy : Z -> N) (Pw : Z -> Z -> N)
    (rx : Z) (X : Z -> N) (ry : Z) (Y : Z -> N)
    (junk : Z -> N) (sj : Z -> Z) (bj : Z -> Z -> N) (junkC : Z -> Z -> N) : Z -> Z -> N :=
  let '(spanx, basisx) := tables nx px Ux rx X junk sj bj in
  let '(spany, basisy) := tables ny py Uy ry Y junk sj bj in
  for_up 0 rx (fun ix Cw =>
    let ox := spanx ix - px in
    for_up 0 ry (fun iy Cw =>
      let oy := spany iy - py in
      let C := for_up 0 px (fun jx C => for_up 0 py (fun jy C =>
                 let M := basisx ix jx *! basisy iy jy in
                 C +! M *! Pw (oy + jy) (ox + jx)) C) 0! in
      upd2 Cw iy ix C) Cw) junkC.

(** Three-dimensional array element assignment.  igakit/igalib.f90:1352 *)
Definition upd3 {A : Type} (a : Z -> Z -> Z -> A) (i j k : Z) (v : A) : Z -> Z -> Z -> A :=
  fun x y z => if (x =? i) && (y =? j) && (z =? k) then v else a x y z.

(** [bsp.Evaluate3]: one component; Pw and Cw indexed (z,y,x).
    igakit/igalib.f90:1308-1358 *)
Definition Evaluate3 (nx px : Z) (Ux : Z -> N) (ny py : Z) (Uy : Z -> N) (nz pz : Z) (Uz : Z -> N)
    (Pw : Z -> Z -> Z -> N) (rx : Z) (X : Z -> N) (ry : Z) (Y : Z -> N) (rz : Z) (Zs : Z -> N)
    (junk : Z -> N) (sj : Z -> Z) (bj : Z -> Z -> N) (junkC : Z -> Z -> Z -> N) : Z -> Z -> Z -> N :=
  let '(spanx, basisx) := tables nx px Ux rx X junk sj bj in
  let '(spany, basisy) := tables ny py Uy ry Y junk sj bj in
  let '(spanz, basisz) := tables nz pz Uz rz Zs junk sj bj in
  for_up 0 rx (fun ix Cw =>
    let ox := spanx ix - px in
    for_up 0 ry (fun iy Cw =>
      let oy := spany iy - py in
      for_up 0 rz (fun iz Cw =>
        let oz := spanz iz - pz in
        let C := for_up 0 px (fun jx C => for_up 0 py (fun jy C => for_up 0 pz (fun jz C =>
                   let M := basisx ix jx *! basisy iy jy *! basisz iz jz in
                   C +! M *! Pw (oz + jz) (oy + jy) (ox + jx)) C) C) 0! in
        upd3 Cw iz iy ix C) Cw) Cw) junkC.

End Model.
