(** Model of Fortran module [bspline] (igakit/igalib.f90:3-653).

    Control points are modelled one component at a time ([Pw : Z -> T]) because the
    array statements [Pw(:,i) = ...] act componentwise with common scalars;
    RemoveKnot, whose distance test couples the components, keeps them all.
    Arrays are functions of the Fortran index.  [junk] is the arbitrary initial
    contents of local and intent(out) arrays. *)
From Coq Require Import ZArith Bool List Lia.
From Verif Require Import Num Loop.
Local Open Scope Z_scope.

Section Model.
Context {N : Num}.
Notation "x +! y" := (nadd N x y) (at level 50, left associativity).
Notation "x -! y" := (nsub N x y) (at level 50, left associativity).
Notation "x *! y" := (nmul N x y) (at level 40, left associativity).
Notation "x /! y" := (ndiv N x y) (at level 40, left associativity).
Notation "x <=! y" := (nleb N x y) (at level 70).
Notation "x <! y" := (nltb N x y) (at level 70).
Notation "'0!'" := (n0 N).
Notation "'1!'" := (n1 N).

(** One round of the bisection of FindSpan; state (low, high, span).
    igakit/igalib.f90:24-29 *)
Definition FindSpan_body (uu : N) (U : Z -> N) (s : Z * Z * Z) : Z * Z * Z :=
  let '(low, high, span) := s in
  let '(low, high) := if uu <! U span then (low, span) else (span, high) in
  (low, high, (low + high) / 2).

(** Loop condition of FindSpan; [uu >= U(span+1)] is [U(span+1) <= uu].
    igakit/igalib.f90:23 *)
Definition FindSpan_cond (uu : N) (U : Z -> N) (s : Z * Z * Z) : bool :=
  let '(low, high, span) := s in (uu <! U span) || (U (span + 1) <=! uu).

(** FindSpan; [None] would mean that the loop did not end within n+2-p rounds.
    igakit/igalib.f90:6-31 *)
Definition FindSpan_opt (n p : Z) (uu : N) (U : Z -> N) : option Z :=
  if U (n + 1) <=! uu then Some n
  else if uu <=! U p then Some p
  else match while (Z.to_nat (n + 2 - p)) (FindSpan_cond uu U) (FindSpan_body uu U)
                   (p, n + 1, (p + (n + 1)) / 2) with
       | Some (_, _, span) => Some span
       | None => None
       end.

(** FindSpan with the (never taken) out-of-fuel case mapped to -1.
    igakit/igalib.f90:6-31 *)
Definition FindSpan (n p : Z) (uu : N) (U : Z -> N) : Z :=
  match FindSpan_opt n p uu U with Some k => k | None => -1 end.

(** igakit/igalib.f90:33-43 *)
Definition FindMult (i : Z) (uu : N) (p : Z) (U : Z -> N) : Z :=
  for_up (- p) (p + 1)
    (fun j mult => if nabs N (uu -! U (i + j)) <! neps N then mult + 1 else mult) 0.

(** igakit/igalib.f90:45-52 *)
Definition FindSpanMult (n p : Z) (uu : N) (U : Z -> N) : Z * Z :=
  let k := FindSpan n p uu U in (k, FindMult k uu p U).

(** Inner loop body of BasisFuns; state (N, saved).  igakit/igalib.f90:66-70 *)
Definition BasisFuns_inner (j : Z) (lft rgt : Z -> N) (r : Z) (s : (Z -> N) * N) : (Z -> N) * N :=
  let '(Nf, saved) := s in
  let temp := Nf r /! (rgt (r + 1) +! lft (j - r)) in
  (upd Nf r (saved +! rgt (r + 1) *! temp), lft (j - r) *! temp).

(** Outer loop body of BasisFuns; state (N, lft, rgt).  igakit/igalib.f90:62-72 *)
Definition BasisFuns_outer (i : Z) (uu : N) (U : Z -> N) (j : Z)
    (s : (Z -> N) * (Z -> N) * (Z -> N)) : (Z -> N) * (Z -> N) * (Z -> N) :=
  let '(Nf, lft, rgt) := s in
  let lft := upd lft j (uu -! U (i + 1 - j)) in
  let rgt := upd rgt j (U (i + j) -! uu) in
  let '(Nf, saved) := for_up 0 (j - 1) (BasisFuns_inner j lft rgt) (Nf, 0!) in
  (upd Nf j saved, lft, rgt).

(** igakit/igalib.f90:54-73 *)
Definition BasisFuns (i : Z) (uu : N) (p : Z) (U : Z -> N) (junk : Z -> N) : Z -> N :=
  let '(Nf, _, _) := for_up 1 p (BasisFuns_outer i uu U) (upd junk 0 1!, junk, junk) in Nf.

(** Inner loop body of the first phase of DersBasisFuns; state (ndu, saved).
    igakit/igalib.f90:89-94 *)
Definition Ders_inner (j : Z) (lft rgt : Z -> N) (r : Z) (s : (Z -> Z -> N) * N)
  : (Z -> Z -> N) * N :=
  let '(ndu, saved) := s in
  let ndu := upd2 ndu j r (rgt (r + 1) +! lft (j - r)) in
  let temp := ndu r (j - 1) /! ndu j r in
  let ndu := upd2 ndu r j (saved +! rgt (r + 1) *! temp) in
  (ndu, lft (j - r) *! temp).

(** Outer loop body of the first phase.  igakit/igalib.f90:85-96 *)
Definition Ders_outer (i : Z) (uu : N) (U : Z -> N) (j : Z)
    (s : (Z -> Z -> N) * (Z -> N) * (Z -> N)) : (Z -> Z -> N) * (Z -> N) * (Z -> N) :=
  let '(ndu, lft, rgt) := s in
  let lft := upd lft j (uu -! U (i + 1 - j)) in
  let rgt := upd rgt j (U (i + j) -! uu) in
  let '(ndu, saved) := for_up 0 (j - 1) (Ders_inner j lft rgt) (ndu, 0!) in
  (upd2 ndu j j saved, lft, rgt).

(** First phase of DersBasisFuns: the table ndu.  igakit/igalib.f90:84-96 *)
Definition Ders_ndu (i : Z) (uu : N) (p : Z) (U : Z -> N) (junk : Z -> N) (junk2 : Z -> Z -> N)
  : Z -> Z -> N :=
  let '(ndu, _, _) := for_up 1 p (Ders_outer i uu U) (upd2 junk2 0 0 1!, junk, junk) in ndu.

(** Inner loop over j of the second phase; state (a, d).  igakit/igalib.f90:118-121 *)
Definition Ders_jloop (ndu : Z -> Z -> N) (s1 s2 rk pk : Z) (j : Z) (s : (Z -> Z -> N) * N)
  : (Z -> Z -> N) * N :=
  let '(a, d) := s in
  let a := upd2 a s2 j ((a s1 j -! a s1 (j - 1)) /! ndu (pk + 1) (rk + j)) in
  (a, d +! a s2 j *! ndu (rk + j) pk).

(** Body of the loop over k of the second phase; state (a, s1, s2, ders).
    igakit/igalib.f90:101-128 *)
Definition Ders_kloop (p r : Z) (ndu : Z -> Z -> N) (k : Z)
    (s : (Z -> Z -> N) * Z * Z * (Z -> Z -> N)) : (Z -> Z -> N) * Z * Z * (Z -> Z -> N) :=
  let '(a, s1, s2, ders) := s in
  let d := 0! in
  let rk := r - k in
  let pk := p - k in
  let '(a, d) :=
    if k <=? r then
      let a := upd2 a s2 0 (a s1 0 /! ndu (pk + 1) rk) in
      (a, a s2 0 *! ndu rk pk)
    else (a, d) in
  let j1 := if -1 <? rk then 1 else - rk in
  let j2 := if r - 1 <=? pk then k - 1 else p - r in
  let '(a, d) := for_up j1 j2 (Ders_jloop ndu s1 s2 rk pk) (a, d) in
  let '(a, d) :=
    if r <=? pk then
      let a := upd2 a s2 k ((0! -! a s1 (k - 1)) /! ndu (pk + 1) r) in
      (a, d +! a s2 k *! ndu r pk)
    else (a, d) in
  (a, s2, s1, upd2 ders r k d).

(** Body of the loop over r of the second phase; the array [a] keeps its contents
    between rounds.  igakit/igalib.f90:98-129 *)
Definition Ders_rloop (p n : Z) (ndu : Z -> Z -> N) (r : Z) (s : (Z -> Z -> N) * (Z -> Z -> N))
  : (Z -> Z -> N) * (Z -> Z -> N) :=
  let '(a, ders) := s in
  let '(a, _, _, ders) :=
    for_up 1 n (Ders_kloop p r ndu) (upd2 a 0 0 1!, 0, 1, ders) in
  (a, ders).

(** Final scaling by p!/(p-k)!; the integer factor is modelled without overflow here
    (the 32-bit factor is a separate definition in ModelInt32.v).  igakit/igalib.f90:130-134 *)
Definition Ders_scale (p n : Z) (ders : Z -> Z -> N) : Z -> Z -> N :=
  fst (for_up 1 n
    (fun k (s : (Z -> Z -> N) * Z) =>
       let '(ders, r) := s in
       ((fun x y => if (y =? k) && (0 <=? x) && (x <=? p) then ders x y *! nofZ N r else ders x y),
        r * (p - k)))
    (ders, p)).

(** DersBasisFuns; result indexed (r, k): k-th derivative of the r-th nonzero function.
    igakit/igalib.f90:75-135 *)
Definition DersBasisFuns (i : Z) (uu : N) (p n : Z) (U : Z -> N) (junk : Z -> N) (junk2 : Z -> Z -> N)
  : Z -> Z -> N :=
  let ndu := Ders_ndu i uu p U junk junk2 in
  let ders := fun x y => if (y =? 0) && (0 <=? x) && (x <=? p) then ndu x p else junk2 x y in
  let '(_, ders) := for_up 0 p (Ders_rloop p n ndu) (junk2, ders) in
  Ders_scale p n ders.

(** igakit/igalib.f90:137-153 (one component) *)
Definition CurvePoint (n p : Z) (U : Z -> N) (Pw : Z -> N) (uu : N) (junk : Z -> N) : N :=
  let span := FindSpan n p uu U in
  let basis := BasisFuns span uu p U junk in
  for_up 0 p (fun j C => C +! basis j *! Pw (span - p + j)) 0!.

(** igakit/igalib.f90:155-177 (one component; Pw(:,iv,iu) is [Pw iv iu]) *)
Definition SurfacePoint (n p : Z) (U : Z -> N) (m q : Z) (V : Z -> N) (Pw : Z -> Z -> N)
    (uu vv : N) (junk : Z -> N) : N :=
  let uspan := FindSpan n p uu U in
  let ubasis := BasisFuns uspan uu p U junk in
  let vspan := FindSpan m q vv V in
  let vbasis := BasisFuns vspan vv q V junk in
  for_up 0 p (fun uj S =>
    for_up 0 q (fun vj S =>
      S +! ubasis uj *! vbasis vj *! Pw (vspan - q + vj) (uspan - p + uj)) S) 0!.

(** The triangular scheme of corner cutting: rounds j = 1..r of
    [Rw(i) = alpha*Rw(i+1)+(1-alpha)*Rw(i)], i = 0..r-j.  igakit/igalib.f90:218-223 *)
Definition CornerCut_loops (k p r : Z) (U : Z -> N) (uu : N) (Rw : Z -> N) : Z -> N :=
  for_up 1 r (fun j Rw =>
    for_up 0 (r - j) (fun i Rw =>
      let alpha := (uu -! U (k - p + j + i)) /! (U (i + k + 1) -! U (k - p + j + i)) in
      upd Rw i (alpha *! Rw (i + 1) +! (1! -! alpha) *! Rw i)) Rw) Rw.

(** igakit/igalib.f90:179-225 (one component) *)
Definition CurvePntByCornerCut (n p : Z) (U : Z -> N) (Pw : Z -> N) (x : N) (junk : Z -> N) : N :=
  let finish k s uu :=
    let r := p - s in
    let Rw := fill 0 r (fun i => Pw (k - p + i)) junk in
    CornerCut_loops k p r U uu Rw 0 in
  if x <=! U p then
    let uu := U p in
    let s := FindMult p uu p U in
    if p <=? s then Pw 0 else finish p s uu
  else if U (n + 1) <=! x then
    let uu := U (n + 1) in
    let s := FindMult n uu p U in
    if p <=? s then Pw n else finish (n + 1) s uu
  else
    let k := FindSpan n p x U in
    let s := FindMult k x p U in
    if p <=? s then Pw (k - p) else finish k s x.

(** Inner loop of InsertKnot: one round of the triangular scheme.
    igakit/igalib.f90:250-253 *)
Definition InsertKnot_inner (k p j hi : Z) (U : Z -> N) (uu : N) (Rw : Z -> N) : Z -> N :=
  let idx := k - p + j in
  for_up 0 hi (fun i Rw =>
    let alpha := (uu -! U (idx + i)) /! (U (i + k + 1) -! U (idx + i)) in
    upd Rw i (alpha *! Rw (i + 1) +! (1! -! alpha) *! Rw i)) Rw.

(** New knot vector of InsertKnot.  igakit/igalib.f90:240-242 *)
Definition InsertKnot_V (n p : Z) (U : Z -> N) (uu : N) (k r : Z) (junk : Z -> N) : Z -> N :=
  let V := fill 0 k U junk in
  let V := fill (k + 1) (k + r) (fun _ => uu) V in
  fill (k + 1 + r) (n + p + 1 + r) (fun i => U (i - r)) V.

(** New control points of InsertKnot.  igakit/igalib.f90:244-261 (one component) *)
Definition InsertKnot_Q (n p : Z) (U : Z -> N) (Pw : Z -> N) (uu : N) (k s r : Z) (junk : Z -> N)
  : Z -> N :=
  let Qw := fill 0 (k - p) Pw junk in
  let Qw := fill (k - s + r) (n + r) (fun i => Pw (i - r)) Qw in
  let Rw := fill 0 (p - s) (fun i => Pw (k - p + i)) junk in
  let '(Qw, Rw) :=
    for_up 1 r (fun j (st : (Z -> N) * (Z -> N)) =>
      let '(Qw, Rw) := st in
      let Rw := InsertKnot_inner k p j (p - j - s) U uu Rw in
      let Qw := upd Qw (k - p + j) (Rw 0) in
      let Qw := upd Qw (k + r - j - s) (Rw (p - j - s)) in
      (Qw, Rw)) (Qw, Rw) in
  let idx := k - p + r in
  for_up (idx + 1) (k - s - 1) (fun i Qw => upd Qw i (Rw (i - idx))) Qw.

(** igakit/igalib.f90:227-262 *)
Definition InsertKnot (n p : Z) (U : Z -> N) (Pw : Z -> N) (uu : N) (k s r : Z) (junk : Z -> N)
  : (Z -> N) * (Z -> N) :=
  (InsertKnot_V n p U uu k r junk, InsertKnot_Q n p U Pw uu k s r junk).

(** Nested procedure KntIns of ClampKnot.  igakit/igalib.f90:382-408 (one component) *)
Definition KntIns (n p : Z) (U : Z -> N) (Pw : Z -> N) (uu : N) (k r : Z) (junk : Z -> N) : Z -> N :=
  let Qw := upd junk 0 (Pw (k - p)) in
  let Rw := fill 0 r (fun i => Pw (k - p + i)) junk in
  let '(Qw, Rw) :=
    for_up 1 r (fun j (st : (Z -> N) * (Z -> N)) =>
      let '(Qw, Rw) := st in
      let Rw := InsertKnot_inner k p j (r - j) U uu Rw in
      let Qw := upd Qw j (Rw 0) in
      let Qw := upd Qw (r + r - j) (Rw (r - j)) in
      (Qw, Rw)) (Qw, Rw) in
  if k =? p then fill 0 (r - 1) (fun i => Qw (r + i)) Pw
  else fill (n - r + 1) n (fun i => Qw (i - (n - r))) Pw.

(** Left half of ClampKnot.  igakit/igalib.f90:367-373 *)
Definition Clamp_left (n p : Z) (UP : (Z -> N) * (Z -> N)) (junk : Z -> N) : (Z -> N) * (Z -> N) :=
  let '(U, Pw) := UP in
  let uu := U p in
  let s := FindMult p uu p U in
  let Pw := if s <? p then KntIns n p U Pw uu p (p - s) junk else Pw in
  (fill 0 (p - 1) (fun _ => U p) U, Pw).

(** Right half of ClampKnot.  igakit/igalib.f90:374-380 *)
Definition Clamp_right (n p : Z) (UP : (Z -> N) * (Z -> N)) (junk : Z -> N) : (Z -> N) * (Z -> N) :=
  let '(U, Pw) := UP in
  let uu := U (n + 1) in
  let s := FindMult n uu p U in
  let Pw := if s <? p then KntIns n p U Pw uu (n + s) (p - s) junk else Pw in
  (fill (n + 2) (n + p + 1) (fun _ => U (n + 1)) U, Pw).

(** igakit/igalib.f90:358-380 *)
Definition ClampKnot (n p : Z) (U Pw : Z -> N) (l r : bool) (junk : Z -> N) : (Z -> N) * (Z -> N) :=
  let UP := if l then Clamp_left n p (U, Pw) junk else (U, Pw) in
  if r then Clamp_right n p UP junk else UP.

(** Left half of UnclampKnot, knots.  igakit/igalib.f90:422-424 *)
Definition Unclamp_left_U (n p C : Z) (U : Z -> N) : Z -> N :=
  for_up 0 C (fun i U => upd U (C - i) (U p -! U (n + 1) +! U (n - i))) U.
(** Left half of UnclampKnot, control points.  igakit/igalib.f90:425-430 *)
Definition Unclamp_left_P (p C : Z) (U Pw : Z -> N) : Z -> N :=
  for_up (p - C - 1) (p - 2) (fun i Pw =>
    for_down i 0 (fun j Pw =>
      let alpha := (U p -! U (p + j - i - 1)) /! (U (p + j + 1) -! U (p + j - i - 1)) in
      upd Pw j ((Pw j -! alpha *! Pw (j + 1)) /! (1! -! alpha))) Pw) Pw.
(** Right half of UnclampKnot, knots.  igakit/igalib.f90:433-436 *)
Definition Unclamp_right_U (n p C : Z) (U : Z -> N) : Z -> N :=
  let m := n + p + 1 in
  for_up 0 C (fun i U => upd U (m - C + i) (U (n + 1) -! U p +! U (p + i + 1))) U.
(** Right half of UnclampKnot, control points.  igakit/igalib.f90:437-442 *)
Definition Unclamp_right_P (n p C : Z) (U Pw : Z -> N) : Z -> N :=
  for_up (p - C - 1) (p - 2) (fun i Pw =>
    for_down i 0 (fun j Pw =>
      let alpha := (U (n + 1) -! U (n - j)) /! (U (n - j + i + 2) -! U (n - j)) in
      upd Pw (n - j) ((Pw (n - j) -! (1! -! alpha) *! Pw (n - j - 1)) /! alpha)) Pw) Pw.

(** igakit/igalib.f90:411-444 *)
Definition UnclampKnot (n p : Z) (U Pw : Z -> N) (C : Z) (l r : bool) : (Z -> N) * (Z -> N) :=
  let '(U, Pw) :=
    if l then let U := Unclamp_left_U n p C U in (U, Unclamp_left_P p C U Pw) else (U, Pw) in
  if r then let U := Unclamp_right_U n p C U in (U, Unclamp_right_P n p C U Pw) else (U, Pw).

(** Shifting loop of RefineKnotVector; state (Qw, Ubar, i, k).  igakit/igalib.f90:476-481 *)
Definition Refine_shift (p a : Z) (U Pw : Z -> N) (x : N)
    (st : (Z -> N) * (Z -> N) * Z * Z) : (Z -> N) * (Z -> N) * Z * Z :=
  let '(_, _, i0, _) := st in
  whileD (Datatypes.S (Z.to_nat (i0 - a)))
    (fun '(_, _, i, _) => (x <=! U i) && (a <? i))
    (fun '(Qw, Ubar, i, k) =>
       (upd Qw (k - p - 1) (Pw (i - p - 1)), upd Ubar k (U i), i - 1, k - 1)) st.

(** Cutting loop of RefineKnotVector.  igakit/igalib.f90:483-492 *)
Definition Refine_cut (p : Z) (U Ubar : Z -> N) (i k : Z) (x : N) (Qw : Z -> N) : Z -> N :=
  for_up 1 p (fun l Qw =>
    let idx := k - p + l in
    let alpha := Ubar (k + l) -! x in
    if nabs N alpha <! neps N then upd Qw (idx - 1) (Qw idx)
    else let alpha := alpha /! (Ubar (k + l) -! U (i - p + l)) in
         upd Qw (idx - 1) (alpha *! Qw (idx - 1) +! (1! -! alpha) *! Qw idx)) Qw.

(** One round (one inserted knot) of RefineKnotVector.  igakit/igalib.f90:475-495 *)
Definition Refine_round (p a : Z) (U Pw X : Z -> N) (j : Z)
    (st : (Z -> N) * (Z -> N) * Z * Z) : (Z -> N) * (Z -> N) * Z * Z :=
  let '(Qw, Ubar, i, k) := Refine_shift p a U Pw (X j) st in
  let Qw := upd Qw (k - p - 1) (Qw (k - p)) in
  let Qw := Refine_cut p U Ubar i k (X j) Qw in
  (Qw, upd Ubar k (X j), i, k - 1).

(** igakit/igalib.f90:446-496 (one component) *)
Definition RefineKnotVector (n p : Z) (U Pw : Z -> N) (r : Z) (X : Z -> N) (junk : Z -> N)
  : (Z -> N) * (Z -> N) :=
  if r <? 0 then (fill 0 (n + p + 1) U junk, fill 0 n Pw junk)
  else
    let m := n + p + 1 in
    let a := FindSpan n p (X 0) U in
    let b := FindSpan n p (X r) U + 1 in
    let Qw := fill 0 (a - p) Pw junk in
    let Qw := fill (b - 1 + r + 1) (n + r + 1) (fun j => Pw (j - (r + 1))) Qw in
    let Ubar := fill 0 a U junk in
    let Ubar := fill (b + p + r + 1) (m + r + 1) (fun j => U (j - (r + 1))) Ubar in
    let '(Qw, Ubar, _, _) :=
      for_down r 0 (Refine_round p a U Pw X) (Qw, Ubar, b + p - 1, b + p + r) in
    (Ubar, Qw).

(** Nested function Bin of DegreeElevate, without overflow; Fortran's integer division of
    nonnegative numbers is [Z.div].  igakit/igalib.f90:641-650 *)
Definition Bin (n k : Z) : Z :=
  for_up 0 (Z.min k (n - k) - 1) (fun i C => C * (n - i) / (i + 1)) 1.

(** Bezier elevation coefficients.  [ph/2] is Fortran's integer division of a positive number.
    igakit/igalib.f90:524-536 *)
Definition Elev_bezalfs (p t : Z) (junk2 : Z -> Z -> N) : Z -> Z -> N :=
  let ph := p + t in
  let B := upd2 junk2 0 0 1! in
  let B := upd2 B ph p 1! in
  let B := for_up 1 (ph / 2) (fun i B =>
      let den := nofZ N (Bin ph i) in
      for_up (Z.max 0 (i - t)) (Z.min p i) (fun j B =>
        upd2 B i j (nofZ N (Bin p j * Bin t (i - j)) /! den)) B) B in
  for_up (ph / 2 + 1) (ph - 1) (fun i B =>
      for_up (Z.max 0 (i - t)) (Z.min p i) (fun j B =>
        upd2 B i j (B (ph - i) (p - j))) B) B.

(** State of the main loop of DegreeElevate (igakit/igalib.f90:509-515). *)
Record ElevSt := mkElev {
  e_kind : Z; e_cind : Z; e_r : Z; e_a : Z; e_b : Z;
  e_ua : N;
  e_Uh : Z -> N; e_Qw : Z -> N;
  e_bpts : Z -> N; e_ebpts : Z -> N; e_next : Z -> N; e_alfs : Z -> N
}.

(** Inner loop advancing b over equal knots.  igakit/igalib.f90:548-551 *)
Definition Elev_adv (m : Z) (U : Z -> N) (b : Z) : Z :=
  whileD (Datatypes.S (Z.to_nat (m - b)))
    (fun b => (b <? m) && negb (neps N <! nabs N (U b -! U (b + 1))))
    (fun b => b + 1) b.

(** Insertion phase; state (bpts, nextbpts, alfs).  igakit/igalib.f90:567-579 *)
Definition Elev_insert (p mul r a : Z) (U : Z -> N) (ua ub : N)
    (s : (Z -> N) * (Z -> N) * (Z -> N)) : (Z -> N) * (Z -> N) * (Z -> N) :=
  let '(bpts, next, alfs) := s in
  if 0 <? r then
    let alfs := for_down p (mul + 1) (fun k alfs =>
        upd alfs (k - mul - 1) ((ub -! ua) /! (U (a + k) -! ua))) alfs in
    let '(bpts, next) := for_up 1 r (fun j (bn : (Z -> N) * (Z -> N)) =>
        let '(bpts, next) := bn in
        let s := mul + j in
        let bpts := for_down p s (fun k bpts =>
            upd bpts k (alfs (k - s) *! bpts k +! (1! -! alfs (k - s)) *! bpts (k - 1))) bpts in
        (bpts, upd next (r - j) (bpts p))) (bpts, next) in
    (bpts, next, alfs)
  else s.

(** Elevation phase.  igakit/igalib.f90:581-586 *)
Definition Elev_elevate (p t lbz : Z) (bezalfs : Z -> Z -> N) (bpts ebpts : Z -> N) : Z -> N :=
  let ph := p + t in
  for_up lbz ph (fun i ebpts =>
    let ebpts := upd ebpts i 0! in
    for_up (Z.max 0 (i - t)) (Z.min p i) (fun j ebpts =>
      upd ebpts i (ebpts i +! bezalfs i j *! bpts j)) ebpts) ebpts.

(** Innermost removal loop; state (Qw, ebpts, i, j, kj).  igakit/igalib.f90:597-613 *)
Definition Elev_remove_step (kind ph cind lbz oldr tr : Z) (Uh : Z -> N) (ua ub den bet : N)
    (s : (Z -> N) * (Z -> N) * Z * Z * Z) : (Z -> N) * (Z -> N) * Z * Z * Z :=
  let '(Qw, ebpts, i, j, kj) := s in
  let Qw := if i <? cind then
      let alf := (ub -! Uh i) /! (ua -! Uh i) in
      upd Qw i (alf *! Qw i +! (1! -! alf) *! Qw (i - 1))
    else Qw in
  let ebpts := if lbz <=? j then
      if j - tr <=? kind - ph + oldr then
        let gam := (ub -! Uh (j - tr)) /! den in
        upd ebpts kj (gam *! ebpts kj +! (1! -! gam) *! ebpts (kj + 1))
      else
        upd ebpts kj (bet *! ebpts kj +! (1! -! bet) *! ebpts (kj + 1))
    else ebpts in
  (Qw, ebpts, i + 1, j - 1, kj - 1).

(** Removal phase.  igakit/igalib.f90:588-617 *)
Definition Elev_remove (kind ph cind lbz oldr : Z) (Uh : Z -> N) (ua ub : N)
    (Qw ebpts : Z -> N) : (Z -> N) * (Z -> N) :=
  if 1 <? oldr then
    let den := ub -! ua in
    let bet := (ub -! Uh (kind - 1)) /! den in
    let '(Qw, ebpts, _, _) :=
      for_up 1 (oldr - 1) (fun tr (s : (Z -> N) * (Z -> N) * Z * Z) =>
        let '(Qw, ebpts, first, last) := s in
        let '(Qw, ebpts, _, _, _) :=
          whileD (Datatypes.S (Z.to_nat (last - first)))
            (fun '(_, _, i, j, _) => tr <? j - i)
            (Elev_remove_step kind ph cind lbz oldr tr Uh ua ub den bet)
            (Qw, ebpts, first, last, last - kind + 1) in
        (Qw, ebpts, first - 1, last + 1)) (Qw, ebpts, kind - 2, kind) in
    (Qw, ebpts)
  else (Qw, ebpts).

(** One round of the main loop.  [/2] is Fortran's integer division of nonnegative numbers.
    igakit/igalib.f90:546-639 *)
Definition Elev_round (n p t : Z) (U Pw : Z -> N) (bezalfs : Z -> Z -> N) (st : ElevSt) : ElevSt :=
  let m := n + p + 1 in
  let ph := p + t in
  let i := e_b st in
  let b := Elev_adv m U (e_b st) in
  let mul := b - i + 1 in
  let oldr := e_r st in
  let r := p - mul in
  let ua := e_ua st in
  let ub := U b in
  let lbz := if 0 <? oldr then (oldr + 2) / 2 else 1 in
  let rbz := if 0 <? r then ph - (r + 1) / 2 else ph in
  let '(bpts, next, alfs) := Elev_insert p mul r (e_a st) U ua ub (e_bpts st, e_next st, e_alfs st) in
  let ebpts := Elev_elevate p t lbz bezalfs bpts (e_ebpts st) in
  let '(Qw, ebpts) := Elev_remove (e_kind st) ph (e_cind st) lbz oldr (e_Uh st) ua ub (e_Qw st) ebpts in
  let '(Uh, kind) :=
    if e_a st =? p then (e_Uh st, e_kind st)
    else for_up 0 (ph - oldr - 1) (fun _ (s : (Z -> N) * Z) =>
           let '(Uh, kind) := s in (upd Uh kind ua, kind + 1)) (e_Uh st, e_kind st) in
  let '(Qw, cind) := for_up lbz rbz (fun j (s : (Z -> N) * Z) =>
      let '(Qw, cind) := s in (upd Qw cind (ebpts j), cind + 1)) (Qw, e_cind st) in
  if b <? m then
    let bpts := fill 0 (r - 1) next bpts in
    let bpts := fill r p (fun i => Pw (b - p + i)) bpts in
    mkElev kind cind r b (b + 1) ub Uh Qw bpts ebpts next alfs
  else
    mkElev kind cind r (e_a st) b ua (fill kind (kind + ph) (fun _ => ub) Uh) Qw bpts ebpts next alfs.

(** igakit/igalib.f90:498-639 (one component); [None] if the main loop did not end. *)
Definition DegreeElevate_opt (n p : Z) (U Pw : Z -> N) (t : Z) (junk : Z -> N) (junk2 : Z -> Z -> N)
  : option ((Z -> N) * (Z -> N)) :=
  if t <? 1 then Some (fill 0 (n + p + 1) U junk, fill 0 n Pw junk)
  else
    let m := n + p + 1 in
    let ph := p + t in
    let bezalfs := Elev_bezalfs p t junk2 in
    let st0 := mkElev (ph + 1) 1 (-1) p (p + 1) (U p)
                      (fill 0 ph (fun _ => U p) junk) (upd junk 0 (Pw 0))
                      (fill 0 p Pw junk) junk junk junk in
    match while (Datatypes.S (Z.to_nat (m - p))) (fun st => e_b st <? m)
                (Elev_round n p t U Pw bezalfs) st0 with
    | Some st => Some (e_Uh st, e_Qw st)
    | None => None
    end.

(** DegreeElevate with the out-of-fuel case mapped to the uninitialised output.
    igakit/igalib.f90:498-639 *)
Definition DegreeElevate (n p : Z) (U Pw : Z -> N) (t : Z) (junk : Z -> N) (junk2 : Z -> Z -> N)
  : (Z -> N) * (Z -> N) :=
  match DegreeElevate_opt n p U Pw t junk junk2 with Some r => r | None => (junk, junk) end.

(** Squared Euclidean distance of two points with components 1..d (the radicand of
    Distance).  igakit/igalib.f90:344-355 *)
Definition Distance2 (d : Z) (P1 P2 : Z -> N) : N :=
  for_up 1 d (fun i dist => dist +! (P1 i -! P2 i) *! (P1 i -! P2 i)) 0!.

(** The test [Distance(d,P1,P2) <= TOL]: sqrt x <= y iff 0 <= y and x <= y*y (x >= 0);
    written without a square root so that it can be executed on rationals.
    igakit/igalib.f90:302, 307 *)
Definition Distance_le (d : Z) (P1 P2 : Z -> N) (TOL : N) : bool :=
  (0! <=! TOL) && (Distance2 d P1 P2 <=! TOL *! TOL).

(** First while loop of one removal attempt; state (temp, i, ii, j, jj); points are
    indexed [Pw i c] (point i, component c).  igakit/igalib.f90:293-300 *)
Definition Remove_solve (p : Z) (U : Z -> N) (Pw : Z -> Z -> N) (uu : N) (t : Z)
    (s : (Z -> Z -> N) * Z * Z * Z * Z) : (Z -> Z -> N) * Z * Z * Z * Z :=
  let '(_, i0, _, j0, _) := s in
  whileD (Datatypes.S (Z.to_nat (j0 - i0)))
    (fun '(_, i, _, j, _) => t <? j - i)
    (fun '(temp, i, ii, j, jj) =>
       let ord := p + 1 in
       let alfi := (uu -! U i) /! (U (i + ord + t) -! U i) in
       let alfj := (uu -! U (j - t)) /! (U (j + ord) -! U (j - t)) in
       let temp := upd temp ii (fun c => (Pw i c -! (1! -! alfi) *! temp (ii - 1) c) /! alfi) in
       let temp := upd temp jj (fun c => (Pw j c -! alfj *! temp (jj + 1) c) /! (1! -! alfj)) in
       (temp, i + 1, ii + 1, j - 1, jj - 1)) s.

(** Second while loop of one removal attempt: copying back.  igakit/igalib.f90:314-321 *)
Definition Remove_store (t off first last : Z) (temp : Z -> Z -> N) (Pw : Z -> Z -> N) : Z -> Z -> N :=
  let '(Pw, _, _) :=
    whileD (Datatypes.S (Z.to_nat (last - first)))
      (fun '(_, i, j) => t <? j - i)
      (fun '(Pw, i, j) =>
         let Pw := upd Pw i (temp (i - off)) in
         let Pw := upd Pw j (temp (j - off)) in
         (Pw, i + 1, j - 1)) (Pw, first, last) in
  Pw.

(** One removal attempt (round t of the outer loop): [Some] new points if the knot is
    removable.  igakit/igalib.f90:287-322 *)
Definition Remove_try (d p : Z) (U : Z -> N) (Pw : Z -> Z -> N) (uu : N) (TOL : N)
    (first last t : Z) (junk2 : Z -> Z -> N) : option (Z -> Z -> N) :=
  let ord := p + 1 in
  let off := first - 1 in
  let temp := upd junk2 0 (Pw off) in
  let temp := upd temp (last + 1 - off) (Pw (last + 1)) in
  let '(temp, i, ii, j, jj) := Remove_solve p U Pw uu t (temp, first, 1, last, last - off) in
  let remflag :=
    if j - i <? t then Distance_le d (temp (ii - 1)) (temp (jj + 1)) TOL
    else
      let alfi := (uu -! U i) /! (U (i + ord + t) -! U i) in
      Distance_le d (Pw i) (fun c => alfi *! temp (ii + t + 1) c +! (1! -! alfi) *! temp (ii - 1) c) TOL in
  if remflag then Some (Remove_store t off first last temp Pw) else None.

(** Outer loop of RemoveKnot: rounds t .. num-1; returns the points and the number of
    successful removals.  The array temp is overwritten before use in every round, so its
    old contents are modelled as arbitrary.  igakit/igalib.f90:286-325 *)
Fixpoint Remove_rounds (fuel : nat) (d p : Z) (U : Z -> N) (Pw : Z -> Z -> N) (uu TOL : N)
    (first last t num : Z) (junk2 : Z -> Z -> N) : (Z -> Z -> N) * Z :=
  match fuel with
  | O => (Pw, t)
  | Datatypes.S f =>
    if t <? num then
      match Remove_try d p U Pw uu TOL first last t junk2 with
      | Some Pw' => Remove_rounds f d p U Pw' uu TOL (first - 1) (last + 1) (t + 1) num junk2
      | None => (Pw, t)
      end
    else (Pw, t)
  end.

(** Final compaction of knots.  igakit/igalib.f90:327-329 *)
Definition Remove_shiftU (m r t : Z) (U : Z -> N) : Z -> N :=
  for_up (r + 1) m (fun k U => upd U (k - t) (U k)) U.

(** Final compaction of control points.  igakit/igalib.f90:330-342 *)
Definition Remove_shiftP (n fout t : Z) (Pw : Z -> Z -> N) : Z -> Z -> N :=
  let '(i, j) := for_up 1 (t - 1) (fun k (s : Z * Z) =>
      let '(i, j) := s in if k mod 2 =? 1 then (i + 1, j) else (i, j - 1)) (fout, fout) in
  fst (for_up (i + 1) n (fun k (s : (Z -> Z -> N) * Z) =>
      let '(Pw, j) := s in (upd Pw j (Pw k), j + 1)) (Pw, j)).

(** RemoveKnot: returns (U, Pw, t).  [Z.quot] is Fortran's truncating division.
    igakit/igalib.f90:264-342 *)
Definition RemoveKnot (d n p : Z) (U : Z -> N) (Pw : Z -> Z -> N) (uu : N) (r s num : Z) (TOL : N)
    (junk2 : Z -> Z -> N) : (Z -> N) * (Z -> Z -> N) * Z :=
  let m := n + p + 1 in
  let fout := Z.quot (2 * r - s - p) 2 in
  let '(Pw, t) := Remove_rounds (Z.to_nat num) d p U Pw uu TOL (r - p) (r - s) 0 num junk2 in
  if t =? 0 then (U, Pw, t)
  else (Remove_shiftU m r t U, Remove_shiftP n fout t Pw, t).

End Model.
