(** Independent specification of B-splines over the real numbers.

    Nothing in this file refers to the model of the code.  It contains the textbook
    definitions: finite sums, the Cox-de Boor recursion with the convention 0/0 = 0,
    spline curves, surfaces and volumes as full sums over the control net.
    It specifies what igakit/igalib.f90 (BasisFuns 54-73, CurvePoint 137-153,
    Evaluate1..3 1226-1358) is meant to compute. *)
From Coq Require Import ZArith Reals Lia Lra.
Local Open Scope Z_scope.
Local Open Scope R_scope.

(** Sum of [f i] for [lo <= i <= hi]. *)
Fixpoint sumN (n : nat) (i : Z) (f : Z -> R) : R :=
  match n with O => 0 | S n' => f i + sumN n' (i + 1) f end.
Definition sumZ (lo hi : Z) (f : Z -> R) : R := sumN (Z.to_nat (hi + 1 - lo)) lo f.

(** Knots are nondecreasing on the index range [lo..hi]. *)
Definition nondecreasing (U : Z -> R) (lo hi : Z) : Prop :=
  forall i j : Z, (lo <= i)%Z -> (i <= j)%Z -> (j <= hi)%Z -> U i <= U j.

(** A well-formed knot vector for [n+1] control points of degree [p]: indices
    [0..n+p+1], nondecreasing, at least [p+1] control points, and nonempty first and
    last knot spans of the domain. *)
Record wf_knots (n p : Z) (U : Z -> R) : Prop := {
  wf_p : (0 <= p)%Z;
  wf_n : (p <= n)%Z;
  wf_mono : nondecreasing U 0 (n + p + 1);
  wf_first : U p < U (p + 1)%Z;
  wf_last : U n < U (n + 1)%Z
}.

(** The parameter domain. *)
Definition in_domain (n p : Z) (U : Z -> R) (u : R) : Prop := U p <= u <= U (n + 1)%Z.

(** Division with the convention x/0 = 0. *)
Definition ratio (a b : R) : R := if Req_EM_T b 0 then 0 else a / b.

(** Indicator of the half-open knot span [i]; by the usual convention the last span of the
    domain, [n], is closed on the right (and then it is the only active one there). *)
Definition indicator (n : Z) (U : Z -> R) (i : Z) (u : R) : R :=
  if Req_EM_T u (U (n + 1)%Z) then (if Z.eq_dec i n then 1 else 0)
  else if Rle_dec (U i) u then (if Rlt_dec u (U (i + 1)%Z) then 1 else 0) else 0.

(** Cox-de Boor recursion: value at [u] of the [i]-th B-spline of degree [q]. *)
Fixpoint Nbasis (n : Z) (U : Z -> R) (q : nat) (i : Z) (u : R) : R :=
  match q with
  | O => indicator n U i u
  | S q' =>
      ratio (u - U i) (U (i + Z.of_nat q)%Z - U i) * Nbasis n U q' i u
      + ratio (U (i + Z.of_nat q + 1)%Z - u) (U (i + Z.of_nat q + 1)%Z - U (i + 1)%Z)
        * Nbasis n U q' (i + 1) u
  end.

(** Degree as an integer. *)
Definition Nb (n p : Z) (U : Z -> R) (i : Z) (u : R) : R := Nbasis n U (Z.to_nat p) i u.

(** Spline curve, surface and volume (one component) as full tensor-product sums. *)
Definition curve (n p : Z) (U : Z -> R) (P : Z -> R) (u : R) : R :=
  sumZ 0 n (fun i => Nb n p U i u * P i).
Definition surface (n p : Z) (U : Z -> R) (m q : Z) (V : Z -> R) (P : Z -> Z -> R) (u v : R) : R :=
  sumZ 0 n (fun i => sumZ 0 m (fun j => Nb n p U i u * Nb m q V j v * P i j)).
Definition volume (n p : Z) (U : Z -> R) (m q : Z) (V : Z -> R) (l r : Z) (W : Z -> R)
    (P : Z -> Z -> Z -> R) (u v w : R) : R :=
  sumZ 0 n (fun i => sumZ 0 m (fun j => sumZ 0 l (fun k =>
    Nb n p U i u * Nb m q V j v * Nb l r W k w * P i j k))).

(** Number of indices i in lo..hi with U i = u. *)
Fixpoint countN (c : nat) (i : Z) (U : Z -> R) (u : R) : Z :=
  match c with
  | O => 0%Z
  | S c' => ((if Req_EM_T (U i) u then 1 else 0) + countN c' (i + 1) U u)%Z
  end.
Definition multiplicity (U : Z -> R) (lo hi : Z) (u : R) : Z :=
  countN (Z.to_nat (hi + 1 - lo)) lo U u.

(** Knots different from u are at least machine epsilon away from it. *)
Definition separated (U : Z -> R) (lo hi : Z) (u : R) : Prop :=
  forall j, (lo <= j <= hi)%Z -> U j = u \/ / 4503599627370496 <= Rabs (U j - u).
