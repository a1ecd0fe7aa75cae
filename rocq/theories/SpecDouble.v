(** The real number a double stands for, and double precision objects seen as real ones.  Nothing here
    refers to the arithmetic of doubles. *)
From Coq Require Import ZArith Reals List Bool SpecFloat.
Local Open Scope R_scope.

(** 2^e *)
Definition b2 (e : Z) : R := powerRZ 2 e.
(** The value of a double; infinities and NaN have none (0 is a placeholder, see [finite]). *)
Definition dval (x : spec_float) : R :=
  match x with
  | S754_finite s m e => (if s then -1 else 1) * IZR (Zpos m) * b2 e
  | _ => 0
  end.
(** A finite double: 53 bits of precision, exponents up to 1024. *)
Definition finite (x : spec_float) : Prop :=
  valid_binary 53 1024 x = true /\ match x with S754_zero _ | S754_finite _ _ _ => True | _ => False end.
