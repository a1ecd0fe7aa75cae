(** Vocabulary for values that are stored times their weight: which numbers do not run out of the exponent range. *)
From Coq Require Import ZArith Reals.
From Verif Require Import Num ModelFloat SpecDouble.
Local Open Scope R_scope.

(** Finite, and zero or between 2^-300 and 2^300 in size. *)
Definition sized (x : Dn) : Prop := finite x /\ (dval x = 0 \/ b2 (-300) <= Rabs (dval x) <= b2 300).
(** The relative error of the read value y of x is at most e. *)
Definition reads (y x : Dn) (e : R) : Prop := finite y /\ Rabs (dval y - dval x) <= e * Rabs (dval x).
(** A power of two, from 2^-300 to 2^300. *)
Definition two_power (w : Dn) : Prop := finite w /\ exists k, (-300 <= k <= 300)%Z /\ dval w = b2 k.
