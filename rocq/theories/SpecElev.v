(** Vocabulary for degree elevation, in terms of the knots only. *)
From Coq Require Import ZArith Reals.
Local Open Scope R_scope.

(** k is the last index of a knot of the domain that begins a nonempty span. *)
Definition sp (n p : Z) (U : Z -> R) (k : Z) : Prop := (p <= k <= n)%Z /\ U k < U (k + 1)%Z.
(** k' is the last index of the next distinct knot: the multiplicity of that knot is k' - k. *)
Definition nx (n p : Z) (U : Z -> R) (k k' : Z) : Prop :=
  sp n p U k /\ sp n p U k' /\ (k < k')%Z /\ (forall j, (k < j <= k')%Z -> U j = U k').
(** The algorithm mishandles a break followed by one of much larger multiplicity when the degree is
    at least 10; this condition says when its shortcut is harmless: the multiplicity grows by at most
    one from the break U k' to the break U k'', or the degree is small. *)
Definition elev_guard (n p t : Z) (U : Z -> R) : Prop :=
  forall k k' k'', nx n p U k k' -> nx n p U k' k'' ->
    (k'' - k' <= k' - k + 1 \/ (p - (k'' - k') + 1) / 2 - 2 < k' - k + t)%Z.
(** Both end knots repeated degree+1 times. *)
Definition clamped (n p : Z) (U : Z -> R) : Prop :=
  (forall j, (0 <= j <= p)%Z -> U j = U p) /\ (forall j, (n + 1 <= j <= n + p + 1)%Z -> U j = U (n + 1)%Z).
(** Number of nonempty spans U i < U (i+1) among the indices lo..hi. *)
Fixpoint spansN (c : nat) (i : Z) (U : Z -> R) : Z :=
  match c with
  | O => 0%Z
  | S c' => ((if Rlt_dec (U i) (U (i + 1)%Z) then 1 else 0) + spansN c' (i + 1) U)%Z
  end.
Definition nonempty_spans (U : Z -> R) (lo hi : Z) : Z := spansN (Z.to_nat (hi + 1 - lo)) lo U.
