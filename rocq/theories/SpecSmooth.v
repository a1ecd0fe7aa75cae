(** Specification of smoothness, independent of the model: how often a spline can be differentiated
    across a knot, and what continuity of a computed function means. *)
From Coq Require Import ZArith Reals List Lia Lra.
From Verif Require Import Spec SpecNurbs SpecDer.
Import ListNotations.
Local Open Scope R_scope.

(** Every knot strictly inside the domain occurs at most p-m times: classically, m continuous
    derivatives. *)
Definition smooth (m : nat) (a : axR) : Prop :=
  forall v, x_U a (x_p a) < v < x_U a (x_n a + 1)%Z ->
    multiplicity (x_U a) 0 (x_n a + x_p a + 1) v = 0%Z \/
    (multiplicity (x_U a) 0 (x_n a + x_p a + 1) v + Z.of_nat m <= x_p a)%Z.
(** The same along every axis, for as many derivatives as the directions D ask for. *)
Definition smooth_for (axs : list axR) (D : list nat) : Prop :=
  forall k, (k < length axs)%nat -> smooth (count_occ Nat.eq_dec D k) (nth k axs (mkAx 0 0 (fun _ => 0))).
(** Points strictly inside the domain, knots included. *)
Definition interior (axs : list axR) (x : list R) : Prop :=
  Forall2 (fun a u => x_U a (x_p a) < u < x_U a (x_n a + 1)%Z) axs x.
(** Points closer than d in every coordinate. *)
Definition close (d : R) (x y : list R) : Prop := Forall2 (fun u v => Rabs (v - u) < d) x y.
(** v is the mixed partial derivative of f at x, f itself being differentiable (as often as D asks
    for) at all interior points of the domain where W does not vanish; x is meant to be one of them. *)
Definition der_interior (axs : list axR) (f W : list R -> R) (x : list R) (D : list nat) (v : R) : Prop :=
  exists g, partials (fun y => interior axs y /\ W y <> 0) D f g /\ v = g x.
