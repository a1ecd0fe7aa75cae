(** Specification of tensor-product objects of any dimension, independent of the model of the
    class: an axis is (number of control points - 1, degree, knots), and the value of a net of
    control values is the full sum over all indices.  What igakit/nurbs.py:1368-1451 is meant
    to compute. *)
From Coq Require Import ZArith Reals List Lia Lra.
From Verif Require Import Spec.
Import ListNotations.
Local Open Scope R_scope.

Record axR := mkAx { x_n : Z; x_p : Z; x_U : Z -> R }.

(** Sum over the whole net of products of Cox-de Boor basis functions and control values. *)
Fixpoint tsum (axs : list axR) (P : list Z -> R) (us : list R) : R :=
  match axs, us with
  | a :: axs', u :: us' =>
      sumZ 0 (x_n a) (fun i => Nb (x_n a) (x_p a) (x_U a) i u * tsum axs' (fun idx => P (i :: idx)) us')
  | _, _ => P []
  end.

(** Index lists inside the net. *)
Definition in_net (axs : list axR) (idx : list Z) : Prop := Forall2 (fun a i => (0 <= i <= x_n a)%Z) axs idx.
(** Parameters inside the domain. *)
Definition in_box (axs : list axR) (us : list R) : Prop :=
  Forall2 (fun a u => in_domain (x_n a) (x_p a) (x_U a) u) axs us.
Definition wf_ax (a : axR) : Prop := (1 <= x_p a)%Z /\ wf_knots (x_n a) (x_p a) (x_U a).
