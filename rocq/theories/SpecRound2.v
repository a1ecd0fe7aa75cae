(** Vocabulary for the rounding errors of methods that change the net: which new knots and which weights. *)
From Coq Require Import ZArith Reals List.
From Verif Require Import Num Loop Spec ModelBspline ModelBSp ModelNurbs ModelFloat SpecNurbs SpecDouble SpecRound.
Local Open Scope R_scope.

(** A finite parameter strictly inside the domain; every knot equals it or is at least 2^-52 away. *)
Definition new_knot (A : axis Dn) (u : Dn) : Prop :=
  finite u /\ dval (a_knots A (a_deg A)) < dval u < dval (a_knots A (a_size A)) /\
  separated (fun i => dval (a_knots A i)) 0 (a_len A - 1) (dval u).
(** How often it is a knot already. *)
Definition times_in (A : axis Dn) (u : Dn) : Z := multiplicity (fun i => dval (a_knots A i)) 0 (a_len A - 1) (dval u).
(** Component c over the weight lies within M; the weights lie between w0 and w1. *)
Definition within (nrb : nurbs Dn) (c : Z) (M : R) : Prop := forall idx, in_net (map real_ax (n_axes nrb)) idx ->
  finite (n_arr nrb idx c) /\ Rabs (dval (n_arr nrb idx c)) <= M.
Definition weights_in (nrb : nurbs Dn) (w0 w1 : R) : Prop :=
  b2 (-99) <= w0 /\ w1 <= b2 99 /\ w1 <= b2 30 * w0 /\
  forall idx, in_net (map real_ax (n_axes nrb)) idx -> finite (n_arr nrb idx 3%Z) /\ w0 <= dval (n_arr nrb idx 3%Z) <= w1.
(** The homogeneous component c of the spline with these knots and this net, in real numbers. *)
Definition real_hom (nrb : nurbs Dn) (c : Z) (us : list R) : R := tsum (map real_ax (n_axes nrb)) (fun i => dval (n_arr nrb i c)) us.
