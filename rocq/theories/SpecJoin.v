(** Vocabulary for joining two objects along an axis. *)
From Coq Require Import ZArith Reals List.
From Verif Require Import Num ModelNurbs Spec SpecElev SpecNurbs SpecCompat BLink ProofCall.
Import ListNotations.
Local Open Scope R_scope.

(** Knots of an axis are equal or more than machine epsilon apart. *)
Definition knots_apart (A : axis Rn) : Prop :=
  forall j j', (0 <= j < a_len A)%Z -> (0 <= j' < a_len A)%Z ->
    a_knots A j = a_knots A j' \/ / 4503599627370496 < Rabs (a_knots A j - a_knots A j').
(** The degree of the axis is [p], or it can be raised to [p] (SpecElev.v). *)
Definition raisable (A : axis Rn) (p : Z) : Prop :=
  a_deg A = p \/ open_axis A /\ (a_deg A < p)%Z /\ ((a_deg A <= 9)%Z \/ elev_guard (a_size A - 1) (a_deg A) (p - a_deg A) (a_knots A)).
(** The second object continues the first along the axis [a]: the other axes [L] can be brought to
    common knots on [lo, hi] with degrees [deg]; along [a] the second domain starts at 0 and the larger
    degree is [p]; the end of the first and the start of the second agree in homogeneous coordinates
    at corresponding parameters of the other axes. *)
Record continues (nrb1 nrb2 : nurbs Rn) (d a : nat) (L : list nat) (lo hi : nat -> R) (deg : nat -> Z) (p : Z) : Prop := {
  ct_axis : (a < d)%nat;
  ct_other : L = lrem a (seq 0 d);
  ct_comp : n_comp nrb1 = n_comp nrb2;
  ct_join : joinable [nrb1; nrb2] d L lo hi deg;
  ct_apart1 : knots_apart (get_axis nrb1 a);
  ct_apart2 : knots_apart (get_axis nrb2 a);
  ct_deg : p = Z.max (a_deg (get_axis nrb1 a)) (a_deg (get_axis nrb2 a));
  ct_raise1 : raisable (get_axis nrb1 a) p;
  ct_raise2 : raisable (get_axis nrb2 a) p;
  ct_start : a_lo (get_axis nrb2 a) = 0;
  ct_meet : forall us1 us2 v1 v2 c, in_box (spec_axes nrb1) us1 -> in_box (spec_axes nrb2) us2 ->
    moved nrb1 L lo hi us1 v1 -> moved nrb2 L lo hi us2 v2 -> lrem a v1 = lrem a v2 ->
    nth a us1 0 = a_hi (get_axis nrb1 a) -> nth a us2 0 = a_lo (get_axis nrb2 a) -> (0 <= c < n_comp nrb1)%Z ->
    hom nrb1 c us1 = hom nrb2 c us2 }.
(** The last component (the weight, or the last field) at the upper ends of all domains. *)
Definition top_weight (nrb : nurbs Rn) : R := hom nrb (n_comp nrb - 1) (map a_hi (n_axes nrb)).
(** Component [c] of [out] at [us] is within [tol] of that of [nrb] at [us1]; for the quotients by the
    weight the bound is relative to the size of the value and the weight. *)
Definition near (out nrb : nurbs Rn) (c : Z) (us us1 : list R) (tol : R) : Prop :=
  Rabs (hom out c us - hom nrb c us1) <= tol /\
  (hom nrb 3 us1 <> 0 -> hom out 3 us <> 0 -> Rabs (pt out c us - pt nrb c us1) * Rabs (hom out 3 us) <= tol * (1 + Rabs (pt nrb c us1))).

(** The object can be cut along the axis [a] at [u]: the other axes are open, the knots of each axis are equal or
    more than machine epsilon apart, inner knots of the axis [a] occur at most degree times;
    [u] is inside and equal to the knots of its axis or that far from them. *)
Record cuttable (nrb : nurbs Rn) (a : nat) (u : R) : Prop := {
  cb_axis : (a < length (n_axes nrb))%nat;
  cb_other : forall b, (b < length (n_axes nrb))%nat -> b <> a -> open_axis (get_axis nrb b);
  cb_apart : forall b, (b < length (n_axes nrb))%nat -> knots_apart (get_axis nrb b);
  cb_along : mult_le (a_size (get_axis nrb a) - 1) (a_deg (get_axis nrb a)) (a_knots (get_axis nrb a));
  cb_inside : a_lo (get_axis nrb a) < u < a_hi (get_axis nrb a);
  cb_near : forall j, (0 <= j < a_len (get_axis nrb a))%Z -> a_knots (get_axis nrb a) j = u \/ / 4503599627370496 < Rabs (a_knots (get_axis nrb a) j - u) }.
