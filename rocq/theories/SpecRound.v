(** Double precision objects seen as real ones, and which of them the accuracy theorems are about. *)
From Coq Require Import ZArith Reals List Bool SpecFloat.
From Verif Require Import Num ModelNurbs ModelFloat Spec SpecNurbs SpecDouble.
Import ListNotations.
Local Open Scope R_scope.

(** The real axis, and the real parameters selected by an index list of the result. *)
Definition real_ax (A : axis Dn) : axR := mkAx (a_size A - 1) (a_deg A) (fun i => dval (a_knots A i)).
Fixpoint real_params (xs : list (vec Dn)) (idx : list Z) : list R :=
  match xs, idx with
  | x :: xs', i :: idx' => dval (v_get x i) :: real_params xs' idx'
  | _, _ => []
  end.
(** Well-formed axes of degree at most 100 with finite knots not above 2^500, equal or at least 2^-500 apart. *)
Definition mild_axis (A : axis Dn) : Prop :=
  wf_ax (real_ax A) /\ (a_deg A <= 100)%Z /\
  (forall i, (0 <= i < a_len A)%Z -> finite (a_knots A i) /\ Rabs (dval (a_knots A i)) <= b2 500) /\
  forall i j, (0 <= i < a_len A)%Z -> (0 <= j < a_len A)%Z -> dval (a_knots A i) < dval (a_knots A j) ->
    b2 (-500) <= dval (a_knots A j) - dval (a_knots A i).
(** Nonempty arrays of finite parameters of the domain. *)
Definition mild_arg (A : axis Dn) (x : vec Dn) : Prop :=
  (1 <= v_len x)%Z /\ forall i, (0 <= i < v_len x)%Z ->
    finite (v_get x i) /\ in_domain (a_size A - 1) (a_deg A) (fun k => dval (a_knots A k)) (dval (v_get x i)).
(** Component c of the net is finite and not above M times the weight; the weights are moderate. *)
Definition mild_weights (nrb : nurbs Dn) : Prop := forall idx, in_net (map real_ax (n_axes nrb)) idx ->
  finite (n_arr nrb idx 3%Z) /\ b2 (-100) <= dval (n_arr nrb idx 3%Z) <= b2 100.
Definition mild_comp (nrb : nurbs Dn) (c : Z) (M : R) : Prop := forall idx, in_net (map real_ax (n_axes nrb)) idx ->
  finite (n_arr nrb idx c) /\ Rabs (dval (n_arr nrb idx c)) <= M * dval (n_arr nrb idx 3%Z).
(** The exact value: component c over the weight. *)
Definition real_pt (nrb : nurbs Dn) (c : Z) (us : list R) : R :=
  tsum (map real_ax (n_axes nrb)) (fun i => dval (n_arr nrb i c)) us / tsum (map real_ax (n_axes nrb)) (fun i => dval (n_arr nrb i 3%Z)) us.
(** The number of operations: the control points that take part, plus seven per degree and axis at most. *)
Fixpoint terms (axs : list (axis Dn)) : Z := match axs with [] => 1 | A :: l => (a_deg A + 1) * terms l end.
Fixpoint degs (axs : list (axis Dn)) : Z := match axs with [] => 0 | A :: l => 6 * a_deg A + 1 + degs l end.
Definition effort (axs : list (axis Dn)) : R := IZR (terms axs + degs axs).

(** Finite and not above 2^300. *)
Definition tame (x : Dn) : Prop := finite x /\ Rabs (dval x) <= b2 300.
(** Well-formed axes with such knots; the domain is not shorter than 2^-300. *)
Definition tame_axis (A : axis Dn) : Prop :=
  wf_ax (real_ax A) /\ (forall i, (0 <= i < a_len A)%Z -> tame (a_knots A i)) /\
  b2 (-300) <= dval (a_knots A (a_size A)) - dval (a_knots A (a_deg A)).
(** The object with other knots along axis a, everything else being the same object's. *)
Definition with_knots (nrb : nurbs Dn) (a : nat) (V : Z -> Dn) : nurbs Dn :=
  mkNurbs (N:=Dn) (lset a (mkAxis (N:=Dn) (a_size (get_axis nrb a)) (a_len (get_axis nrb a)) V) (n_axes nrb)) (n_comp nrb) (n_arr nrb).
