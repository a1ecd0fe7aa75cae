(** Vocabulary for objects that are brought to common knots. *)
From Coq Require Import ZArith Reals List.
From Verif Require Import Num ModelNurbs Spec SpecElev BLink.
Import ListNotations.
Local Open Scope R_scope.

(** The affine map of the domain of an axis onto [lo, hi]. *)
Definition rescale (A : axis Rn) (lo hi x : R) : R := lo + (x - a_lo A) * (hi - lo) / (a_hi A - a_lo A).
(** The axes argument (None: all axes) selects the positions [L]. *)
Definition axes_are (d : nat) (axes : option (list Z)) (L : list nat) : Prop :=
  match axes with None => L = seq 0 d | Some l => Forall2 (fun ax a => py_axis (Z.of_nat d) ax = Ok a) l L end.
(** Knots repeated degree+1 times at the ends and at most degree times inside. *)
Definition open_axis (A : axis Rn) : Prop :=
  clamped (a_size A - 1) (a_deg A) (a_knots A) /\ mult_le (a_size A - 1) (a_deg A) (a_knots A).
(** The objects have [d] axes; along the axes [L] their knots are open, the largest domain is
    [lo, hi] and the largest degree [deg]; elevation keeps the geometry (SpecElev.v); the knots mapped to the
    common domain are equal or more than the tolerance apart. *)
Record joinable (nrbs : list (nurbs Rn)) (d : nat) (L : list nat) (lo hi : nat -> R) (deg : nat -> Z) : Prop := {
  jn_dim : forall nrb, In nrb nrbs -> length (n_axes nrb) = d;
  jn_axes : forall a, In a L -> (a < d)%nat;
  jn_once : NoDup L;
  jn_open : forall nrb a, In nrb nrbs -> In a L -> open_axis (get_axis nrb a);
  jn_bounds : forall nrb a, In nrb nrbs -> In a L -> let A := get_axis nrb a in
    lo a <= a_lo A /\ a_hi A <= hi a /\ (a_deg A <= deg a)%Z;
  jn_attained : forall a, In a L -> (exists nrb, In nrb nrbs /\ a_lo (get_axis nrb a) = lo a) /\
    (exists nrb, In nrb nrbs /\ a_hi (get_axis nrb a) = hi a) /\ (exists nrb, In nrb nrbs /\ a_deg (get_axis nrb a) = deg a);
  jn_guard : forall nrb a, In nrb nrbs -> In a L -> let A := get_axis nrb a in
    a_deg A = deg a \/ (a_deg A <= 9)%Z \/ elev_guard (a_size A - 1) (a_deg A) (deg a - a_deg A) (a_knots A);
  jn_apart : forall a nrb nrb' j j', In a L -> In nrb nrbs -> In nrb' nrbs -> let A := get_axis nrb a in let A' := get_axis nrb' a in
    (0 <= j < a_len A)%Z -> (0 <= j' < a_len A')%Z ->
    let x := rescale A (lo a) (hi a) (a_knots A j) in let x' := rescale A' (lo a) (hi a) (a_knots A' j') in
    x = x' \/ / 4503599627370496 < Rabs (x - x') }.
(** [us'] are the parameters [us] of [nrb] mapped to the common domains along the axes [L]. *)
Definition moved (nrb : nurbs Rn) (L : list nat) (lo hi : nat -> R) (us us' : list R) : Prop :=
  length us' = length us /\
  forall b, (b < length us)%nat -> nth b us' 0 = if in_dec Nat.eq_dec b L then rescale (get_axis nrb b) (lo b) (hi b) (nth b us 0) else nth b us 0.
(** The same for the arrays of parameters given to a call. *)
Definition moved_args (nrb : nurbs Rn) (L : list nat) (lo hi : nat -> R) (xs xs' : list (vec Rn)) : Prop :=
  let x0 := mkVec (N:=Rn) 0 (fun _ => 0) in
  length xs' = length xs /\
  forall b, (b < length xs)%nat -> v_len (nth b xs' x0) = v_len (nth b xs x0) /\
    forall i, v_get (nth b xs' x0) i = if in_dec Nat.eq_dec b L then rescale (get_axis nrb b) (lo b) (hi b) (v_get (nth b xs x0) i) else v_get (nth b xs x0) i.
(** The parameter at the fraction [s] of the domain of an axis. *)
Definition frac (A : axis Rn) (s : R) : R := a_lo A + s * (a_hi A - a_lo A).
