(** Vocabulary for single precision files: the numbers of single precision, the nearest one, and
    formats that do not keep every number. *)
From Coq Require Import ZArith Reals List Bool SpecFloat.
From Verif Require Import Num ModelNurbs ModelIo ModelFloat SpecIo SpecDouble.
Import ListNotations.
Local Open Scope R_scope.

(** 24 bits of precision, multiples of 2^-149. *)
Definition single_value (y : R) : Prop := exists m e, y = IZR m * b2 e /\ (Z.abs m < 2 ^ 24)%Z /\ (-149 <= e)%Z.
(** [y] is nearest to [x] among them. *)
Definition nearest_single (x y : R) : Prop := single_value y /\ forall z, single_value z -> Rabs (y - x) <= Rabs (z - x).
(** A finite double below 2^127, so that no single overflows. *)
Definition moderate (x : spec_float) : Prop := finite x /\ Rabs (dval x) < b2 127.

Section Spec.
Context {N : Num}.
(** What is read back for [x], and: writing that gives the same bytes. *)
Definition stored (c : codec N) (x : N) : N := c_dec c (c_enc c x).
Definition stable (c : codec N) (x : N) : Prop := length (c_enc c x) = c_width c /\ c_enc c (stored c x) = c_enc c x.
(** As [storable] of SpecIo.v for such formats: an object with its net, written with [d] coordinates. *)
Record writable (ty : types N) (nrb : nurbs N) (d : Z) (fields : bool) : Prop := mkWritable {
  wr_dim : (1 <= length (n_axes nrb) <= 3)%nat;
  wr_axis : forall A, In A (n_axes nrb) -> (2 <= a_size A)%Z /\ (1 <= a_deg A)%Z /\ fits (t_int ty) (a_len A) /\
    forall i, (0 <= i < a_len A)%Z -> stable (t_real ty) (a_knots A i);
  wr_comp : (4 <= n_comp nrb)%Z;
  wr_nsd : (Z.of_nat (length (n_axes nrb)) <= d <= 3)%Z;
  wr_size : fits (t_int ty) ((d + 1) * fold_right Z.mul 1%Z (n_shape nrb));
  wr_control : forall idx c, in_shape (n_shape nrb) idx -> (0 <= c < 4)%Z -> stable (t_scal ty) (n_arr nrb idx c);
  wr_fields : fields = true -> (4 < n_comp nrb)%Z -> fits (t_int ty) (n_comp nrb - 4) /\ fits (t_int ty) ((n_comp nrb - 4) * fold_right Z.mul 1%Z (n_shape nrb)) /\
    forall idx c, in_shape (n_shape nrb) idx -> (4 <= c < n_comp nrb)%Z -> stable (t_scal ty) (ndiv N (n_arr nrb idx c) (n_arr nrb idx 3%Z))
}.
(** Sizes kept, knots as stored. *)
Definition stored_axis (ty : types N) (A B : axis N) : Prop :=
  a_size B = a_size A /\ a_len B = a_len A /\ forall i, (0 <= i < a_len A)%Z -> a_knots B i = stored (t_real ty) (a_knots A i).
End Spec.
