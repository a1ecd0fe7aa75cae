(** Vocabulary for files: byte order, order of array entries, layout of the PetIGA and VTK files. *)
From Coq Require Import ZArith List Bool.
From Verif Require Import Num ModelNurbs ModelIo.
Import ListNotations.
Local Open Scope Z_scope.

(** Big-endian bytes of an integer, most significant first; the integers of [w] bytes. *)
Definition int_bytes (w : nat) (x : Z) : list Z := map (fun k => x / 256 ^ k mod 256) (rev (zseq w 0)).
Definition fits (w : nat) (x : Z) : Prop := - 2 ^ (8 * Z.of_nat w - 1) <= x < 2 ^ (8 * Z.of_nat w - 1).
(** The indices of an array in nested loops, the first index innermost. *)
Fixpoint grid_order (sh : list Z) : list (list Z) :=
  match sh with
  | [] => [[]]
  | s :: sh' => flat_map (fun idx => map (fun i => i :: idx) (zseq (Z.to_nat s) 0)) (grid_order sh')
  end.
Definition in_shape (sh idx : list Z) : Prop := Forall2 (fun s i => 0 <= i < s) sh idx.

Section Spec.
Context {N : Num}.
(** A number survives writing and reading. *)
Definition lossless (c : codec N) (x : N) : Prop := length (c_enc c x) = c_width c /\ c_dec c (c_enc c x) = x.
Definition types_ok (ty : types N) : Prop := (4 <= t_int ty)%nat /\ (0 < c_width (t_real ty))%nat /\ (0 < c_width (t_scal ty))%nat.

(** The file of an object: class id, flags, dimension; degree, number of knots and knots of each
    axis; number of space dimensions and, after a class id and their number, the homogeneous
    coordinates; the same for the fields. *)
Definition section (ty : types N) (id head : Z) (nrb : nurbs N) (f : list Z -> list N) : list Z :=
  let values := flat_map f (grid_order (n_shape nrb)) in
  int_bytes (t_int ty) head ++ int_bytes (t_int ty) id ++ int_bytes (t_int ty) (Z.of_nat (length values)) ++ flat_map (c_enc (t_scal ty)) values.
Definition petiga_file (ty : types N) (iga_id vec_id vec_id2 : Z) (nrb : nurbs N) (nsd : option Z) (fields : bool) : list Z :=
  let int := int_bytes (t_int ty) in
  let fields := fields && (4 <? n_comp nrb) in
  let flags := (match nsd with Some _ => 1 | None => 0 end) + (if fields then 2 else 0) in
  int iga_id ++ int flags ++ int (Z.of_nat (length (n_axes nrb))) ++
  flat_map (fun A => int (a_deg A) ++ int (a_len A) ++ flat_map (c_enc (t_real ty)) (map (a_knots A) (zseq (Z.to_nat (a_len A)) 0))) (n_axes nrb) ++
  (match nsd with
   | Some d => section ty vec_id d nrb (fun idx => map (n_arr nrb idx) (zseq (Z.to_nat d) 0 ++ [3]))
   | None => []
   end) ++
  (if fields then section ty vec_id2 (n_comp nrb - 4) nrb
      (fun idx => map (fun c => ndiv N (n_arr nrb idx c) (n_arr nrb idx 3)) (zseq (Z.to_nat (n_comp nrb - 4)) 4)) else []).

(** What is asked of the object: sizes that fit the integers of the file, at least two control points
    per axis, and numbers that can be stored. *)
Record storable (ty : types N) (nrb : nurbs N) (nsd : option Z) (fields : bool) : Prop := mkStorable {
  st_dim : (1 <= length (n_axes nrb) <= 3)%nat;
  st_axis : forall A, In A (n_axes nrb) -> 2 <= a_size A /\ 1 <= a_deg A /\ fits (t_int ty) (a_len A) /\
    forall i, 0 <= i < a_len A -> lossless (t_real ty) (a_knots A i);
  st_comp : 4 <= n_comp nrb;
  st_control : match nsd with
    | Some d => Z.of_nat (length (n_axes nrb)) <= d <= 3 /\ fits (t_int ty) ((d + 1) * fold_right Z.mul 1 (n_shape nrb)) /\
        forall idx c, in_shape (n_shape nrb) idx -> 0 <= c < 4 -> lossless (t_scal ty) (n_arr nrb idx c)
    | None => forall A, In A (n_axes nrb) -> 2 * a_deg A + 2 <= a_len A
    end;
  st_fields : fields = true -> 4 < n_comp nrb -> fits (t_int ty) (n_comp nrb - 4) /\ fits (t_int ty) ((n_comp nrb - 4) * fold_right Z.mul 1 (n_shape nrb)) /\
    forall idx c, in_shape (n_shape nrb) idx -> 4 <= c < n_comp nrb -> lossless (t_scal ty) (ndiv N (n_arr nrb idx c) (n_arr nrb idx 3))
}.
(** The same sizes and knots. *)
Definition same_axis (A B : axis N) : Prop := a_size A = a_size B /\ a_len A = a_len B /\ forall i, 0 <= i < a_len A -> a_knots A i = a_knots B i.
Definition same_axes (nrb nrb' : nurbs N) : Prop := Forall2 same_axis (n_axes nrb) (n_axes nrb').
End Spec.

(** ** Vectors and matrices *)
(** The indices of an array in nested loops, the last index innermost. *)
Fixpoint loops (sh : list Z) : list (list Z) :=
  match sh with [] => [[]] | s :: sh' => flat_map (fun i => map (cons i) (loops sh')) (zseq (Z.to_nat s) 0) end.
(** The entries of an array in that order. *)
Definition entries {N : Num} (A : nd N) : list N := map (nd_get A) (loops (nd_shape A)).
(** The [k]-th integer of a file is [x]. *)
Definition int_at (w : nat) (bs : list Z) (k : nat) (x : Z) : Prop := fits w x /\ firstn w (skipn (k * w) bs) = int_bytes w x.
Definition sum (l : list Z) : Z := fold_right Z.add 0 l.

(** Bytes of a file with integers of wi, knots of wr and coefficients of ws bytes, for an object whose
    axes have the given numbers of control points and knots. *)
Definition file_size (wi wr ws : Z) (points knots : list Z) (comp : Z) (nsd : option Z) (fields : bool) : Z :=
  let n := fold_right Z.mul 1 points in
  wi * (3 + 2 * Z.of_nat (length knots)) + wr * fold_right Z.add 0 knots +
  (match nsd with Some d => wi * 3 + ws * (n * (d + 1)) | None => 0 end) +
  (if fields && (4 <? comp) then wi * 3 + ws * (n * (comp - 4)) else 0).
