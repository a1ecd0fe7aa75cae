(** The single precision formats of PetIGA files.  Arrays in memory are doubles (igakit/nurbs.py:167,
    174, 205): writing rounds each number to the nearest single (np.asarray(array, dtype),
    igakit/io.py:36), reading turns singles into doubles.  Not modelled: the control net made up of
    Greville abscissae when a file has none, which igakit/io.py:173-181 stores in an array of singles
    first ([petiga_read] is used with a control net only, where that array is not made). *)
From Coq Require Import ZArith Bool List SpecFloat.
From Verif Require Import Num ModelIo ModelFloat.
Import ListNotations.
Local Open Scope Z_scope.

(** The single nearest to a double (the even one of two), and a single as a double.  igakit/io.py:36, 43 *)
Definition to_single (x : spec_float) : spec_float :=
  match x with S754_finite s m e => binary_round 24 128 s m e | _ => x end.
Definition of_single (x : spec_float) : spec_float :=
  match x with S754_finite s m e => binary_round 53 1024 s m e | _ => x end.
(** The 32 bits of a single as an unsigned number, and back.  dtype '>f4', igakit/io.py:19 *)
Definition sgl_sign (s : bool) : Z := if s then 2 ^ 31 else 0.
Definition sgl_bits (x : spec_float) : Z :=
  match x with
  | S754_zero s => sgl_sign s
  | S754_infinity s => sgl_sign s + 255 * 2 ^ 23
  | S754_nan => 255 * 2 ^ 23 + 2 ^ 22
  | S754_finite s m e => sgl_sign s + if Zpos m <? 2 ^ 23 then Zpos m else (e + 150) * 2 ^ 23 + (Zpos m - 2 ^ 23)
  end.
Definition bits_sgl (b : Z) : spec_float :=
  let s := 2 ^ 31 <=? b in
  let ex := b / 2 ^ 23 mod 256 in
  let fr := b mod 2 ^ 23 in
  if ex =? 0 then if fr =? 0 then S754_zero s else S754_finite s (Z.to_pos fr) (-149)
  else if ex =? 255 then if fr =? 0 then S754_infinity s else S754_nan
  else S754_finite s (Z.to_pos (fr + 2 ^ 23)) (ex - 150).
(** dtype '>f4' and, as complex numbers with imaginary part 0, '>c8'.  igakit/io.py:18-21 *)
Definition f4 : codec Dn := mkCodec (N:=Dn) 4 (fun x => be 4 (sgl_bits (to_single x))) (fun bs => of_single (bits_sgl (unbe bs))).
Definition c8 : codec Dn := mkCodec (N:=Dn) 8 (fun x => be 4 (sgl_bits (to_single x)) ++ be 4 0) (fun bs => of_single (bits_sgl (unbe (firstn 4 bs)))).
(** PetIGA(precision='single') and its variants.  igakit/io.py:27-33 *)
Definition single_types (complex long : bool) : types Dn := mkTypes (N:=Dn) (if long then 8 else 4)%nat f4 (if complex then c8 else f4).
