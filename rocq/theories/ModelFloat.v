(** IEEE doubles: the arithmetic of the source (real(kind=8), igakit/igalib.f90; dtype 'd',
    igakit/nurbs.py:167) as an instance of [Num], and how they are stored in files.
    The operations are those of the standard library's specification of IEEE 754 (SpecFloat). *)
From Coq Require Import ZArith Bool List SpecFloat.
From Verif Require Import Num ModelIo.
Import ListNotations.
Local Open Scope Z_scope.

(** Rounding of an integer to a double, and the instance.  NaN payloads are not modelled.
    real(kind=8), igakit/igalib.f90:9; dtype d, igakit/nurbs.py:167 *)
Definition dbl_of_Z (x : Z) : spec_float := binary_normalize 53 1024 x 0 false.
Definition Dn : Num :=
  mkNum spec_float (S754_zero false) (dbl_of_Z 1) (SFadd 53 1024) (SFsub 53 1024) (SFmul 53 1024) (SFdiv 53 1024)
    SFleb SFltb SFeqb (SFldexp 53 1024 (dbl_of_Z 1) (-52)) dbl_of_Z.

(** The 64 bits of a double as an unsigned number, and back.  dtype '>f8', igakit/io.py:20 *)
Definition sign_bit (s : bool) : Z := if s then 2 ^ 63 else 0.
Definition dbl_bits (x : spec_float) : Z :=
  match x with
  | S754_zero s => sign_bit s
  | S754_infinity s => sign_bit s + 2047 * 2 ^ 52
  | S754_nan => 2047 * 2 ^ 52 + 2 ^ 51
  | S754_finite s m e => sign_bit s + if Zpos m <? 2 ^ 52 then Zpos m else (e + 1075) * 2 ^ 52 + (Zpos m - 2 ^ 52)
  end.
Definition bits_dbl (b : Z) : spec_float :=
  let s := 2 ^ 63 <=? b in
  let ex := b / 2 ^ 52 mod 2048 in
  let fr := b mod 2 ^ 52 in
  if ex =? 0 then if fr =? 0 then S754_zero s else S754_finite s (Z.to_pos fr) (-1074)
  else if ex =? 2047 then if fr =? 0 then S754_infinity s else S754_nan
  else S754_finite s (Z.to_pos (fr + 2 ^ 52)) (ex - 1075).
(** dtype '>f8' and, as complex numbers with imaginary part 0, '>c16'.  igakit/io.py:18-21 *)
Definition f8 : codec Dn := mkCodec (N:=Dn) 8 (fun x => be 8 (dbl_bits x)) (fun bs => bits_dbl (unbe bs)).
Definition c16 : codec Dn := mkCodec (N:=Dn) 16 (fun x => be 8 (dbl_bits x) ++ be 8 0) (fun bs => bits_dbl (unbe (firstn 8 bs))).
(** PetIGA() and the other double precision variants.  igakit/io.py:27-33 *)
Definition petiga_types (complex long : bool) : types Dn := mkTypes (N:=Dn) (if long then 8 else 4)%nat f8 (if complex then c16 else f8).
