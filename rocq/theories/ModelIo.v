(** Model of igakit/io.py: the PetIGA reader and writer and the VTK writer.

    Simplifications, common to the whole file:
    - A file is the list of its bytes (integers 0..255); the operating system, file names and
      flushing are not modelled.
    - How a number is stored is a parameter ([codec]): width in bytes, encoding, decoding.  Real and
      complex scalars are both covered: the decoding of a complex number is its real part, which is
      all the reader keeps (np.real, and the cast to doubles in NURBS.__init__).
    - numpy integers read from a file wrap around at their width. *)
From Coq Require Import String Ascii DecimalString ZArith Bool List Lia.
From Verif Require Import Num Loop ModelBspline ModelBSp ModelNurbs ModelCad.
Import ListNotations.
Local Open Scope Z_scope.

(** ** Order of array entries *)
(** Position of an entry in Fortran order (first index fastest), and back: ravel('f') and
    reshape(order='f').  igakit/io.py:96, 101, 160, 182, 203, 230, 298-300 *)
Fixpoint ravel (sh idx : list Z) : Z :=
  match sh, idx with s :: sh', i :: idx' => i + s * ravel sh' idx' | _, _ => 0 end.
Fixpoint unravel (sh : list Z) (k : Z) : list Z :=
  match sh with [] => [] | s :: sh' => k mod s :: unravel sh' (k / s) end.
Definition prod (sh : list Z) : Z := fold_right Z.mul 1 sh.
(** The entries of an array in Fortran order.  igakit/io.py:96, 101, 203, 298-300 *)
Definition flatten {A : Type} (sh : list Z) (f : list Z -> A) : list A :=
  map (fun k => f (unravel sh k)) (zseq (Z.to_nat (prod sh)) 0).
(** Position in C order (last index fastest), and back: numpy's default reshape.
    igakit/io.py:201 *)
Definition ravel_c (sh idx : list Z) : Z := ravel (rev sh) (rev idx).
Definition unravel_c (sh : list Z) (k : Z) : list Z := rev (unravel (rev sh) k).

(** ** Integers *)
(** Big-endian two's complement of [w] bytes (dtypes '>i4' and '>i8'); values that do not fit are
    reduced modulo 2^(8w).  igakit/io.py:22-25, 36 *)
Fixpoint be (w : nat) (x : Z) : list Z :=
  match w with O => [] | S w' => be w' (x / 256) ++ [x mod 256] end.
Definition unbe (bs : list Z) : Z := fold_left (fun a b => a * 256 + b) bs 0.
(** Two's complement value of an unsigned number.  igakit/io.py:43 *)
Definition sgn (w : nat) (x : Z) : Z := let m := 2 ^ (8 * Z.of_nat w) in if x <? m / 2 then x else x - m.
(** numpy integer arithmetic of that width.  igakit/io.py:131 *)
Definition wrap (w : nat) (x : Z) : Z := sgn w (x mod 2 ^ (8 * Z.of_nat w)).

(** ** Reading *)
(** A reader takes the bytes that are left and returns a value and the bytes left after it.
    igakit/io.py:38-43 *)
Definition rd (A : Type) := list Z -> res (A * list Z).
Definition rret {A : Type} (a : A) : rd A := fun bs => Ok (a, bs).
Definition rbind {A B : Type} (r : rd A) (f : A -> rd B) : rd B :=
  fun bs => match r bs with Ok (a, bs') => f a bs' | Raise e => Raise e end.
Definition rlift {A : Type} (r : res A) : rd A := fun bs => let* a := r in Ok (a, bs).
Notation "'get*' x := a 'in' b" := (rbind a (fun x => b)) (at level 200, x ident, a at level 100, b at level 200).
Notation "'must*' a 'in' b" := (rbind (rlift a) (fun _ => b)) (at level 200, a at level 100, b at level 200).
(** [np.fromfile(fid, dtype, count)]: the complete items among the bytes left, at most count, all of
    them if count is negative.  igakit/io.py:40, 42 *)
Fixpoint items {A : Type} (w : nat) (dec : list Z -> A) (n : nat) (bs : list Z) : list A :=
  match n with O => [] | S n' => dec (firstn w bs) :: items w dec n' (skipn w bs) end.
Definition fromfile {A : Type} (w : nat) (dec : list Z -> A) (count : Z) : rd (list A) := fun bs =>
  let have := Nat.div (length bs) w in
  let n := if count <? 0 then have else Nat.min (Z.to_nat count) have in
  Ok (items w dec n bs, skipn (n * w) bs).
(** [_read(fid, dtype)]: fromfile(...,1)[0] raises IndexError on an empty array.  igakit/io.py:38-43 *)
Definition first {A : Type} (l : list A) : res A := match l with x :: _ => Ok x | [] => Raise IndexError end.

(** File identifiers.  igakit/io.py:15-17 *)
Definition VEC_ID := 1211214.
Definition MAT_ID := 1211216.
Definition IGA_ID := 1211299.

(** Python's bool and '&' on the two flags.  igakit/io.py:121-122 *)
Definition bit (k x : Z) : bool := negb (Z.land x k =? 0).

Section Io.
Context {N : Num}.
Notation "'0!'" := (n0 N).
Notation "'1!'" := (n1 N).
Variable junk : Z -> N.

(** How numbers are stored: the dtypes R and S.  igakit/io.py:18-21, 29-33 *)
Record codec := mkCodec { c_width : nat; c_enc : N -> list Z; c_dec : list Z -> N }.
(** Width of the integers, and the dtypes of reals and scalars.  igakit/io.py:27-33 *)
Record types := mkTypes { t_int : nat; t_real : codec; t_scal : codec }.
Variable ty : types.

(** [_write(fid, I, x)] and [_write(fid, R or S, array)].  igakit/io.py:35-36 *)
Definition put_int (x : Z) : list Z := be (t_int ty) x.
Definition put (c : codec) (l : list N) : list Z := flat_map (c_enc c) l.
(** [_read(fid, I)] and [_read(fid, I, n)].  igakit/io.py:38-43 *)
Definition dec_int (bs : list Z) : Z := sgn (t_int ty) (unbe bs).
Definition get_ints (n : Z) : rd (list Z) := fromfile (t_int ty) dec_int n.
Definition get_int : rd Z := get* l := get_ints 1 in rlift (first l).
(** [_read(fid, R, n); assert len(...) == n] and the same for S.  igakit/io.py:133-134, 144-145, 157-158, 224-225 *)
Definition get (c : codec) (n : Z) : rd (list N) :=
  get* l := fromfile (c_width c) (c_dec c) n in
  must* assert (Z.of_nat (length l) =? n) in rret l.

(** ** PetIGA objects *)
(** Knots of one axis in the file.  igakit/io.py:88-91 *)
Definition put_axis (A : axis N) : list Z :=
  put_int (a_deg A) ++ put_int (a_len A) ++ put (t_real ty) (map (a_knots A) (zseq (Z.to_nat (a_len A)) 0)).
(** An array with [k] components, the components varying fastest, with its size.
    igakit/io.py:93-96, 98-101 *)
Definition put_array (k : Z) (sh : list Z) (f : list Z -> Z -> N) : list Z :=
  put_int VEC_ID ++ put_int (prod (k :: sh)) ++ put (t_scal ty) (flatten (k :: sh) (fun j => f (tl j) (hd 0 j))).
(** [PetIGA.write(filename, nurbs, control, fields, nsd)].  igakit/io.py:45-104 *)
Definition petiga_write (nrb : nurbs N) (control fields : bool) (nsd : option Z) : res (list Z) :=
  let dim := n_dim nrb in
  let nsd := match nsd with None => dim | Some d => d end in
  (if control then assert (dim <=? nsd) ;;; assert (nsd <=? 3) else Ok tt) ;;;
  let F := if fields then n_fields nrb else None in
  let info := (if control then 1 else 0) + match F with Some _ => 2 | None => 0 end in
  Ok (put_int IGA_ID ++ put_int info ++ put_int dim ++ flat_map put_axis (n_axes nrb) ++
      (if control then put_int nsd ++ put_array (nsd + 1) (n_shape nrb) (fun idx c => n_arr nrb idx (if c =? nsd then 3 else c)) else []) ++
      match F with Some f => put_int (n_comp nrb - 4) ++ put_array (n_comp nrb - 4) (n_shape nrb) f | None => [] end).

(** A list as an array.  igakit/io.py:42 *)
Definition vec_of (l : list N) : vec N := mkVec (Z.of_nat (length l)) (fun i => nth (Z.to_nat i) l 0!).
(** One axis: number of control points, degree and knots.  igakit/io.py:127-137 *)
Definition get_axis1 : rd (Z * (Z * vec N)) :=
  get* p := get_int in
  must* assert (1 <=? p) in
  get* m := get_int in
  let n := wrap (t_int ty) (wrap (t_int ty) (m - p) - 1) in
  must* assert (2 <=? n) in
  get* U := get (t_real ty) m in
  rret (n, (p, vec_of U)).
Fixpoint get_axes (dim : nat) : rd (list (Z * (Z * vec N))) :=
  match dim with
  | O => rret []
  | S d => get* a := get_axis1 in get* l := get_axes d in rret (a :: l)
  end.
(** The control section and the fields section.  igakit/io.py:138-160 *)
Definition get_array : rd (list N) :=
  get* vec_id := get_int in
  must* assert (vec_id =? VEC_ID) in
  get* n := get_int in
  get (t_scal ty) n.
Definition get_control (dim : Z) : rd (Z * list N) :=
  get* nsd := get_int in
  must* assert ((dim <=? nsd) && (nsd <=? 3)) in
  get* Cw := get_array in rret (nsd, Cw).
Definition get_fields : rd (Z * list N) :=
  get* npd := get_int in
  must* assert (1 <=? npd) in
  get* D := get_array in rret (npd, D).
(** The whole file.  igakit/io.py:117-162 *)
Definition get_file : rd (list (Z * (Z * vec N)) * (option (Z * list N) * option (Z * list N))) :=
  get* iga_id := get_int in
  must* assert (iga_id =? IGA_ID) in
  get* info := get_int in
  get* dim := get_int in
  must* assert ((1 <=? dim) && (dim <=? 3)) in
  get* axes := get_axes (Z.to_nat dim) in
  get* control := (if bit 1 info then get* c := get_control dim in rret (Some c) else rret None) in
  get* fields := (if bit 2 info then get* f := get_fields in rret (Some f) else rret None) in
  rret (axes, (control, fields)).
(** [l.reshape([k]+sizes, order='f')] followed by rollaxis of the first axis to the end: entry
    (idx, c).  igakit/io.py:166-167, 187-188 *)
Definition reshape_f (k : Z) (sizes : list Z) (l : list N) : res (list Z -> Z -> N) :=
  if Z.of_nat (length l) =? prod (k :: sizes) then Ok (fun idx c => nth (Z.to_nat (ravel (k :: sizes) (c :: idx))) l 0!)
  else Raise ValueError.
(** An array of shape sizes+[k] from its entries.  igakit/io.py:167, 188, 233 *)
Definition nd_of (sizes : list Z) (k : Z) (f : list Z -> Z -> N) : nd N := mkNd (sizes ++ [k]) (fun idx => f (removelast idx) (last idx 0)).
(** [PetIGA.read(filename)].  igakit/io.py:106-193 *)
Definition petiga_read (bs : list Z) : res (nurbs N) :=
  let* r := get_file bs in
  let '((axes, (control, fields)), _) := r in
  let sizes := map fst axes in
  let knots := map (fun a => snd (snd a)) axes in
  let* C := match control with
            | Some (nsd, l) =>
                let* Cw := reshape_f (nsd + 1) sizes l in
                Ok (fun idx c => if c <? nsd then Cw idx c else if c =? 3 then Cw idx nsd else 0!)
            | None =>
                let* xs := mapM (fun a => py_Greville junk (fst (snd a)) (snd (snd a))) axes in
                Ok (default_control xs)
            end in
  let* D := match fields with
            | Some (npd, l) => let* f := reshape_f npd sizes l in Ok (Some (nd_of sizes npd f))
            | None => Ok None
            end in
  init junk knots (Some (nd_of sizes 4 C)) D None.

(** ** PetIGA vectors and matrices *)
(** [array.reshape(shape+(-1,))]: the size of the last axis.  igakit/io.py:200-201 *)
Definition last_size (total : Z) (sh : list Z) : res Z :=
  if (0 <? prod sh) && (total mod prod sh =? 0) then Ok (total / prod sh) else Raise ValueError.
(** [write_vec(filename, array, nurbs)]; the shape of nurbs, if given.  igakit/io.py:195-213 *)
Definition write_vec (A : nd N) (shape : option (list Z)) : res (list Z) :=
  let total := prod (nd_shape A) in
  let* l := match shape with
            | None => Ok (map (fun k => nd_get A (unravel_c (nd_shape A) k)) (zseq (Z.to_nat total) 0))
            | Some sh =>
                let* k := last_size total sh in
                let B := fun idx => nd_get A (unravel_c (nd_shape A) (ravel_c (sh ++ [k]) idx)) in
                Ok (flatten (k :: sh) (fun j => B (tl j ++ [hd 0 j])))
            end in
  Ok (put_int VEC_ID ++ put_int total ++ put (t_scal ty) l).
(** numpy's squeeze: axes of length 1 are dropped; the entry at an index of the result.
    igakit/io.py:232 *)
Definition squeezed (sh : list Z) : list Z := filter (fun s => negb (s =? 1)) sh.
Fixpoint unsqueeze (sh idx : list Z) : list Z :=
  match sh with
  | [] => []
  | s :: sh' => if s =? 1 then 0 :: unsqueeze sh' idx else hd 0 idx :: unsqueeze sh' (tl idx)
  end.
(** [read_vec(filename, nurbs)].  igakit/io.py:215-236 *)
Definition read_vec (bs : list Z) (shape : option (list Z)) : res (nd N) :=
  let* r := (get* clsid := get_int in
             must* assert (clsid =? VEC_ID) in
             get* n := get_int in get (t_scal ty) n) bs in
  let l := fst r in
  match shape with
  | None => Ok (mkNd [Z.of_nat (length l)] (fun idx => nth (Z.to_nat (hd 0 idx)) l 0!))
  | Some sh =>
      let* k := last_size (Z.of_nat (length l)) sh in
      let* f := reshape_f k sh l in
      let A := nd_of sh k f in
      Ok (mkNd (squeezed (nd_shape A)) (fun idx => nd_get A (unsqueeze (nd_shape A) idx)))
  end.

(** Running sums in integers of the file's width.  igakit/io.py:248-251 *)
Fixpoint cumsum (a : Z) (l : list Z) : list Z :=
  match l with [] => [] | x :: l' => let b := wrap (t_int ty) (a + x) in b :: cumsum b l' end.
(** The sparse matrix returned: ((M, N), (AI, AJ, AV)).  igakit/io.py:259 *)
Record csr := mkCsr { m_rows : Z; m_cols : Z; m_ai : list Z; m_aj : list Z; m_av : list N }.
(** [read_mat(filename)].  Unpacking a short list raises ValueError, as do np.empty of a negative
    size and an out array of the wrong length.  igakit/io.py:238-259 *)
Definition read_mat (bs : list Z) : res csr :=
  let* r := (get* clsid := get_int in
             must* assert (clsid =? MAT_ID) in
             get* h := get_ints 3 in
             match h with
             | [M; NN; nz] =>
                 let len := wrap (t_int ty) (M + 1) in
                 must* if len <? 0 then Raise ValueError else if len =? 0 then Raise IndexError else Ok tt in
                 get* rownz := get_ints M in
                 must* if Z.of_nat (length rownz) =? M then Ok tt else Raise ValueError in
                 let AI := 0 :: cumsum 0 rownz in
                 must* assert (last AI 0 =? nz) in
                 get* AJ := get_ints nz in
                 must* assert (Z.of_nat (length AJ) =? nz) in
                 get* AV := get (t_scal ty) nz in
                 rret (mkCsr M NN AI AJ AV)
             | _ => rlift (Raise ValueError)
             end) bs in
  Ok (fst r).

(** ** VTK *)
(** ASCII text.  igakit/io.py:329-330 *)
Definition text (s : string) : list Z := map (fun c => Z.of_N (N_of_ascii c)) (list_ascii_of_string s).
Definition num (x : Z) : string := NilZero.string_of_int (Z.to_int x).
Definition eol : string := String (ascii_of_nat 10) EmptyString.
(** attr_name: the name, or the default, with blanks replaced.  igakit/io.py:379-380, 394-395 *)
Fixpoint no_blanks (s : string) : string :=
  match s with EmptyString => EmptyString | String c s' => String (if Ascii.eqb c " " then "_"%char else c) (no_blanks s') end.
Definition attr_name (name dflt : string) (i : Z) : string :=
  no_blanks (if String.eqb name "" then dflt ++ num i else name)%string.
(** Numbered entries of a list (enumerate).  igakit/io.py:315, 325, 378, 391 *)
Definition enum {A : Type} (l : list A) : list (Z * A) := combine (zseq (length l) 0) l.
Variable junk2 : Z -> Z -> N.
Variable junk3 : Z -> Z -> Z -> N.
Variable junkS : Z -> Z.
(** [VTK.write(filename, nurbs, control, fields, scalars, vectors, sampler)].  A dictionary of scalars
    or vectors is given as the list of its entries in sorted order.  The codec is that of '>d'.
    igakit/io.py:276-401 *)
Definition vtk_write (cd : codec) (title : string) (nrb : nurbs N) (control : bool) (fields : option (nd N))
    (scalars : list (string * Z)) (vectors : list (string * list Z)) (sampler : list N -> list N) : res (list Z) :=
  let dim := length (n_axes nrb) in
  let* brk := mapM (breaks nrb) (zseq dim 0) in
  let uvw := map sampler brk in
  let flag := match scalars, vectors with [], [] => false | _, _ => true end in
  let fields := if flag then match fields with None => FYes | Some F => FArr F end else FNo in
  let* A := call_array nrb fields in
  let* out := call junk junk2 junk3 junkS nrb (map (fun l => Some (vec_of l)) uvw) fields in
  let lens := map (fun l => Z.of_nat (length l)) uvw in
  let dims := lens ++ repeat 1 (3 - dim) in
  let points := flatten (3 :: lens) (fun j => fst out (tl j) (hd 0 j)) in
  let npts := prod lens in
  let nf := match snd out with Some _ => fst A - 4 | None => 0 end in
  let F := match snd out with Some F => F | None => fun _ _ => 0! end in
  let row := fun k => unravel lens k in
  let column := fun index => let* a := py_axis nf index in Ok (fun k => F (row k) (Z.of_nat a)) in
  let* scal := mapM (fun s => let* col := column (snd s) in Ok (fst s, map col (zseq (Z.to_nat npts) 0))) scalars in
  let* vect := mapM (fun v => let* cols := mapM column (snd v) in
                  if Nat.leb (length cols) 3 then
                    Ok (fst v, flat_map (fun k => map (fun col => col k) cols ++ repeat 0! (3 - length cols)) (zseq (Z.to_nat npts) 0))
                  else Raise ValueError) vectors in
  let nl := text eol in
  let d := fun i => num (nth i dims 0) in
  let dimensions := text ("DIMENSIONS " ++ d 0%nat ++ " " ++ d 1%nat ++ " " ++ d 2%nat) ++ nl in
  Ok (text "# vtk DataFile Version 2.0" ++ nl ++ text (String.substring 0 255 title) ++ nl ++ text "BINARY" ++ nl ++
      (if control then
         text "DATASET STRUCTURED_GRID" ++ nl ++ dimensions ++ text ("POINTS " ++ num npts ++ " double") ++ nl ++
         put cd points ++ nl
       else
         text "DATASET RECTILINEAR_GRID" ++ nl ++ dimensions ++
         flat_map (fun Xl => text (fst Xl ++ "_COORDINATES " ++ num (Z.of_nat (length (snd Xl))) ++ " double") ++ nl ++ put cd (snd Xl) ++ nl)
           (combine ["X"; "Y"; "Z"]%string (uvw ++ repeat [0!] (3 - dim)))) ++
      (if flag then
         text ("POINT_DATA " ++ num npts) ++ nl ++
         flat_map (fun t => text ("SCALARS " ++ attr_name (fst (snd t)) "scalars" (fst t) ++ " double") ++ nl ++
                            text "LOOKUP_TABLE default" ++ nl ++ put cd (snd (snd t)) ++ nl) (enum scal) ++
         flat_map (fun t => text ("VECTORS " ++ attr_name (fst (snd t)) "vectors" (fst t) ++ " double") ++ nl ++
                            put cd (snd (snd t)) ++ nl) (enum vect)
       else [])).
End Io.
Arguments codec N : clear implicits.
Arguments types N : clear implicits.
