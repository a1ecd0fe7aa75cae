(** Model of class [NURBS] (igakit/nurbs.py) on top of the compiled kernels.

    Simplifications, common to the whole file:
    - An object is a value: list of axes (number of control points, knots) and the array of
      homogeneous control values.  Sharing of arrays between objects is modelled separately
      (ModelHeap.v).
    - Arrays are functions on indices; numpy's rollaxis / reshape((shape[0],-1)) / rollaxis back
      around a kernel call becomes: apply the one-component kernel to every line of the array
      along the axis.
    - A Python exception is a value [Raise e]; [KernelError] is the exception f2py raises when
      a check(...) of igakit/igalib.pyf fails.
    - Numbers are exact (record [Num]). *)
From Coq Require Import ZArith Bool List Lia.
From Verif Require Import Num Loop ModelBspline ModelBSp.
Import ListNotations.
Local Open Scope Z_scope.

(** Python exceptions as values: assert statements, indexing errors, numpy errors on empty or
    incompatible arrays, and failed checks of the f2py layer.
    igakit/nurbs.py:167-239, igakit/igalib.pyf:19-228.  [ProcessStop] is not an exception: it is
    the Fortran statement stop, which ends the whole process (igakit/igalib.f90:1600). *)
Inductive exn := AssertionError | IndexError | ValueError | KernelError | ProcessStop.
Inductive res (A : Type) := Ok (a : A) | Raise (e : exn).
Arguments Ok {A} a. Arguments Raise {A} e.
Definition bind {A B : Type} (a : res A) (f : A -> res B) : res B :=
  match a with Ok x => f x | Raise e => Raise e end.
Notation "'let*' x := a 'in' b" := (bind a (fun x => b)) (at level 200, x ident, a at level 100, b at level 200).
Notation "a ;;; b" := (bind a (fun _ => b)) (at level 199, right associativity).

(** Python's [assert]: igakit/nurbs.py:169, ... *)
Definition assert (b : bool) : res unit := if b then Ok tt else Raise AssertionError.
(** f2py's [check]: igakit/igalib.pyf:20, ... *)
Definition check (b : bool) : res unit := if b then Ok tt else Raise KernelError.

(** List access by position: replace, remove and insert the [a]-th entry
    (knots[axis] = V, del knots[axis]; igakit/nurbs.py:785, 1336). *)
Fixpoint lset {A : Type} (a : nat) (v : A) (l : list A) : list A :=
  match a, l with
  | _, [] => []
  | O, _ :: l' => v :: l'
  | S a', x :: l' => x :: lset a' v l'
  end.
Fixpoint lrem {A : Type} (a : nat) (l : list A) : list A :=
  match a, l with
  | _, [] => []
  | O, _ :: l' => l'
  | S a', x :: l' => x :: lrem a' l'
  end.
Fixpoint lins {A : Type} (a : nat) (v : A) (l : list A) : list A :=
  match a, l with
  | O, _ => v :: l
  | S a', [] => [v]
  | S a', x :: l' => x :: lins a' v l'
  end.

(** [range(dim)[axis]]: negative axes count from the end.  igakit/nurbs.py:690, 751, ... *)
Definition py_axis (dim ax : Z) : res nat :=
  if (- dim <=? ax) && (ax <? dim) then Ok (Z.to_nat (if ax <? 0 then ax + dim else ax))
  else Raise IndexError.

(** Integers lo, lo+1, ..., lo+c-1 (Python ranges).  igakit/nurbs.py:321, 550 *)
Fixpoint zseq (c : nat) (lo : Z) : list Z :=
  match c with O => [] | S c' => lo :: zseq c' (lo + 1) end.

Section Model.
Context {N : Num}.
Notation "x +! y" := (nadd N x y) (at level 50, left associativity).
Notation "x -! y" := (nsub N x y) (at level 50, left associativity).
Notation "x *! y" := (nmul N x y) (at level 40, left associativity).
Notation "x /! y" := (ndiv N x y) (at level 40, left associativity).
Notation "x <=! y" := (nleb N x y) (at level 70).
Notation "x <! y" := (nltb N x y) (at level 70).
Notation "'0!'" := (n0 N).
Notation "'1!'" := (n1 N).

(** A one-dimensional numpy array of doubles: length and contents.  igakit/nurbs.py:167 *)
Record vec := mkVec { v_len : Z; v_get : Z -> N }.
(** A general numpy array of doubles: shape and contents.  igakit/nurbs.py:178-183 *)
Record nd := mkNd { nd_shape : list Z; nd_get : list Z -> N }.

(** One parametric axis: number of control points, and the knots.
    igakit/nurbs.py:241-242, 252-271 *)
Record axis := mkAxis { a_size : Z; a_len : Z; a_knots : Z -> N }.
(** Degree of an axis: m-n-1 with m = len(knots)-1 and n = shape-1.  igakit/nurbs.py:259-264 *)
Definition a_deg (a : axis) : Z := (a_len a - 1) - (a_size a - 1) - 1.
(** Left and right end of the domain: U[p] and U[-p-1].  igakit/nurbs.py:754 *)
Definition a_lo (a : axis) : N := a_knots a (a_deg a).
Definition a_hi (a : axis) : N := a_knots a (a_len a - a_deg a - 1).

(** The object: axes, number of components array.shape[-1], and array.  igakit/nurbs.py:241-242 *)
Record nurbs := mkNurbs { n_axes : list axis; n_comp : Z; n_arr : list Z -> Z -> N }.
(** igakit/nurbs.py:245-249 *)
Definition n_dim (nrb : nurbs) : Z := Z.of_nat (length (n_axes nrb)).
(** igakit/nurbs.py:252-257 *)
Definition n_shape (nrb : nurbs) : list Z := map a_size (n_axes nrb).

Definition axis0 : axis := mkAxis 0 0 (fun _ => 0!).
(** The axis selected by a Python index.  igakit/nurbs.py:751-755 *)
Definition get_axis (nrb : nurbs) (a : nat) : axis := nth a (n_axes nrb) axis0.

(** Apply a one-component kernel to every line along axis [a].
    igakit/nurbs.py:763-768 (and the same lines in every method) *)
Definition along (a : nat) (K : (Z -> N) -> (Z -> N)) (f : list Z -> Z -> N) : list Z -> Z -> N :=
  fun idx c => K (fun i => f (lset a i idx) c) (nth a idx 0).

(** Uninitialised memory: contents of output and work arrays before they are written. *)
Variable junk : Z -> N.
Variable junk2 : Z -> Z -> N.
Variable junk3 : Z -> Z -> Z -> N.
Variable junkS : Z -> Z.

(** ** Construction *)

(** Shape comparison of numpy tuples.  igakit/nurbs.py:213, 224, 228 *)
Fixpoint shape_eqb (a b : list Z) : bool :=
  match a, b with
  | [], [] => true
  | x :: a', y :: b' => (x =? y) && shape_eqb a' b'
  | _, _ => false
  end.

(** The loop [p = 1; while U[p] == U[p+1]: p += 1]; indexing past the end raises IndexError.
    igakit/nurbs.py:190-192 *)
Fixpoint guess_degree (fuel : nat) (U : vec) (p : Z) : res Z :=
  match fuel with
  | O => Raise IndexError
  | S f =>
      if p + 1 <? v_len U then
        if neqb N (v_get U p) (v_get U (p + 1)) then guess_degree f U (p + 1) else Ok p
      else Raise IndexError
  end.

(** [bsp.Greville(p,U)] with the checks of igakit/igalib.pyf:75-80 *)
Definition py_Greville (p : Z) (U : vec) : res vec :=
  check (1 <=? p) ;;; check (2 * p + 1 <=? v_len U - 1) ;;;
  Ok (mkVec (v_len U - 1 - (p + 1) + 1) (bsp_Greville p (v_len U - 1) (v_get U) junk)).

(** Degrees and Greville abscissae of all knot vectors.  igakit/nurbs.py:187-196 *)
Fixpoint default_axes (knots : list vec) : res (list vec) :=
  match knots with
  | [] => Ok []
  | U :: ks =>
      let* p := guess_degree (Z.to_nat (v_len U)) U 1 in
      let* x := py_Greville p U in
      let* xs := default_axes ks in Ok (x :: xs)
  end.

(** Control net of the identity map.  igakit/nurbs.py:197-203 *)
Definition default_control (xs : list vec) : list Z -> Z -> N :=
  fun idx c =>
    if c =? 3 then 1!
    else match nth_error xs (Z.to_nat c) with
         | Some x => v_get x (nth (Z.to_nat c) idx 0)
         | None => 0!
         end.

Definition is_none {A : Type} (o : option A) : bool := match o with None => true | _ => false end.

(** The homogeneous control array [Cw]: its shape without the last entry, and contents.
    igakit/nurbs.py:185-219 *)
Definition init_control (knots : list vec) (control weights : option nd) : res (list Z * (list Z -> Z -> N)) :=
  match control with
  | None =>
      assert (is_none weights) ;;;
      let* xs := default_axes knots in
      Ok (map v_len xs, default_control xs)
  | Some c =>
      assert (2 <=? Z.of_nat (length (nd_shape c))) ;;;
      let sdim := last (nd_shape c) 0 in
      let shape := removelast (nd_shape c) in
      assert (2 <=? sdim) ;;; assert (sdim <=? 4) ;;;
      if sdim <? 4 then
        match weights with
        | Some w =>
            assert (shape_eqb (nd_shape w) shape) ;;;
            Ok (shape, fun idx k =>
                  if k <? sdim then nd_get c (idx ++ [k]) *! nd_get w idx
                  else if k =? 3 then nd_get w idx else 0!)
        | None =>
            Ok (shape, fun idx k =>
                  if k <? sdim then nd_get c (idx ++ [k]) else if k =? 3 then 1! else 0!)
        end
      else
        assert (is_none weights) ;;; Ok (shape, fun idx k => nd_get c (idx ++ [k]))
  end.

(** Appending the weighted fields.  igakit/nurbs.py:221-233 *)
Definition init_fields (Cw : list Z * (list Z -> Z -> N)) (fields : option nd) : res (list Z * Z * (list Z -> Z -> N)) :=
  let '(shape, cw) := Cw in
  match fields with
  | None => Ok (shape, 4, cw)
  | Some f =>
      if shape_eqb (nd_shape f) shape then
        Ok (shape, 5, fun idx k => if k <? 4 then cw idx k else nd_get f idx *! cw idx 3)
      else
        assert (Z.of_nat (length (nd_shape f)) - 1 =? Z.of_nat (length shape)) ;;;
        assert (shape_eqb (removelast (nd_shape f)) shape) ;;;
        Ok (shape, 4 + last (nd_shape f) 0,
            fun idx k => if k <? 4 then cw idx k else nd_get f (idx ++ [k - 4]) *! cw idx 3)
  end.

(** Pairing sizes and knots.  igakit/nurbs.py:236-242 *)
Fixpoint zip_axes (shape : list Z) (knots : list vec) : list axis :=
  match shape, knots with
  | s :: ss, k :: ks => mkAxis s (v_len k) (v_get k) :: zip_axes ss ks
  | _, _ => []
  end.

(** [NURBS(knots, control, fields, weights)]; control=(C,w) is the call with control=C, weights=w.
    igakit/nurbs.py:162-242 *)
Definition init (knots : list vec) (control fields weights : option nd) : res nurbs :=
  assert (1 <=? Z.of_nat (length knots)) ;;;
  assert (Z.of_nat (length knots) <=? 3) ;;;
  assert (forallb (fun k => 4 <=? v_len k) knots) ;;;
  let* Cw := init_control knots control weights in
  let* A := init_fields Cw fields in
  let '(shape, nc, f) := A in
  assert (Z.of_nat (length shape) =? Z.of_nat (length knots)) ;;;
  let axes := zip_axes shape knots in
  assert (forallb (fun a => 1 <=? a_deg a) axes) ;;;
  Ok (mkNurbs axes nc f).

(** ** Accessors *)
(** igakit/nurbs.py:289-291 *)
Definition n_weights (nrb : nurbs) (idx : list Z) : N := n_arr nrb idx 3.
(** igakit/nurbs.py:294-300 *)
Definition n_points (nrb : nurbs) (idx : list Z) (c : Z) : N := n_arr nrb idx c /! n_arr nrb idx 3.
(** igakit/nurbs.py:303-311 *)
Definition n_fields (nrb : nurbs) : option (list Z -> Z -> N) :=
  if n_comp nrb <=? 4 then None
  else Some (fun idx c => n_arr nrb idx (4 + c) /! n_arr nrb idx 3).

(** igakit/nurbs.py:351-363 *)
Definition greville (nrb : nurbs) (ax : Z) : res vec :=
  let* a := py_axis (n_dim nrb) ax in
  let A := get_axis nrb a in
  py_Greville (a_deg A) (mkVec (a_len A) (a_knots A)).

(** Sorted list of values, equal values kept once (numpy.unique).  igakit/nurbs.py:341 *)
Fixpoint ins_sort1 (x : N) (l : list N) : list N :=
  match l with [] => [x] | y :: l' => if x <=! y then x :: y :: l' else y :: ins_sort1 x l' end.
Definition sort (l : list N) : list N := fold_right ins_sort1 [] l.
Fixpoint dedup (l : list N) : list N :=
  match l with
  | [] => []
  | x :: l' => match l' with
               | y :: _ => if neqb N x y then dedup l' else x :: dedup l'
               | [] => [x]
               end
  end.
Definition unique (l : list N) : list N := dedup (sort l).
(** Number of entries equal to x (numpy.bincount of the inverse indices).  igakit/nurbs.py:343 *)
Definition count_eq (x : N) (l : list N) : Z := Z.of_nat (length (filter (neqb N x) l)).

(** U[p:-p].  igakit/nurbs.py:341-342 *)
Definition inner_knots (A : axis) : list N :=
  map (a_knots A) (zseq (Z.to_nat (a_len A - 2 * a_deg A)) (a_deg A)).
(** [breaks(axis)].  igakit/nurbs.py:330-341 *)
Definition breaks (nrb : nurbs) (ax : Z) : res (list N) :=
  let* a := py_axis (n_dim nrb) ax in Ok (unique (inner_knots (get_axis nrb a))).

(** ** Transformation *)
(** [transform.__call__] on one homogeneous point: numpy.dot(xyzw, M.T), entry c.
    igakit/transform.py:19-20 *)
Definition apply4 (M : Z -> Z -> N) (P : Z -> N) (c : Z) : N :=
  P 0 *! M c 0 +! P 1 *! M c 1 +! P 2 *! M c 2 +! P 3 *! M c 3.
(** igakit/nurbs.py:472-493 *)
Definition transform (nrb : nurbs) (M : Z -> Z -> N) : nurbs :=
  mkNurbs (n_axes nrb) (n_comp nrb)
    (fun idx c => if c <? 4 then apply4 M (n_arr nrb idx) c else n_arr nrb idx c).

(** ** Permuting axes *)
(** numpy's transpose: entry idx of the result is the entry of the source whose k-th axis
    position axes[k] carries idx[k].  Duplicate, out-of-range and negative axes: numpy raises
    ValueError for repeated axes, and for axes that do not fit; a negative entry of [axes] is
    taken modulo the array's own number of dimensions, dim+1, while caxes already contains
    [dim] = -1.
    igakit/nurbs.py:540-562 *)
Fixpoint index_of (x : Z) (l : list Z) : nat :=
  match l with [] => O | y :: l' => if x =? y then O else S (index_of x l') end.
Definition unpermute (axes : list Z) (idx : list Z) : list Z :=
  map (fun k => nth (index_of k axes) idx 0) (zseq (length axes) 0).
Fixpoint nodupb (l : list Z) : bool :=
  match l with [] => true | x :: l' => negb (existsb (Z.eqb x) l') && nodupb l' end.
Definition transpose (nrb : nurbs) (axes : option (list Z)) : res nurbs :=
  let d := n_dim nrb in
  let* axes := match axes with
               | None => Ok (rev (zseq (length (n_axes nrb)) 0))
               | Some l => assert (Z.of_nat (length l) =? d) ;;; Ok l
               end in
  (* array.transpose(axes + [dim]) *)
  let norm := map (fun a => if a <? 0 then a + (d + 1) else a) axes in
  if negb (forallb (fun a => (0 <=? a) && (a <=? d)) norm) then Raise ValueError
  else if negb (nodupb (norm ++ [d])) then Raise ValueError
  else
    (* knots = [self.knots[i] for i in axes]: here negative entries count modulo dim *)
    if negb (forallb (fun a => (- d <=? a) && (a <? d)) axes) then Raise IndexError
    else
      let sizes := map (fun a => a_size (nth (Z.to_nat a) (n_axes nrb) axis0)) norm in
      let knots := map (fun a => let A := nth (Z.to_nat (if a <? 0 then a + d else a)) (n_axes nrb) axis0 in
                                 mkVec (a_len A) (a_knots A)) axes in
      Ok (mkNurbs (zip_axes sizes knots) (n_comp nrb) (fun idx c => n_arr nrb (unpermute norm idx) c)).

(** igakit/nurbs.py:597-606 *)
Definition lswap {A : Type} (i j : nat) (d : A) (l : list A) : list A := lset i (nth j l d) (lset j (nth i l d) l).
Definition swap (nrb : nurbs) (ax1 ax2 : Z) : res nurbs :=
  let* i := py_axis (n_dim nrb) ax1 in
  let* j := py_axis (n_dim nrb) ax2 in
  Ok (mkNurbs (lswap i j axis0 (n_axes nrb)) (n_comp nrb) (fun idx c => n_arr nrb (lswap i j 0 idx) c)).

(** ** Reversal and reparametrisation *)
(** igakit/nurbs.py:643-645 *)
Definition KntRev (A : axis) : axis :=
  mkAxis (a_size A) (a_len A) (fun i => (a_hi A +! a_lo A) -! a_knots A (a_len A - 1 - i)).
(** One round of the loop: CntRev and KntRev; the degrees are those of the original.
    igakit/nurbs.py:638-654 *)
Definition reverse1 (nrb : nurbs) (a : nat) : nurbs :=
  let A := get_axis nrb a in
  mkNurbs (lset a (KntRev A) (n_axes nrb)) (n_comp nrb)
    (fun idx c => n_arr nrb (lset a (a_size A - 1 - nth a idx 0) idx) c).
Fixpoint reverse_axes (nrb : nurbs) (axes : list Z) : res nurbs :=
  match axes with
  | [] => Ok nrb
  | ax :: rest => let* a := py_axis (n_dim nrb) ax in reverse_axes (reverse1 nrb a) rest
  end.
(** [reverse( *axes)]; no axes means all.  igakit/nurbs.py:608-658 *)
Definition reverse (nrb : nurbs) (axes : list Z) : res nurbs :=
  reverse_axes nrb (match axes with [] => zseq (length (n_axes nrb)) 0 | _ => axes end).

(** igakit/nurbs.py:690-719.  a division by zero (a = b) is not possible for objects with a
    nonempty domain. *)
Definition remap (nrb : nurbs) (ax : Z) (start end_ : option N) : res nurbs :=
  let* a := py_axis (n_dim nrb) ax in
  let A := get_axis nrb a in
  let lo := a_lo A in let hi := a_hi A in
  let c := match start with Some c => c | None => lo end in
  let d := match end_ with Some d => d | None => hi end in
  if neqb N lo c && neqb N hi d then Ok nrb
  else
    assert (c <! d) ;;;
    Ok (mkNurbs (lset a (mkAxis (a_size A) (a_len A)
                     (fun i => (a_knots A i -! lo) *! ((d -! c) /! (hi -! lo)) +! c)) (n_axes nrb))
                (n_comp nrb) (n_arr nrb)).

(** ** Knot insertion, refinement, clamping *)
(** [bsp.FindMult(p,U,u)] through f2py.  igakit/igalib.pyf:28-35 *)
Definition py_FindMult (A : axis) (u : N) : res Z :=
  match bsp_FindMult (a_deg A) (a_len A - 1) (a_knots A) u (-1) with
  | Some m => Ok m
  | None => Raise KernelError
  end.

(** igakit/nurbs.py:721-795; checks of bsp.InsertKnot: igakit/igalib.pyf:82-95 *)
Definition insert (nrb : nurbs) (ax : Z) (value : N) (times : option Z) : res nurbs :=
  let* a := py_axis (n_dim nrb) ax in
  let A := get_axis nrb a in
  let p := a_deg A in let U := a_knots A in let n := a_size A - 1 in
  assert (a_lo A <=! value) ;;; assert (value <=! a_hi A) ;;;
  let* mult := py_FindMult A value in
  let mult := Z.min mult p in
  let times := match times with Some t => t | None => p - mult end in
  assert (times + mult <=? p) ;;;
  if times =? 0 then Ok nrb
  else
    check (1 <=? n) ;;; check (1 <=? p) ;;;
    check ((U p <=! value) && (value <=! U (n + 1))) ;;;
    check ((0 <=? times) && (times <=? p)) ;;;
    Ok (mkNurbs (lset a (mkAxis (a_size A + times) (a_len A + times)
                           (fst (bsp_InsertKnot n p U (fun _ => 0!) value times junk))) (n_axes nrb))
                (n_comp nrb)
                (along a (fun P => snd (bsp_InsertKnot n p U P value times junk)) (n_arr nrb))).

(** The argument check of refine: sorting, range and multiplicity.  The caller's array is
    sorted in place (see ModelHeap.v).  igakit/nurbs.py:1052-1060 *)
Definition refine_arg (A : axis) (u : list N) : res (list N) :=
  let u := sort u in
  assert (a_lo A <=! hd 0! u) ;;;
  assert (last u 0! <=! a_hi A) ;;;
  let tmp := u ++ map (a_knots A) (zseq (Z.to_nat (a_len A - 2)) 1) in
  assert (forallb (fun x => count_eq x tmp <=? a_deg A) tmp) ;;;
  Ok u.

(** igakit/nurbs.py:1013-1087; igakit/igalib.pyf:145-157.  [values] as a flat list;
    None and the empty list return the object unchanged. *)
Definition refine (nrb : nurbs) (ax : Z) (values : list N) : res nurbs :=
  match values with
  | [] => Ok nrb
  | _ =>
      let* a := py_axis (n_dim nrb) ax in
      let A := get_axis nrb a in
      let p := a_deg A in let U := a_knots A in let n := a_size A - 1 in
      let* u := refine_arg A values in
      check (1 <=? n) ;;; check (1 <=? p) ;;;
      let r := Z.of_nat (length u) - 1 in
      let X := fun i => nth (Z.to_nat i) u 0! in
      Ok (mkNurbs (lset a (mkAxis (a_size A + (r + 1)) (a_len A + (r + 1))
                             (fst (bsp_Refine n p U (fun _ => 0!) r X junk))) (n_axes nrb))
                  (n_comp nrb)
                  (along a (fun P => snd (bsp_Refine n p U P r X junk)) (n_arr nrb)))
  end.

(** The [side] argument of clamp and unclamp.  igakit/nurbs.py:913-917, 977-981 *)
Definition side_lr (side : option Z) : res (bool * bool) :=
  match side with
  | None => Ok (true, true)
  | Some s => if s =? 0 then Ok (true, false) else if s =? 1 then Ok (false, true) else Raise AssertionError
  end.

(** igakit/nurbs.py:887-940; igakit/igalib.pyf:115-126 *)
Definition clamp (nrb : nurbs) (ax : Z) (side : option Z) : res nurbs :=
  let* a := py_axis (n_dim nrb) ax in
  let A := get_axis nrb a in
  let p := a_deg A in let U := a_knots A in let n := a_size A - 1 in
  let* lr := side_lr side in
  let '(l, r) := lr in
  check (1 <=? n) ;;; check (1 <=? p) ;;;
  Ok (mkNurbs (lset a (mkAxis (a_size A) (a_len A) (fst (bsp_Clamp n p U (fun _ => 0!) l r junk))) (n_axes nrb))
              (n_comp nrb) (along a (fun P => snd (bsp_Clamp n p U P l r junk)) (n_arr nrb))).

(** igakit/nurbs.py:942-1011; igakit/igalib.pyf:128-143 *)
Definition unclamp (nrb : nurbs) (ax : Z) (side continuity : option Z) : res nurbs :=
  let* a := py_axis (n_dim nrb) ax in
  let A := get_axis nrb a in
  let p := a_deg A in let U := a_knots A in let n := a_size A - 1 in
  let* lr := side_lr side in
  let '(l, r) := lr in
  let* C := match continuity with
            | None => Ok (p - 1)
            | Some c => assert ((0 <=? c) && (c <=? p - 1)) ;;; Ok c
            end in
  check (1 <=? n) ;;; check (1 <=? p) ;;;
  Ok (mkNurbs (lset a (mkAxis (a_size A) (a_len A) (fst (bsp_Unclamp n p U (fun _ => 0!) C l r junk))) (n_axes nrb))
              (n_comp nrb) (along a (fun P => snd (bsp_Unclamp n p U P C l r junk)) (n_arr nrb))).

(** igakit/nurbs.py:1089-1164; igakit/igalib.pyf:159-171.  o = n + t*CountSpans(n,p,U). *)
Definition elevate (nrb : nurbs) (ax : Z) (times : Z) : res nurbs :=
  assert (0 <=? times) ;;;
  if times =? 0 then Ok nrb
  else
    let* a := py_axis (n_dim nrb) ax in
    let A := get_axis nrb a in
    let p := a_deg A in let U := a_knots A in let n := a_size A - 1 in
    check (1 <=? n) ;;; check (1 <=? p) ;;;
    match CountSpans n p U with
    | None => Raise KernelError
    | Some spans =>
        let o := n + times * spans in
        Ok (mkNurbs (lset a (mkAxis (o + 1) (o + p + times + 2)
                               (fst (bsp_Elevate n p U (fun _ => 0!) times junk junk2))) (n_axes nrb))
                    (n_comp nrb)
                    (along a (fun P => snd (bsp_Elevate n p U P times junk junk2)) (n_arr nrb)))
    end.

(** ** Slicing and extraction *)
(** searchsorted on a sorted array: number of entries <= u ('r'), < u ('l').
    igakit/nurbs.py:1250-1251 *)
Definition count_le (U : Z -> N) (len : Z) (u : N) : Z :=
  for_up 0 (len - 1) (fun i c => if U i <=! u then c + 1 else c) 0.
Definition count_lt (U : Z -> N) (len : Z) (u : N) : Z :=
  for_up 0 (len - 1) (fun i c => if U i <! u then c + 1 else c) 0.

(** [bsp.FindSpanMult] through f2py.  igakit/igalib.pyf:37-44 *)
Definition py_FindSpanMult (A : axis) (u : N) : res (Z * Z) :=
  check ((1 <=? a_deg A) && (2 * a_deg A + 1 <=? a_len A - 1)) ;;;
  Ok (FindSpanMult (a_len A - 1 - (a_deg A + 1)) (a_deg A) u (a_knots A)).

(** igakit/nurbs.py:1168-1266 *)
Definition slice (nrb : nurbs) (ax : Z) (start end_ : option N) : res nurbs :=
  let* a := py_axis (n_dim nrb) ax in
  let A := get_axis nrb a in
  let p := a_deg A in
  let u0 := match start with Some x => x | None => a_lo A end in
  let u1 := match end_ with Some x => x | None => a_hi A end in
  assert (a_lo A <=! u0) ;;; assert (u1 <=! a_hi A) ;;; assert (u0 <! u1) ;;;
  let* ks0 := py_FindSpanMult A u0 in
  let t0 := Z.max 0 (p - snd ks0) in
  let* ks1 := py_FindSpanMult A u1 in
  let t1 := Z.max 0 (p - snd ks1) in
  let u := repeat u0 (Z.to_nat t0) ++ repeat u1 (Z.to_nat t1) in
  let* nrb' := refine nrb (Z.of_nat a) u in
  let B := get_axis nrb' a in
  let U := a_knots B in
  let i0 := count_le U (a_len B) u0 - 1 in
  let i1 := count_lt U (a_len B) u1 in
  let V := fun x => if x <? p then U i0 else if x <=? p + (i1 - i0) then U (i0 + (x - p)) else U i1 in
  Ok (mkNurbs (lset a (mkAxis (i1 - (i0 - p)) (2 * p + (i1 - i0 + 1)) V) (n_axes nrb')) (n_comp nrb')
        (fun idx c => n_arr nrb' (lset a (i0 - p + nth a idx 0) idx) c)).

(** igakit/nurbs.py:1268-1341; igakit/igalib.pyf:173-182 *)
Definition extract (nrb : nurbs) (ax : Z) (value : N) : res nurbs :=
  let* a := py_axis (n_dim nrb) ax in
  let A := get_axis nrb a in
  let p := a_deg A in let U := a_knots A in let n := a_size A - 1 in
  assert (a_lo A <=! value) ;;; assert (value <=! a_hi A) ;;;
  check (1 <=? n) ;;; check (1 <=? p) ;;;
  Ok (mkNurbs (lrem a (n_axes nrb)) (n_comp nrb)
        (fun idx c => bsp_Extract n p U (fun i => n_arr nrb (lins a i idx) c) value junk)).

(** igakit/nurbs.py:1343-1364 *)
Definition boundary (nrb : nurbs) (ax side : Z) : res nurbs :=
  assert ((side =? 0) || (side =? 1)) ;;;
  let* a := py_axis (n_dim nrb) ax in
  let A := get_axis nrb a in
  extract nrb (Z.of_nat a) (if side =? 0 then a_lo A else a_hi A).

(** ** Evaluation *)
(** All entries of an array satisfy a test (u.min() >= lo etc.); an empty array makes numpy's
    min raise ValueError.  igakit/nurbs.py:1393-1397 *)
Definition vall (f : N -> bool) (u : vec) : bool := forallb (fun i => f (v_get u i)) (zseq (Z.to_nat (v_len u)) 0).
Definition eval_arg (A : axis) (u : vec) : res vec :=
  if v_len u <=? 0 then Raise ValueError
  else
    assert (vall (fun x => a_lo A <=! x) u) ;;;
    assert (vall (fun x => x <=! a_hi A) u) ;;;
    Ok u.
(** igakit/nurbs.py:1399-1408.  A scalar parameter is an array of length one (the matching
    axis of the result is dropped at lines 1435-1438). *)
Fixpoint eval_args (axs : list axis) (args : list (option vec)) : res (list vec) :=
  match axs with
  | [] => Ok []
  | A :: axs' =>
      let* x := match hd None args with
                | None => py_Greville (a_deg A) (mkVec (a_len A) (a_knots A))
                | Some u => eval_arg A u
                end in
      let* xs := eval_args axs' (tl args) in
      Ok (x :: xs)
  end.

(** Evaluate0..3 on one component, with the checks of igakit/igalib.pyf:184-241.
    igakit/nurbs.py:1426-1432; igakit/igalib.f90:1226-1358 *)
Definition py_Evaluate (axs : list axis) (xs : list vec) (f : list Z -> N) : res (list Z -> N) :=
  check (forallb (fun A => (2 <=? a_size A) && (1 <=? a_deg A)) axs) ;;;
  check (forallb (fun x => 1 <=? v_len x) xs) ;;;
  match axs, xs with
  | [], _ => Ok (fun _ => f [])
  | [A], [x] =>
      Ok (fun idx => Evaluate1 (a_size A - 1) (a_deg A) (a_knots A) (fun i => f [i])
                       (v_len x - 1) (v_get x) junk junk (nth 0 idx 0))
  | [A; B], [x; y] =>
      Ok (fun idx => Evaluate2 (a_size A - 1) (a_deg A) (a_knots A) (a_size B - 1) (a_deg B) (a_knots B)
                       (fun j i => f [i; j]) (v_len x - 1) (v_get x) (v_len y - 1) (v_get y)
                       junk junkS junk2 junk2 (nth 1 idx 0) (nth 0 idx 0))
  | [A; B; C], [x; y; z] =>
      Ok (fun idx => Evaluate3 (a_size A - 1) (a_deg A) (a_knots A) (a_size B - 1) (a_deg B) (a_knots B)
                       (a_size C - 1) (a_deg C) (a_knots C) (fun k j i => f [i; j; k])
                       (v_len x - 1) (v_get x) (v_len y - 1) (v_get y) (v_len z - 1) (v_get z)
                       junk junkS junk2 junk3 (nth 2 idx 0) (nth 1 idx 0) (nth 0 idx 0))
  | _, _ => Raise KernelError
  end.

(** All components.  The kernel evaluates component by component.
    igakit/nurbs.py:1432-1433; igakit/igalib.f90:1232-1358 *)
Definition py_EvaluateAll (axs : list axis) (xs : list vec) (f : list Z -> Z -> N) : res (list Z -> Z -> N) :=
  py_Evaluate axs xs (fun idx => f idx 0) ;;;
  Ok (fun idx c => match py_Evaluate axs xs (fun idx => f idx c) with Ok g => g idx | Raise _ => 0! end).

(** The [fields] argument of __call__: False, True, or an array.  igakit/nurbs.py:1410-1424 *)
Inductive farg := FNo | FYes | FArr (F : nd).
Definition call_array (nrb : nurbs) (fields : farg) : res (Z * (list Z -> Z -> N)) :=
  match fields with
  | FYes => Ok (n_comp nrb, n_arr nrb)
  | FNo => Ok (4, n_arr nrb)
  | FArr F =>
      let shape := n_shape nrb in
      if shape_eqb (nd_shape F) shape then
        Ok (5, fun idx k => if k <? 4 then n_arr nrb idx k else nd_get F idx *! n_arr nrb idx 3)
      else
        assert (Z.of_nat (length (nd_shape F)) - 1 =? Z.of_nat (length shape)) ;;;
        assert (shape_eqb (removelast (nd_shape F)) shape) ;;;
        Ok (4 + last (nd_shape F) 0,
            fun idx k => if k <? 4 then n_arr nrb idx k else nd_get F (idx ++ [k - 4]) *! n_arr nrb idx 3)
  end.

(** [nrb(u,v,w,fields)]: points (component 0..2) and, unless fields=False, field values.
    igakit/nurbs.py:1368-1451 *)
Definition call (nrb : nurbs) (args : list (option vec)) (fields : farg)
  : res ((list Z -> Z -> N) * option (list Z -> Z -> N)) :=
  let* xs := eval_args (n_axes nrb) args in
  let* A := call_array nrb fields in
  let* CwF := py_EvaluateAll (n_axes nrb) xs (snd A) in
  let C := fun idx c => CwF idx c /! CwF idx 3 in
  match fields with
  | FNo => Ok (C, None)
  | _ => Ok (C, Some (fun idx c => CwF idx (4 + c) /! CwF idx 3))
  end.

(** The array evaluated by [evaluate]: the weight followed by the weighted fields.
    igakit/nurbs.py:1479-1494 *)
Definition evaluate_array (nrb : nurbs) (fields : option nd) : res (Z * (list Z -> Z -> N)) :=
  match fields with
  | None => Ok (n_comp nrb - 3, fun idx k => n_arr nrb idx (3 + k))
  | Some F =>
      let shape := n_shape nrb in
      if shape_eqb (nd_shape F) shape then
        Ok (2, fun idx k => if k =? 0 then n_arr nrb idx 3 else nd_get F idx *! n_arr nrb idx 3)
      else
        assert (Z.of_nat (length (nd_shape F)) - 1 =? Z.of_nat (length shape)) ;;;
        assert (shape_eqb (removelast (nd_shape F)) shape) ;;;
        Ok (1 + last (nd_shape F) 0,
            fun idx k => if k =? 0 then n_arr nrb idx 3 else nd_get F (idx ++ [k - 1]) *! n_arr nrb idx 3)
  end.

(** [nrb.evaluate(fields,u,v,w)].  igakit/nurbs.py:1453-1510 *)
Definition evaluate (nrb : nurbs) (fields : option nd) (args : list (option vec)) : res (list Z -> Z -> N) :=
  let* xs := eval_args (n_axes nrb) args in
  let* A := evaluate_array nrb fields in
  let* wF := py_EvaluateAll (n_axes nrb) xs (snd A) in
  Ok (fun idx c => wF idx (1 + c) /! wF idx 0).

End Model.
Arguments vec N : clear implicits.
Arguments nd N : clear implicits.
Arguments axis N : clear implicits.
Arguments nurbs N : clear implicits.
Arguments farg N : clear implicits.
