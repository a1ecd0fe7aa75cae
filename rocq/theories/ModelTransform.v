(** [igakit/transform.py]: affine maps as 4x4 matrices.  A transform object is its matrix; the
    sharing of arrays between objects is modelled at the end.  Functions of the mathematical
    library are parameters of the section. *)
From Coq Require Import ZArith List Bool.
From Verif Require Import Num Loop ModelNurbs.
Import ListNotations.
Local Open Scope Z_scope.

Section Model.
Context {N : Num}.
Notation "x +! y" := (nadd N x y) (at level 50, left associativity).
Notation "x -! y" := (nsub N x y) (at level 50, left associativity).
Notation "x *! y" := (nmul N x y) (at level 40, left associativity).
Notation "x /! y" := (ndiv N x y) (at level 40, left associativity).
Notation "x <! y" := (nltb N x y) (at level 70).
Notation "'0!'" := (n0 N).
Notation "'1!'" := (n1 N).

(** numpy.sin, numpy.cos and the square root of numpy.linalg.norm.  igakit/transform.py:97-98, 104 *)
Variable nsin ncos nsqrt : N -> N.

(** A matrix: entries by row and column.  igakit/transform.py:9-15 *)
Definition mat := Z -> Z -> N.
(** [np.identity(4)], [np.identity(3)].  igakit/transform.py:9, 67, 86, 99 *)
Definition ident : mat := fun i j => if i =? j then 1! else 0!.
(** [np.dot(A, B)] of 4x4 matrices.  igakit/transform.py:52 *)
Definition dot44 (A B : mat) : mat := fun i j => A i 0 *! B 0 j +! A i 1 *! B 1 j +! A i 2 *! B 2 j +! A i 3 *! B 3 j.
(** A 3x3 matrix as a 4x4 one.  igakit/transform.py:46-48 *)
Definition embed33 (M : mat) : mat := fun i j => if (i <? 3) && (j <? 3) then M i j else if (i =? 3) && (j =? 3) then 1! else 0!.

(** The argument of compose: a transform, or an array with its shape.  igakit/transform.py:40-51 *)
Inductive marg := MTrans (M : mat) | MArr (r c : Z) (M : mat).
(** igakit/transform.py:40-53 *)
Definition compose (self : mat) (m : marg) : res mat :=
  match m with
  | MTrans M => Ok (dot44 M self)
  | MArr r c M =>
      if (r =? 3) && (c =? 3) then Ok (dot44 (embed33 M) self)
      else assert ((r =? 4) && (c =? 4)) ;;; Ok (dot44 M self)
  end.

(** [transform(matrix)].  igakit/transform.py:7-15 *)
Definition new_transform (m : option marg) : res mat :=
  match m with
  | None => Ok ident
  | Some (MTrans M) => Ok M
  | Some (MArr r c M) => assert ((r =? 4) && (c =? 4)) ;;; Ok M
  end.

(** A scalar or a one-dimensional array (assert ndim in (0,1)); arrays of more dimensions raise
    AssertionError.  igakit/transform.py:56-57, 75-76, 95-96 *)
Inductive sarg := Scal (x : N) | Vect (v : vec N).

(** [t[axis] = displ] for an array of three entries: negative positions count from the end; an
    array of one entry may be assigned, longer ones raise.  igakit/transform.py:64-66, 83-85 *)
Definition assign3 (t : Z -> N) (ax : Z) (d : sarg) : res (Z -> N) :=
  if negb ((- 3 <=? ax) && (ax <? 3)) then Raise IndexError
  else
    let k := if ax <? 0 then ax + 3 else ax in
    match d with
    | Scal x => Ok (upd t k x)
    | Vect v => if v_len v =? 1 then Ok (upd t k (v_get v 0)) else Raise ValueError
    end.

(** igakit/transform.py:55-70.  [axis] is an integer or None. *)
Definition translate (self : mat) (displ : sarg) (axis : option Z) : res mat :=
  let* t := match displ, axis with
            | Vect v, None => assert (v_len v <=? 3) ;;; Ok v
            | Scal x, None => Ok (mkVec (N:=N) 3 (upd (fun _ => 0!) 0 x))
            | d, Some ax => let* t := assign3 (fun _ => 0!) ax d in Ok (mkVec (N:=N) 3 t)
            end in
  compose self (MArr 4 4 (fun i j => if (j =? 3) && (i <? v_len t) then v_get t i else ident i j)).

(** igakit/transform.py:74-90 *)
Definition scale (self : mat) (scl : sarg) (axis : option Z) : res mat :=
  let* s := match scl, axis with
            | Vect v, None => assert (v_len v <=? 3) ;;; Ok v
            | Scal x, None => Ok (mkVec (N:=N) 3 (fun _ => x))
            | d, Some ax => let* s := assign3 (fun _ => 1!) ax d in Ok (mkVec (N:=N) 3 s)
            end in
  compose self (MArr 3 3 (fun i j => if (i =? j) && (i <? v_len s) then v_get s i else ident i j)).

(** The axis argument of rotate: an integer or an array.  igakit/transform.py:95, 100, 117 *)
Inductive axarg := AxNum (k : Z) | AxVec (v : vec N).

(** The matrix for a unit vector u: entries 0,4,8 of R.flat are cos, entries 1,2,5 and 3,6,7 are
    sin times u_upper and u_lower; then the outer product is added.  igakit/transform.py:107-115 *)
Definition rot_vec (sin_a cos_a : N) (u : Z -> N) : mat := fun i j =>
  (if i =? j then cos_a
   else let k := 3 * i + j in
        sin_a *! (if k =? 1 then 0! -! u 2 else if k =? 2 then u 1 else if k =? 5 then 0! -! u 0
                  else if k =? 3 then u 2 else if k =? 6 then 0! -! u 1 else u 0))
  +! (1! -! cos_a) *! (u i *! u j).
(** Rotation about a coordinate axis.  igakit/transform.py:117-126 *)
Definition rot_num (sin_a cos_a : N) (k : Z) : mat := fun i j =>
  if k =? 0 then
    (if (i =? 1) && (j =? 1) then cos_a else if (i =? 1) && (j =? 2) then 0! -! sin_a
     else if (i =? 2) && (j =? 1) then sin_a else if (i =? 2) && (j =? 2) then cos_a else ident i j)
  else if k =? 1 then
    (if (i =? 0) && (j =? 0) then cos_a else if (i =? 0) && (j =? 2) then sin_a
     else if (i =? 2) && (j =? 0) then 0! -! sin_a else if (i =? 2) && (j =? 2) then cos_a else ident i j)
  else
    (if (i =? 0) && (j =? 0) then cos_a else if (i =? 0) && (j =? 1) then 0! -! sin_a
     else if (i =? 1) && (j =? 0) then sin_a else if (i =? 1) && (j =? 1) then cos_a else ident i j).
(** [np.linalg.norm] of three entries.  igakit/transform.py:104, igakit/cad.py:458 *)
Definition norm3 (u : Z -> N) : N := nsqrt (u 0 *! u 0 +! u 1 *! u 1 +! u 2 *! u 2).
(** [u = np.zeros(3); u[0:axis.size] = axis].  igakit/transform.py:102-103, igakit/cad.py:456-457 *)
Definition pad3 (v : vec N) : Z -> N := fun i => if i <? v_len v then v_get v i else 0!.

(** igakit/transform.py:92-127 *)
Definition rotate (self : mat) (angle : N) (axis : axarg) : res mat :=
  if neqb N angle 0! then Ok self
  else
    let sin_a := nsin angle in let cos_a := ncos angle in
    match axis with
    | AxVec v =>
        assert ((1 <=? v_len v) && (v_len v <=? 3)) ;;;
        let u := pad3 v in
        let nrm := norm3 u in
        assert (0! <! nrm) ;;;
        compose self (MArr 3 3 (rot_vec sin_a cos_a (fun i => u i /! nrm)))
    | AxNum k =>
        let* a := py_axis 3 k in
        compose self (MArr 3 3 (rot_num sin_a cos_a (Z.of_nat a)))
    end.

(** [np.linalg.inv]: the inverse matrix, by the adjugate (LAPACK computes the same matrix by
    elimination); LinAlgError for a singular matrix.  igakit/transform.py:33-38 *)
Definition det3 (M : mat) (r0 r1 r2 c0 c1 c2 : Z) : N :=
  M r0 c0 *! (M r1 c1 *! M r2 c2 -! M r1 c2 *! M r2 c1)
  -! M r0 c1 *! (M r1 c0 *! M r2 c2 -! M r1 c2 *! M r2 c0)
  +! M r0 c2 *! (M r1 c0 *! M r2 c1 -! M r1 c1 *! M r2 c0).
(** The three other positions.  igakit/transform.py:37 *)
Definition oth (k : Z) : Z * Z * Z :=
  if k =? 0 then (1, 2, 3) else if k =? 1 then (0, 2, 3) else if k =? 2 then (0, 1, 3) else (0, 1, 2).
Definition cofac (M : mat) (i j : Z) : N :=
  let '(r0, r1, r2) := oth i in let '(c0, c1, c2) := oth j in
  let d := det3 M r0 r1 r2 c0 c1 c2 in if Z.even (i + j) then d else 0! -! d.
Definition det4 (M : mat) : N := M 0 0 *! cofac M 0 0 +! M 0 1 *! cofac M 0 1 +! M 0 2 *! cofac M 0 2 +! M 0 3 *! cofac M 0 3.
Definition invert (self : mat) : res mat :=
  if neqb N (det4 self) 0! then Raise ValueError
  else Ok (fun i j => cofac self j i /! det4 self).

(** The methods of NURBS that build a transform first.  igakit/nurbs.py:495-509 *)
Definition n_translate (nrb : nurbs N) (displ : sarg) (axis : option Z) : res (nurbs N) :=
  let* M := translate ident displ axis in Ok (transform nrb M).
Definition n_scale (nrb : nurbs N) (scl : sarg) (axis : option Z) : res (nurbs N) :=
  let* M := scale ident scl axis in Ok (transform nrb M).
Definition n_rotate (nrb : nurbs N) (angle : N) (axis : axarg) : res (nurbs N) :=
  let* M := rotate ident angle axis in Ok (transform nrb M).

(** ** Transform objects as references.  An object is a number, its attribute [matrix] is the
    number of an array, arrays have contents; numbers from [h_next] on are unused.
    igakit/transform.py:15, 25, 30, 37, 52 *)
Record heap := mkHeap { h_matrix : Z -> Z; h_array : Z -> mat; h_next : Z }.
(** The value of transform object t.  igakit/transform.py:18 *)
Definition value_of (h : heap) (t : Z) : mat := h_array h (h_matrix h t).
(** A new object holding a new array.  igakit/transform.py:7-15 *)
Definition t_alloc (h : heap) (M : mat) : heap * Z :=
  let k := h_next h in (mkHeap (upd (h_matrix h) k k) (upd (h_array h) k M) (k + 1), k).
(** [copy]: a new object with a new array of the same contents.  igakit/transform.py:23-26 *)
Definition t_copy (h : heap) (t : Z) : heap * Z := t_alloc h (value_of h t).
(** [clone]: a new object sharing the array.  igakit/transform.py:28-31 *)
Definition t_clone (h : heap) (t : Z) : heap * Z :=
  let k := h_next h in (mkHeap (upd (h_matrix h) k (h_matrix h t)) (h_array h) (k + 1), k).
(** [self.matrix = (new array)].  igakit/transform.py:37, 52 *)
Definition t_rebind (h : heap) (t : Z) (M : mat) : heap :=
  let k := h_next h in mkHeap (upd (h_matrix h) t k) (upd (h_array h) k M) (k + 1).
(** igakit/transform.py:36-38 *)
Definition t_invert (h : heap) (t : Z) : res heap := let* M := invert (value_of h t) in Ok (t_rebind h t M).
(** igakit/transform.py:33-34 *)
Definition t_inverse (h : heap) (t : Z) : res (heap * Z) :=
  let '(h1, k) := t_clone h t in let* h2 := t_invert h1 k in Ok (h2, k).
(** The argument of compose in the heap: another object, or an array.  igakit/transform.py:40-53 *)
Inductive harg := HTrans (t : Z) | HArr (r c : Z) (M : mat).
Definition harg_val (h : heap) (a : harg) : marg := match a with HTrans t => MTrans (value_of h t) | HArr r c M => MArr r c M end.
Definition t_compose (h : heap) (t : Z) (a : harg) : res heap :=
  let* M := compose (value_of h t) (harg_val h a) in Ok (t_rebind h t M).
(** igakit/transform.py:55-70 *)
Definition t_translate (h : heap) (t : Z) (displ : sarg) (axis : option Z) : res heap :=
  let* M := translate (value_of h t) displ axis in Ok (t_rebind h t M).
(** igakit/transform.py:74-90 *)
Definition t_scale (h : heap) (t : Z) (scl : sarg) (axis : option Z) : res heap :=
  let* M := scale (value_of h t) scl axis in Ok (t_rebind h t M).
(** igakit/transform.py:92-127; for angle 0 nothing is done. *)
Definition t_rotate (h : heap) (t : Z) (angle : N) (axis : axarg) : res heap :=
  if neqb N angle 0! then Ok h else
  let* M := rotate (value_of h t) angle axis in Ok (t_rebind h t M).
End Model.
