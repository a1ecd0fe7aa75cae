(** Memory: which arrays the methods of NURBS read, write, share and create.
    The numbers computed are those of ModelNurbs.v and ModelRemove.v; this file adds where they are
    put.  igakit/nurbs.py:162-1510.
    Simplifications: an array is a location with a shape and contents; a view with the layout of
    its base (view(), ravel() of a contiguous array, asarray of an array of doubles) is the base's
    location; other views (rollaxis, transposed, reversed) only occur between reading and copying.
    Arrays made and dropped inside a method are only given a location where they are written in
    place. *)
From Coq Require Import ZArith List Bool.
From Verif Require Import Num Loop ModelNurbs ModelRemove ModelDer ModelIo.
Import ListNotations.
Local Open Scope Z_scope.

Section Heap.
Context {N : Num}.
Notation "x +! y" := (nadd N x y) (at level 50, left associativity).
Notation "x -! y" := (nsub N x y) (at level 50, left associativity).
Notation "x *! y" := (nmul N x y) (at level 40, left associativity).
Notation "x /! y" := (ndiv N x y) (at level 40, left associativity).
Notation "x <=! y" := (nleb N x y) (at level 70).
Notation "x <! y" := (nltb N x y) (at level 70).
Notation "'0!'" := (n0 N).
Variable junk : Z -> N.
Variable junk2 : Z -> Z -> N.
Variable junk3 : Z -> Z -> Z -> N.
Variable junkS : Z -> Z.
Variable nsqrt : N -> N.

(** The arrays, and the objects: _array and _knots.  igakit/nurbs.py:241-242 *)
Record store := mkStore { s_arr : Z -> nd N; s_next : Z; s_obj : Z -> Z * list Z; s_nobj : Z }.
(** A piece of code: changes the store, returns or raises; reading, creating and writing arrays and
    the attributes _array and _knots.  igakit/nurbs.py:241-242, 490-493 *)
Definition H (A : Type) : Type := store -> store * res A.
Definition hret {A} (a : A) : H A := fun s => (s, Ok a).
Definition hbind {A B} (m : H A) (k : A -> H B) : H B :=
  fun s => match m s with (s', Ok a) => k a s' | (s', Raise e) => (s', Raise e) end.
Notation "'do' x <- a ; b" := (hbind a (fun x => b)) (at level 200, x name, a at level 100, b at level 200).
Definition lift {A} (r : res A) : H A := fun s => (s, r).
Definition read (l : Z) : H (nd N) := fun s => (s, Ok (s_arr s l)).
Definition alloc (a : nd N) : H Z :=
  fun s => (mkStore (fun l => if l =? s_next s then a else s_arr s l) (s_next s + 1) (s_obj s) (s_nobj s), Ok (s_next s)).
Definition write (l : Z) (a : nd N) : H unit :=
  fun s => (mkStore (fun l' => if l' =? l then a else s_arr s l') (s_next s) (s_obj s) (s_nobj s), Ok tt).
Definition refs (o : Z) : H (Z * list Z) := fun s => (s, Ok (s_obj s o)).
Definition bind_refs (o : Z) (r : Z * list Z) : H unit :=
  fun s => (mkStore (s_arr s) (s_next s) (fun o' => if o' =? o then r else s_obj s o') (s_nobj s), Ok tt).
Definition new_obj (r : Z * list Z) : H Z :=
  fun s => (mkStore (s_arr s) (s_next s) (fun o' => if o' =? s_nobj s then r else s_obj s o') (s_nobj s + 1), Ok (s_nobj s)).
Fixpoint mapH {A B} (f : A -> H B) (l : list A) : H (list B) :=
  match l with [] => hret [] | x :: l' => do y <- f x; do ys <- mapH f l'; hret (y :: ys) end.

(** An array of knots as a vector, and the object held by some arrays.  igakit/nurbs.py:245-283 *)
Definition nd_vec (a : nd N) : vec N := mkVec (hd 0 (nd_shape a)) (fun i => nd_get a [i]).
Definition held (A : nd N) (ks : list (nd N)) : nurbs N :=
  mkNurbs (zip_axes (removelast (nd_shape A)) (map nd_vec ks)) (last (nd_shape A) 0) (fun idx c => nd_get A (idx ++ [c])).
(** The object as seen through its properties knots and array.  igakit/nurbs.py:245-283 *)
Definition value (s : store) (o : Z) : nurbs N := held (s_arr s (fst (s_obj s o))) (map (s_arr s) (snd (s_obj s o))).
Definition this (o : Z) : H (nurbs N) := fun s => (s, Ok (value s o)).
(** New arrays for the results of a computation.  igakit/nurbs.py:793-794, 938-939, 1085-1086 *)
Definition nurbs_array (r : nurbs N) : nd N := mkNd (n_shape r ++ [n_comp r]) (fun l => n_arr r (removelast l) (last l 0)).
Definition axis_array (A : axis N) : nd N := mkNd [a_len A] (fun l => a_knots A (hd 0 l)).

(** An argument converted by np.asarray(x, dtype='d'): an array of doubles (C-contiguous or not), which
    is kept, or anything else, which is converted to a new array.  igakit/nurbs.py:167, 178-183, 1063 *)
Inductive arg := ARef (l : Z) (contiguous : bool) | AVal (a : nd N).
Definition asarray (x : arg) : H Z := match x with ARef l _ => hret l | AVal a => alloc a end.
Definition contiguous (x : arg) : bool := match x with ARef _ c => c | AVal _ => true end.
Definition asarray_opt (x : option arg) : H (option (nd N)) :=
  match x with None => hret None | Some x => do l <- asarray x; do a <- read l; hret (Some a) end.
(** U op= x in place.  igakit/nurbs.py:711-713 *)
Definition inplace (l : Z) (f : N -> N) : H unit :=
  do a <- read l; write l (mkNd (nd_shape a) (fun idx => f (nd_get a idx))).

Notation "a ;! b" := (hbind a (fun _ => b)) (at level 199, right associativity).

(** [NURBS(knots, control, fields, weights)]: the knots are the arrays given, and so is a contiguous
    control array with four columns when there are no fields.  igakit/nurbs.py:162-242 *)
Definition h_init (knots : list arg) (control fields weights : option arg) : H Z :=
  do lks <- mapH asarray knots;
  do ks <- mapH read lks;
  lift (assert (forallb (fun k => Nat.eqb (length (nd_shape k)) 1) ks)) ;!
  do lc <- match control with None => hret (-1) | Some x => asarray x end;
  do w <- asarray_opt weights;
  do f <- asarray_opt fields;
  do c <- match control with None => hret None | Some _ => do c <- read lc; hret (Some c) end;
  do r <- lift (init junk (map nd_vec ks) c f w);
  do la <- match control, c, f with
           | Some x, Some c, None => if (last (nd_shape c) 0 =? 4) && contiguous x then hret lc else alloc (nurbs_array r)
           | _, _, _ => alloc (nurbs_array r)
           end;
  new_obj (la, lks).

(** igakit/nurbs.py:412-439 *)
Definition h_copy (o : Z) : H Z :=
  do r <- refs o;
  do la <- (do a <- read (fst r); alloc a);
  do lks <- mapH (fun l => do a <- read l; alloc a) (snd r);
  new_obj (la, lks).
(** igakit/nurbs.py:441-467 *)
Definition h_clone (o : Z) : H Z := do r <- refs o; new_obj r.

(** The matrix of the transformation is read only: np.array copies it.  array = copy, then
    array[...,:4] = ... in place.  igakit/nurbs.py:472-493, igakit/transform.py:9-17 *)
Definition h_transform (o : Z) (M : arg) : H unit :=
  do lm <- asarray M; do M <- read lm;
  lift (assert (shape_eqb (nd_shape M) [4; 4])) ;!
  do nrb <- this o;
  do r <- refs o;
  do a <- read (fst r);
  do la <- alloc a;
  write la (nurbs_array (transform nrb (fun i j => nd_get M [i; j]))) ;!
  bind_refs o (la, snd r).
(** igakit/nurbs.py:513-562.  The knots are permuted, not copied. *)
Definition h_transpose (o : Z) (axes : option (list Z)) : H unit :=
  do nrb <- this o;
  do r <- lift (transpose nrb axes);
  do la <- alloc (nurbs_array r);
  do rf <- refs o;
  let d := n_dim nrb in
  let axes := match axes with None => rev (zseq (length (n_axes nrb)) 0) | Some l => l end in
  bind_refs o (la, map (fun a => nth (Z.to_nat (if a <? 0 then a + d else a)) (snd rf) 0) axes).
(** igakit/nurbs.py:564-606 *)
Definition h_swap (o : Z) (ax1 ax2 : Z) : H unit :=
  do nrb <- this o;
  do r <- lift (swap nrb ax1 ax2);
  do i <- lift (py_axis (n_dim nrb) ax1);
  do j <- lift (py_axis (n_dim nrb) ax2);
  do la <- alloc (nurbs_array r);
  do rf <- refs o;
  bind_refs o (la, lswap i j 0 (snd rf)).
(** The rounds of reverse: new knots for each.  igakit/nurbs.py:647-654 *)
Fixpoint h_reverse_knots (nrb : nurbs N) (axes : list nat) (lks : list Z) : H (list Z) :=
  match axes with
  | [] => hret lks
  | a :: rest =>
      do lk <- alloc (axis_array (KntRev (get_axis nrb a)));
      h_reverse_knots (reverse1 nrb a) rest (lset a lk lks)
  end.
(** The reversed view is contiguous, and hence kept without copying, if every axis of more than one
    point is reversed an even number of times.  igakit/nurbs.py:656 *)
Definition unflipped (nrb : nurbs N) (axes : list nat) : bool :=
  forallb (fun a => (a_size (get_axis nrb a) <=? 1) || Nat.even (count_occ Nat.eq_dec axes a)) axes.
(** igakit/nurbs.py:608-658 *)
Definition h_reverse (o : Z) (axes : list Z) : H unit :=
  do nrb <- this o;
  let axes := match axes with [] => zseq (length (n_axes nrb)) 0 | _ => axes end in
  do as_ <- mapH (fun ax => lift (py_axis (n_dim nrb) ax)) axes;
  do r <- lift (reverse_axes nrb axes);
  do rf <- refs o;
  do lks <- h_reverse_knots nrb as_ (snd rf);
  do la <- if unflipped nrb as_ then hret (fst rf) else alloc (nurbs_array r);
  bind_refs o (la, lks).

(** [U = U.copy(); U -= a; U *= (d-c)/(b-a); U += c].  igakit/nurbs.py:662-719 *)
Definition h_remap (o : Z) (ax : Z) (start end_ : option N) : H unit :=
  do nrb <- this o;
  do a <- lift (py_axis (n_dim nrb) ax);
  let A := get_axis nrb a in
  let lo := a_lo A in let hi := a_hi A in
  let c := match start with Some c => c | None => lo end in
  let d := match end_ with Some d => d | None => hi end in
  if neqb N lo c && neqb N hi d then hret tt
  else
    lift (assert (c <! d)) ;!
    do rf <- refs o;
    do U <- read (nth a (snd rf) 0);
    do l <- alloc U;
    inplace l (fun x => x -! lo) ;!
    inplace l (fun x => x *! ((d -! c) /! (hi -! lo))) ;!
    inplace l (fun x => x +! c) ;!
    bind_refs o (fst rf, lset a l (snd rf)).

(** The end of the methods that work along one axis: a new array, a new knot vector for that axis,
    the other knot vectors kept.  igakit/nurbs.py:792-795 *)
Definition rebind (o : Z) (r : nurbs N) (a : nat) : H unit :=
  do la <- alloc (nurbs_array r);
  do lk <- alloc (axis_array (get_axis r a));
  do rf <- refs o;
  bind_refs o (la, lset a lk (snd rf)).
(** With no copies to insert the object is returned as it is.  igakit/nurbs.py:721-795 *)
Definition h_insert (o : Z) (ax : Z) (v : N) (times : option Z) : H unit :=
  do nrb <- this o;
  do r <- lift (insert junk nrb ax v times);
  do a <- lift (py_axis (n_dim nrb) ax);
  if a_len (get_axis r a) =? a_len (get_axis nrb a) then hret tt else rebind o r a.
(** igakit/nurbs.py:797-885 *)
Definition h_remove (o : Z) (ax : Z) (v : N) (times : option Z) (deviation : N) : H unit :=
  do nrb <- this o;
  do r <- lift (remove nsqrt junk2 nrb ax v times deviation);
  do a <- lift (py_axis (n_dim nrb) ax);
  let A := get_axis nrb a in
  do mult <- lift (py_FindMult A v);
  let mult := Z.min mult (a_deg A) in
  let times := Z.min (match times with Some t => t | None => mult end) mult in
  if (times =? 0) || (v <=! a_lo A) || (a_hi A <=! v) then hret tt else rebind o r a.
(** igakit/nurbs.py:887-940 *)
Definition h_clamp (o : Z) (ax : Z) (side : option Z) : H unit :=
  do nrb <- this o;
  do r <- lift (clamp junk nrb ax side);
  do a <- lift (py_axis (n_dim nrb) ax);
  rebind o r a.
(** igakit/nurbs.py:942-1011 *)
Definition h_unclamp (o : Z) (ax : Z) (side continuity : option Z) : H unit :=
  do nrb <- this o;
  do r <- lift (unclamp junk nrb ax side continuity);
  do a <- lift (py_axis (n_dim nrb) ax);
  rebind o r a.
(** The entries of an array (ravel), and an array with these entries.
    igakit/nurbs.py:1057, 1067 *)
Definition flat (a : nd N) : list N := map (fun k => nd_get a (unravel_c (nd_shape a) k)) (zseq (Z.to_nat (prod (nd_shape a))) 0).
Definition unflat (sh : list Z) (l : list N) : nd N := mkNd sh (fun idx => nth (Z.to_nat (ravel_c sh idx)) l 0!).
(** The values are sorted in place: asarray keeps an array of doubles, ravel of a contiguous array is
    a view.  The knots and the array of the object are read after that ([refine] of ModelNurbs.v
    sorts its list itself).  igakit/nurbs.py:1013-1087 *)
Definition h_refine (o : Z) (ax : Z) (values : arg) : H unit :=
  do lv <- asarray values;
  do v <- read lv;
  if prod (nd_shape v) =? 0 then hret tt
  else
    do nrb0 <- this o;
    do a <- lift (py_axis (n_dim nrb0) ax);
    do lu <- if contiguous values then hret lv else alloc v;
    write lu (unflat (nd_shape v) (sort (flat v))) ;!
    do nrb <- this o;
    do r <- lift (refine junk nrb ax (flat v));
    rebind o r a.
(** igakit/nurbs.py:1089-1164 *)
Definition h_elevate (o : Z) (ax times : Z) : H unit :=
  do nrb <- this o;
  do r <- lift (elevate junk junk2 nrb ax times);
  if times =? 0 then hret tt
  else do a <- lift (py_axis (n_dim nrb) ax); rebind o r a.

(** slice: a clone is refined with a new array of values; its array is cut and copied, its other
    knot vectors are kept.  igakit/nurbs.py:1168-1266 *)
Definition h_slice (o : Z) (ax : Z) (start end_ : option N) : H Z :=
  do nrb <- this o;
  do a <- lift (py_axis (n_dim nrb) ax);
  do r <- lift (slice junk nrb ax start end_);
  let A := get_axis nrb a in
  let u0 := match start with Some x => x | None => a_lo A end in
  let u1 := match end_ with Some x => x | None => a_hi A end in
  do ks0 <- lift (py_FindSpanMult A u0);
  do ks1 <- lift (py_FindSpanMult A u1);
  let u := repeat u0 (Z.to_nat (Z.max 0 (a_deg A - snd ks0))) ++ repeat u1 (Z.to_nat (Z.max 0 (a_deg A - snd ks1))) in
  do o' <- h_clone o;
  h_refine o' (Z.of_nat a) (AVal (unflat [Z.of_nat (length u)] u)) ;!
  do la <- alloc (nurbs_array r);
  do lk <- alloc (axis_array (get_axis r a));
  do rf <- refs o';
  new_obj (la, lset a lk (snd rf)).
(** igakit/nurbs.py:1268-1341 *)
Definition h_extract (o : Z) (ax : Z) (v : N) : H Z :=
  do nrb <- this o;
  do r <- lift (extract junk nrb ax v);
  do a <- lift (py_axis (n_dim nrb) ax);
  do la <- alloc (nurbs_array r);
  do rf <- refs o;
  new_obj (la, lrem a (snd rf)).
(** igakit/nurbs.py:1343-1364 *)
Definition h_boundary (o : Z) (ax side : Z) : H Z :=
  do nrb <- this o;
  lift (assert ((side =? 0) || (side =? 1))) ;!
  do a <- lift (py_axis (n_dim nrb) ax);
  let A := get_axis nrb a in
  h_extract o (Z.of_nat a) (if side =? 0 then a_lo A else a_hi A).
(** Evaluation reads the parameters and the fields and returns new arrays.
    igakit/nurbs.py:1368-1451 *)
Definition h_call (o : Z) (args : list (option arg)) (fields : option arg) (flag : bool)
  : H ((list Z -> Z -> N) * option (list Z -> Z -> N)) :=
  do nrb <- this o;
  do xs <- mapH asarray_opt args;
  do f <- asarray_opt fields;
  lift (call junk junk2 junk3 junkS nrb (map (option_map nd_vec) xs)
          (match f with Some F => FArr F | None => if flag then FYes else FNo end)).
(** igakit/nurbs.py:1453-1510 *)
Definition h_evaluate (o : Z) (args : list (option arg)) (fields : option arg) : H (list Z -> Z -> N) :=
  do nrb <- this o;
  do xs <- mapH asarray_opt args;
  do f <- asarray_opt fields;
  lift (evaluate junk junk2 junk3 junkS nrb f (map (option_map nd_vec) xs)).
(** gradient, hessian and derivative.  igakit/nurbs.py:1512-1717 *)
Definition h_derivative (o : Z) (order : Z) (args : list (option arg)) (fields : option arg) (mapped : bool)
  : H (list Z -> Z -> list Z -> N) :=
  do nrb <- this o;
  do xs <- mapH asarray_opt args;
  do f <- asarray_opt fields;
  lift (derivative junk junk2 nrb order f (map (option_map nd_vec) xs) mapped).

(** A call of one of the methods of igakit/nurbs.py:162-1717, or a write into an array by the caller
    (which is not part of the source). *)
Inductive op :=
| OpInit (knots : list arg) (control fields weights : option arg)
| OpCopy (o : Z) | OpClone (o : Z)
| OpTransform (o : Z) (M : arg)
| OpTranspose (o : Z) (axes : option (list Z)) | OpSwap (o ax1 ax2 : Z) | OpReverse (o : Z) (axes : list Z)
| OpRemap (o ax : Z) (start end_ : option N)
| OpInsert (o ax : Z) (v : N) (times : option Z) | OpRemove (o ax : Z) (v : N) (times : option Z) (deviation : N)
| OpClamp (o ax : Z) (side : option Z) | OpUnclamp (o ax : Z) (side continuity : option Z)
| OpRefine (o ax : Z) (values : arg) | OpElevate (o ax times : Z)
| OpSlice (o ax : Z) (start end_ : option N) | OpExtract (o ax : Z) (v : N) | OpBoundary (o ax side : Z)
| OpCall (o : Z) (args : list (option arg)) (fields : option arg) (flag : bool)
| OpEvaluate (o : Z) (args : list (option arg)) (fields : option arg)
| OpDerivative (o order : Z) (args : list (option arg)) (fields : option arg) (mapped : bool)
| OpWrite (l : Z) (f : list Z -> N).
Definition ignore {A} (m : H A) : H unit := do _x <- m; hret tt.
Definition perform (p : op) : H unit :=
  match p with
  | OpInit knots control fields weights => ignore (h_init knots control fields weights)
  | OpCopy o => ignore (h_copy o)
  | OpClone o => ignore (h_clone o)
  | OpTransform o M => h_transform o M
  | OpTranspose o axes => h_transpose o axes
  | OpSwap o ax1 ax2 => h_swap o ax1 ax2
  | OpReverse o axes => h_reverse o axes
  | OpRemap o ax start end_ => h_remap o ax start end_
  | OpInsert o ax v times => h_insert o ax v times
  | OpRemove o ax v times deviation => h_remove o ax v times deviation
  | OpClamp o ax side => h_clamp o ax side
  | OpUnclamp o ax side continuity => h_unclamp o ax side continuity
  | OpRefine o ax values => h_refine o ax values
  | OpElevate o ax times => h_elevate o ax times
  | OpSlice o ax start end_ => ignore (h_slice o ax start end_)
  | OpExtract o ax v => ignore (h_extract o ax v)
  | OpBoundary o ax side => ignore (h_boundary o ax side)
  | OpCall o args fields flag => ignore (h_call o args fields flag)
  | OpEvaluate o args fields => ignore (h_evaluate o args fields)
  | OpDerivative o order args fields mapped => ignore (h_derivative o order args fields mapped)
  | OpWrite l f => do a <- read l; write l (mkNd (nd_shape a) f)
  end.
(** One after the other; a call that raises leaves the store it has made.  The calls are those of
    igakit/nurbs.py:162-1717. *)
Fixpoint run (ps : list op) (s : store) : store :=
  match ps with [] => s | p :: ps' => run ps' (fst (perform p s)) end.
End Heap.
Arguments store N : clear implicits.
Arguments arg N : clear implicits.
Arguments op N : clear implicits.
