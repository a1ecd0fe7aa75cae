(** [NURBS.remove] (igakit/nurbs.py:797-885).  Unlike the other methods it hands whole slices of
    the control array to the kernel, because the tolerance test uses distances between rows. *)
From Coq Require Import ZArith List Bool.
From Verif Require Import Num Loop ModelBspline ModelBSp ModelNurbs.
Import ListNotations.
Local Open Scope Z_scope.

(** Number of entries of an array of given shape, position of an index list in C order, and the
    index list at a position: what [reshape] uses.  igakit/nurbs.py:867, 878 *)
Fixpoint zprod (sh : list Z) : Z := match sh with [] => 1 | s :: sh' => s * zprod sh' end.
Fixpoint flat (sh idx : list Z) : Z :=
  match sh, idx with
  | _ :: sh', i :: idx' => i * zprod sh' + flat sh' idx'
  | _, _ => 0
  end.
Fixpoint unflat (sh : list Z) (q : Z) : list Z :=
  match sh with
  | [] => []
  | _ :: sh' => q / zprod sh' :: unflat sh' (q mod zprod sh')
  end.

Section Model.
Context {N : Num}.
Notation "x +! y" := (nadd N x y) (at level 50, left associativity).
Notation "x *! y" := (nmul N x y) (at level 40, left associativity).
Notation "x /! y" := (ndiv N x y) (at level 40, left associativity).
Notation "x <=! y" := (nleb N x y) (at level 70).
Notation "x <! y" := (nltb N x y) (at level 70).
Notation "'0!'" := (n0 N).
Notation "'1!'" := (n1 N).

(** Square root used by [np.linalg.norm].  igakit/nurbs.py:871 *)
Variable nsqrt : N -> N.
Variable junk2 : Z -> Z -> N.

(** Number of columns of the matrix: all other axes and the components.  igakit/nurbs.py:867 *)
Definition n_cols (nrb : nurbs N) (a : nat) : Z := zprod (lrem a (n_shape nrb)) * n_comp nrb.

(** [np.rollaxis(array, axis, 0).reshape((shape[0], -1))]: row i, column q (columns count from 1
    as in the Fortran kernel).  igakit/nurbs.py:865-867 *)
Definition rolled (nrb : nurbs N) (a : nat) (i q : Z) : N :=
  n_arr nrb (lins a i (unflat (lrem a (n_shape nrb)) ((q - 1) / n_comp nrb))) ((q - 1) mod n_comp nrb).

(** The way back: [Qw.shape = ...; np.rollaxis(Qw, 0, axis+1)].  igakit/nurbs.py:877-879 *)
Definition unrolled (nrb : nurbs N) (a : nat) (Q : Z -> Z -> N) : list Z -> Z -> N :=
  fun idx c => Q (nth a idx 0) (flat (lrem a (n_shape nrb)) (lrem a idx) * n_comp nrb + c + 1).

(** [Pw[:,-1].min()].  igakit/nurbs.py:868 *)
Definition col_min (n d : Z) (Pw : Z -> Z -> N) : N :=
  for_up 1 n (fun i m => if Pw i d <! m then Pw i d else m) (Pw 0 d).
(** [np.linalg.norm(Pw[i,:-1])].  igakit/nurbs.py:871 *)
Definition row_norm (d : Z) (Pw : Z -> Z -> N) (i : Z) : N :=
  nsqrt (for_up 1 (d - 1) (fun q s => s +! Pw i q *! Pw i q) 0!).
(** [max(Pmax)].  igakit/nurbs.py:869-872 *)
Definition row_max (n d : Z) (Pw : Z -> Z -> N) : N :=
  for_up 1 n (fun i m => if m <! row_norm d Pw i then row_norm d Pw i else m) (row_norm d Pw 0).
(** [TOL = deviation*wmin/(1.+Pmax)].  igakit/nurbs.py:873 *)
Definition remove_tol (n d : Z) (Pw : Z -> Z -> N) (deviation : N) : N :=
  deviation *! col_min n d Pw /! (1! +! row_max n d Pw).

(** igakit/nurbs.py:797-885; checks of bsp.RemoveKnot: igakit/igalib.pyf:97-112.  Cutting off
    [V[:-t]] and [Qw[:-t,:]] is the smaller axis.  [times = None] means all copies. *)
Definition remove (nrb : nurbs N) (ax : Z) (value : N) (times : option Z) (deviation : N) : res (nurbs N) :=
  let* a := py_axis (n_dim nrb) ax in
  let A := get_axis nrb a in
  let p := a_deg A in let U := a_knots A in let n := a_size A - 1 in
  assert (a_lo A <=! value) ;;; assert (value <=! a_hi A) ;;;
  let* mult := py_FindMult A value in
  let mult := Z.min mult p in
  let times := match times with Some t => t | None => mult end in
  let times := Z.min times mult in
  assert (0 <=? times) ;;;
  if times =? 0 then Ok nrb
  else if value <=! a_lo A then Ok nrb
  else if a_hi A <=! value then Ok nrb
  else
    let d := n_cols nrb a in
    let Pw := rolled nrb a in
    let TOL := remove_tol n d Pw deviation in
    check (1 <=? d) ;;; check (1 <=? n) ;;; check (1 <=? p) ;;;
    check ((U p <=! value) && (value <=! U (n + 1))) ;;;
    check ((0 <=? times) && (times <=? p)) ;;;
    let '(V, Qw, t) := bsp_RemoveKnot d n p U Pw value times TOL junk2 in
    Ok (mkNurbs (lset a (mkAxis (a_size A - t) (a_len A - t) V) (n_axes nrb))
                (n_comp nrb) (unrolled nrb a Qw)).
End Model.
