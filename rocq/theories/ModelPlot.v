(** Model of igakit/plot.py and of the parts of igakit/plot_mpl.py and igakit/plot_myv.py that choose
    what is drawn: the arrays of coordinates that [Plotter] hands to a backend, and the segments and
    quadrilaterals that the backend makes of them.

    Simplifications, common to the whole file:
    - Options (colours, modes, names) are left to ModelPlotOpt.v and the values returned are not
      modelled; drawing is the list of what is handed on, in order.  If something raises, nothing is recorded, also not what was
      drawn before.
    - [resolution] is the number found in the backend's table (64, 128 or 256 for curves, 16, 32 or
      128 for surfaces: igakit/plot_nul.py:43, plot_mpl.py:133, plot_myv.py:258); the model takes
      every number.
    - The drawing functions of matplotlib and mayavi are replaced by what they document. *)
From Coq Require Import String ZArith Bool List Lia.
From Verif Require Import Num Loop ModelBspline ModelBSp ModelNurbs ModelCad ModelIo.
Import ListNotations.
Local Open Scope Z_scope.

Section Model.
Context {N : Num}.
Notation "x +! y" := (nadd N x y) (at level 50, left associativity).
Notation "x -! y" := (nsub N x y) (at level 50, left associativity).
Notation "x *! y" := (nmul N x y) (at level 40, left associativity).
Notation "x /! y" := (ndiv N x y) (at level 40, left associativity).
Notation "'0!'" := (n0 N).
Variable junk : Z -> N.
Variable junk2 : Z -> Z -> N.
Variable junk3 : Z -> Z -> Z -> N.
Variable junkS : Z -> Z.

(** ** numpy *)
(** [np.linspace(a,b,n)] for n > 1: multiples of the step added to a, and b at the end; the other
    branch is numpy's, for a step that is zero.  igakit/plot.py:133, 167, 196, 230 *)
Definition linspace (a b : N) (n : Z) : vec N :=
  let delta := b -! a in let step := delta /! nofZ N (n - 1) in
  mkVec n (fun i => if i =? n - 1 then b
                    else (if neqb N step 0! then nofZ N i /! nofZ N (n - 1) *! delta else nofZ N i *! step) +! a).
(** A list of parameters as an array.  igakit/plot.py:104, 128 *)
Definition of_list (l : list N) : vec N := mkVec (Z.of_nat (length l)) (fun i => nth (Z.to_nat i) l 0!).
(** The three arrays of [x, y, z = C.T] and [tuple(C.T)]: all axes reversed, the coordinate fixed.
    igakit/plot.py:22, 43, 55, 68, 86, 106, 152, 177, 198, 241 *)
Definition xyz : Type := nd N * nd N * nd N.
Definition split3 (C : nd N) : xyz :=
  let f := fun c => mkNd (N:=N) (rev (removelast (nd_shape C))) (fun l => nd_get C (rev l ++ [c])) in (f 0, f 1, f 2).
(** [np.rollaxis(C, axis, start)].  igakit/plot.py:137 *)
Definition rollaxis (C : nd N) (axis start : Z) : nd N :=
  let n := Z.of_nat (length (nd_shape C)) in
  let a := if axis <? 0 then axis + n else axis in
  let s := if start <? 0 then start + n else start in
  let s := if a <? s then s - 1 else s in
  if a =? s then C
  else
    let axes := lins (Z.to_nat s) a (lrem (Z.to_nat a) (zseq (Z.to_nat n) 0)) in
    mkNd (map (fun k => nth (Z.to_nat k) (nd_shape C) 0) axes) (fun l => nd_get C (unpermute axes l)).
(** [C.reshape((-1, n, 3))] and its rows.  igakit/plot.py:138-139 *)
Definition rows_of (C : nd N) (n : Z) : res (list (nd N)) :=
  let size := prod (nd_shape C) in
  if negb (size mod (n * 3) =? 0) then Raise ValueError
  else
    let k := size / (n * 3) in
    Ok (map (fun q => mkNd [n; 3] (fun l => nd_get C (unravel_c (nd_shape C) (ravel_c [k; n; 3] (q :: l)))))
          (zseq (Z.to_nat k) 0)).

(** ** Points and vectors *)
(** np.atleast_2d, the check of the number of coordinates, and the zeros for the missing ones.
    igakit/plot.py:12-21, 33-42, 45-54 *)
Definition pad3 (P : nd N) : res (nd N) :=
  let P := match nd_shape P with
           | [] => mkNd [1; 1] (fun _ => nd_get P [])
           | [s] => mkNd [1; s] (fun l => nd_get P (tl l))
           | _ => P
           end in
  let dim := last (nd_shape P) 0 in
  assert ((1 <=? dim) && (dim <=? 3)) ;;;
  Ok (mkNd (removelast (nd_shape P) ++ [3]) (fun l => if last l 0 <? dim then nd_get P l else 0!)).
(** igakit/plot.py:11-29 *)
Definition p_points (P : nd N) : res xyz := let* C := pad3 P in Ok (split3 C).
(** igakit/plot.py:31-62 *)
Definition p_quiver (P V : nd N) : res (xyz * xyz) :=
  let* C := pad3 P in let* A := pad3 V in Ok (split3 C, split3 A).

(** ** Control points and breaks *)
(** [nurbs.points] as an array.  igakit/plot.py:67, 85; igakit/nurbs.py:294-300 *)
Definition points_nd (nrb : nurbs N) : nd N :=
  mkNd (n_shape nrb ++ [3]) (fun l => n_points nrb (removelast l) (last l 0)).
(** [nurbs( *uvw)] as an array.  igakit/plot.py:105, 136, 169, 197, 232; igakit/nurbs.py:1368-1451 *)
Definition call_nd (nrb : nurbs N) (uvw : list (vec N)) : res (nd N) :=
  let* CF := call junk junk2 junk3 junkS nrb (map Some uvw) FNo in
  Ok (mkNd (map v_len uvw ++ [3]) (fun l => fst CF (removelast l) (last l 0))).
(** [nurbs.breaks()].  igakit/plot.py:104, 128; igakit/nurbs.py:330-349 *)
Definition all_breaks (nrb : nurbs N) : list (list N) := map (fun A => unique (inner_knots A)) (n_axes nrb).
(** igakit/plot.py:66-76 *)
Definition p_cpoint (nrb : nurbs N) : xyz := split3 (points_nd nrb).
(** igakit/plot.py:84-100 *)
Definition p_cwire (nrb : nurbs N) : list xyz := [split3 (points_nd nrb)].
(** igakit/plot.py:103-114 *)
Definition p_kpoint (nrb : nurbs N) : res xyz :=
  let* C := call_nd nrb (map of_list (all_breaks nrb)) in Ok (split3 C).

(** The argument [axes] of kwire and ksurf: None stands for all; a number is a list of one.
    igakit/plot.py:123-126, 157-160 *)
Definition which_axes (nrb : nurbs N) (axes : option (list Z)) : list Z :=
  match axes with Some l => l | None => firstn (length (n_axes nrb)) [0; 1; 2] end.
(** One round of the loop of kwire.  igakit/plot.py:131-139 *)
Definition kwire1 (resolution : Z) (nrb : nurbs N) (axis : Z) : res (list (nd N)) :=
  let uvw := all_breaks nrb in
  let* a := py_axis (n_dim nrb) axis in
  let u := nth a uvw [] in
  let* C := call_nd nrb (lset a (linspace (hd 0! u) (last u 0!) resolution) (map of_list uvw)) in
  rows_of (rollaxis C axis (-1)) resolution.
(** igakit/plot.py:122-153 *)
Definition p_kwire (resolution : Z) (nrb : nurbs N) (axes : option (list Z)) : res (list xyz) :=
  let* ls := mapM (kwire1 resolution nrb) (which_axes nrb axes) in Ok (map split3 (concat ls)).

(** The object sampled at equally spaced parameters of the whole domain.
    igakit/plot.py:167-169, 195-197, 230-232 *)
Definition sample (resolution : Z) (nrb : nurbs N) : res (nd N) :=
  call_nd nrb (map (fun A => linspace (a_lo A) (a_hi A) resolution) (n_axes nrb)).
(** One round of the outer loop of ksurf.  igakit/plot.py:164-170 *)
Definition ksurf1 (resolution : Z) (nrb : nurbs N) (axis : Z) : res (list (nd N)) :=
  let* us := breaks nrb axis in
  mapM (fun u => let* x := extract junk nrb axis u in sample resolution x) us.
(** igakit/plot.py:156-178 *)
Definition p_ksurf (resolution : Z) (nrb : nurbs N) (axes : option (list Z)) : res (list xyz) :=
  let* ss := mapM (ksurf1 resolution nrb) (which_axes nrb axes) in Ok (map split3 (concat ss)).

(** ** Curves, surfaces, volumes *)
(** All boundaries, both sides of every axis.  igakit/plot.py:186-190, 219-223 *)
Definition boundaries (nrb : nurbs N) : res (list (nurbs N)) :=
  mapM (fun k => boundary junk nrb (k / 2) (k mod 2)) (zseq (2 * length (n_axes nrb)) 0).
(** [fuel] bounds the depth of the recursion by the number of axes, which is one less for a
    boundary.  igakit/plot.py:183-213 *)
Fixpoint curve_rec (fuel : nat) (resolution : Z) (nrb : nurbs N) : res (list xyz) :=
  match fuel with
  | O => Ok []
  | S f =>
      if n_dim nrb <? 1 then Ok []
      else if 1 <? n_dim nrb then
        let* bs := boundaries nrb in let* ls := mapM (curve_rec f resolution) bs in Ok (concat ls)
      else let* C := sample resolution nrb in Ok [split3 C]
  end.
Definition p_curve (resolution : Z) (nrb : nurbs N) : res (list xyz) := curve_rec (length (n_axes nrb)) resolution nrb.
(** igakit/plot.py:216-242 *)
Definition p_surface (resolution : Z) (nrb : nurbs N) : res (list xyz) :=
  if n_dim nrb <? 2 then Ok []
  else
    let* ss := if 2 <? n_dim nrb then boundaries nrb else Ok [nrb] in
    let* Cs := mapM (sample resolution) ss in Ok (map split3 Cs).
(** igakit/plot.py:245-253 *)
Definition p_volume (resolution : Z) (nrb : nurbs N) : res (list xyz) :=
  if n_dim nrb <? 3 then Ok [] else p_surface resolution nrb.
(** What [plot] hands to line3d and to surf3d; res1 and res2 are the entries of the backend's table.
    igakit/plot.py:271-278 *)
Definition p_plot (res1 res2 : Z) (nrb : nurbs N) : res (list xyz * list xyz) :=
  if n_dim nrb =? 1 then let* l := p_curve res1 nrb in Ok (l, [])
  else if n_dim nrb =? 2 then let* s := p_surface res2 nrb in Ok ([], s)
  else if n_dim nrb =? 3 then let* s := p_volume res2 nrb in Ok ([], s)
  else Ok ([], []).

(** ** What the backends make of the arrays *)
(** A point of three arrays, and their shape.  igakit/plot_myv.py:83-95, igakit/plot_mpl.py:70-74 *)
Definition at3 (t : xyz) (idx : list Z) : N * N * N :=
  let '(x, y, z) := t in (nd_get x idx, nd_get y idx, nd_get z idx).
Definition shape3 (t : xyz) : list Z := nd_shape (fst (fst t)).
(** [grid[lo:lo+s-1, ...].ravel()] where grid numbers the points in C order: for every cell of the grid
    the number of its corner [o], offset o_i in {0,1} along axis i.
    igakit/plot_myv.py:96-99, 104-107, 114-121, 154-171 *)
Definition cells (sh : list Z) : list (list Z) :=
  let cs := map (fun s => s - 1) sh in map (unravel_c cs) (zseq (Z.to_nat (prod (map (Z.max 0) cs))) 0).
Fixpoint shift (idx o : list Z) : list Z :=
  match idx, o with i :: idx', d :: o' => i + d :: shift idx' o' | _, _ => [] end.
(** The columns of [verts] for one cell.  igakit/plot_myv.py:98-100, 104-108, 114-127 *)
Definition faces2 : list (list (list Z)) := [ [[0; 0]; [1; 0]; [1; 1]; [0; 1]] ].
Definition faces3 : list (list (list Z)) :=
  let p0 := [0; 0; 0] in let p1 := [1; 0; 0] in let p2 := [1; 1; 0] in let p3 := [0; 1; 0] in
  let p4 := [0; 0; 1] in let p5 := [1; 0; 1] in let p6 := [1; 1; 1] in let p7 := [0; 1; 1] in
  [ [p0; p1; p2; p3]; [p4; p5; p6; p7]; [p0; p1; p5; p4]; [p2; p6; p7; p3]; [p0; p3; p7; p4]; [p1; p2; p6; p5] ].
Definition cell_faces (sh : list Z) (fs : list (list (list Z))) : list (list Z) :=
  flat_map (fun c => map (map (fun o => ravel_c sh (shift c o))) fs) (cells sh).
(** polys[:,[0,1,1,2,2,3,3,0]] as pairs.  igakit/plot_myv.py:111, 130 *)
Definition outline (f : list Z) : list (Z * Z) :=
  match f with [a; b; c; d] => [(a, b); (b, c); (c, d); (d, a)] | _ => [] end.
Definition pair_of (l : list Z) : list (Z * Z) := match l with [a; b] => [(a, b)] | _ => [] end.
(** Lines and quadrilaterals of one array.  igakit/plot_myv.py:94-131, 152-179 *)
Definition grid_lines (sh : list Z) : list (Z * Z) :=
  match sh with
  | [_] => flat_map pair_of (map (fun c => [ravel_c sh (shift c [0]); ravel_c sh (shift c [1])]) (cells sh))
  | [_; _] => flat_map outline (cell_faces sh faces2)
  | [_; _; _] => flat_map outline (cell_faces sh faces3)
  | _ => []
  end.
Definition grid_polys (sh : list Z) : list (list Z) :=
  match sh with
  | [_; _] => cell_faces sh faces2
  | [_; _; _] => cell_faces sh faces3
  | _ => []
  end.
(** The points of one array in C order.  igakit/plot_myv.py:91-93, 149-151 *)
Definition grid_points (t : xyz) : list (N * N * N) :=
  map (fun k => at3 t (unravel_c (shape3 t) k)) (zseq (Z.to_nat (prod (shape3 t))) 0).
Definition same_shapes (t : xyz) : bool :=
  let '(x, y, z) := t in shape_eqb (nd_shape x) (nd_shape y) && shape_eqb (nd_shape y) (nd_shape z).
(** The loops that add the offsets and stack the arrays.  np.row_stack of no arrays raises
    ValueError.  igakit/plot_myv.py:134-139, 182-187 *)
Fixpoint stack {A : Type} (move : Z -> A -> A) (parts : xyz -> list A) (off : Z) (ts : list xyz) : list (N * N * N) * list A :=
  match ts with
  | [] => ([], [])
  | t :: ts' =>
      let ps := grid_points t in
      let '(P, L) := stack move parts (off + Z.of_nat (length ps)) ts' in
      (ps ++ P, map (move off) (parts t) ++ L)
  end.
Definition extract_grid {A : Type} (move : Z -> A -> A) (parts : xyz -> list A) (ts : list xyz) : res (list (N * N * N) * list A) :=
  assert (forallb same_shapes ts) ;;;
  match ts with [] => Raise ValueError | _ => Ok (stack move parts 0 ts) end.
(** igakit/plot_myv.py:83-139 *)
Definition myv_lines (ts : list xyz) : res (list (N * N * N) * list (Z * Z)) :=
  extract_grid (fun o ab => (fst ab + o, snd ab + o)) (fun t => grid_lines (shape3 t)) ts.
(** igakit/plot_myv.py:141-187 *)
Definition myv_polys (ts : list xyz) : res (list (N * N * N) * list (list Z)) :=
  extract_grid (fun o => map (fun a => a + o)) (fun t => grid_polys (shape3 t)) ts.

(** matplotlib: [plot] draws a polyline; [plot_wireframe] with strides 1 draws every row and every
    column of a two-dimensional array.  [f i j] is the point in row i, column j.
    igakit/plot_mpl.py:75, 79, 86, 91 *)
Definition wireframe (r c : Z) (f : Z -> Z -> N * N * N) : list (list (N * N * N)) :=
  map (fun i => map (f i) (zseq (Z.to_nat c) 0)) (zseq (Z.to_nat r) 0) ++
  map (fun j => map (fun i => f i j) (zseq (Z.to_nat r) 0)) (zseq (Z.to_nat c) 0).
(** One round of the loop of line3d; the arrays are transposed first.  igakit/plot_mpl.py:70-91 *)
Definition mpl_line (t : xyz) : list (list (N * N * N)) :=
  match rev (shape3 t) with
  | [s] => [map (fun i => at3 t [i]) (zseq (Z.to_nat s) 0)]
  | [r; c] => wireframe r c (fun i j => at3 t [j; i])
  | [r; c; d] =>
      flat_map (fun i => wireframe c d (fun j k => at3 t [k; j; i])) (zseq (Z.to_nat r) 0) ++
      flat_map (fun j => map (fun k => map (fun i => at3 t [k; j; i]) (zseq (Z.to_nat r) 0)) (zseq (Z.to_nat d) 0)) (zseq (Z.to_nat c) 0)
  | _ => []
  end.
(** igakit/plot_mpl.py:59-91 *)
Definition mpl_lines (ts : list xyz) : list (list (N * N * N)) := flat_map mpl_line ts.
(** [plot_surface] with strides 1 draws the quadrilaterals between neighbouring rows and columns;
    arrays of other dimensions are passed over.  igakit/plot_mpl.py:106-120 *)
Definition mpl_surf (t : xyz) : list (list (N * N * N)) :=
  match rev (shape3 t) with
  | [r; c] =>
      flat_map (fun i => map (fun j => [at3 t [j; i]; at3 t [j + 1; i]; at3 t [j + 1; i + 1]; at3 t [j; i + 1]])
                           (zseq (Z.to_nat (c - 1)) 0)) (zseq (Z.to_nat (r - 1)) 0)
  | _ => []
  end.
(** igakit/plot_mpl.py:93-131 *)
Definition mpl_surfs (ts : list xyz) : list (list (N * N * N)) := flat_map mpl_surf ts.
End Model.
Arguments xyz N : clear implicits.
