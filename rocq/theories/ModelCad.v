(** [igakit/cad.py]: construction of NURBS objects.  Functions of the mathematical library are
    parameters of the section. *)
From Coq Require Import ZArith List Bool.
From Verif Require Import Num Loop ModelBspline ModelBSp ModelNurbs ModelIga ModelRemove ModelTransform.
Import ListNotations.
Local Open Scope Z_scope.

(** Python loops over lists of calls that may raise: the first exception ends the loop.
    igakit/cad.py:320-323, 332-336, 360-364, 369 *)
Fixpoint mapM {A B : Type} (f : A -> res B) (l : list A) : res (list B) :=
  match l with [] => Ok [] | x :: l' => let* y := f x in let* ys := mapM f l' in Ok (y :: ys) end.
Fixpoint foldM {A B : Type} (f : A -> B -> res A) (l : list B) (a : A) : res A :=
  match l with [] => Ok a | x :: l' => let* b := f a x in foldM f l' b end.

Section Model.
Context {N : Num}.
Notation "x +! y" := (nadd N x y) (at level 50, left associativity).
Notation "x -! y" := (nsub N x y) (at level 50, left associativity).
Notation "x *! y" := (nmul N x y) (at level 40, left associativity).
Notation "x /! y" := (ndiv N x y) (at level 40, left associativity).
Notation "x <=! y" := (nleb N x y) (at level 70).
Notation "x <! y" := (nltb N x y) (at level 70).
Notation "'0!'" := (n0 N).
Notation "'1!'" := (n1 N).

(** The mathematical library: sin, cos, tan, sqrt, arccos, arctan2(y,x), hypot, pi.
    igakit/cad.py:107, 123-125, 113, 465, 474-476 *)
Variable nsin ncos ntan nsqrt nacos : N -> N.
Variable natan2 nhypot : N -> N -> N.
Variable npi : N.
(** Uninitialised memory. *)
Variable junk : Z -> N.
Variable junk2 : Z -> Z -> N.
Variable junk3 : Z -> Z -> Z -> N.
Variable junkS : Z -> Z.

Let two : N := nofZ N 2.

(** The knots [0,0,1,1].  igakit/cad.py:45, 169, 192, 218, 419, 523 *)
Definition knots0011 : vec N := mkVec 4 (fun i => if i <? 2 then 0! else 1!).
(** An array given by its shape without the last axis, the length of the last axis, and the
    entries.  igakit/cad.py:42, 134, 161, 184, 211, 285, 416, 477, 520, 574 *)
Definition nd_of (shape : list Z) (k : Z) (f : list Z -> Z -> N) : nd N :=
  mkNd (shape ++ [k]) (fun idx => f (removelast idx) (last idx 0)).
(** The knot vectors of an object.  igakit/nurbs.py:266-271 *)
Definition knots_of (nrb : nurbs N) : list (vec N) := map (fun A => mkVec (a_len A) (a_knots A)) (n_axes nrb).

(** A point argument as an array: size and entries.  igakit/cad.py:40-41 *)
Definition size_of (p : sarg (N:=N)) : Z := match p with Scal _ => 1 | Vect v => v_len v end.
Definition entry (p : sarg (N:=N)) (i : Z) : N := match p with Scal x => x | Vect v => v_get v i end.

(** [points[0,:p0.size] = p0]: more than three coordinates do not fit (ValueError).
    igakit/cad.py:34-46 *)
Definition line (p0 p1 : sarg (N:=N)) : res (nurbs N) :=
  if (3 <? size_of p0) || (3 <? size_of p1) then Raise ValueError
  else init junk [knots0011]
    (Some (nd_of [2] 3 (fun idx c => let p := if nth 0 idx 0 =? 0 then p0 else p1 in
                                     if c <? size_of p then entry p c else 0!))) None None.

(** igakit/cad.py:154-170 *)
Definition linear (points : option (nd N)) : res (nurbs N) :=
  let* P := match points with
            | None => Ok (nd_of [2] 2 (fun idx c => if c =? 0 then (if nth 0 idx 0 =? 0 then 0! -! 1! /! two else 1! /! two) else 0!))
            | Some P => assert (shape_eqb (removelast (nd_shape P)) [2]) ;;; Ok P
            end in
  init junk [knots0011] (Some P) None None.
(** igakit/cad.py:172-193 *)
Definition bilinear (points : option (nd N)) : res (nurbs N) :=
  let* P := match points with
            | None => Ok (nd_of [2; 2] 2 (fun idx c => if nth (Z.to_nat c) idx 0 =? 0 then 0! -! 1! /! two else 1! /! two))
            | Some P => assert (shape_eqb (removelast (nd_shape P)) [2; 2]) ;;; Ok P
            end in
  init junk [knots0011; knots0011] (Some P) None None.
(** igakit/cad.py:195-219 *)
Definition trilinear (points : option (nd N)) : res (nurbs N) :=
  let* P := match points with
            | None => Ok (nd_of [2; 2; 2] 3 (fun idx c => if nth (Z.to_nat c) idx 0 =? 0 then 0! -! 1! /! two else 1! /! two))
            | Some P => assert (shape_eqb (removelast (nd_shape P)) [2; 2; 2]) ;;; Ok P
            end in
  init junk [knots0011; knots0011; knots0011] (Some P) None None.

(** ** Circles *)
(** The nine points of the full circle, before the factors radius and wm.  igakit/cad.py:103-105 *)
Definition full_x (i : Z) : Z := nth (Z.to_nat i) [1; 1; 0; -1; -1; -1; 0; 1; 1] 0.
Definition full_y (i : Z) : Z := nth (Z.to_nat i) [0; 1; 1; 1; 0; -1; -1; -1; 0] 0.
(** igakit/cad.py:99-108 *)
Definition circle_full (radius : N) : Z -> Z -> N := fun i c =>
  let wm := nsqrt two /! two in
  let v := if c =? 0 then nofZ N (full_x i) *! radius else if c =? 1 then nofZ N (full_y i) *! radius
           else if c =? 3 then 1! else 0! in
  if Z.odd i then v *! wm else v.
(** [np.searchsorted((0, pi/2, pi, 3*pi/2), abs(sweep))]: the number of entries below.
    igakit/cad.py:121 *)
Definition arc_spans (sweep : N) : Z :=
  let s := nabs N sweep in
  let below := fun q => if q <! s then 1 else 0 in
  below 0! + below (npi /! two) + below npi + below (nofZ N 3 *! npi /! two).
(** The first segment, bisected by the x axis: [Ca].  igakit/cad.py:124-134 *)
Definition arc_first (radius alpha : N) : Z -> Z -> N := fun i c =>
  let x := radius *! ncos alpha in let y := radius *! nsin alpha in
  let wm := ncos alpha in let xm := x +! y *! ntan alpha in
  if i =? 0 then (if c =? 0 then x else if c =? 1 then 0! -! y else if c =? 3 then 1! else 0!)
  else if i =? 1 then (if c =? 0 then wm *! xm else if c =? 3 then wm else 0!)
  else (if c =? 0 then x else if c =? 1 then y else if c =? 3 then 1! else 0!).
(** The start and the end angle.  igakit/cad.py:113-118 *)
Inductive angarg := AngNone | AngEnd (a : N) | AngPair (a b : option N).
Definition ang_bounds (a : angarg) : N * N :=
  match a with
  | AngNone => (0!, two *! npi)
  | AngEnd e => (0!, e)
  | AngPair s e => (match s with Some s => s | None => 0! end, match e with Some e => e | None => two *! npi end)
  end.
(** Copying the rotated segments: rows n, n+1 from rows n-2, n-1 with n = 2i+1.
    igakit/cad.py:138-144 *)
Definition arc_rows (R1 R2 : mat) (Ca : Z -> Z -> N) (spans : Z) : Z -> Z -> N :=
  let Cw := fun i c => if i <? 3 then apply4 R1 (Ca i) c else junk2 i c in
  for_up 1 (spans - 1) (fun i Cw =>
    let n := 2 * i + 1 in
    fun j c => if j =? n then apply4 R2 (Cw (n - 2)) c else if j =? n + 1 then apply4 R2 (Cw (n - 1)) c else Cw j c) Cw.
(** igakit/cad.py:48-152.  No span (sweep 0) makes the assignment [Cw[0:3,:] = R(Ca)] fail, the
    target having one row (ValueError). *)
Definition circle (radius : N) (center : option (sarg (N:=N))) (angle : angarg) : res (nurbs N) :=
  let* sc := match angle with
             | AngNone => Ok (4, circle_full radius)
             | _ =>
                 let '(start, end_) := ang_bounds angle in
                 let sweep := end_ -! start in
                 let spans := arc_spans sweep in
                 if spans =? 0 then Raise ValueError
                 else
                   let alpha := sweep /! nofZ N (2 * spans) in
                   let* R1 := rotate nsin ncos nsqrt ident (alpha +! start) (AxNum 2) in
                   let* R2 := rotate nsin ncos nsqrt ident (two *! alpha) (AxNum 2) in
                   Ok (spans, arc_rows R1 R2 (arc_first radius alpha) spans)
             end in
  let '(spans, Cw) := sc in
  let* Cw := match center with
             | None => Ok Cw
             | Some c => let* M := translate ident c None in Ok (fun i => apply4 M (Cw i))
             end in
  let U := mkVec (2 * (spans + 1) + 2)
             (fun j => if j <=? 0 then 0! else if 2 * spans + 3 <=? j then 1!
                       else nofZ N ((j - 1) / 2) /! nofZ N spans) in
  init junk [U] (Some (nd_of [2 * spans + 1] 4 (fun idx => Cw (nth 0 idx 0)))) None None.

(** ** Grids *)
(** Scalars are repeated.  igakit/cad.py:247-256, 263-267 *)
Inductive zarg := ZScal (k : Z) | ZList (l : list Z).
Definition zexpand (dim : nat) (a : zarg) : res (list Z) :=
  match a with
  | ZScal k => Ok (repeat k dim)
  | ZList l => assert (Nat.eqb (length l) dim) ;;; Ok l
  end.
(** One pair of limits or one per axis.  igakit/cad.py:257-261 *)
Inductive limarg := LimOne (a b : N) | LimList (l : list (N * N)).
Inductive wraparg := WrapOne (w : bool) | WrapList (l : list bool).
(** igakit/cad.py:223-292.  A single integer as shape is a list of one. *)
Definition grid (shape : list Z) (degree : zarg) (continuity : option zarg) (limits : limarg) (wrap : wraparg) : res (nurbs N) :=
  let dim := length shape in
  assert ((1 <=? Z.of_nat dim) && (Z.of_nat dim <=? 3)) ;;;
  let* degree := zexpand dim degree in
  assert (forallb (fun p => 0 <? p) degree) ;;;
  let* cont := match continuity with
               | None => Ok (map (fun p => p - 1) degree)
               | Some c => zexpand dim c
               end in
  let cont := map (fun pc => if snd pc <? 0 then snd pc + fst pc else snd pc) (combine degree cont) in
  assert (forallb (fun c => 0 <=? c) cont) ;;;
  assert (forallb (fun pc => snd pc <? fst pc) (combine degree cont)) ;;;
  let* lims := match limits with
               | LimOne a b => Ok (repeat (a, b) dim)
               | LimList l => assert (Nat.eqb (length l) dim) ;;; Ok l
               end in
  let* wraps := match wrap with
                | WrapOne w => Ok (repeat w dim)
                | WrapList l => assert (Nat.eqb (length l) dim) ;;; Ok l
                end in
  let* knots := mapM (fun t => let '(E, (p, (C, ((Ui, Uf), w)))) := t in KnotVector junk E p C Ui Uf w)
                     (combine shape (combine degree (combine cont (combine lims wraps)))) in
  let* caxes := mapM (fun pU => py_Greville junk (fst pU) (snd pU)) (combine degree knots) in
  init junk knots (Some (nd_of (map (fun x => v_len x) caxes) 4 (default_control caxes))) None None.

(** ** Making objects compatible *)
(** Minimum and maximum of a nonempty array.  igakit/cad.py:318-319 *)
Definition minl (l : list N) : N := fold_left (fun m x => if x <! m then x else m) (tl l) (hd 0! l).
Definition maxl (l : list N) : N := fold_left (fun m x => if m <! x then x else m) (tl l) (hd 0! l).
Definition zmaxl (l : list Z) : Z := fold_left Z.max (tl l) (hd 0 l).
(** Axis [ax] (a valid position) of an object.  igakit/cad.py:313-317, 327-329, 344 *)
Definition axz (nrb : nurbs N) (ax : Z) : axis N := get_axis nrb (Z.to_nat ax).
(** igakit/cad.py:310-323 *)
Definition SameBounds (nrbs : list (nurbs N)) (axes : list Z) : res (list (nurbs N)) :=
  let bnds := map (fun ax => (minl (map (fun nrb => a_lo (axz nrb ax)) nrbs), maxl (map (fun nrb => a_hi (axz nrb ax)) nrbs))) axes in
  mapM (foldM (fun nrb t => let '(ax, (a, b)) := t in remap nrb ax (Some a) (Some b)) (combine axes bnds)) nrbs.
(** igakit/cad.py:325-336 *)
Definition SameDegree (nrbs : list (nurbs N)) (axes : list Z) : res (list (nurbs N)) :=
  let degmax := map (fun ax => zmaxl (map (fun nrb => a_deg (axz nrb ax)) nrbs)) axes in
  mapM (fun nrb0 => foldM (fun nrb t => let '(ax, d) := t in elevate junk junk2 nrb ax (d - a_deg (axz nrb0 ax)))
                          (combine axes degmax) nrb0) nrbs.
(** [s[mask] = np.maximum(s[mask], si)] with mask = in1d(u, ui): the selected entries are paired
    with si in order.  igakit/cad.py:351-352 *)
Fixpoint mask_max (u : list N) (s : list Z) (ui : list N) (si : list Z) : list Z :=
  match u, s with
  | x :: u', k :: s' =>
      if existsb (neqb N x) ui then Z.max k (hd 0 si) :: mask_max u' s' ui (tl si) else k :: mask_max u' s' ui si
  | _, _ => s
  end.
(** [t = s.copy(); t[mi] -= si; np.repeat(u, t)].  igakit/cad.py:355-358 *)
Fixpoint mask_insert (u : list N) (s : list Z) (ui : list N) (si : list Z) : list N :=
  match u, s with
  | x :: u', k :: s' =>
      if existsb (neqb N x) ui then repeat x (Z.to_nat (k - hd 0 si)) ++ mask_insert u' s' ui (tl si)
      else repeat x (Z.to_nat k) ++ mask_insert u' s' ui si
  | _, _ => []
  end.
(** [l[1:-1]].  igakit/cad.py:345-346 *)
Definition inner {A : Type} (l : list A) : list A := removelast (tl l).
(** The values to insert into each object along one axis.  igakit/cad.py:340-358 *)
Definition merge_values (nrbs : list (nurbs N)) (ax : Z) : res (list (list N)) :=
  let* bm := mapM (fun nrb => break_mults nrb ax) nrbs in
  let bm := map (fun us => (inner (fst us), inner (snd us))) bm in
  let u := unique (concat (map fst bm)) in
  let s := fold_left (fun s us => mask_max u s (fst us) (snd us)) bm (repeat 0 (length u)) in
  Ok (map (fun us => mask_insert u s (fst us) (snd us)) bm).
(** igakit/cad.py:338-363 *)
Definition MergeKnots (nrbs : list (nurbs N)) (axes : list Z) : res (list (nurbs N)) :=
  let* ins := mapM (merge_values nrbs) axes in
  mapM (fun t => foldM (fun nrb ax_v => refine junk nrb (fst ax_v) (snd ax_v))
                       (combine axes (map (fun l => nth (fst t) l []) ins)) (snd t))
       (combine (seq 0 (length nrbs)) nrbs).
(** igakit/cad.py:296-389.  [axes = None]: all axes.  The clones are new objects, see ModelHeap.v. *)
Definition compat (nrbs : list (nurbs N)) (axes : option (list Z)) : res (list (nurbs N)) :=
  if Nat.ltb (length nrbs) 2 then Ok nrbs
  else
    let dim := n_dim (hd (mkNurbs [] 0 (fun _ _ => 0!)) nrbs) in
    assert (forallb (fun nrb => n_dim nrb =? dim) nrbs) ;;;
    let* axes := match axes with
                 | None => Ok (zseq (Z.to_nat dim) 0)
                 | Some l => mapM (fun ax => let* a := py_axis dim ax in Ok (Z.of_nat a)) l
                 end in
    match axes with
    | [] => Ok nrbs
    | _ =>
        let* nrbs := SameBounds nrbs axes in
        let* nrbs := SameDegree nrbs axes in
        MergeKnots nrbs axes
    end.

(** ** Construction from other objects *)
(** igakit/cad.py:393-420 *)
Definition extrude (nrb : nurbs N) (displ : sarg (N:=N)) (axis : option Z) : res (nurbs N) :=
  assert (n_dim nrb <=? 2) ;;;
  let* M := translate ident displ axis in
  init junk (knots_of nrb ++ [knots0011])
    (Some (nd_of (n_shape nrb ++ [2]) 4
       (fun idx c => let i := removelast idx in
                     if last idx 0 =? 0 then n_arr nrb i c else apply4 M (n_arr nrb i) c))) None None.

(** The axis argument as a unit vector.  igakit/cad.py:445-461 *)
Definition revolve_axis (axis : axarg (N:=N)) : res (Z -> N) :=
  match axis with
  | AxNum k => let* a := py_axis 3 k in Ok (fun i => if i =? Z.of_nat a then 1! else 0!)
  | AxVec v =>
      assert ((1 <=? v_len v) && (v_len v <=? 3)) ;;;
      let u := pad3 v in
      assert (0! <! norm3 nsqrt u) ;;;
      Ok (fun i => u i /! norm3 nsqrt u)
  end.
(** [-point].  igakit/cad.py:466 *)
Definition neg_arg (p : sarg (N:=N)) : sarg :=
  match p with Scal x => Scal (0! -! x) | Vect v => Vect (mkVec (v_len v) (fun i => 0! -! v_get v i)) end.
(** The angle of a point about the z axis.  igakit/cad.py:475 *)
Definition theta_of (X Y : N) : N := let t := natan2 Y X in if t <! 0! then t +! two *! npi else t.
(** One row of [dot(Aw, M.T)] and the factor of the weight: arc point A, generator point P.
    igakit/cad.py:487-504 *)
Definition revolve_pt (P A : Z -> N) : Z -> N := fun c =>
  let r := nhypot (P 0) (P 1) in let th := theta_of (P 0) (P 1) in
  let rs := r *! nsin th in let rc := r *! ncos th in
  let M := fun i j => if i =? 0 then (if j =? 0 then rc else if j =? 1 then 0! -! rs else 0!)
                      else if i =? 1 then (if j =? 0 then rs else if j =? 1 then rc else 0!)
                      else if i =? 2 then (if j =? 3 then P 2 else 0!)
                      else (if j =? 3 then 1! else 0!) in
  let v := apply4 M A c in
  if c =? 3 then v *! P 3 else v.
(** igakit/cad.py:422-504 *)
Definition revolve (nrb : nurbs N) (point : sarg (N:=N)) (axis : axarg (N:=N)) (angle : angarg) : res (nurbs N) :=
  assert (n_dim nrb <=? 2) ;;;
  assert (size_of point <=? 3) ;;;
  let* v := revolve_axis axis in
  let nv := mkVec (N:=N) 3 (fun i => if i =? 0 then v 1 else if i =? 1 then 0! -! v 0 else 0!) in
  let* M := translate ident (neg_arg point) None in
  let* M := rotate nsin ncos nsqrt M (nacos (v 2)) (AxVec nv) in
  let nrb := transform nrb M in
  let* arc := circle 1! None angle in
  let* srf := init junk (knots_of nrb ++ knots_of arc)
    (Some (nd_of (n_shape nrb ++ n_shape arc) 4
       (fun idx => revolve_pt (n_arr nrb (removelast idx)) (n_arr arc [last idx 0])))) None None in
  let* Mi := invert M in
  Ok (transform srf Mi).

(** igakit/cad.py:506-524 *)
Definition ruled (nrb1 nrb2 : nurbs N) : res (nurbs N) :=
  assert (n_dim nrb1 =? n_dim nrb2) ;;; assert (n_dim nrb1 <=? 2) ;;; assert (n_dim nrb2 <=? 2) ;;;
  let* l := compat [nrb1; nrb2] None in
  match l with
  | [nrb1; nrb2] =>
      if shape_eqb (n_shape nrb2) (n_shape nrb1) then
        init junk (knots_of nrb1 ++ [knots0011])
          (Some (nd_of (n_shape nrb1 ++ [2]) 4
             (fun idx => n_arr (if last idx 0 =? 0 then nrb1 else nrb2) (removelast idx)))) None None
      else Raise ValueError (* the assignment of nrb2.control does not fit *)
  | _ => Raise ValueError
  end.

(** igakit/cad.py:526-551 *)
Definition sweep (section trajectory : nurbs N) : res (nurbs N) :=
  assert ((1 <=? n_dim section) && (n_dim section <=? 2)) ;;;
  assert (n_dim trajectory =? 1) ;;;
  init junk (knots_of section ++ knots_of trajectory)
    (Some (nd_of (n_shape section ++ n_shape trajectory) 3
       (fun idx c => n_points section (removelast idx) c +! n_points trajectory [last idx 0] c)))
    None
    (Some (mkNd (n_shape section ++ n_shape trajectory)
       (fun idx => n_weights section (removelast idx) *! n_weights trajectory [last idx 0]))).

(** The point of a curve at a parameter.  igakit/cad.py:574-587 *)
Definition at1 (crv : nurbs N) (u : N) : res (Z -> N) :=
  let* r := call junk junk2 junk3 junkS crv [Some (mkVec (N:=N) 1 (fun _ => u))] FNo in
  Ok (fun c => fst r [0] c).
(** [np.allclose(P, Q, rtol=0, atol=1e-15)] on the four corners.  igakit/cad.py:589 *)
Definition close3 (P Q : Z -> N) : bool :=
  forallb (fun c => nabs N (P c -! Q c) <=! nofZ N 1 /! nofZ N 1000000000000000) [0; 1; 2].
(** igakit/cad.py:553-596 *)
Definition coons (C00 C01 C10 C11 : nurbs N) : res (nurbs N) :=
  assert ((n_dim C00 =? 1) && (n_dim C01 =? 1)) ;;; assert ((n_dim C10 =? 1) && (n_dim C11 =? 1)) ;;;
  let* l0 := compat [C00; C01] None in
  let* l1 := compat [C10; C11] None in
  match l0, l1 with
  | [C00; C01], [C10; C11] =>
      let A := get_axis C10 0 in
      let u0 := a_lo A in let u1 := a_hi A in
      let* P00 := at1 C10 u0 in let* P10 := at1 C10 u1 in
      let* P01 := at1 C11 u0 in let* P11 := at1 C11 u1 in
      let B := get_axis C00 0 in
      let v0 := a_lo B in let v1 := a_hi B in
      let* Q00 := at1 C00 v0 in let* Q01 := at1 C00 v1 in
      let* Q10 := at1 C01 v0 in let* Q11 := at1 C01 v1 in
      assert (close3 P00 Q00 && close3 P01 Q01 && close3 P10 Q10 && close3 P11 Q11) ;;;
      let* R0 := ruled C00 C01 in
      let* R0 := transpose R0 None in
      let* R1 := ruled C10 C11 in
      let* B := bilinear (Some (nd_of [2; 2] 3 (fun idx => if nth 0 idx 0 =? 0 then (if nth 1 idx 0 =? 0 then P00 else P01)
                                                            else (if nth 1 idx 0 =? 0 then P10 else P11)))) in
      let* l := compat [R0; R1; B] None in
      match l with
      | [R0; R1; B] =>
          if shape_eqb (n_shape R0) (n_shape B) && shape_eqb (n_shape R1) (n_shape B) then
            init junk (knots_of B)
              (Some (nd_of (n_shape B) 4 (fun idx c => n_arr R0 idx c +! n_arr R1 idx c -! n_arr B idx c))) None None
          else Raise ValueError
      | _ => Raise ValueError
      end
  | _, _ => Raise ValueError
  end.

(** ** Joining *)
(** The default deviation of remove: 1.0e-9 (taken as the decimal).  igakit/nurbs.py:797 *)
Definition default_deviation : N := nofZ N 1 /! nofZ N 1000000000.
(** The object put together from the two pieces before knots are removed; all axes but [a] must
    have equal sizes and the arrays as many components.  igakit/cad.py:637-673 *)
Definition glue (nrb1 nrb2 : nurbs N) (a : nat) (p : Z) (u : N) : res (nurbs N) :=
  if shape_eqb (lrem a (n_shape nrb1)) (lrem a (n_shape nrb2)) && (n_comp nrb1 =? n_comp nrb2) then
    let A1 := get_axis nrb1 a in let A2 := get_axis nrb2 a in
    let n1 := a_size A1 in
    let arr := fun idx c => let i := nth a idx 0 in
      if i <? n1 - 1 then n_arr nrb1 idx c
      else if i =? n1 - 1 then (n_arr nrb1 (lset a (n1 - 1) idx) c +! n_arr nrb2 (lset a 0 idx) c) /! two
      else n_arr nrb2 (lset a (i - n1 + 1) idx) c in
    let l1 := a_len A1 - p - 1 in
    let U := fun j => if j <? l1 then a_knots A1 j else if j <? l1 + p then u else a_knots A2 (j - l1 - p + (p + 1)) in
    Ok (mkNurbs (lset a (mkAxis (n1 + a_size A2 - 1) (l1 + p + (a_len A2 - p - 1)) U) (n_axes nrb1)) (n_comp nrb1) arr)
  else Raise ValueError.
(** igakit/cad.py:600-675 *)
Definition join (nrb1 nrb2 : nurbs N) (axis : Z) : res (nurbs N) :=
  let dim := n_dim nrb1 in
  assert (dim =? n_dim nrb2) ;;; assert ((0 <=? axis) && (axis <? dim)) ;;;
  let a := Z.to_nat axis in
  let* l := compat [nrb1; nrb2] (Some (lrem a (zseq (Z.to_nat dim) 0))) in
  match l with
  | [nrb1; nrb2] =>
      let* nrb1 := clamp junk nrb1 axis (Some 1) in
      let* nrb2 := clamp junk nrb2 axis (Some 0) in
      let A1 := get_axis nrb1 a in let A2 := get_axis nrb2 a in
      let p1 := a_deg A1 in let p2 := a_deg A2 in
      let u := a_hi A1 in
      let* nrb2 := remap nrb2 axis (Some (a_lo A2 +! u)) (Some (a_hi A2 +! u)) in
      let p := Z.max p1 p2 in
      let* nrb1 := elevate junk junk2 nrb1 axis (p - p1) in
      let* nrb2 := elevate junk junk2 nrb2 axis (p - p2) in
      let* nrb := glue nrb1 nrb2 a p u in
      remove nsqrt junk2 nrb axis u (Some (p - 1)) default_deviation
  | _ => Raise ValueError
  end.

(** ** Refinement of all axes *)
(** The number of pieces of each span: one number for all spans or a list.  igakit/cad.py:720-723 *)
Inductive fact := FacAll (n : Z) | FacList (l : list Z).
(** Values of the arguments, None being replaced by the default.  A scalar argument stands for
    the list of dim copies.  igakit/cad.py:691-702 *)
Definition arg_list {A : Type} (arg : option (list (option A))) (dflt : list A) : res (list A) :=
  match arg with
  | None => Ok dflt
  | Some l => assert (Nat.eqb (length l) (length dflt)) ;;;
              Ok (map (fun t => match fst t with Some x => x | None => snd t end) (combine l dflt))
  end.
(** The values inserted in the spans starting at u0, u1, ...: in a span of length d cut into n
    pieces u + k*(d/n), k = 0..n-1; the first (p-C-s) times if positive, the others p-C times.
    Both branches of the source compute this.  igakit/cad.py:740-764 *)
Fixpoint refine_values (p C : Z) (u : list N) (s Ns : list Z) : list (N * Z) :=
  match u, s, Ns with
  | u0 :: ((u1 :: _) as u'), s0 :: s', n :: Ns' =>
      let d := (u1 -! u0) /! nofZ N n in
      (u0, Z.max (p - C - s0) 0) :: map (fun k => (u0 +! d *! nofZ N k, p - C)) (zseq (Z.to_nat (n - 1)) 1) ++ refine_values p C u' s' Ns'
  | _, _, _ => []
  end.
Definition pos_fact (f : fact) : bool := match f with FacAll n => 0 <? n | FacList l => forallb (fun n => 0 <? n) l end.
(** igakit/cad.py:679-766 *)
Definition cad_refine (nrb : nurbs N) (factor : option (list (option fact))) (degree continuity : option (list (option Z))) : res (nurbs N) :=
  let axes := zseq (length (n_axes nrb)) 0 in
  let* nrb := foldM (fun nrb ax => clamp junk nrb ax None) axes nrb in
  let* degree := arg_list degree (map (fun ax => a_deg (axz nrb ax)) axes) in
  assert (forallb (fun p => 0 <? p) degree) ;;;
  let* nrb := foldM (fun nrb t => let '(ax, p) := t in
                 let k := p - a_deg (axz nrb ax) in
                 if 0 <? k then elevate junk junk2 nrb ax k else Ok nrb) (combine axes degree) nrb in
  let degree := map (fun ax => a_deg (axz nrb ax)) axes in
  let* factor := arg_list factor (map (fun _ => FacAll 1) axes) in
  assert (forallb pos_fact factor) ;;;
  let* cont := arg_list continuity (map (fun _ => -1) axes) in
  let cont := map (fun pc => if snd pc <? 0 then snd pc + fst pc else snd pc) (combine degree cont) in
  assert (forallb (fun c => 0 <=? c) cont) ;;;
  assert (forallb (fun pc => snd pc <? fst pc) (combine degree cont)) ;;;
  foldM (fun nrb t => let '(ax, (f, C)) := t in
    let p := a_deg (axz nrb ax) in
    let* us := break_mults nrb ax in
    let '(u, s) := us in
    let* Ns := match f with
               | FacAll n => Ok (repeat n (length u - 1))
               | FacList l => assert (Nat.eqb (length l) (length u - 1)) ;;; Ok l
               end in
    refine junk nrb ax (concat (map (fun x => repeat (fst x) (Z.to_nat (snd x))) (tl (refine_values p C u s Ns)))))
    (combine axes (combine factor cont)) nrb.
End Model.
