(** Small specification for plots: grids of points, their edges and faces, equally spaced values. *)
From Coq Require Import ZArith Reals List Sorted.
From Verif Require Import Num ModelNurbs ModelPlot Spec SpecNurbs SpecIo ProofCall.
Import ListNotations.
Local Open Scope Z_scope.

(** Two index lists that differ by one in one place. *)
Definition next_to (i j : list Z) : Prop := exists p d s, i = p ++ d :: s /\ j = p ++ (d + 1) :: s.
Definition adjacent (i j : list Z) : Prop := next_to i j \/ next_to j i.
(** [p] and [q] are neighbouring points of the grid formed by three arrays. *)
Definition joined {N : Num} (t : xyz N) (p q : N * N * N) : Prop :=
  exists i j, in_shape (shape3 t) i /\ in_shape (shape3 t) j /\ adjacent i j /\ p = at3 t i /\ q = at3 t j.
(** Four different points of the grid, each a neighbour of the next: the corners of a face. *)
Definition square {N : Num} (t : xyz N) (p q r s : N * N * N) : Prop :=
  exists i j k l, in_shape (shape3 t) i /\ in_shape (shape3 t) j /\ in_shape (shape3 t) k /\ in_shape (shape3 t) l /\
    adjacent i j /\ adjacent j k /\ adjacent k l /\ adjacent l i /\ i <> k /\ j <> l /\
    p = at3 t i /\ q = at3 t j /\ r = at3 t k /\ s = at3 t l.
(** Three arrays of equal shape, with one to three axes, and at least two points along each. *)
Definition proper_grid {N : Num} (t : xyz N) : Prop :=
  (exists x y z, t = (x, y, z) /\ nd_shape y = nd_shape x /\ nd_shape z = nd_shape x) /\
  (1 <= length (shape3 t) <= 3)%nat /\ Forall (fun s => 2 <= s) (shape3 t).
Definition consecutive {A : Type} (l : list A) (p q : A) : Prop := exists l1 l2, l = l1 ++ p :: q :: l2.
(** Two points joined by one of the polylines. *)
Definition drawn {N : Num} (ls : list (list (N * N * N))) (p q : N * N * N) : Prop := exists l, In l ls /\ consecutive l p q.
(** Two points joined by one of the lines, which are pairs of numbers of points. *)
Definition segment {N : Num} (P : list (N * N * N)) (L : list (Z * Z)) (p q : N * N * N) : Prop :=
  exists a b, In (a, b) L /\ 0 <= a /\ 0 <= b /\ nth_error P (Z.to_nat a) = Some p /\ nth_error P (Z.to_nat b) = Some q.
(** The points with the numbers [f]. *)
Definition corners {N : Num} (P : list (N * N * N)) (f : list Z) (ps : list (N * N * N)) : Prop :=
  Forall2 (fun a p => 0 <= a /\ nth_error P (Z.to_nat a) = Some p) f ps.

(** The k-th of n equally spaced numbers from a to b. *)
Definition spaced (a b : R) (n k : Z) : R := (a + IZR k * (b - a) / IZR (n - 1))%R.
(** Ends of the domain of an axis. *)
Definition left_end (a : axR) : R := x_U a (x_p a).
Definition right_end (a : axR) : R := x_U a (x_n a + 1).
(** Equally spaced parameters along all axes. *)
Fixpoint spaced_at (axs : list axR) (n : Z) (idx : list Z) : list R :=
  match axs, idx with a :: axs', i :: idx' => spaced (left_end a) (right_end a) n i :: spaced_at axs' n idx' | _, _ => [] end.
(** Three arrays of the given shape that hold the points of the object at the given parameters. *)
Definition shows (t : xyz Rn) (sh : list Z) (nrb : nurbs Rn) (f : list Z -> list R) : Prop :=
  let '(x, y, z) := t in nd_shape x = sh /\ nd_shape y = sh /\ nd_shape z = sh /\
  forall idx, in_shape sh idx -> nd_get x idx = pt nrb 0 (f idx) /\ nd_get y idx = pt nrb 1 (f idx) /\ nd_get z idx = pt nrb 2 (f idx).
(** A value at which an object can be cut (C15): no knot closer than the tolerance of the code except
    equal ones, and at the right end the multiplicity is 1 or at least the degree. *)
Definition can_cut (a : axR) (u : R) : Prop :=
  let m := (x_n a + x_p a + 1)%Z in separated (x_U a) 0 m u /\
  ((u < right_end a)%R \/ multiplicity (x_U a) 0 m u = 1%Z \/ (x_p a <= multiplicity (x_U a) 0 m u)%Z).
(** Left end for side 0, right end for side 1. *)
Definition side_end (A : axR) (s : Z) : R := if (s =? 0)%Z then left_end A else right_end A.
(** Both ends of every axis can be cut. *)
Definition all_ends (nrb : nurbs Rn) : Prop := Forall (fun A => can_cut A (left_end A) /\ can_cut A (right_end A)) (spec_axes nrb).
(** Knots in the domain, and the increasing list of them. *)
Definition break_of (a : axR) (u : R) : Prop := exists i, x_p a <= i <= x_n a + 1 /\ x_U a i = u.
Definition breaks_of (a : axR) (us : list R) : Prop := StronglySorted Rlt us /\ forall u, In u us <-> break_of a u.
(** One element of every list. *)
Fixpoint pick (uss : list (list R)) (idx : list Z) : list R :=
  match uss, idx with us :: uss', i :: idx' => nth (Z.to_nat i) us 0%R :: pick uss' idx' | _, _ => [] end.
(** [z] is axis [a] of [d], counted from the front or from the end. *)
Definition names_axis (d : nat) (z : Z) (a : nat) : Prop := (a < d)%nat /\ (z = Z.of_nat a \/ z = Z.of_nat a - Z.of_nat d).
(** The line along axis [a] where the other parameters are [us], at n equally spaced parameters. *)
Definition isoline (t : xyz Rn) (nrb : nurbs Rn) (n : Z) (a : nat) (us : list R) : Prop :=
  let A := nth a (spec_axes nrb) (spec_ax axis0) in
  shows t [n] nrb (fun l => lins a (spaced (left_end A) (right_end A) n (hd 0 l)) us).
(** The surface where parameter [a] is [u], at n equally spaced values of every other parameter. *)
Definition isosurface (t : xyz Rn) (nrb : nurbs Rn) (n : Z) (a : nat) (u : R) : Prop :=
  shows t (repeat n (pred (length (n_axes nrb)))) nrb (fun l => lins a u (spaced_at (lrem a (spec_axes nrb)) n (rev l))).
(** A control point, and neighbouring control points. *)
Definition net_point {N : Num} (nrb : nurbs N) (i : list Z) : N * N * N :=
  let x := fun c => ndiv N (n_arr nrb i c) (n_arr nrb i 3) in (x 0, x 1, x 2).
Definition net_joined {N : Num} (nrb : nurbs N) (p q : N * N * N) : Prop :=
  exists i j, in_shape (map a_size (n_axes nrb)) i /\ in_shape (map a_size (n_axes nrb)) j /\ adjacent i j /\ p = net_point nrb i /\ q = net_point nrb j.
(** Three arrays of the given shape with the given points. *)
Definition holds_points {N : Num} (t : xyz N) (sh : list Z) (f : list Z -> N * N * N) : Prop :=
  let '(x, y, z) := t in nd_shape x = sh /\ nd_shape y = sh /\ nd_shape z = sh /\ forall idx, in_shape sh idx -> at3 t idx = f idx.
(** A point given by its first [d] coordinates. *)
Definition padded {N : Num} (d : Z) (f : Z -> N) : N * N * N :=
  let g := fun c => if c <? d then f c else n0 N in (g 0, g 1, g 2).
