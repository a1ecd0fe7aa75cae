(** Specification of derivatives, independent of the model of the code.

    What igakit/igalib.f90:75-135 (DersBasisFuns), 893-944 (Rationalize), 1360-2162 (Gradient1
    to FourthDer3) and igakit/nurbs.py:1512-1717 are meant to compute.  Derivatives are those
    of the standard library ([derivable_pt_lim]). *)
From Coq Require Import ZArith Reals List Lia Lra.
From Verif Require Import Spec SpecNurbs.
Import ListNotations.
Local Open Scope R_scope.

(** [g] is the m-th derivative of [f] on the whole line. *)
Fixpoint nth_deriv (m : nat) (f g : R -> R) : Prop :=
  match m with
  | O => forall x, f x = g x
  | S m' => exists h, (forall x, derivable_pt_lim f x (h x)) /\ nth_deriv m' h g
  end.

(** Replace the k-th coordinate of a point. *)
Fixpoint put (k : nat) (t : R) (x : list R) : list R :=
  match k, x with
  | _, [] => []
  | O, _ :: x' => t :: x'
  | S k', y :: x' => y :: put k' t x'
  end.

(** [l] is the partial derivative of [f] at [x] in direction [k]. *)
Definition partial (k : nat) (f : list R -> R) (x : list R) (l : R) : Prop :=
  derivable_pt_lim (fun t => f (put k t x)) (nth k x 0) l.

(** [g] is, on [dom], the mixed partial derivative of [f] in the directions [D], differentiating
    in the direction at the head of the list first. *)
Fixpoint partials (dom : list R -> Prop) (D : list nat) (f g : list R -> R) : Prop :=
  match D with
  | [] => forall x, dom x -> f x = g x
  | k :: D' => exists h, (forall x, dom x -> partial k f x (h x)) /\ partials dom D' h g
  end.

(** ** Values and derivatives of rational objects *)

(** Field with control values [F] and weights [w]: quotient of two tensor-product splines. *)
Definition rat (axs : list axR) (w F : list Z -> R) (x : list R) : R :=
  tsum axs (fun i => w i * F i) x / tsum axs w x.

(** The nonempty knot span [s] contains [u]: half-open to the right, closed at the right end of
    the domain. *)
Definition span_of (a : axR) (u : R) (s : Z) : Prop :=
  (x_p a <= s <= x_n a)%Z /\ x_U a s < x_U a (s + 1)%Z /\
  x_U a s <= u <= x_U a (s + 1)%Z /\ (u = x_U a (s + 1)%Z -> u = x_U a (x_n a + 1)%Z).
(** Two points in the same knot spans / strictly inside the same knot spans. *)
Fixpoint same_span (axs : list axR) (x y : list R) : Prop :=
  match axs, x, y with
  | a :: axs', u :: x', v :: y' => (exists s, span_of a u s /\ span_of a v s) /\ same_span axs' x' y'
  | [], [], [] => True
  | _, _, _ => False
  end.
Fixpoint inside (axs : list axR) (x y : list R) : Prop :=
  match axs, x, y with
  | a :: axs', u :: x', v :: y' =>
      (exists s, (x_p a <= s <= x_n a)%Z /\ x_U a s < u < x_U a (s + 1)%Z /\ x_U a s < v < x_U a (s + 1)%Z) /\ inside axs' x' y'
  | [], [], [] => True
  | _, _, _ => False
  end.

(** [v] is the mixed partial derivative, at [x], of the restriction of [f] to the knot spans
    containing [x]: some function agreeing with [f] there has [v] as its derivative.  [W] is the
    denominator of [f]; only points where it does not vanish count. *)
Definition der_at (axs : list axR) (f W : list R -> R) (x : list R) (D : list nat) (v : R) : Prop :=
  exists h g, (forall y, same_span axs x y -> h y = f y) /\
              partials (fun y => same_span axs x y /\ W y <> 0) D h g /\ v = g x.
(** The same for a point strictly inside its knot spans: derivative of [f] itself. *)
Definition der_in (axs : list axR) (f W : list R -> R) (x : list R) (D : list nat) (v : R) : Prop :=
  exists g, partials (fun y => inside axs x y /\ W y <> 0) D f g /\ v = g x.

(** Determinant of the matrix [J i j], indices from 0, dimensions 1 to 3 (rule of Sarrus). *)
Definition det (dim : nat) (J : Z -> Z -> R) : R :=
  match dim with
  | 1%nat => J 0%Z 0%Z
  | 2%nat => J 0%Z 0%Z * J 1%Z 1%Z - J 0%Z 1%Z * J 1%Z 0%Z
  | 3%nat => J 0%Z 0%Z * J 1%Z 1%Z * J 2%Z 2%Z + J 0%Z 1%Z * J 1%Z 2%Z * J 2%Z 0%Z + J 0%Z 2%Z * J 1%Z 0%Z * J 2%Z 1%Z
           - J 0%Z 2%Z * J 1%Z 1%Z * J 2%Z 0%Z - J 0%Z 1%Z * J 1%Z 0%Z * J 2%Z 2%Z - J 0%Z 0%Z * J 1%Z 2%Z * J 2%Z 1%Z
  | _ => 0
  end.

(** The same for a (not rational) tensor-product spline. *)
Definition spl_in (axs : list axR) (P : list Z -> R) (x : list R) (D : list nat) (v : R) : Prop :=
  exists g, partials (inside axs x) D (tsum axs P) g /\ v = g x.
