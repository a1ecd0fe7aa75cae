(** Vocabulary for sharing: the arrays of an object, what a call may change. *)
From Coq Require Import ZArith List Bool.
From Verif Require Import Num ModelNurbs ModelRemove ModelDer ModelIo ModelHeap SpecIo.
Import ListNotations.
Local Open Scope Z_scope.

Section Spec.
Context {N : Num}.
(** The arrays of an object: the control array and the knot vectors. *)
Definition arrays (s : store N) (o : Z) : list Z := fst (s_obj s o) :: snd (s_obj s o).
(** An array, an object that exists; the object has one knot vector per axis. *)
Definition exists_array (s : store N) (l : Z) : Prop := 0 <= l < s_next s.
Definition sound (s : store N) (o : Z) : Prop :=
  0 <= o < s_nobj s /\ Forall (exists_array s) (arrays s o) /\ length (nd_shape (s_arr s (fst (s_obj s o)))) = S (length (snd (s_obj s o))).
(** The object a call is allowed to change. *)
Definition self (p : op N) : option Z :=
  match p with
  | OpTransform o _ | OpTranspose o _ | OpSwap o _ _ | OpReverse o _ | OpRemap o _ _ _ | OpInsert o _ _ _ | OpRemove o _ _ _ _
  | OpClamp o _ _ | OpUnclamp o _ _ _ | OpRefine o _ _ | OpElevate o _ _ => Some o
  | _ => None
  end.
(** The arrays a call is allowed to write: the argument of refine, and the target of a write. *)
Definition written (p : op N) : list Z :=
  match p with OpRefine _ _ (ARef l true) => [l] | OpWrite l _ => [l] | _ => [] end.
(** The contents of an argument, and an argument that exists. *)
Definition contents (s : store N) (x : arg N) : nd N := match x with ARef l _ => s_arr s l | AVal a => a end.
Definition arg_ok (s : store N) (x : arg N) : Prop := match x with ARef l _ => exists_array s l | AVal _ => True end.
Definition opt_ok (s : store N) (x : option (arg N)) : Prop := match x with Some x => arg_ok s x | None => True end.
(** The same object to an observer: sizes, knots, components and entries. *)
Definition same_object (r r' : nurbs N) : Prop :=
  same_axes r r' /\ n_comp r = n_comp r' /\ forall idx c, in_shape (n_shape r) idx -> 0 <= c < n_comp r -> n_arr r idx c = n_arr r' idx c.
(** A method on [o] does to the object what [f] says, and raises what [f] raises. *)
Definition does {A : Type} (m : H A) (s : store N) (o : Z) (f : nurbs N -> res (nurbs N)) : Prop :=
  match f (value s o) with
  | Ok r => exists s' x, m s = (s', Ok x) /\ sound s' o /\ same_object (value s' o) r
  | Raise e => exists s', m s = (s', Raise e)
  end.
(** A call returns a new object with the value given by [f]. *)
Definition makes (m : H Z) (s : store N) (f : res (nurbs N)) : Prop :=
  match f with
  | Ok r => exists s' o', m s = (s', Ok o') /\ s_nobj s <= o' /\ sound s' o' /\ same_object (value s' o') r
  | Raise e => exists s', m s = (s', Raise e)
  end.
End Spec.
