(** Specification for statements about the shape of an object and of its control net, independent of
    the model: sums over the net, and crossing a plane. *)
From Coq Require Import ZArith Reals List Lia Lra.
From Verif Require Import Spec SpecNurbs.
Import ListNotations.
Local Open Scope R_scope.

(** Sum over all indices of the net. *)
Fixpoint nsum (axs : list axR) (f : list Z -> R) : R :=
  match axs with
  | a :: axs' => sumZ 0 (x_n a) (fun i => nsum axs' (fun idx => f (i :: idx)))
  | [] => f []
  end.
(** Control point idx has influence at the parameters us: every parameter is in the closed interval of
    p+2 knots that belongs to the index. *)
Fixpoint near (axs : list axR) (idx : list Z) (us : list R) : Prop :=
  match axs, idx, us with
  | a :: axs', i :: idx', u :: us' => x_U a i <= u <= x_U a (i + x_p a + 1)%Z /\ near axs' idx' us'
  | _, _, _ => True
  end.
(** L are the coefficients of a convex combination of control points near us. *)
Definition convex_near (axs : list axR) (us : list R) (L : list Z -> R) : Prop :=
  (forall idx, in_net axs idx -> 0 <= L idx) /\
  (forall idx, in_net axs idx -> L idx <> 0 -> near axs idx us) /\
  nsum axs L = 1.

(** Positions s 0 < s 1 < ... < s k among lo..hi. *)
Definition chosen (k : nat) (lo hi : Z) (s : nat -> Z) : Prop :=
  (forall j, (j <= k)%nat -> (lo <= s j <= hi)%Z) /\ (forall j, (j < k)%nat -> (s j < s (S j))%Z).
(** The values at the chosen positions have alternating signs: between the first and the last of them
    the sequence crosses zero at least k times. *)
Definition alternate (k : nat) (f : Z -> R) (s : nat -> Z) : Prop := forall j, (j < k)%nat -> f (s j) * f (s (S j)) < 0.
(** Position of a point relative to a plane. *)
Definition side (a b c d x y z : R) : R := a * x + b * y + c * z + d.
