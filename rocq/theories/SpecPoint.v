(** Vocabulary for statements that hold for every arithmetic, bit for bit. *)
From Coq Require Import ZArith List Reals.
From Verif Require Import Num ModelNurbs ModelFloat SpecDouble.
Import ListNotations.
Local Open Scope Z_scope.

(** [picks xs idx us]: us are the entries of the parameter arrays xs at the positions idx (all within range). *)
Inductive picks {N : Num} : list (vec N) -> list Z -> list N -> Prop :=
| picks_nil : picks [] [] []
| picks_cons x i xs idx us : 0 <= i < v_len x -> picks xs idx us -> picks (x :: xs) (i :: idx) (v_get x i :: us).
(** The parameters at the positions idx as arrays of length one. *)
Definition singles {N : Num} (us : list N) : list (vec N) := map (fun u => mkVec 1 (fun _ => u)) us.
(** The same arrays of values where the entries are read; values of the two results at corresponding positions. *)
Definition same_at {N : Num} (C C' : list Z -> Z -> N) (idx idx' : list Z) : Prop := forall c, C idx c = C' idx' c.
Definition same_fields {N : Num} (F F' : option (list Z -> Z -> N)) (idx idx' : list Z) : Prop :=
  match F, F' with None, None => True | Some f, Some f' => same_at f f' idx idx' | _, _ => False end.

(** The control points whose basis functions do not vanish identically next to (right of) the parameters us, in
    doubles: [U_i <= u < U_(i+p+1)] on every axis, or u is the right end of the domain. *)
Local Open Scope R_scope.
Inductive near_support : list (axis Dn) -> list Dn -> list Z -> Prop :=
| ns_nil : near_support [] [] []
| ns_cons (A : axis Dn) (u : Dn) i axs us idx : (0 <= i < a_size A)%Z -> dval (a_knots A i) <= dval u -> (dval u < dval (a_knots A (i + a_deg A + 1)%Z) \/ dval u = dval (a_knots A (a_size A))) ->
    near_support axs us idx -> near_support (A :: axs) (u :: us) (i :: idx).
