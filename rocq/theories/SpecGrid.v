(** Vocabulary for cad.grid: what its arguments ask for along each axis. *)
From Coq Require Import ZArith Reals List.
From Verif Require Import Num ModelNurbs ModelCad.
Import ListNotations.
Local Open Scope R_scope.

(** Spans, degree, continuity, limits, wrapping. *)
Record gax := mkGax { g_E : Z; g_p : Z; g_C : Z; g_lo : R; g_hi : R; g_wrap : bool }.
Definition gax_ok (g : gax) : Prop := (1 <= g_E g)%Z /\ (1 <= g_p g)%Z /\ (0 <= g_C g < g_p g)%Z /\ g_lo g < g_hi g.
(** A number given for the continuity: negative numbers count from the degree. *)
Definition cont_is (c : Z) (g : gax) : Prop := g_C g = if (c <? 0)%Z then (c + g_p g)%Z else c.
(** The arguments of cad.grid ask for the axes [gs]: single values hold for all axes, no
    continuity means degree-1. *)
Definition grid_asks (shape : list Z) (degree : zarg) (continuity : option zarg) (limits : limarg (N:=Rn)) (wrap : wraparg) (gs : list gax) : Prop :=
  map g_E gs = shape /\
  match degree with ZScal p => Forall (fun g => g_p g = p) gs | ZList l => map g_p gs = l end /\
  match continuity with
  | None => Forall (fun g => g_C g = g_p g - 1)%Z gs
  | Some (ZScal c) => Forall (cont_is c) gs
  | Some (ZList l) => Forall2 cont_is l gs
  end /\
  match limits with LimOne a b => Forall (fun g => g_lo g = a /\ g_hi g = b) gs | LimList l => map (fun g => (g_lo g, g_hi g)) gs = l end /\
  match wrap with WrapOne w => Forall (fun g => g_wrap g = w) gs | WrapList l => map g_wrap gs = l end.
(** The axis has the degree asked for, E equal spans from lo to hi, and the p-C copies of each
    interior knot; the end knots are repeated p+1 times, or continue periodically if wrapped. *)
Definition uniform_axis (g : gax) (A : axis Rn) : Prop :=
  let E := g_E g in let p := g_p g in let C := g_C g in let U := a_knots A in let k := (p - C)%Z in
  let knot := fun e => g_lo g + IZR e / IZR E * (g_hi g - g_lo g) in
  a_deg A = p /\ a_lo A = g_lo g /\ a_hi A = g_hi g /\ a_len A = (2 * (p + 1) + (E - 1) * k)%Z /\
  (forall i j, (0 <= i <= j)%Z -> (j < a_len A)%Z -> U i <= U j) /\
  (forall i e, (0 <= i < a_len A)%Z -> (1 <= e <= E - 1)%Z -> (U i = knot e <-> (p + 1 + (e - 1) * k <= i <= p + e * k)%Z)) /\
  if g_wrap g then forall i, (0 <= i)%Z -> (i + E * k < a_len A)%Z -> U (i + E * k)%Z = U i + (g_hi g - g_lo g)
  else forall i, (0 <= i < a_len A)%Z -> (U i = g_lo g <-> (i <= p)%Z) /\ (U i = g_hi g <-> (a_len A - 1 - p <= i)%Z).
