(** Vocabulary for cad.refine: what its arguments ask for along each axis. *)
From Coq Require Import ZArith Reals List Sorting.Sorted.
From Verif Require Import Num ModelNurbs ModelCad Spec SpecElev SpecJoin BLink.
Import ListNotations.
Local Open Scope R_scope.

(** The distinct knots of the domain. *)
Definition axis_breaks (A : axis Rn) (u : list R) : Prop :=
  StronglySorted Rlt u /\ forall x, In x u <-> exists i, (a_deg A <= i <= a_size A)%Z /\ a_knots A i = x.
(** The degree and continuity wanted, the breaks of the axis and the number of pieces into
    which each span between consecutive breaks is to be cut. *)
Record rax := mkRax { r_deg : Z; r_cont : Z; r_breaks : list R; r_pieces : list Z }.
Definition rax0 : rax := mkRax 0 0 [] [].
(** Conditions on the axis: distinct knots more than machine epsilon apart, also after the cuts;
    interior multiplicities at most the degree; the degree can be raised (SpecElev.v). *)
Definition refinable (A : axis Rn) (r : rax) : Prop :=
  let n := (a_size A - 1)%Z in let p := a_deg A in
  knots_apart A /\ mult_le n p (a_knots A) /\
  (p <= r_deg r)%Z /\ (p = r_deg r \/ (p <= 9)%Z \/ clamped n p (a_knots A) /\ elev_guard n p (r_deg r - p) (a_knots A)) /\
  (0 <= r_cont r < r_deg r)%Z /\ axis_breaks A (r_breaks r) /\ length (r_breaks r) = S (length (r_pieces r)) /\
  forall j, (j < length (r_pieces r))%nat -> (1 <= nth j (r_pieces r) 0)%Z /\
    / 4503599627370496 < (nth (S j) (r_breaks r) 0 - nth j (r_breaks r) 0) / IZR (nth j (r_pieces r) 0%Z).
(** A per-axis argument has one entry for each axis; the entry for axis b. *)
Definition per_axis {X : Type} (arg : option (list (option X))) (d : nat) : Prop := match arg with None => True | Some l => length l = d end.
Definition entry {X : Type} (arg : option (list (option X))) (b : nat) : option X := match arg with None => None | Some l => nth b l None end.
(** The arguments of cad.refine ask for [rs]: degrees are never lowered, the continuity defaults
    to degree-1 and is counted from the degree if negative, spans are not cut by default. *)
Definition refine_asks (nrb : nurbs Rn) (factor : option (list (option fact))) (degree continuity : option (list (option Z))) (rs : list rax) : Prop :=
  let d := length (n_axes nrb) in
  length rs = d /\ per_axis factor d /\ per_axis degree d /\ per_axis continuity d /\
  forall b, (b < d)%nat -> let A := get_axis nrb b in let r := nth b rs rax0 in
    match entry degree b with None => r_deg r = a_deg A | Some k => (0 < k)%Z /\ r_deg r = Z.max k (a_deg A) end /\
    r_cont r = match entry continuity b with None => r_deg r - 1 | Some c => if c <? 0 then c + r_deg r else c end%Z /\
    match entry factor b with
    | None => Forall (fun k => k = 1%Z) (r_pieces r)
    | Some (FacAll k) => (0 < k)%Z /\ Forall (fun j => j = k) (r_pieces r)
    | Some (FacList l) => r_pieces r = l
    end.
(** A cut: one of the points dividing a span into equal pieces. *)
Definition cut (r : rax) (x : R) : Prop := exists j k, (j < length (r_pieces r))%nat /\ (1 <= k < nth j (r_pieces r) 0)%Z /\
  x = nth j (r_breaks r) 0 + (nth (S j) (r_breaks r) 0 - nth j (r_breaks r) 0) * (IZR k / IZR (nth j (r_pieces r) 0%Z)).
(** The axis after refinement: at the cuts and the old breaks the multiplicity is degree minus
    continuity, at the breaks more if the raised degree requires it to keep the old continuity;
    there are no other knots inside, and the ends are repeated degree+1 times. *)
Definition refined (A : axis Rn) (r : rax) (B : axis Rn) : Prop :=
  let k := (r_deg r - r_cont r)%Z in let mult := fun (X : axis Rn) x => multiplicity (a_knots X) 0 (a_len X - 1) x in
  a_deg B = r_deg r /\ a_lo B = a_lo A /\ a_hi B = a_hi A /\ clamped (a_size B - 1) (a_deg B) (a_knots B) /\
  forall x, a_lo A < x < a_hi A ->
    (cut r x -> mult B x = k) /\
    (In x (r_breaks r) -> mult B x = Z.max k (mult A x + (r_deg r - a_deg A))) /\
    (~ cut r x -> ~ In x (r_breaks r) -> mult B x = 0%Z).
