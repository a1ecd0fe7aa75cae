(** Properties that hold in exact arithmetic (C27, C26, C35, C60, C56) and fail in the double precision
    arithmetic of the code: concrete objects, computed with the IEEE operations (carrier Dn).
    - [dec n k]: the double nearest to n/10^k;
    - [dcrv n U P]: a curve with n control points, knots U, x-coordinates P and unit weights;
    - [raises r]: the call ends with an AssertionError. *)
From Coq Require Import ZArith List Bool SpecFloat Lia.
From Verif Require Import Num Loop ModelBspline ModelBSp ModelNurbs ModelCad ModelIo ModelFloat.
Import ListNotations.
Local Open Scope Z_scope.

Definition dec (n k : Z) : Dn := ndiv Dn (dbl_of_Z n) (dbl_of_Z (10 ^ k)).
Definition dl (l : list Dn) : Z -> Dn := fun i => nth (Z.to_nat i) l (n0 Dn).
Definition dcrv (n : Z) (U P : list Dn) : nurbs Dn :=
  mkNurbs (N:=Dn) [mkAxis (N:=Dn) n (Z.of_nat (length U)) (dl U)] 4
   (fun idx c => if c =? 0 then dl P (nth 0%nat idx 0) else if c =? 3 then n1 Dn else n0 Dn).
Definition ints (l : list Z) : list Dn := map dbl_of_Z l.
Definition wfD (nrb : nurbs Dn) : bool :=
  forallb (fun A => let n := a_size A - 1 in let p := a_deg A in let U := a_knots A in
    (1 <=? p) && (p <=? n) && (a_len A =? n + p + 2) &&
    forallb (fun i => nleb Dn (U i) (U (i + 1))) (zseq (Z.to_nat (n + p + 1)) 0) &&
    nltb Dn (U p) (U (p + 1)) && nltb Dn (U n) (U (n + 1))) (n_axes nrb).
Definition dj : Z -> Dn := fun _ => n0 Dn.
Definition dj2 : Z -> Z -> Dn := fun _ _ => n0 Dn.
Definition dj3 : Z -> Z -> Z -> Dn := fun _ _ _ => n0 Dn.
Definition at_ (nrb : nurbs Dn) (u : Dn) := call (N:=Dn) dj dj2 dj3 (fun _ => 0) nrb [Some (mkVec (N:=Dn) 1 (fun _ => u))] FNo.
Definition raises {A : Type} (r : res A) : Prop := r = Raise AssertionError.
Lemma raises_by {A : Type} (r : res A) : match r with Raise AssertionError => true | _ => false end = true -> raises r.
Proof. destruct r as [a|[]]; try discriminate. reflexivity. Qed.

(** ** C79: after remap(0, 0, 1) the domain ends before 1, and evaluating at 1 raises *)
Theorem C79_remap_refuted : exists (nrb nrb1 : nurbs Dn),
  wfD nrb = true /\ remap (N:=Dn) nrb 0 (Some (dbl_of_Z 0)) (Some (dbl_of_Z 1)) = Ok nrb1 /\
  a_lo (get_axis nrb1 0) = dbl_of_Z 0 /\ nltb Dn (a_hi (get_axis nrb1 0)) (dbl_of_Z 1) = true /\
  raises (at_ nrb1 (dbl_of_Z 1)).
Proof.
  exists (dcrv 2 (ints [0; 0; 49; 49]) (ints [0; 1])). eexists.
  split; [vm_compute; reflexivity|]. split; [reflexivity|]. split; [vm_compute; reflexivity|].
  split; [vm_compute; reflexivity|]. apply raises_by. vm_compute. reflexivity.
Qed.
Print Assumptions C79_remap_refuted.

(** ** C80: reversal moves the domain [0.2, 0.5]; evaluating at 0.5 raises afterwards *)
Theorem C80_reverse_refuted : exists (nrb nrb1 : nurbs Dn),
  wfD nrb = true /\ reverse (N:=Dn) nrb [0] = Ok nrb1 /\
  nltb Dn (a_lo (get_axis nrb1 0)) (a_lo (get_axis nrb 0)) = true /\
  nltb Dn (a_hi (get_axis nrb1 0)) (a_hi (get_axis nrb 0)) = true /\
  raises (at_ nrb1 (a_hi (get_axis nrb 0))).
Proof.
  exists (dcrv 2 [dec 2 1; dec 2 1; dec 5 1; dec 5 1] (ints [0; 1])). eexists.
  split; [vm_compute; reflexivity|]. split; [reflexivity|]. split; [vm_compute; reflexivity|].
  split; [vm_compute; reflexivity|]. apply raises_by. vm_compute. reflexivity.
Qed.
Print Assumptions C80_reverse_refuted.

(** ** C81: the last Greville abscissa of a cubic on [0, 0.1] lies outside the domain; the object
    cannot be evaluated at its Greville abscissae *)
Theorem C81_greville_refuted : exists (nrb : nurbs Dn) X,
  wfD nrb = true /\ greville (N:=Dn) dj nrb 0 = Ok X /\ v_len X = 4 /\
  nltb Dn (a_hi (get_axis nrb 0)) (v_get X 3) = true /\
  raises (call (N:=Dn) dj dj2 dj3 (fun _ => 0) nrb [Some X] FNo).
Proof.
  exists (dcrv 4 (ints [0; 0; 0; 0] ++ [dec 1 1; dec 1 1; dec 1 1; dec 1 1]) (ints [0; 1; 2; 3])). eexists.
  split; [vm_compute; reflexivity|]. split; [reflexivity|]. split; [vm_compute; reflexivity|].
  split; [vm_compute; reflexivity|]. apply raises_by. vm_compute. reflexivity.
Qed.
Print Assumptions C81_greville_refuted.

(** ** C82: curves with breaks 0,11,22,33 and 0,15,30,45 *)
Definition sizes (r : res (list (nurbs Dn))) : list Z := match r with Ok l => map (fun nrb => a_size (get_axis nrb 0)) l | Raise _ => [] end.
Theorem C82_compat_refuted : exists A B : nurbs Dn, wfD A && wfD B = true /\
  sizes (compat (N:=Dn) dj dj2 [A; B] None) = [6; 6] /\ a_size (get_axis A 0) = 4 /\ a_size (get_axis B 0) = 4.
Proof.
  exists (dcrv 4 (ints [0; 0; 11; 22; 33; 33]) (ints [0; 1; 2; 3])), (dcrv 4 (ints [0; 0; 15; 30; 45; 45]) (ints [0; 1; 2; 3])).
  repeat split; vm_compute; reflexivity.
Qed.
Print Assumptions C82_compat_refuted.
(** ** C82, continued: a Coons patch of the unit square with sides over [0,1], [0,15] and [0,11] is refused: the
    fourth side ends before 15 once it has been moved to the domain of the third *)
Definition side (d : Z) (x0 y0 x1 y1 : Z) : nurbs Dn :=
  mkNurbs (N:=Dn) [mkAxis (N:=Dn) 2 4 (dl (ints [0; 0; d; d]))] 4
   (fun idx c => let i := nth 0%nat idx 0 in if c =? 0 then dbl_of_Z (if i =? 0 then x0 else x1)
                 else if c =? 1 then dbl_of_Z (if i =? 0 then y0 else y1) else if c =? 3 then n1 Dn else n0 Dn).
Definition is_ok {A : Type} (r : res A) : bool := match r with Ok _ => true | Raise _ => false end.
Theorem C82_coons_refuted :
  let C00 := side 1 0 0 0 1 in let C01 := side 1 1 0 1 1 in let C10 := side 15 0 0 1 0 in
  raises (coons (N:=Dn) dj dj2 dj3 (fun _ => 0) C00 C01 C10 (side 11 0 1 1 1)) /\
  is_ok (coons (N:=Dn) dj dj2 dj3 (fun _ => 0) C00 C01 C10 (side 1 0 1 1 1)) = true.
Proof. split; [apply raises_by|]; vm_compute; reflexivity. Qed.
Print Assumptions C82_coons_refuted.
