(** Properties that fail for the code: concrete objects, computed in exact rational
    arithmetic (carrier Qn), on which the natural claim is false.
    - [crv n U P]: a curve with n control points, knots U, x-coordinates P and unit weights;
    - [wfQ]: the object meets the assumptions of the positive theorems (sorted knots, degree
      at least 1, enough control points, nonempty first and last spans);
    - [value nrb us c]: coordinate c of the point returned by calling nrb at the parameters us. *)
From Coq Require Import ZArith QArith List Bool.
From Verif Require Import Num Loop ModelBspline ModelBSp ModelNurbs ProofSpan.
Import ListNotations.
Local Open Scope Z_scope.

Definition ql (l : list Q) : Z -> Q := fun i => nth (Z.to_nat i) l 0%Q.
Definition crv (n : Z) (U P : list Q) : nurbs Qn :=
  mkNurbs (N:=Qn) [mkAxis (N:=Qn) n (Z.of_nat (length U)) (ql U)] 4
   (fun idx c => if c =? 0 then ql P (nth 0%nat idx 0) else if c =? 3 then 1%Q else 0%Q).
Definition wfA (A : axis Qn) : bool :=
  let n := a_size A - 1 in let p := a_deg A in let U := a_knots A in
  (1 <=? p) && (p <=? n) && (a_len A =? n + p + 2) &&
  forallb (fun i => Qle_bool (U i) (U (i + 1))) (zseq (Z.to_nat (n + p + 1)) 0) &&
  negb (Qle_bool (U (p + 1)) (U p)) && negb (Qle_bool (U (n + 1)) (U n)).
Definition wfQ (nrb : nurbs Qn) : bool := forallb wfA (n_axes nrb).
Definition zj : Z -> Qn := fun _ => 0%Q.
Definition value (nrb : nurbs Qn) (us : list Q) (c : Z) : option Q :=
  match call (N:=Qn) zj (fun _ _ => 0%Q) (fun _ _ _ => 0%Q) (fun _ => 0) nrb
          (map (fun u => Some (mkVec (N:=Qn) 1 (fun _ => u))) us) FNo with
  | Ok (C, _) => Some (C (map (fun _ => 0) us) c)
  | Raise _ => None
  end.

(** ** C16: an object made by unclamp with continuity 1 (degree 3); its right boundary is not
    its value at the right end. *)
Theorem C16_boundary_partly_unclamped_refuted : exists nrb nrb1 nrb2,
  wfQ nrb = true /\ wfQ nrb1 = true /\
  unclamp (N:=Qn) zj nrb 0 None (Some 1) = Ok nrb1 /\ boundary (N:=Qn) zj nrb1 0 1 = Ok nrb2 /\
  value nrb [3%Q] 0 = Some 1%Q /\ value nrb1 [3%Q] 0 = Some 1%Q /\ value nrb2 [] 0 = Some 0%Q.
Proof.
  exists (crv 6 [0;0;0;0;1;2;3;3;3;3]%Q [0;1;0;2;0;1]%Q). do 2 eexists.
  split; [|split; [|split; [|split; [|split; [|split]]]]]; [| |reflexivity|reflexivity| | |]; vm_compute; reflexivity.
Qed.
Print Assumptions C16_boundary_partly_unclamped_refuted.

(** ** C11: inserting the end value of an unclamped knot vector changes the geometry. *)
Theorem C11_insert_unclamped_end_refuted : exists nrb nrb1,
  wfQ nrb = true /\ insert (N:=Qn) zj nrb 0 1%Q (Some 1) = Ok nrb1 /\
  value nrb [(1 # 2)%Q] 0 = Some (3 # 4)%Q /\ value nrb1 [(1 # 2)%Q] 0 = Some (7 # 8)%Q.
Proof.
  exists (crv 3 [-2;-1;0;1;2;3]%Q [0;1;0]%Q). eexists.
  split; [|split; [|split]]; [|reflexivity| |]; vm_compute; reflexivity.
Qed.
Print Assumptions C11_insert_unclamped_end_refuted.

(** ** C13: refining at the ends of an unclamped knot vector changes the value there. *)
Theorem C13_refine_unclamped_end_refuted : exists nrb nrb1 nrb2,
  wfQ nrb = true /\ refine (N:=Qn) zj nrb 0 [1%Q] = Ok nrb1 /\ refine (N:=Qn) zj nrb 0 [0%Q] = Ok nrb2 /\
  value nrb [1%Q] 0 = Some (1 # 2)%Q /\ value nrb1 [1%Q] 0 = Some 0%Q /\
  value nrb [0%Q] 0 = Some (1 # 2)%Q /\ value nrb2 [0%Q] 0 = Some 0%Q.
Proof.
  exists (crv 3 [-2;-1;0;1;2;3]%Q [0;1;0]%Q). do 2 eexists.
  split; [|split; [|split; [|split; [|split; [|split]]]]]; [|reflexivity|reflexivity| | | |]; vm_compute; reflexivity.
Qed.
Print Assumptions C13_refine_unclamped_end_refuted.

(** ** C21: elevating an unclamped curve changes the geometry, and part of the result is
    uninitialised memory (two runs with different initial memory differ). *)
Theorem C21_elevate_unclamped_refuted : exists nrb nrb1 nrb2,
  wfQ nrb = true /\
  elevate (N:=Qn) zj (fun _ _ => 0%Q) nrb 0 1 = Ok nrb1 /\
  elevate (N:=Qn) (fun _ => 5%Q) (fun _ _ => 0%Q) nrb 0 1 = Ok nrb2 /\
  value nrb [0%Q] 0 = Some (1 # 2)%Q /\ value nrb1 [0%Q] 0 <> Some (1 # 2)%Q /\
  a_knots (get_axis nrb1 0) 6 = 0%Q /\ a_knots (get_axis nrb2 0) 6 = 5%Q.
Proof.
  exists (crv 3 [-2;-1;0;1;2;3]%Q [0;1;0]%Q). do 2 eexists.
  split; [|split; [|split; [|split; [|split; [|split]]]]]; [|reflexivity|reflexivity| | | |]; vm_compute; (reflexivity || discriminate).
Qed.
Print Assumptions C21_elevate_unclamped_refuted.
(** The same with a clamped right end: the result is fully written, yet wrong. *)
Theorem C21_elevate_left_unclamped_refuted : exists nrb nrb1,
  wfQ nrb = true /\ elevate (N:=Qn) zj (fun _ _ => 0%Q) nrb 0 1 = Ok nrb1 /\ wfQ nrb1 = true /\
  value nrb [(1 # 2)%Q] 0 <> value nrb1 [(1 # 2)%Q] 0 /\ value nrb1 [(1 # 2)%Q] 0 <> None.
Proof.
  exists (crv 3 [-2;-1;0;1;1;1]%Q [0;1;0]%Q). eexists.
  split; [|split; [|split; [|split]]]; [|reflexivity| | |]; vm_compute; (reflexivity || discriminate).
Qed.
Print Assumptions C21_elevate_left_unclamped_refuted.

(** ** C26: at an interior knot of multiplicity degree+1 reversal does not mirror the value
    (this is why the positive theorem asks for continuity). *)
Theorem C26_reverse_discontinuous_refuted : exists nrb nrb1,
  wfQ nrb = true /\ reverse (N:=Qn) nrb [0] = Ok nrb1 /\
  value nrb [1%Q] 0 = Some 5%Q /\ value nrb1 [1%Q] 0 = Some 1%Q.
Proof.
  exists (crv 4 [0;0;1;1;2;2]%Q [0;1;5;6]%Q). eexists.
  split; [|split; [|split]]; [|reflexivity| |]; vm_compute; reflexivity.
Qed.
Print Assumptions C26_reverse_discontinuous_refuted.

(** ** C28: negative axis numbers.  transpose((0,-2)) of a surface pairs the control net of
    the second axis with the knots of the first: the result is neither the surface nor its
    transpose, although (0,-2) names the first axis twice. *)
Definition exN : nurbs Qn :=
  mkNurbs (N:=Qn) [mkAxis (N:=Qn) 3 6 (ql [0;0;0;1;1;1]%Q); mkAxis (N:=Qn) 3 6 (ql [0;0;0;2;2;2]%Q)] 4
   (fun idx c => if c =? 0 then inject_Z (nth 0%nat idx 0 + 10 * nth 1%nat idx 0) else if c =? 3 then 1%Q else 0%Q).
Theorem C28_transpose_negative_refuted : exists nrb nrb1,
  wfQ nrb = true /\ transpose (N:=Qn) nrb (Some [0; -2]) = Ok nrb1 /\
  value nrb [(1 # 2)%Q; 1%Q] 0 = Some 11%Q /\ value nrb1 [(1 # 2)%Q; 1%Q] 0 = Some 21%Q /\
  value nrb1 [1%Q; (1 # 2)%Q] 0 = Some 12%Q.
Proof.
  exists exN. eexists. split; [|split; [|split; [|split]]]; [|reflexivity| | |]; vm_compute; reflexivity.
Qed.
Print Assumptions C28_transpose_negative_refuted.

(** ** C32: the constructor accepts fewer than degree+1 control points; evaluation then reads
    a control point that does not exist.  Computed with a not-a-number as in floating point
    ([Qnan]: None is NaN, operations propagate it, comparisons with it are false, x/0 is NaN):
    two control arrays that agree on all existing entries, the memory before the array holding
    an ordinary number or a NaN, give different values. *)
Definition lift2 (f : Q -> Q -> Q) (x y : option Q) : option Q :=
  match x, y with Some x, Some y => Some (Qred (f x y)) | _, _ => None end.
Definition cmp2 (f : Q -> Q -> bool) (x y : option Q) : bool :=
  match x, y with Some x, Some y => f x y | _, _ => false end.
Definition Qnan : Num :=
  mkNum (option Q) (Some 0%Q) (Some 1%Q) (lift2 Qplus) (lift2 Qminus) (lift2 Qmult)
        (fun x y => if cmp2 Qeq_bool y (Some 0%Q) then None else lift2 Qdiv x y)
        (cmp2 Qle_bool) (cmp2 (fun x y => negb (Qle_bool y x))) (cmp2 Qeq_bool)
        (Some (1 # 4503599627370496)%Q) (fun z => Some (inject_Z z)).
Definition ctl (x : option Q) : nd Qnan :=
  mkNd (N:=Qnan) [2; 2] (fun idx => if nth 0%nat idx 0 <? 0 then x else Some (inject_Z (nth 0%nat idx 0))).
Definition valueN (nrb : nurbs Qnan) (u : Q) : option Qnan :=
  match call (N:=Qnan) (fun _ => Some 0%Q) (fun _ _ => Some 0%Q) (fun _ _ _ => Some 0%Q) (fun _ => 0) nrb
          [Some (mkVec (N:=Qnan) 1 (fun _ => Some u))] FNo with
  | Ok (C, _) => Some (C [0] 0)
  | Raise _ => None
  end.
Theorem C32_too_few_points_refuted : exists (knots : list (vec Qnan)) control control' nrb nrb',
  map (fun k => map (v_get k) (zseq (Z.to_nat (v_len k)) 0)) knots = [map Some [0; 0; 1; 2; 2]%Q] /\
  nd_shape control = nd_shape control' /\
  (forall idx, Forall2 (fun i s => 0 <= i < s) idx (nd_shape control) -> nd_get control idx = nd_get control' idx) /\
  init (N:=Qnan) (fun _ => None) knots (Some control) None None = Ok nrb /\
  init (N:=Qnan) (fun _ => None) knots (Some control') None None = Ok nrb' /\
  map a_deg (n_axes nrb) = [2] /\ map a_size (n_axes nrb) = [2] /\
  valueN nrb 1 = Some (Some (1 # 2)%Q) /\ valueN nrb' 1 = Some None.
Proof.
  exists [mkVec (N:=Qnan) 5 (fun i => Some (ql [0;0;1;2;2]%Q i))], (ctl (Some 100%Q)), (ctl None). do 2 eexists.
  split; [reflexivity|]. split; [reflexivity|]. split.
  { intros idx H. inversion H as [|i s l l' Hi _]; subst. unfold ctl. cbn [nd_get nth].
    destruct (Z.ltb_spec i 0); [exfalso; apply (Z.lt_irrefl 0); eapply Z.le_lt_trans; [apply Hi|auto]|reflexivity]. }
  split; [reflexivity|]. split; [reflexivity|]. split; [reflexivity|]. split; [reflexivity|].
  split; vm_compute; reflexivity.
Qed.
Print Assumptions C32_too_few_points_refuted.
(** The carrier with NaN obeys the comparison laws asked for by C07. *)
Lemma Qnan_weak_order : weak_order Qnan.
Proof.
  split; intros [x|] [y|] H; cbn in *; try discriminate; auto.
  - apply negb_true_iff in H. apply Qle_bool_iff. apply Qnot_lt_le. intros L. apply Qlt_le_weak in L. apply Qle_bool_iff in L. congruence.
  - apply negb_true_iff in H. exact H.
Qed.

(** With knots out of order (also accepted) the span search never ends: the loop condition of
    FindSpan holds after any number of rounds. *)
Theorem C32_span_search_diverges_refuted : exists knots control nrb u,
  init (N:=Qn) zj knots (Some control) None None = Ok nrb /\
  let A := get_axis nrb 0 in let n := a_size A - 1 in let p := a_deg A in let U := a_knots A in
  n = 1 /\ p = 3 /\ Qle_bool (a_lo A) u = true /\ Qle_bool u (a_hi A) = true /\
  nleb Qn (U (n + 1)) u = false /\ nleb Qn u (U p) = false /\
  forall rounds, while rounds (FindSpan_cond (N:=Qn) u U) (FindSpan_body (N:=Qn) u U) (p, n + 1, (p + (n + 1)) / 2) = None.
Proof.
  exists [mkVec (N:=Qn) 6 (ql [0;0;2;1;3;3]%Q)], (mkNd (N:=Qn) [2; 2] (fun _ => 0%Q)). eexists. exists (3 # 2)%Q.
  split; [reflexivity|]. cbv zeta. repeat (split; [reflexivity|]).
  induction rounds as [|r IH]; [reflexivity|]. exact IH.
Qed.
Print Assumptions C32_span_search_diverges_refuted.
