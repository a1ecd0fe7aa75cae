(** Refining and transforming commute: the control points that refinement gives do not depend on
    whether an object is moved before or after, and on nothing but the stored data.
    The results concern igakit/nurbs.py:721-796 and 887-1167 (insert, clamp, unclamp, refine, elevate)
    and igakit/nurbs.py:471-509 (transform, translate, scale, rotate). Specification: equality of the
    stored knots and control points ([same_data]); sequences of calls ([run_all], with the conditions
    [op_ok] of C11, C13, C17, C18 and C19 at each call, [all_ok]). *)
From Coq Require Import ZArith Reals List Bool Lia Lra.
From Verif Require Import Num Loop ModelBspline ModelBSp ModelNurbs ModelTransform Spec SpecNurbs SpecElev BLink ProofSpan ProofNet ProofCall ProofNurbs ProofMethods ProofMethods2 ProofGeom ProofGeom2
  ProofIga ProofRemove4 ProofCompat1 ExTac PropNurbs BIndep ProofUniq ProofUniq2 PropUniq ProofEquiv.
Import ListNotations.
Local Open Scope R_scope.

(** ** C119: a transformed object accepts the same calls, with the transformed results. *)
Theorem C119_transform : forall l x y M, wf_nurbs x -> all_ok l x y -> bounded_knots y ->
  forall junk junk2, exists z, run_all junk junk2 l (transform (N:=Rn) x M) = Ok z /\ same_data (transform (N:=Rn) y M) z.
Proof. exact transform_commutes. Qed.
Print Assumptions C119_transform.
(** The methods which move an object: what they do to the refined object is what refinement does to
    the moved object. *)
Theorem C119_translate : forall l x y d axis x', wf_nurbs x -> all_ok l x y -> bounded_knots y ->
  n_translate (N:=Rn) x d axis = Ok x' ->
  forall junk junk2, exists y' z, n_translate (N:=Rn) y d axis = Ok y' /\ run_all junk junk2 l x' = Ok z /\ same_data y' z.
Proof. exact translate_commutes. Qed.
Print Assumptions C119_translate.
Theorem C119_scale : forall l x y s axis x', wf_nurbs x -> all_ok l x y -> bounded_knots y ->
  n_scale (N:=Rn) x s axis = Ok x' ->
  forall junk junk2, exists y' z, n_scale (N:=Rn) y s axis = Ok y' /\ run_all junk junk2 l x' = Ok z /\ same_data y' z.
Proof. exact scale_commutes. Qed.
Print Assumptions C119_scale.
Theorem C119_rotate : forall sinf cosf sqrtf l x y angle axis x', wf_nurbs x -> all_ok l x y -> bounded_knots y ->
  n_rotate (N:=Rn) sinf cosf sqrtf x angle axis = Ok x' ->
  forall junk junk2, exists y' z, n_rotate (N:=Rn) sinf cosf sqrtf y angle axis = Ok y' /\ run_all junk junk2 l x' = Ok z /\ same_data y' z.
Proof. exact rotate_commutes. Qed.
Print Assumptions C119_rotate.
(** Objects with the same stored knots and control points accept the same calls, with the same results:
    nothing outside the arrays, and no uninitialised memory, has an influence. *)
Theorem C119_data : forall l x y x', wf_nurbs x -> wf_nurbs x' -> same_data x x' -> all_ok l x y -> bounded_knots y ->
  forall junk junk2, exists z, run_all junk junk2 l x' = Ok z /\ same_data y z.
Proof. exact data_suffice. Qed.
Print Assumptions C119_data.

(** Inserting 1/2 along the first axis of the surface exS, which is clamped there and not along the
    second, meets the hypotheses; and the object really moves. *)
Example C119_example : exists y x', all_ok [(Insert (1 / 2) (Some 1%Z), 0%Z)] exS y /\ bounded_knots y /\ ~ same_knots exS y /\
  n_translate (N:=Rn) exS (Vect (mkVec (N:=Rn) 1 (fun _ => 3))) None = Ok x' /\ n_arr x' [0; 0]%Z 0%Z = n_arr exS [0; 0]%Z 0%Z + 3 * n_arr exS [0; 0]%Z 3%Z.
Proof.
  pose proof (exS_ins (1 / 2) (or_introl eq_refl)) as I1.
  assert (A0 : mulA (get_axis exS 0) (1 / 2) = 0%Z) by (unfold mulA; change (multiplicity exU 0 6 (1 / 2) = 0%Z); multz).
  assert (L : a_lo (get_axis exS 0) <= 1 / 2 <= a_hi (get_axis exS 0)) by (destruct I1 as [_ [I|I]]; [lra|rewrite A0 in I; cbn in I; lia]).
  destruct (insert_accepts exS 0 0%nat (1 / 2) 1 (fun _ => 0) exS_wf eq_refl I1 L) as [y E]; [lia|rewrite A0; cbn; lia|].
  destruct (insert_effect exS 0 0%nat (1 / 2) 1 (fun _ => 0) y exS_wf eq_refl I1 E) as (R1 & _ & _ & Ef).
  assert (LY : length (n_axes y) = 2%nat) by (apply (preserves_dim _ _ (refinement_preserves exS y exS_wf R1))).
  exists y. eexists. split; [|split; [|split; [|split]]].
  - apply (ok_more (Insert (1 / 2) (Some 1%Z)) 0 0%nat (fun _ => 0) (fun _ _ => 0) [] exS y y); [reflexivity| |exact E|constructor].
    pose proof (wf_get_axis exS 0 exS_wf ltac:(cbn; lia)) as WA. destruct I1 as [Hs Hi]. rewrite <- (sep_iff _ _ WA), len_eq in Hs.
    replace (a_size (get_axis exS 0) - 1 + a_deg (get_axis exS 0) + 1 + 1 - 1)%Z with (a_size (get_axis exS 0) - 1 + a_deg (get_axis exS 0) + 1)%Z in Hs by lia.
    rewrite a_hi_eq, a_lo_eq in Hi. unfold mulA in Hi. split; auto.
  - apply bounded_of. intros b Hb v. destruct (Ef b ltac:(cbn; lia)) as [D M]. rewrite D, M. pose proof (bounded_at exS b exS_bounded ltac:(cbn; lia) v) as Bb.
    destruct (Nat.eqb_spec b 0) as [->|]; [|lia]. destruct (Req_EM_T v (1 / 2)) as [->|]; [rewrite A0; cbn; lia|lia].
  - intros K. destruct (Ef 0%nat ltac:(cbn; lia)) as [D M]. specialize (M (1 / 2)). cbn [Nat.eqb] in M. destruct (Req_EM_T (1 / 2) (1 / 2)) as [_|]; [|lra].
    rewrite (eq_mulA (get_axis exS 0) (get_axis y 0) (same_knots_get exS y 0 K ltac:(cbn; lia))) in M. lia.
  - reflexivity.
  - cbn. lra.
Qed.
