(** Inputs that the functions of cad.py refuse (C87).  Vocabulary (ProofRefuse.v): [refused r]: r is
    AssertionError; [entry_at a i k]: the argument a, one number or a list, means k on axis i;
    [wrong_len]: a list that has not one entry per axis; [bad_axis]: on axis i the degree is not
    positive or the continuity not between -degree and degree-1. *)
From Coq Require Import ZArith List Bool Lia.
From Verif Require Import Num Loop ModelBspline ModelBSp ModelNurbs ModelIga ModelRemove ModelTransform ModelCad ProofRefuse PropRefuted.
Import ListNotations.
Local Open Scope Z_scope.

(** ** C87 *)
(** Whatever the arithmetic, hence also in double precision. *)
Theorem C87_dimension : forall (N : Num) (junk : Z -> N) junk2 junk3 junkS,
  (forall nrbs axes A B, In A nrbs -> In B nrbs -> n_dim A <> n_dim B -> refused (compat junk junk2 nrbs axes)) /\
  (forall nrb d ax, n_dim nrb > 2 -> refused (extrude junk nrb d ax)) /\
  (forall fsin fcos ftan fsqrt facos fatan2 fhypot pi nrb point ax ang, n_dim nrb > 2 ->
     refused (revolve fsin fcos ftan fsqrt facos fatan2 fhypot pi junk junk2 nrb point ax ang)) /\
  (forall A B, n_dim A <> n_dim B \/ n_dim A > 2 -> refused (ruled junk junk2 A B)) /\
  (forall sec tra, n_dim sec > 2 \/ n_dim tra <> 1 -> refused (sweep junk sec tra)) /\
  (forall A B C D, n_dim A <> 1 \/ n_dim B <> 1 \/ n_dim C <> 1 \/ n_dim D <> 1 -> refused (coons junk junk2 junk3 junkS A B C D)) /\
  (forall fsqrt A B ax, n_dim A <> n_dim B \/ ~ 0 <= ax < n_dim A -> refused (join fsqrt junk junk2 A B ax)).
Proof.
  exact (fun N junk junk2 junk3 junkS => conj (compat_refused N junk junk2) (conj (extrude_refused N junk) (conj (revolve_refused N junk junk2)
    (conj (ruled_refused N junk junk2) (conj (sweep_refused N junk) (conj (coons_refused N junk junk2 junk3 junkS) (join_refused N junk junk2))))))).
Qed.
Print Assumptions C87_dimension.
(** Corner arrays that are not 2, 2 x 2 or 2 x 2 x 2 points. *)
Theorem C87_corners : forall (N : Num) (junk : Z -> N) P,
  (removelast (nd_shape P) <> [2] -> refused (linear junk (Some P))) /\
  (removelast (nd_shape P) <> [2; 2] -> refused (bilinear junk (Some P))) /\
  (removelast (nd_shape P) <> [2; 2; 2] -> refused (trilinear junk (Some P))).
Proof. exact (fun N junk P => conj (linear_refused N junk P) (conj (bilinear_refused N junk P) (trilinear_refused N junk P))). Qed.
Print Assumptions C87_corners.
Theorem C87_grid : forall (N : Num) (junk : Z -> N) shape degree cont limits wrap,
  (~ (1 <= length shape <= 3)%nat \/ wrong_len degree (length shape) \/ (exists c, cont = Some c /\ wrong_len c (length shape)) \/
   match limits with LimOne _ _ => False | LimList l => length l <> length shape end \/
   match wrap with WrapOne _ => False | WrapList l => length l <> length shape end \/
   exists i, (i < length shape)%nat /\ bad_axis degree cont (length shape) i) ->
  refused (grid junk shape degree cont limits wrap).
Proof. exact (fun N junk => grid_refused N junk (fun _ _ => n0 N)). Qed.
Print Assumptions C87_grid.
Theorem C87_refine : forall (N : Num) (junk : Z -> N) junk2 nrb factor degree cont,
  (exists l, degree = Some l /\ (length l <> length (n_axes nrb) \/ In (Some 0) l \/ exists k, k < 0 /\ In (Some k) l)) \/
  (exists l, factor = Some l /\ (length l <> length (n_axes nrb) \/
     exists k, k <= 0 /\ (In (Some (FacAll k)) l \/ exists f, In (Some (FacList f)) l /\ In k f))) ->
  exists e, cad_refine junk junk2 nrb factor degree cont = Raise e.
Proof.
  exact (fun N junk junk2 nrb factor degree cont H =>
    match H with or_introl H => refine_refused N junk junk2 nrb factor degree cont H | or_intror H => refine_refused_factor N junk junk2 nrb factor degree cont H end).
Qed.
Print Assumptions C87_refine.

(** A curve and a surface; corners of a square given to [linear]; degree 2 with continuity 2; a span cut
    into no pieces. *)
Definition r_crv : nurbs Qn := mkNurbs [mkAxis (N:=Qn) 2 4 zj] 4 (fun _ _ => zj 0).
Definition r_srf : nurbs Qn := mkNurbs [mkAxis (N:=Qn) 2 4 zj; mkAxis (N:=Qn) 2 4 zj] 4 (fun _ _ => zj 0).
Example C87_example : n_dim r_crv <> n_dim r_srf /\ n_dim (mkNurbs (n_axes r_srf ++ n_axes r_crv) 4 (n_arr r_srf)) > 2 /\
  removelast (nd_shape (nd_of (N:=Qn) [2; 2] 3 (fun _ _ => zj 0))) <> [2] /\
  bad_axis (ZScal 2) (Some (ZList [0; 2])) 2 1 /\
  (exists l, Some [Some (FacList [2; 0])] = Some l /\ (length l <> length (n_axes r_crv) \/
     exists k, k <= 0 /\ (In (Some (FacAll k)) l \/ exists f, In (Some (FacList f)) l /\ In k f))).
Proof.
  split; [discriminate|]. split; [reflexivity|]. split; [discriminate|]. split.
  - right. exists (ZList [0; 2]), 2, 2. cbn. repeat split; auto. lia.
  - eexists. split; [reflexivity|]. right. exists 0. split; [lia|]. right. exists [2; 0]. cbn. auto.
Qed.
