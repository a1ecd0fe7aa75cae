(** Grids (C61) and refinement of all axes (C77).  Vocabulary: SpecGrid.v, SpecCadRefine.v. *)
From Coq Require Import ZArith Reals QArith List Lia Lra Bool Sorting.Sorted.
From Verif Require Import Num Loop ModelBspline ModelBSp ModelNurbs ModelRemove ModelIga ModelCad Spec SpecElev SpecGrid SpecCadRefine SpecJoin SumZ BPiece BLink
  SpecNurbs ProofNet ProofCall ProofNurbs ProofGeom ProofCad ProofGrid ProofCadRefine ProofCadRefine2 ExTac PropNurbs PropRefuted PropCompat PropCoons.
Import ListNotations.
Local Open Scope R_scope.

(** ** C61: a grid is the identity map on its limits *)
(** For every number of spans, degree, continuity, limits and wrapping, given for all axes at once or
    per axis, grid returns an object whose axes are the uniform ones asked for, and whose value at
    (u, v, w) is the point (u, v, w). *)
Theorem C61_grid : forall shape degree continuity limits wrap gs junk, (1 <= length shape <= 3)%nat ->
  grid_asks shape degree continuity limits wrap gs -> Forall gax_ok gs ->
  exists nrb, grid (N:=Rn) junk shape degree continuity limits wrap = Ok nrb /\ Forall2 uniform_axis gs (n_axes nrb) /\
    (forall us, in_box (spec_axes nrb) us -> hom nrb 3 us = 1) /\ shows nrb (fun us c => nth (Z.to_nat c) us 0).
Proof. exact grid_user. Qed.
Print Assumptions C61_grid.
(** Three spans of degree 2 wrapped on [0,1], two spans of degree 3 with continuity -2 (that is, 1) on [-1,5]. *)
Example C61_example : let gs := [mkGax 3 2 0 0 1 true; mkGax 2 3 1 (-1) 5 false] in
  grid_asks [3; 2]%Z (ZList [2; 3]%Z) (Some (ZScal (-2))) (LimList (N:=Rn) [(0, 1); (-1, 5)]) (WrapList [true; false]) gs /\ Forall gax_ok gs.
Proof.
  split.
  - repeat split. repeat constructor.
  - repeat constructor; cbn; try lia; lra.
Qed.

(** ** C77: refinement of all axes keeps the geometry and produces the knots asked for *)
Theorem C77_refine : forall nrb factor degree continuity rs junk junk2, wf_nurbs nrb -> refine_asks nrb factor degree continuity rs ->
  (forall b, (b < length (n_axes nrb))%nat -> refinable (get_axis nrb b) (nth b rs rax0)) ->
  exists nrb', cad_refine (N:=Rn) junk junk2 nrb factor degree continuity = Ok nrb' /\ n_comp nrb' = n_comp nrb /\ length (n_axes nrb') = length (n_axes nrb) /\
   (forall b, (b < length (n_axes nrb))%nat -> refined (get_axis nrb b) (nth b rs rax0) (get_axis nrb' b)) /\
   forall xs, good_args (spec_axes nrb) xs -> good_args (spec_axes nrb') xs /\ same_values nrb nrb' xs xs (fun idx => idx).
Proof. exact cad_refine_user. Qed.
Print Assumptions C77_refine.
(** A quadratic with the knots 0,0,0,1,2,2,2: degree 3, the first span cut in two, the second in three. *)
Example C77_example : let rs := [mkRax 3 2 [0; 1; 2] [2; 3]%Z] in
  wf_nurbs exQ /\ refine_asks exQ (Some [Some (FacList [2; 3]%Z)]) (Some [Some 3%Z]) None rs /\
  forall b, (b < length (n_axes exQ))%nat -> refinable (get_axis exQ b) (nth b rs rax0).
Proof.
  cbv zeta. split; [exact exQ_wf|]. split.
  - repeat (split; [reflexivity || exact I|]). intros b Hb. cbn in Hb. assert (b = 0)%nat by lia. subst b.
    cbn. unfold a_deg; cbn. repeat split; lia || reflexivity.
  - intros b Hb. cbn in Hb. assert (b = 0)%nat by lia. subst b. cbn [nth].
    split; [intros j j' Hj Hj'; cbn in Hj, Hj'; enumz j 0%Z 6%Z; enumz j' 0%Z 6%Z; arr_ev; first [left; lra | right; unfold Rabs; destruct (Rcase_abs _); lra]|].
    split; [intros j Hj; cbn in Hj; unfold a_deg in Hj; cbn in Hj; cbn; unfold a_deg; cbn; enumz j 3%Z 3%Z; unfold exU; arr_lra|].
    cbn [r_deg r_cont r_breaks r_pieces]. change (a_deg (get_axis exQ 0)) with 2%Z.
    split; [lia|]. split; [right; left; lia|]. split; [lia|]. split.
    + split.
      * repeat constructor; lra.
      * intro x. change (a_size (get_axis exQ 0)) with 4%Z. change (a_deg (get_axis exQ 0)) with 2%Z. split.
        -- intros [<-|[<-|[<-|[]]]]; [exists 2%Z|exists 3%Z|exists 4%Z]; (split; [lia|]); arr_ev; reflexivity.
        -- intros (i & Hi & <-). enumz i 2%Z 4%Z; arr_ev; cbn; auto.
    + split; [reflexivity|]. intros j Hj. cbn in Hj. destruct j as [|[|j]]; [| |lia]; cbn [nth]; (split; [lia|]); lra.
Qed.
(** The knots and a value of that result. *)
Example C77_run : let r := qgot (cad_refine (N:=Qn) zj (fun _ _ => 0%Q) (crv 4 [0; 0; 0; 1; 2; 2; 2]%Q [0; 1; 2; 3]%Q)
     (Some [Some (FacList [2; 3]%Z)]) (Some [Some 3%Z]) None) in
  map (a_knots (get_axis r 0)) (zseq (Z.to_nat (a_len (get_axis r 0))) 0) =
   [0; 0; 0; 0; 1#2; 1; 1; 4#3; 5#3; 2; 2; 2; 2]%Q /\ value r [(1 # 2)%Q] 0 = value (crv 4 [0; 0; 0; 1; 2; 2; 2]%Q [0; 1; 2; 3]%Q) [(1 # 2)%Q] 0.
Proof. split; vm_compute; reflexivity. Qed.
