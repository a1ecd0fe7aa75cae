(** Smoothness of what evaluation and derivative methods return. *)
From Coq Require Import ZArith Reals List Lia Lra Bool.
From Verif Require Import Num Loop ModelBspline ModelBSp ModelNurbs ModelDer Spec SumZ SpecNurbs SpecDer ProofNet ProofCall ProofNurbs ProofGeom
  ProofRational ProofDerLink ProofDerApi SpecSmooth ProofSmooth ProofSmooth2 ProofSmooth3 PropDer.
Import ListNotations.
Local Open Scope R_scope.

Lemma dirs_nat dim D : dirs dim D -> Forall (fun k => (k < dim)%nat) (map Z.to_nat D).
Proof. intros H. rewrite Forall_map. eapply Forall_impl; [|exact H]. cbv beta. intros; lia. Qed.
Theorem derivative_at_knots nrb xs fields nc F order : wf_nurbs nrb -> (1 <= length (n_axes nrb))%nat ->
  good_args (spec_axes nrb) xs -> field_of nrb fields nc F -> (1 <= order <= 3)%Z ->
  forall junk junk2, exists G, derivative (N:=Rn) junk junk2 nrb order fields (map Some xs) false = Ok G /\
  forall idx c D, in_range xs idx -> Z.of_nat (length D) = order -> dirs (length (n_axes nrb)) D ->
    interior (spec_axes nrb) (params xs idx) -> smooth_for (spec_axes nrb) (map Z.to_nat D) ->
    der_interior (spec_axes nrb) (fieldfn nrb F c) (weightfn nrb) (params xs idx) (map Z.to_nat D) (G idx c D).
Proof.
  intros W Hd G HF Ho junk junk2. destruct (field_of_ok _ _ _ _ HF) as [EF Hnc].
  eexists. split; [apply (der_core_ok junk junk2 nrb order fields xs nc F false); auto; first [lia|discriminate]|].
  intros idx c D Rg HL HD I S. cbv zeta. cbn [snd]. rewrite <- HL. rewrite der_gD by (auto; lia).
  apply gD_der; auto; [apply W|rewrite map_length; lia|]. unfold spec_axes. rewrite map_length. apply dirs_nat; auto.
Qed.
Theorem derivative_continuous nrb xs fields nc F order junk junk2 G : wf_nurbs nrb -> (1 <= length (n_axes nrb))%nat ->
  good_args (spec_axes nrb) xs -> field_of nrb fields nc F -> (1 <= order <= 3)%Z ->
  derivative (N:=Rn) junk junk2 nrb order fields (map Some xs) false = Ok G ->
  forall idx c D, in_range xs idx -> Z.of_nat (length D) = order -> dirs (length (n_axes nrb)) D ->
    smooth_for (spec_axes nrb) (map Z.to_nat D) -> weightfn nrb (params xs idx) <> 0 ->
  forall eps, 0 < eps -> exists d, 0 < d /\ forall ys idx' k k2 G', good_args (spec_axes nrb) ys -> in_range ys idx' ->
    derivative (N:=Rn) k k2 nrb order fields (map Some ys) false = Ok G' ->
    close d (params xs idx) (params ys idx') -> Rabs (G' idx' c D - G idx c D) < eps.
Proof.
  intros W Hd Gx HF Ho E idx c D Rg HL HD S N0 eps He. destruct (field_of_ok _ _ _ _ HF) as [EF Hnc].
  assert (HN : forall xs idx k k2 G, good_args (spec_axes nrb) xs -> in_range xs idx -> derivative (N:=Rn) k k2 nrb order fields (map Some xs) false = Ok G ->
    G idx c D = gD (spec_axes nrb) (fun i => n_arr nrb i 3%Z * F i c) (fun i => n_arr nrb i 3%Z) (map Z.to_nat D) (params xs idx)).
  { clear xs Gx idx Rg E N0. intros xs idx k k2 G' Gx Rg E. unfold derivative in E. rewrite (der_core_ok k k2 nrb order fields xs nc F false) in E by (auto; first [lia|discriminate]).
    injection E as <-. cbn [snd]. rewrite <- HL. apply der_gD; auto. lia. }
  destruct (gD_close (spec_axes nrb) (fun i => n_arr nrb i 3%Z * F i c) (fun i => n_arr nrb i 3%Z) (map Z.to_nat D) (params xs idx)) with (eps := eps) as (d & Hd' & K); auto.
  - apply W.
  - apply (params_box _ _ _ Gx Rg).
  - unfold spec_axes. rewrite map_length. apply dirs_nat; auto.
  - exists d. split; auto. intros ys idx' k k2 G' Gy Ry E' C. rewrite (HN _ _ _ _ _ Gy Ry E'), (HN _ _ _ _ _ Gx Rg E). apply K; auto. apply (params_box _ _ _ Gy Ry).
Qed.
Theorem call_continuous nrb xs j j2 j3 jS C F : wf_nurbs nrb -> good_args (spec_axes nrb) xs ->
  call (N:=Rn) j j2 j3 jS nrb (map Some xs) FYes = Ok (C, Some F) ->
  smooth_for (spec_axes nrb) [] -> forall idx c, in_range xs idx -> hom nrb 3 (params xs idx) <> 0 ->
  forall eps, 0 < eps -> exists d, 0 < d /\ forall ys idx' k k2 k3 kS C' F', good_args (spec_axes nrb) ys -> in_range ys idx' ->
    call (N:=Rn) k k2 k3 kS nrb (map Some ys) FYes = Ok (C', Some F') ->
    close d (params xs idx) (params ys idx') -> Rabs (C' idx' c - C idx c) < eps /\ Rabs (F' idx' c - F idx c) < eps.
Proof.
  intros W Gx E S idx c Rg N0 eps He. set (w := fun i => n_arr nrb i 3%Z). pose proof W as [_ [Wa _]].
  assert (HN : forall xs idx k k2 k3 kS C F, good_args (spec_axes nrb) xs -> in_range xs idx -> call (N:=Rn) k k2 k3 kS nrb (map Some xs) FYes = Ok (C, Some F) ->
    C idx c = gD (spec_axes nrb) (fun i => n_arr nrb i c) w [] (params xs idx) /\ F idx c = gD (spec_axes nrb) (fun i => n_arr nrb i (4 + c)%Z) w [] (params xs idx)).
  { clear xs Gx idx Rg E N0 C F. intros xs idx k k2 k3 kS C F Gx Rg E. destruct (call_pt nrb xs W Gx k k2 k3 kS) as (C0 & F0 & E0 & H). rewrite E in E0. injection E0 as <- <-.
    destruct (H idx c Rg) as [H1 H2]. pose proof (spans_act _ _ Wa (params_box _ _ _ Gx Rg)) as A.
    unfold gD, Qd. cbn [rev map quot]. unfold q0, ev. rewrite !Pd_value by auto. split; [exact H1|exact H2]. }
  pose proof (params_box _ _ _ Gx Rg) as Bx.
  destruct (gD_close (spec_axes nrb) (fun i => n_arr nrb i c) w [] (params xs idx) Wa Bx (Forall_nil _) S N0 eps He) as (d1 & H1 & K1).
  destruct (gD_close (spec_axes nrb) (fun i => n_arr nrb i (4 + c)%Z) w [] (params xs idx) Wa Bx (Forall_nil _) S N0 eps He) as (d2 & H2 & K2).
  exists (Rmin d1 d2). split; [apply Rmin_pos; auto|]. intros ys idx' k k2 k3 kS C' F' Gy Ry E' Cl.
  destruct (HN _ _ _ _ _ _ _ _ Gx Rg E) as [-> ->]. destruct (HN _ _ _ _ _ _ _ _ Gy Ry E') as [-> ->].
  assert (M : forall d, Rmin d1 d2 <= d -> close d (params xs idx) (params ys idx')).
  { intros d Hd. clear -Cl Hd. unfold close in *. induction Cl; constructor; auto; lra. }
  split; [apply K1|apply K2]; try apply (params_box _ _ _ Gy Ry); apply M; [apply Rmin_l|apply Rmin_r].
Qed.
