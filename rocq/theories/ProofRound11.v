(** The computed points and the box of the control points, in doubles. *)
From Coq Require Import ZArith Reals List Bool SpecFloat Lia Lra.
From Verif Require Import Num Loop Spec SumZ ModelBspline ModelBSp ModelNurbs ModelFloat SpecNurbs SpecDouble SpecRound
  ProofRound ProofRound2 ProofRound3 ProofRound4 ProofRound7 ProofRound8 ProofNet ProofCall ProofGeom2.
Import ListNotations.
Local Open Scope R_scope.

Lemma Rabs_def2_le x y : Rabs x <= y -> - y <= x <= y.
Proof. intros H. apply abs_le in H. lra. Qed.
Theorem box_close : forall junk junk2 junk3 junkS (nrb : nurbs Dn) xs (fields : bool),
  (length (n_axes nrb) <= 3)%nat -> Forall mild_axis (n_axes nrb) -> Forall2 mild_arg (n_axes nrb) xs -> mild_weights nrb ->
  exists C F, call (N:=Dn) junk junk2 junk3 junkS nrb (map Some xs) (if fields then FYes else FNo) = Ok (C, F) /\
    forall idx c lo hi, Forall2 (fun x i => (0 <= i < v_len x)%Z) xs idx -> - b2 500 <= lo -> hi <= b2 500 ->
      (forall i, in_net (map real_ax (n_axes nrb)) i -> finite (n_arr nrb i c) /\ lo <= dval (n_arr nrb i c) / dval (n_arr nrb i 3%Z) <= hi) ->
      let err := b2 (-49) * effort (n_axes nrb) * Rmax (- lo) hi + b2 (-900) in
      finite (C idx c) /\ lo - err <= dval (C idx c) <= hi + err.
Proof.
  intros junk junk2 junk3 junkS nrb xs fields Hl W Gd MW. destruct (call_double junk junk2 junk3 junkS nrb xs fields Hl W Gd MW) as (C & F & E & _ & H).
  exists C, F. split; [exact E|]. intros idx c lo hi I L1 L2 B err. pose proof (wf_axs _ W) as WA. pose proof (par_box _ _ _ Gd I) as BX.
  set (axs := n_axes nrb) in *. set (us := real_params xs idx) in *.
  assert (LU : length us = length (map real_ax axs)) by (apply in_box_length; exact BX).
  assert (B1 : forall i, in_net (map real_ax axs) i -> lo * dval (n_arr nrb i 3%Z) <= dval (n_arr nrb i c) <= hi * dval (n_arr nrb i 3%Z)).
  { intros i Hi. destruct (B i Hi) as [_ [Q1 Q2]]. destruct (MW i Hi) as [_ [Q3 _]]. pose proof (b2_pos (-100)) as P. set (w := dval (n_arr nrb i 3%Z)) in *. set (y := dval (n_arr nrb i c)) in *.
    assert (Ey : y = y / w * w) by (field; lra). rewrite Ey. split; apply Rmult_le_compat_r; lra. }
  set (Wt := tsum (map real_ax axs) (fun i => dval (n_arr nrb i 3%Z)) us).
  assert (W1 : b2 (-100) <= Wt).
  { unfold Wt. rewrite <- (tsum_const (map real_ax axs) us (b2 (-100)) WA BX). apply tsum_mono; auto. intros i Hi. apply MW. exact Hi. }
  pose proof (b2_pos (-100)) as P100.
  assert (Q : lo <= real_pt nrb c us <= hi).
  { unfold real_pt. fold axs Wt. assert (Q1 : lo * Wt <= tsum (map real_ax axs) (fun i => dval (n_arr nrb i c)) us <= hi * Wt).
    { unfold Wt. rewrite <- !tsum_scal by auto. split; apply tsum_mono; auto; intros i Hi; apply B1; exact Hi. }
    set (y := tsum (map real_ax axs) (fun i => dval (n_arr nrb i c)) us) in *.
    split; (apply Rmult_le_reg_r with Wt; [lra|]; unfold Rdiv; rewrite Rmult_assoc, Rinv_l by lra; lra). }
  pose proof (Rmax_l (- lo) hi) as M1. pose proof (Rmax_r (- lo) hi) as M2.
  destruct (H idx c (Rmax (- lo) hi) I) as [Fc Ec].
  - split; [lra|]. apply Rmax_lub; lra.
  - intros i Hi. split; [apply B; exact Hi|]. destruct (B1 i Hi) as [Q1 Q2]. destruct (MW i Hi) as [_ [Q3 _]]. set (w := dval (n_arr nrb i 3%Z)) in *.
    apply Rabs_le. set (M := Rmax (- lo) hi) in *. assert (- lo * w <= M * w) by (apply Rmult_le_compat_r; lra). assert (hi * w <= M * w) by (apply Rmult_le_compat_r; lra). lra.
  - fold us in Ec. fold err in Ec. apply Rabs_def2_le in Ec. split; [exact Fc|]. lra.
Qed.
