(** Derivatives under changes of parameters that act on each axis separately or permute the axes. *)
From Coq Require Import ZArith Reals List Lia Lra Bool.
From Verif Require Import Num Loop ModelBspline ModelBSp ModelNurbs ModelDer Spec SumZ BPiece BLink SpecNurbs SpecDer BDer ProofSpan ProofNet ProofCall ProofNurbs ProofGeom ProofGeom2
  ProofRational ProofDerLink ProofDerApi ProofDerApi2 ProofDer4 PropDer PropNurbs SpecSmooth ProofSmooth ProofSmooth2 ProofSmooth3 ProofSmooth4 ProofUniq ProofUniq2 ProofInsert ProofCompat1 ProofDerGeom ProofDerGeom2.
Import ListNotations.
Local Open Scope R_scope.

Section Move.
Variables (axs axs' : list axR) (phi : list R -> list R) (sg : nat -> nat) (al be : nat -> R) (dom : list R -> Prop) (P w P' w' : list Z -> R).
Hypothesis W : Forall wf_ax axs.
Hypothesis W' : Forall wf_ax axs'.
Hypothesis dom_box : forall y, dom y -> in_box axs y.
Hypothesis phi_box : forall y, dom y -> in_box axs' (phi y).
Hypothesis sg_lt : forall k, (k < length axs)%nat -> (sg k < length axs')%nat.
Hypothesis phi_put : forall k t y, length y = length axs -> (k < length axs)%nat -> phi (put k t y) = put (sg k) (al k * t + be k) (phi y).
Hypothesis phi_nth : forall k y, length y = length axs -> (k < length axs)%nat -> nth (sg k) (phi y) 0 = al k * nth k y 0 + be k.
Hypothesis stay : forall x k, dom x -> (k < length axs)%nat -> exists s e, (s = 1 \/ s = -1) /\ 0 < e /\ forall h, 0 <= h < e ->
  let y := put k (nth k x 0 + s * h) x in dom y /\ act_box axs (spans_at axs x) y /\ act_box axs' (spans_at axs' (phi x)) (phi y).
Hypothesis Z1 : forall y, dom y -> tsum axs w y <> 0.
Hypothesis Z2 : forall y, dom y -> tsum axs' w' (phi y) <> 0.
Hypothesis HE : forall y, dom y -> tsum axs P y / tsum axs w y = tsum axs' P' (phi y) / tsum axs' w' (phi y).
Definition scales (D : list nat) : R := fold_right (fun k r => r * al k) 1 (rev D).
Lemma scales_app D k : scales (D ++ [k]) = scales D * al k.
Proof. unfold scales. rewrite rev_app_distr. reflexivity. Qed.
Lemma gD_move D : (length D <= 4)%nat -> Forall (fun k => (k < length axs)%nat) D -> forall x, dom x -> gD axs P w D x = scales D * gD axs' P' w' (map sg D) (phi x).
Proof.
  induction D as [|k D IH] using rev_ind; intros HL HD x Dx.
  - pose proof (spans_act axs x W (dom_box x Dx)) as A. pose proof (spans_act axs' (phi x) W' (phi_box x Dx)) as A'.
    unfold scales. cbn [rev fold_right map]. rewrite Rmult_1_l. unfold gD, Qd. cbn [rev map quot]. unfold q0, ev. rewrite !Pd_value by auto. apply HE; auto.
  - rewrite app_length in HL. simpl in HL. pose proof HD as HD0. apply Forall_app in HD. destruct HD as [HD Hk]. inversion Hk as [|? ? Hk' _]; subst.
    assert (Lx : length x = length axs) by (symmetry; apply (Forall2_len _ _ _ (dom_box x Dx))).
    assert (Lp : length (phi x) = length axs') by (symmetry; apply (Forall2_len _ _ _ (phi_box x Dx))).
    pose proof (spans_act axs x W (dom_box x Dx)) as A. pose proof (spans_act axs' (phi x) W' (phi_box x Dx)) as A'.
    assert (HM : Forall (fun j => (j < length axs')%nat) (map sg D ++ [sg k])).
    { apply Forall_app. split; [|constructor; auto]. clear - HD sg_lt. induction HD; cbn [map]; constructor; auto. }
    destruct (stay x k Dx Hk') as (s & e & Hs & He & K). rewrite map_app, scales_app. cbn [map].
    apply (one_sided (fun t => Qd axs (spans_at axs x) P w D (put k t x)) (fun t => scales D * Qd axs' (spans_at axs' (phi x)) P' w' (map sg D) (put (sg k) (al k * t + be k) (phi x))) (nth k x 0) s e).
    + exact Hs.
    + exact He.
    + intros h Hh. destruct (K h Hh) as (Dy & K1 & K2). cbv zeta in *. set (y := put k (nth k x 0 + s * h) x) in *.
      rewrite <- phi_put by auto. fold y. pose proof (IH ltac:(lia) HD y Dy) as E. unfold gD in E.
      rewrite (act_unique _ _ _ _ W (spans_act axs y W (dom_box y Dy)) K1), (act_unique _ _ _ _ W' (spans_act axs' (phi y) W' (phi_box y Dy)) K2) in E. exact E.
    + apply Qd_partial1; auto; [eapply cbox_good; [|apply act_cbox]; eauto|lia|rewrite Pd_value by auto; auto].
    + rewrite Rmult_assoc, (Rmult_comm (al k)). apply (dl_scal (scales D)).
      apply (derivable_pt_lim_comp (fun t => al k * t + be k) (fun t => Qd axs' (spans_at axs' (phi x)) P' w' (map sg D) (put (sg k) t (phi x)))).
      * eapply dl_eq; [|apply derivable_pt_lim_plus; [apply (derivable_pt_lim_scal id (al k)), derivable_pt_lim_id|apply derivable_pt_lim_const]]. ring.
      * rewrite <- phi_nth by lia. apply Qd_partial1; auto; [eapply cbox_good; [|apply act_cbox]; eauto|rewrite map_length; lia|rewrite Pd_value by auto; auto].
Qed.
End Move.

(** ** Parameters that are no knots *)
Definition off_knots (a : axR) (u : R) : Prop := forall i, (0 <= i <= x_n a + x_p a + 1)%Z -> x_U a i <> u.
Lemma off_active a u s : wf_ax a -> active (x_n a) (x_p a) (x_U a) u s -> off_knots a u -> x_U a s < u < x_U a (s + 1)%Z.
Proof.
  intros [Hp W] [Hs A] O. pose proof (wf_n _ _ _ W). pose proof (O s ltac:(lia)). pose proof (O (x_n a + 1)%Z ltac:(lia)).
  destruct A as [A|[-> A]]; lra.
Qed.
Lemma inside_off a u s : wf_ax a -> (x_p a <= s <= x_n a)%Z -> x_U a s < u < x_U a (s + 1)%Z -> active (x_n a) (x_p a) (x_U a) u s /\ off_knots a u.
Proof.
  intros [Hp W] Hs A. split; [split; auto; left; lra|]. intros i Hi E.
  destruct (Z_le_gt_dec i s); [pose proof (wf_mono _ _ _ W i s ltac:(lia) ltac:(lia) ltac:(lia))|pose proof (wf_mono _ _ _ W (s + 1)%Z i ltac:(lia) ltac:(lia) ltac:(lia))]; lra.
Qed.
Lemma off_both a u s : wf_ax a -> active (x_n a) (x_p a) (x_U a) u s -> off_knots a u ->
  exists e, 0 < e /\ forall v, Rabs (v - u) < e -> active (x_n a) (x_p a) (x_U a) v s /\ off_knots a v.
Proof.
  intros W A O. pose proof (off_active a u s W A O) as L. exists (Rmin (u - x_U a s) (x_U a (s + 1)%Z - u)). split; [apply Rmin_pos; lra|].
  intros v Hv. apply inside_off; auto; [apply A|]. pose proof (Rmin_l (u - x_U a s) (x_U a (s + 1)%Z - u)). pose proof (Rmin_r (u - x_U a s) (x_U a (s + 1)%Z - u)).
  apply Rabs_def2 in Hv. lra.
Qed.
