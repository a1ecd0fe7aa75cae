(** Smoothness of what the methods of NURBS return. *)
From Coq Require Import ZArith Reals List Lia Lra Bool.
From Verif Require Import Num Loop ModelBspline ModelBSp ModelNurbs ModelDer Spec SumZ BPiece BLink SpecNurbs SpecDer BDer ProofSpan ProofNet ProofCall ProofNurbs ProofGeom
  ProofRational ProofDerLink ProofDerApi ProofDer4 SpecSmooth ProofSmooth ProofSmooth2.
Import ListNotations.
Local Open Scope R_scope.

Lemma up_count D k : count_occ Z.eq_dec (up D) (Z.of_nat k + 1)%Z = count_occ Nat.eq_dec D k.
Proof.
  unfold up. rewrite map_rev. transitivity (count_occ Z.eq_dec (map (fun k => Z.of_nat k + 1)%Z D) (Z.of_nat k + 1)%Z).
  - generalize (map (fun k => Z.of_nat k + 1)%Z D). induction l as [|z l IH]; simpl; auto. rewrite count_occ_app, IH. simpl. destruct (Z.eq_dec z (Z.of_nat k + 1)%Z); lia.
  - induction D as [|j D IH]; auto. cbn [map count_occ]. rewrite IH. destruct (Z.eq_dec _ _), (Nat.eq_dec j k); lia.
Qed.
Lemma smooth_smc axs D : Forall (fun k => (k < length axs)%nat) D -> smooth_for axs D -> smc axs (up D).
Proof.
  intros HD S. split.
  - unfold dirs_ok, up. rewrite Forall_map. apply Forall_rev. eapply Forall_impl; [|exact HD]. cbv beta. intros; lia.
  - intros k Hk. rewrite up_count. apply S. auto.
Qed.
Lemma act_unique axs : forall ss ss' x, Forall wf_ax axs -> act_box axs ss x -> act_box axs ss' x -> ss = ss'.
Proof.
  induction axs as [|a axs IH]; intros ss ss' x W A A'; inversion A; subst; inversion A'; subst; auto. inversion W as [|? ? [Hp Wk] W']; subst.
  f_equal; [eapply active_unique; eauto|eapply IH; eauto].
Qed.
Lemma act_near axs : forall d x ss y, Forall wf_ax axs -> act_box axs ss y -> close d x y -> nearb d axs x ss y.
Proof.
  induction axs as [|a axs IH]; intros d x ss y W A C; inversion A; subst; inversion C; subst; simpl; auto. inversion W as [|? ? Wa W']; subst.
  split; [split; auto; apply cin_active; auto|]. apply IH; auto.
Qed.
Lemma interior_near axs : forall x k, interior axs x -> exists eps, 0 < eps /\ forall t, Rabs (t - nth k x 0) < eps -> interior axs (put k t x).
Proof.
  induction axs as [|a axs IH]; intros x k I; inversion I as [|? u ? x' Hu I']; subst.
  - exists 1. split; [lra|]. intros t _. destruct k; constructor.
  - destruct k as [|k]; cbn [put nth].
    + exists (Rmin (u - x_U a (x_p a)) (x_U a (x_n a + 1)%Z - u)). split; [apply Rmin_pos; lra|]. intros t Ht.
      pose proof (Rmin_l (u - x_U a (x_p a)) (x_U a (x_n a + 1)%Z - u)). pose proof (Rmin_r (u - x_U a (x_p a)) (x_U a (x_n a + 1)%Z - u)). apply Rabs_def2 in Ht. constructor; auto. lra.
    + destruct (IH x' k I') as (e & He & K). exists e. split; auto. intros t Ht. constructor; auto. apply K; auto.
Qed.
Lemma gD_rat axs w F y : Forall wf_ax axs -> in_box axs y -> gD axs (fun i => w i * F i) w [] y = rat axs w F y.
Proof.
  intros W I. pose proof (spans_act axs y W I) as A. unfold gD, Qd, rat. cbn [rev map quot]. unfold q0, ev. rewrite !Pd_value by auto. reflexivity.
Qed.
Lemma gD_der axs w F x D : Forall wf_ax axs -> interior axs x -> (length D <= 4)%nat -> Forall (fun k => (k < length axs)%nat) D -> smooth_for axs D ->
  der_interior axs (rat axs w F) (tsum axs w) x D (gD axs (fun i => w i * F i) w D x).
Proof.
  intros W I HL HD S. exists (gD axs (fun i => w i * F i) w D). split; [|reflexivity].
  apply (partials_local _ _ (gD axs (fun i => w i * F i) w [])).
  - intros y [Iy _]. apply gD_rat; auto. apply interior_box; auto.
  - intros y k [Iy _]. destruct (interior_near axs y k Iy) as (e & He & K). exists e. split; auto. intros t Ht. apply gD_rat; auto. apply interior_box; auto.
  - apply (gD_partials axs (fun i => w i * F i) w W D []); auto. apply smooth_smc; auto.
Qed.

Section Api.
Variables (junk : Z -> R) (junk2 : Z -> Z -> R).
Lemma der_gD nrb xs idx F D : wf_nurbs nrb -> (1 <= length (n_axes nrb))%nat -> good_args (spec_axes nrb) xs -> in_range xs idx ->
  dirs (length (n_axes nrb)) D -> (length D <= 3)%nat ->
  d_interp (N:=Rn) junk junk2 (Z.of_nat (length D)) (d_axes (N:=Rn) (n_axes nrb) xs idx) (n_arr nrb) F (map (fun d => d + 1)%Z (rev D)) =
  gD (spec_axes nrb) (fun i => n_arr nrb i 3%Z * F i) (fun i => n_arr nrb i 3%Z) (map Z.to_nat D) (params xs idx).
Proof.
  intros W Hd G Rg HD HL. destruct (der_value junk junk2 nrb xs idx (n_arr nrb) F D W Hd G Rg HD) as (ss & A & E); [split; lia|].
  destruct W as [_ [W _]]. pose proof (spans_act _ _ W (params_box _ _ _ G Rg)) as A'. rewrite (act_unique _ _ _ _ W A A') in E.
  rewrite E. unfold gD. destruct D as [|l [|k [|j [|i D]]]]; simpl in HL; try lia; apply Rplus_0_r.
Qed.
End Api.

Lemma gD_close axs P w D x : Forall wf_ax axs -> in_box axs x -> Forall (fun k => (k < length axs)%nat) D -> smooth_for axs D -> tsum axs w x <> 0 ->
  forall eps, 0 < eps -> exists d, 0 < d /\ forall y, in_box axs y -> close d x y -> Rabs (gD axs P w D y - gD axs P w D x) < eps.
Proof.
  intros W I HD S N0 eps He. pose proof (spans_act axs x W I) as A. pose proof (act_cbox _ _ _ W A) as C.
  destruct (Qd_clos axs (spans_at axs x) P w D x W (smooth_smc _ _ HD S) C ltac:(rewrite Pd_value; auto) eps He) as (d & Hd & K).
  exists d. split; auto. intros y Iy Cy. apply (K (spans_at axs y, y)). apply act_near; auto. apply spans_act; auto.
Qed.
