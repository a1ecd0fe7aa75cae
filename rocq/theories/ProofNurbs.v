(** Methods of [NURBS] that work on one axis: generic lifting from curves to the whole object. *)
From Coq Require Import ZArith Reals List Lia Lra Bool.
From Verif Require Import Num Loop ModelBspline ModelBSp ModelNurbs Spec SumZ BPiece BLink ProofSpan SpecNurbs ProofNet ProofCall.
Import ListNotations.
Local Open Scope R_scope.

(** Two objects return the same points and the same field values at every parameter of the
    domain, whatever the work arrays contained. *)
Definition same_evaluation (nrb nrb' : nurbs Rn) : Prop :=
  forall xs, good_args (spec_axes nrb) xs ->
  forall j j2 j3 jS k k2 k3 kS,
  exists C F C' F',
    call (N:=Rn) j j2 j3 jS nrb (map Some xs) FYes = Ok (C, Some F) /\
    call (N:=Rn) k k2 k3 kS nrb' (map Some xs) FYes = Ok (C', Some F') /\
    forall idx c, in_range xs idx -> C idx c = C' idx c /\ F idx c = F' idx c.

Definition same_dom (a b : axR) : Prop :=
  x_U a (x_p a) = x_U b (x_p b) /\ x_U a (x_n a + 1)%Z = x_U b (x_n b + 1)%Z.

(** The homogeneous values agree on the common domain. *)
Record preserves (nrb nrb' : nurbs Rn) : Prop := {
  pr_wf : wf_nurbs nrb';
  pr_comp : n_comp nrb' = n_comp nrb;
  pr_dom : Forall2 same_dom (spec_axes nrb) (spec_axes nrb');
  pr_hom : forall us c, in_box (spec_axes nrb) us -> hom nrb' c us = hom nrb c us
}.

Lemma same_dom_refl a : same_dom a a.
Proof. split; reflexivity. Qed.
Lemma Forall2_refl {A} (P : A -> A -> Prop) (H : forall x, P x x) l : Forall2 P l l.
Proof. induction l; constructor; auto. Qed.

Lemma good_args_dom axs axs' xs : Forall2 same_dom axs axs' -> good_args axs xs -> good_args axs' xs.
Proof.
  intros D. revert xs. induction D as [|a b axs axs' [D1 D2] D IH]; intros xs G; inversion G as [|? ? ? ? [L I] G']; subst; constructor.
  - split; auto. intros i Hi. destruct (I i Hi). unfold in_domain in *. rewrite <- D1, <- D2. lra.
  - apply IH; auto.
Qed.
Lemma in_box_dom axs axs' us : Forall2 same_dom axs axs' -> in_box axs us -> in_box axs' us.
Proof.
  intros D. revert us. induction D as [|a b axs axs' [D1 D2] D IH]; intros us G; inversion G as [|? ? ? ? I G']; subst; constructor.
  - destruct I. unfold in_domain in *. rewrite <- D1, <- D2. lra.
  - apply IH; auto.
Qed.

Lemma preserves_refl nrb : wf_nurbs nrb -> preserves nrb nrb.
Proof. intros W. constructor; auto. apply Forall2_refl. apply same_dom_refl. Qed.

Lemma same_dom_trans : forall l1 l2 l3, Forall2 same_dom l1 l2 -> Forall2 same_dom l2 l3 -> Forall2 same_dom l1 l3.
Proof.
  intros l1 l2 l3 H. revert l3. induction H as [|a b l1 l2 [E1 E2] H IH]; intros l3 H3; inversion H3 as [|? c ? l3' [F1 F2] H3']; subst; constructor.
  - split; etransitivity; eauto.
  - auto.
Qed.

Lemma preserves_trans n1 n2 n3 : preserves n1 n2 -> preserves n2 n3 -> preserves n1 n3.
Proof.
  intros [W1 C1 D1 H1] [W2 C2 D2 H2]. constructor; auto.
  - congruence.
  - eapply same_dom_trans; eauto.
  - intros us c B. rewrite H2, H1; auto. eapply in_box_dom; eauto.
Qed.

Theorem preserves_evaluation nrb nrb' : wf_nurbs nrb -> preserves nrb nrb' -> same_evaluation nrb nrb'.
Proof.
  intros W [W' C' D' H'] xs G j j2 j3 jS k k2 k3 kS.
  destruct (call_spec j j2 j3 jS nrb xs FYes (n_comp nrb) (n_arr nrb) W G eq_refl) as [C [F0 [E [HC [F [EF HF]]]]]].
  destruct (call_spec k k2 k3 kS nrb' xs FYes (n_comp nrb') (n_arr nrb') W' (good_args_dom _ _ _ D' G) eq_refl)
    as [C1 [F1 [E1 [HC1 [F2 [EF2 HF2]]]]]]. subst F0 F1.
  exists C, F, C1, F2. split; auto. split; auto. intros idx c I.
  pose proof (params_box _ _ _ G I) as B.
  rewrite HC, HC1, HF, HF2 by auto.
  unfold hom in H'. rewrite !(fun c => H' (params xs idx) c B). split; reflexivity.
Qed.

(** Positions. *)
Lemma py_axis_ok dim ax a : py_axis dim ax = Ok a -> (a < Z.to_nat dim)%nat.
Proof.
  unfold py_axis. destruct (Z.leb_spec (- dim) ax), (Z.ltb_spec ax dim); simpl; try discriminate.
  intros E; injection E as <-. destruct (Z.ltb_spec ax 0); lia.
Qed.
Lemma py_axis_dim nrb ax a : py_axis (n_dim (N:=Rn) nrb) ax = Ok a -> (a < length (n_axes nrb))%nat.
Proof. intros E. apply py_axis_ok in E. unfold n_dim in E. lia. Qed.
Lemma py_axis_nat dim a : (0 <= a < dim)%Z -> py_axis dim a = Ok (Z.to_nat a).
Proof.
  intros H. unfold py_axis. destruct (Z.leb_spec (- dim) a), (Z.ltb_spec a dim); simpl; try lia.
  destruct (Z.ltb_spec a 0); [lia|]. reflexivity.
Qed.

Lemma nth_spec_axes nrb a : nth a (spec_axes nrb) (spec_ax (axis0 (N:=Rn))) = spec_ax (get_axis nrb a).
Proof. unfold spec_axes, get_axis. rewrite <- (map_nth spec_ax). reflexivity. Qed.

Lemma wf_get_axis nrb a : wf_nurbs nrb -> (a < length (n_axes nrb))%nat -> wf_ax (spec_ax (get_axis nrb a)).
Proof.
  intros [_ [W _]] Ha. rewrite <- nth_spec_axes. apply Forall_nth'; auto. unfold spec_axes. rewrite map_length. auto.
Qed.

(** Changing one axis by a kernel that preserves every curve along it. *)
Theorem axis_change nrb a A' K : wf_nurbs nrb -> (a < length (n_axes nrb))%nat ->
  let A := get_axis nrb a in
  wf_ax (spec_ax A') -> same_dom (spec_ax A) (spec_ax A') ->
  (forall P x, in_domain (a_size A - 1) (a_deg A) (a_knots A) x ->
     curve (a_size A' - 1) (a_deg A') (a_knots A') (K P) x = curve (a_size A - 1) (a_deg A) (a_knots A) P x) ->
  preserves nrb (mkNurbs (lset a A' (n_axes nrb)) (n_comp nrb) (along (N:=Rn) a K (n_arr nrb))).
Proof.
  intros W Ha A WA D HK. destruct W as [Wl [Wf Wc]].
  constructor.
  - split; [|split]; unfold spec_axes; cbn [n_axes n_comp]; auto.
    + rewrite lset_length. auto.
    + rewrite map_lset. apply Forall_lset; auto.
  - reflexivity.
  - unfold spec_axes. cbn [n_axes]. rewrite map_lset. rewrite <- (lset_nth a (spec_ax axis0) (map spec_ax (n_axes nrb))) at 1.
    apply Forall2_lset.
    + apply Forall2_refl, same_dom_refl.
    + change (map spec_ax (n_axes nrb)) with (spec_axes nrb). rewrite nth_spec_axes. exact D.
  - intros us c B. unfold hom, spec_axes. cbn [n_axes n_arr]. rewrite map_lset.
    pose proof (in_box_length _ _ B) as Hl. unfold spec_axes in Hl.
    apply (tsum_along _ a (spec_ax A') K (n_arr nrb) us c (spec_ax axis0)).
    + rewrite map_length; auto.
    + auto.
    + intros idx _. change (map spec_ax (n_axes nrb)) with (spec_axes nrb). rewrite nth_spec_axes. apply HK.
      pose proof (Forall2_nth _ _ _ a (spec_ax axis0) 0 B) as X. rewrite nth_spec_axes in X. apply X.
      unfold spec_axes. rewrite map_length. auto.
Qed.
