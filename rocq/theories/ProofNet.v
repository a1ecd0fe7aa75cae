(** Lifting one-dimensional facts to nets: expansion of the tensor sum along one axis. *)
From Coq Require Import ZArith Reals List Lia Lra Bool.
From Verif Require Import Num Loop ModelBspline ModelBSp ModelNurbs Spec SumZ SpecNurbs.
Import ListNotations.
Local Open Scope R_scope.

Lemma tsum_ext axs : forall P Q us, length us = length axs -> (forall idx, in_net axs idx -> P idx = Q idx) ->
  tsum axs P us = tsum axs Q us.
Proof.
  induction axs as [|a axs IH]; intros P Q us Hl H; destruct us as [|u us]; try discriminate; simpl.
  - apply H. constructor.
  - apply sumZ_ext. intros i Hi. f_equal. apply IH; [simpl in Hl; lia|].
    intros idx Hx. apply H. constructor; auto.
Qed.

Lemma tsum_sumZ axs : forall us lo hi (c : Z -> R) (P : Z -> list Z -> R), length us = length axs ->
  tsum axs (fun idx => sumZ lo hi (fun i => c i * P i idx)) us = sumZ lo hi (fun i => c i * tsum axs (P i) us).
Proof.
  induction axs as [|a axs IH]; intros us lo hi c P Hl; destruct us as [|u us]; try discriminate; simpl; auto.
  simpl in Hl.
  rewrite (sumZ_ext lo hi (fun i => c i * sumZ 0 (x_n a) (fun j => Nb (x_n a) (x_p a) (x_U a) j u *
     tsum axs (fun idx => P i (j :: idx)) us))
     (fun i => sumZ 0 (x_n a) (fun j => c i * (Nb (x_n a) (x_p a) (x_U a) j u * tsum axs (fun idx => P i (j :: idx)) us)))).
  2:{ intros. rewrite sumZ_scal. reflexivity. }
  rewrite sumZ_swap. apply sumZ_ext. intros j Hj. rewrite (IH us lo hi c (fun i idx => P i (j :: idx))) by lia.
  rewrite <- sumZ_scal. apply sumZ_ext. intros; lra.
Qed.

Lemma tsum_plus axs : forall P Q us, length us = length axs ->
  tsum axs (fun idx => P idx + Q idx) us = tsum axs P us + tsum axs Q us.
Proof.
  induction axs as [|a axs IH]; intros P Q us Hl; destruct us as [|u us]; try discriminate; simpl; auto.
  rewrite <- sumZ_plus. apply sumZ_ext. intros j Hj. rewrite IH by (simpl in Hl; lia). lra.
Qed.
Lemma tsum_scal axs : forall P c us, length us = length axs ->
  tsum axs (fun idx => c * P idx) us = c * tsum axs P us.
Proof.
  induction axs as [|a axs IH]; intros P c us Hl; destruct us as [|u us]; try discriminate; simpl; auto.
  rewrite <- sumZ_scal. apply sumZ_ext. intros j Hj. rewrite IH by (simpl in Hl; lia). lra.
Qed.
Lemma tsum_minus axs P Q us : length us = length axs ->
  tsum axs (fun idx => P idx - Q idx) us = tsum axs P us - tsum axs Q us.
Proof.
  intros H. rewrite (tsum_ext axs _ (fun idx => P idx + (-1) * Q idx)); auto.
  - rewrite tsum_plus, tsum_scal by auto. lra.
  - intros; lra.
Qed.

(** ** Positions in lists *)
Lemma lset_length {A} a (v : A) l : length (lset a v l) = length l.
Proof. revert a; induction l; intros [|a']; simpl; auto. Qed.
Lemma lrem_length {A} a (l : list A) : (a < length l)%nat -> length (lrem a l) = pred (length l).
Proof. revert a; induction l as [|x l IH]; intros [|a']; simpl; intros; try lia. rewrite IH by lia. lia. Qed.
Lemma lins_length {A} a (v : A) l : length (lins a v l) = S (length l).
Proof. revert a; induction l; intros [|a']; simpl; auto. Qed.
Lemma nth_lset {A} a (v d : A) l : (a < length l)%nat -> nth a (lset a v l) d = v.
Proof. revert a; induction l; intros [|a']; simpl; intros; try lia; auto. apply IHl. lia. Qed.
Lemma nth_lset_other {A} a b (v d : A) l : a <> b -> nth b (lset a v l) d = nth b l d.
Proof. revert a b; induction l; intros [|a'] [|b']; simpl; intros; auto; try lia. Qed.
Lemma nth_lins {A} a (v d : A) l : (a <= length l)%nat -> nth a (lins a v l) d = v.
Proof. revert a; induction l; intros [|a']; simpl; intros; try lia; auto. apply IHl. lia. Qed.
Lemma lset_lins {A} a (v w : A) l : (a <= length l)%nat -> lset a v (lins a w l) = lins a v l.
Proof. revert a; induction l; intros [|a']; simpl; intros; try lia; auto. f_equal. apply IHl. lia. Qed.
Lemma lins_lrem {A} a (d : A) l : (a < length l)%nat -> lins a (nth a l d) (lrem a l) = l.
Proof. revert a; induction l; intros [|a']; simpl; intros; try lia; auto. f_equal. apply IHl. lia. Qed.
Lemma lrem_lset {A} a (v : A) l : lrem a (lset a v l) = lrem a l.
Proof. revert a; induction l; intros [|a']; simpl; auto. f_equal; auto. Qed.
Lemma lrem_lins {A} a (v : A) l : (a <= length l)%nat -> lrem a (lins a v l) = l.
Proof. revert a; induction l; intros [|a']; simpl; intros; auto; try lia. f_equal; apply IHl; lia. Qed.
Lemma lset_eq_lins {A} a (v : A) l : (a < length l)%nat -> lset a v l = lins a v (lrem a l).
Proof. revert a; induction l; intros [|a']; simpl; intros; auto; try lia. f_equal; apply IHl; lia. Qed.
Lemma lset_lset {A} a (v w : A) l : lset a v (lset a w l) = lset a v l.
Proof. revert a; induction l; intros [|a']; simpl; auto. f_equal; auto. Qed.
Lemma lset_nth {A} a (d : A) l : lset a (nth a l d) l = l.
Proof. revert a; induction l; intros [|a']; simpl; auto. f_equal; auto. Qed.
Lemma map_lset {A B} (f : A -> B) a v l : map f (lset a v l) = lset a (f v) (map f l).
Proof. revert a; induction l; intros [|a']; simpl; auto. f_equal; auto. Qed.
Lemma map_lrem {A B} (f : A -> B) a l : map f (lrem a l) = lrem a (map f l).
Proof. revert a; induction l; intros [|a']; simpl; auto. f_equal; auto. Qed.

(** ** Expansion along one axis *)
Lemma tsum_axis : forall a axs P us d0, (a < length axs)%nat -> length us = length axs ->
  let A := nth a axs d0 in
  tsum axs P us =
  tsum (lrem a axs) (fun idx => curve (x_n A) (x_p A) (x_U A) (fun i => P (lins a i idx)) (nth a us 0)) (lrem a us).
Proof.
  induction a as [|a IH]; intros axs P us d0 Ha Hl; destruct axs as [|A axs]; simpl in Ha; try lia;
  destruct us as [|u us]; simpl in Hl; try lia; simpl.
  - unfold curve. rewrite <- (tsum_sumZ axs us) by lia. apply tsum_ext; [lia|]. intros. reflexivity.
  - apply sumZ_ext. intros i Hi. f_equal. rewrite (IH axs _ us d0) by lia. reflexivity.
Qed.

Lemma in_net_length axs idx : in_net axs idx -> length idx = length axs.
Proof. intros H. induction H; simpl; auto. Qed.
Lemma in_box_length axs us : in_box axs us -> length us = length axs.
Proof. intros H. induction H; simpl; auto. Qed.
Lemma Forall2_nth {A B} (R : A -> B -> Prop) l l' a d d' : Forall2 R l l' -> (a < length l)%nat -> R (nth a l d) (nth a l' d').
Proof. intros H. revert a. induction H; intros [|a'] Ha; simpl in *; try lia; auto. apply IHForall2. lia. Qed.
Lemma Forall2_lset {A B} (R : A -> B -> Prop) l l' a v w : Forall2 R l l' -> R v w -> Forall2 R (lset a v l) (lset a w l').
Proof. intros H. revert a. induction H; intros [|a'] Ha; simpl in *; auto. Qed.
Lemma Forall2_lrem {A B} (R : A -> B -> Prop) l l' a : Forall2 R l l' -> Forall2 R (lrem a l) (lrem a l').
Proof. intros H. revert a. induction H; intros [|a']; simpl in *; auto. Qed.
Lemma Forall2_lins {A B} (R : A -> B -> Prop) l l' a v w : Forall2 R l l' -> R v w -> Forall2 R (lins a v l) (lins a w l').
Proof. intros H. revert a. induction H; intros [|a'] Ha; simpl in *; auto. Qed.
Lemma Forall_lset {A} (R : A -> Prop) l a v : Forall R l -> R v -> Forall R (lset a v l).
Proof. intros H. revert a. induction H; intros [|a'] Ha; simpl in *; auto. Qed.
Lemma Forall_lrem {A} (R : A -> Prop) l a : Forall R l -> Forall R (lrem a l).
Proof. intros H. revert a. induction H; intros [|a']; simpl in *; auto. Qed.
Lemma Forall_nth' {A} (R : A -> Prop) l a d : Forall R l -> (a < length l)%nat -> R (nth a l d).
Proof. intros H. revert a. induction H; intros [|a'] Ha; simpl in *; try lia; auto. apply IHForall. lia. Qed.

(** A change of one axis that preserves every curve along it preserves the whole net.
    The hypothesis is only needed for lines of the given net. *)
Lemma tsum_along axs a A' K (f : list Z -> Z -> R) us c d0 :
  (a < length axs)%nat -> length us = length axs ->
  let A := nth a axs d0 in
  (forall idx, in_net (lrem a axs) idx ->
    curve (x_n A') (x_p A') (x_U A') (K (fun i => f (lins a i idx) c)) (nth a us 0) =
    curve (x_n A) (x_p A) (x_U A) (fun i => f (lins a i idx) c) (nth a us 0)) ->
  tsum (lset a A' axs) (fun idx => along (N:=Rn) a K f idx c) us = tsum axs (fun idx => f idx c) us.
Proof.
  intros Ha Hl A H.
  assert (Ha' : (a < length (lset a A' axs))%nat) by (rewrite lset_length; auto).
  rewrite (tsum_axis a (lset a A' axs) _ us d0 Ha') by (rewrite lset_length; auto).
  rewrite (tsum_axis a axs _ us d0 Ha Hl). rewrite lrem_lset, nth_lset by auto. cbv zeta. fold A.
  assert (Hl' : length (lrem a us) = length (lrem a axs)) by (rewrite !lrem_length; lia).
  apply tsum_ext; auto. intros idx Hx. rewrite <- H by auto.
  pose proof (in_net_length _ _ Hx) as HL. rewrite lrem_length in HL by auto.
  unfold curve. apply sumZ_ext. intros i Hi. f_equal. unfold along.
  rewrite nth_lins by lia. f_equal.
  apply FunctionalExtensionality.functional_extensionality. intros j. rewrite lset_lins by lia. reflexivity.
Qed.

(** The same for an arbitrary change of array. *)
Lemma tsum_change axs a A' (f g : list Z -> R) us us' d0 :
  (a < length axs)%nat -> length us = length axs -> us' = lset a (nth a us' 0) us ->
  let A := nth a axs d0 in
  (forall idx, in_net (lrem a axs) idx ->
    curve (x_n A') (x_p A') (x_U A') (fun i => g (lins a i idx)) (nth a us' 0) =
    curve (x_n A) (x_p A) (x_U A) (fun i => f (lins a i idx)) (nth a us 0)) ->
  tsum (lset a A' axs) g us' = tsum axs f us.
Proof.
  intros Ha Hl E A H.
  assert (Ha' : (a < length (lset a A' axs))%nat) by (rewrite lset_length; auto).
  assert (Hlu : length us' = length us) by (rewrite E, lset_length; auto).
  rewrite (tsum_axis a (lset a A' axs) _ us' d0 Ha') by (rewrite lset_length; lia).
  rewrite (tsum_axis a axs _ us d0 Ha Hl). rewrite lrem_lset, nth_lset by auto. cbv zeta. fold A.
  replace (lrem a us') with (lrem a us) by (rewrite E, lrem_lset; auto).
  assert (Hl' : length (lrem a us) = length (lrem a axs)) by (rewrite !lrem_length; lia).
  apply tsum_ext; auto.
Qed.
