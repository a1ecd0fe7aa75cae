(** extract, boundary, remap, reverse, transform, swap and bounds at the level of the class. *)
From Coq Require Import ZArith Reals List Lia Lra Bool Permutation.
From Verif Require Import Num Loop ModelBspline ModelBSp ModelNurbs Spec SumZ BPiece BLink ProofSpan BInsert BRep ProofInsert
  ProofCut SpecNurbs ProofNet ProofCall ProofNurbs ProofMethods.
Import ListNotations.
Local Open Scope R_scope.

(** ** Affine change of parameter *)
Lemma wf_affine n p U a b : 0 < b -> wf_knots n p U -> wf_knots n p (fun j => a + b * U j).
Proof.
  intros Hb [w1 w2 w3 w4 w5]. constructor; auto.
  - intros i j Hi Hij Hj. specialize (w3 i j Hi Hij Hj). nra.
  - nra.
  - nra.
Qed.
Lemma curve_affine n p U P a b u : 0 < b -> wf_knots n p U -> in_domain n p U u ->
  curve n p (fun j => a + b * U j) P (a + b * u) = curve n p U P u.
Proof.
  intros Hb W D. destruct (active_exists n p U u W D) as [k A].
  rewrite (curve_piece n p U P u k W A).
  assert (A' : active n p (fun j => a + b * U j) (a + b * u) k).
  { destruct A as [A1 [A2|[A2 A3]]]; split; auto; [left|right]; [nra|]. split; auto. rewrite A3; auto. }
  rewrite (curve_piece n p _ P _ k (wf_affine n p U a b Hb W) A').
  unfold pc. apply sumZ_ext. intros i Hi. rewrite B_affine by lra. reflexivity.
Qed.

(** ** Mirroring *)
Lemma B_mirror U M c k q : forall i u,
  B (fun j => c - U (M - j)%Z) (M - 1 - k) q i (c - u) = B U k q (M - 1 - Z.of_nat q - i) u.
Proof.
  induction q; intros i u.
  - simpl. destruct (Z.eqb_spec i (M - 1 - k)), (Z.eqb_spec (M - 1 - 0 - i) k); auto; lia.
  - rewrite !B_S. rewrite !IHq. rewrite Rplus_comm. 
    replace (M - 1 - Z.of_nat (S q) - i)%Z with (M - 1 - Z.of_nat q - (i + 1))%Z by lia.
    replace (M - 1 - Z.of_nat q - (i + 1) + 1)%Z with (M - 1 - Z.of_nat q - i)%Z by lia.
    replace (M - (i + Z.of_nat q + 2))%Z with (M - 1 - Z.of_nat q - (i + 1))%Z by lia.
    replace (M - (i + Z.of_nat q + 1))%Z with (M - 1 - Z.of_nat q - i)%Z by lia.
    replace (M - 1 - Z.of_nat q - (i + 1) + Z.of_nat q + 1)%Z with (M - (i + 1))%Z by lia.
    replace (M - 1 - Z.of_nat q - (i + 1) + Z.of_nat q + 2)%Z with (M - i)%Z by lia.
    assert (H : forall a b a' b' x : R, a = a' -> b = b' -> a / b * x = a' / b' * x) by (intros; subst; reflexivity).
    f_equal; apply H; ring.
Qed.

Lemma wf_mirror n p U c : wf_knots n p U -> wf_knots n p (fun j => c - U (n + p + 1 - j)%Z).
Proof.
  intros [w1 w2 w3 w4 w5]. constructor; auto.
  - intros i j Hi Hij Hj. assert (U (n + p + 1 - j)%Z <= U (n + p + 1 - i)%Z) by (apply w3; lia). lra.
  - replace (n + p + 1 - (p + 1))%Z with n by lia. replace (n + p + 1 - p)%Z with (n + 1)%Z by lia. lra.
  - replace (n + p + 1 - (n + 1))%Z with p by lia. replace (n + p + 1 - n)%Z with (p + 1)%Z by lia. lra.
Qed.

Lemma curve_mirror n p U P c u : wf_knots n p U -> (1 <= p)%Z -> mult_le n p U -> in_domain n p U u ->
  curve n p (fun j => c - U (n + p + 1 - j)%Z) (fun i => P (n - i)%Z) (c - u) = curve n p U P u.
Proof.
  intros W Hp ML D. set (V := fun j => c - U (n + p + 1 - j)%Z).
  pose proof (wf_mirror n p U c W) as WV. fold V in WV.
  assert (DV : in_domain n p V (c - u)).
  { destruct D. unfold in_domain, V. replace (n + p + 1 - (n + 1))%Z with p by lia.
    replace (n + p + 1 - p)%Z with (n + 1)%Z by lia. lra. }
  destruct (active_exists n p V (c - u) WV DV) as [k' A].
  rewrite (curve_piece n p V _ _ k' WV A).
  set (k := (n + p - k')%Z). pose proof (active_lt _ _ _ _ _ WV A) as Hlt. pose proof (active_in _ _ _ _ _ WV A) as Hin.
  destruct A as [Hk' _]. unfold V in Hlt, Hin.
  replace (n + p + 1 - (k' + 1))%Z with k in Hlt, Hin by (unfold k; lia).
  replace (n + p + 1 - k')%Z with (k + 1)%Z in Hlt, Hin by (unfold k; lia).
  rewrite (curve_closed n p U P u k W Hp ML) by (unfold k in *; try lia; lra).
  unfold pc.
  rewrite (sumZ_ext (k' - p) k' _ (fun i => B U k (Z.to_nat p) (n - i) u * P (n - i)%Z)).
  - rewrite (sumZ_rev (k - p) k). rewrite (sumZ_shift' (k' - p) k' (k' - k)).
    replace (k' - p - (k' - k))%Z with (k - p)%Z by lia. replace (k' - (k' - k))%Z with k by lia.
    apply sumZ_ext. intros j Hj. replace (n - (j + (k' - k)))%Z with (k - p + k - j)%Z by (unfold k; lia). reflexivity.
  - intros i Hi. f_equal. unfold V. replace k' with (n + p + 1 - 1 - k)%Z by (unfold k; lia).
    rewrite (B_mirror U (n + p + 1) c k). f_equal. lia.
Qed.

(** ** Calls in terms of homogeneous values *)
Lemma call_pt nrb xs : wf_nurbs nrb -> good_args (spec_axes nrb) xs -> forall j j2 j3 jS, exists C F,
  call (N:=Rn) j j2 j3 jS nrb (map Some xs) FYes = Ok (C, Some F) /\
  forall idx c, in_range xs idx -> C idx c = pt nrb c (params xs idx) /\ F idx c = pt nrb (4 + c) (params xs idx).
Proof.
  intros W G j j2 j3 jS.
  destruct (call_spec j j2 j3 jS nrb xs FYes (n_comp nrb) (n_arr nrb) W G eq_refl) as [C [F0 [E [HC [F [EF HF]]]]]].
  subst F0. exists C, F. split; auto. intros idx c I. split; [apply HC; auto|apply HF; auto].
Qed.

(** [nrb'] evaluated at arguments [xs'] gives at every index what [nrb] gives at [xs], when the
    parameters at that index correspond. *)
Definition same_values (nrb nrb' : nurbs Rn) (xs xs' : list (vec Rn)) (f : list Z -> list Z) : Prop :=
  forall j j2 j3 jS k k2 k3 kS,
  exists C F C' F',
    call (N:=Rn) j j2 j3 jS nrb (map Some xs) FYes = Ok (C, Some F) /\
    call (N:=Rn) k k2 k3 kS nrb' (map Some xs') FYes = Ok (C', Some F') /\
    forall idx c, in_range xs' idx -> C' idx c = C (f idx) c /\ F' idx c = F (f idx) c.

Lemma same_values_hom nrb nrb' xs xs' f : wf_nurbs nrb -> wf_nurbs nrb' ->
  good_args (spec_axes nrb) xs -> good_args (spec_axes nrb') xs' ->
  (forall idx, in_range xs' idx -> in_range xs (f idx) /\
     forall c, hom nrb' c (params xs' idx) = hom nrb c (params xs (f idx))) ->
  same_values nrb nrb' xs xs' f.
Proof.
  intros W W' G G' H j j2 j3 jS k k2 k3 kS.
  destruct (call_pt nrb xs W G j j2 j3 jS) as [C [F [E HC]]].
  destruct (call_pt nrb' xs' W' G' k k2 k3 kS) as [C' [F' [E' HC']]].
  exists C, F, C', F'. split; auto. split; auto. intros idx c I.
  destruct (H idx I) as [I' Hh]. destruct (HC' idx c I) as [-> ->]. destruct (HC (f idx) c I') as [-> ->].
  unfold pt. rewrite !Hh. auto.
Qed.

(** ** Changing the parameter of one axis *)
Definition map_arg (a : nat) (g : R -> R) (xs : list (vec Rn)) : list (vec Rn) :=
  let x := nth a xs (mkVec (N:=Rn) 0 (fun _ => 0)) in lset a (mkVec (N:=Rn) (v_len x) (fun i => g (v_get x i))) xs.

Lemma params_length xs idx : in_range xs idx -> length (params xs idx) = length xs.
Proof. intros H. induction H; simpl; auto. Qed.
Lemma params_nth xs idx a : in_range xs idx -> (a < length xs)%nat ->
  nth a (params xs idx) 0 = v_get (nth a xs (mkVec (N:=Rn) 0 (fun _ => 0))) (nth a idx 0%Z).
Proof.
  intros H. revert a. induction H; intros [|a] Ha; simpl in *; try lia; auto. apply IHForall2. lia.
Qed.
Lemma params_lset xs idx a x : in_range xs idx -> (a < length xs)%nat ->
  params (lset a x xs) idx = lset a (v_get x (nth a idx 0%Z)) (params xs idx).
Proof.
  intros H. revert a. induction H; intros [|a] Ha; simpl in *; try lia; auto. f_equal. apply IHForall2. lia.
Qed.
Lemma in_range_map_arg a g xs idx : in_range (map_arg a g xs) idx <-> in_range xs idx.
Proof.
  unfold map_arg, in_range. cbv zeta. revert a idx. induction xs as [|x xs IH]; intros [|a] idx; simpl; try tauto;
  split; intros H; inversion H; subst; constructor; auto; apply (IH a); auto.
Qed.
Lemma params_map_arg a g xs idx : in_range xs idx -> (a < length xs)%nat ->
  params (map_arg a g xs) idx = lset a (g (nth a (params xs idx) 0)) (params xs idx).
Proof. intros H Ha. unfold map_arg. cbv zeta. rewrite params_lset by auto. cbn [v_get]. rewrite params_nth by auto. reflexivity. Qed.

Lemma good_args_nth axs xs a A : good_args axs xs -> (a < length axs)%nat ->
  let x := nth a xs (mkVec (N:=Rn) 0 (fun _ => 0)) in
  (1 <= v_len x)%Z /\ forall i, (0 <= i < v_len x)%Z -> in_domain (x_n (nth a axs A)) (x_p (nth a axs A)) (x_U (nth a axs A)) (v_get x i).
Proof. intros G Ha. apply (Forall2_nth _ _ _ a A (mkVec (N:=Rn) 0 (fun _ => 0)) G Ha). Qed.

Lemma good_args_length axs xs : good_args axs xs -> length xs = length axs.
Proof. intros G. induction G; simpl; auto. Qed.

(** [nrb'] differs from [nrb] in one axis and array; its value at [g u] is the value of [nrb] at [u]. *)
Lemma reparam_values nrb a A' arr' g : wf_nurbs nrb -> (a < length (n_axes nrb))%nat ->
  let A := get_axis nrb a in
  let nrb' := mkNurbs (lset a A' (n_axes nrb)) (n_comp nrb) arr' in
  wf_ax (spec_ax A') ->
  (forall x, in_domain (a_size A - 1) (a_deg A) (a_knots A) x -> in_domain (a_size A' - 1) (a_deg A') (a_knots A') (g x)) ->
  (forall x idx c, in_domain (a_size A - 1) (a_deg A) (a_knots A) x -> S (length idx) = length (n_axes nrb) ->
     curve (a_size A' - 1) (a_deg A') (a_knots A') (fun i => arr' (lins a i idx) c) (g x) =
     curve (a_size A - 1) (a_deg A) (a_knots A) (fun i => n_arr nrb (lins a i idx) c) x) ->
  wf_nurbs nrb' /\
  (forall us c, in_box (spec_axes nrb) us ->
     in_box (spec_axes nrb') (lset a (g (nth a us 0)) us) /\ hom nrb' c (lset a (g (nth a us 0)) us) = hom nrb c us) /\
  forall xs, good_args (spec_axes nrb) xs -> same_values nrb nrb' xs (map_arg a g xs) (fun idx => idx).
Proof.
  intros W Ha A nrb' WA HD HC. pose proof W as EW. destruct W as [Wl [Wf Wc]].
  assert (W' : wf_nurbs nrb').
  { split; [|split]; unfold spec_axes; cbn [n_axes n_comp nrb']; auto.
    - rewrite lset_length. auto.
    - rewrite map_lset. apply Forall_lset; auto. }
  assert (EA : spec_axes nrb' = lset a (spec_ax A') (spec_axes nrb)).
  { unfold spec_axes, nrb'. cbn [n_axes]. apply map_lset. }
  assert (Ha' : (a < length (spec_axes nrb))%nat) by (unfold spec_axes; rewrite map_length; auto).
  assert (HH : forall us c, in_box (spec_axes nrb) us ->
     in_box (spec_axes nrb') (lset a (g (nth a us 0)) us) /\ hom nrb' c (lset a (g (nth a us 0)) us) = hom nrb c us).
  { intros us c Hb. pose proof (in_box_length _ _ Hb) as Hlu.
    pose proof (Forall2_nth _ _ _ a (spec_ax axis0) 0 Hb Ha') as Dx. rewrite nth_spec_axes in Dx. fold A in Dx. split.
    - rewrite EA. apply Forall2_lset; auto.
    - unfold hom. rewrite EA. apply (tsum_change _ a (spec_ax A') (fun idx => n_arr nrb idx c) (fun idx => n_arr nrb' idx c) us
        (lset a (g (nth a us 0)) us) (spec_ax axis0)); auto.
      + rewrite nth_lset by lia. reflexivity.
      + intros idx Hx. rewrite nth_lset by lia. rewrite nth_spec_axes. fold A. apply HC; [exact Dx|].
        apply in_net_length in Hx. rewrite lrem_length in Hx by auto. unfold spec_axes in Hx. rewrite map_length in Hx. lia. }
  split; auto. split; auto. intros xs G. pose proof (good_args_length _ _ G) as Hl.
  pose proof (good_args_nth _ _ a (spec_ax axis0) G Ha') as Gx. rewrite nth_spec_axes in Gx. fold A in Gx. cbv zeta in Gx.
  apply same_values_hom; auto.
  { rewrite EA. unfold map_arg. cbv zeta. apply Forall2_lset; auto. cbn [v_len v_get]. split; [apply Gx|].
    intros i Hi. apply HD. apply Gx. auto. }
  intros idx I. apply (in_range_map_arg a g xs idx) in I. split; auto. intros c.
  rewrite params_map_arg by (auto; lia). apply HH. apply params_box; auto.
Qed.
