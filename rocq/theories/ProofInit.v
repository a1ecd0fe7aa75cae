(** The constructor, Greville abscissae and end interpolation. *)
From Coq Require Import ZArith Reals List Lia Lra Bool FunctionalExtensionality.
From Verif Require Import Num Loop ModelBspline ModelBSp ModelNurbs Spec SumZ BPiece BLink ProofSpan
  SpecNurbs ProofNet ProofCall ProofNurbs ProofMethods ProofGeom ProofGeom2.
Import ListNotations.
Local Open Scope R_scope.

(** ** Linear precision *)
Lemma greville_piece U k q u : span_ok U k q ->
  sumZ (k - Z.of_nat q) k (fun i => B U k q i u * sumZ (i + 1) (i + Z.of_nat q) U) = INR q * u.
Proof.
  induction q; intros Hok.
  - simpl. replace (k - 0)%Z with k by lia. rewrite sumZ_single. rewrite Z.eqb_refl.
    unfold sumZ. replace (Z.to_nat (k + 0 + 1 - (k + 1))) with O by lia. simpl. lra.
  - rewrite deboor_step by auto. rewrite S_INR.
    transitivity (sumZ (k - Z.of_nat q) k (fun i => u * B U k q i u + B U k q i u * sumZ (i + 1) (i + Z.of_nat q) U)).
    + apply sumZ_ext. intros i Hi.
      pose proof (span_ok_den U k q i Hok Hi) as Hd.
      replace (i + Z.of_nat (S q))%Z with (i + Z.of_nat q + 1)%Z by lia.
      replace (i - 1 + Z.of_nat (S q))%Z with (i + Z.of_nat q)%Z by lia. replace (i - 1 + 1)%Z with i by lia.
      rewrite (sumZ_last (i + 1) (i + Z.of_nat q + 1)) by lia. replace (i + Z.of_nat q + 1 - 1)%Z with (i + Z.of_nat q)%Z by lia.
      rewrite (sumZ_first i) by lia. unfold om. field. lra.
    + rewrite sumZ_plus, sumZ_scal, B_sum_one by (eapply span_ok_less; [|eauto]; lia).
      rewrite IHq by (eapply span_ok_less; [|eauto]; lia). lra.
Qed.

Lemma Greville_sum_eq (U : Z -> R) lo hi : Greville_sum (N:=Rn) U lo hi = sumZ lo hi U.
Proof.
  unfold Greville_sum. destruct (Z_le_gt_dec lo (hi + 1)).
  - floop (fun j (s : R) => s = sumZ lo (j - 1) U).
    + unfold sumZ. replace (Z.to_nat (lo - 1 + 1 - lo)) with O by lia. reflexivity.
    + intros j s Hj ->. rn. rewrite (sumZ_last lo (j + 1 - 1)) by lia. replace (j + 1 - 1)%Z with j by lia. reflexivity.
    + intros s ->. f_equal. lia.
  - unfold for_up, sumZ. replace (Z.to_nat (hi + 1 - lo)) with O by lia. reflexivity.
Qed.

Definition avg_knots (p : Z) (U : Z -> R) (i : Z) : R := sumZ (i + 1) (i + p) U / IZR p.

Lemma Greville_eq p m U junk i : (0 <= i <= m - (p + 1))%Z -> bsp_Greville (N:=Rn) p m U junk i = avg_knots p U i.
Proof.
  intros Hi. unfold bsp_Greville.
  floop (fun j (X : Z -> R) => forall i, (0 <= i < j)%Z -> X i = avg_knots p U i).
  - intros; lia.
  - intros j X Hj IH i' Hi'. destruct (Z.eq_dec i' j) as [->|].
    + rewrite upd_same. rewrite Greville_sum_eq. reflexivity.
    + rewrite upd_diff by auto. apply IH. lia.
  - intros X H. apply H. lia.
Qed.

Lemma curve_greville n p U u : wf_knots n p U -> (1 <= p)%Z -> in_domain n p U u -> curve n p U (avg_knots p U) u = u.
Proof.
  intros W Hp D. destruct (active_exists n p U u W D) as [k A]. rewrite (curve_piece n p U _ u k W A).
  unfold pc, avg_knots.
  assert (Hok : span_ok U k (Z.to_nat p)) by (eapply wf_span_ok; eauto; [destruct A; lia|eapply active_lt; eauto]).
  pose proof (greville_piece U k (Z.to_nat p) u Hok) as G. rewrite Z2Nat.id in G by lia.
  assert (Hne : IZR p <> 0) by (apply not_0_IZR; lia).
  transitivity (/ IZR p * sumZ (k - p) k (fun i => B U k (Z.to_nat p) i u * sumZ (i + 1) (i + p) U)).
  - rewrite <- sumZ_scal. apply sumZ_ext. intros i Hi. unfold Rdiv. ring.
  - rewrite G. rewrite INR_IZR_INZ, Z2Nat.id by lia. field. auto.
Qed.

(** ** Greville abscissae are ordered and inside the domain *)
Lemma avg_knots_mono n p U i j : wf_knots n p U -> (1 <= p)%Z -> (0 <= i)%Z -> (i <= j)%Z -> (j <= n)%Z ->
  avg_knots p U i <= avg_knots p U j.
Proof.
  intros W Hp Hi Hij Hj. unfold avg_knots. apply Rmult_le_compat_r.
  - left. apply Rinv_0_lt_compat. apply IZR_lt. lia.
  - replace (i + 1)%Z with (1 + i)%Z by lia. replace (i + p)%Z with (p + i)%Z by lia. rewrite (sumZ_shift 1 p i).
    replace (j + 1)%Z with (1 + j)%Z by lia. replace (j + p)%Z with (p + j)%Z by lia. rewrite (sumZ_shift 1 p j).
    apply sumZ_le. intros q Hq. apply (wf_mono _ _ _ W); lia.
Qed.
Lemma sumZ_const lo hi c : (lo <= hi + 1)%Z -> sumZ lo hi (fun _ => c) = IZR (hi - lo + 1) * c.
Proof.
  intros H. unfold sumZ. replace (hi - lo + 1)%Z with (Z.of_nat (Z.to_nat (hi + 1 - lo))) by lia.
  rewrite <- INR_IZR_INZ. generalize (Z.to_nat (hi + 1 - lo)) as c0. intros c0. revert lo H. 
  assert (G : forall c0 lo, sumN c0 lo (fun _ => c) = INR c0 * c).
  { induction c1; intros lo; [simpl; lra|]. rewrite S_INR. simpl. rewrite IHc1. lra. }
  intros. apply G.
Qed.
Lemma avg_knots_const p U i v : (1 <= p)%Z -> (forall j, (i + 1 <= j <= i + p)%Z -> U j = v) -> avg_knots p U i = v.
Proof.
  intros Hp H. unfold avg_knots. rewrite (sumZ_ext _ _ _ (fun _ => v)) by auto. rewrite sumZ_const by lia.
  replace (i + p - (i + 1) + 1)%Z with p by lia. field. apply not_0_IZR. lia.
Qed.

(** ** End interpolation *)
Lemma B_left_end U k q : forall u, span_ok U k q -> (forall j, (k - Z.of_nat q < j <= k)%Z -> U j = u) ->
  B U k q (k - Z.of_nat q) u = 1.
Proof.
  induction q; intros u Hok H.
  - simpl. replace (k - 0)%Z with k by lia. rewrite Z.eqb_refl. reflexivity.
  - rewrite B_S. rewrite (B_zero U k q (k - Z.of_nat (S q))) by lia.
    replace (k - Z.of_nat (S q) + 1)%Z with (k - Z.of_nat q)%Z by lia.
    assert (Hd : U (k - Z.of_nat q)%Z < U (k - Z.of_nat q + Z.of_nat q + 1)%Z) by (apply (span_ok_den U k q); auto; lia).
    replace (k - Z.of_nat (S q) + Z.of_nat q + 2)%Z with (k - Z.of_nat q + Z.of_nat q + 1)%Z by lia.
    assert (E : U (k - Z.of_nat q)%Z = u) by (apply H; lia). rewrite E in Hd. rewrite E.
    rewrite Rmult_0_r, Rplus_0_l. rewrite IHq; [field; lra| |].
    + eapply span_ok_less; [|eauto]; lia.
    + intros j Hj. apply H. lia.
Qed.
Lemma B_right_end U k q : forall u, span_ok U k q -> (forall j, (k < j <= k + Z.of_nat q)%Z -> U j = u) ->
  B U k q k u = 1.
Proof.
  induction q; intros u Hok H.
  - simpl. rewrite Z.eqb_refl. reflexivity.
  - rewrite B_S. rewrite (B_zero U k q (k + 1)) by lia.
    assert (Hd : U k < U (k + Z.of_nat q + 1)%Z) by (apply (span_ok_den U k q); auto; lia).
    assert (E : U (k + Z.of_nat q + 1)%Z = u) by (apply H; lia). rewrite E in Hd. rewrite E.
    rewrite Rmult_0_r, Rplus_0_r. rewrite IHq; [field; lra| |].
    + eapply span_ok_less; [|eauto]; lia.
    + intros j Hj. apply H. lia.
Qed.

Lemma pc_delta U k p P u i : (0 <= p)%Z -> span_ok U k (Z.to_nat p) -> U k <= u <= U (k + 1)%Z -> (k - p <= i <= k)%Z ->
  B U k (Z.to_nat p) i u = 1 -> pc U k p P u = P i.
Proof.
  intros Hp Hok Hu Hi E.
  assert (Z0 : forall j, (k - p <= j <= k)%Z -> j <> i -> B U k (Z.to_nat p) j u = 0).
  { intros j Hj Hne. pose proof (B_sum_one U k (Z.to_nat p) u Hok) as S. rewrite Z2Nat.id in S by lia.
    assert (NN : forall j, 0 <= B U k (Z.to_nat p) j u) by (intros; apply B_nonneg; auto).
    assert (G : sumZ (k - p) k (fun j' => (if Z.eq_dec j' i then 1 else 0) + (if Z.eq_dec j' j then B U k (Z.to_nat p) j u else 0)) <= 1).
    { eapply Rle_trans; [|right; exact S]. apply sumZ_le. intros j' Hj'. pose proof (NN j').
      destruct (Z.eq_dec j' i) as [Ei|Ei]; destruct (Z.eq_dec j' j) as [Ej|Ej]; try congruence; try (rewrite ?Ei, ?Ej in *; lra).
    }
    rewrite sumZ_plus in G.
    assert (K : forall a v, (k - p <= a <= k)%Z -> sumZ (k - p) k (fun j' => if Z.eq_dec j' a then v else 0) = v).
    { intros a v Ha. rewrite (sumZ_split _ (a - 1)%Z) by lia. rewrite (sumZ_zero (k - p) (a - 1)).
      - rewrite sumZ_first by lia. rewrite sumZ_zero.
        + destruct (Z.eq_dec (a - 1 + 1) a); [lra|lia].
        + intros j' Hj'. destruct (Z.eq_dec j' a); [lia|auto].
      - intros j' Hj'. destruct (Z.eq_dec j' a); [lia|auto]. }
    rewrite !K in G by auto. specialize (NN j). lra. }
  unfold pc. rewrite (sumZ_split _ (i - 1)%Z) by lia. rewrite (sumZ_zero (k - p) (i - 1)).
  - rewrite sumZ_first by lia. replace (i - 1 + 1)%Z with i by lia. rewrite E. rewrite sumZ_zero; [lra|].
    intros j Hj. rewrite Z0 by lia. lra.
  - intros j Hj. rewrite Z0 by lia. lra.
Qed.

Lemma curve_left_end n p U P : wf_knots n p U -> (forall j, (1 <= j <= p)%Z -> U j = U p) ->
  curve n p U P (U p) = P 0%Z.
Proof.
  intros W H. pose proof (wf_p _ _ _ W). pose proof (wf_n _ _ _ W). pose proof (wf_first _ _ _ W). pose proof (wf_mono _ _ _ W) as M.
  assert (A : active n p U (U p) p).
  { split; [lia|]. left. lra. }
  rewrite (curve_piece n p U _ _ p W A).
  assert (Hok : span_ok U p (Z.to_nat p)) by (eapply wf_span_ok; eauto; lia).
  apply pc_delta; auto; try lia; [lra|].
  replace 0%Z with (p - Z.of_nat (Z.to_nat p))%Z by lia. apply B_left_end; auto.
  intros j Hj. apply H. lia.
Qed.
Lemma curve_right_end n p U P : wf_knots n p U -> (forall j, (n + 1 <= j <= n + p)%Z -> U j = U (n + 1)%Z) ->
  curve n p U P (U (n + 1)%Z) = P n.
Proof.
  intros W H. pose proof (wf_p _ _ _ W). pose proof (wf_n _ _ _ W). pose proof (wf_last _ _ _ W). pose proof (wf_mono _ _ _ W) as M.
  assert (A : active n p U (U (n + 1)%Z) n).
  { split; [lia|]. right. auto. }
  rewrite (curve_piece n p U _ _ n W A).
  assert (Hok : span_ok U n (Z.to_nat p)) by (eapply wf_span_ok; eauto; lia).
  apply pc_delta; auto; try lia; [lra|].
  apply B_right_end; auto. intros j Hj. apply H. lia.
Qed.

(** Corners: each axis has a side, and is clamped there. *)
Definition clamped_at (a : axR) (right : bool) : Prop :=
  if right then forall j, (x_n a + 1 <= j <= x_n a + x_p a)%Z -> x_U a j = x_U a (x_n a + 1)%Z
  else forall j, (1 <= j <= x_p a)%Z -> x_U a j = x_U a (x_p a).
Definition corner_param (a : axR) (right : bool) : R := if right then x_U a (x_n a + 1)%Z else x_U a (x_p a).
Definition corner_index (a : axR) (right : bool) : Z := if right then x_n a else 0%Z.
Fixpoint map2 {A B C} (f : A -> B -> C) (l : list A) (m : list B) : list C :=
  match l, m with x :: l', y :: m' => f x y :: map2 f l' m' | _, _ => [] end.

Lemma tsum_corner axs : forall sides P, Forall wf_ax axs -> Forall2 clamped_at axs sides ->
  tsum axs P (map2 corner_param axs sides) = P (map2 corner_index axs sides).
Proof.
  induction axs as [|a axs IH]; intros sides P W H; inversion H; subst; simpl; auto.
  inversion W as [|? ? [Wp Wk] W']; subst.
  etransitivity.
  - apply sumZ_ext. intros i Hi. rewrite IH by auto. reflexivity.
  - change (curve (x_n a) (x_p a) (x_U a) (fun i => P (i :: map2 corner_index axs l')) (corner_param a y) =
            P (corner_index a y :: map2 corner_index axs l')).
    destruct y; simpl in *.
    + apply (curve_right_end _ _ _ (fun i => P (i :: map2 corner_index axs l')) Wk); auto.
    + apply (curve_left_end _ _ _ (fun i => P (i :: map2 corner_index axs l')) Wk); auto.
Qed.

(** ** The constructor *)
Lemma zip_axes_spec (shape : list Z) (knots : list (vec Rn)) : length shape = length knots ->
  Forall2 (fun k A => a_len A = v_len k /\ a_knots A = v_get k) knots (zip_axes shape knots) /\
  map a_size (zip_axes shape knots) = shape.
Proof.
  revert knots. induction shape as [|s shape IH]; intros [|k knots] H; simpl in *; try lia.
  - split; auto.
  - destruct (IH knots ltac:(lia)) as [H1 H2]. split; [constructor; auto|f_equal; auto].
Qed.

Theorem init_invariant junk knots control fields weights nrb :
  init (N:=Rn) junk knots control fields weights = Ok nrb ->
  (1 <= length (n_axes nrb) <= 3)%nat /\
  Forall2 (fun k A => (4 <= v_len k)%Z /\ a_len A = v_len k /\ a_knots A = v_get k) knots (n_axes nrb) /\
  Forall (fun A => (1 <= a_deg A)%Z /\ a_len A = (a_size A + a_deg A + 1)%Z) (n_axes nrb).
Proof.
  unfold init, assert. intros E.
  destruct (Z.leb_spec 1 (Z.of_nat (length knots))); [|discriminate]. cbn [bind] in E.
  destruct (Z.leb_spec (Z.of_nat (length knots)) 3); [|discriminate]. cbn [bind] in E.
  destruct (forallb _ knots) eqn:EK; [|discriminate]. cbn [bind] in E.
  destruct (init_control _ _ _ _) as [Cw|]; [|discriminate]. cbn [bind] in E.
  destruct (init_fields _ _) as [[[shape nc] f]|]; [|discriminate]. cbn [bind] in E.
  destruct (Z.eqb_spec (Z.of_nat (length shape)) (Z.of_nat (length knots))) as [EL|]; [|discriminate]. cbn [bind] in E.
  destruct (forallb _ (zip_axes shape knots)) eqn:ED; [|discriminate]. cbn [bind] in E. injection E as <-. cbn [n_axes].
  destruct (zip_axes_spec shape knots ltac:(lia)) as [Z1 Z2].
  pose proof (Forall2_len _ _ _ Z1) as ZL.
  split; [lia|]. split.
  - rewrite forallb_forall in EK. clear - Z1 EK. induction Z1; constructor; auto.
    + split; [|auto]. specialize (EK x ltac:(simpl; auto)). apply Z.leb_le in EK. auto.
    + apply IHZ1. intros z Hz. apply EK. simpl; auto.
  - rewrite Forall_forall. intros A HA. rewrite forallb_forall in ED. specialize (ED A HA). apply Z.leb_le in ED.
    split; auto. unfold a_deg. lia.
Qed.

(** What is stored in the array. *)
Theorem init_reads junk knots c fields weights nrb :
  init (N:=Rn) junk knots (Some c) fields weights = Ok nrb ->
  let sdim := last (nd_shape c) 0%Z in
  let shape := removelast (nd_shape c) in
  map a_size (n_axes nrb) = shape /\ (2 <= sdim <= 4)%Z /\
  ((sdim < 4)%Z -> forall idx,
     let w := match weights with Some w => nd_get w idx | None => 1 end in
     n_weights nrb idx = w /\
     (w <> 0 -> forall k, (0 <= k < 3)%Z -> n_points nrb idx k = if (k <? sdim)%Z then nd_get c (idx ++ [k]) else 0)) /\
  (sdim = 4%Z -> weights = None /\ forall idx k, (0 <= k < 4)%Z -> n_arr nrb idx k = nd_get c (idx ++ [k])) /\
  match fields with
  | None => n_fields nrb = None /\ n_comp nrb = 4%Z
  | Some f =>
      (nd_shape f = shape /\ n_comp nrb = 5%Z /\
       exists g, n_fields nrb = Some g /\ forall idx, n_weights nrb idx <> 0 -> g idx 0%Z = nd_get f idx) \/
      (removelast (nd_shape f) = shape /\ n_comp nrb = (4 + last (nd_shape f) 0)%Z /\
       ((1 <= last (nd_shape f) 0)%Z -> exists g, n_fields nrb = Some g /\
         forall idx k, (0 <= k)%Z -> n_weights nrb idx <> 0 -> g idx k = nd_get f (idx ++ [k])))
  end.
Proof.
  assert (SE : forall a b, shape_eqb a b = true -> a = b).
  { induction a as [|x a IH]; intros [|y b] H; simpl in H; try discriminate; auto.
    apply andb_prop in H. destruct H as [H1 H2]. apply Z.eqb_eq in H1. subst. f_equal. auto. }
  intros E sdim shape. unfold init, assert in E.
  destruct (Z.leb_spec 1 (Z.of_nat (length knots))); [|discriminate]. cbn [bind] in E.
  destruct (Z.leb_spec (Z.of_nat (length knots)) 3); [|discriminate]. cbn [bind] in E.
  destruct (forallb _ knots) eqn:EK; [|discriminate]. cbn [bind] in E.
  destruct (init_control _ _ _ _) as [[sh cw]|] eqn:EC; [|discriminate]. cbn [bind] in E.
  destruct (init_fields _ _) as [[[shape' nc] f]|] eqn:EF; [|discriminate]. cbn [bind] in E.
  destruct (Z.eqb_spec (Z.of_nat (length shape')) (Z.of_nat (length knots))) as [EL|]; [|discriminate]. cbn [bind] in E.
  destruct (forallb _ (zip_axes shape' knots)) eqn:ED; [|discriminate]. cbn [bind] in E. injection E as <-. cbn [n_axes].
  destruct (zip_axes_spec shape' knots ltac:(lia)) as [Z1 Z2]. clear Z1.
  (* control *)
  unfold init_control, assert in EC.
  destruct (2 <=? Z.of_nat (length (nd_shape c)))%Z; [|discriminate]. cbn [bind] in EC. fold sdim shape in EC.
  destruct (Z.leb_spec 2 sdim); [|discriminate]. cbn [bind] in EC.
  destruct (Z.leb_spec sdim 4); [|discriminate]. cbn [bind] in EC.
  assert (CW : sh = shape /\
    ((sdim < 4)%Z -> forall idx, let w := match weights with Some w => nd_get w idx | None => 1 end in
       cw idx 3%Z = w /\ (w <> 0 -> forall k, (0 <= k < 3)%Z -> cw idx k / w = if (k <? sdim)%Z then nd_get c (idx ++ [k]) else 0)) /\
    (sdim = 4%Z -> weights = None /\ forall idx k, (0 <= k < 4)%Z -> cw idx k = nd_get c (idx ++ [k]))).
  { destruct (Z.ltb_spec sdim 4).
    - destruct weights as [w|].
      + destruct (shape_eqb _ _); [|discriminate]. cbn [bind] in EC. injection EC as <- <-.
        split; auto. split; [|lia]. intros _ idx w'. split.
        * destruct (Z.ltb_spec 3 sdim); [lia|]. reflexivity.
        * intros Hw k Hk. destruct (Z.ltb_spec k sdim).
          -- change (nd_get c (idx ++ [k]) * w' / w' = nd_get c (idx ++ [k])). field. exact Hw.
          -- destruct (Z.eqb_spec k 3); [lia|]. change (0 / w' = 0). unfold Rdiv. ring.
      + injection EC as <- <-. split; auto. split; [|lia]. intros _ idx w'. split.
        * destruct (Z.ltb_spec 3 sdim); [lia|]. reflexivity.
        * intros Hw k Hk. unfold w'. destruct (Z.ltb_spec k sdim).
          -- unfold Rdiv. rewrite Rinv_1. apply Rmult_1_r.
          -- destruct (Z.eqb_spec k 3); [lia|]. change (0 / 1 = 0). unfold Rdiv. ring.
    - destruct weights; [discriminate|]. cbn [bind is_none] in EC. injection EC as <- <-. split; auto. split; [lia|].
      intros _. split; auto. }
  destruct CW as [-> [CW1 CW2]].
  assert (FF : shape' = shape /\ (forall idx k, (k < 4)%Z -> f idx k = cw idx k)).
  { unfold init_fields in EF. destruct fields as [fl|]; [|injection EF as <- <- <-; auto].
    destruct (shape_eqb _ _).
    - injection EF as <- <- <-. split; auto. intros idx k Hk. destruct (Z.ltb_spec k 4); [auto|lia].
    - unfold assert in EF. destruct (Z.of_nat (length (nd_shape fl)) - 1 =? _)%Z; [|discriminate]. cbn [bind] in EF.
      destruct (shape_eqb _ _); [|discriminate]. cbn [bind] in EF. injection EF as <- <- <-. split; auto.
      intros idx k Hk. destruct (Z.ltb_spec k 4); [auto|lia]. }
  destruct FF as [-> FF]. split; auto. split; [lia|]. split; [|split].
  - intros Hs idx. set (w := match weights with Some w => nd_get w idx | None => 1 end). destruct (CW1 Hs idx) as [A1 A2]. fold w in A1, A2. unfold n_weights, n_points. cbn [n_arr].
    rewrite FF by lia. split; auto. intros Hw k Hk. rewrite FF by lia. etransitivity; [|exact (A2 Hw k Hk)].
    change (cw idx k / cw idx 3%Z = cw idx k / w). rewrite A1. reflexivity.
  - intros Hs. destruct (CW2 Hs) as [A1 A2]. split; auto. intros idx k Hk. cbn [n_arr]. rewrite FF by lia. auto.
  - unfold init_fields in EF. destruct fields as [fl|].
    + destruct (shape_eqb (nd_shape fl) shape) eqn:Es.
      * left. injection EF as <- <-. split; [apply SE; auto|]. split; auto.
        unfold n_fields. cbn [n_comp]. eexists. split; [reflexivity|]. intros idx Hw. unfold n_weights in Hw. cbn [n_arr] in *.
        change (nd_get fl idx * cw idx 3%Z / cw idx 3%Z = nd_get fl idx). field. exact Hw.
      * right. unfold assert in EF. destruct (Z.of_nat (length (nd_shape fl)) - 1 =? _)%Z; [|discriminate]. cbn [bind] in EF.
        destruct (shape_eqb (removelast (nd_shape fl)) shape) eqn:Es2; [|discriminate]. cbn [bind] in EF. assert (Enc : (4 + last (nd_shape fl) 0)%Z = nc) by (injection EF; intros; assumption). injection EF as _ Ef.
        assert (Hf : forall idx k, (0 <= k)%Z -> f idx (4 + k)%Z = nd_get fl (idx ++ [k]) * cw idx 3%Z).
        { intros idx k Hk. rewrite <- Ef. destruct (Z.ltb_spec (4 + k) 4); [lia|]. replace (4 + k - 4)%Z with k by lia. reflexivity. }
        split; [apply SE; auto|]. split; [symmetry; exact Enc|]. intros Hl. exists (fun idx c => f idx (4 + c)%Z / f idx 3%Z).
        split.
        { unfold n_fields. cbn [n_comp n_arr]. destruct (Z.leb_spec nc 4); [lia|]. reflexivity. }
        intros idx k Hk Hw. unfold n_weights in Hw. cbn [n_arr] in *. rewrite (FF idx 3%Z) in Hw by lia. rewrite Hf by lia. rewrite (FF idx 3%Z) by lia.
        change (nd_get fl (idx ++ [k]) * cw idx 3%Z / cw idx 3%Z = nd_get fl (idx ++ [k])). field. exact Hw.
    + injection EF as <- <-. split; reflexivity.
Qed.

(** ** The default control net *)
Lemma tsum_coord axs a (g : Z -> R) us d : Forall wf_ax axs -> in_box axs us -> (a < length axs)%nat ->
  tsum axs (fun idx => g (nth a idx 0%Z)) us =
  curve (x_n (nth a axs d)) (x_p (nth a axs d)) (x_U (nth a axs d)) g (nth a us 0).
Proof.
  intros W D Ha. pose proof (in_box_length _ _ D) as Hl. rewrite (tsum_axis a axs _ us d Ha Hl). cbv zeta.
  rewrite (tsum_ext _ _ (fun _ => curve (x_n (nth a axs d)) (x_p (nth a axs d)) (x_U (nth a axs d)) g (nth a us 0))).
  - apply tsum_const; [apply Forall_lrem; auto|]. apply Forall2_lrem; auto.
  - rewrite !lrem_length by lia. lia.
  - intros idx Hx. apply in_net_length in Hx. rewrite lrem_length in Hx by auto.
    unfold curve. apply sumZ_ext. intros i Hi. rewrite nth_lins by lia. reflexivity.
Qed.

Lemma guess_degree_spec fuel (U : vec Rn) : forall p0 p, guess_degree fuel U p0 = Ok p ->
  (p0 <= p)%Z /\ (p + 1 < v_len U)%Z /\ v_get U p <> v_get U (p + 1)%Z.
Proof.
  induction fuel; intros p0 p E; simpl in E; [discriminate|].
  destruct (Z.ltb_spec (p0 + 1) (v_len U)); [|discriminate].
  destruct (Reqb _ _) eqn:En.
  - destruct (IHfuel _ _ E) as [H1 H2]. split; [lia|auto].
  - injection E as <-. split; [lia|]. split; auto. intros Eq. rewrite Eq in En.
    assert (Reqb (v_get U (p0 + 1)%Z) (v_get U (p0 + 1)%Z) = true) by (apply Reqb_true; auto). congruence.
Qed.

Definition default_ok (A : axis Rn) : Prop :=
  nondecreasing (a_knots A) 0 (a_len A - 1) /\ a_knots A (a_size A - 1)%Z < a_knots A (a_size A).

Theorem init_default junk knots nrb : init (N:=Rn) junk knots None None None = Ok nrb ->
  Forall default_ok (n_axes nrb) ->
  wf_nurbs nrb /\ forall us, in_box (spec_axes nrb) us ->
    hom nrb 3 us = 1 /\
    forall c, (0 <= c < 3)%Z -> pt nrb c us = nth (Z.to_nat c) us 0.
Proof.
  intros E DF. pose proof (init_invariant _ _ _ _ _ _ E) as [IL [IK ID]].
  unfold init, assert in E.
  destruct (Z.leb_spec 1 (Z.of_nat (length knots))); [|discriminate]. cbn [bind] in E.
  destruct (Z.leb_spec (Z.of_nat (length knots)) 3); [|discriminate]. cbn [bind] in E.
  destruct (forallb _ knots) eqn:EK; [|discriminate]. cbn [bind init_control is_none assert] in E.
  destruct (default_axes junk knots) as [xs|] eqn:EX; [|discriminate]. cbn [bind init_fields] in E.
  destruct (Z.eqb_spec (Z.of_nat (length (map v_len xs))) (Z.of_nat (length knots))) as [EL|]; [|discriminate]. cbn [bind] in E.
  destruct (forallb _ (zip_axes _ knots)) eqn:ED; [|discriminate]. cbn [bind] in E. injection E as <-. cbn [n_axes] in *.
  set (axes := zip_axes (map v_len xs) knots) in *. set (nrb := mkNurbs _ _ _).
  assert (AX : Forall2 (fun A x => (1 <= a_deg A)%Z /\ (a_deg A <= a_size A - 1)%Z /\ a_knots A (a_deg A) <> a_knots A (a_deg A + 1)%Z /\
     a_size A = v_len x /\ forall i, (0 <= i < v_len x)%Z -> v_get x i = avg_knots (a_deg A) (a_knots A) i) axes xs).
  { unfold axes. clear - EX. revert xs EX. induction knots as [|U ks IH]; intros xs EX; simpl in EX.
    - injection EX as <-. constructor.
    - destruct (guess_degree _ U 1) as [p|] eqn:Eg; [|discriminate]. cbn [bind] in EX.
      apply guess_degree_spec in Eg. destruct Eg as [G1 [G2 G3]].
      unfold py_Greville, check in EX. destruct (Z.leb_spec 1 p); [|discriminate]. cbn [bind] in EX.
      destruct (Z.leb_spec (2 * p + 1) (v_len U - 1)); [|discriminate]. cbn [bind] in EX.
      destruct (default_axes junk ks) as [xs'|] eqn:E'; [|discriminate]. cbn [bind] in EX. injection EX as <-.
      cbn [map v_len zip_axes]. constructor; [|apply IH; auto].
      assert (Ed : a_deg (mkAxis (N:=Rn) (v_len U - 1 - (p + 1) + 1) (v_len U) (v_get U)) = p) by (unfold a_deg; cbn [a_len a_size]; lia).
      rewrite Ed. cbn [a_size a_knots v_len v_get]. repeat split; auto; try lia.
      intros i Hi. apply Greville_eq. lia. }
  assert (WX : Forall wf_ax (spec_axes nrb)).
  { unfold spec_axes, nrb. cbn [n_axes]. clear - AX DF. induction AX as [|A x axes xs [A1 [A2 [A3 _]]] AX IH]; simpl; constructor.
    - inversion_clear DF as [|? ? [D1 D2] D3]. split; simpl; auto. rewrite a_len_eq in D1. constructor; try lia.
      + replace (a_size A - 1 + a_deg A + 1)%Z with (a_size A - 1 + a_deg A + 2 - 1)%Z by lia. auto.
      + assert (a_knots A (a_deg A) <= a_knots A (a_deg A + 1)%Z) by (apply D1; lia).
        change (T Rn) with R in *. lra.
      + replace (a_size A - 1 + 1)%Z with (a_size A) by lia. auto.
    - apply IH. inversion DF; auto. }
  assert (W : wf_nurbs nrb).
  { split; [|split]; auto. - unfold spec_axes. rewrite ?map_length. unfold nrb. cbn [n_axes]. lia. - unfold nrb. cbn [n_comp]. lia. }
  split; auto. intros us D.
  assert (H3 : hom nrb 3 us = 1).
  { unfold hom. rewrite <- (tsum_const (spec_axes nrb) us 1 WX D) at 1. apply tsum_ext; [apply in_box_length; auto|].
    reflexivity. }
  split; auto. intros c Hc. unfold pt. rewrite H3. unfold Rdiv. rewrite Rinv_1, Rmult_1_r.
  pose proof (Forall2_len _ _ _ AX) as LX.
  assert (Ls : length (spec_axes nrb) = length axes) by (unfold spec_axes; rewrite map_length; reflexivity).
  pose proof (in_box_length _ _ D) as Hl. unfold hom, nrb. cbn [n_arr]. fold nrb.
  unfold default_control. destruct (Z.eqb_spec c 3); [lia|].
  destruct (nth_error xs (Z.to_nat c)) as [x|] eqn:En.
  - assert (Hcl : (Z.to_nat c < length xs)%nat) by (apply nth_error_Some; congruence).
    rewrite (tsum_coord (spec_axes nrb) (Z.to_nat c) (v_get x) us (spec_ax axis0) WX D) by lia.
    rewrite nth_spec_axes. cbn [spec_ax x_n x_p x_U].
    pose proof (Forall2_nth _ _ _ (Z.to_nat c) axis0 (mkVec (N:=Rn) 0 (fun _ => 0)) AX ltac:(lia)) as X.
    rewrite (nth_error_nth _ _ (mkVec (N:=Rn) 0 (fun _ => 0)) En) in X.
    change (nth (Z.to_nat c) axes axis0) with (get_axis nrb (Z.to_nat c)) in X.
    destruct X as [X1 [X2 [X3 [X4 X5]]]].
    pose proof (wf_get_axis nrb (Z.to_nat c) W ltac:(unfold nrb; cbn [n_axes]; lia)) as [Wp Wk]. cbn [spec_ax x_n x_p x_U] in Wp, Wk.
    pose proof (Forall2_nth _ _ _ (Z.to_nat c) (spec_ax axis0) 0 D ltac:(lia)) as Dc. rewrite nth_spec_axes in Dc. cbn [spec_ax x_n x_p x_U] in Dc.
    rewrite <- (curve_greville _ _ _ _ Wk X1 Dc) at 2.
    unfold curve. apply sumZ_ext. intros i Hi. f_equal. apply X5. lia.
  - assert (Hcl : (length xs <= Z.to_nat c)%nat) by (apply nth_error_None; auto).
    rewrite (nth_overflow us) by lia.
    apply (tsum_const (spec_axes nrb) us 0 WX D).
Qed.

(** ** greville *)
Theorem greville_spec nrb ax a junk : wf_nurbs nrb -> py_axis (n_dim nrb) ax = Ok a ->
  let A := get_axis nrb a in let n := (a_size A - 1)%Z in let p := a_deg A in let U := a_knots A in
  exists x, greville (N:=Rn) junk nrb ax = Ok x /\ v_len x = a_size A /\
    (forall i, (0 <= i <= n)%Z -> v_get x i = sumZ (i + 1) (i + p) U / IZR p) /\
    (forall i j, (0 <= i <= j)%Z -> (j <= n)%Z -> v_get x i <= v_get x j) /\
    ((forall j, (1 <= j <= p)%Z -> U j = U p) -> v_get x 0%Z = U p) /\
    ((forall j, (n + 1 <= j <= n + p)%Z -> U j = U (n + 1)%Z) -> v_get x n = U (n + 1)%Z).
Proof.
  intros W Ea A n p U. pose proof (py_axis_dim _ _ _ Ea) as Ha. pose proof (wf_get_axis _ _ W Ha) as WA. fold A in WA.
  assert (Wk : wf_knots n p U) by apply WA. assert (Wp : (1 <= p)%Z) by apply WA. pose proof (wf_n _ _ _ Wk).
  unfold greville. rewrite Ea. cbn [bind]. fold A. unfold py_Greville. cbn [v_len v_get]. fold p U.
  unfold check. destruct (Z.leb_spec 1 p); [|lia]. cbn [bind]. rewrite a_len_eq. fold n p.
  destruct (Z.leb_spec (2 * p + 1) (n + p + 2 - 1)); [|lia]. cbn [bind].
  eexists. split; [reflexivity|]. cbn [v_len v_get].
  assert (G : forall i, (0 <= i <= n)%Z -> bsp_Greville (N:=Rn) p (n + p + 2 - 1) U junk i = avg_knots p U i).
  { intros i Hi. apply Greville_eq. lia. }
  split; [unfold n; lia|]. split; [exact G|]. split; [|split].
  - intros i j Hij Hj. rewrite !G by lia. eapply avg_knots_mono; eauto; lia.
  - intros Hc. rewrite G by lia. apply avg_knots_const; auto; intros; apply Hc; lia.
  - intros Hc. rewrite G by lia. apply avg_knots_const; auto; intros; apply Hc; lia.
Qed.
