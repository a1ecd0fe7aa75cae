(** Constant fields, mapped gradients, uniqueness of derivatives, fourth derivatives. *)
From Coq Require Import ZArith Reals List Lia Lra Bool.
From Verif Require Import Num Loop ModelBspline ModelBSp ModelNurbs ModelDer Spec SumZ BPiece BLink ProofSpan ProofEval SpecNurbs SpecDer BDer ProofCall ProofDers ProofRational ProofDerLink ProofDerApi.
Import ListNotations.
Local Open Scope R_scope.

(** ** Constant fields *)
Lemma code_quot_const ns W N k D : WW ns W N [] <> 0 -> D <> [] -> (length D <= 4)%nat ->
  (forall E, AA ns W N (fun _ => k) E = k * WW ns W N E) -> code_quot ns W N (fun _ => k) D = 0.
Proof.
  intros HW HD HL E.
  assert (Q0 : q0 (AA ns W N (fun _ => k)) (WW ns W N) = k) by (unfold q0; rewrite E; field; auto).
  assert (Q1 : forall i, q1 (AA ns W N (fun _ => k)) (WW ns W N) i = 0) by (intros; unfold q1; rewrite Q0, E; unfold Rdiv; ring).
  assert (Q2 : forall i j, q2 (AA ns W N (fun _ => k)) (WW ns W N) i j = 0) by (intros; unfold q2; rewrite Q0, E, !Q1; unfold Rdiv; ring).
  assert (Q3 : forall i j l, q3 (AA ns W N (fun _ => k)) (WW ns W N) i j l = 0)
    by (intros; unfold q3; rewrite Q0, E, !Q1, !Q2; unfold Rdiv; ring).
  destruct D as [|i [|j [|l [|m [|o D]]]]]; simpl in HL; try lia; try congruence; cbn [code_quot quot]; auto.
  rewrite Q3. unfold q4. rewrite Q0, E, !Q1, !Q2, !Q3. unfold Rdiv. ring.
Qed.

Lemma Interp_const ns W N F k D : (forall a, In a ns -> F a = k) -> lsum ns (fun a => W a * N [] a) <> 0 -> D <> [] -> (length D <= 4)%nat ->
  Interpolate (N:=Rn) ns (Rationalize (N:=Rn) ns W N D) F = 0.
Proof.
  intros HF HW HD HL. transitivity (Interpolate (N:=Rn) ns (Rationalize (N:=Rn) ns W N D) (fun _ => k)).
  - unfold Interpolate. rewrite !asum_lsum. apply lsum_ext. intros a Ha. rewrite HF; auto.
  - rewrite Interp_Rat by auto. apply code_quot_const; auto. intros E. unfold AA, WW. rewrite <- lsum_scal. apply lsum_ext. intros; ring.
Qed.

Lemma nodes_range ps : Forall (fun p => (0 <= p)%Z) ps -> forall a, In a (nodes ps) -> Forall2 (fun p i => (0 <= i <= p)%Z) ps a.
Proof.
  induction ps as [|p ps IH]; simpl; intros Hp a H.
  - destruct H as [<-|[]]. constructor.
  - inversion Hp; subst. apply in_flat_map in H as [t [Ht H]]. apply in_map_iff in H as [i [<- Hi]]. apply zseq_In in Hi.
    constructor; [lia|]. apply IH; auto.
Qed.
Lemma d_global_net axs : forall a x, act_box (map ax_of axs) (map (d_span (N:=Rn)) axs) x ->
  Forall2 (fun p i => (0 <= i <= p)%Z) (map d_p axs) a -> in_net (map ax_of axs) (d_global (N:=Rn) axs a).
Proof.
  induction axs as [|A axs IH]; intros a x HA H; simpl in H; inversion H; subst; simpl; constructor.
  - simpl in HA. inversion HA as [|? ? ? ? ? ? [HB _]]; subst. simpl in HB. cbn [ax_of x_n]. lia.
  - simpl in HA. inversion HA; subst. eapply IH; eauto.
Qed.

Section Api.
Variables (junk : Z -> R) (junk2 : Z -> Z -> R).
Notation sp := (d_span (N:=Rn)).
Notation tab := (d_table (N:=Rn) junk junk2).

(** The weight function as the kernel sums it. *)
Lemma weight_sum order axs Pw : (1 <= length axs <= 3)%nat -> (0 <= order)%Z -> Forall (fun a => (0 <= d_p a)%Z) axs ->
  Forall wf_ax (map ax_of axs) -> act_box (map ax_of axs) (map sp axs) (map (@d_x Rn) axs) ->
  lsum (d_nodes axs) (fun a => Pw (d_global (N:=Rn) axs a) * TensorProd (N:=Rn) (map (tab order) axs) [] a) =
  tsum (map ax_of axs) Pw (map (@d_x Rn) axs).
Proof.
  intros HL Ho Hp W A. rewrite <- (Pd_value _ (map sp axs)) by auto. unfold Pd.
  rewrite <- lsum_Hd with (junk := junk) (junk2 := junk2) (order := order); auto.
  - apply lsum_ext. intros a Ha. apply nodes_length in Ha. rewrite map_length in Ha.
    rewrite TensorProd_ok; rewrite ?map_length; auto; [constructor|]. split; simpl; lia.
  - rewrite cnts_length, map_length. auto.
  - rewrite map_length. simpl. clear -Ho. induction axs; simpl; constructor; auto.
Qed.

Lemma der_const nrb xs idx order F k D : wf_nurbs nrb -> (1 <= length (n_axes nrb))%nat -> good_args (spec_axes nrb) xs -> in_range xs idx ->
  (0 <= order)%Z -> (1 <= length D <= 4)%nat -> (forall i, in_net (spec_axes nrb) i -> F i = k) ->
  tsum (spec_axes nrb) (fun i => n_arr nrb i 3%Z) (params xs idx) <> 0 ->
  d_interp (N:=Rn) junk junk2 order (d_axes (N:=Rn) (n_axes nrb) xs idx) (n_arr nrb) F D = 0.
Proof.
  intros [Hl [W Hc]] Hd G Rg Ho HD HF HW. destruct (d_axes_ok _ xs idx W G Rg) as [E1 [E2 [E3 E4]]].
  set (ds := d_axes (N:=Rn) (n_axes nrb) xs idx) in *. fold (spec_axes nrb) in *.
  assert (Ld : length ds = length (n_axes nrb)).
  { pose proof (f_equal (@length _) E1) as E. unfold spec_axes in E. rewrite !map_length in E. auto. }
  unfold d_interp, d_rational. apply Interp_const with (k := k).
  - intros a Ha. apply HF. rewrite <- E1. eapply d_global_net; [rewrite E1; exact E3|].
    apply nodes_range; auto. rewrite Forall_map. auto.
  - rewrite weight_sum with (Pw := fun i => n_arr nrb i 3%Z); rewrite ?E1, ?E2; auto. lia.
  - destruct D; [simpl in HD; lia|discriminate].
  - lia.
Qed.

(** ** Mapped gradients *)
Lemma sum3 dim (f : Z -> R) : (1 <= dim <= 3)%Z ->
  for_up 1 dim (fun k s => s + f k) 0 = (f 1%Z + (if (2 <=? dim)%Z then f 2%Z else 0) + (if (3 <=? dim)%Z then f 3%Z else 0)).
Proof.
  intros H. assert (C : dim = 1%Z \/ dim = 2%Z \/ dim = 3%Z) by lia. destruct C as [-> | [-> | ->]]; cbv [for_up]; simpl; ring.
Qed.
Lemma Inverse_ok dim A : (1 <= dim <= 3)%Z -> Determinant (N:=Rn) dim A <> 0 ->
  (forall i j, (1 <= i <= dim)%Z -> (1 <= j <= dim)%Z ->
     for_up 1 dim (fun k s => s + Inverse (N:=Rn) dim A k i * A j k) 0 = if (i =? j)%Z then 1 else 0) /\
  (forall i j, (1 <= i <= dim)%Z -> (1 <= j <= dim)%Z ->
     for_up 1 dim (fun k s => s + Inverse (N:=Rn) dim A i k * A k j) 0 = if (i =? j)%Z then 1 else 0).
Proof.
  intros H HD. assert (C : dim = 1%Z \/ dim = 2%Z \/ dim = 3%Z) by lia. 
  destruct C as [-> | [-> | ->]]; split; intros i j Hi Hj; rewrite sum3 by lia; cbn in HD; cbn [Z.leb Z.compare Pos.compare Pos.compare_cont];
  assert (Ci : i = 1%Z \/ i = 2%Z \/ i = 3%Z) by lia; assert (Cj : j = 1%Z \/ j = 2%Z \/ j = 3%Z) by lia;
  destruct Ci as [-> | [-> | ->]]; try lia; destruct Cj as [-> | [-> | ->]]; try lia; cbn; field; auto.
Qed.

Definition Jmat axs Pw (i j : Z) : R :=
  d_interp (N:=Rn) junk junk2 1 axs Pw (fun idx => Pw idx (i - 1)%Z / Pw idx 3%Z) [j].
Lemma Jmat_X1 axs Pw i j :
  asum (N:=Rn) (d_nodes axs) (fun a => Pw (d_global (N:=Rn) axs a) (i - 1)%Z / Pw (d_global (N:=Rn) axs a) 3%Z * d_rational (N:=Rn) junk junk2 1 axs Pw [j] a)
  = Jmat axs Pw i j.
Proof.
  unfold Jmat, d_interp, Interpolate. rewrite !asum_lsum. apply lsum_ext. intros a _. rn. apply Rmult_comm.
Qed.
Lemma Determinant_ext dim A A' : (forall i j, A i j = A' i j) -> Determinant (N:=Rn) dim A = Determinant (N:=Rn) dim A'.
Proof. intros H. unfold Determinant. destruct dim as [|[p|p|]|p]; try destruct p; rewrite ?H; reflexivity. Qed.
Lemma Inverse_ext dim A A' i j : (forall i j, A i j = A' i j) -> Inverse (N:=Rn) dim A i j = Inverse (N:=Rn) dim A' i j.
Proof. intros H. unfold Inverse. rewrite (Determinant_ext dim A A' H). destruct dim as [|[p|p|]|p]; try destruct p; rewrite ?H; reflexivity. Qed.

Lemma d_mapped_eq axs Pw F i : d_mapped (N:=Rn) junk junk2 axs Pw F i =
  for_up 1 (Z.of_nat (length axs)) (fun k s => s + Inverse (N:=Rn) (Z.of_nat (length axs)) (Jmat axs Pw) k i * d_interp (N:=Rn) junk junk2 1 axs Pw F [k]) 0.
Proof.
  unfold d_mapped, GeometryMap. rn. apply for_up_ext. intros k s Hk. f_equal. f_equal. apply Inverse_ext. intros. apply Jmat_X1.
Qed.

Lemma for_up_scal lo hi (f : Z -> R) : for_up lo hi (fun k s => s + f k) 0 = sumZ lo hi f.
Proof. rewrite (for_up_sum lo hi f 0). ring. Qed.

Lemma mapped_chain axs Pw F j : (1 <= length axs <= 3)%nat -> (1 <= j <= Z.of_nat (length axs))%Z ->
  Determinant (N:=Rn) (Z.of_nat (length axs)) (Jmat axs Pw) <> 0 ->
  sumZ 1 (Z.of_nat (length axs)) (fun i => d_mapped (N:=Rn) junk junk2 axs Pw F i * Jmat axs Pw i j) = d_interp (N:=Rn) junk junk2 1 axs Pw F [j].
Proof.
  intros HL Hj HD. set (m := Z.of_nat (length axs)) in *. destruct (Inverse_ok m (Jmat axs Pw) ltac:(lia) HD) as [_ H2].
  transitivity (sumZ 1 m (fun i => sumZ 1 m (fun k => Inverse (N:=Rn) m (Jmat axs Pw) k i * d_interp (N:=Rn) junk junk2 1 axs Pw F [k] * Jmat axs Pw i j))).
  { apply sumZ_ext. intros i Hi. rewrite d_mapped_eq. fold m. rewrite for_up_scal. rewrite <- sumZ_scal_r. reflexivity. }
  rewrite sumZ_swap.
  transitivity (sumZ 1 m (fun k => (if (k =? j)%Z then 1 else 0) * d_interp (N:=Rn) junk junk2 1 axs Pw F [k])).
  { apply sumZ_ext. intros k Hk. rewrite <- (H2 k j Hk Hj). rewrite for_up_scal, <- sumZ_scal_r. apply sumZ_ext. intros; ring. }
  rewrite (sumZ_kron 1 m j (fun k => d_interp (N:=Rn) junk junk2 1 axs Pw F [k])); auto.
Qed.
Lemma mapped_id axs Pw i c : (1 <= length axs <= 3)%nat -> (1 <= i <= Z.of_nat (length axs))%Z -> (1 <= c <= Z.of_nat (length axs))%Z ->
  Determinant (N:=Rn) (Z.of_nat (length axs)) (Jmat axs Pw) <> 0 ->
  d_mapped (N:=Rn) junk junk2 axs Pw (fun idx => Pw idx (c - 1)%Z / Pw idx 3%Z) i = if (i =? c)%Z then 1 else 0.
Proof.
  intros HL Hi Hc HD. destruct (Inverse_ok (Z.of_nat (length axs)) (Jmat axs Pw) ltac:(lia) HD) as [H1 _].
  rewrite d_mapped_eq. exact (H1 i c Hi Hc).
Qed.
Lemma Determinant_det dim J : (1 <= dim <= 3)%nat ->
  Determinant (N:=Rn) (Z.of_nat dim) J = det dim (fun i j => J (i + 1)%Z (j + 1)%Z).
Proof.
  intros H. destruct dim as [|[|[|[|d]]]]; try lia; cbn; try ring; reflexivity.
Qed.
End Api.
