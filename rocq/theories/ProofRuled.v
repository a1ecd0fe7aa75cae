(** compat in terms of calls; ruled. *)
From Coq Require Import ZArith Reals List Lia Lra Bool Permutation.
From Verif Require Import Num Loop ModelBspline ModelBSp ModelNurbs ModelIga ModelCad Spec SpecElev SpecCompat SumZ BPiece BLink ProofSpan
  SpecNurbs ProofNet ProofCall ProofNurbs ProofMethods ProofGeom ProofGeom2 ProofOk ProofIga ProofIga2
  ProofCompat1 ProofCompat2 ProofCompat3 ProofCad.
Import ListNotations.
Local Open Scope R_scope.

(** ** Calls *)
Lemma Forall2_of_nth {A B} (Q : A -> B -> Prop) l l' d d' : length l = length l' -> (forall b, (b < length l)%nat -> Q (nth b l d) (nth b l' d')) -> Forall2 Q l l'.
Proof.
  revert l'. induction l as [|x l IH]; intros [|y l'] E H; try discriminate; constructor.
  - apply (H 0%nat). simpl; lia.
  - apply IH; [simpl in E; lia|]. intros b Hb. apply (H (S b)). simpl; lia.
Qed.

Lemma moves_values nrb nrb' G xs xs' : wf_nurbs nrb -> moves nrb nrb' G -> good_args (spec_axes nrb) xs -> length xs' = length xs ->
  (forall b, (b < length xs)%nat -> let x0 := mkVec (N:=Rn) 0 (fun _ => 0) in v_len (nth b xs' x0) = v_len (nth b xs x0) /\
     forall i, v_get (nth b xs' x0) i = G b (v_get (nth b xs x0) i)) ->
  good_args (spec_axes nrb') xs' /\ same_values nrb nrb' xs xs' (fun idx => idx).
Proof.
  intros W [W' C D M] GA L H. set (x0 := mkVec (N:=Rn) 0 (fun _ => 0)) in *. cbv zeta in H.
  assert (RG : forall idx, in_range xs' idx <-> in_range xs idx).
  { intros idx. split; intros F.
    - assert (L1 : length xs' = length idx) by (clear - F; induction F; simpl; auto).
      apply (Forall2_of_nth _ _ _ x0 0%Z); [congruence|]. intros b Hb. destruct (H b Hb) as [E _]. rewrite <- E. apply (Forall2_nth _ _ _ b x0 0%Z F). lia.
    - assert (L1 : length xs = length idx) by (clear - F; induction F; simpl; auto).
      apply (Forall2_of_nth _ _ _ x0 0%Z); [congruence|]. intros b Hb. destruct (H b ltac:(lia)) as [E _]. rewrite E. apply (Forall2_nth _ _ _ b x0 0%Z F). lia. }
  assert (HM : forall idx, in_range xs' idx -> in_box (spec_axes nrb') (params xs' idx) /\ forall c, hom nrb' c (params xs' idx) = hom nrb c (params xs idx)).
  { intros idx R'. pose proof (proj1 (RG idx) R') as R0. apply M.
    - apply params_box; auto.
    - rewrite !params_length; auto.
    - intros b Hb. rewrite params_length in Hb by auto. rewrite !params_nth by (auto; lia). apply H. auto. }
  pose proof (good_args_length _ _ GA) as Lg. unfold spec_axes in Lg. rewrite map_length in Lg.
  assert (GA' : good_args (spec_axes nrb') xs').
  { apply (Forall2_of_nth _ _ _ (spec_ax axis0) x0); [unfold spec_axes; rewrite map_length; lia|]. intros b Hb.
    unfold spec_axes in Hb. rewrite map_length in Hb.
    assert (V1 : forall b, (b < length xs)%nat -> (1 <= v_len (nth b xs x0))%Z).
    { intros b' Hb'. assert (Hs : (b' < length (spec_axes nrb))%nat) by (unfold spec_axes; rewrite map_length; lia). apply (Forall2_nth _ _ _ b' (spec_ax axis0) x0 GA Hs). }
    destruct (H b ltac:(lia)) as [E1 E2]. split; [rewrite E1; apply V1; lia|]. intros i Hi.
    set (idx := lset b i (repeat 0%Z (length xs))).
    assert (R0 : in_range xs idx).
    { apply (Forall2_of_nth _ _ _ x0 0%Z); [unfold idx; rewrite lset_length, repeat_length; auto|]. intros b' Hb'. unfold idx.
      destruct (Nat.eq_dec b' b) as [->|N]; [rewrite ProofNet.nth_lset by (rewrite repeat_length; auto); lia|].
      rewrite nth_lset_other by auto. rewrite nth_repeat. specialize (V1 b' Hb'). lia. }
    destruct (HM idx (proj2 (RG idx) R0)) as [IB _].
    assert (Hs : (b < length (spec_axes nrb'))%nat) by (unfold spec_axes; rewrite map_length; lia).
    pose proof (Forall2_nth _ _ _ b (spec_ax axis0) 0 IB Hs) as K. rewrite params_nth in K by (try apply RG; auto; lia).
    fold x0 in K. unfold idx in K. rewrite ProofNet.nth_lset in K by (rewrite repeat_length; lia). exact K. }
  split; auto. apply same_values_hom; auto. intros idx R'. split; [apply RG; auto|]. apply HM. auto.
Qed.

Theorem compat_user junk junk2 (nrbs : list (nurbs Rn)) axes d L (lo hi : nat -> R) (deg : nat -> Z) :
  (2 <= length nrbs)%nat -> axes_are d axes L -> (forall nrb, In nrb nrbs -> wf_nurbs nrb) -> joinable nrbs d L lo hi deg ->
  exists outs, compat (N:=Rn) junk junk2 nrbs axes = Ok outs /\
    Forall2 (fun nrb out => wf_nurbs out /\ n_comp out = n_comp nrb /\ length (n_axes out) = d /\
       (forall a, In a L -> let B := get_axis out a in open_axis B /\ a_deg B = deg a /\ a_lo B = lo a /\ a_hi B = hi a) /\
       (forall b, ~ In b L -> get_axis out b = get_axis nrb b) /\
       (forall us us', in_box (spec_axes nrb) us -> moved nrb L lo hi us us' -> in_box (spec_axes out) us' /\ forall c, hom out c us' = hom nrb c us) /\
       (forall xs xs', good_args (spec_axes nrb) xs -> moved_args nrb L lo hi xs xs' ->
          good_args (spec_axes out) xs' /\ same_values nrb out xs xs' (fun idx => idx))) nrbs outs /\
    forall a out out', In a L -> In out outs -> In out' outs -> a_size (get_axis out a) = a_size (get_axis out' a) /\
       a_len (get_axis out a) = a_len (get_axis out' a) /\
       (forall j, (0 <= j < a_len (get_axis out a))%Z -> a_knots (get_axis out a) j = a_knots (get_axis out' a) j) /\
       apart (get_axis out a) (get_axis out' a).
Proof.
  intros H2 HA HW HJ. destruct (compat_spec junk junk2 nrbs axes d L lo hi deg H2 HA HW HJ) as (outs & E & F & S). exists outs. split; auto. split.
  - assert (K : forall nrb, In nrb nrbs -> length (n_axes nrb) = d) by apply HJ. clear - F HW K.
    induction F as [|nrb out l l' (G & M & Q1 & Q2) F IH]; constructor; [|apply IH; intros; [apply HW|apply K]; right; auto].
    assert (EG : forall b x, G b x = if in_dec Nat.eq_dec b L then rescale (get_axis nrb b) (lo b) (hi b) x else x).
    { intros b x. destruct (in_dec Nat.eq_dec b L) as [I|I]; [apply Q1; auto|apply Q2; auto]. }
    split; [apply M|]. split; [apply M|]. split; [rewrite (mv_dim _ _ _ M); apply K; left; auto|].
    split; [intros a Ia; destruct (Q1 a Ia) as ((_ & O) & O1 & O2 & O3 & _); cbv zeta; auto|]. split; [apply Q2|]. split.
    + intros us us' I [L1 L2]. apply M; auto. intros b Hb. rewrite EG. auto.
    + intros xs xs' GA [L1 L2]. apply (moves_values nrb out G); auto; [apply HW; left; auto|]. intros b Hb. destruct (L2 b Hb) as [L3 L4]. cbv zeta. split; auto.
      intros i. rewrite EG. auto.
  - intros a out out' Ia I I'. destruct (S a out out' Ia I I') as (S1 & S2 & S3). split; auto. split; auto.
    rewrite !a_len_eq, S1. destruct (Forall2_In_l _ _ _ _ F I) as (n1 & _ & (G1 & _ & Q1 & _)). destruct (Forall2_In_l _ _ _ _ F I') as (n2 & _ & (G2 & _ & Q2 & _)).
    destruct (Q1 a Ia) as (_ & D1 & _). destruct (Q2 a Ia) as (_ & D2 & _). cbv zeta in *. rewrite D1, D2. reflexivity.
Qed.

(** ** Axes with the same knots *)
Definition same_axR (a b : axR) : Prop := x_n a = x_n b /\ x_p a = x_p b /\ forall j, (0 <= j <= x_n a + x_p a + 1)%Z -> x_U a j = x_U b j.
Lemma Nbasis_ext n U V q : forall i u, (forall j, (i <= j <= i + Z.of_nat q + 1)%Z -> U j = V j) -> U n = V n -> U (n + 1)%Z = V (n + 1)%Z ->
  Nbasis n U q i u = Nbasis n V q i u.
Proof.
  induction q as [|q IH]; intros i u H Hn Hn1; cbn [Nbasis].
  - unfold indicator. rewrite Hn1, (H i), (H (i + 1)%Z) by lia. reflexivity.
  - rewrite (H i), (H (i + 1)%Z), (H (i + Z.of_nat (S q))%Z), (H (i + Z.of_nat (S q) + 1)%Z) by lia.
    rewrite (IH i), (IH (i + 1)%Z); auto; intros; apply H; lia.
Qed.
Lemma tsum_same axs axs' : Forall2 same_axR axs axs' -> Forall wf_ax axs -> forall P us, tsum axs P us = tsum axs' P us.
Proof.
  intros F. induction F as [|a b axs axs' (E1 & E2 & E3) F IH]; intros W P us; auto. inversion W as [|? ? [Hp Wa] W']; subst.
  destruct us as [|u us]; auto. cbn [tsum]. rewrite <- E1, <- E2. pose proof (wf_n _ _ _ Wa). apply sumZ_ext. intros i Hi. rewrite IH by auto. f_equal. unfold Nb.
  apply Nbasis_ext; [intros j Hj|..]; apply E3; lia.
Qed.
Lemma same_axes out out' : length (n_axes out) = length (n_axes out') -> (forall a, (a < length (n_axes out))%nat ->
    a_size (get_axis out a) = a_size (get_axis out' a) /\ a_len (get_axis out a) = a_len (get_axis out' a) /\
    (forall j, (0 <= j < a_len (get_axis out a))%Z -> a_knots (get_axis out a) j = a_knots (get_axis out' a) j)) ->
  Forall2 same_axR (spec_axes out) (spec_axes out').
Proof.
  intros E H. apply (Forall2_of_nth _ _ _ (spec_ax axis0) (spec_ax axis0)); [unfold spec_axes; rewrite !map_length; auto|].
  intros a Ha. unfold spec_axes in Ha. rewrite map_length in Ha. rewrite !nth_spec_axes. destruct (H a Ha) as (S1 & S2 & S3).
  unfold same_axR, spec_ax. cbn. split; [lia|]. assert (D : a_deg (get_axis out a) = a_deg (get_axis out' a)) by (unfold a_deg; lia). split; auto.
  intros j Hj. apply S3. rewrite a_len_eq. lia.
Qed.
Lemma shape_same (out out' : nurbs Rn) : length (n_axes out) = length (n_axes out') -> (forall a, (a < length (n_axes out))%nat -> a_size (get_axis out a) = a_size (get_axis out' a)) ->
  n_shape out = n_shape (N:=Rn) out'.
Proof.
  intros E H. unfold n_shape. apply (nth_ext _ _ (a_size (axis0 (N:=Rn))) (a_size (axis0 (N:=Rn)))); [rewrite !map_length; auto|].
  intros a Ha. rewrite map_length in Ha. rewrite !map_nth. apply (H a Ha).
Qed.

(** ** ruled *)
Theorem ruled_hom junk junk2 nrb1 nrb2 d lo hi deg : wf_nurbs nrb1 -> wf_nurbs nrb2 -> (1 <= d <= 2)%nat -> joinable [nrb1; nrb2] d (seq 0 d) lo hi deg ->
  exists srf, ruled (N:=Rn) junk junk2 nrb1 nrb2 = Ok srf /\ wf_nurbs srf /\ n_comp srf = 4%Z /\ length (n_axes srf) = S d /\ get_axis srf d = unit_axis /\
   (forall a, (a < d)%nat -> let B := get_axis srf a in open_axis B /\ a_deg B = deg a /\ a_lo B = lo a /\ a_hi B = hi a /\ apart B B) /\
   forall us1 us2 us t, in_box (spec_axes nrb1) us1 -> in_box (spec_axes nrb2) us2 -> moved nrb1 (seq 0 d) lo hi us1 us -> moved nrb2 (seq 0 d) lo hi us2 us -> 0 <= t <= 1 ->
     in_box (spec_axes srf) (us ++ [t]) /\ forall c, (0 <= c < 4)%Z -> hom srf c (us ++ [t]) = (1 - t) * hom nrb1 c us1 + t * hom nrb2 c us2.
Proof.
  intros W1 W2 Hd HJ.
  destruct (compat_user junk junk2 [nrb1; nrb2] None d (seq 0 d) lo hi deg) as (outs & E & F & S); auto; [reflexivity|intros nrb [<-|[<-|[]]]; auto|].
  inversion F as [|? o1 ? l' Q1 F' EQ1 EQ2]; subst. inversion F' as [|? o2 ? l'' Q2 F'' EQ3 EQ4]; subst. inversion F''; subst. clear F F' F''.
  destruct Q1 as (V1 & C1 & L1 & A1 & _ & M1 & _). destruct Q2 as (V2 & C2 & L2 & A2 & _ & M2 & _).
  assert (ID : forall a, In a (seq 0 d) <-> (a < d)%nat) by (intros a; rewrite in_seq; lia).
  assert (D1 : n_dim nrb1 = Z.of_nat d) by (unfold n_dim; f_equal; apply (jn_dim _ _ _ _ _ _ HJ); left; auto).
  assert (D2 : n_dim nrb2 = Z.of_nat d) by (unfold n_dim; f_equal; apply (jn_dim _ _ _ _ _ _ HJ); right; left; auto).
  assert (SA : forall a, (a < d)%nat -> a_size (get_axis o1 a) = a_size (get_axis o2 a) /\ a_len (get_axis o1 a) = a_len (get_axis o2 a) /\
    (forall j, (0 <= j < a_len (get_axis o1 a))%Z -> a_knots (get_axis o1 a) j = a_knots (get_axis o2 a) j)).
  { intros a Ha. destruct (S a o1 o2) as (S1 & S2 & S3 & _); [apply ID; auto|left; auto|right; left; auto|]. auto. }
  assert (SH : n_shape o2 = n_shape o1) by (symmetry; apply shape_same; [congruence|intros a Ha; apply SA; lia]).
  assert (TS : Forall2 same_axR (spec_axes o1) (spec_axes o2)) by (apply same_axes; [congruence|intros a Ha; apply SA; lia]).
  unfold ruled. rewrite D1, D2, Z.eqb_refl. replace (Z.of_nat d <=? 2)%Z with true by (symmetry; apply Z.leb_le; lia). cbn [assert bind]. rewrite E. cbn [bind].
  rewrite SH, shape_eqb_refl, app_axes, app_shape. pose proof V1 as (V1a & V1b & V1c).
  assert (WA : Forall wf_ax (map spec_ax (n_axes o1 ++ [unit_axis]))) by (rewrite map_app; apply Forall_app; split; [exact V1b|constructor; [apply unit_wf|constructor]]).
  destruct (init_built junk (n_axes o1 ++ [unit_axis]) 4 (fun idx => n_arr (if (last idx 0 =? 0)%Z then o1 else o2) (removelast idx)))
    as (srf & EI & EA & EC & EN); auto; [rewrite app_length; cbn; lia|lia|].
  assert (GS : forall a, (a < d)%nat -> get_axis srf a = get_axis o1 a) by (intros a Ha; unfold get_axis; rewrite EA, app_nth1 by lia; reflexivity).
  exists srf. split; [exact EI|]. split; [apply (built_wf (n_axes o1 ++ [unit_axis])); auto; rewrite app_length; cbn; lia|]. split; auto.
  split; [rewrite EA, app_length; cbn; lia|]. split; [unfold get_axis; rewrite EA, app_nth2, L1, Nat.sub_diag by lia; reflexivity|]. split.
  { intros a Ha. cbv zeta. rewrite GS by auto. destruct (A1 a ltac:(apply ID; auto)) as (O1 & O2 & O3 & O4). destruct (S a o1 o1) as (_ & _ & _ & S4); [apply ID; auto|left; auto|left; auto|].
    cbv zeta in *. auto. }
  intros us1 us2 us t B1 B2 MV1 MV2 Ht. destruct (M1 us1 us B1 MV1) as [IB1 H1]. destruct (M2 us2 us B2 MV2) as [_ H2].
  assert (ES : spec_axes srf = spec_axes o1 ++ [spec_ax unit_axis]) by (unfold spec_axes; rewrite EA, map_app; reflexivity).
  pose proof (in_box_length _ _ IB1) as Lu. split.
  - rewrite ES. apply in_box_join; auto. constructor; [|constructor]. apply unit_dom. auto.
  - intros c Hc. unfold hom at 1. rewrite ES. rewrite tsum_app by auto.
    rewrite (tsum_ext _ _ (fun i => (1 - t) * n_arr o1 i c + t * n_arr o2 i c)); auto.
    + rewrite tsum_plus, !tsum_scal by auto. rewrite <- (H1 c), <- (H2 c). f_equal. f_equal. unfold hom. apply tsum_same; auto.
    + intros i Hi. rewrite unit_tsum by auto. rewrite !EN. cbn [Z.eqb Pos.eqb]. rewrite !removelast_last, !last_last. reflexivity.
Qed.

(** Every parameter of the common domain comes from one of the object. *)
Lemma in_dom_lohi (A : axis Rn) u : in_domain (x_n (spec_ax A)) (x_p (spec_ax A)) (x_U (spec_ax A)) u <-> a_lo A <= u <= a_hi A.
Proof. rewrite a_hi_eq, a_lo_eq. unfold in_domain, spec_ax. cbn. replace (a_size A - 1 + 1)%Z with (a_size A) by lia. reflexivity. Qed.
Lemma in_box_lohi nrb us : in_box (spec_axes nrb) us <-> length us = length (n_axes nrb) /\ forall b, (b < length (n_axes nrb))%nat -> a_lo (get_axis nrb b) <= nth b us 0 <= a_hi (get_axis nrb b).
Proof.
  split.
  - intros I. pose proof (in_box_length _ _ I) as L. unfold spec_axes in L. rewrite map_length in L. split; auto. intros b Hb.
    assert (Hs : (b < length (spec_axes nrb))%nat) by (unfold spec_axes; rewrite map_length; lia).
    pose proof (Forall2_nth _ _ _ b (spec_ax axis0) 0 I Hs) as K. rewrite nth_spec_axes in K. apply in_dom_lohi. exact K.
  - intros [L H]. apply (Forall2_of_nth _ _ _ (spec_ax axis0) 0); [unfold spec_axes; rewrite map_length; auto|]. intros b Hb.
    unfold spec_axes in Hb. rewrite map_length in Hb. rewrite nth_spec_axes. apply in_dom_lohi. apply H. auto.
Qed.
Lemma moved_back nrb d lo hi us : wf_nurbs nrb -> length (n_axes nrb) = d -> (forall a, (a < d)%nat -> lo a <= a_lo (get_axis nrb a) /\ a_hi (get_axis nrb a) <= hi a) ->
  length us = d -> (forall a, (a < d)%nat -> lo a <= nth a us 0 <= hi a) -> exists us1, in_box (spec_axes nrb) us1 /\ moved nrb (seq 0 d) lo hi us1 us.
Proof.
  intros W L B Lu H.
  set (h := fun a => a_lo (get_axis nrb a) + (nth a us 0 - lo a) * (a_hi (get_axis nrb a) - a_lo (get_axis nrb a)) / (hi a - lo a)).
  assert (N : forall b, (b < d)%nat -> nth b (map h (seq 0 d)) 0 = h b).
  { intros b Hb. rewrite (nth_indep _ 0 (h 0%nat)) by (rewrite map_length, seq_length; auto). rewrite map_nth, seq_nth by auto. reflexivity. }
  assert (WL : forall b, (b < d)%nat -> a_lo (get_axis nrb b) < a_hi (get_axis nrb b)) by (intros b Hb; apply wf_lohi; apply wf_get_axis; auto; lia).
  exists (map h (seq 0 d)). split.
  - apply in_box_lohi. split; [rewrite map_length, seq_length; auto|]. intros b Hb. rewrite L in Hb. rewrite N by auto. unfold h.
    specialize (B b Hb). specialize (H b Hb). specialize (WL b Hb). revert B WL. generalize (a_lo (get_axis nrb b) : R) (a_hi (get_axis nrb b) : R). intros l r B WL.
    assert (P : lo b < hi b) by lra.
    assert (K1 : 0 <= (nth b us 0 - lo b) * (r - l) / (hi b - lo b)) by (apply Rmult_le_pos; [apply Rmult_le_pos; lra|left; apply Rinv_0_lt_compat; lra]).
    assert (K2 : 0 <= (hi b - nth b us 0) * (r - l) / (hi b - lo b)) by (apply Rmult_le_pos; [apply Rmult_le_pos; lra|left; apply Rinv_0_lt_compat; lra]).
    assert (K3 : (nth b us 0 - lo b) * (r - l) / (hi b - lo b) + (hi b - nth b us 0) * (r - l) / (hi b - lo b) = r - l) by (field; lra). lra.
  - split; [rewrite map_length, seq_length; auto|]. intros b Hb. rewrite map_length, seq_length in Hb. destruct (in_dec Nat.eq_dec b (seq 0 d)) as [I|I]; [|exfalso; apply I, in_seq; lia].
    rewrite N by auto. unfold h, rescale. specialize (B b Hb). specialize (H b Hb). specialize (WL b Hb). revert B WL. generalize (a_lo (get_axis nrb b) : R) (a_hi (get_axis nrb b) : R). intros l r B WL. field; lra.
Qed.

Theorem ruled_user junk junk2 nrb1 nrb2 d lo hi deg : wf_nurbs nrb1 -> wf_nurbs nrb2 -> (1 <= d <= 2)%nat -> joinable [nrb1; nrb2] d (seq 0 d) lo hi deg ->
  exists srf, ruled (N:=Rn) junk junk2 nrb1 nrb2 = Ok srf /\ wf_nurbs srf /\ length (n_axes srf) = S d /\ get_axis srf d = unit_axis /\
   (forall a, (a < d)%nat -> let B := get_axis srf a in open_axis B /\ a_deg B = deg a /\ a_lo B = lo a /\ a_hi B = hi a) /\
   (forall v, in_box (spec_axes srf) v -> exists us1 us2 us t, v = us ++ [t] /\ 0 <= t <= 1 /\ in_box (spec_axes nrb1) us1 /\ in_box (spec_axes nrb2) us2 /\
      moved nrb1 (seq 0 d) lo hi us1 us /\ moved nrb2 (seq 0 d) lo hi us2 us) /\
   (forall us1 us2 us t, in_box (spec_axes nrb1) us1 -> in_box (spec_axes nrb2) us2 -> moved nrb1 (seq 0 d) lo hi us1 us -> moved nrb2 (seq 0 d) lo hi us2 us -> 0 <= t <= 1 ->
     in_box (spec_axes srf) (us ++ [t]) /\ forall c, (0 <= c < 4)%Z -> hom srf c (us ++ [t]) = (1 - t) * hom nrb1 c us1 + t * hom nrb2 c us2) /\
   forall f1 f2, shows nrb1 f1 -> shows nrb2 f2 -> exists g, shows srf g /\
     forall us1 us2 us c, in_box (spec_axes nrb1) us1 -> in_box (spec_axes nrb2) us2 -> moved nrb1 (seq 0 d) lo hi us1 us -> moved nrb2 (seq 0 d) lo hi us2 us -> (0 <= c < 3)%Z ->
       g (us ++ [0]) c = f1 us1 c /\ g (us ++ [1]) c = f2 us2 c.
Proof.
  intros W1 W2 Hd HJ. destruct (ruled_hom junk junk2 nrb1 nrb2 d lo hi deg W1 W2 Hd HJ) as (srf & E & W & C & L & U & A & H). exists srf.
  split; auto. split; auto. split; auto. split; auto. split; [intros a Ha; cbv zeta; destruct (A a Ha) as (A1 & A2 & A3 & A4 & _); auto|]. split.
  { intros v Hv. apply in_box_lohi in Hv. destruct Hv as [Lv Hv]. rewrite L in *.
    destruct (exists_last (l:=v)) as (us & t & ->); [intros ->; discriminate|]. rewrite app_length in Lv. cbn in Lv. assert (Lu : length us = d) by lia.
    assert (HU : forall a, (a < d)%nat -> lo a <= nth a us 0 <= hi a).
    { intros a Ha. specialize (Hv a ltac:(lia)). rewrite app_nth1 in Hv by lia. destruct (A a Ha) as (_ & _ & A3 & A4 & _). cbv zeta in A3, A4. rewrite A3, A4 in Hv. auto. }
    specialize (Hv d ltac:(lia)). rewrite app_nth2, Lu, Nat.sub_diag in Hv by lia. rewrite U in Hv. cbn in Hv.
    destruct (moved_back nrb1 d lo hi us W1) as (us1 & B1 & M1); auto; [apply HJ; left; auto|intros a Ha; destruct (jn_bounds _ _ _ _ _ _ HJ nrb1 a) as (? & ? & ?); [left; auto|apply in_seq; lia|split; auto]|].
    destruct (moved_back nrb2 d lo hi us W2) as (us2 & B2 & M2); auto; [apply HJ; right; left; auto|intros a Ha; destruct (jn_bounds _ _ _ _ _ _ HJ nrb2 a) as (? & ? & ?); [right; left; auto|apply in_seq; lia|split; auto]|].
    exists us1, us2, us, t. auto 10. }
  split; auto. intros f1 f2 S1 S2. exists (fun us c => pt srf c us). split; [apply shows_intro; auto|].
  intros us1 us2 us c B1 B2 M1 M2 Hc. destruct (H us1 us2 us 0 B1 B2 M1 M2) as [_ H0]; [lra|]. destruct (H us1 us2 us 1 B1 B2 M1 M2) as [_ H1]; [lra|].
  rewrite <- (shows_elim nrb1 f1 us1 c), <- (shows_elim nrb2 f2 us2 c) by auto. unfold pt. rewrite !H0, !H1 by lia. split; f_equal; try f_equal; ring.
Qed.
Theorem compat_calls junk junk2 nrbs axes d L lo hi deg :
  (2 <= length nrbs)%nat -> axes_are d axes L -> (forall nrb, In nrb nrbs -> wf_nurbs nrb) -> joinable nrbs d L lo hi deg ->
  exists outs, compat (N:=Rn) junk junk2 nrbs axes = Ok outs /\
    Forall2 (fun nrb out => wf_nurbs out /\ n_comp out = n_comp nrb /\ length (n_axes out) = d /\
       (forall a, In a L -> let B := get_axis out a in open_axis B /\ a_deg B = deg a /\ a_lo B = lo a /\ a_hi B = hi a) /\
       (forall b, ~ In b L -> get_axis out b = get_axis nrb b) /\
       (forall xs xs', good_args (spec_axes nrb) xs -> moved_args nrb L lo hi xs xs' ->
          good_args (spec_axes out) xs' /\ same_values nrb out xs xs' (fun idx => idx))) nrbs outs /\
    forall a out out', In a L -> In out outs -> In out' outs -> a_size (get_axis out a) = a_size (get_axis out' a) /\
       a_len (get_axis out a) = a_len (get_axis out' a) /\
       (forall j, (0 <= j < a_len (get_axis out a))%Z -> a_knots (get_axis out a) j = a_knots (get_axis out' a) j).
Proof.
  intros H1 H2 H3 H4. destruct (compat_user junk junk2 nrbs axes d L lo hi deg H1 H2 H3 H4) as (outs & E & F & S). exists outs. split; auto. split.
  - clear - F. induction F as [|nrb out l l' (Q1 & Q2 & Q3 & Q4 & Q5 & _ & Q6) F IH]; constructor; auto 10.
  - intros a out out' Ia I I'. destruct (S a out out' Ia I I') as (S1 & S2 & S3 & _). auto.
Qed.
