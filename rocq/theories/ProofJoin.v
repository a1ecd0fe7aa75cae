(** Joining two objects (igakit/cad.py:600-675): the glued knots carry both pieces. *)
From Coq Require Import ZArith Reals List Lia Lra Bool.
From Verif Require Import Num Loop ModelBspline ModelBSp ModelNurbs ModelRemove ModelIga ModelCad Spec SpecElev SpecCompat SumZ BPiece BLink BRep ProofSpan
  SpecNurbs ProofNet ProofCall ProofNurbs ProofMethods ProofClamp ProofGeom ProofGeom2 ProofPerm ProofOk ProofIga ProofIga2 ProofInit ProofRemove4
  ProofCompat1 ProofCompat2 ProofCompat3 ProofCad ProofRuled ProofCoons.
Import ListNotations.
Local Open Scope R_scope.

(** ** One direction *)
Definition glued (m p : Z) (u : R) (U1 U2 : Z -> R) (j : Z) : R :=
  if (j <? m + 1)%Z then U1 j else if (j <? m + 1 + p)%Z then u else U2 (j - (m + 1) - p + (p + 1))%Z.
Lemma glued_left m p u U1 U2 j : (forall j, (m + 1 <= j <= m + p)%Z -> U1 j = u) -> (j <= m + p)%Z -> glued m p u U1 U2 j = U1 j.
Proof.
  intros H Hj. unfold glued. destruct (Z.ltb_spec j (m + 1)); auto. destruct (Z.ltb_spec j (m + 1 + p)); [|lia]. symmetry. apply H. lia.
Qed.
Lemma glued_right m p u U1 U2 j : (forall j, (1 <= j <= p)%Z -> U2 j = u) -> (m + 1 <= j)%Z -> glued m p u U1 U2 j = U2 (j - m)%Z.
Proof.
  intros H Hj. unfold glued. destruct (Z.ltb_spec j (m + 1)); [lia|]. destruct (Z.ltb_spec j (m + 1 + p)).
  - symmetry. apply H. lia.
  - f_equal. lia.
Qed.

Section Glue.
Context (m1 m2 p : Z) (u : R) (U1 U2 : Z -> R) (W1 : wf_knots m1 p U1) (W2 : wf_knots m2 p U2) (Hp : (1 <= p)%Z)
  (H1 : forall j, (m1 + 1 <= j <= m1 + p)%Z -> U1 j = u) (H2 : forall j, (1 <= j <= p)%Z -> U2 j = u).
Let W := glued m1 p u U1 U2.

Lemma glued_wf : wf_knots (m1 + m2) p W.
Proof.
  pose proof (wf_n _ _ _ W1) as N1. pose proof (wf_n _ _ _ W2) as N2. pose proof (wf_mono _ _ _ W1) as M1. pose proof (wf_mono _ _ _ W2) as M2.
  split; try lia.
  - intros i j Hi Hij Hj. unfold W. destruct (Z_le_gt_dec j (m1 + p)) as [A|A].
    + rewrite !glued_left by (auto; lia). apply M1; lia.
    + destruct (Z_le_gt_dec (m1 + 1) i) as [B|B].
      * rewrite !glued_right by (auto; lia). apply M2; lia.
      * rewrite (glued_left _ _ _ _ _ i), (glued_right _ _ _ _ _ j) by (auto; lia).
        apply Rle_trans with u; [rewrite <- (H1 (m1 + 1)) by lia; apply M1; lia|rewrite <- (H2 p) by lia; apply M2; lia].
  - unfold W. rewrite (glued_left _ _ _ _ _ p) by (auto; lia). destruct (Z.eq_dec p m1) as [E|E].
    + rewrite glued_left by (auto; lia). apply (wf_first _ _ _ W1).
    + rewrite glued_left by (auto; lia). apply (wf_first _ _ _ W1).
  - unfold W. rewrite !glued_right by (auto; lia). replace (m1 + m2 - m1)%Z with m2 by lia. replace (m1 + m2 + 1 - m1)%Z with (m2 + 1)%Z by lia. apply (wf_last _ _ _ W2).
Qed.

Lemma glued_lo : W p = U1 p.
Proof. pose proof (wf_n _ _ _ W1). apply glued_left; auto; lia. Qed.
Lemma glued_hi : W (m1 + m2 + 1)%Z = U2 (m2 + 1)%Z.
Proof. pose proof (wf_n _ _ _ W2). unfold W. rewrite glued_right by (auto; lia). f_equal. lia. Qed.

Lemma u_hi1 : U1 (m1 + 1)%Z = u.
Proof. apply H1. lia. Qed.
Lemma u_lo2 : U2 p = u.
Proof. apply H2. lia. Qed.

Lemma glued_curve1 P1 Q x : in_domain m1 p U1 x -> (forall i, (0 <= i <= m1)%Z -> Q i = P1 i) ->
  curve (m1 + m2) p W Q x = curve m1 p U1 P1 x.
Proof.
  intros D HQ. pose proof (wf_n _ _ _ W1) as N1. pose proof (wf_n _ _ _ W2) as N2. pose proof glued_wf as WW.
  destruct (active_exists _ _ _ _ W1 D) as [k A]. rewrite (curve_piece _ _ _ _ _ _ W1 A). pose proof A as [Hk _].
  pose proof (active_in _ _ _ _ _ W1 A) as Hx. destruct (Req_dec x u) as [->|Hne].
  - (* the joint: both are the control value m1 *)
    assert (k = m1) as ->.
    { apply (active_unique m1 p U1 u); auto. split; [lia|]. right. split; auto. symmetry. apply u_hi1. }
    rewrite <- (curve_piece m1 p U1 P1 u m1 W1 A). rewrite <- u_hi1 at 2. rewrite curve_right_end; auto; [|intros; rewrite !H1 by lia; auto].
    assert (A' : active (m1 + m2) p W u (m1 + p)).
    { split; [lia|]. left. unfold W. rewrite glued_left by (auto; lia). rewrite H1 by lia. rewrite glued_right by (auto; lia).
      replace (m1 + p + 1 - m1)%Z with (p + 1)%Z by lia. pose proof (wf_first _ _ _ W2) as F. rewrite u_lo2 in F. lra. }
    rewrite (curve_piece _ _ _ _ _ _ WW A'). replace (m1 + p)%Z with (p + m1)%Z by lia. rewrite <- pc_shift.
    rewrite (pc_ext_knots _ U2) by (auto; try lia; intros i Hi; unfold W; rewrite glued_right by (auto; lia); f_equal; lia).
    assert (A2 : active m2 p U2 u p) by (split; [lia|]; left; rewrite u_lo2; pose proof (wf_first _ _ _ W2) as F; rewrite u_lo2 in F; lra).
    rewrite <- (curve_piece m2 p U2 _ u p W2 A2). rewrite <- u_lo2 at 1. rewrite curve_left_end; auto; [|intros; rewrite !H2 by lia; auto].
    rewrite Z.add_0_l. apply HQ. lia.
  - assert (A' : active (m1 + m2) p W x k).
    { split; [lia|]. left. destruct A as [_ [A|[-> A]]]; [|rewrite u_hi1 in A; congruence]. unfold W. rewrite !glued_left by (auto; lia). exact A. }
    rewrite (curve_piece _ _ _ _ _ _ WW A'). apply pc_ext2; [lia| |]; intros i Hi; [|apply HQ; lia].
    unfold W. apply glued_left; auto. lia.
Qed.

Lemma glued_curve2 P2 Q x : in_domain m2 p U2 x -> (forall i, (0 <= i <= m2)%Z -> Q (i + m1)%Z = P2 i) ->
  curve (m1 + m2) p W Q x = curve m2 p U2 P2 x.
Proof.
  intros D HQ. pose proof (wf_n _ _ _ W1) as N1. pose proof (wf_n _ _ _ W2) as N2. pose proof glued_wf as WW.
  destruct (active_exists _ _ _ _ W2 D) as [k A]. rewrite (curve_piece _ _ _ _ _ _ W2 A). pose proof A as [Hk _].
  assert (A' : active (m1 + m2) p W x (k + m1)).
  { split; [lia|]. destruct A as [_ [A|[-> A]]]; [left|right].
    - unfold W. rewrite !glued_right by (auto; lia). replace (k + m1 - m1)%Z with k by lia. replace (k + m1 + 1 - m1)%Z with (k + 1)%Z by lia. exact A.
    - split; [lia|]. rewrite glued_hi. exact A. }
  rewrite (curve_piece _ _ _ _ _ _ WW A'). rewrite <- pc_shift. apply pc_ext2; [lia| |]; intros i Hi; [|apply HQ; lia].
  unfold W. rewrite glued_right by (auto; lia). f_equal. lia.
Qed.
End Glue.

(** ** Objects *)
Lemma hom_curve nrb a c us : (a < length (n_axes nrb))%nat -> length us = length (n_axes nrb) -> let A := get_axis nrb a in
  hom nrb c us = curve (a_size A - 1) (a_deg A) (a_knots A) (fun i => tsum (lrem a (spec_axes nrb)) (fun idx => n_arr nrb (lins a i idx) c) (lrem a us)) (nth a us 0).
Proof.
  intros Ha Hl A. unfold hom. assert (Ls : length (spec_axes nrb) = length (n_axes nrb)) by (unfold spec_axes; apply map_length).
  rewrite (tsum_axis a (spec_axes nrb) _ us (spec_ax axis0)) by lia. rewrite nth_spec_axes. fold A. unfold curve at 1.
  rewrite (tsum_sumZ _ _ 0 _ _ (fun i idx => n_arr nrb (lins a i idx) c)) by (rewrite !lrem_length; lia). reflexivity.
Qed.
Lemma hom_lins nrb a c x r : (a < length (n_axes nrb))%nat -> S (length r) = length (n_axes nrb) -> let A := get_axis nrb a in
  hom nrb c (lins a x r) = curve (a_size A - 1) (a_deg A) (a_knots A) (fun i => tsum (lrem a (spec_axes nrb)) (fun idx => n_arr nrb (lins a i idx) c) r) x.
Proof.
  intros Ha Hl A. rewrite (hom_curve nrb a) by (rewrite ?lins_length; lia). rewrite lrem_lins, nth_lins by lia. reflexivity.
Qed.

Theorem glue_spec nrb1 nrb2 a p (u : R) : wf_nurbs nrb1 -> wf_nurbs nrb2 -> (a < length (n_axes nrb1))%nat -> length (n_axes nrb2) = length (n_axes nrb1) ->
  n_comp nrb2 = n_comp nrb1 -> Forall2 same_axR (lrem a (spec_axes nrb1)) (lrem a (spec_axes nrb2)) ->
  let A1 := get_axis nrb1 a in let A2 := get_axis nrb2 a in let m1 := (a_size A1 - 1)%Z in let m2 := (a_size A2 - 1)%Z in
  a_deg A1 = p -> a_deg A2 = p -> (forall j, (m1 + 1 <= j <= m1 + p)%Z -> a_knots A1 j = u) -> (forall j, (1 <= j <= p)%Z -> a_knots A2 j = u) ->
  exists g, glue (N:=Rn) nrb1 nrb2 a p u = Ok g /\ wf_nurbs g /\ n_comp g = n_comp nrb1 /\
    n_axes g = lset a (mkAxis (m1 + m2 + 1) (m1 + m2 + p + 2) (glued m1 p u (a_knots A1) (a_knots A2))) (n_axes nrb1) /\
    forall c (r : list R), S (length r) = length (n_axes nrb1) -> hom nrb1 c (lins a u r) = hom nrb2 c (lins a u r) ->
       (forall x : R, in_domain m1 p (a_knots A1) x -> hom g c (lins a x r) = hom nrb1 c (lins a x r)) /\
       (forall x : R, in_domain m2 p (a_knots A2) x -> hom g c (lins a x r) = hom nrb2 c (lins a x r)) /\
       tsum (lrem a (spec_axes nrb1)) (fun idx => n_arr g (lins a m1 idx) c) r = hom nrb1 c (lins a u r).
Proof.
  intros WN1 WN2 Ha EL EC FS A1 A2 m1 m2 D1 D2 H1 H2.
  pose proof (wf_get_axis _ _ WN1 Ha) as WA1. fold A1 in WA1. pose proof (wf_get_axis nrb2 a WN2 ltac:(lia)) as WA2. fold A2 in WA2.
  assert (W1 : wf_knots m1 p (a_knots A1)) by (rewrite <- D1; apply WA1). assert (W2 : wf_knots m2 p (a_knots A2)) by (rewrite <- D2; apply WA2).
  assert (Hp : (1 <= p)%Z) by (rewrite <- D1; apply WA1).
  assert (SE : lrem a (n_shape nrb1) = lrem a (n_shape nrb2)).
  { assert (E : forall nrb : nurbs Rn, lrem a (n_shape nrb) = map (fun A => (x_n A + 1)%Z) (lrem a (spec_axes nrb))).
    { intros nrb. unfold n_shape, spec_axes. rewrite <- !map_lrem, map_map. apply map_ext. intros. simpl. lia. }
    rewrite !E. clear - FS. induction FS as [|x y l l' (S1 & _) F IH]; simpl; auto. rewrite S1, IH. auto. }
  unfold glue. rewrite SE, shape_eqb_refl. rewrite EC, Z.eqb_refl. cbn [andb]. fold A1 A2.
  replace (a_len A1 - p - 1)%Z with (m1 + 1)%Z by (unfold m1, a_deg in *; lia).
  eexists. split; [reflexivity|].
  match goal with |- wf_nurbs ?G /\ _ => set (g := G) end.
  assert (EX : n_axes g = lset a (mkAxis (m1 + m2 + 1) (m1 + m2 + p + 2) (glued m1 p u (a_knots A1) (a_knots A2))) (n_axes nrb1)).
  { unfold g. cbn [n_axes]. f_equal. f_equal; [unfold m1, m2; lia|unfold m2, a_deg in *; lia]. }
  set (B := mkAxis (N:=Rn) (m1 + m2 + 1) (m1 + m2 + p + 2) (glued m1 p u (a_knots A1) (a_knots A2))) in *.
  assert (DB : a_deg B = p) by (unfold B, a_deg; cbn; lia).
  assert (WB : wf_ax (spec_ax B)). { split; unfold spec_ax; cbn [x_n x_p x_U]; rewrite DB; auto. replace (a_size B - 1)%Z with (m1 + m2)%Z by (unfold B; cbn; lia). apply glued_wf; auto. }
  assert (Eg : get_axis g a = B) by (unfold get_axis; rewrite EX, nth_lset by auto; auto).
  assert (Lg : length (n_axes g) = length (n_axes nrb1)) by (rewrite EX, lset_length; auto).
  assert (Wg : wf_nurbs g).
  { destruct WN1 as (L & F & C). split; [|split]; [rewrite Lg; auto| |exact C]. unfold spec_axes. rewrite EX, map_lset. apply Forall_lset; auto. }
  assert (Sr : lrem a (spec_axes g) = lrem a (spec_axes nrb1)) by (unfold spec_axes; rewrite EX, map_lset, lrem_lset; auto).
  split; auto. split; [reflexivity|]. split; auto.
    intros c r Hr HM.
    set (P1 := fun i => tsum (lrem a (spec_axes nrb1)) (fun idx => n_arr nrb1 (lins a i idx) c) r).
    set (P2 := fun i => tsum (lrem a (spec_axes nrb2)) (fun idx => n_arr nrb2 (lins a i idx) c) r).
    set (Q := fun i => tsum (lrem a (spec_axes g)) (fun idx => n_arr g (lins a i idx) c) r).
    assert (WR : Forall wf_ax (lrem a (spec_axes nrb1))) by (apply Forall_lrem, WN1).
    assert (Lr : length r = length (lrem a (spec_axes nrb1))).
    { rewrite lrem_length by (unfold spec_axes; rewrite map_length; auto). unfold spec_axes. rewrite map_length. lia. }
    assert (Ha2 : (a < length (n_axes nrb2))%nat) by (rewrite EL; exact Ha). assert (Hr2 : S (length r) = length (n_axes nrb2)) by (rewrite EL; exact Hr).
    assert (E1 : forall x : R, hom nrb1 c (lins a x r) = curve m1 p (a_knots A1) P1 x) by (intros x; rewrite hom_lins by auto; fold A1 m1; rewrite D1; reflexivity).
    assert (E2 : forall x : R, hom nrb2 c (lins a x r) = curve m2 p (a_knots A2) P2 x) .
    { intros x. rewrite (hom_lins nrb2 a c x r Ha2 Hr2). fold A2 m2; rewrite D2; reflexivity. }
    assert (Eq : forall x : R, hom g c (lins a x r) = curve (m1 + m2) p (glued m1 p u (a_knots A1) (a_knots A2)) Q x).
    { intros x. rewrite (hom_lins g a c x r); [|rewrite Lg; exact Ha|rewrite Lg; exact Hr]. rewrite Eg, DB. replace (a_size B - 1)%Z with (m1 + m2)%Z by (unfold B; cbn; lia). reflexivity. }
    assert (E2' : forall i, P2 i = tsum (lrem a (spec_axes nrb1)) (fun idx => n_arr nrb2 (lins a i idx) c) r) by (intros i; symmetry; apply tsum_same; auto).
    assert (MT : P1 m1 = P2 0%Z).
    { rewrite E1, E2 in HM. pose proof (u_hi1 m1 p u (a_knots A1) Hp H1) as Ea. pose proof (u_lo2 p u (a_knots A2) Hp H2) as Eb.
      rewrite <- Ea in HM at 1. rewrite curve_right_end in HM; auto; [|intros; rewrite !H1 by lia; auto].
      rewrite <- Eb in HM. rewrite curve_left_end in HM; auto. intros. rewrite !H2 by lia. auto. }
    assert (QI : forall i idx, length idx = length (lrem a (spec_axes nrb1)) -> n_arr g (lins a i idx) c =
       if (i <? m1)%Z then n_arr nrb1 (lins a i idx) c else if (i =? m1)%Z then (n_arr nrb1 (lins a m1 idx) c + n_arr nrb2 (lins a 0%Z idx) c) / 2 else n_arr nrb2 (lins a (i - m1)%Z idx) c).
    { intros i idx HI. assert (HI' : (a <= length idx)%nat) by lia. unfold g. cbn [n_arr]. fold m1. rewrite nth_lins by auto. rewrite !lset_lins by auto.
      replace (i - a_size A1 + 1)%Z with (i - m1)%Z by (unfold m1; lia). reflexivity. }
    assert (Q1 : forall i, (0 <= i < m1)%Z -> Q i = P1 i).
    { intros i Hi. unfold Q, P1. rewrite Sr. apply tsum_ext; auto. intros idx Hx. rewrite QI by (apply in_net_length; auto).
      destruct (Z.ltb_spec i m1); [auto|lia]. }
    assert (Qm : Q m1 = P1 m1).
    { assert (E : Q m1 = (P1 m1 + P2 0%Z) / 2).
      { rewrite E2'. unfold Q, P1. rewrite Sr. unfold Rdiv. rewrite Rmult_comm, <- tsum_plus, <- tsum_scal by auto. apply tsum_ext; auto. intros idx Hx. rewrite QI by (apply in_net_length; auto).
        rewrite Z.ltb_irrefl, Z.eqb_refl. apply Rmult_comm. }
      rewrite E, <- MT. lra. }
    assert (Q2 : forall i, (0 <= i <= m2)%Z -> Q (i + m1)%Z = P2 i).
    { intros i Hi. destruct (Z.eq_dec i 0) as [->|Hz]; [rewrite Z.add_0_l; congruence|]. rewrite E2'. unfold Q. rewrite Sr. apply tsum_ext; auto. intros idx Hx.
      rewrite QI by (apply in_net_length; auto). destruct (Z.ltb_spec (i + m1) m1); [lia|]. destruct (Z.eqb_spec (i + m1) m1); [lia|]. replace (i + m1 - m1)%Z with i by lia. auto. }
    split; [|split].
    + intros x Hx. rewrite Eq, E1. apply glued_curve1; auto. intros i Hi. destruct (Z.eq_dec i m1) as [->|]; auto. apply Q1. lia.
    + intros x Hx. rewrite Eq, E2. apply glued_curve2; auto.
    + rewrite E1. pose proof (u_hi1 m1 p u (a_knots A1) Hp H1) as Ea. rewrite <- Ea. rewrite curve_right_end; auto; [|intros; rewrite !H1 by lia; auto].
      rewrite <- Qm. unfold Q. rewrite Sr. reflexivity.
Qed.
