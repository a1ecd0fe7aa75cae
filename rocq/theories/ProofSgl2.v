(** Singles as doubles, doubles rounded to singles. *)
From Coq Require Import ZArith Reals List Bool SpecFloat Lia Lra Psatz.
From Verif Require Import Num ModelIo ModelFloat ModelSingle SpecIo SpecDouble SpecSingle ProofIo ProofFloat ProofRound ProofRound2 ProofRound3 ProofRound8 ProofSgl.
Local Open Scope R_scope.

Definition signed (s : bool) (r : spec_float) : Prop := match r with S754_zero b | S754_finite b _ _ => b = s | _ => False end.
(** Alignment keeps the number and adds digits. *)
Lemma shift_value m d : Zpos (shift_pos d m) = (Zpos m * 2 ^ Zpos d)%Z.
Proof. rewrite shift_pos_correct. apply Z.mul_comm. Qed.
Lemma shift_digits m d : Zdigits2 (Zpos (shift_pos d m)) = (Z.pos (digits2_pos m) + Zpos d)%Z.
Proof.
  destruct (digits_range (Z.pos m) ltac:(lia)) as [[D1 D2] _]. cbn [Zdigits2] in D1, D2. rewrite shift_value.
  assert (0 < 2 ^ Zpos d)%Z by (apply Z.pow_pos_nonneg; lia). apply digits_unique; [nia|].
  replace (Z.pos (digits2_pos m) + Z.pos d - 1)%Z with (Z.pos (digits2_pos m) - 1 + Z.pos d)%Z by lia. rewrite !Z.pow_add_r by lia. nia.
Qed.
Lemma shift_real m e d E : (E - e = Zneg d)%Z -> IZR (Zpos (shift_pos d m)) * b2 E = IZR (Zpos m) * b2 e.
Proof. intros Q. rewrite shift_value, mult_IZR, <- b2_IZR by lia. rewrite Rmult_assoc, <- b2_add. f_equal. f_equal. lia. Qed.

(** ** Rounding to a single *)
Lemma s_signed s r y : s_finite r -> (match r with S754_zero b | S754_finite b _ _ => b = s | _ => True end) -> 0 <= y -> signed s r.
Proof. intros F H _. destruct r; auto; destruct F as [_ []]. Qed.
Lemma to_single_pos s m e : IZR (Zpos m) * b2 e < 3 / 2 * b2 127 ->
  let r := binary_round 24 128 s m e in
  s_finite r /\ signed s r /\ exists y, dval r = sg s * y /\ 0 <= y /\ s_near (IZR (Zpos m) * b2 e) y.
Proof.
  intros B. unfold binary_round. rewrite s_fexp_fe. set (E := s_fe (Z.pos (digits2_pos m) + e)).
  pose proof (b2_pos e). unfold shl_align. destruct (E - e)%Z as [|d|d] eqn:Q.
  - destruct (s_round_aux s (Zpos m) e loc_Exact (IZR (Zpos m) * b2 e) ltac:(lia) ltac:(cbn; field; lra) ltac:(cbn [Zdigits2]; fold E; lia) B) as (F & y & V & Y0 & _ & _ & SG & _ & NR);
    split; [exact F|]; split; [eapply s_signed; eauto|]; exists y; auto.
  - destruct (s_round_aux s (Zpos m) e loc_Exact (IZR (Zpos m) * b2 e) ltac:(lia) ltac:(cbn; field; lra) ltac:(cbn [Zdigits2]; fold E; lia) B) as (F & y & V & Y0 & _ & _ & SG & _ & NR);
    split; [exact F|]; split; [eapply s_signed; eauto|]; exists y; auto.
  - pose proof (shift_real m e d E Q) as VAL. pose proof (shift_digits m d) as DG. pose proof (b2_pos E).
  destruct (s_round_aux s (Zpos (shift_pos d m)) E loc_Exact (IZR (Zpos m) * b2 e) ltac:(lia)
      ltac:(cbn; rewrite <- VAL; field; lra) ltac:(rewrite DG; unfold E, s_fe in *; lia) B) as (F & y & V & Y0 & _ & _ & SG & _ & NR).
  split; [exact F|]; split; [eapply s_signed; eauto|]; exists y; auto.
Qed.
Lemma to_single_full x : finite x -> Rabs (dval x) < 3 / 2 * b2 127 -> s_finite (to_single x) /\ s_rounds (dval x) (dval (to_single x)) /\ forall s, signed s x -> signed s (to_single x).
Proof.
  intros F B. destruct x as [s|s| |s m e]; try nofin; cbn [to_single].
  - split; [split; [reflexivity|exact I]|]. split; [exact s_rounds_0|auto].
  - rewrite dval_sg in B |- *. rewrite sg_abs, Rabs_right in B by (left; apply mant_pos).
    destruct (to_single_pos s m e B) as (F1 & SG & y & V & Y0 & NR). split; [exact F1|]. split.
    + rewrite V. apply s_rounds_sg; [left; apply mant_pos|exact NR].
    + intros s' <-. exact SG.
Qed.
Lemma to_single_ok x : moderate x -> s_finite (to_single x) /\ s_rounds (dval x) (dval (to_single x)) /\ forall s, signed s x -> signed s (to_single x).
Proof. intros [F B]. apply to_single_full; auto. pose proof (b2_pos 127). lra. Qed.

(** ** Numbers of few digits are doubles *)
Lemma dbl_exact s m e : (Zpos (digits2_pos m) <= 53)%Z -> (-1074 <= e <= 900)%Z -> let r := binary_round 53 1024 s m e in
  finite r /\ dval r = sg s * (IZR (Zpos m) * b2 e) /\ signed s r.
Proof.
  intros D He. unfold binary_round. rewrite fexp_fe. set (E := fe (Z.pos (digits2_pos m) + e)).
  assert (EE : (E <= e)%Z) by (unfold E, fe; lia). pose proof (b2_pos e) as Pe. pose proof (b2_pos E) as PE.
  assert (B : IZR (Zpos m) * b2 e < b2 1023).
  { destruct (digits_range (Z.pos m) ltac:(lia)) as [[_ D2] _]. cbn [Zdigits2] in D2. apply Rlt_le_trans with (b2 53 * b2 e).
    - apply Rmult_lt_compat_r; [exact Pe|]. rewrite b2_IZR by lia. apply IZR_lt. apply Z.lt_le_trans with (1 := D2). apply Z.pow_le_mono_r; lia.
    - rewrite <- b2_add. apply b2_le. lia. }
  assert (K : forall M EM, EM = E -> Zdigits2 (Zpos M) = (Zpos (digits2_pos m) + e - EM)%Z -> IZR (Zpos M) * b2 EM = IZR (Zpos m) * b2 e ->
    let r := binary_round_aux 53 1024 s (Zpos M) EM loc_Exact in finite r /\ dval r = sg s * (IZR (Zpos m) * b2 e) /\ signed s r).
  { intros M EM -> DG VAL. assert (Q : E = fe (Zdigits2 (Z.pos M) + E)) by (rewrite DG; replace (Z.pos (digits2_pos m) + e - E + E)%Z with (Z.pos (digits2_pos m) + e)%Z by lia; reflexivity).
    destruct (round_aux s (Zpos M) E loc_Exact (IZR (Zpos m) * b2 e) ltac:(lia) ltac:(cbn; rewrite <- VAL; field; lra) ltac:(rewrite <- Q; lia) B) as (F & y & V & Y0 & _ & EX & SG & _ & _).
    split; [exact F|]. split; [rewrite V, (EX Q eq_refl); reflexivity|]. destruct (binary_round_aux 53 1024 s (Z.pos M) E loc_Exact); auto; destruct F as [_ []]. }
  unfold shl_align. destruct (E - e)%Z as [|d|d] eqn:Q; [|lia|].
  - apply (K m e); [lia|cbn [Zdigits2]; lia|reflexivity].
  - apply (K (shift_pos d m) E); [reflexivity|rewrite shift_digits; lia|apply shift_real; exact Q].
Qed.
Lemma of_single_ok y : s_finite y -> finite (of_single y) /\ dval (of_single y) = dval y /\ forall s, signed s y -> signed s (of_single y).
Proof.
  intros F. destruct y as [s|s| |s m e]; try (destruct F as [_ []]; fail); cbn [of_single].
  - split; [split; [reflexivity|exact I]|]. auto.
  - destruct (s_finite_range s m e F) as (R1 & R2 & R3 & R4). destruct (dbl_exact s m e) as (F1 & V & SG); [lia|lia|].
    split; [exact F1|]. split; [rewrite V, dval_sg; reflexivity|]. intros s' <-. exact SG.
Qed.

(** ** A number has one representation *)
Lemma s_mant_lt m1 e1 m2 e2 : (Zpos (digits2_pos m1) <= 24)%Z -> (-149 <= e1)%Z -> s_fe (Zpos (digits2_pos m2) + e2) = e2 -> (e1 < e2)%Z ->
  IZR (Zpos m1) * b2 e1 < IZR (Zpos m2) * b2 e2.
Proof.
  intros D1 E1 E2 L. assert (D2 : Zpos (digits2_pos m2) = 24%Z) by (unfold s_fe in *; lia).
  destruct (digits_range (Zpos m1) ltac:(lia)) as [[_ A1] _]. destruct (digits_range (Zpos m2) ltac:(lia)) as [[A2 _] _]. cbn [Zdigits2] in *.
  rewrite D2 in A2. assert (B1 : (Zpos m1 < 2 ^ 24)%Z) by (apply Z.lt_le_trans with (1 := A1); apply Z.pow_le_mono_r; lia).
  apply IZR_lt in B1. apply IZR_le in A2. rewrite <- b2_IZR in B1, A2 by lia.
  apply Rlt_le_trans with (b2 24 * b2 e1); [apply Rmult_lt_compat_r; [apply b2_pos|exact B1]|].
  apply Rle_trans with (b2 (24 - 1) * b2 e2); [|apply Rmult_le_compat_r; [left; apply b2_pos|exact A2]].
  rewrite <- !b2_add. apply b2_le. lia.
Qed.
Lemma finite_inj x y s : finite x -> finite y -> signed s x -> signed s y -> dval x = dval y -> x = y.
Proof.
  intros Fx Fy Sx Sy E. destruct x as [sx|sx| |sx mx ex], y as [sy|sy| |sy my ey]; try contradiction; cbn in Sx, Sy; subst; auto.
  - rewrite dval_sg in E. cbn [dval] in E. pose proof (mant_pos my ey). destruct s; unfold sg in E; lra.
  - rewrite dval_sg in E. cbn [dval] in E. pose proof (mant_pos mx ex). destruct s; unfold sg in E; lra.
  - rewrite !dval_sg in E. assert (E' : IZR (Z.pos mx) * b2 ex = IZR (Z.pos my) * b2 ey) by (destruct s; unfold sg in E; lra).
    destruct (finite_range _ _ _ Fx) as (R1 & R2 & R3 & R4). destruct (finite_range _ _ _ Fy) as (R5 & R6 & R7 & R8).
    destruct (Z.lt_trichotomy ex ey) as [L|[->|L]].
    + pose proof (mant_lt mx ex my ey R2 R1 R7 L). lra.
    + pose proof (b2_pos ey). apply Rmult_eq_reg_r in E'; [|lra]. apply eq_IZR in E'. injection E' as ->. reflexivity.
    + pose proof (mant_lt my ey mx ex R6 R5 R3 L). lra.
Qed.
Lemma s_finite_inj x y s : s_finite x -> s_finite y -> signed s x -> signed s y -> dval x = dval y -> x = y.
Proof.
  intros Fx Fy Sx Sy E. destruct x as [sx|sx| |sx mx ex], y as [sy|sy| |sy my ey]; try contradiction; cbn in Sx, Sy; subst; auto.
  - rewrite dval_sg in E. cbn [dval] in E. pose proof (mant_pos my ey). destruct s; unfold sg in E; lra.
  - rewrite dval_sg in E. cbn [dval] in E. pose proof (mant_pos mx ex). destruct s; unfold sg in E; lra.
  - rewrite !dval_sg in E. assert (E' : IZR (Z.pos mx) * b2 ex = IZR (Z.pos my) * b2 ey) by (destruct s; unfold sg in E; lra).
    destruct (s_finite_range _ _ _ Fx) as (R1 & R2 & R3 & R4). destruct (s_finite_range _ _ _ Fy) as (R5 & R6 & R7 & R8).
    destruct (Z.lt_trichotomy ex ey) as [L|[->|L]].
    + pose proof (s_mant_lt mx ex my ey R2 R1 R7 L). lra.
    + pose proof (b2_pos ey). apply Rmult_eq_reg_r in E'; [|lra]. apply eq_IZR in E'. injection E' as ->. reflexivity.
    + pose proof (s_mant_lt my ey mx ex R6 R5 R3 L). lra.
Qed.
