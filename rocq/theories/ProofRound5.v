(** Sums of products accumulated in doubles, and Evaluate1 to Evaluate3. *)
From Coq Require Import ZArith Reals List Bool SpecFloat Lia Lra Psatz.
From Verif Require Import Num Loop Spec SumZ ModelBspline ModelBSp ModelFloat BPiece BLink SpecDouble ProofRound ProofRound2 ProofRound3 ProofRound4 ProofSpan ProofEval.
Local Open Scope R_scope.

Lemma ap_abs a A xh x : ap a A xh x -> Rabs (xh - x) <= (G ^ a - 1) * x + A.
Proof.
  intros (H1 & H2 & H3 & H4 & H5). pose proof (Gk_ge a) as Ga. pose proof (Gk_inv a) as [I1 I2].
  assert (x - x / G ^ a <= (G ^ a - 1) * x).
  { unfold Rdiv. assert (1 - / G ^ a <= G ^ a - 1). { assert (/ G ^ a * G ^ a = 1) by (apply Rinv_l; lra). nra. } nra. }
  unfold Rabs. destruct (Rcase_abs (xh - x)); lra.
Qed.
(** One term M*P of the sum. *)
Lemma term_ok a A A0 Pm Md M Pd : dap a A Md M -> M <= 1 -> A <= 1 -> finite Pd -> Rabs (dval Pd) <= Pm -> Pm <= b2 1000 -> few (a + 1) -> G * A * Pm + eta <= A0 ->
  let T := SFmul 53 1024 Md Pd in
  finite T /\ Rabs (dval T - M * dval Pd) <= (G ^ (a + 1) - 1) * (M * Rabs (dval Pd)) + A0.
Proof.
  intros [FM HM] M1 A1 FP PB PB2 FW HA0. pose proof (ap_abs _ _ _ _ HM) as E. destruct HM as (M0 & Mh & AA & HL & HU).
  set (P := dval Pd) in *. pose proof (Rabs_pos P) as PP. pose proof (Gk_ge a) as Ga. pose proof G_pos as G1. pose proof uu_pos as UP. pose proof eta_pos as EP.
  assert (Ga' : G ^ a <= 5 / 4) by (apply few_le; apply (few_less _ (a + 1)); [lia|auto]).
  assert (Z1 : Rabs (dval Md * P - M * P) <= Rabs P * ((G ^ a - 1) * M + A)).
  { replace (dval Md * P - M * P) with (P * (dval Md - M)) by ring. rewrite Rabs_mult. apply Rmult_le_compat_l; auto. }
  assert (Z2 : Rabs (dval Md * P) <= Rabs P * (M * G ^ a + A)).
  { rewrite Rabs_mult, (Rabs_right (dval Md)) by lra. rewrite Rmult_comm. apply Rmult_le_compat_l; auto. }
  destruct (mul_ok Md Pd FM FP) as (F & ER & _).
  { fold P. apply Rle_lt_trans with (1 := Z2). assert (M * G ^ a + A <= 1 * (5 / 4) + 1) by (apply Rplus_le_compat; [apply Rmult_le_compat; lra|lra]).
    apply Rle_lt_trans with (b2 1000 * 4); [apply Rmult_le_compat; try lra; nra|].
    replace (b2 1000 * 4) with (b2 1002) by (change 1002%Z with (1000 + 1 + 1)%Z; rewrite !b2_1; ring).
    replace (b2 1023) with (b2 1002 * b2 21) by (rewrite <- b2_add; reflexivity). pose proof (b2_pos 1002). assert (1 < b2 21) by (rewrite b2_IZR by lia; apply IZR_lt; reflexivity). nra. }
  fold P in ER. split; [exact F|].
  set (T := SFmul 53 1024 Md Pd) in *.
  apply Rle_trans with (Rabs (dval T - dval Md * P) + Rabs (dval Md * P - M * P)).
  { replace (dval T - M * P) with ((dval T - dval Md * P) + (dval Md * P - M * P)) by ring. apply Rabs_triang. }
  assert (uu * Rabs (dval Md * P) <= uu * (Rabs P * (M * G ^ a + A))) by (apply Rmult_le_compat_l; lra).
  replace (a + 1)%nat with (S a) by lia. cbn [pow].
  assert (G * A * Rabs P <= G * A * Pm) by (apply Rmult_le_compat_l; [apply Rmult_le_pos; lra|lra]).
  assert (uu * (Rabs P * (M * G ^ a + A)) + Rabs P * ((G ^ a - 1) * M + A) <= (G * G ^ a - 1) * (M * Rabs P) + G * A * Rabs P).
  { unfold G at 3 5. assert (0 <= uu * (Rabs P * (M * G ^ a + A))); [|nra]. apply Rmult_le_pos; [lra|]. apply Rmult_le_pos; [lra|]. apply Rplus_le_le_0_compat; [apply Rmult_le_pos|]; lra. }
  lra.
Qed.

Section Acc.
Variable K : nat.
Variable A0 Bd : R.
Variable Tm : nat.
Hypothesis HA0 : 0 <= A0.
Hypothesis HBd : Bd <= b2 1000.
Hypothesis HAT : INR Tm * A0 <= b2 1000.
Hypothesis HF : few (K + Tm).
Definition acc (t : nat) (C : spec_float) (c m : R) : Prop :=
  finite C /\ Rabs c <= m /\ Rabs (dval C - c) <= (G ^ (K + t) - 1) * m + INR t * A0 * G ^ t.
Lemma acc_step t C c m Td v w : acc t C c m -> finite Td -> Rabs v <= w -> Rabs (dval Td - v) <= (G ^ K - 1) * w + A0 ->
  m + w <= Bd -> (t + 1 <= Tm)%nat -> acc (t + 1) (SFadd 53 1024 C Td) (c + v) (m + w).
Proof.
  intros (FC & Hc & EC) FT Hv ET HB HT.
  pose proof (Gk_ge (K + t)) as Gt. assert (Gt' : G ^ (K + t) <= 5 / 4) by (apply few_le; apply (few_less _ (K + Tm)); [lia|auto]).
  pose proof (Gk_ge t) as Gs. assert (Gs' : G ^ t <= 5 / 4) by (apply few_le; apply (few_less _ (K + Tm)); [lia|auto]).
  pose proof G_pos as G1. pose proof uu_pos as UP. pose proof (pos_INR t) as IT.
  assert (GK : G ^ K <= G ^ (K + t)) by (apply Gk_mono; lia).
  pose proof (Rabs_pos c). pose proof (Rabs_pos v).
  set (g := G ^ (K + t)) in *. set (h := INR t * A0 * G ^ t) in *.
  assert (h0 : 0 <= h) by (unfold h; repeat apply Rmult_le_pos; lra).
  assert (E : Rabs (dval C + dval Td - (c + v)) <= (g - 1) * (m + w) + (h + A0)).
  { replace (dval C + dval Td - (c + v)) with ((dval C - c) + (dval Td - v)) by ring.
    apply Rle_trans with (1 := Rabs_triang _ _). assert ((G ^ K - 1) * w <= (g - 1) * w) by (apply Rmult_le_compat_r; lra). lra. }
  assert (Zb : Rabs (dval C + dval Td) <= g * (m + w) + (h + A0)).
  { replace (dval C + dval Td) with ((dval C + dval Td - (c + v)) + (c + v)) by ring. apply Rle_trans with (1 := Rabs_triang _ _).
    pose proof (Rabs_triang c v). lra. }
  assert (HhA : h + A0 <= 2 * (INR Tm * A0)).
  { unfold h. assert (INR (t + 1) <= INR Tm) by (apply le_INR; lia). rewrite plus_INR in H1. simpl (INR 1) in H1.
    assert (INR t * A0 * G ^ t <= INR t * A0 * 2) by (apply Rmult_le_compat_l; [apply Rmult_le_pos; lra|lra]).
    assert ((INR t + 1) * A0 <= INR Tm * A0) by (apply Rmult_le_compat_r; lra). nra. }
  destruct (add_ok C Td FC FT) as (F & ER).
  { apply Rle_lt_trans with (1 := Zb). assert (g * (m + w) <= 5 / 4 * b2 1000) by (apply Rmult_le_compat; lra).
    apply Rle_lt_trans with (b2 1000 * 4); [lra|].
    replace (b2 1000 * 4) with (b2 1002) by (change 1002%Z with (1000 + 1 + 1)%Z; rewrite !b2_1; ring).
    replace (b2 1023) with (b2 1002 * b2 21) by (rewrite <- b2_add; reflexivity). pose proof (b2_pos 1002). assert (1 < b2 21) by (rewrite b2_IZR by lia; apply IZR_lt; reflexivity). nra. }
  split; [exact F|]. split; [apply Rle_trans with (1 := Rabs_triang _ _); lra|].
  set (r := dval (SFadd 53 1024 C Td)) in *. set (z := dval C + dval Td) in *.
  apply Rle_trans with (Rabs (r - z) + Rabs (z - (c + v))).
  { replace (r - (c + v)) with ((r - z) + (z - (c + v))) by ring. apply Rabs_triang. }
  assert (uu * Rabs z <= uu * (g * (m + w) + (h + A0))) by (apply Rmult_le_compat_l; lra).
  replace (K + (t + 1))%nat with (S (K + t)) by lia. replace (t + 1)%nat with (S t) by lia. rewrite S_INR. cbn [pow]. fold g.
  assert (H2 : (h + A0) * G <= (INR t + 1) * A0 * (G * G ^ t)).
  { unfold h. assert (A0 * G <= A0 * (G * G ^ t)) by (apply Rmult_le_compat_l; nra). nra. }
  assert (H3 : 0 <= uu * (g * (m + w))) by (repeat apply Rmult_le_pos; lra). assert (H4 : 0 <= uu * (h + A0)) by (apply Rmult_le_pos; lra).
  assert (EQ1 : (G * g - 1) * (m + w) = (g - 1) * (m + w) + 2 * (uu * (g * (m + w)))) by (unfold G at 1; ring).
  assert (EQ2 : (h + A0) * G = (h + A0) + 2 * (uu * (h + A0))) by (unfold G; ring).
  lra.
Qed.
(** A piece of program that adds v to the sum, using dt additions. *)
Definition adds (f : spec_float -> spec_float) (dt : nat) (v w : R) : Prop :=
  forall t C c m, acc t C c m -> m + w <= Bd -> (t + dt <= Tm)%nat -> acc (t + dt) (f C) (c + v) (m + w).
Lemma adds_loop lo hi (f : Z -> spec_float -> spec_float) dt v w : (lo <= hi + 1)%Z ->
  (forall j, (lo <= j <= hi)%Z -> 0 <= w j /\ adds (f j) dt (v j) (w j)) ->
  adds (for_up lo hi f) (Z.to_nat (hi + 1 - lo) * dt) (sumZ lo hi v) (sumZ lo hi w).
Proof.
  intros Hl H t C c m HC HB HT.
  floop (fun j C => acc (t + Z.to_nat (j - lo) * dt) C (c + sumZ lo (j - 1) v) (m + sumZ lo (j - 1) w)).
  - rewrite !sumZ_empty by lia. rewrite !Rplus_0_r. replace (t + Z.to_nat (lo - lo) * dt)%nat with t by lia. exact HC.
  - intros j C' Hj IH. destruct (H j Hj) as [W0 Ad]. replace (j + 1 - 1)%Z with j by lia. rewrite !(sumZ_last lo j) by lia.
    replace (t + Z.to_nat (j + 1 - lo) * dt)%nat with (t + Z.to_nat (j - lo) * dt + dt)%nat by (replace (Z.to_nat (j + 1 - lo)) with (S (Z.to_nat (j - lo))) by lia; lia).
    rewrite <- !Rplus_assoc. apply Ad; auto.
    + apply Rle_trans with (2 := HB). rewrite (sumZ_split lo j hi w) by lia. rewrite (sumZ_last lo j) by lia.
      assert (0 <= sumZ (j + 1) hi w) by (apply sumZ_nonneg; intros; apply H; lia). lra.
    + apply Nat.le_trans with (2 := HT). replace (t + Z.to_nat (j - lo) * dt + dt)%nat with (t + (Z.to_nat (j - lo) + 1) * dt)%nat by lia.
      apply Nat.add_le_mono_l. apply Nat.mul_le_mono_r. lia.
  - intros C' H'. replace (hi + 1 - 1)%Z with hi in H' by lia. exact H'.
Qed.
Lemma adds_term Td v w : finite Td -> Rabs v <= w -> Rabs (dval Td - v) <= (G ^ K - 1) * w + A0 -> adds (fun C => SFadd 53 1024 C Td) 1 v w.
Proof. intros H1 H2 H3 t C c m HC HB HT. apply acc_step; auto. Qed.
Lemma adds_from0 f dt v w : adds f dt v w -> w <= Bd -> (dt <= Tm)%nat -> acc dt (f (S754_zero false)) v w.
Proof.
  intros H HB HT. specialize (H 0%nat (S754_zero false) 0 0). cbn [Nat.add] in H. rewrite !Rplus_0_l in H. apply H; auto.
  split; [split; [reflexivity|exact I]|]. cbn [dval]. rewrite Rminus_0_r, Rabs_R0. simpl. lra.
Qed.
End Acc.
