(** Knot insertion in doubles: one step of the triangular scheme, and all of them. *)
From Coq Require Import ZArith Reals List Bool SpecFloat Lia Lra Psatz.
From Verif Require Import Num Loop Spec SumZ BPiece BInsert ModelBspline ModelBSp ModelNurbs ModelFloat SpecNurbs SpecDouble SpecRound ProofInsert ProofNet ProofNurbs
  ProofRound ProofRound2 ProofRound3 ProofRound4 ProofRound8.
Import ListNotations.
Local Open Scope R_scope.

(** ** One step *)
Lemma prod_le a b A B : Rabs a <= A -> Rabs b <= B -> Rabs (a * b) <= A * B.
Proof. intros H1 H2. rewrite Rabs_mult. apply Rmult_le_compat; auto using Rabs_pos. Qed.
Lemma sum_le a b A B : Rabs a <= A -> Rabs b <= B -> Rabs (a + b) <= A + B.
Proof. intros H1 H2. pose proof (Rabs_triang a b). lra. Qed.
Lemma eta_uu : 1000 * eta <= uu.
Proof.
  unfold eta, uu. apply Rle_trans with (b2 10 * b2 (-1075)); [|rewrite <- b2_add; apply b2_le; lia].
  apply Rmult_le_compat_r; [left; apply b2_pos|]. rewrite b2_IZR by lia. apply IZR_le. vm_compute. discriminate.
Qed.
Lemma alpha_ok (u a b : spec_float) : finite u -> finite a -> finite b -> Rabs (dval u) <= b2 501 -> Rabs (dval a) <= b2 501 -> Rabs (dval b) <= b2 501 ->
  dval a <= dval u <= dval b -> dval a < dval b ->
  let al := SFdiv 53 1024 (SFsub 53 1024 u a) (SFsub 53 1024 b a) in let x := (dval u - dval a) / (dval b - dval a) in
  finite al /\ 0 <= x <= 1 /\ 0 <= dval al /\ Rabs (dval al - x) <= 13 * uu.
Proof.
  intros Fu Fa Fb Bu Ba Bb H L al x.
  assert (B3 : b2 501 + b2 501 < b2 1023).
  { replace (b2 501 + b2 501) with (b2 502) by (replace 502%Z with (501 + 1)%Z by lia; rewrite b2_1; ring).
    apply Rlt_le_trans with (b2 503); [replace 503%Z with (502 + 1)%Z by lia; rewrite b2_1; pose proof (b2_pos 502); lra|apply b2_le; lia]. }
  apply abs_le in Bu. apply abs_le in Ba. apply abs_le in Bb.
  pose proof (dap_sub u a Fu Fa ltac:(lra) ltac:(lra)) as D1. pose proof (dap_sub b a Fb Fa ltac:(lra) ltac:(lra)) as D2.
  assert (X : 0 <= x <= 1).
  { unfold x. split; [apply Rle_mult_inv_pos; lra|]. apply Rmult_le_reg_r with (dval b - dval a); [lra|]. unfold Rdiv. rewrite Rmult_assoc, Rinv_l by lra. lra. }
  assert (G3 : 1 <= G ^ 3 <= 1 + 12 * uu).
  { split; [apply Gk_ge|]. replace (12 * uu) with (4 * uu * INR 3) by (simpl; ring). apply Gk_lin. simpl. rewrite uu_val. lra. }
  assert (B1 : (dval u - dval a) / (dval b - dval a) * G ^ (1 + 1) + 0 * G ^ 1 / (dval b - dval a) < b2 1023).
  { fold x. replace (0 * G ^ 1 / (dval b - dval a)) with 0 by (unfold Rdiv; ring). apply Rle_lt_trans with 2.
    - assert (G ^ (1 + 1) <= G ^ 3) by (apply Gk_mono; lia). assert (x * G ^ (1 + 1) <= 1 * G ^ (1 + 1)) by (apply Rmult_le_compat_r; [pose proof (Gk_ge (1 + 1)); lra|lra]).
      rewrite uu_val in G3. lra.
    - apply Rlt_le_trans with (b2 2); [unfold b2; simpl; lra|apply b2_le; lia]. }
  pose proof (dap_div 1 1 0 _ _ _ _ D1 D2 ltac:(lra) B1) as [F (P1 & P2 & P3 & P4 & P5)]. fold al x in F, P2, P4, P5.
  replace (0 * G ^ 1 / (dval b - dval a) * G + eta) with eta in P4, P5 by (unfold Rdiv; ring). change (S (1 + 1)) with 3%nat in P4, P5.
  split; [exact F|]. split; [exact X|]. split; [exact P2|]. pose proof eta_uu as EU. pose proof eta_pos. pose proof uu_pos.
  apply Rabs_le. split.
  - assert (x * (1 - 12 * uu) <= x / G ^ 3).
    { unfold Rdiv. apply Rmult_le_compat_l; [lra|]. apply Rmult_le_reg_r with (G ^ 3); [lra|]. rewrite Rinv_l by lra.
      apply Rle_trans with ((1 - 12 * uu) * (1 + 12 * uu)); [apply Rmult_le_compat_l; [rewrite uu_val; lra|lra]|]. nra. }
    assert (x * (12 * uu) <= 12 * uu) by nra. lra.
  - assert (x * G ^ 3 <= x + 12 * uu); [|lra]. apply Rle_trans with (x * (1 + 12 * uu)); [apply Rmult_le_compat_l; lra|]. nra.
Qed.

Definition step (M : R) : R := 32 * uu * M + 4 * eta.
Lemma blend (al x y : spec_float) a X Y M e : finite al -> finite x -> finite y -> 0 <= a <= 1 -> Rabs (dval al - a) <= 13 * uu ->
  Rabs (dval x - X) <= e -> Rabs (dval y - Y) <= e -> Rabs X <= M -> Rabs Y <= M -> M <= b2 600 -> e <= M / 64 + b2 (-1060) ->
  let r := SFadd 53 1024 (SFmul 53 1024 al x) (SFmul 53 1024 (SFsub 53 1024 (dbl_of_Z 1) al) y) in
  finite r /\ Rabs (dval r - (a * X + (1 - a) * Y)) <= e + step M.
Proof.
  intros Fl Fx Fy Ha Ea Ex Ey BX BY BM Be r.
  pose proof uu_pos as UP. pose proof eta_pos as EP. pose proof eta_uu as EU. pose proof uu_val as UV.
  assert (M0 : 0 <= M) by (pose proof (Rabs_pos X); lra). assert (e0 : 0 <= e) by (pose proof (Rabs_pos (dval x - X)); lra).
  set (H := M + e).
  assert (HX : Rabs (dval x) <= H) by (replace (dval x) with (X + (dval x - X)) by ring; unfold H; apply sum_le; auto).
  assert (HY : Rabs (dval y) <= H) by (replace (dval y) with (Y + (dval y - Y)) by ring; unfold H; apply sum_le; auto).
  assert (T0 : b2 (-1060) <= b2 600) by (apply b2_le; lia).
  assert (HH : 0 <= H <= 3 * b2 600) by (unfold H; lra).
  assert (BIG : 16 * b2 600 <= b2 604) by (replace 604%Z with (4 + 600)%Z by lia; rewrite b2_add; pose proof (b2_pos 600); replace (b2 4) with 16 by (unfold b2; simpl; lra); lra).
  assert (BIG2 : b2 604 < b2 1023) by (apply Rlt_le_trans with (b2 605); [replace 605%Z with (604 + 1)%Z by lia; rewrite b2_1; pose proof (b2_pos 604); lra|apply b2_le; lia]).
  assert (F1 : finite (dbl_of_Z 1)) by (split; [vm_compute; reflexivity|vm_compute; exact I]).
  assert (V1 : dval (dbl_of_Z 1) = 1) by exact dval_one.
  assert (S600 : 1 <= b2 600) by (rewrite <- b2_0; apply b2_le; lia).
  assert (La : Rabs (dval al) <= 1 + 13 * uu).
  { replace (dval al) with (a + (dval al - a)) by ring. apply sum_le; auto. rewrite Rabs_right; lra. }
  destruct (sub_ok (dbl_of_Z 1) al F1 Fl) as [Fb Eb].
  { rewrite V1. pose proof (abs_le _ _ La). apply Rle_lt_trans with 3; [apply Rabs_le; lra|]. lra. }
  rewrite V1 in Eb. set (be := SFsub 53 1024 (dbl_of_Z 1) al) in *.
  assert (Eb' : Rabs (dval be - (1 - a)) <= 15 * uu).
  { replace (dval be - (1 - a)) with ((dval be - (1 - dval al)) + (- (dval al - a))) by ring. replace (15 * uu) with (2 * uu + 13 * uu) by ring.
    apply sum_le; [|rewrite Rabs_Ropp; exact Ea]. apply Rle_trans with (1 := Eb). assert (Rabs (1 - dval al) <= 2); [|nra]. apply abs_le in Ea. apply Rabs_le. lra. }
  assert (Lb : Rabs (dval be) <= 1 + 15 * uu).
  { replace (dval be) with ((1 - a) + (dval be - (1 - a))) by ring. apply sum_le; auto. rewrite Rabs_right; lra. }
  pose proof (prod_le _ _ _ _ La HX) as P1. pose proof (prod_le _ _ _ _ Lb HY) as P2.
  assert (U15 : 15 * uu <= / 100) by lra.
  assert (Q1 : (1 + 13 * uu) * H <= 101 / 100 * H) by (apply Rmult_le_compat_r; lra).
  assert (Q2 : (1 + 15 * uu) * H <= 101 / 100 * H) by (apply Rmult_le_compat_r; lra).
  destruct (mul_ok al x Fl Fx) as (Fm1 & Em1 & _); [lra|]. destruct (mul_ok be y Fb Fy) as (Fm2 & Em2 & _); [lra|].
  set (m1 := SFmul 53 1024 al x) in *. set (m2 := SFmul 53 1024 be y) in *.
  set (z := a * X + (1 - a) * Y).
  assert (D1 : Rabs (dval m1 - a * X) <= uu * (101 / 100 * H) + eta + 13 * uu * H + a * e).
  { replace (dval m1 - a * X) with ((dval m1 - dval al * dval x) + ((dval al - a) * dval x + a * (dval x - X))) by ring.
    replace (uu * (101 / 100 * H) + eta + 13 * uu * H + a * e) with ((uu * (101 / 100 * H) + eta) + (13 * uu * H + a * e)) by ring.
    apply sum_le.
    - apply Rle_trans with (1 := Em1). assert (uu * Rabs (dval al * dval x) <= uu * (101 / 100 * H)) by (apply Rmult_le_compat_l; lra). lra.
    - apply sum_le; apply prod_le; auto. rewrite Rabs_right; lra. }
  assert (D2 : Rabs (dval m2 - (1 - a) * Y) <= uu * (101 / 100 * H) + eta + 15 * uu * H + (1 - a) * e).
  { replace (dval m2 - (1 - a) * Y) with ((dval m2 - dval be * dval y) + ((dval be - (1 - a)) * dval y + (1 - a) * (dval y - Y))) by ring.
    replace (uu * (101 / 100 * H) + eta + 15 * uu * H + (1 - a) * e) with ((uu * (101 / 100 * H) + eta) + (15 * uu * H + (1 - a) * e)) by ring.
    apply sum_le.
    - apply Rle_trans with (1 := Em2). assert (uu * Rabs (dval be * dval y) <= uu * (101 / 100 * H)) by (apply Rmult_le_compat_l; lra). lra.
    - apply sum_le; apply prod_le; auto. rewrite Rabs_right; lra. }
  assert (D3 : Rabs (dval m1 + dval m2 - z) <= 3002 / 100 * uu * H + 2 * eta + e).
  { unfold z. replace (dval m1 + dval m2 - (a * X + (1 - a) * Y)) with ((dval m1 - a * X) + (dval m2 - (1 - a) * Y)) by ring.
    apply Rle_trans with (1 := sum_le _ _ _ _ D1 D2). right. field. }
  assert (Z0 : Rabs z <= M).
  { unfold z. apply Rle_trans with (a * M + (1 - a) * M); [|right; ring]. apply sum_le; apply prod_le; auto; rewrite Rabs_right; lra. }
  assert (U31 : 3002 / 100 * uu * H <= / 100 * H) by (apply Rmult_le_compat_r; lra).
  assert (D4 : Rabs (dval m1 + dval m2) <= 102 / 100 * H + 2 * eta).
  { replace (dval m1 + dval m2) with (z + (dval m1 + dval m2 - z)) by ring. apply Rle_trans with (1 := sum_le _ _ _ _ Z0 D3). unfold H in *. lra. }
  assert (E1 : eta <= 1) by (rewrite UV in EU; lra).
  destruct (add_ok m1 m2 Fm1 Fm2) as (Fs & Es); [lra|]. fold r in Fs, Es.
  split; [exact Fs|]. fold z. replace (dval r - z) with ((dval r - (dval m1 + dval m2)) + (dval m1 + dval m2 - z)) by ring.
  assert (D5 : uu * Rabs (dval m1 + dval m2) <= uu * (102 / 100 * H + 2 * eta)) by (apply Rmult_le_compat_l; lra).
  apply Rle_trans with (uu * (102 / 100 * H + 2 * eta) + (3002 / 100 * uu * H + 2 * eta + e)); [apply sum_le; auto; lra|].
  unfold step. assert (HM : H <= 65 / 64 * M + b2 (-1060)) by (unfold H; lra).
  assert (UE : uu * eta <= / 100 * eta) by (apply Rmult_le_compat_r; lra).
  assert (UH : uu * H <= uu * (65 / 64 * M + b2 (-1060))) by (apply Rmult_le_compat_l; lra).
  assert (UT : 64 * (uu * b2 (-1060)) <= eta).
  { unfold uu, eta. rewrite <- b2_add. replace 64 with (b2 6) by (unfold b2; simpl; lra). rewrite <- b2_add. apply b2_le. lia. }
  assert (UM : 0 <= uu * M) by (apply Rmult_le_pos; lra). lra.
Qed.

(** ** What convex combinations keep *)
Section Conv.
Variables (U P W : Z -> R) (k s p : Z) (u : R) (m : Z).
Hypothesis Hs0 : (0 <= s)%Z.
Hypothesis Hsp : (s <= p)%Z.
Hypothesis Hp0 : (0 <= p)%Z.
Hypothesis Hblock : forall i, (k - s + 1 <= i <= k)%Z -> U i = u.
Hypothesis Hless : forall i, (m - p <= i <= k - s)%Z -> U i < u.
Hypothesis Hmore : forall i, (k + 1 <= i <= k + p)%Z -> u <= U i.
Hypothesis Hm : (k - s + 1 <= m <= k + 1)%Z.
Lemma iQ_ind2 (Q : R -> R -> Prop) lo hi : (forall a x y x' y', 0 <= a <= 1 -> Q x y -> Q x' y' -> Q (a * x + (1 - a) * x') (a * y + (1 - a) * y')) ->
  (forall x, (lo <= x <= hi)%Z -> Q (P x) (W x)) -> (lo <= k - p)%Z -> (k - s <= hi)%Z -> forall d, (Z.of_nat d + s <= p)%Z ->
  forall x, (lo <= x <= hi + Z.of_nat d)%Z -> Q (iQ U P k p u m (Z.of_nat d) x) (iQ U W k p u m (Z.of_nat d) x).
Proof.
  intros HQ HP Hlo Hhi. induction d; intros Hd x Hx.
  - change (Z.of_nat 0) with 0%Z in *. rewrite !iQ_0. apply HP. lia.
  - destruct (Z_le_gt_dec x (k - p + Z.of_nat (S d) - 1)) as [C|C].
    + rewrite (iQ_low U P k s p u m Hblock Hless Hm), (iQ_low U W k s p u m Hblock Hless Hm) by lia. replace (Z.of_nat (S d) - 1)%Z with (Z.of_nat d) by lia. apply IHd; lia.
    + destruct (Z_le_gt_dec (k - s + 1) x) as [C2|C2].
      * rewrite (iQ_high U P k s p u m Hsp Hp0 Hblock Hm), (iQ_high U W k s p u m Hsp Hp0 Hblock Hm) by lia. replace (Z.of_nat (S d) - 1)%Z with (Z.of_nat d) by lia. apply IHd; lia.
      * rewrite (iQ_mid U P k s p u m Hs0 Hblock Hm), (iQ_mid U W k s p u m Hs0 Hblock Hm) by lia. replace (Z.of_nat (S d) - 1)%Z with (Z.of_nat d) by lia.
        assert (L1 : U x < u) by (apply Hless; lia). assert (L2 : u <= U (x + p + 1 - Z.of_nat (S d))%Z) by (apply Hmore; lia).
        apply HQ; try (apply IHd; lia).
        split; [apply Rle_mult_inv_pos; lra|]. apply Rmult_le_reg_r with (U (x + p + 1 - Z.of_nat (S d))%Z - U x); [lra|]. unfold Rdiv. rewrite Rmult_assoc, Rinv_l by lra. lra.
Qed.
End Conv.

(** ** The triangular scheme *)
Section Tri.
Variables (U P : Z -> spec_float) (k s p : Z) (u : spec_float) (m : Z) (M : R).
Notation rU := (fun i => dval (U i)).
Notation rP := (fun i => dval (P i)).
Hypothesis Hs0 : (0 <= s)%Z.
Hypothesis Hsp : (s <= p)%Z.
Hypothesis Hp0 : (0 <= p)%Z.
Hypothesis Hblock : forall i, (k - s + 1 <= i <= k)%Z -> dval (U i) = dval u.
Hypothesis Hless : forall i, (m - p <= i <= k - s)%Z -> dval (U i) < dval u.
Hypothesis Hmore : forall i, (k + 1 <= i <= k + p)%Z -> dval u <= dval (U i).
Hypothesis Hm : (k - s + 1 <= m <= k + 1)%Z.
Hypothesis FU : forall i, (k - p + 1 <= i <= k + p)%Z -> finite (U i) /\ Rabs (dval (U i)) <= b2 501.
Hypothesis Fu : finite u /\ Rabs (dval u) <= b2 501.
Hypothesis HM : M <= b2 600.
Notation iQ := (ProofInsert.iQ rU rP k p (dval u) m).

Lemma iQ_bound lo hi : (forall x, (lo <= x <= hi)%Z -> Rabs (rP x) <= M) -> forall d, (Z.of_nat d + s <= p)%Z -> (lo <= k - p)%Z ->
  forall x, (lo <= x <= hi + Z.of_nat d)%Z -> (k - s <= hi)%Z -> Rabs (iQ (Z.of_nat d) x) <= M.
Proof.
  intros HP d Hd Hlo x Hx Hhi.
  apply (iQ_ind2 rU rP rP k s p (dval u) m Hs0 Hsp Hp0 Hblock Hless Hmore Hm (fun y _ => Rabs y <= M)) with (lo := lo) (hi := hi); auto.
  intros a y _ y' _ A H1 H2. apply Rle_trans with (a * M + (1 - a) * M); [|right; ring]. apply sum_le; apply prod_le; auto; rewrite Rabs_right; lra.
Qed.

Lemma step_nonneg : 0 <= M -> 0 <= step M.
Proof. intros. unfold step. pose proof uu_pos. pose proof eta_pos. assert (0 <= uu * M) by (apply Rmult_le_pos; lra). lra. Qed.
Lemma steps_small d : 0 <= M -> (0 <= d <= 65536)%Z -> IZR d * step M <= M / 64 + b2 (-1060) \/ (1000 < d)%Z.
Proof.
  intros H0 Hd. destruct (Z_le_gt_dec d 1000) as [C|C]; [left|right; lia].
  apply Rle_trans with (1000 * step M); [apply Rmult_le_compat_r; [apply step_nonneg; auto|apply (IZR_le d 1000 C)]|].
  unfold step. assert (uu * M <= / 10000000000 * M) by (apply Rmult_le_compat_r; [lra|rewrite uu_val; lra]).
  assert (4000 * eta <= b2 (-1060)); [|lra].
  unfold eta. apply Rle_trans with (b2 12 * b2 (-1075)); [apply Rmult_le_compat_r; [left; apply b2_pos|unfold b2; simpl; lra]|]. rewrite <- b2_add. apply b2_le. lia.
Qed.

Definition close (j : Z) (x : spec_float) (X : R) : Prop := finite x /\ Rabs (dval x - X) <= IZR j * step M.

Lemma inner_close lo hi j Rw : (forall x, (lo <= x <= hi)%Z -> Rabs (rP x) <= M) -> (lo <= k - p)%Z -> (k - s <= hi)%Z -> (p <= 1000)%Z -> (1 <= j)%Z -> (j + s <= p)%Z ->
  (forall i, (0 <= i <= p - (j - 1) - s)%Z -> close (j - 1) (Rw i) (iQ (j - 1) (k - p + (j - 1) + i))) ->
  forall i, (0 <= i <= p - j - s)%Z -> close j (InsertKnot_inner (N:=Dn) k p j (p - j - s) U u Rw i) (iQ j (k - p + j + i)).
Proof.
  intros HP Hlo Hhi Hp Hj Hjs HR i Hi. unfold InsertKnot_inner. cbv zeta.
  assert (M0 : 0 <= M) by (pose proof (HP (k - p)%Z ltac:(lia)); pose proof (Rabs_pos (rP (k - p)%Z)); lra).
  floop (fun i (Rw' : Z -> spec_float) => (forall x, (0 <= x < i)%Z -> close j (Rw' x) (iQ j (k - p + j + x))) /\
                   (forall x, (i <= x)%Z -> Rw' x = Rw x)).
  - split; [intros; lia|auto].
  - intros i' R' Hi' [H1 H2]. split.
    + intros x Hx. destruct (Z.eq_dec x i') as [->|Hne].
      * rewrite upd_same. rewrite !H2 by lia. rewrite (iQ_mid rU rP k s p (dval u) m Hs0 Hblock Hm j) by lia.
        destruct (HR (i' + 1)%Z ltac:(lia)) as [Fx Ex]. destruct (HR i' ltac:(lia)) as [Fy Ey].
        replace (k - p + j + i' + p + 1 - j)%Z with (i' + k + 1)%Z by lia.
        replace (k - p + (j - 1) + (i' + 1))%Z with (k - p + j + i')%Z in Ex by lia.
        replace (k - p + (j - 1) + i')%Z with (k - p + j + i' - 1)%Z in Ey by lia.
        assert (L1 : dval (U (k - p + j + i')%Z) < dval u) by (apply Hless; lia). assert (L2 : dval u <= dval (U (i' + k + 1)%Z)) by (apply Hmore; lia).
        destruct (FU (k - p + j + i')%Z ltac:(lia)) as [F1 B1]. destruct (FU (i' + k + 1)%Z ltac:(lia)) as [F2 B2]. destruct Fu as [F3 B3].
        pose proof (alpha_ok u (U (k - p + j + i')%Z) (U (i' + k + 1)%Z) F3 F1 F2 B3 B1 B2 ltac:(lra) ltac:(lra)) as A. cbv zeta in A. destruct A as (Fl & A1 & _ & A2).
        assert (Bd : forall y, (k - p + j - 1 <= y <= k - s)%Z -> Rabs (iQ (j - 1) y) <= M).
        { intros y Hy. replace (j - 1)%Z with (Z.of_nat (Z.to_nat (j - 1))) by lia. apply (iQ_bound lo hi); auto; lia. }
        pose proof (blend _ _ _ _ _ _ M _ Fl Fx Fy A1 A2 Ex Ey (Bd (k - p + j + i')%Z ltac:(lia)) (Bd (k - p + j + i' - 1)%Z ltac:(lia)) HM) as Bl.
        destruct Bl as [Fr Er].
        { destruct (steps_small (j - 1) M0 ltac:(lia)) as [|]; [assumption|lia]. }
        split; [exact Fr|]. apply Rle_trans with (1 := Er). rewrite minus_IZR. right. ring.
      * rewrite upd_diff by auto. apply H1. lia.
    + intros x Hx. rewrite upd_diff by lia. apply H2. lia.
  - intros R' [H1 H2]. apply H1. lia.
Qed.

Lemma close_mono i j x X : 0 <= M -> (i <= j)%Z -> close i x X -> close j x X.
Proof. intros M0 H [F E]. split; [exact F|]. apply Rle_trans with (1 := E). apply Rmult_le_compat_r; [apply step_nonneg; auto|apply IZR_le; auto]. Qed.

Lemma InsertKnot_Q_close n r junk : (0 <= k - p)%Z -> (k - s <= n)%Z -> (forall x, (0 <= x <= n)%Z -> finite (P x) /\ Rabs (rP x) <= M) -> (p <= 1000)%Z -> (0 <= r)%Z -> (r + s <= p)%Z ->
  forall x, (0 <= x <= n + r)%Z -> close r (InsertKnot_Q (N:=Dn) n p U P u k s r junk x) (iQ r x).
Proof.
  intros Hkp Hkn HP Hp Hr Hrs. unfold InsertKnot_Q. cbv zeta.
  assert (M0 : 0 <= M) by (destruct (HP 0%Z ltac:(lia)) as [_ A]; pose proof (Rabs_pos (rP 0%Z)); lra).
  assert (HP' : forall x, (0 <= x <= n)%Z -> Rabs (rP x) <= M) by (intros; apply HP; auto).
  assert (C0 : forall x, (0 <= x <= n)%Z -> close 0 (P x) (rP x)).
  { intros x Hx. split; [apply HP; auto|]. replace (dval (P x) - rP x) with 0 by ring. rewrite Rabs_R0. lra. }
  match goal with |- context [for_up 1 r ?body ?init] =>
    assert (A : let st := for_up 1 r body init in
      (forall x, (0 <= x <= n + r)%Z -> (x <= k - p + r \/ k - s <= x)%Z -> close r (fst st x) (iQ r x)) /\
      (forall i, (0 <= i <= p - r - s)%Z -> close r (snd st i) (iQ r (k - p + r + i)))) end.
  { floop (fun j (st : (Z -> spec_float) * (Z -> spec_float)) =>
      (forall x, (0 <= x <= n + r)%Z -> (x <= k - p + j - 1 \/ k - s + r - (j - 1) <= x)%Z -> close r (fst st x) (iQ r x)) /\
      (forall i, (0 <= i <= p - (j - 1) - s)%Z -> close (j - 1) (snd st i) (iQ (j - 1) (k - p + (j - 1) + i)))).
    - cbn [fst snd]. split.
      + intros x Hx Hc. apply (close_mono 0); auto. destruct (Z_le_gt_dec (k - s + r) x).
        * rewrite fill_in by lia. replace x with (x - r + (r - 0))%Z at 2 by lia.
          rewrite (iQ_move rU rP k s p (dval u) m Hsp Hp0 Hblock Hm) by lia. apply C0. lia.
        * rewrite fill_out by lia. rewrite fill_in by lia. rewrite (iQ_keep rU rP k s p (dval u) m Hblock Hless Hm r 0) by lia. apply C0. lia.
      + intros i Hi. rewrite fill_in by lia. replace (1 - 1)%Z with 0%Z by lia. rewrite iQ_0. replace (k - p + 0 + i)%Z with (k - p + i)%Z by lia. apply C0. lia.
    - intros j [Q R'] Hj [H1 H2]. cbn [fst snd] in *.
      assert (H3 := inner_close 0 n j R' HP' ltac:(lia) ltac:(lia) Hp ltac:(lia) ltac:(lia) H2). split.
      + intros x Hx Hc. pose proof (H3 0%Z ltac:(lia)) as T1. pose proof (H3 (p - j - s)%Z ltac:(lia)) as T2.
        replace (k - p + j + 0)%Z with (k - p + j)%Z in T1 by lia.
        replace (k - p + j + (p - j - s))%Z with (k - s)%Z in T2 by lia.
        unfold upd. destruct (Z.eqb_spec x (k + r - j - s)) as [->|Hne].
        * replace (k + r - j - s)%Z with (k - s + (r - j))%Z by lia. rewrite (iQ_move rU rP k s p (dval u) m Hsp Hp0 Hblock Hm) by lia. apply (close_mono j); auto; lia.
        * destruct (Z.eqb_spec x (k - p + j)) as [->|Hne'].
          -- rewrite (iQ_keep rU rP k s p (dval u) m Hblock Hless Hm r j) by lia. apply (close_mono j); auto; lia.
          -- apply H1; lia.
      + intros i Hi. replace (j + 1 - 1)%Z with j in * by lia. apply H3. lia.
    - intros [Q R'] [H1 H2]. cbn [fst snd] in *. replace (r + 1 - 1)%Z with r in * by lia.
      replace (k - p + (r + 1) - 1)%Z with (k - p + r)%Z in * by lia.
      replace (k - s + r - r)%Z with (k - s)%Z in * by lia. auto. }
  destruct (for_up 1 r _ _) as [Q R']. cbn [fst snd] in A. destruct A as [A1 A2].
  intros x Hx.
  destruct (Z_le_gt_dec (k - p + r + 1) (k - s - 1 + 1)).
  - floop (fun i (Q' : Z -> spec_float) => forall x, (0 <= x <= n + r)%Z -> (x < i \/ k - s <= x)%Z -> close r (Q' x) (iQ r x)).
    + intros y Hy Hc. apply A1; lia.
    + intros i Q' Hi IH y Hy Hc. unfold upd. destruct (Z.eqb_spec y i) as [->|Hne].
      * replace i with (k - p + r + (i - (k - p + r)))%Z at 2 by lia. apply A2. lia.
      * apply IH; lia.
    + intros Q' H. apply H; lia.
  - rewrite for_up_empty by lia. apply A1; lia.
Qed.
End Tri.
