(** Evaluate1 to Evaluate3 in doubles. *)
From Coq Require Import ZArith Reals List Bool SpecFloat Lia Lra Psatz.
From Verif Require Import Num Loop Spec SumZ ModelBspline ModelBSp ModelFloat BPiece BLink SpecDouble ProofRound ProofRound2 ProofRound3 ProofRound4 ProofRound5 ProofSpan ProofEval.
Local Open Scope R_scope.

Lemma tables_dbl n p (U : Z -> Dn) r (X : Z -> Dn) junk sj bj i : (0 <= i <= r)%Z ->
  fst (tables (N:=Dn) n p U r X junk sj bj) i = FindSpan (N:=Dn) n p (X i) U /\
  snd (tables (N:=Dn) n p U r X junk sj bj) i = BasisFuns (N:=Dn) (FindSpan (N:=Dn) n p (X i) U) (X i) p U junk.
Proof.
  intros Hi. unfold tables.
  floop (fun k (s : (Z -> Z) * (Z -> Z -> Dn)) => forall j, (0 <= j < k)%Z ->
    fst s j = FindSpan (N:=Dn) n p (X j) U /\
    snd s j = BasisFuns (N:=Dn) (FindSpan (N:=Dn) n p (X j) U) (X j) p U junk).
  - intros; lia.
  - intros k [sp bs] Hk IH j Hj. cbn [fst snd] in *. destruct (Z.eq_dec j k) as [->|Hne].
    + rewrite !upd_same. auto.
    + rewrite !upd_diff by auto. apply IH. lia.
  - intros s H. apply H. lia.
Qed.

(** One axis with a parameter. *)
Definition mild (n p : Z) (U : Z -> Dn) (u : Dn) : Prop :=
  mild_knots n p U /\ (1 <= p <= 100)%Z /\ wf_knots n p (rU U) /\ finite u /\ in_domain n p (rU U) (dval u).
Lemma axis_ok n p U u junk : mild n p U u ->
  let k := FindSpan (N:=Dn) n p u U in let b := fun r => B (rU U) k (Z.to_nat p) (k - p + r) (dval u) in
  active n p (rU U) (dval u) k /\
  (forall r, (0 <= r <= p)%Z -> dap (6 * Z.to_nat p) (b2 (-369)) (BasisFuns (N:=Dn) k u p U junk r) (b r) /\ 0 <= b r <= 1) /\
  sumZ 0 p b = 1.
Proof.
  intros (MK & Hp & W & Fu & D) k b. assert (Ac : active n p (rU U) (dval u) k) by (apply span_active; auto; apply MK).
  split; [exact Ac|].
  pose proof (active_lt _ _ _ _ _ W Ac) as LT. pose proof (active_in _ _ _ _ _ W Ac) as IN.
  assert (SP : span_ok (rU U) k (Z.to_nat p)) by (apply (wf_span_ok n p); auto; apply Ac).
  split.
  - intros r Hr. split.
    + eapply dap_weak; [apply Nat.le_refl| |apply basis_double with (n := n); auto; try lia]. unfold bA. apply b2_le. lia.
    + apply B_le1; auto. lia.
  - unfold b. rewrite <- (B_sum_one (rU U) k (Z.to_nat p) (dval u) SP). rewrite Z2Nat.id by lia.
    rewrite (sumZ_shift' (k - p) k (k - p)). replace (k - p - (k - p))%Z with 0%Z by lia. replace (k - (k - p))%Z with p by lia.
    apply sumZ_ext. intros j Hj. f_equal. lia.
Qed.
(** The index range of the control points that are read. *)
Lemma active_range n p U u k r : active n p U u k -> (0 <= r <= p)%Z -> (0 <= k - p + r <= n)%Z.
Proof. intros [H _]. lia. Qed.

(** Products of basis functions. *)
Lemma prod_ok a c A B x y dx dy : dap a A dx x -> dap c B dy y -> 0 <= x <= 1 -> 0 <= y <= 1 -> b2 (-1000) <= A <= / 16 -> b2 (-1000) <= B <= / 16 -> few (a + c) ->
  dap (a + c + 1) (4 * A + 4 * B) (SFmul 53 1024 dx dy) (x * y) /\ 0 <= x * y <= 1.
Proof.
  intros Hx Hy X1 Y1 HA HB FW. pose proof (b2_pos (-1000)) as BP.
  pose proof (Gk_ge a). pose proof (Gk_ge c). assert (G ^ a <= 5 / 4) by (apply few_le; apply (few_less _ (a + c)); [lia|auto]).
  assert (G ^ c <= 5 / 4) by (apply few_le; apply (few_less _ (a + c)); [lia|auto]). pose proof (Gk_ge (a + c)). pose proof (few_le _ FW).
  assert (XY : 0 <= x * y <= 1) by nra. split; [|exact XY].
  assert (G1 : 1 < G <= 5 / 4) by (rewrite G_val; lra).
  assert (y * G ^ c <= 1 * (5 / 4)) by (apply Rmult_le_compat; lra). assert (x * G ^ a <= 1 * (5 / 4)) by (apply Rmult_le_compat; lra).
  assert (Q1 : A * (y * G ^ c) <= A * (5 / 4)) by (apply Rmult_le_compat_l; lra). assert (Q2 : x * G ^ a * B <= 5 / 4 * B) by (apply Rmult_le_compat_r; lra). assert (Q3 : A * B <= A * 1) by (apply Rmult_le_compat_l; lra).
  assert (Q0 : 0 <= A * (y * G ^ c) + x * G ^ a * B + A * B) by (repeat apply Rplus_le_le_0_compat; repeat apply Rmult_le_pos; lra).
  pose proof eta_pos. assert (EA : eta <= A) by (apply Rle_trans with (2 := proj1 HA); apply b2_le; lia).
  eapply dap_weak; [| |apply (dap_mul a c A B x y); auto].
  - lia.
  - assert ((A * (y * G ^ c) + x * G ^ a * B + A * B) * G <= (9 / 4 * A + 5 / 4 * B) * (5 / 4)) by (apply Rmult_le_compat; lra). lra.
  - destruct big_1023 as [_ BG]. assert (x * y * G ^ (a + c) <= 1 * (5 / 4)) by (apply Rmult_le_compat; lra). lra.
Qed.

Definition unitA : R := b2 (-362).
Lemma A_num : 4 * b2 (-369) + 4 * b2 (-369) = b2 (-366) /\ 4 * b2 (-366) + 4 * b2 (-369) <= b2 (-362) / 2 /\ b2 (-369) <= b2 (-362) / 2 /\ b2 (-366) <= b2 (-362) / 2 /\ b2 (-362) <= / 16 /\ b2 (-1000) <= b2 (-369) /\ b2 (-1000) <= b2 (-366).
Proof.
  assert (E1 : b2 (-366) = 8 * b2 (-369)) by (change (-366)%Z with (-369 + 1 + 1 + 1)%Z; rewrite !b2_1; ring).
  assert (E2 : b2 (-362) = 128 * b2 (-369)) by (change (-362)%Z with (-369 + 1 + 1 + 1 + 1 + 1 + 1 + 1)%Z; rewrite !b2_1; ring).
  pose proof (b2_pos (-369)). assert (b2 (-362) <= / 16) by (replace (/ 16) with (b2 (-4)) by (unfold b2; simpl; lra); apply b2_le; lia).
  repeat split; try lra; apply b2_le; lia.
Qed.

Section Eval.
(** A bound of the control values. *)
Variable Pm : R.
Hypothesis HPm : 0 <= Pm <= b2 900.
Definition A0 : R := unitA * Pm + eta.
Lemma A0_pos : 0 <= A0.
Proof. unfold A0. pose proof eta_pos. pose proof (b2_pos (-362)). unfold unitA. nra. Qed.
Lemma Pm_1000 : Pm <= b2 1000.
Proof. apply Rle_trans with (1 := proj2 HPm). apply b2_le. lia. Qed.
Lemma T_A0 t : (Z.of_nat t <= 2000000)%Z -> INR t * A0 <= b2 1000.
Proof.
  intros H. apply IZR_le in H. rewrite <- INR_IZR_INZ in H. pose proof (pos_INR t). pose proof A0_pos.
  assert (A0 <= 2 * b2 900).
  { unfold A0, unitA. assert (b2 (-362) <= 1) by (rewrite <- b2_0; apply b2_le; lia). pose proof (b2_pos (-362)). assert (eta <= b2 900) by (apply b2_le; lia).
    assert (b2 (-362) * Pm <= 1 * b2 900) by (apply Rmult_le_compat; lra). lra. }
  apply Rle_trans with (2000000 * (2 * b2 900)); [apply Rmult_le_compat; lra|].
  replace (b2 1000) with (b2 100 * b2 900) by (rewrite <- b2_add; reflexivity). pose proof (b2_pos 900).
  assert (4000000 <= b2 100) by (rewrite b2_IZR by lia; apply IZR_le; vm_compute; discriminate). nra.
Qed.
Lemma term A a Md M Pd : dap a A Md M -> 0 <= M <= 1 -> A <= b2 (-362) / 2 -> finite Pd -> Rabs (dval Pd) <= Pm -> few (a + 1) ->
  let T := SFmul 53 1024 Md Pd in
  finite T /\ Rabs (M * dval Pd) <= M * Rabs (dval Pd) /\ Rabs (dval T - M * dval Pd) <= (G ^ (a + 1) - 1) * (M * Rabs (dval Pd)) + A0.
Proof.
  intros HM M1 HA FP PB FW. assert (AP : 0 <= A) by apply HM. destruct (term_ok a A A0 Pm Md M Pd) as [F E]; auto; try lra.
  - destruct A_num as (_ & _ & _ & _ & Q & _). lra.
  - apply Pm_1000.
  - unfold A0, unitA. apply Rplus_le_compat_r. apply Rmult_le_compat_r; [lra|]. assert (G <= 2) by (rewrite G_val; lra). pose proof G_pos. nra.
  - split; [exact F|]. split; [rewrite Rabs_mult, (Rabs_right M) by lra; lra|exact E].
Qed.
(** A mean of numbers bounded by Pm is bounded by Pm. *)
Lemma mean_le p b (q : Z -> R) : (forall r, (0 <= r <= p)%Z -> 0 <= b r) -> sumZ 0 p b = 1 -> (forall r, (0 <= r <= p)%Z -> q r <= Pm) ->
  sumZ 0 p (fun r => b r * q r) <= Pm.
Proof.
  intros H1 H2 H3. apply Rle_trans with (sumZ 0 p (fun r => b r * Pm)).
  - apply sumZ_le. intros j Hj. apply Rmult_le_compat_l; auto.
  - rewrite sumZ_scal_r, H2. lra.
Qed.

Lemma eval1_dbl n p U (P : Z -> Dn) r (X : Z -> Dn) junk junkC i : (0 <= i <= r)%Z -> mild n p U (X i) ->
  (forall j, (0 <= j <= n)%Z -> finite (P j) /\ Rabs (dval (P j)) <= Pm) ->
  acc (6 * Z.to_nat p + 1) A0 (Z.to_nat (p + 1)) (Evaluate1 (N:=Dn) n p U P r X junk junkC i)
    (curve n p (rU U) (fun j => dval (P j)) (dval (X i))) (curve n p (rU U) (fun j => Rabs (dval (P j))) (dval (X i))).
Proof.
  intros Hi HM HP. destruct (axis_ok n p U (X i) junk HM) as (Ac & Hb & Hs). destruct HM as (MK & Hp & W & Fu & D).
  set (k := FindSpan (N:=Dn) n p (X i) U) in *. set (b := fun r => B (rU U) k (Z.to_nat p) (k - p + r) (dval (X i))) in *.
  change (forall r, (0 <= r <= p)%Z -> dap (6 * Z.to_nat p) (b2 (-369)) (BasisFuns (N:=Dn) k (X i) p U junk r) (b r) /\ 0 <= b r <= 1) in Hb.
  rewrite !(curve_piece n p (rU U) _ _ k W Ac). rewrite !(pc_local (rU U) k p _ (dval (X i)) b) by (auto; lia).
  unfold Evaluate1. cbv zeta. dn.
  match goal with |- acc _ _ _ (for_up 0 r (fun i Cw => upd Cw i (@?g i)) junkC i) _ _ => rewrite (@for_up_store spec_float 0 r g junkC i Hi) end.
  cbv beta. fold k.
  assert (FW : few (6 * Z.to_nat p + 1 + Z.to_nat (p + 1))) by (apply few_Z; lia).
  assert (L := fun Td v w => adds_term (6 * Z.to_nat p + 1) A0 Pm (Z.to_nat (p + 1)) A0_pos Pm_1000 (T_A0 (Z.to_nat (p + 1)) ltac:(lia)) FW Td v w).
  apply (adds_from0 (6 * Z.to_nat p + 1) A0 Pm (Z.to_nat (p + 1))); auto.
  - assert (Q := adds_loop (6 * Z.to_nat p + 1) A0 Pm (Z.to_nat (p + 1)) 0 p
      (fun j C => SFadd 53 1024 C (SFmul 53 1024 (BasisFuns (N:=Dn) k (X i) p U junk j) (P (k - p + j)%Z))) 1
      (fun j => b j * dval (P (k - p + j)%Z)) (fun j => b j * Rabs (dval (P (k - p + j)%Z))) ltac:(lia)).
    replace (Z.to_nat (p + 1 - 0) * 1)%nat with (Z.to_nat (p + 1)) in Q by lia. apply Q.
    intros j Hj. destruct (Hb j Hj) as [H1 H2]. pose proof (active_range _ _ _ _ _ j Ac Hj) as H3. destruct (HP _ H3) as [FP PB].
    split; [apply Rmult_le_pos; [lra|apply Rabs_pos]|].
    destruct A_num as (_ & _ & Q3 & _).
    destruct (term _ _ _ _ _ H1 H2 Q3 FP PB) as (F & E1 & E2); [apply few_Z; lia|]. apply L; auto.
  - apply mean_le; auto; intros j Hj; [apply Hb; auto|]. apply HP. apply (active_range _ _ _ _ _ j Ac Hj).
Qed.

Lemma eval2_dbl nx px Ux ny py Uy (P : Z -> Z -> Dn) rx (X : Z -> Dn) ry (Y : Z -> Dn) junk sj bj junkC i j : (0 <= i <= rx)%Z -> (0 <= j <= ry)%Z ->
  mild nx px Ux (X i) -> mild ny py Uy (Y j) ->
  (forall a b, (0 <= a <= nx)%Z -> (0 <= b <= ny)%Z -> finite (P b a) /\ Rabs (dval (P b a)) <= Pm) ->
  acc (6 * Z.to_nat px + 6 * Z.to_nat py + 2) A0 (Z.to_nat (px + 1) * Z.to_nat (py + 1)) (Evaluate2 (N:=Dn) nx px Ux ny py Uy P rx X ry Y junk sj bj junkC j i)
    (curve nx px (rU Ux) (fun a => curve ny py (rU Uy) (fun b => dval (P b a)) (dval (Y j))) (dval (X i)))
    (curve nx px (rU Ux) (fun a => curve ny py (rU Uy) (fun b => Rabs (dval (P b a))) (dval (Y j))) (dval (X i))).
Proof.
  intros Hi Hj HMx HMy HP. destruct (axis_ok nx px Ux (X i) junk HMx) as (Acx & Hbx & Hsx). destruct HMx as (MKx & Hpx & Wx & Fx & Dx).
  destruct (axis_ok ny py Uy (Y j) junk HMy) as (Acy & Hby & Hsy). destruct HMy as (MKy & Hpy & Wy & Fy & Dy).
  set (kx := FindSpan (N:=Dn) nx px (X i) Ux) in *. set (bx := fun r => B (rU Ux) kx (Z.to_nat px) (kx - px + r) (dval (X i))) in *.
  set (ky := FindSpan (N:=Dn) ny py (Y j) Uy) in *. set (by_ := fun r => B (rU Uy) ky (Z.to_nat py) (ky - py + r) (dval (Y j))) in *.
  change (forall r, (0 <= r <= px)%Z -> dap (6 * Z.to_nat px) (b2 (-369)) (BasisFuns (N:=Dn) kx (X i) px Ux junk r) (bx r) /\ 0 <= bx r <= 1) in Hbx.
  change (forall r, (0 <= r <= py)%Z -> dap (6 * Z.to_nat py) (b2 (-369)) (BasisFuns (N:=Dn) ky (Y j) py Uy junk r) (by_ r) /\ 0 <= by_ r <= 1) in Hby.
  assert (EC : forall Q : Z -> Z -> R, curve nx px (rU Ux) (fun a => curve ny py (rU Uy) (fun b => Q b a) (dval (Y j))) (dval (X i)) =
     sumZ 0 px (fun a => sumZ 0 py (fun b => bx a * by_ b * Q (ky - py + b)%Z (kx - px + a)%Z))).
  { intros Q. rewrite (curve_piece nx px (rU Ux) _ _ kx Wx Acx). rewrite (pc_local (rU Ux) kx px _ (dval (X i)) bx) by (auto; lia).
    apply sumZ_ext. intros a Ha. rewrite (curve_piece ny py (rU Uy) _ _ ky Wy Acy). rewrite (pc_local (rU Uy) ky py _ (dval (Y j)) by_) by (auto; lia).
    rewrite <- sumZ_scal. apply sumZ_ext. intros. ring. }
  rewrite !EC. unfold Evaluate2.
  pose proof (fun i => tables_dbl nx px Ux rx X junk sj bj i) as Tx.
  pose proof (fun i => tables_dbl ny py Uy ry Y junk sj bj i) as Ty.
  destruct (tables nx px Ux rx X junk sj bj) as [sx tx].
  destruct (tables ny py Uy ry Y junk sj bj) as [sy ty]. cbn [fst snd] in *.
  cbv zeta. dn.
  match goal with |- acc _ _ _ (for_up 0 rx (fun ix Cw => for_up 0 ry (fun iy Cw => upd2 Cw iy ix (@?g ix iy)) Cw) junkC j i) _ _ =>
    rewrite (@for_up_store2 spec_float 0 rx 0 ry g junkC i j Hi Hj) end.
  cbv beta.
  destruct (Tx i Hi) as [Ex Bx]. destruct (Ty j Hj) as [Ey By]. rewrite Ex, Ey, Bx, By. fold kx ky.
  set (K := (6 * Z.to_nat px + 6 * Z.to_nat py + 2)%nat). set (Tm := (Z.to_nat (px + 1) * Z.to_nat (py + 1))%nat).
  assert (HT : (Z.of_nat Tm <= 2000000)%Z) by (unfold Tm; rewrite Nat2Z.inj_mul, !Z2Nat.id by lia; nia).
  assert (FW : few (K + Tm)) by (apply few_Z; unfold K; lia).
  assert (L := fun Td v w => adds_term K A0 Pm Tm A0_pos Pm_1000 (T_A0 _ HT) FW Td v w).
  apply (adds_from0 K A0 Pm Tm); auto.
  - assert (Q := adds_loop K A0 Pm Tm 0 px
      (fun jx C => for_up 0 py (fun jy C => SFadd 53 1024 C (SFmul 53 1024 (SFmul 53 1024 (BasisFuns (N:=Dn) kx (X i) px Ux junk jx) (BasisFuns (N:=Dn) ky (Y j) py Uy junk jy)) (P (ky - py + jy)%Z (kx - px + jx)%Z))) C)
      (Z.to_nat (py + 1))
      (fun a => sumZ 0 py (fun b => bx a * by_ b * dval (P (ky - py + b)%Z (kx - px + a)%Z))) (fun a => sumZ 0 py (fun b => bx a * by_ b * Rabs (dval (P (ky - py + b)%Z (kx - px + a)%Z)))) ltac:(lia)).
    replace (Z.to_nat (px + 1 - 0)) with (Z.to_nat (px + 1)) in Q by lia. apply Q.
    intros a Ha. destruct (Hbx a Ha) as [H1 H2]. pose proof (active_range _ _ _ _ _ a Acx Ha) as H3.
    split; [apply sumZ_nonneg; intros b Hb; apply Rmult_le_pos; [apply Rmult_le_pos; [lra|apply Hby; auto]|apply Rabs_pos]|].
    assert (Q' := adds_loop K A0 Pm Tm 0 py
      (fun jy C => SFadd 53 1024 C (SFmul 53 1024 (SFmul 53 1024 (BasisFuns (N:=Dn) kx (X i) px Ux junk a) (BasisFuns (N:=Dn) ky (Y j) py Uy junk jy)) (P (ky - py + jy)%Z (kx - px + a)%Z))) 1
      (fun b => bx a * by_ b * dval (P (ky - py + b)%Z (kx - px + a)%Z)) (fun b => bx a * by_ b * Rabs (dval (P (ky - py + b)%Z (kx - px + a)%Z))) ltac:(lia)).
    replace (Z.to_nat (py + 1 - 0) * 1)%nat with (Z.to_nat (py + 1)) in Q' by lia. apply Q'.
    intros b Hb. destruct (Hby b Hb) as [H4 H5]. pose proof (active_range _ _ _ _ _ b Acy Hb) as H6. destruct (HP _ _ H3 H6) as [FP PB].
    destruct A_num as (N1 & N2 & N3 & N4 & N5 & N6 & N7).
    destruct (prod_ok _ _ _ _ _ _ _ _ H1 H4 H2 H5 ltac:(lra) ltac:(lra)) as [D1 D2]; [apply few_Z; lia|].
    rewrite N1 in D1.
    split; [apply Rmult_le_pos; [lra|apply Rabs_pos]|].
    destruct (term _ _ _ _ _ D1 D2 N4 FP PB) as (F & E1 & E2); [apply few_Z; lia|]. apply L; auto.
    replace (6 * Z.to_nat px + 6 * Z.to_nat py + 1 + 1)%nat with K in E2 by (unfold K; lia). exact E2.
  - apply Rle_trans with (sumZ 0 px (fun a => bx a * sumZ 0 py (fun b => by_ b * Rabs (dval (P (ky - py + b)%Z (kx - px + a)%Z))))).
    { apply Req_le. apply sumZ_ext. intros a Ha. rewrite <- sumZ_scal. apply sumZ_ext. intros. ring. }
    apply mean_le; auto; intros a Ha; [apply Hbx; auto|]. apply mean_le; auto; intros b Hb; [apply Hby; auto|].
    apply HP; eapply active_range; eauto.
Qed.

Lemma eval3_dbl nx px Ux ny py Uy nz pz Uz (P : Z -> Z -> Z -> Dn) rx (X : Z -> Dn) ry (Y : Z -> Dn) rz (W : Z -> Dn) junk sj bj junkC i j l :
  (0 <= i <= rx)%Z -> (0 <= j <= ry)%Z -> (0 <= l <= rz)%Z ->
  mild nx px Ux (X i) -> mild ny py Uy (Y j) -> mild nz pz Uz (W l) ->
  (forall a b c, (0 <= a <= nx)%Z -> (0 <= b <= ny)%Z -> (0 <= c <= nz)%Z -> finite (P c b a) /\ Rabs (dval (P c b a)) <= Pm) ->
  acc (6 * Z.to_nat px + 6 * Z.to_nat py + 6 * Z.to_nat pz + 3) A0 (Z.to_nat (px + 1) * (Z.to_nat (py + 1) * Z.to_nat (pz + 1)))
    (Evaluate3 (N:=Dn) nx px Ux ny py Uy nz pz Uz P rx X ry Y rz W junk sj bj junkC l j i)
    (curve nx px (rU Ux) (fun a => curve ny py (rU Uy) (fun b => curve nz pz (rU Uz) (fun c => dval (P c b a)) (dval (W l))) (dval (Y j))) (dval (X i)))
    (curve nx px (rU Ux) (fun a => curve ny py (rU Uy) (fun b => curve nz pz (rU Uz) (fun c => Rabs (dval (P c b a))) (dval (W l))) (dval (Y j))) (dval (X i))).
Proof.
  intros Hi Hj Hl HMx HMy HMz HP. destruct (axis_ok nx px Ux (X i) junk HMx) as (Acx & Hbx & Hsx). destruct HMx as (MKx & Hpx & Wx & Fx & Dx).
  destruct (axis_ok ny py Uy (Y j) junk HMy) as (Acy & Hby & Hsy). destruct HMy as (MKy & Hpy & Wy & Fy & Dy).
  destruct (axis_ok nz pz Uz (W l) junk HMz) as (Acz & Hbz & Hsz). destruct HMz as (MKz & Hpz & Wz & Fz & Dz).
  set (kx := FindSpan (N:=Dn) nx px (X i) Ux) in *. set (bx := fun r => B (rU Ux) kx (Z.to_nat px) (kx - px + r) (dval (X i))) in *.
  set (ky := FindSpan (N:=Dn) ny py (Y j) Uy) in *. set (by_ := fun r => B (rU Uy) ky (Z.to_nat py) (ky - py + r) (dval (Y j))) in *.
  set (kz := FindSpan (N:=Dn) nz pz (W l) Uz) in *. set (bz := fun r => B (rU Uz) kz (Z.to_nat pz) (kz - pz + r) (dval (W l))) in *.
  change (forall r, (0 <= r <= px)%Z -> dap (6 * Z.to_nat px) (b2 (-369)) (BasisFuns (N:=Dn) kx (X i) px Ux junk r) (bx r) /\ 0 <= bx r <= 1) in Hbx.
  change (forall r, (0 <= r <= py)%Z -> dap (6 * Z.to_nat py) (b2 (-369)) (BasisFuns (N:=Dn) ky (Y j) py Uy junk r) (by_ r) /\ 0 <= by_ r <= 1) in Hby.
  change (forall r, (0 <= r <= pz)%Z -> dap (6 * Z.to_nat pz) (b2 (-369)) (BasisFuns (N:=Dn) kz (W l) pz Uz junk r) (bz r) /\ 0 <= bz r <= 1) in Hbz.
  assert (EC : forall Q : Z -> Z -> Z -> R, curve nx px (rU Ux) (fun a => curve ny py (rU Uy) (fun b => curve nz pz (rU Uz) (fun c => Q c b a) (dval (W l))) (dval (Y j))) (dval (X i)) =
     sumZ 0 px (fun a => sumZ 0 py (fun b => sumZ 0 pz (fun c => bx a * by_ b * bz c * Q (kz - pz + c)%Z (ky - py + b)%Z (kx - px + a)%Z)))).
  { intros Q. rewrite (curve_piece nx px (rU Ux) _ _ kx Wx Acx). rewrite (pc_local (rU Ux) kx px _ (dval (X i)) bx) by (auto; lia).
    apply sumZ_ext. intros a Ha. rewrite (curve_piece ny py (rU Uy) _ _ ky Wy Acy). rewrite (pc_local (rU Uy) ky py _ (dval (Y j)) by_) by (auto; lia).
    rewrite <- sumZ_scal. apply sumZ_ext. intros b Hb. rewrite (curve_piece nz pz (rU Uz) _ _ kz Wz Acz). rewrite (pc_local (rU Uz) kz pz _ (dval (W l)) bz) by (auto; lia).
    rewrite <- !sumZ_scal. apply sumZ_ext. intros. ring. }
  rewrite !EC. unfold Evaluate3.
  pose proof (fun i => tables_dbl nx px Ux rx X junk sj bj i) as Tx.
  pose proof (fun i => tables_dbl ny py Uy ry Y junk sj bj i) as Ty.
  pose proof (fun i => tables_dbl nz pz Uz rz W junk sj bj i) as Tz.
  destruct (tables nx px Ux rx X junk sj bj) as [sx tx].
  destruct (tables ny py Uy ry Y junk sj bj) as [sy ty].
  destruct (tables nz pz Uz rz W junk sj bj) as [sz tz]. cbn [fst snd] in *.
  cbv zeta. dn.
  match goal with |- acc _ _ _ (for_up 0 rx (fun ix Cw => for_up 0 ry (fun iy Cw1 => for_up 0 rz (fun iz Cw2 => upd3 Cw2 iz iy ix (@?g ix iy iz)) Cw1) Cw) junkC l j i) _ _ =>
    rewrite (@for_up_store3 spec_float 0 rx 0 ry 0 rz g junkC i j l Hi Hj Hl) end.
  cbv beta.
  destruct (Tx i Hi) as [Ex Bx]. destruct (Ty j Hj) as [Ey By]. destruct (Tz l Hl) as [Ez Bz]. rewrite Ex, Ey, Ez, Bx, By, Bz. fold kx ky kz.
  set (K := (6 * Z.to_nat px + 6 * Z.to_nat py + 6 * Z.to_nat pz + 3)%nat). set (Tm := (Z.to_nat (px + 1) * (Z.to_nat (py + 1) * Z.to_nat (pz + 1)))%nat).
  assert (HT : (Z.of_nat Tm <= 2000000)%Z).
  { unfold Tm. rewrite !Nat2Z.inj_mul, !Z2Nat.id by lia. assert (H1 : ((py + 1) * (pz + 1) <= 101 * 101)%Z) by (apply Z.mul_le_mono_nonneg; lia). assert (H0 : (0 <= (py + 1) * (pz + 1))%Z) by (apply Z.mul_nonneg_nonneg; lia).
    apply Z.le_trans with (101 * (101 * 101))%Z; [apply Z.mul_le_mono_nonneg; lia|lia]. }
  assert (FW : few (K + Tm)) by (apply few_Z; unfold K; lia).
  assert (L := fun Td v w => adds_term K A0 Pm Tm A0_pos Pm_1000 (T_A0 _ HT) FW Td v w).
  set (bas := fun a b c => SFmul 53 1024 (SFmul 53 1024 (BasisFuns (N:=Dn) kx (X i) px Ux junk a) (BasisFuns (N:=Dn) ky (Y j) py Uy junk b)) (BasisFuns (N:=Dn) kz (W l) pz Uz junk c)).
  assert (NN : forall a b c, (0 <= a <= px)%Z -> (0 <= b <= py)%Z -> (0 <= c <= pz)%Z -> 0 <= bx a * by_ b * bz c * Rabs (dval (P (kz - pz + c)%Z (ky - py + b)%Z (kx - px + a)%Z))).
  { intros a b c Ha Hb Hc. apply Rmult_le_pos; [|apply Rabs_pos]. apply Rmult_le_pos; [apply Rmult_le_pos; [apply Hbx; auto|apply Hby; auto]|apply Hbz; auto]. }
  apply (adds_from0 K A0 Pm Tm); auto.
  - assert (Q := adds_loop K A0 Pm Tm 0 px
      (fun jx C => for_up 0 py (fun jy C => for_up 0 pz (fun jz C => SFadd 53 1024 C (SFmul 53 1024 (bas jx jy jz) (P (kz - pz + jz)%Z (ky - py + jy)%Z (kx - px + jx)%Z))) C) C)
      (Z.to_nat (py + 1) * Z.to_nat (pz + 1))%nat
      (fun a => sumZ 0 py (fun b => sumZ 0 pz (fun c => bx a * by_ b * bz c * dval (P (kz - pz + c)%Z (ky - py + b)%Z (kx - px + a)%Z))))
      (fun a => sumZ 0 py (fun b => sumZ 0 pz (fun c => bx a * by_ b * bz c * Rabs (dval (P (kz - pz + c)%Z (ky - py + b)%Z (kx - px + a)%Z))))) ltac:(lia)).
    replace (Z.to_nat (px + 1 - 0)) with (Z.to_nat (px + 1)) in Q by lia. apply Q. clear Q.
    intros a Ha. destruct (Hbx a Ha) as [H1 H2]. pose proof (active_range _ _ _ _ _ a Acx Ha) as H3.
    split; [apply sumZ_nonneg; intros b Hb; apply sumZ_nonneg; intros c Hc; apply NN; auto|].
    assert (Q := adds_loop K A0 Pm Tm 0 py
      (fun jy C => for_up 0 pz (fun jz C => SFadd 53 1024 C (SFmul 53 1024 (bas a jy jz) (P (kz - pz + jz)%Z (ky - py + jy)%Z (kx - px + a)%Z))) C) (Z.to_nat (pz + 1))
      (fun b => sumZ 0 pz (fun c => bx a * by_ b * bz c * dval (P (kz - pz + c)%Z (ky - py + b)%Z (kx - px + a)%Z)))
      (fun b => sumZ 0 pz (fun c => bx a * by_ b * bz c * Rabs (dval (P (kz - pz + c)%Z (ky - py + b)%Z (kx - px + a)%Z)))) ltac:(lia)).
    replace (Z.to_nat (py + 1 - 0)) with (Z.to_nat (py + 1)) in Q by lia. apply Q. clear Q.
    intros b Hb. destruct (Hby b Hb) as [H4 H5]. pose proof (active_range _ _ _ _ _ b Acy Hb) as H6.
    split; [apply sumZ_nonneg; intros c Hc; apply NN; auto|].
    assert (Q := adds_loop K A0 Pm Tm 0 pz
      (fun jz C => SFadd 53 1024 C (SFmul 53 1024 (bas a b jz) (P (kz - pz + jz)%Z (ky - py + b)%Z (kx - px + a)%Z))) 1
      (fun c => bx a * by_ b * bz c * dval (P (kz - pz + c)%Z (ky - py + b)%Z (kx - px + a)%Z))
      (fun c => bx a * by_ b * bz c * Rabs (dval (P (kz - pz + c)%Z (ky - py + b)%Z (kx - px + a)%Z))) ltac:(lia)).
    replace (Z.to_nat (pz + 1 - 0) * 1)%nat with (Z.to_nat (pz + 1)) in Q by lia. apply Q. clear Q.
    intros c Hc. destruct (Hbz c Hc) as [H7 H8]. pose proof (active_range _ _ _ _ _ c Acz Hc) as H9. destruct (HP _ _ _ H3 H6 H9) as [FP PB].
    split; [apply NN; auto|].
    destruct A_num as (N1 & N2 & N3 & N4 & N5 & N6 & N7).
    destruct (prod_ok _ _ _ _ _ _ _ _ H1 H4 H2 H5 ltac:(lra) ltac:(lra)) as [D1 D2]; [apply few_Z; lia|].
    rewrite N1 in D1.
    destruct (prod_ok _ _ _ _ _ _ _ _ D1 H7 D2 H8 ltac:(lra) ltac:(lra)) as [D3 D4]; [apply few_Z; lia|].
    destruct (term _ _ _ _ _ D3 D4 N2 FP PB) as (F & E1 & E2); [apply few_Z; lia|]. apply L; auto.
    replace (6 * Z.to_nat px + 6 * Z.to_nat py + 1 + 6 * Z.to_nat pz + 1 + 1)%nat with K in E2 by (unfold K; lia). exact E2.
  - apply Rle_trans with (sumZ 0 px (fun a => bx a * sumZ 0 py (fun b => by_ b * sumZ 0 pz (fun c => bz c * Rabs (dval (P (kz - pz + c)%Z (ky - py + b)%Z (kx - px + a)%Z)))))).
    { apply Req_le. apply sumZ_ext. intros a Ha. rewrite <- sumZ_scal. apply sumZ_ext. intros b Hb. rewrite <- !sumZ_scal. apply sumZ_ext. intros. ring. }
    apply mean_le; auto; intros a Ha; [apply Hbx; auto|]. apply mean_le; auto; intros b Hb; [apply Hby; auto|]. apply mean_le; auto; intros c Hc; [apply Hbz; auto|].
    apply HP; eapply active_range; eauto.
Qed.

(** The bound without the running quantities. *)
Lemma acc_final K t C c m : (Z.of_nat t <= 2000000)%Z -> few (K + t) -> acc K A0 t C c m ->
  finite C /\ Rabs c <= m /\ Rabs (dval C - c) <= (G ^ (K + t) - 1) * m + (b2 (-340) * Pm + b2 (-1053)).
Proof.
  intros Ht FW (F & Hc & E). split; [exact F|]. split; [exact Hc|]. apply Rle_trans with (1 := E). apply Rplus_le_compat_l.
  assert (G ^ t <= 5 / 4) by (apply few_le; apply (few_less _ (K + t)); [lia|auto]). pose proof (Gk_ge t). pose proof A0_pos.
  apply IZR_le in Ht. rewrite <- INR_IZR_INZ in Ht. pose proof (pos_INR t).
  apply Rle_trans with (2000000 * A0 * (5 / 4)).
  { apply Rmult_le_compat; try lra; [apply Rmult_le_pos; lra|apply Rmult_le_compat_r; lra]. }
  unfold A0, unitA, eta. replace (b2 (-340)) with (b2 22 * b2 (-362)) by (rewrite <- b2_add; reflexivity). replace (b2 (-1053)) with (b2 22 * b2 (-1075)) by (rewrite <- b2_add; reflexivity).
  replace (b2 22) with 4194304 by (rewrite b2_IZR by lia; reflexivity). pose proof (b2_pos (-362)). pose proof (b2_pos (-1075)).
  assert (0 <= b2 (-362) * Pm) by (apply Rmult_le_pos; lra). lra.
Qed.
End Eval.
