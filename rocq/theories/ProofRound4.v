(** The basis functions computed in doubles. *)
From Coq Require Import ZArith Reals List Bool SpecFloat Lia Lra Psatz.
From Verif Require Import Num Loop Spec SumZ ModelBspline ModelBSp ModelFloat BPiece BLink SpecDouble ProofRound ProofRound2 ProofRound3 ProofSpan.
Local Open Scope R_scope.

Ltac dn := cbn [Dn T n0 n1 nadd nsub nmul ndiv nleb nltb neqb] in *.
Lemma dval_one : dval (n1 Dn) = 1.
Proof. change (n1 Dn) with (S754_finite false 4503599627370496 (-52)). unfold dval. replace (IZR 4503599627370496) with (b2 52) by (rewrite b2_IZR by lia; reflexivity). rewrite Rmult_assoc, <- b2_add. unfold b2. simpl. lra. Qed.
Lemma fin_one : finite (n1 Dn).
Proof. split; [reflexivity|exact I]. Qed.
(** Exponents of 1+2^-52 that stay below 5/4. *)
Definition few (k : nat) : Prop := 16 * uu * INR k <= 1.
Lemma few_le k : few k -> G ^ k <= 5 / 4.
Proof. unfold few. intros H. pose proof uu_pos. pose proof (pos_INR k). assert (4 * uu * INR k <= / 4) by lra. pose proof (Gk_lin k ltac:(lra)). lra. Qed.
Lemma few_less k k' : (k <= k')%nat -> few k' -> few k.
Proof. unfold few. intros H F. apply le_INR in H. pose proof uu_pos. nra. Qed.
Lemma few_Z k : (Z.of_nat k <= 500000000000000)%Z -> few k.
Proof. intros H. unfold few. apply IZR_le in H. rewrite <- INR_IZR_INZ in H. rewrite uu_val. lra. Qed.

Definition tinyA : R := b2 (-569).
Lemma tiny_shift a b c : (a + b <= c)%Z -> b2 a * b2 b <= b2 c.
Proof. intros. rewrite <- b2_add. apply b2_le. lia. Qed.
Lemma tiny_eta : b2 502 * eta = tinyA / 16 /\ eta <= tinyA / 16.
Proof.
  unfold eta, tinyA. rewrite <- b2_add. change (502 + -1075)%Z with (-573)%Z.
  assert (E : b2 (-569) = 16 * b2 (-573)) by (change (-569)%Z with (-573 + 1 + 1 + 1 + 1)%Z; rewrite !b2_1; ring).
  rewrite E. split; [field|]. replace (16 * b2 (-573) / 16) with (b2 (-573)) by field. apply b2_le. lia.
Qed.
Lemma tinyA_pos : 0 < tinyA.
Proof. apply b2_pos. Qed.
Lemma big_1023 : 16 * b2 502 <= b2 1023 /\ 64 < b2 1023.
Proof.
  split.
  - replace (16 * b2 502) with (b2 506) by (change 506%Z with (502 + 1 + 1 + 1 + 1)%Z; rewrite !b2_1; ring). apply b2_le. lia.
  - apply Rlt_le_trans with (b2 7); [rewrite b2_IZR by lia; apply IZR_lt; reflexivity|apply b2_le; lia].
Qed.

(** One quotient and product of the recursion: rr * (N / (rr + ll)). *)
Lemma step k A Nd N Rd Ld Xd rr ll x : few (k + 10) -> dap k A Nd N -> tinyA <= A <= 1 -> N <= 1 ->
  dap 1 0 Rd rr -> dap 1 0 Ld ll -> dap 1 0 Xd x -> x <= rr + ll -> b2 (-500) <= rr + ll <= b2 502 ->
  dap (k + 5) (3 / 2 * A) (SFmul 53 1024 Xd (SFdiv 53 1024 Nd (SFadd 53 1024 Rd Ld))) (x * (N / (rr + ll))).
Proof.
  intros FW HN [HA HA1] N1 HR HL HX Xle [S1 S2]. set (s := rr + ll) in *.
  assert (S0 : 0 < s) by (pose proof (b2_pos (-500)); lra).
  assert (N0 : 0 <= N) by apply HN. assert (X0 : 0 <= x) by apply HX. pose proof tinyA_pos as TP. pose proof eta_pos as EP.
  destruct big_1023 as [BG BG']. destruct tiny_eta as [TE TE'].
  assert (GW : forall i, (i <= k + 10)%nat -> 1 <= G ^ i <= 5 / 4).
  { intros i Hi. split; [apply Gk_ge|apply few_le; apply (few_less _ _ Hi FW)]. }
  pose proof (GW 1%nat ltac:(lia)) as G1. pose proof (GW 2%nat ltac:(lia)) as G2. rewrite pow_1 in G1.
  assert (IS : / s <= b2 500 /\ 0 < / s).
  { split; [|apply Rinv_0_lt_compat; lra]. replace (b2 500) with (/ b2 (-500)); [apply Rinv_le_contravar; [apply b2_pos|lra]|].
    apply Rmult_eq_reg_l with (b2 (-500)); [|pose proof (b2_pos (-500)); lra]. rewrite Rinv_r by (pose proof (b2_pos (-500)); lra). rewrite <- b2_add. reflexivity. }
  destruct IS as [IS1 IS0]. assert (B50 : 4 * b2 500 = b2 502) by (change 502%Z with (500 + 1 + 1)%Z; rewrite !b2_1; ring).
  (* the sum *)
  assert (HS : dap 2 0 (SFadd 53 1024 Rd Ld) s).
  { assert (dap 2 ((0 + 0) * G) (SFadd 53 1024 Rd Ld) s) as W.
    { apply dap_add; auto. rewrite pow_1. fold s. assert (s * G <= s * (5 / 4)) by (apply Rmult_le_compat_l; lra). lra. }
    eapply dap_weak; [| |exact W]; [lia|]. lra. }
  (* the quotient *)
  assert (NS : 0 <= N / s <= / s) by (unfold Rdiv; split; [apply Rmult_le_pos; lra|rewrite <- (Rmult_1_l (/ s)) at 2; apply Rmult_le_compat_r; lra]).
  assert (AS : 0 <= A * G ^ 2 / s <= 5 / 4 * A * / s).
  { unfold Rdiv at 1 2. split; [repeat apply Rmult_le_pos; lra|]. apply Rmult_le_compat_r; [lra|]. rewrite (Rmult_comm _ A). apply Rmult_le_compat_l; lra. }
  assert (AS1 : A * / s <= / s) by (rewrite <- (Rmult_1_l (/ s)) at 2; apply Rmult_le_compat_r; lra).
  assert (HQ : dap (k + 3) (A * G ^ 2 / s * G + eta) (SFdiv 53 1024 Nd (SFadd 53 1024 Rd Ld)) (N / s)).
  { replace (k + 3)%nat with (Datatypes.S (k + 2)) by lia. apply dap_div; auto.
    pose proof (GW (k + 2)%nat ltac:(lia)) as Gk2. assert (N / s * G ^ (k + 2) <= / s * (5 / 4)) by (apply Rmult_le_compat; lra).
    lra. }
  (* the product *)
  assert (XS : 0 <= x * / s <= 1).
  { split; [apply Rmult_le_pos; lra|]. apply Rle_trans with (s * / s); [apply Rmult_le_compat_r; lra|]. rewrite Rinv_r; lra. }
  set (B := A * G ^ 2 / s * G + eta) in *.
  assert (HB : 0 <= x * G ^ 1 * B <= A * G ^ 4 + x * G * eta).
  { split; [apply Rmult_le_pos; [apply Rmult_le_pos; [lra|rewrite pow_1; lra]|unfold B; apply Rplus_le_le_0_compat; [apply Rmult_le_pos|]; lra]|].
    unfold B. rewrite pow_1. replace (x * G * (A * G ^ 2 / s * G + eta)) with (x * / s * (A * G ^ 4) + x * G * eta) by (unfold Rdiv; ring).
    apply Rplus_le_compat_r. rewrite <- (Rmult_1_l (A * G ^ 4)) at 2. apply Rmult_le_compat_r; [|lra]. apply Rmult_le_pos; [lra|]. pose proof (Gk_ge 4). lra. }
  pose proof (GW 4%nat ltac:(lia)) as G4. pose proof (GW 5%nat ltac:(lia)) as G5.
  assert (XE : x * eta <= tinyA / 16) by (rewrite <- TE; apply Rmult_le_compat_r; lra).
  assert (XE0 : 0 <= x * eta) by (apply Rmult_le_pos; lra).
  assert (HA4 : A * G ^ 4 <= 5 / 4 * A) by (rewrite (Rmult_comm A); apply Rmult_le_compat_r; lra).
  assert (HA5 : A * G ^ 5 <= 5 / 4 * A) by (rewrite (Rmult_comm A); apply Rmult_le_compat_r; lra).
  assert (HXE : x * G * eta <= 5 / 4 * (tinyA / 16)) by nra.
  pose proof (dap_mul 1 (k + 3) 0 B x (N / s) Xd _ HX HQ) as M. cbv zeta in M.
  assert (M0 : x * (N / s) <= 1).
  { unfold Rdiv. replace (x * (N * / s)) with (x * / s * N) by ring. nra. }
  assert (M1 : 0 <= x * (N / s)) by (apply Rmult_le_pos; lra).
  eapply dap_weak; [| |apply M].
  - lia.
  - replace (0 * (N / s * G ^ (k + 3)) + x * G ^ 1 * B + 0 * B) with (x * G ^ 1 * B) by ring.
    assert (x * G ^ 1 * B * G <= (A * G ^ 4 + x * G * eta) * G) by (apply Rmult_le_compat_r; lra).
    replace ((A * G ^ 4 + x * G * eta) * G) with (A * G ^ 5 + x * G * eta * G) in H by ring.
    assert (x * G * eta * G <= 5 / 4 * (tinyA / 16) * (5 / 4)).
    { apply Rmult_le_compat; try lra. apply Rmult_le_pos; [apply Rmult_le_pos; lra|lra]. }
    lra.
  - replace (0 * (N / s * G ^ (k + 3)) + x * G ^ 1 * B + 0 * B) with (x * G ^ 1 * B) by ring.
    assert (x * (N / s) * G ^ (1 + (k + 3)) <= 1 * (5 / 4)) by (pose proof (GW (1 + (k + 3))%nat ltac:(lia)); apply Rmult_le_compat; lra).
    lra.
Qed.

(** ** The span *)
Lemma Dn_order : weak_order Dn.
Proof.
  assert (SW : forall x y, match SFcompare x y with Some Lt => SFcompare y x = Some Gt | _ => True end).
  { intros [sx|sx| |sx mx ex] [sy|sy| |sy my ey]; cbn [SFcompare]; try destruct sx; try destruct sy; auto.
    - rewrite (Z.compare_antisym ex ey). destruct (Z.compare ex ey) eqn:E; cbn [CompOpp]; auto.
      change (Pos.compare_cont Eq mx my) with (Pos.compare mx my). change (Pos.compare_cont Eq my mx) with (Pos.compare my mx).
      rewrite (Pos.compare_antisym mx my). destruct (Pos.compare mx my); cbn [CompOpp]; auto.
    - rewrite (Z.compare_antisym ex ey). destruct (Z.compare ex ey) eqn:E; cbn [CompOpp]; auto.
      change (Pos.compare_cont Eq mx my) with (Pos.compare mx my). change (Pos.compare_cont Eq my mx) with (Pos.compare my mx).
      rewrite (Pos.compare_antisym mx my). destruct (Pos.compare mx my); cbn [CompOpp]; auto. }
  split; intros x y; dn; unfold SFltb, SFleb; specialize (SW x y); destruct (SFcompare x y) as [[]|]; try discriminate; auto.
  intros _. rewrite SW. reflexivity.
Qed.
Definition fin_knots (n p : Z) (U : Z -> Dn) : Prop := forall i, (0 <= i <= n + p + 1)%Z -> finite (U i).
Lemma span_active n p (U : Z -> Dn) (u : Dn) : fin_knots n p U -> finite u -> wf_knots n p (fun i => dval (U i)) -> in_domain n p (fun i => dval (U i)) (dval u) ->
  active n p (fun i => dval (U i)) (dval u) (FindSpan (N:=Dn) n p u U).
Proof.
  intros FU Fu W [D1 D2]. pose proof (wf_n _ _ _ W) as Hn. pose proof (wf_p _ _ _ W) as Hp. pose proof (wf_first _ _ _ W) as H1.
  destruct (FindSpan_generic Dn Dn_order n p u U Hn) as [k [E [Hk C]]]. unfold FindSpan. rewrite E. dn.
  assert (NL : forall i, (0 <= i <= n + p + 1)%Z -> SFleb (U i) u = false -> dval u < dval (U i)).
  { intros i Hi Q. apply Rnot_le_lt. intros Q'. apply leb_ok in Q'; auto. congruence. }
  split; [exact Hk|]. destruct C as [[Ek C]|[[Ek [C1 C2]]|[C1 [C2 [C3 C4]]]]].
  - right. apply leb_ok in C; auto; [|apply FU; lia]. split; [exact Ek|lra].
  - left. apply leb_ok in C2; auto; [|apply FU; lia]. subst k. lra.
  - left. split; [|apply NL; auto; lia]. apply Rnot_lt_le. intros Q. apply ltb_ok in Q; auto; [congruence|apply FU; lia].
Qed.

(** ** BasisFuns *)
Lemma B_le1 U k q i u : span_ok U k q -> U k <= u <= U (k + 1)%Z -> (k - Z.of_nat q <= i <= k)%Z -> 0 <= B U k q i u <= 1.
Proof.
  intros S D Hi. split; [apply B_nonneg; auto|]. rewrite <- (B_sum_one U k q u S).
  rewrite (sumZ_split (k - Z.of_nat q) (i - 1) k) by lia. rewrite (sumZ_first (i - 1 + 1)) by lia. replace (i - 1 + 1)%Z with i by lia.
  assert (forall a b, 0 <= sumZ a b (fun i => B U k q i u)) by (intros; apply sumZ_nonneg; intros; apply B_nonneg; auto).
  pose proof (H (k - Z.of_nat q) (i - 1))%Z. pose proof (H (i + 1) k)%Z. lra.
Qed.
Definition rU (U : Z -> Dn) : Z -> R := fun i => dval (U i).
(** Knots of moderate size, equal or not closer than 2^-500. *)
Definition mild_knots (n p : Z) (U : Z -> Dn) : Prop :=
  fin_knots n p U /\ (forall i, (0 <= i <= n + p + 1)%Z -> Rabs (dval (U i)) <= b2 500) /\
  forall i j, (0 <= i <= n + p + 1)%Z -> (0 <= j <= n + p + 1)%Z -> dval (U i) < dval (U j) -> b2 (-500) <= dval (U j) - dval (U i).
Definition bA (j : Z) : R := b2 (2 * j - 569).
Lemma bA_S j : bA (j + 1) = 4 * bA j.
Proof. unfold bA. replace (2 * (j + 1) - 569)%Z with (2 * j - 569 + 1 + 1)%Z by lia. rewrite !b2_1. ring. Qed.
Lemma bA_range j : (0 <= j <= 100)%Z -> tinyA <= bA j <= / 8.
Proof.
  intros H. unfold bA, tinyA. split; [apply b2_le; lia|]. apply Rle_trans with (b2 (-3)); [apply b2_le; lia|]. unfold b2. simpl. lra.
Qed.
Lemma basis_double n p (U : Z -> Dn) (u : Dn) k junk : mild_knots n p U -> finite u -> wf_knots n p (rU U) -> (p <= 100)%Z ->
  active n p (rU U) (dval u) k -> forall r, (0 <= r <= p)%Z ->
  dap (6 * Z.to_nat p) (bA p) (BasisFuns (N:=Dn) k u p U junk r) (B (rU U) k (Z.to_nat p) (k - p + r) (dval u)).
Proof.
  intros (FU & MU & SU) Fu W P100 Ac r Hr. pose proof (wf_n _ _ _ W) as Hn. pose proof (wf_p _ _ _ W) as Hp.
  destruct Ac as [Hk Hact]. pose proof (wf_mono _ _ _ W) as Mo.
  assert (LT : rU U k < rU U (k + 1)%Z) by (apply (active_lt n p (rU U) (dval u) k W); split; auto).
  assert (IN : rU U k <= dval u <= rU U (k + 1)%Z) by (apply (active_in n p (rU U) (dval u) k W); split; auto).
  set (V := rU U) in *. set (x := dval u) in *.
  assert (SP : span_ok V k (Z.to_nat p)) by (apply (wf_span_ok n p); auto).
  assert (SPq : forall q, (Z.of_nat q <= p)%Z -> span_ok V k q) by (intros q Hq; apply (span_ok_less V k (Z.to_nat p)); auto; lia).
  assert (LOW : forall i, (0 <= i <= k)%Z -> V i <= x) by (intros i Hi; assert (V i <= V k) by (apply Mo; lia); lra).
  assert (UPP : forall i, (k + 1 <= i <= n + p + 1)%Z -> x <= V i) by (intros i Hi; assert (V (k + 1)%Z <= V i) by (apply Mo; lia); lra).
  assert (MV : forall i, (0 <= i <= n + p + 1)%Z -> - b2 500 <= V i <= b2 500).
  { intros i Hi. specialize (MU i Hi). change (dval (U i)) with (V i) in MU. unfold Rabs in MU. destruct (Rcase_abs (V i)); lra. }
  destruct big_1023 as [BG BG']. assert (B50 : 4 * b2 500 = b2 502) by (change 502%Z with (500 + 1 + 1)%Z; rewrite !b2_1; ring).
  pose proof (b2_pos 500) as B5.
  assert (LF : forall i, (0 <= i <= k)%Z -> dap 1 0 (SFsub 53 1024 u (U i)) (x - V i)).
  { intros i Hi. apply dap_sub; auto; [apply FU; lia|apply LOW; auto|]. fold x. change (dval (U i)) with (V i).
    pose proof (MV i ltac:(lia)). pose proof (MV (k + 1)%Z ltac:(lia)). lra. }
  assert (RG : forall i, (k + 1 <= i <= n + p + 1)%Z -> dap 1 0 (SFsub 53 1024 (U i) u) (V i - x)).
  { intros i Hi. apply dap_sub; auto; [apply FU; lia|apply UPP; auto|]. fold x. change (dval (U i)) with (V i).
    pose proof (MV i ltac:(lia)). pose proof (MV k ltac:(lia)). lra. }
  unfold BasisFuns. dn.
  floop (fun j (s : (Z -> spec_float) * (Z -> spec_float) * (Z -> spec_float)) => let '(Nf, lft, rgt) := s in
       (forall r, (0 <= r <= j - 1)%Z -> dap (6 * Z.to_nat (j - 1)) (bA (j - 1)) (Nf r) (B V k (Z.to_nat (j - 1)) (k - (j - 1) + r) x)) /\
       (forall l, (1 <= l <= j - 1)%Z -> dap 1 0 (lft l) (x - V (k + 1 - l)%Z)) /\
       (forall l, (1 <= l <= j - 1)%Z -> dap 1 0 (rgt l) (V (k + l)%Z - x))).
  - split; [|split; intros; lia]. intros r0 H0. replace r0 with 0%Z by lia. rewrite upd_same. change (1 - 1)%Z with 0%Z. change (Z.to_nat 0) with 0%nat.
    replace (k - 0 + 0)%Z with k by lia. cbn [B]. rewrite Z.eqb_refl. pose proof (bA_range 0 ltac:(lia)). pose proof tinyA_pos.
    split; [apply fin_one|]. change (dbl_of_Z 1) with (n1 Dn). rewrite dval_one. apply (ap_weak 0 0); [lia|lra|apply ap_refl; lra].
  - intros j [[Nf lft] rgt] Hj [H1 [H2 H3]].
    unfold BasisFuns_outer. dn.
    set (lft' := upd lft j (SFsub 53 1024 u (U (k + 1 - j)%Z))).
    set (rgt' := upd rgt j (SFsub 53 1024 (U (k + j)%Z) u)).
    assert (L : forall l, (1 <= l <= j)%Z -> dap 1 0 (lft' l) (x - V (k + 1 - l)%Z)).
    { intros l Hl. unfold lft'. destruct (Z.eq_dec l j) as [->|]; [rewrite upd_same; apply LF; lia|].
      rewrite upd_diff by auto. apply H2. lia. }
    assert (Rg : forall l, (1 <= l <= j)%Z -> dap 1 0 (rgt' l) (V (k + l)%Z - x)).
    { intros l Hl. unfold rgt'. destruct (Z.eq_dec l j) as [->|]; [rewrite upd_same; apply RG; lia|].
      rewrite upd_diff by auto. apply H3. lia. }
    set (q := Z.to_nat (j - 1)) in *.
    assert (Eq : Z.of_nat q = (j - 1)%Z) by (unfold q; lia).
    set (A := bA (j - 1)) in *. assert (HA : tinyA <= A <= / 8) by (apply bA_range; lia). pose proof tinyA_pos as TP.
    assert (EA : bA j = 4 * A) by (unfold A; rewrite <- bA_S; f_equal; lia).
    assert (FW : few (6 * q + 10)) by (apply few_Z; lia).
    assert (G5 : 1 <= G ^ (6 * q + 5) <= 5 / 4) by (split; [apply Gk_ge|apply few_le; apply (few_less _ (6 * q + 10)); [lia|auto]]).
    assert (G1 : 1 < G <= 5 / 4) by (rewrite G_val; lra).
    floop (fun r (s : (Z -> spec_float) * spec_float) => let '(Nf', saved) := s in
         (forall y, (0 <= y <= r - 1)%Z -> dap (6 * S q) (4 * A) (Nf' y) (B V k (S q) (k - j + y) x)) /\
         (forall y, (r <= y <= j - 1)%Z -> dap (6 * q) A (Nf' y) (B V k q (k - (j - 1) + y) x)) /\
         dap (6 * q + 5) (3 / 2 * A) saved ((x - V (k - j + r)%Z) / (V (k + r)%Z - V (k - j + r)%Z) * B V k q (k - j + r) x)).
    + split; [intros; lia|]. split; [intros; apply H1; lia|].
      rewrite B_zero by lia. rewrite Rmult_0_r. eapply dap_weak; [| |apply (dap_zero (6 * q + 5))]; [lia|lra].
    + intros r0 [N' sv] Hr0 [G1' [G2 G3]]. unfold BasisFuns_inner. dn.
      set (rr := V (k + (r0 + 1))%Z - x). set (ll := x - V (k + 1 - (j - r0))%Z).
      assert (Ir : (k + 1 <= k + (r0 + 1) <= n + p + 1)%Z) by lia. assert (Il : (0 <= k + 1 - (j - r0) <= k)%Z) by lia.
      pose proof (UPP _ Ir) as Q1. pose proof (LOW _ Il) as Q2.
      assert (SB : b2 (-500) <= rr + ll <= b2 502).
      { unfold rr, ll. split.
        - replace (V (k + (r0 + 1))%Z - x + (x - V (k + 1 - (j - r0))%Z)) with (V (k + (r0 + 1))%Z - V (k + 1 - (j - r0))%Z) by ring.
          apply SU; try lia. assert (V (k + 1)%Z <= V (k + (r0 + 1))%Z) by (apply Mo; lia). assert (V (k + 1 - (j - r0))%Z <= V k) by (apply Mo; lia). unfold V, rU in *. lra.
        - pose proof (MV (k + (r0 + 1))%Z ltac:(lia)). pose proof (MV (k + 1 - (j - r0))%Z ltac:(lia)). lra. }
      pose proof (G2 r0 ltac:(lia)) as HN. replace (k - (j - 1) + r0)%Z with (k - j + r0 + 1)%Z in HN by lia.
      set (N := B V k q (k - j + r0 + 1) x) in *.
      assert (N1 : 0 <= N <= 1) by (apply B_le1; auto; [apply SPq; lia|lia]).
      pose proof (Rg (r0 + 1)%Z ltac:(lia)) as HR. pose proof (L (j - r0)%Z ltac:(lia)) as HL. fold rr in HR. fold ll in HL.
      assert (rr0 : 0 <= rr) by (unfold rr; lra). assert (ll0 : 0 <= ll) by (unfold ll; lra).
      pose proof (step (6 * q) A _ N _ _ _ rr ll rr FW HN ltac:(lra) ltac:(lra) HR HL HR ltac:(lra) SB) as SR.
      pose proof (step (6 * q) A _ N _ _ _ rr ll ll FW HN ltac:(lra) ltac:(lra) HR HL HL ltac:(lra) SB) as SL.
      assert (EB : B V k (S q) (k - j + r0) x = (x - V (k - j + r0)%Z) / (V (k + r0)%Z - V (k - j + r0)%Z) * B V k q (k - j + r0) x + rr * (N / (rr + ll))).
      { rewrite B_S, Eq. replace (k - j + r0 + (j - 1) + 1)%Z with (k + r0)%Z by lia. replace (k - j + r0 + (j - 1) + 2)%Z with (k + (r0 + 1))%Z by lia.
        fold N. unfold rr, ll. replace (k + 1 - (j - r0))%Z with (k - j + r0 + 1)%Z by lia.
        replace (V (k + (r0 + 1))%Z - x + (x - V (k - j + r0 + 1)%Z)) with (V (k + (r0 + 1))%Z - V (k - j + r0 + 1)%Z) by ring. unfold Rdiv. ring. }
      assert (B1 : 0 <= B V k (S q) (k - j + r0) x <= 1) by (apply B_le1; auto; [apply SPq; lia|lia]).
      split; [|split].
      * intros y Hy. destruct (Z.eq_dec y r0) as [->|].
        -- rewrite upd_same. rewrite EB. eapply dap_weak; [| |apply (dap_add (6 * q + 5) (3 / 2 * A) (3 / 2 * A)); [exact G3|exact SR|]].
           ++ lia.
           ++ nra.
           ++ rewrite <- EB. assert (B V k (S q) (k - j + r0) x * G ^ (6 * q + 5) <= 1 * (5 / 4)) by (apply Rmult_le_compat; lra). lra.
        -- rewrite upd_diff by auto. apply G1'. lia.
      * intros y Hy. rewrite upd_diff by lia. apply G2. lia.
      * replace ((x - V (k - j + (r0 + 1))%Z) / (V (k + (r0 + 1))%Z - V (k - j + (r0 + 1))%Z) * B V k q (k - j + (r0 + 1)) x) with (ll * (N / (rr + ll))); [exact SL|].
        unfold ll, rr, N. replace (k + 1 - (j - r0))%Z with (k - j + (r0 + 1))%Z by lia. replace (k - j + r0 + 1)%Z with (k - j + (r0 + 1))%Z by lia.
        replace (V (k + (r0 + 1))%Z - x + (x - V (k - j + (r0 + 1))%Z)) with (V (k + (r0 + 1))%Z - V (k - j + (r0 + 1))%Z) by ring. unfold Rdiv. ring.
    + intros [Nf' saved] [K1 [K2 K3]]. replace (j - 1 + 1)%Z with j in * by lia. split; [|split].
      * intros y Hy. replace (j + 1 - 1)%Z with j in * by lia. rewrite EA.
        replace (Z.to_nat j) with (S q) by lia.
        destruct (Z.eq_dec y j) as [->|].
        -- rewrite upd_same. replace (k - j + j)%Z with k in * by lia.
           rewrite B_S, Eq. rewrite (B_zero V k q (k + 1)) by lia. rewrite Rmult_0_r, Rplus_0_r.
           replace (k + (j - 1) + 1)%Z with (k + j)%Z by lia. eapply dap_weak; [| |exact K3]; [lia|lra].
        -- rewrite upd_diff by auto. apply K1. lia.
      * intros l Hl. apply L. lia.
      * intros l Hl. apply Rg. lia.
  - intros [[Nf lft] rgt] [H _].
    specialize (H r). replace (p + 1 - 1)%Z with p in H by lia. apply H. lia.
Qed.
