(** Basis functions in doubles. *)
From Coq Require Import ZArith Reals List Bool SpecFloat Lia Lra Psatz.
From Verif Require Import Num Loop Spec SumZ BPiece BLink ModelBspline ModelBSp ModelNurbs ModelFloat SpecNurbs SpecDouble SpecRound ProofSpan
  ProofRound ProofRound2 ProofRound3 ProofRound4 ProofRound5 ProofRound8 ProofRound12.
Import ListNotations.
Local Open Scope R_scope.

Lemma sumZ_close lo hi f g h : (forall j, (lo <= j <= hi)%Z -> Rabs (f j - g j) <= h j) -> Rabs (sumZ lo hi f - sumZ lo hi g) <= sumZ lo hi h.
Proof.
  intros H. rewrite <- sumZ_minus. apply Rabs_le. split.
  - replace (- sumZ lo hi h) with (sumZ lo hi (fun j => -1 * h j)) by (rewrite sumZ_scal; ring). apply sumZ_le. intros j Hj. specialize (H j Hj). apply abs_le in H. lra.
  - apply sumZ_le. intros j Hj. specialize (H j Hj). apply abs_le in H. lra.
Qed.
Lemma sumZ_const c : forall n, (0 <= n)%Z -> sumZ 0 n (fun _ => c) = IZR (n + 1) * c.
Proof.
  intros n Hn. pattern n. apply natlike_ind; [rewrite sumZ_single; simpl; ring| |exact Hn].
  intros x Hx IH. rewrite sumZ_last by lia. replace (Z.succ x - 1)%Z with x by lia. rewrite IH. unfold Z.succ. rewrite !plus_IZR. ring.
Qed.

Theorem basis_values n p (U : Z -> Dn) (u : Dn) (junk : Z -> Dn) : let rU := (fun i => dval (U i)) in
  mild_axis (mkAxis (N:=Dn) (n + 1) (n + p + 2) U) -> finite u -> in_domain n p rU (dval u) ->
  exists k Nf, bsp_FindSpan (N:=Dn) p (n + p + 1) U u = Some k /\ bsp_EvalBasisFuns (N:=Dn) p (n + p + 1) U u (-1) junk = Some Nf /\
    (p <= k <= n)%Z /\ rU k < rU (k + 1)%Z /\ rU k <= dval u <= rU (k + 1)%Z /\
    (forall r, (0 <= r <= p)%Z -> finite (Nf r) /\ 0 <= dval (Nf r) /\
       Rabs (dval (Nf r) - Nb n p rU (k - p + r) (dval u)) <= IZR p * b2 (-48) * Nb n p rU (k - p + r) (dval u) + b2 (-369)) /\
    Rabs (sumZ 0 p (fun r => dval (Nf r)) - 1) <= IZR p * b2 (-48) + b2 (-362).
Proof.
  intros rU (Wa & P100 & FK & FS) Fu D. assert (Ed : a_deg (mkAxis (N:=Dn) (n + 1) (n + p + 2) U) = p) by (unfold a_deg; cbn [a_size a_len]; lia).
  destruct Wa as [Hp W]. unfold real_ax in Hp, W. cbn [x_p x_n x_U a_size a_knots a_len] in *. rewrite Ed in *. replace (n + 1 - 1)%Z with n in W by lia. change (fun i : Z => dval (U i)) with rU in W.
  assert (MK : mild_knots n p U).
  { split; [|split]; [intros i Hi; apply FK; lia|intros i Hi; apply FK; lia|intros i j Hi Hj; apply FS; lia]. }
  pose proof (wf_n _ _ _ W) as Hn. pose proof (span_active n p U u (proj1 MK) Fu W D) as A.
  destruct (FindSpan_generic Dn Dn_order n p u U Hn) as [k [E _]].
  assert (Ek : FindSpan (N:=Dn) n p u U = k) by (unfold FindSpan; rewrite E; reflexivity). rewrite Ek in A.
  exists k, (BasisFuns (N:=Dn) k u p U junk). unfold bsp_FindSpan, bsp_EvalBasisFuns.
  destruct (Z.leb_spec 1 p); [|lia]. destruct (Z.leb_spec (2 * p + 1) (n + p + 1)); [|lia]. cbn [andb]. change (0 <=? -1)%Z with false. cbv iota zeta.
  replace (n + p + 1 - (p + 1))%Z with n by lia. rewrite Ek. split; [exact E|]. split; [reflexivity|].
  assert (Hk : (p <= k <= n)%Z) by (destruct A; lia).
  split; [exact Hk|]. split; [apply (active_lt n p rU (dval u) k W A)|]. split; [apply (active_in n p rU (dval u) k W A)|].
  assert (G6 : G ^ (6 * Z.to_nat p) - 1 <= IZR p * b2 (-48)).
  { assert (I : INR (6 * Z.to_nat p) = 6 * IZR p) by (rewrite INR_IZR_INZ, Nat2Z.inj_mul, Z2Nat.id, mult_IZR by lia; reflexivity).
    assert (IZR p <= 100) by (apply (IZR_le p 100); lia). assert (1 <= IZR p) by (apply (IZR_le 1 p); lia).
    pose proof (Gk_lin (6 * Z.to_nat p)) as L. rewrite I in L. rewrite uu_val in L. specialize (L ltac:(lra)). replace (b2 (-48)) with (32 * uu) by (rewrite uu_val; unfold b2; simpl; lra). rewrite uu_val. lra. }
  assert (A9 : bA p <= b2 (-369)) by (unfold bA; apply b2_le; lia).
  assert (V : forall r, (0 <= r <= p)%Z -> finite (BasisFuns (N:=Dn) k u p U junk r) /\ 0 <= dval (BasisFuns (N:=Dn) k u p U junk r) /\ 0 <= Nb n p rU (k - p + r) (dval u) /\
       Rabs (dval (BasisFuns (N:=Dn) k u p U junk r) - Nb n p rU (k - p + r) (dval u)) <= IZR p * b2 (-48) * Nb n p rU (k - p + r) (dval u) + b2 (-369)).
  { intros r Hr. destruct (basis_double n p U u k junk MK Fu W P100 A r Hr) as [F Q]. change (ProofRound4.rU U) with rU in Q.
    rewrite <- (Nb_piece n p rU (dval u) k) in Q by (auto; lia). split; [exact F|]. split; [apply Q|]. split; [apply Q|].
    apply Rle_trans with (1 := ap_abs _ _ _ _ Q). destruct Q as (Q0 & _). assert ((G ^ (6 * Z.to_nat p) - 1) * Nb n p rU (k - p + r) (dval u) <= IZR p * b2 (-48) * Nb n p rU (k - p + r) (dval u)) by (apply Rmult_le_compat_r; auto). lra. }
  split; [intros r Hr; destruct (V r Hr) as (V1 & V2 & V3 & V4); auto|].
  assert (One : sumZ 0 p (fun r => Nb n p rU (k - p + r) (dval u)) = 1).
  { rewrite (sumZ_ext 0 p _ (fun r => B rU k (Z.to_nat p) (r + (k - p)) (dval u))).
    - rewrite <- (sumZ_shift 0 p (k - p) (fun i => B rU k (Z.to_nat p) i (dval u))).
      replace (0 + (k - p))%Z with (k - Z.of_nat (Z.to_nat p))%Z by lia. replace (p + (k - p))%Z with k by lia.
      apply B_sum_one. eapply wf_span_ok; eauto. eapply active_lt; eauto.
    - intros j Hj. rewrite (Nb_piece n p rU (dval u) k) by (auto; lia). f_equal. lia. }
  rewrite <- One. eapply Rle_trans; [apply sumZ_close; intros j Hj; apply (proj2 (proj2 (proj2 (V j Hj))))|].
  rewrite sumZ_plus, sumZ_scal, One, sumZ_const by lia.
  assert (IZR (p + 1) * b2 (-369) <= b2 (-362)); [|lra]. apply Rle_trans with (b2 7 * b2 (-369)); [apply Rmult_le_compat_r; [left; apply b2_pos|]|rewrite <- b2_add; apply b2_le; lia].
  replace (b2 7) with 128 by (unfold b2; simpl; lra). apply (IZR_le _ 128). lia.
Qed.
