(** remap, reverse and greville in doubles. *)
From Coq Require Import ZArith Reals List Bool SpecFloat Lia Lra Psatz.
From Verif Require Import Num Loop Spec SumZ ModelBspline ModelBSp ModelNurbs ModelFloat SpecNurbs SpecDouble SpecRound ProofNet ProofNurbs ProofRound ProofRound2 ProofRound3 ProofRound4 ProofRound8.
Import ListNotations.
Local Open Scope R_scope.

Lemma tame_ends (A : axis Dn) : tame_axis A -> let p := a_deg A in let n := (a_size A - 1)%Z in
  (1 <= p <= n)%Z /\ a_len A = (n + p + 2)%Z /\ a_hi A = a_knots A (n + 1)%Z /\ (n + 1 = a_size A)%Z.
Proof.
  intros ([Hl W] & _). cbv zeta. cbn [real_ax x_n x_p x_U] in Hl, W. pose proof (wf_p _ _ _ W). pose proof (wf_n _ _ _ W).
  unfold a_deg in *. split; [lia|]. split; [lia|]. split; [unfold a_hi, a_deg; f_equal; lia|lia].
Qed.
Lemma knots_id (A : axis Dn) : mkAxis (N:=Dn) (a_size A) (a_len A) (a_knots A) = A.
Proof. destruct A; reflexivity. Qed.

(** ** remap *)
Theorem remap_double (nrb : nurbs Dn) ax a (start end_ : option Dn) : py_axis (n_dim nrb) ax = Ok a ->
  let A := get_axis nrb a in let U := a_knots A in let lo := U (a_deg A) in let hi := U (a_size A) in
  let c := match start with Some c => c | None => lo end in
  let d := match end_ with Some d => d | None => hi end in
  let g := fun x => dval c + (x - dval lo) * (dval d - dval c) / (dval hi - dval lo) in
  tame_axis A -> tame c -> tame d -> dval c < dval d ->
  exists V, remap (N:=Dn) nrb ax start end_ = Ok (with_knots nrb a V) /\ dval (V (a_deg A)) = dval c /\
    (forall i, (0 <= i < a_len A)%Z -> finite (V i) /\
      Rabs (dval (V i) - g (dval (U i))) <= b2 (-50) * (Rabs (dval c) + Rabs (g (dval (U i)) - dval c)) + b2 (-700)) /\
    forall i j, (0 <= i < a_len A)%Z -> (0 <= j < a_len A)%Z -> dval (U i) <= dval (U j) -> dval (V i) <= dval (V j).
Proof.
  intros Ea A U lo hi c d g T Tc Td L. destruct (tame_ends A T) as (P & Hlen & Hhi & Hs). destruct T as (W & K & Gap).
  destruct (K (a_deg A) ltac:(lia)) as [Flo Blo]. destruct (K (a_size A) ltac:(lia)) as [Fhi Bhi]. destruct Tc as [Fc Bc]. destruct Td as [Fd Bd].
  fold U in Flo, Blo, Fhi, Bhi, Gap, K. fold lo in Flo, Blo, Gap. fold hi in Fhi, Bhi, Gap. pose proof (b2_pos (-300)) as PB.
  unfold remap. rewrite Ea. cbn [bind]. fold A. rewrite Hhi, Hs. change (a_lo A) with lo. fold U. fold hi. fold c d.
  destruct (neqb Dn lo c && neqb Dn hi d) eqn:Q.
  - apply andb_true_iff in Q. destruct Q as [Q1 Q2]. cbn in Q1, Q2. apply eqb_ok in Q1; auto. apply eqb_ok in Q2; auto.
    exists U. split; [|split; [exact Q1|]].
    + unfold with_knots. fold A. unfold U. rewrite knots_id. unfold A, get_axis. rewrite lset_nth. destruct nrb; reflexivity.
    + split; [|auto]. intros i Hi. split; [apply K; auto|]. unfold g. rewrite <- Q1, <- Q2.
      replace (dval (U i) - _) with 0 by (field; lra). rewrite Rabs_R0. pose proof (b2_pos (-50)). pose proof (b2_pos (-700)).
      match goal with |- 0 <= _ * (Rabs ?x + Rabs ?y) + _ => pose proof (Rabs_pos x); pose proof (Rabs_pos y) end.
      apply Rplus_le_le_0_compat; [apply Rmult_le_pos; lra|lra].
  - replace (nltb Dn c d) with true by (symmetry; apply ltb_ok; auto).
    exists (fun i => rmp lo hi c d (U i)). split; [reflexivity|]. split; [apply rmp_lo; auto|]. split.
    + intros i Hi. destruct (K i Hi) as [Fi Bi]. destruct (rmp_ok lo hi c d Flo Fhi Fc Fd Blo Bhi Bc Bd Gap L (U i) Fi Bi) as (F & R & _).
      split; [exact F|]. unfold g. match goal with |- _ <= _ * (_ + Rabs ?t) + _ => replace t with ((dval (U i) - dval lo) * (dval d - dval c) / (dval hi - dval lo)) by ring end. exact R.
    + intros i j Hi Hj Lij. destruct (K i Hi), (K j Hj). apply rmp_mono; auto.
Qed.

(** ** reverse *)
Theorem reverse_double (nrb : nurbs Dn) ax a : py_axis (n_dim nrb) ax = Ok a ->
  let A := get_axis nrb a in let U := a_knots A in let lo := U (a_deg A) in let hi := U (a_size A) in
  tame_axis A ->
  exists nrb' V, reverse (N:=Dn) nrb [ax] = Ok nrb' /\ n_axes nrb' = n_axes (with_knots nrb a V) /\
    (forall i, (0 <= i < a_len A)%Z -> let x := U (a_len A - 1 - i)%Z in finite (V i) /\
      Rabs (dval (V i) - (dval lo + dval hi - dval x)) <= b2 (-51) * (Rabs (dval lo) + Rabs (dval hi) + Rabs (dval x))) /\
    (dval lo = 0 -> dval (V (a_deg A)) = 0 /\ dval (V (a_size A)) = dval hi) /\
    forall i j, (0 <= i < a_len A)%Z -> (0 <= j < a_len A)%Z -> dval (U i) <= dval (U j) ->
      dval (V (a_len A - 1 - j)%Z) <= dval (V (a_len A - 1 - i)%Z).
Proof.
  intros Ea A U lo hi T. destruct (tame_ends A T) as (P & Hlen & Hhi & Hs). destruct T as (W & K & Gap).
  destruct (K (a_deg A) ltac:(lia)) as [Flo Blo]. destruct (K (a_size A) ltac:(lia)) as [Fhi Bhi].
  fold U in Flo, Blo, Fhi, Bhi, Gap, K. fold lo in Flo, Blo, Gap. fold hi in Fhi, Bhi, Gap. pose proof (b2_pos 300) as PB.
  assert (E1 : b2 301 = 2 * b2 300) by exact (b2_1 300). assert (E2 : b2 302 = 2 * b2 301) by exact (b2_1 301). assert (E3 : b2 303 = 2 * b2 302) by exact (b2_1 302).
  pose proof (tri _ _ _ _ Bhi Blo) as BS.
  destruct (add_full hi lo Fhi Flo) as (Fs & Rs & Ns). { apply Rle_lt_trans with (b2 301); [lra|apply b2_lt; lia]. }
  set (s := SFadd 53 1024 hi lo) in *. pose proof (size_of _ _ _ _ Rs BS) as Bs. pose proof (uub _ (Rabs_pos (dval hi + dval lo))) as UB.
  assert (SUB : forall x, tame x -> let r := SFsub 53 1024 s x in finite r /\ Rabs (dval r - (dval s - dval x)) <= uu * Rabs (dval s - dval x) /\ rounds (dval s - dval x) (dval r)).
  { intros x [Fx Bx] r. apply (sub_full s x Fs Fx). pose proof (tri_sub _ _ _ _ Bs Bx). apply Rle_lt_trans with (b2 303); [lra|apply b2_lt; lia]. }
  unfold reverse, reverse_axes. rewrite Ea. cbn [bind]. eexists. exists (fun i => SFsub 53 1024 s (U (a_len A - 1 - i)%Z)). split; [reflexivity|].
  unfold reverse1. fold A. cbn [n_axes]. split.
  { unfold with_knots, KntRev. fold A. rewrite Hhi, Hs. reflexivity. }
  split; [|split].
  - intros i Hi. set (x := U (a_len A - 1 - i)%Z). assert (Tx : tame x) by (apply K; lia). destruct (SUB x Tx) as (F & R & _). split; [exact F|].
    replace (b2 (-51)) with (4 * uu) by (unfold uu; change (-51)%Z with (-53 + 2)%Z; rewrite b2_dbl by lia; reflexivity).
    pose proof (Rabs_triang (dval hi) (dval lo)) as T1.
    pose proof (size_of _ _ _ _ Rs T1) as T2. pose proof (tri_sub _ _ _ _ T2 (Rle_refl (Rabs (dval x)))) as T3.
    pose proof (tri _ _ _ _ R Rs) as T4.
    match goal with |- Rabs ?z <= _ => replace z with (dval (SFsub 53 1024 s x) - (dval s - dval x) + (dval s - (dval hi + dval lo))) by ring end.
    pose proof (Rabs_pos (dval x)). pose proof (Rabs_pos (dval hi)). pose proof (Rabs_pos (dval lo)). rewrite uu_val in *. lra.
  - intros Z0. rewrite Z0, Rplus_0_r in Ns. pose proof (rounds_exact _ _ hi Fhi eq_refl Ns) as SE.
    replace (a_len A - 1 - a_deg A)%Z with (a_size A) by lia. replace (a_len A - 1 - a_size A)%Z with (a_deg A) by lia. fold hi lo.
    destruct (SUB hi (conj Fhi Bhi)) as (_ & _ & N1). destruct (SUB lo (conj Flo Blo)) as (_ & _ & N2). rewrite SE in N1, N2. split.
    + apply (rounds_exact _ _ (S754_zero false)) in N1; [rewrite N1; ring|split; [reflexivity|exact I]|cbn; ring].
    + rewrite Z0, Rminus_0_r in N2. exact (rounds_exact _ _ hi Fhi eq_refl N2).
  - intros i j Hi Hj L. replace (a_len A - 1 - (a_len A - 1 - j))%Z with j by ring. replace (a_len A - 1 - (a_len A - 1 - i))%Z with i by ring.
    destruct (SUB (U i) (K i Hi)) as (_ & _ & N1). destruct (SUB (U j) (K j Hj)) as (_ & _ & N2). apply (rounds_mono _ _ _ _ N2 N1). lra.
Qed.

(** ** greville *)
Lemma gsum_ok (U : Z -> Dn) lo m : 0 <= m <= b2 300 -> forall k : nat, (k <= 1000)%nat ->
  (forall i, (lo <= i < lo + Z.of_nat k)%Z -> finite (U i) /\ Rabs (dval (U i)) <= m) ->
  let s := Greville_sum (N:=Dn) U lo (lo + Z.of_nat k - 1) in
  finite s /\ Rabs (dval s - sumZ lo (lo + Z.of_nat k - 1) (fun j => dval (U j))) <= uu * (INR k * INR k) * m /\
  Rabs (sumZ lo (lo + Z.of_nat k - 1) (fun j => dval (U j))) <= INR k * m.
Proof.
  intros Hm. induction k as [|k IH]; intros Hk HU.
  - unfold Greville_sum. rewrite for_up_empty, sumZ_empty by lia. cbn -[uu]. rewrite Rminus_0_r, Rabs_R0. split; [split; [reflexivity|exact I]|]. lra.
  - destruct IH as (F & E & S); [lia|intros; apply HU; lia|]. replace (lo + Z.of_nat (Datatypes.S k) - 1)%Z with (lo + Z.of_nat k)%Z by lia.
    unfold Greville_sum. rewrite for_up_snoc, sumZ_last by lia. fold (Greville_sum (N:=Dn) U lo (lo + Z.of_nat k - 1)).
    set (s := Greville_sum (N:=Dn) U lo (lo + Z.of_nat k - 1)) in *. set (Q := sumZ lo (lo + Z.of_nat k - 1) _) in *.
    destruct (HU (lo + Z.of_nat k)%Z ltac:(lia)) as [Fx Bx]. set (x := U (lo + Z.of_nat k)%Z) in *.
    pose proof (pos_INR k) as P. assert (K1 : INR k <= 1000) by (replace 1000 with (INR 1000) by (rewrite INR_IZR_INZ; reflexivity); apply le_INR; lia).
    rewrite S_INR. pose proof uu_pos as UP.
    assert (KK : uu * (INR k * INR k) * m <= INR k * m / 8).
    { replace (INR k * m / 8) with (/ 8 * INR k * m) by field. apply Rmult_le_compat_r; [lra|]. replace (uu * (INR k * INR k)) with (uu * INR k * INR k) by ring. apply Rmult_le_compat_r; [lra|]. rewrite uu_val. lra. }
    assert (KM : 0 <= INR k * m) by (apply Rmult_le_pos; lra). assert (KM' : INR k * m <= 1000 * m) by (apply Rmult_le_compat_r; lra).
    pose proof (size_of _ _ _ _ E S) as Ss. pose proof (tri _ _ _ _ Ss Bx) as B.
    destruct (add_full s x F Fx) as (F2 & E2 & _).
    { apply Rle_lt_trans with (2048 * b2 300); [lra|]. replace 2048 with (b2 11) by (unfold b2; simpl; lra). rewrite <- b2_add. apply b2_lt. lia. }
    change (Dn.(nadd) s x) with (SFadd 53 1024 s x). split; [exact F2|]. split.
    + replace (dval (SFadd 53 1024 s x) - (Q + dval x)) with ((dval (SFadd 53 1024 s x) - (dval s + dval x)) + (dval s - Q)) by ring.
      pose proof (tri _ _ _ _ E2 E) as T. apply Rle_trans with (1 := T).
      apply Rle_trans with (uu * (INR k * m + INR k * m / 8 + m) + uu * (INR k * INR k) * m).
      * apply Rplus_le_compat_r, Rmult_le_compat_l; lra.
      * replace (uu * ((INR k + 1) * (INR k + 1)) * m) with (uu * (2 * (INR k * m) + m) + uu * (INR k * INR k) * m) by ring. apply Rplus_le_compat_r, Rmult_le_compat_l; lra.
    + pose proof (tri _ _ _ _ S Bx). lra.
Qed.
Lemma gsum_mono (U : Z -> Dn) lo lo' m : 0 <= m <= b2 300 -> forall k : nat, (k <= 1000)%nat ->
  (forall i, (0 <= i < Z.of_nat k)%Z -> finite (U (lo + i)%Z) /\ Rabs (dval (U (lo + i)%Z)) <= m /\ finite (U (lo' + i)%Z) /\ Rabs (dval (U (lo' + i)%Z)) <= m /\ dval (U (lo + i)%Z) <= dval (U (lo' + i)%Z)) ->
  dval (Greville_sum (N:=Dn) U lo (lo + Z.of_nat k - 1)) <= dval (Greville_sum (N:=Dn) U lo' (lo' + Z.of_nat k - 1)).
Proof.
  intros Hm. induction k as [|k IH]; intros Hk HU.
  - unfold Greville_sum. rewrite !for_up_empty by lia. apply Rle_refl.
  - assert (A1 : forall i, (lo <= i < lo + Z.of_nat (Datatypes.S k))%Z -> finite (U i) /\ Rabs (dval (U i)) <= m) by (intros i Hi; replace i with (lo + (i - lo))%Z by ring; split; apply HU; lia).
    assert (A2 : forall i, (lo' <= i < lo' + Z.of_nat (Datatypes.S k))%Z -> finite (U i) /\ Rabs (dval (U i)) <= m) by (intros i Hi; replace i with (lo' + (i - lo'))%Z by ring; split; apply HU; lia).
    assert (OK : forall l, (forall i, (l <= i < l + Z.of_nat (Datatypes.S k))%Z -> finite (U i) /\ Rabs (dval (U i)) <= m) ->
      rounds (dval (Greville_sum (N:=Dn) U l (l + Z.of_nat k - 1)) + dval (U (l + Z.of_nat k)%Z)) (dval (Greville_sum (N:=Dn) U l (l + Z.of_nat (Datatypes.S k) - 1)))).
    { intros l Hl. destruct (gsum_ok U l m Hm k ltac:(lia)) as (F & E & S); [intros; apply Hl; lia|]. destruct (Hl (l + Z.of_nat k)%Z ltac:(lia)) as [Fx Bx].
      replace (l + Z.of_nat (Datatypes.S k) - 1)%Z with (l + Z.of_nat k)%Z by lia. unfold Greville_sum at 2. rewrite for_up_snoc by lia. fold (Greville_sum (N:=Dn) U l (l + Z.of_nat k - 1)).
      pose proof (pos_INR k) as P. assert (K1 : INR k <= 1000) by (replace 1000 with (INR 1000) by (rewrite INR_IZR_INZ; reflexivity); apply le_INR; lia). pose proof uu_pos.
      assert (KK : uu * (INR k * INR k) * m <= INR k * m / 8).
      { replace (INR k * m / 8) with (/ 8 * INR k * m) by field. apply Rmult_le_compat_r; [lra|]. replace (uu * (INR k * INR k)) with (uu * INR k * INR k) by ring. apply Rmult_le_compat_r; [lra|]. rewrite uu_val. lra. }
      assert (KM' : INR k * m <= 1000 * m) by (apply Rmult_le_compat_r; lra).
      pose proof (size_of _ _ _ _ E S) as Ss. pose proof (tri _ _ _ _ Ss Bx) as B.
      apply (add_full _ _ F Fx). apply Rle_lt_trans with (2048 * b2 300); [lra|]. replace 2048 with (b2 11) by (unfold b2; simpl; lra). rewrite <- b2_add. apply b2_lt. lia. }
    apply (rounds_mono _ _ _ _ (OK lo A1) (OK lo' A2)). apply Rplus_le_compat; [apply IH; [lia|intros; apply HU; lia]|apply HU; lia].
Qed.

Lemma INR_Z k : (0 <= k)%Z -> INR (Z.to_nat k) = IZR k.
Proof. intros H. rewrite INR_IZR_INZ, Z2Nat.id by exact H. reflexivity. Qed.
Theorem greville_double junk (nrb : nurbs Dn) ax a m : py_axis (n_dim nrb) ax = Ok a ->
  let A := get_axis nrb a in let U := a_knots A in let p := a_deg A in
  tame_axis A -> (p <= 1000)%Z -> (forall i, (0 <= i < a_len A)%Z -> Rabs (dval (U i)) <= m) -> m <= b2 300 ->
  exists X, greville (N:=Dn) junk nrb ax = Ok X /\ v_len X = a_size A /\
    (forall i, (0 <= i < a_size A)%Z -> finite (v_get X i) /\
      Rabs (dval (v_get X i) - sumZ (i + 1) (i + p) (fun j => dval (U j)) / IZR p) <= IZR (p + 2) * b2 (-52) * m + b2 (-1075)) /\
    forall i j, (0 <= i <= j)%Z -> (j < a_size A)%Z -> dval (v_get X i) <= dval (v_get X j).
Proof.
  intros Ea A U p T Hp HM Hm. destruct (tame_ends A T) as (P & Hlen & Hhi & Hs). destruct T as ([_ W] & K & _). cbn [real_ax x_n x_p x_U] in W.
  fold U in K, W. fold p in P, Hlen, W. assert (M0 : 0 <= m) by (pose proof (HM 0%Z ltac:(lia)); pose proof (Rabs_pos (dval (U 0%Z))); lra).
  (* the degree as a double *)
  assert (PZ : 1 <= IZR p <= 1000) by (split; apply IZR_le; lia).
  destruct (normalize_ok p 0 false) as (Fp & Ep & _); [lia|rewrite b2_0, Rmult_1_r, Rabs_right by lra; apply Rle_lt_trans with (b2 10); [unfold b2; simpl; lra|apply b2_lt; lia]|].
  fold (dbl_of_Z p) in Fp, Ep. rewrite b2_0, Rmult_1_r in Ep. set (q := dbl_of_Z p) in *. rewrite (Rabs_right (IZR p)) in Ep by lra.
  pose proof (abs_le _ _ Ep) as Ep'. assert (Q1 : 7 / 8 * IZR p <= dval q) by (rewrite uu_val in Ep'; lra).
  assert (GS : forall i, (0 <= i < a_size A)%Z -> let s := Greville_sum (N:=Dn) U (i + 1) (i + p) in
    finite s /\ Rabs (dval s - sumZ (i + 1) (i + p) (fun j => dval (U j))) <= uu * (IZR p * IZR p) * m /\
    Rabs (sumZ (i + 1) (i + p) (fun j => dval (U j))) <= IZR p * m).
  { intros i Hi. pose proof (gsum_ok U (i + 1) m (conj M0 Hm) (Z.to_nat p) ltac:(lia)) as H. rewrite INR_Z in H by lia. rewrite Z2Nat.id in H by lia.
    replace (i + 1 + p - 1)%Z with (i + p)%Z in H by ring. apply H. intros j Hj. split; [apply K; lia|apply HM; lia]. }
  assert (GD : forall i, (0 <= i < a_size A)%Z -> let s := Greville_sum (N:=Dn) U (i + 1) (i + p) in let r := SFdiv 53 1024 s q in
    finite r /\ Rabs (dval r - dval s / dval q) <= uu * Rabs (dval s / dval q) + eta /\ rounds (dval s / dval q) (dval r) /\
    Rabs (dval s / dval q - sumZ (i + 1) (i + p) (fun j => dval (U j)) / IZR p) <= 8 / 7 * uu * (IZR p + 1) * m).
  { intros i Hi s r. destruct (GS i Hi) as (F & E & B). fold s in F, E. set (Sm := sumZ (i + 1) (i + p) _) in *. pose proof uu_pos as UP.
    assert (PM : 0 <= IZR p * m) by (apply Rmult_le_pos; lra).
    assert (D : Rabs (dval s / dval q - Sm / IZR p) <= 8 / 7 * uu * (IZR p + 1) * m).
    { replace (dval s / dval q - Sm / IZR p) with (((dval s - Sm) * IZR p + Sm * (IZR p - dval q)) / (dval q * IZR p)) by (field; lra).
      assert (DP : 0 < dval q * IZR p) by (apply Rmult_lt_0_compat; lra).
      unfold Rdiv at 1. rewrite Rabs_mult, (Rabs_right (/ _)) by (apply Rle_ge; left; apply Rinv_0_lt_compat; exact DP).
      apply (Rmult_le_reg_r (dval q * IZR p)); [exact DP|]. rewrite Rmult_assoc, Rinv_l, Rmult_1_r by lra.
      apply Rle_trans with (uu * (IZR p * IZR p) * m * IZR p + IZR p * m * (uu * IZR p)).
      - apply tri; rewrite Rabs_mult.
        + rewrite (Rabs_right (IZR p)) by lra. apply Rmult_le_compat_r; lra.
        + apply Rmult_le_compat; auto using Rabs_pos. rewrite Rabs_minus_sym. exact Ep.
      - replace (uu * (IZR p * IZR p) * m * IZR p + IZR p * m * (uu * IZR p)) with (8 / 7 * uu * (IZR p + 1) * m * (7 / 8 * IZR p * IZR p)) by field.
        apply Rmult_le_compat_l; [|apply Rmult_le_compat_r; lra]. apply Rmult_le_pos; [|exact M0]. apply Rmult_le_pos; lra. }
    assert (SP : Rabs (Sm / IZR p) <= m).
    { unfold Rdiv. rewrite Rabs_mult, (Rabs_right (/ _)) by (apply Rle_ge; left; apply Rinv_0_lt_compat; lra). apply (Rmult_le_reg_r (IZR p)); [lra|]. rewrite Rmult_assoc, Rinv_l by lra. lra. }
    assert (UM : 8 / 7 * uu * (IZR p + 1) * m <= m).
    { rewrite <- (Rmult_1_l m) at 2. apply Rmult_le_compat_r; [exact M0|]. rewrite uu_val. lra. }
    pose proof (size_of _ _ _ _ D SP) as SZ.
    destruct (div_full s q F Fp) as (F2 & E2 & _ & N2); [lra| |auto].
    apply Rle_lt_trans with (2 * b2 300); [lra|]. rewrite <- b2_1. apply b2_lt. lia. }
  unfold greville, py_Greville. rewrite Ea. cbn [bind v_len v_get]. fold A. fold p U.
  replace (1 <=? p)%Z with true by (symmetry; apply Z.leb_le; lia). replace (2 * p + 1 <=? a_len A - 1)%Z with true by (symmetry; apply Z.leb_le; lia).
  assert (GV : forall i, (0 <= i < a_size A)%Z -> bsp_Greville (N:=Dn) p (a_len A - 1) U junk i = SFdiv 53 1024 (Greville_sum (N:=Dn) U (i + 1) (i + p)) q).
  { intros i Hi. unfold bsp_Greville.
    pose proof (for_up_ind (fun j (X : Z -> Dn) => forall i, (0 <= i < j)%Z -> X i = SFdiv 53 1024 (Greville_sum (N:=Dn) U (i + 1) (i + p)) q) 0 (a_len A - 1 - (p + 1))
      (fun i X => upd X i (ndiv Dn (Greville_sum (N:=Dn) U (i + 1) (i + p)) (nofZ Dn p))) junk) as L. apply L; try lia.
    intros j X Hj IH i' Hi'. destruct (Z.eq_dec i' j) as [->|]; [rewrite upd_same; reflexivity|rewrite upd_diff by auto; apply IH; lia]. }
  eexists. split; [reflexivity|]. cbn [v_len v_get]. split; [lia|]. split.
  - intros i Hi. rewrite GV by auto. destruct (GD i Hi) as (F & R & _ & D). split; [exact F|]. destruct (GS i Hi) as (_ & _ & B).
    set (s := Greville_sum (N:=Dn) U (i + 1) (i + p)) in *. set (r := SFdiv 53 1024 s q) in *. set (Sm := sumZ (i + 1) (i + p) _) in *.
    assert (SP : Rabs (Sm / IZR p) <= m).
    { unfold Rdiv. rewrite Rabs_mult, (Rabs_right (/ _)) by (apply Rle_ge; left; apply Rinv_0_lt_compat; lra). apply (Rmult_le_reg_r (IZR p)); [lra|]. rewrite Rmult_assoc, Rinv_l by lra. lra. }
    pose proof (size_of _ _ _ _ D SP) as SZ. pose proof (tri _ _ _ _ R D) as T.
    replace (dval r - Sm / IZR p) with (dval r - dval s / dval q + (dval s / dval q - Sm / IZR p)) by ring.
    apply Rle_trans with (1 := T). rewrite plus_IZR. change (b2 (-1075)) with eta.
    replace (b2 (-52)) with (2 * uu) by (unfold uu; change (-52)%Z with (-53 + 1)%Z; rewrite b2_1; reflexivity).
    assert (PM : 0 <= IZR p * m) by (apply Rmult_le_pos; lra).
    replace (8 / 7 * uu * (IZR p + 1) * m) with (8 / 7 * uu * (IZR p * m) + 8 / 7 * uu * m) in * by field.
    replace ((IZR p + 2) * (2 * uu) * m) with (2 * uu * (IZR p * m) + 4 * uu * m) by ring. rewrite uu_val in *. lra.
  - intros i j Hi Hj. rewrite !GV by lia. destruct (GD i ltac:(lia)) as (_ & _ & N1 & _). destruct (GD j ltac:(lia)) as (_ & _ & N2 & _).
    apply (rounds_mono _ _ _ _ N1 N2). apply Rmult_le_compat_r; [left; apply Rinv_0_lt_compat; lra|].
    pose proof (gsum_mono U (i + 1) (j + 1) m (conj M0 Hm) (Z.to_nat p) ltac:(lia)) as G. rewrite Z2Nat.id in G by lia.
    replace (i + 1 + p - 1)%Z with (i + p)%Z in G by ring. replace (j + 1 + p - 1)%Z with (j + p)%Z in G by ring. apply G.
    intros k Hk. split; [apply K; lia|]. split; [apply HM; lia|]. split; [apply K; lia|]. split; [apply HM; lia|].
    apply (wf_mono _ _ _ W); lia.
Qed.

(** ** The parts used in the property files *)
Section Parts.
Variables (nrb : nurbs Dn) (ax : Z) (a : nat).
Hypothesis Ea : py_axis (n_dim nrb) ax = Ok a.
Let A := get_axis nrb a.
Let U := a_knots A.
Let lo := U (a_deg A).
Let hi := U (a_size A).
Hypothesis TA : tame_axis A.
Lemma remap_close start end_ : let c := match start with Some c => c | None => lo end in
  let d := match end_ with Some d => d | None => hi end in
  let g := fun x => dval c + (x - dval lo) * (dval d - dval c) / (dval hi - dval lo) in
  tame c -> tame d -> dval c < dval d ->
  exists V, remap (N:=Dn) nrb ax start end_ = Ok (with_knots nrb a V) /\ dval (V (a_deg A)) = dval c /\
    forall i, (0 <= i < a_len A)%Z -> finite (V i) /\
      Rabs (dval (V i) - g (dval (U i))) <= b2 (-50) * (Rabs (dval c) + Rabs (g (dval (U i)) - dval c)) + b2 (-700).
Proof. intros c d g Tc Td L. destruct (remap_double nrb ax a start end_ Ea TA Tc Td L) as (V & E & S & H & _). eauto. Qed.
Lemma remap_order start end_ : let c := match start with Some c => c | None => lo end in
  let d := match end_ with Some d => d | None => hi end in tame c -> tame d -> dval c < dval d ->
  exists V, remap (N:=Dn) nrb ax start end_ = Ok (with_knots nrb a V) /\
    forall i j, (0 <= i < a_len A)%Z -> (0 <= j < a_len A)%Z -> dval (U i) <= dval (U j) -> finite (V i) /\ finite (V j) /\ dval (V i) <= dval (V j).
Proof.
  intros c d Tc Td L. destruct (remap_double nrb ax a start end_ Ea TA Tc Td L) as (V & E & S & H & O). exists V. split; [exact E|].
  intros i j Hi Hj HU. split; [apply H; auto|]. split; [apply H; auto|auto].
Qed.
Lemma reverse_close : exists nrb' V, reverse (N:=Dn) nrb [ax] = Ok nrb' /\ n_axes nrb' = n_axes (with_knots nrb a V) /\
    (forall i, (0 <= i < a_len A)%Z -> let x := U (a_len A - 1 - i)%Z in finite (V i) /\
      Rabs (dval (V i) - (dval lo + dval hi - dval x)) <= b2 (-51) * (Rabs (dval lo) + Rabs (dval hi) + Rabs (dval x))) /\
    (dval lo = 0 -> dval (V (a_deg A)) = 0 /\ dval (V (a_size A)) = dval hi).
Proof. destruct (reverse_double nrb ax a Ea TA) as (nrb' & V & E & X & H & Z0 & _). exists nrb', V. auto. Qed.
Lemma reverse_order : exists nrb' V, reverse (N:=Dn) nrb [ax] = Ok nrb' /\ n_axes nrb' = n_axes (with_knots nrb a V) /\
    forall i j, (0 <= i <= j)%Z -> (j < a_len A)%Z -> finite (V i) /\ finite (V j) /\ dval (V i) <= dval (V j).
Proof.
  destruct (reverse_double nrb ax a Ea TA) as (nrb' & V & E & X & H & _ & O). exists nrb', V. split; [exact E|]. split; [exact X|].
  intros i j Hi Hj. split; [apply H; fold A; lia|]. split; [apply H; fold A; lia|].
  assert (L : dval (U (a_len A - 1 - j)%Z) <= dval (U (a_len A - 1 - i)%Z)).
  { destruct (tame_ends A TA) as (P & Hlen & _). destruct TA as ([_ W] & _). apply (wf_mono _ _ _ W); cbn [real_ax x_n x_p x_U]; lia. }
  pose proof (O (a_len A - 1 - j)%Z (a_len A - 1 - i)%Z) as K. cbv zeta in K. fold A in K. fold U in K.
  replace (a_len A - 1 - (a_len A - 1 - j))%Z with j in K by ring. replace (a_len A - 1 - (a_len A - 1 - i))%Z with i in K by ring. apply K; auto; lia.
Qed.
Lemma greville_close junk m : (a_deg A <= 1000)%Z -> (forall i, (0 <= i < a_len A)%Z -> Rabs (dval (U i)) <= m) -> m <= b2 300 ->
  let p := a_deg A in
  exists X, greville (N:=Dn) junk nrb ax = Ok X /\ v_len X = a_size A /\
    forall i, (0 <= i < a_size A)%Z -> finite (v_get X i) /\
      Rabs (dval (v_get X i) - sumZ (i + 1) (i + p) (fun j => dval (U j)) / IZR p) <= IZR (p + 2) * b2 (-52) * m + b2 (-1075).
Proof. intros Hp HM Hm p. destruct (greville_double junk nrb ax a m Ea TA Hp HM Hm) as (X & E & L & H & _). eauto. Qed.
Lemma greville_order junk : (a_deg A <= 1000)%Z -> 
  exists X, greville (N:=Dn) junk nrb ax = Ok X /\ v_len X = a_size A /\
    forall i j, (0 <= i <= j)%Z -> (j < a_size A)%Z -> finite (v_get X i) /\ finite (v_get X j) /\ dval (v_get X i) <= dval (v_get X j).
Proof.
  intros Hp. destruct (greville_double junk nrb ax a (b2 300) Ea TA Hp) as (X & E & L & H & O); [intros i Hi; apply TA; exact Hi|apply Rle_refl|].
  exists X. split; [exact E|]. split; [exact L|]. intros i j Hi Hj. split; [apply H; fold A; lia|]. split; [apply H; fold A; lia|auto].
Qed.
End Parts.
