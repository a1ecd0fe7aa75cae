(** Knot insertion in doubles: spans, multiplicities, knots; the method insert. *)
From Coq Require Import ZArith Reals List Bool SpecFloat Lia Lra Psatz FunctionalExtensionality.
From Verif Require Import Num Loop Spec SumZ BPiece BInsert ModelBspline ModelBSp ModelNurbs ModelFloat SpecNurbs SpecDouble SpecRound ProofInsert ProofSpan ProofNet ProofNurbs
  ProofCall ProofGeom2 ProofMethods ProofRound ProofRound2 ProofRound3 ProofRound4 ProofRound7 ProofRound8 ProofRound12 ProofPoint BLink.
Import ListNotations.
Local Open Scope R_scope.

Lemma fin_zero : finite (n0 Dn) /\ dval (n0 Dn) = 0.
Proof. split; [split; [reflexivity|exact I]|reflexivity]. Qed.
Lemma eps_val : finite (neps Dn) /\ dval (neps Dn) = / 4503599627370496.
Proof.
  split; [split; [vm_compute; reflexivity|exact I]|].
  replace (neps Dn) with (S754_finite false 4503599627370496 (-104)) by (vm_compute; reflexivity). unfold dval.
  replace (IZR (Z.pos 4503599627370496)) with (b2 52) by (rewrite b2_IZR by lia; reflexivity). rewrite Rmult_assoc, <- b2_add. unfold b2. simpl. lra.
Qed.
Lemma tiny_ok (u x : Dn) : finite u -> finite x -> Rabs (dval u) <= b2 501 -> Rabs (dval x) <= b2 501 ->
  dval x = dval u \/ / 4503599627370496 <= Rabs (dval x - dval u) ->
  nltb Dn (nabs Dn (nsub Dn u x)) (neps Dn) = Rltb (Rabs (dval u - dval x)) (/ 4503599627370496).
Proof.
  intros Fu Fx Bu Bx S. destruct eps_val as [Fe Ve]. destruct fin_zero as [F0 V0].
  assert (B3 : b2 501 + b2 501 < b2 1023).
  { replace (b2 501 + b2 501) with (b2 502) by (replace 502%Z with (501 + 1)%Z by lia; rewrite b2_1; ring).
    apply Rlt_le_trans with (b2 503); [replace 503%Z with (502 + 1)%Z by lia; rewrite b2_1; pose proof (b2_pos 502); lra|apply b2_le; lia]. }
  destruct (sub_full u x Fu Fx) as (Fd & Ed & Rd); [apply Rle_lt_trans with (2 := B3); unfold Rminus; apply sum_le; auto; rewrite Rabs_Ropp; auto|].
  change (SFsub 53 1024 u x) with (nsub Dn u x) in *. set (d := nsub Dn u x) in *.
  assert (Bd : Rabs (dval d) < b2 1023).
  { apply Rle_lt_trans with (2 * (b2 501 + b2 501)).
    - replace (dval d) with ((dval u - dval x) + (dval d - (dval u - dval x))) by ring.
      assert (Q : Rabs (dval u - dval x) <= b2 501 + b2 501) by (unfold Rminus; apply sum_le; auto; rewrite Rabs_Ropp; auto).
      apply Rle_trans with ((b2 501 + b2 501) + 1 * (b2 501 + b2 501)); [|lra]. apply sum_le; auto. apply Rle_trans with (1 := Ed). apply Rmult_le_compat; auto using Rabs_pos; pose proof uu_pos; [lra|rewrite uu_val; lra].
    - replace (2 * (b2 501 + b2 501)) with (b2 503) by (replace 503%Z with (501 + 1 + 1)%Z by lia; rewrite !b2_1; ring).
      apply Rlt_le_trans with (b2 504); [replace 504%Z with (503 + 1)%Z by lia; rewrite b2_1; pose proof (b2_pos 503); lra|apply b2_le; lia]. }
  unfold nabs. destruct S as [S|S].
  - assert (Z : dval d = 0).
    { replace (dval u - dval x) with 0 in Ed by lra. rewrite Rabs_R0, Rmult_0_r in Ed. pose proof (Rabs_pos (dval d - 0)). assert (Q : Rabs (dval d - 0) = 0) by lra.
      apply Rminus_diag_uniq. destruct (Req_dec (dval d - 0) 0) as [E|E]; [exact E|]. apply Rabs_no_R0 in E. contradiction. }
    replace (dval u - dval x) with 0 by lra. rewrite Rabs_R0.
    assert (nltb Dn d (n0 Dn) = false) as ->.
    { apply Bool.not_true_is_false. intros Q. apply ltb_ok in Q; auto. lra. }
    transitivity true; [apply ltb_ok; auto; lra|symmetry; apply Rltb_true; lra].
  - assert (Rltb (Rabs (dval u - dval x)) (/ 4503599627370496) = false) as ->.
    { apply Bool.not_true_is_false. intros Q. apply Rltb_true in Q. rewrite Rabs_minus_sym in Q. lra. }
    pose proof (rounds_self _ Fe) as Re. rewrite Ve in Re. rewrite Rabs_minus_sym in S. apply Bool.not_true_is_false. intros Q.
    destruct (nltb Dn d (n0 Dn)) eqn:L.
    + apply ltb_ok in L; auto. destruct (sub_full (n0 Dn) d F0 Fd) as (Fm & Em & Rm).
      { rewrite V0. replace (0 - dval d) with (- dval d) by ring. rewrite Rabs_Ropp. exact Bd. }
      change (SFsub 53 1024 (n0 Dn) d) with (nsub Dn (n0 Dn) d) in *. apply ltb_ok in Q; auto. rewrite Ve in Q. rewrite V0 in *.
      assert (N : dval u - dval x <= - / 4503599627370496).
      { destruct (Rle_lt_dec 0 (dval u - dval x)) as [C|C]; [|rewrite Rabs_left in S by lra; lra]. exfalso.
        pose proof (rounds_mono 0 0 _ _ (eq_ind _ (fun z => rounds z z) (rounds_self _ F0) _ V0) Rd C). lra. }
      assert (N2 : rounds (- / 4503599627370496) (- / 4503599627370496)).
      { destruct Re as [[A B]|[A B]]; [right; split; [lra|rewrite !Ropp_involutive; exact B]|lra]. }
      pose proof (rounds_mono _ _ _ _ Rd N2 N) as N3. pose proof (rounds_mono _ _ _ _ Re Rm ltac:(lra)). lra.
    + apply ltb_ok in Q; auto. rewrite Ve in Q.
      assert (L' : 0 <= dval d). { apply Rnot_lt_le. intros C. rewrite <- V0 in C. apply ltb_ok in C; auto. change (nltb Dn d (n0 Dn) = true) in C. congruence. }
      assert (N : / 4503599627370496 <= dval u - dval x).
      { destruct (Rle_lt_dec 0 (dval u - dval x)) as [C|C]; [rewrite Rabs_right in S by lra; lra|]. exfalso. rewrite Rabs_left in S by lra.
        assert (N2 : rounds (- / 4503599627370496) (- / 4503599627370496)).
        { destruct Re as [[A B]|[A B]]; [right; split; [lra|rewrite !Ropp_involutive; exact B]|lra]. }
        pose proof (rounds_mono _ _ _ _ Rd N2 ltac:(lra)). lra. }
      pose proof (rounds_mono _ _ _ _ Re Rd N). lra.
Qed.

Lemma FindMult_double i p (U : Z -> Dn) (u : Dn) : finite u -> Rabs (dval u) <= b2 501 -> (0 <= p)%Z ->
  (forall j, (i - p <= j <= i + p + 1)%Z -> finite (U j) /\ Rabs (dval (U j)) <= b2 501) -> separated (fun j => dval (U j)) (i - p) (i + p + 1) (dval u) ->
  FindMult (N:=Dn) i u p U = FindMult (N:=Rn) i (dval u) p (fun j => dval (U j)).
Proof.
  intros Fu Bu Hp FU S. unfold FindMult.
  apply (for_up_rel (fun _ (a b : Z) => a = b)); [lia|reflexivity|].
  intros j a b Hj ->. destruct (FU (i + j)%Z ltac:(lia)) as [F1 B1]. rewrite (tiny_ok u (U (i + j)%Z)) by (auto; apply (S (i + j)%Z); lia).
  rn. reflexivity.
Qed.
Lemma fill_dval lo hi (f g : Z -> Dn) i : dval (fill lo hi f g i) = fill lo hi (fun i => dval (f i)) (fun i => dval (g i)) i.
Proof. destruct (Z_le_gt_dec lo i); [destruct (Z_le_gt_dec i hi)|]; [rewrite !fill_in by lia|rewrite !fill_out by lia|rewrite !fill_out by lia]; reflexivity. Qed.
Lemma fill_dval' lo hi (f g : Z -> Dn) : (fun i => dval (fill lo hi f g i)) = fill lo hi (fun i => dval (f i)) (fun i => dval (g i)).
Proof. apply functional_extensionality. intros i. apply fill_dval. Qed.
Lemma V_double n p (U : Z -> Dn) (u : Dn) k r (j : Z -> Dn) :
  (fun i => dval (InsertKnot_V (N:=Dn) n p U u k r j i)) = InsertKnot_V (N:=Rn) n p (fun i => dval (U i)) (dval u) k r (fun i => dval (j i)).
Proof.
  unfold InsertKnot_V. cbv zeta. rewrite fill_dval', fill_dval', fill_dval'. reflexivity.
Qed.

Lemma net_line : forall (axs : list axR) a A' idx d, (a < length axs)%nat -> in_net (lset a A' axs) idx ->
  (0 <= nth a idx 0%Z <= x_n A')%Z /\ forall i, (0 <= i <= x_n (nth a axs d))%Z -> in_net axs (lset a i idx).
Proof.
  induction axs as [|B axs IH]; intros a A' idx d Ha H; [cbn in Ha; lia|].
  destruct a as [|a]; cbn [lset] in H; inversion H as [|? x ? idx' H1 H2]; subst; cbn [nth lset].
  - split; [exact H1|]. intros i Hi. constructor; auto.
  - destruct (IH a A' idx' d ltac:(cbn in Ha; lia) H2) as [I1 I2]. split; [exact I1|]. intros i Hi. constructor; auto. apply I2. exact Hi.
Qed.

(** ** The kernel *)
Lemma kernel_double n p (U : Z -> Dn) (u : Dn) r (j : Z -> Dn) : let rU := (fun i => dval (U i)) in let rj := (fun i => dval (j i)) in
  wf_knots n p rU -> (1 <= p <= 1000)%Z -> (forall i, (0 <= i <= n + p + 1)%Z -> finite (U i) /\ Rabs (dval (U i)) <= b2 501) -> finite u ->
  rU p < dval u < rU (n + 1)%Z -> separated rU 0 (n + p + 1) (dval u) ->
  (multiplicity rU 0 (n + p + 1) (dval u) + r <= p)%Z -> (1 <= r)%Z ->
  FindMult (N:=Dn) (FindSpan (N:=Dn) n p u U) u p U = FindMult (N:=Rn) (FindSpan (N:=Rn) n p (dval u) rU) (dval u) p rU /\
  (forall P Q, (fun i => dval (fst (bsp_InsertKnot (N:=Dn) n p U P u r j) i)) = fst (bsp_InsertKnot (N:=Rn) n p rU Q (dval u) r rj)) /\
  (forall P i, (0 <= i <= n + p + 1 + r)%Z -> fst (bsp_InsertKnot (N:=Dn) n p U P u r j) i = u \/ exists i', (0 <= i' <= n + p + 1)%Z /\ fst (bsp_InsertKnot (N:=Dn) n p U P u r j) i = U i') /\
  (forall Q : R -> R -> Prop, (forall a x y x' y', 0 <= a <= 1 -> Q x y -> Q x' y' -> Q (a * x + (1 - a) * x') (a * y + (1 - a) * y')) ->
    forall P W, (forall x, (0 <= x <= n)%Z -> Q (P x) (W x)) -> forall x, (0 <= x <= n + r)%Z ->
      Q (snd (bsp_InsertKnot (N:=Rn) n p rU P (dval u) r rj) x) (snd (bsp_InsertKnot (N:=Rn) n p rU W (dval u) r rj) x)) /\
  forall (P : Z -> Dn) M, M <= b2 600 -> (forall x, (0 <= x <= n)%Z -> finite (P x) /\ Rabs (dval (P x)) <= M) ->
    forall x, (0 <= x <= n + r)%Z -> close M r (snd (bsp_InsertKnot (N:=Dn) n p U P u r j) x) (snd (bsp_InsertKnot (N:=Rn) n p rU (fun i => dval (P i)) (dval u) r rj) x).
Proof.
  intros rU rj W Hp FU Fu Hu Hsep Hmul Hr.
  pose proof (wf_n _ _ _ W) as Hn. pose proof (wf_mono _ _ _ W) as Mo.
  assert (FK : fin_knots n p U) by (intros i Hi; apply FU; auto).
  assert (Du : in_domain n p rU (dval u)) by (unfold in_domain; lra).
  pose proof (span_active n p U u FK Fu W Du) as A. pose proof (FindSpan_active n p rU (dval u) W Du) as A'.
  pose proof (active_unique _ _ _ _ _ _ W A A') as Ek. change (FindSpan (N:=Rn) n p (dval u) (fun i : Z => dval (U i))) with (FindSpan (N:=Rn) n p (dval u) rU) in Ek.
  rewrite Ek. set (k := FindSpan (N:=Rn) n p (dval u) rU) in *.
  assert (Hk : (p <= k <= n)%Z) by (destruct A'; lia).
  assert (Hku : rU k <= dval u < rU (k + 1)%Z) by (destruct A' as [_ [A'|[_ A']]]; lra).
  assert (Bu : Rabs (dval u) <= b2 501).
  { destruct (FU p ltac:(lia)) as [_ B1]. destruct (FU (n + 1)%Z ltac:(lia)) as [_ B2]. apply abs_le in B1. apply abs_le in B2. apply Rabs_le. unfold rU in Hu. lra. }
  assert (Hs' : separated rU (k - p) (k + p + 1) (dval u)) by (intros i Hi; apply Hsep; lia).
  assert (EM : FindMult (N:=Dn) k u p U = FindMult (N:=Rn) k (dval u) p rU).
  { apply FindMult_double; auto; try lia. intros i Hi. apply FU. lia. }
  split; [exact EM|].
  destruct (FindMult_span n p rU (dval u) k W Hk Hku Hs') as [s [Es [Hs [Hb Hl]]]].
  assert (Em : FindMult k (dval u) p rU = multiplicity rU 0 (n + p + 1) (dval u)) by (apply FindMult_exact; auto; lia).
  assert (Hsr : (s + r <= p)%Z) by lia.
  unfold bsp_InsertKnot. destruct (Z.eqb_spec r 0); [lia|]. unfold FindSpanMult. cbv zeta. rewrite Ek. fold k. rewrite EM, Es. unfold InsertKnot. cbn [fst snd].
  split; [intros _ _; apply V_double|].
  assert (Hmore : forall i, (k + 1 <= i <= k + p)%Z -> dval u <= dval (U i)).
  { intros i Hi. apply Rle_trans with (rU (k + 1)%Z); [lra|]. apply (Mo (k + 1)%Z i); lia. }
  assert (Hless : forall i, (k + 1 - p <= i <= k - s)%Z -> rU i < dval u) by (intros i Hi; apply Hl; lia).
  split; [|split].
  - intros _ i Hi. unfold InsertKnot_V. cbv zeta. destruct (Z_le_gt_dec i k); [|destruct (Z_le_gt_dec i (k + r))].
    + right. exists i. split; [lia|]. rewrite !fill_out by lia. rewrite fill_in by lia. reflexivity.
    + left. rewrite fill_out by lia. rewrite fill_in by lia. reflexivity.
    + right. exists (i - r)%Z. split; [lia|]. rewrite fill_in by lia. reflexivity.
  - intros Q HQ P W' HP x Hx. rewrite (InsertKnot_Q_spec rU P k s p (dval u) (k + 1)), (InsertKnot_Q_spec rU W' k s p (dval u) (k + 1)) by (try lia; auto). replace r with (Z.of_nat (Z.to_nat r)) by lia.
    apply (iQ_ind2 rU P W' k s p (dval u) (k + 1)%Z) with (lo := 0%Z) (hi := n); auto; lia.
  - intros P M HM HP x Hx.
    rewrite (InsertKnot_Q_spec rU (fun i => dval (P i)) k s p (dval u) (k + 1)) by (try lia; auto).
    apply (InsertKnot_Q_close U P k s p u (k + 1)%Z M); try lia; auto.
    intros i Hi. apply FU. lia.
Qed.

(** ** The method *)
(** The object with the same real numbers. *)
Definition rax (A : axis Dn) : axis Rn := mkAxis (N:=Rn) (a_size A) (a_len A) (fun i => dval (a_knots A i)).
Definition robj (nrb : nurbs Dn) : nurbs Rn := mkNurbs (N:=Rn) (map rax (n_axes nrb)) (n_comp nrb) (fun idx c => dval (n_arr nrb idx c)).
Lemma rax_spec axs : map spec_ax (map rax axs) = map real_ax axs.
Proof. rewrite map_map. reflexivity. Qed.

Lemma insert_double (dj : Z -> Dn) (nrb nrb' : nurbs Dn) ax a (u : Dn) times : Forall mild_axis (n_axes nrb) -> py_axis (n_dim nrb) ax = Ok a ->
  let A := get_axis nrb a in let n := (a_size A - 1)%Z in let p := a_deg A in let rU := (fun i => dval (a_knots A i)) in
  finite u -> rU p < dval u < rU (n + 1)%Z -> separated rU 0 (n + p + 1) (dval u) ->
  insert (N:=Dn) dj nrb ax u times = Ok nrb' ->
  exists r nR, insert (N:=Rn) (fun i => dval (dj i)) (robj nrb) ax (dval u) times = Ok nR /\ (0 <= r <= p)%Z /\
    r = match times with Some t => t | None => (p - Z.min (multiplicity rU 0 (n + p + 1) (dval u)) p)%Z end /\
    map real_ax (n_axes nrb') = spec_axes nR /\ n_comp nrb' = n_comp nrb /\
    (exists V, n_axes nrb' = lset a (mkAxis (N:=Dn) (a_size A + r) (a_len A + r) V) (n_axes nrb) /\
       forall i, (0 <= i < a_len A + r)%Z -> V i = u \/ exists j, (0 <= j < a_len A)%Z /\ V i = a_knots A j) /\
    (forall Q : R -> R -> Prop, (forall a x y x' y', 0 <= a <= 1 -> Q x y -> Q x' y' -> Q (a * x + (1 - a) * x') (a * y + (1 - a) * y')) ->
       forall c c', (forall idx, in_net (map real_ax (n_axes nrb)) idx -> Q (dval (n_arr nrb idx c)) (dval (n_arr nrb idx c'))) ->
         forall idx, in_net (map real_ax (n_axes nrb')) idx -> Q (n_arr nR idx c) (n_arr nR idx c')) /\
    forall c M, M <= b2 600 -> (forall idx, in_net (map real_ax (n_axes nrb)) idx -> finite (n_arr nrb idx c) /\ Rabs (dval (n_arr nrb idx c)) <= M) ->
      forall idx, in_net (map real_ax (n_axes nrb')) idx -> close M r (n_arr nrb' idx c) (n_arr nR idx c).
Proof.
  intros HA Ea A n p rU Fu Hu Hsep EI.
  assert (Ha : (a < length (n_axes nrb))%nat) by (apply py_axis_ok in Ea; unfold n_dim in Ea; lia).
  assert (MA : mild_axis A) by (rewrite Forall_forall in HA; apply HA; apply nth_In; exact Ha).
  destruct MA as ([Wp Wk] & P100 & FK & _). cbn [real_ax x_p x_n x_U] in Wp, Wk. fold n p in Wp, Wk. change (fun i : Z => dval (a_knots A i)) with rU in Wk.
  assert (Ln : a_len A = (n + p + 2)%Z) by (unfold n, p, a_deg; lia).
  assert (FU : forall i, (0 <= i <= n + p + 1)%Z -> finite (a_knots A i) /\ Rabs (dval (a_knots A i)) <= b2 501).
  { intros i Hi. destruct (FK i ltac:(lia)) as [F1 F2]. split; auto. apply Rle_trans with (1 := F2). apply b2_le. lia. }
  pose proof (wf_n _ _ _ Wk) as Hn.
  assert (GA : get_axis (robj nrb) a = rax A).
  { unfold get_axis, robj. cbn [n_axes]. rewrite (nth_indep _ _ (rax axis0)) by (rewrite map_length; exact Ha). apply map_nth. }
  assert (Ea' : py_axis (n_dim (robj nrb)) ax = Ok a) by (unfold n_dim, robj; cbn [n_axes]; rewrite map_length; exact Ea).
  assert (Du : in_domain n p rU (dval u)) by (unfold in_domain; lra).
  assert (Hhi : (a_len A - a_deg A - 1 = n + 1)%Z) by (fold p; lia).
  assert (WR : wf_ax (spec_ax (rax A))) by (split; [exact Wp|exact Wk]).
  pose proof (py_FindMult_eq (rax A) (dval u) WR) as PF. change (a_deg (rax A)) with p in PF. change (a_size (rax A) - 1)%Z with n in PF. change (a_knots (rax A)) with rU in PF.
  pose proof (FindMult_min n p rU (dval u) Wk Du Hsep) as FM.
  assert (EM : py_FindMult A u = Ok (FindMult (N:=Rn) (FindSpan (N:=Rn) n p (dval u) rU) (dval u) p rU)).
  { unfold py_FindMult, bsp_FindMult. fold p. destruct (Z.leb_spec 1 p); [|lia]. destruct (Z.leb_spec (2 * p + 1) (a_len A - 1)); [|lia]. cbn [andb]. change (0 <=? -1)%Z with false. cbv iota.
    replace (a_len A - 1 - (p + 1))%Z with n by lia.
    assert (FKn : fin_knots n p (a_knots A)) by (intros i Hi; apply FU; auto).
    pose proof (span_active n p (a_knots A) u FKn Fu Wk Du) as A1. pose proof (FindSpan_active n p rU (dval u) Wk Du) as A2.
    rewrite (active_unique _ _ _ _ _ _ Wk A1 A2). f_equal.
    assert (Hk : (p <= FindSpan (N:=Rn) n p (dval u) rU <= n)%Z) by (destruct A2; lia).
    apply FindMult_double; auto; try lia.
    - destruct (FU p ltac:(lia)) as [_ B1]. destruct (FU (n + 1)%Z ltac:(lia)) as [_ B2]. apply abs_le in B1. apply abs_le in B2. apply Rabs_le. unfold rU in Hu. lra.
    - intros i Hi. apply FU. lia.
    - intros i Hi. apply Hsep. lia. }
  unfold insert in EI. rewrite Ea in EI. cbn [bind] in EI. fold A in EI. rewrite EM in EI. fold p n in EI.
  unfold insert. rewrite Ea'. cbn [bind]. rewrite GA. rewrite PF. change (a_deg (rax A)) with p. change (a_size (rax A) - 1)%Z with n. change (a_knots (rax A)) with rU.
  cbn [bind] in EI |- *. rewrite FM in EI |- *.
  set (mm := Z.min (multiplicity rU 0 (n + p + 1) (dval u)) p) in *.
  set (t := match times with Some t => t | None => (p - mm)%Z end) in *.
  change (a_lo (rax A)) with (rU p). change (a_hi (rax A)) with (rU (a_len A - a_deg A - 1)%Z). rewrite Hhi.
  assert (L1 : nleb Rn (rU p) (dval u) = true) by (apply Rleb_true; lra). assert (L2 : nleb Rn (dval u) (rU (n + 1)%Z) = true) by (apply Rleb_true; lra).
  rewrite L1, L2. unfold assert, check in *. cbn [bind andb].
  destruct (nleb Dn (a_lo A) u) in EI; [|discriminate]. cbn [bind] in EI. destruct (nleb Dn u (a_hi A)) in EI; [|discriminate]. cbn [bind] in EI.
  destruct (Z.leb_spec (t + mm) p) as [Htm|]; [|discriminate]. cbn [bind] in EI |- *.
  pose proof (multiplicity_nonneg rU 0 (n + p + 1) (dval u)) as Hm0.
  destruct (Z.eqb_spec t 0) as [Et|Et].
  - injection EI as <-. exists t, (robj nrb). split; [reflexivity|]. split; [lia|]. split; [reflexivity|]. split; [symmetry; apply rax_spec|]. split; [reflexivity|].
    split; [|split].
    { exists (a_knots A). rewrite Et, !Z.add_0_r. split.
      - replace (mkAxis (N:=Dn) (a_size A) (a_len A) (a_knots A)) with A by (destruct A; reflexivity). unfold A, get_axis. symmetry. apply ProofNet.lset_nth.
      - intros i Hi. right. exists i. auto. }
    { intros Q HQ c c' HP idx Hidx. apply HP. exact Hidx. }
    intros c M HM HP idx Hidx. rewrite Et. split; [apply HP; exact Hidx|]. cbn [robj n_arr]. rewrite Rminus_diag_eq by reflexivity. rewrite Rabs_R0. lra.
  - destruct (Z.leb_spec 1 n); [|discriminate]. cbn [bind] in EI |- *.
    destruct (Z.leb_spec 1 p); [|discriminate]. cbn [bind] in EI |- *.
    destruct (_ && _) in EI; [|discriminate]. cbn [bind] in EI.
    destruct (Z.leb_spec 0 t); [|discriminate]. destruct (Z.leb_spec t p); [|discriminate]. cbn [andb bind] in EI |- *.
    injection EI as <-.
    assert (Hmt : (multiplicity rU 0 (n + p + 1) (dval u) + t <= p)%Z) by (unfold mm in Htm; lia).
    destruct (kernel_double n p (a_knots A) u t dj Wk ltac:(lia) FU Fu Hu Hsep Hmt ltac:(lia)) as (_ & KV & KI & KC & KQ).
    exists t. eexists. split; [reflexivity|]. split; [lia|]. split; [reflexivity|]. split; [|split; [reflexivity|]].
    + cbn [n_axes]. unfold spec_axes. cbn [n_axes]. rewrite !map_lset. unfold robj. cbn [n_axes]. rewrite rax_spec. f_equal.
      unfold real_ax, spec_ax. cbn [a_size a_len a_knots rax]. f_equal. exact (KV (fun _ => n0 Dn) (fun _ => n0 Rn)).
    + split; [|split].
      { eexists. split; [reflexivity|]. intros i Hi. destruct (KI (fun _ => n0 Dn) i ltac:(lia)) as [E|(i' & I1 & I2)]; [left; exact E|right; exists i'; split; [lia|exact I2]]. }
      { intros Q HQ c c' HP idx Hidx. cbn [n_axes n_arr robj] in *. rewrite map_lset in Hidx.
        destruct (net_line (map real_ax (n_axes nrb)) a _ idx (real_ax axis0) ltac:(rewrite map_length; exact Ha) Hidx) as [I1 I2].
        rewrite map_nth in I2. fold (get_axis nrb a) in I2. fold A in I2. cbn [real_ax x_n a_size] in I1, I2. fold n in I2.
        unfold along. apply (KC Q HQ); [|unfold n in *; lia]. intros x Hx. apply HP. apply I2. exact Hx. }
      intros c M HM HP idx Hidx. cbn [n_axes n_arr robj] in *. rewrite map_lset in Hidx.
      destruct (net_line (map real_ax (n_axes nrb)) a _ idx (real_ax axis0) ltac:(rewrite map_length; exact Ha) Hidx) as [I1 I2].
      rewrite map_nth in I2. fold (get_axis nrb a) in I2. fold A in I2. cbn [real_ax x_n a_size] in I1, I2. fold n in I2.
      unfold along. apply (KQ (fun i => n_arr nrb (lset a i idx) c) M HM); [|unfold n in *; lia].
      intros x Hx. apply HP. apply I2. exact Hx.
Qed.
