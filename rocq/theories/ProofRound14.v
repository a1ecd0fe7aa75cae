(** Knot insertion in doubles: how far the spline and its computed values move. *)
From Coq Require Import ZArith Reals List Bool SpecFloat Lia Lra Psatz.
From Verif Require Import Num Loop Spec ModelBspline ModelBSp ModelNurbs ModelFloat SpecNurbs SpecDouble SpecRound SpecRound2 ProofInsert ProofSpan ProofNet ProofNurbs
  ProofCall ProofGeom2 ProofMethods ProofRound ProofRound2 ProofRound3 ProofRound4 ProofRound7 ProofRound8 ProofRound12 ProofRound13.
Import ListNotations.
Local Open Scope R_scope.

Lemma tsum_close axs us P Q e : Forall wf_ax axs -> in_box axs us -> (forall idx, in_net axs idx -> Rabs (P idx - Q idx) <= e) -> Rabs (tsum axs P us - tsum axs Q us) <= e.
Proof.
  intros W B H. assert (L : length us = length axs) by (apply (in_box_length _ _ B)).
  apply Rabs_le. split.
  - assert (tsum axs Q us <= tsum axs P us + e); [|lra]. rewrite <- (tsum_const axs us e W B), <- tsum_plus by exact L. apply tsum_mono; auto. intros idx I. specialize (H idx I). apply abs_le in H. lra.
  - assert (tsum axs P us <= tsum axs Q us + e); [|lra]. rewrite <- (tsum_const axs us e W B), <- tsum_plus by exact L. apply tsum_mono; auto. intros idx I. specialize (H idx I). apply abs_le in H. lra.
Qed.

Section Ins.
Variables (dj : Z -> Dn) (nrb nrb' : nurbs Dn) (ax : Z) (a : nat) (u : Dn) (times : option Z).
Hypothesis L3 : (length (n_axes nrb) <= 3)%nat.
Hypothesis C4 : (4 <= n_comp nrb)%Z.
Hypothesis HA : Forall mild_axis (n_axes nrb).
Hypothesis Ea : py_axis (n_dim nrb) ax = Ok a.
Notation A := (get_axis nrb a).
Hypothesis Hu : new_knot A u.
Notation r := (match times with Some t => t | None => (a_deg A - Z.min (times_in A u) (a_deg A))%Z end).
Hypothesis EI : insert (N:=Dn) dj nrb ax u times = Ok nrb'.

Lemma ins_real : exists nR, insert (N:=Rn) (fun i => dval (dj i)) (robj nrb) ax (dval u) times = Ok nR /\ (0 <= r <= a_deg A)%Z /\
    map real_ax (n_axes nrb') = spec_axes nR /\ n_comp nrb' = n_comp nrb /\
    (exists V, n_axes nrb' = lset a (mkAxis (N:=Dn) (a_size A + r) (a_len A + r) V) (n_axes nrb) /\
       forall i, (0 <= i < a_len A + r)%Z -> V i = u \/ exists j, (0 <= j < a_len A)%Z /\ V i = a_knots A j) /\
    (forall Q : R -> R -> Prop, (forall a x y x' y', 0 <= a <= 1 -> Q x y -> Q x' y' -> Q (a * x + (1 - a) * x') (a * y + (1 - a) * y')) ->
       forall c c', (forall idx, in_net (map real_ax (n_axes nrb)) idx -> Q (dval (n_arr nrb idx c)) (dval (n_arr nrb idx c'))) ->
         forall idx, in_net (map real_ax (n_axes nrb')) idx -> Q (n_arr nR idx c) (n_arr nR idx c')) /\
    (forall c M, M <= b2 600 -> within nrb c M ->
      forall idx, in_net (map real_ax (n_axes nrb')) idx -> close M r (n_arr nrb' idx c) (n_arr nR idx c)) /\
    preserves (robj nrb) nR /\ wf_nurbs (robj nrb) /\
    exists V, n_axes nR = lset a (mkAxis (N:=Rn) (a_size A + r) (a_len A + r) V) (n_axes (robj nrb)) /\ merged (a_size A - 1) (a_deg A) r (fun i => dval (a_knots A i)) (dval u) V.
Proof.
  destruct Hu as (Fu & Hi & Hs).
  assert (E1 : (a_size A - 1 + 1)%Z = a_size A) by lia. assert (E2 : (a_size A - 1 + a_deg A + 1)%Z = (a_len A - 1)%Z) by (unfold a_deg; lia).
  pose proof (insert_double dj nrb nrb' ax a u times HA Ea Fu) as D. cbv zeta in D. rewrite E1, E2 in D. destruct (D Hi Hs EI) as (t & nR & EI' & Ht & Et & AX & NC & VV & QQ & CC).
  fold (times_in A u) in Et. subst t.
  assert (Ha : (a < length (n_axes nrb))%nat) by (apply py_axis_ok in Ea; unfold n_dim in Ea; lia).
  assert (WR : wf_nurbs (robj nrb)).
  { split; [|split].
    - cbn [robj n_axes]. rewrite map_length. exact L3.
    - unfold spec_axes. cbn [robj n_axes]. rewrite rax_spec. apply wf_axs. exact HA.
    - exact C4. }
  assert (GA : get_axis (robj nrb) a = rax A).
  { unfold get_axis, robj. cbn [n_axes]. rewrite (nth_indep _ _ (rax axis0)) by (rewrite map_length; exact Ha). apply map_nth. }
  assert (Ea' : py_axis (n_dim (robj nrb)) ax = Ok a) by (unfold n_dim, robj; cbn [n_axes]; rewrite map_length; exact Ea).
  pose proof (insert_spec (robj nrb) ax a (dval u) times (fun i => dval (dj i)) nR WR Ea') as SP. cbv zeta in SP. rewrite GA in SP.
  change (a_size (rax A)) with (a_size A) in SP. change (a_deg (rax A)) with (a_deg A) in SP. change (a_knots (rax A)) with (fun i => dval (a_knots A i)) in SP. rewrite E1, E2 in SP.
  destruct (SP Hs (or_introl Hi) EI') as (_ & _ & _ & PR & MG).
  exists nR. repeat (split; [assumption|]). unfold times_in. exact MG.
Qed.

(** ** The spline *)
Lemma ins_hom c M : M <= b2 500 -> within nrb c M -> forall us, in_box (map real_ax (n_axes nrb)) us ->
  Rabs (real_hom nrb' c us - real_hom nrb c us) <= IZR r * (b2 (-48) * M + b2 (-1073)).
Proof.
  intros HM HP us B. destruct ins_real as (nR & _ & Hr & AX & _ & _ & _ & CC & PR & _).
  assert (B' : in_box (spec_axes (robj nrb)) us) by (unfold spec_axes, robj; cbn [n_axes]; rewrite rax_spec; exact B).
  assert (EH : hom nR c us = real_hom nrb c us).
  { rewrite (pr_hom _ _ PR us c B'). unfold hom, real_hom, spec_axes, robj. cbn [n_axes n_arr]. rewrite rax_spec. reflexivity. }
  rewrite <- EH. unfold hom, real_hom. rewrite AX.
  assert (BR : in_box (spec_axes nR) us).
  { pose proof (pr_dom _ _ PR) as SD. clear - B' SD. unfold in_box in *. revert us B'. induction SD as [|x y l l' [D1 D2] _ IH]; intros us B'; inversion B'; subst; constructor; auto.
    unfold in_domain in *. rewrite <- D1, <- D2. assumption. }
  apply tsum_close; [apply (pr_wf _ _ PR)|exact BR|].
  intros idx Hi. rewrite <- AX in Hi. destruct (CC c M ltac:(apply Rle_trans with (1 := HM); apply b2_le; lia) HP idx Hi) as [_ E].
  apply Rle_trans with (1 := E). apply Rmult_le_compat_l; [apply IZR_le; lia|]. unfold step, uu, eta. right.
  replace (-48)%Z with (5 + -53)%Z by lia. replace (-1073)%Z with (2 + -1075)%Z by lia. rewrite !b2_add. f_equal; unfold b2; simpl; lra.
Qed.

(** ** The new net and the new axes are as good as the old ones *)
Lemma A_mild : mild_axis A.
Proof. rewrite Forall_forall in HA. apply HA. apply nth_In. apply py_axis_ok in Ea. unfold n_dim in Ea. lia. Qed.
Lemma deg_100 : (1 <= a_deg A <= 100)%Z.
Proof. destruct A_mild as ([Wp _] & P100 & _). cbn in Wp. lia. Qed.

Lemma ins_axes : Forall mild_axis (n_axes nrb') /\ map a_deg (n_axes nrb') = map a_deg (n_axes nrb) /\ (length (n_axes nrb') <= 3)%nat.
Proof.
  destruct ins_real as (nR & _ & Hr & AX & _ & (V & EV & HV) & _ & _ & PR & _).
  assert (WF : Forall wf_ax (map real_ax (n_axes nrb'))) by (rewrite AX; apply (pr_wf _ _ PR)).
  destruct A_mild as (WA & P100 & FK & FS). destruct Hu as (Fu & Hi & Hs).
  assert (Ln : (0 <= a_deg A < a_len A)%Z /\ (0 <= a_size A < a_len A)%Z) by (destruct WA as [W1 W2]; pose proof (wf_n _ _ _ W2); cbn in *; unfold a_deg in *; lia).
  assert (T52 : b2 (-500) <= / 4503599627370496).
  { replace (/ 4503599627370496) with (b2 (-52)) by (unfold b2; simpl; lra). apply b2_le. lia. }
  assert (Bu : Rabs (dval u) <= b2 500).
  { destruct (FK (a_deg A) ltac:(lia)) as [_ B1]. destruct (FK (a_size A) ltac:(lia)) as [_ B2]. apply abs_le in B1. apply abs_le in B2. apply Rabs_le. lra. }
  split; [|split].
  - rewrite EV in WF |- *. rewrite map_lset in WF.
    assert (Ha : (a < length (n_axes nrb))%nat) by (apply py_axis_ok in Ea; unfold n_dim in Ea; lia).
    assert (WN : wf_ax (real_ax (mkAxis (N:=Dn) (a_size A + r) (a_len A + r) V))).
    { rewrite Forall_forall in WF. apply WF. rewrite <- (nth_lset a (real_ax (mkAxis (N:=Dn) (a_size A + r) (a_len A + r) V)) (real_ax axis0) (map real_ax (n_axes nrb))) at 1 by (rewrite map_length; exact Ha).
      apply nth_In. rewrite lset_length, map_length. exact Ha. }
    apply Forall_lset; [exact HA|]. split; [exact WN|]. cbn [a_knots a_len]. replace (a_deg (mkAxis (N:=Dn) (a_size A + r) (a_len A + r) V)) with (a_deg A) by (unfold a_deg; cbn [a_size a_len]; lia).
    split; [lia|]. split.
    + intros i Hi'. destruct (HV i Hi') as [-> | (j & Hj & ->)]; [split; assumption|apply FK; exact Hj].
    + intros i j Hi' Hj' L. destruct (HV i Hi') as [Ei | (i' & Ii & Ei)], (HV j Hj') as [Ej | (j' & Ij & Ej)]; rewrite Ei, Ej in *; [lra| | |apply FS; auto].
      * destruct (Hs j' ltac:(lia)) as [E|E]; [lra|]. rewrite Rabs_right in E by lra. lra.
      * destruct (Hs i' ltac:(lia)) as [E|E]; [lra|]. rewrite Rabs_left in E by lra. lra.
  - rewrite EV, map_lset. replace (a_deg (mkAxis (N:=Dn) (a_size A + r) (a_len A + r) V)) with (a_deg A) by (unfold a_deg; cbn [a_size a_len]; lia).
    unfold get_axis. rewrite <- (map_nth a_deg). apply ProofNet.lset_nth.
  - rewrite EV, lset_length. exact L3.
Qed.

Lemma some_net : exists idx, in_net (map real_ax (n_axes nrb)) idx.
Proof.
  clear - HA. induction (n_axes nrb) as [|B l IH]; [exists []; constructor|]. inversion HA as [|? ? MB Hl]; subst. destruct (IH Hl) as [idx I].
  exists (0%Z :: idx). constructor; [|exact I]. destruct MB as ([W1 W2] & _). pose proof (wf_n _ _ _ W2). cbn in *. lia.
Qed.
Lemma ins_knots : Forall mild_axis (n_axes nrb') /\ exists V, n_axes nrb' = lset a (mkAxis (N:=Dn) (a_size A + r) (a_len A + r) V) (n_axes nrb) /\
  (forall i, (0 <= i < a_len A + r)%Z -> V i = u \/ exists j, (0 <= j < a_len A)%Z /\ V i = a_knots A j) /\
  nondecreasing (fun i => dval (V i)) 0 (a_len A + r - 1) /\
  forall v, multiplicity (fun i => dval (V i)) 0 (a_len A + r - 1) v = (multiplicity (fun i => dval (a_knots A i)) 0 (a_len A - 1) v + if Req_EM_T v (dval u) then r else 0)%Z.
Proof.
  split; [apply ins_axes|]. destruct ins_real as (nR & _ & _ & AX & _ & (V & EV & HV) & _ & _ & _ & _ & (V' & EV' & MG1 & MG2)).
  exists V. split; [exact EV|]. split; [exact HV|].
  assert (Ha : (a < length (n_axes nrb))%nat) by (apply py_axis_ok in Ea; unfold n_dim in Ea; lia).
  assert (E : (fun i => dval (V i)) = V').
  { unfold spec_axes in AX. rewrite EV, EV', !map_lset in AX.
    apply (f_equal (fun l => nth a l (real_ax axis0))) in AX. rewrite !nth_lset in AX by (unfold robj; cbn [n_axes]; rewrite !map_length; exact Ha).
    unfold real_ax, spec_ax in AX. cbn [a_knots] in AX. apply (f_equal x_U) in AX. exact AX. }
  rewrite E. replace (a_len A + r - 1)%Z with (a_size A - 1 + r + a_deg A + 1)%Z by (unfold a_deg; lia). split; [exact MG1|].
  replace (a_len A - 1)%Z with (a_size A - 1 + a_deg A + 1)%Z by (unfold a_deg; lia). exact MG2.
Qed.
Section Weights.
Variables (w0 w1 : R).
Hypothesis HW : weights_in nrb w0 w1.
Lemma w_facts : 0 < w0 <= w1 /\ 1000 * (IZR r * step w1) <= w0 /\ 0 <= IZR r <= IZR (a_deg A) /\ IZR (a_deg A) <= 100 /\ 50000 * eta <= b2 (-960) * w0 /\ 50000 * eta <= uu * w0 /\ w1 <= b2 99 /\ b2 (-99) <= w0.
Proof.
  destruct HW as (W0 & W1 & W30 & WN). pose proof (b2_pos (-99)) as P99. pose proof uu_pos as UP. pose proof eta_pos as EP.
  destruct ins_real as (nR & _ & Hr & _). pose proof deg_100 as D.
  assert (L : w0 <= w1) by (destruct some_net as [idx I]; destruct (WN idx I); lra).
  assert (R1 : 0 <= IZR r <= IZR (a_deg A)) by (split; [apply (IZR_le 0)|apply IZR_le]; lia).
  assert (R2 : IZR (a_deg A) <= 100) by (apply (IZR_le _ 100); lia).
  assert (E0 : 50000 * eta <= b2 (-1059)).
  { apply Rle_trans with (b2 16 * b2 (-1075)); [apply Rmult_le_compat_r; [left; apply b2_pos|unfold b2; simpl; lra]|rewrite <- b2_add; apply b2_le; lia]. }
  assert (E1 : 50000 * eta <= b2 (-960) * w0).
  { apply Rle_trans with (1 := E0). apply Rle_trans with (b2 (-960) * b2 (-99)); [rewrite <- b2_add; apply b2_le; lia|apply Rmult_le_compat_l; [left; apply b2_pos|exact W0]]. }
  assert (E2 : 50000 * eta <= uu * w0).
  { apply Rle_trans with (1 := E1). apply Rmult_le_compat_r; [lra|]. unfold uu. apply b2_le. lia. }
  split; [lra|]. split; [|repeat split; lra].
  apply Rle_trans with (1000 * (100 * step w1)).
  - apply Rmult_le_compat_l; [lra|]. apply Rmult_le_compat_r; [apply step_nonneg; lra|lra].
  - unfold step. assert (U : uu * w1 <= uu * (b2 30 * w0)) by (apply Rmult_le_compat_l; lra).
    replace (uu * (b2 30 * w0)) with (/ 8388608 * w0) in U by (rewrite uu_val; unfold b2; simpl; lra).
    assert (U2 : uu * w0 <= / 1000000 * w0) by (apply Rmult_le_compat_r; [lra|rewrite uu_val; lra]). lra.
Qed.

(** Component c within M times the weight. *)
Section Comp.
Variables (c : Z) (M : R).
Hypothesis HM : 0 <= M <= b2 400.
Hypothesis HC : mild_comp nrb c M.
Lemma comp_in : within nrb c (M * w1) /\ within nrb 3 w1 /\ M * w1 <= b2 499.
Proof.
  destruct w_facts as (P0 & _ & _ & _ & _ & _ & B99 & _). destruct HW as (_ & _ & _ & WN). split; [|split].
  - intros idx I. destruct (HC idx I) as [F B]. split; [exact F|]. apply Rle_trans with (1 := B). apply Rmult_le_compat_l; [lra|]. destruct (WN idx I). lra.
  - intros idx I. destruct (WN idx I) as [F B]. split; [exact F|]. rewrite Rabs_right; lra.
  - replace 499%Z with (400 + 99)%Z by lia. rewrite b2_add. apply Rmult_le_compat; lra.
Qed.

Lemma old_sums us : in_box (map real_ax (n_axes nrb)) us -> w0 <= real_hom nrb 3 us /\ Rabs (real_hom nrb c us) <= M * real_hom nrb 3 us.
Proof.
  intros B. pose proof (wf_axs _ HA) as WF. destruct HW as (_ & _ & _ & WN). pose proof (in_box_length _ _ B) as L. unfold real_hom. split.
  - rewrite <- (tsum_const _ us w0 WF B) at 1. apply tsum_mono; auto. intros idx I. destruct (WN idx I). lra.
  - rewrite <- tsum_scal by exact L. apply Rabs_le. split.
    + replace (- tsum (map real_ax (n_axes nrb)) (fun idx => M * dval (n_arr nrb idx 3%Z)) us) with ((-1) * tsum (map real_ax (n_axes nrb)) (fun idx => M * dval (n_arr nrb idx 3%Z)) us) by ring.
      rewrite <- tsum_scal by exact L. apply tsum_mono; auto. intros idx I. destruct (HC idx I) as [_ X]. apply abs_le in X. lra.
    + apply tsum_mono; auto. intros idx I. destruct (HC idx I) as [_ X]. apply abs_le in X. lra.
Qed.

Lemma step_split : IZR r * step (M * w1) + M * (IZR r * step w1) <= IZR (a_deg A) * (65 * uu * (M * w1)) + 400 * eta.
Proof.
  destruct w_facts as (P0 & _ & R1 & R2 & _ & E2 & _). pose proof uu_pos. pose proof eta_pos.
  assert (Q : 0 <= M * w1) by (apply Rmult_le_pos; lra).
  assert (X : step (M * w1) + M * step w1 <= 65 * uu * (M * w1) + 4 * eta).
  { unfold step. assert (4 * eta <= uu * w1) by (assert (uu * w0 <= uu * w1) by (apply Rmult_le_compat_l; lra); lra).
    assert (M * (4 * eta) <= M * (uu * w1)) by (apply Rmult_le_compat_l; lra). lra. }
  replace (IZR r * step (M * w1) + M * (IZR r * step w1)) with (IZR r * (step (M * w1) + M * step w1)) by ring.
  assert (Y : 0 <= 65 * uu * (M * w1)) by (apply Rmult_le_pos; lra).
  apply Rle_trans with (IZR r * (65 * uu * (M * w1) + 4 * eta)); [apply Rmult_le_compat_l; lra|].
  apply Rle_trans with (IZR (a_deg A) * (65 * uu * (M * w1) + 4 * eta)); [apply Rmult_le_compat_r; lra|].
  assert (IZR (a_deg A) * (4 * eta) <= 100 * (4 * eta)) by (apply Rmult_le_compat_r; lra). lra.
Qed.

Lemma ins_pt us : in_box (map real_ax (n_axes nrb)) us ->
  Rabs (real_pt nrb' c us - real_pt nrb c us) <= IZR (a_deg A) * b2 (-46) * (w1 / w0) * M + b2 (-960).
Proof.
  intros B. destruct w_facts as (P0 & S & R1 & R2 & E1 & E2 & B99 & _). destruct comp_in as (IC & I3 & BM). pose proof uu_pos. pose proof eta_pos.
  assert (T : forall m, IZR r * (b2 (-48) * m + b2 (-1073)) = IZR r * step m).
  { intros m. f_equal. unfold step, uu, eta. replace (-48)%Z with (5 + -53)%Z by lia. replace (-1073)%Z with (2 + -1075)%Z by lia. rewrite !b2_add. f_equal; unfold b2; simpl; lra. }
  pose proof (ins_hom c (M * w1) ltac:(apply Rle_trans with (1 := BM); apply b2_le; lia) IC us B) as H1. rewrite T in H1.
  pose proof (ins_hom 3 w1 ltac:(apply Rle_trans with (1 := B99); apply b2_le; lia) I3 us B) as H2. rewrite T in H2.
  destruct (old_sums us B) as [O1 O2]. unfold real_pt. fold (real_hom nrb' c us) (real_hom nrb' 3 us) (real_hom nrb c us) (real_hom nrb 3 us).
  set (X' := real_hom nrb' c us) in *. set (W' := real_hom nrb' 3 us) in *. set (X := real_hom nrb c us) in *. set (W := real_hom nrb 3 us) in *.
  pose proof step_split as SS. set (e1 := IZR r * step (M * w1)) in *. set (e2 := IZR r * step w1) in *.
  assert (W'0 : 999 / 1000 * w0 <= W') by (apply abs_le in H2; lra).
  assert (E : Rabs ((X' / W' - X / W) * W') <= e1 + M * e2).
  { replace ((X' / W' - X / W) * W') with ((X' - X) + X / W * - (W' - W)) by (field; lra). apply sum_le; [exact H1|]. apply prod_le; [|rewrite Rabs_Ropp; exact H2].
    unfold Rdiv. rewrite Rabs_mult, Rabs_inv, (Rabs_right W) by lra. apply Rmult_le_reg_r with W; [lra|]. rewrite Rmult_assoc, Rinv_l by lra. lra. }
  rewrite Rabs_mult, (Rabs_right W') in E by lra.
  apply Rmult_le_reg_r with (999 / 1000 * w0); [lra|].
  apply Rle_trans with (Rabs (X' / W' - X / W) * W'); [apply Rmult_le_compat_l; [apply Rabs_pos|lra]|].
  apply Rle_trans with (1 := E). apply Rle_trans with (1 := SS).
  replace ((IZR (a_deg A) * b2 (-46) * (w1 / w0) * M + b2 (-960)) * (999 / 1000 * w0)) with (999 / 1000 * (IZR (a_deg A) * b2 (-46) * (M * w1)) + 999 / 1000 * (b2 (-960) * w0)) by (field; lra).
  replace (b2 (-46)) with (128 * uu) by (rewrite uu_val; unfold b2; simpl; lra).
  assert (Y : 0 <= IZR (a_deg A) * (uu * (M * w1))) by (apply Rmult_le_pos; [lra|]; apply Rmult_le_pos; [lra|]; apply Rmult_le_pos; lra). lra.
Qed.

Lemma ins_comp : mild_comp nrb' c (2 * M + b2 (-960)).
Proof.
  destruct ins_real as (nR & _ & Hr & AX & _ & _ & QQ & CC & _ & _). destruct w_facts as (P0 & S & R1 & R2 & E1 & E2 & B99 & _). destruct comp_in as (IC & I3 & BM).
  pose proof uu_pos. pose proof eta_pos. destruct HW as (_ & _ & _ & WN).
  intros idx I.
  destruct (CC c (M * w1) ltac:(apply Rle_trans with (1 := BM); apply b2_le; lia) IC idx I) as [F1 H1].
  destruct (CC 3%Z w1 ltac:(apply Rle_trans with (1 := B99); apply b2_le; lia) I3 idx I) as [F3 H3].
  split; [exact F1|].
  assert (K1 : Rabs (n_arr nR idx c) <= M * n_arr nR idx 3%Z).
  { apply (QQ (fun x y => Rabs x <= M * y)); auto; [|intros i' I'; apply HC; exact I'].
    intros b x y x' y' Hb X1 X2. replace (M * (b * y + (1 - b) * y')) with (b * (M * y) + (1 - b) * (M * y')) by ring. apply sum_le; apply prod_le; auto; rewrite Rabs_right; lra. }
  assert (K3 : w0 <= n_arr nR idx 3%Z).
  { refine (QQ (fun x y => w0 <= x) _ 3%Z 3%Z _ idx I); [intros b x y x' y' Hb X1 X2; nra|intros i' I'; destruct (WN i' I'); lra]. }
  set (x := n_arr nR idx c) in *. set (w := n_arr nR idx 3%Z) in *.
  assert (Y : IZR r * step (M * w1) <= M * (w0 / 1000) + 400 * eta).
  { assert (step (M * w1) <= M * step w1 + 4 * eta) by (unfold step; assert (0 <= M * (4 * eta)) by (apply Rmult_le_pos; lra); lra).
    apply Rle_trans with (IZR r * (M * step w1 + 4 * eta)); [apply Rmult_le_compat_l; lra|].
    replace (IZR r * (M * step w1 + 4 * eta)) with (M * (IZR r * step w1) + IZR r * (4 * eta)) by ring.
    apply Rplus_le_compat; [apply Rmult_le_compat_l; lra|]. apply Rle_trans with (100 * (4 * eta)); [apply Rmult_le_compat_r; lra|lra]. }
  assert (Z : Rabs (dval (n_arr nrb' idx c)) <= M * w + (M * (w0 / 1000) + 400 * eta)).
  { replace (dval (n_arr nrb' idx c)) with (x + (dval (n_arr nrb' idx c) - x)) by ring. apply sum_le; lra. }
  apply Rle_trans with (1 := Z). apply abs_le in H3.
  assert (V : 999 / 1000 * w <= dval (n_arr nrb' idx 3%Z)) by lra.
  apply Rle_trans with ((2 * M + b2 (-960)) * (999 / 1000 * w)); [|apply Rmult_le_compat_l; [pose proof (b2_pos (-960)); lra|exact V]].
  assert (M * (w0 / 1000) <= M * (w / 1000)) by (apply Rmult_le_compat_l; lra).
  assert (b2 (-960) * w0 <= b2 (-960) * w) by (apply Rmult_le_compat_l; [pose proof (b2_pos (-960)); lra|exact K3]).
  assert (0 <= M * w) by (apply Rmult_le_pos; lra). lra.
Qed.
End Comp.

Lemma ins_weights : mild_weights nrb'.
Proof.
  destruct ins_real as (nR & _ & Hr & AX & _ & _ & QQ & CC & _ & _). destruct w_facts as (P0 & S & R1 & R2 & E1 & E2 & B99 & B99').
  destruct HW as (_ & _ & _ & WN). intros idx I.
  assert (I3 : within nrb 3 w1) by (intros i' I'; destruct (WN i' I') as [F B]; split; [exact F|]; rewrite Rabs_right; lra).
  destruct (CC 3%Z w1 ltac:(apply Rle_trans with (1 := B99); apply b2_le; lia) I3 idx I) as [F3 H3]. split; [exact F3|].
  assert (K3 : w0 <= n_arr nR idx 3%Z <= w1).
  { refine (QQ (fun x y => w0 <= x <= w1) _ 3%Z 3%Z _ idx I); [intros b x y x' y' Hb X1 X2; split; nra|intros i' I'; destruct (WN i' I'); lra]. }
  apply abs_le in H3. pose proof (b2_1 99) as D1. change (99 + 1)%Z with 100%Z in D1. pose proof (b2_1 (-100)) as D2. change (-100 + 1)%Z with (-99)%Z in D2. lra.
Qed.

Lemma deg_terms (l l' : list (axis Dn)) : map a_deg l' = map a_deg l -> effort l' = effort l.
Proof.
  intros E. unfold effort. assert (X : forall l l' : list (axis Dn), map a_deg l' = map a_deg l -> terms l' = terms l /\ degs l' = degs l).
  { clear. induction l as [|x l IH]; intros [|y l'] E; try discriminate; auto. cbn in E. injection E as E1 E2. destruct (IH l' E2) as [I1 I2]. cbn [terms degs]. rewrite E1, I1, I2. auto. }
  destruct (X l l' E) as [-> ->]. reflexivity.
Qed.
Lemma args_map axs xs : Forall2 mild_arg axs xs <-> Forall2 (fun (b : axR) (x : vec Dn) => (1 <= v_len x)%Z /\ forall i, (0 <= i < v_len x)%Z -> finite (v_get x i) /\ in_domain (x_n b) (x_p b) (x_U b) (dval (v_get x i))) (map real_ax axs) xs.
Proof.
  split; revert xs; induction axs as [|b axs IH]; intros xs H; inversion H; subst; constructor; auto.
Qed.
Lemma ins_args xs : Forall2 mild_arg (n_axes nrb) xs -> Forall2 mild_arg (n_axes nrb') xs.
Proof.
  intros H. destruct ins_real as (nR & _ & _ & AX & _ & _ & _ & _ & PR & _). apply args_map. rewrite AX. apply args_map in H.
  pose proof (pr_dom _ _ PR) as SD. unfold spec_axes at 1 in SD. unfold robj in SD. cbn [n_axes] in SD. rewrite rax_spec in SD.
  clear AX PR. revert xs H. induction SD as [|x y l l' [D1 D2] _ IH]; intros xs H; inversion H as [|? ? ? ? [H1 H2] H3]; subst; constructor; auto.
  split; [exact H1|]. intros i Hi. destruct (H2 i Hi) as [F D]. split; [exact F|]. unfold in_domain in *. rewrite <- D1, <- D2. assumption.
Qed.

(** ** The computed values *)
Lemma ins_values junk junk2 junk3 junkS xs (fields : bool) : Forall2 mild_arg (n_axes nrb) xs ->
  exists C F C' F', call (N:=Dn) junk junk2 junk3 junkS nrb (map Some xs) (if fields then FYes else FNo) = Ok (C, F) /\
    call (N:=Dn) junk junk2 junk3 junkS nrb' (map Some xs) (if fields then FYes else FNo) = Ok (C', F') /\
    forall idx c M, Forall2 (fun x i => (0 <= i < v_len x)%Z) xs idx -> 0 <= M <= b2 400 -> mild_comp nrb c M ->
      finite (C idx c) /\ finite (C' idx c) /\
      Rabs (dval (C' idx c) - dval (C idx c)) <= (b2 (-47) * effort (n_axes nrb) + b2 (-46) * IZR (a_deg A) * (w1 / w0)) * M + b2 (-898).
Proof.
  intros X. destruct ins_axes as (MA & ED & L3'). destruct w_facts as (P0 & _ & _ & _ & _ & _ & B99 & B99').
  assert (MW : mild_weights nrb).
  { destruct HW as (_ & _ & _ & WN). intros i' I'. destruct (WN i' I') as [Fw Bw]. split; [exact Fw|]. pose proof (b2_1 99) as D1. change (99 + 1)%Z with 100%Z in D1. pose proof (b2_1 (-100)) as D2. change (-100 + 1)%Z with (-99)%Z in D2.
    pose proof (b2_pos 99). pose proof (b2_pos (-100)). lra. }
  destruct (call_double junk junk2 junk3 junkS nrb xs fields L3 HA X MW) as (C & F & E1 & _ & H1).
  destruct (call_double junk junk2 junk3 junkS nrb' xs fields L3' MA (ins_args xs X) ins_weights) as (C' & F' & E1' & _ & H1').
  exists C, F, C', F'. split; [exact E1|]. split; [exact E1'|]. intros idx c M I HM HC.
  assert (M1 : M <= b2 500) by (apply Rle_trans with (1 := proj2 HM); apply b2_le; lia).
  assert (Q : b2 (-960) <= b2 400 /\ 3 * b2 400 <= b2 500).
  { split; [apply b2_le; lia|]. apply Rle_trans with (b2 2 * b2 400); [apply Rmult_le_compat_r; [left; apply b2_pos|unfold b2; simpl; lra]|rewrite <- b2_add; apply b2_le; lia]. }
  assert (M2 : 0 <= 2 * M + b2 (-960) <= b2 500) by (pose proof (b2_pos (-960)); lra).
  destruct (H1 idx c M I ltac:(lra) HC) as [F1 D1]. destruct (H1' idx c _ I M2 (ins_comp c M HM HC)) as [F1' D1'].
  split; [exact F1|]. split; [exact F1'|]. rewrite (deg_terms _ _ ED) in D1'.
  pose proof (ins_pt c M HM HC (real_params xs idx) (par_box _ _ _ X I)) as D2.
  replace (dval (C' idx c) - dval (C idx c)) with ((dval (C' idx c) - real_pt nrb' c (real_params xs idx)) + ((real_pt nrb' c (real_params xs idx) - real_pt nrb c (real_params xs idx)) + - (dval (C idx c) - real_pt nrb c (real_params xs idx)))) by ring.
  rewrite <- (Rabs_Ropp (dval (C idx c) - _)) in D1.
  apply Rle_trans with (1 := sum_le _ _ _ _ D1' (sum_le _ _ _ _ D2 D1)).
  pose proof (cnt_bound _ L3 HA) as CB. set (E := effort (n_axes nrb)) in *. assert (EB : 1 <= E <= 2000000) by (unfold E, effort; split; [apply (IZR_le 1)|apply (IZR_le _ 2000000)]; lia).
  assert (P1 : b2 (-960) <= b2 (-900)) by (apply b2_le; lia). pose proof (b2_pos (-960)).
  assert (P2 : b2 (-49) * E <= 1).
  { apply Rle_trans with (b2 (-49) * 2000000); [apply Rmult_le_compat_l; [left; apply b2_pos|lra]|unfold b2; simpl; lra]. }
  assert (P3 : 4 * b2 (-900) = b2 (-898)) by (replace (-898)%Z with (2 + -900)%Z by lia; rewrite b2_add; unfold b2 at 2; simpl; lra).
  assert (P4 : b2 (-47) = 4 * b2 (-49)) by (replace (-47)%Z with (2 + -49)%Z by lia; rewrite b2_add; unfold b2 at 1; simpl; lra).
  rewrite P4. assert (P5 : b2 (-49) * E * b2 (-960) <= 1 * b2 (-960)) by (apply Rmult_le_compat_r; lra).
  assert (P6 : 0 <= b2 (-49) * E * M) by (apply Rmult_le_pos; [apply Rmult_le_pos; [left; apply b2_pos|lra]|lra]). lra.
Qed.
End Weights.
End Ins.

(** ** Nothing is raised *)
Lemma ins_accepts (dj : Z -> Dn) (nrb : nurbs Dn) ax a (u : Dn) times : Forall mild_axis (n_axes nrb) -> py_axis (n_dim nrb) ax = Ok a ->
  let A := get_axis nrb a in new_knot A u -> (match times with Some t => 0 <= t /\ times_in A u + t <= a_deg A | None => True end)%Z ->
  exists nrb', insert (N:=Dn) dj nrb ax u times = Ok nrb'.
Proof.
  intros HA Ea A (Fu & Hi & Hs) Ht. assert (MA : mild_axis A) by (rewrite Forall_forall in HA; apply HA; apply nth_In; apply py_axis_ok in Ea; unfold n_dim in Ea; lia).
  destruct MA as ([Wp Wk] & P100 & FK & _). cbn [real_ax x_p x_n x_U] in Wp, Wk. set (n := (a_size A - 1)%Z) in *. set (p := a_deg A) in *. set (rU := fun i : Z => dval (a_knots A i)) in *.
  assert (Ln : a_len A = (n + p + 2)%Z) by (unfold n, p, a_deg; lia). assert (Sn : a_size A = (n + 1)%Z) by (unfold n; lia).
  assert (FU : forall i, (0 <= i <= n + p + 1)%Z -> finite (a_knots A i) /\ Rabs (dval (a_knots A i)) <= b2 501).
  { intros i Hi'. destruct (FK i ltac:(lia)) as [F1 F2]. split; auto. apply Rle_trans with (1 := F2). apply b2_le. lia. }
  pose proof (wf_n _ _ _ Wk) as Hn. rewrite Sn in Hi.
  assert (Du : in_domain n p rU (dval u)) by (unfold in_domain, rU; lra).
  unfold times_in in Ht. replace (a_len A - 1)%Z with (n + p + 1)%Z in Hs, Ht by lia. change (separated rU 0 (n + p + 1) (dval u)) in Hs. change (fun i : Z => dval (a_knots A i)) with rU in Ht.
  pose proof (FindMult_min n p rU (dval u) Wk Du Hs) as FM.
  assert (FKn : fin_knots n p (a_knots A)) by (intros i Hi'; apply FU; auto).
  pose proof (span_active n p (a_knots A) u FKn Fu Wk Du) as A1. pose proof (FindSpan_active n p rU (dval u) Wk Du) as A2.
  assert (Hk : (p <= FindSpan (N:=Rn) n p (dval u) rU <= n)%Z) by (destruct A2; lia).
  assert (EM : py_FindMult A u = Ok (FindMult (N:=Rn) (FindSpan (N:=Rn) n p (dval u) rU) (dval u) p rU)).
  { unfold py_FindMult, bsp_FindMult. fold p. destruct (Z.leb_spec 1 p); [|lia]. destruct (Z.leb_spec (2 * p + 1) (a_len A - 1)); [|lia]. cbn [andb]. change (0 <=? -1)%Z with false. cbv iota.
    replace (a_len A - 1 - (p + 1))%Z with n by lia.
    rewrite (BLink.active_unique _ _ _ _ _ _ Wk A1 A2). f_equal.
    apply FindMult_double; auto; try lia.
    - destruct (FU p ltac:(lia)) as [_ B1]. destruct (FU (n + 1)%Z ltac:(lia)) as [_ B2]. apply abs_le in B1. apply abs_le in B2. apply Rabs_le. lra.
    - intros i Hi'. apply FU. lia.
    - intros i Hi'. apply Hs. lia. }
  unfold insert. rewrite Ea. cbn [bind]. fold A. rewrite EM. fold p n. cbn [bind]. rewrite FM.
  set (mm := Z.min (multiplicity rU 0 (n + p + 1) (dval u)) p) in *.
  set (t := match times with Some t => t | None => (p - mm)%Z end).
  assert (Lo : nleb Dn (a_lo A) u = true) by (unfold a_lo; fold p; apply leb_ok; [apply FU; lia|exact Fu|lra]).
  assert (Hh : nleb Dn u (a_hi A) = true).
  { unfold a_hi. fold p. replace (a_len A - p - 1)%Z with (n + 1)%Z by lia. apply leb_ok; [exact Fu|apply FU; lia|lra]. }
  rewrite Lo, Hh. cbn [assert bind].
  assert (L1 : nleb Dn (a_knots A p) u = true) by (apply leb_ok; [apply FU; lia|exact Fu|lra]).
  assert (L2 : nleb Dn u (a_knots A (n + 1)%Z) = true) by (apply leb_ok; [exact Fu|apply FU; lia|lra]). rewrite L1, L2.
  pose proof (multiplicity_nonneg rU 0 (n + p + 1) (dval u)) as M0.
  assert (Tm : (0 <= t /\ t + mm <= p)%Z) by (unfold t; destruct times; unfold mm; lia).
  destruct (Z.leb_spec (t + mm) p); [|lia]. cbn [assert bind].
  destruct (Z.eqb_spec t 0); [eexists; reflexivity|].
  destruct (Z.leb_spec 1 n); [|lia]. destruct (Z.leb_spec 1 p); [|lia]. destruct (Z.leb_spec 0 t); [|lia]. destruct (Z.leb_spec t p); [|unfold mm in *; lia]. cbn [check andb bind].
  eexists. reflexivity.
Qed.
