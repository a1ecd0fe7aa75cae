(** [NURBS.__call__] in doubles. *)
From Coq Require Import ZArith Reals List Bool SpecFloat Lia Lra Psatz.
From Verif Require Import Num Loop Spec SumZ ModelBspline ModelBSp ModelNurbs ModelFloat SpecNurbs BPiece BLink SpecDouble SpecRound
  ProofRound ProofRound2 ProofRound3 ProofRound4 ProofRound5 ProofRound6 ProofSpan ProofEval ProofNet ProofCall ProofGeom2.
Import ListNotations.
Local Open Scope R_scope.

Definition good (axs : list (axis Dn)) (xs : list (vec Dn)) : Prop := Forall2 mild_arg axs xs.
Definition in_rng (xs : list (vec Dn)) (idx : list Z) : Prop := Forall2 (fun x i => (0 <= i < v_len x)%Z) xs idx.
Definition cnt (axs : list (axis Dn)) : nat := Z.to_nat (terms axs + degs axs).

Lemma mild_of A x i : mild_axis A -> mild_arg A x -> (0 <= i < v_len x)%Z -> mild (a_size A - 1) (a_deg A) (a_knots A) (v_get x i).
Proof.
  intros ((Hp & W) & P100 & F & Sep) (_ & D) Hi. destruct (D i Hi) as [Fu Du]. cbn in Hp.
  assert (L : a_len A = (a_size A - 1 + a_deg A + 1 + 1)%Z) by (unfold a_deg; lia).
  split; [|split; [lia|split; [exact W|split; auto]]]. split; [|split].
  - intros k Hk. apply F. lia.
  - intros k Hk. apply F. lia.
  - intros k l Hk Hl. apply Sep; lia.
Qed.

(** Checks. *)
Lemma checksD axs : Forall mild_axis axs -> forallb (fun A : axis Dn => (2 <=? a_size A)%Z && (1 <=? a_deg A)%Z) axs = true.
Proof.
  intros F. apply forallb_forall. intros A HA. rewrite Forall_forall in F. destruct (F A HA) as ((Hp & W) & _).
  pose proof (wf_n _ _ _ W). cbn in *. apply andb_true_intro. split; apply Z.leb_le; lia.
Qed.
Lemma lensD axs xs : good axs xs -> forallb (fun x : vec Dn => (1 <=? v_len x)%Z) xs = true.
Proof.
  intros G. induction G as [|a x axs xs [H1 H2] G IH]; simpl; auto. rewrite IH.
  replace (1 <=? v_len x)%Z with true by (symmetry; apply Z.leb_le; lia). reflexivity.
Qed.
Lemma vallD (f : Dn -> bool) (u : vec Dn) : (forall i, (0 <= i < v_len u)%Z -> f (v_get u i) = true) -> vall (N:=Dn) f u = true.
Proof. intros H. unfold vall. apply forallb_forall. intros i Hi. apply H. apply zseq_In in Hi. lia. Qed.
Lemma eval_argD (A : axis Dn) u : mild_axis A -> mild_arg A u -> eval_arg (N:=Dn) A u = Ok u.
Proof.
  intros ((Hp & W) & P100 & F & Sep) (L1 & D). cbn in Hp. unfold eval_arg. pose proof (wf_n _ _ _ W) as Wn. cbn in Wn.
  replace (v_len u <=? 0)%Z with false by (symmetry; apply Z.leb_gt; lia).
  assert (L : a_len A = (a_size A - 1 + a_deg A + 1 + 1)%Z) by (unfold a_deg; lia).
  rewrite vallD; [|intros i Hi; destruct (D i Hi) as (Fu & Du & _); apply leb_ok; auto; apply F; lia]. cbn [assert bind].
  rewrite vallD; [reflexivity|]. intros i Hi. destruct (D i Hi) as (Fu & _ & Du). unfold a_hi.
  replace (a_len A - a_deg A - 1)%Z with (a_size A - 1 + 1)%Z by lia. apply leb_ok; auto. apply F; lia.
Qed.
Lemma eval_argsD junk axs xs : Forall mild_axis axs -> good axs xs -> eval_args (N:=Dn) junk axs (map Some xs) = Ok xs.
Proof.
  intros F G. revert F. induction G as [|A x axs xs H G IH]; intros F; cbn; [reflexivity|]. inversion F; subst.
  rewrite eval_argD by auto. cbn [bind]. rewrite IH by auto. reflexivity.
Qed.
Lemma par_box axs xs idx : good axs xs -> in_rng xs idx -> in_box (map real_ax axs) (real_params xs idx).
Proof.
  intros G. revert idx. induction G as [|a x axs xs [H1 H2] G IH]; intros idx I; inversion I; subst; simpl; constructor.
  - cbn. apply H2. auto.
  - apply IH. auto.
Qed.
Lemma wf_axs axs : Forall mild_axis axs -> Forall wf_ax (map real_ax axs).
Proof. intros F. rewrite Forall_map. eapply Forall_impl; [|exact F]. intros A H. apply H. Qed.
Lemma cnt_bound axs : (length axs <= 3)%nat -> Forall mild_axis axs -> (1 <= terms axs + degs axs <= 2000000)%Z.
Proof.
  intros L F. assert (H : forall A, In A axs -> (1 <= a_deg A <= 100)%Z).
  { rewrite Forall_forall in F. intros A I. destruct (F A I) as ((Hp & _) & P100 & _). cbn in Hp. lia. }
  clear F.
  destruct axs as [|A [|B [|C [|E axs]]]]; cbn [length] in L; try lia; cbn [terms degs].
  - lia.
  - specialize (H A ltac:(cbn; auto)). lia.
  - pose proof (H A ltac:(cbn; auto)) as HA. pose proof (H B ltac:(cbn; auto)) as HB. clear H.
    assert (0 <= (a_deg A + 1) * ((a_deg B + 1) * 1) <= 101 * (101 * 1))%Z by (split; [apply Z.mul_nonneg_nonneg; lia|apply Z.mul_le_mono_nonneg; lia]). lia.
  - pose proof (H A ltac:(cbn; auto)) as HA. pose proof (H B ltac:(cbn; auto)) as HB. pose proof (H C ltac:(cbn; auto)) as HC. clear H.
    assert (0 <= (a_deg B + 1) * ((a_deg C + 1) * 1) <= 101 * (101 * 1))%Z by (split; [apply Z.mul_nonneg_nonneg; lia|apply Z.mul_le_mono_nonneg; lia]).
    assert (0 <= (a_deg A + 1) * ((a_deg B + 1) * ((a_deg C + 1) * 1)) <= 101 * (101 * (101 * 1)))%Z by (split; [apply Z.mul_nonneg_nonneg; lia|apply Z.mul_le_mono_nonneg; lia]). lia.
Qed.

(** The quotient of two approximations. *)
Lemma quot_ok k a M W C Cd Wd : 1 <= k <= 4000000 -> 0 <= a <= 4 * uu * k -> 0 <= M <= b2 500 -> b2 (-100) <= W -> Rabs C <= M * W ->
  finite Cd -> finite Wd -> Rabs (dval Cd - C) <= a * (M * W) + (b2 (-340) * (M * b2 100) + b2 (-1053)) ->
  Rabs (dval Wd - W) <= a * W + (b2 (-340) * b2 100 + b2 (-1053)) ->
  finite (SFdiv 53 1024 Cd Wd) /\ Rabs (dval (SFdiv 53 1024 Cd Wd) - C / W) <= 16 * uu * k * M + b2 (-900).
Proof.
  intros Hk Ha HM HW HC FC FW EC EW. pose proof (b2_pos (-100)) as P100. pose proof (b2_pos (-1053)) as P1053. pose proof eta_pos as PE.
  assert (UP : 0 < uu) by apply uu_pos. pose proof uu_val as UV.
  assert (UK : uu <= uu * k) by (rewrite <- (Rmult_1_r uu) at 1; apply Rmult_le_compat_l; lra).
  assert (UK2 : uu * k <= / 1000000000) by (rewrite UV; lra).
  (* the absolute parts are relatively small *)
  assert (S1 : b2 (-340) * b2 100 <= uu * W / 2).
  { apply Rle_trans with (uu * b2 (-100) / 2); [|apply Rmult_le_compat_r; [lra|]; apply Rmult_le_compat_l; lra].
    unfold uu. rewrite <- !b2_add. replace (b2 (-53 + -100)) with (2 * b2 (-154)) by (rewrite <- b2_1; reflexivity).
    replace (2 * b2 (-154) / 2) with (b2 (-154)) by field. apply b2_le. lia. }
  assert (S2 : b2 (-1053) <= uu * W / 2).
  { apply Rle_trans with (2 := S1). rewrite <- b2_add. apply b2_le. lia. }
  assert (WP : 0 < W) by lra.
  assert (EW' : Rabs (dval Wd - W) <= (a + uu) * W) by lra.
  assert (EC' : Rabs (dval Cd - C) <= (a + uu) * (M * W) + b2 (-1053)).
  { assert (b2 (-340) * (M * b2 100) <= uu * (M * W)); [|lra].
    replace (b2 (-340) * (M * b2 100)) with (M * (b2 (-340) * b2 100)) by ring. replace (uu * (M * W)) with (M * (uu * W)) by ring. apply Rmult_le_compat_l; [lra|].
    assert (0 <= uu * W) by (apply Rmult_le_pos; lra). lra. }
  set (t := a + uu) in *. assert (T1 : 0 <= t <= 5 * (uu * k)) by (unfold t; lra). assert (T2 : t <= / 16) by lra.
  assert (WD : W * (15 / 16) <= dval Wd).
  { assert (t * W <= / 16 * W) by (apply Rmult_le_compat_r; lra). pose proof (Rle_abs (- (dval Wd - W))) as R1. rewrite Rabs_Ropp in R1. lra. }
  assert (WDP : 0 < dval Wd) by lra.
  set (q := C / W). assert (Q : Rabs q <= M).
  { unfold q, Rdiv. rewrite Rabs_mult, (Rabs_right (/ W)) by (apply Rle_ge, Rlt_le, Rinv_0_lt_compat; lra). apply Rmult_le_reg_r with W; [lra|]. rewrite Rmult_assoc, Rinv_l by lra. lra. }
  assert (CQ : C = q * W) by (unfold q; field; lra).
  set (e := dval Cd / dval Wd - q).
  assert (E : e * dval Wd = (dval Cd - C) - q * (dval Wd - W)) by (unfold e; rewrite CQ; field; lra).
  assert (E1 : Rabs e * dval Wd <= 2 * t * (M * W) + b2 (-1053)).
  { rewrite <- (Rabs_right (dval Wd)) at 1 by lra. rewrite <- Rabs_mult, E. unfold Rminus at 1. eapply Rle_trans; [apply Rabs_triang|]. rewrite Rabs_Ropp, Rabs_mult.
    assert (Rabs q * Rabs (dval Wd - W) <= M * (t * W)) by (apply Rmult_le_compat; try apply Rabs_pos; lra). lra. }
  assert (E2 : Rabs e <= 16 / 15 * (2 * t * M + b2 (-953))).
  { assert (B : b2 (-1053) <= b2 (-953) * W).
    { apply Rle_trans with (b2 (-953) * b2 (-100)); [rewrite <- b2_add; apply b2_le; lia|]. apply Rmult_le_compat_l; [apply Rlt_le, b2_pos|lra]. }
    assert (K : Rabs e * (W * (15 / 16)) <= Rabs e * dval Wd) by (apply Rmult_le_compat_l; [apply Rabs_pos|lra]).
    apply Rmult_le_reg_r with (W * (15 / 16)); [lra|]. replace (16 / 15 * (2 * t * M + b2 (-953)) * (W * (15 / 16))) with (2 * t * (M * W) + b2 (-953) * W) by field. lra. }
  assert (TM : t * M <= 5 * (uu * k) * M) by (apply Rmult_le_compat_r; lra).
  assert (KM : 0 <= uu * k * M) by (repeat apply Rmult_le_pos; lra).
  assert (SM : uu * k * M <= / 1000000000 * M) by (apply Rmult_le_compat_r; lra).
  assert (NB : Rabs (dval Cd / dval Wd) <= M + Rabs e).
  { replace (dval Cd / dval Wd) with (q + e) by (unfold e; ring). eapply Rle_trans; [apply Rabs_triang|]. lra. }
  assert (B953 : b2 (-953) <= b2 (-900) / 4 /\ eta <= b2 (-900) / 4 /\ b2 (-900) <= 1).
  { assert (H : b2 (-900) / 4 = b2 (-902)) by (replace (b2 (-900)) with (2 * (2 * b2 (-902))) by (rewrite <- !b2_1; reflexivity); field).
    rewrite H. split; [apply b2_le; lia|]. split; [unfold eta; apply b2_le; lia|]. rewrite <- b2_0. apply b2_le. lia. }
  destruct B953 as (B1 & B2 & B3). pose proof (b2_pos (-953)) as P953.
  assert (M5 : b2 500 <= b2 1023 / 8).
  { replace (b2 1023 / 8) with (b2 1020); [apply b2_le; lia|]. replace (b2 1023) with (2 * (2 * (2 * b2 1020))) by (rewrite <- !b2_1; reflexivity). field. }
  assert (B8 : 64 < b2 1023) by apply big_1023.
  destruct (div_ok Cd Wd FC FW ltac:(lra)) as (F & ER & _).
  { eapply Rle_lt_trans; [exact NB|]. lra. }
  split; [exact F|].
  replace (dval (SFdiv 53 1024 Cd Wd) - q) with ((dval (SFdiv 53 1024 Cd Wd) - dval Cd / dval Wd) + e) by (unfold e; ring).
  eapply Rle_trans; [apply Rabs_triang|].
  assert (UN : uu * Rabs (dval Cd / dval Wd) <= uu * (M + Rabs e)) by (apply Rmult_le_compat_l; lra).
  assert (UE : uu * Rabs e <= / 1000000000 * Rabs e) by (apply Rmult_le_compat_r; [apply Rabs_pos|lra]).
  assert (UM : uu * M <= uu * k * M) by (apply Rmult_le_compat_r; lra).
  lra.
Qed.

Section CallD.
Variables (junk : Z -> Dn) (junk2 : Z -> Z -> Dn) (junk3 : Z -> Z -> Z -> Dn) (junkS : Z -> Z).
Let pyEval := py_Evaluate (N:=Dn) junk junk2 junk3 junkS.

Definition close_to (axs : list (axis Dn)) (Pm : R) (C : spec_float) (f : list Z -> Dn) (us : list R) : Prop :=
  let c := tsum (map real_ax axs) (fun i => dval (f i)) us in let m := tsum (map real_ax axs) (fun i => Rabs (dval (f i))) us in
  finite C /\ Rabs c <= m /\ Rabs (dval C - c) <= (G ^ cnt axs - 1) * m + (b2 (-340) * Pm + b2 (-1053)).

Lemma py_EvaluateD axs xs (f : list Z -> Dn) Pm : (length axs <= 3)%nat -> Forall mild_axis axs -> good axs xs -> 0 <= Pm <= b2 900 ->
  exists g, pyEval axs xs f = Ok g /\
    ((forall i, in_net (map real_ax axs) i -> finite (f i) /\ Rabs (dval (f i)) <= Pm) ->
     forall idx, in_rng xs idx -> close_to axs Pm (g idx) f (real_params xs idx)).
Proof.
  intros Hl W G HPm. pose proof (cnt_bound axs Hl W) as CB. assert (FW : few (cnt axs)) by (apply few_Z; unfold cnt; lia).
  unfold pyEval, py_Evaluate. rewrite (checksD axs W), (lensD _ _ G). cbn [check bind].
  destruct axs as [|A [|B [|C [|E axs]]]]; cbn [length] in Hl; try lia.
  - inversion G; subst. eexists. split; [reflexivity|]. intros HP idx I. inversion I. destruct (HP []) as [F0 F1]; [constructor|].
    unfold close_to. cbn [tsum map]. split; [exact F0|]. split; [lra|]. replace (dval (f []) - dval (f [])) with 0 by ring. rewrite Rabs_R0.
    pose proof (Rabs_pos (dval (f []))). pose proof (Gk_ge (cnt [])). pose proof (b2_pos (-340)). pose proof (b2_pos (-1053)).
    repeat apply Rplus_le_le_0_compat; try lra; apply Rmult_le_pos; lra.
  - inversion G as [|? x ? xs' DA G']; subst. inversion G'; subst. inversion W as [|? ? WA _]; subst.
    eexists. split; [reflexivity|]. intros HP idx I. inversion I as [|? i ? idx' Hi I']; subst. inversion I'; subst.
    cbn [nth]. pose proof (mild_of A x i WA DA Hi) as ML. destruct WA as ((Hp & WA) & P100 & _). cbn in Hp.
    assert (EC : cnt [A] = (6 * Z.to_nat (a_deg A) + 1 + Z.to_nat (a_deg A + 1))%nat) by (unfold cnt; cbn [terms degs]; lia).
    unfold close_to. rewrite EC in *. apply (acc_final Pm HPm); [lia|exact FW|].
    apply (eval1_dbl Pm HPm (a_size A - 1) (a_deg A) (a_knots A) (fun k => f [k])); [lia|exact ML|].
    intros k Hk. apply HP. constructor; [exact Hk|constructor].
  - inversion G as [|? x ? xs' DA G']; subst. inversion G' as [|? y ? ys' DB G'']; subst. inversion G''; subst.
    inversion W as [|? ? WA W']; subst. inversion W' as [|? ? WB _]; subst.
    eexists. split; [reflexivity|]. intros HP idx I. inversion I as [|? i ? idx' Hi I']; subst. inversion I' as [|? j ? idx2 Hj I'']; subst. inversion I''; subst.
    cbn [nth]. pose proof (mild_of A x i WA DA Hi) as ML. pose proof (mild_of B y j WB DB Hj) as ML2.
    destruct WA as ((Hp & WA) & P100 & _). destruct WB as ((Hp2 & WB) & P100' & _). cbn in Hp, Hp2.
    assert (EC : cnt [A; B] = (6 * Z.to_nat (a_deg A) + 6 * Z.to_nat (a_deg B) + 2 + Z.to_nat (a_deg A + 1) * Z.to_nat (a_deg B + 1))%nat).
    { unfold cnt. cbn [terms degs]. rewrite <- Z2Nat.inj_mul by lia. rewrite Z.mul_1_r.
      assert (0 <= (a_deg A + 1) * (a_deg B + 1))%Z by (apply Z.mul_nonneg_nonneg; lia). lia. }
    unfold close_to. rewrite EC in *. apply (acc_final Pm HPm); [cbn [terms degs] in CB; rewrite <- Z2Nat.inj_mul by lia; lia|exact FW|].
    apply (eval2_dbl Pm HPm (a_size A - 1) (a_deg A) (a_knots A) (a_size B - 1) (a_deg B) (a_knots B) (fun l k => f [k; l])); [lia|lia|exact ML|exact ML2|].
    intros k l Hk Hll. apply HP. constructor; [exact Hk|constructor; [exact Hll|constructor]].
  - inversion G as [|? x ? xs' DA G']; subst. inversion G' as [|? y ? ys' DB G'']; subst. inversion G'' as [|? z ? zs' DC G3]; subst. inversion G3; subst.
    inversion W as [|? ? WA W']; subst. inversion W' as [|? ? WB W'']; subst. inversion W'' as [|? ? WC _]; subst.
    eexists. split; [reflexivity|]. intros HP idx I. inversion I as [|? i ? idx' Hi I']; subst. inversion I' as [|? j ? idx2 Hj I'']; subst. inversion I'' as [|? k ? idx3 Hk I3]; subst. inversion I3; subst.
    cbn [nth]. pose proof (mild_of A x i WA DA Hi) as ML. pose proof (mild_of B y j WB DB Hj) as ML2. pose proof (mild_of C z k WC DC Hk) as ML3.
    destruct WA as ((Hp & WA) & P100 & _). destruct WB as ((Hp2 & WB) & P100' & _). destruct WC as ((Hp3 & WC) & P100'' & _). cbn in Hp, Hp2, Hp3.
    assert (EC : cnt [A; B; C] = (6 * Z.to_nat (a_deg A) + 6 * Z.to_nat (a_deg B) + 6 * Z.to_nat (a_deg C) + 3 + Z.to_nat (a_deg A + 1) * (Z.to_nat (a_deg B + 1) * Z.to_nat (a_deg C + 1)))%nat).
    { unfold cnt. cbn [terms degs]. assert (0 <= (a_deg B + 1) * (a_deg C + 1))%Z by (apply Z.mul_nonneg_nonneg; lia). rewrite <- !Z2Nat.inj_mul by lia. rewrite Z.mul_1_r.
      assert (0 <= (a_deg A + 1) * ((a_deg B + 1) * (a_deg C + 1)))%Z by (apply Z.mul_nonneg_nonneg; lia). lia. }
    unfold close_to. rewrite EC in *. apply (acc_final Pm HPm).
    { cbn [terms degs] in CB. assert (0 <= (a_deg B + 1) * (a_deg C + 1))%Z by (apply Z.mul_nonneg_nonneg; lia). rewrite <- !Z2Nat.inj_mul by lia. lia. }
    { exact FW. }
    apply (eval3_dbl Pm HPm (a_size A - 1) (a_deg A) (a_knots A) (a_size B - 1) (a_deg B) (a_knots B) (a_size C - 1) (a_deg C) (a_knots C) (fun c b a => f [a; b; c])); [lia|lia|lia|exact ML|exact ML2|exact ML3|].
    intros a b c Ha Hb Hc. apply HP. constructor; [exact Ha|constructor; [exact Hb|constructor; [exact Hc|constructor]]].
Qed.

Lemma py_EvaluateAllD axs xs (f : list Z -> Z -> Dn) : (length axs <= 3)%nat -> Forall mild_axis axs -> good axs xs ->
  exists g, py_EvaluateAll (N:=Dn) junk junk2 junk3 junkS axs xs f = Ok g /\
    forall c Pm, 0 <= Pm <= b2 900 -> (forall i, in_net (map real_ax axs) i -> finite (f i c) /\ Rabs (dval (f i c)) <= Pm) ->
     forall idx, in_rng xs idx -> close_to axs Pm (g idx c) (fun i => f i c) (real_params xs idx).
Proof.
  intros Hl W Gd. unfold py_EvaluateAll. fold pyEval.
  assert (B0 : 0 <= 0 <= b2 900) by (pose proof (b2_pos 900); lra).
  destruct (py_EvaluateD axs xs (fun idx => f idx 0%Z) 0 Hl W Gd B0) as [g0 [E0 _]]. rewrite E0. cbn [bind].
  eexists. split; [reflexivity|]. intros c Pm HPm HP idx I. cbv beta.
  destruct (py_EvaluateD axs xs (fun idx => f idx c) Pm Hl W Gd HPm) as [g [E H]]. rewrite E. apply H; auto.
Qed.

Theorem call_double nrb xs (fields : bool) :
  (length (n_axes nrb) <= 3)%nat -> Forall mild_axis (n_axes nrb) -> Forall2 mild_arg (n_axes nrb) xs -> mild_weights nrb ->
  exists C F, call (N:=Dn) junk junk2 junk3 junkS nrb (map Some xs) (if fields then FYes else FNo) = Ok (C, F) /\
    (if fields then F = Some (fun idx c => C idx (4 + c)%Z) else F = None) /\
    forall idx c M, Forall2 (fun x i => (0 <= i < v_len x)%Z) xs idx -> 0 <= M <= b2 500 -> mild_comp nrb c M ->
      finite (C idx c) /\ Rabs (dval (C idx c) - real_pt nrb c (real_params xs idx)) <= b2 (-49) * effort (n_axes nrb) * M + b2 (-900).
Proof.
  intros Hl W Gd MW. unfold call. rewrite (eval_argsD junk _ _ W Gd). cbn [bind].
  destruct (py_EvaluateAllD (n_axes nrb) xs (n_arr nrb) Hl W Gd) as (g & Eg & Hg).
  assert (RES : forall idx c M, in_rng xs idx -> 0 <= M <= b2 500 -> mild_comp nrb c M ->
      finite (SFdiv 53 1024 (g idx c) (g idx 3%Z)) /\ Rabs (dval (SFdiv 53 1024 (g idx c) (g idx 3%Z)) - real_pt nrb c (real_params xs idx)) <= b2 (-49) * effort (n_axes nrb) * M + b2 (-900)).
  { intros idx c M I HMc HP. pose proof (cnt_bound _ Hl W) as CB.
    pose proof (wf_axs _ W) as WA. pose proof (par_box _ _ _ Gd I) as BX. set (axs := n_axes nrb) in *. set (us := real_params xs idx) in *.
    pose proof (b2_pos 100) as P100.
    assert (BM : 0 <= M * b2 100 <= b2 900).
    { split; [apply Rmult_le_pos; lra|]. apply Rle_trans with (b2 500 * b2 100); [apply Rmult_le_compat_r; lra|]. rewrite <- b2_add. apply b2_le. lia. }
    destruct (Hg c (M * b2 100) BM) with (idx := idx) as (FC & _ & EC); auto.
    { intros i Hi. destruct (HP i Hi) as [F1 F2]. destruct (MW i Hi) as [F3 F4]. split; [exact F1|]. apply Rle_trans with (1 := F2). apply Rmult_le_compat_l; lra. }
    destruct (Hg 3%Z (b2 100)) with (idx := idx) as (FW' & _ & EW); auto.
    { split; [lra|apply b2_le; lia]. }
    { intros i Hi. destruct (MW i Hi) as [F3 F4]. split; [exact F3|]. rewrite Rabs_right; [lra|]. pose proof (b2_pos (-100)). lra. }
    fold us in EC, EW.
    set (Wt := tsum (map real_ax axs) (fun i => dval (n_arr nrb i 3%Z)) us) in *.
    set (Ct := tsum (map real_ax axs) (fun i => dval (n_arr nrb i c)) us) in *.
    assert (LU : length us = length (map real_ax axs)) by (apply in_box_length; exact BX).
    assert (W1 : b2 (-100) <= Wt).
    { rewrite <- (tsum_const (map real_ax axs) us (b2 (-100)) WA BX). apply tsum_mono; auto. intros i Hi. apply MW. exact Hi. }
    assert (AW : tsum (map real_ax axs) (fun i => Rabs (dval (n_arr nrb i 3%Z))) us = Wt).
    { apply tsum_ext; auto. intros i Hi. apply Rabs_right. destruct (MW i Hi) as [_ F4]. pose proof (b2_pos (-100)). lra. }
    assert (AC : tsum (map real_ax axs) (fun i => Rabs (dval (n_arr nrb i c))) us <= M * Wt).
    { unfold Wt. rewrite <- tsum_scal by auto. apply tsum_mono; auto. intros i Hi. apply HP. exact Hi. }
    assert (CC : Rabs Ct <= M * Wt).
    { eapply Rle_trans; [|exact AC]. apply Rabs_le. split.
      - apply Ropp_le_cancel. rewrite Ropp_involutive. replace (- Ct) with (-1 * Ct) by ring. unfold Ct. rewrite <- tsum_scal by auto. apply tsum_mono; auto.
        intros i Hi. pose proof (Rle_abs (- dval (n_arr nrb i c))) as R1. rewrite Rabs_Ropp in R1. lra.
      - apply tsum_mono; auto. intros i Hi. apply Rle_abs. }
    rewrite AW in EW. set (k := cnt axs) in *.
    assert (IK : INR k = IZR (terms axs + degs axs)) by (unfold k, cnt; rewrite INR_IZR_INZ, Z2Nat.id by lia; reflexivity).
    assert (HK : 1 <= INR k <= 4000000) by (rewrite IK; split; apply IZR_le; lia).
    pose proof (Gk_ge k) as G1.
    assert (GL : G ^ k <= 1 + 4 * uu * INR k) by (apply Gk_lin; rewrite uu_val; lra).
    destruct (quot_ok (INR k) (G ^ k - 1) (M) Wt Ct (g idx c) (g idx 3%Z)) as [Fr Er]; auto; try lra.
    { eapply Rle_trans; [exact EC|]. apply Rplus_le_compat_r. apply Rmult_le_compat_l; lra. }
    split; [exact Fr|]. unfold real_pt. fold axs. fold Ct Wt. eapply Rle_trans; [exact Er|]. apply Req_le. unfold effort. rewrite <- IK.
    replace (b2 (-49)) with (16 * uu); [ring|]. unfold uu. replace (b2 (-49)) with (2 * (2 * (2 * (2 * b2 (-53))))) by (rewrite <- !b2_1; reflexivity). ring. }
  destruct fields; cbn [call_array bind snd]; rewrite Eg; cbn [bind]; do 2 eexists; (split; [reflexivity|split; [reflexivity|exact RES]]).
Qed.
End CallD.
