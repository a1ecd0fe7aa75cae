(** bsp.RemoveKnot: bookkeeping, error bound, and inverse of bsp.InsertKnot. *)
From Coq Require Import ZArith Reals List Lia Lra Bool FunctionalExtensionality.
From Verif Require Import Num Loop ModelBspline ModelBSp Spec SumZ BPiece BLink BInsert BRep ProofSpan ProofEval ProofInsert ProofRemove ProofRemove2.
Local Open Scope R_scope.
Local Arguments Z.add : simpl never.
Local Arguments Z.sub : simpl never.
Local Arguments Z.mul : simpl never.

Section Gen.
Variables (n p : Z) (U : Z -> R) (u : R) (K S : Z).
Hypothesis W : wf_knots n p U.
Hypothesis Hp : (1 <= p)%Z.
Hypothesis HK : (p <= K <= n)%Z.
Hypothesis HS : (0 <= S <= p + 1)%Z.
Hypothesis HKS : (p <= K - S)%Z.
Hypothesis Hu : U K <= u < U (K + 1)%Z.
Hypothesis Hblock : forall i, (K - S + 1 <= i <= K)%Z -> U i = u.
Hypothesis Hless : forall i, (0 <= i <= K - S)%Z -> U i < u.
Notation Vt' := (Vt U K).
Variables (d : Z) (P : Z -> Z -> R) (TOL : R) (junk2 : Z -> Z -> R).

Definition close t (Q : Z -> Z -> R) : Prop := forall x c, in_domain n p U x -> (1 <= c <= d)%Z ->
  Rabs (curve (n - t) p (Vt' t) (fun i => Q i c) x - curve n p U (fun i => P i c) x) <= IZR t * TOL.

Definition Inv t A : Prop := exists Q, Rp n p K S t A Q /\ close t Q /\ ((0 < t)%Z -> 0 <= TOL) /\ (t = 0%Z -> A = P) /\
  ((0 < t)%Z -> forall g, (2 * K - p - S - t <= 2 * g <= 2 * K - p - S - t + 2)%Z -> close t (QG g t A)).

Lemma Vt_0 : Vt' 0 = U.
Proof. apply functional_extensionality. intros i. unfold Vt. rewrite Z.add_0_r. destruct (i <=? _)%Z; reflexivity. Qed.

Lemma Inv_0 : Inv 0 P.
Proof.
  exists P. split; [|split; [|split; [|split]]].
  - split; intros; auto. f_equal. lia.
  - intros x c D Hc. rewrite Vt_0, Z.sub_0_r. apply diff0; auto. lra.
  - lia.
  - auto.
  - lia.
Qed.

Lemma Inv_S t A A' : (0 <= t < S)%Z -> Inv t A ->
  Remove_try (N:=Rn) d p U A u TOL (K - p - t) (K - S + t) t junk2 = Some A' -> Inv (t + 1) A'.
Proof.
  intros Ht (Q & HR & HC & _) E.
  destruct (round_gen n p U u K S W Hp HK HS HKS Hu Hblock Hless d t A Q TOL junk2 A' Ht HR E) as (HT & (g0 & Hg0 & HR0) & HB).
  assert (HCl : forall g, (2 * K - p - S - (t + 1) <= 2 * g <= 2 * K - p - S - (t + 1) + 2)%Z -> close (t + 1) (QG g (t + 1) A')).
  { intros g Hg x c D Hc. rewrite plus_IZR.
    rewrite <- (step_curve n p U u K S W Hp HK HKS Hu Hblock Hless t) by auto.
    specialize (HC x c D Hc).
    assert (HQ := curve_close (n - t) p (Vt' t) (fun i => Q i c) (boehm_pts (Vt' t) (K - S + 1) p (fun i => QG g (t + 1) A' i c)) x TOL
      ltac:(apply (Vt_wf n p U u K S W Hp HK HKS Hu Hless); lia) ltac:(apply (Vt_dom n p U K S HK HKS); auto; lia) ltac:(intros i Hi; apply HB; auto)).
    apply Rabs_le_inv in HC. apply Rabs_le_inv in HQ. apply Rabs_le. split; nra. }
  exists (QG g0 (t + 1) A'). split; auto. split; auto. split; auto. split; [lia|]. auto.
Qed.

Lemma rounds_gen num : (num <= S)%Z -> forall fuel t A, (0 <= t <= num)%Z -> Z.to_nat (num - t) = fuel -> Inv t A ->
  exists A' t', Remove_rounds (N:=Rn) fuel d p U A u TOL (K - p - t) (K - S + t) t num junk2 = (A', t') /\ (t <= t' <= num)%Z /\ Inv t' A'.
Proof.
  intros Hn. induction fuel; intros t A Ht Ef HI.
  - exists A, t. split; auto. split; [lia|auto].
  - cbn [Remove_rounds]. destruct (Z.ltb_spec t num); [|lia].
    destruct (Remove_try _ _ _ _ _ _ _ _ _ _) as [A1|] eqn:E.
    + apply Inv_S in E; auto; [|lia].
      replace (K - p - t - 1)%Z with (K - p - (t + 1))%Z by lia. replace (K - S + t + 1)%Z with (K - S + (t + 1))%Z by lia.
      destruct (IHfuel (t + 1)%Z A1 ltac:(lia) ltac:(lia) E) as (A' & t' & E1 & Ht' & HI'). exists A', t'. split; auto. split; [lia|auto].
    + exists A, t. split; auto. split; [lia|auto].
Qed.

Theorem RemoveKnot_gen num : (0 <= num <= S)%Z ->
  exists V Q t, RemoveKnot (N:=Rn) d n p U P u K S num TOL junk2 = (V, Q, t) /\ (0 <= t <= num)%Z /\
    (t = 0%Z -> V = U /\ Q = P) /\ ((0 < t)%Z -> 0 <= TOL) /\
    (forall i, (0 <= i <= n - t + p + 1)%Z -> V i = Vt' t i) /\ close t Q.
Proof.
  intros Hn. unfold RemoveKnot. cbv zeta.
  destruct (rounds_gen num ltac:(lia) (Z.to_nat num) 0%Z P ltac:(lia) ltac:(lia) Inv_0) as (A' & t & E & Ht & (Q & HR & HC & HT & H0 & HG)).
  rewrite !Z.sub_0_r, !Z.add_0_r in E. rewrite E. destruct (Z.eqb_spec t 0) as [->|Hne].
  - rewrite (H0 eq_refl). exists U, P, 0%Z. split; auto. split; [lia|]. split; auto. split; [lia|]. split.
    + intros i Hi. rewrite Vt_0. reflexivity.
    + intros x c D Hc. rewrite Vt_0, Z.sub_0_r. apply diff0; auto. lra.
  - do 3 eexists. split; [reflexivity|]. split; [lia|]. split; [lia|]. split; auto. split.
    + intros i Hi. rewrite (shiftU_ok (n + p + 1) K t U) by lia. reflexivity.
    + rewrite (Z.quot_div_nonneg (2 * K - S - p) 2) by lia.
      assert (HF : ((2 * K - S - p) / 2 <= n)%Z) by (apply Z.div_le_upper_bound; lia).
      destruct (shiftP_ok n ((2 * K - S - p) / 2) t A' ltac:(lia) HF) as (g & Eg & HQ).
      pose proof (Z.div_mod (2 * K - S - p) 2 ltac:(lia)). pose proof (Z.mod_pos_bound (2 * K - S - p) 2 ltac:(lia)).
      pose proof (Z.div_mod (t - 1) 2 ltac:(lia)). pose proof (Z.mod_pos_bound (t - 1) 2 ltac:(lia)).
      intros x c D Hc. eapply Rle_trans; [right|exact (HG ltac:(lia) g ltac:(lia) x c D Hc)]. f_equal. f_equal. apply sumZ_ext. intros i Hi. f_equal.
      rewrite HQ by lia. unfold QG. destruct (i <? g)%Z; reflexivity.
Qed.

Lemma Vt_mult t v : (0 <= t <= S)%Z -> 
  multiplicity (Vt' t) 0 (n - t + p + 1) v = (multiplicity U 0 (n + p + 1) v - (if Req_EM_T u v then t else 0))%Z.
Proof.
  intros Ht. assert (E : multiplicity U 0 (n - t + p + 1 + t) v = multiplicity (insV (Vt' t) (K - t) u t) 0 (n - t + p + 1 + t) v).
  { apply multiplicity_ext. intros i Hi. unfold insV. lcase i (K - t)%Z.
    - unfold Vt. lcase i (K - t)%Z. reflexivity.
    - lcase i (K - t + t)%Z.
      + apply Hblock. lia.
      + unfold Vt. lcase (i - t)%Z (K - t)%Z. f_equal. lia. }
  rewrite multiplicity_insV in E by lia. replace (n - t + p + 1 + t)%Z with (n + p + 1)%Z in E by lia. lia.
Qed.
End Gen.

(** What FindSpanMult returns at an interior, well separated value. *)
Lemma interior n p (U : Z -> R) u : wf_knots n p U -> U p < u < U (n + 1)%Z -> separated U 0 (n + p + 1) u ->
  (multiplicity U 0 (n + p + 1) u <= p + 1)%Z ->
  let K := FindSpan (N:=Rn) n p u U in let S := multiplicity U 0 (n + p + 1) u in
  FindMult (N:=Rn) K u p U = S /\ (p <= K <= n)%Z /\ (0 <= S)%Z /\ (p <= K - S)%Z /\ U K <= u < U (K + 1)%Z /\
  (forall i, (K - S + 1 <= i <= K)%Z -> U i = u) /\ (forall i, (0 <= i <= K - S)%Z -> U i < u) /\
  (forall i, (K + 1 <= i <= n + p + 1)%Z -> u < U i).
Proof.
  intros W Hu Hsep Hmul K S.
  pose proof (wf_p _ _ _ W) as Hp. pose proof (wf_n _ _ _ W) as Hn. pose proof (wf_mono _ _ _ W) as M.
  assert (Du : in_domain n p U u) by (unfold in_domain; lra).
  pose proof (FindSpan_active n p U u W Du) as A. fold K in A.
  assert (Hk : (p <= K <= n)%Z) by (destruct A; lia).
  assert (Hku : U K <= u < U (K + 1)%Z) by (destruct A as [_ [A|[_ A]]]; lra).
  assert (Em : FindMult (N:=Rn) K u p U = S) by (apply FindMult_exact; auto; lia).
  destruct (FindMult_span n p U u K W Hk Hku) as [s [Es [Hs [Hb Hl]]]].
  { intros j Hj. apply Hsep. lia. }
  assert (EsS : s = S) by (rewrite <- Es; exact Em). clear Es. rewrite EsS in *. clear EsS s.
  assert (Hpk : (p <= K - S)%Z).
  { destruct (Z_le_gt_dec p (K - S)); auto. assert (U p = u) by (apply Hb; lia). lra. }
  assert (HL : forall i, (0 <= i <= K - S)%Z -> U i < u).
  { (* the multiplicity counts every copy *)
    intros i Hi. destruct (Z_le_gt_dec (K - p) (K - S)) as [G|G].
    - destruct (Z_le_gt_dec (K - p) i); [apply Hl; lia|].
      assert (U i <= U (K - p)%Z) by (apply M; lia). assert (U (K - p)%Z < u) by (apply Hl; lia). lra.
    - assert (U i <= U (K - S)%Z) by (apply M; lia). assert (U (K - S)%Z <= U K) by (apply M; lia).
      destruct (Rle_lt_or_eq_dec (U (K - S)%Z) u ltac:(lra)) as [|E]; [lra|]. exfalso.
      assert (EqS : S = multiplicity U 0 (n + p + 1) u) by reflexivity.
      rewrite (multiplicity_split U 0 (K - S - 1) (n + p + 1)) in EqS by lia.
      rewrite (multiplicity_split U (K - S - 1 + 1) K (n + p + 1)) in EqS by lia.
      rewrite (multiplicity_all U (K - S - 1 + 1) K u) in EqS; [|lia|].
      + pose proof (multiplicity_nonneg U 0 (K - S - 1) u). pose proof (multiplicity_nonneg U (K + 1) (n + p + 1) u). lia.
      + intros y Hy. destruct (Z.eq_dec y (K - S)) as [->|]; [auto|apply Hb; lia]. }
  split; auto. split; auto. split; [lia|]. split; auto. split; auto. split; auto. split; auto.
  intros i Hi. assert (U (K + 1)%Z <= U i) by (apply M; lia). lra.
Qed.

Theorem bsp_RemoveKnot_gen d n p U P u r TOL junk2 : wf_knots n p U -> (1 <= p)%Z -> U p < u < U (n + 1)%Z ->
  separated U 0 (n + p + 1) u -> (multiplicity U 0 (n + p + 1) u <= p + 1)%Z -> (0 <= r <= multiplicity U 0 (n + p + 1) u)%Z ->
  exists V Q t, bsp_RemoveKnot (N:=Rn) d n p U P u r TOL junk2 = (V, Q, t) /\ (0 <= t <= r)%Z /\
    (t = 0%Z -> V = U /\ Q = P) /\ ((0 < t)%Z -> 0 <= TOL) /\
    wf_knots (n - t) p V /\ V p = U p /\ V (n - t + 1)%Z = U (n + 1)%Z /\
    (forall v, multiplicity V 0 (n - t + p + 1) v = (multiplicity U 0 (n + p + 1) v - (if Req_EM_T v u then t else 0))%Z) /\
    forall x c, in_domain n p U x -> (1 <= c <= d)%Z ->
      Rabs (curve (n - t) p V (fun i => Q i c) x - curve n p U (fun i => P i c) x) <= IZR t * TOL.
Proof.
  intros W Hp Hu Hsep Hmul Hr. unfold bsp_RemoveKnot.
  destruct (interior n p U u W Hu Hsep Hmul) as (Em & HK & HS & HKS & HuK & Hb & Hl & _). cbv zeta in *.
  set (K := FindSpan (N:=Rn) n p u U) in *. set (S := multiplicity U 0 (n + p + 1) u) in *.
  pose proof (wf_n _ _ _ W) as Hn.
  assert (Fin : forall V Q t, (0 <= t <= r)%Z -> (forall i, (0 <= i <= n - t + p + 1)%Z -> V i = Vt U K t i) -> close n p U K d P TOL t Q ->
    wf_knots (n - t) p V /\ V p = U p /\ V (n - t + 1)%Z = U (n + 1)%Z /\
    (forall v, multiplicity V 0 (n - t + p + 1) v = (multiplicity U 0 (n + p + 1) v - (if Req_EM_T v u then t else 0))%Z) /\
    forall x c, in_domain n p U x -> (1 <= c <= d)%Z ->
      Rabs (curve (n - t) p V (fun i => Q i c) x - curve n p U (fun i => P i c) x) <= IZR t * TOL).
  { intros V Q t Ht HV HC. pose proof (Vt_wf n p U u K S W Hp HK HKS HuK Hl t ltac:(lia)) as WV.
    assert (W' : wf_knots (n - t) p V).
    { destruct WV as [w1 w2 w3 w4 w5]. constructor; try lia.
      - intros a b Ha Hab Hb'. rewrite !HV by lia. apply w3; lia.
      - rewrite !HV by lia. auto.
      - rewrite !HV by lia. auto. }
    split; auto. split; [rewrite HV by lia; unfold Vt; lcase p (K - t)%Z; reflexivity|].
    split; [rewrite HV by lia; apply (Vt_hi n p U K S HK); lia|]. split.
    - intros v. rewrite (multiplicity_ext V (Vt U K t)) by (intros; apply HV; lia).
      replace (multiplicity (Vt U K t) 0 (n - t + p + 1) v) with (multiplicity U 0 (n + p + 1) v - (if Req_EM_T u v then t else 0))%Z by (symmetry; eapply (Vt_mult n p U u K S); eauto; lia). f_equal. destruct (Req_EM_T u v), (Req_EM_T v u); congruence.
    - intros x c D Hc. eapply Rle_trans; [right|exact (HC x c D Hc)]. f_equal. f_equal. apply Sub_curve; auto.
      + apply Sub_ext; auto; try lia. intros i Hi. apply HV. lia.
      + left. apply HV. lia.
      + unfold in_domain. rewrite !HV by lia. apply (Vt_dom n p U K S HK HKS); auto. lia. }
  assert (Triv : exists V Q t, (U, P, 0%Z) = (V, Q, t) /\ (0 <= t <= r)%Z /\
    (t = 0%Z -> V = U /\ Q = P) /\ ((0 < t)%Z -> 0 <= TOL) /\
    wf_knots (n - t) p V /\ V p = U p /\ V (n - t + 1)%Z = U (n + 1)%Z /\
    (forall v, multiplicity V 0 (n - t + p + 1) v = (multiplicity U 0 (n + p + 1) v - (if Req_EM_T v u then t else 0))%Z) /\
    forall x c, in_domain n p U x -> (1 <= c <= d)%Z ->
      Rabs (curve (n - t) p V (fun i => Q i c) x - curve n p U (fun i => P i c) x) <= IZR t * TOL).
  { exists U, P, 0%Z. split; auto. split; [lia|]. split; auto. split; [lia|]. apply Fin; [lia| |].
    - intros i Hi. rewrite Vt_0. reflexivity.
    - intros x c D Hc. rewrite Vt_0, Z.sub_0_r. apply diff0; auto. lra. }
  destruct (Z.eqb_spec r 0); [exact Triv|].
  destruct (nleb Rn u (U p)) eqn:E1; [exact Triv|]. destruct (nleb Rn (U (n + 1)%Z) u) eqn:E2; [exact Triv|].
  unfold FindSpanMult. fold K. cbv zeta.
  match goal with |- context [RemoveKnot _ _ _ _ _ _ _ ?x _ _ _] => replace x with S by (symmetry; exact Em) end.
  destruct (RemoveKnot_gen n p U u K S W Hp HK ltac:(lia) HKS HuK Hb Hl d P TOL junk2 r ltac:(lia)) as (V & Q & t & E & Ht & H0 & HT & HV & HC).
  exists V, Q, t. split; [exact E|]. split; [exact Ht|]. split; [exact H0|]. split; [exact HT|]. apply Fin; auto.
Qed.

(** Removal of inserted knots. *)
Theorem bsp_Remove_Insert d n p U P u r num TOL junk junk2 V A : wf_knots n p U -> (1 <= p)%Z -> U p < u < U (n + 1)%Z ->
  separated U 0 (n + p + 1) u -> (multiplicity U 0 (n + p + 1) u + r <= p)%Z -> (1 <= num <= r)%Z -> 0 <= TOL ->
  (forall i, (0 <= i <= n + p + 1 + r)%Z -> V i = fst (bsp_InsertKnot (N:=Rn) n p U (fun _ => 0) u r junk) i) ->
  (forall i c, (0 <= i <= n + r)%Z -> A i c = snd (bsp_InsertKnot (N:=Rn) n p U (fun i => P i c) u r junk) i) ->
  let res := bsp_RemoveKnot (N:=Rn) d (n + r) p V A u num TOL junk2 in
  snd res = num /\
  (forall i, (0 <= i <= n + p + 1 + (r - num))%Z -> fst (fst res) i = fst (bsp_InsertKnot (N:=Rn) n p U (fun _ => 0) u (r - num) junk) i) /\
  (forall i c, (0 <= i <= n + (r - num))%Z -> snd (fst res) i c = snd (bsp_InsertKnot (N:=Rn) n p U (fun i => P i c) u (r - num) junk) i).
Proof.
  intros W Hp Hu Hsep Hmul Hn HT HV HA res.
  destruct (interior n p U u W Hu Hsep ltac:(lia)) as (Em & HK & HS & HKS & HuK & Hb & Hl & Hg). cbv zeta in *.
  set (K := FindSpan (N:=Rn) n p u U) in *. set (S := multiplicity U 0 (n + p + 1) u) in *.
  pose proof (wf_n _ _ _ W) as Hnn.
  assert (Eins : forall j P', (0 <= j <= r)%Z -> (forall i, (0 <= i <= n + p + 1 + j)%Z -> fst (bsp_InsertKnot (N:=Rn) n p U P' u j junk) i = insV U K u j i) /\
     (forall i, (0 <= i <= n + j)%Z -> snd (bsp_InsertKnot (N:=Rn) n p U P' u j junk) i = iQ U P' K p u (K - S + 1) j i)).
  { intros j P' Hj. unfold bsp_InsertKnot. destruct (Z.eqb_spec j 0) as [->|].
    - split; intros; [rewrite insV_0|rewrite iQ_0]; reflexivity.
    - unfold FindSpanMult. fold K. cbv zeta. cbn [fst snd].
      match goal with |- context [InsertKnot _ _ _ _ _ _ ?x _ _] => replace x with S by (symmetry; exact Em) end.
      split; intros i Hi.
      + apply InsertKnot_V_spec; lia.
      + unfold InsertKnot. cbn [snd]. apply InsertKnot_Q_spec; auto; try lia. intros y Hy. apply Hl. lia. }
  assert (HV' : forall i, (0 <= i <= n + p + 1 + r)%Z -> V i = insV U K u r i).
  { intros i Hi. rewrite HV by auto. apply Eins; lia. }
  assert (Wi := insert_wf n p U u K r W HK ltac:(lia) ltac:(lra) ltac:(lra) ltac:(lra)).
  assert (WV : wf_knots (n + r) p V).
  { destruct Wi as [w1 w2 w3 w4 w5]. constructor; try lia.
    - intros a b Ha Hab Hb'. rewrite !HV' by lia. apply w3; lia.
    - rewrite !HV' by lia. auto.
    - rewrite !HV' by lia. auto. }
  assert (EVp : V p = U p) by (rewrite HV' by lia; unfold insV; lcase p K; reflexivity).
  assert (EVn : V (n + r + 1)%Z = U (n + 1)%Z) by (rewrite HV' by lia; unfold insV; lcase (n + r + 1)%Z K; lcase (n + r + 1)%Z (K + r)%Z; f_equal; lia).
  assert (Emv : multiplicity V 0 (n + r + p + 1) u = (S + r)%Z).
  { rewrite (multiplicity_ext V (insV U K u r)) by (intros; apply HV'; lia). replace (n + r + p + 1)%Z with (n + p + 1 + r)%Z by lia.
    rewrite multiplicity_insV by lia. destruct (Req_EM_T u u); [reflexivity|congruence]. }
  assert (Hsv : separated V 0 (n + r + p + 1) u).
  { intros j Hj. rewrite HV' by lia. unfold insV. lcase j K; [apply Hsep; lia|]. lcase j (K + r)%Z; [auto|apply Hsep; lia]. }
  destruct (interior (n + r) p V u WV ltac:(rewrite EVp, EVn; auto) Hsv ltac:(lia)) as (Emv' & HKv & _ & _ & HuKv & _). cbv zeta in *.
  assert (EK : FindSpan (N:=Rn) (n + r) p u V = (K + r)%Z).
  { apply (active_unique (n + r) p V u); auto.
    - split; auto.
    - split; [lia|]. left. rewrite !HV' by lia. unfold insV. lcase (K + r)%Z K. lcase (K + r)%Z (K + r)%Z. lcase (K + r + 1)%Z K. lcase (K + r + 1)%Z (K + r)%Z.
      replace (K + r + 1 - r)%Z with (K + 1)%Z by lia. lra. }
  unfold res, bsp_RemoveKnot. destruct (Z.eqb_spec num 0); [lia|].
  assert (L1 : nleb Rn u (V p) = false) by (rewrite EVp; apply Rleb_false; lra).
  assert (L2 : nleb Rn (V (n + r + 1)%Z) u = false) by (rewrite EVn; apply Rleb_false; lra).
  match goal with |- context [if ?b then _ else _] => replace b with false by (symmetry; exact L1) end.
  match goal with |- context [if ?b then _ else _] => replace b with false by (symmetry; exact L2) end.
  unfold FindSpanMult.
  match goal with |- context [FindSpan ?a ?b ?c ?dd] => replace (FindSpan a b c dd) with (K + r)%Z by (symmetry; exact EK) end.
  assert (Emv2 : FindMult (N:=Rn) (K + r) u p V = (S + r)%Z) by (rewrite <- EK; etransitivity; [exact Emv'|exact Emv]).
  cbv zeta. cbv iota.
  match goal with |- context [RemoveKnot _ _ _ _ _ _ _ ?x _ _ _] => replace x with (S + r)%Z by (symmetry; exact Emv2) end.
  destruct (RemoveKnot_undo U P n K S p u r HS Hp ltac:(lia) Hb ltac:(intros; apply Hl; lia) ltac:(intros; apply Hg; lia) HK HKS V ltac:(intros; apply HV'; lia) d TOL junk2 num A HT Hn) as (V' & Q & E & EV & EQ).
  { split; intros i c Hi Hi'; rewrite HA by lia; rewrite Z.sub_0_r; unfold C; rewrite ?Z.sub_0_r; apply Eins; lia. }
  match goal with |- context [RemoveKnot ?a1 ?a2 ?a3 ?a4 ?a5 ?a6 ?a7 ?a8 ?a9 ?b1 ?b2] => replace (RemoveKnot a1 a2 a3 a4 a5 a6 a7 a8 a9 b1 b2) with (V', Q, num) by (symmetry; exact E) end.
  cbn [fst snd]. split; auto. split; intros i *; intros Hi.
  - rewrite EV by lia. symmetry. apply Eins; lia.
  - rewrite EQ by lia. unfold C. symmetry. apply Eins; lia.
Qed.
