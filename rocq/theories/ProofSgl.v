(** Rounding to single precision: as ProofRound.v, for 24 bits and exponents up to 128. *)
From Coq Require Import ZArith Reals List Bool SpecFloat Lia Lra Psatz.
From Verif Require Import Num ModelFloat ModelSingle SpecDouble SpecSingle ProofRound ProofRound2 ProofRound8.
Local Open Scope R_scope.

Definition s_fe (x : Z) : Z := Z.max (x - 24) (-149).
Lemma s_fexp_fe x : fexp 24 128 x = s_fe x.
Proof. reflexivity. Qed.

Definition s_finite (x : spec_float) : Prop :=
  valid_binary 24 128 x = true /\ match x with S754_zero _ | S754_finite _ _ _ => True | _ => False end.
(** y is the single nearest to x >= 0, the even one in the middle between two. *)
Definition s_near (x y : R) : Prop := exists E M : Z, (-149 <= E)%Z /\ x < b2 (E + 24) /\ ((E <> -149)%Z -> b2 (E + 23) <= x) /\
  y = IZR M * b2 E /\ Rabs (IZR M - x / b2 E) <= / 2 /\ (Rabs (IZR M - x / b2 E) = / 2 -> Z.even M = true).
Lemma s_round_aux s m e l x : (0 <= m)%Z -> loc_ok m l (x / b2 e) -> let E := s_fe (Zdigits2 m + e) in
  (e <= E)%Z -> x < 3 / 2 * b2 127 ->
  let r := binary_round_aux 24 128 s m e l in
  s_finite r /\ exists y, dval r = sg s * y /\ 0 <= y /\ Rabs (y - x) <= b2 (E - 1) /\ (e = E -> l = loc_Exact -> y = x) /\
    (match r with S754_zero b | S754_finite b _ _ => b = s | _ => True end) /\ ((r = S754_zero s) \/ 0 < y) /\ s_near x y.
Proof.
  intros H0 HL E HE HX r. pose proof (b2_pos e) as Pe. pose proof (b2_pos E) as PE.
  unfold r, binary_round_aux, shr_fexp. rewrite s_fexp_fe. fold E.
  destruct (shr_ok (shr_record_of_loc m l) e (E - e) _ ltac:(lia) ltac:(rewrite rec_m; lia) (rec_of_loc _ _ _ HL)) as (r1 & E1 & A1 & M1).
  rewrite E1. replace (e + (E - e))%Z with E by lia. rewrite rec_m in M1.
  assert (Et : x / b2 e / b2 (E - e) = x / b2 E).
  { replace E with (e + (E - e))%Z at 2 by lia. rewrite b2_add. pose proof (b2_pos (E - e)). field. split; lra. }
  rewrite Et in A1. unfold rec_ok in A1.
  assert (P2 : (0 < 2 ^ (E - e))%Z) by (apply Z.pow_pos_nonneg; lia).
  assert (M0 : (0 <= shr_m r1)%Z) by (rewrite M1; apply Z.div_pos; lia).
  destruct (rne_ok _ _ _ M0 A1) as (B1 & B2 & B3 & B4).
  set (M := round_nearest_even (shr_m r1) (loc_of_shr_record r1)) in *.
  (* size of the mantissa *)
  assert (Hlt : (shr_m r1 < 2 ^ 24)%Z).
  { rewrite M1. apply Z.div_lt_upper_bound; [lia|]. rewrite <- Z.pow_add_r by lia.
    destruct (Z.eq_dec m 0) as [->|]; [apply Z.pow_pos_nonneg; lia|].
    destruct (digits_range m ltac:(lia)) as [[_ D2] _].
    apply Z.lt_le_trans with (2 ^ Zdigits2 m)%Z; [exact D2|]. apply Z.pow_le_mono_r; [lia|]. unfold E, s_fe. lia. }
  assert (Hge : (E <> -149)%Z -> (2 ^ 23 <= shr_m r1)%Z).
  { intros HnE. assert (EE : E = (Zdigits2 m + e - 24)%Z) by (unfold E, s_fe in *; lia).
    assert (0 < m)%Z by (destruct (Z.eq_dec m 0) as [->|]; [simpl in EE; lia|lia]).
    destruct (digits_range m ltac:(lia)) as [[D1 _] D3]. rewrite M1. apply Z.div_le_lower_bound; [lia|].
    rewrite <- Z.pow_add_r by lia. replace (E - e + 23)%Z with (Zdigits2 m - 1)%Z by lia. exact D1. }
  assert (EGe : (-149 <= E)%Z) by (unfold E, s_fe; lia).
  (* no overflow *)
  assert (XL : IZR (shr_m r1) * b2 E <= x).
  { apply loc_bounds in A1. assert (IZR (shr_m r1) * b2 E <= x / b2 E * b2 E) by (apply Rmult_le_compat_r; lra).
    replace (x / b2 E * b2 E) with x in H by (field; lra). exact H. }
  assert (NoOv : (E <= 104)%Z /\ (E = 104 -> M < 2 ^ 24)%Z).
  { split.
    - destruct (Z_le_gt_dec E 104) as [|G]; auto. exfalso. specialize (Hge ltac:(lia)).
      assert (b2 23 * b2 105 <= x).
      { apply Rle_trans with (2 := XL). apply Rmult_le_compat; [left; apply b2_pos|left; apply b2_pos| |apply b2_le; lia].
        rewrite b2_IZR by lia. apply IZR_le. exact Hge. }
      rewrite <- b2_add in H. change (23 + 105)%Z with (127 + 1)%Z in H. rewrite b2_1 in H. pose proof (b2_pos 127). lra.
    - intros ->. destruct (Z_lt_le_dec M (2 ^ 24)) as [|G]; auto. exfalso.
      assert (3 / 2 * b2 23 * b2 104 <= x).
      { apply Rle_trans with (2 := XL). apply Rmult_le_compat_r; [left; apply b2_pos|]. rewrite b2_IZR by lia. change (2 ^ 23)%Z with 8388608%Z. change (2 ^ 24)%Z with 16777216%Z in G.
        apply Rle_trans with (IZR 12582912); [lra|]. apply IZR_le. lia. }
      rewrite Rmult_assoc, <- b2_add in H. replace (23 + 104)%Z with 127%Z in H by lia. lra. }
  (* the result is M * 2^E *)
  assert (NR : s_near x (IZR M * b2 E)).
  { exists E, M. split; [exact EGe|]. pose proof (loc_bounds _ _ _ A1) as LB. assert (XE : x = x / b2 E * b2 E) by (field; lra).
    split; [|split; [|auto]].
    - rewrite Z.add_comm, b2_add, XE. apply Rmult_lt_compat_r; [exact PE|]. rewrite (b2_IZR 24) by lia. apply Rlt_le_trans with (1 := proj2 LB). rewrite <- plus_IZR. apply IZR_le. lia.
    - intros Q. specialize (Hge Q). rewrite Z.add_comm, b2_add. rewrite XE at 1. apply Rmult_le_compat_r; [lra|]. rewrite (b2_IZR 23) by lia. apply Rle_trans with (2 := proj1 LB). apply IZR_le. exact Hge. }
  assert (Herr : Rabs (IZR M * b2 E - x) <= b2 (E - 1)).
  { replace (IZR M * b2 E - x) with ((IZR M - x / b2 E) * b2 E) by (field; lra). rewrite Rabs_mult, (Rabs_right (b2 E)) by lra.
    replace (b2 (E - 1)) with (/ 2 * b2 E); [apply Rmult_le_compat_r; lra|].
    replace E with (E - 1 + 1)%Z at 1 by lia. rewrite b2_1. field. }
  assert (Hex : e = E -> l = loc_Exact -> IZR M * b2 E = x).
  { intros Q1 Q2. assert (EM : M = m).
    { unfold M. rewrite <- Q1, Z.sub_diag in E1. cbn in E1. injection E1 as E1 _. rewrite <- E1, Q2. reflexivity. }
    rewrite EM, <- Q1. rewrite Q2 in HL. cbn in HL. rewrite <- HL. field. lra. }
  assert (Msig : forall s' (m'' : positive) e'', IZR (Zpos m'') * b2 e'' = IZR M * b2 E -> dval (S754_finite s' m'' e'') = sg s' * (IZR M * b2 E)).
  { intros s' m'' e'' Q. unfold dval, sg. rewrite <- Q. ring. }
  destruct (Z.eq_dec M (2 ^ 24)) as [EM|NM].
  - (* carry *)
    assert (DM : Zdigits2 M = 25%Z) by (rewrite EM; reflexivity).
    destruct (shr_ok (shr_record_of_loc M loc_Exact) E 1 (IZR M) ltac:(lia) ltac:(rewrite rec_m; lia) (rec_of_loc _ loc_Exact _ eq_refl)) as (r2 & E2 & A2 & M2).
    rewrite s_fexp_fe, DM. replace (s_fe (25 + E) - E)%Z with 1%Z by (unfold s_fe; lia). rewrite E2. rewrite rec_m in M2.
    rewrite M2, EM. replace (2 ^ 24 / 2 ^ 1)%Z with (Zpos 8388608) by reflexivity.
    destruct NoOv as [N1 N2]. assert (E <> 104%Z) by (intros Q; specialize (N2 Q); lia).
    replace (E + 1 <=? 128 - 24)%Z with true by (symmetry; apply Z.leb_le; lia).
    assert (V : IZR (Z.pos 8388608) * b2 (E + 1) = IZR M * b2 E).
    { rewrite b2_1, EM. replace (2 ^ 24)%Z with (8388608 * 2)%Z by reflexivity. rewrite mult_IZR. ring. }
    split.
    + split; [|exact I]. unfold valid_binary, bounded, canonical_mantissa. rewrite s_fexp_fe. change (Z.pos (digits2_pos 8388608)) with 24%Z.
      apply andb_true_intro. split; [|apply Z.leb_le; lia]. apply Zeq_is_eq_bool. unfold s_fe. lia.
    + exists (IZR M * b2 E). split; [apply Msig; exact V|]. split; [rewrite <- V; apply Rmult_le_pos; [apply IZR_le; lia|left; apply b2_pos]|].
      split; [exact Herr|]. split; [exact Hex|]. split; [reflexivity|]. split; [|exact NR]. right. rewrite EM. apply Rmult_lt_0_compat; [apply IZR_lt; reflexivity|exact PE].
  - assert (ML : (M < 2 ^ 24)%Z) by lia.
    assert (DM : (Zdigits2 M <= 24)%Z) by (apply digits_le; lia).
    assert (ES : (shr (shr_record_of_loc M loc_Exact) E (s_fe (Zdigits2 M + E) - E)) = (shr_record_of_loc M loc_Exact, E)).
    { destruct (s_fe (Zdigits2 M + E) - E)%Z eqn:Q; try reflexivity. unfold s_fe in Q. lia. }
    rewrite s_fexp_fe, ES. rewrite rec_m. destruct M as [|M'|M'] eqn:QM; [| |lia].
    + split; [split; [reflexivity|exact I]|]. exists 0. rewrite Rmult_0_l in Herr, Hex, NR. cbn [dval]. split; [lra|]. split; [lra|]. split; [exact Herr|]. split; [exact Hex|]. split; [reflexivity|]. split; [auto|exact NR].
    + destruct NoOv as [N1 N2].
      replace (E <=? 128 - 24)%Z with true by (symmetry; apply Z.leb_le; lia).
      split.
      * split; [|exact I]. unfold valid_binary, bounded, canonical_mantissa. rewrite s_fexp_fe.
        apply andb_true_intro. split; [|apply Z.leb_le; lia]. apply Zeq_is_eq_bool.
        destruct (Z.eq_dec E (-149)) as [Q|Q]; [cbn in DM; unfold s_fe; lia|].
        specialize (Hge Q). assert (Q2 : Zdigits2 (Z.pos M') = 24%Z) by (apply digits_unique; [lia|]; split; [simpl (24 - 1)%Z; lia|lia]).
        cbn in Q2. unfold s_fe. lia.
      * exists (IZR (Z.pos M') * b2 E). split; [apply Msig; reflexivity|]. assert (0 < IZR (Z.pos M') * b2 E) by (apply Rmult_lt_0_compat; [apply IZR_lt; lia|exact PE]).
        split; [lra|]. split; [exact Herr|]. split; [exact Hex|]. split; [reflexivity|]. split; [auto|exact NR].
Qed.
(** Unit roundoff and half of the smallest positive single. *)
Definition s_uu : R := b2 (-24).
Definition s_eta : R := b2 (-150).
Lemma s_uu_pos : 0 < s_uu.
Proof. apply b2_pos. Qed.
Lemma s_eta_pos : 0 < s_eta.
Proof. apply b2_pos. Qed.

Lemma s_finite_range s m e : s_finite (S754_finite s m e) -> (-149 <= e)%Z /\ (Zpos (digits2_pos m) <= 24)%Z /\ s_fe (Zpos (digits2_pos m) + e) = e /\ (e <= 104)%Z.
Proof.
  intros [V _]. unfold valid_binary, bounded, canonical_mantissa in V. rewrite s_fexp_fe in V.
  apply andb_prop in V. destruct V as [V1 V2]. apply Zeq_bool_eq in V1. apply Z.leb_le in V2. unfold s_fe in *. lia.
Qed.

(** s_round_aux with the error relative to the exact result. *)
Lemma s_round_rel s m e l x : (0 <= m)%Z -> loc_ok m l (x / b2 e) -> (e <= s_fe (Zdigits2 m + e))%Z -> x < 3 / 2 * b2 127 ->
  let r := binary_round_aux 24 128 s m e l in
  s_finite r /\ exists y, dval r = sg s * y /\ 0 <= y /\ Rabs (y - x) <= s_uu * x + s_eta /\
    ((-149 <= e)%Z -> l = loc_Exact -> Rabs (y - x) <= s_uu * x) /\ s_near x y.
Proof.
  intros H0 HL HE HX r. destruct (s_round_aux s m e l x H0 HL HE HX) as (F & y & V & Y0 & ER & EX & _ & _ & NR).
  split; [exact F|]. exists y. split; [exact V|]. split; [exact Y0|].
  pose proof s_uu_pos. pose proof s_eta_pos. pose proof (b2_pos e).
  assert (XM : IZR m * b2 e <= x).
  { apply loc_bounds in HL. assert (IZR m * b2 e <= x / b2 e * b2 e) by (apply Rmult_le_compat_r; lra).
    replace (x / b2 e * b2 e) with x in * by (field; lra). assumption. }
  assert (X0 : 0 <= x). { apply Rle_trans with (2 := XM). apply Rmult_le_pos; [apply IZR_le; lia|lra]. }
  set (E := s_fe (Zdigits2 m + e)) in *.
  assert (CR : E <> (-149)%Z -> b2 (E - 1) <= s_uu * x).
  { intros Q. assert (EE : E = (Zdigits2 m + e - 24)%Z) by (unfold E, s_fe in *; lia).
    assert (0 < m)%Z by (destruct (Z.eq_dec m 0) as [->|]; [simpl in EE; lia|lia]).
    destruct (digits_range m ltac:(lia)) as [[D1 _] D3].
    replace (E - 1)%Z with (-24 + ((Zdigits2 m - 1) + e))%Z by lia. rewrite b2_add. fold s_uu. apply Rmult_le_compat_l; [lra|].
    rewrite b2_add. apply Rle_trans with (2 := XM). apply Rmult_le_compat_r; [lra|]. rewrite b2_IZR by lia. apply IZR_le. exact D1. }
  split; [|split; [|exact NR]].
  - destruct (Z.eq_dec E (-149)) as [Q|Q].
    + rewrite Q in ER. change (b2 (-149 - 1)) with s_eta in ER. assert (0 <= s_uu * x) by (apply Rmult_le_pos; lra). lra.
    + specialize (CR Q). lra.
  - intros G Q1. destruct (Z.eq_dec E (-149)) as [Q|Q].
    + rewrite (EX ltac:(lia) Q1). replace (x - x) with 0 by lra. rewrite Rabs_R0. apply Rmult_le_pos; lra.
    + specialize (CR Q). lra.
Qed.

(** The same for numbers of either sign. *)
Definition s_rounds (v r : R) : Prop := (0 <= v /\ s_near v r) \/ (v <= 0 /\ s_near (- v) (- r)).
Lemma s_near_0 : s_near 0 0.
Proof.
  exists (-149)%Z, 0%Z. pose proof (b2_pos (-149 + 24)). split; [lia|]. split; [lra|]. split; [lia|]. split; [ring|].
  unfold Rdiv. rewrite Rmult_0_l, Rminus_0_r, Rabs_R0. split; [lra|reflexivity].
Qed.
Lemma s_rounds_0 : s_rounds 0 0.
Proof. left. split; [lra|exact s_near_0]. Qed.
Lemma s_rounds_sg s x y : 0 <= x -> s_near x y -> s_rounds (sg s * x) (sg s * y).
Proof.
  intros H N. destruct s; unfold sg; [right|left].
  - split; [lra|]. replace (- (-1 * x)) with x by ring. replace (- (-1 * y)) with y by ring. exact N.
  - rewrite !Rmult_1_l. auto.
Qed.
(** A single is rounded to itself. *)
Lemma s_near_self s m e : s_finite (S754_finite s m e) -> s_near (IZR (Zpos m) * b2 e) (IZR (Zpos m) * b2 e).
Proof.
  intros F. destruct (s_finite_range _ _ _ F) as (R1 & R2 & R3 & R4). pose proof (b2_pos e) as P.
  destruct (digits_range (Z.pos m) ltac:(lia)) as [[D1 D2] _]. cbn [Zdigits2] in D1, D2.
  exists e, (Zpos m). split; [exact R1|]. split.
  { rewrite Z.add_comm, b2_add. apply Rmult_lt_compat_r; [exact P|]. rewrite b2_IZR by lia. apply IZR_lt. apply Z.lt_le_trans with (1 := D2). apply Z.pow_le_mono_r; lia. }
  split.
  { intros Q. rewrite Z.add_comm, b2_add. apply Rmult_le_compat_r; [lra|]. rewrite b2_IZR by lia. apply IZR_le. unfold s_fe in R3.
    replace 23%Z with (Z.pos (digits2_pos m) - 1)%Z by lia. exact D1. }
  split; [reflexivity|]. replace (IZR (Z.pos m) - IZR (Z.pos m) * b2 e / b2 e) with 0 by (field; lra). rewrite Rabs_R0. split; lra.
Qed.

Lemma s_near_nonneg x y : 0 <= x -> s_near x y -> 0 <= y.
Proof.
  intros H (E & M & _ & _ & _ & -> & D & _). pose proof (b2_pos E) as P. apply abs_le in D.
  assert (0 <= x / b2 E) by (apply Rle_mult_inv_pos; auto).
  assert (-1 < M)%Z by (apply lt_IZR; lra). apply Rmult_le_pos; [apply IZR_le; lia|lra].
Qed.
Lemma s_near_mono x1 y1 x2 y2 : s_near x1 y1 -> s_near x2 y2 -> x1 <= x2 -> y1 <= y2.
Proof.
  intros (E1 & M1 & A1 & B1 & C1 & -> & D1 & T1) (E2 & M2 & A2 & B2 & C2 & -> & D2 & T2) L.
  pose proof (b2_pos E1) as P1. pose proof (b2_pos E2) as P2.
  destruct (Z.lt_trichotomy E1 E2) as [Q|[Q|Q]].
  - apply abs_le in D1. apply abs_le in D2. specialize (C2 ltac:(lia)).
    assert (U1 : x1 / b2 E1 < IZR (2 ^ 24)).
    { apply (Rmult_lt_reg_r (b2 E1)); [exact P1|]. unfold Rdiv. rewrite Rmult_assoc, Rinv_l, Rmult_1_r by lra. rewrite <- b2_IZR, <- b2_add, Z.add_comm by lia. exact B1. }
    assert (U2 : IZR (2 ^ 23) <= x2 / b2 E2).
    { apply (Rmult_le_reg_r (b2 E2)); [exact P2|]. unfold Rdiv. rewrite Rmult_assoc, Rinv_l, Rmult_1_r by lra. rewrite <- b2_IZR, <- b2_add, Z.add_comm by lia. exact C2. }
    assert (N1 : (M1 <= 2 ^ 24)%Z). { apply Z.lt_succ_r, lt_IZR. unfold Z.succ. rewrite plus_IZR. lra. }
    assert (N2 : (2 ^ 23 <= M2)%Z). { apply Z.lt_succ_r, lt_IZR. unfold Z.succ. rewrite plus_IZR. lra. }
    apply IZR_le in N1. apply IZR_le in N2. rewrite <- b2_IZR in N1, N2 by lia.
    apply Rle_trans with (b2 24 * b2 E1); [apply Rmult_le_compat_r; lra|].
    apply Rle_trans with (b2 23 * b2 E2); [rewrite <- !b2_add; apply b2_le; lia|apply Rmult_le_compat_r; lra].
  - subst E2. apply Rmult_le_compat_r; [lra|]. apply IZR_le.
    assert (LL : x1 / b2 E1 <= x2 / b2 E1) by (apply Rmult_le_compat_r; [left; apply Rinv_0_lt_compat; exact P1|exact L]).
    destruct (Z.le_gt_cases M1 M2) as [|K]; [assumption|exfalso].
    pose proof (abs_le _ _ D1). pose proof (abs_le _ _ D2).
    assert (K' : (M2 + 1 <= M1)%Z) by lia. apply IZR_le in K'. rewrite plus_IZR in K'.
    assert (X1 : IZR M1 - x1 / b2 E1 = / 2) by lra. assert (X2 : IZR M2 - x2 / b2 E1 = - / 2) by lra.
    rewrite X1 in T1. rewrite X2 in T2. rewrite Rabs_Ropp in T2. rewrite Rabs_right in T1, T2 by lra.
    specialize (T1 eq_refl). specialize (T2 eq_refl).
    assert (XM : M1 = (M2 + 1)%Z) by (apply eq_IZR; rewrite plus_IZR; lra).
    rewrite XM, Z.even_add, T2 in T1. discriminate T1.
  - specialize (C1 ltac:(lia)). assert (b2 (E2 + 24) <= b2 (E1 + 23)) by (apply b2_le; lia). lra.
Qed.
Lemma s_rounds_mono v1 r1 v2 r2 : s_rounds v1 r1 -> s_rounds v2 r2 -> v1 <= v2 -> r1 <= r2.
Proof.
  intros [[H1 N1]|[H1 N1]] [[H2 N2]|[H2 N2]] L.
  - exact (s_near_mono _ _ _ _ N1 N2 L).
  - pose proof (s_near_mono _ _ _ _ N2 s_near_0 ltac:(lra)). pose proof (s_near_mono _ _ _ _ N1 s_near_0 ltac:(lra)). lra.
  - pose proof (s_near_nonneg v2 r2 ltac:(lra) N2). pose proof (s_near_nonneg (- v1) (- r1) ltac:(lra) N1). lra.
  - pose proof (s_near_mono _ _ _ _ N2 N1 ltac:(lra)). lra.
Qed.
Lemma s_rounds_self z : s_finite z -> s_rounds (dval z) (dval z).
Proof.
  intros F. destruct z as [s|s| |s m e]; try (destruct F as [_ []]; fail); [exact s_rounds_0|].
  rewrite dval_sg. apply s_rounds_sg; [left; apply mant_pos|exact (s_near_self s m e F)].
Qed.
Lemma s_rounds_exact v r z : s_finite z -> dval z = v -> s_rounds v r -> r = v.
Proof. intros F <- H. pose proof (s_rounds_self z F) as S. apply Rle_antisym; [exact (s_rounds_mono _ _ _ _ H S (Rle_refl _))|exact (s_rounds_mono _ _ _ _ S H (Rle_refl _))]. Qed.

