(** The operations of SpecFloat on finite doubles: the result is within half a unit in the last place of
    the exact one. *)
From Coq Require Import ZArith Reals List Bool SpecFloat Lia Lra Psatz.
From Verif Require Import SpecDouble ProofRound.
Local Open Scope R_scope.

(** Infinities and NaN are not finite. *)
Ltac nofin := match goal with
  | F : finite (S754_infinity _) |- _ => destruct F as [_ []]
  | F : finite S754_nan |- _ => destruct F as [_ []]
  end.

(** Unit roundoff and half of the smallest positive double. *)
Definition uu : R := b2 (-53).
Definition eta : R := b2 (-1075).
Lemma uu_pos : 0 < uu.
Proof. apply b2_pos. Qed.
Lemma eta_pos : 0 < eta.
Proof. apply b2_pos. Qed.

Lemma finite_range s m e : finite (S754_finite s m e) -> (-1074 <= e)%Z /\ (Zpos (digits2_pos m) <= 53)%Z /\ fe (Zpos (digits2_pos m) + e) = e /\ (e <= 971)%Z.
Proof.
  intros [V _]. unfold valid_binary, bounded, canonical_mantissa in V. rewrite fexp_fe in V.
  apply andb_prop in V. destruct V as [V1 V2]. apply Zeq_bool_eq in V1. apply Z.leb_le in V2. unfold fe in *. lia.
Qed.

(** round_aux with the error relative to the exact result. *)
Lemma round_rel s m e l x : (0 <= m)%Z -> loc_ok m l (x / b2 e) -> (e <= fe (Zdigits2 m + e))%Z -> x < b2 1023 ->
  let r := binary_round_aux 53 1024 s m e l in
  finite r /\ exists y, dval r = sg s * y /\ 0 <= y /\ Rabs (y - x) <= uu * x + eta /\
    ((-1074 <= e)%Z -> l = loc_Exact -> Rabs (y - x) <= uu * x) /\ near x y.
Proof.
  intros H0 HL HE HX r. destruct (round_aux s m e l x H0 HL HE HX) as (F & y & V & Y0 & ER & EX & _ & _ & NR).
  split; [exact F|]. exists y. split; [exact V|]. split; [exact Y0|].
  pose proof uu_pos. pose proof eta_pos. pose proof (b2_pos e).
  assert (XM : IZR m * b2 e <= x).
  { apply loc_bounds in HL. assert (IZR m * b2 e <= x / b2 e * b2 e) by (apply Rmult_le_compat_r; lra).
    replace (x / b2 e * b2 e) with x in * by (field; lra). assumption. }
  assert (X0 : 0 <= x). { apply Rle_trans with (2 := XM). apply Rmult_le_pos; [apply IZR_le; lia|lra]. }
  set (E := fe (Zdigits2 m + e)) in *.
  assert (CR : E <> (-1074)%Z -> b2 (E - 1) <= uu * x).
  { intros Q. assert (EE : E = (Zdigits2 m + e - 53)%Z) by (unfold E, fe in *; lia).
    assert (0 < m)%Z by (destruct (Z.eq_dec m 0) as [->|]; [simpl in EE; lia|lia]).
    destruct (digits_range m ltac:(lia)) as [[D1 _] D3].
    replace (E - 1)%Z with (-53 + ((Zdigits2 m - 1) + e))%Z by lia. rewrite b2_add. fold uu. apply Rmult_le_compat_l; [lra|].
    rewrite b2_add. apply Rle_trans with (2 := XM). apply Rmult_le_compat_r; [lra|]. rewrite b2_IZR by lia. apply IZR_le. exact D1. }
  split; [|split; [|exact NR]].
  - destruct (Z.eq_dec E (-1074)) as [Q|Q].
    + rewrite Q in ER. change (b2 (-1074 - 1)) with eta in ER. assert (0 <= uu * x) by (apply Rmult_le_pos; lra). lra.
    + specialize (CR Q). lra.
  - intros G Q1. destruct (Z.eq_dec E (-1074)) as [Q|Q].
    + rewrite (EX ltac:(lia) Q1). replace (x - x) with 0 by lra. rewrite Rabs_R0. apply Rmult_le_pos; lra.
    + specialize (CR Q). lra.
Qed.

(** The same for numbers of either sign. *)
Definition rounds (v r : R) : Prop := (0 <= v /\ near v r) \/ (v <= 0 /\ near (- v) (- r)).
Lemma near_0 : near 0 0.
Proof.
  exists (-1074)%Z, 0%Z. pose proof (b2_pos (-1074 + 53)). split; [lia|]. split; [lra|]. split; [lia|]. split; [ring|].
  unfold Rdiv. rewrite Rmult_0_l, Rminus_0_r, Rabs_R0. split; [lra|reflexivity].
Qed.
Lemma rounds_0 : rounds 0 0.
Proof. left. split; [lra|exact near_0]. Qed.
Lemma rounds_sg s x y : 0 <= x -> near x y -> rounds (sg s * x) (sg s * y).
Proof.
  intros H N. destruct s; unfold sg; [right|left].
  - split; [lra|]. replace (- (-1 * x)) with x by ring. replace (- (-1 * y)) with y by ring. exact N.
  - rewrite !Rmult_1_l. auto.
Qed.
(** A double is rounded to itself. *)
Lemma near_self s m e : finite (S754_finite s m e) -> near (IZR (Zpos m) * b2 e) (IZR (Zpos m) * b2 e).
Proof.
  intros F. destruct (finite_range _ _ _ F) as (R1 & R2 & R3 & R4). pose proof (b2_pos e) as P.
  destruct (digits_range (Z.pos m) ltac:(lia)) as [[D1 D2] _]. cbn [Zdigits2] in D1, D2.
  exists e, (Zpos m). split; [exact R1|]. split.
  { rewrite Z.add_comm, b2_add. apply Rmult_lt_compat_r; [exact P|]. rewrite b2_IZR by lia. apply IZR_lt. apply Z.lt_le_trans with (1 := D2). apply Z.pow_le_mono_r; lia. }
  split.
  { intros Q. rewrite Z.add_comm, b2_add. apply Rmult_le_compat_r; [lra|]. rewrite b2_IZR by lia. apply IZR_le. unfold fe in R3.
    replace 52%Z with (Z.pos (digits2_pos m) - 1)%Z by lia. exact D1. }
  split; [reflexivity|]. replace (IZR (Z.pos m) - IZR (Z.pos m) * b2 e / b2 e) with 0 by (field; lra). rewrite Rabs_R0. split; lra.
Qed.

Lemma dval_sg s m e : dval (S754_finite s m e) = sg s * (IZR (Zpos m) * b2 e).
Proof. unfold dval, sg. ring. Qed.
Lemma mant_pos m e : 0 < IZR (Zpos m) * b2 e.
Proof. apply Rmult_lt_0_compat; [apply IZR_lt; lia|apply b2_pos]. Qed.
Lemma sg_xor a b : sg (xorb a b) = sg a * sg b.
Proof. destruct a, b; unfold sg; simpl; ring. Qed.
Lemma sg_sq a : sg a * sg a = 1.
Proof. destruct a; unfold sg; ring. Qed.
Lemma sg_dist s y x : Rabs (sg s * y - sg s * x) = Rabs (y - x).
Proof. replace (sg s * y - sg s * x) with (sg s * (y - x)) by ring. apply sg_abs. Qed.

(** ** Multiplication *)
Lemma mul_full x y : finite x -> finite y -> Rabs (dval x * dval y) < b2 1023 ->
  let r := SFmul 53 1024 x y in
  finite r /\ Rabs (dval r - dval x * dval y) <= uu * Rabs (dval x * dval y) + eta /\ (0 <= dval x * dval y -> 0 <= dval r) /\ rounds (dval x * dval y) (dval r).
Proof.
  intros Fx Fy B. pose proof uu_pos. pose proof eta_pos.
  assert (Z0 : forall s, finite (S754_zero s)) by (intros; split; [reflexivity|exact I]).
  destruct x as [sx|sx| |sx mx ex], y as [sy|sy| |sy my ey]; cbn [SFmul];
    try nofin; try (cbn [dval]; rewrite ?Rmult_0_l, ?Rmult_0_r, ?Rminus_0_r, Rabs_R0; split; [apply Z0|split; [lra|split; [lra|exact rounds_0]]]).
  rewrite !dval_sg in *.
  replace (sg sx * (IZR (Z.pos mx) * b2 ex) * (sg sy * (IZR (Z.pos my) * b2 ey)))
    with (sg (xorb sx sy) * ((IZR (Z.pos mx) * b2 ex) * (IZR (Z.pos my) * b2 ey))) in * by (rewrite sg_xor; ring).
  set (X := (IZR (Z.pos mx) * b2 ex) * (IZR (Z.pos my) * b2 ey)) in *.
  assert (XP : 0 < X) by (unfold X; apply Rmult_lt_0_compat; apply mant_pos).
  rewrite sg_abs, Rabs_right in B by lra.
  destruct (finite_range _ _ _ Fx) as (R1 & R2 & R3 & R4). destruct (finite_range _ _ _ Fy) as (R5 & R6 & R7 & R8).
  assert (EX : X / b2 (ex + ey) = IZR (Z.pos (mx * my))).
  { unfold X. rewrite b2_add, Pos2Z.inj_mul, mult_IZR. pose proof (b2_pos ex). pose proof (b2_pos ey). field. split; lra. }
  assert (DG : (Zdigits2 (Z.pos (mx * my)) >= Zpos (digits2_pos mx) + Zpos (digits2_pos my) - 1)%Z).
  { destruct (digits_range (Z.pos mx) ltac:(lia)) as [[D1 _] _]. destruct (digits_range (Z.pos my) ltac:(lia)) as [[D2 _] _]. cbn [Zdigits2] in D1, D2.
    destruct (digits_range (Z.pos (mx * my)) ltac:(lia)) as [[_ D3] D4].
    destruct (Z_lt_le_dec (Zdigits2 (Z.pos (mx * my))) (Zpos (digits2_pos mx) + Zpos (digits2_pos my) - 1)); [|lia]. exfalso.
    assert (2 ^ (Zpos (digits2_pos mx) - 1) * 2 ^ (Zpos (digits2_pos my) - 1) <= Z.pos (mx * my))%Z by (rewrite Pos2Z.inj_mul; apply Z.mul_le_mono_nonneg; auto; apply Z.pow_nonneg; lia).
    rewrite <- Z.pow_add_r in H1 by lia.
    assert (2 ^ Zdigits2 (Z.pos (mx * my)) <= 2 ^ (Zpos (digits2_pos mx) - 1 + (Zpos (digits2_pos my) - 1)))%Z by (apply Z.pow_le_mono_r; lia). lia. }
  destruct (round_rel (xorb sx sy) (Z.pos (mx * my)) (ex + ey) loc_Exact X ltac:(lia) EX
     ltac:(unfold fe in *; lia) B) as (F & y & V & Y0 & ER & _ & NR).
  split; [exact F|]. rewrite V. rewrite sg_dist, sg_abs, (Rabs_right X) by lra. split; [exact ER|].
  split; [|apply rounds_sg; [lra|exact NR]].
  intros P. destruct (xorb sx sy); unfold sg in *; nra.
Qed.
Lemma mul_ok x y : finite x -> finite y -> Rabs (dval x * dval y) < b2 1023 ->
  let r := SFmul 53 1024 x y in
  finite r /\ Rabs (dval r - dval x * dval y) <= uu * Rabs (dval x * dval y) + eta /\ (0 <= dval x * dval y -> 0 <= dval r).
Proof. intros Fx Fy H. destruct (mul_full x y Fx Fy H) as (A & B & C & _). auto. Qed.

(** ** Division *)
Lemma newloc_ok b q r : (0 < b)%Z -> (0 <= r < b)%Z -> loc_ok q (new_location b r) (IZR q + IZR r / IZR b).
Proof.
  intros Hb Hr. assert (0 < IZR b) by (apply IZR_lt; lia).
  assert (D : forall t, IZR r / IZR b < t <-> IZR r < t * IZR b).
  { intros t. split; intros Q.
    - apply Rmult_lt_reg_r with (/ IZR b); [apply Rinv_0_lt_compat; lra|]. replace (t * IZR b * / IZR b) with t by (field; lra). exact Q.
    - apply Rmult_lt_reg_r with (IZR b); [lra|]. replace (IZR r / IZR b * IZR b) with (IZR r) by (field; lra). exact Q. }
  assert (D' : forall t, t < IZR r / IZR b <-> t * IZR b < IZR r).
  { intros t. split; intros Q.
    - apply Rmult_lt_reg_r with (/ IZR b); [apply Rinv_0_lt_compat; lra|]. replace (t * IZR b * / IZR b) with t by (field; lra). exact Q.
    - apply Rmult_lt_reg_r with (IZR b); [lra|]. replace (IZR r / IZR b * IZR b) with (IZR r) by (field; lra). exact Q. }
  assert (Z1 : forall k, (2 * r < k)%Z -> IZR r < / 2 * IZR k) by (intros k Q; apply IZR_lt in Q; rewrite mult_IZR in Q; lra).
  assert (Z2 : forall k, (k < 2 * r)%Z -> / 2 * IZR k < IZR r) by (intros k Q; apply IZR_lt in Q; rewrite mult_IZR in Q; lra).
  assert (L1 : r <> 0%Z -> 0 < IZR r / IZR b < 1).
  { intros Q. split; [apply D'; assert (0 < IZR r) by (apply IZR_lt; lia); lra|apply D; assert (IZR r < IZR b) by (apply IZR_lt; lia); lra]. }
  unfold new_location. destruct (Z.even b) eqn:EB.
  - unfold new_location_even. destruct (Zeq_bool r 0) eqn:E0.
    + apply Zeq_bool_eq in E0. subst r. cbn. unfold Rdiv. rewrite Rmult_0_l. lra.
    + apply Zeq_bool_neq in E0. specialize (L1 E0). destruct (Z.compare_spec (2 * r) b) as [Q|Q|Q]; cbn [loc_ok].
      * replace (IZR r / IZR b) with (/ 2); [lra|]. rewrite <- Q, mult_IZR. assert (IZR r <> 0) by (apply IZR_neq; lia). field. lra.
      * assert (IZR r / IZR b < / 2) by (apply D; apply Z1; lia). lra.
      * assert (/ 2 < IZR r / IZR b) by (apply D'; apply Z2; lia). lra.
  - unfold new_location_odd. destruct (Zeq_bool r 0) eqn:E0.
    + apply Zeq_bool_eq in E0. subst r. cbn. unfold Rdiv. rewrite Rmult_0_l. lra.
    + apply Zeq_bool_neq in E0. specialize (L1 E0). assert (2 * r <> b)%Z.
      { intros Q. rewrite <- Q in EB. rewrite Z.even_mul in EB. discriminate. }
      destruct (Z.compare_spec (2 * r + 1) b) as [Q|Q|Q]; cbn [loc_ok].
      * assert (IZR r / IZR b < / 2) by (apply D; apply Z1; lia). lra.
      * assert (IZR r / IZR b < / 2) by (apply D; apply Z1; lia). lra.
      * assert (/ 2 < IZR r / IZR b) by (apply D'; apply Z2; lia). lra.
Qed.
Lemma div_full x y : finite x -> finite y -> dval y <> 0 -> Rabs (dval x / dval y) < b2 1023 ->
  let r := SFdiv 53 1024 x y in
  finite r /\ Rabs (dval r - dval x / dval y) <= uu * Rabs (dval x / dval y) + eta /\ (0 <= dval x / dval y -> 0 <= dval r) /\ rounds (dval x / dval y) (dval r).
Proof.
  intros Fx Fy NZ B. pose proof uu_pos. pose proof eta_pos.
  assert (Z0 : forall s, finite (S754_zero s)) by (intros; split; [reflexivity|exact I]).
  destruct x as [sx|sx| |sx mx ex], y as [sy|sy| |sy my ey]; cbn [SFdiv];
    try nofin; try (exfalso; apply NZ; reflexivity).
  - cbn [dval]. unfold Rdiv. rewrite Rmult_0_l, Rminus_0_r, Rabs_R0. split; [apply Z0|]. split; [lra|split; [lra|exact rounds_0]].
  - rewrite !dval_sg in *. set (X := (IZR (Z.pos mx) * b2 ex) / (IZR (Z.pos my) * b2 ey)).
    pose proof (mant_pos mx ex) as P1. pose proof (mant_pos my ey) as P2.
    assert (EQ : sg sx * (IZR (Z.pos mx) * b2 ex) / (sg sy * (IZR (Z.pos my) * b2 ey)) = sg (xorb sx sy) * X).
    { rewrite sg_xor. unfold X. pose proof (b2_pos ey). assert (IZR (Z.pos my) <> 0) by (apply IZR_neq; lia). destruct sy; unfold sg; field; repeat split; lra. }
    rewrite EQ in *. assert (XP : 0 < X) by (unfold X; apply Rmult_lt_0_compat; [exact P1|apply Rinv_0_lt_compat; exact P2]).
    rewrite sg_abs, Rabs_right in B by lra.
    destruct (finite_range _ _ _ Fx) as (R1 & R2 & R3 & R4). destruct (finite_range _ _ _ Fy) as (R5 & R6 & R7 & R8).
    unfold SFdiv_core_binary. rewrite fexp_fe. cbn [Zdigits2].
    set (e' := Z.min (fe (Z.pos (digits2_pos mx) + ex - (Z.pos (digits2_pos my) + ey))) (ex - ey)).
    set (s := (ex - ey - e')%Z).
    assert (HS : (0 <= s)%Z) by (unfold s, e'; lia).
    assert (Em : match s with Z0 => Z.pos mx | Z.pos _ => Z.shiftl (Z.pos mx) s | Z.neg _ => 0%Z end = (Z.pos mx * 2 ^ s)%Z).
    { destruct s; [simpl; lia| |lia]. apply Z.shiftl_mul_pow2. lia. }
    rewrite Em. pose proof (Z_div_mod (Z.pos mx * 2 ^ s) (Z.pos my) ltac:(lia)) as DM.
    destruct (Z.div_eucl (Z.pos mx * 2 ^ s) (Z.pos my)) as [q r]. destruct DM as [DM HR].
    assert (PS : (0 < 2 ^ s)%Z) by (apply Z.pow_pos_nonneg; lia).
    assert (Q0 : (0 <= q)%Z) by nia.
    assert (LX : loc_ok q (new_location (Z.pos my) r) (X / b2 e')).
    { replace (X / b2 e') with (IZR q + IZR r / IZR (Z.pos my)); [apply newloc_ok; lia|].
      assert (DMR : IZR (Z.pos mx) * b2 s = IZR (Z.pos my) * IZR q + IZR r).
      { rewrite b2_IZR by lia. rewrite <- !mult_IZR, <- plus_IZR. f_equal. lia. }
      assert (IZR (Z.pos my) <> 0) by (apply IZR_neq; lia). pose proof (b2_pos ey). pose proof (b2_pos e').
      unfold X. replace (b2 ex) with (b2 s * b2 ey * b2 e') by (rewrite <- !b2_add; f_equal; unfold s; lia).
      replace (IZR (Z.pos mx) * (b2 s * b2 ey * b2 e') / (IZR (Z.pos my) * b2 ey) / b2 e') with ((IZR (Z.pos mx) * b2 s) / IZR (Z.pos my)) by (field; repeat split; lra).
      rewrite DMR. field. lra. }
    assert (HE : (e' <= fe (Zdigits2 q + e'))%Z).
    { destruct (Z_le_gt_dec e' (-1074)) as [|G]; [unfold fe; lia|].
      assert (S1 : (53 - Z.pos (digits2_pos mx) + Z.pos (digits2_pos my) <= s)%Z) by (unfold s, e', fe in *; lia).
      destruct (digits_range (Z.pos mx) ltac:(lia)) as [[D1 _] _]. destruct (digits_range (Z.pos my) ltac:(lia)) as [[_ D2] _]. cbn [Zdigits2] in D1, D2.
      assert (Q52 : (2 ^ 52 <= q)%Z).
      { destruct (Z_le_gt_dec (2 ^ 52) q) as [|L]; auto. exfalso.
        assert (A1 : (Z.pos my * q + r < Z.pos my * 2 ^ 52)%Z) by nia.
        assert (A2 : (Z.pos my * 2 ^ 52 < 2 ^ Z.pos (digits2_pos my) * 2 ^ 52)%Z) by nia.
        assert (A3 : (2 ^ (Z.pos (digits2_pos mx) - 1) * 2 ^ s <= Z.pos mx * 2 ^ s)%Z) by nia.
        rewrite <- Z.pow_add_r in A2, A3 by lia.
        assert (2 ^ (Z.pos (digits2_pos my) + 52) <= 2 ^ (Z.pos (digits2_pos mx) - 1 + s))%Z by (apply Z.pow_le_mono_r; lia). lia. }
      assert (53 <= Zdigits2 q)%Z.
      { destruct (Z_le_gt_dec 53 (Zdigits2 q)) as [|L]; auto. exfalso. destruct (digits_range q ltac:(lia)) as [[_ D3] _].
        assert (2 ^ Zdigits2 q <= 2 ^ 52)%Z by (apply Z.pow_le_mono_r; lia). lia. }
      unfold fe. lia. }
    destruct (round_rel (xorb sx sy) q e' _ X Q0 LX HE B) as (F & y & V & Y0 & ER & _ & NR).
    split; [exact F|]. rewrite V, sg_dist, sg_abs, (Rabs_right X) by lra. split; [exact ER|].
    split; [|apply rounds_sg; [lra|exact NR]].
    intros P. destruct (xorb sx sy); unfold sg in *; nra.
Qed.
Lemma div_ok x y : finite x -> finite y -> dval y <> 0 -> Rabs (dval x / dval y) < b2 1023 ->
  let r := SFdiv 53 1024 x y in
  finite r /\ Rabs (dval r - dval x / dval y) <= uu * Rabs (dval x / dval y) + eta /\ (0 <= dval x / dval y -> 0 <= dval r).
Proof. intros Fx Fy Hy H. destruct (div_full x y Fx Fy Hy H) as (A & B & C & _). auto. Qed.

(** ** Addition and subtraction *)
Lemma round_pos s m e : (-1074 <= e)%Z -> IZR (Zpos m) * b2 e < b2 1023 ->
  let r := binary_round 53 1024 s m e in
  finite r /\ exists y, dval r = sg s * y /\ 0 <= y /\ Rabs (y - IZR (Zpos m) * b2 e) <= uu * (IZR (Zpos m) * b2 e) /\ near (IZR (Zpos m) * b2 e) y.
Proof.
  intros He B. unfold binary_round. rewrite fexp_fe. set (E := fe (Z.pos (digits2_pos m) + e)).
  pose proof (b2_pos e). unfold shl_align. destruct (E - e)%Z as [|d|d] eqn:Q.
  - destruct (round_rel s (Zpos m) e loc_Exact (IZR (Zpos m) * b2 e) ltac:(lia) ltac:(cbn; field; lra) ltac:(cbn [Zdigits2]; fold E; lia) B) as (F & y & V & Y0 & _ & ER & NR).
    split; [exact F|]. exists y. auto.
  - destruct (round_rel s (Zpos m) e loc_Exact (IZR (Zpos m) * b2 e) ltac:(lia) ltac:(cbn; field; lra) ltac:(cbn [Zdigits2]; fold E; lia) B) as (F & y & V & Y0 & _ & ER & NR).
    split; [exact F|]. exists y. auto.
  - assert (SH : Zpos (shift_pos d m) = (Zpos m * 2 ^ Zpos d)%Z) by (rewrite shift_pos_correct; apply Z.mul_comm).
    assert (VAL : IZR (Zpos (shift_pos d m)) * b2 E = IZR (Zpos m) * b2 e).
    { rewrite SH, mult_IZR, <- b2_IZR by lia. rewrite Rmult_assoc, <- b2_add. f_equal. f_equal. lia. }
    assert (DG : Zdigits2 (Zpos (shift_pos d m)) = (Z.pos (digits2_pos m) + Zpos d)%Z).
    { destruct (digits_range (Z.pos m) ltac:(lia)) as [[D1 D2] _]. cbn [Zdigits2] in D1, D2. rewrite SH.
      assert (0 < 2 ^ Zpos d)%Z by (apply Z.pow_pos_nonneg; lia). apply digits_unique; [nia|]. assert (0 < 2 ^ Zpos d)%Z by (apply Z.pow_pos_nonneg; lia).
      replace (Z.pos (digits2_pos m) + Z.pos d - 1)%Z with (Z.pos (digits2_pos m) - 1 + Z.pos d)%Z by lia. rewrite !Z.pow_add_r by lia. nia. }
    pose proof (b2_pos E).
    destruct (round_rel s (Zpos (shift_pos d m)) E loc_Exact (IZR (Zpos m) * b2 e) ltac:(lia)
      ltac:(cbn; rewrite <- VAL; field; lra) ltac:(rewrite DG; unfold E, fe in *; lia) B) as (F & y & V & Y0 & _ & ER & NR).
    split; [exact F|]. exists y. split; [exact V|]. split; [exact Y0|]. split; [|exact NR]. apply ER; [unfold E, fe; lia|reflexivity].
Qed.
Lemma normalize_ok m e sz : (-1074 <= e)%Z -> Rabs (IZR m * b2 e) < b2 1023 ->
  let r := binary_normalize 53 1024 m e sz in
  finite r /\ Rabs (dval r - IZR m * b2 e) <= uu * Rabs (IZR m * b2 e) /\ rounds (IZR m * b2 e) (dval r).
Proof.
  intros He B. pose proof uu_pos. pose proof (b2_pos e). destruct m as [|m|m]; cbn [binary_normalize].
  - split; [split; [reflexivity|exact I]|]. cbn [dval]. rewrite Rmult_0_l, Rminus_0_r, Rabs_R0. split; [lra|exact rounds_0].
  - pose proof (mant_pos m e). rewrite Rabs_right in B by lra. destruct (round_pos false m e He B) as (F & y & V & _ & ER & NR).
    split; [exact F|]. rewrite V. unfold sg. rewrite Rmult_1_l, (Rabs_right (IZR _ * _)) by lra. split; [exact ER|]. left. split; [lra|exact NR].
  - pose proof (mant_pos m e). change (Z.neg m) with (- Z.pos m)%Z in *. rewrite opp_IZR in *.
    replace (- IZR (Z.pos m) * b2 e) with (- (IZR (Z.pos m) * b2 e)) in * by ring. rewrite Rabs_Ropp, Rabs_right in * by lra.
    destruct (round_pos true m e He B) as (F & y & V & _ & ER & NR).
    split; [exact F|]. rewrite V. unfold sg. replace (-1 * y - - (IZR (Z.pos m) * b2 e)) with (- (y - IZR (Z.pos m) * b2 e)) by ring. rewrite Rabs_Ropp, (Rabs_right (IZR _ * _)) by lra. split; [exact ER|].
    right. split; [lra|]. rewrite Ropp_involutive. replace (- (-1 * y)) with y by ring. exact NR.
Qed.
Lemma align_ok m e e' : (e' <= e)%Z -> IZR (Zpos (fst (shl_align m e e'))) * b2 e' = IZR (Zpos m) * b2 e.
Proof.
  intros H. unfold shl_align. destruct (e' - e)%Z as [|d|d] eqn:Q; [|lia|]; cbn [fst].
  - replace e' with e by lia. reflexivity.
  - rewrite shift_pos_correct, Z.mul_comm. change (Z.pow_pos 2 d) with (2 ^ Zpos d)%Z. rewrite mult_IZR, <- b2_IZR by lia.
    rewrite Rmult_assoc, <- b2_add. f_equal. f_equal. lia.
Qed.
Lemma cond_sg s m : IZR (cond_Zopp s (Zpos m)) = sg s * IZR (Zpos m).
Proof. destruct s; unfold cond_Zopp, sg; rewrite ?opp_IZR; ring. Qed.
Lemma add_full x y : finite x -> finite y -> Rabs (dval x + dval y) < b2 1023 ->
  let r := SFadd 53 1024 x y in
  finite r /\ Rabs (dval r - (dval x + dval y)) <= uu * Rabs (dval x + dval y) /\ rounds (dval x + dval y) (dval r).
Proof.
  intros Fx Fy B. pose proof uu_pos.
  assert (Z0 : forall s, finite (S754_zero s)) by (intros; split; [reflexivity|exact I]).
  assert (T : forall z t, finite z -> t = dval z -> Rabs (dval z - t) <= uu * Rabs t /\ rounds t (dval z)).
  { intros z t Fz ->. split; [replace (dval z - dval z) with 0 by ring; rewrite Rabs_R0; apply Rmult_le_pos; [lra|apply Rabs_pos]|].
    destruct z as [s|s| |s m e]; try nofin; [exact rounds_0|]. rewrite dval_sg. apply rounds_sg; [left; apply mant_pos|exact (near_self s m e Fz)]. }
  destruct x as [sx|sx| |sx mx ex], y as [sy|sy| |sy my ey]; cbn [SFadd];
    try nofin.
  - destruct (Bool.eqb sx sy); (split; [apply Z0|apply T; [apply Z0|cbn; ring]]).
  - split; [exact Fy|apply T; [exact Fy|]; cbn [dval]; ring].
  - split; [exact Fx|apply T; [exact Fx|]; cbn [dval]; ring].
  - destruct (finite_range _ _ _ Fx) as (R1 & _). destruct (finite_range _ _ _ Fy) as (R5 & _).
    assert (EQ : dval (S754_finite sx mx ex) + dval (S754_finite sy my ey) =
      IZR (cond_Zopp sx (Z.pos (fst (shl_align mx ex (Z.min ex ey)))) + cond_Zopp sy (Z.pos (fst (shl_align my ey (Z.min ex ey))))) * b2 (Z.min ex ey)).
    { rewrite plus_IZR, !cond_sg, Rmult_plus_distr_r, !Rmult_assoc, !align_ok by lia. rewrite !dval_sg. ring. }
    rewrite EQ in *. apply normalize_ok; [lia|exact B].
Qed.
Lemma add_ok x y : finite x -> finite y -> Rabs (dval x + dval y) < b2 1023 ->
  let r := SFadd 53 1024 x y in
  finite r /\ Rabs (dval r - (dval x + dval y)) <= uu * Rabs (dval x + dval y).
Proof. intros Fx Fy H. destruct (add_full x y Fx Fy H) as (A & B & _). auto. Qed.
Lemma sub_full x y : finite x -> finite y -> Rabs (dval x - dval y) < b2 1023 ->
  let r := SFsub 53 1024 x y in
  finite r /\ Rabs (dval r - (dval x - dval y)) <= uu * Rabs (dval x - dval y) /\ rounds (dval x - dval y) (dval r).
Proof.
  intros Fx Fy B. pose proof uu_pos.
  assert (Z0 : forall s, finite (S754_zero s)) by (intros; split; [reflexivity|exact I]).
  assert (T : forall z t, finite z -> t = dval z -> Rabs (dval z - t) <= uu * Rabs t /\ rounds t (dval z)).
  { intros z t Fz ->. split; [replace (dval z - dval z) with 0 by ring; rewrite Rabs_R0; apply Rmult_le_pos; [lra|apply Rabs_pos]|].
    destruct z as [s|s| |s m e]; try nofin; [exact rounds_0|]. rewrite dval_sg. apply rounds_sg; [left; apply mant_pos|exact (near_self s m e Fz)]. }
  destruct x as [sx|sx| |sx mx ex], y as [sy|sy| |sy my ey]; cbn [SFsub];
    try nofin.
  - destruct (Bool.eqb sx (negb sy)); (split; [apply Z0|apply T; [apply Z0|cbn; ring]]).
  - split; [split; [exact (proj1 Fy)|exact I]|apply T; [split; [exact (proj1 Fy)|exact I]|]; rewrite !dval_sg; cbn [dval]; destruct sy; unfold sg; cbn [negb]; ring].
  - split; [exact Fx|apply T; [exact Fx|]; cbn [dval]; ring].
  - destruct (finite_range _ _ _ Fx) as (R1 & _). destruct (finite_range _ _ _ Fy) as (R5 & _).
    assert (EQ : dval (S754_finite sx mx ex) - dval (S754_finite sy my ey) =
      IZR (cond_Zopp sx (Z.pos (fst (shl_align mx ex (Z.min ex ey)))) - cond_Zopp sy (Z.pos (fst (shl_align my ey (Z.min ex ey))))) * b2 (Z.min ex ey)).
    { rewrite minus_IZR, !cond_sg, Rmult_minus_distr_r, !Rmult_assoc, !align_ok by lia. rewrite !dval_sg. ring. }
    rewrite EQ in *. apply normalize_ok; [lia|exact B].
Qed.
Lemma sub_ok x y : finite x -> finite y -> Rabs (dval x - dval y) < b2 1023 ->
  let r := SFsub 53 1024 x y in
  finite r /\ Rabs (dval r - (dval x - dval y)) <= uu * Rabs (dval x - dval y).
Proof. intros Fx Fy H. destruct (sub_full x y Fx Fy H) as (A & B & _). auto. Qed.
