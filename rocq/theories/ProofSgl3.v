(** The format of singles: bits, nearest numbers, products and quotients. *)
From Coq Require Import ZArith Reals List Bool SpecFloat Lia Lra Psatz.
From Verif Require Import Num ModelIo ModelFloat ModelSingle SpecIo SpecDouble SpecSingle ProofIo ProofFloat ProofRound ProofRound2 ProofRound3 ProofRound8 ProofSgl ProofSgl2.
Import ListNotations.
Local Open Scope R_scope.

(** ** Bits *)
Lemma s_split_bits s ex fr : (0 <= ex < 256)%Z -> (0 <= fr < 2 ^ 23)%Z -> let b := (sgl_sign s + ex * 2 ^ 23 + fr)%Z in
  (0 <= b < 2 ^ 32)%Z /\ (2 ^ 31 <=? b)%Z = s /\ (b / 2 ^ 23 mod 256)%Z = ex /\ (b mod 2 ^ 23)%Z = fr.
Proof.
  intros H1 H2 b. assert (E : b = (((if s then 256 else 0) + ex) * 2 ^ 23 + fr)%Z).
  { unfold b, sgl_sign. destruct s; [|ring]. change (2 ^ 31)%Z with (256 * 2 ^ 23)%Z. ring. }
  change (2 ^ 32)%Z with (512 * 2 ^ 23)%Z. change (2 ^ 31)%Z with (256 * 2 ^ 23)%Z. set (p := (2 ^ 23)%Z) in *. assert (0 < p)%Z by reflexivity.
  repeat split.
  - rewrite E. destruct s; nia.
  - rewrite E. destruct s; nia.
  - rewrite E. destruct s; [apply Z.leb_le|apply Z.leb_gt]; nia.
  - rewrite E, Z.div_add_l, (Z.div_small fr) by lia. rewrite Z.add_0_r. destruct s; [|rewrite Z.mod_small; lia].
    replace (256 + ex)%Z with (ex + 1 * 256)%Z by ring. rewrite Z_mod_plus_full. apply Z.mod_small; lia.
  - rewrite E, Z.add_comm, Z_mod_plus_full. apply Z.mod_small; lia.
Qed.
Lemma s_bits_back x : s_finite x -> (0 <= sgl_bits x < 2 ^ 32)%Z /\ bits_sgl (sgl_bits x) = x.
Proof.
  intros F. destruct x as [s|s| |s m e]; try (destruct F as [_ []]; fail); cbn [sgl_bits].
  - pose proof (s_split_bits s 0 0) as H. cbv zeta in H. destruct H as (H1 & H2 & H3 & H4); [lia|lia|].
    replace (sgl_sign s) with (sgl_sign s + 0 * 2 ^ 23 + 0)%Z by ring. split; [exact H1|]. unfold bits_sgl. rewrite H2, H3, H4. reflexivity.
  - destruct (s_finite_range s m e F) as (R1 & R2 & R3 & R4). destruct (digits_range (Z.pos m) ltac:(lia)) as [[D1 D2] _]. cbn [Zdigits2] in D1, D2.
    assert (M : (Zpos m < 2 ^ 24)%Z) by (apply Z.lt_le_trans with (1 := D2); apply Z.pow_le_mono_r; lia).
    destruct (Z.ltb_spec (Zpos m) (2 ^ 23)) as [L|L].
    + pose proof (s_split_bits s 0 (Zpos m)) as H. cbv zeta in H. destruct H as (H1 & H2 & H3 & H4); [lia|lia|].
      replace (sgl_sign s + Zpos m)%Z with (sgl_sign s + 0 * 2 ^ 23 + Zpos m)%Z by ring. split; [exact H1|]. unfold bits_sgl. rewrite H2, H3, H4.
      cbn [Z.eqb Z.to_pos]. f_equal. unfold s_fe in R3. destruct (Z_le_gt_dec (Zpos (digits2_pos m)) 23); [lia|].
      assert (2 ^ 23 <= 2 ^ (Zpos (digits2_pos m) - 1))%Z by (apply Z.pow_le_mono_r; lia). lia.
    + change (2 ^ 24)%Z with (2 * 2 ^ 23)%Z in M. pose proof (s_split_bits s (e + 150) (Zpos m - 2 ^ 23)) as H. cbv zeta in H. destruct H as (H1 & H2 & H3 & H4); [lia|lia|].
      rewrite Z.add_assoc. split; [exact H1|]. unfold bits_sgl. rewrite H2, H3, H4.
      destruct (Z.eqb_spec (e + 150) 0); [lia|]. destruct (Z.eqb_spec (e + 150) 255); [lia|].
      replace (Zpos m - 2 ^ 23 + 2 ^ 23)%Z with (Zpos m) by ring. cbn [Z.to_pos]. f_equal. ring.
Qed.
Lemma unbe4 b : (0 <= b < 2 ^ 32)%Z -> unbe (be 4 b) = b.
Proof. intros H. rewrite unbe_be. change (8 * Z.of_nat 4)%Z with 32%Z. apply Z.mod_small; auto. Qed.

(** ** A single written and read again *)
Lemma signed_of x : (match x with S754_zero _ | S754_finite _ _ _ => True | _ => False end) -> exists s, signed s x.
Proof. destruct x; cbn; eauto; contradiction. Qed.
Lemma of_single_small y : s_finite y -> Rabs (dval y) < 3 / 2 * b2 127 -> to_single (of_single y) = y.
Proof.
  intros F B. destruct (of_single_ok y F) as (F1 & V & SG). destruct (signed_of y (proj2 F)) as [s S].
  destruct (to_single_full (of_single y) F1) as (F2 & RR & SG2); [rewrite V; exact B|].
  apply (s_finite_inj _ _ s F2 F (SG2 s (SG s S)) S). rewrite V in RR. apply (s_rounds_exact _ _ _ F eq_refl RR).
Qed.
Lemma fin_127 : s_finite (S754_finite false 8388608 104) /\ dval (S754_finite false 8388608 104) = b2 127 /\
  s_finite (S754_finite true 8388608 104) /\ dval (S754_finite true 8388608 104) = - b2 127.
Proof.
  assert (E : IZR (Zpos 8388608) * b2 104 = b2 127) by (change (Zpos 8388608) with (2 ^ 23)%Z; rewrite <- b2_IZR, <- b2_add by lia; reflexivity).
  repeat split; cbn [dval]; rewrite Rmult_assoc, E; ring.
Qed.
Lemma single_bound x : moderate x -> Rabs (dval (to_single x)) < 3 / 2 * b2 127.
Proof.
  intros M. pose proof M as [F B]. destruct (to_single_ok x M) as (F1 & RR & _). destruct fin_127 as (A1 & A2 & A3 & A4). pose proof (b2_pos 127).
  pose proof (s_rounds_self _ A1) as U. pose proof (s_rounds_self _ A3) as L. rewrite A2 in U. rewrite A4 in L. apply Rabs_def2 in B.
  pose proof (s_rounds_mono _ _ _ _ RR U ltac:(lra)). pose proof (s_rounds_mono _ _ _ _ L RR ltac:(lra)). apply Rabs_def1; lra.
Qed.
(** What is stored for [x]. *)
Definition narrow (x : spec_float) : spec_float := of_single (to_single x).
Lemma narrow_again x : moderate x -> to_single (narrow x) = to_single x.
Proof. intros M. apply of_single_small; [apply to_single_ok; auto|apply single_bound; auto]. Qed.
Lemma f4_stored x : moderate x -> stored f4 x = narrow x.
Proof.
  intros M. unfold stored. change (of_single (bits_sgl (unbe (be 4 (sgl_bits (to_single x))))) = narrow x).
  destruct (s_bits_back (to_single x)) as [H1 H2]; [apply to_single_ok; auto|]. rewrite unbe4, H2 by auto. reflexivity.
Qed.
Lemma c8_stored x : moderate x -> stored c8 x = narrow x.
Proof.
  intros M. unfold stored. change (of_single (bits_sgl (unbe (firstn 4 (be 4 (sgl_bits (to_single x)) ++ be 4 0)))) = narrow x).
  rewrite firstn_app, be_length, Nat.sub_diag, firstn_O, app_nil_r, firstn_all2 by (rewrite be_length; lia).
  destruct (s_bits_back (to_single x)) as [H1 H2]; [apply to_single_ok; auto|]. rewrite unbe4, H2 by auto. reflexivity.
Qed.
Lemma f4_stable x : moderate x -> stable f4 x.
Proof.
  intros M. split; [apply be_length|]. rewrite f4_stored by auto. change (be 4 (sgl_bits (to_single (narrow x))) = be 4 (sgl_bits (to_single x))).
  rewrite narrow_again by auto. reflexivity.
Qed.
Lemma c8_stable x : moderate x -> stable c8 x.
Proof.
  intros M. split; [cbn [c_enc c8 c_width]; rewrite app_length, !be_length; reflexivity|]. rewrite c8_stored by auto.
  change (be 4 (sgl_bits (to_single (narrow x))) ++ be 4 0 = be 4 (sgl_bits (to_single x)) ++ be 4 0). rewrite narrow_again by auto. reflexivity.
Qed.

(** ** The nearest single *)
Lemma s_near_value x y : 0 <= x -> s_near x y -> single_value y.
Proof.
  intros X0 (E & M & A & B & C & -> & D & T). pose proof (b2_pos E) as P. apply abs_le in D.
  assert (X1 : x / b2 E < IZR (2 ^ 24)).
  { apply (Rmult_lt_reg_r (b2 E)); [exact P|]. unfold Rdiv. rewrite Rmult_assoc, Rinv_l, Rmult_1_r by lra. rewrite <- b2_IZR, <- b2_add, Z.add_comm by lia. exact B. }
  assert (X2 : 0 <= x / b2 E) by (apply Rle_mult_inv_pos; auto).
  assert (N1 : (M <= 2 ^ 24)%Z). { apply Z.lt_succ_r, lt_IZR. unfold Z.succ. rewrite plus_IZR. lra. }
  assert (N2 : (-1 < M)%Z) by (apply lt_IZR; lra).
  destruct (Z.eq_dec M (2 ^ 24)) as [->|].
  - exists (2 ^ 23)%Z, (E + 1)%Z. split; [|split; [reflexivity|lia]]. rewrite b2_1. change (2 ^ 24)%Z with (2 ^ 23 * 2)%Z. rewrite mult_IZR. ring.
  - exists M, E. split; [reflexivity|]. split; lia.
Qed.
(** A single not below 2^(E+23), or any if E is the least exponent, is a multiple of 2^E. *)
Lemma single_multiple z E : single_value z -> (E <> (-149)%Z -> b2 (E + 23) <= z) -> (-149 <= E)%Z -> exists k, z = IZR k * b2 E.
Proof.
  intros (m & e & -> & Hm & He) H HE. destruct (Z_le_gt_dec E e) as [L|G].
  - exists (m * 2 ^ (e - E))%Z. rewrite mult_IZR, <- b2_IZR by lia. rewrite Rmult_assoc, <- b2_add. f_equal. f_equal. lia.
  - exfalso. assert (Q : E <> (-149)%Z) by lia. specialize (H Q). assert (IZR m * b2 e < b2 24 * b2 e).
    { apply Rmult_lt_compat_r; [apply b2_pos|]. rewrite b2_IZR by lia. apply IZR_lt. lia. }
    rewrite <- b2_add in H0. assert (b2 (24 + e) <= b2 (E + 23)) by (apply b2_le; lia). lra.
Qed.
Lemma s_near_nearest x y : 0 <= x -> s_near x y -> nearest_single x y.
Proof.
  intros X0 N. split; [exact (s_near_value x y X0 N)|]. intros z Z. destruct N as (E & M & A & B & C & -> & D & T). pose proof (b2_pos E) as P.
  assert (K : forall k, Rabs (IZR M * b2 E - x) <= Rabs (IZR k * b2 E - x)).
  { intros k. assert (S : forall j, IZR j * b2 E - x = (IZR j - x / b2 E) * b2 E) by (intros; field; lra). rewrite !S, !Rabs_mult. apply Rmult_le_compat_r; [apply Rabs_pos|].
    destruct (Z.eq_dec k M) as [->|NE]; [lra|]. apply Rle_trans with (1 := D). apply abs_le in D.
    assert (L : (k + 1 <= M \/ M + 1 <= k)%Z) by lia. destruct L as [L|L]; apply IZR_le in L; rewrite plus_IZR in L.
    - rewrite Rabs_left1 by lra. lra.
    - rewrite Rabs_right by lra. lra. }
  assert (dec : (E = -149 \/ E <> -149)%Z) by lia. destruct dec as [QE|QE].
  - destruct (single_multiple z E Z) as [k ->]; [intros; contradiction|exact A|]. apply K.
  - specialize (C QE). destruct (Rle_lt_dec (b2 (E + 23)) z) as [L|L].
    + destruct (single_multiple z E Z) as [k ->]; [auto|exact A|]. apply K.
    + apply Rle_trans with (Rabs (IZR (2 ^ 23) * b2 E - x)); [apply K|]. rewrite <- (b2_IZR 23) by lia. rewrite <- b2_add. rewrite Z.add_comm in C. rewrite Z.add_comm in L.
      rewrite (Rabs_left1 (b2 (23 + E) - x)), (Rabs_left1 (z - x)) by lra. lra.
Qed.
Lemma single_opp z : single_value z -> single_value (- z).
Proof. intros (m & e & -> & H & He). exists (- m)%Z, e. rewrite opp_IZR. split; [ring|]. split; lia. Qed.
Lemma s_rounds_nearest x y : s_rounds x y -> nearest_single x y.
Proof.
  intros [[H N]|[H N]]; [apply s_near_nearest; auto|]. destruct (s_near_nearest (- x) (- y) ltac:(lra) N) as [S1 S2]. split.
  - rewrite <- (Ropp_involutive y). apply single_opp. exact S1.
  - intros z Z. specialize (S2 (- z) (single_opp z Z)). replace (- y - - x) with (- (y - x)) in S2 by ring. replace (- z - - x) with (- (z - x)) in S2 by ring. rewrite !Rabs_Ropp in S2. exact S2.
Qed.
Lemma narrow_ok x : moderate x -> finite (narrow x) /\ nearest_single (dval x) (dval (narrow x)) /\ (forall s, signed s x -> signed s (narrow x)).
Proof.
  intros M. destruct (to_single_ok x M) as (F & RR & SG). destruct (of_single_ok _ F) as (F1 & V & SG1). unfold narrow. split; [exact F1|]. split.
  - rewrite V. apply s_rounds_nearest. exact RR.
  - auto.
Qed.
Lemma narrow_mono x y : moderate x -> moderate y -> dval x <= dval y -> dval (narrow x) <= dval (narrow y).
Proof.
  intros Mx My L. destruct (to_single_ok x Mx) as (Fx & Rx & _). destruct (to_single_ok y My) as (Fy & Ry & _). unfold narrow.
  rewrite (proj1 (proj2 (of_single_ok _ Fx))), (proj1 (proj2 (of_single_ok _ Fy))). exact (s_rounds_mono _ _ _ _ Rx Ry L).
Qed.
Lemma narrow_same x : moderate x -> single_value (dval x) -> narrow x = x.
Proof.
  intros M S. destruct (narrow_ok x M) as (F & [S1 S2] & SG). destruct M as [Fx _]. destruct (signed_of x (proj2 Fx)) as [s Sx].
  apply (finite_inj _ _ s F Fx (SG s Sx) Sx). specialize (S2 _ S). rewrite (Rminus_diag_eq (dval x) (dval x) eq_refl), Rabs_R0 in S2.
  destruct (Req_dec (dval (narrow x)) (dval x)) as [|NE]; [auto|]. pose proof (Rabs_pos_lt _ (Rminus_eq_contra _ _ NE)). lra.
Qed.

(** ** A product of singles divided by one of them *)
Lemma digits_bound m k : (Zpos m < 2 ^ k)%Z -> (0 <= k)%Z -> (Zpos (digits2_pos m) <= k)%Z.
Proof. intros H K. apply (digits_le (Zpos m) k); lia. Qed.
Lemma times_over a b : s_finite a -> s_finite b -> dval b <> 0 -> let x := of_single a in let y := of_single b in
  SFdiv 53 1024 (SFmul 53 1024 x y) y = x.
Proof.
  intros Fa Fb NB x y. destruct (of_single_ok a Fa) as (Fx & Vx & SGx). destruct (of_single_ok b Fb) as (Fy & Vy & SGy). fold x in Fx, Vx, SGx. fold y in Fy, Vy, SGy.
  destruct b as [sb|sb| |sb mb eb]; try (destruct Fb as [_ []]; fail); [cbn in NB; lra|].
  destruct (s_finite_range _ _ _ Fb) as (B1 & B2 & B3 & B4). pose proof (SGy sb eq_refl) as Sy.
  destruct a as [sa|sa| |sa ma ea]; try (destruct Fa as [_ []]; fail).
  - unfold x. cbn [of_single]. unfold y in *. cbn [of_single] in *. destruct (binary_round 53 1024 sb mb eb) as [s|s| |s m e] eqn:Q; try (destruct Fy as [_ []]; fail).
    + rewrite dval_sg in Vy. cbn in Vy. pose proof (mant_pos mb eb). destruct sb; unfold sg in Vy; lra.
    + cbn in Sy. subst s. cbn. destruct sa, sb; reflexivity.
  - destruct (s_finite_range _ _ _ Fa) as (A1 & A2 & A3 & A4). pose proof (SGx sa eq_refl) as Sx.
    assert (Da : (Zpos ma < 2 ^ 24)%Z). { destruct (digits_range (Z.pos ma) ltac:(lia)) as [[_ D] _]. cbn [Zdigits2] in D. apply Z.lt_le_trans with (1 := D). apply Z.pow_le_mono_r; lia. }
    assert (Db : (Zpos mb < 2 ^ 24)%Z). { destruct (digits_range (Z.pos mb) ltac:(lia)) as [[_ D] _]. cbn [Zdigits2] in D. apply Z.lt_le_trans with (1 := D). apply Z.pow_le_mono_r; lia. }
    destruct (dbl_exact (xorb sa sb) (ma * mb) (ea + eb)) as (Fz & Vz & Sz); [|lia|].
    { apply digits_bound; [|lia]. rewrite Pos2Z.inj_mul. change (2 ^ 24)%Z with 16777216%Z in *. change (2 ^ 53)%Z with 9007199254740992%Z. nia. }
    set (z := binary_round 53 1024 (xorb sa sb) (ma * mb) (ea + eb)) in *.
    assert (Vp : dval z = dval x * dval y).
    { rewrite Vz, Vx, Vy, !dval_sg, sg_xor, Pos2Z.inj_mul, mult_IZR, b2_add. ring. }
    assert (Bd : forall m e, (Zpos m < 2 ^ 24)%Z -> (e <= 104)%Z -> IZR (Zpos m) * b2 e < b2 128).
    { intros m e H1 H2. apply Rlt_le_trans with (b2 24 * b2 e); [apply Rmult_lt_compat_r; [apply b2_pos|]; rewrite b2_IZR by lia; apply IZR_lt; lia|].
      rewrite <- b2_add. apply b2_le. lia. }
    pose proof (Bd ma ea Da A4) as Ba. pose proof (Bd mb eb Db B4) as Bb. pose proof (mant_pos ma ea) as Pa. pose proof (mant_pos mb eb) as Pb.
    assert (BX : Rabs (dval x) < b2 128) by (rewrite Vx, dval_sg, sg_abs, Rabs_right by lra; exact Ba).
    assert (BY : Rabs (dval y) < b2 128) by (rewrite Vy, dval_sg, sg_abs, Rabs_right by lra; exact Bb).
    destruct (mul_full x y Fx Fy) as (Fm & _ & _ & Rm).
    { rewrite Rabs_mult. apply Rle_lt_trans with (b2 128 * b2 128); [apply Rmult_le_compat; try apply Rabs_pos; lra|]. rewrite <- b2_add. apply Rlt_le_trans with (b2 (256 + 1)); [rewrite b2_1; pose proof (b2_pos 256); change (128 + 128)%Z with 256%Z; lra|apply b2_le; lia]. }
    cbv zeta in Fm, Rm. pose proof (rounds_exact _ _ z Fz Vp Rm) as Vm. set (p := SFmul 53 1024 x y) in *.
    assert (NY : dval y <> 0) by (rewrite Vy; exact NB).
    assert (Q : dval p / dval y = dval x) by (rewrite Vm; field; exact NY).
    destruct (div_full p y Fm Fy NY) as (Fd & _ & _ & Rd).
    { rewrite Q. apply Rlt_le_trans with (1 := BX). apply b2_le. lia. }
    cbv zeta in Fd, Rd. rewrite Q in Rd. pose proof (rounds_exact _ _ x Fx eq_refl Rd) as Vd.
    assert (NX : dval x <> 0) by (rewrite Vx, dval_sg; destruct sa; unfold sg; lra).
    (* the sign follows from the value *)
    assert (SD : signed sa (SFdiv 53 1024 p y)).
    { destruct (SFdiv 53 1024 p y) as [s|s| |s m e]; try (destruct Fd as [_ []]; fail); [exfalso; apply NX; symmetry; exact Vd|].
      cbn. rewrite Vx in Vd. rewrite !dval_sg in Vd. pose proof (mant_pos m e). destruct s, sa; unfold sg in Vd; auto; lra. }
    exact (finite_inj _ _ sa Fd Fx SD Sx Vd).
Qed.
