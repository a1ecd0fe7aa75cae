(** Doubles survive writing and reading. *)
From Coq Require Import ZArith Bool List SpecFloat Lia.
From Verif Require Import Num ModelIo ModelFloat SpecIo ProofIo.
Import ListNotations.
Local Open Scope Z_scope.

Lemma digits_bounds m : 2 ^ (Zpos (digits2_pos m) - 1) <= Zpos m < 2 ^ Zpos (digits2_pos m).
Proof.
  induction m as [m IH|m IH|]; cbn [digits2_pos]; [| |cbn; lia].
  all: rewrite Pos2Z.inj_succ; replace (Z.succ (Zpos (digits2_pos m)) - 1) with (Z.succ (Zpos (digits2_pos m) - 1)) by lia; rewrite !Z.pow_succ_r by lia; lia.
Qed.
Lemma bounded_range m e : bounded 53 1024 m e = true ->
  -1074 <= e <= 971 /\ Zpos m < 2 ^ 53 /\ (Zpos m < 2 ^ 52 -> e = -1074).
Proof.
  unfold bounded, canonical_mantissa, fexp, emin. intros H. apply andb_prop in H. destruct H as [H1 H2].
  apply Zeq_bool_eq in H1. apply Zle_bool_imp_le in H2. pose proof (digits_bounds m) as [D1 D2].
  assert (Zpos (digits2_pos m) <= 53) by lia. split; [lia|]. split.
  - eapply Z.lt_le_trans; [exact D2|]. apply Z.pow_le_mono_r; lia.
  - intros L. destruct (Z_le_gt_dec (Zpos (digits2_pos m)) 52); [lia|]. exfalso.
    assert (2 ^ 52 <= 2 ^ (Zpos (digits2_pos m) - 1)) by (apply Z.pow_le_mono_r; lia). lia.
Qed.
Lemma split_bits s ex fr : 0 <= ex < 2048 -> 0 <= fr < 2 ^ 52 -> let b := sign_bit s + ex * 2 ^ 52 + fr in
  0 <= b < 2 ^ 64 /\ (2 ^ 63 <=? b) = s /\ b / 2 ^ 52 mod 2048 = ex /\ b mod 2 ^ 52 = fr.
Proof.
  intros H1 H2 b. assert (E : b = ((if s then 2048 else 0) + ex) * 2 ^ 52 + fr).
  { unfold b, sign_bit. destruct s; [|ring]. change (2 ^ 63) with (2048 * 2 ^ 52). ring. }
  change (2 ^ 64) with (4096 * 2 ^ 52). change (2 ^ 63) with (2048 * 2 ^ 52). set (p := 2 ^ 52) in *. assert (0 < p) by reflexivity.
  repeat split.
  - rewrite E. destruct s; nia.
  - rewrite E. destruct s; nia.
  - rewrite E. destruct s; [apply Z.leb_le|apply Z.leb_gt]; nia.
  - rewrite E, Z.div_add_l, (Z.div_small fr) by lia. rewrite Z.add_0_r. destruct s; [|rewrite Z.mod_small; lia].
    replace (2048 + ex) with (ex + 1 * 2048) by ring. rewrite Z_mod_plus_full. apply Z.mod_small; lia.
  - rewrite E, Z.add_comm, Z_mod_plus_full. apply Z.mod_small; lia.
Qed.
Lemma bits_back x : valid_binary 53 1024 x = true -> 0 <= dbl_bits x < 2 ^ 64 /\ bits_dbl (dbl_bits x) = x.
Proof.
  intros V. destruct x as [s|s| |s m e]; cbn [dbl_bits].
  - pose proof (split_bits s 0 0) as H. cbv zeta in H. destruct H as (H1 & H2 & H3 & H4); [lia|lia|].
    replace (sign_bit s) with (sign_bit s + 0 * 2 ^ 52 + 0) by ring. split; [exact H1|]. unfold bits_dbl. rewrite H2, H3, H4. reflexivity.
  - pose proof (split_bits s 2047 0) as H. cbv zeta in H. destruct H as (H1 & H2 & H3 & H4); [lia|lia|].
    replace (sign_bit s + 2047 * 2 ^ 52) with (sign_bit s + 2047 * 2 ^ 52 + 0) by ring. split; [exact H1|]. unfold bits_dbl. rewrite H2, H3, H4. reflexivity.
  - split; [split; vm_compute; congruence|reflexivity].
  - destruct (bounded_range m e V) as (R1 & R2 & R3). destruct (Z.ltb_spec (Zpos m) (2 ^ 52)) as [L|L].
    + pose proof (split_bits s 0 (Zpos m)) as H. cbv zeta in H. destruct H as (H1 & H2 & H3 & H4); [lia|lia|].
      replace (sign_bit s + Zpos m) with (sign_bit s + 0 * 2 ^ 52 + Zpos m) by ring. split; [exact H1|]. unfold bits_dbl. rewrite H2, H3, H4.
      cbn [Z.eqb Z.to_pos]. rewrite R3 by auto. reflexivity.
    + change (2 ^ 53) with (2 * 2 ^ 52) in R2. pose proof (split_bits s (e + 1075) (Zpos m - 2 ^ 52)) as H. cbv zeta in H. destruct H as (H1 & H2 & H3 & H4); [lia|lia|].
      rewrite Z.add_assoc. split; [exact H1|]. unfold bits_dbl. rewrite H2, H3, H4.
      destruct (Z.eqb_spec (e + 1075) 0); [lia|]. destruct (Z.eqb_spec (e + 1075) 2047); [lia|].
      replace (Zpos m - 2 ^ 52 + 2 ^ 52) with (Zpos m) by ring. cbn [Z.to_pos]. f_equal. ring.
Qed.
Lemma unbe8 b : 0 <= b < 2 ^ 64 -> unbe (be 8 b) = b.
Proof. intros H. rewrite unbe_be. change (8 * Z.of_nat 8) with 64. apply Z.mod_small; auto. Qed.
Lemma f8_lossless x : valid_binary 53 1024 x = true -> lossless f8 x.
Proof.
  intros V. destruct (bits_back x V) as [H1 H2]. split; [apply be_length|].
  change (bits_dbl (unbe (be 8 (dbl_bits x))) = x). rewrite unbe8 by auto. exact H2.
Qed.
Lemma c16_lossless x : valid_binary 53 1024 x = true -> lossless c16 x.
Proof.
  intros V. destruct (bits_back x V) as [H1 H2]. split; [cbn [c_enc c16 c_width]; rewrite app_length, !be_length; reflexivity|].
  change (bits_dbl (unbe (firstn 8 (be 8 (dbl_bits x) ++ be 8 0))) = x).
  rewrite firstn_app, be_length, Nat.sub_diag, firstn_O, app_nil_r, firstn_all2 by (rewrite be_length; lia).
  rewrite unbe8 by auto. exact H2.
Qed.
Lemma petiga_types_ok complex long : types_ok (petiga_types complex long).
Proof. destruct complex, long; repeat split; cbn; lia. Qed.
Lemma scal_lossless complex long x : valid_binary 53 1024 x = true -> lossless (t_scal (petiga_types complex long)) x.
Proof. destruct complex; [apply c16_lossless|apply f8_lossless]. Qed.
