(** Comparison of doubles, and a calculus of relative and absolute errors. *)
From Coq Require Import ZArith Reals List Bool SpecFloat Lia Lra Psatz.
From Verif Require Import SpecDouble ProofRound ProofRound2.
Local Open Scope R_scope.

(** ** Comparison *)
Lemma mant_lt m1 e1 m2 e2 : (Zpos (digits2_pos m1) <= 53)%Z -> (-1074 <= e1)%Z -> fe (Zpos (digits2_pos m2) + e2) = e2 -> (e1 < e2)%Z ->
  IZR (Zpos m1) * b2 e1 < IZR (Zpos m2) * b2 e2.
Proof.
  intros D1 E1 E2 L. assert (D2 : Zpos (digits2_pos m2) = 53%Z) by (unfold fe in *; lia).
  destruct (digits_range (Zpos m1) ltac:(lia)) as [[_ A1] _]. destruct (digits_range (Zpos m2) ltac:(lia)) as [[A2 _] _]. cbn [Zdigits2] in *.
  rewrite D2 in A2. assert (B1 : (Zpos m1 < 2 ^ 53)%Z) by (apply Z.lt_le_trans with (1 := A1); apply Z.pow_le_mono_r; lia).
  apply IZR_lt in B1. apply IZR_le in A2. rewrite <- b2_IZR in B1, A2 by lia.
  apply Rlt_le_trans with (b2 53 * b2 e1); [apply Rmult_lt_compat_r; [apply b2_pos|exact B1]|].
  apply Rle_trans with (b2 (53 - 1) * b2 e2); [|apply Rmult_le_compat_r; [left; apply b2_pos|exact A2]].
  rewrite <- !b2_add. apply b2_le. lia.
Qed.
Lemma cmp_ok x y : finite x -> finite y ->
  match SFcompare x y with Some Lt => dval x < dval y | Some Gt => dval y < dval x | Some Eq => dval x = dval y | None => False end.
Proof.
  intros Fx Fy. destruct x as [sx|sx| |sx mx ex], y as [sy|sy| |sy my ey]; try nofin; cbn [SFcompare].
  - reflexivity.
  - rewrite dval_sg. pose proof (mant_pos my ey). cbn [dval]. destruct sy; unfold sg; lra.
  - rewrite dval_sg. pose proof (mant_pos mx ex). cbn [dval]. destruct sx; unfold sg; lra.
  - pose proof (mant_pos mx ex) as P1. pose proof (mant_pos my ey) as P2. rewrite !dval_sg.
    destruct (finite_range _ _ _ Fx) as (R1 & R2 & R3 & _). destruct (finite_range _ _ _ Fy) as (R5 & R6 & R7 & _).
    assert (L1 : (ex < ey)%Z -> IZR (Z.pos mx) * b2 ex < IZR (Z.pos my) * b2 ey) by (intros; apply mant_lt; auto).
    assert (L2 : (ey < ex)%Z -> IZR (Z.pos my) * b2 ey < IZR (Z.pos mx) * b2 ex) by (intros; apply mant_lt; auto).
    pose proof (b2_pos ex) as Q.
    destruct sx, sy; unfold sg; try lra.
    + destruct (Z.compare_spec ex ey) as [E|E|E].
      * subst ey. change (Pos.compare_cont Eq mx my) with (Pos.compare mx my).
        destruct (Pos.compare_spec mx my) as [M|M|M]; cbn [CompOpp].
        -- subst. reflexivity.
        -- assert (IZR (Z.pos mx) < IZR (Z.pos my)) by (apply IZR_lt; lia). nra.
        -- assert (IZR (Z.pos my) < IZR (Z.pos mx)) by (apply IZR_lt; lia). nra.
      * specialize (L1 E). lra.
      * specialize (L2 E). lra.
    + destruct (Z.compare_spec ex ey) as [E|E|E].
      * subst ey. change (Pos.compare_cont Eq mx my) with (Pos.compare mx my).
        destruct (Pos.compare_spec mx my) as [M|M|M].
        -- subst. reflexivity.
        -- assert (IZR (Z.pos mx) < IZR (Z.pos my)) by (apply IZR_lt; lia). nra.
        -- assert (IZR (Z.pos my) < IZR (Z.pos mx)) by (apply IZR_lt; lia). nra.
      * specialize (L1 E). lra.
      * specialize (L2 E). lra.
Qed.
Lemma leb_ok x y : finite x -> finite y -> (SFleb x y = true <-> dval x <= dval y).
Proof. intros Fx Fy. pose proof (cmp_ok x y Fx Fy) as H. unfold SFleb. destruct (SFcompare x y) as [[]|]; split; intros; try lra; try discriminate; auto; contradiction. Qed.
Lemma ltb_ok x y : finite x -> finite y -> (SFltb x y = true <-> dval x < dval y).
Proof. intros Fx Fy. pose proof (cmp_ok x y Fx Fy) as H. unfold SFltb. destruct (SFcompare x y) as [[]|]; split; intros; try lra; try discriminate; auto; contradiction. Qed.
Lemma eqb_ok x y : finite x -> finite y -> (SFeqb x y = true <-> dval x = dval y).
Proof. intros Fx Fy. pose proof (cmp_ok x y Fx Fy) as H. unfold SFeqb. destruct (SFcompare x y) as [[]|]; split; intros; try lra; try discriminate; auto; contradiction. Qed.

(** ** Errors *)
Lemma b2_small a b : (a <= b)%Z -> b2 a <= b2 b.
Proof. apply b2_le. Qed.
Lemma uu_val : uu = / 9007199254740992.
Proof. unfold uu, b2. change (powerRZ 2 (-53)) with (/ 2 ^ 53). f_equal. lra. Qed.
Definition G : R := 1 + 2 * uu.
Lemma G_val : G = 1 + / 4503599627370496.
Proof. unfold G. rewrite uu_val. lra. Qed.
Lemma G_pos : 1 < G.
Proof. rewrite G_val. lra. Qed.
Lemma Gk_ge k : 1 <= G ^ k.
Proof. apply pow_R1_Rle. pose proof G_pos. lra. Qed.
Lemma Gk_mono a b : (a <= b)%nat -> G ^ a <= G ^ b.
Proof. intros. apply Rle_pow; auto. pose proof G_pos. lra. Qed.
Lemma Gk_lin k : 4 * uu * INR k <= 1 -> G ^ k <= 1 + 4 * uu * INR k.
Proof.
  pose proof uu_pos. induction k; intros H0; [simpl; lra|]. rewrite S_INR in H0. pose proof (pos_INR k).
  assert (4 * uu * INR k <= 1) by nra. specialize (IHk H2).
  cbn [pow]. rewrite S_INR. apply Rle_trans with (G * (1 + 4 * uu * INR k)); [apply Rmult_le_compat_l; [pose proof G_pos; lra|exact IHk]|].
  unfold G. nra.
Qed.
Lemma Gk_inv k : 0 < / G ^ k <= 1.
Proof. pose proof (Gk_ge k). split; [apply Rinv_0_lt_compat; lra|]. rewrite <- Rinv_1. apply Rinv_le_contravar; lra. Qed.
Lemma G_low v : 0 <= v -> v / G <= v * (1 - uu).
Proof.
  intros H. unfold Rdiv. apply Rmult_le_compat_l; auto. apply Rmult_le_reg_r with G; [pose proof G_pos; lra|].
  rewrite Rinv_l by (pose proof G_pos; lra). unfold G. rewrite uu_val. lra.
Qed.

Definition ap (k : nat) (A xh x : R) : Prop := 0 <= x /\ 0 <= xh /\ 0 <= A /\ x / G ^ k - A <= xh /\ xh <= x * G ^ k + A.
Lemma ap_weak k A k' A' xh x : (k <= k')%nat -> A <= A' -> ap k A xh x -> ap k' A' xh x.
Proof.
  intros Hk HA (H1 & H2 & H3 & H4 & H5). pose proof (Gk_mono _ _ Hk). pose proof (Gk_ge k).
  split; [auto|]. split; [auto|]. split; [lra|]. split.
  - apply Rle_trans with (2 := H4). assert (x / G ^ k' <= x / G ^ k); [|lra].
    unfold Rdiv. apply Rmult_le_compat_l; auto. apply Rinv_le_contravar; lra.
  - apply Rle_trans with (1 := H5). assert (x * G ^ k <= x * G ^ k') by (apply Rmult_le_compat_l; auto). lra.
Qed.
Lemma ap_refl x : 0 <= x -> ap 0 0 x x.
Proof. intros. repeat split; simpl; lra. Qed.
Lemma ap_add k A B x y xh yh : ap k A xh x -> ap k B yh y -> ap k (A + B) (xh + yh) (x + y).
Proof.
  intros (H1 & H2 & H3 & H4 & H5) (K1 & K2 & K3 & K4 & K5). unfold ap. replace ((x + y) / G ^ k) with (x / G ^ k + y / G ^ k) by (unfold Rdiv; ring). repeat split; lra.
Qed.
Lemma ap_mul a b A B x y xh yh : ap a A xh x -> ap b B yh y -> ap (a + b) (A * (y * G ^ b) + x * G ^ a * B + A * B) (xh * yh) (x * y).
Proof.
  intros (H1 & H2 & H3 & H4 & H5) (K1 & K2 & K3 & K4 & K5). pose proof (Gk_ge a). pose proof (Gk_ge b).
  pose proof (Gk_inv a) as [I1 I1']. pose proof (Gk_inv b) as [I2 I2'].
  assert (P1 : 0 <= x * G ^ a) by (apply Rmult_le_pos; lra). assert (P2 : 0 <= y * G ^ b) by (apply Rmult_le_pos; lra).
  assert (P3 : 0 <= A * (y * G ^ b)) by (apply Rmult_le_pos; lra). assert (P4 : 0 <= x * G ^ a * B) by (apply Rmult_le_pos; lra).
  assert (P5 : 0 <= A * B) by (apply Rmult_le_pos; lra).
  split; [apply Rmult_le_pos; auto|]. split; [apply Rmult_le_pos; auto|]. split; [lra|]. rewrite pow_add. split.
  - unfold Rdiv in *. rewrite Rinv_mult by lra. set (p := x * / G ^ a) in *. set (q := y * / G ^ b) in *.
    assert (p0 : 0 <= p) by (unfold p; apply Rmult_le_pos; lra). assert (q0 : 0 <= q) by (unfold q; apply Rmult_le_pos; lra).
    assert (pp : p <= x * G ^ a) by (unfold p; apply Rmult_le_compat_l; lra).
    assert (qq : q <= y * G ^ b) by (unfold q; apply Rmult_le_compat_l; lra).
    replace (x * y * (/ G ^ a * / G ^ b)) with (p * q) by (unfold p, q; ring).
    assert (p * q - A * q - p * B <= xh * yh).
    { assert (xy : 0 <= xh * yh) by (apply Rmult_le_pos; lra).
      destruct (Rle_dec p A); [assert (0 <= p * B) by (apply Rmult_le_pos; lra); nra|].
      destruct (Rle_dec q B); [assert (0 <= A * q) by (apply Rmult_le_pos; lra); nra|].
      assert ((p - A) * (q - B) <= xh * yh) by (apply Rmult_le_compat; lra). nra. }
    assert (A * q <= A * (y * G ^ b)) by (apply Rmult_le_compat_l; lra).
    assert (p * B <= x * G ^ a * B) by (apply Rmult_le_compat_r; lra). lra.
  - assert (xh * yh <= (x * G ^ a + A) * (y * G ^ b + B)) by (apply Rmult_le_compat; lra). nra.
Qed.
Lemma ap_div a b A x y xh yh : ap a A xh x -> ap b 0 yh y -> 0 < y -> ap (a + b) (A * G ^ b / y) (xh / yh) (x / y) /\ 0 < yh.
Proof.
  intros (H1 & H2 & H3 & H4 & H5) (K1 & K2 & K3 & K4 & K5) Y. pose proof (Gk_ge a). pose proof (Gk_ge b).
  pose proof (Gk_inv a) as [I1 I1']. pose proof (Gk_inv b) as [I2 I2'].
  assert (YH : 0 < yh) by (apply Rlt_le_trans with (y / G ^ b - 0); [unfold Rdiv; assert (0 < y * / G ^ b) by (apply Rmult_lt_0_compat; lra); lra|exact K4]).
  assert (JY : 0 < / y) by (apply Rinv_0_lt_compat; lra). assert (JH : 0 < / yh) by (apply Rinv_0_lt_compat; lra).
  split; [|exact YH].
  assert (U1 : / yh <= G ^ b * / y).
  { replace (G ^ b * / y) with (/ (y / G ^ b)) by (field; lra). apply Rinv_le_contravar; [unfold Rdiv; apply Rmult_lt_0_compat; lra|lra]. }
  assert (U2 : / G ^ b * / y <= / yh).
  { replace (/ G ^ b * / y) with (/ (y * G ^ b)) by (field; lra). apply Rinv_le_contravar; lra. }
  unfold Rdiv. split; [apply Rmult_le_pos; lra|]. split; [apply Rmult_le_pos; lra|].
  split; [repeat apply Rmult_le_pos; lra|]. rewrite pow_add. split.
  - unfold Rdiv in *. rewrite Rinv_mult by lra.
    assert (Q1 : (x * / G ^ a - A) * / yh <= xh * / yh) by (apply Rmult_le_compat_r; lra).
    assert (Q2 : A * / yh <= A * (G ^ b * / y)) by (apply Rmult_le_compat_l; lra).
    assert (Q3 : x * / G ^ a * (/ G ^ b * / y) <= x * / G ^ a * / yh) by (apply Rmult_le_compat_l; [apply Rmult_le_pos; lra|lra]).
    nra.
  - assert (Q1 : xh * / yh <= (x * G ^ a + A) * (G ^ b * / y)).
    { apply Rmult_le_compat; lra. }
    nra.
Qed.
(** One rounding. *)
Lemma ap_round k A v z r e : ap k A v z -> 0 <= r -> 0 <= e -> Rabs (r - v) <= uu * Rabs v + e -> ap (S k) (A * G + e) r z.
Proof.
  intros (H1 & H2 & H3 & H4 & H5) R0 E0 ER. rewrite (Rabs_right v) in ER by lra. pose proof G_pos. pose proof uu_pos.
  assert (v * (1 - uu) - e <= r /\ r <= v * G + e) as [L U].
  { unfold G. assert (0 <= uu * v) by (apply Rmult_le_pos; lra). unfold Rabs in ER. destruct (Rcase_abs (r - v)); split; nra. }
  split; [auto|]. split; [auto|]. split; [nra|]. cbn [pow]. split.
  - pose proof (G_low v H2) as GL. pose proof (Gk_ge k) as GK.
    assert (LL : (z / G ^ k - A) / G <= v / G) by (unfold Rdiv; apply Rmult_le_compat_r; [left; apply Rinv_0_lt_compat; lra|exact H4]).
    replace ((z / G ^ k - A) / G) with (z / (G * G ^ k) - A / G) in LL by (field; lra).
    assert (AG : A / G <= A * G). { apply Rle_trans with A; [|nra]. unfold Rdiv. rewrite <- (Rmult_1_r A) at 2. apply Rmult_le_compat_l; auto. rewrite <- Rinv_1. apply Rinv_le_contravar; lra. }
    lra.
  - apply Rle_trans with (1 := U). assert (v * G <= (z * G ^ k + A) * G) by (apply Rmult_le_compat_r; lra). nra.
Qed.

Definition dap (k : nat) (A : R) (d : spec_float) (x : R) : Prop := finite d /\ ap k A (dval d) x.
Lemma dap_weak k A k' A' d x : (k <= k')%nat -> A <= A' -> dap k A d x -> dap k' A' d x.
Proof. intros H1 H2 [F P]. split; auto. eapply ap_weak; eauto. Qed.
Lemma ap_up k A v z : ap k A v z -> Rabs v <= z * G ^ k + A.
Proof. intros (H1 & H2 & H3 & H4 & H5). rewrite Rabs_right; lra. Qed.
Lemma dap_mul a b A B x y dx dy : dap a A dx x -> dap b B dy y ->
  let A' := A * (y * G ^ b) + x * G ^ a * B + A * B in
  x * y * G ^ (a + b) + A' < b2 1023 -> dap (S (a + b)) (A' * G + eta) (SFmul 53 1024 dx dy) (x * y).
Proof.
  intros [F1 P1] [F2 P2] A' B1. pose proof (ap_mul _ _ _ _ _ _ _ _ P1 P2) as P. fold A' in P.
  destruct (mul_ok dx dy F1 F2) as (F & E & S); [apply Rle_lt_trans with (1 := ap_up _ _ _ _ P); exact B1|].
  split; [exact F|]. apply ap_round with (v := dval dx * dval dy); auto.
  - apply S. apply Rmult_le_pos; [apply P1|apply P2].
  - left. apply eta_pos.
Qed.
Lemma dap_div a b A x y dx dy : dap a A dx x -> dap b 0 dy y -> 0 < y ->
  x / y * G ^ (a + b) + A * G ^ b / y < b2 1023 -> dap (S (a + b)) (A * G ^ b / y * G + eta) (SFdiv 53 1024 dx dy) (x / y).
Proof.
  intros [F1 P1] [F2 P2] Y B1. destruct (ap_div _ _ _ _ _ _ _ P1 P2 Y) as [P YH].
  destruct (div_ok dx dy F1 F2) as (F & E & S); [lra|apply Rle_lt_trans with (1 := ap_up _ _ _ _ P); exact B1|].
  split; [exact F|]. apply ap_round with (v := dval dx / dval dy); auto.
  - apply S. apply P.
  - left. apply eta_pos.
Qed.
(** A relative error keeps the sign. *)
Lemma rel_sign r v : Rabs (r - v) <= uu * Rabs v -> 0 <= v -> 0 <= r.
Proof. intros H V. rewrite (Rabs_right v) in H by lra. rewrite uu_val in H. unfold Rabs in H. destruct (Rcase_abs (r - v)); lra. Qed.
Lemma dap_add k A B x y dx dy : dap k A dx x -> dap k B dy y -> (x + y) * G ^ k + (A + B) < b2 1023 ->
  dap (S k) ((A + B) * G) (SFadd 53 1024 dx dy) (x + y).
Proof.
  intros [F1 P1] [F2 P2] B1. pose proof (ap_add _ _ _ _ _ _ _ P1 P2) as P.
  destruct (add_ok dx dy F1 F2) as (F & E); [apply Rle_lt_trans with (1 := ap_up _ _ _ _ P); exact B1|].
  split; [exact F|]. rewrite <- (Rplus_0_r ((A + B) * G)). apply ap_round with (v := dval dx + dval dy); auto; [|lra|lra].
  apply (rel_sign _ _ E). apply P.
Qed.
Lemma dap_sub x y : finite x -> finite y -> dval y <= dval x -> dval x - dval y < b2 1023 -> dap 1 0 (SFsub 53 1024 x y) (dval x - dval y).
Proof.
  intros F1 F2 L B1. destruct (sub_ok x y F1 F2) as (F & E); [rewrite Rabs_right; lra|].
  split; [exact F|]. replace 0 with (0 * G + 0) by ring. apply ap_round with (v := dval x - dval y); auto; [apply ap_refl; lra| |lra|lra].
  apply (rel_sign _ _ E). lra.
Qed.
Lemma dap_zero k : dap k 0 (S754_zero false) 0.
Proof. split; [split; [reflexivity|exact I]|]. cbn [dval]. repeat split; unfold Rdiv; rewrite ?Rmult_0_l; lra. Qed.
