(** Rounding keeps the order; consequences for remap, reverse and greville in doubles. *)
From Coq Require Import ZArith Reals List Bool SpecFloat Lia Lra Psatz.
From Verif Require Import Num Loop Spec ModelBspline ModelBSp ModelNurbs ModelFloat SpecNurbs SpecDouble SpecRound ProofRound ProofRound2 ProofRound3 ProofRound4.
Import ListNotations.
Local Open Scope R_scope.

(** ** Rounding is monotone *)
Lemma abs_le a b : Rabs a <= b -> - b <= a <= b.
Proof. intros H. pose proof (Rle_abs a). pose proof (Rle_abs (- a)). rewrite Rabs_Ropp in *. lra. Qed.
Lemma near_nonneg x y : 0 <= x -> near x y -> 0 <= y.
Proof.
  intros H (E & M & _ & _ & _ & -> & D & _). pose proof (b2_pos E) as P. apply abs_le in D.
  assert (0 <= x / b2 E) by (apply Rle_mult_inv_pos; auto).
  assert (-1 < M)%Z by (apply lt_IZR; lra). apply Rmult_le_pos; [apply IZR_le; lia|lra].
Qed.
Lemma near_mono x1 y1 x2 y2 : near x1 y1 -> near x2 y2 -> x1 <= x2 -> y1 <= y2.
Proof.
  intros (E1 & M1 & A1 & B1 & C1 & -> & D1 & T1) (E2 & M2 & A2 & B2 & C2 & -> & D2 & T2) L.
  pose proof (b2_pos E1) as P1. pose proof (b2_pos E2) as P2.
  destruct (Z.lt_trichotomy E1 E2) as [Q|[Q|Q]].
  - apply abs_le in D1. apply abs_le in D2. specialize (C2 ltac:(lia)).
    assert (U1 : x1 / b2 E1 < IZR (2 ^ 53)).
    { apply (Rmult_lt_reg_r (b2 E1)); [exact P1|]. unfold Rdiv. rewrite Rmult_assoc, Rinv_l, Rmult_1_r by lra. rewrite <- b2_IZR, <- b2_add, Z.add_comm by lia. exact B1. }
    assert (U2 : IZR (2 ^ 52) <= x2 / b2 E2).
    { apply (Rmult_le_reg_r (b2 E2)); [exact P2|]. unfold Rdiv. rewrite Rmult_assoc, Rinv_l, Rmult_1_r by lra. rewrite <- b2_IZR, <- b2_add, Z.add_comm by lia. exact C2. }
    assert (N1 : (M1 <= 2 ^ 53)%Z). { apply Z.lt_succ_r, lt_IZR. unfold Z.succ. rewrite plus_IZR. lra. }
    assert (N2 : (2 ^ 52 <= M2)%Z). { apply Z.lt_succ_r, lt_IZR. unfold Z.succ. rewrite plus_IZR. lra. }
    apply IZR_le in N1. apply IZR_le in N2. rewrite <- b2_IZR in N1, N2 by lia.
    apply Rle_trans with (b2 53 * b2 E1); [apply Rmult_le_compat_r; lra|].
    apply Rle_trans with (b2 52 * b2 E2); [rewrite <- !b2_add; apply b2_le; lia|apply Rmult_le_compat_r; lra].
  - subst E2. apply Rmult_le_compat_r; [lra|]. apply IZR_le.
    assert (LL : x1 / b2 E1 <= x2 / b2 E1) by (apply Rmult_le_compat_r; [left; apply Rinv_0_lt_compat; exact P1|exact L]).
    destruct (Z.le_gt_cases M1 M2) as [|K]; [assumption|exfalso].
    pose proof (abs_le _ _ D1). pose proof (abs_le _ _ D2).
    assert (K' : (M2 + 1 <= M1)%Z) by lia. apply IZR_le in K'. rewrite plus_IZR in K'.
    assert (X1 : IZR M1 - x1 / b2 E1 = / 2) by lra. assert (X2 : IZR M2 - x2 / b2 E1 = - / 2) by lra.
    rewrite X1 in T1. rewrite X2 in T2. rewrite Rabs_Ropp in T2. rewrite Rabs_right in T1, T2 by lra.
    specialize (T1 eq_refl). specialize (T2 eq_refl).
    assert (XM : M1 = (M2 + 1)%Z) by (apply eq_IZR; rewrite plus_IZR; lra).
    rewrite XM, Z.even_add, T2 in T1. discriminate T1.
  - specialize (C1 ltac:(lia)). assert (b2 (E2 + 53) <= b2 (E1 + 52)) by (apply b2_le; lia). lra.
Qed.
Lemma rounds_mono v1 r1 v2 r2 : rounds v1 r1 -> rounds v2 r2 -> v1 <= v2 -> r1 <= r2.
Proof.
  intros [[H1 N1]|[H1 N1]] [[H2 N2]|[H2 N2]] L.
  - exact (near_mono _ _ _ _ N1 N2 L).
  - pose proof (near_mono _ _ _ _ N2 near_0 ltac:(lra)). pose proof (near_mono _ _ _ _ N1 near_0 ltac:(lra)). lra.
  - pose proof (near_nonneg v2 r2 ltac:(lra) N2). pose proof (near_nonneg (- v1) (- r1) ltac:(lra) N1). lra.
  - pose proof (near_mono _ _ _ _ N2 N1 ltac:(lra)). lra.
Qed.
Lemma rounds_self z : finite z -> rounds (dval z) (dval z).
Proof.
  intros F. destruct z as [s|s| |s m e]; try nofin; [exact rounds_0|].
  rewrite dval_sg. apply rounds_sg; [left; apply mant_pos|exact (near_self s m e F)].
Qed.
Lemma rounds_exact v r z : finite z -> dval z = v -> rounds v r -> r = v.
Proof. intros F <- H. pose proof (rounds_self z F) as S. apply Rle_antisym; [exact (rounds_mono _ _ _ _ H S (Rle_refl _))|exact (rounds_mono _ _ _ _ S H (Rle_refl _))]. Qed.

(** ** One knot of remap *)
Lemma b2_dbl e k : (0 <= k)%Z -> b2 (e + k) = IZR (2 ^ k) * b2 e.
Proof. intros H. rewrite Z.add_comm, b2_add, b2_IZR by exact H. reflexivity. Qed.
Lemma b2_lt a b : (a < b)%Z -> b2 a < b2 b.
Proof. intros H. apply Rlt_le_trans with (b2 (a + 1)); [rewrite b2_1; pose proof (b2_pos a); lra|apply b2_le; lia]. Qed.
Lemma prod_le a b m k : Rabs a <= b2 m -> Rabs b <= b2 k -> Rabs (a * b) <= b2 (m + k).
Proof. intros Ha Hb. rewrite Rabs_mult, b2_add. apply Rmult_le_compat; auto using Rabs_pos. Qed.
Lemma tri a b x y : Rabs a <= x -> Rabs b <= y -> Rabs (a + b) <= x + y.
Proof. intros. pose proof (Rabs_triang a b). lra. Qed.
Lemma tri_sub a b x y : Rabs a <= x -> Rabs b <= y -> Rabs (a - b) <= x + y.
Proof. intros. unfold Rminus. apply tri; [|rewrite Rabs_Ropp]; auto. Qed.
(** The computed value is within the error of the exact one. *)
Lemma size_of r v e x : Rabs (r - v) <= e -> Rabs v <= x -> Rabs r <= x + e.
Proof. intros H1 H2. replace r with (v + (r - v)) by ring. apply tri; auto. Qed.

Definition rmp (lo hi c d x : spec_float) : spec_float :=
  SFadd 53 1024 (SFmul 53 1024 (SFsub 53 1024 x lo) (SFdiv 53 1024 (SFsub 53 1024 d c) (SFsub 53 1024 hi lo))) c.

Section Remap.
Variables lo hi c d : spec_float.
Hypothesis Flo : finite lo.
Hypothesis Fhi : finite hi.
Hypothesis Fc : finite c.
Hypothesis Fd : finite d.
Hypothesis Blo : Rabs (dval lo) <= b2 300.
Hypothesis Bhi : Rabs (dval hi) <= b2 300.
Hypothesis Bc : Rabs (dval c) <= b2 300.
Hypothesis Bd : Rabs (dval d) <= b2 300.
Hypothesis Gap : b2 (-300) <= dval hi - dval lo.
Hypothesis Lt : dval c < dval d.

Let e := SFsub 53 1024 d c.
Let h := SFsub 53 1024 hi lo.
Let k := SFdiv 53 1024 e h.
Lemma uub x : 0 <= x -> 0 <= uu * x <= x.
Proof. intros H. rewrite uu_val. lra. Qed.
Lemma sub300 x y : finite x -> finite y -> Rabs (dval x) <= b2 300 -> Rabs (dval y) <= b2 300 ->
  let r := SFsub 53 1024 x y in
  finite r /\ Rabs (dval r - (dval x - dval y)) <= uu * Rabs (dval x - dval y) /\ rounds (dval x - dval y) (dval r) /\ Rabs (dval r) <= b2 302 /\ Rabs (dval x - dval y) <= b2 301.
Proof.
  intros Fx Fy Bx By r. pose proof (tri_sub _ _ _ _ Bx By) as S.
  assert (E1 : b2 301 = 2 * b2 300) by exact (b2_1 300). assert (E2 : b2 302 = 2 * b2 301) by exact (b2_1 301).
  destruct (sub_full x y Fx Fy) as (F & R & N). { apply Rle_lt_trans with (b2 301); [lra|apply b2_lt; lia]. }
  split; [exact F|]. split; [exact R|]. split; [exact N|].
  pose proof (size_of _ _ _ _ R (Rle_refl _)) as Q. pose proof (uub _ (Rabs_pos (dval x - dval y))). split; [fold r in Q; lra|lra].
Qed.
Lemma e_ok : finite e /\ Rabs (dval e - (dval d - dval c)) <= uu * (dval d - dval c) /\ 0 <= dval e <= b2 302.
Proof.
  destruct (sub300 d c Fd Fc Bd Bc) as (F & R & N & S & _). rewrite (Rabs_right (dval d - dval c)) in R by lra.
  split; [exact F|]. split; [exact R|]. apply abs_le in R. rewrite uu_val in R. pose proof (Rle_abs (dval (SFsub 53 1024 d c))). unfold e. lra.
Qed.
Lemma h_ok : finite h /\ Rabs (dval h - (dval hi - dval lo)) <= uu * (dval hi - dval lo) /\ b2 (-301) <= dval h.
Proof.
  pose proof (b2_pos (-300)). destruct (sub300 hi lo Fhi Flo Bhi Blo) as (F & R & N & S & _). rewrite (Rabs_right (dval hi - dval lo)) in R by lra.
  split; [exact F|]. split; [exact R|]. apply abs_le in R. rewrite uu_val in R. assert (b2 (-300) = 2 * b2 (-301)) by exact (b2_1 (-301)). unfold h. lra.
Qed.
Lemma inv_b2 n : / b2 n = b2 (- n).
Proof. pose proof (b2_pos n). apply (Rmult_eq_reg_l (b2 n)); [|lra]. rewrite Rinv_r, <- b2_add by lra. replace (n + - n)%Z with 0%Z by ring. symmetry. exact b2_0. Qed.
Lemma eh_le : 0 <= dval e / dval h <= b2 603.
Proof.
  destruct e_ok as (_ & _ & E0 & E1). destruct h_ok as (_ & _ & H1). pose proof (b2_pos (-301)). split; [apply Rle_mult_inv_pos; lra|].
  change 603%Z with (302 + 301)%Z. rewrite b2_add. apply Rmult_le_compat; [lra|left; apply Rinv_0_lt_compat; lra|lra|].
  change 301%Z with (- -301)%Z. rewrite <- inv_b2. apply Rinv_le_contravar; lra.
Qed.
Lemma eta_small : eta <= b2 (-1000).
Proof. apply b2_le. lia. Qed.
Lemma k_ok : finite k /\ Rabs (dval k - dval e / dval h) <= uu * (dval e / dval h) + eta /\ 0 <= dval k <= b2 604.
Proof.
  destruct e_ok as (Fe & _ & _). destruct h_ok as (Fh & _ & H1). pose proof (b2_pos (-301)). destruct eh_le as [Q0 Q1].
  destruct (div_full e h Fe Fh) as (F & R & P & _); [lra|rewrite Rabs_right by lra; apply Rle_lt_trans with (1 := Q1); apply b2_lt; lia|].
  rewrite (Rabs_right (dval e / dval h)) in R by lra. fold k in F, R, P. split; [exact F|]. split; [exact R|]. split; [exact (P Q0)|].
  apply abs_le in R. rewrite uu_val in R. assert (b2 604 = 2 * b2 603) by exact (b2_1 603). pose proof eta_small. assert (b2 (-1000) <= b2 602) by (apply b2_le; lia).
  assert (b2 603 = 2 * b2 602) by exact (b2_1 602). pose proof (b2_pos 602). lra.
Qed.
Lemma k_close : Rabs (dval k - (dval d - dval c) / (dval hi - dval lo)) <= 7 / 2 * uu * ((dval d - dval c) / (dval hi - dval lo)) + eta.
Proof.
  destruct e_ok as (_ & RE & E0). destruct h_ok as (_ & RH & H1). destruct k_ok as (_ & RK & _). destruct eh_le as [Q0 Q1].
  pose proof (b2_pos (-301)). pose proof (b2_pos (-300)). pose proof eta_pos.
  set (D := dval d - dval c) in *. set (H' := dval hi - dval lo) in *.
  assert (HD : 0 < D / H') by (apply Rdiv_lt_0_compat; unfold D; lra).
  assert (X : Rabs (dval e / dval h - D / H') <= 9 / 4 * uu * (D / H')).
  { replace (dval e / dval h - D / H') with (((dval e - D) * H' + D * (H' - dval h)) / (dval h * H')) by (field; lra).
    unfold Rdiv at 1. rewrite Rabs_mult. rewrite (Rabs_right (/ (dval h * H'))) by (apply Rle_ge; left; apply Rinv_0_lt_compat, Rmult_lt_0_compat; lra).
    apply (Rmult_le_reg_r (dval h * H')); [apply Rmult_lt_0_compat; lra|]. rewrite Rmult_assoc, Rinv_l by (apply Rgt_not_eq, Rmult_lt_0_compat; lra).
    rewrite Rmult_1_r. replace (9 / 4 * uu * (D / H') * (dval h * H')) with (9 / 4 * uu * (D * dval h)) by (field; lra).
    assert (D0 : 0 < D) by (unfold D; lra).
    apply Rle_trans with (uu * D * H' + D * (uu * H')).
    - apply tri; rewrite Rabs_mult.
      + rewrite (Rabs_right H') by lra. apply Rmult_le_compat_r; [lra|exact RE].
      + rewrite (Rabs_right D) by lra. apply Rmult_le_compat_l; [lra|]. rewrite Rabs_minus_sym. exact RH.
    - apply abs_le in RH. assert (8 / 9 * H' <= dval h) by (rewrite uu_val in RH; lra). pose proof uu_pos.
      replace (uu * D * H' + D * (uu * H')) with (9 / 4 * uu * (D * (8 / 9 * H'))) by field.
      apply Rmult_le_compat_l; [lra|]. apply Rmult_le_compat_l; lra. }
  apply Rabs_le. apply abs_le in X. apply abs_le in RK. rewrite uu_val in *. lra.
Qed.
Lemma rmp_ok x : finite x -> Rabs (dval x) <= b2 300 -> let r := rmp lo hi c d x in
  finite r /\ Rabs (dval r - (dval c + (dval x - dval lo) * (dval d - dval c) / (dval hi - dval lo))) <=
    b2 (-50) * (Rabs (dval c) + Rabs ((dval x - dval lo) * (dval d - dval c) / (dval hi - dval lo))) + b2 (-700) /\
  exists m, rounds (m + dval c) (dval r) /\ exists s, rounds (s * dval k) m /\ rounds (dval x - dval lo) s.
Proof.
  intros Fx Bx r. destruct (sub300 x lo Fx Flo Bx Blo) as (Fs & Rs & Ns & Bs & BX). set (s := SFsub 53 1024 x lo) in *.
  destruct k_ok as (Fk & _ & K0 & K1). pose proof k_close as KC.
  assert (SK : Rabs (dval s * dval k) <= b2 906). { change 906%Z with (302 + 604)%Z. apply prod_le; [exact Bs|rewrite Rabs_right by lra; exact K1]. }
  destruct (mul_full s k Fs Fk) as (Fm & Rm & _ & Nm). { apply Rle_lt_trans with (1 := SK). apply b2_lt. lia. }
  set (m := SFmul 53 1024 s k) in *. set (X := dval x - dval lo) in *.
  set (DH := (dval d - dval c) / (dval hi - dval lo)) in *. pose proof (b2_pos (-300)).
  replace (X * (dval d - dval c) / (dval hi - dval lo)) with (X * DH) by (unfold DH; field; lra).
  assert (DH0 : 0 < DH) by (apply Rdiv_lt_0_compat; lra). pose proof eta_pos as ET. pose proof (Rabs_pos X) as PX. pose proof uu_pos as UP.
  assert (TE : 4 * Rabs X * eta <= b2 (-770)).
  { replace (b2 (-770)) with (4 * b2 301 * eta * b2 2) by (unfold eta; replace 4 with (b2 2) by (unfold b2; simpl; lra); rewrite <- !b2_add; reflexivity).
    assert (1 <= b2 2) by (unfold b2; simpl; lra). assert (4 * Rabs X * eta <= 4 * b2 301 * eta) by (apply Rmult_le_compat_r; lra). pose proof (b2_pos 301).
    assert (0 <= 4 * b2 301 * eta) by (apply Rmult_le_pos; lra). assert (4 * b2 301 * eta * 1 <= 4 * b2 301 * eta * b2 2) by (apply Rmult_le_compat_l; lra). lra. }
  assert (QX : Rabs (X * DH) = Rabs X * DH) by (rewrite Rabs_mult, (Rabs_right DH) by lra; reflexivity).
  assert (A1 : Rabs (dval s * dval k - X * DH) <= 19 / 4 * uu * Rabs (X * DH) + 2 * Rabs X * eta).
  { replace (dval s * dval k - X * DH) with (dval s * (dval k - DH) + (dval s - X) * DH) by ring.
    apply Rle_trans with (33 / 32 * Rabs X * (7 / 2 * uu * DH + eta) + uu * Rabs X * DH).
    - apply tri; rewrite Rabs_mult.
      + apply Rmult_le_compat; [apply Rabs_pos|apply Rabs_pos| |exact KC]. pose proof (size_of _ _ _ _ Rs (Rle_refl _)). rewrite uu_val in *. lra.
      + rewrite (Rabs_right DH) by lra. apply Rmult_le_compat_r; [lra|exact Rs].
    - rewrite QX. assert (0 <= uu * (Rabs X * DH)) by (apply Rmult_le_pos; [lra|apply Rmult_le_pos; lra]). assert (0 <= Rabs X * eta) by (apply Rmult_le_pos; lra).
      replace (33 / 32 * Rabs X * (7 / 2 * uu * DH + eta) + uu * Rabs X * DH) with (295 / 64 * (uu * (Rabs X * DH)) + 33 / 32 * (Rabs X * eta)) by field. lra. }
  assert (EB : eta <= b2 (-770)) by (apply b2_le; lia). pose proof (b2_pos (-770)) as PB.
  set (Q := X * DH) in *. pose proof (Rabs_pos Q) as PQ.
  pose proof (size_of _ _ _ _ A1 (Rle_refl (Rabs Q))) as A2.
  assert (A3 : Rabs (dval m - Q) <= 6 * uu * Rabs Q + 3 * b2 (-770)).
  { replace (dval m - Q) with ((dval m - dval s * dval k) + (dval s * dval k - Q)) by ring.
    apply Rle_trans with ((uu * Rabs (dval s * dval k) + eta) + (19 / 4 * uu * Rabs Q + 2 * Rabs X * eta)); [apply tri; assumption|]. rewrite uu_val in *. lra. }
  assert (Bm : Rabs (dval m) <= b2 907).
  { pose proof (size_of _ _ _ _ Rm SK). pose proof (Rabs_pos (dval s * dval k)). assert (b2 907 = 2 * b2 906) by exact (b2_1 906). assert (b2 (-770) <= b2 905) by (apply b2_le; lia).
    assert (b2 906 = 2 * b2 905) by exact (b2_1 905). rewrite uu_val in *. lra. }
  destruct (add_full m c Fm Fc) as (Fr & Rr & Nr).
  { apply Rle_lt_trans with (b2 907 + b2 907); [apply tri; [exact Bm|apply Rle_trans with (1 := Bc); apply b2_le; lia]|]. replace (b2 907 + b2 907) with (b2 908) by (change 908%Z with (907 + 1)%Z; rewrite b2_1; ring). apply b2_lt. lia. }
  change (SFadd 53 1024 m c) with r in *. split; [exact Fr|]. split; [|exists (dval m); split; [exact Nr|]; exists (dval s); auto].
  assert (A4 : Rabs (dval m + dval c) <= Rabs Q + (6 * uu * Rabs Q + 3 * b2 (-770)) + Rabs (dval c)) by (apply tri; [exact (size_of _ _ _ _ A3 (Rle_refl _))|lra]).
  replace (dval r - (dval c + Q)) with ((dval r - (dval m + dval c)) + (dval m - Q)) by ring.
  apply Rle_trans with (uu * Rabs (dval m + dval c) + (6 * uu * Rabs Q + 3 * b2 (-770))); [apply tri; assumption|].
  replace (b2 (-50)) with (8 * uu) by (unfold uu; change (-50)%Z with (-53 + 3)%Z; rewrite b2_dbl by lia; reflexivity).
  assert (4 * b2 (-770) <= b2 (-700)). { replace (4 * b2 (-770)) with (b2 (-768)) by (change (-768)%Z with (-770 + 2)%Z; rewrite b2_dbl by lia; reflexivity). apply b2_le; lia. }
  pose proof (Rabs_pos (dval c)). rewrite uu_val in *. lra.
Qed.
Lemma rmp_mono x y : finite x -> finite y -> Rabs (dval x) <= b2 300 -> Rabs (dval y) <= b2 300 -> dval x <= dval y ->
  dval (rmp lo hi c d x) <= dval (rmp lo hi c d y).
Proof.
  intros Fx Fy Bx By L. destruct (rmp_ok x Fx Bx) as (_ & _ & m1 & N1 & s1 & O1 & P1). destruct (rmp_ok y Fy By) as (_ & _ & m2 & N2 & s2 & O2 & P2).
  destruct k_ok as (_ & _ & K0 & _). assert (s1 <= s2) by (apply (rounds_mono _ _ _ _ P1 P2); lra).
  assert (m1 <= m2) by (apply (rounds_mono _ _ _ _ O1 O2); apply Rmult_le_compat_r; lra).
  apply (rounds_mono _ _ _ _ N1 N2). lra.
Qed.
Lemma rmp_lo : dval (rmp lo hi c d lo) = dval c.
Proof.
  destruct (rmp_ok lo Flo Blo) as (_ & _ & m1 & N1 & s1 & O1 & P1).
  replace (dval lo - dval lo) with 0 in P1 by ring.
  assert (s1 = 0) by exact (rounds_exact 0 s1 (S754_zero false) (conj eq_refl I) eq_refl P1). subst s1. rewrite Rmult_0_l in O1.
  assert (m1 = 0) by exact (rounds_exact 0 m1 (S754_zero false) (conj eq_refl I) eq_refl O1). subst m1. rewrite Rplus_0_l in N1.
  exact (rounds_exact _ _ c Fc eq_refl N1).
Qed.
End Remap.
