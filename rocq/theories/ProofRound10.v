(** Exact end points in doubles: the basis function that is one at an end of the domain is computed as 1 or
    1-2^-53, the same for all degrees, and this factor cancels. *)
From Coq Require Import ZArith Reals List Bool SpecFloat Lia Lra.
From Verif Require Import ProofEval Num Loop SumZ ModelBspline ModelBSp ModelNurbs ModelFloat Spec SpecNurbs SpecDouble SpecRound BPiece BLink
  ProofRound ProofRound2 ProofRound3 ProofRound4 ProofRound5 ProofRound6 ProofRound7 ProofRound8.
Import ListNotations.
Local Open Scope R_scope.

Lemma b2_105 : b2 (-105) * 40564819207303340847894502572032 = 1.
Proof. replace 40564819207303340847894502572032 with (b2 105) by (rewrite b2_IZR by lia; reflexivity). rewrite <- b2_add. apply b2_0. Qed.
Lemma b2_52 : b2 52 = 4503599627370496. Proof. rewrite b2_IZR by lia. reflexivity. Qed.
Lemma b2_53 : b2 53 = 9007199254740992. Proof. rewrite b2_IZR by lia. reflexivity. Qed.

Lemma near_at x y E : near x y -> (-1074 <= E)%Z -> b2 (E + 52) <= x < b2 (E + 53) ->
  exists M, y = IZR M * b2 E /\ Rabs (IZR M - x / b2 E) <= / 2 /\ (Rabs (IZR M - x / b2 E) = / 2 -> Z.even M = true).
Proof.
  intros (F & M & A & B & C & D & T & U) HE [L1 L2].
  assert (Q1 : (E < F + 1)%Z). { assert (X : b2 (E + 52) < b2 (F + 53)) by lra. apply b2_lt_inv in X. lia. }
  assert (Q2 : (F < E + 1)%Z).
  { destruct (Z.eq_dec F (-1074)) as [->|N]; [lia|]. specialize (C N). assert (X : b2 (F + 52) < b2 (E + 53)) by lra. apply b2_lt_inv in X. lia. }
  replace F with E in * by lia. exists M. auto.
Qed.
Lemma near_mk t E M : (-1074 <= E)%Z -> 4503599627370496 <= t < 9007199254740992 -> Rabs (IZR M - t) < / 2 -> near (t * b2 E) (IZR M * b2 E).
Proof.
  intros HE Ht HM. pose proof (b2_pos E) as P. exists E, M. split; [exact HE|]. rewrite !(Z.add_comm E), !b2_add, b2_52, b2_53.
  split; [apply Rmult_lt_compat_r; lra|]. split; [intros _; apply Rmult_le_compat_r; lra|]. split; [reflexivity|].
  replace (t * b2 E / b2 E) with t by (field; lra). split; lra.
Qed.
Lemma near_fun x y z : near x y -> near x z -> y = z.
Proof. intros H1 H2. apply Rle_antisym; [apply (near_mono x _ x)|apply (near_mono x _ x)]; auto; lra. Qed.
Lemma near_one : near 1 1.
Proof.
  replace 1 with (4503599627370496 * b2 (-52)) at 1; [|rewrite <- b2_52, <- b2_add; exact b2_0].
  replace 1 with (IZR 4503599627370496 * b2 (-52)); [|rewrite <- b2_52, <- b2_add; exact b2_0].
  apply near_mk; [lia|lra|]. rewrite Rminus_diag_eq by reflexivity. rewrite Rabs_R0. lra.
Qed.
Lemma one_m : 1 - uu = IZR 9007199254740991 * b2 (-53).
Proof. change (b2 (-53)) with uu. rewrite uu_val. lra. Qed.
Lemma near_less : near (1 - uu) (1 - uu).
Proof. rewrite one_m. apply near_mk; [lia|lra|]. rewrite Rminus_diag_eq by reflexivity. rewrite Rabs_R0. lra. Qed.
(** Numbers next to one are rounded to 1-2^-53 or 1. *)
Lemma near_around v r : 1 - uu < v -> v < 1 + uu -> near v r -> r = 1 \/ (r = 1 - uu /\ v <= 1 - uu / 2).
Proof.
  intros L U H. pose proof uu_val as UV. pose proof (near_mono _ _ _ _ near_less H ltac:(lra)) as R1.
  destruct (Rlt_le_dec v 1) as [V|V].
  - destruct (near_at v r (-53) H ltac:(lia)) as (M & -> & HM & _).
    { change (-53 + 52)%Z with (-1)%Z. change (-53 + 53)%Z with 0%Z. rewrite b2_0. replace (b2 (-1)) with (/ 2) by (unfold b2; simpl; lra). lra. }
    change (b2 (-53)) with uu in *. apply abs_le in HM. rewrite UV in *.
    assert (M1 : (9007199254740991 <= M)%Z) by (apply le_IZR; lra).
    assert (M2 : (M < 9007199254740993)%Z) by (apply lt_IZR; lra).
    assert (X : M = 9007199254740991%Z \/ M = 9007199254740992%Z) by lia. destruct X as [->| ->]; [right|left]; lra.
  - left. pose proof (near_mono _ _ _ _ near_one H V) as R2.
    destruct (near_at v r (-52) H ltac:(lia)) as (M & -> & HM & _).
    { change (-52 + 52)%Z with 0%Z. change (-52 + 53)%Z with 1%Z. rewrite b2_0. replace (b2 1) with 2 by (unfold b2; simpl; lra). lra. }
    assert (E : b2 (-52) = 2 * uu) by (unfold uu; rewrite <- b2_1; reflexivity). rewrite E in *. rewrite UV in *. apply abs_le in HM.
    assert (M2 : (M < 4503599627370497)%Z) by (apply lt_IZR; lra). assert (M1 : (4503599627370496 <= M)%Z) by (apply le_IZR; lra).
    replace M with 4503599627370496%Z by lia. lra.
Qed.
Lemma unit_real H e q r : (4503599627370496 <= H < 9007199254740992)%Z -> (-900 <= e <= 900)%Z ->
  near (1 / (IZR H * b2 e)) q -> near (IZR H * b2 e * q) r -> r = 1 \/ (r = 1 - uu /\ near ((1 - uu) / (IZR H * b2 e)) q).
Proof.
  intros RH Re N1 N2. pose proof (b2_pos e) as Pe. pose proof uu_val as UV.
  assert (H1 : 4503599627370496 <= IZR H < 9007199254740992) by (split; [apply IZR_le|apply IZR_lt]; lia).
  destruct (Z.eq_dec H 4503599627370496) as [->|NH].
  - left. assert (Eh : 4503599627370496 * b2 e = b2 (e + 52)) by (rewrite Z.add_comm, b2_add, b2_52; reflexivity).
    assert (Q : q = b2 (- (e + 52))).
    { apply (near_fun _ _ _ N1). rewrite Eh. replace (1 / b2 (e + 52)) with (4503599627370496 * b2 (- (e + 52) - 52)).
      - replace (b2 (- (e + 52))) with (IZR 4503599627370496 * b2 (- (e + 52) - 52)).
        + apply near_mk; [lia|lra|]. rewrite Rminus_diag_eq by reflexivity. rewrite Rabs_R0. lra.
        + rewrite <- b2_52, <- b2_add. f_equal. lia.
      - rewrite <- b2_52, <- b2_add. apply (Rmult_eq_reg_r (b2 (e + 52))); [|apply Rgt_not_eq, b2_pos]. rewrite <- b2_add.
        replace (52 + (- (e + 52) - 52) + (e + 52))%Z with 0%Z by lia. rewrite b2_0. field. apply Rgt_not_eq, b2_pos. }
    rewrite Q, Eh, <- b2_add in N2. replace (e + 52 + - (e + 52))%Z with 0%Z in N2 by lia. rewrite b2_0 in N2. exact (near_fun _ _ _ N2 near_one).
  - assert (HH : 4503599627370497 <= IZR H <= 9007199254740991) by (split; apply IZR_le; lia).
    set (K := 40564819207303340847894502572032) in *. set (E := (- e - 105)%Z).
    assert (EE : b2 e * b2 E * K = 1) by (unfold E; rewrite <- b2_add; replace (e + (- e - 105))%Z with (-105)%Z by lia; exact b2_105).
    pose proof (b2_pos E) as PE. set (t := K / IZR H).
    assert (TH : t * IZR H = K) by (unfold t; field; lra).
    assert (X : 1 / (IZR H * b2 e) = t * b2 E) by (unfold t; apply (Rmult_eq_reg_r (IZR H * b2 e)); [|apply Rgt_not_eq, Rmult_lt_0_compat; lra];
      replace (K / IZR H * b2 E * (IZR H * b2 e)) with (b2 e * b2 E * K) by (field; lra); rewrite EE; field; lra).
    assert (Tr : 4503599627370496 <= t < 9007199254740992).
    { split; [apply (Rmult_le_reg_r (IZR H))|apply (Rmult_lt_reg_r (IZR H))]; try lra; rewrite TH; unfold K; lra. }
    destruct (near_at _ _ E N1 ltac:(lia)) as (M & Eq & HM & _).
    { rewrite X, !(Z.add_comm E), !b2_add, b2_52, b2_53. split; [apply Rmult_le_compat_r|apply Rmult_lt_compat_r]; lra. }
    rewrite X in HM. replace (t * b2 E / b2 E) with t in HM by (field; lra). apply abs_le in HM.
    set (D := (IZR M - t) * IZR H).
    assert (HD : - (IZR H / 2) <= D <= IZR H / 2).
    { unfold D. split; [replace (- (IZR H / 2)) with (- / 2 * IZR H) by field|replace (IZR H / 2) with (/ 2 * IZR H) by field]; apply Rmult_le_compat_r; lra. }
    assert (HQ : IZR H * b2 e * q = 1 + D / K).
    { rewrite Eq. replace (1 + D / K) with ((D + K) / K) by (unfold K; field). replace (D + K) with (IZR M * IZR H) by (unfold D; rewrite <- TH; ring).
      apply (Rmult_eq_reg_r K); [|unfold K; lra]. replace (IZR M * IZR H / K * K) with (IZR M * IZR H) by (unfold K; field).
      replace (IZR H * b2 e * (IZR M * b2 E) * K) with (IZR M * IZR H * (b2 e * b2 E * K)) by ring. rewrite EE. ring. }
    rewrite HQ in N2. destruct (near_around (1 + D / K) r) as [->|[-> V]]; auto.
    + rewrite UV. unfold K. lra.
    + rewrite UV. unfold K. lra.
    + right. split; [reflexivity|].
      assert (VD : D <= - 2251799813685248) by (rewrite UV in V; unfold K in V; lra).
      assert (X' : (1 - uu) / (IZR H * b2 e) = (1 - uu) * t * b2 E) by (replace ((1 - uu) / (IZR H * b2 e)) with ((1 - uu) * (1 / (IZR H * b2 e))) by (field; lra); rewrite X; ring).
      assert (TU : (1 - uu) * t * IZR H = K - 4503599627370496) by (rewrite Rmult_assoc, TH, UV; unfold K; lra).
      rewrite X', Eq. apply near_mk; [lia| |].
      * split; [apply (Rmult_le_reg_r (IZR H))|apply (Rmult_lt_reg_r (IZR H))]; try lra; rewrite TU; unfold K; lra.
      * assert (DM : (IZR M - (1 - uu) * t) * IZR H = D + 4503599627370496) by (unfold D; replace ((IZR M - (1 - uu) * t) * IZR H) with (IZR M * IZR H - (1 - uu) * t * IZR H) by ring; rewrite TU; replace ((IZR M - t) * IZR H) with (IZR M * IZR H - t * IZR H) by ring; rewrite TH; ring).
        apply Rabs_def1; apply (Rmult_lt_reg_r (IZR H)); try lra; rewrite DM; lra.
Qed.

(** Dividing by the factor undoes multiplying by it. *)
Lemma undo_real X e y z : (4503599627370496 <= X < 9007199254740992)%Z -> (-1000 <= e <= 900)%Z ->
  near ((1 - uu) * (IZR X * b2 e)) y -> near (y / (1 - uu)) z -> z = IZR X * b2 e.
Proof.
  intros RX Re N1 N2. pose proof (b2_pos e) as Pe. pose proof uu_val as UV.
  assert (SELF : near (IZR X * b2 e) (IZR X * b2 e)).
  { apply near_mk; [lia|split; [apply IZR_le|apply IZR_lt]; lia|]. rewrite Rminus_diag_eq by reflexivity. rewrite Rabs_R0. lra. }
  destruct (Z.eq_dec X 4503599627370496) as [->|NX].
  - assert (Y : y = (1 - uu) * (4503599627370496 * b2 e)).
    { apply (near_fun _ _ _ N1). replace ((1 - uu) * (4503599627370496 * b2 e)) with (IZR 9007199254740991 * b2 (e - 1)).
      - apply near_mk; [lia|lra|]. rewrite Rminus_diag_eq by reflexivity. rewrite Rabs_R0. lra.
      - replace (b2 e) with (2 * b2 (e - 1)) by (rewrite <- b2_1; f_equal; lia). rewrite UV. lra. }
    rewrite Y in N2. replace ((1 - uu) * (4503599627370496 * b2 e) / (1 - uu)) with (4503599627370496 * b2 e) in N2 by (field; rewrite UV; lra).
    exact (near_fun _ _ _ N2 SELF).
  - assert (H1 : 4503599627370497 <= IZR X <= 9007199254740991) by (split; apply IZR_le; lia).
    assert (Y : y = IZR (X - 1) * b2 e).
    { apply (near_fun _ _ _ N1). replace ((1 - uu) * (IZR X * b2 e)) with ((1 - uu) * IZR X * b2 e) by ring. rewrite UV. apply near_mk; [lia|lra|].
      rewrite minus_IZR. apply Rabs_def1; lra. }
    rewrite Y in N2. refine (near_fun _ _ _ N2 _). replace (IZR (X - 1) * b2 e / (1 - uu)) with (IZR (X - 1) / (1 - uu) * b2 e) by (field; rewrite UV; lra).
    rewrite minus_IZR. set (t := (IZR X - 1) / (1 - uu)). assert (T : t * (1 - uu) = IZR X - 1) by (unfold t; field; rewrite UV; lra). rewrite UV in T.
    apply near_mk; [lia|lra|]. apply Rabs_def1; lra.
Qed.

(** ** The operations *)
Definition is (x : spec_float) (a : R) : Prop := finite x /\ dval x = a.
Lemma fin_zero s : finite (S754_zero s).
Proof. split; [reflexivity|exact I]. Qed.
Lemma rounds_zero r : rounds 0 r -> r = 0.
Proof. intros H. exact (rounds_exact 0 r (S754_zero false) (fin_zero false) eq_refl H). Qed.
Lemma mul_0l x y : is x 0 -> finite y -> is (SFmul 53 1024 x y) 0.
Proof.
  intros [F E] Fy. destruct (mul_full x y F Fy) as (F1 & _ & _ & Rr); rewrite E, Rmult_0_l in *; [rewrite Rabs_R0; apply b2_pos|]. split; [exact F1|]. exact (rounds_zero _ Rr).
Qed.
Lemma mul_0r x y : finite x -> is y 0 -> is (SFmul 53 1024 x y) 0.
Proof.
  intros Fx [F E]. destruct (mul_full x y Fx F) as (F1 & _ & _ & Rr); rewrite E, Rmult_0_r in *; [rewrite Rabs_R0; apply b2_pos|]. split; [exact F1|]. exact (rounds_zero _ Rr).
Qed.
Lemma div_0l x y : is x 0 -> finite y -> dval y <> 0 -> is (SFdiv 53 1024 x y) 0.
Proof.
  intros [F E] Fy N. destruct (div_full x y F Fy N) as (F1 & _ & _ & Rr); rewrite E in *; unfold Rdiv in *; rewrite Rmult_0_l in *; [rewrite Rabs_R0; apply b2_pos|]. split; [exact F1|]. exact (rounds_zero _ Rr).
Qed.
Lemma add_0l x y a : is x 0 -> is y a -> Rabs a < b2 1023 -> is (SFadd 53 1024 x y) a.
Proof.
  intros [F E] [Fy Ey] B. destruct (add_full x y F Fy) as (F1 & _ & Rr); rewrite E, Ey, Rplus_0_l in *; [exact B|]. split; [exact F1|]. exact (rounds_exact a _ y Fy Ey Rr).
Qed.
Lemma add_0r x y a : is x a -> is y 0 -> Rabs a < b2 1023 -> is (SFadd 53 1024 x y) a.
Proof.
  intros [F E] [Fy Ey] B. destruct (add_full x y F Fy) as (F1 & _ & Rr); rewrite E, Ey, Rplus_0_r in *; [exact B|]. split; [exact F1|]. exact (rounds_exact a _ x F E Rr).
Qed.
Lemma sub_same x y : finite x -> finite y -> dval x = dval y -> is (SFsub 53 1024 x y) 0.
Proof.
  intros F Fy E. destruct (sub_full x y F Fy) as (F1 & _ & Rr); replace (dval x - dval y) with 0 in * by lra; [rewrite Rabs_R0; apply b2_pos|]. split; [exact F1|]. exact (rounds_zero _ Rr).
Qed.
(** Numbers of moderate size have 53 digits. *)
Lemma normal x : finite x -> b2 (-900) <= Rabs (dval x) <= b2 900 -> exists s M e, (4503599627370496 <= M < 9007199254740992)%Z /\ (-1000 <= e <= 900)%Z /\ dval x = sg s * (IZR M * b2 e).
Proof.
  intros F [B1 B2]. pose proof (b2_pos (-900)) as P0. destruct x as [s|s| |s m e]; try nofin.
  - cbn [dval] in B1. rewrite Rabs_R0 in B1. lra.
  - destruct (finite_range _ _ _ F) as (R1 & R2 & R3 & R4). rewrite dval_sg, sg_abs in *. pose proof (b2_pos e) as Pe.
    rewrite (Rabs_right (IZR (Z.pos m) * b2 e)) in B1, B2 by (left; apply mant_pos).
    destruct (digits_range (Z.pos m) ltac:(lia)) as [[D1 D2] _]. cbn [Zdigits2] in D1, D2.
    assert (UP : IZR (Z.pos m) * b2 e < b2 (e + 53)).
    { rewrite Z.add_comm, b2_add. apply Rmult_lt_compat_r; [exact Pe|]. rewrite b2_IZR by lia. apply IZR_lt. apply Z.lt_le_trans with (1 := D2). apply Z.pow_le_mono_r; lia. }
    assert (E1 : (-900 < e + 53)%Z) by (apply b2_lt_inv; lra). unfold fe in R3.
    assert (DD : Z.pos (digits2_pos m) = 53%Z) by lia. rewrite DD in D1, D2.
    exists s, (Z.pos m), e. split; [split; [exact D1|exact D2]|]. split; [|reflexivity].
    assert (LO : b2 e <= IZR (Z.pos m) * b2 e) by (rewrite <- (Rmult_1_l (b2 e)) at 1; apply Rmult_le_compat_r; [lra|apply IZR_le; lia]).
    assert (E2 : (e < 901)%Z) by (apply b2_lt_inv; apply Rle_lt_trans with (b2 900); [lra|apply b2_lt; lia]). lia.
Qed.
Lemma rounds_pos v r : 0 <= v -> rounds v r -> near v r.
Proof.
  intros H [[_ N]|[H' N]]; [exact N|]. assert (v = 0) by lra. subst v. rewrite Ropp_0 in N. pose proof (near_fun _ _ _ N near_0). replace r with 0 by lra. exact near_0.
Qed.

(** One step of the recurrence on the one nonzero function: w -> h * (w / h). *)
Lemma pass_ok h : finite h -> b2 (-600) <= dval h <= b2 600 -> exists w0, (w0 = 1 \/ w0 = 1 - uu) /\
  forall w d, finite w -> dval w = 1 \/ dval w = w0 -> is d (dval h) -> finite (SFdiv 53 1024 w d) /\ is (SFmul 53 1024 h (SFdiv 53 1024 w d)) w0.
Proof.
  intros F B. pose proof (b2_pos (-600)) as P6. pose proof uu_val as UV.
  destruct (normal h F) as (s & H & e & RH & Re & Eh).
  { rewrite Rabs_right by lra. split; [apply Rle_trans with (b2 (-600)); [apply b2_le; lia|lra]|apply Rle_trans with (b2 600); [lra|apply b2_le; lia]]. }
  pose proof (b2_pos e) as Pe. assert (RH' : 4503599627370496 <= IZR H < 9007199254740992) by (split; [apply IZR_le|apply IZR_lt]; lia).
  assert (PM : 0 < IZR H * b2 e) by (apply Rmult_lt_0_compat; lra).
  destruct s; [exfalso; unfold sg in Eh; lra|]. unfold sg in Eh. rewrite Rmult_1_l in Eh.
  assert (Re' : (-900 <= e <= 900)%Z).
  { split; [|lia]. assert (X : b2 (-600) < b2 (e + 53)) by (rewrite Z.add_comm, b2_add, b2_53; apply Rle_lt_trans with (1 := proj1 B); rewrite Eh; apply Rmult_lt_compat_r; lra).
    apply b2_lt_inv in X. lia. }
  assert (INV : forall v, 0 <= v <= 1 -> 0 <= v / dval h <= b2 600).
  { intros v Hv. assert (0 < / dval h <= b2 600).
    { split; [apply Rinv_0_lt_compat; lra|]. replace (b2 600) with (/ b2 (-600)); [apply Rinv_le_contravar; lra|]. rewrite inv_b2. reflexivity. }
    unfold Rdiv. split; [apply Rmult_le_pos; lra|]. rewrite <- (Rmult_1_l (b2 600)). apply Rmult_le_compat; lra. }
  assert (BG : b2 600 < b2 1023) by (apply b2_lt; lia).
  assert (DIV : forall w d, finite w -> 0 <= dval w <= 1 -> is d (dval h) -> finite (SFdiv 53 1024 w d) /\ near (dval w / dval h) (dval (SFdiv 53 1024 w d)) /\ 0 <= dval (SFdiv 53 1024 w d)).
  { intros w d Fw Hw [Fd Ed]. pose proof (INV _ Hw) as I. destruct (div_full w d Fw Fd ltac:(lra)) as (F1 & _ & S & Rr).
    { rewrite Ed. rewrite Rabs_right by lra. lra. }
    rewrite Ed in Rr, S. split; [exact F1|]. split; [apply rounds_pos; [lra|exact Rr]|apply S; lra]. }
  (* the pass from 1 *)
  destruct (DIV (n1 Dn) h fin_one) as (F1 & N1 & Q0); [rewrite dval_one; lra|split; auto|]. set (q := SFdiv 53 1024 (n1 Dn) h) in *. rewrite dval_one in N1.
  assert (HQ : exists r, near (dval h * dval q) r /\ (r = 1 \/ (r = 1 - uu /\ near ((1 - uu) / dval h) (dval q))) /\ 0 <= dval h * dval q < b2 1023).
  { assert (QB : dval h * dval q <= 4).
    { destruct (div_full (n1 Dn) h fin_one F ltac:(lra)) as (_ & ER & _); [rewrite dval_one; pose proof (INV 1 ltac:(lra)); rewrite Rabs_right; lra|].
      fold q in ER. rewrite dval_one in ER. pose proof (INV 1 ltac:(lra)) as I1. rewrite (Rabs_right (1 / dval h)) in ER by lra. apply abs_le in ER.
      assert (EB : eta <= 1 / dval h).
      { apply Rle_trans with (b2 (-600)); [unfold eta; apply b2_le; lia|]. unfold Rdiv. rewrite Rmult_1_l. replace (b2 (-600)) with (/ b2 600) by (rewrite inv_b2; reflexivity). apply Rinv_le_contravar; lra. }
      assert (HI : dval h * (1 / dval h) = 1) by (field; lra).
      assert (U1 : uu * (1 / dval h) <= 1 / dval h) by (rewrite UV; lra).
      apply Rle_trans with (dval h * (3 * (1 / dval h))); [apply Rmult_le_compat_l; lra|]. replace (dval h * (3 * (1 / dval h))) with (3 * (dval h * (1 / dval h))) by ring. rewrite HI. lra. }
    assert (QP : 0 <= dval h * dval q) by (apply Rmult_le_pos; lra). pose proof big_1023 as BB.
    destruct (mul_full h q F F1) as (_ & _ & _ & Rr); [rewrite Rabs_right by lra; lra|]. apply rounds_pos in Rr; [|exact QP].
    exists (dval (SFmul 53 1024 h q)). split; [exact Rr|]. split; [|lra]. rewrite Eh in N1, Rr |- *. exact (unit_real H e _ _ RH Re' N1 Rr). }
  destruct HQ as (r & Nr & Hr & QR). exists r. split; [destruct Hr as [->|[-> _]]; auto|].
  assert (SAME : forall w d, finite w -> dval w = 1 \/ dval w = r -> is d (dval h) -> finite (SFdiv 53 1024 w d) /\ dval (SFdiv 53 1024 w d) = dval q).
  { intros w d Fw Hw Hd. destruct (DIV w d Fw) as (F2 & N2 & _); [|exact Hd|]; [destruct Hw as [->| ->]; [lra|]; destruct Hr as [->|[-> _]]; rewrite ?UV; lra|]. split; [exact F2|].
    destruct Hw as [Ew|Ew]; rewrite Ew in N2; [exact (near_fun _ _ _ N2 N1)|].
    destruct Hr as [->|[-> Nq]]; [exact (near_fun _ _ _ N2 N1)|exact (near_fun _ _ _ N2 Nq)]. }
  intros w d Fw Hw Hd. destruct (SAME w d Fw Hw Hd) as [F2 E2]. split; [exact F2|].
  destruct (mul_full h _ F F2) as (F3 & _ & _ & Rr); rewrite E2 in *; [rewrite Rabs_right; lra|]. split; [exact F3|].
  apply rounds_pos in Rr; [|lra]. exact (near_fun _ _ _ Rr Nr).
Qed.
(** w * x / w = x *)
Lemma undo w x v : (v = 1 \/ v = 1 - uu) -> is w v -> finite x -> (dval x = 0 \/ b2 (-900) <= Rabs (dval x) <= b2 900) ->
  let y := SFmul 53 1024 w x in finite y /\ Rabs (dval y) < b2 1022 /\
  forall y' w', is y' (dval y) -> is w' v -> is (SFdiv 53 1024 y' w') (dval x).
Proof.
  intros Hv [Fw Ew] Fx Hx y. pose proof uu_val as UV. assert (V : 1 / 2 <= v <= 1) by (destruct Hv as [->| ->]; [lra|rewrite UV; lra]).
  assert (BX : Rabs (dval x) <= b2 900) by (destruct Hx as [->|[_ H]]; [rewrite Rabs_R0; left; apply b2_pos|exact H]).
  assert (B9 : b2 900 * 8 < b2 1022) by (replace (b2 900 * 8) with (b2 903); [apply b2_lt; lia|replace 903%Z with (900 + 3)%Z by lia; rewrite b2_add; unfold b2 at 2; simpl; lra]).
  assert (B10 : b2 1022 < b2 1023) by (apply b2_lt; lia). pose proof (b2_pos 900) as P9.
  assert (PROD : Rabs (dval w * dval x) <= b2 900) by (rewrite Ew, Rabs_mult, (Rabs_right v) by lra; rewrite <- (Rmult_1_l (b2 900)); apply Rmult_le_compat; try lra; apply Rabs_pos).
  destruct (mul_full w x Fw Fx) as (F1 & ER & _ & R1); [lra|]. fold y in F1, ER, R1.
  assert (E1 : eta <= b2 900) by (unfold eta; apply b2_le; lia).
  assert (YB : Rabs (dval y) <= b2 900 * 3).
  { pose proof (size_of _ _ _ _ ER PROD) as S. assert (uu * Rabs (dval w * dval x) <= b2 900) by (rewrite UV; lra). lra. }
  split; [exact F1|]. split; [lra|]. intros y' w' [Fy' Ey'] [Fw' Ew'].
  assert (WI : 0 < / v <= 2) by (split; [apply Rinv_0_lt_compat; lra|replace 2 with (/ (1 / 2)) by field; apply Rinv_le_contravar; lra]).
  destruct (div_full y' w' Fy' Fw') as (F2 & _ & _ & R2); [lra| |].
  { rewrite Ew', Ey'. unfold Rdiv. rewrite Rabs_mult, (Rabs_right (/ v)) by lra. apply Rle_lt_trans with (b2 900 * 3 * 2); [apply Rmult_le_compat; try lra; apply Rabs_pos|lra]. }
  split; [exact F2|]. rewrite Ew in R1. rewrite Ew', Ey' in R2. set (z := dval (SFdiv 53 1024 y' w')) in *.
  destruct Hv as [->| ->].
  { rewrite Rmult_1_l in R1. pose proof (rounds_exact _ _ x Fx eq_refl R1) as E. rewrite E in R2. unfold Rdiv in R2. rewrite Rinv_1, Rmult_1_r in R2.
    exact (rounds_exact _ _ x Fx eq_refl R2). }
  destruct Hx as [X0|HX].
  { rewrite X0, Rmult_0_r in R1. apply rounds_zero in R1. rewrite R1 in R2. unfold Rdiv in R2. rewrite Rmult_0_l in R2. rewrite X0. exact (rounds_zero _ R2). }
  destruct (normal x Fx HX) as (s & M & e & RM & Re & Ex). pose proof (b2_pos e) as Pe.
  assert (PM : 0 < IZR M * b2 e) by (apply Rmult_lt_0_compat; [apply IZR_lt; lia|lra]).
  rewrite Ex in R1 |- *. assert (P1 : 0 < (1 - uu) * (IZR M * b2 e)) by (apply Rmult_lt_0_compat; [rewrite UV; lra|lra]).
  destruct s; unfold sg in *.
  - replace ((1 - uu) * (-1 * (IZR M * b2 e))) with (- ((1 - uu) * (IZR M * b2 e))) in R1 by ring.
    destruct R1 as [[Q _]|[_ N1]]; [lra|]. rewrite Ropp_involutive in N1. pose proof (near_nonneg _ _ (Rlt_le _ _ P1) N1) as Y0.
    assert (Y1 : 0 <= - dval y / (1 - uu)) by (apply Rmult_le_pos; lra).
    assert (N2 : near (- dval y / (1 - uu)) (- z)).
    { apply rounds_pos; [exact Y1|]. destruct R2 as [[Q N]|[Q N]].
      - assert (dval y / (1 - uu) = 0) by (unfold Rdiv in *; lra). right. split; [unfold Rdiv in *; lra|]. replace (- (- dval y / (1 - uu))) with (dval y / (1 - uu)) by (unfold Rdiv; ring). rewrite Ropp_involutive. exact N.
      - left. split; [exact Y1|]. replace (- dval y / (1 - uu)) with (- (dval y / (1 - uu))) by (unfold Rdiv; ring). exact N. }
    pose proof (undo_real M e _ _ RM Re N1 N2). lra.
  - rewrite Rmult_1_l in R1 |- *. apply rounds_pos in R1; [|lra]. pose proof (near_nonneg _ _ (Rlt_le _ _ P1) R1) as Y0.
    apply rounds_pos in R2; [|apply Rmult_le_pos; lra]. exact (undo_real M e _ _ RM Re R1 R2).
Qed.

(** ** BasisFuns where all lft or all rgt vanish *)
Definition wide (h : spec_float) : Prop := finite h /\ b2 (-600) <= dval h <= b2 600.
Lemma wide_ne h : wide h -> dval h <> 0.
Proof. intros [_ H]. pose proof (b2_pos (-600)). lra. Qed.
Lemma wide_small h : wide h -> Rabs (dval h) < b2 1023.
Proof. intros [_ H]. pose proof (b2_pos (-600)). assert (b2 600 < b2 1023) by (apply b2_lt; lia). rewrite Rabs_right; lra. Qed.
Lemma near1_small v : v = 1 \/ v = 1 - uu -> Rabs v < b2 1023.
Proof. pose proof big_1023. pose proof uu_val as UV. intros [->| ->]; rewrite Rabs_right; rewrite ?UV; lra. Qed.
Lemma basis_left k p (U : Z -> Dn) (u : Dn) junk : (1 <= p)%Z ->
  (forall l, (1 <= l <= p)%Z -> is (SFsub 53 1024 u (U (k + 1 - l)%Z)) 0) -> (forall l, (1 <= l <= p)%Z -> wide (SFsub 53 1024 (U (k + l)%Z) u)) ->
  exists w, (w = 1 \/ w = 1 - uu) /\ is (BasisFuns (N:=Dn) k u p U junk 0%Z) w /\ forall r, (1 <= r <= p)%Z -> is (BasisFuns (N:=Dn) k u p U junk r) 0.
Proof.
  intros Hp HL HR. destruct (pass_ok _ (proj1 (HR 1%Z ltac:(lia))) (proj2 (HR 1%Z ltac:(lia)))) as (w0 & Hw0 & PASS). exists w0. split; [exact Hw0|].
  pose proof (near1_small w0 Hw0) as SW. unfold BasisFuns. dn.
  floop (fun j (s : (Z -> spec_float) * (Z -> spec_float) * (Z -> spec_float)) => let '(Nf, lft, rgt) := s in
       finite (Nf 0%Z) /\ (dval (Nf 0%Z) = w0 \/ (j = 1%Z /\ dval (Nf 0%Z) = 1)) /\ (forall r, (1 <= r <= j - 1)%Z -> is (Nf r) 0) /\
       (forall l, (1 <= l <= j - 1)%Z -> lft l = SFsub 53 1024 u (U (k + 1 - l)%Z)) /\
       (forall l, (1 <= l <= j - 1)%Z -> rgt l = SFsub 53 1024 (U (k + l)%Z) u)).
  - rewrite upd_same. split; [exact fin_one|]. split; [right; split; [reflexivity|exact dval_one]|]. split; [|split]; intros; lia.
  - intros j [[Nf lft] rgt] Hj (H1 & H2 & H3 & H4 & H5). unfold BasisFuns_outer. dn.
    set (lft' := upd lft j (SFsub 53 1024 u (U (k + 1 - j)%Z))). set (rgt' := upd rgt j (SFsub 53 1024 (U (k + j)%Z) u)).
    assert (L : forall l, (1 <= l <= j)%Z -> lft' l = SFsub 53 1024 u (U (k + 1 - l)%Z)).
    { intros l Hl. unfold lft'. destruct (Z.eq_dec l j) as [->|]; [rewrite upd_same; auto|]. rewrite upd_diff by auto. apply H4. lia. }
    assert (Rg : forall l, (1 <= l <= j)%Z -> rgt' l = SFsub 53 1024 (U (k + l)%Z) u).
    { intros l Hl. unfold rgt'. destruct (Z.eq_dec l j) as [->|]; [rewrite upd_same; auto|]. rewrite upd_diff by auto. apply H5. lia. }
    assert (DEN : forall r, (0 <= r <= j - 1)%Z -> is (SFadd 53 1024 (rgt' (r + 1)%Z) (lft' (j - r)%Z)) (dval (rgt' (r + 1)%Z)) /\ wide (rgt' (r + 1)%Z)).
    { intros r Hr. rewrite L, Rg by lia. assert (WD := HR (r + 1)%Z ltac:(lia)). split; [|exact WD]. apply add_0r; [split; [apply WD|reflexivity]|apply HL; lia|apply wide_small, WD]. }
    floop (fun r (s : (Z -> spec_float) * spec_float) => let '(Nf', saved) := s in
         is saved 0 /\ (if (r =? 0)%Z then forall y, Nf' y = Nf y else is (Nf' 0%Z) w0) /\ forall y, (1 <= y <= j - 1)%Z -> is (Nf' y) 0).
    + split; [split; [apply fin_zero|reflexivity]|]. split; [rewrite Z.eqb_refl; reflexivity|exact H3].
    + intros r [N' sv] Hr (G1 & G2 & G3). unfold BasisFuns_inner. dn. destruct (DEN r ltac:(lia)) as [[FD ED] WD]. pose proof (wide_ne _ WD) as NE.
      destruct (Z.eqb_spec r 0) as [->|NR].
      * rewrite G2. change (0 + 1 =? 0)%Z with false. change (0 + 1)%Z with 1%Z in *. rewrite (Rg 1%Z) in FD, ED |- * by lia.
        destruct (PASS (Nf 0%Z) (SFadd 53 1024 (SFsub 53 1024 (U (k + 1)%Z) u) (lft' (j - 0)%Z)) H1) as [FT PT]; [destruct H2 as [H2|[_ H2]]; auto|split; auto|].
        split; [apply mul_0l; [rewrite L by lia; apply HL; lia|exact FT]|]. split; [rewrite upd_same; apply add_0l; auto|].
        intros y Hy. rewrite upd_diff by lia. apply G3. exact Hy.
      * replace (r + 1 =? 0)%Z with false by (symmetry; apply Z.eqb_neq; lia).
        assert (TZ : is (SFdiv 53 1024 (N' r) (SFadd 53 1024 (rgt' (r + 1)%Z) (lft' (j - r)%Z))) 0) by (apply div_0l; [apply G3; lia|exact FD|rewrite ED; exact NE]).
        split; [apply mul_0r; [rewrite L by lia; apply HL; lia|exact TZ]|]. split; [rewrite upd_diff by lia; exact G2|].
        intros y Hy. destruct (Z.eq_dec y r) as [->|]; [rewrite upd_same|rewrite upd_diff by auto; apply G3; exact Hy].
        apply add_0l; [exact G1|apply mul_0r; [apply WD|exact TZ]|rewrite Rabs_R0; apply b2_pos].
    + intros [N' sv] (G1 & G2 & G3). replace (j - 1 + 1 =? 0)%Z with false in G2 by (symmetry; apply Z.eqb_neq; lia). rewrite upd_diff by lia.
      split; [apply G2|]. split; [left; apply G2|]. split; [|split; intros l Hl; [apply L; lia|apply Rg; lia]].
      intros r Hr. destruct (Z.eq_dec r j) as [->|]; [rewrite upd_same; exact G1|rewrite upd_diff by auto; apply G3; lia].
  - intros [[Nf lft] rgt] (H1 & H2 & H3 & _). split; [split; [exact H1|destruct H2 as [H2|[H2 _]]; [exact H2|lia]]|]. intros r Hr. apply H3. lia.
Qed.
Lemma basis_right k p (U : Z -> Dn) (u : Dn) junk : (1 <= p)%Z ->
  (forall l, (1 <= l <= p)%Z -> is (SFsub 53 1024 (U (k + l)%Z) u) 0) -> (forall l, (1 <= l <= p)%Z -> wide (SFsub 53 1024 u (U (k + 1 - l)%Z))) ->
  exists w, (w = 1 \/ w = 1 - uu) /\ is (BasisFuns (N:=Dn) k u p U junk p) w /\ forall r, (0 <= r <= p - 1)%Z -> is (BasisFuns (N:=Dn) k u p U junk r) 0.
Proof.
  intros Hp HR HL. destruct (pass_ok _ (proj1 (HL 1%Z ltac:(lia))) (proj2 (HL 1%Z ltac:(lia)))) as (w0 & Hw0 & PASS). exists w0. split; [exact Hw0|].
  pose proof (near1_small w0 Hw0) as SW. unfold BasisFuns. dn.
  floop (fun j (s : (Z -> spec_float) * (Z -> spec_float) * (Z -> spec_float)) => let '(Nf, lft, rgt) := s in
       finite (Nf (j - 1)%Z) /\ (dval (Nf (j - 1)%Z) = w0 \/ (j = 1%Z /\ dval (Nf (j - 1)%Z) = 1)) /\ (forall r, (0 <= r <= j - 2)%Z -> is (Nf r) 0) /\
       (forall l, (1 <= l <= j - 1)%Z -> lft l = SFsub 53 1024 u (U (k + 1 - l)%Z)) /\
       (forall l, (1 <= l <= j - 1)%Z -> rgt l = SFsub 53 1024 (U (k + l)%Z) u)).
  - change (1 - 1)%Z with 0%Z. rewrite upd_same. split; [exact fin_one|]. split; [right; split; [reflexivity|exact dval_one]|]. split; [|split]; intros; lia.
  - intros j [[Nf lft] rgt] Hj (H1 & H2 & H3 & H4 & H5). unfold BasisFuns_outer. dn.
    set (lft' := upd lft j (SFsub 53 1024 u (U (k + 1 - j)%Z))). set (rgt' := upd rgt j (SFsub 53 1024 (U (k + j)%Z) u)).
    assert (L : forall l, (1 <= l <= j)%Z -> lft' l = SFsub 53 1024 u (U (k + 1 - l)%Z)).
    { intros l Hl. unfold lft'. destruct (Z.eq_dec l j) as [->|]; [rewrite upd_same; auto|]. rewrite upd_diff by auto. apply H4. lia. }
    assert (Rg : forall l, (1 <= l <= j)%Z -> rgt' l = SFsub 53 1024 (U (k + l)%Z) u).
    { intros l Hl. unfold rgt'. destruct (Z.eq_dec l j) as [->|]; [rewrite upd_same; auto|]. rewrite upd_diff by auto. apply H5. lia. }
    assert (DEN : forall r, (0 <= r <= j - 1)%Z -> is (SFadd 53 1024 (rgt' (r + 1)%Z) (lft' (j - r)%Z)) (dval (lft' (j - r)%Z)) /\ wide (lft' (j - r)%Z)).
    { intros r Hr. rewrite L, Rg by lia. assert (WD := HL (j - r)%Z ltac:(lia)). split; [|exact WD]. apply add_0l; [apply HR; lia|split; [apply WD|reflexivity]|apply wide_small, WD]. }
    floop (fun r (s : (Z -> spec_float) * spec_float) => let '(Nf', saved) := s in
         is saved (if (r =? j)%Z then w0 else 0) /\ (forall y, (r <= y)%Z -> Nf' y = Nf y) /\ forall y, (0 <= y <= r - 1)%Z -> is (Nf' y) 0).
    + replace (0 =? j)%Z with false by (symmetry; apply Z.eqb_neq; lia). split; [split; [apply fin_zero|reflexivity]|]. split; [auto|intros; lia].
    + intros r [N' sv] Hr (G1 & G2 & G3). unfold BasisFuns_inner. dn. destruct (DEN r ltac:(lia)) as [[FD ED] WD]. pose proof (wide_ne _ WD) as NE.
      replace (r =? j)%Z with false in G1 by (symmetry; apply Z.eqb_neq; lia). rewrite G2 by lia.
      assert (TT : finite (SFdiv 53 1024 (Nf r) (SFadd 53 1024 (rgt' (r + 1)%Z) (lft' (j - r)%Z))) /\
        is (SFmul 53 1024 (lft' (j - r)%Z) (SFdiv 53 1024 (Nf r) (SFadd 53 1024 (rgt' (r + 1)%Z) (lft' (j - r)%Z)))) (if (r + 1 =? j)%Z then w0 else 0)).
      { destruct (Z.eqb_spec (r + 1) j) as [Er|NR].
        - replace r with (j - 1)%Z in * by lia. replace (j - (j - 1))%Z with 1%Z in * by lia. rewrite (L 1%Z) in FD, ED |- * by lia.
          apply PASS; [exact H1|destruct H2 as [H2|[_ H2]]; auto|split; auto].
        - assert (TZ : is (SFdiv 53 1024 (Nf r) (SFadd 53 1024 (rgt' (r + 1)%Z) (lft' (j - r)%Z))) 0) by (apply div_0l; [apply H3; lia|exact FD|rewrite ED; exact NE]).
          split; [apply TZ|]. apply mul_0r; [apply WD|exact TZ]. }
      destruct TT as [FT PT]. split; [exact PT|]. split; [intros y Hy; rewrite upd_diff by lia; apply G2; lia|].
      intros y Hy. destruct (Z.eq_dec y r) as [->|]; [rewrite upd_same|rewrite upd_diff by auto; apply G3; lia].
      apply add_0l; [exact G1|apply mul_0l; [rewrite Rg by lia; apply HR; lia|exact FT]|rewrite Rabs_R0; apply b2_pos].
    + intros [N' sv] (G1 & G2 & G3). replace (j - 1 + 1)%Z with j in * by lia. replace (j + 1 - 1)%Z with j by lia. rewrite Z.eqb_refl in G1. rewrite upd_same.
      split; [apply G1|]. split; [left; apply G1|]. split; [|split; intros l Hl; [apply L; lia|apply Rg; lia]].
      intros r Hr. rewrite upd_diff by lia. apply G3. lia.
  - intros [[Nf lft] rgt] (H1 & H2 & H3 & _). replace (p + 1 - 1)%Z with p in * by lia. split; [split; [exact H1|destruct H2 as [H2|[H2 _]]; [exact H2|lia]]|]. intros r Hr. apply H3. lia.
Qed.

(** ** Sums with one nonzero term *)
Lemma sum_one (b P : Z -> spec_float) p j0 : (0 <= j0 <= p)%Z -> (forall j, (0 <= j <= p)%Z -> j <> j0 -> is (b j) 0) -> (forall j, (0 <= j <= p)%Z -> finite (P j)) ->
  let y := SFmul 53 1024 (b j0) (P j0) in finite y -> Rabs (dval y) < b2 1023 ->
  is (for_up 0 p (fun j C => SFadd 53 1024 C (SFmul 53 1024 (b j) (P j))) (S754_zero false)) (dval y).
Proof.
  intros Hj Hb HP y Fy By.
  floop (fun j (C : spec_float) => is C (if (j0 <? j)%Z then dval y else 0)).
  - replace (j0 <? 0)%Z with false by (symmetry; apply Z.ltb_ge; lia). split; [apply fin_zero|reflexivity].
  - intros j C H HC. destruct (Z.eq_dec j j0) as [->|N].
    + rewrite Z.ltb_irrefl in HC. replace (j0 <? j0 + 1)%Z with true by (symmetry; apply Z.ltb_lt; lia). fold y. apply add_0l; [exact HC|split; auto|exact By].
    + replace (j0 <? j + 1)%Z with (j0 <? j)%Z by (destruct (Z.ltb_spec j0 j), (Z.ltb_spec j0 (j + 1)); auto; lia).
      apply add_0r; [exact HC|apply mul_0l; [apply Hb; auto|apply HP; auto]|]. destruct (j0 <? j)%Z; [exact By|rewrite Rabs_R0; apply b2_pos].
  - intros C HC. replace (j0 <? p + 1)%Z with true in HC by (symmetry; apply Z.ltb_lt; lia). exact HC.
Qed.
Lemma wide_sub x y : finite x -> finite y -> b2 (-500) <= dval x - dval y <= b2 502 -> wide (SFsub 53 1024 x y).
Proof.
  intros Fx Fy B. pose proof (b2_pos (-500)) as P5. assert (B5 : b2 502 < b2 1023) by (apply b2_lt; lia). pose proof uu_val as UV.
  destruct (sub_full x y Fx Fy) as (F & E & _); [rewrite Rabs_right; lra|]. split; [exact F|]. rewrite (Rabs_right (dval x - dval y)) in E by lra. apply abs_le in E.
  assert (Q1 : 2 * b2 (-600) <= b2 (-500)) by (rewrite <- b2_1; apply b2_le; lia). assert (Q2 : 2 * b2 502 <= b2 600) by (rewrite <- b2_1; apply b2_le; lia).
  assert (uu * (dval x - dval y) <= (dval x - dval y) / 2) by (rewrite UV; lra). lra.
Qed.

(** ** Curves at knots of full multiplicity *)
Definition moderate (x : spec_float) : Prop := finite x /\ (dval x = 0 \/ b2 (-900) <= Rabs (dval x) <= b2 900).
Section CurveD.
Variables (n p : Z) (U : Z -> Dn) (u : Dn) (k : Z).
Hypothesis HM : mild n p U u.
Hypothesis Hk : (0 <= k <= n)%Z.
Hypothesis KE : forall j, (k + 1 <= j <= k + p)%Z -> dval (U j) = dval u.
Hypothesis KL : k = n \/ dval u < dval (U (k + p + 1)%Z).
Lemma basis_at junk : exists w j0, (w = 1 \/ w = 1 - uu) /\ (0 <= j0 <= p)%Z /\ let sp := FindSpan (N:=Dn) n p u U in
  (sp - p + j0 = k)%Z /\ (p <= sp <= n)%Z /\ is (BasisFuns (N:=Dn) sp u p U junk j0) w /\ forall j, (0 <= j <= p)%Z -> j <> j0 -> is (BasisFuns (N:=Dn) sp u p U junk j) 0.
Proof.
  destruct HM as ((FU & MU & SU) & Hp & W & Fu & D). pose proof (span_active n p U u FU Fu W D) as [Hs Ac]. set (sp := FindSpan (N:=Dn) n p u U) in *. cbv zeta.
  pose proof (wf_mono _ _ _ W) as Mo. pose proof (wf_last _ _ _ W) as WL. destruct D as [D1 D2]. unfold rU in Mo, WL, D1, D2, W. pose proof (wf_n _ _ _ W) as Hn. cbn beta in *.
  assert (BU : forall i, (0 <= i <= n + p + 1)%Z -> - b2 500 <= dval (U i) <= b2 500) by (intros i Hi; apply abs_le, MU; exact Hi).
  assert (B50 : 2 * b2 500 <= b2 502) by (rewrite <- b2_1; apply b2_le; lia).
  destruct (Z.eq_dec k n) as [Ek|Nk].
  - (* the right end *)
    assert (E1 : dval (U (n + 1)%Z) = dval u) by (apply KE; lia).
    assert (Es : sp = n). { destruct Ac as [[A1 A2]|[A1 _]]; [|exact A1]. exfalso. assert (dval (U (sp + 1)%Z) <= dval (U (n + 1)%Z)) by (apply Mo; lia). lra. }
    destruct (basis_right n p U u junk ltac:(lia)) as (w & Hw & B1 & B2).
    + intros l Hl. apply sub_same; [apply FU; lia|exact Fu|apply KE; lia].
    + intros l Hl. apply wide_sub; [exact Fu|apply FU; lia|]. assert (dval (U (n + 1 - l)%Z) <= dval (U n)) by (apply Mo; lia). rewrite <- E1. split.
      * apply SU; try lia. lra.
      * pose proof (BU (n + 1)%Z ltac:(lia)). pose proof (BU (n + 1 - l)%Z ltac:(lia)). lra.
    + exists w, p. split; [exact Hw|]. split; [lia|]. split; [lia|]. split; [lia|]. rewrite Es. split; [exact B1|]. intros j Hj Nj. apply B2. lia.
  - destruct KL as [|KL']; [contradiction|].
    assert (E1 : dval (U (k + p)%Z) = dval u) by (apply KE; lia).
    assert (Es : sp = (k + p)%Z).
    { destruct Ac as [[A1 A2]|[A1 A2]].
      - destruct (Z.lt_trichotomy sp (k + p)) as [Q|[Q|Q]]; [exfalso|exact Q|exfalso].
        + assert (dval (U (sp + 1)%Z) <= dval (U (k + p)%Z)) by (apply Mo; lia). lra.
        + assert (dval (U (k + p + 1)%Z) <= dval (U sp)) by (apply Mo; lia). lra.
      - exfalso. assert (E2 : dval (U (k + 1)%Z) = dval u) by (apply KE; lia). assert (dval (U (k + 1)%Z) <= dval (U n)) by (apply Mo; lia). lra. }
    destruct (basis_left sp p U u junk ltac:(lia)) as (w & Hw & B1 & B2).
    + intros l Hl. apply sub_same; [exact Fu|apply FU; lia|symmetry; apply KE; lia].
    + intros l Hl. apply wide_sub; [apply FU; lia|exact Fu|]. assert (dval (U (k + p + 1)%Z) <= dval (U (sp + l)%Z)) by (apply Mo; lia). rewrite <- E1. split.
      * apply SU; try lia. lra.
      * pose proof (BU (sp + l)%Z ltac:(lia)). pose proof (BU (k + p)%Z ltac:(lia)). lra.
    + exists w, 0%Z. split; [exact Hw|]. split; [lia|]. split; [lia|]. split; [lia|]. split; [exact B1|]. intros j Hj Nj. apply B2. lia.
Qed.
Lemma curve_exact r (X : Z -> Dn) (P Q : Z -> Dn) junk jc i : (0 <= i <= r)%Z -> X i = u ->
  (forall j, (0 <= j <= n)%Z -> finite (P j) /\ finite (Q j)) -> dval (Q k) = 1 -> moderate (P k) ->
  is (SFdiv 53 1024 (Evaluate1 (N:=Dn) n p U P r X junk jc i) (Evaluate1 (N:=Dn) n p U Q r X junk jc i)) (dval (P k)).
Proof.
  intros Hi EX HPQ HQ [FP MP]. unfold Evaluate1. cbv zeta. dn.
  repeat match goal with |- context [for_up 0 r (fun i Cw => upd Cw i (@?g i)) jc i] => rewrite (@for_up_store spec_float 0 r g jc i Hi) end. cbv beta. rewrite EX.
  destruct (basis_at junk) as (w & j0 & Hw & Hj & Es & Rs & B1 & B0). set (sp := FindSpan (N:=Dn) n p u U) in *. set (b := BasisFuns (N:=Dn) sp u p U junk) in *.
  destruct (undo (b j0) (P k) w Hw B1 FP MP) as (F1 & S1 & UN). cbv zeta in UN.
  assert (B22 : b2 1022 < b2 1023) by (apply b2_lt; lia).
  destruct (mul_full (b j0) (Q k) (proj1 B1) (proj2 (HPQ k Hk))) as (F2 & _ & _ & R2); [rewrite (proj2 B1), HQ, Rmult_1_r; apply near1_small; exact Hw|].
  rewrite HQ, Rmult_1_r in R2. pose proof (rounds_exact _ _ (b j0) (proj1 B1) eq_refl R2) as E2. rewrite (proj2 B1) in E2.
  apply UN.
  - rewrite <- Es at 1. apply (sum_one b (fun j => P (sp - p + j)%Z) p j0 Hj B0); rewrite ?Es; [|exact F1|lra]. intros j Hj'. apply HPQ. lia.
  - rewrite <- E2. rewrite <- Es at 1. apply (sum_one b (fun j => Q (sp - p + j)%Z) p j0 Hj B0); rewrite ?Es; [|exact F2|rewrite E2; apply near1_small; exact Hw]. intros j Hj'. apply HPQ. lia.
Qed.
End CurveD.

(** ** The call *)
Theorem call_exact : forall junk junk2 junk3 junkS (nrb : nurbs Dn) A x (fields : bool), n_axes nrb = [A] -> mild_axis A -> mild_arg A x ->
  exists C F, call (N:=Dn) junk junk2 junk3 junkS nrb [Some x] (if fields then FYes else FNo) = Ok (C, F) /\
    (if fields then F = Some (fun idx c => C idx (4 + c)%Z) else F = None) /\
    forall i k c, let u := dval (v_get x i) in let U := fun j => dval (a_knots A j) in let p := a_deg A in
      (0 <= i < v_len x)%Z -> (0 <= k < a_size A)%Z -> (forall j, (k + 1 <= j <= k + p)%Z -> U j = u) -> (k = (a_size A - 1)%Z \/ u < U (k + p + 1)%Z) ->
      (forall j, (0 <= j < a_size A)%Z -> finite (n_arr nrb [j] c) /\ finite (n_arr nrb [j] 3%Z)) -> dval (n_arr nrb [k] 3%Z) = 1 ->
      (dval (n_arr nrb [k] c) = 0 \/ b2 (-900) <= Rabs (dval (n_arr nrb [k] c)) <= b2 900) ->
      finite (C [i] c) /\ dval (C [i] c) = dval (n_arr nrb [k] c).
Proof.
  intros junk junk2 junk3 junkS nrb A x fields EA MA MX.
  assert (W : Forall mild_axis (n_axes nrb)) by (rewrite EA; constructor; [exact MA|constructor]).
  assert (Gd : good (n_axes nrb) [x]) by (rewrite EA; constructor; [exact MX|constructor]).
  unfold call. change [Some x] with (map Some [x]). rewrite (eval_argsD junk _ _ W Gd). cbn [bind].
  assert (EV : forall f, py_Evaluate (N:=Dn) junk junk2 junk3 junkS (n_axes nrb) [x] f =
     Ok (fun idx => Evaluate1 (N:=Dn) (a_size A - 1) (a_deg A) (a_knots A) (fun i => f [i]) (v_len x - 1) (v_get x) junk junk (nth 0%nat idx 0%Z))).
  { intros f. unfold py_Evaluate. rewrite (checksD _ W), (lensD _ _ Gd). cbn [check bind]. rewrite EA. reflexivity. }
  assert (EVA : exists g, py_EvaluateAll (N:=Dn) junk junk2 junk3 junkS (n_axes nrb) [x] (n_arr nrb) = Ok g /\
     forall i c, g [i] c = Evaluate1 (N:=Dn) (a_size A - 1) (a_deg A) (a_knots A) (fun j => n_arr nrb [j] c) (v_len x - 1) (v_get x) junk junk i).
  { unfold py_EvaluateAll. rewrite EV. cbn [bind]. eexists. split; [reflexivity|]. intros i c. cbv beta. rewrite EV. reflexivity. }
  destruct EVA as (g & Eg & Hg).
  assert (RES : forall i k c, (0 <= i < v_len x)%Z -> (0 <= k < a_size A)%Z -> (forall j, (k + 1 <= j <= k + a_deg A)%Z -> dval (a_knots A j) = dval (v_get x i)) ->
      (k = (a_size A - 1)%Z \/ dval (v_get x i) < dval (a_knots A (k + a_deg A + 1)%Z)) ->
      (forall j, (0 <= j < a_size A)%Z -> finite (n_arr nrb [j] c) /\ finite (n_arr nrb [j] 3%Z)) -> dval (n_arr nrb [k] 3%Z) = 1 ->
      (dval (n_arr nrb [k] c) = 0 \/ b2 (-900) <= Rabs (dval (n_arr nrb [k] c)) <= b2 900) ->
      is (SFdiv 53 1024 (g [i] c) (g [i] 3%Z)) (dval (n_arr nrb [k] c))).
  { intros i k c Hi Hk KE KL FP W1 MP. rewrite !Hg.
    apply (curve_exact (a_size A - 1) (a_deg A) (a_knots A) (v_get x i) k (mild_of A x i MA MX Hi)); auto; try lia.
    - intros j Hj. apply FP. lia.
    - split; [apply FP; lia|exact MP]. }
  destruct fields; cbn [call_array bind snd]; rewrite Eg; cbn [bind]; do 2 eexists; (split; [reflexivity|split; [reflexivity|]]); cbv zeta; intros; apply RES; auto.
Qed.
