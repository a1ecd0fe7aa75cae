(** Rounding: the operations of the standard library's SpecFloat return the double nearest to the exact
    result.  Used by the double precision theorems. *)
From Coq Require Import ZArith Reals List Bool SpecFloat Lia Lra Psatz.
From Verif Require Import SpecDouble.
Local Open Scope R_scope.

(** ** Powers of two *)
Lemma b2_pos e : 0 < b2 e.
Proof. apply powerRZ_lt. lra. Qed.
Lemma b2_add a b : b2 (a + b) = b2 a * b2 b.
Proof. apply powerRZ_add. lra. Qed.
Lemma b2_1 e : b2 (e + 1) = 2 * b2 e.
Proof. rewrite b2_add. unfold b2 at 2. simpl. lra. Qed.
Lemma b2_0 : b2 0 = 1.
Proof. reflexivity. Qed.
Lemma b2_IZR k : (0 <= k)%Z -> b2 k = IZR (2 ^ k).
Proof.
  intros H. unfold b2. rewrite <- (Z2Nat.id k H) at 1. rewrite <- pow_powerRZ. rewrite <- (Z2Nat.id k H) at 2.
  rewrite <- pow_IZR. reflexivity.
Qed.
Lemma b2_le a b : (a <= b)%Z -> b2 a <= b2 b.
Proof.
  intros H. replace b with (a + (b - a))%Z by lia. rewrite b2_add. pose proof (b2_pos a).
  assert (1 <= b2 (b - a)). { rewrite b2_IZR by lia. apply IZR_le. assert (0 < 2 ^ (b - a))%Z by (apply Z.pow_pos_nonneg; lia). lia. }
  nra.
Qed.
Lemma b2_lt_inv a b : b2 a < b2 b -> (a < b)%Z.
Proof. intros H. destruct (Z_lt_le_dec a b); auto. apply b2_le in l. lra. Qed.

(** ** Where a number lies between two integers *)
Definition loc_ok (m : Z) (l : location) (t : R) : Prop :=
  match l with
  | loc_Exact => t = IZR m
  | loc_Inexact Lt => IZR m < t < IZR m + / 2
  | loc_Inexact Eq => t = IZR m + / 2
  | loc_Inexact Gt => IZR m + / 2 < t < IZR m + 1
  end.
Lemma loc_bounds m l t : loc_ok m l t -> IZR m <= t < IZR m + 1.
Proof. destruct l as [|[]]; simpl; lra. Qed.
Definition rec_ok (r : shr_record) (t : R) : Prop := loc_ok (shr_m r) (loc_of_shr_record r) t.
Lemma rec_of_loc m l t : loc_ok m l t -> rec_ok (shr_record_of_loc m l) t.
Proof. unfold rec_ok. destruct l as [|[]]; simpl; auto. Qed.
Lemma rec_m m l : shr_m (shr_record_of_loc m l) = m.
Proof. destruct l as [|[]]; reflexivity. Qed.
Lemma shr_1_ok r t : (0 <= shr_m r)%Z -> rec_ok r t -> rec_ok (shr_1 r) (t / 2) /\ shr_m (shr_1 r) = (shr_m r / 2)%Z.
Proof.
  destruct r as [m r s]. simpl. intros H0 H. destruct m as [|m|m]; [| |lia].
  - split; [|reflexivity]. unfold rec_ok in *. destruct r, s; simpl in *; lra.
  - destruct m as [m|m|].
    + split; [|cbn [shr_1 shr_m]; apply (Z.div_unique _ 2 (Z.pos m) 1); lia].
      assert (Q : IZR (Z.pos m~1) = 2 * IZR (Z.pos m) + 1) by (rewrite Pos2Z.inj_xI, plus_IZR, mult_IZR; reflexivity).
      unfold rec_ok in *. destruct r, s; cbn [shr_m loc_of_shr_record loc_ok shr_1 orb] in *; rewrite ?Q in H; lra.
    + split; [|cbn [shr_1 shr_m]; apply (Z.div_unique _ 2 (Z.pos m) 0); lia].
      assert (Q : IZR (Z.pos m~0) = 2 * IZR (Z.pos m)) by (rewrite Pos2Z.inj_xO, mult_IZR; reflexivity).
      unfold rec_ok in *. destruct r, s; cbn [shr_m loc_of_shr_record loc_ok shr_1 orb] in *; rewrite ?Q in H; lra.
    + split; [|reflexivity]. unfold rec_ok in *. destruct r, s; simpl in *; lra.
Qed.
Lemma iter_ok p : forall r t, (0 <= shr_m r)%Z -> rec_ok r t ->
  rec_ok (iter_pos shr_1 p r) (t / b2 (Zpos p)) /\ shr_m (iter_pos shr_1 p r) = (shr_m r / 2 ^ Zpos p)%Z.
Proof.
  induction p; intros r t H0 H; cbn [iter_pos].
  - destruct (shr_1_ok r t H0 H) as [A1 M1].
    destruct (IHp (shr_1 r) (t / 2) ltac:(rewrite M1; apply Z.div_pos; lia) A1) as [A2 M2].
    destruct (IHp _ _ ltac:(rewrite M2, M1; apply Z.div_pos; [apply Z.div_pos; lia|apply Z.pow_pos_nonneg; lia]) A2) as [A3 M3].
    assert (0 < 2 ^ Z.pos p)%Z by (apply Z.pow_pos_nonneg; lia).
    split.
    + replace (t / b2 (Z.pos p~1)) with (t / 2 / b2 (Z.pos p) / b2 (Z.pos p)); [exact A3|].
      replace (Z.pos p~1) with ((Z.pos p + Z.pos p) + 1)%Z by lia. rewrite b2_1, b2_add. pose proof (b2_pos (Z.pos p)). field. lra.
    + rewrite M3, M2, M1. rewrite !Z.div_div by lia. f_equal.
      replace (Z.pos p~1) with (1 + (Z.pos p + Z.pos p))%Z by lia. rewrite !Z.pow_add_r by lia. lia.
  - destruct (IHp r t H0 H) as [A2 M2].
    destruct (IHp _ _ ltac:(rewrite M2; apply Z.div_pos; [lia|apply Z.pow_pos_nonneg; lia]) A2) as [A3 M3].
    assert (0 < 2 ^ Z.pos p)%Z by (apply Z.pow_pos_nonneg; lia).
    split.
    + replace (t / b2 (Z.pos p~0)) with (t / b2 (Z.pos p) / b2 (Z.pos p)); [exact A3|].
      replace (Z.pos p~0) with (Z.pos p + Z.pos p)%Z by lia. rewrite b2_add. pose proof (b2_pos (Z.pos p)). field. lra.
    + rewrite M3, M2. rewrite !Z.div_div by lia. f_equal.
      replace (Z.pos p~0) with (Z.pos p + Z.pos p)%Z by lia. rewrite !Z.pow_add_r by lia. lia.
  - destruct (shr_1_ok r t H0 H) as [A1 M1]. split; [|exact M1].
    replace (b2 1) with 2 by (unfold b2; simpl; lra). exact A1.
Qed.
(** Shifting right by k: the same number, at the larger exponent. *)
Lemma shr_ok r e k t : (0 <= k)%Z -> (0 <= shr_m r)%Z -> rec_ok r t ->
  exists r', shr r e k = (r', (e + k)%Z) /\ rec_ok r' (t / b2 k) /\ shr_m r' = (shr_m r / 2 ^ k)%Z.
Proof.
  intros Hk H0 H. destruct k as [|k|k]; [| |lia].
  - exists r. split; [cbn; f_equal; lia|]. split; [rewrite b2_0; replace (t / 1) with t by field; exact H|]. simpl. rewrite Z.div_1_r. reflexivity.
  - destruct (iter_ok k r t H0 H) as [A M]. exists (iter_pos shr_1 k r). auto.
Qed.
Lemma rne_ok m l t : (0 <= m)%Z -> loc_ok m l t -> let M := round_nearest_even m l in
  Rabs (IZR M - t) <= / 2 /\ (m <= M <= m + 1)%Z /\ (l = loc_Exact -> M = m) /\ (Rabs (IZR M - t) = / 2 -> Z.even M = true).
Proof.
  intros H0 H. destruct l as [|[]]; simpl in *.
  - rewrite H. replace (IZR m - IZR m) with 0 by lra. rewrite Rabs_R0. split; [lra|]. split; [lia|]. split; [auto|lra].
  - destruct (Z.even m) eqn:EV; (split; [|split; [lia|split; [discriminate|]]]); rewrite ?plus_IZR; try (unfold Rabs; destruct (Rcase_abs _); lra).
    + intros _. exact EV.
    + intros _. rewrite Z.even_add, EV. reflexivity.
  - split; [|split; [lia|split; [discriminate|]]]; unfold Rabs; destruct (Rcase_abs _); lra.
  - split; [|split; [lia|split; [discriminate|]]]; rewrite plus_IZR; unfold Rabs; destruct (Rcase_abs _); lra.
Qed.

(** ** Digits *)
Lemma digits_range m : (0 < m)%Z -> (2 ^ (Zdigits2 m - 1) <= m < 2 ^ Zdigits2 m)%Z /\ (1 <= Zdigits2 m)%Z.
Proof.
  intros H. destruct m as [|m|m]; try lia. cbn [Zdigits2].
  assert (K : forall m, (2 ^ (Zpos (digits2_pos m) - 1) <= Zpos m < 2 ^ Zpos (digits2_pos m))%Z).
  { clear. induction m; cbn [digits2_pos]; rewrite ?Pos2Z.inj_succ.
    - replace (Z.succ (Z.pos (digits2_pos m)) - 1)%Z with (Z.succ (Z.pos (digits2_pos m) - 1))%Z by lia. rewrite !Z.pow_succ_r by lia. lia.
    - replace (Z.succ (Z.pos (digits2_pos m)) - 1)%Z with (Z.succ (Z.pos (digits2_pos m) - 1))%Z by lia. rewrite !Z.pow_succ_r by lia. lia.
    - simpl. lia. }
  split; [apply K|lia].
Qed.
Lemma digits_unique m d : (1 <= d)%Z -> (2 ^ (d - 1) <= m < 2 ^ d)%Z -> Zdigits2 m = d.
Proof.
  intros Hd [H1 H2]. assert (0 < 2 ^ (d - 1))%Z by (apply Z.pow_pos_nonneg; lia). assert (Hm : (0 < m)%Z) by lia.
  destruct (digits_range m Hm) as [[D1 D2] D3].
  destruct (Z_lt_le_dec (Zdigits2 m) d).
  - assert (2 ^ Zdigits2 m <= 2 ^ (d - 1))%Z by (apply Z.pow_le_mono_r; lia). lia.
  - destruct (Z.eq_dec (Zdigits2 m) d); auto. assert (2 ^ d <= 2 ^ (Zdigits2 m - 1))%Z by (apply Z.pow_le_mono_r; lia). lia.
Qed.
Lemma digits_le m d : (0 <= m)%Z -> (0 <= d)%Z -> (m < 2 ^ d)%Z -> (Zdigits2 m <= d)%Z.
Proof.
  intros H0 Hd H. destruct (Z.eq_dec m 0) as [->|]; [simpl; lia|]. destruct (digits_range m ltac:(lia)) as [[D1 D2] D3].
  destruct (Z_le_gt_dec (Zdigits2 m) d); auto. assert (2 ^ d <= 2 ^ (Zdigits2 m - 1))%Z by (apply Z.pow_le_mono_r; lia). lia.
Qed.
Definition fe (x : Z) : Z := Z.max (x - 53) (-1074).
Lemma fexp_fe x : fexp 53 1024 x = fe x.
Proof. reflexivity. Qed.

(** ** The rounding step *)
Definition sg (s : bool) : R := if s then -1 else 1.
Lemma sg_abs s y : Rabs (sg s * y) = Rabs y.
Proof. unfold sg. rewrite Rabs_mult. replace (Rabs (if s then -1 else 1)) with 1; [lra|]. destruct s; [rewrite Rabs_left by lra|rewrite Rabs_right by lra]; lra. Qed.
(** y is the double nearest to x >= 0, the even one in the middle between two. *)
Definition near (x y : R) : Prop := exists E M : Z, (-1074 <= E)%Z /\ x < b2 (E + 53) /\ ((E <> -1074)%Z -> b2 (E + 52) <= x) /\
  y = IZR M * b2 E /\ Rabs (IZR M - x / b2 E) <= / 2 /\ (Rabs (IZR M - x / b2 E) = / 2 -> Z.even M = true).
Lemma round_aux s m e l x : (0 <= m)%Z -> loc_ok m l (x / b2 e) -> let E := fe (Zdigits2 m + e) in
  (e <= E)%Z -> x < b2 1023 ->
  let r := binary_round_aux 53 1024 s m e l in
  finite r /\ exists y, dval r = sg s * y /\ 0 <= y /\ Rabs (y - x) <= b2 (E - 1) /\ (e = E -> l = loc_Exact -> y = x) /\
    (match r with S754_zero b | S754_finite b _ _ => b = s | _ => True end) /\ ((r = S754_zero s) \/ 0 < y) /\ near x y.
Proof.
  intros H0 HL E HE HX r. pose proof (b2_pos e) as Pe. pose proof (b2_pos E) as PE.
  unfold r, binary_round_aux, shr_fexp. rewrite fexp_fe. fold E.
  destruct (shr_ok (shr_record_of_loc m l) e (E - e) _ ltac:(lia) ltac:(rewrite rec_m; lia) (rec_of_loc _ _ _ HL)) as (r1 & E1 & A1 & M1).
  rewrite E1. replace (e + (E - e))%Z with E by lia. rewrite rec_m in M1.
  assert (Et : x / b2 e / b2 (E - e) = x / b2 E).
  { replace E with (e + (E - e))%Z at 2 by lia. rewrite b2_add. pose proof (b2_pos (E - e)). field. split; lra. }
  rewrite Et in A1. unfold rec_ok in A1.
  assert (P2 : (0 < 2 ^ (E - e))%Z) by (apply Z.pow_pos_nonneg; lia).
  assert (M0 : (0 <= shr_m r1)%Z) by (rewrite M1; apply Z.div_pos; lia).
  destruct (rne_ok _ _ _ M0 A1) as (B1 & B2 & B3 & B4).
  set (M := round_nearest_even (shr_m r1) (loc_of_shr_record r1)) in *.
  (* size of the mantissa *)
  assert (Hlt : (shr_m r1 < 2 ^ 53)%Z).
  { rewrite M1. apply Z.div_lt_upper_bound; [lia|]. rewrite <- Z.pow_add_r by lia.
    destruct (Z.eq_dec m 0) as [->|]; [apply Z.pow_pos_nonneg; lia|].
    destruct (digits_range m ltac:(lia)) as [[_ D2] _].
    apply Z.lt_le_trans with (2 ^ Zdigits2 m)%Z; [exact D2|]. apply Z.pow_le_mono_r; [lia|]. unfold E, fe. lia. }
  assert (Hge : (E <> -1074)%Z -> (2 ^ 52 <= shr_m r1)%Z).
  { intros HnE. assert (EE : E = (Zdigits2 m + e - 53)%Z) by (unfold E, fe in *; lia).
    assert (0 < m)%Z by (destruct (Z.eq_dec m 0) as [->|]; [simpl in EE; lia|lia]).
    destruct (digits_range m ltac:(lia)) as [[D1 _] D3]. rewrite M1. apply Z.div_le_lower_bound; [lia|].
    rewrite <- Z.pow_add_r by lia. replace (E - e + 52)%Z with (Zdigits2 m - 1)%Z by lia. exact D1. }
  assert (EGe : (-1074 <= E)%Z) by (unfold E, fe; lia).
  (* no overflow *)
  assert (XL : IZR (shr_m r1) * b2 E <= x).
  { apply loc_bounds in A1. assert (IZR (shr_m r1) * b2 E <= x / b2 E * b2 E) by (apply Rmult_le_compat_r; lra).
    replace (x / b2 E * b2 E) with x in H by (field; lra). exact H. }
  assert (NoOv : (E <= 971)%Z /\ (E = 971 -> M < 2 ^ 53)%Z).
  { split.
    - destruct (Z_le_gt_dec E 971) as [|G]; auto. exfalso. specialize (Hge ltac:(lia)).
      assert (b2 52 * b2 972 <= x).
      { apply Rle_trans with (2 := XL). apply Rmult_le_compat; [left; apply b2_pos|left; apply b2_pos| |apply b2_le; lia].
        rewrite b2_IZR by lia. apply IZR_le. exact Hge. }
      rewrite <- b2_add in H. assert (b2 1023 <= b2 (52 + 972)) by (apply b2_le; lia). lra.
    - intros ->. destruct (Z_lt_le_dec M (2 ^ 53)) as [|G]; auto. exfalso.
      assert (b2 52 * b2 971 <= x).
      { apply Rle_trans with (2 := XL). apply Rmult_le_compat_r; [left; apply b2_pos|]. rewrite b2_IZR by lia. apply IZR_le. lia. }
      rewrite <- b2_add in H. replace (52 + 971)%Z with 1023%Z in H by lia. lra. }
  (* the result is M * 2^E *)
  assert (NR : near x (IZR M * b2 E)).
  { exists E, M. split; [exact EGe|]. pose proof (loc_bounds _ _ _ A1) as LB. assert (XE : x = x / b2 E * b2 E) by (field; lra).
    split; [|split; [|auto]].
    - rewrite Z.add_comm, b2_add, XE. apply Rmult_lt_compat_r; [exact PE|]. rewrite (b2_IZR 53) by lia. apply Rlt_le_trans with (1 := proj2 LB). rewrite <- plus_IZR. apply IZR_le. lia.
    - intros Q. specialize (Hge Q). rewrite Z.add_comm, b2_add. rewrite XE at 1. apply Rmult_le_compat_r; [lra|]. rewrite (b2_IZR 52) by lia. apply Rle_trans with (2 := proj1 LB). apply IZR_le. exact Hge. }
  assert (Herr : Rabs (IZR M * b2 E - x) <= b2 (E - 1)).
  { replace (IZR M * b2 E - x) with ((IZR M - x / b2 E) * b2 E) by (field; lra). rewrite Rabs_mult, (Rabs_right (b2 E)) by lra.
    replace (b2 (E - 1)) with (/ 2 * b2 E); [apply Rmult_le_compat_r; lra|].
    replace E with (E - 1 + 1)%Z at 1 by lia. rewrite b2_1. field. }
  assert (Hex : e = E -> l = loc_Exact -> IZR M * b2 E = x).
  { intros Q1 Q2. assert (EM : M = m).
    { unfold M. rewrite <- Q1, Z.sub_diag in E1. cbn in E1. injection E1 as E1 _. rewrite <- E1, Q2. reflexivity. }
    rewrite EM, <- Q1. rewrite Q2 in HL. cbn in HL. rewrite <- HL. field. lra. }
  assert (Msig : forall s' (m'' : positive) e'', IZR (Zpos m'') * b2 e'' = IZR M * b2 E -> dval (S754_finite s' m'' e'') = sg s' * (IZR M * b2 E)).
  { intros s' m'' e'' Q. unfold dval, sg. rewrite <- Q. ring. }
  destruct (Z.eq_dec M (2 ^ 53)) as [EM|NM].
  - (* carry *)
    assert (DM : Zdigits2 M = 54%Z) by (rewrite EM; reflexivity).
    destruct (shr_ok (shr_record_of_loc M loc_Exact) E 1 (IZR M) ltac:(lia) ltac:(rewrite rec_m; lia) (rec_of_loc _ loc_Exact _ eq_refl)) as (r2 & E2 & A2 & M2).
    rewrite fexp_fe, DM. replace (fe (54 + E) - E)%Z with 1%Z by (unfold fe; lia). rewrite E2. rewrite rec_m in M2.
    rewrite M2, EM. replace (2 ^ 53 / 2 ^ 1)%Z with (Zpos 4503599627370496) by reflexivity.
    destruct NoOv as [N1 N2]. assert (E <> 971%Z) by (intros Q; specialize (N2 Q); lia).
    replace (E + 1 <=? 1024 - 53)%Z with true by (symmetry; apply Z.leb_le; lia).
    assert (V : IZR (Z.pos 4503599627370496) * b2 (E + 1) = IZR M * b2 E).
    { rewrite b2_1, EM. replace (2 ^ 53)%Z with (4503599627370496 * 2)%Z by reflexivity. rewrite mult_IZR. ring. }
    split.
    + split; [|exact I]. unfold valid_binary, bounded, canonical_mantissa. rewrite fexp_fe. change (Z.pos (digits2_pos 4503599627370496)) with 53%Z.
      apply andb_true_intro. split; [|apply Z.leb_le; lia]. apply Zeq_is_eq_bool. unfold fe. lia.
    + exists (IZR M * b2 E). split; [apply Msig; exact V|]. split; [rewrite <- V; apply Rmult_le_pos; [apply IZR_le; lia|left; apply b2_pos]|].
      split; [exact Herr|]. split; [exact Hex|]. split; [reflexivity|]. split; [|exact NR]. right. rewrite EM. apply Rmult_lt_0_compat; [apply IZR_lt; reflexivity|exact PE].
  - assert (ML : (M < 2 ^ 53)%Z) by lia.
    assert (DM : (Zdigits2 M <= 53)%Z) by (apply digits_le; lia).
    assert (ES : (shr (shr_record_of_loc M loc_Exact) E (fe (Zdigits2 M + E) - E)) = (shr_record_of_loc M loc_Exact, E)).
    { destruct (fe (Zdigits2 M + E) - E)%Z eqn:Q; try reflexivity. unfold fe in Q. lia. }
    rewrite fexp_fe, ES. rewrite rec_m. destruct M as [|M'|M'] eqn:QM; [| |lia].
    + split; [split; [reflexivity|exact I]|]. exists 0. rewrite Rmult_0_l in Herr, Hex, NR. cbn [dval]. split; [lra|]. split; [lra|]. split; [exact Herr|]. split; [exact Hex|]. split; [reflexivity|]. split; [auto|exact NR].
    + destruct NoOv as [N1 N2].
      replace (E <=? 1024 - 53)%Z with true by (symmetry; apply Z.leb_le; lia).
      split.
      * split; [|exact I]. unfold valid_binary, bounded, canonical_mantissa. rewrite fexp_fe.
        apply andb_true_intro. split; [|apply Z.leb_le; lia]. apply Zeq_is_eq_bool.
        destruct (Z.eq_dec E (-1074)) as [Q|Q]; [cbn in DM; unfold fe; lia|].
        specialize (Hge Q). assert (Q2 : Zdigits2 (Z.pos M') = 53%Z) by (apply digits_unique; [lia|]; split; [simpl (53 - 1)%Z; lia|lia]).
        cbn in Q2. unfold fe. lia.
      * exists (IZR (Z.pos M') * b2 E). split; [apply Msig; reflexivity|]. assert (0 < IZR (Z.pos M') * b2 E) by (apply Rmult_lt_0_compat; [apply IZR_lt; lia|exact PE]).
        split; [lra|]. split; [exact Herr|]. split; [exact Hex|]. split; [reflexivity|]. split; [auto|exact NR].
Qed.
