(** The quadrature tables: transfer of an integer computation to the reals. *)
From Coq Require Import ZArith Reals List Bool Lia Lra Sorted.
From Verif Require Import Num Loop ModelBspline ModelBSp ModelNurbs ModelIga Spec.
Import ListNotations.
Local Open Scope R_scope.

(** Numerators over 10^36: the carrier in which dividing by the common denominator is the
    identity. *)
Definition Zs : Num := mkNum Z 0%Z 1%Z Z.add Z.sub Z.mul (fun a _ => a) Z.leb Z.ltb Z.eqb 0%Z (fun z => z).
Definition D36 : Z := 1000000000000000000000000000000000000%Z.
Definition z2r (z : Z) : R := IZR z / IZR D36.
Fixpoint momZ (l w : list Z) (k : nat) : Z :=
  match l, w with x :: l', v :: w' => (v * x ^ Z.of_nat k + momZ l' w' k)%Z | _, _ => 0%Z end.
(** Sum of w_i x_i^k. *)
Fixpoint momR (l w : list R) (k : nat) : R :=
  match l, w with x :: l', v :: w' => v * x ^ k + momR l' w' k | _, _ => 0 end.
Lemma D36_pos : 0 < IZR D36.
Proof. apply IZR_lt. reflexivity. Qed.
Lemma mom_z2r l : forall w k, momR (map z2r l) (map z2r w) k = IZR (momZ l w k) / IZR D36 ^ S k.
Proof.
  pose proof D36_pos as HD. set (D := IZR D36) in *.
  induction l; intros [|v w] k; cbn [momR momZ map]; try (unfold Rdiv; rewrite Rmult_0_l; reflexivity).
  rewrite plus_IZR, mult_IZR, <- pow_IZR, IHl. unfold z2r. fold D. clearbody D. unfold Rdiv. rewrite Rpow_mult_distr, pow_inv.
  simpl. assert (D ^ k <> 0) by (apply pow_nonzero; lra). field. split; auto. lra.
Qed.
Lemma dec_R z : dec (N:=Rn) z = z2r (dec (N:=Zs) z).
Proof. reflexivity. Qed.
Lemma opp_R x : opp (N:=Rn) (z2r x) = z2r (opp (N:=Zs) x).
Proof. unfold opp, z2r. cbn [nsub n0 Rn Zs]. rewrite minus_IZR. unfold Rdiv. cbn [T Rn]. ring. Qed.
Definition rule_ok (q : Z) (leg : bool) : bool := if leg then (1 <=? q)%Z && (q <=? 10)%Z else (2 <=? q)%Z && (q <=? 10)%Z.
Definition rule (N : Num) (leg : bool) (q : Z) : list N * list N := if leg then GaussLegendreRule (N:=N) q else GaussLobattoRule (N:=N) q.
Lemma q_cases leg q : rule_ok q leg = true -> In q [1;2;3;4;5;6;7;8;9;10]%Z.
Proof.
  intros H. assert (1 <= q <= 10)%Z. { destruct leg; simpl in H; apply andb_prop in H; destruct H as [H1 H2]; apply Z.leb_le in H1, H2; lia. }
  destruct (Z.eq_dec q 1) as [->|]; [simpl; tauto|].
  destruct (Z.eq_dec q 2) as [->|]; [simpl; tauto|]. destruct (Z.eq_dec q 3) as [->|]; [simpl; tauto|].
  destruct (Z.eq_dec q 4) as [->|]; [simpl; tauto|]. destruct (Z.eq_dec q 5) as [->|]; [simpl; tauto|].
  destruct (Z.eq_dec q 6) as [->|]; [simpl; tauto|]. destruct (Z.eq_dec q 7) as [->|]; [simpl; tauto|].
  destruct (Z.eq_dec q 8) as [->|]; [simpl; tauto|]. destruct (Z.eq_dec q 9) as [->|]; [simpl; tauto|].
  assert (q = 10)%Z as -> by lia. simpl; tauto.
Qed.
Lemma oppdec_R z : opp (N:=Rn) (dec (N:=Rn) z) = z2r (opp (N:=Zs) (dec (N:=Zs) z)).
Proof. etransitivity; [|apply opp_R]. f_equal. Qed.
Lemma cons_eq (a b : R) l l' : a = b -> l = l' -> a :: l = b :: l'.
Proof. congruence. Qed.
Lemma pair_eq (l l' w w' : list R) : l = l' -> w = w' -> (l, w) = (l', w').
Proof. congruence. Qed.
Ltac listeq := repeat (apply cons_eq; [lazymatch goal with |- opp (dec ?z) = _ => exact (oppdec_R z) | |- dec ?z = _ => exact (dec_R z) end|]); exact eq_refl.
Lemma rule_R leg q : rule_ok q leg = true ->
  rule Rn leg q = (map z2r (fst (rule Zs leg q)), map z2r (snd (rule Zs leg q))).
Proof.
  intros H. pose proof (q_cases _ _ H) as C. 
  simpl in C. destruct leg; repeat (destruct C as [<-|C]; [try discriminate H;
    cbn [rule GaussLegendreRule GaussLobattoRule fst snd map]; apply pair_eq; listeq|]); destruct C.
Qed.
(** |mom - exact| <= 10^-34, multiplied out; exact is 2/(k+1) for even k and 0 for odd k. *)
Definition mom_ok (l w : list Z) (k : nat) : Prop :=
  (Z.abs (momZ l w k * Z.of_nat (S k) - (if Nat.even k then 2 else 0) * D36 ^ Z.of_nat (S k)) * 10 ^ 34 <= Z.of_nat (S k) * D36 ^ Z.of_nat (S k))%Z.
(** The check actually computed: only the first half of the symmetric table, only even powers,
    each power from the previous one. *)
Fixpoint mul2 (a b : list Z) : list Z := match a, b with x :: a', y :: b' => (x * y)%Z :: mul2 a' b' | _, _ => [] end.
Fixpoint sumL (l : list Z) : Z := match l with [] => 0%Z | x :: l' => (x + sumL l')%Z end.
Definition DD : Z := 1000000000000000000000000000000000000000000000000000000000000000000000000%Z.
Definition T34 : Z := 10000000000000000000000000000000000%Z.
Fixpoint chk (n : nat) (ts Xs : list Z) (m D c : Z) : bool :=
  match n with O => true | S n' =>
    ((Z.abs ((2 * sumL ts + m) * c - 2 * D) * T34 <=? c * D) && chk n' (mul2 ts Xs) Xs 0 (D * DD) (c + 2))%Z end.
Fixpoint eqL (a b : list Z) : bool := match a, b with [], [] => true | x :: a', y :: b' => (x =? y)%Z && eqL a' b' | _, _ => false end.
Definition moments_ok (leg : bool) (q : Z) : bool :=
  let l : list Z := fst (rule Zs leg q) in let w : list Z := snd (rule Zs leg q) in let k := Z.to_nat (q / 2) in
  let h := firstn k l in let hw := firstn k w in let odd := Z.odd q in
  let mid := if odd then [0%Z] else [] in let v := nth k w 0%Z in
  (length h =? length hw)%nat && eqL l (h ++ mid ++ map Z.opp (rev h)) && eqL w (hw ++ (if odd then [v] else []) ++ rev hw) &&
  chk (Z.to_nat (if leg then q else q - 1)) hw (map (fun x => x * x)%Z h) (if odd then v else 0%Z) D36 1.
Fixpoint sumpow (ts Xs : list Z) (j : nat) : Z := match ts, Xs with t :: ts', X :: Xs' => (t * X ^ Z.of_nat j + sumpow ts' Xs' j)%Z | _, _ => 0%Z end.
Lemma sumpow_S ts : forall Xs j, sumpow (mul2 ts Xs) Xs j = sumpow ts Xs (S j).
Proof. induction ts as [|t ts IH]; intros [|X Xs] j; auto. cbn [mul2 sumpow]. rewrite IH, Nat2Z.inj_succ, Z.pow_succ_r by lia. ring. Qed.
Lemma sumpow_0 ts : forall Xs, length ts = length Xs -> sumpow ts Xs 0 = sumL ts.
Proof. induction ts as [|t ts IH]; intros [|X Xs] H; try discriminate; auto. cbn [sumpow sumL]. rewrite IH by (simpl in H; lia). simpl Z.of_nat. rewrite Z.pow_0_r. ring. Qed.
Lemma mul2_len ts : forall Xs, length ts = length Xs -> length (mul2 ts Xs) = length Xs.
Proof. induction ts as [|t ts IH]; intros [|X Xs] H; try discriminate; auto. simpl in *. rewrite IH; lia. Qed.
Lemma chk_ok n : forall ts Xs m D c, length ts = length Xs -> chk n ts Xs m D c = true -> forall j, (j < n)%nat ->
  let c' := (c + 2 * Z.of_nat j)%Z in let D' := (D * DD ^ Z.of_nat j)%Z in
  (Z.abs ((2 * sumpow ts Xs j + (if Nat.eqb j 0 then m else 0)) * c' - 2 * D') * T34 <= c' * D')%Z.
Proof.
  induction n; intros ts Xs m D c Hl H j Hj; [lia|]. cbn [chk] in H. apply andb_prop in H. destruct H as [H1 H2]. destruct j.
  - cbv zeta. rewrite sumpow_0 by auto. cbn [Nat.eqb]. change (Z.of_nat 0) with 0%Z. rewrite Z.mul_0_r, Z.add_0_r, Z.pow_0_r, Z.mul_1_r.
    apply Z.leb_le. exact H1.
  - specialize (IHn (mul2 ts Xs) Xs 0%Z (D * DD)%Z (c + 2)%Z (mul2_len _ _ Hl) H2 j ltac:(lia)). cbv zeta in *. rewrite sumpow_S in IHn. cbn [Nat.eqb].
    rewrite Nat2Z.inj_succ, Z.pow_succ_r by lia. replace (if Nat.eqb j 0 then 0 else 0)%Z with 0%Z in IHn by (destruct (Nat.eqb j 0); auto).
    replace (c + 2 * Z.succ (Z.of_nat j))%Z with (c + 2 + 2 * Z.of_nat j)%Z by lia.
    replace (D * (DD * DD ^ Z.of_nat j))%Z with (D * DD * DD ^ Z.of_nat j)%Z by ring. exact IHn.
Qed.
Lemma eqL_eq a : forall b, eqL a b = true -> a = b.
Proof. induction a; intros [|y b] H; try discriminate; auto. simpl in H. apply andb_prop in H. destruct H as [H1 H2]. apply Z.eqb_eq in H1. subst. f_equal. auto. Qed.
Lemma momZ_app a : forall b c d k, length a = length c -> momZ (a ++ b) (c ++ d) k = (momZ a c k + momZ b d k)%Z.
Proof. induction a; intros b [|v c] d k H; try discriminate; auto. cbn [momZ app]. rewrite IHa by (simpl in H; lia). ring. Qed.
Lemma momZ_mirror h : forall hw k, length h = length hw -> momZ (map Z.opp (rev h)) (rev hw) k = ((-1) ^ Z.of_nat k * momZ h hw k)%Z.
Proof.
  induction h; intros [|v hw] k H; try discriminate; [simpl; ring|]. cbn [rev]. rewrite map_app, momZ_app.
  2: { rewrite map_length, !rev_length. simpl in H. lia. }
  rewrite IHh by (simpl in H; lia). cbn [map momZ]. replace (- a)%Z with (-1 * a)%Z by ring. rewrite Z.pow_mul_l. ring.
Qed.
Lemma momZ_even h : forall hw j, momZ h hw (2 * j) = sumpow hw (map (fun x => x * x)%Z h) j.
Proof.
  induction h; intros [|v hw] j; auto. cbn [momZ sumpow map]. rewrite IHh. f_equal. f_equal. rewrite Z.pow_mul_l, <- Z.pow_add_r by lia. f_equal. lia.
Qed.
Lemma moments_use leg q k : moments_ok leg q = true -> (k < Z.to_nat (if leg then 2 * q else 2 * q - 2))%nat ->
  mom_ok (fst (rule Zs leg q)) (snd (rule Zs leg q)) k.
Proof.
  intros H Hk. unfold moments_ok in H. cbv zeta in H. revert H. generalize (fst (rule Zs leg q)) (snd (rule Zs leg q)). cbn [T Zs]. intros l w H.
  set (h := firstn _ l) in *. set (hw := firstn _ w) in *. set (v := nth _ w _) in *. rewrite !andb_true_iff in H. destruct H as [[[H1 H2] H3] H4].
  apply Nat.eqb_eq in H1. apply eqL_eq in H2, H3. unfold mom_ok. rewrite H2, H3. clearbody h hw v. clear H2 H3 l w.
  set (odd := Z.odd q) in *.
  assert (E : momZ (h ++ (if odd then [0%Z] else []) ++ map Z.opp (rev h)) (hw ++ (if odd then [v] else []) ++ rev hw) k
    = ((1 + (-1) ^ Z.of_nat k) * momZ h hw k + (if Nat.eqb k 0 then (if odd then v else 0) else 0))%Z).
  { rewrite !momZ_app, momZ_mirror by (auto; destruct odd; reflexivity). destruct odd.
    - cbn [momZ]. destruct k; [simpl Nat.eqb; cbv iota; change (Z.of_nat 0) with 0%Z; rewrite !Z.pow_0_r; ring|].
      rewrite (Z.pow_0_l (Z.of_nat (S k))) by lia. cbn [Nat.eqb]. ring.
    - cbn [momZ]. destruct (Nat.eqb k 0); ring. }
  rewrite E. clear E.
  assert (HD : (0 <= D36 ^ Z.of_nat (S k))%Z) by (apply Z.pow_nonneg; discriminate).
  destruct (Nat.even k) eqn:Ek.
  - apply Nat.even_spec in Ek. destruct Ek as [j ->].
    assert (Hl : length hw = length (map (fun x => x * x)%Z h)) by (rewrite map_length; auto).
    pose proof (chk_ok _ _ _ _ _ _ Hl H4 j ltac:(destruct leg; lia)) as G. cbv zeta in G.
    rewrite momZ_even. set (S := sumpow _ _ _) in *. clearbody S.
    replace ((-1) ^ Z.of_nat (2 * j))%Z with 1%Z.
    2: { replace (Z.of_nat (2 * j)) with (2 * Z.of_nat j)%Z by lia. rewrite Z.pow_mul_r by lia. change ((-1) ^ 2)%Z with 1%Z. symmetry. apply Z.pow_1_l. lia. }
    replace (Nat.eqb (2 * j) 0) with (Nat.eqb j 0) by (destruct j; reflexivity).
    replace (D36 ^ Z.of_nat (Datatypes.S (2 * j)))%Z with (D36 * DD ^ Z.of_nat j)%Z.
    2: { replace (Z.of_nat (Datatypes.S (2 * j))) with (1 + 2 * Z.of_nat j)%Z by lia. rewrite Z.pow_add_r, Z.pow_1_r, Z.pow_mul_r by lia. reflexivity. }
    replace (Z.of_nat (Datatypes.S (2 * j))) with (1 + 2 * Z.of_nat j)%Z by lia. change (10 ^ 34)%Z with T34.
    replace (1 + 1)%Z with 2%Z by reflexivity. exact G.
  - replace ((-1) ^ Z.of_nat k)%Z with (-1)%Z.
    2: { assert (Ho : Nat.odd k = true) by (unfold Nat.odd; rewrite Ek; reflexivity). apply Nat.odd_spec in Ho. destruct Ho as [j ->].
         replace (Z.of_nat (2 * j + 1)) with (2 * Z.of_nat j + 1)%Z by lia. rewrite Z.pow_add_r, Z.pow_mul_r by lia. change ((-1) ^ 2)%Z with 1%Z.
         rewrite Z.pow_1_l by lia. reflexivity. }
    destruct k; [discriminate|]. cbn [Nat.eqb]. change (1 + -1)%Z with 0%Z. set (Dp := (D36 ^ _)%Z) in *. clearbody Dp. match goal with |- (Z.abs ?x * _ <= _)%Z => replace x with 0%Z by ring end. change (Z.abs 0) with 0%Z. rewrite Z.mul_0_l. apply Z.mul_nonneg_nonneg; lia.
Qed.
Definition points_ok (leg : bool) (q : Z) : bool :=
  let l : list Z := fst (rule Zs leg q) in let w : list Z := snd (rule Zs leg q) in
  (length l =? Z.to_nat q)%nat && (length w =? Z.to_nat q)%nat &&
  forallb (fun i : nat => (nth i l 0 =? - nth (Z.to_nat q - 1 - i) l 0)%Z && (nth i w 0 =? nth (Z.to_nat q - 1 - i) w 0)%Z &&
     (0 <? nth i w 0)%Z && (if leg then (- D36 <? nth i l 0)%Z && (nth i l 0 <? D36)%Z
       else (- D36 <=? nth i l 0)%Z && (nth i l 0 <=? D36)%Z)) (seq 0 (Z.to_nat q)) &&
  forallb (fun i : nat => (nth i l 0 <? nth (S i) l 0)%Z) (seq 0 (Z.to_nat q - 1)) &&
  (if leg then true else (nth 0 l 0 =? - D36)%Z).
Lemma tables_checked leg q : rule_ok q leg = true -> moments_ok leg q = true /\ points_ok leg q = true.
Proof.
  intros H. pose proof (q_cases _ _ H) as C. 
  simpl in C. destruct leg; repeat (destruct C as [<-|C]; [try discriminate H; split; vm_compute; reflexivity|]); destruct C.
Qed.

(** A polynomial by its coefficients, the sum of the absolute values of the coefficients, and
    the quadrature sum. *)
Fixpoint poly (c : list R) (x : R) : R := match c with [] => 0 | a :: c' => a + x * poly c' x end.
Fixpoint norm1 (c : list R) : R := match c with [] => 0 | a :: c' => Rabs a + norm1 c' end.
Fixpoint quad (l w : list R) (f : R -> R) : R :=
  match l, w with x :: l', v :: w' => v * f x + quad l' w' f | _, _ => 0 end.

Definition exactR (k : nat) : R := if Nat.even k then 2 / INR (S k) else 0.
Lemma mom_bound leg q k : rule_ok q leg = true -> (k < Z.to_nat (if leg then 2 * q else 2 * q - 2))%nat ->
  Rabs (momR (fst (rule Rn leg q)) (snd (rule Rn leg q)) k - exactR k) <= / 10 ^ 34.
Proof.
  intros H Hk. rewrite rule_R by auto. cbn [fst snd]. rewrite mom_z2r.
  destruct (tables_checked leg q H) as [M _]. apply (moments_use leg q k) in M; auto. unfold mom_ok in M.
  set (mm := momZ _ _ _) in *. clearbody mm. apply IZR_le in M. rewrite !mult_IZR, abs_IZR, minus_IZR, !mult_IZR, <- !pow_IZR, <- INR_IZR_INZ in M.
  change (10 ^ 34)%Z with (10 ^ Z.of_nat 34)%Z in M. rewrite <- pow_IZR in M.
  pose proof D36_pos as HD. set (D := IZR D36) in *. clearbody D.
  assert (HDk : 0 < D ^ S k) by (apply pow_lt; auto). set (Dk := D ^ S k) in *. clearbody Dk.
  assert (HT : 0 < 10 ^ 34) by (apply pow_lt; lra). set (TT := 10 ^ 34) in *. clearbody TT.
  assert (HS : 0 < INR (S k)) by (apply lt_0_INR; lia). set (s := INR (S k)) in *.
  replace (IZR mm / Dk - exactR k) with ((IZR mm * s - IZR (if Nat.even k then 2 else 0) * Dk) * / (s * Dk)).
  2: { unfold exactR. fold s. clearbody s. destruct (Nat.even k); field; lra. }
  clearbody s. rewrite Rabs_mult, (Rabs_right (/ (s * Dk))).
  2: { apply Rle_ge. left. apply Rinv_0_lt_compat. nra. }
  apply (Rmult_le_reg_r (TT * (s * Dk))); [apply Rmult_lt_0_compat; [auto|apply Rmult_lt_0_compat; auto]|].
  replace (Rabs (IZR mm * s - IZR (if Nat.even k then 2 else 0) * Dk) * / (s * Dk) * (TT * (s * Dk)))
    with (Rabs (IZR mm * s - IZR (if Nat.even k then 2 else 0) * Dk) * TT) by (field; lra).
  replace (/ TT * (TT * (s * Dk))) with (s * Dk) by (field; lra). exact M.
Qed.

Fixpoint pk (k : nat) (c : list R) (x : R) : R := match c with [] => 0 | a :: c' => a * x ^ k + pk (S k) c' x end.
Lemma pk_poly c : forall k x, pk k c x = x ^ k * poly c x.
Proof. induction c; intros; simpl; [ring|]. rewrite IHc. simpl. ring. Qed.
Fixpoint exact_from (k : nat) (c : list R) : R := match c with [] => 0 | a :: c' => a * exactR k + exact_from (S k) c' end.
Lemma quad_ext l : forall w f g, (forall x, f x = g x) -> quad l w f = quad l w g.
Proof. induction l; intros [|v w] f g H; simpl; auto. rewrite H, (IHl w f g); auto. Qed.
Lemma quad_plus l : forall w a k g, quad l w (fun x => a * x ^ k + g x) = a * momR l w k + quad l w g.
Proof. induction l as [|x l IH]; intros [|v w] a0 k g; simpl; try ring. rewrite IH. ring. Qed.
Lemma quad_zero l : forall w, quad l w (fun _ => 0) = 0.
Proof. induction l; intros [|v w]; simpl; auto. rewrite IHl. ring. Qed.
Lemma quad_pk leg q c : forall k, rule_ok q leg = true -> (k + length c <= Z.to_nat (if leg then 2 * q else 2 * q - 2))%nat ->
  Rabs (quad (fst (rule Rn leg q)) (snd (rule Rn leg q)) (pk k c) - exact_from k c) <= / 10 ^ 34 * norm1 c.
Proof.
  induction c as [|a c IH]; intros k H Hk.
  - cbn [exact_from norm1]. change (pk k []) with (fun _ : R => 0). rewrite quad_zero. rewrite Rminus_diag_eq, Rabs_R0 by auto. lra.
  - cbn [exact_from norm1]. change (pk k (a :: c)) with (fun x => a * x ^ k + pk (S k) c x). rewrite quad_plus.
    simpl length in Hk. pose proof (mom_bound leg q k H ltac:(lia)) as M.
    pose proof (IH (S k) H ltac:(lia)) as I1. set (Q := quad _ _ _) in *. set (m := momR _ _ _) in *.
    replace (a * m + Q - (a * exactR k + exact_from (S k) c)) with (a * (m - exactR k) + (Q - exact_from (S k) c)) by ring.
    eapply Rle_trans; [apply Rabs_triang|]. rewrite Rabs_mult. pose proof (Rabs_pos a).
    assert (Rabs a * Rabs (m - exactR k) <= Rabs a * / 10 ^ 34) by (apply Rmult_le_compat_l; auto). lra.
Qed.
(** Antiderivative of a polynomial. *)
Fixpoint apk (k : nat) (c : list R) (x : R) : R := match c with [] => 0 | a :: c' => a * (x ^ S k / INR (S k)) + apk (S k) c' x end.
Lemma apk_der c : forall k x, derivable_pt_lim (apk k c) x (pk k c x).
Proof.
  induction c as [|a c IH]; intros k x.
  - apply (derivable_pt_lim_const 0).
  - change (apk k (a :: c)) with (plus_fct (mult_real_fct a (fun y => y ^ S k / INR (S k))) (apk (S k) c)).
    apply derivable_pt_lim_plus; [|apply IH]. apply derivable_pt_lim_scal.
    replace (x ^ k) with (/ INR (S k) * (INR (S k) * x ^ pred (S k))).
    2: { simpl pred. rewrite <- Rmult_assoc, Rinv_l by (apply not_0_INR; lia). ring. }
    apply (derivable_pt_lim_ext (mult_real_fct (/ INR (S k)) (fun y => y ^ S k))).
    + intros y. unfold mult_real_fct, Rdiv. ring.
    + apply derivable_pt_lim_scal, derivable_pt_lim_pow.
Qed.
Lemma apk_exact c : forall k, apk k c 1 - apk k c (-1) = exact_from k c.
Proof.
  induction c as [|a c IH]; intros k; cbn [apk exact_from]; [ring|]. rewrite <- (IH (S k)). rewrite pow1. unfold exactR.
  assert (Hs : INR (S k) <> 0) by (apply not_0_INR; lia).
  replace ((-1) ^ S k) with (if Nat.even k then -1 else 1). { destruct (Nat.even k); field; auto. }
  clear. assert (G : (-1) ^ k = if Nat.even k then 1 else -1); [|simpl; rewrite G; destruct (Nat.even k); ring].
  induction k; [reflexivity|]. rewrite Nat.even_succ, <- Nat.negb_even. simpl. rewrite IHk. destruct (Nat.even k); simpl; ring.
Qed.
Lemma quad_integral leg q c F : rule_ok q leg = true -> (length c <= Z.to_nat (if leg then 2 * q else 2 * q - 2))%nat ->
  (forall x, -1 <= x <= 1 -> derivable_pt_lim F x (poly c x)) ->
  Rabs (quad (fst (rule Rn leg q)) (snd (rule Rn leg q)) (poly c) - (F 1 - F (-1))) <= / 10 ^ 34 * norm1 c.
Proof.
  intros H Hl HF.
  assert (E : F 1 - F (-1) = exact_from 0 c).
  { rewrite <- apk_exact.
    destruct (MVT_cor2 (minus_fct F (apk 0 c)) (fun _ => 0) (-1) 1 ltac:(lra)) as [z [Hz _]].
    - intros x Hx. replace 0 with (poly c x - pk 0 c x) by (rewrite pk_poly; simpl; ring).
      apply derivable_pt_lim_minus; [apply HF; auto|apply apk_der].
    - unfold minus_fct in Hz. lra. }
  rewrite E, (quad_ext _ _ (poly c) (pk 0 c)) by (intros; rewrite pk_poly; simpl; ring).
  apply quad_pk; auto.
Qed.
(** Points and weights. *)
Lemma z2r_0 : z2r 0 = 0.
Proof. unfold z2r, Rdiv. apply Rmult_0_l. Qed.
Lemma nth_z2r l i : nth i (map z2r l) 0 = z2r (nth i l 0%Z).
Proof. rewrite <- z2r_0 at 1. apply map_nth. Qed.
Lemma z2r_lt a b : (a < b)%Z -> z2r a < z2r b.
Proof. intros H. apply Rmult_lt_compat_r; [apply Rinv_0_lt_compat, D36_pos|]. apply IZR_lt; auto. Qed.
Lemma z2r_le a b : (a <= b)%Z -> z2r a <= z2r b.
Proof. intros H. apply Rmult_le_compat_r; [left; apply Rinv_0_lt_compat, D36_pos|]. apply IZR_le; auto. Qed.
Lemma z2r_opp a : z2r (- a) = - z2r a.
Proof. unfold z2r. rewrite opp_IZR. unfold Rdiv. ring. Qed.
Lemma z2r_D : z2r D36 = 1.
Proof. unfold z2r. apply Rinv_r. pose proof D36_pos. lra. Qed.
Lemma points leg q : rule_ok q leg = true ->
  let l := fst (rule Rn leg q) in let w := snd (rule Rn leg q) in
  length l = Z.to_nat q /\ length w = Z.to_nat q /\
  (forall i, (i < Z.to_nat q)%nat -> nth i l 0 = - nth (Z.to_nat q - 1 - i) l 0 /\ nth i w 0 = nth (Z.to_nat q - 1 - i) w 0 /\
     0 < nth i w 0 /\ -1 <= nth i l 0 <= 1 /\ (leg = true -> -1 < nth i l 0 < 1)) /\
  (forall i, (S i < Z.to_nat q)%nat -> nth i l 0 < nth (S i) l 0) /\ (leg = false -> nth 0 l 0 = -1).
Proof.
  intros H l w. unfold l, w. clear l w. rewrite rule_R by auto. cbn [fst snd]. rewrite !map_length.
  destruct (tables_checked leg q H) as [_ M]. unfold points_ok in M. rewrite !andb_true_iff in M.
  destruct M as [[[[M1 M2] M3] M4] M5]. apply Nat.eqb_eq in M1, M2. rewrite forallb_forall in M3, M4.
  split; auto. split; auto. split; [|split].
  - intros i Hi. specialize (M3 i). rewrite !nth_z2r.
    assert (I1 : In i (seq 0 (Z.to_nat q))) by (apply in_seq; lia). apply M3 in I1. clear M3. rewrite !andb_true_iff in I1.
    destruct I1 as [[[I1 I2] I3] I4]. apply Z.eqb_eq in I1, I2. apply Z.ltb_lt in I3.
    split. { rewrite <- z2r_opp. f_equal. exact I1. } split. { f_equal. exact I2. }
    split. { rewrite <- z2r_0. apply z2r_lt. exact I3. }
    pose proof z2r_D as ED. assert (EM : z2r (- D36) = -1) by (rewrite z2r_opp, ED; reflexivity).
    set (v := nth i (fst (rule Zs leg q) : list Z) 0%Z) in *.
    destruct leg; apply andb_prop in I4; destruct I4 as [J1 J2].
    + apply Z.ltb_lt in J1, J2. apply z2r_lt in J1, J2. rewrite ED in J2. rewrite EM in J1. cbn [T Rn Zs] in *. split; intros; lra.
    + apply Z.leb_le in J1, J2. apply z2r_le in J1, J2. rewrite ED in J2. rewrite EM in J1. cbn [T Rn Zs] in *. split; [lra|discriminate].
  - intros i Hi. assert (I1 : In i (seq 0 (Z.to_nat q - 1))) by (apply in_seq; lia). apply M4 in I1. apply Z.ltb_lt in I1.
    rewrite !nth_z2r. apply z2r_lt. exact I1.
  - intros ->. apply Z.eqb_eq in M5. rewrite nth_z2r. change (fst (rule Zs false q)) with (fst (rule Zs false q) : list Z).
    etransitivity; [apply f_equal; exact M5|]. rewrite z2r_opp, z2r_D. reflexivity.
Qed.
