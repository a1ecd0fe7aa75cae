(** Degree elevation: binomial numbers, Bezier coefficients, insertion and elevation phases. *)
From Coq Require Import ZArith Reals List Lia Lra Permutation Factorial.
From Verif Require Import Num Loop Spec SumZ BPiece BLink ModelNurbs ModelBspline Blossom.
Import ListNotations.
Local Open Scope R_scope.
Local Arguments Z.add : simpl never.
Local Arguments Z.sub : simpl never.
Local Arguments Z.of_nat : simpl never.
Local Arguments Z.mul : simpl never.

Lemma bin_INR n k : (k <= n)%nat -> INR (bin n k) = INR (fact n) / (INR (fact k) * INR (fact (n - k))).
Proof.
  revert k. induction n; intros k Hk.
  - replace k with O by lia. simpl. field.
  - destruct k; [rewrite bin_0, Nat.sub_0_r; simpl (fact 0); change (INR 1) with 1; field; apply INR_fact_neq_0|].
    cbn [bin]. rewrite plus_INR. replace (S n - S k)%nat with (n - k)%nat by lia.
    destruct (Nat.eq_dec k n) as [->|Hne].
    + rewrite (bin_big n (S n)), IHn, Nat.sub_diag by lia. simpl (fact 0). change (INR 1) with 1. change (INR 0) with 0.
      field. split; apply INR_fact_neq_0.
    + rewrite !IHn by lia. replace (n - k)%nat with (S (n - S k)) by lia. set (d := (n - S k)%nat).
      replace (fact (S n)) with (S n * fact n)%nat by reflexivity. replace (fact (S k)) with (S k * fact k)%nat by reflexivity.
      replace (fact (S d)) with (S d * fact d)%nat by reflexivity. rewrite !mult_INR.
      replace (INR (S n)) with (INR (S d) + INR (S k)) by (rewrite <- plus_INR; f_equal; lia).
      field. repeat split; try apply INR_fact_neq_0; apply not_0_INR; lia.
Qed.
Lemma bin_sym n k : (k <= n)%nat -> bin n (n - k) = bin n k.
Proof.
  intros H. apply INR_eq. rewrite !bin_INR by lia. replace (n - (n - k))%nat with k by lia. field. split; apply INR_fact_neq_0.
Qed.
Lemma bin_next n k : (k < n)%nat -> (bin n k * (n - k) = bin n (S k) * S k)%nat.
Proof.
  intros H. apply INR_eq. rewrite !mult_INR, !bin_INR by lia.
  replace (n - k)%nat with (S (n - S k)) by lia. set (d := (n - S k)%nat).
  replace (fact (S d)) with (S d * fact d)%nat by reflexivity. replace (fact (S k)) with (S k * fact k)%nat by reflexivity. rewrite !mult_INR.
  field. repeat split; try apply INR_fact_neq_0; apply not_0_INR; lia.
Qed.
(** The loop of Bin computes binomial numbers. *)
Theorem Bin_bin n k : (0 <= k <= n)%Z -> Bin n k = Z.of_nat (bin (Z.to_nat n) (Z.to_nat k)).
Proof.
  intros H. unfold Bin.
  assert (E : bin (Z.to_nat n) (Z.to_nat k) = bin (Z.to_nat n) (Z.to_nat (Z.min k (n - k)))).
  { destruct (Z.min_spec k (n - k)) as [[_ ->]|[_ ->]]; auto. rewrite <- bin_sym by lia. f_equal. lia. }
  rewrite E. set (m := Z.min k (n - k)). assert (Hm : (0 <= m <= n)%Z) by lia.
  floop (fun i C => C = Z.of_nat (bin (Z.to_nat n) (Z.to_nat i))).
  - rewrite bin_0. reflexivity.
  - intros i C Hi ->. replace (Z.to_nat (i + 1)) with (S (Z.to_nat i)) by lia.
    pose proof (bin_next (Z.to_nat n) (Z.to_nat i) ltac:(lia)) as Hb.
    replace (Z.of_nat (bin (Z.to_nat n) (Z.to_nat i)) * (n - i))%Z with (Z.of_nat (bin (Z.to_nat n) (S (Z.to_nat i))) * (i + 1))%Z by nia.
    apply Z.div_mul. lia.
  - intros C ->. do 2 f_equal. lia.
Qed.

Definition bez (p t i j : Z) : R :=
  INR (bin (Z.to_nat p) (Z.to_nat j)) * INR (bin (Z.to_nat t) (Z.to_nat (i - j))) / INR (bin (Z.to_nat (p + t)) (Z.to_nat i)).
Lemma bin_INR_pos n k : (k <= n)%nat -> 0 < INR (bin n k).
Proof. intros. apply (lt_INR 0). apply bin_pos. auto. Qed.
Theorem Elev_bezalfs_ok p t junk2 i j : (1 <= p)%Z -> (1 <= t)%Z -> (0 <= i <= p + t)%Z -> (Z.max 0 (i - t) <= j <= Z.min p i)%Z ->
  Elev_bezalfs (N:=Rn) p t junk2 i j = bez p t i j.
Proof.
  intros Hp Ht. revert i j. unfold Elev_bezalfs. set (ph := (p + t)%Z).
  set (h := (ph / 2)%Z). assert (Hh : (2 * h <= ph < 2 * h + 2)%Z) by (unfold h; pose proof (Z.div_mod ph 2 ltac:(lia)); pose proof (Z.mod_pos_bound ph 2); lia).
  cbv zeta. rn.
  set (good := fun (B : Z -> Z -> R) i => forall j, (Z.max 0 (i - t) <= j <= Z.min p i)%Z -> B i j = bez p t i j).
  assert (G0 : forall B : Z -> Z -> R, B 0%Z 0%Z = 1 -> good B 0%Z).
  { intros B E j Hj. replace j with 0%Z by lia. rewrite E. unfold bez. change (Z.to_nat (0 - 0)) with O. change (Z.to_nat 0) with O. rewrite !bin_0. simpl. field. }
  assert (Gp : forall B : Z -> Z -> R, B ph p = 1 -> good B ph).
  { intros B E j Hj. replace j with p by lia. rewrite E. unfold bez. fold ph. replace (ph - p)%Z with t by lia.
    rewrite <- (bin_sym (Z.to_nat p) (Z.to_nat p)), <- (bin_sym (Z.to_nat t) (Z.to_nat t)), <- (bin_sym (Z.to_nat ph) (Z.to_nat ph)) by lia.
    rewrite !Nat.sub_diag, !bin_0. simpl. field. }
  match goal with |- context [@for_up ?S 1 h ?body ?s] => set (Bf := @for_up S 1 h body s);
    assert (HB1 : Bf 0%Z 0%Z = 1 /\ Bf ph p = 1 /\ forall x, (1 <= x <= h)%Z -> good Bf x) end.
  { unfold Bf. floop (fun i (B : Z -> Z -> R) => B 0%Z 0%Z = 1 /\ B ph p = 1 /\ forall x, (1 <= x < i)%Z -> good B x).
  - split; [rewrite upd2_diff by lia; apply upd2_same|]. split; [apply upd2_same|]. intros; lia.
  - intros i B Hi (B0 & Bp & HB).
    floop (fun j (B : Z -> Z -> R) => B 0%Z 0%Z = 1 /\ B ph p = 1 /\ (forall x, (1 <= x < i)%Z -> good B x) /\
             (forall y, (Z.max 0 (i - t) <= y < j)%Z -> B i y = bez p t i y)).
    + repeat split; auto. intros; lia.
    + intros j B1 Hj (C0 & Cp & C1 & C2). repeat split.
      * rewrite upd2_diff by lia. auto.
      * rewrite upd2_diff by lia. auto.
      * intros x Hx y Hy. rewrite upd2_diff by lia. apply C1; auto.
      * intros y Hy. destruct (Z.eq_dec y j) as [->|]; [|rewrite upd2_diff by lia; apply C2; lia].
        rewrite upd2_same. unfold bez. fold ph. rewrite !Bin_bin by lia. rewrite mult_IZR, <- !INR_IZR_INZ. reflexivity.
    + intros B1 (C0 & Cp & C1 & C2). repeat split; auto. intros x Hx. destruct (Z.eq_dec x i) as [->|]; [|apply C1; lia].
      intros y Hy. apply C2. lia.
  - intros B (B0 & Bp & HB). repeat split; auto. intros x Hx. apply HB. lia. }
  destruct HB1 as (B0 & Bp & HB). clearbody Bf.
    floop (fun i (B : Z -> Z -> R) => B 0%Z 0%Z = 1 /\ B ph p = 1 /\ forall x, (1 <= x < i)%Z -> good B x).
    + repeat split; auto. intros x Hx. apply HB. lia.
    + intros i B' Hi (B0' & Bp' & HB').
      floop (fun j (B : Z -> Z -> R) => B 0%Z 0%Z = 1 /\ B ph p = 1 /\ (forall x, (1 <= x < i)%Z -> good B x) /\
             (forall y, (Z.max 0 (i - t) <= y < j)%Z -> B i y = bez p t i y)).
      * repeat split; auto. intros; lia.
      * intros j B1 Hj (C0 & Cp & C1 & C2). repeat split.
        -- rewrite upd2_diff by lia. auto.
        -- rewrite upd2_diff by lia. auto.
        -- intros x Hx y Hy. rewrite upd2_diff by lia. apply C1; auto.
        -- intros y Hy. destruct (Z.eq_dec y j) as [->|]; [|rewrite upd2_diff by lia; apply C2; lia].
           rewrite upd2_same. rewrite C1 by lia. unfold bez. fold ph.
           replace (Z.to_nat (p - j)) with (Z.to_nat p - Z.to_nat j)%nat by lia.
           replace (Z.to_nat (ph - i - (p - j))) with (Z.to_nat t - Z.to_nat (i - j))%nat by lia.
           replace (Z.to_nat (ph - i)) with (Z.to_nat ph - Z.to_nat i)%nat by lia.
           rewrite !bin_sym by lia. reflexivity.
      * intros B1 (C0 & Cp & C1 & C2). repeat split; auto. intros x Hx. destruct (Z.eq_dec x i) as [->|]; [|apply C1; lia].
        intros y Hy. apply C2. lia.
    + intros B' (B0' & Bp' & HB') i j Hi Hj.
      destruct (Z.eq_dec i 0) as [->|]; [apply G0; auto|]. destruct (Z.eq_dec i ph) as [->|]; [apply Gp; auto|]. apply HB'; auto. lia.
Qed.

(** The coefficients are those of the elevated polar form on two values. *)
Lemma sumZ_nat n f : sumZ 0 (Z.of_nat n) f = sum_nat n (fun j => f (Z.of_nat j)).
Proof.
  induction n; cbn [sum_nat]; [apply sumZ_single|]. rewrite sumZ_last by lia. replace (Z.of_nat (S n) - 1)%Z with (Z.of_nat n) by lia. rewrite IHn. reflexivity.
Qed.
Definition rp (u : R) (c : Z) : list R := repeat u (Z.to_nat c).
Theorem elev_two f p t i ua ub : (1 <= p)%Z -> (1 <= t)%Z -> (0 <= i <= p + t)%Z ->
  sumZ (Z.max 0 (i - t)) (Z.min p i) (fun j => bez p t i j * f (rp ua (p - j) ++ rp ub j)) =
  elev f (Z.to_nat p) (rp ua (p + t - i) ++ rp ub i).
Proof.
  intros Hp Ht Hi. unfold elev, rp. rewrite ssum_two, app_length, !repeat_length.
  replace (Z.to_nat (p + t - i) + Z.to_nat i)%nat with (Z.to_nat (p + t)) by lia.
  set (D := INR (bin (Z.to_nat (p + t)) (Z.to_nat p))). assert (HD : 0 < D) by (apply bin_INR_pos; lia).
  apply (Rmult_eq_reg_r D); [|lra]. unfold Rdiv at 1. rewrite Rmult_assoc, Rinv_l, Rmult_1_r by lra.
  pose proof (sumZ_nat (Z.to_nat p) (fun j => INR (bin (Z.to_nat (p + t - i)) (Z.to_nat (p - j))) * INR (bin (Z.to_nat i) (Z.to_nat j)) *
      f (repeat ua (Z.to_nat (p - j)) ++ repeat ub (Z.to_nat j)))) as E. rewrite Z2Nat.id in E by lia.
  rewrite (sum_nat_ext _ _ (fun j => INR (bin (Z.to_nat (p + t - i)) (Z.to_nat (p - Z.of_nat j))) * INR (bin (Z.to_nat i) (Z.to_nat (Z.of_nat j))) *
      f (repeat ua (Z.to_nat (p - Z.of_nat j)) ++ repeat ub (Z.to_nat (Z.of_nat j))))).
  2: { intros j Hj. rewrite Nat2Z.id. replace (Z.to_nat (p - Z.of_nat j)) with (Z.to_nat p - j)%nat by lia. reflexivity. }
  rewrite <- E. clear E. rewrite (sumZ_restrict 0 p (Z.max 0 (i - t)) (Z.min p i)); try lia.
  - rewrite <- sumZ_scal_r. apply sumZ_ext. intros j Hj. unfold bez, D.
    rewrite !bin_INR by lia.
    replace (Z.to_nat (p + t) - Z.to_nat p)%nat with (Z.to_nat t) by lia.
    replace (Z.to_nat t - Z.to_nat (i - j))%nat with (Z.to_nat (t + j - i)) by lia.
    replace (Z.to_nat (p + t - i) - Z.to_nat (p - j))%nat with (Z.to_nat (t + j - i)) by lia.
    replace (Z.to_nat (p + t) - Z.to_nat i)%nat with (Z.to_nat (p + t - i)) by lia.
    replace (Z.to_nat p - Z.to_nat j)%nat with (Z.to_nat (p - j)) by lia.
    replace (Z.to_nat i - Z.to_nat j)%nat with (Z.to_nat (i - j)) by lia.
    field. repeat split; apply INR_fact_neq_0.
  - intros j Hj Ho. destruct Ho as [Ho|Ho].
    + rewrite (bin_big (Z.to_nat (p + t - i))) by lia. simpl. ring.
    + rewrite (bin_big (Z.to_nat i)) by lia. simpl. ring.
Qed.

Lemma rp_length u c : length (rp u c) = Z.to_nat c.
Proof. apply repeat_length. Qed.
Lemma rp_S u c : (0 <= c)%Z -> rp u (c + 1) = u :: rp u c.
Proof. intros. unfold rp. replace (Z.to_nat (c + 1)) with (S (Z.to_nat c)) by lia. reflexivity. Qed.
Lemma rp_0 u c : (c <= 0)%Z -> rp u c = [].
Proof. intros. unfold rp. replace (Z.to_nat c) with O by lia. reflexivity. Qed.
Lemma rp_app u c d : (0 <= c)%Z -> (0 <= d)%Z -> rp u (c + d) = rp u c ++ rp u d.
Proof. intros. unfold rp. rewrite Z2Nat.inj_add by lia. apply repeat_app. Qed.
(** Knots i+1..i+c as a list, c an integer. *)
Definition wz (U : Z -> R) (i c : Z) : list R := win U i (Z.to_nat c).
Lemma wz_length U i c : length (wz U i c) = Z.to_nat c.
Proof. apply win_length. Qed.
Lemma wz_0 U i c : (c <= 0)%Z -> wz U i c = [].
Proof. intros. unfold wz. replace (Z.to_nat c) with O by lia. reflexivity. Qed.
Lemma wz_snoc U i c : (0 <= c)%Z -> wz U i (c + 1) = wz U i c ++ [U (i + c + 1)%Z].
Proof. intros. unfold wz. replace (Z.to_nat (c + 1)) with (S (Z.to_nat c)) by lia. rewrite win_snoc. do 3 f_equal. lia. Qed.
Lemma wz_cons U i c : (0 <= c)%Z -> wz U i (c + 1) = U (i + 1)%Z :: wz U (i + 1) c.
Proof. intros. unfold wz. replace (Z.to_nat (c + 1)) with (S (Z.to_nat c)) by lia. apply win_S. Qed.
Lemma wz_app U i c d : (0 <= c)%Z -> (0 <= d)%Z -> wz U i (c + d) = wz U i c ++ wz U (i + c) d.
Proof. intros. unfold wz. rewrite Z2Nat.inj_add by lia. rewrite win_app. do 3 f_equal. lia. Qed.
Lemma wz_const U i c u : (forall j, (i < j <= i + c)%Z -> U j = u) -> wz U i c = rp u c.
Proof. intros H. apply win_const. intros j Hj. apply H. lia. Qed.
Lemma wz_ext U V i c : (forall j, (i < j <= i + c)%Z -> U j = V j) -> wz U i c = wz V i c.
Proof. intros H. apply win_ext. intros j Hj. apply H. lia. Qed.

(** Moving an element to the front. *)
Lemma perm_mid {A} (x : A) l1 l2 : Permutation (l1 ++ x :: l2) (x :: l1 ++ l2).
Proof. symmetry. apply Permutation_middle. Qed.
Lemma pl_front n F x l1 l2 : polar n F -> length (l1 ++ x :: l2) = n -> F (l1 ++ x :: l2) = F (x :: l1 ++ l2).
Proof. intros H Hl. apply (pl_perm _ _ H); auto. apply perm_mid. Qed.
(** An affine combination in one slot. *)
Lemma pl_slot n F x y z l1 l2 : polar n F -> S (length (l1 ++ l2)) = n -> x <> y ->
  F (l1 ++ z :: l2) = (z - y) / (x - y) * F (l1 ++ x :: l2) + (1 - (z - y) / (x - y)) * F (l1 ++ y :: l2).
Proof.
  intros H Hl Hxy. assert (G : forall w, F (l1 ++ w :: l2) = F (w :: l1 ++ l2)).
  { intros w. apply (pl_front n); auto. rewrite app_length in *. simpl. lia. }
  rewrite !G. apply (pl_lin n); auto.
Qed.

Section Phases.
Variables (f : list R -> R) (p : Z) (U : Z -> R) (a mul : Z) (ua ub : R).
Hypothesis Hp : (1 <= p)%Z.
Hypothesis Hmul : (1 <= mul)%Z.
Hypothesis Hf : polar (Z.to_nat p) f.
Hypothesis Hub : forall j, (a < j <= a + mul)%Z -> U j = ub.
Hypothesis Hgt : forall j, (a + mul < j <= a + p)%Z -> ub <= U j.
Hypothesis Hlt : ua < ub.
Let b := (a + mul)%Z.
Let r := (p - mul)%Z.
Let stage (j k : Z) : R := f (rp ua (p - k) ++ rp ub (Z.min k (mul + j)) ++ wz U b (k - mul - j)).

Lemma stage_step j k : (1 <= j)%Z -> (mul + j <= k <= p)%Z ->
  stage j k = (ub - ua) / (U (a + k - j + 1)%Z - ua) * stage (j - 1) k + (1 - (ub - ua) / (U (a + k - j + 1)%Z - ua)) * stage (j - 1) (k - 1).
Proof.
  intros Hj Hk. unfold stage. rewrite !Z.min_r by lia.
  set (C := rp ua (p - k)). set (D := rp ub (mul + j - 1)). set (E := wz U b (k - mul - j)).
  replace (mul + (j - 1))%Z with (mul + j - 1)%Z by lia.
  replace (rp ub (mul + j)) with (ub :: D) by (unfold D; rewrite <- rp_S by lia; f_equal; lia).
  replace (k - mul - (j - 1))%Z with (k - mul - j + 1)%Z by lia. replace (k - 1 - mul - (j - 1))%Z with (k - mul - j)%Z by lia.
  rewrite wz_snoc by lia. fold E. replace (b + (k - mul - j) + 1)%Z with (a + k - j + 1)%Z by lia.
  replace (rp ua (p - (k - 1))) with (ua :: C) by (unfold C; rewrite <- rp_S by lia; f_equal; lia). fold D.
  set (X := U (a + k - j + 1)%Z). assert (HX : ub <= X).
  { unfold X. destruct (Z.eq_dec (a + k - j + 1) (a + mul)); [lia|]. apply Hgt. lia. }
  assert (Hlen : S (length (C ++ D ++ E)) = Z.to_nat p).
  { rewrite !app_length. unfold C, D, E. rewrite !rp_length, wz_length. lia. }
  assert (G1 : f (C ++ D ++ E ++ [X]) = f (C ++ X :: D ++ E)).
  { apply (pl_perm _ _ Hf).
    - rewrite !app_length in *. simpl. lia.
    - apply Permutation_app_head. rewrite app_assoc. symmetry. apply Permutation_cons_append. }
  assert (G2 : f ((ua :: C) ++ D ++ E) = f (C ++ ua :: D ++ E)).
  { apply (pl_perm _ _ Hf).
    - simpl. auto.
    - cbn [app]. apply Permutation_middle. }
  rewrite G1, G2. apply (pl_slot (Z.to_nat p)); auto. lra.
Qed.

Theorem Elev_insert_ok bpts next alfs : (forall k, (0 <= k <= p)%Z -> bpts k = f (rp ua (p - k) ++ wz U a k)) ->
  let '(bpts', next', _) := Elev_insert (N:=Rn) p mul r a U ua ub (bpts, next, alfs) in
  (forall k, (0 <= k <= p)%Z -> bpts' k = f (rp ua (p - k) ++ rp ub k)) /\
  (forall x, (0 <= x < r)%Z -> next' x = f (rp ub (p - x) ++ wz U b x)).
Proof.
  intros Hb. unfold Elev_insert. destruct (Z.ltb_spec 0 r) as [Hr|Hr].
  - assert (Hal : exists al, for_down p (mul + 1) (fun k (alfs : Z -> Rn) => upd alfs (k - mul - 1)%Z (ndiv Rn (nsub Rn ub ua) (nsub Rn (U (a + k)%Z) ua))) alfs = al /\
        forall k, (mul + 1 <= k <= p)%Z -> al (k - mul - 1)%Z = (ub - ua) / (U (a + k)%Z - ua)).
    { eexists. split; [reflexivity|]. rn.
      dloop (fun k (al : Z -> R) => forall x, (k < x <= p)%Z -> al (x - mul - 1)%Z = (ub - ua) / (U (a + x)%Z - ua)).
      - intros; lia.
      - intros k al Hk H x Hx. destruct (Z.eq_dec x k) as [->|]; [apply upd_same|]. rewrite upd_diff by lia. apply H. lia.
      - intros al H k Hk. apply H. lia. }
    destruct Hal as (al & -> & Hal). rn.
    floop (fun j (bn : (Z -> R) * (Z -> R)) => (forall k, (0 <= k <= p)%Z -> fst bn k = stage (j - 1) k) /\
             (forall x, (r - j < x < r)%Z -> snd bn x = f (rp ub (p - x) ++ wz U b x))).
    + split; [|intros; lia]. intros k Hk. simpl fst. rewrite Hb by auto. unfold stage. f_equal. f_equal.
      replace (mul + (1 - 1))%Z with mul by lia. replace (k - mul - (1 - 1))%Z with (k - mul)%Z by lia.
      destruct (Z.le_gt_cases k mul).
      * rewrite Z.min_l, (wz_0 _ _ (k - mul)), app_nil_r by lia. apply wz_const. intros; apply Hub; lia.
      * rewrite Z.min_r by lia. replace k with (mul + (k - mul))%Z at 1 by lia. rewrite wz_app by lia. f_equal. apply wz_const. intros. apply Hub. lia.
    + intros j [b1 nx] Hj [H1 H2]. simpl fst in *. simpl snd in *.
      dloop (fun k (b2 : Z -> R) => (forall x, (0 <= x <= k)%Z -> b2 x = stage (j - 1) x) /\ (forall x, (k < x <= p)%Z -> b2 x = stage j x)).
      * split; [intros; apply H1; lia|intros; lia].
      * intros k b2 Hk [G1 G2]. split; intros x Hx.
        -- rewrite upd_diff by lia. apply G1. lia.
        -- destruct (Z.eq_dec x k) as [->|]; [|rewrite upd_diff by lia; apply G2; lia]. rewrite upd_same.
           rewrite !G1 by lia. replace (k - (mul + j))%Z with ((k - j + 1) - mul - 1)%Z by lia. rewrite Hal by lia.
           rewrite (stage_step j k) by lia. replace (a + (k - j + 1))%Z with (a + k - j + 1)%Z by lia. reflexivity.
      * intros b2 [G1 G2]. replace (mul + j - 1)%Z with (mul + (j - 1))%Z in * by lia. cbn [fst snd]. split.
        -- intros k Hk. replace (j + 1 - 1)%Z with j by lia. destruct (Z.le_gt_cases k (mul + (j - 1))); [|apply G2; lia].
           rewrite G1 by lia. unfold stage. rewrite !Z.min_l by lia. rewrite !wz_0 by lia. reflexivity.
        -- intros x Hx. destruct (Z.eq_dec x (r - j)) as [->|]; [|rewrite upd_diff by lia; apply H2; lia].
           rewrite upd_same, G2 by (unfold r in *; lia). unfold stage. rewrite Z.min_r by (unfold r in *; lia).
           rewrite (rp_0 ua) by lia. cbn [app]. f_equal. unfold r. f_equal; f_equal; lia.
    + intros [b1 nx] [H1 H2]. simpl fst in *. simpl snd in *. split.
      * intros k Hk. rewrite H1 by auto. unfold stage. rewrite Z.min_l, (wz_0 _ _ (k - _ - _)), app_nil_r by (unfold r; lia). reflexivity.
      * intros x Hx. apply H2. lia.
  - split.
    + intros k Hk. rewrite Hb by auto. do 2 f_equal. apply wz_const. intros. apply Hub. unfold r in *. lia.
    + intros. lia.
Qed.

Theorem Elev_elevate_ok t lbz bz bpts ebpts : (1 <= t)%Z -> (0 <= lbz <= p + t)%Z ->
  (forall i j, (0 <= i <= p + t)%Z -> (Z.max 0 (i - t) <= j <= Z.min p i)%Z -> bz i j = bez p t i j) ->
  (forall k, (0 <= k <= p)%Z -> bpts k = f (rp ua (p - k) ++ rp ub k)) ->
  forall i, (lbz <= i <= p + t)%Z ->
  Elev_elevate (N:=Rn) p t lbz bz bpts ebpts i = elev f (Z.to_nat p) (rp ua (p + t - i) ++ rp ub i).
Proof.
  intros Ht Hl Hbz Hb. unfold Elev_elevate. cbv zeta. rn.
  floop (fun ii (e : Z -> R) => forall i, (lbz <= i < ii)%Z -> e i = elev f (Z.to_nat p) (rp ua (p + t - i) ++ rp ub i)).
  - intros; lia.
  - intros ii e Hii H.
    floop (fun jj (e : Z -> R) => (forall i, (lbz <= i < ii)%Z -> e i = elev f (Z.to_nat p) (rp ua (p + t - i) ++ rp ub i)) /\
            e ii = sumZ (Z.max 0 (ii - t)) (jj - 1) (fun j => bez p t ii j * f (rp ua (p - j) ++ rp ub j))).
    + split; [intros; rewrite upd_diff by lia; apply H; lia|]. rewrite upd_same, sumZ_empty by lia. reflexivity.
    + intros jj e1 Hjj [G1 G2]. split; [intros; rewrite upd_diff by lia; apply G1; lia|].
      rewrite upd_same, G2, Hbz, Hb by lia. replace (jj + 1 - 1)%Z with jj by lia. rewrite (sumZ_last _ jj) by lia. reflexivity.
    + intros e1 [G1 G2] i Hi. destruct (Z.eq_dec i ii) as [->|]; [|apply G1; lia].
      rewrite G2. replace (Z.min p ii + 1 - 1)%Z with (Z.min p ii) by lia. apply elev_two; auto. lia.
  - intros e H i Hi. apply H. lia.
Qed.
End Phases.
