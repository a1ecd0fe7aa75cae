(** DersBasisFuns computes derivatives of the basis functions. *)
From Coq Require Import ZArith Reals Lia Lra Bool List.
From Verif Require Import Num Loop ModelBspline ModelBSp Spec SumZ BPiece BLink ProofSpan SpecDer BDer.
Import ListNotations.
Local Open Scope R_scope.

Local Ltac zcase a b := destruct (Z.ltb_spec a b); try lia.
Local Ltac lcase a b := destruct (Z.leb_spec a b); try lia.

Lemma upd2_same {A} (a : Z -> Z -> A) i j v : upd2 a i j v i j = v.
Proof. unfold upd2. rewrite !Z.eqb_refl. reflexivity. Qed.
Lemma upd2_diff {A} (a : Z -> Z -> A) i j v x y : (x <> i \/ y <> j)%Z -> upd2 a i j v x y = a x y.
Proof. unfold upd2. intros. destruct (Z.eqb_spec x i), (Z.eqb_spec y j); simpl; auto; lia. Qed.

Lemma Ders_ndu_spec i u p (U : Z -> R) junk junk2 : (0 <= p)%Z ->
  let ndu := Ders_ndu (N:=Rn) i u p U junk junk2 in
  (forall r j, (0 <= r <= j)%Z -> (j <= p)%Z -> ndu r j = B U i (Z.to_nat j) (i - j + r) u) /\
  (forall r j, (0 <= r < j)%Z -> (j <= p)%Z -> ndu j r = U (i + r + 1)%Z - U (i + 1 - j + r)%Z).
Proof.
  intros Hp ndu. unfold ndu, Ders_ndu.
  floop (fun jj (s : (Z -> Z -> R) * (Z -> R) * (Z -> R)) => let '(nd, lft, rgt) := s in
       ((forall r j, (0 <= r <= j)%Z -> (j < jj)%Z -> nd r j = B U i (Z.to_nat j) (i - j + r) u) /\
        (forall r j, (0 <= r < j)%Z -> (j < jj)%Z -> nd j r = U (i + r + 1)%Z - U (i + 1 - j + r)%Z)) /\
       (forall l, (1 <= l <= jj - 1)%Z -> lft l = u - U (i + 1 - l)%Z) /\
       (forall l, (1 <= l <= jj - 1)%Z -> rgt l = U (i + l)%Z - u)).
  - repeat split; intros; try lia. replace r with 0%Z by lia. replace j with 0%Z by lia. rewrite upd2_same. simpl.
    replace (i - 0 + 0)%Z with i by lia. rewrite Z.eqb_refl. reflexivity.
  - intros j [[nd lft] rgt] Hj [[H1 H1'] [H2 H3]].
    unfold Ders_outer. rn.
    set (lft' := upd lft j (u - U (i + 1 - j)%Z)).
    set (rgt' := upd rgt j (U (i + j)%Z - u)).
    assert (L : forall l, (1 <= l <= j)%Z -> lft' l = u - U (i + 1 - l)%Z).
    { intros l Hl. unfold lft'. destruct (Z.eq_dec l j) as [->|]; [apply upd_same|].
      rewrite upd_diff by auto. apply H2. lia. }
    assert (Rg : forall l, (1 <= l <= j)%Z -> rgt' l = U (i + l)%Z - u).
    { intros l Hl. unfold rgt'. destruct (Z.eq_dec l j) as [->|]; [apply upd_same|].
      rewrite upd_diff by auto. apply H3. lia. }
    set (q := Z.to_nat (j - 1)) in *.
    assert (Eq : Z.of_nat q = (j - 1)%Z) by (unfold q; lia).
    floop (fun r (s : (Z -> Z -> R) * R) => let '(nd', saved) := s in
         (forall x y, (x < j)%Z -> (y < j)%Z -> nd' x y = nd x y) /\
         (forall x, (0 <= x <= r - 1)%Z -> nd' x j = B U i (S q) (i - j + x) u) /\
         (forall x, (0 <= x <= r - 1)%Z -> nd' j x = U (i + x + 1)%Z - U (i + 1 - j + x)%Z) /\
         saved = (u - U (i - j + r)%Z) / (U (i + r)%Z - U (i - j + r)%Z) * B U i q (i - j + r) u).
    + repeat split; intros; try lia. rewrite B_zero by lia. lra.
    + intros r0 [N' sv] Hr0 [G0 [G1 [G2 G3]]]. unfold Ders_inner. rn.
      rewrite !L, !Rg by lia.
      set (d := U (i + (r0 + 1))%Z - u + (u - U (i + 1 - (j - r0))%Z)).
      assert (Ed : d = U (i + r0 + 1)%Z - U (i + 1 - j + r0)%Z).
      { unfold d. replace (i + (r0 + 1))%Z with (i + r0 + 1)%Z by lia.
        replace (i + 1 - (j - r0))%Z with (i + 1 - j + r0)%Z by lia. lra. }
      rewrite upd2_same.
      rewrite upd2_diff by lia.
      assert (Nr : N' r0 (j - 1)%Z = B U i q (i - j + r0 + 1) u).
      { rewrite G0 by lia. rewrite H1 by lia. unfold q. f_equal. lia. }
      rewrite Nr. split; [|split; [|split]].
      * intros x y Hx Hy. rewrite !upd2_diff by lia. apply G0; auto.
      * intros x Hx. destruct (Z.eq_dec x r0) as [->|].
        -- rewrite upd2_same. rewrite B_S, Eq, G3, Ed.
           replace (i - j + r0 + (j - 1) + 1)%Z with (i + r0)%Z by lia.
           replace (i - j + r0 + (j - 1) + 2)%Z with (i + r0 + 1)%Z by lia.
           replace (i + (r0 + 1))%Z with (i + r0 + 1)%Z by lia.
           replace (i - j + r0 + 1)%Z with (i + 1 - j + r0)%Z by lia. unfold Rdiv. lra.
        -- rewrite !upd2_diff by lia. apply G1. lia.
      * intros x Hx. rewrite upd2_diff by lia. destruct (Z.eq_dec x r0) as [->|].
        -- rewrite upd2_same. exact Ed.
        -- rewrite upd2_diff by lia. apply G2. lia.
      * rewrite Ed. replace (i + 1 - (j - r0))%Z with (i - j + (r0 + 1))%Z by lia.
        replace (i - j + r0 + 1)%Z with (i - j + (r0 + 1))%Z by lia.
        replace (i + 1 - j + r0)%Z with (i - j + (r0 + 1))%Z by lia.
        replace (i + r0 + 1)%Z with (i + (r0 + 1))%Z by lia. unfold Rdiv; lra.
    + intros [nd' saved] [K0 [K1 [K2 K3]]]. replace (j - 1 + 1)%Z with j in * by lia. repeat split.
      * intros x y Hx Hy. destruct (Z.eq_dec y j) as [->|].
        -- replace (Z.to_nat j) with (S q) by lia. destruct (Z.eq_dec x j) as [->|].
           ++ rewrite upd2_same, K3. replace (i - j + j)%Z with i by lia.
              rewrite B_S, Eq. rewrite (B_zero U i q (i + 1)) by lia.
              replace (i + (j - 1) + 1)%Z with (i + j)%Z by lia. lra.
           ++ rewrite upd2_diff by lia. apply K1. lia.
        -- rewrite upd2_diff by lia. rewrite K0 by lia. apply H1; lia.
      * intros x y Hx Hy. rewrite upd2_diff by lia. destruct (Z.eq_dec y j) as [->|].
        -- apply K2. lia.
        -- rewrite K0 by lia. apply H1'; lia.
      * intros l Hl. apply L. lia.
      * intros l Hl. apply Rg. lia.
  - intros [[nd lft] rgt] [[H H'] _]. split; intros; [apply H | apply H']; lia.
Qed.

(** Range of coefficients that can meet a nonzero function. *)
Definition vlo (r k : Z) : Z := Z.max 0 (k - r).
Definition vhi (p r k : Z) : Z := Z.min k (p - r).

Section Second.
Variables (i p : Z) (u : R) (U : Z -> R) (ndu : Z -> Z -> R).
Hypothesis Hp : (0 <= p)%Z.
Hypothesis N1 : forall r j, (0 <= r <= j)%Z -> (j <= p)%Z -> ndu r j = B U i (Z.to_nat j) (i - j + r) u.
Hypothesis N2 : forall r j, (0 <= r < j)%Z -> (j <= p)%Z -> ndu j r = U (i + r + 1)%Z - U (i + 1 - j + r)%Z.

(** Sum of the terms of order k with index up to [t]. *)
Definition part (r k t : Z) : R :=
  sumZ (vlo r k) t (fun j => ac U p (i - p + r) (Z.to_nat k) j * B U i (Z.to_nat (p - k)) (i - p + r + j) u).

Lemma ac_step r k j : (1 <= k)%Z ->
  ac U p (i - p + r) (Z.to_nat k) j =
  (ac U p (i - p + r) (Z.to_nat (k - 1)) j - ac U p (i - p + r) (Z.to_nat (k - 1)) (j - 1))
  / (U (i + r + j - k + 1)%Z - U (i - p + r + j)%Z).
Proof.
  intros. replace (Z.to_nat k) with (S (Z.to_nat (k - 1))) by lia. cbn [ac].
  replace (i - p + r + j + p - Z.of_nat (Z.to_nat (k - 1)))%Z with (i + r + j - k + 1)%Z by lia. reflexivity.
Qed.

Definition kinv (r k : Z) (s : (Z -> Z -> R) * Z * Z * (Z -> Z -> R)) (ders0 : Z -> Z -> R) : Prop :=
  let '(a, s1, s2, ders) := s in
  (s1 = 0 /\ s2 = 1 \/ s1 = 1 /\ s2 = 0)%Z /\
  (forall j, (vlo r (k - 1) <= j <= vhi p r (k - 1))%Z -> a s1 j = ac U p (i - p + r) (Z.to_nat (k - 1)) j) /\
  (forall k', (1 <= k' < k)%Z -> ders r k' = part r k' (vhi p r k')) /\
  (forall x y, (x <> r \/ y < 1 \/ k <= y)%Z -> ders x y = ders0 x y).

Lemma Ders_kloop_step r k s ders0 : (0 <= r <= p)%Z -> (1 <= k)%Z ->
  kinv r k s ders0 -> kinv r (k + 1) (Ders_kloop (N:=Rn) p r ndu k s) ders0.
Proof.
  intros Hr Hk. destruct s as [[[a s1] s2] ders]. intros [Hs [Ha [Hd Hf]]].
  unfold Ders_kloop. rn.
  set (rk := (r - k)%Z). set (pk := (p - k)%Z).
  assert (Hs12 : s1 <> s2) by lia.
  (* first branch *)
  match goal with |- context [if (k <=? r)%Z then ?X else ?Y] => set (S0 := if (k <=? r)%Z then X else Y) end.
  assert (I0 : exists a0 d0, S0 = (a0, d0) /\ (forall j, a0 s1 j = a s1 j) /\
             (forall j, (vlo r k <= j < 1)%Z -> (j <= vhi p r k)%Z -> a0 s2 j = ac U p (i - p + r) (Z.to_nat k) j) /\
             d0 = part r k (if (k <=? r)%Z then 0 else vlo r k - 1)%Z).
  { unfold S0. lcase k r.
    - eexists _, _. split; [reflexivity|].
      assert (E0 : a s1 0%Z / ndu (pk + 1)%Z rk = ac U p (i - p + r) (Z.to_nat k) 0).
      { rewrite ac_step by lia. rewrite Ha by (unfold vlo, vhi; lia).
        rewrite (ac_out _ _ _ _ (0 - 1)) by lia. rewrite N2 by (unfold pk, rk; lia).
        unfold pk, rk. f_equal; [lra|]. f_equal; f_equal; lia. }
      split; [|split].
      + intros. rewrite upd2_diff by lia. reflexivity.
      + intros j Hj Hj2. replace j with 0%Z by (unfold vlo in Hj; lia). rewrite upd2_same. exact E0.
      + rewrite upd2_same, E0. unfold part. replace (vlo r k) with 0%Z by (unfold vlo; lia).
        rewrite sumZ_single. rewrite N1 by (unfold rk, pk; lia). unfold rk, pk. f_equal. f_equal. lia.
    - eexists _, _. split; [reflexivity|]. split; [reflexivity|]. split.
      + intros j Hj Hj2. unfold vlo in Hj; lia.
      + unfold part. rewrite sumZ_empty by lia. reflexivity. }
  destruct I0 as [a0 [d0 [E0 [A1 [A2 A3]]]]]. rewrite E0. clear S0 E0.
  set (j1 := (if (-1 <? rk)%Z then 1 else - rk)%Z).
  set (j2 := (if (r - 1 <=? pk)%Z then k - 1 else p - r)%Z).
  assert (J1 : j1 = (if (k <=? r)%Z then 1 else vlo r k)%Z).
  { unfold j1, rk, vlo. zcase (-1)%Z (r - k)%Z; lcase k r; lia. }
  assert (J2 : j2 = (if (r <=? pk)%Z then k - 1 else vhi p r k)%Z).
  { unfold j2, pk, vhi. lcase (r - 1)%Z (p - k)%Z; lcase r (p - k)%Z; lia. }
  assert (J1v : (vlo r k <= j1)%Z) by (rewrite J1; unfold vlo; lcase k r; lia).
  match goal with |- context [for_up j1 j2 ?F (a0, d0)] => set (S1 := for_up j1 j2 F (a0, d0)) end.
  assert (Im : exists a1 d1, S1 = (a1, d1) /\ (forall j, a1 s1 j = a s1 j) /\
             (forall j, (vlo r k <= j < Z.max j1 (j2 + 1))%Z -> (j <= vhi p r k)%Z -> a1 s2 j = ac U p (i - p + r) (Z.to_nat k) j) /\
             d1 = part r k (Z.max j1 (j2 + 1) - 1)%Z).
  { assert (D0 : d0 = part r k (j1 - 1)%Z) by (rewrite A3, J1; lcase k r; reflexivity).
    assert (A2' : forall j, (vlo r k <= j < j1)%Z -> (j <= vhi p r k)%Z -> a0 s2 j = ac U p (i - p + r) (Z.to_nat k) j).
    { intros j Hj Hj2. apply A2; auto. rewrite J1 in Hj. unfold vlo in *. revert Hj. lcase k r; intros; lia. }
    destruct (Z_lt_le_dec (j2 + 1) j1) as [Hlt|Hge].
    - unfold S1. rewrite for_up_empty by lia. exists a0, d0. replace (Z.max j1 (j2 + 1)) with j1 by lia. auto.
    - replace (Z.max j1 (j2 + 1)) with (j2 + 1)%Z by lia. unfold S1.
      floop (fun t (s : (Z -> Z -> R) * R) => exists a1 d1, s = (a1, d1) /\ (forall j, a1 s1 j = a s1 j) /\
             (forall j, (vlo r k <= j < t)%Z -> (j <= vhi p r k)%Z -> a1 s2 j = ac U p (i - p + r) (Z.to_nat k) j) /\
             d1 = part r k (t - 1)%Z).
      + exists a0, d0. auto.
      + intros t s Ht [a1 [d1 [-> [B1 [B2 B3]]]]]. unfold Ders_jloop. rn.
        eexists _, _. split; [reflexivity|].
        assert (Hv : (k - r <= t <= p - r)%Z /\ (1 <= t <= k - 1)%Z).
        { revert Ht. rewrite J1, J2. unfold pk, vhi, vlo. lcase k r; lcase r (p - k)%Z; lia. }
        assert (E1 : (a1 s1 t - a1 s1 (t - 1)%Z) / ndu (pk + 1)%Z (rk + t)%Z = ac U p (i - p + r) (Z.to_nat k) t).
        { rewrite ac_step by lia. rewrite !B1. rewrite !Ha by (unfold vlo, vhi; lia).
          rewrite N2 by (unfold pk, rk; lia). unfold pk, rk. f_equal. f_equal; f_equal; lia. }
        split; [|split].
        * intros. rewrite upd2_diff by lia. apply B1.
        * intros j Hj Hj2. destruct (Z.eq_dec j t) as [->|].
          -- rewrite upd2_same. exact E1.
          -- rewrite upd2_diff by lia. apply B2; lia.
        * rewrite upd2_same, E1, B3. unfold part.
          replace (t + 1 - 1)%Z with t by lia. rewrite (sumZ_last _ t) by (unfold vlo; lia).
          rewrite N1 by (unfold rk, pk; lia). f_equal. unfold rk, pk. f_equal. f_equal. lia.
      + intros s Hs'. exact Hs'. }
  destruct Im as [a1 [d1 [E1 [B1 [B2 B3]]]]]. match goal with |- context [for_up j1 j2 ?F ?s] => change (for_up j1 j2 F s) with S1 end. rewrite E1. clear S1 E1.
  match goal with |- context [if (r <=? pk)%Z then ?X else ?Y] => set (S2 := if (r <=? pk)%Z then X else Y) end.
  assert (I2 : exists a2 d2, S2 = (a2, d2) /\
             (forall j, (vlo r k <= j <= vhi p r k)%Z -> a2 s2 j = ac U p (i - p + r) (Z.to_nat k) j) /\
             d2 = part r k (vhi p r k)).
  { unfold S2. lcase r pk.
    - eexists _, _. split; [reflexivity|].
      assert (Hlo : (vlo r k <= k)%Z) by (unfold vlo; lia).
      assert (Hhi : vhi p r k = k) by (unfold vhi, pk in *; lia).
      assert (M : Z.max j1 (j2 + 1) = k).
      { rewrite J1, J2. unfold vlo, pk in *. lcase k r; lcase r (p - k)%Z; lia. }
      rewrite M in *.
      assert (E2 : (0 - a1 s1 (k - 1)%Z) / ndu (pk + 1)%Z r = ac U p (i - p + r) (Z.to_nat k) k).
      { rewrite ac_step by lia. rewrite B1, Ha by (unfold vlo, vhi, pk in *; lia).
        rewrite (ac_out _ _ _ _ k) by lia. rewrite N2 by (unfold pk in *; lia).
        unfold pk. f_equal. f_equal; f_equal; lia. }
      split.
      + intros j Hj. destruct (Z.eq_dec j k) as [->|].
        * rewrite upd2_same. exact E2.
        * rewrite upd2_diff by lia. apply B2; lia.
      + rewrite upd2_same, E2, B3, Hhi. unfold part. rewrite (sumZ_last _ k) by lia.
        rewrite N1 by (unfold pk in *; lia). f_equal. unfold pk. f_equal. f_equal. lia.
    - eexists _, _. split; [reflexivity|].
      assert (M : Z.max j1 (j2 + 1) = Z.max j1 (vhi p r k + 1)).
      { rewrite J2. unfold vlo, pk in *. lcase r (p - k)%Z; lia. }
      assert (M2 : (j1 <= vhi p r k + 1)%Z \/ (vhi p r k < vlo r k)%Z).
      { rewrite J1. unfold vhi, vlo, pk in *. lcase k r; lia. }
      split.
      + intros j Hj. apply B2; lia.
      + rewrite B3, M. destruct M2 as [M2|M2]; [f_equal; lia|].
        unfold part. rewrite !sumZ_empty; auto; try lia.
        assert (j1 = vlo r k \/ (k <= r)%Z) as [M3|M3].
        { rewrite J1. lcase k r; auto. }
        * lia.
        * unfold vlo, vhi, pk in *. lia. }
  destruct I2 as [a2 [d2 [E2 [C1 C2]]]]. rewrite E2. clear S2 E2.
  unfold kinv. split; [lia|]. split; [|split].
  - replace (k + 1 - 1)%Z with k by lia. exact C1.
  - intros k' Hk'. destruct (Z.eq_dec k' k) as [->|].
    + rewrite upd2_same. exact C2.
    + rewrite upd2_diff by lia. apply Hd. lia.
  - intros x y Hxy. rewrite upd2_diff by lia. apply Hf. lia.
Qed.

Lemma part_all r k : (0 <= r <= p)%Z -> (0 <= k <= p)%Z ->
  part r k (vhi p r k) =
  sumZ 0 k (fun j => ac U p (i - p + r) (Z.to_nat k) j * B U i (Z.to_nat (p - k)) (i - p + r + j) u).
Proof.
  intros Hr Hk. unfold part. symmetry. apply sumZ_restrict; unfold vlo, vhi; try lia.
  intros j Hj Hj2. rewrite B_zero by lia. lra.
Qed.
Lemma part_high r k : (0 <= r <= p)%Z -> (p < k)%Z -> part r k (vhi p r k) = 0.
Proof. intros. unfold part. apply sumZ_empty. unfold vlo, vhi. lia. Qed.

Lemma Ders_rloop_all n junk2 ders0 r k : (0 <= n)%Z -> (0 <= r <= p)%Z -> (0 <= k <= n)%Z ->
  let '(_, ders) := for_up 0 p (Ders_rloop (N:=Rn) p n ndu) (junk2, ders0) in
  ders r k = if (k =? 0)%Z then ders0 r 0%Z else part r k (vhi p r k).
Proof.
  intros Hn Hr Hk.
  floop (fun rr (s : (Z -> Z -> R) * (Z -> Z -> R)) => let '(_, ders) := s in
    (forall x, (0 <= x <= p)%Z -> ders x 0%Z = ders0 x 0%Z) /\
    (forall x y, (0 <= x < rr)%Z -> (1 <= y <= n)%Z -> ders x y = part x y (vhi p x y))).
  - split; intros; [reflexivity | lia].
  - intros x [a ders] Hx [H1 H2]. unfold Ders_rloop. rn.
    match goal with |- context [for_up 1 n ?F ?s] => set (X := for_up 1 n F s) end.
    assert (K : kinv x (n + 1) X ders).
    { unfold X. floop (fun kk s => kinv x kk s ders).
      - unfold kinv. split; [auto|]. split; [|split].
        + intros j Hj. replace j with 0%Z by (unfold vlo, vhi in Hj; lia). rewrite upd2_same. reflexivity.
        + intros; lia.
        + reflexivity.
      - intros kk s Hkk Hi. apply Ders_kloop_step; auto; lia.
      - auto. }
    match goal with |- context [for_up 1 n ?F ?s] => change (for_up 1 n F s) with X end.
    destruct X as [[[a' t1] t2] ders'].
    destruct K as [_ [_ [K1 K2]]]. split.
    + intros y Hy. rewrite K2 by lia. apply H1; auto.
    + intros y z Hy Hz. destruct (Z.eq_dec y x) as [->|].
      * apply K1. lia.
      * rewrite K2 by lia. apply H2; lia.
  - intros [a ders] [H1 H2]. destruct (Z.eqb_spec k 0) as [->|]; [apply H1; lia|]. apply H2; lia.
Qed.
End Second.

Lemma Ders_scale_spec p n ders r k : (0 <= n)%Z -> (0 <= r <= p)%Z -> (0 <= k <= n)%Z ->
  Ders_scale (N:=Rn) p n ders r k = IZR (ffact p (Z.to_nat k)) * ders r k.
Proof.
  intros Hn Hr Hk. unfold Ders_scale.
  floop (fun kk (s : (Z -> Z -> R) * Z) => let '(d, f) := s in
     f = ffact p (Z.to_nat kk) /\
     (forall y, (0 <= y < kk)%Z -> d r y = IZR (ffact p (Z.to_nat y)) * ders r y) /\
     (forall y, (kk <= y)%Z -> d r y = ders r y)).
  - repeat split.
    + change (Z.to_nat 1) with 1%nat. cbn [ffact Z.of_nat]. lia.
    + intros y Hy. replace y with 0%Z by lia. simpl. lra.
  - intros kk [d f] Hkk [F1 [F2 F3]]. rn. repeat split.
    + rewrite F1. replace (Z.to_nat (kk + 1)) with (S (Z.to_nat kk)) by lia. cbn [ffact]. f_equal. lia.
    + intros y Hy. destruct (Z.eqb_spec y kk) as [->|Hne].
      * destruct (Z.leb_spec 0 r), (Z.leb_spec r p); try lia. simpl. rewrite F3 by lia. rewrite F1. lra.
      * simpl. apply F2. lia.
    + intros y Hy. destruct (Z.eqb_spec y kk); [lia|]. simpl. apply F3. lia.
  - intros [d f] [_ [F2 _]]. simpl. apply F2. lia.
Qed.

Lemma DersBasisFuns_piece i u p n (U : Z -> R) junk junk2 r k :
  (0 <= p)%Z -> (0 <= n)%Z -> (0 <= r <= p)%Z -> (0 <= k <= n)%Z ->
  DersBasisFuns (N:=Rn) i u p n U junk junk2 r k = gder U i p (i - p + r) (Z.to_nat k) u.
Proof.
  intros Hp Hn Hr Hk. unfold DersBasisFuns. rn.
  destruct (Ders_ndu_spec i u p U junk junk2 Hp) as [N1 N2].
  set (ndu := Ders_ndu i u p U junk junk2) in *.
  set (ders0 := fun x y : Z => if ((y =? 0) && (0 <=? x) && (x <=? p))%Z then ndu x p else junk2 x y).
  set (X := for_up 0 p (Ders_rloop (N:=Rn) p n ndu) (junk2, ders0)).
  assert (H : let '(_, ders) := X in ders r k = if (k =? 0)%Z then ders0 r 0%Z else part i p u U r k (vhi p r k))
    by exact (Ders_rloop_all i p u U ndu Hp N1 N2 n junk2 ders0 r k Hn Hr Hk).
  match goal with |- context [for_up 0 p ?F ?s] => change (for_up 0 p F s) with X end.
  destruct X as [a ders].
  rewrite Ders_scale_spec by lia. rewrite H.
  unfold gder. destruct (Z.eqb_spec k 0) as [->|Hk0].
  - unfold ders0. rewrite Z.eqb_refl. destruct (Z.leb_spec 0 r), (Z.leb_spec r p); try lia.
    cbn [andb]. rewrite N1 by lia. change (Z.of_nat (Z.to_nat 0)) with 0%Z. rewrite sumZ_single.
    cbn [ac Z.to_nat ffact Z.eqb]. replace (p - 0)%Z with p by lia.
    replace (i - p + r + 0)%Z with (i - p + r)%Z by lia. lra.
  - rewrite Z2Nat.id by lia. destruct (Z_lt_le_dec p k).
    + rewrite (ffact_zero p) by lia. lra.
    + rewrite part_all by lia. reflexivity.
Qed.
