(** Evaluate1..3 compute the full tensor-product sums. *)
From Coq Require Import ZArith Reals Lia Lra Bool.
From Verif Require Import Num Loop ModelBspline ModelBSp Spec SumZ BPiece BLink ProofSpan.
Local Open Scope R_scope.

Lemma for_up_ext {S : Type} lo hi (f g : Z -> S -> S) s :
  (forall i s, (lo <= i <= hi)%Z -> f i s = g i s) -> for_up lo hi f s = for_up lo hi g s.
Proof.
  unfold for_up. intros H.
  assert (forall n i s, (lo <= i)%Z -> (i + Z.of_nat n <= hi + 1)%Z -> iter_up n i f s = iter_up n i g s) as A.
  { induction n; intros; simpl; auto. rewrite H by lia. apply IHn; lia. }
  destruct (Z_le_gt_dec lo (hi + 1)).
  - apply A; lia.
  - replace (Z.to_nat (hi + 1 - lo)) with O by lia. reflexivity.
Qed.

(** A loop that stores [g i] into cell [i]. *)
Lemma for_up_store {A : Type} lo hi (g : Z -> A) a j : (lo <= j <= hi)%Z ->
  for_up lo hi (fun i a => upd a i (g i)) a j = g j.
Proof.
  intros Hj.
  floop (fun i (a : Z -> A) => (forall j, (lo <= j < i)%Z -> a j = g j)).
  - intros; lia.
  - intros i s Hi IH x Hx. destruct (Z.eq_dec x i) as [->|Hne].
    + apply upd_same.
    + rewrite upd_diff by auto. apply IH. lia.
  - intros s H. apply H. lia.
Qed.

Lemma for_up_store_out {A : Type} lo hi (g : Z -> A) a j : (j < lo \/ hi < j)%Z ->
  for_up lo hi (fun i a => upd a i (g i)) a j = a j.
Proof.
  intros Hj. destruct (Z_le_gt_dec lo (hi + 1)); [|rewrite for_up_empty by lia; reflexivity].
  floop (fun (i : Z) (b : Z -> A) => b j = a j).
  - reflexivity.
  - intros i s Hi IH. rewrite upd_diff by lia. auto.
  - auto.
Qed.

Lemma Evaluate1_point n p U P r X junk junkC i : (0 <= p)%Z -> (0 <= i <= r)%Z ->
  Evaluate1 (N:=Rn) n p U P r X junk junkC i = pc U (FindSpan (N:=Rn) n p (X i) U) p P (X i).
Proof.
  intros Hp Hi. rewrite <- (CurvePoint_piece n p U P (X i) junk) by auto.
  unfold Evaluate1. cbv zeta.
  pose proof (@for_up_store R 0 r (fun i => CurvePoint (N:=Rn) n p U P (X i) junk) junkC i Hi) as E.
  rewrite <- E. reflexivity.
Qed.

Lemma tables_spec n p U r X junk sj bj i : (0 <= i <= r)%Z ->
  fst (tables (N:=Rn) n p U r X junk sj bj) i = FindSpan (N:=Rn) n p (X i) U /\
  snd (tables (N:=Rn) n p U r X junk sj bj) i = BasisFuns (N:=Rn) (FindSpan (N:=Rn) n p (X i) U) (X i) p U junk.
Proof.
  intros Hi. unfold tables.
  floop (fun k (s : (Z -> Z) * (Z -> Z -> R)) => forall j, (0 <= j < k)%Z ->
    fst s j = FindSpan (N:=Rn) n p (X j) U /\
    snd s j = BasisFuns (N:=Rn) (FindSpan (N:=Rn) n p (X j) U) (X j) p U junk).
  - intros; lia.
  - intros k [sp bs] Hk IH j Hj. cbn [fst snd] in *. destruct (Z.eq_dec j k) as [->|Hne].
    + rewrite !upd_same. auto.
    + rewrite !upd_diff by auto. apply IH. lia.
  - intros s H. apply H. lia.
Qed.

(** Local tensor-product value. *)
Definition pc2 (U : Z -> R) (k p : Z) (V : Z -> R) (l q : Z) (P : Z -> Z -> R) (u v : R) : R :=
  pc U k p (fun i => pc V l q (fun j => P i j) v) u.
Definition pc3 (U : Z -> R) (k p : Z) (V : Z -> R) (l q : Z) (W : Z -> R) (m r : Z)
    (P : Z -> Z -> Z -> R) (u v w : R) : R :=
  pc U k p (fun i => pc2 V l q W m r (P i) v w) u.

Lemma pc_local U k p P u (bs : Z -> R) : (0 <= p)%Z ->
  (forall r, (0 <= r <= p)%Z -> bs r = B U k (Z.to_nat p) (k - p + r) u) ->
  pc U k p P u = sumZ 0 p (fun j => bs j * P (k - p + j)%Z).
Proof.
  intros Hp Hb. unfold pc. rewrite (sumZ_shift' (k - p) k (k - p)).
  replace (k - p - (k - p))%Z with 0%Z by lia. replace (k - (k - p))%Z with p by lia.
  apply sumZ_ext. intros j Hj. rewrite Hb by lia. replace (k - p + j)%Z with (j + (k - p))%Z by lia. lra.
Qed.

(** A nested store loop. *)
Lemma for_up_store2 {A : Type} lo hi lo' hi' (g : Z -> Z -> A) a i j : (lo <= i <= hi)%Z -> (lo' <= j <= hi')%Z ->
  for_up lo hi (fun i a => for_up lo' hi' (fun j a => upd2 a j i (g i j)) a) a j i = g i j.
Proof.
  intros Hi Hj.
  floop (fun x (a : Z -> Z -> A) => forall i j, (lo <= i < x)%Z -> (lo' <= j <= hi')%Z -> a j i = g i j).
  - intros; lia.
  - intros x s Hx IH i' j' Hi' Hj'.
    floop (fun y (a : Z -> Z -> A) => forall i j, (lo <= i < x)%Z /\ (lo' <= j <= hi')%Z \/ (i = x /\ lo' <= j < y)%Z -> a j i = g i j).
    + intros i2 j2 [Hc|Hc]; [apply IH; lia|lia].
    + intros y s' Hy IH' i2 j2 Hc.
      destruct (Z.eq_dec i2 x) as [->|Hne]; [destruct (Z.eq_dec j2 y) as [->|Hne']|].
      * apply upd2_same.
      * rewrite upd2_diff by lia. apply IH'. lia.
      * rewrite upd2_diff by lia. apply IH'. lia.
    + intros s' H. apply H. lia.
  - intros s H. apply H; lia.
Qed.

Lemma upd3_same {A} (a : Z -> Z -> Z -> A) i j k v : upd3 a i j k v i j k = v.
Proof. unfold upd3. rewrite !Z.eqb_refl. reflexivity. Qed.
Lemma upd3_diff {A} (a : Z -> Z -> Z -> A) i j k x y z v : (x <> i \/ y <> j \/ z <> k) -> upd3 a i j k v x y z = a x y z.
Proof.
  unfold upd3. intros. destruct (Z.eqb_spec x i), (Z.eqb_spec y j), (Z.eqb_spec z k); simpl; auto; lia.
Qed.

Lemma for_up_store3 {A : Type} lo hi lo' hi' lo2 hi2 (g : Z -> Z -> Z -> A) a i j k :
  (lo <= i <= hi)%Z -> (lo' <= j <= hi')%Z -> (lo2 <= k <= hi2)%Z ->
  for_up lo hi (fun i a => for_up lo' hi' (fun j a => for_up lo2 hi2 (fun k a => upd3 a k j i (g i j k)) a) a) a k j i = g i j k.
Proof.
  intros Hi Hj Hk.
  floop (fun x (a : Z -> Z -> Z -> A) => forall i j k, (lo <= i < x)%Z -> (lo' <= j <= hi')%Z -> (lo2 <= k <= hi2)%Z -> a k j i = g i j k).
  - intros; lia.
  - intros x s Hx IH i' j' k' Hi' Hj' Hk'.
    floop (fun y (a : Z -> Z -> Z -> A) => forall i j k, (lo2 <= k <= hi2)%Z ->
       (lo <= i < x)%Z /\ (lo' <= j <= hi')%Z \/ (i = x /\ lo' <= j < y)%Z -> a k j i = g i j k).
    + intros i2 j2 k2 H2 [Hc|Hc]; [apply IH; lia|lia].
    + intros y s' Hy IH' i2 j2 k2 H2 Hc.
      floop (fun z (a : Z -> Z -> Z -> A) => forall i j k, (lo2 <= k <= hi2)%Z /\
         ((lo <= i < x)%Z /\ (lo' <= j <= hi')%Z \/ (i = x /\ lo' <= j < y)%Z) \/ (i = x /\ j = y /\ lo2 <= k < z)%Z -> a k j i = g i j k).
      * intros i3 j3 k3 [Hc3|Hc3]; [apply IH'; lia|lia].
      * intros z s3 Hz IH3 i3 j3 k3 Hc3.
        destruct (Z.eq_dec i3 x) as [->|Hne]; [destruct (Z.eq_dec j3 y) as [->|Hne']; [destruct (Z.eq_dec k3 z) as [->|Hne2]|]|];
          try (rewrite upd3_diff by lia; apply IH3; lia).
        apply upd3_same.
      * intros s3 H3. apply H3. lia.
    + intros s' H. apply H; lia.
  - intros s H. apply H; lia.
Qed.

Lemma for_up_sum2 lo hi lo' hi' (f : Z -> Z -> R) c :
  for_up lo hi (fun i C => for_up lo' hi' (fun j C => C + f i j) C) c =
  c + sumZ lo hi (fun i => sumZ lo' hi' (fun j => f i j)).
Proof.
  rewrite (for_up_ext lo hi _ (fun i C => C + sumZ lo' hi' (fun j => f i j))).
  - apply for_up_sum.
  - intros. apply for_up_sum.
Qed.

Lemma for_up_sum3 lo hi lo' hi' lo2 hi2 (f : Z -> Z -> Z -> R) c :
  for_up lo hi (fun i C => for_up lo' hi' (fun j C => for_up lo2 hi2 (fun k C => C + f i j k) C) C) c =
  c + sumZ lo hi (fun i => sumZ lo' hi' (fun j => sumZ lo2 hi2 (fun k => f i j k))).
Proof.
  rewrite (for_up_ext lo hi _ (fun i C => C + sumZ lo' hi' (fun j => sumZ lo2 hi2 (fun k => f i j k)))).
  - apply for_up_sum.
  - intros. apply for_up_sum2.
Qed.

Lemma Evaluate2_point nx px Ux ny py Uy P rx X ry Y junk sj bj junkC i j :
  (0 <= px)%Z -> (0 <= py)%Z -> (0 <= i <= rx)%Z -> (0 <= j <= ry)%Z ->
  Evaluate2 (N:=Rn) nx px Ux ny py Uy P rx X ry Y junk sj bj junkC j i =
  pc2 Ux (FindSpan (N:=Rn) nx px (X i) Ux) px Uy (FindSpan (N:=Rn) ny py (Y j) Uy) py
      (fun a b => P b a) (X i) (Y j).
Proof.
  intros Hpx Hpy Hi Hj. unfold Evaluate2.
  pose proof (fun i => tables_spec nx px Ux rx X junk sj bj i) as Tx.
  pose proof (fun i => tables_spec ny py Uy ry Y junk sj bj i) as Ty.
  destruct (tables nx px Ux rx X junk sj bj) as [sx bx].
  destruct (tables ny py Uy ry Y junk sj bj) as [sy by_]. cbn [fst snd] in *.
  cbv zeta.
  match goal with |- for_up 0 rx (fun ix Cw => for_up 0 ry (fun iy Cw => upd2 Cw iy ix (@?g ix iy)) Cw) junkC j i = _ =>
    rewrite (@for_up_store2 (T Rn) 0 rx 0 ry g junkC i j Hi Hj) end.
  cbv beta.
  destruct (Tx i Hi) as [Ex Bx]. destruct (Ty j Hj) as [Ey By]. rewrite Ex, Ey, Bx, By. rn.
  set (kx := FindSpan nx px (X i) Ux). set (ky := FindSpan ny py (Y j) Uy).
  rewrite for_up_sum2. rewrite Rplus_0_l. unfold pc2.
  rewrite (pc_local _ _ _ _ _ (BasisFuns (N:=Rn) kx (X i) px Ux junk)); auto.
  2:{ intros. apply BasisFuns_piece; auto. }
  apply sumZ_ext. intros a Ha.
  rewrite (pc_local _ _ _ _ _ (BasisFuns (N:=Rn) ky (Y j) py Uy junk)); auto.
  2:{ intros. apply BasisFuns_piece; auto. }
  rewrite <- sumZ_scal. apply sumZ_ext. intros. lra.
Qed.

Lemma Evaluate3_point nx px Ux ny py Uy nz pz Uz P rx X ry Y rz W junk sj bj junkC i j k :
  (0 <= px)%Z -> (0 <= py)%Z -> (0 <= pz)%Z -> (0 <= i <= rx)%Z -> (0 <= j <= ry)%Z -> (0 <= k <= rz)%Z ->
  Evaluate3 (N:=Rn) nx px Ux ny py Uy nz pz Uz P rx X ry Y rz W junk sj bj junkC k j i =
  pc3 Ux (FindSpan (N:=Rn) nx px (X i) Ux) px Uy (FindSpan (N:=Rn) ny py (Y j) Uy) py
      Uz (FindSpan (N:=Rn) nz pz (W k) Uz) pz (fun a b c => P c b a) (X i) (Y j) (W k).
Proof.
  intros Hpx Hpy Hpz Hi Hj Hk. unfold Evaluate3.
  pose proof (fun i => tables_spec nx px Ux rx X junk sj bj i) as Tx.
  pose proof (fun i => tables_spec ny py Uy ry Y junk sj bj i) as Ty.
  pose proof (fun i => tables_spec nz pz Uz rz W junk sj bj i) as Tz.
  destruct (tables nx px Ux rx X junk sj bj) as [sx bx].
  destruct (tables ny py Uy ry Y junk sj bj) as [sy by_].
  destruct (tables nz pz Uz rz W junk sj bj) as [sz bz]. cbn [fst snd] in *.
  cbv zeta.
  match goal with |- for_up 0 rx (fun ix Cw => for_up 0 ry (fun iy Cw => for_up 0 rz (fun iz Cw => upd3 Cw iz iy ix (@?g ix iy iz)) Cw) Cw) junkC k j i = _ =>
    rewrite (@for_up_store3 (T Rn) 0 rx 0 ry 0 rz g junkC i j k Hi Hj Hk) end.
  cbv beta.
  destruct (Tx i Hi) as [Ex Bx]. destruct (Ty j Hj) as [Ey By]. destruct (Tz k Hk) as [Ez Bz].
  rewrite Ex, Ey, Ez, Bx, By, Bz. rn.
  set (kx := FindSpan nx px (X i) Ux). set (ky := FindSpan ny py (Y j) Uy). set (kz := FindSpan nz pz (W k) Uz).
  rewrite for_up_sum3. rewrite Rplus_0_l. unfold pc3, pc2.
  rewrite (pc_local _ _ _ _ _ (BasisFuns (N:=Rn) kx (X i) px Ux junk)); auto.
  2:{ intros. apply BasisFuns_piece; auto. }
  apply sumZ_ext. intros a Ha.
  rewrite (pc_local _ _ _ _ _ (BasisFuns (N:=Rn) ky (Y j) py Uy junk)); auto.
  2:{ intros. apply BasisFuns_piece; auto. }
  rewrite <- sumZ_scal. apply sumZ_ext. intros b Hb.
  rewrite (pc_local _ _ _ _ _ (BasisFuns (N:=Rn) kz (W k) pz Uz junk)); auto.
  2:{ intros. apply BasisFuns_piece; auto. }
  rewrite <- sumZ_scal, <- sumZ_scal. apply sumZ_ext. intros. lra.
Qed.

(** The nested one-dimensional form equals the full tensor sum. *)
Lemma surface_nested n p U m q V P u v :
  surface n p U m q V P u v = curve n p U (fun i => curve m q V (P i) v) u.
Proof.
  unfold surface, curve. apply sumZ_ext. intros. rewrite <- sumZ_scal. apply sumZ_ext. intros; lra.
Qed.
Lemma volume_nested n p U m q V l r W P u v w :
  volume n p U m q V l r W P u v w = curve n p U (fun i => surface m q V l r W (P i) v w) u.
Proof.
  unfold volume, surface, curve. apply sumZ_ext. intros. rewrite <- sumZ_scal. apply sumZ_ext. intros.
  rewrite <- sumZ_scal. apply sumZ_ext. intros; lra.
Qed.
