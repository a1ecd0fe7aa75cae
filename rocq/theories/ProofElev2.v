(** Degree elevation: the removal phase. *)
From Coq Require Import ZArith Reals List Lia Lra Permutation.
From Verif Require Import Num Loop Spec SumZ BPiece BLink ModelNurbs ModelBspline Blossom ProofElev1.
Import ListNotations.
Local Open Scope R_scope.
Local Arguments Z.add : simpl never.
Local Arguments Z.sub : simpl never.
Local Arguments Z.of_nat : simpl never.
Local Arguments Z.mul : simpl never.
Local Arguments Z.div : simpl never.

Section Removal.
Variables (F : list R -> R) (ph K oldr : Z) (Uh : Z -> R) (ua ub : R).
Hypothesis HF : polar (Z.to_nat ph) F.
Hypothesis Hr : (2 <= oldr <= ph - 2)%Z.
Hypothesis HK : (ph + 1 <= K)%Z.
Hypothesis Hlt : ua < ub.
Hypothesis Hleft : forall j, (K - oldr <= j <= K - 1)%Z -> Uh j < ua.
Hypothesis Hbet : forall k, (0 <= k)%Z -> (k <= ph - oldr - 2)%Z -> (k <= (oldr + 1) / 2 - 2)%Z -> Uh (K - 1 - k)%Z = Uh (K - 1)%Z.
Let lbz := ((oldr + 2) / 2)%Z.
Let cind := (K - (oldr + 1) / 2)%Z.
Let Lx (x : Z) : list R := wz Uh (K - 1 - x) x.
Let Qf (s x : Z) : R := F (Lx x ++ rp ua (ph - Z.max x s) ++ rp ub (Z.max x s - x)).
Let ef (s y : Z) : R := F (Lx (Z.max s y - y) ++ rp ua (ph - Z.max s y) ++ rp ub y).

Lemma Lx_S x : (0 <= x)%Z -> Lx (x + 1) = Uh (K - 1 - x)%Z :: Lx x.
Proof. intros. unfold Lx. rewrite wz_cons by lia. f_equal; f_equal; lia. Qed.
Lemma Lx_length x : length (Lx x) = Z.to_nat x.
Proof. apply wz_length. Qed.
Lemma half_facts : (2 * ((oldr + 1) / 2) <= oldr + 1 < 2 * ((oldr + 1) / 2) + 2)%Z /\ (2 * lbz <= oldr + 2 < 2 * lbz + 2)%Z.
Proof.
  unfold lbz. pose proof (Z.div_mod (oldr + 1) 2 ltac:(lia)). pose proof (Z.mod_pos_bound (oldr + 1) 2).
  pose proof (Z.div_mod (oldr + 2) 2 ltac:(lia)). pose proof (Z.mod_pos_bound (oldr + 2) 2). lia.
Qed.
Lemma Qf_step tr x : (1 <= tr <= oldr - 1)%Z -> (0 <= x <= tr)%Z ->
  Qf (tr + 1) x = (ub - Uh (K - 1 - x)%Z) / (ua - Uh (K - 1 - x)%Z) * Qf tr x + (1 - (ub - Uh (K - 1 - x)%Z) / (ua - Uh (K - 1 - x)%Z)) * Qf (tr + 1) (x + 1).
Proof.
  intros Ht Hx. unfold Qf. rewrite !Z.max_r by lia. rewrite Lx_S by lia.
  set (X := Uh (K - 1 - x)%Z). assert (HX : X < ua) by (apply Hleft; lia).
  replace (tr + 1 - x)%Z with (tr - x + 1)%Z by lia. rewrite (rp_S ub) by lia.
  replace (ph - tr)%Z with (ph - (tr + 1) + 1)%Z by lia. rewrite (rp_S ua) by lia.
  replace (tr + 1 - (x + 1))%Z with (tr - x)%Z by lia.
  set (C := Lx x). set (D := rp ua (ph - (tr + 1))). set (E := rp ub (tr - x)).
  assert (Hlen : S (length (C ++ D ++ E)) = Z.to_nat ph).
  { rewrite !app_length. unfold C, D, E. rewrite !rp_length, Lx_length. lia. }
  assert (G1 : F (C ++ D ++ ub :: E) = F (C ++ ub :: D ++ E)).
  { apply (pl_perm _ _ HF); [rewrite !app_length in *; simpl; lia|]. apply Permutation_app_head, perm_mid. }
  assert (G2 : F ((X :: C) ++ D ++ E) = F (C ++ X :: D ++ E)).
  { apply (pl_perm _ _ HF); [simpl; auto|]. cbn [app]. apply Permutation_middle. }
  rewrite G1, G2. change ((ua :: D) ++ E) with (ua :: D ++ E). apply (pl_slot (Z.to_nat ph)); auto. lra.
Qed.
Lemma ef_step tr y X : (1 <= tr <= oldr - 1)%Z -> (0 <= y <= tr)%Z -> X = Uh (K - 1 - (tr - y))%Z ->
  ef (tr + 1) y = (ub - X) / (ub - ua) * ef tr y + (1 - (ub - X) / (ub - ua)) * ef (tr + 1) (y + 1).
Proof.
  intros Ht Hy EX. unfold ef. rewrite !Z.max_l by lia.
  replace (tr + 1 - y)%Z with (tr - y + 1)%Z by lia. rewrite Lx_S by lia. rewrite <- EX.
  replace (ph - tr)%Z with (ph - (tr + 1) + 1)%Z by lia. rewrite (rp_S ua) by lia.
  replace (tr + 1 - (y + 1))%Z with (tr - y)%Z by lia. rewrite (rp_S ub) by lia.
  set (C := Lx (tr - y)). set (D := rp ua (ph - (tr + 1))). set (E := rp ub y).
  assert (Hlen : S (length (C ++ D ++ E)) = Z.to_nat ph).
  { rewrite !app_length. unfold C, D, E. rewrite !rp_length, Lx_length. lia. }
  assert (G1 : F (C ++ D ++ ub :: E) = F (C ++ ub :: D ++ E)).
  { apply (pl_perm _ _ HF); [rewrite !app_length in *; simpl; lia|]. apply Permutation_app_head, perm_mid. }
  assert (G2 : F ((X :: C) ++ D ++ E) = F (C ++ X :: D ++ E)).
  { apply (pl_perm _ _ HF); [simpl; auto|]. cbn [app]. apply Permutation_middle. }
  rewrite G1, G2. change ((ua :: D) ++ E) with (ua :: D ++ E).
  rewrite (pl_slot (Z.to_nat ph) F ua ub X C (D ++ E)); auto; [|lra].
  replace ((X - ub) / (ua - ub)) with ((ub - X) / (ub - ua)) by (field; lra). reflexivity.
Qed.

Variables (Q0 e0 : Z -> R).
Hypothesis HQ0 : forall x, ((oldr + 1) / 2 <= x <= oldr)%Z -> Q0 (K - 1 - x)%Z = F (Lx x ++ rp ua (ph - x)).
Hypothesis He0 : forall y, (lbz <= y <= ph)%Z -> e0 y = F (rp ua (ph - y) ++ rp ub y).

Let okQ (s : Z) (Q : Z -> R) : Prop :=
  (forall x, ((oldr + 1) / 2 <= x <= oldr)%Z -> Q (K - 1 - x)%Z = Qf s x) /\ (forall i, (i <= K - 1 - oldr)%Z -> Q i = Q0 i).
Let oke (s : Z) (e : Z -> R) : Prop := forall y, (lbz <= y <= ph)%Z -> e y = ef s y.
Let inner (tr : Z) (s : (Z -> R) * (Z -> R) * Z * Z * Z) : Prop :=
  let '(Q, e, i, j, kj) := s in exists k, (0 <= k)%Z /\ (2 * k <= tr + 1)%Z /\ i = (K - 1 - tr + k)%Z /\ j = (K - 1 + tr - k)%Z /\ kj = (tr - k)%Z /\
    (forall x, ((oldr + 1) / 2 <= x <= oldr)%Z -> Q (K - 1 - x)%Z = Qf (if (tr - k <? x)%Z then tr + 1 else tr)%Z x) /\
    (forall i, (i <= K - 1 - oldr)%Z -> Q i = Q0 i) /\
    (forall y, (lbz <= y <= ph)%Z -> e y = ef (if (tr - k <? y)%Z then tr + 1 else tr)%Z y).

Lemma inner_step tr s : (1 <= tr <= oldr - 1)%Z -> inner tr s ->
  (let '(_, _, i, j, _) := s in tr <? j - i)%Z = true ->
  inner tr (Elev_remove_step (N:=Rn) K ph cind lbz oldr tr Uh ua ub (ub - ua) ((ub - Uh (K - 1)%Z) / (ub - ua)) s).
Proof.
  destruct s as [[[[Q e] i] j] kj]. intros Ht (k & Hk0 & Hk & -> & -> & -> & HQ & HQl & He) Hc.
  apply Z.ltb_lt in Hc. destruct half_facts as [A1 A2].
  unfold Elev_remove_step, inner. rn. exists (k + 1)%Z. repeat split; try lia.
  - intros x Hx. destruct (Z.ltb_spec (K - 1 - tr + k) cind) as [Hci|Hci].
    + destruct (Z.eq_dec x (tr - k)) as [->|Hne].
      * replace (K - 1 - (tr - k))%Z with (K - 1 - tr + k)%Z by lia. rewrite upd_same.
        destruct (Z.ltb_spec (tr - (k + 1)) (tr - k)); [|lia]. rewrite Qf_step by lia.
        replace (K - 1 - (tr - k))%Z with (K - 1 - tr + k)%Z by lia. f_equal; f_equal.
        -- pose proof (HQ (tr - k)%Z ltac:(lia)) as E. replace (K - 1 - (tr - k))%Z with (K - 1 - tr + k)%Z in E by lia. rewrite E.
           destruct (Z.ltb_spec (tr - k) (tr - k)); [lia|]. reflexivity.
        -- pose proof (HQ (tr - k + 1)%Z ltac:(lia)) as E. replace (K - 1 - (tr - k + 1))%Z with (K - 1 - tr + k - 1)%Z in E by lia. rewrite E.
           destruct (Z.ltb_spec (tr - k) (tr - k + 1)); [|lia]. reflexivity.
      * rewrite upd_diff by lia. rewrite HQ by auto. f_equal. destruct (Z.ltb_spec (tr - k) x), (Z.ltb_spec (tr - (k + 1)) x); auto; lia.
    + rewrite HQ by auto. unfold cind in Hci. f_equal. destruct (Z.ltb_spec (tr - k) x), (Z.ltb_spec (tr - (k + 1)) x); auto; lia.
  - intros i Hi. destruct (Z.ltb_spec (K - 1 - tr + k) cind); [rewrite upd_diff by lia|]; apply HQl; auto.
  - intros y Hy. destruct (Z.leb_spec lbz (K - 1 + tr - k)); [|lia].
    destruct (Z.eq_dec y (tr - k)) as [->|Hne].
    + destruct (Z.ltb_spec (tr - (k + 1)) (tr - k)); [|lia].
      assert (E1 : e (tr - k)%Z = ef tr (tr - k)) by (rewrite He by lia; destruct (Z.ltb_spec (tr - k) (tr - k)); [lia|reflexivity]).
      assert (E2 : e (tr - k + 1)%Z = ef (tr + 1) (tr - k + 1)) by (rewrite He by lia; destruct (Z.ltb_spec (tr - k) (tr - k + 1)); [reflexivity|lia]).
      destruct (Z.leb_spec (K - 1 + tr - k - tr) (K - ph + oldr)); rewrite upd_same, E1, E2; symmetry; apply ef_step; try lia.
      * f_equal. lia.
      * rewrite <- (Hbet k) by lia. f_equal. lia.
    + assert (G : forall v, upd e (tr - k)%Z v y = ef (if (tr - (k + 1) <? y)%Z then (tr + 1)%Z else tr) y).
      { intros v. rewrite upd_diff by lia. rewrite He by auto. f_equal. destruct (Z.ltb_spec (tr - k) y), (Z.ltb_spec (tr - (k + 1)) y); auto; lia. }
      destruct (K - 1 + tr - k - tr <=? K - ph + oldr)%Z; apply G.
Qed.

Theorem Elev_remove_ok : let '(Q, e) := Elev_remove (N:=Rn) K ph cind lbz oldr Uh ua ub Q0 e0 in
  (forall x, ((oldr + 1) / 2 <= x <= oldr)%Z -> Q (K - 1 - x)%Z = F (Lx x ++ rp ua (ph - oldr) ++ rp ub (oldr - x))) /\
  (forall i, (i <= K - 1 - oldr)%Z -> Q i = Q0 i) /\
  (forall y, (lbz <= y <= oldr)%Z -> e y = F (Lx (oldr - y) ++ rp ua (ph - oldr) ++ rp ub y)) /\
  (forall y, (oldr <= y <= ph)%Z -> e y = F (rp ua (ph - y) ++ rp ub y)).
Proof.
  unfold Elev_remove. destruct (Z.ltb_spec 1 oldr); [|lia]. cbv zeta. rn. destruct half_facts as [A1 A2].
  floop (fun tr (s : (Z -> R) * (Z -> R) * Z * Z) => let '(Q, e, first, last) := s in okQ tr Q /\ oke tr e /\ first = (K - 1 - tr)%Z /\ last = (K - 1 + tr)%Z).
  - split; [split; auto|split; [|lia]].
    + intros x Hx. rewrite HQ0 by auto. unfold Qf. rewrite Z.max_l by lia. replace (x - x)%Z with 0%Z by lia. rewrite (rp_0 ub), app_nil_r by lia. reflexivity.
    + intros y Hy. rewrite He0 by auto. unfold ef. rewrite Z.max_r by lia. unfold Lx. rewrite (wz_0 _ _ (y - y)) by lia. reflexivity.
  - intros tr [[[Q e] first] last] Htr ([HQ HQl] & He & -> & ->).
    unfold whileD.
    destruct (while_total (inner tr) (fun s => let '(_, _, i, j, _) := s in Z.to_nat (j - i)) (fun '(_, _, i, j, _) => (tr <? j - i)%Z)
                (Elev_remove_step (N:=Rn) K ph cind lbz oldr tr Uh ua ub (ub - ua) ((ub - Uh (K - 1)%Z) / (ub - ua))))
      with (fuel := S (Z.to_nat (K - 1 + tr - (K - 1 - tr)))) (s := (Q, e, (K - 1 - tr)%Z, (K - 1 + tr)%Z, (K - 1 + tr - K + 1)%Z)) as (s' & E & I & C).
    + intros s I C. split.
      * apply inner_step; auto; try lia.
      * destruct s as [[[[Q1 e1] i] j] kj]. unfold Elev_remove_step. apply Z.ltb_lt in C. cbv zeta. lia.
    + exists 0%Z. repeat split; try lia.
      * intros x Hx. rewrite HQ by auto. unfold Qf. destruct (Z.ltb_spec (tr - 0) x); auto. rewrite !Z.max_l by lia. reflexivity.
      * auto.
      * intros y Hy. rewrite He by auto. unfold ef. destruct (Z.ltb_spec (tr - 0) y); auto. rewrite !Z.max_r by lia. reflexivity.
    + simpl. lia.
    + cbv beta iota in E. match goal with |- context [while ?a ?b ?c ?d] => replace (while a b c d) with (Some s') end.
      destruct s' as [[[[Q1 e1] i] j] kj]. destruct I as (k & Hk0 & Hk & -> & -> & -> & HQ' & HQl' & He').
      apply Z.ltb_ge in C. split; [split; auto|split; [|lia]].
      * intros x Hx. rewrite HQ' by auto. destruct (Z.ltb_spec (tr - k) x); [reflexivity|lia].
      * intros y Hy. rewrite He' by auto. destruct (Z.ltb_spec (tr - k) y); [reflexivity|lia].
  - intros [[[Q e] first] last] ([HQ HQl] & He & _ & _). replace (oldr - 1 + 1)%Z with oldr in * by lia. repeat split.
    + intros x Hx. rewrite HQ by auto. unfold Qf. rewrite Z.max_r by lia. reflexivity.
    + auto.
    + intros y Hy. rewrite He by lia. unfold ef. rewrite Z.max_l by lia. reflexivity.
    + intros y Hy. rewrite He by lia. unfold ef. rewrite Z.max_r by lia. unfold Lx. rewrite (wz_0 _ _ (y - y)) by lia. reflexivity.
Qed.
End Removal.
