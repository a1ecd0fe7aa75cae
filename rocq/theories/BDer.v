(** Derivatives of the polynomial pieces of B-splines. *)
From Coq Require Import ZArith Reals Lia Lra.
From Verif Require Import Spec SumZ BPiece BLink SpecDer.
Local Open Scope R_scope.

Lemma dl_ext f g x l : (forall y, f y = g y) -> derivable_pt_lim f x l -> derivable_pt_lim g x l.
Proof.
  intros E D eps He. destruct (D eps He) as [d Hd]. exists d. intros h Hh Hl. rewrite <- !E. auto.
Qed.

Lemma dl_const c x : derivable_pt_lim (fun _ => c) x 0.
Proof. apply (derivable_pt_lim_const c). Qed.
Lemma dl_id x : derivable_pt_lim (fun y => y) x 1.
Proof. apply derivable_pt_lim_id. Qed.
Lemma dl_plus f g x a b : derivable_pt_lim f x a -> derivable_pt_lim g x b ->
  derivable_pt_lim (fun y => f y + g y) x (a + b).
Proof. apply derivable_pt_lim_plus. Qed.
Lemma dl_minus f g x a b : derivable_pt_lim f x a -> derivable_pt_lim g x b ->
  derivable_pt_lim (fun y => f y - g y) x (a - b).
Proof. apply derivable_pt_lim_minus. Qed.
Lemma dl_mult f g x a b : derivable_pt_lim f x a -> derivable_pt_lim g x b ->
  derivable_pt_lim (fun y => f y * g y) x (a * g x + f x * b).
Proof. apply derivable_pt_lim_mult. Qed.
Lemma dl_scal c f x a : derivable_pt_lim f x a -> derivable_pt_lim (fun y => c * f y) x (c * a).
Proof. apply derivable_pt_lim_scal. Qed.
Lemma dl_div f g x a b : derivable_pt_lim f x a -> derivable_pt_lim g x b -> g x <> 0 ->
  derivable_pt_lim (fun y => f y / g y) x ((a * g x - b * f x) / (g x * g x)).
Proof. intros. replace (g x * g x) with (Rsqr (g x)) by reflexivity. apply derivable_pt_lim_div; auto. Qed.
Lemma dl_eq f x a b : a = b -> derivable_pt_lim f x a -> derivable_pt_lim f x b.
Proof. intros ->; auto. Qed.

Lemma dl_sumN n : forall i (f : Z -> R -> R) (l : Z -> R) x,
  (forall j, (i <= j < i + Z.of_nat n)%Z -> derivable_pt_lim (f j) x (l j)) ->
  derivable_pt_lim (fun y => sumN n i (fun j => f j y)) x (sumN n i l).
Proof.
  induction n; intros; simpl.
  - apply dl_const.
  - apply dl_plus; [apply H; lia|]. apply IHn. intros; apply H; lia.
Qed.
Lemma dl_sumZ lo hi (f : Z -> R -> R) (l : Z -> R) x :
  (forall j, (lo <= j <= hi)%Z -> derivable_pt_lim (f j) x (l j)) ->
  derivable_pt_lim (fun y => sumZ lo hi (fun j => f j y)) x (sumZ lo hi l).
Proof. intros. apply dl_sumN. intros. apply H. lia. Qed.

(** First derivative of a piece, as a difference of pieces of lower degree. *)
Lemma B_derive U k q : forall i u, span_ok U k (S q) ->
  derivable_pt_lim (B U k (S q) i) u
    (INR (S q) * (B U k q i u / (U (i + Z.of_nat q + 1)%Z - U i)
                  - B U k q (i + 1) u / (U (i + Z.of_nat q + 2)%Z - U (i + 1)%Z))).
Proof.
  induction q; intros i u Hok.
  - eapply dl_ext; [intros; symmetry; apply B_S|].
    eapply dl_eq; [| apply dl_plus; apply dl_mult].
    2:{ unfold Rdiv. apply (dl_mult (fun y => y - U i) (fun _ => / (U (i + Z.of_nat 0 + 1)%Z - U i)) u 1 0).
        - eapply dl_eq; [|apply dl_minus; [apply dl_id | apply dl_const]]. lra.
        - apply dl_const. }
    2:{ simpl. apply dl_const. }
    2:{ unfold Rdiv. apply (dl_mult (fun y => U (i + Z.of_nat 0 + 2)%Z - y) (fun _ => / (U (i + Z.of_nat 0 + 2)%Z - U (i + 1)%Z)) u (-1) 0).
        - eapply dl_eq; [|apply dl_minus; [apply dl_const | apply dl_id]]. lra.
        - apply dl_const. }
    2:{ simpl. apply dl_const. }
    change (INR 1) with 1. unfold Rdiv. lra.
  - assert (Hok' : span_ok U k (S q)) by (eapply span_ok_less; [|eauto]; lia).
    eapply dl_ext; [intros; symmetry; apply B_S|].
    eapply dl_eq; [| apply dl_plus; apply dl_mult].
    2:{ unfold Rdiv. apply (dl_mult (fun y => y - U i) (fun _ => / (U (i + Z.of_nat (S q) + 1)%Z - U i)) u 1 0).
        - eapply dl_eq; [|apply dl_minus; [apply dl_id | apply dl_const]]. lra.
        - apply dl_const. }
    2:{ apply IHq; auto. }
    2:{ unfold Rdiv. apply (dl_mult (fun y => U (i + Z.of_nat (S q) + 2)%Z - y) (fun _ => / (U (i + Z.of_nat (S q) + 2)%Z - U (i + 1)%Z)) u (-1) 0).
        - eapply dl_eq; [|apply dl_minus; [apply dl_const | apply dl_id]]. lra.
        - apply dl_const. }
    2:{ apply IHq; auto. }
    (* the algebraic identity *)
    rewrite (S_INR (S q)).
    replace (i + Z.of_nat (S q) + 1)%Z with (i + Z.of_nat q + 2)%Z by lia.
    replace (i + Z.of_nat (S q) + 2)%Z with (i + Z.of_nat q + 3)%Z by lia.
    replace (i + 1 + Z.of_nat q + 1)%Z with (i + Z.of_nat q + 2)%Z by lia.
    replace (i + 1 + Z.of_nat q + 2)%Z with (i + Z.of_nat q + 3)%Z by lia.
    replace (i + 1 + 1)%Z with (i + 2)%Z by lia.
    set (n1 := INR (S q)).
    assert (E : (u - U i) * / (U (i + Z.of_nat q + 2)%Z - U i) *
                  (B U k q i u / (U (i + Z.of_nat q + 1)%Z - U i) - B U k q (i + 1) u / (U (i + Z.of_nat q + 2)%Z - U (i + 1)%Z))
                + (U (i + Z.of_nat q + 3)%Z - u) * / (U (i + Z.of_nat q + 3)%Z - U (i + 1)%Z) *
                  (B U k q (i + 1) u / (U (i + Z.of_nat q + 2)%Z - U (i + 1)%Z) - B U k q (i + 2) u / (U (i + Z.of_nat q + 3)%Z - U (i + 2)%Z))
              = B U k (S q) i u / (U (i + Z.of_nat q + 2)%Z - U i)
                - B U k (S q) (i + 1) u / (U (i + Z.of_nat q + 3)%Z - U (i + 1)%Z)).
    { rewrite !B_S.
      replace (i + 1 + Z.of_nat q + 1)%Z with (i + Z.of_nat q + 2)%Z by lia.
      replace (i + 1 + Z.of_nat q + 2)%Z with (i + Z.of_nat q + 3)%Z by lia.
      replace (i + 1 + 1)%Z with (i + 2)%Z by lia.
      assert (M : forall b, b = 0 \/ (U (i + 1)%Z < U (i + Z.of_nat q + 2)%Z /\ U i <= U (i + 1)%Z /\ U (i + Z.of_nat q + 2)%Z <= U (i + Z.of_nat q + 3)%Z) ->
         (u - U i) * / (U (i + Z.of_nat q + 2)%Z - U i) * - (b / (U (i + Z.of_nat q + 2)%Z - U (i + 1)%Z))
         + (U (i + Z.of_nat q + 3)%Z - u) * / (U (i + Z.of_nat q + 3)%Z - U (i + 1)%Z) * (b / (U (i + Z.of_nat q + 2)%Z - U (i + 1)%Z))
         = (U (i + Z.of_nat q + 2)%Z - u) / (U (i + Z.of_nat q + 2)%Z - U (i + 1)%Z) * b / (U (i + Z.of_nat q + 2)%Z - U i)
           - (u - U (i + 1)%Z) / (U (i + Z.of_nat q + 2)%Z - U (i + 1)%Z) * b / (U (i + Z.of_nat q + 3)%Z - U (i + 1)%Z)).
      { intros b [-> | [H1 [H2 H3]]]; [unfold Rdiv; lra | field; lra]. }
      specialize (M (B U k q (i + 1) u)).
      assert (C : B U k q (i + 1) u = 0 \/ (U (i + 1)%Z < U (i + Z.of_nat q + 2)%Z /\ U i <= U (i + 1)%Z /\ U (i + Z.of_nat q + 2)%Z <= U (i + Z.of_nat q + 3)%Z)).
      { destruct (Z_lt_le_dec (i + 1) (k - Z.of_nat q)); [left; apply B_zero; lia|].
        destruct (Z_lt_le_dec k (i + 1)); [left; apply B_zero; lia|]. right.
        destruct Hok as [Mn Ln].
        assert (U (i + 1)%Z <= U k) by (apply Mn; lia).
        assert (U (k + 1)%Z <= U (i + Z.of_nat q + 2)%Z) by (apply Mn; lia).
        split; [lra|]. split; apply Mn; lia. }
      specialize (M C). unfold Rdiv in *. lra. }
    unfold Rdiv in *.
    match goal with |- ?L = _ => replace L with
      (B U k (S q) i u * / (U (i + Z.of_nat q + 2)%Z - U i) - B U k (S q) (i + 1) u * / (U (i + Z.of_nat q + 3)%Z - U (i + 1)%Z)
       + n1 * ((u - U i) * / (U (i + Z.of_nat q + 2)%Z - U i) *
                  (B U k q i u * / (U (i + Z.of_nat q + 1)%Z - U i) - B U k q (i + 1) u * / (U (i + Z.of_nat q + 2)%Z - U (i + 1)%Z))
                + (U (i + Z.of_nat q + 3)%Z - u) * / (U (i + Z.of_nat q + 3)%Z - U (i + 1)%Z) *
                  (B U k q (i + 1) u * / (U (i + Z.of_nat q + 2)%Z - U (i + 1)%Z) - B U k q (i + 2) u * / (U (i + Z.of_nat q + 3)%Z - U (i + 2)%Z))))
      by lra end.
    rewrite E. lra.
Qed.

(** ** Higher derivatives, in the form used by the algorithm of the NURBS book *)

(** Coefficients of the m-th derivative of the i-th B-spline of degree p with respect to the
    B-splines of degree p-m. *)
Fixpoint ac (U : Z -> R) (p i : Z) (m : nat) (j : Z) : R :=
  match m with
  | O => if (j =? 0)%Z then 1 else 0
  | S m' => (ac U p i m' j - ac U p i m' (j - 1)) / (U (i + j + p - Z.of_nat m')%Z - U (i + j)%Z)
  end.

Lemma ac_out U p i m : forall j, (j < 0 \/ Z.of_nat m < j)%Z -> ac U p i m j = 0.
Proof.
  induction m; intros j Hj; cbn [ac].
  - destruct (Z.eqb_spec j 0); [lia|reflexivity].
  - rewrite !IHm by lia. unfold Rdiv. lra.
Qed.

(** Falling factorial p (p-1) ... (p-m+1). *)
Fixpoint ffact (p : Z) (m : nat) : Z :=
  match m with O => 1%Z | S m' => (ffact p m' * (p - Z.of_nat m'))%Z end.

Lemma ffact_zero p m : (0 <= p < Z.of_nat m)%Z -> ffact p m = 0%Z.
Proof.
  induction m; intros H; [lia|]. cbn [ffact]. destruct (Z.eq_dec p (Z.of_nat m)); [subst; lia|].
  rewrite IHm by lia. lia.
Qed.

Definition gder (U : Z -> R) (k p i : Z) (m : nat) (u : R) : R :=
  IZR (ffact p m) * sumZ 0 (Z.of_nat m) (fun j => ac U p i m j * B U k (Z.to_nat (p - Z.of_nat m)) (i + j) u).

Lemma gder_0 U k p i u : gder U k p i 0 u = B U k (Z.to_nat p) i u.
Proof.
  unfold gder. simpl Z.of_nat. rewrite sumZ_single. cbn [ac ffact]. simpl.
  replace (p - 0)%Z with p by lia. replace (i + 0)%Z with i by lia. lra.
Qed.

Lemma gder_derive U k p i m u : (0 <= p)%Z -> span_ok U k (Z.to_nat p) ->
  derivable_pt_lim (gder U k p i m) u (gder U k p i (S m) u).
Proof.
  intros Hp Hok. unfold gder.
  destruct (Z_lt_le_dec (Z.of_nat m) p) as [Hm|Hm].
  2:{ (* order p+1 and above *)
      rewrite (ffact_zero p (S m)) by lia. rewrite Rmult_0_l.
      replace (Z.to_nat (p - Z.of_nat m)) with O by lia. simpl B. apply dl_const. }
  set (q := Z.to_nat (p - Z.of_nat (S m))).
  replace (Z.to_nat (p - Z.of_nat m)) with (S q) by lia.
  assert (Hok' : span_ok U k (S q)) by (eapply span_ok_less; [|eauto]; lia).
  eapply dl_eq; [| apply dl_scal; apply dl_sumZ; intros; apply dl_scal; apply B_derive; auto].
  cbn [ffact]. rewrite mult_IZR, Rmult_assoc. f_equal.
  assert (EP : INR (S q) = IZR (p - Z.of_nat m)) by (rewrite INR_IZR_INZ; f_equal; lia).
  rewrite EP.
  transitivity (IZR (p - Z.of_nat m) * (
     sumZ 0 (Z.of_nat (S m)) (fun j => ac U p i m j * (B U k q (i + j) u / (U (i + j + p - Z.of_nat m)%Z - U (i + j)%Z)))
     - sumZ 0 (Z.of_nat (S m)) (fun j => ac U p i m (j - 1) * (B U k q (i + j) u / (U (i + j + p - Z.of_nat m)%Z - U (i + j)%Z))))).
  - rewrite (sumZ_last 0 (Z.of_nat (S m)) (fun j => ac U p i m j * _)) by lia.
    rewrite (ac_out U p i m (Z.of_nat (S m))) by lia.
    rewrite (sumZ_first 0 (Z.of_nat (S m)) (fun j => ac U p i m (j - 1) * _)) by lia.
    rewrite (ac_out U p i m (0 - 1)) by lia.
    rewrite !Rmult_0_l, Rplus_0_r, Rplus_0_l.
    replace (Z.of_nat (S m) - 1)%Z with (Z.of_nat m) by lia.
    rewrite (sumZ_shift' (0 + 1) (Z.of_nat (S m)) 1).
    replace (0 + 1 - 1)%Z with 0%Z by lia. replace (Z.of_nat (S m) - 1)%Z with (Z.of_nat m) by lia.
    rewrite <- sumZ_minus, <- sumZ_scal. apply sumZ_ext. intros j Hj.
    replace (j + 1 - 1)%Z with j by lia.
    replace (i + j + Z.of_nat q + 1)%Z with (i + j + p - Z.of_nat m)%Z by lia.
    replace (i + j + Z.of_nat q + 2)%Z with (i + (j + 1) + p - Z.of_nat m)%Z by lia.
    replace (i + j + 1)%Z with (i + (j + 1))%Z by lia. lra.
  - rewrite <- sumZ_minus. f_equal. apply sumZ_ext. intros j Hj. cbn [ac]. unfold Rdiv. lra.
Qed.

Lemma gder_nth U k p i m : (0 <= p)%Z -> span_ok U k (Z.to_nat p) -> forall a,
  nth_deriv m (gder U k p i a) (gder U k p i (a + m)).
Proof.
  intros Hp Hok. induction m; intros a.
  - simpl. intros. replace (a + 0)%nat with a by lia. reflexivity.
  - exists (gder U k p i (S a)). split.
    + intros. apply gder_derive; auto.
    + replace (a + S m)%nat with (S a + m)%nat by lia. apply IHm.
Qed.
