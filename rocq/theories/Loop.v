(** Fortran loops, arrays and finite sums.

    These definitions give the meaning of the control constructs used throughout
    igakit/igalib.f90 (do loops, do while loops, forall, array element assignment);
    they model the language rather than one particular routine. *)
From Coq Require Import ZArith Lia Bool List.
Local Open Scope Z_scope.

(** [do i = lo, hi]: structural recursion on the trip count.
    First use: igakit/igalib.f90:40. *)
Fixpoint iter_up {S : Type} (n : nat) (i : Z) (body : Z -> S -> S) (s : S) : S :=
  match n with
  | O => s
  | Datatypes.S n' => iter_up n' (i + 1) body (body i s)
  end.
Definition for_up {S : Type} (lo hi : Z) (body : Z -> S -> S) (s : S) : S :=
  iter_up (Z.to_nat (hi + 1 - lo)) lo body s.

(** [do i = hi, lo, -1].  First use: igakit/igalib.f90:426. *)
Fixpoint iter_down {S : Type} (n : nat) (i : Z) (body : Z -> S -> S) (s : S) : S :=
  match n with
  | O => s
  | Datatypes.S n' => iter_down n' (i - 1) body (body i s)
  end.
Definition for_down {S : Type} (hi lo : Z) (body : Z -> S -> S) (s : S) : S :=
  iter_down (Z.to_nat (hi + 1 - lo)) hi body s.

(** [do while (c)]; [None] means that the fuel ran out.
    First use: igakit/igalib.f90:23. *)
Fixpoint while {S : Type} (fuel : nat) (c : S -> bool) (body : S -> S) (s : S) : option S :=
  match fuel with
  | O => None
  | Datatypes.S f => if c s then while f c body (body s) else Some s
  end.

(** Array element assignment [a(i) = v]. *)
Definition upd {A : Type} (a : Z -> A) (i : Z) (v : A) : Z -> A :=
  fun j => if j =? i then v else a j.

(** Two-dimensional array element assignment [a(i,j) = v]. *)
Definition upd2 {A : Type} (a : Z -> Z -> A) (i j : Z) (v : A) : Z -> Z -> A :=
  fun x y => if (x =? i) && (y =? j) then v else a x y.

(** [forall (j = lo:hi) a(j) = f(j)] and array section assignment. *)
Definition fill {A : Type} (lo hi : Z) (f : Z -> A) (a : Z -> A) : Z -> A :=
  fun j => if (lo <=? j) && (j <=? hi) then f j else a j.

Lemma iter_up_ind {S : Type} (P : Z -> S -> Prop) (body : Z -> S -> S) n :
  forall i s, P i s ->
  (forall j s, i <= j < i + Z.of_nat n -> P j s -> P (j + 1) (body j s)) ->
  P (i + Z.of_nat n) (iter_up n i body s).
Proof.
  induction n; intros i s H0 H.
  - simpl. replace (i + 0) with i by lia. exact H0.
  - simpl iter_up. replace (i + Z.of_nat (Datatypes.S n)) with ((i + 1) + Z.of_nat n) by lia.
    apply IHn.
    + apply H; auto; lia.
    + intros j s' Hj. apply H. lia.
Qed.

(** Invariant rule for [for_up]. *)
Lemma for_up_ind {S : Type} (P : Z -> S -> Prop) lo hi (body : Z -> S -> S) s :
  lo <= hi + 1 -> P lo s ->
  (forall j s, lo <= j <= hi -> P j s -> P (j + 1) (body j s)) ->
  P (hi + 1) (for_up lo hi body s).
Proof.
  intros Hlh H0 H. unfold for_up.
  replace (hi + 1) with (lo + Z.of_nat (Z.to_nat (hi + 1 - lo))) at 1 by lia.
  apply iter_up_ind; auto. intros j s' Hj. apply H. lia.
Qed.

Lemma for_up_empty {S : Type} lo hi (body : Z -> S -> S) s :
  hi < lo -> for_up lo hi body s = s.
Proof. intros. unfold for_up. replace (Z.to_nat (hi + 1 - lo)) with O by lia. reflexivity. Qed.

Lemma for_up_step {S : Type} lo hi (body : Z -> S -> S) s :
  lo <= hi -> for_up lo hi body s = for_up (lo + 1) hi body (body lo s).
Proof.
  intros. unfold for_up.
  replace (Z.to_nat (hi + 1 - lo)) with (Datatypes.S (Z.to_nat (hi + 1 - (lo + 1)))) by lia.
  reflexivity.
Qed.

Lemma iter_up_snoc {S : Type} (body : Z -> S -> S) n :
  forall i s, iter_up (Datatypes.S n) i body s = body (i + Z.of_nat n) (iter_up n i body s).
Proof.
  induction n; intros.
  - simpl. f_equal. lia.
  - change (iter_up (Datatypes.S (Datatypes.S n)) i body s) with
      (iter_up (Datatypes.S n) (i + 1) body (body i s)).
    rewrite IHn. change (iter_up (Datatypes.S n) i body s) with (iter_up n (i+1) body (body i s)).
    f_equal. lia.
Qed.

Lemma for_up_snoc {S : Type} lo hi (body : Z -> S -> S) s :
  lo <= hi -> for_up lo hi body s = body hi (for_up lo (hi - 1) body s).
Proof.
  intros. unfold for_up.
  replace (Z.to_nat (hi + 1 - lo)) with (Datatypes.S (Z.to_nat (hi - 1 + 1 - lo))) by lia.
  rewrite iter_up_snoc. f_equal. lia.
Qed.

(** Invariant rule for [for_down]. *)
Lemma iter_down_ind {S : Type} (P : Z -> S -> Prop) (body : Z -> S -> S) n :
  forall i s, P i s ->
  (forall j s, i - Z.of_nat n < j <= i -> P j s -> P (j - 1) (body j s)) ->
  P (i - Z.of_nat n) (iter_down n i body s).
Proof.
  induction n; intros i s H0 H.
  - simpl. replace (i - 0) with i by lia. exact H0.
  - simpl iter_down. replace (i - Z.of_nat (Datatypes.S n)) with ((i - 1) - Z.of_nat n) by lia.
    apply IHn.
    + apply H; auto; lia.
    + intros j s' Hj. apply H. lia.
Qed.

Lemma for_down_ind {S : Type} (P : Z -> S -> Prop) hi lo (body : Z -> S -> S) s :
  lo <= hi + 1 -> P hi s ->
  (forall j s, lo <= j <= hi -> P j s -> P (j - 1) (body j s)) ->
  P (lo - 1) (for_down hi lo body s).
Proof.
  intros Hlh H0 H. unfold for_down.
  replace (lo - 1) with (hi - Z.of_nat (Z.to_nat (hi + 1 - lo))) at 1 by lia.
  apply iter_down_ind; auto. intros j s' Hj. apply H. lia.
Qed.

Lemma for_down_empty {S : Type} hi lo (body : Z -> S -> S) s :
  hi < lo -> for_down hi lo body s = s.
Proof. intros. unfold for_down. replace (Z.to_nat (hi + 1 - lo)) with O by lia. reflexivity. Qed.

(** While loops: a decreasing natural measure bounds the fuel needed. *)
Lemma while_total {S : Type} (I : S -> Prop) (m : S -> nat) (c : S -> bool) (body : S -> S) :
  (forall s, I s -> c s = true -> I (body s) /\ (m (body s) < m s)%nat) ->
  forall fuel s, I s -> (m s < fuel)%nat ->
  exists s', while fuel c body s = Some s' /\ I s' /\ c s' = false.
Proof.
  intros H fuel. induction fuel; intros s Is Hm; [lia|].
  simpl. destruct (c s) eqn:E.
  - destruct (H s Is E) as [H1 H2]. apply IHfuel; auto. lia.
  - exists s. auto.
Qed.

(** Partial correctness: whenever the loop ends, the invariant holds. *)
Lemma while_inv {S : Type} (I : S -> Prop) (c : S -> bool) (body : S -> S) :
  (forall s, I s -> c s = true -> I (body s)) ->
  forall fuel s s', I s -> while fuel c body s = Some s' -> I s' /\ c s' = false.
Proof.
  intros H fuel. induction fuel; intros s s' Is E; [discriminate|].
  simpl in E. destruct (c s) eqn:Ec.
  - eapply IHfuel; [apply H; eauto | exact E].
  - inversion E; subst. auto.
Qed.

Lemma upd_same {A} (a : Z -> A) i v : upd a i v i = v.
Proof. unfold upd. rewrite Z.eqb_refl. reflexivity. Qed.
Lemma upd_diff {A} (a : Z -> A) i j v : j <> i -> upd a i v j = a j.
Proof. unfold upd. intros. destruct (Z.eqb_spec j i); congruence. Qed.
Lemma upd2_same {A} (a : Z -> Z -> A) i j v : upd2 a i j v i j = v.
Proof. unfold upd2. rewrite !Z.eqb_refl. reflexivity. Qed.
Lemma upd2_diff {A} (a : Z -> Z -> A) i j x y v : (x <> i \/ y <> j) -> upd2 a i j v x y = a x y.
Proof. unfold upd2. intros. destruct (Z.eqb_spec x i), (Z.eqb_spec y j); simpl; auto. lia. Qed.
Lemma fill_in {A} lo hi (f a : Z -> A) j : lo <= j <= hi -> fill lo hi f a j = f j.
Proof.
  intros. unfold fill. destruct (Z.leb_spec lo j), (Z.leb_spec j hi); simpl; auto; lia.
Qed.
Lemma fill_out {A} lo hi (f a : Z -> A) j : (j < lo \/ hi < j) -> fill lo hi f a j = a j.
Proof.
  intros. unfold fill. destruct (Z.leb_spec lo j), (Z.leb_spec j hi); simpl; auto; lia.
Qed.

(** [do while] with a fuel that the accompanying lemmas show to be sufficient;
    the value returned when it is not is the state at the start of the loop. *)
Definition whileD {S : Type} (fuel : nat) (c : S -> bool) (body : S -> S) (s : S) : S :=
  match while fuel c body s with Some s' => s' | None => s end.

(** Apply the invariant rule to the first [for_up] of the goal.  Leaves three goals:
    initialisation, preservation, and use (the loop result generalised). *)
Ltac floop P :=
  lazymatch goal with
  | |- context [@for_up ?S ?lo ?hi ?body ?s] =>
      let H := fresh "FL" in
      assert (H : P (hi + 1)%Z (@for_up S lo hi body s));
      [ apply (@for_up_ind S P lo hi body s); [ try lia | cbv beta | cbv beta ]
      | cbv beta in H; revert H; generalize (@for_up S lo hi body s) ]
  end.
Ltac dloop P :=
  lazymatch goal with
  | |- context [@for_down ?S ?hi ?lo ?body ?s] =>
      let H := fresh "FL" in
      assert (H : P (lo - 1)%Z (@for_down S hi lo body s));
      [ apply (@for_down_ind S P hi lo body s); [ try lia | cbv beta | cbv beta ]
      | cbv beta in H; revert H; generalize (@for_down S hi lo body s) ]
  end.
