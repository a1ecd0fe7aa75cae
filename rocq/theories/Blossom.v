(** Polar forms (blossoms): auxiliary theory for degree elevation and knot removal.

    A polar form of degree n is a symmetric function of n arguments that is affine in each. *)
From Coq Require Import ZArith Reals List Lia Lra Permutation.
From Verif Require Import Spec SumZ BPiece BLink ModelNurbs.
Import ListNotations.
Local Open Scope R_scope.
Local Arguments Z.add : simpl never.
Local Arguments Z.sub : simpl never.
Local Arguments Z.of_nat : simpl never.

Record polar (n : nat) (F : list R -> R) : Prop := {
  pl_perm : forall l l', length l = n -> Permutation l l' -> F l = F l';
  pl_aff : forall a x y l, S (length l) = n -> F ((a * x + (1 - a) * y) :: l) = a * F (x :: l) + (1 - a) * F (y :: l) }.

Lemma pl_lin n F x y z l : polar n F -> S (length l) = n -> x <> y ->
  F (z :: l) = (z - y) / (x - y) * F (x :: l) + (1 - (z - y) / (x - y)) * F (y :: l).
Proof.
  intros H Hl Hxy. rewrite <- (pl_aff _ _ H) by auto. f_equal. f_equal. field. lra.
Qed.
(** Fixing some arguments. *)
Lemma polar_fix w n F : polar (length w + n) F -> polar n (fun l => F (w ++ l)).
Proof.
  intros H. constructor.
  - intros l l' Hl HP. apply (pl_perm _ _ H); [rewrite app_length; lia|]. apply Permutation_app_head; auto.
  - intros a x y l Hl.
    assert (E : forall z, F (w ++ z :: l) = F (z :: w ++ l)).
    { intros z. apply (pl_perm _ _ H); [rewrite app_length; simpl; lia|]. symmetry. apply Permutation_middle. }
    rewrite !E. apply (pl_aff _ _ H). rewrite app_length. lia.
Qed.

(** ** The polar form of a spline piece: de Boor's algorithm with different arguments *)
Fixpoint dB (U : Z -> R) (p : Z) (P : Z -> R) (l : list R) (i : Z) : R :=
  match l with
  | [] => P i
  | x :: l' =>
      let w := (x - U i) / (U (i + p + 1 - Z.of_nat (length l))%Z - U i) in
      w * dB U p P l' i + (1 - w) * dB U p P l' (i - 1)
  end.
Lemma dB_cons U p P x l i : dB U p P (x :: l) i =
  (x - U i) / (U (i + p - Z.of_nat (length l))%Z - U i) * dB U p P l i + (1 - (x - U i) / (U (i + p - Z.of_nat (length l))%Z - U i)) * dB U p P l (i - 1).
Proof. cbn [dB length]. replace (i + p + 1 - Z.of_nat (S (length l)))%Z with (i + p - Z.of_nat (length l))%Z by lia. reflexivity. Qed.

Lemma span_lt U k p i j : span_ok U k p -> (k - Z.of_nat p < i <= k)%Z -> (k < j <= k + Z.of_nat p)%Z -> U i < U j.
Proof.
  intros [H1 H2] Hi Hj. assert (U i <= U k) by (apply H1; lia). assert (U (k + 1)%Z <= U j) by (apply H1; lia). lra.
Qed.
Lemma dB_swap U k p P x y l i : span_ok U k p -> (k - Z.of_nat p + 2 + Z.of_nat (length l) <= i <= k)%Z ->
  dB U (Z.of_nat p) P (x :: y :: l) i = dB U (Z.of_nat p) P (y :: x :: l) i.
Proof.
  intros Hok Hi. rewrite !dB_cons. cbn [length].
  replace (i + Z.of_nat p - Z.of_nat (S (length l)))%Z with (i + Z.of_nat p - Z.of_nat (length l) - 1)%Z by lia.
  replace (i - 1 + Z.of_nat p - Z.of_nat (length l))%Z with (i + Z.of_nat p - Z.of_nat (length l) - 1)%Z by lia.
  assert (U i < U (i + Z.of_nat p - Z.of_nat (length l) - 1)%Z) by (apply (span_lt U k p); auto; lia).
  assert (U (i - 1)%Z < U (i + Z.of_nat p - Z.of_nat (length l) - 1)%Z) by (apply (span_lt U k p); auto; lia).
  assert (U i < U (i + Z.of_nat p - Z.of_nat (length l))%Z) by (apply (span_lt U k p); auto; lia).
  field. lra.
Qed.
Lemma dB_perm U k p P : span_ok U k p -> forall l l', Permutation l l' ->
  forall i, (k - Z.of_nat p + Z.of_nat (length l) <= i <= k)%Z -> dB U (Z.of_nat p) P l i = dB U (Z.of_nat p) P l' i.
Proof.
  intros Hok. induction 1; intros i Hi.
  - reflexivity.
  - rewrite !dB_cons. rewrite <- (Permutation_length H). simpl length in Hi. rewrite <- !IHPermutation by lia. reflexivity.
  - simpl length in Hi. apply (dB_swap U k); auto. lia.
  - rewrite IHPermutation1 by auto. apply IHPermutation2. rewrite <- (Permutation_length H). auto.
Qed.
Theorem dB_polar U k p P : span_ok U k p -> polar p (fun l => dB U (Z.of_nat p) P l k).
Proof.
  intros Hok. constructor.
  - intros l l' Hl HP. apply (dB_perm U k); auto. lia.
  - intros a x y l Hl. rewrite !dB_cons. unfold Rdiv. ring.
Qed.

(** Windows of knots: U(i+1), ..., U(i+n). *)
Definition win (U : Z -> R) (i : Z) (n : nat) : list R := map U (zseq n (i + 1)).
Lemma zseq_length c : forall lo, length (zseq c lo) = c.
Proof. induction c; intros; simpl; auto. Qed.
Lemma win_length U i n : length (win U i n) = n.
Proof. unfold win. rewrite map_length. apply zseq_length. Qed.
Lemma zseq_app a b : forall lo, zseq (a + b) lo = zseq a lo ++ zseq b (lo + Z.of_nat a).
Proof.
  induction a; intros lo; cbn [zseq Nat.add app]; [f_equal; lia|]. rewrite IHa. do 3 f_equal. lia.
Qed.
Lemma win_app U i a b : win U i (a + b) = win U i a ++ win U (i + Z.of_nat a) b.
Proof. unfold win. rewrite zseq_app, map_app. do 3 f_equal. lia. Qed.
Lemma win_S U i n : win U i (S n) = U (i + 1)%Z :: win U (i + 1) n.
Proof. reflexivity. Qed.
Lemma win_snoc U i n : win U i (S n) = win U i n ++ [U (i + Z.of_nat n + 1)%Z].
Proof. replace (S n) with (n + 1)%nat by lia. rewrite win_app. reflexivity. Qed.
Lemma win_ext U V i n : (forall j, (i < j <= i + Z.of_nat n)%Z -> U j = V j) -> win U i n = win V i n.
Proof.
  revert i. induction n; intros i H; auto. rewrite !win_S. rewrite H by lia. f_equal. apply IHn. intros. apply H. lia.
Qed.
Lemma win_const U i n u : (forall j, (i < j <= i + Z.of_nat n)%Z -> U j = u) -> win U i n = repeat u n.
Proof.
  revert i. induction n; intros i H; auto. rewrite !win_S. rewrite H by lia. cbn [repeat]. f_equal. apply IHn. intros. apply H. lia.
Qed.

(** The polar form takes the control values on the windows. *)
Lemma dB_right U p P : forall c i, U i <> U (i + p + 1 - Z.of_nat c)%Z \/ c = O ->
  (forall j, (i + p + 1 - Z.of_nat c <= j <= i + p)%Z -> U j <> U i) ->
  dB U p P (win U (i + p - Z.of_nat c) c) i = P i.
Proof.
  induction c; intros i _ H; [reflexivity|]. rewrite win_S, dB_cons, win_length.
  replace (i + p - Z.of_nat (S c) + 1)%Z with (i + p - Z.of_nat c)%Z by lia.
  assert (U (i + p - Z.of_nat c)%Z <> U i) by (apply H; lia).
  replace ((U (i + p - Z.of_nat c)%Z - U i) / (U (i + p - Z.of_nat c)%Z - U i)) with 1 by (field; lra).
  rewrite IHc; [ring| |intros; apply H; lia]. destruct c; [auto|left]. apply not_eq_sym, H. lia.
Qed.
Lemma dB_left U p P : forall m rest i, dB U p P (rev (win U (i - Z.of_nat m) m) ++ rest) i = dB U p P rest (i - Z.of_nat m).
Proof.
  induction m; intros rest i; [simpl; f_equal; lia|].
  rewrite win_snoc, rev_app_distr. cbn [rev app]. rewrite dB_cons.
  replace (i - Z.of_nat (S m) + Z.of_nat m + 1)%Z with i by lia.
  unfold Rdiv. rewrite Rminus_diag_eq, Rmult_0_l by reflexivity.
  replace (i - Z.of_nat (S m))%Z with (i - 1 - Z.of_nat m)%Z by lia. rewrite IHm. ring.
Qed.
Theorem dB_win U k p P i : span_ok U k p -> (k - Z.of_nat p <= i <= k)%Z ->
  dB U (Z.of_nat p) P (win U i p) k = P i.
Proof.
  intros Hok Hi. set (m := Z.to_nat (k - i)). set (c := (p - m)%nat).
  replace p with (m + c)%nat at 2 by lia. rewrite win_app.
  rewrite (dB_perm U k p P Hok _ (rev (win U i m) ++ win U (i + Z.of_nat m) c)).
  2: { apply Permutation_app_tail, Permutation_rev. }
  2: { rewrite app_length, !win_length. lia. }
  replace i with (k - Z.of_nat m)%Z at 1 by lia. rewrite dB_left.
  replace (i + Z.of_nat m)%Z with (k - Z.of_nat m + Z.of_nat p - Z.of_nat c)%Z by lia.
  destruct c as [|c'] eqn:Ec.
  - simpl. f_equal. lia.
  - rewrite <- Ec in *. rewrite dB_right; [f_equal; lia| |].
    + left. assert (U (k - Z.of_nat m)%Z < U (k - Z.of_nat m + Z.of_nat p + 1 - Z.of_nat c)%Z); [|lra].
      apply (span_lt U k p); auto; lia.
    + intros j Hj. assert (U (k - Z.of_nat m)%Z < U j); [|lra]. apply (span_lt U k p); auto; lia.
Qed.
(** On the diagonal it is the piece. *)
Theorem dB_diag U k p P u : span_ok U k p -> dB U (Z.of_nat p) P (repeat u p) k = pc U k (Z.of_nat p) P u.
Proof.
  intros Hok. unfold pc. rewrite Nat2Z.id.
  assert (G : forall j, (j <= p)%nat -> sumZ (k - Z.of_nat p) k (fun i => B U k p i u * P i) =
     sumZ (k - Z.of_nat (p - j)) k (fun i => B U k (p - j) i u * dB U (Z.of_nat p) P (repeat u j) i)).
  { induction j; intros Hj; [replace (p - 0)%nat with p by lia; reflexivity|]. rewrite IHj by lia.
    replace (p - j)%nat with (S (p - S j)) by lia. rewrite deboor_step by (apply (span_ok_less U k p); [lia|auto]).
    apply sumZ_ext. intros i Hi. f_equal. cbn [repeat]. rewrite dB_cons, repeat_length. unfold om.
    replace (i + Z.of_nat (p - S j) + 1)%Z with (i + Z.of_nat p - Z.of_nat j)%Z by lia. reflexivity. }
  rewrite (G p) by lia. replace (p - p)%nat with O by lia. change (Z.of_nat 0) with 0%Z. rewrite Z.sub_0_r, sumZ_single.
  cbn [B]. rewrite Z.eqb_refl. ring.
Qed.

(** ** A polar form is determined by its values on windows *)
Theorem polar_dB U k n F : polar n F -> span_ok U k n -> forall l i, (length l <= n)%nat -> (k - Z.of_nat n + Z.of_nat (length l) <= i <= k)%Z ->
  F (l ++ win U i (n - length l)) = dB U (Z.of_nat n) (fun j => F (win U j n)) l i.
Proof.
  intros HF Hok. induction l as [|x l IH]; intros i Hl Hi.
  - simpl. rewrite Nat.sub_0_r. reflexivity.
  - rewrite dB_cons. simpl length in *. set (q := length l) in *. rewrite <- !IH by lia.
    assert (Hlt : U i < U (i + Z.of_nat n - Z.of_nat q)%Z) by (apply (span_lt U k n); auto; lia).
    cbn [app]. rewrite (pl_lin n F (U (i + Z.of_nat n - Z.of_nat q)%Z) (U i) x); auto; [|rewrite app_length, win_length; lia|lra].
    f_equal; f_equal; apply (pl_perm _ _ HF); try (simpl; rewrite app_length, win_length; lia).
    + replace (n - q)%nat with (S (n - S q)) by lia. rewrite win_snoc.
      replace (i + Z.of_nat (n - S q) + 1)%Z with (i + Z.of_nat n - Z.of_nat q)%Z by lia.
      rewrite app_assoc. apply Permutation_cons_append.
    + replace (n - q)%nat with (S (n - S q)) by lia. rewrite win_S.
      replace (i - 1 + 1)%Z with i by lia. apply Permutation_middle.
Qed.
Theorem polar_eval U k n F u : polar n F -> span_ok U k n ->
  pc U k (Z.of_nat n) (fun j => F (win U j n)) u = F (repeat u n).
Proof.
  intros HF Hok. rewrite <- dB_diag by auto. rewrite <- (polar_dB U k n F HF Hok).
  - rewrite repeat_length, Nat.sub_diag. simpl. rewrite app_nil_r. reflexivity.
  - rewrite repeat_length. lia.
  - rewrite repeat_length. lia.
Qed.
Lemma dB_ext U p P P' : forall l i, (forall j, (i - Z.of_nat (length l) <= j <= i)%Z -> P j = P' j) -> dB U p P l i = dB U p P' l i.
Proof.
  induction l as [|x l IH]; intros i H; [apply H; simpl; lia|]. rewrite !dB_cons. simpl length in H.
  rewrite (IH i), (IH (i - 1)%Z); auto; intros; apply H; lia.
Qed.
Theorem polar_unique U k n F G : polar n F -> polar n G -> span_ok U k n ->
  (forall i, (k - Z.of_nat n <= i <= k)%Z -> F (win U i n) = G (win U i n)) -> forall l, length l = n -> F l = G l.
Proof.
  intros HF HG Hok E l Hl.
  pose proof (polar_dB U k n F HF Hok l k ltac:(lia) ltac:(lia)) as E1.
  pose proof (polar_dB U k n G HG Hok l k ltac:(lia) ltac:(lia)) as E2.
  rewrite Hl, Nat.sub_diag in E1, E2. simpl in E1, E2. rewrite app_nil_r in E1, E2. rewrite E1, E2.
  apply dB_ext. intros j Hj. apply E. lia.
Qed.

(** Two adjacent pieces (spans k and k', the knots in between all equal to u) have the same polar
    form on arguments containing u as often as the knot vector does. *)
Theorem dB_agree U k k' p P u : (k < k')%Z -> (k' - k <= Z.of_nat p)%Z ->
  span_ok U k p -> span_ok U k' p -> (forall j, (k < j <= k')%Z -> U j = u) ->
  forall l, length l = (p - Z.to_nat (k' - k))%nat ->
  dB U (Z.of_nat p) P (repeat u (Z.to_nat (k' - k)) ++ l) k = dB U (Z.of_nat p) P (repeat u (Z.to_nat (k' - k)) ++ l) k'.
Proof.
  intros Hk Hp Hok Hok' Hu l Hl. set (mu := Z.to_nat (k' - k)) in *. set (r := (p - mu)%nat) in *.
  (* the knot sequence without the copies of u *)
  set (V := fun j => if (j <=? k)%Z then U j else U (j + (k' - k))%Z).
  set (F := fun l => dB U (Z.of_nat p) P (repeat u mu ++ l) k). set (G := fun l => dB U (Z.of_nat p) P (repeat u mu ++ l) k').
  assert (Hp' : p = (length (repeat u mu) + r)%nat) by (rewrite repeat_length; lia).
  assert (HF : polar r F). { apply (polar_fix (repeat u mu) r (fun l => dB U (Z.of_nat p) P l k)). rewrite <- Hp'. apply dB_polar; auto. }
  assert (HG : polar r G). { apply (polar_fix (repeat u mu) r (fun l => dB U (Z.of_nat p) P l k')). rewrite <- Hp'. apply dB_polar; auto. }
  assert (L1 : U k < u) by (rewrite <- (Hu (k + 1)%Z) by lia; apply Hok).
  assert (L2 : u < U (k' + 1)%Z) by (rewrite <- (Hu k') by lia; apply Hok').
  assert (HV : span_ok V k r).
  { split.
    - intros i j Hi Hij Hj. unfold V. destruct (Z.leb_spec i k), (Z.leb_spec j k); try lia.
      + apply Hok; lia.
      + assert (U i <= U k) by (apply Hok; lia). assert (U (k' + 1)%Z <= U (j + (k' - k))%Z) by (apply Hok'; lia). lra.
      + apply Hok'; lia.
    - unfold V. rewrite Z.leb_refl. replace (k + 1 <=? k)%Z with false by (symmetry; apply Z.leb_gt; lia).
      replace (k + 1 + (k' - k))%Z with (k' + 1)%Z by lia. lra. }
  apply (polar_unique V k r F G); auto. intros i Hi. unfold F, G.
  assert (E : Permutation (repeat u mu ++ win V i r) (win U i p)).
  { set (x := Z.to_nat (k - i)). replace p with (x + (mu + (r - x)))%nat by lia. replace r with (x + (r - x))%nat at 1 by lia.
    rewrite !win_app.
    rewrite (win_ext V U i x) by (intros j Hj; unfold V; destruct (Z.leb_spec j k); [auto|lia]).
    rewrite (win_const U (i + Z.of_nat x) mu u) by (intros j Hj; apply Hu; lia).
    replace (win V (i + Z.of_nat x) (r - x)) with (win U (i + Z.of_nat x + Z.of_nat mu) (r - x)).
    - rewrite !app_assoc. apply Permutation_app_tail, Permutation_app_comm.
    - unfold win. replace (i + Z.of_nat x + Z.of_nat mu + 1)%Z with (k + 1 + (k' - k))%Z by lia. replace (i + Z.of_nat x + 1)%Z with (k + 1)%Z by lia.
      assert (Gz : forall c lo, (k < lo)%Z -> map U (zseq c (lo + (k' - k))) = map V (zseq c lo)).
      { induction c; intros lo Hlo; simpl; auto. unfold V at 1. destruct (Z.leb_spec lo k); [lia|]. f_equal.
        replace (lo + (k' - k) + 1)%Z with (lo + 1 + (k' - k))%Z by lia. apply IHc. lia. }
      apply Gz. lia. }
  rewrite (dB_perm U k p P Hok _ _ E), (dB_perm U k' p P Hok' _ _ E).
  - rewrite !dB_win; auto; lia.
  - rewrite app_length, repeat_length, win_length. lia.
  - rewrite app_length, repeat_length, win_length. lia.
Qed.

(** ** Degree elevation of polar forms: the sum over all sublists of length p *)
Fixpoint ssum (f : list R -> R) (p : nat) (l : list R) : R :=
  match p, l with
  | O, _ => f []
  | S _, [] => 0
  | S p', x :: l' => ssum (fun s => f (x :: s)) p' l' + ssum f p l'
  end.
Lemma ssum_0 f l : ssum f 0 l = f [].
Proof. destruct l; reflexivity. Qed.
Lemma ssum_ext l : forall p f g, (forall s, length s = p -> f s = g s) -> ssum f p l = ssum g p l.
Proof.
  induction l as [|x l IH]; intros [|p] f g H; cbn [ssum]; auto. f_equal; apply IH; auto. intros s Hs. apply H. simpl. lia.
Qed.
Lemma ssum_lin a b l : forall p f g, ssum (fun s => a * f s + b * g s) p l = a * ssum f p l + b * ssum g p l.
Proof.
  induction l as [|x l IH]; intros [|p] f g; cbn [ssum]; auto; [ring|]. rewrite !(IH p (fun s => f (x :: s)) (fun s => g (x :: s))), IH. ring.
Qed.
Lemma ssum_short l : forall p f, (length l < p)%nat -> ssum f p l = 0.
Proof.
  induction l as [|x l IH]; intros [|p] f H; cbn [ssum]; simpl in *; auto; try lia. rewrite !IH by lia. ring.
Qed.
Lemma ssum_perm l l' : Permutation l l' -> forall p f, (forall s s', length s = p -> Permutation s s' -> f s = f s') -> ssum f p l = ssum f p l'.
Proof.
  induction 1; intros p f Hf; auto.
  - destruct p; cbn [ssum]; auto. f_equal; [|apply IHPermutation; auto]. apply IHPermutation. intros s s' Hs HP. apply Hf; simpl; auto.
  - destruct p as [|[|p]]; cbn [ssum]; auto.
    + rewrite !ssum_0. ring.
    + rewrite (ssum_ext l p (fun s => f (x :: y :: s)) (fun s => f (y :: x :: s))).
      * ring.
      * intros s Hs. apply Hf; [simpl; lia|]. apply perm_swap.
  - rewrite IHPermutation1, IHPermutation2; auto.
Qed.

(** Binomial numbers by Pascal's rule. *)
Fixpoint bin (n k : nat) : nat :=
  match k, n with O, _ => 1 | S _, O => 0 | S k', S n' => bin n' k' + bin n' k end.
Lemma bin_0 n : bin n 0 = 1%nat.
Proof. destruct n; reflexivity. Qed.
Lemma bin_pos n : forall k, (k <= n)%nat -> (0 < bin n k)%nat.
Proof. induction n; intros [|k] H; cbn [bin]; try lia. pose proof (IHn k ltac:(lia)). lia. Qed.
Lemma bin_big n : forall k, (n < k)%nat -> bin n k = 0%nat.
Proof. induction n; intros [|k] H; cbn [bin]; try lia. rewrite !IHn; lia. Qed.
Lemma ssum_repeat u n : forall p f, ssum f p (repeat u n) = INR (bin n p) * f (repeat u p).
Proof.
  induction n; intros [|p] f; cbn [repeat ssum bin]; try (simpl; ring). rewrite !IHn, plus_INR. cbn [repeat]. ring.
Qed.
(** Two different values. *)
Fixpoint sum_nat (n : nat) (f : nat -> R) : R := match n with O => f O | S n' => sum_nat n' f + f n end.
Lemma sum_nat_ext n f g : (forall j, (j <= n)%nat -> f j = g j) -> sum_nat n f = sum_nat n g.
Proof. induction n; intros H; cbn [sum_nat]; [apply H; lia|]. rewrite IHn, H; auto. Qed.
Lemma sum_nat_plus n f g : sum_nat n (fun j => f j + g j) = sum_nat n f + sum_nat n g.
Proof. induction n; cbn [sum_nat]; [ring|]. rewrite IHn. ring. Qed.
Lemma sum_nat_first n f : sum_nat (S n) f = f O + sum_nat n (fun j => f (S j)).
Proof. induction n; [reflexivity|]. change (sum_nat (S (S n)) f) with (sum_nat (S n) f + f (S (S n))). rewrite IHn. cbn [sum_nat]. ring. Qed.
Lemma ssum_two a b x y : forall p f,
  ssum f p (repeat a x ++ repeat b y) = sum_nat p (fun j => INR (bin x (p - j)) * INR (bin y j) * f (repeat a (p - j) ++ repeat b j)).
Proof.
  induction x; intros p f.
  - cbn [repeat app]. rewrite ssum_repeat. destruct p; cbn [sum_nat].
    + simpl. ring.
    + rewrite (sum_nat_ext p _ (fun _ => 0)).
      * rewrite Nat.sub_diag. cbn [bin repeat app INR]. replace (sum_nat p (fun _ => 0)) with 0; [ring|]. clear. induction p; simpl; auto. rewrite <- IHp. ring.
      * intros j Hj. replace (S p - j)%nat with (S (p - j)) by lia. cbn [bin INR]. ring.
  - destruct p.
    + rewrite ssum_0. cbn [sum_nat]. rewrite Nat.sub_diag, !bin_0. simpl. ring.
    + cbn [repeat app ssum]. rewrite !IHx. cbn [sum_nat].
      rewrite Nat.sub_diag, !bin_0. rewrite <- Rplus_assoc. f_equal. rewrite <- sum_nat_plus. apply sum_nat_ext. intros j Hj.
      replace (S p - j)%nat with (S (p - j)) by lia. cbn [bin repeat app]. rewrite plus_INR. ring.
Qed.
(** Functions that agree on lists with mu copies of u have the same sums over lists with enough copies. *)
Lemma ssum_agree u l : forall x mu p f g, (mu + length l <= p)%nat ->
  (forall s, length s = (p - mu)%nat -> f (repeat u mu ++ s) = g (repeat u mu ++ s)) ->
  ssum f p (repeat u x ++ l) = ssum g p (repeat u x ++ l).
Proof.
  induction x; intros mu p f g Hp H.
  - cbn [repeat app]. destruct mu.
    + apply ssum_ext. intros s Hs. apply H. lia.
    + rewrite !ssum_short by lia. reflexivity.
  - destruct mu; [apply ssum_ext; intros s Hs; apply H; lia|]. destruct p; [lia|]. cbn [repeat app ssum]. f_equal.
    + apply (IHx mu); [lia|]. intros s Hs. apply H. lia.
    + apply (IHx (S mu)); auto.
Qed.
(** The elevated polar form. *)
Definition elev (f : list R -> R) (p : nat) (l : list R) : R := ssum f p l / INR (bin (length l) p).
Theorem elev_polar p t f : polar p f -> polar (p + t) (elev f p).
Proof.
  intros H. constructor.
  - intros l l' Hl HP. unfold elev. rewrite <- (Permutation_length HP). f_equal. apply ssum_perm; auto. intros s s' Hs. apply (pl_perm _ _ H); auto.
  - intros a x y l Hl. unfold elev. simpl length. unfold Rdiv. destruct p.
    + rewrite !ssum_0. ring.
    + cbn [ssum]. rewrite (ssum_ext l p _ (fun s => a * f (x :: s) + (1 - a) * f (y :: s))).
      * rewrite (ssum_lin a (1 - a) l p (fun s => f (x :: s)) (fun s => f (y :: s))). ring.
      * intros s Hs. apply (pl_aff _ _ H). lia.
Qed.
Theorem elev_diag p t f u : elev f p (repeat u (p + t)) = f (repeat u p).
Proof.
  unfold elev. rewrite ssum_repeat, repeat_length. pose proof (bin_pos (p + t) p ltac:(lia)). apply lt_INR in H. simpl in H. field. lra.
Qed.
