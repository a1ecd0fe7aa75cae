(** Refining operations replace control points by averages of control points. *)
From Coq Require Import ZArith Reals List Lia Lra Bool Permutation FunctionalExtensionality.
From Verif Require Import Num Loop ModelBspline ModelBSp ModelNurbs ModelIga ModelCad Spec SpecElev SpecCompat SumZ BPiece BLink BIndep ProofSpan BInsert BRep
  ProofInsert ProofCut SpecNurbs ProofNet ProofCall ProofNurbs ProofMethods ProofMethods2 ProofMethods3 ProofGeom ProofGeom2 ProofOk ProofSlice ProofIga ProofIga2
  ProofElev1 ProofElev4 ProofElev5 ProofClamp ProofUnclamp ProofCompat1 ProofCompat3 ProofRemove4 ProofUniq.
Import ListNotations.
Local Open Scope R_scope.

(** ** Averages along one axis *)
Definition averaging (n' n : Z) (c : Z -> Z -> R) : Prop :=
  forall i, (0 <= i <= n')%Z -> (forall l, (0 <= l <= n)%Z -> 0 <= c i l) /\ sumZ 0 n (c i) = 1.
Definition apply_to (n : Z) (c : Z -> Z -> R) (P : Z -> R) : Z -> R := fun i => sumZ 0 n (fun l => c i l * P l).
(** Signs of control values: the values at the increasing indices m 0, ..., m s have the signs of
    e 0, ..., e s, which alternate. *)
Definition alternate (s : nat) (e : nat -> R) : Prop := forall j, (j < s)%nat -> e j * e (S j) < 0.
Definition carried (n : Z) (P : Z -> R) (s : nat) (e : nat -> R) (m : nat -> Z) : Prop :=
  (forall j, (j <= s)%nat -> (0 <= m j <= n)%Z /\ 0 < e j * P (m j)) /\ forall j, (j < s)%nat -> (m j < m (S j))%Z.
Definition no_more_signs (n' : Z) (Q : Z -> R) (n : Z) (P : Z -> R) : Prop :=
  forall s e, alternate s e -> (exists m, carried n' Q s e m) -> exists m, carried n P s e m.
Definition thins (n' n : Z) (c : Z -> Z -> R) : Prop := forall P, no_more_signs n' (apply_to n c P) n P.
Lemma no_more_trans n2 P2 n1 P1 n0 P0 : no_more_signs n2 P2 n1 P1 -> no_more_signs n1 P1 n0 P0 -> no_more_signs n2 P2 n0 P0.
Proof. intros H1 H2 s e A M. apply H2; auto. Qed.
Lemma no_more_ext n' Q Q' n P : (forall i, (0 <= i <= n')%Z -> Q i = Q' i) -> no_more_signs n' Q n P -> no_more_signs n' Q' n P.
Proof.
  intros E H s e A [m [M1 M2]]. apply H; auto. exists m. split; auto. intros j Hj. destruct (M1 j Hj) as [M3 M4]. rewrite E by auto. auto.
Qed.
Lemma no_more_shift n' n P d : (0 <= d)%Z -> (n' + d <= n)%Z -> no_more_signs n' (fun i => P (i + d)%Z) n P.
Proof.
  intros Hd Hn s e A [m [M1 M2]]. exists (fun j => (m j + d)%Z). split; [intros j Hj; destruct (M1 j Hj); split; [lia|auto]|]. intros j Hj. specialize (M2 j Hj). lia.
Qed.
(** Values between neighbours. *)
Lemma no_more_mix n P a : (forall i, (0 <= i <= n + 1)%Z -> 0 <= a i <= 1) -> a 0%Z = 1 -> a (n + 1)%Z = 0 ->
  no_more_signs (n + 1) (fun i => a i * P i + (1 - a i) * P (i - 1)%Z) n P.
Proof.
  intros Ha H0 H1 s e A [m [M1 M2]].
  exists (fun j => if Rlt_dec 0 (e j * (a (m j) * P (m j))) then m j else (m j - 1)%Z).
  assert (X : forall j, (j <= s)%nat -> let i := if Rlt_dec 0 (e j * (a (m j) * P (m j))) then m j else (m j - 1)%Z in (0 <= i <= n)%Z /\ 0 < e j * P i).
  { intros j Hj. cbv zeta. destruct (M1 j Hj) as [R1 R2]. specialize (Ha (m j) R1). destruct (Rlt_dec 0 (e j * (a (m j) * P (m j)))) as [L|L].
    - assert (m j <> n + 1)%Z by (intros E; rewrite E, H1 in L; lra). split; [lia|].
      replace (e j * (a (m j) * P (m j))) with (a (m j) * (e j * P (m j))) in L by ring.
      destruct (Rlt_dec 0 (e j * P (m j))); auto. exfalso. assert (a (m j) * (e j * P (m j)) <= a (m j) * 0) by (apply Rmult_le_compat_l; lra). lra.
    - assert (m j <> 0)%Z by (intros E; rewrite E, H0 in *; lra). split; [lia|].
      assert (L2 : 0 < (1 - a (m j)) * (e j * P (m j - 1)%Z)) by (replace (e j * (a (m j) * P (m j) + (1 - a (m j)) * P (m j - 1)%Z)) with (e j * (a (m j) * P (m j)) + (1 - a (m j)) * (e j * P (m j - 1)%Z)) in R2 by ring; lra).
      destruct (Rlt_dec 0 (e j * P (m j - 1)%Z)); auto. exfalso. assert ((1 - a (m j)) * (e j * P (m j - 1)%Z) <= (1 - a (m j)) * 0) by (apply Rmult_le_compat_l; lra). lra. }
  split; auto. intros j Hj. specialize (M2 j Hj). destruct (X j ltac:(lia)) as [_ S1]. destruct (X (S j) ltac:(lia)) as [_ S2]. specialize (A j Hj). cbv zeta in S1, S2.
  destruct (Rlt_dec 0 (e j * (a (m j) * P (m j)))), (Rlt_dec 0 (e (S j) * (a (m (S j)) * P (m (S j))))); try lia.
  destruct (Z.eq_dec (m j) (m (S j) - 1)) as [E|E]; [|lia]. exfalso. rewrite E in S1. set (q := P (m (S j) - 1)%Z) in *.
  assert (0 < (e j * q) * (e (S j) * q)) by (apply Rmult_lt_0_compat; auto). assert (0 <= q * q) by apply Rle_0_sqr.
  assert ((e j * e (S j)) * (q * q) <= 0) by (rewrite <- (Rmult_0_l (q * q)); apply Rmult_le_compat_r; lra). nra.
Qed.

(** Sums of p successive knots (p times the Greville abscissae). *)
Definition ksum (p : Z) (U : Z -> R) (i : Z) : R := sumZ (i + 1) (i + p) U.
Definition carries_knots (n' p' : Z) (V : Z -> R) (n p : Z) (U : Z -> R) (c : Z -> Z -> R) : Prop :=
  forall i, (0 <= i <= n')%Z -> apply_to n c (ksum p U) i = ksum p' V i.
Lemma ksum_ext p U V i : (forall k, (i + 1 <= k <= i + p)%Z -> U k = V k) -> ksum p U i = ksum p V i.
Proof. intros. apply sumZ_ext. auto. Qed.
Lemma ksum_shift p V d i : ksum p (fun j => V (j + d)%Z) i = ksum p V (i + d).
Proof. unfold ksum. rewrite <- (sumZ_shift (i + 1) (i + p) d). f_equal; lia. Qed.
(** A window with one knot left out. *)
Lemma ksum_del V m p i : (1 <= p)%Z -> (i < m <= i + p + 1)%Z -> ksum p (del V m) i = ksum (p + 1) V i - V m.
Proof.
  intros Hp Hm. unfold ksum. rewrite (sumZ_split (i + 1) (m - 1) (i + p)) by lia. rewrite (sumZ_split (i + 1) (m - 1) (i + (p + 1))) by lia.
  rewrite (sumZ_first (m - 1 + 1) (i + (p + 1))) by lia.
  rewrite (sumZ_ext (i + 1) (m - 1) (del V m) V) by (intros z Hz; unfold del; zcase z m; reflexivity).
  rewrite (sumZ_ext (m - 1 + 1) (i + p) (del V m) (fun j => V (j + 1)%Z)) by (intros z Hz; unfold del; zcase z m; reflexivity).
  rewrite <- (sumZ_shift (m - 1 + 1) (i + p) 1). replace (m - 1 + 1)%Z with m by lia. replace (i + p + 1)%Z with (i + (p + 1))%Z by lia. ring.
Qed.
Lemma ksum_low V m p i : (i + p < m)%Z -> ksum p (del V m) i = ksum p V i.
Proof. intros. apply ksum_ext. intros z Hz. unfold del. zcase z m. reflexivity. Qed.
Lemma ksum_high V m p i : (m <= i + 1)%Z -> ksum p (del V m) i = ksum p V (i + 1).
Proof.
  intros. rewrite <- (ksum_shift p V 1). apply ksum_ext. intros z Hz. unfold del. zcase z m. reflexivity.
Qed.

Section Kind.
(** Whether the absence of new sign changes is wanted, too. *)
Variable b : bool.
Definition avg_rep (n' p' : Z) (V : Z -> R) (n p : Z) (U : Z -> R) : Prop :=
  exists c, averaging n' n c /\ (b = true -> thins n' n c /\ carries_knots n' p' V n p U c) /\ forall P, Sub n' p' V (apply_to n c P) n p U P.

Definition unit_at (j l : Z) : R := if (l =? j)%Z then 1 else 0.
Lemma unit_at_pos j l : 0 <= unit_at j l.
Proof. unfold unit_at. destruct (l =? j)%Z; lra. Qed.
Lemma sum_unit n j P : (0 <= j <= n)%Z -> sumZ 0 n (fun l => unit_at j l * P l) = P j.
Proof. intros. apply (sumZ_kron 0 n j P). lia. Qed.
Lemma sum_unit1 n j : (0 <= j <= n)%Z -> sumZ 0 n (unit_at j) = 1.
Proof. intros. rewrite <- (sum_unit n j (fun _ => 1)) by auto. apply sumZ_ext. intros. lra. Qed.

Lemma avg_pick n n' d : (0 <= d)%Z -> (n' + d <= n)%Z -> averaging n' n (fun i => unit_at (i + d)).
Proof. intros Hd Hn i Hi. split; [intros; apply unit_at_pos|]. apply sum_unit1. lia. Qed.

Lemma thins_pick n n' d : (0 <= d)%Z -> (n' + d <= n)%Z -> thins n' n (fun i => unit_at (i + d)).
Proof.
  intros Hd Hn P. apply (no_more_ext n' (fun i => P (i + d)%Z)); [|apply no_more_shift; auto]. intros i Hi. unfold apply_to. symmetry. apply sum_unit. lia.
Qed.
Lemma knots_pick n n' p V d : (0 <= d)%Z -> (n' + d <= n)%Z -> carries_knots n' p (fun i => V (i + d)%Z) n p V (fun i => unit_at (i + d)).
Proof. intros Hd Hn i Hi. unfold apply_to. rewrite sum_unit by lia. symmetry. apply ksum_shift. Qed.
Lemma avg_refl n p U : (1 <= p)%Z -> avg_rep n p U n p U.
Proof.
  intros Hp. exists (fun i => unit_at (i + 0)). split; [apply avg_pick; lia|]. split; [intros _; split; [apply thins_pick; lia|]|].
  { pose proof (knots_pick n n p U 0 ltac:(lia) ltac:(lia)) as K. intros i Hi. rewrite (K i Hi). apply ksum_ext. intros. f_equal. lia. }
  intros P. apply Sub_ext; try lia; auto.
  intros i Hi. unfold apply_to. rewrite sum_unit by lia. f_equal. lia.
Qed.
Lemma avg_trans n2 p2 U2 n1 p1 U1 n0 p0 U0 : avg_rep n2 p2 U2 n1 p1 U1 -> avg_rep n1 p1 U1 n0 p0 U0 -> avg_rep n2 p2 U2 n0 p0 U0.
Proof.
  intros (c & Ac & Tc & Hc) (d & Ad & Td & Hd).
  exists (fun i l => sumZ 0 n1 (fun k => c i k * d k l)). 
  assert (X : forall P i, apply_to n0 (fun i l => sumZ 0 n1 (fun k => c i k * d k l)) P i = apply_to n1 c (apply_to n0 d P) i).
  { intros P i. unfold apply_to.
    rewrite (sumZ_ext 0 n1 _ (fun k => sumZ 0 n0 (fun l => c i k * (d k l * P l)))).
    2: { intros k Hk. rewrite sumZ_scal. reflexivity. }
    rewrite sumZ_swap. apply sumZ_ext. intros l Hl. rewrite <- sumZ_scal_r. apply sumZ_ext. intros. lra. }
  split; [|split].
  - intros i Hi. destruct (Ac i Hi) as [C1 C2]. split.
    + intros l Hl. apply sumZ_nonneg. intros k Hk. apply Rmult_le_pos; [apply C1; auto|]. apply (Ad k Hk). auto.
    + rewrite sumZ_swap. rewrite (sumZ_ext 0 n1 _ (c i)); auto.
      intros k Hk. rewrite sumZ_scal. destruct (Ad k Hk) as [_ ->]. ring.
  - intros Hb. destruct (Tc Hb) as [Tc1 Tc2]. destruct (Td Hb) as [Td1 Td2]. split.
    + intros P. apply (no_more_ext n2 (apply_to n1 c (apply_to n0 d P))); [intros; symmetry; apply X|]. eapply no_more_trans; [apply Tc1; auto|apply Td1; auto].
    + intros i Hi. rewrite X, <- (Tc2 i Hi). unfold apply_to at 1 3. apply sumZ_ext. intros l Hl. rewrite (Td2 l Hl). reflexivity.
  - intros P. eapply Sub_trans; [|apply Hd]. eapply Sub_trans; [|apply Hc].
    replace (apply_to n0 (fun i l => sumZ 0 n1 (fun k => c i k * d k l)) P) with (apply_to n1 c (apply_to n0 d P)).
    + apply Sub_refl.
    + apply functional_extensionality. intros i. symmetry. apply X.
Qed.
Lemma avg_knots n p V U n0 p0 U0 : (1 <= p)%Z -> (forall i, (1 <= i <= n + p)%Z -> V i = U i) -> avg_rep n p U n0 p0 U0 -> avg_rep n p V n0 p0 U0.
Proof.
  intros Hp E (c & A & T & H). exists c. split; auto. split.
  { intros Hb. destruct (T Hb) as [T1 T2]. split; auto. intros i Hi. rewrite (T2 i Hi). apply ksum_ext. intros. symmetry. apply E. lia. }
  intros P. eapply Sub_trans; [|apply H]. apply Sub_ext; auto. lia.
Qed.
Lemma avg_window n p V d N : (0 <= d)%Z -> (n + d <= N)%Z -> (1 <= p)%Z -> avg_rep n p (fun i => V (i + d)%Z) N p V.
Proof.
  intros Hd HN Hp. exists (fun i => unit_at (i + d)). split; [apply avg_pick; lia|]. split; [intros _; split; [apply thins_pick; lia|apply knots_pick; lia]|]. intros P.
  eapply Sub_trans; [|apply (Sub_shift n p V P d N); lia]. apply Sub_ext; auto; try lia.
  intros i Hi. unfold apply_to. apply sum_unit. lia.
Qed.

(** One Boehm insertion. *)
Lemma al_unit V m p i N : (0 <= p)%Z -> (0 <= i)%Z -> (i + p + 1 <= N)%Z -> (m <= N)%Z -> nondecreasing V 0 N -> 0 <= al V m (Z.to_nat p) i <= 1.
Proof.
  intros Hp Hi HN Hm M. unfold al. rewrite !Z2Nat.id by lia. zcase (i + p)%Z m; [lra|]. zcase i m; [|lra].
  assert (V i <= V m) by (apply M; lia). assert (V m <= V (i + p + 1)%Z) by (apply M; lia).
  destruct (Req_dec (V (i + p + 1)%Z) (V i)) as [E|E].
  - replace (V m - V i) with 0 by lra. unfold Rdiv. rewrite Rmult_0_l. lra.
  - split.
    + apply Rmult_le_pos; [lra|]. left. apply Rinv_0_lt_compat. lra.
    + apply (Rmult_le_reg_r (V (i + p + 1)%Z - V i)); [lra|]. unfold Rdiv. rewrite Rmult_assoc, Rinv_l by lra. lra.
Qed.
Lemma avg_insert N p V m : (1 <= p)%Z -> (p + 1 <= m <= N + 1)%Z -> nondecreasing V 0 (N + p + 2) -> avg_rep (N + 1) p V N p (del V m).
Proof.
  intros Hp Hm M. set (a := al V m (Z.to_nat p)).
  exists (fun i l => a i * unit_at i l + (1 - a i) * unit_at (i - 1) l).
  assert (Ha : forall i, (0 <= i <= N + 1)%Z -> 0 <= a i <= 1) by (intros i Hi; apply (al_unit V m p i (N + p + 2)); auto; lia).
  assert (Hlast : a (N + 1)%Z = 0).
  { unfold a, al. rewrite Z2Nat.id by lia. zcase (N + 1 + p)%Z m. zcase (N + 1)%Z m. reflexivity. }
  assert (Hfirst : a 0%Z = 1).
  { unfold a, al. rewrite Z2Nat.id by lia. zcase (0 + p)%Z m. reflexivity. }
  assert (X : forall P i, (0 <= i <= N + 1)%Z -> sumZ 0 N (fun l => (a i * unit_at i l + (1 - a i) * unit_at (i - 1) l) * P l) = a i * P i + (1 - a i) * P (i - 1)%Z).
  { intros P i Hi. rewrite (sumZ_ext 0 N _ (fun l => a i * (unit_at i l * P l) + (1 - a i) * (unit_at (i - 1) l * P l))) by (intros; ring).
    rewrite sumZ_plus, !sumZ_scal.
    destruct (Z.eq_dec i 0) as [->|H0]; [|destruct (Z.eq_dec i (N + 1)) as [->|H1]].
    - rewrite Hfirst. rewrite sum_unit by lia. ring.
    - rewrite Hlast. rewrite (sum_unit N (N + 1 - 1)) by lia. ring.
    - rewrite !sum_unit by lia. ring. }
  split; [|split].
  - intros i Hi. split.
    + intros l Hl. specialize (Ha i Hi). pose proof (unit_at_pos i l). pose proof (unit_at_pos (i - 1) l).
      apply Rplus_le_le_0_compat; apply Rmult_le_pos; lra.
    + rewrite (sumZ_ext 0 N _ (fun l => (a i * unit_at i l + (1 - a i) * unit_at (i - 1) l) * 1)) by (intros; ring).
      rewrite (X (fun _ => 1) i Hi). ring.
  - intros _. split.
    { intros P. apply (no_more_ext (N + 1) (fun i => a i * P i + (1 - a i) * P (i - 1)%Z)); [intros i Hi; unfold apply_to; rewrite X by auto; reflexivity|]. apply no_more_mix; auto. }
    intros i Hi. unfold apply_to. rewrite X by auto. unfold a, al. rewrite Z2Nat.id by lia. zcase (i + p)%Z m.
    { rewrite ksum_low by lia. ring. }
    zcase i m.
    2: { rewrite (ksum_high V m p (i - 1)) by lia. replace (i - 1 + 1)%Z with i by lia. ring. }
    rewrite (ksum_del V m p i) by lia. rewrite (ksum_del V m p (i - 1)) by lia. unfold ksum.
    rewrite (sumZ_last (i + 1) (i + (p + 1))) by lia. rewrite (sumZ_first (i - 1 + 1) (i - 1 + (p + 1))) by lia.
    replace (i - 1 + 1)%Z with i by lia. replace (i - 1 + (p + 1))%Z with (i + p)%Z by lia. replace (i + (p + 1) - 1)%Z with (i + p)%Z by lia. replace (i + (p + 1))%Z with (i + p + 1)%Z by lia.
    set (s := sumZ (i + 1) (i + p) V). assert (V i <= V m <= V (i + p + 1)%Z) by (split; apply M; lia).
    destruct (Req_dec (V (i + p + 1)%Z) (V i)) as [Q|Q]; [rewrite Q; replace (V m) with (V i) by lra; unfold Rdiv; ring|field; lra].
  - intros P. apply Sub_insert; auto; try lia. intros i Hi _. unfold apply_to. rewrite X by auto. reflexivity.
Qed.

(** Many insertions. *)
Lemma find_gap (U : Z -> R) x : forall (d : nat) p, U p <= x -> x <= U (p + Z.of_nat d + 1)%Z ->
  exists k, (p <= k <= p + Z.of_nat d)%Z /\ U k <= x <= U (k + 1)%Z.
Proof.
  induction d; intros p H1 H2.
  - exists p. split; [lia|]. split; auto. replace (p + 1)%Z with (p + Z.of_nat 0 + 1)%Z by lia. auto.
  - destruct (Rle_dec x (U (p + 1)%Z)) as [H|H].
    + exists p. split; [lia|]. auto.
    + destruct (IHd (p + 1)%Z) as (k & Hk & K); [lra|replace (p + 1 + Z.of_nat d + 1)%Z with (p + Z.of_nat (S d) + 1)%Z by lia; auto|].
      exists k. split; [lia|]. auto.
Qed.
Lemma avg_values p : (1 <= p)%Z -> forall X U n, (p <= n)%Z -> nondecreasing U 0 (n + p + 1) -> (forall x, In x X -> U p <= x <= U (n + 1)%Z) ->
  let t := Z.of_nat (length X) in
  exists V, nondecreasing V 0 (n + t + p + 1) /\ (forall v, multiplicity V 0 (n + t + p + 1) v = (multiplicity U 0 (n + p + 1) v + countL v X)%Z) /\
    avg_rep (n + t) p V n p U /\ V p = U p /\ V (n + t + 1)%Z = U (n + 1)%Z.
Proof.
  intros Hp. induction X as [|x X IH]; intros U n Hn M HX t.
  - exists U. unfold t. cbn [length countL]. change (Z.of_nat 0) with 0%Z. rewrite Z.add_0_r. split; auto. split; [intros; lia|]. split; [apply avg_refl; auto|auto].
  - destruct (HX x (or_introl eq_refl)) as [X1 X2].
    destruct (find_gap U x (Z.to_nat (n - p)) p X1) as (k & Hk & K).
    { replace (p + Z.of_nat (Z.to_nat (n - p)) + 1)%Z with (n + 1)%Z by lia. auto. }
    set (U1 := insV U k x 1).
    assert (M1 : nondecreasing U1 0 (n + 1 + p + 1)).
    { replace (n + 1 + p + 1)%Z with (n + p + 1 + 1)%Z by lia. apply insV_mono; auto; lia. }
    assert (E1 : U1 p = U p) by (unfold U1, insV; lcase p k; auto).
    assert (E2 : U1 (n + 1 + 1)%Z = U (n + 1)%Z).
    { unfold U1, insV. lcase (n + 1 + 1)%Z k. lcase (n + 1 + 1)%Z (k + 1)%Z. f_equal. lia. }
    destruct (IH U1 (n + 1)%Z ltac:(lia) M1) as (V & MV & CV & AV & V1 & V2).
    { intros y Hy. rewrite E1, E2. apply HX. right. auto. }
    assert (Et : (n + 1 + Z.of_nat (length X) = n + t)%Z) by (unfold t; cbn [length]; lia).
    rewrite Et in *. exists V. split; auto. split; [|split; [|split; congruence]].
    + intros v. rewrite CV. cbn [countL]. unfold U1. replace (n + 1 + p + 1)%Z with (n + p + 1 + 1)%Z by lia. rewrite multiplicity_insV by lia. lia.
    + eapply avg_trans; [exact AV|]. 
      assert (ED : del U1 (k + 1) = U).
      { apply functional_extensionality. intros i. unfold del, U1, insV. zcase i (k + 1)%Z.
        - lcase i k. reflexivity.
        - lcase (i + 1)%Z k. lcase (i + 1)%Z (k + 1)%Z. f_equal. lia. }
      pose proof (avg_insert n p U1 (k + 1) Hp ltac:(lia)) as AI. rewrite ED in AI. apply AI. replace (n + p + 2)%Z with (n + 1 + p + 1)%Z by lia. auto.
Qed.
(** Every knot vector with these multiplicities. *)
Lemma avg_added p n U X t V : (1 <= p)%Z -> (p <= n)%Z -> nondecreasing U 0 (n + p + 1) -> (forall x, In x X -> U p <= x <= U (n + 1)%Z) ->
  (0 <= n + t + p + 1)%Z -> nondecreasing V 0 (n + t + p + 1) -> (forall v, multiplicity V 0 (n + t + p + 1) v = (multiplicity U 0 (n + p + 1) v + countL v X)%Z) ->
  avg_rep (n + t) p V n p U.
Proof.
  intros Hp Hn M HX H0 MV CV. destruct (avg_values p Hp X U n Hn M HX) as (V' & M' & C' & A' & _ & _).
  destruct (mult_unique V V' (n + t + p + 1) (n + Z.of_nat (length X) + p + 1)) as [E K]; auto; try lia.
  { intros v. rewrite CV, C'. reflexivity. }
  assert (Z.of_nat (length X) = t) by lia. rewrite H in *. apply (avg_knots (n + t) p V V'); auto. intros i Hi. apply K. lia.
Qed.

(** Clamping. *)
Lemma avg_clampL n p U : (1 <= p)%Z -> wf_knots n p U -> avg_rep n p (clampL p U) n p U.
Proof.
  intros Hp W. pose proof (wf_n _ _ _ W) as Hn. pose proof (wf_mono _ _ _ W) as M.
  apply (avg_trans n p (clampL p U) (n + p) p (insV U p (U p) p)).
  - apply (avg_knots n p (clampL p U) (fun i => insV U p (U p) p (i + p)%Z)); auto.
    + intros i Hi. unfold clampL, insV. lcase 0%Z i. lcase i (p - 1)%Z; cbn [andb]; lcase (i + p)%Z p; lcase (i + p)%Z (p + p)%Z; auto; f_equal; lia.
    + apply avg_window; lia.
  - apply (avg_added p n U (repeat (U p) (Z.to_nat p)) p); auto; try lia.
    + intros x Hx. apply repeat_spec in Hx. subst. split; [lra|]. apply M; lia.
    + replace (n + p + p + 1)%Z with (n + p + 1 + p)%Z by lia. apply insV_mono; auto; try lia. split; [lra|]. apply M; lia.
    + intros v. replace (n + p + p + 1)%Z with (n + p + 1 + p)%Z by lia. rewrite multiplicity_insV by lia. rewrite countL_repeat.
      destruct (Req_EM_T (U p) v); lia.
Qed.
Lemma avg_clampR n p U : (1 <= p)%Z -> wf_knots n p U -> avg_rep n p (clampR n p U) n p U.
Proof.
  intros Hp W. pose proof (wf_n _ _ _ W) as Hn. pose proof (wf_mono _ _ _ W) as M.
  set (u := U (n + 1)%Z).
  apply (avg_trans n p (clampR n p U) (n + p) p (insV U n u p)).
  - apply (avg_knots n p (clampR n p U) (fun i => insV U n u p (i + 0)%Z)); auto.
    + intros i Hi. rewrite Z.add_0_r. unfold clampR, insV. lcase i n; lcase (n + 2)%Z i; lcase i (n + p + 1)%Z; cbn [andb]; auto.
      * lcase i (n + p)%Z. reflexivity.
      * lcase i (n + p)%Z. unfold u. f_equal. lia.
    + apply avg_window; lia.
  - apply (avg_added p n U (repeat u (Z.to_nat p)) p); auto; try lia.
    + intros x Hx. apply repeat_spec in Hx. subst. split; [|unfold u; lra]. apply M; lia.
    + replace (n + p + p + 1)%Z with (n + p + 1 + p)%Z by lia. apply insV_mono; auto; try lia. split; [|unfold u; lra]. apply M; lia.
    + intros v. replace (n + p + p + 1)%Z with (n + p + 1 + p)%Z by lia. rewrite multiplicity_insV by lia. rewrite countL_repeat.
      destruct (Req_EM_T u v); lia.
Qed.
Lemma avg_clamp n p l r U : (1 <= p)%Z -> wf_knots n p U -> avg_rep n p (clampLR n p l r U) n p U.
Proof.
  intros Hp W. unfold clampLR. destruct l, r.
  - apply (avg_trans n p _ n p (clampL p U)); [apply avg_clampR; auto; apply clampL_wf; auto|apply avg_clampL; auto].
  - apply avg_clampL; auto.
  - apply avg_clampR; auto.
  - apply avg_refl; auto.
Qed.

End Kind.

(** ** Objects *)
(** The control points of y are averages of control points of x taken along axis a, with
    coefficients that are the same for all lines and all components. *)
Definition averages (a : nat) (x y : nurbs Rn) : Prop :=
  exists c, averaging (a_size (get_axis y a) - 1) (a_size (get_axis x a) - 1) c /\
    forall idx k, in_net (spec_axes y) idx -> (0 <= k < n_comp y)%Z ->
      n_arr y idx k = sumZ 0 (a_size (get_axis x a) - 1) (fun l => c (nth a idx 0%Z) l * n_arr x (lset a l idx) k).

(** The same, with no new sign changes along lines of control points, and with sums of knots becoming
    sums of knots, if b is true. *)
Definition averages_kind (b : bool) (a : nat) (x y : nurbs Rn) : Prop :=
  exists c, averaging (a_size (get_axis y a) - 1) (a_size (get_axis x a) - 1) c /\ (b = true -> thins (a_size (get_axis y a) - 1) (a_size (get_axis x a) - 1) c /\
     carries_knots (a_size (get_axis y a) - 1) (a_deg (get_axis y a)) (a_knots (get_axis y a)) (a_size (get_axis x a) - 1) (a_deg (get_axis x a)) (a_knots (get_axis x a)) c) /\
    forall idx k, in_net (spec_axes y) idx -> (0 <= k < n_comp y)%Z ->
      n_arr y idx k = sumZ 0 (a_size (get_axis x a) - 1) (fun l => c (nth a idx 0%Z) l * n_arr x (lset a l idx) k).
Lemma averages_plain b a x y : averages_kind b a x y -> averages a x y.
Proof. intros (c & A & _ & H). exists c. auto. Qed.

Theorem averages_of b x y a B : wf_nurbs x -> (a < length (n_axes x))%nat -> preserves x y -> n_axes y = lset a B (n_axes x) -> bounded_knots y ->
  let A := get_axis x a in
  avg_rep b (a_size B - 1) (a_deg B) (a_knots B) (a_size A - 1) (a_deg A) (a_knots A) -> averages_kind b a x y.
Proof.
  intros W Ha Pr EX Bk A (c & Ac & Tc & Hc).
  assert (EB : get_axis y a = B) by (unfold get_axis; rewrite EX; apply nth_lset; auto).
  assert (Ly : length (n_axes y) = length (n_axes x)) by (rewrite EX; apply lset_length).
  pose proof (wf_get_axis _ _ W Ha) as WA. fold A in WA.
  assert (WB : wf_ax (spec_ax B)) by (rewrite <- EB; apply wf_get_axis; [apply Pr|lia]).
  assert (SD : same_dom (spec_ax A) (spec_ax B)).
  { pose proof (Forall2_nth _ _ _ a (spec_ax (axis0 (N:=Rn))) (spec_ax (axis0 (N:=Rn))) (pr_dom _ _ Pr)) as S.
    rewrite !nth_spec_axes, EB in S. apply S. unfold spec_axes. rewrite map_length. auto. }
  set (K := apply_to (a_size A - 1) c).
  assert (Pz : preserves x (mkNurbs (lset a B (n_axes x)) (n_comp x) (along (N:=Rn) a K (n_arr x)))).
  { apply axis_change; auto. intros P u Hu. destruct SD as [S1 S2]. cbn [spec_ax x_n x_p x_U] in S1, S2. apply Sub_curve; auto; [apply WB|apply WA|].
    unfold in_domain in *. fold A in Hu. rewrite <- S1, <- S2. auto. }
  set (z := mkNurbs (lset a B (n_axes x)) (n_comp x) (along (N:=Rn) a K (n_arr x))) in *.
  destruct (net_unique y z) as (_ & _ & E).
  - apply Pr.
  - apply Pz.
  - unfold same_knots. cbn [z n_axes]. rewrite <- EX. apply Forall2_refl. auto.
  - cbn [z n_comp]. symmetry. apply Pr.
  - exact Bk.
  - intros us k I _. assert (I0 : in_box (spec_axes x) us).
    { pose proof (pr_dom _ _ Pr) as D. revert us I. generalize (spec_axes x) (spec_axes y) D. clear.
      intros l l' D. induction D as [|a b l l' [E1 E2] D IH]; intros us I; inversion I; subst; constructor.
      - unfold in_domain in *. rewrite E1, E2. auto.
      - apply IH. auto. }
    rewrite (pr_hom _ _ Pr us k I0), (pr_hom _ _ Pz us k I0). reflexivity.
  - exists c. rewrite EB. fold A. split; auto. split; auto. intros idx k I Hk. rewrite <- (E idx k I Hk). reflexivity.
Qed.
