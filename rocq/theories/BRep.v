(** Piecewise equality of two splines: every nonempty span of the first lies in a nonempty span
    of the second and carries the same polynomial. *)
From Coq Require Import ZArith Reals Lia Lra.
From Verif Require Import Spec SumZ BPiece BLink BInsert.
Local Open Scope R_scope.

Definition Sub (n' p' : Z) (V Q : Z -> R) (n p : Z) (U P : Z -> R) : Prop :=
  forall k', (p' <= k' <= n')%Z -> V k' < V (k' + 1)%Z ->
  exists k, (p <= k <= n)%Z /\ U k <= V k' /\ V (k' + 1)%Z <= U (k + 1)%Z /\
            forall x, pc V k' p' Q x = pc U k p P x.

Lemma Sub_refl n p U P : Sub n p U P n p U P.
Proof. intros k Hk Hlt. exists k. repeat split; auto; lra || lia. Qed.

Lemma Sub_trans n2 p2 U2 P2 n1 p1 U1 P1 n0 p0 U0 P0 :
  Sub n2 p2 U2 P2 n1 p1 U1 P1 -> Sub n1 p1 U1 P1 n0 p0 U0 P0 -> Sub n2 p2 U2 P2 n0 p0 U0 P0.
Proof.
  intros H2 H1 k Hk Hlt. destruct (H2 k Hk Hlt) as [k1 [Hk1 [A [B E]]]].
  destruct (H1 k1 Hk1 ltac:(lra)) as [k0 [Hk0 [A0 [B0 E0]]]].
  exists k0. repeat split; try lia; try lra. intros x. rewrite E. apply E0.
Qed.

Lemma pc_ext U k p P P' u : (forall i, (k - p <= i <= k)%Z -> P i = P' i) -> pc U k p P u = pc U k p P' u.
Proof. intros H. unfold pc. apply sumZ_ext. intros i Hi. rewrite H by auto. reflexivity. Qed.

Lemma pc_ext_knots U U' k p P u : (0 <= p)%Z -> (forall i, (k - p + 1 <= i <= k + p)%Z -> U i = U' i) ->
  pc U k p P u = pc U' k p P u.
Proof.
  intros Hp H. unfold pc. apply sumZ_ext. intros i Hi. f_equal. apply B_ext. intros j Hj. apply H. lia.
Qed.

Lemma pc_ext2 U U' k p P P' u : (0 <= p)%Z -> (forall i, (k - p + 1 <= i <= k + p)%Z -> U i = U' i) ->
  (forall i, (k - p <= i <= k)%Z -> P i = P' i) -> pc U k p P u = pc U' k p P' u.
Proof. intros. rewrite (pc_ext_knots U U') by auto. apply pc_ext; auto. Qed.

Lemma pc_shift U k p P u d : pc (fun j => U (j + d)%Z) k p (fun i => P (i + d)%Z) u = pc U (k + d) p P u.
Proof.
  unfold pc. replace (k + d - p)%Z with (k - p + d)%Z by lia.
  rewrite (sumZ_shift (k - p) k d). apply sumZ_ext. intros. rewrite B_shift. reflexivity.
Qed.

(** Same curve on the common domain. *)
Lemma Sub_curve n' p' V Q n p U P x :
  wf_knots n' p' V -> wf_knots n p U -> Sub n' p' V Q n p U P ->
  V (n' + 1)%Z = U (n + 1)%Z \/ x < V (n' + 1)%Z ->
  in_domain n' p' V x -> curve n' p' V Q x = curve n p U P x.
Proof.
  intros WV WU H E D. destruct (active_exists _ _ _ _ WV D) as [k' A'].
  pose proof (active_lt _ _ _ _ _ WV A') as Hlt.
  rewrite (curve_piece _ _ _ _ _ _ WV A').
  assert (Hk' : (p' <= k' <= n')%Z) by (destruct A'; lia).
  destruct (H k' Hk' Hlt) as [k [Hk [A [B Epc]]]].
  rewrite Epc. symmetry. apply curve_piece; auto. split; auto.
  destruct A' as [_ [C|[-> C]]].
  - left. lra.
  - destruct E as [E|E]; [|lra]. right. split; [|lra].
    destruct (Z.eq_dec k n); auto. exfalso.
    assert (U (k + 1)%Z <= U n) by (apply (wf_mono _ _ _ WU); pose proof (wf_p _ _ _ WU); lia).
    pose proof (wf_last _ _ _ WU). lra.
Qed.

(** Changing irrelevant knots and control points. *)
Lemma Sub_ext n p V Q U P : (0 <= p)%Z ->
  (forall i, (1 <= i <= n + p)%Z -> V i = U i) -> (forall i, (0 <= i <= n)%Z -> Q i = P i) ->
  (1 <= p)%Z -> Sub n p V Q n p U P.
Proof.
  intros Hp HU HP Hp1 k Hk Hlt. exists k. rewrite <- !HU by lia. repeat split; try lia; try lra.
  intros x. apply pc_ext2; auto; intros i Hi; [apply HU|apply HP]; lia.
Qed.

(** Dropping leading control points and knots. *)
Lemma Sub_shift n p V Q d N : (0 <= d)%Z -> (n + d <= N)%Z ->
  Sub n p (fun i => V (i + d)%Z) (fun i => Q (i + d)%Z) N p V Q.
Proof.
  intros Hd HN k Hk Hlt. exists (k + d)%Z. replace (k + d + 1)%Z with (k + 1 + d)%Z by lia.
  repeat split; try lia; try lra. intros x. apply pc_shift.
Qed.

(** One Boehm insertion. *)
Lemma Sub_insert N p V m Q P : (0 <= p)%Z -> (p + 1 <= m <= N + 1)%Z ->
  nondecreasing V 0 (N + p + 2) ->
  (forall i, (0 <= i <= N + 1)%Z -> V i < V (i + p + 1)%Z -> Q i = boehm_pts V m p P i) ->
  Sub (N + 1) p V Q N p (del V m) P.
Proof.
  intros Hp Hm M HQ k' Hk' Hlt. exists (sig m k').
  assert (Hs : forall a b, (p <= a)%Z -> (a <= b)%Z -> (b <= N + 2)%Z -> V a <= V b) by (intros; apply M; lia).
  split; [unfold sig; zcase k' m|]. split; [|split].
  - unfold sig, del. zcase k' m.
    + zcase k' m. lra.
    + zcase (k' - 1)%Z m.
      * apply Hs; lia.
      * replace (k' - 1 + 1)%Z with k' by lia. lra.
  - unfold sig, del. zcase k' m.
    + zcase (k' + 1)%Z m; [lra|apply Hs; lia].
    + zcase (k' - 1 + 1)%Z m. replace (k' - 1 + 1 + 1)%Z with (k' + 1)%Z by lia. lra.
  - intros x. rewrite pc_insert; auto.
    + apply pc_ext. intros i Hi. apply HQ; [lia|].
      assert (V i <= V k') by (apply M; lia). assert (V (k' + 1)%Z <= V (i + p + 1)%Z) by (apply M; lia). lra.
    + intros a b Ha Hab Hb. apply M; lia.
Qed.

(** The inverse direction: a coarse spline agrees with the fine one wherever the coarse span is a
    single fine span. *)
Lemma pc_insert_spans N p V m Q P k' x : (0 <= p)%Z -> (p <= k' <= N + 1)%Z ->
  nondecreasing V 0 (N + p + 2) -> V k' < V (k' + 1)%Z ->
  (forall i, (0 <= i <= N + 1)%Z -> V i < V (i + p + 1)%Z -> Q i = boehm_pts V m p P i) ->
  pc (del V m) (sig m k') p P x = pc V k' p Q x.
Proof.
  intros Hp Hk' M Hlt HQ. rewrite pc_insert; auto.
  - apply pc_ext. intros i Hi. symmetry. apply HQ; [lia|].
    assert (V i <= V k') by (apply M; lia). assert (V (k' + 1)%Z <= V (i + p + 1)%Z) by (apply M; lia). lra.
  - intros a b Ha Hab Hb. apply M; lia.
Qed.
