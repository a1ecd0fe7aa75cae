(** Proofs about FindSpan, FindMult, BasisFuns, CurvePoint. *)
From Coq Require Import ZArith Reals Lia Lra Bool.
From Verif Require Import Num Loop ModelBspline Spec SumZ BPiece BLink.
Local Open Scope Z_scope.

(** ** FindSpan, for any scalar type whose comparisons satisfy two weak laws *)

(** These laws hold for IEEE doubles (also with NaN), rationals and reals. *)
Record weak_order (N : Num) : Prop := {
  lt_le : forall x y : N, nltb N x y = true -> nleb N x y = true;
  lt_not_ge : forall x y : N, nltb N x y = true -> nleb N y x = false
}.

Lemma Rn_weak_order : weak_order Rn.
Proof.
  split; rn; intros x y H; apply Rltb_true in H.
  - apply Rleb_true. lra.
  - apply Rleb_false. lra.
Qed.

Lemma FindSpan_generic (N : Num) (W : weak_order N) n p (uu : N) U :
  p <= n ->
  exists k, FindSpan_opt n p uu U = Some k /\ p <= k <= n /\
    ((k = n /\ nleb N (U (n + 1)) uu = true) \/
     (k = p /\ nleb N (U (n + 1)) uu = false /\ nleb N uu (U p) = true) \/
     (nleb N (U (n + 1)) uu = false /\ nleb N uu (U p) = false /\
      nltb N uu (U k) = false /\ nleb N (U (k + 1)) uu = false)).
Proof.
  intros Hpn. unfold FindSpan_opt.
  destruct (nleb N (U (n + 1)) uu) eqn:E1.
  { exists n. split; [reflexivity|]. split; [lia|]. left; auto. }
  destruct (nleb N uu (U p)) eqn:E2.
  { exists p. split; [reflexivity|]. split; [lia|]. right; left; auto. }
  set (I := fun s : Z * Z * Z => let '(low, high, span) := s in
      p <= low /\ low < high /\ high <= n + 1 /\ span = (low + high) / 2 /\
      nltb N uu (U low) = false /\ nleb N (U high) uu = false).
  set (m := fun s : Z * Z * Z => let '(low, high, span) := s in Z.to_nat (high - low)).
  destruct (while_total I m (FindSpan_cond uu U) (FindSpan_body uu U)) with
    (fuel := Z.to_nat (n + 2 - p)) (s := (p, n + 1, (p + (n + 1)) / 2)) as [s' [Hs [HI Hc]]].
  - intros [[low high] span] [H1 [H2 [H3 [H4 [H5 H6]]]]] Hc.
    unfold FindSpan_cond in Hc. unfold FindSpan_body.
    assert (low <= span < high) by (subst span; split; [apply Z.div_le_lower_bound|apply Z.div_lt_upper_bound]; lia).
    assert (Hspan : low < span \/ span = low /\ high = low + 1).
    { destruct (Z.eq_dec high (low + 1)); [right|left]; subst span.
      - split; auto. subst high. replace (low + (low + 1)) with (1 + low * 2) by lia.
        rewrite Z.div_add by lia. reflexivity.
      - assert (low + 1 <= (low + high) / 2) by (apply Z.div_le_lower_bound; lia). lia. }
    destruct Hspan as [Hspan|[-> ->]].
    + destruct (nltb N uu (U span)) eqn:El.
      * split; [|unfold m; lia]. unfold I. repeat split; auto; try lia. apply (lt_not_ge _ W). auto.
      * split; [|unfold m; lia]. unfold I. repeat split; auto; try lia.
    + exfalso. rewrite H5, H6 in Hc. discriminate.
  - unfold I. repeat split; try lia; auto.
    destruct (nltb N uu (U p)) eqn:E; auto. apply (lt_le _ W) in E. congruence.
  - unfold m. lia.
  - rewrite Hs. destruct s' as [[low high] span]. unfold I in HI. unfold FindSpan_cond in Hc.
    apply orb_false_iff in Hc. destruct Hc as [Hc1 Hc2].
    destruct HI as [H1 [H2 [H3 [H4 [H5 H6]]]]].
    exists span. split; auto.
    assert (low <= span < high) by (subst span; split; [apply Z.div_le_lower_bound|apply Z.div_lt_upper_bound]; lia).
    split; [lia|]. right; right; auto.
Qed.

Local Open Scope R_scope.

Lemma FindSpan_R n p uu (U : Z -> R) : (p <= n)%Z ->
  (p <= FindSpan (N:=Rn) n p uu U <= n)%Z /\
  ((FindSpan (N:=Rn) n p uu U = n /\ U (n + 1)%Z <= uu) \/
   (FindSpan (N:=Rn) n p uu U = p /\ uu < U (n + 1)%Z /\ uu <= U p) \/
   (U (FindSpan (N:=Rn) n p uu U) <= uu < U (FindSpan (N:=Rn) n p uu U + 1)%Z)).
Proof.
  intros H. destruct (FindSpan_generic Rn Rn_weak_order n p uu U H) as [k [E [Hk C]]].
  unfold FindSpan. rewrite E. split; auto. rn.
  destruct C as [[-> C]|[[-> [C1 C2]]|[C1 [C2 [C3 C4]]]]].
  - left. split; auto. apply Rleb_true; auto.
  - right; left. apply Rleb_false in C1. apply Rleb_true in C2. auto.
  - right; right. apply Rltb_false in C3. apply Rleb_false in C4. lra.
Qed.

Lemma FindSpan_active n p U u : wf_knots n p U -> in_domain n p U u ->
  active n p U u (FindSpan (N:=Rn) n p u U).
Proof.
  intros W [D1 D2]. pose proof (wf_n _ _ _ W). pose proof (wf_p _ _ _ W).
  destruct (FindSpan_R n p u U ltac:(lia)) as [Hk [[E C]|[[E [C1 C2]]|C]]]; split; auto.
  - right. split; auto. lra.
  - rewrite E. left. pose proof (wf_first _ _ _ W). split; lra.
Qed.

(** ** FindMult *)


Lemma FindMult_block i u p (U : Z -> R) a b : (0 <= p)%Z ->
  (i - p <= a)%Z -> (a <= b + 1)%Z -> (b <= i + p + 1)%Z ->
  (forall j, (a <= j <= b)%Z -> U j = u) ->
  (forall j, (i - p <= j <= i + p + 1)%Z -> (j < a \/ b < j)%Z -> eps <= Rabs (U j - u)) ->
  FindMult (N:=Rn) i u p U = (b - a + 1)%Z.
Proof.
  intros Hp Ha Hab Hb Heq Hne. unfold FindMult.
  pose proof (for_up_ind (fun j m => m = Z.max 0 (Z.min b (i + j - 1) - a + 1)) (- p) (p + 1)
    (fun (j : Z) (mult : Z) => if nltb Rn (nabs Rn (nsub Rn u (U (i + j)%Z))) (neps Rn) then (mult + 1)%Z else mult) 0%Z) as H.
  cbv beta in H. rewrite H; [lia|lia|lia|].
  clear H. intros j m Hj ->. rn.
  destruct (Z_lt_le_dec (i + j) a) as [L|L]; [|destruct (Z_lt_le_dec b (i + j)) as [L'|L']].
  - assert (E : Rltb (Rabs (u - U (i + j)%Z)) (/ 4503599627370496) = false).
    { apply Rltb_false. rewrite Rabs_minus_sym. apply Hne; lia. }
    rewrite E. lia.
  - assert (E : Rltb (Rabs (u - U (i + j)%Z)) (/ 4503599627370496) = false).
    { apply Rltb_false. rewrite Rabs_minus_sym. apply Hne; lia. }
    rewrite E. lia.
  - assert (E : Rltb (Rabs (u - U (i + j)%Z)) (/ 4503599627370496) = true).
    { apply Rltb_true. rewrite Heq by lia. rewrite Rminus_diag_eq by auto. rewrite Rabs_R0. apply eps_pos. }
    rewrite E. lia.
Qed.

(** Block of knots equal to u ending at k. *)
Lemma block_left (U : Z -> R) lo k u : (lo <= k + 1)%Z -> nondecreasing U lo k ->
  (forall j, (lo <= j <= k)%Z -> U j <= u) ->
  exists s, (0 <= s <= k - lo + 1)%Z /\ (forall j, (k - s + 1 <= j <= k)%Z -> U j = u) /\
            (forall j, (lo <= j <= k - s)%Z -> U j < u).
Proof.
  intros Hlo M Hle.
  assert (forall d, (Z.of_nat d <= k - lo + 1)%Z ->
     (exists s, (0 <= s <= k - lo + 1)%Z /\ (forall j, (k - s + 1 <= j <= k)%Z -> U j = u) /\
            (forall j, (lo <= j <= k - s)%Z -> U j < u)) \/
     (forall j, (k - Z.of_nat d + 1 <= j <= k)%Z -> U j = u)) as A.
  { induction d; intros Hd.
    - right. intros; lia.
    - destruct IHd as [L|IH]; [lia|left; auto|].
      destruct (Req_dec (U (k - Z.of_nat d)%Z) u) as [E|E].
      + right. intros j Hj. destruct (Z.eq_dec j (k - Z.of_nat d)) as [->|]; auto. apply IH; lia.
      + left. exists (Z.of_nat d). split; [lia|]. split; auto.
        intros j Hj. assert (U j <= U (k - Z.of_nat d)%Z) by (apply M; lia).
        assert (U (k - Z.of_nat d)%Z <= u) by (apply Hle; lia). lra. }
  destruct (A (Z.to_nat (k - lo + 1))) as [L|R]; [lia|auto|].
  exists (k - lo + 1)%Z. split; [lia|]. split; [intros; apply R; lia|intros; lia].
Qed.

(** FindMult at the span containing u: the length of the block of equal knots ending at k
    (all knots in the window). *)
Lemma FindMult_span n p U u k : wf_knots n p U -> (p <= k <= n)%Z ->
  U k <= u < U (k + 1)%Z -> separated U (k - p) (k + p + 1) u ->
  exists s, FindMult (N:=Rn) k u p U = s /\ (0 <= s <= p + 1)%Z /\
    (forall j, (k - s + 1 <= j <= k)%Z -> U j = u) /\
    (forall j, (k - p <= j <= k - s)%Z -> U j < u).
Proof.
  intros W Hk Hu Hs. pose proof (wf_p _ _ _ W). pose proof (wf_mono _ _ _ W) as M.
  destruct (block_left U (k - p) k u) as [s [H1 [H2 H3]]].
  - lia.
  - intros i j Hi Hij Hj. apply M; lia.
  - intros. assert (U j <= U k) by (apply M; lia). lra.
  - exists s. split; [|repeat split; auto; lia].
    rewrite (FindMult_block k u p U (k - s + 1) k); try lia; auto.
    intros j Hj Hout. destruct (Hs j ltac:(lia)) as [E|E]; auto. exfalso.
    destruct Hout as [Hout|Hout].
    + specialize (H3 j ltac:(lia)). lra.
    + assert (U (k + 1)%Z <= U j) by (apply M; lia). lra.
Qed.

(** ** BasisFuns *)

Lemma BasisFuns_piece i u p (U : Z -> R) junk r : (0 <= p)%Z -> (0 <= r <= p)%Z ->
  BasisFuns (N:=Rn) i u p U junk r = B U i (Z.to_nat p) (i - p + r) u.
Proof.
  intros Hp Hr. unfold BasisFuns.
  floop (fun j (s : (Z -> R) * (Z -> R) * (Z -> R)) => let '(Nf, lft, rgt) := s in
       (forall r, (0 <= r <= j - 1)%Z -> Nf r = B U i (Z.to_nat (j - 1)) (i - (j - 1) + r) u) /\
       (forall l, (1 <= l <= j - 1)%Z -> lft l = u - U (i + 1 - l)%Z) /\
       (forall l, (1 <= l <= j - 1)%Z -> rgt l = U (i + l)%Z - u)).
  - repeat split; intros; try lia. replace r0 with 0%Z by lia. rewrite upd_same. simpl.
    replace (i - 0 + 0)%Z with i by lia. rewrite Z.eqb_refl. reflexivity.
  - intros j [[Nf lft] rgt] Hj [H1 [H2 H3]].
    unfold BasisFuns_outer. rn.
    set (lft' := upd lft j (u - U (i + 1 - j)%Z)).
    set (rgt' := upd rgt j (U (i + j)%Z - u)).
    assert (L : forall l, (1 <= l <= j)%Z -> lft' l = u - U (i + 1 - l)%Z).
    { intros l Hl. unfold lft'. destruct (Z.eq_dec l j) as [->|]; [apply upd_same|].
      rewrite upd_diff by auto. apply H2. lia. }
    assert (Rg : forall l, (1 <= l <= j)%Z -> rgt' l = U (i + l)%Z - u).
    { intros l Hl. unfold rgt'. destruct (Z.eq_dec l j) as [->|]; [apply upd_same|].
      rewrite upd_diff by auto. apply H3. lia. }
    set (q := Z.to_nat (j - 1)) in *.
    assert (Eq : Z.of_nat q = (j - 1)%Z) by (unfold q; lia).
    floop (fun r (s : (Z -> R) * R) => let '(Nf', saved) := s in
         (forall x, (0 <= x <= r - 1)%Z -> Nf' x = B U i (S q) (i - j + x) u) /\
         (forall x, (r <= x <= j - 1)%Z -> Nf' x = B U i q (i - (j - 1) + x) u) /\
         saved = (u - U (i - j + r)%Z) / (U (i + r)%Z - U (i - j + r)%Z) * B U i q (i - j + r) u).
    + repeat split; intros; try lia.
      * apply H1. lia.
      * rewrite B_zero by lia. lra.
    + intros r0 [N' sv] Hr0 [G1 [G2 G3]]. unfold BasisFuns_inner. rn.
      rewrite !L, !Rg by lia.
      assert (Nr : N' r0 = B U i q (i - j + r0 + 1) u) by (rewrite G2 by lia; f_equal; lia).
      repeat split.
      * intros x Hx. destruct (Z.eq_dec x r0) as [->|].
        -- rewrite upd_same. rewrite B_S, Eq, G3, Nr.
           replace (i - j + r0 + (j - 1) + 1)%Z with (i + r0)%Z by lia.
           replace (i - j + r0 + (j - 1) + 2)%Z with (i + (r0 + 1))%Z by lia.
           replace (i + 1 - (j - r0))%Z with (i - j + r0 + 1)%Z by lia.
           unfold Rdiv. replace (U (i + (r0 + 1))%Z - u + (u - U (i - j + r0 + 1)%Z))
             with (U (i + (r0 + 1))%Z - U (i - j + r0 + 1)%Z) by lra. lra.
        -- rewrite upd_diff by auto. apply G1. lia.
      * intros x Hx. rewrite upd_diff by lia. apply G2. lia.
      * rewrite Nr. replace (i + 1 - (j - r0))%Z with (i - j + (r0 + 1))%Z by lia.
        replace (i - j + r0 + 1)%Z with (i - j + (r0 + 1))%Z by lia.
        replace (U (i + (r0 + 1))%Z - u + (u - U (i - j + (r0 + 1))%Z))
             with (U (i + (r0 + 1))%Z - U (i - j + (r0 + 1))%Z) by lra. unfold Rdiv; lra.
    + intros [Nf' saved] [K1 [K2 K3]]. replace (j - 1 + 1)%Z with j in * by lia. repeat split.
      * intros x Hx. replace (j + 1 - 1)%Z with j in * by lia.
        replace (Z.to_nat j) with (S q) by lia.
        destruct (Z.eq_dec x j) as [->|].
        -- rewrite upd_same, K3. replace (i - j + j)%Z with i by lia.
           rewrite B_S, Eq. rewrite (B_zero U i q (i + 1)) by lia.
           replace (i + (j - 1) + 1)%Z with (i + j)%Z by lia. lra.
        -- rewrite upd_diff by auto. apply K1. lia.
      * intros l Hl. apply L. lia.
      * intros l Hl. apply Rg. lia.
  - intros [[Nf lft] rgt] [H _].
    specialize (H r). replace (p + 1 - 1)%Z with p in H by lia. apply H. lia.
Qed.

(** ** CurvePoint *)
Lemma CurvePoint_piece n p U P u junk : (0 <= p)%Z ->
  CurvePoint (N:=Rn) n p U P u junk = pc U (FindSpan (N:=Rn) n p u U) p P u.
Proof.
  intros Hp. unfold CurvePoint, pc. set (k := FindSpan (N:=Rn) n p u U). rn.
  rewrite for_up_sum.
  rewrite (sumZ_shift' (k - p) k (k - p)).
  replace (k - p - (k - p))%Z with 0%Z by lia. replace (k - (k - p))%Z with p by lia.
  rewrite Rplus_0_l. apply sumZ_ext. intros.
  rewrite BasisFuns_piece by lia. replace (j + (k - p))%Z with (k - p + j)%Z by lia. reflexivity.
Qed.

Lemma CurvePoint_curve n p U P u junk : wf_knots n p U -> in_domain n p U u ->
  CurvePoint (N:=Rn) n p U P u junk = curve n p U P u.
Proof.
  intros W D. pose proof (wf_p _ _ _ W). rewrite CurvePoint_piece by auto.
  symmetry. apply curve_piece; auto. apply FindSpan_active; auto.
Qed.

(** * Exact multiplicity *)
Lemma countN_bounds c : forall i U u, (0 <= countN c i U u <= Z.of_nat c)%Z.
Proof. induction c; intros; simpl countN; [lia|]. specialize (IHc (i + 1)%Z U u). destruct (Req_EM_T (U i) u); lia. Qed.

Lemma countN_split a b : forall i U u, countN (a + b) i U u = (countN a i U u + countN b (i + Z.of_nat a) U u)%Z.
Proof.
  induction a; intros.
  - change (0 + b)%nat with b. replace (i + Z.of_nat 0)%Z with i by lia. reflexivity.
  - change (S a + b)%nat with (S (a + b)). cbn [countN]. rewrite IHa.
    replace (i + 1 + Z.of_nat a)%Z with (i + Z.of_nat (S a))%Z by lia. lia.
Qed.

Lemma multiplicity_split U lo mid hi u : (lo <= mid + 1)%Z -> (mid <= hi)%Z ->
  multiplicity U lo hi u = (multiplicity U lo mid u + multiplicity U (mid + 1) hi u)%Z.
Proof.
  intros. unfold multiplicity.
  replace (Z.to_nat (hi + 1 - lo)) with (Z.to_nat (mid + 1 - lo) + Z.to_nat (hi + 1 - (mid + 1)))%nat by lia.
  rewrite countN_split. f_equal. f_equal. lia.
Qed.

Lemma multiplicity_none U lo hi u : (forall j, (lo <= j <= hi)%Z -> U j <> u) -> multiplicity U lo hi u = 0%Z.
Proof.
  unfold multiplicity. intros H.
  assert (forall c i, (forall j, (i <= j < i + Z.of_nat c)%Z -> U j <> u) -> countN c i U u = 0%Z) as A.
  { induction c; intros i Hi; simpl; auto. destruct (Req_EM_T (U i) u).
    - exfalso. apply (Hi i); auto. lia.
    - rewrite IHc; auto. intros; apply Hi; lia. }
  apply A. intros; apply H; lia.
Qed.

Lemma multiplicity_all U lo hi u : (lo <= hi + 1)%Z -> (forall j, (lo <= j <= hi)%Z -> U j = u) ->
  multiplicity U lo hi u = (hi - lo + 1)%Z.
Proof.
  unfold multiplicity. intros Hle H.
  assert (forall c i, (forall j, (i <= j < i + Z.of_nat c)%Z -> U j = u) -> countN c i U u = Z.of_nat c) as A.
  { induction c; intros i Hi; auto. simpl countN. destruct (Req_EM_T (U i) u).
    - rewrite IHc; [lia|]. intros; apply Hi; lia.
    - exfalso. apply n. apply Hi; lia. }
  rewrite A; [lia|]. intros; apply H; lia.
Qed.

Lemma multiplicity_nonneg U lo hi u : (0 <= multiplicity U lo hi u)%Z.
Proof. apply countN_bounds. Qed.

(** Two equal entries of a sorted array enclose only equal entries. *)
Lemma multiplicity_pair U lo hi u a b : nondecreasing U lo hi -> (lo <= a)%Z -> (a <= b)%Z -> (b <= hi)%Z ->
  U a = u -> U b = u -> (b - a + 1 <= multiplicity U lo hi u)%Z.
Proof.
  intros M Ha Hab Hb Ea Eb.
  rewrite (multiplicity_split U lo (a - 1) hi) by lia. rewrite (multiplicity_split U (a - 1 + 1) b hi) by lia.
  rewrite (multiplicity_all U (a - 1 + 1) b); [|lia|].
  - pose proof (multiplicity_nonneg U lo (a - 1) u). pose proof (multiplicity_nonneg U (b + 1) hi u). lia.
  - intros j Hj. assert (U a <= U j) by (apply M; lia). assert (U j <= U b) by (apply M; lia). lra.
Qed.

Lemma FindMult_window i u p (U : Z -> R) : (0 <= p)%Z -> separated U (i - p) (i + p + 1) u ->
  FindMult i u p U = multiplicity U (i - p) (i + p + 1) u.
Proof.
  intros Hp Hs. unfold FindMult.
  floop (fun j (s : Z) => s = multiplicity U (i - p) (i + j - 1) u).
  - unfold multiplicity. replace (Z.to_nat (i + - p - 1 + 1 - (i - p))) with O by lia. reflexivity.
  - intros j s Hj ->. rewrite (multiplicity_split U (i - p) (i + j - 1) (i + (j + 1) - 1)) by lia.
    replace (i + j - 1 + 1)%Z with (i + j)%Z by lia. replace (i + (j + 1) - 1)%Z with (i + j)%Z by lia.
    rn. destruct (Hs (i + j)%Z ltac:(lia)) as [E|E].
    + rewrite (multiplicity_all U (i + j) (i + j)) by (try lia; intros x Hx; replace x with (i + j)%Z by lia; auto).
      assert (Rltb (Rabs (u - U (i + j)%Z)) (/ 4503599627370496) = true) as ->.
      { apply Rltb_true. rewrite E, Rminus_diag_eq by auto. rewrite Rabs_R0. lra. }
      lia.
    + rewrite (multiplicity_none U (i + j) (i + j)).
      * assert (Rltb (Rabs (u - U (i + j)%Z)) (/ 4503599627370496) = false) as ->.
        { apply Rltb_false. rewrite Rabs_minus_sym. lra. }
        lia.
      * intros x Hx. replace x with (i + j)%Z by lia. intros C. rewrite C, Rminus_diag_eq, Rabs_R0 in E by auto. lra.
  - intros s ->. f_equal. lia.
Qed.

Lemma FindMult_exact n p (U : Z -> R) u : (0 <= p)%Z -> (p <= n)%Z -> nondecreasing U 0 (n + p + 1) ->
  separated U 0 (n + p + 1) u -> (multiplicity U 0 (n + p + 1) u <= p + 1)%Z ->
  FindMult (FindSpan n p u U) u p U = multiplicity U 0 (n + p + 1) u.
Proof.
  intros Hp Hn M Hs Hc. destruct (FindSpan_R n p u U Hn) as [Hk C]. set (k := FindSpan n p u U) in *.
  rewrite FindMult_window; [|auto|intros j Hj; apply Hs; lia].
  rewrite (multiplicity_split U 0 (k - p - 1) (n + p + 1)) by lia.
  replace (k - p - 1 + 1)%Z with (k - p)%Z by lia.
  rewrite (multiplicity_split U (k - p) (k + p + 1) (n + p + 1)) by lia.
  assert (W : forall j, (0 <= j <= n + p + 1)%Z -> U j = u -> (k - p <= j <= k + p + 1)%Z).
  { intros j Hj Ej.
    assert (PR : forall x, (0 <= x <= n + p + 1)%Z -> U x = u -> (Z.abs (x - j) <= p)%Z).
    { intros x Hx Ex. destruct (Z_le_gt_dec x j).
      - pose proof (multiplicity_pair U 0 (n + p + 1) u x j M ltac:(lia) ltac:(lia) ltac:(lia) Ex Ej). lia.
      - pose proof (multiplicity_pair U 0 (n + p + 1) u j x M ltac:(lia) ltac:(lia) ltac:(lia) Ej Ex). lia. }
    destruct C as [[E C]|[[E [C1 C2]]|C]].
    - rewrite E. split; [|lia].
      destruct (Req_dec (U (n + 1)%Z) u) as [e|e].
      + specialize (PR (n + 1)%Z ltac:(lia) e). lia.
      + destruct (Z_le_gt_dec j (n + 1)); [|lia]. assert (U j <= U (n + 1)%Z) by (apply M; lia). exfalso; lra.
    - rewrite E. split; [lia|].
      destruct (Req_dec (U p) u) as [e|e].
      + specialize (PR p ltac:(lia) e). lia.
      + destruct (Z_le_gt_dec p j); [|lia]. assert (U p <= U j) by (apply M; lia). exfalso; lra.
    - assert (j <= k)%Z.
      { destruct (Z_le_gt_dec j k); auto. assert (U (k + 1)%Z <= U j) by (apply M; lia). exfalso; lra. }
      destruct (Req_dec (U k) u) as [e|e].
      + specialize (PR k ltac:(lia) e). lia.
      + assert (U j <= U k) by (apply M; lia). exfalso; lra. }
  rewrite (multiplicity_none U 0 (k - p - 1)), (multiplicity_none U (k + p + 1 + 1) (n + p + 1)).
  - lia.
  - intros j Hj Ej. specialize (W j ltac:(lia) Ej). lia.
  - intros j Hj Ej. specialize (W j ltac:(lia) Ej). lia.
Qed.
