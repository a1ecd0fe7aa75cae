(** ClampKnot: insertion of the end knot up to multiplicity p, then dropping the outer control
    points. *)
From Coq Require Import ZArith Reals Lia Lra Bool FunctionalExtensionality.
From Verif Require Import Num Loop ModelBspline Spec SumZ BPiece BLink BInsert BRep ProofSpan ProofEval ProofInsert ProofCut.
Local Open Scope R_scope.

Section KntIns.
Variables (U P : Z -> R) (k s p : Z) (u : R) (m : Z).
Hypothesis Hs0 : (0 <= s)%Z.
Hypothesis Hsp : (s <= p)%Z.
Hypothesis Hp0 : (0 <= p)%Z.
Hypothesis Hblock : forall i, (k - s + 1 <= i <= k)%Z -> U i = u.
Hypothesis Hless : forall i, (m - p <= i <= k - s)%Z -> U i < u.
Hypothesis Hm : (k - s + 1 <= m <= k + 1)%Z.

Lemma KntIns_spec n junk :
  let r := (p - s)%Z in
  KntIns (N:=Rn) n p U P u k r junk =
  fun x => if (k =? p)%Z then (if (0 <=? x)%Z && (x <=? r - 1)%Z then iQ U P k p u m r (k - p + r + x) else P x)
           else (if (n - r + 1 <=? x)%Z && (x <=? n)%Z then iQ U P k p u m r (k - p + x - (n - r)) else P x).
Proof.
  intros r. unfold KntIns. cbv zeta.
  match goal with |- context [for_up 1 r ?body ?init] =>
    assert (A : let st := for_up 1 r body init in
      (forall x, (0 <= x <= r + r - 1)%Z -> fst st x = iQ U P k p u m r (k - p + x)%Z)) end.
  { destruct (Z.eq_dec r 0) as [Er|Er].
    { intros st x Hx. lia. }
    floop (fun j (st : (Z -> R) * (Z -> R)) =>
      (forall x, (0 <= x <= r + r - 1)%Z -> (x <= j - 1 \/ r + r - (j - 1) <= x)%Z -> fst st x = iQ U P k p u m r (k - p + x)%Z) /\
      (forall i, (0 <= i <= p - (j - 1) - s)%Z -> snd st i = iQ U P k p u m (j - 1) (k - p + (j - 1) + i)%Z)).
    - cbn [fst snd]. split.
      + intros x Hx Hc. replace x with 0%Z by lia. rewrite upd_same.
        rewrite (iQ_keep U P k s p u m Hblock Hless Hm r 0) by lia.
        replace (k - p + 0)%Z with (k - p)%Z by lia. reflexivity.
      + intros i Hi. rewrite fill_in by lia. replace (1 - 1)%Z with 0%Z by lia. rewrite iQ_0. f_equal. lia.
    - intros j [Q R'] Hj [H1 H2]. cbn [fst snd] in *.
      assert (H3 := inner_spec U P k s p u m Hs0 Hblock Hm j R' ltac:(lia) ltac:(lia) H2).
      replace (p - j - s)%Z with (r - j)%Z in H3 by lia. split.
      + intros x Hx Hc. rewrite (H3 0%Z) by lia. rewrite (H3 (r - j)%Z) by lia.
        replace (k - p + j + 0)%Z with (k - p + j)%Z by lia.
        replace (k - p + j + (r - j))%Z with (k - s)%Z by lia.
        unfold upd. destruct (Z.eqb_spec x (r + r - j)) as [->|Hne].
        * rewrite <- (iQ_move U P k s p u m Hsp Hp0 Hblock Hm r j (k - s)) by lia.
          f_equal. lia.
        * destruct (Z.eqb_spec x j) as [->|Hne'].
          -- rewrite (iQ_keep U P k s p u m Hblock Hless Hm r j) by lia. reflexivity.
          -- apply H1; lia.
      + intros i Hi. replace (j + 1 - 1)%Z with j in * by lia. apply H3. lia.
    - intros [Q R'] [H1 H2]. cbn [fst snd] in *. cbv zeta. intros x Hx. apply H1; auto. lia. }
  destruct (for_up 1 r _ _) as [Q R']. cbn [fst snd] in A.
  apply functional_extensionality. intros x.
  destruct (k =? p)%Z.
  - unfold fill. lcase 0%Z x; auto. lcase x (r - 1)%Z; auto. cbn [andb]. rewrite A by lia. f_equal. lia.
  - unfold fill. lcase (n - r + 1)%Z x; auto. lcase x n; auto. cbn [andb]. rewrite A by lia. f_equal. lia.
Qed.
End KntIns.

Definition clampL (p : Z) (U : Z -> R) : Z -> R := fun i => if (0 <=? i)%Z && (i <=? p - 1)%Z then U p else U i.
Definition clampR (n p : Z) (U : Z -> R) : Z -> R :=
  fun i => if (n + 2 <=? i)%Z && (i <=? n + p + 1)%Z then U (n + 1)%Z else U i.

Lemma clampL_wf n p U : wf_knots n p U -> wf_knots n p (clampL p U).
Proof.
  intros [w1 w2 w3 w4 w5]. constructor; auto.
  - intros i j Hi Hij Hj. unfold clampL. lcase 0%Z i. lcase 0%Z j. lcase i (p - 1)%Z; lcase j (p - 1)%Z; cbn [andb]; try lra; apply w3; lia.
  - unfold clampL. lcase 0%Z p. lcase p (p - 1)%Z. lcase 0%Z (p + 1)%Z. lcase (p + 1)%Z (p - 1)%Z. auto.
  - unfold clampL. lcase 0%Z n. lcase n (p - 1)%Z. lcase 0%Z (n + 1)%Z. lcase (n + 1)%Z (p - 1)%Z. auto.
Qed.
Lemma clampR_wf n p U : wf_knots n p U -> wf_knots n p (clampR n p U).
Proof.
  intros [w1 w2 w3 w4 w5]. constructor; auto.
  - intros i j Hi Hij Hj. unfold clampR. lcase i (n + p + 1)%Z. lcase j (n + p + 1)%Z.
    lcase (n + 2)%Z i; lcase (n + 2)%Z j; cbn [andb]; try lra; apply w3; lia.
  - unfold clampR. lcase (n + 2)%Z p. lcase (n + 2)%Z (p + 1)%Z. auto.
  - unfold clampR. lcase (n + 2)%Z n. lcase (n + 2)%Z (n + 1)%Z. auto.
Qed.

Theorem Clamp_left_spec n p U P junk : wf_knots n p U -> (1 <= p)%Z -> separated U 0 (n + p + 1) (U p) ->
  fst (Clamp_left (N:=Rn) n p (U, P) junk) = clampL p U /\
  Sub n p (clampL p U) (snd (Clamp_left (N:=Rn) n p (U, P) junk)) n p U P.
Proof.
  intros W Hp Hsep. split; [reflexivity|].
  pose proof (wf_n _ _ _ W). pose proof (wf_mono _ _ _ W) as M.
  pose proof (wf_first _ _ _ W) as Wf. pose proof (wf_last _ _ _ W) as Wl.
  destruct (FindMult_span n p U (U p) p W ltac:(lia) ltac:(lra)) as [s [Es [Hs [Hb Hl]]]].
  { intros j Hj. apply Hsep. lia. }
  cbn [Clamp_left fst snd].
  match goal with |- context[FindMult ?a ?b ?c ?d] => replace (FindMult a b c d) with s by (symmetry; exact Es) end.
  assert (Hs1 : (1 <= s)%Z).
  { destruct (Z_le_gt_dec 1 s); auto. assert (U p < U p) by (apply Hl; lia). lra. }
  zcase s p.
  - rewrite (KntIns_spec U P p s p (U p) (p + 1)); auto; try lia.
    2:{ intros i Hi. apply Hl. lia. }
    set (r := (p - s)%Z). rewrite Z.eqb_refl.
    eapply Sub_trans; [|eapply Sub_trans].
    + apply (Sub_ext n p _ _ (fun x => insV U p (U p) r (x + r)%Z) (fun x => iQ U P p p (U p) (p + 1) r (x + r)%Z)); try lia.
      * intros i Hi. unfold clampL, insV. lcase 0%Z i. lcase i (p - 1)%Z; cbn [andb].
        -- lcase (i + r)%Z p; [symmetry; apply Hb; lia|]. lcase (i + r)%Z (p + r)%Z. auto.
        -- lcase (i + r)%Z p. lcase (i + r)%Z (p + r)%Z; f_equal; lia.
      * intros i Hi. lcase 0%Z i. lcase i (r - 1)%Z; cbn [andb].
        -- f_equal. lia.
        -- replace (i + r)%Z with (i + (r - 0))%Z by lia.
           rewrite (iQ_move U P p s p (U p) (p + 1)); auto; try lia.
    + apply Sub_shift with (N := (n + r)%Z); lia.
    + apply (Sub_iQ U P p s p (U p) (p + 1)); auto; try lia.
      intros j Hj. replace (n + j + p + 1)%Z with (n + p + 1 + j)%Z by lia. apply insV_mono; auto; try lia. lra.
  - apply Sub_ext; try lia; auto. intros i Hi. unfold clampL. lcase 0%Z i. lcase i (p - 1)%Z; auto. cbn [andb].
    symmetry. apply Hb. lia.
Qed.

Theorem Clamp_right_spec n p U P junk : wf_knots n p U -> (1 <= p)%Z -> separated U 0 (n + p + 1) (U (n + 1)%Z) ->
  fst (Clamp_right (N:=Rn) n p (U, P) junk) = clampR n p U /\
  Sub n p (clampR n p U) (snd (Clamp_right (N:=Rn) n p (U, P) junk)) n p U P.
Proof.
  intros W Hp Hsep. split; [reflexivity|].
  pose proof (wf_n _ _ _ W). pose proof (wf_mono _ _ _ W) as M.
  pose proof (wf_first _ _ _ W) as Wf. pose proof (wf_last _ _ _ W) as Wl.
  destruct (FindMult_right n p U W Hsep) as [s [Es [Hs [Hb Hl]]]].
  cbn [Clamp_right fst snd].
  match goal with |- context[FindMult ?a ?b ?c ?d] => replace (FindMult a b c d) with s by (symmetry; exact Es) end.
  zcase s p.
  - rewrite (KntIns_spec U P (n + s) s p (U (n + 1)%Z) (n + 1)); auto; try lia.
    2:{ intros i Hi. apply Hb. lia. }
    2:{ intros i Hi. assert (U i <= U n) by (apply M; lia). lra. }
    set (r := (p - s)%Z). destruct (Z.eqb_spec (n + s) p); [lia|].
    eapply Sub_trans; [|eapply Sub_trans].
    + apply (Sub_ext n p _ _ (fun x => insV U (n + s) (U (n + 1)%Z) r (x + 0)%Z)
        (fun x => iQ U P (n + s) p (U (n + 1)%Z) (n + 1) r (x + 0)%Z)); try lia.
      * intros i Hi. replace (i + 0)%Z with i by lia. unfold clampR, insV. lcase i (n + p + 1)%Z.
        lcase (n + 2)%Z i; cbn [andb]; lcase i (n + s)%Z; auto.
        -- symmetry. apply Hb. lia.
        -- lcase i (n + s + r)%Z. auto.
      * intros i Hi. lcase i n. replace (i + 0)%Z with i by lia. lcase (n - r + 1)%Z i; cbn [andb].
        -- f_equal. lia.
        -- rewrite (iQ_keep U P (n + s) s p (U (n + 1)%Z) (n + 1)) with (j := 0%Z); auto; try lia.
           ++ intros y Hy. apply Hb. lia.
           ++ intros y Hy. assert (U y <= U n) by (apply M; lia). lra.
    + apply Sub_shift with (N := (n + r)%Z); lia.
    + apply (Sub_iQ U P (n + s) s p (U (n + 1)%Z) (n + 1)); auto; try lia.
      * intros y Hy. apply Hb. lia.
      * intros j Hj. replace (n + j + p + 1)%Z with (n + p + 1 + j)%Z by lia. apply insV_mono; auto; try lia.
        assert (U (n + s)%Z = U (n + 1)%Z) by (apply Hb; lia).
        assert (U (n + 1)%Z < U (n + s + 1)%Z) by (apply Hl; lia). lra.
  - apply Sub_ext; try lia; auto. intros i Hi. unfold clampR. lcase i (n + p + 1)%Z. lcase (n + 2)%Z i; auto. cbn [andb].
    symmetry. apply Hb. lia.
Qed.

Definition clampLR (n p : Z) (l r : bool) (U : Z -> R) : Z -> R :=
  let U := if l then clampL p U else U in if r then clampR n p U else U.

Theorem Clamp_spec n p U P l r junk : wf_knots n p U -> (1 <= p)%Z ->
  separated U 0 (n + p + 1) (U p) -> separated U 0 (n + p + 1) (U (n + 1)%Z) ->
  fst (ClampKnot (N:=Rn) n p U P l r junk) = clampLR n p l r U /\
  wf_knots n p (clampLR n p l r U) /\
  Sub n p (clampLR n p l r U) (snd (ClampKnot (N:=Rn) n p U P l r junk)) n p U P.
Proof.
  intros W Hp S1 S2. pose proof (wf_n _ _ _ W). unfold ClampKnot, clampLR.
  assert (L : let UP := if l then Clamp_left (N:=Rn) n p (U, P) junk else (U, P) in
     let U' := if l then clampL p U else U in
     fst UP = U' /\ wf_knots n p U' /\ Sub n p U' (snd UP) n p U P /\
     separated U' 0 (n + p + 1) (U' (n + 1)%Z)).
  { destruct l.
    - destruct (Clamp_left_spec n p U P junk W Hp S1) as [A1 A2].
      split; [exact A1|]. split; [apply clampL_wf; auto|]. split; [exact A2|].
      intros j Hj. unfold clampL. lcase 0%Z (n + 1)%Z. lcase (n + 1)%Z (p - 1)%Z. cbn [andb].
      destruct (_ && _); [apply S2; lia|apply S2; lia].
    - cbn [fst snd]. repeat split; auto using Sub_refl; apply W. }
  cbv zeta in L. destruct L as [L1 [L2 [L3 L4]]].
  assert (exists P1, (if l then Clamp_left (N:=Rn) n p (U, P) junk else (U, P)) = ((if l then clampL p U else U), P1) /\
     Sub n p (if l then clampL p U else U) P1 n p U P) as [P1 [EP L3']].
  { eexists. split; [|exact L3]. destruct l; reflexivity. }
  clear L1 L3.
  match type of EP with ?x = _ => match goal with |- context[if l then ?c else ?d] => change (if l then c else d) with x end end.
  rewrite EP.
  destruct r; cbn [fst snd].
  - destruct (Clamp_right_spec n p _ P1 junk L2 Hp L4) as [B1 B2]. split; [exact B1|]. split; [apply clampR_wf; auto|].
    eapply Sub_trans; eauto.
  - auto.
Qed.

Lemma clampLR_ends n p l r U : wf_knots n p U -> clampLR n p l r U p = U p /\ clampLR n p l r U (n + 1)%Z = U (n + 1)%Z.
Proof.
  intros W. pose proof (wf_n _ _ _ W). pose proof (wf_p _ _ _ W). unfold clampLR, clampL, clampR.
  destruct l, r; cbn [andb];
  repeat match goal with |- context[(?a <=? ?b)%Z] => destruct (Z.leb_spec a b); try lia; cbn [andb] end; auto.
Qed.

Theorem Clamp_curve n p U P l r junk x : wf_knots n p U -> (1 <= p)%Z ->
  separated U 0 (n + p + 1) (U p) -> separated U 0 (n + p + 1) (U (n + 1)%Z) -> in_domain n p U x ->
  let UP := ClampKnot (N:=Rn) n p U P l r junk in
  curve n p (fst UP) (snd UP) x = curve n p U P x.
Proof.
  intros W Hp S1 S2 D UP. destruct (Clamp_spec n p U P l r junk W Hp S1 S2) as [E [W' S]].
  destruct (clampLR_ends n p l r U W) as [E1 E2]. unfold UP. rewrite E.
  apply Sub_curve; auto. unfold in_domain. rewrite E1, E2. auto.
Qed.
