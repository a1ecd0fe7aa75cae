(** RefineKnotVector: every round is one Boehm insertion into a virtual knot vector that is the
    not yet consumed part of the input followed by the part of the output built so far. *)
From Coq Require Import ZArith Reals Lia Lra Bool FunctionalExtensionality.
From Verif Require Import Num Loop ModelBspline ModelBSp Spec SumZ BPiece BLink BInsert BRep ProofSpan ProofEval ProofInsert.
Local Open Scope R_scope.

Definition vU (U Ubar : Z -> R) (i k : Z) : Z -> R := fun x => if (x <=? i)%Z then U x else Ubar (x + (k - i))%Z.
Definition vP (p : Z) (P Qw : Z -> R) (i k : Z) : Z -> R :=
  fun x => if (x <=? i - p - 1)%Z then P x else Qw (x + (k - i))%Z.

Section Refine.
Variables (n p : Z) (U P : Z -> R) (r : Z) (X : Z -> R).
Hypothesis W : wf_knots n p U.
Hypothesis Hp1 : (1 <= p)%Z.
Hypothesis Hr : (0 <= r)%Z.
Hypothesis MX : nondecreasing X 0 r.
Hypothesis HX : forall j, (0 <= j <= r)%Z -> U p <= X j <= U (n + 1)%Z.
Hypothesis SU : forall j, (0 <= j <= r)%Z -> separated U 0 (n + p + 1) (X j).
Hypothesis SX : forall j, (0 <= j <= r)%Z -> separated X 0 r (X j).

Let HXs := forall j, (0 <= j <= r)%Z -> U p < X j < U (n + 1)%Z.
Let a := FindSpan n p (X 0%Z) U.
Let b := (FindSpan n p (X r) U + 1)%Z.

Lemma span_of j : (0 <= j <= r)%Z ->
  (p <= FindSpan n p (X j) U <= n)%Z /\ U (FindSpan n p (X j) U) <= X j <= U (FindSpan n p (X j) U + 1)%Z /\
  (X j < U (FindSpan n p (X j) U + 1)%Z \/ FindSpan n p (X j) U = n).
Proof.
  intros Hj. specialize (HX j Hj).
  assert (D : in_domain n p U (X j)) by (unfold in_domain; lra).
  pose proof (FindSpan_active n p U (X j) W D) as A. pose proof (active_lt _ _ _ _ _ W A) as Hlt.
  destruct A as [A1 A2]. split; [lia|].
  destruct A2 as [A2|[Ak A2]]; [lra|]. change (FindSpan (N:=Rn) n p (X j) U) with (FindSpan n p (X j) U) in *.
  rewrite Ak in *. rewrite A2. split; auto. lra.
Qed.

Lemma ab : (p <= a)%Z /\ (a < b)%Z /\ (b <= n + 1)%Z /\ U a <= X 0%Z <= U (a + 1)%Z /\ X r <= U b.
Proof.
  pose proof (span_of 0 ltac:(lia)) as [A1 [A2 A3]]. pose proof (span_of r ltac:(lia)) as [B1 [B2 B3]].
  fold a in A1, A2, A3. unfold b. repeat split; try lia; try lra.
  destruct (Z_lt_le_dec a (FindSpan n p (X r) U + 1)%Z); auto. exfalso.
  assert (U (FindSpan n p (X r) U + 1)%Z <= U a) by (apply (wf_mono _ _ _ W); lia).
  assert (X 0%Z <= X r) by (apply MX; lia). destruct B3; [lra|lia].
Qed.

(** Invariant before round j. *)
Record Inv (j : Z) (st : (Z -> R) * (Z -> R) * Z * Z) : Prop := {
  I_i : (a <= snd (fst st) <= b + p - 1)%Z;
  I_k : snd st = (snd (fst st) + j + 1)%Z;
  I_U : forall x, (x <= a)%Z -> (0 <= x)%Z -> snd (fst (fst st)) x = U x;
  I_P : forall x, (0 <= x)%Z -> (x <= a - p - 1)%Z -> fst (fst (fst st)) x = P x;
  I_mono : nondecreasing (vU U (snd (fst (fst st))) (snd (fst st)) (snd st)) 0 (n + (r - j) + p + 1);
  I_wf : HXs -> wf_knots (n + (r - j)) p (vU U (snd (fst (fst st))) (snd (fst st)) (snd st));
  I_p : vU U (snd (fst (fst st))) (snd (fst st)) (snd st) p = U p;
  I_n : vU U (snd (fst (fst st))) (snd (fst st)) (snd st) (n + (r - j) + 1)%Z = U (n + 1)%Z;
  I_next : (0 <= j)%Z -> X j <= vU U (snd (fst (fst st))) (snd (fst st)) (snd st) (snd (fst st) + 1)%Z;
  I_sep : forall j', (0 <= j' <= j)%Z ->
    separated (vU U (snd (fst (fst st))) (snd (fst st)) (snd st)) 0 (n + (r - j) + p + 1) (X j');
  I_mult : forall v, multiplicity (vU U (snd (fst (fst st))) (snd (fst st)) (snd st)) 0 (n + (r - j) + p + 1) v
                     = (multiplicity U 0 (n + p + 1) v + multiplicity X (j + 1) r v)%Z;
  I_sub : Sub (n + (r - j)) p (vU U (snd (fst (fst st))) (snd (fst st)) (snd st))
              (vP p P (fst (fst (fst st))) (snd (fst st)) (snd st)) n p U P
}.

(** The shifting step does not change the virtual data. *)
Lemma shift_vU Ubar i k : (0 <= k - i)%Z ->
  vU U (upd Ubar k (U i)) (i - 1) (k - 1) = vU U Ubar i k.
Proof.
  intros Hd. apply functional_extensionality. intros x. unfold vU.
  lcase x (i - 1)%Z; lcase x i; auto.
  - replace (x + (k - 1 - (i - 1)))%Z with k by lia. rewrite upd_same. f_equal. lia.
  - rewrite upd_diff by lia. f_equal. lia.
Qed.
Lemma shift_vP Qw i k : (0 <= k - i)%Z ->
  vP p P (upd Qw (k - p - 1) (P (i - p - 1)%Z)) (i - 1) (k - 1) = vP p P Qw i k.
Proof.
  intros Hd. apply functional_extensionality. intros x. unfold vP.
  lcase x (i - 1 - p - 1)%Z; lcase x (i - p - 1)%Z; auto.
  - replace (x + (k - 1 - (i - 1)))%Z with (k - p - 1)%Z by lia. rewrite upd_same. f_equal. lia.
  - rewrite upd_diff by lia. f_equal. lia.
Qed.

Lemma shift_spec j st : (0 <= j <= r)%Z -> Inv j st ->
  let st' := Refine_shift (N:=Rn) p a U P (X j) st in
  Inv j st' /\ U (snd (fst st')) <= X j /\ (snd (fst st') <= n)%Z /\ (j = 0%Z -> snd (fst st') = a).
Proof.
  intros Hj H0 st'.
  destruct ab as [Ha [Hab [Hbn [Hua Hub]]]]. pose proof (wf_n _ _ _ W). pose proof (wf_mono _ _ _ W) as M.
  set (c := (fun s : (Z -> R) * (Z -> R) * Z * Z => let '(_, _, i, _) := s in (Rleb (X j) (U i) && (a <? i)%Z)%bool)).
  set (body := fun s : (Z -> R) * (Z -> R) * Z * Z => let '(Qw, Ubar, i, k) := s in
       (upd Qw (k - p - 1)%Z (P (i - p - 1)%Z), upd Ubar k (U i), (i - 1)%Z, (k - 1)%Z)).
  assert (E : exists s', while (S (Z.to_nat (snd (fst st) - a))) c body st = Some s' /\ Inv j s' /\ c s' = false).
  { apply (while_total (Inv j) (fun s => Z.to_nat (snd (fst s) - a))); auto.
    intros [[[Qw Ubar] i] k] HI Hc. unfold c in Hc. apply andb_true_iff in Hc. destruct Hc as [Hc1 Hc2].
    apply Rleb_true in Hc1. apply Z.ltb_lt in Hc2.
    destruct HI as [Ii Ik IU IP Imono Iwf Ip In Inext Isep Imul Isub]. cbn [fst snd] in *.
    unfold body. split; [|cbn [fst snd]; lia].
    assert (Hki : (0 <= k - i)%Z) by lia.
    constructor; cbn [fst snd]; try rewrite shift_vU by auto; try rewrite shift_vP by auto; auto; try lia.
    - intros x Hx Hx0. rewrite upd_diff by lia. auto.
    - intros x Hx Hx0. rewrite upd_diff by lia. auto.
    - intros _. unfold vU. lcase (i - 1 + 1)%Z i. replace (i - 1 + 1)%Z with i by lia. auto. }
  destruct E as [s' [E1 [E2 E3]]].
  assert (Es : st' = s').
  { unfold st', Refine_shift. destruct st as [[[Qw Ubar] i] k]. cbn [fst snd] in E1. unfold whileD.
    match goal with |- match ?w with _ => _ end = _ => replace w with (Some s') by (symmetry; exact E1) end.
    reflexivity. }
  rewrite Es. split; auto. destruct s' as [[[Qw Ubar] i] k]. cbn [fst snd].
  pose proof (I_i _ _ E2) as Hi. cbn [fst snd] in Hi.
  unfold c in E3. apply andb_false_iff in E3.
  assert (X0j : X 0%Z <= X j) by (apply MX; lia). split.
  - destruct E3 as [E3|E3].
    + apply Rleb_false in E3. lra.
    + apply Z.ltb_ge in E3. assert (i = a) by lia. subst i. lra.
  - specialize (HX j Hj). split; [destruct E3 as [E3|E3]|].
    { apply Rleb_false in E3. destruct (Z_le_gt_dec i n); auto. assert (U (n + 1)%Z <= U i) by (apply M; lia). lra. }
    { apply Z.ltb_ge in E3. lia. }
    intros ->. destruct E3 as [E3|E3].
    + apply Rleb_false in E3. destruct (Z.eq_dec i a); auto. exfalso.
      assert (U (a + 1)%Z <= U i) by (apply M; lia). lra.
    + apply Z.ltb_ge in E3. lia.
Qed.

Lemma ins_vU Ubar i k x : (1 <= k - i)%Z ->
  vU U (upd Ubar k x) i (k - 1) = insV (vU U Ubar i k) i x 1.
Proof.
  intros Hd. apply functional_extensionality. intros y. unfold vU, insV.
  lcase y i; auto. lcase y (i + 1)%Z.
  - replace (y + (k - 1 - i))%Z with k by lia. apply upd_same.
  - lcase (y - 1)%Z i. rewrite upd_diff by lia. f_equal. lia.
Qed.

(** The cutting loop, entry by entry. *)
Lemma cut_spec Ubar i k x Qw y :
  Refine_cut (N:=Rn) p U Ubar i k x Qw y =
  if (k - p <=? y)%Z && (y <=? k - 1)%Z then
    let l := (y - (k - p) + 1)%Z in
    let alpha := Ubar (k + l)%Z - x in
    if Rltb (Rabs alpha) (/ 4503599627370496) then Qw (y + 1)%Z
    else alpha / (Ubar (k + l)%Z - U (i - p + l)%Z) * Qw y + (1 - alpha / (Ubar (k + l)%Z - U (i - p + l)%Z)) * Qw (y + 1)%Z
  else Qw y.
Proof.
  unfold Refine_cut. cbv zeta.
  floop (fun l (Q' : Z -> R) => forall y, Q' y =
    if (k - p <=? y)%Z && (y <? k - p + l - 1)%Z then
      if Rltb (Rabs (Ubar (k + (y - (k - p) + 1))%Z - x)) (/ 4503599627370496) then Qw (y + 1)%Z
      else (Ubar (k + (y - (k - p) + 1))%Z - x) / (Ubar (k + (y - (k - p) + 1))%Z - U (i - p + (y - (k - p) + 1))%Z) * Qw y
        + (1 - (Ubar (k + (y - (k - p) + 1))%Z - x) / (Ubar (k + (y - (k - p) + 1))%Z - U (i - p + (y - (k - p) + 1))%Z)) * Qw (y + 1)%Z
    else Qw y).
  - intros z. lcase (k - p)%Z z; auto. zcase z (k - p + 1 - 1)%Z. reflexivity.
  - intros l Q' Hl IH z. rn.
    assert (R1 : Q' (k - p + l)%Z = Qw (k - p + l)%Z).
    { rewrite IH. lcase (k - p)%Z (k - p + l)%Z; auto. zcase (k - p + l)%Z (k - p + l - 1)%Z. reflexivity. }
    assert (R2 : Q' (k - p + l - 1)%Z = Qw (k - p + l - 1)%Z).
    { rewrite IH. lcase (k - p)%Z (k - p + l - 1)%Z; auto. zcase (k - p + l - 1)%Z (k - p + l - 1)%Z. reflexivity. }
    rewrite R1, R2.
    destruct (Z.eq_dec z (k - p + l - 1)) as [->|Hne].
    + lcase (k - p)%Z (k - p + l - 1)%Z. zcase (k - p + l - 1)%Z (k - p + (l + 1) - 1)%Z. cbn [andb].
      replace (k - p + l - 1 - (k - p) + 1)%Z with l by lia. replace (k - p + l - 1 + 1)%Z with (k - p + l)%Z by lia.
      destruct (Rltb _ _); rewrite upd_same; reflexivity.
    + assert (Q' z = if (k - p <=? z)%Z && (z <? k - p + (l + 1) - 1)%Z then
        if Rltb (Rabs (Ubar (k + (z - (k - p) + 1))%Z - x)) (/ 4503599627370496) then Qw (z + 1)%Z
        else (Ubar (k + (z - (k - p) + 1))%Z - x) / (Ubar (k + (z - (k - p) + 1))%Z - U (i - p + (z - (k - p) + 1))%Z) * Qw z
        + (1 - (Ubar (k + (z - (k - p) + 1))%Z - x) / (Ubar (k + (z - (k - p) + 1))%Z - U (i - p + (z - (k - p) + 1))%Z)) * Qw (z + 1)%Z
      else Qw z) as Ez.
      { rewrite IH. replace (z <? k - p + (l + 1) - 1)%Z with (z <? k - p + l - 1)%Z; auto.
        destruct (Z.ltb_spec z (k - p + l - 1)), (Z.ltb_spec z (k - p + (l + 1) - 1)); auto; lia. }
      destruct (Rltb (Rabs (Ubar (k + l)%Z - x)) _); rewrite upd_diff by auto; exact Ez.
  - intros Q' H. rewrite H. replace (y <? k - p + (p + 1) - 1)%Z with (y <=? k - 1)%Z; auto.
    destruct (Z.leb_spec y (k - 1)), (Z.ltb_spec y (k - p + (p + 1) - 1)); auto; lia.
Qed.

Lemma round_spec j st : (0 <= j <= r)%Z -> Inv j st ->
  let st' := Refine_round (N:=Rn) p a U P X j st in
  Inv (j - 1) st' /\ (j = 0%Z -> snd (fst st') = a).
Proof.
  intros Hj H0 st'.
  destruct ab as [Ha [Hab [Hbn [Hua Hub]]]]. pose proof (wf_n _ _ _ W). pose proof (wf_mono _ _ _ W) as M.
  destruct (shift_spec j st Hj H0) as [H1 [H2 [Hin H3]]].
  unfold st', Refine_round.
  destruct (Refine_shift (N:=Rn) p a U P (X j) st) as [[[Qw Ubar] i] k] eqn:Es.
  change (Refine_shift (N:=Rn) p a U P (X j) st) with (Refine_shift (N:=Rn) p a U P (X j) st) in *.
  cbn [fst snd] in H2, H3, Hin.
  destruct H1 as [Ii Ik IU IP Imono Iwf Ip In Inext Isep Imul Isub]. cbn [fst snd] in *.
  split; [|exact H3].
  specialize (Inext ltac:(lia)). pose proof (HX j Hj) as HXj.
  assert (Ei : vU U Ubar i k i = U i) by (unfold vU; lcase i i; auto).
  set (N := (n + (r - j))%Z) in *.
  assert (HN : (n + (r - (j - 1)) = N + 1)%Z) by (unfold N; lia).
  assert (EV : vU U (upd Ubar k (X j)) i (k - 1) = insV (vU U Ubar i k) i (X j) 1) by (apply ins_vU; lia).
  set (V := vU U Ubar i k) in *.
  assert (WV : HXs -> wf_knots (N + 1) p (insV V i (X j) 1)).
  { intros Hs. specialize (Iwf Hs). specialize (Hs j Hj). apply insert_wf; auto; try lia; try lra. }
  assert (MV : nondecreasing (insV V i (X j) 1) 0 (N + 1 + p + 1)).
  { intros x y Hx Hxy Hy. unfold insV. replace (n + (r - j))%Z with N in Imono by reflexivity.
    lcase x i; lcase y i; try lia.
    - apply Imono; lia.
    - assert (V x <= V i) by (apply Imono; lia). lcase y (i + 1)%Z; [lra|].
      assert (V (i + 1)%Z <= V (y - 1)%Z) by (apply Imono; lia). lra.
    - lcase x (i + 1)%Z; lcase y (i + 1)%Z; try lia; try lra.
      + assert (V (i + 1)%Z <= V (y - 1)%Z) by (apply Imono; lia). lra.
      + apply Imono; lia. }
  constructor; cbn [fst snd]; try rewrite HN; try rewrite EV.
  - lia.
  - lia.
  - intros x Hx Hx0. rewrite upd_diff by lia. auto.
  - intros x Hx0 Hx. rewrite cut_spec. lcase (k - p)%Z x. cbn [andb]. rewrite upd_diff by lia. auto.
  - exact MV.
  - exact WV.
  - unfold insV. lcase p i. auto.
  - unfold insV. lcase (N + 1 + 1)%Z i. lcase (N + 1 + 1)%Z (i + 1)%Z.
    replace (N + 1 + 1 - 1)%Z with (N + 1)%Z by lia. auto.
  - intros Hj'. unfold insV. lcase (i + 1)%Z i. lcase (i + 1)%Z (i + 1)%Z. apply MX; lia.
  - intros j' Hj' y Hy. unfold insV. lcase y i; [apply Isep; lia|]. lcase y (i + 1)%Z; [apply SX; lia|apply Isep; lia].
  - intros v. replace (N + 1 + p + 1)%Z with (N + p + 1 + 1)%Z by lia. rewrite multiplicity_insV by lia.
    rewrite Imul. rewrite (multiplicity_split X (j - 1 + 1) j r) by lia. replace (j - 1 + 1)%Z with j by lia.
    destruct (Req_EM_T (X j) v) as [Ev|Ev].
    + rewrite (multiplicity_all X j j v); [lia|lia|]. intros y Hy. replace y with j by lia. auto.
    + rewrite (multiplicity_none X j j v); [lia|]. intros y Hy. replace y with j by lia. auto.
  - eapply Sub_trans; [|exact Isub].
    assert (ED : del (insV V i (X j) 1) (i + 1) = V).
    { pose proof (insV_del V i 0 (X j) (i + 1)) as D. specialize (D ltac:(lia)).
      replace 1%Z with (0 + 1)%Z at 1 by lia.
      rewrite D; try lia; apply insV_0. }
    rewrite <- ED at 2.
    apply Sub_insert; try lia.
    + replace (N + p + 2)%Z with (N + 1 + p + 1)%Z by lia. exact MV.
    + intros x Hx Hlt. unfold boehm_pts, al. replace (Z.of_nat (Z.to_nat p)) with p by lia.
      unfold vP at 1. lcase x (i - p - 1)%Z.
      { zcase (x + p)%Z (i + 1)%Z. unfold vP. lcase x (i - p - 1)%Z. lra. }
      rewrite cut_spec.
      destruct (Z.eq_dec x (i - p)) as [Ex|Ex].
      { replace (x + (k - 1 - i))%Z with (k - p - 1)%Z by lia. lcase (k - p)%Z (k - p - 1)%Z. cbn [andb].
        rewrite upd_same. zcase (x + p)%Z (i + 1)%Z. unfold vP. lcase x (i - p - 1)%Z.
        replace (x + (k - i))%Z with (k - p)%Z by lia. lra. }
      lcase (k - p)%Z (x + (k - 1 - i))%Z. zcase (x + p)%Z (i + 1)%Z.
      lcase (x + (k - 1 - i))%Z (k - 1)%Z; cbn [andb].
      * zcase x (i + 1)%Z. cbv zeta.
        replace (k + (x + (k - 1 - i) - (k - p) + 1))%Z with (x + p + (k - i))%Z by lia.
        replace (i - p + (x + (k - 1 - i) - (k - p) + 1))%Z with x by lia.
        replace (x + (k - 1 - i) + 1)%Z with (x + (k - i))%Z by lia.
        rewrite !upd_diff by lia.
        assert (E1 : insV V i (X j) 1 (i + 1) = X j) by (unfold insV; lcase (i + 1)%Z i; lcase (i + 1)%Z (i + 1)%Z; auto).
        assert (E2 : insV V i (X j) 1 x = U x) by (unfold insV, V, vU; lcase x i; auto).
        assert (E3 : insV V i (X j) 1 (x + p + 1) = Ubar (x + p + (k - i))%Z).
        { unfold insV, V, vU. lcase (x + p + 1)%Z i. lcase (x + p + 1)%Z (i + 1)%Z.
          lcase (x + p + 1 - 1)%Z i. f_equal. lia. }
        rewrite E1, E2, E3.
        assert (E4 : vP p P Qw i k x = Qw (x + (k - i))%Z) by (unfold vP; lcase x (i - p - 1)%Z; auto).
        assert (E5 : vP p P Qw i k (x - 1) = Qw (x + (k - 1 - i))%Z) by (unfold vP; lcase (x - 1)%Z (i - p - 1)%Z; f_equal; lia).
        rewrite E4, E5. rewrite E2, E3 in Hlt.
        assert (E6 : V (x + p)%Z = Ubar (x + p + (k - i))%Z) by (unfold V, vU; lcase (x + p)%Z i; auto).
        assert (Hge : X j <= Ubar (x + p + (k - i))%Z).
        { rewrite <- E6. assert (V (i + 1)%Z <= V (x + p)%Z) by (apply Imono; lia). lra. }
        assert (Hux : U x <= U i) by (apply M; lia).
        destruct (Rltb _ _) eqn:Ec.
        -- apply Rltb_true in Ec. destruct (Isep j ltac:(lia) (x + p)%Z ltac:(lia)) as [Eq|Eq].
           ++ rewrite E6 in Eq. rewrite Eq in *. replace ((X j - U x) / (X j - U x)) with 1 by (field; lra). lra.
           ++ rewrite E6 in Eq. lra.
        -- apply Rltb_false in Ec.
           set (y := Ubar (x + p + (k - i))%Z) in *. field. lra.
      * zcase x (i + 1)%Z. rewrite !upd_diff by lia.
        assert (E5 : vP p P Qw i k (x - 1) = Qw (x + (k - 1 - i))%Z) by (unfold vP; lcase (x - 1)%Z (i - p - 1)%Z; f_equal; lia).
        rewrite E5. lra.
Qed.

Theorem refine_gen junk :
  let UQ := RefineKnotVector (N:=Rn) n p U P r X junk in
  nondecreasing (fst UQ) 0 (n + r + 1 + p + 1) /\ (HXs -> wf_knots (n + r + 1) p (fst UQ)) /\ fst UQ p = U p /\ fst UQ (n + r + 1 + 1)%Z = U (n + 1)%Z /\
  (forall v, multiplicity (fst UQ) 0 (n + r + 1 + p + 1) v = (multiplicity U 0 (n + p + 1) v + multiplicity X 0 r v)%Z) /\
  Sub (n + r + 1) p (fst UQ) (snd UQ) n p U P.
Proof.
  intros UQ. destruct ab as [Ha [Hab [Hbn [Hua Hub]]]]. pose proof (wf_n _ _ _ W). pose proof (wf_mono _ _ _ W) as M.
  unfold UQ, RefineKnotVector. destruct (Z.ltb_spec r 0); [lia|]. cbv zeta.
  change (FindSpan (N:=Rn) n p (X 0%Z) U) with a.
  change (FindSpan (N:=Rn) n p (X r) U + 1)%Z with b.
  match goal with |- context [for_down r 0 ?body ?init] => set (st0 := init); assert (I0 : Inv r st0) end.
  { assert (EV : forall x, (0 <= x <= n + p + 1)%Z -> vU U (snd (fst (fst st0))) (b + p - 1) (b + p + r) x = U x).
    { intros x Hx. unfold vU. lcase x (b + p - 1)%Z; auto. cbn [st0 fst snd]. rewrite fill_in by lia. f_equal. lia. }
    assert (EV' : forall x, (0 <= x <= n + p + 1)%Z -> vU U (snd (fst (fst st0))) (snd (fst st0)) (snd st0) x = U x) by exact EV.
    replace n with (n + (r - r))%Z in EV' at 1 by lia.
    constructor; try rewrite !EV' by lia; auto.
    - cbn [st0 fst snd]. lia.
    - cbn [st0 fst snd]. lia.
    - intros x Hx Hx0. cbn [st0 fst snd]. rewrite fill_out by lia. rewrite fill_in by lia. reflexivity.
    - intros x Hx Hx0. cbn [st0 fst snd]. rewrite fill_out by lia. rewrite fill_in by lia. reflexivity.
    - intros x y Hx Hxy Hy. rewrite !EV' by lia. apply M; lia.
    - intros _. destruct W as [w1 w2 w3 w4 w5]. constructor; try lia.
      + intros x y Hx Hxy Hy. rewrite !EV' by lia. apply w3; lia.
      + rewrite !EV' by lia. auto.
      + rewrite !EV' by lia. replace (n + (r - r))%Z with n by lia. auto.
    - f_equal. lia.
    - intros _. rewrite EV' by (cbn [st0 fst snd]; lia). cbn [st0 fst snd].
      assert (U b <= U (b + p - 1 + 1)%Z) by (apply M; lia). lra.
    - intros j' Hj' x Hx. rewrite EV' by lia. apply SU; lia.
    - intros v. rewrite (multiplicity_ext _ U) by (intros x Hx; apply EV'; lia).
      replace (n + (r - r) + p + 1)%Z with (n + p + 1)%Z by lia.
      unfold multiplicity at 3. replace (Z.to_nat (r + 1 - (r + 1))) with O by lia. cbn [countN]. lia.
    - replace (n + (r - r))%Z with n in * by lia. apply Sub_ext; try lia.
      + intros x Hx. apply EV'. lia.
      + intros x Hx. unfold vP. cbn [st0 fst snd]. lcase x (b + p - 1 - p - 1)%Z; auto.
        rewrite fill_in by lia. f_equal. lia. }
  assert (L : forall d, (Z.of_nat d <= r + 1)%Z ->
     let st := iter_down d r (Refine_round (N:=Rn) p a U P X) st0 in
     Inv (r - Z.of_nat d) st /\ ((1 <= d)%nat -> (r - Z.of_nat d = -1)%Z -> snd (fst st) = a)).
  { assert (SN : forall d i s, iter_down (S d) i (Refine_round (N:=Rn) p a U P X) s =
       Refine_round (N:=Rn) p a U P X (i - Z.of_nat d)%Z (iter_down d i (Refine_round (N:=Rn) p a U P X) s)).
    { induction d; intros; [simpl; f_equal; lia|].
      change (iter_down (S (S d)) i (Refine_round (N:=Rn) p a U P X) s) with
        (iter_down (S d) (i - 1)%Z (Refine_round (N:=Rn) p a U P X) (Refine_round (N:=Rn) p a U P X i s)).
      rewrite IHd. cbn [iter_down]. f_equal. lia. }
    induction d; intros Hd.
    - cbn [iter_down]. replace (r - Z.of_nat 0)%Z with r by lia. split; auto. lia.
    - destruct (IHd ltac:(lia)) as [IH1 IH2]. rewrite SN.
      destruct (round_spec (r - Z.of_nat d)%Z _ ltac:(lia) IH1) as [R1 R2].
      replace (r - Z.of_nat (S d))%Z with (r - Z.of_nat d - 1)%Z by lia. split; auto.
      intros _ Hd'. apply R2. lia. }
  unfold for_down. specialize (L (Z.to_nat (r + 1 - 0)) ltac:(lia)). cbv zeta in L.
  destruct L as [L1 L2]. specialize (L2 ltac:(lia) ltac:(lia)).
  replace (r - Z.of_nat (Z.to_nat (r + 1 - 0)))%Z with (-1)%Z in L1 by lia.
  destruct (iter_down (Z.to_nat (r + 1 - 0)) r (Refine_round (N:=Rn) p a U P X) st0) as [[[Qw Ubar] i] k].
  cbn [fst snd] in L2. destruct L1 as [Ii Ik IU IP Imono Iwf Ip In Inext Isep Imul Isub]. cbn [fst snd] in *. subst i.
  replace k with a in * by lia. replace (n + (r - -1))%Z with (n + r + 1)%Z in * by lia.
  assert (EV : forall x, (0 <= x)%Z -> vU U Ubar a a x = Ubar x).
  { intros x Hx. unfold vU. lcase x a; [symmetry; apply IU; lia|]. f_equal. lia. }
  split; [|split; [|split; [|split; [|split]]]].
  - intros x y Hx Hxy Hy. rewrite <- !EV by lia. apply Imono; lia.
  - intros Hs. specialize (Iwf Hs). destruct Iwf as [w1 w2 w3 w4 w5]. constructor; try lia.
    + intros x y Hx Hxy Hy. specialize (w3 x y Hx Hxy Hy). rewrite !EV in w3 by lia. auto.
    + rewrite !EV in w4 by lia. auto.
    + rewrite !EV in w5 by lia. auto.
  - rewrite <- Ip. symmetry. apply EV. lia.
  - rewrite <- In. symmetry. apply EV. lia.
  - intros v. specialize (Imul v). replace (-1 + 1)%Z with 0%Z in Imul by lia. rewrite <- Imul.
    apply multiplicity_ext. intros x Hx. symmetry. apply EV. lia.
  - eapply Sub_trans; [|exact Isub]. apply Sub_ext; try lia.
    + intros x Hx. symmetry. apply EV. lia.
    + intros x Hx. unfold vP. lcase x (a - p - 1)%Z; [apply IP; lia|]. f_equal. lia.
Qed.

End Refine.

(** Strictly interior values. *)
Theorem refine_spec n p U P r X : wf_knots n p U -> (1 <= p)%Z -> (0 <= r)%Z -> nondecreasing X 0 r ->
  (forall j, (0 <= j <= r)%Z -> U p < X j < U (n + 1)%Z) ->
  (forall j, (0 <= j <= r)%Z -> separated U 0 (n + p + 1) (X j)) ->
  (forall j, (0 <= j <= r)%Z -> separated X 0 r (X j)) -> forall junk,
  let UQ := RefineKnotVector (N:=Rn) n p U P r X junk in
  wf_knots (n + r + 1) p (fst UQ) /\ fst UQ p = U p /\ fst UQ (n + r + 1 + 1)%Z = U (n + 1)%Z /\
  (forall v, multiplicity (fst UQ) 0 (n + r + 1 + p + 1) v = (multiplicity U 0 (n + p + 1) v + multiplicity X 0 r v)%Z) /\
  Sub (n + r + 1) p (fst UQ) (snd UQ) n p U P.
Proof.
  intros W Hp1 Hr MX HX SU SX junk UQ.
  destruct (refine_gen n p U P r X W Hp1 Hr MX) with (junk := junk) as [_ [H1 [H2 [H3 [H4 H5]]]]]; auto.
  { intros j Hj. specialize (HX j Hj). lra. }
Qed.

Theorem refine_curve n p U P r X : wf_knots n p U -> (1 <= p)%Z -> (0 <= r)%Z -> nondecreasing X 0 r ->
  (forall j, (0 <= j <= r)%Z -> U p < X j < U (n + 1)%Z) ->
  (forall j, (0 <= j <= r)%Z -> separated U 0 (n + p + 1) (X j)) ->
  (forall j, (0 <= j <= r)%Z -> separated X 0 r (X j)) -> forall junk x, in_domain n p U x ->
  let UQ := RefineKnotVector (N:=Rn) n p U P r X junk in
  curve (n + r + 1) p (fst UQ) (snd UQ) x = curve n p U P x.
Proof.
  intros W Hp1 Hr MX HX SU SX junk x D UQ.
  destruct (refine_spec n p U P r X W Hp1 Hr MX HX SU SX junk) as [H1 [H2 [H3 [_ H4]]]].
  apply Sub_curve; auto. unfold in_domain. unfold UQ. rewrite H2, H3. auto.
Qed.
