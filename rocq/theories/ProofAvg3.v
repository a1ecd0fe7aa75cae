(** Degree elevation replaces control points by averages. *)
From Coq Require Import ZArith Reals List Lia Lra Bool Permutation FunctionalExtensionality.
From Verif Require Import Num Loop ModelBspline ModelBSp ModelNurbs ModelIga ModelCad Spec SpecElev SpecCompat SumZ BPiece BLink BIndep Blossom ProofSpan BInsert BRep
  ProofInsert ProofCut ProofRefine SpecNurbs ProofNet ProofCall ProofNurbs ProofMethods ProofMethods2 ProofMethods3 ProofGeom ProofGeom2 ProofOk ProofSlice ProofIga ProofIga2
  ProofElev1 ProofElev4 ProofElev5 ProofClamp ProofUnclamp ProofCompat1 ProofCompat2 ProofCompat3 ProofRemove4 ProofUniq ProofUniq2 ProofInit ProofAvg ProofAvg2.
Import ListNotations.
Local Open Scope R_scope.

(** ** Polar forms *)
Lemma polar_diag n F G : polar n F -> polar n G -> (forall u, F (repeat u n) = G (repeat u n)) -> forall l, length l = n -> F l = G l.
Proof.
  intros HF HG E. set (U := fun i : Z => IZR i).
  assert (OK : span_ok U 0 n).
  { split; [intros i j H1 H2 H3; apply IZR_le; lia|unfold U; apply IZR_lt; lia]. }
  apply (polar_unique U 0 n F G HF HG OK). intros i Hi.
  assert (X : F (win U i n) - G (win U i n) = 0); [|lra].
  apply (piece_indep U 0 n (fun j => F (win U j n) - G (win U j n)) OK); auto. intros u _.
  pose proof (polar_eval U 0 n F u HF OK) as E1. pose proof (polar_eval U 0 n G u HG OK) as E2. unfold pc in E1, E2. rewrite Nat2Z.id in E1, E2.
  rewrite (sumZ_ext _ _ _ (fun j => B U 0 n j u * F (win U j n) - B U 0 n j u * G (win U j n))) by (intros; ring).
  rewrite sumZ_minus. specialize (E u). lra.
Qed.

(** The sublists lacking one entry. *)
Fixpoint drop_at (j : nat) (l : list R) : list R := match l, j with [], _ => [] | x :: l', O => l' | x :: l', S j' => x :: drop_at j' l' end.
Lemma ssum_full l : forall f, ssum f (length l) l = f l.
Proof. induction l; intros f; cbn [length ssum]; auto. rewrite IHl. rewrite ssum_short by lia. ring. Qed.
Lemma ssum_drop l : forall f n, length l = S n -> ssum f n l = sumZ 1 (Z.of_nat (S n)) (fun j => f (drop_at (Z.to_nat (j - 1)) l)).
Proof.
  induction l as [|x l IH]; intros f n Hl; [discriminate|]. injection Hl as Hl. destruct n.
  - destruct l; [|discriminate]. change (Z.of_nat 1) with 1%Z. rewrite sumZ_single. reflexivity.
  - cbn [ssum]. rewrite (IH _ n Hl). rewrite <- Hl at 2. rewrite ssum_full.
    rewrite (sumZ_first 1 (Z.of_nat (S (S n)))) by lia. replace (Z.to_nat (1 - 1)) with 0%nat by lia. cbn [drop_at].
    rewrite Rplus_comm. f_equal.
    replace (1 + 1)%Z with (1 + 1)%Z by lia. replace (Z.of_nat (S (S n))) with (Z.of_nat (S n) + 1)%Z by lia. rewrite sumZ_shift.
    apply sumZ_ext. intros j Hj. replace (Z.to_nat (j + 1 - 1)) with (S (Z.to_nat (j - 1))) by lia. reflexivity.
Qed.
Lemma bin_pred n : bin (S n) n = S n.
Proof.
  induction n; [reflexivity|]. change (bin (S (S n)) (S n)) with (bin (S n) n + bin (S n) (S n))%nat. rewrite IHn.
  assert (bin (S n) (S n) = 1)%nat; [|lia]. clear IHn. induction n; [reflexivity|].
  change (bin (S (S n)) (S (S n))) with (bin (S n) (S n) + bin (S n) (S (S n)))%nat. rewrite IHn, bin_big by lia. lia.
Qed.
Lemma win_move A V n : forall i, (forall j, (i < j <= i + Z.of_nat n)%Z -> A j = V (j + 1)%Z) -> win A i n = win V (i + 1) n.
Proof.
  induction n; intros i H; [reflexivity|]. rewrite !win_S. f_equal; [apply H; lia|]. apply IHn. intros j Hj. apply H. lia.
Qed.
Lemma win_drop V : forall n i j, (j <= n)%nat -> win (del V (i + 1 + Z.of_nat j)) i n = drop_at j (win V i (S n)).
Proof.
  induction n; intros i j Hj.
  - assert (j = 0)%nat as -> by lia. reflexivity.
  - rewrite (win_S V i (S n)). destruct j as [|j].
    + cbn [drop_at]. apply win_move. intros j Hj'. unfold del. zcase j (i + 1 + Z.of_nat 0)%Z. reflexivity.
    + cbn [drop_at]. rewrite win_S. f_equal; [unfold del; zcase (i + 1)%Z (i + 1 + Z.of_nat (S j))%Z; reflexivity|].
      rewrite <- (IHn (i + 1)%Z j) by lia. f_equal. f_equal. lia.
Qed.

(** ** Knots repeated once more *)
Lemma finite_choice {A : Type} (d : A) (Q : Z -> A -> Prop) lo : forall c, (forall m, (lo <= m < lo + Z.of_nat c)%Z -> exists x, Q m x) ->
  exists f, forall m, (lo <= m < lo + Z.of_nat c)%Z -> Q m (f m).
Proof.
  induction c; intros H; [exists (fun _ => d); intros; lia|].
  destruct IHc as [f Hf]; [intros; apply H; lia|]. destruct (H (lo + Z.of_nat c)%Z ltac:(lia)) as [x Hx].
  exists (fun m => if (m =? lo + Z.of_nat c)%Z then x else f m). intros m Hm.
  destruct (Z.eqb_spec m (lo + Z.of_nat c)) as [->|]; auto. apply Hf. lia.
Qed.
Lemma del_mono V m hi : (0 <= m <= hi + 1)%Z -> nondecreasing V 0 (hi + 1) -> nondecreasing (del V m) 0 hi.
Proof. intros Hm M i j H1 H2 H3. unfold del. zcase i m; zcase j m; apply M; lia. Qed.
Lemma del_mult V m hi v : (0 <= m <= hi + 1)%Z -> multiplicity V 0 (hi + 1) v = (multiplicity (del V m) 0 hi v + (if Req_EM_T (V m) v then 1 else 0))%Z.
Proof.
  intros Hm. rewrite (multiplicity_split V 0 (m - 1) (hi + 1)) by lia. rewrite (multiplicity_split V (m - 1 + 1) m (hi + 1)) by lia.
  rewrite (multiplicity_split (del V m) 0 (m - 1) hi) by lia.
  rewrite (multiplicity_ext (del V m) V 0 (m - 1)) by (intros i Hi; unfold del; zcase i m; reflexivity).
  rewrite (multiplicity_ext (del V m) (fun i => V (i + 1)%Z) (m - 1 + 1) hi) by (intros i Hi; unfold del; zcase i m; reflexivity).
  rewrite multiplicity_shift. replace (m - 1 + 1)%Z with m by lia.
  assert (X : multiplicity V m m v = if Req_EM_T (V m) v then 1%Z else 0%Z).
  { destruct (Req_EM_T (V m) v) as [E|E].
    - rewrite multiplicity_all; [lia|lia|]. intros j Hj. replace j with m by lia. auto.
    - apply multiplicity_none. intros j Hj. replace j with m by lia. auto. }
  lia.
Qed.
Definition distinct (U : Z -> R) (hi : Z) : list R := nodup Req_EM_T (map U (zseq (Z.to_nat (hi + 1)) 0)).
Lemma countL_once l v : NoDup l -> countL v l = if in_dec Req_EM_T v l then 1%Z else 0%Z.
Proof.
  induction 1 as [|x l N D IH]; cbn [countL]; [reflexivity|]. rewrite IH.
  destruct (in_dec Req_EM_T v l), (in_dec Req_EM_T v (x :: l)), (Req_EM_T x v); subst; try tauto; try lia; exfalso; cbn [In] in *; intuition congruence.
Qed.
Lemma distinct_count U hi v : (0 <= hi)%Z -> countL v (distinct U hi) = if (multiplicity U 0 hi v =? 0)%Z then 0%Z else 1%Z.
Proof.
  intros Hh. unfold distinct. rewrite countL_once by apply NoDup_nodup.
  assert (X : multiplicity U 0 hi v = countL v (map U (zseq (Z.to_nat (hi + 1)) 0))) by (rewrite countL_map; unfold multiplicity; f_equal; f_equal; lia).
  rewrite X. destruct (in_dec Req_EM_T v _) as [I|I]; rewrite nodup_In in I.
  - apply countL_In in I. destruct (Z.eqb_spec (countL v (map U (zseq (Z.to_nat (hi + 1)) 0))) 0); lia.
  - rewrite countL_notin by auto. reflexivity.
Qed.
Lemma remove_count w l v : countL v (remove Req_EM_T w l) = if Req_EM_T w v then 0%Z else countL v l.
Proof.
  induction l as [|x l IH]; cbn [remove countL]; [destruct (Req_EM_T w v); reflexivity|].
  destruct (Req_EM_T w x) as [E|N]; [|cbn [countL]]; rewrite IH; destruct (Req_EM_T w v), (Req_EM_T x v); try congruence; try lia; reflexivity.
Qed.
Lemma distinct_in U hi v : In v (distinct U hi) -> exists j, (0 <= j <= hi)%Z /\ U j = v.
Proof.
  unfold distinct. rewrite nodup_In. intros I. apply in_map_iff in I. destruct I as (j & E & I). apply ProofCall.zseq_In in I. exists j. split; [lia|auto].
Qed.
(** The neighbour of an inner end of a nonempty span. *)
Lemma twice_left V hi k : nondecreasing V 0 hi -> (0 <= k)%Z -> (k + 1 <= hi)%Z -> V k < V (k + 1)%Z -> (2 <= multiplicity V 0 hi (V k))%Z -> V (k - 1)%Z = V k.
Proof.
  intros M H0 H1 L H2. destruct (Req_EM_T (V (k - 1)%Z) (V k)) as [|N]; auto. exfalso.
  rewrite (multiplicity_split V 0 k hi) in H2 by lia. rewrite (multiplicity_none V (k + 1) hi) in H2.
  2: { intros j Hj. assert (V (k + 1)%Z <= V j) by (apply M; lia). lra. }
  assert (1 <= k)%Z. { destruct (Z.eq_dec k 0) as [->|]; [|lia]. pose proof (multiplicity_le V 0 0 (V 0%Z) ltac:(lia)). lia. }
  rewrite (multiplicity_split V 0 (k - 1) k) in H2 by lia. rewrite (multiplicity_none V 0 (k - 1)) in H2.
  2: { intros j Hj. assert (V j <= V (k - 1)%Z) by (apply M; lia). assert (V (k - 1)%Z <= V k) by (apply M; lia). lra. }
  pose proof (multiplicity_le V (k - 1 + 1) k (V k) ltac:(lia)). lia.
Qed.
Lemma twice_right V hi k : nondecreasing V 0 hi -> (0 <= k)%Z -> (k + 1 <= hi)%Z -> V k < V (k + 1)%Z -> (2 <= multiplicity V 0 hi (V (k + 1)%Z))%Z -> V (k + 2)%Z = V (k + 1)%Z.
Proof.
  intros M H0 H1 L H2. destruct (Req_EM_T (V (k + 2)%Z) (V (k + 1)%Z)) as [|N]; auto. exfalso.
  rewrite (multiplicity_split V 0 k hi) in H2 by lia. rewrite (multiplicity_none V 0 k) in H2.
  2: { intros j Hj. assert (V j <= V k) by (apply M; lia). lra. }
  assert (k + 2 <= hi)%Z. { destruct (Z.eq_dec hi (k + 1)) as [->|]; [|lia]. pose proof (multiplicity_le V (k + 1) (k + 1) (V (k + 1)%Z) ltac:(lia)). lia. }
  rewrite (multiplicity_split V (k + 1) (k + 1) hi) in H2 by lia. rewrite (multiplicity_none V (k + 1 + 1) hi) in H2.
  2: { intros j Hj. assert (V (k + 2)%Z <= V j) by (apply M; lia). assert (V (k + 1)%Z <= V (k + 2)%Z) by (apply M; lia). lra. }
  pose proof (multiplicity_le V (k + 1) (k + 1) (V (k + 1)%Z) ltac:(lia)). lia.
Qed.

(** ** One elevation of the degree *)
Lemma avg_elev1 n p U n' V : (1 <= p)%Z -> wf_knots n p U -> clamped n p U -> (0 <= n')%Z -> nondecreasing V 0 (n' + p + 2) ->
  (forall v, multiplicity V 0 (n' + p + 2) v = (multiplicity U 0 (n + p + 1) v + if (multiplicity U 0 (n + p + 1) v =? 0)%Z then 0 else 1)%Z) ->
  avg_rep false n' (p + 1) V n p U.
Proof.
  intros Hp W [CL CR] Hn' M CV. pose proof (wf_n _ _ _ W) as Hn. pose proof (wf_mono _ _ _ W) as MU.
  assert (Two : forall i, (0 <= i <= n' + p + 2)%Z -> (2 <= multiplicity V 0 (n' + p + 2) (V i))%Z).
  { intros i Hi. pose proof (multiplicity_pair V 0 (n' + p + 2) (V i) i i M ltac:(lia) ltac:(lia) ltac:(lia) eq_refl eq_refl) as X.
    rewrite CV in X |- *. pose proof (multiplicity_nonneg U 0 (n + p + 1) (V i)). destruct (Z.eqb_spec (multiplicity U 0 (n + p + 1) (V i)) 0); lia. }
  assert (Del : forall m, (0 <= m < 0 + Z.of_nat (Z.to_nat (n' + p + 3)))%Z -> exists c, averaging n' n c /\ forall P, Sub n' p (del V m) (apply_to n c P) n p U P).
  { intros m Hm. set (X := remove Req_EM_T (V m) (distinct U (n + p + 1))).
    replace n' with (n + (n' - n))%Z by lia. cut (avg_rep false (n + (n' - n)) p (del V m) n p U); [intros (c & C1 & _ & C2); exists c; auto|].
    apply (avg_added false p n U X (n' - n) (del V m)); auto; try lia.
    - intros x Hx. apply in_remove in Hx. destruct Hx as [Hx _]. apply distinct_in in Hx. destruct Hx as (j & Hj & <-).
      split.
      + destruct (Z.le_gt_cases j p); [rewrite (CL j) by lia; lra|]. apply MU; lia.
      + destruct (Z.le_gt_cases (n + 1) j); [rewrite (CR j) by lia; lra|]. apply MU; lia.
    - replace (n + (n' - n) + p + 1)%Z with (n' + p + 1)%Z by lia. apply del_mono; [lia|]. replace (n' + p + 1 + 1)%Z with (n' + p + 2)%Z by lia. auto.
    - intros v. replace (n + (n' - n) + p + 1)%Z with (n' + p + 1)%Z by lia. pose proof (del_mult V m (n' + p + 1) v ltac:(lia)) as E.
      replace (n' + p + 1 + 1)%Z with (n' + p + 2)%Z in E by lia. rewrite CV in E. unfold X. rewrite remove_count, distinct_count by lia.
      destruct (Req_EM_T (V m) v) as [Ev|Ev]; [|destruct (multiplicity U 0 (n + p + 1) v =? 0)%Z; lia].
      pose proof (Two m ltac:(lia)) as T2. rewrite Ev, CV in T2. destruct (Z.eqb_spec (multiplicity U 0 (n + p + 1) v) 0); lia. }
  destruct (finite_choice (fun _ _ => 0) _ 0 _ Del) as [c Hc]. clear Del.
  exists (fun i l => / IZR (p + 1) * sumZ 1 (p + 1) (fun j => c (i + j)%Z i l)).
  assert (Pp : 0 < IZR (p + 1)) by (apply IZR_lt; lia). assert (Ip : 0 < / IZR (p + 1)) by (apply Rinv_0_lt_compat; auto).
  split; [|split; [discriminate|]].
  - intros i Hi. split.
    + intros l Hl. apply Rmult_le_pos; [lra|]. apply sumZ_nonneg. intros j Hj. destruct (Hc (i + j)%Z ltac:(lia)) as [A _]. apply (A i Hi); auto.
    + rewrite sumZ_scal, sumZ_swap. rewrite (sumZ_ext 1 (p + 1) _ (fun _ => 1)).
      * rewrite ProofInit.sumZ_const by lia. replace (p + 1 - 1 + 1)%Z with (p + 1)%Z by lia. field. lra.
      * intros j Hj. destruct (Hc (i + j)%Z ltac:(lia)) as [A _]. apply (A i Hi).
  - intros P. set (Rm := fun m => apply_to n (c m) P).
    intros k' Hk' L.
    (* the span of U *)
    set (kap := fun m => if (m <=? k')%Z then (k' - 1)%Z else k').
    assert (Ends : forall m, (1 <= m <= n' + p + 1)%Z -> del V m (kap m) = V k' /\ del V m (kap m + 1)%Z = V (k' + 1)%Z).
    { intros m Hm. unfold kap. lcase m k'.
      - replace (k' - 1 + 1)%Z with k' by lia. unfold del. zcase k' m. split; [|reflexivity]. zcase (k' - 1)%Z m.
        + assert (m = k') by lia. apply (twice_left V (n' + p + 2)); auto; try lia. apply Two. lia.
        + f_equal. lia.
      - unfold del. zcase k' m. split; [reflexivity|]. zcase (k' + 1)%Z m; [reflexivity|].
        replace (k' + 1 + 1)%Z with (k' + 2)%Z by lia. apply (twice_right V (n' + p + 2)); auto; try lia. apply Two. lia. }
    assert (Pieces : forall m, (k' - p <= m <= k' + p + 1)%Z -> exists k, (p <= k <= n)%Z /\ U k <= V k' /\ V (k' + 1)%Z <= U (k + 1)%Z /\ forall x, pc (del V m) (kap m) p (Rm m) x = pc U k p P x).
    { intros m Hm. destruct (Hc m ltac:(lia)) as [_ S0]. destruct (Ends m ltac:(lia)) as [E1 E2].
      destruct (S0 P (kap m)) as (k & K1 & K2 & K3 & K4).
      - unfold kap. lcase m k'; lia.
      - rewrite E1, E2. auto.
      - rewrite E1 in K2. rewrite E2 in K3. exists k. auto. }
    destruct (Pieces k' ltac:(lia)) as (k & K1 & K2 & K3 & _). exists k. split; auto. split; auto. split; auto.
    assert (Same : forall m x, (k' - p <= m <= k' + p + 1)%Z -> pc (del V m) (kap m) p (Rm m) x = pc U k p P x).
    { intros m x Hm. destruct (Pieces m Hm) as (k2 & Q1 & Q2 & Q3 & Q4). replace k with k2; [apply Q4|].
      destruct (Z.lt_trichotomy k2 k) as [H|[H|H]]; auto; exfalso.
      - assert (U (k2 + 1)%Z <= U k) by (apply MU; lia). lra.
      - assert (U (k + 1)%Z <= U k2) by (apply MU; lia). lra. }
    set (q := Z.to_nat p). assert (Eq : Z.of_nat q = p) by (unfold q; lia).
    assert (OKU : span_ok U k q) by (split; [intros i j H1 H2 H3; apply MU; lia|lra]).
    set (G := fun l => dB U p P l k).
    assert (HG : polar q G) by (unfold G; rewrite <- Eq; apply dB_polar; auto).
    assert (GD : forall u, G (repeat u q) = pc U k p P u) by (intros u; unfold G; rewrite <- Eq; apply dB_diag; auto).
    assert (Row : forall i j, (k' - p - 1 <= i <= k')%Z -> (1 <= j <= p + 1)%Z -> Rm (i + j)%Z i = G (drop_at (Z.to_nat (j - 1)) (win V i (S q)))).
    { intros i j Hi Hj. set (m := (i + j)%Z).
      assert (OKm : span_ok (del V m) (kap m) q).
      { split.
        - assert (N : nondecreasing (del V m) 0 (n' + p + 1)). { apply del_mono; [lia|]. replace (n' + p + 1 + 1)%Z with (n' + p + 2)%Z by lia. auto. }
          intros a b H1 H2 H3. unfold kap in *. apply N; destruct (m <=? k')%Z eqn:?; lia.
        - destruct (Ends m ltac:(lia)) as [E1 E2]. rewrite E1, E2. auto. }
      rewrite <- win_drop by lia. replace (i + 1 + Z.of_nat (Z.to_nat (j - 1)))%Z with m by (unfold m; lia).
      rewrite <- (dB_win (del V m) (kap m) q (Rm m) i OKm).
      2: { rewrite Eq. unfold kap. lcase m k'; lia. }
      apply (polar_diag q (fun l => dB (del V m) (Z.of_nat q) (Rm m) l (kap m)) G); auto.
      - apply dB_polar. auto.
      - intros u. rewrite dB_diag by auto. rewrite GD, Eq. apply Same. lia.
      - apply win_length. }
    assert (Qi : forall i, (k' - p - 1 <= i <= k')%Z -> apply_to n (fun i l => / IZR (p + 1) * sumZ 1 (p + 1) (fun j => c (i + j)%Z i l)) P i = elev G q (win V i (S q))).
    { intros i Hi. unfold elev. rewrite win_length, bin_pred. rewrite ssum_drop by apply win_length.
      unfold apply_to. rewrite (sumZ_ext 0 n _ (fun l => / IZR (p + 1) * sumZ 1 (p + 1) (fun j => c (i + j)%Z i l * P l))).
      2: { intros l Hl. rewrite sumZ_scal_r. ring. }
      rewrite sumZ_scal, sumZ_swap. replace (Z.of_nat (S q)) with (p + 1)%Z by lia. rewrite INR_IZR_INZ. replace (Z.of_nat (S q)) with (p + 1)%Z by lia.
      unfold Rdiv. rewrite Rmult_comm. f_equal. apply sumZ_ext. intros j Hj. rewrite <- (Row i j Hi Hj). reflexivity. }
    intros x. rewrite (pc_ext V k' (p + 1) _ (fun i => elev G q (win V i (S q)))).
    2: { intros i Hi. apply Qi. lia. }
    replace (p + 1)%Z with (Z.of_nat (S q)) by lia.
    rewrite (polar_eval V k' (S q) (elev G q) x).
    + replace (S q) with (q + 1)%nat by lia. rewrite elev_diag. apply GD.
    + replace (S q) with (q + 1)%nat by lia. apply elev_polar. auto.
    + split; auto. intros a b H1 H2 H3. apply M; lia.
Qed.

(** ** Several elevations *)
Lemma low_block V H lo m : nondecreasing V 0 H -> (forall j, (0 <= j <= H)%Z -> lo <= V j) -> multiplicity V 0 H lo = m -> (1 <= m <= H)%Z ->
  (forall j, (0 <= j < m)%Z -> V j = lo) /\ lo < V m.
Proof.
  intros M B C Hm. split.
  - assert (V (m - 1)%Z = lo) as E.
    { destruct (Req_EM_T (V (m - 1)%Z) lo) as [|N]; auto. exfalso. pose proof (B (m - 1)%Z ltac:(lia)).
      rewrite (multiplicity_split V 0 (m - 2) H) in C by lia. rewrite (multiplicity_none V (m - 2 + 1) H) in C.
      - pose proof (multiplicity_le V 0 (m - 2) lo ltac:(lia)). lia.
      - intros j Hj. assert (V (m - 1)%Z <= V j) by (apply M; lia). lra. }
    intros j Hj. pose proof (B j ltac:(lia)). assert (V j <= V (m - 1)%Z) by (apply M; lia). lra.
  - pose proof (B m ltac:(lia)). destruct (Req_EM_T (V m) lo) as [E|]; [|lra]. exfalso.
    assert (E0 : V 0%Z = lo). { pose proof (B 0%Z ltac:(lia)). assert (V 0%Z <= V m) by (apply M; lia). lra. }
    pose proof (multiplicity_pair V 0 H lo 0 m M ltac:(lia) ltac:(lia) ltac:(lia) E0 E). lia.
Qed.
Lemma high_block V H hi m : nondecreasing V 0 H -> (forall j, (0 <= j <= H)%Z -> V j <= hi) -> multiplicity V 0 H hi = m -> (1 <= m <= H)%Z ->
  (forall j, (H - m < j <= H)%Z -> V j = hi) /\ V (H - m)%Z < hi.
Proof.
  intros M B C Hm. split.
  - assert (V (H - m + 1)%Z = hi) as E.
    { destruct (Req_EM_T (V (H - m + 1)%Z) hi) as [|N]; auto. exfalso. pose proof (B (H - m + 1)%Z ltac:(lia)).
      rewrite (multiplicity_split V 0 (H - m + 1) H) in C by lia. rewrite (multiplicity_none V 0 (H - m + 1)) in C.
      - pose proof (multiplicity_le V (H - m + 1 + 1) H hi ltac:(lia)). lia.
      - intros j Hj. assert (V j <= V (H - m + 1)%Z) by (apply M; lia). lra. }
    intros j Hj. pose proof (B j ltac:(lia)). assert (V (H - m + 1)%Z <= V j) by (apply M; lia). lra.
  - pose proof (B (H - m)%Z ltac:(lia)). destruct (Req_EM_T (V (H - m)%Z) hi) as [E|]; [|lra]. exfalso.
    assert (E0 : V H = hi). { pose proof (B H ltac:(lia)). assert (V (H - m)%Z <= V H) by (apply M; lia). lra. }
    pose proof (multiplicity_pair V 0 H hi (H - m) H M ltac:(lia) ltac:(lia) ltac:(lia) E E0). lia.
Qed.
Lemma blocks_wf V n p lo hi : (0 <= p)%Z -> (0 <= n)%Z -> lo < hi -> nondecreasing V 0 (n + p + 1) -> (forall j, (0 <= j <= n + p + 1)%Z -> lo <= V j <= hi) ->
  multiplicity V 0 (n + p + 1) lo = (p + 1)%Z -> multiplicity V 0 (n + p + 1) hi = (p + 1)%Z -> wf_knots n p V /\ clamped n p V.
Proof.
  intros Hp Hn L M B C1 C2.
  destruct (low_block V (n + p + 1) lo (p + 1) M ltac:(intros; apply B; auto) C1 ltac:(lia)) as [L1 L2].
  destruct (high_block V (n + p + 1) hi (p + 1) M ltac:(intros; apply B; auto) C2 ltac:(lia)) as [H1 H2].
  replace (n + p + 1 - (p + 1))%Z with n in * by lia.
  assert (p <= n)%Z. { destruct (Z.le_gt_cases p n); auto. exfalso. pose proof (L1 (n + 1)%Z ltac:(lia)). pose proof (H1 (n + 1)%Z ltac:(lia)). lra. }
  split.
  - split; auto.
    + rewrite (L1 p) by lia. auto.
    + rewrite (H1 (n + 1)%Z) by lia. auto.
  - split; intros j Hj; [rewrite !L1 by lia|rewrite !H1 by lia]; reflexivity.
Qed.

Definition raised (U : Z -> R) (H t v : _) : Z := (multiplicity U 0 H v + if (multiplicity U 0 H v =? 0)%Z then 0 else t)%Z.
Lemma clamped_ends n p U : wf_knots n p U -> clamped n p U -> (0 <= p)%Z ->
  multiplicity U 0 (n + p + 1) (U p) = (p + 1)%Z /\ multiplicity U 0 (n + p + 1) (U (n + 1)%Z) = (p + 1)%Z /\ U p < U (n + 1)%Z /\
  forall j, (0 <= j <= n + p + 1)%Z -> U p <= U j <= U (n + 1)%Z.
Proof.
  intros W [CL CR] Hp. pose proof (wf_n _ _ _ W) as Hn. pose proof (wf_mono _ _ _ W) as M. pose proof (wf_first _ _ _ W) as F. pose proof (wf_last _ _ _ W) as La.
  split; [|split; [|split]].
  - rewrite (multiplicity_split U 0 p) by lia. rewrite (multiplicity_all U 0 p) by (try lia; auto). rewrite multiplicity_none; [lia|].
    intros j Hj. assert (U (p + 1)%Z <= U j) by (apply M; lia). lra.
  - rewrite (multiplicity_split U 0 n) by lia. rewrite (multiplicity_none U 0 n).
    + rewrite (multiplicity_all U (n + 1)); [lia|lia|]. intros j Hj. apply CR. lia.
    + intros j Hj. assert (U j <= U n) by (apply M; lia). lra.
  - assert (U (p + 1)%Z <= U (n + 1)%Z) by (apply M; lia). lra.
  - intros j Hj. split.
    + destruct (Z.le_gt_cases j p); [rewrite (CL j) by lia; lra|]. apply M; lia.
    + destruct (Z.le_gt_cases (n + 1) j); [rewrite (CR j) by lia; lra|]. apply M; lia.
Qed.
Lemma raised_wf n p U t n' V : wf_knots n p U -> clamped n p U -> (0 <= p)%Z -> (0 <= t)%Z -> (0 <= n')%Z -> nondecreasing V 0 (n' + (p + t) + 1) ->
  (forall v, multiplicity V 0 (n' + (p + t) + 1) v = raised U (n + p + 1) t v) -> wf_knots n' (p + t) V /\ clamped n' (p + t) V.
Proof.
  intros W C Hp Ht Hn' M CV. destruct (clamped_ends n p U W C Hp) as (M1 & M2 & L & B).
  apply (blocks_wf V n' (p + t) (U p) (U (n + 1)%Z)); auto; try lia.
  - intros j Hj. pose proof (multiplicity_pair V 0 (n' + (p + t) + 1) (V j) j j M ltac:(lia) ltac:(lia) ltac:(lia) eq_refl eq_refl) as X.
    rewrite CV in X. unfold raised in X. destruct (Z.eqb_spec (multiplicity U 0 (n + p + 1) (V j)) 0) as [E|E]; [lia|].
    assert (K : exists i, (0 <= i <= n + p + 1)%Z /\ U i = V j).
    { apply distinct_in. destruct (in_dec Req_EM_T (V j) (distinct U (n + p + 1))) as [I|I]; auto. exfalso.
      pose proof (distinct_count U (n + p + 1) (V j) ltac:(pose proof (wf_n _ _ _ W); lia)) as Q. rewrite (countL_notin _ _ I) in Q.
      destruct (Z.eqb_spec (multiplicity U 0 (n + p + 1) (V j)) 0); [lia|discriminate]. }
    destruct K as (i & Hi & <-). apply B. auto.
  - rewrite CV. unfold raised. rewrite M1. destruct (Z.eqb_spec (p + 1) 0); lia.
  - rewrite CV. unfold raised. rewrite M2. destruct (Z.eqb_spec (p + 1) 0); lia.
Qed.
Lemma countL_times v D t : countL v (concat (repeat D t)) = (Z.of_nat t * countL v D)%Z.
Proof. induction t; cbn [repeat concat]; [reflexivity|]. rewrite countL_app, IHt. lia. Qed.
Lemma raised_knots n p U t : wf_knots n p U -> clamped n p U -> (0 <= p)%Z -> (0 <= t)%Z ->
  exists n' V, (0 <= n')%Z /\ nondecreasing V 0 (n' + (p + t) + 1) /\ forall v, multiplicity V 0 (n' + (p + t) + 1) v = raised U (n + p + 1) t v.
Proof.
  intros W C Hp Ht. pose proof (wf_n _ _ _ W) as Hn. destruct (clamped_ends n p U W C Hp) as (M1 & M2 & L & B).
  set (H := (n + p + 1)%Z) in *.
  set (l := sort (N:=Rn) (map U (zseq (Z.to_nat (H + 1)) 0) ++ concat (repeat (distinct U H) (Z.to_nat t)))).
  assert (Cl : forall v, countL v l = raised U H t v).
  { intros v. unfold l. rewrite (countL_perm v _ _ (sort_perm _)), countL_app, countL_times, distinct_count by (unfold H; lia).
    rewrite countL_map. unfold raised, multiplicity.
    replace (H + 1 - 0)%Z with (H + 1)%Z by lia. destruct (countN (Z.to_nat (H + 1)) 0 U v =? 0)%Z; lia. }
  set (V := fun i => nth (Z.to_nat i) l 0).
  assert (So : sorted l) by apply sort_sorted.
  assert (Len : (2 * (p + 1 + t) <= Z.of_nat (@length R l))%Z).
  { assert (X : forall l : list R, forall u v, u <> v -> (countL u l + countL v l <= Z.of_nat (length l))%Z).
    { clear. intros l u v N. induction l as [|x l IH]; cbn [countL length]; [lia|]. destruct (Req_EM_T x u), (Req_EM_T x v); try lia. congruence. }
    pose proof (X l (U p) (U (n + 1)%Z) ltac:(lra)) as X2. rewrite !Cl in X2. unfold raised in X2. rewrite M1, M2 in X2. destruct (Z.eqb_spec (p + 1) 0); lia. }
  exists (Z.of_nat (@length R l) - (p + t) - 2)%Z, V. split; [lia|].
  replace (Z.of_nat (@length R l) - (p + t) - 2 + (p + t) + 1)%Z with (Z.of_nat (@length R l) - 1)%Z by lia. split.
  - intros i j H1 H2 H3. unfold V. apply (sorted_nth l 0); auto. lia.
  - intros v. rewrite <- Cl. symmetry. apply countL_nth.
Qed.
Theorem avg_elev n p U : (1 <= p)%Z -> wf_knots n p U -> clamped n p U -> forall (t : nat) n' V, (0 <= n')%Z -> nondecreasing V 0 (n' + (p + Z.of_nat t) + 1) ->
  (forall v, multiplicity V 0 (n' + (p + Z.of_nat t) + 1) v = raised U (n + p + 1) (Z.of_nat t) v) -> avg_rep false n' (p + Z.of_nat t) V n p U.
Proof.
  intros Hp W C. pose proof (wf_n _ _ _ W) as Hn. pose proof (wf_mono _ _ _ W) as MU.
  induction t; intros n' V Hn' M CV.
  - change (Z.of_nat 0) with 0%Z in *. rewrite Z.add_0_r in *. replace n' with (n + (n' - n))%Z by lia.
    apply (avg_added false p n U [] (n' - n) V); auto; try lia.
    + intros x [].
    + replace (n + (n' - n) + p + 1)%Z with (n' + p + 1)%Z by lia. auto.
    + intros v. replace (n + (n' - n) + p + 1)%Z with (n' + p + 1)%Z by lia. rewrite CV. unfold raised. cbn [countL]. destruct (_ =? 0)%Z; lia.
  - destruct (raised_knots n p U (Z.of_nat t) W C ltac:(lia) ltac:(lia)) as (n1 & V1 & H1 & N1 & C1).
    destruct (raised_wf n p U (Z.of_nat t) n1 V1 W C ltac:(lia) ltac:(lia) H1 N1 C1) as [W1 K1].
    apply (avg_trans false _ _ _ n1 (p + Z.of_nat t) V1).
    + replace (p + Z.of_nat (S t))%Z with (p + Z.of_nat t + 1)%Z in * by lia. apply avg_elev1; auto; try lia.
      * replace (n' + (p + Z.of_nat t) + 2)%Z with (n' + (p + Z.of_nat t + 1) + 1)%Z by lia. auto.
      * intros v. replace (n' + (p + Z.of_nat t) + 2)%Z with (n' + (p + Z.of_nat t + 1) + 1)%Z by lia. rewrite CV, C1. unfold raised.
        pose proof (multiplicity_nonneg U 0 (n + p + 1) v). destruct (Z.eqb_spec (multiplicity U 0 (n + p + 1) v) 0) as [E|E]; [rewrite E; reflexivity|].
        destruct (Z.eqb_spec (multiplicity U 0 (n + p + 1) v + Z.of_nat t) 0); lia.
    + apply IHt; auto.
Qed.

Theorem elevate_averages x ax a t junk junk2 y : wf_nurbs x -> bounded_knots x -> py_axis (n_dim x) ax = Ok a ->
  op_ok (Elevate t) (get_axis x a) -> elevate (N:=Rn) junk junk2 x ax t = Ok y -> averages a x y /\ bounded_knots y.
Proof.
  intros W Bk Ea Hok E. pose proof (py_axis_dim _ _ _ Ea) as Ha. pose proof (wf_get_axis _ _ W Ha) as WA. pose proof WA as [Hp Wk].
  destruct (op_spec (Elevate t) x ax a junk junk2 y W Ea Hok E) as (P & B & EX & Ht & D & MB).
  destruct Hok as (Cl & _). set (A := get_axis x a) in *. cbn [spec_ax x_n x_p x_U] in *.
  assert (Ly : length (n_axes y) = length (n_axes x)) by (rewrite EX; apply lset_length).
  assert (EB : get_axis y a = B) by (unfold get_axis; rewrite EX; apply nth_lset; auto).
  assert (WB : wf_ax (spec_ax B)) by (rewrite <- EB; apply wf_get_axis; [apply P|lia]). destruct WB as [_ WB]. cbn [spec_ax x_n x_p x_U] in WB.
  pose proof (wf_n _ _ _ WB) as NB. pose proof (wf_p _ _ _ WB) as PB.
  assert (CB : forall v, multiplicity (a_knots B) 0 (a_size B - 1 + a_deg B + 1) v = raised (a_knots A) (a_size A - 1 + a_deg A + 1) t v).
  { intros v. specialize (MB v). unfold mulA in MB. rewrite MB. unfold raised. destruct (Z.eqb_spec (multiplicity (a_knots A) 0 (a_size A - 1 + a_deg A + 1) v) 0); lia. }
  assert (Bd : bounded_knots y).
  { apply bounded_of. intros c Hc w. rewrite (preserves_dim _ _ P) in Hc. rewrite (get_lset x y a _ c EX Ha).
    pose proof (bounded_at x c Bk ltac:(lia) w) as Bc. destruct (Nat.eqb_spec c a) as [->|Hne]; auto. fold A in Bc.
    rewrite MB, D. destruct (Z.eqb_spec (mulA A w) 0); lia. }
  split; auto. apply (averages_plain false), (averages_of false x y a B W Ha P EX Bd). fold A. rewrite D in *. replace t with (Z.of_nat (Z.to_nat t)) in * by lia.
  apply avg_elev; auto; try lia. apply (wf_mono _ _ _ WB).
Qed.
