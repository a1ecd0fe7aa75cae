(** Axes described by the multiplicities of their knots: one step of remap, elevate and refine. *)
From Coq Require Import ZArith Reals List Lia Lra Bool Permutation Sorting.Sorted.
From Verif Require Import Num Loop ModelBspline ModelBSp ModelNurbs ModelIga ModelCad Spec SpecElev SpecCompat SumZ BPiece BLink ProofSpan BInsert BRep
  ProofInsert ProofCut SpecNurbs ProofNet ProofCall ProofNurbs ProofMethods ProofMethods2 ProofMethods3 ProofGeom ProofGeom2 ProofOk ProofSlice ProofIga ProofIga2
  ProofElev1 ProofElev4 ProofElev5.
Import ListNotations.
Local Open Scope R_scope.

(** ** Multiplicities along an axis *)
Definition mulA (A : axis Rn) (x : R) : Z := multiplicity (a_knots A) 0 (a_size A - 1 + a_deg A + 1) x.
Definition good_ax (A : axis Rn) : Prop :=
  wf_ax (spec_ax A) /\ clamped (a_size A - 1) (a_deg A) (a_knots A) /\ mult_le (a_size A - 1) (a_deg A) (a_knots A).

Lemma mulA_nonneg A x : (0 <= mulA A x)%Z.
Proof. apply multiplicity_nonneg. Qed.
Lemma mulA_at A j : wf_ax (spec_ax A) -> (0 <= j <= a_size A - 1 + a_deg A + 1)%Z -> (1 <= mulA A (a_knots A j))%Z.
Proof.
  intros [_ W] Hj. pose proof (wf_mono _ _ _ W) as M. cbn in M. unfold mulA.
  pose proof (multiplicity_pair (a_knots A) 0 _ (a_knots A j) j j M ltac:(lia) ltac:(lia) ltac:(lia) eq_refl eq_refl). lia.
Qed.
Lemma index_dec (U : Z -> R) lo hi x : (exists j, (lo <= j <= hi)%Z /\ U j = x) \/ (forall j, (lo <= j <= hi)%Z -> U j <> x).
Proof.
  assert (G : forall c lo, (exists j, (lo <= j < lo + Z.of_nat c)%Z /\ U j = x) \/ (forall j, (lo <= j < lo + Z.of_nat c)%Z -> U j <> x)).
  { induction c; intros l; [right; intros; lia|]. destruct (Req_EM_T (U l) x) as [E|E]; [left; exists l; split; auto; lia|].
    destruct (IHc (l + 1)%Z) as [(j & H & Ej)|H]; [left; exists j; split; auto; lia|]. right. intros j Hj.
    destruct (Z.eq_dec j l) as [->|]; auto. apply H. lia. }
  destruct (G (Z.to_nat (hi + 1 - lo)) lo) as [(j & H & Ej)|H]; [left; exists j; split; auto; lia|right; intros; apply H; lia].
Qed.
Lemma mulA_pos A x : (0 < mulA A x)%Z -> exists j, (0 <= j <= a_size A - 1 + a_deg A + 1)%Z /\ a_knots A j = x.
Proof.
  intros H. destruct (index_dec (a_knots A) 0 (a_size A - 1 + a_deg A + 1) x) as [|N]; auto.
  unfold mulA in H. rewrite multiplicity_none in H by auto. lia.
Qed.
Lemma wf_lohi A : wf_ax (spec_ax A) -> a_lo A < a_hi A.
Proof.
  intros [Hp W]. rewrite a_hi_eq, a_lo_eq. pose proof (wf_mono _ _ _ W) as M. pose proof (wf_first _ _ _ W) as F. pose proof (wf_n _ _ _ W). cbn in *.
  assert (a_knots A (a_deg A + 1)%Z <= a_knots A (a_size A - 1 + 1)%Z) by (apply M; lia). lra.
Qed.

Lemma good_profile A : good_ax A -> a_lo A < a_hi A /\ mulA A (a_lo A) = (a_deg A + 1)%Z /\ mulA A (a_hi A) = (a_deg A + 1)%Z /\
  (forall x, x < a_lo A \/ a_hi A < x -> mulA A x = 0%Z) /\ (forall x, a_lo A < x < a_hi A -> (mulA A x <= a_deg A)%Z).
Proof.
  intros (Wa & [C1 C2] & ML). pose proof Wa as [Hp W]. cbn in Hp.
  pose proof (wf_mono _ _ _ W) as M. pose proof (wf_n _ _ _ W) as Hn. pose proof (wf_first _ _ _ W) as F. pose proof (wf_last _ _ _ W) as L.
  cbn in M, Hn, F, L. set (n := (a_size A - 1)%Z) in *. set (p := a_deg A) in *. set (U := a_knots A) in *.
  assert (E1 : a_lo A = U p) by reflexivity. assert (E2 : a_hi A = U (n + 1)%Z) by apply a_hi_eq.
  pose proof (wf_lohi A Wa) as LH. rewrite E1, E2 in *. unfold mulA. fold n p U. split; [exact LH|]. split; [|split; [|split]].
  - rewrite (multiplicity_split U 0 p (n + p + 1)) by lia. rewrite multiplicity_all by (try lia; intros; apply C1; lia).
    rewrite multiplicity_none; [lia|]. intros j Hj. assert (U (p + 1)%Z <= U j) by (apply M; lia). lra.
  - rewrite (multiplicity_split U 0 n (n + p + 1)) by lia. rewrite (multiplicity_all U (n + 1)) by (try lia; intros; apply C2; lia).
    rewrite multiplicity_none; [lia|]. intros j Hj. assert (U j <= U n) by (apply M; lia). lra.
  - intros x Hx. apply multiplicity_none. intros j Hj.
    assert (U 0%Z <= U j) by (apply M; lia). assert (U j <= U (n + p + 1)%Z) by (apply M; lia).
    rewrite (C1 0%Z) in * by lia. rewrite (C2 (n + p + 1)%Z) in * by lia. lra.
  - intros x [X1 X2]. pose proof (continuous_mult n p U x W Hp ML).
    rewrite (multiplicity_split U 0 0 (n + p + 1)) by lia. rewrite (multiplicity_split U (0 + 1) (n + p) (n + p + 1)) by lia.
    rewrite (multiplicity_none U 0 0), (multiplicity_none U (n + p + 1)); [replace (0 + 1)%Z with 1%Z by lia; lia| |];
    intros j Hj; [replace j with (n + p + 1)%Z by lia; rewrite C2 by lia|replace j with 0%Z by lia; rewrite C1 by lia]; lra.
Qed.

Lemma good_of A lo hi : wf_ax (spec_ax A) -> a_lo A = lo -> a_hi A = hi ->
  (forall x, x < lo \/ hi < x -> mulA A x = 0%Z) -> (forall x, lo < x < hi -> (mulA A x <= a_deg A)%Z) -> good_ax A.
Proof.
  intros Wa E1 E2 H0 H1. split; auto. pose proof Wa as [Hp W]. cbn in Hp.
  pose proof (wf_mono _ _ _ W) as M. pose proof (wf_n _ _ _ W) as Hn. pose proof (wf_first _ _ _ W) as F. pose proof (wf_last _ _ _ W) as L.
  cbn in M, Hn, F, L. rewrite a_lo_eq in E1. rewrite a_hi_eq in E2.
  pose proof (mulA_at A) as AT. unfold mulA in H1. 
  set (n := (a_size A - 1)%Z) in *. set (p := a_deg A) in *. set (U := a_knots A) in *. split; [split|].
  - intros j Hj. assert (U j <= U p) by (apply M; lia). destruct (Rlt_dec (U j) (U p)) as [K|K]; [|lra].
    specialize (H0 (U j) ltac:(lra)). specialize (AT j Wa ltac:(lia)). lia.
  - intros j Hj. assert (U (n + 1)%Z <= U j) by (apply M; lia). destruct (Rlt_dec (U (n + 1)%Z) (U j)) as [K|K]; [|lra].
    specialize (H0 (U j) ltac:(lra)). specialize (AT j Wa ltac:(lia)). lia.
  - intros i Hi. assert (U i <= U (i + p)%Z) by (apply M; lia). destruct (Rlt_dec (U i) (U (i + p)%Z)); auto.
    assert (E : U (i + p)%Z = U i) by lra.
    assert (U (p + 1)%Z <= U i) by (apply M; lia). assert (U i <= U n) by (apply M; lia).
    specialize (H1 (U i) ltac:(lra)).
    pose proof (multiplicity_pair U 0 (n + p + 1) (U i) i (i + p) M ltac:(lia) ltac:(lia) ltac:(lia) eq_refl E). lia.
Qed.

(** ** Two sorted sequences with the same multiplicities are equal *)
Lemma sorted_unique l : forall l', sorted l -> sorted l' -> (forall v, countL v l = countL v l') -> l = l'.
Proof.
  assert (IN : forall v l, (1 <= countL v l)%Z -> In v l).
  { intros v. induction l0 as [|x l0 IH]; simpl; [lia|]. destruct (Req_EM_T x v); auto. }
  induction l as [|x l IH]; intros [|y l'] S S' H; auto.
  - specialize (H y). pose proof (countL_In y (y :: l') (or_introl eq_refl)). simpl in *. lia.
  - specialize (H x). pose proof (countL_In x (x :: l) (or_introl eq_refl)). simpl in *. lia.
  - destruct S as [S1 S2], S' as [T1 T2].
    assert (x = y).
    { assert (I1 : In x (y :: l')) by (apply IN; rewrite <- H; apply countL_In; left; auto).
      assert (I2 : In y (x :: l)) by (apply IN; rewrite H; apply countL_In; left; auto).
      destruct I1 as [->|I1]; auto. destruct I2 as [->|I2]; auto. specialize (S1 _ I2). specialize (T1 _ I1). lra. }
    subst y. f_equal. apply IH; auto. intros v. specialize (H v). simpl in H. lia.
Qed.
Lemma seq_sorted (U : Z -> R) c : forall lo, nondecreasing U lo (lo + Z.of_nat c - 1) -> sorted (map U (zseq c lo)).
Proof.
  induction c; intros lo M; simpl; auto. split.
  - intros y Hy. apply in_map_iff in Hy. destruct Hy as (i & <- & Hi).
    assert (G : forall c l, In i (zseq c l) -> (l <= i < l + Z.of_nat c)%Z).
    { clear. induction c; intros l H; simpl in H; [tauto|]. destruct H as [<-|H]; [lia|]. apply IHc in H. lia. }
    apply G in Hi. apply M; lia.
  - apply IHc. intros i j H1 H2 H3. apply M; lia.
Qed.
Lemma mult_unique (U V : Z -> R) m m' : (0 <= m)%Z -> (0 <= m')%Z -> nondecreasing U 0 m -> nondecreasing V 0 m' ->
  (forall x, multiplicity U 0 m x = multiplicity V 0 m' x) -> m = m' /\ forall j, (0 <= j <= m)%Z -> U j = V j.
Proof.
  intros Hm Hm' MU MV H.
  assert (E : map U (zseq (Z.to_nat (m + 1)) 0) = map V (zseq (Z.to_nat (m' + 1)) 0)).
  { apply sorted_unique.
    - apply seq_sorted. intros i j H1 H2 H3. apply MU; lia.
    - apply seq_sorted. intros i j H1 H2 H3. apply MV; lia.
    - intros v. rewrite !countL_map. specialize (H v). unfold multiplicity in H.
      replace (m + 1 - 0)%Z with (m + 1)%Z in H by lia. replace (m' + 1 - 0)%Z with (m' + 1)%Z in H by lia. exact H. }
  assert (LZ : forall c lo, length (zseq c lo) = c) by (induction c; intros; simpl; auto).
  assert (El : m = m').
  { apply (f_equal (@length _)) in E. rewrite !map_length, !LZ in E. lia. }
  split; auto. subst m'. intros j Hj.
  assert (ZN : forall c lo i, (i < c)%nat -> nth i (zseq c lo) 0%Z = (lo + Z.of_nat i)%Z).
  { clear. induction c; intros lo i H; [lia|]. destruct i; cbn [zseq nth]; [lia|]. rewrite IHc by lia. lia. }
  apply (f_equal (fun l => nth (Z.to_nat j) l 0)) in E.
  rewrite !(nth_indep (map _ _) 0 (U 0%Z)) in E by (rewrite map_length, LZ; lia).
  rewrite (map_nth U) in E. rewrite (nth_indep _ (U 0%Z) (V 0%Z)) in E by (rewrite map_length, LZ; lia). rewrite (map_nth V) in E.
  rewrite ZN in E by lia. replace (0 + Z.of_nat (Z.to_nat j))%Z with j in E by lia. exact E.
Qed.

(** ** Change of parameters on all axes *)
Record moves (nrb nrb' : nurbs Rn) (G : nat -> R -> R) : Prop := {
  mv_wf : wf_nurbs nrb';
  mv_comp : n_comp nrb' = n_comp nrb;
  mv_dim : length (n_axes nrb') = length (n_axes nrb);
  mv_hom : forall us us', in_box (spec_axes nrb) us -> length us' = length us ->
     (forall b, (b < length us)%nat -> nth b us' 0 = G b (nth b us 0)) ->
     in_box (spec_axes nrb') us' /\ forall c, hom nrb' c us' = hom nrb c us }.

Lemma moves_ext nrb nrb' G H : moves nrb nrb' G -> (forall b x, G b x = H b x) -> moves nrb nrb' H.
Proof. intros [A B C D] E. split; auto. intros us us' I L K. apply D; auto. intros b Hb. rewrite E. auto. Qed.
Lemma moves_preserves nrb nrb' : preserves nrb nrb' -> moves nrb nrb' (fun _ x => x).
Proof.
  intros [W C D H]. split; auto.
  - assert (L : length (spec_axes nrb) = length (spec_axes nrb')) by (clear - D; induction D; simpl; auto). unfold spec_axes in L. rewrite !map_length in L. auto.
  - intros us us' I L K. assert (us' = us) as ->.
    { apply (nth_ext _ _ 0 0); auto. intros b Hb. apply K. lia. }
    split; [apply (in_box_dom _ _ _ D I)|]. intros c. apply H. auto.
Qed.
Lemma moves_id nrb : wf_nurbs nrb -> moves nrb nrb (fun _ x => x).
Proof. intros W. apply moves_preserves, preserves_refl, W. Qed.
Lemma moves_trans nrb nrb' nrb'' G H : moves nrb nrb' G -> moves nrb' nrb'' H -> moves nrb nrb'' (fun b x => H b (G b x)).
Proof.
  intros [W C D M] [W' C' D' M']. split; auto; try congruence. intros us us' I L K.
  set (vs := map (fun b => G b (nth b us 0)) (seq 0 (length us))).
  assert (Lv : length vs = length us) by (unfold vs; rewrite map_length, seq_length; auto).
  assert (Nv : forall b, (b < length us)%nat -> nth b vs 0 = G b (nth b us 0)).
  { intros b Hb. unfold vs. rewrite (nth_indep _ 0 (G 0%nat (nth 0 us 0))) by (rewrite map_length, seq_length; auto).
    rewrite (map_nth (fun b => G b (nth b us 0)) (seq 0 (length us)) 0%nat). rewrite seq_nth by auto. reflexivity. }
  destruct (M us vs I Lv Nv) as [I1 H1]. destruct (M' vs us' I1) as [I2 H2]; try congruence.
  - intros b Hb. rewrite K by lia. rewrite Nv by lia. reflexivity.
  - split; auto. intros c. rewrite H2. apply H1.
Qed.

(** ** One step *)
Lemma rescale_inj A lo hi x y : a_lo A < a_hi A -> lo < hi -> rescale A lo hi x = rescale A lo hi y -> x = y.
Proof.
  intros H1 H2 E. unfold rescale in E.
  assert (E' : (x - a_lo A) * (hi - lo) / (a_hi A - a_lo A) = (y - a_lo A) * (hi - lo) / (a_hi A - a_lo A)) by lra.
  assert (K : 0 < (hi - lo) / (a_hi A - a_lo A)) by (apply Rdiv_lt_0_compat; lra).
  replace ((x - a_lo A) * (hi - lo) / (a_hi A - a_lo A)) with ((x - a_lo A) * ((hi - lo) / (a_hi A - a_lo A))) in E' by (field; lra).
  replace ((y - a_lo A) * (hi - lo) / (a_hi A - a_lo A)) with ((y - a_lo A) * ((hi - lo) / (a_hi A - a_lo A))) in E' by (field; lra).
  apply Rmult_eq_reg_r in E'; lra.
Qed.
Lemma rescale_surj A lo hi y : a_lo A < a_hi A -> lo < hi -> exists x, rescale A lo hi x = y.
Proof.
  intros H1 H2. exists (a_lo A + (y - lo) * (a_hi A - a_lo A) / (hi - lo)). unfold rescale.
  assert (G : forall l h : R, l < h -> lo + (l + (y - lo) * (h - l) / (hi - lo) - l) * (hi - lo) / (h - l) = y) by (intros; field; lra).
  apply G; auto.
Qed.
Lemma rescale_lt A lo hi x y : a_lo A < a_hi A -> lo < hi -> rescale A lo hi x < rescale A lo hi y <-> x < y.
Proof.
  intros H1 H2. unfold rescale.
  assert (K : 0 < (hi - lo) / (a_hi A - a_lo A)) by (apply Rdiv_lt_0_compat; lra).
  assert (E : forall z, (z - a_lo A) * (hi - lo) / (a_hi A - a_lo A) = z * ((hi - lo) / (a_hi A - a_lo A)) - a_lo A * ((hi - lo) / (a_hi A - a_lo A))).
  { generalize (a_lo A : R) (a_hi A : R) H1. intros l h H z. field; lra. }
  rewrite !E. split; intros; nra.
Qed.
Lemma rescale_ends A lo hi : a_lo A < a_hi A -> rescale A lo hi (a_lo A) = lo /\ rescale A lo hi (a_hi A) = hi.
Proof. unfold rescale. generalize (a_lo A : R) (a_hi A : R). intros l h H. split; field; lra. Qed.

Lemma multiplicity_map g U lo hi x : (forall a b, g a = g b -> a = b) -> multiplicity (fun i => g (U i)) lo hi (g x) = multiplicity U lo hi x.
Proof.
  intros I. unfold multiplicity. generalize (Z.to_nat (hi + 1 - lo)). intros c. revert lo. induction c; intros; simpl; auto.
  rewrite IHc. destruct (Req_EM_T (g (U lo)) (g x)) as [E|E], (Req_EM_T (U lo) x) as [E'|E']; auto; exfalso; [apply E'; auto|apply E; congruence].
Qed.

Lemma remap_step nrb ax a lo hi : wf_nurbs nrb -> py_axis (n_dim nrb) ax = Ok a -> lo < hi ->
  let A := get_axis nrb a in good_ax A ->
  exists nrb' A', remap (N:=Rn) nrb ax (Some lo) (Some hi) = Ok nrb' /\ n_axes nrb' = lset a A' (n_axes nrb) /\
    moves nrb nrb' (fun b x => if Nat.eqb b a then rescale A lo hi x else x) /\
    good_ax A' /\ a_size A' = a_size A /\ a_deg A' = a_deg A /\ a_lo A' = lo /\ a_hi A' = hi /\
    (forall x, mulA A' (rescale A lo hi x) = mulA A x) /\ (forall i, a_knots A' i = rescale A lo hi (a_knots A i)).
Proof.
  intros W Ea Hlh A GA. pose proof (py_axis_dim _ _ _ Ea) as Ha.
  destruct (remap_ok nrb ax a (Some lo) (Some hi) W Ea Hlh) as [nrb' E].
  destruct (remap_full nrb ax a (Some lo) (Some hi) nrb' W Ea E) as (_ & W' & (V & EX & EV & EL & EH) & HH & _).
  fold A in EX, EV, EL, EH. exists nrb', (mkAxis (a_size A) (a_len A) V). split; auto. split; auto.
  pose proof GA as [WA _]. pose proof (wf_lohi A WA) as LH.
  assert (EV' : forall i, V i = rescale A lo hi (a_knots A i)).
  { intros i. rewrite EV. unfold rescale. rewrite a_hi_eq, a_lo_eq. reflexivity. }
  assert (EG : get_axis nrb' a = mkAxis (a_size A) (a_len A) V).
  { unfold get_axis. rewrite EX. apply nth_lset; auto. }
  assert (WA' : wf_ax (spec_ax (mkAxis (a_size A) (a_len A) V))).
  { rewrite <- EG. apply wf_get_axis; auto. rewrite EX, lset_length. auto. }
  assert (D' : a_deg (mkAxis (a_size A) (a_len A) V) = a_deg A) by reflexivity.
  assert (L' : a_lo (mkAxis (a_size A) (a_len A) V) = lo) by exact EL.
  assert (H' : a_hi (mkAxis (a_size A) (a_len A) V) = hi) by (rewrite a_hi_eq; exact EH).
  assert (MM : forall x, mulA (mkAxis (a_size A) (a_len A) V) (rescale A lo hi x) = mulA A x).
  { intros x. unfold mulA. rewrite D'. cbn [a_size a_knots].
    rewrite (multiplicity_ext V (fun i => rescale A lo hi (a_knots A i))) by auto.
    apply multiplicity_map. intros y z. apply rescale_inj; auto. }
  split; [|split; [|repeat split; auto]].
  - split; auto.
    + unfold remap in E. rewrite Ea in E. cbn [bind] in E. destruct (neqb Rn (a_lo (get_axis nrb a)) lo && neqb Rn (a_hi (get_axis nrb a)) hi); [congruence|].
      destruct (nltb Rn lo hi); cbn [assert bind] in E; [|discriminate]. injection E as <-. reflexivity.
    + rewrite EX. apply lset_length.
    + intros us us' I L K. pose proof (in_box_length _ _ I) as Lu. unfold spec_axes in Lu. rewrite map_length in Lu.
      assert (us' = lset a (rescale A lo hi (nth a us 0)) us) as ->.
      { apply (nth_ext _ _ 0 0); [rewrite lset_length; auto|]. intros b Hb. rewrite K by lia.
        destruct (Nat.eqb_spec b a) as [->|Hba]; [rewrite nth_lset; auto; lia|rewrite nth_lset_other; auto]. }
      split.
      * generalize (proj1 (HH us 0%Z I)). unfold rescale. rewrite a_hi_eq, a_lo_eq. auto.
      * intros c. generalize (proj2 (HH us c I)). unfold rescale. rewrite a_hi_eq, a_lo_eq. auto.
  - destruct (good_profile A GA) as (_ & _ & _ & P0 & P1). destruct (rescale_ends A lo hi LH) as [F1 F2].
    apply (good_of _ lo hi); auto.
    + intros y Hy. destruct (rescale_surj A lo hi y LH Hlh) as [x <-]. rewrite MM. apply P0.
      pose proof (rescale_lt A lo hi x (a_lo A) LH Hlh) as Q1. rewrite F1 in Q1.
      pose proof (rescale_lt A lo hi (a_hi A) x LH Hlh) as Q2. rewrite F2 in Q2. tauto.
    + intros y Hy. destruct (rescale_surj A lo hi y LH Hlh) as [x <-]. rewrite MM, D'. apply P1.
      pose proof (rescale_lt A lo hi (a_lo A) x LH Hlh) as Q1. rewrite F1 in Q1.
      pose proof (rescale_lt A lo hi x (a_hi A) LH Hlh) as Q2. rewrite F2 in Q2. tauto.
Qed.

(** Knots of the two axes coincide or differ by more than the tolerance. *)
Definition apart (A B : axis Rn) : Prop :=
  forall x y, (0 < mulA A x)%Z -> (0 < mulA B y)%Z -> x = y \/ / 4503599627370496 < Rabs (x - y).

Lemma apart_tiny A : wf_ax (spec_ax A) -> apart A A -> no_tiny_span (a_knots A) (a_deg A) (a_size A - 1).
Proof.
  intros W H k Hk. pose proof W as [Hp Wk]. cbn in Hp.
  pose proof (mulA_at A k W ltac:(lia)). pose proof (mulA_at A (k + 1) W ltac:(lia)). apply H; lia.
Qed.

Lemma dom_ends nrb nrb' a : preserves nrb nrb' -> (a < length (n_axes nrb))%nat ->
  a_lo (get_axis nrb' a) = a_lo (get_axis nrb a) /\ a_hi (get_axis nrb' a) = a_hi (get_axis nrb a).
Proof.
  intros Pr Ha.
  assert (L : (a < length (spec_axes nrb))%nat) by (unfold spec_axes; rewrite map_length; auto).
  pose proof (Forall2_nth _ _ _ a (spec_ax axis0) (spec_ax axis0) (pr_dom _ _ Pr) L) as [D1 D2].
  rewrite !nth_spec_axes in D1, D2. rewrite !a_hi_eq, !a_lo_eq. cbn in D1, D2. auto.
Qed.

Lemma elevate_step nrb ax a t junk junk2 : wf_nurbs nrb -> py_axis (n_dim nrb) ax = Ok a -> (0 <= t)%Z ->
  let A := get_axis nrb a in good_ax A -> apart A A -> (t = 0%Z \/ elev_guard (a_size A - 1) (a_deg A) t (a_knots A)) ->
  exists nrb' A', elevate (N:=Rn) junk junk2 nrb ax t = Ok nrb' /\ n_axes nrb' = lset a A' (n_axes nrb) /\ moves nrb nrb' (fun _ x => x) /\
    good_ax A' /\ a_deg A' = (a_deg A + t)%Z /\ a_lo A' = a_lo A /\ a_hi A' = a_hi A /\
    (forall x, mulA A' x = if (mulA A x =? 0)%Z then 0%Z else (mulA A x + t)%Z).
Proof.
  intros W Ea Ht A GA AP Hg. pose proof (py_axis_dim _ _ _ Ea) as Ha. pose proof GA as (WA & CA & MA).
  destruct (Z.eq_dec t 0) as [->|Hne].
  { exists nrb, A. split; [reflexivity|]. split; [unfold A, get_axis; symmetry; apply ProofNet.lset_nth|]. split; [apply moves_id; auto|].
    split; auto. split; [lia|]. split; auto. split; auto. intros x. destruct (Z.eqb_spec (mulA A x) 0); lia. }
  destruct Hg as [Hg|Hg]; [lia|].
  pose proof (apart_tiny A WA AP) as NT.
  destruct (elevate_spec nrb ax a t junk junk2 W Ea Ht CA NT MA Hg) as (nrb' & E & Pr).
  destruct (elevate_knots nrb ax a t junk junk2 W Ea Ht CA NT) as (nrb1 & V & E1 & _ & EX & MV & HV1 & HV2).
  rewrite E in E1. injection E1 as <-. fold A in EX, MV, HV1, HV2.
  set (A' := mkAxis _ _ V) in EX. exists nrb', A'. split; auto. split; auto. split; [apply moves_preserves; auto|].
  assert (EG : get_axis nrb' a = A') by (unfold get_axis; rewrite EX; apply nth_lset; auto).
  assert (WA' : wf_ax (spec_ax A')).
  { rewrite <- EG. apply wf_get_axis; [apply Pr|]. rewrite EX, lset_length. auto. }
  assert (D' : a_deg A' = (a_deg A + t)%Z) by (unfold A', a_deg; cbn [a_len a_size]; lia).
  destruct (dom_ends _ _ a Pr Ha) as [L' H']. rewrite EG in L', H'. fold A in L', H'.
  assert (MM : forall x, mulA A' x = if (mulA A x =? 0)%Z then 0%Z else (mulA A x + t)%Z).
  { intros x. unfold mulA. rewrite D'. change (a_knots A') with V.
    replace (a_size A' - 1 + (a_deg A + t) + 1)%Z with (a_size A - 1 + t * nonempty_spans (a_knots A) (a_deg A) (a_size A - 1) + (a_deg A + t) + 1)%Z
      by (unfold A'; cbn [a_size]; lia).
    destruct (Z.eqb_spec (multiplicity (a_knots A) 0 (a_size A - 1 + a_deg A + 1) x) 0) as [Z0|Z0].
    - apply HV2. intros j Hj Ej. pose proof (mulA_at A j WA Hj) as K. rewrite Ej in K. unfold mulA in K. lia.
    - pose proof (mulA_nonneg A x) as K. unfold mulA in K.
      destruct (mulA_pos A x) as (j & Hj & <-); [unfold mulA; lia|]. apply HV1. auto. }
  split; [|repeat split; auto].
  destruct (good_profile A GA) as (_ & _ & _ & P0 & P1). apply (good_of A' (a_lo A) (a_hi A)); auto; intros x Hx; rewrite MM.
  - rewrite P0 by auto. reflexivity.
  - specialize (P1 x Hx). destruct (mulA A x =? 0)%Z; destruct WA as [Hp _]; cbn in Hp; lia.
Qed.

Lemma refine_step nrb ax a values junk : wf_nurbs nrb -> py_axis (n_dim nrb) ax = Ok a ->
  let A := get_axis nrb a in good_ax A ->
  separated_list (a_knots A) (a_size A - 1 + a_deg A + 1) values ->
  (forall v, In v values -> a_lo A < v < a_hi A /\ (mulA A v + countL v values <= a_deg A)%Z) ->
  exists nrb' A', refine (N:=Rn) junk nrb ax values = Ok nrb' /\ n_axes nrb' = lset a A' (n_axes nrb) /\ moves nrb nrb' (fun _ x => x) /\
    good_ax A' /\ a_deg A' = a_deg A /\ a_lo A' = a_lo A /\ a_hi A' = a_hi A /\
    (forall x, mulA A' x = (mulA A x + countL x values)%Z).
Proof.
  intros W Ea A GA SL HV. pose proof (py_axis_dim _ _ _ Ea) as Ha. pose proof GA as (WA & CA & MA).
  destruct (good_profile A GA) as (LH & Plo & Phi & P0 & P1).
  assert (C0 : forall v, ~ In v values -> countL v values = 0%Z).
  { intros v. clear. induction values as [|x l IH]; simpl; auto. intros H. rewrite IH by tauto. destruct (Req_EM_T x v); [exfalso; auto|lia]. }
  destruct (list_eq_dec Req_EM_T values []) as [->|Hne].
  { exists nrb, A. split; [reflexivity|]. split; [unfold A, get_axis; symmetry; apply ProofNet.lset_nth|]. split; [apply moves_id; auto|].
    split; auto. split; [lia|]. split; auto. split; auto. intros x. simpl. lia. }
  assert (HL : forall v, (multiplicity (a_knots A) 1 (a_size A - 1 + a_deg A) v <= mulA A v)%Z).
  { intros v. unfold mulA. pose proof (proj2 WA) as Wk. pose proof (wf_n _ _ _ Wk) as K1. pose proof (wf_p _ _ _ Wk) as K2. cbn in K1, K2.
    rewrite (multiplicity_split (a_knots A) 0 0) by lia. rewrite (multiplicity_split (a_knots A) (0 + 1) (a_size A - 1 + a_deg A) (a_size A - 1 + a_deg A + 1)) by lia.
    replace (0 + 1)%Z with 1%Z by lia. pose proof (multiplicity_nonneg (a_knots A) 0 0 v).
    pose proof (multiplicity_nonneg (a_knots A) (a_size A - 1 + a_deg A + 1) (a_size A - 1 + a_deg A + 1) v). lia. }
  destruct (proj2 (refine_ok nrb ax a values junk W Ea Hne)) as [nrb' E].
  { fold A. split.
    - intros x Hx. destruct (HV x Hx) as [[X1 X2] _]. rewrite a_hi_eq in X2. rewrite a_lo_eq in X1. lra.
    - intros v _. destruct (in_dec Req_EM_T v values) as [I|I].
      + destruct (HV v I) as [_ K]. specialize (HL v). lia.
      + rewrite C0 by auto. pose proof (continuous_mult _ _ _ v (proj2 WA) (proj1 WA) MA). cbn in H. lia. }
  destruct (refine_class_spec nrb ax a values junk nrb' W Ea SL) as (Pr & V & EX & MV & MM); [|exact E|].
  { fold A. intros x Hx. left. destruct (HV x Hx) as [X _]. rewrite a_hi_eq, a_lo_eq in X. exact X. }
  fold A in EX, MV, MM. cbv zeta in EX, MV, MM.
  set (A' := mkAxis _ _ V) in EX. exists nrb', A'. split; auto. split; auto. split; [apply moves_preserves; auto|].
  assert (EG : get_axis nrb' a = A') by (unfold get_axis; rewrite EX; apply nth_lset; auto).
  assert (WA' : wf_ax (spec_ax A')).
  { rewrite <- EG. apply wf_get_axis; [apply Pr|]. rewrite EX, lset_length. auto. }
  assert (D' : a_deg A' = (a_deg A)%Z) by (unfold A', a_deg; cbn [a_len a_size]; lia).
  destruct (dom_ends _ _ a Pr Ha) as [L' H']. rewrite EG in L', H'. fold A in L', H'.
  assert (MM' : forall x, mulA A' x = (mulA A x + countL x values)%Z).
  { intros x. unfold mulA. rewrite D'. rewrite <- MM. f_equal. unfold A'. cbn [a_size]. lia. }
  split; [|repeat split; auto].
  apply (good_of A' (a_lo A) (a_hi A)); auto; intros x Hx; rewrite MM'.
  - rewrite P0 by auto. rewrite C0; [lia|]. intros I. destruct (HV x I). lra.
  - destruct (in_dec Req_EM_T x values) as [I|I]; [destruct (HV x I); lia|]. rewrite C0 by auto. specialize (P1 x Hx). lia.
Qed.
