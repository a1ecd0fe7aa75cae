(** Breaks, multiplicities, nodes, and the tables of BasisData. *)
From Coq Require Import ZArith Reals List Bool Lia Lra Sorted Permutation.
From Verif Require Import Num Loop ModelBspline ModelBSp ModelNurbs ModelIga Spec SumZ BPiece BLink ProofSpan ProofEval ExTac
  SpecNurbs SpecDer BDer ProofCall ProofMethods2 ProofDers ProofIga ProofGauss.
Import ListNotations.
Local Open Scope R_scope.
Local Arguments Z.add : simpl never.
Local Arguments Z.sub : simpl never.
Local Arguments Z.of_nat : simpl never.

Lemma dedup_ok : forall l, sorted l -> StronglySorted Rlt (dedup (N:=Rn) l) /\ (forall x, In x (dedup (N:=Rn) l) <-> In x l).
Proof.
  induction l as [|x l IH]; intros S; [split; [constructor|tauto]|].
  destruct S as [S1 S2]. destruct (IH S2) as [I1 I2]. destruct l as [|y l]; [simpl; split; [repeat constructor|tauto]|].
  change (dedup (N:=Rn) (x :: y :: l)) with (if Reqb x y then dedup (N:=Rn) (y :: l) else x :: dedup (N:=Rn) (y :: l)).
  destruct (Reqb x y) eqn:E.
  - apply Reqb_true in E. subst y. split; auto. intros z. rewrite I2. simpl. tauto.
  - apply Reqb_false in E. split.
    + constructor; auto. apply Forall_forall. intros z Hz. apply I2 in Hz. 
      assert (x <= y) by (apply S1; left; auto). destruct Hz as [<-|Hz]; [lra|].
      destruct S2 as [S2 _]. specialize (S2 z Hz). lra.
    + intros z. simpl In at 1. rewrite I2. simpl. tauto.
Qed.
Lemma unique_ok l : StronglySorted Rlt (unique (N:=Rn) l) /\ (forall x, In x (unique (N:=Rn) l) <-> In x l).
Proof.
  destruct (dedup_ok (sort (N:=Rn) l) (sort_sorted l)) as [H1 H2]. split; auto. intros x. unfold unique. rewrite H2.
  split; apply Permutation_in; [|apply Permutation_sym]; apply sort_perm.
Qed.
Lemma inner_In (A : axis Rn) x : wf_ax (spec_ax A) ->
  In x (inner_knots A) <-> exists i, (a_deg A <= i <= a_size A)%Z /\ a_knots A i = x.
Proof.
  intros W. destruct (wf_ax_size A W). unfold inner_knots. rewrite in_map_iff. rewrite a_len_eq. split.
  - intros [i [E Hi]]. apply zseq_In in Hi. exists i. split; auto. lia.
  - intros [i [Hi E]]. exists i. split; auto. apply zseq_In. lia.
Qed.
Lemma breaks_ok (A : axis Rn) : wf_ax (spec_ax A) -> let ub := unique (N:=Rn) (inner_knots A) in
  StronglySorted Rlt ub /\ (forall x, In x ub <-> exists i, (a_deg A <= i <= a_size A)%Z /\ a_knots A i = x) /\
  (2 <= length ub)%nat /\ hd 0 ub = a_lo A /\ last ub 0 = a_hi A.
Proof.
  intros W ub. destruct (unique_ok (inner_knots A)) as [H1 H2]. fold ub in H1, H2. split; auto.
  assert (H3 : forall x, In x ub <-> exists i, (a_deg A <= i <= a_size A)%Z /\ a_knots A i = x) by (intros; rewrite H2; apply inner_In; auto).
  split; auto. clear H2. clearbody ub. destruct (wf_ax_size A W) as [Hs Hd]. destruct W as [_ W]. simpl in W.
  pose proof (wf_mono _ _ _ W) as M. pose proof (wf_first _ _ _ W) as F. pose proof (wf_last _ _ _ W) as L. pose proof (wf_n _ _ _ W) as Hn.
  rewrite a_lo_eq, a_hi_eq. replace (a_size A - 1 + 1)%Z with (a_size A) in * by lia.
  set (U := a_knots A) in *. set (p := a_deg A) in *. set (s := a_size A) in *.
  assert (Ilo : In (U p) ub) by (apply H3; exists p; split; auto; lia).
  assert (Ihi : In (U s) ub) by (apply H3; exists s; split; auto; lia).
  assert (Hlt : U p < U s) by (assert (U (p + 1)%Z <= U s) by (apply M; lia); lra).
  assert (Bd : forall x, In x ub -> U p <= x <= U s).
  { intros x Hx. apply H3 in Hx. destruct Hx as [i [Hi <-]]. split; apply M; lia. }
  destruct ub as [|u0 ub]; [destruct Ilo|].
  assert (E0 : u0 = U p).
  { inversion H1 as [|? ? S1 S2]; subst. destruct Ilo as [->|Ilo]; auto. rewrite Forall_forall in S2. specialize (S2 _ Ilo).
    specialize (Bd u0 (or_introl eq_refl)). lra. }
  split. { destruct ub; [|simpl; lia]. destruct Ihi as [E|[]]. lra. }
  split; [exact E0|].
  assert (G : forall l, StronglySorted Rlt l -> In (U s) l -> (forall x, In x l -> x <= U s) -> last l 0 = U s).
  { clear. induction l as [|x l IH]; intros S I B; [destruct I|]. inversion S as [|? ? S1 S2]; subst.
    destruct l as [|y l]; [destruct I as [E|[]]; auto|]. change (last (x :: y :: l) 0) with (last (y :: l) 0).
    apply IH; auto. 
    - destruct I as [E|I]; auto. exfalso. rewrite Forall_forall in S2. specialize (S2 y (or_introl eq_refl)).
      specialize (B y (or_intror (or_introl eq_refl))). lra.
    - intros z Hz. apply B. right; auto. }
  apply G; auto. intros x Hx. apply Bd; auto.
Qed.

(** ** Multiplicities *)
Lemma end_mults (A : axis Rn) : wf_ax (spec_ax A) -> let U := a_knots A in let m := (a_len A - 1)%Z in
  separated U 0 m (a_lo A) -> separated U 0 m (a_hi A) ->
  bsp_FindMult (N:=Rn) (a_deg A) m U (a_lo A) (a_deg A) = Some (multiplicity U 0 m (a_lo A)) /\
  bsp_FindMult (N:=Rn) (a_deg A) m U (a_hi A) (m - a_deg A - 1) = Some (multiplicity U 0 m (a_hi A)).
Proof.
  intros W U m S0 S1. destruct (wf_ax_size A W) as [Hs Hd]. destruct W as [_ W]. simpl in W.
  pose proof (wf_mono _ _ _ W) as M. pose proof (wf_first _ _ _ W) as F. pose proof (wf_last _ _ _ W) as L. pose proof (wf_n _ _ _ W) as Hn.
  fold U in M, F, L. unfold m in *. rewrite a_len_eq in *. rewrite a_lo_eq, a_hi_eq in *. fold U in S0, S1 |- *.
  set (p := a_deg A) in *. set (n := (a_size A - 1)%Z) in *. replace (n + p + 2 - 1)%Z with (n + p + 1)%Z in * by lia.
  unfold bsp_FindMult.
  replace (1 <=? p)%Z with true by (symmetry; apply Z.leb_le; lia).
  replace (2 * p + 1 <=? n + p + 1)%Z with true by (symmetry; apply Z.leb_le; lia). cbn [andb].
  replace (0 <=? p)%Z with true by (symmetry; apply Z.leb_le; lia).
  replace (n + p + 1 - p - 1)%Z with n by lia.
  replace (0 <=? n)%Z with true by (symmetry; apply Z.leb_le; lia).
  split; f_equal; (rewrite FindMult_window; [|lia|]).
  - replace (p - p)%Z with 0%Z by lia. symmetry. destruct (Z.eq_dec (p + p + 1) (n + p + 1)) as [E|E]; [rewrite E; reflexivity|].
    rewrite (multiplicity_split U 0 (p + p + 1) (n + p + 1)) by lia.
    rewrite (multiplicity_none U (p + p + 1 + 1) (n + p + 1)); [lia|].
    intros j Hj. assert (U (p + 1)%Z <= U j) by (apply M; lia). lra.
  - intros j Hj. apply S0. lia.
  - symmetry. destruct (Z.eq_dec (n - p) 0) as [E|E]; [rewrite E; reflexivity|].
    rewrite (multiplicity_split U 0 (n - p - 1) (n + p + 1)) by lia. replace (n - p - 1 + 1)%Z with (n - p)%Z by lia.
    rewrite (multiplicity_none U 0 (n - p - 1)); [lia|].
    intros j Hj. assert (U j <= U n) by (apply M; lia). lra.
  - intros j Hj. apply S1. lia.
Qed.
Lemma inner_mult (A : axis Rn) x : wf_ax (spec_ax A) -> a_lo A < x < a_hi A ->
  count_eq (N:=Rn) x (inner_knots A) = multiplicity (a_knots A) 0 (a_len A - 1) x.
Proof.
  intros W Hx. destruct (wf_ax_size A W) as [Hs Hd]. destruct W as [_ W]. simpl in W.
  pose proof (wf_mono _ _ _ W) as M. pose proof (wf_n _ _ _ W) as Hn. rewrite a_lo_eq, a_hi_eq in Hx.
  rewrite count_eq_L. unfold inner_knots. rewrite countL_map, a_len_eq. set (U := a_knots A) in *. set (p := a_deg A) in *.
  set (n := (a_size A - 1)%Z) in *.
  transitivity (multiplicity U p (n + 1) x). { unfold multiplicity. f_equal. lia. }
  symmetry. replace (n + p + 2 - 1)%Z with (n + p + 1)%Z by lia.
  rewrite (multiplicity_split U 0 (p - 1) (n + p + 1)) by lia. replace (p - 1 + 1)%Z with p by lia.
  rewrite (multiplicity_split U p (n + 1) (n + p + 1)) by lia.
  rewrite (multiplicity_none U 0 (p - 1)), (multiplicity_none U (n + 1 + 1) (n + p + 1)); [lia| |].
  - intros j Hj. assert (U (n + 1)%Z <= U j) by (apply M; lia). lra.
  - intros j Hj. assert (U j <= U p) by (apply M; lia). lra.
Qed.
Lemma lset_length' {B} a (v : B) l : length (lset a v l) = length l.
Proof. revert a. induction l; intros [|k]; simpl; auto. Qed.
Lemma lset_nth {B} (l : list B) : forall a v i d, (i < length l)%nat -> nth i (lset a v l) d = if Nat.eqb i a then v else nth i l d.
Proof.
  induction l as [|x l IH]; intros [|a] v [|i] d Hi; simpl in *; try lia; auto. apply IH. lia.
Qed.
Lemma nth_last {B} (l : list B) d : nth (length l - 1) l d = last l d.
Proof.
  induction l as [|x l IH]; auto. destruct l as [|y l]; auto. change (last (x :: y :: l) d) with (last (y :: l) d). rewrite <- IH.
  simpl. rewrite Nat.sub_0_r. reflexivity.
Qed.
Lemma sorted_nth_lt (l : list R) : StronglySorted Rlt l -> forall i j, (i < j < length l)%nat -> nth i l 0 < nth j l 0.
Proof.
  induction 1 as [|x l S IH F]; intros i j Hij; simpl in *; [lia|]. destruct j; [lia|]. destruct i.
  - rewrite Forall_forall in F. apply F, nth_In. lia.
  - apply IH. lia.
Qed.
Lemma break_mults_ok nrb ax a : wf_nurbs nrb -> py_axis (n_dim nrb) ax = Ok a ->
  let A := get_axis nrb a in wf_ax (spec_ax A) ->
  let U := a_knots A in let m := (a_len A - 1)%Z in
  separated U 0 m (a_lo A) -> separated U 0 m (a_hi A) ->
  exists s, break_mults (N:=Rn) nrb ax = Ok (unique (N:=Rn) (inner_knots A), s) /\ length s = length (unique (N:=Rn) (inner_knots A)) /\
  forall j, (j < length s)%nat -> let x := nth j (unique (N:=Rn) (inner_knots A)) 0 in
    nth j s 0%Z = if Rltb (a_lo A) x && Rltb x (a_hi A) then multiplicity U 0 m x else Z.min (multiplicity U 0 m x) (a_deg A).
Proof.
  intros _ Ea A W U m S0 S1. unfold break_mults. rewrite Ea. cbn [bind]. fold A. cbv zeta. fold U. fold m.
  destruct (breaks_ok A W) as [B1 [B2 [B3 [B4 B5]]]]. set (ub := unique (N:=Rn) (inner_knots A)) in *.
  change (hd (n0 Rn) ub) with (@hd R 0 ub). rewrite B4. destruct (end_mults A W S0 S1) as [E0 E1]. fold U m in E0, E1. rewrite E0. cbn [bind].
  match goal with |- context [bsp_FindMult _ _ _ ?x _] => replace x with (a_hi A) by (symmetry; exact B5) end. rewrite E1. cbn [bind].
  eexists. split; [reflexivity|]. rewrite !lset_length', map_length. split; auto.
  intros j Hj. rewrite !lset_nth by (rewrite ?lset_length', ?map_length; auto).
  destruct (Nat.eqb_spec j (length ub - 1)) as [->|H1]; [|destruct (Nat.eqb_spec j 0) as [->|H2]].
  - rewrite nth_last, B5. rewrite (proj2 (Rltb_false (a_hi A) (a_hi A))) by lra. rewrite andb_false_r. reflexivity.
  - replace (nth 0 ub 0) with (a_lo A) by (rewrite <- B4; destruct ub; reflexivity).
    rewrite (proj2 (Rltb_false (a_lo A) (a_lo A))) by lra. reflexivity.
  - change (@length (T Rn)) with (@length R) in *. assert (L1 : a_lo A < nth j ub 0).
    { replace (a_lo A) with (nth 0 ub 0) by (rewrite <- B4; destruct ub; reflexivity). apply sorted_nth_lt; auto. lia. }
    assert (L2 : nth j ub 0 < a_hi A) by (rewrite <- B5, <- nth_last; apply sorted_nth_lt; auto; change (@length (T Rn)) with (@length R); lia).
    rewrite (proj2 (Rltb_true _ _) L1), (proj2 (Rltb_true _ _) L2). cbn [andb].
    rewrite nth_indep with (d' := count_eq (N:=Rn) 0 (inner_knots A)) by (rewrite map_length; auto).
    rewrite map_nth with (d := 0). apply inner_mult; auto.
Qed.

(** ** Nodes *)
Lemma zseq_nth c : forall lo k d, (k < c)%nat -> nth k (zseq c lo) d = (lo + Z.of_nat k)%Z.
Proof. induction c; intros lo k d Hk; [lia|]. destruct k; simpl; [lia|]. rewrite IHc by lia. lia. Qed.
Lemma zseq_len c : forall lo, length (zseq c lo) = c.
Proof. induction c; intros; simpl; auto. Qed.
Lemma nodes_cons p x u0 u1 ub : nodes (N:=Rn) p x (u0 :: u1 :: ub) =
  (u0 :: map (fun k => u0 + (u1 - u0) * x k) (zseq (Z.to_nat (p - 1)) 1)) ++ nodes (N:=Rn) p x (u1 :: ub).
Proof. reflexivity. Qed.
Lemma last_app_ne {B} (l L : list B) d : L <> [] -> last (l ++ L) d = last L d.
Proof.
  intros H. induction l as [|y l IH]; auto. rewrite <- IH. simpl. destruct (l ++ L) eqn:E; auto. apply app_eq_nil in E. tauto.
Qed.
Lemma nodes_nth (p : Z) x ub : (1 <= p)%Z -> x 0%Z = 0 -> ub <> [] ->
  length (nodes (N:=Rn) p x ub) = (Z.to_nat p * (length ub - 1) + 1)%nat /\
  last (nodes (N:=Rn) p x ub) 0 = last ub 0 /\
  forall j k, (S j < length ub)%nat -> (k < Z.to_nat p)%nat ->
    nth (j * Z.to_nat p + k) (nodes (N:=Rn) p x ub) 0 = nth j ub 0 + (nth (S j) ub 0 - nth j ub 0) * x (Z.of_nat k).
Proof.
  intros Hp Hx. induction ub as [|u0 ub IH]; intros Hne; [congruence|]. destruct ub as [|u1 ub].
  - simpl. split; [lia|]. split; auto. intros; lia.
  - rewrite nodes_cons. destruct IH as [I1 [I2 I3]]; [congruence|].
    assert (Lb : length (u0 :: map (fun k => u0 + (u1 - u0) * x k) (zseq (Z.to_nat (p - 1)) 1)) = Z.to_nat p).
    { simpl length. rewrite map_length, zseq_len. lia. }
    split; [|split].
    + rewrite app_length, Lb, I1. simpl length. rewrite ?Nat.sub_0_r. replace (S (length ub) - 1)%nat with (length ub) by lia. lia.
    + change (last (u0 :: u1 :: ub) 0) with (last (u1 :: ub) 0). rewrite <- I2.
      set (L := nodes (N:=Rn) p x (u1 :: ub)) in *. assert (L <> []) by (intros C; rewrite C in I1; simpl in I1; lia).
      apply last_app_ne; auto.
    + intros j k Hj Hk. destruct j.
      * simpl Nat.mul. rewrite app_nth1 by (rewrite Lb; lia). destruct k.
        { simpl. change (Z.of_nat 0) with 0%Z. rewrite Hx. rewrite Rmult_0_r, Rplus_0_r. reflexivity. }
        simpl nth. rewrite nth_indep with (d' := u0 + (u1 - u0) * x 0%Z) by (rewrite map_length, zseq_len; lia).
        rewrite (map_nth (fun k => u0 + (u1 - u0) * x k)). rewrite zseq_nth by lia. do 3 f_equal. lia.
      * rewrite app_nth2 by (rewrite Lb; nia). rewrite Lb. replace (S j * Z.to_nat p + k - Z.to_nat p)%nat with (j * Z.to_nat p + k)%nat by nia.
        rewrite I3 by (simpl length in *; lia). reflexivity.
Qed.
Lemma nodes_sorted p x ub : (1 <= p)%Z -> x 0%Z = 0 -> (forall k, (0 <= k < p)%Z -> x k < x (k + 1)%Z) -> x p = 1 ->
  StronglySorted Rlt ub -> StronglySorted Rlt (nodes (N:=Rn) p x ub) /\ (forall y, In y (nodes (N:=Rn) p x ub) -> hd 0 ub <= y).
Proof.
  intros Hp X0 Xm X1. 
  assert (Xmono : forall a b, (0 <= a)%Z -> (a < b)%Z -> (b <= p)%Z -> x a < x b).
  { intros a b Ha Hab Hb. replace b with (a + 1 + Z.of_nat (Z.to_nat (b - a - 1)))%Z by lia.
    assert (Hd : (a + 1 + Z.of_nat (Z.to_nat (b - a - 1)) <= p)%Z) by lia. revert Hd.
    generalize (Z.to_nat (b - a - 1)) as d. induction d; intros Hd.
    - replace (a + 1 + Z.of_nat 0)%Z with (a + 1)%Z by lia. apply Xm. lia.
    - replace (a + 1 + Z.of_nat (S d))%Z with (a + 1 + Z.of_nat d + 1)%Z by lia.
      eapply Rlt_trans; [apply IHd; lia|apply Xm; lia]. }
  induction ub as [|u0 ub IH]; intros S; [split; [constructor|intros ? []]|].
  destruct ub as [|u1 ub]. { simpl. split; [repeat constructor|]. intros y [<-|[]]. lra. }
  inversion S as [|? ? S1 S2]; subst. destruct (IH S1) as [I1 I2]. simpl hd in I2.
  assert (Hu : u0 < u1) by (rewrite Forall_forall in S2; apply S2; left; auto).
  rewrite nodes_cons. set (R1 := nodes (N:=Rn) p x (u1 :: ub)) in *.
  assert (G : forall c k, (0 <= k)%Z -> (k + Z.of_nat c <= p)%Z -> let l := map (fun k => u0 + (u1 - u0) * x k) (zseq c k) in
     StronglySorted Rlt (l ++ R1) /\ (forall y, In y (l ++ R1) -> u0 + (u1 - u0) * x k <= y)).
  { induction c; intros k Hk Hc; simpl.
    - split; auto. intros y Hy. specialize (I2 y Hy). assert (x k <= 1). { rewrite <- X1. destruct (Z.eq_dec k p) as [->|]; [lra|]. left. apply Xmono; lia. }
      nra.
    - destruct (IHc (k + 1)%Z ltac:(lia) ltac:(lia)) as [J1 J2].
      assert (x k < x (k + 1)%Z) by (apply Xmono; lia).
      split.
      + constructor; auto. apply Forall_forall. intros y Hy. specialize (J2 y Hy). nra.
      + intros y [<-|Hy]; [lra|]. specialize (J2 y Hy). nra. }
  destruct (G (Z.to_nat (p - 1)) 1%Z ltac:(lia) ltac:(lia)) as [J1 J2].
  assert (H01 : 0 < x 1%Z) by (rewrite <- X0; apply Xmono; lia).
  rewrite <- app_comm_cons. split.
  - apply SSorted_cons; [exact J1|]. apply Forall_forall. intros y Hy. specialize (J2 y Hy). nra.
  - intros y [<-|Hy]; simpl; [lra|]. specialize (J2 y Hy). nra.
Qed.

(** ** BasisData *)
Lemma BasisData_spans_ok p m U junk : (p <= m - (p + 1) + 1)%Z ->
  let L := hits (dist_eps U) p (m - (p + 1)) in
  forall j, (j < length L)%nat -> fst (BasisData_spans (N:=Rn) junk p m U) (1 + Z.of_nat j)%Z = (nth j L 0 - p)%Z.
Proof.
  intros Hp L. unfold BasisData_spans.
  floop (fun k (st : (Z -> Z) * Z) => let Lk := hits (dist_eps U) p (k - 1) in
    snd st = (1 + Z.of_nat (length Lk))%Z /\ (forall j, (j < length Lk)%nat -> fst st (1 + Z.of_nat j)%Z = (nth j Lk 0 - p)%Z)).
  - rewrite hits_empty by lia. simpl. split; auto. intros; lia.
  - intros k [Ix s] Hk [H1 H2]. simpl in H1, H2. replace (k + 1 - 1)%Z with k by lia. rewrite (hits_snoc _ _ k) by lia.
    rn. change (/ 4503599627370496) with eps. fold (dist_eps U k). destruct (dist_eps U k); simpl.
    + rewrite app_length. simpl. split; [lia|]. intros j Hj. unfold upd. destruct (Z.eqb_spec (1 + Z.of_nat j) s).
      * assert (j = length (hits (dist_eps U) p (k - 1))) as -> by lia. rewrite nth_middle. auto.
      * rewrite app_nth1 by lia. apply H2. lia.
    + rewrite app_nil_r. auto.
  - intros [Ix s] [H1 H2] j Hj. simpl in *. replace (m - (p + 1) + 1 - 1)%Z with (m - (p + 1))%Z in H2 by lia. apply H2. auto.
Qed.
