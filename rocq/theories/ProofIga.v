(** Proofs about the knot vector generator, span enumeration and node lists. *)
From Coq Require Import ZArith Reals QArith List Bool Lia Lra Sorted.
From Verif Require Import Num Loop ModelBspline ModelBSp ModelNurbs ModelIga Spec SumZ BPiece BLink ProofSpan ProofEval ExTac
  SpecNurbs SpecDer BDer ProofCall ProofDers.
Import ListNotations.
Local Open Scope R_scope.
Local Arguments Z.add : simpl never.
Local Arguments Z.sub : simpl never.
Local Arguments Z.of_nat : simpl never.

(** ** KnotVector *)
Lemma KV_inner E p C Ui dU junk : (1 <= E)%Z -> (0 <= C < p)%Z ->
  forall x, (p + 1 <= x < p + 1 + (E - 1) * (p - C))%Z ->
  KnotVector_inner (N:=Rn) E p C Ui dU junk x = Ui + IZR ((x - (p + 1)) / (p - C) + 1) * dU.
Proof.
  intros HE HC. unfold KnotVector_inner.
  floop (fun i (st : (Z -> R) * Z) => snd st = (p + 1 + (i - 1) * (p - C))%Z /\
     forall x, (p + 1 <= x < snd st)%Z -> fst st x = Ui + IZR ((x - (p + 1)) / (p - C) + 1) * dU).
  - split; [simpl; lia|]. simpl. intros; lia.
  - intros i [U k] Hi [Hk HU]. simpl in Hk, HU.
    floop (fun j (st : (Z -> R) * Z) => snd st = (p + 1 + (i - 1) * (p - C) + (j - 1))%Z /\
     forall x, (p + 1 <= x < snd st)%Z -> fst st x = Ui + IZR ((x - (p + 1)) / (p - C) + 1) * dU).
    + split; simpl; auto. lia.
    + clear U k Hk HU. intros j [U k] Hj [Hk HU]. simpl in Hk, HU. simpl. split; [lia|].
      intros x Hx. unfold upd. destruct (Z.eqb_spec x k) as [->|]; [|apply HU; lia].
      rn. do 3 f_equal. rewrite Hk.
      replace (p + 1 + (i - 1) * (p - C) + (j - 1) - (p + 1))%Z with ((j - 1) + (i - 1) * (p - C))%Z by ring.
      rewrite Z.div_add by lia. rewrite Z.div_small by lia. lia.
    + intros [U' k'] [H1 H2]. simpl in *. split; [lia|]. exact H2.
  - intros [U k] [H1 H2] x Hx. simpl in *. apply H2. lia.
Qed.
Lemma KV_ends p m Ui Uf U x : (0 <= p)%Z -> (2 * p + 1 <= m)%Z ->
  KnotVector_ends (N:=Rn) p m Ui Uf U x = if (0 <=? x)%Z && (x <=? p)%Z then Ui else if (m - p <=? x)%Z && (x <=? m)%Z then Uf else U x.
Proof.
  intros Hp Hm. unfold KnotVector_ends.
  floop (fun k (V : Z -> R) => V x = if (0 <=? x)%Z && (x <? k)%Z then Ui else if (m - k <? x)%Z && (x <=? m)%Z then Uf else U x).
  - destruct (Z.leb_spec 0 x), (Z.ltb_spec x 0), (Z.ltb_spec (m - 0) x), (Z.leb_spec x m); simpl; auto; lia.
  - intros k V Hk IH. unfold upd. destruct (Z.eqb_spec x (m - k)); [|destruct (Z.eqb_spec x k)].
    + destruct (Z.leb_spec 0 x), (Z.ltb_spec x (k + 1)), (Z.ltb_spec (m - (k + 1)) x), (Z.leb_spec x m); simpl; auto; lia.
    + destruct (Z.leb_spec 0 x), (Z.ltb_spec x (k + 1)); simpl; auto; lia.
    + rewrite IH. destruct (Z.leb_spec 0 x), (Z.ltb_spec x (k + 1)), (Z.ltb_spec x k), (Z.ltb_spec (m - (k + 1)) x), (Z.ltb_spec (m - k) x), (Z.leb_spec x m); simpl; auto; lia.
  - intros V ->. destruct (Z.leb_spec 0 x), (Z.ltb_spec x (p + 1)), (Z.leb_spec x p), (Z.ltb_spec (m - (p + 1)) x), (Z.leb_spec (m - p) x), (Z.leb_spec x m); simpl; auto; lia.
Qed.
(** Closed form: floor division counts the span the knot begins. *)
Definition kv_idx (p C x : Z) : Z := ((x - (C + 1)) / (p - C))%Z.
Lemma kv_idx_shift p C E x : (C < p)%Z -> kv_idx p C (x + E * (p - C)) = (kv_idx p C x + E)%Z.
Proof.
  intros. unfold kv_idx. replace (x + E * (p - C) - (C + 1))%Z with (x - (C + 1) + E * (p - C))%Z by ring.
  apply Z.div_add. lia.
Qed.
Lemma kv_idx_mono p C x y : (C < p)%Z -> (x <= y)%Z -> (kv_idx p C x <= kv_idx p C y)%Z.
Proof. intros. apply Z.div_le_mono; lia. Qed.
Lemma kv_idx_iff p C x e : (C < p)%Z -> kv_idx p C x = e <-> (C + 1 + e * (p - C) <= x <= p + e * (p - C))%Z.
Proof.
  intros. unfold kv_idx. pose proof (Z.div_mod (x - (C + 1)) (p - C) ltac:(lia)).
  pose proof (Z.mod_pos_bound (x - (C + 1)) (p - C) ltac:(lia)).
  split; [intros <-; nia|]. intros. nia.
Qed.
Lemma KV_closed E p C Ui Uf junk x : (1 <= E)%Z -> (0 <= C < p)%Z ->
  let m := (2 * (p + 1) + (E - 1) * (p - C) - 1)%Z in (0 <= x <= m)%Z ->
  KnotVector_ends (N:=Rn) p m Ui Uf (KnotVector_inner (N:=Rn) E p C Ui ((Uf - Ui) / IZR E) junk) x =
  Ui + IZR (Z.max 0 (Z.min E (kv_idx p C x))) * ((Uf - Ui) / IZR E).
Proof.
  intros HE HC m Hx. rewrite KV_ends by (unfold m; nia).
  assert (HE0 : IZR E <> 0) by (apply IZR_neq; lia).
  destruct (Z.leb_spec 0 x), (Z.leb_spec x p); simpl; try lia.
  - assert (kv_idx p C x <= 0)%Z.
    { transitivity (kv_idx p C p); [apply kv_idx_mono; lia|]. assert (kv_idx p C p = 0)%Z; [|lia]. apply kv_idx_iff; lia. }
    replace (Z.max 0 _) with 0%Z by lia. rn. ring.
  - destruct (Z.leb_spec (m - p) x), (Z.leb_spec x m); simpl; try lia.
    + assert (E <= kv_idx p C x)%Z.
      { transitivity (kv_idx p C (m - p)); [|apply kv_idx_mono; lia].
        assert (kv_idx p C (m - p) = E)%Z; [|lia]. apply kv_idx_iff; try lia. }
      replace (Z.max 0 _) with E by lia. rn. field. auto.
    + rewrite KV_inner by (unfold m in *; lia). do 3 f_equal.
      assert (kv_idx p C x = (x - (p + 1)) / (p - C) + 1)%Z as ->.
      { unfold kv_idx. replace (x - (C + 1))%Z with (x - (p + 1) + 1 * (p - C))%Z by ring. apply Z.div_add. lia. }
      assert (0 <= (x - (p + 1)) / (p - C))%Z by (apply Z.div_pos; lia).
      assert ((x - (p + 1)) / (p - C) < E - 1)%Z by (apply Z.div_lt_upper_bound; unfold m in *; nia). lia.
Qed.
Lemma KV_wrap E p C Ui Uf U : (1 <= E)%Z -> (0 <= C < p)%Z ->
  let m := (2 * (p + 1) + (E - 1) * (p - C) - 1)%Z in
  (forall x, (0 <= x <= m)%Z -> U x = Ui + IZR (Z.max 0 (Z.min E (kv_idx p C x))) * ((Uf - Ui) / IZR E)) ->
  forall x, (0 <= x <= m)%Z -> KnotVector_wrap (N:=Rn) p m C Ui Uf U x = Ui + IZR (kv_idx p C x) * ((Uf - Ui) / IZR E).
Proof.
  intros HE HC m HU. unfold KnotVector_wrap. set (h := (Uf - Ui) / IZR E).
  assert (HE0 : IZR E <> 0) by (apply IZR_neq; lia). assert (Hh : IZR E * h = Uf - Ui) by (unfold h; field; auto).
  assert (Hm : m = (E * (p - C) + C + p + 1)%Z) by (unfold m; ring). clearbody m.
  floop (fun k (V : Z -> R) => forall x, (C - k < x < m - C + k)%Z -> (0 <= x <= m)%Z -> V x = Ui + IZR (kv_idx p C x) * h).
  - intros x H1 H2. rewrite HU by lia. do 3 f_equal.
    assert (0 <= kv_idx p C x)%Z by (apply Z.div_pos; lia).
    assert (kv_idx p C x <= E)%Z by (unfold kv_idx; apply Z.lt_succ_r; apply Z.div_lt_upper_bound; nia). lia.
  - intros k V Hk IH x H1 H2. cbv zeta. rn.
    assert (R1 : V (m - (p + 1) - k)%Z = Ui + IZR (kv_idx p C (m - (p + 1) - k)) * h) by (apply IH; nia).
    assert (R2 : kv_idx p C (m - (p + 1) - k) = (kv_idx p C (C - k) + E)%Z).
    { rewrite <- kv_idx_shift by lia. f_equal. lia. }
    assert (R3 : kv_idx p C (m - C + k) = (kv_idx p C (p + 1 + k) + E)%Z).
    { rewrite <- kv_idx_shift by lia. f_equal. lia. }
    assert (R4 : upd V (C - k)%Z (Ui - Uf + V (m - (p + 1) - k)%Z) (p + 1 + k)%Z = Ui + IZR (kv_idx p C (p + 1 + k)) * h).
    { unfold upd. destruct (Z.eqb_spec (p + 1 + k) (C - k)); [lia|]. apply IH; nia. }
    unfold upd at 1. destruct (Z.eqb_spec x (m - C + k)) as [->|].
    + rewrite R4, R3, plus_IZR. lra.
    + unfold upd. destruct (Z.eqb_spec x (C - k)) as [->|]; [|apply IH; lia].
      rewrite R1, R2, plus_IZR. lra.
  - intros V H x Hx. apply H; lia.
Qed.

(** ** Spans *)
Lemma zseq_snoc c lo : zseq (S c) lo = zseq c lo ++ [(lo + Z.of_nat c)%Z].
Proof.
  revert lo. induction c; intros; [simpl; f_equal; lia|].
  change (zseq (S (S c)) lo) with (lo :: zseq (S c) (lo + 1)). rewrite IHc. simpl. do 3 f_equal. lia.
Qed.
Definition hits (t : Z -> bool) (lo hi : Z) : list Z := filter t (zseq (Z.to_nat (hi + 1 - lo)) lo).
Lemma hits_snoc t lo k : (lo <= k)%Z -> hits t lo k = hits t lo (k - 1) ++ (if t k then [k] else []).
Proof.
  intros. unfold hits. replace (Z.to_nat (k + 1 - lo)) with (S (Z.to_nat (k - 1 + 1 - lo))) by lia.
  rewrite zseq_snoc, filter_app. f_equal. simpl.
  replace (lo + Z.of_nat (Z.to_nat (k - 1 + 1 - lo)))%Z with k by lia. reflexivity.
Qed.
Lemma hits_cons t lo hi : (lo <= hi)%Z -> hits t lo hi = (if t lo then [lo] else []) ++ hits t (lo + 1) hi.
Proof.
  intros. unfold hits. replace (Z.to_nat (hi + 1 - lo)) with (S (Z.to_nat (hi + 1 - (lo + 1)))) by lia.
  simpl. destruct (t lo); reflexivity.
Qed.
Lemma hits_empty t lo hi : (hi < lo)%Z -> hits t lo hi = [].
Proof. intros. unfold hits. replace (Z.to_nat (hi + 1 - lo)) with O by lia. reflexivity. Qed.
Lemma hits_In t lo hi k : In k (hits t lo hi) <-> (lo <= k <= hi)%Z /\ t k = true.
Proof. unfold hits. rewrite filter_In, zseq_In. split; intros [H1 H2]; split; auto; lia. Qed.
Lemma zseq_sorted c : forall lo, StronglySorted Z.lt (zseq c lo).
Proof.
  induction c; intros; simpl; constructor; auto. apply Forall_forall. intros x Hx. apply zseq_In in Hx. lia.
Qed.
Lemma filter_sorted {A} (R : A -> A -> Prop) (t : A -> bool) l : StronglySorted R l -> StronglySorted R (filter t l).
Proof.
  induction 1; simpl; [constructor|]. destruct (t a); auto. constructor; auto.
  apply Forall_forall. intros x Hx. apply filter_In in Hx. rewrite Forall_forall in H0. apply H0. tauto.
Qed.
Lemma hits_sorted t lo hi : StronglySorted Z.lt (hits t lo hi).
Proof. apply filter_sorted, zseq_sorted. Qed.
Lemma hits_ext t t' lo hi : (forall k, (lo <= k <= hi)%Z -> t k = t' k) -> hits t lo hi = hits t' lo hi.
Proof. intros. unfold hits. apply filter_ext_in. intros k Hk. apply zseq_In in Hk. apply H. lia. Qed.

Definition dist_ne (U : Z -> R) (k : Z) : bool := negb (Reqb (U k) (U (k + 1)%Z)).
Definition dist_eps (U : Z -> R) (k : Z) : bool := Rltb eps (Rabs (U k - U (k + 1)%Z)).

Lemma CountSpans_skip n U : forall c i, (Z.to_nat (n - i) <= c)%nat -> (i <= n)%Z -> U n <> U (n + 1)%Z ->
  exists i', CountSpans_inner (N:=Rn) n U i = Some i' /\ (i <= i' <= n)%Z /\
    hits (dist_ne U) i n = i' :: hits (dist_ne U) (i' + 1) n.
Proof.
  unfold CountSpans_inner. induction c; intros i Hc Hi Hl.
  - assert (i = n) by lia. subst i. exists n. replace (Z.to_nat (n + 2 - n)) with 2%nat by lia. cbn [while].
    replace (neqb Rn (U n) (U (n + 1)%Z)) with false by (symmetry; apply Reqb_false; auto).
    rewrite andb_false_r. split; auto. split; [lia|]. rewrite hits_cons by lia.
    unfold dist_ne. rewrite (proj2 (Reqb_false _ _) Hl). reflexivity.
  - replace (Z.to_nat (n + 2 - i)) with (S (Z.to_nat (n + 2 - (i + 1)))) by lia. cbn [while].
    replace (i <=? n)%Z with true by (symmetry; apply Z.leb_le; lia). rewrite andb_true_l.
    rewrite hits_cons by lia. unfold dist_ne at 1. rn. destruct (Reqb (U i) (U (i + 1)%Z)) eqn:Ee.
    + assert (i < n)%Z. { assert (i <> n); [|lia]. intros ->. apply Reqb_true in Ee. auto. }
      destruct (IHc (i + 1)%Z ltac:(lia) ltac:(lia) Hl) as [i' [H1 [H2 H3]]]. exists i'. rn.
      split; [exact H1|]. split; [lia|]. simpl. exact H3.
    + exists i. split; auto. split; [lia|]. reflexivity.
Qed.
Lemma CountSpans_ok n p U : (p <= n)%Z -> U n <> U (n + 1)%Z ->
  CountSpans (N:=Rn) n p U = Some (Z.of_nat (length (hits (dist_ne U) p n))).
Proof.
  intros Hp Hl. unfold CountSpans.
  assert (G : forall fuel i s, (1 <= fuel)%nat -> (Z.to_nat (n + 2 - i) <= fuel)%nat ->
     CountSpans_outer (N:=Rn) fuel n U i s = Some (s + Z.of_nat (length (hits (dist_ne U) i n)))%Z).
  { induction fuel; intros i s H1 H2; [lia|]. cbn [CountSpans_outer].
    destruct (Z.leb_spec i n).
    - destruct (CountSpans_skip n U (Z.to_nat (n - i)) i ltac:(lia) H Hl) as [i' [-> [H4 ->]]].
      rewrite IHfuel by lia. simpl length. f_equal. lia.
    - rewrite hits_empty by lia. simpl. f_equal. lia. }
  rewrite G by lia. reflexivity.
Qed.
Lemma SpanIndex_ok p m U r junk : (p <= m - (p + 1) + 1)%Z ->
  let L := hits (dist_eps U) p (m - (p + 1)) in (Z.of_nat (length L) <= r)%Z ->
  forall j, (j < length L)%nat -> SpanIndex (N:=Rn) p m U r junk (1 + Z.of_nat j) = nth j L 0%Z.
Proof.
  intros Hp L Hr. unfold SpanIndex.
  floop (fun k (st : (Z -> Z) * Z * bool) => let '(Ix, s, stop) := st in
    let Lk := hits (dist_eps U) p (k - 1) in
    s = (1 + Z.of_nat (length Lk))%Z /\ (forall j, (j < length Lk)%nat -> Ix (1 + Z.of_nat j)%Z = nth j Lk 0%Z) /\
    (stop = true -> (r < s)%Z)).
  - rewrite hits_empty by lia. simpl. split; auto. split; [intros; lia|discriminate].
  - intros k [[Ix s] stop] Hk [H1 [H2 H3]]. unfold SpanIndex_body.
    replace (k + 1 - 1)%Z with k by lia. rewrite (hits_snoc _ _ k) by lia.
    assert (Hb : (length (hits (dist_eps U) p (k - 1)) + (if dist_eps U k then 1 else 0) <= length L)%nat).
    { unfold L. unfold hits at 2. replace (Z.to_nat (m - (p + 1) + 1 - p)) with (Z.to_nat (k + 1 - p) + Z.to_nat (m - (p + 1) - k))%nat by lia.
      assert (Q : forall a b lo, zseq (a + b) lo = zseq a lo ++ zseq b (lo + Z.of_nat a)).
      { induction a; intros; simpl; [f_equal; lia|]. rewrite IHa. do 3 f_equal. lia. }
      rewrite Q, filter_app, app_length. change (filter (dist_eps U) (zseq (Z.to_nat (k + 1 - p)) p)) with (hits (dist_eps U) p k).
      rewrite (hits_snoc _ _ k) by lia. rewrite app_length. destruct (dist_eps U k); simpl; lia. }
    rn. change (/ 4503599627370496) with eps. fold (dist_eps U k). destruct stop.
    + destruct (dist_eps U k); simpl.
      * specialize (H3 eq_refl). lia.
      * rewrite app_nil_r. auto.
    + destruct (dist_eps U k); simpl.
      * rewrite app_length. simpl. split; [lia|]. split.
        { intros j Hj. unfold upd. destruct (Z.eqb_spec (1 + Z.of_nat j) s).
          - assert (j = length (hits (dist_eps U) p (k - 1))) as -> by lia. rewrite nth_middle. auto.
          - rewrite app_nth1 by lia. apply H2. lia. }
        { intros E. apply Z.ltb_lt in E. auto. }
      * rewrite app_nil_r. auto.
  - intros [[Ix s] stop] [H1 [H2 H3]] j Hj. replace (m - (p + 1) + 1 - 1)%Z with (m - (p + 1))%Z in H2 by lia. apply H2. auto.
Qed.
(** Adjacent knots of the domain are equal or further apart than machine epsilon. *)
Definition no_tiny_span (U : Z -> R) (lo hi : Z) : Prop :=
  forall k, (lo <= k <= hi)%Z -> U k = U (k + 1)%Z \/ / 4503599627370496 < Rabs (U k - U (k + 1)%Z).
Lemma tests_agree U lo hi : no_tiny_span U lo hi -> hits (dist_ne U) lo hi = hits (dist_eps U) lo hi.
Proof.
  intros H. apply hits_ext. intros k Hk. unfold dist_ne, dist_eps. destruct (H k Hk) as [E|E].
  - rewrite (proj2 (Reqb_true _ _) E). symmetry. apply Rltb_false.
    rewrite E, Rminus_diag_eq, Rabs_R0 by reflexivity. pose proof eps_pos; lra.
  - rewrite (proj2 (Reqb_false _ _)).
    + symmetry. apply Rltb_true. exact E.
    + intros E2. rewrite E2, Rminus_diag_eq, Rabs_R0 in E by reflexivity. pose proof eps_pos. unfold eps in *. lra.
Qed.
Lemma py_SpanIndex_ok junk (A : axis Rn) : (1 <= a_deg A)%Z -> (2 * a_deg A + 1 <= a_len A - 1)%Z ->
  let n := (a_len A - a_deg A - 2)%Z in
  a_knots A n <> a_knots A (n + 1)%Z -> no_tiny_span (a_knots A) (a_deg A) n ->
  py_SpanIndex (N:=Rn) junk A = Ok (hits (dist_ne (a_knots A)) (a_deg A) n).
Proof.
  intros Hp Hm n Hl Ht. unfold py_SpanIndex.
  replace (1 <=? a_deg A)%Z with true by (symmetry; apply Z.leb_le; lia).
  replace (2 * a_deg A + 1 <=? a_len A - 1)%Z with true by (symmetry; apply Z.leb_le; lia). cbn [check bind].
  replace (a_len A - 1 - a_deg A - 1)%Z with n by (unfold n; lia).
  rewrite CountSpans_ok by (auto; lia). f_equal. rewrite Nat2Z.id. set (L := hits _ _ _).
  set (SI := SpanIndex _ _ _ _ _).
  assert (E : forall j, (j < length L)%nat -> SI (1 + Z.of_nat j)%Z = nth j L 0%Z).
  { unfold SI. intros j Hj. rewrite (SpanIndex_ok (a_deg A) (a_len A - 1) (a_knots A)).
    - unfold L. rewrite tests_agree by auto. f_equal. f_equal. unfold n. lia.
    - lia.
    - replace (a_len A - 1 - (a_deg A + 1))%Z with n by (unfold n; lia). unfold L. rewrite tests_agree by auto. lia.
    - replace (a_len A - 1 - (a_deg A + 1))%Z with n by (unfold n; lia). rewrite <- tests_agree by auto. exact Hj. }
  clearbody SI L. 
  assert (G : forall l k, (forall j, (j < length l)%nat -> SI (k + Z.of_nat j)%Z = nth j l 0%Z) -> map SI (zseq (length l) k) = l).
  { clear. induction l; intros k H; simpl; auto. f_equal.
    - specialize (H 0%nat). simpl in H. rewrite Z.add_0_r in H. apply H. lia.
    - apply IHl. intros j Hj. specialize (H (S j)). simpl length in H. replace (k + 1 + Z.of_nat j)%Z with (k + Z.of_nat (S j))%Z by lia.
      rewrite H by lia. reflexivity. }
  apply G. exact E.
Qed.
