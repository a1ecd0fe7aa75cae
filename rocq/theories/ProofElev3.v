(** Degree elevation: the main loop. *)
From Coq Require Import ZArith Reals List Lia Lra Permutation Bool.
From Verif Require Import Num Loop Spec SpecElev SumZ BPiece BLink ModelNurbs ModelBspline Blossom ProofElev1 ProofElev2 ProofIga.
Import ListNotations.
Local Open Scope R_scope.
Local Arguments Z.add : simpl never.
Local Arguments Z.sub : simpl never.
Local Arguments Z.of_nat : simpl never.
Local Arguments Z.mul : simpl never.
Local Arguments Z.div : simpl never.

(** New index of the last knot of a break: old index plus t for every break up to it. *)
Definition cnt (p : Z) (U : Z -> R) (k : Z) : Z := Z.of_nat (length (hits (dist_ne U) p k)).
Definition kh (p t : Z) (U : Z -> R) (k : Z) : Z := (k + t * cnt p U k)%Z.

Section Main.
Variables (n p t : Z) (U P : Z -> R).
Hypothesis W : wf_knots n p U.
Hypothesis Hp : (1 <= p)%Z.
Hypothesis Ht : (1 <= t)%Z.
Hypothesis Hclo : forall j, (0 <= j <= p)%Z -> U j = U p.
Hypothesis Hchi : forall j, (n + 1 <= j <= n + p + 1)%Z -> U j = U (n + 1)%Z.
Hypothesis Hmul : mult_le n p U.
Hypothesis Heps : no_tiny_span U p n.
Hypothesis Hg : elev_guard n p t U.
Let ph := (p + t)%Z.
Let m := (n + p + 1)%Z.
Notation sp := (sp n p U).
Notation nx := (nx n p U).
Notation kh := (kh p t U).
Notation cnt := (cnt p U).

Lemma cnt_step k : (p <= k)%Z -> cnt k = (cnt (k - 1) + (if dist_ne U k then 1 else 0))%Z.
Proof. intros. unfold ProofElev3.cnt. rewrite hits_snoc, app_length by lia. destruct (dist_ne U k); simpl; lia. Qed.
Lemma dist_sp k : (p <= k <= n)%Z -> dist_ne U k = true <-> U k < U (k + 1)%Z.
Proof.
  intros Hk. unfold dist_ne. assert (U k <= U (k + 1)%Z) by (apply (wf_mono _ _ _ W); lia).
  destruct (Reqb (U k) (U (k + 1)%Z)) eqn:E; simpl.
  - apply Reqb_true in E. split; [discriminate|lra].
  - apply Reqb_false in E. split; auto. lra.
Qed.
Lemma cnt_mono s a : (p <= s <= a)%Z -> (cnt s <= cnt a)%Z.
Proof.
  intros H. replace a with (s + Z.of_nat (Z.to_nat (a - s)))%Z by lia. induction (Z.to_nat (a - s)) as [|d IH].
  - replace (s + Z.of_nat 0)%Z with s by lia. lia.
  - rewrite (cnt_step (s + Z.of_nat (S d))) by lia. replace (s + Z.of_nat (S d) - 1)%Z with (s + Z.of_nat d)%Z by lia.
    destruct (dist_ne U _); lia.
Qed.
Lemma kh_mono s a : (p <= s <= a)%Z -> (kh s <= kh a)%Z.
Proof. intros H. unfold ProofElev3.kh. pose proof (cnt_mono s a H). nia. Qed.
Lemma sp_p : sp p.
Proof. split; [pose proof (wf_n _ _ _ W); lia|apply (wf_first _ _ _ W)]. Qed.
Lemma sp_n : sp n.
Proof. split; [pose proof (wf_n _ _ _ W); lia|apply (wf_last _ _ _ W)]. Qed.
Lemma kh_p : kh p = ph.
Proof.
  unfold ProofElev3.kh. rewrite cnt_step by lia. rewrite (proj2 (dist_sp p ltac:(pose proof (wf_n _ _ _ W); lia))) by apply sp_p.
  unfold ProofElev3.cnt. rewrite hits_empty by lia. simpl. unfold ph. lia.
Qed.
Lemma nx_empty k k' j : nx k k' -> (k < j < k')%Z -> U j = U (j + 1)%Z.
Proof. intros (_ & _ & _ & H) Hj. rewrite (H j), (H (j + 1)%Z) by lia. reflexivity. Qed.
Lemma kh_nx k k' : nx k k' -> (kh k' = kh k + (k' - k) + t)%Z.
Proof.
  intros N. pose proof N as ([Hk Hlt] & [Hk' Hlt'] & L & E). unfold ProofElev3.kh.
  assert (G : cnt k' = (cnt k + 1)%Z); [|rewrite G; nia].
  rewrite cnt_step by lia. rewrite (proj2 (dist_sp k' Hk') Hlt').
  assert (G : forall d, (k + Z.of_nat d < k')%Z -> cnt (k + Z.of_nat d) = cnt k).
  { induction d; intros Hd; [f_equal; lia|]. rewrite cnt_step by lia.
    destruct (dist_ne U (k + Z.of_nat (S d))%Z) eqn:D.
    - apply dist_sp in D; [|lia]. rewrite (nx_empty k k') in D by (auto; lia). lra.
    - rewrite Z.add_0_r. rewrite <- IHd by lia. f_equal. lia. }
  rewrite <- (G (Z.to_nat (k' - 1 - k))) by lia. do 2 f_equal. lia.
Qed.
Lemma sp_ok k : sp k -> span_ok U k (Z.to_nat p).
Proof. intros [H1 H2]. apply (wf_span_ok n p); auto. Qed.
Lemma nx_le k k' s : nx k k' -> sp s -> (k < s)%Z -> (k' <= s)%Z.
Proof.
  intros N [Hs Hlt] L. destruct (Z.le_gt_cases k' s); auto. rewrite (nx_empty k k' s) in Hlt by (auto; lia). lra.
Qed.
Lemma nx_mul k k' : nx k k' -> (1 <= k' - k <= p)%Z.
Proof.
  intros ([Hk _] & [Hk' _] & L & E). split; [lia|]. destruct (Z.le_gt_cases (k' - k) p); auto.
  pose proof (Hmul (k + 1)%Z ltac:(lia)) as M. rewrite (E (k + 1)%Z), (E (k + 1 + p)%Z) in M by lia. lra.
Qed.
Lemma nx_lt k k' : nx k k' -> U k < U k'.
Proof. intros ([Hk Hlt] & [Hk' _] & L & E). rewrite (E (k + 1)%Z) in Hlt by lia. auto. Qed.
Lemma sp_next k : sp k -> (k < n)%Z -> exists k', nx k k'.
Proof.
  intros S Hk. pose proof S as [Hk0 _]. destruct (next_span n p U k W) as (k' & H1 & H2 & H3); [lia|].
  exists k'. split; [auto|]. split; [split; [lia|auto]|]. split; [lia|]. intros j Hj. rewrite (H3 j), (H3 k') by lia. reflexivity.
Qed.
Lemma sp_prev a : sp a -> (p < a)%Z -> exists k, nx k a.
Proof.
  intros S Ha. pose proof S as [Ha0 _].
  assert (G : forall d, (Z.of_nat d < a - p)%Z -> (forall j, (a - Z.of_nat d <= j <= a)%Z -> U j = U a) -> exists k, nx k a).
  { intros d0 H0. remember (Z.to_nat (a - p - 1 - Z.of_nat d0)) as c eqn:Ec. revert d0 H0 Ec.
    induction c; intros d Hd Ec E.
    - exists p. split; [apply sp_p|]. split; auto. split; [lia|]. intros j Hj. apply E. lia.
    - set (k := (a - Z.of_nat d - 1)%Z). destruct (Rlt_dec (U k) (U (k + 1)%Z)) as [L|L].
      + exists k. split; [split; [lia|auto]|]. split; auto. split; [lia|]. intros j Hj. apply E. lia.
      + apply (IHc (Datatypes.S d)); [lia|lia|]. intros j Hj. destruct (Z.eq_dec j k) as [->|]; [|apply E; lia].
        assert (U k <= U (k + 1)%Z) by (apply (wf_mono _ _ _ W); lia). rewrite <- (E (k + 1)%Z) by lia. lra. }
  apply (G O); [lia|]. intros j Hj. f_equal. lia.
Qed.

(** ** Polar forms of the pieces and their elevation *)
Definition fk (k : Z) (l : list R) : R := dB U (Z.of_nat (Z.to_nat p)) P l k.
Definition Fk (k : Z) (l : list R) : R := elev (fk k) (Z.to_nat p) l.
Lemma fk_polar k : sp k -> polar (Z.to_nat p) (fk k).
Proof. intros S. apply dB_polar, sp_ok, S. Qed.
Lemma Fk_polar k : sp k -> polar (Z.to_nat ph) (Fk k).
Proof. intros S. replace (Z.to_nat ph) with (Z.to_nat p + Z.to_nat t)%nat by lia. apply elev_polar, fk_polar, S. Qed.
Lemma fk_agree k k' l : nx k k' -> Z.of_nat (length l) = (p - (k' - k))%Z ->
  fk k (rp (U k') (k' - k) ++ l) = fk k' (rp (U k') (k' - k) ++ l).
Proof.
  intros N Hl. pose proof (nx_mul _ _ N). destruct N as (S & S' & L & E). unfold fk, rp. apply dB_agree; try lia.
  - apply sp_ok, S.
  - apply sp_ok, S'.
  - auto.
Qed.
Lemma Fk_agree k k' l : nx k k' -> Z.of_nat (length l) = (p - (k' - k))%Z ->
  Fk k (rp (U k') (k' - k + t) ++ l) = Fk k' (rp (U k') (k' - k + t) ++ l).
Proof.
  intros N Hl. pose proof (nx_mul _ _ N). unfold Fk, elev. f_equal. unfold rp. apply (ssum_agree _ _ _ (Z.to_nat (k' - k))); [lia|].
  intros s Hs. apply fk_agree; auto. lia.
Qed.
Lemma Fk_agree_perm k k' l l' : nx k k' -> Permutation l (rp (U k') (k' - k + t) ++ l') -> Z.of_nat (length l) = ph -> Fk k l = Fk k' l.
Proof.
  intros N HP Hl. pose proof N as (S & S' & L & E). pose proof (nx_mul _ _ N).
  pose proof (Permutation_length HP) as HL. rewrite app_length, rp_length in HL.
  assert (Hl2 : length l = Z.to_nat ph) by lia.
  rewrite (pl_perm _ _ (Fk_polar k S) _ _ Hl2 HP), (pl_perm _ _ (Fk_polar k' S') _ _ Hl2 HP).
  apply Fk_agree; auto. unfold ph in *. lia.
Qed.

(** A knot vector filled up to the block of break a. *)
Definition blocks (a : Z) (V : Z -> R) : Prop :=
  (forall j, (0 <= j <= ph)%Z -> V j = U p) /\ (forall s s', nx s s' -> (s' <= a)%Z -> forall j, (kh s < j <= kh s')%Z -> V j = U s').
Lemma blocks_mono a V : sp a -> blocks a V -> (forall i j, (0 <= i <= j)%Z -> (j <= kh a)%Z -> V i <= V j) /\ V (kh a) = U a.
Proof.
  intros S0 [B0 B1].
  assert (G : forall d a', (Z.to_nat (a' - p) <= d)%nat -> sp a' -> (a' <= a)%Z -> (forall i j, (0 <= i <= j)%Z -> (j <= kh a')%Z -> V i <= V j) /\ V (kh a') = U a').
  { induction d; intros a' Hd S L.
    - pose proof S as [Ha' _]. assert (a' = p) as -> by lia. rewrite kh_p. split.
      + intros. rewrite !B0 by lia. lra.
      + apply B0. unfold ph. lia.
    - destruct (Z.eq_dec a' p) as [->|Hne]; [apply IHd; auto; lia|]. pose proof S as [Ha' _].
      destruct (sp_prev a' S) as [k N]; [lia|]. pose proof N as (Sk & _ & Lk & _).
      destruct (IHd k) as [M E]; [lia|auto|lia|]. pose proof (kh_nx _ _ N). pose proof (nx_lt _ _ N). pose proof (kh_mono p k ltac:(destruct Sk; lia)). rewrite kh_p in *. split.
      + intros i j Hi Hj. destruct (Z.le_gt_cases j (kh k)); [apply M; auto|]. rewrite (B1 k a' N L j) by lia.
        destruct (Z.le_gt_cases i (kh k)).
        * assert (V i <= V (kh k)) by (apply M; unfold ph in *; lia). lra.
        * rewrite (B1 k a' N L i) by lia. lra.
      + apply (B1 k a' N L). lia. }
  apply (G (Z.to_nat (a - p))); auto. lia.
Qed.
Lemma Fk_chain a V : sp a -> blocks a V -> forall s i, sp s -> (s <= a)%Z -> (i <= kh s)%Z -> (kh a <= i + ph)%Z ->
  Fk s (wz V i ph) = Fk a (wz V i ph).
Proof.
  intros Sa [_ Bl]. intros s i Ss. remember (Z.to_nat (a - s)) as d eqn:Ed. revert s Ss Ed. induction d as [d IH] using lt_wf_ind.
  intros s Ss Ed Hs Hi Hi'. destruct (Z.eq_dec s a) as [->|Hne]; auto.
  destruct (sp_next s Ss) as [s' N]; [destruct Sa; lia|]. pose proof (nx_le _ _ a N Sa ltac:(lia)) as Hle. pose proof (kh_nx _ _ N).
  pose proof N as (_ & Ss' & L & _). pose proof (kh_mono s' a ltac:(destruct Ss'; lia)). pose proof (nx_mul _ _ N).
  rewrite <- (IH (Z.to_nat (a - s')) ltac:(lia) s'); auto; try lia.
  apply (Fk_agree_perm s s' _ (wz V i (kh s - i) ++ wz V (kh s') (i + ph - kh s')) N); [|rewrite wz_length; unfold ph; lia].
  replace ph with ((kh s - i) + ((s' - s + t) + (i + ph - kh s')))%Z at 1 by lia. rewrite (wz_app V i), (wz_app V (i + (kh s - i)) (s' - s + t)) by lia.
  replace (i + (kh s - i))%Z with (kh s) by lia. replace (kh s + (s' - s + t))%Z with (kh s') by lia.
  rewrite (wz_const V (kh s) (s' - s + t) (U s')) by (intros j Hj; apply (Bl s s' N Hle); lia).
  rewrite !app_assoc. apply Permutation_app_tail, Permutation_app_comm.
Qed.

(** ** State after the round of span a *)
Definition Uv (a : Z) (Uh : Z -> R) (ub : R) (j : Z) : R := if (j <=? kh a)%Z then Uh j else ub.
Definition Post (a kind cind r : Z) (Uh Q : Z -> R) (ub : R) : Prop :=
  kind = (kh a + 1)%Z /\ cind = (kind - (r + 1) / 2)%Z /\ blocks a Uh /\
  (forall s, sp s -> (s <= a)%Z -> forall i, (kh s - ph <= i <= kh s)%Z -> (i < cind)%Z -> Q i = Fk s (wz (Uv a Uh ub) i ph)).
Lemma blocks_Uv a Uh ub : sp a -> blocks a Uh -> blocks a (Uv a Uh ub).
Proof.
  intros Sa [B0 B1]. pose proof (kh_mono p a ltac:(destruct Sa; lia)). rewrite kh_p in *. split.
  - intros j Hj. unfold Uv. destruct (Z.leb_spec j (kh a)); [|lia]. apply B0; auto.
  - intros s s' N L j Hj. pose proof N as (_ & [Hs' _] & _ & _). pose proof (kh_mono s' a ltac:(lia)).
    unfold Uv. destruct (Z.leb_spec j (kh a)); [|lia]. apply (B1 s s'); auto.
Qed.

Lemma half x : (-1 <= x)%Z -> (2 * ((x + 1) / 2) <= x + 1 < 2 * ((x + 1) / 2) + 2)%Z.
Proof. intros. pose proof (Z.div_mod (x + 1) 2 ltac:(lia)). pose proof (Z.mod_pos_bound (x + 1) 2). lia. Qed.

(** Removal phase, all cases. *)
Lemma remove_all F K oldr Uh ua ub Q0 e0 : polar (Z.to_nat ph) F -> (0 <= oldr <= ph - 2)%Z -> (ph + 1 <= K)%Z -> ua < ub ->
  (forall j, (K - oldr <= j <= K - 1)%Z -> Uh j < ua) ->
  (forall k, (0 <= k)%Z -> (k <= ph - oldr - 2)%Z -> (k <= (oldr + 1) / 2 - 2)%Z -> Uh (K - 1 - k)%Z = Uh (K - 1)%Z) ->
  (forall x, ((oldr + 1) / 2 <= x <= oldr)%Z -> Q0 (K - 1 - x)%Z = F (wz Uh (K - 1 - x) x ++ rp ua (ph - x))) ->
  (forall y, ((oldr + 2) / 2 <= y <= ph)%Z -> e0 y = F (rp ua (ph - y) ++ rp ub y)) ->
  let '(Q, e) := Elev_remove (N:=Rn) K ph (K - (oldr + 1) / 2) ((oldr + 2) / 2) oldr Uh ua ub Q0 e0 in
  (forall x, ((oldr + 1) / 2 <= x <= oldr)%Z -> Q (K - 1 - x)%Z = F (wz Uh (K - 1 - x) x ++ rp ua (ph - oldr) ++ rp ub (oldr - x))) /\
  (forall i, (i <= K - 1 - oldr)%Z -> Q i = Q0 i) /\
  (forall y, ((oldr + 2) / 2 <= y <= oldr)%Z -> e y = F (wz Uh (K - 1 - (oldr - y)) (oldr - y) ++ rp ua (ph - oldr) ++ rp ub y)) /\
  (forall y, ((oldr + 2) / 2 <= y)%Z -> (oldr <= y <= ph)%Z -> e y = F (rp ua (ph - y) ++ rp ub y)).
Proof.
  intros HF Hr HK Hlt Hl Hb HQ He. destruct (Z.le_gt_cases oldr 1) as [H1|H1].
  - unfold Elev_remove. destruct (Z.ltb_spec 1 oldr); [lia|].
    assert (Ho : oldr = 0%Z \/ oldr = 1%Z) by lia. destruct Ho as [-> | ->].
    + change ((0 + 1) / 2)%Z with 0%Z in *. change ((0 + 2) / 2)%Z with 1%Z in *. repeat split; auto; try lia.
      * intros x Hx. rewrite HQ by auto. replace x with 0%Z by lia. rewrite (rp_0 ub), app_nil_r by lia. reflexivity.
      * intros y Hy Hy2. apply He. lia.
    + change ((1 + 1) / 2)%Z with 1%Z in *. change ((1 + 2) / 2)%Z with 1%Z in *. repeat split; auto; try lia.
      * intros x Hx. rewrite HQ by auto. replace x with 1%Z by lia. rewrite (rp_0 ub (1 - 1)), app_nil_r by lia. reflexivity.
      * intros y Hy. rewrite He by lia. replace y with 1%Z by lia. rewrite (wz_0 _ _ (1 - 1)) by lia. reflexivity.
  - pose proof (Elev_remove_ok F ph K oldr Uh ua ub HF ltac:(lia) HK Hlt Hl Hb Q0 e0 HQ He) as G.
    destruct (Elev_remove _ _ _ _ _ _ _ _ _ _) as [Q e]. destruct G as (G1 & G2 & G3 & G4). repeat split; auto.
Qed.

(** The inner search for the next break. *)
Lemma adv_ok a : sp a -> exists b, Elev_adv (N:=Rn) m U (a + 1) = b /\ (a < b <= m)%Z /\ (forall j, (a < j <= b)%Z -> U j = U b) /\
  ((a < n)%Z /\ nx a b /\ (b <= n)%Z \/ a = n /\ b = m).
Proof.
  intros S. pose proof S as [Ha Hlt]. pose proof (wf_p _ _ _ W). pose proof (wf_n _ _ _ W).
  unfold Elev_adv, whileD. rn.
  set (c := fun b => ((b <? m)%Z && negb (Rltb (/ 4503599627370496) (nabs Rn (U b - U (b + 1)%Z))))%bool).
  assert (Hc : forall b, (a < b)%Z -> c b = true <-> (b < m)%Z /\ U b = U (b + 1)%Z).
  { intros b Hb. unfold c. rewrite nabs_R. destruct (Z.ltb_spec b m); simpl; [|split; [discriminate|lia]].
    rewrite negb_true_iff. split.
    - intros E. split; auto. apply Rltb_false in E. destruct (Z.le_gt_cases b n).
      + destruct (Heps b ltac:(lia)) as [|L]; auto. change eps with (/ 4503599627370496) in *. lra.
      + rewrite (Hchi b), (Hchi (b + 1)%Z) by (unfold m in *; lia). reflexivity.
    - intros [_ E]. apply Rltb_false. rewrite E, Rminus_diag_eq, Rabs_R0 by reflexivity. pose proof eps_pos. unfold eps in *. lra. }
  destruct (while_total (fun b => (a < b <= m)%Z /\ forall j, (a < j <= b)%Z -> U j = U b) (fun b => Z.to_nat (m - b)) c (fun b => b + 1)%Z)
    with (fuel := Datatypes.S (Z.to_nat (m - (a + 1)))) (s := (a + 1)%Z) as (b & E & (Hb & Hj) & C).
  - intros b [Hb Hj] C. apply Hc in C; [|lia]. destruct C as [C1 C2]. split; [split; [lia|]|lia].
    intros j Hjj. destruct (Z.eq_dec j (b + 1)) as [->|]; auto. rewrite <- C2. apply Hj. lia.
  - split; [unfold m; lia|]. intros j Hj. f_equal. lia.
  - lia.
  - rewrite E. exists b. split; auto. split; auto. split; auto.
    destruct (Z.le_gt_cases b n) as [Hbn|Hbn].
    + left. assert (Hne : U b <> U (b + 1)%Z). { intros Eq. rewrite (proj2 (Hc b ltac:(lia))) in C; [discriminate|]. split; auto. unfold m. lia. }
      assert (U b <= U (b + 1)%Z) by (apply (wf_mono _ _ _ W); lia).
      split; [lia|]. split; auto. split; auto. split; [split; [lia|lra]|]. split; [lia|auto].
    + right. assert (a = n).
      { destruct (Z.eq_dec a n); auto. pose proof (wf_last _ _ _ W) as L. rewrite (Hj n), (Hj (n + 1)%Z) in L by lia. lra. }
      split; auto. destruct (Z.eq_dec b m); auto. rewrite (proj2 (Hc b ltac:(lia))) in C; [discriminate|]. split; [lia|].
      rewrite (Hchi b), (Hchi (b + 1)%Z) by (unfold m in *; lia). reflexivity.
Qed.

(** Repeating the last knot and storing the control values. *)
Lemma fill_knots c ua Uh K : (0 <= c)%Z ->
  exists Uh', for_up 0 (c - 1) (fun _ (s : (Z -> Rn) * Z) => let '(Uh, kind) := s in (upd Uh kind ua, (kind + 1)%Z)) (Uh, K) = (Uh', (K + c)%Z) /\
    (forall j, (K <= j < K + c)%Z -> Uh' j = ua) /\ (forall j, (j < K \/ K + c <= j)%Z -> Uh' j = Uh j).
Proof.
  intros Hc.
  floop (fun i (s : (Z -> R) * Z) => snd s = (K + i)%Z /\ (forall j, (K <= j < K + i)%Z -> fst s j = ua) /\ (forall j, (j < K \/ K + i <= j)%Z -> fst s j = Uh j)).
  - simpl. repeat split; try lia; auto.
  - intros i [V k] Hi (H1 & H2 & H3). simpl in *. subst k. repeat split; try lia.
    + intros j Hj. destruct (Z.eq_dec j (K + i)) as [->|]; [apply upd_same|]. rewrite upd_diff by lia. apply H2. lia.
    + intros j Hj. rewrite upd_diff by lia. apply H3. lia.
  - intros [V k] (H1 & H2 & H3). simpl in *. replace (c - 1 + 1)%Z with c in * by lia. exists V. subst k. auto.
Qed.
Lemma store lo hi (e : Z -> R) Q ci : (lo <= hi + 1)%Z ->
  exists Q', for_up lo hi (fun j (s : (Z -> Rn) * Z) => let '(Qw, cind) := s in (upd Qw cind (e j), (cind + 1)%Z)) (Q, ci) = (Q', (ci + hi + 1 - lo)%Z) /\
    (forall j, (lo <= j <= hi)%Z -> Q' (ci + j - lo)%Z = e j) /\ (forall i, (i < ci)%Z -> Q' i = Q i).
Proof.
  intros Hc.
  floop (fun i (s : (Z -> R) * Z) => snd s = (ci + i - lo)%Z /\ (forall j, (lo <= j < i)%Z -> fst s (ci + j - lo)%Z = e j) /\ (forall i, (i < ci)%Z -> fst s i = Q i)).
  - simpl. repeat split; try lia; auto.
  - intros i [V k] Hi (H1 & H2 & H3). simpl in *. subst k. repeat split; try lia.
    + intros j Hj. destruct (Z.eq_dec j i) as [->|]; [apply upd_same|]. rewrite upd_diff by lia. apply H2. lia.
    + intros j Hj. rewrite upd_diff by lia. apply H3. lia.
  - intros [V k] (H1 & H2 & H3). simpl in *. exists V. subst k. split; [f_equal; lia|]. split; auto. intros j Hj. apply H2. lia.
Qed.

(** At the start of the round of span a. *)
Definition Pre (a kind cind r : Z) (Uh Q : Z -> R) : Prop :=
  a = p /\ kind = (ph + 1)%Z /\ cind = 1%Z /\ r = (-1)%Z /\ (forall j, (0 <= j <= ph)%Z -> Uh j = U p) /\ Q 0%Z = P 0%Z \/
  exists s, nx s a /\ r = (p - (a - s))%Z /\ Post s kind cind r Uh Q (U a).

(** Knot insertion inside [blocks]: the window at i splits at the blocks. *)
Lemma wz_Uv a Uh ub i x : (i = kh a - x)%Z -> (0 <= x <= ph)%Z -> wz (Uv a Uh ub) i ph = wz Uh (kh a - x) x ++ rp ub (ph - x).
Proof.
  intros -> Hx. replace ph with (x + (ph - x))%Z at 1 by lia. rewrite wz_app by lia. f_equal.
  - apply wz_ext. intros j Hj. unfold Uv. destruct (Z.leb_spec j (kh a)); [auto|lia].
  - apply wz_const. intros j Hj. unfold Uv. destruct (Z.leb_spec j (kh a)); [lia|auto].
Qed.

Lemma fk_win k i : sp k -> (k - p <= i <= k)%Z -> fk k (wz U i p) = P i.
Proof. intros S Hi. unfold fk, wz. apply dB_win; [apply sp_ok, S|lia]. Qed.

Section Round.
Variables (a b r oldr K ci : Z) (Uh Q e0 : Z -> R).
Hypothesis Sa : sp a.
Hypothesis Hb : (a < b)%Z.
Hypothesis Er : r = (p - (b - a))%Z.
Hypothesis Hr : (-1 <= r)%Z.
Hypothesis Hlt : U a < U b.
Let lbz := (if 0 <? oldr then (oldr + 2) / 2 else 1)%Z.
Let rbz := (if 0 <? r then ph - (r + 1) / 2 else ph)%Z.
Hypothesis He0 : forall y, (lbz <= y <= ph)%Z -> e0 y = Fk a (rp (U a) (ph - y) ++ rp (U b) y).
Hypothesis HPre : Pre a K ci oldr Uh Q.

Lemma rbz_eq : rbz = (ph - (r + 1) / 2)%Z.
Proof.
  unfold rbz. destruct (Z.ltb_spec 0 r); auto. assert (H1 : r = 0%Z \/ r = (-1)%Z) by lia. destruct H1 as [-> | ->].
  - change ((0 + 1) / 2)%Z with 0%Z. lia.
  - change ((-1 + 1) / 2)%Z with 0%Z. lia.
Qed.

Lemma round_core :
  let '(Q1, e1) := Elev_remove (N:=Rn) K ph ci lbz oldr Uh (U a) (U b) Q e0 in
  let '(Uh', K') := (if (a =? p)%Z then (Uh, K)
    else for_up 0 (ph - oldr - 1) (fun _ (s : (Z -> Rn) * Z) => let '(Uh, kind) := s in (upd Uh kind (U a), (kind + 1)%Z)) (Uh, K)) in
  let '(Q2, ci') := for_up lbz rbz (fun j (s : (Z -> Rn) * Z) => let '(Qw, cind) := s in (upd Qw cind (e1 j), (cind + 1)%Z)) (Q1, ci) in
  Post a K' ci' r Uh' Q2 (U b).
Proof.
  pose proof (half r Hr) as Hh. pose proof rbz_eq as Erb. pose proof Sa as [Ha _].
  destruct HPre as [(-> & -> & -> & Eo & HU & HQ)|(s & N & Eo & HPost)].
  - (* first span *)
    assert (El : lbz = 1%Z) by (unfold lbz; rewrite Eo; reflexivity).
    unfold Elev_remove. destruct (Z.ltb_spec 1 oldr); [lia|]. rewrite Z.eqb_refl.
    destruct (store lbz rbz e0 Q 1) as (Q2 & E & HQ2 & HQ2l); [unfold ph in *; lia|].
    match goal with |- context [for_up lbz rbz ?f ?x] => replace (for_up lbz rbz f x) with (Q2, (1 + rbz + 1 - lbz)%Z) by (symmetry; exact E) end. clear E. rewrite El in *.
    split; [rewrite kh_p; reflexivity|]. split; [lia|]. split.
    { split; auto. intros s s' (Ss & Ss' & L & _) L2. destruct Ss; lia. }
    intros s Ss Hs i Hi Hi'. assert (s = p) as -> by (destruct Ss; lia). rewrite kh_p in Hi.
    rewrite (wz_Uv p Uh (U b) i (ph - i)) by (try rewrite kh_p; lia). rewrite kh_p.
    replace (ph - (ph - i))%Z with i by lia.
    rewrite (wz_const Uh i (ph - i) (U p)) by (intros; apply HU; lia).
    destruct (Z.eq_dec i 0) as [->|Hne].
    + rewrite HQ2l, HQ by lia. rewrite (rp_0 (U b)), app_nil_r by lia. rewrite Z.sub_0_r. unfold Fk, rp.
      replace (Z.to_nat ph) with (Z.to_nat p + Z.to_nat t)%nat by (unfold ph; lia). rewrite elev_diag.
      change (repeat (U p) (Z.to_nat p)) with (rp (U p) p). rewrite <- (wz_const U 0 p (U p)) by (intros; apply Hclo; lia).
      symmetry. apply fk_win; [apply sp_p|lia].
    + replace i with (1 + i - 1)%Z at 1 by lia. rewrite HQ2 by lia. apply He0. lia.
  - (* later spans *)
    destruct HPost as (EK & Eci & [B0 B1] & HQ). pose proof N as (Ss & _ & Ls & Eu).
    pose proof (nx_mul _ _ N) as Hm. pose proof (nx_lt _ _ N) as Hua. pose proof (kh_nx _ _ N) as Ekh.
    pose proof (kh_mono p s ltac:(destruct Ss; lia)) as Hkm. rewrite kh_p in Hkm.
    pose proof (half oldr ltac:(lia)) as Ho. pose proof (half (oldr + 1) ltac:(lia)) as Ho2. replace (oldr + 1 + 1)%Z with (oldr + 2)%Z in Ho2 by lia.
    assert (El : lbz = ((oldr + 2) / 2)%Z).
    { unfold lbz. destruct (Z.ltb_spec 0 oldr); auto. assert (oldr = 0%Z) as -> by lia. reflexivity. }
    destruct (blocks_mono s Uh Ss (conj B0 B1)) as [Mono Elast].
    assert (EK1 : (kh s = K - 1)%Z) by lia.
    assert (Hag : forall x l, (0 <= x <= oldr)%Z -> Z.of_nat (length l) = x -> Fk s (l ++ rp (U a) (ph - x)) = Fk a (l ++ rp (U a) (ph - x))).
    { intros x l Hx Hl. apply (Fk_agree_perm s a _ (l ++ rp (U a) (oldr - x)) N).
      - replace (ph - x)%Z with ((a - s + t) + (oldr - x))%Z by (unfold ph; lia). rewrite rp_app by lia.
        rewrite !app_assoc. apply Permutation_app_tail, Permutation_app_comm.
      - rewrite app_length, rp_length. unfold ph. lia. }
    pose proof (remove_all (Fk a) K oldr Uh (U a) (U b) Q e0 (Fk_polar a Sa) ltac:(unfold ph; lia) ltac:(lia) Hlt) as R.
    rewrite <- El, <- Eci in R.
    assert (R0 : forall j, (K - oldr <= j <= K - 1)%Z -> Uh j < U a).
    { intros j Hj. assert (Uh j <= Uh (kh s)) by (apply Mono; unfold ph in *; lia). lra. }
    assert (R1 : forall k, (0 <= k)%Z -> (k <= ph - oldr - 2)%Z -> (k <= (oldr + 1) / 2 - 2)%Z -> Uh (K - 1 - k)%Z = Uh (K - 1)%Z).
    { intros k Hk0 Hk1 Hk2. rewrite <- EK1. rewrite Elast. destruct (Z.eq_dec s p) as [->|Hsp].
      - apply B0. rewrite kh_p. unfold ph in *. lia.
      - destruct (sp_prev s Ss) as [s0 N0]; [destruct Ss; lia|]. pose proof (kh_nx _ _ N0).
        pose proof (Hg s0 s a N0 N) as G. rewrite <- Eo in G. apply (B1 s0 s N0); [lia|]. unfold ph in *. lia. }
    assert (R2 : forall x, ((oldr + 1) / 2 <= x <= oldr)%Z -> Q (K - 1 - x)%Z = Fk a (wz Uh (K - 1 - x) x ++ rp (U a) (ph - x))).
    { intros x Hx. rewrite (HQ s Ss ltac:(lia)) by (unfold ph in *; lia).
      rewrite (wz_Uv s Uh (U a) (K - 1 - x) x) by (unfold ph in *; lia). rewrite EK1.
      apply Hag; [lia|]. rewrite wz_length. lia. }
    specialize (R R0 R1 R2 He0). destruct (Elev_remove _ _ _ _ _ _ _ _ _ _) as [Q1 e1]. destruct R as (G1 & G2 & G3 & G4).
    pose proof Ss as [Hss _]. destruct (Z.eqb_spec a p); [lia|].
    destruct (fill_knots (ph - oldr) (U a) Uh K) as (Uh' & E & HU1 & HU2); [unfold ph; lia|].
    match goal with |- context [for_up 0 (ph - oldr - 1) ?f ?x] => replace (for_up 0 (ph - oldr - 1) f x) with (Uh', (K + (ph - oldr))%Z) by (symmetry; exact E) end. clear E.
    destruct (store lbz rbz e1 Q1 ci) as (Q2 & E & HQ2 & HQ2l); [unfold ph in *; lia|].
    match goal with |- context [for_up lbz rbz ?f ?x] => replace (for_up lbz rbz f x) with (Q2, (ci + rbz + 1 - lbz)%Z) by (symmetry; exact E) end. clear E.
    assert (EK' : (K + (ph - oldr) = kh a + 1)%Z) by (unfold ph; lia).
    assert (Eci' : (ci + rbz + 1 - lbz = kh a + 1 - (r + 1) / 2)%Z) by (unfold ph in *; lia).
    assert (Bl : blocks a Uh').
    { split; [intros j Hj; rewrite HU2 by (unfold ph in *; lia); auto|]. intros s1 s2 N12 L12 j Hj.
      pose proof N12 as (S1 & S2 & L1 & _). destruct (Z.eq_dec s2 a) as [->|Hne].
      - assert (s1 = s) as ->. { pose proof (nx_le _ _ _ N12 Ss). pose proof (nx_le _ _ _ N S1). lia. }
        apply HU1. lia.
      - assert (s2 <= s)%Z. { destruct (Z.le_gt_cases s2 s); auto. pose proof (nx_le _ _ _ N S2). lia. }
        pose proof (kh_mono s2 s ltac:(destruct S2; lia)). rewrite HU2 by lia. apply (B1 s1 s2); auto. }
    (* the values for span a *)
    assert (Main : forall i, (kh a - ph <= i <= kh a)%Z -> (i < ci + rbz + 1 - lbz)%Z -> Q2 i = Fk a (wz (Uv a Uh' (U b)) i ph)).
    { intros i Hi Hi'. set (j := (i - (kh a - ph))%Z). rewrite (wz_Uv a Uh' (U b) i (ph - j)) by lia.
      replace (ph - (ph - j))%Z with j by lia.
      assert (Hw : (j <= oldr)%Z -> wz Uh' (kh a - (ph - j)) (ph - j) = wz Uh (K - 1 - (oldr - j)) (oldr - j) ++ rp (U a) (ph - oldr)).
      { intros Hj. replace (ph - j)%Z with ((oldr - j) + (ph - oldr))%Z at 2 by lia. rewrite wz_app by (unfold ph in *; lia).
        replace (kh a - (ph - j))%Z with (K - 1 - (oldr - j))%Z by lia. f_equal.
        - apply wz_ext. intros x Hx. apply HU2. lia.
        - apply wz_const. intros x Hx. apply HU1. lia. }
      destruct (Z.le_gt_cases lbz j) as [Hj|Hj].
      - replace i with (ci + j - lbz)%Z at 1 by lia. rewrite HQ2 by lia.
        destruct (Z.le_gt_cases j oldr) as [Hjo|Hjo].
        + rewrite G3 by lia. rewrite Hw by auto. rewrite <- app_assoc. reflexivity.
        + rewrite G4 by lia. do 2 f_equal. symmetry. apply wz_const. intros x Hx. apply HU1. lia.
      - rewrite HQ2l by lia. replace i with (K - 1 - (oldr - j))%Z at 1 by lia. rewrite G1 by lia.
        rewrite Hw by lia. rewrite <- app_assoc. do 4 f_equal. lia. }
    split; [lia|]. split; [lia|]. split; auto.
    intros s1 S1 L1 i Hi Hi'. destruct (Z.eq_dec s1 a) as [->|Hne]; [apply Main; auto|].
    assert (s1 <= s)%Z. { destruct (Z.le_gt_cases s1 s); auto. pose proof (nx_le _ _ _ N S1). lia. }
    pose proof (kh_mono s1 s ltac:(destruct S1; lia)).
    destruct (Z.le_gt_cases (kh a) (i + ph)) as [Hia|Hia].
    + rewrite Main by lia. symmetry. apply (Fk_chain a); auto; [|lia]. apply blocks_Uv; auto.
    + rewrite HQ2l by lia. rewrite G2 by lia. rewrite (HQ s1 S1) by lia. f_equal. apply wz_ext. intros j Hj. unfold Uv.
      destruct (Z.leb_spec j (kh s)), (Z.leb_spec j (kh a)); try lia.
      * symmetry. apply HU2. lia.
      * symmetry. apply HU1. lia.
Qed.
End Round.

(** ** One round on the whole state *)
Definition InProg (st : @ElevSt Rn) : Prop :=
  let a := e_a st in sp a /\ e_b st = (a + 1)%Z /\ e_ua st = U a /\
  (forall k, (0 <= k <= p)%Z -> e_bpts st k = fk a (rp (U a) (p - k) ++ wz U a k)) /\
  Pre a (e_kind st) (e_cind st) (e_r st) (e_Uh st) (e_Qw st).
Definition Final (Uh Q : Z -> R) : Prop :=
  (forall j, (kh n < j <= kh n + ph + 1)%Z -> Uh j = U (n + 1)%Z) /\ blocks n Uh /\
  (forall s, sp s -> forall i, (kh s - ph <= i <= kh s)%Z -> Q i = Fk s (wz Uh i ph)).

Lemma next_bpts a b k : nx a b -> (0 <= k <= p)%Z -> (k < p - (b - a))%Z ->
  fk a (rp (U b) (p - k) ++ wz U b k) = fk b (rp (U b) (p - k) ++ wz U b k).
Proof.
  intros N Hk Hr. pose proof (nx_mul _ _ N). replace (p - k)%Z with ((b - a) + (p - k - (b - a)))%Z by lia.
  rewrite rp_app by lia. rewrite <- app_assoc. apply fk_agree; auto. rewrite app_length, rp_length, wz_length. lia.
Qed.
Lemma last_bpts a b k : nx a b -> (0 <= k <= p)%Z -> (p - (b - a) <= k)%Z ->
  P (b - p + k)%Z = fk b (rp (U b) (p - k) ++ wz U b k).
Proof.
  intros N Hk Hr. pose proof N as (_ & Sb & L & E). rewrite <- (fk_win b (b - p + k) Sb) by lia. f_equal.
  replace p with ((p - k) + k)%Z at 2 by lia. rewrite wz_app by lia. f_equal.
  - apply wz_const. intros j Hj. apply E. lia.
  - f_equal. lia.
Qed.

Lemma round_ok bz st : (forall i j, (0 <= i <= p + t)%Z -> (Z.max 0 (i - t) <= j <= Z.min p i)%Z -> bz i j = bez p t i j) ->
  InProg st -> let st' := Elev_round (N:=Rn) n p t U P bz st in
  (e_b st < e_b st' <= m)%Z /\ (InProg st' \/ e_b st' = m /\ Final (e_Uh st') (e_Qw st')).
Proof.
  intros Hbz (Sa & Eb & Eua & Hbp & HPre). cbv zeta. pose proof (wf_n _ _ _ W).
  unfold Elev_round. cbv zeta. rewrite Eb, Eua.
  destruct (adv_ok (e_a st) Sa) as (b & Eadv & Hb & Hj & Hcase). unfold m in Eadv. rewrite Eadv. clear Eadv.
  set (a := e_a st) in *. pose proof Sa as [Ha Hlta].
  replace (b - (a + 1) + 1)%Z with (b - a)%Z by lia.
  assert (Hlt : U a < U b) by (rewrite <- (Hj (a + 1)%Z) by lia; auto).
  assert (Hgt : forall j, (a + (b - a) < j <= a + p)%Z -> U b <= U j).
  { intros j Hjj. destruct Hcase as [(L & N & Hbn)|[-> ->]]; [|unfold m in *; lia]. apply (wf_mono _ _ _ W); lia. }
  assert (Hrm : (-1 <= p - (b - a))%Z).
  { destruct Hcase as [(L & N & Hbn)|[-> ->]]; [pose proof (nx_mul _ _ N); lia|unfold m; lia]. }
  pose proof (Elev_insert_ok (fk a) p U a (b - a) (U a) (U b) Hp ltac:(lia) (fk_polar a Sa) ltac:(intros; apply Hj; lia) Hgt Hlt
     (e_bpts st) (e_next st) (e_alfs st) Hbp) as HI.
  match goal with |- context [Elev_insert ?x1 ?x2 ?x3 ?x4 ?x5 ?x6 ?x7 ?x8] => destruct (Elev_insert x1 x2 x3 x4 x5 x6 x7 x8) as [[bp nxt] al] eqn:EI end.
  match type of HI with context [Elev_insert ?x1 ?x2 ?x3 ?x4 ?x5 ?x6 ?x7 ?x8] => replace (Elev_insert x1 x2 x3 x4 x5 x6 x7 x8) with (bp, nxt, al) in HI by (symmetry; exact EI) end. clear EI.
  destruct HI as [HI1 HI2]. replace (a + (b - a))%Z with b in HI2 by lia.
  set (oldr := e_r st) in *. set (lbz := (if 0 <? oldr then (oldr + 2) / 2 else 1)%Z).
  assert (Holdr : (-1 <= oldr < p)%Z).
  { destruct HPre as [(_ & _ & _ & -> & _)|(s & N & -> & _)]; [lia|]. pose proof (nx_mul _ _ N). lia. }
  assert (Hlbz : (0 <= lbz <= p + t)%Z).
  { unfold lbz. destruct (Z.ltb_spec 0 oldr); [|lia]. pose proof (half (oldr + 1) ltac:(lia)) as Hh. replace (oldr + 1 + 1)%Z with (oldr + 2)%Z in Hh by lia. lia. }
  pose proof (Elev_elevate_ok (fk a) p a (b - a) (U a) (U b) Hp t lbz bz bp (e_ebpts st) Ht Hlbz Hbz HI1) as HE.
  set (e0 := Elev_elevate p t lbz bz bp (e_ebpts st)) in *.
  pose proof (round_core a b (p - (b - a)) oldr (e_kind st) (e_cind st) (e_Uh st) (e_Qw st) e0 Sa ltac:(lia) eq_refl Hrm Hlt HE HPre) as HR.
  fold lbz in HR. change (p + t)%Z with ph.
  match goal with |- context [Elev_remove ?x1 ?x2 ?x3 ?x4 ?x5 ?x6 ?x7 ?x8 ?x9 ?x10] => destruct (Elev_remove x1 x2 x3 x4 x5 x6 x7 x8 x9 x10) as [Q1 e1] eqn:ER end.
  try match type of HR with context [Elev_remove ?x1 ?x2 ?x3 ?x4 ?x5 ?x6 ?x7 ?x8 ?x9 ?x10] => replace (Elev_remove x1 x2 x3 x4 x5 x6 x7 x8 x9 x10) with (Q1, e1) in HR by (symmetry; exact ER) end. clear ER. cbv iota in HR.
  match goal with |- context [if (a =? p)%Z then ?x else ?y] => destruct (if (a =? p)%Z then x else y) as [Uh' K'] eqn:EU end.
  try match type of HR with context [if (a =? p)%Z then ?x else ?y] => replace (if (a =? p)%Z then x else y) with (Uh', K') in HR by (symmetry; exact EU) end. clear EU. cbv iota in HR.
  match goal with |- context [for_up lbz ?hi ?f ?x] => destruct (for_up lbz hi f x) as [Q2 ci'] eqn:EQ end.
  try match type of HR with context [for_up lbz ?hi ?f ?x] => replace (for_up lbz hi f x) with (Q2, ci') in HR by (symmetry; exact EQ) end. clear EQ. cbv iota in HR.
  destruct Hcase as [(L & N & Hbn)|[Ean Ebm]].
  - destruct (Z.ltb_spec b (n + p + 1)); [|lia]. cbn [e_a e_b e_ua e_bpts e_kind e_cind e_r e_Uh e_Qw].
    split; [unfold m; lia|]. left. unfold InProg. cbn [e_a e_b e_ua e_bpts e_kind e_cind e_r e_Uh e_Qw].
    pose proof N as (_ & Sb & _ & _). split; auto. split; auto. split; auto. split.
    + intros k Hk. destruct (Z.le_gt_cases (p - (b - a)) k).
      * rewrite fill_in by lia. apply (last_bpts a b); auto.
      * rewrite fill_out by lia. rewrite fill_in by lia. rewrite HI2 by lia. apply next_bpts; auto; lia.
    + right. exists a. split; auto.
  - rewrite Ean in *. destruct (Z.ltb_spec b (n + p + 1)); [unfold m in *; lia|]. cbn [e_a e_b e_ua e_bpts e_kind e_cind e_r e_Uh e_Qw].
    split; [unfold m in *; lia|]. right. split; auto. rewrite Ebm in *.
    destruct HR as (EK & Eci & [B0 B1] & HQ). replace (p - (m - n))%Z with (-1)%Z in Eci by (unfold m; lia). change ((-1 + 1) / 2)%Z with 0%Z in Eci.
    assert (EUm : U m = U (n + 1)%Z) by (apply Hchi; unfold m; lia). pose proof (kh_mono p n ltac:(lia)) as Hk0. rewrite kh_p in Hk0.
    assert (EV : forall j, (0 <= j <= kh n + ph + 1)%Z -> fill K' (K' + ph) (fun _ => U m) Uh' j = Uv n Uh' (U m) j).
    { intros j Hjj. unfold Uv. destruct (Z.leb_spec j (kh n)); [rewrite fill_out by lia|rewrite fill_in by lia]; reflexivity. }
    split; [|split; [split|]].
    + intros j Hjj. rewrite fill_in by lia. auto.
    + intros j Hjj. rewrite fill_out by lia. auto.
    + intros s s' Nss Hs j Hjj. pose proof Nss as (_ & [Hs' _] & _ & _). pose proof (kh_mono s' n ltac:(lia)).
      rewrite fill_out by lia. apply (B1 s s'); auto.
    + intros s Ss i Hi. pose proof Ss as [Hs _]. pose proof (kh_mono s n ltac:(lia)). pose proof (kh_mono p s ltac:(lia)). rewrite kh_p in *.
      rewrite (HQ s Ss) by lia. f_equal. apply wz_ext. intros j Hjj. symmetry. apply EV. lia.
Qed.

Theorem DegreeElevate_final junk junk2 : exists Uh Q, DegreeElevate (N:=Rn) n p U P t junk junk2 = (Uh, Q) /\ Final Uh Q.
Proof.
  unfold DegreeElevate, DegreeElevate_opt. destruct (Z.ltb_spec t 1); [lia|]. cbv zeta. pose proof (wf_n _ _ _ W).
  set (bz := Elev_bezalfs p t junk2). set (st0 := mkElev _ _ _ _ _ _ _ _ _ _ _ _).
  assert (I0 : InProg st0).
  { unfold InProg, st0. cbn [e_a e_b e_ua e_bpts e_kind e_cind e_r e_Uh e_Qw]. split; [apply sp_p|]. split; auto. split; auto. split.
    - intros k Hk. rewrite fill_in by lia. rewrite <- (fk_win p k sp_p) by lia. f_equal.
      replace p with ((p - k) + k)%Z at 1 by lia. rewrite wz_app by lia. f_equal.
      + apply wz_const. intros j Hj. apply Hclo. lia.
      + f_equal. lia.
    - left. repeat split; auto. intros j Hj. rewrite fill_in by (unfold ph in *; lia). reflexivity. }
  destruct (while_total (fun st => (e_b st <= m)%Z /\ (InProg st \/ e_b st = m /\ Final (e_Uh st) (e_Qw st)))
     (fun st => Z.to_nat (m - e_b st)) (fun st => (e_b st <? n + p + 1)%Z) (Elev_round (N:=Rn) n p t U P bz))
     with (fuel := Datatypes.S (Z.to_nat (m - p))) (s := st0) as (st & E & (Hb & I) & C).
  - intros st [Hb [I|[I _]]] C; [|apply Z.ltb_lt in C; unfold m in *; lia].
    destruct (round_ok bz st) as [R1 R2]; auto.
    + intros i j Hi Hj. apply Elev_bezalfs_ok; auto.
    + split; [split; [lia|auto]|lia].
  - split; auto. unfold st0. cbn [e_b]. unfold m. lia.
  - unfold st0. cbn [e_b]. unfold m. lia.
  - unfold m in E. rewrite E. exists (e_Uh st), (e_Qw st). split; auto. destruct I as [I|[_ I]]; auto.
    apply Z.ltb_ge in C. destruct I as ([Ha _] & Eb & _). lia.
Qed.

(** ** Consequences *)
Section Out.
Variables (Uh Q : Z -> R).
Hypothesis HFin : Final Uh Q.
Let nh := kh n.
Lemma Final_wf : wf_knots nh ph Uh.
Proof.
  destruct HFin as (Hend & HB & HQ). destruct (blocks_mono n Uh sp_n HB) as [Mono Elast]. pose proof (wf_n _ _ _ W).
  pose proof (kh_mono p n ltac:(lia)) as Hk0. rewrite kh_p in Hk0. pose proof (wf_last _ _ _ W) as Hl. constructor.
  - unfold ph. lia.
  - auto.
  - intros i j Hi Hij Hj. destruct (Z.le_gt_cases j nh); [apply Mono; unfold nh in *; lia|]. rewrite (Hend j) by (unfold nh in *; lia).
    destruct (Z.le_gt_cases i nh); [|rewrite Hend by (unfold nh in *; lia); lra].
    assert (Uh i <= Uh (kh n)) by (apply Mono; unfold nh in *; lia). lra.
  - destruct HB as [B0 B1]. rewrite B0 by (unfold ph; lia). destruct (Z.eq_dec p n) as [E|Hne].
    + rewrite Hend by (rewrite <- E, kh_p; unfold ph; lia). rewrite E. auto.
    + destruct (sp_next p sp_p) as [s' N]; [lia|]. pose proof (kh_nx _ _ N). rewrite kh_p in *. pose proof N as (_ & [Hs' _] & _ & _).
      rewrite (B1 p s' N) by (rewrite ?kh_p; lia). apply nx_lt. auto.
  - unfold nh. rewrite Elast. rewrite Hend by (unfold ph; lia). auto.
Qed.
Lemma Final_active u k : active n p U u k -> active nh ph Uh u (kh k).
Proof.
  intros A. destruct HFin as (Hend & HB & HQ). pose proof (active_lt _ _ _ _ _ W A) as Hlt. destruct A as [Hk A]. pose proof (wf_n _ _ _ W).
  pose proof (kh_mono p k ltac:(lia)) as K1. pose proof (kh_mono k n ltac:(lia)) as K2. rewrite kh_p in K1. split; [unfold nh; lia|].
  assert (Sk : sp k) by (split; auto).
  destruct (Z.eq_dec k n) as [->|Hne].
  - assert (E1 : Uh (kh n) = U n) by (apply (blocks_mono n); auto). assert (E2 : Uh (kh n + 1)%Z = U (n + 1)%Z) by (apply Hend; unfold ph; lia).
    unfold nh. rewrite E1, E2. destruct A as [A|[_ A]]; [left; auto|right; auto].
  - destruct A as [A|[A _]]; [|lia]. left.
    destruct (sp_next k Sk) as [k' N]; [lia|]. pose proof N as (_ & [Hk' _] & L & E). pose proof (kh_nx _ _ N).
    assert (HBk : blocks k Uh) by (destruct HB as [B0 B1]; split; auto; intros s s' N' L'; apply (B1 s s'); auto; lia).
    rewrite (proj2 (blocks_mono k Uh Sk HBk)). destruct HB as [_ B1]. rewrite (B1 k k' N) by lia. rewrite <- (E (k + 1)%Z) by lia. auto.
Qed.
Theorem Final_curve u : in_domain n p U u -> curve nh ph Uh Q u = curve n p U P u.
Proof.
  intros D. destruct (active_exists n p U u W D) as [k A]. pose proof (Final_active u k A) as A'.
  rewrite (curve_piece _ _ _ _ _ _ W A), (curve_piece _ _ _ _ _ _ Final_wf A').
  assert (Sk : sp k) by (split; [apply A|apply (active_lt _ _ _ _ _ W A)]).
  pose proof (dB_diag U k (Z.to_nat p) P u (sp_ok k Sk)) as E. rewrite Z2Nat.id in E by lia. rewrite <- E.
  pose proof (polar_eval Uh (kh k) (Z.to_nat ph) (Fk k) u (Fk_polar k Sk)) as E2. rewrite Z2Nat.id in E2 by (unfold ph; lia).
  transitivity (pc Uh (kh k) ph (fun j => Fk k (win Uh j (Z.to_nat ph))) u).
  - unfold pc. apply sumZ_ext. intros i Hi. f_equal. destruct HFin as (_ & _ & HQ). apply (HQ k Sk). lia.
  - rewrite E2.
    + unfold Fk. replace (Z.to_nat ph) with (Z.to_nat p + Z.to_nat t)%nat by (unfold ph; lia). rewrite elev_diag. unfold fk. rewrite Z2Nat.id by lia. reflexivity.
    + apply (wf_span_ok nh ph); [apply Final_wf|apply A'|apply (active_lt _ _ _ _ _ Final_wf A')].
Qed.
End Out.
End Main.
