(** Degree elevation: the new knot vector, without the restrictions the control points need. *)
From Coq Require Import ZArith Reals List Lia Lra Permutation Bool.
From Verif Require Import Num Loop Spec SpecElev SumZ BPiece BLink ModelNurbs ModelBspline Blossom ProofSpan ProofInsert ProofElev1 ProofElev2 ProofIga ProofElev3.
Import ListNotations.
Local Open Scope R_scope.
Local Arguments Z.add : simpl never.
Local Arguments Z.sub : simpl never.
Local Arguments Z.of_nat : simpl never.
Local Arguments Z.mul : simpl never.
Local Arguments Z.div : simpl never.

Section Knots.
Variables (n p t : Z) (U P : Z -> R).
Hypothesis W : wf_knots n p U.
Hypothesis Hp : (1 <= p)%Z.
Hypothesis Ht : (1 <= t)%Z.
Hypothesis Hclo : forall j, (0 <= j <= p)%Z -> U j = U p.
Hypothesis Hchi : forall j, (n + 1 <= j <= n + p + 1)%Z -> U j = U (n + 1)%Z.
Hypothesis Heps : no_tiny_span U p n.
Let ph := (p + t)%Z.
Let m := (n + p + 1)%Z.
Notation sp := (sp n p U).
Notation nx := (nx n p U).
Notation kh := (kh p t U).
Notation cnt := (cnt p U).
Notation blocks := (blocks n p t U).

Definition PreK (a kind r : Z) (Uh : Z -> R) : Prop :=
  a = p /\ kind = (ph + 1)%Z /\ r = (-1)%Z /\ (forall j, (0 <= j <= ph)%Z -> Uh j = U p) \/
  exists s, nx s a /\ r = (p - (a - s))%Z /\ kind = (kh s + 1)%Z /\ blocks s Uh.
Definition InProgK (st : @ElevSt Rn) : Prop :=
  let a := e_a st in sp a /\ e_b st = (a + 1)%Z /\ e_ua st = U a /\ PreK a (e_kind st) (e_r st) (e_Uh st).
Definition FinalK (Uh : Z -> R) : Prop :=
  (forall j, (kh n < j <= kh n + ph + 1)%Z -> Uh j = U (n + 1)%Z) /\ blocks n Uh.

Lemma knots_round a r kind Uh Uh' K' : sp a -> PreK a kind r Uh ->
  (if (a =? p)%Z then (Uh, kind)
   else for_up 0 (ph - r - 1) (fun _ (s : (Z -> Rn) * Z) => let '(Uh, kind) := s in (upd Uh kind (U a), (kind + 1)%Z)) (Uh, kind)) = (Uh', K') ->
  K' = (kh a + 1)%Z /\ blocks a Uh'.
Proof.
  intros Sa HPre E. destruct HPre as [(-> & -> & -> & HU)|(s & N & -> & -> & B0 & B1)].
  - rewrite Z.eqb_refl in E. injection E as <- <-. rewrite kh_p with (n := n) by auto. split; auto. split; auto.
    intros s s' ([Hs _] & Ss' & L & _) L2. destruct Ss'; lia.
  - pose proof N as ([Hs _] & _ & L & Eq). destruct (Z.eqb_spec a p); [lia|].
    assert (Ekh : kh a = (kh s + (a - s) + t)%Z) by (apply kh_nx with (n := n); auto).
    pose proof (kh_mono n p t U Ht p s ltac:(lia)) as Hk0. rewrite kh_p with (n := n) in Hk0 by auto.
    destruct (fill_knots n p t (ph - (p - (a - s))) (U a) Uh (kh s + 1)) as (V & E2 & H1 & H2); [unfold ph; lia|].
    assert (Uh' = V /\ K' = (kh s + 1 + (ph - (p - (a - s))))%Z) as [-> ->].
    { pose proof (eq_trans (eq_sym E) E2) as EE. injection EE as <- <-. auto. }
    split; [unfold ph; lia|]. split.
    + intros j Hj. rewrite H2 by (unfold ph in *; lia). apply B0. auto.
    + intros s1 s2 N12 L12 j Hj. pose proof N12 as ([Hs1 _] & S2 & L1 & _). destruct (Z.le_gt_cases s2 s) as [Hle|Hgt].
      * pose proof (kh_mono n p t U Ht s2 s ltac:(lia)). rewrite H2 by lia. apply (B1 s1 s2); auto.
      * assert (s2 = a). { pose proof (nx_le n p t U s a s2 N S2 ltac:(lia)). lia. } subst s2.
        assert (s1 = s). { destruct (Z.lt_trichotomy s1 s) as [Hl|[He|Hl]]; auto; exfalso.
          - pose proof (nx_le n p t U s1 a s N12 ltac:(apply N) ltac:(lia)). lia.
          - pose proof (nx_le n p t U s a s1 N ltac:(apply N12) ltac:(lia)). lia. }
        subst s1. apply H1. unfold ph. lia.
Qed.

Lemma round_okK bz st : InProgK st -> let st' := Elev_round (N:=Rn) n p t U P bz st in
  (e_b st < e_b st' <= m)%Z /\ (InProgK st' \/ e_b st' = m /\ FinalK (e_Uh st')).
Proof.
  intros (Sa & Eb & Eua & HPre). cbv zeta. pose proof (wf_n _ _ _ W).
  unfold Elev_round. cbv zeta. rewrite Eb, Eua.
  destruct (adv_ok n p t U W Hp Hchi Heps (e_a st) Sa) as (b & Eadv & Hb & Hj & Hcase). rewrite Eadv. clear Eadv.
  set (a := e_a st) in *. pose proof Sa as [Ha Hlta].
  replace (b - (a + 1) + 1)%Z with (b - a)%Z by lia.
  match goal with |- context [Elev_insert ?x1 ?x2 ?x3 ?x4 ?x5 ?x6 ?x7 ?x8] => destruct (Elev_insert x1 x2 x3 x4 x5 x6 x7 x8) as [[bp nxt] al] end.
  match goal with |- context [Elev_remove ?x1 ?x2 ?x3 ?x4 ?x5 ?x6 ?x7 ?x8 ?x9 ?x10] => destruct (Elev_remove x1 x2 x3 x4 x5 x6 x7 x8 x9 x10) as [Q1 e1] end.
  match goal with |- context [if (a =? p)%Z then ?x else ?y] => destruct (if (a =? p)%Z then x else y) as [Uh' K'] eqn:EU end.
  destruct (knots_round a (e_r st) (e_kind st) (e_Uh st) Uh' K' Sa HPre EU) as [EK HB].
  match goal with |- context [for_up ?lo ?hi ?f ?x] => destruct (for_up lo hi f x) as [Q2 ci'] end.
  destruct Hcase as [(L & N & Hbn)|[Ean Ebm]].
  - destruct (Z.ltb_spec b (n + p + 1)); [|lia]. cbn [e_a e_b e_ua e_kind e_r e_Uh].
    split; [unfold m; lia|]. left. unfold InProgK. cbn [e_a e_b e_ua e_kind e_r e_Uh].
    split; [apply N|]. split; auto. split; auto. right. exists a. auto.
  - rewrite Ean in *. destruct (Z.ltb_spec b (n + p + 1)); [unfold m in *; lia|]. cbn [e_b e_Uh].
    split; [unfold m in *; lia|]. right. split; auto. rewrite Ebm in *. destruct HB as [B0 B1].
    assert (EUm : U (n + p + 1)%Z = U (n + 1)%Z) by (apply Hchi; lia). pose proof (kh_mono n p t U Ht p n ltac:(lia)) as Hk0. rewrite kh_p with (n := n) in Hk0 by auto.
    split; [|split].
    + intros j Hjj. rewrite fill_in by (unfold ph in *; lia). auto.
    + intros j Hjj. rewrite fill_out by (unfold ph in *; lia). auto.
    + intros s s' Nss Hs j Hjj. pose proof Nss as (_ & [Hs' _] & _ & _). pose proof (kh_mono n p t U Ht s' n ltac:(lia)).
      rewrite fill_out by lia. apply (B1 s s'); auto.
Qed.

Theorem DegreeElevate_knots junk junk2 : FinalK (fst (DegreeElevate (N:=Rn) n p U P t junk junk2)).
Proof.
  unfold DegreeElevate, DegreeElevate_opt. destruct (Z.ltb_spec t 1); [lia|]. cbv zeta. pose proof (wf_n _ _ _ W).
  set (bz := Elev_bezalfs p t junk2). set (st0 := mkElev _ _ _ _ _ _ _ _ _ _ _ _).
  assert (I0 : InProgK st0).
  { unfold InProgK, st0. cbn [e_a e_b e_ua e_kind e_r e_Uh]. split; [apply sp_p; auto|]. split; auto. split; auto.
    left. repeat split; auto. intros j Hj. rewrite fill_in by (unfold ph in *; lia). reflexivity. }
  destruct (while_total (fun st => (e_b st <= m)%Z /\ (InProgK st \/ e_b st = m /\ FinalK (e_Uh st)))
     (fun st => Z.to_nat (m - e_b st)) (fun st => (e_b st <? n + p + 1)%Z) (Elev_round (N:=Rn) n p t U P bz))
     with (fuel := Datatypes.S (Z.to_nat (m - p))) (s := st0) as (st & E & (Hb & I) & C).
  - intros st [Hb [I|[I _]]] C; [|apply Z.ltb_lt in C; unfold m in *; lia].
    destruct (round_okK bz st) as [R1 R2]; auto. split; [split; [lia|auto]|lia].
  - split; auto. unfold st0. cbn [e_b]. unfold m. lia.
  - unfold st0. cbn [e_b]. unfold m. lia.
  - unfold m in E. rewrite E. cbn [fst]. destruct I as [I|[_ I]]; auto.
    apply Z.ltb_ge in C. destruct I as ([Ha _] & Eb & _). lia.
Qed.

(** ** What FinalK says *)
Lemma blocks_pt a : sp a -> forall j, (0 <= j <= kh a)%Z ->
  (j <= ph)%Z \/ exists s s', nx s s' /\ (s' <= a)%Z /\ (kh s < j <= kh s')%Z.
Proof.
  intros S0. remember (Z.to_nat (a - p)) as d eqn:Ed. revert a S0 Ed. induction d as [d IH] using lt_wf_ind. intros a Sa Ed j Hj.
  pose proof Sa as [Ha _]. destruct (Z.eq_dec a p) as [->|Hne].
  - rewrite kh_p with (n := n) in Hj by auto. left. unfold ph. lia.
  - destruct (sp_prev n p t U W Hp a Sa) as [k N]; [lia|]. destruct (Z.le_gt_cases j (kh k)) as [Hle|Hgt].
    + pose proof N as (Sk & _ & L & _). destruct (IH (Z.to_nat (k - p)) ltac:(destruct Sk; lia) k Sk eq_refl j ltac:(lia)) as [H|(s & s' & N' & H1 & H2)]; auto.
      right. exists s, s'. split; auto. split; [lia|auto].
    + right. exists k, a. split; auto. split; [lia|]. lia.
Qed.
Lemma FinalK_unique V V' : FinalK V -> FinalK V' -> forall j, (0 <= j <= kh n + ph + 1)%Z -> V j = V' j.
Proof.
  intros (E1 & B0 & B1) (E2 & B0' & B1') j Hj. destruct (Z.le_gt_cases j (kh n)).
  - destruct (blocks_pt n ltac:(apply sp_n; auto) j ltac:(lia)) as [H1|(s & s' & N & H1 & H2)].
    + rewrite (B0 j), (B0' j) by (unfold ph in *; lia). auto.
    + rewrite (B1 s s' N H1 j H2), (B1' s s' N H1 j H2). auto.
  - rewrite (E1 j), (E2 j) by lia. auto.
Qed.

(** x is a knot with index at most a. *)
Definition seen (a : Z) (x : R) : Prop := exists s, sp s /\ (s <= a)%Z /\ U s = x.
Lemma sp_lt s s' : sp s -> sp s' -> (s < s')%Z -> U s < U s'.
Proof.
  intros [H1 H2] [H3 _] L. assert (U (s + 1)%Z <= U s') by (apply (wf_mono _ _ _ W); pose proof (wf_p _ _ _ W); lia). lra.
Qed.
Lemma blocks_mult a V x : sp a -> blocks a V ->
  (seen a x -> multiplicity V 0 (kh a) x = (multiplicity U 0 a x + t)%Z) /\
  (~ seen a x -> multiplicity V 0 (kh a) x = 0%Z /\ multiplicity U 0 a x = 0%Z).
Proof.
  intros S0. pose proof (wf_n _ _ _ W). revert V. remember (Z.to_nat (a - p)) as d eqn:Ed. revert a S0 Ed. induction d as [d IH] using lt_wf_ind. intros a Sa Ed V [B0 B1].
  pose proof Sa as [Ha _]. destruct (Z.eq_dec a p) as [->|Hne].
  - rewrite kh_p with (n := n) by auto. split.
    + intros (s & [Hs _] & Hs' & <-). assert (s = p) as -> by lia. rewrite !multiplicity_all; auto; unfold ph in *; lia.
    + intros Hn. assert (U p <> x). { intros E. apply Hn. exists p. auto with zarith. }
      rewrite !multiplicity_none; auto.
      * intros j Hj. rewrite (Hclo j) by lia. auto.
      * intros j Hj. rewrite (B0 j) by lia. auto.
  - destruct (sp_prev n p t U W Hp a Sa) as [k N]; [lia|]. pose proof N as (Sk & _ & L & E). pose proof Sk as [Hk _].
    pose proof (kh_nx n p t U W Hp k a N) as Ekh. pose proof (kh_mono n p t U Ht p k ltac:(lia)) as Hk0. rewrite kh_p with (n := n) in Hk0 by auto.
    assert (Bk : blocks k V) by (split; auto; intros s s' N' L'; apply (B1 s s' N'); lia).
    destruct (IH (Z.to_nat (k - p)) ltac:(lia) k Sk eq_refl V Bk) as [IH1 IH2]. pose proof (nx_lt n p t U k a N) as Hlt.
    assert (Hsa : forall s, sp s -> (s <= k)%Z -> U s < U a) by (intros s Ss Hs; apply sp_lt; auto; lia).
    rewrite (multiplicity_split V 0 (kh k) (kh a)), (multiplicity_split U 0 k a) by (unfold ph in *; lia).
    destruct (Req_EM_T (U a) x) as [Ex|Ex].
    + assert (~ seen k x). { intros (s & Ss & Hs & E1). pose proof (Hsa s Ss Hs). lra. }
      split; [|intros Hn; exfalso; apply Hn; exists a; auto with zarith]. intros _.
      destruct (IH2 H0) as [-> ->]. rewrite !multiplicity_all; try lia.
      * intros j Hj. rewrite (E j) by lia. auto.
      * intros j Hj. rewrite (B1 k a N ltac:(lia) j) by lia. auto.
    + rewrite (multiplicity_none V (kh k + 1)), (multiplicity_none U (k + 1)).
      2: { intros j Hj. rewrite (E j) by lia. auto. }
      2: { intros j Hj. rewrite (B1 k a N ltac:(lia) j) by lia. auto. }
      split.
      * intros (s & Ss & Hs & E1). assert (s <= k)%Z. { destruct (Z.le_gt_cases s k); auto. pose proof (nx_le n p t U k a s N Ss ltac:(lia)). assert (s = a) by lia. subst s. lra. }
        rewrite IH1; [lia|]. exists s. auto.
      * intros Hn. destruct IH2 as [-> ->]; auto. intros (s & Ss & Hs & E1). apply Hn. exists s. split; auto. split; auto. lia.
Qed.
Lemma seen_all j : (0 <= j <= n)%Z -> seen n (U j).
Proof.
  intros Hj. pose proof (wf_n _ _ _ W). destruct (Z.le_gt_cases j p) as [Hle|Hgt].
  - exists p. split; [apply sp_p; auto|]. split; [lia|]. symmetry. apply Hclo. lia.
  - destruct (Rlt_dec (U j) (U (j + 1)%Z)) as [L|L].
    + exists j. split; [split; [lia|auto]|]. split; [lia|auto].
    + assert (Hjn : (j < n)%Z). { destruct (Z.eq_dec j n) as [->|]; [|lia]. pose proof (wf_last _ _ _ W). lra. }
      destruct (next_span n p U j W) as (k' & H1 & H2 & H3); [lia|]. exists k'. split; [split; [lia|auto]|]. split; [lia|].
      rewrite (H3 k') by lia. assert (U j <= U (j + 1)%Z) by (apply (wf_mono _ _ _ W); lia). lra.
Qed.
Theorem FinalK_mult V x : FinalK V ->
  (forall j, (0 <= j <= n + p + 1)%Z -> U j = x -> multiplicity V 0 (kh n + ph + 1) x = (multiplicity U 0 (n + p + 1) x + t)%Z) /\
  ((forall j, (0 <= j <= n + p + 1)%Z -> U j <> x) -> multiplicity V 0 (kh n + ph + 1) x = 0%Z).
Proof.
  intros (E & HB). pose proof (wf_n _ _ _ W). pose proof (kh_mono n p t U Ht p n ltac:(lia)) as Hk0. rewrite kh_p with (n := n) in Hk0 by auto.
  destruct (blocks_mult n V x ltac:(apply sp_n; auto) HB) as [M1 M2].
  rewrite (multiplicity_split V 0 (kh n) (kh n + ph + 1)), (multiplicity_split U 0 n (n + p + 1)) by (unfold ph in *; lia).
  assert (G : U (n + 1)%Z <> x -> multiplicity V (kh n + 1) (kh n + ph + 1) x = 0%Z /\ multiplicity U (n + 1) (n + p + 1) x = 0%Z).
  { intros Hx. rewrite !multiplicity_none; auto.
    - intros j Hj. rewrite (Hchi j) by lia. auto.
    - intros j Hj. rewrite (E j) by lia. auto. }
  split.
  - intros j Hj Ej. destruct (Req_EM_T (U (n + 1)%Z) x) as [Ex|Ex].
    + destruct M2 as [-> ->].
      { intros (s & [Hs Hlt] & Hs' & E1). assert (U s < U (n + 1)%Z); [|lra]. assert (U s <= U n) by (apply (wf_mono _ _ _ W); lia). pose proof (wf_last _ _ _ W). lra. }
      rewrite !multiplicity_all; try (unfold ph in *; lia).
      * intros i Hi. rewrite (Hchi i) by lia. auto.
      * intros i Hi. rewrite (E i) by lia. auto.
    + destruct (G Ex) as [-> ->]. assert (j <= n)%Z. { destruct (Z.le_gt_cases j n); auto. rewrite (Hchi j) in Ej by lia. lra. }
      rewrite M1; [lia|]. rewrite <- Ej. apply seen_all. lia.
  - intros Hn. destruct G as [-> _]; [apply Hn; lia|]. destruct M2 as [-> _]; [|lia].
    intros (s & [Hs _] & _ & E1). apply (Hn s); auto. lia.
Qed.
Lemma FinalK_nondec V : FinalK V -> nondecreasing V 0 (kh n + ph + 1).
Proof.
  intros (Hend & HB) i j Hi Hij Hj. destruct (blocks_mono n p t U W Hp Ht n V ltac:(apply sp_n; auto) HB) as [Mono Elast]. pose proof (wf_n _ _ _ W).
  pose proof (kh_mono n p t U Ht p n ltac:(lia)) as Hk0. rewrite kh_p with (n := n) in Hk0 by auto. pose proof (wf_last _ _ _ W).
  destruct (Z.le_gt_cases j (kh n)); [apply Mono; lia|]. rewrite (Hend j) by lia.
  destruct (Z.le_gt_cases i (kh n)); [|rewrite (Hend i) by lia; lra].
  assert (V i <= V (kh n)) by (apply Mono; unfold ph in *; lia). lra.
Qed.
End Knots.

(** ** When the guard holds *)
Lemma elev_guard_low n p t U : (1 <= t)%Z -> (p <= 9)%Z -> elev_guard n p t U.
Proof.
  intros Ht Hp k k' k'' (_ & _ & L & _) _. destruct (Z.le_gt_cases (k'' - k') (k' - k + 1)); auto. right.
  assert ((p - (k'' - k') + 1) / 2 <= 3)%Z; [|lia]. change 3%Z with (7 / 2)%Z. apply Z.div_le_mono; lia.
Qed.
