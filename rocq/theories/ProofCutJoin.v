(** Cutting an object in two and joining the pieces. *)
From Coq Require Import ZArith Reals List Bool Lia Lra.
From Verif Require Import Num Loop ModelBspline ModelBSp ModelNurbs ModelIga ModelCad Spec SpecElev SpecCompat SumZ BPiece BLink BIndep ProofSpan BInsert BRep
  ProofInsert ProofCut ProofRefine SpecNurbs ProofNet ProofCall ProofNurbs ProofMethods ProofMethods2 ProofMethods3 ProofGeom ProofGeom2 ProofOk ProofSlice ProofIga ProofIga2
  ProofElev1 ProofElev4 ProofElev5 ProofClamp ProofUnclamp ProofCompat1 ProofCompat3 ProofRemove4 ProofUniq ProofUniq2 ProofAvg ProofAvg2 SpecCompat SpecJoin ProofJoin2 ProofJoin3 ProofRuled.
Import ListNotations.
Local Open Scope R_scope.

Lemma countN_ex U u : forall c lo, (0 < countN c lo U u)%Z -> exists j, (lo <= j < lo + Z.of_nat c)%Z /\ U j = u.
Proof.
  induction c as [|c IH]; intros lo H; cbn [countN] in H; [lia|]. destruct (Req_EM_T (U lo) u) as [E|E]; [exists lo; split; auto; lia|].
  destruct (IH (lo + 1)%Z) as (j & Hj & Ej); [lia|]. exists j. split; auto. lia.
Qed.
Lemma multiplicity_ex U lo hi u : (0 < multiplicity U lo hi u)%Z -> exists j, (lo <= j <= hi)%Z /\ U j = u.
Proof. intros H. apply countN_ex in H. destruct H as (j & Hj & E). exists j. split; auto. lia. Qed.
Lemma multiplicity_one U lo hi j : (lo <= j <= hi)%Z -> (0 < multiplicity U lo hi (U j))%Z.
Proof.
  intros H. rewrite (multiplicity_split U lo (j - 1) hi) by lia. replace (j - 1 + 1)%Z with j by lia. rewrite (multiplicity_split U j j hi) by lia.
  rewrite (multiplicity_all U j j) by (lia || (intros k Hk; f_equal; lia)).
  pose proof (multiplicity_nonneg U lo (j - 1) (U j)). pose proof (multiplicity_nonneg U (j + 1) hi (U j)). lia.
Qed.
(** Every knot of a slice is a knot of the object or one of the two ends. *)
Lemma slice_from nrb ax a start end_ junk nrb' : wf_nurbs nrb -> py_axis (n_dim nrb) ax = Ok a ->
  let A := get_axis nrb a in let n := (a_size A - 1)%Z in let p := a_deg A in let U := a_knots A in
  let u0 := match start with Some x => x | None => U p end in
  let u1 := match end_ with Some x => x | None => U (n + 1)%Z end in
  separated_list U (n + p + 1) [u0; u1] ->
  slice (N:=Rn) junk nrb ax start end_ = Ok nrb' ->
  let B := get_axis nrb' a in forall j, (0 <= j < a_len B)%Z -> a_knots B j = u0 \/ a_knots B j = u1 \/ exists k, (0 <= k <= n + p + 1)%Z /\ a_knots B j = U k.
Proof.
  intros W Ea A n p U u0 u1 Sep E.
  pose proof (py_axis_dim _ _ _ Ea) as Ha. pose proof (wf_get_axis _ _ W Ha) as WA. fold A in WA.
  assert (Wk : wf_knots n p U) by apply WA. assert (Wp : (1 <= p)%Z) by apply WA.
  pose proof (wf_n _ _ _ Wk) as Hn. pose proof (wf_mono _ _ _ Wk) as Mo.
  unfold slice in E. rewrite Ea in E. cbn [bind] in E. fold A in E. fold p in E. rewrite a_hi_eq in E. fold n U in E.
  change (a_lo A) with (U p) in E.
  change (match start with Some x => x | None => U p end) with u0 in E.
  change (match end_ with Some x => x | None => U (n + 1)%Z end) with u1 in E.
  unfold assert in E.
  destruct (nleb Rn (U p) u0) eqn:L1; [|discriminate]. cbn [bind] in E. apply Rleb_true in L1.
  destruct (nleb Rn u1 (U (n + 1)%Z)) eqn:L2; [|discriminate]. cbn [bind] in E. apply Rleb_true in L2.
  destruct (nltb Rn u0 u1) eqn:L3; [|discriminate]. cbn [bind] in E. apply Rltb_true in L3.
  unfold py_FindSpanMult, check in E.
  destruct ((1 <=? a_deg A) && (2 * a_deg A + 1 <=? a_len A - 1))%Z; [|discriminate]. cbn [bind snd FindSpanMult] in E.
  assert (El : (a_len A - 1 - (a_deg A + 1))%Z = n) by (rewrite a_len_eq; fold n p; lia).
  unfold FindSpanMult in E. cbn [snd] in E. rewrite El in E. fold p U in E.
  destruct (Sep u0 ltac:(simpl; auto)) as [S0 SS0]. destruct (Sep u1 ltac:(simpl; auto)) as [S1 SS1].
  assert (D0 : in_domain n p U u0) by (split; lra). assert (D1 : in_domain n p U u1) by (split; lra).
  pose proof (FindMult_min n p U u0 Wk D0 S0) as F0. pose proof (FindMult_min n p U u1 Wk D1 S1) as F1.
  set (s0 := FindMult (N:=Rn) (FindSpan (N:=Rn) n p u0 U) u0 p U) in *.
  set (s1 := FindMult (N:=Rn) (FindSpan (N:=Rn) n p u1 U) u1 p U) in *.
  set (t0 := Z.max 0 (p - s0)) in *. set (t1 := Z.max 0 (p - s1)) in *.
  set (vals := repeat u0 (Z.to_nat t0) ++ repeat u1 (Z.to_nat t1)) in *.
  destruct (refine (N:=Rn) junk nrb (Z.of_nat a) vals) as [nrb1|] eqn:ER; [|discriminate]. cbn [bind] in E.
  assert (Ea' : py_axis (n_dim nrb) (Z.of_nat a) = Ok a).
  { rewrite py_axis_nat by (unfold n_dim; lia). f_equal. lia. }
  assert (InV : forall x, In x vals -> In x [u0; u1]).
  { intros x Hx. apply in_app_or in Hx. destruct Hx as [Hx|Hx]; apply repeat_spec in Hx; simpl; auto. }
  assert (SepV : separated_list U (n + p + 1) vals).
  { intros x Hx. destruct (Sep x (InV x Hx)) as [B1 B2]. split; auto. }
  assert (DV : forall x, In x vals -> U p <= x <= U (n + 1)%Z).
  { intros x Hx. apply InV in Hx. simpl in Hx. destruct Hx as [<-|[<-|[]]]; lra. }
  destruct (refine_class_gen nrb (Z.of_nat a) a vals junk nrb1 W Ea' SepV DV ER) as [V [K [EN [MV [V0 [V1 [Mu SB]]]]]]].
  fold A in EN, MV, V0, V1, Mu, SB. fold n p U in MV, V0, V1, Mu, SB.
  set (t := Z.of_nat (@length R vals)) in *.
  change (Z.of_nat (length vals)) with t in EN, MV, V0, V1, Mu, SB.
  assert (EB : get_axis nrb1 a = mkAxis (a_size A + t) (a_len A + t) V).
  { rewrite EN. unfold get_axis. cbn [n_axes]. apply nth_lset. auto. }
  rewrite EB in E. cbn [a_knots a_len] in E.
  assert (ELn : (a_len A + t = n + t + p + 1 + 1)%Z) by (rewrite a_len_eq; fold n p; lia).
  rewrite ELn in E.
  assert (Ht : (0 <= t)%Z) by lia.
  destruct (count_le_spec V (n + t + p + 1 + 1) u0 ltac:(lia)) as [C1 [C2 C3]].
  { replace (n + t + p + 1 + 1 - 1)%Z with (n + t + p + 1)%Z by lia. exact MV. }
  destruct (count_lt_spec V (n + t + p + 1 + 1) u1 ltac:(lia)) as [G1 [G2 G3]].
  { replace (n + t + p + 1 + 1 - 1)%Z with (n + t + p + 1)%Z by lia. exact MV. }
  set (c0 := count_le (N:=Rn) V (n + t + p + 1 + 1) u0) in *. set (i1 := count_lt (N:=Rn) V (n + t + p + 1 + 1) u1) in *.
  set (i0 := (c0 - 1)%Z) in *.
  assert (M0 : (p <= multiplicity V 0 (n + t + p + 1) u0)%Z).
  { rewrite Mu. unfold vals. rewrite countL_app, !countL_repeat.
    destruct (Req_EM_T u0 u0); [|lra]. destruct (Req_EM_T u1 u0); [lra|]. unfold t0. lia. }
  assert (M1 : (p <= multiplicity V 0 (n + t + p + 1) u1)%Z).
  { rewrite Mu. unfold vals. rewrite countL_app, !countL_repeat.
    destruct (Req_EM_T u0 u1); [lra|]. destruct (Req_EM_T u1 u1); [|lra]. unfold t1. lia. }
  pose proof (block_below V (n + t + p + 1) u0 p c0 MV ltac:(lia) M0 C1 C2 C3) as BB.
  pose proof (block_above V (n + t + p + 1) u1 p i1 MV ltac:(lia) M1 G1 G2 G3) as BA.
  assert (Hi0 : (p <= i0)%Z).
  { unfold i0. destruct (Z_le_gt_dec (p + 1) c0); [lia|]. assert (u0 < V p) by (apply C3; lia). lra. }
  assert (Hi1 : (i1 <= n + t + 1)%Z).
  { destruct (Z_le_gt_dec i1 (n + t + 1)); auto. assert (V (n + t + 1)%Z < u1) by (apply G2; lia). lra. }
  injection E as <-.
  assert (From : forall k, (0 <= k <= n + t + p + 1)%Z -> V k = u0 \/ V k = u1 \/ exists k', (0 <= k' <= n + p + 1)%Z /\ V k = U k').
  { intros k Hk. pose proof (multiplicity_one V 0 (n + t + p + 1) k Hk) as P. rewrite Mu in P.
    destruct (in_dec Req_EM_T (V k) vals) as [I|I].
    - apply InV in I. destruct I as [I|[I|[]]]; auto.
    - rewrite (countL_notin _ _ I) in P. destruct (multiplicity_ex U 0 (n + p + 1) (V k) ltac:(lia)) as (k' & H1 & H2). right. right. exists k'. auto. }
  intros B j. assert (EBB : B = mkAxis (N:=Rn) (i1 - (i0 - p)) (2 * p + (i1 - i0 + 1)) (fun x => if (x <? p)%Z then V i0 else if (x <=? p + (i1 - i0))%Z then V (i0 + (x - p))%Z else V i1)).
  { unfold B, get_axis. cbn [n_axes]. apply nth_lset. rewrite EN. cbn [n_axes]. rewrite lset_length. auto. }
  rewrite EBB. cbn [a_len a_knots]. intros Hj.
  destruct (Z.ltb_spec j p); [apply From; lia|]. destruct (Z.leb_spec j (p + (i1 - i0))); apply From; lia.
Qed.

Lemma near_hom out x y c us us1 tol : (forall k, hom x k us1 = hom y k us) -> SpecJoin.near out x c us us1 tol -> SpecJoin.near out y c us us tol.
Proof. intros H [N1 N2]. unfold SpecJoin.near, pt in *. rewrite !H in *. split; auto. Qed.

Theorem cut_join junk1 junk2 junk3 junk4 nrb a u : wf_nurbs nrb -> cuttable nrb a u ->
  let A := get_axis nrb a in
  exists first second second' out t,
    slice (N:=Rn) junk1 nrb (Z.of_nat a) None (Some u) = Ok first /\ slice (N:=Rn) junk2 nrb (Z.of_nat a) (Some u) None = Ok second /\
    remap (N:=Rn) second (Z.of_nat a) (Some 0) (Some (a_hi A - u)) = Ok second' /\
    join (N:=Rn) sqrt junk3 junk4 first second' (Z.of_nat a) = Ok out /\
    wf_nurbs out /\ n_comp out = n_comp nrb /\ length (n_axes out) = length (n_axes nrb) /\
    (forall b, (b < length (n_axes nrb))%nat -> let B := get_axis out b in let B0 := get_axis nrb b in a_deg B = a_deg B0 /\ a_lo B = a_lo B0 /\ a_hi B = a_hi B0) /\
    (0 <= t <= a_deg A - 1)%Z /\
    forall us, in_box (spec_axes nrb) us -> in_box (spec_axes out) us /\
      forall c, (0 <= c < n_comp nrb)%Z -> SpecJoin.near out nrb c us us (IZR t * (/ 1000000000 * hom nrb (n_comp nrb - 1) (lset a u (map a_hi (n_axes nrb))))).
Proof.
  intros W [Ha Oth Ap Al Ins Nr] A. set (d := length (n_axes nrb)) in *. fold A in Al, Ins, Nr.
  assert (PA : forall x : nurbs Rn, length (n_axes x) = d -> py_axis (n_dim x) (Z.of_nat a) = Ok a).
  { intros x Lx. rewrite py_axis_nat by (unfold n_dim; lia). rewrite Nat2Z.id. auto. }
  pose proof (Ap a Ha) as ApA. fold A in ApA.
  pose proof (wf_get_axis _ _ W Ha) as WA. fold A in WA. assert (Wp : (1 <= a_deg A)%Z) by apply WA.
  assert (Wk : wf_knots (a_size A - 1) (a_deg A) (a_knots A)) by apply WA. pose proof (wf_n _ _ _ Wk) as Hn.
  rewrite a_lo_eq, a_hi_eq in Ins. pose proof (a_len_eq A) as EL.
  assert (SepA : forall j, (0 <= j < a_len A)%Z -> separated (a_knots A) 0 (a_size A - 1 + a_deg A + 1) (a_knots A j)).
  { intros j Hj k Hk. destruct (ApA k j) as [E|E]; [lia|lia|left; auto|right; lra]. }
  assert (SepU : separated (a_knots A) 0 (a_size A - 1 + a_deg A + 1) u).
  { intros k Hk. destruct (Nr k) as [E|E]; [lia|left; auto|right; lra]. }
  assert (Far : forall j, (0 <= j < a_len A)%Z -> u = a_knots A j \/ / 4503599627370496 <= Rabs (u - a_knots A j)).
  { intros j Hj. destruct (Nr j Hj) as [E|E]; [left; auto|right]. rewrite Rabs_minus_sym. lra. }
  assert (Far' : forall j, (0 <= j < a_len A)%Z -> a_knots A j = u \/ / 4503599627370496 <= Rabs (a_knots A j - u)).
  { intros j Hj. destruct (Nr j Hj) as [E|E]; [left; auto|right; lra]. }
  assert (S1 : separated_list (a_knots A) (a_size A - 1 + a_deg A + 1) [a_knots A (a_deg A); u]).
  { intros x [<-|[<-|[]]]; split; auto; try (apply SepA; lia); intros y [<-|[<-|[]]]; auto; (apply Far || apply Far'); lia. }
  assert (S2 : separated_list (a_knots A) (a_size A - 1 + a_deg A + 1) [u; a_knots A (a_size A - 1 + 1)%Z]).
  { intros x [<-|[<-|[]]]; split; auto; try (apply SepA; lia); intros y [<-|[<-|[]]]; auto; (apply Far || apply Far'); lia. }
  destruct (slice_ok nrb (Z.of_nat a) a None (Some u) junk1 W (PA nrb eq_refl) Al S1) as [P1 E1]; try (fold A; cbn in *; lra).
  destruct (slice_ok nrb (Z.of_nat a) a (Some u) None junk2 W (PA nrb eq_refl) Al S2) as [P2 E2]; try (fold A; cbn in *; lra).
  pose proof (slice_from nrb (Z.of_nat a) a None (Some u) junk1 P1 W (PA nrb eq_refl) S1 E1) as F1.
  pose proof (slice_from nrb (Z.of_nat a) a (Some u) None junk2 P2 W (PA nrb eq_refl) S2 E2) as F2.
  destruct (slice_spec nrb (Z.of_nat a) a None (Some u) junk1 P1 W (PA nrb eq_refl) Al S1 E1) as (_ & _ & _ & W1 & C1 & (B1 & X1 & D1 & L1 & H1) & HH1 & _).
  destruct (slice_spec nrb (Z.of_nat a) a (Some u) None junk2 P2 W (PA nrb eq_refl) Al S2 E2) as (_ & _ & _ & W2 & C2 & (B2 & X2 & D2 & L2 & H2) & HH2 & _).
  fold A in D1, L1, H1, D2, L2, H2, F1, F2. cbn in F1, F2.
  assert (G1 : get_axis P1 a = B1) by (unfold get_axis; rewrite X1; apply nth_lset; auto).
  assert (G2 : get_axis P2 a = B2) by (unfold get_axis; rewrite X2; apply nth_lset; auto).
  rewrite G1 in F1. rewrite G2 in F2.
  assert (Len1 : length (n_axes P1) = d) by (rewrite X1; apply lset_length).
  assert (Len2 : length (n_axes P2) = d) by (rewrite X2; apply lset_length).
  assert (lo1 : a_lo B1 = a_lo A) by (rewrite a_lo_eq, D1; exact L1). assert (hi1 : a_hi B1 = u) by (rewrite a_hi_eq; exact H1).
  assert (lo2 : a_lo B2 = u) by (rewrite a_lo_eq, D2; exact L2). assert (hi2 : a_hi B2 = a_hi A) by (rewrite !a_hi_eq; exact H2).
  assert (LHA : a_lo A < a_hi A) by (rewrite a_lo_eq, a_hi_eq; cbn in *; lra).
  assert (InsA : a_lo A < u < a_hi A) by (rewrite a_lo_eq, a_hi_eq; exact Ins).
  destruct (remap_ok P2 (Z.of_nat a) a (Some 0) (Some (a_hi A - u)) W2 (PA P2 Len2)) as [Q E3]; [cbn in *; lra|].
  destruct (remap_full P2 (Z.of_nat a) a (Some 0) (Some (a_hi A - u)) Q W2 (PA P2 Len2) E3) as (_ & WQ & (V & XQ & EV & LQ & HQ) & HHQ & _).
  rewrite G2 in XQ, EV, LQ, HQ, HHQ. rewrite D2, L2, H2 in EV, HHQ.
  assert (SH : forall x : R, 0 + (x - u) * (a_hi A - u - 0) / (a_knots A (a_size A - 1 + 1)%Z - u) = x - u).
  { intros x. rewrite <- a_hi_eq. field. lra. }
  assert (EV' : forall i, V i = a_knots B2 i - u) by (intros i; rewrite EV; apply SH).
  assert (HHQ' : forall us c, in_box (spec_axes P2) us -> in_box (spec_axes Q) (lset a (nth a us 0 - u) us) /\ hom Q c (lset a (nth a us 0 - u) us) = hom P2 c us).
  { intros us c I. destruct (HHQ us c I) as [I1 I2]. rewrite <- (SH (nth a us 0)). split; [exact I1|exact I2]. }
  clear HHQ EV.
  assert (CQ : n_comp Q = n_comp P2).
  { unfold remap in E3. rewrite (PA P2 Len2) in E3. cbn [bind] in E3. match type of E3 with (if ?b then _ else _) = _ => destruct b end; [congruence|].
    match type of E3 with context[assert ?b] => destruct b end; cbn [assert bind] in E3; [|discriminate]. injection E3 as <-. reflexivity. }
  assert (LenQ : length (n_axes Q) = d) by (rewrite XQ, lset_length; auto).
  set (BQ := mkAxis (N:=Rn) (a_size B2) (a_len B2) V) in *.
  assert (GQ : get_axis Q a = BQ) by (unfold get_axis; rewrite XQ; apply nth_lset; lia).
  assert (DQ : a_deg BQ = a_deg A) by (rewrite <- D2; reflexivity).
  assert (loQ : a_lo BQ = 0) by (rewrite a_lo_eq; exact LQ). assert (hiQ : a_hi BQ = a_hi A - u) by (rewrite a_hi_eq; exact HQ).
  assert (O1 : forall b, b <> a -> get_axis P1 b = get_axis nrb b) by (intros b Hb; unfold get_axis; rewrite X1; apply nth_lset_other; auto).
  assert (O2 : forall b, b <> a -> get_axis P2 b = get_axis nrb b) by (intros b Hb; unfold get_axis; rewrite X2; apply nth_lset_other; auto).
  assert (OQ : forall b, b <> a -> get_axis Q b = get_axis nrb b) by (intros b Hb; rewrite <- O2 by auto; unfold get_axis; rewrite XQ; apply nth_lset_other; auto).
  set (L := lrem a (seq 0 d)). assert (InL : forall b, In b L <-> (b < d /\ b <> a)%nat) by (intros b; apply in_others; auto).
  set (lo := fun b => a_lo (get_axis nrb b) : R). set (hi := fun b => a_hi (get_axis nrb b) : R). set (deg := fun b => a_deg (get_axis nrb b)).
  assert (LH : forall b, (b < d)%nat -> lo b < hi b) by (intros b Hb; apply wf_lohi, wf_get_axis; auto).
  assert (RS : forall b x, (b < d)%nat -> rescale (get_axis nrb b) (lo b) (hi b) x = x).
  { intros b x Hb. unfold rescale. pose proof (LH b Hb). unfold lo, hi in *. cbn in *. field. lra. }
  assert (MV : forall x us us', (forall b, b <> a -> get_axis x b = get_axis nrb b) -> (length us = d)%nat -> moved x L lo hi us us' <-> us' = us).
  { intros x us us' Ox Lu. split.
    - intros [M1 M2]. apply (nth_ext _ _ 0 0); auto. intros b Hb. rewrite M2 by lia. destruct (in_dec Nat.eq_dec b L) as [I|I]; auto.
      apply InL in I. rewrite Ox, RS by (apply I). reflexivity.
    - intros ->. split; auto. intros b Hb. destruct (in_dec Nat.eq_dec b L) as [I|I]; auto. apply InL in I. rewrite Ox, RS by (apply I). reflexivity. }
  assert (Lb : forall x us, length (n_axes x) = d -> in_box (spec_axes x) us -> length us = d).
  { intros x us Lx I. apply in_box_lohi in I. destruct I as [I _]. congruence. }
  assert (ApK : forall v w, (v = a_lo A \/ v = u \/ v = a_hi A \/ exists k, (0 <= k < a_len A)%Z /\ v = a_knots A k) ->
    (w = a_lo A \/ w = u \/ w = a_hi A \/ exists k, (0 <= k < a_len A)%Z /\ w = a_knots A k) -> v = w \/ / 4503599627370496 < Rabs (v - w)).
  { assert (Red : forall v, (v = a_lo A \/ v = u \/ v = a_hi A \/ exists k, (0 <= k < a_len A)%Z /\ v = a_knots A k) -> v = u \/ exists k, (0 <= k < a_len A)%Z /\ v = a_knots A k).
    { intros v [->|[->|[->|H]]]; auto; right; [exists (a_deg A)|exists (a_size A - 1 + 1)%Z]; (split; [lia|]); [apply a_lo_eq|apply a_hi_eq]. }
    intros v w Hv Hw. apply Red in Hv. apply Red in Hw. destruct Hv as [->|(k & Hk & ->)], Hw as [->|(k' & Hk' & ->)]; auto.
    destruct (Nr k' Hk') as [E|E]; [left; auto|right; rewrite Rabs_minus_sym; auto]. }
  assert (CT : continues P1 Q d a L lo hi deg (a_deg A)).
  { split; auto.
    - congruence.
    - split.
      + intros x [<-|[<-|[]]]; auto.
      + intros b I. apply InL in I. apply I.
      + unfold L. rewrite lrem_seq by auto. apply NoDup_remove_1 with (a := a). change (seq 0 a ++ a :: seq (0 + S a) (d - S a)) with (seq 0 a ++ seq (0 + a) (1 + (d - S a))). rewrite <- seq_app. apply seq_NoDup.
      + intros x b [<-|[<-|[]]] I; apply InL in I; [rewrite O1 by apply I|rewrite OQ by apply I]; apply Oth; apply I.
      + intros x b [<-|[<-|[]]] I; apply InL in I; cbv zeta; [rewrite O1 by apply I|rewrite OQ by apply I]; unfold lo, hi, deg; (split; [apply Rle_refl|]); split; [apply Rle_refl|lia|apply Rle_refl|lia].
      + intros b I. pose proof I as I'. apply InL in I'. split; [|split]; exists P1; (split; [left; auto|rewrite O1 by apply I'; reflexivity]).
      + intros x b [<-|[<-|[]]] I; apply InL in I; cbv zeta; left; [rewrite O1 by apply I|rewrite OQ by apply I]; reflexivity.
      + intros b x x' j j' I Hx Hx'. pose proof I as I'. apply InL in I'. cbv zeta.
        assert (get_axis x b = get_axis nrb b) as -> by (destruct Hx as [<-|[<-|[]]]; [apply O1|apply OQ]; apply I').
        assert (get_axis x' b = get_axis nrb b) as -> by (destruct Hx' as [<-|[<-|[]]]; [apply O1|apply OQ]; apply I').
        intros Hj Hj'. rewrite !RS by apply I'. apply Ap; auto. apply I'.
    - rewrite G1. intros j j' Hj Hj'. apply ApK; [destruct (F1 j Hj) as [->|[->|(k & Hk & ->)]]|destruct (F1 j' Hj') as [->|[->|(k & Hk & ->)]]]; auto;
        right; right; right; exists k; (split; [lia|reflexivity]).
    - rewrite GQ. intros j j' Hj Hj'. change (a_len BQ) with (a_len B2) in Hj, Hj'. change (a_knots BQ) with V. rewrite !EV'.
      replace (a_knots B2 j - u - (a_knots B2 j' - u)) with (a_knots B2 j - a_knots B2 j') by (cbn; ring).
      destruct (ApK (a_knots B2 j) (a_knots B2 j')) as [->|E]; auto;
      [destruct (F2 j Hj) as [->|[->|(k & Hk & ->)]]|destruct (F2 j' Hj') as [->|[->|(k & Hk & ->)]]]; auto;
        right; right; right; eexists; (split; [|reflexivity]); lia.
    - rewrite G1, GQ, DQ. change (a_deg B1) with (a_deg B1). rewrite D1. lia.
    - left. rewrite G1. exact D1.
    - left. rewrite GQ. exact DQ.
    - rewrite GQ. exact loQ.
    - intros us1 us2 v1 v2 c I1 I2 M1 M2 ER K1 K2 Hc. pose proof (Lb _ _ Len1 I1) as N1. pose proof (Lb _ _ LenQ I2) as N2.
      apply (MV P1 us1 v1 O1 N1) in M1. apply (MV Q us2 v2 OQ N2) in M2. subst v1 v2. rewrite G1, hi1 in K1. rewrite GQ, loQ in K2.
      assert (B : in_box (spec_axes P2) us1).
      { apply in_box_lohi. rewrite Len2. split; auto. intros b Hb. destruct (Nat.eq_dec b a) as [->|Hne]; [rewrite G2, K1, lo2, hi2; cbn in *; lra|].
        rewrite O2 by auto. rewrite <- (O1 b Hne). apply in_box_lohi in I1. apply (proj2 I1). lia. }
      destruct (HHQ' us1 c B) as [_ H]. rewrite (proj2 (HH1 us1 c I1)). rewrite <- (proj2 (HH2 us1 c B)). rewrite <- H. f_equal.
      rewrite lset_eq_lins by lia. rewrite ER. rewrite K1. rewrite <- (lins_lrem a 0 us2) at 2 by lia. rewrite K2. f_equal. cbn. ring. }
  destruct (join_user junk3 junk4 P1 Q d a L lo hi deg (a_deg A) W1 WQ CT) as (out & t & EJ & WO & CO & LO & (DO & loO & hiO) & KO & Ht & HO1 & HO2).
  rewrite G1 in loO, hiO, HO2. rewrite GQ in hiO.
  assert (TW : top_weight P1 = hom nrb (n_comp nrb - 1) (lset a u (map a_hi (n_axes nrb)))).
  { unfold top_weight. rewrite C1. assert (EM : map a_hi (n_axes P1) = lset a u (map a_hi (n_axes nrb))).
    { rewrite X1, map_lset, hi1. reflexivity. }
    rewrite EM. apply HH1. apply in_box_lohi. rewrite lset_length, map_length, Len1. split; auto. intros b Hb.
    destruct (Nat.eq_dec b a) as [->|Hne]; [rewrite nth_lset by (rewrite map_length; auto); rewrite G1, lo1, hi1; cbn in *; lra|].
    rewrite nth_lset_other by auto. rewrite nth_his, O1 by auto. pose proof (LH b Hb). unfold lo, hi in *. lra. }
  rewrite TW, C1 in HO1, HO2.
  exists P1, P2, Q, out, t. split; auto. split; auto. split; auto. split; auto. split; auto. split; [congruence|]. split; auto.
  split. { intros b Hb. cbv zeta. destruct (Nat.eq_dec b a) as [->|Hne].
    - split; auto. rewrite loO, hiO, lo1, hi1, hiQ. split; auto. fold A. cbn. ring.
    - destruct (KO b) as (_ & K1 & K2 & K3); [apply InL; auto|]. auto. }
  split; auto. intros us I. pose proof (Lb _ _ eq_refl I) as Lu. pose proof I as I'. apply in_box_lohi in I'. destruct I' as [_ I'].
  pose proof (I' a Ha) as Ia. fold A in Ia.
  destruct (Rle_lt_dec (nth a us 0) u) as [Le|Gt].
  - assert (B : in_box (spec_axes P1) us).
    { apply in_box_lohi. rewrite Len1. split; auto. intros b Hb. destruct (Nat.eq_dec b a) as [->|Hne]; [rewrite G1, lo1, hi1; cbn in *; lra|]. rewrite O1 by auto. apply I'. auto. }
    destruct (HO1 us us B) as [K1 K2]; [apply MV; auto|]. split; auto. intros c Hc. apply (near_hom out P1 nrb c us us); auto. intros k. apply HH1; auto.
  - assert (B : in_box (spec_axes P2) us).
    { apply in_box_lohi. rewrite Len2. split; auto. intros b Hb. destruct (Nat.eq_dec b a) as [->|Hne]; [rewrite G2, lo2, hi2; cbn in *; lra|]. rewrite O2 by auto. apply I'. auto. }
    pose proof (proj1 (HHQ' us 0%Z B)) as BQ'. set (vs := lset a (nth a us 0 - u) us) in *.
    assert (Lv : length vs = d) by (unfold vs; rewrite lset_length; auto).
    destruct (HO2 vs vs BQ') as [K1 K2]; [apply MV; auto|].
    assert (EB : lset a (nth a vs 0 + a_hi B1) vs = us).
    { unfold vs. rewrite nth_lset by lia. rewrite hi1. rewrite lset_eq_lins by (rewrite lset_length; lia). rewrite lrem_lset. rewrite <- (lins_lrem a 0 us) at 3 by lia. f_equal. cbn. ring. }
    rewrite EB in K1, K2. split; auto. intros c Hc. apply (near_hom out Q nrb c us vs); auto. intros k. pose proof (proj2 (HHQ' us k B)) as X. fold vs in X. rewrite X. apply HH2; auto.
Qed.
