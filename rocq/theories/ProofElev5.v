(** elevate at the level of the class. *)
From Coq Require Import ZArith Reals List Lia Lra Bool.
From Verif Require Import Num Loop ModelBspline ModelBSp ModelNurbs Spec SpecElev SumZ BPiece BLink ProofSpan ProofInsert SpecNurbs ProofNet ProofCall ProofNurbs
  ProofMethods ProofIga ProofElev1 ProofElev2 ProofElev3 ProofElev4.
Import ListNotations.
Local Open Scope R_scope.

Lemma spans_hits n p U : wf_knots n p U -> nonempty_spans U p n = Z.of_nat (length (hits (dist_ne U) p n)).
Proof.
  intros W. unfold nonempty_spans, hits. pose proof (wf_n _ _ _ W). pose proof (wf_p _ _ _ W).
  assert (G : forall c i, (p <= i)%Z -> (i + Z.of_nat c <= n + 1)%Z -> spansN c i U = Z.of_nat (length (filter (dist_ne U) (zseq c i)))).
  { induction c; intros i H1 H2; auto. cbn [spansN zseq filter]. rewrite IHc by lia.
    assert (U i <= U (i + 1)%Z) by (apply (wf_mono _ _ _ W); lia). unfold dist_ne at 2.
    destruct (Rlt_dec (U i) (U (i + 1)%Z)) as [L|L]; destruct (Reqb (U i) (U (i + 1)%Z)) eqn:E; cbn [negb].
    - apply Reqb_true in E. lra.
    - cbn [length]. lia.
    - lia.
    - apply Reqb_false in E. lra. }
  apply G; lia.
Qed.

Theorem elevate_knots nrb ax a t junk junk2 : wf_nurbs nrb -> py_axis (n_dim nrb) ax = Ok a -> (0 <= t)%Z ->
  let A := get_axis nrb a in let n := (a_size A - 1)%Z in let p := a_deg A in let U := a_knots A in
  clamped n p U -> no_tiny_span U p n ->
  let s := nonempty_spans U p n in
  exists nrb' V, elevate (N:=Rn) junk junk2 nrb ax t = Ok nrb' /\ n_comp nrb' = n_comp nrb /\
    n_axes nrb' = lset a (mkAxis (a_size A + t * s) (a_len A + t * s + t) V) (n_axes nrb) /\
    nondecreasing V 0 (n + t * s + (p + t) + 1) /\
    (forall j, (0 <= j <= n + p + 1)%Z -> multiplicity V 0 (n + t * s + (p + t) + 1) (U j) = (multiplicity U 0 (n + p + 1) (U j) + t)%Z) /\
    (forall x, (forall j, (0 <= j <= n + p + 1)%Z -> U j <> x) -> multiplicity V 0 (n + t * s + (p + t) + 1) x = 0%Z).
Proof.
  intros W Ea Ht A n p U [Clo Chi] He s.
  pose proof (py_axis_dim _ _ _ Ea) as Ha. pose proof (wf_get_axis _ _ W Ha) as WA. fold A in WA.
  assert (Wk : wf_knots n p U) by apply WA. assert (Wp : (1 <= p)%Z) by apply WA. pose proof (wf_n _ _ _ Wk) as Hn.
  unfold elevate. unfold assert, check. destruct (Z.leb_spec 0 t); [|lia]. cbn [bind].
  destruct (Z.eqb_spec t 0) as [->|Hne].
  - exists nrb, U. split; auto. split; auto. rewrite Z.mul_0_l, !Z.add_0_r. split.
    + replace (mkAxis (a_size A) (a_len A) U) with A by (unfold U; destruct A; reflexivity). unfold A, get_axis. rewrite lset_nth. reflexivity.
    + split; [apply Wk|]. split; [intros; lia|]. intros x Hx. apply multiplicity_none. auto.
  - rewrite Ea. cbn [bind]. fold A. fold p U n.
    destruct (Z.leb_spec 1 n); [|lia]. cbn [bind]. destruct (Z.leb_spec 1 p); [|lia]. cbn [bind].
    pose proof (wf_last _ _ _ Wk). rewrite (CountSpans_ok n p U) by (try lia; lra). rewrite <- spans_hits by auto. fold s.
    eexists. eexists. split; [reflexivity|]. cbn [n_comp n_axes]. split; auto. split.
    { f_equal. f_equal; [unfold n; lia|]. rewrite a_len_eq. unfold p, n. lia. }
    pose proof (DegreeElevate_knots n p t U (fun _ => 0) Wk Wp ltac:(lia) Chi He junk junk2) as F.
    assert (Ekh : kh p t U n = (n + t * s)%Z) by (unfold kh, cnt, s; rewrite spans_hits by auto; reflexivity).
    unfold bsp_Elevate. rewrite <- Ekh. split; [|split].
    + apply FinalK_nondec; auto. lia.
    + intros j Hj. apply (FinalK_mult n p t U Wk Wp ltac:(lia) Clo Chi _ _ F) with (j := j); auto.
    + intros x Hx. apply (FinalK_mult n p t U Wk Wp ltac:(lia) Clo Chi _ _ F). auto.
Qed.

Theorem elevate_spec nrb ax a t junk junk2 : wf_nurbs nrb -> py_axis (n_dim nrb) ax = Ok a -> (0 <= t)%Z ->
  let A := get_axis nrb a in let n := (a_size A - 1)%Z in let p := a_deg A in let U := a_knots A in
  clamped n p U -> no_tiny_span U p n -> mult_le n p U -> elev_guard n p t U ->
  exists nrb', elevate (N:=Rn) junk junk2 nrb ax t = Ok nrb' /\ preserves nrb nrb'.
Proof.
  intros W Ea Ht A n p U [Clo Chi] He Hm Hg.
  pose proof (py_axis_dim _ _ _ Ea) as Ha. pose proof (wf_get_axis _ _ W Ha) as WA. fold A in WA.
  assert (Wk : wf_knots n p U) by apply WA. assert (Wp : (1 <= p)%Z) by apply WA. pose proof (wf_n _ _ _ Wk) as Hn.
  unfold elevate. unfold assert, check. destruct (Z.leb_spec 0 t); [|lia]. cbn [bind].
  destruct (Z.eqb_spec t 0) as [->|Hne].
  { exists nrb. split; auto. apply preserves_refl; auto. }
  assert (Ht1 : (1 <= t)%Z) by lia.
  rewrite Ea. cbn [bind]. fold A. fold p U n.
  destruct (Z.leb_spec 1 n); [|lia]. cbn [bind]. destruct (Z.leb_spec 1 p); [|lia]. cbn [bind].
  pose proof (wf_last _ _ _ Wk). rewrite (CountSpans_ok n p U) by (try lia; lra).
  eexists. split; [reflexivity|].
  assert (Ekh : (n + t * Z.of_nat (length (hits (dist_ne U) p n)) = kh p t U n)%Z) by reflexivity.
  rewrite Ekh. clear Ekh. unfold bsp_Elevate.
  pose proof (DegreeElevate_knots n p t U (fun _ => 0) Wk Wp Ht1 Chi He junk junk2) as FK.
  set (V := fst (DegreeElevate (N:=Rn) n p U (fun _ => n0 Rn) t junk junk2)) in *. change (FinalK n p t U V) in FK.
  assert (Dg : forall V', a_deg (N:=Rn) (mkAxis (kh p t U n + 1) (kh p t U n + p + t + 2) V') = (p + t)%Z) by (intros; unfold a_deg; simpl; lia).
  assert (G : forall P, Final n p t U P V (snd (DegreeElevate (N:=Rn) n p U P t junk junk2))).
  { intros P. destruct (DegreeElevate_final n p t U P Wk Wp Ht1 Clo Chi Hm He Hg junk junk2) as (Uh & Q & E & F). rewrite E. cbn [snd].
    pose proof (DegreeElevate_knots n p t U P Wk Wp Ht1 Chi He junk junk2) as FK'. rewrite E in FK'. cbn [fst] in FK'.
    pose proof (FinalK_unique n p t U Wk Wp V Uh FK FK') as Eq. destruct F as (_ & _ & F3). destruct FK as [F1 F2]. split; [auto|]. split; [auto|].
    intros s Ss i Hi. rewrite (F3 s Ss i Hi). f_equal. apply wz_ext. intros j Hj. symmetry. pose proof Ss as [Hs _].
    pose proof (kh_mono n p t U Ht1 p s ltac:(lia)) as K1. rewrite kh_p with (n := n) in K1 by auto. pose proof (kh_mono n p t U Ht1 s n ltac:(lia)). apply Eq. lia. }
  pose proof (Final_wf n p t U _ Wk Wp Ht1 V _ (G (fun _ => 0))) as WV.
  pose proof (kh_mono n p t U Ht1 p n ltac:(lia)) as K1. rewrite kh_p with (n := n) in K1 by auto.
  apply axis_change; auto.
  - split; cbn [x_n x_p x_U spec_ax a_size a_knots]; rewrite Dg; [lia|]. replace (kh p t U n + 1 - 1)%Z with (kh p t U n) by lia. exact WV.
  - fold A. split; cbn [x_n x_p x_U spec_ax a_size a_knots]; rewrite ?Dg; fold p U n.
    + destruct FK as [_ [B0 _]]. symmetry. apply B0. lia.
    + destruct FK as [B0 _]. symmetry. replace (kh p t U n + 1 - 1 + 1)%Z with (kh p t U n + 1)%Z by lia. apply B0. lia.
  - fold A. fold p U n. intros P x Hx. cbn [a_size a_knots]. rewrite Dg. replace (kh p t U n + 1 - 1)%Z with (kh p t U n) by lia.
    apply (Final_curve n p t U P Wk Wp Ht1 V _ (G P) x Hx).
Qed.

Theorem elevate_geometry nrb ax a times junk junk2 : wf_nurbs nrb -> py_axis (n_dim nrb) ax = Ok a -> (0 <= times)%Z ->
  let A := get_axis nrb a in let n := (a_size A - 1)%Z in let p := a_deg A in let U := a_knots A in
  clamped n p U -> no_tiny_span U p n -> mult_le n p U ->
  ((p <= 9)%Z \/ elev_guard n p times U) ->
  exists nrb', elevate (N:=Rn) junk junk2 nrb ax times = Ok nrb' /\ wf_nurbs nrb' /\ same_evaluation nrb nrb'.
Proof.
  intros W Ea Ht A n p U C He Hm Hg. destruct (Z.eq_dec times 0) as [->|Hne].
  - exists nrb. split; [reflexivity|]. split; auto. apply preserves_evaluation; auto. apply preserves_refl; auto.
  - assert (G : elev_guard n p times U) by (destruct Hg; auto; apply elev_guard_low; lia).
    destruct (elevate_spec nrb ax a times junk junk2 W Ea Ht C He Hm G) as (nrb' & E & Pr).
    exists nrb'. split; auto. split; [apply Pr|apply preserves_evaluation; auto].
Qed.

Theorem elevate_bookkeeping nrb ax a times junk junk2 : wf_nurbs nrb -> py_axis (n_dim nrb) ax = Ok a -> (0 <= times)%Z ->
  let A := get_axis nrb a in let n := (a_size A - 1)%Z in let p := a_deg A in let U := a_knots A in
  clamped n p U -> no_tiny_span U p n ->
  let s := nonempty_spans U p n in
  exists nrb', elevate (N:=Rn) junk junk2 nrb ax times = Ok nrb' /\
    n_comp nrb' = n_comp nrb /\ n_dim nrb' = n_dim nrb /\ (forall b, b <> a -> get_axis nrb' b = get_axis nrb b) /\
    let A' := get_axis nrb' a in let V := a_knots A' in let last := (a_len A' - 1)%Z in
    a_deg A' = (p + times)%Z /\ a_size A' = (a_size A + times * s)%Z /\
    nondecreasing V 0 last /\
    (forall j, (0 <= j <= n + p + 1)%Z -> multiplicity V 0 last (U j) = (multiplicity U 0 (n + p + 1) (U j) + times)%Z) /\
    (forall x, (forall j, (0 <= j <= n + p + 1)%Z -> U j <> x) -> forall i, (0 <= i <= last)%Z -> V i <> x).
Proof.
  intros W Ea Ht A n p U C He s. pose proof (py_axis_dim _ _ _ Ea) as Ha.
  destruct (elevate_knots nrb ax a times junk junk2 W Ea Ht C He) as (nrb' & V & E & Ec & Eax & M & M1 & M2).
  exists nrb'. split; auto. split; auto. unfold n_dim, get_axis. rewrite Eax. rewrite lset_length. split; auto. split.
  - intros b Hb. apply nth_lset_other. auto.
  - cbv zeta. rewrite nth_lset by auto. cbn [a_len a_size a_knots].
    fold A n p U s in M, M1, M2. fold A n p U s.
    assert (El : (a_len A + times * s + times - 1 = n + times * s + (p + times) + 1)%Z) by (rewrite a_len_eq; unfold n, p; lia).
    rewrite El. split; [unfold a_deg; cbn [a_len a_size]; unfold p, a_deg; lia|]. split; auto. split; auto. split; auto.
    intros x Hx i Hi Ei. specialize (M2 x Hx). rewrite (multiplicity_split V 0 i) in M2 by lia.
    rewrite (multiplicity_split V 0 (i - 1) i) in M2 by lia. rewrite (multiplicity_all V (i - 1 + 1) i) in M2 by (try lia; intros j Hj; replace j with i by lia; auto).
    pose proof (multiplicity_nonneg V 0 (i - 1) x). pose proof (multiplicity_nonneg V (i + 1) (n + times * s + (p + times) + 1) x). lia.
Qed.
