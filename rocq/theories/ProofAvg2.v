(** Which operations replace control points by averages. *)
From Coq Require Import ZArith Reals List Lia Lra Bool Permutation FunctionalExtensionality.
From Verif Require Import Num Loop ModelBspline ModelBSp ModelNurbs ModelIga ModelCad Spec SpecElev SpecCompat SumZ BPiece BLink BIndep ProofSpan BInsert BRep
  ProofInsert ProofCut ProofRefine SpecNurbs ProofNet ProofCall ProofNurbs ProofMethods ProofMethods2 ProofMethods3 ProofGeom ProofGeom2 ProofOk ProofSlice ProofIga ProofIga2
  ProofElev1 ProofElev4 ProofElev5 ProofClamp ProofUnclamp ProofCompat1 ProofCompat3 ProofRemove4 ProofUniq ProofUniq2 ProofAvg.
Import ListNotations.
Local Open Scope R_scope.

Lemma spec_deg (A : axis Rn) t V : a_deg (mkAxis (N:=Rn) (a_size A + t) (a_len A + t) V) = a_deg A.
Proof. unfold a_deg. cbn [a_len a_size]. lia. Qed.

(** ** insert, refine, clamp *)
Theorem insert_thins x ax a u times junk y : wf_nurbs x -> bounded_knots x -> py_axis (n_dim x) ax = Ok a ->
  op_ok (Insert u times) (get_axis x a) -> insert (N:=Rn) junk x ax u times = Ok y -> averages_kind true a x y /\ bounded_knots y.
Proof.
  intros W Bk Ea [Hs Hi] E. pose proof (py_axis_dim _ _ _ Ea) as Ha. pose proof (wf_get_axis _ _ W Ha) as [Hp Wk].
  cbn [spec_ax x_n x_p x_U] in *. pose proof (wf_n _ _ _ Wk) as Hn. pose proof (wf_mono _ _ _ Wk) as M.
  destruct (insert_spec x ax a u times junk y W Ea Hs Hi E) as (D & H1 & H2 & P & V & EX & MV & CV).
  set (A := get_axis x a) in *. set (t := match times with Some t => t | None => _ end) in *.
  assert (Bd : bounded_knots y).
  { apply bounded_of. intros c Hc w. rewrite (preserves_dim _ _ P) in Hc. rewrite (get_lset x y a _ c EX Ha).
    pose proof (bounded_at x c Bk ltac:(lia) w) as Bc. destruct (Nat.eqb_spec c a) as [->|Hne]; auto. fold A in Bc.
    rewrite spec_deg. unfold mulA in *. rewrite spec_deg. cbn [a_size a_knots].
    replace (a_size A + t - 1 + a_deg A + 1)%Z with (a_size A - 1 + t + a_deg A + 1)%Z by lia. rewrite CV.
    destruct (Req_EM_T w u) as [->|]; lia. }
  split; auto. apply (averages_of true x y a _ W Ha P EX Bd). fold A. rewrite spec_deg. cbn [a_size a_knots].
  replace (a_size A + t - 1)%Z with (a_size A - 1 + t)%Z by lia.
  apply (avg_added true (a_deg A) (a_size A - 1) (a_knots A) (repeat u (Z.to_nat t)) t V); auto; try lia.
  - intros v Hv. apply repeat_spec in Hv. subst. exact D.
  - intros v. rewrite CV, countL_repeat. destruct (Req_EM_T v u), (Req_EM_T u v); try congruence; lia.
Qed.
Theorem insert_averages x ax a u times junk y : wf_nurbs x -> bounded_knots x -> py_axis (n_dim x) ax = Ok a ->
  op_ok (Insert u times) (get_axis x a) -> insert (N:=Rn) junk x ax u times = Ok y -> averages a x y /\ bounded_knots y.
Proof. intros. split; [eapply averages_plain|]; eapply insert_thins; eauto. Qed.

Lemma sorted_ends (s : list R) v : sorted s -> In v s -> hd 0 s <= v /\ v <= last s 0.
Proof.
  intros So I. destruct (In_nth _ _ 0 I) as (k & Hk & Ek).
  assert (L1 : nth 0 s 0 <= nth k s 0) by (apply (sorted_nth s 0); auto; lia).
  assert (L2 : nth k s 0 <= nth (length s - 1) s 0) by (apply (sorted_nth s 0); auto; lia).
  rewrite Ek in L1, L2.
  assert (F : nth 0 s 0 = hd 0 s) by (destruct s; reflexivity).
  assert (G : nth (length s - 1) s 0 = last s 0).
  { clear. induction s as [|z s IH]; auto. destruct s as [|z' s]; auto.
    change (last (z :: z' :: s) 0) with (last (z' :: s) 0). rewrite <- IH. cbn [length].
    replace (S (S (length s)) - 1)%nat with (S (length s)) by lia. replace (S (length s) - 1)%nat with (length s) by lia. reflexivity. }
  rewrite F in L1. rewrite G in L2. auto.
Qed.
Lemma refine_in x ax a values junk y : py_axis (n_dim x) ax = Ok a -> refine (N:=Rn) junk x ax values = Ok y ->
  forall v, In v values -> a_lo (get_axis x a) <= v <= a_hi (get_axis x a).
Proof.
  intros Ea E v Hv. unfold refine in E. destruct values as [|v0 vs] eqn:EV; [inversion Hv|]. rewrite <- EV in *. clear v0 vs EV.
  rewrite Ea in E. cbn [bind] in E. unfold refine_arg in E. pose proof (sort_perm values) as Pm. pose proof (sort_sorted values) as So.
  set (s := sort (N:=Rn) values) in *. unfold assert in E.
  destruct (nleb Rn (a_lo (get_axis x a)) (hd (n0 Rn) s)) eqn:E1; [|discriminate]. cbn [bind] in E.
  destruct (nleb Rn (last s (n0 Rn)) (a_hi (get_axis x a))) eqn:E2; [|discriminate]. clear E.
  apply Rleb_true in E1. apply Rleb_true in E2.
  assert (I : In v s) by (eapply Permutation_in; [apply Permutation_sym; exact Pm|auto]).
  pose proof (sorted_ends s v So I) as [L1 L2]. split; eapply Rle_trans; eauto.
Qed.
Lemma countL_notin w l : ~ In w l -> countL w l = 0%Z.
Proof. induction l as [|v l IH]; simpl; intros H; auto. rewrite IH by tauto. destruct (Req_EM_T v w); [exfalso; auto|lia]. Qed.

Theorem refine_thins x ax a values junk y : wf_nurbs x -> bounded_knots x -> py_axis (n_dim x) ax = Ok a ->
  op_ok (Refine values) (get_axis x a) -> refine (N:=Rn) junk x ax values = Ok y -> averages_kind true a x y /\ bounded_knots y.
Proof.
  intros W Bk Ea Hh E. pose proof (py_axis_dim _ _ _ Ea) as Ha. pose proof (wf_get_axis _ _ W Ha) as [Hp Wk].
  pose proof (op_spec (Refine values) x ax a junk (fun _ _ => 0) y W Ea Hh E) as (P & _).
  destruct Hh as [Hs Hi]. cbn [spec_ax x_n x_p x_U] in *. pose proof (wf_n _ _ _ Wk) as Hn. pose proof (wf_mono _ _ _ Wk) as M.
  set (A := get_axis x a) in *.
  replace (a_size A - 1 + a_deg A + 1 - 1)%Z with (a_size A - 1 + a_deg A)%Z in Hi by lia.
  destruct (refine_class_spec x ax a values junk y W Ea Hs Hi E) as (_ & V & EX & MV & CV). fold A in EX, MV, CV.
  set (t := Z.of_nat (length values)) in *.
  pose proof (refine_in x ax a values junk y Ea E) as Dv. fold A in Dv. rewrite a_hi_eq, a_lo_eq in Dv.
  assert (CK : forall v, In v values -> (countL v values + multiplicity (a_knots A) 1 (a_size A - 1 + a_deg A) v <= a_deg A)%Z).
  { intros v Hv. assert (Hne : values <> []) by (intros ->; inversion Hv).
    destruct (proj1 (refine_ok x ax a values junk W Ea Hne) (ex_intro _ y E)) as [_ K]. specialize (K v (or_introl Hv)). fold A in K. lia. }
  assert (Cin : forall v, In v values -> a_knots A (a_deg A) < v < a_knots A (a_size A - 1 + 1)%Z).
  { intros v Hv. destruct (Hi v Hv) as [|H]; auto. specialize (CK v Hv). pose proof (countL_In v values Hv). lia. }
  assert (Bd : bounded_knots y).
  { apply bounded_of. intros c Hc w. rewrite (preserves_dim _ _ P) in Hc. rewrite (get_lset x y a _ c EX Ha).
    pose proof (bounded_at x c Bk ltac:(lia) w) as Bc. destruct (Nat.eqb_spec c a) as [->|Hne]; auto. fold A in Bc.
    rewrite spec_deg. unfold mulA in *. rewrite spec_deg. cbn [a_size a_knots].
    replace (a_size A + t - 1 + a_deg A + 1)%Z with (a_size A - 1 + t + a_deg A + 1)%Z by lia. rewrite CV.
    destruct (in_dec Req_EM_T w values) as [I|I]; [|rewrite countL_notin by auto; lia].
    specialize (CK w I). specialize (Cin w I).
    rewrite (multiplicity_split (a_knots A) 0 0) by lia. rewrite (multiplicity_split (a_knots A) (0 + 1) (a_size A - 1 + a_deg A)) by lia.
    rewrite (multiplicity_none (a_knots A) 0 0), (multiplicity_none (a_knots A) (a_size A - 1 + a_deg A + 1)); [replace (0 + 1)%Z with 1%Z by lia; lia| |].
    - intros j Hj. assert (a_knots A (a_size A - 1 + 1)%Z <= a_knots A j) by (apply M; lia). lra.
    - intros j Hj. assert (a_knots A j <= a_knots A (a_deg A)) by (apply M; lia). lra. }
  split; auto. apply (averages_of true x y a _ W Ha P EX Bd). fold A. rewrite spec_deg. cbn [a_size a_knots].
  replace (a_size A + t - 1)%Z with (a_size A - 1 + t)%Z by lia.
  apply (avg_added true (a_deg A) (a_size A - 1) (a_knots A) values t V); auto. lia.
Qed.
Theorem refine_averages x ax a values junk y : wf_nurbs x -> bounded_knots x -> py_axis (n_dim x) ax = Ok a ->
  op_ok (Refine values) (get_axis x a) -> refine (N:=Rn) junk x ax values = Ok y -> averages a x y /\ bounded_knots y.
Proof. intros. split; [eapply averages_plain|]; eapply refine_thins; eauto. Qed.

Lemma clamped_bound n p l r U v : wf_knots n p U -> (1 <= p)%Z -> (multiplicity U 0 (n + p + 1) v <= p + 1)%Z -> (multiplicity (clampLR n p l r U) 0 (n + p + 1) v <= p + 1)%Z.
Proof.
  intros W Hp H. pose proof (wf_n _ _ _ W) as Hn. pose proof (wf_mono _ _ _ W) as M. pose proof (wf_first _ _ _ W) as F. pose proof (wf_last _ _ _ W) as L.
  assert (G : forall U', wf_knots n p U' -> (multiplicity U' 0 (n + p + 1) v <= p + 1)%Z -> (multiplicity (clampR n p U') 0 (n + p + 1) v <= p + 1)%Z).
  { clear. intros U W H. assert (Hp := wf_p _ _ _ W). pose proof (wf_n _ _ _ W) as Hn. pose proof (wf_mono _ _ _ W) as M. pose proof (wf_last _ _ _ W) as L.
    rewrite (multiplicity_split _ 0 n) by lia. destruct (Req_dec v (U (n + 1)%Z)) as [->|Hv].
    - rewrite multiplicity_none.
      + pose proof (multiplicity_le (clampR n p U) (n + 1) (n + p + 1) (U (n + 1)%Z) ltac:(lia)). lia.
      + intros j Hj. unfold clampR. lcase (n + 2)%Z j. cbn [andb]. assert (U j <= U n) by (apply M; lia). lra.
    - rewrite (multiplicity_none _ (n + 1)).
      + rewrite (multiplicity_split _ 0 n) in H by lia. pose proof (multiplicity_nonneg U (n + 1) (n + p + 1) v).
        rewrite (multiplicity_ext (clampR n p U) U 0 n); [lia|]. intros j Hj. unfold clampR. lcase (n + 2)%Z j. reflexivity.
      + intros j Hj. unfold clampR. lcase (n + 2)%Z j; lcase j (n + p + 1)%Z; cbn [andb]; auto. replace j with (n + 1)%Z by lia. auto. }
  assert (K : (multiplicity (clampL p U) 0 (n + p + 1) v <= p + 1)%Z).
  { rewrite (multiplicity_split _ 0 p) by lia. destruct (Req_dec v (U p)) as [->|Hv].
    - rewrite (multiplicity_none _ (p + 1)).
      + pose proof (multiplicity_le (clampL p U) 0 p (U p) ltac:(lia)). lia.
      + intros j Hj. unfold clampL. lcase 0%Z j. lcase j (p - 1)%Z. cbn [andb]. assert (U (p + 1)%Z <= U j) by (apply M; lia). lra.
    - rewrite (multiplicity_none _ 0 p).
      + rewrite (multiplicity_split _ 0 p) in H by lia. pose proof (multiplicity_nonneg U 0 p v).
        rewrite (multiplicity_ext (clampL p U) U (p + 1)); [lia|]. intros j Hj. unfold clampL. lcase 0%Z j. lcase j (p - 1)%Z. reflexivity.
      + intros j Hj. unfold clampL. lcase 0%Z j; lcase j (p - 1)%Z; cbn [andb]; auto. replace j with p by lia. auto. }
  unfold clampLR. destruct l, r; auto. apply G; auto. apply clampL_wf; auto.
Qed.
Theorem clamp_thins x ax a side junk y : wf_nurbs x -> bounded_knots x -> py_axis (n_dim x) ax = Ok a ->
  ends_separated (get_axis x a) -> clamp (N:=Rn) junk x ax side = Ok y -> averages_kind true a x y /\ bounded_knots y.
Proof.
  intros W Bk Ea Hh E. pose proof (py_axis_dim _ _ _ Ea) as Ha. pose proof (wf_get_axis _ _ W Ha) as [Hp Wk]. cbn [spec_ax x_n x_p x_U] in *.
  destruct (clamp_spec x ax a side junk y W Ea Hh E) as (P & EX). set (A := get_axis x a) in *.
  assert (Bd : bounded_knots y).
  { apply bounded_of. intros c Hc w. rewrite (preserves_dim _ _ P) in Hc. rewrite (get_lset x y a _ c EX Ha).
    pose proof (bounded_at x c Bk ltac:(lia) w) as Bc. destruct (Nat.eqb_spec c a) as [->|Hne]; auto.
    unfold mulA in *. cbn [a_size a_knots]. apply clamped_bound; auto. }
  split; auto. apply (averages_of true x y a _ W Ha P EX Bd). apply avg_clamp; auto.
Qed.
Theorem clamp_averages x ax a side junk y : wf_nurbs x -> bounded_knots x -> py_axis (n_dim x) ax = Ok a ->
  ends_separated (get_axis x a) -> clamp (N:=Rn) junk x ax side = Ok y -> averages a x y /\ bounded_knots y.
Proof. intros. split; [eapply averages_plain|]; eapply clamp_thins; eauto. Qed.

(** ** slice *)
Lemma slice_knots nrb ax a start end_ junk nrb' : wf_nurbs nrb -> py_axis (n_dim nrb) ax = Ok a ->
  let A := get_axis nrb a in let n := (a_size A - 1)%Z in let p := a_deg A in let U := a_knots A in
  let u0 := match start with Some x => x | None => U p end in
  let u1 := match end_ with Some x => x | None => U (n + 1)%Z end in
  separated_list U (n + p + 1) [u0; u1] ->
  slice (N:=Rn) junk nrb ax start end_ = Ok nrb' ->
  exists B, n_axes nrb' = lset a B (n_axes nrb) /\ n_comp nrb' = n_comp nrb /\ a_deg B = p /\ avg_rep true (a_size B - 1) p (a_knots B) n p U /\
    ((forall v, (multiplicity U 0 (n + p + 1) v <= p + 1)%Z) -> (forall v, (mulA B v <= p + 1)%Z)).
Proof.
  intros W Ea A n p U u0 u1 Sep E.
  pose proof (py_axis_dim _ _ _ Ea) as Ha. pose proof (wf_get_axis _ _ W Ha) as WA. fold A in WA.
  assert (Wk : wf_knots n p U) by apply WA. assert (Wp : (1 <= p)%Z) by apply WA.
  pose proof (wf_n _ _ _ Wk) as Hn. pose proof (wf_mono _ _ _ Wk) as Mo.
  unfold slice in E. rewrite Ea in E. cbn [bind] in E. fold A in E. fold p in E. rewrite a_hi_eq in E. fold n U in E.
  change (a_lo A) with (U p) in E.
  change (match start with Some x => x | None => U p end) with u0 in E.
  change (match end_ with Some x => x | None => U (n + 1)%Z end) with u1 in E.
  unfold assert in E.
  destruct (nleb Rn (U p) u0) eqn:L1; [|discriminate]. cbn [bind] in E. apply Rleb_true in L1.
  destruct (nleb Rn u1 (U (n + 1)%Z)) eqn:L2; [|discriminate]. cbn [bind] in E. apply Rleb_true in L2.
  destruct (nltb Rn u0 u1) eqn:L3; [|discriminate]. cbn [bind] in E. apply Rltb_true in L3.
  unfold py_FindSpanMult, check in E.
  destruct ((1 <=? a_deg A) && (2 * a_deg A + 1 <=? a_len A - 1))%Z; [|discriminate]. cbn [bind snd FindSpanMult] in E.
  assert (El : (a_len A - 1 - (a_deg A + 1))%Z = n) by (rewrite a_len_eq; fold n p; lia).
  unfold FindSpanMult in E. cbn [snd] in E. rewrite El in E. fold p U in E.
  destruct (Sep u0 ltac:(simpl; auto)) as [S0 SS0]. destruct (Sep u1 ltac:(simpl; auto)) as [S1 SS1].
  assert (D0 : in_domain n p U u0) by (split; lra). assert (D1 : in_domain n p U u1) by (split; lra).
  pose proof (FindMult_min n p U u0 Wk D0 S0) as F0. pose proof (FindMult_min n p U u1 Wk D1 S1) as F1.
  set (s0 := FindMult (N:=Rn) (FindSpan (N:=Rn) n p u0 U) u0 p U) in *.
  set (s1 := FindMult (N:=Rn) (FindSpan (N:=Rn) n p u1 U) u1 p U) in *.
  set (t0 := Z.max 0 (p - s0)) in *. set (t1 := Z.max 0 (p - s1)) in *.
  set (vals := repeat u0 (Z.to_nat t0) ++ repeat u1 (Z.to_nat t1)) in *.
  destruct (refine (N:=Rn) junk nrb (Z.of_nat a) vals) as [nrb1|] eqn:ER; [|discriminate]. cbn [bind] in E.
  assert (Ea' : py_axis (n_dim nrb) (Z.of_nat a) = Ok a).
  { rewrite py_axis_nat by (unfold n_dim; lia). f_equal. lia. }
  assert (InV : forall x, In x vals -> In x [u0; u1]).
  { intros x Hx. apply in_app_or in Hx. destruct Hx as [Hx|Hx]; apply repeat_spec in Hx; simpl; auto. }
  assert (SepV : separated_list U (n + p + 1) vals).
  { intros x Hx. destruct (Sep x (InV x Hx)) as [B1 B2]. split; auto. }
  assert (DV : forall x, In x vals -> U p <= x <= U (n + 1)%Z).
  { intros x Hx. apply InV in Hx. simpl in Hx. destruct Hx as [<-|[<-|[]]]; lra. }
  destruct (refine_class_gen nrb (Z.of_nat a) a vals junk nrb1 W Ea' SepV DV ER) as [V [K [EN [MV [V0 [V1 [Mu SB]]]]]]].
  fold A in EN, MV, V0, V1, Mu, SB. fold n p U in MV, V0, V1, Mu, SB.
  set (t := Z.of_nat (@length R vals)) in *.
  change (Z.of_nat (length vals)) with t in EN, MV, V0, V1, Mu, SB.
  assert (EB : get_axis nrb1 a = mkAxis (a_size A + t) (a_len A + t) V).
  { rewrite EN. unfold get_axis. cbn [n_axes]. apply nth_lset. auto. }
  rewrite EB in E. cbn [a_knots a_len] in E.
  assert (ELn : (a_len A + t = n + t + p + 1 + 1)%Z) by (rewrite a_len_eq; fold n p; lia).
  rewrite ELn in E.
  assert (Ht : (0 <= t)%Z) by lia.
  destruct (count_le_spec V (n + t + p + 1 + 1) u0 ltac:(lia)) as [C1 [C2 C3]].
  { replace (n + t + p + 1 + 1 - 1)%Z with (n + t + p + 1)%Z by lia. exact MV. }
  destruct (count_lt_spec V (n + t + p + 1 + 1) u1 ltac:(lia)) as [G1 [G2 G3]].
  { replace (n + t + p + 1 + 1 - 1)%Z with (n + t + p + 1)%Z by lia. exact MV. }
  set (c0 := count_le (N:=Rn) V (n + t + p + 1 + 1) u0) in *. set (i1 := count_lt (N:=Rn) V (n + t + p + 1 + 1) u1) in *.
  set (i0 := (c0 - 1)%Z) in *.
  assert (M0 : (p <= multiplicity V 0 (n + t + p + 1) u0)%Z).
  { rewrite Mu. unfold vals. rewrite countL_app, !countL_repeat.
    destruct (Req_EM_T u0 u0); [|lra]. destruct (Req_EM_T u1 u0); [lra|]. unfold t0. lia. }
  assert (M1 : (p <= multiplicity V 0 (n + t + p + 1) u1)%Z).
  { rewrite Mu. unfold vals. rewrite countL_app, !countL_repeat.
    destruct (Req_EM_T u0 u1); [lra|]. destruct (Req_EM_T u1 u1); [|lra]. unfold t1. lia. }
  pose proof (block_below V (n + t + p + 1) u0 p c0 MV ltac:(lia) M0 C1 C2 C3) as BB.
  pose proof (block_above V (n + t + p + 1) u1 p i1 MV ltac:(lia) M1 G1 G2 G3) as BA.
  assert (Hi0 : (p <= i0)%Z).
  { unfold i0. destruct (Z_le_gt_dec (p + 1) c0); [lia|]. assert (u0 < V p) by (apply C3; lia). lra. }
  assert (Hi1 : (i1 <= n + t + 1)%Z).
  { destruct (Z_le_gt_dec i1 (n + t + 1)); auto. assert (V (n + t + 1)%Z < u1) by (apply G2; lia). lra. }
  assert (Vi0 : V i0 = u0) by (apply BB; unfold i0; lia). assert (Vi1 : V i1 = u1) by (apply BA; lia).
  assert (Hi01 : (i0 < i1)%Z).
  { destruct (Z_lt_le_dec i0 i1); auto. assert (V i1 <= V i0) by (apply MV; lia). lra. }
  assert (Li0 : u0 < V (i0 + 1)%Z) by (apply C3; unfold i0 in *; lia).
  assert (Li1 : V (i1 - 1)%Z < u1) by (apply G2; lia).
  assert (Bl0 : forall i, (i0 - p < i <= i0)%Z -> V i = u0) by (intros i Hi; apply BB; unfold i0 in *; lia).
  assert (Bl1 : forall i, (i1 <= i < i1 + p)%Z -> V i = u1) by (intros i Hi; apply BA; lia).

  set (Wv := fun x => if (x <? p)%Z then V i0 else if (x <=? p + (i1 - i0))%Z then V (i0 + (x - p))%Z else V i1) in *.
  set (m := (i1 - i0 + p - 1)%Z) in *.
  set (A' := mkAxis (N:=Rn) (i1 - (i0 - p)) (2 * p + (i1 - i0 + 1)) Wv).
  assert (EQ : n_axes nrb' = lset a A' (n_axes nrb) /\ n_comp nrb' = n_comp nrb).
  { injection E as <-. rewrite EN at 1. cbn [n_axes n_comp]. rewrite lset_lset, EN. split; reflexivity. }
  clear E.
  assert (Ad : a_deg A' = p) by (unfold a_deg, A'; cbn [a_len a_size]; lia).
  assert (As : (a_size A' - 1 = m)%Z) by (unfold A', m; cbn [a_size]; lia).
  exists A'. split; [apply EQ|]. split; [apply EQ|]. split; auto. split.
  - rewrite As. cbn [A' a_knots]. apply (avg_trans true m p Wv (n + t) p V).
    + apply (avg_knots true m p Wv (fun i => V (i + (i0 - p))%Z)); auto.
      * intros i Hi. unfold Wv. zcase i p.
        -- rewrite Vi0. symmetry. apply Bl0. lia.
        -- lcase i (p + (i1 - i0))%Z; [f_equal; lia|]. rewrite Vi1. symmetry. apply Bl1. unfold m in Hi. lia.
      * apply avg_window; unfold m; lia.
    + apply (avg_added true p n U vals t V); auto. lia.
  - intros Hb v. unfold mulA. rewrite Ad, As. cbn [A' a_knots].
    assert (LW : forall x, (x <= p)%Z -> Wv x = u0).
    { intros x Hx. unfold Wv. zcase x p; auto. lcase x (p + (i1 - i0))%Z. replace (i0 + (x - p))%Z with i0 by lia. auto. }
    assert (RW : forall x, (m + 1 <= x)%Z -> Wv x = u1).
    { intros x Hx. unfold Wv. unfold m in Hx. zcase x p. lcase x (p + (i1 - i0))%Z; auto. replace (i0 + (x - p))%Z with i1 by lia. auto. }
    assert (MW : forall x, (p < x <= m)%Z -> Wv x = V (x + (i0 - p))%Z /\ u0 < Wv x < u1).
    { intros x Hx. unfold m in Hx. assert (Ex : Wv x = V (x + (i0 - p))%Z) by (unfold Wv; zcase x p; lcase x (p + (i1 - i0))%Z; f_equal; lia).
      split; auto. rewrite Ex. assert (V (i0 + 1)%Z <= V (x + (i0 - p))%Z) by (apply MV; lia). assert (V (x + (i0 - p))%Z <= V (i1 - 1)%Z) by (apply MV; lia). lra. }
    assert (Hm : (p <= m)%Z) by (unfold m; lia).
    rewrite (multiplicity_split Wv 0 p) by lia. rewrite (multiplicity_split Wv (p + 1) m) by lia.
    destruct (Req_dec v u0) as [->|N0]; [|destruct (Req_dec v u1) as [->|N1]].
    + rewrite (multiplicity_none Wv (p + 1) m) by (intros x Hx; destruct (MW x ltac:(lia)); lra).
      rewrite (multiplicity_none Wv (m + 1)) by (intros x Hx; rewrite RW by lia; lra).
      pose proof (multiplicity_le Wv 0 p u0 ltac:(lia)). lia.
    + rewrite (multiplicity_none Wv (p + 1) m) by (intros x Hx; destruct (MW x ltac:(lia)); lra).
      rewrite (multiplicity_none Wv 0 p) by (intros x Hx; rewrite LW by lia; lra).
      pose proof (multiplicity_le Wv (m + 1) (m + p + 1) u1 ltac:(lia)). lia.
    + rewrite (multiplicity_none Wv 0 p) by (intros x Hx; rewrite LW by lia; lra).
      rewrite (multiplicity_none Wv (m + 1)) by (intros x Hx; rewrite RW by lia; lra).
      rewrite (multiplicity_ext Wv (fun x => V (x + (i0 - p))%Z)) by (intros x Hx; apply MW; lia).
      rewrite multiplicity_shift. specialize (Hb v). specialize (Mu v).
      rewrite (countL_notin v vals) in Mu by (intros I; apply InV in I; simpl in I; destruct I as [I|[I|[]]]; subst; auto).
      rewrite (multiplicity_split V 0 i0) in Mu by lia. rewrite (multiplicity_split V (i0 + 1) (m + (i0 - p))) in Mu by (unfold m; lia).
      pose proof (multiplicity_nonneg V 0 i0 v). pose proof (multiplicity_nonneg V (m + (i0 - p) + 1) (n + t + p + 1) v).
      replace (p + 1 + (i0 - p))%Z with (i0 + 1)%Z by lia. lia.
Qed.

(** Values that agree on the smaller domain. *)
Theorem averages_inside b x y a B : wf_nurbs x -> wf_nurbs y -> (a < length (n_axes x))%nat -> n_axes y = lset a B (n_axes x) -> n_comp y = n_comp x -> bounded_knots y ->
  let A := get_axis x a in mult_le (a_size A - 1) (a_deg A) (a_knots A) ->
  (forall us c, in_box (spec_axes y) us -> in_box (spec_axes x) us /\ hom y c us = hom x c us) ->
  avg_rep b (a_size B - 1) (a_deg B) (a_knots B) (a_size A - 1) (a_deg A) (a_knots A) -> averages_kind b a x y.
Proof.
  intros W Wy Ha EX EC Bk A ML HH (c & Ac & Tc & Hc).
  assert (EB : get_axis y a = B) by (unfold get_axis; rewrite EX; apply nth_lset; auto).
  assert (Ly : length (n_axes y) = length (n_axes x)) by (rewrite EX; apply lset_length).
  pose proof (wf_get_axis _ _ W Ha) as WA. fold A in WA.
  assert (WB : wf_ax (spec_ax B)) by (rewrite <- EB; apply wf_get_axis; [apply Wy|lia]).
  set (K := apply_to (a_size A - 1) c).
  set (z := mkNurbs (lset a B (n_axes x)) (n_comp x) (along (N:=Rn) a K (n_arr x))) in *.
  assert (ES : spec_axes y = lset a (spec_ax B) (spec_axes x)) by (unfold spec_axes; rewrite EX, map_lset; reflexivity).
  assert (Ez : spec_axes z = spec_axes y) by (rewrite ES; unfold spec_axes, z; cbn [n_axes]; apply map_lset).
  assert (Ha' : (a < length (spec_axes x))%nat) by (unfold spec_axes; rewrite map_length; auto).
  destruct (net_unique y z) as (_ & _ & E).
  - exact Wy.
  - destruct Wy as (Q1 & Q2 & Q3). split; [|split].
    + cbn [z n_axes]. rewrite lset_length. rewrite <- Ly. exact Q1.
    + rewrite Ez. exact Q2.
    + cbn [z n_comp]. rewrite <- EC. exact Q3.
  - unfold same_knots. cbn [z n_axes]. rewrite <- EX. apply Forall2_refl. auto.
  - cbn [z n_comp]. auto.
  - exact Bk.
  - intros us k I _. destruct (HH us k I) as [I0 ->]. pose proof (in_box_length _ _ I) as Hl. rewrite ES, lset_length in Hl.
    unfold hom. rewrite Ez, ES. apply (tsum_change _ a _ _ _ us us (spec_ax axis0)); auto.
    + symmetry. apply ProofNet.lset_nth.
    + intros idx Hx. rewrite nth_spec_axes. fold A. cbn [spec_ax x_n x_p x_U]. apply in_net_length in Hx. rewrite lrem_length in Hx by auto.
      destruct WA as [WA1 WA2]. destruct WB as [WB1 WB2]. cbn [spec_ax x_n x_p x_U] in WA1, WA2, WB1, WB2.
      rewrite <- (Sub_curve_closed _ _ (a_knots B) (K (fun i => n_arr x (lins a i idx) k)) _ _ (a_knots A) (fun i => n_arr x (lins a i idx) k) (nth a us 0) WB2 WA2 WA1 ML (Hc _)).
      * unfold curve. apply sumZ_ext. intros i Hi. f_equal. cbn [z n_arr]. unfold along.
        rewrite nth_lins by lia. f_equal. apply functional_extensionality. intros j. rewrite lset_lins by lia. reflexivity.
      * rewrite ES in I. pose proof (Forall2_nth _ _ _ a (spec_ax axis0) 0 I ltac:(rewrite lset_length; auto)) as X.
        rewrite nth_lset in X by auto. exact X.
  - exists c. rewrite EB. fold A. split; auto. split; auto. intros idx k I Hk. rewrite <- (E idx k I Hk). reflexivity.
Qed.
Theorem slice_thins x ax a start end_ junk y : wf_nurbs x -> bounded_knots x -> py_axis (n_dim x) ax = Ok a ->
  let A := get_axis x a in let n := (a_size A - 1)%Z in let p := a_deg A in let U := a_knots A in
  let u0 := match start with Some v => v | None => U p end in
  let u1 := match end_ with Some v => v | None => U (n + 1)%Z end in
  continuous_axis A -> separated_list U (n + p + 1) [u0; u1] ->
  slice (N:=Rn) junk x ax start end_ = Ok y -> averages_kind true a x y /\ bounded_knots y.
Proof.
  intros W Bk Ea A n p U u0 u1 Cn Hs E. pose proof (py_axis_dim _ _ _ Ea) as Ha.
  destruct (slice_spec x ax a start end_ junk y W Ea Cn Hs E) as (_ & _ & _ & Wy & EC & _ & HH & _).
  destruct (slice_knots x ax a start end_ junk y W Ea Hs E) as (B & EX & _ & D & AV & Bd). fold A n p U in D, AV, Bd.
  assert (By : bounded_knots y).
  { apply bounded_of. intros c Hc w. assert (Hc' : (c < length (n_axes x))%nat) by (rewrite EX, lset_length in Hc; auto).
    rewrite (get_lset x y a _ c EX Ha). pose proof (bounded_at x c Bk Hc' w) as Bc. destruct (Nat.eqb_spec c a) as [->|Hne]; auto.
    rewrite D. apply Bd. intros v. exact (bounded_at x a Bk Hc' v). }
  split; auto. apply (averages_inside true x y a B W Wy Ha EX EC By); auto. rewrite D. exact AV.
Qed.
Theorem slice_averages x ax a start end_ junk y : wf_nurbs x -> bounded_knots x -> py_axis (n_dim x) ax = Ok a ->
  let A := get_axis x a in let n := (a_size A - 1)%Z in let p := a_deg A in let U := a_knots A in
  let u0 := match start with Some v => v | None => U p end in
  let u1 := match end_ with Some v => v | None => U (n + 1)%Z end in
  continuous_axis A -> separated_list U (n + p + 1) [u0; u1] ->
  slice (N:=Rn) junk x ax start end_ = Ok y -> averages a x y /\ bounded_knots y.
Proof. intros. split; [eapply averages_plain|]; eapply slice_thins; eauto. Qed.
