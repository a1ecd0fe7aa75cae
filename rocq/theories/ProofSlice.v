(** slice: refine both ends to multiplicity p, then keep the control points and knots between. *)
From Coq Require Import ZArith Reals List Lia Lra Bool Permutation FunctionalExtensionality.
From Verif Require Import Num Loop ModelBspline ModelBSp ModelNurbs Spec SumZ BPiece BLink ProofSpan BInsert BRep ProofInsert
  ProofRefine SpecNurbs ProofNet ProofCall ProofNurbs ProofMethods ProofMethods2 ProofGeom ProofGeom2 ExTac.
Import ListNotations.
Local Open Scope R_scope.

(** Refinement with values anywhere in the domain, ends included. *)
Theorem refine_class_gen nrb ax a values junk nrb' : wf_nurbs nrb -> py_axis (n_dim nrb) ax = Ok a ->
  let A := get_axis nrb a in let n := (a_size A - 1)%Z in let p := a_deg A in let U := a_knots A in
  separated_list U (n + p + 1) values ->
  (forall x, In x values -> U p <= x <= U (n + 1)%Z) ->
  refine (N:=Rn) junk nrb ax values = Ok nrb' ->
  let t := Z.of_nat (length values) in
  exists V K, nrb' = mkNurbs (lset a (mkAxis (a_size A + t) (a_len A + t) V) (n_axes nrb)) (n_comp nrb) (along (N:=Rn) a K (n_arr nrb)) /\
    nondecreasing V 0 (n + t + p + 1) /\ V p = U p /\ V (n + t + 1)%Z = U (n + 1)%Z /\
    (forall v, multiplicity V 0 (n + t + p + 1) v = (multiplicity U 0 (n + p + 1) v + countL v values)%Z) /\
    forall P, Sub (n + t) p V (K P) n p U P.
Proof.
  intros W Ea A n p U Hsep Hint E.
  pose proof (py_axis_dim _ _ _ Ea) as Ha. pose proof (wf_get_axis _ _ W Ha) as WA. fold A in WA.
  assert (Wk : wf_knots n p U) by apply WA. assert (Wp : (1 <= p)%Z) by apply WA.
  pose proof (wf_n _ _ _ Wk) as Hn. unfold refine in E.
  destruct values as [|v0 vs] eqn:EVal.
  { injection E as <-. exists U, (fun P => P). cbn [length].
    replace (a_size A + Z.of_nat 0)%Z with (a_size A) by lia. replace (a_len A + Z.of_nat 0)%Z with (a_len A) by lia.
    split. { unfold U. replace (mkAxis (a_size A) (a_len A) (a_knots A)) with A by (destruct A; reflexivity).
      unfold A, get_axis. rewrite lset_nth. destruct nrb as [axs nc arr]. cbn [n_axes n_comp n_arr]. f_equal.
      apply functional_extensionality. intros idx. apply functional_extensionality. intros c. unfold along. rewrite lset_nth. reflexivity. }
    replace (n + Z.of_nat 0 + p + 1)%Z with (n + p + 1)%Z by lia. replace (n + Z.of_nat 0)%Z with n by lia.
    split; [apply Wk|]. split; auto. split; auto. split; [intros v; simpl; lia|]. intros P. apply Sub_refl. }
  rewrite <- EVal in *. assert (Hne : values <> []) by (rewrite EVal; discriminate). clear v0 vs EVal.
  rewrite Ea in E. cbn [bind] in E. fold A in E. fold n p U in E.
  unfold refine_arg in E.
  pose proof (sort_perm values) as Pm. pose proof (sort_sorted values) as So.
  set (u := sort (N:=Rn) values) in *.
  unfold assert in E.
  destruct (nleb Rn (a_lo A) (hd (n0 Rn) u)); [|discriminate]. cbn [bind] in E.
  destruct (nleb Rn (last u (n0 Rn)) (a_hi A)); [|discriminate]. cbn [bind] in E.
  destruct (forallb _ _) eqn:EF in E; [|discriminate]. cbn [bind] in E.
  unfold check in E. destruct (Z.leb_spec 1 n); [|discriminate]. destruct (Z.leb_spec 1 p); [|discriminate]. cbn [bind] in E.
  assert (Hlen : @length R u = length values) by (apply Permutation_length; auto).
  assert (Hl1 : (1 <= @length R u)%nat) by (rewrite Hlen; destruct values; simpl; [congruence|lia]).
  set (r := (Z.of_nat (length u) - 1)%Z) in *.
  assert (HrL : r = (Z.of_nat (@length R u) - 1)%Z) by reflexivity.
  set (X := fun i => nth (Z.to_nat i) u (n0 Rn)) in *.
  assert (XIn : forall j, (0 <= j <= r)%Z -> In (X j) u) by (intros j Hj; apply nth_In; change (T Rn) with R; lia).
  assert (XV : forall j, (0 <= j <= r)%Z -> In (X j) values) by (intros j Hj; eapply Permutation_in; eauto).
  assert (MX : nondecreasing X 0 r).
  { intros i j Hi Hij Hj. apply sorted_nth; auto. lia. }
  assert (HX : forall j, (0 <= j <= r)%Z -> U p <= X j <= U (n + 1)%Z) by (intros; apply Hint, XV; auto).
  assert (SU : forall j, (0 <= j <= r)%Z -> separated U 0 (n + p + 1) (X j)) by (intros; apply Hsep, XV; auto).
  assert (SX : forall j, (0 <= j <= r)%Z -> separated X 0 r (X j)).
  { intros j Hj i Hi. apply (Hsep (X j)); apply XV; auto. }
  set (t := Z.of_nat (length values)).
  assert (Hr0 : (0 <= r)%Z) by (rewrite HrL; clear -Hl1; lia).
  assert (Et : t = (r + 1)%Z) by (unfold r; rewrite Z.sub_add; symmetry; exact (f_equal Z.of_nat Hlen)).
  set (V := fst (bsp_Refine (N:=Rn) n p U (fun _ => 0) r X junk)).
  pose proof (fun P => refine_gen n p U P r X Wk Wp Hr0 MX HX SU SX junk) as RS. cbv zeta in RS.
  destruct (RS (fun _ => 0)) as [Mo [_ [D1 [D2 [MV _]]]]].
  change (fst (RefineKnotVector (N:=Rn) n p U (fun _ => 0) r X junk)) with V in Mo, D1, D2, MV.
  exists V, (fun P => snd (bsp_Refine (N:=Rn) n p U P r X junk)).
  replace (n + r + 1)%Z with (n + t)%Z in * by lia.
  split. { injection E as <-. rewrite Et. reflexivity. }
  split; auto. split; auto. split; auto. split.
  - intros v. rewrite MV. f_equal. rewrite <- (countL_perm v _ _ Pm). symmetry. apply countL_nth.
  - intros P. destruct (RS P) as [_ [_ [_ [_ [_ S]]]]].
    rewrite (Refine_fst n p U P (fun _ => 0)) in S. exact S.
Qed.

(** ** searchsorted *)
Lemma count_le_spec (V : Z -> R) len u : (0 <= len)%Z -> nondecreasing V 0 (len - 1) ->
  let c := count_le (N:=Rn) V len u in
  (0 <= c <= len)%Z /\ (forall i, (0 <= i < c)%Z -> V i <= u) /\ (forall i, (c <= i < len)%Z -> u < V i).
Proof.
  intros Hl M c. unfold c, count_le.
  floop (fun j (c : Z) => (0 <= c <= j)%Z /\ (forall i, (0 <= i < c)%Z -> V i <= u) /\ (forall i, (c <= i < j)%Z -> u < V i)).
  - repeat split; try lia; intros; lia.
  - intros j c0 Hj [H1 [H2 H3]]. rn. destruct (Rleb (V j) u) eqn:E.
    + apply Rleb_true in E. assert (c0 = j).
      { destruct (Z.eq_dec c0 j); auto. assert (u < V c0) by (apply H3; lia). assert (V c0 <= V j) by (apply M; lia). lra. }
      subst c0. split; [lia|]. split; intros i Hi; [|lia]. destruct (Z.eq_dec i j) as [->|]; auto. apply H2; lia.
    + apply Rleb_false in E. split; [lia|]. split; auto. intros i Hi. destruct (Z.eq_dec i j) as [->|]; auto. apply H3; lia.
  - intros c0 [H1 [H2 H3]]. replace (len - 1 + 1)%Z with len in * by lia. auto.
Qed.
Lemma count_lt_spec (V : Z -> R) len u : (0 <= len)%Z -> nondecreasing V 0 (len - 1) ->
  let c := count_lt (N:=Rn) V len u in
  (0 <= c <= len)%Z /\ (forall i, (0 <= i < c)%Z -> V i < u) /\ (forall i, (c <= i < len)%Z -> u <= V i).
Proof.
  intros Hl M c. unfold c, count_lt.
  floop (fun j (c : Z) => (0 <= c <= j)%Z /\ (forall i, (0 <= i < c)%Z -> V i < u) /\ (forall i, (c <= i < j)%Z -> u <= V i)).
  - repeat split; try lia; intros; lia.
  - intros j c0 Hj [H1 [H2 H3]]. rn. destruct (Rltb (V j) u) eqn:E.
    + apply Rltb_true in E. assert (c0 = j).
      { destruct (Z.eq_dec c0 j); auto. assert (u <= V c0) by (apply H3; lia). assert (V c0 <= V j) by (apply M; lia). lra. }
      subst c0. split; [lia|]. split; intros i Hi; [|lia]. destruct (Z.eq_dec i j) as [->|]; auto. apply H2; lia.
    + apply Rltb_false in E. split; [lia|]. split; auto. intros i Hi. destruct (Z.eq_dec i j) as [->|]; auto. apply H3; lia.
  - intros c0 [H1 [H2 H3]]. replace (len - 1 + 1)%Z with len in * by lia. auto.
Qed.

Lemma multiplicity_le U lo hi u : (lo <= hi + 1)%Z -> (multiplicity U lo hi u <= hi - lo + 1)%Z.
Proof. intros H. unfold multiplicity. pose proof (countN_bounds (Z.to_nat (hi + 1 - lo)) lo U u). lia. Qed.

(** The last p entries not above u are equal to u when u has multiplicity at least p. *)
Lemma block_below V M u p c : nondecreasing V 0 M -> (0 <= p)%Z -> (p <= multiplicity V 0 M u)%Z ->
  (0 <= c <= M + 1)%Z -> (forall i, (0 <= i < c)%Z -> V i <= u) -> (forall i, (c <= i < M + 1)%Z -> u < V i) ->
  forall i, (c - p <= i < c)%Z -> (0 <= i)%Z /\ V i = u.
Proof.
  intros Mo Hp Hm Hc H1 H2 i Hi.
  rewrite (multiplicity_split V 0 (c - 1) M) in Hm by lia.
  rewrite (multiplicity_none V (c - 1 + 1) M) in Hm by (intros j Hj; specialize (H2 j ltac:(lia)); lra).
  pose proof (multiplicity_le V 0 (c - 1) u ltac:(lia)). assert (0 <= i)%Z by lia. split; auto.
  destruct (Req_dec (V i) u) as [|Hne]; auto. exfalso.
  assert (V i <= u) by (apply H1; lia).
  rewrite (multiplicity_split V 0 i (c - 1)) in Hm by lia.
  rewrite (multiplicity_none V 0 i) in Hm.
  - pose proof (multiplicity_le V (i + 1) (c - 1) u ltac:(lia)). lia.
  - intros j Hj. assert (V j <= V i) by (apply Mo; lia). lra.
Qed.
Lemma block_above V M u p c : nondecreasing V 0 M -> (0 <= p)%Z -> (p <= multiplicity V 0 M u)%Z ->
  (0 <= c <= M + 1)%Z -> (forall i, (0 <= i < c)%Z -> V i < u) -> (forall i, (c <= i < M + 1)%Z -> u <= V i) ->
  forall i, (c <= i < c + p)%Z -> (i <= M)%Z /\ V i = u.
Proof.
  intros Mo Hp Hm Hc H1 H2 i Hi.
  rewrite (multiplicity_split V 0 (c - 1) M) in Hm by lia.
  rewrite (multiplicity_none V 0 (c - 1)) in Hm by (intros j Hj; specialize (H1 j ltac:(lia)); lra).
  replace (c - 1 + 1)%Z with c in Hm by lia.
  pose proof (multiplicity_le V c M u ltac:(lia)). assert (i <= M)%Z by lia. split; auto.
  destruct (Req_dec (V i) u) as [|Hne]; auto. exfalso.
  assert (u <= V i) by (apply H2; lia).
  rewrite (multiplicity_split V c (i - 1) M) in Hm by lia.
  rewrite (multiplicity_none V (i - 1 + 1) M) in Hm.
  - pose proof (multiplicity_le V c (i - 1) u ltac:(lia)). lia.
  - intros j Hj. assert (V i <= V j) by (apply Mo; lia). lra.
Qed.

(** Cutting a window out of a refined spline. *)
Lemma window_curve N p V Q n U P u0 u1 i0 i1 : (1 <= p)%Z -> wf_knots n p U ->
  nondecreasing V 0 (N + p + 1) -> Sub N p V Q n p U P ->
  (p <= i0)%Z -> (i0 < i1)%Z -> (i1 <= N + 1)%Z ->
  (forall i, (i0 - p < i <= i0)%Z -> V i = u0) -> (forall i, (i1 <= i < i1 + p)%Z -> V i = u1) ->
  u0 < V (i0 + 1)%Z -> V (i1 - 1)%Z < u1 ->
  let W := fun x => if (x <? p)%Z then V i0 else if (x <=? p + (i1 - i0))%Z then V (i0 + (x - p))%Z else V i1 in
  let m := (i1 - i0 + p - 1)%Z in
  wf_knots m p W /\ W p = u0 /\ W (m + 1)%Z = u1 /\
  Sub m p W (fun i => Q (i + (i0 - p))%Z) n p U P.
Proof.
  intros Hp WU Mo S H1 H2 H3 B0 B1 L0 L1 W m.
  assert (E0 : V i0 = u0) by (apply B0; lia). assert (E1 : V i1 = u1) by (apply B1; lia).
  assert (Wmid : forall x, (1 <= x <= m + p)%Z -> W x = V (x + (i0 - p))%Z).
  { intros x Hx. unfold W. zcase x p.
    - rewrite E0. symmetry. apply B0. lia.
    - lcase x (p + (i1 - i0))%Z; [f_equal; lia|]. rewrite E1. symmetry. apply B1. unfold m in Hx. lia. }
  assert (Wf0 : W 0%Z = u0) by (unfold W; zcase 0%Z p; auto).
  assert (Wl : W (m + p + 1)%Z = u1).
  { unfold W, m. zcase (i1 - i0 + p - 1 + p + 1)%Z p. lcase (i1 - i0 + p - 1 + p + 1)%Z (p + (i1 - i0))%Z. auto. }
  split; [|split; [|split]].
  - constructor; unfold m in *; try lia.
    + intros x y Hx Hxy Hy.
      assert (C0 : forall y, (0 <= y <= i1 - i0 + p - 1 + p + 1)%Z -> u0 <= W y).
      { intros z Hz. destruct (Z.eq_dec z 0) as [->|]; [lra|]. 
        destruct (Z.eq_dec z (i1 - i0 + p - 1 + p + 1)) as [->|]; [rewrite Wl, <- E0, <- E1; apply Mo; lia|].
        rewrite Wmid by lia. destruct (Z_le_gt_dec (z + (i0 - p)) i0).
        - rewrite B0 by lia. lra.
        - rewrite <- E0. apply Mo; lia. }
      assert (C1 : forall y, (0 <= y <= i1 - i0 + p - 1 + p + 1)%Z -> W y <= u1).
      { intros z Hz. destruct (Z.eq_dec z 0) as [->|]; [rewrite Wf0, <- E0, <- E1; apply Mo; lia|].
        destruct (Z.eq_dec z (i1 - i0 + p - 1 + p + 1)) as [->|]; [lra|].
        rewrite Wmid by lia. destruct (Z_le_gt_dec i1 (z + (i0 - p))).
        - rewrite B1 by lia. lra.
        - rewrite <- E1. apply Mo; lia. }
      destruct (Z.eq_dec x 0) as [->|]; [rewrite Wf0; apply C0; lia|].
      destruct (Z.eq_dec y (i1 - i0 + p - 1 + p + 1)) as [->|]; [rewrite Wl; apply C1; lia|].
      rewrite !Wmid by lia. destruct (Z_le_gt_dec (y + (i0 - p)) (N + p + 1)); [apply Mo; lia|]. lia.
    + rewrite !Wmid by lia. replace (p + (i0 - p))%Z with i0 by lia. replace (p + 1 + (i0 - p))%Z with (i0 + 1)%Z by lia. lra.
    + rewrite !Wmid by lia. replace (i1 - i0 + p - 1 + (i0 - p))%Z with (i1 - 1)%Z by lia.
      replace (i1 - i0 + p - 1 + 1 + (i0 - p))%Z with i1 by lia. lra.
  - rewrite Wmid by (unfold m; lia). replace (p + (i0 - p))%Z with i0 by lia. auto.
  - rewrite Wmid by (unfold m; lia). unfold m. replace (i1 - i0 + p - 1 + 1 + (i0 - p))%Z with i1 by lia. auto.
  - eapply Sub_trans; [|exact S].
    eapply Sub_trans; [|apply (Sub_shift m p V Q (i0 - p) N); unfold m; lia].
    apply Sub_ext; try lia. + exact Wmid. + reflexivity.
Qed.

(** On the closed right end the two curves agree when the second is continuous. *)
Lemma Sub_curve_closed n' p' V Q n p U P x :
  wf_knots n' p' V -> wf_knots n p U -> (1 <= p)%Z -> mult_le n p U -> Sub n' p' V Q n p U P ->
  in_domain n' p' V x -> curve n' p' V Q x = curve n p U P x.
Proof.
  intros WV WU Hp ML H D. destruct (active_exists _ _ _ _ WV D) as [k' A'].
  pose proof (active_lt _ _ _ _ _ WV A') as Hlt. pose proof (active_in _ _ _ _ _ WV A') as Hin.
  rewrite (curve_piece _ _ _ _ _ _ WV A'). destruct A' as [Hk' _].
  destruct (H k' Hk' Hlt) as [k [Hk [A [B E]]]]. rewrite E. symmetry. apply curve_closed; auto; lra.
Qed.

Lemma countL_repeat v x t : countL v (repeat x t) = if Req_EM_T x v then Z.of_nat t else 0%Z.
Proof. induction t; simpl; [destruct (Req_EM_T x v); auto|]. rewrite IHt. destruct (Req_EM_T x v); lia. Qed.

Theorem slice_spec nrb ax a start end_ junk nrb' : wf_nurbs nrb -> py_axis (n_dim nrb) ax = Ok a ->
  let A := get_axis nrb a in let n := (a_size A - 1)%Z in let p := a_deg A in let U := a_knots A in
  let u0 := match start with Some x => x | None => U p end in
  let u1 := match end_ with Some x => x | None => U (n + 1)%Z end in
  continuous_axis A -> separated_list U (n + p + 1) [u0; u1] ->
  slice (N:=Rn) junk nrb ax start end_ = Ok nrb' ->
  U p <= u0 /\ u0 < u1 /\ u1 <= U (n + 1)%Z /\ wf_nurbs nrb' /\ n_comp nrb' = n_comp nrb /\
  (exists A', n_axes nrb' = lset a A' (n_axes nrb) /\ a_deg A' = p /\
     a_knots A' p = u0 /\ a_knots A' (a_size A' - 1 + 1)%Z = u1) /\
  (forall us c, in_box (spec_axes nrb') us -> in_box (spec_axes nrb) us /\ hom nrb' c us = hom nrb c us) /\
  forall xs, good_args (spec_axes nrb') xs -> same_values nrb nrb' xs xs (fun idx => idx).
Proof.
  intros W Ea A n p U u0 u1 ML Sep E.
  pose proof (py_axis_dim _ _ _ Ea) as Ha. pose proof (wf_get_axis _ _ W Ha) as WA. fold A in WA.
  assert (Wk : wf_knots n p U) by apply WA. assert (Wp : (1 <= p)%Z) by apply WA.
  pose proof (wf_n _ _ _ Wk) as Hn. pose proof (wf_mono _ _ _ Wk) as Mo.
  unfold slice in E. rewrite Ea in E. cbn [bind] in E. fold A in E. fold p in E. rewrite a_hi_eq in E. fold n U in E.
  change (a_lo A) with (U p) in E.
  change (match start with Some x => x | None => U p end) with u0 in E.
  change (match end_ with Some x => x | None => U (n + 1)%Z end) with u1 in E.
  unfold assert in E.
  destruct (nleb Rn (U p) u0) eqn:L1; [|discriminate]. cbn [bind] in E. apply Rleb_true in L1.
  destruct (nleb Rn u1 (U (n + 1)%Z)) eqn:L2; [|discriminate]. cbn [bind] in E. apply Rleb_true in L2.
  destruct (nltb Rn u0 u1) eqn:L3; [|discriminate]. cbn [bind] in E. apply Rltb_true in L3.
  unfold py_FindSpanMult, check in E.
  destruct ((1 <=? a_deg A) && (2 * a_deg A + 1 <=? a_len A - 1))%Z; [|discriminate]. cbn [bind snd FindSpanMult] in E.
  assert (El : (a_len A - 1 - (a_deg A + 1))%Z = n) by (rewrite a_len_eq; fold n p; lia).
  unfold FindSpanMult in E. cbn [snd] in E. rewrite El in E. fold p U in E.
  destruct (Sep u0 ltac:(simpl; auto)) as [S0 SS0]. destruct (Sep u1 ltac:(simpl; auto)) as [S1 SS1].
  assert (D0 : in_domain n p U u0) by (split; lra). assert (D1 : in_domain n p U u1) by (split; lra).
  pose proof (FindMult_min n p U u0 Wk D0 S0) as F0. pose proof (FindMult_min n p U u1 Wk D1 S1) as F1.
  set (s0 := FindMult (N:=Rn) (FindSpan (N:=Rn) n p u0 U) u0 p U) in *.
  set (s1 := FindMult (N:=Rn) (FindSpan (N:=Rn) n p u1 U) u1 p U) in *.
  set (t0 := Z.max 0 (p - s0)) in *. set (t1 := Z.max 0 (p - s1)) in *.
  set (vals := repeat u0 (Z.to_nat t0) ++ repeat u1 (Z.to_nat t1)) in *.
  destruct (refine (N:=Rn) junk nrb (Z.of_nat a) vals) as [nrb1|] eqn:ER; [|discriminate]. cbn [bind] in E.
  assert (Ea' : py_axis (n_dim nrb) (Z.of_nat a) = Ok a).
  { rewrite py_axis_nat by (unfold n_dim; lia). f_equal. lia. }
  assert (InV : forall x, In x vals -> In x [u0; u1]).
  { intros x Hx. apply in_app_or in Hx. destruct Hx as [Hx|Hx]; apply repeat_spec in Hx; simpl; auto. }
  assert (SepV : separated_list U (n + p + 1) vals).
  { intros x Hx. destruct (Sep x (InV x Hx)) as [B1 B2]. split; auto. }
  assert (DV : forall x, In x vals -> U p <= x <= U (n + 1)%Z).
  { intros x Hx. apply InV in Hx. simpl in Hx. destruct Hx as [<-|[<-|[]]]; lra. }
  destruct (refine_class_gen nrb (Z.of_nat a) a vals junk nrb1 W Ea' SepV DV ER) as [V [K [EN [MV [V0 [V1 [Mu SB]]]]]]].
  fold A in EN, MV, V0, V1, Mu, SB. fold n p U in MV, V0, V1, Mu, SB.
  set (t := Z.of_nat (@length R vals)) in *.
  change (Z.of_nat (length vals)) with t in EN, MV, V0, V1, Mu, SB.
  assert (EB : get_axis nrb1 a = mkAxis (a_size A + t) (a_len A + t) V).
  { rewrite EN. unfold get_axis. cbn [n_axes]. apply nth_lset. auto. }
  rewrite EB in E. cbn [a_knots a_len] in E.
  assert (ELn : (a_len A + t = n + t + p + 1 + 1)%Z) by (rewrite a_len_eq; fold n p; lia).
  rewrite ELn in E.
  assert (Ht : (0 <= t)%Z) by lia.
  destruct (count_le_spec V (n + t + p + 1 + 1) u0 ltac:(lia)) as [C1 [C2 C3]].
  { replace (n + t + p + 1 + 1 - 1)%Z with (n + t + p + 1)%Z by lia. exact MV. }
  destruct (count_lt_spec V (n + t + p + 1 + 1) u1 ltac:(lia)) as [G1 [G2 G3]].
  { replace (n + t + p + 1 + 1 - 1)%Z with (n + t + p + 1)%Z by lia. exact MV. }
  set (c0 := count_le (N:=Rn) V (n + t + p + 1 + 1) u0) in *. set (i1 := count_lt (N:=Rn) V (n + t + p + 1 + 1) u1) in *.
  set (i0 := (c0 - 1)%Z) in *.
  assert (M0 : (p <= multiplicity V 0 (n + t + p + 1) u0)%Z).
  { rewrite Mu. unfold vals. rewrite countL_app, !countL_repeat.
    destruct (Req_EM_T u0 u0); [|lra]. destruct (Req_EM_T u1 u0); [lra|]. unfold t0. lia. }
  assert (M1 : (p <= multiplicity V 0 (n + t + p + 1) u1)%Z).
  { rewrite Mu. unfold vals. rewrite countL_app, !countL_repeat.
    destruct (Req_EM_T u0 u1); [lra|]. destruct (Req_EM_T u1 u1); [|lra]. unfold t1. lia. }
  pose proof (block_below V (n + t + p + 1) u0 p c0 MV ltac:(lia) M0 C1 C2 C3) as BB.
  pose proof (block_above V (n + t + p + 1) u1 p i1 MV ltac:(lia) M1 G1 G2 G3) as BA.
  assert (Hi0 : (p <= i0)%Z).
  { unfold i0. destruct (Z_le_gt_dec (p + 1) c0); [lia|]. assert (u0 < V p) by (apply C3; lia). lra. }
  assert (Hi1 : (i1 <= n + t + 1)%Z).
  { destruct (Z_le_gt_dec i1 (n + t + 1)); auto. assert (V (n + t + 1)%Z < u1) by (apply G2; lia). lra. }
  assert (Vi0 : V i0 = u0) by (apply BB; unfold i0; lia). assert (Vi1 : V i1 = u1) by (apply BA; lia).
  assert (Hi01 : (i0 < i1)%Z).
  { destruct (Z_lt_le_dec i0 i1); auto. assert (V i1 <= V i0) by (apply MV; lia). lra. }
  assert (Li0 : u0 < V (i0 + 1)%Z) by (apply C3; unfold i0 in *; lia).
  assert (Li1 : V (i1 - 1)%Z < u1) by (apply G2; lia).
  assert (Bl0 : forall i, (i0 - p < i <= i0)%Z -> V i = u0) by (intros i Hi; apply BB; unfold i0 in *; lia).
  assert (Bl1 : forall i, (i1 <= i < i1 + p)%Z -> V i = u1) by (intros i Hi; apply BA; lia).
  pose proof (fun P => window_curve (n + t) p V (K P) n U P u0 u1 i0 i1 Wp Wk MV (SB P) Hi0 Hi01 Hi1 Bl0 Bl1 Li0 Li1) as WC0. cbv zeta in WC0.
  set (Wv := fun x => if (x <? p)%Z then V i0 else if (x <=? p + (i1 - i0))%Z then V (i0 + (x - p))%Z else V i1) in *.
  set (m := (i1 - i0 + p - 1)%Z) in *.
  assert (WC : forall P, wf_knots m p Wv /\ Wv p = u0 /\ Wv (m + 1)%Z = u1 /\
    Sub m p Wv (fun i => K P (i + (i0 - p))%Z) n p U P) by exact WC0. clear WC0.
  set (A' := mkAxis (N:=Rn) (i1 - (i0 - p)) (2 * p + (i1 - i0 + 1)) Wv).
  set (arr' := fun idx c => n_arr nrb1 (lset a (i0 - p + nth a idx 0%Z)%Z idx) c).
  assert (EQ : nrb' = mkNurbs (lset a A' (n_axes nrb)) (n_comp nrb) arr').
  { injection E as <-. rewrite EN at 1 2. cbn [n_axes n_comp]. rewrite lset_lset. reflexivity. }
  clear E.
  assert (Ad : a_deg A' = p) by (unfold a_deg, A'; cbn [a_len a_size]; lia).
  assert (As : (a_size A' - 1 = m)%Z) by (unfold A', m; cbn [a_size]; lia).
  assert (SA' : spec_ax A' = mkAx m p Wv) by (unfold spec_ax; rewrite Ad, As; reflexivity).
  destruct (WC (fun _ => 0)) as [WW [W0 [W1 _]]].
  assert (ES : spec_axes nrb' = lset a (mkAx m p Wv) (spec_axes nrb)).
  { rewrite EQ. unfold spec_axes. cbn [n_axes]. rewrite map_lset, SA'. reflexivity. }
  assert (Ha' : (a < length (spec_axes nrb))%nat) by (unfold spec_axes; rewrite map_length; auto).
  assert (W' : wf_nurbs nrb').
  { destruct W as [Wl [Wf Wc]]. split; [|split].
    - rewrite EQ. unfold spec_axes. cbn [n_axes]. rewrite ?map_length, lset_length. unfold spec_axes in Wl. rewrite ?map_length in Wl. exact Wl.
    - rewrite ES. apply Forall_lset; auto. split; auto.
    - rewrite EQ. auto. }
  assert (BOX : forall us, in_box (spec_axes nrb') us -> in_box (spec_axes nrb) us).
  { intros us B. rewrite ES in B. unfold in_box in *.
    pose proof (Forall2_nth _ _ _ a (spec_ax axis0) 0 B ltac:(rewrite lset_length; auto)) as X.
    rewrite nth_lset in X by auto. cbn [x_n x_p x_U] in X.
    apply (Forall2_lset _ _ _ a (nth a (spec_axes nrb) (spec_ax axis0)) (nth a us 0)) in B.
    - rewrite lset_lset, !lset_nth in B. exact B.
    - rewrite nth_spec_axes. fold A. cbn [spec_ax x_n x_p x_U]. fold n p U.
      destruct X as [X1 X2]. rewrite W0 in X1. rewrite W1 in X2. split; lra. }
  assert (HH : forall us c, in_box (spec_axes nrb') us -> hom nrb' c us = hom nrb c us).
  { intros us c B. pose proof (in_box_length _ _ B) as Hl. rewrite ES, lset_length in Hl.
    unfold hom. rewrite ES. apply (tsum_change _ a _ _ _ us us (spec_ax axis0)); auto.
    - rewrite lset_nth. reflexivity.
    - intros idx Hx. rewrite nth_spec_axes. fold A. cbn [spec_ax x_n x_p x_U]. fold n p U.
      apply in_net_length in Hx. rewrite lrem_length in Hx by auto.
      rewrite EQ. cbn [n_arr]. unfold arr'. rewrite EN. cbn [n_arr].
      destruct (WC (fun i => n_arr nrb (lins a i idx) c)) as [_ [_ [_ S]]].
      rewrite <- (Sub_curve_closed m p Wv _ n p U _ (nth a us 0) WW Wk Wp ML S).
      + unfold curve. apply sumZ_ext. intros i Hi. f_equal. unfold along.
        rewrite nth_lins by lia. rewrite lset_lins by lia. rewrite nth_lins by lia.
        replace (i0 - p + i)%Z with (i + (i0 - p))%Z by lia. f_equal.
        apply functional_extensionality. intros j. rewrite lset_lins by lia. reflexivity.
      + rewrite ES in B. pose proof (Forall2_nth _ _ _ a (spec_ax axis0) 0 B ltac:(rewrite lset_length; auto)) as X.
        rewrite nth_lset in X by auto. exact X. }
  split; auto. split; auto. split; auto. split; auto. split; [rewrite EQ; reflexivity|]. split.
  { exists A'. split; [rewrite EQ; reflexivity|]. split; auto. rewrite As. split; [exact W0|exact W1]. }
  split; [intros us c B; split; auto|].
  intros xs G. apply same_values_hom; auto.
  - unfold good_args in *. rewrite ES in G.
    pose proof (Forall2_nth _ _ _ a (spec_ax axis0) (mkVec (N:=Rn) 0 (fun _ => 0)) G ltac:(rewrite lset_length; auto)) as X.
    rewrite nth_lset in X by auto.
    apply (Forall2_lset _ _ _ a (nth a (spec_axes nrb) (spec_ax axis0)) (nth a xs (mkVec (N:=Rn) 0 (fun _ => 0)))) in G.
    + rewrite lset_lset, !lset_nth in G. exact G.
    + rewrite nth_spec_axes. fold A. cbn [spec_ax x_n x_p x_U] in *. fold n p U.
      destruct X as [X1 X2]. split; auto. intros i Hi. destruct (X2 i Hi) as [Y1 Y2].
      rewrite W0 in Y1. rewrite W1 in Y2. split; lra.
  - intros idx I. split; auto. intros c. apply HH. apply params_box; auto.
Qed.
