(** insert, refine, clamp, unclamp, extract and boundary at the level of the class. *)
From Coq Require Import ZArith Reals List Lia Lra Bool Permutation.
From Verif Require Import Num Loop ModelBspline ModelBSp ModelNurbs Spec SumZ BPiece BLink ProofSpan BInsert BRep ProofInsert ProofRefine
  ProofCut ProofClamp ProofUnclamp SpecNurbs ProofNet ProofCall ProofNurbs.
Import ListNotations.
Local Open Scope R_scope.

(** ** Multiplicity as found by the code *)
Lemma FindMult_min n p (U : Z -> R) u : wf_knots n p U -> in_domain n p U u -> separated U 0 (n + p + 1) u ->
  Z.min (FindMult (N:=Rn) (FindSpan (N:=Rn) n p u U) u p U) p = Z.min (multiplicity U 0 (n + p + 1) u) p.
Proof.
  intros W D Hs. pose proof (wf_p _ _ _ W). pose proof (wf_n _ _ _ W). pose proof (wf_mono _ _ _ W) as M.
  destruct (Z_le_gt_dec (multiplicity U 0 (n + p + 1) u) (p + 1)) as [L|G].
  { f_equal. apply FindMult_exact; auto. }
  pose proof (FindSpan_active n p U u W D) as A. set (k := FindSpan (N:=Rn) n p u U) in *.
  assert (Hk : (p <= k <= n)%Z) by (destruct A; lia).
  destruct A as [_ [A|[E A]]].
  - destruct (block_left U 0 k u ltac:(lia)) as [s [Hs1 [Hs2 Hs3]]].
    { intros i j ? ? ?. apply M; lia. }
    { intros j Hj. assert (U j <= U k) by (apply M; lia). lra. }
    rewrite (multiplicity_split U 0 k (n + p + 1)) in * by lia.
    rewrite (multiplicity_none U (k + 1)) in *.
    2: { intros j Hj. assert (U (k + 1)%Z <= U j) by (apply M; lia). lra. }
    2: { intros j Hj. assert (U (k + 1)%Z <= U j) by (apply M; lia). lra. }
    rewrite (multiplicity_split U 0 (k - s) k) in * by lia.
    rewrite (multiplicity_none U 0 (k - s)) in *.
    2: { intros j Hj. specialize (Hs3 j ltac:(lia)). lra. }
    2: { intros j Hj. specialize (Hs3 j ltac:(lia)). lra. }
    rewrite (multiplicity_all U (k - s + 1) k) in *; try lia.
    2: { intros j Hj. apply Hs2. lia. } 2: { intros j Hj. apply Hs2. lia. }
    match goal with |- Z.min ?x p = _ => assert (E : x = (p + 1)%Z) end; [|rewrite E; lia].
    replace (p + 1)%Z with (k - (k - p) + 1)%Z by lia.
    apply FindMult_block; try lia.
    + intros j Hj. apply Hs2. lia.
    + intros j Hj [Hj'|Hj']; [lia|]. destruct (Hs j ltac:(lia)) as [E|E]; [|unfold eps; lra].
      assert (U (k + 1)%Z <= U j) by (apply M; lia). lra.
  - exfalso. subst u. rewrite (multiplicity_split U 0 n (n + p + 1)) in G by lia.
    rewrite (multiplicity_none U 0 n) in G.
    2: { intros j Hj. assert (U j <= U n) by (apply M; lia). pose proof (wf_last _ _ _ W). lra. }
    assert (X : forall lo hi, (lo <= hi + 1)%Z -> (multiplicity U lo hi (U (n + 1)%Z) <= hi + 1 - lo)%Z).
    { intros lo hi Hlo. unfold multiplicity. pose proof (countN_bounds (Z.to_nat (hi + 1 - lo)) lo U (U (n + 1)%Z)). lia. }
    specialize (X (n + 1) (n + p + 1) ltac:(lia))%Z. lia.
Qed.

Lemma py_FindMult_eq (A : axis Rn) u : wf_ax (spec_ax A) ->
  py_FindMult A u = Ok (FindMult (N:=Rn) (FindSpan (N:=Rn) (a_size A - 1) (a_deg A) u (a_knots A)) u (a_deg A) (a_knots A)).
Proof.
  intros [Wp Wk]. pose proof (wf_n _ _ _ Wk). simpl in *. unfold py_FindMult, bsp_FindMult.
  destruct (Z.leb_spec 1 (a_deg A)); [|lia].
  destruct (Z.leb_spec (2 * a_deg A + 1) (a_len A - 1)). 2: { rewrite a_len_eq in *. lia. }
  simpl. replace (a_len A - 1 - (a_deg A + 1))%Z with (a_size A - 1)%Z by (rewrite a_len_eq; lia). reflexivity.
Qed.

Lemma InsertKnot_fst n p U P P' u r junk : fst (bsp_InsertKnot (N:=Rn) n p U P u r junk) = fst (bsp_InsertKnot (N:=Rn) n p U P' u r junk).
Proof. unfold bsp_InsertKnot. destruct (r =? 0)%Z; auto. Qed.

Lemma spec_ax_grow (A : axis Rn) t V : spec_ax (mkAxis (a_size A + t) (a_len A + t) V) = mkAx (a_size A - 1 + t) (a_deg A) V.
Proof. unfold spec_ax, a_deg. simpl. f_equal; lia. Qed.
Lemma a_deg_grow (A : axis Rn) t (V : Z -> Rn) : a_deg (mkAxis (a_size A + t) (a_len A + t) V) = a_deg A.
Proof. unfold a_deg. simpl. lia. Qed.
Lemma spec_ax_same (A : axis Rn) V : spec_ax (mkAxis (a_size A) (a_len A) V) = mkAx (a_size A - 1) (a_deg A) V.
Proof. unfold spec_ax, a_deg. simpl. f_equal; lia. Qed.

(** The knot vector after an operation that adds [t] copies of [u]. *)
Definition merged (n p t : Z) (U : Z -> R) (u : R) (V : Z -> R) : Prop :=
  nondecreasing V 0 (n + t + p + 1) /\
  forall v, multiplicity V 0 (n + t + p + 1) v =
            (multiplicity U 0 (n + p + 1) v + (if Req_EM_T v u then t else 0))%Z.

Theorem insert_spec nrb ax a u times junk nrb' : wf_nurbs nrb -> py_axis (n_dim nrb) ax = Ok a ->
  let A := get_axis nrb a in let n := (a_size A - 1)%Z in let p := a_deg A in let U := a_knots A in
  separated U 0 (n + p + 1) u ->
  (U p < u < U (n + 1)%Z \/ (p <= multiplicity U 0 (n + p + 1) u)%Z) ->
  insert (N:=Rn) junk nrb ax u times = Ok nrb' ->
  let m := Z.min (multiplicity U 0 (n + p + 1) u) p in
  let t := match times with Some t => t | None => (p - m)%Z end in
  in_domain n p U u /\ (0 <= t)%Z /\ (m + t <= p)%Z /\ preserves nrb nrb' /\
  exists V, n_axes nrb' = lset a (mkAxis (a_size A + t) (a_len A + t) V) (n_axes nrb) /\ merged n p t U u V.
Proof.
  intros W Ea A n p U Hsep Hint EI.
  pose proof (py_axis_dim _ _ _ Ea) as Ha. pose proof (wf_get_axis _ _ W Ha) as WA. fold A in WA.
  assert (Wk : wf_knots n p U) by apply WA. assert (Wp : (1 <= p)%Z) by apply WA.
  pose proof (wf_n _ _ _ Wk) as Hn.
  unfold insert in EI. rewrite Ea in EI. cbn [bind] in EI. fold A in EI. fold p U in EI.
  unfold assert, check in EI. change (a_lo A) with (U p) in EI. rewrite a_hi_eq in EI. fold n U in EI.
  destruct (nleb Rn (U p) u) eqn:E1; [|discriminate]. cbn [bind] in EI.
  destruct (nleb Rn u (U (n + 1)%Z)) eqn:E2; [|discriminate]. cbn [bind] in EI.
  apply Rleb_true in E1. apply Rleb_true in E2. assert (D : in_domain n p U u) by (split; assumption).
  split; [exact D|].
  assert (EF := py_FindMult_eq A u WA). fold n p U in EF. rewrite EF in EI. cbn [bind] in EI.
  rewrite (FindMult_min n p U u Wk D Hsep) in EI.
  set (m := Z.min (multiplicity U 0 (n + p + 1) u) p) in *.
  set (t := match times with Some t => t | None => (p - m)%Z end) in *.
  pose proof (multiplicity_nonneg U 0 (n + p + 1) u) as Hm0.
  destruct (Z.leb_spec (t + m) p) as [Htm|]; [|discriminate]. cbn [bind] in EI.
  destruct (Z.eqb_spec t 0) as [Et|Et].
  - injection EI as <-. split; [lia|]. split; [lia|]. split; [apply preserves_refl; auto|].
    exists U. split.
    + rewrite Et, !Z.add_0_r. unfold U. replace (mkAxis (a_size A) (a_len A) (a_knots A)) with A by (destruct A; reflexivity).
      unfold A, get_axis. rewrite lset_nth. reflexivity.
    + rewrite Et. unfold merged. replace (n + 0 + p + 1)%Z with (n + p + 1)%Z by lia. split; [apply Wk|].
      intros v. destruct (Req_EM_T v u); lia.
  - destruct (Z.leb_spec 1 n); [|discriminate]. cbn [bind] in EI.
    destruct (Z.leb_spec 1 p); [|discriminate]. cbn [bind] in EI.
    destruct (_ && _) in EI; [|discriminate]. cbn [bind] in EI.
    destruct (Z.leb_spec 0 t); [|discriminate]. destruct (Z.leb_spec t p); [|discriminate]. cbn [andb bind] in EI.
    injection EI as <-. split; [lia|]. split; [lia|].
    assert (Hm : (multiplicity U 0 (n + p + 1) u + t <= p)%Z) by (unfold m in Htm; lia).
    assert (Hi : U p < u < U (n + 1)%Z) by (destruct Hint as [Hint|Hint]; [auto|lia]).
    set (V := fst (bsp_InsertKnot (N:=Rn) n p U (fun _ => 0) u t junk)).
    pose proof (fun P x => insert_curve n p U P u t junk x Wk ltac:(lia) Hi Hsep Hm) as IC. cbv zeta in IC.
    assert (Dp : in_domain n p U (U p)).
    { split; [lra|]. apply (wf_mono _ _ _ Wk); lia. }
    destruct (IC (fun _ => 0) (U p) Dp) as [WV [EV _]].
    fold V in EV.
    assert (Da : active n p U u (FindSpan (N:=Rn) n p u U)) by (apply FindSpan_active; auto).
    set (k := FindSpan (N:=Rn) n p u U) in *.
    assert (Hk : (p <= k <= n)%Z) by (destruct Da; lia).
    assert (WV' : wf_knots (n + t) p V).
    { destruct WV as [w1 w2 w3 w4 w5]. constructor; try lia.
      - intros i j Hi' Hij Hj. rewrite !EV by lia. apply w3; lia.
      - rewrite !EV by lia. auto.
      - rewrite !EV by lia. auto. }
    split.
    + apply axis_change; auto.
      * fold A. rewrite spec_ax_grow. split; simpl; auto.
      * fold A. rewrite spec_ax_grow. unfold same_dom. simpl. fold n p U. split; rewrite EV by lia; unfold insV.
        -- lcase p k. auto.
        -- lcase (n + t + 1)%Z k. lcase (n + t + 1)%Z (k + t)%Z. f_equal. lia.
      * fold A n p U. intros P x Hx. cbn [a_size a_knots].
        rewrite a_deg_grow. fold p.
        replace (a_size A + t - 1)%Z with (n + t)%Z by (unfold n; lia).
        destruct (IC P x Hx) as [_ [_ C]]. rewrite <- C. f_equal. apply InsertKnot_fst.
    + exists V. split; [reflexivity|]. split; [apply WV'|].
      intros v. rewrite (multiplicity_ext V (insV U k u t)) by (intros; apply EV; lia).
      replace (n + t + p + 1)%Z with (n + p + 1 + t)%Z by lia. rewrite multiplicity_insV by lia. 
      f_equal. destruct (Req_EM_T v u), (Req_EM_T u v); auto; congruence.
Qed.

Ltac if_true H :=
  match goal with |- context[if ?b then Ok tt else _] => replace b with true by (symmetry; exact H) end.

(** When insert returns at all. *)
Theorem insert_ok nrb ax a u times junk : wf_nurbs nrb -> py_axis (n_dim nrb) ax = Ok a ->
  let A := get_axis nrb a in let n := (a_size A - 1)%Z in let p := a_deg A in let U := a_knots A in
  separated U 0 (n + p + 1) u ->
  in_domain n p U u ->
  let m := Z.min (multiplicity U 0 (n + p + 1) u) p in
  match times with Some t => (0 <= t)%Z /\ (m + t <= p)%Z | None => True end ->
  exists nrb', insert (N:=Rn) junk nrb ax u times = Ok nrb'.
Proof.
  intros W Ea A n p U Hsep D m Ht.
  pose proof (py_axis_dim _ _ _ Ea) as Ha. pose proof (wf_get_axis _ _ W Ha) as WA. fold A in WA.
  assert (Wk : wf_knots n p U) by apply WA. assert (Wp : (1 <= p)%Z) by apply WA.
  pose proof (wf_n _ _ _ Wk) as Hn.
  unfold insert. rewrite Ea. cbn [bind]. fold A. fold p U.
  unfold assert, check. change (a_lo A) with (U p). rewrite a_hi_eq. fold n U.
  assert (E1 : nleb Rn (U p) u = true) by (apply Rleb_true, D).
  assert (E2 : nleb Rn u (U (n + 1)%Z) = true) by (apply Rleb_true, D).
  if_true E1. cbn [bind]. if_true E2. cbn [bind].
  assert (EF := py_FindMult_eq A u WA). fold n p U in EF. rewrite EF. cbn [bind].
  rewrite (FindMult_min n p U u Wk D Hsep). fold m.
  pose proof (multiplicity_nonneg U 0 (n + p + 1) u) as Hm0.
  assert (0 <= m <= p)%Z by (unfold m; lia).
  set (t := match times with Some t => t | None => (p - m)%Z end) in *.
  assert (0 <= t /\ m + t <= p)%Z as [Ht0 Ht1] by (unfold t; destruct times; lia).
  destruct (Z.leb_spec (t + m) p); [|lia]. cbn [bind].
  destruct (Z.eqb_spec t 0); [eauto|].
  destruct (Z.leb_spec 1 n); [|lia]. cbn [bind].
  destruct (Z.leb_spec 1 p); [|lia]. cbn [bind].
  cbn [andb bind].
  destruct (Z.leb_spec 0 t); [|lia]. destruct (Z.leb_spec t p); [|lia]. cbn [andb bind]. eauto.
Qed.

(** ** Clamp and unclamp *)
Lemma side_lr_cases side lr : side_lr side = Ok lr ->
  fst lr = match side with None => true | Some s => (s =? 0)%Z end /\
  snd lr = match side with None => true | Some s => (s =? 1)%Z end.
Proof.
  destruct side as [s|]; simpl.
  - destruct (Z.eqb_spec s 0); [intros E; injection E as <-; subst; auto|].
    destruct (Z.eqb_spec s 1); [intros E; injection E as <-; subst; auto|discriminate].
  - intros E; injection E as <-. auto.
Qed.

Definition ends_separated (A : axis Rn) : Prop :=
  let n := (a_size A - 1)%Z in let p := a_deg A in let U := a_knots A in
  separated U 0 (n + p + 1) (U p) /\ separated U 0 (n + p + 1) (U (n + 1)%Z).
Definition side_left (side : option Z) : bool := match side with None => true | Some s => (s =? 0)%Z end.
Definition side_right (side : option Z) : bool := match side with None => true | Some s => (s =? 1)%Z end.

Theorem clamp_spec nrb ax a side junk nrb' : wf_nurbs nrb -> py_axis (n_dim nrb) ax = Ok a ->
  let A := get_axis nrb a in let n := (a_size A - 1)%Z in let p := a_deg A in let U := a_knots A in
  ends_separated A ->
  clamp (N:=Rn) junk nrb ax side = Ok nrb' ->
  preserves nrb nrb' /\
  n_axes nrb' = lset a (mkAxis (a_size A) (a_len A) (clampLR n p (side_left side) (side_right side) U)) (n_axes nrb).
Proof.
  intros W Ea A n p U [S1 S2] E.
  pose proof (py_axis_dim _ _ _ Ea) as Ha. pose proof (wf_get_axis _ _ W Ha) as WA. fold A in WA.
  assert (Wk : wf_knots n p U) by apply WA. assert (Wp : (1 <= p)%Z) by apply WA.
  pose proof (wf_n _ _ _ Wk) as Hn. fold n p U in S1, S2.
  unfold clamp in E. rewrite Ea in E. cbn [bind] in E. fold A in E. fold n p U in E.
  destruct (side_lr side) as [[l r]|] eqn:ES; [|discriminate]. cbn [bind] in E.
  destruct (side_lr_cases _ _ ES) as [El Er]. cbn [fst snd] in El, Er. fold (side_left side) in El. fold (side_right side) in Er.
  unfold check in E. destruct (Z.leb_spec 1 n); [|discriminate]. destruct (Z.leb_spec 1 p); [|discriminate]. cbn [bind] in E.
  rewrite <- El, <- Er.
  destruct (Clamp_spec n p U (fun _ => 0) l r junk Wk Wp S1 S2) as [EU [WV _]].
  assert (E3 : nrb' = mkNurbs (lset a (mkAxis (a_size A) (a_len A) (clampLR n p l r U)) (n_axes nrb)) (n_comp nrb)
     (along (N:=Rn) a (fun P => snd (bsp_Clamp (N:=Rn) n p U P l r junk)) (n_arr nrb))).
  { injection E as <-. rewrite <- EU. reflexivity. }
  subst nrb'. cbn [n_axes].
  split; [|reflexivity].
  destruct (clampLR_ends n p l r U Wk) as [D1 D2].
  apply axis_change; auto.
  - fold A. rewrite spec_ax_same. split; auto.
  - fold A. rewrite spec_ax_same. split; simpl; fold n p U; auto.
  - fold A n p U. intros P x Hx. cbn [a_size a_knots].
    replace (a_deg (mkAxis (a_size A) (a_len A) (clampLR n p l r U))) with p by reflexivity.
    fold n. pose proof (Clamp_curve n p U P l r junk x Wk Wp S1 S2 Hx) as C. cbv zeta in C.
    destruct (Clamp_spec n p U P l r junk Wk Wp S1 S2) as [EU' _]. rewrite <- C. f_equal. symmetry. exact EU'.
Qed.

Lemma Unclamp_fst n p U P P' C l r junk : wf_knots n p U -> (1 <= p)%Z ->
  separated U 0 (n + p + 1) (U p) -> separated U 0 (n + p + 1) (U (n + 1)%Z) ->
  fst (bsp_Unclamp (N:=Rn) n p U P C l r junk) = fst (bsp_Unclamp (N:=Rn) n p U P' C l r junk).
Proof.
  intros Wk Wp S1 S2. unfold bsp_Unclamp.
  destruct (Clamp_spec n p U P l r junk Wk Wp S1 S2) as [E1 _].
  destruct (Clamp_spec n p U P' l r junk Wk Wp S1 S2) as [E2 _].
  destruct (ClampKnot n p U P l r junk) as [U1 P1]. destruct (ClampKnot n p U P' l r junk) as [U2 P2].
  cbn [fst] in E1, E2. assert (E : U1 = U2) by (transitivity (clampLR n p l r U); auto). rewrite E.
  unfold UnclampKnot. destruct l, r; reflexivity.
Qed.

(** What the knots of an unclamped axis look like: periodic continuation of order C. *)
Definition periodic_ends (n p C : Z) (l r : bool) (U V : Z -> R) : Prop :=
  (forall i, (p <= i <= n + 1)%Z -> V i = U i) /\
  (if l then (forall i, (C + 1 <= i <= p)%Z -> V i = U p) /\
             forall j, (0 <= j <= C)%Z -> V j = V (j + (n - C))%Z - (V (n + 1)%Z - V p)
   else forall i, (0 <= i <= p)%Z -> V i = U i) /\
  (if r then (forall i, (n + 1 <= i <= n + p - C)%Z -> V i = U (n + 1)%Z) /\
             forall j, (n + p + 1 - C <= j <= n + p + 1)%Z -> V j = V (j - (n - C))%Z + (V (n + 1)%Z - V p)
   else forall i, (n + 1 <= i <= n + p + 1)%Z -> V i = U i).

Theorem unclamp_spec nrb ax a side cont junk nrb' : wf_nurbs nrb -> py_axis (n_dim nrb) ax = Ok a ->
  let A := get_axis nrb a in let n := (a_size A - 1)%Z in let p := a_deg A in let U := a_knots A in
  ends_separated A ->
  unclamp (N:=Rn) junk nrb ax side cont = Ok nrb' ->
  let C := match cont with Some c => c | None => (p - 1)%Z end in
  (0 <= C < p)%Z /\ preserves nrb nrb' /\
  exists V, n_axes nrb' = lset a (mkAxis (a_size A) (a_len A) V) (n_axes nrb) /\
    periodic_ends n p C (side_left side) (side_right side) U V.
Proof.
  intros W Ea A n p U [S1 S2] E C.
  pose proof (py_axis_dim _ _ _ Ea) as Ha. pose proof (wf_get_axis _ _ W Ha) as WA. fold A in WA.
  assert (Wk : wf_knots n p U) by apply WA. assert (Wp : (1 <= p)%Z) by apply WA.
  pose proof (wf_n _ _ _ Wk) as Hn. fold n p U in S1, S2.
  unfold unclamp in E. rewrite Ea in E. cbn [bind] in E. fold A in E. fold n p U in E.
  destruct (side_lr side) as [[l r]|] eqn:ES; [|discriminate]. cbn [bind] in E.
  destruct (side_lr_cases _ _ ES) as [El Er]. cbn [fst snd] in El, Er. fold (side_left side) in El. fold (side_right side) in Er.
  assert (HC : (0 <= C < p)%Z /\ match cont with None => Ok (p - 1)%Z
     | Some c => assert ((0 <=? c)%Z && (c <=? p - 1)%Z) ;;; Ok c end = Ok C).
  { unfold C, assert in *. destruct cont as [c|]; [|split; [lia|reflexivity]].
    destruct (Z.leb_spec 0 c), (Z.leb_spec c (p - 1)); try discriminate E. split; [lia|reflexivity]. }
  destruct HC as [HC EC]. fold p in EC. rewrite EC in E. cbn [bind] in E.
  unfold check in E. destruct (Z.leb_spec 1 n); [|discriminate]. destruct (Z.leb_spec 1 p); [|discriminate]. cbn [bind] in E.
  injection E as <-. split; [exact HC|]. rewrite <- El, <- Er.
  pose proof (Unclamp_spec n p U (fun _ => 0) C l r junk Wk HC S1 S2) as US. cbv zeta in US.
  change (n0 Rn) with 0. cbn [n_axes].
  set (V := fst (bsp_Unclamp (N:=Rn) n p U (fun _ => 0) C l r junk)) in *.
  destruct US as [WV [D1 [D2 [D3 [D4 [D5 [D6 [D7 _]]]]]]]].
  split.
  - apply axis_change; auto.
    + fold A. rewrite spec_ax_same. split; auto.
    + fold A. rewrite spec_ax_same. split; simpl; fold n p U; auto.
    + fold A n p U. intros P x Hx. cbn [a_size a_knots].
      replace (a_deg (mkAxis (a_size A) (a_len A) V)) with p by reflexivity.
      fold n. pose proof (Unclamp_curve n p U P C l r junk x Wk HC S1 S2 Hx) as CC. cbv zeta in CC.
      rewrite <- CC. f_equal. apply Unclamp_fst; auto.
  - exists V. split; [reflexivity|]. split; [|split].
    + intros i Hi. destruct (Z.eq_dec i p) as [->|]; auto. destruct (Z.eq_dec i (n + 1)) as [->|]; auto. apply D3; lia.
    + destruct l; auto.
    + destruct r; auto.
Qed.
