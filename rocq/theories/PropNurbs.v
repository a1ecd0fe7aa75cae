(** Properties of class NURBS: evaluation, construction, and the methods that keep or change
    the geometry (C06-C18, C25-C28, C31-C35, C67, C68).  Vocabulary of the statements:
    - [wf_nurbs]: at most three axes, each with nondecreasing knots, degree >= 1, at least
      degree+1 control points and nonempty first and last spans;
    - [good_args]: one nonempty array of parameters of the domain per axis;
    - [in_range xs idx]: [idx] is an index of the result of a call with arguments [xs];
    - [pt nrb c us]: the quotient of full tensor-product sums (SpecNurbs.v);
    - [same_evaluation nrb nrb']: both calls succeed on every argument list of the domain and
      return equal points and equal field values. *)
From Coq Require Import ZArith Reals QArith List Lia Lra Bool.
From Verif Require Import Num Loop ModelBspline ModelBSp ModelNurbs Spec SumZ BPiece BLink ProofSpan ProofEval ExTac
  SpecNurbs ProofNet PropBasis ProofCall ProofNurbs ProofClamp ProofMethods ProofMethods2 ProofMethods3 ProofGeom ProofGeom2
  ProofPerm ProofSlice ProofInit ProofReads ProofOk.
Import ListNotations.
Local Open Scope R_scope.

(** ** Example objects *)
(** A rational surface with one field: a clamped axis and an unclamped axis. *)
Definition exS : nurbs Rn :=
  mkNurbs [mkAxis (N:=Rn) 4 7 exU; mkAxis (N:=Rn) 5 8 exV] 5
    (fun idx c => IZR (1 + nth 0 idx 0 * 2 + nth 1 idx 0 * nth 1 idx 0 + c)%Z).
Lemma exS_wf : wf_nurbs exS.
Proof.
  split; [simpl; lia|]. split; [|simpl; lia].
  constructor; [|constructor; [|constructor]]; split; simpl; try (unfold a_deg; simpl; lia); [exact exU_wf|exact exV_wf].
Qed.
Definition exArgs : list (vec Rn) := [mkVec (N:=Rn) 2 (fun i => IZR i / 2); mkVec (N:=Rn) 1 (fun _ => 5 / 2)].
Lemma exArgs_good : good_args (spec_axes exS) exArgs.
Proof.
  constructor; [|constructor; [|constructor]]; (split; [simpl; lia|]); cbn [v_len v_get]; intros i Hi;
  unfold in_domain; cbn; unfold a_deg; cbn; unfold exU, exV; cbv [arr nth Z.to_nat Pos.to_nat Pos.iter_op Init.Nat.add].
  - assert (IZR i <= 1) by (apply IZR_le; simpl in Hi; lia). assert (0 <= IZR i) by (apply IZR_le; lia). lra.
  - lra.
Qed.

(** Tactics for the examples: decide comparisons of literal reals. *)
Ltac rdec := repeat match goal with
  | |- context[Rle_dec ?a ?b] => destruct (Rle_dec a b); [try (exfalso; lra)|try (exfalso; lra)]
  | |- context[Rlt_dec ?a ?b] => destruct (Rlt_dec a b); [try (exfalso; lra)|try (exfalso; lra)]
  | |- context[Req_EM_T ?a ?b] => destruct (Req_EM_T a b); [try (exfalso; lra)|try (exfalso; lra)]
  end.
Ltac sepz lo hi := let j := fresh "j" in let H := fresh "H" in intros j H; simpl in H; enumz j lo hi; unfold exU, exV;
  cbv [arr nth Z.to_nat Pos.to_nat Pos.iter_op Init.Nat.add];
  ((left; lra) || (right; unfold Rabs; destruct (Rcase_abs _); lra)).
Lemma exU_sep u : (u = 1 / 2 \/ u = 0 \/ u = 1 \/ u = 2) -> separated exU 0 6 u.
Proof. intros [-> | [-> | [-> | ->]]]; sepz 0%Z 6%Z. Qed.
Lemma exV_sep u : (u = 1 / 2 \/ u = 0 \/ u = 3 \/ u = 2) -> separated exV 0 7 u.
Proof. intros [-> | [-> | [-> | ->]]]; sepz 0%Z 7%Z. Qed.
Ltac multz := unfold multiplicity; simpl; unfold exU, exV; cbv [arr nth Z.to_nat Pos.to_nat Pos.iter_op Init.Nat.add]; rdec; reflexivity.

(** ** C06: calling an object returns, at every parameter of the domain, the quotient of the
    full tensor-product sums; also for the field components. *)
Theorem C06_call_is_tensor_product : forall nrb xs, wf_nurbs nrb -> good_args (spec_axes nrb) xs ->
  forall j j2 j3 jS, exists C F, call (N:=Rn) j j2 j3 jS nrb (map Some xs) FYes = Ok (C, Some F) /\
  forall idx c, in_range xs idx ->
    C idx c = tsum (spec_axes nrb) (fun i => n_arr nrb i c) (params xs idx) /
              tsum (spec_axes nrb) (fun i => n_arr nrb i 3%Z) (params xs idx) /\
    F idx c = tsum (spec_axes nrb) (fun i => n_arr nrb i (4 + c)%Z) (params xs idx) /
              tsum (spec_axes nrb) (fun i => n_arr nrb i 3%Z) (params xs idx).
Proof. exact call_pt. Qed.
Print Assumptions C06_call_is_tensor_product.
Example C06_example : wf_nurbs exS /\ good_args (spec_axes exS) exArgs /\ in_range exArgs [1%Z; 0%Z].
Proof.
  split; [exact exS_wf|]. split; [exact exArgs_good|]. constructor; [simpl; lia|constructor; [simpl; lia|constructor]].
Qed.

(** ** C07: evaluation reads only entries that exist.  For every carrier of numbers with two
    comparison laws (so also for floating point numbers): objects that agree on the valid
    indices of knots and control points give the same outcome for every call. *)
Theorem C07_call_reads_in_range : forall (N : Num), weak_order N ->
  forall junk junk2 junk3 junkS (nrb nrb' : nurbs N) args fields,
  Forall2 (same_axis N) (n_axes nrb) (n_axes nrb') -> n_comp nrb = n_comp nrb' ->
  Forall (enough_points N) (n_axes nrb) ->
  (forall idx c, valid_idx N (n_axes nrb) idx -> n_arr nrb idx c = n_arr nrb' idx c) ->
  same_res (fun r r' => (forall idx c, fst r idx c = fst r' idx c) /\
                        match snd r, snd r' with
                        | Some F, Some F' => forall idx c, F idx c = F' idx c
                        | None, None => True | _, _ => False end)
    (call (N:=N) junk junk2 junk3 junkS nrb args fields) (call junk junk2 junk3 junkS nrb' args fields).
Proof. intros N W junk junk2 junk3 junkS nrb nrb' args fields. apply call_reads; auto. Qed.
Print Assumptions C07_call_reads_in_range.
Example C07_example : Forall (enough_points Rn) (n_axes exS) /\
  Forall2 (same_axis Rn) (n_axes exS) [mkAxis (N:=Rn) 4 7 (fun i => if (i <? 7)%Z then exU i else 99); mkAxis (N:=Rn) 5 8 exV].
Proof.
  split.
  - repeat constructor; unfold a_deg; simpl; lia.
  - constructor; [|constructor; [|constructor]]; (split; [reflexivity|]); (split; [reflexivity|]); intros i Hi; simpl in *; auto.
    destruct (Z.ltb_spec i 7); auto. lia.
Qed.

(** ** C08: points stay in the bounding box of the control points. *)
Theorem C08_bounding_box : forall nrb xs c lo hi, wf_nurbs nrb -> positive_weights nrb -> good_args (spec_axes nrb) xs ->
  (forall i, in_net (spec_axes nrb) i -> lo <= n_points (N:=Rn) nrb i c <= hi) ->
  forall j j2 j3 jS, exists C F, call (N:=Rn) j j2 j3 jS nrb (map Some xs) FYes = Ok (C, Some F) /\
  forall idx, in_range xs idx -> lo <= C idx c <= hi.
Proof.
  intros nrb xs c lo hi W Pw G H j j2 j3 jS. destruct (call_pt nrb xs W G j j2 j3 jS) as [C [F [E HC]]].
  exists C, F. split; auto. intros idx I. rewrite (proj1 (HC idx c I)). apply pt_bounds; auto. eapply params_box; eauto.
Qed.
Print Assumptions C08_bounding_box.
Lemma exS_idx i : in_net (spec_axes exS) i -> exists a b, i = [a; b] /\ (0 <= a <= 3)%Z /\ (0 <= b <= 4)%Z.
Proof.
  intros H. inversion H as [|? a ? l' Ha H1]; subst. inversion H1 as [|? b ? l'' Hb H2]; subst. inversion H2; subst.
  exists a, b. simpl in *. auto.
Qed.
Lemma exS_pos : positive_weights exS.
Proof.
  intros i H. destruct (exS_idx i H) as [a [b [-> [Ha Hb]]]]. unfold n_weights, exS. cbn [n_arr nth].
  apply IZR_lt. nia.
Qed.
Example C08_example : positive_weights exS /\ forall i, in_net (spec_axes exS) i -> 0 <= n_points (N:=Rn) exS i 1 <= 1.
Proof.
  split; [exact exS_pos|]. intros i H. pose proof (exS_pos i H) as W. unfold n_points, n_weights in *.
  change (ndiv Rn) with Rdiv. destruct (exS_idx i H) as [a [b [-> [Ha Hb]]]].
  unfold exS in *. cbn [n_arr nth] in *. change (T Rn) with R in *.
  set (w := IZR (1 + a * 2 + b * b + 3)) in *. 
  assert (E : IZR (1 + a * 2 + b * b + 1) = w - 2) by (unfold w; rewrite <- minus_IZR; f_equal; lia). rewrite E.
  assert (4 <= w) by (unfold w; apply IZR_le; nia).
  split; [apply Rle_mult_inv_pos; lra|]. apply Rmult_le_reg_r with w; [lra|]. unfold Rdiv. rewrite Rmult_assoc, Rinv_l by lra. lra.
Qed.

(** ** C09: at a corner where every axis is clamped the object takes the value of the corner
    control point. *)
Theorem C09_corner_interpolation : forall nrb sides, wf_nurbs nrb -> Forall2 clamped_at (spec_axes nrb) sides ->
  let us := map2 corner_param (spec_axes nrb) sides in
  let corner := map2 corner_index (spec_axes nrb) sides in
  forall j j2 j3 jS, exists C F,
    call (N:=Rn) j j2 j3 jS nrb (map Some (map (fun u => mkVec (N:=Rn) 1 (fun _ => u)) us)) FYes = Ok (C, Some F) /\
    forall c, C (map (fun _ => 0%Z) us) c = n_points nrb corner c /\
              F (map (fun _ => 0%Z) us) c = n_points nrb corner (4 + c)%Z.
Proof.
  intros nrb sides W H us corner j j2 j3 jS.
  assert (D : in_box (spec_axes nrb) us).
  { destruct W as [_ [W _]]. unfold us. clear - H W. revert W. induction H as [|a s axs sides Ha H IH]; intros W; simpl; constructor.
    - inversion W as [|? ? [Wp Wk] _]; subst. pose proof (wf_n _ _ _ Wk). pose proof (wf_mono _ _ _ Wk) as M. pose proof (wf_first _ _ _ Wk) as F1.
      assert (x_U a (x_p a) <= x_U a (x_n a + 1)%Z) by (apply M; lia).
      unfold corner_param. destruct s; split; lra.
    - apply IH. inversion W; auto. }
  set (xs := map (fun u => mkVec (N:=Rn) 1 (fun _ => u)) us).
  assert (G : good_args (spec_axes nrb) xs).
  { unfold xs. clear - D. induction D; simpl; constructor; auto. split; [simpl; lia|]. intros. exact H. }
  assert (I : in_range xs (map (fun _ => 0%Z) us)).
  { unfold xs. clear. induction us; simpl; constructor; auto. simpl; lia. }
  assert (P : params xs (map (fun _ => 0%Z) us) = us).
  { unfold xs. clear. induction us; simpl; auto. f_equal. auto. }
  destruct (call_pt nrb xs W G j j2 j3 jS) as [C [F [E HC]]]. exists C, F. split; auto.
  assert (T : forall c, hom nrb c us = n_arr nrb corner c).
  { intros c. unfold hom, us. destruct W as [_ [W _]]. apply (tsum_corner (spec_axes nrb) sides (fun i => n_arr nrb i c) W H). }
  intros c. destruct (HC _ c I) as [H1 H2]. rewrite P in H1, H2. unfold pt in H1, H2. rewrite !T in H1, H2. split; assumption.
Qed.
Print Assumptions C09_corner_interpolation.
Definition exT : nurbs Rn := mkNurbs [mkAxis (N:=Rn) 4 7 exU; mkAxis (N:=Rn) 4 7 exU] 4
    (fun idx c => IZR (1 + nth 0 idx 0 * 2 + nth 1 idx 0 * nth 1 idx 0 + c)%Z).
Example C09_example : wf_nurbs exT /\ Forall2 clamped_at (spec_axes exT) [true; false].
Proof.
  split.
  - split; [simpl; lia|]. split; [|simpl; lia].
    constructor; [|constructor; [|constructor]]; split; simpl; try (unfold a_deg; simpl; lia); exact exU_wf.
  - constructor; [|constructor; [|constructor]]; simpl; intros j Hj; unfold a_deg in *; simpl in *.
    + enumz j 4%Z 5%Z; reflexivity.
    + enumz j 1%Z 2%Z; reflexivity.
Qed.

(** ** C10: transforming then evaluating is evaluating then transforming; fields unchanged. *)
Theorem C10_transform : forall nrb M xs, wf_nurbs nrb -> good_args (spec_axes nrb) xs -> affine M ->
  (forall idx, in_range xs idx -> hom nrb 3 (params xs idx) <> 0) ->
  forall j j2 j3 jS, exists C F C' F',
    call (N:=Rn) j j2 j3 jS nrb (map Some xs) FYes = Ok (C, Some F) /\
    call (N:=Rn) j j2 j3 jS (transform nrb M) (map Some xs) FYes = Ok (C', Some F') /\
    forall idx, in_range xs idx ->
      (forall c, (0 <= c < 3)%Z ->
         C' idx c = M c 0%Z * C idx 0%Z + M c 1%Z * C idx 1%Z + M c 2%Z * C idx 2%Z + M c 3%Z) /\
      (forall c, (0 <= c)%Z -> F' idx c = F idx c).
Proof.
  intros nrb M xs W G A Hw j j2 j3 jS. destruct (call_pt nrb xs W G j j2 j3 jS) as [C [F [E HC]]].
  assert (W' : wf_nurbs (transform (N:=Rn) nrb M)) by exact W.
  destruct (call_pt (transform (N:=Rn) nrb M) xs W' G j j2 j3 jS) as [C' [F' [E' HC']]].
  exists C, F, C', F'. split; auto. split; auto. intros idx I. pose proof (params_box _ _ _ G I) as B.
  destruct (transform_pt nrb M (params xs idx) (in_box_length _ _ B) A (Hw idx I)) as [T1 [T2 T3]].
  split; intros c Hc.
  - rewrite (proj1 (HC' idx c I)), !(proj1 (HC idx _ I)). apply T1; auto.
  - rewrite (proj2 (HC' idx c I)), (proj2 (HC idx c I)). apply T3. lia.
Qed.
Print Assumptions C10_transform.
(** The weights of exS are positive, so its weight function vanishes nowhere. *)
Example C10_example : (forall idx, in_range exArgs idx -> hom exS 3 (params exArgs idx) <> 0) /\
  affine (fun r c => if (r =? c)%Z then 1 else if (c =? 3)%Z then IZR (r + 5) else 0).
Proof.
  split.
  - intros idx I. assert (0 < hom exS 3 (params exArgs idx)); [|lra].
    apply weight_pos; [exact exS_wf|exact exS_pos|]. eapply params_box; [exact exArgs_good|auto].
  - repeat split; reflexivity.
Qed.

(** ** C11 and C12: knot insertion. *)
Theorem C11_insert_keeps_geometry : forall nrb ax a u times junk nrb', wf_nurbs nrb -> py_axis (n_dim nrb) ax = Ok a ->
  let A := get_axis nrb a in let n := (a_size A - 1)%Z in let p := a_deg A in let U := a_knots A in
  separated U 0 (n + p + 1) u ->
  (U p < u < U (n + 1)%Z \/ (p <= multiplicity U 0 (n + p + 1) u)%Z) ->
  insert (N:=Rn) junk nrb ax u times = Ok nrb' -> wf_nurbs nrb' /\ same_evaluation nrb nrb'.
Proof.
  intros nrb ax a u times junk nrb' W Ea A n p U Hs Hi E.
  destruct (insert_spec nrb ax a u times junk nrb' W Ea Hs Hi E) as [_ [_ [_ [Pr _]]]].
  split; [apply Pr|apply preserves_evaluation; auto].
Qed.
Print Assumptions C11_insert_keeps_geometry.

(** Bookkeeping; the call succeeds exactly for legal arguments. *)
Theorem C12_insert_bookkeeping : forall nrb ax a u times junk, wf_nurbs nrb -> py_axis (n_dim nrb) ax = Ok a ->
  let A := get_axis nrb a in let n := (a_size A - 1)%Z in let p := a_deg A in let U := a_knots A in
  separated U 0 (n + p + 1) u ->
  (U p < u < U (n + 1)%Z \/ (p <= multiplicity U 0 (n + p + 1) u)%Z) ->
  let m := Z.min (multiplicity U 0 (n + p + 1) u) p in
  let t := match times with Some t => t | None => (p - m)%Z end in
  ((exists nrb', insert (N:=Rn) junk nrb ax u times = Ok nrb') <-> (in_domain n p U u /\ (0 <= t)%Z /\ (m + t <= p)%Z)) /\
  forall nrb', insert (N:=Rn) junk nrb ax u times = Ok nrb' ->
  exists V, n_axes nrb' = lset a (mkAxis (a_size A + t) (a_len A + t) V) (n_axes nrb) /\ n_comp nrb' = n_comp nrb /\
    nondecreasing V 0 (n + t + p + 1) /\
    forall v, multiplicity V 0 (n + t + p + 1) v =
      (multiplicity U 0 (n + p + 1) v + (if Req_EM_T v u then t else 0))%Z.
Proof.
  intros nrb ax a u times junk W Ea A n p U Hs Hi m t. split; [split|].
  - intros [nrb' E]. destruct (insert_spec nrb ax a u times junk nrb' W Ea Hs Hi E) as [H1 [H2 [H3 _]]]. auto.
  - intros [H1 [H2 H3]]. apply (insert_ok nrb ax a u times junk W Ea Hs H1). unfold t in *. destruct times; auto.
  - intros nrb' E. destruct (insert_spec nrb ax a u times junk nrb' W Ea Hs Hi E) as [_ [_ [_ [Pr [V [HV [M1 M2]]]]]]].
    exists V. split; auto. split; [apply Pr|]. split; auto.
Qed.
Print Assumptions C12_insert_bookkeeping.
(** The hypotheses of C11 and C12. *)
Example C11_C12_example : py_axis (n_dim exS) (-2) = Ok 0%nat /\ separated exU 0 6 (1 / 2) /\ exU 2%Z < 1 / 2 < exU 4%Z /\
  multiplicity exU 0 6 1 = 1%Z /\ in_domain 3 2 exU (1 / 2) /\
  forall junk, exists nrb', insert (N:=Rn) junk exS (-2) (1 / 2) (Some 2%Z) = Ok nrb'.
Proof.
  split; [reflexivity|]. split; [apply exU_sep; auto|]. split; [unfold exU; split; arr_lra|]. split; [multz|].
  assert (D : in_domain 3 2 exU (1 / 2)) by (unfold in_domain, exU; split; arr_lra). split; auto.
  intros junk. apply (insert_ok exS (-2) 0%nat (1 / 2) (Some 2%Z) junk exS_wf eq_refl).
  - apply exU_sep; auto.
  - exact D.
  - replace (multiplicity _ _ _ _) with 0%Z by (symmetry; multz). cbn. unfold a_deg; simpl; lia.
Qed.

(** ** C13 and C14: knot refinement. *)
Theorem C13_refine_keeps_geometry : forall nrb ax a values junk nrb', wf_nurbs nrb -> py_axis (n_dim nrb) ax = Ok a ->
  let A := get_axis nrb a in let n := (a_size A - 1)%Z in let p := a_deg A in let U := a_knots A in
  separated_list U (n + p + 1) values ->
  (forall x, In x values -> U p < x < U (n + 1)%Z \/ (p <= multiplicity U 1 (n + p) x)%Z) ->
  refine (N:=Rn) junk nrb ax values = Ok nrb' -> wf_nurbs nrb' /\ same_evaluation nrb nrb'.
Proof.
  intros nrb ax a values junk nrb' W Ea A n p U Hs Hi E.
  destruct (refine_class_spec nrb ax a values junk nrb' W Ea Hs Hi E) as [Pr _].
  split; [apply Pr|apply preserves_evaluation; auto].
Qed.
Print Assumptions C13_refine_keeps_geometry.

Theorem C14_refine_bookkeeping : forall nrb ax a values junk, wf_nurbs nrb -> py_axis (n_dim nrb) ax = Ok a -> values <> [] ->
  let A := get_axis nrb a in let n := (a_size A - 1)%Z in let p := a_deg A in let U := a_knots A in
  ((exists nrb', refine (N:=Rn) junk nrb ax values = Ok nrb') <->
   (forall x, In x values -> U p <= x <= U (n + 1)%Z) /\
   (forall v, In v values \/ (exists j, (1 <= j <= n + p)%Z /\ U j = v) ->
      (multiplicity U 1 (n + p) v + countL v values <= p)%Z)) /\
  (separated_list U (n + p + 1) values ->
   (forall x, In x values -> U p < x < U (n + 1)%Z \/ (p <= multiplicity U 1 (n + p) x)%Z) ->
   forall nrb', refine (N:=Rn) junk nrb ax values = Ok nrb' ->
   let t := Z.of_nat (length values) in
   exists V, n_axes nrb' = lset a (mkAxis (a_size A + t) (a_len A + t) V) (n_axes nrb) /\ n_comp nrb' = n_comp nrb /\
     nondecreasing V 0 (n + t + p + 1) /\
     forall v, multiplicity V 0 (n + t + p + 1) v = (multiplicity U 0 (n + p + 1) v + countL v values)%Z).
Proof.
  intros nrb ax a values junk W Ea Hne A n p U. split; [apply refine_ok; auto|]. intros Hs Hi nrb' E t.
  destruct (refine_class_spec nrb ax a values junk nrb' W Ea Hs Hi E) as [Pr [V [H1 [H2 H3]]]].
  exists V. split; auto. split; [apply Pr|]. split; auto.
Qed.
Print Assumptions C14_refine_bookkeeping.
Lemma mult_exU v : (multiplicity exU 1 5 v <= 2)%Z.
Proof. apply (continuous_mult 3 2 exU v exU_wf); [lia|]. intros i Hi. enumz i 3%Z 3%Z; unfold exU; arr_lra. Qed.
Lemma mult_exU_off v : v <> 0 -> v <> 2 -> multiplicity exU 1 5 v = if Req_EM_T 1 v then 1%Z else 0%Z.
Proof.
  intros H1 H2. unfold multiplicity, exU. simpl. cbv [arr nth Z.to_nat Pos.to_nat Pos.iter_op Init.Nat.add].
  destruct (Req_EM_T 0 v); [lra|]. destruct (Req_EM_T 2 v); [lra|]. destruct (Req_EM_T 1 v); reflexivity.
Qed.
(** The hypotheses of C13 and C14. *)
Example C13_C14_example : separated_list exU 6 [3 / 2; 1 / 2; 1] /\ (forall x, In x [3 / 2; 1 / 2; 1] -> exU 2%Z < x < exU 4%Z) /\
  forall junk, exists nrb', refine (N:=Rn) junk exS 0 [3 / 2; 1 / 2; 1] = Ok nrb'.
Proof.
  assert (D : forall x, In x [3 / 2; 1 / 2; 1] -> exU 2%Z < x < exU 4%Z).
  { intros x Hx. destruct Hx as [<-|[<-|[<-|[]]]]; unfold exU; split; arr_lra. }
  split; [|split; [exact D|]].
  - intros x Hx. split.
    + destruct Hx as [<-|[<-|[<-|[]]]]; sepz 0%Z 6%Z.
    + intros y Hy. destruct Hx as [<-|[<-|[<-|[]]]]; destruct Hy as [<-|[<-|[<-|[]]]];
      ((left; lra) || (right; unfold Rabs; destruct (Rcase_abs _); lra)).
  - intros junk. apply (refine_ok exS 0 0%nat [3 / 2; 1 / 2; 1] junk exS_wf eq_refl); [discriminate|]. split.
    + intros x Hx. specialize (D x Hx). split; apply Rlt_le, D.
    + intros v _. change ((multiplicity exU 1 5 v + countL v [(3 / 2)%R; (1 / 2)%R; 1%R] <= 2)%Z). cbn [countL].
      pose proof (mult_exU v). pose proof (mult_exU_off v) as HO.
      destruct (Req_EM_T (3 / 2) v); [rewrite HO by lra; repeat destruct (Req_EM_T _ _); try lra; lia|].
      destruct (Req_EM_T (1 / 2) v); [rewrite HO by lra; repeat destruct (Req_EM_T _ _); try lra; lia|].
      destruct (Req_EM_T 1 v); [rewrite HO by lra; repeat destruct (Req_EM_T _ _); try lra; lia|lia].
Qed.

(** ** C15: extraction fixes one parameter. *)
Theorem C15_extract_fixes_parameter : forall nrb ax a u junk, wf_nurbs nrb -> py_axis (n_dim nrb) ax = Ok a ->
  let A := get_axis nrb a in let n := (a_size A - 1)%Z in let p := a_deg A in let U := a_knots A in
  in_domain n p U u -> separated U 0 (n + p + 1) u ->
  (u < U (n + 1)%Z \/ multiplicity U 0 (n + p + 1) u = 1%Z \/ (p <= multiplicity U 0 (n + p + 1) u)%Z) ->
  exists nrb', extract (N:=Rn) junk nrb ax u = Ok nrb' /\ wf_nurbs nrb' /\ n_axes nrb' = lrem a (n_axes nrb) /\
  forall xs, good_args (spec_axes nrb') xs -> same_values nrb nrb' (fix_arg a u xs) xs (lins a 0%Z).
Proof.
  intros nrb ax a u junk W Ea A n p U D Hs Hm.
  destruct (extract_ok nrb ax a u junk W Ea D) as [nrb' E]. exists nrb'. split; auto.
  destruct (extract_spec nrb ax a u junk nrb' W Ea Hs Hm E) as [_ [H1 [H2 _]]]. split; auto. split; auto.
  exact (extract_values nrb ax a u junk nrb' W Ea Hs Hm E).
Qed.
Print Assumptions C15_extract_fixes_parameter.
(** A value inside a span, an unclamped right end (multiplicity 1) and a clamped right end. *)
Example C15_example : in_domain 3 2 exU (1 / 2) /\ separated exU 0 6 (1 / 2) /\ 1 / 2 < exU 4%Z /\
  (in_domain 4 2 exV 3 /\ separated exV 0 7 3 /\ multiplicity exV 0 7 3 = 1%Z) /\
  (in_domain 3 2 exU 2 /\ separated exU 0 6 2 /\ (2 <= multiplicity exU 0 6 2)%Z).
Proof.
  split; [split; unfold exU; arr_lra|]. split; [apply exU_sep; auto|]. split; [unfold exU; arr_lra|]. split; [split; [|split]|split; [|split]].
  - split; unfold exV; arr_lra.
  - apply exV_sep; auto.
  - multz.
  - split; unfold exU; arr_lra.
  - apply exU_sep; auto.
  - replace (multiplicity exU 0 6 2) with 3%Z by (symmetry; multz). lia.
Qed.

(** ** C16, guarded part: boundary extraction at the left end, and at a right end of
    multiplicity 1 or at least the degree.  (The other right ends: C16_..._refuted.) *)
Theorem C16_boundary_values : forall nrb ax a side junk nrb', wf_nurbs nrb -> py_axis (n_dim nrb) ax = Ok a ->
  let A := get_axis nrb a in let n := (a_size A - 1)%Z in let p := a_deg A in let U := a_knots A in
  let u := if (side =? 0)%Z then U p else U (n + 1)%Z in
  separated U 0 (n + p + 1) u ->
  (side = 0%Z \/ multiplicity U 0 (n + p + 1) u = 1%Z \/ (p <= multiplicity U 0 (n + p + 1) u)%Z) ->
  boundary (N:=Rn) junk nrb ax side = Ok nrb' ->
  n_axes nrb' = lrem a (n_axes nrb) /\
  forall xs, good_args (spec_axes nrb') xs -> same_values nrb nrb' (fix_arg a u xs) xs (lins a 0%Z).
Proof.
  intros nrb ax a side junk nrb' W Ea A n p U u Hs Hm E.
  destruct (boundary_values nrb ax a side junk nrb' W Ea Hs Hm E) as [H1 [_ H2]]. auto.
Qed.
Print Assumptions C16_boundary_values.
Example C16_example : exists nrb', boundary (N:=Rn) (fun _ => 77) exS 1 1 = Ok nrb'.
Proof.
  unfold boundary. cbn [bind assert orb Z.eqb py_axis n_dim]. 
  destruct (extract_ok exS 1 1%nat 3 (fun _ => 77) exS_wf eq_refl) as [r E]; [split; cbn; unfold exV; arr_lra|].
  exists r. exact E.
Qed.

(** ** C17: clamping. *)
Theorem C17_clamp : forall nrb ax a side junk, wf_nurbs nrb -> py_axis (n_dim nrb) ax = Ok a ->
  let A := get_axis nrb a in let n := (a_size A - 1)%Z in let p := a_deg A in let U := a_knots A in
  ((exists nrb', clamp (N:=Rn) junk nrb ax side = Ok nrb') <-> legal_side side) /\
  forall nrb', clamp (N:=Rn) junk nrb ax side = Ok nrb' ->
  (ends_separated A ->
   wf_nurbs nrb' /\ same_evaluation nrb nrb' /\
   exists V, n_axes nrb' = lset a (mkAxis (a_size A) (a_len A) V) (n_axes nrb) /\
     forall i, (0 <= i <= n + p + 1)%Z ->
       V i = if side_left side && (i <=? p)%Z then U p else if side_right side && (n + 1 <=? i)%Z then U (n + 1)%Z else U i) /\
  forall junk', exists nrb'', clamp (N:=Rn) junk' nrb' ax side = Ok nrb'' /\ same_object nrb' nrb''.
Proof.
  intros nrb ax a side junk W Ea A n p U. split; [apply (clamp_ok nrb ax a side junk W Ea)|]. intros nrb' E. split.
  - intros Hs. destruct (clamp_spec nrb ax a side junk nrb' W Ea Hs E) as [Pr Ax].
    split; [apply Pr|]. split; [apply preserves_evaluation; auto|].
    eexists. split; [exact Ax|]. fold A n p U.
    pose proof (py_axis_dim _ _ _ Ea) as Ha. pose proof (wf_get_axis _ _ W Ha) as WA. fold A in WA.
    assert (Wk : wf_knots n p U) by apply WA. pose proof (wf_n _ _ _ Wk) as Hn.
    intros i Hi. unfold clampLR, clampL, clampR.
    destruct (side_left side), (side_right side); cbn [andb];
    repeat match goal with |- context[(?a <=? ?b)%Z] => destruct (Z.leb_spec a b) | |- context[(?a <? ?b)%Z] => destruct (Z.ltb_spec a b) end; try lia; auto;
    cbn [andb]; first [replace i with p by lia; reflexivity|replace i with (n + 1)%Z by lia; reflexivity].
  - exact (clamp_twice nrb ax a side junk nrb' W Ea E).
Qed.
Print Assumptions C17_clamp.
Lemma exS_ends a : (a < 2)%nat -> ends_separated (get_axis exS a).
Proof.
  intros H. destruct a as [|[|a]]; [| |lia]; unfold ends_separated; cbn; unfold a_deg; cbn; (split;
  [replace (exU 2%Z) with 0 by (unfold exU; arr_lra) || replace (exV 2%Z) with 0 by (unfold exV; arr_lra)
  |replace (exU 4%Z) with 2 by (unfold exU; arr_lra) || replace (exV 5%Z) with 3 by (unfold exV; arr_lra)]).
  all: try (apply exU_sep; tauto); apply exV_sep; tauto.
Qed.
Example C17_example : ends_separated (get_axis exS 1) /\ legal_side (Some 1%Z) /\ exV 5%Z <> exV 6%Z.
Proof. split; [apply exS_ends; lia|]. split; [simpl; auto|]. unfold exV. arr_lra. Qed.

(** ** C18: unclamping. *)
Theorem C18_unclamp : forall nrb ax a side cont junk, wf_nurbs nrb -> py_axis (n_dim nrb) ax = Ok a ->
  let A := get_axis nrb a in let n := (a_size A - 1)%Z in let p := a_deg A in let U := a_knots A in
  let C := match cont with Some c => c | None => (p - 1)%Z end in
  ((exists nrb', unclamp (N:=Rn) junk nrb ax side cont = Ok nrb') <-> (legal_side side /\ (0 <= C < p)%Z)) /\
  (ends_separated A -> forall nrb', unclamp (N:=Rn) junk nrb ax side cont = Ok nrb' ->
   wf_nurbs nrb' /\ same_evaluation nrb nrb' /\
   exists V, n_axes nrb' = lset a (mkAxis (a_size A) (a_len A) V) (n_axes nrb) /\
     periodic_ends n p C (side_left side) (side_right side) U V).
Proof.
  intros nrb ax a side cont junk W Ea A n p U C. split.
  - rewrite (unclamp_ok nrb ax a side cont junk W Ea). fold A. fold p.
    pose proof (py_axis_dim _ _ _ Ea) as Ha. pose proof (wf_get_axis _ _ W Ha) as WA. fold A in WA.
    assert (Wp : (1 <= p)%Z) by apply WA. unfold C. destruct cont; intuition lia.
  - intros Hs nrb' E. destruct (unclamp_spec nrb ax a side cont junk nrb' W Ea Hs E) as [_ [Pr H]].
    split; [apply Pr|]. split; [apply preserves_evaluation; auto|]. exact H.
Qed.
Print Assumptions C18_unclamp.
Example C18_example : ends_separated (get_axis exS 0) /\
  forall junk, exists nrb', unclamp (N:=Rn) junk exS 0 None (Some 1%Z) = Ok nrb'.
Proof.
  split; [apply exS_ends; lia|]. intros junk. apply (unclamp_ok exS 0 0%nat None (Some 1%Z) junk exS_wf eq_refl).
  split; simpl; auto. unfold a_deg. simpl. lia.
Qed.

(** ** C25: slicing. *)
Theorem C25_slice : forall nrb ax a start end_ junk, wf_nurbs nrb -> py_axis (n_dim nrb) ax = Ok a ->
  let A := get_axis nrb a in let n := (a_size A - 1)%Z in let p := a_deg A in let U := a_knots A in
  let u0 := match start with Some x => x | None => U p end in
  let u1 := match end_ with Some x => x | None => U (n + 1)%Z end in
  continuous_axis A -> separated_list U (n + p + 1) [u0; u1] ->
  ((exists nrb', slice (N:=Rn) junk nrb ax start end_ = Ok nrb') <-> (U p <= u0 /\ u0 < u1 /\ u1 <= U (n + 1)%Z)) /\
  forall nrb', slice (N:=Rn) junk nrb ax start end_ = Ok nrb' ->
  wf_nurbs nrb' /\
  (exists A', n_axes nrb' = lset a A' (n_axes nrb) /\ a_deg A' = p /\
     a_knots A' p = u0 /\ a_knots A' (a_size A' - 1 + 1)%Z = u1) /\
  forall xs, good_args (spec_axes nrb') xs -> same_values nrb nrb' xs xs (fun idx => idx).
Proof.
  intros nrb ax a start end_ junk W Ea A n p U u0 u1 Cn Hs. split; [split|].
  - intros [nrb' E]. destruct (slice_spec nrb ax a start end_ junk nrb' W Ea Cn Hs E) as [H1 [H2 [H3 _]]]. auto.
  - intros [H1 [H2 H3]]. exact (slice_ok nrb ax a start end_ junk W Ea Cn Hs H1 H2 H3).
  - intros nrb' E. destruct (slice_spec nrb ax a start end_ junk nrb' W Ea Cn Hs E) as [_ [_ [_ [H1 [_ [H2 [_ H3]]]]]]]. auto.
Qed.
Print Assumptions C25_slice.
Lemma exS_cont : Forall continuous_axis (n_axes exS).
Proof.
  constructor; [|constructor; [|constructor]]; unfold continuous_axis, mult_le; cbn; unfold a_deg; cbn; intros i Hi.
  - enumz i 3%Z 3%Z; unfold exU; arr_lra.
  - enumz i 3%Z 4%Z; unfold exV; arr_lra.
Qed.
Example C25_example : continuous_axis (get_axis exS 0) /\ separated_list exU 6 [1 / 2; 2] /\ exU 2%Z <= 1 / 2 /\ 1 / 2 < 2 /\ 2 <= exU 4%Z.
Proof.
  split; [apply (proj1 (Forall_forall _ _) exS_cont); left; reflexivity|]. split.
  - intros x Hx. split.
    + apply exU_sep. destruct Hx as [<-|[<-|[]]]; auto.
    + intros y Hy. destruct Hx as [<-|[<-|[]]]; destruct Hy as [<-|[<-|[]]];
      ((left; lra) || (right; unfold Rabs; destruct (Rcase_abs _); lra)).
  - unfold exU. repeat split; arr_lra.
Qed.

(** ** C26: reversal, for objects continuous along every axis. *)
Theorem C26_reverse : forall nrb ax a, wf_nurbs nrb -> py_axis (n_dim nrb) ax = Ok a -> continuous_axis (get_axis nrb a) ->
  let A := get_axis nrb a in
  exists nrb', reverse (N:=Rn) nrb [ax] = Ok nrb' /\ wf_nurbs nrb' /\
  (forall xs, good_args (spec_axes nrb) xs ->
     same_values nrb nrb' xs (map_arg a (fun u => a_lo A + a_hi A - u) xs) (fun idx => idx)) /\
  reverse (N:=Rn) nrb' [ax] = Ok nrb.
Proof.
  intros nrb ax a W Ea Cn A. pose proof (py_axis_dim _ _ _ Ea) as Ha.
  exists (reverse1 nrb a). unfold reverse. cbn [reverse_axes]. rewrite Ea. cbn [bind]. split; auto.
  destruct (reverse1_spec nrb a W Ha Cn) as [H1 [_ H2]]. split; auto. split; auto.
  assert (Ed : n_dim (reverse1 nrb a) = n_dim nrb) by (unfold n_dim, reverse1; cbn [n_axes]; rewrite lset_length; reflexivity).
  rewrite Ed, Ea. cbn [bind]. rewrite reverse1_twice by auto. reflexivity.
Qed.
Print Assumptions C26_reverse.
(** Several axes at once (also all of them, when none is named). *)
Theorem C26_reverse_many : forall nrb axes nrb', wf_nurbs nrb -> Forall continuous_axis (n_axes nrb) ->
  reverse (N:=Rn) nrb axes = Ok nrb' ->
  let axes := match axes with [] => zseq (length (n_axes nrb)) 0 | _ => axes end in
  wf_nurbs nrb' /\ Forall2 same_dom (spec_axes nrb) (spec_axes nrb') /\
  exists as_, Forall2 (fun ax a => py_axis (n_dim nrb) ax = Ok a) axes as_ /\
  forall us c, in_box (spec_axes nrb) us -> hom nrb' c (fold_left (fun us a => mirror nrb a us) as_ us) = hom nrb c us.
Proof.
  intros nrb axes nrb' W Cn E axes'. unfold reverse in E. fold axes' in E.
  destruct (reverse_spec axes' nrb nrb' W Cn E) as [H1 [_ [H2 H3]]]. auto.
Qed.
Print Assumptions C26_reverse_many.
Example C26_example : Forall continuous_axis (n_axes exS) /\ exists nrb', reverse (N:=Rn) exS [] = Ok nrb'.
Proof. split; [exact exS_cont|]. eexists. reflexivity. Qed.

(** ** C27: affine change of parameter. *)
Theorem C27_remap : forall nrb ax a start end_, wf_nurbs nrb -> py_axis (n_dim nrb) ax = Ok a ->
  let A := get_axis nrb a in let n := (a_size A - 1)%Z in let p := a_deg A in let U := a_knots A in
  let lo := U p in let hi := U (n + 1)%Z in
  let c := match start with Some c => c | None => lo end in
  let d := match end_ with Some d => d | None => hi end in
  let g := fun x => c + (x - lo) * (d - c) / (hi - lo) in
  ((exists nrb', remap (N:=Rn) nrb ax start end_ = Ok nrb') <-> c < d) /\
  forall nrb', remap (N:=Rn) nrb ax start end_ = Ok nrb' ->
  wf_nurbs nrb' /\
  (exists V : Z -> R, n_axes nrb' = lset a (mkAxis (a_size A) (a_len A) V) (n_axes nrb) /\ V p = c /\ V (n + 1)%Z = d) /\
  forall xs, good_args (spec_axes nrb) xs -> same_values nrb nrb' xs (map_arg a g xs) (fun idx => idx).
Proof.
  intros nrb ax a start end_ W Ea A n p U lo hi c d g. split; [split|].
  - intros [nrb' E]. apply (remap_spec nrb ax a start end_ nrb' W Ea E).
  - intros H. apply (remap_ok nrb ax a start end_ W Ea). rewrite a_hi_eq. exact H.
  - intros nrb' E. destruct (remap_spec nrb ax a start end_ nrb' W Ea E) as [_ [H1 [[V [H2 [_ [H3 H4]]]] H5]]]. split; auto. split; eauto.
Qed.
Print Assumptions C27_remap.
Example C27_example : py_axis (n_dim exS) 1 = Ok 1%nat /\ exists nrb', remap (N:=Rn) exS 1 (Some (-5)) None = Ok nrb'.
Proof. split; [reflexivity|]. apply (remap_ok exS 1 1%nat (Some (-5)) None exS_wf eq_refl). cbn. unfold a_hi, a_deg; cbn. unfold exV. arr_lra. Qed.

(** ** C28: exchanging and permuting axes. *)
Theorem C28_swap : forall nrb ax1 ax2 i j, wf_nurbs nrb ->
  py_axis (n_dim nrb) ax1 = Ok i -> py_axis (n_dim nrb) ax2 = Ok j ->
  exists nrb', swap (N:=Rn) nrb ax1 ax2 = Ok nrb' /\ wf_nurbs nrb' /\
  (forall xs, good_args (spec_axes nrb) xs ->
     same_values nrb nrb' xs (lswap i j (mkVec (N:=Rn) 0 (fun _ => 0)) xs) (lswap i j 0%Z)) /\
  forall nrb2, swap nrb' ax1 ax2 = Ok nrb2 ->
    n_axes nrb2 = n_axes nrb /\ n_comp nrb2 = n_comp nrb /\
    forall idx c, length idx = length (n_axes nrb) -> n_arr nrb2 idx c = n_arr nrb idx c.
Proof.
  intros nrb ax1 ax2 i j W E1 E2. destruct (swap_ok nrb ax1 ax2 i j E1 E2) as [nrb' E]. exists nrb'. split; auto.
  destruct (swap_spec nrb ax1 ax2 i j nrb' W E1 E2 E) as [H1 [_ [_ H2]]]. split; auto. split; auto.
  intros nrb2 Eb. exact (swap_twice nrb ax1 ax2 nrb' nrb2 E Eb).
Qed.
Print Assumptions C28_swap.
Theorem C28_transpose : forall nrb axes, wf_nurbs nrb -> permutes (length (n_axes nrb)) axes ->
  exists nrb', transpose (N:=Rn) nrb (Some axes) = Ok nrb' /\ wf_nurbs nrb' /\
  forall xs, good_args (spec_axes nrb) xs ->
     same_values nrb nrb' xs (pick (mkVec (N:=Rn) 0 (fun _ => 0)) axes xs) (unpermute axes).
Proof.
  intros nrb axes W HP. destruct (transpose_ok nrb axes HP) as [nrb' E]. exists nrb'. split; auto.
  destruct HP as [_ [_ HP]].
  destruct (transpose_spec nrb (Some axes) nrb' W) as [H1 [_ [_ H2]]]; auto.
  apply Forall_forall. intros a Ha. apply HP; auto.
Qed.
Print Assumptions C28_transpose.
Theorem C28_transpose_default : forall nrb nrb', wf_nurbs nrb -> transpose (N:=Rn) nrb None = Ok nrb' ->
  let axes := rev (zseq (length (n_axes nrb)) 0) in
  wf_nurbs nrb' /\
  forall xs, good_args (spec_axes nrb) xs ->
     same_values nrb nrb' xs (pick (mkVec (N:=Rn) 0 (fun _ => 0)) axes xs) (unpermute axes).
Proof.
  intros nrb nrb' W E axes. destruct (transpose_spec nrb None nrb' W) as [H1 [_ [_ H2]]]; auto.
  apply Forall_forall. intros a Ha. apply in_rev, zseq_In in Ha. lia.
Qed.
Print Assumptions C28_transpose_default.
Example C28_example : permutes (length (n_axes exS)) [1%Z; 0%Z] /\ exists nrb', transpose (N:=Rn) exS None = Ok nrb'.
Proof.
  split; [|eexists; reflexivity]. split; [reflexivity|]. split; [|simpl; intros a [<-|[<-|[]]]; lia].
  repeat constructor; simpl; intuition lia.
Qed.

(** ** C31: what the constructor guarantees. *)
Theorem C31_constructor_invariant : forall junk knots control fields weights nrb,
  init (N:=Rn) junk knots control fields weights = Ok nrb ->
  (1 <= length (n_axes nrb) <= 3)%nat /\
  Forall2 (fun k A => (4 <= v_len k)%Z /\ a_len A = v_len k /\ a_knots A = v_get k) knots (n_axes nrb) /\
  Forall (fun A => (1 <= a_deg A)%Z /\ a_len A = (a_size A + a_deg A + 1)%Z) (n_axes nrb).
Proof. exact init_invariant. Qed.
Print Assumptions C31_constructor_invariant.

(** ** C33: points, weights and fields read back. *)
Theorem C33_constructor_reads_back : forall junk knots c fields weights nrb,
  init (N:=Rn) junk knots (Some c) fields weights = Ok nrb ->
  let sdim := last (nd_shape c) 0%Z in
  let shape := removelast (nd_shape c) in
  map a_size (n_axes nrb) = shape /\ (2 <= sdim <= 4)%Z /\
  ((sdim < 4)%Z -> forall idx,
     let w := match weights with Some w => nd_get w idx | None => 1 end in
     n_weights nrb idx = w /\
     (w <> 0 -> forall k, (0 <= k < 3)%Z -> n_points nrb idx k = if (k <? sdim)%Z then nd_get c (idx ++ [k]) else 0)) /\
  (sdim = 4%Z -> weights = None /\ forall idx k, (0 <= k < 4)%Z -> n_arr nrb idx k = nd_get c (idx ++ [k])) /\
  match fields with
  | None => n_fields nrb = None /\ n_comp nrb = 4%Z
  | Some f =>
      (nd_shape f = shape /\ n_comp nrb = 5%Z /\
       exists g, n_fields nrb = Some g /\ forall idx, n_weights nrb idx <> 0 -> g idx 0%Z = nd_get f idx) \/
      (removelast (nd_shape f) = shape /\ n_comp nrb = (4 + last (nd_shape f) 0)%Z /\
       ((1 <= last (nd_shape f) 0)%Z -> exists g, n_fields nrb = Some g /\
         forall idx k, (0 <= k)%Z -> n_weights nrb idx <> 0 -> g idx k = nd_get f (idx ++ [k])))
  end.
Proof. exact init_reads. Qed.
Print Assumptions C33_constructor_reads_back.
(** The hypotheses of C31 and C33: a quadratic plane curve with weights and a scalar field. *)
Example C31_C33_example : exists nrb, init (N:=Rn) (fun _ => 99) [mkVec (N:=Rn) 7 exU]
   (Some (mkNd (N:=Rn) [4; 2]%Z (fun idx => IZR (nth 0 idx 0 + 3 * nth 1 idx 0)%Z)))
   (Some (mkNd (N:=Rn) [4]%Z (fun idx => IZR (nth 0 idx 0)%Z)))
   (Some (mkNd (N:=Rn) [4]%Z (fun idx => 2))) = Ok nrb.
Proof. eexists. reflexivity. Qed.

(** ** C34: the default control net makes the object the identity map. *)
Theorem C34_default_is_identity : forall junk knots nrb, init (N:=Rn) junk knots None None None = Ok nrb ->
  Forall default_ok (n_axes nrb) ->
  wf_nurbs nrb /\
  forall xs, good_args (spec_axes nrb) xs -> forall j j2 j3 jS, exists C F,
    call (N:=Rn) j j2 j3 jS nrb (map Some xs) FYes = Ok (C, Some F) /\
    forall idx c, in_range xs idx -> (0 <= c < 3)%Z -> C idx c = nth (Z.to_nat c) (params xs idx) 0.
Proof.
  intros junk knots nrb E H. destruct (init_default junk knots nrb E H) as [W HP]. split; auto.
  intros xs G j j2 j3 jS. destruct (call_pt nrb xs W G j j2 j3 jS) as [C [F [EC HC]]]. exists C, F. split; auto.
  intros idx c I Hc. rewrite (proj1 (HC idx c I)). apply HP; auto. eapply params_box; eauto.
Qed.
Print Assumptions C34_default_is_identity.
Example C34_example : exists nrb, init (N:=Rn) (fun _ => 99) [mkVec (N:=Rn) 7 exU; mkVec (N:=Rn) 7 exU] None None None = Ok nrb /\ Forall default_ok (n_axes nrb).
Proof.
  assert (E : guess_degree (N:=Rn) 7 (mkVec (N:=Rn) 7 exU) 1 = Ok 2%Z).
  { cbn. unfold exU; cbv [arr nth Z.to_nat Pos.to_nat Pos.iter_op Init.Nat.add].
    rewrite (proj2 (Reqb_true 0 0)), (proj2 (Reqb_false 0 1)) by lra. reflexivity. }
  eexists. split.
  - unfold init, init_control. cbn [default_axes]. change (Z.to_nat (v_len (mkVec (N:=Rn) 7 exU))) with 7%nat. rewrite E. reflexivity.
  - assert (D : default_ok (mkAxis (N:=Rn) 4 7 exU)).
    { split; [exact (wf_mono _ _ _ exU_wf)|]. cbn. unfold exU. arr_lra. }
    constructor; [exact D|]. constructor; [exact D|]. constructor.
Qed.

(** ** C35: Greville abscissae. *)
Theorem C35_greville : forall nrb ax a junk, wf_nurbs nrb -> py_axis (n_dim nrb) ax = Ok a ->
  let A := get_axis nrb a in let n := (a_size A - 1)%Z in let p := a_deg A in let U := a_knots A in
  exists x, greville (N:=Rn) junk nrb ax = Ok x /\ v_len x = a_size A /\
    (forall i, (0 <= i <= n)%Z -> v_get x i = sumZ (i + 1) (i + p) U / IZR p) /\
    (forall i j, (0 <= i <= j)%Z -> (j <= n)%Z -> v_get x i <= v_get x j) /\
    ((forall j, (1 <= j <= p)%Z -> U j = U p) -> v_get x 0%Z = U p) /\
    ((forall j, (n + 1 <= j <= n + p)%Z -> U j = U (n + 1)%Z) -> v_get x n = U (n + 1)%Z).
Proof. exact greville_spec. Qed.
Print Assumptions C35_greville.
Example C35_example : (forall j, (1 <= j <= 2)%Z -> exU j = exU 2%Z) /\ (forall j, (4 <= j <= 5)%Z -> exU j = exU 4%Z).
Proof. split; intros j Hj; [enumz j 1%Z 2%Z|enumz j 4%Z 5%Z]; reflexivity. Qed.

(** ** C67: evaluation rejects exactly the parameters outside the domain. *)
Theorem C67_domain_check : forall j j2 j3 jS nrb xs, wf_nurbs nrb -> length xs = length (n_axes nrb) ->
  (exists r, call (N:=Rn) j j2 j3 jS nrb (map Some xs) FYes = Ok r) <-> good_args (spec_axes nrb) xs.
Proof.
  intros j j2 j3 jS nrb xs W HL. split.
  - intros [r E]. unfold call in E. destruct (eval_args_cases j (n_axes nrb) xs HL) as [E1|[e E1]].
    + apply (eval_args_ok j); auto.
    + rewrite E1 in E. discriminate.
  - intros G. destruct (call_pt nrb xs W G j j2 j3 jS) as [C [F [E _]]]. eauto.
Qed.
Print Assumptions C67_domain_check.
Example C67_example : good_args (spec_axes exS) exArgs /\
  ~ good_args (spec_axes exS) [mkVec (N:=Rn) 1 (fun _ => 1); mkVec (N:=Rn) 2 (fun i => IZR i * 4)].
Proof.
  split; [exact exArgs_good|]. intros G. inversion G as [|? ? ? ? _ G1]; subst. inversion G1 as [|? ? ? ? [_ G2] _]; subst.
  specialize (G2 1%Z ltac:(simpl; lia)). destruct G2 as [_ G2]. cbn in G2. unfold exV in G2. revert G2. arr_lra.
Qed.

(** ** C68: a field array passed to the call gives the same points, and the field values are
    those of evaluate. *)
Theorem C68_fields_agree : forall j j2 j3 jS k k2 k3 kS l l2 l3 lS nrb xs Fa nc arr, wf_nurbs nrb -> good_args (spec_axes nrb) xs ->
  call_array (N:=Rn) nrb (FArr Fa) = Ok (nc, arr) ->
  exists C F C' G,
    call (N:=Rn) j j2 j3 jS nrb (map Some xs) (FArr Fa) = Ok (C, Some F) /\
    call (N:=Rn) k k2 k3 kS nrb (map Some xs) FNo = Ok (C', None) /\
    evaluate (N:=Rn) l l2 l3 lS nrb (Some Fa) (map Some xs) = Ok G /\
    forall idx c, in_range xs idx ->
      ((0 <= c < 3)%Z -> C idx c = C' idx c) /\ ((0 <= c)%Z -> F idx c = G idx c).
Proof.
  intros j j2 j3 jS k k2 k3 kS l l2 l3 lS nrb xs Fa nc arr W G E.
  exact (fields_agree j j2 j3 jS k k2 k3 kS l l2 l3 lS nrb xs Fa nc arr W G E).
Qed.
Print Assumptions C68_fields_agree.
(** The fields stored in the object: evaluate() without an array and the call with fields=True return
    the same values, and each is the quotient of the two piecewise polynomials. *)
Theorem C68_stored_fields : forall j j2 j3 jS l l2 l3 lS nrb xs, wf_nurbs nrb -> good_args (spec_axes nrb) xs ->
  exists C F G,
    call (N:=Rn) j j2 j3 jS nrb (map Some xs) FYes = Ok (C, Some F) /\
    evaluate (N:=Rn) l l2 l3 lS nrb None (map Some xs) = Ok G /\
    forall idx c, in_range xs idx -> (0 <= c)%Z -> G idx c = F idx c /\
      G idx c = tsum (spec_axes nrb) (fun i => n_arr nrb i (4 + c)%Z) (params xs idx) / tsum (spec_axes nrb) (fun i => n_arr nrb i 3%Z) (params xs idx).
Proof. intros j j2 j3 jS l l2 l3 lS nrb xs W G. exact (stored_fields j j2 j3 jS l l2 l3 lS nrb xs W G). Qed.
Print Assumptions C68_stored_fields.
Example C68_example : exists r, call_array (N:=Rn) exS (FArr (mkNd (N:=Rn) [4; 5; 2]%Z (fun idx => IZR (nth 2 idx 0%Z)))) = Ok r.
Proof. eexists. reflexivity. Qed.
