(** When the methods return a result. *)
From Coq Require Import ZArith Reals List Lia Lra Bool.
From Verif Require Import Num Loop ModelBspline ModelBSp ModelNurbs Spec SumZ BPiece BLink ProofSpan ProofEval ProofInsert ProofClamp
  SpecNurbs ProofNet PropBasis ProofCall ProofNurbs ProofMethods ProofMethods2 ProofMethods3 ProofGeom ProofGeom2 ProofPerm ProofSlice.
Import ListNotations.
Local Open Scope R_scope.

Definition legal_side (side : option Z) : Prop := match side with None => True | Some s => s = 0%Z \/ s = 1%Z end.
Lemma side_lr_ok side : (exists lr, side_lr side = Ok lr) <-> legal_side side.
Proof.
  destruct side as [s|]; simpl; [|split; eauto]. split.
  - intros [lr E]. destruct (Z.eqb_spec s 0); auto. destruct (Z.eqb_spec s 1); auto. discriminate.
  - intros [-> | ->]; simpl; eauto.
Qed.

Lemma clamp_ok nrb ax a side junk : wf_nurbs nrb -> py_axis (n_dim nrb) ax = Ok a ->
  (exists nrb', clamp (N:=Rn) junk nrb ax side = Ok nrb') <-> legal_side side.
Proof.
  intros W Ea. pose proof (py_axis_dim _ _ _ Ea) as Ha. pose proof (wf_get_axis _ _ W Ha) as WA.
  set (A := get_axis nrb a) in *. assert (Wk : wf_knots (a_size A - 1) (a_deg A) (a_knots A)) by apply WA. assert (Wp : (1 <= a_deg A)%Z) by apply WA.
  pose proof (wf_n _ _ _ Wk) as Hn. unfold clamp. rewrite Ea. cbn [bind]. fold A. rewrite <- side_lr_ok.
  destruct (side_lr side) as [[l r]|]; cbn [bind].
  - unfold check. destruct (Z.leb_spec 1 (a_size A - 1)); [|lia]. destruct (Z.leb_spec 1 (a_deg A)); [|lia]. cbn [bind]. split; eauto.
  - split; intros [x E]; discriminate.
Qed.

Lemma unclamp_ok nrb ax a side cont junk : wf_nurbs nrb -> py_axis (n_dim nrb) ax = Ok a ->
  (exists nrb', unclamp (N:=Rn) junk nrb ax side cont = Ok nrb') <->
  (legal_side side /\ match cont with Some c => (0 <= c < a_deg (get_axis nrb a))%Z | None => True end).
Proof.
  intros W Ea. pose proof (py_axis_dim _ _ _ Ea) as Ha. pose proof (wf_get_axis _ _ W Ha) as WA.
  set (A := get_axis nrb a) in *. assert (Wk : wf_knots (a_size A - 1) (a_deg A) (a_knots A)) by apply WA. assert (Wp : (1 <= a_deg A)%Z) by apply WA.
  pose proof (wf_n _ _ _ Wk) as Hn. unfold unclamp. rewrite Ea. cbn [bind]. fold A. rewrite <- side_lr_ok.
  destruct (side_lr side) as [[l r]|]; cbn [bind].
  - unfold check, assert. destruct cont as [c|].
    + destruct (Z.leb_spec 0 c); [destruct (Z.leb_spec c (a_deg A - 1))|]; cbn [andb bind];
      (destruct (Z.leb_spec 1 (a_size A - 1)); [|lia]); (destruct (Z.leb_spec 1 (a_deg A)); [|lia]); cbn [bind]; split;
      try (intros _; split; eauto; lia); try (intros [x E]; discriminate); try (intros [_ E]; lia); eauto.
    + destruct (Z.leb_spec 1 (a_size A - 1)); [|lia]. destruct (Z.leb_spec 1 (a_deg A)); [|lia]. cbn [bind]. split; eauto.
  - split; [intros [x E]; discriminate|intros [[x E] _]; discriminate].
Qed.

Lemma remap_ok nrb ax a start end_ : wf_nurbs nrb -> py_axis (n_dim nrb) ax = Ok a ->
  let A := get_axis nrb a in
  (match start with Some c => c | None => a_lo A end) < (match end_ with Some d => d | None => a_hi A end) ->
  exists nrb', remap (N:=Rn) nrb ax start end_ = Ok nrb'.
Proof.
  intros W Ea A H. unfold remap. rewrite Ea. cbn [bind]. fold A.
  set (c := match start with Some c => c | None => a_lo A end) in *. set (d := match end_ with Some d => d | None => a_hi A end) in *.
  destruct (_ && _); [eauto|]. unfold assert.
  assert (E : nltb Rn c d = true) by (apply Rltb_true; exact H).
  match goal with |- context[if ?b then Ok tt else _] => change b with (nltb Rn c d) end. rewrite E. cbn [bind]. eauto.
Qed.

Lemma swap_ok nrb ax1 ax2 i j : py_axis (n_dim nrb) ax1 = Ok i -> py_axis (n_dim nrb) ax2 = Ok j ->
  exists nrb', swap (N:=Rn) nrb ax1 ax2 = Ok nrb'.
Proof. intros E1 E2. unfold swap. rewrite E1, E2. cbn [bind]. eauto. Qed.

(** A permutation of the axes, each named by a nonnegative number. *)
Definition permutes (d : nat) (axes : list Z) : Prop :=
  length axes = d /\ NoDup axes /\ forall a, In a axes -> (0 <= a < Z.of_nat d)%Z.
Lemma nodupb_true l : NoDup l -> nodupb l = true.
Proof.
  induction 1 as [|x l H N IH]; simpl; auto. rewrite IH, andb_true_r. apply negb_true_iff.
  destruct (existsb (Z.eqb x) l) eqn:E; auto. apply existsb_exists in E. destruct E as [y [Hy E]]. apply Z.eqb_eq in E. subst. contradiction.
Qed.
Lemma transpose_ok nrb axes : permutes (length (n_axes nrb)) axes -> exists nrb', transpose (N:=Rn) nrb (Some axes) = Ok nrb'.
Proof.
  intros [HL [ND H]]. unfold transpose. unfold n_dim, assert. rewrite HL, Z.eqb_refl. cbn [bind].
  set (norm := map _ axes).
  assert (EN : norm = axes).
  { unfold norm. rewrite <- (map_id axes) at 2. apply map_ext_in. intros x Hx. specialize (H x Hx). destruct (Z.ltb_spec x 0); lia. }
  rewrite EN.
  match goal with |- context[if negb ?b then Raise ValueError else _] => assert (E1 : b = true) end.
  { apply forallb_forall. intros x Hx. specialize (H x Hx). apply andb_true_iff. split; apply Z.leb_le; lia. }
  rewrite E1. cbn [negb]. rewrite nodupb_true.
  - cbn [negb].
    match goal with |- context[if negb ?b then Raise IndexError else _] => assert (E2 : b = true) end.
    { apply forallb_forall. intros x Hx. specialize (H x Hx). apply andb_true_iff. split; [apply Z.leb_le|apply Z.ltb_lt]; lia. }
    rewrite E2. cbn [negb]. eauto.
  - assert (G : forall l, NoDup l -> (forall a, In a l -> (a < Z.of_nat (length (n_axes nrb)))%Z) -> NoDup (l ++ [Z.of_nat (length (n_axes nrb))])).
    { induction 1 as [|x l Hx N IH]; intros G; simpl; [constructor; auto; constructor|]. constructor.
      - intros I. apply in_app_or in I. destruct I as [I|[I|[]]]; [contradiction|]. specialize (G x (or_introl eq_refl)). lia.
      - apply IH. intros; apply G; right; auto. }
    apply G; auto. intros x Hx. apply H; auto.
Qed.

Lemma reverse_ok axes : forall nrb, Forall (fun ax => exists a, py_axis (n_dim nrb) ax = Ok a) axes ->
  exists nrb', reverse_axes (N:=Rn) nrb axes = Ok nrb'.
Proof.
  induction axes as [|ax axes IH]; intros nrb H; simpl; [eauto|]. inversion H as [|? ? [a Ea] HF]; subst. rewrite Ea. cbn [bind].
  apply IH. replace (n_dim (reverse1 nrb a)) with (n_dim nrb); auto.
  unfold n_dim, reverse1. cbn [n_axes]. rewrite lset_length. reflexivity.
Qed.

(** Every run of equal knots is shorter than p+1. *)
Lemma mult_run_bound U lo p v : (1 <= p)%Z -> forall hi, nondecreasing U lo hi -> (forall i, (lo <= i)%Z -> (i + p <= hi)%Z -> U i < U (i + p)%Z) ->
  (multiplicity U lo hi v <= p)%Z.
Proof.
  intros Hp.
  assert (G : forall c hi, Z.to_nat (hi + 1 - lo) = c -> nondecreasing U lo hi -> (forall i, (lo <= i)%Z -> (i + p <= hi)%Z -> U i < U (i + p)%Z) ->
    (multiplicity U lo hi v <= p)%Z).
  { induction c; intros hi Hc M H.
    - unfold multiplicity. rewrite Hc. simpl. lia.
    - assert (MB : forall a b, (a <= b + 1)%Z -> (multiplicity U a b v <= b - a + 1)%Z).
      { intros a b Hab. unfold multiplicity. replace (b - a + 1)%Z with (Z.of_nat (Z.to_nat (b + 1 - a))) by lia.
        generalize (Z.to_nat (b + 1 - a)) as m. intros m. revert a Hab. assert (Q : forall m a, (countN m a U v <= Z.of_nat m)%Z).
        { induction m0; intros a; cbn [countN]; [lia|]. specialize (IHm0 (a + 1)%Z). destruct (Req_EM_T (U a) v); lia. }
        intros. apply Q. }
      destruct (Req_EM_T (U hi) v) as [E|E].
      + destruct (Z_le_gt_dec lo (hi - p)).
        * rewrite (multiplicity_split U lo (hi - p) hi) by lia. rewrite (multiplicity_none U lo (hi - p)).
          -- specialize (MB (hi - p + 1)%Z hi ltac:(lia)). lia.
          -- intros j Hj. assert (U j <= U (hi - p)%Z) by (apply M; lia).
             specialize (H (hi - p)%Z ltac:(lia) ltac:(lia)). replace (hi - p + p)%Z with hi in H by lia. lra.
        * specialize (MB lo hi ltac:(lia)). lia.
      + rewrite (multiplicity_split U lo (hi - 1) hi) by lia. rewrite (multiplicity_none U (hi - 1 + 1) hi).
        * rewrite Z.add_0_r. apply IHc; [lia|intros x y ? ? ?; apply M; lia|intros; apply H; lia].
        * intros j Hj. replace j with hi by lia. auto. }
  intros hi. apply (G _ hi eq_refl).
Qed.

Lemma continuous_mult n p U v : wf_knots n p U -> (1 <= p)%Z -> mult_le n p U -> (multiplicity U 1 (n + p) v <= p)%Z.
Proof.
  intros W Hp ML. pose proof (wf_mono _ _ _ W) as M. pose proof (wf_n _ _ _ W). apply mult_run_bound; auto.
  - intros i j H1 H2 H3. apply M; lia.
  - intros i H1 H2. pose proof (wf_first _ _ _ W). pose proof (wf_last _ _ _ W).
    destruct (Z_le_gt_dec i p).
    + assert (U i <= U p) by (apply M; lia). assert (U (p + 1)%Z <= U (i + p)%Z) by (apply M; lia). lra.
    + apply ML. lia.
Qed.

Theorem slice_ok nrb ax a start end_ junk : wf_nurbs nrb -> py_axis (n_dim nrb) ax = Ok a ->
  let A := get_axis nrb a in let n := (a_size A - 1)%Z in let p := a_deg A in let U := a_knots A in
  let u0 := match start with Some x => x | None => U p end in
  let u1 := match end_ with Some x => x | None => U (n + 1)%Z end in
  continuous_axis A -> separated_list U (n + p + 1) [u0; u1] -> U p <= u0 -> u0 < u1 -> u1 <= U (n + 1)%Z ->
  exists nrb', slice (N:=Rn) junk nrb ax start end_ = Ok nrb'.
Proof.
  intros W Ea A n p U u0 u1 ML Sep L1 L3 L2.
  pose proof (py_axis_dim _ _ _ Ea) as Ha. pose proof (wf_get_axis _ _ W Ha) as WA. fold A in WA.
  assert (Wk : wf_knots n p U) by apply WA. assert (Wp : (1 <= p)%Z) by apply WA.
  pose proof (wf_n _ _ _ Wk) as Hn. pose proof (wf_mono _ _ _ Wk) as Mo.
  unfold slice. rewrite Ea. cbn [bind]. fold A. fold p. rewrite a_hi_eq. fold n U.
  change (a_lo A) with (U p).
  change (match start with Some x => x | None => U p end) with u0.
  change (match end_ with Some x => x | None => U (n + 1)%Z end) with u1.
  unfold assert.
  assert (E1 : nleb Rn (U p) u0 = true) by (apply Rleb_true; auto). assert (E2 : nleb Rn u1 (U (n + 1)%Z) = true) by (apply Rleb_true; auto).
  assert (E3 : nltb Rn u0 u1 = true) by (apply Rltb_true; auto).
  rewrite E1, E2, E3. cbn [bind]. unfold py_FindSpanMult, check. fold p.
  assert (EL : a_len A = (n + p + 2)%Z) by (rewrite a_len_eq; reflexivity). rewrite EL.
  destruct (Z.leb_spec 1 p); [|lia]. destruct (Z.leb_spec (2 * p + 1) (n + p + 2 - 1)); [|lia]. cbn [andb bind].
  replace (n + p + 2 - 1 - (p + 1))%Z with n by lia. unfold FindSpanMult. cbn [snd]. fold U.
  destruct (Sep u0 ltac:(simpl; auto)) as [S0 SS0]. destruct (Sep u1 ltac:(simpl; auto)) as [S1 SS1].
  assert (D0 : in_domain n p U u0) by (split; lra). assert (D1 : in_domain n p U u1) by (split; lra).
  pose proof (FindMult_min n p U u0 Wk D0 S0) as F0. pose proof (FindMult_min n p U u1 Wk D1 S1) as F1.
  set (s0 := FindMult (N:=Rn) (FindSpan (N:=Rn) n p u0 U) u0 p U) in *.
  set (s1 := FindMult (N:=Rn) (FindSpan (N:=Rn) n p u1 U) u1 p U) in *.
  set (t0 := Z.max 0 (p - s0)) in *. set (t1 := Z.max 0 (p - s1)) in *.
  set (vals := repeat u0 (Z.to_nat t0) ++ repeat u1 (Z.to_nat t1)) in *.
  assert (ER : exists nrb1, refine (N:=Rn) junk nrb (Z.of_nat a) vals = Ok nrb1).
  { destruct vals as [|v0 vs] eqn:EV; [simpl; eauto|]. rewrite <- EV in *.
    assert (Ea' : py_axis (n_dim nrb) (Z.of_nat a) = Ok a).
    { rewrite py_axis_nat by (unfold n_dim; lia). f_equal. lia. }
    apply (refine_ok nrb (Z.of_nat a) a vals junk W Ea'); [rewrite EV; discriminate|]. fold A. fold n p U. split.
    - intros x Hx. apply in_app_or in Hx. destruct Hx as [Hx|Hx]; apply repeat_spec in Hx; subst x; split; lra.
    - intros v _. pose proof (continuous_mult n p U v Wk Wp ML) as Hc. unfold vals. rewrite countL_app, !countL_repeat.
      assert (Hin : (multiplicity U 1 (n + p) v <= multiplicity U 0 (n + p + 1) v)%Z).
      { rewrite (multiplicity_split U 0 0 (n + p + 1)) by lia. rewrite (multiplicity_split U (0 + 1) (n + p) (n + p + 1)) by lia.
        pose proof (multiplicity_nonneg U 0 0 v). pose proof (multiplicity_nonneg U (n + p + 1) (n + p + 1) v). replace (0 + 1)%Z with 1%Z by lia. lia. }
      pose proof (multiplicity_nonneg U 0 (n + p + 1) v).
      destruct (Req_EM_T u0 v) as [Q0|Q0]; destruct (Req_EM_T u1 v) as [Q1|Q1]; [lra| | |lia]; [rewrite Q0 in F0|rewrite Q1 in F1]; unfold t0, t1; lia. }
  destruct ER as [nrb1 ER]. rewrite ER. cbn [bind]. eauto.
Qed.

(** Points and field values with an array of fields. *)
Theorem fields_agree : forall j j2 j3 jS k k2 k3 kS l l2 l3 lS nrb xs Fa nc arr, wf_nurbs nrb -> good_args (spec_axes nrb) xs ->
  call_array (N:=Rn) nrb (FArr Fa) = Ok (nc, arr) ->
  exists C F C' G,
    call (N:=Rn) j j2 j3 jS nrb (map Some xs) (FArr Fa) = Ok (C, Some F) /\
    call (N:=Rn) k k2 k3 kS nrb (map Some xs) FNo = Ok (C', None) /\
    evaluate (N:=Rn) l l2 l3 lS nrb (Some Fa) (map Some xs) = Ok G /\
    forall idx c, in_range xs idx ->
      ((0 <= c < 3)%Z -> C idx c = C' idx c) /\ ((0 <= c)%Z -> F idx c = G idx c).
Proof.
  intros j j2 j3 jS k k2 k3 kS l l2 l3 lS nrb xs Fa nc arr W G E.
  destruct (call_spec j j2 j3 jS nrb xs (FArr Fa) nc arr W G E) as [C [F [E1 [H1 [F' [-> H2]]]]]].
  destruct (call_spec k k2 k3 kS nrb xs FNo 4%Z (n_arr nrb) W G eq_refl) as [C' [F0 [E2 [H3 ->]]]].
  assert (Ea : exists nc' arr', evaluate_array (N:=Rn) nrb (Some Fa) = Ok (nc', arr') /\
    (forall idx, arr idx 3%Z = n_arr nrb idx 3%Z) /\ (forall idx c, (0 <= c < 3)%Z -> arr idx c = n_arr nrb idx c) /\
    (forall idx, arr' idx 0%Z = arr idx 3%Z) /\ (forall idx c, (0 <= c)%Z -> arr' idx (1 + c)%Z = arr idx (4 + c)%Z)).
  { unfold call_array in E. unfold evaluate_array. destruct (shape_eqb (nd_shape Fa) (n_shape nrb)).
    - injection E as <- <-. do 2 eexists. split; [reflexivity|]. cbv beta.
      split; [reflexivity|]. split; [intros idx c Hc; destruct (Z.ltb_spec c 4); [auto|lia]|]. split; [reflexivity|].
      intros idx c Hc. destruct (Z.eqb_spec (1 + c) 0); [lia|]. destruct (Z.ltb_spec (4 + c) 4); [lia|]. reflexivity.
    - unfold assert in *. destruct (_ =? _)%Z; [|discriminate]. cbn [bind] in *. destruct (shape_eqb _ _); [|discriminate]. cbn [bind] in *.
      injection E as <- <-. do 2 eexists. split; [reflexivity|]. cbv beta.
      split; [reflexivity|]. split; [intros idx c Hc; destruct (Z.ltb_spec c 4); [auto|lia]|]. split; [reflexivity|].
      intros idx c Hc. destruct (Z.eqb_spec (1 + c) 0); [lia|]. destruct (Z.ltb_spec (4 + c) 4); [lia|].
      replace (1 + c - 1)%Z with c by lia. replace (4 + c - 4)%Z with c by lia. reflexivity. }
  destruct Ea as [nc' [arr' [Ee [A1 [A2 [A3 A4]]]]]].
  destruct (evaluate_spec l l2 l3 lS nrb xs (Some Fa) nc' arr' W G Ee) as [G' [E3 H4]].
  exists C, F', C', G'. split; [exact E1|]. split; [exact E2|]. split; [exact E3|].
  intros idx c I. pose proof (in_box_length _ _ (params_box _ _ _ G I)) as HL. split; intros Hc.
  - rewrite H1, H3 by auto. f_equal; apply tsum_ext; auto.
  - rewrite H2, H4 by auto. f_equal; apply tsum_ext; auto; intros; symmetry; auto.
Qed.

(** Field values stored in the object. *)
Theorem stored_fields : forall j j2 j3 jS l l2 l3 lS nrb xs, wf_nurbs nrb -> good_args (spec_axes nrb) xs ->
  exists C F G,
    call (N:=Rn) j j2 j3 jS nrb (map Some xs) FYes = Ok (C, Some F) /\
    evaluate (N:=Rn) l l2 l3 lS nrb None (map Some xs) = Ok G /\
    forall idx c, in_range xs idx -> (0 <= c)%Z -> G idx c = F idx c /\
      G idx c = tsum (spec_axes nrb) (fun i => n_arr nrb i (4 + c)%Z) (params xs idx) / tsum (spec_axes nrb) (fun i => n_arr nrb i 3%Z) (params xs idx).
Proof.
  intros j j2 j3 jS l l2 l3 lS nrb xs W G.
  destruct (call_spec j j2 j3 jS nrb xs FYes (n_comp nrb) (n_arr nrb) W G eq_refl) as [C [F [E1 [H1 [F' [-> H2]]]]]].
  destruct (evaluate_spec l l2 l3 lS nrb xs None _ _ W G eq_refl) as [G' [E3 H4]].
  exists C, F', G'. split; [exact E1|]. split; [exact E3|]. intros idx c I Hc.
  assert (E : G' idx c = tsum (spec_axes nrb) (fun i => n_arr nrb i (4 + c)%Z) (params xs idx) / tsum (spec_axes nrb) (fun i => n_arr nrb i 3%Z) (params xs idx)).
  { rewrite H4 by auto. cbv beta. replace (3 + (1 + c))%Z with (4 + c)%Z by lia. reflexivity. }
  split; [rewrite E, H2 by auto; reflexivity|exact E].
Qed.
