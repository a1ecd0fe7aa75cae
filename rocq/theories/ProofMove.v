(** Refining commutes with remap. *)
From Coq Require Import ZArith Reals List Bool Lia Lra FunctionalExtensionality.
From Verif Require Import Num Loop ModelBspline ModelBSp ModelNurbs ModelTransform Spec SpecNurbs SpecElev SumZ BLink ProofSpan ProofInsert ProofClamp ProofNet ProofCall ProofNurbs ProofMethods ProofMethods2 ProofMethods3 ProofGeom ProofGeom2
  ProofOk ProofPerm ProofIga ProofElev5 ProofRemove4 ProofCompat1 ProofCompat3 ProofRuled ProofUniq ProofEquiv ProofTurn.
Import ListNotations.
Local Open Scope R_scope.

(** The call with the parameters it is given changed by [g]. *)
Definition op_moved (g : R -> R) (o : op) : op :=
  match o with Insert u times => Insert (g u) times | Refine values => Refine (map g values) | _ => o end.
(** The same call, with changed parameters if it concerns axis [a]. *)
Definition moved_call (d : Z) (a : nat) (g : R -> R) (c c' : op * Z) : Prop :=
  exists b, py_axis d (snd c) = Ok b /\ py_axis d (snd c') = Ok b /\ fst c' = if Nat.eqb b a then op_moved g (fst c) else fst c.

Lemma all_ok_cons o ax l x z : all_ok ((o, ax) :: l) x z -> exists a j j2 y, py_axis (n_dim x) ax = Ok a /\ op_ok o (get_axis x a) /\ run o j j2 x ax = Ok y /\ all_ok l y z.
Proof. intros H. inversion H; subst. eauto 10. Qed.

Section Move.
Variables (al be : R).
Hypothesis Hal : 0 < al.
Let g (x : R) : R := be + al * x.
Let h (x : R) : R := (x - be) / al.
Lemma gh x : g (h x) = x. Proof. unfold g, h. field. lra. Qed.
Lemma g_inj x y : g x = g y -> x = y. Proof. unfold g. intros E. apply (Rmult_eq_reg_l al); lra. Qed.
Lemma g_le x y : x <= y <-> g x <= g y. Proof. unfold g. split; intros; nra. Qed.
Definition mvax (A : axis Rn) : axis Rn := mkAxis (N:=Rn) (a_size A) (a_len A) (fun i => g (a_knots A i)).
Lemma countN_g k lo U u : countN k lo (fun i => g (U i)) (g u) = countN k lo U u.
Proof.
  revert lo. induction k as [|k IH]; intros lo; cbn [countN]; auto. rewrite IH. f_equal.
  destruct (Req_EM_T (g (U lo)) (g u)) as [E|E]; destruct (Req_EM_T (U lo) u) as [E'|E']; auto; [apply g_inj in E; contradiction|subst; contradiction].
Qed.
Lemma mulA_g A u : mulA (mvax A) (g u) = mulA A u.
Proof. unfold mulA, multiplicity. cbn [mvax a_knots a_size]. change (a_deg (mvax A)) with (a_deg A). apply countN_g. Qed.
Lemma mulA_g' A v : mulA (mvax A) v = mulA A (h v).
Proof. rewrite <- (gh v) at 1. apply mulA_g. Qed.
Lemma countL_g v l : countL v (map g l) = countL (h v) l.
Proof.
  induction l as [|x l IH]; cbn [map countL]; auto. rewrite IH. f_equal.
  destruct (Req_EM_T (g x) v) as [E|E]; destruct (Req_EM_T x (h v)) as [E'|E']; auto.
  - exfalso. apply E'. apply g_inj. rewrite gh. auto.
  - exfalso. apply E. rewrite E'. apply gh.
Qed.
Lemma clampLR_g n p l r U : (fun i => g (clampLR n p l r U i)) = clampLR n p l r (fun i => g (U i)).
Proof.
  apply functional_extensionality. intros i. unfold clampLR, clampL, clampR. destruct l, r; cbv zeta beta; repeat match goal with |- context [if ?b then _ else _] => destruct b end; reflexivity.
Qed.
Lemma periodic_g n p C l r U V : periodic_ends n p C l r U V -> periodic_ends n p C l r (fun i => g (U i)) (fun i => g (V i)).
Proof.
  unfold periodic_ends. intros (H1 & H2 & H3). split; [intros i Hi; f_equal; auto|]. split.
  - destruct l; [destruct H2 as [H2 H2']; split; [intros i Hi; f_equal; auto|]|intros i Hi; f_equal; auto].
    intros j Hj. rewrite (H2' j Hj). unfold g. ring.
  - destruct r; [destruct H3 as [H3 H3']; split; [intros i Hi; f_equal; auto|]|intros i Hi; f_equal; auto].
    intros j Hj. rewrite (H3' j Hj). unfold g. ring.
Qed.
Lemma after_g o A B : axis_after o A B -> axis_after (op_moved g o) (mvax A) (mvax B).
Proof.
  destruct o as [u times|values|side|side cont|t]; cbn [axis_after op_moved]; cbv zeta; change (a_deg (mvax A)) with (a_deg A); change (a_deg (mvax B)) with (a_deg B);
    cbn [mvax a_size a_len a_knots].
  - rewrite mulA_g. intros (H1 & H2 & H3 & H4). repeat split; auto. intros v. rewrite !mulA_g', H4. f_equal.
    destruct (Req_EM_T (h v) u) as [E|E]; destruct (Req_EM_T v (g u)) as [E'|E']; auto.
    + exfalso. apply E'. rewrite <- E. symmetry. apply gh.
    + exfalso. apply E. apply g_inj. rewrite gh. auto.
  - intros (H1 & H2). split; auto. intros v. rewrite !mulA_g', H2, countL_g. reflexivity.
  - intros (H1 & H2 & H3). split; auto. split; auto. rewrite H3. apply clampLR_g.
  - intros (H1 & H2 & H3 & H4). split; auto. split; auto. split; auto. apply periodic_g. exact H4.
  - intros (H1 & H2 & H3). split; auto. split; auto. intros v. rewrite !mulA_g'. apply H3.
Qed.
Lemma mvax_wf A : wf_ax (spec_ax A) -> wf_ax (spec_ax (mvax A)).
Proof.
  intros [H1 H2]. split; [exact H1|]. cbn [spec_ax x_n x_p x_U mvax a_size a_knots] in *. change (a_deg (mvax A)) with (a_deg A). apply (wf_affine _ _ _ be al); auto.
Qed.

Variable a : nat.
Definition mvp (us : list R) : list R := lset a (g (nth a us 0)) us.
Record moved (x x' : nurbs Rn) : Prop := {
  mo_len : length (n_axes x') = length (n_axes x);
  mo_wf : wf_nurbs x';
  mo_axes : forall b, (b < length (n_axes x))%nat -> axis_eq (if Nat.eqb b a then mvax (get_axis x b) else get_axis x b) (get_axis x' b);
  mo_comp : n_comp x' = n_comp x;
  mo_hom : forall us c, in_box (spec_axes x) us -> in_box (spec_axes x') (mvp us) /\ hom x' c (mvp us) = hom x c us }.
Lemma moved_step o o' ax ax' b j j2 k k2 x x' y y' : wf_nurbs x -> (a < length (n_axes x))%nat -> moved x x' ->
  py_axis (n_dim x) ax = Ok b -> py_axis (n_dim x') ax' = Ok b -> o' = (if Nat.eqb b a then op_moved g o else o) ->
  op_ok o (get_axis x b) -> op_ok o' (get_axis x' b) -> run o j j2 x ax = Ok y -> run o' k k2 x' ax' = Ok y' -> wf_nurbs y /\ moved y y'.
Proof.
  intros W Ha M Eb Eb' Eo Hh Hh' E E'. pose proof M as [L W' A C H].
  pose proof (py_axis_dim _ _ _ Eb) as Hb. pose proof (py_axis_dim _ _ _ Eb') as Hb'.
  destruct (op_spec o x ax b j j2 y W Eb Hh E) as (P & B & X & Af).
  destruct (op_spec o' x' ax' b k k2 y' W' Eb' Hh' E') as (P' & B' & X' & Af').
  assert (L1 : length (n_axes y) = length (n_axes x)) by (rewrite X, lset_length; auto). assert (L2 : length (n_axes y') = length (n_axes x')) by (rewrite X', lset_length; auto).
  assert (WB : wf_ax (spec_ax B)). { assert (B = get_axis y b) as -> by (rewrite (get_lset x y b B b X Hb), Nat.eqb_refl; auto). apply wf_get_axis; [apply P|lia]. }
  assert (WB' : wf_ax (spec_ax B')). { assert (B' = get_axis y' b) as -> by (rewrite (get_lset x' y' b B' b X' Hb'), Nat.eqb_refl; auto). apply wf_get_axis; [apply P'|lia]. }
  pose proof (wf_get_axis _ _ W Hb) as WA. pose proof (wf_get_axis _ _ W' Hb') as WA'.
  split; [apply P|]. split; [lia|apply P'| |rewrite (pr_comp _ _ P), (pr_comp _ _ P'); exact C|].
  - intros q Hq. rewrite (get_lset x y b B q X Hb), (get_lset x' y' b B' q X' Hb').
    destruct (Nat.eqb_spec q b) as [->|Hne]; [|apply A; lia]. pose proof (A b Hb) as G. destruct (Nat.eqb_spec b a) as [->|Hba]; subst o'.
    + apply (eq_after (mvax (get_axis x a)) (get_axis x' a) (mvax_wf _ WA) G (op_moved g o)); auto; [apply mvax_wf; auto|apply after_g; auto].
    + apply (eq_after (get_axis x b) (get_axis x' b) WA G o); auto.
  - intros us c I. pose proof (ProofEquiv.box_back _ _ _ P I) as I0. destruct (H us c I0) as [I1 H1]. split.
    + clear - P' I1. pose proof (pr_dom _ _ P') as D. revert I1. generalize (mvp us). intros vs I1. revert D I1. generalize (spec_axes x') (spec_axes y'). intros m m' D. revert vs.
      induction D as [|p q l l' [E1 E2] D IH]; intros vs I; inversion I; subst; constructor; [unfold in_domain in *; rewrite <- E1, <- E2; auto|apply IH; auto].
    + rewrite (pr_hom _ _ P' _ c I1), H1. symmetry. apply (pr_hom _ _ P us c I0).
Qed.
Lemma moved_all l x y : all_ok l x y -> wf_nurbs x -> (a < length (n_axes x))%nat -> forall x' l' y', moved x x' -> all_ok l' x' y' ->
  Forall2 (moved_call (n_dim x) a g) l l' -> wf_nurbs y /\ length (n_axes y) = length (n_axes x) /\ moved y y'.
Proof.
  induction 1 as [x|o ax b j j2 l x y z Ea Hh E H IH]; intros W Ha x' l' z' M K F.
  - inversion F; subst. inversion K; subst. auto.
  - inversion F as [|? [o' ax'] ? m (b0 & S1 & S2 & S3) F']; subst. apply all_ok_cons in K. destruct K as (b' & k & k2 & y' & Ea' & Hh' & E' & K'). cbn [fst snd] in *. subst o'.
    assert (b0 = b) as -> by congruence. pose proof (mo_len _ _ M) as L. assert (Eb' : py_axis (n_dim x') ax' = Ok b) by (unfold n_dim in *; rewrite L; auto). assert (b' = b) as -> by congruence.
    destruct (moved_step o _ ax ax' b j j2 k k2 x x' y y' W Ha M Ea Eb' eq_refl Hh Hh' E E') as [Wy My].
    destruct (op_spec o x ax b j j2 y W Ea Hh E) as (P & B & X & Af). assert (L1 : length (n_axes y) = length (n_axes x)) by (rewrite X, lset_length; auto).
    destruct (IH Wy ltac:(lia) y' m z' My K') as (R1 & R2 & R3); [unfold n_dim in *; rewrite L1; auto|]. split; auto. split; [lia|auto].
Qed.
Lemma moved_unique y z y' : wf_nurbs y -> (a < length (n_axes y))%nat -> bounded_knots y -> moved y z -> moved y y' -> same_data z y'.
Proof.
  intros W Ha Bk MZ MY. pose proof MZ as [Lz Wz Az Cz Hz]. pose proof MY as [Ly Wy Ay Cy Hy].
  apply net_unique; auto.
  - apply ProofEquiv.same_knots_of; [lia|]. intros b Hb. rewrite Lz in Hb. eapply axis_eq_trans; [apply axis_eq_sym, Az; auto|]. apply Ay; auto.
  - congruence.
  - apply bounded_of. intros b Hb v. rewrite Lz in Hb. pose proof (Az b Hb) as G. rewrite (eq_mulA _ _ G), (ProofEquiv.e_deg _ _ G).
    destruct (Nat.eqb b a); [rewrite mulA_g'; change (a_deg (mvax (get_axis y b))) with (a_deg (get_axis y b))|]; apply bounded_at; auto.
  - intros us c I Hc.
    assert (I0 : in_box (spec_axes y) (lset a (h (nth a us 0)) us) /\ mvp (lset a (h (nth a us 0)) us) = us).
    { apply in_box_lohi in I. destruct I as [Lu I]. split.
      - apply in_box_lohi. split; [rewrite lset_length; lia|]. intros b Hb. specialize (I b ltac:(lia)). pose proof (Az b Hb) as G.
        pose proof (wf_get_axis _ _ W Hb) as WA. pose proof (ProofEquiv.e_np _ WA) as [Hp Hn].
        rewrite !a_lo_eq, !a_hi_eq in *. destruct (Nat.eqb_spec b a) as [->|Hne].
        + rewrite nth_lset by lia. rewrite (ProofEquiv.e_size _ _ G), (ProofEquiv.e_deg _ _ G) in I. change (a_deg (mvax (get_axis y a))) with (a_deg (get_axis y a)) in I.
          rewrite !(ProofEquiv.e_k _ _ G) in I by (change (a_deg (mvax (get_axis y a))) with (a_deg (get_axis y a)); cbn [mvax a_size]; lia). cbn [mvax a_size a_knots] in I.
          rewrite <- (gh (nth a us 0)) in I. destruct I as [I1 I2]. split; apply (proj2 (g_le _ _)); assumption.
        + rewrite nth_lset_other by auto. rewrite (ProofEquiv.e_size _ _ G), (ProofEquiv.e_deg _ _ G), !(ProofEquiv.e_k _ _ G) in I by lia. exact I.
      - unfold mvp. rewrite nth_lset by lia. rewrite gh. rewrite lset_lset. apply ProofNet.lset_nth. }
    destruct I0 as [I0 E0]. rewrite <- E0. rewrite (proj2 (Hz _ c I0)), (proj2 (Hy _ c I0)). reflexivity.
Qed.
Lemma moved_accepts o ax ax' j j2 x x' y : wf_nurbs x -> moved x x' -> py_axis (n_dim x) ax = Ok a -> py_axis (n_dim x') ax' = Ok a ->
  op_ok o (get_axis x a) -> op_ok (op_moved g o) (get_axis x' a) -> run o j j2 x ax = Ok y -> forall k k2, exists y', run (op_moved g o) k k2 x' ax' = Ok y'.
Proof.
  intros W M Ea Ea' Hh Hh' E k k2. pose proof M as [L W' A C H]. pose proof (py_axis_dim _ _ _ Ea) as Ha. pose proof (wf_get_axis _ _ W Ha) as WA.
  specialize (A a Ha). rewrite Nat.eqb_refl in A. pose proof (mvax_wf _ WA) as WM. pose proof (ProofEquiv.e_np _ WA) as [Hp Hn].
  pose proof (ProofEquiv.e_size _ _ A) as ES. pose proof (ProofEquiv.e_deg _ _ A) as ED. change (a_size (mvax (get_axis x a))) with (a_size (get_axis x a)) in ES. change (a_deg (mvax (get_axis x a))) with (a_deg (get_axis x a)) in ED.
  assert (EK : forall i, (0 <= i <= a_size (get_axis x a) - 1 + a_deg (get_axis x a) + 1)%Z -> a_knots (get_axis x' a) i = g (a_knots (get_axis x a) i)) by (intros i Hi; rewrite (ProofEquiv.e_k _ _ A); [reflexivity|exact Hi]).
  assert (EM : forall lo hi u, (0 <= lo)%Z -> (hi <= a_size (get_axis x a) - 1 + a_deg (get_axis x a) + 1)%Z -> multiplicity (a_knots (get_axis x' a)) lo hi (g u) = multiplicity (a_knots (get_axis x a)) lo hi u).
  { intros lo hi u H0 H1. rewrite (eq_mult _ _ A lo hi); [apply countN_g|exact H0|exact H1]. }
  destruct o as [u times|values|side|side cont|t]; cbn [run op_moved op_ok] in *.
  - destruct Hh as [Hs Hi]. destruct (insert_spec x ax a u times j y W Ea Hs Hi E) as (D & H1 & H2 & _).
    apply (insert_ok x' ax' a (g u) times k W' Ea' (proj1 Hh')).
    + rewrite ES, ED. unfold in_domain in *. rewrite !EK by lia. destruct D as [D1 D2]. split; apply (proj1 (g_le _ _)); assumption.
    + rewrite ES, ED, EM by lia. destruct times; auto.
  - destruct values as [|v0 vs] eqn:Ev; [exists x'; reflexivity|]. rewrite <- Ev in *. assert (Hne : values <> []) by congruence. assert (Hne' : map g values <> []) by (rewrite Ev; discriminate).
    apply (proj2 (refine_ok x' ax' a (map g values) k W' Ea' Hne')). destruct (proj1 (refine_ok x ax a values j W Ea Hne)) as [K1 K2]; [eauto|]. rewrite ES, ED. split.
    + intros v Hv. apply in_map_iff in Hv. destruct Hv as (w & <- & Hw). rewrite !EK by lia. destruct (K1 w Hw) as [D1 D2]. split; apply (proj1 (g_le _ _)); assumption.
    + intros v Hv. assert (Hv' : exists w, v = g w /\ (In w values \/ exists i, (1 <= i <= a_size (get_axis x a) - 1 + a_deg (get_axis x a))%Z /\ a_knots (get_axis x a) i = w)).
      { destruct Hv as [Hv|(i & Hi & Hv)]; [apply in_map_iff in Hv; destruct Hv as (w & <- & Hw); eauto|]. exists (a_knots (get_axis x a) i). rewrite <- Hv. split; [apply EK; lia|right; eauto]. }
      destruct Hv' as (w & -> & Hw). rewrite EM by lia. rewrite countL_g. replace (h (g w)) with w by (apply g_inj; rewrite gh; auto). apply K2. exact Hw.
  - apply (proj2 (clamp_ok x' ax' a side k W' Ea')). apply (proj1 (clamp_ok x ax a side j W Ea)). eauto.
  - apply (proj2 (unclamp_ok x' ax' a side cont k W' Ea')). rewrite ED. apply (proj1 (unclamp_ok x ax a side cont j W Ea)). eauto.
  - assert (Ht : (0 <= t)%Z). { unfold elevate, assert in E. destruct (Z.leb_spec 0 t); auto. discriminate. }
    destruct Hh' as (H1 & H2 & _). destruct (elevate_knots x' ax' a t k k2 W' Ea' Ht H1 H2) as (z & _ & Ez & _). eauto.
Qed.
End Move.

Lemma remap_moved x ax a start end_ x' : wf_nurbs x -> py_axis (n_dim x) ax = Ok a ->
  let A := get_axis x a in let lo := a_lo A in let hi := a_hi A in
  let c := match start with Some c => c | None => lo end in let d := match end_ with Some d => d | None => hi end in
  remap (N:=Rn) x ax start end_ = Ok x' -> 0 < (d - c) / (hi - lo) /\ moved ((d - c) / (hi - lo)) (c - lo * ((d - c) / (hi - lo))) a x x'.
Proof.
  intros W Ea A lo hi c d E. pose proof (py_axis_dim _ _ _ Ea) as Ha. pose proof (wf_get_axis _ _ W Ha) as WA. fold A in WA.
  destruct (remap_full x ax a start end_ x' W Ea E) as (Hcd & W' & (V & X & HV & _) & H & _). fold A in Hcd, X, HV, H.
  rewrite <- (a_hi_eq A) in Hcd, HV, H. rewrite <- (a_lo_eq A) in Hcd, HV, H. fold lo hi in Hcd, HV, H. fold c d in Hcd, HV, H.
  assert (Hlh : lo < hi). { unfold lo, hi. rewrite a_lo_eq, a_hi_eq. destruct WA as [Wp Wk]. cbn [spec_ax x_n x_p x_U] in Wk, Wp. pose proof (wf_n _ _ _ Wk) as Hn. pose proof (wf_first _ _ _ Wk) as W1. pose proof (wf_mono _ _ _ Wk) as Mo. assert (a_knots A (a_deg A + 1)%Z <= a_knots A (a_size A - 1 + 1)%Z) by (apply Mo; lia). change (T Rn) with R in *. lra. }
  split; [apply Rdiv_lt_0_compat; lra|].
  assert (G : forall v, c + (v - lo) * (d - c) / (hi - lo) = c - lo * ((d - c) / (hi - lo)) + (d - c) / (hi - lo) * v) by (intros v; field; lra).
  split; [rewrite X, lset_length; auto|exact W'| | |].
  - intros b Hb. rewrite (get_lset x x' a _ b X Ha). destruct (Nat.eqb_spec b a) as [->|]; [|apply axis_eq_refl]. fold A. split; [reflexivity|]. split; [reflexivity|].
    intros i Hi. cbn [mvax a_knots]. rewrite HV. apply G.
  - unfold remap in E. rewrite Ea in E. cbn [bind] in E. destruct (_ && _); [injection E as <-; reflexivity|]. unfold assert in E. destruct (nltb _ _ _); [|discriminate]. injection E as <-. reflexivity.
  - intros us k I. destruct (H us k I) as [H1 H2]. unfold mvp. rewrite <- G. auto.
Qed.
Theorem remap_commutes l l' x y ax a start end_ x' z : wf_nurbs x -> all_ok l x y -> bounded_knots y -> py_axis (n_dim x) ax = Ok a ->
  remap (N:=Rn) x ax start end_ = Ok x' ->
  let lo := a_lo (get_axis x a) in let hi := a_hi (get_axis x a) in
  let c := match start with Some c => c | None => lo end in let d := match end_ with Some d => d | None => hi end in
  Forall2 (moved_call (n_dim x) a (fun u => c + (u - lo) * (d - c) / (hi - lo))) l l' -> all_ok l' x' z ->
  exists y', remap (N:=Rn) y ax start end_ = Ok y' /\ same_data y' z.
Proof.
  intros W H Bk Ea E lo hi c d F K. pose proof (py_axis_dim _ _ _ Ea) as Ha. pose proof (wf_get_axis _ _ W Ha) as WA.
  destruct (remap_moved x ax a start end_ x' W Ea E) as [Hal M]. fold lo hi in Hal, M. fold c d in Hal, M.
  assert (Hne : hi - lo <> 0). { intros Z0. rewrite Z0 in Hal. unfold Rdiv in Hal. rewrite Rinv_0 in Hal. lra. }
  assert (Gg : (fun u => c + (u - lo) * (d - c) / (hi - lo)) = fun u => c - lo * ((d - c) / (hi - lo)) + (d - c) / (hi - lo) * u) by (apply functional_extensionality; intros u; field; auto).
  rewrite Gg in F.
  destruct (moved_all _ _ Hal a l x y H W Ha x' l' z M K F) as (Wy & Ly & MY).
  assert (Ey : py_axis (n_dim y) ax = Ok a) by (unfold n_dim in *; rewrite Ly; auto).
  assert (D : a_lo (get_axis y a) = lo /\ a_hi (get_axis y a) = hi).
  { clear - H W Ha. unfold lo, hi. clear lo hi. revert W Ha. induction H as [x|o ax b j j2 l x y z Eb Hh E H IH]; intros W Ha; auto.
    destruct (op_spec o x ax b j j2 y W Eb Hh E) as (P & B & X & Af). assert (L1 : length (n_axes y) = length (n_axes x)) by (rewrite X, lset_length; auto).
    destruct (IH (pr_wf _ _ P) ltac:(lia)) as [-> ->]. clear - P Ha. pose proof (pr_dom _ _ P) as D.
    assert (Hs : (a < length (spec_axes x))%nat) by (unfold spec_axes; rewrite map_length; auto).
    pose proof (Forall2_nth _ _ _ a (spec_ax axis0) (spec_ax axis0) D Hs) as [E1 E2]. rewrite !nth_spec_axes in E1, E2. cbn [spec_ax x_n x_p x_U] in E1, E2. rewrite !a_lo_eq, !a_hi_eq. auto. }
  destruct D as [D1 D2].
  destruct (remap_full x ax a start end_ x' W Ea E) as (Hcd & _). rewrite <- (a_hi_eq (get_axis x a)), <- (a_lo_eq (get_axis x a)) in Hcd. fold lo hi in Hcd. fold c d in Hcd.
  destruct (remap_ok y ax a start end_ Wy Ey) as [y' E']; [rewrite D1, D2; exact Hcd|]. exists y'. split; auto.
  destruct (remap_moved y ax a start end_ y' Wy Ey E') as [_ MZ]. rewrite D1, D2 in MZ. fold c d in MZ.
  apply (moved_unique _ _ Hal a y y' z Wy ltac:(lia) Bk MZ MY).
Qed.
Theorem remap_call o x y ax ax' a j j2 start end_ x' : wf_nurbs x -> py_axis (n_dim x) ax = Ok a -> py_axis (n_dim x) ax' = Ok a ->
  op_ok o (get_axis x a) -> run o j j2 x ax' = Ok y -> bounded_knots y -> remap (N:=Rn) x ax start end_ = Ok x' ->
  let lo := a_lo (get_axis x a) in let hi := a_hi (get_axis x a) in
  let c := match start with Some c => c | None => lo end in let d := match end_ with Some d => d | None => hi end in
  let g := fun u => c + (u - lo) * (d - c) / (hi - lo) in
  op_ok (op_moved g o) (get_axis x' a) ->
  forall k k2, exists y' z, remap (N:=Rn) y ax start end_ = Ok y' /\ run (op_moved g o) k k2 x' ax' = Ok z /\ same_data y' z.
Proof.
  intros W Ea Ea' Hh E Bk Er lo hi c d g Hh' k k2.
  destruct (remap_moved x ax a start end_ x' W Ea Er) as [Hal M]. fold lo hi in Hal, M. fold c d in Hal, M.
  assert (Hne : hi - lo <> 0). { intros Z0. rewrite Z0 in Hal. unfold Rdiv in Hal. rewrite Rinv_0 in Hal. lra. }
  assert (Gg : g = fun u => c - lo * ((d - c) / (hi - lo)) + (d - c) / (hi - lo) * u) by (apply functional_extensionality; intros u; unfold g; field; auto).
  assert (Ex' : py_axis (n_dim x') ax' = Ok a) by (unfold n_dim in *; rewrite (mo_len _ _ _ _ _ M); auto).
  destruct (moved_accepts _ _ Hal a o ax' ax' j j2 x x' y W M Ea' Ex' Hh ltac:(rewrite <- Gg; exact Hh') E k k2) as [z Ez]. rewrite <- Gg in Ez.
  destruct (remap_commutes [(o, ax')] [(op_moved g o, ax')] x y ax a start end_ x' z W) as (y' & E1 & E2); auto.
  - apply (ok_more o ax' a j j2 [] x y y); auto. constructor.
  - constructor; [|constructor]. exists a. cbn [fst snd]. rewrite Nat.eqb_refl. auto.
  - apply (ok_more (op_moved g o) ax' a k k2 [] x' z z); auto. constructor.
  - eauto.
Qed.
