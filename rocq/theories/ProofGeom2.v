(** remap, reverse, transform, extract, boundary and bounds. *)
From Coq Require Import ZArith Reals List Lia Lra Bool Permutation FunctionalExtensionality.
From Verif Require Import Num Loop ModelBspline ModelBSp ModelNurbs Spec SumZ BPiece BLink ProofSpan BInsert BRep ProofInsert
  ProofCut SpecNurbs ProofNet ProofCall ProofNurbs ProofMethods ProofGeom.
Import ListNotations.
Local Open Scope R_scope.

(** ** remap *)
Theorem remap_full nrb ax a start end_ nrb' : wf_nurbs nrb -> py_axis (n_dim nrb) ax = Ok a ->
  let A := get_axis nrb a in let n := (a_size A - 1)%Z in let p := a_deg A in let U := a_knots A in
  let lo := U p in let hi := U (n + 1)%Z in
  let c := match start with Some c => c | None => lo end in
  let d := match end_ with Some d => d | None => hi end in
  let g := fun x => c + (x - lo) * (d - c) / (hi - lo) in
  remap (N:=Rn) nrb ax start end_ = Ok nrb' ->
  c < d /\ wf_nurbs nrb' /\
  (exists V : Z -> R, n_axes nrb' = lset a (mkAxis (a_size A) (a_len A) V) (n_axes nrb) /\
     (forall i, V i = g (U i)) /\ V p = c /\ V (n + 1)%Z = d) /\
  (forall us c, in_box (spec_axes nrb) us ->
     in_box (spec_axes nrb') (lset a (g (nth a us 0)) us) /\ hom nrb' c (lset a (g (nth a us 0)) us) = hom nrb c us) /\
  forall xs, good_args (spec_axes nrb) xs -> same_values nrb nrb' xs (map_arg a g xs) (fun idx => idx).
Proof.
  intros W Ea A n p U lo hi c d g E.
  pose proof (py_axis_dim _ _ _ Ea) as Ha. pose proof (wf_get_axis _ _ W Ha) as WA. fold A in WA.
  assert (Wk : wf_knots n p U) by apply WA. assert (Wp : (1 <= p)%Z) by apply WA.
  pose proof (wf_n _ _ _ Wk) as Hn. pose proof (wf_mono _ _ _ Wk) as M. pose proof (wf_first _ _ _ Wk) as W1.
  assert (Hlh : lo < hi). { unfold lo, hi. assert (U (p + 1)%Z <= U (n + 1)%Z) by (apply M; lia). lra. }
  set (V := fun i => (U i - lo) * ((d - c) / (hi - lo)) + c).
  assert (E3 : c < d /\ nrb' = mkNurbs (lset a (mkAxis (a_size A) (a_len A) V) (n_axes nrb)) (n_comp nrb) (n_arr nrb)).
  { unfold remap in E. rewrite Ea in E. cbn [bind] in E. fold A in E.
    rewrite (a_hi_eq A) in E. change (a_lo A) with lo in E. change (a_knots A (a_size A - 1 + 1)%Z) with hi in E.
    change (match start with Some c => c | None => lo end) with c in E. change (match end_ with Some d => d | None => hi end) with d in E.
    destruct (neqb Rn lo c && neqb Rn hi d) eqn:Ec.
    - apply andb_prop in Ec. destruct Ec as [E1 E2]. apply Reqb_true in E1. apply Reqb_true in E2.
      injection E as <-. split; [lra|].
      replace V with (a_knots A).
      + replace (mkAxis (a_size A) (a_len A) (a_knots A)) with A by (destruct A; reflexivity).
        unfold A, get_axis. rewrite lset_nth. destruct nrb; reflexivity.
      + apply functional_extensionality. intros i. unfold V. rewrite <- E1, <- E2. fold U.
        assert (G : forall x l h : R, l < h -> x = (x - l) * ((h - l) / (h - l)) + l) by (intros; field; lra). apply G; auto.
    - unfold assert in E. destruct (nltb Rn c d) eqn:El; [|discriminate]. apply Rltb_true in El. cbn [bind] in E.
      split; [lra|]. injection E as <-. reflexivity. }
  destruct E3 as [Hcd ->]. split; auto.
  set (b := (d - c) / (hi - lo)).
  assert (Hb : 0 < b) by (unfold b; apply Rdiv_lt_0_compat; lra).
  assert (Hbe : b * (hi - lo) = d - c) by (unfold b; field; lra).
  assert (EV : V = fun j => (c - lo * b) + b * U j).
  { apply functional_extensionality. intros j. unfold V. fold b. ring. }
  assert (Eg : forall x, g x = (c - lo * b) + b * x) by (intros x; unfold g, b; field; lra).
  assert (WV : wf_knots n p V) by (rewrite EV; apply wf_affine; auto).
  destruct (reparam_values nrb a (mkAxis (a_size A) (a_len A) V) (n_arr nrb) g W Ha) as [R1 [R2 R3]].
  - rewrite spec_ax_same. split; auto.
  - fold A n p U. intros x [D1 D2]. cbn [a_size a_knots]. fold n. change (a_deg (mkAxis (a_size A) (a_len A) V)) with p.
    unfold in_domain. rewrite Eg, EV. cbv beta. split; nra.
  - fold A n p U. intros x idx k Dx _. cbn [a_size a_knots]. fold n. change (a_deg (mkAxis (a_size A) (a_len A) V)) with p.
    rewrite Eg, EV. apply curve_affine; auto.
  - split; auto. split; [|split; [exact R2|exact R3]]. exists V. split; [reflexivity|]. split; [|split].
    + intros i. rewrite Eg, EV. reflexivity.
    + rewrite EV. cbv beta. fold lo. ring.
    + rewrite EV. cbv beta. fold hi. lra.
Qed.

Theorem remap_spec nrb ax a start end_ nrb' : wf_nurbs nrb -> py_axis (n_dim nrb) ax = Ok a ->
  let A := get_axis nrb a in let n := (a_size A - 1)%Z in let p := a_deg A in let U := a_knots A in
  let lo := U p in let hi := U (n + 1)%Z in
  let c := match start with Some c => c | None => lo end in
  let d := match end_ with Some d => d | None => hi end in
  let g := fun x => c + (x - lo) * (d - c) / (hi - lo) in
  remap (N:=Rn) nrb ax start end_ = Ok nrb' ->
  c < d /\ wf_nurbs nrb' /\
  (exists V : Z -> R, n_axes nrb' = lset a (mkAxis (a_size A) (a_len A) V) (n_axes nrb) /\
     (forall i, V i = g (U i)) /\ V p = c /\ V (n + 1)%Z = d) /\
  forall xs, good_args (spec_axes nrb) xs -> same_values nrb nrb' xs (map_arg a g xs) (fun idx => idx).
Proof.
  intros W Ea A n p U lo hi c d g E. destruct (remap_full nrb ax a start end_ nrb' W Ea E) as (H1 & H2 & H3 & _ & H4).
  split; [exact H1|]. split; [exact H2|]. split; [exact H3|exact H4].
Qed.

(** ** reverse *)
Definition mirror (nrb : nurbs Rn) (a : nat) (us : list R) : list R :=
  let A := get_axis nrb a in lset a (a_lo A + a_hi A - nth a us 0) us.

Lemma KntRev_knots (A : axis Rn) : a_knots (KntRev A) =
  fun i => (a_lo A + a_hi A) - a_knots A (a_size A - 1 + a_deg A + 1 - i)%Z.
Proof.
  apply functional_extensionality. intros i. unfold KntRev. cbn [a_knots]. rewrite a_len_eq.
  change (a_hi A + a_lo A - a_knots A (a_size A - 1 + a_deg A + 2 - 1 - i)%Z = a_lo A + a_hi A - a_knots A (a_size A - 1 + a_deg A + 1 - i)%Z).
  replace (a_size A - 1 + a_deg A + 2 - 1 - i)%Z with (a_size A - 1 + a_deg A + 1 - i)%Z by lia. lra.
Qed.
Lemma KntRev_lo A : a_lo (KntRev A) = a_lo (N:=Rn) A.
Proof.
  rewrite a_lo_eq. rewrite KntRev_knots. change (a_deg (KntRev A)) with (a_deg A).
  replace (a_size A - 1 + a_deg A + 1 - a_deg A)%Z with (a_size A - 1 + 1)%Z by lia.
  rewrite <- a_hi_eq. change (a_lo A + a_hi A - a_hi A = a_lo A). lra.
Qed.
Lemma KntRev_hi A : a_hi (KntRev A) = a_hi (N:=Rn) A.
Proof.
  rewrite a_hi_eq. rewrite KntRev_knots. change (a_size (KntRev A)) with (a_size A).
  replace (a_size A - 1 + a_deg A + 1 - (a_size A - 1 + 1))%Z with (a_deg A)%Z by lia.
  rewrite <- a_lo_eq. change (a_lo A + a_hi A - a_lo A = a_hi A). lra.
Qed.

Definition continuous_axis (A : axis Rn) : Prop := mult_le (a_size A - 1) (a_deg A) (a_knots A).

Lemma reverse1_spec nrb a : wf_nurbs nrb -> (a < length (n_axes nrb))%nat -> continuous_axis (get_axis nrb a) ->
  let A := get_axis nrb a in
  let nrb' := reverse1 (N:=Rn) nrb a in
  wf_nurbs nrb' /\
  (forall us c, in_box (spec_axes nrb) us -> in_box (spec_axes nrb') (mirror nrb a us) /\ hom nrb' c (mirror nrb a us) = hom nrb c us) /\
  forall xs, good_args (spec_axes nrb) xs ->
    same_values nrb nrb' xs (map_arg a (fun u => a_lo A + a_hi A - u) xs) (fun idx => idx).
Proof.
  intros W Ha ML A nrb'. pose proof (wf_get_axis _ _ W Ha) as WA. fold A in WA.
  set (n := (a_size A - 1)%Z). set (p := a_deg A). set (U := a_knots A).
  assert (Wk : wf_knots n p U) by apply WA. assert (Wp : (1 <= p)%Z) by apply WA.
  assert (EN : spec_ax (KntRev A) = mkAx n p (fun i => (a_lo A + a_hi A) - U (n + p + 1 - i)%Z)).
  { unfold spec_ax. rewrite KntRev_knots. reflexivity. }
  apply (reparam_values nrb a (KntRev A) (n_arr nrb') (fun u => a_lo A + a_hi A - u) W Ha).
  - rewrite EN. split; auto. apply wf_mirror; auto.
  - fold A n p U. intros x [D1 D2]. change (a_size (KntRev A)) with (a_size A). change (a_deg (KntRev A)) with p.
    fold n. unfold in_domain. rewrite KntRev_knots. fold n p U.
    replace (n + p + 1 - p)%Z with (n + 1)%Z by lia. replace (n + p + 1 - (n + 1))%Z with p by lia.
    rewrite a_lo_eq, a_hi_eq. fold n p U. change (T Rn) with R in *. lra.
  - fold A n p U. intros x idx c Dx HL. change (a_size (KntRev A)) with (a_size A). change (a_deg (KntRev A)) with p.
    fold n. rewrite KntRev_knots. fold n p U.
    rewrite <- (curve_mirror n p U (fun i => n_arr nrb (lins a i idx) c) (a_lo A + a_hi A) x); auto.
    unfold curve. apply sumZ_ext. intros i Hi. f_equal.
    unfold nrb', reverse1. cbn [n_arr]. fold A.
    rewrite nth_lins by lia. rewrite lset_lins by lia. reflexivity.
Qed.

Lemma reverse1_twice nrb a : (a < length (n_axes nrb))%nat -> reverse1 (N:=Rn) (reverse1 nrb a) a = nrb.
Proof.
  intros Ha. unfold reverse1 at 1. cbn [n_axes n_comp n_arr reverse1].
  set (A := get_axis nrb a).
  assert (EA : get_axis (reverse1 nrb a) a = KntRev A).
  { unfold get_axis, reverse1. cbn [n_axes]. rewrite nth_lset by auto. reflexivity. }
  rewrite EA. destruct nrb as [axes nc arr]. cbn [n_axes n_comp n_arr] in *. f_equal.
  - rewrite lset_lset. replace (KntRev (KntRev A)) with A.
    + unfold A, get_axis. cbn [n_axes]. apply lset_nth.
    + destruct A as [s l k] eqn:EA'. unfold KntRev at 1. cbn [a_size a_len]. f_equal.
      apply functional_extensionality. intros i. rewrite <- EA' in *. rewrite KntRev_hi, KntRev_lo.
      rewrite KntRev_knots. replace k with (a_knots A) by (rewrite EA'; reflexivity). rewrite a_len_eq.
      change (a_size (KntRev A)) with (a_size A). change (a_deg (KntRev A)) with (a_deg A).
      replace (a_size A - 1 + a_deg A + 1 - (a_size A - 1 + a_deg A + 2 - 1 - i))%Z with i by lia.
      change (a_knots A i = a_hi A + a_lo A - (a_lo A + a_hi A - a_knots A i)). lra.
  - apply functional_extensionality. intros idx. apply functional_extensionality. intros c.
    change (a_size (KntRev A)) with (a_size A). rewrite lset_lset.
    destruct (Nat.lt_ge_cases a (length idx)) as [L|L].
    + rewrite nth_lset by auto. replace (a_size A - 1 - (a_size A - 1 - nth a idx 0))%Z with (nth a idx 0%Z) by lia.
      rewrite lset_nth. reflexivity.
    + f_equal. assert (H : forall (idx : list Z) b v, (length idx <= b)%nat -> lset b v idx = idx).
      { clear. induction idx; intros [|b] v L; simpl in *; auto; try lia. f_equal. apply IHidx. lia. }
      apply H; auto.
Qed.

(** Any list of axes. *)
Theorem reverse_spec axes : forall nrb nrb', wf_nurbs nrb -> Forall continuous_axis (n_axes nrb) ->
  reverse_axes (N:=Rn) nrb axes = Ok nrb' ->
  wf_nurbs nrb' /\ n_comp nrb' = n_comp nrb /\ Forall2 same_dom (spec_axes nrb) (spec_axes nrb') /\
  exists as_, Forall2 (fun ax a => py_axis (n_dim nrb) ax = Ok a) axes as_ /\
  forall us c, in_box (spec_axes nrb) us -> hom nrb' c (fold_left (fun us a => mirror nrb a us) as_ us) = hom nrb c us.
Proof.
  induction axes as [|ax axes IH]; intros nrb nrb' W ML E; simpl in E.
  - injection E as <-. split; auto. split; auto. split; [apply Forall2_refl, same_dom_refl|].
    exists []. split; [constructor|]. reflexivity.
  - destruct (py_axis (n_dim nrb) ax) as [a|] eqn:Ea; [|discriminate]. cbn [bind] in E.
    pose proof (py_axis_dim _ _ _ Ea) as Ha.
    assert (MLa : continuous_axis (get_axis nrb a)) by (unfold get_axis; apply Forall_nth'; auto).
    destruct (reverse1_spec nrb a W Ha MLa) as [W1 [H1 _]].
    assert (D1 : Forall2 same_dom (spec_axes nrb) (spec_axes (reverse1 nrb a))).
    { unfold spec_axes, reverse1. cbn [n_axes]. rewrite map_lset.
      rewrite <- (lset_nth a (spec_ax axis0) (map spec_ax (n_axes nrb))) at 1.
      apply Forall2_lset; [apply Forall2_refl, same_dom_refl|].
      change (map spec_ax (n_axes nrb)) with (spec_axes nrb). rewrite nth_spec_axes.
      pose proof (KntRev_lo (get_axis nrb a)) as L. pose proof (KntRev_hi (get_axis nrb a)) as Hh.
      rewrite !a_hi_eq in Hh. rewrite !a_lo_eq in L. split; simpl; symmetry; [exact L|exact Hh]. }
    assert (ML1 : Forall continuous_axis (n_axes (reverse1 nrb a))).
    { unfold reverse1. cbn [n_axes]. apply Forall_lset; auto. unfold continuous_axis in *.
      change (a_size (KntRev (get_axis nrb a))) with (a_size (get_axis nrb a)). change (a_deg (KntRev (get_axis nrb a))) with (a_deg (get_axis nrb a)).
      rewrite KntRev_knots. pose proof (wf_get_axis _ _ W Ha) as [_ Wk]. simpl in Wk. pose proof (wf_n _ _ _ Wk).
      intros i Hi. set (n := (a_size (get_axis nrb a) - 1)%Z) in *. set (p := a_deg (get_axis nrb a)) in *.
      pose proof (wf_p _ _ _ Wk). pose proof (wf_first _ _ _ Wk) as W0. pose proof (wf_mono _ _ _ Wk) as M.
      set (U := a_knots (get_axis nrb a)) in *.
      assert (G : U (n + p + 1 - (i + p))%Z < U (n + p + 1 - i)%Z).
      { destruct (Z_le_gt_dec (n + 1 - i) p) as [L|L].
        - assert (U (n + p + 1 - (i + p))%Z <= U p) by (apply M; lia).
          assert (U (p + 1)%Z <= U (n + p + 1 - i)%Z) by (apply M; lia). lra.
        - specialize (MLa (n + p + 1 - (i + p))%Z ltac:(lia)).
          replace (n + p + 1 - (i + p) + p)%Z with (n + p + 1 - i)%Z in MLa by lia. exact MLa. }
      lra. }
    destruct (IH _ _ W1 ML1 E) as [W2 [C2 [D2 [as_ [F2 H2]]]]].
    split; auto. split; [exact C2|]. split; [eapply same_dom_trans; eauto|].
    exists (a :: as_). split.
    + constructor; auto. replace (n_dim nrb) with (n_dim (reverse1 nrb a)); auto.
      unfold n_dim, reverse1. cbn [n_axes]. rewrite lset_length. reflexivity.
    + intros us c B. destruct (H1 us c B) as [B1 E1]. cbn [fold_left]. rewrite <- E1. rewrite <- (H2 _ c B1).
      f_equal. generalize (mirror nrb a us). clear -Ha. revert nrb Ha.
      assert (G : forall nrb b us, (a < length (n_axes nrb))%nat -> mirror nrb b us = mirror (reverse1 nrb a) b us).
      { intros nrb b us Ha. unfold mirror. cbv zeta. unfold get_axis, reverse1. cbn [n_axes].
        destruct (Nat.eq_dec a b) as [->|Hne].
        - rewrite nth_lset by auto. rewrite KntRev_lo, KntRev_hi. reflexivity.
        - rewrite nth_lset_other by auto. reflexivity. }
      induction as_ as [|b as_ IH]; intros nrb Ha us; simpl; auto. rewrite <- G by auto.
      apply IH; auto.
Qed.

(** ** transform *)
Lemma transform_hom nrb M us : length us = length (spec_axes nrb) ->
  let nrb' := transform (N:=Rn) nrb M in
  (forall c, (c < 4)%Z -> hom nrb' c us =
     hom nrb 0 us * M c 0%Z + hom nrb 1 us * M c 1%Z + hom nrb 2 us * M c 2%Z + hom nrb 3 us * M c 3%Z) /\
  (forall c, (4 <= c)%Z -> hom nrb' c us = hom nrb c us).
Proof.
  intros Hl nrb'. split; intros c Hc.
  - unfold hom. change (spec_axes nrb') with (spec_axes nrb).
    rewrite (tsum_ext _ (fun idx => n_arr nrb' idx c)
      (fun idx => (M c 0%Z * n_arr nrb idx 0%Z + M c 1%Z * n_arr nrb idx 1%Z) + (M c 2%Z * n_arr nrb idx 2%Z + M c 3%Z * n_arr nrb idx 3%Z))); auto.
    + rewrite !tsum_plus, !tsum_scal by auto. ring.
    + intros idx _. unfold nrb', transform, apply4. cbn [n_arr]. destruct (Z.ltb_spec c 4); [|lia].
      rn. ring.
  - unfold hom. change (spec_axes nrb') with (spec_axes nrb). apply tsum_ext; auto.
    intros idx _. unfold nrb', transform. cbn [n_arr]. destruct (Z.ltb_spec c 4); [lia|]. reflexivity.
Qed.

(** Rows of an affine map. *)
Definition affine (M : Z -> Z -> R) : Prop := M 3%Z 0%Z = 0 /\ M 3%Z 1%Z = 0 /\ M 3%Z 2%Z = 0 /\ M 3%Z 3%Z = 1.

Lemma transform_pt nrb M us : length us = length (spec_axes nrb) -> affine M -> hom nrb 3 us <> 0 ->
  let nrb' := transform (N:=Rn) nrb M in
  (forall c, (0 <= c < 3)%Z -> pt nrb' c us =
     M c 0%Z * pt nrb 0 us + M c 1%Z * pt nrb 1 us + M c 2%Z * pt nrb 2 us + M c 3%Z) /\
  hom nrb' 3 us = hom nrb 3 us /\
  (forall c, (4 <= c)%Z -> pt nrb' c us = pt nrb c us).
Proof.
  intros Hl [A0 [A1 [A2 A3]]] Hw nrb'. destruct (transform_hom nrb M us Hl) as [H1 H2]. fold nrb' in H1, H2.
  assert (H3 : hom nrb' 3 us = hom nrb 3 us) by (rewrite H1 by lia; rewrite A0, A1, A2, A3; ring).
  split; [|split; auto].
  - intros c Hc. unfold pt. rewrite H3, H1 by lia. field. auto.
  - intros c Hc. unfold pt. rewrite H3, H2 by lia. reflexivity.
Qed.

(** ** extract *)
Theorem extract_spec nrb ax a u junk nrb' : wf_nurbs nrb -> py_axis (n_dim nrb) ax = Ok a ->
  let A := get_axis nrb a in let n := (a_size A - 1)%Z in let p := a_deg A in let U := a_knots A in
  separated U 0 (n + p + 1) u ->
  (u < U (n + 1)%Z \/ multiplicity U 0 (n + p + 1) u = 1%Z \/ (p <= multiplicity U 0 (n + p + 1) u)%Z) ->
  extract (N:=Rn) junk nrb ax u = Ok nrb' ->
  in_domain n p U u /\ wf_nurbs nrb' /\ n_axes nrb' = lrem a (n_axes nrb) /\ n_comp nrb' = n_comp nrb /\
  forall us c, length us = length (spec_axes nrb') -> hom nrb' c us = hom nrb c (lins a u us).
Proof.
  intros W Ea A n p U Hsep Hm E.
  pose proof (py_axis_dim _ _ _ Ea) as Ha. pose proof (wf_get_axis _ _ W Ha) as WA. fold A in WA.
  assert (Wk : wf_knots n p U) by apply WA. assert (Wp : (1 <= p)%Z) by apply WA.
  unfold extract in E. rewrite Ea in E. cbn [bind] in E. fold A in E. fold n p U in E. rewrite a_hi_eq in E.
  change (a_lo A) with (U p) in E. fold n U in E. unfold assert, check in E.
  destruct (nleb Rn (U p) u) eqn:E1; [|discriminate]. cbn [bind] in E.
  destruct (nleb Rn u (U (n + 1)%Z)) eqn:E2; [|discriminate]. cbn [bind] in E.
  apply Rleb_true in E1. apply Rleb_true in E2. assert (D : in_domain n p U u) by (split; assumption).
  destruct (Z.leb_spec 1 n); [|discriminate]. destruct (Z.leb_spec 1 p); [|discriminate]. cbn [bind] in E.
  injection E as <-. split; auto. destruct W as [Wl [Wf Wc]].
  assert (Ha' : (a < length (spec_axes nrb))%nat) by (unfold spec_axes; rewrite map_length; auto).
  split; [|split; [reflexivity|split; [reflexivity|]]].
  - split; [|split]; unfold spec_axes; cbn [n_axes n_comp]; auto.
    + rewrite lrem_length by auto. lia.
    + rewrite map_lrem. apply Forall_lrem; auto.
  - intros us c Hl. unfold hom. cbn [n_arr]. 
    match type of Hl with _ = length ?x => assert (Es : x = lrem a (spec_axes nrb)) by (unfold spec_axes; cbn [n_axes]; apply map_lrem) end.
    rewrite Es in *. rewrite lrem_length in Hl by auto.
    rewrite (tsum_axis a (spec_axes nrb) _ (lins a u us) (spec_ax axis0) Ha') by (rewrite lins_length; lia).
    rewrite nth_spec_axes. fold A. cbv zeta. rewrite nth_lins, lrem_lins by lia.
    apply tsum_ext; [rewrite lrem_length; auto|]. intros idx _. unfold bsp_Extract.
    rewrite (CornerCut_curve n p U _ u junk Wk Wp D Hsep Hm). reflexivity.
Qed.

Lemma extract_ok nrb ax a u junk : wf_nurbs nrb -> py_axis (n_dim nrb) ax = Ok a ->
  let A := get_axis nrb a in in_domain (a_size A - 1) (a_deg A) (a_knots A) u ->
  exists nrb', extract (N:=Rn) junk nrb ax u = Ok nrb'.
Proof.
  intros W Ea A [D1 D2].
  pose proof (py_axis_dim _ _ _ Ea) as Ha. pose proof (wf_get_axis _ _ W Ha) as WA. fold A in WA.
  destruct (wf_ax_size A WA). unfold extract. rewrite Ea. cbn [bind]. fold A. rewrite a_hi_eq. rewrite a_lo_eq.
  unfold assert, check. 
  match goal with |- context[if ?b then Ok tt else _] => replace b with true by (symmetry; apply Rleb_true; exact D1) end. cbn [bind].
  match goal with |- context[if ?b then Ok tt else _] => replace b with true by (symmetry; apply Rleb_true; exact D2) end. cbn [bind].
  destruct (Z.leb_spec 1 (a_size A - 1)); [|lia]. cbn [bind]. destruct (Z.leb_spec 1 (a_deg A)); [|lia]. cbn [bind]. eauto.
Qed.

(** Arguments of the original that match arguments of the extracted object. *)
Definition fix_arg (a : nat) (u : R) (xs : list (vec Rn)) : list (vec Rn) := lins a (mkVec (N:=Rn) 1 (fun _ => u)) xs.

Lemma params_fix a u xs idx : in_range xs idx -> (a <= length xs)%nat ->
  in_range (fix_arg a u xs) (lins a 0%Z idx) /\ params (fix_arg a u xs) (lins a 0%Z idx) = lins a u (params xs idx).
Proof.
  unfold fix_arg. intros H Ha. split.
  - apply Forall2_lins; auto. cbn [v_len]. lia.
  - revert a Ha. induction H; intros [|a] Ha; simpl in *; try lia; auto. f_equal. apply IHForall2. lia.
Qed.

Lemma good_args_fix axs a u xs A : good_args (lrem a axs) xs -> (a < length axs)%nat ->
  in_domain (x_n (nth a axs A)) (x_p (nth a axs A)) (x_U (nth a axs A)) u -> good_args axs (fix_arg a u xs).
Proof.
  intros G Ha D. rewrite <- (lins_lrem a A axs Ha). apply Forall2_lins; auto. cbn [v_len v_get]. split; [lia|]. auto.
Qed.

Theorem extract_values nrb ax a u junk nrb' : wf_nurbs nrb -> py_axis (n_dim nrb) ax = Ok a ->
  let A := get_axis nrb a in let n := (a_size A - 1)%Z in let p := a_deg A in let U := a_knots A in
  separated U 0 (n + p + 1) u ->
  (u < U (n + 1)%Z \/ multiplicity U 0 (n + p + 1) u = 1%Z \/ (p <= multiplicity U 0 (n + p + 1) u)%Z) ->
  extract (N:=Rn) junk nrb ax u = Ok nrb' ->
  forall xs, good_args (spec_axes nrb') xs -> same_values nrb nrb' (fix_arg a u xs) xs (lins a 0%Z).
Proof.
  intros W Ea A n p U Hsep Hm E xs G.
  destruct (extract_spec nrb ax a u junk nrb' W Ea Hsep Hm E) as [D [W' [EA [_ Hh]]]].
  pose proof (py_axis_dim _ _ _ Ea) as Ha.
  assert (Ha' : (a < length (spec_axes nrb))%nat) by (unfold spec_axes; rewrite map_length; auto).
  assert (Es : spec_axes nrb' = lrem a (spec_axes nrb)) by (unfold spec_axes; rewrite EA; apply map_lrem).
  pose proof (good_args_length _ _ G) as Hl. rewrite Es, lrem_length in Hl by auto.
  apply same_values_hom; auto.
  - rewrite Es in G. apply (good_args_fix _ a u xs (spec_ax axis0)); auto. rewrite nth_spec_axes. exact D.
  - intros idx I. destruct (params_fix a u xs idx I ltac:(lia)) as [P1 P2]. split; auto.
    intros c. rewrite P2. apply Hh. rewrite params_length by auto. apply good_args_length; auto.
Qed.

(** ** Positivity and bounds *)
Lemma curve_mono n p U P Q u : wf_knots n p U -> in_domain n p U u ->
  (forall i, (0 <= i <= n)%Z -> P i <= Q i) -> curve n p U P u <= curve n p U Q u.
Proof.
  intros W D H. destruct (active_exists n p U u W D) as [k A]. unfold curve. apply sumZ_le. intros i Hi.
  apply Rmult_le_compat_l; auto. rewrite (Nb_piece n p U u k i W A Hi). apply B_nonneg.
  - eapply wf_span_ok; eauto. destruct A; lia. eapply active_lt; eauto.
  - eapply active_in; eauto.
Qed.
Lemma curve_const n p U v u : wf_knots n p U -> in_domain n p U u -> curve n p U (fun _ => v) u = v.
Proof.
  intros W D. destruct (active_exists n p U u W D) as [k A]. rewrite (curve_piece n p U _ u k W A).
  unfold pc. rewrite sumZ_scal_r. pose proof (wf_p _ _ _ W).
  replace (k - p)%Z with (k - Z.of_nat (Z.to_nat p))%Z by lia. rewrite B_sum_one; [ring|].
  eapply wf_span_ok; eauto. destruct A; lia. eapply active_lt; eauto.
Qed.
Lemma tsum_const axs : forall us v, Forall wf_ax axs -> in_box axs us -> tsum axs (fun _ => v) us = v.
Proof.
  induction axs as [|a axs IH]; intros us v W D; inversion D; subst; simpl; auto.
  inversion W as [|? ? [Wp Wk] W']; subst.
  etransitivity; [|apply (curve_const (x_n a) (x_p a) (x_U a) v y Wk); auto].
  unfold curve. apply sumZ_ext. intros i Hi. f_equal. apply IH; auto.
Qed.
Lemma tsum_mono axs : forall us P Q, Forall wf_ax axs -> in_box axs us ->
  (forall idx, in_net axs idx -> P idx <= Q idx) -> tsum axs P us <= tsum axs Q us.
Proof.
  induction axs as [|a axs IH]; intros us P Q W D H; inversion D; subst; simpl; auto.
  - apply H. constructor.
  - inversion W as [|? ? [Wp Wk] W']; subst.
    apply (curve_mono _ _ _ _ _ _ Wk); auto. intros i Hi. apply IH; auto. intros idx Hx. apply H. constructor; auto.
Qed.
(** Positive on a finite net means bounded below by a positive number. *)
Lemma net_min axs (P : list Z -> R) : (forall idx, in_net axs idx -> 0 < P idx) -> Forall wf_ax axs ->
  exists m, 0 < m /\ forall idx, in_net axs idx -> m <= P idx.
Proof.
  intros H W. revert P H. induction axs as [|a axs IH]; intros P H.
  - exists (P []). split; [apply H; constructor|]. intros idx Hx; inversion Hx; lra.
  - inversion W; subst. specialize (IH H3).
    assert (G : forall c, exists m, 0 < m /\ forall i idx, (0 <= i <= Z.min (x_n a) (Z.of_nat c - 1))%Z -> in_net axs idx -> m <= P (i :: idx)).
    { induction c.
      - exists 1. split; [lra|]. intros; lia.
      - destruct IHc as [m [Hm HH]]. destruct (Z_le_gt_dec (Z.of_nat c) (x_n a)).
        + destruct (IH (fun idx => P (Z.of_nat c :: idx))) as [m2 [Hm2 HH2]].
          { intros idx Hx. apply H. constructor; auto. lia. }
          exists (Rmin m m2). split; [apply Rmin_glb_lt; auto|]. intros i idx Hi Hx.
          destruct (Z.eq_dec i (Z.of_nat c)) as [->|].
          * eapply Rle_trans; [apply Rmin_r|]. apply HH2; auto.
          * eapply Rle_trans; [apply Rmin_l|]. apply HH; auto. lia.
        + exists m. split; auto. intros i idx Hi Hx. apply HH; auto. lia. }
    destruct (G (Z.to_nat (x_n a + 1))) as [m [Hm HH]]. exists m. split; auto.
    intros idx Hx. inversion Hx; subst. apply HH; auto. lia.
Qed.
Lemma tsum_pos axs P us : Forall wf_ax axs -> in_box axs us -> (forall idx, in_net axs idx -> 0 < P idx) -> 0 < tsum axs P us.
Proof.
  intros W D H. destruct (net_min axs P H W) as [m [Hm HH]].
  apply Rlt_le_trans with (tsum axs (fun _ => m) us); [rewrite tsum_const; auto|]. apply tsum_mono; auto.
Qed.

Definition positive_weights (nrb : nurbs Rn) : Prop := forall idx, in_net (spec_axes nrb) idx -> 0 < n_weights nrb idx.

Lemma weight_pos nrb us : wf_nurbs nrb -> positive_weights nrb -> in_box (spec_axes nrb) us -> 0 < hom nrb 3 us.
Proof. intros [_ [W _]] H D. apply tsum_pos; auto. Qed.

Theorem pt_bounds nrb us c lo hi : wf_nurbs nrb -> positive_weights nrb -> in_box (spec_axes nrb) us ->
  (forall idx, in_net (spec_axes nrb) idx -> lo <= n_points (N:=Rn) nrb idx c <= hi) ->
  lo <= pt nrb c us <= hi.
Proof.
  intros W Pw D H. pose proof (weight_pos nrb us W Pw D) as Hw. destruct W as [_ [W _]].
  pose proof (in_box_length _ _ D) as Hl.
  assert (L : lo * hom nrb 3 us <= hom nrb c us).
  { unfold hom. rewrite <- tsum_scal by auto. apply tsum_mono; auto. intros idx Hx.
    specialize (H idx Hx). specialize (Pw idx Hx). unfold n_points, n_weights in *. rn.
    change (T Rn) with R in *. cbn in H. destruct H as [H _].
    apply (Rmult_le_compat_r (n_arr nrb idx 3%Z)) in H; [|lra]. unfold Rdiv in H.
    rewrite Rmult_assoc, Rinv_l in H by lra. lra. }
  assert (U : hom nrb c us <= hi * hom nrb 3 us).
  { unfold hom. rewrite <- tsum_scal by auto. apply tsum_mono; auto. intros idx Hx.
    specialize (H idx Hx). specialize (Pw idx Hx). unfold n_points, n_weights in *. rn.
    change (T Rn) with R in *. cbn in H. destruct H as [_ H].
    apply (Rmult_le_compat_r (n_arr nrb idx 3%Z)) in H; [|lra]. unfold Rdiv in H.
    rewrite Rmult_assoc, Rinv_l in H by lra. lra. }
  unfold pt. split.
  - apply Rmult_le_reg_r with (hom nrb 3 us); auto. unfold Rdiv. rewrite Rmult_assoc, Rinv_l by lra. lra.
  - apply Rmult_le_reg_r with (hom nrb 3 us); auto. unfold Rdiv. rewrite Rmult_assoc, Rinv_l by lra. lra.
Qed.
