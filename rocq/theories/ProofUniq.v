(** The geometry determines the control net; consequences for sequences of refinements. *)
From Coq Require Import ZArith Reals List Lia Lra Bool Permutation Relations.
From Verif Require Import Num Loop ModelBspline ModelBSp ModelNurbs ModelIga ModelCad Spec SpecElev SpecCompat SumZ BPiece BLink BIndep ProofSpan BInsert BRep
  ProofInsert ProofCut SpecNurbs ProofNet ProofCall ProofNurbs ProofMethods ProofMethods2 ProofMethods3 ProofGeom ProofGeom2 ProofOk ProofSlice ProofIga ProofIga2
  ProofElev1 ProofElev4 ProofElev5 ProofClamp ProofUnclamp ProofCompat1 ProofCompat3 ProofRemove4.
Import ListNotations.
Local Open Scope R_scope.

(** The same numbers of control points and the same knots along every axis. *)
Definition same_knots (x y : nurbs Rn) : Prop :=
  Forall2 (fun A B => a_size B = a_size A /\ a_len B = a_len A /\ forall i, (0 <= i < a_len A)%Z -> a_knots B i = a_knots A i) (n_axes x) (n_axes y).
(** No knot occurs more than degree+1 times along any axis. *)
Definition bounded_knots (x : nurbs Rn) : Prop :=
  Forall (fun A => forall v, (multiplicity (a_knots A) 0 (a_len A - 1) v <= a_deg A + 1)%Z) (n_axes x).

Lemma len_eq (A : axis Rn) : a_len A = (a_size A - 1 + a_deg A + 1 + 1)%Z.
Proof. unfold a_deg. lia. Qed.

Lemma supported_of (A : axis Rn) : wf_ax (spec_ax A) -> (forall v, (multiplicity (a_knots A) 0 (a_len A - 1) v <= a_deg A + 1)%Z) ->
  supported (a_size A - 1) (a_deg A) (a_knots A).
Proof.
  intros [Hp W] H i Hi. cbn [spec_ax x_n x_p x_U] in *. pose proof (wf_mono _ _ _ W) as M. pose proof (wf_n _ _ _ W) as Hn.
  rewrite len_eq in H. replace (a_size A - 1 + a_deg A + 1 + 1 - 1)%Z with (a_size A - 1 + a_deg A + 1)%Z in H by lia.
  destruct (Rlt_dec (a_knots A i) (a_knots A (i + a_deg A + 1)%Z)); auto. exfalso.
  assert (a_knots A i <= a_knots A (i + a_deg A + 1)%Z) by (apply M; lia).
  pose proof (multiplicity_pair (a_knots A) 0 (a_size A - 1 + a_deg A + 1) (a_knots A i) i (i + a_deg A + 1) M ltac:(lia) ltac:(lia) ltac:(lia) eq_refl ltac:(lra)).
  specialize (H (a_knots A i)). lia.
Qed.

Lemma tsum_axes axs axs' P : Forall2 (fun a b => x_n b = x_n a /\ x_p b = x_p a /\ (0 <= x_n a)%Z /\ (0 <= x_p a)%Z /\
    forall i, (0 <= i <= x_n a + x_p a + 1)%Z -> x_U b i = x_U a i) axs axs' ->
  forall us, in_box axs us -> tsum axs' P us = tsum axs P us.
Proof.
  intros F. revert P. induction F as [|a b axs axs' (E1 & E2 & H1 & H2 & E3) F IH]; intros P us I; inversion I as [|? u ? us' Hu I']; subst; simpl; auto.
  rewrite E1, E2. apply sumZ_ext. intros j Hj. rewrite IH by auto. f_equal.
  unfold Nb. assert (G : forall q i, (0 <= i)%Z -> (i + Z.of_nat q <= x_n a + x_p a)%Z -> Nbasis (x_n a) (x_U b) q i u = Nbasis (x_n a) (x_U a) q i u).
  { induction q; intros i K1 K2; cbn [Nbasis].
    - unfold indicator. rewrite !E3 by lia. reflexivity.
    - rewrite !IHq by lia. rewrite !E3 by lia. reflexivity. }
  apply G; lia.
Qed.

Theorem net_unique x y : wf_nurbs x -> wf_nurbs y -> same_knots x y -> n_comp y = n_comp x -> bounded_knots x ->
  (forall us c, in_box (spec_axes x) us -> (0 <= c < n_comp x)%Z -> hom y c us = hom x c us) -> same_data x y.
Proof.
  intros Wx Wy K C Bk H. split; [exact K|]. split; [exact C|]. intros idx c I Hc.
  refine (tsum_unique (spec_axes x) (fun i => n_arr y i c) (fun i => n_arr x i c) _ _ idx I).
  - destruct Wx as (_ & W & _). unfold spec_axes in *. unfold bounded_knots in Bk. clear - W Bk.
    induction (n_axes x) as [|A l IH]; cbn [map] in *; constructor.
    + inversion W; subst. inversion Bk; subst. split; [apply H1|]. apply supported_of; auto.
    + inversion W; subst. inversion Bk; subst. apply IH; auto.
  - intros us Hus. rewrite <- (tsum_axes (spec_axes x) (spec_axes y)); [exact (H us c Hus Hc)| |exact Hus].
    destruct Wx as (_ & W & _). unfold spec_axes in *. unfold same_knots in K. clear - W K.
    revert W. induction K as [|A B l l' (E1 & E2 & E3) K IH]; cbn [map]; intros W; constructor.
    + inversion W as [|? ? [Hp Wk] W']; subst. pose proof (wf_n _ _ _ Wk) as Hn. cbn [spec_ax x_n x_p x_U] in *.
      unfold a_deg in *. rewrite E1, E2. repeat split; try lia. intros i Hi. apply E3. lia.
    + inversion W; subst. apply IH; auto.
Qed.

(** ** Operations which keep the geometry *)
Inductive op :=
| Insert (u : R) (times : option Z)
| Refine (values : list R)
| Clamp (side : option Z)
| Unclamp (side cont : option Z)
| Elevate (times : Z).
Definition run (o : op) (junk : Z -> R) (junk2 : Z -> Z -> R) (x : nurbs Rn) (ax : Z) : res (nurbs Rn) :=
  match o with
  | Insert u times => insert (N:=Rn) junk x ax u times
  | Refine values => refine (N:=Rn) junk x ax values
  | Clamp side => clamp (N:=Rn) junk x ax side
  | Unclamp side cont => unclamp (N:=Rn) junk x ax side cont
  | Elevate times => elevate (N:=Rn) junk junk2 x ax times
  end.
(** When they do (C11, C13, C17, C18, C19). *)
Definition op_ok (o : op) (A : axis Rn) : Prop :=
  let n := (a_size A - 1)%Z in let p := a_deg A in let U := a_knots A in let last := (n + p + 1)%Z in
  match o with
  | Insert u _ => separated U 0 last u /\ (U p < u < U (n + 1)%Z \/ (p <= multiplicity U 0 last u)%Z)
  | Refine values => separated_list U last values /\ forall v, In v values -> U p < v < U (n + 1)%Z \/ (p <= multiplicity U 1 (last - 1) v)%Z
  | Clamp _ | Unclamp _ _ => ends_separated A
  | Elevate times => clamped n p U /\ no_tiny_span U p n /\ mult_le n p U /\ ((p <= 9)%Z \/ elev_guard n p times U)
  end.
Definition refinement (x y : nurbs Rn) : Prop :=
  exists o ax a junk junk2, py_axis (n_dim x) ax = Ok a /\ op_ok o (get_axis x a) /\ run o junk junk2 x ax = Ok y.
Inductive refinements : nurbs Rn -> nurbs Rn -> Prop :=
| none : forall x, refinements x x
| more : forall x y z, refinement x y -> refinements y z -> refinements x z.

(** What an operation does to the axis. *)
Definition axis_after (o : op) (A B : axis Rn) : Prop :=
  let n := (a_size A - 1)%Z in let p := a_deg A in let U := a_knots A in
  match o with
  | Insert u times =>
      let m := Z.min (mulA A u) p in let t := match times with Some t => t | None => (p - m)%Z end in
      (0 <= t)%Z /\ (m + t <= p)%Z /\ a_deg B = p /\ forall v, mulA B v = (mulA A v + (if Req_EM_T v u then t else 0))%Z
  | Refine values => a_deg B = p /\ forall v, mulA B v = (mulA A v + countL v values)%Z
  | Clamp side => a_size B = a_size A /\ a_len B = a_len A /\ a_knots B = clampLR n p (side_left side) (side_right side) U
  | Unclamp side cont =>
      let C := match cont with Some c => c | None => (p - 1)%Z end in
      (0 <= C < p)%Z /\ a_size B = a_size A /\ a_len B = a_len A /\ periodic_ends n p C (side_left side) (side_right side) U (a_knots B)
  | Elevate t => (0 <= t)%Z /\ a_deg B = (p + t)%Z /\ forall v, mulA B v = (if (mulA A v =? 0)%Z then 0 else mulA A v + t)%Z
  end.

Lemma op_spec o x ax a junk junk2 y : wf_nurbs x -> py_axis (n_dim x) ax = Ok a -> op_ok o (get_axis x a) -> run o junk junk2 x ax = Ok y ->
  preserves x y /\ exists B, n_axes y = lset a B (n_axes x) /\ axis_after o (get_axis x a) B.
Proof.
  intros W Ea Hh E. pose proof (py_axis_dim _ _ _ Ea) as Ha. pose proof (wf_get_axis _ _ W Ha) as WA.
  destruct o as [u times|values|side|side cont|t]; cbn [run op_ok] in *.
  - destruct Hh as [Hs Hi]. destruct (insert_spec x ax a u times junk y W Ea Hs Hi E) as (_ & H1 & H2 & P & V & EX & _ & M).
    split; auto. eexists. split; [exact EX|]. cbn [axis_after]. unfold mulA at 1 3. split; [exact H1|]. split; [exact H2|].
    split; [unfold a_deg; cbn [a_len a_size]; lia|]. intros v. unfold mulA at 2. rewrite <- M. unfold mulA.
    set (t := match times with Some t => t | None => _ end). unfold a_deg. cbn [a_knots a_len a_size]. f_equal. lia.
  - destruct Hh as [Hs Hi]. replace (a_size (get_axis x a) - 1 + a_deg (get_axis x a) + 1 - 1)%Z with (a_size (get_axis x a) - 1 + a_deg (get_axis x a))%Z in Hi by lia.
    destruct (refine_class_spec x ax a values junk y W Ea Hs Hi E) as (P & V & EX & _ & M).
    split; auto. eexists. split; [exact EX|]. cbn [axis_after].
    split; [unfold a_deg; cbn [a_len a_size]; lia|]. intros v. unfold mulA at 2. rewrite <- M. unfold mulA.
    unfold a_deg. cbn [a_knots a_len a_size]. f_equal. lia.
  - destruct (clamp_spec x ax a side junk y W Ea Hh E) as (P & EX). split; auto. eexists. split; [exact EX|]. cbn. auto.
  - destruct (unclamp_spec x ax a side cont junk y W Ea Hh E) as (HC & P & V & EX & H). split; auto. eexists. split; [exact EX|]. cbn [axis_after a_size a_len a_knots]. auto.
  - destruct Hh as (H1 & H2 & H3 & H4).
    assert (Ht : (0 <= t)%Z). { unfold elevate, assert in E. destruct (Z.leb_spec 0 t); auto. discriminate. }
    destruct (Z.eq_dec t 0) as [->|Hne].
    { unfold elevate in E. cbn in E. injection E as <-. split; [apply preserves_refl; auto|].
      exists (get_axis x a). split; [unfold get_axis; symmetry; apply ProofNet.lset_nth|]. cbn [axis_after]. split; [lia|]. split; [lia|].
      intros v. destruct (Z.eqb_spec (mulA (get_axis x a) v) 0); lia. }
    destruct (elevate_spec x ax a t junk junk2 W Ea Ht H1 H2 H3) as (z' & E' & Pr).
    { destruct H4 as [H4|H4]; auto. apply elev_guard_low; lia. }
    rewrite E in E'. injection E' as <-. split; auto.
    destruct (elevate_knots x ax a t junk junk2 W Ea Ht H1 H2) as (nrb1 & V & E1 & _ & EX & MV & HV1 & HV2).
    rewrite E in E1. injection E1 as <-. eexists. split; [exact EX|]. set (A := get_axis x a) in *. set (A' := mkAxis _ _ V) in *. cbn [axis_after].
    assert (D' : a_deg A' = (a_deg A + t)%Z) by (unfold A', a_deg; cbn [a_len a_size]; lia).
    split; auto. split; auto. intros v. unfold mulA. rewrite D'. change (a_knots A') with V.
    replace (a_size A' - 1 + (a_deg A + t) + 1)%Z with (a_size A - 1 + t * nonempty_spans (a_knots A) (a_deg A) (a_size A - 1) + (a_deg A + t) + 1)%Z
      by (unfold A'; cbn [a_size]; lia).
    destruct (Z.eqb_spec (multiplicity (a_knots A) 0 (a_size A - 1 + a_deg A + 1) v) 0) as [Z0|Z0].
    + apply HV2. intros j Hj Ej. pose proof (mulA_at A j WA Hj) as K. rewrite Ej in K. unfold mulA in K. lia.
    + pose proof (mulA_nonneg A v) as K. unfold mulA in K.
      destruct (mulA_pos A v) as (j & Hj & <-); [unfold mulA; lia|]. apply HV1. auto.
Qed.
Lemma refinement_preserves x y : wf_nurbs x -> refinement x y -> preserves x y.
Proof. intros W (o & ax & a & j & j2 & Ea & Hh & E). apply (op_spec o x ax a j j2 y W Ea Hh E). Qed.

Lemma refinements_preserves x y : wf_nurbs x -> refinements x y -> preserves x y.
Proof.
  intros W H. revert W. induction H as [x|x y z H1 H2 IH]; intros W; [apply preserves_refl; auto|].
  pose proof (refinement_preserves x y W H1) as P. apply (preserves_trans x y z P). apply IH. apply P.
Qed.
Theorem path_independent nrb x y : wf_nurbs nrb -> refinements nrb x -> refinements nrb y -> same_knots x y -> bounded_knots x -> same_data x y.
Proof.
  intros W H1 H2 K Bk. pose proof (refinements_preserves _ _ W H1) as P1. pose proof (refinements_preserves _ _ W H2) as P2.
  apply net_unique; auto; [apply P1|apply P2| |].
  - rewrite (pr_comp _ _ P1), (pr_comp _ _ P2). reflexivity.
  - intros us c I _. assert (I0 : in_box (spec_axes nrb) us).
    { pose proof (pr_dom _ _ P1) as D. revert us I. generalize (spec_axes nrb) (spec_axes x) D. clear.
      intros l l' D. induction D as [|a b l l' [E1 E2] D IH]; intros us I; inversion I; subst; constructor.
      - unfold in_domain in *. rewrite E1, E2. auto.
      - apply IH. auto. }
    rewrite (pr_hom _ _ P1 us c I0), (pr_hom _ _ P2 us c I0). reflexivity.
Qed.

(** ** Axes with the same multiplicities *)
Lemma mulA_len (A : axis Rn) v : mulA A v = multiplicity (a_knots A) 0 (a_len A - 1) v.
Proof. unfold mulA. rewrite len_eq. f_equal. lia. Qed.
Lemma same_axis (A B : axis Rn) : wf_ax (spec_ax A) -> wf_ax (spec_ax B) -> a_deg B = a_deg A -> (forall v, mulA A v = mulA B v) ->
  a_size B = a_size A /\ a_len B = a_len A /\ forall i, (0 <= i < a_len A)%Z -> a_knots B i = a_knots A i.
Proof.
  intros [Hp W] [Hp' W'] D H. cbn [spec_ax x_n x_p x_U] in *. pose proof (wf_n _ _ _ W). pose proof (wf_n _ _ _ W').
  destruct (mult_unique (a_knots A) (a_knots B) (a_size A - 1 + a_deg A + 1) (a_size B - 1 + a_deg B + 1)) as [E K]; try lia;
    [apply (wf_mono _ _ _ W)|apply (wf_mono _ _ _ W')|exact H|].
  pose proof (len_eq A). pose proof (len_eq B). split; [lia|]. split; [lia|]. intros i Hi. symmetry. apply K. lia.
Qed.
Lemma same_knots_of x y : wf_nurbs x -> wf_nurbs y -> length (n_axes x) = length (n_axes y) ->
  (forall b, (b < length (n_axes x))%nat -> a_deg (get_axis y b) = a_deg (get_axis x b) /\ forall v, mulA (get_axis x b) v = mulA (get_axis y b) v) ->
  same_knots x y.
Proof.
  intros Wx Wy L H. unfold same_knots.
  assert (G : forall b, (b < length (n_axes x))%nat -> a_size (get_axis y b) = a_size (get_axis x b) /\ a_len (get_axis y b) = a_len (get_axis x b) /\ forall i : Z, (0 <= i < a_len (get_axis x b))%Z -> a_knots (get_axis y b) i = a_knots (get_axis x b) i).
  { intros b Hb. destruct (H b Hb). apply same_axis; auto; apply wf_get_axis; auto. lia. }
  unfold get_axis in G. clear - L G. revert G L. generalize (n_axes x) (n_axes y). induction l as [|A l IH]; intros [|B l'] G L; try discriminate; constructor.
  - apply (G 0%nat). simpl. lia.
  - apply IH; [|simpl in L; lia]. intros b Hb. apply (G (S b)). simpl. lia.
Qed.
Lemma preserves_dim x y : preserves x y -> length (n_axes y) = length (n_axes x).
Proof. intros P. pose proof (Forall2_len _ _ _ (pr_dom _ _ P)) as E. unfold spec_axes in E. rewrite !map_length in E. auto. Qed.
Lemma dim_py (x y : nurbs Rn) ax a : length (n_axes y) = length (n_axes x) -> py_axis (n_dim x) ax = Ok a -> py_axis (n_dim y) ax = Ok a.
Proof. unfold n_dim. intros ->. auto. Qed.

(** ** Insertion, as a change of multiplicities *)
Definition sep (A : axis Rn) (u : R) : Prop := forall v, (0 < mulA A v)%Z -> v = u \/ / 4503599627370496 <= Rabs (v - u).
Lemma sep_iff A u : wf_ax (spec_ax A) -> (separated (a_knots A) 0 (a_len A - 1) u <-> sep A u).
Proof.
  intros W. pose proof (len_eq A) as L. split.
  - intros H v Hv. destruct (mulA_pos A v Hv) as (j & Hj & <-). apply H. lia.
  - intros H j Hj. apply H. pose proof (mulA_at A j W ltac:(lia)). lia.
Qed.
Definition ins_ok (A : axis Rn) (u : R) : Prop := sep A u /\ (a_lo A < u < a_hi A \/ (a_deg A <= mulA A u)%Z).
Lemma insert_effect x ax a u t junk y : wf_nurbs x -> py_axis (n_dim x) ax = Ok a -> ins_ok (get_axis x a) u ->
  insert (N:=Rn) junk x ax u (Some t) = Ok y ->
  refinement x y /\ (0 <= t)%Z /\ (Z.min (mulA (get_axis x a) u) (a_deg (get_axis x a)) + t <= a_deg (get_axis x a))%Z /\ forall b, (b < length (n_axes x))%nat -> a_deg (get_axis y b) = a_deg (get_axis x b) /\ forall v, mulA (get_axis y b) v = (mulA (get_axis x b) v + (if Nat.eqb b a then if Req_EM_T v u then t else 0 else 0))%Z.
Proof.
  intros W Ea [Hs Hi] E. pose proof (py_axis_dim _ _ _ Ea) as Ha. pose proof (wf_get_axis _ _ W Ha) as WA.
  rewrite <- (sep_iff _ _ WA) in Hs.
  rewrite len_eq in Hs. replace (a_size (get_axis x a) - 1 + a_deg (get_axis x a) + 1 + 1 - 1)%Z with (a_size (get_axis x a) - 1 + a_deg (get_axis x a) + 1)%Z in Hs by lia.
  rewrite a_hi_eq, a_lo_eq in Hi. unfold mulA in Hi.
  assert (Hh : op_ok (Insert u (Some t)) (get_axis x a)) by (split; auto).
  split; [exists (Insert u (Some t)), ax, a, junk, (fun _ _ => 0); auto|].
  destruct (op_spec (Insert u (Some t)) x ax a junk (fun _ _ => 0) y W Ea Hh E) as (_ & B & EX & H1 & H2 & H3 & H4).
  split; auto. split; auto. intros b Hb. rewrite (get_lset x y a _ b EX Ha). destruct (Nat.eqb_spec b a) as [->|Hne]; [|split; auto; intros; lia].
  split; auto.
Qed.
Lemma insert_accepts x ax a u t junk : wf_nurbs x -> py_axis (n_dim x) ax = Ok a -> ins_ok (get_axis x a) u ->
  a_lo (get_axis x a) <= u <= a_hi (get_axis x a) ->
  (0 <= t)%Z -> (Z.min (mulA (get_axis x a) u) (a_deg (get_axis x a)) + t <= a_deg (get_axis x a))%Z ->
  exists y, insert (N:=Rn) junk x ax u (Some t) = Ok y.
Proof.
  intros W Ea [Hs Hi] D H1 H2. pose proof (py_axis_dim _ _ _ Ea) as Ha. pose proof (wf_get_axis _ _ W Ha) as WA.
  rewrite <- (sep_iff _ _ WA) in Hs.
  rewrite len_eq in Hs. replace (a_size (get_axis x a) - 1 + a_deg (get_axis x a) + 1 + 1 - 1)%Z with (a_size (get_axis x a) - 1 + a_deg (get_axis x a) + 1)%Z in Hs by lia.
  rewrite a_hi_eq, a_lo_eq in D. apply (insert_ok x ax a u (Some t) junk W Ea Hs D). auto.
Qed.
Lemma insert_in x ax a u t junk y : wf_nurbs x -> py_axis (n_dim x) ax = Ok a -> ins_ok (get_axis x a) u ->
  insert (N:=Rn) junk x ax u (Some t) = Ok y -> a_lo (get_axis x a) <= u <= a_hi (get_axis x a).
Proof.
  intros W Ea [Hs Hi] E. pose proof (py_axis_dim _ _ _ Ea) as Ha. pose proof (wf_get_axis _ _ W Ha) as WA.
  rewrite <- (sep_iff _ _ WA) in Hs.
  rewrite len_eq in Hs. replace (a_size (get_axis x a) - 1 + a_deg (get_axis x a) + 1 + 1 - 1)%Z with (a_size (get_axis x a) - 1 + a_deg (get_axis x a) + 1)%Z in Hs by lia.
  rewrite a_hi_eq, a_lo_eq in Hi. destruct (insert_spec x ax a u (Some t) junk y W Ea Hs Hi E) as (D & _). rewrite a_hi_eq, a_lo_eq. exact D.
Qed.
Lemma bounded_of x : (forall b, (b < length (n_axes x))%nat -> forall v, (mulA (get_axis x b) v <= a_deg (get_axis x b) + 1)%Z) -> bounded_knots x.
Proof.
  intros H. unfold bounded_knots. apply Forall_forall. intros A HA v.
  destruct (In_nth _ _ axis0 HA) as (b & Hb & <-). rewrite <- mulA_len. apply (H b Hb).
Qed.
Lemma bounded_at x b : bounded_knots x -> (b < length (n_axes x))%nat -> forall v, (mulA (get_axis x b) v <= a_deg (get_axis x b) + 1)%Z.
Proof.
  intros H Hb v. rewrite mulA_len. unfold bounded_knots in H. rewrite Forall_forall in H. apply H. apply nth_In. auto.
Qed.

(** After an insertion another value can be inserted as before, if the two values are apart. *)
Lemma ins_ok_after x ax a u t junk y b v : wf_nurbs x -> py_axis (n_dim x) ax = Ok a -> ins_ok (get_axis x a) u ->
  insert (N:=Rn) junk x ax u (Some t) = Ok y -> (b < length (n_axes x))%nat -> ins_ok (get_axis x b) v ->
  (b = a -> u = v \/ / 4503599627370496 <= Rabs (u - v)) -> ins_ok (get_axis y b) v.
Proof.
  intros W Ea Hu E Hb [Hs Hi] Hap. destruct (insert_effect x ax a u t junk y W Ea Hu E) as (R1 & Ht & _ & Ef).
  destruct (Ef b Hb) as [D M]. pose proof (refinement_preserves x y W R1) as P. destruct (dom_ends _ _ b P Hb) as [L H].
  split.
  - intros w Hw. rewrite M in Hw. destruct (Nat.eqb_spec b a) as [->|]; [|apply Hs; lia].
    destruct (Req_EM_T w u) as [->|]; [apply Hap; auto|apply Hs; lia].
  - rewrite L, H, D, M. destruct Hi as [Hi|Hi]; [left; exact Hi|right]. destruct (Nat.eqb b a); [destruct (Req_EM_T v u)|]; lia.
Qed.

Theorem inserts_commute x ax1 ax2 a b u v r s j1 j2 x1 x2 : wf_nurbs x -> bounded_knots x ->
  py_axis (n_dim x) ax1 = Ok a -> py_axis (n_dim x) ax2 = Ok b -> ins_ok (get_axis x a) u -> ins_ok (get_axis x b) v ->
  (a = b -> u = v \/ / 4503599627370496 <= Rabs (u - v)) ->
  insert (N:=Rn) j1 x ax1 u (Some r) = Ok x1 -> insert (N:=Rn) j2 x1 ax2 v (Some s) = Ok x2 ->
  forall j3 j4, exists y1 y2, insert (N:=Rn) j3 x ax2 v (Some s) = Ok y1 /\ insert (N:=Rn) j4 y1 ax1 u (Some r) = Ok y2 /\ same_data x2 y2.
Proof.
  intros W Bk Ea Eb Hu Hv Hap E1 E2 j3 j4.
  pose proof (py_axis_dim _ _ _ Ea) as Ha. pose proof (py_axis_dim _ _ _ Eb) as Hb.
  destruct (insert_effect x ax1 a u r j1 x1 W Ea Hu E1) as (R1 & Hr & Hm1 & Ef1).
  pose proof (refinement_preserves x x1 W R1) as P1. pose proof (preserves_dim _ _ P1) as D1.
  assert (Hv1 : ins_ok (get_axis x1 b) v) by (apply (ins_ok_after x ax1 a u r j1 x1 b v W Ea Hu E1 Hb Hv); intros ->; apply Hap; auto).
  destruct (insert_effect x1 ax2 b v s j2 x2 (pr_wf _ _ P1) (dim_py x x1 _ _ D1 Eb) Hv1 E2) as (R2 & Hs & Hm2 & Ef2).
  pose proof (refinement_preserves x1 x2 (pr_wf _ _ P1) R2) as P2. pose proof (preserves_dim _ _ P2) as D2.
  destruct (Ef1 b Hb) as [G1 M1]. destruct (dom_ends _ _ b P1 Hb) as [L1 H1].
  pose proof (insert_in x1 ax2 b v s j2 x2 (pr_wf _ _ P1) (dim_py x x1 _ _ D1 Eb) Hv1 E2) as Iv. rewrite L1, H1 in Iv.
  pose proof (insert_in x ax1 a u r j1 x1 W Ea Hu E1) as Iu.
  rewrite G1, M1 in Hm2. pose proof (mulA_nonneg (get_axis x b) v) as N1. pose proof (mulA_nonneg (get_axis x a) u) as N2.
  destruct (insert_accepts x ax2 b v s j3 W Eb Hv Iv Hs) as [y1 F1].
  { destruct (Nat.eqb b a); [destruct (Req_EM_T v u)|]; lia. }
  destruct (insert_effect x ax2 b v s j3 y1 W Eb Hv F1) as (R3 & _ & _ & Ef3).
  pose proof (refinement_preserves x y1 W R3) as P3. pose proof (preserves_dim _ _ P3) as D3.
  destruct (Ef3 a Ha) as [G3 M3]. destruct (dom_ends _ _ a P3 Ha) as [L3 H3].
  assert (Hu1 : ins_ok (get_axis y1 a) u).
  { apply (ins_ok_after x ax2 b v s j3 y1 a u W Eb Hv F1 Ha Hu). intros Q. destruct (Hap Q) as [->|K]; auto. right. rewrite Rabs_minus_sym. auto. }
  destruct (insert_accepts y1 ax1 a u r j4 (pr_wf _ _ P3) (dim_py x y1 _ _ D3 Ea) Hu1) as [y2 F2]; auto.
  { rewrite L3, H3. exact Iu. }
  { rewrite G3, M3. destruct (Nat.eqb_spec a b) as [Q|Q]; [|lia]. rewrite Q, Nat.eqb_refl in *.
    destruct (Req_EM_T u v) as [K|K]; [|lia]. rewrite <- K in *. destruct (Req_EM_T u u); [|congruence]. lia. }
  destruct (insert_effect y1 ax1 a u r j4 y2 (pr_wf _ _ P3) (dim_py x y1 _ _ D3 Ea) Hu1 F2) as (R4 & _ & _ & Ef4).
  pose proof (refinement_preserves y1 y2 (pr_wf _ _ P3) R4) as P4. pose proof (preserves_dim _ _ P4) as D4.
  exists y1, y2. split; auto. split; auto.
  assert (MX : forall c, (c < length (n_axes x))%nat -> a_deg (get_axis x2 c) = a_deg (get_axis x c) /\ a_deg (get_axis y2 c) = a_deg (get_axis x c) /\ forall w, mulA (get_axis x2 c) w = mulA (get_axis y2 c) w /\ mulA (get_axis x2 c) w = (mulA (get_axis x c) w + (if Nat.eqb c a then if Req_EM_T w u then r else 0 else 0) + (if Nat.eqb c b then if Req_EM_T w v then s else 0 else 0))%Z).
  { intros c Hc. destruct (Ef1 c Hc) as [K1 K2]. destruct (Ef2 c ltac:(lia)) as [K3 K4]. destruct (Ef3 c Hc) as [K5 K6]. destruct (Ef4 c ltac:(lia)) as [K7 K8].
    split; [congruence|]. split; [congruence|]. intros w. rewrite K4, K2, K8, K6. lia. }
  apply (path_independent x); auto.
  - apply (more x x1 x2 R1), (more x1 x2 x2 R2), none.
  - apply (more x y1 y2 R3), (more y1 y2 y2 R4), none.
  - apply same_knots_of; [apply P2|apply P4|lia|]. intros c Hc. destruct (MX c ltac:(lia)) as (K1 & K2 & K3). split; [congruence|]. intros w. apply K3.
  - apply bounded_of. intros c Hc w. destruct (MX c ltac:(lia)) as (K1 & K2 & K3). rewrite K1, (proj2 (K3 w)).
    pose proof (bounded_at x c Bk ltac:(lia) w) as Bc.
    destruct (Nat.eqb_spec c a) as [->|Na]; [destruct (Req_EM_T w u) as [->|Nu]|].
    + destruct (Nat.eqb_spec a b) as [<-|Nb]; [|lia]. rewrite Nat.eqb_refl in *. destruct (Req_EM_T u v) as [<-|]; [|lia]. destruct (Req_EM_T u u); [|congruence]. lia.
    + destruct (Nat.eqb_spec a b) as [<-|Nb]; [|lia]. destruct (Req_EM_T w v) as [->|]; [|lia]. rewrite Nat.eqb_refl in Hm2. destruct (Req_EM_T v u); [congruence|]. lia.
    + destruct (Nat.eqb_spec c b) as [->|Nb]; [|lia]. destruct (Req_EM_T w v) as [->|]; [|lia]. destruct (Nat.eqb_spec b a); [congruence|]. lia.
Qed.

(** ** Operations along different axes *)
Definition axis_eq (A B : axis Rn) : Prop :=
  a_size B = a_size A /\ a_len B = a_len A /\ forall i, (0 <= i < a_len A)%Z -> a_knots B i = a_knots A i.
Lemma periodic_unique n p C l r U V V' : (0 <= C < p)%Z -> (p <= n)%Z -> periodic_ends n p C l r U V -> periodic_ends n p C l r U V' ->
  forall i, (0 <= i <= n + p + 1)%Z -> V i = V' i.
Proof.
  intros HC Hn (M & L & H) (M' & L' & H').
  assert (Mid : forall i, (p <= i <= n + 1)%Z -> V i = V' i) by (intros i Hi; rewrite M, M' by lia; reflexivity).
  intros i Hi. destruct (Z_lt_le_dec i p) as [Ip|Ip].
  - destruct l.
    + destruct L as [L1 L2], L' as [L1' L2'].
      assert (G : forall d i, (0 <= i <= p)%Z -> (p - i <= Z.of_nat d)%Z -> V i = V' i).
      { induction d; intros k Hk Hd; [apply Mid; lia|].
        destruct (Z_le_gt_dec k C); [|rewrite L1, L1' by lia; reflexivity].
        rewrite L2, L2' by lia. rewrite (Mid (n + 1)%Z), (Mid p) by lia. f_equal.
        destruct (Z_le_gt_dec (k + (n - C)) p); [apply IHd; lia|apply Mid; lia]. }
      apply (G (Z.to_nat p)); lia.
    + rewrite L, L' by lia. reflexivity.
  - destruct (Z_le_gt_dec i (n + 1)) as [In|In]; [apply Mid; lia|]. destruct r.
    + destruct H as [L1 L2], H' as [L1' L2'].
      assert (G : forall d i, (n + 1 <= i <= n + p + 1)%Z -> (i - (n + 1) <= Z.of_nat d)%Z -> V i = V' i).
      { induction d; intros k Hk Hd; [apply Mid; lia|].
        destruct (Z_le_gt_dec k (n + p - C)); [rewrite L1, L1' by lia; reflexivity|].
        rewrite L2, L2' by lia. rewrite (Mid (n + 1)%Z), (Mid p) by lia. f_equal.
        destruct (Z_le_gt_dec (n + 1) (k - (n - C))); [apply IHd; lia|]. apply Mid. lia. }
      apply (G (Z.to_nat p)); lia.
    + rewrite H, H' by lia. reflexivity.
Qed.
Lemma axis_after_unique o A B B' : wf_ax (spec_ax A) -> wf_ax (spec_ax B) -> wf_ax (spec_ax B') -> axis_after o A B -> axis_after o A B' -> axis_eq B B'.
Proof.
  intros WA WB WB' H H'. destruct o as [u times|values|side|side cont|t]; cbn [axis_after] in *.
  - destruct H as (_ & _ & D & M), H' as (_ & _ & D' & M'). apply same_axis; auto; [congruence|]. intros v. rewrite M, M'. reflexivity.
  - destruct H as (D & M), H' as (D' & M'). apply same_axis; auto; [congruence|]. intros v. rewrite M, M'. reflexivity.
  - destruct H as (E1 & E2 & E3), H' as (F1 & F2 & F3). split; [congruence|]. split; [congruence|]. intros i _. rewrite E3, F3. reflexivity.
  - destruct H as (HC & E1 & E2 & E3), H' as (_ & F1 & F2 & F3). split; [congruence|]. split; [congruence|]. intros i Hi.
    destruct WA as [Hp Wk]. pose proof (wf_n _ _ _ Wk) as Hn. cbn [spec_ax x_n x_p x_U] in *. rewrite E2, len_eq in Hi.
    symmetry. eapply periodic_unique; [exact HC|exact Hn|exact E3|exact F3|lia].
  - destruct H as (_ & D & M), H' as (_ & D' & M'). apply same_axis; auto; [congruence|]. intros v. rewrite M, M'. reflexivity.
Qed.
(** Whether an operation is accepted depends on the axis only. *)
Lemma op_accepts o x ax a y ax' j j2 x' k k2 : wf_nurbs x -> wf_nurbs y -> py_axis (n_dim x) ax = Ok a -> py_axis (n_dim y) ax' = Ok a ->
  get_axis y a = get_axis x a -> op_ok o (get_axis x a) -> run o j j2 x ax = Ok x' -> exists y', run o k k2 y ax' = Ok y'.
Proof.
  intros Wx Wy Ex Ey G Hh E. destruct o as [u times|values|side|side cont|t]; cbn [run op_ok] in *.
  - destruct Hh as [Hs Hi]. destruct (insert_spec x ax a u times j x' Wx Ex Hs Hi E) as (D & H1 & H2 & _).
    rewrite <- G in Hs, D, H1, H2. apply (insert_ok y ax' a u times k Wy Ey Hs D). destruct times; auto.
  - destruct values as [|v0 vs] eqn:Ev; [exists y; unfold refine; reflexivity|]. rewrite <- Ev in *.
    assert (Hne : values <> []) by congruence.
    apply (proj2 (refine_ok y ax' a values k Wy Ey Hne)). rewrite G. apply (proj1 (refine_ok x ax a values j Wx Ex Hne)). eauto.
  - apply (proj2 (clamp_ok y ax' a side k Wy Ey)). apply (proj1 (clamp_ok x ax a side j Wx Ex)). eauto.
  - apply (proj2 (unclamp_ok y ax' a side cont k Wy Ey)). rewrite G. apply (proj1 (unclamp_ok x ax a side cont j Wx Ex)). eauto.
  - assert (Ht : (0 <= t)%Z). { unfold elevate, assert in E. destruct (Z.leb_spec 0 t); auto. discriminate. }
    destruct Hh as (H1 & H2 & _). rewrite <- G in H1, H2. destruct (elevate_knots y ax' a t k k2 Wy Ey Ht H1 H2) as (z & _ & Ez & _). eauto.
Qed.
Theorem ops_commute o1 o2 x ax1 ax2 a b x1 x2 j1 j1' j2 j2' : wf_nurbs x -> py_axis (n_dim x) ax1 = Ok a -> py_axis (n_dim x) ax2 = Ok b -> a <> b ->
  op_ok o1 (get_axis x a) -> op_ok o2 (get_axis x b) ->
  run o1 j1 j1' x ax1 = Ok x1 -> run o2 j2 j2' x1 ax2 = Ok x2 -> bounded_knots x2 ->
  forall k1 k1' k2 k2', exists y1 y2, run o2 k2 k2' x ax2 = Ok y1 /\ run o1 k1 k1' y1 ax1 = Ok y2 /\ same_data x2 y2.
Proof.
  intros W Ea Eb Hab O1 O2 E1 E2 Bk k1 k1' k2 k2'.
  pose proof (py_axis_dim _ _ _ Ea) as Ha. pose proof (py_axis_dim _ _ _ Eb) as Hb.
  destruct (op_spec o1 x ax1 a j1 j1' x1 W Ea O1 E1) as (P1 & B1 & X1 & A1).
  pose proof (preserves_dim _ _ P1) as D1. pose proof (dim_py x x1 _ _ D1 Eb) as Eb1.
  assert (G1 : get_axis x1 b = get_axis x b).
  { rewrite (get_lset x x1 a B1 b X1 Ha). destruct (Nat.eqb_spec b a); [congruence|auto]. }
  assert (O2' : op_ok o2 (get_axis x1 b)) by (rewrite G1; auto).
  destruct (op_spec o2 x1 ax2 b j2 j2' x2 (pr_wf _ _ P1) Eb1 O2' E2) as (P2 & B2 & X2 & A2). rewrite G1 in A2.
  pose proof (preserves_dim _ _ P2) as D2.
  destruct (op_accepts o2 x1 ax2 b x ax2 j2 j2' x2 k2 k2' (pr_wf _ _ P1) W Eb1 Eb (eq_sym G1) O2' E2) as [y1 F1].
  destruct (op_spec o2 x ax2 b k2 k2' y1 W Eb O2 F1) as (P3 & B3 & X3 & A3).
  pose proof (preserves_dim _ _ P3) as D3. pose proof (dim_py x y1 _ _ D3 Ea) as Ea1.
  assert (G3 : get_axis y1 a = get_axis x a).
  { rewrite (get_lset x y1 b B3 a X3 Hb). destruct (Nat.eqb_spec a b); [congruence|auto]. }
  destruct (op_accepts o1 x ax1 a y1 ax1 j1 j1' x1 k1 k1' W (pr_wf _ _ P3) Ea Ea1 G3 O1 E1) as [y2 F2].
  assert (O1' : op_ok o1 (get_axis y1 a)) by (rewrite G3; auto).
  destruct (op_spec o1 y1 ax1 a k1 k1' y2 (pr_wf _ _ P3) Ea1 O1' F2) as (P4 & B4 & X4 & A4). rewrite G3 in A4.
  pose proof (preserves_dim _ _ P4) as D4.
  exists y1, y2. split; auto. split; auto.
  apply (path_independent x); auto.
  - apply (more x x1 x2); [exists o1, ax1, a, j1, j1'; auto|]. apply (more x1 x2 x2); [exists o2, ax2, b, j2, j2'; auto|]. apply none.
  - apply (more x y1 y2); [exists o2, ax2, b, k2, k2'; auto|]. apply (more y1 y2 y2); [exists o1, ax1, a, k1, k1'; auto|]. apply none.
  - unfold same_knots.
    assert (G : forall c, (c < length (n_axes x2))%nat -> axis_eq (get_axis x2 c) (get_axis y2 c)).
    { intros c Hc. pose proof (wf_get_axis x2 c (pr_wf _ _ P2) Hc) as Wc. pose proof (wf_get_axis y2 c (pr_wf _ _ P4) ltac:(lia)) as Wc'.
      assert (Hc1 : (c < length (n_axes x))%nat) by lia.
      rewrite (get_lset x1 x2 b B2 c X2 ltac:(lia)), (get_lset x x1 a B1 c X1 Ha) in *. rewrite (get_lset y1 y2 a B4 c X4 ltac:(lia)), (get_lset x y1 b B3 c X3 Hb) in *.
      destruct (Nat.eqb_spec c b) as [->|Nb]; [destruct (Nat.eqb_spec b a); [congruence|]|destruct (Nat.eqb_spec c a) as [->|Na]].
      - apply (axis_after_unique o2 (get_axis x b)); auto. apply wf_get_axis; auto.
      - apply (axis_after_unique o1 (get_axis x a)); auto. apply wf_get_axis; auto.
      - split; auto. }
    assert (L : length (n_axes x2) = length (n_axes y2)) by lia.
    unfold get_axis in G. revert G L. generalize (n_axes x2) (n_axes y2). clear. induction l as [|A l IH]; intros [|B l'] G L; try discriminate; constructor.
    + apply (G 0%nat). simpl. lia.
    + apply IH; [|simpl in L; lia]. intros b Hb. apply (G (S b)). simpl. lia.
Qed.
