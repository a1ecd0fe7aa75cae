(** Refining does not add sign changes along lines of control points. *)
From Coq Require Import ZArith Reals List Lia Lra Bool.
From Verif Require Import Num Loop ModelBspline ModelBSp ModelNurbs Spec SpecNurbs SumZ ProofSpan ProofNet ProofCall ProofNurbs
  ProofMethods ProofMethods2 ProofGeom ProofGeom2 ProofOk ProofSlice ProofIga ProofCompat1 ProofCompat3 ProofRemove4 ProofUniq ProofUniq2 ProofAvg ProofAvg2 ProofAvg4.
Import ListNotations.
Local Open Scope R_scope.

(** The position of a control point, with its fields, relative to a plane: a linear form of the
    Cartesian coordinates and the fields; component 3 of the quotient is 1, so h 3 is the constant. *)
Definition side_of (x : nurbs Rn) (h : Z -> R) (idx : list Z) : R :=
  sumZ 0 (n_comp x - 1) (fun k => h k * (n_arr x idx k / n_arr x idx 3%Z)).
(** Along each line of control points in direction a: if, for some plane, s + 1 control points of y lie
    on alternating sides, so do s + 1 control points of x, on the same line and in the same order. *)
Definition no_new_crossings (a : nat) (x y : nurbs Rn) : Prop :=
  forall h idx s i, in_net (spec_axes y) idx ->
    (forall j, (j <= s)%nat -> (0 <= i j < a_size (get_axis y a))%Z /\ side_of y h (lset a (i j) idx) <> 0) ->
    (forall j, (j < s)%nat -> (i j < i (S j))%Z /\ side_of y h (lset a (i j) idx) * side_of y h (lset a (i (S j)) idx) < 0) ->
    exists m, (forall j, (j <= s)%nat -> (0 <= m j < a_size (get_axis x a))%Z /\ 0 < side_of y h (lset a (i j) idx) * side_of x h (lset a (m j) idx)) /\
      forall j, (j < s)%nat -> (m j < m (S j))%Z.

Lemma side_form x h idx : n_arr x idx 3%Z <> 0 -> side_of x h idx = sumZ 0 (n_comp x - 1) (fun k => h k * n_arr x idx k) / n_arr x idx 3%Z.
Proof. intros N. unfold side_of, Rdiv. rewrite <- sumZ_scal_r. apply sumZ_ext. intros. change (T Rn) with R in *. ring. Qed.
Theorem thinned a x y B : wf_nurbs x -> averages_kind true a x y -> (a < length (n_axes x))%nat -> n_axes y = lset a B (n_axes x) -> n_comp y = n_comp x ->
  positive_weights x -> positive_weights y -> no_new_crossings a x y.
Proof.
  intros W (c & Ac & Tc & Hc) Ha EX EC Px Py h idx s i I Hi Ha2.
  assert (EB : get_axis y a = B) by (unfold get_axis; rewrite EX; apply nth_lset; auto).
  assert (Ha' : (a < length (spec_axes x))%nat) by (unfold spec_axes; rewrite map_length; auto).
  assert (ES : spec_axes y = lset a (spec_ax B) (spec_axes x)) by (unfold spec_axes; rewrite EX, map_lset; reflexivity).
  assert (Li : length idx = length (spec_axes y)) by (apply in_net_length; auto). assert (Ly : length (spec_axes y) = length (spec_axes x)) by (rewrite ES; apply lset_length).
  assert (Ix : forall l, (0 <= l < a_size (get_axis x a))%Z -> in_net (spec_axes x) (lset a l idx)).
  { intros l Hl. apply (in_net_lset _ a (spec_ax B)); auto; [rewrite <- ES; auto|]. rewrite nth_spec_axes. cbn [spec_ax x_n]. lia. }
  assert (Iy : forall l, (0 <= l < a_size (get_axis y a))%Z -> in_net (spec_axes y) (lset a l idx)).
  { intros l Hl. apply (in_net_lset _ a (nth a (spec_axes y) (spec_ax axis0))); try lia; [rewrite ProofNet.lset_nth; auto|]. rewrite nth_spec_axes. cbn [spec_ax x_n]. lia. }
  set (P := fun l => sumZ 0 (n_comp x - 1) (fun k => h k * n_arr x (lset a l idx) k)).
  assert (PX : forall l e, (0 <= l < a_size (get_axis x a))%Z -> 0 < e * P l -> 0 < e * side_of x h (lset a l idx)).
  { intros l e Hl He. specialize (Px _ (Ix l Hl)). unfold n_weights in Px. rewrite side_form by (change (T Rn) with R in *; lra). fold (P l).
    unfold Rdiv. rewrite <- Rmult_assoc. apply Rmult_lt_0_compat; auto. apply Rinv_0_lt_compat; auto. }
  assert (PY : forall l, (0 <= l < a_size (get_axis y a))%Z -> exists w, 0 < w /\ apply_to (a_size (get_axis x a) - 1) c P l = w * side_of y h (lset a l idx)).
  { intros l Hl. specialize (Py _ (Iy l Hl)). unfold n_weights in Py. exists (n_arr y (lset a l idx) 3%Z). split; auto.
    rewrite side_form by (change (T Rn) with R in *; lra).
    transitivity (sumZ 0 (n_comp y - 1) (fun k => h k * n_arr y (lset a l idx) k)).
    2: { change (T Rn) with R in *. field. lra. }
    unfold apply_to, P. rewrite EC.
    rewrite (sumZ_ext 0 (n_comp x - 1) (fun k => h k * n_arr y (lset a l idx) k) (fun k => sumZ 0 (a_size (get_axis x a) - 1) (fun m => h k * (c l m * n_arr x (lset a m idx) k)))).
    - rewrite sumZ_swap. apply sumZ_ext. intros m Hm. rewrite <- sumZ_scal. apply sumZ_ext. intros. change (T Rn) with R in *. ring.
    - intros k Hk. rewrite (Hc _ k (Iy l Hl)) by lia. rewrite sumZ_scal. f_equal. apply sumZ_ext. intros m Hm.
      rewrite nth_lset, lset_lset by lia. reflexivity. }
  destruct (proj1 (Tc eq_refl) P s (fun j => side_of y h (lset a (i j) idx))) as [m [M1 M2]].
  - intros j Hj. apply Ha2; auto.
  - exists i. split; [|intros j Hj; apply Ha2; auto]. intros j Hj. destruct (Hi j Hj) as [H1 H2]. split; [lia|]. destruct (PY (i j) H1) as (w & Hw & ->).
    set (v := side_of y h (lset a (i j) idx)) in *. replace (v * (w * v)) with (w * (v * v)) by ring. apply Rmult_lt_0_compat; auto.
    assert (0 <= v * v) by apply Rle_0_sqr. destruct (Req_dec (v * v) 0) as [E|E]; [apply Rmult_integral in E; tauto|lra].
  - exists m. split; auto. intros j Hj. destruct (M1 j Hj) as [H1 H2]. split; [lia|]. apply PX; auto. lia.
Qed.
Theorem insert_crossings x ax a u times junk y : wf_nurbs x -> bounded_knots x -> positive_weights x -> py_axis (n_dim x) ax = Ok a ->
  op_ok (Insert u times) (get_axis x a) -> insert (N:=Rn) junk x ax u times = Ok y -> no_new_crossings a x y.
Proof.
  intros W Bk Px Ea Hok E. pose proof (py_axis_dim _ _ _ Ea) as Ha. destruct (insert_thins x ax a u times junk y W Bk Ea Hok E) as [Av _].
  pose proof Hok as [S1 S2]. destruct (insert_spec x ax a u times junk y W Ea S1 S2 E) as (_ & _ & _ & Pr & V & EX & _).
  assert (EC : n_comp y = n_comp x) by apply Pr. eapply thinned; eauto. eapply (averages_keep a x y); eauto. eapply averages_plain; eauto.
Qed.
Theorem refine_crossings x ax a values junk y : wf_nurbs x -> bounded_knots x -> positive_weights x -> py_axis (n_dim x) ax = Ok a ->
  op_ok (Refine values) (get_axis x a) -> refine (N:=Rn) junk x ax values = Ok y -> no_new_crossings a x y.
Proof.
  intros W Bk Px Ea Hok E. pose proof (py_axis_dim _ _ _ Ea) as Ha. destruct (refine_thins x ax a values junk y W Bk Ea Hok E) as [Av _].
  destruct (op_spec (Refine values) x ax a junk (fun _ _ => 0) y W Ea Hok E) as (P & B & EX & _).
  assert (EC : n_comp y = n_comp x) by apply P. eapply thinned; eauto. eapply (averages_keep a x y); eauto. eapply averages_plain; eauto.
Qed.
Theorem clamp_crossings x ax a side junk y : wf_nurbs x -> bounded_knots x -> positive_weights x -> py_axis (n_dim x) ax = Ok a ->
  ends_separated (get_axis x a) -> clamp (N:=Rn) junk x ax side = Ok y -> no_new_crossings a x y.
Proof.
  intros W Bk Px Ea Hok E. pose proof (py_axis_dim _ _ _ Ea) as Ha. destruct (clamp_thins x ax a side junk y W Bk Ea Hok E) as [Av _].
  destruct (op_spec (Clamp side) x ax a junk (fun _ _ => 0) y W Ea Hok E) as (P & B & EX & _).
  assert (EC : n_comp y = n_comp x) by apply P. eapply thinned; eauto. eapply (averages_keep a x y); eauto. eapply averages_plain; eauto.
Qed.
Theorem slice_crossings x ax a start end_ junk y : wf_nurbs x -> bounded_knots x -> positive_weights x -> py_axis (n_dim x) ax = Ok a ->
  let A := get_axis x a in let n := (a_size A - 1)%Z in let p := a_deg A in let U := a_knots A in
  let u0 := match start with Some v => v | None => U p end in
  let u1 := match end_ with Some v => v | None => U (n + 1)%Z end in
  continuous_axis A -> separated_list U (n + p + 1) [u0; u1] ->
  slice (N:=Rn) junk x ax start end_ = Ok y -> no_new_crossings a x y.
Proof.
  intros W Bk Px Ea A n p U u0 u1 Cn Hs E. pose proof (py_axis_dim _ _ _ Ea) as Ha. destruct (slice_thins x ax a start end_ junk y W Bk Ea Cn Hs E) as [Av _].
  destruct (slice_spec x ax a start end_ junk y W Ea Cn Hs E) as (_ & _ & _ & Wy & EC & _).
  destruct (slice_knots x ax a start end_ junk y W Ea Hs E) as (B & EX & _).
  eapply thinned; eauto. eapply (averages_keep a x y); eauto. eapply averages_plain; eauto.
Qed.
