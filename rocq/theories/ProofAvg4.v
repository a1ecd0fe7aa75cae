(** What averaging implies: positive weights and half-spaces are kept. *)
From Coq Require Import ZArith Reals List Lia Lra Bool Permutation FunctionalExtensionality.
From Verif Require Import Num Loop ModelBspline ModelBSp ModelNurbs ModelIga ModelCad Spec SpecElev SpecCompat SumZ BPiece BLink BIndep Blossom ProofSpan BInsert BRep
  ProofInsert ProofCut ProofRefine SpecNurbs ProofNet ProofCall ProofNurbs ProofMethods ProofMethods2 ProofMethods3 ProofGeom ProofGeom2 ProofOk ProofSlice ProofIga ProofIga2
  ProofElev1 ProofElev4 ProofElev5 ProofClamp ProofUnclamp ProofCompat1 ProofCompat2 ProofCompat3 ProofRemove4 ProofUniq ProofUniq2 ProofInit ProofAvg ProofAvg2 ProofAvg3.
Import ListNotations.
Local Open Scope R_scope.

(** ** Specification *)
(** All control points, in Cartesian coordinates, with the fields, satisfy b <= h . point. *)
Definition net_within (x : nurbs Rn) (h : Z -> R) (b : R) : Prop :=
  forall idx, in_net (spec_axes x) idx -> b <= sumZ 0 (n_comp x - 1) (fun k => h k * (n_arr x idx k / n_arr x idx 3%Z)).
(** The calls considered, with the conditions of C11, C13, C17, C19 and C25. *)
Inductive averaging_call (x y : nurbs Rn) : Prop :=
| by_insert ax a u times junk : py_axis (n_dim x) ax = Ok a -> op_ok (Insert u times) (get_axis x a) -> insert (N:=Rn) junk x ax u times = Ok y -> averaging_call x y
| by_refine ax a values junk : py_axis (n_dim x) ax = Ok a -> op_ok (Refine values) (get_axis x a) -> refine (N:=Rn) junk x ax values = Ok y -> averaging_call x y
| by_clamp ax a side junk : py_axis (n_dim x) ax = Ok a -> ends_separated (get_axis x a) -> clamp (N:=Rn) junk x ax side = Ok y -> averaging_call x y
| by_elevate ax a t junk junk2 : py_axis (n_dim x) ax = Ok a -> op_ok (Elevate t) (get_axis x a) -> elevate (N:=Rn) junk junk2 x ax t = Ok y -> averaging_call x y
| by_slice ax a start end_ junk : py_axis (n_dim x) ax = Ok a ->
    (let A := get_axis x a in let n := (a_size A - 1)%Z in let p := a_deg A in let U := a_knots A in
     let u0 := match start with Some v => v | None => U p end in
     let u1 := match end_ with Some v => v | None => U (n + 1)%Z end in
     continuous_axis A /\ separated_list U (n + p + 1) [u0; u1]) ->
    slice (N:=Rn) junk x ax start end_ = Ok y -> averaging_call x y.
Inductive averaging_calls : nurbs Rn -> nurbs Rn -> Prop :=
| no_calls x : averaging_calls x x
| more_calls x y z : averaging_call x y -> averaging_calls y z -> averaging_calls x z.

(** ** Proofs *)
Lemma in_net_lset axs a B idx l : in_net (lset a B axs) idx -> (a < length axs)%nat -> (0 <= l <= x_n (nth a axs (spec_ax (axis0 (N:=Rn)))))%Z -> in_net axs (lset a l idx).
Proof.
  revert a idx. induction axs as [|A axs IH]; intros a idx I Ha Hl; [cbn in Ha; lia|]. destruct a; cbn [lset nth] in *; inversion I; subst; cbn [lset].
  - constructor; auto.
  - constructor; auto. apply IH; auto. cbn in Ha. lia.
Qed.
Lemma averages_sum a x y B idx (h : Z -> R) : averages a x y -> (a < length (n_axes x))%nat -> n_axes y = lset a B (n_axes x) -> n_comp y = n_comp x -> in_net (spec_axes y) idx ->
  exists c : Z -> R, (forall l, (0 <= l <= a_size (get_axis x a) - 1)%Z -> 0 <= c l /\ in_net (spec_axes x) (lset a l idx)) /\ sumZ 0 (a_size (get_axis x a) - 1) c = 1 /\
    (forall k, (0 <= k < n_comp x)%Z -> n_arr y idx k = sumZ 0 (a_size (get_axis x a) - 1) (fun l => c l * n_arr x (lset a l idx) k)).
Proof.
  intros (c & Ac & Hc) Ha EX EC I. exists (c (nth a idx 0%Z)).
  assert (EB : get_axis y a = B) by (unfold get_axis; rewrite EX; apply nth_lset; auto).
  assert (Ia : (0 <= nth a idx 0 <= a_size (get_axis y a) - 1)%Z).
  { pose proof (Forall2_nth _ _ _ a (spec_ax (axis0 (N:=Rn))) 0%Z I) as S. rewrite nth_spec_axes in S. apply S. unfold spec_axes. rewrite map_length, EX, lset_length. auto. }
  destruct (Ac _ Ia) as [A1 A2]. split; [|split; auto].
  - intros l Hl. split; [apply A1; auto|]. unfold spec_axes in I. rewrite EX, map_lset in I. apply (in_net_lset _ a (spec_ax B)); auto.
    + unfold spec_axes; rewrite map_length. auto.
    + rewrite nth_spec_axes. exact Hl.
  - intros k Hk. apply Hc; auto. rewrite EC. auto.
Qed.
Lemma sum_pos_avg n c w : (forall l, (0 <= l <= n)%Z -> 0 <= c l /\ 0 < w l) -> sumZ 0 n c = 1 -> 0 < sumZ 0 n (fun l => c l * w l).
Proof.
  intros H S. destruct (Z.lt_ge_cases n 0) as [Hn|Hn]; [rewrite sumZ_empty in S by lia; lra|].
  assert (G : 0 <= sumZ 0 n (fun l => c l * w l)) by (apply sumZ_nonneg; intros l Hl; destruct (H l Hl); apply Rmult_le_pos; lra).
  destruct G as [G|G]; auto. exfalso.
  assert (Q : forall m, (0 <= m <= n)%Z -> c m = 0).
  { intros m Hm. destruct (H m Hm) as [C0 W0].
    assert (c m * w m <= sumZ 0 n (fun l => c l * w l)).
    { rewrite <- (sumZ_kron 0 n m (fun l => c l * w l)) by lia. apply sumZ_le. intros l Hl. destruct (H l Hl). destruct (l =? m)%Z; [lra|].
      rewrite Rmult_0_l. apply Rmult_le_pos; lra. }
    assert (0 <= c m * w m) by (apply Rmult_le_pos; lra). assert (c m * w m = 0) as K by lra. apply Rmult_integral in K. destruct K; lra. }
  rewrite (sumZ_ext 0 n _ (fun _ => 0)) in S by auto. rewrite sumZ_zero in S by auto. lra.
Qed.
Theorem averages_keep a x y B : wf_nurbs x -> averages a x y -> (a < length (n_axes x))%nat -> n_axes y = lset a B (n_axes x) -> n_comp y = n_comp x -> positive_weights x ->
  positive_weights y /\ forall h b, net_within x h b -> net_within y h b.
Proof.
  intros W Av Ha EX EC Pw. assert (C4 : (4 <= n_comp x)%Z) by apply W.
  assert (PY : positive_weights y).
  { intros idx I. destruct (averages_sum a x y B idx (fun _ => 0) Av Ha EX EC I) as (c & C1 & C2 & C3). unfold n_weights. rewrite C3 by lia.
    apply sum_pos_avg; auto. intros l Hl. destruct (C1 l Hl) as [K1 K2]. split; auto. apply (Pw _ K2). }
  split; auto. intros h b H idx I. specialize (PY idx I). unfold n_weights in PY.
  destruct (averages_sum a x y B idx h Av Ha EX EC I) as (c & C1 & C2 & C3). rewrite EC.
  set (n := (a_size (get_axis x a) - 1)%Z) in *. set (w := n_arr y idx 3%Z) in *.
  apply (Rmult_le_reg_r w); auto.
  replace (sumZ 0 (n_comp x - 1) (fun k => h k * (n_arr y idx k / w)) * w) with (sumZ 0 (n_comp x - 1) (fun k => h k * n_arr y idx k)).
  2: { rewrite <- sumZ_scal_r. apply sumZ_ext. intros k Hk. field. lra. }
  rewrite (sumZ_ext 0 (n_comp x - 1) _ (fun k => sumZ 0 n (fun l => c l * (h k * n_arr x (lset a l idx) k)))).
  2: { intros k Hk. rewrite C3 by lia. rewrite <- sumZ_scal. apply sumZ_ext. intros. ring. }
  rewrite sumZ_swap. unfold w. rewrite C3 by lia. rewrite <- sumZ_scal. apply sumZ_le. intros l Hl. rewrite sumZ_scal.
  destruct (C1 l Hl) as [K1 K2]. specialize (H _ K2). specialize (Pw _ K2). unfold n_weights in Pw. set (v := n_arr x (lset a l idx) 3%Z) in *.
  replace (b * (c l * v)) with (c l * (b * v)) by ring. apply Rmult_le_compat_l; auto.
  replace (sumZ 0 (n_comp x - 1) (fun k => h k * n_arr x (lset a l idx) k)) with (sumZ 0 (n_comp x - 1) (fun k => h k * (n_arr x (lset a l idx) k / v)) * v).
  2: { rewrite <- sumZ_scal_r. apply sumZ_ext. intros k Hk. field. lra. }
  apply Rmult_le_compat_r; [lra|auto].
Qed.

Lemma call_keeps x y : wf_nurbs x -> bounded_knots x -> positive_weights x -> averaging_call x y ->
  wf_nurbs y /\ bounded_knots y /\ positive_weights y /\ forall h b, net_within x h b -> net_within y h b.
Proof.
  intros W Bk Pw Call.
  assert (X : exists a B, averages a x y /\ bounded_knots y /\ wf_nurbs y /\ (a < length (n_axes x))%nat /\ n_axes y = lset a B (n_axes x) /\ n_comp y = n_comp x).
  { destruct Call as [ax a u times junk Ea Hok E|ax a values junk Ea Hok E|ax a side junk Ea Hok E|ax a t junk junk2 Ea Hok E|ax a start end_ junk Ea Hok E]; exists a;
      pose proof (py_axis_dim _ _ _ Ea) as Ha.
    - destruct (insert_averages x ax a u times junk y W Bk Ea Hok E) as [A1 A2].
      destruct (op_spec (Insert u times) x ax a junk (fun _ _ => 0) y W Ea Hok E) as (P & B & EX & _). exists B. repeat split; auto; apply P.
    - destruct (refine_averages x ax a values junk y W Bk Ea Hok E) as [A1 A2].
      destruct (op_spec (Refine values) x ax a junk (fun _ _ => 0) y W Ea Hok E) as (P & B & EX & _). exists B. repeat split; auto; apply P.
    - destruct (clamp_averages x ax a side junk y W Bk Ea Hok E) as [A1 A2].
      destruct (op_spec (Clamp side) x ax a junk (fun _ _ => 0) y W Ea Hok E) as (P & B & EX & _). exists B. repeat split; auto; apply P.
    - destruct (elevate_averages x ax a t junk junk2 y W Bk Ea Hok E) as [A1 A2].
      destruct (op_spec (Elevate t) x ax a junk junk2 y W Ea Hok E) as (P & B & EX & _). exists B. repeat split; auto; apply P.
    - destruct Hok as [Cn Hs]. destruct (slice_averages x ax a start end_ junk y W Bk Ea Cn Hs E) as [A1 A2].
      destruct (slice_spec x ax a start end_ junk y W Ea Cn Hs E) as (_ & _ & _ & Wy & EC & _).
      destruct (slice_knots x ax a start end_ junk y W Ea Hs E) as (B & EX & _). exists B. auto 10. }
  destruct X as (a & B & A1 & A2 & A3 & A4 & A5 & A6). split; auto. split; auto. apply (averages_keep a x y B); auto.
Qed.
Theorem calls_keep x y : wf_nurbs x -> bounded_knots x -> positive_weights x -> averaging_calls x y ->
  positive_weights y /\ forall h b, net_within x h b -> net_within y h b.
Proof.
  intros W Bk Pw C. induction C as [x|x y z C Cs IH]; [auto|].
  destruct (call_keeps x y W Bk Pw C) as (Wy & By & Py & H). destruct (IH Wy By Py) as [Pz Hz]. split; auto.
Qed.
