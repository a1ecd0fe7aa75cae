(** Control nets approach the object when the knot spans become small.
    Code: igakit/nurbs.py:721-795 (insert), 887-940 (clamp), 1013-1087 (refine), 1168-1266 (slice), with
    the Fortran behind them.  Specification: [slope], [spans_within] (ProofConv.v), [near] (SpecShape.v)
    and the value [pt] of the object at a parameter. *)
From Coq Require Import ZArith Reals QArith List Bool Lia Lra.
From Verif Require Import Num Loop ModelBspline ModelBSp ModelNurbs Spec SpecNurbs SpecShape SumZ ProofSpan ProofNet ProofCall ProofNurbs ProofMethods ProofMethods2 ProofGeom ProofGeom2
  ProofOk ProofSlice ProofIga ProofRemove4 ProofCompat1 ExTac PropNurbs ProofUniq ProofUniq2 ProofAvg ProofAvg2 ProofAvg4 PropUniq PropAvg ProofVar ProofConv.
Import ListNotations.
Local Open Scope R_scope.

(** ** C117 *)
(** The steps between neighbouring control points, relative to the averages of the knots that belong
    to them, do not grow. *)
Theorem C117_slopes : forall x y, wf_nurbs x -> bounded_knots x -> cutting_calls x y ->
  forall b k L, (b < length (n_axes x))%nat -> (0 <= k < n_comp x)%Z -> slope x b k L -> slope y b k L.
Proof. exact slopes_kept. Qed.
Print Assumptions C117_slopes.
(** A control point is within a multiple of the largest knot span of all points of the object on which
    it has influence. *)
Theorem C117_distance : forall x w B L h, wf_nurbs x -> 0 < w -> 0 <= L -> 0 <= h -> bounds x w B ->
  (forall a k, (a < length (n_axes x))%nat -> (0 <= k < n_comp x)%Z -> slope x a k L) -> spans_within x h ->
  forall idx us k, in_net (spec_axes x) idx -> in_box (spec_axes x) us -> near (spec_axes x) idx us -> (0 <= k < n_comp x)%Z ->
    Rabs (n_points (N:=Rn) x idx k - pt x k us) <= 2 * degrees (spec_axes x) * L * (1 + B) / w * h.
Proof. exact close. Qed.
Print Assumptions C117_distance.
(** The factor is the same for all nets obtained from one object. *)
Theorem C117_converges : forall x, wf_nurbs x -> bounded_knots x -> positive_weights x -> Forall continuous_axis (n_axes x) ->
  exists K, 0 <= K /\ forall y h, cutting_calls x y -> 0 <= h -> spans_within y h ->
  forall idx us k, in_net (spec_axes y) idx -> in_box (spec_axes y) us -> near (spec_axes y) idx us -> (0 <= k < n_comp y)%Z ->
    Rabs (n_points (N:=Rn) y idx k - pt x k us) <= K * h.
Proof. exact converge. Qed.
Print Assumptions C117_converges.
(** The surface exS: its control points have slopes up to 7, its weights are at least 4, its knots are at
    most 1 apart. Control point [1; 1] has influence at (1/2, 3/2). A knot can be inserted. *)
Example C117_example : wf_nurbs exS /\ bounded_knots exS /\ positive_weights exS /\ Forall continuous_axis (n_axes exS) /\ bounds exS 4 2 /\
  (forall a k, (a < length (n_axes exS))%nat -> (0 <= k < n_comp exS)%Z -> slope exS a k 7) /\ spans_within exS 1 /\
  in_net (spec_axes exS) [1; 1]%Z /\ in_box (spec_axes exS) [1 / 2; 3 / 2] /\ near (spec_axes exS) [1; 1]%Z [1 / 2; 3 / 2] /\
  exists y, cutting_calls exS y /\ a_size (get_axis y 0) = 5%Z.
Proof.
  destruct C114_example as (H1 & H2 & H3 & Hok & _). split; auto. split; auto. split; auto. split; [exact exS_cont|].
  split.
  { intros i H. destruct (exS_idx i H) as [a [b [-> [Ha Hb]]]]. cbn [n_arr exS nth n_comp]. split; [apply IZR_le; nia|]. intros k Hk.
    rewrite Rabs_right by (apply Rle_ge, IZR_le; nia). rewrite <- mult_IZR. apply IZR_le. nia. }
  split.
  { intros a k Ha Hk i l I A Hl. destruct (exS_idx i I) as [p [q [-> [Hp Hq]]]]. destruct a as [|[|a]]; [| |cbn in Ha; lia]; unfold A in *; clear A; unfold axis_of in *; cbn [axis_of spec_axes n_axes exS map nth spec_ax x_n x_p x_U lset n_arr a_size a_knots] in *;
      change (a_deg _) with 2%Z; rewrite <- minus_IZR.
    - replace (1 + (l + 1) * 2 + q * q + k - (1 + l * 2 + q * q + k))%Z with 2%Z by lia. rewrite Rabs_right by lra. enumz l 0%Z 2%Z; unfold exU; cbv [arr nth Z.to_nat Pos.to_nat Pos.iter_op Init.Nat.add Z.add Pos.add Pos.succ Z.sub]; lra.
    - replace (1 + p * 2 + (l + 1) * (l + 1) + k - (1 + p * 2 + l * l + k))%Z with (2 * l + 1)%Z by ring. rewrite Rabs_right by (apply Rle_ge, IZR_le; lia).
      enumz l 0%Z 3%Z; unfold exV; cbv [arr nth Z.to_nat Pos.to_nat Pos.iter_op Init.Nat.add Z.add Z.mul Pos.mul Pos.add Pos.succ Z.sub]; lra. }
  split.
  { intros a Ha A i Hi. destruct a as [|[|a]]; [| |cbn in Ha; lia]; unfold A in *; cbn [axis_of spec_axes n_axes exS map nth spec_ax x_n x_p x_U a_size a_knots] in *; change (a_deg _) with 2%Z in Hi.
    - enumz i 1%Z 4%Z; unfold exU; cbv [arr nth Z.to_nat Pos.to_nat Pos.iter_op Init.Nat.add Z.add Pos.add Pos.succ]; lra.
    - enumz i 1%Z 5%Z; unfold exV; cbv [arr nth Z.to_nat Pos.to_nat Pos.iter_op Init.Nat.add Z.add Pos.add Pos.succ]; lra. }
  split; [constructor; [cbn; lia|constructor; [cbn; lia|constructor]]|].
  split; [constructor; [|constructor; [|constructor]]; unfold in_domain; cbn; unfold a_deg; cbn; unfold exU, exV; cbv [arr nth Z.to_nat Pos.to_nat Pos.iter_op Init.Nat.add]; lra|].
  split; [cbn; unfold a_deg; cbn; unfold exU, exV; cbv [arr nth Z.to_nat Pos.to_nat Pos.iter_op Init.Nat.add]; lra|].
  destruct (C114_example_calls (fun _ => 0)) as (y & E & _ & Sz). exists y. split; auto. apply (cut_more _ y); [|apply cut_none]. apply (cut_insert exS y 0 0%nat (1 / 2) (Some 1%Z) (fun _ => 0)); auto.
Qed.
