(** Derivatives at the ends of clamped curves. *)
From Coq Require Import ZArith Reals List Lia Lra Bool.
From Verif Require Import Num Loop ModelBspline ModelBSp ModelNurbs ModelDer Spec SumZ BPiece BLink BDer SpecNurbs SpecDer ProofNet ProofCall ProofNurbs ProofGeom
  ProofRational ProofDerLink ProofDerApi ProofSmooth2 ProofSmooth3 PropDer.
Import ListNotations.
Local Open Scope R_scope.

Lemma sumZ_pick lo hi f i0 : (lo <= i0 <= hi)%Z -> (forall i, (lo <= i <= hi)%Z -> i <> i0 -> f i = 0) -> sumZ lo hi f = f i0.
Proof.
  intros H Z0. assert (E : sumZ i0 i0 f = f i0) by (apply sumZ_single). rewrite <- E. apply sumZ_restrict; try lia. intros; apply Z0; lia.
Qed.
Lemma sumZ_pick2 lo hi f i0 : (lo <= i0)%Z -> (i0 + 1 <= hi)%Z -> (forall i, (lo <= i <= hi)%Z -> i <> i0 -> i <> (i0 + 1)%Z -> f i = 0) -> sumZ lo hi f = f i0 + f (i0 + 1)%Z.
Proof.
  intros H H' Z0. rewrite (sumZ_restrict lo hi i0 (i0 + 1)); try lia.
  - unfold sumZ. replace (i0 + 1 + 1 - i0)%Z with 2%Z by lia. simpl. lra.
  - intros; apply Z0; lia.
Qed.
Section Ends.
Variables (U : Z -> R) (k p : Z) (u : R) (m0 j0 : Z).
Hypothesis Hp : (1 <= p)%Z.
Hypothesis HB : forall i, B U k (Z.to_nat p) i u = if (i =? m0)%Z then 1 else 0.
Hypothesis HB1 : forall i, B U k (Z.to_nat (p - 1)) i u = if (i =? j0)%Z then 1 else 0.
Hypothesis Hm : (k - p <= m0 <= k)%Z.
Hypothesis Hj : (k - p + 1 <= j0 <= k)%Z.
Lemma end_value P : sumZ (k - p) k (fun i => gder U k p i 0 u * P i) = P m0.
Proof.
  rewrite (sumZ_pick _ _ _ m0); auto; [|intros i Hi Ne]; rewrite gder_0, HB; [rewrite Z.eqb_refl; lra|]. destruct (Z.eqb_spec i m0); [lia|lra].
Qed.
Lemma gder1 i : gder U k p i 1 u = if (i =? j0)%Z then IZR p / (U (j0 + p)%Z - U j0) else if (i =? j0 - 1)%Z then - (IZR p / (U (j0 + p)%Z - U j0)) else 0.
Proof.
  unfold gder. change (Z.of_nat 1) with 1%Z. cbn [ffact]. replace (1 * (p - Z.of_nat 0))%Z with p by lia.
  unfold sumZ. replace (1 + 1 - 0)%Z with 2%Z by lia. change (Z.to_nat 2) with 2%nat. cbn [sumN]. rewrite !HB1. cbn [ac]. change (Z.of_nat 0) with 0%Z.
  change (0 + 1)%Z with 1%Z. change (0 - 1)%Z with (-1)%Z. change (1 - 1)%Z with 0%Z. cbn [Z.eqb].
  destruct (Z.eqb_spec (i + 0) j0), (Z.eqb_spec (i + 1) j0), (Z.eqb_spec i j0), (Z.eqb_spec i (j0 - 1)); try lia; unfold Rdiv.
  - replace (i + 0 + p - 0)%Z with (j0 + p)%Z by lia. replace (i + 0)%Z with j0 by lia. ring.
  - replace (i + 1 + p - 0)%Z with (j0 + p)%Z by lia. replace (i + 1)%Z with j0 by lia. ring.
  - ring.
Qed.
Lemma end_slope P : sumZ (k - p) k (fun i => gder U k p i 1 u * P i) = IZR p / (U (j0 + p)%Z - U j0) * (P j0 - P (j0 - 1)%Z).
Proof.
  rewrite (sumZ_pick2 _ _ _ (j0 - 1)); try lia.
  - replace (j0 - 1 + 1)%Z with j0 by lia. rewrite !gder1, !Z.eqb_refl. destruct (Z.eqb_spec (j0 - 1) j0); [lia|]. unfold Rdiv. ring.
  - intros i Hi N1 N2. rewrite gder1. destruct (Z.eqb_spec i j0); [lia|]. destruct (Z.eqb_spec i (j0 - 1)); [lia|]. ring.
Qed.
End Ends.

Section Curve.
Variables (nrb : nurbs Rn) (A : axis Rn).
Hypothesis W : wf_nurbs nrb.
Hypothesis EA : n_axes nrb = [A].
Let U := a_knots A. Let p := a_deg A. Let n := (a_size A - 1)%Z.
Lemma curve_wf : (1 <= p)%Z /\ wf_knots n p U.
Proof.
  destruct W as [_ [Wa _]]. unfold spec_axes in Wa. rewrite EA in Wa. inversion Wa as [|? ? H _]; subst. exact H.
Qed.
Lemma end_gradient x fields nc F k u m0 j0 : good_args (spec_axes nrb) [x] -> field_of nrb fields nc F -> active n p U u k ->
  (forall i, B U k (Z.to_nat p) i u = if (i =? m0)%Z then 1 else 0) ->
  (forall i, B U k (Z.to_nat (p - 1)) i u = if (i =? j0)%Z then 1 else 0) ->
  (k - p <= m0 <= k)%Z -> (k - p + 1 <= j0 <= k)%Z -> (m0 = j0 \/ m0 = j0 - 1)%Z ->
  n_weights (N:=Rn) nrb [m0] <> 0 ->
  forall junk junk2, exists G, gradient (N:=Rn) junk junk2 nrb fields [Some x] false = Ok G /\
  forall i c, (0 <= i < v_len x)%Z -> v_get x i = u ->
    G [i] c [0%Z] = IZR p / (U (j0 + p)%Z - U j0) * (n_weights (N:=Rn) nrb [if Z.eqb m0 j0 then j0 - 1 else j0]%Z / n_weights (N:=Rn) nrb [m0]) * (F [j0] c - F [j0 - 1]%Z c).
Proof.
  intros G HF Ak HB HB1 Hm Hj Hmj Hw junk junk2. destruct curve_wf as [Hp WU]. destruct (field_of_ok _ _ _ _ HF) as [EF Hnc].
  eexists. split; [apply (der_core_ok junk junk2 nrb 1 fields [x] nc F false); auto; first [rewrite EA; simpl; lia|lia|discriminate]|].
  intros i c Hi Eu. cbn [snd]. pose proof (der_gD junk junk2 nrb [x] [i] (fun a => F a c) [0%Z] W) as E. cbn [length] in E. change (Z.of_nat 1) with 1%Z in E.
  assert (HD : dirs (length (n_axes nrb)) [0%Z]) by (rewrite EA; repeat constructor; simpl; lia).
  rewrite E; auto; [|rewrite EA; simpl; lia|constructor; [lia|constructor]]. clear E.
  assert (SA : spec_axes nrb = [spec_ax A]) by (unfold spec_axes; rewrite EA; reflexivity). rewrite SA. cbn [params]. change (T Rn) with R in *. rewrite Eu.
  unfold gD. cbn [spans_at]. destruct W as [_ [Wa _]]. rewrite SA in Wa. inversion Wa as [|? ? WA _]; subst.
  rewrite (span1_eq (spec_ax A) _ k WA Ak).
  unfold Qd. cbn [map rev app]. change (Z.of_nat (Z.to_nat 0) + 1)%Z with 1%Z. cbn [quot]. unfold q1, q0, ev, Pd. cbn [length cnts repeat incr Z.to_nat]. cbn [Hd spec_ax x_U x_p x_n].
  fold U p. change (Z.to_nat (1 - 1)) with O. cbn [incr].
  rewrite !(end_value U k p (v_get x i) m0) by auto. rewrite !(end_slope U k p (v_get x i) j0) by auto.
  unfold n_weights in *. change (T Rn) with R in *. set (r := IZR p / (U (j0 + p)%Z - U j0)).
  destruct Hmj as [->| ->].
  - rewrite Z.eqb_refl. field. auto.
  - destruct (Z.eqb_spec (j0 - 1) j0); [lia|]. field. auto.
Qed.
End Curve.
Theorem start_tangent nrb A x fields nc F : wf_nurbs nrb -> n_axes nrb = [A] -> good_args (spec_axes nrb) [x] -> field_of nrb fields nc F ->
  let U := a_knots A in let p := a_deg A in
  (forall j, (1 <= j <= p)%Z -> U j = U p) -> n_weights (N:=Rn) nrb [0%Z] <> 0 ->
  forall junk junk2, exists G, gradient (N:=Rn) junk junk2 nrb fields [Some x] false = Ok G /\
  forall i c, (0 <= i < v_len x)%Z -> v_get x i = U p ->
    G [i] c [0%Z] = IZR p / (U (p + 1)%Z - U p) * (n_weights (N:=Rn) nrb [1%Z] / n_weights (N:=Rn) nrb [0%Z]) * (F [1%Z] c - F [0%Z] c).
Proof.
  intros W EA G HF U p Hc Hw junk junk2. destruct (curve_wf nrb A W EA) as [Hp WU]. fold p U in Hp, WU.
  pose proof (wf_first _ _ _ WU) as H1. pose proof (wf_n _ _ _ WU) as Hn.
  destruct (end_gradient nrb A W EA x fields nc F p (U p) 0 1 G HF) with (junk := junk) (junk2 := junk2) as (g & E & H); fold U p; try lia; auto.
  - split; [lia|left; split; [apply Rle_refl|exact H1]].
  - intros i. rewrite (B_right_end U p (Z.to_nat p) (U p) (Z.to_nat p)); [|lia|exact H1|intros j Hj; apply Hc; lia]. replace (p - Z.of_nat (Z.to_nat p))%Z with 0%Z by lia. reflexivity.
  - intros i. rewrite (B_right_end U p (Z.to_nat p) (U p) (Z.to_nat (p - 1))); [|lia|exact H1|intros j Hj; apply Hc; lia]. replace (p - Z.of_nat (Z.to_nat (p - 1)))%Z with 1%Z by lia. reflexivity.
  - exists g. split; auto. intros i c Hi Eu. rewrite (H i c Hi Eu). cbn [Z.eqb]. fold U p. rewrite (Hc 1%Z) by lia. replace (1 + p)%Z with (p + 1)%Z by lia. reflexivity.
Qed.
Theorem end_tangent nrb A x fields nc F : wf_nurbs nrb -> n_axes nrb = [A] -> good_args (spec_axes nrb) [x] -> field_of nrb fields nc F ->
  let U := a_knots A in let p := a_deg A in let n := (a_size A - 1)%Z in
  (forall j, (n + 1 <= j <= n + p)%Z -> U j = U (n + 1)%Z) -> n_weights (N:=Rn) nrb [n] <> 0 ->
  forall junk junk2, exists G, gradient (N:=Rn) junk junk2 nrb fields [Some x] false = Ok G /\
  forall i c, (0 <= i < v_len x)%Z -> v_get x i = U (n + 1)%Z ->
    G [i] c [0%Z] = IZR p / (U (n + 1)%Z - U n) * (n_weights (N:=Rn) nrb [n - 1]%Z / n_weights (N:=Rn) nrb [n]) * (F [n] c - F [n - 1]%Z c).
Proof.
  intros W EA G HF U p n Hc Hw junk junk2. destruct (curve_wf nrb A W EA) as [Hp WU]. fold p U n in Hp, WU.
  pose proof (wf_last _ _ _ WU) as H1. pose proof (wf_n _ _ _ WU) as Hn.
  destruct (end_gradient nrb A W EA x fields nc F n (U (n + 1)%Z) n n G HF) with (junk := junk) (junk2 := junk2) as (g & E & H); fold U p n; try lia; auto.
  - split; [lia|right; auto].
  - intros i. apply (B_left_end U n (Z.to_nat p)); [lia|exact H1|intros j Hj; apply Hc; lia].
  - intros i. apply (B_left_end U n (Z.to_nat p)); [lia|exact H1|intros j Hj; apply Hc; lia].
  - exists g. split; auto. intros i c Hi Eu. rewrite (H i c Hi Eu). fold U p n. rewrite Z.eqb_refl. rewrite (Hc (n + p)%Z) by lia. reflexivity.
Qed.
