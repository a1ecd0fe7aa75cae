(** Variation diminution on the closed domain; curves; convex hulls. *)
From Coq Require Import ZArith Reals List Lia Lra Bool.
From Verif Require Import Num Loop ModelBspline ModelBSp ModelNurbs Spec SumZ BPiece BLink BInsert BRep BDer SpecNurbs ProofNet ProofCall ProofNurbs ProofGeom ProofGeom2
  ProofInsert SpecShape ProofShape.
Import ListNotations.
Local Open Scope R_scope.

Lemma sign_near f x l : derivable_pt_lim f x l -> f x <> 0 -> exists d, 0 < d /\ forall y, Rabs (y - x) < d -> 0 < f x * f y.
Proof.
  intros D N. assert (C : continuity_pt f x) by (apply derivable_continuous_pt; exists l; exact D).
  destruct (C (Rabs (f x)) (Rabs_pos_lt _ N)) as (d & Hd & H). exists d. split; [exact Hd|]. intros y Hy.
  destruct (Req_dec x y) as [<-|Ne]; [nra|]. specialize (H y). cbv [dist Base R_met R_dist] in H. simpl in H. unfold R_dist in H.
  specialize (H (conj (conj I Ne) Hy)). revert H. unfold Rabs. destruct (Rcase_abs (f y - f x)), (Rcase_abs (f x)); intros; nra.
Qed.
Lemma pc_derive U k p P u : (0 <= p)%Z -> span_ok U k (Z.to_nat p) -> exists l, derivable_pt_lim (pc U k p P) u l.
Proof.
  intros Hp S. exists (sumZ (k - p) k (fun i => P i * gder U k p i 1 u)). unfold pc.
  apply (dl_sumZ (k - p) k (fun i x => B U k (Z.to_nat p) i x * P i) (fun i => P i * gder U k p i 1 u)).
  intros i Hi. eapply dl_ext; [|apply (dl_scal (P i)); apply (gder_derive U k p i 0 u Hp S)].
  intros y. cbv beta. rewrite gder_0. ring.
Qed.
Lemma near_left n p U P b : wf_knots n p U -> curve n p U P (U p) <> 0 -> U p < b ->
  exists x, U p < x < b /\ x < U (n + 1)%Z /\ 0 < curve n p U P (U p) * curve n p U P x.
Proof.
  intros W N Hb. pose proof (wf_p _ _ _ W) as Hp. pose proof (wf_n _ _ _ W) as Hn. pose proof (wf_first _ _ _ W) as H1.
  assert (A : forall x, U p <= x < U (p + 1)%Z -> curve n p U P x = pc U p p P x).
  { intros x Hx. apply curve_piece; auto. split; [lia|left; lra]. }
  destruct (pc_derive U p p P (U p) Hp) as [l D]; [eapply wf_span_ok; eauto; lia|]. rewrite A in * by lra.
  destruct (sign_near _ _ _ D N) as (d & Hd & H). set (e := Rmin (d / 2) (Rmin ((b - U p) / 2) ((U (p + 1)%Z - U p) / 2))).
  assert (E1 : e <= d / 2) by apply Rmin_l. assert (E2 : e <= (b - U p) / 2) by (eapply Rle_trans; [apply Rmin_r|apply Rmin_l]).
  assert (E3 : e <= (U (p + 1)%Z - U p) / 2) by (eapply Rle_trans; [apply Rmin_r|apply Rmin_r]). assert (E0 : 0 < e) by (repeat apply Rmin_pos; lra).
  assert (U (p + 1)%Z <= U (n + 1)%Z) by (apply (wf_mono _ _ _ W); lia).
  exists (U p + e). split; [lra|]. split; [lra|]. rewrite (A (U p + e)) by lra. apply H. replace (U p + e - U p) with e by ring. rewrite Rabs_right; lra.
Qed.
Lemma near_right n p U P a : wf_knots n p U -> curve n p U P (U (n + 1)%Z) <> 0 -> a < U (n + 1)%Z ->
  exists x, a < x < U (n + 1)%Z /\ U p < x /\ 0 < curve n p U P (U (n + 1)%Z) * curve n p U P x.
Proof.
  intros W N Ha. pose proof (wf_p _ _ _ W) as Hp. pose proof (wf_n _ _ _ W) as Hn. pose proof (wf_last _ _ _ W) as H1.
  assert (A : forall x, U n <= x <= U (n + 1)%Z -> curve n p U P x = pc U n p P x).
  { intros x Hx. apply curve_piece; auto. split; [lia|]. destruct (Req_dec x (U (n + 1)%Z)); [right; auto|left; lra]. }
  destruct (pc_derive U n p P (U (n + 1)%Z) Hp) as [l D]; [eapply wf_span_ok; eauto; lia|]. rewrite A in * by lra.
  destruct (sign_near _ _ _ D N) as (d & Hd & H). set (e := Rmin (d / 2) (Rmin ((U (n + 1)%Z - a) / 2) ((U (n + 1)%Z - U n) / 2))).
  assert (E1 : e <= d / 2) by apply Rmin_l. assert (E2 : e <= (U (n + 1)%Z - a) / 2) by (eapply Rle_trans; [apply Rmin_r|apply Rmin_l]).
  assert (E3 : e <= (U (n + 1)%Z - U n) / 2) by (eapply Rle_trans; [apply Rmin_r|apply Rmin_r]). assert (E0 : 0 < e) by (repeat apply Rmin_pos; lra).
  assert (U p <= U n) by (apply (wf_mono _ _ _ W); lia).
  exists (U (n + 1)%Z - e). split; [lra|]. split; [lra|]. rewrite (A (U (n + 1)%Z - e)) by lra. apply H.
  replace (U (n + 1)%Z - e - U (n + 1)%Z) with (- e) by ring. rewrite Rabs_Ropp, Rabs_right; lra.
Qed.
(** Moving one parameter without changing the sign there. *)
Lemma move_alt m g t j0 x : (j0 <= m)%nat -> alt_at m g t -> 0 < g (t j0) * g x ->
  ((j0 < m)%nat -> x < t (S j0)) -> ((0 < j0)%nat -> t (j0 - 1)%nat < x) ->
  exists t', alt_at m g t' /\ (forall j, (j <= m)%nat -> t' j = t j \/ (j = j0 /\ t' j = x)) /\ t' j0 = x /\ forall j, (j <= m)%nat -> g (t j) <> 0 -> 0 < g (t j) * g (t' j).
Proof.
  intros Hj [A1 A2] S Hr Hl. exists (fun j => if Nat.eq_dec j j0 then x else t j).
  assert (E0 : (if Nat.eq_dec j0 j0 then x else t j0) = x) by (destruct (Nat.eq_dec j0 j0); congruence).
  assert (K : forall j, (j <= m)%nat -> g (t j) <> 0 -> 0 < g (t j) * g (if Nat.eq_dec j j0 then x else t j)).
  { intros j Hjm N. destruct (Nat.eq_dec j j0) as [->|]; auto. nra. }
  split; [split|split; [|split; [exact E0|exact K]]].
  - intros j Hjm. specialize (A1 j Hjm). destruct (Nat.eq_dec (Datatypes.S j) j0) as [E|].
    + destruct (Nat.eq_dec j j0); [lia|]. specialize (Hl ltac:(lia)). replace (j0 - 1)%nat with j in Hl by lia. exact Hl.
    + destruct (Nat.eq_dec j j0) as [->|]; auto.
  - intros j Hjm. eapply sign_ne; [apply (A2 j Hjm)|apply K|apply K]; try lia; intros E; specialize (A2 j Hjm); rewrite E in A2; lra.
  - intros j Hjm. destruct (Nat.eq_dec j j0); auto.
Qed.
Theorem vd p n U P m t : wf_knots n p U -> (1 <= p)%Z -> (forall j, (j <= m)%nat -> in_domain n p U (t j)) ->
  alt_at m (curve n p U P) t -> (forall j, (j <= m)%nat -> curve n p U P (t j) <> 0) ->
  exists r, chosen m 0 n r /\ forall j, (j <= m)%nat -> 0 < curve n p U P (t j) * P (r j).
Proof.
  intros W Hp Ht A NZ. set (g := curve n p U P) in *.
  assert (Hdom : U p < U (n + 1)%Z).
  { pose proof (wf_last _ _ _ W). assert (U p <= U n) by (apply (wf_mono _ _ _ W); pose proof (wf_n _ _ _ W); lia). lra. }
  assert (Lo : forall j, (0 < j <= m)%nat -> U p < t j).
  { intros j Hj. destruct A as [A1 _]. specialize (A1 (j - 1)%nat ltac:(lia)). replace (S (j - 1)) with j in A1 by lia. destruct (Ht (j - 1)%nat ltac:(lia)). lra. }
  (* the left end *)
  assert (exists t1, alt_at m g t1 /\ (forall j, (j <= m)%nat -> U p < t1 j <= U (n + 1)%Z) /\ forall j, (j <= m)%nat -> 0 < g (t j) * g (t1 j)) as (t1 & B1 & B2 & B3).
  { destruct (Req_dec (t O) (U p)) as [E|E].
    - destruct (near_left n p U P (if Nat.eq_dec m 0 then U (n + 1)%Z else t 1%nat) W) as (x & X1 & X2 & X3).
      + rewrite <- E. apply NZ. lia.
      + destruct (Nat.eq_dec m 0); [auto|apply Lo; lia].
      + rewrite <- E in X3. destruct (move_alt m g t O x ltac:(lia) A X3) as (t' & C1 & C2 & C3 & C4).
        * intros H. destruct (Nat.eq_dec m 0); [lia|]. apply X1.
        * lia.
        * exists t'. split; auto. split.
          -- intros j Hj. destruct (C2 j Hj) as [Ej|[-> ->]]; [|lra]. destruct j; [rewrite C3; lra|]. rewrite Ej. split; [apply Lo; lia|apply Ht; auto].
          -- intros j Hj. apply C4; auto.
    - exists t. split; auto. split.
      + intros j Hj. destruct (Ht j Hj). destruct j; [lra|]. split; [apply Lo; lia|auto].
      + intros j Hj. specialize (NZ j Hj). nra. }
  (* the right end *)
  assert (N1 : forall j, (j <= m)%nat -> g (t1 j) <> 0). { intros j Hj E. specialize (B3 j Hj). rewrite E in B3. lra. }
  assert (Hi : forall j, (j < m)%nat -> t1 j < U (n + 1)%Z).
  { intros j Hj. destruct B1 as [B1 _]. specialize (B1 j Hj). destruct (B2 (S j) ltac:(lia)). lra. }
  assert (exists t2, alt_at m g t2 /\ (forall j, (j <= m)%nat -> U p < t2 j < U (n + 1)%Z) /\ forall j, (j <= m)%nat -> 0 < g (t1 j) * g (t2 j)) as (t2 & D1 & D2 & D3).
  { destruct (Req_dec (t1 m) (U (n + 1)%Z)) as [E|E].
    - destruct (near_right n p U P (if Nat.eq_dec m 0 then U p else t1 (m - 1)%nat) W) as (x & X1 & X2 & X3).
      + rewrite <- E. apply N1. lia.
      + destruct (Nat.eq_dec m 0); [auto|apply Hi; lia].
      + rewrite <- E in X3. destruct (move_alt m g t1 m x ltac:(lia) B1 X3) as (t' & C1 & C2 & C3 & C4).
        * lia.
        * intros H. destruct (Nat.eq_dec m 0); [lia|]. apply X1.
        * exists t'. split; auto. split.
          -- intros j Hj. destruct (Nat.eq_dec j m) as [->|]; [rewrite C3; lra|]. destruct (C2 j Hj) as [->|[? _]]; [|lia]. split; [apply B2; auto|apply Hi; lia].
          -- intros j Hj. apply C4; auto.
    - exists t1. split; auto. split.
      + intros j Hj. destruct (B2 j Hj). destruct (Nat.eq_dec j m) as [->|]; [lra|]. split; auto. apply Hi; lia.
      + intros j Hj. specialize (N1 j Hj). nra. }
  destruct (vd_inside p n U P m t2 W Hp D2 D1) as (r & Cr & Hr).
  { intros j Hj E. specialize (D3 j Hj). fold g in E. rewrite E in D3. lra. }
  exists r. split; auto. intros j Hj. eapply sign_trans; [apply B3; auto|]. eapply sign_trans; [apply D3; auto|]. apply Hr; auto.
Qed.

(** ** Curves *)
Lemma pt_pos nrb c idx : 0 < n_weights (N:=Rn) nrb idx -> n_arr nrb idx c = n_points (N:=Rn) nrb idx c * n_weights (N:=Rn) nrb idx.
Proof. unfold n_points, n_weights. change (ndiv Rn) with Rdiv. intros H. unfold Rdiv. rewrite Rmult_assoc, Rinv_l by lra. lra. Qed.
Lemma side_mul a b c d x y z w : w <> 0 -> side a b c d (x / w) (y / w) (z / w) * w = a * x + b * y + c * z + d * w.
Proof. intros H. unfold side. field. auto. Qed.
Theorem curve_variation nrb x j j2 j3 jS C F : wf_nurbs nrb -> length (n_axes nrb) = 1%nat -> positive_weights nrb ->
  good_args (spec_axes nrb) [x] -> (forall i i', (0 <= i < i')%Z -> (i' < v_len x)%Z -> v_get x i < v_get x i') ->
  call (N:=Rn) j j2 j3 jS nrb [Some x] FYes = Ok (C, Some F) ->
  forall a b c d k s, chosen k 0 (v_len x - 1) s ->
    (forall j, (j <= k)%nat -> side a b c d (C [s j] 0%Z) (C [s j] 1%Z) (C [s j] 2%Z) <> 0) ->
    alternate k (fun i => side a b c d (C [i] 0%Z) (C [i] 1%Z) (C [i] 2%Z)) s ->
  exists r, chosen k 0 (nth 0 (n_shape nrb) 0%Z - 1) r /\
    forall j, (j <= k)%nat -> 0 < side a b c d (C [s j] 0%Z) (C [s j] 1%Z) (C [s j] 2%Z) *
      side a b c d (n_points (N:=Rn) nrb [r j] 0) (n_points (N:=Rn) nrb [r j] 1) (n_points (N:=Rn) nrb [r j] 2).
Proof.
  intros W L Pw G Inc E a b c d k s Ck NZ Al. pose proof W as [_ [Wa _]].
  destruct (n_axes nrb) as [|A [|? ?]] eqn:EA; try discriminate L. 
  destruct (call_pt nrb [x] W G j j2 j3 jS) as (C0 & F0 & E0 & H). cbn [map] in E0. rewrite E in E0. injection E0 as <- <-.
  assert (SA : spec_axes nrb = [spec_ax A]) by (unfold spec_axes; rewrite EA; reflexivity).
  rewrite SA in *. inversion Wa as [|? ? WA _]; subst. destruct WA as [Hp WU]. set (ax := spec_ax A) in *.
  set (Q := fun i => a * n_arr nrb [i] 0%Z + b * n_arr nrb [i] 1%Z + c * n_arr nrb [i] 2%Z + d * n_arr nrb [i] 3%Z).
  inversion G as [|? ? ? ? [_ Gx] _]; subst.
  assert (HR : forall i, (0 <= i <= v_len x - 1)%Z -> exists w, 0 < w /\ side a b c d (C [i] 0%Z) (C [i] 1%Z) (C [i] 2%Z) * w = curve (x_n ax) (x_p ax) (x_U ax) Q (v_get x i)).
  { intros i Hi. assert (I : in_range [x] [i]) by (constructor; [lia|constructor]).
    assert (Bx : in_box (spec_axes nrb) (params [x] [i])) by (rewrite SA; eapply params_box; eauto).
    pose proof (weight_pos nrb _ W Pw Bx) as Hw. exists (hom nrb 3 (params [x] [i])). split; auto.
    rewrite (proj1 (H [i] 0%Z I)), (proj1 (H [i] 1%Z I)), (proj1 (H [i] 2%Z I)). unfold pt. rewrite side_mul by lra.
    unfold hom. rewrite SA. cbn [params tsum]. unfold curve, Q. rewrite <- !sumZ_scal, <- !sumZ_plus. apply sumZ_ext. intros; ring. }
  destruct (vd (x_p ax) (x_n ax) (x_U ax) Q k (fun j => v_get x (s j)) WU Hp) as (r & Cr & Hr).
  - intros j' Hj. apply Gx. destruct Ck as [Ck _]. specialize (Ck j' Hj). lia.
  - destruct Ck as [C1 C2]. split.
    + intros j' Hj. pose proof (C1 j' ltac:(lia)). pose proof (C1 (S j') ltac:(lia)). specialize (C2 j' Hj). apply Inc; lia.
    + intros j' Hj. destruct (HR (s j') (C1 j' ltac:(lia))) as (w & Hw & <-). destruct (HR (s (S j')) (C1 (S j') ltac:(lia))) as (w' & Hw' & <-).
      specialize (Al j' Hj). cbv beta in Al. assert (0 < w * w') by nra. nra.
  - intros j' Hj. destruct Ck as [C1 C2]. destruct (HR (s j') (C1 j' ltac:(lia))) as (w & Hw & <-). apply Rmult_integral_contrapositive_currified; [apply NZ; auto|lra].
  - exists r. split.
    + replace (nth 0 (n_shape nrb) 0%Z - 1)%Z with (x_n ax); [exact Cr|]. unfold n_shape. rewrite EA. reflexivity.
    + intros j' Hj. destruct Ck as [C1 C2]. specialize (Hr j' Hj). destruct (HR (s j') (C1 j' ltac:(lia))) as (w & Hw & E1). rewrite <- E1 in Hr.
      assert (In : in_net (spec_axes nrb) [r j']). { rewrite SA. constructor; [|constructor]. apply Cr; auto. }
      pose proof (Pw _ In) as Pr. set (sd := side a b c d (n_points (N:=Rn) nrb [r j'] 0) (n_points (N:=Rn) nrb [r j'] 1) (n_points (N:=Rn) nrb [r j'] 2)).
      assert (EQ : Q (r j') = sd * n_weights (N:=Rn) nrb [r j']).
      { unfold Q, sd, side. rewrite !(pt_pos nrb _ [r j'] Pr). fold (n_weights (N:=Rn) nrb [r j']).
        replace (n_points (N:=Rn) nrb [r j'] 3%Z * n_weights (N:=Rn) nrb [r j']) with (n_weights (N:=Rn) nrb [r j']). 2:{ rewrite <- pt_pos by auto. reflexivity. } ring. }
      rewrite EQ in Hr. set (f := side a b c d (C [s j'] 0%Z) (C [s j'] 1%Z) (C [s j'] 2%Z)) in *. set (q := n_weights (N:=Rn) nrb [r j']) in *.
      assert (K : 0 < (f * sd) * (w * q)) by (replace ((f * sd) * (w * q)) with (f * w * (sd * q)) by ring; exact Hr). change (T Rn) with R in *.
      assert (0 < w * q) by (apply Rmult_lt_0_compat; auto). nra.
Qed.
(** A direction in which the control points advance is one in which the curve advances. *)
Theorem curve_monotone nrb x j j2 j3 jS C F a b c : wf_nurbs nrb -> length (n_axes nrb) = 1%nat -> positive_weights nrb ->
  good_args (spec_axes nrb) [x] -> (forall i i', (0 <= i < i')%Z -> (i' < v_len x)%Z -> v_get x i < v_get x i') ->
  call (N:=Rn) j j2 j3 jS nrb [Some x] FYes = Ok (C, Some F) ->
  (forall i i', (0 <= i < i')%Z -> (i' < nth 0 (n_shape nrb) 0%Z)%Z ->
    side a b c 0 (n_points (N:=Rn) nrb [i] 0) (n_points (N:=Rn) nrb [i] 1) (n_points (N:=Rn) nrb [i] 2) <=
    side a b c 0 (n_points (N:=Rn) nrb [i'] 0) (n_points (N:=Rn) nrb [i'] 1) (n_points (N:=Rn) nrb [i'] 2)) ->
  forall i i', (0 <= i < i')%Z -> (i' < v_len x)%Z ->
    side a b c 0 (C [i] 0%Z) (C [i] 1%Z) (C [i] 2%Z) <= side a b c 0 (C [i'] 0%Z) (C [i'] 1%Z) (C [i'] 2%Z).
Proof.
  intros W L Pw G Inc E H i i' Hi Hi'. destruct (Rle_dec (side a b c 0 (C [i] 0%Z) (C [i] 1%Z) (C [i] 2%Z)) (side a b c 0 (C [i'] 0%Z) (C [i'] 1%Z) (C [i'] 2%Z))) as [|N]; auto. exfalso.
  assert (S0 : forall d x y z, side a b c d x y z = side a b c 0 x y z + d) by (intros; unfold side; ring).
  set (f := side a b c 0 (C [i] 0%Z) (C [i] 1%Z) (C [i] 2%Z)) in *. set (f' := side a b c 0 (C [i'] 0%Z) (C [i'] 1%Z) (C [i'] 2%Z)) in *.
  set (s := fun q : nat => match q with O => i | _ => i' end).
  destruct (curve_variation nrb x j j2 j3 jS C F W L Pw G Inc E a b c (- ((f + f') / 2)) 1 s) as (r & [Cr1 Cr2] & Hr).
  - split; [intros q Hq; destruct q; cbn [s]; lia|]. intros q Hq. replace q with O by lia. cbn [s]. lia.
  - intros q Hq. destruct q; cbn [s]; rewrite (S0 (- ((f + f') / 2))); [fold f|fold f']; lra.
  - intros q Hq. replace q with O by lia. cbn [s]. rewrite !(S0 (- ((f + f') / 2))). fold f f'. nra.
  - pose proof (Hr O ltac:(lia)) as H0. pose proof (Hr 1%nat ltac:(lia)) as H1. cbn [s] in H0, H1. rewrite !(S0 (- ((f + f') / 2))) in H0, H1. fold f in H0. fold f' in H1.
    pose proof (Cr1 O ltac:(lia)). pose proof (Cr1 1%nat ltac:(lia)). specialize (Cr2 O ltac:(lia)).
    specialize (H (r O) (r 1%nat) ltac:(lia) ltac:(lia)).
    match type of H with ?A <= ?B => set (P0 := A) in *; set (P1 := B) in * end. clearbody P0 P1 f f'. clear -N H0 H1 H.
    set (h := (f - f') / 2) in *. replace (f + - ((f + f') / 2)) with h in H0 by (unfold h; field). replace (f' + - ((f + f') / 2)) with (- h) in H1 by (unfold h; field).
    assert (0 < h) by (unfold h; lra). clearbody h. nra.
Qed.

(** ** Convex hull *)
Fixpoint tbas (axs : list axR) (idx : list Z) (us : list R) : R :=
  match axs, idx, us with
  | a :: axs', i :: idx', u :: us' => Nb (x_n a) (x_p a) (x_U a) i u * tbas axs' idx' us'
  | _, _, _ => 1
  end.
Lemma nsum_ext axs f g : (forall idx, in_net axs idx -> f idx = g idx) -> nsum axs f = nsum axs g.
Proof.
  revert f g. induction axs as [|a axs IH]; intros f g H; simpl; [apply H; constructor|]. apply sumZ_ext. intros i Hi. apply IH.
  intros idx Hx. apply H. constructor; auto.
Qed.
Lemma nsum_scal axs c f : nsum axs (fun idx => c * f idx) = c * nsum axs f.
Proof.
  revert f. induction axs as [|a axs IH]; intros f; simpl; auto. rewrite <- sumZ_scal. apply sumZ_ext. intros i Hi. apply (IH (fun idx => f (i :: idx))).
Qed.
Lemma tsum_nsum axs P us : length us = length axs -> tsum axs P us = nsum axs (fun idx => tbas axs idx us * P idx).
Proof.
  revert P us. induction axs as [|a axs IH]; intros P [|u us] H; try discriminate; simpl; [ring|]. apply sumZ_ext. intros i Hi.
  rewrite IH by (simpl in H; lia). rewrite <- nsum_scal. apply nsum_ext. intros idx Hx. ring.
Qed.
Lemma tbas_nonneg axs idx us : Forall wf_ax axs -> in_net axs idx -> in_box axs us -> 0 <= tbas axs idx us /\ (tbas axs idx us <> 0 -> near axs idx us).
Proof.
  intros W. revert idx us. induction W as [|a axs [Hp Wa] W IH]; intros idx us I D; inversion I as [|? y ? idx' Iy I']; inversion D as [|? y0 ? us' Dy D']; subst; simpl; [split; auto; lra|].
  destruct (IH _ _ I' D') as [A B]. destruct (active_exists _ _ _ _ Wa Dy) as [k Ak]. pose proof (active_in _ _ _ _ _ Wa Ak) as Au. pose proof (active_lt _ _ _ _ _ Wa Ak) as Al.
  rewrite (Nb_piece _ _ _ _ k) by auto. destruct Ak as [Hk _].
  pose proof (B_nonneg (x_U a) k (Z.to_nat (x_p a)) y y0 ltac:(eapply wf_span_ok; eauto) Au) as Bn. split; [apply Rmult_le_pos; auto|].
  intros N. split; [|apply B; intros E; apply N; rewrite E; ring].
  destruct (Z_lt_le_dec y (k - x_p a)); [exfalso; apply N; rewrite B_zero by lia; ring|]. destruct (Z_lt_le_dec k y); [exfalso; apply N; rewrite B_zero by lia; ring|].
  pose proof (wf_mono _ _ _ Wa) as M. assert (x_U a y <= x_U a k) by (apply M; lia). assert (x_U a (k + 1)%Z <= x_U a (y + x_p a + 1)%Z) by (apply M; lia). lra.
Qed.
Theorem hull nrb us : wf_nurbs nrb -> positive_weights nrb -> in_box (spec_axes nrb) us ->
  exists L, convex_near (spec_axes nrb) us L /\
  (forall c, pt nrb c us = nsum (spec_axes nrb) (fun idx => L idx * n_points (N:=Rn) nrb idx c)).
Proof.
  intros W Pw D. pose proof (weight_pos nrb us W Pw D) as Hw. pose proof W as [_ [Wa _]]. pose proof (in_box_length _ _ D) as Hl.
  set (w := hom nrb 3 us) in *. exists (fun idx => tbas (spec_axes nrb) idx us * n_weights (N:=Rn) nrb idx / w). split; [split; [|split]|].
  - intros idx Hx. destruct (tbas_nonneg _ _ _ Wa Hx D) as [A _]. pose proof (Pw idx Hx) as Pi. change (T Rn) with R in *.
    apply Rmult_le_pos; [apply Rmult_le_pos; [auto|left; exact Pi]|]. left. apply Rinv_0_lt_compat. auto.
  - intros idx Hx N. destruct (tbas_nonneg _ _ _ Wa Hx D) as [_ A]. apply A. intros E. apply N. rewrite E. unfold Rdiv. ring.
  - transitivity (w / w); [|field; lra]. unfold w at 2, hom. rewrite tsum_nsum by auto. unfold Rdiv at 2. rewrite Rmult_comm, <- nsum_scal. apply nsum_ext. intros idx Hx.
    unfold n_weights, Rdiv. change (T Rn) with R. ring.
  - intros c. unfold pt, hom at 1. fold w. rewrite tsum_nsum by auto. unfold Rdiv at 1. rewrite Rmult_comm, <- nsum_scal. apply nsum_ext. intros idx Hx.
    rewrite (pt_pos nrb c idx (Pw idx Hx)). unfold Rdiv. change (T Rn) with R. ring.
Qed.
Theorem call_hull nrb xs j j2 j3 jS C F : wf_nurbs nrb -> positive_weights nrb -> good_args (spec_axes nrb) xs ->
  call (N:=Rn) j j2 j3 jS nrb (map Some xs) FYes = Ok (C, Some F) ->
  forall idx, in_range xs idx -> exists L, convex_near (spec_axes nrb) (params xs idx) L /\
    (forall c, C idx c = nsum (spec_axes nrb) (fun i => L i * n_points (N:=Rn) nrb i c)) /\
    (forall c, F idx c = nsum (spec_axes nrb) (fun i => L i * (n_arr nrb i (4 + c)%Z / n_weights (N:=Rn) nrb i))).
Proof.
  intros W Pw G E idx I. destruct (call_pt nrb xs W G j j2 j3 jS) as (C0 & F0 & E0 & H). rewrite E in E0. injection E0 as <- <-.
  destruct (hull nrb (params xs idx) W Pw (params_box _ _ _ G I)) as (L & HL & K). exists L. split; auto. split; intros c.
  - rewrite (proj1 (H idx c I)). apply K.
  - rewrite (proj2 (H idx c I)). rewrite K. reflexivity.
Qed.
