(** C85: accuracy of evaluation in IEEE double precision.  Vocabulary: SpecDouble.v ([dval], [finite], [b2]),
    SpecRound.v ([mild_axis], [mild_arg], [mild_weights], [mild_comp], [real_pt], [effort]). *)
From Coq Require Import ZArith Reals List Bool SpecFloat Lia Lra.
From Verif Require Import Num Loop Spec ModelBspline ModelBSp ModelNurbs ModelFloat SpecNurbs SpecDouble SpecRound ProofRound ProofRound2 ProofRound3 ProofRound4 ProofRound7 ExTac PropDouble.
Import ListNotations.
Local Open Scope R_scope.

(** ** C85: every computed coordinate and field value is a finite double close to the exact one *)
(** M bounds the coordinate (or field) c over the control points; effort = prod(p+1) + sum(6p+1). *)
Theorem C85_accuracy : forall junk junk2 junk3 junkS nrb xs (fields : bool),
  (length (n_axes nrb) <= 3)%nat -> Forall mild_axis (n_axes nrb) -> Forall2 mild_arg (n_axes nrb) xs -> mild_weights nrb ->
  exists C F, call (N:=Dn) junk junk2 junk3 junkS nrb (map Some xs) (if fields then FYes else FNo) = Ok (C, F) /\
    (if fields then F = Some (fun idx c => C idx (4 + c)%Z) else F = None) /\
    forall idx c M, Forall2 (fun x i => (0 <= i < v_len x)%Z) xs idx -> 0 <= M <= b2 500 -> mild_comp nrb c M ->
      finite (C idx c) /\ Rabs (dval (C idx c) - real_pt nrb c (real_params xs idx)) <= b2 (-49) * effort (n_axes nrb) * M + b2 (-900).
Proof. exact call_double. Qed.
Print Assumptions C85_accuracy.

(** A rational quadratic curve with coordinates that are not doubles before rounding (0.1, 0.7), evaluated at
    0.1 and 0.3. *)
Definition arc : nurbs Dn :=
  mkNurbs (N:=Dn) [mkAxis (N:=Dn) 3 6 (dl (ints [0; 0; 0; 1; 1; 1]%Z))] 4
    (fun idx c => let i := nth 0%nat idx 0%Z in
       if (c =? 3)%Z then dl [n1 Dn; dec 5 1; n1 Dn] i else dl [dec 1 1; dec 3 1; dec 7 1] i).
Definition arc_at : vec Dn := mkVec (N:=Dn) 2 (dl [dec 1 1; dec 3 1]).
Lemma fin_by x : valid_binary 53 1024 x && match x with S754_zero _ | S754_finite _ _ _ => true | _ => false end = true -> finite x.
Proof. intros H. apply andb_true_iff in H. destruct H as [H1 H2]. split; auto. destruct x; auto; discriminate. Qed.
Lemma le_by x y : finite x -> finite y -> SFleb x y = true -> dval x <= dval y.
Proof. intros Fx Fy H. apply leb_ok; auto. Qed.
Ltac fin := apply fin_by; vm_compute; reflexivity.
Lemma dval_zero : dval (n0 Dn) = 0.
Proof. reflexivity. Qed.
Lemma arc_knot i : (0 <= i < 6)%Z -> dl (ints [0; 0; 0; 1; 1; 1]%Z) i = if (i <? 3)%Z then dbl_of_Z 0 else dbl_of_Z 1.
Proof. intros H. enumz i 0%Z 5%Z; reflexivity. Qed.
Lemma dv1 : dval (dbl_of_Z 1) = 1.
Proof. exact dval_one. Qed.
Lemma dv0 : dval (dbl_of_Z 0) = 0.
Proof. reflexivity. Qed.
Lemma arc_axis : mild_axis (mkAxis (N:=Dn) 3 6 (dl (ints [0; 0; 0; 1; 1; 1]%Z))).
Proof.
  assert (K : forall i, (0 <= i < 6)%Z -> dval (dl (ints [0; 0; 0; 1; 1; 1]%Z) i) = if (i <? 3)%Z then 0 else 1).
  { intros i Hi. rewrite arc_knot by auto. destruct (i <? 3)%Z; [apply dv0|apply dv1]. }
  split; [split; [cbn; unfold a_deg; cbn; lia|]|].
  { change (wf_knots 2 2 (fun i => dval (dl (ints [0; 0; 0; 1; 1; 1]%Z) i))). constructor; try lia.
    - intros i j Hi Hij Hj. rewrite !K by lia. destruct (Z.ltb_spec i 3), (Z.ltb_spec j 3); try lra. lia.
    - rewrite !K by lia. cbn. lra.
    - rewrite !K by lia. cbn. lra. }
  split; [unfold a_deg; cbn; lia|]. cbn [a_len a_knots]. split.
  - intros i Hi. split; [rewrite arc_knot by auto; destruct (i <? 3)%Z; fin|]. rewrite K by auto.
    apply Rle_trans with 1; [destruct (i <? 3)%Z; rewrite ?Rabs_R0, ?Rabs_R1; lra|]. rewrite <- b2_0. apply b2_le. lia.
  - intros i j Hi Hj. rewrite !K by auto. intros L. assert (b2 (-500) <= 1) by (rewrite <- b2_0; apply b2_le; lia).
    destruct (i <? 3)%Z, (j <? 3)%Z; lra.
Qed.
Example C85_example : (length (n_axes arc) <= 3)%nat /\ Forall mild_axis (n_axes arc) /\ Forall2 mild_arg (n_axes arc) [arc_at] /\ mild_weights arc /\
  (forall c, (0 <= c < 3)%Z -> mild_comp arc c 1) /\ effort (n_axes arc) = 16.
Proof.
  assert (NET : forall idx, in_net (map real_ax (n_axes arc)) idx -> exists i, idx = [i] /\ (0 <= i <= 2)%Z).
  { intros idx I. inversion I as [|? i ? l Hi Hl]; subst. inversion Hl; subst. exists i. auto. }
  assert (B0 : b2 (-100) <= / 2 /\ 1 <= b2 100).
  { split; [replace (/ 2) with (b2 (-1)) by (unfold b2; simpl; lra)|rewrite <- b2_0]; apply b2_le; lia. }
  assert (HALF : dval (dec 5 1) = / 2).
  { replace (dec 5 1) with (S754_finite false 4503599627370496 (-53)) by (vm_compute; reflexivity). cbn [dval].
    change (b2 (-53)) with uu. rewrite uu_val. lra. }
  assert (WT : forall i, (0 <= i <= 2)%Z -> dval (n_arr arc [i] 3%Z) = if (i =? 1)%Z then / 2 else 1).
  { intros i Hi. enumz i 0%Z 2%Z; [exact dval_one|exact HALF|exact dval_one]. }
  split; [cbn; lia|]. split; [constructor; [exact arc_axis|constructor]|]. split.
  { constructor; [|constructor]. split; [cbn; lia|]. cbn [v_len v_get arc_at]. intros i Hi.
    assert (F : finite (dl [dec 1 1; dec 3 1] i)) by (enumz i 0%Z 1%Z; fin). split; [exact F|].
    change (dval (dbl_of_Z 0) <= dval (dl [dec 1 1; dec 3 1] i) <= dval (dbl_of_Z 1)).
    split; apply le_by; auto; try fin; enumz i 0%Z 1%Z; vm_compute; reflexivity. }
  split.
  { intros idx I. destruct (NET idx I) as (i & -> & Hi). split; [enumz i 0%Z 2%Z; fin|]. rewrite WT by auto. destruct (i =? 1)%Z; lra. }
  split; [|cbn; unfold effort; cbn; unfold a_deg; cbn; reflexivity].
  intros c Hc idx I. destruct (NET idx I) as (i & -> & Hi).
  assert (E : n_arr arc [i] c = dl [dec 1 1; dec 3 1; dec 7 1] i) by (cbn; destruct (Z.eqb_spec c 3); [lia|reflexivity]). rewrite E.
  split; [enumz i 0%Z 2%Z; fin|]. rewrite WT by auto.
  assert (P : 0 <= dval (dl [dec 1 1; dec 3 1; dec 7 1] i)) by (rewrite <- dv0; apply le_by; [fin|enumz i 0%Z 2%Z; fin|enumz i 0%Z 2%Z; vm_compute; reflexivity]).
  rewrite Rabs_right by lra. rewrite Rmult_1_l.
  enumz i 0%Z 2%Z; [cbn [Z.eqb]; rewrite <- dv1|cbn [Z.eqb Pos.eqb]; rewrite <- HALF|cbn [Z.eqb Pos.eqb]; rewrite <- dv1]; apply le_by; try fin; vm_compute; reflexivity.
Qed.
