(** Joining (C58, C59, C118).  Vocabulary: SpecJoin.v ([continues], [near], [top_weight]), SpecCompat.v ([moved], [joinable]). *)
From Coq Require Import ZArith Reals QArith List Lia Lra Bool.
From Verif Require Import Num Loop ModelBspline ModelBSp ModelNurbs ModelRemove ModelIga ModelCad Spec SpecElev SpecCompat SpecJoin SumZ BPiece BLink ProofSpan
  SpecNurbs ProofNet ProofCall ProofNurbs ProofInit ProofRuled ProofJoin ProofJoin2 ProofJoin3 ExTac PropNurbs PropRefuted PropRemove PropCompat ProofCutJoin.
Import ListNotations.
Local Open Scope R_scope.

(** ** C58: both pieces are kept *)
(** The joined object has the larger degree and the domain [lo1, hi1 + hi2] along the axis; it is the
    first object on the first part and the second, shifted by hi1, on the second part, within the
    tolerance of the [t] knots removed at the joint, [t] less than the degree.  For degree 1 nothing
    is removed and the object is exact. *)
Theorem C58_join : forall junk junk2 nrb1 nrb2 d a L (lo hi : nat -> R) deg p, wf_nurbs nrb1 -> wf_nurbs nrb2 -> continues nrb1 nrb2 d a L lo hi deg p ->
  let A1 := get_axis nrb1 a in let A2 := get_axis nrb2 a in
  exists out t, join (N:=Rn) sqrt junk junk2 nrb1 nrb2 (Z.of_nat a) = Ok out /\ wf_nurbs out /\ n_comp out = n_comp nrb1 /\ length (n_axes out) = d /\
   (let B := get_axis out a in a_deg B = p /\ a_lo B = a_lo A1 /\ a_hi B = a_hi A1 + a_hi A2) /\
   (forall b, In b L -> let B := get_axis out b in open_axis B /\ a_deg B = deg b /\ a_lo B = lo b /\ a_hi B = hi b) /\ (0 <= t <= p - 1)%Z /\
   let tol := IZR t * (/ 1000000000 * top_weight nrb1) in
   (forall us1 us, in_box (spec_axes nrb1) us1 -> moved nrb1 L lo hi us1 us -> in_box (spec_axes out) us /\
      forall c, (0 <= c < n_comp nrb1)%Z -> near out nrb1 c us us1 tol) /\
   (forall us2 us, in_box (spec_axes nrb2) us2 -> moved nrb2 L lo hi us2 us -> let us' := lset a (nth a us2 0 + a_hi A1) us in in_box (spec_axes out) us' /\
      forall c, (0 <= c < n_comp nrb1)%Z -> near out nrb2 c us' us2 tol).
Proof. exact join_user. Qed.
Print Assumptions C58_join.
(** A quadratic on [0,2] followed by a polyline on [0,1] (degree raised to 2) that starts where it ends. *)
Definition exM : nurbs Rn := mkNurbs [mkAxis (N:=Rn) 3 5 exW] 4 (fun idx c => if (c =? 3)%Z then 1 else IZR ((3 + nth 0 idx 0) * (1 + c))%Z).
Lemma exM_wf : wf_nurbs exM.
Proof. split; [simpl; lia|]. split; [|simpl; lia]. constructor; [|constructor]. split; [simpl; unfold a_deg; simpl; lia|exact exW_wf]. Qed.
Ltac j_ev := cbv [a_lo a_hi a_deg a_size a_len a_knots get_axis n_axes exQ exM exU exW arr nth Z.to_nat Pos.to_nat Pos.iter_op Init.Nat.add Z.add Z.sub Z.opp Z.pos_sub Pos.add Pos.succ Pos.pred_double Z.pred_double Z.succ_double Z.double].
Ltac j_apart := first [left; lra | right; unfold Rabs; destruct (Rcase_abs _); lra].
Example C58_example : wf_nurbs exQ /\ wf_nurbs exM /\ continues exQ exM 1 0 [] (fun _ => 0) (fun _ => 0) (fun _ => 0%Z) 2.
Proof.
  split; [exact exQ_wf|]. split; [exact exM_wf|]. split.
  - lia.
  - reflexivity.
  - reflexivity.
  - split; try (intros; contradiction); [intros nrb [<-|[<-|[]]]; reflexivity|constructor].
  - intros j j' Hj Hj'. cbn in Hj, Hj'. enumz j 0%Z 6%Z; enumz j' 0%Z 6%Z; j_ev; j_apart.
  - intros j j' Hj Hj'. cbn in Hj, Hj'. enumz j 0%Z 4%Z; enumz j' 0%Z 4%Z; j_ev; j_apart.
  - reflexivity.
  - left. reflexivity.
  - right. split; [exact exL_open|]. split; [|left]; cbn; unfold a_deg; cbn; lia.
  - reflexivity.
  - intros us1 us2 v1 v2 c I1 I2 M1 M2 _ E1 E2 Hc.
    destruct us1 as [|x1 [|? ?]]; [inversion I1| |inversion I1 as [|? ? ? ? _ K]; inversion K].
    destruct us2 as [|x2 [|? ?]]; [inversion I2| |inversion I2 as [|? ? ? ? _ K]; inversion K]. cbn [nth] in E1, E2.
    change [x1] with (lins 0%nat x1 []). change [x2] with (lins 0%nat x2 []).
    rewrite (hom_lins exQ 0 c x1 []), (hom_lins exM 0 c x2 []) by (cbn; lia). subst x1 x2. rewrite a_hi_eq, a_lo_eq.
    rewrite curve_right_end, curve_left_end.
    + cbn in Hc. enumz c 0%Z 3%Z; reflexivity.
    + exact exW_wf.
    + intros j Hj. apply (proj1 (proj1 exL_open)). change (a_deg (get_axis exM 0)) with 1%Z in Hj. change (a_deg (get_axis exL 0)) with 1%Z. lia.
    + exact exU_wf.
    + intros j Hj. apply (proj2 (proj1 exQ_open)). lia.
Qed.

(** ** C118: an object cut in two is joined again *)
(** slice, slice, remap of the second piece to start at 0, join. *)
Theorem C118_cut_join : forall junk1 junk2 junk3 junk4 nrb a u, wf_nurbs nrb -> cuttable nrb a u ->
  let A := get_axis nrb a in
  exists first second second' out t,
    slice (N:=Rn) junk1 nrb (Z.of_nat a) None (Some u) = Ok first /\ slice (N:=Rn) junk2 nrb (Z.of_nat a) (Some u) None = Ok second /\
    remap (N:=Rn) second (Z.of_nat a) (Some 0) (Some (a_hi A - u)) = Ok second' /\
    join (N:=Rn) sqrt junk3 junk4 first second' (Z.of_nat a) = Ok out /\
    wf_nurbs out /\ n_comp out = n_comp nrb /\ length (n_axes out) = length (n_axes nrb) /\
    (forall b, (b < length (n_axes nrb))%nat -> let B := get_axis out b in let B0 := get_axis nrb b in a_deg B = a_deg B0 /\ a_lo B = a_lo B0 /\ a_hi B = a_hi B0) /\
    (0 <= t <= a_deg A - 1)%Z /\
    forall us, in_box (spec_axes nrb) us -> in_box (spec_axes out) us /\
      forall c, (0 <= c < n_comp nrb)%Z -> near out nrb c us us (IZR t * (/ 1000000000 * hom nrb (n_comp nrb - 1) (lset a u (map a_hi (n_axes nrb))))).
Proof. exact cut_join. Qed.
Print Assumptions C118_cut_join.
(** exS cut along its unclamped axis, between knots. *)
Example C118_example : wf_nurbs exS /\ cuttable exS 1 (5 / 2).
Proof.
  split; [exact exS_wf|]. split.
  - cbn. lia.
  - intros b Hb Hne. cbn in Hb. assert (b = 0)%nat as -> by lia. exact exQ_open.
  - intros b Hb j j' Hj Hj'. cbn in Hb. destruct b as [|[|b]]; [| |lia]; cbn in Hj, Hj'.
    + enumz j 0%Z 6%Z; enumz j' 0%Z 6%Z; unfold exS; j_ev; j_apart.
    + enumz j 0%Z 7%Z; enumz j' 0%Z 7%Z; unfold exS, exV; j_ev; j_apart.
  - apply (proj1 (Forall_forall _ _) exS_cont). right. left. reflexivity.
  - unfold exS, exV; j_ev; lra.
  - intros j Hj. cbn in Hj. enumz j 0%Z 7%Z; unfold exS, exV; j_ev; j_apart.
Qed.

(** ** C59: a second piece whose domain does not start at 0 *)
(** A quadratic on [0,1] and one on [1,3] that meet at the point 2.  The joined curve is not the second
    one under any of the readings: the domain moved to [2,4], as the code does; continued over [1,3]; stretched over
    the domain [1,4] of the result. *)
Theorem C59_domain_refuted : exists A B out, wfQ A && wfQ B = true /\ join (N:=Qn) Qsqrt zj (fun _ _ => 0%Q) A B 0 = Ok out /\
  map (fun t => value A [t] 0) [0; 1#2; 1]%Q = map (fun t => value out [t] 0) [0; 1#2; 1]%Q /\
  value A [1%Q] 0 = value B [1%Q] 0 /\ value out [4%Q] 0 = value B [3%Q] 0 /\ value B [2%Q] 0 = Some (7 # 2)%Q /\
  value out [3%Q] 0 = Some (8 # 3)%Q /\ value out [2%Q] 0 = Some (25 # 6)%Q /\ value out [5 # 2]%Q 0 = Some (31 # 8)%Q.
Proof.
  set (A := crv 3 [0;0;0;1;1;1]%Q [0;1;2]%Q). set (B := crv 4 [1;1;1;2;3;3;3]%Q [2;6;1;0]%Q).
  exists A, B, (got (join (N:=Qn) Qsqrt zj (fun _ _ => 0%Q) A B 0)). split; [vm_compute; reflexivity|]. split; [apply got_ok; vm_compute; reflexivity|].
  repeat split; vm_compute; reflexivity.
Qed.
Print Assumptions C59_domain_refuted.
