(** Coons patches (C56, C57).  Vocabulary: SpecCompat.v ([joinable], [frac]), ProofCad.v ([shows]);
    [corner_val C u c] (ProofCoons.v): the point of C at u with weight one; for C57 PropRefuted.v. *)
From Coq Require Import ZArith Reals QArith List Lia Lra Bool.
From Verif Require Import Num Loop ModelBspline ModelBSp ModelNurbs ModelIga ModelCad Spec SpecElev SpecCompat SumZ BPiece BLink ProofSpan
  SpecNurbs ProofNet ProofCall ProofNurbs ProofGeom ProofGeom2 ProofCad ProofRuled ProofCoons ExTac PropNurbs PropCompat PropRefuted.
Import ListNotations.
Local Open Scope R_scope.

(** ** C56: the surface interpolates its four sides *)
(** The parameters of the sides are given as fractions of the domains.  C00, C01 are the sides u = first,
    last; C10, C11 the sides v = first, last. *)
Theorem C56_coons : forall j j2 j3 jS C00 C01 C10 C11 f00 f01 f10 f11 (lov hiv : nat -> R) degv (lou hiu : nat -> R) degu,
  shows C00 f00 -> shows C01 f01 -> shows C10 f10 -> shows C11 f11 ->
  joinable [C00; C01] 1 [0%nat] lov hiv degv -> joinable [C10; C11] 1 [0%nat] lou hiu degu ->
  (forall C, In C [C00; C01; C10; C11] -> n_arr C [0%Z] 3%Z = 1 /\ n_arr C [(a_size (get_axis C 0) - 1)%Z] 3%Z = 1) ->
  let at_ := fun C s => [frac (get_axis C 0) s] in
  (forall c, (0 <= c < 3)%Z -> f10 (at_ C10 0) c = f00 (at_ C00 0) c /\ f10 (at_ C10 1) c = f01 (at_ C01 0) c /\
                               f11 (at_ C11 0) c = f00 (at_ C00 1) c /\ f11 (at_ C11 1) c = f01 (at_ C01 1) c) ->
  exists srf g, coons (N:=Rn) j j2 j3 jS C00 C01 C10 C11 = Ok srf /\ shows srf g /\ length (n_axes srf) = 2%nat /\
    forall s c, 0 <= s <= 1 -> (0 <= c < 3)%Z -> let U := get_axis srf 0 in let V := get_axis srf 1 in
      g [a_lo U; frac V s] c = f00 (at_ C00 s) c /\ g [a_hi U; frac V s] c = f01 (at_ C01 s) c /\
      g [frac U s; a_lo V] c = f10 (at_ C10 s) c /\ g [frac U s; a_hi V] c = f11 (at_ C11 s) c.
Proof. exact coons_sides. Qed.
Print Assumptions C56_coons.
(** For any weights: the Boolean sum of the four sides, the bilinear part having weight one. *)
Theorem C56_boolean_sum : forall j j2 j3 jS C00 C01 C10 C11 (lov hiv : nat -> R) degv (lou hiu : nat -> R) degu,
  wf_nurbs C00 -> wf_nurbs C01 -> wf_nurbs C10 -> wf_nurbs C11 ->
  joinable [C00; C01] 1 [0%nat] lov hiv degv -> joinable [C10; C11] 1 [0%nat] lou hiu degu ->
  (forall c, (0 <= c < 3)%Z -> let at_ := fun C s => pt C c [frac (get_axis C 0) s] in
     at_ C10 0 = at_ C00 0 /\ at_ C10 1 = at_ C01 0 /\ at_ C11 0 = at_ C00 1 /\ at_ C11 1 = at_ C01 1) ->
  exists srf, coons (N:=Rn) j j2 j3 jS C00 C01 C10 C11 = Ok srf /\ wf_nurbs srf /\ n_comp srf = 4%Z /\ length (n_axes srf) = 2%nat /\
    (a_lo (get_axis srf 0) = Rmin 0 (lou 0%nat) /\ a_hi (get_axis srf 0) = Rmax 1 (hiu 0%nat)) /\
    (a_lo (get_axis srf 1) = Rmin 0 (lov 0%nat) /\ a_hi (get_axis srf 1) = Rmax 1 (hiv 0%nat)) /\
    forall s t c, 0 <= s <= 1 -> 0 <= t <= 1 -> (0 <= c < 4)%Z -> let at_ := fun C s => hom C c [frac (get_axis C 0) s] in
      let cor := fun C s => corner_val C (frac (get_axis C 0) s) c in
      hom srf c [frac (get_axis srf 0) s; frac (get_axis srf 1) t] =
        ((1 - s) * at_ C00 t + s * at_ C01 t) + ((1 - t) * at_ C10 s + t * at_ C11 s)
        - ((1 - s) * ((1 - t) * cor C10 0 + t * cor C11 0) + s * ((1 - t) * cor C10 1 + t * cor C11 1)).
Proof. exact coons_hom. Qed.
Print Assumptions C56_boolean_sum.

(** Sides of different degrees, domains and knots; two of them rational. *)
Definition ex_crv (A : axis Rn) (l : list (list R)) : nurbs Rn := mkNurbs [A] 4 (fun idx c => nth (Z.to_nat c) (nth (Z.to_nat (nth 0 idx 0%Z)) l []) 0).
Definition exX : Z -> R := arr [0; 0; 0; 2; 2; 2].
Definition e00 := ex_crv unit_axis [[0; 0; 0; 1]; [0; 1; 0; 1]].
Definition e01 := ex_crv (mkAxis (N:=Rn) 3 6 exX) [[1; 0; 0; 1]; [3; 1; 0; 2]; [1; 1; 0; 1]].
Definition e10 := ex_crv (mkAxis (N:=Rn) 3 5 exW) [[0; 0; 0; 1]; [1; -1; 3; 3]; [1; 0; 0; 1]].
Definition e11 := ex_crv unit_axis [[0; 1; 0; 1]; [1; 1; 0; 1]].
Lemma exX_wf : wf_knots 2 2 exX.
Proof. unfold exX. wf_list 0%Z 4%Z. Qed.
Lemma ex_crv_wf A l : wf_ax (spec_ax A) -> wf_nurbs (ex_crv A l).
Proof. intros W. split; [simpl; lia|]. split; [constructor; [exact W|constructor]|simpl; lia]. Qed.
Lemma e_wf : forall C, In C [e00; e01; e10; e11] -> wf_nurbs C.
Proof.
  intros C [<-|[<-|[<-|[<-|[]]]]]; apply ex_crv_wf; try apply unit_wf; (split; [cbn; unfold a_deg; cbn; lia|]); [exact exX_wf|exact exW_wf].
Qed.
Lemma e01_open : open_axis (get_axis e01 0).
Proof.
  split; [split|]; intros j Hj; cbn in Hj; unfold a_deg in Hj; cbn in Hj; cbn; unfold a_deg; cbn.
  - enumz j 0%Z 2%Z; reflexivity.
  - enumz j 3%Z 5%Z; reflexivity.
  - lia.
Qed.
Ltac e_ev := cbv [rescale a_lo a_hi a_deg a_size a_len a_knots get_axis n_axes ex_crv e00 e01 e10 e11 unit_axis exX exW arr nth Z.to_nat Pos.to_nat Pos.iter_op Init.Nat.add
   Z.add Z.sub Z.opp Z.pos_sub Pos.add Pos.succ Pos.pred_double Z.pred_double Z.succ_double Z.double Z.ltb Z.compare Pos.compare Pos.compare_cont].
Ltac e_apart := let a := fresh "a" in let nrb := fresh "nrb" in let nrb' := fresh "nrb'" in let j := fresh "j" in let j' := fresh "j'" in
  intros a nrb nrb' j j' [<-|[]] [<-|[<-|[]]] [<-|[<-|[]]]; cbv zeta; intros Hj Hj'; cbn in Hj, Hj';
    match type of Hj with (0 <= _ < ?n)%Z => enumz j 0%Z (n - 1)%Z end; match type of Hj' with (0 <= _ < ?n)%Z => enumz j' 0%Z (n - 1)%Z end;
    e_ev; ((left; lra) || (right; unfold Rabs; destruct (Rcase_abs _); lra)).
Lemma e_join_v : joinable [e00; e01] 1 [0%nat] (fun _ => 0) (fun _ => 2) (fun _ => 2%Z).
Proof.
  constructor.
  - intros nrb [<-|[<-|[]]]; reflexivity.
  - intros a [<-|[]]; lia.
  - constructor; [intros []|constructor].
  - intros nrb a [<-|[<-|[]]] [<-|[]]; [exact unit_open|exact e01_open].
  - intros nrb a [<-|[<-|[]]] [<-|[]]; cbv zeta; (split; [|split]); try (e_ev; lra); cbn; unfold a_deg; cbn; lia.
  - intros a [<-|[]]. split; [exists e01; split; [right; left; auto|e_ev; lra]|]. split; [exists e01; split; [right; left; auto|e_ev; lra]|exists e01; split; [right; left; auto|reflexivity]].
  - intros nrb a [<-|[<-|[]]] [<-|[]]; cbv zeta; right; left; cbn; unfold a_deg; cbn; lia.
  - e_apart.
Qed.
Lemma e_join_u : joinable [e10; e11] 1 [0%nat] (fun _ => 0) (fun _ => 1) (fun _ => 1%Z).
Proof.
  constructor.
  - intros nrb [<-|[<-|[]]]; reflexivity.
  - intros a [<-|[]]; lia.
  - constructor; [intros []|constructor].
  - intros nrb a [<-|[<-|[]]] [<-|[]]; [exact exL_open|exact unit_open].
  - intros nrb a [<-|[<-|[]]] [<-|[]]; cbv zeta; (split; [|split]); try (e_ev; lra); cbn; unfold a_deg; cbn; lia.
  - intros a [<-|[]]. split; [exists e10; split; [left; auto|e_ev; lra]|]. split; [exists e10; split; [left; auto|e_ev; lra]|exists e10; split; [left; auto|reflexivity]].
  - intros nrb a [<-|[<-|[]]] [<-|[]]; cbv zeta; right; left; cbn; unfold a_deg; cbn; lia.
  - e_apart.
Qed.
Example C56_example : let f := fun C us c => pt C c us in let at_ := fun C s => [frac (get_axis C 0) s] in
  (forall C, In C [e00; e01; e10; e11] -> shows C (f C)) /\
  joinable [e00; e01] 1 [0%nat] (fun _ => 0) (fun _ => 2) (fun _ => 2%Z) /\ joinable [e10; e11] 1 [0%nat] (fun _ => 0) (fun _ => 1) (fun _ => 1%Z) /\
  (forall C, In C [e00; e01; e10; e11] -> n_arr C [0%Z] 3%Z = 1 /\ n_arr C [(a_size (get_axis C 0) - 1)%Z] 3%Z = 1) /\
  (forall c, (0 <= c < 3)%Z -> f e10 (at_ e10 0) c = f e00 (at_ e00 0) c /\ f e10 (at_ e10 1) c = f e01 (at_ e01 0) c /\
                               f e11 (at_ e11 0) c = f e00 (at_ e00 1) c /\ f e11 (at_ e11 1) c = f e01 (at_ e01 1) c).
Proof.
  intros f at_. split; [intros C I; apply shows_intro; [apply e_wf; auto|reflexivity]|]. split; [exact e_join_v|]. split; [exact e_join_u|].
  assert (N3 : forall C, In C [e00; e01; e10; e11] -> n_arr C [0%Z] 3%Z = 1 /\ n_arr C [(a_size (get_axis C 0) - 1)%Z] 3%Z = 1).
  { intros C [<-|[<-|[<-|[<-|[]]]]]; split; reflexivity. }
  split; [exact N3|].
  assert (OP : forall C, In C [e00; e01; e10; e11] -> open_axis (get_axis C 0)) by (intros C [<-|[<-|[<-|[<-|[]]]]]; [exact unit_open|exact e01_open|exact exL_open|exact unit_open]).
  assert (PT : forall C c, In C [e00; e01; e10; e11] -> f C (at_ C 0) c = n_arr C [0%Z] c / 1 /\ f C (at_ C 1) c = n_arr C [(a_size (get_axis C 0) - 1)%Z] c / 1).
  { intros C c I. assert (LC : length (n_axes C) = 1%nat) by (destruct I as [<-|[<-|[<-|[<-|[]]]]]; reflexivity).
    destruct (open_ends C c (e_wf C I) LC (OP C I)) as [E0 E1]. destruct (open_ends C 3 (e_wf C I) LC (OP C I)) as [E2 E3]. destruct (N3 C I) as [E4 E5].
    unfold f, at_, pt. split; f_equal; [exact E0|f_equal; etransitivity; [exact E2|exact E4]|exact E1|f_equal; etransitivity; [exact E3|exact E5]]. }
  intros c Hc. destruct (PT e00 c ltac:(cbn; auto)) as [-> ->]. destruct (PT e01 c ltac:(cbn; auto)) as [-> ->].
  destruct (PT e10 c ltac:(cbn; auto)) as [-> ->]. destruct (PT e11 c ltac:(cbn; auto 10)) as [-> ->]. enumz c 0%Z 2%Z; cbn; repeat split; lra.
Qed.

(** ** C57: weighted corners *)
(** Four straight sides of the unit square; the corner (0,0) has weight 2 in both sides ending there.
    The assertion on the corners passes, but the side u = 0 is not C00. *)
Definition qcrv (l : list (list Q)) : nurbs Qn :=
  mkNurbs (N:=Qn) [mkAxis (N:=Qn) 2 4 (ql [0; 0; 1; 1]%Q)] 4 (fun idx c => nth (Z.to_nat c) (nth (Z.to_nat (nth 0%nat idx 0%Z)) l []) 0%Q).
Definition qcoons (C00 C01 C10 C11 : nurbs Qn) : res (nurbs Qn) := coons (N:=Qn) zj (fun _ _ => 0%Q) (fun _ _ _ => 0%Q) (fun _ => 0%Z) C00 C01 C10 C11.
Definition qgot (r : res (nurbs Qn)) : nurbs Qn := match r with Ok x => x | Raise _ => qcrv [] end.
Theorem C57_weighted_corner_refuted : exists C00 C01 C10 C11 srf,
  wfQ C00 && wfQ C01 && wfQ C10 && wfQ C11 = true /\
  (* the sides meet, with equal weights *)
  (forall c, (0 <= c < 4)%Z -> n_arr C10 [0%Z] c = n_arr C00 [0%Z] c /\ n_arr C10 [1%Z] c = n_arr C01 [0%Z] c /\
                               n_arr C11 [0%Z] c = n_arr C00 [1%Z] c /\ n_arr C11 [1%Z] c = n_arr C01 [1%Z] c) /\
  qcoons C00 C01 C10 C11 = Ok srf /\
  value C00 [(1 # 2)%Q] 1 = Some (1 # 3)%Q /\ value srf [0%Q; (1 # 2)%Q] 1 = Some (1 # 4)%Q.
Proof.
  set (A := qcrv [[0; 0; 0; 2]; [0; 1; 0; 1]]%Q). set (B := qcrv [[1; 0; 0; 1]; [1; 1; 0; 1]]%Q).
  set (C := qcrv [[0; 0; 0; 2]; [1; 0; 0; 1]]%Q). set (D := qcrv [[0; 1; 0; 1]; [1; 1; 0; 1]]%Q).
  exists A, B, C, D, (qgot (qcoons A B C D)). split; [vm_compute; reflexivity|]. split.
  { intros c Hc. enumz c 0%Z 3%Z; vm_compute; auto. }
  split; [|split; vm_compute; reflexivity].
  assert (E : match qcoons A B C D with Ok _ => true | Raise _ => false end = true) by (vm_compute; reflexivity).
  destruct (qcoons A B C D); [reflexivity|discriminate].
Qed.
Print Assumptions C57_weighted_corner_refuted.
