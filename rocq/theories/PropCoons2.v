(** Coons patches of sides that do not meet (C84).  Vocabulary as in PropCoons.v. *)
From Coq Require Import ZArith Reals List Lia Lra Bool.
From Verif Require Import Num Loop ModelBspline ModelBSp ModelNurbs ModelIga ModelCad Spec SpecElev SpecCompat SumZ BPiece BLink ProofSpan
  SpecNurbs ProofNet ProofCall ProofNurbs ProofGeom ProofGeom2 ProofCad ProofRuled ProofCoons ProofCoons2 ExTac PropNurbs PropCompat PropRefuted PropCoons.
Import ListNotations.
Local Open Scope R_scope.

(** ** C84: a corner where some coordinate of the two sides differs by more than 10^-15 *)
Theorem C84_coons_refuses : forall j j2 j3 jS C00 C01 C10 C11 (lov hiv : nat -> R) degv (lou hiu : nat -> R) degu,
  wf_nurbs C00 -> wf_nurbs C01 -> wf_nurbs C10 -> wf_nurbs C11 ->
  joinable [C00; C01] 1 [0%nat] lov hiv degv -> joinable [C10; C11] 1 [0%nat] lou hiu degu ->
  (exists c, (0 <= c < 3)%Z /\ let at_ := fun C s => pt C c [frac (get_axis C 0) s] in let apart := fun x y : R => / 10 ^ 15 < Rabs (x - y) in
     apart (at_ C10 0) (at_ C00 0) \/ apart (at_ C10 1) (at_ C01 0) \/ apart (at_ C11 0) (at_ C00 1) \/ apart (at_ C11 1) (at_ C01 1)) ->
  coons (N:=Rn) j j2 j3 jS C00 C01 C10 C11 = Raise AssertionError.
Proof. exact coons_refuses. Qed.
Print Assumptions C84_coons_refuses.

(** The sides of the example of C56 with the last side lifted at one end. *)
Definition e11' := ex_crv unit_axis [[0; 1; 0; 1]; [1; 1; 1; 1]].
Ltac e_ev ::= cbv [rescale a_lo a_hi a_deg a_size a_len a_knots get_axis n_axes ex_crv e00 e01 e10 e11 e11' unit_axis exX exW arr nth Z.to_nat Pos.to_nat Pos.iter_op Init.Nat.add
   Z.add Z.sub Z.opp Z.pos_sub Pos.add Pos.succ Pos.pred_double Z.pred_double Z.succ_double Z.double Z.ltb Z.compare Pos.compare Pos.compare_cont].
Lemma e_join_u' : joinable [e10; e11'] 1 [0%nat] (fun _ => 0) (fun _ => 1) (fun _ => 1%Z).
Proof.
  constructor.
  - intros nrb [<-|[<-|[]]]; reflexivity.
  - intros a [<-|[]]; lia.
  - constructor; [intros []|constructor].
  - intros nrb a [<-|[<-|[]]] [<-|[]]; [exact exL_open|exact unit_open].
  - intros nrb a [<-|[<-|[]]] [<-|[]]; cbv zeta; (split; [|split]); try (e_ev; lra); cbn; unfold a_deg; cbn; lia.
  - intros a [<-|[]]. split; [exists e10; split; [left; auto|e_ev; lra]|]. split; [exists e10; split; [left; auto|e_ev; lra]|exists e10; split; [left; auto|reflexivity]].
  - intros nrb a [<-|[<-|[]]] [<-|[]]; cbv zeta; right; left; cbn; unfold a_deg; cbn; lia.
  - e_apart.
Qed.
Example C84_example : (forall C, In C [e00; e01; e10; e11'] -> wf_nurbs C) /\
  joinable [e00; e01] 1 [0%nat] (fun _ => 0) (fun _ => 2) (fun _ => 2%Z) /\ joinable [e10; e11'] 1 [0%nat] (fun _ => 0) (fun _ => 1) (fun _ => 1%Z) /\
  exists c, (0 <= c < 3)%Z /\ / 10 ^ 15 < Rabs (pt e11' c [frac (get_axis e11' 0) 1] - pt e01 c [frac (get_axis e01 0) 1]).
Proof.
  assert (W : wf_nurbs e11') by (apply ex_crv_wf; apply unit_wf).
  split; [intros C [<-|[<-|[<-|[<-|[]]]]]; try (apply e_wf; cbn; auto; fail); exact W|]. split; [exact e_join_v|]. split; [exact e_join_u'|].
  exists 2%Z. split; [lia|].
  assert (PT : forall C c, wf_nurbs C -> length (n_axes C) = 1%nat -> open_axis (get_axis C 0) -> n_arr C [(a_size (get_axis C 0) - 1)%Z] 3%Z = 1 ->
    pt C c [frac (get_axis C 0) 1] = n_arr C [(a_size (get_axis C 0) - 1)%Z] c / 1).
  { intros C c WC LC OC E5. destruct (open_ends C c WC LC OC) as [_ E1]. destruct (open_ends C 3 WC LC OC) as [_ E3].
    unfold pt. f_equal; [exact E1|f_equal; etransitivity; [exact E3|exact E5]]. }
  rewrite (PT e11'), (PT e01); auto; try (apply e_wf; cbn; auto; fail); try exact unit_open; try exact e01_open.
  change (/ 10 ^ 15 < Rabs (1 / 1 - 0 / 1)). replace (1 / 1 - 0 / 1) with 1 by lra.
  rewrite Rabs_R1. apply Rlt_le_trans with (/ 1); [apply Rinv_lt_contravar; lra|lra].
Qed.
