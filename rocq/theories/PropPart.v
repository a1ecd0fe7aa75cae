(** Refining and slicing commute.
    The results concern igakit/nurbs.py:721-796 and 887-1167 (insert, clamp, unclamp, refine, elevate)
    and igakit/nurbs.py:1168-1266 (slice).  Specification: equality of the stored knots and control
    points ([same_data]); calls that meet the conditions of C11, C13, C17, C18 and C19 ([all_ok]);
    the calls that remain for the slice ([part_calls]); the condition of C25 ([slice_fits]). *)
From Coq Require Import ZArith Reals List Bool Lia Lra.
From Verif Require Import Num Loop ModelBspline ModelBSp ModelNurbs ModelTransform Spec SpecNurbs BLink ProofSpan ProofNet ProofCall ProofNurbs ProofMethods ProofMethods2 ProofOk ProofGeom ProofGeom2
  ProofRemove4 ProofCompat1 ProofCompat3 ProofRuled ProofSlice ProofCutJoin ExTac PropNurbs ProofUniq PropUniq ProofEquiv PropEquiv ProofTurn ProofMove ProofFlip ProofSection ProofPart.
Import ListNotations.
Local Open Scope R_scope.

(** ** C125: slices of a refined object. *)
Theorem C125_slice : forall l l' x y ax a start end_ junk x' z, wf_nurbs x -> all_ok l x y -> bounded_knots y -> py_axis (n_dim x) ax = Ok a ->
  let u0 := slice_from (get_axis x a) start in let u1 := slice_to (get_axis x a) end_ in
  slice_fits (get_axis x a) u0 u1 -> slice_fits (get_axis y a) u0 u1 -> slice (N:=Rn) junk x ax start end_ = Ok x' ->
  part_calls (n_dim x) a u0 u1 l l' -> all_ok l' x' z ->
  forall junk', exists y', slice (N:=Rn) junk' y ax start end_ = Ok y' /\ same_data y' z.
Proof. exact slice_commutes. Qed.
Print Assumptions C125_slice.
(** The knots of a slice: both ends degree+1 times, between them those of the object. *)
Theorem C125_knots : forall x ax a start end_ junk x', wf_nurbs x -> py_axis (n_dim x) ax = Ok a ->
  let A := get_axis x a in let u0 := slice_from A start in let u1 := slice_to A end_ in
  slice_fits A u0 u1 -> slice (N:=Rn) junk x ax start end_ = Ok x' ->
  let B := get_axis x' a in let mult (C : axis Rn) v := multiplicity (a_knots C) 0 (a_len C - 1) v in
  a_deg B = a_deg A /\ mult B u0 = (a_deg A + 1)%Z /\ mult B u1 = (a_deg A + 1)%Z /\
  (forall v, u0 < v < u1 -> mult B v = mult A v) /\ (forall v, v < u0 \/ u1 < v -> mult B v = 0%Z) /\
  forall b, (b < length (n_axes x))%nat -> b <> a -> get_axis x' b = get_axis x b.
Proof. exact slice_all_knots. Qed.
Print Assumptions C125_knots.

(** exS over [0,2] along the first axis, sliced at 1: the inserted knot 1/2 lies in the first part
    and not in the second. *)
Example C125_example : exists y x1 x2 z, all_ok [(Insert (1 / 2) (Some 1%Z), 0%Z)] exS y /\ bounded_knots y /\ ~ same_knots exS y /\
  slice_from (get_axis exS 0) None = 0 /\ slice_to (get_axis exS 0) None = 2 /\
  slice_fits (get_axis exS 0) 0 1 /\ slice_fits (get_axis y 0) 0 1 /\ slice_fits (get_axis exS 0) 1 2 /\ slice_fits (get_axis y 0) 1 2 /\
  slice (N:=Rn) (fun _ => 77) exS 0 None (Some 1) = Ok x1 /\ slice (N:=Rn) (fun _ => 77) exS 0 (Some 1) None = Ok x2 /\
  part_calls (n_dim exS) 0 0 1 [(Insert (1 / 2) (Some 1%Z), 0%Z)] [(Insert (1 / 2) (Some 1%Z), (-2)%Z)] /\
  part_calls (n_dim exS) 0 1 2 [(Insert (1 / 2) (Some 1%Z), 0%Z)] [] /\
  all_ok [(Insert (1 / 2) (Some 1%Z), (-2)%Z)] x1 z.
Proof.
  destruct C119_example as (y & _ & H & B & K & _). exists y.
  assert (Lo : a_lo (get_axis exS 0) = 0) by (rewrite a_lo_eq; change (exU 2 = 0); unfold exU; arr_lra).
  assert (Hi : a_hi (get_axis exS 0) = 2) by (rewrite a_hi_eq; change (exU 4 = 2); unfold exU; arr_lra).
  destruct (all_ok_ends _ _ _ 0%nat H exS_wf ltac:(cbn; lia)) as [LoY HiY].
  destruct (all_ok_cons _ _ _ _ _ H) as (a0 & j & j2 & y0 & Ea & Hh & E & Hy). injection Ea as <-. inversion Hy; subst.
  destruct (op_spec _ exS 0 0%nat j j2 y exS_wf eq_refl Hh E) as (P & A & X & Af).
  assert (EA : get_axis y 0 = A) by (rewrite (get_lset exS y 0 A 0 X ltac:(cbn; lia)); reflexivity).
  destruct Af as (_ & _ & Dg & Mu). change (a_deg (get_axis exS 0)) with 2%Z in Dg.
  assert (WY : wf_ax (spec_ax (get_axis y 0))) by (apply wf_get_axis; [apply P|rewrite X, lset_length; cbn; lia]).
  assert (M1 : forall v, v <> 0 -> v <> 2 -> mulA (get_axis exS 0) v = if Req_EM_T 1 v then 1%Z else 0%Z).
  { intros v N0 N2. unfold mulA. change (multiplicity exU 0 6 v = if Req_EM_T 1 v then 1%Z else 0%Z). unfold multiplicity, exU. simpl. cbv [arr nth Z.to_nat Pos.to_nat Pos.iter_op Init.Nat.add].
    destruct (Req_EM_T 0 v); [lra|]. destruct (Req_EM_T 2 v); [lra|]. destruct (Req_EM_T 1 v); reflexivity. }
  assert (Cx : continuous_axis (get_axis exS 0)) by (change (mult_le 3 2 exU); intros i Hj; enumz i 3%Z 3%Z; unfold exU; arr_lra).
  assert (Cy : continuous_axis (get_axis y 0)).
  { apply mults_continuous; auto. rewrite LoY, HiY, Lo, Hi, EA, Dg. intros v Hv. rewrite Mu, M1 by lra. destruct (Req_EM_T 1 v), (Req_EM_T v (1 / 2)); lia. }
  assert (KY : forall i, (0 <= i <= a_size (get_axis y 0) - 1 + a_deg (get_axis y 0) + 1)%Z -> let w := a_knots (get_axis y 0) i in w = 0 \/ w = 1 / 2 \/ w = 1 \/ w = 2).
  { intros i Hi' w. pose proof (multiplicity_one (a_knots (get_axis y 0)) 0 _ i Hi') as Q. fold w in Q. change (0 < mulA (get_axis y 0) w)%Z in Q. rewrite EA, Mu in Q.
    destruct (Req_dec w 0); auto. destruct (Req_dec w 2); auto. rewrite M1 in Q by auto. destruct (Req_EM_T 1 w); [auto|]. destruct (Req_EM_T w (1 / 2)); [auto|lia]. }
  assert (SX : forall u, u = 0 \/ u = 1 \/ u = 2 -> separated exU 0 6 u) by (intros u Hu; apply exU_sep; intuition).
  assert (SY : forall u, u = 0 \/ u = 1 \/ u = 2 -> separated (a_knots (get_axis y 0)) 0 (a_size (get_axis y 0) - 1 + a_deg (get_axis y 0) + 1) u).
  { intros u Hu i Hi'. destruct (Req_dec (a_knots (get_axis y 0) i) u) as [|Ne]; auto. right. pose proof (KY i Hi') as Q. cbv zeta in Q. unfold Rabs. destruct (Rcase_abs _); lra. }
  assert (FX : forall u v, u = 0 \/ u = 1 \/ u = 2 -> v = 0 \/ v = 1 \/ v = 2 -> slice_fits (get_axis exS 0) u v).
  { intros u v Hu Hv. split; auto. change (separated_list exU 6 [u; v]). intros w Hw. split; [apply SX; destruct Hw as [<-|[<-|[]]]; auto|].
    intros w' Hw'. destruct (Req_dec w' w) as [|Ne]; auto. right. destruct Hw as [<-|[<-|[]]], Hw' as [<-|[<-|[]]]; unfold Rabs; destruct (Rcase_abs _); lra. }
  assert (FY : forall u v, u = 0 \/ u = 1 \/ u = 2 -> v = 0 \/ v = 1 \/ v = 2 -> slice_fits (get_axis y 0) u v).
  { intros u v Hu Hv. split; auto. intros w Hw. split; [apply SY; destruct Hw as [<-|[<-|[]]]; auto|].
    intros w' Hw'. destruct (Req_dec w' w) as [|Ne]; auto. right. destruct Hw as [<-|[<-|[]]], Hw' as [<-|[<-|[]]]; unfold Rabs; destruct (Rcase_abs _); lra. }
  assert (U2 : exU 2%Z = 0) by (unfold exU; arr_lra). assert (U4 : exU 4%Z = 2) by (unfold exU; arr_lra).
  destruct (slice_ok exS 0 0%nat None (Some 1) (fun _ => 77) exS_wf eq_refl Cx) as [x1 E1].
  { change (separated_list exU 6 [exU 2; 1]). rewrite U2. apply (FX 0 1); auto. }
  { change (exU 2 <= exU 2). lra. } { change (exU 2 < 1). lra. } { change (1 <= exU 4). lra. }
  destruct (slice_ok exS 0 0%nat (Some 1) None (fun _ => 77) exS_wf eq_refl Cx) as [x2 E2].
  { change (separated_list exU 6 [1; exU 4]). rewrite U4. apply (FX 1 2); auto. }
  { change (exU 2 <= 1). lra. } { change (1 < exU 4). lra. } { change (exU 4 <= exU 4). lra. }
  assert (SF : slice_from (get_axis exS 0) None = 0) by exact Lo. assert (ST : slice_to (get_axis exS 0) None = 2) by exact Hi.
  destruct (slice_part exS 0 0%nat None (Some 1) (fun _ => 77) x1 exS_wf eq_refl) as [_ PP]; [rewrite SF; apply FX; cbn; auto|exact E1|]. rewrite SF in PP. cbn [slice_to] in PP.
  pose proof (pa_axis _ _ _ _ _ PP) as [D1 MX]. change (a_deg (get_axis exS 0)) with 2%Z in D1, MX. pose proof (pa_wf _ _ _ _ _ PP) as W1.
  assert (L1 : length (n_axes x1) = 2%nat) by exact (pa_len _ _ _ _ _ PP).
  assert (EX1 : py_axis (n_dim x1) (-2) = Ok 0%nat) by (unfold n_dim; rewrite L1; reflexivity).
  assert (ZM : mulA (get_axis x1 0) (1 / 2) = 0%Z).
  { rewrite MX, M1 by lra. destruct (Req_EM_T (1 / 2) 0); [lra|]. destruct (Req_EM_T (1 / 2) 1); [lra|]. destruct (Req_EM_T 1 (1 / 2)); [lra|]. destruct (Rlt_dec 0 (1 / 2)); auto. destruct (Rlt_dec (1 / 2) 1); auto. }
  assert (DX : a_knots (get_axis x1 0) (a_deg (get_axis x1 0)) = 0 /\ a_knots (get_axis x1 0) (a_size (get_axis x1 0) - 1 + 1)%Z = 1).
  { destruct (slice_spec exS 0 0%nat None (Some 1) (fun _ => 77) x1 exS_wf eq_refl Cx) as (_ & _ & _ & _ & _ & (A1 & Q1 & Q2 & Q3 & Q4) & _); [change (separated_list exU 6 [exU 2; 1]); rewrite U2; apply (FX 0 1); auto|exact E1|].
    assert (get_axis x1 0 = A1) as -> by (rewrite (get_lset exS x1 0 A1 0 Q1 ltac:(cbn; lia)); reflexivity). rewrite Q2. split; [rewrite Q3; exact U2|exact Q4]. }
  assert (OK : op_ok (Insert (1 / 2) (Some 1%Z)) (get_axis x1 0)).
  { split.
    - intros i Hi'. right. pose proof (multiplicity_one (a_knots (get_axis x1 0)) 0 _ i Hi') as Q. set (w := a_knots (get_axis x1 0) i) in *. change (0 < mulA (get_axis x1 0) w)%Z in Q. rewrite MX in Q.
      assert (w = 0 \/ w = 1) as Hw.
      { destruct (Req_EM_T w 0); auto. destruct (Req_EM_T w 1); auto. exfalso. destruct (Rlt_dec 0 w); [|lia]. destruct (Rlt_dec w 1); [|lia]. rewrite M1 in Q by lra. destruct (Req_EM_T 1 w); [lra|lia]. }
      destruct Hw as [-> | ->]; unfold Rabs; destruct (Rcase_abs _); lra.
    - left. destruct DX as [-> ->]. lra. }
  destruct (insert_ok x1 (-2) 0%nat (1 / 2) (Some 1%Z) (fun _ => 0) W1 EX1 (proj1 OK)) as [z Ez].
  { destruct DX as [DX0 DX1]. split; [rewrite DX0; lra|rewrite DX1; lra]. }
  { fold (mulA (get_axis x1 0) (1 / 2)). rewrite ZM, D1. cbn. lia. }
  exists x1, x2, z. split; [exact H|]. split; [exact B|]. split; [exact K|]. split; [exact SF|]. split; [exact ST|].
  split; [apply FX; auto|]. split; [apply FY; auto|]. split; [apply FX; auto|]. split; [apply FY; auto|]. split; [exact E1|]. split; [exact E2|].
  split; [apply pc_inside; [reflexivity|reflexivity|lra|constructor]|]. split; [apply pc_outside; [reflexivity|lra|constructor]|].
  apply (ok_more (Insert (1 / 2) (Some 1%Z)) (-2) 0%nat (fun _ => 0) (fun _ _ => 0) [] x1 z z); [exact EX1|exact OK|exact Ez|constructor].
Qed.
