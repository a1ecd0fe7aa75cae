(** coons refuses sides that do not meet (C84). *)
From Coq Require Import ZArith Reals List Lia Lra Bool.
From Verif Require Import Num Loop ModelBspline ModelBSp ModelNurbs ModelIga ModelCad Spec SpecElev SpecCompat SumZ BPiece BLink ProofSpan
  SpecNurbs ProofNet ProofCall ProofNurbs ProofGeom ProofGeom2 ProofCad ProofRuled ProofCoons.
Import ListNotations.
Local Open Scope R_scope.

Lemma close3_ne (P Q : Z -> R) c : (0 <= c < 3)%Z -> / 10 ^ 15 < Rabs (P c - Q c) -> close3 (N:=Rn) P Q = false.
Proof.
  intros Hc H. unfold close3. cbn [forallb]. rn.
  assert (E : Rleb (Rabs (P c - Q c)) (1 / 1000000000000000) = false) by (apply Rleb_false; lra).
  assert (O : (c = 0 \/ c = 1 \/ c = 2)%Z) by lia. destruct O as [-> | [-> | ->]]; rewrite E, ?andb_false_r; auto.
Qed.
Lemma false4 a b c d : a = false \/ b = false \/ c = false \/ d = false -> a && b && c && d = false.
Proof. destruct a, b, c, d; intuition congruence. Qed.

Theorem coons_refuses j j2 j3 jS C00 C01 C10 C11 (lov hiv : nat -> R) degv (lou hiu : nat -> R) degu :
  wf_nurbs C00 -> wf_nurbs C01 -> wf_nurbs C10 -> wf_nurbs C11 ->
  joinable [C00; C01] 1 [0%nat] lov hiv degv -> joinable [C10; C11] 1 [0%nat] lou hiu degu ->
  (exists c, (0 <= c < 3)%Z /\ let at_ := fun C s => pt C c [frac (get_axis C 0) s] in let apart := fun x y : R => / 10 ^ 15 < Rabs (x - y) in
     apart (at_ C10 0) (at_ C00 0) \/ apart (at_ C10 1) (at_ C01 0) \/ apart (at_ C11 0) (at_ C00 1) \/ apart (at_ C11 1) (at_ C01 1)) ->
  coons (N:=Rn) j j2 j3 jS C00 C01 C10 C11 = Raise AssertionError.
Proof.
  intros W00 W01 W10 W11 Jv Ju HC.
  destruct (curve_pair j j2 C00 C01 lov hiv degv W00 W01 Jv) as (o00 & o01 & S0 & Bv & Ec0 & V00 & V01 & (L00 & a00 & b00) & (L01 & a01 & b01) & Hm0 & Er0 & WS0 & CS0 & AS0 & OBv & DBv & loBv & hiBv & apBv & HS0).
  destruct (curve_pair j j2 C10 C11 lou hiu degu W10 W11 Ju) as (o10 & o11 & S1 & Bu & Ec1 & V10 & V11 & (L10 & a10 & b10) & (L11 & a11 & b11) & Hm1 & Er1 & WS1 & CS1 & AS1 & OBu & DBu & loBu & hiBu & apBu & HS1).
  assert (D00 : n_dim C00 = 1%Z) by (unfold n_dim; rewrite (jn_dim _ _ _ _ _ _ Jv C00) by (left; auto); reflexivity).
  assert (D01 : n_dim C01 = 1%Z) by (unfold n_dim; rewrite (jn_dim _ _ _ _ _ _ Jv C01) by (right; left; auto); reflexivity).
  assert (D10 : n_dim C10 = 1%Z) by (unfold n_dim; rewrite (jn_dim _ _ _ _ _ _ Ju C10) by (left; auto); reflexivity).
  assert (D11 : n_dim C11 = 1%Z) by (unfold n_dim; rewrite (jn_dim _ _ _ _ _ _ Ju C11) by (right; left; auto); reflexivity).
  assert (PV : lov 0%nat < hiv 0%nat) by (rewrite <- a00, <- b00; apply wf_lohi_of; auto; lia).
  assert (PU : lou 0%nat < hiu 0%nat) by (rewrite <- a10, <- b10; apply wf_lohi_of; auto; lia).
  (* corner points *)
  assert (K0 : forall l h : R, l + 0 * (h - l) = l) by (intros; ring). assert (K1 : forall l h : R, l + 1 * (h - l) = h) by (intros; ring).
  assert (pt00 : forall c, pt o00 c [lov 0%nat] = pt C00 c [frac (get_axis C00 0) 0] /\ pt o00 c [hiv 0%nat] = pt C00 c [frac (get_axis C00 0) 1] /\
                           pt o01 c [lov 0%nat] = pt C01 c [frac (get_axis C01 0) 0] /\ pt o01 c [hiv 0%nat] = pt C01 c [frac (get_axis C01 0) 1]).
  { intros c. unfold pt. pose proof (fun c => Hm0 0 c ltac:(lra)) as Q0. pose proof (fun c => Hm0 1 c ltac:(lra)) as Q1. rewrite K0 in Q0. rewrite K1 in Q1.
    destruct (Q0 c) as [-> ->], (Q1 c) as [-> ->], (Q0 3%Z) as [-> ->], (Q1 3%Z) as [-> ->]. auto. }
  assert (pt10 : forall c, pt o10 c [lou 0%nat] = pt C10 c [frac (get_axis C10 0) 0] /\ pt o10 c [hiu 0%nat] = pt C10 c [frac (get_axis C10 0) 1] /\
                           pt o11 c [lou 0%nat] = pt C11 c [frac (get_axis C11 0) 0] /\ pt o11 c [hiu 0%nat] = pt C11 c [frac (get_axis C11 0) 1]).
  { intros c. unfold pt. pose proof (fun c => Hm1 0 c ltac:(lra)) as Q0. pose proof (fun c => Hm1 1 c ltac:(lra)) as Q1. rewrite K0 in Q0. rewrite K1 in Q1.
    destruct (Q0 c) as [-> ->], (Q1 c) as [-> ->], (Q0 3%Z) as [-> ->], (Q1 3%Z) as [-> ->]. auto. }
  destruct (at1_ok j j2 j3 jS o10 (lou 0%nat)) as (P00 & EP00 & HP00); auto; [rewrite a10, b10; lra|].
  destruct (at1_ok j j2 j3 jS o10 (hiu 0%nat)) as (P10 & EP10 & HP10); auto; [rewrite a10, b10; lra|].
  destruct (at1_ok j j2 j3 jS o11 (lou 0%nat)) as (P01 & EP01 & HP01); auto; [rewrite a11, b11; lra|].
  destruct (at1_ok j j2 j3 jS o11 (hiu 0%nat)) as (P11 & EP11 & HP11); auto; [rewrite a11, b11; lra|].
  destruct (at1_ok j j2 j3 jS o00 (lov 0%nat)) as (Q00 & EQ00 & HQ00); auto; [rewrite a00, b00; lra|].
  destruct (at1_ok j j2 j3 jS o00 (hiv 0%nat)) as (Q01 & EQ01 & HQ01); auto; [rewrite a00, b00; lra|].
  destruct (at1_ok j j2 j3 jS o01 (lov 0%nat)) as (Q10 & EQ10 & HQ10); auto; [rewrite a01, b01; lra|].
  destruct (at1_ok j j2 j3 jS o01 (hiv 0%nat)) as (Q11 & EQ11 & HQ11); auto; [rewrite a01, b01; lra|].
  assert (CL : close3 (N:=Rn) P00 Q00 && close3 (N:=Rn) P01 Q01 && close3 (N:=Rn) P10 Q10 && close3 (N:=Rn) P11 Q11 = false).
  { destruct HC as (c & Hc & HA). cbv beta zeta in HA. destruct (pt00 c) as (p1 & p2 & p3 & p4); destruct (pt10 c) as (q1 & q2 & q3 & q4).
    rewrite <- p1, <- p2, <- p3, <- p4, <- q1, <- q2, <- q3, <- q4 in HA. apply false4.
    destruct HA as [H|[H|[H|H]]]; [left|right; right; left|right; left|right; right; right]; apply (close3_ne _ _ c Hc);
      rewrite ?HP00, ?HP01, ?HP10, ?HP11, ?HQ00, ?HQ01, ?HQ10, ?HQ11; exact H. }
  unfold coons. rewrite D00, D01, D10, D11. cbn [Z.eqb Pos.eqb andb assert bind]. rewrite Ec0. cbn [bind]. rewrite Ec1. cbn [bind]. cbv zeta.
  rewrite a10, b10, a00, b00. rewrite EP00. cbn [bind]. rewrite EP10. cbn [bind]. rewrite EP01. cbn [bind]. rewrite EP11. cbn [bind].
  rewrite EQ00. cbn [bind]. rewrite EQ01. cbn [bind]. rewrite EQ10. cbn [bind]. rewrite EQ11. cbn [bind]. rewrite CL. reflexivity.
Qed.
