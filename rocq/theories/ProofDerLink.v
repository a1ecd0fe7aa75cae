(** The derivative kernels compute the quotient rule on the pieces of the spans found. *)
From Coq Require Import ZArith Reals List Lia Lra Bool.
From Verif Require Import Num Loop ModelBspline ModelBSp ModelNurbs ModelDer Spec SumZ BPiece BLink ProofSpan SpecNurbs SpecDer BDer ProofDers ProofRational.
Import ListNotations.
Local Open Scope R_scope.

(** ** TensorProd *)

Fixpoint prodM (Ms : list (Z -> Z -> R)) (a : list Z) (c : list nat) : R :=
  match Ms, a, c with
  | M :: Ms', i :: a', n :: c' => M i (Z.of_nat n) * prodM Ms' a' c'
  | _, _, _ => 1
  end.

Definition dirs_ok (dim : nat) (D : list Z) : Prop := Forall (fun d => (1 <= d <= Z.of_nat dim)%Z) D.

Ltac toR := match goal with |- @eq _ ?a ?b => change (@eq R a b) end.

Lemma TensorProd1_ok M D i : dirs_ok 1 D -> (length D <= 3)%nat -> TensorProd1 (N:=Rn) M D i = M i (Z.of_nat (length D)).
Proof.
  intros HD HL. unfold dirs_ok in HD.
  destruct D as [|d1 [|d2 [|d3 [|d4 D]]]]; simpl in HL; try lia;
  repeat match goal with H : Forall _ (_ :: _) |- _ => inversion H; clear H; subst end;
  repeat match goal with H : (1 <= ?d <= Z.of_nat 1)%Z |- _ => assert (d = 1%Z) by lia; subst d; clear H end; reflexivity.
Qed.

Lemma TensorProd2_ok M M2 D i j : dirs_ok 2 D -> (length D <= 4)%nat ->
  TensorProd2 (N:=Rn) M M2 D i j = M i (Z.of_nat (nth 0 (cnts 2 D) O)) * M2 j (Z.of_nat (nth 1 (cnts 2 D) O)).
Proof.
  intros HD HL. unfold dirs_ok in HD.
  assert (C : forall d, (1 <= d <= Z.of_nat 2)%Z -> d = 1%Z \/ d = 2%Z) by lia.
  destruct D as [|d1 [|d2 [|d3 [|d4 [|d5 D]]]]]; simpl in HL; try lia;
  repeat match goal with H : Forall _ (_ :: _) |- _ => inversion H; clear H; subst end;
  repeat match goal with H : (1 <= ?d <= Z.of_nat 2)%Z |- _ => apply C in H; destruct H; subst d end; reflexivity.
Qed.
Lemma TensorProd3_ok M M2 M3 D i j k : dirs_ok 3 D -> (length D <= 4)%nat ->
  TensorProd3 (N:=Rn) M M2 M3 D i j k =
    M i (Z.of_nat (nth 0 (cnts 3 D) O)) * M2 j (Z.of_nat (nth 1 (cnts 3 D) O)) * M3 k (Z.of_nat (nth 2 (cnts 3 D) O)).
Proof.
  intros HD HL. unfold dirs_ok in HD.
  assert (C : forall d, (1 <= d <= Z.of_nat 3)%Z -> d = 1%Z \/ d = 2%Z \/ d = 3%Z) by lia.
  destruct D as [|d1 [|d2 [|d3 [|d4 [|d5 D]]]]]; simpl in HL; try lia;
  repeat match goal with H : Forall _ (_ :: _) |- _ => inversion H; clear H; subst end;
  repeat match goal with H : (1 <= ?d <= Z.of_nat 3)%Z |- _ => apply C in H; destruct H as [H|[H|H]]; subst d end; reflexivity.
Qed.

Lemma cnts1 D : dirs_ok 1 D -> cnts 1 D = [length D].
Proof.
  intros H. induction H as [|d D Hd H IH]; simpl; auto. rewrite IH. replace (Z.to_nat (d - 1)) with O by lia. reflexivity.
Qed.

(** Orders for which the tables of TensorProd are right. *)
Definition ord_ok (dim : nat) (D : list Z) : Prop := (length D <= 4)%nat /\ (dim = 1%nat -> (length D <= 3)%nat).

Lemma TensorProd_ok (Ms : list (Z -> Z -> R)) D a : (1 <= length Ms <= 3)%nat -> length a = length Ms -> dirs_ok (length Ms) D -> ord_ok (length Ms) D ->
  TensorProd (N:=Rn) Ms D a = prodM Ms a (cnts (length Ms) D).
Proof.
  intros HM Ha HD [HL H1].
  destruct Ms as [|M [|M2 [|M3 [|M4 Ms]]]]; simpl in HM; try lia; destruct a as [|i [|j [|k [|l a]]]]; try discriminate; simpl length in *; unfold TensorProd.
  - rewrite TensorProd1_ok by auto. rewrite cnts1 by auto. cbn. toR. ring.
  - rewrite TensorProd2_ok by auto. pose proof (cnts_length 2 D) as E. destruct (cnts 2 D) as [|x [|y [|z c]]]; try discriminate. cbn [nth prodM]. toR. ring.
  - rewrite TensorProd3_ok by auto. pose proof (cnts_length 3 D) as E. destruct (cnts 3 D) as [|x [|y [|z [|w c]]]]; try discriminate. cbn [nth prodM]. toR. ring.
Qed.

(** ** Sums over nodes *)

Definition lsum {A} (ns : list A) (f : A -> R) : R := fold_right (fun a s => f a + s) 0 ns.
Lemma lsum_ext {A} (ns : list A) f g : (forall a, In a ns -> f a = g a) -> lsum ns f = lsum ns g.
Proof. induction ns; simpl; intros; auto. rewrite H, IHns; auto. Qed.
Lemma lsum_plus {A} (ns : list A) f g : lsum ns (fun a => f a + g a) = lsum ns f + lsum ns g.
Proof. induction ns; simpl; [ring|]. rewrite IHns. ring. Qed.
Lemma lsum_minus {A} (ns : list A) f g : lsum ns (fun a => f a - g a) = lsum ns f - lsum ns g.
Proof. induction ns; simpl; [ring|]. rewrite IHns. ring. Qed.
Lemma lsum_scal {A} (ns : list A) c f : lsum ns (fun a => c * f a) = c * lsum ns f.
Proof. induction ns; simpl; [ring|]. rewrite IHns. ring. Qed.
Lemma lsum_app {A} (ns ms : list A) f : lsum (ns ++ ms) f = lsum ns f + lsum ms f.
Proof. induction ns; simpl; [ring|]. rewrite IHns. ring. Qed.
Lemma lsum_map {A B} (h : A -> B) ns f : lsum (map h ns) f = lsum ns (fun a => f (h a)).
Proof. induction ns; simpl; auto. rewrite IHns. reflexivity. Qed.
Lemma lsum_flat {A B} (h : A -> list B) ns f : lsum (flat_map h ns) f = lsum ns (fun a => lsum (h a) f).
Proof. induction ns; simpl; auto. rewrite lsum_app, IHns. reflexivity. Qed.
Lemma lsum_zseq c : forall lo f, lsum (zseq c lo) f = sumZ lo (lo + Z.of_nat c - 1) f.
Proof.
  induction c; intros lo f; simpl zseq; simpl lsum.
  - rewrite sumZ_empty by lia. reflexivity.
  - rewrite sumZ_first by lia. f_equal. fold (lsum (zseq c (lo + 1)) f). rewrite IHc. f_equal. lia.
Qed.
Lemma asum_lsum ns f : asum (N:=Rn) ns f = lsum ns f.
Proof.
  unfold asum.
  assert (H : forall s, fold_left (fun s a => nadd Rn s (f a)) ns s = s + lsum ns f).
  { induction ns; intros s; simpl; [lra|]. rewrite IHns. rn. lra. }
  rewrite H. rn. lra.
Qed.
Lemma lsum_sumZ {A} (ns : list A) lo hi f : lsum ns (fun t => sumZ lo hi (fun i => f i t)) = sumZ lo hi (fun i => lsum ns (f i)).
Proof.
  induction ns; simpl.
  - symmetry. apply sumZ_zero. auto.
  - rewrite IHns. rewrite <- sumZ_plus. reflexivity.
Qed.
Lemma lsum_nodes p ps f : (0 <= p)%Z -> lsum (nodes (p :: ps)) f = sumZ 0 p (fun i => lsum (nodes ps) (fun t => f (i :: t))).
Proof.
  intros Hp. cbn [nodes]. rewrite lsum_flat. rewrite <- lsum_sumZ. apply lsum_ext. intros t _.
  rewrite lsum_map, lsum_zseq. f_equal. lia.
Qed.
Lemma nodes_length ps : forall a, In a (nodes ps) -> length a = length ps.
Proof.
  induction ps as [|p ps IH]; simpl; intros a H.
  - destruct H as [<-|[]]. reflexivity.
  - apply in_flat_map in H as [t [Ht H]]. apply in_map_iff in H as [i [<- _]]. simpl. f_equal. auto.
Qed.

(** ** Rationalize followed by Interpolate *)
Section Rat.
Variables (ns : list (list Z)) (W : list Z -> R) (N : list Z -> list Z -> R) (F : list Z -> R).
Definition AA (D : list Z) : R := lsum ns (fun a => W a * N D a * F a).
Definition WW (D : list Z) : R := lsum ns (fun a => W a * N D a).
Definition Lin (f : list Z -> R) (v : R) : Prop := lsum ns (fun a => f a * F a) = v.
Lemma Lin_minus f g x y : Lin f x -> Lin g y -> Lin (fun a => f a - g a) (x - y).
Proof. unfold Lin. intros <- <-. rewrite <- lsum_minus. apply lsum_ext. intros; ring. Qed.
Lemma Lin_mul f c x : Lin f x -> Lin (fun a => f a * c) (x * c).
Proof. unfold Lin. intros <-. rewrite Rmult_comm, <- lsum_scal. apply lsum_ext. intros; ring. Qed.
Lemma Lin_div f c x : Lin f x -> Lin (fun a => f a / c) (x / c).
Proof. unfold Rdiv. apply Lin_mul. Qed.
Lemma Lin_AA D : Lin (fun a => W a * N D a) (AA D).
Proof. reflexivity. Qed.
Lemma Lin_ext f g x : (forall a, f a = g a) -> Lin f x -> Lin g x.
Proof. unfold Lin. intros E <-. apply lsum_ext. intros; rewrite E; auto. Qed.

(** The order-four formula of the source lacks the term R3(i,j,k)*W1(l). *)
Definition code_quot (D : list Z) : R :=
  match D with
  | [i; j; k; l] => quot AA WW [i; j; k; l] + q3 AA WW i j k * WW [l] / WW []
  | _ => quot AA WW D
  end.

Let r0 a := W a * N [] a / WW [].
Let r1 i a := (W a * N [i] a - r0 a * WW [i]) / WW [].
Let r2 i j a := (W a * N [i; j] a - r0 a * WW [i; j] - r1 i a * WW [j] - r1 j a * WW [i]) / WW [].
Let r3 i j k a := (W a * N [i; j; k] a - r0 a * WW [i; j; k] - r1 i a * WW [j; k] - r1 j a * WW [i; k] - r1 k a * WW [i; j]
   - r2 j k a * WW [i] - r2 i k a * WW [j] - r2 i j a * WW [k]) / WW [].
Let r4 i j k l a := (W a * N [i; j; k; l] a - r0 a * WW [i; j; k; l]
   - r1 l a * WW [i; j; k] - r1 k a * WW [i; j; l] - r2 k l a * WW [i; j]
   - r1 j a * WW [i; k; l] - r2 j l a * WW [i; k] - r2 j k a * WW [i; l] - r3 j k l a * WW [i]
   - r1 i a * WW [j; k; l] - r2 i l a * WW [j; k] - r2 i k a * WW [j; l] - r3 i k l a * WW [j]
   - r2 i j a * WW [k; l] - r3 i j l a * WW [k]) / WW [].

Lemma L0 : Lin r0 (q0 AA WW).
Proof. apply Lin_div. apply Lin_AA. Qed.
Lemma L1 i : Lin (r1 i) (q1 AA WW i).
Proof. apply Lin_div. apply Lin_minus; [apply Lin_AA|]. apply Lin_mul, L0. Qed.
Lemma L2 i j : Lin (r2 i j) (q2 AA WW i j).
Proof. apply Lin_div. repeat (apply Lin_minus); try apply Lin_AA; apply Lin_mul; first [apply L0 | apply L1]. Qed.
Lemma L3 i j k : Lin (r3 i j k) (q3 AA WW i j k).
Proof. apply Lin_div. repeat (apply Lin_minus); try apply Lin_AA; apply Lin_mul; first [apply L0 | apply L1 | apply L2]. Qed.
Lemma L4 i j k l : Lin (r4 i j k l) (quot AA WW [i; j; k; l] + q3 AA WW i j k * WW [l] / WW []).
Proof.
  assert (H : Lin (r4 i j k l) ((AA [i; j; k; l] - q0 AA WW * WW [i; j; k; l]
   - q1 AA WW l * WW [i; j; k] - q1 AA WW k * WW [i; j; l] - q2 AA WW k l * WW [i; j]
   - q1 AA WW j * WW [i; k; l] - q2 AA WW j l * WW [i; k] - q2 AA WW j k * WW [i; l] - q3 AA WW j k l * WW [i]
   - q1 AA WW i * WW [j; k; l] - q2 AA WW i l * WW [j; k] - q2 AA WW i k * WW [j; l] - q3 AA WW i k l * WW [j]
   - q2 AA WW i j * WW [k; l] - q3 AA WW i j l * WW [k]) / WW [])).
  { apply Lin_div. repeat (apply Lin_minus); try apply Lin_AA; apply Lin_mul; first [apply L0 | apply L1 | apply L2 | apply L3]. }
  unfold Lin in *. rewrite H. cbn [quot]. unfold q4. unfold Rdiv. ring.
Qed.

Lemma Interp_Rat D : (length D <= 4)%nat -> Interpolate (N:=Rn) ns (Rationalize (N:=Rn) ns W N D) F = code_quot D.
Proof.
  intros HL. unfold Interpolate. rewrite asum_lsum. unfold Rationalize. rn.
  assert (E : forall D, asum (N:=Rn) ns (fun a => W a * N D a) = WW D) by (intros; apply asum_lsum).
  destruct D as [|i [|j [|k [|l [|m D]]]]]; simpl in HL; try lia; cbn [code_quot quot]; rewrite !E.
  - apply L0.
  - apply L1.
  - apply L2.
  - apply L3.
  - apply L4.
Qed.
End Rat.

(** ** Link with the pieces *)
Definition ax_of (a : dax Rn) : axR := mkAx (d_n a) (d_p a) (d_U a).

Section Link.
Variables (junk : Z -> R) (junk2 : Z -> Z -> R).
Notation tab := (d_table (N:=Rn) junk junk2).
Notation sp := (d_span (N:=Rn)).

Lemma lsum_Hd order axs : forall cnt P, Forall (fun a => (0 <= d_p a)%Z) axs -> length cnt = length axs ->
  Forall (fun c => (Z.of_nat c <= order)%Z) cnt -> 
  lsum (d_nodes axs) (fun a => P (d_global (N:=Rn) axs a) * prodM (map (tab order) axs) a cnt) =
  Hd (map ax_of axs) (map sp axs) cnt P (map (@d_x Rn) axs).
Proof.
  induction axs as [|A axs IH]; intros [|c cnt] P Hp Hc Ho; try discriminate.
  - cbn. ring.
  - inversion Hp as [|? ? Hp1 Hp2]; subst. inversion Ho as [|? ? Ho1 Ho2]; subst. simpl in Hc.
    unfold d_nodes. cbn [map]. rewrite lsum_nodes by auto. fold (d_nodes axs).
    cbn [Hd]. replace (sp A - x_p (ax_of A))%Z with (0 + (sp A - d_p A))%Z by (simpl; lia).
    replace (sumZ (0 + (sp A - d_p A)) (sp A)) with (sumZ (0 + (sp A - d_p A)) (d_p A + (sp A - d_p A)))
      by (f_equal; lia).
    rewrite sumZ_shift. apply sumZ_ext. intros i Hi.
    cbn [d_global prodM]. rewrite <- (IH cnt) by (auto; lia). rewrite <- lsum_scal. apply lsum_ext. intros a _.
    unfold d_table at 1. rewrite DersBasisFuns_piece by lia. rewrite Nat2Z.id.
    cbn [ax_of x_U x_p]. replace (sp A - d_p A + i)%Z with (i + (sp A - d_p A))%Z by lia. ring.
Qed.

Lemma cnts_le dim D : Forall (fun c => (c <= length D)%nat) (cnts dim D).
Proof.
  induction D as [|d D IH]; simpl.
  - induction dim; simpl; constructor; auto.
  - revert IH. generalize (cnts dim D) (Z.to_nat (d - 1)). intros c k IH. revert k.
    induction IH; intros [|k]; simpl; constructor; try lia.
    + eapply Forall_impl; [|exact IH]. simpl. intros; lia.
    + apply IHIH.
Qed.

Lemma d_interp_quot axs Pw F D : (1 <= length axs <= 3)%nat -> Forall (fun a => (0 <= d_p a)%Z) axs ->
  dirs_ok (length axs) D -> ord_ok (length axs) D ->
  let q := quot (ev (Pd (map ax_of axs) (map sp axs) (fun i => Pw i 3%Z * F i)) (map (@d_x Rn) axs))
                (ev (Pd (map ax_of axs) (map sp axs) (fun i => Pw i 3%Z)) (map (@d_x Rn) axs)) in
  d_interp (N:=Rn) junk junk2 (Z.of_nat (length D)) axs Pw F D = 
    match D with
    | [i; j; k; l] => q D + q [i; j; k] * Pd (map ax_of axs) (map sp axs) (fun i => Pw i 3%Z) [l] (map (@d_x Rn) axs)
          / Pd (map ax_of axs) (map sp axs) (fun i => Pw i 3%Z) [] (map (@d_x Rn) axs)
    | _ => q D
    end.
Proof.
  intros HM Hp HD [HL H1] q. unfold d_interp, d_rational. rewrite Interp_Rat by auto.
  assert (TP : forall E, (length E <= length D)%nat -> dirs_ok (length axs) E ->
     WW (d_nodes axs) (fun a => Pw (d_global axs a) 3%Z) (TensorProd (N:=Rn) (map (tab (Z.of_nat (length D))) axs)) E =
     ev (Pd (map ax_of axs) (map sp axs) (fun i => Pw i 3%Z)) (map (@d_x Rn) axs) E).
  { intros E HE HEd. unfold WW, ev, Pd. rewrite <- lsum_Hd with (order := Z.of_nat (length D)).
    - apply lsum_ext. intros a Ha. apply nodes_length in Ha. rewrite map_length in Ha.
      rewrite TensorProd_ok; rewrite ?map_length; auto; try lia; try (split; try lia; intros; specialize (H1 H); lia).
    - auto.
    - rewrite cnts_length, map_length. auto.
    - rewrite map_length. eapply Forall_impl; [|apply cnts_le]. simpl. intros. lia. }
  assert (TA : forall E, (length E <= length D)%nat -> dirs_ok (length axs) E ->
     AA (d_nodes axs) (fun a => Pw (d_global axs a) 3%Z) (TensorProd (N:=Rn) (map (tab (Z.of_nat (length D))) axs)) (fun a => F (d_global axs a)) E =
     ev (Pd (map ax_of axs) (map sp axs) (fun i => Pw i 3%Z * F i)) (map (@d_x Rn) axs) E).
  { intros E HE HEd. unfold AA, ev, Pd. rewrite <- lsum_Hd with (order := Z.of_nat (length D)).
    - apply lsum_ext. intros a Ha. apply nodes_length in Ha. rewrite map_length in Ha.
      rewrite TensorProd_ok; rewrite ?map_length; auto; try lia; try (split; try lia; intros; specialize (H1 H); lia). ring.
    - auto.
    - rewrite cnts_length, map_length. auto.
    - rewrite map_length. eapply Forall_impl; [|apply cnts_le]. simpl. intros. lia. }
  unfold dirs_ok in *.
  destruct D as [|i [|j [|k [|l [|m D]]]]]; simpl in HL; try lia;
  repeat match goal with H : Forall _ (_ :: _) |- _ => inversion H; clear H; subst end;
  cbn [code_quot quot]; subst q; cbn [quot]; unfold q4, q3, q2, q1, q0;
  rewrite ?TP, ?TA by (first [simpl; lia | repeat constructor; lia]); reflexivity.
Qed.
End Link.
