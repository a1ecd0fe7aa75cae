(** Mapped gradients of reparametrised objects: lemmas for C110. *)
From Coq Require Import ZArith Reals List Lia Lra Bool.
From Verif Require Import Blossom Num Loop ModelBspline ModelBSp ModelNurbs ModelDer Spec SumZ SpecNurbs SpecDer ProofNet ProofCall ProofNurbs ProofGeom ProofGeom2 ProofPerm ProofOk ProofDerApi ProofDerApi2 ProofDer4 ProofDerLink ProofRational
  ProofCompat1 PropNurbs PropDer ProofDerGeom ProofDerGeom2 ProofDerMove ProofDerMove2 ProofDerMove3.
Import ListNotations.
Local Open Scope R_scope.

(** ** Linear algebra *)
Lemma sum3 (d : nat) f : (1 <= d <= 3)%nat -> sumZ 0 (Z.of_nat d - 1) f = match d with 1%nat => f 0%Z | 2%nat => f 0%Z + f 1%Z | _ => f 0%Z + f 1%Z + f 2%Z end.
Proof. intros H. destruct d as [|[|[|[|d]]]]; try lia; unfold sumZ; [change (Z.to_nat _) with 1%nat|change (Z.to_nat _) with 2%nat|change (Z.to_nat _) with 3%nat]; cbn [sumN]; cbn [Z.add Pos.add Pos.succ]; ring. Qed.
Lemma unique_solution d J (x y g : Z -> R) : (1 <= d <= 3)%nat -> det d J <> 0 ->
  (forall j, (0 <= j < Z.of_nat d)%Z -> sumZ 0 (Z.of_nat d - 1) (fun i => x i * J i j) = g j) ->
  (forall j, (0 <= j < Z.of_nat d)%Z -> sumZ 0 (Z.of_nat d - 1) (fun i => y i * J i j) = g j) ->
  forall i, (0 <= i < Z.of_nat d)%Z -> x i = y i.
Proof.
  intros Hd D Hx Hy.
  assert (E : forall j, (0 <= j < Z.of_nat d)%Z -> sumZ 0 (Z.of_nat d - 1) (fun i => (x i - y i) * J i j) = 0).
  { intros j Hj. transitivity (sumZ 0 (Z.of_nat d - 1) (fun i => x i * J i j) - sumZ 0 (Z.of_nat d - 1) (fun i => y i * J i j)).
    rewrite <- sumZ_minus. apply sumZ_ext. intros; ring. rewrite Hx, Hy by auto. ring. }
  clear Hx Hy. intros i Hi.
  assert (K : (x i - y i) * det d J = 0); [|destruct (Rmult_integral _ _ K); [lra|contradiction]]. clear D.
  destruct d as [|[|[|[|d]]]]; try lia; cbn [det].
  - pose proof (E 0%Z ltac:(lia)) as E0. rewrite sum3 in * by lia. replace i with 0%Z by lia. exact E0.
  - pose proof (E 0%Z ltac:(lia)) as E0. pose proof (E 1%Z ltac:(lia)) as E1. rewrite sum3 in * by lia.
    set (a := x 0%Z - y 0%Z) in *. set (b := x 1%Z - y 1%Z) in *.
    assert (i = 0 \/ i = 1)%Z as [-> | ->] by lia; [fold a|fold b].
    + replace (a * _) with ((a * J 0%Z 0%Z + b * J 1%Z 0%Z) * J 1%Z 1%Z - (a * J 0%Z 1%Z + b * J 1%Z 1%Z) * J 1%Z 0%Z) by ring. rewrite E0, E1. ring.
    + replace (b * _) with ((a * J 0%Z 1%Z + b * J 1%Z 1%Z) * J 0%Z 0%Z - (a * J 0%Z 0%Z + b * J 1%Z 0%Z) * J 0%Z 1%Z) by ring. rewrite E0, E1. ring.
  - pose proof (E 0%Z ltac:(lia)) as E0. pose proof (E 1%Z ltac:(lia)) as E1. pose proof (E 2%Z ltac:(lia)) as E2. rewrite sum3 in * by lia.
    set (a := x 0%Z - y 0%Z) in *. set (b := x 1%Z - y 1%Z) in *. set (c := x 2%Z - y 2%Z) in *.
    assert (i = 0 \/ i = 1 \/ i = 2)%Z as [-> | [-> | ->]] by lia; [fold a|fold b|fold c].
    + transitivity ((a * J 0%Z 0%Z + b * J 1%Z 0%Z + c * J 2%Z 0%Z) * (J 1%Z 1%Z * J 2%Z 2%Z - J 1%Z 2%Z * J 2%Z 1%Z)
        + (a * J 0%Z 1%Z + b * J 1%Z 1%Z + c * J 2%Z 1%Z) * (J 1%Z 2%Z * J 2%Z 0%Z - J 1%Z 0%Z * J 2%Z 2%Z)
        + (a * J 0%Z 2%Z + b * J 1%Z 2%Z + c * J 2%Z 2%Z) * (J 1%Z 0%Z * J 2%Z 1%Z - J 1%Z 1%Z * J 2%Z 0%Z)); [ring|]. rewrite E0, E1, E2. ring.
    + transitivity ((a * J 0%Z 0%Z + b * J 1%Z 0%Z + c * J 2%Z 0%Z) * (J 2%Z 1%Z * J 0%Z 2%Z - J 2%Z 2%Z * J 0%Z 1%Z)
        + (a * J 0%Z 1%Z + b * J 1%Z 1%Z + c * J 2%Z 1%Z) * (J 2%Z 2%Z * J 0%Z 0%Z - J 2%Z 0%Z * J 0%Z 2%Z)
        + (a * J 0%Z 2%Z + b * J 1%Z 2%Z + c * J 2%Z 2%Z) * (J 2%Z 0%Z * J 0%Z 1%Z - J 2%Z 1%Z * J 0%Z 0%Z)); [ring|]. rewrite E0, E1, E2. ring.
    + transitivity ((a * J 0%Z 0%Z + b * J 1%Z 0%Z + c * J 2%Z 0%Z) * (J 0%Z 1%Z * J 1%Z 2%Z - J 0%Z 2%Z * J 1%Z 1%Z)
        + (a * J 0%Z 1%Z + b * J 1%Z 1%Z + c * J 2%Z 1%Z) * (J 0%Z 2%Z * J 1%Z 0%Z - J 0%Z 0%Z * J 1%Z 2%Z)
        + (a * J 0%Z 2%Z + b * J 1%Z 2%Z + c * J 2%Z 2%Z) * (J 0%Z 0%Z * J 1%Z 1%Z - J 0%Z 1%Z * J 1%Z 0%Z)); [ring|]. rewrite E0, E1, E2. ring.
Qed.
(** Scaling and permuting columns keeps a matrix regular. *)
Definition injects (d : nat) (tau : Z -> Z) : Prop :=
  (forall b, (0 <= b < Z.of_nat d)%Z -> (0 <= tau b < Z.of_nat d)%Z) /\
  (forall b c, (0 <= b < Z.of_nat d)%Z -> (0 <= c < Z.of_nat d)%Z -> tau b = tau c -> b = c).
Lemma det_move d J J' be tau : (1 <= d <= 3)%nat -> injects d tau -> (forall b, be b <> 0) ->
  (forall a b, (0 <= a < Z.of_nat d)%Z -> (0 <= b < Z.of_nat d)%Z -> J' a b = be b * J a (tau b)) -> det d J <> 0 -> det d J' <> 0.
Proof.
  intros Hd [HI HJ] Hb E D. destruct d as [|[|[|[|d]]]]; try lia; cbn [det] in *.
  - rewrite E by lia. replace (tau 0%Z) with 0%Z by (specialize (HI 0%Z ltac:(lia)); lia). apply Rmult_integral_contrapositive_currified; auto.
  - rewrite !E by lia. pose proof (HI 0%Z ltac:(lia)) as I0. pose proof (HI 1%Z ltac:(lia)) as I1.
    assert (tau 0%Z <> tau 1%Z) by (intros e; apply HJ in e; lia).
    assert (P : be 0%Z * be 1%Z <> 0) by (apply Rmult_integral_contrapositive_currified; auto).
    assert ((tau 0 = 0 /\ tau 1 = 1 \/ tau 0 = 1 /\ tau 1 = 0)%Z) as C by lia.
    intros Z0. apply D. clear D HI HJ. destruct C as [[T0 T1]|[T0 T1]]; rewrite T0, T1 in Z0; apply (Rmult_eq_reg_l (be 0%Z * be 1%Z)); auto; rewrite Rmult_0_r; (rewrite <- Z0; ring) || (rewrite <- Ropp_0, <- Z0; ring).
  - rewrite !E by lia. pose proof (HI 0%Z ltac:(lia)) as I0. pose proof (HI 1%Z ltac:(lia)) as I1. pose proof (HI 2%Z ltac:(lia)) as I2.
    assert (tau 0%Z <> tau 1%Z) by (intros e; apply HJ in e; lia). assert (tau 0%Z <> tau 2%Z) by (intros e; apply HJ in e; lia).
    assert (tau 1%Z <> tau 2%Z) by (intros e; apply HJ in e; lia).
    assert (P : be 0%Z * be 1%Z * be 2%Z <> 0) by (repeat apply Rmult_integral_contrapositive_currified; auto).
    assert ((tau 0 = 0 /\ tau 1 = 1 /\ tau 2 = 2 \/ tau 0 = 0 /\ tau 1 = 2 /\ tau 2 = 1 \/ tau 0 = 1 /\ tau 1 = 0 /\ tau 2 = 2 \/
             tau 0 = 1 /\ tau 1 = 2 /\ tau 2 = 0 \/ tau 0 = 2 /\ tau 1 = 0 /\ tau 2 = 1 \/ tau 0 = 2 /\ tau 1 = 1 /\ tau 2 = 0)%Z) as C by lia.
    intros Z0. apply D. clear D HI HJ.
    repeat destruct C as [C|C]; destruct C as (T0 & T1 & T2); rewrite T0, T1, T2 in Z0; apply (Rmult_eq_reg_l (be 0%Z * be 1%Z * be 2%Z)); auto; rewrite Rmult_0_r;
      (rewrite <- Z0; ring) || (rewrite <- Ropp_0, <- Z0; ring).
Qed.

(** ** The points as the fields of an object *)
Definition trunc (nrb : nurbs Rn) : nurbs Rn := mkNurbs (n_axes nrb) 4 (n_arr nrb).
Lemma trunc_wf nrb : wf_nurbs nrb -> wf_nurbs (trunc nrb).
Proof. intros (H1 & H2 & H3). split; [auto|]. split; [auto|]. cbn. lia. Qed.
Lemma points_trunc junk junk2 nrb xs J : wf_nurbs nrb -> good_args (spec_axes nrb) xs ->
  gradient (N:=Rn) junk junk2 nrb (Some (points_nd nrb)) (map Some xs) false = Ok J ->
  exists J2, derivative (N:=Rn) junk junk2 (trunc nrb) 1 None (map Some xs) false = Ok J2 /\ forall idx a D, J idx a D = J2 idx a D.
Proof.
  intros W G E.
  assert (HP : field_of nrb (Some (points_nd nrb)) 3 (fun i c => nd_get (points_nd nrb) (i ++ [c]))) by (right; split; [reflexivity|]; split; [lia|reflexivity]).
  assert (HQ : field_of (trunc nrb) None 3 (fun i c => n_arr nrb i c / n_arr nrb i 3%Z)) by (left; auto).
  destruct (field_of_ok _ _ _ _ HP) as [EP _]. destruct (field_of_ok _ _ _ _ HQ) as [EQ _].
  unfold gradient in E. rewrite (der_core_ok junk junk2 nrb 1 _ xs _ _ false W G ltac:(lia) EP ltac:(lia) ltac:(discriminate)) in E. injection E as <-.
  eexists. split; [exact (der_core_ok junk junk2 (trunc nrb) 1 _ xs _ _ false (trunc_wf _ W) G ltac:(lia) EQ ltac:(lia) ltac:(discriminate))|].
  intros idx a D. cbv zeta. cbn [trunc n_axes n_arr]. unfold d_interp, Interpolate. rewrite !asum_lsum. apply lsum_ext. intros t _. cbn [points_nd nd_get].
  rewrite removelast_last, last_last. reflexivity.
Qed.

(** ** The general lemma *)
Lemma mapped_move j j2 k k2 nrb nrb' xs xs' G G' J : wf_nurbs nrb -> wf_nurbs nrb' -> (1 <= length (n_axes nrb))%nat -> length (n_axes nrb') = length (n_axes nrb) ->
  good_args (spec_axes nrb) xs -> good_args (spec_axes nrb') xs' ->
  gradient (N:=Rn) j j2 nrb None (map Some xs) true = Ok G ->
  gradient (N:=Rn) k k2 nrb' None (map Some xs') true = Ok G' ->
  gradient (N:=Rn) j j2 nrb (Some (points_nd nrb)) (map Some xs) false = Ok J ->
  forall idx idx' tau be, in_range xs idx -> in_range xs' idx' -> injects (length (n_axes nrb)) tau -> (forall b, be b <> 0) ->
  (forall g g' q b, derivative (N:=Rn) j j2 nrb 1 None (map Some xs) false = Ok g -> derivative (N:=Rn) k k2 nrb' 1 None (map Some xs') false = Ok g' ->
     (0 <= b < Z.of_nat (length (n_axes nrb)))%Z -> g' idx' q [b] = be b * g idx q [tau b]) ->
  (forall g g' q b, derivative (N:=Rn) j j2 (trunc nrb) 1 None (map Some xs) false = Ok g -> derivative (N:=Rn) k k2 (trunc nrb') 1 None (map Some xs') false = Ok g' ->
     (0 <= b < Z.of_nat (length (n_axes nrb)))%Z -> g' idx' q [b] = be b * g idx q [tau b]) ->
  det (length (n_axes nrb)) (fun a b => J idx a [b]) <> 0 ->
  forall q i, (0 <= i < Z.of_nat (length (n_axes nrb)))%Z -> G' idx' q [i] = G idx q [i].
Proof.
  intros W W' Hd HL HG HG' EG EG' EJ idx idx' tau be Rg Rg' HI Hb Hg HJ D q i Hi.
  assert (Hd3 : (length (n_axes nrb) <= 3)%nat) by (destruct W; lia).
  assert (HF : exists nc F, field_of nrb None nc F).
  { destruct (Z.eq_dec (n_comp nrb) 4) as [e|e]; [do 2 eexists; left; split; [exact e|split; reflexivity]|]. do 2 eexists. right. split; [destruct W as (_ & _ & W); lia|split; reflexivity]. }
  assert (HF' : exists nc F, field_of nrb' None nc F).
  { destruct (Z.eq_dec (n_comp nrb') 4) as [e|e]; [do 2 eexists; left; split; [exact e|split; reflexivity]|]. do 2 eexists. right. split; [destruct W' as (_ & _ & W'); lia|split; reflexivity]. }
  destruct HF as (nc & F & HF). destruct HF' as (nc' & F' & HF').
  destruct (C43_mapped_gradient nrb xs None nc F W Hd HG HF j j2) as (G1 & g & J1 & E1 & E2 & E3 & Ch).
  rewrite EG in E1. injection E1 as <-. rewrite EJ in E3. injection E3 as <-.
  destruct (C43_mapped_gradient nrb' xs' None nc' F' W' ltac:(lia) HG' HF' k k2) as (G2 & g' & J' & E1' & E2' & E3' & Ch').
  rewrite EG' in E1'. injection E1' as <-.
  destruct (points_trunc _ _ _ _ _ W HG EJ) as (JJ & T1 & T2). destruct (points_trunc _ _ _ _ _ W' HG' E3') as (JJ' & T1' & T2').
  assert (RJ : forall a b, (0 <= b < Z.of_nat (length (n_axes nrb)))%Z -> J' idx' a [b] = be b * J idx a [tau b]).
  { intros a b Hb'. rewrite T2, T2'. exact (HJ JJ JJ' a b T1 T1' Hb'). }
  assert (Rgr : forall b, (0 <= b < Z.of_nat (length (n_axes nrb)))%Z -> g' idx' q [b] = be b * g idx q [tau b]) by (intros b; exact (Hg g g' q b E2 E2')).
  rewrite HL in Ch'.
  assert (D' : det (length (n_axes nrb)) (fun a b => J' idx' a [b]) <> 0).
  { apply (det_move _ (fun a b => J idx a [b]) _ be tau); auto; lia. }
  apply (unique_solution (length (n_axes nrb)) (fun a b => J' idx' a [b]) (fun i => G' idx' q [i]) (fun i => G idx q [i]) (fun b => g' idx' q [b])); [lia|exact D'|intros b Hb'; apply Ch'; auto| |exact Hi].
  intros b Hb'. rewrite Rgr by auto. rewrite <- (Ch idx q (tau b) Rg (proj1 HI b Hb') D), <- sumZ_scal. apply sumZ_ext. intros e He. rewrite RJ by auto. ring.
Qed.

(** ** The operations *)
Lemma field_none nrb : wf_nurbs nrb -> exists nc F, field_of nrb None nc F.
Proof.
  intros W. destruct (Z.eq_dec (n_comp nrb) 4) as [e|e]; [do 2 eexists; left; split; [exact e|split; reflexivity]|].
  do 2 eexists. right. split; [destruct W as (_ & _ & W); lia|split; reflexivity].
Qed.
Lemma ok_good junk junk2 nrb order fields xs mapped G : length xs = length (n_axes nrb) -> derivative (N:=Rn) junk junk2 nrb order fields (map Some xs) mapped = Ok G -> good_args (spec_axes nrb) xs.
Proof.
  intros HL E. unfold derivative, der_core in E. destruct (eval_args junk (n_axes nrb) (map Some xs)) as [ys|] eqn:E1; [|discriminate]. clear E.
  assert (ys = xs) as ->; [|apply (eval_args_ok junk); auto]. revert xs ys HL E1. induction (n_axes nrb) as [|A axs IH]; intros [|x xs] ys HL E; try discriminate; cbn [eval_args map hd tl bind] in E.
  - injection E as <-. reflexivity.
  - destruct (eval_arg_cases A x) as [E1|[e E1]]; rewrite E1 in E; cbn [bind] in E; [|discriminate].
    destruct (eval_args junk axs (map Some xs)) as [zs|] eqn:E2; cbn [bind] in E; [|discriminate]. injection E as <-. f_equal. apply (IH xs); auto.
Qed.
Lemma mapped_calls j j2 nrb xs : wf_nurbs nrb -> (1 <= length (n_axes nrb))%nat -> good_args (spec_axes nrb) xs ->
  exists G J, gradient (N:=Rn) j j2 nrb None (map Some xs) true = Ok G /\ gradient (N:=Rn) j j2 nrb (Some (points_nd nrb)) (map Some xs) false = Ok J.
Proof.
  intros W Hd HG. destruct (field_none _ W) as (nc & F & HF). destruct (C43_mapped_gradient nrb xs None nc F W Hd HG HF j j2) as (G & g & J & E1 & _ & E3 & _). eauto.
Qed.
Lemma injects_perm d axes : (1 <= d <= 3)%nat -> permutes d axes -> injects d (fun b => nth (Z.to_nat b) axes 0%Z).
Proof.
  intros Hd (HL & ND & HI). split; intros b.
  - intros Hb. apply HI. apply nth_In. lia.
  - intros c Hb Hc E. apply (NoDup_nth axes 0%Z) in E; auto; lia.
Qed.
Lemma injects_id d : injects d (fun b => b).
Proof. split; auto. Qed.

Theorem mapped_transpose : forall nrb axes nrb', wf_nurbs nrb -> (1 <= length (n_axes nrb))%nat -> positive_weights nrb -> permutes (length (n_axes nrb)) axes ->
  transpose (N:=Rn) nrb (Some axes) = Ok nrb' ->
  forall xs, good_args (spec_axes nrb) xs ->
  forall j j2 k k2, exists G G' J, gradient (N:=Rn) j j2 nrb None (map Some xs) true = Ok G /\
    gradient (N:=Rn) k k2 nrb' None (map Some (pick (mkVec (N:=Rn) 0 (fun _ => 0)) axes xs)) true = Ok G' /\
    gradient (N:=Rn) j j2 nrb (Some (points_nd nrb)) (map Some xs) false = Ok J /\
  forall idx q i, in_range (pick (mkVec (N:=Rn) 0 (fun _ => 0)) axes xs) idx -> (0 <= i < Z.of_nat (length (n_axes nrb)))%Z ->
    det (length (n_axes nrb)) (fun a b => J (unpermute axes idx) a [b]) <> 0 ->
    G' idx q [i] = G (unpermute axes idx) q [i].
Proof.
  intros nrb axes nrb' W Hd Pw HP E xs HG j j2 k k2. pose proof HP as (HLa & ND & HI).
  destruct (transpose_spec nrb (Some axes) nrb' W) as (W1 & EA & _); [apply Forall_forall; intros z Hz; apply HI; auto|exact E|].
  assert (HL : length (n_axes nrb') = length (n_axes nrb)) by (rewrite EA, pick_len; auto).
  assert (Lx : length xs = length (n_axes nrb)) by (rewrite (good_args_length _ _ HG); apply map_length).
  destruct (derivatives_transpose nrb axes nrb' W Hd Pw HP E xs 1 HG ltac:(lia) j j2 k k2) as (g & g' & Eg & Eg' & Rl).
  unshelve epose proof (ok_good _ _ _ _ _ _ _ _ _ Eg') as HG'; [rewrite pick_len; lia|].
  destruct (mapped_calls j j2 nrb xs W Hd HG) as (G & J & EG & EJ). destruct (mapped_calls k k2 nrb' _ W1 ltac:(lia) HG') as (G' & _ & EG' & _).
  exists G, G', J. repeat (split; [auto|]). intros idx q i Rg Hi D.
  assert (HLx : (1 <= length axes <= 3)%nat) by (destruct W; lia). assert (HPx : permutes (length axes) axes) by (rewrite HLa; auto).
  destruct (pick_params axes HLx HPx xs idx ltac:(lia) Rg) as [Rg0 _].
  refine (mapped_move j j2 k k2 nrb nrb' xs _ G G' J W W1 Hd HL HG HG' EG EG' EJ (unpermute axes idx) idx (fun b => nth (Z.to_nat b) axes 0%Z) (fun _ => 1) Rg0 Rg _ _ _ _ D q i Hi).
  - apply injects_perm; [lia|auto].
  - intros; lra.
  - intros g0 g0' q0 b Eg0 Eg0' Hb. rewrite Eg in Eg0. injection Eg0 as <-. rewrite Eg' in Eg0'. injection Eg0' as <-.
    rewrite (Rl idx q0 [b] Rg eq_refl ltac:(constructor; auto)). cbn [map]. symmetry. apply Rmult_1_l.
  - intros g0 g0' q0 b Eg0 Eg0' Hb.
    assert (Et : transpose (N:=Rn) (trunc nrb) (Some axes) = Ok (trunc nrb')).
    { clear - E. unfold transpose in *. change (n_dim (trunc nrb)) with (n_dim nrb). destruct (assert _); [|discriminate]. cbn [bind] in *.
      destruct (negb _); [discriminate|]. destruct (negb _); [discriminate|]. destruct (negb _); [discriminate|]. injection E as <-. reflexivity. }
    destruct (derivatives_transpose (trunc nrb) axes (trunc nrb') (trunc_wf _ W) Hd Pw HP Et xs 1 HG ltac:(lia) j j2 k k2) as (t & t' & Et1 & Et1' & Rt).
    rewrite Et1 in Eg0. injection Eg0 as <-. rewrite Et1' in Eg0'. injection Eg0' as <-.
    rewrite (Rt idx q0 [b] Rg eq_refl ltac:(constructor; auto)). cbn [map]. symmetry. apply Rmult_1_l.
Qed.
Lemma injects_turn i j d : (i < d)%nat -> (j < d)%nat -> injects d (turn i j).
Proof.
  intros Hi Hj. unfold turn. split; intros b.
  - intros Hb. repeat match goal with |- context [if ?c then _ else _] => destruct c end; lia.
  - intros c Hb Hc. repeat match goal with |- context [if ?c then _ else _] => destruct c eqn:? end; rewrite ?Nat.eqb_eq, ?Nat.eqb_neq, ?Z.eqb_eq, ?Z.eqb_neq in *; lia.
Qed.
Theorem mapped_swap : forall nrb ax1 ax2 i j nrb', wf_nurbs nrb -> positive_weights nrb -> py_axis (n_dim nrb) ax1 = Ok i -> py_axis (n_dim nrb) ax2 = Ok j ->
  swap (N:=Rn) nrb ax1 ax2 = Ok nrb' ->
  forall xs, good_args (spec_axes nrb) xs ->
  forall j1 j2 k1 k2, exists G G' J, gradient (N:=Rn) j1 j2 nrb None (map Some xs) true = Ok G /\
    gradient (N:=Rn) k1 k2 nrb' None (map Some (lswap i j (mkVec (N:=Rn) 0 (fun _ => 0)) xs)) true = Ok G' /\
    gradient (N:=Rn) j1 j2 nrb (Some (points_nd nrb)) (map Some xs) false = Ok J /\
  forall idx q c, in_range (lswap i j (mkVec (N:=Rn) 0 (fun _ => 0)) xs) idx -> (0 <= c < Z.of_nat (length (n_axes nrb)))%Z ->
    det (length (n_axes nrb)) (fun a b => J (lswap i j 0%Z idx) a [b]) <> 0 ->
    G' idx q [c] = G (lswap i j 0%Z idx) q [c].
Proof.
  intros nrb ax1 ax2 i j nrb' W Pw E1 E2 E xs HG j1 j2 k1 k2. pose proof (py_axis_dim _ _ _ E1) as Hi. pose proof (py_axis_dim _ _ _ E2) as Hj.
  destruct (swap_spec nrb ax1 ax2 i j nrb' W E1 E2 E) as (W1 & EA & _).
  assert (HL : length (n_axes nrb') = length (n_axes nrb)) by (rewrite EA, lswap_length; auto).
  assert (Lx : length xs = length (n_axes nrb)) by (rewrite (good_args_length _ _ HG); apply map_length).
  assert (Hd : (1 <= length (n_axes nrb))%nat) by lia.
  destruct (derivatives_swap nrb ax1 ax2 i j nrb' W Pw E1 E2 E xs 1 HG ltac:(lia) j1 j2 k1 k2) as (g & g' & Eg & Eg' & Rl).
  unshelve epose proof (ok_good _ _ _ _ _ _ _ _ _ Eg') as HG'; [rewrite lswap_length; lia|].
  destruct (mapped_calls j1 j2 nrb xs W Hd HG) as (G & J & EG & EJ). destruct (mapped_calls k1 k2 nrb' _ W1 ltac:(lia) HG') as (G' & _ & EG' & _).
  exists G, G', J. repeat (split; [auto|]). intros idx q c Rg Hc D.
  assert (Rg0 : in_range xs (lswap i j 0%Z idx)).
  { assert (W3 : (length (n_axes nrb) <= 3)%nat) by (destruct W; lia). pose proof (Forall2_len _ _ _ Rg) as Li. rewrite lswap_length in Li.
    rewrite <- (exch_pick _ _ _ (length (n_axes nrb))) in Rg by auto.
    destruct (pick_params (exch i j (length (n_axes nrb))) ltac:(unfold exch; rewrite lswap_length, Blossom.zseq_length; lia) ltac:(unfold exch; rewrite lswap_length, Blossom.zseq_length; apply exch_permutes; auto) xs idx
       ltac:(unfold exch; rewrite lswap_length, Blossom.zseq_length; lia) Rg) as [R0 _].
    rewrite exch_unpermute in R0; auto; lia. }
  refine (mapped_move j1 j2 k1 k2 nrb nrb' xs _ G G' J W W1 Hd HL HG HG' EG EG' EJ (lswap i j 0%Z idx) idx (turn i j) (fun _ => 1) Rg0 Rg _ _ _ _ D q c Hc).
  - apply injects_turn; auto.
  - intros; lra.
  - intros g0 g0' q0 b Eg0 Eg0' Hb. rewrite Eg in Eg0. injection Eg0 as <-. rewrite Eg' in Eg0'. injection Eg0' as <-.
    rewrite (Rl idx q0 [b] Rg eq_refl ltac:(constructor; auto)). cbn [map]. symmetry. apply Rmult_1_l.
  - intros g0 g0' q0 b Eg0 Eg0' Hb.
    assert (Et : swap (N:=Rn) (trunc nrb) ax1 ax2 = Ok (trunc nrb')).
    { clear - E E1 E2. unfold swap in *. change (n_dim (trunc nrb)) with (n_dim nrb). rewrite E1, E2 in *. cbn [bind] in *. injection E as <-. reflexivity. }
    destruct (derivatives_swap (trunc nrb) ax1 ax2 i j (trunc nrb') (trunc_wf _ W) Pw E1 E2 Et xs 1 HG ltac:(lia) j1 j2 k1 k2) as (t & t' & Et1 & Et1' & Rt).
    rewrite Et1 in Eg0. injection Eg0 as <-. rewrite Et1' in Eg0'. injection Eg0' as <-.
    rewrite (Rt idx q0 [b] Rg eq_refl ltac:(constructor; auto)). cbn [map]. symmetry. apply Rmult_1_l.
Qed.
Lemma map_arg_range a f xs idx : in_range (map_arg a f xs) idx <-> in_range xs idx.
Proof.
  unfold in_range, map_arg. revert a idx. induction xs as [|x xs IH]; intros a idx; [destruct a; reflexivity|]. destruct a as [|a]; cbn [lset nth].
  - split; intros F; inversion F; subst; constructor; auto.
  - split; intros F; inversion F; subst; constructor; auto; apply (IH a); auto.
Qed.
Theorem mapped_reverse : forall nrb ax a nrb', wf_nurbs nrb -> py_axis (n_dim nrb) ax = Ok a -> positive_weights nrb ->
  let A := get_axis nrb a in let lo := a_lo A in let hi := a_hi A in
  continuous_axis A -> reverse (N:=Rn) nrb [ax] = Ok nrb' ->
  forall xs, good_args (spec_axes nrb) xs ->
  forall j j2 k k2, exists G G' J, gradient (N:=Rn) j j2 nrb None (map Some xs) true = Ok G /\
    gradient (N:=Rn) k k2 nrb' None (map Some (map_arg a (fun u => lo + hi - u) xs)) true = Ok G' /\
    gradient (N:=Rn) j j2 nrb (Some (points_nd nrb)) (map Some xs) false = Ok J /\
  forall idx q i, in_range xs idx -> (0 <= i < Z.of_nat (length (n_axes nrb)))%Z ->
    let u := nth a (params xs idx) 0 in
    (lo < u < hi -> (mulA A u < a_deg A)%Z) ->
    det (length (n_axes nrb)) (fun a b => J idx a [b]) <> 0 ->
    G' idx q [i] = G idx q [i].
Proof.
  intros nrb ax a nrb' W Ea Pw A lo hi Cn E xs HG j j2 k k2. pose proof (py_axis_dim _ _ _ Ea) as Ha.
  assert (Hd : (1 <= length (n_axes nrb))%nat) by lia.
  assert (E0 := E). unfold reverse in E0. cbn [reverse_axes] in E0. rewrite Ea in E0. cbn [bind] in E0. injection E0 as E0.
  destruct (reverse1_spec nrb a W Ha Cn) as (W1 & _). rewrite E0 in W1.
  assert (HL : length (n_axes nrb') = length (n_axes nrb)) by (rewrite <- E0; apply lset_length).
  assert (Lx : length xs = length (n_axes nrb)) by (rewrite (good_args_length _ _ HG); apply map_length).
  destruct (derivatives_reverse nrb ax a nrb' W Ea Pw Cn E xs 1 HG ltac:(lia) j j2 k k2) as (g & g' & Eg & Eg' & Rl).
  fold A lo hi in Eg', Rl.
  unshelve epose proof (ok_good _ _ _ _ _ _ _ _ _ Eg') as HG'; [unfold map_arg; rewrite lset_length; lia|].
  destruct (mapped_calls j j2 nrb xs W Hd HG) as (G & J & EG & EJ). destruct (mapped_calls k k2 nrb' _ W1 ltac:(lia) HG') as (G' & _ & EG' & _).
  exists G, G', J. repeat (split; [auto|]). intros idx q i Rg Hi u Hu D.
  assert (Rg' : in_range (map_arg a (fun u => lo + hi - u) xs) idx) by (apply map_arg_range; auto).
  assert (Hm : forall b, (lo < u < hi -> mulA A u = 0%Z \/ (mulA A u + Z.of_nat (count_occ Z.eq_dec [b] (Z.of_nat a)) <= a_deg A)%Z)).
  { intros b I. specialize (Hu I). right. cbn [count_occ]. destruct (Z.eq_dec b (Z.of_nat a)); lia. }
  refine (mapped_move j j2 k k2 nrb nrb' xs _ G G' J W W1 Hd HL HG HG' EG EG' EJ idx idx (fun b => b) (fun b => (-1) ^ count_occ Z.eq_dec [b] (Z.of_nat a)) Rg Rg' (injects_id _) _ _ _ D q i Hi).
  - intros b. apply pow_nonzero. lra.
  - intros g0 g0' q0 b Eg0 Eg0' Hb. rewrite Eg in Eg0. injection Eg0 as <-. rewrite Eg' in Eg0'. injection Eg0' as <-.
    exact (Rl idx q0 [b] Rg eq_refl ltac:(constructor; auto) (Hm b)).
  - intros g0 g0' q0 b Eg0 Eg0' Hb.
    assert (Et : reverse (N:=Rn) (trunc nrb) [ax] = Ok (trunc nrb')).
    { unfold reverse. cbn [reverse_axes]. change (n_dim (trunc nrb)) with (n_dim nrb). rewrite Ea. cbn [bind]. rewrite <- E0. reflexivity. }
    destruct (derivatives_reverse (trunc nrb) ax a (trunc nrb') (trunc_wf _ W) Ea Pw Cn Et xs 1 HG ltac:(lia) j j2 k k2) as (t & t' & Et1 & Et1' & Rt).
    change (get_axis (trunc nrb) a) with A in Et1', Rt. fold lo hi in Et1', Rt.
    rewrite Et1 in Eg0. injection Eg0 as <-. rewrite Et1' in Eg0'. injection Eg0' as <-.
    exact (Rt idx q0 [b] Rg eq_refl ltac:(constructor; auto) (Hm b)).
Qed.
Theorem mapped_remap : forall nrb ax a start end_ nrb', wf_nurbs nrb -> py_axis (n_dim nrb) ax = Ok a -> positive_weights nrb ->
  let A := get_axis nrb a in let lo := a_lo A in let hi := a_hi A in
  let c := match start with Some c => c | None => lo end in
  let d := match end_ with Some d => d | None => hi end in
  let g := fun x => c + (x - lo) * (d - c) / (hi - lo) in
  remap (N:=Rn) nrb ax start end_ = Ok nrb' ->
  forall xs, good_args (spec_axes nrb) xs ->
  forall j j2 k k2, exists G G' J, gradient (N:=Rn) j j2 nrb None (map Some xs) true = Ok G /\
    gradient (N:=Rn) k k2 nrb' None (map Some (map_arg a g xs)) true = Ok G' /\
    gradient (N:=Rn) j j2 nrb (Some (points_nd nrb)) (map Some xs) false = Ok J /\
  forall idx q i, in_range xs idx -> (0 <= i < Z.of_nat (length (n_axes nrb)))%Z ->
    det (length (n_axes nrb)) (fun a b => J idx a [b]) <> 0 ->
    G' idx q [i] = G idx q [i].
Proof.
  intros nrb ax a start end_ nrb' W Ea Pw A lo hi c d g0 E xs HG j j2 k k2. pose proof (py_axis_dim _ _ _ Ea) as Ha.
  assert (Hd : (1 <= length (n_axes nrb))%nat) by lia.
  pose proof (remap_full nrb ax a start end_ nrb' W Ea E) as RF. cbv zeta in RF. rewrite <- a_hi_eq in RF.
  change (a_knots (get_axis nrb a) (a_deg (get_axis nrb a))) with lo in RF. change (a_hi (get_axis nrb a)) with hi in RF.
  fold A in RF. fold c d in RF. destruct RF as (Hcd & W1 & (V & EA & _) & _).
  assert (WA : wf_ax (spec_ax A)) by (apply (wf_get_axis _ _ W Ha)). assert (Wk : wf_knots (a_size A - 1) (a_deg A) (a_knots A)) by apply WA.
  assert (Hlh : lo < hi).
  { pose proof (wf_first _ _ _ Wk). pose proof (wf_n _ _ _ Wk). pose proof (wf_mono _ _ _ Wk (a_deg A + 1)%Z (a_size A - 1 + 1)%Z ltac:(pose proof (wf_p _ _ _ Wk); lia) ltac:(lia) ltac:(pose proof (wf_p _ _ _ Wk); lia)).
    unfold lo, hi. rewrite a_hi_eq. unfold a_lo. change (T Rn) with R in *. lra. }
  assert (HL : length (n_axes nrb') = length (n_axes nrb)) by (rewrite EA; apply lset_length).
  assert (Lx : length xs = length (n_axes nrb)) by (rewrite (good_args_length _ _ HG); apply map_length).
  destruct (derivatives_remap nrb ax a start end_ nrb' W Ea Pw E xs 1 HG ltac:(lia) j j2 k k2) as (g & g' & Eg & Eg' & Rl).
  fold A lo hi c d in Eg', Rl. fold g0 in Eg'.
  unshelve epose proof (ok_good _ _ _ _ _ _ _ _ _ Eg') as HG'; [unfold map_arg; rewrite lset_length; lia|].
  destruct (mapped_calls j j2 nrb xs W Hd HG) as (G & J & EG & EJ). destruct (mapped_calls k k2 nrb' _ W1 ltac:(lia) HG') as (G' & _ & EG' & _).
  exists G, G', J. repeat (split; [auto|]). intros idx q i Rg Hi D.
  assert (Rg' : in_range (map_arg a g0 xs) idx) by (apply map_arg_range; auto).
  assert (Nz : (d - c) / (hi - lo) <> 0) by (apply Rgt_not_eq, Rdiv_lt_0_compat; change (T Rn) with R in *; lra).
  set (r := (d - c) / (hi - lo)) in *.
  assert (K : forall b x y, x = r ^ count_occ Z.eq_dec [b] (Z.of_nat a) * y -> y = / r ^ count_occ Z.eq_dec [b] (Z.of_nat a) * x).
  { intros b x y ->. field. apply pow_nonzero. auto. }
  refine (mapped_move j j2 k k2 nrb nrb' xs _ G G' J W W1 Hd HL HG HG' EG EG' EJ idx idx (fun b => b) (fun b => / r ^ count_occ Z.eq_dec [b] (Z.of_nat a)) Rg Rg' (injects_id _) _ _ _ D q i Hi).
  - intros b. apply Rinv_neq_0_compat, pow_nonzero. auto.
  - intros h h' q0 b Eg0 Eg0' Hb. rewrite Eg in Eg0. injection Eg0 as <-. rewrite Eg' in Eg0'. injection Eg0' as <-.
    apply K. exact (Rl idx q0 [b] Rg eq_refl ltac:(constructor; auto)).
  - intros h h' q0 b Eg0 Eg0' Hb.
    assert (Et : remap (N:=Rn) (trunc nrb) ax start end_ = Ok (trunc nrb')).
    { clear - E Ea. unfold remap in *. change (n_dim (trunc nrb)) with (n_dim nrb). rewrite Ea in *. cbn [bind] in *. change (get_axis (trunc nrb) a) with (get_axis nrb a).
      destruct (_ && _); [injection E as <-; reflexivity|]. destruct (assert _); [|discriminate]. cbn [bind] in *. injection E as <-. reflexivity. }
    destruct (derivatives_remap (trunc nrb) ax a start end_ (trunc nrb') (trunc_wf _ W) Ea Pw Et xs 1 HG ltac:(lia) j j2 k k2) as (t & t' & Et1 & Et1' & Rt).
    change (get_axis (trunc nrb) a) with A in Et1', Rt. fold lo hi in Et1', Rt. fold c d in Et1', Rt. fold g0 in Et1'.
    rewrite Et1 in Eg0. injection Eg0 as <-. rewrite Et1' in Eg0'. injection Eg0' as <-.
    apply K. exact (Rt idx q0 [b] Rg eq_refl ltac:(constructor; auto)).
Qed.
