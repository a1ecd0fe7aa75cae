(** swap and transpose permute the parameters. *)
From Coq Require Import ZArith Reals List Lia Lra Bool FunctionalExtensionality.
From Verif Require Import Num Loop ModelBspline ModelBSp ModelNurbs Spec SumZ
  SpecNurbs ProofNet ProofCall ProofNurbs ProofMethods ProofGeom.
Import ListNotations.
Local Open Scope R_scope.

Definition flip2 {A} (l : list A) : list A := match l with x :: y :: r => y :: x :: r | _ => l end.

Lemma tsum_flip a b l P u v us :
  tsum (a :: b :: l) P (u :: v :: us) = tsum (b :: a :: l) (fun idx => P (flip2 idx)) (v :: u :: us).
Proof.
  cbn [tsum flip2]. etransitivity.
  - apply sumZ_ext. intros i Hi. rewrite <- sumZ_scal. reflexivity.
  - rewrite sumZ_swap. apply sumZ_ext. intros j Hj. rewrite <- sumZ_scal. apply sumZ_ext. intros i Hi. ring.
Qed.
Lemma tsum_cons_ext a l l' P Q u us us' :
  (forall i, tsum l (fun idx => P (i :: idx)) us = tsum l' (fun idx => Q (i :: idx)) us') ->
  tsum (a :: l) P (u :: us) = tsum (a :: l') Q (u :: us').
Proof. intros H. cbn [tsum]. apply sumZ_ext. intros i Hi. rewrite H. reflexivity. Qed.

Definition flip12 {A} (l : list A) : list A := match l with x :: r => x :: flip2 r | _ => l end.
Lemma tsum_flip12 a b c l P u v w us :
  tsum (a :: b :: c :: l) P (u :: v :: w :: us) = tsum (a :: c :: b :: l) (fun idx => P (flip12 idx)) (u :: w :: v :: us).
Proof. apply tsum_cons_ext. intros i. rewrite tsum_flip. reflexivity. Qed.

Lemma nth_lswap {A} i j q (d : A) l : (i < length l)%nat -> (j < length l)%nat ->
  nth q (lswap i j d l) d = if Nat.eqb q i then nth j l d else if Nat.eqb q j then nth i l d else nth q l d.
Proof.
  intros Hi Hj. unfold lswap. destruct (Nat.eqb_spec q i) as [->|H1].
  - apply nth_lset. rewrite lset_length. auto.
  - rewrite nth_lset_other by auto. destruct (Nat.eqb_spec q j) as [->|H2].
    + apply nth_lset. auto.
    + apply nth_lset_other. auto.
Qed.
Lemma lswap_length {A} i j (d : A) l : length (lswap i j d l) = length l.
Proof. unfold lswap. rewrite !lset_length. auto. Qed.
Lemma lswap_lswap {A} i j (d : A) l : (i < length l)%nat -> (j < length l)%nat -> lswap i j d (lswap i j d l) = l.
Proof.
  intros Hi Hj. apply (nth_ext _ _ d d); [rewrite !lswap_length; auto|]. intros q Hq.
  rewrite nth_lswap by (rewrite lswap_length; auto). rewrite !nth_lswap by auto.
  destruct (Nat.eqb_spec q i), (Nat.eqb_spec q j), (Nat.eqb_spec j i), (Nat.eqb_spec j j), (Nat.eqb_spec i i), (Nat.eqb_spec i j); subst; auto; congruence.
Qed.

(** Exchanging two axes: parameters, arguments and indices are exchanged. *)
Theorem swap_spec nrb ax1 ax2 i j nrb' : wf_nurbs nrb ->
  py_axis (n_dim nrb) ax1 = Ok i -> py_axis (n_dim nrb) ax2 = Ok j ->
  swap (N:=Rn) nrb ax1 ax2 = Ok nrb' ->
  wf_nurbs nrb' /\ n_axes nrb' = lswap i j axis0 (n_axes nrb) /\
  (forall us c, length us = length (n_axes nrb) -> hom nrb' c (lswap i j 0 us) = hom nrb c us) /\
  (forall xs, good_args (spec_axes nrb) xs ->
     same_values nrb nrb' xs (lswap i j (mkVec (N:=Rn) 0 (fun _ => 0)) xs) (lswap i j 0%Z)).
Proof.
  intros W E1 E2 E. unfold swap in E. rewrite E1, E2 in E. cbn [bind] in E. injection E as <-.
  pose proof (py_axis_dim _ _ _ E1) as Hi. pose proof (py_axis_dim _ _ _ E2) as Hj.
  set (nrb' := mkNurbs _ _ _). clear E1 E2.
  assert (HH : forall us c, length us = length (n_axes nrb) -> hom nrb' c (lswap i j 0 us) = hom nrb c us).
  { intros us c Hl. unfold hom, nrb', spec_axes. cbn [n_axes n_arr]. destruct nrb as [axes nc arr]. cbn [n_axes n_comp n_arr] in *.
    destruct W as [Wl _]. unfold spec_axes in Wl. cbn [n_axes] in Wl. clear nrb'.
    destruct axes as [|x [|y [|z [|]]]]; simpl in Wl, Hi, Hj, Hl; try lia;
    destruct us as [|u [|v [|w [|]]]]; simpl in Hl; try lia;
    destruct i as [|[|[|]]]; try lia; destruct j as [|[|[|]]]; try lia; cbn [lswap lset nth map]; try reflexivity.
    all: try (rewrite (tsum_flip (spec_ax x)); reflexivity).
    all: try (rewrite (tsum_flip12 (spec_ax x) (spec_ax y)); reflexivity).
    all: symmetry; rewrite (tsum_flip (spec_ax x)), (tsum_flip12 (spec_ax y)), (tsum_flip (spec_ax y)); reflexivity. }
  assert (ES : spec_axes nrb' = lswap i j (spec_ax axis0) (spec_axes nrb)).
  { unfold spec_axes, nrb', lswap. cbn [n_axes]. rewrite !map_lset, !map_nth. reflexivity. }
  assert (W' : wf_nurbs nrb').
  { destruct W as [Wl [Wf Wc]]. split; [|split; auto].
    - unfold nrb', spec_axes, lswap. cbn [n_axes]. rewrite !lset_length. auto.
    - rewrite ES. unfold lswap. unfold spec_axes at 1.
      assert (Hi' : (i < length (spec_axes nrb))%nat) by (unfold spec_axes; rewrite map_length; auto).
      assert (Hj' : (j < length (spec_axes nrb))%nat) by (unfold spec_axes; rewrite map_length; auto).
      apply Forall_lset; [apply Forall_lset; auto; apply Forall_nth'; auto|apply Forall_nth'; auto]. }
  split; auto. split; [reflexivity|]. split; auto.
  intros xs G. pose proof (good_args_length _ _ G) as Hl. unfold spec_axes in Hl. rewrite map_length in Hl.
  assert (Hi' : (i < length (spec_axes nrb))%nat) by (unfold spec_axes; rewrite map_length; auto).
  assert (Hj' : (j < length (spec_axes nrb))%nat) by (unfold spec_axes; rewrite map_length; auto).
  assert (LL : forall (A : Type) (d : A) l, length l = length xs -> lswap i j d (lswap i j d l) = l).
  { intros A d l HL. apply lswap_lswap; lia. }
  apply same_values_hom; auto.
  - rewrite ES. unfold lswap. apply Forall2_lset; [apply Forall2_lset; auto|]; apply (Forall2_nth _ _ _ _ _ _ G); auto.
  - intros idx I.
    assert (Hli : length idx = length xs).
    { apply Forall2_len in I. unfold lswap in I. rewrite !lset_length in I. lia. }
    assert (I' : in_range xs (lswap i j 0%Z idx)).
    { rewrite <- (LL _ (mkVec (N:=Rn) 0 (fun _ => 0)) xs eq_refl). unfold lswap.
      unfold lswap in I. 
      assert (Hl2 : length (lset i (nth j xs (mkVec (N:=Rn) 0 (fun _ => 0))) (lset j (nth i xs (mkVec (N:=Rn) 0 (fun _ => 0))) xs)) = length xs) by (rewrite !lset_length; auto).
      apply Forall2_lset; [apply Forall2_lset; auto|]; apply (Forall2_nth _ _ _ _ _ _ I); rewrite Hl2; lia. }
    split; auto. intros c.
    rewrite <- (HH (params xs (lswap i j 0%Z idx))) by (rewrite params_length; auto; lia).
    f_equal. destruct W as [Wl _]. unfold spec_axes in Wl. rewrite ?map_length in Wl. rewrite <- Hl in Wl, Hi, Hj. clear - Wl Hi Hj Hli.
    destruct xs as [|x [|y [|z [|]]]]; simpl in Wl, Hi, Hj, Hli; try lia;
    destruct idx as [|u [|v [|w [|]]]]; simpl in Hli; try lia;
    destruct i as [|[|[|]]]; try lia; destruct j as [|[|[|]]]; try lia; reflexivity.
Qed.

Lemma swap_twice nrb ax1 ax2 nrb1 nrb2 : swap (N:=Rn) nrb ax1 ax2 = Ok nrb1 -> swap nrb1 ax1 ax2 = Ok nrb2 ->
  n_axes nrb2 = n_axes nrb /\ n_comp nrb2 = n_comp nrb /\
  forall idx c, length idx = length (n_axes nrb) -> n_arr nrb2 idx c = n_arr nrb idx c.
Proof.
  intros E1 E2. unfold swap in *.
  destruct (py_axis (n_dim nrb) ax1) as [i|] eqn:A1; [|discriminate]. cbn [bind] in E1.
  destruct (py_axis (n_dim nrb) ax2) as [j|] eqn:A2; [|discriminate]. cbn [bind] in E1. injection E1 as <-.
  pose proof (py_axis_dim _ _ _ A1) as Hi. pose proof (py_axis_dim _ _ _ A2) as Hj.
  unfold n_dim in *. cbn [n_axes n_arr n_comp] in *. unfold lswap in E2 at 1 2. rewrite !lset_length in E2.
  rewrite A1, A2 in E2. cbn [bind] in E2. injection E2 as <-. cbn [n_axes n_arr n_comp].
  assert (LL : forall (A : Type) (d : A) l, length l = length (n_axes nrb) -> lswap i j d (lswap i j d l) = l).
  { intros A d l HL. apply lswap_lswap; lia. }
  split; [apply LL; auto|]. split; auto. intros idx c Hx. rewrite LL by auto. reflexivity.
Qed.

(** transpose with the axes given as nonnegative numbers (the default, or an explicit permutation). *)
Definition pick {A} (d : A) (axes : list Z) (l : list A) : list A := map (fun a => nth (Z.to_nat a) l d) axes.

Theorem transpose_spec nrb ax nrb' : wf_nurbs nrb ->
  let axes := match ax with Some l => l | None => rev (zseq (length (n_axes nrb)) 0) end in
  Forall (fun a => (0 <= a)%Z) axes ->
  transpose (N:=Rn) nrb ax = Ok nrb' ->
  wf_nurbs nrb' /\ n_axes nrb' = pick axis0 axes (n_axes nrb) /\
  (forall us c, length us = length (n_axes nrb) -> hom nrb' c (pick 0 axes us) = hom nrb c us) /\
  (forall xs, good_args (spec_axes nrb) xs ->
     same_values nrb nrb' xs (pick (mkVec (N:=Rn) 0 (fun _ => 0)) axes xs) (unpermute axes)).
Proof.
  intros W axes Hp E.
  assert (E0 : transpose nrb (Some axes) = Ok nrb').
  { unfold transpose in *. unfold axes in *. destruct ax as [l|]; auto. cbn [bind] in E. 
    assert (HL : length (rev (zseq (length (n_axes nrb)) 0)) = length (n_axes nrb)).
    { rewrite rev_length. clear. generalize 0%Z. induction (length (n_axes nrb)); simpl; auto. }
    unfold assert. destruct (Z.eqb_spec (Z.of_nat (length (rev (zseq (length (n_axes nrb)) 0)))) (n_dim nrb)) as [_|Hne]; [exact E|].
    exfalso. apply Hne. unfold n_dim. lia. }
  clear E. rename E0 into E. clearbody axes. clear ax.
  unfold transpose, assert, n_dim in E. destruct W as [Wl [Wf Wc]].
  assert (WlL := Wl). unfold spec_axes in Wl. rewrite ?map_length in Wl.
  destruct (Z.eqb_spec (Z.of_nat (length axes)) (Z.of_nat (length (n_axes nrb)))) as [HL|]; [|discriminate]. cbn [bind] in E.
  apply Nat2Z.inj in HL.
  replace (map (fun a : Z => if (a <? 0)%Z then (a + (Z.of_nat (length (n_axes nrb)) + 1))%Z else a) axes) with axes in E.
  2:{ symmetry. rewrite <- (map_id axes) at 2. apply map_ext_in. intros a Ha. rewrite Forall_forall in Hp. specialize (Hp a Ha).
      destruct (Z.ltb_spec a 0); lia. }
  match type of E with (if negb ?b then _ else _) = _ => destruct b eqn:F1 end; cbn [negb] in E; [|discriminate].
  match type of E with (if negb ?b then _ else _) = _ => destruct b eqn:F2 end; cbn [negb] in E; [|discriminate].
  match type of E with (if negb ?b then _ else _) = _ => destruct b eqn:F3 end; cbn [negb] in E; [|discriminate].
  injection E as <-. set (nrb' := mkNurbs _ _ _).
  assert (EA : n_axes nrb' = pick axis0 axes (n_axes nrb)).
  { unfold nrb', pick. cbn [n_axes]. clear -Hp. induction axes as [|a axes IH]; simpl; auto.
    inversion Hp; subst. rewrite IH by auto. f_equal. destruct (Z.ltb_spec a 0); [lia|].
    destruct (nth (Z.to_nat a) (n_axes nrb) axis0); reflexivity. }
  assert (ES : spec_axes nrb' = pick (spec_ax axis0) axes (spec_axes nrb)).
  { unfold spec_axes. rewrite EA. unfold pick. rewrite map_map. apply map_ext. intros a. rewrite map_nth. reflexivity. }
  assert (Hr : Forall (fun a => (Z.to_nat a < length (n_axes nrb))%nat) axes).
  { rewrite Forall_forall in *. rewrite forallb_forall in F3. intros a Ha. specialize (Hp a Ha). specialize (F3 a Ha).
    apply andb_prop in F3. destruct F3 as [_ F3]. apply Z.ltb_lt in F3. lia. }
  assert (W' : wf_nurbs nrb').
  { split; [|split; auto].
    - unfold spec_axes. rewrite ?map_length. rewrite EA. unfold pick. rewrite map_length. lia.
    - rewrite ES. unfold pick. apply Forall_forall. intros y Hy. apply in_map_iff in Hy. destruct Hy as [a [<- Ha]].
      apply Forall_nth'; auto. unfold spec_axes. rewrite map_length. rewrite Forall_forall in Hr. auto. }
  assert (Hlen : length (n_axes nrb) = length axes) by auto.
  (* all permutations of at most three axes *)
  assert (CS : (axes = [0] \/ axes = [0;1] \/ axes = [1;0] \/ axes = [0;1;2] \/ axes = [0;2;1] \/ axes = [1;0;2] \/ axes = [1;2;0]
          \/ axes = [2;0;1] \/ axes = [2;1;0])%Z \/ axes = []).
  { clear - HL Wl F2 Hr Hp. rewrite <- HL in *. clear HL.
    assert (Z3 : forall a, (0 <= a)%Z -> (Z.to_nat a < 3)%nat -> (a = 0 \/ a = 1 \/ a = 2)%Z) by lia.
    assert (Z2 : forall a, (0 <= a)%Z -> (Z.to_nat a < 2)%nat -> (a = 0 \/ a = 1)%Z) by lia.
    assert (Z1 : forall a, (0 <= a)%Z -> (Z.to_nat a < 1)%nat -> (a = 0)%Z) by lia.
    destruct axes as [|x [|y [|z [|]]]]; simpl in Wl; try lia; [right; reflexivity| | |]; left.
    - inversion_clear Hr. inversion_clear Hp. cbn [length] in *. rewrite (Z1 x); auto.
    - inversion_clear Hr as [|? ? A1 A2]. inversion_clear A2 as [|? ? A3 A4]. inversion_clear Hp as [|? ? B1 B2]. inversion_clear B2 as [|? ? B3 B4].
      cbn [length] in *. destruct (Z2 x) as [ -> | -> ], (Z2 y) as [ -> | -> ]; auto 12; simpl in F2; discriminate.
    - inversion_clear Hr as [|? ? A1 A2]. inversion_clear A2 as [|? ? A3 A4]. inversion_clear A4 as [|? ? A5 A6].
      inversion_clear Hp as [|? ? B1 B2]. inversion_clear B2 as [|? ? B3 B4]. inversion_clear B4 as [|? ? B5 B6].
      cbn [length] in *. destruct (Z3 x) as [ -> |[ -> | -> ]], (Z3 y) as [ -> |[ -> | -> ]], (Z3 z) as [ -> |[ -> | -> ]];
        auto 12; simpl in F2; discriminate. }
  assert (HH : forall us c, length us = length (n_axes nrb) -> hom nrb' c (pick 0 axes us) = hom nrb c us).
  { intros us c Hl. unfold hom. rewrite ES. unfold nrb', spec_axes. cbn [n_arr]. rewrite Hlen in Hl.
    destruct (n_axes nrb) as [|x [|y [|z [|]]]]; simpl in Wl; try lia; cbn [length] in Hlen;
    repeat match goal with H : _ \/ _ |- _ => destruct H end; subst axes; try discriminate;
    destruct us as [|u [|v [|w [|]]]]; try discriminate; cbn [pick map nth Z.to_nat]; try reflexivity.
    all: change (Pos.to_nat 1) with 1%nat; try change (Pos.to_nat 2) with 2%nat; cbn [nth]; try reflexivity.
    all: symmetry.
    - rewrite (tsum_flip (spec_ax x)); reflexivity.
    - rewrite (tsum_flip12 (spec_ax x)); reflexivity.
    - rewrite (tsum_flip (spec_ax x)); reflexivity.
    - rewrite (tsum_flip (spec_ax x)), (tsum_flip12 (spec_ax y)); reflexivity.
    - rewrite (tsum_flip12 (spec_ax x)), (tsum_flip (spec_ax x)); reflexivity.
    - rewrite (tsum_flip (spec_ax x)), (tsum_flip12 (spec_ax y)), (tsum_flip (spec_ax y)); reflexivity. }
  split; auto. split; auto. split; auto.
  intros xs G. pose proof (good_args_length _ _ G) as Hl. unfold spec_axes in Hl. rewrite map_length in Hl.
  apply same_values_hom; auto; [split; auto| |].
  - rewrite ES. unfold pick. clear CS HH. clear - G Hr. induction Hr; simpl; constructor; auto.
    apply (Forall2_nth _ _ _ _ _ _ G). unfold spec_axes. rewrite map_length. auto.
  - intros idx I. pose proof (Forall2_len _ _ _ I) as Hli. unfold pick in Hli. rewrite map_length in Hli.
    assert (Hpp : in_range xs (unpermute axes idx) /\ pick 0 axes (params xs (unpermute axes idx)) = params (pick (mkVec (N:=Rn) 0 (fun _ => 0)) axes xs) idx).
    { rewrite Hlen in Hl. clear - CS I Hli Hl.
      repeat match goal with H : _ \/ _ |- _ => destruct H end; subst axes;
      destruct xs as [|x [|y [|z [|]]]]; try discriminate;
      destruct idx as [|u [|v [|w [|]]]]; try discriminate; 
      (split; [|reflexivity]);
      repeat match goal with H : in_range _ _ |- _ => unfold in_range, pick in H; cbn in H
              | H : Forall2 _ (_ :: _) (_ :: _) |- _ => inversion_clear H end;
      unfold in_range; cbn; repeat constructor; lia. }
    destruct Hpp as [I' EP]. split; auto. intros c. rewrite <- EP. apply HH. rewrite params_length; auto.
Qed.
