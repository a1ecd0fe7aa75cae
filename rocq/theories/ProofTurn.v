(** Refining commutes with swap and transpose. *)
From Coq Require Import ZArith Reals List Bool Lia Lra.
From Verif Require Import Num Loop ModelBspline ModelBSp ModelNurbs ModelTransform Spec SpecNurbs SpecElev SumZ BLink ProofSpan ProofInsert ProofClamp ProofNet ProofCall ProofNurbs ProofMethods ProofMethods2 ProofMethods3 ProofGeom ProofGeom2
  ProofOk ProofPerm ProofIga ProofElev5 ProofRemove4 ProofCompat1 ProofCompat3 ProofRuled ProofUniq ProofEquiv.
Import ListNotations.
Local Open Scope R_scope.

(** The same call with the axes renumbered: axis [b] of the new object is axis [tau b] of the old one. *)
Definition same_call (d : Z) (tau : nat -> nat) (c c' : op * Z) : Prop :=
  fst c' = fst c /\ exists b, py_axis d (snd c') = Ok b /\ py_axis d (snd c) = Ok (tau b).

Lemma accepts_at o x ax a y ax' b j j2 x' k k2 : wf_nurbs x -> wf_nurbs y -> py_axis (n_dim x) ax = Ok a -> py_axis (n_dim y) ax' = Ok b ->
  axis_eq (get_axis x a) (get_axis y b) -> op_ok o (get_axis x a) -> run o j j2 x ax = Ok x' -> exists y', run o k k2 y ax' = Ok y'.
Proof.
  intros Wx Wy Ex Ey G Hh E. pose proof (py_axis_dim _ _ _ Ex) as Ha. pose proof (wf_get_axis _ _ Wx Ha) as WA.
  pose proof (eq_op_ok _ _ WA G o Hh) as Hh'. pose proof (ProofEquiv.e_size _ _ G) as ES. pose proof (ProofEquiv.e_deg _ _ G) as ED. pose proof (ProofEquiv.e_np _ WA) as [Hp Hn].
  destruct o as [u times|values|side|side cont|t]; cbn [run op_ok] in *.
  - destruct Hh as [Hs Hi]. destruct (insert_spec x ax a u times j x' Wx Ex Hs Hi E) as (D & H1 & H2 & _).
    apply (insert_ok y ax' b u times k Wy Ey (proj1 Hh')).
    + rewrite ES, ED. unfold in_domain. rewrite !(ProofEquiv.e_k _ _ G) by lia. exact D.
    + rewrite ES, ED, (eq_mult _ _ G) by lia. destruct times; auto.
  - destruct values as [|v0 vs] eqn:Ev; [exists y; unfold refine; reflexivity|]. rewrite <- Ev in *.
    assert (Hne : values <> []) by congruence.
    apply (proj2 (refine_ok y ax' b values k Wy Ey Hne)). destruct (proj1 (refine_ok x ax a values j Wx Ex Hne)) as [K1 K2]; [eauto|]. rewrite ES, ED. split.
    + intros v Hv. rewrite !(ProofEquiv.e_k _ _ G) by lia. auto.
    + intros v Hv. rewrite (eq_mult _ _ G) by lia. apply K2. destruct Hv as [Hv|(i & Hi & Hv)]; auto. right. exists i. split; auto. rewrite <- Hv. symmetry. apply (ProofEquiv.e_k _ _ G). lia.
  - apply (proj2 (clamp_ok y ax' b side k Wy Ey)). apply (proj1 (clamp_ok x ax a side j Wx Ex)). eauto.
  - apply (proj2 (unclamp_ok y ax' b side cont k Wy Ey)). rewrite ED. apply (proj1 (unclamp_ok x ax a side cont j Wx Ex)). eauto.
  - assert (Ht : (0 <= t)%Z). { unfold elevate, assert in E. destruct (Z.leb_spec 0 t); auto. discriminate. }
    destruct Hh' as (H1 & H2 & _). destruct (elevate_knots y ax' b t k k2 Wy Ey Ht H1 H2) as (z & _ & Ez & _). eauto.
Qed.
Lemma axis_eq_sym A B : axis_eq A B -> axis_eq B A.
Proof. intros (H1 & H2 & H3). split; [auto|]. split; [auto|]. intros i Hi. symmetry. apply H3. lia. Qed.
Lemma axis_eq_trans A B C : axis_eq A B -> axis_eq B C -> axis_eq A C.
Proof. intros (H1 & H2 & H3) (K1 & K2 & K3). split; [lia|]. split; [lia|]. intros i Hi. rewrite K3, H3 by lia. reflexivity. Qed.
Lemma axis_eq_refl A : axis_eq A A.
Proof. split; [auto|]. split; auto. Qed.
Lemma nth_mapseq (f : nat -> R) d b : (b < d)%nat -> nth b (map f (seq 0 d)) 0 = f b.
Proof. intros Hb. rewrite (nth_indep _ 0 (f 0%nat)) by (rewrite map_length, seq_length; auto). rewrite map_nth, seq_nth; auto. Qed.
Lemma eq_lohi x a y b : wf_nurbs x -> (a < length (n_axes x))%nat -> axis_eq (get_axis x a) (get_axis y b) ->
  a_lo (get_axis y b) = a_lo (get_axis x a) /\ a_hi (get_axis y b) = a_hi (get_axis x a).
Proof.
  intros W Ha G. pose proof (ProofEquiv.e_np _ (wf_get_axis _ _ W Ha)) as [Hp Hn]. rewrite !a_lo_eq, !a_hi_eq, (ProofEquiv.e_size _ _ G), (ProofEquiv.e_deg _ _ G), !(ProofEquiv.e_k _ _ G) by lia. auto.
Qed.

Section Turn.
Variables (d : nat) (tau sigma : nat -> nat).
Hypothesis T1 : forall b, (b < d)%nat -> (tau b < d)%nat /\ sigma (tau b) = b.
Hypothesis T2 : forall a, (a < d)%nat -> (sigma a < d)%nat /\ tau (sigma a) = a.
Definition turn_pars (us : list R) : list R := map (fun b => nth (tau b) us 0) (seq 0 d).
Definition back_pars (us : list R) : list R := map (fun a => nth (sigma a) us 0) (seq 0 d).
Record turned (x x' : nurbs Rn) : Prop := {
  tu_len : length (n_axes x) = d;
  tu_wf : wf_nurbs x';
  tu_len' : length (n_axes x') = d;
  tu_axes : forall b, (b < d)%nat -> axis_eq (get_axis x (tau b)) (get_axis x' b);
  tu_comp : n_comp x' = n_comp x;
  tu_hom : forall us c, in_box (spec_axes x) us -> hom x' c (turn_pars us) = hom x c us }.
Lemma turn_box x x' us : wf_nurbs x -> turned x x' -> in_box (spec_axes x) us -> in_box (spec_axes x') (turn_pars us).
Proof.
  intros W [L W' L' A _ _] I. apply in_box_lohi in I. destruct I as [Le I]. apply in_box_lohi. unfold turn_pars at 1. rewrite map_length, seq_length. split; [auto|].
  intros b Hb. rewrite L' in Hb. unfold turn_pars. rewrite nth_mapseq by auto. destruct (T1 b Hb) as [Hb' _].
  destruct (eq_lohi x (tau b) x' b W ltac:(rewrite L; exact Hb') (A b Hb)) as [-> ->]. apply I. rewrite L. exact Hb'.
Qed.
Lemma back_box x x' us : wf_nurbs x -> turned x x' -> in_box (spec_axes x') us -> in_box (spec_axes x) (back_pars us) /\ turn_pars (back_pars us) = us.
Proof.
  intros W [L W' L' A _ _] I. apply in_box_lohi in I. destruct I as [Le I]. split.
  - apply in_box_lohi. unfold back_pars at 1. rewrite map_length, seq_length. split; [auto|].
    intros a Ha. rewrite L in Ha. unfold back_pars. rewrite nth_mapseq by auto. destruct (T2 a Ha) as [Hs Et]. specialize (A (sigma a) Hs). rewrite Et in A.
    destruct (eq_lohi x a x' (sigma a) W ltac:(rewrite L; exact Ha) A) as [<- <-]. apply I. rewrite L'. exact Hs.
  - apply (nth_ext _ _ 0 0); [unfold turn_pars; rewrite map_length, seq_length, Le; auto|]. intros b Hb. unfold turn_pars in *. rewrite map_length, seq_length in Hb.
    rewrite nth_mapseq by auto. destruct (T1 b Hb) as [Hb' Es]. unfold back_pars. rewrite nth_mapseq by auto. rewrite Es. reflexivity.
Qed.
Lemma turned_step o ax ax' b j j2 x x' y : wf_nurbs x -> turned x x' -> py_axis (Z.of_nat d) ax' = Ok b -> py_axis (Z.of_nat d) ax = Ok (tau b) ->
  op_ok o (get_axis x (tau b)) -> run o j j2 x ax = Ok y ->
  forall k k2, exists y', run o k k2 x' ax' = Ok y' /\ turned y y'.
Proof.
  intros W TT Eb Ea Hh E k k2. pose proof TT as [L W' L' A C H].
  assert (Eb' : py_axis (n_dim x') ax' = Ok b) by (unfold n_dim; rewrite L'; auto). assert (Ea' : py_axis (n_dim x) ax = Ok (tau b)) by (unfold n_dim; rewrite L; auto).
  pose proof (py_axis_dim _ _ _ Ea') as Ha. pose proof (py_axis_dim _ _ _ Eb') as Hb. rewrite L' in Hb.
  pose proof (A b Hb) as G. pose proof (wf_get_axis _ _ W Ha) as WA.
  destruct (accepts_at o x ax (tau b) x' ax' b j j2 y k k2 W W' Ea' Eb' G Hh E) as [y' E']. exists y'. split; auto.
  destruct (op_spec o x ax (tau b) j j2 y W Ea' Hh E) as (P & B & X & Af).
  destruct (op_spec o x' ax' b k k2 y' W' Eb' (eq_op_ok _ _ WA G o Hh) E') as (P' & B' & X' & Af').
  assert (L1 : length (n_axes y) = d) by (rewrite X, lset_length; auto). assert (L2 : length (n_axes y') = d) by (rewrite X', lset_length; auto).
  split; [exact L1|apply P'|exact L2| |rewrite (pr_comp _ _ P), (pr_comp _ _ P'); exact C|].
  - intros q Hq. rewrite (get_lset x y (tau b) B _ X Ha), (get_lset x' y' b B' q X' ltac:(lia)).
    destruct (Nat.eqb_spec q b) as [->|Hne].
    + rewrite Nat.eqb_refl. apply (eq_after _ _ WA G o); auto.
      * apply wf_get_axis; auto. lia.
      * assert (B = get_axis y (tau b)) as -> by (rewrite (get_lset x y (tau b) B (tau b) X Ha), Nat.eqb_refl; auto). apply wf_get_axis; [apply P|lia].
      * assert (B' = get_axis y' b) as -> by (rewrite (get_lset x' y' b B' b X' ltac:(lia)), Nat.eqb_refl; auto). apply wf_get_axis; [apply P'|lia].
    + destruct (Nat.eqb_spec (tau q) (tau b)) as [Et|]; [|apply A; auto]. exfalso. apply Hne. rewrite <- (proj2 (T1 q Hq)), <- (proj2 (T1 b Hb)), Et. reflexivity.
  - intros us c I. pose proof (box_back _ _ _ P I) as I0. rewrite (pr_hom _ _ P' _ c (turn_box _ _ _ W TT I0)), H by auto. symmetry. apply (pr_hom _ _ P us c I0).
Qed.
Lemma turned_all l x y : all_ok l x y -> wf_nurbs x -> forall x' l', turned x x' -> Forall2 (same_call (Z.of_nat d) tau) l l' ->
  forall k k2, exists y', run_all k k2 l' x' = Ok y' /\ wf_nurbs y /\ turned y y'.
Proof.
  induction 1 as [x|o ax a j j2 l x y z Ea Hh E H IH]; intros W x' l' TT F k k2; inversion F as [|? [o' ax'] ? m [S1 (b & S2 & S3)] F']; subst; [exists x'; auto|].
  cbn [fst snd] in S1, S2, S3. subst o'. pose proof (tu_len _ _ TT) as L.
  assert (Ea' : py_axis (Z.of_nat d) ax = Ok a) by (unfold n_dim in Ea; rewrite L in Ea; auto). assert (a = tau b) as -> by congruence.
  destruct (turned_step o ax ax' b j j2 x x' y W TT S2 S3 Hh E k k2) as (y' & E' & TT'). cbn [run_all]. rewrite E'. cbn [bind]. apply IH; auto.
  destruct (op_spec o x ax (tau b) j j2 y W Ea Hh E) as [P _]. apply P.
Qed.
Lemma turned_unique y z y' : wf_nurbs y -> bounded_knots y -> turned y z -> turned y y' -> same_data z y'.
Proof.
  intros W Bk TZ TY. pose proof TZ as [L Wz Lz Az Cz Hz]. pose proof TY as [_ Wy Ly Ay Cy Hy].
  apply net_unique; auto.
  - apply same_knots_of; [lia|]. intros b Hb. rewrite Lz in Hb. apply (axis_eq_trans _ (get_axis y (tau b))); [apply axis_eq_sym|]; auto.
  - congruence.
  - apply bounded_of. intros b Hb v. rewrite Lz in Hb. rewrite (eq_mulA _ _ (Az b Hb)), (ProofEquiv.e_deg _ _ (Az b Hb)). apply bounded_at; auto. rewrite L. apply T1. exact Hb.
  - intros us c I Hc. destruct (back_box y z us W TZ I) as [I0 <-]. rewrite Hz, Hy; auto.
Qed.
End Turn.

(** ** swap *)
(** The number an axis had before axes i and j were exchanged. *)
Definition exchange (i j b : nat) : nat := if Nat.eqb b i then j else if Nat.eqb b j then i else b.
Lemma exchange_ok i j d : (i < d)%nat -> (j < d)%nat -> forall b, (b < d)%nat -> (exchange i j b < d)%nat /\ exchange i j (exchange i j b) = b.
Proof.
  intros Hi Hj b Hb. unfold exchange. destruct (Nat.eqb_spec b i) as [->|H1].
  - destruct (Nat.eqb_spec j i) as [->|H2]; auto. rewrite Nat.eqb_refl. auto.
  - destruct (Nat.eqb_spec b j) as [->|H2].
    + rewrite Nat.eqb_refl. auto.
    + destruct (Nat.eqb_spec b i); [contradiction|]. destruct (Nat.eqb_spec b j); [contradiction|]. auto.
Qed.
Lemma swap_turned x ax1 ax2 i j x' : wf_nurbs x -> py_axis (n_dim x) ax1 = Ok i -> py_axis (n_dim x) ax2 = Ok j -> swap (N:=Rn) x ax1 ax2 = Ok x' ->
  turned (length (n_axes x)) (exchange i j) x x'.
Proof.
  intros W E1 E2 E. pose proof (py_axis_dim _ _ _ E1) as Hi. pose proof (py_axis_dim _ _ _ E2) as Hj.
  destruct (swap_spec x ax1 ax2 i j x' W E1 E2 E) as (W' & X & H & _).
  split; [auto|exact W'|rewrite X; apply lswap_length| | |].
  - intros b Hb. unfold get_axis. rewrite X, nth_lswap by auto. unfold exchange. destruct (Nat.eqb b i); [apply axis_eq_refl|]. destruct (Nat.eqb b j); apply axis_eq_refl.
  - unfold swap in E. rewrite E1, E2 in E. cbn [bind] in E. injection E as <-. reflexivity.
  - intros us c I. assert (Lu : length us = length (n_axes x)) by (rewrite (in_box_length _ _ I); unfold spec_axes; apply map_length). rewrite <- H by auto. f_equal.
    apply (nth_ext _ _ 0 0); [unfold turn_pars; rewrite map_length, seq_length, lswap_length; auto|]. intros b Hb. unfold turn_pars in *. rewrite map_length, seq_length in Hb.
    rewrite nth_mapseq by auto. rewrite nth_lswap by lia. unfold exchange. destruct (Nat.eqb b i); auto. destruct (Nat.eqb b j); auto.
Qed.
Theorem swap_commutes l l' x y ax1 ax2 i j x' : wf_nurbs x -> all_ok l x y -> bounded_knots y ->
  py_axis (n_dim x) ax1 = Ok i -> py_axis (n_dim x) ax2 = Ok j -> swap (N:=Rn) x ax1 ax2 = Ok x' ->
  Forall2 (same_call (n_dim x) (exchange i j)) l l' ->
  forall k k2, exists y' z, swap (N:=Rn) y ax1 ax2 = Ok y' /\ run_all k k2 l' x' = Ok z /\ same_data y' z.
Proof.
  intros W H Bk E1 E2 E F k k2. pose proof (py_axis_dim _ _ _ E1) as Hi. pose proof (py_axis_dim _ _ _ E2) as Hj.
  pose proof (exchange_ok i j _ Hi Hj) as X. pose proof (swap_turned x ax1 ax2 i j x' W E1 E2 E) as TT.
  destruct (turned_all _ _ _ X l x y H W x' l' TT F k k2) as (z & Ez & Wy & TY).
  pose proof (tu_len _ _ _ _ TY) as Ly. pose proof (dim_py x y _ _ Ly E1) as F1. pose proof (dim_py x y _ _ Ly E2) as F2.
  destruct (swap_ok y ax1 ax2 i j F1 F2) as [y' Ey]. exists y', z. split; auto. split; auto.
  apply (turned_unique (length (n_axes x)) (exchange i j) (exchange i j) X X y); auto. rewrite <- Ly. apply (swap_turned y ax1 ax2); auto.
Qed.

(** ** transpose *)
Lemma perm_inverse d axes : permutes d axes -> exists sigma,
  (forall b, (b < d)%nat -> (Z.to_nat (nth b axes 0%Z) < d)%nat /\ sigma (Z.to_nat (nth b axes 0%Z)) = b) /\
  (forall a, (a < d)%nat -> (sigma a < d)%nat /\ Z.to_nat (nth (sigma a) axes 0%Z) = a).
Proof.
  intros (L & ND & R0).
  assert (Rg : forall b, (b < d)%nat -> (0 <= nth b axes 0%Z < Z.of_nat d)%Z) by (intros b Hb; apply R0, nth_In; lia).
  assert (Inc : incl (map Z.of_nat (seq 0 d)) axes).
  { apply NoDup_length_incl; [exact ND|rewrite map_length, seq_length; lia|]. intros a Ha. specialize (R0 a Ha). apply in_map_iff. exists (Z.to_nat a). split; [lia|]. apply in_seq. lia. }
  exists (fun a => index_of (Z.of_nat a) axes).
  assert (IX : forall l z, In z l -> (index_of z l < length l)%nat /\ nth (index_of z l) l 0%Z = z).
  { clear. induction l as [|y l IH]; intros z Hz; [destruct Hz|]. cbn [index_of]. destruct (Z.eqb_spec z y) as [->|Hne].
    - split; [cbn; lia|reflexivity].
    - destruct Hz as [Hz|Hz]; [congruence|]. destruct (IH z Hz) as [H1 H2]. split; [cbn; lia|exact H2]. }
  split.
  - intros b Hb. specialize (Rg b Hb). split; [lia|]. rewrite Z2Nat.id by lia. destruct (IX axes (nth b axes 0%Z)) as [H1 H2]; [apply nth_In; lia|].
    apply (proj1 (NoDup_nth axes 0%Z) ND); lia || auto.
  - intros a Ha. destruct (IX axes (Z.of_nat a)) as [H1 H2]; [apply Inc; apply in_map; apply in_seq; lia|]. split; [lia|]. rewrite H2. lia.
Qed.
Lemma transpose_turned x axes x' : wf_nurbs x -> permutes (length (n_axes x)) axes -> transpose (N:=Rn) x (Some axes) = Ok x' ->
  turned (length (n_axes x)) (fun b => Z.to_nat (nth b axes 0%Z)) x x'.
Proof.
  intros W Pm E. pose proof Pm as (L & ND & R0).
  destruct (transpose_spec x (Some axes) x' W) as (W' & X & H & _); [apply Forall_forall; intros a Ha; apply R0; auto|exact E|].
  split; [auto|exact W'|rewrite X; unfold pick; rewrite map_length; auto| | |].
  - intros b Hb. unfold get_axis. rewrite X. unfold pick. rewrite (nth_indep (map _ axes) axis0 (nth (Z.to_nat 0) (n_axes x) axis0)) by (rewrite map_length; lia).
    rewrite (map_nth (fun a => nth (Z.to_nat a) (n_axes x) axis0)). apply axis_eq_refl.
  - unfold transpose in E. unfold assert in E. destruct (Z.of_nat (length axes) =? n_dim x)%Z; [|discriminate]. cbn [bind] in E.
    repeat match type of E with (if ?b then _ else _) = _ => destruct b; [discriminate|] end. injection E as <-. reflexivity.
  - intros us c I. assert (Lu : length us = length (n_axes x)) by (rewrite (in_box_length _ _ I); unfold spec_axes; apply map_length). rewrite <- H by auto. f_equal.
    unfold turn_pars, pick. apply (nth_ext _ _ 0 0); [rewrite !map_length, seq_length; auto|]. intros b Hb. rewrite map_length, seq_length in Hb.
    rewrite nth_mapseq by auto. rewrite (nth_indep (map _ axes) 0 (nth (Z.to_nat 0) us 0)) by (rewrite map_length; lia). rewrite (map_nth (fun a => nth (Z.to_nat a) us 0)). reflexivity.
Qed.
Theorem transpose_commutes l l' x y axes x' : wf_nurbs x -> all_ok l x y -> bounded_knots y ->
  permutes (length (n_axes x)) axes -> transpose (N:=Rn) x (Some axes) = Ok x' ->
  Forall2 (same_call (n_dim x) (fun b => Z.to_nat (nth b axes 0%Z))) l l' ->
  forall k k2, exists y' z, transpose (N:=Rn) y (Some axes) = Ok y' /\ run_all k k2 l' x' = Ok z /\ same_data y' z.
Proof.
  intros W H Bk Pm E F k k2. destruct (perm_inverse _ _ Pm) as (sigma & T1 & T2). pose proof (transpose_turned x axes x' W Pm E) as TT.
  destruct (turned_all _ _ sigma T1 l x y H W x' l' TT F k k2) as (z & Ez & Wy & TY).
  pose proof (tu_len _ _ _ _ TY) as Ly. assert (Pm' : permutes (length (n_axes y)) axes) by (rewrite Ly; exact Pm).
  destruct (transpose_ok y axes Pm') as [y' Ey]. exists y', z. split; auto. split; auto.
  apply (turned_unique (length (n_axes x)) _ sigma T1 T2 y); auto. rewrite <- Ly. apply transpose_turned; auto.
Qed.
