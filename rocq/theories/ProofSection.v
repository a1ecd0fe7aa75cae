(** Refining commutes with taking a section (extract, boundary). *)
From Coq Require Import ZArith Reals List Bool Lia Lra.
From Verif Require Import Num Loop ModelBspline ModelBSp ModelNurbs ModelTransform Spec SpecNurbs SpecElev SumZ BLink ProofSpan ProofInsert ProofClamp ProofNet ProofCall ProofNurbs ProofMethods ProofMethods2 ProofMethods3 ProofGeom ProofGeom2
  ProofOk ProofPerm ProofIga ProofElev5 ProofRemove4 ProofCompat1 ProofCompat3 ProofRuled ProofUniq ProofEquiv ProofTurn ProofMove ProofFlip.
Import ListNotations.
Local Open Scope R_scope.

(** The number that axis [b] of the section has in the object cut along axis [a]. *)
Definition skip (a b : nat) : nat := if (b <? a)%nat then b else S b.
(** The calls that remain for the section: those along the cut axis are left out, the others are
    made along the same axis under its new number. *)
Inductive section_calls (d : Z) (a : nat) : list (op * Z) -> list (op * Z) -> Prop :=
| sc_nil : section_calls d a [] []
| sc_cut : forall o ax l l', py_axis d ax = Ok a -> section_calls d a l l' -> section_calls d a ((o, ax) :: l) l'
| sc_keep : forall o ax ax' b l l', py_axis (d - 1) ax' = Ok b -> py_axis d ax = Ok (skip a b) -> section_calls d a l l' ->
    section_calls d a ((o, ax) :: l) ((o, ax') :: l').

Lemma skip_ne a b : skip a b <> a.
Proof. unfold skip. destruct (Nat.ltb_spec b a); lia. Qed.
Lemma skip_inj a b c : skip a b = skip a c -> b = c.
Proof. unfold skip. destruct (Nat.ltb_spec b a), (Nat.ltb_spec c a); lia. Qed.
Lemma skip_lt a b d : (b < d)%nat -> (a <= d)%nat -> (skip a b < S d)%nat.
Proof. unfold skip. destruct (Nat.ltb_spec b a); lia. Qed.
Lemma skip_onto a d q : (q < S d)%nat -> (a <= d)%nat -> q = a \/ exists b, (b < d)%nat /\ q = skip a b.
Proof.
  intros Hq Ha. destruct (Nat.lt_trichotomy q a) as [H|[H|H]]; auto; right; [exists q|exists (q - 1)%nat]; unfold skip; (destruct (Nat.ltb_spec q a) || destruct (Nat.ltb_spec (q - 1) a)); try lia.
  destruct (Nat.ltb_spec (q - 1) a); lia.
Qed.
Lemma nth_lins_skip {A} a (v : A) l b d : (a <= length l)%nat -> nth (skip a b) (lins a v l) d = nth b l d.
Proof.
  revert l b. induction a as [|a IH]; intros l b Ha; [reflexivity|]. destruct l as [|x l]; cbn [length] in Ha; [lia|]. destruct b as [|b]; [reflexivity|].
  replace (skip (S a) (S b)) with (S (skip a b)) by (unfold skip; destruct (Nat.ltb_spec b a), (Nat.ltb_spec (S b) (S a)); lia). cbn [lins nth]. apply IH. lia.
Qed.
Lemma nth_lrem_skip {A} a (l : list A) b d : nth b (lrem a l) d = nth (skip a b) l d.
Proof.
  revert l b. induction a as [|a IH]; intros [|x l] b; cbn [lrem].
  - unfold skip; cbn [Nat.ltb Nat.leb]. destruct b; reflexivity.
  - reflexivity.
  - destruct b, (skip (S a) _); reflexivity.
  - destruct b as [|b]; [reflexivity|]. replace (skip (S a) (S b)) with (S (skip a b)) by (unfold skip; destruct (Nat.ltb_spec b a), (Nat.ltb_spec (S b) (S a)); lia). apply IH.
Qed.

Section Cut.
Variables (a : nat) (u : R).
Record cut (x x' : nurbs Rn) : Prop := {
  cu_len : length (n_axes x) = S (length (n_axes x'));
  cu_a : (a <= length (n_axes x'))%nat;
  cu_dom : a_lo (get_axis x a) <= u <= a_hi (get_axis x a);
  cu_wf : wf_nurbs x';
  cu_axes : forall b, (b < length (n_axes x'))%nat -> axis_eq (get_axis x (skip a b)) (get_axis x' b);
  cu_comp : n_comp x' = n_comp x;
  cu_hom : forall us c, in_box (spec_axes x') us -> hom x' c us = hom x c (lins a u us) }.
Lemma cut_box x x' us : wf_nurbs x -> cut x x' -> in_box (spec_axes x') us -> in_box (spec_axes x) (lins a u us).
Proof.
  intros W [L La D W' A _ _] I. apply in_box_lohi in I. destruct I as [Le I]. apply in_box_lohi. rewrite lins_length. split; [lia|].
  intros q Hq. rewrite L in Hq. destruct (skip_onto a _ q Hq La) as [->|(b & Hb & ->)].
  - rewrite nth_lins by lia. exact D.
  - rewrite nth_lins_skip by lia. destruct (eq_lohi x (skip a b) x' b W ltac:(rewrite L; apply skip_lt; auto) (A b Hb)) as [<- <-]. apply I. exact Hb.
Qed.
Lemma step_dom x y : preserves x y -> (a < length (n_axes x))%nat -> a_lo (get_axis y a) = a_lo (get_axis x a) /\ a_hi (get_axis y a) = a_hi (get_axis x a).
Proof.
  intros P Ha. pose proof (pr_dom _ _ P) as D.
  assert (Hs : (a < length (spec_axes x))%nat) by (unfold spec_axes; rewrite map_length; auto).
  pose proof (Forall2_nth _ _ _ a (spec_ax axis0) (spec_ax axis0) D Hs) as [E1 E2]. rewrite !nth_spec_axes in E1, E2. cbn [spec_ax x_n x_p x_U] in E1, E2. rewrite !a_lo_eq, !a_hi_eq. auto.
Qed.
Lemma cut_along o ax j j2 x x' y : wf_nurbs x -> cut x x' -> py_axis (n_dim x) ax = Ok a -> op_ok o (get_axis x a) -> run o j j2 x ax = Ok y -> cut y x'.
Proof.
  intros W CC Ea Hh E. pose proof CC as [L La D W' A C H]. pose proof (py_axis_dim _ _ _ Ea) as Ha.
  destruct (op_spec o x ax a j j2 y W Ea Hh E) as (P & B & X & Af). destruct (step_dom x y P Ha) as [D1 D2].
  split; [rewrite X, lset_length; exact L|exact La|rewrite D1, D2; exact D|exact W'| |rewrite (pr_comp _ _ P); exact C|].
  - intros b Hb. rewrite (get_lset x y a B _ X Ha). destruct (Nat.eqb_spec (skip a b) a) as [Es|]; [destruct (skip_ne a b Es)|apply A; auto].
  - intros us c I. rewrite H by auto. symmetry. apply (pr_hom _ _ P). apply (cut_box x x'); auto.
Qed.
Lemma cut_across o ax ax' b j j2 x x' y : wf_nurbs x -> cut x x' -> py_axis (n_dim x') ax' = Ok b -> py_axis (n_dim x) ax = Ok (skip a b) ->
  op_ok o (get_axis x (skip a b)) -> run o j j2 x ax = Ok y -> forall k k2, exists y', run o k k2 x' ax' = Ok y' /\ cut y y' /\ length (n_axes y') = length (n_axes x').
Proof.
  intros W CC Eb Ea Hh E k k2. pose proof CC as [L La D W' A C H]. pose proof (py_axis_dim _ _ _ Ea) as Ha. pose proof (py_axis_dim _ _ _ Eb) as Hb.
  pose proof (A b Hb) as G. pose proof (wf_get_axis _ _ W Ha) as WA.
  destruct (accepts_at o x ax (skip a b) x' ax' b j j2 y k k2 W W' Ea Eb G Hh E) as [y' E']. exists y'. split; auto.
  destruct (op_spec o x ax (skip a b) j j2 y W Ea Hh E) as (P & B & X & Af).
  destruct (op_spec o x' ax' b k k2 y' W' Eb (eq_op_ok _ _ WA G o Hh) E') as (P' & B' & X' & Af').
  assert (L1 : length (n_axes y) = length (n_axes x)) by (rewrite X, lset_length; auto). assert (L2 : length (n_axes y') = length (n_axes x')) by (rewrite X', lset_length; auto).
  destruct (step_dom x y P ltac:(lia)) as [D1 D2]. split; [|exact L2].
  split; [lia|lia|rewrite D1, D2; exact D|apply P'| |rewrite (pr_comp _ _ P), (pr_comp _ _ P'); exact C|].
  - intros q Hq. rewrite L2 in Hq. rewrite (get_lset x y (skip a b) B _ X Ha), (get_lset x' y' b B' q X' Hb).
    destruct (Nat.eqb_spec q b) as [->|Hne].
    + rewrite Nat.eqb_refl. apply (eq_after _ _ WA G o); auto.
      * apply wf_get_axis; auto.
      * assert (B = get_axis y (skip a b)) as -> by (rewrite (get_lset x y (skip a b) B (skip a b) X Ha), Nat.eqb_refl; auto). apply wf_get_axis; [apply P|lia].
      * assert (B' = get_axis y' b) as -> by (rewrite (get_lset x' y' b B' b X' Hb), Nat.eqb_refl; auto). apply wf_get_axis; [apply P'|lia].
    + destruct (Nat.eqb_spec (skip a q) (skip a b)) as [Et|]; [apply skip_inj in Et; contradiction|apply A; auto].
  - intros us c I. pose proof (ProofEquiv.box_back _ _ _ P' I) as I0. rewrite (pr_hom _ _ P' _ c I0), H by auto. symmetry. apply (pr_hom _ _ P). apply (cut_box x x'); auto.
Qed.
Lemma cut_all l x y : all_ok l x y -> wf_nurbs x -> forall x' l', cut x x' -> section_calls (n_dim x) a l l' ->
  forall k k2, exists y', run_all k k2 l' x' = Ok y' /\ wf_nurbs y /\ length (n_axes y) = length (n_axes x) /\ cut y y'.
Proof.
  induction 1 as [x|o ax c j j2 l x y z Ea Hh E H IH]; intros W x' l' CC F k k2; inversion F; subst; [exists x'; auto| |].
  - assert (c = a) as -> by congruence. pose proof (cut_along o ax j j2 x x' y W CC Ea Hh E) as C2.
    destruct (op_spec o x ax a j j2 y W Ea Hh E) as (P & B & X & _). assert (L1 : length (n_axes y) = length (n_axes x)) by (rewrite X, lset_length; auto).
    destruct (IH (pr_wf _ _ P) x' l' C2) with (k := k) (k2 := k2) as (y' & R1 & R2 & R3 & R4); [unfold n_dim in *; rewrite L1; auto|]. exists y'. split; auto. split; auto. split; [lia|auto].
  - assert (c = skip a b) as -> by congruence.
    match goal with Hx : py_axis (n_dim x - 1) ax' = Ok b |- _ => assert (Eb : py_axis (n_dim x') ax' = Ok b) by (unfold n_dim in *; rewrite (cu_len _ _ CC) in Hx; rewrite <- Hx; f_equal; lia) end.
    destruct (cut_across o ax ax' b j j2 x x' y W CC Eb Ea Hh E k k2) as (y' & E' & C2 & L2).
    destruct (op_spec o x ax (skip a b) j j2 y W Ea Hh E) as (P & B & X & _). assert (L1 : length (n_axes y) = length (n_axes x)) by (rewrite X, lset_length; auto).
    match goal with Hx : section_calls _ _ l ?m |- _ => destruct (IH (pr_wf _ _ P) y' m C2) with (k := k) (k2 := k2) as (z' & R1 & R2 & R3 & R4); [unfold n_dim in *; rewrite L1; auto|] end.
    exists z'. cbn [run_all]. rewrite E'. cbn [bind]. split; auto. split; auto. split; [lia|auto].
Qed.
Lemma cut_unique y z y' : wf_nurbs y -> bounded_knots y -> cut y z -> cut y y' -> same_data z y'.
Proof.
  intros W Bk TZ TY. pose proof TZ as [L La D Wz Az Cz Hz]. pose proof TY as [L' _ _ Wy Ay Cy Hy]. assert (LL : length (n_axes z) = length (n_axes y')) by lia.
  assert (SK : forall b, (b < length (n_axes z))%nat -> axis_eq (get_axis z b) (get_axis y' b)).
  { intros b Hb. apply (axis_eq_trans _ (get_axis y (skip a b))); [apply axis_eq_sym, Az; auto|apply Ay; lia]. }
  apply net_unique; auto.
  - apply ProofEquiv.same_knots_of; auto.
  - congruence.
  - apply bounded_of. intros b Hb v. rewrite (eq_mulA _ _ (Az b Hb)), (ProofEquiv.e_deg _ _ (Az b Hb)). apply bounded_at; auto. rewrite L. apply skip_lt; auto.
  - intros us c I Hc. rewrite Hz by auto. apply Hy.
    apply in_box_lohi in I. destruct I as [Le I]. apply in_box_lohi. split; [lia|]. intros b Hb. rewrite <- LL in Hb.
    destruct (eq_lohi z b y' b Wz Hb (SK b Hb)) as [-> ->]. apply I. exact Hb.
Qed.
End Cut.

(** The condition of C15: the value is in the domain, not too close to a knot, and, at the right
    end, the end knot occurs once or at least degree times. *)
Definition cut_ok (A : axis Rn) (u : R) : Prop :=
  let n := (a_size A - 1)%Z in let p := a_deg A in let U := a_knots A in
  in_domain n p U u /\ separated U 0 (n + p + 1) u /\
  (u < U (n + 1)%Z \/ multiplicity U 0 (n + p + 1) u = 1%Z \/ (p <= multiplicity U 0 (n + p + 1) u)%Z).
Lemma extract_cut x ax a u junk x' : wf_nurbs x -> py_axis (n_dim x) ax = Ok a -> cut_ok (get_axis x a) u -> extract (N:=Rn) junk x ax u = Ok x' -> cut a u x x'.
Proof.
  intros W Ea (D & Hs & Hm) E. pose proof (py_axis_dim _ _ _ Ea) as Ha. destruct (extract_spec x ax a u junk x' W Ea Hs Hm E) as (_ & W' & X & C & H).
  assert (L : length (n_axes x) = S (length (n_axes x'))) by (rewrite X, lrem_length by auto; lia).
  split; [exact L|lia|rewrite a_lo_eq, a_hi_eq; exact D|exact W'| |exact C|].
  - intros b Hb. replace (get_axis x' b) with (get_axis x (skip a b)); [apply axis_eq_refl|]. unfold get_axis. rewrite X. symmetry. apply nth_lrem_skip.
  - intros us c I. apply H. apply in_box_lohi in I. unfold spec_axes. rewrite map_length. apply I.
Qed.
Theorem extract_commutes l l' x y ax a u junk x' : wf_nurbs x -> all_ok l x y -> bounded_knots y -> py_axis (n_dim x) ax = Ok a ->
  cut_ok (get_axis x a) u -> cut_ok (get_axis y a) u -> extract (N:=Rn) junk x ax u = Ok x' -> section_calls (n_dim x) a l l' ->
  forall junk' k k2, exists y' z, extract (N:=Rn) junk' y ax u = Ok y' /\ run_all k k2 l' x' = Ok z /\ same_data y' z.
Proof.
  intros W H Bk Ea Cx Cy E F junk' k k2. pose proof (extract_cut x ax a u junk x' W Ea Cx E) as M.
  destruct (cut_all a u l x y H W x' l' M F k k2) as (z & Ez & Wy & Ly & Mz).
  assert (Ey : py_axis (n_dim y) ax = Ok a) by (unfold n_dim in *; rewrite Ly; auto).
  destruct (extract_ok y ax a u junk' Wy Ey (proj1 Cy)) as [y' E']. exists y', z. split; auto. split; auto.
  apply (cut_unique a u y y' z Wy Bk (extract_cut y ax a u junk' y' Wy Ey Cy E') Mz).
Qed.
Theorem boundary_commutes l l' x y ax a side junk x' : wf_nurbs x -> all_ok l x y -> bounded_knots y -> py_axis (n_dim x) ax = Ok a ->
  let u := if (side =? 0)%Z then a_lo (get_axis x a) else a_hi (get_axis x a) in
  cut_ok (get_axis x a) u -> cut_ok (get_axis y a) u -> boundary (N:=Rn) junk x ax side = Ok x' -> section_calls (n_dim x) a l l' ->
  forall junk' k k2, exists y' z, boundary (N:=Rn) junk' y ax side = Ok y' /\ run_all k k2 l' x' = Ok z /\ same_data y' z.
Proof.
  intros W H Bk Ea u Cx Cy E F junk' k k2. pose proof (py_axis_dim _ _ _ Ea) as Ha. unfold boundary in *.
  destruct (assert _) as [[]|] eqn:Es; [|discriminate]. cbn [bind] in *. rewrite Ea in E. cbn [bind] in E. cbv zeta in E.
  assert (L : length (n_axes y) = length (n_axes x)).
  { clear - H W. induction H as [x|o ax c j j2 l x y z Ec Hh E H IH]; auto. destruct (op_spec o x ax c j j2 y W Ec Hh E) as (P & B & X & _). rewrite IH by apply P. rewrite X, lset_length. reflexivity. }
  assert (Ey : py_axis (n_dim y) ax = Ok a) by (unfold n_dim in *; rewrite L; auto). rewrite Ey. cbn [bind]. cbv zeta.
  destruct (all_ok_ends l x y a H W Ha) as [D1 D2]. rewrite D1, D2.
  apply (extract_commutes l l' x y (Z.of_nat a) a u junk x'); auto. rewrite py_axis_nat by (unfold n_dim; lia). rewrite Nat2Z.id. reflexivity.
Qed.
