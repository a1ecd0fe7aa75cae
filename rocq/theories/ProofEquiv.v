(** Refining and transforming commute. *)
From Coq Require Import ZArith Reals List Bool Lia Lra FunctionalExtensionality.
From Verif Require Import Num Loop ModelBspline ModelBSp ModelNurbs ModelTransform Spec SpecNurbs SpecElev SumZ BLink ProofSpan ProofInsert ProofClamp ProofNet ProofCall ProofNurbs ProofMethods ProofMethods2 ProofMethods3 ProofGeom ProofGeom2
  ProofOk ProofIga ProofElev5 ProofRemove4 ProofCompat1 ProofCompat3 ProofRuled ProofUniq.
Import ListNotations.
Local Open Scope R_scope.

(** A sequence of calls, each with its axis argument; the calls are made in the order of the list. *)
Fixpoint run_all (junk : Z -> R) (junk2 : Z -> Z -> R) (l : list (op * Z)) (x : nurbs Rn) : res (nurbs Rn) :=
  match l with [] => Ok x | (o, ax) :: l => let* y := run o junk junk2 x ax in run_all junk junk2 l y end.
(** Each call meets its condition (C11, C13, C17, C18, C19) when it is made. *)
Inductive all_ok : list (op * Z) -> nurbs Rn -> nurbs Rn -> Prop :=
| ok_none : forall x, all_ok [] x x
| ok_more : forall o ax a junk junk2 l x y z, py_axis (n_dim x) ax = Ok a -> op_ok o (get_axis x a) -> run o junk junk2 x ax = Ok y -> all_ok l y z ->
    all_ok ((o, ax) :: l) x z.

(** ** Axes that agree in their knots *)
Section Eq.
Variables A A' : axis Rn.
Hypothesis WA : wf_ax (spec_ax A).
Hypothesis E : axis_eq A A'.
Let n := (a_size A - 1)%Z.
Let p := a_deg A.
Local Lemma e_size : a_size A' = a_size A. Proof. apply E. Qed.
Local Lemma e_deg : a_deg A' = a_deg A. Proof. destruct E as (H1 & H2 & _). unfold a_deg. lia. Qed.
Local Lemma e_k i : (0 <= i <= n + p + 1)%Z -> a_knots A' i = a_knots A i.
Proof. intros H. apply E. rewrite a_len_eq. unfold n, p in H. lia. Qed.
Local Lemma e_np : (1 <= p)%Z /\ (p <= n)%Z. Proof. destruct WA as [H1 H2]. split; [exact H1|]. apply (wf_n _ _ _ H2). Qed.
Lemma eq_sep u : separated (a_knots A) 0 (n + p + 1) u -> separated (a_knots A') 0 (n + p + 1) u.
Proof. intros H j Hj. rewrite e_k by auto. auto. Qed.
Lemma eq_mult lo hi v : (0 <= lo)%Z -> (hi <= n + p + 1)%Z -> multiplicity (a_knots A') lo hi v = multiplicity (a_knots A) lo hi v.
Proof. intros H1 H2. apply multiplicity_ext. intros i Hi. apply e_k. lia. Qed.
Lemma eq_mulA v : mulA A' v = mulA A v.
Proof. unfold mulA. rewrite e_size, e_deg. apply eq_mult; lia. Qed.
Lemma eq_ends : ends_separated A -> ends_separated A'.
Proof.
  pose proof e_np. unfold ends_separated. cbv zeta. rewrite e_size, e_deg. fold n p. rewrite !e_k by lia. intros [H1 H2]. split; apply eq_sep; auto.
Qed.
Lemma eq_clamped : clamped n p (a_knots A) -> clamped n p (a_knots A').
Proof. pose proof e_np. intros [H1 H2]. split; intros j Hj; rewrite !e_k by lia; auto. Qed.
Lemma eq_tiny : no_tiny_span (a_knots A) p n -> no_tiny_span (a_knots A') p n.
Proof. pose proof e_np. intros H1 k Hk. rewrite !e_k by lia. auto. Qed.
Lemma eq_le : mult_le n p (a_knots A) -> mult_le n p (a_knots A').
Proof. pose proof e_np. intros H1 k Hk. rewrite !e_k by lia. auto. Qed.
Lemma eq_sp k : sp n p (a_knots A') k -> sp n p (a_knots A) k.
Proof. pose proof e_np. intros [H1 H2]. split; auto. rewrite !e_k in H2 by lia. auto. Qed.
Lemma eq_nx k k' : nx n p (a_knots A') k k' -> nx n p (a_knots A) k k'.
Proof.
  pose proof e_np. intros (H1 & H2 & H3 & H4). split; [apply eq_sp; auto|]. split; [apply eq_sp; auto|]. split; auto.
  destruct H1 as [H1 _]. destruct H2 as [H2 _]. intros j Hj. specialize (H4 j Hj). rewrite !e_k in H4 by lia. auto.
Qed.
Lemma eq_op_ok o : op_ok o A -> op_ok o A'.
Proof.
  pose proof e_np as [Hp Hn]. destruct o as [u times|values|side|side cont|t]; cbn [op_ok]; cbv zeta; rewrite ?e_size, ?e_deg; fold n p.
  - intros [H1 H2]. split; [apply eq_sep; auto|]. rewrite !e_k, eq_mult by lia. auto.
  - intros [H1 H2]. split.
    + intros x Hx. destruct (H1 x Hx) as [K1 K2]. split; auto. apply eq_sep. auto.
    + intros v Hv. rewrite !e_k, eq_mult by lia. auto.
  - apply eq_ends.
  - apply eq_ends.
  - intros (H1 & H2 & H3 & H4). split; [apply eq_clamped; auto|]. split; [apply eq_tiny; auto|]. split; [apply eq_le; auto|].
    destruct H4 as [H4|H4]; auto. right. intros k k' k'' N1 N2. apply H4; apply eq_nx; auto.
Qed.
Lemma eq_clampLR l r i : (0 <= i <= n + p + 1)%Z -> clampLR n p l r (a_knots A') i = clampLR n p l r (a_knots A) i.
Proof.
  pose proof e_np as [Hp Hn]. intros Hi. unfold clampLR, clampL, clampR. destruct l, r;
  repeat match goal with |- context[(?a <=? ?b)%Z] => destruct (Z.leb_spec a b); cbn [andb] end; apply e_k; lia.
Qed.
Lemma eq_periodic C l r V : (0 <= C < p)%Z -> periodic_ends n p C l r (a_knots A) V -> periodic_ends n p C l r (a_knots A') V.
Proof.
  pose proof e_np as [Hp Hn]. intros HC (H1 & H2 & H3). split; [intros i Hi; rewrite e_k by lia; auto|]. split.
  - destruct l; [destruct H2 as [H2 H2']; split; auto|]; intros i Hi; rewrite e_k by lia; auto.
  - destruct r; [destruct H3 as [H3 H3']; split; auto|]; intros i Hi; rewrite e_k by lia; auto.
Qed.
Lemma eq_after o B B' : wf_ax (spec_ax A') -> wf_ax (spec_ax B) -> wf_ax (spec_ax B') -> axis_after o A B -> axis_after o A' B' -> axis_eq B B'.
Proof.
  intros WA' WB WB' H H'. pose proof e_np as [Hp Hn].
  destruct o as [u times|values|side|side cont|t]; cbn [axis_after] in *; cbv zeta in *; rewrite ?e_size, ?e_deg in *; fold n p in H, H'.
  - rewrite eq_mulA in H'. destruct H as (_ & _ & D & M), H' as (_ & _ & D' & M'). apply same_axis; auto; [congruence|]. intros v. rewrite M, M', eq_mulA. reflexivity.
  - destruct H as (D & M), H' as (D' & M'). apply same_axis; auto; [congruence|]. intros v. rewrite M, M', eq_mulA. reflexivity.
  - destruct H as (S1 & L1 & K1), H' as (S2 & L2 & K2). pose proof (proj1 (proj2 E)) as EL. split; [lia|]. split; [lia|]. intros i Hi. rewrite K1, K2. apply eq_clampLR.
    rewrite L1, a_len_eq in Hi. unfold n, p. lia.
  - destruct H as (C1 & S1 & L1 & K1), H' as (C2 & S2 & L2 & K2). pose proof (proj1 (proj2 E)) as EL. split; [lia|]. split; [lia|]. intros i Hi.
    symmetry. eapply periodic_unique; [exact C1|exact Hn|apply eq_periodic; [exact C1|exact K1]|exact K2|]. rewrite L1, a_len_eq in Hi. unfold n, p. lia.
  - destruct H as (_ & D & M), H' as (_ & D' & M'). apply same_axis; auto; [congruence|]. intros v. rewrite M, M', eq_mulA. reflexivity.
Qed.
End Eq.

(** ** Objects over the same knots, one a function of the other's homogeneous coordinates *)
Section Image.
Variable F : (Z -> R) -> Z -> R.
Record image (x x' : nurbs Rn) : Prop := {
  im_wf : wf_nurbs x';
  im_knots : same_knots x x';
  im_comp : n_comp x' = n_comp x;
  im_hom : forall us c, in_box (spec_axes x) us -> (0 <= c < n_comp x)%Z -> hom x' c us = F (fun k => hom x k us) c }.
Lemma same_knots_get x x' b : same_knots x x' -> (b < length (n_axes x))%nat -> axis_eq (get_axis x b) (get_axis x' b).
Proof.
  unfold same_knots, get_axis. intros K. revert b. revert K. generalize (n_axes x) (n_axes x'). intros m m' H. induction H as [|A B l l' H1 H2 IH]; intros b Hb; [exfalso; revert Hb; apply Nat.nlt_0_r|].
  destruct b as [|b]; cbn [nth]; auto. apply IH. cbn in Hb. lia.
Qed.
Lemma same_knots_of x x' : length (n_axes x) = length (n_axes x') -> (forall b, (b < length (n_axes x))%nat -> axis_eq (get_axis x b) (get_axis x' b)) -> same_knots x x'.
Proof.
  unfold same_knots, get_axis. generalize (n_axes x) (n_axes x'). induction l as [|A l IH]; intros [|B l'] L G; try discriminate; constructor.
  - apply (G 0%nat). simpl. lia.
  - apply IH; [simpl in L; lia|]. intros b Hb. apply (G (S b)). simpl. lia.
Qed.
Lemma same_knots_length x x' : same_knots x x' -> length (n_axes x') = length (n_axes x).
Proof. unfold same_knots. induction 1; cbn; auto. Qed.
Lemma accepts_eq o x ax a y ax' j j2 x' k k2 : wf_nurbs x -> wf_nurbs y -> py_axis (n_dim x) ax = Ok a -> py_axis (n_dim y) ax' = Ok a ->
  axis_eq (get_axis x a) (get_axis y a) -> op_ok o (get_axis x a) -> run o j j2 x ax = Ok x' -> exists y', run o k k2 y ax' = Ok y'.
Proof.
  intros Wx Wy Ex Ey G Hh E. pose proof (py_axis_dim _ _ _ Ex) as Ha. pose proof (wf_get_axis _ _ Wx Ha) as WA.
  pose proof (eq_op_ok _ _ WA G o Hh) as Hh'. pose proof (e_size _ _ G) as ES. pose proof (e_deg _ _ G) as ED. pose proof (e_np _ WA) as [Hp Hn].
  destruct o as [u times|values|side|side cont|t]; cbn [run op_ok] in *.
  - destruct Hh as [Hs Hi]. destruct (insert_spec x ax a u times j x' Wx Ex Hs Hi E) as (D & H1 & H2 & _).
    apply (insert_ok y ax' a u times k Wy Ey (proj1 Hh')).
    + rewrite ES, ED. unfold in_domain. rewrite !(e_k _ _ G) by lia. exact D.
    + rewrite ES, ED, (eq_mult _ _ G) by lia. destruct times; auto.
  - destruct values as [|v0 vs] eqn:Ev; [exists y; unfold refine; reflexivity|]. rewrite <- Ev in *.
    assert (Hne : values <> []) by congruence.
    apply (proj2 (refine_ok y ax' a values k Wy Ey Hne)). destruct (proj1 (refine_ok x ax a values j Wx Ex Hne)) as [K1 K2]; [eauto|]. rewrite ES, ED. split.
    + intros v Hv. rewrite !(e_k _ _ G) by lia. auto.
    + intros v Hv. rewrite (eq_mult _ _ G) by lia. apply K2. destruct Hv as [Hv|(i & Hi & Hv)]; auto. right. exists i. split; auto. rewrite <- Hv. symmetry. apply (e_k _ _ G). lia.
  - apply (proj2 (clamp_ok y ax' a side k Wy Ey)). apply (proj1 (clamp_ok x ax a side j Wx Ex)). eauto.
  - apply (proj2 (unclamp_ok y ax' a side cont k Wy Ey)). rewrite ED. apply (proj1 (unclamp_ok x ax a side cont j Wx Ex)). eauto.
  - assert (Ht : (0 <= t)%Z). { unfold elevate, assert in E. destruct (Z.leb_spec 0 t); auto. discriminate. }
    destruct Hh' as (H1 & H2 & _). destruct (elevate_knots y ax' a t k k2 Wy Ey Ht H1 H2) as (z & _ & Ez & _). eauto.
Qed.
Lemma box_back x y us : preserves x y -> in_box (spec_axes y) us -> in_box (spec_axes x) us.
Proof.
  intros P. pose proof (pr_dom _ _ P) as D. revert us. generalize (spec_axes x) (spec_axes y) D. clear.
  intros m m' D. induction D as [|a b l l' [E1 E2] D IH]; intros us I; inversion I; subst; constructor.
  - unfold in_domain in *. rewrite E1, E2. auto.
  - apply IH. auto.
Qed.
Lemma box_knots x x' us : wf_nurbs x -> same_knots x x' -> in_box (spec_axes x) us -> in_box (spec_axes x') us.
Proof.
  intros W K I. apply in_box_lohi. pose proof (same_knots_length _ _ K) as Le. rewrite Le. apply in_box_lohi in I. destruct I as [L I]. split; auto. intros b Hb.
  pose proof (same_knots_get _ _ b K Hb) as G. pose proof (e_np _ (wf_get_axis _ _ W Hb)) as [Hp Hn]. specialize (I b Hb).
  rewrite a_lo_eq, a_hi_eq in *. rewrite (e_size _ _ G), (e_deg _ _ G), !(e_k _ _ G) by lia. exact I.
Qed.
Lemma image_step o ax a j j2 x x' y : wf_nurbs x -> image x x' -> py_axis (n_dim x) ax = Ok a -> op_ok o (get_axis x a) -> run o j j2 x ax = Ok y ->
  forall k k2, exists y', run o k k2 x' ax = Ok y' /\ image y y'.
Proof.
  intros W [W' K C H] Ea Hh E k k2. pose proof (py_axis_dim _ _ _ Ea) as Ha. pose proof (same_knots_length _ _ K) as Le.
  assert (Ea' : py_axis (n_dim x') ax = Ok a) by (apply (dim_py x x'); auto).
  pose proof (same_knots_get _ _ a K Ha) as G. pose proof (wf_get_axis _ _ W Ha) as WA.
  destruct (accepts_eq o x ax a x' ax j j2 y k k2 W W' Ea Ea' G Hh E) as [y' E']. exists y'. split; auto.
  destruct (op_spec o x ax a j j2 y W Ea Hh E) as (P & B & X & Af).
  destruct (op_spec o x' ax a k k2 y' W' Ea' (eq_op_ok _ _ WA G o Hh) E') as (P' & B' & X' & Af').
  assert (K' : same_knots y y').
  { assert (L1 : length (n_axes y) = length (n_axes x)) by (rewrite X; apply lset_length). assert (L2 : length (n_axes y') = length (n_axes x')) by (rewrite X'; apply lset_length).
    apply same_knots_of; [lia|]. intros b Hb. rewrite (get_lset x y a B b X Ha), (get_lset x' y' a B' b X' ltac:(lia)).
    destruct (Nat.eqb_spec b a) as [->|Hne]; [|apply same_knots_get; auto; lia].
    apply (eq_after _ _ WA G o); auto.
    - apply wf_get_axis; auto. lia.
    - assert (B = get_axis y a) as -> by (rewrite (get_lset x y a B a X Ha), Nat.eqb_refl; auto). apply wf_get_axis; [apply P|lia].
    - assert (B' = get_axis y' a) as -> by (rewrite (get_lset x' y' a B' a X' ltac:(lia)), Nat.eqb_refl; auto). apply wf_get_axis; [apply P'|lia]. }
  split; [apply P'|exact K'|rewrite (pr_comp _ _ P), (pr_comp _ _ P'); exact C|].
  intros us c I Hc. rewrite (pr_comp _ _ P) in Hc. pose proof (box_back _ _ _ P I) as I0.
  rewrite (pr_hom _ _ P' us c (box_knots _ _ _ W K I0)), H by auto. f_equal. apply functional_extensionality. intros q. symmetry. apply (pr_hom _ _ P us q I0).
Qed.
Lemma image_all l x y : all_ok l x y -> wf_nurbs x -> forall x', image x x' -> forall k k2, exists y', run_all k k2 l x' = Ok y' /\ wf_nurbs y /\ image y y'.
Proof.
  induction 1 as [x|o ax a j j2 l x y z Ea Hh E H IH]; intros W x' Im k k2; [exists x'; auto|].
  destruct (image_step o ax a j j2 x x' y W Im Ea Hh E k k2) as (y' & E' & Im'). cbn [run_all]. rewrite E'. cbn [bind]. apply IH; auto.
  destruct (op_spec o x ax a j j2 y W Ea Hh E) as [P _]. apply P.
Qed.
End Image.

Lemma transform_image M x : wf_nurbs x -> image (fun f c => if (c <? 4)%Z then f 0%Z * M c 0%Z + f 1%Z * M c 1%Z + f 2%Z * M c 2%Z + f 3%Z * M c 3%Z else f c) x (transform (N:=Rn) x M).
Proof.
  intros W. split; [exact W| |reflexivity|].
  - unfold same_knots. apply Forall2_refl. auto.
  - intros us c I Hc. destruct (transform_hom x M us (in_box_length _ _ I)) as [H1 H2]. destruct (Z.ltb_spec c 4); auto.
Qed.
Theorem transform_commutes l x y M : wf_nurbs x -> all_ok l x y -> bounded_knots y ->
  forall k k2, exists z, run_all k k2 l (transform (N:=Rn) x M) = Ok z /\ same_data (transform (N:=Rn) y M) z.
Proof.
  intros W H Bk k k2. destruct (image_all _ l x y H W _ (transform_image M x W) k k2) as (z & E & Wy & [Wz Kz Cz Hz]). exists z. split; auto.
  apply net_unique; auto. intros us c I Hc. rewrite (Hz us c I Hc). symmetry. apply (im_hom _ _ _ (transform_image M y Wy)); auto.
Qed.
Lemma Nbasis_ext n last U U' u : (0 <= n)%Z -> (n + 1 <= last)%Z -> (forall j, (0 <= j <= last)%Z -> U' j = U j) ->
  forall q i, (0 <= i)%Z -> (i + Z.of_nat q + 1 <= last)%Z -> Nbasis n U' q i u = Nbasis n U q i u.
Proof.
  intros Hn Hl H. induction q as [|q IH]; intros i Hi Hq; cbn [Nbasis].
  - unfold indicator. rewrite !H by lia. reflexivity.
  - rewrite !IH, !H by lia. reflexivity.
Qed.
Lemma tsum_axes l l' P P' : forall us, Forall2 (fun A B => a_size B = a_size A /\ a_len B = a_len A /\ forall i, (0 <= i < a_len A)%Z -> a_knots B i = a_knots A i) l l' -> Forall (fun A => wf_ax (spec_ax A)) l ->
  length us = length l -> (forall idx, in_net (map spec_ax l) idx -> P' idx = P idx) -> tsum (map spec_ax l') P' us = tsum (map spec_ax l) P us.
Proof.
  intros us K. revert P P' us. induction K as [|A B l l' H K IH]; intros P P' us W Lu E; cbn [map tsum]; [apply E; constructor|].
  destruct us as [|u us]; [discriminate|]. inversion W as [|? ? WA W']; subst. pose proof (e_np _ WA) as [Hp Hn].
  cbn [spec_ax x_n x_p x_U] in *. rewrite (e_size _ _ H), (e_deg _ _ H). apply sumZ_ext. intros i Hi. f_equal.
  - unfold Nb. apply (Nbasis_ext _ (a_size A - 1 + a_deg A + 1)); try lia. intros j Hj. apply (e_k _ _ H). lia.
  - apply IH; auto. intros idx I. apply E. constructor; auto.
Qed.
Lemma data_hom x x' c us : wf_nurbs x -> same_data x x' -> in_box (spec_axes x) us -> (0 <= c < n_comp x)%Z -> hom x' c us = hom x c us.
Proof.
  intros W (K & C & D) I Hc. unfold hom, spec_axes. apply tsum_axes; auto.
  - destruct W as (_ & W & _). unfold spec_axes in W. apply Forall_forall. intros A HA. rewrite Forall_forall in W. apply W; auto; try (apply in_map; auto).
  - rewrite (in_box_length _ _ I). unfold spec_axes. apply map_length.
Qed.
(** The special case of no transformation: the calls depend on the knots and control points only, not on what else is stored. *)
Theorem data_suffice l x y x' : wf_nurbs x -> wf_nurbs x' -> same_data x x' -> all_ok l x y -> bounded_knots y ->
  forall k k2, exists z, run_all k k2 l x' = Ok z /\ same_data y z.
Proof.
  intros W W' (K & C & D) H Bk k k2. assert (Im : image (fun f c => f c) x x').
  { split; auto. intros us c I Hc. apply data_hom; auto. split; [exact K|]. auto. }
  destruct (image_all _ l x y H W _ Im k k2) as (z & E & Wy & [Wz Kz Cz Hz]). exists z. split; auto. apply net_unique; auto.
Qed.

(** ** The methods *)
Theorem translate_commutes l x y d axis x' : wf_nurbs x -> all_ok l x y -> bounded_knots y -> n_translate (N:=Rn) x d axis = Ok x' ->
  forall k k2, exists y' z, n_translate (N:=Rn) y d axis = Ok y' /\ run_all k k2 l x' = Ok z /\ same_data y' z.
Proof.
  intros W H Bk E k k2. unfold n_translate in *. destruct (translate _ d axis) as [M|e]; [|discriminate]. cbn [bind] in *. injection E as <-.
  destruct (transform_commutes l x y M W H Bk k k2) as (z & Ez & Dz). eauto.
Qed.
Theorem scale_commutes l x y d axis x' : wf_nurbs x -> all_ok l x y -> bounded_knots y -> n_scale (N:=Rn) x d axis = Ok x' ->
  forall k k2, exists y' z, n_scale (N:=Rn) y d axis = Ok y' /\ run_all k k2 l x' = Ok z /\ same_data y' z.
Proof.
  intros W H Bk E k k2. unfold n_scale in *. destruct (scale _ d axis) as [M|e]; [|discriminate]. cbn [bind] in *. injection E as <-.
  destruct (transform_commutes l x y M W H Bk k k2) as (z & Ez & Dz). eauto.
Qed.
Theorem rotate_commutes sinf cosf sqrtf l x y angle axis x' : wf_nurbs x -> all_ok l x y -> bounded_knots y -> n_rotate (N:=Rn) sinf cosf sqrtf x angle axis = Ok x' ->
  forall k k2, exists y' z, n_rotate (N:=Rn) sinf cosf sqrtf y angle axis = Ok y' /\ run_all k k2 l x' = Ok z /\ same_data y' z.
Proof.
  intros W H Bk E k k2. unfold n_rotate in *. destruct (rotate _ _ _ _ angle axis) as [M|e]; [|discriminate]. cbn [bind] in *. injection E as <-.
  destruct (transform_commutes l x y M W H Bk k k2) as (z & Ez & Dz). eauto.
Qed.
