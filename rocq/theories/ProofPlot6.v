(** What kpoint, kwire, ksurf, cpoint, points and quiver draw. *)
From Coq Require Import ZArith Reals List Bool Lia Lra Sorted.
From Verif Require Import Num Loop ModelBspline ModelBSp ModelNurbs ModelCad ModelIo ModelPlot Spec SumZ BPiece SpecNurbs SpecIo SpecPlot ProofNet ProofCall
  ProofNurbs ProofMethods ProofGeom ProofGeom2 ProofMethods3 ProofCompat2 ProofIga2 ProofIo ProofIo4 ProofPlot4.
Import ListNotations.
Local Open Scope R_scope.

Lemma pick_params uss idx : params (map (of_list (N:=Rn)) uss) idx = pick uss idx.
Proof. revert idx. induction uss; intros [|i idx]; cbn; auto. rewrite IHuss. reflexivity. Qed.

(** ** Breaks *)
Lemma breaks_of_ok A : wf_ax (spec_ax A) -> let ub := unique (inner_knots A) in
  breaks_of (spec_ax A) ub /\ (2 <= length ub)%nat /\ hd 0 ub = left_end (spec_ax A) /\ last ub 0 = right_end (spec_ax A).
Proof.
  intros W ub. destruct (breaks_ok A W) as [S [H [L [E1 E2]]]]. fold ub in S, H, L, E1, E2.
  split; [split; auto|split; auto; split]; [|auto|rewrite E2, a_hi_eq; reflexivity].
  intros u. rewrite H. unfold break_of. cbn [spec_ax x_p x_n x_U]. split; intros [i [Hi E]]; exists i; (split; [lia|auto]).
Qed.
Lemma break_domain A u : wf_ax (spec_ax A) -> break_of (spec_ax A) u -> in_domain (a_size A - 1) (a_deg A) (a_knots A) u.
Proof.
  intros [Hp W] [i [Hi E]]. cbn [spec_ax x_n x_p x_U] in *. unfold in_domain. pose proof (wf_n _ _ _ W).
  rewrite <- E. split; apply (wf_mono _ _ _ W); lia.
Qed.
Definition ubs (nrb : nurbs Rn) : list (list R) := all_breaks nrb.
Lemma ubs_ok nrb : wf_nurbs nrb -> Forall2 breaks_of (spec_axes nrb) (ubs nrb).
Proof.
  intros [_ [F _]]. unfold ubs, all_breaks, spec_axes in *. induction (n_axes nrb) as [|A l IH]; cbn in *; constructor; inversion F; auto.
  apply breaks_of_ok. auto.
Qed.
Lemma good_ubs nrb : wf_nurbs nrb -> good_args (spec_axes nrb) (map (of_list (N:=Rn)) (ubs nrb)).
Proof.
  intros [_ [F _]]. unfold ubs, all_breaks, spec_axes, good_args in *. induction (n_axes nrb) as [|A l IH]; cbn in *; constructor; inversion F; auto.
  destruct (breaks_of_ok A H1) as [[_ Hb] [L _]]. cbn [of_list v_len v_get]. split; [lia|]. intros i Hi.
  apply break_domain; auto. apply Hb. apply nth_In. lia.
Qed.
Definition lens (uss : list (list R)) : list Z := map (fun us => Z.of_nat (length us)) uss.
Lemma lens_of uss : map v_len (map (of_list (N:=Rn)) uss) = lens uss.
Proof. unfold lens. rewrite map_map. reflexivity. Qed.

Section Plot.
Variables (junk : Z -> R) (junk2 : Z -> Z -> R) (junk3 : Z -> Z -> Z -> R) (junkS : Z -> Z).

Theorem kpoint_spec nrb : wf_nurbs nrb -> exists t uss, p_kpoint (N:=Rn) junk junk2 junk3 junkS nrb = Ok t /\ Forall2 breaks_of (spec_axes nrb) uss /\
  shows t (rev (map (fun us => Z.of_nat (length us)) uss)) nrb (fun l => pick uss (rev l)).
Proof.
  intros W. destruct (call_nd_spec junk junk2 junk3 junkS nrb _ W (good_ubs nrb W)) as [C [E [Es Hg]]].
  exists (split3 C), (ubs nrb). unfold p_kpoint. fold (ubs nrb). rewrite E. split; auto. split; [apply ubs_ok; auto|].
  rewrite lens_of in Es. apply split3_shows; auto. intros idx c I. rewrite Hg, pick_params; auto. apply in_range_shape. rewrite lens_of. auto.
Qed.

(** ** kwire *)
Lemma rollaxis_spec (C : nd Rn) a n rest : nd_shape C = lins a n rest ++ [3%Z] -> (a <= length rest)%nat -> (length rest <= 2)%nat ->
  nd_shape (rollaxis C (Z.of_nat a) (-1)) = rest ++ [n; 3%Z] /\
  forall o i c, length o = length rest -> nd_get (rollaxis C (Z.of_nat a) (-1)) (o ++ [i; c]) = nd_get C (lins a i o ++ [c]).
Proof.
  intros Es Ha Hr. unfold rollaxis. rewrite Es.
  destruct rest as [|r0 [|r1 [|]]]; cbn in Ha, Hr; try (exfalso; lia);
  (destruct a as [|[|[|]]]; try (exfalso; lia)); (split; [cbn; auto|]); intros o i c Ho;
  (destruct o as [|o0 [|o1 [|]]]; cbn in Ho; try (exfalso; lia)); reflexivity.
Qed.
Lemma rows_index rest n o i c : Forall (fun s => 0 < s)%Z rest -> in_shape rest o -> (0 <= i < n)%Z -> (0 <= c < 3)%Z ->
  unravel_c (rest ++ [n; 3%Z]) (ravel_c [prod rest; n; 3%Z] [ravel_c rest o; i; c]) = o ++ [i; c].
Proof.
  intros P I Hi Hc.
  replace (ravel_c [prod rest; n; 3%Z] [ravel_c rest o; i; c]) with (ravel_c (rest ++ [n; 3%Z]) (o ++ [i; c])).
  - apply unravel_ravel_c. apply Forall2_app; auto.
  - unfold ravel_c. rewrite !rev_app_distr. cbn [rev app ravel]. ring.
Qed.
Lemma rows_spec (D : nd Rn) rest n : nd_shape D = rest ++ [n; 3%Z] -> Forall (fun s => 0 < s)%Z rest -> (0 < n)%Z ->
  exists Cs, rows_of D n = Ok Cs /\
  (forall C, In C Cs -> exists o, in_shape rest o /\ nd_shape C = [n; 3%Z] /\ forall i c, (0 <= i < n)%Z -> (0 <= c < 3)%Z -> nd_get C [i; c] = nd_get D (o ++ [i; c])) /\
  (forall o, in_shape rest o -> exists C, In C Cs /\ nd_shape C = [n; 3%Z] /\ forall i c, (0 <= i < n)%Z -> (0 <= c < 3)%Z -> nd_get C [i; c] = nd_get D (o ++ [i; c])).
Proof.
  intros Es P Hn. unfold rows_of. rewrite Es, prod_app. replace (prod [n; 3%Z]) with (n * 3)%Z by (cbn; lia).
  rewrite Z.mod_mul by lia. cbn [Z.eqb negb]. rewrite Z.div_mul by lia. eexists. split; [reflexivity|]. split.
  - intros C I. apply in_map_iff in I. destruct I as [q [<- Iq]]. apply in_zseq in Iq.
    assert (Hq : (0 <= q < prod rest)%Z) by lia.
    exists (unravel_c rest q). pose proof (unravel_c_in rest q P Hq) as Io. split; auto. split; auto. intros i c Hi Hc. cbn [nd_get].
    rewrite <- (ravel_unravel_c rest q P Hq) at 1. rewrite rows_index; auto.
  - intros o Io. eexists. split; [apply in_map_iff; exists (ravel_c rest o); split; [reflexivity|]|].
    + apply in_zseq. pose proof (ravel_c_range rest o Io). lia.
    + split; auto. intros i c Hi Hc. cbn [nd_get]. rewrite rows_index; auto.
Qed.

Lemma lset_lrem {A} (a : nat) (v : A) l : (a < length l)%nat -> lset a v l = lins a v (lrem a l).
Proof. revert a. induction l; intros [|a0] H; cbn in *; try lia; auto. f_equal. apply IHl. lia. Qed.
Lemma map_lins {A B} (f : A -> B) a x l : map f (lins a x l) = lins a (f x) (map f l).
Proof. revert a. induction l; intros [|a0]; cbn; auto. rewrite IHl. reflexivity. Qed.
Lemma in_shape_lins sh o a n i : in_shape sh o -> (0 <= i < n)%Z -> (a <= length sh)%nat -> in_shape (lins a n sh) (lins a i o).
Proof.
  intros I Hi. revert a. induction I; intros a La; cbn in La.
  - replace a with 0%nat by lia. cbn. constructor; auto.
  - destruct a; cbn; constructor; auto.
    apply IHI. lia.
Qed.
Lemma good_lset axs xs a x : good_args axs xs -> (forall d, good_args [nth a axs d] [x]) -> good_args axs (lset a x xs).
Proof.
  intros G Hx. unfold good_args in *. revert a Hx. induction G as [|A y axs xs H G IH]; intros [|a] Hx; cbn; try constructor; auto.
  specialize (Hx A). inversion Hx. auto.
Qed.
Lemma params_lins a x xs i o : (a <= length xs)%nat -> length o = length xs -> params (lins a x xs) (lins a i o) = lins a (v_get x i) (params xs o).
Proof.
  revert xs o. induction a; intros xs o Ha Ho; [destruct xs; reflexivity|]. destruct xs as [|y xs]; cbn in Ha; [lia|]. destruct o as [|j o]; cbn in Ho; [lia|].
  cbn. f_equal. apply IHa; lia.
Qed.
Lemma pick_breaks axs uss o : Forall2 breaks_of axs uss -> in_shape (lens uss) o -> Forall2 break_of axs (pick uss o).
Proof.
  intros F. revert o. induction F as [|A us axs uss H F IH]; intros o I; inversion I; subst; cbn; constructor; auto.
  apply H. apply nth_In. lia.
Qed.
Lemma breaks_pick axs uss vs : Forall2 breaks_of axs uss -> Forall2 break_of axs vs -> exists o, in_shape (lens uss) o /\ pick uss o = vs.
Proof.
  intros F. revert vs. induction F as [|A us axs uss H F IH]; intros vs Fv; inversion Fv; subst; [exists []; split; [constructor|auto]|].
  destruct (IH _ H4) as [o [I E]]. destruct H as [_ H]. apply H in H2. apply (In_nth _ _ 0) in H2. destruct H2 as [k [Hk Ek]].
  exists (Z.of_nat k :: o). split; [constructor; auto; lia|]. cbn. rewrite Nat2Z.id. f_equal; auto.
Qed.
Lemma Forall2_lrem {A B} (Q : A -> B -> Prop) a l m : Forall2 Q l m -> Forall2 Q (lrem a l) (lrem a m).
Proof. intros F. revert a. induction F; intros [|a]; cbn; auto. Qed.
Lemma Forall_lrem' {A} (Q : A -> Prop) a l : Forall Q l -> Forall Q (lrem a l).
Proof. intros F. revert a. induction F; intros [|a]; cbn; auto. Qed.
Lemma lens_pos axs uss : Forall2 breaks_of axs uss -> Forall (fun A => x_p A <= x_n A + 1)%Z axs -> Forall (fun s => 0 < s)%Z (lens uss).
Proof.
  intros F. induction F as [|A us axs uss H F IH]; intros G; cbn; constructor; inversion G; subst; auto.
  destruct us as [|u us]; cbn; [|lia]. exfalso. destruct H as [_ H]. apply (H (x_U A (x_p A))). exists (x_p A). split; [lia|auto].
Qed.

Lemma kwire1_spec nrb n a : wf_nurbs nrb -> (2 <= n)%Z -> (a < length (n_axes nrb))%nat ->
  exists Cs, kwire1 (N:=Rn) junk junk2 junk3 junkS n nrb (Z.of_nat a) = Ok Cs /\
  (forall C, In C Cs -> exists us, Forall2 break_of (lrem a (spec_axes nrb)) us /\ isoline (split3 C) nrb n a us) /\
  (forall us, Forall2 break_of (lrem a (spec_axes nrb)) us -> exists C, In C Cs /\ isoline (split3 C) nrb n a us).
Proof.
  intros W Hn Ha. pose proof (wf_get_axis _ _ W Ha) as WA. set (A := get_axis nrb a) in *.
  destruct (breaks_of_ok A WA) as [_ [Lu [Eh El]]].
  assert (Eu : nth a (all_breaks nrb) [] = unique (inner_knots A)).
  { unfold all_breaks. rewrite nth_indep with (d' := unique (inner_knots (N:=Rn) axis0)) by (rewrite map_length; auto).
    rewrite map_nth with (f := fun A => unique (inner_knots (N:=Rn) A)). reflexivity. }
  set (x := linspace (N:=Rn) (left_end (spec_ax A)) (right_end (spec_ax A)) n).
  assert (Ea : py_axis (n_dim nrb) (Z.of_nat a) = Ok a) by (rewrite py_axis_nat, Nat2Z.id by (unfold n_dim; lia); reflexivity).
  assert (Lb : length (ubs nrb) = length (n_axes nrb)) by (unfold ubs, all_breaks; apply map_length).
  assert (Lm : (a < length (map (of_list (N:=Rn)) (ubs nrb)))%nat) by (rewrite map_length; rewrite <- Lb in Ha; exact Ha).
  assert (G : good_args (spec_axes nrb) (lset a x (map (of_list (N:=Rn)) (ubs nrb)))).
  { apply good_lset; [apply good_ubs; auto|]. intros d. rewrite nth_indep with (d' := spec_ax axis0) by (rewrite spec_axes_length; auto).
    rewrite nth_spec_axes. fold A. constructor; [|constructor]. unfold x at 1. rewrite linspace_len. split; [lia|]. unfold x. rewrite linspace_len. intros i Hi.
    rewrite linspace_get by lia. exact (spaced_range _ _ n i (Rlt_le _ _ (wf_ends A WA)) Hn Hi). }
  rewrite (lset_lrem a x) in G by exact Lm. rewrite <- map_lrem in G.
  destruct (call_nd_spec junk junk2 junk3 junkS nrb _ W G) as [C [E [Es Hg]]].
  set (rest := lens (lrem a (ubs nrb))).
  assert (Lr : length rest = pred (length (n_axes nrb))) by (unfold rest, lens; rewrite map_length, lrem_length; lia).
  assert (Lx : length (map (of_list (N:=Rn)) (lrem a (ubs nrb))) = length rest) by (unfold rest, lens; rewrite !map_length; reflexivity).
  assert (Es' : nd_shape C = lins a n rest ++ [3%Z]).
  { rewrite Es. f_equal. unfold rest. rewrite map_lins. rewrite lens_of. unfold x. rewrite linspace_len. reflexivity. }
  destruct W as [W3 [Wf W4]].
  destruct (rollaxis_spec C a n rest Es') as [Er Hr]; [lia|lia|].
  pose proof (Forall2_lrem _ a _ _ (ubs_ok nrb (conj W3 (conj Wf W4)))) as FB.
  destruct (rows_spec (rollaxis C (Z.of_nat a) (-1)) rest n Er) as [Cs [E2 [S1 S2]]]; [|lia|].
  { eapply lens_pos; [exact FB|]. apply Forall_lrem'. eapply Forall_impl; [|exact Wf]. intros B [Hp WB]. pose proof (wf_n _ _ _ WB). lia. }
  exists Cs. split.
  { unfold kwire1. rewrite Ea. cbn [bind]. rewrite Eu. match goal with |- context[linspace ?p ?q n] => replace (linspace p q n) with x by (unfold x; f_equal; symmetry; [exact Eh|exact El]) end. fold (ubs nrb).
    rewrite (lset_lrem a x) by exact Lm. rewrite <- map_lrem. rewrite E. exact E2. }
  assert (Key : forall o R0, in_shape rest o -> nd_shape R0 = [n; 3%Z] ->
    (forall i c, (0 <= i < n)%Z -> (0 <= c < 3)%Z -> nd_get R0 [i; c] = nd_get (rollaxis C (Z.of_nat a) (-1)) (o ++ [i; c])) ->
    isoline (split3 R0) nrb n a (pick (lrem a (ubs nrb)) o)).
  { intros o R0 Io E0 H0. unfold isoline. rewrite nth_spec_axes. fold A. unfold split3, shows. rewrite E0. cbn [removelast rev app nd_shape].
    pose proof (in_shape_length _ _ Io) as Lo.
    assert (P1 : (a <= length (map (of_list (N:=Rn)) (lrem a (ubs nrb))))%nat) by (rewrite Lx; lia).
    assert (P2 : length o = length (map (of_list (N:=Rn)) (lrem a (ubs nrb)))) by (rewrite Lx; auto).
    assert (K : forall i c, (0 <= i < n)%Z -> (0 <= c < 3)%Z -> nd_get R0 [i; c] = pt nrb c (lins a (spaced (left_end (spec_ax A)) (right_end (spec_ax A)) n i) (pick (lrem a (ubs nrb)) o))).
    { intros i c Hi Hc. rewrite H0, Hr by auto. rewrite Hg.
      - f_equal. etransitivity; [exact (params_lins a x (map (of_list (N:=Rn)) (lrem a (ubs nrb))) i o P1 P2)|].
        f_equal; [exact (linspace_get _ _ n i Hn Hi)|exact (pick_params (lrem a (ubs nrb)) o)].
      - apply in_range_shape. rewrite map_lins, lens_of. fold rest. unfold x. rewrite linspace_len.
        assert (La : (a <= length rest)%nat) by lia. exact (in_shape_lins rest o a n i Io Hi La). }
    repeat (split; auto); inversion H as [|s i ss is Hi Hn']; subst; inversion Hn'; subst; cbn [nd_get rev app hd]; rewrite K; auto; lia. }
  split.
  - intros R0 I. destruct (S1 R0 I) as [o [Io [E0 H0]]]. exists (pick (lrem a (ubs nrb)) o). split; [|apply Key; auto].
    apply pick_breaks; auto.
  - intros us Fu. destruct (breaks_pick _ _ _ FB Fu) as [o [Io Eo]]. destruct (S2 o Io) as [R0 [I [E0 H0]]]. exists R0. split; auto. rewrite <- Eo. apply Key; auto.
Qed.

Lemma all_axes_in nrb z : wf_nurbs nrb -> (In z (which_axes nrb None) <-> (0 <= z < Z.of_nat (length (n_axes nrb)))%Z).
Proof.
  intros [W _]. unfold which_axes. destruct (n_axes nrb) as [|? [|? [|? [|]]]]; cbn in *; lia.
Qed.
Lemma concat_spec {A B} (f : A -> res (list B)) (Q : A -> B -> Prop) (T : Type) (cases : A -> T -> Prop) (R0 : A -> T -> B -> Prop) l :
  (forall x, In x l -> exists ys, f x = Ok ys /\ (forall y, In y ys -> exists u, cases x u /\ R0 x u y) /\ (forall u, cases x u -> exists y, In y ys /\ R0 x u y)) ->
  exists yss, mapM f l = Ok yss /\
    (forall y, In y (concat yss) -> exists x u, In x l /\ cases x u /\ R0 x u y) /\
    (forall x u, In x l -> cases x u -> exists y, In y (concat yss) /\ R0 x u y).
Proof.
  induction l as [|x l IH]; intros H.
  - exists []. split; auto. split; [intros y []|intros x u []].
  - destruct (H x (or_introl eq_refl)) as [ys [E [H1 H2]]]. destruct IH as [yss [Es [H3 H4]]]; [intros; apply H; right; auto|].
    exists (ys :: yss). cbn [mapM]. rewrite E. cbn [bind]. rewrite Es. split; auto. cbn [concat]. split.
    + intros y I. apply in_app_iff in I. destruct I as [I|I].
      * destruct (H1 y I) as [u [C1 C2]]. exists x, u. split; [left|]; auto.
      * destruct (H3 y I) as [x' [u [I1 I2]]]. exists x', u. split; [right|]; auto.
    + intros x' u [<-|I] Hc.
      * destruct (H2 u Hc) as [y [I1 I2]]. exists y. split; auto. apply in_app_iff. auto.
      * destruct (H4 x' u I Hc) as [y [I1 I2]]. exists y. split; auto. apply in_app_iff. auto.
Qed.

Theorem kwire_spec nrb n axes : wf_nurbs nrb -> (2 <= n)%Z ->
  (forall zs, axes = Some zs -> Forall (fun z => 0 <= z < Z.of_nat (length (n_axes nrb)))%Z zs) ->
  let chosen := fun a => (a < length (n_axes nrb))%nat /\ (forall zs, axes = Some zs -> In (Z.of_nat a) zs) in
  exists ts, p_kwire (N:=Rn) junk junk2 junk3 junkS n nrb axes = Ok ts /\
  (forall t, In t ts -> exists a us, chosen a /\ Forall2 break_of (lrem a (spec_axes nrb)) us /\ isoline t nrb n a us) /\
  (forall a us, chosen a -> Forall2 break_of (lrem a (spec_axes nrb)) us -> exists t, In t ts /\ isoline t nrb n a us).
Proof.
  intros W Hn Hz chosen.
  assert (HI : forall z, In z (which_axes nrb axes) -> (0 <= z < Z.of_nat (length (n_axes nrb)))%Z).
  { intros z I. destruct axes as [zs|]; [|apply all_axes_in in I; auto]. specialize (Hz _ eq_refl). rewrite Forall_forall in Hz. apply Hz. exact I. }
  assert (HC : forall a, chosen a <-> In (Z.of_nat a) (which_axes nrb axes)).
  { intros a. unfold chosen. destruct axes as [zs|].
    - split; [intros [_ H]; apply H; auto|]. intros I. specialize (HI _ I). split; [lia|]. intros zs' E. injection E as <-. exact I.
    - rewrite all_axes_in by auto. split; [intros [H _]; lia|]. intros H. split; [lia|]. intros zs' E. discriminate. }
  destruct (concat_spec (kwire1 (N:=Rn) junk junk2 junk3 junkS n nrb) (fun _ _ => True) (list R) (fun z us => Forall2 break_of (lrem (Z.to_nat z) (spec_axes nrb)) us)
    (fun z us C => isoline (split3 C) nrb n (Z.to_nat z) us) (which_axes nrb axes)) as [Cs [E [H1 H2]]].
  { intros z I. specialize (HI z I). destruct (kwire1_spec nrb n (Z.to_nat z) W Hn) as [ys Hy]; [lia|]. rewrite Z2Nat.id in Hy by lia. exists ys. exact Hy. }
  exists (map split3 (concat Cs)). unfold p_kwire. rewrite E. split; auto. split.
  - intros t I. apply in_map_iff in I. destruct I as [C [<- I]]. destruct (H1 C I) as [z [us [Iz [F S]]]]. specialize (HI z Iz).
    exists (Z.to_nat z), us. split; auto. apply HC. rewrite Z2Nat.id by lia. auto.
  - intros a us Ha F. apply HC in Ha. destruct (H2 (Z.of_nat a) us Ha) as [C [I S]]; [rewrite Nat2Z.id; auto|]. rewrite Nat2Z.id in S.
    exists (split3 C). split; auto. apply in_map_iff. eauto.
Qed.

(** ** ksurf *)
Lemma names_py (nrb : nurbs Rn) z a : names_axis (length (n_axes nrb)) z a -> py_axis (n_dim nrb) z = Ok a.
Proof.
  intros [H1 H2]. unfold py_axis, n_dim. set (d := Z.of_nat (length (n_axes nrb))).
  assert (Hd : (0 <= Z.of_nat a < d)%Z) by (unfold d; lia).
  replace ((- d <=? z)%Z && (z <? d)%Z) with true; [f_equal|symmetry; apply andb_true_intro; split; [apply Z.leb_le|apply Z.ltb_lt]; fold d in H2; lia].
  fold d in H2. destruct (z <? 0)%Z eqn:Ez; [apply Z.ltb_lt in Ez|apply Z.ltb_ge in Ez]; lia.
Qed.
Lemma ksurf1_spec nrb n z a : wf_nurbs nrb -> (2 <= n)%Z -> names_axis (length (n_axes nrb)) z a ->
  let A := nth a (spec_axes nrb) (spec_ax axis0) in (forall u, break_of A u -> can_cut A u) ->
  exists Cs, ksurf1 (N:=Rn) junk junk2 junk3 junkS n nrb z = Ok Cs /\
  (forall C, In C Cs -> exists u, break_of A u /\ isosurface (split3 C) nrb n a u) /\
  (forall u, break_of A u -> exists C, In C Cs /\ isosurface (split3 C) nrb n a u).
Proof.
  intros W Hn Hz A HA. pose proof (names_py _ _ _ Hz) as Ea. pose proof (py_axis_dim _ _ _ Ea) as Ha. pose proof (wf_get_axis _ _ W Ha) as WA.
  unfold A in *. rewrite nth_spec_axes in *. set (B := get_axis nrb a) in *. destruct (breaks_of_ok B WA) as [[_ HB] _].
  unfold ksurf1, breaks. rewrite Ea. cbn [bind]. fold B.
  destruct (mapM_ok (fun u => let* x := extract (N:=Rn) junk nrb z u in sample junk junk2 junk3 junkS n x) (fun u C => isosurface (split3 C) nrb n a u) (unique (inner_knots B))) as [Cs [E F]].
  { intros u I. apply HB in I. destruct (HA u I) as [Hsep Hm]. pose proof (break_domain B u WA I) as D.
    destruct (extract_ok nrb z a u junk W Ea D) as [b Eb].
    destruct (extract_spec nrb z a u junk b W Ea Hsep Hm Eb) as [_ [W' [EA [_ Hh]]]]. rewrite Eb. cbn [bind].
    destruct (sample_spec junk junk2 junk3 junkS b n W' Hn) as [C [EC SC]]. exists C. split; auto.
    exact (sample_boundary nrb b n a u C Hn Ha EA Hh SC). }
  exists Cs. split; auto. split.
  - intros C I. clear - I F HB. assert (K : forall u, In u (unique (inner_knots B)) -> break_of (spec_ax B) u) by (intros; apply HB; auto).
    clear HB. induction F; [destruct I|]. destruct I as [<-|I]; [exists x; split; auto; apply K; left; auto|]. apply IHF; auto. intros; apply K; right; auto.
  - intros u Hu. apply HB in Hu. clear - Hu F. induction F; [destruct Hu|]. destruct Hu as [<-|I]; [exists y; split; auto; left; auto|].
    destruct (IHF I) as [C [I1 I2]]. exists C. split; auto. right; auto.
Qed.
Theorem ksurf_spec nrb n axes : wf_nurbs nrb -> (2 <= n)%Z ->
  (forall zs, axes = Some zs -> Forall (fun z => exists a, names_axis (length (n_axes nrb)) z a) zs) ->
  let chosen := fun a => (a < length (n_axes nrb))%nat /\ (forall zs, axes = Some zs -> exists z, In z zs /\ names_axis (length (n_axes nrb)) z a) in
  (forall a u, chosen a -> let A := nth a (spec_axes nrb) (spec_ax axis0) in break_of A u -> can_cut A u) ->
  exists ts, p_ksurf (N:=Rn) junk junk2 junk3 junkS n nrb axes = Ok ts /\
  (forall t, In t ts -> exists a u, chosen a /\ break_of (nth a (spec_axes nrb) (spec_ax axis0)) u /\ isosurface t nrb n a u) /\
  (forall a u, chosen a -> break_of (nth a (spec_axes nrb) (spec_ax axis0)) u -> exists t, In t ts /\ isosurface t nrb n a u).
Proof.
  intros W Hn Hz chosen HB.
  assert (HI : forall z, In z (which_axes nrb axes) -> exists a, names_axis (length (n_axes nrb)) z a).
  { intros z I. destruct axes as [zs|].
    - specialize (Hz _ eq_refl). rewrite Forall_forall in Hz. apply Hz. exact I.
    - apply all_axes_in in I; auto. exists (Z.to_nat z). split; lia. }
  assert (HC : forall a, chosen a <-> exists z, In z (which_axes nrb axes) /\ names_axis (length (n_axes nrb)) z a).
  { intros a. unfold chosen. destruct axes as [zs|].
    - split; [intros [_ H]; apply H; auto|]. intros [z [I Nz]]. split; [apply Nz|]. intros zs' E. injection E as <-. exists z. auto.
    - split.
      + intros [H _]. exists (Z.of_nat a). rewrite all_axes_in by auto. split; [lia|]. split; auto.
      + intros [z [_ Nz]]. split; [apply Nz|]. intros zs' E. discriminate. }
  set (nat_of := fun z => Z.to_nat (if (z <? 0)%Z then z + Z.of_nat (length (n_axes nrb)) else z)).
  assert (Hnat : forall z a, names_axis (length (n_axes nrb)) z a -> nat_of z = a).
  { intros z a [H1 H2]. unfold nat_of. destruct (z <? 0)%Z eqn:Ez; [apply Z.ltb_lt in Ez|apply Z.ltb_ge in Ez]; lia. }
  destruct (concat_spec (ksurf1 (N:=Rn) junk junk2 junk3 junkS n nrb) (fun _ _ => True) R (fun z u => break_of (nth (nat_of z) (spec_axes nrb) (spec_ax axis0)) u)
    (fun z u C => isosurface (split3 C) nrb n (nat_of z) u) (which_axes nrb axes)) as [Cs [E [H1 H2]]].
  { intros z I. destruct (HI z I) as [a Na]. pose proof (Hnat z a Na) as Ez. rewrite Ez. apply ksurf1_spec; auto. intros u Hu. apply HB; auto. apply HC. eauto. }
  exists (map split3 (concat Cs)). unfold p_ksurf. rewrite E. split; auto. split.
  - intros t I. apply in_map_iff in I. destruct I as [C [<- I]]. destruct (H1 C I) as [z [u [Iz [F S]]]]. destruct (HI z Iz) as [a Na].
    rewrite (Hnat z a Na) in *. exists a, u. split; auto. apply HC. eauto.
  - intros a u Ha F. apply HC in Ha. destruct Ha as [z [Iz Na]]. specialize (H2 z u Iz). cbv beta in H2. rewrite (Hnat z a Na) in H2.
    destruct (H2 F) as [C [I S]]. exists (split3 C). split; auto. apply in_map_iff. eauto.
Qed.
End Plot.
