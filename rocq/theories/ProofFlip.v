(** Refining commutes with reverse. *)
From Coq Require Import ZArith Reals List Bool Lia Lra FunctionalExtensionality.
From Verif Require Import Num Loop ModelBspline ModelBSp ModelNurbs ModelTransform Spec SpecNurbs SpecElev SumZ BLink ProofSpan ProofInsert ProofClamp ProofNet ProofCall ProofNurbs ProofMethods ProofMethods2 ProofMethods3 ProofGeom ProofGeom2
  ProofOk ProofPerm ProofIga ProofElev5 ProofRemove4 ProofCompat1 ProofCompat3 ProofRuled ProofUniq ProofEquiv ProofTurn ProofMove.
Import ListNotations.
Local Open Scope R_scope.

(** The call at the other end: knots [v] become [s - v], side 0 becomes side 1. *)
Definition op_flipped (s : R) (o : op) : op :=
  match o with
  | Insert u times => Insert (s - u) times
  | Refine values => Refine (map (fun v => s - v) values)
  | Clamp side => Clamp (option_map (fun e => 1 - e)%Z side)
  | Unclamp side cont => Unclamp (option_map (fun e => 1 - e)%Z side) cont
  | Elevate t => Elevate t
  end.
(** The same call, at the other end if it concerns axis [a]. *)
Definition flipped_call (d : Z) (a : nat) (s : R) (c c' : op * Z) : Prop :=
  exists b, py_axis d (snd c) = Ok b /\ py_axis d (snd c') = Ok b /\ fst c' = if Nat.eqb b a then op_flipped s (fst c) else fst c.

Lemma flip_left side : side_left (option_map (fun e => 1 - e)%Z side) = side_right side.
Proof. destruct side as [e|]; cbn [option_map side_left side_right]; auto. destruct (Z.eqb_spec (1 - e) 0), (Z.eqb_spec e 1); auto; lia. Qed.
Lemma flip_right side : side_right (option_map (fun e => 1 - e)%Z side) = side_left side.
Proof. destruct side as [e|]; cbn [option_map side_left side_right]; auto. destruct (Z.eqb_spec (1 - e) 1), (Z.eqb_spec e 0); auto; lia. Qed.

Lemma legal_flip side : legal_side side -> legal_side (option_map (fun e => 1 - e)%Z side).
Proof. unfold legal_side. destruct side as [e|]; cbn [option_map]; intuition lia. Qed.

Section Flip.
Variable K : R.
Let g (x : R) : R := K - x.
Lemma gg x : g (g x) = x. Proof. unfold g. lra. Qed.
Lemma g_inj x y : g x = g y -> x = y. Proof. unfold g. lra. Qed.
Definition mvax (A : axis Rn) : axis Rn := mkAxis (N:=Rn) (a_size A) (a_len A) (fun i => g (a_knots A (a_len A - 1 - i)%Z)).
Lemma countN_g c : forall lo (s : Z) U u, countN c lo (fun i => g (U (s - i)%Z)) (g u) = countN c (s - lo - Z.of_nat c + 1) U u.
Proof.
  induction c as [|c IH]; intros lo s U u; [reflexivity|].
  replace (countN (S c) (s - lo - Z.of_nat (S c) + 1) U u) with (countN c (s - (lo + 1) - Z.of_nat c + 1) U u + ((if Req_EM_T (U (s - lo)%Z) u then 1 else 0) + 0))%Z.
  2: { replace (S c) with (c + 1)%nat by lia. rewrite countN_split. cbn [countN]. replace (s - lo - Z.of_nat (c + 1) + 1)%Z with (s - (lo + 1) - Z.of_nat c + 1)%Z by lia.
       replace (s - (lo + 1) - Z.of_nat c + 1 + Z.of_nat c)%Z with (s - lo)%Z by lia. reflexivity. }
  cbn [countN]. rewrite IH.
  destruct (Req_EM_T (g (U (s - lo)%Z)) (g u)) as [E|E]; destruct (Req_EM_T (U (s - lo)%Z) u) as [E'|E']; try lia; [apply g_inj in E; contradiction|subst; contradiction].
Qed.
Lemma mult_g (s lo hi : Z) U u : (lo <= hi + 1)%Z -> multiplicity (fun i => g (U (s - i)%Z)) lo hi (g u) = multiplicity U (s - hi) (s - lo) u.
Proof. intros H. unfold multiplicity. rewrite countN_g. f_equal; lia. Qed.
Lemma mulA_g A u : wf_ax (spec_ax A) -> mulA (mvax A) (g u) = mulA A u.
Proof.
  intros [Hp Wk]. pose proof (wf_n _ _ _ Wk) as Hn. cbn [spec_ax x_n x_p x_U] in *. unfold mulA. cbn [mvax a_knots a_size]. change (a_deg (mvax A)) with (a_deg A).
  rewrite mult_g by lia. rewrite a_len_eq. f_equal; lia.
Qed.
Lemma mulA_g' A v : wf_ax (spec_ax A) -> mulA (mvax A) v = mulA A (g v).
Proof. intros W. rewrite <- (gg v) at 1. apply mulA_g; auto. Qed.
Lemma countL_g v l : countL v (map g l) = countL (g v) l.
Proof.
  induction l as [|x l IH]; cbn [map countL]; auto. rewrite IH. f_equal.
  destruct (Req_EM_T (g x) v) as [E|E]; destruct (Req_EM_T x (g v)) as [E'|E']; auto.
  - exfalso. apply E'. rewrite <- E. symmetry. apply gg.
  - exfalso. apply E. rewrite E'. apply gg.
Qed.
Lemma clampLR_g n p l r U : (1 <= p)%Z -> (p <= n)%Z -> (fun i => g (clampLR n p l r U (n + p + 1 - i)%Z)) = clampLR n p r l (fun i => g (U (n + p + 1 - i)%Z)).
Proof.
  intros Hp Hn. apply functional_extensionality. intros i. unfold clampLR, clampL, clampR. destruct l, r; cbv zeta beta;
    repeat match goal with |- context [(?x <=? ?y)%Z] => destruct (Z.leb_spec x y) end; cbn [andb]; try lia; try reflexivity; f_equal; f_equal; lia.
Qed.
Lemma periodic_g n p C l r U V : (1 <= p)%Z -> (p <= n)%Z -> (0 <= C < p)%Z -> periodic_ends n p C l r U V ->
  periodic_ends n p C r l (fun i => g (U (n + p + 1 - i)%Z)) (fun i => g (V (n + p + 1 - i)%Z)).
Proof.
  unfold periodic_ends. intros Hp Hn HC (H1 & H2 & H3). split; [intros i Hi; f_equal; apply H1; lia|]. split.
  - destruct r; [destruct H3 as [H3 H3']; split|intros i Hi; f_equal; apply H3; lia].
    + intros i Hi. replace (n + p + 1 - p)%Z with (n + 1)%Z by lia. f_equal. apply H3. lia.
    + intros j Hj. rewrite (H3' (n + p + 1 - j)%Z) by lia. replace (n + p + 1 - (n + 1))%Z with p by lia. replace (n + p + 1 - p)%Z with (n + 1)%Z by lia.
      replace (n + p + 1 - j - (n - C))%Z with (n + p + 1 - (j + (n - C)))%Z by lia. unfold g. ring.
  - destruct l; [destruct H2 as [H2 H2']; split|intros i Hi; f_equal; apply H2; lia].
    + intros i Hi. replace (n + p + 1 - (n + 1))%Z with p by lia. f_equal. apply H2. lia.
    + intros j Hj. rewrite (H2' (n + p + 1 - j)%Z) by lia. replace (n + p + 1 - (n + 1))%Z with p by lia. replace (n + p + 1 - p)%Z with (n + 1)%Z by lia.
      replace (n + p + 1 - (j - (n - C)))%Z with (n + p + 1 - j + (n - C))%Z by lia. unfold g. ring.
Qed.
Lemma after_g o A B : wf_ax (spec_ax A) -> wf_ax (spec_ax B) -> axis_after o A B -> axis_after (op_flipped K o) (mvax A) (mvax B).
Proof.
  intros WA WB. pose proof (ProofEquiv.e_np _ WA) as [Hp Hn].
  destruct o as [u times|values|side|side cont|t]; cbn [axis_after op_flipped]; cbv zeta; change (a_deg (mvax A)) with (a_deg A); change (a_deg (mvax B)) with (a_deg B).
  - change (K - u) with (g u). rewrite mulA_g by auto. intros (H1 & H2 & H3 & H4). repeat split; auto. intros v. rewrite !mulA_g', H4 by auto. f_equal.
    destruct (Req_EM_T (g v) u) as [E|E]; destruct (Req_EM_T v (g u)) as [E'|E']; auto.
    + exfalso. apply E'. rewrite <- E. symmetry. apply gg.
    + exfalso. apply E. rewrite E'. apply gg.
  - intros (H1 & H2). split; auto. intros v. change (fun v0 : R => K - v0) with g. rewrite !mulA_g', H2, countL_g by auto. reflexivity.
  - cbn [mvax a_size a_len a_knots]. rewrite flip_left, flip_right. intros (H1 & H2 & H3). split; auto. split; auto. rewrite H2, H3, a_len_eq.
    replace (a_size A - 1 + a_deg A + 2 - 1)%Z with (a_size A - 1 + a_deg A + 1)%Z by lia. apply clampLR_g; auto.
  - cbn [mvax a_size a_len a_knots]. rewrite flip_left, flip_right. intros (H1 & H2 & H3 & H4). split; auto. split; auto. split; auto. rewrite H3, a_len_eq.
    replace (a_size A - 1 + a_deg A + 2 - 1)%Z with (a_size A - 1 + a_deg A + 1)%Z by lia. apply periodic_g; auto.
  - intros (H1 & H2 & H3). split; auto. split; auto. intros v. rewrite !mulA_g' by auto. apply H3.
Qed.
Lemma mvax_wf A : wf_ax (spec_ax A) -> wf_ax (spec_ax (mvax A)).
Proof.
  intros [H1 H2]. split; [exact H1|]. cbn [spec_ax x_n x_p x_U mvax a_size a_knots] in *. change (a_deg (mvax A)) with (a_deg A). rewrite a_len_eq.
  replace (a_size A - 1 + a_deg A + 2 - 1)%Z with (a_size A - 1 + a_deg A + 1)%Z by lia. apply wf_mirror; auto.
Qed.

Lemma g_sub x y : Rabs (g x - g y) = Rabs (x - y).
Proof. rewrite <- (Rabs_Ropp (x - y)). f_equal. unfold g. ring. Qed.
Lemma sep_g s U u : separated U 0 s u -> separated (fun i => g (U (s - i)%Z)) 0 s (g u).
Proof. intros H j Hj. cbv beta. destruct (H (s - j)%Z ltac:(lia)) as [->|E]; auto. right. rewrite g_sub. exact E. Qed.
Lemma ends_g A : ends_separated A -> ends_separated (mvax A).
Proof.
  unfold ends_separated. change (a_deg (mvax A)) with (a_deg A). cbn [mvax a_size a_knots]. rewrite a_len_eq. cbv zeta.
  replace (a_size A - 1 + a_deg A + 2 - 1)%Z with (a_size A - 1 + a_deg A + 1)%Z by lia. intros [H1 H2].
  replace (a_size A - 1 + a_deg A + 1 - a_deg A)%Z with (a_size A - 1 + 1)%Z by lia. replace (a_size A - 1 + a_deg A + 1 - (a_size A - 1 + 1))%Z with (a_deg A) by lia.
  split; [apply (sep_g _ _ _ H2)|apply (sep_g _ _ _ H1)].
Qed.
Lemma flip_ok o A : wf_ax (spec_ax A) -> op_ok o A ->
  (forall t, o = Elevate t -> (a_deg A <= 9)%Z \/ elev_guard (a_size A - 1) (a_deg A) t (a_knots (mvax A))) -> op_ok (op_flipped K o) (mvax A).
Proof.
  intros [Hp Wk] H HE. pose proof (wf_n _ _ _ Wk) as Hn. cbn [spec_ax x_n x_p x_U] in *.
  destruct o as [u times|values|side|side cont|t]; cbn [op_ok op_flipped] in *; cbv zeta in *; change (a_deg (mvax A)) with (a_deg A) in *; cbn [mvax a_size a_knots] in *; rewrite a_len_eq in *;
    replace (a_size A - 1 + a_deg A + 2 - 1)%Z with (a_size A - 1 + a_deg A + 1)%Z in * by lia; set (n := (a_size A - 1)%Z) in *; set (p := a_deg A) in *; set (U := a_knots A) in *.
  - destruct H as [H1 H2]. split; [apply (sep_g (n + p + 1) U u H1)|].
    replace (n + p + 1 - p)%Z with (n + 1)%Z by lia. replace (n + p + 1 - (n + 1))%Z with p by lia. fold (g u). rewrite (mult_g (n + p + 1) 0 (n + p + 1) U u) by lia. rewrite Z.sub_diag, Z.sub_0_r.
    destruct H2 as [H2|H2]; [left; unfold g; lra|auto].
  - destruct H as [H1 H2]. change (fun v : R => K - v) with g. split.
    + intros v Hv. apply in_map_iff in Hv. destruct Hv as (w & <- & Hw). destruct (H1 w Hw) as [S1 S2]. split; [apply (sep_g (n + p + 1) U w S1)|].
      intros y Hy. apply in_map_iff in Hy. destruct Hy as (z & <- & Hz). destruct (S2 z Hz) as [->|E]; auto. right. rewrite g_sub. exact E.
    + intros v Hv. apply in_map_iff in Hv. destruct Hv as (w & <- & Hw). replace (n + p + 1 - p)%Z with (n + 1)%Z by lia. replace (n + p + 1 - (n + 1))%Z with p by lia.
      rewrite (mult_g (n + p + 1) 1 (n + p + 1 - 1) U w) by lia. replace (n + p + 1 - (n + p + 1 - 1))%Z with 1%Z by lia.
      destruct (H2 w Hw) as [E|E]; [left; unfold g; lra|auto].
  - apply ends_g; auto.
  - apply ends_g; auto.
  - destruct H as ((C1 & C2) & H2 & H3 & _). split; [|split; [|split]].
    + split; intros j Hj; f_equal; [replace (n + p + 1 - p)%Z with (n + 1)%Z by lia; apply C2; lia|replace (n + p + 1 - (n + 1))%Z with p by lia; apply C1; lia].
    + intros k Hk. destruct (H2 (n + p + 1 - (k + 1))%Z ltac:(lia)) as [E|E]; replace (n + p + 1 - (k + 1) + 1)%Z with (n + p + 1 - k)%Z in E by lia; [left; congruence|right]. rewrite g_sub, Rabs_minus_sym. exact E.
    + intros i Hi. assert (E : U (n + p + 1 - (i + p))%Z < U (n + p + 1 - i)%Z).
      { destruct (Z.le_gt_cases i (n - p)).
        - pose proof (H3 (n + p + 1 - (i + p))%Z ltac:(lia)) as E. replace (n + p + 1 - (i + p) + p)%Z with (n + p + 1 - i)%Z in E by lia. exact E.
        - pose proof (wf_mono _ _ _ Wk (n + p + 1 - (i + p))%Z p ltac:(lia) ltac:(lia) ltac:(lia)). pose proof (wf_mono _ _ _ Wk (p + 1)%Z (n + p + 1 - i)%Z ltac:(lia) ltac:(lia) ltac:(lia)). pose proof (wf_first _ _ _ Wk). lra. }
      unfold g. lra.
    + apply (HE t eq_refl).
Qed.

Variable a : nat.
Definition mvp (us : list R) : list R := lset a (g (nth a us 0)) us.
Record flipped (x x' : nurbs Rn) : Prop := {
  mo_len : length (n_axes x') = length (n_axes x);
  mo_wf : wf_nurbs x';
  mo_axes : forall b, (b < length (n_axes x))%nat -> axis_eq (if Nat.eqb b a then mvax (get_axis x b) else get_axis x b) (get_axis x' b);
  mo_comp : n_comp x' = n_comp x;
  mo_hom : forall us c, in_box (spec_axes x) us -> in_box (spec_axes x') (mvp us) /\ hom x' c (mvp us) = hom x c us }.
Lemma flipped_step o o' ax ax' b j j2 k k2 x x' y y' : wf_nurbs x -> (a < length (n_axes x))%nat -> flipped x x' ->
  py_axis (n_dim x) ax = Ok b -> py_axis (n_dim x') ax' = Ok b -> o' = (if Nat.eqb b a then op_flipped K o else o) ->
  op_ok o (get_axis x b) -> op_ok o' (get_axis x' b) -> run o j j2 x ax = Ok y -> run o' k k2 x' ax' = Ok y' -> wf_nurbs y /\ flipped y y'.
Proof.
  intros W Ha M Eb Eb' Eo Hh Hh' E E'. pose proof M as [L W' A C H].
  pose proof (py_axis_dim _ _ _ Eb) as Hb. pose proof (py_axis_dim _ _ _ Eb') as Hb'.
  destruct (op_spec o x ax b j j2 y W Eb Hh E) as (P & B & X & Af).
  destruct (op_spec o' x' ax' b k k2 y' W' Eb' Hh' E') as (P' & B' & X' & Af').
  assert (L1 : length (n_axes y) = length (n_axes x)) by (rewrite X, lset_length; auto). assert (L2 : length (n_axes y') = length (n_axes x')) by (rewrite X', lset_length; auto).
  assert (WB : wf_ax (spec_ax B)). { assert (B = get_axis y b) as -> by (rewrite (get_lset x y b B b X Hb), Nat.eqb_refl; auto). apply wf_get_axis; [apply P|lia]. }
  assert (WB' : wf_ax (spec_ax B')). { assert (B' = get_axis y' b) as -> by (rewrite (get_lset x' y' b B' b X' Hb'), Nat.eqb_refl; auto). apply wf_get_axis; [apply P'|lia]. }
  pose proof (wf_get_axis _ _ W Hb) as WA. pose proof (wf_get_axis _ _ W' Hb') as WA'.
  split; [apply P|]. split; [lia|apply P'| |rewrite (pr_comp _ _ P), (pr_comp _ _ P'); exact C|].
  - intros q Hq. rewrite (get_lset x y b B q X Hb), (get_lset x' y' b B' q X' Hb').
    destruct (Nat.eqb_spec q b) as [->|Hne]; [|apply A; lia]. pose proof (A b Hb) as G. destruct (Nat.eqb_spec b a) as [->|Hba]; subst o'.
    + apply (eq_after (mvax (get_axis x a)) (get_axis x' a) (mvax_wf _ WA) G (op_flipped K o)); auto; [apply mvax_wf; auto|apply after_g; auto].
    + apply (eq_after (get_axis x b) (get_axis x' b) WA G o); auto.
  - intros us c I. pose proof (ProofEquiv.box_back _ _ _ P I) as I0. destruct (H us c I0) as [I1 H1]. split.
    + clear - P' I1. pose proof (pr_dom _ _ P') as D. revert I1. generalize (mvp us). intros vs I1. revert D I1. generalize (spec_axes x') (spec_axes y'). intros m m' D. revert vs.
      induction D as [|p q l l' [E1 E2] D IH]; intros vs I; inversion I; subst; constructor; [unfold in_domain in *; rewrite <- E1, <- E2; auto|apply IH; auto].
    + rewrite (pr_hom _ _ P' _ c I1), H1. symmetry. apply (pr_hom _ _ P us c I0).
Qed.
Lemma flipped_all l x y : all_ok l x y -> wf_nurbs x -> (a < length (n_axes x))%nat -> forall x' l' y', flipped x x' -> all_ok l' x' y' ->
  Forall2 (flipped_call (n_dim x) a K) l l' -> wf_nurbs y /\ length (n_axes y) = length (n_axes x) /\ flipped y y'.
Proof.
  induction 1 as [x|o ax b j j2 l x y z Ea Hh E H IH]; intros W Ha x' l' z' M KK F.
  - inversion F; subst. inversion KK; subst. auto.
  - inversion F as [|? [o' ax'] ? m (b0 & S1 & S2 & S3) F']; subst. apply all_ok_cons in KK. destruct KK as (b' & k & k2 & y' & Ea' & Hh' & E' & K'). cbn [fst snd] in *. subst o'.
    assert (b0 = b) as -> by congruence. pose proof (mo_len _ _ M) as L. assert (Eb' : py_axis (n_dim x') ax' = Ok b) by (unfold n_dim in *; rewrite L; auto). assert (b' = b) as -> by congruence.
    destruct (flipped_step o _ ax ax' b j j2 k k2 x x' y y' W Ha M Ea Eb' eq_refl Hh Hh' E E') as [Wy My].
    destruct (op_spec o x ax b j j2 y W Ea Hh E) as (P & B & X & Af). assert (L1 : length (n_axes y) = length (n_axes x)) by (rewrite X, lset_length; auto).
    destruct (IH Wy ltac:(lia) y' m z' My K') as (R1 & R2 & R3); [unfold n_dim in *; rewrite L1; auto|]. split; auto. split; [lia|auto].
Qed.
Lemma flipped_unique y z y' : wf_nurbs y -> (a < length (n_axes y))%nat -> bounded_knots y -> flipped y z -> flipped y y' -> same_data z y'.
Proof.
  intros W Ha Bk MZ MY. pose proof MZ as [Lz Wz Az Cz Hz]. pose proof MY as [Ly Wy Ay Cy Hy].
  apply net_unique; auto.
  - apply ProofEquiv.same_knots_of; [lia|]. intros b Hb. rewrite Lz in Hb. eapply axis_eq_trans; [apply axis_eq_sym, Az; auto|]. apply Ay; auto.
  - congruence.
  - apply bounded_of. intros b Hb v. rewrite Lz in Hb. pose proof (Az b Hb) as G. rewrite (eq_mulA _ _ G), (ProofEquiv.e_deg _ _ G).
    destruct (Nat.eqb b a); [rewrite mulA_g' by (apply wf_get_axis; auto); change (a_deg (mvax (get_axis y b))) with (a_deg (get_axis y b))|]; apply bounded_at; auto.
  - intros us c I Hc.
    assert (I0 : in_box (spec_axes y) (lset a (g (nth a us 0)) us) /\ mvp (lset a (g (nth a us 0)) us) = us).
    { apply in_box_lohi in I. destruct I as [Lu I]. split.
      - apply in_box_lohi. split; [rewrite lset_length; lia|]. intros b Hb. specialize (I b ltac:(lia)). pose proof (Az b Hb) as G.
        pose proof (wf_get_axis _ _ W Hb) as WA. pose proof (ProofEquiv.e_np _ WA) as [Hp Hn].
        rewrite !a_lo_eq, !a_hi_eq in *. destruct (Nat.eqb_spec b a) as [->|Hne].
        + rewrite nth_lset by lia. rewrite (ProofEquiv.e_size _ _ G), (ProofEquiv.e_deg _ _ G) in I. change (a_deg (mvax (get_axis y a))) with (a_deg (get_axis y a)) in I.
          rewrite !(ProofEquiv.e_k _ _ G) in I by (change (a_deg (mvax (get_axis y a))) with (a_deg (get_axis y a)); cbn [mvax a_size]; lia). cbn [mvax a_size a_knots] in I.
          rewrite a_len_eq in I. replace (a_size (get_axis y a) - 1 + a_deg (get_axis y a) + 2 - 1 - a_deg (get_axis y a))%Z with (a_size (get_axis y a) - 1 + 1)%Z in I by lia.
          replace (a_size (get_axis y a) - 1 + a_deg (get_axis y a) + 2 - 1 - (a_size (get_axis y a) - 1 + 1))%Z with (a_deg (get_axis y a)) in I by lia.
          unfold g in *. change (T Rn) with R in *. lra.
        + rewrite nth_lset_other by auto. rewrite (ProofEquiv.e_size _ _ G), (ProofEquiv.e_deg _ _ G), !(ProofEquiv.e_k _ _ G) in I by lia. exact I.
      - unfold mvp. rewrite nth_lset by lia. rewrite gg. rewrite lset_lset. apply ProofNet.lset_nth. }
    destruct I0 as [I0 E0]. rewrite <- E0. rewrite (proj2 (Hz _ c I0)), (proj2 (Hy _ c I0)). reflexivity.
Qed.
Lemma flipped_accepts o ax ax' j j2 x x' y : wf_nurbs x -> flipped x x' -> py_axis (n_dim x) ax = Ok a -> py_axis (n_dim x') ax' = Ok a ->
  op_ok o (get_axis x a) -> op_ok (op_flipped K o) (get_axis x' a) -> run o j j2 x ax = Ok y -> forall k k2, exists y', run (op_flipped K o) k k2 x' ax' = Ok y'.
Proof.
  intros W M Ea Ea' Hh Hh' E k k2. pose proof M as [L W' A C H]. pose proof (py_axis_dim _ _ _ Ea) as Ha. pose proof (wf_get_axis _ _ W Ha) as WA.
  specialize (A a Ha). rewrite Nat.eqb_refl in A. pose proof (mvax_wf _ WA) as WM. pose proof (ProofEquiv.e_np _ WA) as [Hp Hn].
  pose proof (ProofEquiv.e_size _ _ A) as ES. pose proof (ProofEquiv.e_deg _ _ A) as ED. change (a_size (mvax (get_axis x a))) with (a_size (get_axis x a)) in ES. change (a_deg (mvax (get_axis x a))) with (a_deg (get_axis x a)) in ED.
  assert (EK : forall i, (0 <= i <= a_size (get_axis x a) - 1 + a_deg (get_axis x a) + 1)%Z -> a_knots (get_axis x' a) i = g (a_knots (get_axis x a) (a_size (get_axis x a) - 1 + a_deg (get_axis x a) + 1 - i)%Z)) by (intros i Hi; rewrite (ProofEquiv.e_k _ _ A); [cbn [mvax a_knots]; rewrite a_len_eq; f_equal; f_equal; lia|exact Hi]).
  assert (EM : forall lo hi u, (0 <= lo)%Z -> (lo <= hi + 1)%Z -> (hi <= a_size (get_axis x a) - 1 + a_deg (get_axis x a) + 1)%Z -> multiplicity (a_knots (get_axis x' a)) lo hi (g u) = multiplicity (a_knots (get_axis x a)) (a_size (get_axis x a) - 1 + a_deg (get_axis x a) + 1 - hi) (a_size (get_axis x a) - 1 + a_deg (get_axis x a) + 1 - lo) u).
  { intros lo hi u H0 H1 H2. rewrite (eq_mult _ _ A lo hi); [|exact H0|exact H2]. cbn [mvax a_knots]. rewrite mult_g by exact H1. rewrite a_len_eq. f_equal; lia. }
  destruct o as [u times|values|side|side cont|t]; cbn [run op_flipped op_ok] in *.
  - destruct Hh as [Hs Hi]. destruct (insert_spec x ax a u times j y W Ea Hs Hi E) as (D & H1 & H2 & _).
    apply (insert_ok x' ax' a (g u) times k W' Ea' (proj1 Hh')).
    + rewrite ES, ED. unfold in_domain in *. rewrite !EK by lia.
      replace (a_size (get_axis x a) - 1 + a_deg (get_axis x a) + 1 - a_deg (get_axis x a))%Z with (a_size (get_axis x a) - 1 + 1)%Z by lia.
      replace (a_size (get_axis x a) - 1 + a_deg (get_axis x a) + 1 - (a_size (get_axis x a) - 1 + 1))%Z with (a_deg (get_axis x a)) by lia. unfold g. change (T Rn) with R in *. lra.
    + rewrite ES, ED, EM by lia. rewrite Z.sub_diag, Z.sub_0_r. destruct times; auto.
  - change (fun v : R => K - v) with g. destruct values as [|v0 vs] eqn:Ev; [exists x'; reflexivity|]. rewrite <- Ev in *. assert (Hne : values <> []) by congruence. assert (Hne' : map g values <> []) by (rewrite Ev; discriminate).
    apply (proj2 (refine_ok x' ax' a (map g values) k W' Ea' Hne')). destruct (proj1 (refine_ok x ax a values j W Ea Hne)) as [K1 K2]; [eauto|]. rewrite ES, ED. split.
    + intros v Hv. apply in_map_iff in Hv. destruct Hv as (w & <- & Hw). rewrite !EK by lia.
      replace (a_size (get_axis x a) - 1 + a_deg (get_axis x a) + 1 - a_deg (get_axis x a))%Z with (a_size (get_axis x a) - 1 + 1)%Z by lia.
      replace (a_size (get_axis x a) - 1 + a_deg (get_axis x a) + 1 - (a_size (get_axis x a) - 1 + 1))%Z with (a_deg (get_axis x a)) by lia. destruct (K1 w Hw) as [D1 D2]. unfold g. change (T Rn) with R in *. lra.
    + intros v Hv. assert (Hv' : exists w, v = g w /\ (In w values \/ exists i, (1 <= i <= a_size (get_axis x a) - 1 + a_deg (get_axis x a))%Z /\ a_knots (get_axis x a) i = w)).
      { destruct Hv as [Hv|(i & Hi & Hv)]; [apply in_map_iff in Hv; destruct Hv as (w & <- & Hw); eauto|].
        exists (a_knots (get_axis x a) (a_size (get_axis x a) - 1 + a_deg (get_axis x a) + 1 - i)%Z). rewrite <- Hv. split; [apply EK; lia|right; eexists; split; [|reflexivity]; lia]. }
      destruct Hv' as (w & -> & Hw). rewrite EM by lia. rewrite countL_g, gg.
      match goal with |- context [multiplicity _ ?lo ?hi w] => replace lo with 1%Z by lia; replace hi with (a_size (get_axis x a) - 1 + a_deg (get_axis x a))%Z by lia end. apply K2. exact Hw.
  - apply (proj2 (clamp_ok x' ax' a _ k W' Ea')). apply legal_flip. apply (proj1 (clamp_ok x ax a side j W Ea)). eauto.
  - apply (proj2 (unclamp_ok x' ax' a _ cont k W' Ea')). rewrite ED. destruct (proj1 (unclamp_ok x ax a side cont j W Ea)) as [K1 K2]; [eauto|]. split; [apply legal_flip; exact K1|exact K2].
  - assert (Ht : (0 <= t)%Z). { unfold elevate, assert in E. destruct (Z.leb_spec 0 t); auto. discriminate. }
    destruct Hh' as (H1 & H2 & _). destruct (elevate_knots x' ax' a t k k2 W' Ea' Ht H1 H2) as (z & _ & Ez & _). eauto.
Qed.
Lemma after_deg o A B : axis_after o A B -> (a_deg A <= a_deg B)%Z.
Proof. destruct o; cbn [axis_after]; cbv zeta; unfold a_deg in *; intros H; decompose [and] H; lia. Qed.
Lemma all_ok_deg l x y : all_ok l x y -> wf_nurbs x -> (a < length (n_axes x))%nat -> (a_deg (get_axis x a) <= a_deg (get_axis y a))%Z.
Proof.
  induction 1 as [x|o ax b j j2 l x y z Eb Hh E H IH]; intros W Ha; [lia|]. pose proof (py_axis_dim _ _ _ Eb) as Hb.
  destruct (op_spec o x ax b j j2 y W Eb Hh E) as (P & B & X & Af). assert (L1 : length (n_axes y) = length (n_axes x)) by (rewrite X, lset_length; auto).
  specialize (IH (pr_wf _ _ P) ltac:(lia)). rewrite (get_lset x y b B a X Hb) in IH. destruct (Nat.eqb_spec a b) as [->|]; auto. apply after_deg in Af. lia.
Qed.
Lemma flipped_runs l x y : all_ok l x y -> wf_nurbs x -> (a < length (n_axes x))%nat -> (a_deg (get_axis y a) <= 9)%Z -> forall x' l', flipped x x' ->
  Forall2 (flipped_call (n_dim x) a K) l l' -> exists y', all_ok l' x' y'.
Proof.
  induction 1 as [x|o ax b j j2 l x y z Ea Hh E H IH]; intros W Ha Hd x' l' M F.
  - inversion F; subst. exists x'. constructor.
  - pose proof (all_ok_deg _ _ _ (ok_more o ax b j j2 l x y z Ea Hh E H) W Ha) as D0.
    inversion F as [|? [o' ax'] ? m (b0 & S1 & S2 & S3) F']; subst. cbn [fst snd] in *. assert (b0 = b) as -> by congruence.
    pose proof (mo_len _ _ M) as L. assert (Eb' : py_axis (n_dim x') ax' = Ok b) by (unfold n_dim in *; rewrite L; auto). pose proof (py_axis_dim _ _ _ Ea) as Hb.
    pose proof (mo_axes _ _ M b Hb) as G. pose proof (wf_get_axis _ _ W Hb) as WA.
    assert (R : op_ok o' (get_axis x' b) /\ exists y', run o' (fun _ => 0) (fun _ _ => 0) x' ax' = Ok y').
    { subst o'. destruct (Nat.eqb_spec b a) as [->|Hne].
      - assert (Hh' : op_ok (op_flipped K o) (get_axis x' a)) by (apply (eq_op_ok _ _ (mvax_wf _ WA) G), flip_ok; auto; left; lia).
        split; auto. apply (flipped_accepts o ax ax' j j2 x x' y W M Ea Eb' Hh Hh' E).
      - split; [apply (eq_op_ok _ _ WA G); auto|]. apply (accepts_at o x ax b x' ax' b j j2 y _ _ W (mo_wf _ _ M) Ea Eb' G Hh E). }
    destruct R as (Hh' & y' & E').
    destruct (flipped_step o _ ax ax' b j j2 _ _ x x' y y' W Ha M Ea Eb' S3 Hh Hh' E E') as [Wy My].
    destruct (op_spec o x ax b j j2 y W Ea Hh E) as (P & B & X & Af). assert (L1 : length (n_axes y) = length (n_axes x)) by (rewrite X, lset_length; auto).
    destruct (IH Wy ltac:(lia) Hd y' m My) as (z' & Hz); [unfold n_dim in *; rewrite L1; auto|].
    exists z'. apply (ok_more o' ax' b _ _ m x' y' z' Eb' Hh' E' Hz).
Qed.
End Flip.

Lemma reverse_flipped x ax a x' : wf_nurbs x -> py_axis (n_dim x) ax = Ok a -> continuous_axis (get_axis x a) -> reverse (N:=Rn) x [ax] = Ok x' ->
  flipped (a_lo (get_axis x a) + a_hi (get_axis x a)) a x x'.
Proof.
  intros W Ea Co E. pose proof (py_axis_dim _ _ _ Ea) as Ha. unfold reverse in E. cbn [reverse_axes] in E. rewrite Ea in E. cbn [bind] in E. injection E as <-.
  destruct (reverse1_spec x a W Ha Co) as (W' & H & _). set (A := get_axis x a) in *.
  assert (X : n_axes (reverse1 (N:=Rn) x a) = lset a (KntRev A) (n_axes x)) by reflexivity.
  split; [rewrite X, lset_length; auto|exact W'| |reflexivity|exact H].
  intros b Hb. rewrite (get_lset x _ a _ b X Ha). destruct (Nat.eqb_spec b a) as [->|]; [|apply axis_eq_refl]. fold A. split; [reflexivity|]. split; [reflexivity|].
  intros i Hi. rewrite KntRev_knots. cbn [mvax a_knots]. rewrite a_len_eq. f_equal. f_equal. lia.
Qed.
Lemma reverse_one (x : nurbs Rn) ax a : py_axis (n_dim x) ax = Ok a -> exists x', reverse (N:=Rn) x [ax] = Ok x'.
Proof. intros Ea. unfold reverse. cbn [reverse_axes]. rewrite Ea. cbn [bind]. eauto. Qed.
Lemma all_ok_ends l x y a : all_ok l x y -> wf_nurbs x -> (a < length (n_axes x))%nat -> a_lo (get_axis y a) = a_lo (get_axis x a) /\ a_hi (get_axis y a) = a_hi (get_axis x a).
Proof.
  intros H. induction H as [x|o ax b j j2 l x y z Eb Hh E H IH]; intros W Ha; auto.
  destruct (op_spec o x ax b j j2 y W Eb Hh E) as (P & B & X & Af). assert (L1 : length (n_axes y) = length (n_axes x)) by (rewrite X, lset_length; auto).
  destruct (IH (pr_wf _ _ P) ltac:(lia)) as [-> ->]. clear - P Ha. pose proof (pr_dom _ _ P) as D.
  assert (Hs : (a < length (spec_axes x))%nat) by (unfold spec_axes; rewrite map_length; auto).
  pose proof (Forall2_nth _ _ _ a (spec_ax axis0) (spec_ax axis0) D Hs) as [E1 E2]. rewrite !nth_spec_axes in E1, E2. cbn [spec_ax x_n x_p x_U] in E1, E2. rewrite !a_lo_eq, !a_hi_eq. auto.
Qed.
Theorem reverse_commutes l l' x y ax a x' z : wf_nurbs x -> all_ok l x y -> bounded_knots y -> py_axis (n_dim x) ax = Ok a ->
  continuous_axis (get_axis x a) -> continuous_axis (get_axis y a) -> reverse (N:=Rn) x [ax] = Ok x' ->
  Forall2 (flipped_call (n_dim x) a (a_lo (get_axis x a) + a_hi (get_axis x a))) l l' -> all_ok l' x' z ->
  exists y', reverse (N:=Rn) y [ax] = Ok y' /\ same_data y' z.
Proof.
  intros W H Bk Ea Cx Cy E F KK. pose proof (py_axis_dim _ _ _ Ea) as Ha. pose proof (reverse_flipped x ax a x' W Ea Cx E) as M.
  destruct (flipped_all _ a l x y H W Ha x' l' z M KK F) as (Wy & Ly & MY).
  assert (Ey : py_axis (n_dim y) ax = Ok a) by (unfold n_dim in *; rewrite Ly; auto). destruct (all_ok_ends l x y a H W Ha) as [D1 D2].
  destruct (reverse_one y ax a Ey) as [y' E']. exists y'. split; auto.
  pose proof (reverse_flipped y ax a y' Wy Ey Cy E') as MZ. rewrite D1, D2 in MZ.
  apply (flipped_unique _ a y y' z Wy ltac:(lia) Bk MZ MY).
Qed.
Theorem reverse_accepts l l' x y ax a x' : wf_nurbs x -> all_ok l x y -> bounded_knots y -> py_axis (n_dim x) ax = Ok a ->
  continuous_axis (get_axis x a) -> continuous_axis (get_axis y a) -> (a_deg (get_axis y a) <= 9)%Z -> reverse (N:=Rn) x [ax] = Ok x' ->
  Forall2 (flipped_call (n_dim x) a (a_lo (get_axis x a) + a_hi (get_axis x a))) l l' ->
  exists y' z, reverse (N:=Rn) y [ax] = Ok y' /\ all_ok l' x' z /\ same_data y' z.
Proof.
  intros W H Bk Ea Cx Cy Hd E F. pose proof (py_axis_dim _ _ _ Ea) as Ha. pose proof (reverse_flipped x ax a x' W Ea Cx E) as M.
  destruct (flipped_runs _ a l x y H W Ha Hd x' l' M F) as [z Hz].
  destruct (reverse_commutes l l' x y ax a x' z W H Bk Ea Cx Cy E F Hz) as (y' & E1 & E2). eauto.
Qed.
Lemma mults_continuous A : wf_ax (spec_ax A) -> (forall v, a_lo A < v < a_hi A -> (mulA A v <= a_deg A)%Z) -> continuous_axis A.
Proof.
  intros [Hp Wk] H. pose proof (wf_n _ _ _ Wk) as Hn. cbn [spec_ax x_n x_p x_U] in *. intros i Hi. rewrite a_lo_eq, a_hi_eq in H.
  set (n := (a_size A - 1)%Z) in *. set (p := a_deg A) in *. set (U := a_knots A) in *.
  pose proof (wf_mono _ _ _ Wk) as Mo. pose proof (Mo (p + 1)%Z i ltac:(lia) ltac:(lia) ltac:(lia)). pose proof (Mo i n ltac:(lia) ltac:(lia) ltac:(lia)).
  pose proof (wf_first _ _ _ Wk). pose proof (wf_last _ _ _ Wk). destruct (Mo i (i + p)%Z ltac:(lia) ltac:(lia) ltac:(lia)) as [|E]; auto. exfalso.
  specialize (H (U i) ltac:(lra)). unfold mulA in H. fold n p U in H.
  pose proof (multiplicity_pair U 0 (n + p + 1) (U i) i (i + p)%Z Mo ltac:(lia) ltac:(lia) ltac:(lia) eq_refl (eq_sym E)). lia.
Qed.
