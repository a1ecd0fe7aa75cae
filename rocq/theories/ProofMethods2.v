(** refine, extract and boundary at the level of the class. *)
From Coq Require Import ZArith Reals List Lia Lra Bool Permutation.
From Verif Require Import Num Loop ModelBspline ModelBSp ModelNurbs Spec SumZ BPiece BLink ProofSpan BInsert BRep ProofInsert ProofRefine
  ProofCut ProofClamp ProofUnclamp SpecNurbs ProofNet ProofCall ProofNurbs ProofMethods.
Import ListNotations.
Local Open Scope R_scope.

(** ** Sorting *)
Fixpoint sorted (l : list R) : Prop :=
  match l with [] => True | x :: l' => (forall y, In y l' -> x <= y) /\ sorted l' end.
Lemma ins_sort1_perm (x : R) l : Permutation (ins_sort1 (N:=Rn) x l) (x :: l).
Proof.
  induction l as [|y l IH]; simpl; auto. destruct (Rleb x y); auto.
  eapply perm_trans; [apply perm_skip, IH|]. apply perm_swap.
Qed.
Lemma sort_perm l : Permutation (sort (N:=Rn) l) l.
Proof. induction l as [|x l IH]; simpl; auto. eapply perm_trans; [apply ins_sort1_perm|]. auto. Qed.
Lemma ins_sort1_sorted (x : R) l : sorted l -> sorted (ins_sort1 (N:=Rn) x l).
Proof.
  induction l as [|y l IH]; simpl; intros H.
  - split; auto. intros y [].
  - destruct (Rleb x y) eqn:E.
    + apply Rleb_true in E. simpl. split; [|auto]. intros z [<-|Hz]; [auto|]. destruct H as [H _]. specialize (H z Hz). lra.
    + apply Rleb_false in E. destruct H as [H1 H2]. simpl. split; auto.
      intros z Hz. apply (Permutation_in _ (ins_sort1_perm x l)) in Hz. destruct Hz as [<-|Hz]; [lra|auto].
Qed.
Lemma sort_sorted l : sorted (sort (N:=Rn) l).
Proof. induction l; simpl; auto. apply ins_sort1_sorted; auto. Qed.
Lemma sorted_nth l d : sorted l -> forall i j, (i <= j < length l)%nat -> nth i l d <= nth j l d.
Proof.
  induction l as [|x l IH]; simpl; intros H i j Hij; [lia|]. destruct H as [H1 H2].
  destruct i, j; try lia; simpl.
  - lra.
  - apply H1, nth_In. lia.
  - apply IH; auto; lia.
Qed.

(** Number of occurrences in a list. *)
Fixpoint countL (v : R) (l : list R) : Z :=
  match l with [] => 0%Z | x :: l' => ((if Req_EM_T x v then 1 else 0) + countL v l')%Z end.
Lemma countL_perm v l l' : Permutation l l' -> countL v l = countL v l'.
Proof. intros P. induction P; simpl; lia. Qed.
Lemma countL_app v l l' : countL v (l ++ l') = (countL v l + countL v l')%Z.
Proof. induction l; simpl; lia. Qed.
Lemma countL_nonneg v l : (0 <= countL v l)%Z.
Proof. induction l; simpl; [lia|]. destruct (Req_EM_T a v); lia. Qed.
Lemma countL_In v l : In v l -> (1 <= countL v l)%Z.
Proof.
  induction l; simpl; [tauto|]. intros [->|H].
  - pose proof (countL_nonneg v l). destruct (Req_EM_T v v); [lia|congruence].
  - specialize (IHl H). destruct (Req_EM_T a v); lia.
Qed.
Lemma count_eq_L v l : count_eq (N:=Rn) v l = countL v l.
Proof.
  unfold count_eq. change (neqb Rn v) with (Reqb v). induction l as [|x l IH]; simpl; auto.
  destruct (Reqb v x) eqn:E.
  - apply Reqb_true in E. subst. destruct (Req_EM_T x x); [|congruence]. cbn [length].
    etransitivity; [apply Nat2Z.inj_succ|]. unfold Z.succ. rewrite Z.add_comm. f_equal. exact IH.
  - destruct (Req_EM_T x v) as [E'|E'].
    + assert (Reqb v x = true) by (apply Reqb_true; auto). congruence.
    + exact IH.
Qed.
Lemma countL_nth v l : countL v l = multiplicity (fun i => nth (Z.to_nat i) l 0) 0 (Z.of_nat (length l) - 1) v.
Proof.
  unfold multiplicity. replace (Z.to_nat (Z.of_nat (length l) - 1 + 1 - 0)) with (length l) by lia.
  induction l as [|x l IH]; simpl; auto. rewrite IH. f_equal.
  transitivity (countN (length l) 0 (fun i => nth (Z.to_nat (i + 1)) (x :: l) 0) v).
  - assert (G : forall c i (f g : Z -> R), (forall j, (i <= j)%Z -> f j = g j) -> countN c i f v = countN c i g v).
    { induction c; intros i f g H; simpl; auto. rewrite (H i) by lia. f_equal. apply IHc. intros; apply H; lia. }
    apply G. intros j Hj. replace (Z.to_nat (j + 1)) with (S (Z.to_nat j)) by lia. reflexivity.
  - assert (G : forall c i (f : Z -> R), countN c i (fun j => f (j + 1)%Z) v = countN c (i + 1) f v).
    { induction c; intros i f; simpl; auto. rewrite IHc. reflexivity. }
    apply (G (length l) 0%Z (fun i => nth (Z.to_nat i) (x :: l) 0)).
Qed.
Lemma countL_map v (U : Z -> R) c : forall lo, countL v (map U (zseq c lo)) = countN c lo U v.
Proof. induction c; intros lo; simpl; auto. rewrite IHc. reflexivity. Qed.

Lemma while_sim {S K : Type} (f : S -> K) fuel c (b b' : S -> S) : 
  (forall s s', f s = f s' -> c s = c s') -> (forall s s', f s = f s' -> f (b s) = f (b' s')) ->
  forall s s', f s = f s' ->
  match while fuel c b s, while fuel c b' s' with
  | Some t, Some t' => f t = f t' | None, None => True | _, _ => False end.
Proof.
  intros Hc Hb. induction fuel; intros s s' E; simpl; auto.
  rewrite (Hc s s' E). destruct (c s'); auto. apply IHfuel. auto.
Qed.
Lemma whileD_sim {S K : Type} (f : S -> K) fuel c (b b' : S -> S) s s' :
  (forall s s', f s = f s' -> c s = c s') -> (forall s s', f s = f s' -> f (b s) = f (b' s')) ->
  f s = f s' -> f (whileD fuel c b s) = f (whileD fuel c b' s').
Proof.
  intros Hc Hb E. unfold whileD. pose proof (while_sim f fuel c b b' Hc Hb s s' E) as H.
  destruct (while fuel c b s), (while fuel c b' s'); tauto.
Qed.
Lemma for_down_sim {S K : Type} (f : S -> K) hi lo (b b' : Z -> S -> S) s s' :
  (forall i s s', f s = f s' -> f (b i s) = f (b' i s')) -> f s = f s' ->
  f (for_down hi lo b s) = f (for_down hi lo b' s').
Proof.
  intros Hb. unfold for_down. generalize (Z.to_nat (hi + 1 - lo)) as c. intros c. revert hi s s'.
  induction c; intros hi s s' E; simpl; auto.
Qed.

(** ** The knots computed by refinement do not depend on the control points. *)
Definition kn (st : (Z -> R) * (Z -> R) * Z * Z) := let '(_, Ub, i, k) := st in (Ub, i, k).
Lemma Refine_shift_kn p a U P P' x st st' : kn st = kn st' ->
  kn (Refine_shift (N:=Rn) p a U P x st) = kn (Refine_shift (N:=Rn) p a U P' x st').
Proof.
  destruct st as [[[Q Ub] i] k], st' as [[[Q' Ub'] i'] k']. intros E. simpl in E. injection E as <- <- <-.
  unfold Refine_shift.
  match goal with |- kn (whileD ?f ?c ?b ?s) = kn (whileD _ _ ?b' ?s') => apply (whileD_sim kn f c b b' s s') end; auto.
  - intros [[[q1 u1] i1] k1] [[[q2 u2] i2] k2] E. simpl in E. injection E as -> -> ->. reflexivity.
  - intros [[[q1 u1] i1] k1] [[[q2 u2] i2] k2] E. simpl in E. injection E as -> -> ->. reflexivity.
Qed.

Lemma Refine_fst n p U P P' r X junk :
  fst (RefineKnotVector (N:=Rn) n p U P r X junk) = fst (RefineKnotVector (N:=Rn) n p U P' r X junk).
Proof.
  unfold RefineKnotVector. destruct (r <? 0)%Z; auto. cbv zeta.
  set (a := FindSpan (N:=Rn) n p (X 0%Z) U).
  match goal with |- context[for_down r 0 (Refine_round p a U P X) ?s1] =>
  match goal with |- context[for_down r 0 (Refine_round p a U P' X) ?s2] =>
    assert (E : kn (for_down r 0 (Refine_round (N:=Rn) p a U P X) s1) = kn (for_down r 0 (Refine_round (N:=Rn) p a U P' X) s2)) end end.
  { apply for_down_sim; auto. intros i s s' E. unfold Refine_round.
    pose proof (Refine_shift_kn p a U P P' (X i) s s' E) as E2.
    destruct (Refine_shift _ _ _ _ _ s) as [[[q1 u1] i1] k1]. destruct (Refine_shift _ _ _ _ _ s') as [[[q2 u2] i2] k2].
    simpl in E2. injection E2 as -> -> ->. reflexivity. }
  destruct (for_down _ _ _ _) as [[[q1 u1] i1] k1]. destruct (for_down _ _ _ _) as [[[q2 u2] i2] k2].
  simpl in E. injection E as -> -> ->. reflexivity.
Qed.

(** ** refine *)
Definition separated_list (U : Z -> R) (hi : Z) (l : list R) : Prop :=
  forall x, In x l -> separated U 0 hi x /\ forall y, In y l -> y = x \/ / 4503599627370496 <= Rabs (y - x).

Theorem refine_class_spec nrb ax a values junk nrb' : wf_nurbs nrb -> py_axis (n_dim nrb) ax = Ok a ->
  let A := get_axis nrb a in let n := (a_size A - 1)%Z in let p := a_deg A in let U := a_knots A in
  separated_list U (n + p + 1) values ->
  (forall x, In x values -> U p < x < U (n + 1)%Z \/ (p <= multiplicity U 1 (n + p) x)%Z) ->
  refine (N:=Rn) junk nrb ax values = Ok nrb' ->
  preserves nrb nrb' /\
  let t := Z.of_nat (length values) in
  exists V, n_axes nrb' = lset a (mkAxis (a_size A + t) (a_len A + t) V) (n_axes nrb) /\
    nondecreasing V 0 (n + t + p + 1) /\
    forall v, multiplicity V 0 (n + t + p + 1) v = (multiplicity U 0 (n + p + 1) v + countL v values)%Z.
Proof.
  intros W Ea A n p U Hsep Hint E.
  pose proof (py_axis_dim _ _ _ Ea) as Ha. pose proof (wf_get_axis _ _ W Ha) as WA. fold A in WA.
  assert (Wk : wf_knots n p U) by apply WA. assert (Wp : (1 <= p)%Z) by apply WA.
  pose proof (wf_n _ _ _ Wk) as Hn. unfold refine in E.
  destruct values as [|v0 vs] eqn:EVal.
  { injection E as <-. split; [apply preserves_refl; auto|]. exists U. cbn [length].
    replace (a_size A + Z.of_nat 0)%Z with (a_size A) by lia. replace (a_len A + Z.of_nat 0)%Z with (a_len A) by lia.
    split. { unfold U. replace (mkAxis (a_size A) (a_len A) (a_knots A)) with A by (destruct A; reflexivity).
      unfold A, get_axis. rewrite lset_nth. reflexivity. }
    replace (n + Z.of_nat 0 + p + 1)%Z with (n + p + 1)%Z by lia. split; [apply Wk|]. intros v. simpl. lia. }
  rewrite <- EVal in *. assert (Hne : values <> []) by (rewrite EVal; discriminate). clear v0 vs EVal.
  rewrite Ea in E. cbn [bind] in E. fold A in E. fold n p U in E.
  unfold refine_arg in E.
  pose proof (sort_perm values) as Pm. pose proof (sort_sorted values) as So.
  set (u := sort (N:=Rn) values) in *.
  unfold assert in E.
  destruct (nleb Rn (a_lo A) (hd (n0 Rn) u)); [|discriminate]. cbn [bind] in E.
  destruct (nleb Rn (last u (n0 Rn)) (a_hi A)); [|discriminate]. cbn [bind] in E.
  destruct (forallb _ _) eqn:EF in E; [|discriminate]. cbn [bind] in E.
  unfold check in E. destruct (Z.leb_spec 1 n); [|discriminate]. destruct (Z.leb_spec 1 p); [|discriminate]. cbn [bind] in E.
  assert (Hlen : @length R u = length values) by (apply Permutation_length; auto).
  assert (Hl1 : (1 <= @length R u)%nat) by (rewrite Hlen; destruct values; simpl; [congruence|lia]).
  assert (Hin : forall x, In x u -> U p < x < U (n + 1)%Z).
  { intros x Hx. destruct (Hint x) as [Hi|Hm]; auto. { eapply Permutation_in; eauto. }
    exfalso. rewrite forallb_forall in EF. 
    specialize (EF x (in_or_app _ _ _ (or_introl Hx))). apply Z.leb_le in EF. rewrite count_eq_L in EF.
    rewrite countL_app in EF. pose proof (countL_In x u Hx).
    assert (EC : countL x (map (a_knots A) (zseq (Z.to_nat (a_len A - 2)) 1)) = multiplicity U 1 (n + p) x).
    { rewrite countL_map. unfold multiplicity. fold U. f_equal. rewrite a_len_eq. fold n p. lia. }
    rewrite EC in EF. fold p in EF. lia. }
  set (r := (Z.of_nat (length u) - 1)%Z) in *.
  assert (HrL : r = (Z.of_nat (@length R u) - 1)%Z) by reflexivity.
  set (X := fun i => nth (Z.to_nat i) u (n0 Rn)) in *.
  assert (XIn : forall j, (0 <= j <= r)%Z -> In (X j) u) by (intros j Hj; apply nth_In; change (T Rn) with R; lia).
  assert (XV : forall j, (0 <= j <= r)%Z -> In (X j) values) by (intros j Hj; eapply Permutation_in; eauto).
  assert (MX : nondecreasing X 0 r).
  { intros i j Hi Hij Hj. apply sorted_nth; auto. lia. }
  assert (HX : forall j, (0 <= j <= r)%Z -> U p < X j < U (n + 1)%Z) by (intros; apply Hin, XIn; auto).
  assert (SU : forall j, (0 <= j <= r)%Z -> separated U 0 (n + p + 1) (X j)) by (intros; apply Hsep, XV; auto).
  assert (SX : forall j, (0 <= j <= r)%Z -> separated X 0 r (X j)).
  { intros j Hj i Hi. apply (Hsep (X j)); apply XV; auto. }
  set (t := Z.of_nat (length values)).
  assert (Hr0 : (0 <= r)%Z) by (rewrite HrL; clear -Hl1; lia).
  assert (Et : t = (r + 1)%Z) by (unfold r; rewrite Z.sub_add; symmetry; exact (f_equal Z.of_nat Hlen)).
  set (V := fst (bsp_Refine (N:=Rn) n p U (fun _ => 0) r X junk)).
  pose proof (fun P => refine_spec n p U P r X Wk Wp Hr0 MX HX SU SX junk) as RS. cbv zeta in RS.
  destruct (RS (fun _ => 0)) as [WV [D1 [D2 [MV _]]]].
  change (fst (RefineKnotVector (N:=Rn) n p U (fun _ => 0) r X junk)) with V in WV, D1, D2, MV.
  replace (n + r + 1)%Z with (n + t)%Z in * by lia.
  assert (E3 : nrb' = mkNurbs (lset a (mkAxis (a_size A + t) (a_len A + t) V) (n_axes nrb)) (n_comp nrb)
     (along (N:=Rn) a (fun P => snd (bsp_Refine (N:=Rn) n p U P r X junk)) (n_arr nrb))).
  { injection E as <-. rewrite Et. reflexivity. }
  clear E. subst nrb'. cbn [n_axes]. split.
  - apply axis_change; auto.
    + fold A. rewrite spec_ax_grow. split; auto.
    + fold A. rewrite spec_ax_grow. split; simpl; fold n p U; auto.
    + fold A n p U. intros P x Hx. cbn [a_size a_knots]. rewrite a_deg_grow. fold p.
      replace (a_size A + t - 1)%Z with (n + t)%Z by (unfold n; lia).
      pose proof (refine_curve n p U P r X Wk Wp Hr0 MX HX SU SX junk x Hx) as C. cbv zeta in C.
      replace (n + r + 1)%Z with (n + t)%Z in C by lia. rewrite <- C. f_equal. apply Refine_fst.
  - exists V. split; [reflexivity|]. split; [apply WV|].
    intros v. rewrite MV. f_equal. rewrite <- (countL_perm v _ _ Pm). symmetry. apply countL_nth.
Qed.
