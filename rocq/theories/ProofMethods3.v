(** Clamping twice, boundary extraction, and when refine succeeds. *)
From Coq Require Import ZArith Reals List Lia Lra Bool.
From Verif Require Import Num Loop ModelBspline ModelBSp ModelNurbs Spec SumZ BPiece BLink ProofSpan ProofEval ProofInsert ProofClamp
  SpecNurbs ProofNet PropBasis ProofCall ProofNurbs ProofMethods ProofMethods2 ProofGeom ProofGeom2.
Import ListNotations.
Local Open Scope R_scope.

Lemma near_self (x : R) : nltb Rn (nabs Rn (nsub Rn x x)) (neps Rn) = true.
Proof. rn. apply Rltb_true. replace (x - x) with 0 by lra. rewrite Rabs_R0. apply eps_pos. Qed.

Lemma Clamp_left_id n p (V P junk : Z -> Rn) : (1 <= p)%Z -> (forall i, (0 <= i <= p)%Z -> V i = V p) ->
  exists V1, Clamp_left (N:=Rn) n p (V, P) junk = (V1, P) /\ forall i, V1 i = V i.
Proof.
  intros Hp HV. unfold Clamp_left. eexists. split; [f_equal|]; swap 1 2.
  - intros i. unfold fill. destruct (Z.leb_spec 0 i), (Z.leb_spec i (p - 1)); cbn [andb]; auto. symmetry. apply HV. lia.
  - assert (p <= FindMult (N:=Rn) p (V p) p V)%Z.
    { unfold FindMult. floop (fun k (c : Z) => (Z.min (k + p) (p + 1) <= c)%Z); try lia.
      intros k c Hk IH. destruct (Z.le_gt_cases k 0).
      - rewrite (HV (p + k)%Z) by lia. rewrite near_self. lia.
      - destruct (nltb Rn _ _); lia. }
    destruct (Z.ltb_spec (FindMult (N:=Rn) p (V p) p V) p); [lia|reflexivity].
Qed.

Lemma Clamp_right_id n p (V P junk : Z -> Rn) : (1 <= p)%Z -> (forall i, (n + 1 <= i <= n + p + 1)%Z -> V i = V (n + 1)%Z) ->
  exists V1, Clamp_right (N:=Rn) n p (V, P) junk = (V1, P) /\ forall i, V1 i = V i.
Proof.
  intros Hp HV. unfold Clamp_right. eexists. split; [f_equal|]; swap 1 2.
  - intros i. unfold fill. destruct (Z.leb_spec (n + 2) i), (Z.leb_spec i (n + p + 1)); cbn [andb]; auto. symmetry. apply HV. lia.
  - assert (p <= FindMult (N:=Rn) n (V (n + 1)%Z) p V)%Z.
    { unfold FindMult. floop (fun k (c : Z) => (Z.max 0 (k - 1) <= c)%Z); try lia.
      intros k c Hk IH. destruct (Z.le_gt_cases 1 k).
      - rewrite (HV (n + k)%Z) by lia. rewrite near_self. lia.
      - destruct (nltb Rn _ _); lia. }
    destruct (Z.ltb_spec (FindMult (N:=Rn) n (V (n + 1)%Z) p V) p); [lia|reflexivity].
Qed.

(** The same object: equal sizes, equal knots, equal array entries. *)
Definition same_object (nrb nrb' : nurbs Rn) : Prop :=
  Forall2 (fun A A' => a_size A' = a_size A /\ a_len A' = a_len A /\ forall i, a_knots A' i = a_knots A i) (n_axes nrb) (n_axes nrb') /\
  n_comp nrb' = n_comp nrb /\
  forall idx c, length idx = length (n_axes nrb) -> n_arr nrb' idx c = n_arr nrb idx c.

Lemma nth_lset_same {A} a (v d : A) l : (a < length l)%nat -> nth a (lset a v l) d = v.
Proof. revert l. induction a; intros [|x l] H; simpl in *; try lia; auto. apply IHa. lia. Qed.

Theorem clamp_twice nrb ax a side junk nrb' : wf_nurbs nrb -> py_axis (n_dim nrb) ax = Ok a ->
  clamp (N:=Rn) junk nrb ax side = Ok nrb' ->
  forall junk', exists nrb'', clamp (N:=Rn) junk' nrb' ax side = Ok nrb'' /\ same_object nrb' nrb''.
Proof.
  intros W Ea E junk'. pose proof (py_axis_dim _ _ _ Ea) as Ha. pose proof (wf_get_axis _ _ W Ha) as WA. set (A := get_axis nrb a) in *.
  assert (Wk : wf_knots (a_size A - 1) (a_deg A) (a_knots A)) by apply WA. assert (Wp : (1 <= a_deg A)%Z) by apply WA.
  pose proof (wf_n _ _ _ Wk) as Hn.
  unfold clamp in E. rewrite Ea in E. cbn [bind] in E. fold A in E.
  set (n := (a_size A - 1)%Z) in *. set (p := a_deg A) in *. set (U := a_knots A) in *.
  destruct (side_lr side) as [[l r]|] eqn:ES; [|discriminate]. cbn [bind] in E.
  unfold check in E. destruct (Z.leb_spec 1 n); [|discriminate]. destruct (Z.leb_spec 1 p); [|discriminate]. cbn [bind] in E.
  set (V := fst (bsp_Clamp n p U (fun _ => 0) l r junk)) in *.
  assert (E0 : nrb' = mkNurbs (lset a (mkAxis (N:=Rn) (a_size A) (a_len A) V) (n_axes nrb)) (n_comp nrb)
                 (along (N:=Rn) a (fun P => snd (bsp_Clamp n p U P l r junk)) (n_arr nrb))) by (injection E as <-; reflexivity).
  clear E. subst nrb'.
  assert (VL : l = true -> forall i, (0 <= i <= p)%Z -> V i = V p).
  { intros ->. intros i Hi. unfold V, bsp_Clamp, ClampKnot, Clamp_left, Clamp_right. destruct r; cbn [fst]; unfold fill;
    repeat match goal with |- context[(?a <=? ?b)%Z] => destruct (Z.leb_spec a b); try lia; cbn [andb] end; auto;
    replace i with p by lia; reflexivity. }
  assert (VR : r = true -> forall i, (n + 1 <= i <= n + p + 1)%Z -> V i = V (n + 1)%Z).
  { intros ->. intros i Hi. unfold V, bsp_Clamp, ClampKnot, Clamp_left, Clamp_right. destruct l; cbn [fst]; unfold fill;
    repeat match goal with |- context[(?a <=? ?b)%Z] => destruct (Z.leb_spec a b); try lia; cbn [andb] end; auto;
    replace i with (n + 1)%Z by lia; reflexivity. }
  assert (ID : forall Q, (forall i, fst (bsp_Clamp (N:=Rn) n p V Q l r junk') i = V i) /\ snd (bsp_Clamp (N:=Rn) n p V Q l r junk') = Q).
  { intros Q. unfold bsp_Clamp, ClampKnot. destruct l.
    - destruct (Clamp_left_id n p V Q junk' Wp (VL eq_refl)) as [V1 [-> L1]].
      destruct r; [|split; auto].
      destruct (Clamp_right_id n p V1 Q junk' Wp) as [V2 [-> R1]].
      + intros i Hi. rewrite !L1. apply VR; auto.
      + split; auto. intros i. cbn [fst]. rewrite R1. apply L1.
    - destruct r; [|split; auto]. destruct (Clamp_right_id n p V Q junk' Wp (VR eq_refl)) as [V1 [-> L1]]. auto. }
  unfold clamp. unfold n_dim. cbn [n_axes n_comp n_arr]. rewrite lset_length. fold (n_dim nrb). rewrite Ea. cbn [bind].
  unfold get_axis. cbn [n_axes]. rewrite nth_lset_same by auto.
  assert (Ed : a_deg (mkAxis (N:=Rn) (a_size A) (a_len A) V) = p) by reflexivity. rewrite Ed. cbn [a_size a_len a_knots]. fold n. rewrite ES. cbn [bind].
  unfold check. destruct (Z.leb_spec 1 n); [|lia]. destruct (Z.leb_spec 1 p); [|lia]. cbn [bind].
  eexists. split; [reflexivity|]. split; [|split]; cbn [n_axes n_comp n_arr]; auto.
  - assert (H1' : forall A', Forall2 (fun B B' : axis Rn => a_size B' = a_size B /\ a_len B' = a_len B /\ forall i, a_knots B' i = a_knots B i)
        A' A') by (induction A'; constructor; auto).
    rewrite <- (lset_nth a axis0 (lset a (mkAxis (a_size A) (a_len A) V) (n_axes nrb))) at 1.
    apply Forall2_lset; auto. rewrite nth_lset_same by auto. cbn [a_size a_len a_knots]. split; auto. split; auto.
    intros i. apply ID.
  - intros idx c Hl. rewrite lset_length in Hl. unfold along at 1. rewrite (proj2 (ID _)).
    f_equal. apply lset_nth.
Qed.

(** boundary(axis, side) is the restriction to the end of the axis. *)
Theorem boundary_values nrb ax a side junk nrb' : wf_nurbs nrb -> py_axis (n_dim nrb) ax = Ok a ->
  let A := get_axis nrb a in let n := (a_size A - 1)%Z in let p := a_deg A in let U := a_knots A in
  let u := if (side =? 0)%Z then U p else U (n + 1)%Z in
  separated U 0 (n + p + 1) u ->
  (side = 0%Z \/ multiplicity U 0 (n + p + 1) u = 1%Z \/ (p <= multiplicity U 0 (n + p + 1) u)%Z) ->
  boundary (N:=Rn) junk nrb ax side = Ok nrb' ->
  n_axes nrb' = lrem a (n_axes nrb) /\
  (forall us c, length us = length (spec_axes nrb') -> hom nrb' c us = hom nrb c (lins a u us)) /\
  forall xs, good_args (spec_axes nrb') xs -> same_values nrb nrb' (fix_arg a u xs) xs (lins a 0%Z).
Proof.
  intros W Ea A n p U u Hsep Hm E. unfold boundary, assert in E.
  destruct ((side =? 0)%Z || (side =? 1)%Z) eqn:Es; [|discriminate]. cbn [bind] in E. rewrite Ea in E. cbn [bind] in E. fold A in E.
  pose proof (py_axis_dim _ _ _ Ea) as Ha. pose proof (wf_get_axis _ _ W Ha) as WA. fold A in WA.
  assert (Ew : wf_knots n p U) by apply WA. pose proof (wf_n _ _ _ Ew) as Hn. 
  assert (Eu : (if (side =? 0)%Z then a_lo A else a_hi A) = u).
  { unfold u. destruct (side =? 0)%Z; [reflexivity|]. rewrite a_hi_eq. reflexivity. }
  rewrite Eu in E.
  assert (Ea' : py_axis (n_dim nrb) (Z.of_nat a) = Ok a) by (rewrite py_axis_nat, Nat2Z.id by (unfold n_dim; lia); reflexivity).
  assert (Hm' : u < U (n + 1)%Z \/ multiplicity U 0 (n + p + 1) u = 1%Z \/ (p <= multiplicity U 0 (n + p + 1) u)%Z).
  { destruct Hm as [->|Hm]; [|right; exact Hm]. left. unfold u. cbn [Z.eqb].
    apply Rlt_le_trans with (U (p + 1)%Z); [apply (wf_first _ _ _ Ew)|apply (wf_mono _ _ _ Ew); assert (1 <= p)%Z by apply WA; lia]. }
  destruct (extract_spec nrb (Z.of_nat a) a u junk nrb' W Ea' Hsep Hm' E) as [D [W' [EA [_ Hh]]]].
  split; auto. split; auto. exact (extract_values nrb (Z.of_nat a) a u junk nrb' W Ea' Hsep Hm' E).
Qed.

(** When refine succeeds: all values in the domain, and no knot of U[1:-1] or new value more
    than p-fold afterwards. *)
Lemma refine_ok nrb ax a values junk : wf_nurbs nrb -> py_axis (n_dim nrb) ax = Ok a ->
  let A := get_axis nrb a in let n := (a_size A - 1)%Z in let p := a_deg A in let U := a_knots A in
  values <> [] ->
  ((exists nrb', refine (N:=Rn) junk nrb ax values = Ok nrb') <->
   (forall x, In x values -> U p <= x <= U (n + 1)%Z) /\
   (forall v, In v values \/ (exists j, (1 <= j <= n + p)%Z /\ U j = v) -> (multiplicity U 1 (n + p) v + countL v values <= p)%Z)).
Proof.
  intros W Ea A n p U Hne.
  pose proof (py_axis_dim _ _ _ Ea) as Ha. pose proof (wf_get_axis _ _ W Ha) as WA. fold A in WA.
  assert (Wk : wf_knots n p U) by apply WA. assert (Wp : (1 <= p)%Z) by apply WA.
  pose proof (wf_n _ _ _ Wk) as Hn. unfold refine. destruct values as [|v0 vs] eqn:EVal; [congruence|]. rewrite <- EVal in *. clear v0 vs EVal.
  rewrite Ea. cbn [bind]. fold A. fold n p U. unfold refine_arg.
  pose proof (Permutation.Permutation_sym (sort_perm values)) as Pm. pose proof (sort_sorted values) as So.
  set (u := sort (N:=Rn) values) in *.
  assert (Hu : u <> []).
  { intros E. rewrite E in Pm. apply Permutation.Permutation_sym, Permutation.Permutation_nil in Pm. congruence. }
  assert (Hhd : In (hd 0 u) values /\ forall x, In x values -> hd 0 u <= x).
  { split.
    - apply (Permutation.Permutation_in _ (Permutation.Permutation_sym Pm)). destruct u; [congruence|left; reflexivity].
    - intros x Hx. apply (Permutation.Permutation_in _ Pm) in Hx. destruct u as [|y u']; [congruence|]. simpl in *.
      destruct Hx as [->|Hx]; [right; reflexivity|]. apply So; auto. }
  assert (Hla : In (last u 0) values /\ forall x, In x values -> x <= last u 0).
  { assert (G : forall l : list R, l <> [] -> sorted l -> In (last l 0) l /\ forall x, In x l -> x <= last l 0).
    { induction l as [|y l IH]; intros Hl Hs; [congruence|]. destruct l as [|z l].
      - simpl. split; auto. intros x [->|[]]. lra.
      - destruct Hs as [Hs1 Hs2]. destruct (IH ltac:(discriminate) Hs2) as [I1 I2]. change (last (y :: z :: l) 0) with (last (z :: l) 0).
        split; [right; exact I1|]. intros x [->|Hx]; [apply Hs1; exact I1|auto]. }
    destruct (G u Hu So) as [G1 G2]. split.
    - apply (Permutation.Permutation_in _ (Permutation.Permutation_sym Pm)). exact G1.
    - intros x Hx. apply G2. apply (Permutation.Permutation_in _ Pm). exact Hx. }
  unfold assert, check. change (n0 Rn) with 0. change (a_lo A) with (U p). rewrite a_hi_eq. fold n U.
  assert (Cn : forall v, count_eq (N:=Rn) v (u ++ map U (zseq (Z.to_nat (a_len A - 2)) 1)) = (multiplicity U 1 (n + p) v + countL v values)%Z).
  { intros v. rewrite count_eq_L, countL_app, countL_map, <- (countL_perm v _ _ Pm). unfold multiplicity. rewrite a_len_eq. fold n p.
    replace (n + p + 1 - 1)%Z with (n + p + 2 - 2)%Z by lia. lia. }
  assert (In_tmp : forall v, In v (u ++ map U (zseq (Z.to_nat (a_len A - 2)) 1)) <-> In v values \/ exists j, (1 <= j <= n + p)%Z /\ U j = v).
  { intros v. rewrite in_app_iff, in_map_iff. split; intros [H|H].
    - left. apply (Permutation.Permutation_in _ (Permutation.Permutation_sym Pm)). exact H.
    - right. destruct H as [j [Ej Hj]]. apply zseq_In in Hj. rewrite a_len_eq in Hj. fold n p in Hj. exists j. split; auto. lia.
    - left. apply (Permutation.Permutation_in _ Pm). exact H.
    - right. destruct H as [j [Hj Ej]]. exists j. split; auto. apply zseq_In. rewrite a_len_eq. fold n p. lia. }
  split.
  - intros [nrb' E]. change (nleb Rn) with Rleb in E.
    match type of E with context[if ?b then _ else _] => change b with (Rleb (U p) (hd 0 u)) in E end. destruct (Rleb (U p) (hd 0 u)) eqn:E1; [|discriminate]. apply Rleb_true in E1. cbn [bind] in E.
    match type of E with context[if ?b then _ else _] => change b with (Rleb (last u 0) (U (n + 1)%Z)) in E end. destruct (Rleb (last u 0) (U (n + 1)%Z)) eqn:E2; [|discriminate]. apply Rleb_true in E2. cbn [bind] in E.
    destruct (forallb _ _) eqn:EF in E; [|discriminate]. split.
    + intros x Hx. destruct Hhd as [_ Hhd]. destruct Hla as [_ Hla]. specialize (Hhd x Hx). specialize (Hla x Hx). lra.
    + intros v Hv. apply In_tmp in Hv. rewrite forallb_forall in EF. specialize (EF v Hv). apply Z.leb_le in EF. rewrite Cn in EF. exact EF.
  - intros [H1 H2]. 
    assert (E1 : Rleb (U p) (hd 0 u) = true) by (apply Rleb_true, H1, Hhd). match goal with |- context[if ?b then _ else _] => change b with (Rleb (U p) (hd 0 u)) end. rewrite E1. cbn [bind].
    assert (E2 : Rleb (last u 0) (U (n + 1)%Z) = true) by (apply Rleb_true, H1, Hla). match goal with |- context[if ?b then _ else _] => change b with (Rleb (last u 0) (U (n + 1)%Z)) end. rewrite E2. cbn [bind].
    match goal with |- context[if ?b then Ok tt else _] => assert (EF : b = true) end.
    { apply forallb_forall. intros v Hv. apply Z.leb_le. rewrite Cn. apply H2, In_tmp, Hv. }
    rewrite EF. cbn [bind]. destruct (Z.leb_spec 1 n); [|lia]. destruct (Z.leb_spec 1 p); [|lia]. cbn [bind]. eauto.
Qed.
