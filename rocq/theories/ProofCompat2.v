(** Merging the knots of several axes (cad.py MergeKnots). *)
From Coq Require Import ZArith Reals List Lia Lra Bool Permutation Sorting.Sorted.
From Verif Require Import Num Loop ModelBspline ModelBSp ModelNurbs ModelIga ModelCad Spec SpecElev SpecCompat SumZ BPiece BLink ProofSpan BInsert BRep
  ProofInsert ProofCut SpecNurbs ProofNet ProofCall ProofNurbs ProofMethods ProofMethods2 ProofMethods3 ProofGeom ProofGeom2 ProofOk ProofSlice ProofIga ProofIga2
  ProofCompat1.
Import ListNotations.
Local Open Scope R_scope.

(** ** Lists *)
Lemma mapM_ok {A B} (f : A -> res B) (Q : A -> B -> Prop) l : (forall x, In x l -> exists y, f x = Ok y /\ Q x y) ->
  exists ys, mapM f l = Ok ys /\ Forall2 Q l ys.
Proof.
  induction l as [|x l IH]; intros H; [exists []; split; [reflexivity|constructor]|].
  destruct (H x (or_introl eq_refl)) as (y & E & q). destruct IH as (ys & E' & F); [intros; apply H; right; auto|].
  exists (y :: ys). split; [|constructor; auto]. cbn [mapM]. rewrite E. cbn [bind]. rewrite E'. reflexivity.
Qed.
Definition getok {A} (d : A) (r : res A) : A := match r with Ok x => x | _ => d end.
Lemma mapM_getok {A B} (d : B) (f : A -> res B) l : (forall x, In x l -> exists y, f x = Ok y) -> mapM f l = Ok (map (fun x => getok d (f x)) l).
Proof.
  induction l as [|x l IH]; intros H; auto. cbn [mapM map]. destruct (H x (or_introl eq_refl)) as [y E]. rewrite E. cbn [bind getok].
  rewrite IH by (intros; apply H; right; auto). reflexivity.
Qed.

Lemma inner_length {A} (l : list A) : length (inner l) = (length l - 2)%nat.
Proof.
  unfold inner. assert (R : forall l : list A, length (removelast l) = (length l - 1)%nat).
  { clear. induction l as [|x [|y l] IH]; auto. change (S (length (removelast (y :: l))) = (S (S (length l)) - 1)%nat). rewrite IH. cbn [length]. lia. }
  rewrite R. destruct l; cbn [tl length]; lia.
Qed.
Lemma inner_nth {A} (d : A) l j : (j < length l - 2)%nat -> nth j (inner l) d = nth (S j) l d.
Proof.
  unfold inner. destruct l as [|x l]; cbn [length tl]; [lia|]. intros H. cbn [nth].
  assert (R : forall (l : list A) j, (j < length l - 1)%nat -> nth j (removelast l) d = nth j l d).
  { clear. induction l as [|x [|y l] IH]; intros j H; cbn [length] in *; try lia. change (removelast (x :: y :: l)) with (x :: removelast (y :: l)).
    destruct j; [reflexivity|]. change (nth j (removelast (y :: l)) d = nth j (y :: l) d). apply IH. lia. }
  apply R. lia.
Qed.

Lemma ss_lt (l : list R) d : StronglySorted Rlt l -> forall i j, (i < j < length l)%nat -> nth i l d < nth j l d.
Proof.
  intros S. induction S as [|x l S IH F]; intros i j H; cbn [length] in *; [lia|]. destruct j; [lia|]. destruct i; cbn [nth].
  - rewrite Forall_forall in F. apply F, nth_In. lia.
  - apply IH. lia.
Qed.
Lemma ss_nodup (l : list R) : StronglySorted Rlt l -> NoDup l.
Proof. intros S. induction S as [|x l S IH F]; constructor; auto. intros I. rewrite Forall_forall in F. specialize (F x I). lra. Qed.
Lemma ss_of (l : list R) d : (forall i j, (i < j < length l)%nat -> nth i l d < nth j l d) -> StronglySorted Rlt l.
Proof.
  induction l as [|x l IH]; intros H; constructor.
  - apply IH. intros i j K. apply (H (S i) (S j)). cbn [length]. lia.
  - apply Forall_forall. intros y Hy. destruct (In_nth _ _ d Hy) as (j & Hj & <-). apply (H 0%nat (S j)). cbn [length]. lia.
Qed.
(** [l[1:-1]] of a strictly increasing list. *)
Lemma inner_sorted (l : list R) : StronglySorted Rlt l -> (2 <= length l)%nat ->
  StronglySorted Rlt (inner l) /\ forall x, In x (inner l) <-> In x l /\ hd 0 l < x < last l 0.
Proof.
  intros S L. pose proof (ss_lt l 0 S) as SL.
  assert (E0 : hd 0 l = nth 0 l 0) by (destruct l; auto).
  assert (E1 : last l 0 = nth (length l - 1) l 0).
  { clear. induction l as [|x [|y l] IH]; auto. change (last (y :: l) 0 = nth (Datatypes.S (Datatypes.S (length l)) - 1) (x :: y :: l) 0). rewrite IH.
    cbn [length]. replace (Datatypes.S (Datatypes.S (length l)) - 1)%nat with (Datatypes.S (length l)) by lia.
    replace (Datatypes.S (length l) - 1)%nat with (length l) by lia. reflexivity. }
  split.
  - apply (ss_of _ 0). intros i j H. rewrite inner_length in H. rewrite !inner_nth by lia. apply SL. lia.
  - intros x. rewrite E0, E1. split.
    + intros I. destruct (In_nth _ _ 0 I) as (j & Hj & <-). rewrite inner_length in Hj. rewrite inner_nth by lia.
      split; [apply nth_In; lia|]. split; apply SL; lia.
    + intros [I [H1 H2]]. destruct (In_nth _ _ 0 I) as (j & Hj & Ej). subst x.
      destruct j as [|j]; [lra|]. destruct (Nat.eq_dec (Datatypes.S j) (length l - 1)) as [E|E]; [rewrite E in H2; lra|].
      rewrite <- inner_nth by lia. apply nth_In. rewrite inner_length. lia.
Qed.

Lemma existsb_in (x : R) l : existsb (neqb Rn x) l = true <-> In x l.
Proof.
  rewrite existsb_exists. split.
  - intros (y & I & E). apply Reqb_true in E. subst. auto.
  - intros I. exists x. split; auto. apply Reqb_true. reflexivity.
Qed.

Lemma mask_max_spec (f m : R -> Z) ui : forall u vi, StronglySorted Rlt u -> StronglySorted Rlt vi ->
  (forall x, In x u -> In x ui <-> In x vi) -> (forall x, In x vi -> In x u) -> (forall x, In x u -> ~ In x ui -> m x = 0%Z) -> (forall x, (0 <= f x)%Z) ->
  mask_max (N:=Rn) u (map f u) ui (map m vi) = map (fun x => Z.max (f x) (m x)) u.
Proof.
  induction u as [|x u IH]; intros vi Su Sv H1 H2 H3 Hf; auto.
  cbn [map mask_max]. inversion Su as [|? ? Su' Fu]; subst. rewrite Forall_forall in Fu.
  destruct (existsb (neqb Rn x) ui) eqn:E.
  - apply existsb_in in E. apply (H1 x (or_introl eq_refl)) in E.
    destruct vi as [|y vi]; [destruct E|]. inversion Sv as [|? ? Sv' Fv]; subst. rewrite Forall_forall in Fv.
    assert (y = x) as ->.
    { destruct (H2 y (or_introl eq_refl)) as [->|I]; auto. destruct E as [->|E]; auto. specialize (Fu _ I). specialize (Fv _ E). lra. }
    cbn [map hd tl]. f_equal. apply IH; auto.
    + intros z Hz. rewrite H1 by (right; auto). split; [|right; auto]. intros [->|K]; auto. specialize (Fu z Hz). lra.
    + intros z Hz. destruct (H2 z (or_intror Hz)) as [->|K]; auto. specialize (Fv z Hz). lra.
    + intros z Hz. apply H3. right. auto.
  - assert (NI : ~ In x ui) by (intros I; apply existsb_in in I; congruence).
    rewrite (H3 x (or_introl eq_refl) NI). f_equal; [specialize (Hf x); lia|]. apply IH; auto.
    + intros z Hz. apply H1. right. auto.
    + intros z Hz. destruct (H2 z Hz) as [->|K]; auto. exfalso. apply NI. apply H1; [left; auto|auto].
    + intros z Hz. apply H3. right. auto.
Qed.

Lemma mask_insert_spec (f m : R -> Z) ui : forall u vi, StronglySorted Rlt u -> StronglySorted Rlt vi ->
  (forall x, In x u -> In x ui <-> In x vi) -> (forall x, In x vi -> In x u) -> (forall x, In x u -> ~ In x ui -> m x = 0%Z) ->
  mask_insert (N:=Rn) u (map f u) ui (map m vi) = flat_map (fun x => repeat x (Z.to_nat (f x - m x))) u.
Proof.
  induction u as [|x u IH]; intros vi Su Sv H1 H2 H3; auto.
  cbn [map mask_insert flat_map]. inversion Su as [|? ? Su' Fu]; subst. rewrite Forall_forall in Fu.
  destruct (existsb (neqb Rn x) ui) eqn:E.
  - apply existsb_in in E. apply (H1 x (or_introl eq_refl)) in E.
    destruct vi as [|y vi]; [destruct E|]. inversion Sv as [|? ? Sv' Fv]; subst. rewrite Forall_forall in Fv.
    assert (y = x) as ->.
    { destruct (H2 y (or_introl eq_refl)) as [->|I]; auto. destruct E as [->|E]; auto. specialize (Fu _ I). specialize (Fv _ E). lra. }
    cbn [map hd tl]. f_equal. apply IH; auto.
    + intros z Hz. rewrite H1 by (right; auto). split; [|right; auto]. intros [->|K]; auto. specialize (Fu z Hz). lra.
    + intros z Hz. destruct (H2 z (or_intror Hz)) as [->|K]; auto. specialize (Fv z Hz). lra.
    + intros z Hz. apply H3. right. auto.
  - assert (NI : ~ In x ui) by (intros I; apply existsb_in in I; congruence).
    rewrite (H3 x (or_introl eq_refl) NI). f_equal; [f_equal; f_equal; lia|]. apply IH; auto.
    + intros z Hz. apply H1. right. auto.
    + intros z Hz. destruct (H2 z Hz) as [->|K]; auto. exfalso. apply NI. apply H1; [left; auto|auto].
    + intros z Hz. apply H3. right. auto.
Qed.
Lemma countL_flat (c : R -> nat) v u : NoDup u -> countL v (flat_map (fun x => repeat x (c x)) u) = if in_dec Req_EM_T v u then Z.of_nat (c v) else 0%Z.
Proof.
  intros N. induction N as [|x u NI N IH]; auto. cbn [flat_map]. rewrite countL_app, countL_repeat, IH.
  destruct (in_dec Req_EM_T v (x :: u)) as [I|I], (in_dec Req_EM_T v u) as [J|J], (Req_EM_T x v) as [E|E]; subst; try lia; try tauto;
  exfalso; simpl in I; tauto.
Qed.

(** ** The values to insert *)
Section Merge.
Variables (nrbs : list (nurbs Rn)) (a : nat) (lo hi : R) (p : Z).
Let A (nrb : nurbs Rn) := get_axis nrb a.
Hypothesis HW : forall nrb, In nrb nrbs -> wf_nurbs nrb /\ (a < length (n_axes nrb))%nat /\ good_ax (A nrb) /\
  a_deg (A nrb) = p /\ a_lo (A nrb) = lo /\ a_hi (A nrb) = hi /\ apart (A nrb) (A nrb).

(** The largest multiplicity of a value among the objects. *)
Definition max_mult (x : R) : Z := fold_left Z.max (map (fun nrb => mulA (A nrb) x) nrbs) 0%Z.

Lemma breaks_one nrb : In nrb nrbs -> exists us, break_mults (N:=Rn) nrb (Z.of_nat a) = Ok us /\
  let ui := inner (fst us) in inner (snd us) = map (mulA (A nrb)) ui /\ StronglySorted Rlt ui /\
  forall x, In x ui <-> lo < x < hi /\ (0 < mulA (A nrb) x)%Z.
Proof.
  intros I. destruct (HW nrb I) as (W & Ha & GA & D & L & H & AP). pose proof GA as (WA & CA & _).
  assert (Ea : py_axis (n_dim nrb) (Z.of_nat a) = Ok a).
  { rewrite py_axis_nat by (unfold n_dim; lia). rewrite Nat2Z.id. reflexivity. }
  pose proof WA as [Hp Wk]. pose proof (wf_n _ _ _ Wk) as Hn. cbn in Hp, Hn.
  assert (SEP : forall k, (0 <= k <= a_size (A nrb) - 1 + a_deg (A nrb) + 1)%Z -> separated (a_knots (A nrb)) 0 (a_len (A nrb) - 1) (a_knots (A nrb) k)).
  { intros k Hk j Hj. rewrite a_len_eq in Hj. pose proof (mulA_at _ j WA ltac:(lia)). pose proof (mulA_at _ k WA Hk).
    destruct (AP (a_knots (A nrb) j) (a_knots (A nrb) k)) as [E|E]; [lia|lia|left; auto|right; lra]. }
  destruct (break_mults_ok nrb (Z.of_nat a) a W Ea WA) as (s & E & Ls & Hs).
  { rewrite a_lo_eq. apply SEP. change (get_axis nrb a) with (A nrb). lia. }
  { rewrite a_hi_eq. apply SEP. change (get_axis nrb a) with (A nrb). lia. }
  change (get_axis nrb a) with (A nrb) in *.
  destruct (breaks_ok (A nrb) WA) as (SS & IN & L2 & HD & LA).
  set (ub := unique (N:=Rn) (inner_knots (A nrb))) in *.
  assert (Ls' : length s = @length R ub) by exact Ls. clear Ls. rename Ls' into Ls.
  assert (Hs' : forall j, (j < length s)%nat -> nth j s 0%Z = if Rltb (a_lo (A nrb)) (@nth R j ub 0) && Rltb (@nth R j ub 0) (a_hi (A nrb))
    then multiplicity (a_knots (A nrb)) 0 (a_len (A nrb) - 1) (@nth R j ub 0) else Z.min (multiplicity (a_knots (A nrb)) 0 (a_len (A nrb) - 1) (@nth R j ub 0)) (a_deg (A nrb))) by exact Hs.
  clear Hs. rename Hs' into Hs.
  exists (ub, s). split; auto. cbn [fst snd]. destruct (inner_sorted ub SS L2) as [SI II].
  assert (HH : @hd R 0 ub = lo) by (etransitivity; [exact HD|exact L]). assert (HL : @last R ub 0 = hi) by (etransitivity; [exact LA|exact H]).
  rewrite HH, HL in II. split; [|split; auto].
  - apply (nth_ext _ _ 0%Z (mulA (A nrb) 0)); [rewrite map_length, !inner_length; lia|].
    intros j Hj. rewrite inner_length in Hj. rewrite map_nth. rewrite inner_nth by auto. rewrite inner_nth by lia.
    rewrite Hs by lia. assert (@In R (@nth R (S j) ub 0) (@inner R ub)) as J.
    { rewrite <- inner_nth by lia. apply nth_In. rewrite inner_length. lia. }
    apply II in J. destruct J as [_ [J1 J2]].
    replace (Rltb (a_lo (A nrb)) (@nth R (S j) ub 0)) with true by (symmetry; apply Rltb_true; rewrite L; auto).
    replace (Rltb (@nth R (S j) ub 0) (a_hi (A nrb))) with true by (symmetry; apply Rltb_true; rewrite H; auto).
    cbn [andb]. unfold mulA. rewrite a_len_eq. f_equal. lia.
  - intros x. rewrite II. split.
    + intros [J K]. split; auto. apply IN in J. destruct J as (i & Hi & <-). pose proof (mulA_at _ i WA ltac:(lia)). lia.
    + intros [K J]. split; auto. apply IN. destruct (mulA_pos _ _ J) as (i & Hi & Ei). exists i. split; auto.
      pose proof (wf_mono _ _ _ Wk) as M. cbn in M. rewrite a_lo_eq in L. rewrite a_hi_eq in H.
      destruct (Z_lt_ge_dec i (a_deg (A nrb))) as [Q|Q]; [assert (a_knots (A nrb) i <= a_knots (A nrb) (a_deg (A nrb))) by (apply M; lia); lra|].
      destruct (Z_lt_ge_dec (a_size (A nrb)) i) as [Q'|Q']; [|lia].
      assert (a_knots (A nrb) (a_size (A nrb) - 1 + 1)%Z <= a_knots (A nrb) i) by (apply M; lia). lra.
Qed.

Lemma fold_max_nonneg l : forall m, (m <= fold_left Z.max l m)%Z.
Proof. induction l as [|x l IH]; intros m; simpl; [lia|]. specialize (IH (Z.max m x)). lia. Qed.
Lemma fold_max_ge l x : In x l -> forall m, (x <= fold_left Z.max l m)%Z.
Proof. induction l as [|y l IH]; simpl; [tauto|]. intros [->|I] m; [|auto]. pose proof (fold_max_nonneg l (Z.max m x)). lia. Qed.
Lemma fold_max_le l b : (forall x, In x l -> (x <= b)%Z) -> forall m, (m <= b)%Z -> (fold_left Z.max l m <= b)%Z.
Proof. induction l as [|y l IH]; simpl; auto. intros H m Hm. apply IH; auto. specialize (H y (or_introl eq_refl)). lia. Qed.

Lemma max_mult_ge nrb x : In nrb nrbs -> (mulA (A nrb) x <= max_mult x)%Z.
Proof. intros I. apply fold_max_ge. apply in_map_iff. eauto. Qed.
Lemma max_mult_le x b : (0 <= b)%Z -> (forall nrb, In nrb nrbs -> (mulA (A nrb) x <= b)%Z) -> (max_mult x <= b)%Z.
Proof. intros Hb H. apply fold_max_le; auto. intros y Hy. apply in_map_iff in Hy. destruct Hy as (nrb & <- & I). auto. Qed.

Lemma fold_masks u : StronglySorted Rlt u -> forall (l : list (nurbs Rn)) (bm : list (list R * list Z)) f,
  (forall x, (0 <= f x)%Z) -> (forall x, In x u -> lo < x < hi) ->
  Forall2 (fun nrb us => snd us = map (mulA (A nrb)) (fst us) /\ StronglySorted Rlt (fst us) /\
      (forall x, In x (fst us) <-> lo < x < hi /\ (0 < mulA (A nrb) x)%Z) /\ (forall x, In x (fst us) -> In x u)) l bm ->
  fold_left (fun s (us : list R * list Z) => mask_max (N:=Rn) u s (fst us) (snd us)) bm (map f u) =
  map (fun x => fold_left Z.max (map (fun nrb => mulA (A nrb) x) l) (f x)) u.
Proof.
  intros Su l bm f Hf Hu F. revert f Hf. induction F as [|nrb us l bm (E & S & I & K) F IH]; intros f Hf; auto.
  cbn [fold_left map]. rewrite E. rewrite (mask_max_spec f (mulA (A nrb)) (fst us) u (fst us)); auto; [|tauto|].
  - rewrite IH; auto. intros x. specialize (Hf x). lia.
  - intros x Hx NI. pose proof (mulA_nonneg (A nrb) x). specialize (Hu x Hx). specialize (I x). destruct (Z.eq_dec (mulA (A nrb) x) 0); auto.
    exfalso. apply NI, I. split; auto. lia.
Qed.

Lemma merge_ok : exists vals, merge_values (N:=Rn) nrbs (Z.of_nat a) = Ok vals /\
  Forall2 (fun nrb l => forall v, countL v l = if Rlt_dec lo v then if Rlt_dec v hi then (max_mult v - mulA (A nrb) v)%Z else 0%Z else 0%Z) nrbs vals.
Proof.
  unfold merge_values.
  destruct (mapM_ok (fun nrb => break_mults (N:=Rn) nrb (Z.of_nat a))
    (fun nrb us => let ui := inner (fst us) in inner (snd us) = map (mulA (A nrb)) ui /\ StronglySorted Rlt ui /\
       forall x, In x ui <-> lo < x < hi /\ (0 < mulA (A nrb) x)%Z) nrbs breaks_one) as (bm & E & F).
  rewrite E. cbn [bind]. cbv zeta. set (bm' := map _ bm).
  set (u := unique (N:=Rn) (concat (map fst bm'))). destruct (unique_ok (concat (map fst bm'))) as [Su Iu]. fold u in Su, Iu.
  assert (F0 : forall bm0, (forall us, In us bm0 -> In us bm) -> forall l, Forall2 (fun nrb us => let ui := inner (fst us) in inner (snd us) = map (mulA (A nrb)) ui /\ StronglySorted Rlt ui /\
       forall x, In x ui <-> lo < x < hi /\ (0 < mulA (A nrb) x)%Z) l bm0 ->
     Forall2 (fun nrb us => snd us = map (mulA (A nrb)) (fst us) /\ StronglySorted Rlt (fst us) /\
      (forall x, In x (fst us) <-> lo < x < hi /\ (0 < mulA (A nrb) x)%Z) /\ (forall x, In x (fst us) -> In x u)) l (map (fun us => (inner (fst us), inner (snd us))) bm0)).
  { intros bm0 H l G. revert H. induction G as [|nrb us l bm0 (G1 & G2 & G3) G IH]; intros H; constructor.
    - cbn [fst snd]. repeat split; auto; try apply G3; auto. intros x Hx. apply Iu. apply in_concat. exists (inner (fst us)). split; auto.
      apply in_map_iff. exists (inner (fst us), inner (snd us)). split; auto. unfold bm'. apply in_map_iff. exists us. split; auto. apply H. left. auto.
    - apply IH. intros z Hz. apply H. right. auto. }
  specialize (F0 bm (fun _ h => h) nrbs F). change (map (fun us => (inner (fst us), inner (snd us))) bm) with bm' in F0. clear F.
  assert (IU : forall x, In x u <-> lo < x < hi /\ exists nrb, In nrb nrbs /\ (0 < mulA (A nrb) x)%Z).
  { intros x. rewrite Iu. rewrite in_concat. clear - F0. split.
    - intros (ui & I1 & I2). apply in_map_iff in I1. destruct I1 as (us & <- & I1).
      assert (exists nrb, In nrb nrbs /\ (forall x, In x (fst us) <-> lo < x < hi /\ (0 < mulA (A nrb) x)%Z)) as (nrb & In' & K).
      { clear - F0 I1. induction F0 as [|nrb us' l bm2 (_ & _ & K & _) G IH]; [destruct I1|]. destruct I1 as [->|I1].
        - exists nrb. split; [left; auto|auto].
        - destruct (IH I1) as (n & ? & ?). exists n. split; [right; auto|auto]. }
      apply K in I2. destruct I2. split; auto. exists nrb. auto.
    - intros (H & nrb & I & K). 
      assert (exists us, In us bm' /\ (forall x, In x (fst us) <-> lo < x < hi /\ (0 < mulA (A nrb) x)%Z)) as (us & In' & K').
      { clear - F0 I. induction F0 as [|nrb' us' l bm2 (_ & _ & K & _) G IH]; [destruct I|]. destruct I as [->|I].
        - exists us'. split; [left; auto|auto].
        - destruct (IH I) as (n & ? & ?). exists n. split; [right; auto|auto]. }
      exists (fst us). split; [apply in_map; auto|]. apply K'. auto. }
  assert (FM : fold_left (fun s (us : list R * list Z) => mask_max (N:=Rn) u s (fst us) (snd us)) bm' (repeat 0%Z (@length R u)) = map max_mult u).
  { replace (repeat 0%Z (@length R u)) with (map (fun _ : R => 0%Z) u).
    2:{ clear. induction u; simpl; auto. f_equal. auto. }
    rewrite (fold_masks u Su nrbs bm' (fun _ => 0%Z)); auto; [intros; lia|intros x Hx; apply IU in Hx; tauto]. }
  cbv zeta. fold bm'. fold u.
  match goal with |- context [fold_left ?f ?b ?c] => replace (fold_left f b c) with (map max_mult u) by (symmetry; exact FM) end.
  eexists. split; [reflexivity|].
  assert (GE : forall nrb x, In nrb nrbs -> (mulA (A nrb) x <= max_mult x)%Z) by (intros; apply max_mult_ge; auto).
  assert (Z0 : forall nrb x, In nrb nrbs -> lo < x < hi -> ~ In x u -> mulA (A nrb) x = 0%Z).
  { intros nrb x I H NI. pose proof (mulA_nonneg (A nrb) x). destruct (Z.eq_dec (mulA (A nrb) x) 0); auto. exfalso. apply NI, IU. split; auto. exists nrb. split; auto. lia. }
  assert (MZ : forall x, lo < x < hi -> ~ In x u -> max_mult x = 0%Z).
  { intros x H NI. apply Z.le_antisymm; [|apply fold_max_nonneg]. apply max_mult_le; [lia|]. intros nrb I. rewrite (Z0 nrb); auto. lia. }
  clear - F0 GE Z0 MZ Su IU.
  assert (Q : forall l bm, (forall nrb, In nrb l -> In nrb nrbs) -> Forall2 (fun nrb (us : list R * list Z) => snd us = map (mulA (A nrb)) (fst us) /\ StronglySorted Rlt (fst us) /\
      (forall x, In x (fst us) <-> lo < x < hi /\ (0 < mulA (A nrb) x)%Z) /\ (forall x, In x (fst us) -> In x u)) l bm ->
    Forall2 (fun nrb l => forall v, countL v l = if Rlt_dec lo v then if Rlt_dec v hi then (max_mult v - mulA (A nrb) v)%Z else 0%Z else 0%Z) l
      (map (fun us : list R * list Z => mask_insert (N:=Rn) u (map max_mult u) (fst us) (snd us)) bm)).
  { intros l bm3 HI G. induction G as [|nrb us l bm4 (E0 & S & I & K) G IH]; constructor; [|apply IH; intros; apply HI; right; auto].
    assert (Hn : In nrb nrbs) by (apply HI; left; auto).
    intros v. rewrite E0. rewrite (mask_insert_spec max_mult (mulA (A nrb)) (fst us) u (fst us)); auto; [|tauto|].
    - rewrite countL_flat by (apply ss_nodup; auto). destruct (in_dec Req_EM_T v u) as [J|J].
      + specialize (GE nrb v Hn). apply IU in J. destruct (Rlt_dec lo v); [|lra]. destruct (Rlt_dec v hi); [|lra]. rewrite Z2Nat.id; lia.
      + destruct (Rlt_dec lo v); auto. destruct (Rlt_dec v hi); auto. rewrite MZ, (Z0 nrb); auto.
    - intros x Hx NI. pose proof (mulA_nonneg (A nrb) x). apply IU in Hx. destruct (Z.eq_dec (mulA (A nrb) x) 0); auto.
      exfalso. apply NI, I. split; [tauto|lia]. }
  apply Q; auto.
Qed.
End Merge.
