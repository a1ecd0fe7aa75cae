(** compat: the three stages along all the selected axes. *)
From Coq Require Import ZArith Reals List Lia Lra Bool Permutation Sorting.Sorted.
From Verif Require Import Num Loop ModelBspline ModelBSp ModelNurbs ModelIga ModelCad Spec SpecElev SpecCompat SumZ BPiece BLink ProofSpan BInsert BRep
  ProofInsert ProofCut SpecNurbs ProofNet ProofCall ProofNurbs ProofMethods ProofMethods2 ProofMethods3 ProofGeom ProofGeom2 ProofOk ProofSlice ProofIga ProofIga2
  ProofElev4 ProofCompat1 ProofCompat2.
Import ListNotations.
Local Open Scope R_scope.

(** ** One operation along several different axes *)
Lemma get_lset nrb nrb' a (A' : axis Rn) b : n_axes nrb' = lset a A' (n_axes nrb) -> (a < length (n_axes nrb))%nat ->
  get_axis nrb' b = if Nat.eqb b a then A' else get_axis nrb b.
Proof.
  intros E Ha. unfold get_axis. rewrite E. destruct (Nat.eqb_spec b a) as [->|H]; [apply nth_lset; auto|apply nth_lset_other; auto].
Qed.

Section Fold.
Context {P : Type} (f : nurbs Rn -> Z * P -> res (nurbs Rn)) (h : nat -> P).
Context (Pre : nat -> axis Rn -> Prop) (Post : nat -> axis Rn -> axis Rn -> Prop) (g : nat -> axis Rn -> R -> R).
Hypothesis STEP : forall nrb a, wf_nurbs nrb -> (a < length (n_axes nrb))%nat -> Pre a (get_axis nrb a) ->
  exists nrb' A', f nrb (Z.of_nat a, h a) = Ok nrb' /\ n_axes nrb' = lset a A' (n_axes nrb) /\
    moves nrb nrb' (fun b x => if Nat.eqb b a then g a (get_axis nrb a) x else x) /\ Post a (get_axis nrb a) A'.
Lemma fold_axes L : NoDup L -> forall nrb, wf_nurbs nrb -> (forall a, In a L -> (a < length (n_axes nrb))%nat /\ Pre a (get_axis nrb a)) ->
  exists nrb' G, foldM f (map (fun a => (Z.of_nat a, h a)) L) nrb = Ok nrb' /\ moves nrb nrb' G /\
    (forall a, In a L -> Post a (get_axis nrb a) (get_axis nrb' a) /\ forall x, G a x = g a (get_axis nrb a) x) /\
    (forall b, ~ In b L -> get_axis nrb' b = get_axis nrb b /\ forall x, G b x = x).
Proof.
  intros N. induction N as [|a L NI N IH]; intros nrb W H.
  { exists nrb, (fun _ x => x). split; [reflexivity|]. split; [apply moves_id; auto|]. split; [intros a []|]. auto. }
  destruct (H a (or_introl eq_refl)) as [Ha Pa].
  destruct (STEP nrb a W Ha Pa) as (nrb1 & A' & E & EX & M & Q).
  pose proof (get_lset nrb nrb1 a A') as GL.
  destruct (IH nrb1 (mv_wf _ _ _ M)) as (nrb' & G & E' & M' & Q1 & Q2).
  { intros b Hb. destruct (H b (or_intror Hb)) as [Hb1 Hb2]. rewrite (mv_dim _ _ _ M). split; auto.
    rewrite GL by auto. destruct (Nat.eqb_spec b a); [subst; contradiction|auto]. }
  exists nrb', (fun b x => G b (if Nat.eqb b a then g a (get_axis nrb a) x else x)).
  split; [cbn [map foldM]; rewrite E; exact E'|]. split; [exact (moves_trans _ _ _ _ _ M M')|]. split.
  - intros b [<-|Hb].
    + destruct (Q2 a NI) as [K1 K2]. rewrite K1, GL, Nat.eqb_refl by auto. split; auto. 
    + destruct (Q1 b Hb) as [K1 K2]. rewrite GL in K1, K2 by auto.
      destruct (Nat.eqb_spec b a); [subst; contradiction|]. split; auto.
  - intros b Hb. assert (b <> a /\ ~ In b L) as [Hb1 Hb2] by (simpl in Hb; intuition).
    destruct (Q2 b Hb2) as [K1 K2]. rewrite K1, GL by auto. apply Nat.eqb_neq in Hb1. rewrite Hb1. split; auto.
Qed.
End Fold.

(** ** Lists *)
Lemma combine_map {B} (h : Z -> B) L : combine (map Z.of_nat L) (map h (map Z.of_nat L)) = map (fun a => (Z.of_nat a, h (Z.of_nat a))) L.
Proof. induction L; simpl; auto. f_equal. auto. Qed.
Lemma Forall2_In_l {A B} (Q : A -> B -> Prop) l l' y : Forall2 Q l l' -> In y l' -> exists x, In x l /\ Q x y.
Proof. intros F. induction F; intros []; subst; [exists x; split; [left|]; auto|]. destruct (IHF H0) as (z & ? & ?). exists z. split; [right|]; auto. Qed.
Lemma Forall2_In_r {A B} (Q : A -> B -> Prop) l l' x : Forall2 Q l l' -> In x l -> exists y, In y l' /\ Q x y.
Proof. intros F. induction F; intros []; subst; [exists y; split; [left|]; auto|]. destruct (IHF H0) as (z & ? & ?). exists z. split; [right|]; auto. Qed.
Lemma Forall2_comp {A B C} (Q : A -> B -> Prop) (Q' : B -> C -> Prop) l l' : Forall2 Q l l' -> forall l'', Forall2 Q' l' l'' ->
  Forall2 (fun x z => exists y, Q x y /\ Q' y z) l l''.
Proof. intros F. induction F; intros l'' F'; inversion F'; subst; constructor; eauto. Qed.
Lemma minl_spec (l : list R) m : In m l -> (forall x, In x l -> m <= x) -> minl (N:=Rn) l = m.
Proof.
  unfold minl. destruct l as [|y l]; intros I H; [destruct I|]. cbn [hd tl].
  assert (G : forall l (z : R), (forall x, In x l -> m <= x) -> m <= z -> z = m \/ In m l ->
    fold_left (fun m0 x : R => if nltb Rn x m0 then x else m0) l z = m).
  { clear. induction l as [|x l IH]; intros z H Hz C; cbn [fold_left].
    - destruct C as [->|[]]. reflexivity.
    - pose proof (H x (or_introl eq_refl)) as Hx. destruct (nltb Rn x z) eqn:E.
      + apply Rltb_true in E. apply IH; [intros; apply H; right; auto|auto|]. destruct C as [->|[->|C]]; auto. lra.
      + apply Rltb_false in E. apply IH; [intros; apply H; right; auto|auto|]. destruct C as [->|[->|C]]; auto. left. lra. }
  apply G; auto.
  - intros x Hx. apply H. right. auto.
  - apply H. left. auto.
Qed.
Lemma maxl_spec (l : list R) m : In m l -> (forall x, In x l -> x <= m) -> maxl (N:=Rn) l = m.
Proof.
  unfold maxl. destruct l as [|y l]; intros I H; [destruct I|]. cbn [hd tl].
  assert (G : forall l (z : R), (forall x, In x l -> x <= m) -> z <= m -> z = m \/ In m l ->
    fold_left (fun m0 x : R => if nltb Rn m0 x then x else m0) l z = m).
  { clear. induction l as [|x l IH]; intros z H Hz C; cbn [fold_left].
    - destruct C as [->|[]]. reflexivity.
    - pose proof (H x (or_introl eq_refl)) as Hx. destruct (nltb Rn z x) eqn:E.
      + apply Rltb_true in E. apply IH; [intros; apply H; right; auto|auto|]. destruct C as [->|[->|C]]; auto. lra.
      + apply Rltb_false in E. apply IH; [intros; apply H; right; auto|auto|]. destruct C as [->|[->|C]]; auto. left. lra. }
  apply G; auto.
  - intros x Hx. apply H. right. auto.
  - apply H. left. auto.
Qed.
Lemma zmaxl_spec (l : list Z) m : In m l -> (forall x, In x l -> (x <= m)%Z) -> zmaxl l = m.
Proof.
  unfold zmaxl. destruct l as [|y l]; intros I H; [destruct I|]. cbn [hd tl].
  apply Z.le_antisymm.
  - apply fold_max_le; [intros; apply H; right; auto|apply H; left; auto].
  - destruct I as [->|I]; [apply fold_max_nonneg|apply fold_max_ge; auto].
Qed.
Lemma max_mult_pos nrbs a x : (0 < max_mult nrbs a x)%Z -> exists nrb, In nrb nrbs /\ (0 < mulA (get_axis nrb a) x)%Z.
Proof.
  unfold max_mult. assert (G : forall l m, fold_left Z.max l m = m \/ In (fold_left Z.max l m) l).
  { induction l as [|y l IH]; intros m; simpl; auto. destruct (IH (Z.max m y)) as [->|I]; auto. lia. }
  intros H. destruct (G (map (fun nrb => mulA (get_axis nrb a) x) nrbs) 0%Z) as [E|I]; [lia|].
  apply in_map_iff in I. destruct I as (nrb & E & I). exists nrb. split; auto. lia.
Qed.

(** ** The stages *)
Section Stages.
Variables (junk : Z -> R) (junk2 : Z -> Z -> R) (L : list nat) (lo hi : nat -> R) (deg : nat -> Z).
Hypothesis HN : NoDup L.

(** Result of the first stage for one object. *)
Definition stage1 (nrb nrb1 : nurbs Rn) : Prop := exists G, moves nrb nrb1 G /\
  (forall a, In a L -> let A := get_axis nrb a in let B := get_axis nrb1 a in
     good_ax B /\ a_size B = a_size A /\ a_deg B = a_deg A /\ a_lo B = lo a /\ a_hi B = hi a /\
     (forall i, a_knots B i = rescale A (lo a) (hi a) (a_knots A i)) /\ forall x, G a x = rescale A (lo a) (hi a) x) /\
  (forall b, ~ In b L -> get_axis nrb1 b = get_axis nrb b /\ forall x, G b x = x).

Lemma SameBounds_ok (nrbs : list (nurbs Rn)) :
  (forall nrb, In nrb nrbs -> wf_nurbs nrb /\ forall a, In a L -> (a < length (n_axes nrb))%nat /\ good_ax (get_axis nrb a)) ->
  (forall a, In a L -> lo a < hi a /\ In (lo a) (map (fun nrb : nurbs Rn => a_lo (get_axis nrb a)) nrbs) /\ In (hi a) (map (fun nrb : nurbs Rn => a_hi (get_axis nrb a)) nrbs) /\
     forall nrb, In nrb nrbs -> lo a <= a_lo (get_axis nrb a) /\ a_hi (get_axis nrb a) <= hi a) ->
  exists outs, SameBounds (N:=Rn) nrbs (map Z.of_nat L) = Ok outs /\ Forall2 stage1 nrbs outs.
Proof.
  intros HW HB. unfold SameBounds. apply mapM_ok. intros nrb I. destruct (HW nrb I) as [W HA].
  rewrite combine_map.
  destruct (fold_axes (fun (nrb : nurbs Rn) (t : Z * (R * R)) => let '(ax, (a, b)) := t in remap (N:=Rn) nrb ax (Some a) (Some b))
     (fun a => (lo a, hi a)) (fun a A => good_ax A /\ lo a < hi a)
     (fun a A B => good_ax B /\ a_size B = a_size A /\ a_deg B = a_deg A /\ a_lo B = lo a /\ a_hi B = hi a /\
        (forall i, a_knots B i = rescale A (lo a) (hi a) (a_knots A i))) (fun a A => rescale A (lo a) (hi a))) with (L := L) (nrb := nrb)
    as (nrb' & G & E & M & Q1 & Q2); auto.
  - clear - HN. intros nrb a W Ha [GA Hlh].
    assert (Ea : py_axis (n_dim nrb) (Z.of_nat a) = Ok a) by (rewrite py_axis_nat by (unfold n_dim; lia); rewrite Nat2Z.id; reflexivity).
    destruct (remap_step nrb (Z.of_nat a) a (lo a) (hi a) W Ea Hlh GA) as (nrb' & A' & E & EX & M & K1 & K2 & K3 & K4 & K5 & _ & K6).
    exists nrb', A'. split; [exact E|]. split; [exact EX|]. split; [exact M|]. repeat (split; auto).
  - intros a Ia. destruct (HA a Ia) as [Ha GA]. destruct (HB a Ia) as [Hl _]. auto.
  - exists nrb'. split.
    + rewrite <- E. f_equal. apply map_ext_in. intros a Ia. destruct (HB a Ia) as (_ & I1 & I2 & I3). unfold axz. rewrite Nat2Z.id.
      f_equal. f_equal.
      * apply minl_spec; auto. intros x Hx. apply in_map_iff in Hx. destruct Hx as (z & <- & Hz). apply I3; auto.
      * apply maxl_spec; auto. intros x Hx. apply in_map_iff in Hx. destruct Hx as (z & <- & Hz). apply I3; auto.
    + exists G. split; auto. split; auto. intros a Ia. destruct (Q1 a Ia) as [K1 K2]. cbv zeta. tauto.
Qed.

(** Result of the second stage for one object. *)
Definition stage2 (nrb nrb1 : nurbs Rn) : Prop := exists G, moves nrb nrb1 G /\ (forall b x, G b x = x) /\
  (forall a, In a L -> let A := get_axis nrb a in let B := get_axis nrb1 a in
     good_ax B /\ a_deg B = deg a /\ a_lo B = a_lo A /\ a_hi B = a_hi A /\ (forall x, (0 < mulA B x)%Z <-> (0 < mulA A x)%Z)) /\
  (forall b, ~ In b L -> get_axis nrb1 b = get_axis nrb b).

Lemma SameDegree_ok (nrbs : list (nurbs Rn)) :
  (forall nrb, In nrb nrbs -> wf_nurbs nrb /\ forall a, In a L -> let A := get_axis nrb a in (a < length (n_axes nrb))%nat /\ good_ax A /\ apart A A /\
     (a_deg A <= deg a)%Z /\ (a_deg A = deg a \/ elev_guard (a_size A - 1) (a_deg A) (deg a - a_deg A) (a_knots A))) ->
  (forall a, In a L -> In (deg a) (map (fun nrb : nurbs Rn => a_deg (get_axis nrb a)) nrbs)) ->
  exists outs, SameDegree (N:=Rn) junk junk2 nrbs (map Z.of_nat L) = Ok outs /\ Forall2 stage2 nrbs outs.
Proof.
  intros HW HB. unfold SameDegree. apply mapM_ok. intros nrb0 I. destruct (HW nrb0 I) as [W HA].
  rewrite combine_map.
  destruct (fold_axes (fun (nrb : nurbs Rn) (t : Z * Z) => let '(ax, d) := t in elevate (N:=Rn) junk junk2 nrb ax (d - a_deg (axz nrb0 ax)))
     deg (fun a A => good_ax A /\ apart A A /\ a_deg A = a_deg (get_axis nrb0 a) /\ (a_deg A <= deg a)%Z /\
            (a_deg A = deg a \/ elev_guard (a_size A - 1) (a_deg A) (deg a - a_deg A) (a_knots A)))
     (fun a A B => good_ax B /\ a_deg B = deg a /\ a_lo B = a_lo A /\ a_hi B = a_hi A /\ (forall x, (0 < mulA B x)%Z <-> (0 < mulA A x)%Z))
     (fun a A x => x)) with (L := L) (nrb := nrb0)
    as (nrb' & G & E & M & Q1 & Q2); auto.
  - clear - HN. intros nrb a W Ha (GA & AP & ED & Hd & Hg).
    assert (Ea : py_axis (n_dim nrb) (Z.of_nat a) = Ok a) by (rewrite py_axis_nat by (unfold n_dim; lia); rewrite Nat2Z.id; reflexivity).
    destruct (elevate_step nrb (Z.of_nat a) a (deg a - a_deg (get_axis nrb a)) junk junk2 W Ea ltac:(lia) GA AP) as (nrb' & A' & E & EX & M & K1 & K2 & K3 & K4 & K5).
    { destruct Hg as [Hg|Hg]; [left; lia|right; auto]. }
    exists nrb', A'. unfold axz. rewrite Nat2Z.id, <- ED. split; [exact E|]. split; [exact EX|]. split.
    { apply (moves_ext _ _ _ _ M). intros b x. destruct (Nat.eqb b a); auto. }
    split; auto. split; [lia|]. split; auto. split; auto. intros x. rewrite K5. pose proof (mulA_nonneg (get_axis nrb a) x).
    destruct (Z.eqb_spec (mulA (get_axis nrb a) x) 0); lia.
  - intros a Ia. destruct (HA a Ia) as (Ha & GA & AP & Hd & Hg). repeat (split; auto).
  - exists nrb'. split.
    + rewrite <- E. f_equal. apply map_ext_in. intros a Ia. f_equal. unfold axz. rewrite Nat2Z.id.
      apply zmaxl_spec; auto. intros x Hx. apply in_map_iff in Hx. destruct Hx as (z & <- & Hz). apply (HW z Hz); auto.
    + exists G. split; auto. split.
      * intros b x. destruct (in_dec Nat.eq_dec b L) as [J|J]; [apply Q1; auto|apply Q2; auto].
      * split; [intros a Ia; apply Q1; auto|intros b Hb; apply Q2; auto].
Qed.

(** Result of the third stage for one object. *)
Definition stage3 (M : nat -> R -> Z) (nrb nrb1 : nurbs Rn) : Prop := exists G, moves nrb nrb1 G /\ (forall b x, G b x = x) /\
  (forall a, In a L -> let A := get_axis nrb a in let B := get_axis nrb1 a in
     good_ax B /\ a_deg B = a_deg A /\ a_lo B = a_lo A /\ a_hi B = a_hi A /\ (forall x, a_lo A < x < a_hi A -> mulA B x = M a x)) /\
  (forall b, ~ In b L -> get_axis nrb1 b = get_axis nrb b).

Lemma combine_seq_nth {A} (l : list A) i x d : forall s, In (i, x) (combine (seq s (length l)) l) -> (s <= i)%nat /\ (i - s < length l)%nat /\ nth (i - s) l d = x.
Proof.
  induction l as [|y l IH]; intros s H; [destruct H|]. cbn [length seq combine] in H. destruct H as [H|H].
  - injection H as -> ->. cbn [length]. rewrite Nat.sub_diag. split; [lia|]. split; [lia|reflexivity].
  - apply IH in H. destruct H as (H1 & H2 & H3). cbn [length]. split; [lia|]. split; [lia|].
    replace (i - s)%nat with (S (i - S s)) by lia. exact H3.
Qed.
Lemma combine_snd_Forall2 {A B} (Q : A -> B -> Prop) (l : list A) ys : forall s, Forall2 (fun t y => Q (snd t) y) (combine (seq s (length l)) l) ys -> Forall2 Q l ys.
Proof.
  revert ys. induction l as [|y l IH]; intros ys s H; cbn [length seq combine] in H; inversion H; subst; constructor; eauto.
Qed.

Lemma MergeKnots_ok (nrbs : list (nurbs Rn)) :
  (forall nrb, In nrb nrbs -> wf_nurbs nrb /\ forall a, In a L -> let A := get_axis nrb a in (a < length (n_axes nrb))%nat /\ good_ax A /\
     a_deg A = deg a /\ a_lo A = lo a /\ a_hi A = hi a /\ forall nrb', In nrb' nrbs -> apart A (get_axis nrb' a)) ->
  exists outs, MergeKnots (N:=Rn) junk nrbs (map Z.of_nat L) = Ok outs /\ Forall2 (stage3 (max_mult nrbs)) nrbs outs.
Proof.
  intros HW. unfold MergeKnots.
  assert (MV : forall a, In a L -> exists vals, merge_values (N:=Rn) nrbs (Z.of_nat a) = Ok vals /\
    Forall2 (fun nrb l => forall v, countL v l = if Rlt_dec (lo a) v then if Rlt_dec v (hi a) then (max_mult nrbs a v - mulA (get_axis nrb a) v)%Z else 0%Z else 0%Z) nrbs vals).
  { intros a Ia. apply (merge_ok nrbs a (lo a) (hi a) (deg a)). intros nrb I. destruct (HW nrb I) as [W H]. destruct (H a Ia) as (H1 & H2 & H3 & H4 & H5 & H6).
    split; auto. split; auto. split; auto. }
  rewrite (mapM_getok [] (merge_values (N:=Rn) nrbs)).
  2:{ intros x Hx. apply in_map_iff in Hx. destruct Hx as (a & <- & Ia). destruct (MV a Ia) as (vals & E & _). eauto. }
  cbn [bind].
  assert (MQ : exists outs, mapM (fun t : nat * nurbs Rn => foldM (fun (nrb : nurbs Rn) ax_v => refine (N:=Rn) junk nrb (fst ax_v) (snd ax_v))
      (combine (map Z.of_nat L) (map (fun l => nth (fst t) l []) (map (fun x => getok [] (merge_values (N:=Rn) nrbs x)) (map Z.of_nat L)))) (snd t))
      (combine (seq 0 (length nrbs)) nrbs) = Ok outs /\ Forall2 (fun t => stage3 (max_mult nrbs) (snd t)) (combine (seq 0 (length nrbs)) nrbs) outs).
  2:{ destruct MQ as (outs & E & F). exists outs. split; [exact E|]. apply combine_snd_Forall2 in F. exact F. }
  apply mapM_ok. intros [i nrb] Iin. cbn [fst snd].
  assert (I : In nrb nrbs) by (apply in_combine_r in Iin; auto).
  apply (combine_seq_nth nrbs i nrb nrb 0) in Iin. destruct Iin as (_ & Hi & Ei). rewrite Nat.sub_0_r in Hi, Ei.
  rewrite map_map, combine_map. set (vals := fun a => nth i (getok [] (merge_values (N:=Rn) nrbs (Z.of_nat a))) []).
  assert (CV : forall a, In a L -> forall v, countL v (vals a) = if Rlt_dec (lo a) v then if Rlt_dec v (hi a) then (max_mult nrbs a v - mulA (get_axis nrb a) v)%Z else 0%Z else 0%Z).
  { intros a Ia. destruct (MV a Ia) as (vs & E & F). unfold vals. rewrite E. cbn [getok]. rewrite <- Ei.
    exact (Forall2_nth _ _ _ i nrb [] F Hi). }
  destruct (HW nrb I) as [W HA].
  destruct (fold_axes (fun (nrb : nurbs Rn) ax_v => refine (N:=Rn) junk nrb (fst ax_v) (snd ax_v)) vals
     (fun a A => In a L /\ A = get_axis nrb a)
     (fun a A B => good_ax B /\ a_deg B = a_deg A /\ a_lo B = a_lo A /\ a_hi B = a_hi A /\ (forall x, a_lo A < x < a_hi A -> mulA B x = max_mult nrbs a x))
     (fun a A x => x)) with (L := L) (nrb := nrb)
    as (nrb' & G & E & M & Q1 & Q2); auto.
  - intros nrb1 a W1 Ha1 [Ia EA]. cbn [fst snd]. specialize (CV a Ia). destruct (HA a Ia) as (Ha & GA & ED & EL & EH & AP).
    cbv zeta in GA, ED, EL, EH, AP. rewrite <- EA in CV, GA, ED, EL, EH, AP.
    assert (Ea : py_axis (n_dim nrb1) (Z.of_nat a) = Ok a) by (rewrite py_axis_nat by (unfold n_dim; lia); rewrite Nat2Z.id; reflexivity).
    assert (INV : forall v, In v (vals a) -> lo a < v < hi a /\ exists nrb2, In nrb2 nrbs /\ (0 < mulA (get_axis nrb2 a) v)%Z).
    { intros v Hv. apply countL_In in Hv. rewrite CV in Hv. destruct (Rlt_dec (lo a) v); [|lia]. destruct (Rlt_dec v (hi a)); [|lia]. split; auto.
      apply max_mult_pos. pose proof (mulA_nonneg (get_axis nrb1 a) v). lia. }
    destruct (refine_step nrb1 (Z.of_nat a) a (vals a) junk W1 Ea GA) as (nrb' & A' & E & EX & M & K1 & K2 & K3 & K4 & K5).
    + intros x Hx. destruct (INV x Hx) as (_ & nrb2 & I2 & P2). split.
      * intros j Hj. pose proof (mulA_at _ j (proj1 GA) Hj) as P1. destruct (AP nrb2 I2 (a_knots (get_axis nrb1 a) j) x ltac:(lia) P2); [left; auto|right; lra].
      * intros y Hy. destruct (INV y Hy) as (_ & nrb3 & I3 & P3). destruct (HW nrb3 I3) as [_ H3]. destruct (H3 a Ia) as (_ & _ & _ & _ & _ & AP3).
        destruct (AP3 nrb2 I2 y x P3 P2); [left; auto|right; lra].
    + intros v Hv. rewrite EL, EH. destruct (INV v Hv) as (Hv1 & _). split; auto. rewrite CV.
      destruct (Rlt_dec (lo a) v); [|lra]. destruct (Rlt_dec v (hi a)); [|lra].
      assert ((max_mult nrbs a v <= deg a)%Z); [|lia]. apply max_mult_le.
      * destruct GA as [[Hp _] _]. cbn in Hp. lia.
      * intros nrb2 I2. destruct (HW nrb2 I2) as [_ H2]. destruct (H2 a Ia) as (_ & G2 & E2 & L2 & Hh2 & _). cbv zeta in G2, E2, L2, Hh2.
        destruct (good_profile _ G2) as (_ & _ & _ & _ & P1). rewrite L2, Hh2, E2 in P1. apply P1. auto.
    + exists nrb', A'. split; [exact E|]. split; [exact EX|]. split.
      { apply (moves_ext _ _ _ _ M). intros b x. destruct (Nat.eqb b a); auto. }
      split; auto. split; auto. split; auto. split; auto. rewrite EL, EH. intros x Hx. rewrite K5, CV.
      destruct (Rlt_dec (lo a) x); [|lra]. destruct (Rlt_dec x (hi a)); [|lra]. lia.
  - intros a Ia. destruct (HA a Ia) as (Ha & _). auto.
  - exists nrb'. split; [exact E|]. exists G. split; auto. split.
    + intros b x. destruct (in_dec Nat.eq_dec b L) as [J|J]; [apply Q1; auto|apply Q2; auto].
    + split; [intros a Ia; apply Q1; auto|intros b Hb; apply Q2; auto].
Qed.
End Stages.

(** ** The whole of compat *)
Lemma axes_are_ok d axes L : axes_are d axes L ->
  match axes with
  | None => Ok (zseq (Z.to_nat (Z.of_nat d)) 0)
  | Some l => mapM (fun ax => let* a := py_axis (Z.of_nat d) ax in Ok (Z.of_nat a)) l
  end = Ok (map Z.of_nat L).
Proof.
  destruct axes as [l|]; cbn [axes_are].
  - intros F. induction F as [|ax a l L E F IH]; [reflexivity|]. cbn [mapM map]. rewrite E. cbn [bind]. rewrite IH. reflexivity.
  - intros ->. f_equal. rewrite Nat2Z.id. change 0%Z with (Z.of_nat 0). generalize 0%nat. induction d; intros s; simpl; auto. f_equal.
    replace (Z.of_nat s + 1)%Z with (Z.of_nat (S s)) by lia. apply IHd.
Qed.

Lemma elev_guard_map n p t (U V : Z -> R) : (forall i j, V i < V j <-> U i < U j) -> elev_guard n p t U -> elev_guard n p t V.
Proof.
  intros H G k k' k'' N1 N2. 
  assert (S : forall k, sp n p V k -> sp n p U k) by (intros j [S1 S2]; split; auto; apply H; auto).
  assert (N : forall k k', nx n p V k k' -> nx n p U k k').
  { intros i j (A & B & C & D). split; auto. split; auto. split; auto. intros q Hq. specialize (D q Hq).
    destruct (Rtotal_order (U q) (U j)) as [K|[K|K]]; auto; apply H in K; lra. }
  apply G; auto.
Qed.

Theorem compat_spec junk junk2 (nrbs : list (nurbs Rn)) axes d L (lo hi : nat -> R) (deg : nat -> Z) :
  (2 <= length nrbs)%nat -> axes_are d axes L -> (forall nrb, In nrb nrbs -> wf_nurbs nrb) -> joinable nrbs d L lo hi deg ->
  exists outs, compat (N:=Rn) junk junk2 nrbs axes = Ok outs /\
    Forall2 (fun nrb out => exists G, moves nrb out G /\
       (forall a, In a L -> let B := get_axis out a in good_ax B /\ a_deg B = deg a /\ a_lo B = lo a /\ a_hi B = hi a /\
          forall x, G a x = rescale (get_axis nrb a) (lo a) (hi a) x) /\
       (forall b, ~ In b L -> get_axis out b = get_axis nrb b /\ forall x, G b x = x)) nrbs outs /\
    forall a out out', In a L -> In out outs -> In out' outs -> a_size (get_axis out a) = a_size (get_axis out' a) /\
       (forall j, (0 <= j < a_len (get_axis out a))%Z -> a_knots (get_axis out a) j = a_knots (get_axis out' a) j) /\
       apart (get_axis out a) (get_axis out' a).
Proof.
  intros H2 HA HWF [J1 J2 HN J3 J4 HB J5 HS].
  assert (HW : forall nrb, In nrb nrbs -> wf_nurbs nrb /\ length (n_axes nrb) = d /\ forall a, In a L -> let A := get_axis nrb a in
     (a < d)%nat /\ clamped (a_size A - 1) (a_deg A) (a_knots A) /\ mult_le (a_size A - 1) (a_deg A) (a_knots A) /\
     lo a <= a_lo A /\ a_hi A <= hi a /\ (a_deg A <= deg a)%Z /\
     (a_deg A = deg a \/ (a_deg A <= 9)%Z \/ elev_guard (a_size A - 1) (a_deg A) (deg a - a_deg A) (a_knots A))).
  { intros nrb I. split; auto. split; auto. intros a Ia. destruct (J3 nrb a I Ia) as [K1 K2]. destruct (J4 nrb a I Ia) as (K3 & K4 & K5). pose proof (J5 nrb a I Ia) as K6.
    cbv zeta in *. repeat (split; auto). }
  clear J1 J2 J3 J4 J5.
  assert (HG : forall nrb, In nrb nrbs -> forall a, In a L -> good_ax (get_axis nrb a)).
  { intros nrb I a Ia. destruct (HW nrb I) as (W & D & K). destruct (K a Ia) as (K1 & K2 & K3 & _). split; [|split; auto]. apply wf_get_axis; auto. lia. }
  assert (HLT : forall a, In a L -> lo a < hi a).
  { intros a Ia. destruct nrbs as [|nrb nrbs']; [simpl in H2; lia|]. destruct (HW nrb (or_introl eq_refl)) as (_ & _ & K).
    destruct (K a Ia) as (_ & _ & _ & K1 & K2 & _). pose proof (wf_lohi _ (proj1 (HG nrb (or_introl eq_refl) a Ia))). lra. }
  destruct L as [|a0 L'] eqn:EL.
  { exists nrbs. split; [|split].
    - unfold compat. replace (Nat.ltb (length nrbs) 2) with false by (symmetry; apply Nat.ltb_ge; auto).
      assert (ED : n_dim (hd (mkNurbs (N:=Rn) [] 0 (fun _ _ => 0)) nrbs) = Z.of_nat d).
      { destruct nrbs as [|nrb nrbs']; [simpl in H2; lia|]. destruct (HW nrb (or_introl eq_refl)) as (_ & D & _). unfold n_dim. cbn [hd]. congruence. }
      cbv zeta. change (mkNurbs (N:=Rn) [] 0 (fun _ _ => n0 Rn)) with (mkNurbs (N:=Rn) [] 0 (fun _ _ => 0)). rewrite ED.
      replace (forallb (fun nrb : nurbs Rn => (n_dim nrb =? Z.of_nat d)%Z) nrbs) with true.
      2:{ symmetry. apply forallb_forall. intros nrb I. destruct (HW nrb I) as (_ & D & _). apply Z.eqb_eq. unfold n_dim. lia. }
      cbn [assert bind]. pose proof (axes_are_ok d axes [] HA) as EA. rewrite EA. reflexivity.
    - clear - HW. induction nrbs as [|nrb l IH]; constructor.
      + exists (fun _ x => x). split; [apply moves_id; apply HW; left; auto|]. split; [intros a []|auto].
      + apply IH. intros n I. apply HW. right. auto.
    - intros a out out' []. }
  rewrite <- EL in *.
  assert (HW1 : forall nrb, In nrb nrbs -> wf_nurbs nrb /\ forall a, In a L -> (a < length (n_axes nrb))%nat /\ good_ax (get_axis nrb a)).
  { intros nrb I. destruct (HW nrb I) as (W & D & K). split; auto. intros a Ia. split; [rewrite D; apply K; auto|apply HG; auto]. }
  destruct (SameBounds_ok junk junk2 L lo hi deg HN nrbs HW1) as (outs1 & E1 & F1).
  { intros a Ia. destruct (HB a Ia) as ((n1 & I1 & J1) & (n2 & I2 & J2) & _). split; [auto|]. split; [apply in_map_iff; eauto|]. split; [apply in_map_iff; eauto|].
    intros nrb I. destruct (HW nrb I) as (W & D & K). destruct (K a Ia) as (_ & _ & _ & K1 & K2 & _). auto. }
  (* first stage: knots of different objects are apart *)
  assert (AP1 : forall a n1 n2, In a L -> In n1 outs1 -> In n2 outs1 -> apart (get_axis n1 a) (get_axis n2 a)).
  { intros a m1 m2 Ia J1 J2 x y P1 P2.
    destruct (Forall2_In_l _ _ _ _ F1 J1) as (i1 & I1 & (G1 & _ & Q1 & _)). destruct (Forall2_In_l _ _ _ _ F1 J2) as (i2 & I2 & (G2 & _ & Q2 & _)).
    destruct (Q1 a Ia) as (_ & S1 & D1 & _ & _ & K1 & _). destruct (Q2 a Ia) as (_ & S2 & D2 & _ & _ & K2 & _).
    apply mulA_pos in P1. destruct P1 as (j1 & Hj1 & <-). apply mulA_pos in P2. destruct P2 as (j2 & Hj2 & <-).
    rewrite S1, D1 in Hj1. rewrite S2, D2 in Hj2. rewrite K1, K2. apply HS; auto; rewrite a_len_eq; lia. }
  assert (ED1 : forall a, In a L -> In (deg a) (map (fun nrb : nurbs Rn => a_deg (get_axis nrb a)) outs1)).
  { intros a Ia. destruct (HB a Ia) as (_ & _ & (n3 & I3 & J3)). destruct (Forall2_In_r _ _ _ _ F1 I3) as (m & Im & (G1 & _ & Q1 & _)).
    destruct (Q1 a Ia) as (_ & _ & D1 & _). apply in_map_iff. exists m. split; auto. rewrite D1. auto. }
  destruct (SameDegree_ok junk junk2 L deg HN outs1) as (outs2 & E2 & F2); auto.
  { intros m Im. destruct (Forall2_In_l _ _ _ _ F1 Im) as (i1 & I1 & (G1 & M1 & Q1 & _)). destruct (HW i1 I1) as (W & D & K).
    split; [apply M1|]. intros a Ia. destruct (Q1 a Ia) as (GB & S1 & D1 & L1 & T1 & K1 & _). destruct (K a Ia) as (Ka & _ & _ & _ & _ & Kd & Kg).
    cbv zeta. split; [rewrite (mv_dim _ _ _ M1), D; auto|]. split; auto. split; [apply AP1; auto|]. rewrite D1, S1. split; auto.
    destruct (Z.eq_dec (a_deg (get_axis i1 a)) (deg a)); [left; auto|right].
    apply (elev_guard_map _ _ _ (a_knots (get_axis i1 a))).
    - intros i j. rewrite !K1. apply rescale_lt; auto. apply wf_lohi. apply (HG i1 I1 a Ia).
    - destruct Kg as [Kg|[Kg|Kg]]; auto; [contradiction|]. apply elev_guard_low; lia. }
  assert (S2 : forall n2, In n2 outs2 -> wf_nurbs n2 /\ forall a, In a L -> let A := get_axis n2 a in (a < length (n_axes n2))%nat /\ good_ax A /\
     a_deg A = deg a /\ a_lo A = lo a /\ a_hi A = hi a /\ forall n3, In n3 outs2 -> apart A (get_axis n3 a)).
  { intros n2 I2. destruct (Forall2_In_l _ _ _ _ F2 I2) as (m & Im & (G2 & M2 & _ & Q2 & _)).
    destruct (Forall2_In_l _ _ _ _ F1 Im) as (i1 & I1 & (G1 & M1 & Q1 & _)). destruct (HW i1 I1) as (W & D & K).
    split; [apply M2|]. intros a Ia. destruct (Q1 a Ia) as (GB & _ & D1 & L1 & T1 & K1 & _). destruct (Q2 a Ia) as (GC & D2 & L2 & T2 & K2). destruct (K a Ia) as (Ka & _).
    cbv zeta. split; [rewrite (mv_dim _ _ _ M2), (mv_dim _ _ _ M1), D; auto|]. split; auto. split; auto. split; [congruence|]. split; [congruence|].
    intros n3 I3 x y P1 P2. destruct (Forall2_In_l _ _ _ _ F2 I3) as (m3 & Im3 & (G3 & _ & _ & Q3 & _)). destruct (Q3 a Ia) as (_ & _ & _ & _ & K3).
    apply K2 in P1. apply K3 in P2. exact (AP1 a m m3 Ia Im Im3 x y P1 P2). }
  destruct (MergeKnots_ok junk L lo hi deg HN outs2 S2) as (outs & E3 & F3).
  exists outs. split; [|split].
  - unfold compat. replace (Nat.ltb (length nrbs) 2) with false by (symmetry; apply Nat.ltb_ge; auto).
    assert (ED : n_dim (hd (mkNurbs (N:=Rn) [] 0 (fun _ _ => 0)) nrbs) = Z.of_nat d).
    { destruct nrbs as [|nrb nrbs']; [simpl in H2; lia|]. destruct (HW nrb (or_introl eq_refl)) as (_ & D & _). unfold n_dim. cbn [hd]. congruence. }
    cbv zeta. change (mkNurbs (N:=Rn) [] 0 (fun _ _ => n0 Rn)) with (mkNurbs (N:=Rn) [] 0 (fun _ _ => 0)). rewrite ED.
    replace (forallb (fun nrb : nurbs Rn => (n_dim nrb =? Z.of_nat d)%Z) nrbs) with true.
    2:{ symmetry. apply forallb_forall. intros nrb I. destruct (HW nrb I) as (_ & D & _). apply Z.eqb_eq. unfold n_dim. lia. }
    cbn [assert bind]. pose proof (axes_are_ok d axes L HA) as EA. rewrite EA. cbn [bind].
    rewrite EL at 1. cbn [map]. rewrite E1. cbn [bind]. rewrite E2. cbn [bind]. exact E3.
  - pose proof (Forall2_comp _ _ _ _ F1 _ (Forall2_comp _ _ _ _ F2 _ F3)) as F. clear - F.
    induction F as [|nrb out l l' (n1 & (G1 & M1 & Q1 & R1) & (n2 & (G2 & M2 & I2 & Q2 & R2) & (G3 & M3 & I3 & Q3 & R3))) F IH]; constructor; auto.
    exists (fun b x => G3 b (G2 b (G1 b x))). split; [|split].
    + exact (moves_trans _ _ _ _ _ (moves_trans _ _ _ _ _ M1 M2) M3).
    + intros a Ia. destruct (Q1 a Ia) as (_ & _ & _ & L1 & T1 & _ & K1). destruct (Q2 a Ia) as (_ & D2 & L2 & T2 & _). destruct (Q3 a Ia) as (GC & D3 & L3 & T3 & _).
      cbv zeta. split; auto. split; [congruence|]. split; [congruence|]. split; [congruence|]. intros x. rewrite I3, I2. apply K1.
    + intros b Hb. rewrite R3, R2 by auto. destruct (R1 b Hb) as [K1 K2]. split; auto. intros x. rewrite I3, I2. apply K2.
  - intros a out out' Ia J J'.
    destruct (Forall2_In_l _ _ _ _ F3 J) as (n2 & In2 & (G3 & _ & _ & Q3 & _)). destruct (Forall2_In_l _ _ _ _ F3 J') as (n2' & In2' & (G3' & _ & _ & Q3' & _)).
    destruct (Q3 a Ia) as (GB & D3 & L3 & T3 & K3). destruct (Q3' a Ia) as (GB' & D3' & L3' & T3' & K3'). cbv zeta in *.
    destruct (S2 n2 In2) as [_ SS]. destruct (SS a Ia) as (_ & _ & U1 & U2 & U3 & _). destruct (S2 n2' In2') as [_ SS']. destruct (SS' a Ia) as (_ & _ & U1' & U2' & U3' & _).
    cbv zeta in *. set (B := get_axis out a) in *. set (B' := get_axis out' a) in *.
    assert (DD : a_deg B = a_deg B') by congruence.
    destruct (good_profile B GB) as (_ & X1 & X2 & X3 & _). destruct (good_profile B' GB') as (_ & Y1 & Y2 & Y3 & _).
    assert (EX : forall x, mulA B x = mulA B' x).
    { intros x. rewrite L3, U2 in X1, X3. rewrite T3, U3 in X2, X3. rewrite L3', U2' in Y1, Y3. rewrite T3', U3' in Y2, Y3. rewrite U2, U3 in K3. rewrite U2', U3' in K3'.
      destruct (Rlt_dec x (lo a)); [rewrite X3, Y3; auto|]. destruct (Rlt_dec (hi a) x); [rewrite X3, Y3; auto|].
      destruct (Req_EM_T x (lo a)) as [->|]; [lia|]. destruct (Req_EM_T x (hi a)) as [->|]; [lia|].
      rewrite K3, K3'; auto; lra. }
    pose proof GB as [[Hp Wk] _]. pose proof GB' as [[Hp' Wk'] _]. pose proof (wf_n _ _ _ Wk). pose proof (wf_n _ _ _ Wk'). cbn in Hp, Hp', H, H0.
    destruct (mult_unique (a_knots B) (a_knots B') (a_size B - 1 + a_deg B + 1) (a_size B' - 1 + a_deg B' + 1) ltac:(lia) ltac:(lia)
      (wf_mono _ _ _ Wk) (wf_mono _ _ _ Wk') EX) as [ES EK].
    split; [lia|]. split; [intros j Hj; apply EK; rewrite a_len_eq in Hj; lia|].
    assert (SUP : forall out n2 (Q : stage3 L (max_mult outs2) n2 out), In n2 outs2 -> forall x, (0 < mulA (get_axis out a) x)%Z -> exists n3, In n3 outs2 /\ (0 < mulA (get_axis n3 a) x)%Z).
    { clear - S2 Ia. intros out n2 (G & _ & _ & Q & _) I2 x Hx. destruct (Q a Ia) as (GB & D3 & L3 & T3 & K3).
      destruct (S2 n2 I2) as [_ SS]. destruct (SS a Ia) as (_ & GA & _). cbv zeta in *.
      destruct (good_profile _ GB) as (_ & _ & _ & X3 & _). destruct (good_profile _ GA) as (_ & Y1 & Y2 & _).
      pose proof (proj1 GA) as [Hp _]. cbn in Hp.
      destruct (Rlt_dec x (a_lo (get_axis n2 a))); [rewrite X3 in Hx by (left; congruence || lra); lia|].
      destruct (Rlt_dec (a_hi (get_axis n2 a)) x); [rewrite X3 in Hx by (right; lra); lia|].
      destruct (Req_EM_T x (a_lo (get_axis n2 a))) as [->|]; [exists n2; split; auto; lia|].
      destruct (Req_EM_T x (a_hi (get_axis n2 a))) as [->|]; [exists n2; split; auto; lia|].
      rewrite K3 in Hx by lra. apply max_mult_pos. auto. }
    intros x y P1 P2. destruct (Forall2_In_l _ _ _ _ F3 J) as (m2 & Im2 & QQ). destruct (Forall2_In_l _ _ _ _ F3 J') as (m2' & Im2' & QQ').
    destruct (SUP out m2 QQ Im2 x P1) as (q1 & Iq1 & R1). destruct (SUP out' m2' QQ' Im2' y P2) as (q2 & Iq2 & R2).
    destruct (S2 q1 Iq1) as [_ SQ]. destruct (SQ a Ia) as (_ & _ & _ & _ & _ & AQ). exact (AQ q2 Iq2 x y R1 R2).
Qed.
