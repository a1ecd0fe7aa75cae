(** cad.refine: all axes. *)
From Coq Require Import ZArith Reals List Bool Lia Lra Sorting.Sorted FunctionalExtensionality.
From Verif Require Import Num Loop ModelBspline ModelBSp ModelNurbs ModelIga ModelCad Spec SumZ BLink SpecElev SpecCompat SpecJoin SpecCadRefine ProofSpan
  SpecNurbs ProofNet ProofCall ProofNurbs ProofInsert ProofMethods ProofMethods2 ProofClamp ProofGeom ProofOk ProofIga2 ProofCompat1 ProofRuled ProofCoons ProofJoin2 ProofCadRefine.
Import ListNotations.
Local Open Scope R_scope.
Local Arguments Z.add : simpl never.
Local Arguments Z.sub : simpl never.
Local Arguments Z.of_nat : simpl never.

Notation same := (fun (_ : nat) (x : R) => x).
Lemma moves_same nrb nrb' nrb'' : moves nrb nrb' same -> moves nrb' nrb'' same -> moves nrb nrb'' same.
Proof. intros H K. exact (moves_trans _ _ _ _ _ H K). Qed.
(** A loop over the axes, each round changing its own axis. *)
Lemma fold_axes {X : Type} (d : X) (f : nurbs Rn -> Z * X -> res (nurbs Rn)) (Pre : axis Rn -> X -> Prop) (Post : axis Rn -> X -> axis Rn -> Prop) :
  (forall nrb a x, wf_nurbs nrb -> (a < length (n_axes nrb))%nat -> Pre (get_axis nrb a) x -> exists nrb' B,
     f nrb (Z.of_nat a, x) = Ok nrb' /\ n_axes nrb' = lset a B (n_axes nrb) /\ moves nrb nrb' same /\ Post (get_axis nrb a) x B) ->
  forall xs k nrb, wf_nurbs nrb -> (k + length xs = length (n_axes nrb))%nat ->
  (forall i, (i < length xs)%nat -> Pre (get_axis nrb (k + i)) (nth i xs d)) ->
  exists nrb', foldM f (combine (zseq (length xs) (Z.of_nat k)) xs) nrb = Ok nrb' /\ moves nrb nrb' same /\
    (forall i, (i < length xs)%nat -> Post (get_axis nrb (k + i)) (nth i xs d) (get_axis nrb' (k + i))) /\
    (forall b, (b < k)%nat -> get_axis nrb' b = get_axis nrb b).
Proof.
  intros HF xs. induction xs as [|x xs IH]; intros k nrb W L HP.
  - exists nrb. cbn. split; auto. split; [apply moves_id; auto|]. split; [intros; lia|auto].
  - cbn [length] in L. destruct (HF nrb k x W ltac:(lia)) as (nrb1 & B & E1 & X1 & M1 & P1).
    { specialize (HP 0%nat ltac:(cbn; lia)). rewrite Nat.add_0_r in HP. exact HP. }
    assert (G1 : get_axis nrb1 k = B) by (unfold get_axis; rewrite X1; apply nth_lset; lia).
    assert (O1 : forall b, b <> k -> get_axis nrb1 b = get_axis nrb b) by (intros b Hb; unfold get_axis; rewrite X1; apply nth_lset_other; auto).
    destruct (IH (S k) nrb1 (mv_wf _ _ _ M1)) as (nrb2 & E2 & M2 & P2 & Q2).
    { rewrite X1, lset_length. lia. }
    { intros i Hi. rewrite O1 by lia. replace (S k + i)%nat with (k + S i)%nat by lia. apply (HP (S i)). cbn. lia. }
    exists nrb2. cbn [length zseq combine foldM]. rewrite E1. cbn [bind]. replace (Z.of_nat k + 1)%Z with (Z.of_nat (S k)) by lia. split; auto.
    split; [exact (moves_same _ _ _ M1 M2)|]. split.
    + intros [|i] Hi.
      * rewrite Nat.add_0_r. cbn [nth]. rewrite Q2 by lia. rewrite G1. auto.
      * replace (k + S i)%nat with (S k + i)%nat by lia. cbn [nth]. specialize (P2 i ltac:(cbn in Hi; lia)). rewrite O1 in P2 by lia. exact P2.
    + intros b Hb. rewrite Q2 by lia. apply O1. lia.
Qed.
Lemma fold_axes0 {X : Type} (d : X) (f : nurbs Rn -> Z * X -> res (nurbs Rn)) (Pre : axis Rn -> X -> Prop) (Post : axis Rn -> X -> axis Rn -> Prop) :
  (forall nrb a x, wf_nurbs nrb -> (a < length (n_axes nrb))%nat -> Pre (get_axis nrb a) x -> exists nrb' B,
     f nrb (Z.of_nat a, x) = Ok nrb' /\ n_axes nrb' = lset a B (n_axes nrb) /\ moves nrb nrb' same /\ Post (get_axis nrb a) x B) ->
  forall xs nrb n, wf_nurbs nrb -> n = length (n_axes nrb) -> length xs = n ->
  (forall i, (i < n)%nat -> Pre (get_axis nrb i) (nth i xs d)) ->
  exists nrb', foldM f (combine (zseq n 0) xs) nrb = Ok nrb' /\ moves nrb nrb' same /\
    forall i, (i < n)%nat -> Post (get_axis nrb i) (nth i xs d) (get_axis nrb' i).
Proof.
  intros H xs nrb n W En L HP. destruct (fold_axes d f Pre Post H xs 0%nat nrb W) as (nrb' & E & M & P & _).
  - lia.
  - intros i Hi. apply HP. lia.
  - exists nrb'. rewrite L in *. split; auto.
Qed.
Lemma foldM_fst {A B X : Type} (f : A -> B -> res A) (l : list B) : forall (xs : list X) a, length xs = length l ->
  foldM f l a = foldM (fun a t => f a (fst t)) (combine l xs) a.
Proof. induction l as [|b l IH]; intros [|x xs] a H; cbn in *; try lia; auto. destruct (f a b); cbn; auto. Qed.

(** Clamping both ends. *)
Definition clean (A : axis Rn) : Prop := wf_ax (spec_ax A) /\ knots_apart A /\ mult_le (a_size A - 1) (a_deg A) (a_knots A).
Definition clamped_from (A B : axis Rn) : Prop := good_ax B /\ knots_apart B /\ a_deg B = a_deg A /\ a_lo B = a_lo A /\ a_hi B = a_hi A /\
  (forall x, a_lo A < x < a_hi A -> mulA B x = mulA A x) /\ (clamped (a_size A - 1) (a_deg A) (a_knots A) -> B = A).
Lemma clamp_both nrb a junk : wf_nurbs nrb -> (a < length (n_axes nrb))%nat -> let A := get_axis nrb a in clean A ->
  exists nrb' B, clamp (N:=Rn) junk nrb (Z.of_nat a) None = Ok nrb' /\ n_axes nrb' = lset a B (n_axes nrb) /\ moves nrb nrb' same /\ clamped_from A B.
Proof.
  intros W Ha A (WA & AP & ML). assert (Ea : py_axis (n_dim nrb) (Z.of_nat a) = Ok a) by (rewrite py_axis_nat by (unfold n_dim; lia); rewrite Nat2Z.id; reflexivity).
  pose proof WA as [Hp Wk]. pose proof (wf_n _ _ _ Wk) as Hn. pose proof (wf_mono _ _ _ Wk) as M. cbn [spec_ax x_n x_p x_U] in Hp, Wk, Hn, M.
  destruct (proj2 (clamp_ok nrb (Z.of_nat a) a None junk W Ea) I) as [nrb' E].
  destruct (clamp_spec nrb (Z.of_nat a) a None junk nrb' W Ea (apart_ends _ WA AP) E) as [PR EX]. fold A in EX. cbn [side_left side_right] in EX.
  set (B := mkAxis (N:=Rn) (a_size A) (a_len A) (clampLR (a_size A - 1) (a_deg A) true true (a_knots A))) in *.
  destruct (clampLR_ends _ _ true true _ Wk) as [E1 E2].
  assert (DB : a_deg B = a_deg A) by reflexivity.
  assert (LB : a_lo B = a_lo A) by exact E1. assert (HB : a_hi B = a_hi A) by (rewrite !a_hi_eq; exact E2).
  assert (KB : forall j, a_knots B j = if (0 <=? j)%Z && (j <=? a_deg A - 1)%Z then a_knots A (a_deg A) else
     if (a_size A + 1 <=? j)%Z && (j <=? a_size A + a_deg A)%Z then a_knots A (a_size A - 1 + 1)%Z else a_knots A j).
  { intros j. unfold B. cbn [a_knots]. unfold clampLR, clampL, clampR.
    replace (a_size A - 1 + 2)%Z with (a_size A + 1)%Z by lia. replace (a_size A - 1 + a_deg A + 1)%Z with (a_size A + a_deg A)%Z by lia.
    replace ((0 <=? a_size A - 1 + 1) && (a_size A - 1 + 1 <=? a_deg A - 1))%Z with false by (symmetry; apply andb_false_iff; right; apply Z.leb_gt; lia).
    destruct (Z.leb_spec (a_size A + 1) j), (Z.leb_spec j (a_size A + a_deg A)), (Z.leb_spec 0 j), (Z.leb_spec j (a_deg A - 1)); cbn [andb]; auto; lia. }
  exists nrb', B. split; auto. split; auto. split; [apply moves_preserves; auto|].
  assert (WB : wf_ax (spec_ax B)).
  { assert (EG : get_axis nrb' a = B) by (unfold get_axis; rewrite EX; apply nth_lset; auto). rewrite <- EG. apply wf_get_axis; [apply PR|]. rewrite EX, lset_length. auto. }
  assert (MM : forall x, a_lo A < x < a_hi A -> mulA B x = mulA A x).
  { intros x Hx. unfold mulA. rewrite DB. change (a_size B) with (a_size A).
    assert (SP : forall U : Z -> R, (forall j, (0 <= j <= a_deg A - 1)%Z -> U j <= a_lo A) -> (forall j, (a_size A + 1 <= j <= a_size A + a_deg A)%Z -> a_hi A <= U j) ->
      multiplicity U 0 (a_size A - 1 + a_deg A + 1) x = multiplicity U (a_deg A) (a_size A) x).
    { intros U H1 H2. rewrite (multiplicity_split U 0 (a_deg A - 1)) by lia. replace (a_deg A - 1 + 1)%Z with (a_deg A) by lia.
      rewrite (multiplicity_split U (a_deg A) (a_size A)) by lia. rewrite multiplicity_none, (multiplicity_none U (a_size A + 1)); [lia| |].
      - intros j Hj. specialize (H2 j ltac:(lia)). lra.
      - intros j Hj. specialize (H1 j ltac:(lia)). lra. }
    rewrite !SP.
    - apply ProofInsert.multiplicity_ext. intros j Hj. rewrite KB. destruct (Z.leb_spec j (a_deg A - 1)); [lia|]. rewrite andb_false_r. destruct (Z.leb_spec (a_size A + 1) j); [lia|]. reflexivity.
    - intros j Hj. rewrite a_lo_eq. apply M; lia.
    - intros j Hj. rewrite a_hi_eq. apply M; lia.
    - intros j Hj. rewrite KB, a_lo_eq. destruct (Z.leb_spec 0 j), (Z.leb_spec j (a_deg A - 1)); cbn [andb]; try lia. apply Rle_refl.
    - intros j Hj. rewrite KB, a_hi_eq. destruct (Z.leb_spec j (a_deg A - 1)); [lia|]. rewrite andb_false_r.
      destruct (Z.leb_spec (a_size A + 1) j), (Z.leb_spec j (a_size A + a_deg A)); cbn [andb]; try lia. apply Rle_refl. }
  split; [|split; [|repeat split; auto]].
  - split; auto. rewrite DB. change (a_size B) with (a_size A). split; [split|].
    + intros j Hj. rewrite !KB. destruct (Z.leb_spec (a_deg A) (a_deg A - 1)); [lia|]. rewrite (andb_false_r (0 <=? a_deg A)%Z).
      destruct (Z.leb_spec (a_size A + 1) (a_deg A)); [lia|]. cbn [andb].
      destruct (Z.leb_spec 0 j), (Z.leb_spec j (a_deg A - 1)); cbn [andb]; try lia; auto. destruct (Z.leb_spec (a_size A + 1) j); [lia|]. cbn [andb]. f_equal. lia.
    + intros j Hj. rewrite !KB. destruct (Z.leb_spec j (a_deg A - 1)); [lia|]. rewrite andb_false_r. destruct (Z.leb_spec (a_size A - 1 + 1) (a_deg A - 1)); [lia|]. rewrite andb_false_r.
      destruct (Z.leb_spec (a_size A + 1) (a_size A - 1 + 1)); [lia|]. cbn [andb].
      destruct (Z.leb_spec (a_size A + 1) j), (Z.leb_spec j (a_size A + a_deg A)); cbn [andb]; try lia; auto. f_equal. lia.
    + intros i Hi. rewrite !KB. destruct (Z.leb_spec i (a_deg A - 1)); [lia|]. rewrite andb_false_r. destruct (Z.leb_spec (i + a_deg A) (a_deg A - 1)); [lia|]. rewrite andb_false_r.
      destruct (Z.leb_spec (a_size A + 1) i); [lia|]. cbn [andb]. destruct (Z.leb_spec (a_size A + 1) (i + a_deg A)); cbn [andb]; [|apply ML; lia].
      destruct (Z.leb_spec (i + a_deg A) (a_size A + a_deg A)); [|lia]. assert (a_knots A i <= a_knots A (a_size A - 1)%Z) by (apply M; lia).
      pose proof (wf_last _ _ _ Wk). change (T Rn) with R in *. lra.
  - assert (K : forall j, (0 <= j < a_len B)%Z -> exists i, (0 <= i < a_len A)%Z /\ a_knots A i = a_knots B j).
    { intros j Hj. change (a_len B) with (a_len A) in Hj. rewrite a_len_eq in *. rewrite KB. destruct (_ && _)%bool; [exists (a_deg A); split; auto; lia|].
      destruct (_ && _)%bool; [exists (a_size A - 1 + 1)%Z; split; auto; lia|]. exists j. auto. }
    intros j j' Hj Hj'. destruct (K j Hj) as (i & Hi & <-). destruct (K j' Hj') as (i' & Hi' & <-). apply AP; auto.
  - intros [C1 C2]. assert (EK : a_knots B = a_knots A).
    { apply functional_extensionality. intros j. rewrite KB. destruct (Z.leb_spec 0 j), (Z.leb_spec j (a_deg A - 1)); cbn [andb].
      - symmetry. apply C1. lia.
      - destruct (Z.leb_spec (a_size A + 1) j), (Z.leb_spec j (a_size A + a_deg A)); cbn [andb]; auto. symmetry. apply C2. lia.
      - destruct (Z.leb_spec (a_size A + 1) j), (Z.leb_spec j (a_size A + a_deg A)); cbn [andb]; auto. lia.
      - destruct (Z.leb_spec (a_size A + 1) j), (Z.leb_spec j (a_size A + a_deg A)); cbn [andb]; auto. lia. }
    unfold B in *. cbn [a_knots] in EK. rewrite EK. destruct A; reflexivity.
Qed.

(** Raising the degree where asked. *)
Definition raised_from (A : axis Rn) (p : Z) (B : axis Rn) : Prop := good_ax B /\ knots_apart B /\ a_deg B = Z.max p (a_deg A) /\ a_lo B = a_lo A /\ a_hi B = a_hi A /\
  forall x, mulA B x = if (mulA A x =? 0)%Z then 0%Z else (mulA A x + (Z.max p (a_deg A) - a_deg A))%Z.
Lemma raise_one nrb a p junk junk2 : wf_nurbs nrb -> (a < length (n_axes nrb))%nat -> let A := get_axis nrb a in
  good_ax A /\ knots_apart A /\ ((p <= a_deg A)%Z \/ (a_deg A <= 9)%Z \/ elev_guard (a_size A - 1) (a_deg A) (p - a_deg A) (a_knots A)) ->
  exists nrb' B, (let k := (p - a_deg (axz nrb (Z.of_nat a)))%Z in if (0 <? k)%Z then elevate (N:=Rn) junk junk2 nrb (Z.of_nat a) k else Ok nrb) = Ok nrb' /\
    n_axes nrb' = lset a B (n_axes nrb) /\ moves nrb nrb' same /\ raised_from A p B.
Proof.
  intros W Ha A (GA & AP & G). assert (Ea : py_axis (n_dim nrb) (Z.of_nat a) = Ok a) by (rewrite py_axis_nat by (unfold n_dim; lia); rewrite Nat2Z.id; reflexivity).
  unfold axz. rewrite Nat2Z.id. fold A. cbv zeta. destruct (Z.ltb_spec 0 (p - a_deg A)) as [H|H].
  - destruct (elevate_step nrb (Z.of_nat a) a (p - a_deg A) junk junk2 W Ea ltac:(lia) GA (apart_of _ AP)) as (nrb' & B & E & EX & M & GB & D & EL & EH & MU).
    { right. destruct G as [G|[G|G]]; auto; [fold A in G; lia|]. apply ProofElev4.elev_guard_low; fold A; lia. }
    fold A in E, D, EL, EH, MU. exists nrb', B. split; auto. split; auto. split; auto. pose proof GB as (WB & _). pose proof GA as (WA & _).
    split; auto. split; [|repeat split; auto; [lia|]].
    + assert (K : forall j, (0 <= j < a_len B)%Z -> exists i, (0 <= i < a_len A)%Z /\ a_knots A i = a_knots B j).
      { intros j Hj. pose proof (knot_mul B j WB Hj) as P. rewrite MU in P. apply mul_knot. pose proof (mulA_nonneg A (a_knots B j)). destruct (Z.eqb_spec (mulA A (a_knots B j)) 0); lia. }
      intros j j' Hj Hj'. destruct (K j Hj) as (i & Hi & <-). destruct (K j' Hj') as (i' & Hi' & <-). apply AP; auto.
    + intros x. rewrite MU. replace (Z.max p (a_deg A)) with p by lia. reflexivity.
  - exists nrb, A. split; auto. split; [unfold A, get_axis; symmetry; apply ProofNet.lset_nth|]. split; [apply moves_id; auto|].
    split; auto. split; auto. split; [lia|]. split; auto. split; auto. intros x. destruct (Z.eqb_spec (mulA A x) 0); lia.
Qed.

(** Arguments. *)
Lemma arg_list_ok {X : Type} (arg : option (list (option X))) (dflt : list X) (d : X) : per_axis arg (length dflt) ->
  exists l, arg_list arg dflt = Ok l /\ length l = length dflt /\ forall b, (b < length dflt)%nat -> nth b l d = match entry arg b with Some x => x | None => nth b dflt d end.
Proof.
  destruct arg as [l|]; cbn [per_axis arg_list entry]; [|exists dflt; auto]. intros H. rewrite H, Nat.eqb_refl. cbn [assert bind]. eexists. split; [reflexivity|]. clear - H. revert dflt H.
  induction l as [|o l IH]; intros [|x dflt] H; cbn in *; try lia; [split; auto; intros; lia|]. destruct (IH dflt ltac:(lia)) as [IH1 IH2]. split; [lia|].
  intros [|b] Hb; [destruct o; reflexivity|]. apply IH2. lia.
Qed.
Lemma combine_tag {A X Y : Type} (l : list A) : forall (xs : list X) (ys : list Y), length xs = length ys ->
  combine l xs = map (fun t => (fst t, fst (snd t))) (combine l (combine xs ys)).
Proof. induction l as [|a l IH]; intros [|x xs] [|y ys] H; cbn in *; try lia; auto. f_equal. apply IH. lia. Qed.
Lemma foldM_map {A B B' : Type} (f : A -> B -> res A) (g : B' -> B) l : forall a, foldM f (map g l) a = foldM (fun a b => f a (g b)) l a.
Proof. induction l; intros; cbn; auto. destruct (f a0 (g a)); cbn; auto. Qed.
Lemma nth_map_seq {X : Type} (f : Z -> X) n b d : (b < n)%nat -> nth b (map f (zseq n 0)) d = f (Z.of_nat b).
Proof.
  intros H. rewrite (nth_indep _ d (f 0%Z)) by (rewrite map_length, zseq_len; auto). rewrite map_nth. rewrite zseq_nth by auto. reflexivity.
Qed.
Lemma forallb_nth {X : Type} (f : X -> bool) l d : (forall b, (b < length l)%nat -> f (nth b l d) = true) -> forallb f l = true.
Proof. intros H. apply forallb_forall. intros x Hx. destruct (In_nth _ _ d Hx) as (b & Hb & <-). auto. Qed.

(** One round of the last loop. *)
Definition pieces_match (f : fact) (ns : list Z) : Prop := match f with FacAll n => Forall (fun k => k = n) ns | FacList l => ns = l end.
Lemma cut_round nrb a f C r junk : wf_nurbs nrb -> (a < length (n_axes nrb))%nat -> let A := get_axis nrb a in
  good_ax A -> knots_apart A -> (0 <= C < a_deg A)%Z -> axis_breaks A (r_breaks r) -> fine (r_breaks r) (r_pieces r) -> pieces_match f (r_pieces r) ->
  exists nrb' B, (let p := a_deg (axz nrb (Z.of_nat a)) in
    let* us := break_mults (N:=Rn) nrb (Z.of_nat a) in
    let '(u, s) := us in
    let* Ns := match f with
               | FacAll n => Ok (repeat n (length u - 1))
               | FacList l => assert (Nat.eqb (length l) (length u - 1)) ;;; Ok l
               end in
    refine (N:=Rn) junk nrb (Z.of_nat a) (concat (map (fun x => repeat (fst x) (Z.to_nat (snd x))) (tl (refine_values (N:=Rn) p C u s Ns))))) = Ok nrb' /\
    n_axes nrb' = lset a B (n_axes nrb) /\ moves nrb nrb' same /\ good_ax B /\ a_deg B = a_deg A /\ a_lo B = a_lo A /\ a_hi B = a_hi A /\
    forall x, a_lo A < x < a_hi A ->
      (cut r x -> mulA B x = (a_deg A - C)%Z) /\ (In x (r_breaks r) -> mulA B x = Z.max (a_deg A - C) (mulA A x)) /\
      (~ cut r x -> ~ In x (r_breaks r) -> mulA B x = 0%Z).
Proof.
  intros W Ha A GA AP HC HB HF HM. assert (Ea : py_axis (n_dim nrb) (Z.of_nat a) = Ok a) by (rewrite py_axis_nat by (unfold n_dim; lia); rewrite Nat2Z.id; reflexivity).
  destruct (refine_axis_step nrb (Z.of_nat a) a C (r_breaks r) (r_pieces r) junk W Ea GA AP HC HB HF) as (s & nrb' & B & E1 & L & E2 & EX & M & GB & DB & LB & UB & MB).
  exists nrb', B. unfold axz. rewrite Nat2Z.id. fold A. cbv zeta. rewrite E1. cbn [bind].
  assert (EN : match f with
               | FacAll n => Ok (repeat n (length (r_breaks r) - 1))
               | FacList l => assert (Nat.eqb (length l) (length (r_breaks r) - 1)) ;;; Ok l
               end = Ok (r_pieces r)).
  { destruct f as [n|l]; cbn in HM.
    - f_equal. replace (length (r_breaks r) - 1)%nat with (length (r_pieces r)) by lia. symmetry. clear - HM. induction HM; cbn; congruence.
    - rewrite HM in *. unfold assert. replace (length (r_breaks r) - 1)%nat with (length l) by lia. rewrite Nat.eqb_refl. reflexivity. }
  change (T Rn) with R in *. rewrite EN. cbn [bind]. split; [exact E2|]. repeat (split; [assumption|]). assumption.
Qed.

Theorem cad_refine_user nrb factor degree continuity rs junk junk2 : wf_nurbs nrb ->
  refine_asks nrb factor degree continuity rs ->
  (forall b, (b < length (n_axes nrb))%nat -> refinable (get_axis nrb b) (nth b rs rax0)) ->
  exists nrb', cad_refine (N:=Rn) junk junk2 nrb factor degree continuity = Ok nrb' /\
    n_comp nrb' = n_comp nrb /\ length (n_axes nrb') = length (n_axes nrb) /\
    (forall b, (b < length (n_axes nrb))%nat -> refined (get_axis nrb b) (nth b rs rax0) (get_axis nrb' b)) /\
    forall xs, good_args (spec_axes nrb) xs -> good_args (spec_axes nrb') xs /\ same_values nrb nrb' xs xs (fun idx => idx).
Proof.
  intros W (Lr & Pf & Pd & Pc & HA) HR. set (d := length (n_axes nrb)) in *.
  assert (WX : forall b, (b < d)%nat -> wf_ax (spec_ax (get_axis nrb b))) by (intros; apply wf_get_axis; auto).
  unfold cad_refine. cbv zeta. fold d.
  (* clamping *)
  rewrite (foldM_fst _ (zseq d 0) rs) by (rewrite zseq_len; auto).
  destruct (fold_axes0 rax0 (fun nrb t => clamp (N:=Rn) junk nrb (fst t) None) (fun A _ => clean A) (fun A _ B => clamped_from A B)
     (fun nrb a x W Ha H => clamp_both nrb a junk W Ha H) rs nrb d W eq_refl Lr) as (nrb1 & E1 & M1 & P1).
  { intros b Hb. destruct (HR b Hb) as (R1 & R2 & _). split; auto. }
  rewrite E1. cbn [bind]. assert (L1 : length (n_axes nrb1) = d) by apply M1.
  (* degrees *)
  destruct (arg_list_ok degree (map (fun ax => a_deg (axz nrb1 ax)) (zseq d 0)) 0%Z) as (ds & Ed & Ld & Nd); [rewrite map_length, zseq_len; auto|].
  rewrite Ed. cbn [bind]. rewrite map_length, zseq_len in Ld, Nd.
  assert (Nd' : forall b, (b < d)%nat -> (0 < nth b ds 0)%Z /\ Z.max (nth b ds 0%Z) (a_deg (get_axis nrb b)) = r_deg (nth b rs rax0)).
  { intros b Hb. rewrite Nd by auto. destruct (HA b Hb) as (H1 & _). destruct (WX b Hb) as [Hp _]. cbn in Hp.
    destruct (entry degree b) as [k|].
    - destruct H1 as [H1 ->]. split; auto.
    - rewrite nth_map_seq by auto. unfold axz. rewrite Nat2Z.id. destruct (P1 b Hb) as (_ & _ & D & _). rewrite D, H1. lia. }
  assert (F1 : forallb (fun p => (0 <? p)%Z) ds = true) by (apply (forallb_nth _ _ 0%Z); intros b Hb; apply Z.ltb_lt; apply Nd'; lia).
  rewrite F1. cbn [assert bind].
  destruct (fold_axes0 0%Z (fun nrb t => let '(ax, p) := t in let k := (p - a_deg (axz nrb ax))%Z in if (0 <? k)%Z then elevate (N:=Rn) junk junk2 nrb ax k else Ok nrb)
     (fun A p => good_ax A /\ knots_apart A /\ ((p <= a_deg A)%Z \/ (a_deg A <= 9)%Z \/ elev_guard (a_size A - 1) (a_deg A) (p - a_deg A) (a_knots A))) raised_from
     (fun nrb a x W Ha H => raise_one nrb a x junk junk2 W Ha H) ds nrb1 d (mv_wf _ _ _ M1) ltac:(auto) Ld) as (nrb2 & E2 & M2 & P2).
  { intros b Hb. destruct (P1 b Hb) as (G & AP & D & L & H & MU & EC). split; auto. split; auto. destruct (Nd' b Hb) as [_ N2].
    destruct (HR b Hb) as (_ & _ & R3 & [R4|[R4|[R4 R5]]] & _); [left; lia|right; left; lia|]. rewrite (EC R4) in *.
    destruct (Z.le_gt_cases (nth b ds 0%Z) (a_deg (get_axis nrb b))) as [K|K]; [left; auto|]. right; right. replace (nth b ds 0%Z) with (r_deg (nth b rs rax0)) by lia. auto. }
  match goal with |- context [foldM ?f (combine (zseq d 0) ds) nrb1] => replace (foldM f (combine (zseq d 0) ds) nrb1) with (Ok nrb2) by (symmetry; exact E2) end. cbn [bind]. assert (L2 : length (n_axes nrb2) = d) by (rewrite <- L1; apply M2).
  (* what the axes are now *)
  assert (P3 : forall b, (b < d)%nat -> let A := get_axis nrb b in let B := get_axis nrb2 b in let r := nth b rs rax0 in
    good_ax B /\ knots_apart B /\ a_deg B = r_deg r /\ a_lo B = a_lo A /\ a_hi B = a_hi A /\ axis_breaks B (r_breaks r) /\
    forall x, a_lo A < x < a_hi A -> (0 < mulA A x)%Z -> mulA B x = (mulA A x + (r_deg r - a_deg A))%Z).
  { intros b Hb A B r. destruct (P1 b Hb) as (G1 & A1 & D1 & B1 & C1 & MU1 & _). destruct (P2 b Hb) as (G2 & A2 & D2 & B2 & C2 & MU2). fold A in D1, B1, C1, MU1. fold B in G2, A2, D2, B2, C2, MU2.
    destruct (Nd' b Hb) as [_ N2]. fold A r in N2. rewrite D1 in *. rewrite N2 in *. split; auto. split; auto. split; auto. split; [congruence|]. split; [congruence|].
    assert (IN : forall x, a_lo A < x < a_hi A -> mulA B x = if (mulA A x =? 0)%Z then 0%Z else (mulA A x + (r_deg r - a_deg A))%Z).
    { intros x Hx. rewrite MU2, MU1 by auto. reflexivity. }
    split.
    - destruct (HR b Hb) as (_ & _ & R3 & _ & _ & R6 & _). fold A r in R3, R6. apply (axis_breaks_mul _ _ (WX b Hb)) in R6. destruct R6 as [R6 R7]. fold A in R7.
      apply axis_breaks_mul; [apply G2|]. split; auto. intros x. rewrite R7, B2, C2, B1, C1. destruct (good_profile B G2) as (_ & T1 & T2 & _). rewrite B2, B1 in T1. rewrite C2, C1 in T2.
      destruct (WX b Hb) as [Hp Wk]. cbn in Hp, Wk. fold A in Hp, Wk. pose proof (wf_n _ _ _ Wk) as Hn.
      assert (Q1 : (0 < mulA A (a_lo A))%Z) by (rewrite a_lo_eq; pose proof (mulA_at A (a_deg A) (WX b Hb) ltac:(lia)); lia).
      assert (Q2 : (0 < mulA A (a_hi A))%Z) by (rewrite a_hi_eq; pose proof (mulA_at A (a_size A - 1 + 1) (WX b Hb) ltac:(lia)); lia).
      split; intros [K1 K2]; split; auto.
      + destruct (Req_EM_T x (a_lo A)) as [->|Hl]; [lia|]. destruct (Req_EM_T x (a_hi A)) as [->|Hh]; [lia|]. rewrite IN by (change (T Rn) with R in *; lra). destruct (Z.eqb_spec (mulA A x) 0); lia.
      + destruct (Req_EM_T x (a_lo A)) as [->|Hl]; [lia|]. destruct (Req_EM_T x (a_hi A)) as [->|Hh]; [lia|]. rewrite IN in K2 by (change (T Rn) with R in *; lra).
        pose proof (mulA_nonneg A x). destruct (Z.eqb_spec (mulA A x) 0); lia.
    - intros x Hx Hm. rewrite IN by auto. destruct (Z.eqb_spec (mulA A x) 0); lia. }
  (* factors and continuities *)
  destruct (arg_list_ok factor (map (fun _ => FacAll 1) (zseq d 0)) (FacAll 0)) as (fs & Ef & Lf & Nf); [rewrite map_length, zseq_len; auto|].
  rewrite Ef. cbn [bind]. rewrite map_length, zseq_len in Lf, Nf.
  assert (Nf' : forall b, (b < d)%nat -> pos_fact (nth b fs (FacAll 0)) = true /\ pieces_match (nth b fs (FacAll 0)) (r_pieces (nth b rs rax0))).
  { intros b Hb. rewrite Nf by auto. destruct (HA b Hb) as (_ & _ & H1). destruct (entry factor b) as [[k|l]|].
    - destruct H1 as [H1 H2]. split; auto. apply Z.ltb_lt. auto.
    - split; auto. cbn. rewrite <- H1. destruct (HR b Hb) as (_ & _ & _ & _ & _ & _ & _ & H8). apply (forallb_nth _ _ 0%Z). intros j Hj. apply Z.ltb_lt. specialize (H8 j Hj). lia.
    - rewrite nth_map_seq by auto. split; auto. }
  assert (F2 : forallb pos_fact fs = true) by (apply (forallb_nth _ _ (FacAll 0)); intros b Hb; apply Nf'; lia).
  rewrite F2. cbn [assert bind].
  destruct (arg_list_ok continuity (map (fun _ => (-1)%Z) (zseq d 0)) 0%Z) as (cs & Ec & Lc & Nc); [rewrite map_length, zseq_len; auto|].
  rewrite Ec. cbn [bind]. rewrite map_length, zseq_len in Lc, Nc.
  set (dg := map (fun ax => a_deg (axz nrb2 ax)) (zseq d 0)).
  assert (Ldg : length dg = d) by (unfold dg; rewrite map_length, zseq_len; auto).
  set (cn := map (fun pc => if (snd pc <? 0)%Z then (snd pc + fst pc)%Z else snd pc) (combine dg cs)).
  assert (Lcn : length cn = d) by (unfold cn; rewrite map_length, combine_length; lia).
  assert (Ndg : forall b, (b < d)%nat -> nth b dg 0%Z = r_deg (nth b rs rax0)).
  { intros b Hb. unfold dg. rewrite nth_map_seq by auto. unfold axz. rewrite Nat2Z.id. apply P3. auto. }
  assert (Ncn : forall b, (b < d)%nat -> nth b cn 0%Z = r_cont (nth b rs rax0)).
  { intros b Hb. unfold cn. rewrite (nth_indep _ 0%Z (let pc := (0, 0)%Z in if (snd pc <? 0)%Z then (snd pc + fst pc)%Z else snd pc)) by (rewrite map_length, combine_length; lia).
    rewrite map_nth with (d := (0, 0)%Z). rewrite combine_nth by lia. cbn [fst snd]. rewrite Ndg, Nc by auto. destruct (HA b Hb) as (_ & H1 & _). rewrite H1.
    destruct (entry continuity b); auto. rewrite nth_map_seq by auto. cbn. lia. }
  assert (F3 : forallb (fun c => (0 <=? c)%Z) cn = true).
  { apply (forallb_nth _ _ 0%Z). intros b Hb. rewrite Ncn by lia. destruct (HR b ltac:(lia)) as (_ & _ & _ & _ & H5 & _). apply Z.leb_le. lia. }
  rewrite F3. cbn [assert bind].
  assert (F4 : forallb (fun pc => (snd pc <? fst pc)%Z) (combine dg cn) = true).
  { apply (forallb_nth _ _ (0, 0)%Z). intros b Hb. rewrite combine_length in Hb. rewrite combine_nth by lia. cbn [fst snd]. rewrite Ncn, Ndg by lia.
    destruct (HR b ltac:(lia)) as (_ & _ & _ & _ & H5 & _). apply Z.ltb_lt. lia. }
  rewrite F4. cbn [assert bind].
  rewrite (combine_tag (zseq d 0) (combine fs cn) rs) by (rewrite combine_length; lia). rewrite foldM_map. cbn [fst snd].
  match goal with |- context [foldM ?fn (combine (zseq d 0) ?l) nrb2] =>
  destruct (fold_axes0 ((FacAll 0, 0%Z), rax0) fn
     (fun A t => let '((f, C), r) := t in good_ax A /\ knots_apart A /\ (0 <= C < a_deg A)%Z /\ axis_breaks A (r_breaks r) /\ fine (r_breaks r) (r_pieces r) /\ pieces_match f (r_pieces r))
     (fun A t B => let '((f, C), r) := t in good_ax B /\ a_deg B = a_deg A /\ a_lo B = a_lo A /\ a_hi B = a_hi A /\
        forall x, a_lo A < x < a_hi A ->
        (cut r x -> mulA B x = (a_deg A - C)%Z) /\ (In x (r_breaks r) -> mulA B x = Z.max (a_deg A - C) (mulA A x)) /\
        (~ cut r x -> ~ In x (r_breaks r) -> mulA B x = 0%Z))) with (xs := l) (nrb := nrb2) (n := d) as (nrb3 & E3 & M3 & P4)
  end.
  - intros nrb' a [[f C] r] W' Ha (H1 & H2 & H3 & H4 & H5 & H6). exact (cut_round nrb' a f C r junk W' Ha H1 H2 H3 H4 H5 H6).
  - apply M2.
  - auto.
  - rewrite !combine_length. lia.
  - intros b Hb. rewrite combine_nth by (rewrite combine_length; lia). rewrite combine_nth by lia. destruct (P3 b Hb) as (G & AP & D & _ & _ & AB & _).
    destruct (HR b Hb) as (_ & _ & _ & _ & R5 & _ & R7 & R8). rewrite Ncn by auto. split; auto. split; auto. split; [lia|]. split; auto. split; [split; auto|]. apply Nf'. auto.
  - exists nrb3. split; [exact E3|]. pose proof (moves_same _ _ _ (moves_same _ _ _ M1 M2) M3) as MV. split; [apply MV|]. split; [apply MV|]. split.
    + intros b Hb. specialize (P4 b Hb). rewrite combine_nth in P4 by (rewrite combine_length; lia). rewrite combine_nth in P4 by lia. rewrite Ncn in P4 by auto.
      destruct P4 as (G & D & L & H & MU). destruct (P3 b Hb) as (_ & _ & D' & L' & H' & _ & MU'). destruct (HR b Hb) as (_ & _ & _ & _ & _ & R6 & _).
      apply (axis_breaks_mul _ _ (WX b Hb)) in R6. unfold refined. cbv zeta. split; [congruence|]. split; [congruence|]. split; [congruence|]. split; [apply G|].
      intros x Hx. rewrite !mulA_len. destruct (MU x ltac:(rewrite L', H'; auto)) as (U1 & U2 & U3). rewrite D' in U1, U2. split; auto. split; auto.
      intros I. rewrite (U2 I). apply R6 in I. rewrite MU' by (auto; apply I). reflexivity.
    + intros xs G. apply (moves_values nrb nrb3 same xs xs W MV G eq_refl). auto.
Qed.
