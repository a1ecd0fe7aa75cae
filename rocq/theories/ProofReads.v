(** Which entries of the arrays evaluation reads: equality of the results for arrays that
    agree on the valid indices, for every carrier of numbers (no algebraic law is used, so a
    read that is multiplied by zero afterwards counts as a read). *)
From Coq Require Import ZArith List Lia Bool.
From Verif Require Import Num Loop ModelBspline ModelBSp ModelNurbs ProofSpan.
Import ListNotations.
Local Open Scope Z_scope.

Lemma iter_up_ext {S} (f g : Z -> S -> S) c : forall lo s,
  (forall i s, lo <= i < lo + Z.of_nat c -> f i s = g i s) -> iter_up c lo f s = iter_up c lo g s.
Proof.
  induction c; intros lo s H; simpl; auto. rewrite (H lo s) by lia. apply IHc. intros. apply H. lia.
Qed.
Lemma for_up_ext {S} (f g : Z -> S -> S) lo hi s :
  (forall i s, lo <= i <= hi -> f i s = g i s) -> for_up lo hi f s = for_up lo hi g s.
Proof. intros H. unfold for_up. apply iter_up_ext. intros. apply H. lia. Qed.
Lemma while_ext {S} (I : S -> Prop) c c' (b b' : S -> S) :
  (forall s, I s -> c s = c' s) -> (forall s, I s -> c s = true -> b s = b' s /\ I (b s)) ->
  forall fuel s, I s -> while fuel c b s = while fuel c' b' s.
Proof.
  intros Hc Hb. induction fuel; intros s Is; simpl; auto. rewrite <- (Hc s Is). destruct (c s) eqn:E; auto.
  destruct (Hb s Is E) as [E1 E2]. rewrite <- E1. auto.
Qed.

Section Reads.
Variable N : Num.

Lemma FindSpan_reads n p (u : N) (U U' : Z -> N) : p <= n ->
  (forall i, p <= i <= n + 1 -> U i = U' i) -> FindSpan_opt n p u U = FindSpan_opt n p u U'.
Proof.
  intros Hp H. unfold FindSpan_opt. rewrite (H (n + 1)), (H p) by lia.
  destruct (nleb N (U' (n + 1)) u); auto. destruct (nleb N u (U' p)); auto.
  assert (D : forall a b, a <= b -> b <= n + 1 -> a <= n -> a <= (a + b) / 2 <= b /\ (a + b) / 2 <= n).
  { intros a b H1 H2 H3. split; [split|].
    - apply Z.div_le_lower_bound; lia.
    - apply Z.div_le_upper_bound; lia.
    - assert ((a + b) / 2 < n + 1); [apply Z.div_lt_upper_bound; lia|lia]. }
  rewrite (while_ext (fun s => let '(low, high, span) := s in p <= low <= n /\ low <= high <= n + 1 /\ span = (low + high) / 2)
             (FindSpan_cond u U) (FindSpan_cond u U') (FindSpan_body u U) (FindSpan_body u U')); auto.
  - intros [[low high] span] [I1 [I2 ->]]. pose proof (D low high). unfold FindSpan_cond. rewrite !H by lia. reflexivity.
  - intros [[low high] span] [I1 [I2 ->]] _. pose proof (D low high ltac:(lia) ltac:(lia) ltac:(lia)). unfold FindSpan_body. rewrite !H by lia.
    split; auto. destruct (nltb N u _); repeat split; lia.
  - repeat split; lia.
Qed.

Lemma FindSpan_range n p (u : N) U : weak_order N -> p <= n -> p <= FindSpan n p u U <= n.
Proof.
  intros W Hp. destruct (FindSpan_generic N W n p u U Hp) as [k [E [Hk _]]]. unfold FindSpan. rewrite E. auto.
Qed.

Lemma BasisFuns_reads i (u : N) p (U U' : Z -> N) junk :
  (forall j, i + 1 - p <= j <= i + p -> U j = U' j) -> BasisFuns i u p U junk = BasisFuns i u p U' junk.
Proof.
  intros H. unfold BasisFuns. erewrite (for_up_ext (BasisFuns_outer i u U) (BasisFuns_outer i u U')); [reflexivity|].
  intros j [[Nf l] r] Hj. unfold BasisFuns_outer. rewrite !H by lia. reflexivity.
Qed.

Definition agree (lo hi : Z) (f g : Z -> N) : Prop := forall i, lo <= i <= hi -> f i = g i.

Lemma span_basis_reads n p (u : N) U U' junk : weak_order N -> 1 <= p <= n -> agree 0 (n + p + 1) U U' ->
  FindSpan n p u U = FindSpan n p u U' /\
  BasisFuns (FindSpan n p u U) u p U junk = BasisFuns (FindSpan n p u U') u p U' junk.
Proof.
  intros W Hp H. assert (E : FindSpan n p u U = FindSpan n p u U').
  { unfold FindSpan. rewrite (FindSpan_reads n p u U U'); auto; try lia. intros. apply H. lia. }
  split; auto. rewrite <- E. pose proof (FindSpan_range n p u U W ltac:(lia)).
  apply BasisFuns_reads. intros. apply H. lia.
Qed.

Lemma Evaluate1_reads n p U U' P P' r X junk junkC : weak_order N -> 1 <= p <= n ->
  agree 0 (n + p + 1) U U' -> agree 0 n P P' ->
  Evaluate1 (N:=N) n p U P r X junk junkC = Evaluate1 n p U' P' r X junk junkC.
Proof.
  intros W Hp HU HP. unfold Evaluate1. apply for_up_ext. intros i C Hi. cbv zeta.
  destruct (span_basis_reads n p (X i) U U' junk W Hp HU) as [E1 E2]. rewrite E2, E1.
  pose proof (FindSpan_range n p (X i) U' W ltac:(lia)). f_equal.
  apply for_up_ext. intros j s Hj. rewrite (HP (FindSpan n p (X i) U' - p + j)) by lia. reflexivity.
Qed.

Lemma tables_reads n p U U' r X junk sj bj : weak_order N -> 1 <= p <= n -> agree 0 (n + p + 1) U U' ->
  tables (N:=N) n p U r X junk sj bj = tables n p U' r X junk sj bj.
Proof.
  intros W Hp HU. unfold tables. apply for_up_ext. intros i [s b] Hi.
  rewrite !upd_same. destruct (span_basis_reads n p (X i) U U' junk W Hp HU) as [E1 E2]. rewrite E2, E1. reflexivity.
Qed.

Lemma tables_span n p U r X junk sj bj : weak_order N -> p <= n ->
  forall i, 0 <= i <= r -> p <= fst (tables (N:=N) n p U r X junk sj bj) i <= n.
Proof.
  intros W Hp i Hi. unfold tables.
  apply (for_up_ind (fun k (s : (Z -> Z) * (Z -> Z -> N)) => forall i, 0 <= i < k -> p <= fst s i <= n)); try lia.
  intros k [s b] Hk IH j Hj. cbn [fst]. unfold upd. destruct (Z.eqb_spec j k).
  - apply FindSpan_range; auto.
  - apply IH. lia.
Qed.

Lemma Evaluate2_reads nx px Ux Ux' ny py Uy Uy' P P' rx X ry Y junk sj bj junkC : weak_order N ->
  1 <= px <= nx -> 1 <= py <= ny -> agree 0 (nx + px + 1) Ux Ux' -> agree 0 (ny + py + 1) Uy Uy' ->
  (forall j i, 0 <= j <= ny -> 0 <= i <= nx -> P j i = P' j i) ->
  Evaluate2 (N:=N) nx px Ux ny py Uy P rx X ry Y junk sj bj junkC =
  Evaluate2 nx px Ux' ny py Uy' P' rx X ry Y junk sj bj junkC.
Proof.
  intros W Hx Hy HX HY HP. unfold Evaluate2.
  rewrite (tables_reads nx px Ux Ux'), (tables_reads ny py Uy Uy') by auto.
  pose proof (tables_span nx px Ux' rx X junk sj bj W ltac:(lia)) as Sx.
  pose proof (tables_span ny py Uy' ry Y junk sj bj W ltac:(lia)) as Sy.
  destruct (tables nx px Ux' rx X junk sj bj) as [sx bx]. destruct (tables ny py Uy' ry Y junk sj bj) as [sy by_]. cbn [fst] in *.
  apply for_up_ext. intros ix C Hix. apply for_up_ext. intros iy C' Hiy. f_equal.
  apply for_up_ext. intros jx s Hjx. apply for_up_ext. intros jy s' Hjy. specialize (Sx ix Hix). specialize (Sy iy Hiy).
  rewrite HP by lia. reflexivity.
Qed.

Lemma Evaluate3_reads nx px Ux Ux' ny py Uy Uy' nz pz Uz Uz' P P' rx X ry Y rz Z_ junk sj bj junkC : weak_order N ->
  1 <= px <= nx -> 1 <= py <= ny -> 1 <= pz <= nz ->
  agree 0 (nx + px + 1) Ux Ux' -> agree 0 (ny + py + 1) Uy Uy' -> agree 0 (nz + pz + 1) Uz Uz' ->
  (forall k j i, 0 <= k <= nz -> 0 <= j <= ny -> 0 <= i <= nx -> P k j i = P' k j i) ->
  Evaluate3 (N:=N) nx px Ux ny py Uy nz pz Uz P rx X ry Y rz Z_ junk sj bj junkC =
  Evaluate3 nx px Ux' ny py Uy' nz pz Uz' P' rx X ry Y rz Z_ junk sj bj junkC.
Proof.
  intros W Hx Hy Hz HX HY HZ HP. unfold Evaluate3.
  rewrite (tables_reads nx px Ux Ux'), (tables_reads ny py Uy Uy'), (tables_reads nz pz Uz Uz') by auto.
  pose proof (tables_span nx px Ux' rx X junk sj bj W ltac:(lia)) as Sx.
  pose proof (tables_span ny py Uy' ry Y junk sj bj W ltac:(lia)) as Sy.
  pose proof (tables_span nz pz Uz' rz Z_ junk sj bj W ltac:(lia)) as Sz.
  destruct (tables nx px Ux' rx X junk sj bj) as [sx bx]. destruct (tables ny py Uy' ry Y junk sj bj) as [sy by_].
  destruct (tables nz pz Uz' rz Z_ junk sj bj) as [sz bz]. cbn [fst] in *.
  apply for_up_ext. intros ix C Hix. apply for_up_ext. intros iy C' Hiy. apply for_up_ext. intros iz C'' Hiz. f_equal.
  specialize (Sx ix Hix). specialize (Sy iy Hiy). specialize (Sz iz Hiz).
  apply for_up_ext. intros jx s Hjx. apply for_up_ext. intros jy s' Hjy. apply for_up_ext. intros jz s'' Hjz.
  rewrite HP by lia. reflexivity.
Qed.

(** ** Class level *)
(** Two axes that agree on the valid indices of their knot arrays. *)
Definition same_axis (A A' : axis N) : Prop :=
  a_size A' = a_size A /\ a_len A' = a_len A /\ agree 0 (a_len A - 1) (a_knots A) (a_knots A').
(** Index lists valid for the control array. *)
Definition valid_idx (axs : list (axis N)) (idx : list Z) : Prop := Forall2 (fun A i => 0 <= i < a_size A) axs idx.
(** At least degree+1 control points, degree at least one. *)
Definition enough_points (A : axis N) : Prop := 1 <= a_deg A <= a_size A - 1.
(** The same outcome: the same exception, or results with equal entries. *)
Definition same_res {A} (eqv : A -> A -> Prop) (r r' : res A) : Prop :=
  match r, r' with Ok x, Ok y => eqv x y | Raise e, Raise e' => e = e' | _, _ => False end.

Variables (junk : Z -> N) (junk2 : Z -> Z -> N) (junk3 : Z -> Z -> Z -> N) (junkS : Z -> Z).

Lemma same_axis_deg A A' : same_axis A A' -> a_deg A' = a_deg A.
Proof. intros [H1 [H2 _]]. unfold a_deg. lia. Qed.

Lemma forallb_same axs axs' : Forall2 same_axis axs axs' ->
  forallb (fun A : axis N => (2 <=? a_size A) && (1 <=? a_deg A)) axs = forallb (fun A : axis N => (2 <=? a_size A) && (1 <=? a_deg A)) axs'.
Proof.
  induction 1; simpl; auto. rewrite IHForall2, (same_axis_deg _ _ H). destruct H as [-> _]. reflexivity.
Qed.

Lemma py_Evaluate_reads axs axs' xs f f' : weak_order N -> Forall2 same_axis axs axs' -> Forall enough_points axs ->
  (forall idx, valid_idx axs idx -> f idx = f' idx) ->
  same_res (fun g g' => forall idx, g idx = g' idx)
    (py_Evaluate (N:=N) junk junk2 junk3 junkS axs xs f) (py_Evaluate junk junk2 junk3 junkS axs' xs f').
Proof.
  intros W SA EP H. unfold py_Evaluate. rewrite <- (forallb_same axs axs' SA).
  destruct (forallb _ axs); cbn [check bind]; [|reflexivity]. destruct (forallb _ xs); cbn [check bind]; [|reflexivity].
  assert (K : forall A A', same_axis A A' -> agree 0 (a_size A - 1 + a_deg A + 1) (a_knots A) (a_knots A')).
  { intros A A' [_ [_ HA]] i Hi. apply HA. unfold a_deg in *. lia. }
  destruct SA as [|A A' axs axs' SA1 SA]; cbn.
  { intros idx. apply H. constructor. }
  inversion EP as [|? ? EA EP1]; subst. pose proof (same_axis_deg _ _ SA1) as DA. pose proof (K _ _ SA1) as KA. destruct SA1 as [ZA [_ _]].
  destruct SA as [|B B' axs axs' SB1 SB].
  { destruct xs as [|x [|]]; cbn; auto. intros idx. rewrite DA, ZA.
    rewrite (Evaluate1_reads (a_size A - 1) (a_deg A) (a_knots A) (a_knots A') (fun i => f [i]) (fun i => f' [i])); auto.
    intros i Hi. apply H. constructor; [lia|constructor]. }
  inversion EP1 as [|? ? EB EP2]; subst. pose proof (same_axis_deg _ _ SB1) as DB. pose proof (K _ _ SB1) as KB. destruct SB1 as [ZB [_ _]].
  destruct SB as [|C C' axs axs' SC1 SC].
  { destruct xs as [|x [|y [|]]]; cbn; auto. intros idx. rewrite DA, ZA, DB, ZB.
    erewrite (Evaluate2_reads (a_size A - 1) (a_deg A) (a_knots A) (a_knots A') (a_size B - 1) (a_deg B) (a_knots B) (a_knots B') (fun j i => f [i; j])); auto.
    intros i j Hi Hj. apply H. constructor; [lia|constructor; [lia|constructor]]. }
  inversion EP2 as [|? ? EC EP3]; subst. pose proof (same_axis_deg _ _ SC1) as DC. pose proof (K _ _ SC1) as KC. destruct SC1 as [ZC [_ _]].
  destruct SC as [|D D' axs axs' SD1 SD].
  { destruct xs as [|x [|y [|z [|]]]]; cbn; auto. intros idx. rewrite DA, ZA, DB, ZB, DC, ZC.
    erewrite (Evaluate3_reads (a_size A - 1) (a_deg A) (a_knots A) (a_knots A') (a_size B - 1) (a_deg B) (a_knots B) (a_knots B')
      (a_size C - 1) (a_deg C) (a_knots C) (a_knots C') (fun k j i => f [i; j; k])); auto.
    intros k j i Hk Hj Hi. apply H. constructor; [lia|constructor; [lia|constructor; [lia|constructor]]]. }
  destruct xs as [|x [|y [|z xs]]]; cbn; auto.
Qed.

Lemma py_EvaluateAll_reads axs axs' xs f f' : weak_order N -> Forall2 same_axis axs axs' -> Forall enough_points axs ->
  (forall idx c, valid_idx axs idx -> f idx c = f' idx c) ->
  same_res (fun g g' => forall idx c, g idx c = g' idx c)
    (py_EvaluateAll (N:=N) junk junk2 junk3 junkS axs xs f) (py_EvaluateAll junk junk2 junk3 junkS axs' xs f').
Proof.
  intros W SA EP H. unfold py_EvaluateAll.
  pose proof (py_Evaluate_reads axs axs' xs (fun idx => f idx 0) (fun idx => f' idx 0) W SA EP (fun idx => H idx 0)) as S0.
  unfold same_res in S0.
  destruct (py_Evaluate junk junk2 junk3 junkS axs xs (fun idx => f idx 0)), (py_Evaluate junk junk2 junk3 junkS axs' xs (fun idx => f' idx 0)); try contradiction; cbn [bind]; [|exact S0].
  cbn. intros idx c.
  pose proof (py_Evaluate_reads axs axs' xs (fun idx => f idx c) (fun idx => f' idx c) W SA EP (fun idx => H idx c)) as Sc.
  unfold same_res in Sc.
  destruct (py_Evaluate junk junk2 junk3 junkS axs xs (fun idx => f idx c)), (py_Evaluate junk junk2 junk3 junkS axs' xs (fun idx => f' idx c)); try contradiction; [apply Sc|reflexivity].
Qed.

Lemma py_Greville_reads A A' : same_axis A A' -> enough_points A ->
  py_Greville (N:=N) junk (a_deg A) (mkVec (a_len A) (a_knots A)) = py_Greville junk (a_deg A') (mkVec (a_len A') (a_knots A')).
Proof.
  intros S EP. rewrite (same_axis_deg _ _ S). destruct S as [_ [-> HA]]. unfold py_Greville. cbn [v_len v_get].
  do 2 (destruct (check _); cbn [bind]; [|reflexivity]). do 2 f_equal.
  unfold bsp_Greville. apply for_up_ext. intros i X Hi. do 2 f_equal.
  unfold Greville_sum. apply for_up_ext. intros j s Hj. rewrite (HA j); auto. unfold enough_points in EP. lia.
Qed.

Lemma eval_args_reads axs axs' : Forall2 same_axis axs axs' -> Forall enough_points axs ->
  forall args, eval_args (N:=N) junk axs args = eval_args junk axs' args.
Proof.
  intros SA. induction SA as [|A A' axs axs' S SA IH]; intros EP args; simpl; auto.
  inversion EP as [|? ? EA EP1]; subst. rewrite (IH EP1), <- (py_Greville_reads A A') by auto.
  replace (match hd None args with None => py_Greville junk (a_deg A) (mkVec (a_len A) (a_knots A)) | Some u => eval_arg A' u end)
    with (match hd None args with None => py_Greville junk (a_deg A) (mkVec (a_len A) (a_knots A)) | Some u => eval_arg A u end); auto.
  destruct (hd None args); auto. unfold eval_arg, a_lo, a_hi.
  pose proof (same_axis_deg _ _ S) as D. destruct S as [S1 [S2 S3]]. rewrite D, S2. unfold enough_points, a_deg in *.
  rewrite !S3 by lia. reflexivity.
Qed.

Theorem call_reads nrb nrb' args fields : weak_order N ->
  Forall2 same_axis (n_axes nrb) (n_axes nrb') -> n_comp nrb = n_comp nrb' -> Forall enough_points (n_axes nrb) ->
  (forall idx c, valid_idx (n_axes nrb) idx -> n_arr nrb idx c = n_arr nrb' idx c) ->
  same_res (fun r r' => (forall idx c, fst r idx c = fst r' idx c) /\
                        match snd r, snd r' with
                        | Some F, Some F' => forall idx c, F idx c = F' idx c
                        | None, None => True | _, _ => False end)
    (call (N:=N) junk junk2 junk3 junkS nrb args fields) (call junk junk2 junk3 junkS nrb' args fields).
Proof.
  intros W SA EC EP HA. unfold call. rewrite <- (eval_args_reads _ _ SA EP args).
  destruct (eval_args _ _ _) as [xs|e]; cbn [bind]; [|reflexivity].
  assert (ES : n_shape nrb' = n_shape nrb).
  { unfold n_shape. clear - SA. induction SA; simpl; auto. destruct H as [-> _]. f_equal. auto. }
  assert (CA : same_res (fun a a' => forall idx c, valid_idx (n_axes nrb) idx -> snd a idx c = snd a' idx c) (call_array nrb fields) (call_array nrb' fields)).
  { unfold call_array. rewrite ES. destruct fields as [| |F]; cbn; auto.
    destruct (shape_eqb (nd_shape F) (n_shape nrb)); cbn.
    - intros idx c V. rewrite !HA by auto. reflexivity.
    - unfold assert. destruct (_ =? _); cbn [bind]; [|reflexivity].
      destruct (shape_eqb _ _); cbn; [|reflexivity]. intros idx c V. rewrite !HA by auto. reflexivity. }
  unfold same_res in CA.
  destruct (call_array nrb fields) as [[nc a]|], (call_array nrb' fields) as [[nc' a']|]; try contradiction; cbn [bind snd]; [|exact CA].
  cbn [snd] in CA.
  pose proof (py_EvaluateAll_reads _ _ xs a a' W SA EP CA) as E. unfold same_res in E.
  destruct (py_EvaluateAll junk junk2 junk3 junkS (n_axes nrb) xs a), (py_EvaluateAll junk junk2 junk3 junkS (n_axes nrb') xs a'); try contradiction; cbn [bind]; [|exact E].
  destruct fields; cbn; split; auto; intros; rewrite !E; reflexivity.
Qed.
End Reads.
