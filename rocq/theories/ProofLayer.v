(** The section at an inner parameter is a layer of the net with that knot inserted up to the degree,
    in any arithmetic. *)
From Coq Require Import ZArith List Bool Lia FunctionalExtensionality.
From Verif Require Import Num Loop ModelBspline ModelBSp ModelNurbs ProofNet ProofNurbs ProofSpan ProofReads.
Import ListNotations.
Local Open Scope Z_scope.

Section Any.
Context {N : Num}.
Implicit Types U P Rw : Z -> N.

(** One step of the triangular scheme.  igakit/igalib.f90:218-223, 250-253 *)
Definition cut_body (k p j : Z) U (uu : N) : Z -> (Z -> N) -> Z -> N := fun i Rw =>
  let alpha := ndiv N (nsub N uu (U (k - p + j + i))) (nsub N (U (i + k + 1)) (U (k - p + j + i))) in
  upd Rw i (nadd N (nmul N alpha (Rw (i + 1))) (nmul N (nsub N (n1 N) alpha) (Rw i))).
Lemma inner_agree k p j r U (uu : N) Rw Rw' : 1 <= j -> (forall i, 0 <= i <= r -> Rw i = Rw' i) ->
  forall i, 0 <= i <= r -> for_up 0 (r - j) (cut_body k p j U uu) Rw i = for_up 0 (r - j) (cut_body k p j U uu) Rw' i.
Proof.
  intros Hj H. destruct (Z_lt_le_dec (r - j) 0) as [L|L]; [rewrite !for_up_empty by lia; exact H|].
  assert (G : forall m, -1 <= m <= r - j -> forall i, 0 <= i <= r -> for_up 0 m (cut_body k p j U uu) Rw i = for_up 0 m (cut_body k p j U uu) Rw' i).
  { intros m Hm. replace m with (-1 + Z.of_nat (Z.to_nat (m + 1))) in * by lia. set (q := Z.to_nat (m + 1)) in *. clearbody q. clear m. induction q as [|q IH].
    - rewrite !for_up_empty by lia. exact H.
    - intros i Hi. rewrite Nat2Z.inj_succ in *. rewrite !(for_up_snoc 0 (-1 + Z.succ _)) by lia. replace (-1 + Z.succ (Z.of_nat q) - 1) with (-1 + Z.of_nat q) by lia.
      unfold cut_body at 1 3. cbv zeta. rewrite !IH by lia. unfold upd. destruct (_ =? _); auto. apply IH; lia. }
  apply G. lia.
Qed.
Lemma loops_agree k p r U (uu : N) Rw Rw' : (forall i, 0 <= i <= r -> Rw i = Rw' i) ->
  forall i, 0 <= i <= r -> CornerCut_loops k p r U uu Rw i = CornerCut_loops k p r U uu Rw' i.
Proof.
  intros H. unfold CornerCut_loops. destruct (Z_lt_le_dec r 1) as [L|L]; [rewrite !for_up_empty by lia; exact H|].
  set (b := fun j Rw => for_up 0 (r - j) _ Rw).
  assert (G : forall m, 0 <= m <= r -> forall i, 0 <= i <= r -> for_up 1 m b Rw i = for_up 1 m b Rw' i).
  { intros m Hm. replace m with (Z.of_nat (Z.to_nat m)) in * by lia. set (q := Z.to_nat m) in *. clearbody q. clear m. induction q as [|q IH].
    - rewrite !for_up_empty by lia. exact H.
    - intros i Hi. rewrite Nat2Z.inj_succ in *. rewrite !(for_up_snoc 1 (Z.succ _)) by lia. replace (Z.succ (Z.of_nat q) - 1) with (Z.of_nat q) by lia.
      apply (inner_agree k p (Z.succ (Z.of_nat q)) r U uu); [lia| |exact Hi]. apply IH. lia. }
  apply G. lia.
Qed.

(** The last point written by InsertKnot with the knot repeated up to the degree. *)
Lemma insert_layer n p U P (uu : N) k s junk junk' : s < p ->
  InsertKnot_Q n p U P uu k s (p - s) junk (k - s) = CornerCut_loops k p (p - s) U uu (fill 0 (p - s) (fun i => P (k - p + i)) junk') 0.
Proof.
  intros Hs. unfold InsertKnot_Q. cbv zeta. set (r := p - s).
  set (Q0 := fill (k - s + r) _ _ _). set (R0 := fill 0 r _ junk).
  set (body := fun j st => let '(Qw, Rw) := st in _).
  assert (G : forall m, 0 <= m <= r -> snd (for_up 1 m body (Q0, R0)) = for_up 1 m (fun j Rw => for_up 0 (r - j) (cut_body k p j U uu) Rw) R0 /\
    (1 <= m -> fst (for_up 1 m body (Q0, R0)) (k + r - m - s) = snd (for_up 1 m body (Q0, R0)) (p - m - s))).
  { intros m Hm. replace m with (Z.of_nat (Z.to_nat m)) in * by lia. set (q := Z.to_nat m) in *. clearbody q. clear m. induction q as [|q IH].
    - rewrite !for_up_empty by lia. cbn. split; [reflexivity|lia].
    - rewrite Nat2Z.inj_succ in *. rewrite !(for_up_snoc 1 (Z.succ _)) by lia. replace (Z.succ (Z.of_nat q) - 1) with (Z.of_nat q) by lia.
      destruct IH as [IH _]; [lia|]. destruct (for_up 1 (Z.of_nat q) body (Q0, R0)) as [Qm Rm]. cbn [snd] in IH. subst Rm.
      unfold body. cbn [fst snd]. split.
      + unfold InsertKnot_inner. cbv zeta. replace (p - Z.succ (Z.of_nat q) - s) with (r - Z.succ (Z.of_nat q)) by (unfold r; lia). reflexivity.
      + intros _. rewrite upd_same. reflexivity. }
  destruct (G r ltac:(unfold r; lia)) as [G1 G2]. destruct (for_up 1 r body (Q0, R0)) as [Qf Rf]. cbn [fst snd] in G1, G2.
  rewrite for_up_empty by (unfold r; lia). replace (k - s) with (k + r - r - s) by lia. rewrite G2 by (unfold r; lia). subst Rf.
  replace (p - r - s) with 0 by (unfold r; lia). change (CornerCut_loops k p r U uu R0 0 = CornerCut_loops k p r U uu (fill 0 r (fun i => P (k - p + i)) junk') 0).
  apply loops_agree; [|unfold r; lia]. intros i Hi. unfold R0. rewrite !fill_in by lia. reflexivity.
Qed.

Lemma FindMult_nonneg i (uu : N) p U : 0 <= FindMult i uu p U.
Proof.
  unfold FindMult. assert (G : forall q i0 m, 0 <= m -> 0 <= iter_up q i0 (fun j mult => if nltb N (nabs N (nsub N uu (U (i + j)))) (neps N) then mult + 1 else mult) m); [|apply G; lia].
  induction q as [|q IH]; intros i0 m H; cbn [iter_up]; auto. apply IH. destruct (nltb N _ _); lia.
Qed.

(** The section found by extract is a layer of the net found by insert. *)
Lemma extract_layer_at (nrb nrb' sec : nurbs N) ax a (u : N) junk junk' : py_axis (n_dim nrb) ax = Ok a ->
  let A := get_axis nrb a in let n := a_size A - 1 in let p := a_deg A in let U := a_knots A in
  nleb N u (U p) = false -> nleb N (U (n + 1)) u = false ->
  insert junk nrb ax u None = Ok nrb' -> extract junk' nrb ax u = Ok sec ->
  let k := FindSpan n p u U in let s := Z.min (FindMult k u p U) p in
  1 <= p <= n /\ n_axes sec = lrem a (n_axes nrb) /\ n_comp sec = n_comp nrb /\ a_size (get_axis nrb' a) = a_size A + (p - s) /\ 0 <= s /\
  n_axes nrb' = lset a (get_axis nrb' a) (n_axes nrb) /\ a_len (get_axis nrb' a) = a_len A + (p - s) /\
  (forall i, 0 <= i <= n + p + 1 + (p - s) -> a_knots (get_axis nrb' a) i = if i <=? k then U i else if i <=? k + (p - s) then u else U (i - (p - s))) /\
  forall idx c, (a <= length idx)%nat -> n_arr sec idx c = n_arr nrb' (lins a (k - s) idx) c.
Proof.
  intros Ea A n p U H1 H2 EI EX k s.
  assert (Ha : (a < length (n_axes nrb))%nat) by (apply py_axis_ok in Ea; unfold n_dim in Ea; lia).
  assert (EI' := EI). unfold insert in EI. rewrite Ea in EI. cbn [bind] in EI. fold A n p U in EI. unfold assert, check in EI.
  destruct (nleb N (a_lo A) u) in EI; [|discriminate]. cbn [bind] in EI. destruct (nleb N u (a_hi A)) in EI; [|discriminate]. cbn [bind] in EI.
  unfold py_FindMult, bsp_FindMult in EI. fold p U in EI. destruct (Z.leb_spec 1 p) as [Hp|]; [|discriminate].
  destruct (Z.leb_spec (2 * p + 1) (a_len A - 1)) as [Hl|]; [|discriminate]. cbn [andb] in EI. change (0 <=? -1) with false in EI. cbv iota in EI. cbn [bind] in EI.
  assert (Ln : a_len A = n + p + 2) by (unfold n, p, a_deg; lia).
  replace (a_len A - 1 - (p + 1)) with n in EI by lia. fold k in EI. fold s in EI.
  pose proof (FindMult_nonneg k u p U) as Hm.
  unfold extract in EX. rewrite Ea in EX. cbn [bind] in EX. fold A n p U in EX. unfold assert, check in EX.
  repeat (match type of EX with bind (if ?b then _ else _) _ = _ => destruct b; cbn [bind] in EX; try discriminate end). injection EX as <-. cbn [n_axes n_comp n_arr].
  split; [lia|]. split; [reflexivity|]. split; [reflexivity|].
  destruct (p - s + s <=? p); [|discriminate]. cbn [bind] in EI.
  assert (C : forall P : Z -> N, bsp_Extract n p U P u junk' = snd (bsp_InsertKnot n p U P u (p - s) junk) (k - s)).
  { intros P. unfold bsp_Extract, CurvePntByCornerCut, bsp_InsertKnot. rewrite H1, H2. fold k. unfold FindSpanMult. fold k. cbv zeta.
    destruct (Z.leb_spec p (FindMult k u p U)) as [Q|Q].
    - replace (p - s) with 0 by (unfold s; lia). cbn. f_equal. unfold s. lia.
    - assert (Es : s = FindMult k u p U) by (unfold s; lia). destruct (Z.eqb_spec (p - s) 0) as [Q'|_]; [lia|]. rewrite <- Es. unfold InsertKnot. cbn [snd].
      symmetry. apply insert_layer. lia. }
  destruct (Z.eqb_spec (p - s) 0) as [Q|Q].
  - injection EI as <-. split; [fold A; lia|]. split; [unfold s; lia|]. fold A. rewrite Q. split; [unfold A, get_axis; symmetry; apply lset_nth|]. split; [lia|]. split.
    { intros i _. destruct (Z.leb_spec i k); [reflexivity|]. destruct (Z.leb_spec i (k + 0)); [lia|]. rewrite Z.sub_0_r. reflexivity. }
    intros idx c Hi. rewrite C, Q. reflexivity.
  - repeat (match type of EI with bind (if ?b then _ else _) _ = _ => destruct b; cbn [bind] in EI; try discriminate end). injection EI as <-.
    unfold get_axis. cbn [n_axes n_arr]. rewrite nth_lset by exact Ha. cbn [a_size a_len a_knots]. split; [lia|]. split; [unfold s; lia|]. split; [reflexivity|]. split; [lia|]. split.
    { intros i Hi. unfold bsp_InsertKnot. destruct (Z.eqb_spec (p - s) 0) as [|_]; [lia|]. unfold FindSpanMult. fold k. cbv zeta iota. unfold InsertKnot, InsertKnot_V. cbn [fst].
      destruct (Z.leb_spec i k); [|destruct (Z.leb_spec i (k + (p - s)))].
      - rewrite !fill_out, fill_in by (unfold s in *; lia). reflexivity.
      - rewrite fill_out, fill_in by lia. reflexivity.
      - rewrite fill_in by lia. reflexivity. }
    intros idx c Hi. rewrite C. unfold along. rewrite nth_lins by exact Hi. f_equal. f_equal. apply functional_extensionality. intros i. rewrite lset_lins by exact Hi. reflexivity.
Qed.
(** The layer lies in the net. *)
Lemma extract_layer (nrb nrb' sec : nurbs N) ax a (u : N) junk junk' : weak_order N -> py_axis (n_dim nrb) ax = Ok a ->
  nleb N u (a_lo (get_axis nrb a)) = false -> nleb N (a_hi (get_axis nrb a)) u = false ->
  insert junk nrb ax u None = Ok nrb' -> extract junk' nrb ax u = Ok sec ->
  n_axes sec = lrem a (n_axes nrb) /\ n_comp sec = n_comp nrb /\
  exists j, 0 <= j < a_size (get_axis nrb' a) /\ forall idx c, (a <= length idx)%nat -> n_arr sec idx c = n_arr nrb' (lins a j idx) c.
Proof.
  intros W Ea H1 H2 EI EX. set (A := get_axis nrb a) in *.
  assert (Eh : a_hi A = a_knots A (a_size A - 1 + 1)) by (unfold a_hi, a_deg; f_equal; lia). rewrite Eh in H2.
  pose proof (extract_layer_at nrb nrb' sec ax a u junk junk' Ea H1 H2 EI EX) as (Hp & X1 & X2 & X3 & X4 & _ & _ & _ & X5).
  split; auto. split; auto. eexists. split; [|exact X5]. fold A in X3, X4 |- *. rewrite X3.
  pose proof (FindSpan_range N (a_size A - 1) (a_deg A) u (a_knots A) W ltac:(fold A in Hp; lia)) as R. fold A in Hp. lia.
Qed.
End Any.
