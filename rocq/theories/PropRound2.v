(** What remap, reverse and greville do in IEEE double precision: the guarantees that remain where C79, C80
    and C81 are refuted, and C86 (the order of the knots is kept).  Vocabulary: SpecDouble.v ([dval],
    [finite], [b2]), SpecRound.v ([tame], [tame_axis], [with_knots]). *)
From Coq Require Import ZArith Reals List Bool SpecFloat Lia Lra.
From Verif Require Import Num Loop Spec ModelBspline ModelBSp ModelNurbs ModelFloat SpecNurbs SpecDouble SpecRound ProofRound ProofRound2 ProofRound3 ProofRound4 ProofRound8 ProofRound9 ExTac PropDouble PropRound.
Import ListNotations.
Local Open Scope R_scope.

(** ** C79, guarded: remap is exact at the start and accurate at every knot, so also at the end *)
Theorem C79_remap_close : forall (nrb : nurbs Dn) ax a (start end_ : option Dn), py_axis (n_dim nrb) ax = Ok a ->
  let A := get_axis nrb a in let U := a_knots A in let lo := U (a_deg A) in let hi := U (a_size A) in
  let c := match start with Some c => c | None => lo end in
  let d := match end_ with Some d => d | None => hi end in
  let g := fun x => dval c + (x - dval lo) * (dval d - dval c) / (dval hi - dval lo) in
  tame_axis A -> tame c -> tame d -> dval c < dval d ->
  exists V, remap (N:=Dn) nrb ax start end_ = Ok (with_knots nrb a V) /\ dval (V (a_deg A)) = dval c /\
    forall i, (0 <= i < a_len A)%Z -> finite (V i) /\
      Rabs (dval (V i) - g (dval (U i))) <= b2 (-50) * (Rabs (dval c) + Rabs (g (dval (U i)) - dval c)) + b2 (-700).
Proof. exact (fun nrb ax a start end_ E T => remap_close nrb ax a E T start end_). Qed.
Print Assumptions C79_remap_close.

(** ** C80, guarded: every reversed knot is accurate; a domain that starts at 0 is kept exactly *)
Theorem C80_reverse_close : forall (nrb : nurbs Dn) ax a, py_axis (n_dim nrb) ax = Ok a ->
  let A := get_axis nrb a in let U := a_knots A in let lo := U (a_deg A) in let hi := U (a_size A) in
  tame_axis A ->
  exists nrb' V, reverse (N:=Dn) nrb [ax] = Ok nrb' /\ n_axes nrb' = n_axes (with_knots nrb a V) /\
    (forall i, (0 <= i < a_len A)%Z -> let x := U (a_len A - 1 - i)%Z in finite (V i) /\
      Rabs (dval (V i) - (dval lo + dval hi - dval x)) <= b2 (-51) * (Rabs (dval lo) + Rabs (dval hi) + Rabs (dval x))) /\
    (dval lo = 0 -> dval (V (a_deg A)) = 0 /\ dval (V (a_size A)) = dval hi).
Proof. exact reverse_close. Qed.
Print Assumptions C80_reverse_close.

(** ** C81, guarded: every abscissa is close to the mean of its knots *)
Theorem C81_greville_close : forall (nrb : nurbs Dn) ax a, py_axis (n_dim nrb) ax = Ok a ->
  let A := get_axis nrb a in let U := a_knots A in let p := a_deg A in
  tame_axis A -> forall junk m, (p <= 1000)%Z -> (forall i, (0 <= i < a_len A)%Z -> Rabs (dval (U i)) <= m) -> m <= b2 300 ->
  exists X, greville (N:=Dn) junk nrb ax = Ok X /\ v_len X = a_size A /\
    forall i, (0 <= i < a_size A)%Z -> finite (v_get X i) /\
      Rabs (dval (v_get X i) - sumZ (i + 1) (i + p) (fun j => dval (U j)) / IZR p) <= IZR (p + 2) * b2 (-52) * m + b2 (-1075).
Proof. exact greville_close. Qed.
Print Assumptions C81_greville_close.

(** ** C86: remap keeps the order of the knots, reverse and greville give sorted arrays *)
Theorem C86_remap_order : forall (nrb : nurbs Dn) ax a (start end_ : option Dn), py_axis (n_dim nrb) ax = Ok a ->
  let A := get_axis nrb a in let U := a_knots A in
  let c := match start with Some c => c | None => U (a_deg A) end in
  let d := match end_ with Some d => d | None => U (a_size A) end in
  tame_axis A -> tame c -> tame d -> dval c < dval d ->
  exists V, remap (N:=Dn) nrb ax start end_ = Ok (with_knots nrb a V) /\
    forall i j, (0 <= i < a_len A)%Z -> (0 <= j < a_len A)%Z -> dval (U i) <= dval (U j) -> finite (V i) /\ finite (V j) /\ dval (V i) <= dval (V j).
Proof. exact (fun nrb ax a start end_ E T => remap_order nrb ax a E T start end_). Qed.
Print Assumptions C86_remap_order.
Theorem C86_reverse_order : forall (nrb : nurbs Dn) ax a, py_axis (n_dim nrb) ax = Ok a -> let A := get_axis nrb a in tame_axis A ->
  exists nrb' V, reverse (N:=Dn) nrb [ax] = Ok nrb' /\ n_axes nrb' = n_axes (with_knots nrb a V) /\
    forall i j, (0 <= i <= j)%Z -> (j < a_len A)%Z -> finite (V i) /\ finite (V j) /\ dval (V i) <= dval (V j).
Proof. exact reverse_order. Qed.
Print Assumptions C86_reverse_order.
Theorem C86_greville_order : forall (nrb : nurbs Dn) ax a, py_axis (n_dim nrb) ax = Ok a -> let A := get_axis nrb a in tame_axis A ->
  forall junk, (a_deg A <= 1000)%Z ->
  exists X, greville (N:=Dn) junk nrb ax = Ok X /\ v_len X = a_size A /\
    forall i j, (0 <= i <= j)%Z -> (j < a_size A)%Z -> finite (v_get X i) /\ finite (v_get X j) /\ dval (v_get X i) <= dval (v_get X j).
Proof. exact greville_order. Qed.
Print Assumptions C86_greville_order.

(** The curve of C85, moved to [0.1, 0.7]. *)
(** The hypotheses of C79, C80, C81 (guarded) and C86. *)
Example C79_C80_C81_C86_example : py_axis (n_dim arc) (-1) = Ok 0%nat /\ tame_axis (get_axis arc 0) /\ (a_deg (get_axis arc 0) <= 1000)%Z /\
  tame (dec 1 1) /\ tame (dec 7 1) /\ dval (dec 1 1) < dval (dec 7 1) /\
  (forall i, (0 <= i < a_len (get_axis arc 0))%Z -> Rabs (dval (a_knots (get_axis arc 0) i)) <= 1) /\ 1 <= b2 300.
Proof.
  assert (B1 : 1 <= b2 300) by (rewrite <- b2_0; apply b2_le; lia).
  assert (K : forall i, (0 <= i < 6)%Z -> dval (dl (ints [0; 0; 0; 1; 1; 1]%Z) i) = if (i <? 3)%Z then 0 else 1).
  { intros i Hi. rewrite arc_knot by auto. destruct (i <? 3)%Z; [apply dv0|apply dv1]. }
  assert (K1 : forall i, (0 <= i < 6)%Z -> Rabs (dval (dl (ints [0; 0; 0; 1; 1; 1]%Z) i)) <= 1).
  { intros i Hi. rewrite K by auto. destruct (i <? 3)%Z; rewrite ?Rabs_R0, ?Rabs_R1; lra. }
  assert (TM : forall x, finite x -> SFleb (dbl_of_Z 0) x && SFleb x (dbl_of_Z 1) = true -> tame x).
  { intros x F H. apply andb_true_iff in H. destruct H as [H1 H2]. apply le_by in H1; auto; [|fin]. apply le_by in H2; auto; [|fin]. rewrite dv0 in H1. rewrite dv1 in H2.
    split; [exact F|]. rewrite Rabs_right by lra. lra. }
  split; [reflexivity|]. split.
  { split; [apply arc_axis|]. split.
    - intros i Hi. change (a_len (get_axis arc 0)) with 6%Z in Hi. change (a_knots (get_axis arc 0) i) with (dl (ints [0; 0; 0; 1; 1; 1]%Z) i).
      split; [rewrite arc_knot by auto; destruct (i <? 3)%Z; fin|]. apply Rle_trans with 1; auto.
    - change (b2 (-300) <= dval (dl (ints [0; 0; 0; 1; 1; 1]%Z) 3) - dval (dl (ints [0; 0; 0; 1; 1; 1]%Z) 2)). rewrite !K by lia. cbn [Z.ltb Z.compare Pos.compare Pos.compare_cont].
      rewrite Rminus_0_r, <- b2_0. apply b2_le. lia. }
  split; [unfold a_deg; cbn; lia|]. split; [apply TM; [fin|vm_compute; reflexivity]|]. split; [apply TM; [fin|vm_compute; reflexivity]|].
  split; [apply ltb_ok; [fin|fin|vm_compute; reflexivity]|]. split; [exact K1|exact B1].
Qed.
