(** Joining two objects: preparation of the pieces and the join. *)
From Coq Require Import ZArith Reals List Lia Lra Bool FunctionalExtensionality.
From Verif Require Import Num Loop ModelBspline ModelBSp ModelNurbs ModelRemove ModelIga ModelCad Spec SpecElev SpecCompat SpecJoin SumZ BPiece BLink BRep ProofSpan
  SpecNurbs ProofNet ProofCall ProofNurbs ProofMethods ProofClamp ProofGeom ProofGeom2 ProofPerm ProofOk ProofIga ProofIga2 ProofInit ProofRemove4
  ProofCompat1 ProofCompat2 ProofCompat3 ProofCad ProofRuled ProofCoons ProofJoin.
Import ListNotations.
Local Open Scope R_scope.

Lemma apart_of A : knots_apart A -> apart A A.
Proof.
  intros H x y Hx Hy. destruct (mul_knot A x Hx) as (j & Hj & <-). destruct (mul_knot A y Hy) as (j' & Hj' & <-). apply H; auto.
Qed.
Lemma apart_sep A x : wf_ax (spec_ax A) -> knots_apart A -> (exists j, (0 <= j < a_len A)%Z /\ a_knots A j = x) -> separated (a_knots A) 0 (a_size A - 1 + a_deg A + 1) x.
Proof.
  intros W H (j & Hj & <-) i Hi. rewrite a_len_eq in Hj. destruct (H i j) as [E|E]; rewrite ?a_len_eq; try lia; [left; auto|right; lra].
Qed.
Lemma apart_ends A : wf_ax (spec_ax A) -> knots_apart A -> ends_separated A.
Proof.
  intros W H. pose proof W as [Hp Wk]. pose proof (wf_n _ _ _ Wk) as Hn. cbn in Hp, Hn. split; apply apart_sep; auto; eexists; (split; [|reflexivity]); rewrite a_len_eq; lia.
Qed.

(** Moving the domain of an axis, without assumptions on the knots. *)
Lemma remap_shift nrb ax a (u : R) : wf_nurbs nrb -> py_axis (n_dim nrb) ax = Ok a -> let A := get_axis nrb a in
  exists nrb' V, remap (N:=Rn) nrb ax (Some (a_lo A + u)) (Some (a_hi A + u)) = Ok nrb' /\ n_axes nrb' = lset a (mkAxis (a_size A) (a_len A) V) (n_axes nrb) /\
    (forall i, V i = a_knots A i + u) /\ moves nrb nrb' (fun b x => if Nat.eqb b a then x + u else x).
Proof.
  intros W Ea A. pose proof (py_axis_dim _ _ _ Ea) as Ha. pose proof (wf_lohi_of nrb a W Ha) as LH. fold A in LH.
  destruct (remap_ok nrb ax a (Some (a_lo A + u)) (Some (a_hi A + u)) W Ea ltac:(cbn in *; lra)) as [nrb' E].
  destruct (remap_full nrb ax a _ _ nrb' W Ea E) as (_ & W' & (V & EX & EV & EL & EH) & HH & _). fold A in EX, EV, EL, EH. exists nrb', V. split; auto. split; auto.
  assert (SH : forall x : R, a_lo A + u + (x - a_knots A (a_deg A)) * (a_hi A + u - (a_lo A + u)) / (a_knots A (a_size A - 1 + 1)%Z - a_knots A (a_deg A)) = x + u).
  { rewrite a_lo_eq, a_hi_eq in *. generalize (a_knots A (a_deg A) : R) (a_knots A (a_size A - 1 + 1)%Z : R) LH. cbn. intros l h L x. field. lra. }
  split. { intros i. rewrite EV. apply SH. }
  split; auto.
  - unfold remap in E. rewrite Ea in E. cbn [bind] in E. fold A in E. match type of E with (if ?b then _ else _) = _ => destruct b end; [congruence|].
    match type of E with context[assert ?b] => destruct b end; cbn [assert bind] in E; [|discriminate]. injection E as <-. reflexivity.
  - rewrite EX. apply lset_length.
  - intros us us' I L K. pose proof (in_box_length _ _ I) as Lu. unfold spec_axes in Lu. rewrite map_length in Lu.
    assert (us' = lset a (nth a us 0 + u) us) as ->.
    { apply (nth_ext _ _ 0 0); [rewrite lset_length; auto|]. intros b Hb. rewrite K by lia.
      destruct (Nat.eqb_spec b a) as [->|Hba]; [rewrite nth_lset; auto; lia|rewrite nth_lset_other; auto]. }
    rewrite <- (SH (nth a us 0)). split; [apply (proj1 (HH us 0%Z I))|]. intros c. apply (proj2 (HH us c I)).
Qed.

(** Knots constant over the last / first degree+1 places. *)
Definition rclamped (A : axis Rn) : Prop := forall j, (a_size A <= j <= a_size A + a_deg A)%Z -> a_knots A j = a_hi A.
Definition lclamped (A : axis Rn) : Prop := forall j, (0 <= j <= a_deg A)%Z -> a_knots A j = a_lo A.
(** Facts about an axis that survive the preparations. *)
Record ready (A : axis Rn) (p : Z) : Prop := { rd_wf : wf_ax (spec_ax A); rd_apart : knots_apart A; rd_raise : raisable A p }.
Lemma open_good A : wf_ax (spec_ax A) -> open_axis A -> good_ax A.
Proof. intros W [C M]. split; [|split]; auto. Qed.
Lemma open_r A : open_axis A -> rclamped A.
Proof. intros [[_ C] _] j Hj. rewrite a_hi_eq. apply C. lia. Qed.
Lemma open_l A : open_axis A -> lclamped A.
Proof. intros [[C _] _] j Hj. rewrite a_lo_eq. apply C. lia. Qed.

Lemma raise_step nrb ax a p junk junk2 : wf_nurbs nrb -> py_axis (n_dim nrb) ax = Ok a -> let A := get_axis nrb a in ready A p ->
  exists nrb' B, elevate (N:=Rn) junk junk2 nrb ax (p - a_deg A) = Ok nrb' /\ n_axes nrb' = lset a B (n_axes nrb) /\ moves nrb nrb' (fun _ x => x) /\
    a_deg B = p /\ a_lo B = a_lo A /\ a_hi B = a_hi A /\ knots_apart B /\ (rclamped A -> rclamped B) /\ (lclamped A -> lclamped B).
Proof.
  intros W Ea A [WA AP RA]. destruct RA as [E|(O & L & G)].
  - exists nrb, A. replace (p - a_deg A)%Z with 0%Z by lia. split; [reflexivity|]. split; [unfold A, get_axis; symmetry; apply ProofNet.lset_nth|]. split; [apply moves_id; auto|].
    repeat (split; auto).
  - destruct (elevate_step nrb ax a (p - a_deg A) junk junk2 W Ea ltac:(lia) (open_good _ WA O) (apart_of _ AP)) as (nrb' & B & E & EX & M & GB & D & EL & EH & MU).
    { right. destruct G as [G|G]; auto. apply ProofElev4.elev_guard_low; fold A; lia. }
    fold A in E, D, EL, EH, MU. exists nrb', B. split; auto. split; auto. split; auto. split; [lia|]. split; auto. split; auto. destruct GB as (WB & CB & MB).
    split; [|split; intros _; [apply open_r|apply open_l]; split; auto].
    assert (K : forall j, (0 <= j < a_len B)%Z -> exists i, (0 <= i < a_len A)%Z /\ a_knots A i = a_knots B j).
    { intros j Hj. pose proof (knot_mul B j WB Hj) as P. rewrite MU in P. apply mul_knot. pose proof (mulA_nonneg A (a_knots B j)). destruct (Z.eqb_spec (mulA A (a_knots B j)) 0); lia. }
    intros j j' Hj Hj'. destruct (K j Hj) as (i & Hi & <-). destruct (K j' Hj') as (i' & Hi' & <-). apply AP; auto.
Qed.

Lemma clamp_step nrb ax a p junk side : side = Some 0%Z \/ side = Some 1%Z -> wf_nurbs nrb -> py_axis (n_dim nrb) ax = Ok a -> let A := get_axis nrb a in ready A p ->
  exists nrb' B, clamp (N:=Rn) junk nrb ax side = Ok nrb' /\ n_axes nrb' = lset a B (n_axes nrb) /\ moves nrb nrb' (fun _ x => x) /\ ready B p /\
    a_deg B = a_deg A /\ a_lo B = a_lo A /\ a_hi B = a_hi A /\ (side = Some 1%Z -> rclamped B) /\ (side = Some 0%Z -> lclamped B).
Proof.
  intros Hs W Ea A [WA AP RA]. pose proof (py_axis_dim _ _ _ Ea) as Ha. pose proof WA as [Hp Wk]. pose proof (wf_n _ _ _ Wk) as Hn. cbn [spec_ax x_n x_p x_U] in Hp, Wk, Hn.
  destruct (proj2 (clamp_ok nrb ax a side junk W Ea)) as [nrb' E]. { destruct Hs as [->| ->]; cbn; auto. }
  destruct (clamp_spec nrb ax a side junk nrb' W Ea (apart_ends _ WA AP) E) as [PR EX]. fold A in EX.
  set (B := mkAxis (N:=Rn) (a_size A) (a_len A) (clampLR (a_size A - 1) (a_deg A) (side_left side) (side_right side) (a_knots A))) in *.
  destruct (clampLR_ends _ _ (side_left side) (side_right side) _ Wk) as [E1 E2].
  assert (DB : a_deg B = a_deg A) by reflexivity.
  assert (LB : a_lo B = a_lo A) by exact E1. assert (HB : a_hi B = a_hi A) by (rewrite !a_hi_eq; exact E2).
  assert (KB : forall j, a_knots B j = a_knots A j \/ side = Some 0%Z /\ (0 <= j <= a_deg A - 1)%Z /\ a_knots B j = a_knots A (a_deg A) \/
     side = Some 1%Z /\ (a_size A + 1 <= j <= a_size A + a_deg A)%Z /\ a_knots B j = a_knots A (a_size A - 1 + 1)%Z).
  { intros j. unfold B. cbn [a_knots]. destruct Hs as [->| ->]; cbn [side_left side_right Z.eqb Pos.eqb]; unfold clampLR, clampL, clampR.
    - destruct (Z.leb_spec 0 j), (Z.leb_spec j (a_deg A - 1)); cbn [andb]; try (left; reflexivity). right. left. auto.
    - destruct (Z.leb_spec (a_size A - 1 + 2) j), (Z.leb_spec j (a_size A - 1 + a_deg A + 1)); cbn [andb]; try (left; reflexivity).
      right. right. split; [reflexivity|]. split; [lia|reflexivity]. }
  exists nrb', B. split; auto. split; auto. split; [apply moves_preserves; auto|].
  assert (WB : wf_ax (spec_ax B)).
  { assert (EG : get_axis nrb' a = B) by (unfold get_axis; rewrite EX; apply nth_lset; auto). rewrite <- EG. apply wf_get_axis; [apply PR|]. rewrite EX, lset_length. auto. }
  split; [split; auto|].
  - assert (K : forall j, (0 <= j < a_len B)%Z -> exists i, (0 <= i < a_len A)%Z /\ a_knots A i = a_knots B j).
    { intros j Hj. change (a_len B) with (a_len A) in Hj. rewrite a_len_eq in *. destruct (KB j) as [K|[(_ & _ & K)|(_ & _ & K)]]; rewrite K; [exists j|exists (a_deg A)|exists (a_size A - 1 + 1)%Z]; split; auto; lia. }
    intros j j' Hj Hj'. destruct (K j Hj) as (i & Hi & <-). destruct (K j' Hj') as (i' & Hi' & <-). apply AP; auto.
  - destruct RA as [RA|(O & RA)]; [left; auto|]. right.
    assert (EK : a_knots B = a_knots A).
    { apply functional_extensionality. intros j. destruct (KB j) as [K|[(_ & Hj & K)|(_ & Hj & K)]]; rewrite K; auto; symmetry.
      - apply (open_l A O). lia.
      - rewrite (open_r A O j) by lia. rewrite a_hi_eq. auto. }
    assert (EB : B = A) by (unfold B in *; cbn [a_knots] in EK; rewrite EK; destruct A; reflexivity). rewrite EB. auto.
  - split; auto. split; auto. split; auto. split; intros ->; intros j Hj; rewrite ?DB in Hj; change (a_size B) with (a_size A) in Hj.
    + rewrite HB, a_hi_eq. unfold B. cbn [a_knots side_left side_right Z.eqb Pos.eqb]. unfold clampLR, clampR.
      destruct (Z.leb_spec (a_size A - 1 + 2) j), (Z.leb_spec j (a_size A - 1 + a_deg A + 1)); cbn [andb]; auto; try lia. f_equal. lia.
    + rewrite LB, a_lo_eq. unfold B. cbn [a_knots side_left side_right Z.eqb Pos.eqb]. unfold clampLR, clampL.
      destruct (Z.leb_spec 0 j), (Z.leb_spec j (a_deg A - 1)); cbn [andb]; auto; try lia. f_equal. lia.
Qed.

Lemma shift_step nrb ax a p (u : R) : wf_nurbs nrb -> py_axis (n_dim nrb) ax = Ok a -> let A := get_axis nrb a in ready A p ->
  exists nrb' B, remap (N:=Rn) nrb ax (Some (a_lo A + u)) (Some (a_hi A + u)) = Ok nrb' /\ n_axes nrb' = lset a B (n_axes nrb) /\
    moves nrb nrb' (fun b x => if Nat.eqb b a then x + u else x) /\ ready B p /\
    a_deg B = a_deg A /\ a_lo B = a_lo A + u /\ a_hi B = a_hi A + u /\ (lclamped A -> lclamped B).
Proof.
  intros W Ea A [WA AP RA]. pose proof (py_axis_dim _ _ _ Ea) as Ha. destruct (remap_shift nrb ax a u W Ea) as (nrb' & V & E & EX & EV & M). fold A in E, EX, EV.
  set (B := mkAxis (N:=Rn) (a_size A) (a_len A) V) in *. exists nrb', B. split; auto. split; auto. split; auto.
  assert (WB : wf_ax (spec_ax B)).
  { assert (EG : get_axis nrb' a = B) by (unfold get_axis; rewrite EX; apply nth_lset; auto). rewrite <- EG. apply wf_get_axis; [apply M|]. rewrite EX, lset_length. auto. }
  assert (KB : forall j, a_knots B j = a_knots A j + u) by exact EV. assert (DB : a_deg B = a_deg A) by reflexivity.
  assert (LB : a_lo B = a_lo A + u) by (rewrite !a_lo_eq; apply KB). assert (HB : a_hi B = a_hi A + u) by (rewrite !a_hi_eq; apply KB).
  split; [split; auto|].
  - intros j j' Hj Hj'. rewrite !KB. destruct (AP j j' Hj Hj') as [K|K]; [left; rewrite K; auto|right].
    replace (a_knots A j + u - (a_knots A j' + u)) with (a_knots A j - a_knots A j') by ring. auto.
  - destruct RA as [RA|([[C1 C2] MA] & D & G)]; [left; auto|]. right. split; [|split; auto].
    + split; [split|]; intros j Hj; rewrite DB in *; change (a_size B) with (a_size A) in *; rewrite !KB.
      * rewrite (C1 j) by auto. auto.
      * rewrite (C2 j) by auto. auto.
      * apply Rplus_lt_compat_r. apply MA. auto.
    + rewrite DB. change (a_size B) with (a_size A). destruct G as [G|G]; auto. right. apply (elev_guard_map _ _ _ (a_knots A)); auto.
      intros i j. rewrite !KB. cbn. split; intros; lra.
  - split; auto. split; auto. split; auto. intros C j Hj. rewrite KB, LB, (C j) by auto. auto.
Qed.

(** What the pieces are before they are glued. *)
Theorem prep1 nrb ax a p junk junk2 : wf_nurbs nrb -> py_axis (n_dim nrb) ax = Ok a -> let A := get_axis nrb a in ready A p ->
  exists nrb1 nrb' B, clamp (N:=Rn) junk nrb ax (Some 1%Z) = Ok nrb1 /\ a_deg (get_axis nrb1 a) = a_deg A /\ a_hi (get_axis nrb1 a) = a_hi A /\
    elevate (N:=Rn) junk junk2 nrb1 ax (p - a_deg A) = Ok nrb' /\ n_axes nrb' = lset a B (n_axes nrb) /\ moves nrb nrb' (fun _ x => x) /\
    a_deg B = p /\ a_lo B = a_lo A /\ a_hi B = a_hi A /\ knots_apart B /\ rclamped B.
Proof.
  intros W Ea A RA. pose proof (py_axis_dim _ _ _ Ea) as Ha.
  destruct (clamp_step nrb ax a p junk (Some 1%Z) (or_intror eq_refl) W Ea RA) as (nrb1 & B1 & E1 & X1 & M1 & R1 & D1 & L1 & H1 & C1 & _). fold A in D1, L1, H1.
  assert (G1 : get_axis nrb1 a = B1) by (unfold get_axis; rewrite X1; apply nth_lset; auto).
  assert (Ea1 : py_axis (n_dim nrb1) ax = Ok a) by (unfold n_dim in *; rewrite X1, lset_length; auto).
  destruct (raise_step nrb1 ax a p junk junk2 (mv_wf _ _ _ M1) Ea1) as (nrb2 & B2 & E2 & X2 & M2 & D2 & L2 & H2 & A2 & C2 & _); [rewrite G1; auto|].
  rewrite G1 in *. exists nrb1, nrb2, B2. rewrite G1. rewrite D1 in E2. split; auto. split; auto. split; auto. split; auto.
  split; [rewrite X2, X1, lset_lset; auto|]. split; [exact (moves_trans _ _ _ _ _ M1 M2)|]. split; auto. split; [congruence|]. split; [congruence|]. auto.
Qed.
Theorem prep2 nrb ax a p (u : R) junk junk2 : wf_nurbs nrb -> py_axis (n_dim nrb) ax = Ok a -> let A := get_axis nrb a in ready A p ->
  exists nrb1 nrb2 nrb' B, clamp (N:=Rn) junk nrb ax (Some 0%Z) = Ok nrb1 /\ a_deg (get_axis nrb1 a) = a_deg A /\
    remap (N:=Rn) nrb1 ax (Some (a_lo (get_axis nrb1 a) + u)) (Some (a_hi (get_axis nrb1 a) + u)) = Ok nrb2 /\
    elevate (N:=Rn) junk junk2 nrb2 ax (p - a_deg A) = Ok nrb' /\ n_axes nrb' = lset a B (n_axes nrb) /\ moves nrb nrb' (fun b x => if Nat.eqb b a then x + u else x) /\
    a_deg B = p /\ a_lo B = a_lo A + u /\ a_hi B = a_hi A + u /\ knots_apart B /\ lclamped B.
Proof.
  intros W Ea A RA. pose proof (py_axis_dim _ _ _ Ea) as Ha.
  destruct (clamp_step nrb ax a p junk (Some 0%Z) (or_introl eq_refl) W Ea RA) as (nrb1 & B1 & E1 & X1 & M1 & R1 & D1 & L1 & H1 & _ & C1). fold A in D1, L1, H1.
  assert (G1 : get_axis nrb1 a = B1) by (unfold get_axis; rewrite X1; apply nth_lset; auto).
  assert (Ea1 : py_axis (n_dim nrb1) ax = Ok a) by (unfold n_dim in *; rewrite X1, lset_length; auto).
  assert (Ha1 : (a < length (n_axes nrb1))%nat) by (rewrite X1, lset_length; auto).
  destruct (shift_step nrb1 ax a p u (mv_wf _ _ _ M1) Ea1) as (nrb2 & B2 & E2 & X2 & M2 & R2 & D2 & L2 & H2 & C2); [rewrite G1; auto|].
  assert (G2 : get_axis nrb2 a = B2) by (unfold get_axis; rewrite X2; apply nth_lset; auto).
  assert (Ea2 : py_axis (n_dim nrb2) ax = Ok a) by (unfold n_dim in *; rewrite X2, lset_length; auto).
  destruct (raise_step nrb2 ax a p junk junk2 (mv_wf _ _ _ M2) Ea2) as (nrb3 & B3 & E3 & X3 & M3 & D3 & L3 & H3 & A3 & _ & C3); [rewrite G2; auto|].
  rewrite G1 in *. rewrite G2 in *. exists nrb1, nrb2, nrb3, B3. rewrite G1. rewrite D2, D1 in E3. split; auto. split; auto. split; auto. split; auto.
  split; [rewrite X3, X2, X1, !lset_lset; auto|]. split; [exact (moves_trans _ _ _ _ _ (moves_trans _ _ _ _ _ M1 M2) M3)|]. split; auto. split; [rewrite L3, L2, L1; auto|]. split; [rewrite H3, H2, H1; auto|]. auto.
Qed.
