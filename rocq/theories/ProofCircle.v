From Coq Require Import ZArith Reals List Lia Lra Bool.
From Verif Require Import Num Loop ModelBspline ModelBSp ModelNurbs ModelIga ModelRemove ModelTransform ModelCad Spec SpecTransform SumZ BPiece BLink ProofSpan
  SpecNurbs ProofNet ProofCall ProofNurbs ProofGeom ProofGeom2 ProofTransform ProofCad ExTac.
Import ListNotations.
Local Open Scope R_scope.

(** ** The axis of an arc with s segments: knots 0,0,0,1/s,1/s,...,1,1,1, degree 2. *)
Definition arc_axis (s : Z) : axis Rn :=
  mkAxis (N:=Rn) (2 * s + 1) (2 * (s + 1) + 2)
    (fun j => if (j <=? 0)%Z then 0 else if (2 * s + 3 <=? j)%Z then 1 else IZR ((j - 1) / 2) / IZR s).
Lemma arc_knot s j : (1 <= s)%Z -> (0 <= j <= 2 * s + 3)%Z -> (a_knots (arc_axis s) j : R) = IZR (Z.max 0 (Z.min s ((j - 1) / 2))) / IZR s.
Proof.
  intros Hs Hj. assert (0 < IZR s) by (apply IZR_lt; lia). unfold arc_axis; cbn [a_knots]. change (T Rn) with R. destruct (Z.leb_spec j 0).
  { assert (j = 0)%Z by lia. subst j. change ((0 - 1) / 2)%Z with (-1)%Z. rewrite Z.min_r by lia. change (Z.max 0 (-1)) with 0%Z. unfold Rdiv. ring. }
  destruct (Z.leb_spec (2 * s + 3) j).
  { assert (j = 2 * s + 3)%Z by lia. subst j. replace (2 * s + 3 - 1)%Z with ((s + 1) * 2)%Z by lia. rewrite Z.div_mul by lia. rewrite Z.min_l, Z.max_r by lia. field. lra. }
  assert (0 <= (j - 1) / 2 <= s)%Z. { split; [apply Z.div_pos; lia|]. apply Z.lt_succ_r, Z.div_lt_upper_bound; lia. }
  rewrite Z.min_r, Z.max_r by lia. reflexivity.
Qed.
Lemma arc_deg s : a_deg (arc_axis s) = 2%Z.
Proof. unfold a_deg, arc_axis. cbn [a_len a_size]. lia. Qed.
(** The four knots around segment i. *)
Lemma arc_knots_seg s i : (1 <= s)%Z -> (0 <= i < s)%Z ->
  a_knots (arc_axis s) (2 * i + 1) = IZR i / IZR s /\ a_knots (arc_axis s) (2 * i + 2) = IZR i / IZR s /\
  a_knots (arc_axis s) (2 * i + 3) = IZR (i + 1) / IZR s /\ a_knots (arc_axis s) (2 * i + 4) = IZR (i + 1) / IZR s.
Proof.
  intros Hs Hi. rewrite !arc_knot by lia.
  replace (2 * i + 1 - 1)%Z with (i * 2)%Z by lia. replace (2 * i + 2 - 1)%Z with (1 + i * 2)%Z by lia.
  replace (2 * i + 3 - 1)%Z with ((i + 1) * 2)%Z by lia. replace (2 * i + 4 - 1)%Z with (1 + (i + 1) * 2)%Z by lia.
  rewrite !Z.div_add, !Z.div_mul by lia. change (1 / 2)%Z with 0%Z. rewrite !Z.add_0_l. rewrite !Z.min_r, !Z.max_r by lia. auto.
Qed.
Lemma arc_wf s : (1 <= s)%Z -> wf_ax (spec_ax (arc_axis s)).
Proof.
  intros Hs. assert (P : 0 < IZR s) by (apply IZR_lt; lia). unfold wf_ax, spec_ax. cbn [x_n x_p x_U]. rewrite arc_deg. split; [lia|].
  change (a_size (arc_axis s) - 1)%Z with (2 * s + 1 - 1)%Z. replace (2 * s + 1 - 1)%Z with (2 * s)%Z by lia.
  assert (Hinc : forall i, (0 <= i < s)%Z -> IZR i / IZR s < IZR (i + 1) / IZR s).
  { intros i Hi. apply Rmult_lt_compat_r; [apply Rinv_0_lt_compat; auto|apply IZR_lt; lia]. }
  split; try lia.
  - intros i j Hi Hij Hj. rewrite !arc_knot by lia. apply Rmult_le_compat_r; [left; apply Rinv_0_lt_compat; auto|]. apply IZR_le.
    assert ((i - 1) / 2 <= (j - 1) / 2)%Z by (apply Z.div_le_mono; lia). lia.
  - destruct (arc_knots_seg s 0 Hs ltac:(lia)) as (_ & E2 & E3 & _). replace (2 * 0 + 2)%Z with 2%Z in E2 by lia. replace (2 * 0 + 3)%Z with (2 + 1)%Z in E3 by lia. rewrite E2, E3. apply Hinc. lia.
  - destruct (arc_knots_seg s (s - 1) Hs ltac:(lia)) as (_ & E2 & E3 & _). replace (2 * (s - 1) + 2)%Z with (2 * s)%Z in E2 by lia. replace (2 * (s - 1) + 3)%Z with (2 * s + 1)%Z in E3 by lia. rewrite E2, E3. apply Hinc. lia.
Qed.
Lemma arc_dom s u : (1 <= s)%Z -> in_domain (x_n (spec_ax (arc_axis s))) (x_p (spec_ax (arc_axis s))) (x_U (spec_ax (arc_axis s))) u <-> 0 <= u <= 1.
Proof.
  intros Hs. assert (P : 0 < IZR s) by (apply IZR_lt; lia). unfold in_domain, spec_ax. cbn [x_n x_p x_U]. rewrite arc_deg. rewrite !arc_knot; cbn [a_size arc_axis]; try lia.
  change ((2 - 1) / 2)%Z with 0%Z. replace (2 * s + 1 - 1 + 1 - 1)%Z with (s * 2)%Z by lia. rewrite Z.div_mul by lia. rewrite (Z.min_r s 0), (Z.min_l s s), !Z.max_r by lia.
  replace (0 / IZR s) with 0 by (unfold Rdiv; ring). replace (IZR s / IZR s) with 1 by (field; lra). tauto.
Qed.

(** Bernstein form on a segment whose end knots are double. *)
Lemma pc_bezier2 U k P u a b : U (k - 1)%Z = a -> U k = a -> U (k + 1)%Z = b -> U (k + 2)%Z = b -> a <> b ->
  let t := (u - a) / (b - a) in
  pc U k 2 P u = (1 - t) * (1 - t) * P (k - 2)%Z + 2 * t * (1 - t) * P (k - 1)%Z + t * t * P k.
Proof.
  intros H1 H2 H3 H4 Hab t. unfold pc. change (Z.to_nat 2) with 2%nat.
  assert (B0 : forall j, B U k 0 j u = if (j =? k)%Z then 1 else 0) by reflexivity.
  assert (B1 : B U k 1 k u = t /\ B U k 1 (k - 1) u = 1 - t /\ B U k 1 (k + 1) u = 0 /\ B U k 1 (k - 2) u = 0).
  { rewrite !B_S, !B0.
    replace (k + 1 =? k)%Z with false by (symmetry; apply Z.eqb_neq; lia). replace (k - 1 =? k)%Z with false by (symmetry; apply Z.eqb_neq; lia).
    replace (k - 1 + 1 =? k)%Z with true by (symmetry; apply Z.eqb_eq; lia). replace (k + 1 + 1 =? k)%Z with false by (symmetry; apply Z.eqb_neq; lia).
    replace (k - 2 =? k)%Z with false by (symmetry; apply Z.eqb_neq; lia). replace (k - 2 + 1 =? k)%Z with false by (symmetry; apply Z.eqb_neq; lia). rewrite Z.eqb_refl.
    rewrite !Rmult_0_r, !Rplus_0_r, !Rmult_1_r, !Rplus_0_l. 
    replace (k - 1 + 1)%Z with k by lia. replace (k + Z.of_nat 0 + 1)%Z with (k + 1)%Z by lia. replace (k - 1 + Z.of_nat 0 + 2)%Z with (k + 1)%Z by lia. rewrite H2, H3. unfold t. repeat split; try field; try lra. }
  destruct B1 as (B11 & B12 & B13 & B14).
  assert (S3 : forall f, sumZ (k - 2) k f = f (k - 2)%Z + f (k - 1)%Z + f k).
  { intros f. unfold sumZ. replace (k + 1 - (k - 2))%Z with 3%Z by lia. change (Z.to_nat 3) with 3%nat. cbn [sumN]. replace (k - 2 + 1)%Z with (k - 1)%Z by lia. replace (k - 1 + 1)%Z with k by lia. ring. }
  rewrite S3. rewrite !(B_S U k 1). change (Z.of_nat 1) with 1%Z.
  replace (k - 2 + 1 + 2)%Z with (k + 1)%Z by lia. replace (k - 1 + 1 + 2)%Z with (k + 2)%Z by lia. replace (k - 2 + 1 + 1)%Z with k by lia. replace (k - 1 + 1 + 1)%Z with (k + 1)%Z by lia.
  replace (k - 2 + 2)%Z with k by lia. replace (k - 1 + 2)%Z with (k + 1)%Z by lia. replace (k - 2 + 1)%Z with (k - 1)%Z by lia. replace (k - 1 + 1)%Z with k by lia.
  replace (k + 1 + 1)%Z with (k + 2)%Z by lia. rewrite B11, B12, B13, B14, H1, H2, H3, H4.
  rewrite !Rmult_0_r, !Rplus_0_r, !Rplus_0_l. unfold t. field. lra.
Qed.
(** Every parameter lies in a segment. *)
Lemma arc_segment s u : (1 <= s)%Z -> 0 <= u <= 1 -> exists i, (0 <= i < s)%Z /\ IZR i <= IZR s * u <= IZR (i + 1) /\
  active (x_n (spec_ax (arc_axis s))) (x_p (spec_ax (arc_axis s))) (x_U (spec_ax (arc_axis s))) u (2 * i + 2).
Proof.
  intros Hs Hu. assert (P : 0 < IZR s) by (apply IZR_lt; lia).
  assert (Q : forall i, IZR i / IZR s <= u <-> IZR i <= IZR s * u).
  { intros i. split; intros H. - apply Rmult_le_reg_r with (/ IZR s); [apply Rinv_0_lt_compat; auto|]. replace (IZR s * u * / IZR s) with u by (field; lra). exact H.
    - apply Rmult_le_reg_r with (IZR s); auto. replace (IZR i / IZR s * IZR s) with (IZR i) by (field; lra). lra. }
  assert (Q' : forall i, u < IZR i / IZR s <-> IZR s * u < IZR i).
  { intros i. destruct (Q i). split; intros; apply Rnot_le_lt; intro; [|]. - apply Rlt_not_le in H1. auto. - apply Rlt_not_le in H1. auto. }
  destruct (Req_EM_T u 1) as [->|Hne].
  - exists (s - 1)%Z. split; [lia|]. destruct (arc_knots_seg s (s - 1) Hs ltac:(lia)) as (_ & E2 & E3 & _). rewrite Rmult_1_r. split.
    + split; [apply IZR_le; lia|]. apply IZR_le. lia.
    + split; [unfold spec_ax; cbn [x_n x_p x_U]; rewrite arc_deg; unfold arc_axis; cbn [a_size]; lia|]. right. split; [unfold spec_ax; cbn [x_n x_p x_U]; unfold arc_axis; cbn [a_size]; lia|].
      change (1 = a_knots (arc_axis s) (2 * s + 1 - 1 + 1)). replace (2 * s + 1 - 1 + 1)%Z with (2 * (s - 1) + 3)%Z by lia. rewrite E3. replace (s - 1 + 1)%Z with s by lia. field. lra.
  - pose proof (archimed (IZR s * u)) as [A1 A2]. set (i := (up (IZR s * u) - 1)%Z).
    assert (I1 : IZR i <= IZR s * u) by (unfold i; rewrite minus_IZR; lra). assert (I2 : IZR s * u < IZR (i + 1)) by (unfold i; replace (up (IZR s * u) - 1 + 1)%Z with (up (IZR s * u)) by lia; lra).
    assert (Hi : (0 <= i < s)%Z).
    { split. - apply Z.lt_succ_r. unfold Z.succ. apply lt_IZR. apply Rle_lt_trans with (IZR s * u); auto. nra. - apply lt_IZR. apply Rle_lt_trans with (IZR s * u); auto. nra. }
    exists i. split; [exact Hi|]. split; [lra|]. destruct (arc_knots_seg s i Hs Hi) as (_ & E2 & E3 & _).
    split; [unfold spec_ax; cbn [x_n x_p x_U]; rewrite arc_deg; unfold arc_axis; cbn [a_size]; lia|]. left. unfold spec_ax. cbn [x_n x_p x_U]. replace (2 * i + 2 + 1)%Z with (2 * i + 3)%Z by lia. rewrite E2, E3. split; [apply Q; auto|apply Q'; auto].
Qed.
Lemma arc_curve s u P i : (1 <= s)%Z -> (0 <= i < s)%Z -> IZR i <= IZR s * u <= IZR (i + 1) ->
  let t := IZR s * u - IZR i in
  curve (x_n (spec_ax (arc_axis s))) (x_p (spec_ax (arc_axis s))) (x_U (spec_ax (arc_axis s))) P u =
    (1 - t) * (1 - t) * P (2 * i)%Z + 2 * t * (1 - t) * P (2 * i + 1)%Z + t * t * P (2 * i + 2)%Z.
Proof.
  intros Hs Hi Hu t. assert (HP : 0 < IZR s) by (apply IZR_lt; lia).
  assert (U01 : 0 <= u <= 1).
  { assert (0 <= IZR i) by (apply IZR_le; lia). assert (IZR (i + 1) <= IZR s) by (apply IZR_le; lia). split; nra. }
  destruct (arc_wf s Hs) as [_ W].
  assert (F : forall j, (0 <= j < s)%Z -> pc (x_U (spec_ax (arc_axis s))) (2 * j + 2) 2 P u =
     (1 - (IZR s * u - IZR j)) * (1 - (IZR s * u - IZR j)) * P (2 * j)%Z + 2 * (IZR s * u - IZR j) * (1 - (IZR s * u - IZR j)) * P (2 * j + 1)%Z + (IZR s * u - IZR j) * (IZR s * u - IZR j) * P (2 * j + 2)%Z).
  { intros j Hj. destruct (arc_knots_seg s j Hs Hj) as (E1 & E2 & E3 & E4).
    rewrite (pc_bezier2 _ _ P u (IZR j / IZR s) (IZR (j + 1) / IZR s)).
    - replace ((u - IZR j / IZR s) / (IZR (j + 1) / IZR s - IZR j / IZR s)) with (IZR s * u - IZR j) by (rewrite plus_IZR; field; lra).
      replace (2 * j + 2 - 2)%Z with (2 * j)%Z by lia. replace (2 * j + 2 - 1)%Z with (2 * j + 1)%Z by lia. reflexivity.
    - replace (2 * j + 2 - 1)%Z with (2 * j + 1)%Z by lia. exact E1.
    - exact E2.
    - replace (2 * j + 2 + 1)%Z with (2 * j + 3)%Z by lia. exact E3.
    - replace (2 * j + 2 + 2)%Z with (2 * j + 4)%Z by lia. exact E4.
    - apply Rlt_not_eq. apply Rmult_lt_compat_r; [apply Rinv_0_lt_compat; auto|apply IZR_lt; lia]. }
  destruct (arc_segment s u Hs U01) as (j & Hj & Hju & A).
  rewrite (curve_piece _ _ _ P u _ W A). change (x_p (spec_ax (arc_axis s))) with (a_deg (arc_axis s)). rewrite arc_deg, (F j Hj).
  destruct (Z.eq_dec i j) as [->|Hne]; [reflexivity|].
  (* u is the common end of two neighbouring segments *)
  assert (C : (j = i + 1 \/ i = j + 1)%Z).
  { assert (i < j + 1 + 1)%Z by (apply lt_IZR; rewrite plus_IZR; apply Rle_lt_trans with (IZR s * u); [lra|]; apply Rle_lt_trans with (IZR (j + 1)); lra).
    assert (j < i + 1 + 1)%Z by (apply lt_IZR; rewrite (plus_IZR (i + 1)); apply Rle_lt_trans with (IZR s * u); [lra|]; apply Rle_lt_trans with (IZR (i + 1)); lra). lia. }
  unfold t. destruct C as [->| ->].
  - assert (E : IZR s * u = IZR (i + 1)) by lra. rewrite E, plus_IZR. replace (2 * (i + 1))%Z with (2 * i + 2)%Z by lia. ring.
  - assert (E : IZR s * u = IZR (j + 1)) by lra. rewrite E, plus_IZR. replace (2 * (j + 1))%Z with (2 * j + 2)%Z by lia. ring.
Qed.

(** ** The control points *)
(** Row j of an arc: the point at angle start + j alpha, pushed out on odd rows. *)
Definition arc_row (r start al : R) (j c : Z) : R :=
  if (c =? 0)%Z then r * cos (start + IZR j * al) else if (c =? 1)%Z then r * sin (start + IZR j * al)
  else if (c =? 2)%Z then 0 else if Z.odd j then cos al else 1.

Lemma rotz (a : R) (M : matR) : rotate (N:=Rn) sin cos sqrt ident a (AxNum 2) = Ok M ->
  forall (P : Z -> R) c, (0 <= c < 4)%Z -> (apply4 (N:=Rn) M P c : R) = if (c =? 0)%Z then cos a * P 0%Z - sin a * P 1%Z else if (c =? 1)%Z then sin a * P 0%Z + cos a * P 1%Z else P c.
Proof.
  intros E P c Hc. destruct (Req_EM_T a 0) as [->|Ha].
  - rewrite rotate_0 in E. injection E as <-. rewrite ident_apply, cos_0, sin_0 by auto. four c Hc; cbn; match goal with |- @eq _ ?a ?b => change (@eq R a b) end; ring.
  - destruct (rotate_spec _ _ _ _ E Ha) as (u & (_ & Hu) & _ & HR). destruct (HR P) as [H1 H2]. destruct (Z.eq_dec c 3) as [->|]; [rewrite H2, ident_apply by lia; reflexivity|].
    rewrite H1 by lia. rewrite (rodrigues_ext u (e3 2) a _ P c); try lia.
    + assert (Hc' : (0 <= c < 3)%Z) by lia. clear - Hc'. three c Hc'; unfold rodrigues, dot3, cross, e3; cbn; match goal with |- @eq _ ?a ?b => change (@eq R a b) end; ring.
    + intros k Hk. rewrite Hu by auto. reflexivity.
    + intros k Hk. apply ident_apply. lia.
Qed.
Lemma rotz_ok a : exists M, rotate (N:=Rn) sin cos sqrt ident a (AxNum 2) = Ok M.
Proof. apply rotate_accepts. exists (e3 2). split; [lia|]. intros; reflexivity. Qed.

Lemma arc_first_row (r al : R) j : cos al <> 0 -> (0 <= j < 3)%Z -> forall c, (0 <= c < 4)%Z ->
  arc_first (N:=Rn) sin cos tan r al j c = arc_row r (- al) al j c.
Proof.
  intros Hc Hj c Hcc. assert (E : cos al * (r * cos al + r * sin al * tan al) = r).
  { unfold tan. pose proof (sc1 al). replace (cos al * (r * cos al + r * sin al * (sin al / cos al))) with (r * (cos al * cos al + sin al * sin al)) by (field; auto). rewrite H. ring. }
  assert (E0 : - al + 0 * al = - al) by ring. assert (E1 : - al + 1 * al = 0) by ring. assert (E2 : - al + 2 * al = al) by ring.
  three j Hj; four c Hcc; unfold arc_first, arc_row; cbn; rewrite ?E0, ?E1, ?E2, ?cos_neg, ?sin_neg, ?cos_0, ?sin_0, ?Rmult_1_r, ?Rmult_0_r; try reflexivity; try (rewrite E); try reflexivity; try ring.
Qed.
Lemma rot_row (r start al b : R) j (M : matR) : rotate (N:=Rn) sin cos sqrt ident b (AxNum 2) = Ok M ->
  forall f : Z -> R, (forall c, (0 <= c < 4)%Z -> f c = arc_row r start al j c) ->
  forall c, (0 <= c < 4)%Z -> apply4 (N:=Rn) M f c = arc_row r (start + b) al j c.
Proof.
  intros E f Hf c Hc. rewrite (rotz b M E) by auto. rewrite !Hf by lia. unfold arc_row.
  replace (start + b + IZR j * al) with (b + (start + IZR j * al)) by ring. set (z := start + IZR j * al). rewrite (cos_plus b z), (sin_plus b z).
  four c Hc; cbn; match goal with |- @eq _ ?a ?b => change (@eq R a b) end; try ring; reflexivity.
Qed.
Lemma arc_rows_spec (r start al : R) (R1 R2 : matR) junk2 s : (1 <= s)%Z -> cos al <> 0 ->
  rotate (N:=Rn) sin cos sqrt ident (al + start) (AxNum 2) = Ok R1 -> rotate (N:=Rn) sin cos sqrt ident (2 * al) (AxNum 2) = Ok R2 ->
  forall j c, (0 <= j <= 2 * s)%Z -> (0 <= c < 4)%Z -> arc_rows (N:=Rn) junk2 R1 R2 (arc_first (N:=Rn) sin cos tan r al) s j c = arc_row r start al j c.
Proof.
  intros Hs Hc E1 E2. unfold arc_rows.
  assert (G : forall j c, (0 <= j < 2 * s + 1)%Z -> (0 <= c < 4)%Z ->
    for_up 1 (s - 1) (fun i Cw => let n := (2 * i + 1)%Z in
      fun j c => if (j =? n)%Z then apply4 (N:=Rn) R2 (Cw (n - 2)%Z) c else if (j =? n + 1)%Z then apply4 (N:=Rn) R2 (Cw (n - 1)%Z) c else Cw j c)
      (fun i c => if (i <? 3)%Z then apply4 (N:=Rn) R1 (arc_first (N:=Rn) sin cos tan r al i) c else junk2 i c) j c = arc_row r start al j c).
  2: { intros j c Hj Hcc. apply G; lia. }
  floop (fun i (Cw : Z -> Z -> R) => forall j c, (0 <= j < 2 * i + 1)%Z -> (0 <= c < 4)%Z -> Cw j c = arc_row r start al j c).
  - intros j c Hj Hcc. destruct (Z.ltb_spec j 3); [|lia].
    rewrite (rot_row r (- al) al (al + start) j R1 E1) by (auto; intros; apply arc_first_row; auto; lia). f_equal. ring.
  - intros i Cw Hi IH j c Hj Hcc. cbn [n0]. cbv zeta.
    assert (SH : forall k, arc_row r (start + 2 * al) al (k - 2) c = arc_row r start al k c).
    { intros k. unfold arc_row. rewrite minus_IZR. replace (start + 2 * al + (IZR k - 2) * al) with (start + IZR k * al) by ring. replace (Z.odd (k - 2)) with (Z.odd k); auto. rewrite Z.odd_sub. cbn. destruct (Z.odd k); reflexivity. }
    destruct (Z.eqb_spec j (2 * i + 1)) as [->|].
    + rewrite (rot_row r start al (2 * al) (2 * i + 1 - 2) R2 E2) by (auto; intros; apply IH; lia). apply SH.
    + destruct (Z.eqb_spec j (2 * i + 1 + 1)) as [->|].
      * rewrite (rot_row r start al (2 * al) (2 * i + 1 - 1) R2 E2) by (auto; intros; apply IH; lia). replace (2 * i + 1 - 1)%Z with (2 * i + 1 + 1 - 2)%Z by lia. apply SH.
      * apply IH; lia.
  - intros t H j c Hj Hcc. apply H; lia.
Qed.

(** ** The number of segments *)
Lemma Rltb_case x y : (if Rltb x y then 1%Z else 0%Z) = 1%Z /\ x < y \/ (if Rltb x y then 1%Z else 0%Z) = 0%Z /\ y <= x.
Proof. destruct (Rltb x y) eqn:E; [left|right]; (split; [reflexivity|]); [apply Rltb_true in E|apply Rltb_false in E]; exact E. Qed.
Lemma arc_spans_spec sw : sw <> 0 -> Rabs sw <= 2 * PI -> let s := arc_spans (N:=Rn) PI sw in (1 <= s <= 4)%Z /\ Rabs (sw / IZR (2 * s)) <= PI / 4.
Proof.
  intros Hs Hb s. pose proof PI_RGT_0 as HP. unfold arc_spans in s. cbn [T n0 n1 nadd nsub nmul ndiv nleb nltb neqb neps nofZ Rn] in s. set (a := Rabs sw) in *.
  assert (Ha : 0 < a) by (apply Rabs_pos_lt; auto).
  assert (HH : s = 1%Z /\ a <= PI / 2 \/ s = 2%Z /\ a <= PI \/ s = 3%Z /\ a <= 3 * PI / 2 \/ s = 4%Z).
  { unfold s. assert (EN : nabs Rn sw = a) by apply nabs_R. rewrite !EN. destruct (Rltb_case 0 a) as [[E1 C1]|[E1 C1]], (Rltb_case (PI / 2) a) as [[E2 C2]|[E2 C2]], (Rltb_case PI a) as [[E3 C3]|[E3 C3]], (Rltb_case (3 * PI / 2) a) as [[E4 C4]|[E4 C4]];
      rewrite ?E1, ?E2, ?E3, ?E4; try (exfalso; lra); intuition. }
  assert (Q : forall k, (0 < k)%Z -> Rabs (sw / IZR k) = a / IZR k).
  { intros k Hk. unfold Rdiv, a. rewrite Rabs_mult. f_equal. apply Rabs_right. left. apply Rinv_0_lt_compat, IZR_lt; auto. }
  destruct HH as [[E H]|[[E H]|[[E H]|E]]]; rewrite E; (split; [lia|]); rewrite Q by lia; cbn; lra.
Qed.
Lemma arc_spans_zero : arc_spans (N:=Rn) PI 0 = 0%Z.
Proof.
  pose proof PI_RGT_0 as HP. unfold arc_spans. rn. rewrite Rabs_R0.
  destruct (Rltb_case 0 0) as [[E1 C1]|[E1 C1]], (Rltb_case (PI / 2) 0) as [[E2 C2]|[E2 C2]], (Rltb_case PI 0) as [[E3 C3]|[E3 C3]], (Rltb_case (3 * PI / 2) 0) as [[E4 C4]|[E4 C4]]; rewrite ?E1, ?E2, ?E3, ?E4; try (exfalso; lra); reflexivity.
Qed.
Lemma cos_quarter al : Rabs al <= PI / 4 -> 0 < cos al /\ 0 < cos (al / 2).
Proof.
  intros H. pose proof PI_RGT_0. assert (- (PI / 4) <= al <= PI / 4) by (unfold Rabs in H; destruct (Rcase_abs al); lra). split; apply cos_gt_0; lra.
Qed.

(** ** The full circle is the arc of four quarter turns *)
Lemma full_row r j c : (0 <= j <= 8)%Z -> (0 <= c < 4)%Z -> (circle_full (N:=Rn) sqrt r j c : R) = arc_row r 0 (PI / 4) j c.
Proof.
  intros Hj Hc. pose proof PI_RGT_0.
  assert (S2 : sqrt 2 * sqrt 2 = 2) by (apply sqrt_sqrt; lra).
  assert (S2p : 0 < sqrt 2) by (apply sqrt_lt_R0; lra).
  assert (E : sqrt 2 / 2 = 1 / sqrt 2) by (apply Rmult_eq_reg_r with (2 * sqrt 2); [|nra]; field_simplify; nra).
  assert (C1 : cos (PI / 4) = sqrt 2 / 2) by (rewrite cos_PI4, E; reflexivity).
  assert (S1 : sin (PI / 4) = sqrt 2 / 2) by (rewrite sin_PI4, E; reflexivity).
  assert (T0 : cos 0 = 1 /\ sin 0 = 0) by (split; [apply cos_0|apply sin_0]).
  assert (T2 : cos (PI / 2) = 0 /\ sin (PI / 2) = 1) by (split; [apply cos_PI2|apply sin_PI2]).
  assert (T4 : cos PI = -1 /\ sin PI = 0) by (split; [apply cos_PI|apply sin_PI]).
  (* eighth turns *)
  assert (AD : forall k x y, cos (k * (PI / 4)) = x -> sin (k * (PI / 4)) = y ->
     cos ((k + 2) * (PI / 4)) = - y /\ sin ((k + 2) * (PI / 4)) = x).
  { intros k x y Hx Hy. replace ((k + 2) * (PI / 4)) with (k * (PI / 4) + PI / 2) by field. rewrite cos_plus, sin_plus, Hx, Hy. destruct T2 as [-> ->]. split; ring. }
  assert (A0 : cos (0 * (PI / 4)) = 1 /\ sin (0 * (PI / 4)) = 0) by (rewrite Rmult_0_l; auto).
  assert (A1 : cos (1 * (PI / 4)) = sqrt 2 / 2 /\ sin (1 * (PI / 4)) = sqrt 2 / 2) by (rewrite Rmult_1_l; auto).
  destruct A0 as [A0 B0], A1 as [A1 B1].
  destruct (AD _ _ _ A0 B0) as [A2 B2]. destruct (AD _ _ _ A1 B1) as [A3 B3]. destruct (AD _ _ _ A2 B2) as [A4 B4]. destruct (AD _ _ _ A3 B3) as [A5 B5].
  destruct (AD _ _ _ A4 B4) as [A6 B6]. destruct (AD _ _ _ A5 B5) as [A7 B7]. destruct (AD _ _ _ A6 B6) as [A8 B8].
  assert (Ej : (j = 0 \/ j = 1 \/ j = 2 \/ j = 3 \/ j = 4 \/ j = 5 \/ j = 6 \/ j = 7 \/ j = 8)%Z) by lia. clear Hj AD.
  assert (RW : forall a b c0 d, cos a = c0 -> sin a = d -> b = a -> cos b = c0 /\ sin b = d) by (intros; subst; auto).
  unfold arc_row, circle_full. rewrite C1.
  destruct Ej as [->|[->|[->|[->|[->|[->|[->|[->| ->]]]]]]]];
  [ destruct (RW _ (0 + IZR 0 * (PI / 4)) _ _ A0 B0 ltac:(ring)) as [CC SS]
  | destruct (RW _ (0 + IZR 1 * (PI / 4)) _ _ A1 B1 ltac:(ring)) as [CC SS]
  | destruct (RW _ (0 + IZR 2 * (PI / 4)) _ _ A2 B2 ltac:(ring)) as [CC SS]
  | destruct (RW _ (0 + IZR 3 * (PI / 4)) _ _ A3 B3 ltac:(ring)) as [CC SS]
  | destruct (RW _ (0 + IZR 4 * (PI / 4)) _ _ A4 B4 ltac:(ring)) as [CC SS]
  | destruct (RW _ (0 + IZR 5 * (PI / 4)) _ _ A5 B5 ltac:(ring)) as [CC SS]
  | destruct (RW _ (0 + IZR 6 * (PI / 4)) _ _ A6 B6 ltac:(ring)) as [CC SS]
  | destruct (RW _ (0 + IZR 7 * (PI / 4)) _ _ A7 B7 ltac:(ring)) as [CC SS]
  | destruct (RW _ (0 + IZR 8 * (PI / 4)) _ _ A8 B8 ltac:(ring)) as [CC SS] ];
  rewrite CC, SS; clear - Hc;
  repeat match goal with |- context [full_x ?k] => let v := eval vm_compute in (full_x k) in change (full_x k) with v end;
  repeat match goal with |- context [full_y ?k] => let v := eval vm_compute in (full_y k) in change (full_y k) with v end;
  four c Hc; cbn; field.
Qed.

(** ** Points of the arc *)
(** The angle reached at parameter u on segment i. *)
Definition seg_angle (start al : R) (s i : Z) (u : R) : R :=
  start + IZR (2 * i + 1) * al + 2 * atan ((2 * (IZR s * u - IZR i) - 1) * tan (al / 2)).
Lemma seg_point al t x0 : 0 < cos (al / 2) ->
  let q := (2 * t - 1) * tan (al / 2) in
  let ph := x0 + al + 2 * atan q in
  let w := (1 - t) * (1 - t) + 2 * t * (1 - t) * cos al + t * t in
  0 < w /\
  (1 - t) * (1 - t) * cos x0 + 2 * t * (1 - t) * cos (x0 + al) + t * t * cos (x0 + 2 * al) = w * cos ph /\
  (1 - t) * (1 - t) * sin x0 + 2 * t * (1 - t) * sin (x0 + al) + t * t * sin (x0 + 2 * al) = w * sin ph.
Proof.
  intros Hc q ph w. set (c := cos (al / 2)) in *. set (d := sin (al / 2)).
  assert (CD : d * d = 1 - c * c) by (apply sc1).
  assert (Ca : cos al = 2 * c * c - 1) by (replace al with (2 * (al / 2)) at 1 by field; rewrite cos_2a_cos; reflexivity).
  assert (Sa : sin al = 2 * d * c) by (replace al with (2 * (al / 2)) at 1 by field; rewrite sin_2a; reflexivity).
  assert (Eq : q = (2 * t - 1) * d / c) by (unfold q, tan; fold c d; field; lra).
  assert (Hq : 0 < 1 + q * q) by nra.
  assert (Ew : w = c * c * (1 + q * q)).
  { unfold w. rewrite Ca, Eq. field_simplify; [|lra]. replace (d ^ 2) with (1 - c * c) by (rewrite <- CD; ring). field. }
  assert (Ct : cos (2 * atan q) = (1 - q * q) / (1 + q * q) /\ sin (2 * atan q) = 2 * q / (1 + q * q)).
  { assert (Ha : cos (atan q) <> 0) by (pose proof (atan_bound q); apply Rgt_not_eq, cos_gt_0; lra).
    assert (Et : sin (atan q) = q * cos (atan q)) by (pose proof (tan_atan q) as E; unfold tan in E; rewrite <- E at 2; field; auto).
    assert (E1 : cos (atan q) * cos (atan q) * (1 + q * q) = 1).
    { pose proof (sc1 (atan q)) as E. rewrite Et in E. nra. }
    assert (K : cos (atan q) * cos (atan q) = 1 / (1 + q * q)) by (apply Rmult_eq_reg_r with (1 + q * q); [rewrite E1; field; lra|lra]).
    rewrite cos_2a, sin_2a, Et. split.
    - replace (cos (atan q) * cos (atan q) - q * cos (atan q) * (q * cos (atan q))) with (cos (atan q) * cos (atan q) * (1 - q * q)) by ring. rewrite K. field. lra.
    - replace (2 * (q * cos (atan q)) * cos (atan q)) with (2 * q * (cos (atan q) * cos (atan q))) by ring. rewrite K. field. lra. }
  destruct Ct as [Ct St].
  assert (WC : w * cos (2 * atan q) = c * c * (1 - q * q)) by (rewrite Ew, Ct; field; lra).
  assert (WS : w * sin (2 * atan q) = c * c * (2 * q)) by (rewrite Ew, St; field; lra).
  assert (CQ : c * q = (2 * t - 1) * d) by (rewrite Eq; field; lra).
  assert (WC' : w * cos (2 * atan q) = c * c - (2 * t - 1) * (2 * t - 1) * (d * d)) by (rewrite WC; replace (c * c * (1 - q * q)) with (c * c - (c * q) * (c * q)) by ring; rewrite CQ; ring).
  assert (WS' : w * sin (2 * atan q) = 2 * (2 * t - 1) * d * c) by (rewrite WS; replace (c * c * (2 * q)) with (2 * c * (c * q)) by ring; rewrite CQ; ring).
  split; [rewrite Ew; nra|].
  assert (P1 : cos ph = cos (x0 + al) * cos (2 * atan q) - sin (x0 + al) * sin (2 * atan q)) by (unfold ph; apply cos_plus).
  assert (P2 : sin ph = sin (x0 + al) * cos (2 * atan q) + cos (x0 + al) * sin (2 * atan q)) by (unfold ph; apply sin_plus).
  rewrite P1, P2. set (y := x0 + al). replace x0 with (y - al) by (unfold y; ring). replace (y - al + 2 * al) with (y + al) by ring.
  rewrite cos_minus, cos_plus, sin_minus, sin_plus, Ca, Sa.
  split.
  - replace (w * (cos y * cos (2 * atan q) - sin y * sin (2 * atan q))) with (cos y * (w * cos (2 * atan q)) - sin y * (w * sin (2 * atan q))) by ring. rewrite WC', WS', CD. ring.
  - replace (w * (sin y * cos (2 * atan q) + cos y * sin (2 * atan q))) with (sin y * (w * cos (2 * atan q)) + cos y * (w * sin (2 * atan q))) by ring. rewrite WC', WS', CD. ring.
Qed.

(** The angle as a function of the parameter: on segment i (of s) seg_angle. *)
Definition seg_of (s : Z) (u : R) : Z := Z.max 0 (Z.min (s - 1) (up (IZR s * u) - 1)).
Definition arc_angle (start al : R) (s : Z) (u : R) : R := seg_angle start al s (seg_of s u) u.
Lemma seg_of_spec s u : (1 <= s)%Z -> 0 <= u <= 1 -> (0 <= seg_of s u < s)%Z /\ IZR (seg_of s u) <= IZR s * u <= IZR (seg_of s u + 1).
Proof.
  intros Hs Hu. assert (P : 0 < IZR s) by (apply IZR_lt; lia). unfold seg_of. pose proof (archimed (IZR s * u)) as [A1 A2].
  assert (U1 : (0 < up (IZR s * u))%Z) by (apply lt_IZR; nra).
  assert (U2 : (up (IZR s * u) <= s + 1)%Z) by (apply le_IZR; rewrite plus_IZR; nra).
  destruct (Z.eq_dec (up (IZR s * u)) (s + 1)) as [E|E].
  - rewrite E. replace (s + 1 - 1)%Z with s by lia. rewrite Z.min_l, Z.max_r by lia. split; [lia|]. rewrite E, plus_IZR in A1, A2. rewrite minus_IZR. replace (s - 1 + 1)%Z with s by lia. nra.
  - rewrite Z.min_r, Z.max_r by lia. split; [lia|]. replace (up (IZR s * u) - 1 + 1)%Z with (up (IZR s * u)) by lia. rewrite minus_IZR. lra.
Qed.
Lemma atan_tan_half al : Rabs al <= PI / 4 -> atan (tan (al / 2)) = al / 2.
Proof. intros H. pose proof PI_RGT_0. apply atan_tan. assert (- (PI / 4) <= al <= PI / 4) by (unfold Rabs in H; destruct (Rcase_abs al); lra). lra. Qed.
Lemma seg_ends start al s i : Rabs al <= PI / 4 -> forall u,
  (IZR s * u = IZR i -> seg_angle start al s i u = start + IZR (2 * i) * al) /\ (IZR s * u = IZR (i + 1) -> seg_angle start al s i u = start + IZR (2 * i + 2) * al).
Proof.
  intros H u. unfold seg_angle. split; intros E; rewrite E, ?plus_IZR, ?mult_IZR.
  - replace ((2 * (IZR i - IZR i) - 1) * tan (al / 2)) with (- tan (al / 2)) by ring. rewrite atan_opp, atan_tan_half by auto. field.
  - replace ((2 * (IZR i + 1 - IZR i) - 1) * tan (al / 2)) with (tan (al / 2)) by ring. rewrite atan_tan_half by auto. field.
Qed.
(** Any segment containing the parameter gives the same angle. *)
Lemma arc_angle_seg start al s i u : (1 <= s)%Z -> Rabs al <= PI / 4 -> 0 <= u <= 1 -> (0 <= i < s)%Z -> IZR i <= IZR s * u <= IZR (i + 1) ->
  arc_angle start al s u = seg_angle start al s i u.
Proof.
  intros Hs Ha Hu Hi Hiu. unfold arc_angle. destruct (seg_of_spec s u Hs Hu) as [Hj Hju]. set (j := seg_of s u) in *.
  destruct (Z.eq_dec i j) as [->|Hne]; [reflexivity|].
  assert (C : (j = i + 1 \/ i = j + 1)%Z).
  { assert (i < j + 1 + 1)%Z by (apply lt_IZR; rewrite plus_IZR; apply Rle_lt_trans with (IZR s * u); [lra|]; apply Rle_lt_trans with (IZR (j + 1)); lra).
    assert (j < i + 1 + 1)%Z by (apply lt_IZR; rewrite (plus_IZR (i + 1)); apply Rle_lt_trans with (IZR s * u); [lra|]; apply Rle_lt_trans with (IZR (i + 1)); lra). lia. }
  clearbody j. destruct C as [->| ->].
  - assert (E : IZR s * u = IZR (i + 1)) by lra. rewrite (proj2 (seg_ends start al s i Ha u) E), (proj1 (seg_ends start al s (i + 1) Ha u) E). replace (2 * (i + 1))%Z with (2 * i + 2)%Z by lia. reflexivity.
  - assert (E : IZR s * u = IZR (j + 1)) by lra. rewrite (proj2 (seg_ends start al s j Ha u) E), (proj1 (seg_ends start al s (j + 1) Ha u) E). replace (2 * (j + 1))%Z with (2 * j + 2)%Z by lia. reflexivity.
Qed.
Lemma seg_mono start al s i u v : al <> 0 -> Rabs al <= PI / 4 -> IZR s * u < IZR s * v -> 0 < al * (seg_angle start al s i v - seg_angle start al s i u).
Proof.
  intros Hal Ha Huv. pose proof PI_RGT_0. assert (Hb : - (PI / 4) <= al <= PI / 4) by (unfold Rabs in Ha; destruct (Rcase_abs al); lra).
  unfold seg_angle. set (qu := (2 * (IZR s * u - IZR i) - 1)). set (qv := (2 * (IZR s * v - IZR i) - 1)). assert (Q : qu < qv) by (unfold qu, qv; lra).
  replace (al * _) with (2 * (al * (atan (qv * tan (al / 2)) - atan (qu * tan (al / 2))))) by ring. apply Rmult_lt_0_compat; [lra|].
  destruct (Rlt_dec 0 al) as [Hp|Hn].
  - assert (T : 0 < tan (al / 2)) by (apply tan_gt_0; lra). assert (atan (qu * tan (al / 2)) < atan (qv * tan (al / 2))) by (apply atan_increasing; nra). nra.
  - assert (T : tan (al / 2) < 0) by (apply tan_lt_0; lra). assert (atan (qv * tan (al / 2)) < atan (qu * tan (al / 2))) by (apply atan_increasing; nra). nra.
Qed.
Lemma seg_within start al s i u : Rabs al <= PI / 4 -> (0 < s)%Z -> IZR i <= IZR s * u <= IZR (i + 1) ->
  0 <= al * (seg_angle start al s i u - (start + IZR (2 * i) * al)) /\ 0 <= al * ((start + IZR (2 * i + 2) * al) - seg_angle start al s i u).
Proof.
  intros Ha Hs Hu. assert (P : 0 < IZR s) by (apply IZR_lt; lia). destruct (Req_EM_T al 0) as [->|Hal]; [rewrite !Rmult_0_l; lra|].
  assert (E : forall k, IZR s * (IZR k / IZR s) = IZR k) by (intros; field; lra). split.
  - rewrite <- (proj1 (seg_ends start al s i Ha (IZR i / IZR s)) (E i)). destruct (Req_EM_T (IZR s * u) (IZR i)) as [X|X].
    + rewrite (proj1 (seg_ends start al s i Ha u) X), (proj1 (seg_ends start al s i Ha (IZR i / IZR s)) (E i)). lra.
    + left. apply seg_mono; auto. rewrite E. lra.
  - rewrite <- (proj2 (seg_ends start al s i Ha (IZR (i + 1) / IZR s)) (E (i + 1)%Z)). destruct (Req_EM_T (IZR s * u) (IZR (i + 1))) as [X|X].
    + rewrite (proj2 (seg_ends start al s i Ha u) X), (proj2 (seg_ends start al s i Ha (IZR (i + 1) / IZR s)) (E (i + 1)%Z)). lra.
    + left. apply seg_mono; auto. rewrite E. lra.
Qed.
Lemma arc_angle_mono start al s u v : (1 <= s)%Z -> al <> 0 -> Rabs al <= PI / 4 -> 0 <= u -> u < v -> v <= 1 -> 0 < al * (arc_angle start al s v - arc_angle start al s u).
Proof.
  intros Hs Hal Ha H0 Huv H1. assert (P : 0 < IZR s) by (apply IZR_lt; lia).
  destruct (seg_of_spec s u Hs ltac:(lra)) as [Hi Hiu]. destruct (seg_of_spec s v Hs ltac:(lra)) as [Hj Hjv].
  unfold arc_angle. set (i := seg_of s u) in *. set (j := seg_of s v) in *. clearbody i j.
  assert (SU : IZR s * u < IZR s * v) by (apply Rmult_lt_compat_l; auto).
  destruct (Z_lt_le_dec i j) as [L|L].
  - destruct (seg_within start al s i u Ha ltac:(lia) Hiu) as [_ A2]. destruct (seg_within start al s j v Ha ltac:(lia) Hjv) as [B1 _].
    replace (al * (seg_angle start al s j v - seg_angle start al s i u)) with (al * (seg_angle start al s j v - (start + IZR (2 * j) * al)) + al * ((start + IZR (2 * i + 2) * al) - seg_angle start al s i u) + IZR (2 * j - (2 * i + 2)) * (al * al)) by (rewrite minus_IZR; ring).
    assert (AA : 0 < al * al) by nra.
    destruct (Z.eq_dec j (i + 1)) as [->|].
    + replace (2 * (i + 1) - (2 * i + 2))%Z with 0%Z by lia.
      destruct (Req_EM_T (IZR s * u) (IZR (i + 1))) as [X|X].
      * assert (0 < al * (seg_angle start al s (i + 1) v - (start + IZR (2 * (i + 1)) * al))).
        { rewrite <- (proj1 (seg_ends start al s (i + 1) Ha u) X). apply seg_mono; auto. }
        lra.
      * assert (0 < al * (start + IZR (2 * i + 2) * al - seg_angle start al s i u)).
        { assert (E : IZR s * (IZR (i + 1) / IZR s) = IZR (i + 1)) by (field; lra). rewrite <- (proj2 (seg_ends start al s i Ha (IZR (i + 1) / IZR s)) E). apply seg_mono; auto. rewrite E. lra. }
        lra.
    + assert (0 < IZR (2 * j - (2 * i + 2))) by (apply IZR_lt; lia). nra.
  - assert (j < i -> False)%Z.
    { intros X. assert (IZR (j + 1) <= IZR i) by (apply IZR_le; lia). lra. }
    assert (j = i) by lia. subst j. apply seg_mono; auto.
Qed.

(** ** The circle *)
Definition circ (v : Z -> R) (r ph : R) (c : Z) : R := v c + (if (c =? 0)%Z then r * cos ph else if (c =? 1)%Z then r * sin ph else 0).
Lemma arc_shows nrb r start al s (v : Z -> R) : (1 <= s)%Z -> Rabs al <= PI / 4 -> n_axes nrb = [arc_axis s] -> n_comp nrb = 4%Z ->
  (forall j, (0 <= j <= 2 * s)%Z -> n_arr nrb [j] 3%Z = arc_row r start al j 3 /\ forall c, (0 <= c < 3)%Z -> n_arr nrb [j] c = arc_row r start al j c + v c * arc_row r start al j 3) ->
  weight_ok nrb /\ positive_weights nrb /\ shows nrb (fun us c => circ v r (arc_angle start al s (hd 0 us)) c).
Proof.
  intros Hs Ha EA EC HN. destruct (cos_quarter al Ha) as [C1 C2].
  assert (W : wf_nurbs nrb) by (apply (built_wf [arc_axis s]); [cbn; lia|constructor; [apply arc_wf; auto|constructor]|exact EA|exact EC]).
  assert (PW : positive_weights nrb).
  { intros idx Hi. unfold spec_axes in Hi. rewrite EA in Hi. apply in_net_1 in Hi. destruct Hi as (j & -> & Hj). cbn [x_n spec_ax arc_axis a_size] in Hj.
    unfold n_weights. destruct (HN j ltac:(lia)) as [-> _]. unfold arc_row. cbn. destruct (Z.odd j); lra. }
  split; [intros us D; apply Rgt_not_eq, weight_pos; auto|]. split; [exact PW|].
  apply shows_intro; auto. intros us c D Hc. unfold spec_axes in D. rewrite EA in D. apply in_box_1 in D. destruct D as (u & -> & D). apply (arc_dom s u Hs) in D. cbn [hd].
  destruct (arc_segment s u Hs D) as (i & Hi & Hiu & _). set (t := IZR s * u - IZR i).
  assert (CV : forall c, hom nrb c [u] = (1 - t) * (1 - t) * n_arr nrb [2 * i]%Z c + 2 * t * (1 - t) * n_arr nrb [2 * i + 1]%Z c + t * t * n_arr nrb [2 * i + 2]%Z c).
  { intros k. unfold hom, spec_axes. rewrite EA.
    change (tsum (map spec_ax [arc_axis s]) (fun idx => n_arr nrb idx k) [u]) with (curve (x_n (spec_ax (arc_axis s))) (x_p (spec_ax (arc_axis s))) (x_U (spec_ax (arc_axis s))) (fun i => n_arr nrb [i] k) u).
    apply arc_curve; auto. }
  set (x0 := start + IZR (2 * i) * al).
  destruct (seg_point al t x0 C2) as (Hw & HC & HS). cbv zeta in *. set (w := (1 - t) * (1 - t) + 2 * t * (1 - t) * cos al + t * t) in *.
  assert (PH : x0 + al + 2 * atan ((2 * t - 1) * tan (al / 2)) = arc_angle start al s u).
  { rewrite (arc_angle_seg start al s i u) by auto. unfold seg_angle, x0, t. rewrite plus_IZR, mult_IZR. ring. }
  rewrite PH in *. set (ph := arc_angle start al s u) in *.
  destruct (HN (2 * i)%Z ltac:(lia)) as [N3 N]. destruct (HN (2 * i + 1)%Z ltac:(lia)) as [N3' N']. destruct (HN (2 * i + 2)%Z ltac:(lia)) as [N3'' N''].
  assert (O1 : Z.odd (2 * i) = false) by (rewrite Z.odd_mul; reflexivity). assert (O2 : Z.odd (2 * i + 1) = true) by (rewrite Z.odd_add, O1; reflexivity). assert (O3 : Z.odd (2 * i + 2) = false) by (rewrite Z.odd_add, O1; reflexivity).
  assert (EX1 : start + IZR (2 * i + 1) * al = x0 + al) by (unfold x0; rewrite plus_IZR; ring). assert (EX2 : start + IZR (2 * i + 2) * al = x0 + 2 * al) by (unfold x0; rewrite plus_IZR; ring).
  assert (W3 : hom nrb 3 [u] = w).
  { rewrite CV, N3, N3', N3''. unfold arc_row. cbn [Z.eqb Pos.eqb]. rewrite O1, O2, O3. unfold w. ring. }
  unfold pt. rewrite W3. apply Rmult_eq_reg_r with w; [|lra]. replace (hom nrb c [u] / w * w) with (hom nrb c [u]) by (field; lra).
  rewrite CV, N, N', N'' by auto. unfold circ.
  assert (WW : forall z, (1 - t) * (1 - t) * (z * arc_row r start al (2 * i) 3) + 2 * t * (1 - t) * (z * arc_row r start al (2 * i + 1) 3) + t * t * (z * arc_row r start al (2 * i + 2) 3) = z * w).
  { intros z. unfold arc_row. cbn [Z.eqb Pos.eqb]. rewrite O1, O2, O3. unfold w. ring. }
  match goal with |- ?L = (?a + ?b) * w => transitivity (a * w + b * w); [|ring] end. rewrite <- (WW (v c)).
  enough (E : (1 - t) * (1 - t) * arc_row r start al (2 * i) c + 2 * t * (1 - t) * arc_row r start al (2 * i + 1) c + t * t * arc_row r start al (2 * i + 2) c = (if (c =? 0)%Z then r * cos ph else if (c =? 1)%Z then r * sin ph else 0) * w) by (rewrite <- E; ring).
  unfold arc_row. fold x0. rewrite EX1, EX2. clear - HC HS Hc. three c Hc; cbn [Z.eqb Pos.eqb].
  - replace (r * cos ph * w) with (r * (w * cos ph)) by ring. rewrite <- HC. ring.
  - replace (r * sin ph * w) with (r * (w * sin ph)) by ring. rewrite <- HS. ring.
  - ring.
Qed.

Theorem circle_spec r center ang junk junk2 v : let start := fst (ang_bounds (N:=Rn) PI ang) in let sw := snd (ang_bounds (N:=Rn) PI ang) - start in
  sw <> 0 -> Rabs sw <= 2 * PI ->
  match center with Some p => meant 0 (fun x i => if (i =? 0)%Z then x else 0) p None v | None => forall i, v i = 0 end ->
  exists nrb s, circle (N:=Rn) sin cos tan sqrt PI junk junk2 r center ang = Ok nrb /\ (1 <= s <= 4)%Z /\ Rabs sw <= IZR s * (PI / 2) /\ n_axes nrb = [arc_axis s] /\
    (forall j, (0 <= j <= 2 * s)%Z -> n_weights (N:=Rn) nrb [j] = if Z.odd j then cos (sw / IZR (2 * s)) else 1) /\
    weight_ok nrb /\ positive_weights nrb /\
    shows nrb (fun us c => circ v r (arc_angle start (sw / IZR (2 * s)) s (hd 0 us)) c).
Proof.
  intros start sw Hsw Hb Hv. pose proof PI_RGT_0 as HP.
  (* the rows before the centre *)
  assert (ST : exists s Cw, (1 <= s <= 4)%Z /\ Rabs (sw / IZR (2 * s)) <= PI / 4 /\
     (match ang with
      | AngNone => Ok (4%Z, circle_full (N:=Rn) sqrt r)
      | _ => let '(start, end_) := ang_bounds (N:=Rn) PI ang in
             let sweep := nsub Rn end_ start in let spans := arc_spans (N:=Rn) PI sweep in
             if (spans =? 0)%Z then Raise ValueError else
             let alpha := ndiv Rn sweep (nofZ Rn (2 * spans)) in
             let* R1 := rotate (N:=Rn) sin cos sqrt ident (nadd Rn alpha start) (AxNum 2) in
             let* R2 := rotate (N:=Rn) sin cos sqrt ident (nmul Rn (nofZ Rn 2) alpha) (AxNum 2) in
             Ok (spans, arc_rows (N:=Rn) junk2 R1 R2 (arc_first (N:=Rn) sin cos tan r alpha) spans)
      end = Ok (s, Cw)) /\
     forall j c, (0 <= j <= 2 * s)%Z -> (0 <= c < 4)%Z -> (Cw j c : R) = arc_row r start (sw / IZR (2 * s)) j c).
  { assert (GEN : exists s Cw, (1 <= s <= 4)%Z /\ Rabs (sw / IZR (2 * s)) <= PI / 4 /\
       (let spans := arc_spans (N:=Rn) PI sw in
             if (spans =? 0)%Z then Raise ValueError else
             let alpha := ndiv Rn sw (nofZ Rn (2 * spans)) in
             let* R1 := rotate (N:=Rn) sin cos sqrt ident (nadd Rn alpha start) (AxNum 2) in
             let* R2 := rotate (N:=Rn) sin cos sqrt ident (nmul Rn (nofZ Rn 2) alpha) (AxNum 2) in
             Ok (spans, arc_rows (N:=Rn) junk2 R1 R2 (arc_first (N:=Rn) sin cos tan r alpha) spans)) = Ok (s, Cw) /\
       forall j c, (0 <= j <= 2 * s)%Z -> (0 <= c < 4)%Z -> (Cw j c : R) = arc_row r start (sw / IZR (2 * s)) j c).
    { destruct (arc_spans_spec sw Hsw Hb) as [S1 S2]. cbv zeta in *. set (s := arc_spans (N:=Rn) PI sw) in *. clearbody s.
      destruct (Z.eqb_spec s 0); [lia|]. set (al := sw / IZR (2 * s)) in *. change (ndiv Rn sw (nofZ Rn (2 * s))) with al.
      destruct (rotz_ok (al + start)) as [R1 E1]. destruct (rotz_ok (2 * al)) as [R2 E2]. destruct (cos_quarter al S2).
      exists s, (arc_rows (N:=Rn) junk2 R1 R2 (arc_first (N:=Rn) sin cos tan r al) s). split; [auto|]. split; [auto|]. split.
      - change (nadd Rn al start) with (al + start). change (nmul Rn (nofZ Rn 2) al) with (2 * al). rewrite E1. cbn [bind]. rewrite E2. reflexivity.
      - intros j c Hj Hc. apply arc_rows_spec; auto; [lia|]. apply Rgt_not_eq. assumption. }
    destruct ang as [|e|s0 e0].
    - exists 4%Z, (circle_full (N:=Rn) sqrt r). split; [lia|]. assert (E : sw / IZR (2 * 4) = PI / 4) by (unfold sw, start; cbn; field). rewrite E. split; [rewrite Rabs_right; lra|]. split; [reflexivity|].
      intros j c Hj Hc. rewrite full_row by (auto; lia). reflexivity.
    - exact GEN.
    - exact GEN. }
  destruct ST as (s & Cw & Hs & Ha & E0 & HC). unfold circle.
  assert (EC : exists Cw', (match center with None => Ok Cw | Some c => let* M := translate ident c None in Ok (fun i => apply4 (N:=Rn) M (Cw i)) end) = Ok Cw' /\
    forall j, (0 <= j <= 2 * s)%Z -> (Cw' j 3%Z : R) = arc_row r start (sw / IZR (2 * s)) j 3 /\ forall c, (0 <= c < 3)%Z -> (Cw' j c : R) = arc_row r start (sw / IZR (2 * s)) j c + v c * arc_row r start (sw / IZR (2 * s)) j 3).
  { destruct center as [p|].
    - destruct (accepts_spec ident p None (ex_intro _ v Hv)) as [[M E] _]. rewrite E. cbn [bind]. eexists. split; [reflexivity|].
      destruct (translate_spec _ _ _ _ E) as (v' & Hm' & HT). intros j Hj. destruct (HT (Cw j)) as [T1 T2]. cbv zeta in *. split.
      + rewrite T2, ident_apply, HC by lia. reflexivity.
      + intros c Hc. rewrite T1, !ident_apply, !HC by lia. f_equal. f_equal. clear - Hv Hm' Hc. destruct p as [x|a]; cbn in Hv, Hm'.
        * rewrite Hv, Hm' by auto. reflexivity.
        * rewrite (proj2 Hv), (proj2 Hm') by auto. reflexivity.
    - exists Cw. split; [reflexivity|]. intros j Hj. split; [apply HC; lia|]. intros c Hc. rewrite HC, Hv by lia. ring. }
  destruct EC as (Cw' & E1 & HC').
  destruct (init_built junk [arc_axis s] 4 (fun idx => Cw' (nth 0 idx 0%Z))) as (nrb & EI & EA & ECp & EN).
  { cbn; lia. } { constructor; [apply arc_wf; lia|constructor]. } { lia. }
  exists nrb, s. split.
  { match goal with |- bind ?a _ = _ => replace a with (Ok (s, Cw)) by (symmetry; exact E0) end. cbn [bind]. rewrite E1. cbn [bind]. exact EI. }
  split; [exact Hs|]. split.
  { assert (Q : Rabs (sw / IZR (2 * s)) = Rabs sw / IZR (2 * s)).
    { unfold Rdiv. rewrite Rabs_mult. f_equal. apply Rabs_right. left. apply Rinv_0_lt_compat, IZR_lt; lia. }
    rewrite Q in Ha. assert (P2 : 0 < IZR (2 * s)) by (apply IZR_lt; lia). apply Rmult_le_compat_r with (r := IZR (2 * s)) in Ha; [|lra].
    replace (Rabs sw / IZR (2 * s) * IZR (2 * s)) with (Rabs sw) in Ha by (field; lra). rewrite mult_IZR in Ha. lra. }
  split; [exact EA|].
  assert (HN : forall j, (0 <= j <= 2 * s)%Z -> n_arr nrb [j] 3%Z = arc_row r start (sw / IZR (2 * s)) j 3 /\ forall c, (0 <= c < 3)%Z -> n_arr nrb [j] c = arc_row r start (sw / IZR (2 * s)) j c + v c * arc_row r start (sw / IZR (2 * s)) j 3).
  { intros j Hj. destruct (HC' j Hj) as [H1 H2]. split; [|intros c Hc]; rewrite EN; cbn [Z.eqb Pos.eqb nth]; auto. }
  split; [|apply arc_shows; auto; lia].
  intros j Hj. unfold n_weights. destruct (HN j Hj) as [-> _]. reflexivity.
Qed.

Lemma arc_angle_ends start al s : (1 <= s)%Z -> Rabs al <= PI / 4 -> arc_angle start al s 0 = start /\ arc_angle start al s 1 = start + IZR (2 * s) * al.
Proof.
  intros Hs Ha. assert (P : 1 <= IZR s) by (apply IZR_le; lia). split.
  - rewrite (arc_angle_seg start al s 0 0) by (auto; try lia; cbn; lra). rewrite (proj1 (seg_ends start al s 0 Ha 0)) by (cbn; apply Rmult_0_r). cbn [Z.mul]. ring.
  - rewrite (arc_angle_seg start al s (s - 1) 1) by (auto; try lia; try lra; replace (s - 1 + 1)%Z with s by lia; rewrite minus_IZR; lra).
    rewrite (proj2 (seg_ends start al s (s - 1) Ha 1)) by (replace (s - 1 + 1)%Z with s by lia; apply Rmult_1_r). replace (2 * (s - 1) + 2)%Z with (2 * s)%Z by lia. reflexivity.
Qed.
Lemma spans_quarter sw s : (1 <= s)%Z -> Rabs sw <= IZR s * (PI / 2) -> Rabs (sw / IZR (2 * s)) <= PI / 4.
Proof.
  intros Hs H. assert (P2 : 1 <= IZR s) by (apply IZR_le; lia). unfold Rdiv. rewrite Rabs_mult, (Rabs_right (/ IZR (2 * s))) by (left; apply Rinv_0_lt_compat, IZR_lt; lia).
  apply Rmult_le_reg_r with (IZR (2 * s)); [apply IZR_lt; lia|]. rewrite mult_IZR. replace (Rabs sw * / (2 * IZR s) * (2 * IZR s)) with (Rabs sw) by (field; lra). lra.
Qed.

(** The circle as its user sees it. *)
Theorem circle_user r center ang junk junk2 v : let start := fst (ang_bounds (N:=Rn) PI ang) in let end_ := snd (ang_bounds (N:=Rn) PI ang) in
  start <> end_ -> Rabs (end_ - start) <= 2 * PI ->
  match center with Some p => meant 0 (fun x i => if (i =? 0)%Z then x else 0) p None v | None => forall i, v i = 0 end ->
  exists nrb phi, circle (N:=Rn) sin cos tan sqrt PI junk junk2 r center ang = Ok nrb /\
    (exists a, n_axes nrb = [a] /\ a_deg a = 2%Z /\ forall u, in_domain (x_n (spec_ax a)) (x_p (spec_ax a)) (x_U (spec_ax a)) u <-> 0 <= u <= 1) /\
    positive_weights nrb /\ phi 0 = start /\ phi 1 = end_ /\
    (forall u v, 0 <= u -> u < v -> v <= 1 -> 0 < (end_ - start) * (phi v - phi u)) /\
    shows nrb (fun us c => v c + (if (c =? 0)%Z then r * cos (phi (hd 0 us)) else if (c =? 1)%Z then r * sin (phi (hd 0 us)) else 0)).
Proof.
  intros start end_ Hne Hb Hv. destruct (circle_spec r center ang junk junk2 v) as (nrb & s & E & Hs & HB & EA & _ & WO & PW & SH); auto.
  { intros X. apply Hne. fold start end_ in X. lra. }
  fold start end_ in HB, SH. set (sw := end_ - start) in *. pose proof (spans_quarter sw s ltac:(lia) HB) as Ha. set (al := sw / IZR (2 * s)) in *.
  assert (P2 : 0 < IZR (2 * s)) by (apply IZR_lt; lia). assert (ES : sw = IZR (2 * s) * al) by (unfold al; field; lra).
  exists nrb, (arc_angle start al s). split; [exact E|]. split.
  { exists (arc_axis s). split; [exact EA|]. split; [apply arc_deg; lia|]. intros u. apply arc_dom; lia. }
  split; [exact PW|]. destruct (arc_angle_ends start al s ltac:(lia) Ha) as [E0 E1]. split; [exact E0|]. split.
  { rewrite E1, <- ES. unfold sw. match goal with |- @eq _ ?a ?b => change (@eq R a b) end. ring. }
  split; [|exact SH].
  intros u w H0 H1 H2. rewrite ES, Rmult_assoc. apply Rmult_lt_0_compat; [exact P2|]. apply arc_angle_mono; auto; [lia|]. intros X. apply Hne. rewrite X, Rmult_0_r in ES. unfold sw in ES. lra.
Qed.
(** Points of the circle lie at the distance r from the centre, in the plane of the centre. *)
Theorem circle_distance r center ang junk junk2 v : let start := fst (ang_bounds (N:=Rn) PI ang) in let end_ := snd (ang_bounds (N:=Rn) PI ang) in
  start <> end_ -> Rabs (end_ - start) <= 2 * PI ->
  match center with Some p => meant 0 (fun x i => if (i =? 0)%Z then x else 0) p None v | None => forall i, v i = 0 end ->
  exists nrb, circle (N:=Rn) sin cos tan sqrt PI junk junk2 r center ang = Ok nrb /\
    forall x j j2 j3 jS, (1 <= v_len x)%Z -> (forall i, (0 <= i < v_len x)%Z -> 0 <= v_get x i <= 1) -> exists C,
      call (N:=Rn) j j2 j3 jS nrb [Some x] FNo = Ok (C, None) /\
      forall i, (0 <= i < v_len x)%Z -> sqrt ((C [i] 0%Z - v 0%Z) * (C [i] 0%Z - v 0%Z) + (C [i] 1%Z - v 1%Z) * (C [i] 1%Z - v 1%Z)) = Rabs r /\ C [i] 2%Z = v 2%Z.
Proof.
  intros start end_ Hne Hb Hv. destruct (circle_user r center ang junk junk2 v Hne Hb Hv) as (nrb & phi & E & (a & EA & _ & HD) & _ & _ & _ & _ & W & SH).
  exists nrb. split; [exact E|]. intros x j j2 j3 jS Hl Hx. destruct (SH [x]) with (j := j) (j2 := j2) (j3 := j3) (jS := jS) as (C & EC & HC).
  { unfold spec_axes. rewrite EA. constructor; [|constructor]. split; [lia|]. intros i Hi. apply HD, Hx, Hi. }
  exists C. split; [exact EC|]. intros i Hi.
  assert (I : in_range [x] [i]) by (constructor; [lia|constructor]).
  rewrite !HC by (auto; lia). cbn [Z.eqb Pos.eqb params map combine hd]. match goal with |- context [cos (phi ?z)] => set (ph := phi z) end. split; [|match goal with |- @eq _ ?a ?b => change (@eq R a b) end; ring].
  replace (_ + _) with (Rsqr r * (Rsqr (sin ph) + Rsqr (cos ph))) by (unfold Rsqr; ring). rewrite sin2_cos2, Rmult_1_r. apply sqrt_Rsqr_abs.
Qed.
(** An empty sweep is rejected. *)
Theorem circle_empty r center ang junk junk2 : fst (ang_bounds (N:=Rn) PI ang) = snd (ang_bounds (N:=Rn) PI ang) ->
  circle (N:=Rn) sin cos tan sqrt PI junk junk2 r center ang = Raise ValueError.
Proof.
  intros H. destruct ang as [|e|a b].
  - exfalso. cbn in H. pose proof PI_RGT_0. lra.
  - unfold circle. cbn [ang_bounds fst snd] in *. rewrite <- H. match goal with |- context [arc_spans PI ?z] => replace z with 0 by (cbn; ring) end. rewrite arc_spans_zero. reflexivity.
  - unfold circle. cbn [ang_bounds fst snd] in *. rewrite <- H. match goal with |- context [arc_spans PI ?z] => replace z with 0 by (cbn; ring) end. rewrite arc_spans_zero. reflexivity.
Qed.

(** The start and the end angle that an angle argument stands for: 0 and a full turn unless given. *)
Definition sweeps (ang : angarg (N:=Rn)) (start end_ : R) : Prop :=
  match ang with
  | AngNone => start = 0 /\ end_ = 2 * PI
  | AngEnd e => start = 0 /\ end_ = e
  | AngPair s e => match s with Some x => start = x | None => start = 0 end /\ match e with Some x => end_ = x | None => end_ = 2 * PI end
  end.
Lemma sweeps_bounds ang start end_ : sweeps ang start end_ -> fst (ang_bounds (N:=Rn) PI ang) = start /\ snd (ang_bounds (N:=Rn) PI ang) = end_.
Proof. destruct ang as [|e|[a|] [b|]]; cbn; intros [-> ->]; split; reflexivity. Qed.
Theorem circle_sweeps r center ang junk junk2 v start end_ : sweeps ang start end_ ->
  start <> end_ -> Rabs (end_ - start) <= 2 * PI ->
  match center with Some p => meant 0 (fun x i => if (i =? 0)%Z then x else 0) p None v | None => forall i, v i = 0 end ->
  exists nrb phi, circle (N:=Rn) sin cos tan sqrt PI junk junk2 r center ang = Ok nrb /\
    (exists a, n_axes nrb = [a] /\ a_deg a = 2%Z /\ forall u, in_domain (x_n (spec_ax a)) (x_p (spec_ax a)) (x_U (spec_ax a)) u <-> 0 <= u <= 1) /\
    positive_weights nrb /\ phi 0 = start /\ phi 1 = end_ /\
    (forall u v, 0 <= u -> u < v -> v <= 1 -> 0 < (end_ - start) * (phi v - phi u)) /\
    shows nrb (fun us c => v c + (if (c =? 0)%Z then r * cos (phi (hd 0 us)) else if (c =? 1)%Z then r * sin (phi (hd 0 us)) else 0)).
Proof. intros S. destruct (sweeps_bounds _ _ _ S) as [<- <-]. apply circle_user. Qed.
Theorem circle_sweeps_distance r center ang junk junk2 v start end_ : sweeps ang start end_ ->
  start <> end_ -> Rabs (end_ - start) <= 2 * PI ->
  match center with Some p => meant 0 (fun x i => if (i =? 0)%Z then x else 0) p None v | None => forall i, v i = 0 end ->
  exists nrb, circle (N:=Rn) sin cos tan sqrt PI junk junk2 r center ang = Ok nrb /\
    forall x j j2 j3 jS, (1 <= v_len x)%Z -> (forall i, (0 <= i < v_len x)%Z -> 0 <= v_get x i <= 1) -> exists C,
      call (N:=Rn) j j2 j3 jS nrb [Some x] FNo = Ok (C, None) /\
      forall i, (0 <= i < v_len x)%Z -> sqrt ((C [i] 0%Z - v 0%Z) * (C [i] 0%Z - v 0%Z) + (C [i] 1%Z - v 1%Z) * (C [i] 1%Z - v 1%Z)) = Rabs r /\ C [i] 2%Z = v 2%Z.
Proof. intros S. destruct (sweeps_bounds _ _ _ S) as [<- <-]. apply circle_distance. Qed.
Theorem circle_sweeps_empty r center ang junk junk2 start : sweeps ang start start ->
  circle (N:=Rn) sin cos tan sqrt PI junk junk2 r center ang = Raise ValueError.
Proof. intros S. destruct (sweeps_bounds _ _ _ S) as [E1 E2]. apply circle_empty. congruence. Qed.
