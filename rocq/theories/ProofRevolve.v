From Coq Require Import ZArith Reals List Lia Lra Bool.
From Verif Require Import Num Loop ModelBspline ModelBSp ModelNurbs ModelIga ModelRemove ModelTransform ModelCad Spec SpecTransform SumZ BPiece BLink ProofSpan
  SpecNurbs ProofNet ProofCall ProofNurbs ProofGeom ProofGeom2 ProofTransform ProofCad ProofCircle ExTac.
Import ListNotations.
Local Open Scope R_scope.

Ltac toReq := match goal with |- @eq _ ?a ?b => change (@eq R a b) end.

(** ** Polar coordinates *)
Lemma sq0 x y : 0 <= x * x + y * y.
Proof. pose proof (Rle_0_sqr x). pose proof (Rle_0_sqr y). unfold Rsqr in *. lra. Qed.
Lemma hypot_sq x y : hypot x y * hypot x y = x * x + y * y.
Proof. apply sqrt_sqrt, sq0. Qed.
Lemma polar x y : hypot x y * cos (atan2 y x) = x /\ hypot x y * sin (atan2 y x) = y.
Proof.
  pose proof (hypot_sq x y) as E. assert (H0 : 0 <= hypot x y) by apply sqrt_pos. unfold atan2. destruct (Req_EM_T (hypot x y) 0) as [Z|NZ].
  - rewrite Z in E |- *. split; nra.
  - assert (P : 0 < hypot x y) by lra. set (h := hypot x y) in *.
    assert (B : -1 <= x / h <= 1).
    { split; (apply Rmult_le_reg_r with h; [exact P|]); replace (x / h * h) with x by (field; lra); nra. }
    assert (S : sqrt (1 - (x / h)²) = Rabs y / h).
    { apply Rsqr_inj; [apply sqrt_pos| |].
      - unfold Rdiv. apply Rmult_le_pos; [apply Rabs_pos|]. left. apply Rinv_0_lt_compat, P.
      - rewrite Rsqr_sqrt by (unfold Rsqr; nra). unfold Rsqr at 2. replace (Rabs y / h * (Rabs y / h)) with (Rabs y * Rabs y / (h * h)) by (field; lra).
        replace (Rabs y * Rabs y) with (y * y) by (unfold Rabs; destruct (Rcase_abs y); ring). unfold Rsqr. replace (y * y) with (h * h - x * x) by lra. field. lra. }
    destruct (Rle_dec 0 y) as [L|L].
    + rewrite cos_acos, sin_acos by exact B. rewrite S, Rabs_right by lra. split; field; lra.
    + rewrite cos_neg, sin_neg, cos_acos, sin_acos by exact B. rewrite S, Rabs_left by lra. split; field; lra.
Qed.
Lemma theta_polar x y : hypot x y * cos (theta_of (N:=Rn) atan2 PI x y) = x /\ hypot x y * sin (theta_of (N:=Rn) atan2 PI x y) = y.
Proof.
  unfold theta_of. destruct (nltb Rn (atan2 y x) (n0 Rn)); [|apply polar]. rn.
  replace (atan2 y x + 2 * PI) with (atan2 y x + 2 * INR 1 * PI) by (cbn; ring). rewrite cos_period, sin_period. apply polar.
Qed.
Lemma revolve_pt_spec (P A : Z -> R) :
  let Q := revolve_pt (N:=Rn) sin cos atan2 hypot PI P A in
  Q 0%Z = P 0%Z * A 0%Z - P 1%Z * A 1%Z /\ Q 1%Z = P 1%Z * A 0%Z + P 0%Z * A 1%Z /\ Q 2%Z = P 2%Z * A 3%Z /\ Q 3%Z = P 3%Z * A 3%Z.
Proof.
  destruct (theta_polar (P 0%Z) (P 1%Z)) as [H1 H2]. unfold revolve_pt, apply4. cbn [Z.eqb Pos.eqb]. rn. rewrite H1, H2. repeat split; ring.
Qed.

(** ** Conjugating a rotation by a rotation *)
Lemma rodrigues_inv u a x i : dot3 u u = 1 -> (0 <= i < 3)%Z -> rodrigues u (- a) (rodrigues u a x) i = x i /\ rodrigues u a (rodrigues u (- a) x) i = x i.
Proof. intros H Hi. rewrite !rodrigues_add by auto. replace (a + - a) with 0 by ring. replace (- a + a) with 0 by ring. split; apply rodrigues_0. Qed.
Lemma rodrigues_lin u a s t x y i : rodrigues u a (fun k => s * x k + t * y k) i = s * rodrigues u a x i + t * rodrigues u a y i.
Proof. unfold rodrigues, dot3, cross. destruct (i =? 0)%Z, (i =? 1)%Z; ring. Qed.
Lemma rodrigues_cross n g x y i : dot3 n n = 1 -> (0 <= i < 3)%Z -> cross (rodrigues n g x) (rodrigues n g y) i = rodrigues n g (cross x y) i.
Proof.
  intros H Hi.
  assert (G : forall z, dot3 z (cross (rodrigues n g x) (rodrigues n g y)) = dot3 z (rodrigues n g (cross x y))).
  { intros z. set (z' := rodrigues n (- g) z). assert (E : forall k, (0 <= k < 3)%Z -> z k = rodrigues n g z' k) by (intros k Hk; symmetry; apply rodrigues_inv; auto).
    transitivity (dot3 (rodrigues n g z') (cross (rodrigues n g x) (rodrigues n g y))); [unfold dot3; rewrite !E by lia; reflexivity|].
    transitivity (dot3 (rodrigues n g z') (rodrigues n g (cross x y))); [|unfold dot3; rewrite !E by lia; reflexivity].
    rewrite rodrigues_dot by auto. apply (rodrigues_det n g z' x y H). }
  specialize (G (e3 i)). unfold dot3, e3 in G. three i Hi; cbn [Z.eqb Pos.eqb] in G; lra.
Qed.
Lemma rodrigues_conj n g u a x i : dot3 n n = 1 -> (0 <= i < 3)%Z ->
  rodrigues (rodrigues n g u) a (rodrigues n g x) i = rodrigues n g (rodrigues u a x) i.
Proof.
  intros H Hi. unfold rodrigues at 1. rewrite rodrigues_cross, rodrigues_dot by auto.
  transitivity (rodrigues n g (fun k => 1 * (cos a * x k + sin a * cross u x k) + ((1 - cos a) * dot3 u x) * u k) i).
  - rewrite rodrigues_lin, rodrigues_lin. ring.
  - apply rodrigues_ext; auto. intros k Hk. unfold rodrigues. ring.
Qed.
(** The rotation that takes the unit vector v to the z axis. *)
Lemma to_z v n l i : dot3 v v = 1 -> 0 < l -> l * l = v 0%Z * v 0%Z + v 1%Z * v 1%Z -> l * n 0%Z = v 1%Z -> l * n 1%Z = - v 0%Z -> n 2%Z = 0 -> (0 <= i < 3)%Z ->
  rodrigues n (acos (v 2%Z)) v i = e3 2 i.
Proof.
  intros Hv Hl El E0 E1 E2 Hi. assert (B : -1 <= v 2%Z <= 1) by (unfold dot3 in Hv; nra).
  assert (S : sqrt (1 - (v 2%Z)²) = l) by (replace (1 - (v 2%Z)²) with (l * l) by (unfold dot3, Rsqr in *; lra); apply sqrt_square; lra).
  assert (N0 : n 0%Z = v 1%Z / l) by (rewrite <- E0; field; lra). assert (N1 : n 1%Z = - v 0%Z / l) by (rewrite <- E1; field; lra).
  unfold rodrigues. rewrite cos_acos, sin_acos, S by exact B.
  assert (D : dot3 n v = 0) by (unfold dot3; rewrite N0, N1, E2; field; lra). rewrite D. unfold dot3 in Hv.
  three i Hi; unfold cross, e3; cbn [Z.eqb Pos.eqb]; rewrite ?N0, ?N1, ?E2; try (field; lra).
  transitivity (v 2%Z * v 2%Z + (v 0%Z * v 0%Z + v 1%Z * v 1%Z)); [field; lra|lra].
Qed.
Lemma rod_z a x : let y := rodrigues (e3 2) a x in y 0%Z = cos a * x 0%Z - sin a * x 1%Z /\ y 1%Z = sin a * x 0%Z + cos a * x 1%Z /\ y 2%Z = x 2%Z.
Proof. unfold rodrigues, cross, dot3, e3. cbn. repeat split; ring. Qed.

(** The change of frame of revolve: a rigid map taking the point to the origin and the axis to z. *)
Definition frame (M : matR) (pv v : Z -> R) : Prop :=
  exists Q : (Z -> R) -> (Z -> R),
    (forall s t x y i, (0 <= i < 3)%Z -> Q (fun k => s * x k + t * y k) i = s * Q x i + t * Q y i) /\
    (forall x y i, (forall k, (0 <= k < 3)%Z -> x k = y k) -> (0 <= i < 3)%Z -> Q x i = Q y i) /\
    (forall u a x i, (0 <= i < 3)%Z -> rodrigues (Q u) a (Q x) i = Q (rodrigues u a x) i) /\
    (forall i, (0 <= i < 3)%Z -> Q v i = e3 2 i) /\
    (forall P c, (0 <= c < 3)%Z -> apply4 (N:=Rn) M P c = Q (fun k => P k - pv k * P 3%Z) c) /\ (forall P, apply4 (N:=Rn) M P 3%Z = P 3%Z) /\
    exists Mi, invert M = Ok Mi.
Lemma axis_vec_unique w u u' : axis_meant (AxVec w) u -> axis_meant (AxVec w) u' -> forall i, (0 <= i < 3)%Z -> u i = u' i.
Proof.
  intros (_ & l & Hl & D & E) (_ & l' & Hl' & D' & E') i Hi.
  assert (X : forall k, (0 <= k < 3)%Z -> l * u k = l' * u' k) by (intros k Hk; rewrite E, E' by auto; reflexivity).
  assert (Y : l * l = l' * l').
  { transitivity (l * l * dot3 u u); [rewrite D; ring|]. transitivity (l' * l' * dot3 u' u'); [|rewrite D'; ring]. unfold dot3.
    transitivity ((l * u 0%Z) * (l * u 0%Z) + (l * u 1%Z) * (l * u 1%Z) + (l * u 2%Z) * (l * u 2%Z)); [ring|]. rewrite !X by lia. ring. }
  assert (l = l') by nra. subst l'. apply Rmult_eq_reg_l with l; [|lra]. apply X. auto.
Qed.
Lemma meant_neg p (pv w : Z -> R) : meant 0 (fun x i => if (i =? 0)%Z then x else 0) p None pv ->
  meant 0 (fun x i => if (i =? 0)%Z then x else 0) (neg_arg (N:=Rn) p) None w -> forall c, (0 <= c < 3)%Z -> w c = - pv c.
Proof.
  destruct p as [x|v]; cbn; intros H1 H2 c Hc.
  - rewrite H1, H2 by auto. destruct (c =? 0)%Z; ring.
  - rewrite (proj2 H1), (proj2 H2) by auto. destruct (c <? v_len v)%Z; ring.
Qed.
Lemma meant_same p (v w : Z -> R) : meant 0 (fun x i => if (i =? 0)%Z then x else 0) p None v -> meant 0 (fun x i => if (i =? 0)%Z then x else 0) p None w -> forall c, (0 <= c < 3)%Z -> w c = v c.
Proof.
  destruct p as [x|a]; cbn; intros H1 H2 c Hc.
  - rewrite H1, H2 by auto. reflexivity.
  - rewrite (proj2 H1), (proj2 H2) by auto. reflexivity.
Qed.
Lemma meant_neg_ok p pv : meant 0 (fun x i => if (i =? 0)%Z then x else 0) p None pv -> exists w, meant 0 (fun x i => if (i =? 0)%Z then x else 0) (neg_arg (N:=Rn) p) None w.
Proof.
  destruct p as [x|v]; cbn; intros H.
  - eexists. intros i _. reflexivity.
  - destruct H as [H _]. eexists. split; [exact H|]. intros i _. reflexivity.
Qed.
Lemma acos_zero x : -1 <= x <= 1 -> (acos x = 0 <-> x = 1).
Proof. intros H. split; [intros E; rewrite <- (cos_acos x H), E; apply cos_0|intros ->; apply acos_1]. Qed.
Lemma apply4_ext (M : matR) (P Q : Z -> R) c : (forall k, (0 <= k < 4)%Z -> P k = Q k) -> apply4 (N:=Rn) M P c = apply4 (N:=Rn) M Q c.
Proof. intros H. unfold apply4. rewrite !H by lia. reflexivity. Qed.

Lemma frame_exists p pv v : meant 0 (fun x i => if (i =? 0)%Z then x else 0) p None pv -> dot3 v v = 1 -> v 2%Z <> -1 ->
  exists M0 M, translate ident (neg_arg (N:=Rn) p) None = Ok M0 /\
    rotate (N:=Rn) sin cos sqrt M0 (acos (v 2%Z)) (AxVec (mkVec (N:=Rn) 3 (fun i => if (i =? 0)%Z then v 1%Z else if (i =? 1)%Z then 0 - v 0%Z else 0))) = Ok M /\ frame M pv v.
Proof.
  intros Hp Hv Hm. assert (B : -1 <= v 2%Z <= 1) by (unfold dot3 in Hv; nra).
  destruct (meant_neg_ok p pv Hp) as [w0 Hw0]. destruct (accepts_spec ident (neg_arg (N:=Rn) p) None (ex_intro _ w0 Hw0)) as [[M0 E0] _]. exists M0.
  destruct (translate_spec _ _ _ _ E0) as (w & Hw & HT). pose proof (meant_neg p pv w Hp Hw) as Ew.
  destruct (accepts_spec ident p None (ex_intro _ pv Hp)) as [[B0 EB0] _].
  assert (T0 : forall P, (forall c, (0 <= c < 3)%Z -> apply4 (N:=Rn) M0 P c = P c - pv c * P 3%Z) /\ apply4 (N:=Rn) M0 P 3 = P 3%Z).
  { intros P. destruct (HT P) as [H1 H2]. cbv zeta in *. rewrite ident_apply in H2 by lia. split; [|exact H2]. intros c Hc. rewrite H1, !ident_apply, Ew by lia. toReq. ring. }
  destruct (Req_EM_T (v 2%Z) 1) as [E1|N1].
  - exists M0. split; [exact E0|]. split; [rewrite (proj2 (acos_zero _ B) E1); apply rotate_0|].
    exists (fun x => x). repeat split; auto.
    + intros i Hi. unfold dot3 in Hv. assert (v 0%Z = 0) by nra. assert (v 1%Z = 0) by nra. three i Hi; unfold e3; cbn; auto.
    + intros P c Hc. apply T0, Hc.
    + intros P. apply T0.
    + destruct (invert M0) as [Mi|e] eqn:EI; [eauto|]. exfalso. destruct (invert_raises _ _ EI) as [_ X]. apply X.
      destruct (translate_spec _ _ _ _ EB0) as (w' & Hw' & HT'). exists B0. intros P c Hc.
      pose proof (meant_same p pv w' Hp Hw') as E'.
      destruct (T0 P) as [A1 A2]. destruct (HT' (apply4 (N:=Rn) M0 P)) as [C1 C2]. cbv zeta in *. rewrite ident_apply in C2 by lia.
      destruct (Z.eq_dec c 3) as [->|Hn]; [rewrite C2; exact A2|]. rewrite C1, !ident_apply, E', A1, A2 by lia. toReq. ring.
  - set (nv := mkVec (N:=Rn) 3 (fun i => if (i =? 0)%Z then v 1%Z else if (i =? 1)%Z then 0 - v 0%Z else 0)).
    set (l := sqrt (v 0%Z * v 0%Z + v 1%Z * v 1%Z)).
    assert (Ll : l * l = v 0%Z * v 0%Z + v 1%Z * v 1%Z) by apply sqrt_sqrt, sq0.
    assert (Lp : 0 < l). { assert (0 <= l) by apply sqrt_pos. unfold dot3 in Hv. assert (l <> 0) by (intros X; rewrite X in Ll; nra). lra. }
    assert (AM : exists n, axis_meant (AxVec nv) n).
    { exists (fun i => (if (i =? 0)%Z then v 1%Z else if (i =? 1)%Z then 0 - v 0%Z else 0) / l). split; [cbn; lia|]. exists l. split; [exact Lp|]. split.
      - unfold dot3. cbn [Z.eqb Pos.eqb]. transitivity ((v 0%Z * v 0%Z + v 1%Z * v 1%Z) / (l * l)); [field; lra|]. rewrite Ll. field. nra.
      - intros i Hi. three i Hi; cbn; field; lra. }
    assert (NZ : acos (v 2%Z) <> 0) by (intros X; apply acos_zero in X; auto).
    destruct (rotate_accepts M0 (acos (v 2%Z)) (AxVec nv) AM) as [M EM]. exists M. split; [exact E0|]. split; [exact EM|].
    destruct (rotate_spec _ _ _ _ EM NZ) as (n & An & Dn & HR).
    destruct An as (A1 & l' & Hl' & _ & A4). cbn [nv v_len v_get] in A4.
    pose proof (A4 0%Z ltac:(lia)) as N0. pose proof (A4 1%Z ltac:(lia)) as N1'. pose proof (A4 2%Z ltac:(lia)) as N2. cbn in N0, N1', N2.
    assert (n2 : n 2%Z = 0) by (apply Rmult_eq_reg_l with l'; lra).
    assert (Ll' : l' * l' = v 0%Z * v 0%Z + v 1%Z * v 1%Z).
    { transitivity (l' * l' * dot3 n n); [rewrite Dn; ring|]. unfold dot3. transitivity ((l' * n 0%Z) * (l' * n 0%Z) + (l' * n 1%Z) * (l' * n 1%Z) + (l' * n 2%Z) * (l' * n 2%Z)); [ring|]. rewrite N0, N1', N2. ring. }
    assert (TM : forall P, (forall c, (0 <= c < 3)%Z -> apply4 (N:=Rn) M P c = rodrigues n (acos (v 2%Z)) (fun k => P k - pv k * P 3%Z) c) /\ apply4 (N:=Rn) M P 3 = P 3%Z).
    { intros P. destruct (HR P) as [H1 H2]. cbv zeta in *. destruct (T0 P) as [G1 G2]. split; [|rewrite H2; exact G2]. intros c Hc. rewrite H1 by auto. apply rodrigues_ext; auto. }
    exists (rodrigues n (acos (v 2%Z))). split; [|split; [|split; [|split; [|split; [|split]]]]].
    + intros s t x y i Hi. apply rodrigues_lin.
    + intros x y i Hxy Hi. apply rodrigues_ext; auto.
    + intros u a x i Hi. apply rodrigues_conj; auto.
    + intros i Hi. apply to_z with l'; auto. lra.
    + intros P c Hc. apply TM, Hc.
    + intros P. apply TM.
    + destruct (invert M) as [Mi|e] eqn:EI; [eauto|]. exfalso. destruct (invert_raises _ _ EI) as [_ X]. apply X.
      destruct (rotate_accepts ident (- acos (v 2%Z)) (AxVec nv) AM) as [R1 ER1].
      destruct (rotate_spec _ _ _ _ ER1 ltac:(lra)) as (n' & An' & Dn' & HR').
      destruct (accepts_spec R1 p None (ex_intro _ pv Hp)) as [[B1 EB1] _].
      destruct (translate_spec _ _ _ _ EB1) as (w' & Hw' & HT'). pose proof (meant_same p pv w' Hp Hw') as E'.
      assert (Enn : forall i, (0 <= i < 3)%Z -> n' i = n i). { apply (axis_vec_unique nv); auto. split; [exact A1|]. exists l'. auto. }
      exists B1. intros P c Hc. destruct (TM P) as [G1 G2]. destruct (HT' (apply4 (N:=Rn) M P)) as [C1 C2]. destruct (HR' (apply4 (N:=Rn) M P)) as [F1 F2]. cbv zeta in *.
      assert (F3 : apply4 (N:=Rn) R1 (apply4 (N:=Rn) M P) 3 = P 3%Z) by (rewrite F2, ident_apply by lia; exact G2).
      destruct (Z.eq_dec c 3) as [->|Hn]; [rewrite C2; exact F3|]. rewrite C1, F1, F3, E' by lia.
      rewrite (rodrigues_ext n' n (- acos (v 2%Z)) _ (rodrigues n (acos (v 2%Z)) (fun k => P k - pv k * P 3%Z))); auto; [|intros k Hk; rewrite ident_apply by lia; auto|lia].
      rewrite (proj1 (rodrigues_inv n (acos (v 2%Z)) _ c Dn ltac:(lia))). toReq. ring.
Qed.

(** A net that is a sum of two products of nets. *)
Lemma product_hom (A B C : nurbs Rn) us t c (P1 P2 Q1 Q2 : list Z -> R) : n_axes C = n_axes A ++ n_axes B -> in_box (spec_axes A) us -> in_box (spec_axes B) [t] ->
  (forall i j, in_net (spec_axes A) i -> in_net (spec_axes B) j -> n_arr C (i ++ j) c = P1 i * P2 j + Q1 i * Q2 j) ->
  hom C c (us ++ [t]) = tsum (spec_axes A) P1 us * tsum (spec_axes B) P2 [t] + tsum (spec_axes A) Q1 us * tsum (spec_axes B) Q2 [t].
Proof.
  intros EA D1 D2 HP. assert (Hus : length us = length (spec_axes A)) by (apply in_box_length; auto). assert (L1 : length [t] = length (spec_axes B)) by (apply in_box_length; auto).
  unfold hom, spec_axes at 1. rewrite EA, map_app. fold (spec_axes A) (spec_axes B). rewrite tsum_app by auto.
  rewrite (tsum_ext _ _ (fun i => tsum (spec_axes B) P2 [t] * P1 i + tsum (spec_axes B) Q2 [t] * Q1 i)); auto.
  - rewrite tsum_plus, !tsum_scal by auto. ring.
  - intros i Hi. rewrite (tsum_ext (spec_axes B) _ (fun j => P1 i * P2 j + Q1 i * Q2 j)); auto. rewrite tsum_plus, !tsum_scal by auto. ring.
Qed.
Lemma transform_hom nrb M us c : (0 <= c < 4)%Z -> in_box (spec_axes nrb) us -> hom (transform (N:=Rn) nrb M) c us = apply4 (N:=Rn) M (fun k => hom nrb k us) c.
Proof.
  intros Hc D. unfold hom at 1. cbn [n_arr transform]. unfold spec_axes at 1. cbn [n_axes transform]. fold (spec_axes nrb). destruct (Z.ltb_spec c 4); [|lia]. apply tsum_apply4. apply in_box_length. auto.
Qed.

(** The unit vector of the axis argument. *)
Lemma revolve_axis_spec ax u : axis_meant ax u -> exists v, revolve_axis (N:=Rn) sqrt ax = Ok v /\ (forall i, (0 <= i < 3)%Z -> v i = u i) /\ dot3 u u = 1.
Proof.
  intros H. destruct ax as [k|w]; cbn [revolve_axis].
  - destruct H as [Hk Hu]. unfold py_axis. change (- (3))%Z with (-3)%Z. destruct (Z.leb_spec (-3) k); [|lia]. destruct (Z.ltb_spec k 3); [|lia]. cbn [andb bind].
    eexists. split; [reflexivity|]. assert (Ek : (k mod 3 = if k <? 0 then k + 3 else k)%Z).
    { destruct (Z.ltb_spec k 0); [|apply Z.mod_small; lia]. symmetry. apply Z.mod_unique with (-1)%Z; lia. }
    split.
    + intros i Hi. rewrite Hu, Ek by auto. unfold e3. rewrite Z2Nat.id by (destruct (Z.ltb_spec k 0); lia). reflexivity.
    + unfold dot3. rewrite !Hu by lia. assert (Hm : (0 <= k mod 3 < 3)%Z) by (apply Z.mod_pos_bound; lia). generalize dependent (k mod 3)%Z. intros m _ _ Hm. three m Hm; unfold e3; cbn; ring.
  - destruct H as (Hl & l & Hl0 & Hd & Hw). unfold assert. destruct (Z.leb_spec 1 (v_len w)); [|lia]. destruct (Z.leb_spec (v_len w) 3); [|lia]. cbn [andb bind].
    assert (P : forall i, (0 <= i < 3)%Z -> pad3 w i = l * u i) by (intros i Hi; unfold pad3; rewrite Hw by auto; reflexivity).
    assert (EN : norm3 (N:=Rn) sqrt (pad3 w) = l).
    { unfold norm3. rn. rewrite !P by lia. replace (l * u 0%Z * (l * u 0%Z) + l * u 1%Z * (l * u 1%Z) + l * u 2%Z * (l * u 2%Z)) with (l * l * dot3 u u) by (unfold dot3; ring). rewrite Hd, Rmult_1_r. apply sqrt_square. lra. }
    rewrite EN. assert (E : nltb Rn (n0 Rn) l = true) by (apply Rltb_true; exact Hl0). rewrite E. cbn [bind]. eexists. split; [reflexivity|]. split; [|exact Hd].
    intros i Hi. rewrite P by auto. rn. field. lra.
Qed.

Theorem revolve_shows nrb point ax ang junk junk2 f pv u : let start := fst (ang_bounds (N:=Rn) PI ang) in let end_ := snd (ang_bounds (N:=Rn) PI ang) in
  shows nrb f -> weight_ok nrb -> (1 <= length (n_axes nrb) <= 2)%nat ->
  meant 0 (fun x i => if (i =? 0)%Z then x else 0) point None pv -> axis_meant ax u -> u 2%Z <> -1 ->
  start <> end_ -> Rabs (end_ - start) <= 2 * PI ->
  exists nrb' phi a, revolve (N:=Rn) sin cos tan sqrt acos atan2 hypot PI junk junk2 nrb point ax ang = Ok nrb' /\
    n_axes nrb' = n_axes nrb ++ [a] /\ (forall t, in_domain (x_n (spec_ax a)) (x_p (spec_ax a)) (x_U (spec_ax a)) t <-> 0 <= t <= 1) /\
    phi 0 = start /\ phi 1 = end_ /\ (forall t s, 0 <= t -> t < s -> s <= 1 -> 0 < (end_ - start) * (phi s - phi t)) /\
    weight_ok nrb' /\ shows nrb' (fun us c => pv c + rodrigues u (phi (last us 0)) (fun k => f (removelast us) k - pv k) c).
Proof.
  intros start end_ Hs Hw Hl Hp Hax Hu2 Hne Hb. unfold revolve, assert, n_dim.
  destruct (Z.leb_spec (Z.of_nat (length (n_axes nrb))) 2); [|lia]. cbn [bind].
  assert (SZ : (size_of (N:=Rn) point <=? 3)%Z = true) by (apply Z.leb_le; destruct point as [x|v]; cbn in *; [lia|apply Hp]). rewrite SZ. cbn [bind].
  destruct (revolve_axis_spec ax u Hax) as (v & Ev & Hv & Du). rewrite Ev. cbn [bind].
  assert (Dv : dot3 v v = 1) by (unfold dot3 in *; rewrite !Hv by lia; exact Du).
  destruct (frame_exists point pv v Hp Dv) as (M0 & M & E0 & EM & Q & QL & QE & QR & QV & QM & QM3 & Mi & EI); [rewrite Hv by lia; exact Hu2|].
  rewrite E0. cbn [bind]. change (T Rn) with R in *.
  match goal with |- context [rotate sin cos sqrt M0 ?g ?n] => replace (rotate sin cos sqrt M0 g n) with (Ok M) by (symmetry; exact EM) end. cbn [bind].
  destruct (circle_user 1 None ang junk junk2 (fun _ => 0) Hne Hb (fun i => eq_refl)) as (arc & phi & Earc & (a & EA & _ & HD) & PW & P0 & P1 & PM & SA).
  match goal with |- context [circle sin cos tan sqrt PI junk junk2 ?x None ang] => replace (circle sin cos tan sqrt PI junk junk2 x None ang) with (Ok arc) by (symmetry; exact Earc) end. cbn [bind].
  set (nrb1 := transform (N:=Rn) nrb M). assert (W := proj1 Hs). assert (WA := proj1 SA).
  assert (WAX : Forall wf_ax (map spec_ax (n_axes nrb ++ [a]))).
  { rewrite map_app. apply Forall_app. split; [apply W|]. destruct WA as (_ & WA & _). unfold spec_axes in WA. rewrite EA in WA. exact WA. }
  destruct (init_built junk (n_axes nrb ++ [a]) 4 (fun idx => revolve_pt (N:=Rn) sin cos atan2 hypot PI (n_arr nrb1 (removelast idx)) (n_arr arc [last idx 0%Z]))) as (srf & ES & EAs & ECs & EN); auto; [rewrite app_length; cbn; lia|lia|].
  assert (K : knots_of nrb1 ++ knots_of arc = map (fun A => mkVec (N:=Rn) (a_len A) (a_knots A)) (n_axes nrb ++ [a])) by (unfold knots_of; rewrite EA, map_app; reflexivity).
  assert (Sh : n_shape nrb1 ++ n_shape arc = map a_size (n_axes nrb ++ [a])) by (unfold n_shape; rewrite EA, map_app; reflexivity).
  rewrite K, Sh, ES. cbn [bind]. rewrite EI. cbn [bind].
  exists (transform srf Mi), phi, a. split; [reflexivity|]. split; [exact EAs|]. split; [exact HD|]. split; [exact P0|]. split; [exact P1|]. split; [exact PM|].
  assert (WS : wf_nurbs srf) by (apply (built_wf (n_axes nrb ++ [a])); auto; rewrite app_length; cbn; lia).
  assert (DD : forall us, in_box (spec_axes (transform srf Mi)) us -> exists us' t, us = us' ++ [t] /\ in_box (spec_axes nrb) us' /\ in_box (spec_axes arc) [t]).
  { intros us D. unfold spec_axes in D. cbn [transform n_axes] in D. rewrite EAs, map_app in D. apply in_box_app in D. destruct D as (u1 & u2 & -> & D1 & D2).
    assert (D3 := D2). cbn [map] in D2. apply in_box_1 in D2. destruct D2 as (t & -> & Hd). exists u1, t. split; auto. split; auto. unfold spec_axes. rewrite EA. auto. }
  assert (HH : forall us t, in_box (spec_axes nrb) us -> in_box (spec_axes arc) [t] ->
     let w := hom arc 3 [t] in
     hom (transform srf Mi) 3 (us ++ [t]) = w * hom nrb 3 us /\
     forall c, (0 <= c < 3)%Z -> hom (transform srf Mi) c (us ++ [t]) = w * (rodrigues v (phi t) (fun k => hom nrb k us - pv k * hom nrb 3 us) c + pv c * hom nrb 3 us)).
  { intros us t D1 D2 w.
    assert (Wp : 0 < w) by (apply weight_pos; auto).
    assert (J1 : forall j, in_net (spec_axes arc) j -> exists k, j = [k]).
    { intros j Hj. unfold spec_axes in Hj. rewrite EA in Hj. apply in_net_1 in Hj. destruct Hj as (k & -> & _). eauto. }
    assert (D12 : in_box (spec_axes srf) (us ++ [t])).
    { unfold spec_axes. rewrite EAs, map_app. apply in_box_join; auto. unfold spec_axes in D2. rewrite EA in D2. exact D2. }
    set (D := fun k => hom nrb k us - pv k * hom nrb 3 us).
    assert (H1 : forall c, (0 <= c < 3)%Z -> hom nrb1 c us = Q D c).
    { intros c Hc. unfold nrb1. rewrite transform_hom by (auto; lia). apply QM, Hc. }
    assert (H13 : hom nrb1 3 us = hom nrb 3 us) by (unfold nrb1; rewrite transform_hom by (auto; lia); apply QM3).
    assert (A0 : hom arc 0 [t] = w * cos (phi t)).
    { pose proof (shows_elim arc _ [t] 0%Z SA D2 ltac:(lia)) as X. cbn in X. unfold pt in X. fold w in X. assert (Y : hom arc 0 [t] = hom arc 0 [t] / w * w) by (field; lra). rewrite Y, X. ring. }
    assert (A1 : hom arc 1 [t] = w * sin (phi t)).
    { pose proof (shows_elim arc _ [t] 1%Z SA D2 ltac:(lia)) as X. cbn in X. unfold pt in X. fold w in X. assert (Y : hom arc 1 [t] = hom arc 1 [t] / w * w) by (field; lra). rewrite Y, X. ring. }
    assert (EAs' : n_axes srf = n_axes nrb1 ++ n_axes arc) by (rewrite EA; exact EAs).
    assert (D1' : in_box (spec_axes nrb1) us) by exact D1.
    assert (NN : forall i j c, in_net (spec_axes arc) j -> n_arr srf (i ++ j) c = revolve_pt (N:=Rn) sin cos atan2 hypot PI (n_arr nrb1 i) (n_arr arc j) c).
    { intros i j c Hj. destruct (J1 j Hj) as [k ->]. rewrite EN. cbn [Z.eqb Pos.eqb]. rewrite removelast_last, last_last. reflexivity. }
    assert (Z0 : tsum (spec_axes nrb1) (fun _ => 0) us = 0) by (apply tsum_zero, in_box_length; exact D1).
    assert (S0 : hom srf 0 (us ++ [t]) = hom nrb1 0 us * hom arc 0 [t] - hom nrb1 1 us * hom arc 1 [t]).
    { rewrite (product_hom nrb1 arc srf us t 0 (fun i => n_arr nrb1 i 0%Z) (fun j => n_arr arc j 0%Z) (fun i => n_arr nrb1 i 1%Z) (fun j => (-1) * n_arr arc j 1%Z)); auto.
      - rewrite tsum_scal by (apply in_box_length; exact D2). unfold hom. ring.
      - intros i j Hi Hj. rewrite NN by auto. destruct (revolve_pt_spec (n_arr nrb1 i) (n_arr arc j)) as (X & _). rewrite X. toReq. ring. }
    assert (S1 : hom srf 1 (us ++ [t]) = hom nrb1 1 us * hom arc 0 [t] + hom nrb1 0 us * hom arc 1 [t]).
    { rewrite (product_hom nrb1 arc srf us t 1 (fun i => n_arr nrb1 i 1%Z) (fun j => n_arr arc j 0%Z) (fun i => n_arr nrb1 i 0%Z) (fun j => n_arr arc j 1%Z)); auto.
      intros i j Hi Hj. rewrite NN by auto. destruct (revolve_pt_spec (n_arr nrb1 i) (n_arr arc j)) as (_ & X & _). exact X. }
    assert (S2 : hom srf 2 (us ++ [t]) = hom nrb1 2 us * w).
    { rewrite (product_hom nrb1 arc srf us t 2 (fun i => n_arr nrb1 i 2%Z) (fun j => n_arr arc j 3%Z) (fun i => 0) (fun j => 0)); auto.
      - rewrite Z0. unfold w, hom. ring.
      - intros i j Hi Hj. rewrite NN by auto. destruct (revolve_pt_spec (n_arr nrb1 i) (n_arr arc j)) as (_ & _ & X & _). rewrite X. toReq. ring. }
    assert (S3 : hom srf 3 (us ++ [t]) = hom nrb1 3 us * w).
    { rewrite (product_hom nrb1 arc srf us t 3 (fun i => n_arr nrb1 i 3%Z) (fun j => n_arr arc j 3%Z) (fun i => 0) (fun j => 0)); auto.
      - rewrite Z0. unfold w, hom. ring.
      - intros i j Hi Hj. rewrite NN by auto. destruct (revolve_pt_spec (n_arr nrb1 i) (n_arr arc j)) as (_ & _ & _ & X). rewrite X. toReq. ring. }
    set (P' := fun k => if (k =? 3)%Z then w * hom nrb 3 us else w * (rodrigues v (phi t) D k + pv k * hom nrb 3 us)).
    assert (SQ : forall c, (0 <= c < 4)%Z -> hom srf c (us ++ [t]) = apply4 (N:=Rn) M P' c).
    { assert (SC : forall c, (0 <= c < 3)%Z -> apply4 (N:=Rn) M P' c = w * rodrigues (e3 2) (phi t) (Q D) c).
      { intros c Hc. rewrite QM by auto.
        rewrite (QE _ (fun k => w * rodrigues v (phi t) D k + 0 * rodrigues v (phi t) D k) c); auto.
        - rewrite QL by auto. rewrite <- QR by auto. rewrite (rodrigues_ext (Q v) (e3 2) (phi t) (Q D) (Q D) c) by auto. toReq. ring.
        - intros k Hk. unfold P'. destruct (Z.eqb_spec k 3); [lia|]. rewrite Z.eqb_refl. ring. }
      destruct (rod_z (phi t) (Q D)) as (R0 & R1 & R2). cbv zeta in *.
      intros c Hc. four c Hc.
      - rewrite SC, S0, R0, !H1, A0, A1 by lia. ring.
      - rewrite SC, S1, R1, !H1, A0, A1 by lia. ring.
      - rewrite SC, S2, R2, !H1 by lia. ring.
      - rewrite QM3, S3, H13. unfold P'. cbn [Z.eqb Pos.eqb]. ring. }
    assert (FN : forall c, (0 <= c < 4)%Z -> hom (transform srf Mi) c (us ++ [t]) = P' c).
    { intros c Hc. rewrite transform_hom by auto. rewrite (apply4_ext Mi _ (apply4 (N:=Rn) M P')) by (intros k Hk; apply SQ; auto). apply (invert_spec M Mi EI P' c Hc). }
    split; [rewrite FN by lia; reflexivity|]. intros c Hc. rewrite FN by lia. unfold P'. destruct (Z.eqb_spec c 3); [lia|]. reflexivity. }
  assert (WP : forall t, in_box (spec_axes arc) [t] -> 0 < hom arc 3 [t]) by (intros t D; apply weight_pos; auto).
  split.
  - intros us D. destruct (DD us D) as (us' & t & -> & D1 & D2). destruct (HH us' t D1 D2) as [-> _]. apply Rmult_integral_contrapositive. split; [apply Rgt_not_eq, WP, D2|apply Hw, D1].
  - apply shows_intro. { destruct WS as (X1 & X2 & X3). split; [exact X1|]. split; [exact X2|exact X3]. }
    intros us c D Hc. destruct (DD us D) as (us' & t & -> & D1 & D2). destruct (HH us' t D1 D2) as [H3 HC].
    pose proof (WP t D2) as Wt. pose proof (Hw us' D1) as Wn. rewrite removelast_last, last_last. unfold pt. rewrite HC, H3 by auto.
    rewrite (rodrigues_ext u v (phi t) (fun k => f us' k - pv k) (fun k => (1 / hom nrb 3 us') * (hom nrb k us' - pv k * hom nrb 3 us') + 0 * pv k)); auto.
    + rewrite rodrigues_lin. field. split; lra.
    + intros k Hk. symmetry. auto.
    + intros k Hk. rewrite <- (shows_elim nrb f us' k Hs D1 Hk). unfold pt. field. exact Wn.
Qed.

(** The axis pointing down is rejected. *)
Theorem revolve_down nrb point ax ang junk junk2 pv u : (length (n_axes nrb) <= 2)%nat ->
  meant 0 (fun x i => if (i =? 0)%Z then x else 0) point None pv -> axis_meant ax u -> u 2%Z = -1 ->
  revolve (N:=Rn) sin cos tan sqrt acos atan2 hypot PI junk junk2 nrb point ax ang = Raise AssertionError.
Proof.
  intros Hl Hp Hax Hu2. unfold revolve. unfold assert at 1 2. unfold n_dim.
  destruct (Z.leb_spec (Z.of_nat (length (n_axes nrb))) 2); [|lia]. cbn [bind].
  assert (SZ : (size_of (N:=Rn) point <=? 3)%Z = true) by (apply Z.leb_le; destruct point as [x|v]; cbn in *; [lia|apply Hp]). rewrite SZ. cbn [bind].
  destruct (revolve_axis_spec ax u Hax) as (v & Ev & Hv & Du). rewrite Ev. cbn [bind].
  destruct (meant_neg_ok point pv Hp) as [w0 Hw0]. destruct (accepts_spec ident (neg_arg (N:=Rn) point) None (ex_intro _ w0 Hw0)) as [[M0 E0] _]. rewrite E0. cbn [bind].
  assert (v2 : v 2%Z = -1) by (rewrite Hv by lia; exact Hu2). assert (Z0 : v 0%Z = 0 /\ v 1%Z = 0) by (rewrite !Hv by lia; unfold dot3 in Du; split; nra). destruct Z0 as [v0 v1].
  unfold rotate. assert (E : neqb Rn (acos (v 2%Z)) (n0 Rn) = false). { apply Reqb_false. intros X. apply acos_zero in X; lra. }
  rewrite E. cbn [v_len]. unfold assert. cbn [andb bind Z.leb Z.compare Pos.compare Pos.compare_cont].
  match goal with |- context [nltb Rn (n0 Rn) ?z] => assert (EN : z = 0) end.
  { unfold norm3, pad3. cbn [v_len v_get Z.ltb Z.eqb Z.compare Pos.compare Pos.compare_cont Pos.eqb]. rn. rewrite v0, v1. transitivity (sqrt 0); [|apply sqrt_0]. f_equal. ring. }
  rewrite EN. assert (E1 : nltb Rn (n0 Rn) 0 = false) by (apply Rltb_false; cbn; lra). rewrite E1. reflexivity.
Qed.
Theorem revolve_sweeps nrb point ax ang junk junk2 f pv u start end_ : sweeps ang start end_ ->
  shows nrb f -> weight_ok nrb -> (1 <= length (n_axes nrb) <= 2)%nat ->
  meant 0 (fun x i => if (i =? 0)%Z then x else 0) point None pv -> axis_meant ax u -> u 2%Z <> -1 ->
  start <> end_ -> Rabs (end_ - start) <= 2 * PI ->
  exists nrb' phi a, revolve (N:=Rn) sin cos tan sqrt acos atan2 hypot PI junk junk2 nrb point ax ang = Ok nrb' /\
    n_axes nrb' = n_axes nrb ++ [a] /\ (forall t, in_domain (x_n (spec_ax a)) (x_p (spec_ax a)) (x_U (spec_ax a)) t <-> 0 <= t <= 1) /\
    phi 0 = start /\ phi 1 = end_ /\ (forall t s, 0 <= t -> t < s -> s <= 1 -> 0 < (end_ - start) * (phi s - phi t)) /\
    weight_ok nrb' /\ shows nrb' (fun us c => pv c + rodrigues u (phi (last us 0)) (fun k => f (removelast us) k - pv k) c).
Proof. intros S. destruct (sweeps_bounds _ _ _ S) as [<- <-]. apply revolve_shows. Qed.
