From Coq Require Import ZArith Reals List Lia Lra Bool.
From Verif Require Import Num Loop ModelNurbs ModelTransform SpecTransform SumZ ProofSpan ExTac.
Import ListNotations.
Local Open Scope R_scope.

Notation matR := (mat (N:=Rn)).
Ltac four c H := let E := fresh in assert (E : (c = 0 \/ c = 1 \/ c = 2 \/ c = 3)%Z) by lia; clear H; destruct E as [->|[->|[->| ->]]].
Ltac three c H := let E := fresh in assert (E : (c = 0 \/ c = 1 \/ c = 2)%Z) by lia; clear H; destruct E as [->|[->| ->]].

(** Composition applies the argument after the receiver. *)
Lemma dot44_apply (A B : matR) (P : Z -> R) c : apply4 (N:=Rn) (dot44 A B) P c = apply4 (N:=Rn) A (apply4 (N:=Rn) B P) c.
Proof. unfold apply4, dot44. cbn. ring. Qed.

Lemma embed_apply (M : matR) (P : Z -> R) c : (0 <= c < 4)%Z ->
  apply4 (N:=Rn) (embed33 M) P c = if (c <? 3)%Z then P 0%Z * M c 0%Z + P 1%Z * M c 1%Z + P 2%Z * M c 2%Z else P 3%Z.
Proof. intros H. four c H; unfold apply4, embed33; cbn; ring. Qed.
Lemma ident_apply (P : Z -> R) c : (0 <= c < 4)%Z -> apply4 (N:=Rn) ident P c = P c.
Proof. intros H. four c H; unfold apply4, ident; cbn; ring. Qed.

Lemma compose_spec (self : matR) m M' P c : compose self m = Ok M' -> (0 <= c < 4)%Z ->
  let Q := apply4 (N:=Rn) self P in
  match m with
  | MTrans M => apply4 (N:=Rn) M' P c = apply4 (N:=Rn) M Q c
  | MArr r k M =>
      (r = 4%Z /\ k = 4%Z /\ apply4 (N:=Rn) M' P c = apply4 (N:=Rn) M Q c) \/
      (r = 3%Z /\ k = 3%Z /\ apply4 (N:=Rn) M' P c = if (c <? 3)%Z then Q 0%Z * M c 0%Z + Q 1%Z * M c 1%Z + Q 2%Z * M c 2%Z else Q 3%Z)
  end.
Proof.
  intros E Hc Q. destruct m as [M|r k M]; cbn in E.
  - injection E as <-. apply dot44_apply.
  - destruct ((r =? 3)%Z && (k =? 3)%Z) eqn:B.
    + injection E as <-. apply andb_prop in B. destruct B as [B1 B2]. apply Z.eqb_eq in B1, B2. right. repeat split; auto. rewrite dot44_apply. apply embed_apply. auto.
    + unfold assert in E. destruct ((r =? 4)%Z && (k =? 4)%Z) eqn:B'; [|discriminate]. injection E as <-.
      apply andb_prop in B'. destruct B' as [B1 B2]. apply Z.eqb_eq in B1, B2. left. repeat split; auto. apply dot44_apply.
Qed.
Lemma compose_44 (self : matR) M : compose self (MArr 4 4 M) = Ok (dot44 M self).
Proof. reflexivity. Qed.
Lemma compose_33 (self : matR) M : compose self (MArr 3 3 M) = Ok (dot44 (embed33 M) self).
Proof. reflexivity. Qed.

(** The displacement and the factors meant by the arguments of translate and scale. *)
Definition meant (dflt : R) (fill : R -> Z -> R) (d : sarg (N:=Rn)) (axis : option Z) (v : Z -> R) : Prop :=
  match d, axis with
  | Vect x, None => (v_len x <= 3)%Z /\ forall i, (0 <= i < 3)%Z -> v i = if (i <? v_len x)%Z then v_get x i else dflt
  | Scal x, None => forall i, (0 <= i < 3)%Z -> v i = fill x i
  | _, Some k => (- 3 <= k < 3)%Z /\ exists x, (d = Scal x \/ exists a, d = Vect a /\ v_len a = 1%Z /\ v_get a 0%Z = x) /\
                 forall i, (0 <= i < 3)%Z -> v i = if (i =? k mod 3)%Z then x else dflt
  end.

Lemma assign3_spec t k d v : assign3 (N:=Rn) t k d = Ok v -> (- 3 <= k < 3)%Z /\
  exists x, (d = Scal x \/ exists a, d = Vect a /\ v_len a = 1%Z /\ v_get a 0%Z = x) /\ forall i, (0 <= i < 3)%Z -> v i = if (i =? k mod 3)%Z then x else t i.
Proof.
  unfold assign3. destruct (Z.leb_spec (-3) k), (Z.ltb_spec k 3); cbn; try discriminate.
  assert (Ek : (k mod 3 = if k <? 0 then k + 3 else k)%Z).
  { destruct (Z.ltb_spec k 0); [|apply Z.mod_small; lia]. symmetry. apply Z.mod_unique with (-1)%Z; lia. }
  rewrite Ek. intros E. split; [lia|]. destruct d as [x|a].
  - exists x. split; [auto|]. injection E as <-. intros i Hi. unfold upd. destruct (i =? _)%Z; reflexivity.
  - destruct (Z.eqb_spec (v_len a) 1) as [E1|]; [|discriminate]. exists (v_get a 0%Z). split; [right; eauto|].
    injection E as <-. intros i Hi. unfold upd. destruct (i =? _)%Z; reflexivity.
Qed.

Theorem translate_spec (self : matR) d axis M' : translate self d axis = Ok M' ->
  exists v, meant 0 (fun x i => if (i =? 0)%Z then x else 0) d axis v /\
  forall P, let Q := apply4 (N:=Rn) self P in
    (forall c, (0 <= c < 3)%Z -> apply4 (N:=Rn) M' P c = Q c + v c * Q 3%Z) /\ apply4 (N:=Rn) M' P 3 = Q 3%Z.
Proof.
  unfold translate. intros E.
  assert (G : forall t : vec Rn, (v_len t <= 3)%Z ->
     compose self (MArr 4 4 (fun i j => if (j =? 3)%Z && (i <? v_len t)%Z then v_get t i else ident i j)) = Ok M' ->
     forall P, let Q := apply4 (N:=Rn) self P in
     (forall c, (0 <= c < 3)%Z -> apply4 (N:=Rn) M' P c = Q c + (if (c <? v_len t)%Z then v_get t c else 0) * Q 3%Z) /\ apply4 (N:=Rn) M' P 3 = Q 3%Z).
  { intros t Ht Ec P Q. rewrite compose_44 in Ec. injection Ec as <-. split.
    - intros c Hc. rewrite dot44_apply. fold Q. three c Hc; unfold apply4, ident; cbn [Z.eqb andb]; rewrite ?andb_true_l, ?andb_false_l;
        match goal with |- context [(?a <? v_len t)%Z] => destruct (a <? v_len t)%Z end; cbn; ring.
    - rewrite dot44_apply. fold Q. unfold apply4, ident. cbn [Z.eqb andb]. destruct (Z.ltb_spec 3 (v_len t)); [lia|]. cbn. ring. }
  destruct d as [x|a], axis as [k|]; cbn [bind] in E.
  - destruct (assign3 _ _ _) as [v|e] eqn:EA; [|discriminate]. cbn [bind] in E. pose proof (assign3_spec _ _ _ _ EA) as S.
    exists v. split; [exact S|]. intros P. destruct (G (mkVec 3 v) (Z.le_refl 3) E P) as [G1 G2]. split; [|exact G2]. intros c Hc. rewrite G1 by auto. cbn. destruct (Z.ltb_spec c 3); [reflexivity|lia].
  - exists (fun i => if (i =? 0)%Z then x else 0). split; [intros i Hi; reflexivity|]. intros P. match type of E with context [v_len ?t] => destruct (G t (Z.le_refl 3) E P) as [G1 G2] end. split; [|exact G2]. intros c Hc. rewrite G1 by auto. cbn.
    destruct (Z.ltb_spec c 3); [|lia]. unfold upd. destruct (c =? 0)%Z; reflexivity.
  - destruct (assign3 _ _ _) as [v|e] eqn:EA; [|discriminate]. cbn [bind] in E. pose proof (assign3_spec _ _ _ _ EA) as S.
    exists v. split; [exact S|]. intros P. destruct (G (mkVec 3 v) (Z.le_refl 3) E P) as [G1 G2]. split; [|exact G2]. intros c Hc. rewrite G1 by auto. cbn. destruct (Z.ltb_spec c 3); [reflexivity|lia].
  - unfold assert in E. destruct (Z.leb_spec (v_len a) 3) as [Ha|]; [|discriminate]. cbn [bind] in E.
    exists (fun i => if (i <? v_len a)%Z then v_get a i else 0). split; [split; auto|]. intros P. apply (G a Ha E P).
Qed.

Theorem scale_spec (self : matR) d axis M' : scale self d axis = Ok M' ->
  exists v, meant 1 (fun x i => x) d axis v /\
  forall P, let Q := apply4 (N:=Rn) self P in
    (forall c, (0 <= c < 3)%Z -> apply4 (N:=Rn) M' P c = v c * Q c) /\ apply4 (N:=Rn) M' P 3 = Q 3%Z.
Proof.
  unfold scale. intros E.
  assert (G : forall t : vec Rn, (v_len t <= 3)%Z ->
     compose self (MArr 3 3 (fun i j => if (i =? j)%Z && (i <? v_len t)%Z then v_get t i else ident i j)) = Ok M' ->
     forall P, let Q := apply4 (N:=Rn) self P in
     (forall c, (0 <= c < 3)%Z -> apply4 (N:=Rn) M' P c = (if (c <? v_len t)%Z then v_get t c else 1) * Q c) /\ apply4 (N:=Rn) M' P 3 = Q 3%Z).
  { intros t Ht Ec P Q. rewrite compose_33 in Ec. injection Ec as <-. split.
    - intros c Hc. rewrite dot44_apply, embed_apply by lia. fold Q. three c Hc; unfold ident; cbn [Z.eqb andb Z.ltb Z.compare Pos.compare Pos.compare_cont];
        match goal with |- context [(?a <? v_len t)%Z] => destruct (a <? v_len t)%Z end; cbn; ring.
    - rewrite dot44_apply, embed_apply by lia. reflexivity. }
  destruct d as [x|a], axis as [k|]; cbn [bind] in E.
  - destruct (assign3 _ _ _) as [v|e] eqn:EA; [|discriminate]. cbn [bind] in E. pose proof (assign3_spec _ _ _ _ EA) as S.
    exists v. split; [exact S|]. intros P. destruct (G (mkVec 3 v) (Z.le_refl 3) E P) as [G1 G2]. split; [|exact G2]. intros c Hc. rewrite G1 by auto. cbn. destruct (Z.ltb_spec c 3); [reflexivity|lia].
  - exists (fun i => x). split; [intros i Hi; reflexivity|]. intros P. match type of E with context [v_len ?t] => destruct (G t (Z.le_refl 3) E P) as [G1 G2] end. split; [|exact G2]. intros c Hc. rewrite G1 by auto. cbn.
    destruct (Z.ltb_spec c 3); [|lia]. reflexivity.
  - destruct (assign3 _ _ _) as [v|e] eqn:EA; [|discriminate]. cbn [bind] in E. pose proof (assign3_spec _ _ _ _ EA) as S.
    exists v. split; [exact S|]. intros P. destruct (G (mkVec 3 v) (Z.le_refl 3) E P) as [G1 G2]. split; [|exact G2]. intros c Hc. rewrite G1 by auto. cbn. destruct (Z.ltb_spec c 3); [reflexivity|lia].
  - unfold assert in E. destruct (Z.leb_spec (v_len a) 3) as [Ha|]; [|discriminate]. cbn [bind] in E.
    exists (fun i => if (i <? v_len a)%Z then v_get a i else 1). split; [split; auto|]. intros P. apply (G a Ha E P).
Qed.

(** ** Rotation *)
Lemma rot_vec_rodrigues (u x : Z -> R) a i : (0 <= i < 3)%Z ->
  x 0%Z * rot_vec (N:=Rn) (sin a) (cos a) u i 0%Z + x 1%Z * rot_vec (N:=Rn) (sin a) (cos a) u i 1%Z + x 2%Z * rot_vec (N:=Rn) (sin a) (cos a) u i 2%Z = rodrigues u a x i.
Proof. intros H. three i H; unfold rot_vec, rodrigues, dot3, cross; cbn; ring. Qed.
Lemma rot_num_rodrigues (k : Z) (x : Z -> R) a i : (0 <= k < 3)%Z -> (0 <= i < 3)%Z ->
  x 0%Z * rot_num (N:=Rn) (sin a) (cos a) k i 0%Z + x 1%Z * rot_num (N:=Rn) (sin a) (cos a) k i 1%Z + x 2%Z * rot_num (N:=Rn) (sin a) (cos a) k i 2%Z = rodrigues (e3 k) a x i.
Proof. intros Hk H. three k Hk; three i H; unfold rot_num, rodrigues, dot3, cross, e3, ident; cbn; ring. Qed.
Lemma rodrigues_0 u x i : rodrigues u 0 x i = x i.
Proof. unfold rodrigues. rewrite cos_0, sin_0. ring. Qed.

(** The unit vector meant by the axis argument. *)
Definition axis_meant (ax : axarg (N:=Rn)) (u : Z -> R) : Prop :=
  match ax with
  | AxNum k => (- 3 <= k < 3)%Z /\ forall i, (0 <= i < 3)%Z -> u i = e3 (k mod 3) i
  | AxVec v => (1 <= v_len v <= 3)%Z /\ exists l, 0 < l /\ dot3 u u = 1 /\
               forall i, (0 <= i < 3)%Z -> l * u i = if (i <? v_len v)%Z then v_get v i else 0
  end.

Lemma norm_unit (w : Z -> R) : let l := norm3 (N:=Rn) sqrt w in 0 < l -> dot3 (fun i => w i / l) (fun i => w i / l) = 1.
Proof.
  intros l Hl. assert (E : l * l = dot3 w w).
  { unfold l, norm3, dot3. rn. apply sqrt_sqrt. pose proof (Rle_0_sqr (w 0%Z)). pose proof (Rle_0_sqr (w 1%Z)). pose proof (Rle_0_sqr (w 2%Z)). unfold Rsqr in *. lra. }
  unfold dot3 in *. apply Rmult_eq_reg_l with (l * l); [|nra]. field_simplify; [|lra]. nra.
Qed.

Lemma py_axis3 k a : py_axis 3 k = Ok a -> (- 3 <= k < 3)%Z /\ Z.of_nat a = (k mod 3)%Z /\ (0 <= Z.of_nat a < 3)%Z.
Proof.
  unfold py_axis. change (- (3))%Z with (-3)%Z. destruct (Z.leb_spec (-3) k), (Z.ltb_spec k 3); cbn [andb]; try discriminate. intros E; injection E as <-.
  assert (Ek : (k mod 3 = if k <? 0 then k + 3 else k)%Z).
  { destruct (Z.ltb_spec k 0); [|apply Z.mod_small; lia]. symmetry. apply Z.mod_unique with (-1)%Z; lia. }
  rewrite Ek. destruct (Z.ltb_spec k 0); lia.
Qed.

Theorem rotate_spec (self : matR) a ax M' : rotate (N:=Rn) sin cos sqrt self a ax = Ok M' -> a <> 0 ->
  exists u, axis_meant ax u /\ dot3 u u = 1 /\
  forall P, let Q := apply4 (N:=Rn) self P in
    (forall c, (0 <= c < 3)%Z -> apply4 (N:=Rn) M' P c = rodrigues u a Q c) /\ apply4 (N:=Rn) M' P 3 = Q 3%Z.
Proof.
  intros E Ha. unfold rotate in E. destruct (neqb Rn a (n0 Rn)) eqn:Ez; [apply Reqb_true in Ez; contradiction|].
  destruct ax as [k|v].
  - destruct (py_axis 3 k) as [b|] eqn:Eb; [|discriminate]. cbn [bind] in E. rewrite compose_33 in E. injection E as <-.
    destruct (py_axis3 _ _ Eb) as (Hk & Ek & Hb). exists (e3 (k mod 3)). split; [split; auto|]. rewrite <- Ek. split.
    { three (Z.of_nat b) Hb; unfold dot3, e3; cbn; ring. }
    intros P Q. split.
    + intros c Hc. rewrite dot44_apply, embed_apply by lia. destruct (Z.ltb_spec c 3); [|lia]. apply rot_num_rodrigues; auto.
    + rewrite dot44_apply, embed_apply by lia. reflexivity.
  - unfold assert in E. destruct (Z.leb_spec 1 (v_len v)) as [H1|]; [|discriminate]. destruct (Z.leb_spec (v_len v) 3) as [H2|]; [|discriminate]. cbn [andb bind] in E.
    destruct (nltb Rn (n0 Rn) (norm3 (N:=Rn) sqrt (pad3 v))) eqn:Ep; [|discriminate]. apply Rltb_true in Ep. cbn [bind] in E. rewrite compose_33 in E. injection E as <-.
    set (l := norm3 (N:=Rn) sqrt (pad3 v)) in *. pose proof (norm_unit (pad3 v) Ep) as Hu. cbv zeta in Hu. fold l in Hu. change (n0 Rn) with 0 in Ep.
    exists (fun i => pad3 (N:=Rn) v i / l). split; [|split; [exact Hu|]].
    { split; [lia|]. exists l. split; [exact Ep|]. split; [exact Hu|]. intros i Hi. unfold pad3. rn. destruct (i <? v_len v)%Z; field; lra. }
    intros P Q. split.
    + intros c Hc. rewrite dot44_apply, embed_apply by lia. destruct (Z.ltb_spec c 3); [|lia]. apply rot_vec_rodrigues; auto.
    + rewrite dot44_apply, embed_apply by lia. reflexivity.
Qed.
Lemma rotate_0 (self : matR) ax : rotate (N:=Rn) sin cos sqrt self 0 ax = Ok self.
Proof. unfold rotate. assert (E : neqb Rn 0 (n0 Rn) = true) by (apply Reqb_true; reflexivity). rewrite E. reflexivity. Qed.

(** The specification itself: lengths and orientation are kept, the axis is fixed, angles add. *)
Lemma sc1 a : sin a * sin a = 1 - cos a * cos a.
Proof. pose proof (sin2_cos2 a). unfold Rsqr in *. lra. Qed.
Lemma u2_sq (u : Z -> R) : dot3 u u = 1 -> u 2%Z * u 2%Z = 1 - u 0%Z * u 0%Z - u 1%Z * u 1%Z.
Proof. unfold dot3. intros. lra. Qed.

Lemma rodrigues_dot u a x y : dot3 u u = 1 -> dot3 (rodrigues u a x) (rodrigues u a y) = dot3 x y.
Proof.
  intros H. apply u2_sq in H. pose proof (sc1 a) as S. unfold rodrigues, dot3, cross. cbn.
  set (s := sin a) in *; set (c := cos a) in *; clearbody s c. generalize (u 0%Z) (u 1%Z) (u 2%Z) (x 0%Z) (x 1%Z) (x 2%Z) (y 0%Z) (y 1%Z) (y 2%Z) H.
  clear H u x y. intros u0 u1 u2 x0 x1 x2 y0 y1 y2 H. ring [H S].
Qed.
Lemma rodrigues_det u a x y z : dot3 u u = 1 -> det (rodrigues u a x) (rodrigues u a y) (rodrigues u a z) = det x y z.
Proof.
  intros H. apply u2_sq in H. pose proof (sc1 a) as S. unfold det, rodrigues, dot3, cross. cbn.
  set (s := sin a) in *; set (c := cos a) in *; clearbody s c.
  generalize (u 0%Z) (u 1%Z) (u 2%Z) (x 0%Z) (x 1%Z) (x 2%Z) (y 0%Z) (y 1%Z) (y 2%Z) (z 0%Z) (z 1%Z) (z 2%Z) H.
  clear H u x y z. intros u0 u1 u2 x0 x1 x2 y0 y1 y2 z0 z1 z2 H. ring [H S].
Qed.
Lemma rodrigues_fix u a i : dot3 u u = 1 -> (0 <= i < 3)%Z -> rodrigues u a u i = u i.
Proof. intros H Hi. unfold rodrigues. rewrite H. assert (E : cross u u i = 0) by (three i Hi; unfold cross; cbn; ring). rewrite E. ring. Qed.
Lemma rodrigues_ext u u' a x x' i : (forall k, (0 <= k < 3)%Z -> u k = u' k) -> (forall k, (0 <= k < 3)%Z -> x k = x' k) -> (0 <= i < 3)%Z ->
  rodrigues u a x i = rodrigues u' a x' i.
Proof.
  intros Hu Hx Hi. unfold rodrigues, dot3, cross. rewrite !Hu, !Hx by lia. reflexivity.
Qed.
Lemma rodrigues_add u a b x i : dot3 u u = 1 -> (0 <= i < 3)%Z -> rodrigues u b (rodrigues u a x) i = rodrigues u (a + b) x i.
Proof.
  intros H Hi. apply u2_sq in H. three i Hi; unfold rodrigues, dot3, cross; cbn; rewrite cos_plus, sin_plus;
  set (s := sin a) in *; set (c := cos a) in *; set (s' := sin b) in *; set (c' := cos b) in *; clearbody s c s' c';
  generalize (u 0%Z) (u 1%Z) (u 2%Z) (x 0%Z) (x 1%Z) (x 2%Z) H; clear H u x; intros u0 u1 u2 x0 x1 x2 H; ring [H].
Qed.

(** ** Inverse *)
Lemma invert_spec (self : matR) M' : invert self = Ok M' -> forall P c, (0 <= c < 4)%Z ->
  apply4 (N:=Rn) M' (apply4 (N:=Rn) self P) c = P c /\ apply4 (N:=Rn) self (apply4 (N:=Rn) M' P) c = P c.
Proof.
  unfold invert. destruct (neqb Rn (det4 self) (n0 Rn)) eqn:E; [discriminate|]. apply Reqb_false in E. change (n0 Rn) with 0 in E.
  intros H; injection H as <-. intros P c Hc. unfold apply4. rn. set (d := det4 self) in *.
  assert (X : forall a b c' e : R, a / d + b / d + c' / d + e / d = (a + b + c' + e) / d) by (intros; field; auto).
  assert (Y : forall a b : R, a = d * b -> a / d = b) by (intros a b0 ->; field; auto).
  assert (Q : forall a b : R, a * (b / d) = (a * b) / d) by (intros; field; auto).
  assert (Q' : forall a b : R, (b / d) * a = (b * a) / d) by (intros; field; auto).
  rewrite ?Q, ?X, ?Q', ?X. split; (rewrite ?Q', ?X; apply Y; unfold d, det4, cofac, oth, det3; clear E X Y Q Q' d; four c Hc; cbn; ring).
Qed.
(** A transform that merges two points cannot be inverted. *)
Lemma invert_total (self : matR) : (exists M', invert self = Ok M') \/ (invert self = Raise ValueError /\ det4 self = 0).
Proof.
  unfold invert. destruct (neqb Rn (det4 self) (n0 Rn)) eqn:E; [right|left; eauto]. split; [reflexivity|]. apply Reqb_true in E. exact E.
Qed.

(** Invertible exactly when some matrix undoes it. *)
Lemma det4_dot (A B : matR) : det4 (dot44 A B) = det4 A * det4 B.
Proof. unfold det4, cofac, oth, det3, dot44. cbn. ring. Qed.
Lemma det4_ext (A B : matR) : (forall i j, (0 <= i < 4)%Z -> (0 <= j < 4)%Z -> A i j = B i j) -> det4 A = det4 B.
Proof. intros H. unfold det4, cofac, oth, det3. cbn. rewrite !H by lia. reflexivity. Qed.
Lemma det4_ident : det4 (ident (N:=Rn)) = 1.
Proof. unfold det4, cofac, oth, det3, ident. cbn. ring. Qed.
Lemma apply_e (A : matR) i j : (0 <= j < 4)%Z -> apply4 (N:=Rn) A (fun k => if (k =? j)%Z then 1 else 0) i = A i j.
Proof. intros Hj. four j Hj; unfold apply4; cbn; ring. Qed.
Lemma invert_raises (self : matR) e : invert self = Raise e ->
  e = ValueError /\ ~ exists B : matR, forall P c, (0 <= c < 4)%Z -> apply4 (N:=Rn) B (apply4 (N:=Rn) self P) c = P c.
Proof.
  intros H. destruct (invert_total self) as [[M' E]|[E D]]; rewrite E in H; [discriminate|]. injection H as <-. split; [reflexivity|]. intros [B HB].
  assert (X : det4 (dot44 B self) = 1).
  { rewrite <- det4_ident. apply det4_ext. intros i j Hi Hj. rewrite <- (apply_e (dot44 B self) i j Hj), dot44_apply, HB by auto. unfold ident. rewrite Z.eqb_sym.
    clear HB. four i Hi; four j Hj; reflexivity. }
  rewrite det4_dot, D in X. lra.
Qed.

(** ** References *)
Definition h_wf (h : heap (N:=Rn)) (t : Z) : Prop := (t < h_next h)%Z /\ (h_matrix h t < h_next h)%Z.
Lemma rebind_value h t M s : h_wf h s -> value_of (N:=Rn) (t_rebind h t M) s = if (s =? t)%Z then M else value_of h s.
Proof.
  intros [H1 H2]. unfold value_of, t_rebind, upd. cbn. destruct (Z.eqb_spec s t).
  - rewrite Z.eqb_refl. reflexivity.
  - destruct (Z.eqb_spec (h_matrix h s) (h_next h)); [lia|reflexivity].
Qed.
Lemma inverse_heap h t h' k : t_inverse h t = Ok (h', k) -> h_wf h t ->
  (forall s, h_wf h s -> s <> k /\ value_of (N:=Rn) h' s = value_of h s) /\ invert (value_of h t) = Ok (value_of h' k).
Proof.
  unfold t_inverse, t_clone, t_invert. cbv zeta. intros E Ht.
  set (h1 := {| h_matrix := upd (h_matrix h) (h_next h) (h_matrix h t); h_array := h_array h; h_next := (h_next h + 1)%Z |}) in *.
  assert (V : value_of h1 (h_next h) = value_of h t) by (unfold value_of, h1, upd; cbn; rewrite Z.eqb_refl; reflexivity).
  rewrite V in E. destruct (invert (value_of h t)) as [M|e]; [|discriminate]. cbn in E. injection E as <- <-.
  assert (W : forall s, h_wf h s -> h_wf h1 s /\ value_of h1 s = value_of h s).
  { intros s [H1 H2]. unfold h_wf, value_of, h1, upd. cbn. destruct (Z.eqb_spec s (h_next h)); [lia|]. repeat split; lia. }
  split.
  - intros s Hs. destruct (W s Hs) as [W1 W2]. split; [destruct Hs; lia|]. rewrite rebind_value, W2 by auto. destruct (Z.eqb_spec s (h_next h)); [destruct Hs; lia|reflexivity].
  - f_equal. rewrite rebind_value. { rewrite Z.eqb_refl. reflexivity. }
    unfold h_wf, h1, upd. cbn. rewrite Z.eqb_refl. destruct Ht. lia.
Qed.
Lemma compose_accepts (self : matR) m :
  (forall r k M, m = MArr r k M -> (r = 4 /\ k = 4 \/ r = 3 /\ k = 3)%Z) -> exists M', compose self m = Ok M'.
Proof. intros H. destruct m as [M|r k M]; [eexists; reflexivity|]. destruct (H r k M eq_refl) as [[-> ->]|[-> ->]]; eexists; reflexivity. Qed.
Lemma assign3_accepts t k d x : (-3 <= k < 3)%Z -> (d = Scal x \/ exists a, d = Vect a /\ v_len a = 1%Z /\ v_get a 0%Z = x) ->
  exists v, assign3 (N:=Rn) t k d = Ok v.
Proof.
  intros Hk Hd. unfold assign3. destruct (Z.leb_spec (-3) k); [|lia]. destruct (Z.ltb_spec k 3); [|lia]. cbn [andb].
  destruct Hd as [->|(a & -> & E & _)]; [eexists; reflexivity|]. rewrite E. eexists; reflexivity.
Qed.
Lemma accepts_spec (self : matR) d axis : (exists v, meant 0 (fun x i => if (i =? 0)%Z then x else 0) d axis v) ->
  (exists M', translate self d axis = Ok M') /\ (exists M', scale self d axis = Ok M').
Proof.
  intros [v Hv]. unfold translate, scale. destruct d as [x|a], axis as [k|]; cbn in Hv.
  - destruct Hv as (Hk & y & Hy & _). destruct (assign3_accepts (fun _ => n0 Rn) k _ y Hk Hy) as [v1 E1]. destruct (assign3_accepts (fun _ => n1 Rn) k _ y Hk Hy) as [v2 E2].
    rewrite E1, E2. split; eexists; reflexivity.
  - split; eexists; reflexivity.
  - destruct Hv as (Hk & y & Hy & _). destruct (assign3_accepts (fun _ => n0 Rn) k _ y Hk Hy) as [v1 E1]. destruct (assign3_accepts (fun _ => n1 Rn) k _ y Hk Hy) as [v2 E2].
    rewrite E1, E2. split; eexists; reflexivity.
  - destruct Hv as [Ha _]. unfold assert. destruct (Z.leb_spec (v_len a) 3); [|lia]. split; eexists; reflexivity.
Qed.
Lemma rotate_accepts (self : matR) a ax : (exists u, axis_meant ax u) -> exists M', rotate (N:=Rn) sin cos sqrt self a ax = Ok M'.
Proof.
  intros [u Hu]. unfold rotate. destruct (neqb Rn a (n0 Rn)); [eexists; reflexivity|]. destruct ax as [k|v]; cbn in Hu.
  - destruct Hu as [Hk _]. unfold py_axis. change (- (3))%Z with (-3)%Z. destruct (Z.leb_spec (-3) k); [|lia]. destruct (Z.ltb_spec k 3); [|lia]. eexists; reflexivity.
  - destruct Hu as (Hl & l & Hl0 & Hd & Hw). unfold assert. destruct (Z.leb_spec 1 (v_len v)); [|lia]. destruct (Z.leb_spec (v_len v) 3); [|lia]. cbn [andb bind].
    assert (E : nltb Rn (n0 Rn) (norm3 (N:=Rn) sqrt (pad3 v)) = true).
    { apply Rltb_true. unfold norm3. apply sqrt_lt_R0. rn. unfold pad3. change (n0 Rn) with 0. rewrite <- !Hw by lia. unfold dot3 in Hd.
      replace (l * u 0%Z * (l * u 0%Z) + l * u 1%Z * (l * u 1%Z) + l * u 2%Z * (l * u 2%Z)) with (l * l * 1); [nra|]. rewrite <- Hd. ring. }
    rewrite E. eexists; reflexivity.
Qed.
Lemma turn_spec u a b x y z : dot3 u u = 1 ->
  dot3 (rodrigues u a x) (rodrigues u a y) = dot3 x y /\
  det (rodrigues u a x) (rodrigues u a y) (rodrigues u a z) = det x y z /\
  (forall i, (0 <= i < 3)%Z -> rodrigues u a u i = u i) /\
  (forall i, (0 <= i < 3)%Z -> rodrigues u b (rodrigues u a x) i = rodrigues u (a + b) x i).
Proof. intros H. repeat split; intros; auto using rodrigues_dot, rodrigues_det, rodrigues_fix, rodrigues_add. Qed.
Lemma axis_forms (self : matR) a k v M1 M2 : (0 <= k < 3)%Z -> v_len v = 3%Z ->
  (exists l, 0 < l /\ forall i, (0 <= i < 3)%Z -> v_get v i = l * e3 k i) ->
  rotate (N:=Rn) sin cos sqrt self a (AxNum k) = Ok M1 -> rotate (N:=Rn) sin cos sqrt self a (AxVec v) = Ok M2 ->
  forall P c, (0 <= c < 4)%Z -> apply4 (N:=Rn) M1 P c = apply4 (N:=Rn) M2 P c.
Proof.
  intros Hk Hv (l & Hl & Hg) E1 E2 P c Hc. destruct (Req_EM_T a 0) as [->|Ha].
  { rewrite rotate_0 in E1, E2. congruence. }
  destruct (rotate_spec _ _ _ _ E1 Ha) as (u1 & (_ & U1) & _ & R1). destruct (rotate_spec _ _ _ _ E2 Ha) as (u2 & (_ & l2 & L2 & D2 & U2) & _ & R2).
  destruct (R1 P) as [A1 B1], (R2 P) as [A2 B2]. destruct (Z.eq_dec c 3) as [->|Hn]; [congruence|]. rewrite A1, A2 by lia.
  apply rodrigues_ext; auto; [|lia]. intros i Hi. rewrite U1 by auto. rewrite Z.mod_small by lia.
  assert (G : forall j, (0 <= j < 3)%Z -> l2 * u2 j = l * e3 k j).
  { intros j Hj. rewrite U2, Hg by auto. rewrite Hv. destruct (Z.ltb_spec j 3); [reflexivity|lia]. }
  assert (L : l2 = l).
  { assert (X : l2 * l2 = l * l).
    { replace (l2 * l2) with (l2 * l2 * dot3 u2 u2) by (rewrite D2; ring). unfold dot3.
      replace (l2 * l2 * (u2 0%Z * u2 0%Z + u2 1%Z * u2 1%Z + u2 2%Z * u2 2%Z)) with ((l2 * u2 0%Z) * (l2 * u2 0%Z) + (l2 * u2 1%Z) * (l2 * u2 1%Z) + (l2 * u2 2%Z) * (l2 * u2 2%Z)) by ring.
      rewrite !G by lia. unfold e3. clear - Hk. three k Hk; cbn; ring. }
    nra. }
  rewrite L in G. apply Rmult_eq_reg_l with l; [|lra]. symmetry. apply G. auto.
Qed.
Lemma rebind_local (h : heap (N:=Rn)) t M s : h_wf h s -> h_wf h t -> h_wf (t_rebind h t M) s /\ (s <> t -> value_of (t_rebind h t M) s = value_of h s).
Proof.
  intros Hs Ht. split.
  - unfold h_wf, t_rebind, upd in *. cbn. destruct (s =? t)%Z; lia.
  - intros Hn. rewrite rebind_value by auto. destruct (Z.eqb_spec s t); [contradiction|reflexivity].
Qed.
Lemma methods_local (h : heap (N:=Rn)) t h' s : h_wf h s -> h_wf h t ->
  ((exists a, t_compose h t a = Ok h') \/ (exists d ax, t_translate h t d ax = Ok h') \/ (exists d ax, t_scale h t d ax = Ok h') \/
   (exists a ax, t_rotate (N:=Rn) sin cos sqrt h t a ax = Ok h') \/ t_invert h t = Ok h') ->
  h_wf h' s /\ (s <> t -> value_of (N:=Rn) h' s = value_of h s).
Proof.
  intros Hs Ht H. assert (G : forall (m : res matR), bind m (fun M => Ok (t_rebind h t M)) = Ok h' -> h_wf h' s /\ (s <> t -> value_of (N:=Rn) h' s = value_of h s)).
  { intros [M|e] E; [|discriminate]. injection E as <-. apply rebind_local; auto. }
  destruct H as [[a E]|[(d & ax & E)|[(d & ax & E)|[(a & ax & E)|E]]]]; try (eapply G; exact E).
  unfold t_rotate in E. destruct (neqb Rn a (n0 Rn)); [|eapply G; exact E]. injection E as <-. auto.
Qed.
