(** Derivatives of transformed objects: lemmas for C113. *)
From Coq Require Import ZArith Reals List Lia Lra Bool FunctionalExtensionality.
From Verif Require Import Blossom Num Loop ModelBspline ModelBSp ModelNurbs ModelDer ModelTransform Spec SumZ SpecNurbs SpecTransform SpecDer ProofSpan ProofTransform ProofNet ProofCall ProofNurbs ProofGeom ProofGeom2
  ProofTransform2 ProofOk ProofDerApi ProofDerApi2 ProofDer4 ProofDerLink ProofRational PropNurbs PropDer ProofDerGeom ProofDerGeom2 ProofDerMap.
Import ListNotations.
Local Open Scope R_scope.

Ltac rring := match goal with |- ?a = ?b => change (@eq R a b) end; first [ring | symmetry; ring | lra].
(** ** Linearity in the field *)
Lemma interp_net junk junk2 nrb xs idx order F F' D : wf_nurbs nrb -> good_args (spec_axes nrb) xs -> in_range xs idx ->
  (forall i, in_net (spec_axes nrb) i -> F i = F' i) ->
  d_interp (N:=Rn) junk junk2 order (d_axes (N:=Rn) (n_axes nrb) xs idx) (n_arr nrb) F D = d_interp (N:=Rn) junk junk2 order (d_axes (N:=Rn) (n_axes nrb) xs idx) (n_arr nrb) F' D.
Proof.
  intros [Hl [W Hc]] G Rg HF. destruct (d_axes_ok _ xs idx W G Rg) as [E1 [E2 [E3 E4]]].
  set (ds := d_axes (N:=Rn) (n_axes nrb) xs idx) in *. fold (spec_axes nrb) in *.
  unfold d_interp, Interpolate. rewrite !asum_lsum. apply lsum_ext. intros a Ha. rewrite HF; [reflexivity|].
  rewrite <- E1. eapply d_global_net; [rewrite E1; exact E3|]. apply nodes_range; auto. rewrite Forall_map. auto.
Qed.
Lemma interp_lin junk junk2 order ds Pw D (F1 F2 F3 F4 : list Z -> R) a b c d :
  d_interp (N:=Rn) junk junk2 order ds Pw (fun i => a * F1 i + b * F2 i + c * F3 i + d * F4 i) D =
  a * d_interp (N:=Rn) junk junk2 order ds Pw F1 D + b * d_interp (N:=Rn) junk junk2 order ds Pw F2 D + c * d_interp (N:=Rn) junk junk2 order ds Pw F3 D + d * d_interp (N:=Rn) junk junk2 order ds Pw F4 D.
Proof.
  unfold d_interp, Interpolate. rewrite !asum_lsum, <- !lsum_scal, <- !lsum_plus. apply lsum_ext. intros t _. cbn. ring.
Qed.
Lemma interp_weights junk junk2 order ds (Pw Pw' : list Z -> Z -> R) F D : (forall i, Pw' i 3%Z = Pw i 3%Z) ->
  d_interp (N:=Rn) junk junk2 order ds Pw' F D = d_interp (N:=Rn) junk junk2 order ds Pw F D.
Proof.
  intros H. unfold d_interp, d_rational. replace (fun a => Pw' (d_global (N:=Rn) ds a) 3%Z) with (fun a => Pw (d_global (N:=Rn) ds a) 3%Z); [reflexivity|].
  apply functional_extensionality. intros a. symmetry. apply H.
Qed.

(** ** The derivatives of the points *)
(** The points are differentiated: passed as the field, or taken since there are no fields.
    igakit/nurbs.py:1541-1546, 1609-1614, 1678-1683 *)
Definition differentiates_points (nrb : nurbs Rn) (f : option (nd Rn)) : Prop := f = Some (points_nd nrb) \/ (f = None /\ n_comp nrb = 4%Z).
Lemma transform_w (nrb : nurbs Rn) M i : affine M -> n_arr (transform (N:=Rn) nrb M) i 3%Z = n_arr nrb i 3%Z.
Proof. intros (A0 & A1 & A2 & A3). cbn [transform n_arr]. change (3 <? 4)%Z with true. cbv iota. unfold apply4. rewrite A0, A1, A2, A3. cbn. ring. Qed.
Lemma points_core junk junk2 nrb order f xs : wf_nurbs nrb -> good_args (spec_axes nrb) xs -> (1 <= order <= 4)%Z -> differentiates_points nrb f ->
  exists G, derivative (N:=Rn) junk junk2 nrb order f (map Some xs) false = Ok G /\
  forall idx c D, G idx c D = d_interp (N:=Rn) junk junk2 order (d_axes (N:=Rn) (n_axes nrb) xs idx) (n_arr nrb) (fun i => n_arr nrb i c / n_arr nrb i 3%Z) (map (fun d => d + 1)%Z (rev D)).
Proof.
  intros W HG Ho Hf.
  assert (HF : exists F, field_of nrb f 3 F /\ forall i c, F i c = n_arr nrb i c / n_arr nrb i 3%Z).
  { destruct Hf as [-> | [-> H4]].
    - exists (fun i c => nd_get (points_nd nrb) (i ++ [c])). split; [right; split; [reflexivity|split; [lia|reflexivity]]|]. intros i c. cbn [points_nd nd_get]. rewrite removelast_last, last_last. reflexivity.
    - eexists. split; [left; split; [exact H4|split; reflexivity]|reflexivity]. }
  destruct HF as (F & HF & EF). destruct (field_of_ok _ _ _ _ HF) as [E _].
  eexists. split; [exact (der_core_ok junk junk2 nrb order f xs _ _ false W HG Ho E ltac:(lia) ltac:(discriminate))|].
  intros idx c D. cbv zeta. cbn [fst snd]. replace (fun i => F i c) with (fun i => n_arr nrb i c / n_arr nrb i 3%Z); [reflexivity|]. apply functional_extensionality. intros i. symmetry. apply EF.
Qed.
Theorem points_transform : forall nrb M xs order f f', wf_nurbs nrb -> (1 <= length (n_axes nrb))%nat -> positive_weights nrb -> affine M ->
  good_args (spec_axes nrb) xs -> (1 <= order <= 4)%Z -> differentiates_points nrb f -> differentiates_points (transform nrb M) f' ->
  forall j j2, exists G G', derivative (N:=Rn) j j2 nrb order f (map Some xs) false = Ok G /\ derivative (N:=Rn) j j2 (transform nrb M) order f' (map Some xs) false = Ok G' /\
  forall idx c D, in_range xs idx -> (0 <= c < 3)%Z -> Z.of_nat (length D) = order ->
    G' idx c D = M c 0%Z * G idx 0%Z D + M c 1%Z * G idx 1%Z D + M c 2%Z * G idx 2%Z D.
Proof.
  intros nrb M xs order f f' W Hd Pw A HG Ho Hf Hf' j j2. set (nrb' := transform (N:=Rn) nrb M) in *.
  assert (W' : wf_nurbs nrb') by exact W. change (spec_axes nrb) with (spec_axes nrb') in HG.
  destruct (points_core j j2 nrb order f xs W HG Ho Hf) as (G & E & H). destruct (points_core j j2 nrb' order f' xs W' HG Ho Hf') as (G' & E' & H').
  exists G, G'. split; [exact E|]. split; [exact E'|]. intros idx c D Rg Hc HL. rewrite H', !H.
  change (n_axes nrb') with (n_axes nrb). set (ds := d_axes (N:=Rn) (n_axes nrb) xs idx). set (Df := map (fun d => (d + 1)%Z) (rev D)).
  assert (LD : (1 <= length Df <= 4)%nat) by (unfold Df; rewrite map_length, rev_length; lia).
  pose proof (params_box _ _ _ HG Rg) as I. pose proof (weight_pos nrb _ W Pw I) as P3.
  rewrite (interp_weights _ _ _ _ (n_arr nrb) (n_arr nrb')) by (intros i; apply transform_w; auto).
  rewrite (interp_net j j2 nrb xs idx order _ (fun i => M c 0%Z * (n_arr nrb i 0%Z / n_arr nrb i 3%Z) + M c 1%Z * (n_arr nrb i 1%Z / n_arr nrb i 3%Z) + M c 2%Z * (n_arr nrb i 2%Z / n_arr nrb i 3%Z) + M c 3%Z * (n_arr nrb i 3%Z / n_arr nrb i 3%Z)) Df W HG Rg).
  2:{ intros i Hi. pose proof (Pw i Hi) as Hw. unfold n_weights in Hw. unfold nrb'. rewrite transform_w by auto. cbn [transform n_arr]. destruct (Z.ltb_spec c 4); [|lia]. unfold apply4. rn. field. change (T Rn) with R in *. lra. }
  rewrite interp_lin.
  rewrite (der_const j j2 nrb xs idx order (fun i => n_arr nrb i 3%Z / n_arr nrb i 3%Z) 1 Df W Hd HG Rg ltac:(lia) LD).
  - unfold ds. match goal with |- ?a = ?b => change (@eq R a b) end. ring.
  - intros i Hi. pose proof (Pw i Hi) as Hw. unfold n_weights in Hw. apply (Rinv_r (n_arr nrb i 3%Z)). change (T Rn) with R in *. lra.
  - unfold hom in P3. lra.
Qed.

(** ** Derivatives of fields *)
(** A field of nc components is differentiated: an array, or the fields of the object.
    igakit/nurbs.py:1541-1553, 1609-1621, 1678-1690 *)
Definition differentiates_fields (nrb : nurbs Rn) (f : option (nd Rn)) (nc : Z) : Prop :=
  match f with
  | Some A => (nd_shape A = n_shape nrb /\ nc = 1%Z) \/ (nd_shape A = n_shape nrb ++ [nc] /\ (1 <= nc)%Z)
  | None => (4 < n_comp nrb)%Z /\ nc = (n_comp nrb - 4)%Z
  end.
Lemma fields_core nrb M f nc : differentiates_fields nrb f nc -> affine M -> exists F F', field_of nrb f nc F /\ field_of (transform nrb M) f nc F' /\ forall i c, (0 <= c)%Z -> F' i c = F i c.
Proof.
  intros H A. destruct f as [B|].
  - destruct H as [[H ->]|[H Hn]].
    + do 2 eexists. split; [left; split; [exact H|split; reflexivity]|]. split; [left; split; [exact H|split; reflexivity]|]. reflexivity.
    + do 2 eexists. split; [right; split; [exact H|split; [exact Hn|reflexivity]]|]. split; [right; split; [exact H|split; [exact Hn|reflexivity]]|]. reflexivity.
  - destruct H as [H ->]. do 2 eexists. split; [right; split; [exact H|split; reflexivity]|]. split; [right; split; [exact H|split; reflexivity]|].
    intros i c Hc. cbn beta. rewrite transform_w by auto. cbn [transform n_arr]. destruct (Z.ltb_spec (4 + c) 4); [lia|]. reflexivity.
Qed.
Theorem fields_transform : forall nrb M xs order f nc, wf_nurbs nrb -> affine M ->
  good_args (spec_axes nrb) xs -> (1 <= order <= 4)%Z -> differentiates_fields nrb f nc ->
  forall j j2, exists G G', derivative (N:=Rn) j j2 nrb order f (map Some xs) false = Ok G /\ derivative (N:=Rn) j j2 (transform nrb M) order f (map Some xs) false = Ok G' /\
  forall idx c D, (0 <= c)%Z -> G' idx c D = G idx c D.
Proof.
  intros nrb M xs order f nc W A HG Ho Hf j j2. destruct (fields_core nrb M f nc Hf A) as (F & F' & HF & HF' & EF).
  destruct (field_of_ok _ _ _ _ HF) as [E Hn]. destruct (field_of_ok _ _ _ _ HF') as [E' _].
  assert (W' : wf_nurbs (transform (N:=Rn) nrb M)) by exact W.
  eexists. eexists. split; [exact (der_core_ok j j2 nrb order f xs _ _ false W HG Ho E ltac:(lia) ltac:(discriminate))|].
  split; [exact (der_core_ok j j2 (transform (N:=Rn) nrb M) order f xs _ _ false W' HG Ho E' ltac:(lia) ltac:(discriminate))|].
  intros idx c D Hc. cbv zeta. cbn [fst snd]. change (n_axes (transform (N:=Rn) nrb M)) with (n_axes nrb).
  rewrite (interp_weights _ _ _ _ (n_arr nrb)) by (intros i; apply transform_w; auto).
  unfold d_interp, Interpolate. rewrite !asum_lsum. apply lsum_ext. intros t _. rewrite EF by auto. reflexivity.
Qed.

(** ** Mapped gradients *)
Notation det := SpecDer.det.
Lemma det_prod d M J J' : (1 <= d <= 3)%nat ->
  (forall a b, (0 <= a < Z.of_nat d)%Z -> (0 <= b < Z.of_nat d)%Z -> J' a b = sumZ 0 (Z.of_nat d - 1) (fun k => M a k * J k b)) -> det d J' = det d M * det d J.
Proof.
  intros Hd E. destruct d as [|[|[|[|d]]]]; try lia; cbn [det]; rewrite !E by lia; rewrite !sum3 by lia; ring.
Qed.
(** The first d coordinates of the image depend on the first d coordinates only. *)
Definition keeps (d : Z) (M : Z -> Z -> R) : Prop := forall r c, (0 <= r < d)%Z -> (d <= c < 3)%Z -> M r c = 0.
Theorem mapped_transform : forall nrb M xs f nc, wf_nurbs nrb -> (1 <= length (n_axes nrb))%nat -> positive_weights nrb -> affine M ->
  keeps (Z.of_nat (length (n_axes nrb))) M -> det (length (n_axes nrb)) M <> 0 ->
  good_args (spec_axes nrb) xs -> differentiates_fields nrb f nc ->
  forall j j2, exists G G' J, gradient (N:=Rn) j j2 nrb f (map Some xs) true = Ok G /\ gradient (N:=Rn) j j2 (transform nrb M) f (map Some xs) true = Ok G' /\
    gradient (N:=Rn) j j2 nrb (Some (points_nd nrb)) (map Some xs) false = Ok J /\
  forall idx q i, in_range xs idx -> (0 <= q)%Z -> (0 <= i < Z.of_nat (length (n_axes nrb)))%Z ->
    det (length (n_axes nrb)) (fun a b => J idx a [b]) <> 0 ->
    sumZ 0 (Z.of_nat (length (n_axes nrb)) - 1) (fun r => M r i * G' idx q [r]) = G idx q [i].
Proof.
  intros nrb M xs f nc W Hd Pw A Hk HM HG Hf j j2. set (nrb' := transform (N:=Rn) nrb M) in *.
  assert (W' : wf_nurbs nrb') by exact W. assert (Hd3 : (length (n_axes nrb) <= 3)%nat) by (destruct W; lia).
  destruct (fields_core nrb M f nc Hf A) as (F & F' & HF & HF' & EF).
  destruct (C43_mapped_gradient nrb xs f nc F W Hd HG HF j j2) as (G & g & J & E1 & E2 & E3 & Ch).
  destruct (C43_mapped_gradient nrb' xs f nc F' W' Hd HG HF' j j2) as (G' & g' & J' & E1' & E2' & E3' & Ch').
  change (n_axes nrb') with (n_axes nrb) in Ch'.
  destruct (fields_transform nrb M xs 1 f nc W A HG ltac:(lia) Hf j j2) as (h & h' & K1 & K2 & Eh). fold nrb' in K2.
  unfold gradient in E2, E2', E3, E3'. unfold derivative in K1, K2. rewrite E2 in K1. injection K1 as <-. rewrite E2' in K2. injection K2 as <-.
  destruct (points_transform nrb M xs 1 (Some (points_nd nrb)) (Some (points_nd nrb')) W Hd Pw A HG ltac:(lia) (or_introl eq_refl) (or_introl eq_refl) j j2) as (p & p' & K1 & K2 & Ep). fold nrb' in K2.
  unfold derivative in K1, K2. rewrite E3 in K1. injection K1 as <-. rewrite E3' in K2. injection K2 as <-.
  exists G, G', J. split; [exact E1|]. split; [exact E1'|]. split; [exact E3|]. intros idx q i Rg Hq Hi D.
  set (d := length (n_axes nrb)) in *.
  assert (EJ : forall a b, (0 <= a < Z.of_nat d)%Z -> J' idx a [b] = sumZ 0 (Z.of_nat d - 1) (fun k => M a k * J idx k [b])).
  { intros a b Ha. rewrite (Ep idx a [b] Rg ltac:(lia) eq_refl), sum3 by lia. clearbody d. destruct d as [|[|[|[|d]]]]; try lia.
    - rewrite (Hk a 1%Z), (Hk a 2%Z) by lia. rring.
    - rewrite (Hk a 2%Z) by lia. rring.
    - rring. }
  assert (D' : det d (fun a b => J' idx a [b]) <> 0).
  { rewrite (det_prod d M (fun a b => J idx a [b])); [apply Rmult_integral_contrapositive_currified; auto|lia|]. intros a b Ha Hb. apply EJ. auto. }
  apply (unique_solution d (fun a b => J idx a [b]) (fun i => sumZ 0 (Z.of_nat d - 1) (fun r => M r i * G' idx q [r])) (fun i => G idx q [i]) (fun b => g idx q [b])); [lia|exact D| | |exact Hi].
  - intros b Hb. rewrite <- (Eh idx q [b] Hq), <- (Ch' idx q b Rg Hb D').
    rewrite (sumZ_ext 0 _ (fun i => G' idx q [i] * J' idx i [b]) (fun i => G' idx q [i] * sumZ 0 (Z.of_nat d - 1) (fun k => M i k * J idx k [b]))) by (intros a Ha; rewrite EJ by lia; reflexivity).
    clear - Hd Hd3. destruct d as [|[|[|[|d]]]]; try lia; rewrite !sum3 by lia; rring.
  - intros b Hb. apply Ch; auto.
Qed.

(** ** The methods *)
Lemma entry (M : matR) (f : (Z -> R) -> Z -> R) c k : (forall x c, (0 <= c < 3)%Z -> apply4 (N:=Rn) M (homog x) c = f x c) -> (0 <= c < 3)%Z -> (0 <= k < 3)%Z ->
  M c k = f (e3 k) c - f (fun _ => 0) c.
Proof.
  intros H Hc Hk. rewrite <- !H by auto. unfold apply4, homog, e3. rn. cbn [Z.eqb Pos.eqb]. assert (k = 0 \/ k = 1 \/ k = 2)%Z as [-> | [-> | ->]] by lia; cbn [Z.eqb Pos.eqb]; lra.
Qed.
Theorem translate_derivatives : forall nrb d axis nrb' xs, n_translate nrb d axis = Ok nrb' -> wf_nurbs nrb -> (1 <= length (n_axes nrb))%nat -> positive_weights nrb -> good_args (spec_axes nrb) xs ->
  (forall order f f', (1 <= order <= 4)%Z -> differentiates_points nrb f -> differentiates_points nrb' f' -> forall j j2, exists G G',
     derivative (N:=Rn) j j2 nrb order f (map Some xs) false = Ok G /\ derivative (N:=Rn) j j2 nrb' order f' (map Some xs) false = Ok G' /\
     forall idx c D, in_range xs idx -> (0 <= c < 3)%Z -> Z.of_nat (length D) = order -> G' idx c D = G idx c D) /\
  (forall f nc, differentiates_fields nrb f nc -> forall j j2, exists G G' J,
     gradient (N:=Rn) j j2 nrb f (map Some xs) true = Ok G /\ gradient (N:=Rn) j j2 nrb' f (map Some xs) true = Ok G' /\ gradient (N:=Rn) j j2 nrb (Some (points_nd nrb)) (map Some xs) false = Ok J /\
     forall idx q i, in_range xs idx -> (0 <= q)%Z -> (0 <= i < Z.of_nat (length (n_axes nrb)))%Z -> det (length (n_axes nrb)) (fun a b => J idx a [b]) <> 0 -> G' idx q [i] = G idx q [i]).
Proof.
  intros nrb d axis nrb' xs E W Hd Pw HG. unfold n_translate in E. destruct (translate ident d axis) as [M|] eqn:EM; [|discriminate]. cbn [bind] in E. injection E as <-.
  destruct (translate_spec ident d axis M EM) as (v & Hv & H). assert (A : affine M) by (apply affine_of; intros P; apply H).
  assert (EE : forall c k, (0 <= c < 3)%Z -> (0 <= k < 3)%Z -> M c k = if (c =? k)%Z then 1 else 0).
  { intros c k Hc Hk. rewrite (entry M (fun x c => x c + v c) c k); auto.
    - unfold e3. cbv beta. destruct (c =? k)%Z; rring.
    - intros x c0 Hc0. rewrite (proj1 (H (homog x)) c0 Hc0), !id_apply by lia. unfold homog. destruct (Z.eqb_spec c0 3); [lia|]. cbn. lra. }
  assert (Hd3 : (length (n_axes nrb) <= 3)%nat) by (destruct W; lia).
  split.
  - intros order f f' Ho Hf Hf' j j2. destruct (points_transform nrb M xs order f f' W Hd Pw A HG Ho Hf Hf' j j2) as (G & G' & E1 & E2 & R0). exists G, G'. split; [exact E1|]. split; [exact E2|].
    intros idx c D Rg Hc HL. rewrite (R0 idx c D Rg Hc HL), !EE by lia. assert (c = 0 \/ c = 1 \/ c = 2)%Z as [-> | [-> | ->]] by lia; cbn [Z.eqb Pos.eqb]; rring.
  - intros f nc Hf j j2. destruct (mapped_transform nrb M xs f nc W Hd Pw A) with (j := j) (j2 := j2) as (G & G' & J & E1 & E2 & E3 & R0); auto.
    + intros r c Hr Hc. rewrite EE by lia. destruct (Z.eqb_spec r c); [lia|reflexivity].
    + destruct (n_axes nrb) as [|? [|? [|? [|? ?]]]]; cbn [length] in *; try lia; cbn [det]; rewrite !EE by lia; cbn [Z.eqb Pos.eqb]; lra.
    + exists G, G', J. split; [exact E1|]. split; [exact E2|]. split; [exact E3|]. intros idx q i Rg Hq Hi D. rewrite <- (R0 idx q i Rg Hq Hi D), sum3 by lia.
      destruct (n_axes nrb) as [|? [|? [|? [|? ?]]]]; cbn [length] in *; try lia; rewrite !EE by lia; assert (i = 0 \/ i = 1 \/ i = 2)%Z as [-> | [-> | ->]] by lia; try lia; cbn [Z.eqb Pos.eqb]; rring.
Qed.
Theorem scale_derivatives : forall nrb d axis nrb' xs, n_scale nrb d axis = Ok nrb' -> wf_nurbs nrb -> (1 <= length (n_axes nrb))%nat -> positive_weights nrb -> good_args (spec_axes nrb) xs ->
  exists v, meant 1 (fun x i => x) d axis v /\
  (forall order f f', (1 <= order <= 4)%Z -> differentiates_points nrb f -> differentiates_points nrb' f' -> forall j j2, exists G G',
     derivative (N:=Rn) j j2 nrb order f (map Some xs) false = Ok G /\ derivative (N:=Rn) j j2 nrb' order f' (map Some xs) false = Ok G' /\
     forall idx c D, in_range xs idx -> (0 <= c < 3)%Z -> Z.of_nat (length D) = order -> G' idx c D = v c * G idx c D) /\
  (forall f nc, differentiates_fields nrb f nc -> (forall i, (0 <= i < Z.of_nat (length (n_axes nrb)))%Z -> v i <> 0) -> forall j j2, exists G G' J,
     gradient (N:=Rn) j j2 nrb f (map Some xs) true = Ok G /\ gradient (N:=Rn) j j2 nrb' f (map Some xs) true = Ok G' /\ gradient (N:=Rn) j j2 nrb (Some (points_nd nrb)) (map Some xs) false = Ok J /\
     forall idx q i, in_range xs idx -> (0 <= q)%Z -> (0 <= i < Z.of_nat (length (n_axes nrb)))%Z -> det (length (n_axes nrb)) (fun a b => J idx a [b]) <> 0 -> G' idx q [i] = G idx q [i] / v i).
Proof.
  intros nrb d axis nrb' xs E W Hd Pw HG. unfold n_scale in E. destruct (scale ident d axis) as [M|] eqn:EM; [|discriminate]. cbn [bind] in E. injection E as <-.
  destruct (scale_spec ident d axis M EM) as (v & Hv & H). assert (A : affine M) by (apply affine_of; intros P; apply H). exists v. split; [exact Hv|].
  assert (EE : forall c k, (0 <= c < 3)%Z -> (0 <= k < 3)%Z -> M c k = if (c =? k)%Z then v c else 0).
  { intros c k Hc Hk. rewrite (entry M (fun x c => v c * x c) c k); auto.
    - unfold e3. cbv beta. destruct (c =? k)%Z; rring.
    - intros x c0 Hc0. rewrite (proj1 (H (homog x)) c0 Hc0), !id_apply by lia. unfold homog. destruct (Z.eqb_spec c0 3); [lia|]. reflexivity. }
  assert (Hd3 : (length (n_axes nrb) <= 3)%nat) by (destruct W; lia).
  split.
  - intros order f f' Ho Hf Hf' j j2. destruct (points_transform nrb M xs order f f' W Hd Pw A HG Ho Hf Hf' j j2) as (G & G' & E1 & E2 & R0). exists G, G'. split; [exact E1|]. split; [exact E2|].
    intros idx c D Rg Hc HL. rewrite (R0 idx c D Rg Hc HL), !EE by lia. assert (c = 0 \/ c = 1 \/ c = 2)%Z as [-> | [-> | ->]] by lia; cbn [Z.eqb Pos.eqb]; rring.
  - intros f nc Hf Hv0 j j2. destruct (mapped_transform nrb M xs f nc W Hd Pw A) with (j := j) (j2 := j2) as (G & G' & J & E1 & E2 & E3 & R0); auto.
    + intros r c Hr Hc. rewrite EE by lia. destruct (Z.eqb_spec r c); [lia|reflexivity].
    + destruct (n_axes nrb) as [|? [|? [|? [|? ?]]]]; cbn [length] in *; try lia; cbn [det]; rewrite !EE by lia; cbn [Z.eqb Pos.eqb].
      * apply Hv0; lia.
      * replace (v 0%Z * v 1%Z - 0 * 0) with (v 0%Z * v 1%Z) by rring. apply Rmult_integral_contrapositive_currified; apply Hv0; lia.
      * match goal with |- ?e <> 0 => replace e with (v 0%Z * v 1%Z * v 2%Z) by ring end. repeat apply Rmult_integral_contrapositive_currified; apply Hv0; lia.
    + exists G, G', J. split; [exact E1|]. split; [exact E2|]. split; [exact E3|]. intros idx q i Rg Hq Hi D. rewrite <- (R0 idx q i Rg Hq Hi D), sum3 by lia. specialize (Hv0 i Hi).
      destruct (n_axes nrb) as [|? [|? [|? [|? ?]]]]; cbn [length] in *; try lia; rewrite !EE by lia; assert (i = 0 \/ i = 1 \/ i = 2)%Z as [-> | [-> | ->]] by lia; try lia; cbn [Z.eqb Pos.eqb]; match goal with |- ?a = ?b => change (@eq R a b) end; symmetry; field; auto.
Qed.
(** The gradient as a vector of space: components beyond the dimension of the object are zero. *)
Definition in_space (d : nat) (g : Z -> R) : Z -> R := fun k => if (k <? Z.of_nat d)%Z then g k else 0.
Theorem rotate_derivatives : forall nrb a ax nrb' xs, n_rotate (N:=Rn) sin cos sqrt nrb a ax = Ok nrb' -> a <> 0 -> wf_nurbs nrb -> (1 <= length (n_axes nrb))%nat -> positive_weights nrb -> good_args (spec_axes nrb) xs ->
  exists u, axis_meant ax u /\ dot3 u u = 1 /\
  (forall order f f', (1 <= order <= 4)%Z -> differentiates_points nrb f -> differentiates_points nrb' f' -> forall j j2, exists G G',
     derivative (N:=Rn) j j2 nrb order f (map Some xs) false = Ok G /\ derivative (N:=Rn) j j2 nrb' order f' (map Some xs) false = Ok G' /\
     forall idx c D, in_range xs idx -> (0 <= c < 3)%Z -> Z.of_nat (length D) = order -> G' idx c D = rodrigues u a (fun k => G idx k D) c) /\
  (forall f nc, differentiates_fields nrb f nc -> length (n_axes nrb) = 3%nat \/ (length (n_axes nrb) = 2%nat /\ u 0%Z = 0 /\ u 1%Z = 0) -> forall j j2, exists G G' J,
     gradient (N:=Rn) j j2 nrb f (map Some xs) true = Ok G /\ gradient (N:=Rn) j j2 nrb' f (map Some xs) true = Ok G' /\ gradient (N:=Rn) j j2 nrb (Some (points_nd nrb)) (map Some xs) false = Ok J /\
     forall idx q i, in_range xs idx -> (0 <= q)%Z -> (0 <= i < Z.of_nat (length (n_axes nrb)))%Z -> det (length (n_axes nrb)) (fun a b => J idx a [b]) <> 0 ->
       G' idx q [i] = rodrigues u a (in_space (length (n_axes nrb)) (fun k => G idx q [k])) i).
Proof.
  intros nrb a ax nrb' xs E Ha W Hd Pw HG. unfold n_rotate in E. destruct (rotate (N:=Rn) sin cos sqrt ident a ax) as [M|] eqn:EM; [|discriminate]. cbn [bind] in E. injection E as <-.
  destruct (rotate_spec ident a ax M EM Ha) as (u & Hu & Hu1 & H). assert (A : affine M) by (apply affine_of; intros P; apply H). exists u. split; [exact Hu|]. split; [exact Hu1|].
  assert (EE : forall c k, (0 <= c < 3)%Z -> (0 <= k < 3)%Z -> M c k = rodrigues u a (e3 k) c).
  { intros c k Hc Hk. rewrite (entry M (rodrigues u a) c k); auto.
    - assert (Z0 : rodrigues u a (fun _ => 0) c = 0) by (unfold rodrigues, dot3, cross; destruct (c =? 0)%Z, (c =? 1)%Z; ring). rewrite Z0. rring.
    - intros x c0 Hc0. rewrite (proj1 (H (homog x)) c0 Hc0). apply rodrigues_ext; auto. intros k0 Hk0. rewrite id_apply by lia. unfold homog. destruct (Z.eqb_spec k0 3); [lia|]. reflexivity. }
  pose proof (sc1 a) as S1. assert (U1 : u 0%Z * u 0%Z + u 1%Z * u 1%Z + u 2%Z * u 2%Z = 1) by exact Hu1.
  split.
  - intros order f f' Ho Hf Hf' j j2. destruct (points_transform nrb M xs order f f' W Hd Pw A HG Ho Hf Hf' j j2) as (G & G' & E1 & E2 & R0). exists G, G'. split; [exact E1|]. split; [exact E2|].
    intros idx c D Rg Hc HL. rewrite (R0 idx c D Rg Hc HL), !EE by lia. unfold rodrigues, dot3, cross, e3. assert (c = 0 \/ c = 1 \/ c = 2)%Z as [-> | [-> | ->]] by lia; cbn [Z.eqb Pos.eqb]; rring.
  - intros f nc Hf Hd3 j j2.
    destruct (mapped_transform nrb M xs f nc W Hd Pw A) with (j := j) (j2 := j2) as (G & G' & J & E1 & E2 & E3 & R0); auto.
    + intros r c Hr Hc. destruct Hd3 as [L|(L & U0 & U1')]; rewrite L in *; [lia|]. rewrite EE by lia. replace c with 2%Z by lia.
      unfold rodrigues, dot3, cross, e3. assert (r = 0 \/ r = 1)%Z as [-> | ->] by lia; cbn [Z.eqb Pos.eqb]; rewrite U0, U1'; rring.
    + assert (K : det (length (n_axes nrb)) M = 1); [|rewrite K; apply R1_neq_R0].
      destruct Hd3 as [L|(L & U0 & U1')]; rewrite L in *; cbn [det]; rewrite !EE by lia; unfold rodrigues, dot3, cross, e3; cbn [Z.eqb Pos.eqb].
      * pose proof (u2_sq u Hu1) as Q. set (s := sin a) in *; set (c := cos a) in *; clearbody s c. generalize (u 0%Z) (u 1%Z) (u 2%Z) Q. clear - S1. intros u0 u1 u2 Q. ring [Q S1].
      * rewrite U0, U1' in *. pose proof (u2_sq u Hu1) as Q. rewrite U0, U1' in Q. set (s := sin a) in *; set (c := cos a) in *; clearbody s c. generalize (u 2%Z) Q. clear - S1. intros u2 Q. ring [Q S1].
    + exists G, G', J. split; [exact E1|]. split; [exact E2|]. split; [exact E3|]. intros idx q i Rg Hq Hi D. pose proof (fun k Hk => R0 idx q k Rg Hq Hk D) as R1. clear R0 E1 E2 E3 D. unfold in_space.
      destruct Hd3 as [L|(L & U0 & U1')]; rewrite L in *; change (Z.of_nat 3) with 3%Z in *; change (Z.of_nat 2) with 2%Z in *.
      * unfold rodrigues at 1, dot3, cross. cbn [Z.ltb Z.compare Pos.compare Pos.compare_cont Z.eqb Pos.eqb].
        pose proof (R1 0%Z ltac:(lia)) as Q0. pose proof (R1 1%Z ltac:(lia)) as Q1. pose proof (R1 2%Z ltac:(lia)) as Q2.
        change (3 - 1)%Z with (Z.of_nat 3 - 1)%Z in *. rewrite sum3, !EE in Q0 by lia. rewrite sum3, !EE in Q1 by lia. rewrite sum3, !EE in Q2 by lia.
        destruct (Z.ltb_spec i 3); [|lia].
        pose proof (u2_sq u Hu1) as Q. unfold rodrigues, dot3, cross, e3 in Q0, Q1, Q2. cbn [Z.eqb Pos.eqb] in Q0, Q1, Q2.
        set (s := sin a) in *; set (c := cos a) in *; clearbody s c. 
        assert (i = 0 \/ i = 1 \/ i = 2)%Z as [-> | [-> | ->]] by lia; cbn [Z.eqb Pos.eqb];
        revert Q0 Q1 Q2 Q; generalize (u 0%Z) (u 1%Z) (u 2%Z) (G idx q [0%Z]) (G idx q [1%Z]) (G idx q [2%Z]) (G' idx q [0%Z]) (G' idx q [1%Z]) (G' idx q [2%Z]); clear - S1;
        intros u0 u1 u2 g0 g1 g2 h0 h1 h2 <- <- <- Q; match goal with |- ?a = ?b => change (@eq R a b) end; symmetry; ring [Q S1].
      * pose proof (R1 0%Z ltac:(lia)) as Q0. pose proof (R1 1%Z ltac:(lia)) as Q1.
        change (2 - 1)%Z with (Z.of_nat 2 - 1)%Z in *. rewrite sum3, !EE in Q0 by lia. rewrite sum3, !EE in Q1 by lia.
        unfold rodrigues at 1, dot3, cross. cbn [Z.ltb Z.compare Pos.compare Pos.compare_cont Z.eqb Pos.eqb].
        destruct (Z.ltb_spec i 2); [|lia].
        pose proof (u2_sq u Hu1) as Q. unfold rodrigues, dot3, cross, e3 in Q0, Q1. cbn [Z.eqb Pos.eqb] in Q0, Q1. rewrite U0, U1' in *.
        set (s := sin a) in *; set (c := cos a) in *; clearbody s c.
        assert (i = 0 \/ i = 1)%Z as [-> | ->] by lia; cbn [Z.eqb Pos.eqb]; rewrite ?U0, ?U1';
        revert Q0 Q1 Q; generalize (u 2%Z) (G idx q [0%Z]) (G idx q [1%Z]) (G' idx q [0%Z]) (G' idx q [1%Z]); clear - S1;
        intros u2 g0 g1 h0 h1 <- <- Q; match goal with |- ?a = ?b => change (@eq R a b) end; symmetry; ring [Q S1].
Qed.
