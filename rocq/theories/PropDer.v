(** Properties of derivatives (C36, C38-C43).  Vocabulary:
    - [nth_deriv], [partials], [der_at], [der_in]: derivatives in the sense of the standard
      library (SpecDer.v); [der_in] is the mixed partial derivative of the function itself at a
      point strictly inside knot spans, [der_at] that of its restriction to the knot spans the
      point belongs to (at a knot: the spans to the right; at the end of the domain: the last);
    - [rat axs w F]: the rational field with weights [w] and control values [F];
    - [pt nrb c]: what calling the object returns (C06). *)
From Coq Require Import ZArith Reals QArith List Lia Lra Bool.
From Verif Require Import Num Loop ModelBspline ModelBSp ModelNurbs ModelDer Spec SumZ BPiece BLink ProofSpan ProofEval ExTac
  SpecNurbs SpecDer BDer ProofNet ProofCall ProofGeom2 ProofDers ProofRational ProofDerLink ProofDerApi ProofDerApi2 ProofDer4 PropNurbs.
Import ListNotations.
Local Open Scope R_scope.

(** ** C36: each entry of the table is the derivative of a basis function. *)
Theorem C36_basis_derivatives : forall p m U u d k r, (1 <= p)%Z -> wf_knots (m - p - 1) p U -> in_domain (m - p - 1) p U u ->
  (0 <= k <= d)%Z -> (d <= p)%Z -> (0 <= r <= p)%Z ->
  forall junk junk2, exists T s, bsp_EvalBasisFunsDers (N:=Rn) p m U u d (-1) junk junk2 = Some T /\
  span_of (mkAx (m - p - 1) p U) u s /\
  exists f g, (forall v, span_of (mkAx (m - p - 1) p U) v s -> f v = Nb (m - p - 1) p U (s - p + r) v) /\
    nth_deriv (Z.to_nat k) f g /\ T k r = g u.
Proof.
  intros p m U u d k r Hp W Du Hk Hd Hr junk junk2. pose proof (wf_n _ _ _ W).
  set (a := mkAx (m - p - 1) p U). assert (Wa : wf_ax a) by (split; auto).
  pose proof (FindSpan_active _ _ _ _ W Du) as A. set (s := FindSpan (N:=Rn) (m - p - 1) p u U) in *.
  eexists. exists s. split; [|split; [apply (span_of_active a); auto|]].
  - unfold bsp_EvalBasisFunsDers.
    replace ((1 <=? p) && (2 * p + 1 <=? m) && (0 <=? d) && (d <=? p))%Z with true
      by (symmetry; rewrite !andb_true_iff, !Z.leb_le; lia). reflexivity.
  - exists (gder U s p (s - p + r) 0), (gder U s p (s - p + r) (Z.to_nat k)). split; [|split].
    + intros v Hv. apply (span_of_active a) in Hv; auto. rewrite gder_0. symmetry. apply Nb_piece; auto. destruct A; lia.
    + apply gder_nth; [lia|]. apply (wf_span_ok (m - p - 1)); auto. destruct A; auto. eapply active_lt; eauto.
    + cbn [Z.leb Z.compare]. replace (m - (p + 1))%Z with (m - p - 1)%Z by lia. apply DersBasisFuns_piece; lia.
Qed.
Print Assumptions C36_basis_derivatives.
Theorem C36_zero_above_degree : forall i u p n U junk junk2 r k, (0 <= p)%Z -> (0 <= r <= p)%Z -> (p < k <= n)%Z ->
  DersBasisFuns (N:=Rn) i u p n U junk junk2 r k = 0.
Proof.
  intros. rewrite DersBasisFuns_piece by lia. unfold gder. rewrite ffact_zero by lia. apply Rmult_0_l.
Qed.
Print Assumptions C36_zero_above_degree.
Example C36_example : wf_knots (6 - 2 - 1) 2 exU /\ in_domain (6 - 2 - 1) 2 exU (1 / 2) /\
  match bsp_EvalBasisFunsDers (N:=Qn) 2 6 (fun i => nth (Z.to_nat i) [0;0;0;1;2;2;2]%Q 0%Q) (1 # 2)%Q 2 (-1) (fun _ => 7%Q) (fun _ _ => 9%Q) with
  | Some T => map (fun k => map (T k) [0; 1; 2]%Z) [0; 1; 2]%Z = [[1 # 4; 5 # 8; 1 # 8]; [-1 # 1; 1 # 2; 1 # 2]; [2 # 1; -3 # 1; 1 # 1]]%Q
  | None => False end.
Proof.
  split; [exact exU_wf|]. split; [unfold in_domain, exU; simpl; arr_lra|]. vm_compute. reflexivity.
Qed.

(** ** C38: derivatives of order one to three. *)

(** The field that is differentiated: an array of the shape of the net (one value per control
    point), an array with one more axis, the fields of the object, or else its points. *)
Definition field_of (nrb : nurbs Rn) (fields : option (nd Rn)) (nc : Z) (F : list Z -> Z -> R) : Prop :=
  match fields with
  | Some A => (nd_shape A = n_shape nrb /\ nc = 1%Z /\ F = fun i _ => nd_get A i) \/
              (nd_shape A = n_shape nrb ++ [nc] /\ (1 <= nc)%Z /\ F = fun i c => nd_get A (i ++ [c]))
  | None => (n_comp nrb = 4%Z /\ nc = 3%Z /\ F = fun i c => n_arr nrb i c / n_arr nrb i 3%Z) \/
            ((4 < n_comp nrb)%Z /\ nc = (n_comp nrb - 4)%Z /\ F = fun i c => n_arr nrb i (4 + c)%Z / n_arr nrb i 3%Z)
  end.
Lemma shape_eqb_refl l : shape_eqb l l = true.
Proof. induction l; simpl; auto. rewrite Z.eqb_refl. auto. Qed.
Lemma shape_eqb_app l c : shape_eqb (l ++ [c]) l = false.
Proof. induction l; simpl; auto. rewrite Z.eqb_refl. auto. Qed.
Lemma field_of_ok nrb fields nc F : field_of nrb fields nc F -> der_fields (N:=Rn) nrb fields = Ok (nc, F) /\ (1 <= nc)%Z.
Proof.
  unfold field_of, der_fields. destruct fields as [A|].
  - intros [[E [-> ->]]|[E [H ->]]].
    + rewrite E, shape_eqb_refl. split; [reflexivity|lia].
    + rewrite E, shape_eqb_app. split; auto. rewrite app_length. cbn [length].
      replace (Z.of_nat (length (n_shape nrb) + 1) - 1 =? Z.of_nat (length (n_shape nrb)))%Z with true by (symmetry; apply Z.eqb_eq; lia).
      cbn [assert bind]. rewrite removelast_last, shape_eqb_refl, last_last. reflexivity.
  - unfold n_fields. intros [[E [-> ->]]|[E [-> ->]]].
    + rewrite E. cbn. split; [reflexivity|lia].
    + destruct (Z.leb_spec (n_comp nrb) 4); [lia|]. split; [reflexivity|lia].
Qed.

Notation wt nrb := (fun i => n_arr nrb i 3%Z).
(** The field as a function of the parameters, and the weight function. *)
Definition fieldfn (nrb : nurbs Rn) (F : list Z -> Z -> R) (c : Z) : list R -> R := rat (spec_axes nrb) (wt nrb) (fun i => F i c).
Definition weightfn (nrb : nurbs Rn) : list R -> R := tsum (spec_axes nrb) (wt nrb).

Theorem C38_derivatives : forall nrb xs fields nc F order, wf_nurbs nrb -> (1 <= length (n_axes nrb))%nat ->
  good_args (spec_axes nrb) xs -> field_of nrb fields nc F -> (1 <= order <= 3)%Z ->
  forall junk junk2, exists G, derivative (N:=Rn) junk junk2 nrb order fields (map Some xs) false = Ok G /\
  forall idx c D, in_range xs idx -> Z.of_nat (length D) = order -> dirs (length (n_axes nrb)) D ->
    der_at (spec_axes nrb) (fieldfn nrb F c) (weightfn nrb) (params xs idx) (map Z.to_nat D) (G idx c D) /\
    (inside (spec_axes nrb) (params xs idx) (params xs idx) ->
     der_in (spec_axes nrb) (fieldfn nrb F c) (weightfn nrb) (params xs idx) (map Z.to_nat D) (G idx c D)).
Proof.
  intros nrb xs fields nc F order W Hd G HF Ho junk junk2. destruct (field_of_ok _ _ _ _ HF) as [EF Hnc].
  eexists. split; [apply (der_core_ok junk junk2 nrb order fields xs nc F false); auto; [lia|discriminate]|].
  intros idx c D Rg HL HD. cbv zeta. cbn [snd]. rewrite <- HL.
  destruct (der_value junk junk2 nrb xs idx (n_arr nrb) (fun i => F i c) D W Hd G Rg HD) as [ss [A E]].
  { split; lia. }
  cbv zeta in E. rewrite E. clear E.
  assert (HD' : Forall (fun k => (k < length (spec_axes nrb))%nat) (map Z.to_nat D)).
  { unfold spec_axes. rewrite map_length, Forall_map. eapply Forall_impl; [|exact HD]. simpl. intros; lia. }
  assert (HL' : (length (map Z.to_nat D) <= 4)%nat) by (rewrite map_length; lia).
  assert (E : match D with
    | [l; k; j; i] => Qd (spec_axes nrb) ss (fun i => n_arr nrb i 3%Z * F i c) (wt nrb) (map Z.to_nat [k; j; i]) (params xs idx)
                    * Pd (spec_axes nrb) ss (wt nrb) [l + 1]%Z (params xs idx) / tsum (spec_axes nrb) (wt nrb) (params xs idx)
    | _ => 0 end = 0).
  { destruct D as [|? [|? [|? [|? [|? ?]]]]]; auto. simpl in HL. lia. }
  rewrite E, Rplus_0_r. destruct W as [_ [Wx _]]. split.
  - apply Qd_der_at; auto.
  - intros Ix. apply Qd_der_in; auto.
Qed.
Print Assumptions C38_derivatives.

(** gradient gives the first derivatives, hessian the second ones: entry [i] and entry [i, j] of the last axes. *)
Theorem C38_gradient : forall nrb xs fields nc F, wf_nurbs nrb -> (1 <= length (n_axes nrb))%nat ->
  good_args (spec_axes nrb) xs -> field_of nrb fields nc F ->
  forall junk junk2, exists G, gradient (N:=Rn) junk junk2 nrb fields (map Some xs) false = Ok G /\
  forall idx c i, in_range xs idx -> (0 <= i < Z.of_nat (length (n_axes nrb)))%Z ->
    der_at (spec_axes nrb) (fieldfn nrb F c) (weightfn nrb) (params xs idx) [Z.to_nat i] (G idx c [i]) /\
    (inside (spec_axes nrb) (params xs idx) (params xs idx) ->
     der_in (spec_axes nrb) (fieldfn nrb F c) (weightfn nrb) (params xs idx) [Z.to_nat i] (G idx c [i])).
Proof.
  intros nrb xs fields nc F W Hd G HF junk junk2. destruct (C38_derivatives nrb xs fields nc F 1 W Hd G HF ltac:(lia) junk junk2) as (g & E & H).
  exists g. split; [exact E|]. intros idx c i I Hi. apply (H idx c [i] I eq_refl). repeat constructor; lia.
Qed.
Print Assumptions C38_gradient.
Theorem C38_hessian : forall nrb xs fields nc F, wf_nurbs nrb -> (1 <= length (n_axes nrb))%nat ->
  good_args (spec_axes nrb) xs -> field_of nrb fields nc F ->
  forall junk junk2, exists H, hessian (N:=Rn) junk junk2 nrb fields (map Some xs) false = Ok H /\
  forall idx c i j, in_range xs idx -> (0 <= i < Z.of_nat (length (n_axes nrb)))%Z -> (0 <= j < Z.of_nat (length (n_axes nrb)))%Z ->
    der_at (spec_axes nrb) (fieldfn nrb F c) (weightfn nrb) (params xs idx) [Z.to_nat i; Z.to_nat j] (H idx c [i; j]) /\
    (inside (spec_axes nrb) (params xs idx) (params xs idx) ->
     der_in (spec_axes nrb) (fieldfn nrb F c) (weightfn nrb) (params xs idx) [Z.to_nat i; Z.to_nat j] (H idx c [i; j])).
Proof.
  intros nrb xs fields nc F W Hd G HF junk junk2. destruct (C38_derivatives nrb xs fields nc F 2 W Hd G HF ltac:(lia) junk junk2) as (g & E & H).
  exists g. split; [exact E|]. intros idx c i j I Hi Hj. apply (H idx c [i; j] I eq_refl). repeat constructor; lia.
Qed.
Print Assumptions C38_hessian.

(** Without a field argument: the derivatives of what calling the object returns. *)
Theorem C38_own_derivatives : forall nrb xs order, wf_nurbs nrb -> (1 <= length (n_axes nrb))%nat ->
  good_args (spec_axes nrb) xs -> (1 <= order <= 3)%Z -> (forall i, in_net (spec_axes nrb) i -> n_arr nrb i 3%Z <> 0) ->
  let c0 := if (n_comp nrb =? 4)%Z then 0%Z else 4%Z in
  forall junk junk2, exists G, derivative (N:=Rn) junk junk2 nrb order None (map Some xs) false = Ok G /\
  forall idx c D, in_range xs idx -> Z.of_nat (length D) = order -> dirs (length (n_axes nrb)) D ->
    inside (spec_axes nrb) (params xs idx) (params xs idx) ->
    der_in (spec_axes nrb) (pt nrb (c0 + c)) (hom nrb 3) (params xs idx) (map Z.to_nat D) (G idx c D).
Proof.
  intros nrb xs order W Hd G Ho Hw c0 junk junk2.
  set (F := fun i c => n_arr nrb i (c0 + c)%Z / n_arr nrb i 3%Z).
  assert (HF : exists nc, field_of nrb None nc F).
  { unfold field_of, F, c0. destruct W as [_ [_ Hc]]. destruct (Z.eqb_spec (n_comp nrb) 4) as [E|E].
    - exists 3%Z. left. auto.
    - exists (n_comp nrb - 4)%Z. right. split; [lia|auto]. }
  destruct HF as [nc HF].
  destruct (C38_derivatives nrb xs None nc F order W Hd G HF Ho junk junk2) as [g [E H]].
  exists g. split; auto. intros idx c D Rg HL HD Ix. destruct (H idx c D Rg HL HD) as [_ H2]. specialize (H2 Ix).
  destruct H2 as [h [P ->]]. exists h. split; auto.
  assert (EQ : forall y, length y = length (spec_axes nrb) -> fieldfn nrb F c y = pt nrb (c0 + c) y).
  { intros y Ly. unfold fieldfn, rat, pt, hom. f_equal. apply tsum_ext; auto. intros i Hi. unfold F. field. auto. }
  eapply partials_local; [| |exact P].
  - intros y [Iy _]. apply EQ. apply (inside_len _ _ _ Iy).
  - intros y k [Iy _]. exists 1. split; [lra|]. intros t _. apply EQ. rewrite put_length. apply (inside_len _ _ _ Iy).
Qed.
Print Assumptions C38_own_derivatives.

(** ** C41: the tables of mixed derivatives. *)
Theorem C41_tables2 : forall (Mx My : Z -> Z -> R) D i j, (length D <= 4)%nat -> Forall (fun d => d = 1 \/ d = 2)%Z D ->
  TensorProd2 (N:=Rn) Mx My D i j = Mx i (Z.of_nat (count_occ Z.eq_dec D 1%Z)) * My j (Z.of_nat (count_occ Z.eq_dec D 2%Z)).
Proof.
  intros Mx My D i j HL HD. destruct D as [|d1 [|d2 [|d3 [|d4 [|d5 D]]]]]; simpl in HL; try lia;
  repeat match goal with H : Forall _ (_ :: _) |- _ => inversion H; clear H; subst end;
  repeat match goal with H : (_ = 1 \/ _ = 2)%Z |- _ => destruct H; subst end; reflexivity.
Qed.
Print Assumptions C41_tables2.
Theorem C41_tables3 : forall (Mx My Mz : Z -> Z -> R) D i j k, (length D <= 4)%nat -> Forall (fun d => d = 1 \/ d = 2 \/ d = 3)%Z D ->
  TensorProd3 (N:=Rn) Mx My Mz D i j k =
    Mx i (Z.of_nat (count_occ Z.eq_dec D 1%Z)) * My j (Z.of_nat (count_occ Z.eq_dec D 2%Z)) * Mz k (Z.of_nat (count_occ Z.eq_dec D 3%Z)).
Proof.
  intros Mx My Mz D i j k HL HD. destruct D as [|d1 [|d2 [|d3 [|d4 [|d5 D]]]]]; simpl in HL; try lia;
  repeat match goal with H : Forall _ (_ :: _) |- _ => inversion H; clear H; subst end;
  repeat match goal with H : (_ = 1 \/ _ = 2 \/ _ = 3)%Z |- _ => destruct H as [H|[H|H]]; subst end; reflexivity.
Qed.
Print Assumptions C41_tables3.
Example C41_example : Forall (fun d => d = 1 \/ d = 2 \/ d = 3)%Z [3; 1; 3; 2]%Z /\
  TensorProd3 (N:=Qn) (fun _ k => inject_Z (10 + k)) (fun _ k => inject_Z (20 + k)) (fun _ k => inject_Z (30 + k)) [3; 1; 3; 2]%Z 0 0 0 = (11 * 21 * 32 # 1)%Q.
Proof. split; [repeat (constructor; [lia|]); constructor|]. vm_compute. reflexivity. Qed.

(** ** C42: derivatives of a constant field vanish, for all orders up to four. *)
Theorem C42_constant : forall nrb xs fields nc F order k c, wf_nurbs nrb -> (1 <= length (n_axes nrb))%nat ->
  good_args (spec_axes nrb) xs -> field_of nrb fields nc F -> (1 <= order <= 4)%Z ->
  (forall i, in_net (spec_axes nrb) i -> F i c = k) ->
  forall junk junk2, exists G, derivative (N:=Rn) junk junk2 nrb order fields (map Some xs) false = Ok G /\
  forall idx D, in_range xs idx -> Z.of_nat (length D) = order -> weightfn nrb (params xs idx) <> 0 ->
    G idx c D = 0 /\ fieldfn nrb F c (params xs idx) = k.
Proof.
  intros nrb xs fields nc F order k c W Hd G HF Ho Hk junk junk2. destruct (field_of_ok _ _ _ _ HF) as [EF Hnc].
  eexists. split; [apply (der_core_ok junk junk2 nrb order fields xs nc F false); auto; discriminate|].
  intros idx D Rg HL Hw. cbv zeta. split.
  - apply der_const with (k := k); auto; [lia|rewrite map_length, rev_length; lia].
  - unfold fieldfn, rat. assert (Lp : length (params xs idx) = length (spec_axes nrb)).
    { symmetry. eapply Forall2_len. eapply params_box; eauto. }
    rewrite (tsum_ext _ _ (fun i => k * n_arr nrb i 3%Z)); auto.
    + rewrite tsum_scal by auto. unfold weightfn in Hw. field. auto.
    + intros i Hi. rewrite Hk by auto. ring.
Qed.
Print Assumptions C42_constant.

(** ** C43: mapped gradients. *)
(** The Jacobian matrix, as the unmapped gradient of the points. *)
Definition points_nd (nrb : nurbs Rn) : nd Rn :=
  mkNd (N:=Rn) (n_shape nrb ++ [3]%Z) (fun i => n_points (N:=Rn) nrb (removelast i) (last i 0%Z)).
Theorem C43_mapped_gradient : forall nrb xs fields nc F, wf_nurbs nrb -> (1 <= length (n_axes nrb))%nat ->
  good_args (spec_axes nrb) xs -> field_of nrb fields nc F ->
  forall junk junk2, exists G g J,
  gradient (N:=Rn) junk junk2 nrb fields (map Some xs) true = Ok G /\
  gradient (N:=Rn) junk junk2 nrb fields (map Some xs) false = Ok g /\
  gradient (N:=Rn) junk junk2 nrb (Some (points_nd nrb)) (map Some xs) false = Ok J /\
  forall idx c j, in_range xs idx -> (0 <= j < Z.of_nat (length (n_axes nrb)))%Z ->
    det (length (n_axes nrb)) (fun a b => J idx a [b]) <> 0 ->
    sumZ 0 (Z.of_nat (length (n_axes nrb)) - 1) (fun i => G idx c [i] * J idx i [j]) = g idx c [j].
Proof.
  intros nrb xs fields nc F W Hd G HF junk junk2. destruct (field_of_ok _ _ _ _ HF) as [EF Hnc].
  assert (HP : field_of nrb (Some (points_nd nrb)) 3 (fun i c => nd_get (points_nd nrb) (i ++ [c]))).
  { right. split; [reflexivity|]. split; [lia|reflexivity]. }
  destruct (field_of_ok _ _ _ _ HP) as [EP _].
  eexists. eexists. eexists.
  split; [apply (der_core_ok junk junk2 nrb 1 fields xs nc F true); auto; lia|].
  split; [apply (der_core_ok junk junk2 nrb 1 fields xs nc F false); auto; lia|].
  split; [apply (der_core_ok junk junk2 nrb 1 _ xs _ _ false W G ltac:(lia) EP); [lia|discriminate]|].
  intros idx c j Rg Hj Hdet. cbv zeta in *. cbn [rev app map nth] in *.
  set (ds := d_axes (N:=Rn) (n_axes nrb) xs idx) in *.
  assert (EJ : forall a b, d_interp (N:=Rn) junk junk2 1 ds (n_arr nrb) (fun i => nd_get (points_nd nrb) (i ++ [a])) [b + 1]%Z = Jmat junk junk2 ds (n_arr nrb) (a + 1) (b + 1)).
  { intros a b. unfold Jmat, d_interp, Interpolate. rewrite !asum_lsum. apply lsum_ext. intros t _. cbn [points_nd nd_get].
    rewrite removelast_last, last_last. replace (a + 1 - 1)%Z with a by lia. reflexivity. }
  assert (Ld : length ds = length (n_axes nrb)).
  { destruct W as [_ [W _]]. destruct (d_axes_ok _ xs idx W G Rg) as [E _]. fold ds in E. apply (f_equal (@length _)) in E. rewrite !map_length in E. auto. }
  assert (HD : Determinant (N:=Rn) (Z.of_nat (length ds)) (Jmat junk junk2 ds (n_arr nrb)) <> 0).
  { rewrite Determinant_det by (destruct W; lia). rewrite Ld. intros E. apply Hdet. rewrite <- E.
    unfold det. destruct (length (n_axes nrb)) as [|[|[|[|n]]]]; rewrite ?EJ; reflexivity. }
  rewrite <- Ld. transitivity (sumZ 1 (Z.of_nat (length ds)) (fun i => d_mapped (N:=Rn) junk junk2 ds (n_arr nrb) (fun i => F i c) i * Jmat junk junk2 ds (n_arr nrb) i (j + 1))).
  - replace (Z.of_nat (length ds)) with (Z.of_nat (length ds) - 1 + 1)%Z at 2 by lia. rewrite (sumZ_shift 0 _ 1). apply sumZ_ext. intros i Hi. rewrite EJ. reflexivity.
  - apply (mapped_chain junk junk2 ds (n_arr nrb)); auto; destruct W; lia.
Qed.
Print Assumptions C43_mapped_gradient.

Theorem C43_identity : forall nrb xs, wf_nurbs nrb -> (1 <= length (n_axes nrb))%nat -> good_args (spec_axes nrb) xs ->
  forall junk junk2, exists G J,
  gradient (N:=Rn) junk junk2 nrb (Some (points_nd nrb)) (map Some xs) true = Ok G /\
  gradient (N:=Rn) junk junk2 nrb (Some (points_nd nrb)) (map Some xs) false = Ok J /\
  forall idx c i, in_range xs idx -> (0 <= c < Z.of_nat (length (n_axes nrb)))%Z -> (0 <= i < Z.of_nat (length (n_axes nrb)))%Z ->
    det (length (n_axes nrb)) (fun a b => J idx a [b]) <> 0 ->
    G idx c [i] = if (i =? c)%Z then 1 else 0.
Proof.
  intros nrb xs W Hd G junk junk2. 
  assert (HP : field_of nrb (Some (points_nd nrb)) 3 (fun i c => nd_get (points_nd nrb) (i ++ [c]))).
  { right. split; [reflexivity|]. split; [lia|reflexivity]. }
  destruct (field_of_ok _ _ _ _ HP) as [EP _].
  eexists. eexists.
  split; [apply (der_core_ok junk junk2 nrb 1 _ xs _ _ true W G ltac:(lia) EP); [lia|auto]|].
  split; [apply (der_core_ok junk junk2 nrb 1 _ xs _ _ false W G ltac:(lia) EP); [lia|discriminate]|].
  intros idx c i Rg Hc Hi Hdet. cbv zeta in *. cbn [rev app map nth] in *.
  set (ds := d_axes (N:=Rn) (n_axes nrb) xs idx) in *.
  assert (EJ : forall a b, d_interp (N:=Rn) junk junk2 1 ds (n_arr nrb) (fun i => nd_get (points_nd nrb) (i ++ [a])) [b + 1]%Z = Jmat junk junk2 ds (n_arr nrb) (a + 1) (b + 1)).
  { intros a b. unfold Jmat, d_interp, Interpolate. rewrite !asum_lsum. apply lsum_ext. intros t _. cbn [points_nd nd_get].
    rewrite removelast_last, last_last. replace (a + 1 - 1)%Z with a by lia. reflexivity. }
  assert (Ld : length ds = length (n_axes nrb)).
  { destruct W as [_ [W _]]. destruct (d_axes_ok _ xs idx W G Rg) as [E _]. fold ds in E. apply (f_equal (@length _)) in E. rewrite !map_length in E. auto. }
  assert (HD : Determinant (N:=Rn) (Z.of_nat (length ds)) (Jmat junk junk2 ds (n_arr nrb)) <> 0).
  { rewrite Determinant_det by (destruct W; lia). rewrite Ld. intros E. apply Hdet. rewrite <- E.
    unfold det. destruct (length (n_axes nrb)) as [|[|[|[|n]]]]; rewrite ?EJ; reflexivity. }
  replace (i =? c)%Z with (i + 1 =? c + 1)%Z by (destruct (Z.eqb_spec i c), (Z.eqb_spec (i + 1) (c + 1)); auto; lia).
  rewrite <- (mapped_id junk junk2 ds (n_arr nrb) (i + 1) (c + 1)); auto; try (destruct W; lia).
  rewrite !d_mapped_eq. apply for_up_ext. intros k s Hk. f_equal. f_equal. unfold d_interp, Interpolate. rewrite !asum_lsum.
  apply lsum_ext. intros t _. cbn [points_nd nd_get]. rewrite removelast_last, last_last. replace (c + 1 - 1)%Z with c by lia. reflexivity.
Qed.
Print Assumptions C43_identity.

(** ** C39, C40: fourth derivatives. *)

(** For surfaces and volumes the value returned for order four is the true derivative plus a
    term: third derivative times derivative of the weight function divided by the weight. *)
Theorem C39_fourth_characterised : forall nrb xs fields nc F, wf_nurbs nrb -> (2 <= length (n_axes nrb))%nat ->
  good_args (spec_axes nrb) xs -> field_of nrb fields nc F ->
  forall junk junk2, exists G, derivative (N:=Rn) junk junk2 nrb 4 fields (map Some xs) false = Ok G /\
  forall idx c l k j i, in_range xs idx -> dirs (length (n_axes nrb)) [l; k; j; i] ->
    let x := params xs idx in
    inside (spec_axes nrb) x x ->
    exists t t3 dW,
      der_in (spec_axes nrb) (fieldfn nrb F c) (weightfn nrb) x (map Z.to_nat [l; k; j; i]) t /\
      der_in (spec_axes nrb) (fieldfn nrb F c) (weightfn nrb) x (map Z.to_nat [k; j; i]) t3 /\
      spl_in (spec_axes nrb) (wt nrb) x [Z.to_nat l] dW /\
      G idx c [l; k; j; i] = t + t3 * dW / weightfn nrb x.
Proof.
  intros nrb xs fields nc F W Hd G HF junk junk2. destruct (field_of_ok _ _ _ _ HF) as [EF Hnc].
  eexists. split; [apply (der_core_ok junk junk2 nrb 4 fields xs nc F false); auto; [lia|discriminate]|].
  intros idx c l k j i Rg HD x Ix.
  destruct (der_value junk junk2 nrb xs idx (n_arr nrb) (fun i => F i c) [l; k; j; i] W ltac:(lia) G Rg HD) as [ss [A E]].
  { split; simpl; lia. }
  assert (HD' : Forall (fun k => (k < length (spec_axes nrb))%nat) (map Z.to_nat [l; k; j; i])).
  { unfold spec_axes. rewrite map_length, Forall_map. eapply Forall_impl; [|exact HD]. simpl. intros; lia. }
  destruct W as [W1 [Wx W2]].
  exists (Qd (spec_axes nrb) ss (fun i => n_arr nrb i 3%Z * F i c) (wt nrb) (map Z.to_nat [l; k; j; i]) x),
         (Qd (spec_axes nrb) ss (fun i => n_arr nrb i 3%Z * F i c) (wt nrb) (map Z.to_nat [k; j; i]) x),
         (Pd (spec_axes nrb) ss (wt nrb) [l + 1]%Z x).
  split; [|split; [|split]].
  - apply Qd_der_in; auto.
  - apply Qd_der_in; auto. inversion HD'; auto.
  - inversion HD' as [|? ? Hl' _]; subst. replace (l + 1)%Z with (Z.of_nat (Z.to_nat l) + 1)%Z by (inversion HD; lia). apply Pd_spl_in; auto.
  - exact E.
Qed.
Print Assumptions C39_fourth_characterised.

(** With equal weights the value is right (surfaces and volumes). *)
Theorem C39_equal_weights : forall nrb xs fields nc F w0, wf_nurbs nrb -> (2 <= length (n_axes nrb))%nat ->
  good_args (spec_axes nrb) xs -> field_of nrb fields nc F -> (forall i, in_net (spec_axes nrb) i -> n_arr nrb i 3%Z = w0) ->
  forall junk junk2, exists G, derivative (N:=Rn) junk junk2 nrb 4 fields (map Some xs) false = Ok G /\
  forall idx c D, in_range xs idx -> length D = 4%nat -> dirs (length (n_axes nrb)) D ->
    der_at (spec_axes nrb) (fieldfn nrb F c) (weightfn nrb) (params xs idx) (map Z.to_nat D) (G idx c D).
Proof.
  intros nrb xs fields nc F w0 W Hd G HF Hw junk junk2. destruct (field_of_ok _ _ _ _ HF) as [EF Hnc].
  eexists. split; [apply (der_core_ok junk junk2 nrb 4 fields xs nc F false); auto; [lia|discriminate]|].
  intros idx c D Rg HL HD. cbv zeta. cbn [snd].
  destruct (der_value junk junk2 nrb xs idx (n_arr nrb) (fun i => F i c) D W ltac:(lia) G Rg HD) as [ss [A E]].
  { split; simpl; lia. }
  cbv zeta in E. rewrite HL in E. change (Z.of_nat 4) with 4%Z in E. rewrite E. clear E.
  assert (HD' : Forall (fun k => (k < length (spec_axes nrb))%nat) (map Z.to_nat D)).
  { unfold spec_axes. rewrite map_length, Forall_map. eapply Forall_impl; [|exact HD]. simpl. intros; lia. }
  assert (E : match D with
    | [l; k; j; i] => Qd (spec_axes nrb) ss (fun i => n_arr nrb i 3%Z * F i c) (wt nrb) (map Z.to_nat [k; j; i]) (params xs idx)
                    * Pd (spec_axes nrb) ss (wt nrb) [l + 1]%Z (params xs idx) / tsum (spec_axes nrb) (wt nrb) (params xs idx)
    | _ => 0 end = 0).
  { destruct W as [_ [Wx _]]. destruct D as [|l [|? [|? [|? [|? ?]]]]]; try (simpl in HL; lia).
    rewrite (Pd_const (spec_axes nrb) ss _ w0); [unfold Rdiv; ring| | | | | |].
    - eapply act_box_good; eauto.
    - eapply act_box_range; eauto.
    - auto.
    - constructor; [|constructor]. unfold spec_axes. rewrite map_length. inversion HD; subst. lia.
    - discriminate.
    - apply (act_box_lens _ _ _ A). }
  rewrite E, Rplus_0_r. destruct W as [_ [Wx _]]. apply Qd_der_at; auto. rewrite map_length. lia.
Qed.
Print Assumptions C39_equal_weights.

(** For a curve with equal weights the value returned for order four is the one returned for
    order three. *)
Theorem C40_fourth_is_third : forall nrb xs fields nc F w0, wf_nurbs nrb -> length (n_axes nrb) = 1%nat ->
  good_args (spec_axes nrb) xs -> field_of nrb fields nc F -> (forall i, in_net (spec_axes nrb) i -> n_arr nrb i 3%Z = w0) -> w0 <> 0 ->
  forall junk junk2, exists G4 G3,
  derivative (N:=Rn) junk junk2 nrb 4 fields (map Some xs) false = Ok G4 /\
  derivative (N:=Rn) junk junk2 nrb 3 fields (map Some xs) false = Ok G3 /\
  forall idx c, in_range xs idx -> G4 idx c [0; 0; 0; 0]%Z = G3 idx c [0; 0; 0]%Z.
Proof.
  intros nrb xs fields nc F w0 W Hd G HF Hw Hne junk junk2. destruct (field_of_ok _ _ _ _ HF) as [EF Hnc].
  eexists. eexists. split; [apply (der_core_ok junk junk2 nrb 4 fields xs nc F false); auto; [lia|discriminate]|].
  split; [apply (der_core_ok junk junk2 nrb 3 fields xs nc F false); auto; [lia|discriminate]|].
  intros idx c Rg. cbv zeta. cbn [snd rev app map]. destruct W as [_ [Wx _]].
  destruct (d_axes_ok _ xs idx Wx G Rg) as [E1 [E2 [E3 E4]]]. change (map spec_ax (n_axes nrb)) with (spec_axes nrb) in *.
  set (ds := d_axes (N:=Rn) (n_axes nrb) xs idx) in *.
  assert (Ld : length ds = 1%nat).
  { apply (f_equal (@length _)) in E1. unfold spec_axes in E1. rewrite !map_length in E1. lia. }
  destruct ds as [|A [|? ?]]; try discriminate. cbn [map] in *. rewrite <- E1, <- E2 in *.
  apply (curve4 junk junk2 A (n_arr nrb) (fun i => F i c) w0); auto. inversion Wx; auto.
Qed.
Print Assumptions C40_fourth_is_third.
(** A quadratic curve of four points, all weights 2. *)
Definition exW2 : nurbs Rn := mkNurbs [mkAxis (N:=Rn) 4 7 exU] 4 (fun idx c => if (c =? 3)%Z then 2 else IZR (nth 0 idx 0 * nth 0 idx 0 + c)%Z).
Example C40_example : wf_nurbs exW2 /\ length (n_axes exW2) = 1%nat /\ good_args (spec_axes exW2) [mkVec (N:=Rn) 1 (fun _ => 1 / 2)] /\
  field_of exW2 None 3 (fun i c => n_arr exW2 i c / n_arr exW2 i 3%Z) /\ (forall i, in_net (spec_axes exW2) i -> n_arr exW2 i 3%Z = 2) /\ 2 <> 0.
Proof.
  split; [|split; [reflexivity|]; split; [|split; [left; auto|split; [reflexivity|lra]]]].
  - split; [simpl; lia|]. split; [|simpl; lia]. constructor; [|constructor]. split; simpl; [unfold a_deg; simpl; lia|exact exU_wf].
  - constructor; [|constructor]. split; [simpl; lia|]. intros i Hi. unfold in_domain. cbn. unfold exU. split; arr_lra.
Qed.

(** *** Witnesses *)
Definition lin : Z -> R := arr [0; 0; 1; 1].
Lemma lin_wf : wf_knots 1 1 lin.
Proof. unfold lin. wf_list 0%Z 2%Z. Qed.
(** Bilinear surface with weights 1, 2 in the first direction; the field is 2u/(1+u). *)
Definition exR : nurbs Rn :=
  mkNurbs [mkAxis (N:=Rn) 2 4 lin; mkAxis (N:=Rn) 2 4 lin] 4 (fun idx c => if (c =? 3)%Z then IZR (1 + nth 0 idx 0)%Z else 0).
Lemma exR_wf : wf_nurbs exR.
Proof.
  split; [simpl; lia|]. split; [|simpl; lia].
  constructor; [|constructor; [|constructor]]; split; simpl; try (unfold a_deg; simpl; lia); exact lin_wf.
Qed.
Definition exRF : nd Rn := mkNd (N:=Rn) [2; 2]%Z (fun idx => IZR (nth 0 idx 0%Z)).
Definition exRx : list (vec Rn) := [mkVec (N:=Rn) 1 (fun _ => 1 / 2); mkVec (N:=Rn) 1 (fun _ => 1 / 2)].
Lemma exRx_good : good_args (spec_axes exR) exRx.
Proof.
  constructor; [|constructor; [|constructor]]; (split; [simpl; lia|]); intros i Hi; unfold in_domain; cbn; unfold lin; arr_lra.
Qed.
Lemma exR_inside : inside (spec_axes exR) [1 / 2; 1 / 2] [1 / 2; 1 / 2].
Proof.
  simpl. repeat split; auto; exists 1%Z; cbn; (split; [lia|]); unfold lin; arr_lra.
Qed.
Lemma exR_box : act_box (spec_axes exR) [1; 1]%Z [1 / 2; 1 / 2].
Proof.
  constructor; [|constructor; [|constructor]]; (split; [cbn; lia|]); left; cbn; unfold lin; arr_lra.
Qed.
Ltac kn := repeat match goal with |- context [lin ?z] => let y := eval compute in z in
    lazymatch y with
    | 0%Z => change (lin z) with 0 | 1%Z => change (lin z) with 0 | 2%Z => change (lin z) with 1 | 3%Z => change (lin z) with 1
    end end.
Lemma lin_0 u : gder lin 1 1 0 0 u = 1 - u.
Proof. rewrite gder_0. change (Z.to_nat 1) with 1%nat. cbn [B]. kn. simpl Z.eqb. cbv iota. rewrite Rmult_0_r. field. Qed.
Lemma lin_1 u : gder lin 1 1 1 0 u = u.
Proof. rewrite gder_0. change (Z.to_nat 1) with 1%nat. cbn [B]. kn. simpl Z.eqb. cbv iota. rewrite Rmult_0_r. field. Qed.
Lemma lin_d0 u : gder lin 1 1 0 1 u = -1.
Proof.
  unfold gder. change (Z.of_nat 1) with 1%Z. change (Z.to_nat (1 - 1)) with 0%nat. rewrite sumZ_first, sumZ_single by lia.
  cbn [B ac ffact]. simpl Z.eqb. simpl (_ * _)%Z. cbv iota. kn. rewrite Rmult_0_r. field.
Qed.
Lemma lin_d1 u : gder lin 1 1 1 1 u = 1.
Proof.
  unfold gder. change (Z.of_nat 1) with 1%Z. change (Z.to_nat (1 - 1)) with 0%nat. rewrite sumZ_first, sumZ_single by lia.
  cbn [B ac ffact]. simpl Z.eqb. simpl (_ * _)%Z. cbv iota. kn. rewrite Rmult_0_r. field.
Qed.
Lemma lin_dd i m u : (2 <= m)%nat -> gder lin 1 1 i m u = 0.
Proof. intros. unfold gder. rewrite ffact_zero by lia. ring. Qed.
Lemma sum01 f : sumZ 0 1 f = f 0%Z + f 1%Z.
Proof. rewrite sumZ_first, sumZ_single by lia. reflexivity. Qed.
Lemma exR_Hd P m u v : Hd (spec_axes exR) [1; 1]%Z [m; O] P [u; v] =
  gder lin 1 1 0 m u * ((1 - v) * P [0; 0]%Z + v * P [0; 1]%Z) + gder lin 1 1 1 m u * ((1 - v) * P [1; 0]%Z + v * P [1; 1]%Z).
Proof.
  cbn [Hd spec_axes map n_axes exR spec_ax x_p x_U a_knots]. change (a_deg (mkAxis (N:=Rn) 2 4 lin)) with 1%Z.
  change (1 - 1)%Z with 0%Z. rewrite !sum01. rewrite lin_0, lin_1. reflexivity.
Qed.
Definition exRw : list Z -> R := wt exR.
Definition exRn : list Z -> R := fun i => n_arr exR i 3%Z * nd_get exRF i.
Local Notation at_ := [1 / 2; 1 / 2].
Lemma exR_vals :
  Pd (spec_axes exR) [1; 1]%Z exRw [] at_ = 3 / 2 /\ Pd (spec_axes exR) [1; 1]%Z exRw [1]%Z at_ = 1 /\
  Pd (spec_axes exR) [1; 1]%Z exRw [1; 1]%Z at_ = 0 /\ Pd (spec_axes exR) [1; 1]%Z exRw [1; 1; 1]%Z at_ = 0 /\
  Pd (spec_axes exR) [1; 1]%Z exRn [] at_ = 1 /\ Pd (spec_axes exR) [1; 1]%Z exRn [1]%Z at_ = 2 /\
  Pd (spec_axes exR) [1; 1]%Z exRn [1; 1]%Z at_ = 0 /\ Pd (spec_axes exR) [1; 1]%Z exRn [1; 1; 1]%Z at_ = 0.
Proof.
  unfold Pd. change (length (spec_axes exR)) with 2%nat.
  repeat match goal with |- _ /\ _ => split end;
  (etransitivity; [apply exR_Hd|]); rewrite ?lin_0, ?lin_1, ?lin_d0, ?lin_d1, ?lin_dd by lia;
  unfold exRn, exRw; cbn; lra.
Qed.

(** C39 is false of the code: the surface above, field 2u/(1+u), at (1/2, 1/2). *)
Theorem C39_fourth_refuted : exists nrb xs fields nc F, wf_nurbs nrb /\ good_args (spec_axes nrb) xs /\ field_of nrb fields nc F /\
  exists idx, in_range xs idx /\ weightfn nrb (params xs idx) <> 0 /\
  forall junk junk2, exists G, derivative (N:=Rn) junk junk2 nrb 4 fields (map Some xs) false = Ok G /\
    exists t, der_in (spec_axes nrb) (fieldfn nrb F 0) (weightfn nrb) (params xs idx) [0; 0; 0; 0]%nat t /\
      G idx 0%Z [0; 0; 0; 0]%Z <> t.
Proof.
  assert (HF : field_of exR (Some exRF) 1 (fun i _ => nd_get exRF i)) by (left; auto).
  exists exR, exRx, (Some exRF), 1%Z, (fun i _ => nd_get exRF i).
  split; [exact exR_wf|]. split; [exact exRx_good|]. split; [exact HF|].
  exists [0; 0]%Z. assert (Rg : in_range exRx [0; 0]%Z) by (constructor; [simpl; lia|constructor; [simpl; lia|constructor]]).
  destruct exR_vals as [w0 [w1 [w2 [w3 [n0 [n1 [n2 n3]]]]]]].
  assert (Wx : Forall wf_ax (spec_axes exR)) by apply exR_wf.
  assert (W0 : weightfn exR (params exRx [0; 0]%Z) = 3 / 2).
  { change (params exRx [0; 0]%Z) with [1 / 2; 1 / 2]. unfold weightfn. rewrite <- (Pd_value _ [1; 1]%Z _ _ Wx exR_box). exact w0. }
  split; [exact Rg|]. split; [rewrite W0; lra|].
  intros junk junk2. destruct (C39_fourth_characterised exR exRx (Some exRF) 1 _ exR_wf ltac:(simpl; lia) exRx_good HF junk junk2) as [G [E H]].
  exists G. split; [exact E|].
  destruct (H [0; 0]%Z 0%Z 0%Z 0%Z 0%Z 0%Z Rg) as [t [t3 [dW [H4 [H3 [Hw EG]]]]]].
  { repeat constructor; simpl; lia. } { exact exR_inside. }
  exists t. split; [exact H4|]. rewrite EG, W0.
  assert (E3 : t3 = Qd (spec_axes exR) [1; 1]%Z exRn exRw [0; 0; 0]%nat at_).
  { eapply (der_in_unique (spec_axes exR)); [exact Wx|exact exR_inside| |exact H3|].
    - change (weightfn exR (params exRx [0; 0]%Z) <> 0). rewrite W0. lra.
    - apply (Qd_der_in (spec_axes exR) [1; 1]%Z (wt exR) (nd_get exRF)); auto; [exact exR_box|exact exR_inside|repeat constructor]. }
  assert (EW : dW = 1).
  { rewrite <- w1. eapply (spl_in_unique (spec_axes exR)); [exact exR_inside|exact Hw|].
    apply (Pd_spl_in (spec_axes exR) [1; 1]%Z (wt exR) _ 0%nat); auto; [exact exR_box|exact exR_inside|repeat constructor]. }
  assert (E3' : Qd (spec_axes exR) [1; 1]%Z exRn exRw [0; 0; 0]%nat at_ = 64 / 27).
  { unfold Qd. cbn [rev app map quot Z.of_nat Z.add]. unfold q3, q2, q1, q0, ev. rewrite w0, w1, w2, w3, n0, n1, n2, n3. field. }
  rewrite E3, E3', EW. lra.
Qed.
Print Assumptions C39_fourth_refuted.

(** C40 is false of the code: the cubic u^3. *)
Definition cub : Z -> R := arr [0; 0; 0; 0; 1; 1; 1; 1].
Lemma cub_wf : wf_knots 3 3 cub.
Proof. unfold cub. wf_list 0%Z 6%Z. Qed.
Definition exC : nurbs Rn := mkNurbs [mkAxis (N:=Rn) 4 8 cub] 4 (fun _ c => if (c =? 3)%Z then 1 else 0).
Lemma exC_wf : wf_nurbs exC.
Proof.
  split; [simpl; lia|]. split; [|simpl; lia]. constructor; [|constructor]; split; simpl; try (unfold a_deg; simpl; lia); exact cub_wf.
Qed.
Definition exCF : nd Rn := mkNd (N:=Rn) [4]%Z (fun idx => if (nth 0 idx 0 =? 3)%Z then 1 else 0).
Definition exCx : list (vec Rn) := [mkVec (N:=Rn) 1 (fun _ => 1 / 2)].
Lemma exCx_good : good_args (spec_axes exC) exCx.
Proof. constructor; [|constructor]; (split; [simpl; lia|]); intros i Hi; unfold in_domain; cbn; unfold cub; arr_lra. Qed.
Lemma exC_inside : inside (spec_axes exC) [1 / 2] [1 / 2].
Proof. simpl. split; auto. exists 3%Z; cbn; (split; [lia|]); unfold cub; arr_lra. Qed.
Lemma exC_box : act_box (spec_axes exC) [3]%Z [1 / 2].
Proof. constructor; [|constructor]; (split; [cbn; lia|]); left; cbn; unfold cub; arr_lra. Qed.
Ltac kc := repeat match goal with |- context [cub ?z] => let y := eval compute in z in
    lazymatch y with
    | 0%Z => change (cub z) with 0 | 1%Z => change (cub z) with 0 | 2%Z => change (cub z) with 0 | 3%Z => change (cub z) with 0
    | 4%Z => change (cub z) with 1 | 5%Z => change (cub z) with 1 | 6%Z => change (cub z) with 1 | 7%Z => change (cub z) with 1
    end end.
Lemma cub_3 u : gder cub 3 3 3 3 u = 6.
Proof.
  unfold gder. change (Z.of_nat 3) with 3%Z. change (Z.to_nat (3 - 3)) with 0%nat. rewrite 3!sumZ_first, sumZ_single by lia.
  cbn [B ffact]. simpl Z.eqb. simpl (_ * _)%Z. cbv iota. rewrite !Rmult_0_r. cbn [ac]. simpl Z.eqb. cbv iota. kc. field.
Qed.
Lemma sum03 f : sumZ 0 3 f = f 0%Z + f 1%Z + f 2%Z + f 3%Z.
Proof. rewrite 3!sumZ_first, sumZ_single by lia. simpl Z.add. ring. Qed.
Lemma exC_Pd P m : Pd (spec_axes exC) [3]%Z P (repeat 1%Z m) [1 / 2] =
  gder cub 3 3 0 m (1 / 2) * P [0]%Z + gder cub 3 3 1 m (1 / 2) * P [1]%Z + gder cub 3 3 2 m (1 / 2) * P [2]%Z + gder cub 3 3 3 m (1 / 2) * P [3]%Z.
Proof.
  unfold Pd. assert (E : cnts (length (spec_axes exC)) (repeat 1%Z m) = [m]).
  { induction m; simpl; auto. simpl in IHm. rewrite IHm. reflexivity. }
  rewrite E. cbn [Hd spec_axes map n_axes exC spec_ax x_p x_U a_knots]. change (a_deg (mkAxis (N:=Rn) 4 8 cub)) with 3%Z.
  change (3 - 3)%Z with 0%Z. rewrite sum03. reflexivity.
Qed.

Theorem C40_fourth_refuted : exists nrb xs fields nc F, wf_nurbs nrb /\ good_args (spec_axes nrb) xs /\ field_of nrb fields nc F /\
  length (n_axes nrb) = 1%nat /\ (forall i, n_arr nrb i 3%Z = 1) /\
  exists idx, in_range xs idx /\
  forall junk junk2, exists G, derivative (N:=Rn) junk junk2 nrb 4 fields (map Some xs) false = Ok G /\
    der_in (spec_axes nrb) (fieldfn nrb F 0) (weightfn nrb) (params xs idx) [0; 0; 0; 0]%nat 0 /\
    G idx 0%Z [0; 0; 0; 0]%Z = 6.
Proof.
  assert (HF : field_of exC (Some exCF) 1 (fun i _ => nd_get exCF i)) by (left; auto).
  exists exC, exCx, (Some exCF), 1%Z, (fun i _ => nd_get exCF i).
  split; [exact exC_wf|]. split; [exact exCx_good|]. split; [exact HF|]. split; [reflexivity|]. split; [reflexivity|].
  exists [0]%Z. assert (Rg : in_range exCx [0]%Z) by (constructor; [simpl; lia|constructor]). split; [exact Rg|].
  assert (Wx : Forall wf_ax (spec_axes exC)) by apply exC_wf.
  pose proof (act_box_good _ _ _ Wx exC_box) as Gd. pose proof (act_box_range _ _ _ exC_box) as Rd.
  assert (Wc : forall i, in_net (spec_axes exC) i -> wt exC i = 1) by reflexivity.
  assert (W0 : Pd (spec_axes exC) [3]%Z (wt exC) [] [1 / 2] = 1) by (apply Hd_const; auto).
  assert (WD : forall D, dirs_ok 1 D -> D <> [] -> Pd (spec_axes exC) [3]%Z (wt exC) D [1 / 2] = 0).
  { intros D HD HN. apply (Pd_const _ _ _ 1); auto. }
  assert (K : forall n, dirs_ok 1 (repeat 1%Z n)) by (induction n; constructor; auto; lia).
  pose proof (WD [1]%Z (K 1%nat) ltac:(discriminate)) as Wd1. pose proof (WD [1; 1]%Z (K 2%nat) ltac:(discriminate)) as Wd2.
  pose proof (WD [1; 1; 1]%Z (K 3%nat) ltac:(discriminate)) as Wd3. pose proof (WD [1; 1; 1; 1]%Z (K 4%nat) ltac:(discriminate)) as Wd4.
  set (P := fun i => n_arr exC i 3%Z * nd_get exCF i).
  assert (P3 : Pd (spec_axes exC) [3]%Z P [1; 1; 1]%Z [1 / 2] = 6).
  { etransitivity; [apply (exC_Pd P 3)|]. unfold P. cbn [n_arr exC nd_get exCF nth Z.eqb Z.compare Pos.eqb]. rewrite !Rmult_0_r. pose proof (cub_3 (1 / 2)) as E. rewrite E. ring. }
  assert (P4 : Pd (spec_axes exC) [3]%Z P [1; 1; 1; 1]%Z [1 / 2] = 0).
  { etransitivity; [apply (exC_Pd P 4)|]. unfold gder. rewrite !ffact_zero by lia. ring. }
  intros junk junk2.
  destruct (C40_fourth_is_third exC exCx (Some exCF) 1 _ 1 exC_wf eq_refl exCx_good HF Wc ltac:(lra) junk junk2) as [G4 [G3 [E4 [E3 H]]]].
  exists G4. split; [exact E4|]. rewrite (H [0]%Z 0%Z Rg).
  assert (X4 : 0 = Qd (spec_axes exC) [3]%Z P (wt exC) [0; 0; 0; 0]%nat [1 / 2]).
  { unfold Qd. cbn [rev app map quot Z.of_nat Z.add]. unfold q4, q3, q2, q1, q0, ev. rewrite W0, Wd1, Wd2, Wd3, Wd4, P4. field. }
  assert (X3 : 6 = Qd (spec_axes exC) [3]%Z P (wt exC) [0; 0; 0]%nat [1 / 2]).
  { unfold Qd. cbn [rev app map quot Z.of_nat Z.add]. unfold q3, q2, q1, q0, ev. rewrite W0, Wd1, Wd2, Wd3, P3. field. }
  split.
  - rewrite X4. apply (Qd_der_in (spec_axes exC) [3]%Z (wt exC) (nd_get exCF)); first [exact exC_box | exact exC_inside | exact Wx | repeat constructor].
  - rewrite X3.
    destruct (C38_derivatives exC exCx (Some exCF) 1 _ 3 exC_wf ltac:(simpl; lia) exCx_good HF ltac:(lia) junk junk2) as [G [E HG]].
    rewrite E3 in E. injection E as <-.
    destruct (HG [0]%Z 0%Z [0; 0; 0]%Z Rg eq_refl) as [_ HI]; [repeat constructor; simpl; lia|]. specialize (HI exC_inside).
    eapply (der_in_unique (spec_axes exC)); [exact Wx|exact exC_inside| |exact HI|].
    + change (params exCx [0]%Z) with [1 / 2]. rewrite <- (Pd_value _ [3]%Z _ _ Wx exC_box). rewrite W0. lra.
    + apply (Qd_der_in (spec_axes exC) [3]%Z (wt exC) (nd_get exCF)); first [exact exC_box | exact exC_inside | exact Wx | repeat constructor].
Qed.
Print Assumptions C40_fourth_refuted.

(** *** Examples: the hypotheses of C38, C39, C42, C43 hold for concrete objects. *)
Example C38_example : wf_nurbs exR /\ good_args (spec_axes exR) exRx /\ field_of exR (Some exRF) 1 (fun i _ => nd_get exRF i) /\
  in_range exRx [0; 0]%Z /\ inside (spec_axes exR) (params exRx [0; 0]%Z) (params exRx [0; 0]%Z) /\
  weightfn exR (params exRx [0; 0]%Z) = 3 / 2 /\ dirs (length (n_axes exR)) [0; 1; 1]%Z.
Proof.
  split; [exact exR_wf|]. split; [exact exRx_good|]. split; [left; auto|]. split; [constructor; [simpl; lia|constructor; [simpl; lia|constructor]]|]. split; [exact exR_inside|]. split.
  - change (params exRx [0; 0]%Z) with [1 / 2; 1 / 2]. unfold weightfn. rewrite <- (Pd_value _ [1; 1]%Z _ _ ltac:(apply exR_wf) exR_box). apply exR_vals.
  - repeat constructor; simpl; lia.
Qed.
(** The same model over the rationals: the first coordinate of this surface is 2u/(1+u); the
    value for order four, -128/27, is wrong (the fourth derivative is -512/81). *)
Definition exRq : nurbs Qn :=
  let U := fun i : Z => nth (Z.to_nat i) [0; 0; 1; 1]%Q 0%Q in
  mkNurbs [mkAxis (N:=Qn) 2 4 U; mkAxis (N:=Qn) 2 4 U] 4
   (fun idx c => if (c =? 3)%Z then inject_Z (1 + nth 0 idx 0)%Z else
                 if (c =? 0)%Z then inject_Z (nth 0 idx 0 * 2)%Z else if (c =? 1)%Z then inject_Z ((1 + nth 0 idx 0) * nth 1 idx 0)%Z else 0%Q).
Definition exRq_args : list (option (vec Qn)) := [Some (mkVec (N:=Qn) 1 (fun _ => 1 # 2)); Some (mkVec (N:=Qn) 1 (fun _ => 1 # 2))].
Definition der_q (order : Z) (m : bool) (D : list Z) (c : Z) : option Q :=
  match derivative (N:=Qn) (fun _ => 7%Q) (fun _ _ => 9%Q) exRq order None exRq_args m with Ok G => Some (G [0; 0]%Z c D) | Raise _ => None end.
Example C38_C39_C43_example :
  der_q 1 false [0]%Z 0 = Some (8 # 9)%Q /\ der_q 2 false [0; 0]%Z 0 = Some (-32 # 27)%Q /\ der_q 3 false [0; 0; 0]%Z 0 = Some (64 # 27)%Q /\
  der_q 4 false [0; 0; 0; 0]%Z 0 = Some (-128 # 27)%Q /\
  map (fun c => map (fun i => der_q 1 true [i] c) [0; 1]%Z) [0; 1]%Z = [[Some 1%Q; Some 0%Q]; [Some 0%Q; Some 1%Q]].
Proof. vm_compute. repeat split; reflexivity. Qed.
Example C42_example : field_of exR (Some (mkNd (N:=Rn) [2; 2; 1]%Z (fun _ => 7))) 1 (fun i c => nd_get (mkNd (N:=Rn) [2; 2; 1]%Z (fun _ => 7)) (i ++ [c])) /\
  wf_nurbs exR /\ weightfn exR (params exRx [0; 0]%Z) = 3 / 2.
Proof.
  split; [right; split; [reflexivity|split; [lia|reflexivity]]|]. split; [exact exR_wf|]. apply C38_example.
Qed.
