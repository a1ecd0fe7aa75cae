(** Properties of knot vector generation, span and break enumeration, quadrature and basis
    tables (C44-C47, C69-C72). *)
From Coq Require Import ZArith Reals QArith List Bool Lia Lra Sorted.
From Verif Require Import Num Loop ModelBspline ModelBSp ModelNurbs ModelIga Spec SumZ BPiece BLink ProofSpan ProofEval ExTac
  SpecNurbs SpecDer BDer ProofCall ProofNurbs ProofMethods ProofDers ProofDerApi ProofInit ProofIga ProofGauss ProofIga2 PropNurbs PropRefuted.
Import ListNotations.
Local Open Scope R_scope.
Local Arguments Z.add : simpl never.
Local Arguments Z.sub : simpl never.
Local Arguments Z.of_nat : simpl never.

(** ** C44: iga.KnotVector *)
(** Without wrapping: the first and last p+1 knots are the ends of the domain, and interior
    knot number e (e = 1..E-1), at distance e/E of the way, occupies exactly p-C places. *)
Theorem C44_clamped : forall (E p C : Z) (Ui Uf : R) junk, (1 <= E)%Z -> (1 <= p)%Z -> (0 <= C < p)%Z -> Ui < Uf ->
  exists U, KnotVector (N:=Rn) junk E p C Ui Uf false = Ok U /\
  let m := (v_len U - 1)%Z in let n := (m - p - 1)%Z in
  m = (2 * p + 1 + (E - 1) * (p - C))%Z /\ wf_knots n p (v_get U) /\
  (forall i, (0 <= i <= m)%Z -> (v_get U i = Ui <-> (i <= p)%Z) /\ (v_get U i = Uf <-> (m - p <= i)%Z) /\
     forall e, (1 <= e <= E - 1)%Z ->
       (v_get U i = Ui + IZR e / IZR E * (Uf - Ui) <-> (p + 1 + (e - 1) * (p - C) <= i <= p + e * (p - C))%Z)).
Proof.
  intros E p C Ui Uf junk HE Hp HC Hu. unfold KnotVector.
  replace (1 <=? E)%Z with true by (symmetry; apply Z.leb_le; lia).
  replace (1 <=? p)%Z with true by (symmetry; apply Z.leb_le; lia).
  replace ((0 <=? C) && (C <? p))%Z with true by (symmetry; rewrite andb_true_iff, Z.leb_le, Z.ltb_lt; lia). cbn [check bind].
  eexists. split; [reflexivity|]. cbn [v_len v_get]. set (m := (2 * (p + 1) + (E - 1) * (p - C) - 1)%Z).
  replace (m + 1 - 1)%Z with m by lia. set (V := KnotVector_ends _ _ _ _ _).
  assert (HV : forall x, (0 <= x <= m)%Z -> V x = Ui + IZR (Z.max 0 (Z.min E (kv_idx p C x))) * ((Uf - Ui) / IZR E)).
  { intros x Hx. unfold V. rn. apply KV_closed; auto. }
  clearbody V. assert (HE0 : 0 < IZR E) by (apply IZR_lt; lia). set (h := (Uf - Ui) / IZR E) in *.
  assert (Hh : IZR E * h = Uf - Ui) by (unfold h; field; lra).
  assert (h0 : 0 < h) by (apply Rmult_lt_reg_l with (IZR E); auto; lra).
  assert (Hm : m = (E * (p - C) + C + p + 1)%Z) by (unfold m; ring).
  assert (Eq : forall x e, (0 <= x <= m)%Z -> V x = Ui + IZR e * h <-> Z.max 0 (Z.min E (kv_idx p C x)) = e).
  { intros x e Hx. rewrite HV by auto. split; [|intros ->; reflexivity]. intros Q. apply eq_IZR. apply (Rmult_eq_reg_r h); lra. }
  assert (I0 : kv_idx p C p = 0%Z) by (apply kv_idx_iff; lia).
  assert (I1 : kv_idx p C (p + 1) = 1%Z) by (apply kv_idx_iff; lia).
  assert (J0 : kv_idx p C (m - p) = E) by (apply kv_idx_iff; lia).
  assert (J1 : kv_idx p C (m - p - 1) = (E - 1)%Z) by (apply kv_idx_iff; lia).
  split; [unfold m; lia|]. split; [constructor|].
  - lia.
  - nia.
  - intros i j Hi Hij Hj. rewrite !HV by lia. apply Rplus_le_compat_l, Rmult_le_compat_r; [lra|]. apply IZR_le.
    pose proof (kv_idx_mono p C i j ltac:(lia) Hij). lia.
  - rewrite !HV by nia. rewrite I0, I1. replace (Z.max 0 (Z.min E 0)) with 0%Z by lia. replace (Z.max 0 (Z.min E 1)) with 1%Z by lia. lra.
  - replace (m - p - 1 + 1)%Z with (m - p)%Z by lia. rewrite !HV by nia. rewrite J0, J1.
    replace (Z.max 0 (Z.min E E)) with E by lia. replace (Z.max 0 (Z.min E (E - 1))) with (E - 1)%Z by lia. rewrite minus_IZR. lra.
  - intros i Hi. split; [|split].
    + replace Ui with (Ui + IZR 0 * h) at 1 by (simpl; ring). rewrite Eq by auto. split.
      * intros Q. destruct (Z.le_gt_cases i p); auto. exfalso. pose proof (kv_idx_mono p C (p + 1) i ltac:(lia) ltac:(lia)). lia.
      * intros Q. pose proof (kv_idx_mono p C i p ltac:(lia) Q). lia.
    + replace Uf with (Ui + IZR E * h) at 1 by lra. rewrite Eq by auto. split.
      * intros Q. destruct (Z.le_gt_cases (m - p) i); auto. exfalso. pose proof (kv_idx_mono p C i (m - p - 1) ltac:(lia) ltac:(lia)). lia.
      * intros Q. pose proof (kv_idx_mono p C (m - p) i ltac:(lia) Q). lia.
    + intros e He. replace (IZR e / IZR E * (Uf - Ui)) with (IZR e * h) by (unfold h; field; lra). rewrite Eq by auto.
      assert (K := kv_idx_iff p C i e ltac:(lia)). split; intros Q.
      * assert (kv_idx p C i = e) by lia. apply K in H. lia.
      * assert (kv_idx p C i = e) by (apply K; lia). lia.
Qed.
Print Assumptions C44_clamped.
(** With wrapping: the knot vector is periodic, its end knots inside the domain have the same
    multiplicity p-C as the interior ones, and it is an admissible knot vector. *)
Theorem C44_wrapped : forall (E p C : Z) (Ui Uf : R) junk, (1 <= E)%Z -> (1 <= p)%Z -> (0 <= C < p)%Z -> Ui < Uf ->
  exists U, KnotVector (N:=Rn) junk E p C Ui Uf true = Ok U /\
  let m := (v_len U - 1)%Z in let n := (m - p - 1)%Z in
  m = (2 * p + 1 + (E - 1) * (p - C))%Z /\ wf_knots n p (v_get U) /\ v_get U p = Ui /\ v_get U (n + 1)%Z = Uf /\
  (forall i, (0 <= i)%Z -> (i + E * (p - C) <= m)%Z -> v_get U (i + E * (p - C))%Z = v_get U i + (Uf - Ui)) /\
  (forall i e, (0 <= i <= m)%Z -> (0 <= e <= E)%Z ->
     (v_get U i = Ui + IZR e / IZR E * (Uf - Ui) <-> (C + 1 + e * (p - C) <= i <= p + e * (p - C))%Z)).
Proof.
  intros E p C Ui Uf junk HE Hp HC Hu. unfold KnotVector.
  replace (1 <=? E)%Z with true by (symmetry; apply Z.leb_le; lia).
  replace (1 <=? p)%Z with true by (symmetry; apply Z.leb_le; lia).
  replace ((0 <=? C) && (C <? p))%Z with true by (symmetry; rewrite andb_true_iff, Z.leb_le, Z.ltb_lt; lia). cbn [check bind].
  eexists. split; [reflexivity|]. cbn [v_len v_get]. set (m := (2 * (p + 1) + (E - 1) * (p - C) - 1)%Z).
  replace (m + 1 - 1)%Z with m by lia. set (V := KnotVector_wrap _ _ _ _ _ _).
  assert (HV : forall x, (0 <= x <= m)%Z -> V x = Ui + IZR (kv_idx p C x) * ((Uf - Ui) / IZR E)).
  { unfold V. apply KV_wrap; auto. intros x Hx. rn. apply KV_closed; auto. }
  clearbody V. assert (HE0 : 0 < IZR E) by (apply IZR_lt; lia). set (h := (Uf - Ui) / IZR E) in *.
  assert (Hh : IZR E * h = Uf - Ui) by (unfold h; field; lra).
  assert (h0 : 0 < h) by (apply Rmult_lt_reg_l with (IZR E); auto; lra).
  assert (Hm : m = (E * (p - C) + C + p + 1)%Z) by (unfold m; ring).
  assert (I0 : kv_idx p C p = 0%Z) by (apply kv_idx_iff; lia).
  assert (I1 : kv_idx p C (p + 1) = 1%Z) by (apply kv_idx_iff; lia).
  assert (J0 : kv_idx p C (m - p) = E) by (apply kv_idx_iff; lia).
  assert (J1 : kv_idx p C (m - p - 1) = (E - 1)%Z) by (apply kv_idx_iff; lia).
  split; [unfold m; lia|]. split; [constructor|split; [|split; [|split]]].
  - lia.
  - nia.
  - intros i j Hi Hij Hj. rewrite !HV by lia. apply Rplus_le_compat_l, Rmult_le_compat_r; [lra|]. apply IZR_le.
    apply kv_idx_mono; lia.
  - rewrite !HV by nia. rewrite I0, I1. lra.
  - replace (m - p - 1 + 1)%Z with (m - p)%Z by lia. rewrite !HV by nia. rewrite J0, J1. rewrite minus_IZR. lra.
  - rewrite HV by nia. rewrite I0. lra.
  - replace (m - p - 1 + 1)%Z with (m - p)%Z by lia. rewrite HV by nia. rewrite J0. lra.
  - intros i Hi Hj. rewrite !HV by nia. rewrite kv_idx_shift, plus_IZR by lia. lra.
  - intros i e Hi He. rewrite <- kv_idx_iff by lia. rewrite HV by auto.
    replace (IZR e / IZR E * (Uf - Ui)) with (IZR e * h) by (unfold h; field; lra). split; [|intros ->; reflexivity].
    intros Q. apply eq_IZR. apply (Rmult_eq_reg_r h); lra.
Qed.
Print Assumptions C44_wrapped.
Example C44_example :
  match KnotVector (N:=Qn) (fun _ => 9%Q) 2 3 1 0%Q 2%Q false, KnotVector (N:=Qn) (fun _ => 9%Q) 2 3 1 0%Q 2%Q true with
  | Ok U, Ok V => map (v_get U) (zseq (Z.to_nat (v_len U)) 0) = [0; 0; 0; 0; 1; 1; 2; 2; 2; 2]%Q /\
                  map (v_get V) (zseq (Z.to_nat (v_len V)) 0) = [-1; -1; 0; 0; 1; 1; 2; 2; 3; 3]%Q
  | _, _ => False end.
Proof. vm_compute. auto. Qed.

(** ** C35: iga.Greville, the same averages for any knot array that is long enough *)
Theorem C35_iga : forall p m (U : Z -> R) junk,
  (~ ((1 <= p)%Z /\ (2 * p + 1 <= m)%Z) -> exists e, iga_Greville (N:=Rn) junk p m U = Raise e) /\
  ((1 <= p)%Z -> (2 * p + 1 <= m)%Z -> exists x, iga_Greville (N:=Rn) junk p m U = Ok x /\ v_len x = (m - p)%Z /\
    forall i, (0 <= i < m - p)%Z -> v_get x i = sumZ (i + 1) (i + p) U / IZR p).
Proof.
  intros p m U junk. unfold iga_Greville, check. split.
  - intros H. destruct (Z.leb_spec 1 p); cbn [bind]; [|eauto]. destruct (Z.leb_spec (2 * p + 1) m); cbn [bind]; [lia|eauto].
  - intros H1 H2. destruct (Z.leb_spec 1 p); [|lia]. destruct (Z.leb_spec (2 * p + 1) m); [|lia]. cbn [bind].
    eexists. split; [reflexivity|]. split; [reflexivity|]. intros i Hi. cbn [v_get]. apply Greville_eq. lia.
Qed.
Print Assumptions C35_iga.
Example C35_iga_example : (1 <= 2)%Z /\ (2 * 2 + 1 <= 6)%Z /\ sumZ 2 3 exU / IZR 2 = (exU 2%Z + exU 3%Z) / 2.
Proof. split; [lia|]. split; [lia|]. unfold sumZ. replace (Z.to_nat (3 + 1 - 2)) with 2%nat by lia. cbn [sumN]. replace (2 + 1)%Z with 3%Z by lia. lra. Qed.

(** ** C45, C46: nrb.spans *)
Theorem C45_spans : forall nrb ax a junk, wf_nurbs nrb -> py_axis (n_dim nrb) ax = Ok a ->
  let A := get_axis nrb a in let U := a_knots A in let n := (a_size A - 1)%Z in
  no_tiny_span U (a_deg A) n ->
  exists l, spans (N:=Rn) junk nrb ax = Ok l /\ StronglySorted Z.lt l /\
    forall k, In k l <-> (a_deg A <= k <= n)%Z /\ U k < U (k + 1)%Z.
Proof.
  intros nrb ax a junk W Ea A U n Ht. pose proof (py_axis_dim _ _ _ Ea) as Ha.
  assert (WA : wf_ax (spec_ax A)) by (apply wf_get_axis; auto).
  destruct (wf_ax_size A WA) as [Hs Hd]. destruct WA as [_ WA]. simpl in WA. fold U n in WA.
  pose proof (wf_n _ _ _ WA). pose proof (wf_last _ _ _ WA). pose proof (wf_mono _ _ _ WA) as M.
  exists (hits (dist_ne U) (a_deg A) n). unfold spans. rewrite Ea. cbn [bind]. fold A.
  assert (En : (a_len A - a_deg A - 2 = n)%Z) by (rewrite a_len_eq; unfold n; lia).
  split; [|split; [apply hits_sorted|]].
  - rewrite py_SpanIndex_ok; rewrite ?En; auto.
    + rewrite a_len_eq. unfold n in *. lia.
    + fold U. lra.
  - intros k. rewrite hits_In. split; intros [H1 H2]; split; auto.
    + assert (U k <= U (k + 1)%Z) by (apply M; lia). unfold dist_ne in H2. apply negb_true_iff, Reqb_false in H2. lra.
    + unfold dist_ne. apply negb_true_iff, Reqb_false. lra.
Qed.
Print Assumptions C45_spans.
Example C45_example : no_tiny_span exU 2 3 /\ spans (N:=Qn) (fun _ => 77%Z) (crv 5 [0;0;0;1;1;2;2;2]%Q [0;1;2;3;4]%Q) 0 = Ok [2; 4]%Z.
Proof.
  split; [|vm_compute; reflexivity]. intros k Hk. enumz k 2%Z 3%Z; right; unfold exU; rewrite Rabs_left; arr_lra.
Qed.
(** A knot repeated p+1 times at the right end of an object with one extra control point (so
    the last span of the domain is empty), and knots closer than machine epsilon: more spans
    are announced than listed, and the surplus entry of the result is whatever the memory held. *)
Theorem C46_spans_refuted :
  (exists nrb, n_shape nrb = [3]%Z /\ map (@a_deg Qn) (n_axes nrb) = [1]%Z /\
     map (a_knots (get_axis nrb 0)) [0; 1; 2; 3; 4]%Z = [0; 0; 1; 1; 1]%Q /\
     forall junk, spans (N:=Qn) junk nrb 0 = Ok [1%Z; junk 2%Z]) /\
  (exists nrb, wfQ nrb = true /\ forall junk, spans (N:=Qn) junk nrb 0 = Ok [1%Z; 3%Z; junk 3%Z]).
Proof.
  split.
  - exists (crv 3 [0;0;1;1;1]%Q [0;1;2]%Q). repeat (split; [vm_compute; reflexivity|]). intros. vm_compute. reflexivity.
  - exists (crv 4 [0;0;1;1 + (1 # 9007199254740992);2;2]%Q [0;1;2;3]%Q). split; [vm_compute; reflexivity|]. intros. vm_compute. reflexivity.
Qed.
Print Assumptions C46_spans_refuted.

(** ** C47: quadrature *)
Theorem C47_Gauss_Legendre : forall q l w c F, py_GaussLegendreRule (N:=Rn) q = Ok (l, w) -> (length c <= 2 * Z.to_nat q)%nat ->
  (forall x, -1 <= x <= 1 -> derivable_pt_lim F x (poly c x)) ->
  Rabs (quad l w (poly c) - (F 1 - F (-1))) <= / 10 ^ 34 * norm1 c.
Proof.
  intros q l w c F E Hl HF. unfold py_GaussLegendreRule, check in E.
  destruct ((1 <=? q) && (q <=? 10))%Z eqn:Hq; [|discriminate]. cbn [bind] in E. injection E as E.
  assert (E' : rule Rn true q = (l, w)) by exact E.
  replace l with (fst (rule Rn true q)) by (rewrite E'; reflexivity). replace w with (snd (rule Rn true q)) by (rewrite E'; reflexivity).
  apply quad_integral; auto. lia.
Qed.
Print Assumptions C47_Gauss_Legendre.
Theorem C47_Gauss_Lobatto : forall q l w c F, py_GaussLobattoRule (N:=Rn) q = Ok (l, w) -> (length c <= 2 * Z.to_nat q - 2)%nat ->
  (forall x, -1 <= x <= 1 -> derivable_pt_lim F x (poly c x)) ->
  Rabs (quad l w (poly c) - (F 1 - F (-1))) <= / 10 ^ 34 * norm1 c.
Proof.
  intros q l w c F E Hl HF. unfold py_GaussLobattoRule, check in E.
  destruct ((2 <=? q) && (q <=? 10))%Z eqn:Hq; [|discriminate]. cbn [bind] in E. injection E as E.
  assert (E' : rule Rn false q = (l, w)) by exact E.
  replace l with (fst (rule Rn false q)) by (rewrite E'; reflexivity). replace w with (snd (rule Rn false q)) by (rewrite E'; reflexivity).
  apply quad_integral; auto. lia.
Qed.
Print Assumptions C47_Gauss_Lobatto.
(** For every q of the supported range: q points, symmetric, increasing, inside [-1,1] (Legendre:
    strictly inside; Lobatto: starting at -1, hence ending at 1), positive symmetric weights. *)
Theorem C47_points : forall (leg : bool) q, ((if leg then 1 else 2) <= q <= 10)%Z ->
  exists l w, (if leg then py_GaussLegendreRule (N:=Rn) q else py_GaussLobattoRule (N:=Rn) q) = Ok (l, w) /\
  length l = Z.to_nat q /\ length w = Z.to_nat q /\
  (forall i, (i < Z.to_nat q)%nat -> nth i l 0 = - nth (Z.to_nat q - 1 - i) l 0 /\ nth i w 0 = nth (Z.to_nat q - 1 - i) w 0 /\
     0 < nth i w 0 /\ -1 <= nth i l 0 <= 1 /\ (leg = true -> -1 < nth i l 0 < 1)) /\
  (forall i, (S i < Z.to_nat q)%nat -> nth i l 0 < nth (S i) l 0) /\ (leg = false -> nth 0 l 0 = -1).
Proof.
  intros leg q Hq. assert (H : rule_ok q leg = true).
  { unfold rule_ok. destruct leg; rewrite andb_true_iff, !Z.leb_le; lia. }
  exists (fst (rule Rn leg q)), (snd (rule Rn leg q)). split; [|apply points; auto].
  unfold py_GaussLegendreRule, py_GaussLobattoRule, rule_ok in *. destruct leg; rewrite H; cbn [check bind]; rewrite <- surjective_pairing; reflexivity.
Qed.
Print Assumptions C47_points.
Example C47_example : py_GaussLegendreRule (N:=Rn) 2 = Ok (GaussLegendreRule (N:=Rn) 2) /\ (length [1; 2; 3; 4] <= 2 * Z.to_nat 2)%nat /\
  forall x, derivable_pt_lim (fun x => x + x ^ 2 + x ^ 3 + x ^ 4) x (poly [1; 2; 3; 4] x).
Proof.
  split; [reflexivity|]. split; [simpl; lia|]. intros x.
  replace (poly [1; 2; 3; 4] x) with (1 + 2 * x ^ 1 + 3 * x ^ 2 + 4 * x ^ 3) by (simpl; ring).
  apply dl_plus; [apply dl_plus; [apply dl_plus; [apply dl_id|]|]|].
  - exact (derivable_pt_lim_pow x 2).
  - replace 3 with (INR 3) by (simpl; ring). exact (derivable_pt_lim_pow x 3).
  - replace 4 with (INR 4) by (simpl; ring). exact (derivable_pt_lim_pow x 4).
Qed.

(** ** C69: iga.BasisData: the tables list the nonempty spans in order; on each, the points are
    the Gauss points mapped into the span, and the values are the derivatives of the p+1 basis
    functions that start at the announced offset. *)
Theorem C69_BasisData : forall p m U d q junk junk2 junkZ, (1 <= p)%Z -> let n := (m - p - 1)%Z in wf_knots n p U ->
  no_tiny_span U p n -> (0 <= d <= p)%Z -> (1 <= q <= 10)%Z ->
  exists bd L xg w, BasisData (N:=Rn) junk junk2 junkZ p m U d q = Ok bd /\ py_GaussLegendreRule (N:=Rn) q = Ok (xg, w) /\
  StronglySorted Z.lt L /\ (forall k, In k L <-> (p <= k <= n)%Z /\ U k < U (k + 1)%Z) /\ bd_r bd = Z.of_nat (length L) /\
  forall j iq, (j < length L)%nat -> (1 <= iq <= q)%Z -> let k := nth j L 0%Z in let ir := (1 + Z.of_nat j)%Z in
  let x := bd_X bd iq ir in
    bd_O bd ir = (k - p)%Z /\ bd_J bd ir = (U (k + 1)%Z - U k) / 2 /\ bd_W bd iq = nth (Z.to_nat (iq - 1)) w 0 /\
    U k < x < U (k + 1)%Z /\ x = U k + (nth (Z.to_nat (iq - 1)) xg 0 + 1) / 2 * (U (k + 1)%Z - U k) /\
    forall e a, (0 <= e <= d)%Z -> (0 <= a <= p)%Z ->
      exists f g, (forall v, span_of (mkAx n p U) v k -> f v = Nb n p U (k - p + a) v) /\ nth_deriv (Z.to_nat e) f g /\
        bd_N bd e a iq ir = g x.
Proof.
  intros p m U d q junk junk2 junkZ Hp n W Ht Hd Hq. pose proof (wf_n _ _ _ W) as Hn. pose proof (wf_last _ _ _ W) as Hl.
  pose proof (wf_mono _ _ _ W) as M. set (L := hits (dist_ne U) p n).
  assert (Hr : rule_ok q true = true) by (unfold rule_ok; rewrite andb_true_iff, !Z.leb_le; lia).
  destruct (points true q Hr) as [P1 [P2 [P3 _]]].
  destruct (GaussLegendreRule (N:=Rn) q) as [xg w] eqn:Eg. assert (Er : rule Rn true q = (xg, w)) by exact Eg. rewrite Er in P1, P2, P3. cbn [fst snd] in *.
  eexists. exists L, xg, w. split; [|split; [|split; [apply hits_sorted|split; [|split]]]].
  - unfold BasisData. replace (1 <=? p)%Z with true by (symmetry; apply Z.leb_le; lia).
    replace (2 * p + 1 <=? m)%Z with true by (symmetry; apply Z.leb_le; unfold n in *; lia).
    replace ((0 <=? d) && (d <=? p))%Z with true by (symmetry; rewrite andb_true_iff, !Z.leb_le; lia).
    replace ((1 <=? q) && (q <=? 10))%Z with true by (symmetry; rewrite andb_true_iff, !Z.leb_le; lia). cbn [check bind].
    rewrite CountSpans_ok by (fold n; lra || lia). rewrite Eg. reflexivity.
  - unfold py_GaussLegendreRule. replace ((1 <=? q) && (q <=? 10))%Z with true by (symmetry; rewrite andb_true_iff, !Z.leb_le; lia).
    cbn [check bind]. rewrite Eg. reflexivity.
  - intros k. unfold L. rewrite hits_In. split; intros [H1 H2]; split; auto.
    + assert (U k <= U (k + 1)%Z) by (apply M; lia). unfold dist_ne in H2. apply negb_true_iff, Reqb_false in H2. lra.
    + unfold dist_ne. apply negb_true_iff, Reqb_false. lra.
  - reflexivity.
  - intros j iq Hj Hi. cbv zeta. set (k := nth j L 0%Z). set (ir := (1 + Z.of_nat j)%Z). cbn [bd_O bd_J bd_W bd_X bd_N].
    assert (EO : fst (BasisData_spans (N:=Rn) junkZ p m U) ir = (k - p)%Z).
    { unfold ir, k, L. rewrite tests_agree by auto. replace n with (m - (p + 1))%Z by (unfold n; lia).
      apply BasisData_spans_ok; [unfold n in *; lia|]. replace (m - (p + 1))%Z with n by (unfold n; lia). rewrite <- tests_agree by auto. exact Hj. }
    rewrite EO. replace (k - p + p)%Z with k by lia.
    assert (Hk : (p <= k <= n)%Z /\ U k < U (k + 1)%Z).
    { assert (In k L) by (apply nth_In; auto). unfold L in H. rewrite hits_In in H. destruct H as [H1 H2]. split; auto.
      assert (U k <= U (k + 1)%Z) by (apply M; lia). unfold dist_ne in H2. apply negb_true_iff, Reqb_false in H2. lra. }
    destruct Hk as [Hk Hlt]. rn.
    destruct (P3 (Z.to_nat (iq - 1)) ltac:(lia)) as [_ [_ [_ [_ P4]]]]. specialize (P4 eq_refl).
    set (g := nth (Z.to_nat (iq - 1)) xg 0) in *.
    split; auto. split; auto. split; auto. split; [|split].
    + split; [|]; nra.
    + field.
    + intros e a He Ha. exists (gder U k p (k - p + a) 0), (gder U k p (k - p + a) (Z.to_nat e)). split; [|split].
      * intros v Hv. set (ax := mkAx n p U). assert (Wa : wf_ax ax) by (split; auto).
        apply (span_of_active ax) in Hv; auto. rewrite gder_0. symmetry. apply Nb_piece; auto. lia.
      * apply gder_nth; [lia|]. apply (wf_span_ok n); auto.
      * apply DersBasisFuns_piece; lia.
Qed.
Print Assumptions C69_BasisData.
Example C69_example : wf_knots (6 - 2 - 1) 2 exU /\ no_tiny_span exU 2 (6 - 2 - 1) /\
  match BasisData (N:=Qn) (fun _ => 5%Q) (fun _ _ => 6%Q) (fun _ => 7%Z) 2 6 (ql [0;0;0;1;2;2;2]%Q) 1 1 with
  | Ok bd => bd_r bd = 2%Z /\ map (bd_O bd) [1; 2]%Z = [0; 1]%Z /\ map (bd_X bd 1) [1; 2]%Z = [1 # 2; 3 # 2]%Q /\
       map (fun a => bd_N bd 1 a 1 1) [0; 1; 2]%Z = [-1; 1 # 2; 1 # 2]%Q
  | _ => False end.
Proof.
  split; [exact exU_wf|]. split; [|vm_compute; auto].
  intros k Hk. enumz k 2%Z 3%Z; right; unfold exU; rewrite Rabs_left; arr_lra.
Qed.

(** ** C70: iga.BasisDataCol: offsets and derivatives at given points of the domain. *)
Theorem C70_BasisDataCol : forall p m U r X d junk junk2, (1 <= p)%Z -> let n := (m - p - 1)%Z in wf_knots n p U ->
  (1 <= r)%Z -> (0 <= d <= p)%Z -> (forall ir, (1 <= ir <= r)%Z -> in_domain n p U (X ir)) ->
  exists O T, BasisDataCol (N:=Rn) junk junk2 p m U r X d = Ok (O, T) /\
  forall ir, (1 <= ir <= r)%Z -> span_of (mkAx n p U) (X ir) (O ir + p) /\
    forall e a, (0 <= e <= d)%Z -> (0 <= a <= p)%Z ->
      exists f g, (forall v, span_of (mkAx n p U) v (O ir + p) -> f v = Nb n p U (O ir + a) v) /\ nth_deriv (Z.to_nat e) f g /\
        T e a ir = g (X ir).
Proof.
  intros p m U r X d junk junk2 Hp n W Hr Hd HX. pose proof (wf_n _ _ _ W) as Hn.
  do 2 eexists. split.
  - unfold BasisDataCol. replace (1 <=? p)%Z with true by (symmetry; apply Z.leb_le; lia).
    replace (2 * p + 1 <=? m)%Z with true by (symmetry; apply Z.leb_le; unfold n in *; lia).
    replace (1 <=? r)%Z with true by (symmetry; apply Z.leb_le; lia).
    replace ((0 <=? d) && (d <=? p))%Z with true by (symmetry; rewrite andb_true_iff, !Z.leb_le; lia). reflexivity.
  - intros ir Hi. cbv beta. replace (m - (p + 1))%Z with n by (unfold n; lia).
    pose proof (FindSpan_active _ _ _ _ W (HX ir Hi)) as A. set (s := FindSpan (N:=Rn) n p (X ir) U) in *.
    set (ax := mkAx n p U). assert (Wa : wf_ax ax) by (split; auto).
    replace (s - p + p)%Z with s by lia. split; [apply (span_of_active ax); auto|].
    intros e a He Ha. exists (gder U s p (s - p + a) 0), (gder U s p (s - p + a) (Z.to_nat e)). split; [|split].
    + intros v Hv. apply (span_of_active ax) in Hv; auto. rewrite gder_0. symmetry. apply Nb_piece; auto. destruct A; lia.
    + apply gder_nth; [lia|]. apply (wf_span_ok n); auto. destruct A; auto. eapply active_lt; eauto.
    + apply DersBasisFuns_piece; lia.
Qed.
Print Assumptions C70_BasisDataCol.
Example C70_example : wf_knots (6 - 2 - 1) 2 exU /\ (forall ir, (1 <= ir <= 2)%Z -> in_domain (6 - 2 - 1) 2 exU (IZR ir)).
Proof. split; [exact exU_wf|]. change (6 - 2 - 1)%Z with 3%Z. unfold in_domain. change (3 + 1)%Z with 4%Z. intros ir H. enumz ir 1%Z 2%Z; unfold in_domain, exU; arr_lra. Qed.

(** ** C71: nrb.breaks *)
Theorem C71_breaks : forall nrb ax a, wf_nurbs nrb -> py_axis (n_dim nrb) ax = Ok a ->
  let A := get_axis nrb a in let U := a_knots A in let m := (a_len A - 1)%Z in
  exists u, breaks (N:=Rn) nrb ax = Ok u /\ StronglySorted Rlt u /\
  (forall x, In x u <-> exists i, (a_deg A <= i <= a_size A)%Z /\ U i = x) /\ hd 0 u = a_lo A /\ last u 0 = a_hi A /\
  (separated U 0 m (a_lo A) -> separated U 0 m (a_hi A) ->
   exists s, break_mults (N:=Rn) nrb ax = Ok (u, s) /\ length s = length u /\
   forall j, (j < length u)%nat -> let x := nth j u 0 in let mult := multiplicity U 0 m x in
     nth j s 0%Z = if Rltb (a_lo A) x && Rltb x (a_hi A) then mult else Z.min mult (a_deg A)).
Proof.
  intros nrb ax a W Ea A U m. pose proof (py_axis_dim _ _ _ Ea) as Ha. assert (WA : wf_ax (spec_ax A)) by (apply wf_get_axis; auto).
  destruct (breaks_ok A WA) as [B1 [B2 [B3 [B4 B5]]]].
  exists (unique (N:=Rn) (inner_knots A)). unfold breaks. rewrite Ea. cbn [bind]. fold A.
  repeat (split; [auto; fail|]). intros S0 S1.
  destruct (break_mults_ok nrb ax a W Ea WA S0 S1) as [s [E1 [E2 E3]]]. exists s. split; auto. split; auto.
  intros j Hj. apply E3. rewrite E2. auto.
Qed.
Print Assumptions C71_breaks.
Example C71_example : separated exU 0 6 0 /\ break_mults (N:=Qn) (crv 5 [0;0;0;1;1;2;2;2]%Q [0;1;2;3;4]%Q) 0 = Ok ([0;1;2]%Q, [2;2;2]%Z).
Proof.
  split; [|vm_compute; reflexivity]. intros j Hj. unfold exU. enumz j 0%Z 6%Z; try (left; arr_lra); right; rewrite Rabs_right; arr_lra.
Qed.

(** ** C72: nrb.lagrange and nrb.lobatto *)
Theorem C72_lagrange : forall nrb ax a, wf_nurbs nrb -> py_axis (n_dim nrb) ax = Ok a ->
  let A := get_axis nrb a in let p := Z.to_nat (a_deg A) in
  exists u l, breaks (N:=Rn) nrb ax = Ok u /\ lagrange (N:=Rn) nrb ax = Ok l /\ StronglySorted Rlt l /\
  length l = (p * (length u - 1) + 1)%nat /\ hd 0 l = a_lo A /\ last l 0 = a_hi A /\
  forall j k, (S j < length u)%nat -> (k < p)%nat ->
    nth (j * p + k) l 0 = nth j u 0 + INR k / INR p * (nth (S j) u 0 - nth j u 0).
Proof.
  intros nrb ax a W Ea A p. pose proof (py_axis_dim _ _ _ Ea) as Ha. assert (WA : wf_ax (spec_ax A)) by (apply wf_get_axis; auto).
  destruct (breaks_ok A WA) as [B1 [B2 [B3 [B4 B5]]]]. destruct (wf_ax_size A WA) as [Hs Hd].
  set (ub := unique (N:=Rn) (inner_knots A)) in *. exists ub.
  assert (Eb : breaks (N:=Rn) nrb ax = Ok ub) by (unfold breaks; rewrite Ea; reflexivity).
  set (x := fun k : Z => (0 - 1 + IZR k * (2 / IZR (a_deg A)) + 1) / 2).
  assert (Hp0 : 0 < IZR (a_deg A)) by (apply IZR_lt; lia).
  assert (Xk : forall k, x k = IZR k / IZR (a_deg A)) by (intros; unfold x; field; lra).
  assert (Hne : ub <> []) by (intros C; rewrite C in B3; simpl in B3; lia).
  assert (X0 : x 0%Z = 0) by (rewrite Xk; unfold Rdiv; ring).
  assert (Xm : forall k, (0 <= k < a_deg A)%Z -> x k < x (k + 1)%Z).
  { intros k Hk. rewrite !Xk. apply Rmult_lt_compat_r; [apply Rinv_0_lt_compat; auto|]. apply IZR_lt. lia. }
  assert (X1 : x (a_deg A) = 1) by (rewrite Xk; field; lra).
  destruct (nodes_nth (a_deg A) x ub Hd X0 Hne) as [N1 [N2 N3]].
  destruct (nodes_sorted (a_deg A) x ub Hd X0 Xm X1 B1) as [N4 N5].
  assert (G : exists l, lagrange (N:=Rn) nrb ax = Ok l /\ l = nodes (N:=Rn) (a_deg A) x ub).
  { unfold lagrange. rewrite Ea. cbn [bind]. rewrite Eb. cbn [bind]. fold A. destruct (Z.ltb_spec (a_deg A) 2).
    - exists ub. split; auto. replace (a_deg A) with 1%Z by lia. clear. induction ub as [|u0 ub IH]; auto.
      destruct ub as [|u1 ub]; auto. rewrite nodes_cons. simpl. f_equal. exact IH.
    - eexists. split; [reflexivity|]. reflexivity. }
  destruct G as [l [El ->]]. exists (nodes (N:=Rn) (a_deg A) x ub). split; auto. split; auto. split; auto.
  split; [exact N1|]. split; [|split].
  - rewrite <- B4. clear. destruct ub as [|u0 [|u1 ub]]; reflexivity.
  - rewrite N2. exact B5.
  - intros j k Hj Hk. unfold p. rewrite N3 by auto. rewrite Xk, <- INR_IZR_INZ. rewrite (INR_IZR_INZ (Z.to_nat _)), Z2Nat.id by lia. rn. rewrite (Rmult_comm (_ - _)). reflexivity.
Qed.
Print Assumptions C72_lagrange.
Theorem C72_lobatto : forall nrb ax a, wf_nurbs nrb -> py_axis (n_dim nrb) ax = Ok a ->
  let A := get_axis nrb a in let p := Z.to_nat (a_deg A) in
  if (a_deg A <=? 9)%Z then
    exists u xg w l, breaks (N:=Rn) nrb ax = Ok u /\ py_GaussLobattoRule (N:=Rn) (a_deg A + 1) = Ok (xg, w) /\ lobatto (N:=Rn) nrb ax = Ok l /\
    StronglySorted Rlt l /\ length l = (p * (length u - 1) + 1)%nat /\ hd 0 l = a_lo A /\ last l 0 = a_hi A /\
    forall j k, (S j < length u)%nat -> (k < p)%nat ->
      nth (j * p + k) l 0 = nth j u 0 + (nth k xg 0 + 1) / 2 * (nth (S j) u 0 - nth j u 0)
  else lobatto (N:=Rn) nrb ax = Raise KernelError.
Proof.
  intros nrb ax a W Ea A p. pose proof (py_axis_dim _ _ _ Ea) as Ha. assert (WA : wf_ax (spec_ax A)) by (apply wf_get_axis; auto).
  destruct (breaks_ok A WA) as [B1 [B2 [B3 [B4 B5]]]]. destruct (wf_ax_size A WA) as [Hs Hd].
  set (ub := unique (N:=Rn) (inner_knots A)) in *.
  assert (Eb : breaks (N:=Rn) nrb ax = Ok ub) by (unfold breaks; rewrite Ea; reflexivity).
  destruct (Z.leb_spec (a_deg A) 9).
  2: { unfold lobatto. rewrite Ea. cbn [bind]. rewrite Eb. cbn [bind]. fold A.
       replace (a_deg A <? 2)%Z with false by (symmetry; apply Z.ltb_ge; lia). unfold py_GaussLobattoRule.
       replace ((2 <=? a_deg A + 1) && (a_deg A + 1 <=? 10))%Z with false; [reflexivity|].
       symmetry. apply andb_false_iff. right. apply Z.leb_gt. lia. }
  assert (Hr : rule_ok (a_deg A + 1) false = true) by (unfold rule_ok; rewrite andb_true_iff, !Z.leb_le; lia).
  destruct (points false _ Hr) as [P1 [P2 [P3 [P4 P5]]]]. specialize (P5 eq_refl).
  destruct (GaussLobattoRule (N:=Rn) (a_deg A + 1)) as [xg w] eqn:Eg. assert (Er : rule Rn false (a_deg A + 1) = (xg, w)) by exact Eg.
  rewrite Er in P1, P2, P3, P4, P5. cbn [fst snd] in *.
  assert (Eq : py_GaussLobattoRule (N:=Rn) (a_deg A + 1) = Ok (xg, w)).
  { unfold py_GaussLobattoRule. replace ((2 <=? a_deg A + 1) && (a_deg A + 1 <=? 10))%Z with true by (symmetry; rewrite andb_true_iff, !Z.leb_le; lia).
    cbn [check bind]. rewrite Eg. reflexivity. }
  exists ub, xg, w. set (x := fun k : Z => (nth (Z.to_nat k) xg 0 + 1) / 2).
  assert (Hne : ub <> []) by (intros C; rewrite C in B3; simpl in B3; lia).
  assert (X0 : x 0%Z = 0) by (unfold x; simpl Z.to_nat; rewrite P5; lra).
  assert (Xm : forall k, (0 <= k < a_deg A)%Z -> x k < x (k + 1)%Z).
  { intros k Hk. unfold x. replace (Z.to_nat (k + 1)) with (S (Z.to_nat k)) by lia. specialize (P4 (Z.to_nat k) ltac:(lia)). lra. }
  assert (X1 : x (a_deg A) = 1).
  { unfold x. destruct (P3 (Z.to_nat (a_deg A)) ltac:(lia)) as [Q _]. rewrite Q.
    replace (Z.to_nat (a_deg A + 1) - 1 - Z.to_nat (a_deg A))%nat with 0%nat by lia. rewrite P5. lra. }
  destruct (nodes_nth (a_deg A) x ub Hd X0 Hne) as [N1 [N2 N3]].
  destruct (nodes_sorted (a_deg A) x ub Hd X0 Xm X1 B1) as [N4 N5].
  assert (G : exists l, lobatto (N:=Rn) nrb ax = Ok l /\ l = nodes (N:=Rn) (a_deg A) x ub).
  { unfold lobatto. rewrite Ea. cbn [bind]. rewrite Eb. cbn [bind]. fold A. destruct (Z.ltb_spec (a_deg A) 2).
    - exists ub. split; auto. replace (a_deg A) with 1%Z by lia. clear. clearbody x. induction ub as [|u0 ub IH]; auto.
      destruct ub as [|u1 ub]; auto. rewrite nodes_cons. simpl. f_equal. exact IH.
    - rewrite Eq. cbn [bind]. eexists. split; [reflexivity|]. reflexivity. }
  destruct G as [l [El ->]]. exists (nodes (N:=Rn) (a_deg A) x ub). split; auto. split; auto. split; auto. split; auto.
  split; [exact N1|]. split; [|split].
  - rewrite <- B4. clear. clearbody x. destruct ub as [|u0 [|u1 ub]]; reflexivity.
  - rewrite N2. exact B5.
  - intros j k Hj Hk. unfold p. rewrite N3 by auto. unfold x. rewrite Nat2Z.id. rn. rewrite (Rmult_comm (_ - _)). reflexivity.
Qed.
Print Assumptions C72_lobatto.
Example C72_example : lagrange (N:=Qn) (crv 5 [0;0;0;1;1;2;2;2]%Q [0;1;2;3;4]%Q) 0 = Ok [0; 1 # 2; 1; 3 # 2; 2]%Q /\
  lobatto (N:=Qn) (crv 5 [0;0;0;1;1;2;2;2]%Q [0;1;2;3;4]%Q) 0 = Ok [0; 1 # 2; 1; 3 # 2; 2]%Q.
Proof. vm_compute. auto. Qed.
