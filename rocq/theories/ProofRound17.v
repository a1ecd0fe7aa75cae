(** Sections in doubles: extract at an inner parameter. *)
From Coq Require Import ZArith Reals List Bool SpecFloat Lia Lra Psatz.
From Verif Require Import Num Loop Spec ModelBspline ModelBSp ModelNurbs ModelFloat SpecNurbs SpecElev SpecDouble SpecRound SpecRound2 BLink ProofInsert ProofSpan ProofNet ProofNurbs
  ProofCall ProofGeom2 ProofMethods ProofRound ProofRound2 ProofRound3 ProofRound4 ProofRound7 ProofRound8 ProofRound12 ProofRound13 ProofRound14 ProofLayer.
Import ListNotations.
Local Open Scope R_scope.

Section Sec.
Variables (dj : Z -> Dn) (nrb sec : nurbs Dn) (ax : Z) (a : nat) (u : Dn).
Hypothesis L3 : (length (n_axes nrb) <= 3)%nat.
Hypothesis C4 : (4 <= n_comp nrb)%Z.
Hypothesis HA : Forall mild_axis (n_axes nrb).
Hypothesis Ea : py_axis (n_dim nrb) ax = Ok a.
Notation A := (get_axis nrb a).
Hypothesis Hu : new_knot A u.
Hypothesis EX : extract (N:=Dn) dj nrb ax u = Ok sec.
Let n := (a_size A - 1)%Z.
Let p := a_deg A.
Let rU := (fun i => dval (a_knots A i)).

Local Lemma Ha : (a < length (n_axes nrb))%nat.
Proof. apply py_axis_ok in Ea. unfold n_dim in Ea. lia. Qed.
Local Lemma s_mild : mild_axis A.
Proof. rewrite Forall_forall in HA. apply HA. apply nth_In. exact Ha. Qed.
Local Lemma s_wf : (1 <= p)%Z /\ wf_knots n p rU.
Proof. destruct s_mild as ([W1 W2] & _). split; [exact W1|exact W2]. Qed.
Local Lemma s_len : a_len A = (n + p + 2)%Z. Proof. unfold n, p, a_deg. lia. Qed.
Local Lemma s_in : rU p < dval u < rU (n + 1)%Z.
Proof. destruct Hu as (_ & H & _). replace (n + 1)%Z with (a_size A) by (unfold n; lia). exact H. Qed.
Local Lemma s_dom : in_domain n p rU (dval u). Proof. pose proof s_in. unfold in_domain. lra. Qed.
Local Lemma s_fin i : (0 <= i <= n + p + 1)%Z -> finite (a_knots A i) /\ Rabs (dval (a_knots A i)) <= b2 501.
Proof. intros Hi. destruct s_mild as (_ & _ & FK & _). pose proof s_len. destruct (FK i ltac:(lia)) as [F1 F2]. split; auto. apply Rle_trans with (1 := F2). apply b2_le. lia. Qed.

(** The span and the multiplicity found in doubles are those of the reals. *)
Let k := FindSpan (N:=Dn) n p u (a_knots A).
Let s := Z.min (FindMult (N:=Dn) k u p (a_knots A)) p.
Local Lemma s_active : active n p rU (dval u) k.
Proof.
  destruct s_wf as [Wp Wk]. apply span_active; [intros i Hi; apply s_fin; auto|apply Hu|exact Wk|exact s_dom].
Qed.
Local Lemma s_mult : s = Z.min (times_in A u) p.
Proof.
  destruct s_wf as [Wp Wk]. pose proof s_active as Ak. pose proof (FindSpan_active n p rU (dval u) Wk s_dom) as A2. pose proof (active_unique _ _ _ _ _ _ Wk Ak A2) as Ek.
  destruct Hu as (Fu & Hi & Hs). replace (a_len A - 1)%Z with (n + p + 1)%Z in Hs by (rewrite s_len; lia).
  pose proof (FindMult_min n p rU (dval u) Wk s_dom Hs) as FM. rewrite <- Ek in FM.
  unfold s, times_in. replace (a_len A - 1)%Z with (n + p + 1)%Z by (rewrite s_len; lia). fold rU. rewrite <- FM. f_equal.
  destruct Ak as [Hk _]. apply FindMult_double; auto; try lia.
  - destruct (s_fin p ltac:(lia)) as [_ B1]. destruct (s_fin (n + 1)%Z ltac:(lia)) as [_ B2]. pose proof s_in as Hin. unfold rU in Hin. apply abs_le in B1. apply abs_le in B2. apply Rabs_le. lra.
  - intros i Hi'. apply s_fin. lia.
  - intros i Hi'. apply Hs. lia.
Qed.

Section With.
Variable nrb' : nurbs Dn.
Hypothesis EI : insert (N:=Dn) dj nrb ax u None = Ok nrb'.
Local Lemma out_lo : nleb Dn u (a_knots A p) = false.
Proof.
  apply not_true_is_false. intros Q. destruct s_wf as [Wp Wk]. pose proof (wf_n _ _ _ Wk). apply leb_ok in Q; [|apply Hu|apply s_fin; lia]. pose proof s_in as I. unfold rU in I. lra.
Qed.
Local Lemma out_hi : nleb Dn (a_knots A (n + 1)%Z) u = false.
Proof.
  apply not_true_is_false. intros Q. destruct s_wf as [Wp Wk]. pose proof (wf_n _ _ _ Wk). apply leb_ok in Q; [|apply s_fin; lia|apply Hu]. pose proof s_in as I. unfold rU in I. lra.
Qed.
Local Lemma layer : n_axes sec = lrem a (n_axes nrb) /\ n_comp sec = n_comp nrb /\ a_size (get_axis nrb' a) = (a_size A + (p - s))%Z /\ (0 <= s)%Z /\
  n_axes nrb' = lset a (get_axis nrb' a) (n_axes nrb) /\ a_len (get_axis nrb' a) = (a_len A + (p - s))%Z /\
  (forall i, (0 <= i <= n + p + 1 + (p - s))%Z -> a_knots (get_axis nrb' a) i = if (i <=? k)%Z then a_knots A i else if (i <=? k + (p - s))%Z then u else a_knots A (i - (p - s))%Z) /\
  forall idx c, (a <= length idx)%nat -> n_arr sec idx c = n_arr nrb' (lins a (k - s)%Z idx) c.
Proof. exact (proj2 (extract_layer_at nrb nrb' sec ax a u dj dj Ea out_lo out_hi EI EX)). Qed.

(** The real spline of the refined object at u is that of the section. *)
Lemma sec_real c us : length us = length (n_axes sec) -> real_hom sec c us = real_hom nrb' c (lins a (dval u) us).
Proof.
  intros Lu. destruct layer as (X1 & X2 & X3 & X4 & X5 & X6 & X7 & X8). destruct s_wf as [Wp Wk]. pose proof (wf_n _ _ _ Wk) as Hn. pose proof s_len as Ln. pose proof Ha as Hal.
  set (t := (p - s)%Z) in *. assert (Ht : (0 <= t)%Z) by (unfold t, s; lia).
  set (B := get_axis nrb' a) in *.
  destruct (ins_axes dj nrb nrb' ax a u None L3 C4 HA Ea Hu EI) as (MA & _ & L3').
  assert (NC : n_comp nrb' = n_comp nrb).
  { clear - EI Ea. unfold insert in EI. rewrite Ea in EI. cbn [bind] in EI. unfold assert, check in EI.
    repeat (match type of EI with bind ?b _ = _ => destruct b; cbn [bind] in EI; try discriminate | (if ?b then _ else _) = _ => destruct b end); injection EI as <-; reflexivity. }
  assert (WR : wf_nurbs (robj nrb')).
  { split; [|split].
    - cbn [robj n_axes]. rewrite map_length. exact L3'.
    - unfold spec_axes. cbn [robj n_axes]. rewrite rax_spec. apply wf_axs. exact MA.
    - cbn [robj n_comp]. lia. }
  assert (LN : length (n_axes nrb') = length (n_axes nrb)) by (rewrite X5; apply lset_length).
  assert (GA : get_axis (robj nrb') a = rax B).
  { unfold get_axis, robj. cbn [n_axes]. rewrite (nth_indep _ _ (rax axis0)) by (rewrite map_length, LN; exact Hal). apply map_nth. }
  assert (Ea' : py_axis (n_dim (robj nrb')) ax = Ok a) by (unfold n_dim, robj; cbn [n_axes]; rewrite map_length, LN; exact Ea).
  set (rV := fun i => dval (a_knots B i)).
  assert (DB : a_deg B = p) by (unfold a_deg; rewrite X3, X6; unfold p, a_deg; lia).
  assert (WB : wf_ax (spec_ax (rax B))) by (rewrite <- GA; apply wf_get_axis; [exact WR|unfold robj; cbn [n_axes]; rewrite map_length, LN; exact Hal]).
  assert (WV : wf_knots (n + t) p rV).
  { destruct WB as [_ W]. cbn [spec_ax x_n x_p x_U] in W. change (a_size (rax B)) with (a_size B) in W. change (a_deg (rax B)) with (a_deg B) in W. change (a_knots (rax B)) with rV in W.
    rewrite DB, X3 in W. replace (a_size A + t - 1)%Z with (n + t)%Z in W by (unfold n; lia). exact W. }
  pose proof s_active as [Hk [Hac|[_ Hac]]]; [|pose proof s_in; lra].
  assert (VV : forall i, (0 <= i <= n + p + 1 + t)%Z -> rV i = if (i <=? k)%Z then rU i else if (i <=? k + t)%Z then dval u else rU (i - t)%Z).
  { intros i Hi. unfold rV, rU. rewrite X7 by exact Hi. destruct (i <=? k)%Z; [reflexivity|]. destruct (i <=? k + t)%Z; reflexivity. }
  assert (AV : active (n + t) p rV (dval u) (k + t)).
  { split; [lia|]. left. rewrite !VV by lia. destruct (Z.leb_spec (k + t + 1) k); [lia|]. destruct (Z.leb_spec (k + t + 1) (k + t)); [lia|]. replace (k + t + 1 - t)%Z with (k + 1)%Z by lia.
    split; [|apply Hac]. destruct (Z.leb_spec (k + t) k); [replace (k + t)%Z with k by lia; apply Hac|]. rewrite Z.leb_refl. lra. }
  assert (Vlo : rV p = rU p) by (rewrite VV by lia; destruct (Z.leb_spec p k); [reflexivity|lia]).
  assert (Vhi : rV (n + t + 1)%Z = rU (n + 1)%Z).
  { rewrite VV by lia. destruct (Z.leb_spec (n + t + 1) k); [lia|]. destruct (Z.leb_spec (n + t + 1) (k + t)); [lia|]. f_equal. lia. }
  pose proof s_in as Hin.
  assert (DV : in_domain (n + t) p rV (dval u)) by (unfold in_domain; rewrite Vlo, Vhi; lra).
  assert (SV : separated rV 0 (n + t + p + 1) (dval u)).
  { destruct Hu as (_ & _ & Hs). intros i Hi. rewrite VV by lia. destruct (Z.leb_spec i k); [apply Hs; lia|]. destruct (Z.leb_spec i (k + t)); [left; reflexivity|apply Hs; lia]. }
  assert (Es : t = (a_deg A - Z.min (times_in A u) (a_deg A))%Z) by (unfold t; rewrite s_mult; reflexivity).
  assert (MV : (p <= multiplicity rV 0 (n + t + p + 1) (dval u))%Z).
  { destruct (ins_knots dj nrb nrb' ax a u None L3 C4 HA Ea Hu EI) as (_ & V & EV & _ & _ & KK). cbv zeta in EV, KK. rewrite <- Es in EV, KK.
    assert (EB : B = mkAxis (N:=Dn) (a_size A + t) (a_len A + t) V) by (unfold B, get_axis at 1; rewrite EV; apply nth_lset; exact Hal).
    unfold rV. rewrite EB. cbn [a_knots]. replace (n + t + p + 1)%Z with (a_len A + t - 1)%Z by lia. rewrite KK. destruct (Req_EM_T (dval u) (dval u)) as [_|]; [|contradiction].
    fold (times_in A u). fold p in Es. lia. }
  assert (FS : FindSpan (N:=Rn) (n + t) p (dval u) rV = (k + t)%Z) by (apply (active_unique _ _ _ _ _ _ WV (FindSpan_active _ _ _ _ WV DV) AV)).
  pose proof (FindMult_min (n + t) p rV (dval u) WV DV SV) as FM. rewrite FS in FM.
  assert (EXR : extract (N:=Rn) (fun _ => 0) (robj nrb') ax (dval u) =
    Ok (mkNurbs (N:=Rn) (lrem a (n_axes (robj nrb'))) (n_comp (robj nrb')) (fun idx c => bsp_Extract (N:=Rn) (n + t) p rV (fun i => n_arr (robj nrb') (lins a i idx) c) (dval u) (fun _ => 0)))).
  { unfold extract. rewrite Ea'. cbn [bind]. rewrite GA. unfold a_lo, a_hi. change (a_len (rax B)) with (a_len B). change (a_size (rax B)) with (a_size B). change (a_deg (rax B)) with (a_deg B). change (a_knots (rax B)) with rV.
    rewrite DB, X3, X6. replace (a_len A + t - p - 1)%Z with (n + t + 1)%Z by lia. replace (a_size A + t - 1)%Z with (n + t)%Z by (unfold n; lia).
    assert (nleb Rn (rV p) (dval u) = true) as -> by (apply Rleb_true; rewrite Vlo; lra). assert (nleb Rn (dval u) (rV (n + t + 1)%Z) = true) as -> by (apply Rleb_true; rewrite Vhi; lra).
    unfold assert, check. cbn [bind]. destruct (Z.leb_spec 1 (n + t)); [|lia]. destruct (Z.leb_spec 1 p); [|lia]. reflexivity. }
  set (secR := mkNurbs _ _ _) in EXR.
  pose proof (extract_spec (robj nrb') ax a (dval u) (fun _ => 0) secR WR Ea') as SP. cbv zeta in SP. rewrite GA in SP.
  change (a_size (rax B)) with (a_size B) in SP. change (a_deg (rax B)) with (a_deg B) in SP. change (a_knots (rax B)) with rV in SP. rewrite DB, X3 in SP. replace (a_size A + t - 1)%Z with (n + t)%Z in SP by (unfold n; lia).
  assert (Hin' : dval u < rV (n + t + 1)%Z) by (rewrite Vhi; lra).
  destruct (SP SV (or_introl Hin') EXR) as (_ & _ & _ & _ & HH).
  assert (ER : spec_axes secR = map real_ax (n_axes sec)).
  { unfold secR, spec_axes. cbn [n_axes robj]. rewrite <- map_lrem, rax_spec. f_equal. rewrite X1, X5. apply lrem_lset. }
  specialize (HH us c ltac:(rewrite ER, map_length; exact Lu)).
  assert (EH : hom (robj nrb') c (lins a (dval u) us) = real_hom nrb' c (lins a (dval u) us)) by (unfold hom, real_hom, spec_axes, robj; cbn [n_axes n_arr]; rewrite rax_spec; reflexivity).
  rewrite <- EH, <- HH. unfold hom, real_hom. rewrite ER. apply ProofNet.tsum_ext; [rewrite map_length; exact Lu|]. intros idx Hidx.
  rewrite X8. 2:{ apply in_net_length in Hidx. rewrite map_length, X1, lrem_length in Hidx by exact Hal. lia. }
  unfold secR. cbn [n_arr]. unfold bsp_Extract, CurvePntByCornerCut.
  assert (nleb Rn (dval u) (rV p) = false) as -> by (apply not_true_is_false; intros Q; apply Rleb_true in Q; rewrite Vlo in Q; lra).
  assert (nleb Rn (rV (n + t + 1)%Z) (dval u) = false) as -> by (apply not_true_is_false; intros Q; apply Rleb_true in Q; rewrite Vhi in Q; lra).
  cbv zeta. rewrite FS. destruct (Z.leb_spec p (FindMult (N:=Rn) (k + t) (dval u) p rV)); [|lia].
  cbn [robj n_arr]. f_equal. f_equal. f_equal. unfold t. lia.
Qed.

(** Its control points are finite. *)
Lemma sec_finite c M : M <= b2 500 -> within nrb c M -> within sec c ((1 + IZR p * b2 (-48)) * M + IZR p * b2 (-1073)).
Proof.
  intros HM HW idx I. destruct layer as (X1 & X2 & X3 & X4 & X5 & X6 & X7 & X8). destruct s_wf as [Wp Wk]. pose proof (wf_n _ _ _ Wk) as Hn. pose proof Ha as Hal.
  pose proof s_active as [Hk _].
  assert (HsP : (s <= p)%Z) by (unfold s; lia).
  destruct (ins_real dj nrb nrb' ax a u None L3 C4 HA Ea Hu EI) as (nR & _ & Hr & _ & _ & _ & QQ & CC & _).
  assert (Li : (a <= length idx)%nat) by (apply in_net_length in I; rewrite map_length, X1, lrem_length in I by exact Hal; lia).
  assert (I' : in_net (map real_ax (n_axes nrb')) (lins a (k - s)%Z idx)).
  { rewrite X5, map_lset. rewrite lset_eq_lins by (rewrite map_length; exact Hal). apply Forall2_lins; [rewrite <- map_lrem, <- X1; exact I|]. cbn [real_ax x_n]. rewrite X3. unfold n in *. lia. }
  rewrite X8 by exact Li. destruct (CC c M ltac:(apply Rle_trans with (1 := HM); apply b2_le; lia) HW _ I') as [F1 F2]. split; [exact F1|].
  assert (K : Rabs (n_arr nR (lins a (k - s)%Z idx) c) <= M).
  { refine (QQ (fun x _ => Rabs x <= M) _ c c _ _ I').
    - intros b x y x' y' Hb H1 H2. apply abs_le in H1. apply abs_le in H2. apply Rabs_le.
      assert (b * x <= b * M) by (apply Rmult_le_compat_l; lra). assert ((1 - b) * x' <= (1 - b) * M) by (apply Rmult_le_compat_l; lra).
      assert (b * (- M) <= b * x) by (apply Rmult_le_compat_l; lra). assert ((1 - b) * (- M) <= (1 - b) * x') by (apply Rmult_le_compat_l; lra). lra.
    - intros i' J. apply HW. exact J. }
  apply abs_le in K. apply abs_le in F2. apply Rabs_le.
  assert (M0 : 0 <= M) by lra.
  set (r := (a_deg A - Z.min (times_in A u) (a_deg A))%Z) in *.
  assert (E : IZR r * step M <= IZR p * (b2 (-48) * M + b2 (-1073))).
  { unfold step, uu, eta. replace (-48)%Z with (5 + -53)%Z by lia. replace (-1073)%Z with (2 + -1075)%Z by lia. rewrite !b2_add. pose proof (b2_pos (-53)). pose proof (b2_pos (-1075)).
    assert (0 <= b2 (-53) * M) by (apply Rmult_le_pos; lra).
    replace (b2 5 * b2 (-53) * M + b2 2 * b2 (-1075)) with (32 * b2 (-53) * M + 4 * b2 (-1075)) by (unfold b2; simpl; lra).
    apply Rmult_le_compat; [apply IZR_le; lia| |apply IZR_le; unfold p; lia|]; lra. }
  lra.
Qed.
Lemma sec_box us : in_box (map real_ax (n_axes sec)) us -> in_box (map real_ax (n_axes nrb)) (lins a (dval u) us).
Proof.
  intros B. destruct layer as (X1 & _). pose proof Ha as Hal. rewrite <- (lins_lrem a (real_ax axis0) (map real_ax (n_axes nrb))) by (rewrite map_length; exact Hal).
  rewrite map_nth. apply Forall2_lins; [rewrite <- map_lrem, <- X1; exact B|]. exact s_dom.
Qed.
End With.

Lemma sec_ins : exists nrb', insert (N:=Dn) dj nrb ax u None = Ok nrb'.
Proof. apply (ins_accepts dj nrb ax a u None HA Ea Hu). exact Logic.I. Qed.
Theorem section_axes : n_axes sec = lrem a (n_axes nrb) /\ n_comp sec = n_comp nrb.
Proof. destruct sec_ins as [nrb' EI]. destruct (layer nrb' EI) as (X1 & X2 & _). auto. Qed.
Theorem section_net c M : M <= b2 500 -> within nrb c M -> within sec c ((1 + IZR p * b2 (-48)) * M + IZR p * b2 (-1073)).
Proof. destruct sec_ins as [nrb' EI]. apply (sec_finite nrb' EI). Qed.
Theorem section_hom c M : M <= b2 500 -> within nrb c M -> forall us, in_box (map real_ax (n_axes sec)) us ->
  Rabs (real_hom sec c us - real_hom nrb c (lins a (dval u) us)) <= IZR (a_deg A - Z.min (times_in A u) (a_deg A)) * (b2 (-48) * M + b2 (-1073)).
Proof.
  intros HM HW us B. destruct sec_ins as [nrb' EI]. rewrite (sec_real nrb' EI) by (apply in_box_length in B; rewrite map_length in B; exact B).
  apply (ins_hom dj nrb nrb' ax a u None L3 C4 HA Ea Hu EI c M HM HW). apply (sec_box nrb' EI). exact B.
Qed.
Theorem section_spline : n_axes sec = lrem a (n_axes nrb) /\ n_comp sec = n_comp nrb /\
  forall c M, M <= b2 500 -> within nrb c M -> forall us, in_box (map real_ax (n_axes sec)) us ->
    Rabs (real_hom sec c us - real_hom nrb c (lins a (dval u) us)) <= IZR (a_deg A - Z.min (times_in A u) (a_deg A)) * (b2 (-48) * M + b2 (-1073)).
Proof. destruct section_axes as [X1 X2]. split; [exact X1|]. split; [exact X2|]. exact section_hom. Qed.
Theorem section_pt w0 w1 : weights_in nrb w0 w1 -> forall c M, 0 <= M <= b2 400 -> mild_comp nrb c M -> forall us, in_box (map real_ax (n_axes sec)) us ->
  Rabs (real_pt sec c us - real_pt nrb c (lins a (dval u) us)) <= IZR (a_deg A) * b2 (-46) * (w1 / w0) * M + b2 (-960).
Proof.
  intros HW c M HM HC us B. destruct sec_ins as [nrb' EI]. pose proof (sec_box nrb' EI us B) as B'.
  pose proof (ins_pt dj nrb nrb' ax a u None L3 C4 HA Ea Hu EI w0 w1 HW c M HM HC _ B') as P.
  assert (L : length us = length (n_axes sec)) by (apply in_box_length in B; rewrite map_length in B; exact B).
  pose proof (sec_real nrb' EI c us L) as H1. pose proof (sec_real nrb' EI 3%Z us L) as H3. unfold real_pt in *. unfold real_hom in *. rewrite H1, H3. exact P.
Qed.
End Sec.

(** Inner parameters are not refused. *)
Theorem section_accepts (dj : Z -> Dn) (nrb : nurbs Dn) ax a (u : Dn) : Forall mild_axis (n_axes nrb) -> py_axis (n_dim nrb) ax = Ok a -> new_knot (get_axis nrb a) u ->
  exists sec, extract (N:=Dn) dj nrb ax u = Ok sec.
Proof.
  intros HA Ea Hu. destruct (ins_accepts dj nrb ax a u None HA Ea Hu Logic.I) as [nrb' EI].
  assert (Ha' : (a < length (n_axes nrb))%nat) by (apply py_axis_ok in Ea; unfold n_dim in Ea; lia).
  assert (MA : mild_axis (get_axis nrb a)) by (rewrite Forall_forall in HA; apply HA; apply nth_In; exact Ha').
  destruct MA as ([W1 W2] & _). cbn in W1, W2. pose proof (wf_n _ _ _ W2) as Hn.
  unfold extract, insert in *. rewrite Ea in EI |- *. cbn [bind] in *. unfold assert, check in *.
  destruct (nleb Dn (a_lo _) u); [|discriminate]. cbn [bind] in *. destruct (nleb Dn u (a_hi _)); [|discriminate]. cbn [bind].
  destruct (Z.leb_spec 1 (a_size (get_axis nrb a) - 1)); [|lia]. destruct (Z.leb_spec 1 (a_deg (get_axis nrb a))); [|lia]. cbn [bind]. eauto.
Qed.

(** ** The ends of a clamped axis *)
Lemma count_at_least (f : Z -> bool) lo hi x y : (lo <= x)%Z -> (x <= y)%Z -> (y <= hi)%Z -> (forall j, (x <= j <= y)%Z -> f j = true) ->
  (y - x + 1 <= for_up lo hi (fun j m => if f j then m + 1 else m) 0)%Z.
Proof.
  intros H1 H2 H3 H. pose proof (for_up_ind (fun j m => Z.max 0 (Z.min j (y + 1) - x) <= m)%Z lo hi (fun j m => if f j then m + 1 else m)%Z 0%Z ltac:(lia) ltac:(cbv beta; lia)) as P.
  assert (Q : (Z.max 0 (Z.min (hi + 1) (y + 1) - x) <= for_up lo hi (fun j m => if f j then m + 1 else m) 0)%Z).
  { apply P. cbv beta. intros j m Hj Hm. destruct (f j) eqn:E; [lia|]. destruct (Z_lt_le_dec j x); [lia|]. destruct (Z_lt_le_dec y j); [lia|]. rewrite H in E by lia. discriminate. }
  lia.
Qed.
Lemma end_mult i p (U : Z -> Dn) (u : Dn) x y : finite u -> Rabs (dval u) <= b2 501 -> (- p <= x)%Z -> (x <= y)%Z -> (y <= p + 1)%Z ->
  (forall j, (x <= j <= y)%Z -> finite (U (i + j)%Z) /\ Rabs (dval (U (i + j)%Z)) <= b2 501 /\ dval (U (i + j)%Z) = dval u) ->
  (y - x + 1 <= FindMult (N:=Dn) i u p U)%Z.
Proof.
  intros Fu Bu H1 H2 H3 H. unfold FindMult. apply (count_at_least (fun j => nltb Dn (nabs Dn (nsub Dn u (U (i + j)%Z))) (neps Dn))); auto.
  intros j Hj. destruct (H j Hj) as (F & B & E). rewrite tiny_ok by auto. rewrite E. apply Rltb_true. rewrite Rminus_diag_eq by reflexivity. rewrite Rabs_R0. lra.
Qed.
Theorem boundary_layer (dj : Z -> Dn) (nrb sec : nurbs Dn) ax a side : Forall mild_axis (n_axes nrb) -> py_axis (n_dim nrb) ax = Ok a ->
  let A := get_axis nrb a in clamped (a_size A - 1) (a_deg A) (fun i => dval (a_knots A i)) ->
  boundary (N:=Dn) dj nrb ax side = Ok sec ->
  n_axes sec = lrem a (n_axes nrb) /\ n_comp sec = n_comp nrb /\ (side = 0 \/ side = 1)%Z /\
  forall idx c, n_arr sec idx c = n_arr nrb (lins a (if side =? 0 then 0 else a_size A - 1)%Z idx) c.
Proof.
  intros HA Ea A [CL CR] E. set (n := (a_size A - 1)%Z) in *. set (p := a_deg A) in *.
  assert (Ha' : (a < length (n_axes nrb))%nat) by (apply py_axis_ok in Ea; unfold n_dim in Ea; lia).
  assert (MA : mild_axis A) by (rewrite Forall_forall in HA; apply HA; apply nth_In; exact Ha').
  destruct MA as ([W1 W2] & _ & FK & _). cbn [real_ax x_p x_n x_U] in W1, W2. fold n p in W1, W2. pose proof (wf_n _ _ _ W2) as Hn.
  assert (Ln : a_len A = (n + p + 2)%Z) by (unfold n, p, a_deg; lia).
  assert (FU : forall i, (0 <= i <= n + p + 1)%Z -> finite (a_knots A i) /\ Rabs (dval (a_knots A i)) <= b2 501).
  { intros i Hi. destruct (FK i ltac:(lia)) as [F1 F2]. split; auto. apply Rle_trans with (1 := F2). apply b2_le. lia. }
  unfold boundary in E. unfold assert in E.
  assert (Sd : (side = 0 \/ side = 1)%Z) by (destruct (Z.eqb_spec side 0); destruct (Z.eqb_spec side 1); auto; discriminate).
  destruct ((side =? 0)%Z || (side =? 1)%Z); [|discriminate]. cbn [bind] in E. rewrite Ea in E. cbn [bind] in E. fold A in E.
  assert (Ea2 : py_axis (n_dim nrb) (Z.of_nat a) = Ok a).
  { unfold py_axis, n_dim. destruct (Z.leb_spec (- Z.of_nat (length (n_axes nrb))) (Z.of_nat a)); [|lia]. destruct (Z.ltb_spec (Z.of_nat a) (Z.of_nat (length (n_axes nrb)))); [|lia]. cbn [andb].
    destruct (Z.ltb_spec (Z.of_nat a) 0); [lia|]. rewrite Nat2Z.id. reflexivity. }
  unfold extract in E. rewrite Ea2 in E. cbn [bind] in E. fold A in E. fold n p in E. unfold assert, check in E. set (v := if (side =? 0)%Z then a_lo A else a_hi A) in E.
  repeat (match type of E with bind (if ?b then _ else _) _ = _ => destruct b; cbn [bind] in E; try discriminate end). injection E as <-. cbn [n_axes n_comp n_arr].
  split; [reflexivity|]. split; [reflexivity|]. split; [exact Sd|]. intros idx c. unfold bsp_Extract, CurvePntByCornerCut. cbv zeta.
  assert (Eh : a_hi A = a_knots A (n + 1)%Z) by (unfold a_hi; fold p; f_equal; lia).
  assert (L : dval (a_knots A p) < dval (a_knots A (n + 1)%Z)).
  { pose proof (wf_mono _ _ _ W2) as Mo. pose proof (wf_first _ _ _ W2) as H1. apply Rlt_le_trans with (1 := H1). apply Mo; lia. }
  destruct (FU p ltac:(lia)) as [Fp Bp]. destruct (FU (n + 1)%Z ltac:(lia)) as [Fn Bn].
  destruct Sd as [-> | ->].
  - change (0 =? 0)%Z with true in *. cbv iota in *. unfold v, a_lo. fold p. assert (nleb Dn (a_knots A p) (a_knots A p) = true) as -> by (apply leb_ok; auto; lra).
    assert (K : (p + 1 <= FindMult (N:=Dn) p (a_knots A p) p (a_knots A))%Z).
    { apply Z.le_trans with (0 - - p + 1)%Z; [lia|]. apply end_mult; auto; try lia. intros j Hj. destruct (FU (p + j)%Z ltac:(lia)). split; auto. split; auto. apply CL. lia. }
    destruct (Z.leb_spec p (FindMult (N:=Dn) p (a_knots A p) p (a_knots A))); [reflexivity|lia].
  - change (1 =? 0)%Z with false in *. cbv iota in *. unfold v. rewrite Eh.
    assert (nleb Dn (a_knots A (n + 1)%Z) (a_knots A p) = false) as -> by (apply not_true_is_false; intros Q; apply leb_ok in Q; auto; lra).
    assert (nleb Dn (a_knots A (n + 1)%Z) (a_knots A (n + 1)%Z) = true) as -> by (apply leb_ok; auto; lra).
    assert (K : (p + 1 <= FindMult (N:=Dn) n (a_knots A (n + 1)%Z) p (a_knots A))%Z).
    { apply Z.le_trans with (p + 1 - 1 + 1)%Z; [lia|]. apply end_mult; auto; try lia. intros j Hj. destruct (FU (n + j)%Z ltac:(lia)). split; auto. split; auto. apply CR. lia. }
    destruct (Z.leb_spec p (FindMult (N:=Dn) n (a_knots A (n + 1)%Z) p (a_knots A))); [reflexivity|lia].
Qed.
