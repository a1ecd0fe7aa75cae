(** Derivatives under refinement and under remapping. *)
From Coq Require Import ZArith Reals List Lia Lra Bool.
From Verif Require Import Num Loop ModelBspline ModelBSp ModelNurbs ModelDer Spec SumZ BPiece BLink SpecNurbs SpecDer BDer ProofSpan ProofNet ProofCall ProofNurbs ProofGeom ProofGeom2
  ProofRational ProofDerLink ProofDerApi ProofDerApi2 ProofDer4 PropDer PropNurbs SpecSmooth ProofSmooth ProofSmooth2 ProofSmooth3 ProofSmooth4 ProofUniq ProofUniq2 ProofRemove4 ProofDerGeom.
Import ListNotations.
Local Open Scope R_scope.

Lemma alike_pt x y : wf_nurbs x -> wf_nurbs y -> Forall2 same_dom (spec_axes x) (spec_axes y) -> evaluate_alike x y ->
  forall us c, in_box (spec_axes x) us -> (0 <= c < n_comp x)%Z -> c <> 3%Z -> pt y c us = pt x c us.
Proof.
  intros Wx Wy S E us c I Hc N3. pose proof (same_dom_box _ _ _ S I) as I'.
  pose (e := fun _ : Z => 0). pose (e2 := fun _ _ : Z => 0). pose (e3 := fun (_ _ _ : Z) => 0). pose (eS := fun (_ : Z) => 0%Z).
  destruct (call_pt x (singles us) Wx (singles_good _ _ I) e e2 e3 eS) as (Cx & Fx & EX & VX).
  destruct (call_pt y (singles us) Wy (singles_good _ _ I') e e2 e3 eS) as (Cy & Fy & EY & VY).
  pose proof (fun d => E (singles us) _ _ _ _ _ _ _ _ _ _ _ _ (singles_good _ _ I) EX EY (map (fun _ => 0%Z) us) d (singles_range us)) as V.
  pose proof (fun d => VX (map (fun _ => 0%Z) us) d (singles_range us)) as VX'. pose proof (fun d => VY (map (fun _ => 0%Z) us) d (singles_range us)) as VY'.
  rewrite (singles_params us) in VX', VY'.
  destruct (Z_lt_le_dec c 3).
  - destruct (V c) as [V1 _]. destruct (VX' c) as [X1 _]. destruct (VY' c) as [Y1 _]. rewrite <- X1, <- Y1. apply V1. lia.
  - destruct (V (c - 4)%Z) as [_ V1]. destruct (VX' (c - 4)%Z) as [_ X1]. destruct (VY' (c - 4)%Z) as [_ Y1].
    replace (4 + (c - 4))%Z with c in X1, Y1 by lia. rewrite <- X1, <- Y1. apply V1. lia.
Qed.

Theorem derivatives_follow_evaluation : forall x y, wf_nurbs x -> wf_nurbs y -> (1 <= length (n_axes x))%nat -> n_comp y = n_comp x ->
  Forall2 same_dom (spec_axes x) (spec_axes y) -> positive_weights x -> positive_weights y -> evaluate_alike x y ->
  forall xs order mapped, good_args (spec_axes x) xs -> (1 <= order <= 3)%Z -> (mapped = true -> order = 1%Z) ->
  forall j j2 k k2, exists G G', derivative (N:=Rn) j j2 x order None (map Some xs) mapped = Ok G /\ derivative (N:=Rn) k k2 y order None (map Some xs) mapped = Ok G' /\
  forall idx c D, in_range xs idx -> (0 <= c < (if n_comp x =? 4 then 3 else n_comp x - 4))%Z -> Z.of_nat (length D) = order -> dirs (length (n_axes x)) D ->
    G' idx c D = G idx c D.
Proof.
  intros x y Wx Wy Hd Hc S Px Py E xs order mapped G Ho Hm j j2 k k2.
  apply derivs_alike; auto using positive_nonzero.
  - intros us I. apply Rgt_not_eq, weight_pos; auto.
  - intros us I. apply Rgt_not_eq, weight_pos; auto. eapply same_dom_box; eauto.
  - apply alike_pt; auto.
Qed.
Theorem derivatives_refinement : forall x y, wf_nurbs x -> (1 <= length (n_axes x))%nat -> refinements x y -> positive_weights x -> nonzero_weights y ->
  forall xs order mapped, good_args (spec_axes x) xs -> (1 <= order <= 3)%Z -> (mapped = true -> order = 1%Z) ->
  forall j j2 k k2, exists G G', derivative (N:=Rn) j j2 x order None (map Some xs) mapped = Ok G /\ derivative (N:=Rn) k k2 y order None (map Some xs) mapped = Ok G' /\
  forall idx c D, in_range xs idx -> (0 <= c < (if n_comp x =? 4 then 3 else n_comp x - 4))%Z -> Z.of_nat (length D) = order -> dirs (length (n_axes x)) D ->
    G' idx c D = G idx c D.
Proof.
  intros x y Wx Hd Rf Px Ny xs order mapped G Ho Hm j j2 k k2. destruct (refinements_preserves x y Wx Rf) as [Wy Hc S HH].
  assert (Z : forall us, in_box (spec_axes x) us -> hom x 3 us <> 0) by (intros us I; apply Rgt_not_eq, weight_pos; auto).
  apply derivs_alike; auto using positive_nonzero.
  - intros us I. rewrite HH by auto. auto.
  - intros us c I _ _. unfold pt. rewrite !HH by auto. reflexivity.
Qed.

(** ** Remapping *)
Lemma put_lset k (t : R) : forall x, put k t x = lset k t x.
Proof. induction k; destruct x; simpl; auto. f_equal. auto. Qed.
Lemma lset_comm {A} a b (v w : A) : forall l, a <> b -> lset a v (lset b w l) = lset b w (lset a v l).
Proof. revert b. induction a; intros [|b] [|z l] H; simpl; auto; [congruence|]. f_equal. apply IHa. congruence. Qed.
Section Remap.
Variables (axs : list axR) (a : nat) (b' : axR) (al be : R) (P w P' w' : list Z -> R).
Let phi (y : list R) : list R := lset a (al * nth a y 0 + be) y.
Let alk (k : nat) : R := if Nat.eqb k a then al else 1.
Let bek (k : nat) : R := if Nat.eqb k a then be else 0.
Let axs' : list axR := lset a b' axs.
Hypothesis W : Forall wf_ax axs.
Hypothesis Wb : wf_ax b'.
Hypothesis Ha : (a < length axs)%nat.
Hypothesis Hal : 0 < al.
Hypothesis Hlo : x_U b' (x_p b') = al * x_U (nth a axs ax0) (x_p (nth a axs ax0)) + be.
Hypothesis Hhi : x_U b' (x_n b' + 1)%Z = al * x_U (nth a axs ax0) (x_n (nth a axs ax0) + 1)%Z + be.
Hypothesis Z1 : forall y, in_box axs y -> tsum axs w y <> 0.
Hypothesis Z2 : forall y, in_box axs y -> tsum axs' w' (phi y) <> 0.
Hypothesis HE : forall y, in_box axs y -> tsum axs P y / tsum axs w y = tsum axs' P' (phi y) / tsum axs' w' (phi y).
Lemma phi_box y : in_box axs y -> in_box axs' (phi y).
Proof.
  intros I. unfold axs', phi. apply Forall2_lset; auto. pose proof (Forall2_nth _ _ _ a ax0 0 I Ha) as D. unfold in_domain in *. rewrite Hlo, Hhi.
  destruct D as [D1 D2]. pose proof (Rmult_le_compat_l _ _ _ (Rlt_le _ _ Hal) D1). pose proof (Rmult_le_compat_l _ _ _ (Rlt_le _ _ Hal) D2). lra.
Qed.
Lemma phi_put k t y : (a < length y)%nat -> (k < length y)%nat -> phi (put k t y) = put k (alk k * t + bek k) (phi y).
Proof.
  intros La Lk. unfold phi, alk, bek. rewrite !put_lset. destruct (Nat.eqb_spec k a) as [->|N].
  - rewrite nth_lset by auto. rewrite !lset_lset. reflexivity.
  - rewrite nth_lset_other by auto. rewrite lset_comm by auto. f_equal. ring.
Qed.
Lemma phi_nth k y : (a < length y)%nat -> nth k (phi y) 0 = alk k * nth k y 0 + bek k.
Proof.
  intros La. unfold phi, alk, bek. destruct (Nat.eqb_spec k a) as [->|N]; [rewrite nth_lset by auto; reflexivity|]. rewrite nth_lset_other by auto. ring.
Qed.
Lemma phi_side k u : dside (nth k axs' ax0) (alk k * u + bek k) = dside (nth k axs ax0) u.
Proof.
  unfold axs', alk, bek. destruct (Nat.eqb_spec k a) as [->|N].
  - rewrite nth_lset by auto. unfold dside. rewrite Hhi.
    destruct (Rlt_dec _ _) as [L|L], (Rlt_dec u _) as [L'|L']; auto; exfalso.
    + apply L'. apply (Rmult_lt_reg_l al); auto. lra.
    + apply L. pose proof (Rmult_lt_compat_l al _ _ Hal L'). lra.
  - rewrite nth_lset_other by auto. f_equal. ring.
Qed.
Lemma axs'_wf : Forall wf_ax axs'.
Proof. unfold axs'. apply Forall_lset; auto. Qed.
Definition scale_of (D : list nat) : R := al ^ count_occ Nat.eq_dec D a.
Lemma gD_remap D : (length D <= 4)%nat -> Forall (fun k => (k < length axs)%nat) D -> forall x, in_box axs x -> gD axs P w D x = scale_of D * gD axs' P' w' D (phi x).
Proof.
  pose proof axs'_wf as W'. assert (LL : length axs' = length axs) by apply lset_length.
  induction D as [|k D IH] using rev_ind; intros HL HD x I.
  - pose proof (spans_act axs x W I) as A. pose proof (spans_act axs' (phi x) W' (phi_box x I)) as A'.
    unfold scale_of. cbn [count_occ pow]. rewrite Rmult_1_l. unfold gD, Qd. cbn [rev map quot]. unfold q0, ev. rewrite !Pd_value by auto. apply HE; auto.
  - rewrite app_length in HL. simpl in HL. pose proof HD as HD0. apply Forall_app in HD. destruct HD as [HD Hk]. inversion Hk as [|? ? Hk' _]; subst.
    assert (Lx : length x = length axs) by (symmetry; apply (Forall2_len _ _ _ I)).
    assert (Lp : length (phi x) = length axs') by (symmetry; apply (Forall2_len _ _ _ (phi_box x I))).
    pose proof (phi_box x I) as I'. pose proof (spans_act axs x W I) as A. pose proof (spans_act axs' (phi x) W' I') as A'.
    destruct (sides_active axs _ x k W A Hk') as (e & He & K). destruct (sides_active axs' _ (phi x) k W' A' ltac:(lia)) as (e' & He' & K').
    assert (Pk : 0 < alk k) by (unfold alk; destruct (Nat.eqb k a); lra).
    assert (Pe : 0 < e' / alk k) by (apply Rdiv_lt_0_compat; auto).
    apply (one_sided (fun t => Qd axs (spans_at axs x) P w D (put k t x)) (fun t => scale_of D * Qd axs' (spans_at axs' (phi x)) P' w' D (put k (alk k * t + bek k) (phi x))) (nth k x 0)
             (dside (nth k axs ax0) (nth k x 0)) (Rmin e (e' / alk k))).
    + apply dside_cases.
    + apply Rmin_pos; auto.
    + intros h Hh. pose proof (Rmin_l e (e' / alk k)). pose proof (Rmin_r e (e' / alk k)). specialize (K h ltac:(lra)).
      assert (Hh' : 0 <= alk k * h < e').
      { split; [apply Rmult_le_pos; lra|]. assert (h < e' / alk k) by lra. apply (Rmult_lt_compat_l (alk k)) in H1; auto. replace (alk k * (e' / alk k)) with e' in H1 by (field; lra). exact H1. }
      specialize (K' _ Hh'). rewrite phi_nth, phi_side in K' by lia.
      replace (alk k * nth k x 0 + bek k + dside (nth k axs ax0) (nth k x 0) * (alk k * h)) with (alk k * (nth k x 0 + dside (nth k axs ax0) (nth k x 0) * h) + bek k) in K' by ring.
      rewrite <- phi_put in K' |- * by lia. set (y := put k (nth k x 0 + dside (nth k axs ax0) (nth k x 0) * h) x) in *.
      pose proof (act_in_box _ _ _ W K) as Iy. pose proof (phi_box _ Iy) as Iy'.
      pose proof (IH ltac:(lia) HD y Iy) as E. unfold gD in E.
      rewrite (act_unique _ _ _ _ W (spans_act axs y W Iy) K), (act_unique _ _ _ _ W' (spans_act axs' (phi y) W' Iy') K') in E. exact E.
    + apply Qd_partial1; auto; [eapply cbox_good; [|apply act_cbox]; eauto|lia|rewrite Pd_value by auto; auto].
    + replace (scale_of (D ++ [k]) * gD axs' P' w' (D ++ [k]) (phi x)) with (scale_of D * (gD axs' P' w' (D ++ [k]) (phi x) * alk k)).
      2:{ unfold scale_of, alk. rewrite count_occ_app. cbn [count_occ]. destruct (Nat.eq_dec k a) as [->|N].
          - rewrite Nat.eqb_refl, Nat.add_1_r. simpl. ring.
          - destruct (Nat.eqb_spec k a); [contradiction|]. rewrite Nat.add_0_r. ring. }
      apply (dl_scal (scale_of D)).
      apply (derivable_pt_lim_comp (fun t => alk k * t + bek k) (fun t => Qd axs' (spans_at axs' (phi x)) P' w' D (put k t (phi x)))).
      * eapply dl_eq; [|apply derivable_pt_lim_plus; [apply (derivable_pt_lim_scal id (alk k)), derivable_pt_lim_id|apply derivable_pt_lim_const]]. ring.
      * rewrite <- phi_nth by lia. apply Qd_partial1; auto; [eapply cbox_good; [|apply act_cbox]; eauto|rewrite LL; exact HD0|lia|rewrite Pd_value by auto; auto].
Qed.
End Remap.
Lemma remap_arr nrb ax start end_ nrb' : remap (N:=Rn) nrb ax start end_ = Ok nrb' -> n_arr nrb' = n_arr nrb /\ n_comp nrb' = n_comp nrb.
Proof.
  unfold remap. intros E. destruct (py_axis (n_dim nrb) ax) as [a|]; [|discriminate]. cbn [bind] in E. destruct (_ && _); [injection E as <-; auto|].
  unfold assert in E. destruct (nltb _ _ _); [|discriminate]. cbn [bind] in E. injection E as <-. auto.
Qed.
Lemma count_to_nat D a : Forall (fun d => (0 <= d)%Z) D -> count_occ Nat.eq_dec (map Z.to_nat D) a = count_occ Z.eq_dec D (Z.of_nat a).
Proof.
  intros H. induction H as [|d D Hd H IH]; auto. cbn [map count_occ]. rewrite IH. destruct (Nat.eq_dec (Z.to_nat d) a), (Z.eq_dec d (Z.of_nat a)); lia.
Qed.
Lemma net_lset a b : forall axs idx a0, (a < length axs)%nat -> x_n b = x_n (nth a axs a0) -> in_net (lset a b axs) idx -> in_net axs idx.
Proof.
  induction a as [|a IH]; intros [|c axs] idx a0 Ha E H; simpl in Ha; try lia; cbn [lset] in H; inversion H; subst; constructor; auto.
  - cbn [nth] in E. rewrite <- E. auto.
  - eapply IH; eauto. lia.
Qed.
Lemma stretch_end (c d lo hi : R) : lo < hi -> d = c + (hi - lo) * ((d - c) / (hi - lo)).
Proof. intros H. field. lra. Qed.
Lemma stretch_lin (c d lo hi x : R) : c + (x - lo) * (d - c) / (hi - lo) = (d - c) / (hi - lo) * x + (c - lo * ((d - c) / (hi - lo))).
Proof. unfold Rdiv. ring. Qed.
Theorem derivatives_remap : forall nrb ax a start end_ nrb', wf_nurbs nrb -> py_axis (n_dim nrb) ax = Ok a -> positive_weights nrb ->
  let A := get_axis nrb a in let lo := a_lo A in let hi := a_hi A in
  let c := match start with Some c => c | None => lo end in
  let d := match end_ with Some d => d | None => hi end in
  let g := fun x => c + (x - lo) * (d - c) / (hi - lo) in
  remap (N:=Rn) nrb ax start end_ = Ok nrb' ->
  forall xs order, good_args (spec_axes nrb) xs -> (1 <= order <= 3)%Z ->
  forall j j2 k k2, exists G G', derivative (N:=Rn) j j2 nrb order None (map Some xs) false = Ok G /\
    derivative (N:=Rn) k k2 nrb' order None (map Some (map_arg a g xs)) false = Ok G' /\
  forall idx q D, in_range xs idx -> Z.of_nat (length D) = order -> dirs (length (n_axes nrb)) D ->
    G idx q D = ((d - c) / (hi - lo)) ^ count_occ Z.eq_dec D (Z.of_nat a) * G' idx q D.
Proof.
  intros nrb ax a start end_ nrb' W Ea Pw A lo hi c d g E xs order G Ho j j2 k k2.
  pose proof (remap_full nrb ax a start end_ nrb' W Ea E) as RF. cbv zeta in RF. rewrite <- a_hi_eq in RF.
  change (a_knots (get_axis nrb a) (a_deg (get_axis nrb a))) with lo in RF. change (a_hi (get_axis nrb a)) with hi in RF.
  fold A in RF. fold c d in RF. fold g in RF. destruct RF as (Hcd & W' & (V & EA & HV & V1 & V2) & HH & _).
  destruct (remap_arr _ _ _ _ _ E) as [Earr Ecmp]. pose proof (py_axis_dim _ _ _ Ea) as Ha.
  assert (WA : wf_ax (spec_ax A)) by (apply (wf_get_axis _ _ W Ha)). assert (Wk : wf_knots (a_size A - 1) (a_deg A) (a_knots A)) by apply WA.
  assert (Hlh : lo < hi).
  { pose proof (wf_first _ _ _ Wk). pose proof (wf_n _ _ _ Wk). pose proof (wf_mono _ _ _ Wk (a_deg A + 1)%Z (a_size A - 1 + 1)%Z ltac:(pose proof (wf_p _ _ _ Wk); lia) ltac:(lia) ltac:(pose proof (wf_p _ _ _ Wk); lia)).
    unfold lo, hi. rewrite a_hi_eq. unfold a_lo. change (T Rn) with R in *. lra. }
  assert (EAx : spec_axes nrb' = lset a (spec_ax (mkAxis (a_size A) (a_len A) V)) (spec_axes nrb)) by (unfold spec_axes; rewrite EA; apply map_lset).
  assert (Ha' : (a < length (spec_axes nrb))%nat) by (unfold spec_axes; rewrite map_length; auto).
  assert (La' : length (n_axes nrb') = length (n_axes nrb)) by (rewrite EA; apply lset_length).
  assert (G' : good_args (spec_axes nrb') (map_arg a g xs)).
  { rewrite EAx. unfold map_arg. cbv zeta. pose proof (good_args_nth _ _ a (spec_ax axis0) G Ha') as Gx. rewrite nth_spec_axes in Gx. fold A in Gx. cbv zeta in Gx.
    apply Forall2_lset; [exact G|]. cbn [v_len v_get]. split; [apply Gx|]. intros i Hi. destruct Gx as [_ Gx]. specialize (Gx i Hi).
    unfold in_domain in *. cbn [spec_ax x_n x_p x_U a_size a_knots] in *. change (a_deg (mkAxis (a_size A) (a_len A) V)) with (a_deg A). rewrite V1, V2.
    change (a_knots A (a_deg A)) with lo in Gx. rewrite <- a_hi_eq in Gx. fold hi in Gx. unfold g.
    assert (0 < (d - c) / (hi - lo)) as Hr by (apply Rdiv_lt_0_compat; lra).
    set (x := v_get _ i) in *. clearbody x. set (r := (d - c) / (hi - lo)) in *.
    assert (E1 : c + (x - lo) * (d - c) / (hi - lo) = c + (x - lo) * r) by (unfold r, Rdiv; ring).
    assert (E2 : d = c + (hi - lo) * r) by (apply stretch_end; exact Hlh). clearbody r. change (T Rn) with R in *. rewrite E1.
    assert (0 <= (x - lo) * r) by (apply Rmult_le_pos; lra). assert ((x - lo) * r <= (hi - lo) * r) by (apply Rmult_le_compat_r; lra). lra. }
  set (nc := (if n_comp nrb =? 4 then 3 else n_comp nrb - 4)%Z). set (c0 := (if n_comp nrb =? 4 then 0 else 4)%Z).
  assert (Fx : field_of nrb None nc (fun i c => n_arr nrb i (c0 + c)%Z / n_arr nrb i 3%Z)).
  { unfold field_of, c0, nc. pose proof W as [_ [_ C4]]. destruct (Z.eqb_spec (n_comp nrb) 4); [left; auto|right; split; [lia|auto]]. }
  assert (Fy : field_of nrb' None nc (fun i c => n_arr nrb' i (c0 + c)%Z / n_arr nrb' i 3%Z)).
  { unfold field_of, c0, nc. pose proof W as [_ [_ C4]]. rewrite Ecmp. destruct (Z.eqb_spec (n_comp nrb) 4); [left; auto|right; split; [lia|auto]]. }
  destruct (field_of_ok _ _ _ _ Fx) as [Ex Hn]. destruct (field_of_ok _ _ _ _ Fy) as [Ey _].
  assert (Hm : false = true -> order = 1%Z) by discriminate.
  eexists. eexists. split; [apply (der_core_ok j j2 nrb order None xs nc _ false W G ltac:(lia) Ex Hn Hm)|].
  split; [apply (der_core_ok k k2 nrb' order None (map_arg a g xs) nc _ false W' G' ltac:(lia) Ey Hn Hm)|].
  intros idx q D Rg HL HD. cbv zeta. rewrite <- HL. pose proof (proj2 (in_range_map_arg a g xs idx) Rg) as Rg'.
  rewrite (der_gD j j2 nrb xs idx _ D W ltac:(lia) G Rg HD ltac:(lia)), (der_gD k k2 nrb' _ idx _ D W' ltac:(lia) G' Rg' ltac:(rewrite La'; auto) ltac:(lia)).
  rewrite params_map_arg by (auto; rewrite (good_args_length _ _ G); auto). rewrite EAx, Earr.
  assert (HD0 : Forall (fun d => (0 <= d)%Z) D) by (eapply Forall_impl; [|exact HD]; simpl; intros; lia).
  rewrite <- (count_to_nat D a HD0).
  set (al := (d - c) / (hi - lo)). set (be := c - lo * al).
  assert (Hg : forall x, g x = al * x + be) by (intros x; apply stretch_lin). rewrite Hg.
  assert (N3 : forall us, in_box (spec_axes nrb) us -> hom nrb 3 us <> 0) by (intros us I; apply Rgt_not_eq, weight_pos; auto).
  assert (HP : forall us, in_box (spec_axes nrb) us -> tsum (spec_axes nrb) (fun i => n_arr nrb i 3%Z * (n_arr nrb i (c0 + q)%Z / n_arr nrb i 3%Z)) us = hom nrb (c0 + q) us).
  { intros us I. apply tsum_ext; [exact I|]. intros i Hi. field. apply (positive_nonzero nrb Pw); auto. }
  assert (HP' : forall us, in_box (spec_axes nrb') us -> tsum (spec_axes nrb') (fun i => n_arr nrb i 3%Z * (n_arr nrb i (c0 + q)%Z / n_arr nrb i 3%Z)) us = hom nrb' (c0 + q) us).
  { intros us I. unfold hom. rewrite Earr. apply tsum_ext; [exact I|]. intros i Hi. field. apply (positive_nonzero nrb Pw).
    rewrite EAx in Hi. apply (net_lset a (spec_ax (mkAxis (a_size A) (a_len A) V)) (spec_axes nrb) i (spec_ax axis0)); auto. rewrite nth_spec_axes. reflexivity. }
  assert (NA : nth a (spec_axes nrb) ax0 = spec_ax A) by (rewrite (nth_indep _ ax0 (spec_ax axis0)) by auto; apply nth_spec_axes).
  assert (Box : forall y, in_box (spec_axes nrb) y -> lset a (al * nth a y 0 + be) y = lset a (g (nth a y 0)) y) by (intros; rewrite Hg; reflexivity).
  assert (T3 : forall y, in_box (spec_axes nrb) y -> tsum (spec_axes nrb') (fun i => n_arr nrb i 3%Z) (lset a (g (nth a y 0)) y) = hom nrb 3 y).
  { intros y I. transitivity (hom nrb' 3 (lset a (g (nth a y 0)) y)); [unfold hom; rewrite Earr; reflexivity|]. exact (proj2 (HH y 3%Z I)). }
  apply (gD_remap (spec_axes nrb) a (spec_ax (mkAxis (a_size A) (a_len A) V)) al be).
  - apply W.
  - pose proof (wf_get_axis nrb' a W' ltac:(lia)) as WA'. unfold get_axis in WA'. rewrite EA, nth_lset in WA' by auto. exact WA'.
  - auto.
  - unfold al. apply Rdiv_lt_0_compat; lra.
  - rewrite NA. cbn [spec_ax x_p x_U a_knots]. change (a_deg (mkAxis (a_size A) (a_len A) V)) with (a_deg A). rewrite HV. exact (Hg _).
  - rewrite NA. cbn [spec_ax x_n x_U a_knots a_size]. rewrite HV. exact (Hg _).
  - exact N3.
  - intros y I. rewrite (Box y I), <- EAx. destruct (HH y 3%Z I) as [I' E3]. rewrite (T3 y I). apply N3; auto.
  - intros y I. rewrite (Box y I), <- EAx. rewrite HP by auto. destruct (HH y (c0 + q)%Z I) as [I' E4].
    rewrite (HP' (lset a (g (nth a y 0)) y) I'), (T3 y I). f_equal. symmetry. exact E4.
  - rewrite map_length. lia.
  - unfold spec_axes. rewrite map_length. apply dirs_nat; auto.
  - eapply params_box; eauto.
Qed.

(** ** Constant components stay constant *)
Theorem constant_component : forall x y q v, wf_nurbs x -> refinements x y -> bounded_knots y -> (0 <= q < n_comp x)%Z ->
  (forall i, in_net (spec_axes x) i -> n_arr x i q = v) -> forall i, in_net (spec_axes y) i -> n_arr y i q = v.
Proof.
  intros x y q v W Rf B Hq H i I. pose proof (refinements_preserves x y W Rf) as P. destruct P as [Wy Hc S HH].
  set (z := mkNurbs (N:=Rn) (n_axes y) (n_comp y) (fun i c => if (c =? q)%Z then v else n_arr y i c)).
  assert (Wz : wf_nurbs z) by exact Wy.
  assert (SD : same_data y z).
  { apply net_unique; auto.
    - unfold same_knots. apply ProofNurbs.Forall2_refl. auto.
    - intros us c Iy Hcc. unfold hom. change (spec_axes z) with (spec_axes y). cbn [n_arr z]. destruct (Z.eqb_spec c q) as [->|]; [|reflexivity].
      destruct Wy as [_ [Fy _]]. rewrite tsum_const by auto.
      assert (Ix : in_box (spec_axes x) us).
      { clear - S Iy. revert us Iy. induction S as [|a b l l' [E1 E2] S IH]; intros us Iy; inversion Iy; subst; constructor; [|apply IH; auto]. unfold in_domain in *. rewrite E1, E2. auto. }
      symmetry. change (hom y q us = v). rewrite HH by auto. unfold hom. destruct W as [_ [Fx _]].
      rewrite (tsum_ext _ _ (fun _ => v) us Ix) by auto. apply tsum_const; auto. }
  destruct SD as (_ & _ & E). specialize (E i q I ltac:(lia)). cbn [n_arr z] in E. rewrite Z.eqb_refl in E. auto.
Qed.
