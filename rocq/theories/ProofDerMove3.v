(** Derivatives of reversed and transposed objects. *)
From Coq Require Import ZArith Reals List Lia Lra Bool.
From Verif Require Import Num Loop ModelBspline ModelBSp ModelNurbs ModelDer Spec SumZ BPiece BLink SpecNurbs SpecDer BDer ProofSpan ProofNet ProofCall ProofNurbs ProofMethods ProofGeom ProofGeom2 ProofPerm ProofOk
  ProofRational ProofDerLink ProofDerApi ProofDerApi2 ProofDer4 PropDer PropNurbs SpecSmooth ProofSmooth ProofSmooth2 ProofSmooth3 ProofSmooth4 ProofUniq ProofUniq2 ProofInsert ProofCompat1 ProofDerGeom ProofDerGeom2 ProofDerMove ProofDerMove2.
Import ListNotations.
Local Open Scope R_scope.

Definition c0 (nrb : nurbs Rn) : Z := if (n_comp nrb =? 4)%Z then 0%Z else 4%Z.
Definition dnum (nrb : nurbs Rn) (q : Z) (i : list Z) : R := n_arr nrb i 3%Z * (n_arr nrb i (c0 nrb + q)%Z / n_arr nrb i 3%Z).
Definition dden (nrb : nurbs Rn) (i : list Z) : R := n_arr nrb i 3%Z.
Lemma derivative_gD nrb xs order j j2 : wf_nurbs nrb -> (1 <= length (n_axes nrb))%nat -> good_args (spec_axes nrb) xs -> (1 <= order <= 3)%Z ->
  exists G, derivative (N:=Rn) j j2 nrb order None (map Some xs) false = Ok G /\
  forall idx q D, in_range xs idx -> Z.of_nat (length D) = order -> dirs (length (n_axes nrb)) D ->
    G idx q D = gD (spec_axes nrb) (dnum nrb q) (dden nrb) (map Z.to_nat D) (params xs idx).
Proof.
  intros W Hd G Ho. set (nc := (if n_comp nrb =? 4 then 3 else n_comp nrb - 4)%Z).
  assert (Fx : field_of nrb None nc (fun i c => n_arr nrb i (c0 nrb + c)%Z / n_arr nrb i 3%Z)).
  { unfold field_of, c0, nc. pose proof W as [_ [_ C4]]. destruct (Z.eqb_spec (n_comp nrb) 4); [left; auto|right; split; [lia|auto]]. }
  destruct (field_of_ok _ _ _ _ Fx) as [Ex Hn]. assert (Hm : false = true -> order = 1%Z) by discriminate.
  eexists. split; [apply (der_core_ok j j2 nrb order None xs nc _ false W G ltac:(lia) Ex Hn Hm)|].
  intros idx q D Rg HL HD. cbv zeta. rewrite <- HL. rewrite (der_gD j j2 nrb xs idx _ D W ltac:(lia) G Rg HD ltac:(lia)). reflexivity.
Qed.
Lemma dnum_hom nrb q us : nonzero_weights nrb -> in_box (spec_axes nrb) us -> tsum (spec_axes nrb) (dnum nrb q) us = hom nrb (c0 nrb + q) us.
Proof. intros N I. apply tsum_ext; [exact I|]. intros i Hi. unfold dnum. field. apply N; auto. Qed.

(** ** reverse *)
Lemma mirror_lin nrb a y : mirror nrb a y = lset a (-1 * nth a y 0 + (a_lo (get_axis nrb a) + a_hi (get_axis nrb a))) y.
Proof. unfold mirror. cbv zeta. f_equal. change (T Rn) with R in *. ring. Qed.
Lemma rev_net (a : nat) : forall axs idx (a0 : axR), in_net axs idx -> (a < length axs)%nat -> in_net axs (lset a (x_n (nth a axs a0) - nth a idx 0)%Z idx).
Proof.
  induction a as [|a IH]; intros [|b axs] [|i idx] a0 H Ha; cbn [length] in Ha; try lia; inversion H; subst; cbn [lset nth]; constructor; auto.
  - lia.
  - apply IH; auto. lia.
Qed.
Theorem derivatives_reverse : forall nrb ax a nrb', wf_nurbs nrb -> py_axis (n_dim nrb) ax = Ok a -> positive_weights nrb ->
  let A := get_axis nrb a in let lo := a_lo A in let hi := a_hi A in
  continuous_axis A -> reverse (N:=Rn) nrb [ax] = Ok nrb' ->
  forall xs order, good_args (spec_axes nrb) xs -> (1 <= order <= 3)%Z ->
  forall j j2 k k2, exists G G', derivative (N:=Rn) j j2 nrb order None (map Some xs) false = Ok G /\
    derivative (N:=Rn) k k2 nrb' order None (map Some (map_arg a (fun u => lo + hi - u) xs)) false = Ok G' /\
  forall idx q D, in_range xs idx -> Z.of_nat (length D) = order -> dirs (length (n_axes nrb)) D ->
    let u := nth a (params xs idx) 0 in let m := count_occ Z.eq_dec D (Z.of_nat a) in
    (lo < u < hi -> mulA A u = 0%Z \/ (mulA A u + Z.of_nat m <= a_deg A)%Z) ->
    G' idx q D = (-1) ^ m * G idx q D.
Proof.
  intros nrb ax a nrb' W Ea Pw A lo hi Cn E xs order G Ho j j2 k k2. pose proof (py_axis_dim _ _ _ Ea) as Ha.
  unfold reverse in E. cbn [reverse_axes] in E. rewrite Ea in E. cbn [bind] in E. injection E as <-.
  destruct (reverse1_spec nrb a W Ha Cn) as (W1 & HH & HV). fold A in HV. fold lo hi in HV.
  assert (La : length (n_axes (reverse1 nrb a)) = length (n_axes nrb)) by apply lset_length.
  assert (Ha' : (a < length (spec_axes nrb))%nat) by (unfold spec_axes; rewrite map_length; auto).
  assert (NA : nth a (spec_axes nrb) ax0 = spec_ax A) by (rewrite (nth_indep _ ax0 (spec_ax axis0)) by auto; apply nth_spec_axes).
  assert (EAx : spec_axes (reverse1 nrb a) = lset a (revax (spec_ax A)) (spec_axes nrb)).
  { unfold spec_axes, reverse1. cbn [n_axes]. rewrite map_lset. f_equal. fold A. unfold spec_ax, revax. cbn [x_n x_p x_U]. rewrite KntRev_knots. rewrite a_lo_eq, a_hi_eq. reflexivity. }
  assert (Elo : lo = x_U (spec_ax A) (x_p (spec_ax A))) by reflexivity.
  assert (Ehi : hi = x_U (spec_ax A) (x_n (spec_ax A) + 1)%Z) by (unfold hi; rewrite a_hi_eq; reflexivity).
  assert (G' : good_args (spec_axes (reverse1 nrb a)) (map_arg a (fun u => lo + hi - u) xs)).
  { rewrite EAx. unfold map_arg. cbv zeta. pose proof (good_args_nth _ _ a (spec_ax axis0) G Ha') as Gx. rewrite nth_spec_axes in Gx. fold A in Gx. cbv zeta in Gx.
    apply Forall2_lset; [exact G|]. cbn [v_len v_get]. split; [apply Gx|]. intros i Hi. destruct Gx as [_ Gx]. specialize (Gx i Hi).
    unfold in_domain in *. pose proof (rev_lo (spec_axes nrb) a Ha') as RL. pose proof (rev_hi (spec_axes nrb) a Ha') as RH. rewrite NA in RL, RH. rewrite RL, RH.
    rewrite Elo, Ehi. change (T Rn) with R in *. lra. }
  destruct (derivative_gD nrb xs order j j2 W ltac:(lia) G Ho) as (G1 & E1 & V1).
  destruct (derivative_gD (reverse1 nrb a) _ order k k2 W1 ltac:(lia) G' Ho) as (G2 & E2 & V2).
  exists G1, G2. split; [exact E1|]. split; [exact E2|]. intros idx q D Rg HL HD u m Hm.
  pose proof (proj2 (in_range_map_arg a (fun u => lo + hi - u) xs idx) Rg) as Rg'.
  rewrite (V1 idx q D Rg HL HD), (V2 idx q D Rg' HL) by (rewrite La; exact HD).
  rewrite params_map_arg by (auto; rewrite (good_args_length _ _ G); auto).
  assert (HD0 : Forall (fun d => (0 <= d)%Z) D) by (eapply Forall_impl; [|exact HD]; simpl; intros; lia).
  pose proof (params_box _ _ _ G Rg) as Bx. set (x := params xs idx) in *.
  assert (N3 : forall us, in_box (spec_axes nrb) us -> hom nrb 3 us <> 0) by (intros us I; apply Rgt_not_eq, weight_pos; auto).
  assert (Nz : nonzero_weights nrb) by (apply positive_nonzero; auto).
  assert (Nz' : nonzero_weights (reverse1 nrb a)).
  { intros i Hi. unfold n_weights, reverse1. cbn [n_arr]. apply Nz. fold A. 
    assert (Hi' : in_net (spec_axes nrb) i).
    { rewrite EAx in Hi. apply (net_lset a (revax (spec_ax A)) (spec_axes nrb) i (spec_ax axis0)); auto. rewrite nth_spec_axes. reflexivity. }
    pose proof (rev_net a _ i (spec_ax axis0) Hi' Ha') as Rn'. rewrite nth_spec_axes in Rn'. exact Rn'. }
  assert (Ph : forall y, lset a (-1 * nth a y 0 + (x_U (spec_ax A) (x_p (spec_ax A)) + x_U (spec_ax A) (x_n (spec_ax A) + 1)%Z)) y = mirror nrb a y).
  { intros y. rewrite mirror_lin. fold A. fold lo hi. rewrite Elo, Ehi. reflexivity. }
  replace (lset a (lo + hi - nth a x 0) x) with (mirror nrb a x) by reflexivity. rewrite EAx.
  pose proof (gD_mirror (spec_axes nrb) a (dnum nrb q) (dden nrb) (dnum (reverse1 nrb a) q) (dden (reverse1 nrb a))) as GM.
  rewrite NA in GM. rewrite <- EAx in GM.
  unfold m. rewrite <- (count_to_nat D a HD0).
  rewrite (GM ltac:(apply W) Ha').
  - rewrite Ph, <- Rmult_assoc, <- Rpow_mult_distr. replace (-1 * -1) with 1 by ring. rewrite pow1, Rmult_1_l, EAx. reflexivity.
  - exact N3.
  - intros y I. rewrite Ph. destruct (HH y 3%Z I) as [_ H3]. change (hom (reverse1 nrb a) 3 (mirror nrb a y) <> 0). rewrite H3. auto.
  - intros y I. rewrite Ph. destruct (HH y 3%Z I) as [I3 H3]. destruct (HH y (c0 nrb + q)%Z I) as [_ H4].
    rewrite !dnum_hom by auto. change (c0 (reverse1 nrb a)) with (c0 nrb).
    change (hom nrb (c0 nrb + q) y / hom nrb 3 y = hom (reverse1 nrb a) (c0 nrb + q) (mirror nrb a y) / hom (reverse1 nrb a) 3 (mirror nrb a y)). rewrite H3, H4. reflexivity.
  - rewrite map_length. lia.
  - unfold spec_axes. rewrite map_length. apply dirs_nat; auto.
  - exact Bx.
  - intros Hu. rewrite (count_to_nat D a HD0). rewrite <- Elo, <- Ehi in Hu. exact (Hm Hu).
Qed.

(** ** transpose *)
Lemma permutes_cases axes : (1 <= length axes <= 3)%nat -> permutes (length axes) axes ->
  (axes = [0] \/ axes = [0;1] \/ axes = [1;0] \/ axes = [0;1;2] \/ axes = [0;2;1] \/ axes = [1;0;2] \/ axes = [1;2;0] \/ axes = [2;0;1] \/ axes = [2;1;0])%Z.
Proof.
  intros HL (_ & ND & HI). destruct axes as [|x [|y [|z [|]]]]; cbn [length] in HL; try lia; cbn [length In] in HI.
  - rewrite <- (Z.le_antisymm 0 x); auto; specialize (HI x ltac:(auto)); lia.
  - pose proof (HI x ltac:(auto)). pose proof (HI y ltac:(auto)). inversion ND as [|? ? N1 _]; subst. cbn [In] in N1.
    assert (x = 0 \/ x = 1)%Z as [->| ->] by lia; assert (y = 0 \/ y = 1)%Z as [->| ->] by lia; tauto.
  - pose proof (HI x ltac:(auto)). pose proof (HI y ltac:(auto)). pose proof (HI z ltac:(auto)). inversion ND as [|? ? N1 N2]; subst. inversion N2 as [|? ? N3 _]; subst. cbn [In] in N1, N3.
    assert (x = 0 \/ x = 1 \/ x = 2)%Z as [->|[->| ->]] by lia; assert (y = 0 \/ y = 1 \/ y = 2)%Z as [->|[->| ->]] by lia; assert (z = 0 \/ z = 1 \/ z = 2)%Z as [->|[->| ->]] by lia; tauto.
Qed.
Definition pos (axes : list Z) (k : nat) : nat := index_of (Z.of_nat k) axes.
Ltac perms C := repeat match type of C with _ \/ _ => destruct C as [C|C] end; subst.
Ltac nats k := destruct k as [|[|[|k]]]; try (exfalso; lia).
Lemma pick_len {A} (d : A) axes l : length (pick d axes l) = length axes.
Proof. apply map_length. Qed.
Section Pick.
Variable axes : list Z.
Hypothesis HL : (1 <= length axes <= 3)%nat.
Hypothesis HP : permutes (length axes) axes.
Lemma pos_lt k : (k < length axes)%nat -> (pos axes k < length axes)%nat.
Proof. intros Hk. pose proof (permutes_cases _ HL HP) as C. clear HP. perms C; cbn [length] in *; nats k; cbn; lia. Qed.
Lemma pick_nth {A} (d : A) l k : (k < length axes)%nat -> nth (pos axes k) (pick d axes l) d = nth k l d.
Proof. intros Hk. pose proof (permutes_cases _ HL HP) as C. clear HP. perms C; cbn [length] in *; nats k; reflexivity. Qed.
Lemma pick_put k t (y : list R) : (k < length axes)%nat -> length y = length axes -> pick 0 axes (put k t y) = put (pos axes k) t (pick 0 axes y).
Proof.
  intros Hk Hy. pose proof (permutes_cases _ HL HP) as C. clear HP. perms C; cbn [length] in *; destruct y as [|y0 [|y1 [|y2 [|]]]]; try discriminate; nats k; reflexivity.
Qed.
Lemma pick_Forall2 {A B} (Q : A -> B -> Prop) (d : A) (e : B) l l' : length l = length axes -> Forall2 Q l l' -> Forall2 Q (pick d axes l) (pick e axes l').
Proof.
  intros H F. destruct HP as (_ & _ & HI). unfold pick. rewrite <- H in HI. clear - F HI. induction axes as [|a r IH]; cbn [map]; constructor.
  - apply Forall2_nth; auto. specialize (HI a (or_introl eq_refl)). lia.
  - apply IH. intros; apply HI; right; auto.
Qed.
Lemma pick_Forall {A} (Q : A -> Prop) (d : A) l : length l = length axes -> Forall Q l -> Forall Q (pick d axes l).
Proof.
  intros H F. destruct HP as (_ & _ & HI). unfold pick. rewrite <- H in HI. clear - F HI. induction axes as [|a r IH]; cbn [map]; constructor.
  - apply Forall_nth'; auto. specialize (HI a (or_introl eq_refl)). lia.
  - apply IH. intros; apply HI; right; auto.
Qed.
Lemma unpermute_back (d : axR) (e : Z) axs i : length axs = length axes -> in_net (pick d axes axs) i -> in_net axs (unpermute axes i).
Proof.
  intros H F. pose proof (permutes_cases _ HL HP) as C. clear HP. pose proof (Forall2_len _ _ _ F) as Li. rewrite pick_len in Li.
  perms C; cbn [length] in *; destruct axs as [|a0 [|a1 [|a2 [|]]]]; try discriminate; destruct i as [|i0 [|i1 [|i2 [|]]]]; try discriminate;
    unfold in_net, pick in F; cbn in F; repeat match goal with H : Forall2 _ (_ :: _) (_ :: _) |- _ => inversion_clear H end; unfold in_net; cbn; repeat constructor; lia.
Qed.
Lemma pick_params (xs : list (vec Rn)) idx : length xs = length axes -> in_range (pick (mkVec (N:=Rn) 0 (fun _ => 0)) axes xs) idx ->
  in_range xs (unpermute axes idx) /\ pick 0 axes (params xs (unpermute axes idx)) = params (pick (mkVec (N:=Rn) 0 (fun _ => 0)) axes xs) idx.
Proof.
  intros H F. pose proof (permutes_cases _ HL HP) as C. clear HP. pose proof (Forall2_len _ _ _ F) as Li. rewrite pick_len in Li.
  perms C; cbn [length] in *; destruct xs as [|a0 [|a1 [|a2 [|]]]]; try discriminate; destruct idx as [|i0 [|i1 [|i2 [|]]]]; try discriminate;
    (split; [|reflexivity]); unfold in_range, pick in F; cbn in F; repeat match goal with H : Forall2 _ (_ :: _) (_ :: _) |- _ => inversion_clear H end; unfold in_range; cbn; repeat constructor; lia.
Qed.
Lemma pos_pick D : dirs (length axes) D ->
  map (pos axes) (map Z.to_nat (map (fun d => nth (Z.to_nat d) axes 0%Z) D)) = map Z.to_nat D /\ dirs (length axes) (map (fun d => nth (Z.to_nat d) axes 0%Z) D).
Proof.
  intros HD. pose proof (permutes_cases _ HL HP) as C. clear HP.
  assert (K : forall d, (0 <= d < Z.of_nat (length axes))%Z -> pos axes (Z.to_nat (nth (Z.to_nat d) axes 0%Z)) = Z.to_nat d /\ (0 <= nth (Z.to_nat d) axes 0%Z < Z.of_nat (length axes))%Z).
  { intros d Hd. assert (d = 0 \/ d = 1 \/ d = 2)%Z as Hc by lia. perms C; cbn [length] in *; perms Hc; try lia; (split; [reflexivity|]); compute; (split; [congruence|reflexivity]). }
  unfold dirs in *. clear C HL. induction HD as [|d D Hd HD [IH1 IH2]]; cbn [map]; [split; [auto|constructor]|]. destruct (K d Hd) as [K1 K2].
  split; [rewrite K1, IH1; reflexivity|constructor; auto].
Qed.
End Pick.

Lemma derivatives_perm nrb axes nrb' : wf_nurbs nrb -> (1 <= length (n_axes nrb))%nat -> positive_weights nrb -> permutes (length (n_axes nrb)) axes ->
  wf_nurbs nrb' -> n_axes nrb' = pick axis0 axes (n_axes nrb) -> n_comp nrb' = n_comp nrb ->
  (forall us c, length us = length (n_axes nrb) -> hom nrb' c (pick 0 axes us) = hom nrb c us) ->
  (forall i c, in_net (spec_axes nrb') i -> n_arr nrb' i c = n_arr nrb (unpermute axes i) c) ->
  forall xs order, good_args (spec_axes nrb) xs -> (1 <= order <= 3)%Z ->
  forall j j2 k k2, exists G G', derivative (N:=Rn) j j2 nrb order None (map Some xs) false = Ok G /\
    derivative (N:=Rn) k k2 nrb' order None (map Some (pick (mkVec (N:=Rn) 0 (fun _ => 0)) axes xs)) false = Ok G' /\
  forall idx q D, in_range (pick (mkVec (N:=Rn) 0 (fun _ => 0)) axes xs) idx -> Z.of_nat (length D) = order -> dirs (length (n_axes nrb)) D ->
    G' idx q D = G (unpermute axes idx) q (map (fun d => nth (Z.to_nat d) axes 0%Z) D).
Proof.
  intros W Hd Pw HP W1 EA Ecmp HH Earr xs order G Ho j j2 k k2. pose proof W as (W3 & Wf & _).
  assert (Ls : length (spec_axes nrb) = length (n_axes nrb)) by apply map_length.
  pose proof HP as (La & _ & HI). assert (HL : (1 <= length axes <= 3)%nat) by lia. rewrite <- La in HP.
  assert (ES : spec_axes nrb' = pick ax0 axes (spec_axes nrb)).
  { unfold spec_axes. rewrite EA. unfold pick. rewrite map_map. apply map_ext_in. intros z Hz. specialize (HI z Hz). rewrite (nth_indep _ ax0 (spec_ax axis0)) by (rewrite map_length; lia). rewrite map_nth. reflexivity. }
  assert (Lx : length xs = length axes) by (rewrite (good_args_length _ _ G); lia).
  assert (L1 : length (n_axes nrb') = length (n_axes nrb)) by (rewrite EA, pick_len; auto).
  assert (G1 : good_args (spec_axes nrb') (pick (mkVec (N:=Rn) 0 (fun _ => 0)) axes xs)) by (rewrite ES; apply (pick_Forall2 axes HP); [lia|exact G]).
  destruct (derivative_gD nrb xs order j j2 W ltac:(lia) G Ho) as (F1 & E1 & V1).
  destruct (derivative_gD nrb' _ order k k2 W1 ltac:(lia) G1 Ho) as (F2 & E2 & V2).
  exists F1, F2. split; [exact E1|]. split; [exact E2|]. intros idx q D Rg HLD HD.
  destruct (pick_params axes HL HP xs idx Lx Rg) as [Rg' EP]. rewrite <- La in HD. destruct (pos_pick axes HL HP D HD) as [PD DD].
  rewrite (V2 idx q D Rg HLD) by (rewrite L1, <- La; exact HD).
  rewrite (V1 (unpermute axes idx) q _ Rg') by (rewrite ?map_length, <- ?La; auto).
  rewrite <- EP, <- PD. pose proof (params_box _ _ _ G Rg') as Bx. set (x := params xs (unpermute axes idx)) in *.
  set (E0 := map Z.to_nat (map (fun d => nth (Z.to_nat d) axes 0%Z) D)).
  assert (N3 : forall us, in_box (spec_axes nrb) us -> hom nrb 3 us <> 0) by (intros us I; apply Rgt_not_eq, weight_pos; auto).
  assert (Nz : nonzero_weights nrb) by (apply positive_nonzero; auto).
  assert (Nz' : nonzero_weights nrb').
  { intros i Hi. unfold n_weights. rewrite Earr by auto. apply Nz. rewrite ES in Hi. apply (unpermute_back axes HL HP ax0 0%Z); auto. lia. }
  assert (Bl : forall y, in_box (spec_axes nrb) y -> length y = length (n_axes nrb)) by (intros y I; rewrite <- (Forall2_len _ _ _ I); auto).
  assert (Bp : forall y, in_box (spec_axes nrb) y -> in_box (spec_axes nrb') (pick 0 axes y)) by (intros y I; rewrite ES; apply (pick_Forall2 axes HP); [lia|exact I]).
  symmetry. rewrite <- (Rmult_1_l (gD (spec_axes nrb') _ _ _ _)).
  assert (S1 : scales (fun _ => 1) E0 = 1).
  { clearbody E0. clear. induction E0 as [|k E0 IH] using rev_ind; [reflexivity|]. rewrite scales_app, IH. ring. }
  rewrite <- S1. assert (E4 : (length E0 <= 4)%nat) by (unfold E0; rewrite !map_length; lia).
  assert (EF : Forall (fun k => (k < length (spec_axes nrb))%nat) E0).
  { rewrite Ls, <- La. apply dirs_nat. exact DD. }
  apply (gD_move (spec_axes nrb) (spec_axes nrb') (pick 0 axes) (pos axes) (fun _ => 1) (fun _ => 0) (in_box (spec_axes nrb))); auto.
  - apply W1.
  - intros i Hi. replace (length (spec_axes nrb')) with (length axes) by (rewrite ES, pick_len; auto). apply (pos_lt axes HL HP). lia.
  - intros i t y Hy Hi. rewrite (pick_put axes HL HP) by lia. f_equal. ring.
  - intros i y Hy Hi. rewrite (pick_nth axes HL HP) by lia. ring.
  - intros y i I Hi. pose proof (Bl y I) as Ly. assert (Hp : (pos axes i < length axes)%nat) by (apply (pos_lt axes HL HP); lia).
    assert (W1f : Forall wf_ax (spec_axes nrb')) by apply W1.
    pose proof (spans_act _ y Wf I) as A. pose proof (spans_act _ _ W1f (Bp y I)) as A'.
    destruct (sides_active _ _ y i Wf A Hi) as (e & He & K). destruct (sides_active _ _ _ (pos axes i) W1f A' ltac:(rewrite ES, pick_len; auto)) as (e' & He' & K').
    assert (E5 : nth (pos axes i) (spec_axes nrb') ax0 = nth i (spec_axes nrb) ax0) by (rewrite ES; apply (pick_nth axes HL HP); lia).
    rewrite E5 in K'. rewrite (pick_nth axes HL HP) in K' by lia.
    exists (dside (nth i (spec_axes nrb) ax0) (nth i y 0)), (Rmin e e'). split; [apply dside_cases|]. split; [apply Rmin_pos; auto|].
    intros h Hh. pose proof (Rmin_l e e'). pose proof (Rmin_r e e'). cbv zeta. specialize (K h ltac:(lra)). specialize (K' h ltac:(lra)).
    split; [eapply act_in_box; eauto|]. split; auto. rewrite (pick_put axes HL HP) by lia. exact K'.
  - intros y I. change (hom nrb' 3 (pick 0 axes y) <> 0). rewrite HH by (apply Bl; auto). auto.
  - intros y I. rewrite !dnum_hom by auto.
    replace (c0 nrb') with (c0 nrb) by (unfold c0; rewrite Ecmp; reflexivity).
    change (hom nrb (c0 nrb + q) y / hom nrb 3 y = hom nrb' (c0 nrb + q) (pick 0 axes y) / hom nrb' 3 (pick 0 axes y)). rewrite !HH by (apply Bl; auto). reflexivity.
Qed.

Theorem derivatives_transpose : forall nrb axes nrb', wf_nurbs nrb -> (1 <= length (n_axes nrb))%nat -> positive_weights nrb -> permutes (length (n_axes nrb)) axes ->
  transpose (N:=Rn) nrb (Some axes) = Ok nrb' ->
  forall xs order, good_args (spec_axes nrb) xs -> (1 <= order <= 3)%Z ->
  forall j j2 k k2, exists G G', derivative (N:=Rn) j j2 nrb order None (map Some xs) false = Ok G /\
    derivative (N:=Rn) k k2 nrb' order None (map Some (pick (mkVec (N:=Rn) 0 (fun _ => 0)) axes xs)) false = Ok G' /\
  forall idx q D, in_range (pick (mkVec (N:=Rn) 0 (fun _ => 0)) axes xs) idx -> Z.of_nat (length D) = order -> dirs (length (n_axes nrb)) D ->
    G' idx q D = G (unpermute axes idx) q (map (fun d => nth (Z.to_nat d) axes 0%Z) D).
Proof.
  intros nrb axes nrb' W Hd Pw HP E. pose proof HP as (_ & _ & HI).
  destruct (transpose_spec nrb (Some axes) nrb' W) as (W1 & EA & HH & _); [apply Forall_forall; intros z Hz; apply HI; auto|exact E|].
  assert (Ecmp : n_comp nrb' = n_comp nrb /\ n_arr nrb' = fun i c => n_arr nrb (unpermute axes i) c).
  { unfold transpose, assert in E. destruct (_ =? _)%Z; [|discriminate]. cbn [bind] in E. destruct (negb _); [discriminate|]. destruct (negb _); [discriminate|]. destruct (negb _); [discriminate|].
    injection E as <-. cbn [n_comp n_arr]. split; auto. replace (map (fun a : Z => if (a <? 0)%Z then (a + (n_dim nrb + 1))%Z else a) axes) with axes; auto.
    symmetry. rewrite <- (map_id axes) at 2. apply map_ext_in. intros z Hz. specialize (HI z Hz). destruct (Z.ltb_spec z 0); lia. }
  destruct Ecmp as [Ecmp Earr]. apply derivatives_perm; auto. intros i c _. rewrite Earr. reflexivity.
Qed.
(** Exchanging two axes is a permutation. *)
Definition exch (i j d : nat) : list Z := lswap i j 0%Z (zseq d 0).
Lemma exch_permutes i j d : (d <= 3)%nat -> (i < d)%nat -> (j < d)%nat -> permutes d (exch i j d).
Proof.
  intros H Hi Hj. destruct d as [|[|[|[|]]]]; try lia; nats i; nats j; unfold exch; cbn; (split; [reflexivity|]); (split; [repeat constructor; cbn; intuition lia|]); cbn; intuition lia.
Qed.
Lemma exch_pick {A} (d0 : A) i j d l : (d <= 3)%nat -> (i < d)%nat -> (j < d)%nat -> length l = d -> pick d0 (exch i j d) l = lswap i j d0 l.
Proof. intros H Hi Hj HL. subst d. destruct l as [|x [|y [|z [|]]]]; cbn [length] in *; try lia; nats i; nats j; reflexivity. Qed.
Lemma exch_unpermute i j d l : (d <= 3)%nat -> (i < d)%nat -> (j < d)%nat -> length l = d -> unpermute (exch i j d) l = lswap i j 0%Z l.
Proof. intros H Hi Hj HL. subst d. destruct l as [|x [|y [|z [|]]]]; cbn [length] in *; try lia; nats i; nats j; reflexivity. Qed.
Definition turn (i j : nat) (d : Z) : Z := if (d =? Z.of_nat i)%Z then Z.of_nat j else if (d =? Z.of_nat j)%Z then Z.of_nat i else d.
Lemma exch_nth i j d k : (d <= 3)%nat -> (i < d)%nat -> (j < d)%nat -> (0 <= k < Z.of_nat d)%Z -> nth (Z.to_nat k) (exch i j d) 0%Z = turn i j k.
Proof.
  intros H Hi Hj Hk. assert (k = 0 \/ k = 1 \/ k = 2)%Z as Hc by lia. destruct d as [|[|[|[|]]]]; try lia; perms Hc; try lia; nats i; nats j; reflexivity.
Qed.
Theorem derivatives_swap : forall nrb ax1 ax2 i j nrb', wf_nurbs nrb -> positive_weights nrb -> py_axis (n_dim nrb) ax1 = Ok i -> py_axis (n_dim nrb) ax2 = Ok j ->
  swap (N:=Rn) nrb ax1 ax2 = Ok nrb' ->
  forall xs order, good_args (spec_axes nrb) xs -> (1 <= order <= 3)%Z ->
  forall j1 j2 k1 k2, exists G G', derivative (N:=Rn) j1 j2 nrb order None (map Some xs) false = Ok G /\
    derivative (N:=Rn) k1 k2 nrb' order None (map Some (lswap i j (mkVec (N:=Rn) 0 (fun _ => 0)) xs)) false = Ok G' /\
  forall idx q D, in_range (lswap i j (mkVec (N:=Rn) 0 (fun _ => 0)) xs) idx -> Z.of_nat (length D) = order -> dirs (length (n_axes nrb)) D ->
    G' idx q D = G (lswap i j 0%Z idx) q (map (turn i j) D).
Proof.
  intros nrb ax1 ax2 i j nrb' W Pw E1 E2 E xs order G Ho j1 j2 k1 k2.
  pose proof (py_axis_dim _ _ _ E1) as Hi. pose proof (py_axis_dim _ _ _ E2) as Hj.
  destruct (swap_spec nrb ax1 ax2 i j nrb' W E1 E2 E) as (W1 & EA & HH & _).
  assert (W3 : (length (n_axes nrb) <= 3)%nat) by (destruct W as (W3 & _); unfold spec_axes in W3; rewrite ?map_length in W3; lia).
  set (d := length (n_axes nrb)) in *.
  assert (Ls : length (spec_axes nrb) = d) by apply map_length.
  assert (L1 : length (spec_axes nrb') = d) by (unfold spec_axes; rewrite map_length, EA, lswap_length; auto).
  assert (Lx : length xs = d) by (rewrite (good_args_length _ _ G); auto).
  assert (Ecmp : n_comp nrb' = n_comp nrb /\ n_arr nrb' = fun idx c => n_arr nrb (lswap i j 0%Z idx) c).
  { unfold swap in E. rewrite E1, E2 in E. cbn [bind] in E. injection E as <-. auto. }
  destruct Ecmp as [Ecmp Earr].
  destruct (derivatives_perm nrb (exch i j d) nrb' W ltac:(lia) Pw (exch_permutes i j d W3 Hi Hj) W1) with (xs := xs) (order := order) (j := j1) (j2 := j2) (k := k1) (k2 := k2) as (F1 & F2 & D1 & D2 & K); auto.
  - rewrite exch_pick by auto. exact EA.
  - intros us c Hu. rewrite exch_pick by auto. auto.
  - intros l c Hl. rewrite Earr, exch_unpermute by (auto; rewrite <- (Forall2_len _ _ _ Hl); auto). reflexivity.
  - rewrite exch_pick in D2, K by auto. exists F1, F2. split; auto. split; auto. intros idx q D Rg HL HD. rewrite (K idx q D Rg HL HD).
    rewrite exch_unpermute by (auto; rewrite <- (Forall2_len _ _ _ Rg), lswap_length; auto). f_equal.
    apply map_ext_in. intros z Hz. apply exch_nth; auto. unfold dirs in HD. rewrite Forall_forall in HD. apply HD; auto.
Qed.
