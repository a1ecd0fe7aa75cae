(** Derivatives of parts of objects: slices, extracted sections and boundaries. *)
From Coq Require Import ZArith Reals List Lia Lra Bool.
From Verif Require Import Num Loop ModelBspline ModelBSp ModelNurbs ModelDer Spec SumZ BPiece BLink SpecNurbs SpecDer BDer ProofSpan ProofNet ProofCall ProofNurbs ProofMethods ProofMethods2 ProofGeom ProofGeom2
  ProofOk ProofSlice ProofRational ProofDerLink ProofDerApi ProofDerApi2 ProofDer4 PropDer SpecSmooth ProofSmooth ProofSmooth2 ProofSmooth3 ProofSmooth4 ProofUniq ProofUniq2 ProofEval ProofJoin3 ProofCut
  ProofCompat3 ProofDerGeom ProofDerGeom2 ProofAvg ProofAvg2 ProofAvg4.
Import ListNotations.
Local Open Scope R_scope.

(** ** One object inside another *)
Section Embed.
Variables (axs axs' : list axR) (P w P' w' : list Z -> R) (emb : list R -> list R) (tau : nat -> nat) (Good : list R -> Prop).
Hypothesis W : Forall wf_ax axs.
Hypothesis W' : Forall wf_ax axs'.
Hypothesis G1 : forall x, Good x -> in_box axs' x /\ in_box axs (emb x).
Hypothesis G2 : forall x k, Good x -> (k < length axs')%nat -> (tau k < length axs)%nat /\ nth (tau k) (emb x) 0 = nth k x 0 /\
  dside (nth (tau k) axs ax0) (nth k x 0) = dside (nth k axs' ax0) (nth k x 0).
Hypothesis G3 : forall x k t, length x = length axs' -> (k < length axs')%nat -> emb (put k t x) = put (tau k) t (emb x).
Hypothesis G4 : forall x k, Good x -> (k < length axs')%nat -> exists e, 0 < e /\ forall h, 0 <= h < e -> Good (put k (nth k x 0 + dside (nth k axs' ax0) (nth k x 0) * h) x).
Hypothesis G5 : forall x, Good x -> tsum axs w (emb x) <> 0 /\ tsum axs' w' x <> 0 /\ tsum axs P (emb x) / tsum axs w (emb x) = tsum axs' P' x / tsum axs' w' x.
Theorem gD_embed : forall D, (length D <= 4)%nat -> Forall (fun k => (k < length axs')%nat) D -> forall x, Good x -> gD axs P w (map tau D) (emb x) = gD axs' P' w' D x.
Proof.
  induction D as [|k D IH] using rev_ind; intros HL HD x Gx; destruct (G1 x Gx) as [I' I]; destruct (G5 x Gx) as (N1 & N2 & E0);
    pose proof (spans_act axs _ W I) as A; pose proof (spans_act axs' x W' I') as A'.
  - unfold gD, Qd. cbn [rev map quot]. unfold q0, ev. rewrite !Pd_value by auto. exact E0.
  - rewrite app_length in HL. simpl in HL. pose proof HD as HD0. apply Forall_app in HD. destruct HD as [HD Hk]. inversion Hk as [|? ? Hk' _]; subst.
    assert (Lx : length x = length axs') by (symmetry; apply (Forall2_len _ _ _ I')). assert (Le : length (emb x) = length axs) by (symmetry; apply (Forall2_len _ _ _ I)).
    destruct (G2 x k Gx Hk') as (Ht & En & Ed).
    destruct (sides_active axs _ (emb x) (tau k) W A Ht) as (e & He & K). destruct (sides_active axs' _ x k W' A' Hk') as (e' & He' & K').
    destruct (G4 x k Gx Hk') as (e2 & He2 & K2). rewrite En, Ed in K. rewrite map_app. cbn [map].
    apply (one_sided (fun t => Qd axs (spans_at axs (emb x)) P w (map tau D) (put (tau k) t (emb x))) (fun t => Qd axs' (spans_at axs' x) P' w' D (put k t x)) (nth k x 0)
             (dside (nth k axs' ax0) (nth k x 0)) (Rmin e2 (Rmin e e'))).
    + apply dside_cases.
    + repeat apply Rmin_pos; auto.
    + intros h Hh. pose proof (Rmin_l e2 (Rmin e e')). pose proof (Rmin_r e2 (Rmin e e')). pose proof (Rmin_l e e'). pose proof (Rmin_r e e').
      specialize (K h ltac:(lra)). specialize (K' h ltac:(lra)). specialize (K2 h ltac:(lra)). rewrite <- G3 in * by auto.
      set (y := put k (nth k x 0 + dside (nth k axs' ax0) (nth k x 0) * h) x) in *.
      pose proof (IH ltac:(lia) HD y K2) as E. unfold gD in E. destruct (G1 y K2) as [Iy' Iy].
      rewrite (act_unique _ _ _ _ W (spans_act axs _ W Iy) K), (act_unique _ _ _ _ W' (spans_act axs' y W' Iy') K') in E. exact E.
    + rewrite <- En. apply Qd_partial1; auto.
      * eapply cbox_good; [|apply act_cbox]; eauto.
      * apply Forall_app. split; [|constructor; auto]. apply Forall_map. eapply Forall_impl; [|exact HD]. cbv beta. intros j Hj. apply (G2 x j Gx Hj).
      * rewrite map_length. lia.
      * rewrite Pd_value by auto. auto.
    + apply Qd_partial1; auto; [eapply cbox_good; [|apply act_cbox]; eauto|lia|rewrite Pd_value by auto; auto].
Qed.
End Embed.

(** ** Slices *)
Definition gP (x : nurbs Rn) (c : Z) (i : list Z) : R := n_arr x i 3%Z * (n_arr x i c / n_arr x i 3%Z).
Definition gw (x : nurbs Rn) (i : list Z) : R := n_arr x i 3%Z.
Lemma gP_hom x c us : nonzero_weights x -> in_box (spec_axes x) us -> tsum (spec_axes x) (gP x c) us = hom x c us.
Proof. intros N I. unfold hom. apply tsum_ext; [exact I|]. intros i Hi. unfold gP. specialize (N i Hi). unfold n_weights in N. change (T Rn) with R in *. field. auto. Qed.
Section Pointwise.
Variables x y : nurbs Rn.
Hypothesis Wx : wf_nurbs x.
Hypothesis Wy : wf_nurbs y.
Hypothesis Hd : (1 <= length (n_axes x))%nat.
Hypothesis L2 : length (n_axes y) = length (n_axes x).
Hypothesis Hc : n_comp y = n_comp x.
Lemma derivs_pointwise xs order mapped : good_args (spec_axes x) xs -> good_args (spec_axes y) xs -> (1 <= order <= 3)%Z -> (mapped = true -> order = 1%Z) ->
  forall j j2 k k2, exists G G', derivative (N:=Rn) j j2 x order None (map Some xs) mapped = Ok G /\ derivative (N:=Rn) k k2 y order None (map Some xs) mapped = Ok G' /\
  forall idx c D, in_range xs idx ->
    (forall c D, (0 <= c < n_comp x)%Z -> c <> 3%Z -> dirs (length (n_axes x)) D -> (length D <= 3)%nat ->
       gD (spec_axes y) (gP y c) (gw y) (map Z.to_nat D) (params xs idx) = gD (spec_axes x) (gP x c) (gw x) (map Z.to_nat D) (params xs idx)) ->
    (0 <= c < (if n_comp x =? 4 then 3 else n_comp x - 4))%Z -> Z.of_nat (length D) = order -> dirs (length (n_axes x)) D ->
    G' idx c D = G idx c D.
Proof.
  intros G G' Ho Hm j j2 k k2.
  set (c0 := (if n_comp x =? 4 then 0 else 4)%Z). set (nc := (if n_comp x =? 4 then 3 else n_comp x - 4)%Z).
  assert (Fx : field_of x None nc (fun i c => n_arr x i (c0 + c)%Z / n_arr x i 3%Z)).
  { unfold field_of, c0, nc. pose proof Wx as [_ [_ C4]]. destruct (Z.eqb_spec (n_comp x) 4); [left; auto|right; split; [lia|auto]]. }
  assert (Fy : field_of y None nc (fun i c => n_arr y i (c0 + c)%Z / n_arr y i 3%Z)).
  { unfold field_of, c0, nc. pose proof Wx as [_ [_ C4]]. rewrite Hc. destruct (Z.eqb_spec (n_comp x) 4); [left; auto|right; split; [lia|auto]]. }
  destruct (field_of_ok _ _ _ _ Fx) as [Ex Hn]. destruct (field_of_ok _ _ _ _ Fy) as [Ey _].
  eexists. eexists. split; [apply (der_core_ok j j2 x order None xs nc _ mapped Wx G ltac:(lia) Ex Hn Hm)|].
  split; [apply (der_core_ok k k2 y order None xs nc _ mapped Wy G' ltac:(lia) Ey Hn Hm)|].
  intros idx c D Rg HI Hcc HL HD. cbv zeta.
  assert (C4 : (4 <= n_comp x)%Z) by apply Wx.
  assert (Hcv : (0 <= c0 + c < n_comp x)%Z /\ (c0 + c <> 3)%Z) by (unfold c0, nc in *; destruct (Z.eqb_spec (n_comp x) 4); lia).
  assert (IA : forall c D, (0 <= c < n_comp x)%Z -> c <> 3%Z -> dirs (length (n_axes x)) D -> (length D <= 3)%nat ->
    d_interp (N:=Rn) k k2 (Z.of_nat (length D)) (d_axes (N:=Rn) (n_axes y) xs idx) (n_arr y) (fun i => n_arr y i c / n_arr y i 3%Z) (map (fun d => d + 1)%Z (rev D)) =
    d_interp (N:=Rn) j j2 (Z.of_nat (length D)) (d_axes (N:=Rn) (n_axes x) xs idx) (n_arr x) (fun i => n_arr x i c / n_arr x i 3%Z) (map (fun d => d + 1)%Z (rev D))).
  { intros c' D' H1 H2 H3 H4. rewrite (der_gD j j2 x xs idx _ D' Wx Hd G Rg H3 H4), (der_gD k k2 y xs idx _ D' Wy ltac:(lia) G' Rg ltac:(rewrite L2; auto) H4). apply HI; auto. }
  destruct mapped.
  - specialize (Hm eq_refl). subst order. destruct D as [|d [|? ?]]; try (exfalso; cbn [length] in HL; lia). cbn [rev app map nth].
    assert (Hdd : (0 <= d < Z.of_nat (length (n_axes x)))%Z) by (inversion HD; auto).
    assert (Lx : length (d_axes (N:=Rn) (n_axes x) xs idx) = length (n_axes x)).
    { pose proof Wx as [_ [W _]]. destruct (d_axes_ok (n_axes x) xs idx W G Rg) as [E1 _]. pose proof (f_equal (@length _) E1) as E. rewrite !map_length in E. exact E. }
    assert (Ly : length (d_axes (N:=Rn) (n_axes y) xs idx) = length (n_axes x)).
    { pose proof Wy as [_ [W _]]. destruct (d_axes_ok (n_axes y) xs idx W G' Rg) as [E1 _]. pose proof (f_equal (@length _) E1) as E. rewrite !map_length in E. congruence. }
    assert (KE : forall c b, (1 <= b <= Z.of_nat (length (n_axes x)))%Z -> (0 <= c < n_comp x)%Z -> c <> 3%Z ->
      d_interp (N:=Rn) k k2 1 (d_axes (N:=Rn) (n_axes y) xs idx) (n_arr y) (fun i => n_arr y i c / n_arr y i 3%Z) [b] =
      d_interp (N:=Rn) j j2 1 (d_axes (N:=Rn) (n_axes x) xs idx) (n_arr x) (fun i => n_arr x i c / n_arr x i 3%Z) [b]).
    { intros c' b Hb Hc' Hc3. assert (HDb : dirs (length (n_axes x)) [(b - 1)%Z]) by (constructor; [lia|constructor]).
      pose proof (IA c' [(b - 1)%Z] Hc' Hc3 HDb ltac:(simpl; lia)) as E.
      cbn [rev app map length] in E. replace (b - 1 + 1)%Z with b in E by lia. exact E. }
    assert (D3 : (length (n_axes x) <= 3)%nat) by apply Wx.
    rewrite !d_mapped_eq, Lx, Ly. apply for_up_ext. intros m s Hm'. f_equal. f_equal.
    + apply (Inverse_alike x Hd); try lia. intros a b Ha Hb. unfold Jmat. apply KE; lia.
    + apply KE; lia.
  - rewrite <- HL. apply IA; auto; lia.
Qed.
End Pointwise.

Lemma put_nth_other k a (t : R) : forall x, k <> a -> nth a (put k t x) 0 = nth a x 0.
Proof. revert a. induction k; intros [|a] [|z x] H; simpl; auto; congruence. Qed.
Lemma good_inside : forall l a Y xs, x_U (nth a l (spec_ax axis0)) (x_p (nth a l (spec_ax axis0))) <= x_U Y (x_p Y) ->
  x_U Y (x_n Y + 1)%Z <= x_U (nth a l (spec_ax axis0)) (x_n (nth a l (spec_ax axis0)) + 1)%Z -> good_args (lset a Y l) xs -> good_args l xs.
Proof.
  unfold good_args. induction l as [|X l IH]; intros [|a] Y xs H1 H2 G; cbn [lset nth] in *; auto; inversion G as [|? v ? ? [Hv1 Hv2] G2]; subst; constructor; eauto.
  split; auto. intros i Hi. specialize (Hv2 i Hi). unfold in_domain in *. lra.
Qed.
Theorem derivatives_slice x ax a start end_ junk y : wf_nurbs x -> (1 <= length (n_axes x))%nat -> bounded_knots x -> positive_weights x -> py_axis (n_dim x) ax = Ok a ->
  let A := get_axis x a in let n := (a_size A - 1)%Z in let p := a_deg A in let U := a_knots A in
  let u0 := match start with Some v => v | None => U p end in
  let u1 := match end_ with Some v => v | None => U (n + 1)%Z end in
  continuous_axis A -> separated_list U (n + p + 1) [u0; u1] -> slice (N:=Rn) junk x ax start end_ = Ok y ->
  forall xs order mapped, good_args (spec_axes y) xs -> (1 <= order <= 3)%Z -> (mapped = true -> order = 1%Z) ->
  forall j j2 k k2, exists G G', derivative (N:=Rn) j j2 x order None (map Some xs) mapped = Ok G /\ derivative (N:=Rn) k k2 y order None (map Some xs) mapped = Ok G' /\
  forall idx c D, in_range xs idx -> nth a (params xs idx) 0 < u1 \/ u1 = U (n + 1)%Z ->
    (0 <= c < (if n_comp x =? 4 then 3 else n_comp x - 4))%Z -> Z.of_nat (length D) = order -> dirs (length (n_axes x)) D ->
    G' idx c D = G idx c D.
Proof.
  intros W Hd Bk Px Ea A n p U u0 u1 Cn Hs E xs order mapped G' Ho Hm j j2 k k2. pose proof (py_axis_dim _ _ _ Ea) as Ha.
  destruct (slice_spec x ax a start end_ junk y W Ea Cn Hs E) as (V1 & V2 & V3 & Wy & EC & (B & EX & D0 & B0 & B1) & HH & _).
  fold A n p U in V1, V2, V3, D0, B0, B1. fold u0 in V1, V2, B0. fold u1 in V2, V3, B1.
  destruct (slice_averages x ax a start end_ junk y W Bk Ea Cn Hs E) as [Av By].
  destruct (averages_keep a x y B W Av Ha EX EC Px) as [Py _].
  assert (L2 : length (n_axes y) = length (n_axes x)) by (rewrite EX; apply lset_length).
  assert (Ly : length (spec_axes y) = length (n_axes x)) by (unfold spec_axes; rewrite map_length; auto).
  assert (G : good_args (spec_axes x) xs).
  { assert (EB : spec_axes y = lset a (spec_ax B) (spec_axes x)) by (unfold spec_axes; rewrite EX; apply map_lset). rewrite EB in G'.
    apply (good_inside _ a (spec_ax B) xs) in G'; auto; rewrite nth_spec_axes; fold A; cbn [spec_ax x_n x_p x_U]; fold n p U; [rewrite D0, B0|rewrite B1]; lra. }
  destruct (derivs_pointwise x y W Wy Hd L2 EC xs order mapped G G' Ho Hm j j2 k k2) as (F & F' & E1 & E2 & H). exists F, F'. split; auto. split; auto.
  intros idx c D Rg Ends Hc HL HD. apply H; auto. clear c D Hc HL HD. intros c D Hc H3 HD HL.
  pose proof W as [_ [Wf _]]. pose proof Wy as [_ [Wf' _]].
  pose proof (gD_embed (spec_axes x) (spec_axes y) (gP x c) (gw x) (gP y c) (gw y) (fun v => v) (fun i => i)
    (fun v => in_box (spec_axes y) v /\ (nth a v 0 < u1 \/ u1 = U (n + 1)%Z)) Wf Wf') as T. symmetry. rewrite <- (map_id (map Z.to_nat D)) at 1. apply T; clear T.
  - intros v [I _]. split; auto. apply (HH v 0%Z I).
  - intros v i [I Q] Hi. split; [unfold spec_axes; rewrite map_length; lia|]. split; auto.
    rewrite (nth_indep (spec_axes x) ax0 (spec_ax (axis0 (N:=Rn)))) by (unfold spec_axes; rewrite map_length; lia). rewrite (nth_indep (spec_axes y) ax0 (spec_ax (axis0 (N:=Rn)))) by lia.
    rewrite !nth_spec_axes. rewrite (ProofCompat3.get_lset x y a B i EX Ha).
    destruct (Nat.eqb_spec i a) as [->|]; auto. fold A. unfold dside. cbn [spec_ax x_n x_U]. fold n U.
    assert (Iv : nth a v 0 <= u1).
    { pose proof (Forall2_nth _ _ _ a (spec_ax (axis0 (N:=Rn))) 0 I) as S. rewrite nth_spec_axes in S. rewrite (ProofCompat3.get_lset x y a B a EX Ha), Nat.eqb_refl in S.
      specialize (S ltac:(lia)). unfold in_domain in S. cbn [spec_ax x_n x_p x_U] in S. lra. }
    rewrite B1. destruct (Rlt_dec (nth a v 0) (U (n + 1)%Z)), (Rlt_dec (nth a v 0) u1); auto; exfalso; lra.
  - reflexivity.
  - intros v i [I Q] Hi. pose proof (spans_act (spec_axes y) v Wf' I) as Ac. destruct (sides_active (spec_axes y) _ v i Wf' Ac Hi) as (e & He & K).
    destruct Q as [Q|Q].
    + exists (Rmin e (u1 - nth a v 0)). split; [apply Rmin_pos; lra|]. intros h Hh. pose proof (Rmin_l e (u1 - nth a v 0)). pose proof (Rmin_r e (u1 - nth a v 0)).
      specialize (K h ltac:(lra)). split; [eapply act_in_box; eauto|]. left. destruct (Nat.eq_dec i a) as [->|Hn]; [|rewrite put_nth_other by auto; auto].
      rewrite put_lset, nth_lset by (rewrite <- (Forall2_len _ _ _ I); auto). destruct (dside_cases (nth a (spec_axes y) ax0) (nth a v 0)) as [-> | ->]; lra.
    + exists e. split; auto. intros h Hh. split; [eapply act_in_box; [|apply K; auto]; auto|auto].
  - intros v [I _]. destruct (HH v 3%Z I) as [Ix E3]. destruct (HH v c I) as [_ Ec]. rewrite !gP_hom by auto using positive_nonzero.
    change (tsum (spec_axes x) (gw x) v) with (hom x 3 v). change (tsum (spec_axes y) (gw y) v) with (hom y 3 v).
    pose proof (weight_pos x v W Px Ix). rewrite E3, Ec. split; [lra|]. split; [lra|reflexivity].
  - rewrite map_length. lia.
  - rewrite Ly. apply dirs_nat; auto.
  - split; auto. eapply params_box; eauto.
Qed.

(** ** Sections *)
Definition skip (a k : nat) : nat := if (k <? a)%nat then k else S k.
(** The direction of the whole object that belongs to a direction of the section. *)
Definition skipZ (a : nat) (d : Z) : Z := if (d <? Z.of_nat a)%Z then d else (d + 1)%Z.
Lemma skip_nat a D n : dirs n D -> map Z.to_nat (map (skipZ a) D) = map (skip a) (map Z.to_nat D).
Proof.
  intros H. rewrite !map_map. apply map_ext_in. intros d Hd. pose proof (proj1 (Forall_forall _ _) H d Hd) as B. cbv beta in B. unfold skipZ, skip.
  destruct (Z.ltb_spec d (Z.of_nat a)), (Nat.ltb_spec (Z.to_nat d) a); lia.
Qed.
Lemma skip_dirs a D n : dirs n D -> dirs (S n) (map (skipZ a) D).
Proof.
  intros H. apply Forall_map. eapply Forall_impl; [|exact H]. intros d B. cbv beta in *. unfold skipZ. destruct (Z.ltb_spec d (Z.of_nat a)); lia.
Qed.
Lemma skip_lt a k n : (k < n)%nat -> (skip a k < S n)%nat.
Proof. unfold skip. destruct (Nat.ltb_spec k a); lia. Qed.
Lemma nth_skip {A} a k (v d : A) l : (a <= length l)%nat -> nth (skip a k) (lins a v l) d = nth k l d.
Proof.
  intros Ha. rewrite nth_lins_other; auto; unfold skip; destruct (Nat.ltb_spec k a); try lia.
  - destruct (Nat.ltb_spec k a); [auto|lia].
  - destruct (Nat.ltb_spec (S k) a); [lia|auto].
Qed.
Lemma put_skip a k (t u : R) : forall l, (a <= length l)%nat -> (k < length l)%nat -> lins a u (put k t l) = put (skip a k) t (lins a u l).
Proof.
  revert k. induction a as [|a IH]; intros k l Ha Hk.
  - destruct l; reflexivity.
  - destruct l as [|z l]; [simpl in Hk; lia|]. destruct k as [|k]; [reflexivity|]. change (skip (S a) (S k)) with (if (k <? a)%nat then S k else S (S k)).
    replace (if (k <? a)%nat then S k else S (S k)) with (S (skip a k)) by (unfold skip; destruct (k <? a)%nat; auto).
    cbn [put lins]. f_equal. apply IH; simpl in *; lia.
Qed.
Lemma extract_weights x ax a u junk y : wf_nurbs x -> py_axis (n_dim x) ax = Ok a ->
  let A := get_axis x a in let n := (a_size A - 1)%Z in let p := a_deg A in let U := a_knots A in
  separated U 0 (n + p + 1) u ->
  (u < U (n + 1)%Z \/ multiplicity U 0 (n + p + 1) u = 1%Z \/ (p <= multiplicity U 0 (n + p + 1) u)%Z) ->
  extract (N:=Rn) junk x ax u = Ok y -> positive_weights x -> positive_weights y.
Proof.
  intros W Ea A n p U Hsep Hm E Px. destruct (extract_spec x ax a u junk y W Ea Hsep Hm E) as (D & Wy & EX & _).
  pose proof (py_axis_dim _ _ _ Ea) as Ha. pose proof (wf_get_axis _ _ W Ha) as WA. fold A in WA.
  assert (Wk : wf_knots n p U) by apply WA. assert (Wp : (1 <= p)%Z) by apply WA.
  assert (EA : n_arr y = fun idx c => bsp_Extract n p U (fun i => n_arr x (lins a i idx) c) u junk).
  { unfold extract in E. rewrite Ea in E. cbn [bind] in E. unfold assert, check in E. fold A in E. fold n p U in E.
    repeat (match type of E with bind (if ?b then _ else _) _ = _ => destruct b; cbn [bind] in E; try discriminate end). injection E as <-. reflexivity. }
  intros idx I. unfold n_weights. rewrite EA. unfold bsp_Extract. rewrite (CornerCut_curve n p U _ u junk Wk Wp D Hsep Hm).
  assert (ES : spec_axes y = lrem a (spec_axes x)) by (unfold spec_axes; rewrite EX; apply map_lrem). rewrite ES in I.
  change (0 < tsum [spec_ax A] (fun l => n_arr x (lins a (nth 0 l 0%Z) idx) 3%Z) [u]). apply tsum_pos.
  - constructor; auto.
  - constructor; [exact D|constructor].
  - intros l Hl. inversion Hl as [|? i ? l' Hi Hl' E1 E2]; subst. inversion Hl'; subst. cbn [nth]. apply Px.
    assert (Ha' : (a < length (spec_axes x))%nat) by (unfold spec_axes; rewrite map_length; auto).
    unfold in_net. rewrite <- (lins_lrem a (spec_ax axis0) (spec_axes x) Ha'). apply Forall2_lins; auto. rewrite nth_spec_axes. exact Hi.
Qed.
Theorem derivatives_extract x ax a u junk y : wf_nurbs x -> (2 <= length (n_axes x))%nat -> positive_weights x -> py_axis (n_dim x) ax = Ok a ->
  let A := get_axis x a in let n := (a_size A - 1)%Z in let p := a_deg A in let U := a_knots A in
  separated U 0 (n + p + 1) u ->
  (u < U (n + 1)%Z \/ multiplicity U 0 (n + p + 1) u = 1%Z \/ (p <= multiplicity U 0 (n + p + 1) u)%Z) ->
  extract (N:=Rn) junk x ax u = Ok y ->
  forall xs order, good_args (spec_axes y) xs -> (1 <= order <= 3)%Z ->
  forall j j2 k k2, exists G G', derivative (N:=Rn) j j2 x order None (map Some (fix_arg a u xs)) false = Ok G /\ derivative (N:=Rn) k k2 y order None (map Some xs) false = Ok G' /\
  forall idx c D, in_range xs idx -> (0 <= c < (if n_comp x =? 4 then 3 else n_comp x - 4))%Z -> Z.of_nat (length D) = order -> dirs (length (n_axes y)) D ->
    G' idx c D = G (lins a 0%Z idx) c (map (skipZ a) D).
Proof.
  intros W Hd Px Ea A n p U Hsep Hmul E xs order G' Ho j j2 k k2. pose proof (py_axis_dim _ _ _ Ea) as Ha.
  destruct (extract_spec x ax a u junk y W Ea Hsep Hmul E) as (Du & Wy & EX & EC & HH).
  pose proof (extract_weights x ax a u junk y W Ea Hsep Hmul E Px) as Py.
  assert (Ha' : (a < length (spec_axes x))%nat) by (unfold spec_axes; rewrite map_length; auto).
  assert (ES : spec_axes y = lrem a (spec_axes x)) by (unfold spec_axes; rewrite EX; apply map_lrem).
  assert (EL : spec_axes x = lins a (spec_ax A) (spec_axes y)).
  { rewrite ES. rewrite <- (lins_lrem a (spec_ax axis0) (spec_axes x) Ha') at 1. rewrite nth_spec_axes. reflexivity. }
  assert (L2 : S (length (n_axes y)) = length (n_axes x)) by (rewrite EX, lrem_length by auto; lia).
  assert (Ly : length (spec_axes y) = length (n_axes y)) by (unfold spec_axes; rewrite map_length; auto).
  assert (Lx : length (spec_axes x) = length (n_axes x)) by (unfold spec_axes; rewrite map_length; auto).
  assert (G : good_args (spec_axes x) (fix_arg a u xs)).
  { rewrite ES in G'. apply (good_args_fix _ a u xs (spec_ax axis0)); auto. rewrite nth_spec_axes. exact Du. }
  set (c0 := (if n_comp x =? 4 then 0 else 4)%Z). set (nc := (if n_comp x =? 4 then 3 else n_comp x - 4)%Z).
  assert (Fx : field_of x None nc (fun i c => n_arr x i (c0 + c)%Z / n_arr x i 3%Z)).
  { unfold field_of, c0, nc. pose proof W as [_ [_ C4]]. destruct (Z.eqb_spec (n_comp x) 4); [left; auto|right; split; [lia|auto]]. }
  assert (Fy : field_of y None nc (fun i c => n_arr y i (c0 + c)%Z / n_arr y i 3%Z)).
  { unfold field_of, c0, nc. pose proof W as [_ [_ C4]]. rewrite EC. destruct (Z.eqb_spec (n_comp x) 4); [left; auto|right; split; [lia|auto]]. }
  destruct (field_of_ok _ _ _ _ Fx) as [Ex Hn]. destruct (field_of_ok _ _ _ _ Fy) as [Ey _].
  eexists. eexists. split; [apply (der_core_ok j j2 x order None (fix_arg a u xs) nc _ false W G ltac:(lia) Ex Hn); discriminate|].
  split; [apply (der_core_ok k k2 y order None xs nc _ false Wy G' ltac:(lia) Ey Hn); discriminate|].
  intros idx c D Rg Hcc HL HD. cbv zeta. pose proof (skip_dirs a D _ HD) as HD'. rewrite L2 in HD'.
  destruct (params_fix a u xs idx Rg ltac:(rewrite (good_args_length _ _ G'); lia)) as [Rg' Pf].
  rewrite <- HL. rewrite (der_gD k k2 y xs idx _ D Wy ltac:(lia) G' Rg HD ltac:(lia)).
  rewrite <- (map_length (skipZ a) D). rewrite (der_gD j j2 x (fix_arg a u xs) (lins a 0%Z idx) _ (map (skipZ a) D) W ltac:(lia) G Rg' HD' ltac:(rewrite map_length; lia)).
  rewrite Pf, (skip_nat a D _ HD). symmetry.
  pose proof W as [_ [Wf _]]. pose proof Wy as [_ [Wf' _]].
  assert (Bx : forall v, in_box (spec_axes y) v -> in_box (spec_axes x) (lins a u v)) by (intros v I; rewrite EL; apply Forall2_lins; auto).
  apply (gD_embed (spec_axes x) (spec_axes y) (gP x (c0 + c)) (gw x) (gP y (c0 + c)) (gw y) (lins a u) (skip a) (in_box (spec_axes y)) Wf Wf').
  - auto.
  - intros v i I Hi. pose proof (Forall2_len _ _ _ I) as Lv. rewrite EL at 1. rewrite lins_length. split; [apply skip_lt; auto|]. split; [apply nth_skip; lia|].
    rewrite EL, nth_skip by lia. reflexivity.
  - intros v t i Lv Hi. apply put_skip; lia.
  - intros v i I Hi. pose proof (spans_act (spec_axes y) v Wf' I) as Ac. destruct (sides_active (spec_axes y) _ v i Wf' Ac Hi) as (e & He & K).
    exists e. split; auto. intros h Hh. eapply act_in_box; [|apply K; auto]; auto.
  - intros v I. pose proof (Forall2_len _ _ _ I) as Lv. rewrite !gP_hom by auto using positive_nonzero.
    change (tsum (spec_axes x) (gw x) (lins a u v)) with (hom x 3 (lins a u v)). change (tsum (spec_axes y) (gw y) v) with (hom y 3 v).
    pose proof (weight_pos y v Wy Py I). rewrite !HH in * by (rewrite <- Lv; auto). split; [lra|]. split; [lra|reflexivity].
  - rewrite map_length. lia.
  - rewrite Ly. apply dirs_nat; auto.
  - eapply params_box; eauto.
Qed.
Theorem derivatives_boundary x ax a side junk y : wf_nurbs x -> (2 <= length (n_axes x))%nat -> positive_weights x -> py_axis (n_dim x) ax = Ok a ->
  let A := get_axis x a in let n := (a_size A - 1)%Z in let p := a_deg A in let U := a_knots A in
  let u := if (side =? 0)%Z then U p else U (n + 1)%Z in
  separated U 0 (n + p + 1) u ->
  (side = 0%Z \/ multiplicity U 0 (n + p + 1) u = 1%Z \/ (p <= multiplicity U 0 (n + p + 1) u)%Z) ->
  boundary (N:=Rn) junk x ax side = Ok y ->
  positive_weights y /\
  forall xs order, good_args (spec_axes y) xs -> (1 <= order <= 3)%Z ->
  forall j j2 k k2, exists G G', derivative (N:=Rn) j j2 x order None (map Some (fix_arg a u xs)) false = Ok G /\ derivative (N:=Rn) k k2 y order None (map Some xs) false = Ok G' /\
  forall idx c D, in_range xs idx -> (0 <= c < (if n_comp x =? 4 then 3 else n_comp x - 4))%Z -> Z.of_nat (length D) = order -> dirs (length (n_axes y)) D ->
    G' idx c D = G (lins a 0%Z idx) c (map (skipZ a) D).
Proof.
  intros W Hd Px Ea A n p U u Hsep Hm E. unfold boundary, assert in E.
  destruct ((side =? 0)%Z || (side =? 1)%Z) eqn:Es; [|discriminate]. cbn [bind] in E. rewrite Ea in E. cbn [bind] in E. fold A in E.
  pose proof (py_axis_dim _ _ _ Ea) as Ha. pose proof (wf_get_axis _ _ W Ha) as WA. fold A in WA.
  assert (Ew : wf_knots n p U) by apply WA. pose proof (wf_n _ _ _ Ew) as Hn.
  assert (Eu : (if (side =? 0)%Z then a_lo A else a_hi A) = u) by (unfold u; destruct (side =? 0)%Z; [reflexivity|rewrite a_hi_eq; reflexivity]).
  rewrite Eu in E.
  assert (Ea' : py_axis (n_dim x) (Z.of_nat a) = Ok a) by (rewrite py_axis_nat, Nat2Z.id by (unfold n_dim; lia); reflexivity).
  assert (Hm' : u < U (n + 1)%Z \/ multiplicity U 0 (n + p + 1) u = 1%Z \/ (p <= multiplicity U 0 (n + p + 1) u)%Z).
  { destruct Hm as [->|Hm]; [|right; exact Hm]. left. unfold u. cbn [Z.eqb].
    apply Rlt_le_trans with (U (p + 1)%Z); [apply (wf_first _ _ _ Ew)|apply (wf_mono _ _ _ Ew); assert (1 <= p)%Z by apply WA; lia]. }
  split; [exact (extract_weights x (Z.of_nat a) a u junk y W Ea' Hsep Hm' E Px)|].
  exact (derivatives_extract x (Z.of_nat a) a u junk y W Hd Px Ea' Hsep Hm' E).
Qed.

Theorem derivatives_calls x y : wf_nurbs x -> (1 <= length (n_axes x))%nat -> bounded_knots x -> positive_weights x -> refinements x y -> averaging_calls x y ->
  forall xs order mapped, good_args (spec_axes x) xs -> (1 <= order <= 3)%Z -> (mapped = true -> order = 1%Z) ->
  forall j j2 k k2, exists G G', derivative (N:=Rn) j j2 x order None (map Some xs) mapped = Ok G /\ derivative (N:=Rn) k k2 y order None (map Some xs) mapped = Ok G' /\
  forall idx c D, in_range xs idx -> (0 <= c < (if n_comp x =? 4 then 3 else n_comp x - 4))%Z -> Z.of_nat (length D) = order -> dirs (length (n_axes x)) D ->
    G' idx c D = G idx c D.
Proof. intros W Hd Bk Px Rf Av. destruct (calls_keep x y W Bk Px Av) as [Py _]. apply derivatives_refinement; auto using positive_nonzero. Qed.
