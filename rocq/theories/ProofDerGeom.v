(** Derivatives depend on the geometry only, not on its representation. *)
From Coq Require Import ZArith Reals List Lia Lra Bool.
From Verif Require Import Num Loop ModelBspline ModelBSp ModelNurbs ModelDer Spec SumZ BPiece BLink SpecNurbs SpecDer BDer ProofSpan ProofNet ProofCall ProofNurbs ProofGeom ProofGeom2
  ProofRational ProofDerLink ProofDerApi ProofDerApi2 ProofDer4 PropDer SpecSmooth ProofSmooth ProofSmooth2 ProofSmooth3 ProofSmooth4 ProofUniq ProofUniq2 ProofEval.
Import ListNotations.
Local Open Scope R_scope.

(** ** One-sided derivatives *)
Lemma one_sided f g u s e a b : s = 1 \/ s = -1 -> 0 < e -> (forall h, 0 <= h < e -> f (u + s * h) = g (u + s * h)) ->
  derivable_pt_lim f u a -> derivable_pt_lim g u b -> a = b.
Proof.
  intros Hs He H Ha Hb. destruct (Req_dec a b) as [E|E]; auto. exfalso.
  assert (P : 0 < Rabs (a - b) / 2) by (assert (0 < Rabs (a - b)) by (apply Rabs_pos_lt; lra); lra).
  destruct (Ha _ P) as [d1 K1]. destruct (Hb _ P) as [d2 K2].
  pose proof (cond_pos d1). pose proof (cond_pos d2).
  set (h := Rmin e (Rmin d1 d2) / 2).
  assert (Hm : 0 < Rmin e (Rmin d1 d2)) by (repeat apply Rmin_pos; auto).
  pose proof (Rmin_l e (Rmin d1 d2)). pose proof (Rmin_r e (Rmin d1 d2)). pose proof (Rmin_l d1 d2). pose proof (Rmin_r d1 d2).
  assert (Hh : 0 < h /\ h < e /\ h < d1 /\ h < d2) by (unfold h; lra). clearbody h.
  assert (As : Rabs (s * h) = h) by (destruct Hs as [->| ->]; [rewrite Rabs_right; lra|rewrite Rabs_left; lra]).
  assert (N0 : s * h <> 0) by (destruct Hs as [->| ->]; lra).
  specialize (K1 (s * h) N0 ltac:(lra)). specialize (K2 (s * h) N0 ltac:(lra)).
  pose proof (H 0 ltac:(lra)) as H0'. rewrite Rmult_0_r, Rplus_0_r in H0'. rewrite <- H, <- H0' in K2 by lra.
  set (q := (f (u + s * h) - f u) / (s * h)) in *. clearbody q.
  pose proof (Rabs_triang (q - b) (-(q - a))) as T. rewrite Rabs_Ropp in T. replace (q - b + - (q - a)) with (a - b) in T by ring. lra.
Qed.
(** The side from which the kernels differentiate. *)
Definition dside (a : axR) (u : R) : R := if Rlt_dec u (x_U a (x_n a + 1)%Z) then 1 else -1.
Lemma dside_cases a u : dside a u = 1 \/ dside a u = -1.
Proof. unfold dside. destruct (Rlt_dec _ _); auto. Qed.
Lemma side_active a u s : wf_ax a -> active (x_n a) (x_p a) (x_U a) u s ->
  exists e, 0 < e /\ forall h, 0 <= h < e -> active (x_n a) (x_p a) (x_U a) (u + dside a u * h) s.
Proof.
  intros [Hp W] [Hs A]. unfold dside. destruct (Rlt_dec u (x_U a (x_n a + 1)%Z)) as [L|L].
  - destruct A as [A|[-> A]]; [|lra]. exists (x_U a (s + 1)%Z - u). split; [lra|]. intros h Hh. split; auto. left. lra.
  - destruct A as [A|[-> A]].
    + exfalso. apply L. pose proof (wf_mono _ _ _ W (s + 1)%Z (x_n a + 1)%Z ltac:(lia) ltac:(lia) ltac:(lia)). lra.
    + pose proof (wf_last _ _ _ W) as La. exists (x_U a (x_n a + 1)%Z - x_U a (x_n a)). split; [lra|]. intros h Hh. split; auto.
      destruct (Req_dec h 0) as [->|Hn]; [right; split; auto; lra|left; lra].
Qed.
Lemma sides_active axs : forall ss x k, Forall wf_ax axs -> act_box axs ss x -> (k < length axs)%nat ->
  exists e, 0 < e /\ forall h, 0 <= h < e -> act_box axs ss (put k (nth k x 0 + dside (nth k axs ax0) (nth k x 0) * h) x).
Proof.
  induction axs as [|a axs IH]; intros ss x k W A Hk; [simpl in Hk; lia|]. inversion A as [|? ? s ss' u x' Au A']; subst. inversion W as [|? ? Wa W']; subst.
  destruct k as [|k]; cbn [nth put].
  - destruct (side_active a u s Wa Au) as (e & He & K). exists e. split; auto. intros h Hh. constructor; [apply K; auto|auto].
  - simpl in Hk. destruct (IH ss' x' k W' A' ltac:(lia)) as (e & He & K). exists e. split; auto. intros h Hh. constructor; auto.
Qed.
Lemma act_in_box axs ss x : Forall wf_ax axs -> act_box axs ss x -> in_box axs x.
Proof.
  intros W A. induction A as [|a axs s ss u x Au A IH]; constructor; inversion W as [|? ? [Hp Wk] W']; subst; [eapply active_domain; eauto|apply IH; auto].
Qed.
Lemma same_dom_box axs axs' x : Forall2 same_dom axs axs' -> in_box axs x -> in_box axs' x.
Proof.
  intros S. revert x. induction S as [|a b axs axs' [H1 H2] S IH]; intros x I; inversion I as [|? ? ? ? Hu ?]; subst; constructor; [|apply IH; auto].
  unfold in_domain in *. rewrite <- H1, <- H2. auto.
Qed.
Lemma same_dom_side axs axs' : Forall2 same_dom axs axs' -> forall k u, (k < length axs)%nat -> dside (nth k axs ax0) u = dside (nth k axs' ax0) u.
Proof.
  intros S. induction S as [|a b axs axs' [H1 H2] S IH]; intros k u Hk; [simpl in Hk; lia|]. destruct k as [|k]; cbn [nth].
  - unfold dside. rewrite H2. reflexivity.
  - apply IH. simpl in Hk. lia.
Qed.
Lemma Qd_partial1 axs ss P w D k x : Forall2 span_good axs ss -> length x = length axs -> Forall (fun j => (j < length axs)%nat) (D ++ [k]) ->
  (length D < 4)%nat -> Pd axs ss w [] x <> 0 -> derivable_pt_lim (fun t => Qd axs ss P w D (put k t x)) (nth k x 0) (Qd axs ss P w (D ++ [k]) x).
Proof.
  intros G Lx HF HL N0. assert (HL' : (length (D ++ [k]) <= 4)%nat) by (rewrite app_length; simpl; lia).
  destruct (Qd_partials axs ss P w G [k] D HL' HF) as (h & Q1 & Q2). simpl in Q2. rewrite <- (Q2 x (conj Lx N0)). apply Q1. split; auto.
Qed.

Theorem gD_alike axs axs' P w P' w' : Forall wf_ax axs -> Forall wf_ax axs' -> Forall2 same_dom axs axs' ->
  (forall y, in_box axs y -> tsum axs w y <> 0) -> (forall y, in_box axs y -> tsum axs' w' y <> 0) ->
  (forall y, in_box axs y -> tsum axs P y / tsum axs w y = tsum axs' P' y / tsum axs' w' y) ->
  forall D, (length D <= 4)%nat -> Forall (fun k => (k < length axs)%nat) D -> forall x, in_box axs x -> gD axs P w D x = gD axs' P' w' D x.
Proof.
  intros W W' S H1 H2 HE. pose proof (Forall2_len _ _ _ S) as LL. induction D as [|k D IH] using rev_ind; intros HL HD x I.
  - pose proof (spans_act axs x W I) as A. pose proof (spans_act axs' x W' (same_dom_box _ _ _ S I)) as A'.
    unfold gD, Qd. cbn [rev map quot]. unfold q0, ev. rewrite !Pd_value by auto. apply HE; auto.
  - rewrite app_length in HL. simpl in HL. pose proof HD as HD0. apply Forall_app in HD. destruct HD as [HD Hk]. inversion Hk as [|? ? Hk' _]; subst.
    assert (Lx : length x = length axs) by (symmetry; apply (Forall2_len _ _ _ I)).
    pose proof (same_dom_box _ _ _ S I) as I'. pose proof (spans_act axs x W I) as A. pose proof (spans_act axs' x W' I') as A'.
    destruct (sides_active axs _ x k W A Hk') as (e & He & K). destruct (sides_active axs' _ x k W' A' ltac:(lia)) as (e' & He' & K').
    rewrite <- (same_dom_side _ _ S k (nth k x 0) Hk') in K'.
    apply (one_sided (fun t => Qd axs (spans_at axs x) P w D (put k t x)) (fun t => Qd axs' (spans_at axs' x) P' w' D (put k t x)) (nth k x 0)
             (dside (nth k axs ax0) (nth k x 0)) (Rmin e e')).
    + apply dside_cases.
    + apply Rmin_pos; auto.
    + intros h Hh. pose proof (Rmin_l e e'). pose proof (Rmin_r e e'). specialize (K h ltac:(lra)). specialize (K' h ltac:(lra)).
      set (y := put k (nth k x 0 + dside (nth k axs ax0) (nth k x 0) * h) x) in *.
      pose proof (act_in_box _ _ _ W K) as Iy. pose proof (same_dom_box _ _ _ S Iy) as Iy'.
      pose proof (IH ltac:(lia) HD y Iy) as E. unfold gD in E.
      rewrite (act_unique _ _ _ _ W (spans_act axs y W Iy) K), (act_unique _ _ _ _ W' (spans_act axs' y W' Iy') K') in E. exact E.
    + apply Qd_partial1; auto; [eapply cbox_good; [|apply act_cbox]; eauto|lia|rewrite Pd_value by auto; auto].
    + apply Qd_partial1; auto; [eapply cbox_good; [|apply act_cbox]; eauto|lia|rewrite <- LL; exact HD0|lia|rewrite Pd_value by auto; auto].
Qed.

(** ** Objects *)
Definition nonzero_weights (x : nurbs Rn) : Prop := forall i, in_net (spec_axes x) i -> n_weights (N:=Rn) x i <> 0.
Lemma positive_nonzero x : positive_weights x -> nonzero_weights x.
Proof. intros H i I. apply Rgt_not_eq. apply H; auto. Qed.
Lemma good_same_dom axs axs' xs : Forall2 same_dom axs axs' -> good_args axs xs -> good_args axs' xs.
Proof.
  intros S. revert xs. unfold good_args. induction S as [|a b axs axs' [H1 H2] S IH]; intros xs G; inversion G as [|? v ? ? [Hv1 Hv2] G']; subst; constructor; [|apply IH; auto].
  split; auto. intros i Hi. specialize (Hv2 i Hi). unfold in_domain in *. rewrite <- H1, <- H2. auto.
Qed.
Section Two.
Variables x y : nurbs Rn.
Hypothesis Wx : wf_nurbs x.
Hypothesis Wy : wf_nurbs y.
Hypothesis Hd : (1 <= length (n_axes x))%nat.
Hypothesis S : Forall2 same_dom (spec_axes x) (spec_axes y).
Hypothesis Nx : nonzero_weights x.
Hypothesis Ny : nonzero_weights y.
Hypothesis Zx : forall us, in_box (spec_axes x) us -> hom x 3 us <> 0.
Hypothesis Zy : forall us, in_box (spec_axes x) us -> hom y 3 us <> 0.
Lemma two_len : length (n_axes y) = length (n_axes x).
Proof. pose proof (Forall2_len _ _ _ S) as L. unfold spec_axes in L. rewrite !map_length in L. auto. Qed.
Lemma interp_alike xs c junk junk2 idx D : good_args (spec_axes x) xs -> in_range xs idx -> dirs (length (n_axes x)) D -> (length D <= 3)%nat ->
  (forall us, in_box (spec_axes x) us -> pt y c us = pt x c us) ->
  d_interp (N:=Rn) junk junk2 (Z.of_nat (length D)) (d_axes (N:=Rn) (n_axes y) xs idx) (n_arr y) (fun i => n_arr y i c / n_arr y i 3%Z) (map (fun d => d + 1)%Z (rev D)) =
  d_interp (N:=Rn) junk junk2 (Z.of_nat (length D)) (d_axes (N:=Rn) (n_axes x) xs idx) (n_arr x) (fun i => n_arr x i c / n_arr x i 3%Z) (map (fun d => d + 1)%Z (rev D)).
Proof.
  intros G Rg HD HL HE. pose proof two_len as L2. pose proof (good_same_dom _ _ _ S G) as G'.
  rewrite (der_gD junk junk2 x xs idx _ D Wx Hd G Rg HD HL), (der_gD junk junk2 y xs idx _ D Wy ltac:(lia) G' Rg ltac:(rewrite L2; auto) HL).
  symmetry. destruct Wx as [_ [Fx _]], Wy as [_ [Fy _]]. apply gD_alike; auto.
  - intros us I. pose proof (same_dom_box _ _ _ S I) as I'. transitivity (pt x c us); [|rewrite <- HE by auto]; unfold pt, hom; f_equal.
    + apply tsum_ext; [exact I|]. intros i Hi. field. apply Nx; auto.
    + symmetry. apply tsum_ext; [exact I'|]. intros i Hi. field. apply Ny; auto.
  - rewrite map_length. lia.
  - unfold spec_axes. rewrite map_length. apply dirs_nat; auto.
  - eapply params_box; eauto.
Qed.
Lemma Inverse_alike dim A A' k i : (1 <= dim <= 3)%Z -> (1 <= k <= dim)%Z -> (1 <= i <= dim)%Z ->
  (forall a b, (1 <= a <= dim)%Z -> (1 <= b <= dim)%Z -> A a b = A' a b) -> Inverse (N:=Rn) dim A k i = Inverse (N:=Rn) dim A' k i.
Proof.
  intros H Hk Hi E. assert (C : dim = 1%Z \/ dim = 2%Z \/ dim = 3%Z) by lia. destruct C as [-> | [-> | ->]].
  1: pose proof (E 1%Z 1%Z ltac:(lia) ltac:(lia)) as E11.
  2: pose proof (E 1%Z 1%Z ltac:(lia) ltac:(lia)) as E11; pose proof (E 1%Z 2%Z ltac:(lia) ltac:(lia)) as E12;
     pose proof (E 2%Z 1%Z ltac:(lia) ltac:(lia)) as E21; pose proof (E 2%Z 2%Z ltac:(lia) ltac:(lia)) as E22.
  3: pose proof (E 1%Z 1%Z ltac:(lia) ltac:(lia)) as E11; pose proof (E 1%Z 2%Z ltac:(lia) ltac:(lia)) as E12; pose proof (E 1%Z 3%Z ltac:(lia) ltac:(lia)) as E13;
     pose proof (E 2%Z 1%Z ltac:(lia) ltac:(lia)) as E21; pose proof (E 2%Z 2%Z ltac:(lia) ltac:(lia)) as E22; pose proof (E 2%Z 3%Z ltac:(lia) ltac:(lia)) as E23;
     pose proof (E 3%Z 1%Z ltac:(lia) ltac:(lia)) as E31; pose proof (E 3%Z 2%Z ltac:(lia) ltac:(lia)) as E32; pose proof (E 3%Z 3%Z ltac:(lia) ltac:(lia)) as E33.
  all: unfold Inverse, Determinant; rewrite ?E11, ?E12, ?E13, ?E21, ?E22, ?E23, ?E31, ?E32, ?E33; reflexivity.
Qed.
Hypothesis Hc : n_comp y = n_comp x.
Hypothesis HP : forall us c, in_box (spec_axes x) us -> (0 <= c < n_comp x)%Z -> c <> 3%Z -> pt y c us = pt x c us.
Lemma derivs_alike xs order mapped : good_args (spec_axes x) xs -> (1 <= order <= 3)%Z -> (mapped = true -> order = 1%Z) ->
  forall j j2 k k2, exists G G', derivative (N:=Rn) j j2 x order None (map Some xs) mapped = Ok G /\ derivative (N:=Rn) k k2 y order None (map Some xs) mapped = Ok G' /\
  forall idx c D, in_range xs idx -> (0 <= c < (if n_comp x =? 4 then 3 else n_comp x - 4))%Z -> Z.of_nat (length D) = order -> dirs (length (n_axes x)) D ->
    G' idx c D = G idx c D.
Proof.
  intros G Ho Hm j j2 k k2. pose proof two_len as L2. pose proof (good_same_dom _ _ _ S G) as G'.
  set (c0 := (if n_comp x =? 4 then 0 else 4)%Z). set (nc := (if n_comp x =? 4 then 3 else n_comp x - 4)%Z).
  assert (Fx : field_of x None nc (fun i c => n_arr x i (c0 + c)%Z / n_arr x i 3%Z)).
  { unfold field_of, c0, nc. pose proof Wx as [_ [_ C4]]. destruct (Z.eqb_spec (n_comp x) 4); [left; auto|right; split; [lia|auto]]. }
  assert (Fy : field_of y None nc (fun i c => n_arr y i (c0 + c)%Z / n_arr y i 3%Z)).
  { unfold field_of, c0, nc. pose proof Wx as [_ [_ C4]]. rewrite Hc. destruct (Z.eqb_spec (n_comp x) 4); [left; auto|right; split; [lia|auto]]. }
  destruct (field_of_ok _ _ _ _ Fx) as [Ex Hn]. destruct (field_of_ok _ _ _ _ Fy) as [Ey _].
  eexists. eexists. split; [apply (der_core_ok j j2 x order None xs nc _ mapped Wx G ltac:(lia) Ex Hn Hm)|].
  split; [apply (der_core_ok k k2 y order None xs nc _ mapped Wy G' ltac:(lia) Ey Hn Hm)|].
  intros idx c D Rg Hcc HL HD. cbv zeta.
  assert (C4 : (4 <= n_comp x)%Z) by apply Wx.
  assert (Hcv : (0 <= c0 + c < n_comp x)%Z /\ (c0 + c <> 3)%Z) by (unfold c0, nc in *; destruct (Z.eqb_spec (n_comp x) 4); lia).
  assert (JI : forall junk junk2 junk' junk2' z C D, wf_nurbs z -> length (n_axes z) = length (n_axes x) -> good_args (spec_axes z) xs -> dirs (length (n_axes x)) D -> (length D <= 3)%nat ->
    d_interp (N:=Rn) junk junk2 (Z.of_nat (length D)) (d_axes (N:=Rn) (n_axes z) xs idx) (n_arr z) C (map (fun d => d + 1)%Z (rev D)) =
    d_interp (N:=Rn) junk' junk2' (Z.of_nat (length D)) (d_axes (N:=Rn) (n_axes z) xs idx) (n_arr z) C (map (fun d => d + 1)%Z (rev D))).
  { intros. rewrite !(der_gD _ _ z xs idx _ D0) by (auto; try lia; congruence). reflexivity. }
  destruct mapped.
  - specialize (Hm eq_refl). subst order. destruct D as [|d [|? ?]]; try (exfalso; cbn [length] in HL; lia). cbn [rev app map nth].
    assert (Hdd : (0 <= d < Z.of_nat (length (n_axes x)))%Z) by (inversion HD; auto).
    assert (Lx : length (d_axes (N:=Rn) (n_axes x) xs idx) = length (n_axes x)).
    { pose proof Wx as [_ [W _]]. destruct (d_axes_ok (n_axes x) xs idx W G Rg) as [E1 _]. pose proof (f_equal (@length _) E1) as E. rewrite !map_length in E. exact E. }
    assert (Ly : length (d_axes (N:=Rn) (n_axes y) xs idx) = length (n_axes x)).
    { pose proof Wy as [_ [W _]]. destruct (d_axes_ok (n_axes y) xs idx W G' Rg) as [E1 _]. pose proof (f_equal (@length _) E1) as E. rewrite !map_length in E. congruence. }
    assert (KE : forall c b, (1 <= b <= Z.of_nat (length (n_axes x)))%Z -> (0 <= c < n_comp x)%Z -> c <> 3%Z ->
      d_interp (N:=Rn) k k2 1 (d_axes (N:=Rn) (n_axes y) xs idx) (n_arr y) (fun i => n_arr y i c / n_arr y i 3%Z) [b] =
      d_interp (N:=Rn) j j2 1 (d_axes (N:=Rn) (n_axes x) xs idx) (n_arr x) (fun i => n_arr x i c / n_arr x i 3%Z) [b]).
    { intros c' b Hb Hc' Hc3. assert (HDb : dirs (length (n_axes x)) [(b - 1)%Z]) by (constructor; [lia|constructor]).
      pose proof (interp_alike xs c' k k2 idx [(b - 1)%Z] G Rg HDb ltac:(simpl; lia) (fun us I => HP us c' I Hc' Hc3)) as E.
      rewrite (JI k k2 j j2 x (fun i => n_arr x i c' / n_arr x i 3%Z) [(b - 1)%Z] Wx eq_refl G HDb ltac:(simpl; lia)) in E.
      cbn [rev app map length] in E. replace (b - 1 + 1)%Z with b in E by lia. exact E. }
    assert (D3 : (length (n_axes x) <= 3)%nat) by apply Wx.
    rewrite !d_mapped_eq, Lx, Ly. apply for_up_ext. intros m s Hm'. f_equal. f_equal.
    + apply Inverse_alike; try lia. intros a b Ha Hb. unfold Jmat. apply KE; lia.
    + apply KE; lia.
  - rewrite <- HL. rewrite (interp_alike xs (c0 + c) k k2 idx D G Rg HD ltac:(lia)).
    + apply JI; auto. lia.
    + intros us I. apply HP; [exact I|lia|lia].
Qed.
End Two.
