(** Derivatives under reversal of an axis. *)
From Coq Require Import ZArith Reals List Lia Lra Bool.
From Verif Require Import Num Loop ModelBspline ModelBSp ModelNurbs ModelDer Spec SumZ BPiece BLink SpecNurbs SpecDer BDer ProofSpan ProofNet ProofCall ProofNurbs ProofGeom ProofGeom2
  ProofRational ProofDerLink ProofDerApi ProofDerApi2 ProofDer4 PropDer PropNurbs SpecSmooth ProofSmooth ProofSmooth2 ProofSmooth3 ProofSmooth4 ProofUniq ProofUniq2 ProofInsert ProofCompat1 ProofDerGeom ProofDerGeom2 ProofDerMove.
Import ListNotations.
Local Open Scope R_scope.

(** ** Replacing the span along one axis *)
(** As [smooth], at one parameter. *)
Definition smooth_at (m : nat) (a : axR) (u : R) : Prop := x_U a (x_p a) < u < x_U a (x_n a + 1)%Z ->
  multiplicity (x_U a) 0 (x_n a + x_p a + 1) u = 0%Z \/ (multiplicity (x_U a) 0 (x_n a + x_p a + 1) u + Z.of_nat m <= x_p a)%Z.
Lemma smooth_at_le m m' a u : (m' <= m)%nat -> smooth_at m a u -> smooth_at m' a u.
Proof. intros L S Hv. destruct (S Hv) as [H|H]; [left; auto|right; lia]. Qed.
Lemma gder_link_lt a m i u s s' : wf_ax a -> cin a s u -> cin a s' u -> smooth_at m a u -> (s < s')%Z ->
  gder (x_U a) s (x_p a) i m u = gder (x_U a) s' (x_p a) i m u.
Proof.
  intros [Hp W] (H1 & H2 & H3) (K1 & K2 & K3) S L. pose proof (wf_mono _ _ _ W) as M. pose proof (wf_n _ _ _ W) as Hn.
  set (U := x_U a) in *. set (n := x_n a) in *. set (p := x_p a) in *.
  assert (U (s + 1)%Z <= U s') by (apply M; lia). assert (Eu : u = U (s + 1)%Z) by lra. assert (Eu' : u = U s') by lra.
  assert (A : forall j, (s + 1 <= j <= s')%Z -> U j = u).
  { intros j Hj. assert (U (s + 1)%Z <= U j) by (apply M; lia). assert (U j <= U s') by (apply M; lia). lra. }
  assert (U p <= U s) by (apply M; lia). assert (U (s' + 1)%Z <= U (n + 1)%Z) by (apply M; lia).
  assert (Q : (s' - s <= multiplicity U 0 (n + p + 1) u)%Z).
  { pose proof (multiplicity_pair U 0 (n + p + 1) u (s + 1) s' M ltac:(lia) ltac:(lia) ltac:(lia) ltac:(auto) ltac:(auto)). lia. }
  specialize (S ltac:(fold U n p; lra)). fold U n p in S. destruct S as [S|S]; [lia|].
  unfold gder. f_equal. apply sumZ_ext. intros j Hj. f_equal. apply B_cont; auto; lia || lra.
Qed.
Lemma gder_link_at a m i u s s' : wf_ax a -> cin a s u -> cin a s' u -> smooth_at m a u ->
  gder (x_U a) s (x_p a) i m u = gder (x_U a) s' (x_p a) i m u.
Proof.
  intros W H K S. destruct (Z.lt_trichotomy s s') as [L|[->|L]]; auto; [apply gder_link_lt; auto|symmetry; apply gder_link_lt; auto].
Qed.
Lemma Hd_link1 a : forall axs ss cnt P x s', Forall wf_ax axs -> (a < length axs)%nat -> cbox axs ss x -> cin (nth a axs ax0) s' (nth a x 0) ->
  smooth_at (nth a cnt O) (nth a axs ax0) (nth a x 0) -> length cnt = length axs -> Hd axs (lset a s' ss) cnt P x = Hd axs ss cnt P x.
Proof.
  induction a as [|a IH]; intros [|b axs] [|s ss] [|c cnt] P [|u x] s' W Ha C Cs S HL; cbn in Ha, HL, C; try lia; try tauto.
  - inversion W as [|? ? Wb W']; subst. destruct C as [[Cb _] C]. cbn [lset nth] in *. rewrite !Hd_head by (auto; apply Cb || apply Cs).
    apply sumZ_ext. intros i Hi. f_equal. apply gder_link_at; auto.
  - inversion W as [|? ? Wb W']; subst. destruct C as [[Cb _] C]. cbn [lset nth] in *. cbn [Hd]. apply sumZ_ext. intros i Hi. f_equal. apply IH; auto; lia.
Qed.
Lemma quot_eq A A' W W' E : W [] <> 0 -> (forall E', (forall z, (count_occ Z.eq_dec E' z <= count_occ Z.eq_dec E z)%nat) -> A' E' = A E' /\ W' E' = W E') -> quot A' W' E = quot A W E.
Proof.
  intros H0 H. set (ok := fun E' => forall z, (count_occ Z.eq_dec E' z <= count_occ Z.eq_dec E z)%nat).
  apply (clos_at (fun (_ : R) (_ : unit) => True) (fun _ => quot A' W' E) (quot A W E) tt); auto.
  apply (quot_clos (fun (_ : R) (_ : unit) => True) ltac:(auto) (fun E _ => A' E) (fun E _ => W' E) A W ok); auto.
  - intros F F' L HF z. specialize (L z). specialize (HF z). lia.
  - intros F HF eps He. exists 1. split; [lra|]. intros _ _. rewrite (proj1 (H F HF)). unfold Rminus. rewrite Rplus_opp_r, Rabs_R0. auto.
  - intros F HF eps He. exists 1. split; [lra|]. intros _ _. rewrite (proj2 (H F HF)). unfold Rminus. rewrite Rplus_opp_r, Rabs_R0. auto.
  - intros z. lia.
Qed.
Lemma Qd_link1 a axs ss P w D x s' : Forall wf_ax axs -> (a < length axs)%nat -> Forall (fun k => (k < length axs)%nat) D -> cbox axs ss x -> cin (nth a axs ax0) s' (nth a x 0) ->
  smooth_at (count_occ Nat.eq_dec D a) (nth a axs ax0) (nth a x 0) -> Pd axs ss w [] x <> 0 -> Qd axs (lset a s' ss) P w D x = Qd axs ss P w D x.
Proof.
  intros W Ha HD C Cs S H0. unfold Qd. fold (up D). apply quot_eq; [exact H0|]. intros E HE. unfold ev, Pd.
  assert (DE : dirs_ok (length axs) E).
  { unfold dirs_ok. rewrite Forall_forall. intros z Hz. apply (count_occ_In Z.eq_dec) in Hz. specialize (HE z).
    assert (In z (up D)) as Hu by (apply (count_occ_In Z.eq_dec); lia). unfold up in Hu. apply in_map_iff in Hu. destruct Hu as (k & <- & Hk).
    apply in_rev in Hk. rewrite Forall_forall in HD. specialize (HD k Hk). lia. }
  assert (Sm : smooth_at (nth a (cnts (length axs) E) O) (nth a axs ax0) (nth a x 0)).
  { rewrite cnts_nth by auto. eapply smooth_at_le; [|exact S]. rewrite <- up_count. apply HE. }
  split; apply Hd_link1; auto; apply cnts_length.
Qed.
(** ** Moving away from a point along one axis *)
Lemma side_off a u s : wf_ax a -> active (x_n a) (x_p a) (x_U a) u s ->
  exists e, 0 < e /\ forall h, 0 < h < e -> off_knots a (u + dside a u * h).
Proof.
  intros W A. destruct (side_active a u s W A) as (e & He & K). exists e. split; auto. intros h Hh.
  pose proof (K h ltac:(lra)) as [Hs K1]. apply (inside_off a _ s W Hs). pose proof A as [_ A1].
  pose proof (K ((h + e) / 2) ltac:(lra)) as [_ K2]. destruct W as [Hp W]. pose proof (wf_mono _ _ _ W) as M.
  unfold dside in *. destruct (Rlt_dec u (x_U a (x_n a + 1)%Z)) as [L|L].
  - destruct A1 as [A1|[-> A1]]; [|lra]. destruct K1 as [K1|[-> K1]]; [lra|]. destruct K2 as [K2|[_ K2]]; lra.
  - destruct A1 as [A1|[-> A1]]; [exfalso; apply L; pose proof (M (s + 1)%Z (x_n a + 1)%Z ltac:(lia) ltac:(lia) ltac:(lia)); lra|].
    destruct K1 as [K1|[_ K1]]; [|lra]. destruct K2 as [K2|[_ K2]]; lra.
Qed.
Lemma wf_lo_hi a : wf_ax a -> x_U a (x_p a) < x_U a (x_n a + 1)%Z.
Proof.
  intros [Hp W]. pose proof (wf_first _ _ _ W). pose proof (wf_n _ _ _ W). pose proof (wf_mono _ _ _ W (x_p a + 1)%Z (x_n a + 1)%Z ltac:(lia) ltac:(lia) ltac:(lia)). lra.
Qed.
Lemma act_put axs : forall ss x k t, act_box axs ss x -> (k < length axs)%nat ->
  active (x_n (nth k axs ax0)) (x_p (nth k axs ax0)) (x_U (nth k axs ax0)) t (nth k ss 0%Z) -> act_box axs ss (put k t x).
Proof.
  induction axs as [|b axs IH]; intros ss x k t A Hk At; [simpl in Hk; lia|]. inversion A; subst. destruct k as [|k]; cbn [put nth] in *; constructor; auto. apply IH; auto. simpl in Hk; lia.
Qed.
Lemma act_nth axs : forall ss x k, act_box axs ss x -> (k < length axs)%nat ->
  active (x_n (nth k axs ax0)) (x_p (nth k axs ax0)) (x_U (nth k axs ax0)) (nth k x 0) (nth k ss 0%Z).
Proof.
  induction axs as [|b axs IH]; intros ss x k A Hk; [simpl in Hk; lia|]. inversion A; subst. destruct k as [|k]; cbn [nth] in *; auto. apply IH; auto. simpl in Hk; lia.
Qed.
Lemma act_lset axs : forall ss x a t s, act_box axs ss x -> (a < length axs)%nat ->
  active (x_n (nth a axs ax0)) (x_p (nth a axs ax0)) (x_U (nth a axs ax0)) t s -> act_box axs (lset a s ss) (put a t x).
Proof.
  induction axs as [|c axs IH]; intros ss x a t s A Ha B; [simpl in Ha; lia|]. inversion A; subst. destruct a as [|a]; cbn [put lset nth] in *; constructor; auto. apply IH; auto. simpl in Ha; lia.
Qed.
Lemma cbox_lset a : forall axs ss x s, cbox axs ss x -> (a < length axs)%nat -> cin (nth a axs ax0) s (nth a x 0) -> cbox axs (lset a s ss) x.
Proof.
  unfold cbox. induction a as [|a IH]; intros [|c axs] [|s ss] [|u x] s' Cb Ha C; cbn in Ha, Cb |- *; try lia; try tauto; cbn [nth] in C; destruct Cb as [[K1 K2] K3]; split; auto. apply IH; auto. lia.
Qed.
Lemma nth_put k t : forall x, (k < length x)%nat -> nth k (put k t x) 0 = t.
Proof. intros x H. rewrite put_lset. apply nth_lset. auto. Qed.
Lemma nth_put_other j k t x : j <> k -> nth j (put k t x) 0 = nth j x 0.
Proof. intros H. rewrite put_lset. apply nth_lset_other. auto. Qed.

Definition revax (b : axR) : axR := mkAx (x_n b) (x_p b) (fun i => (x_U b (x_p b) + x_U b (x_n b + 1)%Z) - x_U b (x_n b + x_p b + 1 - i)%Z).
(** Not a knot strictly inside the domain. *)
Definition free (b : axR) (u : R) : Prop := u = x_U b (x_p b) \/ u = x_U b (x_n b + 1)%Z \/ off_knots b u.
Section Mirror.
Variables (axs : list axR) (a : nat) (P w P' w' : list Z -> R).
Hypothesis W : Forall wf_ax axs.
Hypothesis Ha : (a < length axs)%nat.
Let b := nth a axs ax0.
Let axs' := lset a (revax b) axs.
Let M := x_U b (x_p b) + x_U b (x_n b + 1)%Z.
Let phi (y : list R) : list R := lset a (-1 * nth a y 0 + M) y.
Let alk (k : nat) : R := if Nat.eqb k a then -1 else 1.
Let bek (k : nat) : R := if Nat.eqb k a then M else 0.
Lemma Wb : wf_ax b.
Proof. apply Forall_nth'; auto. Qed.
Lemma Wrev : wf_ax (revax b).
Proof. destruct Wb as [Hp Wk]. split; auto. apply (wf_mirror (x_n b) (x_p b) (x_U b)); auto. Qed.
Lemma W' : Forall wf_ax axs'.
Proof. apply Forall_lset; auto. apply Wrev. Qed.
Lemma rev_lo : x_U (revax b) (x_p (revax b)) = x_U b (x_p b).
Proof. cbn [revax x_U x_p]. replace (x_n b + x_p b + 1 - x_p b)%Z with (x_n b + 1)%Z by lia. ring. Qed.
Lemma rev_hi : x_U (revax b) (x_n (revax b) + 1)%Z = x_U b (x_n b + 1)%Z.
Proof. cbn [revax x_U x_n]. replace (x_n b + x_p b + 1 - (x_n b + 1))%Z with (x_p b) by lia. ring. Qed.
Lemma rev_off u : off_knots b u -> off_knots (revax b) (-1 * u + M).
Proof.
  intros O i Hi E. cbn [revax x_U x_n x_p] in *. apply (O (x_n b + x_p b + 1 - i)%Z); [lia|]. unfold M in E. lra.
Qed.
Lemma mir_box y : in_box axs y -> in_box axs' (phi y).
Proof.
  intros I. unfold axs', phi. apply Forall2_lset; auto. pose proof (Forall2_nth _ _ _ a ax0 0 I Ha) as D. fold b in D. unfold in_domain in *. rewrite rev_lo, rev_hi. unfold M. lra.
Qed.
Lemma LL : length axs' = length axs.
Proof. apply lset_length. Qed.
Lemma N' : nth a axs' ax0 = revax b.
Proof. apply nth_lset. auto. Qed.
Lemma mir_put k t y : (a < length y)%nat -> (k < length y)%nat -> phi (put k t y) = put k (alk k * t + bek k) (phi y).
Proof. exact (ProofDerGeom2.phi_put a (-1) M k t y). Qed.
Lemma mir_nth k y : (a < length y)%nat -> nth k (phi y) 0 = alk k * nth k y 0 + bek k.
Proof. exact (ProofDerGeom2.phi_nth a (-1) M k y). Qed.
Lemma alk_a : alk a = -1 /\ bek a = M.
Proof. unfold alk, bek. rewrite Nat.eqb_refl. auto. Qed.
Lemma mir_a y : (a < length y)%nat -> nth a (phi y) 0 = -1 * nth a y 0 + M.
Proof. intros H. rewrite mir_nth by auto. destruct alk_a as [-> ->]. reflexivity. Qed.
Definition mdom (y : list R) : Prop := in_box axs y /\ free b (nth a y 0).
Lemma mdom_len y : in_box axs y -> length y = length axs.
Proof. intros I. symmetry. apply (Forall2_len _ _ _ I). Qed.

Lemma mir_stay x k : mdom x -> (k < length axs)%nat -> exists s e, (s = 1 \/ s = -1) /\ 0 < e /\ forall h, 0 <= h < e ->
  let y := put k (nth k x 0 + s * h) x in mdom y /\ act_box axs (spans_at axs x) y /\ act_box axs' (spans_at axs' (phi x)) (phi y).
Proof.
  intros [I F] Hk. pose proof (mdom_len x I) as Lx. pose proof (mir_box x I) as I'. pose proof W' as Wp. pose proof LL as L'.
  pose proof (spans_act axs x W I) as A. pose proof (spans_act axs' (phi x) Wp I') as A'.
  destruct (sides_active axs _ x k W A Hk) as (e & He & K). destruct (sides_active axs' _ (phi x) k Wp A' ltac:(lia)) as (e' & He' & K').
  assert (Go : forall s e0, (s = 1 \/ s = -1) -> 0 < e0 -> (forall h, 0 <= h < e0 -> act_box axs (spans_at axs x) (put k (nth k x 0 + s * h) x)) ->
     (forall h, 0 <= h < e0 -> act_box axs' (spans_at axs' (phi x)) (put k (nth k (phi x) 0 + alk k * s * h) (phi x))) ->
     (forall h, 0 <= h < e0 -> free b (nth a (put k (nth k x 0 + s * h) x) 0)) ->
     exists s e, (s = 1 \/ s = -1) /\ 0 < e /\ forall h, 0 <= h < e ->
     let y := put k (nth k x 0 + s * h) x in mdom y /\ act_box axs (spans_at axs x) y /\ act_box axs' (spans_at axs' (phi x)) (phi y)).
  { intros s e0 Hs H0 G1 G2 G3. exists s, e0. split; auto. split; auto. intros h Hh. cbv zeta. split; [split; [eapply act_in_box; eauto|auto]|]. split; auto.
    rewrite mir_put by lia. specialize (G2 h Hh). rewrite mir_nth in G2 by lia.
    replace (alk k * (nth k x 0 + s * h) + bek k) with (alk k * nth k x 0 + bek k + alk k * s * h) by ring. exact G2. }
  destruct (Nat.eq_dec k a) as [->|Nk].
  - rewrite (mir_a x) in K' by lia. rewrite N' in K'. fold b in K. destruct alk_a as [Ea _].
    set (u := nth a x 0) in *. pose proof (wf_lo_hi b Wb) as Llh.
    assert (Edge : u = x_U b (x_p b) \/ u = x_U b (x_n b + 1)%Z -> dside (revax b) (-1 * u + M) = - dside b u).
    { intros E. unfold dside. rewrite rev_hi. unfold M. destruct (Rlt_dec _ _), (Rlt_dec u _); try lra; destruct E; lra. }
    assert (C : (u = x_U b (x_p b) \/ u = x_U b (x_n b + 1)%Z) \/ off_knots b u) by (destruct F as [F|[F|F]]; auto).
    destruct C as [E|O].
    + specialize (Edge E). rewrite Edge in K'. destruct (side_off b u (nth a (spans_at axs x) 0%Z) Wb) as (e2 & He2 & K2); [apply act_nth; auto|].
      apply (Go (dside b u) (Rmin e2 (Rmin e e'))); [apply dside_cases|repeat apply Rmin_pos; auto|..]; intros h Hh;
        pose proof (Rmin_l e2 (Rmin e e')); pose proof (Rmin_r e2 (Rmin e e')); pose proof (Rmin_l e e'); pose proof (Rmin_r e e').
      * apply K; lra.
      * rewrite mir_a by lia. fold u. rewrite Ea. replace (-1 * dside b u * h) with (- dside b u * h) by ring. apply K'; lra.
      * rewrite nth_put by lia. destruct (Req_dec h 0) as [->|]; [rewrite Rmult_0_r, Rplus_0_r; exact F|]. right. right. apply K2. lra.
    + destruct (off_both b u _ Wb (act_nth _ _ _ a A Ha) O) as (e1 & He1 & K1). pose proof (act_nth _ _ _ a A' ltac:(lia)) as Av. rewrite N' in Av. rewrite mir_a in Av by lia. fold u in Av.
      destruct (off_both (revax b) _ _ Wrev Av (rev_off _ O)) as (e2 & He2 & K2).
      apply (Go 1 (Rmin e1 e2)); [auto|apply Rmin_pos; auto|..]; intros h Hh; pose proof (Rmin_l e1 e2); pose proof (Rmin_r e1 e2).
      * apply act_put; auto. fold b. apply (K1 (u + 1 * h)). replace (u + 1 * h - u) with h by ring. rewrite Rabs_right; lra.
      * rewrite mir_a by lia. fold u. apply act_put; auto; [lia|]. rewrite N'. apply (K2 (-1 * u + M + alk a * 1 * h)). rewrite Ea.
        replace (-1 * u + M + -1 * 1 * h - (-1 * u + M)) with (- h) by ring. rewrite Rabs_Ropp, Rabs_right; lra.
      * rewrite nth_put by lia. fold u. right. right. apply (K1 (u + 1 * h)). replace (u + 1 * h - u) with h by ring. rewrite Rabs_right; lra.
  - assert (Ak : alk k = 1 /\ bek k = 0) by (unfold alk, bek; destruct (Nat.eqb_spec k a); [contradiction|auto]).
    assert (E1 : nth k axs' ax0 = nth k axs ax0) by (apply nth_lset_other; auto).
    assert (E2 : nth k (phi x) 0 = nth k x 0) by (rewrite mir_nth by lia; destruct Ak as [-> ->]; ring).
    rewrite E1, E2 in K'. destruct Ak as [Ak _].
    apply (Go (dside (nth k axs ax0) (nth k x 0)) (Rmin e e')); [apply dside_cases|apply Rmin_pos; auto|..]; intros h Hh; pose proof (Rmin_l e e'); pose proof (Rmin_r e e').
    + apply K; lra.
    + rewrite E2, Ak, Rmult_1_l. apply K'; lra.
    + rewrite nth_put_other by auto. exact F.
Qed.
Hypothesis Z1 : forall y, in_box axs y -> tsum axs w y <> 0.
Hypothesis Z2 : forall y, in_box axs y -> tsum axs' w' (phi y) <> 0.
Hypothesis HE : forall y, in_box axs y -> tsum axs P y / tsum axs w y = tsum axs' P' (phi y) / tsum axs' w' (phi y).
Lemma scales_pow D : scales alk D = (-1) ^ count_occ Nat.eq_dec D a.
Proof.
  induction D as [|k D IH] using rev_ind; [reflexivity|]. rewrite scales_app, IH, count_occ_app. cbn [count_occ]. unfold alk.
  destruct (Nat.eqb_spec k a), (Nat.eq_dec k a); try contradiction; [rewrite Nat.add_1_r; simpl; ring|rewrite Nat.add_0_r; ring].
Qed.
Lemma gD_mirror_free D x : (length D <= 4)%nat -> Forall (fun k => (k < length axs)%nat) D -> mdom x ->
  gD axs P w D x = (-1) ^ count_occ Nat.eq_dec D a * gD axs' P' w' D (phi x).
Proof.
  intros HL HD Dx. rewrite <- scales_pow. rewrite <- (map_id D) at 3.
  apply (gD_move axs axs' phi (fun k => k) alk bek mdom P w P' w'); auto.
  - apply W'.
  - intros y [I _]. exact I.
  - intros y [I _]. apply mir_box; auto.
  - intros k Hk. rewrite LL. auto.
  - intros k t y Hy Hk. apply mir_put; lia.
  - intros k y Hy Hk. apply mir_nth; lia.
  - apply mir_stay.
  - intros y [I _]. auto.
  - intros y [I _]. auto.
  - intros y [I _]. auto.
Qed.
(** At a knot where the axis is smooth enough. *)
Lemma mir_left x : in_box axs x -> x_U b (x_p b) < nth a x 0 < x_U b (x_n b + 1)%Z -> exists s' e, 0 < e /\ cin b s' (nth a x 0) /\
  forall h, 0 < h < e -> let y := put a (nth a x 0 - h) x in mdom y /\ act_box axs (lset a s' (spans_at axs x)) y /\ act_box axs' (spans_at axs' (phi x)) (phi y).
Proof.
  intros I Hu. pose proof (mdom_len x I) as Lx. pose proof (mir_box x I) as I'. pose proof W' as Wp. pose proof LL as L'. set (u := nth a x 0) in *.
  destruct (left_span b u Wb Hu) as (s' & e & He & C & K). pose proof (spans_act axs x W I) as A. pose proof (spans_act axs' (phi x) Wp I') as A'.
  destruct (sides_active axs' _ (phi x) a Wp A' ltac:(lia)) as (e' & He' & K'). rewrite N', mir_a in K' by lia. fold u in K'.
  assert (DS : dside (revax b) (-1 * u + M) = 1) by (unfold dside; rewrite rev_hi; unfold M; destruct (Rlt_dec _ _); lra). rewrite DS in K'.
  pose proof C as (C1 & C2 & C3). pose proof Wb as WB.
  assert (Act : forall t, x_U b (x_p b) <= t -> Rabs (t - u) < e -> t < u -> active (x_n b) (x_p b) (x_U b) t s').
  { intros t Ht H1 H2. destruct (K t H1) as [K1 _]. rewrite <- (K1 H2). destruct WB as [_ Wk]. apply FindSpan_active; auto. split; lra. }
  assert (Ls : x_U b s' < u).
  { set (d := Rmin e (u - x_U b (x_p b))). assert (0 < d) by (apply Rmin_pos; lra). pose proof (Rmin_l e (u - x_U b (x_p b))). pose proof (Rmin_r e (u - x_U b (x_p b))). fold d in H0, H1.
    pose proof (Act (u - d / 2) ltac:(lra) ltac:(replace (u - d / 2 - u) with (- (d / 2)) by ring; rewrite Rabs_Ropp, Rabs_right; lra) ltac:(lra)) as [_ [B|[_ B]]]; lra. }
  exists s', (Rmin (u - x_U b s') e'). split; [apply Rmin_pos; lra|]. split; auto. intros h Hh. cbv zeta.
  pose proof (Rmin_l (u - x_U b s') e'). pose proof (Rmin_r (u - x_U b s') e').
  destruct (inside_off b (u - h) s' WB C1 ltac:(lra)) as [B1 B2].
  assert (AB : act_box axs (lset a s' (spans_at axs x)) (put a (u - h) x)).
  { apply act_lset; auto. }
  split; [split; [eapply act_in_box; eauto|rewrite nth_put by lia; right; right; auto]|]. split; auto.
  rewrite mir_put by lia. destruct alk_a as [-> ->]. replace (-1 * (u - h) + M) with (-1 * u + M + 1 * h) by ring. apply K'. lra.
Qed.
(** Functions that agree on one side of a point where they are differentiable agree there. *)
Lemma limit_left f g u e lf lg : 0 < e -> (forall h, 0 < h < e -> f (u - h) = g (u - h)) -> derivable_pt_lim f u lf -> derivable_pt_lim g u lg -> f u = g u.
Proof.
  intros He H Df Dg. pose proof (dl_minus f g u lf lg Df Dg) as D.
  assert (Ct : continuity_pt (fun x => f x - g x) u) by (apply derivable_continuous_pt; eexists; exact D).
  destruct (Req_dec (f u - g u) 0) as [E|N]; [lra|]. exfalso.
  destruct (Ct (Rabs (f u - g u)) (Rabs_pos_lt _ N)) as (d & Hd & K). apply Rlt_gt in Hd.
  set (h := Rmin e d / 2). assert (0 < Rmin e d) by (apply Rmin_pos; lra). pose proof (Rmin_l e d). pose proof (Rmin_r e d).
  assert (Hh : 0 < h /\ h < e /\ h < d) by (unfold h; lra). clearbody h.
  specialize (K (u - h)). cbn in K. unfold R_dist, D_x, no_cond in K.
  assert (C : Rabs (f (u - h) - g (u - h) - (f u - g u)) < Rabs (f u - g u)).
  { apply K. split; [split; [exact I|lra]|]. replace (u - h - u) with (- h) by ring. rewrite Rabs_Ropp, Rabs_right; lra. }
  rewrite H in C by lra. replace (g (u - h) - g (u - h) - (f u - g u)) with (- (f u - g u)) in C by ring. rewrite Rabs_Ropp in C. lra.
Qed.
Lemma gD_mirror D x : (length D <= 3)%nat -> Forall (fun k => (k < length axs)%nat) D -> in_box axs x ->
  smooth_at (count_occ Nat.eq_dec D a) b (nth a x 0) ->
  gD axs P w D x = (-1) ^ count_occ Nat.eq_dec D a * gD axs' P' w' D (phi x).
Proof.
  intros HL HD I S.
  pose proof (Forall2_nth _ _ _ a ax0 0 I Ha) as [B1 B2]. fold b in B1, B2.
  destruct (Req_dec (nth a x 0) (x_U b (x_p b))) as [E|N1]; [apply gD_mirror_free; [lia|exact HD|split; [auto|left; auto]]|].
  destruct (Req_dec (nth a x 0) (x_U b (x_n b + 1)%Z)) as [E|N2]; [apply gD_mirror_free; [lia|exact HD|split; [auto|right; left; auto]]|].
  destruct (mir_left x I ltac:(lra)) as (s' & e & He & C & K). pose proof (mdom_len x I) as Lx. pose proof (mir_box x I) as I'. pose proof W' as Wp. pose proof LL as L'.
  assert (Lp : length (phi x) = length axs') by (symmetry; apply (Forall2_len _ _ _ I')).
  pose proof (spans_act axs x W I) as A. pose proof (spans_act axs' (phi x) Wp I') as A'. pose proof (act_cbox _ _ _ W A) as Cb. pose proof (act_cbox _ _ _ Wp A') as Cb'.
  assert (P0 : Pd axs (spans_at axs x) w [] x <> 0) by (rewrite Pd_value by auto; auto).
  unfold gD at 1. rewrite <- (Qd_link1 a axs (spans_at axs x) P w D x s') by auto.
  set (ss' := lset a s' (spans_at axs x)) in *. set (t' := spans_at axs' (phi x)) in *.
  assert (Cs : cbox axs ss' x).
  { apply cbox_lset; auto. }
  assert (P1 : Pd axs ss' w [] x <> 0).
  { unfold ss', Pd in *. rewrite Hd_link1; auto; [|apply cnts_length]. rewrite cnts_nth by (auto; constructor). eapply smooth_at_le; [|exact S]. cbn. lia. }
  assert (HDa : Forall (fun k => (k < length axs)%nat) (D ++ [a])) by (apply Forall_app; split; auto).
  assert (LDa : (length (D ++ [a]) <= 4)%nat) by (rewrite app_length; simpl; lia).
  pose proof (limit_left (fun t => Qd axs ss' P w D (put a t x)) (fun t => (-1) ^ count_occ Nat.eq_dec D a * Qd axs' t' P' w' D (put a (-1 * t + M) (phi x))) (nth a x 0) e) as LM.
  cbv beta in LM. rewrite put_same in LM by lia. rewrite <- mir_a, put_same in LM by lia. unfold gD. fold t'.
  eapply LM; [exact He|intros h Hh|apply Qd_partial1; auto; [eapply cbox_good; eauto|lia]|].
  - destruct (K h Hh) as (Dy & K1 & K2). cbv zeta in *. set (y := put a (nth a x 0 - h) x) in *.
    replace (put a (-1 * (nth a x 0 - h) + M) (phi x)) with (phi y) by (unfold y; rewrite mir_put by lia; destruct alk_a as [-> ->]; reflexivity).
    pose proof (gD_mirror_free D y ltac:(lia) HD Dy) as E. unfold gD in E. destruct Dy as [Iy _].
    rewrite (act_unique _ _ _ _ W (spans_act axs y W Iy) K1), (act_unique _ _ _ _ Wp (spans_act axs' (phi y) Wp (mir_box y Iy)) K2) in E. exact E.
  - apply (dl_scal ((-1) ^ count_occ Nat.eq_dec D a)).
    apply (derivable_pt_lim_comp (fun t => -1 * t + M) (fun t => Qd axs' t' P' w' D (put a t (phi x)))).
    + apply derivable_pt_lim_plus; [apply (derivable_pt_lim_scal id (-1)), derivable_pt_lim_id|apply derivable_pt_lim_const].
    + rewrite <- mir_a by lia. apply Qd_partial1; auto; [eapply cbox_good; eauto|rewrite L'; exact HDa|lia|rewrite Pd_value by auto; auto].
Qed.
End Mirror.
