(** Quotients of tensor-product splines across knots. *)
From Coq Require Import ZArith Reals List Lia Lra Bool.
From Verif Require Import Num Loop ModelBspline Spec SumZ BPiece BLink SpecNurbs SpecDer BDer ProofSpan ProofRational ProofDerLink ProofDerApi ProofDer4 SpecSmooth ProofSmooth.
Import ListNotations.
Local Open Scope R_scope.

Definition ax0 : axR := mkAx 0 0 (fun _ => 0).
(** Directions counted from 1, as in the kernels. *)
Definition smc (axs : list axR) (E : list Z) : Prop :=
  dirs_ok (length axs) E /\ forall k, (k < length axs)%nat -> smooth (count_occ Z.eq_dec E (Z.of_nat k + 1)%Z) (nth k axs ax0).
Lemma smooth_le m m' a : (m' <= m)%nat -> smooth m a -> smooth m' a.
Proof. intros L S v Hv. destruct (S v Hv) as [H|H]; [left; auto|right; lia]. Qed.
Lemma smc_sub axs E E' : (forall z, (count_occ Z.eq_dec E' z <= count_occ Z.eq_dec E z)%nat) -> smc axs E -> smc axs E'.
Proof.
  intros L [H1 H2]. split; [|intros k Hk; eapply smooth_le; [apply L|apply H2; auto]].
  unfold dirs_ok in *. rewrite Forall_forall in *. intros z Hz. apply H1. apply (count_occ_In Z.eq_dec) in Hz. apply (count_occ_In Z.eq_dec). specialize (L z). lia.
Qed.
Lemma incr_nth k : forall c j, nth j (incr k c) O = (nth j c O + (if Nat.eqb j k then if Nat.ltb j (length c) then 1 else 0 else 0))%nat.
Proof.
  induction k; intros [|n c] j; simpl; try (destruct j; simpl; lia).
  - destruct j; simpl; [destruct (Nat.eqb 0 (S k)); reflexivity|]. destruct (Nat.eqb j k); reflexivity.
  - destruct j; simpl; [lia|]. rewrite IHk. reflexivity.
Qed.
Lemma cnts_nth dim E j : dirs_ok dim E -> (j < dim)%nat -> nth j (cnts dim E) O = count_occ Z.eq_dec E (Z.of_nat j + 1)%Z.
Proof.
  intros H Hj. induction H as [|d E Hd H IH]; cbn [cnts].
  - assert (G : forall n j, nth j (repeat O n) O = O) by (induction n; intros [|q]; simpl; auto). rewrite G. reflexivity.
  - rewrite incr_nth, IH, cnts_length. replace (Nat.ltb j dim) with true by (symmetry; apply Nat.ltb_lt; auto).
    destruct (Z.eq_dec d (Z.of_nat j + 1)) as [->|N].
    + rewrite count_occ_cons_eq by auto. replace (Z.to_nat (Z.of_nat j + 1 - 1)) with j by lia. rewrite Nat.eqb_refl. lia.
    + rewrite count_occ_cons_neq by auto. destruct (Nat.eqb_spec j (Z.to_nat (d - 1))); [exfalso; lia|lia].
Qed.
Lemma smc_cnts axs E : smc axs E -> Forall2 smooth (cnts (length axs) E) axs.
Proof.
  intros [H1 H2]. assert (G : forall (l : list nat) (axs : list axR), length l = length axs -> (forall k, (k < length axs)%nat -> smooth (nth k l O) (nth k axs ax0)) -> Forall2 smooth l axs).
  { clear. induction l as [|m l IH]; intros [|a axs] L H; try discriminate; constructor; [apply (H O); simpl; lia|]. apply IH; [simpl in L; lia|]. intros k Hk. apply (H (S k)). simpl. lia. }
  apply G; [apply cnts_length|]. intros k Hk. rewrite cnts_nth by auto. auto.
Qed.

(** The quotient rule is continuous. *)
Section Q.
Context {X : Type} (nr : R -> X -> Prop).
Hypothesis mono : forall d d' w, d <= d' -> nr d w -> nr d' w.
Variables (A W : list Z -> X -> R) (av wv : list Z -> R) (ok : list Z -> Prop).
Hypothesis sub : forall E E', (forall z, (count_occ Z.eq_dec E' z <= count_occ Z.eq_dec E z)%nat) -> ok E -> ok E'.
Hypothesis HA : forall E, ok E -> clos nr (A E) (av E).
Hypothesis HW : forall E, ok E -> clos nr (W E) (wv E).
Hypothesis W0 : wv [] <> 0.
Ltac oks := solve [eapply sub; [|eassumption]; intros z; cbn [count_occ]; repeat (match goal with |- context[Z.eq_dec ?a ?b] => destruct (Z.eq_dec a b) end); lia].
Notation Aw := (fun w E => A E w).
Notation Ww := (fun w E => W E w).
Ltac step := first [apply HA; oks | apply HW; oks | apply clos_minus; [exact mono| |] | apply clos_mult; [exact mono| |]].
Lemma q0_clos E : ok E -> clos nr (fun w => q0 (fun E => A E w) (fun E => W E w)) (q0 av wv).
Proof. intros H. unfold q0. apply clos_div; [exact mono|auto|apply HA; oks|apply HW; oks]. Qed.
Lemma q1_clos i : ok [i] -> clos nr (fun w => q1 (fun E => A E w) (fun E => W E w) i) (q1 av wv i).
Proof. intros H. unfold q1. apply clos_div; [exact mono|auto| |apply HW; oks]. repeat first [eapply q0_clos; eassumption | step]. Qed.
Lemma q2_clos i j : ok [i; j] -> clos nr (fun w => q2 (fun E => A E w) (fun E => W E w) i j) (q2 av wv i j).
Proof. intros H. unfold q2. apply clos_div; [exact mono|auto| |apply HW; oks]. repeat first [eapply q0_clos; eassumption | apply q1_clos; oks | step]. Qed.
Lemma q3_clos i j k : ok [i; j; k] -> clos nr (fun w => q3 (fun E => A E w) (fun E => W E w) i j k) (q3 av wv i j k).
Proof. intros H. unfold q3. apply clos_div; [exact mono|auto| |apply HW; oks]. repeat first [eapply q0_clos; eassumption | apply q1_clos; oks | apply q2_clos; oks | step]. Qed.
Lemma q4_clos i j k l : ok [i; j; k; l] -> clos nr (fun w => q4 (fun E => A E w) (fun E => W E w) i j k l) (q4 av wv i j k l).
Proof. intros H. unfold q4. apply clos_div; [exact mono|auto| |apply HW; oks]. repeat first [eapply q0_clos; eassumption | apply q1_clos; oks | apply q2_clos; oks | apply q3_clos; oks | step]. Qed.
Lemma quot_clos E : ok E -> clos nr (fun w => quot (fun E => A E w) (fun E => W E w) E) (quot av wv E).
Proof.
  intros H. destruct E as [|i [|j [|k [|l [|m E]]]]]; cbn [quot]; [eapply q0_clos; eassumption|apply q1_clos; auto|apply q2_clos; auto|apply q3_clos; auto|apply q4_clos; auto|apply clos_const].
Qed.
End Q.

Definition up (D : list nat) : list Z := map (fun k => Z.of_nat k + 1)%Z (rev D).
Lemma Qd_clos axs ss0 P w D x : Forall wf_ax axs -> smc axs (up D) -> cbox axs ss0 x -> Pd axs ss0 w [] x <> 0 ->
  clos (nr axs x) (fun v => Qd axs (fst v) P w D (snd v)) (Qd axs ss0 P w D x).
Proof.
  intros W S C H0. unfold Qd, ev. fold (up D).
  apply (quot_clos (nr axs x) (nr_mono axs x) (fun E v => Pd axs (fst v) P E (snd v)) (fun E v => Pd axs (fst v) w E (snd v)) _ _ (smc axs) (smc_sub axs)); auto;
    intros E HE; unfold Pd; apply Hd_clos; auto; apply smc_cnts; auto.
Qed.
Lemma smc_nil axs E : smc axs E -> smc axs [].
Proof. apply smc_sub. intros z. simpl. lia. Qed.
Lemma Pd_link axs ss ss' P E x : Forall wf_ax axs -> smc axs E -> cbox axs ss x -> cbox axs ss' x -> Pd axs ss P E x = Pd axs ss' P E x.
Proof. intros W S C C'. apply Hd_link; auto. apply smc_cnts; auto. Qed.
Lemma Qd_link axs ss ss' P w D x : Forall wf_ax axs -> smc axs (up D) -> cbox axs ss x -> cbox axs ss' x -> Pd axs ss' w [] x <> 0 ->
  Qd axs ss P w D x = Qd axs ss' P w D x.
Proof.
  intros W S C C' H. apply (clos_at (nr axs x) (fun v => Qd axs (fst v) P w D (snd v)) _ (ss, x)).
  - intros d Hd. apply nearb_self; auto.
  - apply Qd_clos; auto.
Qed.

(** ** Two-sided derivatives *)
Lemma dl_glue f fl fr u l e : 0 < e -> (forall t, Rabs (t - u) < e -> (t <= u -> f t = fl t) /\ (u <= t -> f t = fr t)) ->
  derivable_pt_lim fl u l -> derivable_pt_lim fr u l -> derivable_pt_lim f u l.
Proof.
  intros He H L Rr eps Heps. destruct (L eps Heps) as [d1 K1]. destruct (Rr eps Heps) as [d2 K2].
  assert (Pd : 0 < Rmin e (Rmin d1 d2)) by (apply Rmin_pos; auto; apply Rmin_pos; [apply (cond_pos d1)|apply (cond_pos d2)]).
  exists (mkposreal _ Pd). intros h Hh Hl. cbn [pos] in Hl.
  pose proof (Rmin_l e (Rmin d1 d2)). pose proof (Rmin_r e (Rmin d1 d2)). pose proof (Rmin_l d1 d2). pose proof (Rmin_r d1 d2).
  assert (Z0 : Rabs (u - u) < e) by (unfold Rminus; rewrite Rplus_opp_r, Rabs_R0; auto).
  assert (Hu : Rabs (u + h - u) < e) by (replace (u + h - u) with h by ring; lra).
  destruct (H _ Z0) as [A1 A2]. destruct (H _ Hu) as [B1 B2]. destruct (Rle_dec h 0) as [N|N].
  - rewrite A1, B1 by lra. apply K1; auto; lra.
  - rewrite A2, B2 by lra. apply K2; auto; lra.
Qed.

Definition span1 (a : axR) (u : R) : Z := FindSpan (N:=Rn) (x_n a) (x_p a) u (x_U a).
Fixpoint spans_at (axs : list axR) (x : list R) : list Z :=
  match axs, x with a :: axs', u :: x' => span1 a u :: spans_at axs' x' | _, _ => [] end.
Lemma span1_eq a u s : wf_ax a -> active (x_n a) (x_p a) (x_U a) u s -> span1 a u = s.
Proof.
  intros [Hp W] A. apply (active_unique (x_n a) (x_p a) (x_U a) u); auto. apply FindSpan_active; auto. eapply active_domain; eauto.
Qed.
Lemma interior_box axs x : interior axs x -> in_box axs x.
Proof. intros H. induction H as [|a u axs x Hu H IH]; constructor; auto. split; lra. Qed.
Lemma spans_act axs x : Forall wf_ax axs -> in_box axs x -> act_box axs (spans_at axs x) x.
Proof.
  intros W H. induction H as [|a u axs x Hu H IH]; cbn [spans_at]; constructor; inversion W as [|? ? [Hp Wk] W']; subst; auto. apply FindSpan_active; auto.
Qed.
Lemma act_cbox axs ss x : Forall wf_ax axs -> act_box axs ss x -> cbox axs ss x.
Proof.
  intros W H. unfold cbox. induction H as [|a axs s ss u x Hu H IH]; simpl; auto. inversion W; subst. split; auto.
  split; [apply cin_active; auto|]. unfold Rminus. rewrite Rplus_opp_r, Rabs_R0. lra.
Qed.

(** The span to the left of a point. *)
Lemma left_span a u : wf_ax a -> x_U a (x_p a) < u < x_U a (x_n a + 1)%Z -> exists s' e, 0 < e /\ cin a s' u /\
  (forall t, Rabs (t - u) < e -> (t < u -> span1 a t = s') /\ (u <= t -> span1 a t = span1 a u)).
Proof.
  intros Wa Hu. pose proof Wa as [Hp W]. pose proof (wf_mono _ _ _ W) as M. pose proof (wf_n _ _ _ W) as Hn.
  assert (D : in_domain (x_n a) (x_p a) (x_U a) u) by (split; lra).
  pose proof (FindSpan_active _ _ _ _ W D) as A. fold (span1 a u) in A. set (s := span1 a u) in *.
  destruct A as [Hs [As|[_ As]]]; [|lra].
  assert (RightS : forall t, u <= t < x_U a (s + 1)%Z -> span1 a t = s) by (intros t Ht; apply span1_eq; auto; split; auto; left; lra).
  destruct (Rlt_dec (x_U a s) u) as [L|L].
  - exists s, (Rmin (u - x_U a s) (x_U a (s + 1)%Z - u)). split; [apply Rmin_pos; lra|]. split; [split; [auto|split; lra]|].
    intros t Ht. pose proof (Rmin_l (u - x_U a s) (x_U a (s + 1)%Z - u)). pose proof (Rmin_r (u - x_U a s) (x_U a (s + 1)%Z - u)). apply Rabs_def2 in Ht.
    split; intros Hc; [apply span1_eq; auto; split; auto; left; lra|apply RightS; lra].
  - assert (Eu : u = x_U a s) by lra.
    (* the last index below s whose knot is below u *)
    assert (G : forall c, (x_p a <= s - Z.of_nat c)%Z -> x_U a (s - Z.of_nat c)%Z < u -> exists s', (x_p a <= s' < s)%Z /\ x_U a s' < u /\ x_U a (s' + 1)%Z = u).
    { induction c; intros Hc Lc; [replace (s - Z.of_nat 0)%Z with s in Lc by lia; lra|].
      destruct (Rlt_dec (x_U a (s - Z.of_nat c)%Z) u) as [L'|L']; [apply IHc; auto; lia|].
      exists (s - Z.of_nat (S c))%Z. split; [lia|]. split; auto. replace (s - Z.of_nat (S c) + 1)%Z with (s - Z.of_nat c)%Z by lia.
      assert (x_U a (s - Z.of_nat c)%Z <= x_U a s) by (apply M; lia). lra. }
    destruct (G (Z.to_nat (s - x_p a))) as (s' & Hs' & L1 & L2); [lia|replace (s - Z.of_nat (Z.to_nat (s - x_p a)))%Z with (x_p a) by lia; lra|].
    exists s', (Rmin (u - x_U a s') (x_U a (s + 1)%Z - u)). split; [apply Rmin_pos; lra|]. split; [split; [lia|split; lra]|].
    intros t Ht. pose proof (Rmin_l (u - x_U a s') (x_U a (s + 1)%Z - u)). pose proof (Rmin_r (u - x_U a s') (x_U a (s + 1)%Z - u)). apply Rabs_def2 in Ht.
    split; intros Hc; [apply span1_eq; auto; split; [lia|]; left; lra|apply RightS; lra].
Qed.
Lemma left_spans axs : forall x k, Forall wf_ax axs -> interior axs x -> (k < length axs)%nat -> exists ss' e, 0 < e /\ cbox axs ss' x /\
  forall t, Rabs (t - nth k x 0) < e -> (t < nth k x 0 -> spans_at axs (put k t x) = ss') /\ (nth k x 0 <= t -> spans_at axs (put k t x) = spans_at axs x).
Proof.
  induction axs as [|a axs IH]; intros x k W I Hk; [simpl in Hk; lia|]. inversion I as [|? u ? x' Hu I']; subst. inversion W as [|? ? Wa W']; subst.
  destruct k as [|k].
  - destruct (left_span a u Wa Hu) as (s' & e & He & C & H). exists (s' :: spans_at axs x'), e. split; auto. split.
    + unfold cbox. simpl. split; [split; auto; unfold Rminus; rewrite Rplus_opp_r, Rabs_R0; lra|]. apply act_cbox; auto. apply spans_act; auto. apply interior_box; auto.
    + intros t Ht. cbn [nth put spans_at] in *. destruct (H t Ht) as [H1 H2]. split; intros Hc; f_equal; auto.
  - simpl in Hk. destruct (IH x' k W' I' ltac:(lia)) as (ss' & e & He & C & H). exists (span1 a u :: ss'), e. split; auto. split.
    + unfold cbox. simpl. split; [|exact C]. split; [|unfold Rminus; rewrite Rplus_opp_r, Rabs_R0; lra]. apply cin_active; auto. destruct Wa as [_ Wk]. apply FindSpan_active; auto. split; lra.
    + intros t Ht. cbn [nth put spans_at] in *. destruct (H t Ht) as [H1 H2]. split; intros Hc; f_equal; auto.
Qed.

(** The function computed by the kernels, with the span searched for. *)
Definition gD (axs : list axR) (P w : list Z -> R) (D : list nat) (y : list R) : R := Qd axs (spans_at axs y) P w D y.
Lemma cbox_good axs ss x : Forall wf_ax axs -> cbox axs ss x -> Forall2 span_good axs ss.
Proof.
  unfold cbox. intros W. revert ss x. induction axs as [|a axs IH]; intros [|s ss] [|u x] C; simpl in C; try tauto; constructor; inversion W; subst.
  - eapply cin_good; [auto|apply C].
  - eapply IH; [auto|apply C].
Qed.
Lemma interior_len axs x : interior axs x -> length x = length axs.
Proof. intros H. induction H; simpl; auto. Qed.
Lemma gD_partial axs P w D k x : Forall wf_ax axs -> interior axs x -> (k < length axs)%nat -> (length D < 4)%nat ->
  smc axs (up (D ++ [k])) -> tsum axs w x <> 0 -> partial k (gD axs P w D) x (gD axs P w (D ++ [k]) x).
Proof.
  intros W I Hk HL S H0. pose proof (interior_len _ _ I) as Lx. pose proof (spans_act axs x W (interior_box _ _ I)) as Ac. pose proof (act_cbox _ _ _ W Ac) as Cb.
  destruct (left_spans axs x k W I Hk) as (ss' & e & He & C' & H).
  assert (SD : smc axs (up D)).
  { revert S. apply smc_sub. intros z. unfold up. rewrite rev_app_distr. cbn [rev app map count_occ]. destruct (Z.eq_dec _ _); lia. }
  assert (E0 : Pd axs (spans_at axs x) w [] x <> 0) by (rewrite Pd_value; auto).
  assert (E0' : Pd axs ss' w [] x <> 0) by (rewrite (Pd_link axs ss' (spans_at axs x) w []); auto; apply (smc_nil _ _ S)).
  unfold partial.
  assert (DP : forall ss, Forall2 span_good axs ss -> Pd axs ss w [] x <> 0 ->
    derivable_pt_lim (fun t => Qd axs ss P w D (put k t x)) (nth k x 0) (Qd axs ss P w (D ++ [k]) x)).
  { intros ss G N0. assert (HF : Forall (fun j => (j < length axs)%nat) (D ++ [k])).
    { destruct S as [S _]. unfold dirs_ok, up in S. rewrite Forall_map in S. apply Forall_rev in S. rewrite rev_involutive in S. eapply Forall_impl; [|exact S]. cbv beta. intros; lia. }
    assert (HL' : (length (D ++ [k]) <= 4)%nat) by (rewrite app_length; simpl; lia).
    destruct (Qd_partials axs ss P w G [k] D HL' HF) as (h & Q1 & Q2).
    simpl in Q2. rewrite <- (Q2 x (conj Lx N0)). apply Q1. split; auto. }
  apply (dl_glue (fun t => gD axs P w D (put k t x)) (fun t => Qd axs ss' P w D (put k t x)) (fun t => Qd axs (spans_at axs x) P w D (put k t x)) (nth k x 0) _ e He).
  - intros t Ht. destruct (H t Ht) as [H1 H2]. unfold gD. split; intros Hc; [|rewrite H2; auto].
    destruct (Req_dec t (nth k x 0)) as [->|Hne]; [|rewrite H1 by lra; auto].
    rewrite H2 by lra. rewrite put_same by lia. apply Qd_link; auto.
  - assert (Eq : gD axs P w (D ++ [k]) x = Qd axs ss' P w (D ++ [k]) x) by (apply Qd_link; auto). rewrite Eq. apply DP; auto. eapply cbox_good; eauto.
  - apply DP; auto. eapply cbox_good; eauto.
Qed.
Lemma gD_partials axs P w : Forall wf_ax axs -> forall D E, (length (E ++ D) <= 4)%nat -> smc axs (up (E ++ D)) ->
  partials (fun y => interior axs y /\ tsum axs w y <> 0) D (gD axs P w E) (gD axs P w (E ++ D)).
Proof.
  intros W. induction D as [|k D IH]; intros E HL S; [simpl; intros; rewrite app_nil_r; reflexivity|].
  assert (E1 : E ++ k :: D = (E ++ [k]) ++ D) by (rewrite <- app_assoc; reflexivity). rewrite E1 in *.
  cbn [partials]. exists (gD axs P w (E ++ [k])). split; [|apply IH; auto]. intros x [I N].
  assert (S' : smc axs (up (E ++ [k]))).
  { revert S. apply smc_sub. intros z. unfold up. rewrite (rev_app_distr (E ++ [k]) D), map_app, count_occ_app. lia. }
  apply gD_partial; auto.
  - destruct S' as [S' _]. unfold dirs_ok, up in S'. rewrite rev_app_distr in S'. cbn [rev app map] in S'. inversion S'; subst. lia.
  - rewrite !app_length in HL. simpl in HL. lia.
Qed.
