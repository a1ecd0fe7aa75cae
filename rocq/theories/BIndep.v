(** Linear independence of B-splines: a spline determines its coefficients.  Auxiliary theory
    for the proofs; nothing here refers to the model of the code. *)
From Coq Require Import ZArith Reals List Lia Lra.
From Verif Require Import Spec SumZ BPiece BLink BDer SpecNurbs.
Import ListNotations.
Local Open Scope R_scope.

Lemma zero_slope f a b u l : (forall x, a < x < b -> f x = 0) -> a < u < b -> derivable_pt_lim f u l -> l = 0.
Proof.
  intros Hf Hu D. destruct (Req_dec l 0) as [E|E]; auto. exfalso.
  destruct (D (Rabs l) (Rabs_pos_lt _ E)) as [d Hd].
  pose proof (cond_pos d) as Pd.
  set (h := Rmin (pos d / 2) ((b - u) / 2)).
  assert (0 < h) by (unfold h; apply Rmin_glb_lt; lra).
  assert (h <= pos d / 2) by apply Rmin_l. assert (h <= (b - u) / 2) by apply Rmin_r.
  specialize (Hd h ltac:(lra)). rewrite (Rabs_right h) in Hd by lra. specialize (Hd ltac:(lra)).
  rewrite (Hf (u + h)), (Hf u) in Hd by lra.
  replace ((0 - 0) / h - l) with (- l) in Hd by (field; lra). rewrite Rabs_Ropp in Hd. lra.
Qed.

(** On one nonempty span. *)
Lemma piece_indep U k q : forall c, span_ok U k q ->
  (forall u, U k < u < U (k + 1)%Z -> sumZ (k - Z.of_nat q) k (fun i => B U k q i u * c i) = 0) ->
  forall i, (k - Z.of_nat q <= i <= k)%Z -> c i = 0.
Proof.
  induction q; intros c Hok HS i Hi.
  - assert (i = k) as -> by lia.
    destruct Hok as [_ L]. specialize (HS ((U k + U (k + 1)%Z) / 2) ltac:(lra)).
    replace (k - Z.of_nat 0)%Z with k in HS by lia. rewrite sumZ_single in HS. simpl in HS. rewrite Z.eqb_refl in HS. lra.
  - assert (Hok' : span_ok U k q) by (eapply span_ok_less; [|eauto]; lia).
    assert (D : forall j, (k - Z.of_nat q <= j <= k)%Z -> INR (S q) * (c j - c (j - 1)%Z) / (U (j + Z.of_nat q + 1)%Z - U j) = 0).
    { apply (IHq (fun j => INR (S q) * (c j - c (j - 1)%Z) / (U (j + Z.of_nat q + 1)%Z - U j)) Hok').
      intros u Hu. apply (zero_slope (fun y => sumZ (k - Z.of_nat (S q)) k (fun i => B U k (S q) i y * c i)) (U k) (U (k + 1)%Z) u); auto.
      eapply dl_eq; [|apply dl_sumZ; intros j Hj; apply (dl_mult (B U k (S q) j) (fun _ => c j) u (INR (S q) * (B U k q j u / (U (j + Z.of_nat q + 1)%Z - U j) - B U k q (j + 1) u / (U (j + Z.of_nat q + 2)%Z - U (j + 1)%Z))) 0); [apply B_derive; auto|apply dl_const]].
      transitivity (sumZ (k - Z.of_nat (S q)) k (fun j => INR (S q) * (B U k q j u / (U (j + Z.of_nat q + 1)%Z - U j)) * c j)
        - sumZ (k - Z.of_nat (S q)) k (fun j => INR (S q) * (B U k q (j + 1) u / (U (j + Z.of_nat q + 2)%Z - U (j + 1)%Z)) * c j)).
      { rewrite <- sumZ_minus. apply sumZ_ext. intros. lra. }
      rewrite (sumZ_restrict (k - Z.of_nat (S q)) k (k - Z.of_nat q) k (fun j => INR (S q) * (B U k q j u / (U (j + Z.of_nat q + 1)%Z - U j)) * c j));
        [ | lia | lia | lia | intros; rewrite B_zero by lia; unfold Rdiv; lra ].
      rewrite (sumZ_restrict (k - Z.of_nat (S q)) k (k - Z.of_nat (S q)) (k - 1));
        [ | lia | lia | lia | intros; rewrite B_zero by lia; unfold Rdiv; lra ].
      rewrite (sumZ_shift' (k - Z.of_nat (S q)) (k - 1) (-1)).
      replace (k - Z.of_nat (S q) - -1)%Z with (k - Z.of_nat q)%Z by lia.
      replace (k - 1 - -1)%Z with k by lia.
      rewrite <- sumZ_minus. apply sumZ_ext. intros j Hj.
      replace (j + -1 + Z.of_nat q + 2)%Z with (j + Z.of_nat q + 1)%Z by lia.
      replace (j + -1 + 1)%Z with j by lia. replace (j + -1)%Z with (j - 1)%Z by lia. unfold Rdiv. lra. }
    assert (E : forall j, (k - Z.of_nat q <= j <= k)%Z -> c j = c (j - 1)%Z).
    { intros j Hj. specialize (D j Hj). pose proof (span_ok_den U k q j Hok Hj) as L.
      assert (P : 0 < INR (S q)) by (apply lt_0_INR; lia).
      assert (INR (S q) * (c j - c (j - 1)%Z) = 0).
      { replace (INR (S q) * (c j - c (j - 1)%Z)) with (INR (S q) * (c j - c (j - 1)%Z) / (U (j + Z.of_nat q + 1)%Z - U j) * (U (j + Z.of_nat q + 1)%Z - U j)) by (field; lra).
        rewrite D. lra. }
      apply Rmult_integral in H. destruct H; lra. }
    assert (G : forall d, (Z.of_nat d <= Z.of_nat (S q))%Z -> c (k - Z.of_nat d)%Z = c k).
    { induction d; intros Hd; [f_equal; lia|]. rewrite <- IHd by lia. rewrite (E (k - Z.of_nat d)%Z) by lia. f_equal; lia. }
    destruct Hok as [M L]. specialize (HS ((U k + U (k + 1)%Z) / 2) ltac:(lra)).
    rewrite (sumZ_ext _ _ _ (fun i => B U k (S q) i ((U k + U (k + 1)%Z) / 2) * c k)) in HS.
    2:{ intros j Hj. f_equal. replace j with (k - Z.of_nat (Z.to_nat (k - j)))%Z by lia. apply G. lia. }
    rewrite sumZ_scal_r, B_sum_one in HS by (split; auto).
    replace i with (k - Z.of_nat (Z.to_nat (k - i)))%Z by lia. rewrite G by lia. lra.
Qed.

(** No knot has more than p+1 copies: every basis function has a support. *)
Definition supported (n p : Z) (U : Z -> R) : Prop := forall i, (0 <= i <= n)%Z -> U i < U (i + p + 1)%Z.

(** Between two different knots there is a nonempty span. *)
Lemma span_between (U : Z -> R) : forall (d : nat) i, U i < U (i + Z.of_nat d)%Z ->
  exists k, (i <= k < i + Z.of_nat d)%Z /\ U k < U (k + 1)%Z.
Proof.
  induction d; intros i H; [replace (i + Z.of_nat 0)%Z with i in H by lia; lra|].
  destruct (Rlt_dec (U i) (U (i + 1)%Z)) as [L|L]; [exists i; split; [lia|auto]|].
  destruct (IHd (i + 1)%Z) as [k [Hk Lk]].
  { replace (i + 1 + Z.of_nat d)%Z with (i + Z.of_nat (S d))%Z by lia. lra. }
  exists k. split; [lia|auto].
Qed.
Lemma span_meets n p U i : wf_knots n p U -> supported n p U -> (0 <= i <= n)%Z ->
  exists k, (p <= k <= n)%Z /\ (k - p <= i <= k)%Z /\ U k < U (k + 1)%Z.
Proof.
  intros W S Hi. pose proof (wf_p _ _ _ W). pose proof (wf_n _ _ _ W). pose proof (wf_mono _ _ _ W) as M.
  set (lo := Z.max i p). set (hi := Z.min (i + p + 1) (n + 1)).
  destruct (span_between U (Z.to_nat (hi - lo)) lo) as [k [Hk L]].
  - replace (lo + Z.of_nat (Z.to_nat (hi - lo)))%Z with hi by lia.
    pose proof (S i Hi) as Li. pose proof (wf_first _ _ _ W) as F. pose proof (wf_last _ _ _ W) as E.
    assert (lo = i \/ lo = p)%Z as [-> | ->] by lia; assert (hi = i + p + 1 \/ hi = n + 1)%Z as [-> | ->] by lia; auto.
    + apply Rle_lt_trans with (U n); [apply M; lia|auto].
    + apply Rlt_le_trans with (U (p + 1)%Z); [auto|apply M; lia].
    + apply Rlt_le_trans with (U (p + 1)%Z); [auto|apply M; lia].
  - exists k. split; [lia|]. split; [lia|auto].
Qed.

(** A spline vanishing on its domain has only zero coefficients. *)
Lemma curve_indep n p U c : wf_knots n p U -> supported n p U ->
  (forall u, in_domain n p U u -> curve n p U c u = 0) -> forall i, (0 <= i <= n)%Z -> c i = 0.
Proof.
  intros W S H i Hi. pose proof (wf_p _ _ _ W). destruct (span_meets n p U i W S Hi) as [k [Hk [Hki L]]].
  apply (piece_indep U k (Z.to_nat p)); [eapply wf_span_ok; eauto| |lia].
  intros u Hu. replace (k - Z.of_nat (Z.to_nat p))%Z with (k - p)%Z by lia.
  assert (A : active n p U u k) by (split; [lia|left; lra]).
  rewrite <- (H u) by (eapply active_domain; eauto). symmetry. apply curve_piece; auto.
Qed.
Lemma tsum_indep axs : forall P, Forall (fun a => wf_knots (x_n a) (x_p a) (x_U a) /\ supported (x_n a) (x_p a) (x_U a)) axs ->
  (forall us, in_box axs us -> tsum axs P us = 0) -> forall idx, in_net axs idx -> P idx = 0.
Proof.
  induction axs as [|a axs IH]; intros P F H idx I; inversion I as [|? i ? idx' Hi I']; subst.
  - specialize (H [] (Forall2_nil _)). simpl in H. auto.
  - inversion F as [|? ? [W S] F']; subst.
    apply (IH (fun r => P (i :: r))); auto. intros us Hus.
    apply (curve_indep (x_n a) (x_p a) (x_U a) (fun i => tsum axs (fun r => P (i :: r)) us)); auto.
    intros u Hu. apply (H (u :: us)). constructor; auto.
Qed.
Lemma tsum_minus axs : forall P Q us, length us = length axs ->
  tsum axs (fun i => P i - Q i) us = tsum axs P us - tsum axs Q us.
Proof.
  induction axs as [|a axs IH]; intros P Q us Hl; destruct us as [|u us]; try discriminate; simpl; [reflexivity|].
  rewrite <- sumZ_minus. apply sumZ_ext. intros j Hj.
  rewrite (IH (fun r => P (j :: r)) (fun r => Q (j :: r))) by (simpl in Hl; lia). lra.
Qed.
(** Two nets with the same values everywhere are equal. *)
Lemma tsum_unique axs P Q : Forall (fun a => wf_knots (x_n a) (x_p a) (x_U a) /\ supported (x_n a) (x_p a) (x_U a)) axs ->
  (forall us, in_box axs us -> tsum axs P us = tsum axs Q us) -> forall idx, in_net axs idx -> P idx = Q idx.
Proof.
  intros F H idx I. pose proof (tsum_indep axs (fun i => P i - Q i) F) as T. cbv beta in T.
  assert (P idx - Q idx = 0); [|lra]. apply T; auto.
  intros us Hus. rewrite tsum_minus, (H us Hus); [lra|].
  clear - Hus. induction Hus; simpl; auto.
Qed.
