(** Splines across knots: the pieces on both sides have the same derivatives up to the order p
    minus the multiplicity of the knot. *)
From Coq Require Import ZArith Reals List Lia Lra Bool.
From Verif Require Import Spec SumZ BPiece BLink SpecNurbs SpecDer BDer ProofSpan ProofRational SpecSmooth.
Import ListNotations.
Local Open Scope R_scope.

(** The closed span s contains u. *)
Definition cin (a : axR) (s : Z) (u : R) : Prop :=
  (x_p a <= s <= x_n a)%Z /\ x_U a s < x_U a (s + 1)%Z /\ x_U a s <= u <= x_U a (s + 1)%Z.
Lemma cin_active a s u : wf_ax a -> active (x_n a) (x_p a) (x_U a) u s -> cin a s u.
Proof. intros [Hp W] A. split; [apply A|]. split; [eapply active_lt; eauto|eapply active_in; eauto]. Qed.
Lemma cin_good a s u : wf_ax a -> cin a s u -> span_good a s.
Proof. intros [Hp W] (H1 & H2 & _). split; [lia|]. eapply wf_span_ok; eauto. Qed.

Lemma gder_link1 a m i u s s' : wf_ax a -> cin a s u -> cin a s' u -> smooth m a -> (s < s')%Z ->
  gder (x_U a) s (x_p a) i m u = gder (x_U a) s' (x_p a) i m u.
Proof.
  intros [Hp W] (H1 & H2 & H3) (K1 & K2 & K3) S L. pose proof (wf_mono _ _ _ W) as M. pose proof (wf_n _ _ _ W) as Hn.
  set (U := x_U a) in *. set (n := x_n a) in *. set (p := x_p a) in *.
  assert (U (s + 1)%Z <= U s') by (apply M; lia). assert (Eu : u = U (s + 1)%Z) by lra. assert (Eu' : u = U s') by lra.
  assert (A : forall j, (s + 1 <= j <= s')%Z -> U j = u).
  { intros j Hj. assert (U (s + 1)%Z <= U j) by (apply M; lia). assert (U j <= U s') by (apply M; lia). lra. }
  assert (U p <= U s) by (apply M; lia). assert (U (s' + 1)%Z <= U (n + 1)%Z) by (apply M; lia).
  assert (Q : (s' - s <= multiplicity U 0 (n + p + 1) u)%Z).
  { pose proof (multiplicity_pair U 0 (n + p + 1) u (s + 1) s' M ltac:(lia) ltac:(lia) ltac:(lia) ltac:(auto) ltac:(auto)). lia. }
  specialize (S u ltac:(fold U n p; lra)). fold U n p in S. destruct S as [S|S]; [lia|].
  unfold gder. f_equal. apply sumZ_ext. intros j Hj. f_equal. apply B_cont; auto; lia || lra.
Qed.
Lemma gder_link a m i u s s' : wf_ax a -> cin a s u -> cin a s' u -> smooth m a ->
  gder (x_U a) s (x_p a) i m u = gder (x_U a) s' (x_p a) i m u.
Proof.
  intros W H K S. destruct (Z.lt_trichotomy s s') as [L|[->|L]]; auto; [apply gder_link1; auto|symmetry; apply gder_link1; auto].
Qed.
Lemma gder_out U s p i m u : (0 <= p)%Z -> (i < s - p \/ s < i)%Z -> gder U s p i m u = 0.
Proof.
  intros Hp Hi. unfold gder. destruct (Z_lt_le_dec p (Z.of_nat m)) as [L|L]; [rewrite ffact_zero by lia; apply Rmult_0_l|].
  rewrite sumZ_zero; [apply Rmult_0_r|]. intros j Hj. rewrite B_zero; [apply Rmult_0_r|]. lia.
Qed.

(** ** Continuity *)
Definition clos {X : Type} (nr : R -> X -> Prop) (f : X -> R) (v : R) : Prop :=
  forall eps, 0 < eps -> exists d, 0 < d /\ forall w, nr d w -> Rabs (f w - v) < eps.
Section Clos.
Context {X : Type} (nr : R -> X -> Prop).
Hypothesis mono : forall d d' w, d <= d' -> nr d w -> nr d' w.
Lemma clos_const c : clos nr (fun _ => c) c.
Proof. intros e He. exists 1. split; [lra|]. intros. unfold Rminus. rewrite Rplus_opp_r, Rabs_R0. auto. Qed.
Lemma clos_plus f g a b : clos nr f a -> clos nr g b -> clos nr (fun w => f w + g w) (a + b).
Proof.
  intros F G e He. destruct (F (e / 2)) as (d1 & H1 & K1); [lra|]. destruct (G (e / 2)) as (d2 & H2 & K2); [lra|].
  exists (Rmin d1 d2). split; [apply Rmin_pos; auto|]. intros w Hw.
  specialize (K1 w (mono _ _ _ (Rmin_l _ _) Hw)). specialize (K2 w (mono _ _ _ (Rmin_r _ _) Hw)).
  replace (f w + g w - (a + b)) with (f w - a + (g w - b)) by ring. eapply Rle_lt_trans; [apply Rabs_triang|lra].
Qed.
Lemma clos_mult f g a b : clos nr f a -> clos nr g b -> clos nr (fun w => f w * g w) (a * b).
Proof.
  intros F G e He. pose proof (Rabs_pos a) as Pa. pose proof (Rabs_pos b) as Pb.
  set (k := Rabs a + Rabs b + 1). assert (Hk : 0 < k) by (unfold k; lra).
  set (e' := Rmin 1 (e / k)). assert (He' : 0 < e') by (apply Rmin_pos; [lra|apply Rdiv_lt_0_compat; lra]).
  destruct (F e' He') as (d1 & H1 & K1). destruct (G e' He') as (d2 & H2 & K2).
  exists (Rmin d1 d2). split; [apply Rmin_pos; auto|]. intros w Hw.
  specialize (K1 w (mono _ _ _ (Rmin_l _ _) Hw)). specialize (K2 w (mono _ _ _ (Rmin_r _ _) Hw)).
  replace (f w * g w - a * b) with ((f w - a) * (g w - b) + ((f w - a) * b + a * (g w - b))) by ring.
  assert (E1 : e' <= 1) by apply Rmin_l. assert (E2 : e' <= e / k) by apply Rmin_r.
  assert (E3 : e' * k <= e). { apply (Rmult_le_compat_r k) in E2; [|lra]. unfold Rdiv in E2. rewrite Rmult_assoc, Rinv_l, Rmult_1_r in E2 by lra. exact E2. }
  pose proof (Rabs_pos (f w - a)) as Pf. pose proof (Rabs_pos (g w - b)) as Pg.
  eapply Rle_lt_trans; [apply Rabs_triang|]. eapply Rle_lt_trans; [apply Rplus_le_compat_l, Rabs_triang|]. rewrite !Rabs_mult.
  assert (Rabs (f w - a) * Rabs (g w - b) < e' * 1).
  { apply Rle_lt_trans with (Rabs (f w - a) * 1); [apply Rmult_le_compat_l; lra|]. apply Rmult_lt_compat_r; lra. }
  assert (Rabs (f w - a) * Rabs b <= e' * Rabs b) by (apply Rmult_le_compat_r; lra).
  assert (Rabs a * Rabs (g w - b) <= Rabs a * e') by (apply Rmult_le_compat_l; lra).
  assert (e' * k = e' * 1 + e' * Rabs b + Rabs a * e') by (unfold k; ring). lra.
Qed.
Lemma clos_minus f g a b : clos nr f a -> clos nr g b -> clos nr (fun w => f w - g w) (a - b).
Proof.
  intros F G e He. destruct (F (e / 2)) as (d1 & H1 & K1); [lra|]. destruct (G (e / 2)) as (d2 & H2 & K2); [lra|].
  exists (Rmin d1 d2). split; [apply Rmin_pos; auto|]. intros w Hw.
  specialize (K1 w (mono _ _ _ (Rmin_l _ _) Hw)). specialize (K2 w (mono _ _ _ (Rmin_r _ _) Hw)).
  replace (f w - g w - (a - b)) with (f w - a + - (g w - b)) by ring. eapply Rle_lt_trans; [apply Rabs_triang|]. rewrite Rabs_Ropp. lra.
Qed.
Lemma clos_inv f a : a <> 0 -> clos nr f a -> clos nr (fun w => / f w) (/ a).
Proof.
  intros Ha F e He. pose proof (Rabs_pos_lt a Ha) as Pa.
  set (e' := Rmin (Rabs a / 2) (e * (Rabs a * Rabs a / 2))).
  assert (Pe : 0 < e * (Rabs a * Rabs a / 2)). { apply Rmult_lt_0_compat; [lra|]. assert (0 < Rabs a * Rabs a) by (apply Rmult_lt_0_compat; auto). lra. }
  assert (He' : 0 < e') by (apply Rmin_pos; lra).
  destruct (F e' He') as (d & Hd & K). exists d. split; auto. intros w Hw. specialize (K w Hw).
  assert (E1 : e' <= Rabs a / 2) by apply Rmin_l. assert (E2 : e' <= e * (Rabs a * Rabs a / 2)) by apply Rmin_r.
  assert (Lf : Rabs a / 2 < Rabs (f w)). { pose proof (Rabs_triang_inv a (a - f w)) as T. replace (a - (a - f w)) with (f w) in T by ring. rewrite (Rabs_minus_sym a (f w)) in T. lra. }
  assert (f w <> 0) by (intros Z; rewrite Z, Rabs_R0 in Lf; lra).
  replace (/ f w - / a) with (- (f w - a) * / (f w * a)) by (field; auto).
  rewrite Rabs_mult, Rabs_Ropp, Rabs_inv, Rabs_mult.
  assert (Pd : 0 < Rabs (f w) * Rabs a) by (apply Rmult_lt_0_compat; lra).
  apply (Rmult_lt_reg_r (Rabs (f w) * Rabs a)); auto. rewrite Rmult_assoc, Rinv_l, Rmult_1_r by lra.
  eapply Rlt_le_trans; [exact K|]. eapply Rle_trans; [exact E2|]. apply Rmult_le_compat_l; [lra|].
  replace (Rabs a * Rabs a / 2) with (Rabs a / 2 * Rabs a) by field. apply Rmult_le_compat_r; lra.
Qed.
Lemma clos_div f g a b : b <> 0 -> clos nr f a -> clos nr g b -> clos nr (fun w => f w / g w) (a / b).
Proof. intros Hb F G. apply clos_mult; auto. apply clos_inv; auto. Qed.
Lemma clos_ext f g a : (forall d w, nr d w -> f w = g w) -> clos nr f a -> clos nr g a.
Proof. intros E F e He. destruct (F e He) as (d & Hd & K). exists d. split; auto. intros w Hw. rewrite <- (E d w Hw). auto. Qed.
Lemma clos_sumN c : forall i (f : Z -> X -> R) v, (forall j, (i <= j < i + Z.of_nat c)%Z -> clos nr (f j) (v j)) ->
  clos nr (fun w => sumN c i (fun j => f j w)) (sumN c i v).
Proof.
  induction c; intros i f v H; simpl; [apply clos_const|]. apply clos_plus; [apply H; lia|]. apply IHc. intros j Hj. apply H. lia.
Qed.
Lemma clos_sumZ lo hi (f : Z -> X -> R) v : (forall j, (lo <= j <= hi)%Z -> clos nr (f j) (v j)) ->
  clos nr (fun w => sumZ lo hi (fun j => f j w)) (sumZ lo hi v).
Proof. intros H. apply clos_sumN. intros j Hj. apply H. lia. Qed.
End Clos.

(** Along one axis. *)
Lemma all_spans (P : Z -> R -> Prop) lo : (forall s d d', P s d -> 0 < d' <= d -> P s d') -> forall c,
  (forall s, (lo <= s < lo + Z.of_nat c)%Z -> exists d, 0 < d /\ P s d) ->
  exists d, 0 < d /\ forall s, (lo <= s < lo + Z.of_nat c)%Z -> P s d.
Proof.
  intros M. induction c; intros H; [exists 1; split; [lra|]; intros; lia|].
  destruct IHc as (d & Hd & K); [intros; apply H; lia|]. destruct (H (lo + Z.of_nat c)%Z ltac:(lia)) as (d' & Hd' & K').
  exists (Rmin d d'). split; [apply Rmin_pos; auto|]. intros s Hs. pose proof (Rmin_l d d'). pose proof (Rmin_r d d'). assert (0 < Rmin d d') by (apply Rmin_pos; auto).
  destruct (Z.eq_dec s (lo + Z.of_nat c)) as [->|]; [apply (M _ d'); [auto|lra]|apply (M _ d); [apply K; lia|lra]].
Qed.
Lemma gder_clos a m i u s0 : wf_ax a -> cin a s0 u -> smooth m a ->
  clos (fun d (w : Z * R) => cin a (fst w) (snd w) /\ Rabs (snd w - u) < d) (fun w => gder (x_U a) (fst w) (x_p a) i m (snd w)) (gder (x_U a) s0 (x_p a) i m u).
Proof.
  intros W C0 S eps He.
  destruct (all_spans (fun s d => forall v, cin a s v -> Rabs (v - u) < d -> Rabs (gder (x_U a) s (x_p a) i m v - gder (x_U a) s0 (x_p a) i m u) < eps) (x_p a))
    with (c := Z.to_nat (x_n a - x_p a + 1)) as (d & Hd & K).
  - intros s d d' H L v Cv Hv. apply H; auto. lra.
  - intros s Hs. pose proof W as [Hp Wk]. pose proof (wf_n _ _ _ Wk) as Hn.
    destruct (Rlt_dec (x_U a s) (x_U a (s + 1)%Z)) as [Ls|Ls]; [|exists 1; split; [lra|]; intros v (_ & C & _); lra].
    destruct (Rlt_dec u (x_U a s)) as [L1|L1].
    { exists (x_U a s - u). split; [lra|]. intros v (_ & _ & Cv) Hv. apply Rabs_def2 in Hv. lra. }
    destruct (Rlt_dec (x_U a (s + 1)%Z) u) as [L2|L2].
    { exists (u - x_U a (s + 1)%Z). split; [lra|]. intros v (_ & _ & Cv) Hv. apply Rabs_def2 in Hv. lra. }
    assert (Cu : cin a s u) by (split; [lia|split; lra]).
    rewrite (gder_link a m i u s0 s) by auto. destruct (cin_good a s u W Cu) as [G1 G2].
    pose proof (gder_derive (x_U a) s (x_p a) i m u G1 G2) as D.
    assert (Ct : continuity_pt (gder (x_U a) s (x_p a) i m) u) by (apply derivable_continuous_pt; eexists; exact D).
    destruct (Ct eps He) as (d & Hd & K). exists d. split; [apply Rlt_gt in Hd; lra|]. intros v Cv Hv.
    destruct (Req_dec v u) as [->|Hne]; [unfold Rminus; rewrite Rplus_opp_r, Rabs_R0; auto|].
    apply (K v). split; [split; [exact I|auto]|exact Hv].
  - exists d. split; auto. intros [s v] [C H]. cbn [fst snd] in *. apply K; auto. destruct C as [C _]. lia.
Qed.

(** ** Tensor products *)
Fixpoint nearb (d : R) (axs : list axR) (x : list R) (ss : list Z) (y : list R) : Prop :=
  match axs, x, ss, y with
  | a :: axs', u :: x', s :: ss', v :: y' => (cin a s v /\ Rabs (v - u) < d) /\ nearb d axs' x' ss' y'
  | [], [], [], [] => True
  | _, _, _, _ => False
  end.
Lemma nearb_mono axs : forall d d' x ss y, d <= d' -> nearb d axs x ss y -> nearb d' axs x ss y.
Proof.
  induction axs as [|a axs IH]; intros d d' [|u x] [|s ss] [|v y] L H; simpl in *; auto.
  destruct H as [[H1 H2] H3]. split; [split; auto; lra|eapply IH; eauto].
Qed.
Definition cbox (axs : list axR) (ss : list Z) (x : list R) : Prop := nearb 1 axs x ss x.
Lemma nearb_self axs : forall d ss x, 0 < d -> cbox axs ss x -> nearb d axs x ss x.
Proof.
  unfold cbox. induction axs as [|a axs IH]; intros d [|s ss] [|v y] L H; simpl in *; auto.
  destruct H as [[H1 H2] H3]. split; [split; auto|apply IH; auto]. unfold Rminus. rewrite Rplus_opp_r, Rabs_R0. auto.
Qed.
Lemma nearb_box axs : forall d x ss y, nearb d axs x ss y -> cbox axs ss y.
Proof.
  unfold cbox. induction axs as [|a axs IH]; intros d [|u x] [|s ss] [|v y] H; simpl in *; try tauto.
  destruct H as [[H1 H2] H3]. split; [split; auto|eapply IH; eauto]. unfold Rminus. rewrite Rplus_opp_r, Rabs_R0. lra.
Qed.
Definition nr (axs : list axR) (x : list R) (d : R) (w : list Z * list R) : Prop := nearb d axs x (fst w) (snd w).
Lemma nr_mono axs x d d' w : d <= d' -> nr axs x d w -> nr axs x d' w.
Proof. apply nearb_mono. Qed.

Lemma Hd_head a axs s ss c cnt P t x : wf_ax a -> (x_p a <= s <= x_n a)%Z ->
  Hd (a :: axs) (s :: ss) (c :: cnt) P (t :: x) = sumZ 0 (x_n a) (fun i => gder (x_U a) s (x_p a) i c t * Hd axs ss cnt (fun idx => P (i :: idx)) x).
Proof.
  intros [Hp W] Hs. cbn [Hd]. symmetry. apply sumZ_restrict; try lia. intros i Hi Ho. rewrite gder_out by lia. apply Rmult_0_l.
Qed.
Lemma Hd_clos axs : forall cnt ss0 P x, Forall wf_ax axs -> Forall2 smooth cnt axs -> cbox axs ss0 x ->
  clos (nr axs x) (fun w => Hd axs (fst w) cnt P (snd w)) (Hd axs ss0 cnt P x).
Proof.
  induction axs as [|a axs IH]; intros cnt ss0 P x W S C.
  - inversion S; subst. cbn [Hd]. apply clos_const.
  - inversion S as [|c ? cnt' ? Sa S']; subst. inversion W as [|? ? Wa W']; subst.
    destruct ss0 as [|s0 ss0], x as [|u x]; simpl in C; try tauto. destruct C as [[Ca _] C].
    rewrite Hd_head by (auto; apply Ca).
    apply (clos_ext (nr (a :: axs) (u :: x)) (fun w => sumZ 0 (x_n a) (fun i => gder (x_U a) (hd 0%Z (fst w)) (x_p a) i c (hd 0 (snd w)) * Hd axs (tl (fst w)) cnt' (fun idx => P (i :: idx)) (tl (snd w))))).
    + intros d [[|s ss] [|v y]] H; simpl in H; try tauto. cbn [fst snd hd tl]. rewrite Hd_head; auto. apply H.
    + apply clos_sumZ; [apply nr_mono|]. intros i Hi. apply clos_mult; [apply nr_mono| |].
      * intros e He. destruct (gder_clos a c i u s0 Wa Ca Sa e He) as (d & Hd & K). exists d. split; auto.
        intros [[|s ss] [|v y]] H; simpl in H; try tauto. cbn [fst snd hd]. apply (K (s, v)). apply H.
      * intros e He. destruct (IH cnt' ss0 (fun idx => P (i :: idx)) x W' S' C e He) as (d & Hd & K). exists d. split; auto.
        intros [[|s ss] [|v y]] H; simpl in H; try tauto. cbn [fst snd tl]. apply (K (ss, y)). apply H.
Qed.
Lemma clos_at {X : Type} (n : R -> X -> Prop) f v w : (forall d, 0 < d -> n d w) -> clos n f v -> f w = v.
Proof.
  intros H C. destruct (Req_dec (f w) v) as [E|E]; auto. exfalso.
  destruct (C (Rabs (f w - v))) as (d & Hd & K); [apply Rabs_pos_lt; lra|]. specialize (K w (H d Hd)). lra.
Qed.
Lemma Hd_link axs cnt ss ss' P x : Forall wf_ax axs -> Forall2 smooth cnt axs -> cbox axs ss x -> cbox axs ss' x ->
  Hd axs ss cnt P x = Hd axs ss' cnt P x.
Proof.
  intros W S C C'. apply (clos_at (nr axs x) (fun w => Hd axs (fst w) cnt P (snd w)) _ (ss, x)).
  - intros d Hd. apply nearb_self; auto.
  - apply Hd_clos; auto.
Qed.
