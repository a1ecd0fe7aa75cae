(** What plot and curve draw. *)
From Coq Require Import ZArith Reals List Bool Lia Lra Sorted.
From Verif Require Import Num Loop ModelBspline ModelBSp ModelNurbs ModelCad ModelIo ModelPlot Spec SumZ BPiece SpecNurbs SpecIo SpecPlot ProofNet ProofCall
  ProofNurbs ProofMethods ProofGeom ProofGeom2 ProofMethods3 ProofCompat2 ProofIga2 ProofIo ProofIo4 ProofPlot4.
Import ListNotations.
Local Open Scope R_scope.

Lemma nth_concat {A} (d : A) (m : nat) (ls : list (list A)) : Forall (fun l => length l = m) ls -> forall i j, (j < m)%nat -> (i < length ls)%nat -> nth (m * i + j) (concat ls) d = nth j (nth i ls []) d.
Proof.
  induction 1 as [|l ls Hl F IH]; intros i j Hj Hi; [cbn in Hi; lia|]. cbn [concat]. destruct i as [|i].
  - rewrite app_nth1 by lia. f_equal. lia.
  - rewrite app_nth2 by lia. rewrite Hl. replace (m * S i + j - m)%nat with (m * i + j)%nat by lia. apply IH; auto. cbn in Hi. lia.
Qed.

Section Plot.
Variables (junk : Z -> R) (junk2 : Z -> Z -> R) (junk3 : Z -> Z -> Z -> R) (junkS : Z -> Z).
Notation sample := (sample (N:=Rn) junk junk2 junk3 junkS).
Notation p_curve := (p_curve (N:=Rn) junk junk2 junk3 junkS).
Notation curve_rec := (curve_rec (N:=Rn) junk junk2 junk3 junkS).
Notation p_plot := (p_plot (N:=Rn) junk junk2 junk3 junkS).
Definition no_xyz : xyz Rn := let z := mkNd (N:=Rn) [] (fun _ => 0) in (z, z, z).

Lemma curve1 f nrb n : wf_nurbs nrb -> length (n_axes nrb) = 1%nat -> (2 <= n)%Z ->
  exists t, curve_rec (S f) n nrb = Ok [t] /\ shows t [n] nrb (fun l => spaced_at (spec_axes nrb) n (rev l)).
Proof.
  intros W Hd Hn. destruct (sample_spec junk junk2 junk3 junkS nrb n W Hn) as [C [E S]]. exists (split3 C). rewrite Hd in S. split; auto.
  cbn [ModelPlot.curve_rec]. unfold n_dim. rewrite Hd. cbn [Z.of_nat Pos.of_succ_nat Z.ltb Z.compare Pos.compare Pos.compare_cont]. rewrite E. reflexivity.
Qed.
Lemma curve2 f nrb n : wf_nurbs nrb -> length (n_axes nrb) = 2%nat -> all_ends nrb -> (2 <= n)%Z ->
  exists ts, curve_rec (S (S f)) n nrb = Ok ts /\ length ts = 4%nat /\
  forall a s, (a < 2)%nat -> (s < 2)%nat -> shows (nth (2 * a + s) ts no_xyz) [n] nrb
    (fun l => lins a (side_end (nth a (spec_axes nrb) (spec_ax axis0)) (Z.of_nat s)) (spaced_at (lrem a (spec_axes nrb)) n (rev l))).
Proof.
  intros W Hd HE Hn. destruct (boundaries_spec junk nrb nrb W HE) as [bs [Eb [Lb Hb]]]. rewrite Hd in Lb.
  set (Q := fun (b : nurbs Rn) ts => exists t, ts = [t] /\ shows t [n] b (fun l => spaced_at (spec_axes b) n (rev l))).
  destruct (mapM_ok (curve_rec (S f) n) Q bs) as [ls [E F]].
  { intros b Ib. apply (In_nth _ _ nrb) in Ib. destruct Ib as [k [Hk <-]]. rewrite Lb in Hk. destruct (Hb (k / 2)%nat (k mod 2)%nat) as [Wb [EA _]].
    - rewrite Hd. apply Nat.div_lt_upper_bound; lia.
    - apply Nat.mod_upper_bound. lia.
    - rewrite <- Nat.div_mod in Wb, EA by lia.
      destruct (curve1 f (nth k bs nrb) n Wb) as [t [Et St]]; auto; [|exists [t]; split; auto; exists t; auto].
      rewrite EA, lrem_length, Hd; [reflexivity|]. rewrite Hd. apply Nat.div_lt_upper_bound; lia. }
  exists (concat ls). pose proof (Forall2_len _ _ _ F) as Ln.
  assert (F1 : Forall (fun l => length l = 1%nat) ls).
  { clear - F. induction F; constructor; auto. destruct H as [t [-> _]]. reflexivity. }
  split.
  - cbn [ModelPlot.curve_rec]. fold (ModelPlot.curve_rec (N:=Rn) junk junk2 junk3 junkS (S f)). unfold n_dim at 1 2. rewrite Hd.
    change (Z.of_nat 2 <? 1)%Z with false. change (1 <? Z.of_nat 2)%Z with true. cbv iota. rewrite Eb. cbn [bind].
    match goal with |- (let* ls := mapM ?g bs in _) = _ => change g with (curve_rec (S f) n) end. rewrite E. reflexivity.
  - split.
    + assert (Lc : length (concat ls) = length ls).
      { clear - F1. induction F1; [reflexivity|]. cbn [concat]. rewrite app_length, H, IHF1. reflexivity. } lia.
    + intros a s Ha Hs. rewrite <- Hd in Ha. destruct (Hb a s Ha Hs) as [Wb [EA Hh]].
      assert (G : forall l l' k, Forall2 Q l l' -> (k < length l)%nat -> Q (nth k l nrb) (nth k l' [])).
      { intros l l' k F2. revert k. induction F2; intros [|k] Hk; cbn in *; try lia; auto. apply IHF2. lia. }
      destruct (G _ _ (2 * a + s)%nat F ltac:(lia)) as [t [Et St]].
      replace (2 * a + s)%nat with (1 * (2 * a + s) + 0)%nat at 1 by lia. rewrite nth_concat by (auto; lia). rewrite Et. cbn [nth].
      rewrite nth_spec_axes. rewrite (spec_axes_lrem _ _ _ EA) in St.
      eapply shows_through; [exact St|exact Hh|]. intros idx I. apply in_shape_length in I. cbn [length] in I. rewrite (spec_axes_lrem _ _ _ EA).
      apply spaced_at_length. rewrite rev_length, I, lrem_length; rewrite spec_axes_length; lia.
Qed.
Lemma curve3 f nrb n : wf_nurbs nrb -> length (n_axes nrb) = 3%nat -> all_ends nrb -> (2 <= n)%Z ->
  exists ts, curve_rec (S (S (S f))) n nrb = Ok ts /\ length ts = 24%nat /\
  forall a s b r, (a < 3)%nat -> (s < 2)%nat -> (b < 2)%nat -> (r < 2)%nat -> shows (nth (4 * (2 * a + s) + (2 * b + r)) ts no_xyz) [n] nrb
    (fun l => let axs := lrem a (spec_axes nrb) in
              lins a (side_end (nth a (spec_axes nrb) (spec_ax axis0)) (Z.of_nat s)) (lins b (side_end (nth b axs (spec_ax axis0)) (Z.of_nat r)) (spaced_at (lrem b axs) n (rev l)))).
Proof.
  intros W Hd HE Hn. destruct (boundaries_spec junk nrb nrb W HE) as [bs [Eb [Lb Hb]]]. rewrite Hd in Lb.
  set (Q := fun (g : nurbs Rn) ts => length ts = 4%nat /\ forall b r, (b < 2)%nat -> (r < 2)%nat -> shows (nth (2 * b + r) ts no_xyz) [n] g
    (fun l => lins b (side_end (nth b (spec_axes g) (spec_ax axis0)) (Z.of_nat r)) (spaced_at (lrem b (spec_axes g)) n (rev l)))).
  destruct (mapM_ok (curve_rec (S (S f)) n) Q bs) as [ls [E F]].
  { intros b Ib. apply (In_nth _ _ nrb) in Ib. destruct Ib as [k [Hk <-]]. rewrite Lb in Hk. destruct (Hb (k / 2)%nat (k mod 2)%nat) as [Wb [EA _]].
    - rewrite Hd. apply Nat.div_lt_upper_bound; lia.
    - apply Nat.mod_upper_bound. lia.
    - rewrite <- Nat.div_mod in Wb, EA by lia.
      destruct (curve2 f (nth k bs nrb) n Wb) as [ts [Et St]]; auto.
      + rewrite EA, lrem_length, Hd; [reflexivity|]. rewrite Hd. apply Nat.div_lt_upper_bound; lia.
      + eapply all_ends_lrem; eauto.
      + exists ts. split; auto. }
  exists (concat ls). pose proof (Forall2_len _ _ _ F) as Ln.
  assert (F1 : Forall (fun l => length l = 4%nat) ls).
  { clear - F. induction F; constructor; auto. apply H. }
  split.
  - cbn [ModelPlot.curve_rec]. fold (ModelPlot.curve_rec (N:=Rn) junk junk2 junk3 junkS (S (S f))). unfold n_dim at 1 2. rewrite Hd.
    change (Z.of_nat 3 <? 1)%Z with false. change (1 <? Z.of_nat 3)%Z with true. cbv iota. rewrite Eb. cbn [bind].
    match goal with |- (let* ls := mapM ?g bs in _) = _ => change g with (curve_rec (S (S f)) n) end. rewrite E. reflexivity.
  - split.
    + assert (Lc : length (concat ls) = (4 * length ls)%nat).
      { clear - F1. induction F1; [reflexivity|]. cbn [concat]. rewrite app_length, H, IHF1. cbn [length]. lia. } lia.
    + intros a s b r Ha Hs Hb2 Hr. rewrite <- Hd in Ha. destruct (Hb a s Ha Hs) as [Wb [EA Hh]].
      assert (G : forall l l' k, Forall2 Q l l' -> (k < length l)%nat -> Q (nth k l nrb) (nth k l' [])).
      { intros l l' k F2. revert k. induction F2; intros [|k] Hk; cbn in *; try lia; auto. apply IHF2. lia. }
      destruct (G _ _ (2 * a + s)%nat F ltac:(lia)) as [Lt St]. specialize (St b r Hb2 Hr).
      rewrite nth_concat by (auto; lia).
      rewrite nth_spec_axes. rewrite (spec_axes_lrem _ _ _ EA) in St. cbv zeta.
      eapply (shows_through _ _ _ _ (fun l => lins b (side_end (nth b (lrem a (spec_axes nrb)) (spec_ax axis0)) (Z.of_nat r)) (spaced_at (lrem b (lrem a (spec_axes nrb))) n (rev l)))); [exact St|exact Hh|].
      intros idx I. apply in_shape_length in I. cbn [length] in I. rewrite (spec_axes_lrem _ _ _ EA).
      assert (L1 : length (lrem a (spec_axes nrb)) = 2%nat) by (rewrite lrem_length; rewrite spec_axes_length; lia).
      assert (L2 : length (lrem b (lrem a (spec_axes nrb))) = 1%nat) by (rewrite lrem_length; lia).
      rewrite lins_length, spaced_at_length; [lia|]. rewrite rev_length. lia.
Qed.

Theorem plot_spec nrb n1 n2 : wf_nurbs nrb -> (2 <= n1)%Z -> (2 <= n2)%Z ->
  (length (n_axes nrb) = 1%nat -> exists t, p_plot n1 n2 nrb = Ok ([t], []) /\ shows t [n1] nrb (fun l => spaced_at (spec_axes nrb) n1 (rev l))) /\
  (length (n_axes nrb) = 2%nat -> exists t, p_plot n1 n2 nrb = Ok ([], [t]) /\ shows t [n2; n2] nrb (fun l => spaced_at (spec_axes nrb) n2 (rev l))) /\
  (length (n_axes nrb) = 3%nat -> all_ends nrb -> exists ts, p_plot n1 n2 nrb = Ok ([], ts) /\ length ts = 6%nat /\
    forall a s, (a < 3)%nat -> (s < 2)%nat -> shows (nth (2 * a + s) ts no_xyz) [n2; n2] nrb
      (fun l => lins a (side_end (nth a (spec_axes nrb) (spec_ax axis0)) (Z.of_nat s)) (spaced_at (lrem a (spec_axes nrb)) n2 (rev l)))).
Proof.
  intros W H1 H2. unfold ModelPlot.p_plot. split; [|split].
  - intros Hd. unfold n_dim. rewrite Hd. change (Z.of_nat 1 =? 1)%Z with true. cbv iota. unfold ModelPlot.p_curve. rewrite Hd.
    destruct (curve1 0 nrb n1 W Hd H1) as [t [E S]]. rewrite E. exists t. auto.
  - intros Hd. unfold n_dim, p_surface, n_dim. rewrite Hd. cbn [Z.of_nat Pos.of_succ_nat Pos.succ Z.eqb Pos.eqb Z.ltb Z.compare Pos.compare Pos.compare_cont bind mapM].
    destruct (sample_spec junk junk2 junk3 junkS nrb n2 W H2) as [C [E S]]. rewrite E. cbn [bind map]. exists (split3 C). rewrite Hd in S. auto.
  - intros Hd HE. unfold n_dim, p_volume, p_surface, n_dim. rewrite Hd. cbn [Z.of_nat Pos.of_succ_nat Pos.succ Z.eqb Pos.eqb Z.ltb Z.compare Pos.compare Pos.compare_cont].
    destruct (faces_spec junk junk2 junk3 junkS nrb n2 no_xyz W HE H2) as [Cs [E [Lc Hc]]]. rewrite Hd in *.
    destruct (boundaries junk nrb) as [bs|e]; cbn [bind] in *; [|discriminate]. rewrite E. cbn [bind].
    exists (map split3 Cs). split; auto. split; [rewrite map_length; auto|]. intros a s Ha Hs. rewrite nth_spec_axes. apply Hc; auto.
Qed.
Theorem outline_spec nrb n : wf_nurbs nrb -> all_ends nrb -> (2 <= n)%Z ->
  (length (n_axes nrb) = 2%nat -> exists ts, p_curve n nrb = Ok ts /\ length ts = 4%nat /\
    forall a s, (a < 2)%nat -> (s < 2)%nat -> shows (nth (2 * a + s) ts no_xyz) [n] nrb
      (fun l => lins a (side_end (nth a (spec_axes nrb) (spec_ax axis0)) (Z.of_nat s)) (spaced_at (lrem a (spec_axes nrb)) n (rev l)))) /\
  (length (n_axes nrb) = 3%nat -> exists ts, p_curve n nrb = Ok ts /\ length ts = 24%nat /\
    forall a s b r, (a < 3)%nat -> (s < 2)%nat -> (b < 2)%nat -> (r < 2)%nat -> shows (nth (4 * (2 * a + s) + (2 * b + r)) ts no_xyz) [n] nrb
      (fun l => let axs := lrem a (spec_axes nrb) in
                lins a (side_end (nth a (spec_axes nrb) (spec_ax axis0)) (Z.of_nat s)) (lins b (side_end (nth b axs (spec_ax axis0)) (Z.of_nat r)) (spaced_at (lrem b axs) n (rev l))))).
Proof.
  intros W HE Hn. unfold ModelPlot.p_curve. split; intros Hd; rewrite Hd.
  - exact (curve2 0 nrb n W Hd HE Hn).
  - exact (curve3 0 nrb n W Hd HE Hn).
Qed.
End Plot.

(** Objects of other dimensions. *)
Theorem other_dimensions : forall junk junk2 junk3 junkS nrb n1 n,
  ((length (n_axes nrb) <= 1)%nat -> p_surface (N:=Rn) junk junk2 junk3 junkS n nrb = Ok []) /\
  ((length (n_axes nrb) <= 2)%nat -> p_volume (N:=Rn) junk junk2 junk3 junkS n nrb = Ok []) /\
  (length (n_axes nrb) = 0%nat -> p_plot (N:=Rn) junk junk2 junk3 junkS n1 n nrb = Ok ([], [])) /\
  ((2 <= length (n_axes nrb) <= 3)%nat -> forall ts, p_plot (N:=Rn) junk junk2 junk3 junkS n1 n nrb = Ok ([], ts) -> p_surface (N:=Rn) junk junk2 junk3 junkS n nrb = Ok ts) /\
  (length (n_axes nrb) = 3%nat -> forall ts, p_plot (N:=Rn) junk junk2 junk3 junkS n1 n nrb = Ok ([], ts) -> p_volume (N:=Rn) junk junk2 junk3 junkS n nrb = Ok ts).
Proof.
  intros junk junk2 junk3 junkS nrb n1 n. unfold p_plot, p_volume.
  assert (E : n_dim nrb = Z.of_nat (length (n_axes nrb))) by reflexivity.
  split; [intros H; unfold p_surface; rewrite E; destruct (Z.ltb_spec (Z.of_nat (length (n_axes nrb))) 2); [reflexivity|lia]|].
  rewrite E. split; [intros H; destruct (Z.ltb_spec (Z.of_nat (length (n_axes nrb))) 3); [reflexivity|lia]|].
  split; [intros H; rewrite H; reflexivity|].
  split.
  - intros H ts. assert (length (n_axes nrb) = 2 \/ length (n_axes nrb) = 3)%nat as [K|K] by lia; rewrite K; cbn [Z.of_nat Pos.of_succ_nat Pos.succ Z.eqb Pos.eqb Z.ltb Z.compare Pos.compare Pos.compare_cont];
      destruct (p_surface _ _ _ _ n nrb); cbn [bind]; intros Q; try discriminate; injection Q as <-; reflexivity.
  - intros K ts. rewrite K. cbn [Z.of_nat Pos.of_succ_nat Pos.succ Z.eqb Pos.eqb Z.ltb Z.compare Pos.compare Pos.compare_cont].
    destruct (p_surface _ _ _ _ n nrb); cbn [bind]; intros Q; try discriminate. injection Q as <-. reflexivity.
Qed.
