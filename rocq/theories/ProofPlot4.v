(** The arrays that the plotter hands to the backends hold points of the object. *)
From Coq Require Import ZArith Reals List Bool Lia Lra Sorted.
From Verif Require Import Num Loop ModelBspline ModelBSp ModelNurbs ModelCad ModelIo ModelPlot Spec SumZ BPiece SpecNurbs SpecIo SpecPlot ProofNet ProofCall
  ProofNurbs ProofMethods ProofGeom ProofGeom2 ProofMethods3 ProofCompat2 ProofIga2 ProofIo ProofIo4.
Import ListNotations.
Local Open Scope R_scope.

Lemma linspace_len (a b : R) n : v_len (linspace (N:=Rn) a b n) = n.
Proof. reflexivity. Qed.
Lemma linspace_get (a b : R) n i : (2 <= n)%Z -> (0 <= i < n)%Z -> v_get (linspace (N:=Rn) a b n) i = spaced a b n i.
Proof.
  intros Hn Hi. unfold linspace, spaced. cbn [v_get]. match goal with |- @eq _ ?x ?y => change (@eq R x y) end. assert (P : 0 < IZR (n - 1)) by (apply IZR_lt; lia).
  destruct (Z.eqb_spec i (n - 1)) as [->|Hi']; [field; lra|].
  destruct (neqb Rn _ _); cbn [nadd nsub nmul ndiv nofZ Rn]; field; lra.
Qed.
Lemma spaced_range a b n i : a <= b -> (2 <= n)%Z -> (0 <= i < n)%Z -> a <= spaced a b n i <= b.
Proof.
  intros H Hn Hi. unfold spaced. assert (P : 0 < IZR (n - 1)) by (apply IZR_lt; lia).
  assert (Q : 0 <= IZR i <= IZR (n - 1)) by (split; apply IZR_le; lia).
  assert (E : IZR i * (b - a) / IZR (n - 1) = (b - a) * (IZR i / IZR (n - 1))) by (field; lra). rewrite E.
  assert (D : 0 <= IZR i / IZR (n - 1) <= 1).
  { split; [apply Rmult_le_pos; [lra|apply Rlt_le, Rinv_0_lt_compat; auto]|]. apply Rmult_le_reg_r with (IZR (n - 1)); auto.
    unfold Rdiv. rewrite Rmult_assoc, Rinv_l by lra. lra. }
  split; nra.
Qed.
Lemma wf_ends A : wf_ax (spec_ax A) -> left_end (spec_ax A) < right_end (spec_ax A).
Proof.
  intros [Hp W]. cbn in *. unfold left_end, right_end. cbn [spec_ax x_U x_p x_n]. pose proof (wf_n _ _ _ W).
  apply Rlt_le_trans with (a_knots A (a_deg A + 1)%Z); [apply (wf_first _ _ _ W)|apply (wf_mono _ _ _ W); lia].
Qed.

Section Plot.
Variables (junk : Z -> R) (junk2 : Z -> Z -> R) (junk3 : Z -> Z -> Z -> R) (junkS : Z -> Z).
Notation call_nd := (call_nd (N:=Rn) junk junk2 junk3 junkS).
Notation sample := (sample (N:=Rn) junk junk2 junk3 junkS).

Lemma call_nd_spec nrb xs : wf_nurbs nrb -> good_args (spec_axes nrb) xs -> exists C, call_nd nrb xs = Ok C /\ nd_shape C = map v_len xs ++ [3%Z] /\
  forall idx c, in_range xs idx -> nd_get C (idx ++ [c]) = pt nrb c (params xs idx).
Proof.
  intros W G. unfold ModelPlot.call_nd.
  destruct (call_spec junk junk2 junk3 junkS nrb xs FNo 4%Z (n_arr nrb) W G eq_refl) as [C [F [E [H _]]]]. rewrite E. cbn [bind].
  eexists. split; [reflexivity|]. split; [reflexivity|]. intros idx c I. cbn [nd_get fst]. rewrite removelast_last, last_last. apply H. auto.
Qed.
Lemma in_range_shape (xs : list (vec Rn)) idx : in_range xs idx <-> in_shape (map v_len xs) idx.
Proof.
  unfold in_range, in_shape. revert idx. induction xs as [|x xs IH]; intros idx; cbn [map].
  - split; intros H; inversion H; constructor.
  - split; intros H; inversion H; subst; constructor; auto; apply IH; auto.
Qed.
Lemma split3_shows (C : nd Rn) sh nrb f : nd_shape C = sh ++ [3%Z] -> (forall idx c, in_shape sh idx -> nd_get C (idx ++ [c]) = pt nrb c (f idx)) ->
  shows (split3 C) (rev sh) nrb (fun l => f (rev l)).
Proof.
  intros E H. unfold split3, shows. cbv zeta. rewrite E, removelast_last. cbn [nd_shape nd_get]. repeat (split; [reflexivity|]).
  intros idx I. apply in_shape_rev in I. rewrite rev_involutive in I. auto.
Qed.

Lemma good_spaced nrb n : wf_nurbs nrb -> (2 <= n)%Z -> good_args (spec_axes nrb) (map (fun A => linspace (N:=Rn) (a_lo A) (a_hi A) n) (n_axes nrb)).
Proof.
  intros [_ [W _]] Hn. unfold spec_axes in *. induction (n_axes nrb) as [|A axs IH]; [constructor|]. cbn [map] in *. inversion W; subst. constructor; [|apply IH; auto].
  rewrite linspace_len. split; [lia|]. intros i Hi. rewrite linspace_get by auto. pose proof (wf_ends A H1) as L. unfold in_domain. cbn [spec_ax x_n x_p x_U].
  rewrite a_lo_eq, a_hi_eq. unfold left_end, right_end in L. cbn [spec_ax x_n x_p x_U] in L.
  apply spaced_range; auto. lra.
Qed.
Lemma params_spaced axs n : (2 <= n)%Z -> forall idx, in_shape (map (fun _ => n) axs) idx ->
  params (map (fun A => linspace (N:=Rn) (a_lo A) (a_hi A) n) axs) idx = spaced_at (map spec_ax axs) n idx.
Proof.
  intros Hn. induction axs as [|A axs IH]; intros idx I; inversion I; subst; cbn [map params spaced_at]; [reflexivity|].
  f_equal; [|apply IH; auto]. rewrite linspace_get by auto. rewrite a_hi_eq, a_lo_eq. reflexivity.
Qed.
Lemma map_const {A} (n : Z) (l : list A) : map (fun _ => n) l = repeat n (length l).
Proof. induction l; cbn; auto. f_equal. auto. Qed.
Lemma spaced_lens (axs : list (axis Rn)) n : map v_len (map (fun A => linspace (N:=Rn) (a_lo A) (a_hi A) n) axs) = repeat n (length axs).
Proof. induction axs; cbn [map repeat length]; auto. f_equal. auto. Qed.
Lemma rev_repeat {A} (x : A) n : rev (repeat x n) = repeat x n.
Proof.
  induction n; [reflexivity|]. cbn [repeat rev]. rewrite IHn. clear IHn. induction n; [reflexivity|]. cbn [repeat app]. f_equal. auto.
Qed.
Lemma sample_spec nrb n : wf_nurbs nrb -> (2 <= n)%Z -> exists C, sample n nrb = Ok C /\
  shows (split3 C) (repeat n (length (n_axes nrb))) nrb (fun l => spaced_at (spec_axes nrb) n (rev l)).
Proof.
  intros W Hn. unfold ModelPlot.sample. destruct (call_nd_spec nrb _ W (good_spaced nrb n W Hn)) as [C [E [Es Hg]]]. exists C. split; auto.
  rewrite <- (rev_repeat n). rewrite spaced_lens in Es.
  apply split3_shows; auto.
  intros idx c I. rewrite Hg.
  - rewrite params_spaced; auto. rewrite map_const. auto.
  - apply in_range_shape. rewrite spaced_lens. auto.
Qed.

(** ** Boundaries *)
Lemma boundary_total nrb a s : wf_nurbs nrb -> (a < length (n_axes nrb))%nat -> s = 0%Z \/ s = 1%Z ->
  let A := spec_ax (get_axis nrb a) in can_cut A (side_end A s) ->
  exists b, boundary (N:=Rn) junk nrb (Z.of_nat a) s = Ok b /\ wf_nurbs b /\ n_axes b = lrem a (n_axes nrb) /\
    forall us c, length us = length (spec_axes b) -> hom b c us = hom nrb c (lins a (side_end A s) us).
Proof.
  intros W Ha Hs A [Hsep Hm].
  assert (Ea : py_axis (n_dim nrb) (Z.of_nat a) = Ok a) by (rewrite py_axis_nat, Nat2Z.id by (unfold n_dim; lia); reflexivity).
  pose proof (wf_get_axis _ _ W Ha) as WA. pose proof (wf_ends _ WA) as L.
  assert (Eu : (if (s =? 0)%Z then a_lo (get_axis nrb a) else a_hi (get_axis nrb a)) = side_end A s).
  { unfold side_end. destruct (s =? 0)%Z; [reflexivity|]. rewrite a_hi_eq. reflexivity. }
  assert (D : in_domain (x_n A) (x_p A) (x_U A) (side_end A s)).
  { unfold in_domain, side_end. fold (left_end A). fold (right_end A). fold A in L. destruct (s =? 0)%Z; lra. }
  destruct (extract_ok nrb (Z.of_nat a) a (side_end A s) junk W Ea D) as [b E].
  destruct (extract_spec nrb (Z.of_nat a) a (side_end A s) junk b W Ea Hsep Hm E) as [_ [W' [EA [_ Hh]]]].
  exists b. split; auto. unfold boundary, assert.
  replace ((s =? 0)%Z || (s =? 1)%Z) with true by (destruct Hs as [->| ->]; reflexivity). cbn [bind]. rewrite Ea. cbn [bind]. rewrite Eu. exact E.
Qed.
Lemma all_ends_get nrb a s : all_ends nrb -> (a < length (n_axes nrb))%nat -> let A := spec_ax (get_axis nrb a) in can_cut A (side_end A s).
Proof.
  intros H Ha A. unfold all_ends in H. rewrite Forall_forall in H. destruct (H A) as [H1 H2].
  - unfold A. rewrite <- nth_spec_axes. apply nth_In. unfold spec_axes. rewrite map_length. auto.
  - unfold side_end. destruct (s =? 0)%Z; auto.
Qed.
Lemma boundaries_spec nrb d : wf_nurbs nrb -> all_ends nrb -> exists bs, boundaries (N:=Rn) junk nrb = Ok bs /\ length bs = (2 * length (n_axes nrb))%nat /\
  forall a s, (a < length (n_axes nrb))%nat -> (s < 2)%nat -> let b := nth (2 * a + s) bs d in
    wf_nurbs b /\ n_axes b = lrem a (n_axes nrb) /\
    forall us c, length us = length (spec_axes b) -> hom b c us = hom nrb c (lins a (side_end (spec_ax (get_axis nrb a)) (Z.of_nat s)) us).
Proof.
  intros W HE. unfold boundaries.
  set (Q := fun (k : Z) b => wf_nurbs b /\ n_axes b = lrem (Z.to_nat (k / 2)) (n_axes nrb) /\
    forall us c, length us = length (spec_axes b) -> hom b c us = hom nrb c (lins (Z.to_nat (k / 2)) (side_end (spec_ax (get_axis nrb (Z.to_nat (k / 2)))) (k mod 2)%Z) us)).
  destruct (mapM_ok (fun k => boundary (N:=Rn) junk nrb (k / 2) (k mod 2)) Q (zseq (2 * length (n_axes nrb)) 0)) as [bs [E F]].
  { intros k Hk. apply in_zseq in Hk. assert (Hd : (0 <= k / 2 < Z.of_nat (length (n_axes nrb)))%Z) by (split; [apply Z.div_pos; lia|apply Z.div_lt_upper_bound; lia]).
    assert (Ha : (Z.to_nat (k / 2) < length (n_axes nrb))%nat) by (clear - Hd; lia).
    assert (Hm : (k mod 2 = 0 \/ k mod 2 = 1)%Z) by (pose proof (Z.mod_pos_bound k 2); lia).
    destruct (boundary_total nrb (Z.to_nat (k / 2)) (k mod 2) W Ha Hm (all_ends_get nrb _ _ HE Ha)) as [b [Eb H]].
    exists b. rewrite Z2Nat.id in Eb by lia. split; auto. }
  exists bs. split; auto. pose proof (Forall2_len _ _ _ F) as Ln. rewrite zseq_length in Ln. split; auto.
  intros a s Ha Hs. cbv zeta.
  assert (G : forall l l' k, Forall2 Q l l' -> (k < length l)%nat -> Q (nth k l 0%Z) (nth k l' d)).
  { intros l l' k F2. revert k. induction F2; intros [|k] Hk; cbn in *; try lia; auto. apply IHF2. lia. }
  specialize (G _ _ (2 * a + s)%nat F ltac:(rewrite zseq_length; lia)). rewrite nth_zseq in G by lia.
  unfold Q in G. replace ((0 + Z.of_nat (2 * a + s)) / 2)%Z with (Z.of_nat a) in G.
  2:{ replace (0 + Z.of_nat (2 * a + s))%Z with (Z.of_nat s + Z.of_nat a * 2)%Z by lia. rewrite Z.div_add by lia. rewrite Z.div_small by lia. lia. }
  replace ((0 + Z.of_nat (2 * a + s)) mod 2)%Z with (Z.of_nat s) in G.
  2:{ replace (0 + Z.of_nat (2 * a + s))%Z with (Z.of_nat s + Z.of_nat a * 2)%Z by lia. rewrite Z_mod_plus_full. rewrite Z.mod_small by lia. lia. }
  rewrite Nat2Z.id in G. exact G.
Qed.
Lemma shows_through t sh nrb b f a u : shows t sh b f -> (forall us c, length us = length (spec_axes b) -> hom b c us = hom nrb c (lins a u us)) ->
  (forall idx, in_shape sh idx -> length (f idx) = length (spec_axes b)) -> shows t sh nrb (fun idx => lins a u (f idx)).
Proof.
  destruct t as [[x y] z]. unfold shows. intros [E1 [E2 [E3 H]]] Hh Hl. repeat (split; auto); destruct (H idx H0) as [H1 [H2 H3]];
    [rewrite H1|rewrite H2|rewrite H3]; unfold pt; rewrite !Hh by auto; reflexivity.
Qed.
Lemma spaced_at_length axs n idx : length idx = length axs -> length (spaced_at axs n idx) = length axs.
Proof. revert idx. induction axs; intros [|i idx] H; cbn in *; try lia; auto. Qed.
Lemma in_shape_length sh idx : in_shape sh idx -> length idx = length sh.
Proof. intros H. induction H; cbn; auto. Qed.
Lemma spec_axes_length nrb : length (spec_axes nrb) = length (n_axes nrb).
Proof. unfold spec_axes. apply map_length. Qed.
Lemma spec_axes_lrem b a nrb : n_axes b = lrem a (n_axes nrb) -> spec_axes b = lrem a (spec_axes nrb).
Proof. intros E. unfold spec_axes. rewrite E. apply map_lrem. Qed.
Lemma all_ends_lrem b a nrb : n_axes b = lrem a (n_axes nrb) -> all_ends nrb -> all_ends b.
Proof.
  unfold all_ends. intros E H. rewrite (spec_axes_lrem _ _ _ E). rewrite Forall_forall in *. intros A I. apply H.
  clear - I. revert a I. induction (spec_axes nrb) as [|B l IH]; intros [|a] I; cbn in *; auto. destruct I; eauto.
Qed.

(** The face (or edge) of one boundary. *)
Lemma sample_boundary nrb b n a u C : (2 <= n)%Z -> (a < length (n_axes nrb))%nat -> n_axes b = lrem a (n_axes nrb) ->
  (forall us c, length us = length (spec_axes b) -> hom b c us = hom nrb c (lins a u us)) ->
  shows (split3 C) (repeat n (length (n_axes b))) b (fun l => spaced_at (spec_axes b) n (rev l)) ->
  shows (split3 C) (repeat n (pred (length (n_axes nrb)))) nrb (fun l => lins a u (spaced_at (lrem a (spec_axes nrb)) n (rev l))).
Proof.
  intros Hn Ha EA Hh S. rewrite EA, lrem_length in S by auto. rewrite (spec_axes_lrem _ _ _ EA) in S.
  eapply shows_through; [exact S|exact Hh|]. intros idx I. apply in_shape_length in I. rewrite repeat_length in I.
  rewrite (spec_axes_lrem _ _ _ EA). apply spaced_at_length. rewrite rev_length, I, lrem_length, spec_axes_length by (rewrite spec_axes_length; auto). reflexivity.
Qed.

Theorem faces_spec nrb n t0 : wf_nurbs nrb -> all_ends nrb -> (2 <= n)%Z ->
  exists Cs, (let* bs := boundaries (N:=Rn) junk nrb in mapM (sample n) bs) = Ok Cs /\ length Cs = (2 * length (n_axes nrb))%nat /\
  forall a s, (a < length (n_axes nrb))%nat -> (s < 2)%nat ->
    shows (nth (2 * a + s) (map split3 Cs) t0) (repeat n (pred (length (n_axes nrb)))) nrb
      (fun l => lins a (side_end (spec_ax (get_axis nrb a)) (Z.of_nat s)) (spaced_at (lrem a (spec_axes nrb)) n (rev l))).
Proof.
  intros W HE Hn. destruct (boundaries_spec nrb nrb W HE) as [bs [Eb [Lb Hb]]]. rewrite Eb. cbn [bind].
  destruct (mapM_ok (sample n) (fun b C => shows (split3 C) (repeat n (length (n_axes b))) b (fun l => spaced_at (spec_axes b) n (rev l))) bs) as [Cs [E F]].
  { intros b Ib. apply (In_nth _ _ nrb) in Ib. destruct Ib as [k [Hk <-]]. apply sample_spec; auto.
    rewrite Lb in Hk. destruct (Hb (k / 2)%nat (k mod 2)%nat) as [Wb _].
    - apply Nat.div_lt_upper_bound; lia.
    - apply Nat.mod_upper_bound. lia.
    - rewrite <- Nat.div_mod in Wb by lia. exact Wb. }
  exists Cs. split; auto. pose proof (Forall2_len _ _ _ F) as Ln. split; [lia|]. intros a s Ha Hs.
  destruct (Hb a s Ha Hs) as [Wb [EA Hh]].
  assert (G : forall l l' k, Forall2 (fun b C => shows (split3 C) (repeat n (length (n_axes b))) b (fun l => spaced_at (spec_axes b) n (rev l))) l l' -> (k < length l)%nat ->
    exists C, nth k (map split3 l') t0 = split3 C /\ shows (split3 C) (repeat n (length (n_axes (nth k l nrb)))) (nth k l nrb) (fun ll => spaced_at (spec_axes (nth k l nrb)) n (rev ll))).
  { intros l l' k F2. revert k. induction F2; intros [|k] Hk; cbn in *; try lia; [eauto|]. apply IHF2. lia. }
  destruct (G _ _ (2 * a + s)%nat F ltac:(lia)) as [C [EC SC]]. rewrite EC. apply (sample_boundary nrb _ n a _ C Hn Ha EA Hh SC).
Qed.
End Plot.
