(** NURBS.remove: bookkeeping, error bound, inverse of NURBS.insert. *)
From Coq Require Import ZArith Reals List Lia Lra Bool.
From Verif Require Import Num Loop ModelBspline ModelBSp ModelNurbs ModelRemove Spec SumZ BPiece BLink ProofSpan BInsert BRep ProofInsert
  ProofRefine ProofRemove ProofRemove2 ProofRemove3 SpecNurbs ProofNet ProofCall ProofNurbs ProofMethods.
Import ListNotations.
Local Open Scope R_scope.

(** ** Positions in a reshaped array *)
Definition inb (sh idx : list Z) : Prop := Forall2 (fun s i => (0 <= i < s)%Z) sh idx.

Lemma flat_bound sh idx : inb sh idx -> (0 <= flat sh idx < zprod sh)%Z.
Proof. intros H. induction H as [|s i sh idx Hi H IH]; simpl; [lia|]. nia. Qed.
Lemma unflat_flat sh idx : inb sh idx -> unflat sh (flat sh idx) = idx.
Proof.
  intros H. induction H as [|s i sh idx Hi H IH]; simpl; auto. pose proof (flat_bound _ _ H).
  rewrite (Z.add_comm (i * zprod sh)), Z.div_add, Z.mod_add by lia.
  rewrite Z.div_small, Z.mod_small by lia. rewrite IH. reflexivity.
Qed.

Definition colOf (nrb : nurbs Rn) (a : nat) (rest : list Z) (c : Z) : Z := (flat (lrem a (n_shape nrb)) rest * n_comp nrb + c + 1)%Z.

Lemma colOf_bound nrb a rest c : inb (lrem a (n_shape nrb)) rest -> (0 <= c < n_comp nrb)%Z -> (1 <= colOf nrb a rest c <= n_cols nrb a)%Z.
Proof. intros H Hc. pose proof (flat_bound _ _ H). unfold colOf, n_cols. nia. Qed.
Lemma rolled_col nrb a i rest c : inb (lrem a (n_shape nrb)) rest -> (0 <= c < n_comp nrb)%Z ->
  rolled (N:=Rn) nrb a i (colOf nrb a rest c) = n_arr nrb (lins a i rest) c.
Proof.
  intros H Hc. unfold rolled, colOf. replace (flat (lrem a (n_shape nrb)) rest * n_comp nrb + c + 1 - 1)%Z with (c + flat (lrem a (n_shape nrb)) rest * n_comp nrb)%Z by lia.
  rewrite Z.div_add, Z.mod_add by lia. rewrite Z.div_small, Z.mod_small by lia. rewrite Z.add_0_l, unflat_flat by auto. reflexivity.
Qed.
Lemma unrolled_lins nrb a Q i rest c : (a <= length rest)%nat -> unrolled (N:=Rn) nrb a Q (lins a i rest) c = Q i (colOf nrb a rest c).
Proof. intros H. unfold unrolled, colOf. rewrite nth_lins, lrem_lins by auto. reflexivity. Qed.

Lemma inb_net nrb a rest : in_net (lrem a (spec_axes nrb)) rest <-> inb (lrem a (n_shape nrb)) rest.
Proof.
  unfold spec_axes, n_shape. rewrite <- !map_lrem. generalize (lrem a (n_axes nrb)) as l. clear. intros l. revert rest.
  induction l as [|A l IH]; intros rest; split; intros H; inversion H; subst; constructor; simpl in *; try lia; apply IH; auto.
Qed.

(** ** Sums of nearly equal nets *)
Lemma tsum_close axs : forall us P Q e, Forall wf_ax axs -> in_box axs us -> (forall idx, in_net axs idx -> Rabs (P idx - Q idx) <= e) ->
  Rabs (tsum axs P us - tsum axs Q us) <= e.
Proof.
  induction axs as [|A axs IH]; intros us P Q e HW HB H; inversion HB as [|? u ? us' Hu HB']; subst; inversion HW as [|? ? WA HW']; subst; simpl.
  - apply H. constructor.
  - change (Rabs (curve (x_n A) (x_p A) (x_U A) (fun i => tsum axs (fun idx => P (i :: idx)) us') u -
                  curve (x_n A) (x_p A) (x_U A) (fun i => tsum axs (fun idx => Q (i :: idx)) us') u) <= e).
    apply curve_close; [apply WA|auto|]. intros i Hi. apply IH; auto. intros idx Hx. apply H. constructor; auto.
Qed.

(** ** The tolerance *)
Lemma col_min_le n d (P : Z -> Z -> R) : (0 <= n)%Z -> forall i, (0 <= i <= n)%Z -> col_min (N:=Rn) n d P <= P i d.
Proof.
  intros Hn. unfold col_min.
  floop (fun k (m : R) => forall i, (0 <= i < k)%Z -> m <= P i d).
  - intros i Hi. replace i with 0%Z by lia. apply Rle_refl.
  - intros k m Hk H i Hi. rn. unfold Rltb. destruct (Rlt_dec (P k d) m) as [L|L].
    + destruct (Z.eq_dec i k) as [->|]; [apply Rle_refl|]. specialize (H i ltac:(lia)). lra.
    + destruct (Z.eq_dec i k) as [->|]; [lra|]. apply H. lia.
  - intros m H i Hi. apply H. lia.
Qed.
Lemma col_min_ge n d (P : Z -> Z -> R) b : (0 <= n)%Z -> (forall i, (0 <= i <= n)%Z -> b <= P i d) -> b <= col_min (N:=Rn) n d P.
Proof.
  intros Hn Hb. unfold col_min. floop (fun (k : Z) (m : R) => b <= m).
  - apply Hb. lia.
  - intros k m Hk H. rn. destruct (Rltb _ _); [apply Hb; lia|auto].
  - auto.
Qed.
Lemma row_max_nonneg n d (P : Z -> Z -> R) : (0 <= n)%Z -> 0 <= row_max (N:=Rn) sqrt n d P.
Proof.
  intros Hn. unfold row_max. floop (fun (k : Z) (m : R) => 0 <= m).
  - apply sqrt_pos.
  - intros k m Hk H. rn. destruct (Rltb _ _); [apply sqrt_pos|auto].
  - auto.
Qed.
Lemma tol_nonneg n d P dev : (0 <= n)%Z -> 0 <= dev -> (forall i, (0 <= i <= n)%Z -> 0 <= P i d) -> 0 <= remove_tol (N:=Rn) sqrt n d P dev.
Proof.
  intros Hn Hd HP. unfold remove_tol. rn. pose proof (row_max_nonneg n d P Hn). pose proof (col_min_ge n d P 0 Hn HP) as H1.
  cbn in H, H1. apply Rmult_le_pos; [apply Rmult_le_pos; auto|]. apply Rlt_le, Rinv_0_lt_compat. lra.
Qed.
Lemma tol_neg n d P dev : (0 <= n)%Z -> 0 < dev -> (exists i, (0 <= i <= n)%Z /\ P i d < 0) -> remove_tol (N:=Rn) sqrt n d P dev < 0.
Proof.
  intros Hn Hd (i & Hi & HP). unfold remove_tol. rn. pose proof (row_max_nonneg n d P Hn). pose proof (col_min_le n d P Hn i Hi) as H1.
  cbn in H, H1. assert (0 < / (1 + row_max (N:=Rn) sqrt n d P)) by (apply Rinv_0_lt_compat; lra).
  unfold Rdiv. assert (dev * col_min (N:=Rn) n d P < 0) by nra. nra.
Qed.
Lemma row_norm_ge d (P : Z -> Z -> R) i q : (1 <= q < d)%Z -> Rabs (P i q) <= row_norm (N:=Rn) sqrt d P i.
Proof.
  intros Hq. unfold row_norm. rewrite <- sqrt_Rsqr_abs. apply sqrt_le_1_alt.
  floop (fun (k : Z) (s : R) => 0 <= s /\ ((q < k)%Z -> Rsqr (P i q) <= s)).
  - split; [apply Rle_refl|]. intros; lia.
  - intros k s Hk [H1 H2]. rn. pose proof (Rle_0_sqr (P i k)) as H3. unfold Rsqr in *. split; [lra|]. intros Hl.
    destruct (Z.eq_dec q k) as [->|]; [lra|]. specialize (H2 ltac:(lia)). lra.
  - intros s [_ H]. apply H. lia.
Qed.
Lemma row_max_ge n d (P : Z -> Z -> R) i q : (0 <= i <= n)%Z -> (1 <= q < d)%Z -> Rabs (P i q) <= row_max (N:=Rn) sqrt n d P.
Proof.
  intros Hi Hq. pose proof (row_norm_ge d P i q Hq) as H0. unfold row_max.
  floop (fun (k : Z) (m : R) => (i < k)%Z -> Rabs (P i q) <= m).
  - intros Hl. replace i with 0%Z in H0 |- * by lia. exact H0.
  - intros k m Hk H Hl. rn. unfold Rltb. destruct (Rlt_dec m (row_norm (N:=Rn) sqrt d P k)) as [L|L].
    + destruct (Z.eq_dec i k) as [<-|]; [exact H0|]. specialize (H ltac:(lia)). change (T Rn) with R in *. lra.
    + destruct (Z.eq_dec i k) as [<-|]; [change (T Rn) with R in *; lra|]. apply H. lia.
  - intros m H. apply H. lia.
Qed.
Lemma tol_le n d P dev M i q : (0 <= n)%Z -> 0 <= dev -> (forall i, (0 <= i <= n)%Z -> P i d <= M) -> (0 <= i <= n)%Z -> (1 <= q < d)%Z ->
  0 <= remove_tol (N:=Rn) sqrt n d P dev -> remove_tol (N:=Rn) sqrt n d P dev <= dev * M / (1 + Rabs (P i q)).
Proof.
  intros Hn Hd HP Hi Hq H0. pose proof (row_max_ge n d P i q Hi Hq) as HR. pose proof (Rabs_pos (P i q)) as HQ. pose proof (col_min_le n d P Hn 0%Z ltac:(lia)) as H1. specialize (HP 0%Z ltac:(lia)).
  unfold remove_tol in *. rn. cbn in HR, H1.
  set (c := col_min (N:=Rn) n d P) in *. set (r := row_max (N:=Rn) sqrt n d P) in *. change (T Rn) with R in *.
  assert (Hv : 0 < / (1 + r) <= / (1 + Rabs (P i q))). { split; [apply Rinv_0_lt_compat; lra|]. apply Rinv_le_contravar; lra. }
  unfold Rdiv in *. assert (Hc : 0 <= dev * c). { destruct (Rle_lt_dec 0 (dev * c)); auto. assert (dev * c * / (1 + r) < 0) by nra. lra. }
  apply Rmult_le_compat; [exact Hc|apply Rlt_le; apply Hv| |apply Hv]. apply Rmult_le_compat_l; auto. lra.
Qed.

(** ** Bookkeeping and error bound *)
(** The knots with t copies of u fewer. *)
Definition reduced (n p t : Z) (U : Z -> R) (u : R) (V : Z -> R) : Prop :=
  nondecreasing V 0 (n - t + p + 1) /\
  forall v, multiplicity V 0 (n - t + p + 1) v = (multiplicity U 0 (n + p + 1) v - (if Req_EM_T v u then t else 0))%Z.

Lemma spec_ax_shrink (A : axis Rn) t V : spec_ax (mkAxis (a_size A - t) (a_len A - t) V) = mkAx (a_size A - 1 - t) (a_deg A) V.
Proof. unfold spec_ax, a_deg. simpl. f_equal; lia. Qed.

(** The last column of the matrix: last component at the last position of all other axes. *)
Lemma last_col nrb a : wf_nurbs nrb -> (a < length (n_axes nrb))%nat ->
  exists rest, in_net (lrem a (spec_axes nrb)) rest /\ colOf nrb a rest (n_comp nrb - 1) = n_cols nrb a.
Proof.
  intros [_ [Wf Wc]] Ha. exists (map x_n (lrem a (spec_axes nrb))). unfold colOf, n_cols.
  assert (Hf : Forall (fun A => (0 <= x_n A)%Z) (lrem a (spec_axes nrb))).
  { apply Forall_lrem. eapply Forall_impl; [|exact Wf]. intros A [Hp Hw]. pose proof (wf_n _ _ _ Hw). lia. }
  assert (E : lrem a (n_shape nrb) = map (fun A => (x_n A + 1)%Z) (lrem a (spec_axes nrb))).
  { unfold n_shape, spec_axes. rewrite <- !map_lrem, map_map. apply map_ext. intros. simpl. lia. }
  rewrite E. split.
  - clear - Hf. induction Hf; simpl; constructor; auto. lia.
  - assert (G : forall l, flat (map (fun A => (x_n A + 1)%Z) l) (map x_n l) = (zprod (map (fun A => (x_n A + 1)%Z) l) - 1)%Z).
    { induction l as [|A l IH]; simpl; auto. rewrite IH. lia. }
    rewrite G. lia.
Qed.

Theorem remove_spec nrb ax a u times dev junk2 nrb' : wf_nurbs nrb -> py_axis (n_dim nrb) ax = Ok a ->
  let A := get_axis nrb a in let n := (a_size A - 1)%Z in let p := a_deg A in let U := a_knots A in
  let mu := multiplicity U 0 (n + p + 1) u in
  separated U 0 (n + p + 1) u -> (mu <= p + 1)%Z ->
  remove (N:=Rn) sqrt junk2 nrb ax u times dev = Ok nrb' ->
  in_domain n p U u /\
  let most := Z.min (match times with Some t => t | None => Z.min mu p end) (Z.min mu p) in (0 <= most)%Z /\
  let TOL := remove_tol (N:=Rn) sqrt n (n_cols nrb a) (rolled nrb a) dev in
  exists t V, (0 <= t <= most)%Z /\ ((0 < t)%Z -> 0 <= TOL /\ U p < u < U (n + 1)%Z) /\
    wf_nurbs nrb' /\ n_comp nrb' = n_comp nrb /\ Forall2 same_dom (spec_axes nrb) (spec_axes nrb') /\
    n_axes nrb' = lset a (mkAxis (a_size A - t) (a_len A - t) V) (n_axes nrb) /\ reduced n p t U u V /\
    (t = 0%Z -> V = U /\ forall idx c, in_net (spec_axes nrb) idx -> (0 <= c < n_comp nrb)%Z -> n_arr nrb' idx c = n_arr nrb idx c) /\
    forall us c, in_box (spec_axes nrb) us -> (0 <= c < n_comp nrb)%Z -> Rabs (hom nrb' c us - hom nrb c us) <= IZR t * TOL.
Proof.
  intros WN Ea A n p U mu Hsep Hmu ER.
  pose proof (py_axis_dim _ _ _ Ea) as Ha. pose proof (wf_get_axis _ _ WN Ha) as WA. fold A in WA.
  assert (Wk : wf_knots n p U) by apply WA. assert (Wp : (1 <= p)%Z) by apply WA.
  pose proof (wf_n _ _ _ Wk) as Hn.
  unfold remove in ER. rewrite Ea in ER. cbn [bind] in ER. fold A in ER. fold p U in ER.
  unfold assert, check in ER. change (a_lo A) with (U p) in ER. rewrite a_hi_eq in ER. fold n U in ER.
  destruct (nleb Rn (U p) u) eqn:E1; [|discriminate]. cbn [bind] in ER.
  destruct (nleb Rn u (U (n + 1)%Z)) eqn:E2; [|discriminate]. cbn [bind] in ER.
  apply Rleb_true in E1. apply Rleb_true in E2. assert (D : in_domain n p U u) by (split; assumption).
  split; [exact D|].
  assert (EF := py_FindMult_eq A u WA). fold n p U in EF. rewrite EF in ER. cbn [bind] in ER.
  rewrite (FindMult_min n p U u Wk D Hsep) in ER. fold mu in ER.
  pose proof (multiplicity_nonneg U 0 (n + p + 1) u) as Hm0. fold mu in Hm0.
  set (most := Z.min (match times with Some t => t | None => Z.min mu p end) (Z.min mu p)) in *.
  destruct (Z.leb_spec 0 most) as [Hmost|]; [|discriminate]. cbn [bind] in ER. split; auto.
  set (TOL := remove_tol (N:=Rn) sqrt n (n_cols nrb a) (rolled nrb a) dev) in *. cbv zeta.
  assert (Triv : exists t V, (0 <= t <= most)%Z /\ ((0 < t)%Z -> 0 <= TOL /\ U p < u < U (n + 1)%Z) /\
    wf_nurbs nrb /\ n_comp nrb = n_comp nrb /\ Forall2 same_dom (spec_axes nrb) (spec_axes nrb) /\
    n_axes nrb = lset a (mkAxis (a_size A - t) (a_len A - t) V) (n_axes nrb) /\ reduced n p t U u V /\
    (t = 0%Z -> V = U /\ forall idx c, in_net (spec_axes nrb) idx -> (0 <= c < n_comp nrb)%Z -> n_arr nrb idx c = n_arr nrb idx c) /\
    forall us c, in_box (spec_axes nrb) us -> (0 <= c < n_comp nrb)%Z -> Rabs (hom nrb c us - hom nrb c us) <= IZR t * TOL).
  { exists 0%Z, U. split; [lia|]. split; [lia|]. split; auto. split; auto. split; [apply Forall2_refl, same_dom_refl|]. split; [|split; [|split; auto]].
    - rewrite !Z.sub_0_r. unfold U. replace (mkAxis (a_size A) (a_len A) (a_knots A)) with A by (destruct A; reflexivity).
      unfold A, get_axis. rewrite lset_nth. reflexivity.
    - unfold reduced. rewrite Z.sub_0_r. split; [apply Wk|]. intros v. destruct (Req_EM_T v u); lia.
    - intros us c _ _. apply diff0; auto. lra. }
  destruct (Z.eqb_spec most 0) as [Et|Et]; [injection ER as <-; exact Triv|].
  destruct (nleb Rn u (U p)) eqn:E3; [injection ER as <-; exact Triv|].
  destruct (nleb Rn (U (n + 1)%Z) u) eqn:E4; [injection ER as <-; exact Triv|]. clear Triv.
  apply Rleb_false in E3. apply Rleb_false in E4. assert (Hi : U p < u < U (n + 1)%Z) by (split; assumption).
  destruct (Z.leb_spec 1 (n_cols nrb a)) as [Hd|]; [|discriminate]. cbn [bind] in ER.
  destruct (Z.leb_spec 1 n); [|discriminate]. cbn [bind] in ER. destruct (Z.leb_spec 1 p); [|discriminate]. cbn [bind] in ER.
  destruct (_ && _) in ER; [|discriminate]. cbn [bind] in ER.
  destruct (Z.leb_spec most p); [|discriminate]. cbn [andb bind] in ER.
  assert (Hmm : (0 <= most <= mu)%Z) by (split; [exact Hmost|]; apply Z.le_trans with (Z.min mu p); [apply Z.le_min_r|apply Z.le_min_l]).
  destruct (bsp_RemoveKnot_gen (n_cols nrb a) n p U (rolled nrb a) u most TOL junk2 Wk Wp Hi Hsep Hmu Hmm)
    as (V & Q & t & EK & Ht & Hz & HT & WV & EVp & EVn & HM & HC).
  rewrite EK in ER. injection ER as <-.
  exists t, V. split; [exact Ht|]. split; [auto|].
  destruct WN as [Wl [Wf Wc]]. cbn [n_comp n_axes n_arr].
  assert (WA' : wf_ax (mkAx (n - t) p V)) by (split; simpl; auto).
  assert (SD : same_dom (spec_ax A) (mkAx (n - t) p V)) by (split; simpl; fold n p U; auto).
  assert (Esp : spec_axes (mkNurbs (lset a (mkAxis (a_size A - t) (a_len A - t) V) (n_axes nrb)) (n_comp nrb) (unrolled nrb a Q)) = lset a (mkAx (n - t) p V) (spec_axes nrb)).
  { unfold spec_axes. cbn [n_axes]. rewrite map_lset, spec_ax_shrink. reflexivity. }
  assert (Wf' : Forall wf_ax (lset a (mkAx (n - t) p V) (spec_axes nrb))) by (apply Forall_lset; auto).
  assert (Hl : (a < length (spec_axes nrb))%nat) by (unfold spec_axes; rewrite map_length; auto).
  split; [|split; [reflexivity|split; [|split; [reflexivity|split; [|split]]]]].
  - split; [|split]; cbn [n_axes n_comp]; auto.
    + rewrite lset_length. auto.
    + rewrite Esp. auto.
  - rewrite Esp. rewrite <- (lset_nth a (spec_ax axis0) (spec_axes nrb)) at 1. apply Forall2_lset.
    + apply Forall2_refl, same_dom_refl.
    + rewrite nth_spec_axes. exact SD.
  - split; [apply WV|exact HM].
  - intros Et0. destruct (Hz Et0) as [-> ->]. split; auto. intros idx c Hx Hc.
    pose proof (in_net_length _ _ Hx) as HL.
    rewrite <- (lins_lrem a 0%Z idx) by lia. rewrite unrolled_lins by (rewrite lrem_length by lia; lia).
    rewrite rolled_col; auto. apply inb_net. apply Forall2_lrem. auto.
  - intros us c HB Hc. unfold hom. rewrite Esp. cbn [n_arr].
    pose proof (in_box_length _ _ HB) as HL.
    rewrite (tsum_axis a (lset a (mkAx (n - t) p V) (spec_axes nrb)) _ us (spec_ax axis0)) by (rewrite lset_length; auto).
    rewrite (tsum_axis a (spec_axes nrb) _ us (spec_ax axis0)) by auto.
    rewrite lrem_lset, nth_lset by auto. cbv zeta. rewrite nth_spec_axes.
    apply tsum_close.
    + apply Forall_lrem. auto.
    + apply Forall2_lrem. auto.
    + intros rest Hr. pose proof (in_net_length _ _ Hr) as HLr. rewrite lrem_length in HLr by auto.
      assert (Hr' := proj1 (inb_net _ _ _) Hr).
      cbn [x_n x_p x_U spec_ax]. fold A n p U.
      assert (HBx : in_domain n p U (nth a us 0)).
      { pose proof (Forall2_nth _ _ _ a (spec_ax axis0) 0 HB Hl) as X. rewrite nth_spec_axes in X. exact X. }
      eapply Rle_trans; [right|exact (HC (nth a us 0) (colOf nrb a rest c) HBx (colOf_bound _ _ _ _ Hr' Hc))].
      f_equal. f_equal.
      * apply sumZ_ext. intros i Hi'. f_equal. apply unrolled_lins. lia.
      * apply sumZ_ext. intros i Hi'. f_equal. symmetry. apply rolled_col; auto.
Qed.

(** ** When remove returns *)
Theorem remove_ok nrb ax a u times dev junk2 : wf_nurbs nrb -> py_axis (n_dim nrb) ax = Ok a ->
  let A := get_axis nrb a in let n := (a_size A - 1)%Z in let p := a_deg A in let U := a_knots A in
  in_domain n p U u -> match times with Some t => (0 <= t)%Z | None => True end ->
  exists nrb', remove (N:=Rn) sqrt junk2 nrb ax u times dev = Ok nrb'.
Proof.
  intros WN Ea A n p U D Ht.
  pose proof (py_axis_dim _ _ _ Ea) as Ha. pose proof (wf_get_axis _ _ WN Ha) as WA. fold A in WA.
  assert (Wk : wf_knots n p U) by apply WA. assert (Wp : (1 <= p)%Z) by apply WA.
  pose proof (wf_n _ _ _ Wk) as Hn. destruct D as [D1 D2].
  unfold remove. rewrite Ea. cbn [bind]. fold A. fold p U.
  unfold assert, check. change (a_lo A) with (U p). rewrite a_hi_eq. fold n U.
  assert (L1 : nleb Rn (U p) u = true) by (apply Rleb_true; exact D1). assert (L2 : nleb Rn u (U (n + 1)%Z) = true) by (apply Rleb_true; exact D2).
  rewrite L1, L2. cbn [bind].
  assert (EF := py_FindMult_eq A u WA). fold n p U in EF. rewrite EF. cbn [bind].
  set (fm := FindMult (N:=Rn) (FindSpan (N:=Rn) n p u U) u p U).
  assert (Hfm : (0 <= fm)%Z).
  { unfold fm, FindMult. floop (fun (k : Z) (s : Z) => (0 <= s)%Z); [lia| |auto]. intros i s Hi Hs. destruct (nltb _ _ _); lia. }
  set (most := Z.min (match times with Some t => t | None => Z.min fm p end) (Z.min fm p)).
  assert (Hm : (0 <= most <= p)%Z) by (unfold most; destruct times; lia).
  destruct (Z.leb_spec 0 most); [|lia]. cbn [bind].
  destruct (most =? 0)%Z; [eexists; reflexivity|].
  destruct (nleb Rn u (U p)); [eexists; reflexivity|]. destruct (nleb Rn (U (n + 1)%Z) u); [eexists; reflexivity|].
  destruct (last_col nrb a WN Ha) as (rest & Hr & Ec). destruct WN as [_ [_ Wc]].
  pose proof (colOf_bound nrb a rest (n_comp nrb - 1) (proj1 (inb_net _ _ _) Hr) ltac:(lia)) as Hb. rewrite Ec in Hb.
  destruct (Z.leb_spec 1 (n_cols nrb a)); [|lia]. destruct (Z.leb_spec 1 n); [|lia]. destruct (Z.leb_spec 1 p); [|lia]. cbn [bind andb].
  destruct (Z.leb_spec most p); [|lia]. cbn [bind].
  destruct (bsp_RemoveKnot _ _ _ _ _ _ _ _ _) as [[V Q] t]. eexists. reflexivity.
Qed.

(** ** remove undoes insert *)
Definition same_data (x y : nurbs Rn) : Prop :=
  Forall2 (fun A B => a_size B = a_size A /\ a_len B = a_len A /\ forall i, (0 <= i < a_len A)%Z -> a_knots B i = a_knots A i) (n_axes x) (n_axes y) /\
  n_comp y = n_comp x /\
  forall idx c, in_net (spec_axes x) idx -> (0 <= c < n_comp x)%Z -> n_arr y idx c = n_arr x idx c.

Lemma same_data_refl x : same_data x x.
Proof. split; [|split]; auto. apply Forall2_refl. auto. Qed.

Definition ins_obj (junk : Z -> R) (nrb : nurbs Rn) (a : nat) (u : R) (r : Z) : nurbs Rn :=
  let A := get_axis nrb a in let n := (a_size A - 1)%Z in let p := a_deg A in let U := a_knots A in
  mkNurbs (lset a (mkAxis (a_size A + r) (a_len A + r) (fst (bsp_InsertKnot (N:=Rn) n p U (fun _ => 0) u r junk))) (n_axes nrb))
          (n_comp nrb) (along (N:=Rn) a (fun P => snd (bsp_InsertKnot (N:=Rn) n p U P u r junk)) (n_arr nrb)).

Lemma ins_obj_0 junk nrb a u : (a < length (n_axes nrb))%nat -> 
  n_axes (ins_obj junk nrb a u 0) = n_axes nrb /\ forall idx c, n_arr (ins_obj junk nrb a u 0) idx c = n_arr nrb idx c.
Proof.
  intros Ha. unfold ins_obj. cbn [n_axes n_arr]. split.
  - rewrite !Z.add_0_r. unfold bsp_InsertKnot. cbn [Z.eqb fst]. 
    replace (mkAxis (a_size (get_axis nrb a)) (a_len (get_axis nrb a)) (a_knots (get_axis nrb a))) with (get_axis nrb a) by (destruct (get_axis nrb a); reflexivity).
    unfold get_axis. rewrite lset_nth. reflexivity.
  - intros idx c. unfold along, bsp_InsertKnot. cbn [Z.eqb snd]. rewrite lset_nth. reflexivity.
Qed.

Lemma insert_val nrb ax a u r junk : wf_nurbs nrb -> py_axis (n_dim nrb) ax = Ok a ->
  let A := get_axis nrb a in let n := (a_size A - 1)%Z in let p := a_deg A in let U := a_knots A in
  separated U 0 (n + p + 1) u -> in_domain n p U u ->
  (0 <= r)%Z -> (Z.min (multiplicity U 0 (n + p + 1) u) p + r <= p)%Z ->
  insert (N:=Rn) junk nrb ax u (Some r) = Ok (if (r =? 0)%Z then nrb else ins_obj junk nrb a u r).
Proof.
  intros WN Ea A n p U Hsep D Hr Hm.
  pose proof (py_axis_dim _ _ _ Ea) as Ha. pose proof (wf_get_axis _ _ WN Ha) as WA. fold A in WA.
  assert (Wk : wf_knots n p U) by apply WA. assert (Wp : (1 <= p)%Z) by apply WA.
  pose proof (wf_n _ _ _ Wk) as Hn.
  unfold insert. rewrite Ea. cbn [bind]. fold A. fold p U.
  unfold assert, check. change (a_lo A) with (U p). rewrite a_hi_eq. fold n U.
  assert (L1 : nleb Rn (U p) u = true) by (apply Rleb_true; apply D). assert (L2 : nleb Rn u (U (n + 1)%Z) = true) by (apply Rleb_true; apply D).
  rewrite L1, L2. cbn [bind].
  assert (EF := py_FindMult_eq A u WA). fold n p U in EF. rewrite EF. cbn [bind].
  rewrite (FindMult_min n p U u Wk D Hsep).
  pose proof (multiplicity_nonneg U 0 (n + p + 1) u) as Hm0.
  match goal with |- context [(?x <=? p)%Z] => destruct (Z.leb_spec x p) as [_|G]; [|change (p < r + Z.min (multiplicity U 0 (n + p + 1) u) p)%Z in G; lia] end.
  cbn [bind]. destruct (r =? 0)%Z; [reflexivity|].
  destruct (Z.leb_spec 1 n); [|lia]. destruct (Z.leb_spec 1 p); [|lia]. cbn [bind andb].
  destruct (Z.leb_spec 0 r); [|lia]. destruct (Z.leb_spec r p); [|lia]. cbn [bind andb]. reflexivity.
Qed.

Lemma iQ_nonneg n p U (P : Z -> R) k s u j : (0 <= s)%Z -> (1 <= p)%Z -> (p <= k - s)%Z -> (k <= n)%Z -> (s + j <= p)%Z ->
  (forall i, (k - s + 1 <= i <= k)%Z -> U i = u) -> (forall i, (0 <= i <= k - s)%Z -> U i < u) -> (forall i, (k + 1 <= i <= n + p + 1)%Z -> u < U i) ->
  (forall i, (0 <= i <= n)%Z -> 0 <= P i) -> (0 <= j)%Z -> forall i, (0 <= i <= n + j)%Z -> 0 <= iQ U P k p u (k - s + 1) j i.
Proof.
  intros Hs Hp Hks Hk Hsj Hb Hl Hg HP Hj. 
  replace j with (Z.of_nat (Z.to_nat j)) in * by lia. generalize dependent (Z.to_nat j). clear j.
  induction n0 as [|j IH]; intros Hsj Hj i Hi.
  - change (Z.of_nat 0) with 0%Z. rewrite iQ_0. apply HP. lia.
  - specialize (IH ltac:(lia) ltac:(lia)).
    replace (Z.of_nat j) with (Z.of_nat (Datatypes.S j) - 1)%Z in IH by lia. set (J := Z.of_nat (Datatypes.S j)) in *.
    destruct (Z.lt_ge_cases i (k - p + J)) as [H1|H1]; [|destruct (Z.le_gt_cases i (k - s)) as [H2|H2]].
    + rewrite (iQ_low U P k s p u) by (auto; try lia; intros; apply Hl; lia). apply IH. lia.
    + rewrite (iQ_mid U P k s p u) by (auto; lia). assert (L1 : U i < u) by (apply Hl; lia). assert (L2 : u < U (i + p + 1 - J)%Z) by (apply Hg; lia).
      assert (Hc : 0 <= (u - U i) / (U (i + p + 1 - J)%Z - U i) <= 1).
      { split; [apply Rlt_le, Rdiv_lt_0_compat; lra|]. apply (Rmult_le_reg_r (U (i + p + 1 - J)%Z - U i)); [lra|].
        unfold Rdiv. rewrite Rmult_assoc, Rinv_l by lra. lra. }
      pose proof (IH i ltac:(lia)). pose proof (IH (i - 1)%Z ltac:(lia)). nra.
    + rewrite (iQ_high U P k s p u) by (auto; lia). apply IH. lia.
Qed.

Lemma unflat_length sh : forall q, length (unflat sh q) = length sh.
Proof. induction sh; intros q; simpl; auto. Qed.

Theorem remove_insert nrb ax a u r num dev junk junk2 nrb1 : wf_nurbs nrb -> py_axis (n_dim nrb) ax = Ok a ->
  let A := get_axis nrb a in let n := (a_size A - 1)%Z in let p := a_deg A in let U := a_knots A in
  separated U 0 (n + p + 1) u -> U p < u < U (n + 1)%Z ->
  insert (N:=Rn) junk nrb ax u (Some r) = Ok nrb1 -> (0 <= num <= r)%Z -> 0 <= dev ->
  (forall idx, in_net (spec_axes nrb) idx -> 0 <= n_arr nrb idx (n_comp nrb - 1)%Z) ->
  exists nrb2 nrb3, remove (N:=Rn) sqrt junk2 nrb1 ax u (Some num) dev = Ok nrb2 /\
    insert (N:=Rn) junk nrb ax u (Some (r - num)%Z) = Ok nrb3 /\ same_data nrb3 nrb2.
Proof.
  intros WN Ea A n p U Hsep Hi EI Hnum Hdev Hpos.
  assert (D : in_domain n p U u) by (unfold in_domain; lra).
  destruct (insert_spec nrb ax a u (Some r) junk nrb1 WN Ea Hsep (or_introl Hi) EI) as (_ & Hr0 & Hmr & PR & _).
  fold A n p U in Hmr.
  pose proof (py_axis_dim _ _ _ Ea) as Ha. pose proof (wf_get_axis _ _ WN Ha) as WA. fold A in WA.
  assert (Wk : wf_knots n p U) by apply WA. assert (Wp : (1 <= p)%Z) by apply WA.
  pose proof (wf_n _ _ _ Wk) as Hn. pose proof (multiplicity_nonneg U 0 (n + p + 1) u) as Hm0.
  rewrite (insert_val nrb ax a u (r - num) junk WN Ea Hsep D ltac:(lia) ltac:(fold A n p U; lia)).
  rewrite (insert_val nrb ax a u r junk WN Ea Hsep D ltac:(lia) ltac:(fold A n p U; lia)) in EI.
  destruct (Z.eqb_spec r 0) as [Er|Er].
  { injection EI as <-. assert (num = 0%Z) as -> by lia. subst r. exists nrb, nrb. split; [|split; [reflexivity|apply same_data_refl]].
    unfold remove. rewrite Ea. cbn [bind]. fold A p U. unfold assert, check. change (a_lo A) with (U p). rewrite a_hi_eq. fold n U.
    assert (L1 : nleb Rn (U p) u = true) by (apply Rleb_true; apply D). assert (L2 : nleb Rn u (U (n + 1)%Z) = true) by (apply Rleb_true; apply D).
    rewrite L1, L2. cbn [bind]. rewrite (py_FindMult_eq A u WA). cbn [bind]. fold n p U. rewrite (FindMult_min n p U u Wk D Hsep).
    match goal with |- context [(0 <=? ?x)%Z] => assert (E0 : x = 0%Z) by (change (Z.min 0 (Z.min (multiplicity U 0 (n + p + 1) u) p) = 0)%Z; lia); rewrite E0 end.
    reflexivity. }
  assert (E1 : ins_obj junk nrb a u r = nrb1) by congruence. clear EI. subst nrb1.
  pose proof (pr_wf _ _ PR) as WN1.
  assert (Hms : (multiplicity U 0 (n + p + 1) u + r <= p)%Z) by lia.
  destruct (interior n p U u Wk Hi Hsep ltac:(lia)) as (Em & HK & HS & HKS & HuK & Hb & Hl & Hg). cbv zeta in *.
  set (K := FindSpan (N:=Rn) n p u U) in *. set (S := multiplicity U 0 (n + p + 1) u) in *.
  assert (Eins : forall j P', (0 <= j <= r)%Z -> (forall i, (0 <= i <= n + p + 1 + j)%Z -> fst (bsp_InsertKnot (N:=Rn) n p U P' u j junk) i = insV U K u j i) /\
     (forall i, (0 <= i <= n + j)%Z -> snd (bsp_InsertKnot (N:=Rn) n p U P' u j junk) i = iQ U P' K p u (K - S + 1) j i)).
  { intros j P' Hj. unfold bsp_InsertKnot. destruct (Z.eqb_spec j 0) as [->|].
    - split; intros; [rewrite insV_0|rewrite iQ_0]; reflexivity.
    - unfold FindSpanMult. fold K. cbv zeta. cbn [fst snd].
      match goal with |- context [InsertKnot _ _ _ _ _ _ ?x _ _] => replace x with S by (symmetry; exact Em) end.
      split; intros i Hx.
      + apply InsertKnot_V_spec; lia.
      + unfold InsertKnot. cbn [snd]. apply InsertKnot_Q_spec; auto; try lia. intros y Hy. apply Hl. lia. }
  set (nrb1 := ins_obj junk nrb a u r) in *.
  set (V := fst (bsp_InsertKnot (N:=Rn) n p U (fun _ => 0) u r junk)).
  assert (EV : forall i, (0 <= i <= n + p + 1 + r)%Z -> V i = insV U K u r i) by (intros i Hx; unfold V; apply Eins; lia).
  set (A1 := mkAxis (a_size A + r) (a_len A + r) V : axis Rn).
  assert (EA1 : get_axis nrb1 a = A1) by (unfold get_axis, nrb1, ins_obj; cbn [n_axes]; rewrite nth_lset by auto; reflexivity).
  assert (Edim : n_dim nrb1 = n_dim nrb) by (unfold n_dim, nrb1, ins_obj; cbn [n_axes]; rewrite lset_length; reflexivity).
  assert (WA1 : wf_ax (spec_ax A1)) by (rewrite <- EA1; apply wf_get_axis; auto; unfold nrb1, ins_obj; cbn [n_axes]; rewrite lset_length; auto).
  assert (Ed1 : a_deg A1 = p) by (unfold A1; apply a_deg_grow).
  assert (Es1 : (a_size A1 - 1 = n + r)%Z) by (unfold A1, n; cbn [a_size]; lia).
  assert (WV : wf_knots (n + r) p V) by (destruct WA1 as [_ WA1]; cbn [x_n x_p x_U spec_ax] in WA1; rewrite Ed1, Es1 in WA1; exact WA1).
  assert (EVp : V p = U p) by (rewrite EV by lia; unfold insV; lcase p K; reflexivity).
  assert (EVn : V (n + r + 1)%Z = U (n + 1)%Z) by (rewrite EV by lia; unfold insV; lcase (n + r + 1)%Z K; lcase (n + r + 1)%Z (K + r)%Z; f_equal; lia).
  assert (Emv : multiplicity V 0 (n + r + p + 1) u = (S + r)%Z).
  { rewrite (multiplicity_ext V (insV U K u r)) by (intros; apply EV; lia). replace (n + r + p + 1)%Z with (n + p + 1 + r)%Z by lia.
    rewrite multiplicity_insV by lia. destruct (Req_EM_T u u); [reflexivity|congruence]. }
  assert (Hsv : separated V 0 (n + r + p + 1) u).
  { intros j Hj. rewrite EV by lia. unfold insV. lcase j K; [apply Hsep; lia|]. lcase j (K + r)%Z; [auto|apply Hsep; lia]. }
  assert (DV : in_domain (n + r) p V u) by (unfold in_domain; rewrite EVp, EVn; exact D).
  assert (Esh : lrem a (n_shape nrb1) = lrem a (n_shape nrb)) by (unfold n_shape, nrb1, ins_obj; cbn [n_axes]; rewrite map_lset, lrem_lset; reflexivity).
  assert (Hlr : (a <= length (lrem a (n_shape nrb)))%nat) by (unfold n_shape; rewrite lrem_length; rewrite map_length; lia).
  assert (Erl : forall i q, rolled (N:=Rn) nrb1 a i q = snd (bsp_InsertKnot (N:=Rn) n p U (fun j => rolled (N:=Rn) nrb a j q) u r junk) i).
  { intros i q. unfold rolled at 1. rewrite Esh. unfold nrb1, ins_obj. cbn [n_comp n_arr]. unfold along.
    rewrite nth_lins by (rewrite unflat_length; auto). fold A n p U. f_equal. f_equal.
    apply FunctionalExtensionality.functional_extensionality. intros j. rewrite lset_lins by (rewrite unflat_length; auto). reflexivity. }
  set (d := n_cols nrb1 a). set (TOL := remove_tol (N:=Rn) sqrt (n + r) d (rolled nrb1 a) dev).
  assert (HTOL : 0 <= TOL).
  { apply tol_nonneg; auto; [lia|]. intros i Hx. rewrite Erl.
    assert (Ed : d = n_cols nrb a) by (unfold d, n_cols; rewrite Esh; reflexivity). rewrite Ed.
    destruct (last_col nrb a WN Ha) as (rest & Hr & <-).
    destruct (Eins r (fun j => rolled nrb a j (colOf nrb a rest (n_comp nrb - 1))) ltac:(lia)) as [_ ->]; [|lia].
    apply (iQ_nonneg n p U _ K S u r); auto; try lia. intros j Hj.
    destruct WN as [_ [_ Wc]]. rewrite rolled_col by (auto; try lia; apply inb_net; auto). apply Hpos.
    assert (Ex : spec_axes nrb = lins a (spec_ax A) (lrem a (spec_axes nrb))).
    { unfold A. rewrite <- nth_spec_axes. symmetry. apply lins_lrem. unfold spec_axes. rewrite map_length. auto. }
    rewrite Ex. apply Forall2_lins; auto. }
  destruct (Z.eq_dec num 0) as [->|Hnz].
  { rewrite Z.sub_0_r. destruct (Z.eqb_spec r 0); [lia|]. exists nrb1, nrb1. split; [|split; [reflexivity|apply same_data_refl]].
    unfold remove. rewrite Edim, Ea. cbn [bind]. rewrite EA1. unfold assert, check. rewrite a_hi_eq. unfold a_lo. rewrite Ed1, Es1. cbn [a_knots A1].
    assert (L1 : nleb Rn (V p) u = true) by (apply Rleb_true; apply DV). assert (L2 : nleb Rn u (V (n + r + 1)%Z) = true) by (apply Rleb_true; apply DV).
    rewrite L1, L2. cbn [bind]. rewrite (py_FindMult_eq A1 u WA1). cbn [bind]. rewrite Ed1, Es1. cbn [a_knots A1]. rewrite (FindMult_min (n + r) p V u WV DV Hsv).
    match goal with |- context [(0 <=? ?x)%Z] => assert (E0 : x = 0%Z) by (change (Z.min 0 (Z.min (multiplicity V 0 (n + r + p + 1) u) p) = 0)%Z; lia); rewrite E0 end.
    reflexivity. }
  pose proof (bsp_Remove_Insert d n p U (rolled nrb a) u r num TOL junk junk2 V (rolled nrb1 a) Wk Wp Hi Hsep Hms ltac:(lia) HTOL ltac:(reflexivity) ltac:(intros; apply Erl)) as BR.
  cbv zeta in BR. destruct (bsp_RemoveKnot (N:=Rn) d (n + r) p V (rolled nrb1 a) u num TOL junk2) as [[V' Q] t] eqn:EB. cbn [fst snd] in BR.
  destruct BR as (-> & BV & BQ).
  exists (mkNurbs (lset a (mkAxis (a_size A1 - num) (a_len A1 - num) V') (n_axes nrb1)) (n_comp nrb1) (unrolled nrb1 a Q)),
         (if (r - num =? 0)%Z then nrb else ins_obj junk nrb a u (r - num)).
  split; [|split; [reflexivity|]].
  - unfold remove. rewrite Edim, Ea. cbn [bind]. rewrite EA1. unfold assert, check. rewrite a_hi_eq. unfold a_lo. rewrite Ed1, Es1. cbn [a_knots A1].
    assert (L1 : nleb Rn (V p) u = true) by (apply Rleb_true; apply DV). assert (L2 : nleb Rn u (V (n + r + 1)%Z) = true) by (apply Rleb_true; apply DV).
    assert (L3 : nleb Rn u (V p) = false) by (rewrite EVp; apply Rleb_false; lra). assert (L4 : nleb Rn (V (n + r + 1)%Z) u = false) by (rewrite EVn; apply Rleb_false; lra).
    rewrite L1, L2, L3, L4. cbn [bind]. rewrite (py_FindMult_eq A1 u WA1). cbn [bind]. rewrite Ed1, Es1. cbn [a_knots A1]. rewrite (FindMult_min (n + r) p V u WV DV Hsv).
    match goal with |- context [(0 <=? ?x)%Z] => assert (E0 : x = num) by (change (Z.min num (Z.min (multiplicity V 0 (n + r + p + 1) u) p) = num)%Z; rewrite Emv; lia); rewrite E0 end.
    destruct (Z.leb_spec 0 num); [|lia]. cbn [bind]. destruct (Z.eqb_spec num 0); [lia|].
    fold d. assert (Hd : (1 <= d)%Z).
    { unfold d, n_cols. rewrite Esh. unfold nrb1, ins_obj. cbn [n_comp]. destruct (last_col nrb a WN Ha) as (rest & Hr & Ec).
      destruct WN as [_ [_ Wc]]. pose proof (colOf_bound nrb a rest (n_comp nrb - 1) (proj1 (inb_net _ _ _) Hr) ltac:(lia)) as Hb'. unfold n_cols in *. lia. }
    destruct (Z.leb_spec 1 d); [|lia]. destruct (Z.leb_spec 1 (n + r)); [|lia]. destruct (Z.leb_spec 1 p); [|lia]. cbn [bind andb].
    destruct (Z.leb_spec num p); [|lia]. cbn [bind].
    match goal with |- context [bsp_RemoveKnot ?a1 ?a2 ?a3 ?a4 ?a5 ?a6 ?a7 ?a8 ?a9] => replace (bsp_RemoveKnot a1 a2 a3 a4 a5 a6 a7 a8 a9) with (V', Q, num) by (symmetry; exact EB) end.
    reflexivity.
  - set (nrb2 := mkNurbs (lset a (mkAxis (a_size A1 - num) (a_len A1 - num) V') (n_axes nrb1)) (n_comp nrb1) (unrolled nrb1 a Q)).
    assert (G : same_data (ins_obj junk nrb a u (r - num)) nrb2).
    { pose proof (a_len_eq A) as Hlen. fold p in Hlen.
      split; [|split; [reflexivity|]].
      - unfold nrb2, nrb1, ins_obj. cbn [n_axes]. rewrite lset_lset. apply Forall2_lset; [apply Forall2_refl; auto|].
        cbn [a_size a_len a_knots A1]. fold A n p U. split; [lia|]. split; [lia|]. intros i Hx. apply BV. unfold n in *. lia.
      - intros idx c Hx Hc. pose proof (in_net_length _ _ Hx) as HL. unfold spec_axes, ins_obj in HL. cbn [n_axes] in HL. rewrite map_length, lset_length in HL.
        assert (Hxa : (0 <= nth a idx 0%Z <= n + (r - num))%Z).
        { pose proof (Forall2_nth _ _ _ a (spec_ax axis0) 0%Z Hx) as X. unfold spec_axes, ins_obj in X. cbn [n_axes] in X.
          rewrite map_lset, nth_lset in X by (rewrite map_length; auto). cbn [x_n spec_ax a_size] in X. fold A in X. unfold n.
          specialize (X ltac:(rewrite lset_length, map_length; auto)). lia. }
        assert (Hxr : inb (lrem a (n_shape nrb)) (lrem a idx)).
        { apply inb_net. pose proof (Forall2_lrem _ _ _ a Hx) as X. unfold spec_axes, ins_obj in X. cbn [n_axes] in X. rewrite map_lset, lrem_lset in X. exact X. }
        unfold nrb2. cbn [n_arr]. unfold unrolled. rewrite Esh. rewrite BQ by lia.
        unfold ins_obj. cbn [n_arr]. unfold along. fold A n p U. f_equal. f_equal.
        apply FunctionalExtensionality.functional_extensionality. intros j.
        rewrite lset_eq_lins by lia. first [exact (rolled_col nrb a j (lrem a idx) c Hxr Hc) | symmetry; exact (rolled_col nrb a j (lrem a idx) c Hxr Hc)]. }
    destruct (Z.eqb_spec (r - num) 0) as [E0|E0]; [|exact G].
    rewrite E0 in G. destruct (ins_obj_0 junk nrb a u Ha) as [Z1 Z2]. destruct G as (G1 & G2 & G3). split; [|split].
    + rewrite <- Z1. exact G1.
    + exact G2.
    + intros idx c Hx Hc. rewrite <- Z2. apply G3; auto. unfold spec_axes in *. rewrite Z1. exact Hx.
Qed.

(** ** Consequences of [remove_spec] *)
Lemma last_col_val nrb a : wf_nurbs nrb -> (a < length (n_axes nrb))%nat ->
  exists rest, in_net (lrem a (spec_axes nrb)) rest /\ forall i, rolled (N:=Rn) nrb a i (n_cols nrb a) = n_arr nrb (lins a i rest) (n_comp nrb - 1).
Proof.
  intros WN Ha. destruct (last_col nrb a WN Ha) as (rest & Hr & E). exists rest. split; auto. intros i. rewrite <- E.
  destruct WN as [_ [_ Wc]]. apply rolled_col; [|lia]. apply inb_net. auto.
Qed.
Lemma net_lins nrb a i rest : (a < length (n_axes nrb))%nat -> (0 <= i <= a_size (get_axis nrb a) - 1)%Z -> in_net (lrem a (spec_axes nrb)) rest ->
  in_net (spec_axes nrb) (lins a i rest).
Proof.
  intros Ha Hi Hr. rewrite <- (lins_lrem a (spec_ax axis0) (spec_axes nrb)) by (unfold spec_axes; rewrite map_length; auto).
  apply Forall2_lins; auto. rewrite nth_spec_axes. exact Hi.
Qed.
Lemma tol_zero n d P : remove_tol (N:=Rn) sqrt n d P 0 = 0.
Proof. unfold remove_tol. rn. unfold Rdiv. rewrite !Rmult_0_l. reflexivity. Qed.

(** The same points and field values, for the components the objects have. *)
Definition same_results (nrb nrb' : nurbs Rn) : Prop :=
  forall xs, good_args (spec_axes nrb) xs ->
  forall j j2 j3 jS k k2 k3 kS,
  exists C F C' F',
    call (N:=Rn) j j2 j3 jS nrb (map Some xs) FYes = Ok (C, Some F) /\
    call (N:=Rn) k k2 k3 kS nrb' (map Some xs) FYes = Ok (C', Some F') /\
    forall idx, in_range xs idx -> (forall c, (0 <= c < 3)%Z -> C idx c = C' idx c) /\ (forall c, (0 <= c < n_comp nrb - 4)%Z -> F idx c = F' idx c).

Lemma hom_results nrb nrb' : wf_nurbs nrb -> wf_nurbs nrb' -> Forall2 same_dom (spec_axes nrb) (spec_axes nrb') ->
  (forall us c, in_box (spec_axes nrb) us -> (0 <= c < n_comp nrb)%Z -> hom nrb' c us = hom nrb c us) -> same_results nrb nrb'.
Proof.
  intros W W' D' H' xs G j j2 j3 jS k k2 k3 kS.
  destruct (call_spec j j2 j3 jS nrb xs FYes (n_comp nrb) (n_arr nrb) W G eq_refl) as [C [F0 [E [HC [F [EF HF]]]]]].
  destruct (call_spec k k2 k3 kS nrb' xs FYes (n_comp nrb') (n_arr nrb') W' (good_args_dom _ _ _ D' G) eq_refl)
    as [C1 [F1 [E1 [HC1 [F2 [EF2 HF2]]]]]]. subst F0 F1.
  exists C, F, C1, F2. split; auto. split; auto. intros idx I.
  pose proof (params_box _ _ _ G I) as B. assert (Wc : (4 <= n_comp nrb)%Z) by apply W.
  split; intros c Hc; [rewrite HC, HC1 by auto|rewrite HF, HF2 by auto]; unfold hom in H'; rewrite !(fun c => H' (params xs idx) c B) by lia; reflexivity.
Qed.

Theorem remove_exact nrb ax a u times junk2 nrb' : wf_nurbs nrb -> py_axis (n_dim nrb) ax = Ok a ->
  let A := get_axis nrb a in let n := (a_size A - 1)%Z in let p := a_deg A in let U := a_knots A in
  separated U 0 (n + p + 1) u -> (multiplicity U 0 (n + p + 1) u <= p + 1)%Z ->
  remove (N:=Rn) sqrt junk2 nrb ax u times 0 = Ok nrb' -> wf_nurbs nrb' /\ same_results nrb nrb'.
Proof.
  intros WN Ea A n p U Hs Hm E.
  destruct (remove_spec nrb ax a u times 0 junk2 nrb' WN Ea Hs Hm E) as (_ & _ & t & V & _ & _ & WN' & Ec & SD & EA & _ & Ez & HC).
  split; auto. apply hom_results; auto.
  intros us c B Hc. specialize (HC us c B Hc). rewrite tol_zero, Rmult_0_r in HC. apply Rabs_le_inv in HC. lra.
Qed.

Theorem remove_bound nrb ax a u times dev junk2 nrb' M idx0 c0 : wf_nurbs nrb -> py_axis (n_dim nrb) ax = Ok a ->
  let A := get_axis nrb a in let n := (a_size A - 1)%Z in let p := a_deg A in let U := a_knots A in
  let mu := multiplicity U 0 (n + p + 1) u in
  separated U 0 (n + p + 1) u -> (mu <= p + 1)%Z -> 0 <= dev ->
  (forall idx, in_net (spec_axes nrb) idx -> n_arr nrb idx (n_comp nrb - 1)%Z <= M) ->
  in_net (spec_axes nrb) idx0 -> (0 <= c0 < n_comp nrb - 1)%Z ->
  remove (N:=Rn) sqrt junk2 nrb ax u times dev = Ok nrb' ->
  exists t, (0 <= t <= Z.min mu p)%Z /\ (forall k, times = Some k -> (t <= k)%Z) /\ n_shape nrb' = lset a (a_size A - t)%Z (n_shape nrb) /\
    forall us c, in_box (spec_axes nrb) us -> (0 <= c < n_comp nrb)%Z ->
      Rabs (hom nrb' c us - hom nrb c us) <= IZR t * (dev * M / (1 + Rabs (n_arr nrb idx0 c0))) /\
      (hom nrb 3 us <> 0 -> hom nrb' 3 us <> 0 ->
       Rabs (pt nrb' c us - pt nrb c us) * Rabs (hom nrb' 3 us) <= IZR t * (dev * M / (1 + Rabs (n_arr nrb idx0 c0))) * (1 + Rabs (pt nrb c us))).
Proof.
  intros WN Ea A n p U mu Hs Hm Hd HM Hi0 Hc0 E.
  destruct (remove_spec nrb ax a u times dev junk2 nrb' WN Ea Hs Hm E) as (_ & _ & t & V & Ht & HT & WN' & Ec & SD & EA & _ & Ez & HC).
  fold A n p U in Ht, HT, EA, HC, Ez. fold mu in Ht. pose proof (py_axis_dim _ _ _ Ea) as Ha.
  set (TOL := remove_tol (N:=Rn) sqrt n (n_cols nrb a) (rolled nrb a) dev) in *. cbv zeta in *.
  assert (Ht1 : (t <= Z.min mu p)%Z) by (eapply Z.le_trans; [apply Ht|apply Z.le_min_r]).
  exists t. split; [split; [apply Ht|exact Ht1]|]. split; [intros k ->; eapply Z.le_trans; [apply Ht|apply Z.le_min_l]|].
  split. { unfold n_shape. rewrite EA. rewrite map_lset. reflexivity. }
  assert (Wk : wf_knots n p U) by apply (wf_get_axis _ _ WN Ha). pose proof (wf_n _ _ _ Wk) as Hn. pose proof (wf_p _ _ _ Wk) as Hp.
  assert (HB : forall us c, in_box (spec_axes nrb) us -> (0 <= c < n_comp nrb)%Z -> Rabs (hom nrb' c us - hom nrb c us) <= IZR t * (dev * M / (1 + Rabs (n_arr nrb idx0 c0)))).
  { intros us c B Hc. eapply Rle_trans; [exact (HC us c B Hc)|].
    destruct (Z.eq_dec t 0) as [->|Hz]; [rewrite !Rmult_0_l; apply Rle_refl|].
    apply Rmult_le_compat_l; [apply IZR_le; lia|]. assert (Hr0 : inb (lrem a (n_shape nrb)) (lrem a idx0)).
    { apply inb_net. apply Forall2_lrem. exact Hi0. }
    pose proof (lins_lrem a 0%Z idx0 ltac:(rewrite (in_net_length _ _ Hi0); unfold spec_axes; rewrite map_length; auto)) as E0.
    pose proof (rolled_col nrb a (nth a idx0 0%Z) (lrem a idx0) c0 Hr0 ltac:(lia)) as ER. rewrite E0 in ER. rewrite <- ER.
    pose proof (colOf_bound nrb a (lrem a idx0) c0 Hr0 ltac:(lia)) as CB. pose proof (colOf_bound nrb a (lrem a idx0) (c0 + 1) Hr0 ltac:(lia)) as CB2.
    assert (E1 : colOf nrb a (lrem a idx0) (c0 + 1) = (colOf nrb a (lrem a idx0) c0 + 1)%Z) by (unfold colOf; lia).
    pose proof (Forall2_nth _ _ _ a (spec_ax axis0) 0%Z Hi0 ltac:(unfold spec_axes; rewrite map_length; auto)) as Hx. rewrite nth_spec_axes in Hx. fold A in Hx. cbn [spec_ax x_n] in Hx. fold n in Hx.
    apply tol_le; auto; [lia| |lia|apply HT; lia].
    destruct (last_col_val nrb a WN Ha) as (rest & Hr & El). intros i Hi. rewrite El. apply HM. apply net_lins; auto. }
  intros us c B Hc. split; [auto|]. intros Hw Hw'.
  assert (W3 : (4 <= n_comp nrb)%Z) by apply WN.
  pose proof (HB us c B Hc) as B1. pose proof (HB us 3%Z B ltac:(lia)) as B2.
  rewrite <- Rabs_mult.
  assert (EQ : (pt nrb' c us - pt nrb c us) * hom nrb' 3 us = (hom nrb' c us - hom nrb c us) + - (pt nrb c us * (hom nrb' 3 us - hom nrb 3 us))).
  { unfold pt. field. split; assumption. }
  rewrite EQ. eapply Rle_trans; [apply Rabs_triang|]. rewrite Rabs_Ropp, Rabs_mult.
  pose proof (Rabs_pos (pt nrb c us)). nra.
Qed.

Theorem remove_negative nrb ax a u times dev junk2 nrb' : wf_nurbs nrb -> py_axis (n_dim nrb) ax = Ok a ->
  let A := get_axis nrb a in let n := (a_size A - 1)%Z in let p := a_deg A in let U := a_knots A in
  separated U 0 (n + p + 1) u -> (multiplicity U 0 (n + p + 1) u <= p + 1)%Z -> 0 < dev ->
  (forall idx, in_net (spec_axes nrb) idx -> n_arr nrb idx (n_comp nrb - 1)%Z < 0) ->
  remove (N:=Rn) sqrt junk2 nrb ax u times dev = Ok nrb' -> same_data nrb nrb'.
Proof.
  intros WN Ea A n p U Hs Hm Hd HM E.
  destruct (remove_spec nrb ax a u times dev junk2 nrb' WN Ea Hs Hm E) as (_ & _ & t & V & Ht & HT & WN' & Ec & SD & EA & _ & Ez & HC).
  fold A n p U in Ht, HT, EA, HC, Ez. pose proof (py_axis_dim _ _ _ Ea) as Ha.
  assert (Wk : wf_knots n p U) by apply (wf_get_axis _ _ WN Ha). pose proof (wf_n _ _ _ Wk) as Hn. pose proof (wf_p _ _ _ Wk) as Hp.
  assert (TN : remove_tol (N:=Rn) sqrt n (n_cols nrb a) (rolled nrb a) dev < 0).
  { apply tol_neg; auto; [lia|]. exists 0%Z. split; [lia|]. destruct (last_col_val nrb a WN Ha) as (rest & Hr & El). rewrite El. apply HM. apply net_lins; auto. fold A. unfold n in *. lia. }
  assert (t = 0%Z) as E0. { destruct (Z.eq_dec t 0); auto. destruct (HT ltac:(lia)) as [X _]. lra. }
  destruct (Ez E0) as [-> Z2]. subst t. rewrite !Z.sub_0_r in EA. split; [|split; [exact Ec|exact Z2]].
  rewrite EA. replace (mkAxis (a_size A) (a_len A) U) with A by (unfold U; destruct A; reflexivity).
  unfold A, get_axis. rewrite lset_nth. apply Forall2_refl. auto.
Qed.

Theorem remove_insert_all nrb ax a u r dev junk junk2 nrb1 : wf_nurbs nrb -> py_axis (n_dim nrb) ax = Ok a ->
  let A := get_axis nrb a in let n := (a_size A - 1)%Z in let p := a_deg A in let U := a_knots A in
  separated U 0 (n + p + 1) u -> U p < u < U (n + 1)%Z ->
  insert (N:=Rn) junk nrb ax u (Some r) = Ok nrb1 -> 0 <= dev ->
  (forall idx, in_net (spec_axes nrb) idx -> 0 <= n_arr nrb idx (n_comp nrb - 1)%Z) ->
  exists nrb2, remove (N:=Rn) sqrt junk2 nrb1 ax u (Some r) dev = Ok nrb2 /\ same_data nrb nrb2.
Proof.
  intros WN Ea A n p U Hs Hi EI Hd Hpos.
  destruct (insert_spec nrb ax a u (Some r) junk nrb1 WN Ea Hs (or_introl Hi) EI) as (_ & Hr0 & Hmr & _).
  destruct (remove_insert nrb ax a u r r dev junk junk2 nrb1 WN Ea Hs Hi EI ltac:(lia) Hd Hpos) as (nrb2 & nrb3 & E2 & E3 & SD).
  exists nrb2. split; auto. rewrite Z.sub_diag in E3.
  pose proof (py_axis_dim _ _ _ Ea) as Ha. assert (Wp : (1 <= p)%Z) by apply (wf_get_axis _ _ WN Ha).
  rewrite (insert_val nrb ax a u 0 junk WN Ea Hs) in E3; [injection E3 as <-; exact SD| | |].
  - split; apply Rlt_le, Hi.
  - lia.
  - fold A n p U. apply Z.le_trans with (Z.min (multiplicity U 0 (n + p + 1) u) p + r)%Z; [|exact Hmr].
    destruct (Z.le_gt_cases (multiplicity U 0 (n + p + 1) u) p); lia.
Qed.

Theorem remove_bookkeeping nrb ax a u times dev junk2 nrb' : wf_nurbs nrb -> py_axis (n_dim nrb) ax = Ok a ->
  let A := get_axis nrb a in let n := (a_size A - 1)%Z in let p := a_deg A in let U := a_knots A in
  let mu := multiplicity U 0 (n + p + 1) u in
  separated U 0 (n + p + 1) u -> (mu <= p + 1)%Z ->
  remove (N:=Rn) sqrt junk2 nrb ax u times dev = Ok nrb' ->
  in_domain n p U u /\
  exists t V, (0 <= t <= Z.min mu p)%Z /\ (forall k, times = Some k -> (t <= k)%Z) /\ ((0 < t)%Z -> U p < u < U (n + 1)%Z) /\
    wf_nurbs nrb' /\ n_comp nrb' = n_comp nrb /\ Forall2 same_dom (spec_axes nrb) (spec_axes nrb') /\
    n_axes nrb' = lset a (mkAxis (a_size A - t) (a_len A - t) V) (n_axes nrb) /\ reduced n p t U u V /\
    (t = 0%Z -> same_data nrb nrb').
Proof.
  intros WN Ea A n p U mu Hs Hm E.
  destruct (remove_spec nrb ax a u times dev junk2 nrb' WN Ea Hs Hm E) as (D & _ & t & V & Ht & HT & WN' & Ec & SD & EA & HR & Ez & HC).
  split; [exact D|]. exists t, V. fold A n p U in Ht, HT, EA, HC, Ez. fold mu in Ht.
  assert (Ht1 : (t <= Z.min mu p)%Z) by (eapply Z.le_trans; [apply Ht|apply Z.le_min_r]).
  split; [split; [apply Ht|exact Ht1]|]. split; [intros k ->; eapply Z.le_trans; [apply Ht|apply Z.le_min_l]|].
  split; [intros H; apply HT; exact H|]. split; [exact WN'|]. split; [exact Ec|]. split; [exact SD|]. split; [exact EA|]. split; [exact HR|].
  intros E0. destruct (Ez E0) as [-> Z2]. subst t. rewrite !Z.sub_0_r in EA. split; [|split; [exact Ec|exact Z2]].
  rewrite EA. replace (mkAxis (a_size A) (a_len A) U) with A by (unfold U; destruct A; reflexivity).
  unfold A, get_axis. rewrite lset_nth. apply Forall2_refl. auto.
Qed.
