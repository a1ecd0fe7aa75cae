(** The methods gradient, hessian and derivative: what they return. *)
From Coq Require Import ZArith Reals List Lia Lra Bool.
From Verif Require Import Num Loop ModelBspline ModelBSp ModelNurbs ModelDer Spec SumZ BPiece BLink ProofSpan SpecNurbs SpecDer BDer ProofCall ProofDers ProofRational ProofDerLink.
Import ListNotations.
Local Open Scope R_scope.

Local Notation act a u s := (active (x_n a) (x_p a) (x_U a) u s).
Lemma span_of_active a u s : wf_ax a -> (span_of a u s <-> act a u s).
Proof.
  intros [Hp W]. pose proof (wf_last _ _ _ W) as L. pose proof (wf_mono _ _ _ W) as M. split.
  - intros [H1 [H2 [H3 H4]]]. split; auto. destruct (Req_dec u (x_U a (s + 1)%Z)) as [E|E]; [|left; lra].
    specialize (H4 E). destruct (Z.eq_dec s (x_n a)) as [->|Hne]; [right; auto|].
    assert (x_U a (s + 1)%Z <= x_U a (x_n a)) by (apply M; lia). lra.
  - intros A. pose proof (active_lt _ _ _ _ _ W A). pose proof (active_in _ _ _ _ _ W A). destruct A as [H1 A].
    split; [auto|]. split; [auto|]. split; [auto|]. intros E. destruct A as [A|[-> A]]; lra.
Qed.

Inductive act_box : list axR -> list Z -> list R -> Prop :=
| act_nil : act_box [] [] []
| act_cons a axs s ss u x : act a u s -> act_box axs ss x -> act_box (a :: axs) (s :: ss) (u :: x).

Lemma same_span_box axs : forall ss x y, Forall wf_ax axs -> act_box axs ss x -> same_span axs x y -> act_box axs ss y.
Proof.
  induction axs as [|a axs IH]; intros ss x y W A S; inversion A; subst; destruct y as [|v y]; simpl in S; try tauto; constructor.
  - destruct S as [[s' [S1 S2]] _]. inversion W; subst. rewrite span_of_active in S1, S2 by auto.
    match goal with H : wf_ax a |- _ => destruct H as [_ Wk] end.
    replace s with s' by (apply (active_unique _ _ _ _ _ _ Wk S1); auto). auto.
  - destruct S as [_ S]. inversion W; subst. eapply IH; eauto.
Qed.
Lemma inside_same axs : forall x y, Forall wf_ax axs -> inside axs x y -> same_span axs x y.
Proof.
  induction axs as [|a axs IH]; intros [|u x] [|v y] W H; simpl in *; try tauto. inversion W as [|? ? [Wp Wk] W']; subst.
  destruct H as [[s [H1 [H2 H3]]] H]. split; [|apply IH; auto]. exists s. split; apply span_of_active; try (split; auto; fail).
  - split; auto. left. lra.
  - split; auto. left. lra.
Qed.
Lemma act_box_lens axs ss x : act_box axs ss x -> length ss = length axs /\ length x = length axs.
Proof. induction 1; simpl; lia. Qed.
Lemma act_box_F2 axs ss x : act_box axs ss x ->
  Forall2 (fun a (us : Z * R) => act a (snd us) (fst us)) axs (combine ss x).
Proof. induction 1; simpl; constructor; auto. Qed.
Lemma act_box_good axs ss x : Forall wf_ax axs -> act_box axs ss x -> Forall2 span_good axs ss.
Proof.
  intros W A. induction A; constructor; inversion W as [|? ? [Wp Wk] W']; subst; auto.
  split; [lia|]. apply (wf_span_ok (x_n a)); auto. destruct H; auto. eapply active_lt; eauto.
Qed.

Lemma cnts_nil axs : cnts (length axs) [] = map (fun _ : axR => O) axs.
Proof. simpl. induction axs; simpl; f_equal; auto. Qed.
Lemma Pd_value axs ss P x : Forall wf_ax axs -> act_box axs ss x -> Pd axs ss P [] x = tsum axs P x.
Proof.
  intros W A. unfold Pd. rewrite cnts_nil. destruct (act_box_lens _ _ _ A). apply Hd_value; auto. apply act_box_F2; auto.
Qed.

(** Restriction of the domain; replacement of the function by one equal near each point. *)
Lemma partials_weaken (dom dom' : list R -> Prop) D : (forall x, dom' x -> dom x) -> forall f g, partials dom D f g -> partials dom' D f g.
Proof.
  intros H. induction D as [|k D IH]; simpl; intros f g P; auto. destruct P as [h [P1 P2]]. exists h. split; auto.
Qed.
Lemma partial_local k f f' x l : (exists eps, 0 < eps /\ forall t, Rabs (t - nth k x 0) < eps -> f (put k t x) = f' (put k t x)) ->
  partial k f x l -> partial k f' x l.
Proof.
  intros [e [He E]] P. unfold partial in *. intros eps Heps. destruct (P eps Heps) as [d Hd].
  assert (Hm : 0 < Rmin d e) by (apply Rmin_pos; [apply cond_pos|auto]).
  exists (mkposreal _ Hm). simpl. intros h Hh Hl.
  rewrite <- !E.
  - apply Hd; auto. eapply Rlt_le_trans; [exact Hl|]. apply Rmin_l.
  - replace (nth k x 0 - nth k x 0) with 0 by ring. rewrite Rabs_R0. auto.
  - replace (nth k x 0 + h - nth k x 0) with h by ring. eapply Rlt_le_trans; [exact Hl|]. apply Rmin_r.
Qed.
Lemma partials_local (dom : list R -> Prop) D f f' g :
  (forall x, dom x -> f x = f' x) ->
  (forall x k, dom x -> exists eps, 0 < eps /\ forall t, Rabs (t - nth k x 0) < eps -> f (put k t x) = f' (put k t x)) ->
  partials dom D f g -> partials dom D f' g.
Proof.
  intros E0 E. destruct D as [|k D]; simpl.
  - intros H x Hx. rewrite <- E0; auto.
  - intros [h [H1 H2]]. exists h. split; auto. intros x Hx. eapply partial_local; [apply E; auto|apply H1; auto].
Qed.
Lemma inside_near axs : forall x y k, inside axs x y ->
  exists eps, 0 < eps /\ forall t, Rabs (t - nth k y 0) < eps -> inside axs x (put k t y).
Proof.
  induction axs as [|a axs IH]; intros [|u x] [|v y] k H; simpl in H; try tauto.
  - exists 1. split; [lra|]. intros. destruct k; simpl; auto.
  - destruct H as [[s [H1 [H2 H3]]] H]. destruct k as [|k]; simpl.
    + exists (Rmin (v - x_U a s) (x_U a (s + 1)%Z - v)). split; [apply Rmin_pos; lra|]. intros t Ht. split; auto.
      exists s. split; [auto|]. split; [auto|].
      pose proof (Rmin_l (v - x_U a s) (x_U a (s + 1)%Z - v)). pose proof (Rmin_r (v - x_U a s) (x_U a (s + 1)%Z - v)).
      apply Rabs_def2 in Ht. lra.
    + destruct (IH x y k H) as [e [He Hn]]. exists e. split; auto. intros t Ht. split; [exists s; auto|]. apply Hn; auto.
Qed.

(** The quotient of the pieces. *)
Lemma Qd_der_at axs ss w F x D : Forall wf_ax axs -> act_box axs ss x -> (length D <= 4)%nat ->
  Forall (fun k => (k < length axs)%nat) D ->
  der_at axs (rat axs w F) (tsum axs w) x D (Qd axs ss (fun i => w i * F i) w D x).
Proof.
  intros W A HL HF. exists (Qd axs ss (fun i => w i * F i) w []), (Qd axs ss (fun i => w i * F i) w D).
  split; [|split; [|reflexivity]].
  - intros y S. pose proof (same_span_box _ _ _ _ W A S) as Ay. unfold Qd, rat. cbn [rev map quot]. unfold q0, ev.
    rewrite !Pd_value by auto. reflexivity.
  - eapply partials_weaken; [|apply (Qd_partials axs ss _ w (act_box_good _ _ _ W A) D []); auto].
    intros y [S Hw]. pose proof (same_span_box _ _ _ _ W A S) as Ay. split; [apply (act_box_lens _ _ _ Ay)|].
    rewrite Pd_value; auto.
Qed.
Lemma Qd_der_in axs ss w F x D : Forall wf_ax axs -> act_box axs ss x -> inside axs x x -> (length D <= 4)%nat ->
  Forall (fun k => (k < length axs)%nat) D ->
  der_in axs (rat axs w F) (tsum axs w) x D (Qd axs ss (fun i => w i * F i) w D x).
Proof.
  intros W A Ix HL HF. exists (Qd axs ss (fun i => w i * F i) w D). split; [|reflexivity].
  assert (E : forall y, inside axs x y -> Qd axs ss (fun i => w i * F i) w [] y = rat axs w F y).
  { intros y S. apply inside_same in S; auto. pose proof (same_span_box _ _ _ _ W A S) as Ay.
    unfold Qd, rat. cbn [rev map quot]. unfold q0, ev. rewrite !Pd_value by auto. reflexivity. }
  apply (partials_local _ _ (Qd axs ss (fun i => w i * F i) w [])).
  - intros y [Iy _]. auto.
  - intros y k [Iy _]. destruct (inside_near axs x y k Iy) as [e [He Hn]]. exists e. split; auto.
  - eapply partials_weaken; [|apply (Qd_partials axs ss _ w (act_box_good _ _ _ W A) D []); auto].
    intros y [S Hw]. apply inside_same in S; auto. pose proof (same_span_box _ _ _ _ W A S) as Ay.
    split; [apply (act_box_lens _ _ _ Ay)|]. rewrite Pd_value; auto.
Qed.

Section Api.
Variables (junk : Z -> R) (junk2 : Z -> Z -> R).
Notation sp := (d_span (N:=Rn)).

Lemma d_axes_ok axs : forall xs idx, Forall wf_ax (map spec_ax axs) -> good_args (map spec_ax axs) xs -> in_range xs idx ->
  let ds := d_axes (N:=Rn) axs xs idx in
  map ax_of ds = map spec_ax axs /\ map (@d_x Rn) ds = params xs idx /\ act_box (map spec_ax axs) (map sp ds) (params xs idx)
  /\ Forall (fun a => (0 <= d_p a)%Z) ds.
Proof.
  induction axs as [|A axs IH]; intros xs idx W G Rg; simpl in G; inversion G as [|? x ? xs' [L Dm] G']; subst; inversion Rg as [|? i ? idx' Hi Rg']; subst.
  - simpl. repeat split; constructor.
  - inversion W as [|? ? [Wp Wk] W']; subst. destruct (IH xs' idx' W' G' Rg') as [E1 [E2 [E3 E4]]].
    cbn [d_axes map params]. split; [|split; [|split]].
    + f_equal; auto.
    + f_equal; auto.
    + constructor; auto. unfold d_span. cbn. apply FindSpan_active; auto.
    + constructor; auto. cbn in *. lia.
Qed.

Definition dirs (dim : nat) (D : list Z) : Prop := Forall (fun d => (0 <= d < Z.of_nat dim)%Z) D.

Lemma der_core_ok nrb order fields xs nc F mapped : wf_nurbs nrb -> good_args (spec_axes nrb) xs -> (1 <= order <= 4)%Z ->
  der_fields (N:=Rn) nrb fields = Ok (nc, F) -> (1 <= nc)%Z -> (mapped = true -> order = 1%Z) ->
  der_core (N:=Rn) junk junk2 nrb order fields (map Some xs) mapped =
    Ok (fun idx c D =>
          let axs := d_axes (N:=Rn) (n_axes nrb) xs idx in
          let Df := map (fun d => d + 1)%Z (rev D) in
          if mapped then d_mapped (N:=Rn) junk junk2 axs (n_arr nrb) (fun idx => F idx c) (nth 0 Df 0%Z)
          else d_interp (N:=Rn) junk junk2 order axs (n_arr nrb) (fun idx => F idx c) Df).
Proof.
  intros [Hl [W Hc]] G Ho EF Hnc Hm. unfold der_core.
  assert (HL : length xs = length (n_axes nrb)).
  { unfold good_args, spec_axes in G. apply Forall2_len in G. rewrite map_length in G. auto. }
  rewrite (proj2 (eval_args_ok junk _ xs HL) G). cbn [bind]. rewrite EF. cbn [bind fst snd].
  replace ((1 <=? order) && (order <=? 4))%Z with true by (symmetry; apply andb_true_intro; split; apply Z.leb_le; lia).
  cbn [assert bind]. unfold check. replace (1 <=? nc)%Z with true by (symmetry; apply Z.leb_le; lia). cbn [bind].
  rewrite (checks_ok _ W). cbn [bind].
  destruct mapped; cbn [andb]; [|reflexivity]. rewrite (Hm eq_refl). reflexivity.
Qed.

Lemma der_value nrb xs idx Pw F D : wf_nurbs nrb -> (1 <= length (n_axes nrb))%nat -> good_args (spec_axes nrb) xs -> in_range xs idx ->
  dirs (length (n_axes nrb)) D -> ord_ok (length (n_axes nrb)) D ->
  let ds := d_axes (N:=Rn) (n_axes nrb) xs idx in
  let w := fun i => Pw i 3%Z in
  exists ss, act_box (spec_axes nrb) ss (params xs idx) /\
  d_interp (N:=Rn) junk junk2 (Z.of_nat (length D)) ds Pw F (map (fun d => d + 1)%Z (rev D)) =
  Qd (spec_axes nrb) ss (fun i => w i * F i) w (map Z.to_nat D) (params xs idx) +
  match D with
  | [l; k; j; i] => Qd (spec_axes nrb) ss (fun i => w i * F i) w (map Z.to_nat [k; j; i]) (params xs idx)
                    * Pd (spec_axes nrb) ss w [l + 1]%Z (params xs idx) / tsum (spec_axes nrb) w (params xs idx)
  | _ => 0
  end.
Proof.
  intros [Hl [W Hc]] Hd G Rg HD HO ds w. destruct (d_axes_ok _ xs idx W G Rg) as [E1 [E2 [E3 E4]]].
  fold ds in E1, E2, E3, E4. exists (map sp ds). split; [exact E3|].
  assert (Ld : length ds = length (n_axes nrb)).
  { pose proof (f_equal (@length _) E1) as E. rewrite !map_length in E. auto. }
  assert (HD' : dirs_ok (length ds) (map (fun d => d + 1)%Z (rev D))).
  { rewrite Ld. unfold dirs_ok, dirs in *. rewrite Forall_map. apply Forall_rev. eapply Forall_impl; [|exact HD]. simpl. intros; lia. }
  pose proof (d_interp_quot junk junk2 ds Pw F (map (fun d => d + 1)%Z (rev D)) ltac:(lia) E4 HD') as Q.
  rewrite map_length, rev_length in Q. 
  assert (HO' : ord_ok (length ds) (map (fun d => d + 1)%Z (rev D))).
  { unfold ord_ok in *. rewrite map_length, rev_length, Ld. auto. }
  specialize (Q HO'). cbv zeta in Q. rewrite E1, E2 in Q. fold w in Q.
  change (map spec_ax (n_axes nrb)) with (spec_axes nrb) in *.
  assert (ER : forall E, (forall d, In d E -> 0 <= d)%Z -> map (fun k => Z.of_nat k + 1)%Z (rev (map Z.to_nat E)) = map (fun d => d + 1)%Z (rev E)).
  { intros E HE. rewrite <- map_rev, map_map. apply map_ext_in. intros d Hin. apply in_rev in Hin. apply HE in Hin. lia. }
  assert (HE : (forall d, In d D -> 0 <= d)%Z).
  { intros d Hin. unfold dirs in HD. rewrite Forall_forall in HD. apply HD in Hin. lia. }
  unfold Qd. rewrite ER by auto.
  destruct HO as [HO _].
  assert (EP : Pd (spec_axes nrb) (map sp ds) w [] (params xs idx) = tsum (spec_axes nrb) w (params xs idx)) by (apply Pd_value; auto).
  rewrite EP in Q.
  destruct D as [|l [|k [|j [|i [|m D]]]]]; simpl in HO; try lia; cbn [rev app map] in Q |- *; rewrite Q; try (toR; symmetry; apply Rplus_0_r).
  cbn [map rev app] in ER.
  replace (Z.of_nat (Z.to_nat i) + 1)%Z with (i + 1)%Z by (pose proof (HE i ltac:(simpl; auto)); lia).
  replace (Z.of_nat (Z.to_nat j) + 1)%Z with (j + 1)%Z by (pose proof (HE j ltac:(simpl; auto)); lia).
  replace (Z.of_nat (Z.to_nat k) + 1)%Z with (k + 1)%Z by (pose proof (HE k ltac:(simpl; auto 6)); lia).
  reflexivity.
Qed.
End Api.
