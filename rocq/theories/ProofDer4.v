(** Uniqueness of derivatives; fourth derivatives. *)
From Coq Require Import ZArith Reals List Lia Lra Bool.
From Verif Require Import Num Loop ModelBspline ModelBSp ModelNurbs ModelDer Spec SumZ BPiece BLink ProofSpan ProofEval SpecNurbs SpecDer BDer ProofCall ProofDers ProofRational ProofDerLink ProofDerApi ProofDerApi2.
Import ListNotations.
Local Open Scope R_scope.

Definition near (dom : list R -> Prop) : Prop :=
  forall x k, dom x -> exists eps, 0 < eps /\ forall t, Rabs (t - nth k x 0) < eps -> dom (put k t x).

Lemma partials_unique dom D : near dom -> forall f f' g g', (forall x, dom x -> f x = f' x) ->
  partials dom D f g -> partials dom D f' g' -> forall x, dom x -> g x = g' x.
Proof.
  intros Hn. induction D as [|k D IH]; simpl; intros f f' g g' E P P' x Hx.
  - rewrite <- P, <- P' by auto. auto.
  - destruct P as [h [H1 H2]], P' as [h' [H1' H2']]. apply (IH h h' g g'); auto.
    intros y Hy. specialize (H1 y Hy). specialize (H1' y Hy).
    assert (L : partial k f' y (h y)).
    { eapply partial_local; [|exact H1]. destruct (Hn y k Hy) as [e [He Hd]]. exists e. split; auto. }
    exact (uniqueness_limite _ _ _ _ L H1').
Qed.

Lemma put_out k t : forall y, (length y <= k)%nat -> put k t y = y.
Proof. induction k; destruct y; simpl; intros; auto; try lia. f_equal. apply IHk. lia. Qed.
Lemma inside_len axs : forall x y, inside axs x y -> length x = length axs /\ length y = length axs.
Proof. induction axs; intros [|u x] [|v y] H; simpl in *; try tauto. destruct H as [_ H]. apply IHaxs in H. lia. Qed.
Lemma inside_box axs : forall x y, inside axs x y -> exists ss, act_box axs ss x.
Proof.
  induction axs as [|a axs IH]; intros [|u x] [|v y] H; simpl in H; try tauto.
  - exists []. constructor.
  - destruct H as [[s [H1 [H2 _]]] H]. destruct (IH x y H) as [ss A]. exists (s :: ss). constructor; auto. split; auto. left. lra.
Qed.

Lemma inside_open axs x : near (inside axs x).
Proof. intros y k H. apply inside_near; auto. Qed.
Lemma dom_open axs w x : Forall wf_ax axs -> near (fun y => inside axs x y /\ tsum axs w y <> 0).
Proof.
  intros W y k [Iy Hy]. destruct (inside_near axs x y k Iy) as [e [He Hn]].
  destruct (inside_len _ _ _ Iy) as [_ Ly]. destruct (Nat.lt_ge_cases k (length axs)) as [Hk|Hk].
  2:{ exists e. split; auto. intros t Ht. rewrite put_out by lia. auto. }
  destruct (inside_box _ _ _ Iy) as [ss A].
  assert (E : forall z, inside axs x z -> tsum axs w z = Pd axs ss w [] z).
  { intros z Iz. symmetry. apply Pd_value; auto. eapply same_span_box; eauto. apply inside_same; auto. }
  set (f := fun t => Pd axs ss w [] (put k t y)).
  assert (D : derivable_pt_lim f (nth k y 0) (Pd axs ss w [Z.of_nat k + 1]%Z y)).
  { unfold f, Pd. cbn [cnts]. replace (Z.to_nat (Z.of_nat k + 1 - 1)) with k by lia.
    apply Hd_partial; auto. eapply act_box_good; eauto. apply repeat_length. }
  assert (C : continuity_pt f (nth k y 0)) by (apply derivable_continuous_pt; exists (Pd axs ss w [Z.of_nat k + 1]%Z y); exact D).
  destruct (continuous_neq_0 f (nth k y 0) C) as [e2 H2].
  { unfold f. rewrite put_same by lia. rewrite <- E; auto. }
  exists (Rmin e e2). split; [apply Rmin_pos; [auto|apply cond_pos]|]. intros t Ht.
  pose proof (Rmin_l e e2). pose proof (Rmin_r e e2). split; [apply Hn; lra|]. rewrite E by (apply Hn; lra).
  replace t with (nth k y 0 + (t - nth k y 0)) by ring. apply H2. lra.
Qed.

Lemma der_in_unique axs w F x D v v' : Forall wf_ax axs -> inside axs x x -> tsum axs w x <> 0 ->
  der_in axs (rat axs w F) (tsum axs w) x D v -> der_in axs (rat axs w F) (tsum axs w) x D v' -> v = v'.
Proof.
  intros W Ix Hw [g [P ->]] [g' [P' ->]].
  apply (partials_unique _ D (dom_open axs w x W) (rat axs w F) (rat axs w F)) with (g := g) (g' := g'); auto.
Qed.
Lemma spl_in_unique axs P x D v v' : inside axs x x -> spl_in axs P x D v -> spl_in axs P x D v' -> v = v'.
Proof.
  intros Ix [g [H ->]] [g' [H' ->]].
  apply (partials_unique _ D (inside_open axs x) (tsum axs P) (tsum axs P)) with (g := g) (g' := g'); auto.
Qed.

Lemma Pd_spl_in axs ss P x k : Forall wf_ax axs -> act_box axs ss x -> inside axs x x -> (k < length axs)%nat ->
  spl_in axs P x [k] (Pd axs ss P [Z.of_nat k + 1]%Z x).
Proof.
  intros W A Ix Hk. exists (Pd axs ss P [Z.of_nat k + 1]%Z). split; [|reflexivity].
  simpl. exists (Pd axs ss P [Z.of_nat k + 1]%Z). split; auto. intros y Iy.
  assert (E : forall z, inside axs x z -> Pd axs ss P [] z = tsum axs P z).
  { intros z Iz. apply Pd_value; auto. eapply same_span_box; eauto. apply inside_same; auto. }
  eapply partial_local with (f := Pd axs ss P []).
  - destruct (inside_near axs x y k Iy) as [e [He Hn]]. exists e. split; auto.
  - unfold Pd. cbn [cnts]. replace (Z.to_nat (Z.of_nat k + 1 - 1)) with k by lia.
    apply Hd_partial; auto. eapply act_box_good; eauto. apply repeat_length. apply (inside_len _ _ _ Iy).
Qed.

(** ** Constant weights *)
Lemma Hd_const axs : forall ss P k x, Forall2 span_good axs ss -> Forall2 (fun a s => (x_p a <= s <= x_n a)%Z) axs ss ->
  (forall i, in_net axs i -> P i = k) -> length x = length axs -> Hd axs ss (repeat O (length axs)) P x = k.
Proof.
  induction axs as [|a axs IH]; intros ss P k x G S HP Hx; inversion G as [|? s ? ss' [Gp Gs] G']; subst; inversion S as [|? ? ? ? S1 S']; subst.
  - destruct x; [|discriminate]. simpl. apply HP. constructor.
  - destruct x as [|t x]; [discriminate|]. cbn [repeat length Hd].
    transitivity (sumZ (s - x_p a) s (fun i => k * B (x_U a) s (Z.to_nat (x_p a)) i t)).
    + apply sumZ_ext. intros i Hi. rewrite gder_0. rewrite (IH ss' _ k); auto.
      * ring.
      * intros j Hj. apply HP. constructor; auto. lia.
    + rewrite sumZ_scal. pose proof (B_sum_one (x_U a) s (Z.to_nat (x_p a)) t Gs) as E. rewrite Z2Nat.id in E by auto. rewrite E. ring.
Qed.
Lemma Pd_zero axs ss P D x : length x = length axs -> Forall2 span_good axs ss -> dirs_ok (length axs) D ->
  (forall y, length y = length axs -> Pd axs ss P D y = 0) -> forall d, (1 <= d <= Z.of_nat (length axs))%Z -> Pd axs ss P (d :: D) x = 0.
Proof.
  intros Lx G HD H d Hd'.
  assert (D1 : partial (Z.to_nat (d - 1)) (Pd axs ss P D) x (Pd axs ss P (d :: D) x)).
  { unfold Pd. cbn [cnts]. apply Hd_partial; auto. apply cnts_length. lia. }
  assert (D2 : partial (Z.to_nat (d - 1)) (Pd axs ss P D) x 0).
  { unfold partial. eapply dl_ext; [|apply (dl_const 0)]. intros t. cbv beta. symmetry. apply H. rewrite put_length. auto. }
  exact (uniqueness_limite _ _ _ _ D1 D2).
Qed.
Lemma Pd_const axs ss P k D : Forall2 span_good axs ss -> Forall2 (fun a s => (x_p a <= s <= x_n a)%Z) axs ss ->
  (forall i, in_net axs i -> P i = k) -> dirs_ok (length axs) D -> D <> [] ->
  forall x, length x = length axs -> Pd axs ss P D x = 0.
Proof.
  intros G S HP HD. induction HD as [|d D Hd' HD IH]; intros Hne x Lx; [congruence|].
  destruct D as [|d' D].
  - assert (D1 : partial (Z.to_nat (d - 1)) (Pd axs ss P []) x (Pd axs ss P [d] x)).
    { unfold Pd. cbn [cnts]. apply Hd_partial; auto. apply repeat_length. lia. }
    assert (D2 : partial (Z.to_nat (d - 1)) (Pd axs ss P []) x 0).
    { unfold partial. eapply dl_ext; [|apply (dl_const k)]. intros t. cbv beta. symmetry. apply Hd_const; auto. rewrite put_length. auto. }
    exact (uniqueness_limite _ _ _ _ D1 D2).
  - apply Pd_zero; auto. intros y Ly. apply IH; auto. discriminate.
Qed.
Lemma act_box_range axs ss x : act_box axs ss x -> Forall2 (fun a s => (x_p a <= s <= x_n a)%Z) axs ss.
Proof. induction 1; constructor; auto. destruct H; auto. Qed.

(** Curves with constant weights: the "fourth derivative" is the third. *)
Section Curve.
Variables (junk : Z -> R) (junk2 : Z -> Z -> R).
Lemma curve4 A Pw F k : let axs := [A] in let xs := [d_x A] in
  wf_ax (ax_of A) -> act_box [ax_of A] [d_span (N:=Rn) A] [d_x A] ->
  (forall i, in_net [ax_of A] i -> Pw i 3%Z = k) -> k <> 0 ->
  d_interp (N:=Rn) junk junk2 4 [A] Pw F [1; 1; 1; 1]%Z = d_interp (N:=Rn) junk junk2 3 [A] Pw F [1; 1; 1]%Z.
Proof.
  intros axs xs W Ab Hk Hne.
  assert (Hp : Forall (fun a : dax Rn => (0 <= d_p a)%Z) [A]) by (constructor; [destruct W; simpl in *; lia|constructor]).
  change (d_interp (N:=Rn) junk junk2 3 [A] Pw F [1; 1; 1]%Z) with (d_interp (N:=Rn) junk junk2 (Z.of_nat (length [1; 1; 1]%Z)) [A] Pw F [1; 1; 1]%Z).
  rewrite (d_interp_quot junk junk2 [A] Pw F [1; 1; 1]%Z ltac:(simpl; lia) Hp); [|repeat constructor; simpl; lia|split; simpl; lia].
  cbn [map quot].
  unfold d_interp, d_rational. rewrite Interp_Rat by (simpl; lia).
  set (a := ev (Pd [ax_of A] [d_span A] (fun i => Pw i 3%Z * F i)) [d_x A]).
  set (w := ev (Pd [ax_of A] [d_span A] (fun i => Pw i 3%Z)) [d_x A]).
  assert (WE : Forall wf_ax [ax_of A]) by (constructor; auto).
  pose proof (act_box_good _ _ _ WE Ab) as G. pose proof (act_box_range _ _ _ Ab) as S.
  assert (W0 : forall D, dirs_ok 1 D -> D <> [] -> w D = 0).
  { intros D HD HN. unfold w, ev. apply (Pd_const [ax_of A] [d_span A] _ k); auto. }
  assert (TP : forall (f : list Z -> R) E, (length E <= 3)%nat -> dirs_ok 1 E ->
     lsum (d_nodes [A]) (fun b => f (d_global [A] b) * TensorProd (N:=Rn) (map (d_table (N:=Rn) junk junk2 4) [A]) E b) =
     Pd [ax_of A] [d_span A] f E [d_x A]).
  { intros f E HE HEd. unfold Pd. change [ax_of A] with (map ax_of [A]). change [d_span A] with (map (d_span (N:=Rn)) [A]).
    change [d_x A] with (map (@d_x Rn) [A]). rewrite <- lsum_Hd with (junk := junk) (junk2 := junk2) (order := 4%Z).
    - apply lsum_ext. intros b Hb. apply nodes_length in Hb. rewrite map_length in Hb.
      rewrite TensorProd_ok; rewrite ?map_length; auto; try (simpl; lia). split; simpl; lia.
    - auto.
    - apply cnts_length.
    - eapply Forall_impl; [|apply cnts_le]. simpl. intros; lia. }
  assert (T4 : forall b, TensorProd (N:=Rn) (map (d_table (N:=Rn) junk junk2 4) [A]) [1;1;1;1]%Z b = TensorProd (N:=Rn) (map (d_table (N:=Rn) junk junk2 4) [A]) [1;1;1]%Z b).
  { intros b. destruct b as [|b1 [|b2 b]]; reflexivity. }
  set (N := TensorProd (N:=Rn) (map (d_table (N:=Rn) junk junk2 4) [A])) in *.
  set (Wf := fun b => Pw (d_global [A] b) 3%Z).
  assert (EW : forall E, (length E <= 3)%nat -> dirs_ok 1 E -> WW (d_nodes [A]) Wf N E = w E).
  { intros E HE HEd. unfold WW. apply (TP (fun i => Pw i 3%Z)); auto. }
  assert (EA : forall E, (length E <= 3)%nat -> dirs_ok 1 E -> AA (d_nodes [A]) Wf N (fun b => F (d_global [A] b)) E = a E).
  { intros E HE HEd. unfold a, ev. rewrite <- (TP (fun i => Pw i 3%Z * F i)) by auto. unfold AA. apply lsum_ext. intros b _. unfold Wf. ring. }
  assert (EW4 : WW (d_nodes [A]) Wf N [1;1;1;1]%Z = w [1;1;1]%Z).
  { rewrite <- EW by (try (simpl; lia); repeat constructor; lia). unfold WW. apply lsum_ext. intros b _. rewrite T4. reflexivity. }
  assert (EA4 : AA (d_nodes [A]) Wf N (fun b => F (d_global [A] b)) [1;1;1;1]%Z = a [1;1;1]%Z).
  { rewrite <- EA by (try (simpl; lia); repeat constructor; lia). unfold AA. apply lsum_ext. intros b _. rewrite T4. reflexivity. }
  cbn [code_quot quot]. unfold q4, q3, q2, q1, q0. rewrite EA4, EW4.
  rewrite ?EW by (first [simpl; lia | repeat constructor; lia]).
  rewrite ?EA by (first [simpl; lia | repeat constructor; lia]).
  rewrite ?(W0 [1]%Z), ?(W0 [1; 1]%Z), ?(W0 [1; 1; 1]%Z) by (first [discriminate | repeat constructor; lia]). toR. unfold Rdiv. ring.
Qed.
End Curve.
