(** cad.grid: the object built evaluates to its own parameters. *)
From Coq Require Import ZArith Reals List Bool Lia Lra.
From Verif Require Import Num Loop ModelBspline ModelBSp ModelNurbs ModelIga ModelRemove ModelTransform ModelCad Spec SumZ SpecNurbs ProofSpan
  ProofNet ProofCall ProofNurbs ProofMethods ProofGeom ProofGeom2 ProofInit ProofCad PropIga SpecGrid.
Import ListNotations.
Local Open Scope R_scope.
Local Arguments Z.add : simpl never.
Local Arguments Z.sub : simpl never.
Local Arguments Z.of_nat : simpl never.

(** A net of Greville abscissae with unit weights is the identity map. *)
Lemma greville_net nrb xs : wf_nurbs nrb ->
  Forall2 (fun A x => a_size A = v_len x /\ forall i, (0 <= i < v_len x)%Z -> v_get x i = avg_knots (a_deg A) (a_knots A) i) (n_axes nrb) xs ->
  (forall idx c, (0 <= c < 4)%Z -> n_arr nrb idx c = default_control xs idx c) ->
  forall us, in_box (spec_axes nrb) us -> hom nrb 3 us = 1 /\ forall c, (0 <= c < 3)%Z -> pt nrb c us = nth (Z.to_nat c) us 0.
Proof.
  intros W AX HN us D. assert (WX : Forall wf_ax (spec_axes nrb)) by apply W.
  assert (H3 : hom nrb 3 us = 1).
  { unfold hom. rewrite <- (tsum_const (spec_axes nrb) us 1 WX D) at 1. apply tsum_ext; [apply in_box_length; auto|].
    intros idx _. rewrite HN by lia. reflexivity. }
  split; auto. intros c Hc. unfold pt. rewrite H3. unfold Rdiv. rewrite Rinv_1, Rmult_1_r.
  pose proof (Forall2_len _ _ _ AX) as LX.
  assert (Ls : length (spec_axes nrb) = length (n_axes nrb)) by (unfold spec_axes; rewrite map_length; reflexivity).
  pose proof (in_box_length _ _ D) as Hl. unfold hom.
  rewrite (tsum_ext (spec_axes nrb) _ (fun idx => default_control xs idx c)); auto; [|intros; apply HN; lia].
  unfold default_control. destruct (Z.eqb_spec c 3); [lia|].
  destruct (nth_error xs (Z.to_nat c)) as [x|] eqn:En.
  - assert (Hcl : (Z.to_nat c < length xs)%nat) by (apply nth_error_Some; congruence).
    rewrite (tsum_coord (spec_axes nrb) (Z.to_nat c) (v_get x) us (spec_ax axis0) WX D) by lia.
    rewrite nth_spec_axes. cbn [spec_ax x_n x_p x_U].
    pose proof (Forall2_nth _ _ _ (Z.to_nat c) axis0 (mkVec (N:=Rn) 0 (fun _ => 0)) AX ltac:(lia)) as X.
    rewrite (nth_error_nth _ _ (mkVec (N:=Rn) 0 (fun _ => 0)) En) in X.
    change (nth (Z.to_nat c) (n_axes nrb) axis0) with (get_axis nrb (Z.to_nat c)) in X.
    destruct X as [X4 X5].
    pose proof (wf_get_axis nrb (Z.to_nat c) W ltac:(lia)) as [Wp Wk]. cbn [spec_ax x_n x_p x_U] in Wp, Wk.
    pose proof (Forall2_nth _ _ _ (Z.to_nat c) (spec_ax axis0) 0 D ltac:(lia)) as Dc. rewrite nth_spec_axes in Dc. cbn [spec_ax x_n x_p x_U] in Dc.
    rewrite <- (curve_greville _ _ _ _ Wk Wp Dc) at 2.
    unfold curve. apply sumZ_ext. intros i Hi. f_equal. apply X5. lia.
  - assert (Hcl : (length xs <= Z.to_nat c)%nat) by (apply nth_error_None; auto).
    rewrite (nth_overflow us) by lia.
    apply (tsum_const (spec_axes nrb) us 0 WX D).
Qed.

(** One axis: the knots made, the abscissae made. *)
Lemma grid_axis junk g : gax_ok g -> exists U x,
  KnotVector (N:=Rn) junk (g_E g) (g_p g) (g_C g) (g_lo g) (g_hi g) (g_wrap g) = Ok U /\ py_Greville (N:=Rn) junk (g_p g) U = Ok x /\
  let A := mkAxis (N:=Rn) (v_len x) (v_len U) (v_get U) in
  wf_ax (spec_ax A) /\ uniform_axis g A /\ forall i, (0 <= i < v_len x)%Z -> v_get x i = avg_knots (a_deg A) (a_knots A) i.
Proof.
  intros (HE & Hp & HC & Hu). destruct g as [E p C lo hi w]. cbn [g_E g_p g_C g_lo g_hi g_wrap] in *.
  assert (HE0 : 0 < IZR E) by (apply IZR_lt; lia).
  assert (K : exists U, KnotVector (N:=Rn) junk E p C lo hi w = Ok U /\
    let m := (v_len U - 1)%Z in let n := (m - p - 1)%Z in
    m = (2 * p + 1 + (E - 1) * (p - C))%Z /\ wf_knots n p (v_get U) /\ v_get U p = lo /\ v_get U (n + 1)%Z = hi /\
    (forall i e, (0 <= i <= m)%Z -> (1 <= e <= E - 1)%Z -> (v_get U i = lo + IZR e / IZR E * (hi - lo) <-> (p + 1 + (e - 1) * (p - C) <= i <= p + e * (p - C))%Z)) /\
    if w then forall i, (0 <= i)%Z -> (i + E * (p - C) <= m)%Z -> v_get U (i + E * (p - C))%Z = v_get U i + (hi - lo)
    else forall i, (0 <= i <= m)%Z -> (v_get U i = lo <-> (i <= p)%Z) /\ (v_get U i = hi <-> (m - p <= i)%Z)).
  { destruct w.
    - destruct (C44_wrapped E p C lo hi junk HE Hp HC Hu) as (U & EU & H1 & H2 & H3 & H4 & H5 & H6). exists U. split; auto. cbv zeta.
      repeat (split; [assumption|]). split; [|assumption]. intros i e Hi He. rewrite H6 by lia. assert ((p + 1 + (e - 1) * (p - C) = C + 1 + e * (p - C)))%Z by ring. lia.
    - destruct (C44_clamped E p C lo hi junk HE Hp HC Hu) as (U & EU & H1 & H2 & H3). exists U. split; auto. cbv zeta.
      repeat (split; [assumption|]). split; [apply H3; nia|]. split; [apply H3; nia|]. split; [intros i e Hi He; apply (H3 i Hi); auto|].
      intros i Hi. split; apply (H3 i Hi). }
  destruct K as (U & EU & Em & W & Elo & Ehi & Hin & Hw). exists U. unfold py_Greville, check.
  assert (0 <= (E - 1) * (p - C))%Z by (apply Z.mul_nonneg_nonneg; lia).
  destruct (Z.leb_spec 1 p); [|lia]. cbn [bind]. destruct (Z.leb_spec (2 * p + 1) (v_len U - 1)); [|lia]. cbn [bind].
  eexists. split; [exact EU|]. split; [reflexivity|]. cbn [v_len v_get].
  set (A := mkAxis _ _ _). assert (Ed : a_deg A = p) by (unfold a_deg, A; cbn [a_len a_size]; lia).
  assert (Es : a_size A = (v_len U - 1 - p)%Z) by (unfold A; cbn [a_size]; lia).
  split; [|split].
  - unfold wf_ax, spec_ax. cbn [x_n x_p x_U]. rewrite Ed, Es. split; [lia|]. exact W.
  - unfold uniform_axis. cbn [g_E g_p g_C g_lo g_hi g_wrap]. rewrite Ed. change (a_len A) with (v_len U). change (a_knots A) with (v_get U).
    unfold a_lo, a_hi. rewrite Ed. change (a_knots A) with (v_get U).
    split; auto. split; [exact Elo|]. split; [rewrite <- Ehi; f_equal; change (a_len A) with (v_len U); lia|]. split; [lia|]. split; [|split].
    + intros i j Hi Hj. apply (wf_mono _ _ _ W); lia.
    + intros i e Hi He. apply Hin; lia.
    + destruct w; intros i Hi; [intros Hj; apply Hw; lia|apply Hw; lia].
  - intros i Hi. rewrite Ed. apply Greville_eq. lia.
Qed.

(** All axes. *)
Lemma grid_axes junk gs : Forall gax_ok gs -> exists Us xs,
  mapM (fun t => let '(E, (p, (C, ((Ui, Uf), w)))) := t in KnotVector (N:=Rn) junk E p C Ui Uf w)
    (map (fun g => (g_E g, (g_p g, (g_C g, ((g_lo g, g_hi g), g_wrap g))))) gs) = Ok Us /\
  mapM (fun pU => py_Greville (N:=Rn) junk (fst pU) (snd pU)) (combine (map g_p gs) Us) = Ok xs /\
  exists axs, map (fun A => mkVec (N:=Rn) (a_len A) (a_knots A)) axs = Us /\ map a_size axs = map v_len xs /\ Forall wf_ax (map spec_ax axs) /\
    Forall2 uniform_axis gs axs /\
    Forall2 (fun A x => a_size A = v_len x /\ forall i, (0 <= i < v_len x)%Z -> v_get x i = avg_knots (a_deg A) (a_knots A) i) axs xs.
Proof.
  induction 1 as [|g gs Hg H IH].
  - exists [], []. repeat (split; [reflexivity|]). exists []. repeat split; constructor.
  - destruct IH as (Us & xs & E1 & E2 & axs & A1 & A2 & A3 & A4 & A5). destruct (grid_axis junk g Hg) as (U & x & F1 & F2 & F3 & F4 & F5).
    exists (U :: Us), (x :: xs). cbn [map mapM combine fst snd]. rewrite F1. cbn [bind]. rewrite E1. cbn [bind]. split; [reflexivity|].
    rewrite F2. cbn [bind]. rewrite E2. cbn [bind]. split; [reflexivity|].
    exists (mkAxis (N:=Rn) (v_len x) (v_len U) (v_get U) :: axs). cbn [map a_len a_knots a_size]. rewrite A1, A2.
    split; [destruct U; reflexivity|]. split; [reflexivity|]. split; [constructor; auto|]. split; constructor; auto.
Qed.

Lemma Forall_repeat_map {X Y} (f : X -> Y) y l : Forall (fun x => f x = y) l -> map f l = repeat y (length l).
Proof. induction 1; cbn; congruence. Qed.

Theorem grid_user shape degree continuity limits wrap gs junk : (1 <= length shape <= 3)%nat ->
  grid_asks shape degree continuity limits wrap gs -> Forall gax_ok gs ->
  exists nrb, grid (N:=Rn) junk shape degree continuity limits wrap = Ok nrb /\
    Forall2 uniform_axis gs (n_axes nrb) /\ (forall us, in_box (spec_axes nrb) us -> hom nrb 3 us = 1) /\
    shows nrb (fun us c => nth (Z.to_nat c) us 0).
Proof.
  intros Hl (Q1 & Q2 & Q3 & Q4 & Q5) HG. unfold grid, assert.
  assert (Ld : length shape = length gs) by (rewrite <- Q1; apply map_length).
  destruct (Z.leb_spec 1 (Z.of_nat (length shape))); [|lia]. destruct (Z.leb_spec (Z.of_nat (length shape)) 3); [|lia]. cbn [andb bind].
  assert (R1 : zexpand (length shape) degree = Ok (map g_p gs)).
  { unfold zexpand, assert. destruct degree as [p|l].
    - rewrite Ld. f_equal. symmetry. apply Forall_repeat_map. auto.
    - rewrite <- Q2, map_length, Ld, Nat.eqb_refl. reflexivity. }
  rewrite R1. cbn [bind].
  assert (R2 : forallb (fun p => (0 <? p)%Z) (map g_p gs) = true).
  { apply forallb_forall. intros p Hp. apply in_map_iff in Hp. destruct Hp as (g & <- & Hg). rewrite Forall_forall in HG. destruct (HG g Hg) as (_ & ? & _). apply Z.ltb_lt. lia. }
  rewrite R2. cbn [bind].
  assert (R3 : exists cs, match continuity with None => Ok (map (fun p => (p - 1)%Z) (map g_p gs)) | Some c => zexpand (length shape) c end = Ok cs /\
    map (fun pc => if (snd pc <? 0)%Z then (snd pc + fst pc)%Z else snd pc) (combine (map g_p gs) cs) = map g_C gs).
  { clear - Q3 Ld HG. destruct continuity as [[c|l]|]; cbn [zexpand].
    - eexists. split; [reflexivity|]. rewrite Ld. clear - Q3. induction Q3 as [|g gs Hg _ IH]; cbn; auto. rewrite IH. f_equal. rewrite Hg. reflexivity.
    - exists l. unfold assert. rewrite (Forall2_len _ _ _ Q3), Ld, Nat.eqb_refl. split; [reflexivity|].
      clear - Q3. induction Q3 as [|c g l gs Hg _ IH]; cbn; auto. rewrite IH. f_equal. rewrite Hg. reflexivity.
    - eexists. split; [reflexivity|]. clear - Q3 HG. induction Q3 as [|g gs Hg _ IH]; cbn; auto. inversion_clear HG as [|? ? G1 G2]. rewrite IH by auto. f_equal.
      destruct G1 as (_ & ? & _). destruct (Z.ltb_spec (g_p g - 1) 0); lia. }
  destruct R3 as (cs & R3 & R4). rewrite R3. cbn [bind]. rewrite R4.
  assert (R5 : forallb (fun c => (0 <=? c)%Z) (map g_C gs) = true).
  { apply forallb_forall. intros p Hp. apply in_map_iff in Hp. destruct Hp as (g & <- & Hg). rewrite Forall_forall in HG. destruct (HG g Hg) as (_ & _ & ? & _). apply Z.leb_le. lia. }
  rewrite R5. cbn [bind].
  assert (R6 : forallb (fun pc => (snd pc <? fst pc)%Z) (combine (map g_p gs) (map g_C gs)) = true).
  { clear - HG. induction HG as [|g gs Hg _ IH]; cbn; auto. rewrite IH. destruct Hg as (_ & _ & ? & _). destruct (Z.ltb_spec (g_C g) (g_p g)); auto; lia. }
  rewrite R6. cbn [bind].
  assert (R7 : match limits with LimOne a b => Ok (repeat (a, b) (length shape)) | LimList l => (if Nat.eqb (length l) (length shape) then Ok tt else Raise AssertionError) ;;; Ok l end
    = Ok (map (fun g => (g_lo g, g_hi g)) gs)).
  { destruct limits as [a b|l].
    - rewrite Ld. f_equal. symmetry. apply Forall_repeat_map. eapply Forall_impl; [|exact Q4]. cbn. intros g [-> ->]. reflexivity.
    - rewrite <- Q4, map_length, Ld, Nat.eqb_refl. reflexivity. }
  rewrite R7. cbn [bind].
  assert (R8 : match wrap with WrapOne w => Ok (repeat w (length shape)) | WrapList l => (if Nat.eqb (length l) (length shape) then Ok tt else Raise AssertionError) ;;; Ok l end
    = Ok (map g_wrap gs)).
  { destruct wrap as [w|l].
    - rewrite Ld. f_equal. symmetry. apply Forall_repeat_map. auto.
    - rewrite <- Q5, map_length, Ld, Nat.eqb_refl. reflexivity. }
  rewrite R8. cbn [bind]. rewrite <- Q1.
  assert (R9 : combine (map g_E gs) (combine (map g_p gs) (combine (map g_C gs) (combine (map (fun g => (g_lo g, g_hi g)) gs) (map g_wrap gs)))) =
     map (fun g => (g_E g, (g_p g, (g_C g, ((g_lo g, g_hi g), g_wrap g))))) gs).
  { clear. induction gs; cbn; congruence. }
  destruct (grid_axes junk gs HG) as (Us & xs & E1 & E2 & axs & A1 & A2 & A3 & A4 & A5).
  rewrite <- R9 in E1.
  match goal with |- context [mapM ?f (combine (map g_E gs) ?b)] => replace (mapM f (combine (map g_E gs) b)) with (Ok Us) by (symmetry; exact E1) end.
  cbn [bind]. rewrite E2. cbn [bind]. rewrite <- A1.
  change (map (fun x : vec Rn => v_len x) xs) with (map v_len xs). rewrite <- A2.
  assert (La : length axs = length gs) by (symmetry; apply (Forall2_len _ _ _ A4)).
  destruct (init_built junk axs 4 (default_control xs)) as (nrb & EI & EA & EC & EN); auto; [lia|lia|].
  exists nrb. split; [exact EI|].
  assert (W : wf_nurbs nrb) by (apply (built_wf axs); auto; lia).
  assert (P := greville_net nrb xs W). rewrite EA in P. specialize (P A5 ltac:(intros; rewrite EN; reflexivity)).
  rewrite EA. split; auto. split; [intros; apply P; auto|]. apply shows_intro; auto. intros us c D Hc. apply P; auto.
Qed.
