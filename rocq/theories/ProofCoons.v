(** Coons patches. *)
From Coq Require Import ZArith Reals List Lia Lra Bool Permutation.
From Verif Require Import Num Loop ModelBspline ModelBSp ModelNurbs ModelIga ModelCad Spec SpecElev SpecCompat SumZ BPiece BLink ProofSpan
  SpecNurbs ProofNet ProofCall ProofNurbs ProofMethods ProofGeom ProofGeom2 ProofPerm ProofOk ProofIga ProofIga2 ProofInit
  ProofCompat1 ProofCompat2 ProofCompat3 ProofCad ProofRuled.
Import ListNotations.
Local Open Scope R_scope.

Lemma rescale_frac A lo hi s : a_lo A < a_hi A -> rescale A lo hi (frac A s) = lo + s * (hi - lo).
Proof. unfold rescale, frac. generalize (a_lo A : R) (a_hi A : R). intros l h H. field. lra. Qed.
Lemma rescale_self A x : a_lo A < a_hi A -> rescale A (a_lo A) (a_hi A) x = x.
Proof. unfold rescale. generalize (a_lo A : R) (a_hi A : R). intros l h H. field. lra. Qed.
Lemma frac_dom A s : a_lo A < a_hi A -> 0 <= s <= 1 -> a_lo A <= frac A s <= a_hi A.
Proof. unfold frac. generalize (a_lo A : R) (a_hi A : R). intros l h H Hs. nra. Qed.
Lemma frac_0 A : frac A 0 = a_lo A.
Proof. unfold frac. generalize (a_lo A : R) (a_hi A : R). intros. ring. Qed.
Lemma frac_1 A : frac A 1 = a_hi A.
Proof. unfold frac. generalize (a_lo A : R) (a_hi A : R). intros. ring. Qed.
Lemma wf_lohi_of nrb a : wf_nurbs nrb -> (a < length (n_axes nrb))%nat -> a_lo (get_axis nrb a) < a_hi (get_axis nrb a).
Proof. intros. apply wf_lohi. apply wf_get_axis; auto. Qed.
Lemma knot_mul A j : wf_ax (spec_ax A) -> (0 <= j < a_len A)%Z -> (0 < mulA A (a_knots A j))%Z.
Proof. intros W Hj. rewrite a_len_eq in Hj. pose proof (mulA_at A j W). lia. Qed.
Lemma mul_knot A x : (0 < mulA A x)%Z -> exists j, (0 <= j < a_len A)%Z /\ a_knots A j = x.
Proof. intros H. destruct (mulA_pos A x H) as (j & Hj & E). exists j. split; auto. rewrite a_len_eq. lia. Qed.

(** Objects that already have common knots are joinable. *)
Lemma joinable_common nrbs d L (lo hi : nat -> R) deg : nrbs <> [] -> (forall nrb, In nrb nrbs -> wf_nurbs nrb /\ length (n_axes nrb) = d) ->
  (forall a, In a L -> (a < d)%nat) -> NoDup L ->
  (forall nrb a, In nrb nrbs -> In a L -> let A := get_axis nrb a in open_axis A /\ a_deg A = deg a /\ a_lo A = lo a /\ a_hi A = hi a) ->
  (forall nrb nrb' a, In nrb nrbs -> In nrb' nrbs -> In a L -> apart (get_axis nrb a) (get_axis nrb' a)) -> joinable nrbs d L lo hi deg.
Proof.
  intros NE W HL ND HA AP. destruct nrbs as [|n0 l]; [congruence|]. set (nrbs := n0 :: l) in *. assert (I0 : In n0 nrbs) by (left; auto).
  cbv zeta in HA. constructor; auto.
  - intros nrb I. apply W; auto.
  - intros nrb a I Ia. apply HA; auto.
  - intros nrb a I Ia. cbv zeta. destruct (HA nrb a I Ia) as (_ & E1 & E2 & E3). rewrite E1, E2, E3. split; [|split]; try lra; lia.
  - intros a Ia. destruct (HA n0 a I0 Ia) as (_ & E1 & E2 & E3). split; [|split]; exists n0; auto.
  - intros nrb a I Ia. cbv zeta. left. apply HA; auto.
  - intros a nrb nrb' j j' Ia I I'. cbv zeta. intros Hj Hj'. destruct (HA nrb a I Ia) as (_ & _ & E2 & E3). destruct (HA nrb' a I' Ia) as (_ & _ & E2' & E3').
    destruct (W nrb I) as [Wn Ln]. destruct (W nrb' I') as [Wn' Ln'].
    assert (RS : forall n y, In n nrbs -> rescale (get_axis n a) (lo a) (hi a) y = y).
    { intros n y In_. destruct (HA n a In_ Ia) as (_ & _ & F2 & F3). destruct (W n In_) as [Wm Lm]. rewrite <- F2, <- F3. apply rescale_self. apply wf_lohi_of; auto. rewrite Lm; auto. }
    rewrite !RS by auto.
    apply (AP nrb nrb' a I I' Ia); apply knot_mul; auto; apply wf_get_axis; auto; [rewrite Ln|rewrite Ln']; auto.
Qed.

Lemma in_box1 nrb x : length (n_axes nrb) = 1%nat -> in_box (spec_axes nrb) [x] <-> a_lo (get_axis nrb 0) <= x <= a_hi (get_axis nrb 0).
Proof.
  intros L. rewrite in_box_lohi, L. split.
  - intros [_ H]. apply (H 0%nat). lia.
  - intros H. split; auto. intros b Hb. assert (b = 0%nat) by lia. subst. exact H.
Qed.

(** Two curves, made compatible and ruled. *)
Lemma curve_pair junk junk2 C0 C1 (lo hi : nat -> R) deg : wf_nurbs C0 -> wf_nurbs C1 -> joinable [C0; C1] 1 [0%nat] lo hi deg ->
  exists o0 o1 S B, compat (N:=Rn) junk junk2 [C0; C1] None = Ok [o0; o1] /\ wf_nurbs o0 /\ wf_nurbs o1 /\
   (length (n_axes o0) = 1%nat /\ a_lo (get_axis o0 0) = lo 0%nat /\ a_hi (get_axis o0 0) = hi 0%nat) /\
   (length (n_axes o1) = 1%nat /\ a_lo (get_axis o1 0) = lo 0%nat /\ a_hi (get_axis o1 0) = hi 0%nat) /\
   (forall s c, 0 <= s <= 1 -> hom o0 c [lo 0%nat + s * (hi 0%nat - lo 0%nat)] = hom C0 c [frac (get_axis C0 0) s] /\
                               hom o1 c [lo 0%nat + s * (hi 0%nat - lo 0%nat)] = hom C1 c [frac (get_axis C1 0) s]) /\
   ruled (N:=Rn) junk junk2 o0 o1 = Ok S /\ wf_nurbs S /\ n_comp S = 4%Z /\ n_axes S = [B; unit_axis] /\
   open_axis B /\ a_deg B = deg 0%nat /\ a_lo B = lo 0%nat /\ a_hi B = hi 0%nat /\ apart B B /\
   forall s t c, 0 <= s <= 1 -> 0 <= t <= 1 -> (0 <= c < 4)%Z ->
     hom S c [lo 0%nat + s * (hi 0%nat - lo 0%nat); t] = (1 - t) * hom C0 c [frac (get_axis C0 0) s] + t * hom C1 c [frac (get_axis C1 0) s].
Proof.
  intros W0 W1 HJ.
  destruct (compat_user junk junk2 [C0; C1] None 1 [0%nat] lo hi deg) as (outs & E & F & S); auto; [reflexivity|intros nrb [<-|[<-|[]]]; auto|].
  inversion F as [|? o0 ? l' Q0 F' EQ1 EQ2]; subst. inversion F' as [|? o1 ? l'' Q1 F'' EQ3 EQ4]; subst. inversion F''; subst. clear F F' F''.
  destruct Q0 as (V0 & N0 & L0 & A0 & _ & M0 & _). destruct Q1 as (V1 & N1 & L1 & A1 & _ & M1 & _).
  assert (L0' : length (n_axes C0) = 1%nat) by (apply HJ; left; auto). assert (L1' : length (n_axes C1) = 1%nat) by (apply HJ; right; left; auto).
  destruct (A0 0%nat (or_introl eq_refl)) as (O0 & D0 & Lo0 & Hi0). destruct (A1 0%nat (or_introl eq_refl)) as (O1 & D1 & Lo1 & Hi1).
  assert (P0 : a_lo (get_axis C0 0) < a_hi (get_axis C0 0)) by (apply wf_lohi_of; auto; lia).
  assert (P1 : a_lo (get_axis C1 0) < a_hi (get_axis C1 0)) by (apply wf_lohi_of; auto; lia).
  assert (HM : forall s c, 0 <= s <= 1 -> hom o0 c [lo 0%nat + s * (hi 0%nat - lo 0%nat)] = hom C0 c [frac (get_axis C0 0) s] /\
                               hom o1 c [lo 0%nat + s * (hi 0%nat - lo 0%nat)] = hom C1 c [frac (get_axis C1 0) s]).
  { intros s c Hs. split; [apply M0|apply M1]; try (apply in_box1; auto; apply frac_dom; auto); (split; [reflexivity|]);
    intros b Hb; cbn in Hb; assert (b = 0%nat) by lia; subst b; (destruct (in_dec Nat.eq_dec 0%nat [0%nat]) as [_|N]; [|exfalso; apply N; left; auto]);
    cbn [nth]; rewrite rescale_frac by auto; reflexivity. }
  assert (JC : joinable [o0; o1] 1 (seq 0 1) lo hi deg).
  { apply joinable_common; try discriminate.
    - intros nrb [<-|[<-|[]]]; auto.
    - intros a [<-|[]]; lia.
    - constructor; [intros []|constructor].
    - intros nrb a [<-|[<-|[]]] [<-|[]]; cbv zeta; auto.
    - intros nrb nrb' a I I' Ia. apply (S a nrb nrb' Ia I I'). }
  destruct (ruled_hom junk junk2 o0 o1 1 lo hi deg V0 V1 ltac:(lia) JC) as (Sf & ER & WR & CR & LR & UR & AR & HR).
  destruct (AR 0%nat ltac:(lia)) as (OB & DB & LB & HB & AB). cbv zeta in *.
  exists o0, o1, Sf, (get_axis Sf 0). split; auto. split; auto. split; auto. split; auto. split; auto. split; auto. split; auto. split; auto. split; auto.
  split. { unfold get_axis in *. destruct (n_axes Sf) as [|x [|y [|]]]; try discriminate. cbn in *. congruence. }
  split; auto. split; auto. split; auto. split; auto. split; auto.
  intros s t c Hs Ht Hc. destruct (HM s c Hs) as [H0 H1].
  assert (LH : lo 0%nat < hi 0%nat) by (rewrite <- Lo0, <- Hi0; apply wf_lohi_of; auto; lia).
  set (x := lo 0%nat + s * (hi 0%nat - lo 0%nat)) in *. assert (DX : lo 0%nat <= x <= hi 0%nat) by (unfold x; nra).
  destruct (HR [x] [x] [x] t) as [_ HX]; auto.
  - apply in_box1; auto. rewrite Lo0, Hi0. auto.
  - apply in_box1; auto. rewrite Lo1, Hi1. auto.
  - split; auto. intros b Hb. cbn in Hb. assert (b = 0%nat) by lia. subst b. cbn [nth]. destruct (in_dec Nat.eq_dec 0%nat (seq 0 1)); auto.
    symmetry. replace (lo 0%nat) with (a_lo (get_axis o0 0) : R) by exact Lo0. replace (hi 0%nat) with (a_hi (get_axis o0 0) : R) by exact Hi0. apply rescale_self, wf_lohi_of; auto; lia.
  - split; auto. intros b Hb. cbn in Hb. assert (b = 0%nat) by lia. subst b. cbn [nth]. destruct (in_dec Nat.eq_dec 0%nat (seq 0 1)); auto.
    symmetry. replace (lo 0%nat) with (a_lo (get_axis o1 0) : R) by exact Lo1. replace (hi 0%nat) with (a_hi (get_axis o1 0) : R) by exact Hi1. apply rescale_self, wf_lohi_of; auto; lia.
  - specialize (HX c Hc). cbn [app] in HX. etransitivity; [exact HX|]. rewrite H0, H1. reflexivity.
Qed.

Lemma transpose2 nrb A B : n_axes nrb = [A; B] -> wf_nurbs nrb -> exists nrb', transpose (N:=Rn) nrb None = Ok nrb' /\ n_axes nrb' = [B; A] /\ n_comp nrb' = n_comp nrb /\ wf_nurbs nrb' /\
  forall c u v, hom nrb' c [v; u] = hom nrb c [u; v].
Proof.
  intros EA (W1 & W2 & W3). unfold transpose, n_dim. rewrite EA. cbn -[n_comp n_arr]. eexists. split; [reflexivity|]. destruct A as [sA lA kA], B as [sB lB kB]. cbn [a_size a_len a_knots].
  split; [reflexivity|]. split; [reflexivity|]. unfold spec_axes in W2. rewrite EA in W1, W2. inversion W2 as [|? ? X1 X2]; subst. inversion X2 as [|? ? X3 X4]; subst.
  split; [split; [cbn; lia|]; split; [constructor; [exact X3|constructor; [exact X1|constructor]]|exact W3]|].
  intros c u v. unfold hom, spec_axes. rewrite EA. cbn [n_axes map n_arr]. symmetry. rewrite tsum_flip. apply tsum_ext; auto.
  intros idx Hi. inversion Hi as [|? i ? l1 ? I1]; subst. inversion I1 as [|? j ? l2 ? I2]; subst. inversion I2; subst. reflexivity.
Qed.

Lemma unit_open : open_axis unit_axis.
Proof.
  split; [split|]; intros j Hj; cbn in Hj; unfold a_deg in Hj; cbn in Hj; cbn; unfold a_deg; cbn.
  - destruct (Z.ltb_spec j 2); auto; lia.
  - destruct (Z.ltb_spec j 2); auto; lia.
  - lia.
Qed.

(** Knots moved to a larger domain stay apart. *)
Lemma hull_apart B (lo hi : R) : wf_ax (spec_ax B) -> apart B B -> lo <= a_lo B -> a_hi B <= hi -> forall A A' j j', (A = B \/ A = unit_axis) -> (A' = B \/ A' = unit_axis) ->
  (0 <= j < a_len A)%Z -> (0 <= j' < a_len A')%Z -> rescale A lo hi (a_knots A j) = rescale A' lo hi (a_knots A' j') \/ / 4503599627370496 < Rabs (rescale A lo hi (a_knots A j) - rescale A' lo hi (a_knots A' j')).
Proof.
  intros W AP Hlo Hhi A A' j j' HA HA' Hj Hj'. pose proof (wf_lohi B W) as LH.
  assert (K : forall A j, (A = B \/ A = unit_axis) -> (0 <= j < a_len A)%Z -> exists i, (0 <= i < a_len B)%Z /\ rescale A lo hi (a_knots A j) = rescale B lo hi (a_knots B i)).
  { clear - W LH Hlo Hhi. intros A j [->| ->] Hj; [exists j; auto|]. cbn in Hj. destruct (rescale_ends B lo hi LH) as [E1 E2]. pose proof W as [Wp Wk]. pose proof (wf_n _ _ _ Wk) as Wn. cbn in Wn, Wp. cbn [a_knots unit_axis].
    destruct (Z.ltb_spec j 2).
    - exists (a_deg B). split; [rewrite a_len_eq; lia|]. change (a_knots B (a_deg B)) with (a_lo B). rewrite E1. unfold rescale. change (a_lo unit_axis) with 0. change (a_hi unit_axis) with 1. field.
    - exists (a_len B - a_deg B - 1)%Z. split; [rewrite a_len_eq; lia|]. change (a_knots B (a_len B - a_deg B - 1)%Z) with (a_hi B). rewrite E2. unfold rescale. change (a_lo unit_axis) with 0. change (a_hi unit_axis) with 1. field. }
  destruct (K A j HA Hj) as (i & Hi & ->). destruct (K A' j' HA' Hj') as (i' & Hi' & ->).
  destruct (AP (a_knots B i) (a_knots B i')) as [E|E]; [apply knot_mul; auto|apply knot_mul; auto|left; rewrite E; auto|right].
  unfold rescale. revert LH Hlo Hhi E. generalize (a_lo B : R) (a_hi B : R) (a_knots B i : R) (a_knots B i' : R). intros l h x y LH Hlo Hhi E.
  replace (lo + (x - l) * (hi - lo) / (h - l) - (lo + (y - l) * (hi - lo) / (h - l))) with ((x - y) * ((hi - lo) / (h - l))) by (field; lra).
  rewrite Rabs_mult. assert (G : 1 <= (hi - lo) / (h - l)) by (apply Rmult_le_reg_r with (h - l); [lra|]; replace ((hi - lo) / (h - l) * (h - l)) with (hi - lo) by (field; lra); lra).
  rewrite (Rabs_right ((hi - lo) / (h - l))) by lra. pose proof (Rabs_pos (x - y)). nra.
Qed.

(** ** Points of a curve *)
Lemma at1_ok j j2 j3 jS crv u : wf_nurbs crv -> length (n_axes crv) = 1%nat -> a_lo (get_axis crv 0) <= u <= a_hi (get_axis crv 0) ->
  exists f, at1 (N:=Rn) j j2 j3 jS crv u = Ok f /\ forall c, f c = pt crv c [u].
Proof.
  intros W L Hu. set (x := mkVec (N:=Rn) 1 (fun _ => u)).
  assert (G : good_args (spec_axes crv) [x]).
  { apply (in_box1 crv u L) in Hu. unfold in_box in Hu. inversion Hu as [|a ? l ? D1 D2 E1]; subst. inversion D2; subst. constructor; [|constructor]. cbn. split; [lia|auto]. }
  destruct (call_spec j j2 j3 jS crv [x] FNo 4 (n_arr crv) W G eq_refl) as (C & F0 & E & HC & _). exists (fun c => C [0%Z] c).
  split; [unfold at1; unfold x in E; cbn [map] in E; cbn [T Rn] in *; rewrite E; reflexivity|]. intros c. rewrite HC; [reflexivity|]. constructor; [cbn; lia|constructor].
Qed.
Lemma close3_eq (P Q : Z -> R) : (forall c, (0 <= c < 3)%Z -> P c = Q c) -> close3 (N:=Rn) P Q = true.
Proof.
  intros H. unfold close3. cbn [forallb]. rewrite !H by lia. rn.
  assert (E : forall x : R, Rleb (Rabs (x - x)) (1 / 1000000000000000) = true).
  { intros x. replace (x - x) with 0 by ring. rewrite Rabs_R0. apply Rleb_true. lra. }
  rewrite !E. reflexivity.
Qed.

(** The corner values of the bilinear part. *)
Definition corner_val (C : nurbs Rn) (u : R) (c : Z) : R := if (c <? 3)%Z then pt C c [u] else 1.
Lemma bilinear_hom junk (P00 P01 P10 P11 : Z -> R) : exists nrb,
  bilinear (N:=Rn) junk (Some (nd_of (N:=Rn) [2; 2]%Z 3 (fun idx => if (nth 0 idx 0 =? 0)%Z then (if (nth 1 idx 0 =? 0)%Z then P00 else P01)
                                                            else (if (nth 1 idx 0 =? 0)%Z then P10 else P11)))) = Ok nrb /\
  n_axes nrb = [unit_axis; unit_axis] /\ n_comp nrb = 4%Z /\ wf_nurbs nrb /\
  forall s t c, 0 <= s <= 1 -> 0 <= t <= 1 -> (0 <= c < 4)%Z -> let V := fun P : Z -> R => if (c <? 3)%Z then P c else 1 in
    hom nrb c [s; t] = (1 - s) * ((1 - t) * V P00 + t * V P01) + s * ((1 - t) * V P10 + t * V P11).
Proof.
  assert (WA : Forall wf_ax (map spec_ax [unit_axis; unit_axis])) by (constructor; [apply unit_wf|constructor; [apply unit_wf|constructor]]).
  match goal with |- context [nd_of _ 3 ?f] => destruct (init_built junk [unit_axis; unit_axis] 3 f) as (nrb & EI & EA & EC & EN); auto; [cbn; lia|lia|] end.
  exists nrb. split; [exact EI|]. split; auto. split; auto. split; [apply (built_wf [unit_axis; unit_axis]); auto|].
  intros s t c Hs Ht Hc V. unfold hom, spec_axes. rewrite EA. change (map spec_ax [unit_axis; unit_axis]) with ([spec_ax unit_axis] ++ [spec_ax unit_axis]).
  change [s; t] with ([s] ++ [t]). rewrite tsum_app by reflexivity. rewrite unit_tsum by auto. rewrite !unit_tsum by auto. cbn [app].
  assert (K : forall a b, n_arr nrb [a; b] c = V (if (a =? 0)%Z then (if (b =? 0)%Z then P00 else P01) else (if (b =? 0)%Z then P10 else P11))).
  { intros a b. rewrite EN. cbn [Z.eqb Pos.eqb nth]. unfold V. destruct (Z.ltb_spec c 3); auto. destruct (Z.eqb_spec c 3); auto. lia. }
  rewrite !K. cbn [Z.eqb]. reflexivity.
Qed.

Lemma in_box2 nrb x y : length (n_axes nrb) = 2%nat -> in_box (spec_axes nrb) [x; y] <->
  (a_lo (get_axis nrb 0) <= x <= a_hi (get_axis nrb 0)) /\ (a_lo (get_axis nrb 1) <= y <= a_hi (get_axis nrb 1)).
Proof.
  intros L. rewrite in_box_lohi, L. split.
  - intros [_ H]. split; [apply (H 0%nat)|apply (H 1%nat)]; lia.
  - intros [H1 H2]. split; auto. intros b Hb. destruct b as [|[|]]; [exact H1|exact H2|lia].
Qed.

Lemma Forall2_3 {A B} (Q : A -> B -> Prop) x y z l : Forall2 Q [x; y; z] l -> exists a b c, l = [a; b; c] /\ Q x a /\ Q y b /\ Q z c.
Proof. intros F. inversion F as [|? a ? l1 H1 F1]; subst. inversion F1 as [|? b ? l2 H2 F2]; subst. inversion F2 as [|? c ? l3 H3 F3]; subst. inversion F3; subst. exists a, b, c. auto. Qed.

Theorem coons_hom j j2 j3 jS C00 C01 C10 C11 (lov hiv : nat -> R) degv (lou hiu : nat -> R) degu :
  wf_nurbs C00 -> wf_nurbs C01 -> wf_nurbs C10 -> wf_nurbs C11 ->
  joinable [C00; C01] 1 [0%nat] lov hiv degv -> joinable [C10; C11] 1 [0%nat] lou hiu degu ->
  (forall c, (0 <= c < 3)%Z -> let at_ := fun C s => pt C c [frac (get_axis C 0) s] in
     at_ C10 0 = at_ C00 0 /\ at_ C10 1 = at_ C01 0 /\ at_ C11 0 = at_ C00 1 /\ at_ C11 1 = at_ C01 1) ->
  exists srf, coons (N:=Rn) j j2 j3 jS C00 C01 C10 C11 = Ok srf /\ wf_nurbs srf /\ n_comp srf = 4%Z /\ length (n_axes srf) = 2%nat /\
    (a_lo (get_axis srf 0) = Rmin 0 (lou 0%nat) /\ a_hi (get_axis srf 0) = Rmax 1 (hiu 0%nat)) /\
    (a_lo (get_axis srf 1) = Rmin 0 (lov 0%nat) /\ a_hi (get_axis srf 1) = Rmax 1 (hiv 0%nat)) /\
    forall s t c, 0 <= s <= 1 -> 0 <= t <= 1 -> (0 <= c < 4)%Z -> let at_ := fun C s => hom C c [frac (get_axis C 0) s] in
      let cor := fun C s => corner_val C (frac (get_axis C 0) s) c in
      hom srf c [frac (get_axis srf 0) s; frac (get_axis srf 1) t] =
        ((1 - s) * at_ C00 t + s * at_ C01 t) + ((1 - t) * at_ C10 s + t * at_ C11 s)
        - ((1 - s) * ((1 - t) * cor C10 0 + t * cor C11 0) + s * ((1 - t) * cor C10 1 + t * cor C11 1)).
Proof.
  intros W00 W01 W10 W11 Jv Ju HC.
  destruct (curve_pair j j2 C00 C01 lov hiv degv W00 W01 Jv) as (o00 & o01 & S0 & Bv & Ec0 & V00 & V01 & (L00 & a00 & b00) & (L01 & a01 & b01) & Hm0 & Er0 & WS0 & CS0 & AS0 & OBv & DBv & loBv & hiBv & apBv & HS0).
  destruct (curve_pair j j2 C10 C11 lou hiu degu W10 W11 Ju) as (o10 & o11 & S1 & Bu & Ec1 & V10 & V11 & (L10 & a10 & b10) & (L11 & a11 & b11) & Hm1 & Er1 & WS1 & CS1 & AS1 & OBu & DBu & loBu & hiBu & apBu & HS1).
  assert (D00 : n_dim C00 = 1%Z) by (unfold n_dim; rewrite (jn_dim _ _ _ _ _ _ Jv C00) by (left; auto); reflexivity).
  assert (D01 : n_dim C01 = 1%Z) by (unfold n_dim; rewrite (jn_dim _ _ _ _ _ _ Jv C01) by (right; left; auto); reflexivity).
  assert (D10 : n_dim C10 = 1%Z) by (unfold n_dim; rewrite (jn_dim _ _ _ _ _ _ Ju C10) by (left; auto); reflexivity).
  assert (D11 : n_dim C11 = 1%Z) by (unfold n_dim; rewrite (jn_dim _ _ _ _ _ _ Ju C11) by (right; left; auto); reflexivity).
  assert (PV : lov 0%nat < hiv 0%nat) by (rewrite <- a00, <- b00; apply wf_lohi_of; auto; lia).
  assert (PU : lou 0%nat < hiu 0%nat) by (rewrite <- a10, <- b10; apply wf_lohi_of; auto; lia).
  (* corner points *)
  assert (K0 : forall l h : R, l + 0 * (h - l) = l) by (intros; ring). assert (K1 : forall l h : R, l + 1 * (h - l) = h) by (intros; ring).
  assert (pt00 : forall c, pt o00 c [lov 0%nat] = pt C00 c [frac (get_axis C00 0) 0] /\ pt o00 c [hiv 0%nat] = pt C00 c [frac (get_axis C00 0) 1] /\
                           pt o01 c [lov 0%nat] = pt C01 c [frac (get_axis C01 0) 0] /\ pt o01 c [hiv 0%nat] = pt C01 c [frac (get_axis C01 0) 1]).
  { intros c. unfold pt. pose proof (fun c => Hm0 0 c ltac:(lra)) as Q0. pose proof (fun c => Hm0 1 c ltac:(lra)) as Q1. rewrite K0 in Q0. rewrite K1 in Q1.
    destruct (Q0 c) as [-> ->], (Q1 c) as [-> ->], (Q0 3%Z) as [-> ->], (Q1 3%Z) as [-> ->]. auto. }
  assert (pt10 : forall c, pt o10 c [lou 0%nat] = pt C10 c [frac (get_axis C10 0) 0] /\ pt o10 c [hiu 0%nat] = pt C10 c [frac (get_axis C10 0) 1] /\
                           pt o11 c [lou 0%nat] = pt C11 c [frac (get_axis C11 0) 0] /\ pt o11 c [hiu 0%nat] = pt C11 c [frac (get_axis C11 0) 1]).
  { intros c. unfold pt. pose proof (fun c => Hm1 0 c ltac:(lra)) as Q0. pose proof (fun c => Hm1 1 c ltac:(lra)) as Q1. rewrite K0 in Q0. rewrite K1 in Q1.
    destruct (Q0 c) as [-> ->], (Q1 c) as [-> ->], (Q0 3%Z) as [-> ->], (Q1 3%Z) as [-> ->]. auto. }
  destruct (at1_ok j j2 j3 jS o10 (lou 0%nat)) as (P00 & EP00 & HP00); auto; [rewrite a10, b10; lra|].
  destruct (at1_ok j j2 j3 jS o10 (hiu 0%nat)) as (P10 & EP10 & HP10); auto; [rewrite a10, b10; lra|].
  destruct (at1_ok j j2 j3 jS o11 (lou 0%nat)) as (P01 & EP01 & HP01); auto; [rewrite a11, b11; lra|].
  destruct (at1_ok j j2 j3 jS o11 (hiu 0%nat)) as (P11 & EP11 & HP11); auto; [rewrite a11, b11; lra|].
  destruct (at1_ok j j2 j3 jS o00 (lov 0%nat)) as (Q00 & EQ00 & HQ00); auto; [rewrite a00, b00; lra|].
  destruct (at1_ok j j2 j3 jS o00 (hiv 0%nat)) as (Q01 & EQ01 & HQ01); auto; [rewrite a00, b00; lra|].
  destruct (at1_ok j j2 j3 jS o01 (lov 0%nat)) as (Q10 & EQ10 & HQ10); auto; [rewrite a01, b01; lra|].
  destruct (at1_ok j j2 j3 jS o01 (hiv 0%nat)) as (Q11 & EQ11 & HQ11); auto; [rewrite a01, b01; lra|].
  assert (CL : close3 (N:=Rn) P00 Q00 && close3 (N:=Rn) P01 Q01 && close3 (N:=Rn) P10 Q10 && close3 (N:=Rn) P11 Q11 = true).
  { rewrite !close3_eq; auto; intros c Hc; destruct (HC c Hc) as (c1 & c2 & c3 & c4); destruct (pt00 c) as (p1 & p2 & p3 & p4); destruct (pt10 c) as (q1 & q2 & q3 & q4).
    - rewrite HP11, HQ11. congruence.
    - rewrite HP10, HQ10. congruence.
    - rewrite HP01, HQ01. congruence.
    - rewrite HP00, HQ00. congruence. }
  destruct (transpose2 S0 Bv unit_axis AS0 WS0) as (S0t & ET & AT & CT & WT & HT).
  destruct (bilinear_hom j P00 P01 P10 P11) as (B & EB & AB & CB & WB & HB).
  (* the three surfaces *)
  set (lo := fun a : nat => if Nat.eqb a 0 then Rmin 0 (lou 0%nat) else Rmin 0 (lov 0%nat)).
  set (hi := fun a : nat => if Nat.eqb a 0 then Rmax 1 (hiu 0%nat) else Rmax 1 (hiv 0%nat)).
  set (deg := fun a : nat => if Nat.eqb a 0 then degu 0%nat else degv 0%nat).
  pose proof WS1 as (_ & WS1a & _). unfold spec_axes in WS1a. rewrite AS1 in WS1a. inversion WS1a as [|? ? wBu _]; subst. clear WS1a.
  pose proof WS0 as (_ & WS0a & _). unfold spec_axes in WS0a. rewrite AS0 in WS0a. inversion WS0a as [|? ? wBv _]; subst. clear WS0a.
  assert (G0 : get_axis S0t 0 = unit_axis /\ get_axis S0t 1 = Bv) by (unfold get_axis; rewrite AT; auto).
  assert (G1 : get_axis S1 0 = Bu /\ get_axis S1 1 = unit_axis) by (unfold get_axis; rewrite AS1; auto).
  assert (G2 : get_axis B 0 = unit_axis /\ get_axis B 1 = unit_axis) by (unfold get_axis; rewrite AB; auto).
  destruct G0 as [G00 G01], G1 as [G10 G11], G2 as [G20 G21].
  assert (dBu : (1 <= degu 0%nat)%Z) by (rewrite <- DBu; apply wBu). assert (dBv : (1 <= degv 0%nat)%Z) by (rewrite <- DBv; apply wBv).
  pose proof (Rmin_l 0 (lou 0%nat)) as Mu1. pose proof (Rmin_r 0 (lou 0%nat)) as Mu2. pose proof (Rmax_l 1 (hiu 0%nat)) as Mu3. pose proof (Rmax_r 1 (hiu 0%nat)) as Mu4.
  pose proof (Rmin_l 0 (lov 0%nat)) as Mv1. pose proof (Rmin_r 0 (lov 0%nat)) as Mv2. pose proof (Rmax_l 1 (hiv 0%nat)) as Mv3. pose proof (Rmax_r 1 (hiv 0%nat)) as Mv4.
  assert (AX : forall nrb a, In nrb [S0t; S1; B] -> In a [0%nat; 1%nat] -> get_axis nrb a = unit_axis \/ get_axis nrb a = if Nat.eqb a 0 then Bu else Bv).
  { intros nrb a [<-|[<-|[<-|[]]]] [<-|[<-|[]]]; cbn [Nat.eqb]; auto. }
  assert (J3 : joinable [S0t; S1; B] 2 [0%nat; 1%nat] lo hi deg).
  { constructor.
    - intros nrb [<-|[<-|[<-|[]]]]; [rewrite AT|rewrite AS1|rewrite AB]; reflexivity.
    - intros a [<-|[<-|[]]]; lia.
    - constructor; [intros [|[]]; discriminate|]. constructor; [intros []|constructor].
    - intros nrb a I Ia. destruct (AX nrb a I Ia) as [-> | ->]; [apply unit_open|]. destruct (Nat.eqb a 0); auto.
    - intros nrb a I Ia. cbv zeta. unfold lo, hi, deg. destruct (AX nrb a I Ia) as [-> | ->]; destruct (Nat.eqb a 0);
        rewrite ?loBu, ?hiBu, ?loBv, ?hiBv, ?DBu, ?DBv; change (a_lo unit_axis) with 0; change (a_hi unit_axis) with 1; change (a_deg unit_axis) with 1%Z; (split; [|split]); auto; lia.
    - intros a [<-|[<-|[]]]; cbn [lo hi deg Nat.eqb].
      + split; [unfold Rmin; destruct (Rle_dec 0 (lou 0%nat)); [exists S0t; rewrite G00|exists S1; rewrite G10]; split; auto; cbn; auto|].
        split; [unfold Rmax; destruct (Rle_dec 1 (hiu 0%nat)); [exists S1; rewrite G10|exists S0t; rewrite G00]; split; auto; cbn; auto|].
        exists S1. rewrite G10. split; auto. cbn; auto.
      + split; [unfold Rmin; destruct (Rle_dec 0 (lov 0%nat)); [exists S1; rewrite G11|exists S0t; rewrite G01]; split; auto; cbn; auto|].
        split; [unfold Rmax; destruct (Rle_dec 1 (hiv 0%nat)); [exists S0t; rewrite G01|exists S1; rewrite G11]; split; auto; cbn; auto|].
        exists S0t. rewrite G01. split; auto. cbn; auto.
    - intros nrb a I Ia. cbv zeta. unfold deg. destruct (AX nrb a I Ia) as [-> | ->]; [right; left; cbn; lia|left; destruct (Nat.eqb a 0); auto].
    - intros a nrb nrb' i i' Ia I I'. cbv zeta. intros Hi Hi'.
      assert (OR : forall n, In n [S0t; S1; B] -> get_axis n a = (if Nat.eqb a 0 then Bu else Bv) \/ get_axis n a = unit_axis) by (intros n Hn; destruct (AX n a Hn Ia); auto).
      apply (hull_apart (if Nat.eqb a 0 then Bu else Bv)); auto; unfold lo, hi; destruct (Nat.eqb a 0); auto; rewrite ?loBu, ?hiBu, ?loBv, ?hiBv; auto. }
  destruct (compat_user j j2 [S0t; S1; B] None 2 [0%nat; 1%nat] lo hi deg) as (outs & E3 & F & SM); auto; [cbn; lia|reflexivity|intros nrb [<-|[<-|[<-|[]]]]; auto|].
  destruct (Forall2_3 _ _ _ _ _ F) as (T0 & T1 & T2 & EO & Z0 & Z1 & Z2). subst outs. clear F.
  destruct Z0 as (VT0 & NT0 & LT0 & _ & _ & MT0 & _). destruct Z1 as (VT1 & NT1 & LT1 & _ & _ & MT1 & _). destruct Z2 as (VT2 & NT2 & LT2 & AT2 & _ & MT2 & _).
  assert (SA : forall T a, In T [T0; T1; T2] -> (a < 2)%nat -> a_size (get_axis T a) = a_size (get_axis T2 a) /\ a_len (get_axis T a) = a_len (get_axis T2 a) /\
    (forall j, (0 <= j < a_len (get_axis T a))%Z -> a_knots (get_axis T a) j = a_knots (get_axis T2 a) j)).
  { intros T a IT Ha. destruct (SM a T T2) as (Y1 & Y2 & Y3 & _); auto; [destruct a as [|[|]]; cbn; auto; lia|cbn; auto]. }
  assert (SH : forall T, In T [T0; T1] -> length (n_axes T) = 2%nat -> n_shape T = n_shape T2).
  { intros T IT LT. apply shape_same; [congruence|]. intros a Ha. apply SA; [destruct IT as [<-|[<-|[]]]; cbn; auto|lia]. }
  assert (TS : forall T, In T [T0; T1] -> length (n_axes T) = 2%nat -> wf_nurbs T -> forall c us, hom T c us = tsum (spec_axes T2) (fun i => n_arr T i c) us).
  { intros T IT LT WT' c us. unfold hom. apply tsum_same; [|apply WT']. apply same_axes; [congruence|]. intros a Ha. apply SA; [destruct IT as [<-|[<-|[]]]; cbn; auto|lia]. }
  (* evaluation of coons *)
  unfold coons. rewrite D00, D01, D10, D11. cbn [Z.eqb Pos.eqb andb assert bind]. rewrite Ec0. cbn [bind]. rewrite Ec1. cbn [bind]. cbv zeta.
  rewrite a10, b10, a00, b00. rewrite EP00. cbn [bind]. rewrite EP10. cbn [bind]. rewrite EP01. cbn [bind]. rewrite EP11. cbn [bind].
  rewrite EQ00. cbn [bind]. rewrite EQ01. cbn [bind]. rewrite EQ10. cbn [bind]. rewrite EQ11. cbn [bind]. rewrite CL. cbn [assert bind].
  rewrite Er0. cbn [bind]. rewrite ET. cbn [bind]. rewrite Er1. cbn [bind]. rewrite EB. cbn [bind]. rewrite E3. cbn [bind].
  rewrite (SH T0), (SH T1), shape_eqb_refl by (cbn; auto). cbn [andb].
  pose proof VT2 as (VT2a & VT2b & VT2c).
  destruct (init_built j (n_axes T2) 4 (fun idx c => n_arr T0 idx c + n_arr T1 idx c - n_arr T2 idx c)) as (srf & EI & EA & EC & EN); auto; [lia|lia|].
  exists srf. split; [exact EI|].
  assert (WS : wf_nurbs srf) by (apply (built_wf (n_axes T2)); auto; lia).
  assert (GS : forall a, get_axis srf a = get_axis T2 a) by (intros a; unfold get_axis; rewrite EA; auto).
  destruct (AT2 0%nat) as (_ & _ & lo0 & hi0); [cbn; auto|]. destruct (AT2 1%nat) as (_ & _ & lo1 & hi1); [cbn; auto|]. cbn [lo hi Nat.eqb] in lo0, hi0, lo1, hi1. rewrite !GS.
  split; auto. split; auto. split; [rewrite EA; auto|]. split; auto. split; auto.
  intros s t c Hs Ht Hc. cbv zeta.
  assert (fx : frac (get_axis T2 0) s = lo 0%nat + s * (hi 0%nat - lo 0%nat)) by (unfold frac; rewrite lo0, hi0; reflexivity).
  assert (fy : frac (get_axis T2 1) t = lo 1%nat + t * (hi 1%nat - lo 1%nat)) by (unfold frac; rewrite lo1, hi1; reflexivity).
  set (us := [frac (get_axis T2 0) s; frac (get_axis T2 1) t]).
  assert (MV : forall nrb A0 A1, In nrb [S0t; S1; B] -> get_axis nrb 0 = A0 -> get_axis nrb 1 = A1 -> wf_nurbs nrb -> length (n_axes nrb) = 2%nat ->
     in_box (spec_axes nrb) [frac A0 s; frac A1 t] /\ moved nrb [0%nat; 1%nat] lo hi [frac A0 s; frac A1 t] us).
  { intros nrb A0 A1 I E0 E1 Wn Ln. pose proof (wf_lohi_of nrb 0 Wn ltac:(lia)) as Q0. pose proof (wf_lohi_of nrb 1 Wn ltac:(lia)) as Q1. rewrite E0 in Q0. rewrite E1 in Q1. split.
    - apply in_box2; auto. rewrite E0, E1. split; apply frac_dom; auto.
    - split; [reflexivity|]. intros b Hb. cbn in Hb. destruct b as [|[|]]; [| |lia].
      + destruct (in_dec Nat.eq_dec 0%nat [0%nat; 1%nat]) as [_|N]; [|exfalso; apply N; cbn; auto]. unfold us. cbn [nth]. rewrite E0. rewrite rescale_frac by auto. exact fx.
      + destruct (in_dec Nat.eq_dec 1%nat [0%nat; 1%nat]) as [_|N]; [|exfalso; apply N; cbn; auto]. unfold us. cbn [nth]. rewrite E1. rewrite rescale_frac by auto. exact fy. }
  assert (uf : forall x, frac unit_axis x = x) by (intros x; unfold frac; change (a_lo unit_axis) with 0; change (a_hi unit_axis) with 1; ring).
  destruct (MV S0t unit_axis Bv) as [IB0 MV0]; auto; [cbn; auto|rewrite AT; auto|].
  destruct (MV S1 Bu unit_axis) as [IB1 MV1]; auto; [cbn; auto|rewrite AS1; auto|].
  destruct (MV B unit_axis unit_axis) as [IB2 MV2]; auto; [cbn; auto|rewrite AB; auto|]. rewrite !uf in *.
  destruct (MT0 _ _ IB0 MV0) as [IU R0]. destruct (MT1 _ _ IB1 MV1) as [_ R1]. destruct (MT2 _ _ IB2 MV2) as [IU2 R2].
  pose proof (in_box_length _ _ IU2) as Lu.
  unfold hom at 1. replace (spec_axes srf) with (spec_axes T2) by (unfold spec_axes; rewrite EA; auto).
  rewrite (tsum_ext _ _ (fun i => (n_arr T0 i c + n_arr T1 i c) - n_arr T2 i c)) by (auto; intros; rewrite EN; reflexivity).
  rewrite tsum_minus, tsum_plus by auto. rewrite <- (TS T0), <- (TS T1) by (cbn; auto). fold (hom T2 c us). rewrite R0, R1, R2.
  rewrite HT. rewrite HB by auto.
  assert (fv : frac Bv t = lov 0%nat + t * (hiv 0%nat - lov 0%nat)) by (unfold frac; rewrite loBv, hiBv; reflexivity).
  assert (fu : frac Bu s = lou 0%nat + s * (hiu 0%nat - lou 0%nat)) by (unfold frac; rewrite loBu, hiBu; reflexivity).
  rewrite fv, fu, HS0, HS1 by auto. unfold corner_val.
  destruct (pt10 c) as (q1 & q2 & q3 & q4). rewrite <- q1, <- q2, <- q3, <- q4, HP00, HP01, HP10, HP11. reflexivity.
Qed.

(** ** Interpolation of the sides *)
Lemma open_ends crv c : wf_nurbs crv -> length (n_axes crv) = 1%nat -> open_axis (get_axis crv 0) ->
  hom crv c [frac (get_axis crv 0) 0] = n_arr crv [0%Z] c /\ hom crv c [frac (get_axis crv 0) 1] = n_arr crv [(a_size (get_axis crv 0) - 1)%Z] c.
Proof.
  intros W L [[H1 H2] _]. destruct W as (_ & W & _). unfold hom, spec_axes, get_axis in *. destruct (n_axes crv) as [|A [|]]; try discriminate. cbn [nth map] in *.
  rewrite frac_0, frac_1. rewrite a_lo_eq, a_hi_eq. split.
  - apply (tsum_corner [spec_ax A] [false] (fun i => n_arr crv i c) W). constructor; [|constructor]. cbn. intros j Hj. apply H1. lia.
  - apply (tsum_corner [spec_ax A] [true] (fun i => n_arr crv i c) W). constructor; [|constructor]. cbn. intros j Hj. apply H2. lia.
Qed.
Theorem coons_sides j j2 j3 jS C00 C01 C10 C11 f00 f01 f10 f11 (lov hiv : nat -> R) degv (lou hiu : nat -> R) degu :
  shows C00 f00 -> shows C01 f01 -> shows C10 f10 -> shows C11 f11 ->
  joinable [C00; C01] 1 [0%nat] lov hiv degv -> joinable [C10; C11] 1 [0%nat] lou hiu degu ->
  (forall C, In C [C00; C01; C10; C11] -> n_arr C [0%Z] 3%Z = 1 /\ n_arr C [(a_size (get_axis C 0) - 1)%Z] 3%Z = 1) ->
  let at_ := fun C s => [frac (get_axis C 0) s] in
  (forall c, (0 <= c < 3)%Z -> f10 (at_ C10 0) c = f00 (at_ C00 0) c /\ f10 (at_ C10 1) c = f01 (at_ C01 0) c /\
                               f11 (at_ C11 0) c = f00 (at_ C00 1) c /\ f11 (at_ C11 1) c = f01 (at_ C01 1) c) ->
  exists srf g, coons (N:=Rn) j j2 j3 jS C00 C01 C10 C11 = Ok srf /\ shows srf g /\ length (n_axes srf) = 2%nat /\
    forall s c, 0 <= s <= 1 -> (0 <= c < 3)%Z -> let U := get_axis srf 0 in let V := get_axis srf 1 in
      g [a_lo U; frac V s] c = f00 (at_ C00 s) c /\ g [a_hi U; frac V s] c = f01 (at_ C01 s) c /\
      g [frac U s; a_lo V] c = f10 (at_ C10 s) c /\ g [frac U s; a_hi V] c = f11 (at_ C11 s) c.
Proof.
  intros S00 S01 S10 S11 Jv Ju HW at_ HC. pose proof (proj1 S00) as W00. pose proof (proj1 S01) as W01. pose proof (proj1 S10) as W10. pose proof (proj1 S11) as W11.
  assert (OPN : forall C, In C [C00; C01; C10; C11] -> wf_nurbs C /\ length (n_axes C) = 1%nat /\ open_axis (get_axis C 0)).
  { intros C [<-|[<-|[<-|[<-|[]]]]]; (split; [auto|]); split; [apply (jn_dim _ _ _ _ _ _ Jv)|apply (jn_open _ _ _ _ _ _ Jv)|apply (jn_dim _ _ _ _ _ _ Jv)|apply (jn_open _ _ _ _ _ _ Jv)
      |apply (jn_dim _ _ _ _ _ _ Ju)|apply (jn_open _ _ _ _ _ _ Ju)|apply (jn_dim _ _ _ _ _ _ Ju)|apply (jn_open _ _ _ _ _ _ Ju)]; cbn; auto. }
  assert (FB : forall C s, In C [C00; C01; C10; C11] -> 0 <= s <= 1 -> in_box (spec_axes C) (at_ C s)).
  { intros C s I Hs. destruct (OPN C I) as (Wc & Lc & _). apply in_box1; auto. apply frac_dom; auto. apply wf_lohi_of; auto; lia. }
  assert (P00 : forall s c, 0 <= s <= 1 -> (0 <= c < 3)%Z -> pt C00 c (at_ C00 s) = f00 (at_ C00 s) c) by (intros; apply shows_elim; auto; apply FB; cbn; auto).
  assert (P01 : forall s c, 0 <= s <= 1 -> (0 <= c < 3)%Z -> pt C01 c (at_ C01 s) = f01 (at_ C01 s) c) by (intros; apply shows_elim; auto; apply FB; cbn; auto).
  assert (P10 : forall s c, 0 <= s <= 1 -> (0 <= c < 3)%Z -> pt C10 c (at_ C10 s) = f10 (at_ C10 s) c) by (intros; apply shows_elim; auto; apply FB; cbn; auto).
  assert (P11 : forall s c, 0 <= s <= 1 -> (0 <= c < 3)%Z -> pt C11 c (at_ C11 s) = f11 (at_ C11 s) c) by (intros; apply shows_elim; auto; apply FB; cbn; auto 10).
  assert (PC : forall c, (0 <= c < 3)%Z -> pt C10 c (at_ C10 0) = pt C00 c (at_ C00 0) /\ pt C10 c (at_ C10 1) = pt C01 c (at_ C01 0) /\
                               pt C11 c (at_ C11 0) = pt C00 c (at_ C00 1) /\ pt C11 c (at_ C11 1) = pt C01 c (at_ C01 1)).
  { intros c Hc. rewrite !P00, !P01, !P10, !P11 by (auto; lra). apply HC. auto. }
  destruct (coons_hom j j2 j3 jS C00 C01 C10 C11 lov hiv degv lou hiu degu W00 W01 W10 W11 Jv Ju PC) as (srf & E & W & Cc & L & _ & _ & H).
  exists srf, (fun us c => pt srf c us). split; auto. split; [apply shows_intro; auto|]. split; auto.
  assert (ONE : forall C s, In C [C00; C01; C10; C11] -> s = 0 \/ s = 1 -> hom C 3 (at_ C s) = 1).
  { intros C s I Hs. destruct (OPN C I) as (Wc & Lc & Oc). destruct (open_ends C 3 Wc Lc Oc) as [X0 X1]. destruct (HW C I) as [Y0 Y1].
    destruct Hs as [-> | ->]; [etransitivity; [exact X0|exact Y0]|etransitivity; [exact X1|exact Y1]]. }
  assert (CV : forall C s c, In C [C00; C01; C10; C11] -> s = 0 \/ s = 1 -> (0 <= c < 4)%Z -> corner_val C (frac (get_axis C 0) s) c = hom C c (at_ C s)).
  { intros C s c I Hs Hc. unfold corner_val. destruct (Z.ltb_spec c 3).
    - unfold pt. fold (at_ C s). rewrite (ONE C s) by auto. unfold Rdiv. rewrite Rinv_1. ring.
    - assert (c = 3%Z) by lia. subst c. rewrite ONE; auto. }
  assert (HP : forall c, (0 <= c < 4)%Z -> hom C10 c (at_ C10 0) = hom C00 c (at_ C00 0) /\ hom C10 c (at_ C10 1) = hom C01 c (at_ C01 0) /\
                               hom C11 c (at_ C11 0) = hom C00 c (at_ C00 1) /\ hom C11 c (at_ C11 1) = hom C01 c (at_ C01 1)).
  { intros c Hc. rewrite <- !(CV _ _ c) by (cbn; auto 10). unfold corner_val. destruct (Z.ltb_spec c 3); [apply PC; lia|auto]. }
  assert (I00 : In C00 [C00; C01; C10; C11]) by (cbn; auto). assert (I01 : In C01 [C00; C01; C10; C11]) by (cbn; auto).
  assert (I10 : In C10 [C00; C01; C10; C11]) by (cbn; auto). assert (I11 : In C11 [C00; C01; C10; C11]) by (cbn; auto 10).
  cbv zeta in H.
  assert (HS : forall s t c, 0 <= s <= 1 -> 0 <= t <= 1 -> (0 <= c < 4)%Z -> hom srf c [frac (get_axis srf 0) s; frac (get_axis srf 1) t] =
        ((1 - s) * hom C00 c (at_ C00 t) + s * hom C01 c (at_ C01 t)) + ((1 - t) * hom C10 c (at_ C10 s) + t * hom C11 c (at_ C11 s))
        - ((1 - s) * ((1 - t) * hom C10 c (at_ C10 0) + t * hom C11 c (at_ C11 0)) + s * ((1 - t) * hom C10 c (at_ C10 1) + t * hom C11 c (at_ C11 1)))).
  { intros s t c Hs Ht Hc. rewrite H by auto. rewrite !CV by auto. reflexivity. }
  intros s c Hs Hc. cbv zeta. rewrite <- P00, <- P01, <- P10, <- P11 by auto. unfold pt.
  assert (Q : forall c, (0 <= c < 4)%Z ->
     hom srf c [frac (get_axis srf 0) 0; frac (get_axis srf 1) s] = hom C00 c (at_ C00 s) /\ hom srf c [frac (get_axis srf 0) 1; frac (get_axis srf 1) s] = hom C01 c (at_ C01 s) /\
     hom srf c [frac (get_axis srf 0) s; frac (get_axis srf 1) 0] = hom C10 c (at_ C10 s) /\ hom srf c [frac (get_axis srf 0) s; frac (get_axis srf 1) 1] = hom C11 c (at_ C11 s)).
  { clear c Hc. intros c Hc. destruct (HP c Hc) as (h1 & h2 & h3 & h4). rewrite !HS by (auto; lra). rewrite !h1, !h2, !h3, !h4. repeat split; ring. }
  assert (DIV : forall a b a' b' : R, a = a' -> b = b' -> a / b = a' / b') by (intros; subst; auto).
  destruct (Q c ltac:(lia)) as (q1 & q2 & q3 & q4). destruct (Q 3%Z ltac:(lia)) as (r1 & r2 & r3 & r4).
  rewrite frac_0 in q1, q3, r1, r3. rewrite frac_1 in q2, q4, r2, r4. split; [|split; [|split]]; apply DIV; auto.
Qed.
