(** Further consequences of the uniqueness of the control net: evaluation determines it, repeated
    operations along one axis combine. *)
From Coq Require Import ZArith Reals List Lia Lra Bool Permutation Relations.
From Verif Require Import Num Loop ModelBspline ModelBSp ModelNurbs ModelIga ModelCad Spec SpecElev SpecCompat SumZ BPiece BLink BIndep ProofSpan BInsert BRep
  ProofInsert ProofCut SpecNurbs ProofNet ProofCall ProofNurbs ProofMethods ProofMethods2 ProofMethods3 ProofGeom ProofGeom2 ProofOk ProofSlice ProofIga ProofIga2
  ProofElev1 ProofElev4 ProofElev5 ProofClamp ProofUnclamp ProofCompat1 ProofCompat3 ProofRemove4 ProofUniq.
Import ListNotations.
Local Open Scope R_scope.

(** ** Evaluation determines the control points, given the weights *)
Lemma same_knots_axes x y : wf_nurbs x -> same_knots x y ->
  Forall2 (fun a b => x_n b = x_n a /\ x_p b = x_p a /\ (0 <= x_n a)%Z /\ (0 <= x_p a)%Z /\
    forall i, (0 <= i <= x_n a + x_p a + 1)%Z -> x_U b i = x_U a i) (spec_axes x) (spec_axes y).
Proof.
  intros (_ & W & _) K. unfold spec_axes in *. unfold same_knots in K. clear - W K.
  revert W. induction K as [|A B l l' (E1 & E2 & E3) K IH]; cbn [map]; intros W; constructor.
  - inversion W as [|? ? [Hp Wk] W']; subst. pose proof (wf_n _ _ _ Wk) as Hn. cbn [spec_ax x_n x_p x_U] in *.
    unfold a_deg in *. rewrite E1, E2. repeat split; try lia. intros i Hi. apply E3. lia.
  - inversion W; subst. apply IH; auto.
Qed.
Definition singles (us : list R) : list (vec Rn) := map (fun u => mkVec (N:=Rn) 1 (fun _ => u)) us.
Lemma singles_good axs us : in_box axs us -> good_args axs (singles us).
Proof. intros H. induction H; simpl; constructor; auto. cbn [v_len v_get]. split; [lia|]. auto. Qed.
Lemma singles_params us : params (singles us) (map (fun _ => 0%Z) us) = us.
Proof. induction us; simpl; congruence. Qed.
Lemma singles_range us : in_range (singles us) (map (fun _ => 0%Z) us).
Proof. induction us; simpl; constructor; auto. cbn [v_len]. lia. Qed.
Lemma tsum_ext axs : forall P Q us, in_box axs us -> (forall idx, in_net axs idx -> P idx = Q idx) -> tsum axs P us = tsum axs Q us.
Proof.
  induction axs as [|a axs IH]; intros P Q us I H; inversion I; subst; simpl; [apply H; constructor|].
  apply sumZ_ext. intros j Hj. f_equal. apply IH; auto. intros idx Hi. apply H. constructor; auto.
Qed.
(** Every evaluation of the two objects returns the same points and the same field values. *)
Definition evaluate_alike (x y : nurbs Rn) : Prop :=
  forall xs j j2 j3 jS k k2 k3 kS C F C' F', good_args (spec_axes x) xs ->
  call (N:=Rn) j j2 j3 jS x (map Some xs) FYes = Ok (C, Some F) -> call (N:=Rn) k k2 k3 kS y (map Some xs) FYes = Ok (C', Some F') ->
  forall idx c, in_range xs idx -> ((0 <= c < 3)%Z -> C' idx c = C idx c) /\ ((0 <= c < n_comp x - 4)%Z -> F' idx c = F idx c).
Theorem evaluation_determines x y : wf_nurbs x -> wf_nurbs y -> same_knots x y -> n_comp y = n_comp x -> bounded_knots x ->
  positive_weights x -> (forall idx, in_net (spec_axes x) idx -> n_arr y idx 3%Z = n_arr x idx 3%Z) ->
  evaluate_alike x y -> same_data x y.
Proof.
  intros Wx Wy K C Bk Pw Ew S. apply net_unique; auto. intros us c I Hc.
  pose proof (same_knots_axes x y Wx K) as KA.
  assert (H3 : hom y 3 us = hom x 3 us).
  { unfold hom. rewrite (tsum_axes (spec_axes x) (spec_axes y)); auto. apply tsum_ext; auto. }
  pose proof (weight_pos x us Wx Pw I) as P3.
  assert (I' : in_box (spec_axes y) us).
  { clear - I KA. revert us I. induction KA as [|a b l l' (E1 & E2 & H1 & H2 & E3) KA IH]; intros us I; inversion I; subst; constructor.
    - unfold in_domain in *. rewrite E1, E2. rewrite !E3 by lia. auto.
    - apply IH. auto. }
  assert (Q : pt x c us = pt y c us).
  { destruct (Z.eq_dec c 3) as [->|N3]; [unfold pt; rewrite H3; reflexivity|].
    pose (e := fun _ : Z => 0). pose (e2 := fun _ _ : Z => 0). pose (e3 := fun (_ _ _ : Z) => 0). pose (eS := fun (_ : Z) => 0%Z).
    destruct (call_pt x (singles us) Wx (singles_good _ _ I) e e2 e3 eS) as (Cx & Fx & EX & VX).
    destruct (call_pt y (singles us) Wy (singles_good _ _ I') e e2 e3 eS) as (Cy & Fy & EY & VY).
    pose proof (fun d => S (singles us) _ _ _ _ _ _ _ _ _ _ _ _ (singles_good _ _ I) EX EY (map (fun _ => 0%Z) us) d (singles_range us)) as V.
    pose proof (fun d => VX (map (fun _ => 0%Z) us) d (singles_range us)) as VX'. pose proof (fun d => VY (map (fun _ => 0%Z) us) d (singles_range us)) as VY'.
    rewrite (singles_params us) in VX', VY'.
    destruct (Z_lt_le_dec c 3).
    - destruct (V c) as [V1 _]. destruct (VX' c) as [X1 _]. destruct (VY' c) as [Y1 _]. rewrite <- X1, <- Y1. symmetry. apply V1. lia.
    - destruct (V (c - 4)%Z) as [_ V1]. destruct (VX' (c - 4)%Z) as [_ X1]. destruct (VY' (c - 4)%Z) as [_ Y1].
      replace (4 + (c - 4))%Z with c in X1, Y1 by lia. rewrite <- X1, <- Y1. symmetry. apply V1. lia. }
  unfold pt in Q. rewrite H3 in Q.
  assert (hom x c us = hom x c us / hom x 3 us * hom x 3 us) as -> by (field; lra).
  rewrite Q. field. lra.
Qed.

(** ** Along one axis *)
Lemma step1 x y : refinement x y -> refinements x y.
Proof. intros H. apply (more x y y H), none. Qed.
Lemma steps_app x y z : refinements x y -> refinements y z -> refinements x z.
Proof. intros H. induction H; auto. intros K. eapply more; [eassumption|auto]. Qed.

Theorem insert_splits x ax a u r s j1 j2 x1 x2 : wf_nurbs x -> bounded_knots x -> py_axis (n_dim x) ax = Ok a -> ins_ok (get_axis x a) u ->
  insert (N:=Rn) j1 x ax u (Some r) = Ok x1 -> insert (N:=Rn) j2 x1 ax u (Some s) = Ok x2 ->
  forall j3, exists y, insert (N:=Rn) j3 x ax u (Some (r + s)%Z) = Ok y /\ same_data x2 y.
Proof.
  intros W Bk Ea Hu E1 E2 j3. pose proof (py_axis_dim _ _ _ Ea) as Ha.
  destruct (insert_effect x ax a u r j1 x1 W Ea Hu E1) as (R1 & Hr & Hm1 & Ef1).
  pose proof (refinement_preserves x x1 W R1) as P1. pose proof (preserves_dim _ _ P1) as D1.
  assert (Hu1 : ins_ok (get_axis x1 a) u) by (apply (ins_ok_after x ax a u r j1 x1 a u W Ea Hu E1 Ha Hu); auto).
  destruct (insert_effect x1 ax a u s j2 x2 (pr_wf _ _ P1) (dim_py x x1 _ _ D1 Ea) Hu1 E2) as (R2 & Hs & Hm2 & Ef2).
  pose proof (refinement_preserves x1 x2 (pr_wf _ _ P1) R2) as P2. pose proof (preserves_dim _ _ P2) as D2.
  pose proof (insert_in x ax a u r j1 x1 W Ea Hu E1) as Iu. destruct (Ef1 a Ha) as [G1 M1].
  rewrite G1, M1, Nat.eqb_refl in Hm2. destruct (Req_EM_T u u) as [_|]; [|congruence].
  destruct (insert_accepts x ax a u (r + s) j3 W Ea Hu Iu) as [y F]; [lia|lia|].
  destruct (insert_effect x ax a u (r + s) j3 y W Ea Hu F) as (R3 & _ & _ & Ef3).
  pose proof (refinement_preserves x y W R3) as P3. pose proof (preserves_dim _ _ P3) as D3.
  exists y. split; auto. apply (path_independent x); auto.
  - apply (more x x1 x2 R1), (more x1 x2 x2 R2), none.
  - apply (more x y y R3), none.
  - apply same_knots_of; [apply P2|apply P3|lia|]. intros c Hc. destruct (Ef1 c ltac:(lia)) as [K1 K2]. destruct (Ef2 c ltac:(lia)) as [K3 K4]. destruct (Ef3 c ltac:(lia)) as [K5 K6].
    split; [congruence|]. intros w. rewrite K4, K2, K6. destruct (Nat.eqb c a); [destruct (Req_EM_T w u)|]; lia.
  - apply bounded_of. intros c Hc w. destruct (Ef1 c ltac:(lia)) as [K1 K2]. destruct (Ef2 c ltac:(lia)) as [K3 K4]. rewrite K4, K2, K3, K1.
    pose proof (bounded_at x c Bk ltac:(lia) w) as Bc. destruct (Nat.eqb_spec c a) as [->|]; [destruct (Req_EM_T w u) as [->|]|]; lia.
Qed.

(** Values inserted one after the other, each once. *)
Fixpoint insert_each (junk : Z -> R) (x : nurbs Rn) (ax : Z) (values : list R) : res (nurbs Rn) :=
  match values with
  | [] => Ok x
  | v :: l => let* y := insert (N:=Rn) junk x ax v (Some 1%Z) in insert_each junk y ax l
  end.
Lemma insert_each_spec junk ax a : forall values x, wf_nurbs x -> py_axis (n_dim x) ax = Ok a ->
  (forall v, In v values -> ins_ok (get_axis x a) v /\ a_lo (get_axis x a) < v < a_hi (get_axis x a) /\
     forall w, In w values -> v = w \/ / 4503599627370496 <= Rabs (v - w)) ->
  (forall v, In v values -> (mulA (get_axis x a) v + countL v values <= a_deg (get_axis x a))%Z) ->
  exists y, insert_each junk x ax values = Ok y /\ refinements x y /\
    forall b, (b < length (n_axes x))%nat -> a_deg (get_axis y b) = a_deg (get_axis x b) /\
      forall v, mulA (get_axis y b) v = (mulA (get_axis x b) v + (if Nat.eqb b a then countL v values else 0))%Z.
Proof.
  induction values as [|v l IH]; intros x W Ea H1 H2; cbn [insert_each].
  - exists x. split; auto. split; [apply none|]. intros b Hb. split; auto. intros w. simpl. destruct (Nat.eqb b a); lia.
  - pose proof (py_axis_dim _ _ _ Ea) as Ha.
    destruct (H1 v (or_introl eq_refl)) as (Hv & Iv & Av). pose proof (H2 v (or_introl eq_refl)) as Mv. simpl in Mv.
    destruct (Req_EM_T v v) as [_|]; [|congruence]. pose proof (countL_nonneg v l) as Cl.
    destruct (insert_accepts x ax a v 1 junk W Ea Hv) as [y E]; [lra|lia|lia|]. rewrite E. cbn [bind].
    destruct (insert_effect x ax a v 1 junk y W Ea Hv E) as (R1 & _ & _ & Ef). pose proof (refinement_preserves x y W R1) as P. pose proof (preserves_dim _ _ P) as D.
    destruct (Ef a Ha) as [G M]. rewrite Nat.eqb_refl in M. destruct (dom_ends _ _ a P Ha) as [L H].
    destruct (IH y (pr_wf _ _ P) (dim_py x y _ _ D Ea)) as (z & Ez & Rz & Hz).
    + intros w Hw. destruct (H1 w (or_intror Hw)) as (Hw1 & Iw & Aw). split; [|split].
      * apply (ins_ok_after x ax a v 1 junk y a w W Ea Hv E Ha Hw1). intros _. apply Av. right; auto.
      * rewrite L, H. auto.
      * intros w' Hw'. apply Aw. right; auto.
    + intros w Hw. rewrite M, G. pose proof (H2 w (or_intror Hw)) as Mw. simpl in Mw. destruct (Req_EM_T w v), (Req_EM_T v w); try congruence; lia.
    + exists z. split; auto. split; [apply (more x y z R1 Rz)|]. intros b Hb. destruct (Ef b Hb) as [K1 K2]. destruct (Hz b ltac:(lia)) as [K3 K4].
      split; [congruence|]. intros w. rewrite K4, K2. simpl. destruct (Nat.eqb b a); [|lia]. destruct (Req_EM_T w v), (Req_EM_T v w); try congruence; lia.
Qed.
Theorem refine_is_inserts x ax a values junk y : wf_nurbs x -> bounded_knots x -> py_axis (n_dim x) ax = Ok a ->
  separated_list (a_knots (get_axis x a)) (a_len (get_axis x a) - 1) values ->
  (forall v, In v values -> a_lo (get_axis x a) < v < a_hi (get_axis x a)) ->
  refine (N:=Rn) junk x ax values = Ok y ->
  forall junk', exists z, insert_each junk' x ax values = Ok z /\ same_data y z.
Proof.
  intros W Bk Ea Hs Hi E junk'. pose proof (py_axis_dim _ _ _ Ea) as Ha. pose proof (wf_get_axis _ _ W Ha) as WA.
  set (A := get_axis x a) in *. pose proof WA as [Hp Wk]. pose proof (wf_n _ _ _ Wk) as Hn. pose proof (wf_mono _ _ _ Wk) as M. cbn [spec_ax x_n x_p x_U] in *.
  assert (LE : (a_len A - 1 = a_size A - 1 + a_deg A + 1)%Z) by (rewrite len_eq; lia). rewrite LE in Hs.
  assert (Hi' : forall v, In v values -> a_knots A (a_deg A) < v < a_knots A (a_size A - 1 + 1)%Z) by (intros v Hv; specialize (Hi v Hv); rewrite a_hi_eq, a_lo_eq in Hi; exact Hi).
  assert (Hh : op_ok (Refine values) A) by (split; auto).
  destruct (op_spec (Refine values) x ax a junk (fun _ _ => 0) y W Ea Hh E) as (P & B & EX & D & Mu). fold A in EX, D, Mu.
  pose proof (preserves_dim _ _ P) as Dm.
  assert (CK : forall v, In v values -> (mulA A v + countL v values <= a_deg A)%Z).
  { intros v Hv. assert (Hne : values <> []) by (intros ->; inversion Hv).
    destruct (proj1 (refine_ok x ax a values junk W Ea Hne) (ex_intro _ y E)) as [_ K]. specialize (K v (or_introl Hv)). fold A in K.
    assert (Em : mulA A v = multiplicity (a_knots A) 1 (a_size A - 1 + a_deg A) v); [|lia]. unfold mulA.
    rewrite (multiplicity_split (a_knots A) 0 0) by lia. rewrite (multiplicity_split (a_knots A) (0 + 1) (a_size A - 1 + a_deg A)) by lia.
    rewrite (multiplicity_none (a_knots A) 0 0), (multiplicity_none (a_knots A) (a_size A - 1 + a_deg A + 1)); [replace (0 + 1)%Z with 1%Z by lia; lia| |].
    - intros j Hj. assert (a_knots A (a_size A - 1 + 1)%Z <= a_knots A j) by (apply M; lia). specialize (Hi' v Hv). lra.
    - intros j Hj. assert (a_knots A j <= a_knots A (a_deg A)) by (apply M; lia). specialize (Hi' v Hv). lra. }
  destruct (insert_each_spec junk' ax a values x W Ea) as (z & Ez & Rz & Hz); fold A; auto.
  { intros v Hv. destruct (Hs v Hv) as [S1 S2]. split; [|split].
    - split; [|left; apply Hi; auto]. apply (sep_iff A v WA). rewrite LE. exact S1.
    - apply Hi; auto.
    - intros w Hw. destruct (S2 w Hw) as [->|K]; auto. right. rewrite Rabs_minus_sym. exact K. }
  exists z. split; auto. pose proof (refinements_preserves x z W Rz) as Pz. pose proof (preserves_dim _ _ Pz) as Dz.
  apply (path_independent x); auto.
  - apply step1. exists (Refine values), ax, a, junk, (fun _ _ => 0). auto.
  - apply same_knots_of; [apply P|apply Pz|lia|]. intros c Hc. destruct (Hz c ltac:(lia)) as [K1 K2]. rewrite (get_lset x y a B c EX Ha).
    destruct (Nat.eqb_spec c a) as [->|Hne]; [split; [fold A in K1; congruence|]|split; auto]; intros w; rewrite K2; [fold A; rewrite Mu; lia|lia].
  - apply bounded_of. intros c Hc w. rewrite (get_lset x y a B c EX Ha). pose proof (bounded_at x c Bk ltac:(lia) w) as Bc.
    destruct (Nat.eqb_spec c a) as [->|Hne]; auto. fold A in Bc. rewrite D, Mu. destruct (in_dec Req_EM_T w values) as [I|I]; [specialize (CK w I); lia|].
    assert (countL w values = 0%Z); [|lia]. clear - I. induction values as [|v l IH]; simpl in *; auto. rewrite IH by tauto. destruct (Req_EM_T v w); [exfalso; auto|lia].
Qed.

Theorem clamp_undoes_unclamp x ax a cont j1 j2 y z : wf_nurbs x -> bounded_knots x -> py_axis (n_dim x) ax = Ok a ->
  clamped (a_size (get_axis x a) - 1) (a_deg (get_axis x a)) (a_knots (get_axis x a)) ->
  ends_separated (get_axis x a) -> unclamp (N:=Rn) j1 x ax None cont = Ok y -> ends_separated (get_axis y a) ->
  clamp (N:=Rn) j2 y ax None = Ok z -> same_data x z.
Proof.
  intros W Bk Ea [C1 C2] S1 E1 S2 E2. pose proof (py_axis_dim _ _ _ Ea) as Ha. pose proof (wf_get_axis _ _ W Ha) as WA.
  destruct (op_spec (Unclamp None cont) x ax a j1 (fun _ _ => 0) y W Ea S1 E1) as (P1 & B1 & X1 & A1).
  pose proof (preserves_dim _ _ P1) as D1.
  destruct (op_spec (Clamp None) y ax a j2 (fun _ _ => 0) z (pr_wf _ _ P1) (dim_py x y _ _ D1 Ea) S2 E2) as (P2 & B2 & X2 & A2).
  pose proof (preserves_dim _ _ P2) as D2.
  apply (path_independent x); auto; [apply none| |].
  - apply (more x y z); [exists (Unclamp None cont), ax, a, j1, (fun _ _ => 0); auto|]. apply step1. exists (Clamp None), ax, a, j2, (fun _ _ => 0).
    split; [apply (dim_py x y _ _ D1 Ea)|auto].
  - assert (G : forall c, (c < length (n_axes x))%nat -> axis_eq (get_axis x c) (get_axis z c)).
    { intros c Hc. rewrite (get_lset y z a B2 c X2 ltac:(lia)), (get_lset x y a B1 c X1 Ha). rewrite (get_lset x y a B1 a X1 Ha), Nat.eqb_refl in A2.
      destruct (Nat.eqb_spec c a) as [->|]; [|split; auto].
      cbn [axis_after side_left side_right] in A1, A2. destruct A1 as (HC & F1 & F2 & (F3 & _ & _)), A2 as (K1 & K2 & K3).
      set (A := get_axis x a) in *. split; [congruence|]. split; [congruence|]. intros i Hi. rewrite K3.
      assert (Dg : a_deg B1 = a_deg A) by (unfold a_deg; congruence). rewrite Dg, F1.
      pose proof WA as [Hp Wk]. pose proof (wf_n _ _ _ Wk) as Hn. cbn [spec_ax x_n x_p x_U] in *. rewrite len_eq in Hi.
      unfold clampLR, clampL, clampR.
      repeat match goal with |- context[(?u <=? ?v)%Z] => destruct (Z.leb_spec u v) end; try lia; cbn [andb];
        rewrite F3 by lia; first [reflexivity | symmetry; apply C1; lia | symmetry; apply C2; lia]. }
    unfold same_knots. assert (L : length (n_axes x) = length (n_axes z)) by lia.
    unfold get_axis in G. revert G L. generalize (n_axes x) (n_axes z). clear. induction l as [|A l IH]; intros [|B l'] G L; try discriminate; constructor.
    + apply (G 0%nat). simpl. lia.
    + apply IH; [|simpl in L; lia]. intros b Hb. apply (G (S b)). simpl. lia.
Qed.

(** Elevating by s and then by t. *)
Theorem elevate_twice x ax a s t junk junk2 : wf_nurbs x -> bounded_knots x -> py_axis (n_dim x) ax = Ok a -> (0 <= s)%Z -> (0 <= t)%Z ->
  let A := get_axis x a in let n := (a_size A - 1)%Z in let p := a_deg A in let U := a_knots A in
  clamped n p U -> no_tiny_span U p n -> mult_le n p U -> (p + s <= 9)%Z ->
  forall k k2 l l2, exists x1 x2 y, elevate (N:=Rn) junk junk2 x ax s = Ok x1 /\ elevate (N:=Rn) k k2 x1 ax t = Ok x2 /\
    elevate (N:=Rn) l l2 x ax (s + t) = Ok y /\ same_data x2 y.
Proof.
  intros W Bk Ea Hs Ht A n p U Cl Nt Ml Hp9 k k2 l l2. pose proof (py_axis_dim _ _ _ Ea) as Ha. pose proof (wf_get_axis _ _ W Ha) as WA. fold A in WA.
  assert (Hh : op_ok (Elevate s) A) by (split; [|split; [|split]]; auto; left; fold p; lia).
  assert (Hh2 : op_ok (Elevate (s + t)) A) by (split; [|split; [|split]]; auto; left; fold p; lia).
  destruct (elevate_geometry x ax a s junk junk2 W Ea Hs Cl Nt Ml) as (x1 & E1 & _ & _); [left; fold A p; lia|].
  destruct (elevate_geometry x ax a (s + t) l l2 W Ea ltac:(lia) Cl Nt Ml) as (y & E3 & _ & _); [left; fold A p; lia|].
  destruct (op_spec (Elevate s) x ax a junk junk2 x1 W Ea Hh E1) as (P1 & B1 & X1 & _ & Dg1 & M1). fold A in M1, Dg1. fold p in Dg1.
  destruct (op_spec (Elevate (s + t)) x ax a l l2 y W Ea Hh2 E3) as (P3 & B3 & X3 & _ & Dg3 & M3). fold A in M3, Dg3. fold p in Dg3.
  pose proof (preserves_dim _ _ P1) as D1. pose proof (preserves_dim _ _ P3) as D3.
  pose proof (dim_py x x1 _ _ D1 Ea) as Ea1. pose proof (py_axis_dim _ _ _ Ea1) as Ha1.
  assert (G1 : get_axis x1 a = B1) by (rewrite (get_lset x x1 a B1 a X1 Ha), Nat.eqb_refl; reflexivity).
  pose proof (wf_get_axis _ _ (pr_wf _ _ P1) Ha1) as WB. rewrite G1 in WB.
  assert (GA : good_ax A) by (split; [exact WA|split; [exact Cl|exact Ml]]).
  destruct (dom_ends _ _ a P1 Ha) as [L1 H1]. rewrite G1 in L1, H1. fold A in L1, H1.
  destruct (good_profile A GA) as (LH & _ & _ & P0 & Pi).
  assert (GB : good_ax B1).
  { apply (good_of B1 (a_lo A) (a_hi A)); auto; intros w Hw; rewrite M1.
    - rewrite P0 by auto. reflexivity.
    - specialize (Pi w Hw). fold p in Pi. destruct (mulA A w =? 0)%Z; destruct WA as [Q _]; cbn in Q; fold p in Q; lia. }
  (* distinct knots of the elevated axis are knots of the original one *)
  assert (NTB : no_tiny_span (a_knots B1) (a_deg B1) (a_size B1 - 1)).
  { intros i Hi. pose proof WB as [Q1 Wk1]. pose proof (wf_mono _ _ _ Wk1) as MB. pose proof (wf_n _ _ _ Wk1) as NB. cbn [spec_ax x_n x_p x_U] in *.
    assert (a_knots B1 i <= a_knots B1 (i + 1)%Z) as [Lt|Eq] by (apply MB; lia); [|left; auto]. right.
    assert (K1 : exists j, (0 <= j <= n + p + 1)%Z /\ U j = a_knots B1 i).
    { apply (mulA_pos A). pose proof (mulA_at B1 i WB ltac:(lia)) as Q. rewrite M1 in Q. pose proof (mulA_nonneg A (a_knots B1 i)). destruct (Z.eqb_spec (mulA A (a_knots B1 i)) 0); lia. }
    assert (K2 : exists j, (0 <= j <= n + p + 1)%Z /\ U j = a_knots B1 (i + 1)%Z).
    { apply (mulA_pos A). pose proof (mulA_at B1 (i + 1) WB ltac:(lia)) as Q. rewrite M1 in Q. pose proof (mulA_nonneg A (a_knots B1 (i + 1)%Z)). destruct (Z.eqb_spec (mulA A (a_knots B1 (i + 1)%Z)) 0); lia. }
    destruct K1 as (j & Hj & Ej), K2 as (j' & Hj' & Ej'). pose proof WA as [Qa Wa]. pose proof (wf_mono _ _ _ Wa) as MA. pose proof (wf_n _ _ _ Wa) as NA. cbn [spec_ax x_n x_p x_U] in *. fold U n p in MA, NA, Qa, Wa.
    assert (j < j')%Z. { destruct (Z_lt_le_dec j j'); auto. assert (U j' <= U j) by (apply MA; lia). lra. }
    destruct (span_between U (Z.to_nat (j' - j)) j) as (q & Hq & Lq); [replace (j + Z.of_nat (Z.to_nat (j' - j)))%Z with j' by lia; lra|].
    assert (U j <= U q) by (apply MA; lia). assert (U (q + 1)%Z <= U j') by (apply MA; lia).
    assert (Hq2 : (p <= q <= n)%Z).
    { destruct Cl as [Cl1 Cl2]. split.
      - destruct (Z_lt_le_dec q p); auto. rewrite (Cl1 q), (Cl1 (q + 1)%Z) in Lq by lia. lra.
      - destruct (Z_le_gt_dec q n); auto. rewrite (Cl2 q), (Cl2 (q + 1)%Z) in Lq by lia. lra. }
    destruct (Nt q Hq2) as [K|K]; [lra|]. rewrite Rabs_minus_sym, Rabs_right in K by lra. rewrite Rabs_minus_sym, Rabs_right by lra. lra. }
  assert (Hh3 : op_ok (Elevate t) (get_axis x1 a)).
  { rewrite G1. destruct GB as (_ & Q1 & Q2). split; [exact Q1|]. split; [exact NTB|]. split; [exact Q2|]. left. rewrite Dg1. exact Hp9. }
  destruct Hh3 as (Q1 & Q2 & Q3 & Q4) eqn:EH. 
  destruct (elevate_geometry x1 ax a t k k2 (pr_wf _ _ P1) Ea1 Ht Q1 Q2 Q3 Q4) as (x2 & E2 & _ & _).
  destruct (op_spec (Elevate t) x1 ax a k k2 x2 (pr_wf _ _ P1) Ea1 Hh3 E2) as (P2 & B2 & X2 & _ & Dg2 & M2). rewrite G1 in M2, Dg2.
  pose proof (preserves_dim _ _ P2) as D2. exists x1, x2, y. split; auto. split; auto. split; auto.
  assert (MX : forall w, mulA B2 w = mulA B3 w).
  { intros w. rewrite M2, M1, M3. pose proof (mulA_nonneg A w). destruct (Z.eqb_spec (mulA A w) 0); [reflexivity|]. destruct (Z.eqb_spec (mulA A w + s) 0); lia. }
  apply (path_independent x); auto.
  - apply (more x x1 x2); [exists (Elevate s), ax, a, junk, junk2; auto|]. apply step1. exists (Elevate t), ax, a, k, k2. auto.
  - apply step1. exists (Elevate (s + t)), ax, a, l, l2. auto.
  - apply same_knots_of; [apply P2|apply P3|lia|]. intros c Hc. rewrite (get_lset x1 x2 a B2 c X2 Ha1), (get_lset x x1 a B1 c X1 Ha), (get_lset x y a B3 c X3 Ha).
    destruct (Nat.eqb_spec c a) as [->|Hne]; [|split; auto]. split; [rewrite Dg2, Dg1, Dg3; lia|apply MX].
  - apply bounded_of. intros c Hc w. rewrite (get_lset x1 x2 a B2 c X2 Ha1), (get_lset x x1 a B1 c X1 Ha).
    pose proof (bounded_at x c Bk ltac:(lia) w) as Bc. destruct (Nat.eqb_spec c a) as [->|Hne]; auto. fold A p in Bc.
    rewrite MX, M3, Dg2, Dg1. destruct WA as [Q _]. cbn in Q. fold p in Q. destruct (Z.eqb_spec (mulA A w) 0); lia.
Qed.
