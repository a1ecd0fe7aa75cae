(** Control nets approach the object when the knot spans become small. *)
From Coq Require Import ZArith Reals List Lia Lra Bool.
From Verif Require Import Num Loop ModelBspline ModelBSp ModelNurbs Spec SpecNurbs SpecShape SumZ ProofSpan ProofNet ProofCall ProofNurbs
  ProofMethods ProofMethods2 ProofGeom ProofGeom2 ProofShape2 ProofOk ProofSlice ProofIga ProofCompat1 ProofCompat3 ProofRemove4 ProofUniq ProofUniq2 ProofDerGeom2
  ProofAvg ProofAvg2 ProofAvg4 ProofVar.
Import ListNotations.
Local Open Scope R_scope.

(** ** Specification *)
Definition axis_of (x : nurbs Rn) (a : nat) : axR := nth a (spec_axes x) (mkAx 0 1 (fun _ => 0)).
(** Along axis a, neighbouring control points differ in homogeneous component k by at most L times the
    distance of the averages of p knots that belong to them. *)
Definition slope (x : nurbs Rn) (a : nat) (k : Z) (L : R) : Prop :=
  forall idx i, in_net (spec_axes x) idx -> let A := axis_of x a in (0 <= i < x_n A)%Z ->
    Rabs (n_arr x (lset a (i + 1)%Z idx) k - n_arr x (lset a i idx) k) <= L * ((x_U A (i + x_p A + 1)%Z - x_U A (i + 1)%Z) / IZR (x_p A)).
(** Consecutive knots of all axes, without the first and the last knot, are at most h apart. *)
Definition spans_within (x : nurbs Rn) (h : R) : Prop :=
  forall a, (a < length (spec_axes x))%nat -> let A := axis_of x a in
    forall i, (1 <= i < x_n A + x_p A)%Z -> x_U A (i + 1)%Z - x_U A i <= h.
(** The calls considered, with the conditions of C11, C13, C17 and C25. *)
Inductive cutting_call (x y : nurbs Rn) : Prop :=
| cut_insert ax a u times junk : py_axis (n_dim x) ax = Ok a -> op_ok (Insert u times) (get_axis x a) -> insert (N:=Rn) junk x ax u times = Ok y -> cutting_call x y
| cut_refine ax a values junk : py_axis (n_dim x) ax = Ok a -> op_ok (Refine values) (get_axis x a) -> refine (N:=Rn) junk x ax values = Ok y -> cutting_call x y
| cut_clamp ax a side junk : py_axis (n_dim x) ax = Ok a -> ends_separated (get_axis x a) -> clamp (N:=Rn) junk x ax side = Ok y -> cutting_call x y
| cut_slice ax a start end_ junk : py_axis (n_dim x) ax = Ok a ->
    (let A := get_axis x a in let n := (a_size A - 1)%Z in let p := a_deg A in let U := a_knots A in
     let u0 := match start with Some v => v | None => U p end in
     let u1 := match end_ with Some v => v | None => U (n + 1)%Z end in
     continuous_axis A /\ separated_list U (n + p + 1) [u0; u1]) ->
    slice (N:=Rn) junk x ax start end_ = Ok y -> cutting_call x y.
Inductive cutting_calls : nurbs Rn -> nurbs Rn -> Prop :=
| cut_none x : cutting_calls x x
| cut_more x y z : cutting_call x y -> cutting_calls y z -> cutting_calls x z.

(** ** Slopes are kept *)
Lemma axis_of_eq x a : (a < length (n_axes x))%nat -> axis_of x a = spec_ax (get_axis x a).
Proof. intros H. unfold axis_of. rewrite (nth_indep _ _ (spec_ax (axis0 (N:=Rn)))) by (unfold spec_axes; rewrite map_length; auto). apply nth_spec_axes. Qed.
Lemma sumZ_abs lo hi f : Rabs (sumZ lo hi f) <= sumZ lo hi (fun i => Rabs (f i)).
Proof.
  apply Rabs_le. split.
  - replace (- sumZ lo hi (fun i => Rabs (f i))) with (sumZ lo hi (fun i => - 1 * Rabs (f i))) by (rewrite sumZ_scal; ring).
    apply sumZ_le. intros j _. pose proof (Rle_abs (- f j)). rewrite Rabs_Ropp in H. lra.
  - apply sumZ_le. intros j _. apply Rle_abs.
Qed.
Lemma mono_steps n (f : Z -> R) : (forall l, (0 <= l < n)%Z -> f l <= f (l + 1)%Z) -> forall i j, (0 <= i)%Z -> (i <= j <= n)%Z -> f i <= f j.
Proof.
  intros H i j Hi Hj. replace j with (i + Z.of_nat (Z.to_nat (j - i)))%Z by lia. assert (K : (Z.to_nat (j - i) <= Z.to_nat (n - i))%nat) by lia.
  induction (Z.to_nat (j - i)) as [|m IH]; [replace (i + Z.of_nat 0)%Z with i by lia; lra|].
  eapply Rle_trans; [apply IH; lia|]. replace (i + Z.of_nat (S m))%Z with (i + Z.of_nat m + 1)%Z by lia. apply H. lia.
Qed.
Lemma thins_mono n' n c f : averaging n' n c -> thins n' n c -> (forall l, (0 <= l < n)%Z -> f l <= f (l + 1)%Z) ->
  forall i, (0 <= i < n')%Z -> apply_to n c f i <= apply_to n c f (i + 1).
Proof.
  intros Av Th M i Hi. destruct (Rle_dec (apply_to n c f i) (apply_to n c f (i + 1))) as [|K]; auto. exfalso.
  set (q0 := apply_to n c f i) in *. set (q1 := apply_to n c f (i + 1)) in *. set (t := (q0 + q1) / 2).
  assert (Sh : forall j, (0 <= j <= n')%Z -> apply_to n c (fun l => f l - t) j = apply_to n c f j - t).
  { intros j Hj. unfold apply_to. rewrite (sumZ_ext 0 n _ (fun l => c j l * f l - t * c j l)) by (intros; ring). rewrite sumZ_minus, sumZ_scal.
    destruct (Av j Hj) as [_ ->]. ring. }
  destruct (Th (fun l => f l - t) 1%nat (fun j => if Nat.eqb j 0 then 1 else - 1)) as (m & M1 & M2).
  - intros j Hj. replace j with 0%nat by lia. cbn. lra.
  - exists (fun j => (i + Z.of_nat j)%Z). split; [|intros; lia]. intros [|[|j]] Hj; [| |lia]; cbn [Nat.eqb]; split; try lia; rewrite Sh by lia.
    + replace (i + Z.of_nat 0)%Z with i by lia. fold q0. unfold t. lra.
    + replace (i + Z.of_nat 1)%Z with (i + 1)%Z by lia. fold q1. unfold t. lra.
  - destruct (M1 0%nat ltac:(lia)) as [A1 A2]. destruct (M1 1%nat ltac:(lia)) as [B1 B2]. specialize (M2 0%nat ltac:(lia)). cbn [Nat.eqb] in *.
    pose proof (mono_steps n f M (m 0%nat) (m 1%nat) ltac:(lia) ltac:(lia)). lra.
Qed.
Lemma ksum_step p U i : (1 <= p)%Z -> ksum p U (i + 1) - ksum p U i = U (i + p + 1)%Z - U (i + 1)%Z.
Proof.
  intros Hp. unfold ksum. rewrite (sumZ_last (i + 1 + 1) (i + 1 + p)) by lia. rewrite (sumZ_first (i + 1) (i + p)) by lia.
  replace (i + 1 + p - 1)%Z with (i + p)%Z by lia. replace (i + 1 + p)%Z with (i + p + 1)%Z by lia. ring.
Qed.
(** Steps along one axis, before and after. *)
Lemma steps_kept n' p V n U c P L : (1 <= p)%Z -> averaging n' n c -> thins n' n c -> carries_knots n' p V n p U c ->
  (forall i, (0 <= i < n)%Z -> Rabs (P (i + 1)%Z - P i) <= L * ((U (i + p + 1)%Z - U (i + 1)%Z) / IZR p)) ->
  forall i, (0 <= i < n')%Z -> Rabs (apply_to n c P (i + 1) - apply_to n c P i) <= L * ((V (i + p + 1)%Z - V (i + 1)%Z) / IZR p).
Proof.
  intros Hp Av Th Kn H i Hi. assert (Hp' : 0 < IZR p) by (apply IZR_lt; lia).
  assert (X : forall s, s = 1 \/ s = - 1 -> s * (apply_to n c P (i + 1) - apply_to n c P i) <= L * ((V (i + p + 1)%Z - V (i + 1)%Z) / IZR p)).
  { intros s Hs. set (f := fun l => L / IZR p * ksum p U l - s * P l).
    assert (E : forall j, (0 <= j <= n')%Z -> apply_to n c f j = L / IZR p * ksum p V j - s * apply_to n c P j).
    { intros j Hj. rewrite <- (Kn j Hj). unfold apply_to, f. rewrite (sumZ_ext 0 n _ (fun l => L / IZR p * (c j l * ksum p U l) - s * (c j l * P l))) by (intros; ring).
      rewrite sumZ_minus, !sumZ_scal. reflexivity. }
    pose proof (thins_mono n' n c f Av Th) as Q. assert (M : forall l, (0 <= l < n)%Z -> f l <= f (l + 1)%Z).
    { intros l Hl. unfold f. specialize (H l Hl).
      pose proof (ksum_step p U l Hp) as K. assert (B : s * (P (l + 1)%Z - P l) <= L * ((U (l + p + 1)%Z - U (l + 1)%Z) / IZR p)).
      { eapply Rle_trans; [|exact H]. pose proof (Rle_abs (P (l + 1)%Z - P l)). pose proof (Rle_abs (- (P (l + 1)%Z - P l))) as H1. rewrite Rabs_Ropp in H1. destruct Hs as [->| ->]; lra. }
      rewrite <- K in B. replace (L * ((ksum p U (l + 1) - ksum p U l) / IZR p)) with (L / IZR p * ksum p U (l + 1) - L / IZR p * ksum p U l) in B by (field; lra). lra. }
    specialize (Q M i Hi). rewrite !E in Q by lia. rewrite <- (ksum_step p V i Hp).
    replace (L * ((ksum p V (i + 1) - ksum p V i) / IZR p)) with (L / IZR p * ksum p V (i + 1) - L / IZR p * ksum p V i) by (field; lra). lra. }
  pose proof (X 1 (or_introl eq_refl)). pose proof (X (- 1) (or_intror eq_refl)). apply Rabs_le. lra.
Qed.
Lemma slope_kept a x y B : wf_nurbs x -> averages_kind true a x y -> (a < length (n_axes x))%nat -> n_axes y = lset a B (n_axes x) -> a_deg B = a_deg (get_axis x a) ->
  n_comp y = n_comp x -> forall b k L, (b < length (n_axes x))%nat -> (0 <= k < n_comp x)%Z -> slope x b k L -> slope y b k L.
Proof.
  intros W (c & Ac & Tc & Hc) Ha EX ED EC b k L Hb Hk H idx i I A Hi. destruct (Tc eq_refl) as [T1 T2].
  assert (EB : get_axis y a = B) by (unfold get_axis; rewrite EX; apply nth_lset; auto).
  assert (LY : length (n_axes y) = length (n_axes x)) by (rewrite EX; apply lset_length).
  assert (ES : spec_axes y = lset a (spec_ax B) (spec_axes x)) by (unfold spec_axes; rewrite EX, map_lset; reflexivity).
  assert (Li : length idx = length (n_axes x)) by (rewrite (in_net_length _ _ I); unfold spec_axes; rewrite map_length; auto).
  assert (Ix : forall l, (0 <= l <= a_size (get_axis x a) - 1)%Z -> in_net (spec_axes x) (lset a l idx)).
  { intros l Hl. apply (in_net_lset _ a (spec_ax B)); auto; [rewrite <- ES; auto|unfold spec_axes; rewrite map_length; auto|]. rewrite nth_spec_axes. exact Hl. }
  assert (Iy : forall b l, (b < length (n_axes x))%nat -> (0 <= l <= x_n (axis_of y b))%Z -> in_net (spec_axes y) (lset b l idx)).
  { intros b' l Hb' Hl. rewrite axis_of_eq in Hl by lia. apply (in_net_lset _ b' (nth b' (spec_axes y) (spec_ax axis0))); try (unfold spec_axes; rewrite map_length; lia);
      [rewrite ProofNet.lset_nth; auto|]. rewrite nth_spec_axes. exact Hl. }
  assert (WA : wf_ax (spec_ax (get_axis x a))) by (apply wf_get_axis; auto).
  destruct (Nat.eq_dec b a) as [->|N].
  - assert (EA : A = spec_ax B) by (unfold A; rewrite axis_of_eq, EB by lia; reflexivity). rewrite EA in *. cbn [spec_ax x_n x_p x_U] in *.
    rewrite !(Hc _ k) by (try (apply Iy; auto; fold A; rewrite EA; cbn [spec_ax x_n]; lia); lia). rewrite !nth_lset by lia.
    rewrite !(sumZ_ext 0 (a_size (get_axis x a) - 1) (fun l => _ * n_arr x (lset a l (lset a _ idx)) k) (fun l => c _ l * n_arr x (lset a l idx) k)) by (intros; rewrite lset_lset; reflexivity).
    rewrite EB, ED in *.
    apply (steps_kept (a_size B - 1) (a_deg (get_axis x a)) (a_knots B) (a_size (get_axis x a) - 1) (a_knots (get_axis x a)) c (fun l => n_arr x (lset a l idx) k)); auto; [apply WA|].
    intros j Hj. pose proof (H (lset a j idx) j (Ix j ltac:(lia))) as Q. rewrite axis_of_eq in Q by auto. cbn [spec_ax x_n x_p x_U] in Q. rewrite !lset_lset in Q. apply Q. lia.
  - assert (EA : A = axis_of x b) by (unfold A; rewrite !axis_of_eq by lia; f_equal; unfold get_axis; rewrite EX; apply nth_lset_other; auto).
    rewrite !(Hc _ k) by (try (apply Iy; auto; fold A; lia); lia). rewrite !nth_lset_other by auto. rewrite <- sumZ_minus.
    assert (Ia : (0 <= nth a idx 0 <= a_size (get_axis y a) - 1)%Z).
    { pose proof (Forall2_nth _ _ _ a (spec_ax (axis0 (N:=Rn))) 0%Z I) as S. rewrite nth_spec_axes in S. apply S. unfold spec_axes. rewrite map_length. lia. }
    destruct (Ac _ Ia) as [A1 A2]. eapply Rle_trans; [apply sumZ_abs|].
    rewrite <- (Rmult_1_l (L * _)). rewrite <- A2, <- sumZ_scal_r. apply sumZ_le. intros l Hl.
    rewrite <- Rmult_minus_distr_l, Rabs_mult, (Rabs_right (c _ l)) by (apply Rle_ge, A1; auto). apply Rmult_le_compat_l; [apply A1; auto|].
    rewrite !(lset_comm a b) by auto. rewrite EA in *. apply H; auto.
Qed.

(** ** Weights and coordinates stay within bounds *)
Definition bounds (x : nurbs Rn) (w B : R) : Prop :=
  forall idx, in_net (spec_axes x) idx -> w <= n_arr x idx 3%Z /\ forall k, (0 <= k < n_comp x)%Z -> Rabs (n_arr x idx k) <= B * n_arr x idx 3%Z.
Lemma bounds_kept a x y C w B : wf_nurbs x -> averages a x y -> (a < length (n_axes x))%nat -> n_axes y = lset a C (n_axes x) -> n_comp y = n_comp x -> bounds x w B -> bounds y w B.
Proof.
  intros W Av Ha EX EC H idx I. assert (C4 : (4 <= n_comp x)%Z) by apply W.
  destruct (averages_sum a x y C idx (fun _ => 0) Av Ha EX EC I) as (c & C1 & C2 & C3). rewrite EC. split.
  - rewrite C3 by lia. rewrite <- (Rmult_1_l w), <- C2, <- sumZ_scal_r. apply sumZ_le. intros l Hl. destruct (C1 l Hl) as [K1 K2]. apply Rmult_le_compat_l; auto. apply (H _ K2).
  - intros k Hk. rewrite !C3 by lia. eapply Rle_trans; [apply sumZ_abs|]. rewrite <- sumZ_scal. apply sumZ_le. intros l Hl. destruct (C1 l Hl) as [K1 K2].
    rewrite Rabs_mult, (Rabs_right (c l)) by (apply Rle_ge; auto). replace (B * (c l * n_arr x (lset a l idx) 3%Z)) with (c l * (B * n_arr x (lset a l idx) 3%Z)) by (change (T Rn) with R; ring).
    apply Rmult_le_compat_l; auto. apply (H _ K2). auto.
Qed.

(** ** One call *)
Definition kept (x y : nurbs Rn) : Prop :=
  wf_nurbs y /\ bounded_knots y /\ n_comp y = n_comp x /\ length (n_axes y) = length (n_axes x) /\
  (forall b, (b < length (n_axes x))%nat -> a_deg (get_axis y b) = a_deg (get_axis x b)) /\
  (positive_weights x -> positive_weights y) /\
  (forall us c, in_box (spec_axes y) us -> in_box (spec_axes x) us /\ hom y c us = hom x c us) /\
  (forall b k L, (b < length (n_axes x))%nat -> (0 <= k < n_comp x)%Z -> slope x b k L -> slope y b k L) /\
  forall w B, bounds x w B -> bounds y w B.
Lemma box_back l l' us : Forall2 same_dom l l' -> in_box l' us -> in_box l us.
Proof.
  intros D. revert us. induction D as [|a b l l' [E1 E2] D IH]; intros us I; inversion I; subst; constructor.
  - unfold in_domain in *. rewrite E1, E2. auto.
  - apply IH. auto.
Qed.
Lemma call_kept x y : wf_nurbs x -> bounded_knots x -> cutting_call x y -> kept x y.
Proof.
  intros W Bk Call.
  assert (X : exists a B, averages_kind true a x y /\ bounded_knots y /\ wf_nurbs y /\ (a < length (n_axes x))%nat /\ n_axes y = lset a B (n_axes x) /\ a_deg B = a_deg (get_axis x a) /\
            n_comp y = n_comp x /\ forall us c, in_box (spec_axes y) us -> in_box (spec_axes x) us /\ hom y c us = hom x c us).
  { assert (Dm : preserves x y -> forall us c, in_box (spec_axes y) us -> in_box (spec_axes x) us /\ hom y c us = hom x c us).
    { intros P us c I. assert (in_box (spec_axes x) us) by (eapply box_back; [apply P|]; auto). split; auto. apply P. auto. }
    destruct Call as [ax a u times junk Ea Hok E|ax a values junk Ea Hok E|ax a side junk Ea Hok E|ax a start end_ junk Ea Hok E]; exists a;
      pose proof (py_axis_dim _ _ _ Ea) as Ha.
    - destruct (insert_thins x ax a u times junk y W Bk Ea Hok E) as [A1 A2].
      destruct (op_spec (Insert u times) x ax a junk (fun _ _ => 0) y W Ea Hok E) as (P & B & EX & _ & _ & D & _). exists B. repeat (split; [solve [auto|apply P]|]). auto.
    - destruct (refine_thins x ax a values junk y W Bk Ea Hok E) as [A1 A2].
      destruct (op_spec (Refine values) x ax a junk (fun _ _ => 0) y W Ea Hok E) as (P & B & EX & D & _). exists B. repeat (split; [solve [auto|apply P]|]). auto.
    - destruct (clamp_thins x ax a side junk y W Bk Ea Hok E) as [A1 A2].
      destruct (op_spec (Clamp side) x ax a junk (fun _ _ => 0) y W Ea Hok E) as (P & B & EX & D1 & D2 & _). exists B.
      assert (D : a_deg B = a_deg (get_axis x a)) by (unfold a_deg; rewrite D1, D2; reflexivity). repeat (split; [solve [auto|apply P]|]). auto.
    - destruct Hok as [Cn Hs]. destruct (slice_thins x ax a start end_ junk y W Bk Ea Cn Hs E) as [A1 A2].
      destruct (slice_spec x ax a start end_ junk y W Ea Cn Hs E) as (_ & _ & _ & Wy & EC & (B & EX & D & _) & Hh & _). exists B. auto 12. }
  destruct X as (a & B & A1 & A2 & A3 & A4 & A5 & A6 & A7 & A8). pose proof (averages_plain _ _ _ _ A1) as Av.
  split; auto. split; auto. split; auto. split; [rewrite A5; apply lset_length|]. split.
  { intros b Hb. rewrite (ProofCompat3.get_lset x y a B b A5 A4). destruct (Nat.eqb_spec b a) as [->|]; auto. }
  split; [intros Pw; apply (averages_keep a x y B); auto|]. split; auto.
  split; [apply (slope_kept a x y B); auto|]. intros w M. apply (bounds_kept a x y B); auto.
Qed.
Lemma kept_refl x : wf_nurbs x -> bounded_knots x -> kept x x.
Proof. intros W Bk. repeat (split; [solve [auto]|]). auto. Qed.
Lemma kept_trans x y z : kept x y -> kept y z -> kept x z.
Proof.
  intros (A1 & A2 & A3 & A4 & A5 & A6 & A7 & A8 & A9) (B1 & B2 & B3 & B4 & B5 & B6 & B7 & B8 & B9). split; auto. split; auto. split; [congruence|]. split; [congruence|].
  split; [intros b Hb; rewrite B5 by lia; auto|]. split; auto. split.
  { intros us c I. destruct (B7 us c I) as [I1 E1]. destruct (A7 us c I1) as [I2 E2]. split; auto. congruence. }
  split; auto. intros b k L Hb Hk Sl. apply B8; auto; [rewrite A4; auto|rewrite A3; auto].
Qed.
Theorem calls_kept x y : wf_nurbs x -> bounded_knots x -> cutting_calls x y -> kept x y.
Proof.
  intros W Bk C. induction C as [x|x y z C Cs IH]; [apply kept_refl; auto|].
  pose proof (call_kept x y W Bk C) as K. eapply kept_trans; [exact K|]. apply IH; apply K.
Qed.

(** ** Distance of control points with influence at the same parameters *)
Lemma span_sum U h lo hi : (forall i, (lo <= i < hi)%Z -> U (i + 1)%Z - U i <= h) -> forall m i, (lo <= i)%Z -> (i + Z.of_nat m <= hi)%Z -> U (i + Z.of_nat m)%Z - U i <= IZR (Z.of_nat m) * h.
Proof.
  intros H m. induction m as [|m IH]; intros i Hi Hm; [replace (i + Z.of_nat 0)%Z with i by lia; cbn; lra|].
  specialize (IH i Hi ltac:(lia)). specialize (H (i + Z.of_nat m)%Z ltac:(lia)). replace (i + Z.of_nat (S m))%Z with (i + Z.of_nat m + 1)%Z by lia.
  replace (Z.of_nat (S m)) with (Z.of_nat m + 1)%Z by lia. rewrite plus_IZR. lra.
Qed.
Lemma steps_sum n p U P L : (1 <= p)%Z -> (forall i, (0 <= i < n)%Z -> Rabs (P (i + 1)%Z - P i) <= L * ((U (i + p + 1)%Z - U (i + 1)%Z) / IZR p)) ->
  forall m i, (0 <= i)%Z -> (i + Z.of_nat m <= n)%Z -> Rabs (P (i + Z.of_nat m)%Z - P i) <= L / IZR p * (ksum p U (i + Z.of_nat m) - ksum p U i).
Proof.
  intros Hp H m. assert (Hp' : 0 < IZR p) by (apply IZR_lt; lia). induction m as [|m IH]; intros i Hi Hm.
  - replace (i + Z.of_nat 0)%Z with i by lia. replace (P i - P i) with 0 by ring. rewrite Rabs_R0. replace (ksum p U i - ksum p U i) with 0 by ring. lra.
  - specialize (IH i Hi ltac:(lia)). specialize (H (i + Z.of_nat m)%Z ltac:(lia)). replace (i + Z.of_nat (S m))%Z with (i + Z.of_nat m + 1)%Z by lia.
    set (j := (i + Z.of_nat m)%Z) in *. rewrite <- (ksum_step p U j Hp) in H.
    replace (L * ((ksum p U (j + 1) - ksum p U j) / IZR p)) with (L / IZR p * (ksum p U (j + 1) - ksum p U j)) in H by (field; lra).
    replace (P (j + 1)%Z - P i) with ((P (j + 1)%Z - P j) + (P j - P i)) by ring. eapply Rle_trans; [apply Rabs_triang|]. lra.
Qed.
Lemma line_close n p U P L h u : (1 <= p)%Z -> 0 <= L -> 0 <= h -> nondecreasing U 0 (n + p + 1) ->
  (forall i, (1 <= i < n + p)%Z -> U (i + 1)%Z - U i <= h) ->
  (forall i, (0 <= i < n)%Z -> Rabs (P (i + 1)%Z - P i) <= L * ((U (i + p + 1)%Z - U (i + 1)%Z) / IZR p)) ->
  forall i j, (0 <= i <= n)%Z -> (0 <= j <= n)%Z -> U i <= u <= U (i + p + 1)%Z -> U j <= u <= U (j + p + 1)%Z -> Rabs (P j - P i) <= 2 * IZR p * L * h.
Proof.
  intros Hp HL Hh Mo Sp St. assert (Hp' : 0 < IZR p) by (apply IZR_lt; lia).
  assert (Pos : 0 <= 2 * IZR p * L * h) by (repeat apply Rmult_le_pos; lra).
  assert (X : forall i j, (0 <= i)%Z -> (i < j <= n)%Z -> U i <= u <= U (i + p + 1)%Z -> U j <= u <= U (j + p + 1)%Z -> Rabs (P j - P i) <= 2 * IZR p * L * h).
  { intros i j Hi Hj Ni Nj. pose proof (steps_sum n p U P L Hp St (Z.to_nat (j - i)) i Hi ltac:(lia)) as Q. rewrite Z2Nat.id in Q by lia. replace (i + (j - i))%Z with j in Q by lia.
    eapply Rle_trans; [exact Q|].
    pose proof (span_sum U h 1 (n + p) Sp (Z.to_nat p) j ltac:(lia) ltac:(lia)) as S1. pose proof (span_sum U h 1 (n + p) Sp (Z.to_nat p) (i + 1) ltac:(lia) ltac:(lia)) as S2.
    rewrite Z2Nat.id in S1, S2 by lia. replace (i + 1 + p)%Z with (i + p + 1)%Z in S2 by lia.
    assert (K : ksum p U j - ksum p U i <= IZR p * (2 * IZR p * h)).
    { unfold ksum. rewrite (sumZ_shift' (j + 1) (j + p) j U), (sumZ_shift' (i + 1) (i + p) i U). replace (j + 1 - j)%Z with (i + 1 - i)%Z by lia. replace (j + p - j)%Z with (i + p - i)%Z by lia.
      rewrite <- sumZ_minus. replace (i + 1 - i)%Z with 1%Z by lia. replace (i + p - i)%Z with p by lia.
      replace (IZR p * (2 * IZR p * h)) with (sumZ 1 p (fun _ => 2 * IZR p * h)).
      - apply sumZ_le. intros k Hk. assert (U (k + j)%Z <= U (j + p)%Z) by (apply Mo; lia). assert (U (i + 1)%Z <= U (k + i)%Z) by (apply Mo; lia). lra.
      - rewrite ProofInit.sumZ_const by lia. replace (p - 1 + 1)%Z with p by lia. reflexivity. }
    apply (Rmult_le_reg_l (IZR p)); auto.
    replace (IZR p * (L / IZR p * (ksum p U j - ksum p U i))) with (L * (ksum p U j - ksum p U i)) by (field; lra).
    replace (IZR p * (2 * IZR p * L * h)) with (L * (IZR p * (2 * IZR p * h))) by ring. apply Rmult_le_compat_l; auto. }
  intros i j Hi Hj Ni Nj. destruct (Z.lt_trichotomy i j) as [C|[->|C]].
  - apply X; auto; lia.
  - replace (P j - P j) with 0 by ring. rewrite Rabs_R0. auto.
  - rewrite Rabs_minus_sym. apply X; auto; lia.
Qed.
Fixpoint degrees (axs : list axR) : R := match axs with A :: l => IZR (x_p A) + degrees l | [] => 0 end.
Lemma degrees_nonneg axs : Forall wf_ax axs -> 0 <= degrees axs.
Proof. induction 1 as [|A l W F IH]; cbn; [lra|]. destruct W as [W _]. apply IZR_le in W. lra. Qed.
Lemma net_close axs L h us : Forall wf_ax axs -> 0 <= L -> 0 <= h -> length us = length axs ->
  (forall a, (a < length axs)%nat -> let A := nth a axs (mkAx 0 1 (fun _ => 0)) in forall i, (1 <= i < x_n A + x_p A)%Z -> x_U A (i + 1)%Z - x_U A i <= h) ->
  forall f, (forall a idx i, (a < length axs)%nat -> in_net axs idx -> let A := nth a axs (mkAx 0 1 (fun _ => 0)) in (0 <= i < x_n A)%Z ->
    Rabs (f (lset a (i + 1)%Z idx) - f (lset a i idx)) <= L * ((x_U A (i + x_p A + 1)%Z - x_U A (i + 1)%Z) / IZR (x_p A))) ->
  forall idx idx', in_net axs idx -> in_net axs idx' -> near axs idx us -> near axs idx' us -> Rabs (f idx - f idx') <= 2 * degrees axs * L * h.
Proof.
  intros W HL Hh. revert us. induction W as [|A axs WA W IH]; intros us Lu Sp f St idx idx' I I' N N'.
  - inversion I; inversion I'; subst. cbn. replace (f [] - f []) with 0 by ring. rewrite Rabs_R0. lra.
  - destruct us as [|u us]; [discriminate|]. inversion I as [|? i ? r Hi Ir]; subst. inversion I' as [|? i' ? r' Hi' Ir']; subst. cbn [near] in N, N'. destruct N as [N1 N2]. destruct N' as [N1' N2'].
    cbn [degrees].
    assert (Q1 : Rabs (f (i :: r) - f (i' :: r)) <= 2 * IZR (x_p A) * L * h).
    { apply (line_close (x_n A) (x_p A) (x_U A) (fun l => f (l :: r)) L h u); auto; try apply WA.
      - intros j Hj. apply (Sp 0%nat); [cbn; lia|auto].
      - intros j Hj. apply (St 0%nat (i :: r) j); auto. cbn. lia. }
    assert (Q2 : Rabs (f (i' :: r) - f (i' :: r')) <= 2 * degrees axs * L * h).
    { apply (IH us) with (f := fun r => f (i' :: r)); auto.
      - intros a Ha. apply (Sp (S a)). cbn. lia.
      - intros a q j Ha Iq. apply (St (S a) (i' :: q) j); [cbn; lia|]. constructor; auto. }
    replace (f (i :: r) - f (i' :: r')) with ((f (i :: r) - f (i' :: r)) + (f (i' :: r) - f (i' :: r'))) by ring.
    eapply Rle_trans; [apply Rabs_triang|]. lra.
Qed.
Lemma nsum_minus axs f g : nsum axs (fun idx => f idx - g idx) = nsum axs f - nsum axs g.
Proof.
  revert f g. induction axs as [|A axs IH]; intros f g; cbn [nsum]; auto. rewrite <- sumZ_minus. apply sumZ_ext. intros. apply IH.
Qed.
Lemma nsum_bound axs Lm g M : (forall idx, in_net axs idx -> 0 <= Lm idx /\ (Lm idx <> 0 -> Rabs (g idx) <= M)) -> nsum axs Lm = 1 -> Rabs (nsum axs (fun idx => Lm idx * g idx)) <= M.
Proof.
  intros H S. rewrite <- (Rmult_1_r M), <- S. clear S. revert Lm g H. induction axs as [|A axs IH]; intros Lm g H; cbn [nsum].
  - destruct (H [] ltac:(constructor)) as [H1 H2]. rewrite Rabs_mult, (Rabs_right (Lm [])) by lra. destruct (Req_dec (Lm []) 0) as [E|E]; [rewrite E; lra|].
    rewrite (Rmult_comm M). apply Rmult_le_compat_l; auto.
  - eapply Rle_trans; [apply sumZ_abs|]. rewrite <- sumZ_scal. apply sumZ_le. intros i Hi. apply (IH (fun idx => Lm (i :: idx)) (fun idx => g (i :: idx))). intros idx I. apply H. constructor; auto.
Qed.
Lemma in_box_length axs us : in_box axs us -> length us = length axs.
Proof. intros I. symmetry. eapply Forall2_len. exact I. Qed.
Theorem close x w B L h : wf_nurbs x -> 0 < w -> 0 <= L -> 0 <= h -> bounds x w B ->
  (forall a k, (a < length (n_axes x))%nat -> (0 <= k < n_comp x)%Z -> slope x a k L) -> spans_within x h ->
  forall idx us k, in_net (spec_axes x) idx -> in_box (spec_axes x) us -> near (spec_axes x) idx us -> (0 <= k < n_comp x)%Z ->
    Rabs (n_points (N:=Rn) x idx k - pt x k us) <= 2 * degrees (spec_axes x) * L * (1 + B) / w * h.
Proof.
  intros W Hw HL Hh Bd Sl Sp idx us k I Bx N Hk. assert (C4 : (4 <= n_comp x)%Z) by apply W.
  assert (Fw : Forall wf_ax (spec_axes x)) by apply W. assert (LS : length (spec_axes x) = length (n_axes x)) by (unfold spec_axes; apply map_length).
  assert (Pw : positive_weights x) by (intros q Iq; unfold n_weights; destruct (Bd q Iq) as [Q _]; lra).
  assert (B0 : 0 <= B).
  { destruct (Bd idx I) as [Q1 Q2]. specialize (Q2 3%Z ltac:(lia)). rewrite Rabs_right in Q2 by lra. change (T Rn) with R in *. destruct (Rle_dec 0 B) as [|F]; auto. exfalso.
    assert (B * n_arr x idx 3%Z <= 0 * n_arr x idx 3%Z) by (apply Rmult_le_compat_r; lra). lra. }
  assert (E : forall q m, in_net (spec_axes x) q -> near (spec_axes x) q us -> (0 <= m < n_comp x)%Z -> Rabs (n_arr x idx m - n_arr x q m) <= 2 * degrees (spec_axes x) * L * h).
  { intros q m Iq Nq Hm. apply (net_close (spec_axes x) L h us) with (f := fun i => n_arr x i m); auto; [apply in_box_length; auto|].
    intros a i j Ha Ii A Hj. apply (Sl a m); auto. lia. }
  set (e := 2 * degrees (spec_axes x) * L * h) in *.
  assert (Ee : 0 <= e) by (unfold e; pose proof (degrees_nonneg _ Fw); repeat apply Rmult_le_pos; lra).
  destruct (hull x us W Pw Bx) as (Lm & (H1 & H2 & H3) & H4). rewrite H4.
  replace (n_points (N:=Rn) x idx k) with (nsum (spec_axes x) (fun i => Lm i * n_points (N:=Rn) x idx k)).
  2: { rewrite (nsum_ext _ _ (fun i => n_points (N:=Rn) x idx k * Lm i)) by (intros; change (T Rn) with R; ring). rewrite nsum_scal, H3. change (T Rn) with R. ring. }
  rewrite <- nsum_minus. rewrite (nsum_ext _ _ (fun i => Lm i * (n_points (N:=Rn) x idx k - n_points (N:=Rn) x i k))) by (intros; change (T Rn) with R; ring).
  replace (2 * degrees (spec_axes x) * L * (1 + B) / w * h) with ((1 + B) * e / w) by (unfold e; field; lra).
  apply nsum_bound; auto. intros q Iq. split; auto. intros Nz. specialize (H2 q Iq Nz).
  pose proof (E q k Iq H2 Hk) as E1. pose proof (E q 3%Z Iq H2 ltac:(lia)) as E2. destruct (Bd idx I) as [W1 _]. destruct (Bd q Iq) as [W2 K2]. specialize (K2 k Hk).
  unfold n_points. change (ndiv Rn) with Rdiv. change (T Rn) with R in *.
  set (P := n_arr x idx k) in *. set (P' := n_arr x q k) in *. set (v := n_arr x idx 3%Z) in *. set (v' := n_arr x q 3%Z) in *.
  replace (P / v - P' / v') with ((P - P') / v + (P' / v') * ((v' - v) / v)) by (field; lra).
  assert (A1 : Rabs (P' / v') <= B).
  { unfold Rdiv. rewrite Rabs_mult, Rabs_inv, (Rabs_right v') by lra. apply (Rmult_le_reg_r v'); [lra|]. rewrite Rmult_assoc, Rinv_l by lra. lra. }
  assert (A2 : forall z, Rabs z <= e -> Rabs (z / v) <= e / w).
  { intros z Hz. unfold Rdiv. rewrite Rabs_mult, Rabs_inv, (Rabs_right v) by lra. apply Rmult_le_compat; try lra; [apply Rabs_pos|left; apply Rinv_0_lt_compat; lra|apply Rinv_le_contravar; lra]. }
  eapply Rle_trans; [apply Rabs_triang|]. rewrite Rabs_mult. replace ((1 + B) * e / w) with (e / w + B * (e / w)) by (field; lra).
  apply Rplus_le_compat; [apply A2; auto|]. apply Rmult_le_compat; auto; try apply Rabs_pos. apply A2. rewrite Rabs_minus_sym. auto.
Qed.

(** ** Bounds exist *)
Lemma range_max n (f : Z -> R) : exists M, 0 < M /\ forall i, (0 <= i < n)%Z -> f i <= M.
Proof.
  destruct (Z.lt_ge_cases n 0) as [H|H]; [exists 1; split; [lra|intros; lia]|]. pattern n. apply natlike_ind; auto; clear n H.
  - exists 1. split; [lra|intros; lia].
  - intros n Hn (M & M0 & HM). exists (Rmax M (f n)). pose proof (Rmax_l M (f n)). pose proof (Rmax_r M (f n)). split; [lra|]. intros i Hi.
    destruct (Z.eq_dec i n) as [->|]; auto. specialize (HM i ltac:(lia)). lra.
Qed.
Lemma choose_max n (Q : Z -> R -> Prop) : (forall i M M', (0 <= i < n)%Z -> Q i M -> M <= M' -> Q i M') -> (forall i, (0 <= i < n)%Z -> exists M, 0 < M /\ Q i M) -> exists M, 0 < M /\ forall i, (0 <= i < n)%Z -> Q i M.
Proof.
  destruct (Z.lt_ge_cases n 0) as [H|H]; [exists 1; split; [lra|intros; lia]|]. pattern n. apply natlike_ind; auto; clear n H.
  - exists 1. split; [lra|intros; lia].
  - intros n Hn IH Mo Ex. destruct IH as (M & M0 & HM).
    + intros i M M' Hi. apply Mo. lia.
    + intros i Hi. apply Ex. lia.
    + destruct (Ex n ltac:(lia)) as (M1 & M10 & HM1). exists (Rmax M M1). pose proof (Rmax_l M M1). pose proof (Rmax_r M M1). split; [lra|]. intros i Hi.
      destruct (Z.eq_dec i n) as [->|]; [apply (Mo n M1); auto|]. apply (Mo i M); [lia|apply HM; lia|auto].
Qed.
Lemma net_max axs f : exists M, 0 < M /\ forall idx, in_net axs idx -> f idx <= M.
Proof.
  revert f. induction axs as [|A axs IH]; intros f.
  - exists (Rmax 1 (f [])). pose proof (Rmax_l 1 (f [])). pose proof (Rmax_r 1 (f [])). split; [lra|]. intros idx I. inversion I. auto.
  - destruct (choose_max (x_n A + 1) (fun i M => forall idx, in_net axs idx -> f (i :: idx) <= M)) as (M & M0 & HM).
    + intros i M M' _ H K idx I. specialize (H idx I). lra.
    + intros i _. apply (IH (fun idx => f (i :: idx))).
    + exists M. split; auto. intros idx I. inversion I; subst. apply HM; auto. lia.
Qed.
Lemma bounds_exist x : positive_weights x -> exists w B, 0 < w /\ 0 < B /\ bounds x w B.
Proof.
  intros Pw. destruct (net_max (spec_axes x) (fun idx => / n_arr x idx 3%Z)) as (M & M0 & HM).
  destruct (choose_max (n_comp x) (fun k B => forall idx, in_net (spec_axes x) idx -> Rabs (n_arr x idx k) <= B * n_arr x idx 3%Z)) as (B & B0 & HB).
  - intros k B B' _ H K idx I. specialize (H idx I). specialize (Pw idx I). unfold n_weights in Pw. change (T Rn) with R in *.
    eapply Rle_trans; [exact H|]. apply Rmult_le_compat_r; lra.
  - intros k _. destruct (net_max (spec_axes x) (fun idx => Rabs (n_arr x idx k) / n_arr x idx 3%Z)) as (B & B0 & HB). exists B. split; auto. intros idx I.
    specialize (HB idx I). specialize (Pw idx I). unfold n_weights in Pw. change (T Rn) with R in *.
    apply (Rmult_le_compat_r (n_arr x idx 3%Z)) in HB; [|lra]. unfold Rdiv in HB. rewrite Rmult_assoc, Rinv_l in HB by lra. lra.
  - exists (/ M), B. split; [apply Rinv_0_lt_compat; auto|]. split; auto. intros idx I. split; [|intros; apply HB; auto].
    specialize (HM idx I). specialize (Pw idx I). unfold n_weights in Pw. change (T Rn) with R in *. rewrite <- (Rinv_inv (n_arr x idx 3%Z)).
    apply Rinv_le_contravar; auto. apply Rinv_0_lt_compat. auto.
Qed.
Lemma gap A i : wf_ax (spec_ax A) -> continuous_axis A -> (0 <= i < a_size A - 1)%Z -> a_knots A (i + 1)%Z < a_knots A (i + a_deg A + 1)%Z.
Proof.
  intros [W1 W2] Cn Hi. cbn [spec_ax x_n x_p x_U] in *. pose proof (wf_mono _ _ _ W2) as Mo. pose proof (wf_first _ _ _ W2) as F. pose proof (wf_n _ _ _ W2) as Hn.
  destruct (Z.le_gt_cases (i + 1) (a_deg A)) as [C|C].
  - assert (a_knots A (i + 1)%Z <= a_knots A (a_deg A)) by (apply Mo; lia). assert (a_knots A (a_deg A + 1)%Z <= a_knots A (i + a_deg A + 1)%Z) by (apply Mo; lia). lra.
  - replace (i + a_deg A + 1)%Z with (i + 1 + a_deg A)%Z by lia. apply Cn. lia.
Qed.
Lemma slope_mono x a k L L' : wf_nurbs x -> (a < length (n_axes x))%nat -> slope x a k L -> L <= L' -> slope x a k L'.
Proof.
  intros W Ha H K idx i I A Hi. eapply Rle_trans; [apply H; auto|]. fold A. apply Rmult_le_compat_r; auto.
  assert (WA : wf_ax A) by (unfold A; rewrite axis_of_eq by auto; apply wf_get_axis; auto). destruct WA as [P1 P2].
  apply IZR_le in P1 as P1'. apply Rmult_le_pos; [|left; apply Rinv_0_lt_compat; lra]. pose proof (wf_mono _ _ _ P2) as Mo. pose proof (wf_n _ _ _ P2).
  assert (x_U A (i + 1)%Z <= x_U A (i + x_p A + 1)%Z) by (apply Mo; lia). lra.
Qed.
Lemma slopes_exist x : wf_nurbs x -> Forall continuous_axis (n_axes x) -> exists L, 0 < L /\ forall a k, (a < length (n_axes x))%nat -> (0 <= k < n_comp x)%Z -> slope x a k L.
Proof.
  intros W Cn.
  destruct (choose_max (Z.of_nat (length (n_axes x))) (fun a L => forall k, (0 <= k < n_comp x)%Z -> slope x (Z.to_nat a) k L)) as (L & L0 & HL).
  - intros a L L' Ha H K k Hk. apply (slope_mono x _ k L); auto. lia.
  - intros a Ha. set (b := Z.to_nat a). assert (Hb : (b < length (n_axes x))%nat) by lia. apply choose_max.
    + intros k L L' _ H K. apply (slope_mono x b k L); auto.
    + intros k Hk. set (A := axis_of x b).
      destruct (net_max (spec_axes x) (fun idx => let i := nth b idx 0%Z in Rabs (n_arr x (lset b (i + 1)%Z idx) k - n_arr x (lset b i idx) k) * / ((x_U A (i + x_p A + 1)%Z - x_U A (i + 1)%Z) / IZR (x_p A)))) as (M & M0 & HM).
      exists M. split; auto. intros idx i I A' Hi. fold A in A'. subst A'.
      assert (Lb : (b < length idx)%nat) by (rewrite (in_net_length _ _ I); unfold spec_axes; rewrite map_length; auto).
      assert (EA : A = spec_ax (get_axis x b)) by (apply axis_of_eq; auto). assert (WA : wf_ax A) by (rewrite EA; apply wf_get_axis; auto).
      assert (Ii : in_net (spec_axes x) (lset b i idx)).
      { apply (in_net_lset _ b (nth b (spec_axes x) (spec_ax axis0))); [rewrite ProofNet.lset_nth; auto|unfold spec_axes; rewrite map_length; auto|]. rewrite nth_spec_axes, <- EA. lia. }
      specialize (HM _ Ii). cbv zeta in HM. rewrite nth_lset, !lset_lset in HM by auto.
      assert (G : 0 < (x_U A (i + x_p A + 1)%Z - x_U A (i + 1)%Z) / IZR (x_p A)).
      { destruct WA as [P1 _]. apply IZR_le in P1 as P1'. apply Rmult_lt_0_compat; [|apply Rinv_0_lt_compat; lra].
        assert (x_U A (i + 1)%Z < x_U A (i + x_p A + 1)%Z); [|lra]. rewrite EA in *. cbn [spec_ax x_n x_p x_U] in *. apply gap; auto; [apply wf_get_axis; auto|].
        rewrite Forall_forall in Cn. apply Cn. apply nth_In. auto. }
      apply (Rmult_le_compat_r _ _ _ (Rlt_le _ _ G)) in HM. rewrite Rmult_assoc, Rinv_l in HM by lra. change (T Rn) with R in *. lra.
  - exists L. split; auto. intros a k Ha Hk. replace a with (Z.to_nat (Z.of_nat a)) by lia. apply HL; auto. lia.
Qed.
Lemma degrees_eq x y : length (n_axes y) = length (n_axes x) -> (forall b, (b < length (n_axes x))%nat -> a_deg (get_axis y b) = a_deg (get_axis x b)) -> degrees (spec_axes y) = degrees (spec_axes x).
Proof.
  unfold spec_axes, get_axis. generalize (n_axes x) (n_axes y). intros l. induction l as [|A l IH]; intros [|B l'] E H; try discriminate; auto. cbn [map degrees spec_ax x_p].
  pose proof (H 0%nat ltac:(cbn; lia)) as H0. cbn [nth] in H0. rewrite H0. f_equal. apply IH; [cbn in E; lia|]. intros b Hb. apply (H (S b)). cbn. lia.
Qed.
Theorem converge x : wf_nurbs x -> bounded_knots x -> positive_weights x -> Forall continuous_axis (n_axes x) ->
  exists K, 0 <= K /\ forall y h, cutting_calls x y -> 0 <= h -> spans_within y h ->
  forall idx us k, in_net (spec_axes y) idx -> in_box (spec_axes y) us -> near (spec_axes y) idx us -> (0 <= k < n_comp y)%Z ->
    Rabs (n_points (N:=Rn) y idx k - pt x k us) <= K * h.
Proof.
  intros W Bk Pw Cn. destruct (bounds_exist x Pw) as (w & B & Hw & HB & Bd). destruct (slopes_exist x W Cn) as (L & HL & Sl).
  assert (Fw : Forall wf_ax (spec_axes x)) by apply W. pose proof (degrees_nonneg _ Fw) as Dg.
  exists (2 * degrees (spec_axes x) * L * (1 + B) / w). split.
  { apply Rmult_le_pos; [repeat apply Rmult_le_pos; lra|left; apply Rinv_0_lt_compat; auto]. }
  intros y h C Hh Sp idx us k I Bx N Hk. destruct (calls_kept x y W Bk C) as (A1 & A2 & A3 & A4 & A5 & A6 & A7 & A8 & A9).
  replace (pt x k us) with (pt y k us) by (unfold pt; rewrite !(proj2 (A7 us _ Bx)); reflexivity).
  rewrite <- (degrees_eq x y A4 A5). apply close; auto; try lra. intros a m Ha Hm. apply A8; try congruence. apply Sl; congruence.
Qed.
Theorem slopes_kept x y : wf_nurbs x -> bounded_knots x -> cutting_calls x y ->
  forall b k L, (b < length (n_axes x))%nat -> (0 <= k < n_comp x)%Z -> slope x b k L -> slope y b k L.
Proof. intros W Bk C. apply (calls_kept x y W Bk C). Qed.
