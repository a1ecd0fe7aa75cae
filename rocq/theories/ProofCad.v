From Coq Require Import ZArith Reals List Lia Lra Bool.
From Verif Require Import Num Loop ModelBspline ModelBSp ModelNurbs ModelIga ModelRemove ModelTransform ModelCad Spec SpecTransform SumZ BPiece BLink ProofSpan
  SpecNurbs ProofNet ProofCall ProofNurbs ProofGeom ProofGeom2 ProofTransform ExTac.
Import ListNotations.
Local Open Scope R_scope.

(** Calling the object on arrays of parameters of its domain gives the points [f us c]. *)
Definition shows (nrb : nurbs Rn) (f : list R -> Z -> R) : Prop :=
  wf_nurbs nrb /\ forall xs, good_args (spec_axes nrb) xs -> forall j j2 j3 jS, exists C,
    call (N:=Rn) j j2 j3 jS nrb (map Some xs) FNo = Ok (C, None) /\
    forall idx c, in_range xs idx -> (0 <= c < 3)%Z -> C idx c = f (params xs idx) c.
(** The weight function has no zero in the domain. *)
Definition weight_ok (nrb : nurbs Rn) : Prop := forall us, in_box (spec_axes nrb) us -> hom nrb 3 us <> 0.

Lemma shows_intro nrb f : wf_nurbs nrb -> (forall us c, in_box (spec_axes nrb) us -> (0 <= c < 3)%Z -> pt nrb c us = f us c) -> shows nrb f.
Proof.
  intros W H. split; auto. intros xs G j j2 j3 jS.
  destruct (call_spec j j2 j3 jS nrb xs FNo 4 (n_arr nrb) W G eq_refl) as (C & F0 & E & HC & EF). subst F0.
  exists C. split; [exact E|]. intros idx c I Hc. rewrite HC by auto. apply H; auto. apply params_box; auto.
Qed.
Lemma shows_elim nrb f us c : shows nrb f -> in_box (spec_axes nrb) us -> (0 <= c < 3)%Z -> pt nrb c us = f us c.
Proof.
  intros [W H] D Hc. set (xs := map (fun u => mkVec (N:=Rn) 1 (fun _ => u)) us).
  assert (G : good_args (spec_axes nrb) xs).
  { unfold xs. clear - D. induction D; simpl; constructor; auto. cbn. split; [lia|auto]. }
  set (idx := map (fun _ => 0%Z) us).
  assert (I : in_range xs idx) by (unfold xs, idx; clear; induction us; simpl; constructor; auto; cbn; lia).
  assert (E : params xs idx = us) by (unfold xs, idx; clear; induction us; simpl; auto; f_equal; auto).
  set (j := fun _ : Z => 0). set (j2 := fun _ _ : Z => 0). set (j3 := fun _ _ _ : Z => 0). set (jS := fun _ : Z => 0%Z).
  destruct (H xs G j j2 j3 jS) as (C & EC & HC).
  destruct (call_spec j j2 j3 jS nrb xs FNo 4 (n_arr nrb) W G eq_refl) as (C' & F0 & E' & HC' & EF).
  rewrite EC in E'. injection E' as <- _. specialize (HC idx c I Hc). rewrite (HC' idx c I), E in HC. exact HC.
Qed.

(** ** Sums over concatenated nets *)
Lemma tsum_app axs : forall bxs P us vs, length us = length axs ->
  tsum (axs ++ bxs) P (us ++ vs) = tsum axs (fun i => tsum bxs (fun j => P (i ++ j)) vs) us.
Proof.
  induction axs as [|a axs IH]; intros bxs P us vs Hl; destruct us as [|u us]; try discriminate; simpl; auto.
  apply sumZ_ext. intros i Hi. f_equal. apply (IH bxs (fun idx => P (i :: idx))). simpl in Hl; lia.
Qed.
Lemma tsum_zero axs us : length us = length axs -> tsum axs (fun _ => 0) us = 0.
Proof. intros H. transitivity (0 * tsum axs (fun _ => 0) us); [|ring]. rewrite <- tsum_scal by auto. apply tsum_ext; auto. intros; ring. Qed.
Lemma in_box_app axs bxs us : in_box (axs ++ bxs) us -> exists us1 us2, us = us1 ++ us2 /\ in_box axs us1 /\ in_box bxs us2.
Proof. intros H. apply Forall2_app_inv_l in H. destruct H as (l1 & l2 & H1 & H2 & ->). eauto. Qed.
Lemma in_box_join axs bxs us vs : in_box axs us -> in_box bxs vs -> in_box (axs ++ bxs) (us ++ vs).
Proof. apply Forall2_app. Qed.
Lemma in_net_join axs bxs us vs : in_net axs us -> in_net bxs vs -> in_net (axs ++ bxs) (us ++ vs).
Proof. apply Forall2_app. Qed.
Lemma in_net_app axs bxs us : in_net (axs ++ bxs) us -> exists us1 us2, us = us1 ++ us2 /\ in_net axs us1 /\ in_net bxs us2.
Proof. intros H. apply Forall2_app_inv_l in H. destruct H as (l1 & l2 & H1 & H2 & ->). eauto. Qed.
Lemma in_box_1 a us : in_box [a] us -> exists u, us = [u] /\ in_domain (x_n a) (x_p a) (x_U a) u.
Proof. intros H. inversion H as [|? u ? us' Hu H']; subst. inversion H'; subst. eauto. Qed.
Lemma in_net_1 a us : in_net [a] us -> exists i, us = [i] /\ (0 <= i <= x_n a)%Z.
Proof. intros H. inversion H as [|? u ? us' Hu H']; subst. inversion H'; subst. eauto. Qed.

(** The axis with knots 0,0,1,1. *)
Definition unit_axis : axis Rn := mkAxis (N:=Rn) 2 4 (fun i => if (i <? 2)%Z then 0 else 1).
Lemma unit_wf : wf_ax (spec_ax unit_axis).
Proof.
  split; [cbn; lia|]. split; cbn; try lia; try lra.
  intros i j Hi Hij Hj. destruct (Z.ltb_spec i 2), (Z.ltb_spec j 2); try lia; lra.
Qed.
Lemma unit_dom v : in_domain (x_n (spec_ax unit_axis)) (x_p (spec_ax unit_axis)) (x_U (spec_ax unit_axis)) v <-> 0 <= v <= 1.
Proof. unfold in_domain. cbn. tauto. Qed.
Lemma unit_curve P v : 0 <= v <= 1 -> curve (x_n (spec_ax unit_axis)) (x_p (spec_ax unit_axis)) (x_U (spec_ax unit_axis)) P v = (1 - v) * P 0%Z + v * P 1%Z.
Proof.
  intros Hv. destruct unit_wf as [_ W].
  assert (A : active (x_n (spec_ax unit_axis)) (x_p (spec_ax unit_axis)) (x_U (spec_ax unit_axis)) v 1).
  { split; [cbn; lia|]. cbn. destruct (Rlt_dec v 1); [left; lra|right; split; [reflexivity|lra]]. }
  rewrite (curve_piece _ _ _ P v 1 W A). unfold pc, sumZ. cbn. change (Pos.to_nat 2) with 2%nat. change (Pos.to_nat 1) with 1%nat. cbn [sumN]. rewrite !B_S. cbn.
  rewrite ?Rmult_0_r, ?Rplus_0_l, ?Rplus_0_r, ?Rmult_1_r. field.
Qed.
Lemma unit_tsum P v : 0 <= v <= 1 -> tsum [spec_ax unit_axis] P [v] = (1 - v) * P [0%Z] + v * P [1%Z].
Proof. intros Hv. change (tsum [spec_ax unit_axis] P [v]) with (curve (x_n (spec_ax unit_axis)) (x_p (spec_ax unit_axis)) (x_U (spec_ax unit_axis)) (fun i => P [i]) v). apply unit_curve. auto. Qed.

(** ** The constructor on given arrays *)
Lemma shape_eqb_refl l : shape_eqb l l = true.
Proof. induction l; simpl; auto. rewrite Z.eqb_refl. auto. Qed.
Lemma shape_eqb_eq a : forall b, shape_eqb a b = true -> a = b.
Proof.
  induction a as [|x a IH]; intros [|y b] H; simpl in H; try discriminate; auto.
  apply andb_prop in H. destruct H as [H1 H2]. apply Z.eqb_eq in H1. subst. f_equal. auto.
Qed.
Lemma zip_axes_of (axs : list (axis Rn)) : zip_axes (map a_size axs) (map (fun A => mkVec (N:=Rn) (a_len A) (a_knots A)) axs) = axs.
Proof. induction axs as [|[s l k] axs IH]; simpl; auto. f_equal. exact IH. Qed.
Lemma deg_len (A : axis Rn) : wf_ax (spec_ax A) -> (4 <= a_len A)%Z.
Proof. intros W. destruct (wf_ax_size A W). rewrite a_len_eq. destruct W as [_ W]. pose proof (wf_n _ _ _ W). cbn in *. lia. Qed.

(** Building an object on given axes: the control array [f] with k coordinates. *)
Lemma init_built junk (axs : list (axis Rn)) k f :
  (1 <= length axs <= 3)%nat -> Forall wf_ax (map spec_ax axs) -> (2 <= k <= 4)%Z ->
  exists nrb, init (N:=Rn) junk (map (fun A => mkVec (N:=Rn) (a_len A) (a_knots A)) axs) (Some (nd_of (map a_size axs) k f)) None None = Ok nrb /\
    n_axes nrb = axs /\ n_comp nrb = 4%Z /\
    forall idx c, n_arr nrb idx c = if (k =? 4)%Z then f idx c else if (c <? k)%Z then f idx c else if (c =? 3)%Z then 1 else 0.
Proof.
  intros Hl W Hk. unfold init, assert. rewrite map_length.
  destruct (Z.leb_spec 1 (Z.of_nat (length axs))); [|lia]. cbn [bind]. destruct (Z.leb_spec (Z.of_nat (length axs)) 3); [|lia]. cbn [bind].
  assert (E1 : forallb (fun k0 : vec Rn => (4 <=? v_len k0)%Z) (map (fun A => mkVec (N:=Rn) (a_len A) (a_knots A)) axs) = true).
  { apply forallb_forall. intros x Hx. apply in_map_iff in Hx. destruct Hx as (A & <- & HA). cbn. apply Z.leb_le. apply deg_len. rewrite Forall_map, Forall_forall in W. auto. }
  rewrite E1. cbn [bind]. unfold init_control, assert. cbn [nd_of nd_shape nd_get].
  rewrite app_length, map_length. cbn [length]. destruct (Z.leb_spec 2 (Z.of_nat (length axs + 1))); [|lia]. cbn [bind].
  rewrite last_last, removelast_last. destruct (Z.leb_spec 2 k); [|lia]. cbn [bind]. destruct (Z.leb_spec k 4); [|lia]. cbn [bind is_none].
  assert (E2 : forallb (fun a : axis Rn => (1 <=? a_deg a)%Z) axs = true).
  { apply forallb_forall. intros x Hx. apply Z.leb_le. apply wf_ax_size. rewrite Forall_map, Forall_forall in W. auto. }
  destruct (Z.eqb_spec k 4), (Z.ltb_spec k 4); try lia; cbn [bind init_fields]; rewrite !map_length, Z.eqb_refl, zip_axes_of, E2; cbn [bind];
    eexists; (split; [reflexivity|]); cbn; (split; [reflexivity|]); (split; [reflexivity|]); intros idx c; rewrite last_last, removelast_last; reflexivity.
Qed.
(** With weights. *)
Lemma init_built_w junk (axs : list (axis Rn)) f w :
  (1 <= length axs <= 3)%nat -> Forall wf_ax (map spec_ax axs) ->
  exists nrb, init (N:=Rn) junk (map (fun A => mkVec (N:=Rn) (a_len A) (a_knots A)) axs) (Some (nd_of (map a_size axs) 3 f)) None (Some (mkNd (map a_size axs) w)) = Ok nrb /\
    n_axes nrb = axs /\ n_comp nrb = 4%Z /\
    forall idx c, n_arr nrb idx c = if (c <? 3)%Z then f idx c * w idx else if (c =? 3)%Z then w idx else 0.
Proof.
  intros Hl W. unfold init, assert. rewrite map_length.
  destruct (Z.leb_spec 1 (Z.of_nat (length axs))); [|lia]. cbn [bind]. destruct (Z.leb_spec (Z.of_nat (length axs)) 3); [|lia]. cbn [bind].
  assert (E1 : forallb (fun k0 : vec Rn => (4 <=? v_len k0)%Z) (map (fun A => mkVec (N:=Rn) (a_len A) (a_knots A)) axs) = true).
  { apply forallb_forall. intros x Hx. apply in_map_iff in Hx. destruct Hx as (A & <- & HA). cbn. apply Z.leb_le. apply deg_len. rewrite Forall_map, Forall_forall in W. auto. }
  rewrite E1. cbn [bind]. unfold init_control, assert. cbn [nd_of nd_shape nd_get].
  rewrite app_length, map_length. cbn [length]. destruct (Z.leb_spec 2 (Z.of_nat (length axs + 1))); [|lia]. cbn [bind].
  rewrite last_last, removelast_last, shape_eqb_refl. cbn [bind Z.leb Z.ltb Z.compare Pos.compare Pos.compare_cont].
  assert (E2 : forallb (fun a : axis Rn => (1 <=? a_deg a)%Z) axs = true).
  { apply forallb_forall. intros x Hx. apply Z.leb_le. apply wf_ax_size. rewrite Forall_map, Forall_forall in W. auto. }
  cbn [init_fields bind]. rewrite !map_length, Z.eqb_refl, zip_axes_of, E2. cbn [bind].
  eexists; (split; [reflexivity|]); cbn; (split; [reflexivity|]); (split; [reflexivity|]); intros idx c; rewrite last_last, removelast_last; reflexivity.
Qed.
Lemma built_wf (axs : list (axis Rn)) nrb : (length axs <= 3)%nat -> Forall wf_ax (map spec_ax axs) -> n_axes nrb = axs -> n_comp nrb = 4%Z -> wf_nurbs nrb.
Proof. intros H W E1 E2. unfold wf_nurbs, spec_axes. rewrite E1, E2. repeat split; auto. lia. Qed.

(** ** Extrusion *)
Lemma app_axes (nrb : nurbs Rn) : knots_of nrb ++ [knots0011] = map (fun A => mkVec (N:=Rn) (a_len A) (a_knots A)) (n_axes nrb ++ [unit_axis]).
Proof. rewrite map_app. reflexivity. Qed.
Lemma app_shape (nrb : nurbs Rn) : n_shape nrb ++ [2%Z] = map a_size (n_axes nrb ++ [unit_axis]).
Proof. rewrite map_app. reflexivity. Qed.

Lemma tsum_apply4 axs (M : Z -> Z -> R) (f : list Z -> Z -> R) us c : length us = length axs ->
  tsum axs (fun i => apply4 (N:=Rn) M (f i) c) us = apply4 (N:=Rn) M (fun k => tsum axs (fun i => f i k) us) c.
Proof.
  intros Hl. unfold apply4. rn. rewrite !tsum_plus by auto.
  rewrite (tsum_ext axs _ (fun i => M c 0%Z * f i 0%Z)), (tsum_ext axs (fun idx => f idx 1%Z * M c 1%Z) (fun i => M c 1%Z * f i 1%Z)),
    (tsum_ext axs (fun idx => f idx 2%Z * M c 2%Z) (fun i => M c 2%Z * f i 2%Z)), (tsum_ext axs (fun idx => f idx 3%Z * M c 3%Z) (fun i => M c 3%Z * f i 3%Z)); auto; try (intros; ring).
  rewrite !tsum_scal by auto. ring.
Qed.

Theorem extrude_hom nrb d ax junk v : wf_nurbs nrb -> (1 <= length (n_axes nrb) <= 2)%nat ->
  meant 0 (fun x i => if (i =? 0)%Z then x else 0) d ax v ->
  exists nrb', extrude (N:=Rn) junk nrb d ax = Ok nrb' /\ wf_nurbs nrb' /\ n_axes nrb' = n_axes nrb ++ [unit_axis] /\
   forall us t, in_box (spec_axes nrb) us -> 0 <= t <= 1 ->
     hom nrb' 3 (us ++ [t]) = hom nrb 3 us /\
     forall c, (0 <= c < 3)%Z -> hom nrb' c (us ++ [t]) = hom nrb c us + t * v c * hom nrb 3 us.
Proof.
  intros W Hl Hm. unfold extrude. unfold assert, n_dim. destruct (Z.leb_spec (Z.of_nat (length (n_axes nrb))) 2); [|lia]. cbn [bind].
  destruct (accepts_spec ident d ax (ex_intro _ v Hm)) as [[M E] _]. rewrite E. cbn [bind].
  destruct (translate_spec _ _ _ _ E) as (v' & Hm' & HT).
  assert (EV : forall c, (0 <= c < 3)%Z -> v' c = v c).
  { intros c Hc. unfold meant in *. destruct d as [x|a], ax as [k|].
    - destruct Hm as (_ & y & [Hy|(a & Hy & _)] & H1), Hm' as (_ & y' & [Hy'|(a' & Hy' & _)] & H2); try discriminate. rewrite H1, H2 by auto. assert (Ey : y = y') by congruence. rewrite Ey. reflexivity.
    - rewrite Hm, Hm' by auto. reflexivity.
    - destruct Hm as (_ & y & [Hy|(a1 & Hy & _ & Hy2)] & H1), Hm' as (_ & y' & [Hy'|(a1' & Hy' & _ & Hy2')] & H2); try discriminate. rewrite H1, H2 by auto. assert (Ey : y = y') by congruence. rewrite Ey. reflexivity.
    - destruct Hm as [_ H1], Hm' as [_ H2]. rewrite H1, H2 by auto. reflexivity. }
  rewrite app_axes, app_shape. destruct W as (W1 & W2 & W3).
  assert (WA : Forall wf_ax (map spec_ax (n_axes nrb ++ [unit_axis]))) by (rewrite map_app; apply Forall_app; split; [exact W2|constructor; [apply unit_wf|constructor]]).
  destruct (init_built junk (n_axes nrb ++ [unit_axis]) 4 (fun idx c => let i := removelast idx in
                     if (last idx 0 =? 0)%Z then n_arr nrb i c else apply4 M (n_arr nrb i) c)) as (nrb' & EI & EA & EC & EN); auto; [rewrite app_length; cbn; lia|lia|].
  exists nrb'. split; [exact EI|]. split; [apply (built_wf (n_axes nrb ++ [unit_axis])); auto; rewrite app_length; cbn; lia|]. split; [exact EA|].
  intros us t D Ht. assert (Hus : length us = length (spec_axes nrb)) by (apply in_box_length; auto).
  assert (HH : forall c, hom nrb' c (us ++ [t]) = (1 - t) * hom nrb c us + t * apply4 (N:=Rn) M (fun k => hom nrb k us) c).
  { intros c. unfold hom at 1. unfold spec_axes at 1. rewrite EA, map_app. cbn [map]. rewrite tsum_app by auto.
    rewrite (tsum_ext _ _ (fun i => (1 - t) * n_arr nrb i c + t * apply4 (N:=Rn) M (n_arr nrb i) c)); auto.
    - rewrite tsum_plus, !tsum_scal by auto. f_equal. f_equal. apply tsum_apply4. auto.
    - intros i Hi. rewrite unit_tsum by auto. rewrite !EN. cbn [Z.eqb Pos.eqb]. rewrite !removelast_last, !last_last. reflexivity. }
  destruct (HT (fun k => hom nrb k us)) as [T1 T2]. split.
  - rewrite HH, T2, ident_apply by lia. ring.
  - intros c Hc. rewrite HH, T1, EV, !ident_apply by lia. ring.
Qed.
Theorem extrude_shows nrb d ax junk v f : shows nrb f -> weight_ok nrb -> (1 <= length (n_axes nrb) <= 2)%nat ->
  meant 0 (fun x i => if (i =? 0)%Z then x else 0) d ax v ->
  exists nrb', extrude (N:=Rn) junk nrb d ax = Ok nrb' /\ n_axes nrb' = n_axes nrb ++ [unit_axis] /\
    weight_ok nrb' /\ shows nrb' (fun us c => f (removelast us) c + last us 0 * v c).
Proof.
  intros Hs Hw Hl Hm. destruct (extrude_hom nrb d ax junk v (proj1 Hs) Hl Hm) as (nrb' & E & W' & EA & HH). exists nrb'. split; auto. split; auto.
  assert (DD : forall us, in_box (spec_axes nrb') us -> exists us' t, us = us' ++ [t] /\ in_box (spec_axes nrb) us' /\ 0 <= t <= 1).
  { intros us D. unfold spec_axes in D. rewrite EA, map_app in D. apply in_box_app in D. destruct D as (u1 & u2 & -> & D1 & D2).
    cbn [map] in D2. apply in_box_1 in D2. destruct D2 as (t & -> & Ht). apply unit_dom in Ht. eauto. }
  split.
  - intros us D. destruct (DD us D) as (us' & t & -> & D' & Ht). destruct (HH us' t D' Ht) as [-> _]. auto.
  - apply shows_intro; auto. intros us c D Hc. destruct (DD us D) as (us' & t & -> & D' & Ht). destruct (HH us' t D' Ht) as [H3 H].
    rewrite removelast_last, last_last, <- (shows_elim nrb f us' c Hs D' Hc). unfold pt. rewrite H, H3 by auto. field. auto.
Qed.

(** ** Sweep *)
Theorem sweep_shows sec tra junk f g : shows sec f -> shows tra g -> weight_ok sec -> weight_ok tra ->
  (1 <= length (n_axes sec) <= 2)%nat -> length (n_axes tra) = 1%nat ->
  (forall idx, in_net (spec_axes sec) idx -> n_weights (N:=Rn) sec idx <> 0) -> (forall idx, in_net (spec_axes tra) idx -> n_weights (N:=Rn) tra idx <> 0) ->
  exists nrb', sweep (N:=Rn) junk sec tra = Ok nrb' /\ n_axes nrb' = n_axes sec ++ n_axes tra /\
    weight_ok nrb' /\ shows nrb' (fun us c => f (removelast us) c + g [last us 0] c).
Proof.
  intros Hs Ht Ws Wt Ls Lt Ns Nt. unfold sweep, assert, n_dim.
  destruct (Z.leb_spec 1 (Z.of_nat (length (n_axes sec)))); [|lia]. destruct (Z.leb_spec (Z.of_nat (length (n_axes sec))) 2); [|lia]. cbn [andb bind].
  destruct (Z.eqb_spec (Z.of_nat (length (n_axes tra))) 1); [|lia]. cbn [bind].
  assert (WA : Forall wf_ax (map spec_ax (n_axes sec ++ n_axes tra))) by (rewrite map_app; apply Forall_app; split; [apply (proj1 Hs)|apply (proj1 Ht)]).
  destruct (init_built_w junk (n_axes sec ++ n_axes tra) (fun idx c => n_points (N:=Rn) sec (removelast idx) c + n_points (N:=Rn) tra [last idx 0%Z] c)
     (fun idx => n_weights (N:=Rn) sec (removelast idx) * n_weights (N:=Rn) tra [last idx 0%Z])) as (nrb' & EI & EA & EC & EN); auto; [rewrite app_length; lia|].
  exists nrb'. unfold knots_of, n_shape. rewrite <- !map_app. split; [exact EI|]. split; [exact EA|].
  destruct (n_axes tra) as [|B [|? ?]] eqn:EB; try (cbn in Lt; lia).
  assert (DD : forall us, in_box (spec_axes nrb') us -> exists us' t, us = us' ++ [t] /\ in_box (spec_axes sec) us' /\ in_box (spec_axes tra) [t]).
  { intros us D. unfold spec_axes in D. rewrite EA, map_app in D. apply in_box_app in D. destruct D as (u1 & u2 & -> & D1 & D2).
    assert (D3 := D2). cbn [map] in D2. apply in_box_1 in D2. destruct D2 as (t & -> & Hd). exists u1, t. split; auto. split; auto. unfold spec_axes. rewrite EB. auto. }
  assert (HH : forall us t, in_box (spec_axes sec) us -> in_box (spec_axes tra) [t] ->
     hom nrb' 3 (us ++ [t]) = hom sec 3 us * hom tra 3 [t] /\
     forall c, (0 <= c < 3)%Z -> hom nrb' c (us ++ [t]) = hom sec c us * hom tra 3 [t] + hom sec 3 us * hom tra c [t]).
  { intros us t D1 D2. assert (Hus : length us = length (spec_axes sec)) by (apply in_box_length; auto).
    assert (G : forall c (P1 P2 Q1 Q2 : list Z -> R), (forall i j, in_net (spec_axes sec) i -> in_net (spec_axes tra) j -> n_arr nrb' (i ++ j) c = P1 i * P2 j + Q1 i * Q2 j) ->
       hom nrb' c (us ++ [t]) = tsum (spec_axes sec) P1 us * tsum (spec_axes tra) P2 [t] + tsum (spec_axes sec) Q1 us * tsum (spec_axes tra) Q2 [t]).
    { intros c P1 P2 Q1 Q2 HP. unfold hom, spec_axes at 1. rewrite EA, map_app. rewrite tsum_app by auto.
      rewrite (tsum_ext _ _ (fun i => tsum (spec_axes tra) P2 [t] * P1 i + tsum (spec_axes tra) Q2 [t] * Q1 i)); auto.
      - rewrite tsum_plus, !tsum_scal by auto. fold (spec_axes sec). ring.
      - intros i Hi. replace (map spec_ax [B]) with (spec_axes tra) by (unfold spec_axes; rewrite EB; reflexivity).
        assert (L1 : length [t] = length (spec_axes tra)) by (apply in_box_length; auto).
        rewrite (tsum_ext (spec_axes tra) _ (fun j => P1 i * P2 j + Q1 i * Q2 j)); auto. rewrite tsum_plus, !tsum_scal by auto. ring. }
    assert (J1 : forall j, in_net (spec_axes tra) j -> exists k, j = [k]).
    { intros j Hj. unfold spec_axes in Hj. rewrite EB in Hj. apply in_net_1 in Hj. destruct Hj as (k & -> & _). eauto. }
    split.
    - rewrite (G 3%Z (fun i => n_arr sec i 3%Z) (fun j => n_arr tra j 3%Z) (fun _ => 0) (fun _ => 0)).
      + unfold hom. rewrite tsum_zero by auto. ring.
      + intros i j Hi Hj. destruct (J1 j Hj) as [k ->]. rewrite EN. change (3 <? 3)%Z with false. change (3 =? 3)%Z with true. cbv iota. rewrite removelast_last, last_last. unfold n_weights.
        rewrite Rmult_0_l, Rplus_0_r. reflexivity.
    - intros c Hc. rewrite (G c (fun i => n_arr sec i c) (fun j => n_arr tra j 3%Z) (fun i => n_arr sec i 3%Z) (fun j => n_arr tra j c)); [reflexivity|].
      intros i j Hi Hj. pose proof (Ns i Hi) as N1. pose proof (Nt j Hj) as N2. destruct (J1 j Hj) as [k ->]. rewrite EN. destruct (Z.ltb_spec c 3); [|lia]. rewrite removelast_last, last_last.
      unfold n_points, n_weights in *. rn. field. split; auto. }
  split.
  - intros us D. destruct (DD us D) as (us' & t & -> & D1 & D2). destruct (HH us' t D1 D2) as [-> _]. apply Rmult_integral_contrapositive. auto.
  - apply shows_intro. { apply (built_wf (n_axes sec ++ [B])); auto. rewrite app_length; cbn; lia. }
    intros us c D Hc. destruct (DD us D) as (us' & t & -> & D1 & D2). destruct (HH us' t D1 D2) as [H3 HC].
    rewrite removelast_last, last_last, <- (shows_elim sec f us' c Hs D1 Hc), <- (shows_elim tra g [t] c Ht D2 Hc). unfold pt. rewrite HC, H3 by auto. field. auto.
Qed.

(** ** Multilinear patches *)
Lemma init_gen junk (axs : list (axis Rn)) k g :
  (1 <= length axs <= 3)%nat -> Forall wf_ax (map spec_ax axs) -> (2 <= k <= 4)%Z ->
  exists nrb, init (N:=Rn) junk (map (fun A => mkVec (N:=Rn) (a_len A) (a_knots A)) axs) (Some (mkNd (map a_size axs ++ [k]) g)) None None = Ok nrb /\
    n_axes nrb = axs /\ n_comp nrb = 4%Z /\
    forall idx c, n_arr nrb idx c = if (k =? 4)%Z then g (idx ++ [c]) else if (c <? k)%Z then g (idx ++ [c]) else if (c =? 3)%Z then 1 else 0.
Proof.
  intros Hl W Hk. unfold init, assert. rewrite map_length.
  destruct (Z.leb_spec 1 (Z.of_nat (length axs))); [|lia]. cbn [bind]. destruct (Z.leb_spec (Z.of_nat (length axs)) 3); [|lia]. cbn [bind].
  assert (E1 : forallb (fun k0 : vec Rn => (4 <=? v_len k0)%Z) (map (fun A => mkVec (N:=Rn) (a_len A) (a_knots A)) axs) = true).
  { apply forallb_forall. intros x Hx. apply in_map_iff in Hx. destruct Hx as (A & <- & HA). cbn. apply Z.leb_le. apply deg_len. rewrite Forall_map, Forall_forall in W. auto. }
  rewrite E1. cbn [bind]. unfold init_control, assert. cbn [nd_shape nd_get].
  rewrite app_length, map_length. cbn [length]. destruct (Z.leb_spec 2 (Z.of_nat (length axs + 1))); [|lia]. cbn [bind].
  rewrite last_last, removelast_last. destruct (Z.leb_spec 2 k); [|lia]. cbn [bind]. destruct (Z.leb_spec k 4); [|lia]. cbn [bind is_none].
  assert (E2 : forallb (fun a : axis Rn => (1 <=? a_deg a)%Z) axs = true).
  { apply forallb_forall. intros x Hx. apply Z.leb_le. apply wf_ax_size. rewrite Forall_map, Forall_forall in W. auto. }
  destruct (Z.eqb_spec k 4), (Z.ltb_spec k 4); try lia; cbn [bind init_fields]; rewrite !map_length, Z.eqb_refl, zip_axes_of, E2; cbn [bind];
    eexists; (split; [reflexivity|]); cbn; (split; [reflexivity|]); (split; [reflexivity|]); intros idx c; reflexivity.
Qed.

(** Multilinear interpolation of corner values. *)
Fixpoint interp (us : list R) (P : list Z -> R) : R :=
  match us with
  | [] => P []
  | u :: us' => (1 - u) * interp us' (fun i => P (0%Z :: i)) + u * interp us' (fun i => P (1%Z :: i))
  end.
Definition unit_params (us : list R) : Prop := Forall (fun u => 0 <= u <= 1) us.
Lemma interp_tsum us : forall P, unit_params us -> tsum (map spec_ax (repeat unit_axis (length us))) P us = interp us P.
Proof.
  induction us as [|u us IH]; intros P H; cbn [repeat length map interp]; auto. inversion H; subst.
  etransitivity; [|rewrite <- !IH by auto; apply (unit_curve (fun i => tsum (map spec_ax (repeat unit_axis (length us))) (fun j => P (i :: j)) us)); auto]. reflexivity.
Qed.
Lemma interp_const us v : interp us (fun _ => v) = v.
Proof. induction us as [|u us IH]; cbn [interp]; auto. rewrite IH. ring. Qed.
Lemma unit_box d us : in_box (map spec_ax (repeat unit_axis d)) us -> length us = d /\ unit_params us.
Proof.
  revert us. induction d as [|d IHd]; intros us H.
  - inversion H. split; [reflexivity|constructor].
  - inversion H as [|? u ? us' Hu H']; subst. apply IHd in H'. destruct H' as [H1 H2]. split; [cbn; congruence|]. constructor; [apply unit_dom; exact Hu|exact H2].
Qed.
(** The corner coordinates given by an array with k coordinates per point. *)
Definition corner (k : Z) (g : list Z -> R) (c : Z) (idx : list Z) : R := if (c <? k)%Z then g (idx ++ [c]) else 0.

Lemma patch_shows junk d (P : nd Rn) k : (1 <= d <= 3)%nat -> nd_shape P = repeat 2%Z d ++ [k] -> (2 <= k <= 4)%Z ->
  exists nrb, init (N:=Rn) junk (repeat knots0011 d) (Some P) None None = Ok nrb /\ n_axes nrb = repeat unit_axis d /\
   shows nrb (fun us c => if (k =? 4)%Z then interp us (corner 4 (nd_get P) c) / interp us (corner 4 (nd_get P) 3) else interp us (corner k (nd_get P) c)) /\
   ((k < 4)%Z -> weight_ok nrb).
Proof.
  intros Hd HP Hk. destruct P as [sh g]. cbn [nd_shape nd_get] in *. subst sh.
  assert (W : Forall wf_ax (map spec_ax (repeat unit_axis d))).
  { apply Forall_forall. intros x Hx. apply in_map_iff in Hx. destruct Hx as (A & <- & HA). apply repeat_spec in HA. subst. apply unit_wf. }
  destruct (init_gen junk (repeat unit_axis d) k g) as (nrb & E & EA & EC & EN); auto; [rewrite repeat_length; lia|].
  assert (R1 : map (fun A => mkVec (N:=Rn) (a_len A) (a_knots A)) (repeat unit_axis d) = repeat knots0011 d) by (clear; induction d; cbn; auto; f_equal; auto).
  assert (R2 : map a_size (repeat unit_axis d) = repeat 2%Z d) by (clear; induction d; cbn; auto; f_equal; auto).
  rewrite R1, R2 in E. exists nrb. split; [exact E|]. split; [exact EA|].
  assert (WN : wf_nurbs nrb) by (apply (built_wf (repeat unit_axis d)); auto; rewrite repeat_length; lia).
  assert (H4 : (k < 4)%Z -> forall us, in_box (spec_axes nrb) us -> hom nrb 3 us = 1).
  { intros H us D. unfold hom. unfold spec_axes in *. rewrite EA in *. destruct (unit_box _ _ D) as [Hl Hu]. rewrite <- Hl, interp_tsum by auto.
    transitivity (interp us (fun _ => 1)); [|apply interp_const]. f_equal. apply FunctionalExtensionality.functional_extensionality. intros idx. rewrite EN.
    destruct (Z.eqb_spec k 4); [lia|]. destruct (Z.ltb_spec 3 k); [lia|]. reflexivity. }
  split.
  - apply shows_intro; auto. intros us c D Hc. destruct (Z.eqb_spec k 4) as [->|Hk4].
    + unfold pt, hom. unfold spec_axes in *. rewrite EA in *. destruct (unit_box _ _ D) as [Hl Hu]. rewrite <- Hl, !interp_tsum by auto. f_equal; [|f_equal]; f_equal;
        apply FunctionalExtensionality.functional_extensionality; intros idx; rewrite EN; unfold corner; cbn; auto. destruct (Z.ltb_spec c 4); [reflexivity|lia].
    + unfold pt. rewrite H4 by (auto; lia). unfold hom. unfold spec_axes in *. rewrite EA in *. destruct (unit_box _ _ D) as [Hl Hu]. rewrite <- Hl, interp_tsum by auto.
      unfold Rdiv; rewrite Rinv_1, Rmult_1_r. f_equal. apply FunctionalExtensionality.functional_extensionality; intros idx. rewrite EN. unfold corner.
      destruct (Z.eqb_spec k 4); [lia|]. destruct (c <? k)%Z; auto. destruct (Z.eqb_spec c 3); [lia|reflexivity].
  - intros H us D. rewrite H4 by auto. lra.
Qed.

Lemma multilinear_shows junk (P : nd Rn) k : (2 <= k <= 4)%Z ->
  let f := fun us c => if (k =? 4)%Z then interp us (corner 4 (nd_get P) c) / interp us (corner 4 (nd_get P) 3) else interp us (corner k (nd_get P) c) in
  let good := fun d (r : res (nurbs Rn)) => exists nrb, r = Ok nrb /\ n_axes nrb = repeat unit_axis d /\ shows nrb f in
  (nd_shape P = [2; k]%Z -> good 1%nat (linear (N:=Rn) junk (Some P))) /\
  (nd_shape P = [2; 2; k]%Z -> good 2%nat (bilinear (N:=Rn) junk (Some P))) /\
  (nd_shape P = [2; 2; 2; k]%Z -> good 3%nat (trilinear (N:=Rn) junk (Some P))).
Proof.
  intros Hk f good. repeat split; intros HS.
  - destruct (patch_shows junk 1 P k ltac:(lia) HS Hk) as (nrb & E & EA & Hs & _). exists nrb. unfold linear. rewrite HS. split; [exact E|]. auto.
  - destruct (patch_shows junk 2 P k ltac:(lia) HS Hk) as (nrb & E & EA & Hs & _). exists nrb. unfold bilinear. rewrite HS. split; [exact E|]. auto.
  - destruct (patch_shows junk 3 P k ltac:(lia) HS Hk) as (nrb & E & EA & Hs & _). exists nrb. unfold trilinear. rewrite HS. split; [exact E|]. auto.
Qed.
(** Default arguments: the cube of side one centred at the origin. *)
Lemma multilinear_default junk :
  let good := fun d (r : res (nurbs Rn)) => exists nrb, r = Ok nrb /\ n_axes nrb = repeat unit_axis d /\
      shows nrb (fun us c => if (c <? Z.of_nat d)%Z then nth (Z.to_nat c) us 0 - 1 / 2 else 0) in
  good 1%nat (linear (N:=Rn) junk None) /\ good 2%nat (bilinear (N:=Rn) junk None) /\ good 3%nat (trilinear (N:=Rn) junk None).
Proof.
  assert (SX : forall nrb d f g, shows nrb f -> n_axes nrb = repeat unit_axis d -> (forall us c, length us = d -> (0 <= c < 3)%Z -> f us c = g us c) -> shows nrb g).
  { intros nrb d f g Hs EA Hfg. apply shows_intro; [apply Hs|]. intros us c D Hc. rewrite (shows_elim nrb f us c Hs D Hc). apply Hfg; auto.
    unfold spec_axes in D. rewrite EA in D. apply unit_box in D. apply D. }
  intros good. repeat split; unfold linear, bilinear, trilinear; cbn [bind].
  - match goal with |- context [Some ?P] => destruct (patch_shows junk 1 P 2 ltac:(lia) eq_refl ltac:(lia)) as (nrb & E & EA & Hs & _) end. exists nrb. split; [exact E|]. split; [exact EA|].
    eapply SX; eauto. intros us c Hl Hc. destruct us as [|u [|? ?]]; try discriminate. three c Hc; cbn; try change (Pos.to_nat 1) with 1%nat; try change (Pos.to_nat 2) with 2%nat; cbn; lra.
  - match goal with |- context [Some ?P] => destruct (patch_shows junk 2 P 2 ltac:(lia) eq_refl ltac:(lia)) as (nrb & E & EA & Hs & _) end. exists nrb. split; [exact E|]. split; [exact EA|].
    eapply SX; eauto. intros us c Hl Hc. destruct us as [|u [|v [|? ?]]]; try discriminate. three c Hc; cbn; try change (Pos.to_nat 1) with 1%nat; try change (Pos.to_nat 2) with 2%nat; cbn; lra.
  - match goal with |- context [Some ?P] => destruct (patch_shows junk 3 P 3 ltac:(lia) eq_refl ltac:(lia)) as (nrb & E & EA & Hs & _) end. exists nrb. split; [exact E|]. split; [exact EA|].
    eapply SX; eauto. intros us c Hl Hc. destruct us as [|u [|v [|w [|? ?]]]]; try discriminate. three c Hc; cbn; try change (Pos.to_nat 1) with 1%nat; try change (Pos.to_nat 2) with 2%nat; cbn; lra.
Qed.
(** The coordinates of a point argument, missing ones being zero. *)
Definition coord (p : sarg (N:=Rn)) (c : Z) : R :=
  match p with Scal x => if (c =? 0)%Z then x else 0 | Vect v => if (c <? v_len v)%Z then v_get v c else 0 end.
Lemma line_shows junk p0 p1 : (match p0 with Vect v => v_len v <= 3 | _ => True end)%Z -> (match p1 with Vect v => v_len v <= 3 | _ => True end)%Z ->
  exists nrb, line (N:=Rn) junk p0 p1 = Ok nrb /\ n_axes nrb = [unit_axis] /\ weight_ok nrb /\
   shows nrb (fun us c => (1 - hd 0 us) * coord p0 c + hd 0 us * coord p1 c).
Proof.
  intros H0 H1. unfold line.
  assert (S : forall p, (match p with Vect v => v_len v <= 3 | _ => True end)%Z -> (3 <? size_of (N:=Rn) p)%Z = false).
  { intros [x|v] H; cbn; auto. apply Z.ltb_ge. auto. }
  rewrite (S _ H0), (S _ H1). cbn [orb].
  match goal with |- context [Some ?P] => destruct (patch_shows junk 1 P 3 ltac:(lia) eq_refl ltac:(lia)) as (nrb & E & EA & Hs & HW) end.
  exists nrb. split; [exact E|]. split; [exact EA|]. split; [apply HW; lia|].
  apply shows_intro; [apply Hs|]. intros us c D Hc. rewrite (shows_elim nrb _ us c Hs D Hc).
  unfold spec_axes in D. rewrite EA in D. apply unit_box in D. destruct D as [Hl _]. destruct us as [|u [|? ?]]; try discriminate.
  assert (G : forall p, (if (c <? size_of (N:=Rn) p)%Z then entry p c else 0) = coord p c).
  { intros [x|v]; cbn; auto. three c Hc; reflexivity. }
  change (3 =? 4)%Z with false. cbv iota. cbn [interp hd]. unfold corner. destruct (Z.ltb_spec c 3); [|lia]. cbn. rewrite !G. reflexivity.
Qed.
