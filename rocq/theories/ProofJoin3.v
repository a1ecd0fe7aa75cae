(** The joined object is the two pieces, up to the tolerance of the final knot removal. *)
From Coq Require Import ZArith Reals List Lia Lra Bool.
From Verif Require Import Num Loop ModelBspline ModelBSp ModelNurbs ModelRemove ModelIga ModelCad Spec SpecElev SpecCompat SpecJoin SumZ BPiece BLink BRep ProofSpan
  SpecNurbs ProofNet ProofCall ProofNurbs ProofMethods ProofClamp ProofGeom ProofGeom2 ProofPerm ProofOk ProofIga ProofIga2 ProofInit ProofSlice ProofRemove4
  ProofCompat1 ProofCompat2 ProofCompat3 ProofCad ProofRuled ProofCoons ProofJoin ProofJoin2.
Import ListNotations.
Local Open Scope R_scope.

(** ** Auxiliary facts *)
Lemma lrem_seq : forall a s d, (a < d)%nat -> lrem a (seq s d) = seq s a ++ seq (s + S a) (d - S a).
Proof.
  induction a as [|a IH]; intros s [|d] H; try lia; cbn [seq lrem app].
  - rewrite Nat.sub_succ, Nat.sub_0_r, Nat.add_1_r. reflexivity.
  - rewrite IH by lia. f_equal. f_equal. f_equal; lia.
Qed.
Lemma in_others a d b : (a < d)%nat -> In b (lrem a (seq 0 d)) <-> (b < d /\ b <> a)%nat.
Proof. intros H. rewrite lrem_seq by auto. rewrite in_app_iff, !in_seq. lia. Qed.
Lemma others_are d a : (a < d)%nat -> axes_are d (Some (lrem a (zseq d 0))) (lrem a (seq 0 d)).
Proof.
  intros H. cbn [axes_are]. apply Forall2_lrem.
  assert (G : forall n s, (s + n <= d)%nat -> Forall2 (fun ax b => py_axis (Z.of_nat d) ax = Ok b) (zseq n (Z.of_nat s)) (seq s n)).
  { induction n as [|n IH]; intros s Hs; cbn [zseq seq]; constructor.
    - rewrite py_axis_nat by lia. rewrite Nat2Z.id. reflexivity.
    - replace (Z.of_nat s + 1)%Z with (Z.of_nat (S s)) by lia. apply IH. lia. }
  apply (G d 0%nat). lia.
Qed.
Lemma moved_back_L nrb d L (lo hi : nat -> R) us : wf_nurbs nrb -> length (n_axes nrb) = d ->
  (forall b, In b L -> lo b <= a_lo (get_axis nrb b) /\ a_hi (get_axis nrb b) <= hi b) -> length us = d ->
  (forall b, (b < d)%nat -> if in_dec Nat.eq_dec b L then lo b <= nth b us 0 <= hi b else a_lo (get_axis nrb b) <= nth b us 0 <= a_hi (get_axis nrb b)) ->
  exists us1, in_box (spec_axes nrb) us1 /\ moved nrb L lo hi us1 us.
Proof.
  intros W Ld B Lu H.
  destruct (moved_back nrb d (fun b => if in_dec Nat.eq_dec b L then lo b else a_lo (get_axis nrb b)) (fun b => if in_dec Nat.eq_dec b L then hi b else a_hi (get_axis nrb b)) us W Ld) as (us1 & I & M); auto.
  - intros b Hb. destruct (in_dec Nat.eq_dec b L); auto. cbn. lra.
  - intros b Hb. specialize (H b Hb). destruct (in_dec Nat.eq_dec b L); auto.
  - exists us1. split; auto. destruct M as [M1 M2]. split; auto. intros b Hb. rewrite M2 by auto. pose proof (in_box_length _ _ I) as Lb. unfold spec_axes in Lb. rewrite map_length in Lb.
    destruct (in_dec Nat.eq_dec b (seq 0 d)) as [J|J]; [|exfalso; apply J, in_seq; lia]. destruct (in_dec Nat.eq_dec b L); auto. apply rescale_self. apply wf_lohi_of; auto. lia.
Qed.
Lemma top_corner axs : forall P, Forall wf_ax axs -> (forall A, In A axs -> clamped_at A true) -> tsum axs P (map (fun A => x_U A (x_n A + 1)%Z) axs) = P (map x_n axs).
Proof.
  intros P W C. assert (F : Forall2 clamped_at axs (map (fun _ => true) axs)).
  { clear - C. induction axs as [|A l IH]; constructor; [apply C; left; auto|apply IH; intros; apply C; right; auto]. }
  pose proof (tsum_corner axs _ P W F) as E.
  replace (map2 corner_param axs (map (fun _ => true) axs)) with (map (fun A => x_U A (x_n A + 1)%Z) axs) in E.
  2:{ clear. induction axs as [|A l IH]; cbn; auto. f_equal; auto. }
  rewrite E. f_equal. clear. induction axs as [|A l IH]; cbn; auto. f_equal; auto.
Qed.
Lemma tol_le1 n d P dev M i : (0 <= n)%Z -> 0 <= dev -> (0 <= i <= n)%Z -> P i d <= M ->
  0 <= remove_tol (N:=Rn) sqrt n d P dev -> remove_tol (N:=Rn) sqrt n d P dev <= dev * M.
Proof.
  intros Hn Hd Hi HP H0. pose proof (row_max_nonneg n d P Hn) as HR. pose proof (col_min_le n d P Hn i Hi) as H1.
  unfold remove_tol in *. rn. cbn in HR, H1.
  set (c := col_min (N:=Rn) n d P) in *. set (r := row_max (N:=Rn) sqrt n d P) in *. change (T Rn) with R in *.
  assert (Hv : 0 < / (1 + r) <= 1). { split; [apply Rinv_0_lt_compat; lra|]. rewrite <- Rinv_1. apply Rinv_le_contravar; lra. }
  unfold Rdiv in *. assert (Hc : 0 <= dev * c). { destruct (Rle_lt_dec 0 (dev * c)); auto. assert (dev * c * / (1 + r) < 0) by nra. lra. }
  apply Rle_trans with (dev * c); [nra|]. apply Rmult_le_compat_l; auto. lra.
Qed.
Lemma last_top nrb a : wf_nurbs nrb -> (a < length (n_axes nrb))%nat -> forall i,
  rolled (N:=Rn) nrb a i (n_cols nrb a) = n_arr nrb (lins a i (map x_n (lrem a (spec_axes nrb)))) (n_comp nrb - 1).
Proof.
  intros WN Ha i. pose proof WN as [_ [Wf Wc]].
  assert (Hf : Forall (fun A => (0 <= x_n A)%Z) (lrem a (spec_axes nrb))).
  { apply Forall_lrem. eapply Forall_impl; [|exact Wf]. intros A [Hp Hw]. pose proof (wf_n _ _ _ Hw). lia. }
  assert (I : in_net (lrem a (spec_axes nrb)) (map x_n (lrem a (spec_axes nrb)))) by (clear - Hf; induction Hf; simpl; constructor; auto; lia).
  assert (E : lrem a (n_shape nrb) = map (fun A => (x_n A + 1)%Z) (lrem a (spec_axes nrb))).
  { unfold n_shape, spec_axes. rewrite <- !map_lrem, map_map. apply map_ext. intros. simpl. lia. }
  rewrite <- rolled_col by (try lia; apply inb_net; auto). f_equal. unfold colOf, n_cols. rewrite E.
  assert (G : forall l, flat (map (fun A => (x_n A + 1)%Z) l) (map x_n l) = (zprod (map (fun A => (x_n A + 1)%Z) l) - 1)%Z).
  { induction l as [|A l IH]; simpl; auto. rewrite IH. lia. }
  rewrite G. lia.
Qed.
(** The knot at the joint has multiplicity [p] and stands apart. *)
Lemma glued_mult m1 m2 p u U1 U2 : wf_knots m1 p U1 -> wf_knots m2 p U2 -> (1 <= p)%Z ->
  (forall j, (m1 + 1 <= j <= m1 + p)%Z -> U1 j = u) -> (forall j, (1 <= j <= p)%Z -> U2 j = u) -> (multiplicity (glued m1 p u U1 U2) 0 (m1 + m2 + p + 1) u <= p)%Z.
Proof.
  intros W1 W2 Hp H1 H2. pose proof (wf_n _ _ _ W1). pose proof (wf_n _ _ _ W2).
  rewrite (multiplicity_split _ 0 m1) by lia. rewrite (multiplicity_split _ (m1 + 1) (m1 + p)) by lia.
  rewrite (multiplicity_none _ 0 m1).
  2:{ intros j Hj. rewrite glued_left by (auto; lia). pose proof (wf_last _ _ _ W1) as L. rewrite (H1 (m1 + 1)%Z) in L by lia.
      assert (U1 j <= U1 m1) by (apply (wf_mono _ _ _ W1); lia). lra. }
  rewrite (multiplicity_none _ (m1 + p + 1)).
  2:{ intros j Hj. rewrite glued_right by (auto; lia). pose proof (wf_first _ _ _ W2) as L. rewrite (H2 p) in L by lia.
      assert (U2 (p + 1)%Z <= U2 (j - m1)%Z) by (apply (wf_mono _ _ _ W2); lia). lra. }
  pose proof (multiplicity_le (glued m1 p u U1 U2) (m1 + 1) (m1 + p) u). lia.
Qed.

Lemma near_of out nrb us us1 (tol : R) : (4 <= n_comp nrb)%Z -> (forall c, (0 <= c < n_comp nrb)%Z -> Rabs (hom out c us - hom nrb c us1) <= tol) ->
  forall c, (0 <= c < n_comp nrb)%Z -> near out nrb c us us1 tol.
Proof.
  intros W3 HB c Hc. split; [auto|]. intros Hw Hw'. pose proof (HB c Hc) as B1. pose proof (HB 3%Z ltac:(lia)) as B2.
  rewrite <- Rabs_mult.
  assert (EQ : (pt out c us - pt nrb c us1) * hom out 3 us = (hom out c us - hom nrb c us1) + - (pt nrb c us1 * (hom out 3 us - hom nrb 3 us1))).
  { unfold pt. field. split; assumption. }
  rewrite EQ. eapply Rle_trans; [apply Rabs_triang|]. rewrite Rabs_Ropp, Rabs_mult.
  pose proof (Rabs_pos (pt nrb c us1)). nra.
Qed.
Lemma lins_back a (us : list R) : (a < length us)%nat -> lins a (nth a us 0) (lrem a us) = us.
Proof. apply lins_lrem. Qed.
Lemma nth_lins_other {A} (x d : A) : forall a b r, (a <= length r)%nat -> b <> a -> nth b (lins a x r) d = nth (if (b <? a)%nat then b else pred b) r d.
Proof.
  induction a as [|a IH]; intros [|b] r Ha Hb; try lia; [destruct r; reflexivity|destruct r; [cbn in Ha; lia|reflexivity]|].
  destruct r as [|y r]; [cbn in Ha; lia|]. change (S b <? S a)%nat with (b <? a)%nat. cbn [lins nth pred]. rewrite (IH b r) by (cbn in Ha; lia).
  destruct (Nat.ltb_spec b a); auto. destruct b; [lia|]. reflexivity.
Qed.

Lemma Forall2_2 {A B} (Q : A -> B -> Prop) x y l : Forall2 Q [x; y] l -> exists a b, l = [a; b] /\ Q x a /\ Q y b.
Proof. intros F. inversion F as [|? a ? ? Qa F' E1 E2]. inversion F' as [|? b ? ? Qb F'' E3 E4]. inversion F''. eauto. Qed.

Lemma nth_his nrb b : (b < length (n_axes nrb))%nat -> nth b (map a_hi (n_axes nrb)) 0 = a_hi (get_axis nrb b).
Proof. intros H. rewrite (nth_indep _ 0 (a_hi (axis0 (N:=Rn)))) by (rewrite map_length; auto). rewrite map_nth. reflexivity. Qed.

Theorem join_user junk junk2 nrb1 nrb2 d a L (lo hi : nat -> R) deg p : wf_nurbs nrb1 -> wf_nurbs nrb2 -> continues nrb1 nrb2 d a L lo hi deg p ->
  let A1 := get_axis nrb1 a in let A2 := get_axis nrb2 a in
  exists out t, join (N:=Rn) sqrt junk junk2 nrb1 nrb2 (Z.of_nat a) = Ok out /\ wf_nurbs out /\ n_comp out = n_comp nrb1 /\ length (n_axes out) = d /\
   (let B := get_axis out a in a_deg B = p /\ a_lo B = a_lo A1 /\ a_hi B = a_hi A1 + a_hi A2) /\
   (forall b, In b L -> let B := get_axis out b in open_axis B /\ a_deg B = deg b /\ a_lo B = lo b /\ a_hi B = hi b) /\ (0 <= t <= p - 1)%Z /\
   let tol := IZR t * (/ 1000000000 * top_weight nrb1) in
   (forall us1 us, in_box (spec_axes nrb1) us1 -> moved nrb1 L lo hi us1 us -> in_box (spec_axes out) us /\
      forall c, (0 <= c < n_comp nrb1)%Z -> near out nrb1 c us us1 tol) /\
   (forall us2 us, in_box (spec_axes nrb2) us2 -> moved nrb2 L lo hi us2 us -> let us' := lset a (nth a us2 0 + a_hi A1) us in in_box (spec_axes out) us' /\
      forall c, (0 <= c < n_comp nrb1)%Z -> near out nrb2 c us' us2 tol).
Proof.
  intros W1 W2 [Ha EL EC HJ AP1 AP2 ED RA1 RA2 ST MT] A1 A2. fold A1 in AP1, RA1. fold A2 in AP2, RA2, ST. fold A1 A2 in ED.
  assert (InL : forall b, In b L <-> (b < d /\ b <> a)%nat) by (intros b; rewrite EL; apply in_others; auto).
  pose proof (jn_dim _ _ _ _ _ _ HJ nrb1 ltac:(left; auto)) as D1. pose proof (jn_dim _ _ _ _ _ _ HJ nrb2 ltac:(right; left; auto)) as D2.
  assert (AR : axes_are d (Some (lrem a (zseq d 0))) L) by (rewrite EL; apply others_are; auto).
  destruct (compat_user junk junk2 [nrb1; nrb2] _ d L lo hi deg ltac:(cbn; lia) AR ltac:(intros n [<-|[<-|[]]]; auto) HJ) as (outs & EC1 & F & SM).
  destruct (Forall2_2 _ _ _ _ F) as (o1 & o2 & -> & F1 & F2). clear F.
  destruct F1 as (WO1 & CO1 & LO1 & KO1 & NO1 & HO1 & _). destruct F2 as (WO2 & CO2 & LO2 & KO2 & NO2 & HO2 & _).
  assert (NA : ~ In a L) by (rewrite InL; lia).
  pose proof (NO1 a NA) as GO1. fold A1 in GO1. pose proof (NO2 a NA) as GO2. fold A2 in GO2.
  assert (Wx1 : wf_ax (spec_ax A1)) by (apply wf_get_axis; auto; lia). assert (Wx2 : wf_ax (spec_ax A2)) by (apply wf_get_axis; auto; lia).
  assert (PA1 : py_axis (n_dim o1) (Z.of_nat a) = Ok a) by (rewrite py_axis_nat by (unfold n_dim; lia); rewrite Nat2Z.id; auto).
  assert (PA2 : py_axis (n_dim o2) (Z.of_nat a) = Ok a) by (rewrite py_axis_nat by (unfold n_dim; lia); rewrite Nat2Z.id; auto).
  set (u := a_hi A1 : R).
  destruct (prep1 o1 (Z.of_nat a) a p junk junk2 WO1 PA1) as (c1 & q1 & B1 & EK1 & DK1 & HK1 & EE1 & X1 & M1 & DB1 & LB1 & HB1 & AB1 & CB1); [rewrite GO1; split; auto|].
  destruct (prep2 o2 (Z.of_nat a) a p u junk junk2 WO2 PA2) as (c2 & s2 & q2 & B2 & EK2 & DK2 & ER2 & EE2 & X2 & M2 & DB2 & LB2 & HB2 & AB2 & CB2); [rewrite GO2; split; auto|].
  rewrite GO1 in *. rewrite GO2 in *. rewrite ST, Rplus_0_l in LB2.
  assert (GQ1 : get_axis q1 a = B1) by (unfold get_axis; rewrite X1; apply nth_lset; lia).
  assert (GQ2 : get_axis q2 a = B2) by (unfold get_axis; rewrite X2; apply nth_lset; lia).
  assert (LQ1 : length (n_axes q1) = d) by (rewrite X1, lset_length; auto). assert (LQ2 : length (n_axes q2) = d) by (rewrite X2, lset_length; auto).
  pose proof (mv_wf _ _ _ M1) as WQ1. pose proof (mv_wf _ _ _ M2) as WQ2.
  assert (OQ1 : forall b, In b L -> get_axis q1 b = get_axis o1 b) by (intros b Ib; apply InL in Ib; unfold get_axis; rewrite X1; apply nth_lset_other; lia).
  assert (OQ2 : forall b, In b L -> get_axis q2 b = get_axis o2 b) by (intros b Ib; apply InL in Ib; unfold get_axis; rewrite X2; apply nth_lset_other; lia).
  assert (FS : Forall2 same_axR (lrem a (spec_axes q1)) (lrem a (spec_axes q2))).
  { unfold spec_axes. rewrite X1, X2, <- !map_lrem, !lrem_lset.
    assert (G : Forall2 same_axR (spec_axes (mkNurbs (N:=Rn) (lset a B1 (n_axes o1)) 4 (fun _ _ => 0))) (spec_axes (mkNurbs (N:=Rn) (lset a B1 (n_axes o2)) 4 (fun _ _ => 0)))).
    { apply same_axes; cbn [n_axes]; [rewrite !lset_length; congruence|]. intros b Hb. rewrite lset_length, LO1 in Hb. unfold get_axis. cbn [n_axes].
      destruct (Nat.eq_dec b a) as [->|Hne]; [rewrite !nth_lset by lia; auto|]. rewrite !nth_lset_other by auto.
      destruct (SM b o1 o2 ltac:(apply InL; auto) ltac:(left; auto) ltac:(right; left; auto)) as (S1 & S2 & S3 & _). auto. }
    unfold spec_axes in G. cbn [n_axes] in G. apply (Forall2_lrem _ _ _ a) in G. rewrite !map_lset, !lrem_lset in G. rewrite !map_lrem. exact G. }
  assert (WB1 : wf_ax (spec_ax B1)) by (rewrite <- GQ1; apply wf_get_axis; auto; lia). assert (WB2 : wf_ax (spec_ax B2)) by (rewrite <- GQ2; apply wf_get_axis; auto; lia).
  set (m1 := (a_size B1 - 1)%Z). set (m2 := (a_size B2 - 1)%Z).
  assert (Wk1 : wf_knots m1 p (a_knots B1)) by (rewrite <- DB1; apply WB1). assert (Wk2 : wf_knots m2 p (a_knots B2)) by (rewrite <- DB2; apply WB2).
  assert (Hp : (1 <= p)%Z) by (rewrite <- DB1; apply WB1).
  assert (R1 : forall j, (m1 + 1 <= j <= m1 + p)%Z -> a_knots B1 j = u) by (intros j Hj; rewrite (CB1 j) by (rewrite DB1; unfold m1 in Hj; lia); exact HB1).
  assert (R2 : forall j, (1 <= j <= p)%Z -> a_knots B2 j = u) by (intros j Hj; rewrite (CB2 j) by (rewrite DB2; lia); exact LB2).
  destruct (glue_spec q1 q2 a p u WQ1 WQ2) as (g & EG & WG & CG & XG & HG).
  { lia. } { congruence. } { rewrite (mv_comp _ _ _ M2), (mv_comp _ _ _ M1). congruence. } { auto. } { rewrite GQ1; auto. } { rewrite GQ2; auto. }
  { rewrite GQ1. exact R1. } { rewrite GQ2. exact R2. }
  rewrite GQ1, GQ2 in *. fold m1 m2 in XG, HG. set (Bg := mkAxis (N:=Rn) (m1 + m2 + 1) (m1 + m2 + p + 2) (glued m1 p u (a_knots B1) (a_knots B2))) in *.
  assert (GG : get_axis g a = Bg) by (unfold get_axis; rewrite XG; apply nth_lset; lia).
  assert (OG : forall b, b <> a -> get_axis g b = get_axis q1 b) by (intros b Hb; unfold get_axis; rewrite XG; apply nth_lset_other; auto).
  assert (LG : length (n_axes g) = d) by (rewrite XG, lset_length; auto).
  assert (DG : a_deg Bg = p) by (unfold Bg, a_deg; cbn; lia).
  assert (NG : (a_size Bg - 1 = m1 + m2)%Z) by (unfold Bg; cbn; lia).
  assert (LoG : a_lo Bg = a_lo A1). { rewrite a_lo_eq, DG. unfold Bg. cbn [a_knots]. rewrite (glued_lo m1 p u _ (a_knots B2) Wk1 Hp R1). rewrite <- DB1, <- a_lo_eq. exact LB1. }
  assert (HiG : a_hi Bg = u + a_hi A2).
  { rewrite a_hi_eq, NG. unfold Bg. cbn [a_knots]. rewrite (glued_hi m1 m2 p u (a_knots B1) (a_knots B2) Wk2 Hp R2). unfold m2. rewrite <- a_hi_eq, HB2. apply Rplus_comm. }
  pose proof (wf_lohi _ Wx1) as LH1. pose proof (wf_lohi _ Wx2) as LH2. rewrite ST in LH2. fold u in LH1.
  assert (PG : py_axis (n_dim g) (Z.of_nat a) = Ok a) by (rewrite py_axis_nat by (unfold n_dim; lia); rewrite Nat2Z.id; auto).
  destruct (remove_ok g (Z.of_nat a) a u (Some (p - 1)%Z) (default_deviation (N:=Rn)) junk2 WG PG) as (out & ER).
  { rewrite GG, DG, NG. split; [rewrite <- DG, <- a_lo_eq, LoG; cbn; lra|]. rewrite <- NG, <- a_hi_eq, HiG. lra. } { lia. }
  assert (SEP : separated (a_knots Bg) 0 (m1 + m2 + p + 1) u).
  { pose proof (wf_n _ _ _ Wk1) as N1. pose proof (wf_n _ _ _ Wk2) as N2. intros j Hj. unfold Bg. cbn [a_knots]. destruct (Z_le_gt_dec j (m1 + p)).
    - rewrite glued_left by auto. rewrite <- (R1 (m1 + 1)%Z) by lia. destruct (AB1 j (m1 + 1)%Z) as [E|E]; rewrite ?a_len_eq, ?DB1; fold m1; try lia; [left; auto|right; lra].
    - rewrite glued_right by (auto; lia). rewrite <- (R2 p) by lia. destruct (AB2 (j - m1)%Z p) as [E|E]; rewrite ?a_len_eq, ?DB2; fold m2; try lia; [left; auto|right; lra]. }
  pose proof (glued_mult m1 m2 p u _ _ Wk1 Wk2 Hp R1 R2) as MU.
  assert (RS := remove_spec g (Z.of_nat a) a u (Some (p - 1)%Z) (default_deviation (N:=Rn)) junk2 out WG PG). cbv zeta in RS. rewrite GG, DG, NG in RS.
  specialize (RS SEP ltac:(cbn [a_knots Bg]; eapply Z.le_trans; [exact MU|lia]) ER).
  destruct RS as (_ & _ & t & V & Ht & HT & WT & CT & SD & XT & _ & _ & HB). change (a_knots Bg) with (glued m1 p u (a_knots B1) (a_knots B2)) in Ht.
  assert (C1 : n_comp g = n_comp nrb1) by (rewrite CG, (mv_comp _ _ _ M1); exact CO1).
  assert (GT : get_axis out a = mkAxis (a_size Bg - t) (a_len Bg - t) V) by (unfold get_axis; rewrite XT; apply nth_lset; lia).
  assert (OT : forall b, b <> a -> get_axis out b = get_axis q1 b) by (intros b Hb; rewrite <- OG by auto; unfold get_axis; rewrite XT; apply nth_lset_other; auto).
  assert (ET : join (N:=Rn) sqrt junk junk2 nrb1 nrb2 (Z.of_nat a) = Ok out).
  { unfold join. unfold n_dim. rewrite D1, D2, Z.eqb_refl. cbn [assert bind]. destruct (Z.leb_spec 0 (Z.of_nat a)); [|lia]. destruct (Z.ltb_spec (Z.of_nat a) (Z.of_nat d)); [|lia]. cbn [andb assert bind].
    rewrite !Nat2Z.id. rewrite EC1. cbn [bind]. rewrite EK1. cbn [bind]. rewrite EK2. cbn [bind]. rewrite DK1, DK2, HK1. fold u. rewrite <- ED.
    match goal with |- context[remap c2 ?x ?s ?e] => replace (remap c2 x s e) with (Ok s2) by (symmetry; exact ER2) end. cbn [bind]. rewrite EE1. cbn [bind]. rewrite EE2. cbn [bind]. rewrite EG. cbn [bind]. exact ER. }
  clear ER EE1 EE2 ER2 EK1 EK2 EC1 EG.
  assert (Hl : forall x r b, S (length r) = d -> b <> a -> nth b (lins a x r) 0 = nth (if (b <? a)%nat then b else pred b) r 0) by (intros x r b Hr Hb; apply nth_lins_other; auto; lia).
  assert (MEET : forall r c, S (length r) = d -> (forall b, In b L -> lo b <= nth b (lins a u r) 0 <= hi b) -> (0 <= c < n_comp nrb1)%Z -> hom q1 c (lins a u r) = hom q2 c (lins a u r)).
  { intros r c Hr Hb Hc.
    destruct (moved_back_L nrb1 d L lo hi (lins a u r) W1 D1) as (us1 & I1 & V1).
    { intros b Ib. destruct (jn_bounds _ _ _ _ _ _ HJ nrb1 b ltac:(left; auto) Ib) as (X & Y & _). auto. } { rewrite lins_length; auto. }
    { intros b Hbd. destruct (in_dec Nat.eq_dec b L) as [Ib|Ib]; auto. assert (b = a) as -> by (destruct (Nat.eq_dec b a); auto; exfalso; apply Ib, InL; auto).
      rewrite nth_lins by lia. fold A1. fold u. lra. }
    destruct (moved_back_L nrb2 d L lo hi (lins a 0 r) W2 D2) as (us2 & I2 & V2).
    { intros b Ib. destruct (jn_bounds _ _ _ _ _ _ HJ nrb2 b ltac:(right; left; auto) Ib) as (X & Y & _). auto. } { rewrite lins_length; auto. }
    { intros b Hbd. destruct (in_dec Nat.eq_dec b L) as [Ib|Ib].
      - specialize (Hb b Ib). apply InL in Ib. rewrite Hl by (auto; lia). rewrite Hl in Hb by (auto; lia). exact Hb.
      - assert (b = a) as -> by (destruct (Nat.eq_dec b a); auto; exfalso; apply Ib, InL; auto). rewrite nth_lins by lia. fold A2. rewrite ST. lra. }
    destruct (HO1 _ _ I1 V1) as [J1 K1]. destruct (HO2 _ _ I2 V2) as [J2 K2].
    destruct (mv_hom _ _ _ M1 (lins a u r) (lins a u r) J1 eq_refl ltac:(auto)) as [_ Q1].
    destruct (mv_hom _ _ _ M2 (lins a 0 r) (lins a u r) J2) as [_ Q2].
    { rewrite !lins_length. auto. } { intros b Hbd. destruct (Nat.eqb_spec b a) as [->|Hne]; [rewrite !nth_lins by lia; lra|]. rewrite !Hl; auto. }
    rewrite Q1, Q2, K1, K2.
    assert (Na : forall us v nrb, length (n_axes nrb) = d -> in_box (spec_axes nrb) us -> moved nrb L lo hi us v -> nth a us 0 = nth a v 0).
    { intros us v nrb Ln I [_ V0]. pose proof (in_box_length _ _ I) as Ll. unfold spec_axes in Ll. rewrite map_length in Ll. rewrite V0 by lia. destruct (in_dec Nat.eq_dec a L); [contradiction|auto]. }
    apply (MT us1 us2 (lins a u r) (lins a 0 r)); auto.
    - rewrite !lrem_lins by lia. auto.
    - rewrite (Na _ _ nrb1 D1 I1 V1). rewrite nth_lins by lia. reflexivity.
    - rewrite (Na _ _ nrb2 D2 I2 V2). rewrite nth_lins by lia. symmetry. exact ST. }
  (* the bound of the removal *)
  set (vt := map (a_hi : axis Rn -> R) (n_axes q1)). set (rt := lrem a vt).
  assert (Lv : length vt = d) by (unfold vt; rewrite map_length; auto).
  assert (Lr : S (length rt) = d) by (unfold rt; rewrite lrem_length; lia).
  assert (Ev : lins a u rt = vt). { replace u with (nth a vt 0); [apply lins_back; lia|]. unfold vt. rewrite nth_his by lia. rewrite GQ1. exact HB1. }
  assert (Nv : forall b, In b L -> nth b vt 0 = hi b). { intros b Ib. pose proof (proj1 (InL b) Ib) as [Hb _]. unfold vt. rewrite nth_his by lia. rewrite OQ1 by auto. apply (KO1 b Ib). }
  assert (HL0 : forall b, In b L -> lo b <= hi b). { intros b Ib. destruct (KO1 b Ib) as (_ & _ & <- & <-). pose proof (proj1 (InL b) Ib) as [Hb _]. left. apply wf_lohi_of; auto. lia. }
  assert (Tp : n_arr g (lins a m1 (map x_n (lrem a (spec_axes g)))) (n_comp g - 1) = top_weight nrb1).
  { assert (Sr : lrem a (spec_axes g) = lrem a (spec_axes q1)) by (unfold spec_axes; rewrite XG, map_lset, lrem_lset; auto). rewrite Sr.
    destruct (HG (n_comp g - 1)%Z rt ltac:(congruence)) as (_ & _ & HG3).
    { pose proof (proj2 (proj2 W1)). apply MEET; auto; [|lia]. intros b Ib. rewrite Ev, Nv by auto. split; [auto|apply Rle_refl]. }
    assert (Er : rt = map (fun A => x_U A (x_n A + 1)%Z) (lrem a (spec_axes q1))).
    { unfold rt, vt, spec_axes. rewrite !map_lrem, map_map. f_equal. apply map_ext. intros A. rewrite a_hi_eq. reflexivity. }
    rewrite Ev in HG3. rewrite Er in HG3. rewrite (top_corner (lrem a (spec_axes q1)) (fun idx => n_arr g (lins a m1 idx) (n_comp g - 1)%Z)) in HG3.
    - rewrite HG3. rewrite C1. unfold top_weight.
      assert (I1 : in_box (spec_axes nrb1) (map a_hi (n_axes nrb1))).
      { apply in_box_lohi. split; [apply map_length|]. intros b Hb. rewrite nth_his by auto. pose proof (wf_lohi_of nrb1 b W1 Hb). cbn in *. lra. }
      assert (V1 : moved nrb1 L lo hi (map a_hi (n_axes nrb1)) vt).
      { split; [rewrite Lv, map_length; auto|]. intros b Hb. rewrite map_length in Hb. rewrite nth_his by auto. destruct (in_dec Nat.eq_dec b L) as [Ib|Ib].
        - rewrite Nv by auto. symmetry. apply (rescale_ends (get_axis nrb1 b) (lo b) (hi b)). apply wf_lohi_of; auto.
        - assert (b = a) as -> by (destruct (Nat.eq_dec b a); auto; exfalso; apply Ib, InL; lia). rewrite <- Ev, nth_lins by lia. reflexivity. }
      destruct (HO1 _ _ I1 V1) as [J1 K1]. destruct (mv_hom _ _ _ M1 vt vt J1 eq_refl ltac:(auto)) as [_ Q1]. rewrite Q1, K1. reflexivity.
    - apply Forall_lrem, WQ1.
    - intros A IA. apply (In_nth _ _ (spec_ax axis0)) in IA. destruct IA as (k & Hk & <-).
      assert (CL : Forall (fun A => clamped_at A true) (spec_axes q1)).
      { apply Forall_forall. intros A IA. apply (In_nth _ _ (spec_ax axis0)) in IA. destruct IA as (b & Hb & <-). unfold spec_axes in Hb. rewrite map_length, LQ1 in Hb. rewrite nth_spec_axes.
        intros j Hj. cbn [spec_ax x_n x_p x_U] in *. destruct (Nat.eq_dec b a) as [->|Hne].
        - rewrite GQ1 in *. rewrite DB1 in Hj. fold m1 in Hj |- *. rewrite !R1 by lia. auto.
        - assert (Ib : In b L) by (apply InL; auto). rewrite OQ1 in * by auto. destruct (KO1 b Ib) as ([[_ CC] _] & _). apply CC. lia. }
      apply (Forall_lrem _ _ a) in CL. rewrite Forall_forall in CL. apply CL. apply nth_In. auto. }
  assert (TOL : forall us c, in_box (spec_axes g) us -> (0 <= c < n_comp nrb1)%Z -> Rabs (hom out c us - hom g c us) <= IZR t * (/ 1000000000 * top_weight nrb1)).
  { intros us c Iu Hc. eapply Rle_trans; [apply HB; [auto|lia]|]. destruct (Z.eq_dec t 0) as [->|Hz]; [rewrite !Rmult_0_l; apply Rle_refl|].
    apply Rmult_le_compat_l; [apply IZR_le; lia|]. pose proof (wf_n _ _ _ Wk1). pose proof (wf_n _ _ _ Wk2).
    replace (/ 1000000000) with (default_deviation (N:=Rn)) by (unfold default_deviation; cbn; lra).
    apply (tol_le1 _ _ _ _ _ m1); [lia|unfold default_deviation; cbn; lra|lia| |apply HT; lia].
    rewrite (last_top g a WG) by lia. rewrite Tp. apply Rle_refl. }
  clear HB HT.
  assert (BX : forall us, length us = d -> (forall b, In b L -> lo b <= nth b us 0 <= hi b) -> a_lo A1 <= nth a us 0 <= u + a_hi A2 -> in_box (spec_axes g) us).
  { intros us Lu Hb Hx. apply in_box_lohi. rewrite LG. split; auto. intros b Hbd. destruct (Nat.eq_dec b a) as [->|Hne].
    - rewrite GG, LoG, HiG. auto.
    - assert (Ib : In b L) by (apply InL; auto). rewrite OG, OQ1 by auto. destruct (KO1 b Ib) as (_ & _ & -> & ->). auto. }
  exists out, t. split; auto. split; auto. split; [congruence|]. split; [rewrite XT, lset_length; auto|].
  split. { cbv zeta. rewrite GT. assert (S1 := Forall2_nth _ _ _ a (spec_ax axis0) (spec_ax axis0) SD). unfold spec_axes at 1 in S1. rewrite map_length, LG in S1. specialize (S1 Ha).
    rewrite !nth_spec_axes, GG, GT in S1. destruct S1 as [S1 S2]. cbn [spec_ax x_n x_p x_U] in S1, S2. split; [unfold a_deg in *; cbn [a_len a_size] in *; lia|].
    split; [rewrite <- LoG; symmetry; exact S1|]. rewrite <- HiG. rewrite !a_hi_eq. symmetry. exact S2. }
  split. { intros b Ib. cbv zeta. pose proof (proj1 (InL b) Ib) as [_ Hb]. rewrite OT, OQ1 by auto. apply KO1. auto. }
  split. { lia. }
  cbv zeta. split.
  - intros us1 us I1 V1. destruct (HO1 _ _ I1 V1) as [J1 K1]. destruct (mv_hom _ _ _ M1 us us J1 eq_refl ltac:(auto)) as [J1' Q1].
    apply in_box_lohi in J1. destruct J1 as [Lu J1]. rewrite LO1 in Lu, J1.
    assert (HbL : forall b, In b L -> lo b <= nth b us 0 <= hi b). { intros b Ib. destruct (KO1 b Ib) as (_ & _ & <- & <-). apply J1. apply InL in Ib. lia. }
    assert (Ha1 : a_lo A1 <= nth a us 0 <= u). { generalize (J1 a Ha). rewrite GO1. auto. }
    assert (Ig : in_box (spec_axes g) us) by (apply BX; auto; lra).
    split; [apply (in_box_dom _ _ _ SD Ig)|]. apply near_of; [apply W1|]. intros c Hc.
    assert (Er : lins a (nth a us 0) (lrem a us) = us) by (apply lins_back; lia).
    assert (Lr1 : S (length (lrem a us)) = d) by (rewrite lrem_length; lia).
    destruct (HG c (lrem a us) ltac:(congruence)) as (HG1 & _).
    { apply MEET; auto. intros b Ib. specialize (HbL b Ib). rewrite <- Er in HbL. apply InL in Ib. rewrite Hl in * by (auto; lia). auto. }
    specialize (HG1 (nth a us 0)). rewrite Er in HG1. rewrite <- (K1 c), <- (Q1 c), <- HG1; [apply TOL; auto|]. unfold in_domain. rewrite (R1 (m1 + 1)%Z) by lia. rewrite <- DB1, <- a_lo_eq, LB1. auto.
  - intros us2 us I2 V2. pose proof (in_box_length _ _ I2) as Ll2. unfold spec_axes in Ll2. rewrite map_length in Ll2.
    assert (Na : nth a us 0 = nth a us2 0) by (destruct V2 as [_ V0]; rewrite V0 by lia; destruct (in_dec Nat.eq_dec a L); [contradiction|auto]).
    destruct (HO2 _ _ I2 V2) as [J2 K2]. set (us' := lset a (nth a us2 0 + u) us).
    apply in_box_lohi in J2. pose proof J2 as [Lu J2']. rewrite LO2 in Lu, J2'. apply in_box_lohi in J2.
    assert (Lu' : length us' = d) by (unfold us'; rewrite lset_length; auto).
    assert (Na' : nth a us' 0 = nth a us2 0 + u) by (unfold us'; apply nth_lset; lia).
    assert (Nb' : forall b, b <> a -> nth b us' 0 = nth b us 0) by (intros; unfold us'; apply nth_lset_other; auto).
    destruct (mv_hom _ _ _ M2 us us' J2) as [_ Q2]. { congruence. } { intros b Hb. destruct (Nat.eqb_spec b a) as [->|Hne]; [rewrite Na', Na; auto|auto]. }
    assert (HbL : forall b, In b L -> lo b <= nth b us' 0 <= hi b). { intros b Ib. pose proof (proj1 (InL b) Ib) as [Hb Hne]. rewrite Nb' by auto. destruct (KO2 b Ib) as (_ & _ & <- & <-). apply J2'. auto. }
    assert (Ha2 : 0 <= nth a us2 0 <= a_hi A2). { generalize (J2' a Ha). rewrite GO2, ST, Na. auto. }
    assert (Ig : in_box (spec_axes g) us') by (apply BX; auto; rewrite Na'; cbn; lra).
    split; [apply (in_box_dom _ _ _ SD Ig)|]. rewrite EC in *. apply near_of; [apply W2|]. intros c Hc.
    assert (Er : lins a (nth a us' 0) (lrem a us') = us') by (apply lins_back; lia).
    assert (Lr1 : S (length (lrem a us')) = d) by (rewrite lrem_length; lia).
    destruct (HG c (lrem a us') ltac:(congruence)) as (_ & HG2 & _).
    { apply MEET; auto. intros b Ib. specialize (HbL b Ib). rewrite <- Er in HbL. apply InL in Ib. rewrite Hl in * by (auto; lia). auto. }
    specialize (HG2 (nth a us' 0)). rewrite Er in HG2. rewrite <- (K2 c), <- (Q2 c), <- HG2; [apply TOL; auto|]. unfold in_domain. rewrite (R2 p) by lia. rewrite Na'.
    unfold m2. rewrite <- a_hi_eq, HB2. lra.
Qed.
