(** cad.refine: the values inserted along one axis. *)
From Coq Require Import ZArith Reals List Bool Lia Lra Sorting.Sorted.
From Verif Require Import Num Loop ModelBspline ModelBSp ModelNurbs ModelIga ModelCad Spec SumZ BLink SpecElev SpecJoin SpecCadRefine ProofSpan
  SpecNurbs ProofNet ProofCall ProofNurbs ProofMethods ProofMethods2 ProofIga2 ProofCompat1.
Import ListNotations.
Local Open Scope R_scope.
Local Arguments Z.add : simpl never.
Local Arguments Z.sub : simpl never.
Local Arguments Z.of_nat : simpl never.

Notation eps := (/ 4503599627370496).
Lemma eps_pos : 0 < eps. Proof. lra. Qed.
Definition gap (x y : R) : Prop := x + eps < y.

Definition zvals (u0 d : R) (c : nat) (k0 : Z) : list R := map (fun k => u0 + d * IZR k) (zseq c k0).
Lemma zseq_In c : forall lo k, In k (zseq c lo) <-> (lo <= k < lo + Z.of_nat c)%Z.
Proof. induction c; intros lo k; cbn [zseq In]; [lia|]. rewrite IHc. lia. Qed.
Lemma zvals_gap u0 d c : eps < d -> forall k0, StronglySorted gap (zvals u0 d c k0).
Proof.
  intros Hd. unfold zvals. induction c; intros k0; cbn [zseq map]; constructor; auto.
  apply Forall_forall. intros y Hy. apply in_map_iff in Hy. destruct Hy as (k & <- & Hk). apply zseq_In in Hk.
  unfold gap. assert (IZR k0 + 1 <= IZR k) by (rewrite <- plus_IZR; apply IZR_le; lia). nra.
Qed.

Lemma gap_app l1 l2 : StronglySorted gap l1 -> StronglySorted gap l2 -> (forall x y, In x l1 -> In y l2 -> gap x y) -> StronglySorted gap (l1 ++ l2).
Proof.
  induction 1 as [|x l S IH F]; intros S2 H; cbn [app]; auto. constructor; [apply IH; auto; intros; apply H; auto; right; auto|].
  apply Forall_app. split; auto. apply Forall_forall. intros y Hy. apply H; auto. left. auto.
Qed.
(** The list made for the breaks u. *)
Section Values.
Variables (p C : Z).
Notation rv := (refine_values (N:=Rn) p C).
Lemma rv_cons (u0 u1 : R) u s0 s n ns : rv (u0 :: u1 :: u) (s0 :: s) (n :: ns) =
  ((u0, Z.max (p - C - s0) 0) :: map (fun k => (u0 + (u1 - u0) / IZR n * IZR k, (p - C)%Z)) (zseq (Z.to_nat (n - 1)) 1)) ++ rv (u1 :: u) s ns.
Proof. reflexivity. Qed.
Definition fine (u : list R) (ns : list Z) : Prop := length u = S (length ns) /\
  forall j, (j < length ns)%nat -> (1 <= nth j ns 0)%Z /\ eps < (nth (S j) u 0 - nth j u 0) / IZR (nth j ns 0%Z).
Lemma fine_cons u0 u1 u n ns : fine (u0 :: u1 :: u) (n :: ns) -> (1 <= n)%Z /\ eps < (u1 - u0) / IZR n /\ u0 + eps < u1 /\ fine (u1 :: u) ns.
Proof.
  intros [L H]. destruct (H 0%nat) as [H1 H2]; [cbn; lia|]. cbn [nth] in H1, H2. split; auto. split; auto.
  assert (1 <= IZR n) by (apply IZR_le; lia). split.
  - assert (E : (u1 - u0) / IZR n * IZR n = u1 - u0) by (field; lra). nra.
  - split; [cbn in *; lia|]. intros j Hj. apply (H (S j)). cbn. lia.
Qed.
Lemma block_bound (u0 u1 : R) n k : (1 <= n)%Z -> eps < (u1 - u0) / IZR n -> (1 <= k < n)%Z ->
  u0 + eps < u0 + (u1 - u0) / IZR n * IZR k /\ u0 + (u1 - u0) / IZR n * IZR k + eps < u1.
Proof.
  intros Hn Hd Hk. assert (1 <= IZR k) by (apply IZR_le; lia). assert (IZR k + 1 <= IZR n) by (rewrite <- plus_IZR; apply IZR_le; lia).
  assert (E : (u1 - u0) / IZR n * IZR n = u1 - u0) by (field; lra). set (d := (u1 - u0) / IZR n) in *. split; nra.
Qed.
(** Increasing with gaps, between the first and the last break. *)
Lemma rv_sorted : forall ns u s, fine u ns -> length s = length u ->
  StronglySorted gap (map fst (rv u s ns)) /\ (forall x, In x (map fst (rv u s ns)) -> hd 0 u <= x /\ x + eps < last u 0) /\
  (ns <> [] -> exists l, map fst (rv u s ns) = hd 0 u :: l) /\ hd 0 u <= last u 0.
Proof.
  induction ns as [|n ns IH]; intros u s F Ls.
  - destruct F as [F _]. destruct u as [|u0 [|]]; cbn in F; try lia. cbn. split; [constructor|]. split; [tauto|]. split; [congruence|lra].
  - destruct u as [|u0 [|u1 u]]; [destruct F; cbn in *; lia|destruct F; cbn in *; lia|]. destruct s as [|s0 s]; [cbn in Ls; lia|].
    destruct (fine_cons _ _ _ _ _ F) as (Hn & Hd & Hu & F'). destruct (IH (u1 :: u) s F' ltac:(cbn in *; lia)) as (S1 & B1 & H1 & L1). cbn [hd] in B1, H1, L1.
    change (last (u0 :: u1 :: u) 0) with (last (u1 :: u) 0). cbn [hd]. rewrite rv_cons.
    match goal with |- context [?b ++ rv (u1 :: u) s ns] => set (blk := b) end.
    assert (BK : forall x, In x (map fst blk) -> u0 <= x /\ x + eps < u1).
    { intros x Hx. unfold blk in Hx. cbn [map fst In] in Hx. rewrite map_map in Hx. cbn [fst] in Hx. destruct Hx as [<-|Hx]; [lra|].
      apply in_map_iff in Hx. destruct Hx as (k & <- & Hk). apply zseq_In in Hk. destruct (block_bound u0 u1 n k Hn Hd ltac:(lia)). pose proof eps_pos. lra. }
    assert (BS : StronglySorted gap (map fst blk)).
    { unfold blk. cbn [map fst]. rewrite map_map. cbn [fst]. constructor; [apply (zvals_gap u0 ((u1 - u0) / IZR n) _ Hd 1%Z)|].
      apply Forall_forall. intros x Hx. apply in_map_iff in Hx. destruct Hx as (k & <- & Hk). apply zseq_In in Hk.
      apply (block_bound u0 u1 n k Hn Hd). lia. }
    split; [|split; [|split]].
    + rewrite map_app. apply gap_app; auto. intros x y Hx Hy. destruct (BK x Hx). destruct (B1 y Hy). unfold gap. lra.
    + intros x Hx. rewrite map_app, in_app_iff in Hx. destruct Hx as [Hx|Hx].
      * destruct (BK x Hx). lra.
      * destruct (B1 x Hx). pose proof eps_pos. lra.
    + intros _. unfold blk. cbn [app map fst]. eauto.
    + pose proof eps_pos. lra.
Qed.
(** The entries. *)
Lemma rv_In : forall ns (u : list R) s (x : R) c, length u = S (length ns) -> length s = length u ->
  In (x, c) (rv u s ns) <-> (exists j, (j < length ns)%nat /\ x = nth j u 0 /\ c = Z.max (p - C - nth j s 0%Z) 0) \/
    (exists j k, (j < length ns)%nat /\ (1 <= k < nth j ns 0)%Z /\ x = nth j u 0 + (nth (S j) u 0 - nth j u 0) / IZR (nth j ns 0%Z) * IZR k /\ c = (p - C)%Z).
Proof.
  induction ns as [|n ns IH]; intros u s x c Lu Ls.
  - destruct u as [|u0 [|]]; cbn in Lu; try lia. cbn. split; [tauto|]. intros [(j & H & _)|(j & k & H & _)]; cbn in H; lia.
  - destruct u as [|u0 [|u1 u]]; try (cbn in Lu; lia). destruct s as [|s0 s]; [cbn in Ls; lia|].
    rewrite rv_cons, in_app_iff, (IH (u1 :: u) s) by (cbn in *; lia). cbn [In]. rewrite in_map_iff. split.
    + intros [[E|(k & E & Hk)]|[(j & Hj & E1 & E2)|(j & k & Hj & Hk & E1 & E2)]].
      * injection E as <- <-. left. exists 0%nat. split; [cbn; lia|]. auto.
      * injection E as <- <-. apply zseq_In in Hk. right. exists 0%nat, k. split; [cbn; lia|]. cbn [nth]. split; [lia|]. auto.
      * left. exists (S j). split; [cbn; lia|]. auto.
      * right. exists (S j), k. split; [cbn; lia|]. auto.
    + intros [([|j] & Hj & E1 & E2)|([|j] & k & Hj & Hk & E1 & E2)]; cbn [nth] in *.
      * left. left. congruence.
      * right. left. exists j. split; [cbn in Hj; lia|]. auto.
      * left. right. exists k. split; [congruence|]. apply zseq_In. lia.
      * right. right. exists j, k. split; [cbn in Hj; lia|]. auto.
Qed.
End Values.

(** Lists of values with counts. *)
Definition spread (l : list (R * Z)) : list R := concat (map (fun x => repeat (fst x) (Z.to_nat (snd x))) l).
Lemma countL_rep v y m : countL v (repeat y m) = if Req_EM_T y v then Z.of_nat m else 0%Z.
Proof. induction m; cbn [repeat countL]; [destruct (Req_EM_T y v); reflexivity|]. rewrite IHm. destruct (Req_EM_T y v); lia. Qed.
Lemma spread_In x l : In x (spread l) -> exists c, In (x, c) l /\ (0 < c)%Z.
Proof.
  unfold spread. intros H. apply in_concat in H. destruct H as (r & Hr & Hx). apply in_map_iff in Hr. destruct Hr as ([y c] & <- & Hy). cbn [fst snd] in Hx.
  pose proof (repeat_spec _ _ _ Hx) as ->. exists c. split; auto. destruct (Z.to_nat c) eqn:E; [destruct Hx|lia].
Qed.
Lemma spread_none l x : ~ In x (map fst l) -> countL x (spread l) = 0%Z.
Proof.
  induction l as [|[y c] l IH]; auto. intros H. unfold spread. cbn [map concat fst snd]. rewrite countL_app, countL_rep. fold (spread l).
  cbn [map In fst] in H. rewrite IH by tauto. destruct (Req_EM_T y x); [tauto|reflexivity].
Qed.
Lemma spread_count l x c : StronglySorted gap (map fst l) -> In (x, c) l -> (0 <= c)%Z -> countL x (spread l) = c.
Proof.
  induction l as [|[y k] l IH]; intros S H Hc; [destruct H|]. cbn [map fst] in S. inversion_clear S as [|? ? S1 S2]. rewrite Forall_forall in S2.
  unfold spread. cbn [map concat fst snd]. rewrite countL_app, countL_rep. fold (spread l). destruct H as [E|H].
  - injection E as -> ->. rewrite spread_none; [destruct (Req_EM_T x x); [lia|congruence]|]. intros I. specialize (S2 _ I). unfold gap in S2. pose proof eps_pos. lra.
  - rewrite IH by auto. assert (I : In x (map fst l)) by (apply (in_map fst) in H; auto). specialize (S2 _ I). unfold gap in S2. pose proof eps_pos.
    destruct (Req_EM_T y x); [lra|lia].
Qed.
Lemma gap_apart l x y : StronglySorted gap l -> In x l -> In y l -> x = y \/ eps < Rabs (x - y).
Proof.
  induction 1 as [|z l S IH F]; [intros []|]. rewrite Forall_forall in F. unfold gap in F. pose proof eps_pos. intros [->|Hx] [->|Hy]; auto; right.
  - specialize (F _ Hy). rewrite Rabs_left; lra.
  - specialize (F _ Hx). rewrite Rabs_right; lra.
Qed.

(** ** One axis *)
Lemma ss_equal (l l' : list R) : StronglySorted Rlt l -> StronglySorted Rlt l' -> (forall x, In x l <-> In x l') -> l = l'.
Proof.
  revert l'. induction l as [|x l IH]; intros [|y l'] S S' H; auto.
  - destruct (proj2 (H y)). left; auto.
  - destruct (proj1 (H x)). left; auto.
  - apply StronglySorted_inv in S, S'. destruct S as [S F], S' as [S' F']. rewrite Forall_forall in F, F'.
    assert (x = y).
    { destruct (proj1 (H x) (or_introl eq_refl)) as [->|I]; auto. destruct (proj2 (H y) (or_introl eq_refl)) as [->|J]; auto.
      specialize (F _ J). specialize (F' _ I). lra. }
    subst y. f_equal. apply IH; auto. intros z. split; intros Hz.
    + destruct (proj1 (H z) (or_intror Hz)) as [->|]; auto. specialize (F _ Hz). lra.
    + destruct (proj2 (H z) (or_intror Hz)) as [->|]; auto. specialize (F' _ Hz). lra.
Qed.
Lemma axis_breaks_mul A u : wf_ax (spec_ax A) -> axis_breaks A u <-> StronglySorted Rlt u /\ forall x, In x u <-> a_lo A <= x <= a_hi A /\ (0 < mulA A x)%Z.
Proof.
  intros W. pose proof W as [Hp Wk]. cbn in Hp, Wk. pose proof (wf_mono _ _ _ Wk) as M. pose proof (wf_n _ _ _ Wk) as Hn.
  assert (E : forall x, (exists i, (a_deg A <= i <= a_size A)%Z /\ a_knots A i = x) <-> a_lo A <= x <= a_hi A /\ (0 < mulA A x)%Z).
  { intros x. rewrite a_lo_eq, a_hi_eq. split.
    - intros (i & Hi & <-). split; [split; apply M; lia|]. pose proof (mulA_at A i W ltac:(lia)). lia.
    - intros [[H1 H2] H3]. destruct (mulA_pos A x H3) as (i & Hi & E). destruct (Z.lt_ge_cases i (a_deg A)) as [H|H].
      + exists (a_deg A). split; [lia|]. assert (a_knots A i <= a_knots A (a_deg A)) by (apply M; lia). lra.
      + destruct (Z.le_gt_cases i (a_size A)) as [K|K]; [exists i; auto|]. exists (a_size A). split; [lia|].
        assert (a_knots A (a_size A - 1 + 1)%Z <= a_knots A i) by (apply M; lia). replace (a_size A - 1 + 1)%Z with (a_size A) in * by lia. lra. }
  unfold axis_breaks. split; intros [S H]; split; auto; intros x; rewrite H; [|symmetry]; auto.
Qed.
Lemma mulA_len A x : multiplicity (a_knots A) 0 (a_len A - 1) x = mulA A x.
Proof. unfold mulA. rewrite a_len_eq. f_equal. lia. Qed.

Section Axis.
Variables (nrb : nurbs Rn) (ax : Z) (a : nat) (C : Z) (u : list R) (ns : list Z) (junk : Z -> R).
Hypothesis W : wf_nurbs nrb.
Hypothesis Ea : py_axis (n_dim nrb) ax = Ok a.
Let A := get_axis nrb a.
Let p := a_deg A.
Hypothesis GA : good_ax A.
Hypothesis AP : knots_apart A.
Hypothesis HC : (0 <= C < p)%Z.
Hypothesis HU : axis_breaks A u.
Hypothesis HF : fine u ns.

Theorem refine_axis_step : exists s nrb' B,
  break_mults (N:=Rn) nrb ax = Ok (u, s) /\ length u = S (length ns) /\
  refine (N:=Rn) junk nrb ax (concat (map (fun x => repeat (fst x) (Z.to_nat (snd x))) (tl (refine_values (N:=Rn) p C u s ns)))) = Ok nrb' /\
  n_axes nrb' = lset a B (n_axes nrb) /\ moves nrb nrb' (fun _ x => x) /\
  good_ax B /\ a_deg B = p /\ a_lo B = a_lo A /\ a_hi B = a_hi A /\
  forall x, a_lo A < x < a_hi A ->
    (cut (mkRax p C u ns) x -> mulA B x = (p - C)%Z) /\
    (In x u -> mulA B x = Z.max (p - C) (mulA A x)) /\
    (~ cut (mkRax p C u ns) x -> ~ In x u -> mulA B x = 0%Z).
Proof.
  pose proof (py_axis_dim _ _ _ Ea) as Ha. pose proof GA as (WA & CA & MA). pose proof WA as [Hp Wk]. cbn in Hp, Wk. fold p in Hp.
  pose proof (wf_n _ _ _ Wk) as Hn. fold p in Hn.
  destruct (good_profile A GA) as (LH & Plo & Phi & P0 & P1). fold p in Plo, Phi, P1.
  assert (SEP : forall k, (0 <= k <= a_size A - 1 + a_deg A + 1)%Z -> separated (a_knots A) 0 (a_len A - 1) (a_knots A k)).
  { intros k Hk j Hj. rewrite a_len_eq in Hj. destruct (AP j k) as [E|E]; rewrite ?a_len_eq; try lia; [left; auto|right; lra]. }
  destruct (break_mults_ok nrb ax a W Ea WA) as (s & E & Ls & Hs).
  { rewrite a_lo_eq. apply SEP. change (a_deg (get_axis nrb a)) with p. change (a_deg A) with p. lia. }
  { rewrite a_hi_eq. apply SEP. change (get_axis nrb a) with A. change (a_deg A) with p. lia. }
  fold A in E, Ls, Hs. destruct (breaks_ok A WA) as (SS & IN & L2 & HD & LA).
  assert (EU : unique (N:=Rn) (inner_knots A) = u).
  { apply ss_equal; auto; [apply HU|]. intros x. etransitivity; [exact (IN x)|symmetry; apply HU]. }
  rewrite EU in *. clear EU SS IN.
  assert (Hs' : forall j, (j < length s)%nat -> a_lo A < nth j u 0 < a_hi A -> nth j s 0%Z = mulA A (nth j u 0)).
  { intros j Hj [X1 X2]. specialize (Hs j Hj). cbv zeta in Hs. change (@nth (T Rn)) with (@nth R) in Hs.
    replace (Rltb (a_lo A) (nth j u 0)) with true in Hs by (symmetry; apply Rltb_true; auto).
    replace (Rltb (nth j u 0) (a_hi A)) with true in Hs by (symmetry; apply Rltb_true; auto). cbn [andb] in Hs. rewrite mulA_len in Hs. exact Hs. }
  clear Hs. rename Hs' into Hs. apply (axis_breaks_mul A u WA) in HU. destruct HU as [SU IU].
  assert (Ls' : length s = length u) by exact Ls. clear Ls. rename Ls' into Ls.
  assert (HD' : hd 0 u = a_lo A) by exact HD. assert (LA' : last u 0 = a_hi A) by exact LA. clear HD LA.
  pose proof HF as [Lu HF2]. assert (L2' : (2 <= length u)%nat) by exact L2. clear L2.
  destruct (rv_sorted p C ns u s HF Ls) as (S1 & B1 & H1 & _). rewrite HD', LA' in *.
  assert (Nn : ns <> []) by (intros ->; cbn in Lu; lia). destruct (H1 Nn) as (l & El).
  set (L := refine_values (N:=Rn) p C u s ns) in *.
  assert (EL : exists c0 L', L = (a_lo A, c0) :: L'). { destruct L as [|[y c0] L']; [discriminate|]. cbn [map fst] in El. injection El as <- _. eauto. }
  destruct EL as (c0 & L' & EL). rewrite EL in *. cbn [tl]. clear El.
  assert (S1' := S1). cbn [map fst] in S1'. apply StronglySorted_inv in S1'. destruct S1' as [S2 F2]. rewrite Forall_forall in F2. unfold gap in F2. pose proof eps_pos as EP.
  assert (INL : forall x c, a_lo A < x -> In (x, c) L' <-> In (x, c) L).
  { intros x c Hx. rewrite EL. cbn [In]. split; auto. intros [Q|Q]; auto. injection Q as <- _. lra. }
  assert (BL : forall x c, In (x, c) L' -> a_lo A < x < a_hi A).
  { intros x c Hx. apply (in_map fst) in Hx. cbn [fst] in Hx. specialize (F2 _ Hx). destruct (B1 x); [right; auto|]. lra. }
  pose proof (fun x c => rv_In p C ns u s x c Lu Ls) as RI. fold L in RI.
  assert (NU : forall j, (j <= length ns)%nat -> In (nth j u 0) u) by (intros; apply nth_In; lia).
  assert (LU : forall x, In x u -> In x (map fst L) \/ x = a_hi A).
  { intros x Hx. destruct (In_nth _ _ 0 Hx) as (j & Hj & <-). destruct (Nat.eq_dec j (length ns)) as [->|Hne].
    - right. rewrite <- LA', <- nth_last. f_equal. lia.
    - left. apply in_map_iff. exists (nth j u 0, Z.max (p - C - nth j s 0%Z) 0). split; auto. apply RI. left. exists j. repeat split; auto. lia. }
  (* the entry of a break and of a cut *)
  assert (EB : forall x, In x u -> a_lo A < x < a_hi A -> In (x, Z.max (p - C - mulA A x) 0) L').
  { intros x Hx Hb. apply INL; [lra|]. apply RI. left. destruct (In_nth _ _ 0 Hx) as (j & Hj & Ej). exists j.
    assert (j <> length ns). { intros ->. assert (x = a_hi A) by (rewrite <- Ej, <- LA', <- nth_last; f_equal; lia). lra. }
    split; [lia|]. split; [auto|]. rewrite Hs by (rewrite ?Ej; auto; lia). rewrite Ej. reflexivity. }
  assert (CE : forall j k, (1 <= nth j ns 0)%Z -> nth j u 0 + (nth (S j) u 0 - nth j u 0) / IZR (nth j ns 0%Z) * IZR k = nth j u 0 + (nth (S j) u 0 - nth j u 0) * (IZR k / IZR (nth j ns 0%Z))).
  { intros j k Hj. field. apply not_0_IZR. lia. }
  assert (EC : forall x, cut (mkRax p C u ns) x -> In (x, (p - C)%Z) L).
  { intros x (j & k & Hj & Hk & ->). cbn [r_breaks r_pieces] in *. apply RI. right. exists j, k. split; auto. split; auto. split; auto. symmetry. apply CE. lia. }
  assert (CU : forall x, cut (mkRax p C u ns) x -> a_lo A < x < a_hi A -> mulA A x = 0%Z).
  { intros x Hc Hb. pose proof (mulA_nonneg A x). destruct (Z.eq_dec (mulA A x) 0) as [|Hne]; auto. exfalso.
    assert (I : In x u) by (apply IU; split; [lra|lia]).
    pose proof (spread_count _ _ _ S2 (EB x I Hb) ltac:(lia)) as Q1.
    pose proof (spread_count L' x (p - C) S2) as Q2. rewrite Q1 in Q2. specialize (Q2 (proj2 (INL x _ (proj1 Hb)) (EC x Hc)) ltac:(lia)). lia. }
  assert (KS : forall x c, In (x, c) L' -> (cut (mkRax p C u ns) x /\ c = (p - C)%Z) \/ (In x u /\ c = Z.max (p - C - mulA A x) 0)).
  { intros x c H. pose proof (BL _ _ H) as Hb. apply INL in H; [|lra]. apply RI in H. destruct H as [(j & Hj & -> & ->)|(j & k & Hj & Hk & -> & ->)].
    - right. split; [apply NU; lia|]. rewrite Hs by (auto; lia). reflexivity.
    - left. split; auto. exists j, k. cbn [r_breaks r_pieces]. split; auto. split; auto. apply CE. lia. }
  fold (spread L'). set (V := spread L') in *.
  assert (VB : forall v, In v V -> a_lo A < v < a_hi A /\ exists c, In (v, c) L' /\ (0 < c)%Z).
  { intros v Hv. destruct (spread_In _ _ Hv) as (c & Hc & Hp0). split; eauto. }
  assert (AL : forall x y, In x (map fst L) \/ x = a_hi A -> In y (map fst L) \/ y = a_hi A -> x = y \/ eps < Rabs (x - y)).
  { assert (SG : StronglySorted gap (map fst L ++ [a_hi A])).
    { rewrite EL. apply gap_app; auto; [repeat constructor|]. intros x y Hx [<-|[]]. apply B1. auto. }
    intros x y Hx Hy. apply (gap_apart _ x y SG); apply in_app_iff; cbn [In]; intuition. }
  destruct (refine_step nrb ax a V junk W Ea GA) as (nrb' & B & E1 & EX & Mv & GB & DB & LB & HB & MB).
  { fold A. intros v Hv. destruct (VB v Hv) as (Hb & c & Hc & _).
    assert (Iv : In v (map fst L)) by (rewrite EL; right; apply (in_map fst) in Hc; auto). split.
    - intros i Hi. destruct (AL (a_knots A i) v) as [Q|Q]; auto; [|right; lra].
      apply LU. apply IU. pose proof (mulA_at A i WA Hi). split; [|lia].
      destruct (Rlt_dec (a_knots A i) (a_lo A)); [rewrite P0 in H by auto; lia|]. destruct (Rlt_dec (a_hi A) (a_knots A i)); [rewrite P0 in H by auto; lia|]. lra.
    - intros y Hy. destruct (VB y Hy) as (_ & c' & Hc' & _).
      destruct (AL y v) as [Q|Q]; auto; [|right; lra]. left. rewrite EL. right. apply (in_map fst) in Hc'. auto. }
  { fold A. intros v Hv. destruct (VB v Hv) as (Hb & c & Hc & Hc0). split; auto. fold p. unfold V. rewrite (spread_count L' v c S2 Hc) by lia.
    specialize (P1 v Hb). destruct (KS v c Hc) as [[Q ->]|[Q ->]]; [rewrite CU by auto; lia|lia]. }
  fold A in DB, LB, HB, MB. exists s, nrb', B. split; auto. split; auto. split; [fold L; rewrite EL; exact E1|]. split; auto. split; auto. split; auto. split; auto. split; auto. split; auto.
  intros x Hb. rewrite MB. split; [|split].
  - intros Hc. rewrite CU by auto. unfold V. rewrite (spread_count L' x (p - C) S2); [lia| |lia]. apply INL; [lra|]. apply EC. auto.
  - intros Hx. unfold V. rewrite (spread_count L' x _ S2 (EB x Hx Hb)) by lia. pose proof (mulA_nonneg A x). lia.
  - intros Hc Hx. unfold V. rewrite spread_none.
    + pose proof (mulA_nonneg A x). destruct (Z.eq_dec (mulA A x) 0); [lia|]. exfalso. apply Hx, IU. split; [lra|lia].
    + intros I. apply in_map_iff in I. destruct I as ([y c] & Ey & I). cbn [fst] in Ey. subst y. destruct (KS x c I) as [[Q _]|[Q _]]; tauto.
Qed.
End Axis.
