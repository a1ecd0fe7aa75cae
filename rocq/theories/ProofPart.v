(** Refining commutes with slicing. *)
From Coq Require Import ZArith Reals List Lia Lra Bool Permutation FunctionalExtensionality.
From Verif Require Import Num Loop ModelBspline ModelBSp ModelNurbs ModelIga ModelCad Spec SpecElev SpecCompat SumZ BPiece BLink BIndep ProofSpan BInsert BRep
  ProofInsert ProofCut ProofRefine SpecNurbs ProofNet ProofCall ProofNurbs ProofMethods ProofMethods2 ProofMethods3 ProofGeom ProofGeom2 ProofOk ProofSlice ProofIga ProofIga2
  ProofElev1 ProofElev4 ProofElev5 ProofClamp ProofUnclamp ProofCompat1 ProofCompat3 ProofRemove4 ProofUniq ProofUniq2 ProofAvg.
From Verif Require Import ProofAvg2 ProofUniq ProofEquiv ProofTurn ProofMove ProofSection ProofRemove4 ProofRuled ProofCompat3.
Import ListNotations.
Local Open Scope R_scope.

(** The knots of a slice: both ends degree+1 times, between them the knots of the original. *)
Definition part_axis (u0 u1 : R) (A B : axis Rn) : Prop :=
  a_deg B = a_deg A /\ forall v, mulA B v = if Req_EM_T v u0 then (a_deg A + 1)%Z else if Req_EM_T v u1 then (a_deg A + 1)%Z
    else if Rlt_dec u0 v then if Rlt_dec v u1 then mulA A v else 0%Z else 0%Z.
Lemma slice_mults nrb ax a start end_ junk nrb' : wf_nurbs nrb -> py_axis (n_dim nrb) ax = Ok a ->
  let A := get_axis nrb a in let n := (a_size A - 1)%Z in let p := a_deg A in let U := a_knots A in
  let u0 := match start with Some x => x | None => U p end in
  let u1 := match end_ with Some x => x | None => U (n + 1)%Z end in
  separated_list U (n + p + 1) [u0; u1] ->
  slice (N:=Rn) junk nrb ax start end_ = Ok nrb' ->
  exists B, n_axes nrb' = lset a B (n_axes nrb) /\ part_axis u0 u1 A B.
Proof.
  intros W Ea A n p U u0 u1 Sep E.
  pose proof (py_axis_dim _ _ _ Ea) as Ha. pose proof (wf_get_axis _ _ W Ha) as WA. fold A in WA.
  assert (Wk : wf_knots n p U) by apply WA. assert (Wp : (1 <= p)%Z) by apply WA.
  pose proof (wf_n _ _ _ Wk) as Hn. pose proof (wf_mono _ _ _ Wk) as Mo.
  unfold slice in E. rewrite Ea in E. cbn [bind] in E. fold A in E. fold p in E. rewrite a_hi_eq in E. fold n U in E.
  change (a_lo A) with (U p) in E.
  change (match start with Some x => x | None => U p end) with u0 in E.
  change (match end_ with Some x => x | None => U (n + 1)%Z end) with u1 in E.
  unfold assert in E.
  destruct (nleb Rn (U p) u0) eqn:L1; [|discriminate]. cbn [bind] in E. apply Rleb_true in L1.
  destruct (nleb Rn u1 (U (n + 1)%Z)) eqn:L2; [|discriminate]. cbn [bind] in E. apply Rleb_true in L2.
  destruct (nltb Rn u0 u1) eqn:L3; [|discriminate]. cbn [bind] in E. apply Rltb_true in L3.
  unfold py_FindSpanMult, check in E.
  destruct ((1 <=? a_deg A) && (2 * a_deg A + 1 <=? a_len A - 1))%Z; [|discriminate]. cbn [bind snd FindSpanMult] in E.
  assert (El : (a_len A - 1 - (a_deg A + 1))%Z = n) by (rewrite a_len_eq; fold n p; lia).
  unfold FindSpanMult in E. cbn [snd] in E. rewrite El in E. fold p U in E.
  destruct (Sep u0 ltac:(simpl; auto)) as [S0 SS0]. destruct (Sep u1 ltac:(simpl; auto)) as [S1 SS1].
  assert (D0 : in_domain n p U u0) by (split; lra). assert (D1 : in_domain n p U u1) by (split; lra).
  pose proof (FindMult_min n p U u0 Wk D0 S0) as F0. pose proof (FindMult_min n p U u1 Wk D1 S1) as F1.
  set (s0 := FindMult (N:=Rn) (FindSpan (N:=Rn) n p u0 U) u0 p U) in *.
  set (s1 := FindMult (N:=Rn) (FindSpan (N:=Rn) n p u1 U) u1 p U) in *.
  set (t0 := Z.max 0 (p - s0)) in *. set (t1 := Z.max 0 (p - s1)) in *.
  set (vals := repeat u0 (Z.to_nat t0) ++ repeat u1 (Z.to_nat t1)) in *.
  destruct (refine (N:=Rn) junk nrb (Z.of_nat a) vals) as [nrb1|] eqn:ER; [|discriminate]. cbn [bind] in E.
  assert (Ea' : py_axis (n_dim nrb) (Z.of_nat a) = Ok a).
  { rewrite py_axis_nat by (unfold n_dim; lia). f_equal. lia. }
  assert (InV : forall x, In x vals -> In x [u0; u1]).
  { intros x Hx. apply in_app_or in Hx. destruct Hx as [Hx|Hx]; apply repeat_spec in Hx; simpl; auto. }
  assert (SepV : separated_list U (n + p + 1) vals).
  { intros x Hx. destruct (Sep x (InV x Hx)) as [B1 B2]. split; auto. }
  assert (DV : forall x, In x vals -> U p <= x <= U (n + 1)%Z).
  { intros x Hx. apply InV in Hx. simpl in Hx. destruct Hx as [<-|[<-|[]]]; lra. }
  destruct (refine_class_gen nrb (Z.of_nat a) a vals junk nrb1 W Ea' SepV DV ER) as [V [K [EN [MV [V0 [V1 [Mu SB]]]]]]].
  fold A in EN, MV, V0, V1, Mu, SB. fold n p U in MV, V0, V1, Mu, SB.
  set (t := Z.of_nat (@length R vals)) in *.
  change (Z.of_nat (length vals)) with t in EN, MV, V0, V1, Mu, SB.
  assert (EB : get_axis nrb1 a = mkAxis (a_size A + t) (a_len A + t) V).
  { rewrite EN. unfold get_axis. cbn [n_axes]. apply nth_lset. auto. }
  rewrite EB in E. cbn [a_knots a_len] in E.
  assert (ELn : (a_len A + t = n + t + p + 1 + 1)%Z) by (rewrite a_len_eq; fold n p; lia).
  rewrite ELn in E.
  assert (Ht : (0 <= t)%Z) by lia.
  destruct (count_le_spec V (n + t + p + 1 + 1) u0 ltac:(lia)) as [C1 [C2 C3]].
  { replace (n + t + p + 1 + 1 - 1)%Z with (n + t + p + 1)%Z by lia. exact MV. }
  destruct (count_lt_spec V (n + t + p + 1 + 1) u1 ltac:(lia)) as [G1 [G2 G3]].
  { replace (n + t + p + 1 + 1 - 1)%Z with (n + t + p + 1)%Z by lia. exact MV. }
  set (c0 := count_le (N:=Rn) V (n + t + p + 1 + 1) u0) in *. set (i1 := count_lt (N:=Rn) V (n + t + p + 1 + 1) u1) in *.
  set (i0 := (c0 - 1)%Z) in *.
  assert (M0 : (p <= multiplicity V 0 (n + t + p + 1) u0)%Z).
  { rewrite Mu. unfold vals. rewrite countL_app, !countL_repeat.
    destruct (Req_EM_T u0 u0); [|lra]. destruct (Req_EM_T u1 u0); [lra|]. unfold t0. lia. }
  assert (M1 : (p <= multiplicity V 0 (n + t + p + 1) u1)%Z).
  { rewrite Mu. unfold vals. rewrite countL_app, !countL_repeat.
    destruct (Req_EM_T u0 u1); [lra|]. destruct (Req_EM_T u1 u1); [|lra]. unfold t1. lia. }
  pose proof (block_below V (n + t + p + 1) u0 p c0 MV ltac:(lia) M0 C1 C2 C3) as BB.
  pose proof (block_above V (n + t + p + 1) u1 p i1 MV ltac:(lia) M1 G1 G2 G3) as BA.
  assert (Hi0 : (p <= i0)%Z).
  { unfold i0. destruct (Z_le_gt_dec (p + 1) c0); [lia|]. assert (u0 < V p) by (apply C3; lia). lra. }
  assert (Hi1 : (i1 <= n + t + 1)%Z).
  { destruct (Z_le_gt_dec i1 (n + t + 1)); auto. assert (V (n + t + 1)%Z < u1) by (apply G2; lia). lra. }
  assert (Vi0 : V i0 = u0) by (apply BB; unfold i0; lia). assert (Vi1 : V i1 = u1) by (apply BA; lia).
  assert (Hi01 : (i0 < i1)%Z).
  { destruct (Z_lt_le_dec i0 i1); auto. assert (V i1 <= V i0) by (apply MV; lia). lra. }
  assert (Li0 : u0 < V (i0 + 1)%Z) by (apply C3; unfold i0 in *; lia).
  assert (Li1 : V (i1 - 1)%Z < u1) by (apply G2; lia).
  assert (Bl0 : forall i, (i0 - p < i <= i0)%Z -> V i = u0) by (intros i Hi; apply BB; unfold i0 in *; lia).
  assert (Bl1 : forall i, (i1 <= i < i1 + p)%Z -> V i = u1) by (intros i Hi; apply BA; lia).

  set (Wv := fun x => if (x <? p)%Z then V i0 else if (x <=? p + (i1 - i0))%Z then V (i0 + (x - p))%Z else V i1) in *.
  set (m := (i1 - i0 + p - 1)%Z) in *.
  set (A' := mkAxis (N:=Rn) (i1 - (i0 - p)) (2 * p + (i1 - i0 + 1)) Wv).
  assert (EQ : n_axes nrb' = lset a A' (n_axes nrb) /\ n_comp nrb' = n_comp nrb).
  { injection E as <-. rewrite EN at 1. cbn [n_axes n_comp]. rewrite lset_lset, EN. split; reflexivity. }
  clear E.
  assert (Ad : a_deg A' = p) by (unfold a_deg, A'; cbn [a_len a_size]; lia).
  assert (As : (a_size A' - 1 = m)%Z) by (unfold A', m; cbn [a_size]; lia).
  exists A'. split; [apply EQ|]. split; [exact Ad|].
    intros v. unfold mulA. rewrite Ad, As. cbn [A' a_knots]. fold A n p U.
    assert (LW : forall x, (x <= p)%Z -> Wv x = u0).
    { intros x Hx. unfold Wv. zcase x p; auto. lcase x (p + (i1 - i0))%Z. replace (i0 + (x - p))%Z with i0 by lia. auto. }
    assert (RW : forall x, (m + 1 <= x)%Z -> Wv x = u1).
    { intros x Hx. unfold Wv. unfold m in Hx. zcase x p. lcase x (p + (i1 - i0))%Z; auto. replace (i0 + (x - p))%Z with i1 by lia. auto. }
    assert (MW : forall x, (p < x <= m)%Z -> Wv x = V (x + (i0 - p))%Z /\ u0 < Wv x < u1).
    { intros x Hx. unfold m in Hx. assert (Ex : Wv x = V (x + (i0 - p))%Z) by (unfold Wv; zcase x p; lcase x (p + (i1 - i0))%Z; f_equal; lia).
      split; auto. rewrite Ex. assert (V (i0 + 1)%Z <= V (x + (i0 - p))%Z) by (apply MV; lia). assert (V (x + (i0 - p))%Z <= V (i1 - 1)%Z) by (apply MV; lia). lra. }
    assert (Hm : (p <= m)%Z) by (unfold m; lia).
    rewrite (multiplicity_split Wv 0 p) by lia. rewrite (multiplicity_split Wv (p + 1) m) by lia.
    destruct (Req_EM_T v u0) as [->|N0]; [|destruct (Req_EM_T v u1) as [->|N1]].
    + rewrite (multiplicity_none Wv (p + 1) m) by (intros x Hx; destruct (MW x ltac:(lia)); lra).
      rewrite (multiplicity_none Wv (m + 1)) by (intros x Hx; rewrite RW by lia; lra).
      rewrite (multiplicity_all Wv 0 p u0) by (try lia; intros x Hx; apply LW; lia). lia.
    + rewrite (multiplicity_none Wv (p + 1) m) by (intros x Hx; destruct (MW x ltac:(lia)); lra).
      rewrite (multiplicity_none Wv 0 p) by (intros x Hx; rewrite LW by lia; lra).
      rewrite (multiplicity_all Wv (m + 1) (m + p + 1) u1) by (try lia; intros x Hx; apply RW; lia). lia.
    + rewrite (multiplicity_none Wv 0 p) by (intros x Hx; rewrite LW by lia; lra).
      rewrite (multiplicity_none Wv (m + 1)) by (intros x Hx; rewrite RW by lia; lra).
      destruct (Rlt_dec u0 v) as [Q0|Q0]; [destruct (Rlt_dec v u1) as [Q1|Q1]|].
      2, 3: rewrite (multiplicity_none Wv (p + 1) m) by (intros x Hx; destruct (MW x ltac:(lia)); lra); lia.
      rewrite (multiplicity_ext Wv (fun x => V (x + (i0 - p))%Z)) by (intros x Hx; apply MW; lia).
      rewrite multiplicity_shift. specialize (Mu v).
      rewrite (countL_notin v vals) in Mu by (intros I; apply InV in I; simpl in I; destruct I as [I|[I|[]]]; subst; auto).
      rewrite (multiplicity_split V 0 i0) in Mu by lia. rewrite (multiplicity_split V (i0 + 1) (m + (i0 - p))) in Mu by (unfold m; lia).
      rewrite (multiplicity_none V 0 i0) in Mu by (intros x Hx; assert (V x <= V i0) by (apply MV; lia); lra).
      rewrite (multiplicity_none V (m + (i0 - p) + 1) (n + t + p + 1)) in Mu by (intros x Hx; assert (V i1 <= V x) by (apply MV; unfold m in *; lia); lra).
      replace (p + 1 + (i0 - p))%Z with (i0 + 1)%Z by lia. lia.
Qed.

Definition inside (u0 u1 v : R) : bool := if Rlt_dec u0 v then if Rlt_dec v u1 then true else false else false.
(** The calls that remain for the slice between [u0] and [u1] along axis [a]: the calls along other
    axes, the knots inserted between [u0] and [u1], and the elevations. *)
Inductive part_calls (d : Z) (a : nat) (u0 u1 : R) : list (op * Z) -> list (op * Z) -> Prop :=
| pc_nil : part_calls d a u0 u1 [] []
| pc_across : forall o ax ax' b l l', py_axis d ax = Ok b -> py_axis d ax' = Ok b -> b <> a -> part_calls d a u0 u1 l l' ->
    part_calls d a u0 u1 ((o, ax) :: l) ((o, ax') :: l')
| pc_inside : forall u times ax ax' l l', py_axis d ax = Ok a -> py_axis d ax' = Ok a -> u0 < u < u1 -> part_calls d a u0 u1 l l' ->
    part_calls d a u0 u1 ((Insert u times, ax) :: l) ((Insert u times, ax') :: l')
| pc_outside : forall u times ax l l', py_axis d ax = Ok a -> ~ u0 < u < u1 -> part_calls d a u0 u1 l l' ->
    part_calls d a u0 u1 ((Insert u times, ax) :: l) l'
| pc_refine : forall values ax ax' l l', py_axis d ax = Ok a -> py_axis d ax' = Ok a -> part_calls d a u0 u1 l l' ->
    part_calls d a u0 u1 ((Refine values, ax) :: l) ((Refine (filter (inside u0 u1) values), ax') :: l')
| pc_elevate : forall t ax ax' l l', py_axis d ax = Ok a -> py_axis d ax' = Ok a -> part_calls d a u0 u1 l l' ->
    part_calls d a u0 u1 ((Elevate t, ax) :: l) ((Elevate t, ax') :: l').

Lemma countL_inside u0 u1 v l : countL v (filter (inside u0 u1) l) = if inside u0 u1 v then countL v l else 0%Z.
Proof.
  induction l as [|x l IH]; [cbn; destruct (inside u0 u1 v); reflexivity|]. cbn [filter countL]. destruct (inside u0 u1 x) eqn:E; cbn [countL]; rewrite IH.
  - destruct (Req_EM_T x v) as [->|]; [rewrite E; reflexivity|]. destruct (inside u0 u1 v); reflexivity.
  - destruct (Req_EM_T x v) as [->|]; [rewrite E; reflexivity|]. destruct (inside u0 u1 v); lia.
Qed.
Lemma box_fwd x y us : preserves x y -> in_box (spec_axes x) us -> in_box (spec_axes y) us.
Proof.
  intros P. pose proof (pr_dom _ _ P) as D. generalize (spec_axes x) (spec_axes y) D. clear. intros m m' D. revert us.
  induction D as [|p q l l' [E1 E2] D IH]; intros vs I; inversion I; subst; constructor; [unfold in_domain in *; rewrite <- E1, <- E2; auto|apply IH; auto].
Qed.

Section Part.
Variables (a : nat) (u0 u1 : R).
Hypothesis U01 : u0 < u1.
Record part (x x' : nurbs Rn) : Prop := {
  pa_len : length (n_axes x') = length (n_axes x);
  pa_wf : wf_nurbs x';
  pa_axes : forall b, (b < length (n_axes x))%nat -> b <> a -> axis_eq (get_axis x b) (get_axis x' b);
  pa_axis : part_axis u0 u1 (get_axis x a) (get_axis x' a);
  pa_comp : n_comp x' = n_comp x;
  pa_hom : forall us c, in_box (spec_axes x') us -> in_box (spec_axes x) us /\ hom x' c us = hom x c us }.

Lemma after_part o o' A A' B B' : wf_ax (spec_ax A) -> part_axis u0 u1 A A' -> axis_after o A B -> axis_after o' A' B' ->
  (exists u times, o = Insert u times /\ o' = o /\ u0 < u < u1) \/ (exists values, o = Refine values /\ o' = Refine (filter (inside u0 u1) values)) \/ (exists t, o = Elevate t /\ o' = o) ->
  part_axis u0 u1 B B'.
Proof.
  intros [Wp _] [D M] H H' HO. cbn [spec_ax x_p] in Wp. unfold part_axis. destruct HO as [(u & times & -> & -> & Hu)|[(values & -> & ->)|(t & -> & ->)]]; cbn [axis_after] in *; cbv zeta in *.
  - assert (Mu : mulA A' u = mulA A u) by (rewrite M; destruct (Req_EM_T u u0); [lra|]; destruct (Req_EM_T u u1); [lra|]; destruct (Rlt_dec u0 u); [|lra]; destruct (Rlt_dec u u1); [reflexivity|lra]).
    rewrite Mu, D in H'. destruct H as (_ & _ & D1 & M1), H' as (_ & _ & D2 & M2). split; [congruence|]. intros v. rewrite M2, M, D1, M1.
    destruct (Req_EM_T v u0); [destruct (Req_EM_T v u); [lra|lia]|]. destruct (Req_EM_T v u1); [destruct (Req_EM_T v u); [lra|lia]|].
    destruct (Rlt_dec u0 v); [|destruct (Req_EM_T v u); [lra|lia]]. destruct (Rlt_dec v u1); [reflexivity|destruct (Req_EM_T v u); [lra|lia]].
  - destruct H as [D1 M1], H' as [D2 M2]. split; [congruence|]. intros v. rewrite M2, M, D1, M1, countL_inside. unfold inside.
    destruct (Req_EM_T v u0); [destruct (Rlt_dec u0 v); [lra|lia]|]. destruct (Req_EM_T v u1); [destruct (Rlt_dec u0 v); [|lia]; destruct (Rlt_dec v u1); [lra|lia]|].
    destruct (Rlt_dec u0 v); [|lia]. destruct (Rlt_dec v u1); lia.
  - destruct H as (_ & D1 & M1), H' as (_ & D2 & M2). split; [lia|]. intros v. rewrite M2, M, D1, M1.
    destruct (Req_EM_T v u0); [destruct (Z.eqb_spec (a_deg A + 1) 0); lia|]. destruct (Req_EM_T v u1); [destruct (Z.eqb_spec (a_deg A + 1) 0); lia|].
    destruct (Rlt_dec u0 v); [|reflexivity]. destruct (Rlt_dec v u1); reflexivity.
Qed.
Lemma part_step o o' ax ax' b j j2 k k2 x x' y y' : wf_nurbs x -> part x x' -> py_axis (n_dim x) ax = Ok b -> py_axis (n_dim x') ax' = Ok b ->
  op_ok o (get_axis x b) -> op_ok o' (get_axis x' b) -> run o j j2 x ax = Ok y -> run o' k k2 x' ax' = Ok y' ->
  (b <> a /\ o' = o) \/ (b = a /\ ((exists u times, o = Insert u times /\ o' = o /\ u0 < u < u1) \/ (exists values, o = Refine values /\ o' = Refine (filter (inside u0 u1) values)) \/ (exists t, o = Elevate t /\ o' = o))) ->
  part y y'.
Proof.
  intros W PP Eb Eb' Hh Hh' E E' HO. pose proof PP as [L W' A Aa C H]. pose proof (py_axis_dim _ _ _ Eb) as Hb. pose proof (py_axis_dim _ _ _ Eb') as Hb'.
  destruct (op_spec o x ax b j j2 y W Eb Hh E) as (P & B & X & Af). destruct (op_spec o' x' ax' b k k2 y' W' Eb' Hh' E') as (P' & B' & X' & Af').
  assert (L1 : length (n_axes y) = length (n_axes x)) by (rewrite X, lset_length; auto). assert (L2 : length (n_axes y') = length (n_axes x')) by (rewrite X', lset_length; auto).
  assert (WB : wf_ax (spec_ax B)). { assert (B = get_axis y b) as -> by (rewrite (get_lset x y b B b X Hb), Nat.eqb_refl; auto). apply wf_get_axis; [apply P|lia]. }
  assert (WB' : wf_ax (spec_ax B')). { assert (B' = get_axis y' b) as -> by (rewrite (get_lset x' y' b B' b X' Hb'), Nat.eqb_refl; auto). apply wf_get_axis; [apply P'|lia]. }
  pose proof (wf_get_axis _ _ W Hb) as WA. pose proof (wf_get_axis _ _ W' Hb') as WA'.
  split; [lia|apply P'| | |rewrite (pr_comp _ _ P), (pr_comp _ _ P'); exact C|].
  - intros q Hq Hqa. rewrite (get_lset x y b B q X Hb), (get_lset x' y' b B' q X' Hb'). destruct (Nat.eqb_spec q b) as [->|Hne]; [|apply A; auto; lia].
    destruct HO as [[_ ->]|[-> _]]; [|contradiction]. apply (eq_after _ _ WA (A b Hb Hqa) o); auto.
  - rewrite (get_lset x y b B a X Hb), (get_lset x' y' b B' a X' Hb'). destruct (Nat.eqb_spec a b) as [<-|Hne]; [|exact Aa].
    destruct HO as [[Hn _]|[_ HO]]; [contradiction|]. apply (after_part o o' (get_axis x a) (get_axis x' a)); auto.
  - intros us c I. pose proof (ProofEquiv.box_back _ _ _ P' I) as I0. destruct (H us c I0) as [I1 H1]. split; [apply (box_fwd x y); auto|].
    rewrite (pr_hom _ _ P' _ c I0), H1. symmetry. apply (pr_hom _ _ P us c I1).
Qed.
Lemma part_outside u times ax j j2 x x' y : wf_nurbs x -> part x x' -> py_axis (n_dim x) ax = Ok a -> op_ok (Insert u times) (get_axis x a) -> run (Insert u times) j j2 x ax = Ok y ->
  ~ u0 < u < u1 -> part y x'.
Proof.
  intros W PP Eb Hh E Hu. pose proof PP as [L W' A Aa C H]. pose proof (py_axis_dim _ _ _ Eb) as Hb.
  destruct (op_spec _ x ax a j j2 y W Eb Hh E) as (P & B & X & Af). assert (L1 : length (n_axes y) = length (n_axes x)) by (rewrite X, lset_length; auto).
  split; [lia|exact W'| | |rewrite (pr_comp _ _ P); exact C|].
  - intros q Hq Hqa. rewrite (get_lset x y a B q X Hb). destruct (Nat.eqb_spec q a); [contradiction|]. apply A; auto. lia.
  - rewrite (get_lset x y a B a X Hb), Nat.eqb_refl. destruct Aa as [D M]. destruct Af as (_ & _ & D1 & M1). split; [congruence|]. intros v. rewrite M, D1, M1.
    destruct (Req_EM_T v u0); auto. destruct (Req_EM_T v u1); auto. destruct (Rlt_dec u0 v); auto. destruct (Rlt_dec v u1); auto. destruct (Req_EM_T v u); [subst; exfalso; auto|lia].
  - intros us c I. destruct (H us c I) as [I1 H1]. split; [apply (box_fwd x y); auto|]. rewrite H1. symmetry. apply (pr_hom _ _ P us c I1).
Qed.
Lemma part_all l x y : all_ok l x y -> wf_nurbs x -> forall x' l' y', part x x' -> all_ok l' x' y' -> part_calls (n_dim x) a u0 u1 l l' ->
  wf_nurbs y /\ length (n_axes y) = length (n_axes x) /\ part y y'.
Proof.
  induction 1 as [x|o ax c j j2 l x y z Ea Hh E H IH]; intros W x' l' z' PP K F; [inversion F; subst; inversion K; subst; auto|].
  destruct (op_spec o x ax c j j2 y W Ea Hh E) as (P & B & X & _). assert (L1 : length (n_axes y) = length (n_axes x)) by (rewrite X, lset_length; auto).
  assert (ND : n_dim y = n_dim x) by (unfold n_dim; rewrite L1; auto). assert (ND' : n_dim x' = n_dim x) by (unfold n_dim; rewrite (pa_len _ _ PP); auto).
  rewrite ND in IH.
  assert (Step : forall o' ax' m, l' = (o', ax') :: m -> part_calls (n_dim x) a u0 u1 l m -> py_axis (n_dim x) ax' = Ok c ->
    ((c <> a /\ o' = o) \/ (c = a /\ ((exists u times, o = Insert u times /\ o' = o /\ u0 < u < u1) \/ (exists values, o = Refine values /\ o' = Refine (filter (inside u0 u1) values)) \/ (exists t, o = Elevate t /\ o' = o)))) ->
    wf_nurbs z /\ length (n_axes z) = length (n_axes x) /\ part z z').
  { intros o' ax' m -> Fm Ea' HO. apply all_ok_cons in K. destruct K as (c' & k & k2 & y' & Ec' & Hh' & E' & K'). assert (c' = c) as -> by congruence.
    destruct (IH (pr_wf _ _ P) y' m z' (part_step o o' ax ax' c j j2 k k2 x x' y y' W PP Ea Ec' Hh Hh' E E' HO) K' Fm) as (R1 & R2 & R3). split; auto. split; [lia|auto]. }
  inversion F; subst.
  - match goal with Hx : part_calls _ _ _ _ l ?m |- _ => apply (Step _ _ m eq_refl Hx); [congruence|left; split; congruence] end.
  - assert (c = a) as -> by congruence. match goal with Hx : part_calls _ _ _ _ l ?m |- _ => apply (Step _ _ m eq_refl Hx); [assumption|right; split; [reflexivity|left; eauto]] end.
  - assert (c = a) as -> by congruence. match goal with Hn : ~ u0 < ?u < u1 |- _ => pose proof (part_outside u times ax j j2 x x' y W PP Ea Hh E Hn) as P2 end.
    destruct (IH (pr_wf _ _ P) x' l' z' P2 K) as (R1 & R2 & R3); auto. split; auto. split; [lia|auto].
  - assert (c = a) as -> by congruence. match goal with Hx : part_calls _ _ _ _ l ?m |- _ => apply (Step _ _ m eq_refl Hx); [assumption|right; split; [reflexivity|right; left; eauto]] end.
  - assert (c = a) as -> by congruence. match goal with Hx : part_calls _ _ _ _ l ?m |- _ => apply (Step _ _ m eq_refl Hx); [assumption|right; split; [reflexivity|right; right; eauto]] end.
Qed.
Lemma part_unique y z y' : wf_nurbs y -> (a < length (n_axes y))%nat -> bounded_knots y -> part y z -> part y y' -> same_data z y'.
Proof.
  intros W Ha Bk TZ TY. pose proof TZ as [Lz Wz Az Aaz Cz Hz]. pose proof TY as [Ly Wy Ay Aay Cy Hy].
  assert (SK : forall b, (b < length (n_axes z))%nat -> axis_eq (get_axis z b) (get_axis y' b)).
  { intros b Hb. destruct (Nat.eq_dec b a) as [->|Hne].
    - destruct Aaz as [D M], Aay as [D' M']. apply (same_axis (get_axis z a) (get_axis y' a)); [apply wf_get_axis; auto|apply wf_get_axis; auto; lia|congruence|]. intros v. rewrite M, M'. reflexivity.
    - apply (axis_eq_trans _ (get_axis y b)); [apply axis_eq_sym, Az; auto; lia|apply Ay; auto; lia]. }
  apply net_unique; auto.
  - apply ProofEquiv.same_knots_of; [lia|auto].
  - congruence.
  - apply bounded_of. intros b Hb v. destruct (Nat.eq_dec b a) as [->|Hne].
    + destruct Aaz as [D M]. rewrite M, D. pose proof (bounded_at y a Bk Ha v). destruct (wf_get_axis y a W Ha) as [Wp _]. cbn [spec_ax x_p] in Wp.
      repeat match goal with |- context [if ?t then _ else _] => destruct t end; lia.
    + assert (G := Az b ltac:(lia) Hne). rewrite (eq_mulA _ _ G), (ProofEquiv.e_deg _ _ G). apply bounded_at; auto. lia.
  - intros us c I Hc. rewrite (proj2 (Hz us c I)). apply Hy.
    apply in_box_lohi in I. destruct I as [Le I]. apply in_box_lohi. split; [lia|]. intros b Hb.
    destruct (eq_lohi z b y' b Wz ltac:(lia) (SK b ltac:(lia))) as [-> ->]. apply I. lia.
Qed.
End Part.

(** The condition of C25. *)
Definition slice_from (A : axis Rn) (start : option R) : R := match start with Some v => v | None => a_lo A end.
Definition slice_to (A : axis Rn) (end_ : option R) : R := match end_ with Some v => v | None => a_hi A end.
Definition slice_fits (A : axis Rn) (u0 u1 : R) : Prop := continuous_axis A /\ separated_list (a_knots A) (a_size A - 1 + a_deg A + 1) [u0; u1].
Lemma slice_part x ax a start end_ junk x' : wf_nurbs x -> py_axis (n_dim x) ax = Ok a -> let A := get_axis x a in
  slice_fits A (slice_from A start) (slice_to A end_) -> slice (N:=Rn) junk x ax start end_ = Ok x' ->
  slice_from A start < slice_to A end_ /\ part a (slice_from A start) (slice_to A end_) x x'.
Proof.
  intros W Ea A [Cn Hs] E. pose proof (py_axis_dim _ _ _ Ea) as Ha. unfold slice_from, slice_to in *. rewrite a_lo_eq, a_hi_eq in *.
  destruct (slice_spec x ax a start end_ junk x' W Ea Cn Hs E) as (H1 & H2 & H3 & Wy & EC & _ & HH & _).
  destruct (slice_mults x ax a start end_ junk x' W Ea Hs E) as (B & EX & PB). split; [exact H2|].
  split; [rewrite EX, lset_length; auto|exact Wy| | |exact EC|exact HH].
  - intros b Hb Hne. rewrite (get_lset x x' a B b EX Ha). destruct (Nat.eqb_spec b a); [contradiction|apply axis_eq_refl].
  - rewrite (get_lset x x' a B a EX Ha), Nat.eqb_refl. exact PB.
Qed.
Theorem slice_commutes l l' x y ax a start end_ junk x' z : wf_nurbs x -> all_ok l x y -> bounded_knots y -> py_axis (n_dim x) ax = Ok a ->
  let u0 := slice_from (get_axis x a) start in let u1 := slice_to (get_axis x a) end_ in
  slice_fits (get_axis x a) u0 u1 -> slice_fits (get_axis y a) u0 u1 -> slice (N:=Rn) junk x ax start end_ = Ok x' ->
  part_calls (n_dim x) a u0 u1 l l' -> all_ok l' x' z ->
  forall junk', exists y', slice (N:=Rn) junk' y ax start end_ = Ok y' /\ same_data y' z.
Proof.
  intros W H Bk Ea u0 u1 Fx Fy E F K junk'. pose proof (py_axis_dim _ _ _ Ea) as Ha.
  destruct (slice_part x ax a start end_ junk x' W Ea Fx E) as [U01 M]. fold u0 u1 in U01, M.
  destruct (part_all a u0 u1 l x y H W x' l' z M K F) as (Wy & Ly & MY).
  assert (Ey : py_axis (n_dim y) ax = Ok a) by (unfold n_dim in *; rewrite Ly; auto). destruct (ProofFlip.all_ok_ends l x y a H W Ha) as [D1 D2].
  assert (E0 : slice_from (get_axis y a) start = u0) by (unfold u0, slice_from; rewrite D1; auto). assert (E1 : slice_to (get_axis y a) end_ = u1) by (unfold u1, slice_to; rewrite D2; auto).
  destruct (slice_spec x ax a start end_ junk x' W Ea (proj1 Fx)) as (H1 & _ & H3 & _); [destruct Fx as [_ Fx]; unfold u0, u1, slice_from, slice_to in Fx; rewrite a_lo_eq, a_hi_eq in Fx; exact Fx|exact E|].
  assert (X : exists y', slice (N:=Rn) junk' y ax start end_ = Ok y').
  { pose proof Fy as [Cn Hs]. rewrite <- E0, <- E1 in Hs. unfold slice_from, slice_to in Hs. rewrite a_lo_eq, a_hi_eq in Hs.
    assert (G0 : a_lo (get_axis y a) <= u0) by (rewrite D1; unfold u0, slice_from; rewrite a_lo_eq; exact H1).
    assert (G1 : u1 <= a_hi (get_axis y a)) by (rewrite D2; unfold u1, slice_to; rewrite a_hi_eq; exact H3).
    rewrite <- E0 in G0, U01. rewrite <- E1 in G1, U01. unfold slice_from, slice_to in G0, G1, U01. rewrite a_lo_eq in G0, U01. rewrite a_hi_eq in G1, U01.
    exact (slice_ok y ax a start end_ junk' Wy Ey Cn Hs G0 U01 G1). }
  destruct X as [y' E']. exists y'. split; auto.
  destruct (slice_part y ax a start end_ junk' y' Wy Ey) as [_ MZ]; [rewrite E0, E1; exact Fy|exact E'|]. rewrite E0, E1 in MZ.
  apply (part_unique a u0 u1 y y' z Wy ltac:(lia) Bk MZ MY).
Qed.
Theorem slice_all_knots x ax a start end_ junk x' : wf_nurbs x -> py_axis (n_dim x) ax = Ok a ->
  let A := get_axis x a in let u0 := slice_from A start in let u1 := slice_to A end_ in
  slice_fits A u0 u1 -> slice (N:=Rn) junk x ax start end_ = Ok x' ->
  let B := get_axis x' a in let mult (C : axis Rn) v := multiplicity (a_knots C) 0 (a_len C - 1) v in
  a_deg B = a_deg A /\ mult B u0 = (a_deg A + 1)%Z /\ mult B u1 = (a_deg A + 1)%Z /\
  (forall v, u0 < v < u1 -> mult B v = mult A v) /\ (forall v, v < u0 \/ u1 < v -> mult B v = 0%Z) /\
  forall b, (b < length (n_axes x))%nat -> b <> a -> get_axis x' b = get_axis x b.
Proof.
  intros W Ea A u0 u1 F E B mult. pose proof (py_axis_dim _ _ _ Ea) as Ha.
  assert (EM : forall C v, mult C v = mulA C v) by (intros C v; unfold mult, mulA; f_equal; rewrite a_len_eq; lia).
  destruct (slice_part x ax a start end_ junk x' W Ea F E) as [U01 PP]. fold A u0 u1 in U01, PP. destruct (pa_axis _ _ _ _ _ PP) as [D M]. fold A B in D, M.
  split; [exact D|]. rewrite !EM. split; [rewrite M; destruct (Req_EM_T u0 u0); [auto|lra]|]. split; [rewrite M; destruct (Req_EM_T u1 u0); [auto|]; destruct (Req_EM_T u1 u1); [auto|lra]|].
  split; [|split].
  - intros v Hv. rewrite !EM, M. destruct (Req_EM_T v u0); [lra|]. destruct (Req_EM_T v u1); [lra|]. destruct (Rlt_dec u0 v); [|lra]. destruct (Rlt_dec v u1); [auto|lra].
  - intros v Hv. rewrite EM, M. destruct (Req_EM_T v u0); [lra|]. destruct (Req_EM_T v u1); [lra|]. destruct (Rlt_dec u0 v); [|auto]. destruct (Rlt_dec v u1); [lra|auto].
  - destruct F as [Cn Hs]. unfold u0, u1, slice_from, slice_to in Hs. rewrite a_lo_eq, a_hi_eq in Hs.
    destruct (slice_mults x ax a start end_ junk x' W Ea Hs E) as (B0 & EX & _). intros b Hb Hne. rewrite (get_lset x x' a B0 b EX Ha). destruct (Nat.eqb_spec b a); [contradiction|reflexivity].
Qed.
