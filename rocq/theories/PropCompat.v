(** Common knots and ruled objects (C52, C60, C76).  Vocabulary: SpecCompat.v ([joinable], [moved]),
    ProofCad.v ([shows], [unit_axis]), ProofGeom.v ([same_values]). *)
From Coq Require Import ZArith Reals QArith List Lia Lra Bool.
From Verif Require Import Num Loop ModelBspline ModelBSp ModelNurbs ModelIga ModelCad Spec SpecElev SpecCompat SumZ BPiece BLink ProofSpan
  SpecNurbs ProofNet ProofCall ProofNurbs ProofGeom ProofGeom2 ProofCad ProofRuled ExTac PropNurbs PropRefuted.
Import ListNotations.
Local Open Scope R_scope.

(** ** C60: compat *)
(** The objects returned have, along the axes asked for, the largest degree, the largest domain and
    the same knots; each is the corresponding input with its parameters mapped affinely; other axes
    are untouched. *)
Theorem C60_compat : forall junk junk2 nrbs axes d L lo hi deg,
  (2 <= length nrbs)%nat -> axes_are d axes L -> (forall nrb, In nrb nrbs -> wf_nurbs nrb) -> joinable nrbs d L lo hi deg ->
  exists outs, compat (N:=Rn) junk junk2 nrbs axes = Ok outs /\
    Forall2 (fun nrb out => wf_nurbs out /\ n_comp out = n_comp nrb /\ length (n_axes out) = d /\
       (forall a, In a L -> let B := get_axis out a in open_axis B /\ a_deg B = deg a /\ a_lo B = lo a /\ a_hi B = hi a) /\
       (forall b, ~ In b L -> get_axis out b = get_axis nrb b) /\
       (forall xs xs', good_args (spec_axes nrb) xs -> moved_args nrb L lo hi xs xs' ->
          good_args (spec_axes out) xs' /\ same_values nrb out xs xs' (fun idx => idx))) nrbs outs /\
    forall a out out', In a L -> In out outs -> In out' outs -> a_size (get_axis out a) = a_size (get_axis out' a) /\
       a_len (get_axis out a) = a_len (get_axis out' a) /\
       (forall j, (0 <= j < a_len (get_axis out a))%Z -> a_knots (get_axis out a) j = a_knots (get_axis out' a) j).
Proof. exact compat_calls. Qed.
Print Assumptions C60_compat.

(** A quadratic curve over [0,2] with a knot at 1 and a rational line of two pieces over [0,1]
    with a knot at 1/4, three components of the second being different. *)
Definition exQ : nurbs Rn := mkNurbs [mkAxis (N:=Rn) 4 7 exU] 4 (fun idx c => if (c =? 3)%Z then 1 else IZR (nth 0 idx 0 * (1 + c))%Z).
Definition exW : Z -> R := arr [0; 0; 1 / 4; 1; 1].
Definition exL : nurbs Rn := mkNurbs [mkAxis (N:=Rn) 3 5 exW] 4 (fun idx c => IZR (1 + nth 0 idx 0 + c)%Z).
Lemma exW_wf : wf_knots 2 1 exW.
Proof. unfold exW. wf_list 0%Z 3%Z. Qed.
Lemma exQ_wf : wf_nurbs exQ.
Proof. split; [simpl; lia|]. split; [|simpl; lia]. constructor; [|constructor]. split; [simpl; unfold a_deg; simpl; lia|exact exU_wf]. Qed.
Lemma exL_wf : wf_nurbs exL.
Proof. split; [simpl; lia|]. split; [|simpl; lia]. constructor; [|constructor]. split; [simpl; unfold a_deg; simpl; lia|exact exW_wf]. Qed.
Lemma exQ_open : open_axis (get_axis exQ 0).
Proof.
  split; [split|]; intros j Hj; cbn in Hj; unfold a_deg in Hj; cbn in Hj; cbn; unfold a_deg; cbn.
  - enumz j 0%Z 2%Z; reflexivity.
  - enumz j 4%Z 6%Z; reflexivity.
  - enumz j 3%Z 3%Z. unfold exU. arr_lra.
Qed.
Lemma exL_open : open_axis (get_axis exL 0).
Proof.
  split; [split|]; intros j Hj; cbn in Hj; unfold a_deg in Hj; cbn in Hj; cbn; unfold a_deg; cbn.
  - enumz j 0%Z 1%Z; reflexivity.
  - enumz j 3%Z 4%Z; reflexivity.
  - enumz j 2%Z 2%Z. unfold exW. arr_lra.
Qed.
Ltac arr_ev := cbv [rescale a_lo a_hi a_deg a_size a_len a_knots get_axis n_axes exQ exL exU exW arr nth Z.to_nat Pos.to_nat Pos.iter_op Init.Nat.add Z.add Z.sub Z.opp Z.pos_sub Pos.add Pos.succ Pos.pred_double Z.pred_double Z.succ_double Z.double].
Lemma ex_joinable : joinable [exQ; exL] 1 [0%nat] (fun _ => 0) (fun _ => 2) (fun _ => 2%Z).
Proof.
  constructor.
  - intros nrb [<-|[<-|[]]]; reflexivity.
  - intros a [<-|[]]; lia.
  - constructor; [intros []|constructor].
  - intros nrb a [<-|[<-|[]]] [<-|[]]; [exact exQ_open|exact exL_open].
  - intros nrb a [<-|[<-|[]]] [<-|[]]; cbv zeta; (split; [|split]); try (arr_ev; lra); cbn; unfold a_deg; cbn; lia.
  - intros a [<-|[]]. split; [exists exQ; split; [left; auto|arr_ev; lra]|]. split; [exists exQ; split; [left; auto|arr_ev; lra]|exists exQ; split; [left; auto|reflexivity]].
  - intros nrb a [<-|[<-|[]]] [<-|[]]; cbv zeta; right; left; cbn; unfold a_deg; cbn; lia.
  - intros a nrb nrb' j j' [<-|[]] [<-|[<-|[]]] [<-|[<-|[]]]; cbv zeta; intros Hj Hj'; cbn in Hj, Hj';
    match type of Hj with (0 <= _ < ?n)%Z => enumz j 0%Z (n - 1)%Z end; match type of Hj' with (0 <= _ < ?n)%Z => enumz j' 0%Z (n - 1)%Z end;
    arr_ev; ((left; lra) || (right; unfold Rabs; destruct (Rcase_abs _); lra)).
Qed.
Example C60_example : axes_are 1 (Some [(-1)%Z]) [0%nat] /\ (forall nrb, In nrb [exQ; exL] -> wf_nurbs nrb) /\
  joinable [exQ; exL] 1 [0%nat] (fun _ => 0) (fun _ => 2) (fun _ => 2%Z) /\
  moved_args exL [0%nat] (fun _ => 0) (fun _ => 2) [mkVec (N:=Rn) 2 (fun i => IZR i / 3)] [mkVec (N:=Rn) 2 (fun i => IZR i * 2 / 3)].
Proof.
  split; [constructor; [reflexivity|constructor]|]. split; [intros nrb [<-|[<-|[]]]; [exact exQ_wf|exact exL_wf]|]. split; [exact ex_joinable|].
  split; [reflexivity|]. intros b Hb. cbn in Hb. assert (b = 0%nat) by lia. subst b. cbn [nth]. split; [reflexivity|]. intros i.
  assert (E : forall x : R, x * 2 / 3 = rescale (get_axis exL 0) 0 2 (x / 3)) by (intros x; arr_ev; field). apply E.
Qed.

(** ** C52: ruled objects *)
(** In homogeneous coordinates the object is the linear interpolation of the two inputs, read at the
    affinely corresponding parameters; at the ends of the new axis the calls return the points of the
    inputs. *)
Theorem C52_ruled : forall junk junk2 nrb1 nrb2 d lo hi deg, wf_nurbs nrb1 -> wf_nurbs nrb2 -> (1 <= d <= 2)%nat -> joinable [nrb1; nrb2] d (seq 0 d) lo hi deg ->
  exists srf, ruled (N:=Rn) junk junk2 nrb1 nrb2 = Ok srf /\ wf_nurbs srf /\ length (n_axes srf) = S d /\ get_axis srf d = unit_axis /\
   (forall a, (a < d)%nat -> let B := get_axis srf a in open_axis B /\ a_deg B = deg a /\ a_lo B = lo a /\ a_hi B = hi a) /\
   (forall v, in_box (spec_axes srf) v -> exists us1 us2 us t, v = us ++ [t] /\ 0 <= t <= 1 /\ in_box (spec_axes nrb1) us1 /\ in_box (spec_axes nrb2) us2 /\
      moved nrb1 (seq 0 d) lo hi us1 us /\ moved nrb2 (seq 0 d) lo hi us2 us) /\
   (forall us1 us2 us t, in_box (spec_axes nrb1) us1 -> in_box (spec_axes nrb2) us2 -> moved nrb1 (seq 0 d) lo hi us1 us -> moved nrb2 (seq 0 d) lo hi us2 us -> 0 <= t <= 1 ->
     in_box (spec_axes srf) (us ++ [t]) /\ forall c, (0 <= c < 4)%Z -> hom srf c (us ++ [t]) = (1 - t) * hom nrb1 c us1 + t * hom nrb2 c us2) /\
   forall f1 f2, shows nrb1 f1 -> shows nrb2 f2 -> exists g, shows srf g /\
     forall us1 us2 us c, in_box (spec_axes nrb1) us1 -> in_box (spec_axes nrb2) us2 -> moved nrb1 (seq 0 d) lo hi us1 us -> moved nrb2 (seq 0 d) lo hi us2 us -> (0 <= c < 3)%Z ->
       g (us ++ [0]) c = f1 us1 c /\ g (us ++ [1]) c = f2 us2 c.
Proof. exact ruled_user. Qed.
Print Assumptions C52_ruled.
Example C52_example : wf_nurbs exQ /\ wf_nurbs exL /\ joinable [exQ; exL] 1 (seq 0 1) (fun _ => 0) (fun _ => 2) (fun _ => 2%Z).
Proof. split; [exact exQ_wf|]. split; [exact exL_wf|exact ex_joinable]. Qed.

(** ** C76: inputs that are not clamped *)
(** Two quadratic curves over [0,3] with the same breaks, one of them unclamped: compat inserts nothing, the
    knots outside the domain stay different, and ruled takes those of the first curve. *)
Theorem C76_ruled_unclamped_refuted : exists nrb1 nrb2 srf, wfQ nrb1 && wfQ nrb2 = true /\
  ruled (N:=Qn) zj (fun _ _ => 0%Q) nrb1 nrb2 = Ok srf /\
  value nrb2 [0%Q] 0 = Some 0%Q /\ value srf [0%Q; 1%Q] 0 = Some (1 # 2)%Q.
Proof.
  set (A := crv 5 [-2; -1; 0; 1; 2; 3; 4; 5]%Q [0; 1; 2; 3; 4]%Q). set (B := crv 5 [0; 0; 0; 1; 2; 3; 3; 3]%Q [0; 1; 2; 3; 4]%Q).
  exists A, B. eexists. split; [vm_compute; reflexivity|]. split; [reflexivity|]. split; vm_compute; reflexivity.
Qed.
Print Assumptions C76_ruled_unclamped_refuted.
